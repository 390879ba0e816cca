(** Properties of number formatting: C42 (significant figures), C68 (scientific notation), C69 (value and errors). *)
From Verif Require Import PyBase PyNum PyStrFacts FmtModel FmtSpec FmtProofs FmtProofs2.
From Coq Require Import ZArith QArith Qabs Qround Qpower String Ascii Bool List Lia Lqa.
Import ListNotations.
Local Open Scope nat_scope.
Local Open Scope list_scope.

Lemma pow10_le a b : (a <= b)%Z -> (pow10 a <= pow10 b)%Q.
Proof. intros H. apply Qpower_le_compat_l; [exact H|discriminate]. Qed.
Lemma figs_rounds d sf : nonzero_dec d -> 1 <= sf -> exists ip fp, reads (figs_text (Fin d) sf) (d_neg d) ip fp /\
  rounded_to (pow10 (lead d - Z.of_nat sf + 1)) (dec_abs d) (text_abs ip fp).
Proof.
  intros W H1. destruct (figs_spec d sf W H1) as (ip & fp & R & _ & V & _). exists ip, fp. split; [exact R|].
  destruct (rnd_rounds d sf W H1) as (m & A & B & C). exists m. rewrite V. auto.
Qed.
Lemma rounded_ext u x y z : (y == z)%Q -> rounded_to u x y -> rounded_to u x z.
Proof. intros E (m & A & B & C). exists m. rewrite <- E. auto. Qed.

(** ** C42 *)

(** A non-zero number is printed as the nearest multiple of the unit of its last wanted figure (ties away from
    zero), with its sign, exactly the wanted number of significant figures, and no decimals beyond them; trailing
    zeros among the figures are kept, since the number of decimals is fixed by the unit alone. *)
Theorem C42_rounds d sf : nonzero_dec d -> (0 < sf)%Z ->
  exists s ip fp k, numberFigs (Fin d) sf = Ok s /\ reads s (d_neg d) ip fp /\
    rounded_to (pow10 (lead d - sf + 1)) (dec_abs d) (text_abs ip fp) /\
    has_figures (Z.to_nat sf) k (text_abs ip fp) /\ Z.of_nat (List.length fp) = Z.max 0 (- k).
Proof.
  intros W H. assert (H1 : 1 <= Z.to_nat sf) by lia.
  destruct (figs_spec d (Z.to_nat sf) W H1) as (ip & fp & R & F & V & Lf).
  exists (figs_text (Fin d) (Z.to_nat sf)), ip, fp. eexists. unfold numberFigs.
  destruct (Z.leb_spec sf 0); [lia|]. split; [reflexivity|]. split; [exact R|]. split; [|split; [exact F|]].
  - pose proof (rnd_rounds d (Z.to_nat sf) W H1) as Q. rewrite Z2Nat.id in Q by lia.
    eapply rounded_ext; [|exact Q]. rewrite V, Z2Nat.id by lia. reflexivity.
  - rewrite Lf. destruct (carry d (Z.to_nat sf)); lia.
Qed.
Print Assumptions C42_rounds.

(** Zero is printed as 0 with one decimal less than there are figures. *)
Theorem C42_zero neg sf : (0 < sf)%Z ->
  exists s, numberFigs (Fin (mkdec neg [0] 0)) sf = Ok s /\
    reads s neg (L "0") (repeat "0"%char (Z.to_nat sf - 1)).
Proof.
  intros H. unfold numberFigs. destruct (Z.leb_spec sf 0); [lia|]. eexists. split; [reflexivity|].
  assert (W : zero_dec (mkdec neg [0] 0)) by (split; cbn; [reflexivity|lia]).
  pose proof (figs_zero (mkdec neg [0] 0) (Z.to_nat sf) W ltac:(lia)) as R.
  replace (Z.to_nat (Z.of_nat (Z.to_nat sf) - 1 - lead (mkdec neg [0] 0))) with (Z.to_nat sf - 1) in R by (unfold lead; cbn [d_exp d_digits List.length]; lia).
  exact R.
Qed.
Print Assumptions C42_zero.

(** the printed values are in the order of the numbers *)
Lemma rounded_mono u x1 x2 y1 y2 : (0 < u)%Q -> rounded_to u x1 y1 -> rounded_to u x2 y2 -> (x1 <= x2)%Q -> (y1 <= y2)%Q.
Proof.
  intros Pu (m1 & A1 & B1 & C1) (m2 & A2 & B2 & C2) H.
  destruct (Nat.le_gt_cases m1 m2) as [L|L].
  - rewrite A1, A2. apply Qmult_le_compat_r; [|lra]. rewrite <- Zle_Qle. lia.
  - exfalso. assert (G : (y2 + u <= y1)%Q).
    { rewrite A1, A2. assert (E : (inject_Z (Z.of_nat m2) * u + u == inject_Z (Z.of_nat (S m2)) * u)%Q).
      { rewrite Nat2Z.inj_succ, <- Z.add_1_l, inject_Z_plus. change (inject_Z 1) with 1%Q. ring. }
      rewrite E. apply Qmult_le_compat_r; [|lra]. rewrite <- Zle_Qle. lia. }
    assert (D1 : (2 * (y1 - x1) <= u)%Q) by (pose proof (Qle_Qabs (y1 - x1)); lra).
    assert (D2 : (2 * (x2 - y2) <= u)%Q) by (pose proof (Qle_Qabs (x2 - y2)) as K; rewrite Qabs_Qminus in K; lra).
    assert (E2 : (2 * (x2 - y2) == u)%Q) by lra.
    assert (K : (x2 <= y2)%Q).
    { apply C2. rewrite Qabs_Qminus, Qabs_pos; lra. }
    lra.
Qed.
(** the text of a positive number is within a factor of the leading power of ten *)
Lemma rounded_range d sf ip fp : nonzero_dec d -> 1 <= sf -> reads (figs_text (Fin d) sf) (d_neg d) ip fp ->
  (pow10 (lead d) <= text_abs ip fp <= pow10 (lead d + 1))%Q.
Proof.
  intros W H1 R. destruct (figs_spec d sf W H1) as (ip' & fp' & R' & _ & V & _).
  destruct (reads_unique _ _ _ _ _ _ _ R R') as (_ & -> & ->).
  destruct (rnd_bounds d sf W H1) as [B1 B2]. rewrite V.
  assert (P : (0 < pow10 (lead d - Z.of_nat sf + 1))%Q) by apply pow10_pos.
  split.
  - replace (lead d) with (Z.of_nat (sf - 1) + (lead d - Z.of_nat sf + 1))%Z at 1 by lia.
    rewrite pow10_add, pow10_nat. apply Qmult_le_compat_r; [|lra]. rewrite <- Zle_Qle. lia.
  - replace (lead d + 1)%Z with (Z.of_nat sf + (lead d - Z.of_nat sf + 1))%Z by lia.
    rewrite (pow10_add (Z.of_nat sf)), pow10_nat. apply Qmult_le_compat_r; [|lra]. rewrite <- Zle_Qle. lia.
Qed.
(** the leading power of ten *)
Lemma lead_range d : nonzero_dec d -> (pow10 (lead d) <= dec_abs d < pow10 (lead d + 1))%Q.
Proof.
  intros [D (x & r & E & Hx)]. unfold dec_abs, lead. pose proof (int_of_lt _ D) as U.
  pose proof (int_of_ge x r Hx) as G. rewrite <- E in G.
  assert (P : (0 < pow10 (d_exp d))%Q) by apply pow10_pos. rewrite E in U |- *. rewrite <- E in U at 1. cbn [List.length] in *.
  rewrite E in G. rewrite E in U. split.
  - replace (d_exp d + Z.of_nat (S (List.length r)) - 1)%Z with (Z.of_nat (List.length r) + d_exp d)%Z by lia.
    rewrite pow10_add, pow10_nat. apply Qmult_le_compat_r; [|lra]. rewrite <- Zle_Qle. lia.
  - replace (d_exp d + Z.of_nat (S (List.length r)) - 1 + 1)%Z with (Z.of_nat (S (List.length r)) + d_exp d)%Z by lia.
    rewrite pow10_add, pow10_nat. apply Qmult_lt_r; [exact P|]. rewrite <- Zlt_Qlt. lia.
Qed.
Theorem C42_monotone d1 d2 sf s1 s2 ip1 fp1 ip2 fp2 : nonzero_dec d1 -> nonzero_dec d2 -> (0 < sf)%Z ->
  numberFigs (Fin d1) sf = Ok s1 -> reads s1 (d_neg d1) ip1 fp1 ->
  numberFigs (Fin d2) sf = Ok s2 -> reads s2 (d_neg d2) ip2 fp2 ->
  (dec_abs d1 <= dec_abs d2)%Q -> (text_abs ip1 fp1 <= text_abs ip2 fp2)%Q.
Proof.
  intros W1 W2 Hs E1 R1 E2 R2 H. unfold numberFigs in *. destruct (Z.leb_spec sf 0); [lia|].
  injection E1 as <-. injection E2 as <-. set (n := Z.to_nat sf) in *. assert (H1 : 1 <= n) by (unfold n; lia).
  destruct (Z.lt_trichotomy (lead d1) (lead d2)) as [L|[L|L]].
  - pose proof (rounded_range d1 n _ _ W1 H1 R1) as [_ A]. pose proof (rounded_range d2 n _ _ W2 H1 R2) as [B _].
    apply Qle_trans with (pow10 (lead d1 + 1)); [exact A|]. apply Qle_trans with (pow10 (lead d2)); [apply pow10_le; lia|exact B].
  - destruct (figs_rounds d1 n W1 H1) as (a & b & Ra & Q1). destruct (figs_rounds d2 n W2 H1) as (a' & b' & Rb & Q2).
    destruct (reads_unique _ _ _ _ _ _ _ R1 Ra) as (_ & -> & ->). destruct (reads_unique _ _ _ _ _ _ _ R2 Rb) as (_ & -> & ->).
    rewrite L in Q1. eapply rounded_mono; [|exact Q1|exact Q2|exact H]. apply pow10_pos.
  - exfalso. pose proof (lead_range d1 W1) as [A _]. pose proof (lead_range d2 W2) as [_ B].
    assert (C : (pow10 (lead d2 + 1) <= pow10 (lead d1))%Q) by (apply pow10_le; lia). lra.
Qed.
Print Assumptions C42_monotone.

(** With wantSign a plus sign is put exactly before the texts that stand for a positive number, and nothing else
    changes; the number of figures must be positive. *)
Theorem C42_sign d sf (want : bool) : wf_dec d -> (0 < sf)%Z ->
  exists s ip fp, numberFigs (Fin d) sf = Ok s /\ reads s (d_neg d) ip fp /\
    formatNumber (Fin d) sf want =
      Ok (if want && negb (d_neg d) && negb (digits_val (ip ++ fp) =? 0) then L "+" ++ s else s).
Proof.
  intros W H. assert (H1 : 1 <= Z.to_nat sf) by lia.
  assert (R : exists ip fp, reads (figs_text (Fin d) (Z.to_nat sf)) (d_neg d) ip fp).
  { destruct W as [W|W].
    - destruct (figs_spec d _ W H1) as (ip & fp & R & _). eauto.
    - eexists _, _. exact (figs_zero d _ W H1). }
  destruct R as (ip & fp & R). exists (figs_text (Fin d) (Z.to_nat sf)), ip, fp. unfold formatNumber, numberFigs.
  destruct (Z.leb_spec sf 0); [lia|]. split; [reflexivity|]. split; [exact R|]. cbn [bindR].
  rewrite (text_positive_reads _ _ _ _ R), andb_assoc. reflexivity.
Qed.
Print Assumptions C42_sign.
Theorem C42_figures_positive d sf : (sf <= 0)%Z -> exists m, numberFigs d sf = Err (OtherError m).
Proof. intros H. unfold numberFigs. destruct (Z.leb_spec sf 0); [eauto|lia]. Qed.
Print Assumptions C42_figures_positive.

(** FINDING: infinities and not-a-number are printed as zero, since Decimal gives them the digits (0,) and () and
    exponent 0. *)
Theorem C42_special_refuted : exists s,
  numberFigs (Inf false) 4 = Ok s /\ numberFigs (NaN false) 4 = Ok s /\ numberFigs (Fin (mkdec false [0] 0)) 4 = Ok s /\ s = L "0.000".
Proof. exists (L "0.000"). vm_compute. auto. Qed.
Print Assumptions C42_special_refuted.

(** 123.6, 0.00996 and -9.96 *)
Definition ex1 := mkdec false [1; 2; 3; 6] (-1).
Definition ex2 := mkdec false [9; 9; 6] (-5).
Definition ex3 := mkdec true [9; 9; 6] (-2).
Example C42_ex : numberFigs (Fin ex1) 2 = Ok (L "120") /\ numberFigs (Fin ex1) 3 = Ok (L "124") /\
  numberFigs (Fin ex1) 6 = Ok (L "123.600") /\ numberFigs (Fin ex2) 2 = Ok (L "0.010") /\ numberFigs (Fin ex2) 3 = Ok (L "0.00996") /\
  numberFigs (Fin ex3) 2 = Ok (L "-10") /\ formatNumber (Fin ex2) 1 true = Ok (L "+0.01") /\
  numberFigs (Fin (mkdec false [0] 0)) 1 = Ok (L "0").
Proof. vm_compute. repeat split. Qed.
Example C42_hyp : nonzero_dec ex1 /\ nonzero_dec ex2 /\ nonzero_dec ex3.
Proof.
  split; [|split]; (split; [cbn; intros x H; repeat (destruct H as [<-|H]; [lia|]); destruct H|eexists _, _; split; [reflexivity|discriminate]]).
Qed.

(** ** C68: scientific notation *)

(** A power of ten is split off exactly when the leading digit is more than four places from the units. *)
Theorem C68_exponent scale d sf s e : numberFigs_sci scale (Fin d) sf = Ok (s, e) ->
  ((Z.abs (lead d) <= 4)%Z /\ e = 0%Z /\ numberFigs (Fin d) sf = Ok s) \/
  ((4 < Z.abs (lead d))%Z /\ e = lead d /\ exists d', scale (Fin d) e = Ok d' /\ numberFigs d' sf = Ok s).
Proof.
  unfold numberFigs_sci, numberFigs. destruct (Z.leb_spec sf 0); [discriminate|]. unfold sci_tolerance, adjusted. fold (lead d).
  destruct (Z.ltb_spec 4 (Z.abs (lead d))) as [A|A].
  - destruct (scale (Fin d) (lead d)) as [d'|] eqn:E; [|discriminate]. cbn [bindR]. intros [= <- <-]. right. split; [exact A|]. split; [reflexivity|].
    exists d'. auto.
  - intros [= <- <-]. left. auto.
Qed.
Print Assumptions C68_exponent.

(** Text times power of ten is the number, up to half a unit of the last figure and the error of the scaling. *)
Theorem C68_value scale d sf s e d' delta : nonzero_dec d -> numberFigs_sci scale (Fin d) sf = Ok (s, e) -> e <> 0%Z ->
  scale (Fin d) e = Ok (Fin d') -> nonzero_dec d' -> (Qabs (dec_abs d' * pow10 e - dec_abs d) <= delta)%Q ->
  exists ip fp, reads s (d_neg d') ip fp /\
    (2 * Qabs (text_abs ip fp * pow10 e - dec_abs d) <= pow10 (e + lead d' - sf + 1) + 2 * delta)%Q.
Proof.
  intros W H Ne Es W' Hd. destruct (C68_exponent _ _ _ _ _ H) as [(_ & E & _)|(_ & E & x & E1 & E2)]; [contradiction|].
  rewrite Es in E1. injection E1 as <-. unfold numberFigs in E2. destruct (Z.leb_spec sf 0) as [|P]; [discriminate|]. injection E2 as <-.
  destruct (figs_rounds d' (Z.to_nat sf) W' ltac:(lia)) as (ip & fp & R & m & A & B & _). exists ip, fp. split; [exact R|].
  rewrite Z2Nat.id in B by lia. set (t := text_abs ip fp) in *. set (x := dec_abs d') in *.
  assert (Pe : (0 < pow10 e)%Q) by apply pow10_pos.
  replace (e + lead d' - sf + 1)%Z with ((lead d' - sf + 1) + e)%Z by lia. rewrite pow10_add.
  assert (B' : (2 * Qabs (t - x) * pow10 e <= pow10 (lead d' - sf + 1) * pow10 e)%Q) by (apply Qmult_le_compat_r; [exact B|lra]).
  assert (T : (Qabs (t * pow10 e - dec_abs d) <= Qabs ((t - x) * pow10 e) + Qabs (x * pow10 e - dec_abs d))%Q).
  { eapply Qle_trans; [|apply Qabs_triangle]. apply Qle_lteq. right. apply Qabs_wd. ring. }
  rewrite Qabs_Qmult, (Qabs_pos (pow10 e)) in T by lra. lra.
Qed.
Print Assumptions C68_value.

(** The number before the power of ten is at least one and at most ten; it is below ten unless rounding carries. *)
Theorem C68_mantissa_partial d' sf s : nonzero_dec d' -> lead d' = 0%Z -> numberFigs (Fin d') sf = Ok s ->
  exists ip fp, reads s (d_neg d') ip fp /\ (1 <= text_abs ip fp <= 10)%Q /\
    ((2 * (10 - dec_abs d') > pow10 (1 - sf))%Q -> (text_abs ip fp < 10)%Q).
Proof.
  intros W L0 H. unfold numberFigs in H. destruct (Z.leb_spec sf 0) as [|P]; [discriminate|]. injection H as <-.
  assert (H1 : 1 <= Z.to_nat sf) by lia.
  destruct (figs_rounds d' (Z.to_nat sf) W H1) as (ip & fp & R & m & A & B & _). exists ip, fp. split; [exact R|].
  pose proof (rounded_range d' _ _ _ W H1 R) as [C D]. rewrite L0 in C, D. change (pow10 0) with 1%Q in C.
  change (pow10 (0 + 1)) with 10%Q in D. split; [split; assumption|]. intros Hx. rewrite Z2Nat.id, L0 in B by lia.
  replace (0 - sf + 1)%Z with (1 - sf)%Z in B by lia. apply Qnot_le_lt. intros K.
  pose proof (Qle_Qabs (text_abs ip fp - dec_abs d')). lra.
Qed.
Print Assumptions C68_mantissa_partial.
(** exact scaling of a decimal number *)
Definition scale_exact (d : dnum) (e : Z) : res dnum :=
  match d with Fin d => Ok (Fin (mkdec (d_neg d) (d_digits d) (d_exp d - e))) | x => Ok x end.
(** FINDING: 999960 to four figures is written 10.00 times ten to the fifth, not 1.000 times ten to the sixth. *)
Theorem C68_mantissa_refuted : numberFigs_sci scale_exact (Fin (mkdec false [9; 9; 9; 9; 6] 1)) 4 = Ok (L "10.00", 5%Z).
Proof. reflexivity. Qed.
Print Assumptions C68_mantissa_refuted.
Example C68_ex : numberFigs_sci scale_exact (Fin (mkdec true [2; 1; 0; 6] (-12))) 3 = Ok (L "-2.11", (-9)%Z) /\
  numberFigs_sci scale_exact (Fin ex1) 2 = Ok (L "120", 0%Z) /\
  lead (mkdec true [2; 1; 0; 6] (-3)) = 0%Z /\ nonzero_dec (mkdec true [2; 1; 0; 6] (-3)).
Proof.
  split; [reflexivity|]. split; [reflexivity|]. split; [reflexivity|].
  split; [cbn; intros x H; repeat (destruct H as [<-|H]; [lia|]); destruct H|eexists _, _; split; [reflexivity|discriminate]].
Qed.

(** ** C69: value and errors *)

(** the loops end *)
Theorem C69_defined nf value limplus limminus (want : bool) :
  wf_dec value -> wf_dec limplus -> wf_dec limminus -> 1 <= nf_sig_figs nf -> 1 <= nf_err_sf nf ->
  ~ (Qabs (dec_val value) + dec_val limplus == 0)%Q ->
  exists N r, forall fuel, N <= fuel -> namesigFigs fuel nf value limplus limminus want = Ok r.
Proof.
  intros Wv Wp Wm Hs He Hz. unfold namesigFigs, choose_sf.
  destruct (Qeq_bool (Qabs (dec_val value) + dec_val limplus)%Q 0) eqn:Z; [apply Qeq_bool_eq in Z; contradiction|].
  cbn [bindR fst snd].
  set (sf := if (_ : bool) then 2 else _). set (ef := if (_ : bool) then 1 else _).
  assert (Hsf : 1 <= sf) by (unfold sf; repeat match goal with |- context [if ?b then _ else _] => destruct b end; lia).
  assert (Hef : 1 <= ef) by (unfold ef; match goal with |- context [if ?b then _ else _] => destruct b end; lia).
  clearbody sf ef. unfold align, formatNumber, numberFigs.
  destruct (Z.leb_spec (Z.of_nat ef) 0); [lia|]. destruct (Z.leb_spec (Z.of_nat sf) 0); [lia|].
  cbn [bindR]. rewrite !Nat2Z.id. cbn [andb].
  match goal with |- context [if ?b then L "+" ++ figs_text (Fin limplus) ef else _] =>
    set (ps := if b then L "+" ++ figs_text (Fin limplus) ef else figs_text (Fin limplus) ef) end.
  match goal with |- context [if ?b then L "+" ++ figs_text (Fin limminus) ef else _] =>
    set (ms := if b then L "+" ++ figs_text (Fin limminus) ef else figs_text (Fin limminus) ef) end.
  set (mx := Nat.max (decimal_places ps) (decimal_places ms)).
  destruct (fewer_spec value mx sf _ Hsf eq_refl) as (sf' & E1 & _ & Hd & [(E2 & E3)|(E2 & E3)]).
  - exists 1. eexists. intros fuel Hf. destruct fuel as [|fuel]; [lia|]. rewrite E1, E3. cbn [more].
    rewrite fixed_nozero_places. destruct (Nat.ltb_spec mx (decimal_places ps)) as [A|A]; [unfold mx in A; lia|]. reflexivity.
  - destruct (dp_large value (decimal_places ps) Wv) as (N & HN). rewrite E1, E3.
    destruct (more_some value (decimal_places ps) N HN N sf' E2 ltac:(lia)) as (s & Es).
    exists (S N), (s, ps, ms). intros fuel Hf.
    assert (M : forall k fu sf0 r0, more fu value (decimal_places ps) sf0 r0 = Some s -> more (fu + k) value (decimal_places ps) sf0 r0 = Some s).
    { intros k fu. induction fu as [|fu IH]; intros sf0 r0 Q; [discriminate Q|]. cbn [more plus] in *. destruct (decimal_places r0 <? decimal_places ps); [now apply IH|exact Q]. }
    replace fuel with (S N + (fuel - S N)) by lia. rewrite (M _ _ _ _ Es). reflexivity.
Qed.
Print Assumptions C69_defined.

(** The errors are printed with their own number of figures.  The value is printed either with some number of
    significant figures, or with as many decimals as the errors; it has at least as many decimals as the upper
    error, and at most one more than the larger number of decimals of the errors. *)
Theorem C69_places_partial fuel nf value limplus limminus (want : bool) v p m :
  wf_dec value -> 1 <= nf_sig_figs nf ->
  namesigFigs fuel nf value limplus limminus want = Ok (v, p, m) ->
  (exists ef, formatNumber (Fin limplus) ef want = Ok p /\ formatNumber (Fin limminus) ef want = Ok m) /\
  ((exists sf, (0 < sf)%Z /\ numberFigs (Fin value) sf = Ok v) \/
   v = fixed_nozero (Nat.max (decimal_places p) (decimal_places m)) value) /\
  decimal_places p <= decimal_places v <= S (Nat.max (decimal_places p) (decimal_places m)) /\
  ((forall x r, d_digits value = x :: r -> x <> 9) ->
   decimal_places v <= Nat.max (decimal_places p) (decimal_places m)).
Proof.
  intros Wv Hs. unfold namesigFigs, choose_sf. destruct (Qeq_bool _ _); [discriminate|]. cbn [bindR fst snd].
  set (sf := if (_ : bool) then 2 else _). set (ef := if (_ : bool) then 1 else _).
  assert (Hsf : 1 <= sf) by (unfold sf; repeat match goal with |- context [if ?b then _ else _] => destruct b end; lia).
  clearbody sf ef. unfold align.
  destruct (formatNumber (Fin limplus) (Z.of_nat ef) want) as [p'|] eqn:Ep; [|discriminate].
  destruct (formatNumber (Fin limminus) (Z.of_nat ef) want) as [m'|] eqn:Em; [|discriminate].
  unfold formatNumber at 1, numberFigs at 1. destruct (Z.leb_spec (Z.of_nat sf) 0); [lia|]. cbn [bindR andb]. rewrite Nat2Z.id.
  set (mx := Nat.max (decimal_places p') (decimal_places m')).
  destruct (fewer_spec value mx sf _ Hsf eq_refl) as (sf' & E1 & Hle & Hd & Cs).
  destruct (more fuel value (decimal_places p') _ _) as [v'|] eqn:Ev; [|discriminate].
  intros [= <- <- <-]. fold mx. split; [eauto|]. rewrite E1 in Ev. destruct Cs as [(E2 & E3)|(E2 & E3)].
  - rewrite E3 in Ev. assert (V : v' = fixed_nozero mx value).
    { destruct fuel as [|fuel]; [discriminate|]. cbn [more] in Ev. rewrite fixed_nozero_places in Ev.
      destruct (Nat.ltb_spec mx (decimal_places p')) as [A|A]; [unfold mx in A; lia|]. congruence. }
    rewrite V, fixed_nozero_places. split; [now right|]. split; [unfold mx; lia|lia].
  - rewrite E3 in Hd. destruct (more_spec value (decimal_places p') fuel sf' _ v' E2 E3 Ev) as (k & K1 & -> & K2 & K3).
    split; [left; exists (Z.of_nat k); split; [lia|]; unfold numberFigs; destruct (Z.leb_spec (Z.of_nat k) 0); [lia|]; now rewrite Nat2Z.id|].
    fold (dp value k) in *. fold (dp value sf') in Hd.
    destruct (Nat.eq_dec k sf') as [->|Nk].
    + split; [lia|]. lia.
    + assert (K4 : dp value (k - 1) < decimal_places p') by (apply K3; lia).
      pose proof (dp_step value (k - 1) Wv ltac:(lia)) as St. replace (S (k - 1)) with k in St by lia.
      split; [unfold mx; lia|]. intros H9.
      assert (Sd : steady value).
      { destruct Wv as [Wv|Wv]; [|now apply steady_zero]. intros q Hq. destruct (proj2 Wv) as (x & r & Ex & Hx).
        apply (carry_leading value q x r Wv Hq Ex). now apply (H9 x r). }
      pose proof (dp_step_steady value (k - 1) Wv Sd ltac:(lia)) as St'. replace (S (k - 1)) with k in St' by lia. unfold mx. lia.
Qed.
Print Assumptions C69_places_partial.
(** FINDING: 9.96 with error 2.04 is printed as 9.96 and 2.0: two decimals against one, because two figures give 10
    (no decimals) and three give 9.96. *)
Theorem C69_places_refuted : exists v p m,
  namesigFigs 10 default_nf (mkdec false [9; 9; 6] (-2)) (mkdec false [2; 0; 4] (-2)) (mkdec false [2; 0; 4] (-2)) false = Ok (v, p, m) /\
  v = L "9.96" /\ p = L "2.0" /\ m = L "2.0".
Proof. exists (L "9.96"), (L "2.0"), (L "2.0"). split; [reflexivity|auto]. Qed.
Print Assumptions C69_places_refuted.
Example C69_ex :
  namesigFigs 10 default_nf (mkdec false [3; 1; 5; 1; 9] (-1)) (mkdec false [4; 4] 0) (mkdec true [3; 8] 0) true
    = Ok (L "3152", L "+44", L "-38") /\
  namesigFigs 10 default_nf (mkdec false [3; 1; 5; 1; 9] (-4)) (mkdec false [1; 2] (-3)) (mkdec true [1; 3; 7] (-4)) true
    = Ok (L "3.152", L "+0.012", L "-0.014") /\
  namesigFigs 10 default_nf (mkdec true [1] (-3)) (mkdec false [1; 2] 0) (mkdec true [1; 2] 0) true
    = Ok (L "0", L "+12", L "-12") /\
  wf_dec (mkdec false [3; 1; 5; 1; 9] (-4)).
Proof.
  split; [reflexivity|]. split; [reflexivity|]. split; [vm_compute; reflexivity|]. left.
  split; [cbn; intros x H; repeat (destruct H as [<-|H]; [lia|]); destruct H|eexists _, _; split; [reflexivity|discriminate]].
Qed.
