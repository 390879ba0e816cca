(** Decimal places, fixed point texts and the alignment of value and errors. *)
From Verif Require Import PyBase PyNum PyStrFacts FmtModel FmtSpec FmtProofs.
From Coq Require Import ZArith QArith Qabs Qround Qpower String Ascii Bool List Lia Lqa.
Import ListNotations.
Local Open Scope nat_scope.
Local Open Scope list_scope.

Lemma digit_not_dot c : is_digit c -> c <> "."%char.
Proof. intros H ->. unfold is_digit in H. cbn in H. lia. Qed.
Lemma places_layout pre ip fp : ip <> [] -> ~ In "."%char pre -> (forall c, In c (ip ++ fp) -> is_digit c) ->
  decimal_places (pre ++ ip ++ (match fp with [] => [] | _ => L "." ++ fp end)) = List.length fp.
Proof.
  intros Hi Hp Hd. unfold decimal_places. destruct fp as [|c r] eqn:E.
  - replace (find_ch "."%char (pre ++ ip ++ [])) with (@None nat); [reflexivity|]. symmetry. apply find_ch_None.
    rewrite app_nil_r. intros H. apply in_app_or in H as [H|H]; [contradiction|].
    apply (digit_not_dot "."%char); [apply Hd; rewrite app_nil_r; exact H|reflexivity].
  - rewrite <- E in *. rewrite app_assoc. change (L "." ++ fp) with ("."%char :: fp). rewrite find_ch_app_notin.
    + rewrite (app_length (pre ++ ip)). cbn [List.length]. destruct (Nat.ltb_spec 0 (List.length (pre ++ ip))) as [A|A].
      * clear. lia.
      * rewrite app_length in A. destruct ip; [contradiction|cbn in A; lia].
    + intros H. apply in_app_or in H as [H|H]; [contradiction|].
      apply (digit_not_dot "."%char); [apply Hd; apply in_or_app; now left|reflexivity].
Qed.
Lemma places_reads s neg ip fp : reads s neg ip fp -> decimal_places s = List.length fp.
Proof.
  intros [E Hi _ Hd]. subst s. unfold layout. apply places_layout; [exact Hi| |exact Hd].
  destruct neg; [intros [H|[]]; discriminate|intros []].
Qed.
Lemma places_plus s neg ip fp : reads s neg ip fp -> decimal_places (L "+" ++ s) = List.length fp.
Proof.
  intros [E Hi _ Hd]. subst s. unfold layout. rewrite app_assoc. apply places_layout; [exact Hi| |exact Hd].
  destruct neg; [intros [H|[H|[]]]; discriminate|intros [H|[]]; discriminate].
Qed.
Lemma places_signed s neg ip fp (b : bool) : reads s neg ip fp -> decimal_places (if b then L "+" ++ s else s) = List.length fp.
Proof. intros R. destruct b; [eapply places_plus; eassumption|eapply places_reads; eassumption]. Qed.

(** ** decimals of a number printed with [sf] figures *)
Definition cbit (d : dec) (sf : nat) : Z := if carry d sf then 1%Z else 0%Z.
Definition dp (d : dec) (sf : nat) : nat := decimal_places (figs_text (Fin d) sf).
Lemma zero_rnd d sf : zero_dec d -> 1 <= sf -> rnd d sf = 0.
Proof.
  intros [E He] H1. assert (X : ext d sf = repeat 0 sf).
  { unfold ext. rewrite E. cbn [List.length app]. destruct sf; [lia|]. cbn [repeat]. now rewrite Nat.sub_succ, Nat.sub_0_r. }
  unfold rnd, up, trunc. rewrite X, repeat_length, Nat.ltb_irrefl. cbn [andb].
  rewrite firstn_all2 by (rewrite repeat_length; lia). apply int_of_zeros.
Qed.
Lemma dp_spec d sf : wf_dec d -> 1 <= sf -> dp d sf = Z.to_nat (Z.of_nat sf - 1 - lead d - cbit d sf).
Proof.
  intros [W|W] H1.
  - destruct (figs_spec d sf W H1) as (ip & fp & R & _ & _ & Lf). unfold dp. rewrite (places_reads _ _ _ _ R). exact Lf.
  - unfold dp. rewrite (places_reads _ _ _ _ (figs_zero d sf W H1)), repeat_length.
    unfold cbit, carry. rewrite (zero_rnd d sf W H1). destruct (Nat.eqb_spec 0 (10 ^ sf)) as [E|E].
    + pose proof (Nat.pow_nonzero 10 sf). lia.
    + f_equal. lia.
Qed.

Lemma ext_S d sf : ext d (S sf) = if List.length (d_digits d) <=? sf then ext d sf ++ [0] else ext d sf.
Proof.
  unfold ext. destruct (Nat.leb_spec (List.length (d_digits d)) sf) as [A|A].
  - rewrite <- app_assoc. f_equal. replace (S sf - List.length (d_digits d)) with (sf - List.length (d_digits d) + 1) by lia.
    apply repeat_app.
  - replace (S sf - List.length (d_digits d)) with 0 by lia. replace (sf - List.length (d_digits d)) with 0 by lia. reflexivity.
Qed.
Lemma trunc_S d sf : trunc d (S sf) = 10 * trunc d sf + nth sf (ext d (S sf)) 0.
Proof.
  unfold trunc. pose proof (ext_len d (S sf)) as L1. pose proof (ext_len d sf) as L0.
  assert (F : firstn sf (ext d sf) = firstn sf (ext d (S sf))).
  { rewrite ext_S. destruct (_ <=? _); [|reflexivity]. rewrite firstn_app. replace (sf - List.length (ext d sf)) with 0 by lia.
    cbn [firstn]. now rewrite app_nil_r. }
  rewrite F. revert L1. generalize (ext d (S sf)). intros l L1.
  assert (E : firstn (S sf) l = firstn sf l ++ [nth sf l 0]).
  { clear -L1. revert l L1. induction sf as [|n IH]; intros l L1; destruct l as [|x l]; cbn in L1; try lia; [reflexivity|].
    cbn [firstn nth app]. f_equal. apply IH. cbn. lia. }
  rewrite E, int_of_app. cbn [List.length]. rewrite (int_of_cons _ []). cbn [List.length]. rewrite Nat.pow_1_r, Nat.pow_0_r. change (int_of []) with 0. lia.
Qed.
Lemma carry_down d sf : nonzero_dec d -> 1 <= sf -> carry d (S sf) = true -> carry d sf = true.
Proof.
  intros W H1. unfold carry. rewrite !Nat.eqb_eq. unfold rnd at 1.
  destruct (trunc_bounds d (S sf) W ltac:(lia)) as [_ Tb]. destruct (trunc_bounds d sf W H1) as [_ Ta].
  destruct (up d (S sf)) eqn:U; intros E; [|lia].
  unfold up in U. apply andb_prop in U as [U1 U2]. apply Nat.ltb_lt in U1.
  rewrite trunc_S in E. cbn [Nat.pow] in E.
  assert (Dg : nth sf (ext d (S sf)) 0 < 10) by (apply (ext_digits d (S sf) W), nth_In; lia).
  assert (X : ext d (S sf) = ext d sf).
  { rewrite ext_S. destruct (Nat.leb_spec (List.length (d_digits d)) sf) as [A|A]; [|reflexivity].
    exfalso. unfold ext in U1. rewrite app_length, repeat_length in U1. lia. }
  rewrite X in *. unfold rnd, up. replace (sf <? List.length (ext d sf)) with true by (symmetry; apply Nat.ltb_lt; lia).
  replace (5 <=? nth sf (ext d sf) 0) with true by (symmetry; apply Nat.leb_le; lia). cbn [andb]. lia.
Qed.
Lemma carry_leading d sf x r : nonzero_dec d -> 1 <= sf -> d_digits d = x :: r -> x <> 9 -> carry d sf = false.
Proof.
  intros W H1 E Hx. destruct (carry d sf) eqn:C; [|reflexivity]. exfalso.
  assert (C1 : carry d 1 = true).
  { clear E. induction sf as [|n IH]; [lia|]. destruct n; [exact C|]. apply IH; [lia|]. apply carry_down; [exact W|lia|exact C]. }
  unfold carry in C1. apply Nat.eqb_eq in C1.
  assert (T : trunc d 1 = x).
  { unfold trunc, ext. rewrite E. cbn [app firstn]. unfold int_of. cbn [fold_left]. lia. }
  destruct W as [W _]. assert (x < 10) by (apply W; rewrite E; now left).
  unfold rnd in C1. rewrite T in C1. change (10 ^ 1) with 10 in C1. destruct (up d 1); lia.
Qed.
(** one figure more: one decimal more, or two after a carry *)
Lemma dp_step d sf : wf_dec d -> 1 <= sf -> dp d (S sf) <= dp d sf + 2.
Proof.
  intros W H1. rewrite !dp_spec by (try exact W; lia). unfold cbit. destruct (carry d (S sf)), (carry d sf); lia.
Qed.
Definition steady (d : dec) : Prop := forall sf, 1 <= sf -> carry d sf = false.
Lemma dp_step_steady d sf : wf_dec d -> steady d -> 1 <= sf -> dp d (S sf) <= dp d sf + 1.
Proof.
  intros W St H1. rewrite !dp_spec by (try exact W; lia). unfold cbit. rewrite !St by lia. lia.
Qed.
Lemma steady_zero d : zero_dec d -> steady d.
Proof.
  intros W sf H1. unfold carry. rewrite (zero_rnd d sf W H1). destruct (Nat.eqb_spec 0 (10 ^ sf)); [|reflexivity].
  pose proof (Nat.pow_nonzero 10 sf). lia.
Qed.
Lemma dp_large d n : wf_dec d -> exists N, forall sf, N <= sf -> n <= dp d sf.
Proof.
  intros W. exists (Z.to_nat (Z.of_nat n + 2 + Z.abs (lead d))). intros sf H. rewrite dp_spec by (try exact W; lia).
  unfold cbit. destruct (carry d sf); lia.
Qed.

(** ** fixed point texts *)
Lemma round_even_near x : (2 * Qabs (inject_Z (round_even x) - x) <= 1)%Q.
Proof.
  unfold round_even. pose proof (Qfloor_le x) as A. pose proof (Qlt_floor x) as B.
  rewrite inject_Z_plus in B. change (inject_Z 1) with 1%Q in B.
  destruct (Qcompare_spec (x - inject_Z (Qfloor x)) (1 # 2)) as [H|H|H];
    [destruct (Z.even (Qfloor x))|..]; rewrite ?inject_Z_plus; change (inject_Z 1) with 1%Q;
    apply Qabs_case; intros; lra.
Qed.
Lemma round_even_nonneg x : (0 <= x)%Q -> (0 <= round_even x)%Z.
Proof.
  intros H. assert (F : (0 <= Qfloor x)%Z) by (change 0%Z with (Qfloor 0); now apply Qfloor_resp_le).
  unfold round_even. destruct (_ ?= _)%Q; [destruct (Z.even _)|..]; lia.
Qed.
Lemma dec_abs_nonneg d : (0 <= dec_abs d)%Q.
Proof.
  unfold dec_abs. apply Qmult_le_0_compat; [|apply Qlt_le_weak, pow10_pos].
  change 0%Q with (inject_Z 0). rewrite <- Zle_Qle. lia.
Qed.
Lemma fixed_spec n d : exists ip fp, reads (fixed_point n d) (d_neg d) ip fp /\ List.length fp = n /\
  (2 * Qabs (text_abs ip fp - dec_abs d) <= pow10 (- Z.of_nat n))%Q.
Proof.
  set (x := (dec_abs d * pow10 (Z.of_nat n))%Q).
  assert (X0 : (0 <= x)%Q).
  { unfold x. apply Qmult_le_0_compat; [apply dec_abs_nonneg|apply Qlt_le_weak, pow10_pos]. }
  set (m := Z.to_nat (round_even x)). assert (Em : Z.of_nat m = round_even x).
  { unfold m. apply Z2Nat.id. now apply round_even_nonneg. }
  set (s := show_nat m). set (t := repeat "0"%char (S n - List.length s) ++ s).
  assert (Lt : S n <= List.length t) by (unfold t; rewrite app_length, repeat_length; lia).
  assert (Vt : digits_val t = m) by (unfold t; rewrite digits_val_app, digits_val_zeros; unfold s; rewrite show_nat_val; lia).
  assert (Dt : forall c, In c t -> is_digit c).
  { intros c. unfold t. rewrite in_app_iff. intros [H|H]; [now apply zeros_digits in H|now apply show_nat_digits in H]. }
  exists (firstn (List.length t - n) t), (skipn (List.length t - n) t).
  assert (Lf : List.length (skipn (List.length t - n) t) = n) by (rewrite skipn_length; lia).
  split; [|split; [exact Lf|]].
  - split.
    + unfold fixed_point. fold x. fold m. fold s. fold t. unfold layout.
      assert (B : (if n =? 0 then t else insert_at (List.length t - n) (L ".") t) =
        firstn (List.length t - n) t ++ match skipn (List.length t - n) t with [] => [] | _ => L "." ++ skipn (List.length t - n) t end).
      { destruct (Nat.eqb_spec n 0) as [E|E].
        - rewrite E, Nat.sub_0_r, firstn_all, skipn_all, app_nil_r. reflexivity.
        - unfold insert_at. destruct (skipn (List.length t - n) t) eqn:K; [cbn in Lf; lia|reflexivity]. }
      rewrite B. destruct (d_neg d); reflexivity.
    + intros C. apply (f_equal (@List.length _)) in C. rewrite firstn_length in C. cbn [List.length] in C. lia.
    + destruct (Nat.leb_spec (List.length s) n) as [A|A].
      * left. assert (E : List.length t - n = 1) by (unfold t; rewrite app_length, repeat_length; lia). rewrite E. unfold t.
        destruct (S n - List.length s) eqn:K; [lia|]. reflexivity.
      * assert (Et : t = s) by (unfold t; replace (S n - List.length s) with 0 by lia; reflexivity). rewrite Et.
        destruct s as [|c r] eqn:Es; [cbn in A; lia|].
        destruct (Nat.eq_dec m 0) as [M0|M0].
        { left. assert (Q : show_nat m = L "0") by (rewrite M0; reflexivity). unfold s in Es. rewrite Q in Es. injection Es as <- <-.
          cbn [List.length] in A |- *. replace (1 - n) with 1 by lia. reflexivity. }
        right. destruct (List.length (c :: r) - n) eqn:K; [cbn [List.length] in *; lia|].
        exists c. eexists. split; [reflexivity|]. apply (show_nat_lead m c r); [exact Es|exact M0].
    + intros c. rewrite firstn_skipn. apply Dt.
  - unfold text_abs. rewrite firstn_skipn, Vt, Lf, Em.
    set (w := pow10 (- Z.of_nat n)).
    assert (Hw : (pow10 (Z.of_nat n) * w == 1)%Q).
    { unfold w. rewrite <- pow10_add. replace (Z.of_nat n + - Z.of_nat n)%Z with 0%Z by lia. reflexivity. }
    assert (Pw : (0 < w)%Q) by apply pow10_pos.
    assert (E : (inject_Z (round_even x) * w - dec_abs d == (inject_Z (round_even x) - x) * w)%Q).
    { unfold x. rewrite <- (Qmult_1_r (dec_abs d)) at 2. rewrite <- Hw. ring. }
    rewrite E, Qabs_Qmult, (Qabs_pos w) by lra. pose proof (round_even_near x) as R.
    rewrite Qmult_assoc. rewrite <- (Qmult_1_l w) at 2. apply Qmult_le_compat_r; lra.
Qed.
Lemma fixed_nozero_places n d : decimal_places (fixed_nozero n d) = n.
Proof.
  unfold fixed_nozero. destruct (text_zero _).
  - destruct (fixed_spec n dzero) as (ip & fp & R & Lf & _). now rewrite (places_reads _ _ _ _ R).
  - destruct (fixed_spec n d) as (ip & fp & R & Lf & _). now rewrite (places_reads _ _ _ _ R).
Qed.

(** ** the loops *)
Lemma fewer_spec d maxdp sf res :
  1 <= sf -> res = figs_text (Fin d) sf ->
  exists sf', fst (fewer d maxdp sf res) = sf' /\ sf' <= sf /\
    decimal_places (snd (fewer d maxdp sf res)) <= maxdp /\
    ((sf' = 0 /\ snd (fewer d maxdp sf res) = fixed_nozero maxdp d) \/
     (1 <= sf' /\ snd (fewer d maxdp sf res) = figs_text (Fin d) sf')).
Proof.
  revert res. induction sf as [|n IH]; intros res H1 ->; [lia|]. cbn [fewer].
  destruct (Nat.ltb_spec maxdp (decimal_places (figs_text (Fin d) (S n)))) as [A|A].
  - destruct n as [|n].
    + exists 0. cbn [fst snd]. rewrite fixed_nozero_places. split; [reflexivity|]. split; [lia|]. split; [lia|]. left. split; reflexivity.
    + destruct (IH (figs_text (Fin d) (S n)) ltac:(lia) eq_refl) as (sf' & B1 & B2 & B3 & B4).
      exists sf'. split; [exact B1|]. split; [lia|]. split; [exact B3|exact B4].
  - exists (S n). cbn [fst snd]. split; [reflexivity|]. split; [lia|]. split; [lia|]. right. split; [lia|reflexivity].
Qed.
(** what [more] returns: the first text with enough decimals *)
Lemma more_spec d plusdp fuel sf res s :
  1 <= sf -> res = figs_text (Fin d) sf -> more fuel d plusdp sf res = Some s ->
  exists sf', sf <= sf' /\ s = figs_text (Fin d) sf' /\ plusdp <= dp d sf' /\ (forall k, sf <= k < sf' -> dp d k < plusdp).
Proof.
  revert sf res. induction fuel as [|n IH]; intros sf res H1 -> H; [discriminate|]. cbn [more] in H.
  destruct (Nat.ltb_spec (decimal_places (figs_text (Fin d) sf)) plusdp) as [A|A].
  - destruct (IH (S sf) _ ltac:(lia) eq_refl H) as (sf' & B1 & B2 & B3 & B4). exists sf'. split; [lia|]. split; [exact B2|].
    split; [exact B3|]. intros k Hk. destruct (Nat.eq_dec k sf) as [->|N]; [exact A|apply B4; lia].
  - injection H as <-. exists sf. split; [lia|]. split; [reflexivity|]. split; [exact A|]. intros k Hk. lia.
Qed.
Lemma more_some d plusdp N : (forall k, N <= k -> plusdp <= dp d k) ->
  forall fuel sf, 1 <= sf -> N <= fuel + sf -> exists s, more (S fuel) d plusdp sf (figs_text (Fin d) sf) = Some s.
Proof.
  intros H fuel. induction fuel as [|n IH]; intros sf H1 H2.
  - cbn [more]. destruct (Nat.ltb_spec (decimal_places (figs_text (Fin d) sf)) plusdp) as [A|A]; [|eauto].
    exfalso. specialize (H sf ltac:(lia)). unfold dp in H. lia.
  - change (more (S (S n)) d plusdp sf (figs_text (Fin d) sf)) with
      (if decimal_places (figs_text (Fin d) sf) <? plusdp then more (S n) d plusdp (S sf) (figs_text (Fin d) (S sf)) else Some (figs_text (Fin d) sf)).
    destruct (Nat.ltb_spec (decimal_places (figs_text (Fin d) sf)) plusdp) as [A|A]; [|eauto]. apply IH; lia.
Qed.

(** ** a text has one reading *)
Lemma app_inj_2 {A} (a b a' b' : list A) : List.length b = List.length b' -> a ++ b = a' ++ b' -> a = a' /\ b = b'.
Proof.
  intros H E. assert (Ha : List.length a = List.length a').
  { apply (f_equal (@List.length A)) in E. rewrite !app_length in E. lia. }
  revert a' Ha E. induction a as [|x a IH]; intros [|x' a'] Ha E; try discriminate Ha; [auto|].
  cbn in E. injection E as <- E. destruct (IH a' ltac:(cbn in Ha; lia) E) as [-> ->]. auto.
Qed.
Lemma reads_unique s n a b n' a' b' : reads s n a b -> reads s n' a' b' -> n = n' /\ a = a' /\ b = b'.
Proof.
  intros R R'. pose proof (places_reads _ _ _ _ R) as P. rewrite (places_reads _ _ _ _ R') in P.
  destruct R as [T N _ D], R' as [T' N' _ D']. rewrite T in T'. unfold layout in T'. clear T s.
  assert (Hn : n = n').
  { destruct a as [|c r]; [contradiction|]. destruct a' as [|c' r']; [contradiction|].
    destruct n, n'; try reflexivity; cbn in T'; injection T' as Tc _; exfalso.
    - specialize (D' c' (or_introl eq_refl)). rewrite <- Tc in D'. unfold is_digit in D'. cbn in D'. lia.
    - specialize (D c (or_introl eq_refl)). rewrite Tc in D. unfold is_digit in D. cbn in D. lia. }
  split; [exact Hn|]. subst n'. apply app_inv_head in T'.
  destruct b as [|x b], b' as [|x' b']; try discriminate P.
  - rewrite !app_nil_r in T'. auto.
  - assert (Q : a = a' /\ L "." ++ x :: b = L "." ++ x' :: b').
    { apply app_inj_2; [|exact T']. rewrite !app_length, P. reflexivity. }
    destruct Q as [-> Q]. split; [reflexivity|]. exact (app_inv_head _ _ _ Q).
Qed.
(** a plus sign is put before the texts of positive numbers only *)
Lemma digits_val_pos s : (forall c, In c s -> is_digit c) -> (digits_val s <> 0 <-> exists c, In c s /\ c <> "0"%char).
Proof.
  induction s as [|c s IH]; intros D; [cbn; split; [lia|intros (x & [] & _)]|].
  specialize (IH (fun x h => D x (or_intror h))). cbn [digits_val].
  pose proof (Nat.pow_nonzero 10 (List.length s) ltac:(lia)) as P. split.
  - intros H. destruct (Nat.eq_dec (digit_of c) 0) as [E|E].
    + destruct (proj1 IH) as (x & Hx & Nx); [rewrite E in H; lia|]. exists x. split; [now right|exact Nx].
    + exists c. split; [now left|]. intros ->. apply E. reflexivity.
  - intros (x & [->|Hx] & Nx).
    + assert (digit_of x <> 0) by (intros E; apply Nx, digit_zero; [apply D; now left|exact E]). nia.
    + assert (digits_val s <> 0) by (apply IH; eauto). lia.
Qed.
Lemma text_positive_reads s neg ip fp : reads s neg ip fp ->
  text_positive s = negb neg && negb (digits_val (ip ++ fp) =? 0).
Proof.
  intros [T N _ D]. subst s. unfold text_positive, layout. destruct neg.
  - reflexivity.
  - cbn [negb andb app]. replace (startswith (L "-") (ip ++ match fp with [] => [] | _ => L "." ++ fp end)) with false.
    2:{ destruct ip as [|c r]; [contradiction|]. cbn [app]. unfold L. cbn [list_ascii_of_string startswith].
        destruct (ch_eqb_spec "-"%char c) as [<-|Nc]; [|reflexivity]. exfalso.
        specialize (D "-"%char (or_introl eq_refl)). unfold is_digit in D. cbn in D. lia. }
    cbn [negb andb].
    assert (Q : existsb (fun c => negb (ch_eqb c "0"%char) && negb (ch_eqb c "."%char)) (ip ++ match fp with [] => [] | _ => L "." ++ fp end) = true
                <-> digits_val (ip ++ fp) <> 0).
    { rewrite (digits_val_pos _ D), existsb_exists. split.
      - intros (c & Hc & K). apply andb_prop in K as [K1 K2].
        exists c. split.
        + apply in_or_app. apply in_app_or in Hc as [Hc|Hc]; [now left|]. destruct fp; [destruct Hc|].
          apply in_app_or in Hc as [[<-|[]]|Hc]; [discriminate K2|now right].
        + intros ->. discriminate K1.
      - intros (c & Hc & K). exists c. split.
        + apply in_or_app. apply in_app_or in Hc as [Hc|Hc]; [now left|right]. destruct fp; [destruct Hc|]. apply in_or_app. now right.
        + specialize (D c Hc). apply andb_true_intro. split.
          * destruct (ch_eqb_spec c "0"%char); [contradiction|reflexivity].
          * destruct (ch_eqb_spec c "."%char) as [->|]; [|reflexivity]. exfalso. now apply (digit_not_dot _ D). }
    destruct (existsb _ _).
    + destruct (Nat.eqb_spec (digits_val (ip ++ fp)) 0) as [E|E]; [|reflexivity]. exfalso. now apply (proj1 Q eq_refl).
    + destruct (Nat.eqb_spec (digits_val (ip ++ fp)) 0) as [E|E]; [reflexivity|]. now apply (proj2 Q) in E.
Qed.
