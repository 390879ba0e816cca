(** Properties of simulated data sets (C149) *)
From Coq Require Import Reals ZArith Lra Lia Bool.
From Verif Require Import PyStr PyStrFacts BaoModel PyClModel PyBase FcModel FcSpec.
From Coq Require Import List.
Import ListNotations.
Local Open Scope R_scope.

Lemma ln2_pos : 0 < ln 2.
Proof. rewrite <- ln_1. apply ln_increasing; lra. Qed.
Lemma sigma2_val w : sigma2 w = radians w ^ 2 / (8 * ln 2).
Proof.
  unfold sigma2, radians. cbv zeta. pose proof ln2_pos as P. pose proof PI_RGT_0 as Q. assert (S : sqrt (8 * ln 2) <> 0) by (apply Rgt_not_eq, sqrt_lt_R0; lra).
  assert (E : sqrt (8 * ln 2) ^ 2 = 8 * ln 2) by (apply pow2_sqrt; lra). rewrite <- E at 2. field. split; lra.
Qed.
(** the width is that of the beam *)
Theorem C149_beam w s : half_at w s -> s ^ 2 = sigma2 w.
Proof.
  intros [P H]. rewrite sigma2_val. pose proof ln2_pos as Q. apply (f_equal ln) in H. rewrite ln_exp in H. unfold Rdiv in H at 3. rewrite Rmult_1_l, ln_Rinv in H by lra.
  set (r := radians w) in *. clearbody r. set (k := ln 2) in *. clearbody k. assert (N : s ^ 2 <> 0) by (apply pow_nonzero; lra).
  assert (E : (r / 2) ^ 2 = k * (2 * s ^ 2)). { replace ((r / 2) ^ 2) with (- (- (r / 2) ^ 2 / (2 * s ^ 2)) * (2 * s ^ 2)) by (field; lra). rewrite H. ring. }
  replace (r ^ 2) with (4 * (r / 2) ^ 2) by field. rewrite E. field. lra.
Qed.
Theorem C149_beam_exists w : 0 < w -> half_at w (sqrt (sigma2 w)).
Proof.
  intro W. pose proof ln2_pos as Q. pose proof PI_RGT_0 as P. assert (R0 : 0 < radians w) by (unfold radians; apply Rmult_lt_0_compat; lra).
  assert (S : 0 < sigma2 w). { rewrite sigma2_val. apply Rdiv_lt_0_compat; [apply pow_lt; exact R0 | lra]. }
  split; [now apply sqrt_lt_R0 |]. rewrite pow2_sqrt by lra. rewrite sigma2_val. set (r := radians w) in *. clearbody r.
  replace (- (r / 2) ^ 2 / (2 * (r ^ 2 / (8 * ln 2)))) with (- ln 2) by (field; lra). rewrite exp_Ropp, exp_ln by lra. lra.
Qed.
Lemma noise_band v s l : NoiseCl v (s ^ 2) l = band v s l.
Proof.
  unfold NoiseCl, band, beam. pose proof PI_RGT_0 as P. set (y := INR l * (INR l + 1) * s ^ 2).
  assert (E : exp (- y / 2) ^ 2 = / exp y). { rewrite <- exp_Ropp. simpl. rewrite Rmult_1_r, <- exp_plus. f_equal. field. }
  rewrite E. pose proof (exp_pos y). field. split; lra.
Qed.
Lemma mapR_ok {A B} (f : A -> res B) g l : (forall x, In x l -> f x = Ok (g x)) -> mapR f l = Ok (map g l).
Proof. induction l as [| x l IH]; intro H; cbn [mapR map]; [reflexivity |]. rewrite H by now left. rewrite IH by (intros y I; apply H; now right). reflexivity. Qed.
Lemma nonzero_true x : x <> 0 -> nonzero x = true.
Proof. unfold nonzero. destruct (Req_EM_T x 0); [contradiction | reflexivity]. Qed.

(** columns are given by the argument or by the file *)
Definition named (a : fargs) : Prop := a_cols a <> [] \/ a_comment a <> [].
(** the numbers of the reconstruction that go with multipole l *)
Definition recon (a : fargs) (m : nat) (ls : nat -> list R) : Prop :=
  (a_lens a = None /\ ls = fun _ => []) \/ exists v, a_lens a = Some (AsList v) /\ (m < length v)%nat /\ ls = fun l => [nth l v 0].
Lemma named_columns a : named a -> exists c, columns a = Ok c.
Proof. unfold named. intro H. unfold columns. destruct (a_cols a); [| eauto]. destruct (a_comment a); [| eauto]. destruct H; congruence. Qed.
Lemma recon_truth a m ls : recon a m ls -> exists u, truth (a_lens a) = Ok u.
Proof. intros [[E _] | (v & E & _)]; rewrite E; cbn; eauto. Qed.
Lemma rows_ok a m ls v fac s2 : a_lmax a = Some m -> recon a m ls ->
  rows_of a (Some (v, fac, s2)) = Ok (table (a_lmin a) m (fun l => [NoiseCl v s2 l; fac * NoiseCl v s2 l; fac * NoiseCl v s2 l] ++ ls l)).
Proof.
  intros M H. unfold rows_of. rewrite M. unfold table. apply mapR_ok. intros l I. apply in_seq in I. unfold row. cbv zeta.
  destruct H as [[E F] | (w & E & N & F)]; rewrite E; subst ls; [reflexivity |]. destruct w as [| x w]; [cbn in N; lia |].
  cbn [truth bindR lens_at numbers]. destruct (Nat.ltb_spec l (length (x :: w))); [reflexivity | lia].
Qed.
Lemma fields_ok a c m ls : recon a m ls -> exists f, fields a c = Ok f.
Proof.
  intro H. destruct (recon_truth _ _ _ H) as [u U]. unfold fields. cbv zeta. destruct (a_fields a); [| eauto]. destruct (contains (L "PP") c); [rewrite U; cbn [bindR]; eauto | eauto].
Qed.
Lemma make_rows a root m ls v fac w : named a -> use_CMB a = true -> variance a = Ok (v, fac) -> a_fwhm a = Some w -> a_lmax a = Some m -> recon a m ls ->
  exists o, make_forecast a root = Ok o /\ o_rows o = table (a_lmin a) m (fun l => [NoiseCl v (sigma2 w) l; fac * NoiseCl v (sigma2 w) l; fac * NoiseCl v (sigma2 w) l] ++ ls l).
Proof.
  intros N C V W M H. destruct (named_columns a N) as [c E]. destruct (fields_ok a (fst c) m ls H) as [f F]. destruct (recon_truth a m ls H) as [u U].
  unfold make_forecast. rewrite E. cbn [bindR]. rewrite C, V. cbn [bindR]. rewrite F. cbn [bindR]. rewrite W. unfold noise_cols. rewrite C, U. cbn [bindR fst snd].
  rewrite (rows_ok a m ls v fac _ M H). cbn [bindR]. eexists; split; reflexivity.
Qed.
(** sensitivities in muK arcmin: each row is the white noise of that sensitivity divided by the beam twice *)
Theorem C149_noise a root m ls t w s : named a -> a_var a = None -> a_T a = Some t -> t <> 0 -> a_fwhm a = Some w -> half_at w s -> a_lmax a = Some m -> recon a m ls ->
  let vp := match a_P a with Some p => white p | None => a_fac a * white t end in
  exists o, make_forecast a root = Ok o /\ o_rows o = table (a_lmin a) m (fun l => [band (white t) s l; band vp s l; band vp s l] ++ ls l).
Proof.
  intros N V T Z W B M H. cbv zeta. assert (C : use_CMB a = true) by (unfold use_CMB; rewrite T, (nonzero_true t Z); reflexivity).
  pose (fac := match a_P a with Some p => (p / t) ^ 2 | None => a_fac a end).
  assert (VV : variance a = Ok ((t * PI / 180 / 60) ^ 2, fac)) by (unfold variance, fac; now rewrite V, T).
  destruct (make_rows a root m ls _ _ w N C VV W M H) as (o & O & E). exists o. split; [exact O |]. rewrite E. unfold table. apply map_ext. intro l. f_equal. f_equal.
  rewrite <- (C149_beam w s B). rewrite noise_band. replace ((t * PI / 180 / 60) ^ 2) with (white t) by (unfold white, radians; field).
  assert (G : forall k v, k * band v s l = band (k * v) s l). { intros. unfold band, beam. pose proof (exp_pos (- (INR l * (INR l + 1) * s ^ 2) / 2)). pose proof PI_RGT_0. field. split; lra. }
  rewrite G. unfold fac. destruct (a_P a) as [p |]; [| reflexivity]. replace ((p / t) ^ 2 * white t) with (white p) by (unfold white, radians; field; exact Z). reflexivity.
Qed.
(** a variance *)
Theorem C149_variance a root m ls v w s : named a -> a_var a = Some v -> a_T a = None -> a_P a = None -> a_fwhm a = Some w -> half_at w s -> a_lmax a = Some m -> recon a m ls ->
  exists o, make_forecast a root = Ok o /\ o_rows o = table (a_lmin a) m (fun l => [band v s l; band (a_fac a * v) s l; band (a_fac a * v) s l] ++ ls l).
Proof.
  intros N V T P W B M H. assert (C : use_CMB a = true) by (unfold use_CMB; rewrite V, T; reflexivity).
  assert (VV : variance a = Ok (v, a_fac a)) by (unfold variance; now rewrite V, T, P).
  destruct (make_rows a root m ls _ _ w N C VV W M H) as (o & O & E). exists o. split; [exact O |]. rewrite E. unfold table. apply map_ext. intro l. f_equal. f_equal.
  rewrite <- (C149_beam w s B). rewrite noise_band.
  assert (G : forall k v, k * band v s l = band (k * v) s l). { intros. unfold band, beam. pose proof (exp_pos (- (INR l * (INR l + 1) * s ^ 2) / 2)). pose proof PI_RGT_0. field. split; lra. }
  now rewrite G.
Qed.
(** both are refused *)
Theorem C149_both a root v : named a -> a_var a = Some v -> a_T a <> None \/ a_P a <> None -> make_forecast a root = Err ValueError.
Proof.
  intros N V H. destruct (named_columns a N) as [c E]. unfold make_forecast. rewrite E. cbn [bindR]. assert (C : use_CMB a = true) by (unfold use_CMB; rewrite V; apply orb_true_r).
  rewrite C. unfold variance. rewrite V. destruct (a_T a), (a_P a); try reflexivity. destruct H; congruence.
Qed.
(** the first line has a name for each number of a row *)
Theorem C149_header a root o : make_forecast a root = Ok o -> o_rows o <> [] ->
  forall l v, In (l, v) (o_rows o) -> length (split_ws (o_head o)) = S (length v) /\ hd [] (split_ws (o_head o)) = L "L".
Proof.
  unfold make_forecast. intros H NE l v I. destruct (columns a) as [c |]; [| discriminate]. cbn [bindR] in H. unfold noise_cols in H. destruct (use_CMB a).
  - destruct (variance a) as [vf |]; [| discriminate]. cbn [bindR] in H. destruct (fields a (fst c)) as [f |]; [| discriminate]. cbn [bindR] in H. destruct (a_fwhm a) as [w |]; [| discriminate].
    destruct (truth (a_lens a)) as [u |] eqn:U; [| discriminate]. cbn [bindR] in H. destruct (rows_of a _) as [r |] eqn:E; [| discriminate]. cbn [bindR] in H. injection H as <-. cbn [o_rows o_head] in *.
    assert (X : length v = if u then 4%nat else 3%nat).
    { unfold rows_of in E. destruct (a_lmax a) as [m |]; [| discriminate]. clear NE. revert r E I. induction (seq (a_lmin a) (m + 1 - a_lmin a)) as [| k ks IH]; intros r E I; cbn [mapR] in E; [injection E as <-; destruct I |].
      destruct (row _ _ k) as [y |] eqn:Y; [| discriminate]. destruct (mapR _ ks) as [q |]; [| discriminate]. injection E as <-. destruct I as [-> | I]; [| now apply (IH q)].
      unfold row in Y. rewrite U in Y. cbn [bindR] in Y. destruct u; [| injection Y as _ <-; reflexivity]. destruct (lens_at (a_lens a) k) as [x |]; [| discriminate]. injection Y as _ <-. reflexivity. }
    rewrite X. destruct u; split; vm_compute; reflexivity.
  - destruct (truth (a_lens a)) as [[|] |]; cbn [bindR] in H; try discriminate. unfold rows_of in H. destruct (a_lmax a) as [m |]; [| discriminate].
    destruct (seq (a_lmin a) (m + 1 - a_lmin a)); cbn [mapR row bindR] in H; [| discriminate]. injection H as <-. now elim NE.
Qed.
(** the settings are those the likelihood reads (the reader of settings removes the blank after a key) *)
Theorem C149_key a root o : make_forecast a root = Ok o ->
  let get k := find (fun kv => str_eqb (strip (fst kv)) (L k)) (o_set o) in
  option_map snd (get "cl_noise_file"%string) = Some (VS (root ++ L "_Noise.dat")) /\ option_map snd (get "cl_hat_file"%string) = Some (VS (root ++ L ".dat")) /\
  option_map snd (get "cl_lmin"%string) = Some (VN (a_lmin a)) /\ option_map snd (get "cl_lmax"%string) = option_map VN (a_lmax a) /\ option_map snd (get "fullsky_exact_fksy"%string) = Some (VR (a_fsky a)) /\
  option_map snd (get "like_approx"%string) = Some (VS (L "exact")) /\ option_map snd (get "cl_hat_includes_noise"%string) = Some (VB false) /\
  (option_map snd (get "cl_hat_order"%string) = match a_cols a with [] => None | c => Some (VS c) end) /\
  (a_fields a <> [] -> option_map snd (get "fields_use"%string) = Some (VS (a_fields a))).
Proof.
  intros H get.
  assert (X : exists f, o_set o = settings a root (match a_cols a with [] => [] | c => [(L "cl_hat_order", VS c)] end) f /\ (a_fields a <> [] -> f = a_fields a) /\ a_lmax a <> None).
  { unfold make_forecast in H. unfold columns in H. assert (M : forall c r, rows_of a c = Ok r -> a_lmax a <> None) by (intros c r Y; unfold rows_of in Y; destruct (a_lmax a); congruence).
    assert (F : forall c f, fields a c = Ok f -> a_fields a <> [] -> f = a_fields a) by (intros c f Y G; unfold fields in Y; destruct (a_fields a); congruence).
    assert (D : exists c, bindR (Ok (c, match a_cols a with [] => [] | c => [(L "cl_hat_order", VS c)] end)) (fun cf =>
       if use_CMB a then bindR (variance a) (fun vf => bindR (fields a (fst cf)) (fun f => match a_fwhm a with None => Err TypeError | Some w => bindR (noise_cols a) (fun h =>
         bindR (rows_of a (Some (fst vf, snd vf, sigma2 w))) (fun r => Ok (mkFo (settings a root (snd cf) f) (L "L " ++ h) r))) end))
       else bindR (noise_cols a) (fun h => bindR (rows_of a None) (fun r => Ok (mkFo (settings a root (snd cf) (match a_fields a with [] => L "P" | f => f end)) (L "L " ++ h) r)))) = Ok o).
    { destruct (a_cols a); [destruct (a_comment a); [discriminate |] |]; eexists; exact H. }
    clear H. destruct D as [c H]. cbn [bindR fst snd] in H. destruct (use_CMB a).
    - destruct (variance a) as [vf |]; [| discriminate]. cbn [bindR] in H. destruct (fields a c) as [f |] eqn:E; [| discriminate]. cbn [bindR] in H. destruct (a_fwhm a); [| discriminate].
      destruct (noise_cols a); [| discriminate]. cbn [bindR] in H. destruct (rows_of a _) eqn:R; [| discriminate]. injection H as <-. exists f. repeat split; [now apply (F c) | now apply (M _ _ R)].
    - destruct (noise_cols a); [| discriminate]. cbn [bindR] in H. destruct (rows_of a _) eqn:R; [| discriminate]. injection H as <-. eexists. repeat split; [| now apply (M _ _ R)].
      intro G. destruct (a_fields a); [congruence | reflexivity]. }
  destruct X as (f & E & F & M). subst get. cbv beta. rewrite E. unfold settings. destruct (a_lmax a) as [m |]; [| congruence].
  destruct (a_cols a) as [| c0 cs]; repeat split; try reflexivity; intro G; rewrite <- (F G); reflexivity.
Qed.

(** ** What the likelihood reads from the file of noise *)
Lemma set_cols_val cols k l vals : forall ixs cl, (forall ix, In ix ixs -> (cols ix = -1 \/ (1 <= cols ix /\ (Z.to_nat (cols ix - 1) < length vals)%nat))%Z) ->
  exists cl', py_set_cols cols ixs k l vals cl = BaoModel.Ok cl' /\
    forall a b, cl' a b = if existsb (Nat.eqb a) ixs && Nat.eqb b k && negb (cols a =? -1)%Z then nth (Z.to_nat (cols a - 1)) vals 0 else cl a b.
Proof.
  induction ixs as [| ix ixs IH]; intros cl H; cbn [py_set_cols existsb]; [eexists; split; [reflexivity | reflexivity] |].
  destruct (Z.eqb_spec (cols ix) (-1)) as [E | E].
  - destruct (IH cl) as (cl' & A & B); [intros i I; apply H; now right |]. exists cl'. split; [exact A |]. intros a b. rewrite B. destruct (Nat.eqb_spec a ix) as [-> |]; [| reflexivity].
    rewrite E, Z.eqb_refl. now rewrite !andb_false_r.
  - destruct (H ix (or_introl eq_refl)) as [F | (F & G)]; [contradiction |]. unfold py_at. destruct (Z.eqb_spec (cols ix) 0) as [Z0 | _]; [lia |]. destruct (Nat.ltb_spec (Z.to_nat (cols ix - 1)) (length vals)); [| lia].
    cbn [bind]. match goal with |- context [py_set_cols _ _ _ _ _ ?c] => destruct (IH c) as (cl' & A & B) end; [intros i I; apply H; now right |]. exists cl'. split; [exact A |]. intros a b. rewrite B.
    destruct (Nat.eqb_spec a ix) as [-> |]; cbn [orb andb]; [| reflexivity]. destruct (Nat.eqb b k); cbn [andb]; [| now rewrite andb_false_r]. destruct (Z.eqb_spec (cols ix) (-1)); [contradiction |]. cbn [negb andb].
    now destruct (existsb (Nat.eqb ix) ixs).
Qed.
Lemma existsb_seq a n : existsb (Nat.eqb a) (seq 0 n) = Nat.ltb a n.
Proof.
  destruct (Nat.ltb_spec a n) as [H | H].
  - apply existsb_exists. exists a. split; [apply in_seq; lia | apply Nat.eqb_refl].
  - apply not_true_is_false. intro E. apply existsb_exists in E as (x & I & Q). apply in_seq in I. apply Nat.eqb_eq in Q. lia.
Qed.
Lemma read_seq ncl cols lo hi (f : nat -> list R) : (forall ix l, (ix < ncl)%nat -> (cols ix = -1 \/ (1 <= cols ix /\ (Z.to_nat (cols ix - 1) < length (f l))%nat))%Z) ->
  forall n s last cl, (lo <= s)%nat -> (s + n = hi + 1)%nat -> (n = 0%nat -> last = Some (Z.of_nat hi)) ->
  exists cl', py_read_rows false ncl cols (Z.of_nat lo) (Z.of_nat hi) (map (fun l => (Z.of_nat l, f l)) (seq s n)) last cl = BaoModel.Ok cl' /\
    forall a b, cl' a b = if Nat.ltb a ncl && Nat.leb s (lo + b) && Nat.leb (lo + b) hi && negb (cols a =? -1)%Z then nth (Z.to_nat (cols a - 1)) (f (lo + b)%nat) 0 else cl a b.
Proof.
  intro C. induction n as [| n IH]; intros s last cl H1 H2 H3; cbn [seq map py_read_rows].
  - rewrite (H3 eq_refl), Z.ltb_irrefl. eexists. split; [reflexivity |]. intros a b. destruct (Nat.leb_spec s (lo + b)), (Nat.leb_spec (lo + b) hi); rewrite ?andb_false_r; try reflexivity. lia.
  - destruct (Z.leb_spec (Z.of_nat lo) (Z.of_nat s)); [| lia]. destruct (Z.leb_spec (Z.of_nat s) (Z.of_nat hi)); [| lia]. cbn [andb].
    destruct (set_cols_val cols (Z.to_nat (Z.of_nat s - Z.of_nat lo)) (Z.of_nat s) (f s) (seq 0 ncl) cl) as (c1 & A & B); [intros ix I; apply in_seq in I; apply C; lia |].
    rewrite A. cbn [bind]. destruct (IH (S s) (Some (Z.of_nat s)) c1) as (c2 & D & E); [lia | lia | intros ->; f_equal; lia |]. exists c2. split; [exact D |]. intros a b. rewrite E, B, existsb_seq.
    destruct (Nat.ltb a ncl); cbn [andb]; [| reflexivity].
    destruct (Nat.leb_spec (S s) (lo + b)), (Nat.leb_spec s (lo + b)), (Nat.leb_spec (lo + b) hi), (Nat.eqb_spec b (Z.to_nat (Z.of_nat s - Z.of_nat lo))); cbn [andb]; try lia; try reflexivity.
    replace (lo + b)%nat with s by lia. reflexivity.
Qed.
Lemma table_two_d lo hi k (f : nat -> list R) : (lo < hi)%nat -> (forall l, length (f l) = S k) -> two_d (table lo hi f) = true.
Proof.
  intros H K. unfold table. replace (hi + 1 - lo)%nat with (S (S (hi - lo - 1))) by lia. cbn [seq map two_d]. rewrite K. cbn [Nat.ltb Nat.leb andb]. apply forallb_forall. intros x I. cbn [map] in I.
  assert (J : In x (map (fun l => (Z.of_nat l, f l)) (lo :: S lo :: seq (S (S lo)) (hi - lo - 1)))) by exact I. apply in_map_iff in J as (l & <- & _). cbn [snd]. rewrite K. apply Nat.eqb_refl.
Qed.
(** names of the fields and the number of the noise of each in a row *)
Definition TEB : list str := [L "T"; L "E"; L "B"].
(** with the fields T, E and B, or the first of them, the likelihood has the noise of a field for its spectrum and none for the spectra of two fields *)
Theorem C149_read (k : nat) lo hi (g : nat -> nat -> R) : (1 <= k <= 3)%nat -> (lo < hi)%nat ->
  exists cl, py_ReadClArr false false (firstn k TEB) (split_ws (L "L TT           EE          BB")) (Z.of_nat lo) (Z.of_nat hi) (table lo hi (fun l => [g 0%nat l; g 1%nat l; g 2%nat l])) = BaoModel.Ok cl /\
    forall i j ix l, nth_error (py_tri k) ix = Some (i, j) -> (lo <= l <= hi)%nat -> cl ix (l - lo)%nat = if Nat.eqb i j then g i l else 0.
Proof.
  intros K H. pose (f := fun l => [g 0%nat l; g 1%nat l; g 2%nat l]). assert (two : two_d (table lo hi f) = true) by (apply (table_two_d lo hi 2); [exact H | reflexivity]).
  replace (split_ws (L "L TT           EE          BB")) with [L "L"; L "TT"; L "EE"; L "BB"] by (vm_compute; reflexivity).
  assert (X : exists cols, py_GetColsFromOrder false (firstn k TEB) [L "L"; L "TT"; L "EE"; L "BB"] = BaoModel.Ok cols /\
     forall ix, cols ix = if Nat.ltb ix (k * (k + 1) / 2) then (if Nat.eqb ix 0 then 1 else if Nat.eqb ix 2 then 2 else if Nat.eqb ix 5 then 3 else -1)%Z else (-1)%Z).
  { assert (D : (k = 1 \/ k = 2 \/ k = 3)%nat) by lia.
    destruct D as [-> | [-> | ->]]; (eexists; split; [reflexivity |]; intro ix; do 6 (destruct ix as [| ix]; [reflexivity |]); reflexivity). }
  destruct X as (cols & C & V). unfold py_ReadClArr. rewrite C. cbn [bind]. change (table lo hi (fun l => [g 0%nat l; g 1%nat l; g 2%nat l])) with (table lo hi f). rewrite two.
  assert (LK : length (firstn k TEB) = k) by (rewrite firstn_length; cbn [TEB length]; lia). rewrite LK.
  destruct (read_seq (k * (k + 1) / 2) cols lo hi f) with (n := (hi + 1 - lo)%nat) (s := lo) (last := @None Z) (cl := fun _ _ : nat => 0) as (cl & A & B).
  - intros ix l I. rewrite V. destruct (Nat.ltb_spec ix (k * (k + 1) / 2)); [| lia]. destruct (Nat.eqb ix 0); [right; cbn; lia |]. destruct (Nat.eqb ix 2); [right; cbn; lia |]. destruct (Nat.eqb ix 5); [right; cbn; lia | now left].
  - lia.
  - lia.
  - lia.
  - exists cl. split; [exact A |]. intros i j ix l E R. rewrite B. replace (lo + (l - lo))%nat with l by lia. destruct (Nat.leb_spec lo l); [| lia]. destruct (Nat.leb_spec l hi); [| lia]. rewrite V.
    assert (D : (k = 1 \/ k = 2 \/ k = 3)%nat) by lia.
    destruct D as [-> | [-> | ->]]; do 6 (destruct ix as [| ix]; [cbn in E; try discriminate; injection E as <- <-; reflexivity |]); destruct ix; discriminate.
Qed.

(** ** Fields *)
Theorem C149_fields a cols f m ls : a_fields a = [] -> recon a m ls -> fields a cols = Ok f ->
  (In (L "B") (split_ws f) <-> contains (L "BB") cols = true) /\ (In (L "P") (split_ws f) <-> contains (L "PP") cols = true /\ a_lens a <> None).
Proof.
  intros E H F. unfold fields in F. rewrite E in F. cbv zeta in F.
  assert (U : truth (a_lens a) = Ok (match a_lens a with Some _ => true | None => false end)). { destruct H as [[G _] | (v & G & N & _)]; rewrite G; [reflexivity |]. destruct v; [cbn in N; lia | reflexivity]. }
  assert (W : a_lens a <> None <-> match a_lens a with Some _ => true | None => false end = true) by (destruct (a_lens a); split; congruence). rewrite W. clear W. rewrite U in F. cbn [bindR] in F.
  destruct (contains (L "BB") cols), (contains (L "PP") cols), (a_lens a); injection F as <-;
    match goal with |- context [split_ws ?x] => let y := eval vm_compute in (split_ws x) in replace (split_ws x) with y by (vm_compute; reflexivity) end; cbn; intuition (try discriminate); try tauto.
Qed.

(** ** FINDINGS *)
(** FINDING: ['TT' or 'TE' in cols] is always true: T and E are used for every file, also if it has the spectra of neither *)
Theorem C149_fields_refuted a cols f : a_fields a = [] -> fields a cols = Ok f -> In (L "T") (split_ws f) /\ In (L "E") (split_ws f).
Proof.
  intros E F. unfold fields in F. rewrite E in F. cbv zeta in F.
  destruct (contains (L "BB") cols), (contains (L "PP") cols); [destruct (truth (a_lens a)) as [[|] |]; [| | discriminate] | | destruct (truth (a_lens a)) as [[|] |]; [| | discriminate] |]; injection F as <-; split; vm_compute; tauto.
Qed.
Example C149_ex_fields_refuted a : a_fields a = [] -> fields a (L "L BB") = Ok (L "T E B").
Proof. intro H. unfold fields. rewrite H. vm_compute. reflexivity. Qed.
(** FINDING: lensing alone, for which the names and the fields are prepared, always stops: the noise of the temperature is computed from None *)
Theorem C149_lensing_only_refuted a root v m : named a -> a_T a = None -> a_var a = None -> a_lens a = Some (AsList v) -> v <> [] -> a_lmax a = Some m -> (a_lmin a <= m)%nat -> make_forecast a root = Err TypeError.
Proof.
  intros N T V LE NE M LM. destruct (named_columns a N) as [c E]. unfold make_forecast. rewrite E. cbn [bindR]. unfold noise_cols, use_CMB. rewrite T, V, LE. cbn [orb truth].
  destruct v; [congruence |]. cbn [bindR]. unfold rows_of. rewrite M. replace (m + 1 - a_lmin a)%nat with (S (m - a_lmin a)) by lia. reflexivity.
Qed.
(** FINDING: the noise of the reconstruction is documented as an array, but an array of numpy with more than one number always stops *)
Theorem C149_array_refuted a root x y v : a_lens a = Some (AsArray (x :: y :: v)) -> exists e, make_forecast a root = Err e.
Proof.
  intro H. unfold make_forecast. destruct (columns a) as [c |]; [| cbn; eauto]. cbn [bindR]. unfold noise_cols. rewrite H. destruct (use_CMB a); cbn [truth bindR]; [| eauto].
  destruct (variance a); cbn [bindR]; [| eauto]. destruct (fields a (fst c)); cbn [bindR]; [| eauto]. destruct (a_fwhm a); eauto.
Qed.
(** FINDING: a temperature noise of zero is taken for none: no data set without noise can be made this way *)
Theorem C149_zero_refuted a root m : a_T a = Some 0 -> a_var a = None -> a_lmax a = Some m -> (a_lmin a <= m)%nat -> exists e, make_forecast a root = Err e.
Proof.
  intros T V M LM. unfold make_forecast. destruct (columns a) as [c |]; [| cbn; eauto]. cbn [bindR]. assert (C : use_CMB a = false). { unfold use_CMB, nonzero. rewrite T, V. destruct (Req_EM_T 0 0); [reflexivity | congruence]. }
  rewrite C. destruct (noise_cols a); cbn [bindR]; [| eauto]. unfold rows_of. rewrite M. replace (m + 1 - a_lmin a)%nat with (S (m - a_lmin a)) by lia. cbn [seq mapR row bindR]. eauto.
Qed.
(** the same with a variance of zero works *)
Theorem C149_zero_variance a root m ls w : named a -> a_var a = Some 0 -> a_T a = None -> a_P a = None -> a_fwhm a = Some w -> a_lmax a = Some m -> recon a m ls ->
  exists o, make_forecast a root = Ok o /\ o_rows o = table (a_lmin a) m (fun l => [0; 0; 0] ++ ls l).
Proof.
  intros N V T P W M H. assert (C : use_CMB a = true) by (unfold use_CMB; rewrite V, T; reflexivity). assert (VV : variance a = Ok (0, a_fac a)) by (unfold variance; now rewrite V, T, P).
  destruct (make_rows a root m ls _ _ w N C VV W M H) as (o & O & E). exists o. split; [exact O |]. rewrite E. unfold table. apply map_ext. intro l. f_equal. f_equal.
  replace (NoiseCl 0 (sigma2 w) l) with 0 by (unfold NoiseCl, Rdiv; ring). now rewrite !Rmult_0_r.
Qed.

(** ** Examples *)
Definition ex0 : fargs := mkF (Some 40) (Some 60) None 2 (Some 5) 2 (Some 3%nat) 1 [] (Some (AsList [0; 0; 7; 8])) [] (L "L TT TE EE BB PP").
Example C149_ex_hyp : named ex0 /\ a_var ex0 = None /\ a_T ex0 = Some 40 /\ 40 <> 0 /\ half_at 5 (sqrt (sigma2 5)) /\ recon ex0 3 (fun l => [nth l [0; 0; 7; 8] 0]).
Proof. split; [right; discriminate |]. repeat (split; [first [reflexivity | lra] |]). split; [apply C149_beam_exists; lra |]. right. eexists. split; [reflexivity |]. split; [cbn; lia | reflexivity]. Qed.
Example C149_ex_rows : exists o, make_forecast ex0 (L "sim") = Ok o /\ map fst (o_rows o) = [2; 3]%Z /\ map (fun r => nth 3 (snd r) 0) (o_rows o) = [7; 8] /\ split_ws (o_head o) = [L "L"; L "TT"; L "EE"; L "BB"; L "PP"] /\
  nth 0 (o_set o) ([], VNone) = (L "fields_use", VS (L "T E B P")).
Proof.
  unfold make_forecast. change (columns ex0) with (Ok (L "L TT TE EE BB PP", @nil (str * sval))). cbn [bindR]. unfold use_CMB. cbn [a_T a_var ex0 orb]. rewrite (nonzero_true 40) by lra. cbn [orb].
  unfold variance. cbn [a_T a_var a_P ex0 bindR]. replace (fields ex0 (fst (L "L TT TE EE BB PP", @nil (str * sval)))) with (@Ok str (L "T E B P")) by (vm_compute; reflexivity). cbn [bindR].
  unfold noise_cols, use_CMB. cbn [a_fwhm a_T a_var ex0]. rewrite (nonzero_true 40) by lra. cbn [orb a_lens ex0 truth bindR].
  unfold rows_of. cbn [a_lmax a_lmin ex0 Nat.add Nat.sub seq mapR row truth a_lens bindR lens_at numbers length Nat.ltb Nat.leb nth]. eexists. split; [reflexivity |]. repeat split; vm_compute; reflexivity.
Qed.
Definition ex1 : fargs := mkF None None (Some 3) 2 (Some 5) 2 (Some 3%nat) 1 [] None (L "TT EE") [].
Example C149_ex_var : named ex1 /\ a_var ex1 = Some 3 /\ a_T ex1 = None /\ a_P ex1 = None /\ recon ex1 3 (fun _ => []).
Proof. split; [left; discriminate |]. repeat (split; [reflexivity |]). now left. Qed.
Example C149_ex_both : make_forecast (mkF (Some 40) None (Some 3) 2 (Some 5) 2 (Some 3%nat) 1 [] None (L "TT EE") []) (L "sim") = Err ValueError.
Proof. apply (C149_both _ _ 3); [left; discriminate | reflexivity | left; discriminate]. Qed.
Example C149_ex_lensing_only : make_forecast (mkF None None None 2 None 2 (Some 3%nat) 1 [] (Some (AsList [0; 0; 7; 8])) (L "PP") []) (L "sim") = Err TypeError.
Proof. apply (C149_lensing_only_refuted _ _ [0; 0; 7; 8] 3); [left; discriminate | reflexivity | reflexivity | reflexivity | discriminate | reflexivity | cbn; lia]. Qed.
Example C149_ex_read : nth_error (py_tri 3) 5 = Some (2, 2)%nat /\ nth_error (py_tri 3) 3 = Some (2, 0)%nat.
Proof. split; reflexivity. Qed.
Print Assumptions C149_noise.
Print Assumptions C149_read.
Print Assumptions C149_header.
Print Assumptions C149_key.
