(** Lemmas about likelihood statistics. *)
From Coq Require Import Reals Lia Lra Bool Permutation.
From Verif Require Import PyStr PyBase StatModel StatSpec StatProofs LstModel LstSpec.
From Coq Require Import List.
Import ListNotations.
Local Open Scope R_scope.

Lemma argmin_from_spec : forall l pre best at_, (at_ < length pre)%nat -> nth at_ pre 0 = best -> (forall j, (j < length pre)%nat -> best <= nth j pre 0) -> (forall j, (j < at_)%nat -> best < nth j pre 0) ->
  let k := argmin_from best at_ (length pre) l in (k < length (pre ++ l))%nat /\ (forall j, (j < length (pre ++ l))%nat -> nth k (pre ++ l) 0 <= nth j (pre ++ l) 0) /\ (forall j, (j < k)%nat -> nth k (pre ++ l) 0 < nth j (pre ++ l) 0).
Proof.
  induction l as [| x l IH]; intros pre best a A E M F; cbn [argmin_from].
  - rewrite app_nil_r. cbv zeta. rewrite E. repeat split; assumption.
  - assert (P : pre ++ x :: l = (pre ++ [x]) ++ l) by (rewrite <- app_assoc; reflexivity). assert (LP : length (pre ++ [x]) = S (length pre)) by (rewrite app_length; cbn; lia). rewrite P, <- LP.
    assert (old : forall j, (j < length pre)%nat -> nth j (pre ++ [x]) 0 = nth j pre 0) by (intros; now rewrite app_nth1).
    assert (new : nth (length pre) (pre ++ [x]) 0 = x) by (rewrite app_nth2, Nat.sub_diag by lia; reflexivity).
    destruct (Rlt_dec x best) as [B | B]; apply IH.
    + lia.
    + exact new.
    + intros j J. destruct (Nat.eq_dec j (length pre)) as [-> | N]; [rewrite new; lra |]. rewrite old by lia. specialize (M j ltac:(lia)). lra.
    + intros j J. rewrite old by lia. specialize (M j ltac:(lia)). lra.
    + lia.
    + rewrite old by lia. exact E.
    + intros j J. destruct (Nat.eq_dec j (length pre)) as [-> | N]; [rewrite new; lra |]. rewrite old by lia. apply M. lia.
    + intros j J. rewrite old by lia. apply F. exact J.
Qed.
Lemma argminR_spec L : L <> [] -> let k := argminR L in (k < length L)%nat /\ (forall j, (j < length L)%nat -> nth k L 0 <= nth j L 0) /\ (forall j, (j < k)%nat -> nth k L 0 < nth j L 0).
Proof.
  destruct L as [| x l]; [congruence |]. intros _. apply (argmin_from_spec l [x] x 0); cbn [length nth]; try lia; [reflexivity |]. intros j J. replace j with 0%nat by lia. cbn. lra.
Qed.
Lemma best_in L x : L <> [] -> In x L -> nth (argminR L) L 0 <= x.
Proof. intros N I. destruct (In_nth _ _ 0 I) as (j & J & <-). apply (argminR_spec L N). exact J. Qed.

(** ** Means *)
Lemma good_nth w L i : good w L -> 0 <= nth i w 0.
Proof. intros (_ & P & _). destruct (Nat.lt_ge_cases i (length w)) as [H | H]; [apply P, nth_In, H | rewrite nth_overflow by lia; lra]. Qed.
Lemma good_nonempty w L : good w L -> L <> [].
Proof. intros (E & _ & N) ->. destruct w; [cbn in N; lra | discriminate E]. Qed.
Lemma mean_wavg w L f : length w = length L -> mean w (map f L) = wavg w L f.
Proof.
  intro E. unfold mean, wavg, get_norm. f_equal. rewrite dot_Sm by (now rewrite map_length). rewrite E. apply Sm_ext. intros i I. f_equal. rewrite nth_indep with (d' := f 0) by (now rewrite map_length). apply map_nth.
Qed.
Lemma mean_wavg_id w L : length w = length L -> dot w L / sumR w = wavg w L (fun x => x).
Proof. intro E. rewrite <- (mean_wavg w L _ E), map_id. reflexivity. Qed.
Lemma wavg_le w L f g : good w L -> (forall x, In x L -> f x <= g x) -> wavg w L f <= wavg w L g.
Proof.
  intros G H. unfold wavg. pose proof G as (_ & _ & N). apply Rmult_le_compat_r; [left; now apply Rinv_0_lt_compat |].
  apply Rminus_le. replace (Sm (length L) (fun i => nth i w 0 * f (nth i L 0)) - Sm (length L) (fun i => nth i w 0 * g (nth i L 0))) with (- Sm (length L) (fun i => nth i w 0 * (g (nth i L 0) - f (nth i L 0)))).
  - assert (0 <= Sm (length L) (fun i => nth i w 0 * (g (nth i L 0) - f (nth i L 0)))); [| lra]. apply Sm_nonneg. intros i I. apply Rmult_le_pos; [apply (good_nth w L i G) |]. specialize (H (nth i L 0) (nth_In _ _ I)). lra.
  - rewrite (Sm_ext (length L) (fun i => nth i w 0 * (g (nth i L 0) - f (nth i L 0))) (fun i => nth i w 0 * g (nth i L 0) + -1 * (nth i w 0 * f (nth i L 0)))) by (intros; ring). rewrite Sm_plus, Sm_scal. ring.
Qed.
Lemma wavg_affine w L f a b : good w L -> wavg w L (fun x => a + b * f x) = a + b * wavg w L f.
Proof.
  intros (E & _ & N). unfold wavg. rewrite (Sm_ext (length L) _ (fun i => a * nth i w 0 + b * (nth i w 0 * f (nth i L 0)))) by (intros; ring). rewrite Sm_plus, !Sm_scal, <- E, <- sumR_Sm, E. field. lra.
Qed.
Lemma wavg_ext w L f g : (forall x, f x = g x) -> wavg w L f = wavg w L g.
Proof. intro H. unfold wavg. f_equal. apply Sm_ext. intros. now rewrite H. Qed.
Lemma wavg_map w L f c : wavg w (map (fun x => x + c) L) f = wavg w L (fun x => f (x + c)).
Proof.
  unfold wavg. rewrite map_length. f_equal. apply Sm_ext. intros i I. do 2 f_equal. rewrite nth_indep with (d' := 0 + c) by (now rewrite map_length). apply (map_nth (fun x => x + c)).
Qed.
Lemma wavg_const w L c : good w L -> wavg w L (fun _ => c) = c.
Proof. intro G. rewrite (wavg_ext w L _ (fun x => c + 0 * x)) by (intros; ring). rewrite (wavg_affine w L (fun x => x)) by exact G. ring. Qed.
(** Jensen for the exponential *)
Lemma exp_tangent x : 1 + x <= exp x.
Proof. destruct (Req_dec x 0) as [-> | N]; [rewrite exp_0; lra | left; now apply exp_ineq1]. Qed.
Lemma jensen w L s : good w L -> exp (s * wavg w L (fun x => x)) <= wavg w L (fun x => exp (s * x)).
Proof.
  intro G. set (m := wavg w L (fun x => x)).
  assert (H : 1 <= wavg w L (fun x => exp (s * x - s * m))).
  { apply Rle_trans with (wavg w L (fun x => (1 - s * m) + s * x)); [rewrite (wavg_affine w L (fun x => x)) by exact G; fold m; lra |]. apply wavg_le; [exact G |]. intros x _. pose proof (exp_tangent (s * x - s * m)). lra. }
  rewrite (wavg_ext w L _ (fun x => 0 + exp (- (s * m)) * exp (s * x))) in H by (intro; rewrite <- exp_plus, Rplus_0_l; f_equal; ring). rewrite (wavg_affine w L (fun x => exp (s * x))) in H by exact G. rewrite Rplus_0_l in H.
  apply Rmult_le_reg_l with (exp (- (s * m))); [apply exp_pos |]. rewrite <- exp_plus. replace (- (s * m) + s * m) with 0 by ring. rewrite exp_0. exact H.
Qed.
Lemma wavg_exp_pos w L s : good w L -> 0 < wavg w L (fun x => exp (s * x)).
Proof. intro G. eapply Rlt_le_trans; [apply exp_pos | apply (jensen w L s G)]. Qed.
Lemma ln_scaled w L s m : good w L -> ln (wavg w L (fun x => exp (s * (x - m)))) = ln (wavg w L (fun x => exp (s * x))) - s * m.
Proof.
  intro G. rewrite (wavg_ext w L _ (fun x => 0 + exp (- (s * m)) * exp (s * x))) by (intro; rewrite <- exp_plus, Rplus_0_l; f_equal; ring). rewrite (wavg_affine w L (fun x => exp (s * x))) by exact G. rewrite Rplus_0_l, ln_mult, ln_exp by (try apply exp_pos; now apply wavg_exp_pos). ring.
Qed.
Lemma ln_mono x y : 0 < x -> x <= y -> ln x <= ln y.
Proof. intros P [H | ->]; [left; now apply ln_increasing | right; reflexivity]. Qed.

(** ** The part of the samples in a region *)
Lemma cumsum_nth l : forall a i, (i < length l)%nat -> nth i (cumsumR a l) 0 = a + sumR (firstn (S i) l).
Proof.
  induction l as [| x l IH]; intros a i I; cbn [length] in I; [lia |]. cbn [cumsumR]. destruct i; [cbn; ring |]. cbn [nth]. rewrite IH by lia. cbn [firstn sumR fold_right]. ring.
Qed.
Lemma cumsum_length l : forall a, length (cumsumR a l) = length l.
Proof. induction l; intro; cbn; [| rewrite IHl]; reflexivity. Qed.
Lemma search_spec c t : (searchsortedR c t <= length c)%nat /\ (forall i, (i < searchsortedR c t)%nat -> nth i c 0 < t) /\ ((searchsortedR c t < length c)%nat -> t <= nth (searchsortedR c t) c 0).
Proof.
  induction c as [| x c (A & B & C)]; cbn [searchsortedR length]; [repeat split; intros; lia |]. destruct (Rlt_dec x t) as [H | H]; repeat split; try lia.
  - intros [| i] I; [exact H | apply B; lia].
  - intro I. apply C. lia.
  - intros _. cbn. lra.
Qed.
Lemma firstn_take n ix l : sumR (firstn n (take ix l)) = weight_of l (firstn n ix).
Proof. unfold take, weight_of. now rewrite firstn_map. Qed.
Lemma region_weight w ix t n : n = searchsortedR (cumsumR 0 (take ix w)) t -> 0 < t ->
  weight_of w (firstn n ix) < t /\ ((n < length ix)%nat -> t <= weight_of w (firstn (S n) ix)) /\ (n <= length ix)%nat.
Proof.
  intros -> T. destruct (search_spec (cumsumR 0 (take ix w)) t) as (A & B & C). rewrite cumsum_length in A, C. unfold take in A, C. rewrite map_length in A, C. fold (take ix w) in A, C. set (n := searchsortedR (cumsumR 0 (take ix w)) t) in *. repeat split; [| | exact A].
  - destruct n as [| m]; [cbn; exact T |]. specialize (B m ltac:(lia)). rewrite cumsum_nth in B by (unfold take; rewrite map_length; lia). rewrite firstn_take in B. lra.
  - intro N. specialize (C N). rewrite cumsum_nth in C by (unfold take; rewrite map_length; lia). rewrite firstn_take in C. lra.
Qed.
Lemma sumR_perm a b : Permutation a b -> sumR a = sumR b.
Proof. unfold sumR. induction 1; cbn [fold_right]; try lra. Qed.
Lemma weight_all w (L : list R) ix : length w = length L -> Permutation ix (seq 0 (length L)) -> weight_of w ix = sumR w.
Proof. intros E P. unfold weight_of. rewrite (sumR_perm _ _ (Permutation_map _ P)), <- E. symmetry. apply sumR_Sm. Qed.
Lemma search_mono c s t : s <= t -> (searchsortedR c s <= searchsortedR c t)%nat.
Proof. intro H. induction c as [| x c IH]; cbn [searchsortedR]; [lia |]. destruct (Rlt_dec x s), (Rlt_dec x t); try lia. lra. Qed.
Lemma search_scale c t k : 0 < k -> searchsortedR (map (fun x => k * x) c) (k * t) = searchsortedR c t.
Proof.
  intro K. induction c as [| x c IH]; cbn [searchsortedR map]; [reflexivity |]. destruct (Rlt_dec (k * x) (k * t)) as [H | H], (Rlt_dec x t) as [H' | H']; [now rewrite IH | | | reflexivity].
  - apply Rmult_lt_reg_l in H; [contradiction | exact K].
  - elim H. now apply Rmult_lt_compat_l.
Qed.
Lemma cumsum_scale k l : forall a, cumsumR (k * a) (map (fun x => k * x) l) = map (fun x => k * x) (cumsumR a l).
Proof. induction l as [| x l IH]; intro a; cbn [cumsumR map]; [reflexivity |]. rewrite <- Rmult_plus_distr_l, IH. reflexivity. Qed.
Lemma take_scale k ix w : take ix (map (fun x => k * x) w) = map (fun x => k * x) (take ix w).
Proof.
  unfold take. rewrite map_map. apply map_ext. intro i. destruct (Nat.lt_ge_cases i (length w)) as [H | H].
  - rewrite nth_indep with (d' := k * 0) by (now rewrite map_length). apply (map_nth (fun x => k * x)).
  - rewrite !nth_overflow by (rewrite ?map_length; lia). ring.
Qed.

(** ** Limits *)
Lemma maxR_attained l : l <> [] -> In (maxR l) l.
Proof.
  destruct l as [| x l]; [congruence |]. intros _. cbn [maxR]. revert x. induction l as [| y l IH]; intro x; [now left |]. cbn [fold_left]. destruct (IH (Rmax x y)) as [E | I]; [| now right; right]. unfold Rmax in *. destruct (Rle_dec x y); [right; left; exact E | left; exact E].
Qed.
Lemma minR_attained l : l <> [] -> In (minR l) l.
Proof.
  destruct l as [| x l]; [congruence |]. intros _. cbn [minR]. revert x. induction l as [| y l IH]; intro x; [now left |]. cbn [fold_left]. destruct (IH (Rmin x y)) as [E | I]; [| now right; right]. unfold Rmin in *. destruct (Rle_dec x y); [left; exact E | right; left; exact E].
Qed.
Lemma minE_ok l x : minE l = Ok x <-> l <> [] /\ x = minR l.
Proof. destruct l; cbn [minE]; split; [discriminate | tauto | | ]. - intro H. injection H as <-. split; [discriminate | reflexivity]. - intros (_ & ->). reflexivity. Qed.
Lemma maxE_ok l x : maxE l = Ok x <-> l <> [] /\ x = maxR l.
Proof. destruct l; cbn [maxE]; split; [discriminate | tauto | | ]. - intro H. injection H as <-. split; [discriminate | reflexivity]. - intros (_ & ->). reflexivity. Qed.
Lemma par_ok ix n1 n2 b p l : par_limits ix n1 n2 b p = Ok l <->
  firstn n1 ix <> [] /\ firstn n2 ix <> [] /\ l = mkLim (minR (take (firstn n1 ix) p)) (minR (take (firstn n2 ix) p)) (maxR (take (firstn n1 ix) p)) (maxR (take (firstn n2 ix) p)) (nth b p 0).
Proof.
  unfold par_limits, take. cbv zeta. destruct (firstn n1 ix) as [| i1 r1]; [cbn; split; [discriminate | intros (H & _); congruence] |]. destruct (firstn n2 ix) as [| i2 r2]; [cbn; split; [discriminate | intros (_ & H & _); congruence] |].
  cbn [map minE maxE bindR]. split; [intro H; injection H as <-; repeat split; discriminate | intros (_ & _ & ->); reflexivity].
Qed.
Lemma mapR_spec {A B} (f : A -> res B) l r : mapR f l = Ok r <-> Forall2 (fun x y => f x = Ok y) l r.
Proof.
  revert r. induction l as [| x l IH]; intro r; cbn [mapR].
  - split; [intro H; injection H as <-; constructor | intro H; inversion H; reflexivity].
  - destruct (f x) as [y | e] eqn:E; [| split; [discriminate | intro H; inversion H; congruence]]. destruct (mapR f l) as [s | e] eqn:M.
    + split; [intro H; injection H as <-; constructor; [exact E | now apply IH] |]. intro H. inversion H as [| a c a' c' F1 F2]; subst. rewrite E in F1. injection F1 as ->. apply IH in F2. now injection F2 as ->.
    + split; [discriminate |]. intro H. inversion H as [| a c a' c' F1 F2]; subst. apply IH in F2. discriminate F2.
Qed.
(** all but the limits *)
Definition summary (w L : list R) (ix : list nat) (c1 c2 : R) (ls : list limits) : stats :=
  let m := nth (argminR L) L 0 in
  mkStats m (if Rlt_dec (maxR L - m) 30 then Some (ln (wavg w L exp)) else None) (wavg w L (fun x => x)) (- ln (wavg w L (fun x => exp (- x)))) (2 * (wavg w L (fun x => x) - m))
    (searchsortedR (cumsumR 0 (take ix w)) (sumR w * c1)) (searchsortedR (cumsumR 0 (take ix w)) (sumR w * c2)) ls.
Lemma stats_summary w L ps ix c1 c2 : good w L -> setLikeStats w L ps ix c1 c2 =
  bindR (mapR (par_limits ix (searchsortedR (cumsumR 0 (take ix w)) (sumR w * c1)) (searchsortedR (cumsumR 0 (take ix w)) (sumR w * c2)) (argminR L)) ps) (fun ls => Ok (summary w L ix c1 c2 ls)).
Proof.
  intro G. pose proof (good_nonempty _ _ G) as NE. pose proof G as (E & _ & _). unfold setLikeStats. destruct L as [| x0 l0] eqn:EL; [congruence |]. rewrite <- EL in *. clear EL x0 l0. cbv zeta. change (get_norm w) with (sumR w). destruct (mapR _ ps); [| reflexivity]. cbn [bindR]. unfold summary. cbv zeta. set (m := nth (argminR L) L 0).
  assert (A : ln (mean w (map (fun x => exp (x - m)) L)) + m = ln (wavg w L exp)).
  { rewrite mean_wavg by exact E. rewrite (wavg_ext w L _ (fun x => exp (1 * (x - m)))) by (intro; f_equal; ring). rewrite ln_scaled by exact G. rewrite (wavg_ext w L (fun x => exp (1 * x)) exp) by (intro; f_equal; ring). ring. }
  assert (B : - ln (mean w (map (fun x => exp (- (x - m))) L)) + m = - ln (wavg w L (fun x => exp (- x)))).
  { rewrite mean_wavg by exact E. rewrite (wavg_ext w L _ (fun x => exp (-1 * (x - m)))) by (intro; f_equal; ring). rewrite ln_scaled by exact G. rewrite (wavg_ext w L (fun x => exp (-1 * x)) (fun x => exp (- x))) by (intro; f_equal; ring). ring. }
  rewrite A, B, (mean_wavg_id w L E). reflexivity.
Qed.
