(** Lemmas about effective numbers of samples. *)
From Coq Require Import Reals ZArith List Bool Lra Lia Psatz.
From Verif Require Import PyStr PyBase ConvModel KdeModel Kde2Model StatModel StatSpec StatProofs CnvgModel CnvgProofs NeffModel NeffSpec.
From Coq Require Import List.
Import ListNotations.
Local Open Scope R_scope.

Lemma get_norm_Sm w : get_norm w = Sm (length w) (fun i => nth i w 0).
Proof.
  unfold get_norm. induction w as [|x w IH]; [reflexivity|]. cbn [sumR fold_right length]. fold (sumR w). rewrite Sm_shift, IH. reflexivity.
Qed.
Lemma sum2_Sm w : sum2 w = Sm (length w) (fun i => nth i w 0 ^ 2).
Proof. unfold sum2. rewrite dot_Sm by reflexivity. apply Sm_ext. intros; ring. Qed.
Lemma sum2_nonneg w : 0 <= sum2 w.
Proof. rewrite sum2_Sm. apply Sm_nonneg. intros. apply pow2_ge_0. Qed.
Lemma norm_sq n f : Sm n f ^ 2 <= INR n * Sm n (fun i => f i ^ 2).
Proof.
  destruct n as [|m]; [rewrite !Sm_0; cbn; lra|]. set (n := S m) in *.
  assert (P : 0 < INR n) by (apply lt_0_INR; unfold n; lia).
  assert (Q : 0 <= Sm n (fun i => (INR n * f i - Sm n f) ^ 2)) by (apply Sm_nonneg; intros; apply pow2_ge_0).
  assert (E : Sm n (fun i => (INR n * f i - Sm n f) ^ 2) = INR n * (INR n * Sm n (fun i => f i ^ 2) - Sm n f ^ 2)).
  { transitivity (Sm n (fun i => INR n ^ 2 * f i ^ 2) + (Sm n (fun i => (-2 * INR n * Sm n f) * f i) + Sm n (fun _ => Sm n f ^ 2))).
    - rewrite <- !Sm_plus. apply Sm_ext. intros; ring.
    - rewrite !Sm_scal, Sm_const. ring. }
  rewrite E in Q. assert (0 <= INR n * Sm n (fun i => f i ^ 2) - Sm n f ^ 2); [|lra].
  apply Rmult_le_reg_l with (INR n); [exact P | lra].
Qed.
Lemma norm_nonzero_sum2 w : get_norm w <> 0 -> 0 < sum2 w.
Proof.
  intros N. destruct (sum2_nonneg w) as [P|Z]; [exact P|]. exfalso. apply N.
  pose proof (norm_sq (length w) (fun i => nth i w 0)) as Q. rewrite <- get_norm_Sm, <- sum2_Sm, <- Z, Rmult_0_r in Q.
  pose proof (pow2_ge_0 (get_norm w)). assert (get_norm w ^ 2 = 0) by lra. apply Rmult_integral in H0. destruct H0 as [H0|H0]; lra.
Qed.
Lemma kish_eq w : kish w = get_norm w ^ 2 / sum2 w.
Proof. unfold kish. rewrite get_norm_Sm, sum2_Sm. reflexivity. Qed.
Lemma kish_le w : get_norm w <> 0 -> 0 < kish w <= INR (length w).
Proof.
  intros N. pose proof (norm_nonzero_sum2 w N) as P. rewrite kish_eq. split.
  - apply Rdiv_lt_0_compat; [|exact P]. pose proof (Rsqr_pos_lt _ N). unfold Rsqr in H. cbn. lra.
  - apply Rmult_le_reg_r with (sum2 w); [exact P|]. unfold Rdiv. rewrite Rmult_assoc, Rinv_l, Rmult_1_r by lra.
    pose proof (norm_sq (length w) (fun i => nth i w 0)) as Q. rewrite <- get_norm_Sm, <- sum2_Sm in Q. exact Q.
Qed.

(** ** The sum of correlations *)
Lemma cumulate_le corr thr step ks acc : 0 <= thr -> acc <= cumulate corr thr step ks acc.
Proof.
  intros T. revert acc. induction ks as [|k r IH]; intros acc; cbn [cumulate]; [lra|]. cbv zeta.
  destruct (Rlt_dec (corr k) thr); [lra|]. eapply Rle_trans; [|apply IH].
  assert (0 <= corr k * INR step) by (apply Rmult_le_pos; [lra | apply pos_INR]). destruct (Nat.ltb 3 k); lra.
Qed.
Lemma sum_N_ge c0 corr mc m N : 0 <= c0 -> 0 <= mc -> sum_N c0 corr mc m = Ok N -> c0 <= N.
Proof.
  intros C M E. assert (T : 0 <= mc * c0) by (apply Rmult_le_pos; assumption). unfold sum_N in E. cbv zeta in E.
  destruct (Nat.leb 1 m); [|discriminate]. destruct (Rlt_dec (corr 1%nat) (mc * c0)) as [L1|L1].
  - assert (N = c0) by congruence. lra.
  - destruct (Nat.leb 2 m); [|discriminate]. destruct (Rlt_dec (mc * c0) (corr 2%nat)) as [L2|L2].
    + match type of E with Ok (c0 + 2 * ?c) = _ => assert (X : N = c0 + 2 * c) by congruence;
        assert (Y : corr 1%nat + corr 2%nat <= c) by (apply cumulate_le; exact T) end. lra.
    + assert (N = c0 + 2 * corr 1%nat) by congruence. lra.
Qed.
Lemma find_max_ext c c' thr thr' f m : (forall k, thr <= c k <-> thr' <= c' k) -> find_max f c thr m = find_max f c' thr' m.
Proof.
  intros H. revert m. induction f as [|f IH]; intros m; cbn [find_max]; [reflexivity|]. destruct (Nat.ltb 10 m); [|reflexivity].
  destruct (Rle_dec thr (c (m / 3)%nat)) as [a|a], (Rle_dec thr' (c' (m / 3)%nat)) as [b|b]; try reflexivity; try apply IH; exfalso; apply H in a || apply H in b; contradiction.
Qed.
(** the search ends before its fuel does *)
Lemma find_max_end f c thr m : (m <= f)%nat -> let r := find_max f c thr m in (r <= 10)%nat \/ (r = m \/ (r <= m / 3)%nat) /\ thr <= c (r / 3)%nat.
Proof.
  cbv zeta. revert m. induction f as [|f IH]; intros m L; cbn [find_max]; [left; lia|].
  destruct (Nat.ltb_spec 10 m) as [A|A]; [|left; exact A]. destruct (Rle_dec thr (c (m / 3)%nat)) as [B|B]; [right; split; [left; reflexivity | exact B]|].
  assert (D : (m / 3 < m)%nat) by (apply Nat.div_lt; lia). destruct (IH (m / 3)%nat ltac:(lia)) as [E|[E F]]; [left; exact E|].
  right. split; [|exact F]. right. destruct E as [->|E]; [lia|]. pose proof (Nat.div_le_mono (m / 3) m 3 ltac:(lia) ltac:(lia)). lia.
Qed.
Lemma cumulate_scal c corr thr step ks acc : 0 < c -> cumulate (fun k => c * corr k) (c * thr) step ks (c * acc) = c * cumulate corr thr step ks acc.
Proof.
  intros C. revert acc. induction ks as [|k r IH]; intros acc; cbn [cumulate]; [reflexivity|]. cbv zeta.
  destruct (Rlt_dec (c * corr k) (c * thr)) as [a|a], (Rlt_dec (corr k) thr) as [b|b]; try reflexivity.
  - exfalso. apply Rmult_lt_reg_l in a; [contradiction | exact C].
  - exfalso. apply a. apply Rmult_lt_compat_l; assumption.
  - rewrite <- IH. f_equal. destruct (Nat.ltb 3 k); field.
Qed.
Lemma cumulate_ext c c' thr step ks acc : (forall k, In k ks -> c k = c' k) -> cumulate c thr step ks acc = cumulate c' thr step ks acc.
Proof.
  revert acc. induction ks as [|k r IH]; intros acc H; cbn [cumulate]; [reflexivity|]. cbv zeta. rewrite (H k) by (left; reflexivity).
  destruct (Rlt_dec (c' k) thr); [reflexivity|]. apply IH. intros; apply H; right; assumption.
Qed.
Lemma sum_N_scal c c0 corr mc m : 0 < c -> sum_N (c * c0) (fun k => c * corr k) mc m = bindR (sum_N c0 corr mc m) (fun N => Ok (c * N)).
Proof.
  intros C. unfold sum_N. cbv zeta. replace (mc * (c * c0)) with (c * (mc * c0)) by ring. set (thr := mc * c0).
  destruct (Nat.leb 1 m); [|reflexivity].
  destruct (Rlt_dec (c * corr 1%nat) (c * thr)) as [a|a], (Rlt_dec (corr 1%nat) thr) as [b|b]; [reflexivity | | |].
  - exfalso. apply Rmult_lt_reg_l in a; [contradiction | exact C].
  - exfalso. apply a. apply Rmult_lt_compat_l; assumption.
  - destruct (Nat.leb 2 m); [|reflexivity].
    destruct (Rlt_dec (c * thr) (c * corr 2%nat)) as [a2|a2], (Rlt_dec thr (corr 2%nat)) as [b2|b2].
    + cbn [bindR]. f_equal. rewrite (find_max_ext _ corr _ thr).
      * replace (c * corr 1%nat + c * corr 2%nat) with (c * (corr 1%nat + corr 2%nat)) by ring. rewrite cumulate_scal by exact C. ring.
      * intros k. split; intros H; [apply Rmult_le_reg_l in H; [exact H | exact C] | apply Rmult_le_compat_l; [lra | exact H]].
    + exfalso. apply Rmult_lt_reg_l in a2; [contradiction | exact C].
    + exfalso. apply a2. apply Rmult_lt_compat_l; assumption.
    + cbn [bindR]. f_equal. ring.
Qed.
Lemma sum_N_ext c0 c c' mc m : (forall k, c k = c' k) -> sum_N c0 c mc m = sum_N c0 c' mc m.
Proof.
  intros H. unfold sum_N. cbv zeta. rewrite !H. rewrite (find_max_ext c c' (mc * c0) (mc * c0)) by (intros k; rewrite H; tauto).
  rewrite (cumulate_ext c c') by (intros; apply H). reflexivity.
Qed.

(** ** Pairs of rows *)
Lemma nth_firstn_lt {A} (l : list A) m i d : (i < m)%nat -> nth i (firstn m l) d = nth i l d.
Proof. revert m i. induction l as [|x l IH]; intros [|m] [|i] L; cbn; try reflexivity; try lia. apply IH. lia. Qed.
Lemma nth_skipn_add {A} (l : list A) k i d : nth i (skipn k l) d = nth (k + i) l d.
Proof. revert l. induction k as [|k IH]; intros [|x l]; cbn [skipn Nat.add]; try reflexivity; [destruct i; reflexivity | apply IH]. Qed.
Lemma pair_Sm {A} (kern : A -> A -> R) d w k z : length w = length d ->
  pair_term kern d w k = Sm (length d - k) (fun i => kern (nth i d z) (nth (k + i) d z) * nth i w 0 * nth (k + i) w 0).
Proof.
  intros L. unfold pair_term. cbv zeta. set (m := (length d - k)%nat).
  assert (L1 : length (combine (firstn m d) (skipn k d)) = m) by (rewrite combine_length, firstn_length, skipn_length; lia).
  assert (L2 : length (map (fun p => kern (fst p) (snd p)) (combine (firstn m d) (skipn k d))) = length (firstn m w)) by (rewrite map_length, L1, firstn_length; lia).
  rewrite dot_Sm by (rewrite mul_length by exact L2; rewrite map_length, L1, skipn_length; lia).
  rewrite mul_length by exact L2. rewrite map_length, L1. apply Sm_ext. intros i I.
  rewrite mul_nth by exact L2. rewrite nth_firstn_lt by exact I. rewrite nth_skipn_add. f_equal. f_equal.
  rewrite (nth_indep _ 0 ((fun p => kern (fst p) (snd p)) (z, z))) by (rewrite map_length, L1; exact I).
  rewrite (map_nth (fun p => kern (fst p) (snd p))). rewrite combine_nth by (rewrite firstn_length, skipn_length; lia). cbn [fst snd].
  rewrite nth_firstn_lt by exact I. rewrite nth_skipn_add. reflexivity.
Qed.
Lemma pair_scal {A} (kern : A -> A -> R) d w k c : length w = length d -> pair_term kern d (map (fun x => c * x) w) k = c ^ 2 * pair_term kern d w k.
Proof.
  intros L. destruct d as [|z d']; [unfold pair_term; cbn [length Nat.sub]; rewrite firstn_O, skipn_nil; cbn; ring|]. set (d := z :: d') in *.
  rewrite !(pair_Sm kern d _ k z) by (rewrite ?map_length; exact L). rewrite <- Sm_scal. apply Sm_ext. intros i I.
  rewrite (nth_map0 _ w i 0), (nth_map0 _ w (k + i) 0) by lia. ring.
Qed.
Lemma pair_map {A B} (g : A -> B) kern kern' d w k : length w = length d -> (forall x y, kern' (g x) (g y) = kern x y) -> pair_term kern' (map g d) w k = pair_term kern d w k.
Proof.
  intros L H. destruct d as [|z d']; [reflexivity|]. set (d := z :: d') in *.
  rewrite (pair_Sm kern' (map g d) w k (g z)) by (rewrite map_length; exact L). rewrite (pair_Sm kern d w k z) by exact L. rewrite map_length.
  apply Sm_ext. intros i I. rewrite !map_nth, H. reflexivity.
Qed.
Lemma sumR_scal {A} (f : A -> R) c l : sumR (map (fun x => c * f x) l) = c * sumR (map f l).
Proof. induction l as [|x l IH]; cbn; [ring|]. fold (sumR (map (fun x => c * f x) l)) (sumR (map f l)). rewrite IH. ring. Qed.
Lemma uncorr_scal {A} (kern : A -> A -> R) d w c : length w = length d -> uncorr_term kern d (map (fun x => c * x) w) = c ^ 2 * uncorr_term kern d w.
Proof.
  intros L. unfold uncorr_term. cbv zeta. rewrite (map_ext _ (fun k => c ^ 2 * pair_term kern d w k)) by (intros; apply pair_scal; exact L).
  rewrite sumR_scal. unfold Rdiv. ring.
Qed.
Lemma uncorr_map {A B} (g : A -> B) kern kern' d w : length w = length d -> (forall x y, kern' (g x) (g y) = kern x y) -> uncorr_term kern' (map g d) w = uncorr_term kern d w.
Proof.
  intros L H. unfold uncorr_term. cbv zeta. rewrite map_length. f_equal. f_equal. apply map_ext. intros k. apply pair_map; assumption.
Qed.
Lemma kernel_same s x y : s <> 0 -> kernel1' s x y = kernel1 s x y.
Proof. intros S. unfold kernel1, kernel1'. f_equal. field. exact S. Qed.
