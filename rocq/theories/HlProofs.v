From Coq Require Import Reals ZArith Bool List Lia Lra RelationClasses Morphisms Setoid.
From Verif Require Import BaoModel BaoSpec BaoProofs SnProofs MapModel HlModel HlSpec.
Import ListNotations.
Local Open Scope R_scope.

Global Instance meq_equiv n : Equivalence (meq n).
Proof. split; [intros A i j _ _; reflexivity | intros A B E i j I J; symmetry; now apply E | intros A B C E F i j I J; rewrite E by assumption; now apply F]. Qed.
Global Instance times_proper n : Proper (meq n ==> meq n ==> meq n) (times n).
Proof. intros A A' EA B B' EB i j I J. apply total_ext. intros k K. rewrite EA, EB by assumption. reflexivity. Qed.
Global Instance tr_proper n : Proper (meq n ==> meq n) tr.
Proof. intros A A' E i j I J. unfold tr. now apply E. Qed.
Lemma mm_times n A B : meq n (mm n A B) (times n A B).
Proof. intros i j _ _. unfold mm, times. apply sum1_total. Qed.
Lemma times_assoc n A B C : meq n (times n (times n A B) C) (times n A (times n B C)).
Proof.
  intros i j _ _. unfold times. rewrite (total_ext n _ (fun k => total (fun h => A i h * B h k * C k j) n)).
  - rewrite total_swap. apply total_ext. intros h H. rewrite <- total_scale. apply total_ext. intros; ring.
  - intros k K. rewrite Rmult_comm, <- total_scale. apply total_ext. intros; ring.
Qed.
Lemma times_one_l n A : meq n (times n one A) A.
Proof. intros i j I J. unfold times, one. rewrite (total_one n _ i I); [rewrite Nat.eqb_refl; ring |]. intros k K N. destruct (Nat.eqb_spec i k); [congruence | ring]. Qed.
Lemma times_one_r n A : meq n (times n A one) A.
Proof. intros i j I J. unfold times, one. rewrite (total_one n _ j J); [rewrite Nat.eqb_refl; ring |]. intros k K N. destruct (Nat.eqb_spec k j); [congruence | ring]. Qed.
Lemma tr_times n A B : meq n (tr (times n A B)) (times n (tr B) (tr A)).
Proof. intros i j _ _. unfold tr, times. apply total_ext. intros; ring. Qed.
Lemma tr_tr A : tr (tr A) = A. Proof. reflexivity. Qed.
Lemma tr_diag n D : meq n (tr (diagm D)) (diagm D).
Proof. intros i j _ _. unfold tr, diagm. rewrite (Nat.eqb_sym j i). destruct (Nat.eqb_spec i j) as [-> |]; reflexivity. Qed.
Lemma times_diag_r n A D i j : (1 <= j <= n)%nat -> times n A (diagm D) i j = A i j * D j.
Proof. intro J. unfold times, diagm. rewrite (total_one n _ j J); [rewrite Nat.eqb_refl; ring |]. intros k K N. destruct (Nat.eqb_spec k j); [congruence | ring]. Qed.
Lemma times_diag_l n A D i j : (1 <= i <= n)%nat -> times n (diagm D) A i j = D i * A i j.
Proof. intro J. unfold times, diagm. rewrite (total_one n _ i J); [rewrite Nat.eqb_refl; ring |]. intros k K N. destruct (Nat.eqb_spec i k); [congruence | ring]. Qed.
Lemma diag_diag n D E : meq n (times n (diagm D) (diagm E)) (diagm (fun i => D i * E i)).
Proof. intros i j I J. rewrite times_diag_r by exact J. unfold diagm. destruct (Nat.eqb_spec i j) as [-> |]; [reflexivity | ring]. Qed.
Lemma diag_ext n D E : (forall i, (1 <= i <= n)%nat -> D i = E i) -> meq n (diagm D) (diagm E).
Proof. intros H i j I J. unfold diagm. destruct (Nat.eqb i j); [now apply H | reflexivity]. Qed.
Lemma diag_one n : meq n (diagm (fun _ => 1)) one. Proof. intros i j _ _. reflexivity. Qed.
Lemma trace_ext n A B : meq n A B -> trace n A = trace n B.
Proof. intro E. apply total_ext. intros i I. now apply E. Qed.
Lemma trace_comm n A B : trace n (times n A B) = trace n (times n B A).
Proof. unfold trace, times. rewrite total_swap. apply total_ext. intros i I. apply total_ext. intros; ring. Qed.
Lemma trace_diag n D : trace n (diagm D) = total D n.
Proof. apply total_ext. intros i I. unfold diagm. now rewrite Nat.eqb_refl. Qed.
Lemma symmetric_meq n A : symmetric n A <-> meq n A (tr A).
Proof. split; intros H i j I J; apply H; assumption. Qed.
Lemma symmetric_cong n A B C : symmetric n B -> meq n C (times n A (times n B (tr A))) -> symmetric n C.
Proof.
  intros Sy E. apply symmetric_meq. rewrite E. pose proof (proj1 (symmetric_meq n B) Sy) as S. rewrite !tr_times, tr_tr, times_assoc, <- S. reflexivity.
Qed.
(** rotating back *)
Lemma rotate_back n M U D : decomposes n M U D -> meq n (times n (tr U) (times n M U)) (diagm D).
Proof.
  intros ((O1 & O2) & E). rewrite E, !times_assoc, O1, times_one_r, <- times_assoc, O1, times_one_l. reflexivity.
Qed.
Lemma decomposes_one n U D : decomposes n one U D -> forall i, (1 <= i <= n)%nat -> D i = 1.
Proof.
  intros H i I. pose proof (rotate_back _ _ _ _ H) as R. destruct H as ((O1 & _) & _). rewrite times_one_l, O1 in R. specialize (R i i I I). unfold one, diagm in R. rewrite Nat.eqb_refl in R. congruence.
Qed.
Lemma all_pos_spec n D : all_pos n D = true <-> forall i, (1 <= i <= n)%nat -> 0 < D i.
Proof.
  unfold all_pos. rewrite forallb_forall. split.
  - intros H i I. specialize (H i ltac:(apply in_seq; lia)). destruct (Rlt_dec 0 (D i)); [assumption | discriminate].
  - intros H i I. apply in_seq in I. destruct (Rlt_dec 0 (D i)); [reflexivity | exfalso; apply n0, H; lia].
Qed.
(** positive matrices have positive eigenvalues *)
Lemma form_times n M v : form n M v = total (fun i => v i * total (fun j => M i j * v j) n) n.
Proof. apply total_ext. intros i I. rewrite <- total_scale. apply total_ext. intros; ring. Qed.
Lemma eigen_positive n M U D : positive n M -> decomposes n M U D -> forall i, (1 <= i <= n)%nat -> 0 < D i.
Proof.
  intros P H i I. pose proof (rotate_back _ _ _ _ H i i I I) as R. unfold diagm in R. rewrite Nat.eqb_refl in R. rewrite <- R.
  assert (F : times n (tr U) (times n M U) i i = form n M (fun k => U k i)) by (rewrite form_times; reflexivity). rewrite F. apply P.
  destruct H as ((O1 & _) & _). specialize (O1 i i I I). unfold one in O1. rewrite Nat.eqb_refl in O1.
  destruct (Classical_Prop.classic (exists k, (1 <= k <= n)%nat /\ U k i <> 0)) as [Y | N]; [exact Y |]. exfalso.
  unfold times, tr in O1. rewrite total_0 in O1; [lra |]. intros k K. destruct (Req_dec (U k i) 0) as [-> | X]; [ring | exfalso; apply N; exists k; split; assumption].
Qed.
(** the function g *)
Lemma ln_bound x : 0 < x -> x <> 1 -> ln x < x - 1.
Proof.
  intros P N. apply exp_lt_inv. rewrite exp_ln by exact P. assert (x - 1 <> 0) by lra. pose proof (exp_ineq1 (x - 1) H). lra.
Qed.
Lemma gfun_sq x : 0 < x -> gfun x * gfun x = 2 * (x - ln x - 1).
Proof.
  intro P. unfold gfun. assert (H : 0 <= x - ln x - 1). { destruct (Req_dec x 1) as [-> | N]; [rewrite ln_1; lra | pose proof (ln_bound x P N); lra]. }
  rewrite Rmax_right by exact H. pose proof (sqrt_def (2 * (x - ln x - 1)) ltac:(lra)). destruct (Rlt_dec (x - 1) 0); lra.
Qed.
Lemma gfun_1 : gfun 1 = 0.
Proof. unfold gfun. rewrite ln_1. replace (1 - 0 - 1) with 0 by ring. rewrite Rmax_right by lra. replace (2 * 0) with 0 by ring. rewrite sqrt_0. destruct (Rlt_dec (1 - 1) 0); lra. Qed.
Lemma gfun_0 x : 0 < x -> gfun x = 0 -> x = 1.
Proof.
  intros P E. pose proof (gfun_sq x P) as Q. rewrite E in Q. destruct (Req_dec x 1) as [Y | N]; [exact Y |]. pose proof (ln_bound x P N). lra.
Qed.
Lemma gfun_sign x : 0 < x -> (x < 1 -> gfun x < 0) /\ (1 < x -> 0 < gfun x).
Proof.
  intro P. assert (H : forall y, 0 < y -> 0 <= sqrt y) by (intros; apply sqrt_pos). unfold gfun. split; intro L.
  - destruct (Rlt_dec (x - 1) 0); [| lra]. pose proof (ln_bound x P ltac:(lra)). rewrite Rmax_right by lra. assert (0 < sqrt (2 * (x - ln x - 1))) by (apply sqrt_lt_R0; lra). lra.
  - destruct (Rlt_dec (x - 1) 0); [lra |]. pose proof (ln_bound x P ltac:(lra)). rewrite Rmax_right by lra. apply sqrt_lt_R0. lra.
Qed.
Lemma total_nonneg n f : (forall i, (1 <= i <= n)%nat -> 0 <= f i) -> 0 <= total f n.
Proof. induction n as [| n IH]; intro H; cbn [total]; [lra |]. specialize (IH ltac:(intros; apply H; lia)). specialize (H (Datatypes.S n) ltac:(lia)). lra. Qed.
Lemma total_zero n f : (forall i, (1 <= i <= n)%nat -> 0 <= f i) -> total f n = 0 -> forall i, (1 <= i <= n)%nat -> f i = 0.
Proof.
  induction n as [| n IH]; intros H E i I; [lia |]. cbn [total] in E. pose proof (total_nonneg n f ltac:(intros; apply H; lia)). pose proof (H (Datatypes.S n) ltac:(lia)).
  destruct (Nat.eq_dec i (Datatypes.S n)) as [-> |]; [lra |]. apply IH; [intros; apply H; lia | lra | lia].
Qed.

(** ** The transform of Hamimeche and Lewis *)
Definition Wm (n : nat) (U : matrix) (D : nat -> R) : matrix := times n U (times n (diagm (fun i => / sqrt (D i))) (tr U)).
Definition Hm (n : nat) (U : matrix) (D : nat -> R) : matrix := times n U (times n (diagm (fun i => sqrt (D i))) (tr U)).
Lemma sandwich n U D E : orthogonal n U -> meq n (times n (times n U (times n (diagm D) (tr U))) (times n U (times n (diagm E) (tr U)))) (times n U (times n (diagm (fun i => D i * E i)) (tr U))).
Proof.
  intros (O1 & O2). rewrite !times_assoc. rewrite <- (times_assoc n (tr U) U), O1, times_one_l, <- (times_assoc n (diagm D)), diag_diag. reflexivity.
Qed.
Lemma sandwich_one n U D : orthogonal n U -> (forall i, (1 <= i <= n)%nat -> D i = 1) -> meq n (times n U (times n (diagm D) (tr U))) one.
Proof. intros (O1 & O2) H. rewrite (diag_ext n D (fun _ => 1) H), diag_one, times_one_l. exact O2. Qed.
Lemma WH n U D : orthogonal n U -> (forall i, (1 <= i <= n)%nat -> 0 < D i) -> meq n (times n (Wm n U D) (Hm n U D)) one /\ meq n (times n (Hm n U D) (Wm n U D)) one.
Proof.
  intros O P. unfold Wm, Hm. split; rewrite (sandwich n U _ _ O); apply sandwich_one; try exact O; intros i I; pose proof (sqrt_lt_R0 _ (P i I)); field; lra.
Qed.
Lemma HH n M U D : decomposes n M U D -> (forall i, (1 <= i <= n)%nat -> 0 < D i) -> meq n (times n (Hm n U D) (Hm n U D)) M.
Proof.
  intros (O & E) P. unfold Hm. rewrite (sandwich n U _ _ O), E. rewrite (diag_ext n _ D); [reflexivity |]. intros i I. apply sqrt_def. apply Rlt_le, P, I.
Qed.
Lemma cong_tr n U D : meq n (tr (times n U (times n (diagm D) (tr U)))) (times n U (times n (diagm D) (tr U))).
Proof. rewrite !tr_times, tr_tr, tr_diag, times_assoc. reflexivity. Qed.
Lemma W_tr n U D : meq n (tr (Wm n U D)) (Wm n U D). Proof. apply cong_tr. Qed.
Lemma H_tr n U D : meq n (tr (Hm n U D)) (Hm n U D). Proof. apply cong_tr. Qed.
(** the scaled rotation of the code is C^-1/2 Chat C^-1/2 *)
Definition Rm (n : nat) (U : matrix) (D : nat -> R) (Chat : matrix) : matrix :=
  mm n U (mm n (fun i j => mm n (mm n (tr U) Chat) U i j / sqrt (D i) / sqrt (D j)) (tr U)).
Lemma Rm_W n U D Chat : (forall i, (1 <= i <= n)%nat -> 0 < D i) -> meq n (Rm n U D Chat) (times n (Wm n U D) (times n Chat (Wm n U D))).
Proof.
  intro P. unfold Rm.
  assert (X : meq n (fun i j => mm n (mm n (tr U) Chat) U i j / sqrt (D i) / sqrt (D j)) (times n (diagm (fun i => / sqrt (D i))) (times n (times n (times n (tr U) Chat) U) (diagm (fun i => / sqrt (D i)))))).
  { intros i j I J. rewrite times_diag_l by exact I. rewrite times_diag_r by exact J. rewrite (mm_times n _ U i j I J).
    assert (Y : times n (mm n (tr U) Chat) U i j = times n (times n (tr U) Chat) U i j) by (apply times_proper; [apply mm_times | reflexivity | exact I | exact J]).
    rewrite Y. pose proof (sqrt_lt_R0 _ (P i I)). pose proof (sqrt_lt_R0 _ (P j J)). field. lra. }
  rewrite mm_times. rewrite (mm_times n _ (tr U)). rewrite X. unfold Wm. rewrite !times_assoc. reflexivity.
Qed.
Lemma form_meq n A B v : meq n A B -> form n A v = form n B v.
Proof. intro E. apply form_ext; [exact E | reflexivity]. Qed.
Lemma form_cong n A M v : form n (times n (tr A) (times n M A)) v = form n M (fun i => total (fun k => A i k * v k) n).
Proof.
  rewrite !form_times. unfold times, tr.
  transitivity (total (fun i => total (fun h => v i * A h i * total (fun k => M h k * total (fun j => A k j * v j) n) n) n) n).
  - apply total_ext. intros i I. rewrite <- total_scale.
    transitivity (total (fun j => total (fun h => v i * A h i * (total (fun k => M h k * A k j) n * v j)) n) n).
    + apply total_ext. intros j J. transitivity ((v i * v j) * total (fun h => A h i * total (fun k => M h k * A k j) n) n); [ring |]. rewrite <- total_scale. apply total_ext. intros; ring.
    + rewrite total_swap. apply total_ext. intros h H. rewrite total_scale. f_equal.
      transitivity (total (fun j => total (fun k => M h k * (A k j * v j)) n) n).
      * apply total_ext. intros j J. rewrite Rmult_comm, <- total_scale. apply total_ext. intros; ring.
      * rewrite total_swap. apply total_ext. intros k K. apply total_scale.
  - rewrite total_swap. apply total_ext. intros h H. rewrite Rmult_comm, <- total_scale. apply total_ext. intros; ring.
Qed.
(** vectors of a matrix that can be inverted do not vanish *)
Lemma inverse_nonzero n A X v : meq n (times n X A) one -> (exists i, (1 <= i <= n)%nat /\ v i <> 0) -> exists i, (1 <= i <= n)%nat /\ total (fun k => A i k * v k) n <> 0.
Proof.
  intros E (i & I & N). apply Classical_Prop.NNPP. intro Y. apply N.
  assert (Z : forall h, (1 <= h <= n)%nat -> total (fun k => A h k * v k) n = 0).
  { intros h H. destruct (Req_dec (total (fun k => A h k * v k) n) 0) as [Q | Q]; [exact Q | exfalso; apply Y; exists h; split; assumption]. }
  transitivity (total (fun h => X i h * total (fun k => A h k * v k) n) n).
  - transitivity (total (fun k => times n X A i k * v k) n).
    + rewrite (total_one n _ i I).
      * rewrite (E i i I I). unfold one. rewrite Nat.eqb_refl. ring.
      * intros k K NE. rewrite (E i k I K). unfold one. destruct (Nat.eqb_spec i k); [congruence | ring].
    + unfold times. transitivity (total (fun k => total (fun h => X i h * (A h k * v k)) n) n).
      * apply total_ext. intros k K. rewrite Rmult_comm, <- total_scale. apply total_ext. intros; ring.
      * rewrite total_swap. apply total_ext. intros h H. apply total_scale.
  - apply total_0. intros h H. rewrite Z by exact H. ring.
Qed.
Lemma positive_cong n A X M : meq n (times n X A) one -> positive n M -> positive n (times n (tr A) (times n M A)).
Proof. intros E P v V. rewrite form_cong. apply P. now apply (inverse_nonzero n A X). Qed.
Lemma positive_meq n A B : meq n A B -> positive n A -> positive n B.
Proof. intros E P v V. rewrite <- (form_meq n A B v E). now apply P. Qed.
Lemma symmetric_meq2 n A B : meq n A B -> symmetric n A -> symmetric n B.
Proof. intros E S i j I J. rewrite <- !E by assumption. now apply S. Qed.
Lemma Rm_good n C U D Chat : decomposes n C U D -> (forall i, (1 <= i <= n)%nat -> 0 < D i) -> symmetric n Chat -> symmetric n (Rm n U D Chat).
Proof.
  intros (O & _) P Sy. apply (symmetric_cong n (Wm n U D) Chat); [exact Sy |]. rewrite (Rm_W n U D Chat P). rewrite W_tr. reflexivity.
Qed.
Lemma Rm_pos n C U D Chat : decomposes n C U D -> (forall i, (1 <= i <= n)%nat -> 0 < D i) -> positive n Chat -> positive n (Rm n U D Chat).
Proof.
  intros (O & _) P Po. apply (positive_meq n (times n (tr (Wm n U D)) (times n Chat (Wm n U D)))).
  - rewrite (Rm_W n U D Chat P), W_tr. reflexivity.
  - apply (positive_cong n (Wm n U D) (Hm n U D)); [apply (WH n U D O P) | exact Po].
Qed.
Lemma transform_ok diag n C Chat Cf : diagonalizes diag n -> symmetric n C -> positive n C -> symmetric n Chat -> positive n Chat ->
  exists U D V E T, Transform diag n C Chat Cf = Ok T /\ decomposes n C U D /\ (forall i, (1 <= i <= n)%nat -> 0 < D i) /\ decomposes n (Rm n U D Chat) V E /\
    (forall i, (1 <= i <= n)%nat -> 0 < E i) /\ meq n T (times n (times n Cf V) (times n (diagm (fun i => gfun (E i))) (tr (times n Cf V)))).
Proof.
  intros G SC PC SH PH. unfold Transform. pose proof (G C SC) as H. destruct (diag n C) as [U D]. cbn in H. pose proof (eigen_positive _ _ _ _ PC H) as P.
  rewrite (proj2 (all_pos_spec n D) P). fold (Rm n U D Chat). pose proof (G _ (Rm_good n C U D Chat H P SH)) as H2. destruct (diag n (Rm n U D Chat)) as [V E]. cbn in H2.
  pose proof (eigen_positive _ _ _ _ (Rm_pos n C U D Chat H P PH) H2) as P2. rewrite (proj2 (all_pos_spec n E) P2).
  exists U, D, V, E. eexists. split; [reflexivity |]. repeat (split; [assumption |]).
  assert (X : meq n (fun i j => mm n Cf V i j * gfun (E j)) (times n (times n Cf V) (diagm (fun i => gfun (E i))))).
  { intros i j I J. rewrite times_diag_r by exact J. rewrite (mm_times n Cf V i j I J). reflexivity. }
  rewrite mm_times, X, times_assoc. rewrite (mm_times n Cf V). reflexivity.
Qed.
Lemma relative_of n C Chat U D V E : decomposes n C U D -> (forall i, (1 <= i <= n)%nat -> 0 < D i) -> decomposes n (Rm n U D Chat) V E -> relative_to n C Chat E.
Proof.
  intros HC P HR. destruct (WH n U D (proj1 HC) P) as (E1 & E2). pose proof (HH n C U D HC P) as E3. destruct HR as ((V1 & V2) & ER). rewrite (Rm_W n U D Chat P) in ER.
  exists (times n (Wm n U D) V). split.
  - rewrite tr_times, W_tr, <- E3, !times_assoc. rewrite <- (times_assoc n (Wm n U D) (Hm n U D)), E1, times_one_l. rewrite <- (times_assoc n (Hm n U D) (Wm n U D)), E2, times_one_l. exact V1.
  - rewrite tr_times, W_tr. rewrite <- E3 at 1 2. rewrite !times_assoc. rewrite <- (times_assoc n (Hm n U D) (Wm n U D)), E2, times_one_l. rewrite <- (times_assoc n (Wm n U D) (Hm n U D) (Hm n U D)), E1, times_one_l.
    rewrite <- (times_assoc n (diagm E) (tr V)), <- (times_assoc n V _ (Hm n U D)), <- ER. rewrite !times_assoc, E1, times_one_r, <- times_assoc, E2, times_one_l. reflexivity.
Qed.
Lemma R_one n C Chat U D : decomposes n C U D -> (forall i, (1 <= i <= n)%nat -> 0 < D i) -> meq n (Rm n U D Chat) one <-> meq n C Chat.
Proof.
  intros HC P. destruct (WH n U D (proj1 HC) P) as (E1 & E2). pose proof (HH n C U D HC P) as E3. rewrite (Rm_W n U D Chat P). split; intro E.
  - transitivity (times n (Hm n U D) (times n (times n (Wm n U D) (times n Chat (Wm n U D))) (Hm n U D))).
    + rewrite E, times_one_l, E3. reflexivity.
    + rewrite !times_assoc, E1, times_one_r, <- times_assoc, E2, times_one_l. reflexivity.
  - rewrite <- E, <- E3, times_assoc, E2, times_one_r, E1. reflexivity.
Qed.
Lemma decomposes_E1 n M V E : decomposes n M V E -> (meq n M one <-> forall i, (1 <= i <= n)%nat -> E i = 1).
Proof.
  intros (O & EM). split.
  - intro H. apply (decomposes_one n V E). split; [exact O |]. rewrite <- EM. symmetry. exact H.
  - intro H. rewrite EM. now apply sandwich_one.
Qed.
