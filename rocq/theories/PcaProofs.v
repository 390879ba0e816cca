(** Lemmas about principal components. *)
From Coq Require Import Reals Lia Lra Bool Permutation.
From Verif Require Import PyStr PyBase ConvModel KdeModel Kde2Model StatModel StatSpec StatProofs CnvgModel CnvgSpec CnvgProofs LstModel LstSpec LstProofs PcaModel PcaSpec.
From Coq Require Import List.
Import ListNotations.
Local Open Scope R_scope.

(** ** Means over rows *)
Lemma avg_ext w f g : (forall r, (r < length w)%nat -> f r = g r) -> avg w f = avg w g.
Proof. intro H. unfold avg. f_equal. apply Sm_ext. intros r I. now rewrite H. Qed.
Lemma dot_avg w x : length x = length w -> dot w x / get_norm w = avg w (fun r => nth r x 0).
Proof. intro E. unfold avg, get_norm. rewrite dot_Sm by congruence. reflexivity. Qed.
Lemma avg_plus w f g : avg w (fun r => f r + g r) = avg w f + avg w g.
Proof. unfold avg. rewrite (Sm_ext _ _ (fun r => nth r w 0 * f r + nth r w 0 * g r)) by (intros; ring). rewrite Sm_plus. unfold Rdiv. ring. Qed.
Lemma avg_scal w c f : avg w (fun r => c * f r) = c * avg w f.
Proof. unfold avg. rewrite (Sm_ext _ _ (fun r => c * (nth r w 0 * f r))) by (intros; ring). rewrite Sm_scal. unfold Rdiv. ring. Qed.
Lemma avg_const w c : 0 < sumR w -> avg w (fun _ => c) = c.
Proof. intro N. unfold avg. rewrite (Sm_ext _ _ (fun r => c * nth r w 0)) by (intros; ring). rewrite Sm_scal, <- sumR_Sm. field. lra. Qed.
Lemma avg_nonneg w f : (forall x, In x w -> 0 <= x) -> 0 < sumR w -> (forall r, (r < length w)%nat -> 0 <= f r) -> 0 <= avg w f.
Proof.
  intros P N H. unfold avg. apply Rmult_le_pos; [| left; now apply Rinv_0_lt_compat]. apply Sm_nonneg. intros r I. apply Rmult_le_pos; [apply P, nth_In, I | now apply H].
Qed.
Lemma avg_Sm w k (F : nat -> nat -> R) : avg w (fun r => Sm k (fun j => F j r)) = Sm k (fun j => avg w (F j)).
Proof.
  unfold avg. unfold Rdiv. rewrite (Sm_ext k _ (fun j => / sumR w * Sm (length w) (fun r => nth r w 0 * F j r))) by (intros; ring). rewrite Sm_scal, (Rmult_comm (/ sumR w)). f_equal. rewrite Sm_swap. apply Sm_ext. intros r I. now rewrite Sm_scal.
Qed.
Lemma avg_dev w f : 0 < sumR w -> avg w (dev w f) = 0.
Proof. intro N. unfold dev. rewrite (avg_ext w _ (fun r => f r + - avg w f)) by (intros; ring). rewrite avg_plus, avg_const by exact N. ring. Qed.
Lemma avg_unit w f : 0 < sumR w -> avg w (unit_dev w f) = 0.
Proof. intro N. unfold unit_dev. rewrite (avg_ext w _ (fun r => / spread w f * dev w f r)) by (intros; unfold Rdiv; ring). rewrite avg_scal, avg_dev by exact N. ring. Qed.
Lemma spread_sq w f : (forall x, In x w -> 0 <= x) -> 0 < sumR w -> spread w f ^ 2 = avg w (fun r => dev w f r ^ 2).
Proof. intros P N. unfold spread. rewrite <- Rsqr_pow2, Rsqr_sqrt; [reflexivity |]. apply avg_nonneg; auto. intros. rewrite <- Rsqr_pow2. apply Rle_0_sqr. Qed.
Lemma avg_unit_sq w f : (forall x, In x w -> 0 <= x) -> 0 < sumR w -> spread w f <> 0 -> avg w (fun r => unit_dev w f r * unit_dev w f r) = 1.
Proof.
  intros P N S. unfold unit_dev. rewrite (avg_ext w _ (fun r => / spread w f ^ 2 * dev w f r ^ 2)) by (intros; field; exact S). rewrite avg_scal, <- spread_sq by assumption. field. exact S.
Qed.

(** ** Reduced columns *)
Lemma nth_map_in (f : R -> R) l i : (i < length l)%nat -> nth i (map f l) 0 = f (nth i l 0).
Proof. intro H. rewrite nth_indep with (d' := f 0) by (now rewrite map_length). apply map_nth. Qed.
Lemma reduced_spec w x f : length x = length w -> (forall r, (r < length w)%nat -> nth r x 0 = f r) ->
  fst (fst (reduced w x)) = avg w f /\ snd (fst (reduced w x)) = spread w f /\ length (snd (reduced w x)) = length w /\ (spread w f <> 0 -> forall r, (r < length w)%nat -> nth r (snd (reduced w x)) 0 = unit_dev w f r).
Proof.
  intros E F. assert (M : dot w x / get_norm w = avg w f) by (rewrite dot_avg by exact E; now apply avg_ext).
  assert (S : sqrt (dot w (map (fun y => y ^ 2) (map (fun y => y - avg w f) x)) / get_norm w) = spread w f).
  { rewrite map_map, dot_avg by (now rewrite map_length). unfold spread. f_equal. apply avg_ext. intros r I. rewrite nth_map_in by (now rewrite E). now rewrite F. }
  unfold reduced. cbv zeta. rewrite M, S. cbn [fst snd]. repeat split.
  - destruct (Req_EM_T (spread w f) 0); rewrite ?map_length; exact E.
  - intros N r I. destruct (Req_EM_T (spread w f) 0); [contradiction |]. rewrite map_map, nth_map_in by (now rewrite E). now rewrite F.
Qed.
Lemma mapped_spec m x y : mapped m x = Ok y -> length y = length x /\ forall r, (r < length x)%nat -> nth r y 0 = lin m (nth r x 0).
Proof.
  destruct m; cbn [mapped lin]; intro H.
  - injection H as <-. split; reflexivity || auto.
  - destruct (allb positive x); [| discriminate H]. injection H as <-. rewrite map_length. split; [reflexivity |]. intros r I. now apply nth_map_in.
  - destruct (allb positive _); [| discriminate H]. injection H as <-. rewrite map_length. split; [reflexivity |]. intros r I. rewrite nth_map_in by exact I. f_equal. ring.
Qed.
Lemma mapped_ok m x y : mapped m x = Ok y -> forall r, (r < length x)%nat -> match m with PN => True | PL => 0 < nth r x 0 | PM => nth r x 0 < 0 end.
Proof.
  destruct m; cbn [mapped]; intros H r I; [exact Logic.I | |].
  - destruct (allb positive x) eqn:A; [| discriminate H]. unfold allb in A. rewrite forallb_forall in A. specialize (A _ (nth_In _ 0 I)). unfold positive in A. destruct (Rlt_dec 0 (nth r x 0)); [assumption | discriminate A].
  - destruct (allb positive _) eqn:A; [| discriminate H]. unfold allb in A. rewrite forallb_forall in A. assert (J : In (-1 * nth r x 0) (map (fun y => -1 * y) x)) by (apply (in_map (fun y => -1 * y)), nth_In, I). specialize (A _ J). unfold positive in A. destruct (Rlt_dec 0 (-1 * nth r x 0)); [lra | discriminate A].
Qed.
Lemma mapR_nth {A B} (f : A -> res B) l r d e i : mapR f l = Ok r -> (i < length l)%nat -> f (nth i l d) = Ok (nth i r e).
Proof.
  intros H. apply mapR_spec in H. revert i. induction H as [| x y l r X F IH]; intros i I; cbn [length] in I; [lia |]. destruct i; [exact X | apply IH; lia].
Qed.
Lemma mapR_len {A B} (f : A -> res B) l r : mapR f l = Ok r -> length r = length l.
Proof. intro H. apply mapR_spec in H. induction H; cbn; congruence. Qed.
Lemma map_cols_spec (w : list R) pm np cs ys j : (forall c, In c cs -> length c = length w) -> map_cols pm np cs = Ok ys -> (j < length cs)%nat ->
  length (nth j ys []) = length w /\ (forall r, (r < length w)%nat -> nth r (nth j ys []) 0 = var_of cs np pm j r) /\
  ((j < np)%nat -> exists m, nth_error pm j = Some m /\ mapped m (nth j cs []) = Ok (nth j ys [])).
Proof.
  intros G H J. pose proof (mapR_nth _ _ _ (0%nat, []) [] j H) as M. rewrite combine_length, seq_length, Nat.min_id in M. specialize (M J). rewrite combine_nth, seq_nth in M by (rewrite ?seq_length; auto). cbn [fst snd Nat.add] in M. assert (L : length (nth j cs []) = length w) by (apply G, nth_In, J).
  unfold var_of. destruct (Nat.ltb_spec j np) as [T | T].
  - destruct (nth_error pm j) as [m |] eqn:E; [| discriminate M]. rewrite (nth_error_nth pm j PN E). destruct (mapped_spec m _ _ M) as (A & B). repeat split; [congruence | intros r I; apply B; now rewrite L | intros _; exists m; split; auto].
  - injection M as <-. split; [exact L |]. split; [intros; reflexivity | lia].
Qed.

(** ** Quadratic forms *)
Lemma form_avg w k (Z : nat -> nat -> R) (C : matrix) v : (forall i j, (i < k)%nat -> (j < k)%nat -> C i j = avg w (fun r => Z i r * Z j r)) ->
  form k C v = avg w (fun r => (Sm k (fun j => v j * Z j r)) ^ 2).
Proof.
  intro H. unfold form. rewrite (avg_ext w _ (fun r => Sm k (fun i => Sm k (fun j => v i * v j * (Z i r * Z j r))))) by (intros; symmetry; apply square_sum).
  rewrite avg_Sm. apply Sm_ext. intros i I. rewrite avg_Sm. apply Sm_ext. intros j J. rewrite avg_scal, H by assumption. ring.
Qed.
(** bilinear form *)
Definition pair (k : nat) (C : matrix) (u v : nat -> R) : R := Sm k (fun i => u i * Sm k (fun j => C i j * v j)).
Lemma form_pair k C v : form k C v = pair k C v v.
Proof. unfold form, pair. apply Sm_ext. intros i I. rewrite <- Sm_scal. apply Sm_ext. intros; ring. Qed.
Lemma pair_sym k C u v : symmetric k C -> pair k C u v = pair k C v u.
Proof.
  intro S. unfold pair. rewrite (Sm_ext k _ (fun i => Sm k (fun j => u i * C i j * v j))) by (intros; rewrite <- Sm_scal; apply Sm_ext; intros; ring). rewrite Sm_swap. apply Sm_ext. intros i I. rewrite <- Sm_scal. apply Sm_ext. intros j J. rewrite (S j i J I). ring.
Qed.
Lemma pair_plus k C u v : symmetric k C -> pair k C (fun i => u i + v i) (fun i => u i + v i) = pair k C u u + 2 * pair k C v u + pair k C v v.
Proof.
  intro S. rewrite (Rmult_comm 2). replace (pair k C v u * 2) with (pair k C u v + pair k C v u) by (rewrite (pair_sym k C u v S); ring). unfold pair. rewrite <- !Sm_plus. apply Sm_ext. intros i I.
  rewrite (Sm_ext k (fun j => C i j * (u j + v j)) (fun j => C i j * u j + C i j * v j)) by (intros; ring). rewrite Sm_plus. ring.
Qed.
Lemma pair_eigen k C e V i j : (i < k)%nat -> (j < k)%nat -> eig_pairs k C e V -> pair k C (fun m => V m i) (fun m => V m j) = nth j e 0 * Sm k (fun m => V m i * V m j).
Proof. intros I J (_ & _ & P). unfold pair. rewrite <- Sm_scal. apply Sm_ext. intros a A. rewrite (P a j A J). ring. Qed.
Lemma pair_scale k C a b u v : pair k C (fun m => a * u m) (fun m => b * v m) = a * b * pair k C u v.
Proof. unfold pair. rewrite <- Sm_scal. apply Sm_ext. intros i I. rewrite (Sm_ext k (fun j => C i j * (b * v j)) (fun j => b * (C i j * v j))) by (intros; ring). rewrite Sm_scal. ring. Qed.
(** eigenvectors of different eigenvalues are orthogonal *)
Lemma eigen_orth k C e V i j : symmetric k C -> eig_pairs k C e V -> (i < k)%nat -> (j < k)%nat -> nth i e 0 <> nth j e 0 -> Sm k (fun m => V m i * V m j) = 0.
Proof.
  intros S P I J N. pose proof (pair_eigen k C e V i j I J P) as A. pose proof (pair_eigen k C e V j i J I P) as B. rewrite (pair_sym k C _ _ S), A in B. rewrite (Sm_ext k (fun m => V m j * V m i) (fun m => V m i * V m j)) in B by (intros; ring). apply Rmult_eq_reg_l with (nth j e 0 - nth i e 0); lra.
Qed.
(** the inverse of a block of the inverse is what is left after the best prediction *)
Lemma inverse_sym k A B : symmetric k A -> inverse k A B -> symmetric k B.
Proof.
  intros S V i j I J.
  assert (T : forall a b, (a < k)%nat -> (b < k)%nat -> Sm k (fun m => B m a * A m b) = delta a b). { intros a b A1 B1. destruct (V b a B1 A1) as (X & _). transitivity (delta b a); [| unfold delta; rewrite Nat.eqb_sym; reflexivity]. rewrite <- X. apply Sm_ext. intros m M. rewrite (S m b M B1). ring. }
  symmetry. transitivity (Sm k (fun m => B m i * delta j m)); [now rewrite Sm_delta |].
  transitivity (Sm k (fun m => Sm k (fun n => B m i * A m n * B n j))).
  - apply Sm_ext. intros m M. destruct (V m j M J) as (X & _). replace (delta j m) with (delta m j) by (unfold delta; now rewrite Nat.eqb_sym). rewrite <- X, <- Sm_scal. apply Sm_ext. intros; ring.
  - rewrite Sm_swap. transitivity (Sm k (fun n => B n j * delta i n)); [| now rewrite Sm_delta]. apply Sm_ext. intros n NN. rewrite <- (T i n I NN), <- Sm_scal. apply Sm_ext. intros; ring.
Qed.
Lemma Sm_cut np n f : (np <= n)%nat -> (forall i, (np <= i < n)%nat -> f i = 0) -> Sm n f = Sm np f.
Proof. intros L Z. replace n with (np + (n - np))%nat by lia. rewrite Sm_app, (Sm_ext (n - np) _ (fun _ => 0)), Sm_zero by (intros; apply Z; lia). ring. Qed.
Lemma Sm_delta' np f i : Sm np (fun j => f j * delta i j) = if Nat.ltb i np then f i else 0.
Proof.
  destruct (Nat.ltb_spec i np) as [T | T]; [now apply Sm_delta |]. rewrite (Sm_ext np _ (fun _ => 0)), Sm_zero; [reflexivity |]. intros j J. unfold delta. destruct (Nat.eqb_spec i j); [lia | ring].
Qed.
Lemma schur n np C K u v : (np <= n)%nat -> symmetric n C -> (forall x, 0 <= form n C x) -> inverse n C K -> inverse np K u ->
  (exists x, (forall i, (i < np)%nat -> x i = v i) /\ form n C x = form np u v) /\ forall x, (forall i, (i < np)%nat -> x i = v i) -> form np u v <= form n C x.
Proof.
  intros L S P IK IU. set (y := fun i => Sm np (fun j => u i j * v j)). set (z := fun a => Sm np (fun j => K a j * y j)).
  assert (Z1 : forall i, (i < np)%nat -> z i = v i).
  { intros i I. unfold z, y. transitivity (Sm np (fun j => v j * delta i j)); [| now rewrite Sm_delta].
    transitivity (Sm np (fun j => Sm np (fun m => v m * (K i j * u j m)))); [apply Sm_ext; intros j J; rewrite <- Sm_scal; apply Sm_ext; intros; ring |]. rewrite Sm_swap. apply Sm_ext. intros m M. rewrite Sm_scal. f_equal. apply (IU i m I M). }
  assert (Z2 : forall i, (i < n)%nat -> Sm n (fun a => C i a * z a) = if Nat.ltb i np then y i else 0).
  { intros i I. unfold z. transitivity (Sm np (fun j => y j * delta i j)); [| apply Sm_delta'].
    transitivity (Sm n (fun a => Sm np (fun j => y j * (C i a * K a j)))); [apply Sm_ext; intros a A; rewrite <- Sm_scal; apply Sm_ext; intros; ring |]. rewrite Sm_swap. apply Sm_ext. intros j J. rewrite Sm_scal. f_equal. apply (IK i j I). lia. }
  assert (F : form n C z = form np u v).
  { rewrite !form_pair. unfold pair. rewrite (Sm_ext n _ (fun i => z i * (if Nat.ltb i np then y i else 0))) by (intros i I; now rewrite Z2). rewrite (Sm_cut np n) by (first [exact L | intros i I; destruct (Nat.ltb_spec i np); [lia | ring]]). apply Sm_ext. intros i I. destruct (Nat.ltb_spec i np); [| lia]. rewrite Z1 by exact I. reflexivity. }
  split; [exists z; split; assumption |]. intros x X. set (d := fun i => x i - z i).
  rewrite (form_ext n C x (fun i => z i + d i)) by (intros; unfold d; ring). rewrite (form_pair n C (fun i => z i + d i)), (pair_plus n C z d S), <- !form_pair, F.
  assert (D : pair n C d z = 0).
  { unfold pair. rewrite (Sm_ext n _ (fun _ => 0)), Sm_zero; [reflexivity |]. intros i I. rewrite Z2 by exact I. destruct (Nat.ltb_spec i np); [| ring]. unfold d. rewrite Z1, X by assumption. ring. }
  rewrite D. specialize (P d). lra.
Qed.
Lemma nth_firstn' {A} (d : A) n l i : (i < n)%nat -> (i < length l)%nat -> nth i (firstn n l) d = nth i l d.
Proof. revert l i. induction n as [| n IH]; intros [| y l] i I J; cbn in J; try lia. destruct i; [reflexivity |]. cbn. apply IH; lia. Qed.
Lemma block_sym n np K : (np <= n)%nat -> symmetric n K -> symmetric np K.
Proof. intros L S i j I J. apply S; lia. Qed.
