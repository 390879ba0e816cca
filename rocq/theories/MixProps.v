(** C146: mixtures of normal distributions. *)
From Coq Require Import Reals Bool Lia Lra Permutation.
From Verif Require Import PyStr PyBase ConvModel KdeModel Kde2Model StatModel LstModel StatSpec StatProofs CnvgModel CnvgSpec CnvgProofs PcaModel PcaSpec MixModel MixSpec.
From Coq Require Import List.
Import ListNotations.
Local Open Scope R_scope.

Lemma Ok_i {A} (a b : A) : Ok a = Ok b -> a = b. Proof. congruence. Qed.
(** ** Making a mixture *)
Lemma sumR_div l s : sumR (map (fun w => w / s) l) = sumR l / s.
Proof. induction l as [|x l IH]; cbn; [unfold Rdiv; ring|]. unfold sumR in *. rewrite IH. unfold Rdiv. ring. Qed.
Lemma make_inv inv det dim means covs weights lims names X : make inv det dim means covs weights lims names = Ok X ->
  exists invs ws0, mapR (invE inv dim) covs = Ok invs /\ ws0 = match weights with Some w => w | None => repeat (1 / INR (length means)) (length means) end /\
    0 < sumR ws0 /\ length ws0 = length means /\ means <> [] /\ let ws := map (fun w => w / sumR ws0) ws0 in let tm j := dot ws (map (fun m : vec => m j) means) in
    X = mkMix dim means covs invs ws (map (det dim) covs) lims names tm
          (fun i j => sumR (map (fun z => let '(m, c, w, t) := z in w * (c i j + (m i - t) * (m j - t))) (zip4 means covs ws (map tm (seq 0 dim))))).
Proof.
  intros H. unfold make in H. destruct means as [|m0 ms]; [discriminate|]. destruct (mapR _ covs) as [invs|] eqn:E; [|discriminate]. cbn [bindR] in H. cbv zeta in H.
  exists invs. eexists. split; [reflexivity|]. split; [reflexivity|].
  destruct (Rle_dec _ 0) as [|S]; [discriminate|]. apply Rnot_le_lt in S. split; [exact S|].
  destruct (Nat.eqb _ _) eqn:LE in H; [|discriminate]. apply Nat.eqb_eq in LE. rewrite map_length in LE. split; [exact LE|]. split; [discriminate|].
  cbv zeta. cbn [negb] in H. apply Ok_i in H. symmetry. exact H.
Qed.
Lemma mapR_len {A B} (f : A -> res B) l r : mapR f l = Ok r -> length r = length l.
Proof. revert r. induction l as [|x l IH]; intros r H; cbn in H; [assert (r = []) by congruence; subst; reflexivity|]. destruct (f x); [|discriminate]. cbn in H. destruct (mapR f l) eqn:E; [|discriminate]. cbn in H. apply Ok_i in H. subst r. cbn. f_equal. now apply IH. Qed.
Lemma mapR_at {A B} (f : A -> res B) l r : mapR f l = Ok r -> forall i d e, (i < length l)%nat -> f (nth i l d) = Ok (nth i r e).
Proof.
  revert r. induction l as [|x l IH]; intros r H i d e I; cbn in I; [lia|]. cbn in H. destruct (f x) eqn:F; [|discriminate]. cbn in H. destruct (mapR f l) eqn:E; [|discriminate]. cbn in H. apply Ok_i in H. subst r.
  destruct i; [exact F|]. cbn. apply IH; [reflexivity | lia].
Qed.
(** weights sum to one *)
Theorem C146_weights : forall inv det dim means covs weights lims names X, make inv det dim means covs weights lims names = Ok X ->
  sumR (x_weights X) = 1 /\ length (x_weights X) = length (x_means X) /\ (weights = None -> forall c, (c < length means)%nat -> nth c (x_weights X) 0 = 1 / INR (length means)).
Proof.
  intros inv det dim means covs weights lims names X H. destruct (make_inv _ _ _ _ _ _ _ _ _ H) as [invs [ws0 [_ [W [S [LE [NE E]]]]]]]. cbv zeta in E. rewrite E. cbn [x_weights x_means].
  split; [rewrite sumR_div; field; lra|]. split; [rewrite map_length; exact LE|]. intros -> c C. subst ws0.
  assert (N0 : INR (length means) <> 0) by (apply not_0_INR; destruct means; [congruence | discriminate]).
  assert (SR : forall k x, sumR (repeat x k) = INR k * x) by (intros k x; induction k as [|k IH]; [cbn; ring|]; cbn [repeat]; unfold sumR in *; cbn [fold_right]; rewrite IH, S_INR; ring).
  rewrite SR. rewrite (nth_map0 (fun w => w / _) _ _ 0) by (rewrite repeat_length; exact C).
  replace (nth c (repeat (1 / INR (length means)) (length means)) 0) with (1 / INR (length means)); [field; exact N0|].
  symmetry. apply (repeat_spec (length means)). apply nth_In. rewrite repeat_length. exact C.
Qed.
Print Assumptions C146_weights.
(** FINDING: of one component the total covariance is not its covariance *)
Theorem C146_total_refuted : forall inv det dim m C w lims names X, (1 <= dim)%nat -> make inv det dim [m] [C] w lims names = Ok X ->
  (forall i, x_total_mean X i = mix_mean 1 (fun _ => 1) (fun _ => m) i) /\ (forall i j, mix_cov 1 (fun _ => 1) (fun _ => m) (fun _ => C) i j = C i j) /\
  (forall i j, x_total_cov X i j = C i j + (m i - m 0%nat) * (m j - m 0%nat)).
Proof.
  intros inv det dim m C w lims names X D H. destruct (C146_weights _ _ _ _ _ _ _ _ _ H) as [S1 [L1 _]].
  destruct (make_inv _ _ _ _ _ _ _ _ _ H) as [invs [ws0 [_ [W [S [LE [NE E]]]]]]]. cbv zeta in E. rewrite E in S1, L1 |- *. cbn [x_weights x_means x_total_mean x_total_cov] in *.
  destruct ws0 as [|a [|b r]]; [discriminate | | discriminate]. cbn [map] in S1. unfold sumR in S1 at 1. cbn [fold_right] in S1.
  assert (A1 : a / sumR [a] = 1) by lra. cbn [map]. rewrite A1.
  assert (MM : forall i, dot [1] [m i] = m i) by (intros; unfold dot, mul, sumR; cbn; ring).
  assert (MX : forall i, mix_mean 1 (fun _ => 1) (fun _ => m) i = m i) by (intros; unfold mix_mean; rewrite Sm_S, Sm_0; ring).
  split; [intros; rewrite MM, MX; reflexivity|]. split; [intros; unfold mix_cov; rewrite Sm_S, Sm_0, !MX; ring|].
  intros i j. destruct dim as [|dim]; [lia|]. cbn [seq map zip4 combine]. rewrite MM. unfold zip4. cbn. unfold sumR. cbn. ring.
Qed.
Print Assumptions C146_total_refuted.
(** FINDING: of a mixture of one parameter only the first component enters the total covariance *)
Theorem C146_total_1d_refuted : forall inv det m1 m2 C1 C2 w lims names X, make inv det 1 [m1; m2] [C1; C2] w lims names = Ok X ->
  x_total_cov X 0%nat 0%nat = nth 0 (x_weights X) 0 * (C1 0%nat 0%nat + (m1 0%nat - x_total_mean X 0%nat) ^ 2).
Proof.
  intros inv det m1 m2 C1 C2 w lims names X H. destruct (make_inv _ _ _ _ _ _ _ _ _ H) as [invs [ws0 [_ [W [S [LE [NE E]]]]]]]. cbv zeta in E. rewrite E. cbn [x_weights x_total_mean x_total_cov].
  destruct ws0 as [|a [|b r]]; [discriminate | discriminate |]. unfold zip4. cbn [seq map combine nth]. unfold sumR at 1. cbn [fold_right]. ring.
Qed.
Print Assumptions C146_total_1d_refuted.

(** ** Sums over some places *)
Definition lsum (f : nat -> R) (l : list nat) : R := sumR (map f l).
Lemma sumR_app a b : sumR (a ++ b) = sumR a + sumR b.
Proof. induction a as [|x a IH]; cbn; [unfold sumR; cbn; ring|]. unfold sumR in *. cbn. rewrite IH. ring. Qed.
Lemma lsum_app f a b : lsum f (a ++ b) = lsum f a + lsum f b. Proof. unfold lsum. rewrite map_app. apply sumR_app. Qed.
Lemma lsum_perm f a b : Permutation a b -> lsum f a = lsum f b.
Proof. intros P. induction P; unfold lsum, sumR in *; cbn; lra. Qed.
Lemma Sm_lsum f n : Sm n f = lsum f (seq 0 n). Proof. reflexivity. Qed.
Lemma lsum_Sm f l : lsum f l = Sm (length l) (fun a => f (nth a l 0%nat)).
Proof.
  induction l as [|x l IH] using rev_ind; [reflexivity|]. rewrite lsum_app, app_length, Nat.add_1_r, Sm_S, IH. rewrite nth_middle. unfold lsum at 1, sumR. cbn [map fold_right]. rewrite Rplus_0_r. f_equal.
  apply Sm_ext. intros k K. now rewrite app_nth1.
Qed.
Lemma lsum_ext f g l : (forall i, In i l -> f i = g i) -> lsum f l = lsum g l.
Proof. intros E. unfold lsum. f_equal. apply map_ext_in. exact E. Qed.
Lemma qform_Sm n K d : qform n K d = Sm n (fun i => Sm n (fun j => K i j * d j * d i)).
Proof. unfold qform. rewrite rsum_Sm. apply Sm_ext. intros i I. rewrite rsum_Sm, Rmult_comm, <- Sm_scal. apply Sm_ext. intros; ring. Qed.
Lemma qform_split n kp fx K d : Permutation (kp ++ fx) (seq 0 n) -> symmetric n K ->
  qform n K d = qform (length kp) (pick_mat kp kp K) (pick_vec kp d) + 2 * Sm (length kp) (fun a => Sm (length fx) (fun c => pick_vec kp d a * (pick_mat kp fx K a c * pick_vec fx d c))) + qform (length fx) (pick_mat fx fx K) (pick_vec fx d).
Proof.
  intros P SY. assert (IN : forall i, In i (kp ++ fx) -> (i < n)%nat) by (intros i I; apply (Permutation_in _ P), in_seq in I; lia).
  rewrite qform_Sm, Sm_lsum. rewrite (lsum_ext _ (fun i => lsum (fun j => K i j * d j * d i) kp + lsum (fun j => K i j * d j * d i) fx)) by (intros i I; rewrite Sm_lsum, <- (lsum_perm _ _ _ P), lsum_app; reflexivity).
  rewrite <- (lsum_perm _ _ _ P), lsum_app. rewrite !qform_Sm, !lsum_Sm.
  rewrite (Sm_ext (length kp) (fun a => _ + _) (fun a => Sm (length kp) (fun b => pick_mat kp kp K a b * pick_vec kp d b * pick_vec kp d a) + Sm (length fx) (fun c => pick_vec kp d a * (pick_mat kp fx K a c * pick_vec fx d c)))).
  2:{ intros a A. rewrite !lsum_Sm. f_equal. apply Sm_ext. intros c C. unfold pick_vec, pick_mat. ring. }
  rewrite (Sm_ext (length fx) (fun c => _ + _) (fun c => Sm (length kp) (fun a => pick_vec kp d a * (pick_mat kp fx K a c * pick_vec fx d c)) + Sm (length fx) (fun b => pick_mat fx fx K c b * pick_vec fx d b * pick_vec fx d c))).
  2:{ intros c C. rewrite !lsum_Sm. f_equal. apply Sm_ext. intros a A. unfold pick_vec, pick_mat. rewrite (SY (nth c fx 0%nat) (nth a kp 0%nat)); [ring | |]; apply IN, in_or_app; [right | left]; apply nth_In; assumption. }
  rewrite !Sm_plus. rewrite (Sm_swap (length fx) (length kp)). ring.
Qed.
Lemma qform_shift n K S d g : inverse n K S -> symmetric n K ->
  qform n K (fun a => d a + Sm n (fun b => S a b * g b)) = qform n K d + 2 * Sm n (fun a => d a * g a) + Sm n (fun a => Sm n (fun b => S a b * g b) * g a).
Proof.
  intros I SY. set (e := fun a => Sm n (fun b => S a b * g b)).
  assert (KE : forall i, (i < n)%nat -> Sm n (fun j => K i j * e j) = g i).
  { intros i Hi. unfold e. rewrite (Sm_ext n _ (fun j => Sm n (fun b => g b * (K i j * S j b)))) by (intros; rewrite <- Sm_scal; apply Sm_ext; intros; ring). rewrite Sm_swap.
    rewrite (Sm_ext n _ (fun b => g b * delta i b)); [apply Sm_delta; exact Hi|]. intros b B. rewrite Sm_scal. f_equal. apply (I i b Hi B). }
  rewrite !qform_Sm. rewrite (Sm_ext n _ (fun i => Sm n (fun j => K i j * d j * d i) + (d i * g i + (Sm n (fun j => K i j * d j) * e i + e i * g i)))).
  - rewrite !Sm_plus. assert (C : Sm n (fun i => Sm n (fun j => K i j * d j) * e i) = Sm n (fun a => d a * g a)).
    { rewrite (Sm_ext n _ (fun i => Sm n (fun j => d j * (K j i * e i)))) by (intros i Hi; rewrite Rmult_comm, <- Sm_scal; apply Sm_ext; intros j Hj; rewrite (SY i j Hi Hj); ring).
      rewrite Sm_swap. apply Sm_ext. intros j Hj. rewrite Sm_scal, KE by exact Hj. reflexivity. }
    rewrite C. change (fun a => Sm n (fun b => S a b * g b) * g a) with (fun a => e a * g a). ring.
  - intros i Hi. rewrite (Sm_ext n _ (fun j => (K i j * d j * d i + d i * (K i j * e j)) + (e i * (K i j * d j) + e i * (K i j * e j)))) by (intros; fold (e i); unfold e; ring).
    rewrite !Sm_plus, !Sm_scal, KE by exact Hi. ring.
Qed.

(** ** Conditional mixtures *)
(** the exponents of a component differ from those of the conditional component by a number that does not depend on the parameters that are kept *)
Theorem C146_conditional : forall inv det n kp fx values m cov K m' S l, is_inv inv (length kp) -> Permutation (kp ++ fx) (seq 0 n) -> symmetric n K ->
  conditional inv det kp fx values (m, cov, K) = Ok (m', S, l) ->
  inverse (length kp) (pick_mat kp kp K) S /\
  exists c, forall x, has_values fx values x -> qform n K (fun i => x i - m i) = qform (length kp) (pick_mat kp kp K) (fun a => pick_vec kp x a - m' a) + c.
Proof.
  intros inv det n kp fx values m cov K m' S l IV P SY H. unfold conditional in H. cbv zeta in H. unfold invE in H.
  destruct (inv (length kp) (pick_mat kp kp K)) as [S0|] eqn:E; [|discriminate]. cbn [bindR] in H. destruct (inv _ (pick_mat kp kp cov)) as [C0|]; [|discriminate]. cbn [bindR] in H.
  destruct (Rlt_dec 0 _); [|discriminate]. apply Ok_i in H.
  assert (S = S0) by congruence. subst S0. pose proof (IV _ _ E) as I. split; [exact I|].
  set (nk := length kp) in *. set (nf := length fx) in *. set (dl := fun a => nth a values 0 - m (nth a fx 0%nat)).
  set (g := fun b => Sm nf (fun c => pick_mat kp fx K b c * dl c)).
  assert (M' : forall a, m' a = m (nth a kp 0%nat) - Sm nk (fun b => S a b * g b)).
  { intros a. assert (M0 : m' = fun a => m (nth a kp 0%nat) - rsum nk (fun b => S a b * rsum nf (fun c => pick_mat kp fx K b c * dl c))) by (symmetry; exact (f_equal (fun p => fst (fst p)) H)). rewrite M0, rsum_Sm. f_equal. apply Sm_ext. intros b B. rewrite rsum_Sm. reflexivity. }
  exists (qform nf (pick_mat fx fx K) dl - Sm nk (fun a => Sm nk (fun b => S a b * g b) * g a)). intros x HV.
  set (d := fun i => x i - m i). rewrite (qform_split n kp fx K d P SY). fold nk nf.
  assert (SK : symmetric nk (pick_mat kp kp K)). { intros a b A B. apply SY; assert (IN : forall a, (a < nk)%nat -> (nth a kp 0 < n)%nat) by (intros q Q; assert (X : In (nth q kp 0%nat) (seq 0 n)) by (apply (Permutation_in _ P), in_or_app; left; apply nth_In; exact Q); apply in_seq in X; lia); apply IN; assumption. }
  assert (E1 : qform nk (pick_mat kp kp K) (fun a => pick_vec kp x a - m' a) = qform nk (pick_mat kp kp K) (fun a => pick_vec kp d a + Sm nk (fun b => S a b * g b))).
  { rewrite !qform_Sm. apply Sm_ext. intros a A. apply Sm_ext. intros b B. rewrite !M'. unfold pick_vec, d. ring. }
  rewrite E1, (qform_shift nk _ S _ g I SK).
  assert (DF : forall c, (c < nf)%nat -> pick_vec fx d c = dl c) by (intros c C; unfold pick_vec, d, dl; rewrite (HV c C); reflexivity).
  assert (E2 : qform nf (pick_mat fx fx K) (pick_vec fx d) = qform nf (pick_mat fx fx K) dl) by (rewrite !qform_Sm; apply Sm_ext; intros a A; apply Sm_ext; intros b B; rewrite !DF by assumption; reflexivity).
  rewrite E2. rewrite (Sm_ext nk (fun a => Sm nf (fun c => pick_vec kp d a * _)) (fun a => pick_vec kp d a * g a)).
  2:{ intros a A. rewrite Sm_scal. f_equal. apply Sm_ext. intros c C. rewrite DF by exact C. reflexivity. }
  ring.
Qed.
Print Assumptions C146_conditional.

(** ** One component *)
Lemma inverse_unique n A B C : inverse n A B -> inverse n B C -> forall i j, (i < n)%nat -> (j < n)%nat -> C i j = A i j.
Proof.
  intros AB BC i j I J. transitivity (Sm n (fun m => delta i m * C m j)).
  - rewrite (Sm_ext n _ (fun m => C m j * delta i m)) by (intros; ring). symmetry. apply (Sm_delta n (fun m => C m j) i I).
  - rewrite (Sm_ext n _ (fun m => Sm n (fun k => A i k * (B k m * C m j)))) by (intros m M; rewrite <- (proj1 (AB i m I M)), Rmult_comm, <- Sm_scal; apply Sm_ext; intros; ring).
    rewrite Sm_swap. rewrite (Sm_ext n _ (fun k => A i k * delta j k)); [apply (Sm_delta n (fun k => A i k) j J)|].
    intros k K. rewrite Sm_scal. rewrite (proj1 (BC k j K J)). unfold delta. rewrite (Nat.eqb_sym k j). reflexivity.
Qed.
Lemma qform_ext n K L d : (forall i j, (i < n)%nat -> (j < n)%nat -> K i j = L i j) -> qform n K d = qform n L d.
Proof. intros E. rewrite !qform_Sm. apply Sm_ext. intros i I. apply Sm_ext. intros j J. rewrite E by assumption. reflexivity. Qed.
Lemma split_perm n fx : NoDup fx -> (forall i, In i fx -> (i < n)%nat) -> Permutation (filter (fun i => negb (existsb (Nat.eqb i) fx)) (seq 0 n) ++ fx) (seq 0 n).
Proof.
  intros ND B. set (f := fun i => negb (existsb (Nat.eqb i) fx)).
  assert (F : forall i, f i = true <-> ~ In i fx).
  { intros i. unfold f. rewrite negb_true_iff. split.
    - intros E I. assert (existsb (Nat.eqb i) fx = true) by (apply existsb_exists; exists i; split; [exact I | apply Nat.eqb_refl]). congruence.
    - intros N. destruct (existsb (Nat.eqb i) fx) eqn:E; [|reflexivity]. exfalso. apply existsb_exists in E. destruct E as [y [Y Q]]. apply Nat.eqb_eq in Q. subst y. contradiction. }
  apply NoDup_Permutation.
  - assert (NF : NoDup (filter f (seq 0 n))) by (apply NoDup_filter, seq_NoDup).
    assert (DJ : forall i, In i (filter f (seq 0 n)) -> ~ In i fx) by (intros i I; apply filter_In in I; apply F; apply I).
    clear -ND NF DJ. induction (filter f (seq 0 n)) as [|x l IH]; [exact ND|]. inversion NF; subst. cbn. constructor.
    + intros I. apply in_app_or in I. destruct I as [I|I]; [contradiction | exact (DJ x (or_introl eq_refl) I)].
    + apply IH; [assumption | intros i I; apply DJ; right; exact I].
  - apply seq_NoDup.
  - intros i. split; intros I.
    + apply in_app_or in I. destruct I as [I|I]; [apply filter_In in I; apply I | apply in_seq; specialize (B i I); lia].
    + apply in_or_app. destruct (in_dec Nat.eq_dec i fx) as [Y|N]; [right; exact Y | left; apply filter_In; split; [exact I | apply F; exact N]].
Qed.
(** for one component the density of the conditional mixture is that of the mixture at the fixed values up to a factor *)
Theorem C146_conditional_one : forall inv det dim m C w lims names X fixed fx values Y,
  (forall k, is_inv inv k) -> make inv det dim [m] [C] w lims names = Ok X -> (forall K, inv dim C = Some K -> symmetric dim K) ->
  to_indices X (Some fixed) = Ok fx -> NoDup fx -> (forall i, In i fx -> (i < dim)%nat) -> conditionalMixture inv det X fixed values = Ok Y ->
  let kp := filter (fun i => negb (existsb (Nat.eqb i) fx)) (seq 0 dim) in
  x_weights Y = [1] /\ exists c, 0 < c /\ forall x p q, has_values fx values x -> pdf X x = Ok p -> pdf Y (pick_vec kp x) = Ok q -> p = c * q.
Proof.
  intros inv det dim m C w lims names X fixed fx values Y IV H SY TI ND BD HY. cbv zeta. set (kp := filter _ (seq 0 dim)).
  assert (W1 : x_weights X = [1]). { destruct (C146_weights _ _ _ _ _ _ _ _ _ H) as [S1 [L1 _]]. destruct (make_inv _ _ _ _ _ _ _ _ _ H) as [i0 [w0 [_ [_ [_ [_ [_ E]]]]]]]. cbv zeta in E. rewrite E in L1. cbn [x_means x_weights] in L1. rewrite E in S1 |- *. cbn [x_weights] in *. destruct (map _ w0) as [|a [|b r]]; try discriminate. unfold sumR in S1. cbn in S1. f_equal. lra. }
  destruct (make_inv _ _ _ _ _ _ _ _ _ H) as [invs [ws0 [MI [_ [_ [_ [_ E]]]]]]]. cbv zeta in E. cbn [mapR] in MI. unfold invE in MI. destruct (inv dim C) as [K|] eqn:EK; [|discriminate]. cbn [bindR] in MI. apply Ok_i in MI. subst invs.
  unfold conditionalMixture in HY. rewrite TI in HY. cbn [bindR] in HY. destruct (checkNoLimits X fx) as [u|]; [|discriminate]. cbn [bindR] in HY.
  assert (D : x_dim X = dim) by (rewrite E; reflexivity). rewrite D in HY. fold kp in HY.
  assert (XM : combine (combine (x_means X) (x_covs X)) (x_invs X) = [(m, C, K)]) by (rewrite E; reflexivity). rewrite XM in HY. cbn [mapR] in HY.
  destruct kp as [|k0 kr] eqn:EKP; [discriminate|]. rewrite <- EKP in *. destruct (negb (Nat.eqb (length values) (length fx))); [discriminate|].
  destruct (conditional inv det kp fx values (m, C, K)) as [[[m' S] l]|] eqn:EC; [|discriminate]. cbn [bindR] in HY. cbv zeta in HY. cbn [map fst snd] in HY.
  destruct (mapR _ kp) as [nm|]; [|discriminate]. cbn [bindR] in HY.
  assert (PP : Permutation (kp ++ fx) (seq 0 dim)) by (rewrite EKP, <- EKP; apply split_perm; assumption).
  destruct (C146_conditional inv det dim kp fx values m C K m' S l (IV _) PP (SY K eq_refl) EC) as [IS [c HC]].
  assert (WY : x_weights Y = [1]). { destruct (C146_weights _ _ _ _ _ _ _ _ _ HY) as [S1 [L1 _]]. destruct (make_inv _ _ _ _ _ _ _ _ _ HY) as [i0 [w0 [_ [_ [_ [_ [_ EY]]]]]]]. cbv zeta in EY. rewrite EY in L1. cbn [x_means x_weights] in L1. rewrite EY in S1 |- *. cbn [x_weights] in *. destruct (map _ w0) as [|a [|b r]]; try discriminate. unfold sumR in S1. cbn in S1. f_equal. lra. }
  split; [exact WY|].
  destruct (make_inv _ _ _ _ _ _ _ _ _ HY) as [invs [ws1 [MI [_ [_ [_ [_ EY]]]]]]]. cbv zeta in EY. cbn [mapR] in MI. unfold invE in MI. destruct (inv (length kp) S) as [L|] eqn:EL; [|discriminate]. cbn [bindR] in MI. apply Ok_i in MI. subst invs.
  pose proof (IV _ _ _ EL) as IL.
  assert (NP : forall n d, 0 < d -> 0 < norm_of n d) by (intros n d P; unfold norm_of; apply Rmult_lt_0_compat; [apply exp_pos | apply sqrt_lt_R0; exact P]).
  destruct (Rlt_dec 0 (det dim C)) as [DX|DX].
  2:{ exists 1. split; [lra|]. intros x p q _ PX _. exfalso. unfold pdf in PX. rewrite E in PX. cbn [x_dets map finite_dets forallb] in PX. unfold finite_dets in PX. cbn [forallb] in PX. destruct (Rlt_dec 0 (det dim C)); [contradiction | discriminate]. }
  destruct (Rlt_dec 0 (det (length kp) S)) as [DY|DY].
  2:{ exists 1. split; [lra|]. intros x p q _ _ PY. exfalso. unfold pdf in PY. rewrite EY in PY. cbn [x_dets map] in PY. unfold finite_dets in PY. cbn [forallb] in PY. destruct (Rlt_dec 0 (det (length kp) S)); [contradiction | discriminate]. }
  pose proof (NP dim _ DX) as N1. pose proof (NP (length kp) _ DY) as N2.
  exists (exp (- c / 2) * norm_of (length kp) (det (length kp) S) / norm_of dim (det dim C)). split; [apply Rdiv_lt_0_compat; [apply Rmult_lt_0_compat; [apply exp_pos | exact N2] | exact N1]|].
  intros x p q HV PX PY. unfold pdf in PX, PY.
  assert (DX' : x_dets X = [det dim C]) by (rewrite E; reflexivity). assert (DY' : x_dets Y = [det (length kp) S]) by (rewrite EY; reflexivity).
  assert (DD : x_dim Y = length kp) by (rewrite EY; reflexivity).
  assert (MX : x_means X = [m]) by (rewrite E; reflexivity). assert (KX : x_invs X = [K]) by (rewrite E; reflexivity).
  assert (MY : x_means Y = [m']) by (rewrite EY; reflexivity). assert (KY : x_invs Y = [L]) by (rewrite EY; reflexivity).
  rewrite DX', MX, KX, W1, D in PX. rewrite DY', MY, KY, WY, DD in PY. unfold finite_dets in PX, PY. cbn [forallb] in PX, PY.
  destruct (Rlt_dec 0 (det dim C)); [|contradiction]. destruct (Rlt_dec 0 (det (length kp) S)); [|contradiction]. cbn [andb] in PX, PY.
  apply Ok_i in PX. apply Ok_i in PY. rewrite <- PX, <- PY. unfold zip4. cbn [combine map]. unfold sumR. cbn [fold_right].
  rewrite (qform_ext (length kp) L (pick_mat kp kp K)) by (intros; apply (inverse_unique (length kp) _ S); assumption).
  rewrite (HC x HV). set (Q := qform _ _ _). replace (- (Q + c) / 2) with (- c / 2 + - Q / 2) by field. rewrite exp_plus. field. split; lra.
Qed.
Print Assumptions C146_conditional_one.

(** ** Several components *)
Lemma minR_const x k : minR (repeat x (S k)) = x.
Proof. unfold minR. cbn. induction k as [|k IH]; [reflexivity|]. cbn. rewrite Rmin_left by lra. exact IH. Qed.
Lemma all_repeat {A} (x : A) l : (forall y, In y l -> y = x) -> l = repeat x (length l).
Proof. induction l as [|y l IH]; intros H; [reflexivity|]. cbn. rewrite <- (H y (or_introl eq_refl)) at 2. f_equal; [now apply H; left |]. rewrite (H y (or_introl eq_refl)). apply IH. intros; apply H; now right. Qed.
(** FINDING: the weights of the components do not enter: components with the same covariance and the same means of the fixed parameters get the same weight *)
Theorem C146_conditional_weights_refuted : forall inv det X fixed fx values Y C K, to_indices X (Some fixed) = Ok fx -> length (x_covs X) = length (x_means X) -> length (x_invs X) = length (x_means X) ->
  (forall c, In c (x_covs X) -> c = C) -> (forall k, In k (x_invs X) -> k = K) ->
  (forall m1 m2 i, In m1 (x_means X) -> In m2 (x_means X) -> In i fx -> m1 i = m2 i) -> conditionalMixture inv det X fixed values = Ok Y ->
  x_weights Y = repeat (1 / INR (length (x_means X))) (length (x_means X)).
Proof.
  intros inv det X fixed fx values Y C K TI LC LI HC HK HM HY. unfold conditionalMixture in HY. rewrite TI in HY. cbn [bindR] in HY. destruct (checkNoLimits X fx) as [un|]; [|discriminate]. cbn [bindR] in HY.
  set (kp := filter _ (seq 0 (x_dim X))) in *. destruct kp as [|k0 kr]; [discriminate|]. set (kp' := k0 :: kr) in *. destruct (negb _); [discriminate|].
  destruct (mapR (conditional inv det kp' fx values) _) as [cs|] eqn:E; [|discriminate]. cbn [bindR] in HY. cbv zeta in HY. destruct (mapR _ kp') as [nm|]; [|discriminate]. cbn [bindR] in HY.
  pose proof (mapR_len _ _ _ E) as LEN. rewrite !combine_length in LEN. replace (Nat.min (Nat.min (length (x_means X)) (length (x_covs X))) (length (x_invs X))) with (length (x_means X)) in LEN by lia.
  assert (SAME : exists l, forall y, In y (map snd cs) -> y = l).
  { destruct cs as [|c0 cr]; [exists 0; intros y Q; contradiction|]. exists (snd c0). intros y Q. apply in_map_iff in Q. destruct Q as [c [<- Q]].
    destruct (In_nth _ _ c0 Q) as [i [I EI]].
    set (L0 := combine (combine (x_means X) (x_covs X)) (x_invs X)) in *. assert (LL : length L0 = length (x_means X)) by (unfold L0; rewrite !combine_length; lia).
    pose proof (mapR_at _ _ _ E 0%nat (fun _ => 0, C, K) c0 ltac:(rewrite LL, <- LEN; cbn; lia)) as A0.
    pose proof (mapR_at _ _ _ E i (fun _ => 0, C, K) c0 ltac:(rewrite LL, <- LEN; exact I)) as Ai. rewrite EI in Ai. cbn [nth] in A0.
    assert (PT : forall j, (j < length (x_means X))%nat -> exists m, In m (x_means X) /\ nth j L0 (fun _ => 0, C, K) = (m, C, K)).
    { intros j J. unfold L0. rewrite combine_nth by (rewrite combine_length; lia). rewrite combine_nth by (symmetry; exact LC). exists (nth j (x_means X) (fun _ => 0)). split; [apply nth_In; exact J|]. f_equal; [f_equal|].
      - apply HC. apply nth_In. lia.
      - apply HK. apply nth_In. lia. }
    destruct (PT 0%nat ltac:(rewrite <- LEN; cbn; lia)) as [ma [IA EA]]. destruct (PT i ltac:(rewrite <- LEN; exact I)) as [mb [IB EB]]. rewrite EA in A0. rewrite EB in Ai.
    assert (DL : forall a, (a < length fx)%nat -> ma (nth a fx 0%nat) = mb (nth a fx 0%nat)) by (intros a A; apply HM; [exact IA | exact IB | apply nth_In; exact A]).
    unfold conditional in A0, Ai. cbv zeta in A0, Ai. destruct (invE inv (length kp') (pick_mat kp' kp' K)) as [S|]; [|discriminate]. cbn [bindR] in A0, Ai.
    destruct (invE inv (length kp') (pick_mat kp' kp' C)) as [S'|]; [|discriminate]. cbn [bindR] in A0, Ai.
    match type of A0 with (if Rlt_dec 0 ?d then _ else _) = _ => destruct (Rlt_dec 0 d); [|discriminate] end. apply Ok_i in A0. apply Ok_i in Ai. rewrite <- A0, <- Ai. cbn [snd]. f_equal.
    rewrite !qform_Sm. apply Sm_ext. intros a A. apply Sm_ext. intros b B. rewrite (DL a A), (DL b B). reflexivity. }
  destruct SAME as [l SAME]. assert (LS : map snd cs = repeat l (length cs)) by (rewrite <- (map_length snd cs) at 1; apply all_repeat; exact SAME).
  destruct (make_inv _ _ _ _ _ _ _ _ _ HY) as [invs [ws0 [_ [WS [SP [LW [NE EY]]]]]]]. cbv zeta in EY. rewrite EY. cbn [x_weights]. rewrite LS in WS.
  assert (NC : exists k, length cs = S k) by (destruct cs; [exfalso; apply NE; reflexivity | eexists; reflexivity]). destruct NC as [k NC].
  assert (W1 : ws0 = repeat 1 (length cs)). { rewrite WS, NC, minR_const. rewrite map_repeat || idtac. generalize (S k). intros q. induction q as [|q IH]; [reflexivity|]. cbn. f_equal; [|exact IH]. replace (- (l - l) / 2) with 0 by field. apply exp_0. }
  rewrite W1. assert (SR : sumR (repeat 1 (length cs)) = INR (length cs)) by (generalize (length cs); intros q; induction q as [|q IH]; [reflexivity|]; unfold sumR in *; cbn [repeat fold_right]; rewrite IH, S_INR; ring).
  rewrite SR, LEN. generalize (INR (length (x_means X))). intros d. generalize (length (x_means X)). intros q. induction q as [|q IH]; [reflexivity|]. cbn. f_equal. exact IH.
Qed.
Print Assumptions C146_conditional_weights_refuted.
(** FINDING: with a correlation the weight is not that of the distribution of the fixed parameter (variance c), but of its distribution at the mean of the other *)
Theorem C146_conditional_corr_refuted : forall inv det m cov K m' S l v, is_inv inv 1 -> (forall M, det 1%nat M = M 0%nat 0%nat) -> inverse 2 cov K ->
  let a := cov 0%nat 0%nat in let b := cov 0%nat 1%nat in let c := cov 1%nat 1%nat in cov 1%nat 0%nat = b -> 0 < a -> 0 < a * c - b * b ->
  conditional inv det [0%nat] [1%nat] [v] (m, cov, K) = Ok (m', S, l) ->
  l = (v - m 1%nat) ^ 2 / (c - b * b / a) + ln (c - b * b / a) /\ (v <> m 1%nat -> b <> 0 -> (v - m 1%nat) ^ 2 / (c - b * b / a) <> (v - m 1%nat) ^ 2 / c).
Proof.
  intros inv det m cov K m' S l v IV DT IK. cbv zeta. intros SY A P H. unfold conditional in H. cbv zeta in H. cbn [length] in H. unfold invE in H.
  destruct (inv 1%nat (pick_mat [0%nat] [0%nat] K)) as [S0|]; [|discriminate]. cbn [bindR] in H. destruct (inv 1%nat (pick_mat [0%nat] [0%nat] cov)) as [C0|] eqn:EC; [|discriminate]. cbn [bindR] in H.
  pose proof (proj1 (IV _ _ EC 0%nat 0%nat ltac:(lia) ltac:(lia))) as I0. rewrite Sm_S, Sm_0 in I0. unfold pick_mat in I0 at 1. cbn [nth] in I0. unfold delta in I0. cbn in I0.
  rewrite DT in H. unfold rsum in H. cbn in H. unfold pick_mat in H. cbn [nth] in H.
  set (a := cov 0%nat 0%nat) in *. set (b := cov 0%nat 1%nat) in *. set (c := cov 1%nat 1%nat) in *. rewrite SY in H.
  assert (C00 : C0 0%nat 0%nat = 1 / a) by (apply Rmult_eq_reg_l with a; [|lra]; replace (a * (1 / a)) with 1 by (field; lra); lra).
  match type of H with (if Rlt_dec 0 ?d then _ else _) = _ => assert (DE : d = c - b * b / a) by (rewrite C00; field; lra); destruct (Rlt_dec 0 d); [|discriminate]; rewrite DE in H end.
  apply Ok_i in H. pose proof (f_equal snd H) as HL. cbn [snd] in HL. clear H.
  pose proof (IK 0%nat 1%nat ltac:(lia) ltac:(lia)) as [K1 _]. pose proof (IK 1%nat 1%nat ltac:(lia) ltac:(lia)) as [K2 _]. rewrite !Sm_S, Sm_0 in K1, K2. unfold delta in K1, K2. cbn in K1, K2. fold a b in K1. rewrite SY in K2. fold c in K2.
  assert (CP : 0 < c - b * b / a) by (replace (c - b * b / a) with ((a * c - b * b) / a) by (field; lra); apply Rdiv_lt_0_compat; assumption).
  assert (K11 : K 1%nat 1%nat = / (c - b * b / a)).
  { apply Rmult_eq_reg_l with (c - b * b / a); [|lra]. rewrite Rinv_r by lra. assert (K01 : K 0%nat 1%nat = - b / a * K 1%nat 1%nat) by (apply Rmult_eq_reg_l with a; [|lra]; replace (a * (- b / a * K 1%nat 1%nat)) with (- b * K 1%nat 1%nat) by (field; lra); lra).
    rewrite K01 in K2. replace ((c - b * b / a) * K 1%nat 1%nat) with (b * (- b / a * K 1%nat 1%nat) + c * K 1%nat 1%nat) by (field; lra). lra. }
  split.
  - rewrite <- HL. f_equal. unfold qform, rsum. cbn. rewrite K11. field. split; [lra|]. intros Q. apply (Rlt_irrefl 0). rewrite <- Q at 2. lra.
  - intros V B E. assert (VP : 0 < (v - m 1%nat) ^ 2) by (pose proof (Rsqr_pos_lt (v - m 1%nat) ltac:(lra)) as Q; unfold Rsqr in Q; lra).
    assert (BP : 0 < b * b) by (exact (Rsqr_pos_lt b B)). assert (BA : 0 < b * b / a) by (apply Rdiv_lt_0_compat; assumption).
    assert (L : / c < / (c - b * b / a)) by (apply Rinv_lt_contravar; [apply Rmult_lt_0_compat; lra | lra]).
    unfold Rdiv at 1 3 in E. apply Rmult_eq_reg_l in E; [|lra]. lra.
Qed.
Print Assumptions C146_conditional_corr_refuted.

(** ** Marginalized mixtures *)
Lemma marg_inv inv det X params nl Y : marginalizedMixture inv det X params nl = Ok Y -> exists ix, to_indices X params = Ok ix /\ x_dim Y = length ix /\
  x_means Y = map (pick_vec ix) (x_means X) /\ x_covs Y = map (pick_mat ix ix) (x_covs X) /\ x_weights Y = map (fun w => w / sumR (x_weights X)) (x_weights X) /\
  mapR (invE inv (length ix)) (x_covs Y) = Ok (x_invs Y) /\ x_dets Y = map (det (length ix)) (x_covs Y) /\
  mapR (fun i => match nth_error (x_names X) i with Some s => Ok s | None => Err IndexError end) ix = Ok (x_names Y) /\
  (nl = false -> checkNoLimits X ix = Ok tt) /\ x_means X <> [] /\ length (x_weights X) = length (x_means X).
Proof.
  intros H. unfold marginalizedMixture in H. destruct (to_indices X params) as [ix|]; [|discriminate]. cbn [bindR] in H. exists ix. split; [reflexivity|].
  assert (LIM : nl = false -> checkNoLimits X ix = Ok tt) by (intros ->; destruct (checkNoLimits X ix) as [[]|]; [reflexivity | discriminate]).
  destruct (if nl then Ok tt else checkNoLimits X ix); [|discriminate]. cbn [bindR] in H.
  destruct (mapR _ ix) as [nm|] eqn:EN; [|discriminate]. cbn [bindR] in H.
  match type of H with bindR ?x _ = _ => destruct x as [ls|]; [|discriminate] end. cbn [bindR] in H.
  destruct (make_inv _ _ _ _ _ _ _ _ _ H) as [invs [ws0 [MI [W [S [LE [NE E]]]]]]]. cbv zeta in E. subst ws0.
  rewrite E. cbn [x_dim x_means x_covs x_weights x_invs x_dets x_names]. rewrite map_length in LE.
  repeat split; try assumption. intros Q. apply NE. rewrite Q. reflexivity.
Qed.
Lemma nth_mapd {A B} (f : A -> B) l i d e : (i < length l)%nat -> nth i (map f l) d = f (nth i l e).
Proof. intros H. rewrite (nth_indep _ d (f e)) by (rewrite map_length; exact H). apply map_nth. Qed.
(** two steps are one *)
Theorem C146_compose : forall inv det X ps A B nl1 nl2 nl3 Y Z W, to_indices X ps = Ok A -> sumR (x_weights X) = 1 ->
  marginalizedMixture inv det X ps nl1 = Ok Y -> marginalizedMixture inv det Y (Some (map ByIndex B)) nl2 = Ok Z ->
  marginalizedMixture inv det X (Some (map ByIndex (map (fun b => nth b A 0%nat) B))) nl3 = Ok W ->
  x_dim Z = x_dim W /\ x_weights Z = x_weights W /\ x_names Z = x_names W /\
  forall c a b, (c < length (x_means X))%nat -> (c < length (x_covs X))%nat -> (a < length B)%nat -> (b < length B)%nat ->
    nth c (x_means Z) (fun _ => 0) a = nth c (x_means W) (fun _ => 0) a /\ nth c (x_covs Z) (fun _ _ => 0) a b = nth c (x_covs W) (fun _ _ => 0) a b.
Proof.
  intros inv det X ps A B nl1 nl2 nl3 Y Z W TI S1 HY HZ HW.
  assert (TB : forall (M : mixture) (l : list nat), to_indices M (Some (map ByIndex l)) = Ok l) by (intros M l; cbn [to_indices]; induction l as [|x l IH]; [reflexivity|]; cbn; rewrite IH; reflexivity).
  destruct (marg_inv _ _ _ _ _ _ HY) as [ix [I1 [D1 [M1 [C1 [W1 [_ [_ [N1 [_ [NE1 L1]]]]]]]]]]]. assert (ix = A) by congruence. subst ix.
  destruct (marg_inv _ _ _ _ _ _ HZ) as [ix [I2 [D2 [M2 [C2 [W2 [_ [_ [N2 _]]]]]]]]]. rewrite TB in I2. apply Ok_i in I2. subst ix.
  destruct (marg_inv _ _ _ _ _ _ HW) as [ix [I3 [D3 [M3 [C3 [W3 [_ [_ [N3 _]]]]]]]]]. rewrite TB in I3. apply Ok_i in I3. subst ix.
  set (AB := map (fun b => nth b A 0%nat) B) in *.
  split; [rewrite D2, D3; unfold AB; rewrite map_length; reflexivity|].
  assert (D1w : forall l, map (fun w => w / 1) l = l) by (intros l; rewrite <- (map_id l) at 2; apply map_ext; intros; field).
  split; [rewrite W2, W1, W3, S1; rewrite !D1w, S1, D1w; reflexivity|]. split.
  - assert (LB : length (x_names Z) = length (x_names W)) by (rewrite (mapR_len _ _ _ N2), (mapR_len _ _ _ N3); unfold AB; rewrite map_length; reflexivity).
    apply (nth_ext _ _ [] [] LB). intros k K0. assert (K : (k < length B)%nat) by (rewrite <- (mapR_len _ _ _ N2); exact K0).
    pose proof (mapR_at _ _ _ N2 k 0%nat [] K) as E2. pose proof (mapR_at _ _ _ N3 k 0%nat [] ltac:(unfold AB; rewrite map_length; exact K)) as E3. cbv beta in E2, E3.
    assert (EAB : nth k AB 0%nat = nth (nth k B 0%nat) A 0%nat) by (unfold AB; rewrite (nth_indep _ 0%nat (nth 0 A 0%nat)) by (rewrite map_length; exact K); rewrite (map_nth (fun b => nth b A 0%nat)); reflexivity). rewrite EAB in E3.
    destruct (nth_error (x_names Y) (nth k B 0%nat)) as [s|] eqn:EY; [|discriminate]. apply Ok_i in E2.
    assert (LY : (nth k B 0%nat < length A)%nat) by (rewrite <- (mapR_len _ _ _ N1); apply nth_error_Some; congruence).
    pose proof (mapR_at _ _ _ N1 (nth k B 0%nat) 0%nat [] LY) as E1. cbv beta in E1. pose proof (nth_error_nth _ _ [] EY) as EN. rewrite E1 in E3. apply Ok_i in E3. transitivity s; [symmetry; exact E2 | transitivity (nth (nth k B 0%nat) (x_names Y) []); [symmetry; exact EN | exact E3]].
  - intros c a b CM CC HA HB. rewrite M2, M1, M3, C2, C1, C3.
    assert (EAB : forall k, (k < length B)%nat -> nth k AB 0%nat = nth (nth k B 0%nat) A 0%nat) by (intros k K; unfold AB; rewrite (nth_indep _ 0%nat (nth 0 A 0%nat)) by (rewrite map_length; exact K); rewrite (map_nth (fun b => nth b A 0%nat)); reflexivity).
    rewrite !map_map.
    rewrite (nth_mapd (fun v => pick_vec B (pick_vec A v)) _ _ _ (fun _ => 0)), (nth_mapd (pick_vec AB) _ _ _ (fun _ => 0)) by exact CM.
    rewrite (nth_mapd (fun M => pick_mat B B (pick_mat A A M)) _ _ _ (fun _ _ => 0)), (nth_mapd (pick_mat AB AB) _ _ _ (fun _ _ => 0)) by exact CC.
    unfold pick_vec, pick_mat. rewrite !EAB by assumption. split; reflexivity.
Qed.
Print Assumptions C146_compose.
(** the mixture of one parameter has the density of pdf_marged *)
Theorem C146_marged : forall inv det X i nl Y x, is_inv inv 1 -> (forall M, det 1%nat M = M 0%nat 0%nat) -> sumR (x_weights X) = 1 -> length (x_covs X) = length (x_means X) ->
  marginalizedMixture inv det X (Some [ByIndex i]) nl = Ok Y -> pdf Y x = pdf_marged X i (x 0%nat) nl.
Proof.
  intros inv det X i nl Y x IV DT S1 LC H. destruct (marg_inv _ _ _ _ _ _ H) as [ix [I [D [M [C [W [MI [DD [_ [NL [NE LW]]]]]]]]]]].
  cbn in I. apply Ok_i in I. subst ix. cbn [length] in *. unfold pdf, pdf_marged.
  assert (CK : (if nl then Ok tt else checkNoLimits X [i]) = Ok tt) by (destruct nl; [reflexivity | apply NL; reflexivity]). rewrite CK. cbn [bindR].
  assert (FD : finite_dets (x_dets Y) = forallb (fun c : matrix => if Rlt_dec 0 (c i i) then true else false) (x_covs X)).
  { unfold finite_dets. rewrite DD, C. clear -DT. induction (x_covs X) as [|c l IH]; [reflexivity|]. cbn [map forallb]. rewrite IH. rewrite DT. reflexivity. }
  rewrite FD. match goal with |- (if ?a then _ else _) = (if ?b then _ else _) => change b with a; destruct a eqn:FB; [|reflexivity] end. f_equal. rewrite D.
  assert (W' : x_weights Y = x_weights X) by (rewrite W, S1; rewrite <- (map_id (x_weights X)) at 2; apply map_ext; intros; field). rewrite W', M, DD. rewrite C in MI |- *.
  clear -MI IV DT FB LC LW. revert MI FB LC LW. generalize (x_means X) (x_invs Y) (x_weights X). induction (x_covs X) as [|c cs IH]; intros ms ks ws MI FB LC LW.
  - destruct ms; [reflexivity | discriminate].
  - destruct ms as [|m ms]; [discriminate|]. destruct ws as [|w ws]; [discriminate|]. cbn [map mapR] in MI. unfold invE at 1 in MI. destruct (inv 1%nat (pick_mat [i] [i] c)) as [K|] eqn:EK; [|discriminate]. cbn [bindR] in MI.
    destruct (mapR (invE inv 1) (map (pick_mat [i] [i]) cs)) as [ks'|] eqn:ER; [|discriminate]. cbn [bindR] in MI. apply Ok_i in MI. subst ks.
    cbn [forallb] in FB. apply andb_prop in FB. destruct FB as [F1 F2]. unfold zip4 in *. cbn [map combine]. unfold sumR in *. cbn [fold_right].
    rewrite (IH ms ks' ws eq_refl F2) by (cbn in *; congruence). f_equal.
    destruct (Rlt_dec 0 (c i i)) as [P|]; [|discriminate]. rewrite DT. unfold pick_mat, pick_vec at 1. cbn [nth].
    pose proof (proj1 (IV _ _ EK 0%nat 0%nat ltac:(lia) ltac:(lia))) as I0. rewrite Sm_S, Sm_0 in I0. unfold pick_mat in I0. cbn in I0.
    assert (K0 : K 0%nat 0%nat = / c i i) by (apply Rmult_eq_reg_l with (c i i); [|lra]; rewrite Rinv_r by lra; unfold delta in I0; cbn in I0; lra).
    assert (NN : norm_of 1 (c i i) = sqrt (2 * PI * c i i)). { unfold norm_of. rewrite sqrt_mult by (pose proof PI_RGT_0; lra). f_equal. replace (INR 1 / 2) with (/ 2) by (cbn; field). apply Rpower_sqrt. pose proof PI_RGT_0; lra. }
    rewrite NN. f_equal. f_equal. f_equal. unfold qform. cbn [rsum]. rewrite K0. unfold pick_vec. cbn [nth]. field. lra.
Qed.
Print Assumptions C146_marged.
(** two parameters: the form of Mixture2D *)
Theorem C146_pdf2 : forall X x y, x_dim X = 2%nat -> (forall K, In K (x_invs X) -> K 0%nat 1%nat = K 1%nat 0%nat) -> pdf2 X x y = pdf X (fun i => match i with O => x | _ => y end).
Proof.
  intros X x y D SY. unfold pdf2, pdf. destruct (finite_dets _); [|reflexivity]. f_equal. f_equal. apply map_ext_in. intros [[[m K] w] dt] I. rewrite D. f_equal. f_equal. f_equal. f_equal. f_equal.
  unfold zip4 in I. apply in_combine_l in I. apply in_combine_l in I. apply in_combine_r in I. specialize (SY K I). unfold qform. cbn [rsum]. rewrite <- SY. ring.
Qed.
Print Assumptions C146_pdf2.

(** ** Ranges and limits *)
Definition zmin (s : R) (i : nat) (l : lim) (z : vec * matrix) : R := let x := fst z i - s * sqrt (snd z i i) in match snd l with Some mx => Rmin x (mx - s * sqrt (snd z i i)) | None => x end.
Definition zmax (s : R) (i : nat) (l : lim) (z : vec * matrix) : R := let x := fst z i + s * sqrt (snd z i i) in match fst l with Some mn => Rmax x (mn + s * sqrt (snd z i i)) | None => x end.
Lemma fold_widen s i l zs a b : exists lo hi, fold_left (widen s i l) zs (Some a, Some b) = (Some lo, Some hi) /\ lo <= a /\ b <= hi /\ (forall z, In z zs -> lo <= zmin s i l z /\ zmax s i l z <= hi).
Proof.
  revert a b. induction zs as [|z zs IH]; intros a b; [exists a, b; cbn; repeat split; try lra; contradiction|].
  cbn [fold_left]. change (widen s i l (Some a, Some b) z) with (Some (Rmin (zmin s i l z) a), Some (Rmax (zmax s i l z) b)).
  destruct (IH (Rmin (zmin s i l z) a) (Rmax (zmax s i l z) b)) as [lo [hi [E [L [H F]]]]]. exists lo, hi. split; [exact E|].
  pose proof (Rmin_l (zmin s i l z) a). pose proof (Rmin_r (zmin s i l z) a). pose proof (Rmax_l (zmax s i l z) b). pose proof (Rmax_r (zmax s i l z) b).
  split; [lra|]. split; [lra|]. intros z' [<- | I]; [lra | apply F; exact I].
Qed.
Theorem C146_ranges : forall X s i l, combine (x_means X) (x_covs X) <> [] -> exists lo hi, auto_range X s i l = (Some lo, Some hi) /\
  (forall mn, fst l = Some mn -> lo = mn) /\ (forall mx, snd l = Some mx -> hi = mx) /\
  (fst l = None -> forall m c, In (m, c) (combine (x_means X) (x_covs X)) -> lo <= m i - s * sqrt (c i i)) /\
  (snd l = None -> forall m c, In (m, c) (combine (x_means X) (x_covs X)) -> m i + s * sqrt (c i i) <= hi) /\
  (0 <= s -> (forall mn mx, l = (Some mn, Some mx) -> mn <= mx) -> lo <= hi).
Proof.
  intros X s i l NE. unfold auto_range. destruct (combine (x_means X) (x_covs X)) as [|z0 zs] eqn:EZ; [congruence|].
  assert (FE : exists lo hi, fold_left (widen s i l) (z0 :: zs) (None, None) = (Some lo, Some hi) /\ forall z, In z (z0 :: zs) -> lo <= zmin s i l z /\ zmax s i l z <= hi).
  { cbn [fold_left]. change (widen s i l (None, None) z0) with (Some (zmin s i l z0), Some (zmax s i l z0)). destruct (fold_widen s i l zs (zmin s i l z0) (zmax s i l z0)) as [lo [hi [E [L [H F]]]]].
    exists lo, hi. split; [exact E|]. intros z [<- | I]; [lra | apply F; exact I]. }
  destruct FE as [lo [hi [E F]]]. pose proof (F z0 (or_introl eq_refl)) as [F1 F2]. pose proof (sqrt_pos (snd z0 i i)) as SP.
  assert (MN : forall z, zmin s i l z <= fst z i - s * sqrt (snd z i i)) by (intros z; unfold zmin; cbv zeta; destruct (snd l); [apply Rmin_l | apply Rle_refl]).
  assert (MX : forall z, fst z i + s * sqrt (snd z i i) <= zmax s i l z) by (intros z; unfold zmax; cbv zeta; destruct (fst l); [apply Rmax_l | apply Rle_refl]).
  destruct l as [[mn|] [mx|]]; cbn [fst snd] in *; rewrite ?E; cbn [fst snd].
  - exists mn, mx. repeat split; try congruence. intros _ G. apply G. reflexivity.
  - exists mn, hi. repeat split; try congruence.
    + intros _ m c I. specialize (F _ I). specialize (MX (m, c)). cbn [fst snd] in MX. lra.
    + intros S0 _. unfold zmax in F2. cbn [fst] in F2. pose proof (Rmax_r (fst z0 i + s * sqrt (snd z0 i i)) (mn + s * sqrt (snd z0 i i))). pose proof (Rmult_le_pos _ _ S0 SP). lra.
  - exists lo, mx. repeat split; try congruence.
    + intros _ m c I. specialize (F _ I). specialize (MN (m, c)). cbn [fst snd] in MN. lra.
    + intros S0 _. unfold zmin in F1. cbn [snd] in F1. pose proof (Rmin_r (fst z0 i - s * sqrt (snd z0 i i)) (mx - s * sqrt (snd z0 i i))). pose proof (Rmult_le_pos _ _ S0 SP). lra.
  - exists lo, hi. repeat split; try congruence.
    + intros _ m c I. specialize (F _ I). specialize (MN (m, c)). cbn [fst snd] in MN. lra.
    + intros _ m c I. specialize (F _ I). specialize (MX (m, c)). cbn [fst snd] in MX. lra.
    + intros S0 _. pose proof (Rmult_le_pos _ _ S0 SP). specialize (MN z0). specialize (MX z0). unfold vec, matrix in *. lra.
Qed.
Print Assumptions C146_ranges.
(** FINDING: the lower limit is the upper limit *)
Theorem C146_lower_refuted : forall X name, getLower X name = getUpper X name.
Proof. reflexivity. Qed.
Print Assumptions C146_lower_refuted.
(** FINDING: the density of a parameter can't be had if another has limits, even if it is asked for *)
Theorem C146_density_refuted : forall X i n s mn mx, checkNoLimits X [i] = Err NoLimits -> (1 <= n)%nat -> nth_error (autoRanges X s None) i = Some (Some mn, Some mx) -> density1D X i n s true = Err NoLimits.
Proof.
  intros X i n s mn mx CK N E. unfold density1D. cbn [bindR]. rewrite E. destruct n as [|n]; [lia|]. unfold linspace. cbn [seq map mapR]. unfold pdf_marged at 1. rewrite CK. reflexivity.
Qed.
Print Assumptions C146_density_refuted.

(** ** Samples *)
Theorem C146_sim : forall fuel X perm draws size r, (1 <= size)%nat -> (forall l, Permutation (perm l) l) -> sim fuel X perm draws size = Some r ->
  exists s, r = Ok s /\ length s = size /\ forall v, In v s -> inside (x_lims X) v = true /\ exists k b, In b (draws k) /\ In v b.
Proof.
  intros fuel X perm draws size r S1 PM H. unfold sim in H.
  assert (G : forall fuel round got r, (forall b v, In b got -> In v b -> inside (x_lims X) v = true /\ exists k b, In b (draws k) /\ In v b) -> sim_loop fuel (x_lims X) perm draws size round got = Some r ->
    exists s, r = Ok s /\ length s = size /\ forall v, In v s -> inside (x_lims X) v = true /\ exists k b, In b (draws k) /\ In v b).
  { clear -S1 PM. induction fuel as [|fuel IH]; intros round got r INV H; [discriminate|]. cbn [sim_loop] in H. cbv zeta in H. set (got' := got ++ map (filter (inside (x_lims X))) (draws round)) in *.
    assert (INV' : forall b v, In b got' -> In v b -> inside (x_lims X) v = true /\ exists k b, In b (draws k) /\ In v b).
    { intros b v B V. unfold got' in B. apply in_app_or in B. destruct B as [B|B]; [exact (INV b v B V)|]. apply in_map_iff in B. destruct B as [b0 [<- B]]. apply filter_In in V. destruct V as [V I]. split; [exact I|]. exists round, b0. split; assumption. }
    destruct (Nat.leb_spec size (length (concat got'))) as [L|L]; [|exact (IH _ _ _ INV' H)].
    assert (r = chosen perm size got') by congruence. subst r. unfold chosen. destruct got' as [|b0 br] eqn:EG; [cbn in L; lia|]. rewrite <- EG in *. cbv zeta.
    set (sm := if Nat.ltb 1 (length got') then perm (concat got') else concat got').
    assert (PS : Permutation sm (concat got')) by (unfold sm; destruct (Nat.ltb 1 (length got')); [apply PM | apply Permutation_refl]).
    pose proof (Permutation_length PS) as PL.
    assert (IN : forall v, In v sm -> inside (x_lims X) v = true /\ exists k b, In b (draws k) /\ In v b).
    { intros v V. apply (Permutation_in _ PS) in V. apply in_concat in V. destruct V as [b [B V]]. exact (INV' b v B V). }
    eexists. split; [reflexivity|]. destruct (Nat.eqb_spec (length (concat got')) size) as [Q|Q]; [split; [lia | exact IN]|].
    split; [rewrite firstn_length; lia|]. intros v V. apply IN. rewrite <- (firstn_skipn (length sm - (length (concat got') - size)) sm). apply in_or_app. left. exact V. }
  exact (G fuel 0%nat [] r (fun b v B => False_ind _ B) H).
Qed.
Print Assumptions C146_sim.
(** of no samples nothing can be stacked *)
Theorem C146_sim_none_refuted : forall fuel X perm draws, draws 0%nat = [] -> sim (S fuel) X perm draws 0 = Some (Err ValueError).
Proof. intros fuel X perm draws E. unfold sim. cbn [sim_loop]. rewrite E. reflexivity. Qed.
Print Assumptions C146_sim_none_refuted.

(** ** Examples *)
Definition ex_inv (k : nat) (M : matrix) : option matrix :=
  match k with
  | 1%nat => if Req_EM_T (M 0%nat 0%nat) 0 then None else Some (fun _ _ => / M 0%nat 0%nat)
  | 2%nat => let d := M 0%nat 0%nat * M 1%nat 1%nat - M 0%nat 1%nat * M 1%nat 0%nat in if Req_EM_T d 0 then None else
         Some (fun i j => match i, j with O, O => M 1%nat 1%nat / d | O, _ => - M 0%nat 1%nat / d | _, O => - M 1%nat 0%nat / d | _, _ => M 0%nat 0%nat / d end)
  | _ => None
  end.
Definition ex_det (k : nat) (M : matrix) : R := match k with 1%nat => M 0%nat 0%nat | 2%nat => M 0%nat 0%nat * M 1%nat 1%nat - M 0%nat 1%nat * M 1%nat 0%nat | _ => 0 end.
Example C146_inv_ex : forall k, is_inv ex_inv k.
Proof.
  intros k M K H. destruct k as [|[|[|k]]]; try discriminate; cbn in H.
  - destruct (Req_EM_T _ 0) as [|N]; [discriminate|]. assert (K = fun _ _ => / M 0%nat 0%nat) by congruence. subst K. intros i j I J. assert (i = 0%nat) by lia. assert (j = 0%nat) by lia. subst. rewrite !Sm_S, !Sm_0. unfold delta. cbn. split; field; exact N.
  - destruct (Req_EM_T _ 0) as [|N]; [discriminate|]. match type of H with Some ?f = _ => assert (K = f) by congruence end. subst K. clear H. intros i j I J. rewrite !Sm_S, !Sm_0. unfold delta.
    destruct i as [|[|i]]; [| |lia]; (destruct j as [|[|j]]; [| |lia]); cbn; split; field; exact N.
Qed.
Definition ex_m (a : R) : vec := fun i => match i with O => a | _ => 0 end.
(** weights 3/4 and 1/4, means of the first parameter 0 and 1: at any value of the second parameter the weights are to be 3/4 and 1/4, but they are 1/2 *)
Example C146_conditional_weights_refuted_ex : exists X Y, make ex_inv ex_det 2 [ex_m 0; ex_m 1] [delta; delta] (Some [3; 1]) None [L "x"; L "y"] = Ok X /\ x_weights X = [3 / 4; 1 / 4] /\
  conditionalMixture ex_inv ex_det X [ByName (L "y")] [1] = Ok Y /\ x_weights Y = [1 / 2; 1 / 2].
Proof.
  assert (S4 : sumR [3; 1] = 4) by (unfold sumR; cbn; lra).
  assert (ID : ex_inv 2 delta <> None) by (cbn; unfold delta; cbn; destruct (Req_EM_T _ 0); [lra | discriminate]).
  destruct (ex_inv 2 delta) as [K|] eqn:EK; [|congruence].
  assert (KV : forall i j, (i < 2)%nat -> (j < 2)%nat -> K i j = delta i j).
  { cbn in EK. destruct (Req_EM_T _ 0) as [|N]; [discriminate|]. match type of EK with Some ?f = _ => assert (EQ : K = f) by congruence end. rewrite EQ. intros i j I J. destruct i as [|[|i]]; [| |lia]; (destruct j as [|[|j]]; [| |lia]); unfold delta; cbn; lra. }
  destruct (make ex_inv ex_det 2 [ex_m 0; ex_m 1] [delta; delta] (Some [3; 1]) None [L "x"; L "y"]) as [X|e] eqn:EX.
  2:{ exfalso. unfold make in EX. cbn [mapR] in EX. unfold invE in EX. rewrite EK in EX. cbn [bindR] in EX. cbv zeta in EX. rewrite S4 in EX. destruct (Rle_dec 4 0); [lra|]. cbn in EX. discriminate. }
  destruct (make_inv _ _ _ _ _ _ _ _ _ EX) as [invs [ws0 [MI [W [_ [_ [_ E]]]]]]]. cbv zeta in E. cbn [mapR] in MI. unfold invE in MI. rewrite EK in MI. cbn [bindR] in MI. apply Ok_i in MI. subst invs ws0. rewrite S4 in E.
  assert (WX : x_weights X = [3 / 4; 1 / 4]) by (rewrite E; reflexivity).
  assert (TI : to_indices X (Some [ByName (L "y")]) = Ok [1%nat]) by (rewrite E; reflexivity).
  destruct (conditionalMixture ex_inv ex_det X [ByName (L "y")] [1]) as [Y|e] eqn:EY.
  - exists X, Y. split; [reflexivity|]. split; [exact WX|]. split; [exact EY|].
    rewrite (C146_conditional_weights_refuted ex_inv ex_det X _ [1%nat] [1] Y delta K TI); try exact EY; try (rewrite E; cbn).
    + replace (INR 2) with 2 by (cbn; ring). reflexivity.
    + reflexivity.
    + reflexivity.
    + intros c [<- | [<- | []]]; reflexivity.
    + intros c [<- | [<- | []]]; reflexivity.
    + intros m1 m2 i I1 I2 [<- | []]. destruct I1 as [<- | [<- | []]]; destruct I2 as [<- | [<- | []]]; reflexivity.
  - exfalso. assert (KK : ex_inv 1 (pick_mat [0%nat] [0%nat] K) <> None) by (cbn; unfold pick_mat; cbn; rewrite KV by lia; unfold delta; cbn; destruct (Req_EM_T 1 0); [lra | discriminate]).
    assert (KD : ex_inv 1 (pick_mat [0%nat] [0%nat] delta) <> None) by (cbn; unfold pick_mat, delta; cbn; destruct (Req_EM_T 1 0); [lra | discriminate]).
    assert (CO : forall m, exists m' S l, conditional ex_inv ex_det [0%nat] [1%nat] [1] (m, delta, K) = Ok (m', S, l) /\ S 0%nat 0%nat <> 0 /\ S = (fun _ _ => / K 0%nat 0%nat)).
    { intros m. unfold conditional, invE. cbn [length]. cbv zeta. destruct (ex_inv 1 (pick_mat [0%nat] [0%nat] K)) as [S|] eqn:ES; [|congruence]. cbn [bindR]. destruct (ex_inv 1 (pick_mat [0%nat] [0%nat] delta)) as [C|]; [|congruence]. cbn [bindR].
      destruct (Rlt_dec 0 _) as [_|N]; [|exfalso; apply N; unfold ex_det; cbn; unfold pick_mat, delta; cbn; lra].
      assert (SV : S = fun _ _ => / K 0%nat 0%nat) by (cbn in ES; unfold pick_mat in ES; cbn in ES; destruct (Req_EM_T _ 0); [discriminate | congruence]).
      do 3 eexists. split; [reflexivity|]. split; [|exact SV]. rewrite SV. rewrite KV by lia. unfold delta. cbn. lra. }
    destruct (CO (ex_m 0)) as [ma [Sa [la [Ca [Na Va]]]]]. destruct (CO (ex_m 1)) as [mb [Sb [lb [Cb [Nb Vb]]]]].
    unfold conditionalMixture in EY. rewrite TI in EY. cbn [bindR] in EY. assert (CK : checkNoLimits X [1%nat] = Ok tt) by (rewrite E; reflexivity). rewrite CK in EY. cbn [bindR] in EY.
    assert (KP : filter (fun i => negb (existsb (Nat.eqb i) [1%nat])) (seq 0 (x_dim X)) = [0%nat]) by (rewrite E; reflexivity). rewrite KP in EY. cbn [length Nat.eqb negb] in EY.
    assert (ZZ : combine (combine (x_means X) (x_covs X)) (x_invs X) = [(ex_m 0, delta, K); (ex_m 1, delta, K)]) by (rewrite E; reflexivity). rewrite ZZ in EY. cbn [mapR] in EY. rewrite Ca, Cb in EY. cbn [bindR map fst snd] in EY. cbv zeta in EY.
    assert (NM : x_names X = [L "x"; L "y"]) by (rewrite E; reflexivity). rewrite NM in EY. cbn [nth_error bindR] in EY. unfold make in EY. cbn [mapR] in EY. unfold invE in EY.
    assert (IS : forall S : matrix, S 0%nat 0%nat <> 0 -> ex_inv 1 S = Some (fun _ _ => / S 0%nat 0%nat)) by (intros S N; cbn; destruct (Req_EM_T _ 0); [contradiction | reflexivity]).
    rewrite (IS Sa Na), (IS Sb Nb) in EY. cbn [bindR] in EY. cbv zeta in EY. destruct (Rle_dec _ 0) as [Q|_] in EY; [|cbn in EY; discriminate].
    clear EY. unfold sumR in Q. cbn [fold_right] in Q. match type of Q with exp ?u + (exp ?v + 0) <= 0 => pose proof (exp_pos u); pose proof (exp_pos v) end. lra.
Qed.
(** limits 0 and 1 *)
Example C146_lower_refuted_ex : let X := mkMix 1 [] [] [] [] [] (Some [(Some 0, Some 1)]) [L "x"] (fun _ => 0) (fun _ _ => 0) in getLower X (L "x") = Ok (Some 1).
Proof. reflexivity. Qed.
Example C146_density_refuted_ex : let X := mkMix 2 [] [] [] [] [] (Some [(Some 0, Some 1); (Some 0, Some 1)]) [L "x"; L "y"] (fun _ => 0) (fun _ _ => 0) in
  checkNoLimits X [0%nat] = Err NoLimits /\ nth_error (autoRanges X 4 None) 0 = Some (Some 0, Some 1).
Proof. split; reflexivity. Qed.
Example C146_total_refuted_ex : exists X, make ex_inv ex_det 1 [ex_m 5] [fun _ _ => 2] None None [L "x"] = Ok X.
Proof. unfold make. cbn [mapR]. unfold invE. cbn. destruct (Req_EM_T 2 0); [lra|]. cbn [bindR]. cbv zeta. destruct (Rle_dec _ 0) as [Q|_]; [unfold sumR in Q; cbn in Q; lra|]. eexists. reflexivity. Qed.
(** a limit of 0: of three drawn samples two are inside *)
Example C146_sim_ex : let X := mkMix 1 [] [] [] [] [] (Some [(Some 0, None)]) [L "x"] (fun _ => 0) (fun _ _ => 0) in
  exists r, sim 1 X (fun l => l) (fun _ => [[fun _ => 1; fun _ => - 1; fun _ => 2]]) 1 = Some (Ok r).
Proof.
  cbv zeta. unfold sim. cbn [sim_loop x_lims]. unfold inside. cbn [filter map app length seq combine forallb fst snd].
  destruct (Rle_dec 0 1); [|lra]. destruct (Rle_dec 0 (- 1)); [lra|]. destruct (Rle_dec 0 2); [|lra]. cbn. eexists. reflexivity.
Qed.
