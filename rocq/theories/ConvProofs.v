(** Facts about finite sums, trigonometric sums and transforms. *)
From Verif Require Import PyStr PyBase DensModel DensProps ConvModel ConvSpec.
From Coq Require Import Reals Lra Lia.
Local Open Scope R_scope.

(** ** Sums *)
Lemma rsum_ext n f g : (forall i, (i < n)%nat -> f i = g i) -> rsum n f = rsum n g.
Proof. induction n as [|n IH]; intros H; cbn; [reflexivity|]. rewrite IH by (intros; apply H; lia). now rewrite H by lia. Qed.
Lemma rsum_plus n f g : rsum n (fun i => f i + g i) = rsum n f + rsum n g.
Proof. induction n; cbn; [lra|]. rewrite IHn. lra. Qed.
Lemma rsum_minus n f g : rsum n (fun i => f i - g i) = rsum n f - rsum n g.
Proof. induction n; cbn; [lra|]. rewrite IHn. lra. Qed.
Lemma rsum_opp n f : rsum n (fun i => - f i) = - rsum n f.
Proof. induction n; cbn; [lra|]. rewrite IHn. lra. Qed.
Lemma rsum_scal n c f : rsum n (fun i => c * f i) = c * rsum n f.
Proof. induction n; cbn; [lra|]. rewrite IHn. lra. Qed.
Lemma rsum_scal_r n c f : rsum n (fun i => f i * c) = rsum n f * c.
Proof. induction n; cbn; [lra|]. rewrite IHn. lra. Qed.
Lemma rsum_zero n f : (forall i, (i < n)%nat -> f i = 0) -> rsum n f = 0.
Proof. induction n as [|n IH]; intros H; cbn; [reflexivity|]. rewrite IH by (intros; apply H; lia). rewrite H by lia. lra. Qed.
Lemma rsum_const n c : rsum n (fun _ => c) = INR n * c.
Proof. induction n; [cbn; lra|]. cbn [rsum]. rewrite IHn, S_INR. lra. Qed.
Lemma rsum_swap n m f : rsum n (fun i => rsum m (fun j => f i j)) = rsum m (fun j => rsum n (fun i => f i j)).
Proof. induction n; cbn; [symmetry; apply rsum_zero; reflexivity|]. rewrite IHn, <- rsum_plus. reflexivity. Qed.
Lemma rsum_mult n m f g : rsum n f * rsum m g = rsum n (fun i => rsum m (fun j => f i * g j)).
Proof. rewrite <- rsum_scal_r. apply rsum_ext. intros. symmetry. apply rsum_scal. Qed.
Lemma rsum_split n m f : rsum (n + m) f = rsum n f + rsum m (fun i => f (n + i)%nat).
Proof. induction m; [rewrite Nat.add_0_r; cbn; lra|]. rewrite Nat.add_succ_r. cbn. rewrite IHm. lra. Qed.
Lemma rsum_head n f : rsum (S n) f = f 0%nat + rsum n (fun i => f (S i)).
Proof. change (S n) with (1 + n)%nat. rewrite rsum_split. cbn. lra. Qed.
Lemma rsum_rev n : forall f, rsum n f = rsum n (fun i => f (n - 1 - i)%nat).
Proof.
  induction n as [|n IH]; intros f; [reflexivity|]. rewrite rsum_head. cbn [rsum]. rewrite (IH (fun i => f (S i))), Rplus_comm. f_equal.
  - apply rsum_ext. intros i Hi. f_equal. lia.
  - f_equal. lia.
Qed.
(** a sum in which at most one term counts *)
Lemma rsum_single n f j : (j < n)%nat -> (forall i, (i < n)%nat -> i <> j -> f i = 0) -> rsum n f = f j.
Proof.
  induction n as [|n IH]; intros Hj H; [lia|]. cbn. destruct (Nat.eq_dec j n) as [->|D].
  - rewrite rsum_zero by (intros; apply H; lia). lra.
  - rewrite IH by (try lia; intros; apply H; lia). rewrite (H n) by lia. lra.
Qed.
(** terms beyond [n] vanish *)
Lemma rsum_extend n N f : (n <= N)%nat -> (forall i, (n <= i < N)%nat -> f i = 0) -> rsum N f = rsum n f.
Proof. intros L H. replace N with (n + (N - n))%nat by lia. rewrite rsum_split, (rsum_zero (N - n)); [lra|]. intros. apply H. lia. Qed.
Lemma sum_list_cons a l : sum_list (a :: l) = a + sum_list l.
Proof. reflexivity. Qed.
Lemma sum_list_app a b : sum_list (a ++ b) = sum_list a + sum_list b.
Proof. induction a; cbn [app]; [cbn; lra|]. rewrite !sum_list_cons, IHa. lra. Qed.
Lemma rsum_list n f : sum_list (map f (seq 0 n)) = rsum n f.
Proof. induction n; [reflexivity|]. rewrite seq_S, map_app, sum_list_app, IHn. cbn. lra. Qed.
Lemma sum_filter {A} (p : A -> bool) (f : A -> R) l : sum_list (map f (filter p l)) = sum_list (map (fun a => if p a then f a else 0) l).
Proof. induction l; [reflexivity|]. cbn [map filter]. destruct (p a); cbn [map]; rewrite ?sum_list_cons, IHl; lra. Qed.
Lemma pairs_sum n m k (f : nat -> nat -> R) :
  sum_list (map (fun p => f (fst p) (snd p)) (pairs_at n m k)) = rsum n (fun i => rsum m (fun j => if (i + j =? k)%nat then f i j else 0)).
Proof.
  unfold pairs_at. rewrite sum_filter. rewrite <- rsum_list. generalize (seq 0 n). intros l. induction l as [|a l IH]; [reflexivity|].
  cbn [list_prod]. rewrite map_app, sum_list_app, IH. cbn [map sum_list fold_right]. f_equal. rewrite map_map. cbn [fst snd]. apply rsum_list.
Qed.

(** ** Trigonometric sums *)
Lemma cos_sum_telescope t n : 2 * sin (t / 2) * rsum n (fun k => cos (INR k * t)) = sin ((INR n - / 2) * t) + sin (t / 2).
Proof.
  induction n as [|n IH].
  - cbn. replace ((0 - / 2) * t) with (- (t / 2)) by lra. rewrite sin_neg. lra.
  - cbn [rsum]. rewrite Rmult_plus_distr_l, IH, S_INR.
    replace ((INR n + 1 - / 2) * t) with (INR n * t + t / 2) by lra. replace ((INR n - / 2) * t) with (INR n * t - t / 2) by lra.
    rewrite sin_plus, sin_minus. lra.
Qed.
Lemma sin_sum_telescope t n : 2 * sin (t / 2) * rsum n (fun k => sin (INR k * t)) = cos (t / 2) - cos ((INR n - / 2) * t).
Proof.
  induction n as [|n IH].
  - cbn. replace ((0 - / 2) * t) with (- (t / 2)) by lra. rewrite cos_neg. lra.
  - cbn [rsum]. rewrite Rmult_plus_distr_l, IH, S_INR.
    replace ((INR n + 1 - / 2) * t) with (INR n * t + t / 2) by lra. replace ((INR n - / 2) * t) with (INR n * t - t / 2) by lra.
    rewrite cos_plus, cos_minus. lra.
Qed.
Lemma cos_period_Z x k : cos (x + 2 * IZR k * PI) = cos x.
Proof.
  destruct (Z_le_gt_dec 0 k) as [H|H].
  - rewrite <- (Z2Nat.id k H), <- INR_IZR_INZ. apply cos_period.
  - pose proof (cos_period (x + 2 * IZR k * PI) (Z.to_nat (- k))) as P. rewrite INR_IZR_INZ, Z2Nat.id, opp_IZR in P by lia.
    rewrite <- P. f_equal. lra.
Qed.
Lemma sin_period_Z x k : sin (x + 2 * IZR k * PI) = sin x.
Proof.
  destruct (Z_le_gt_dec 0 k) as [H|H].
  - rewrite <- (Z2Nat.id k H), <- INR_IZR_INZ. apply sin_period.
  - pose proof (sin_period (x + 2 * IZR k * PI) (Z.to_nat (- k))) as P. rewrite INR_IZR_INZ, Z2Nat.id, opp_IZR in P by lia.
    rewrite <- P. f_equal. lra.
Qed.
Lemma sin_half_zero N m : (0 < N)%nat -> sin (2 * PI * IZR m / INR N / 2) = 0 -> (Z.of_nat N | m)%Z.
Proof.
  intros HN H. destruct (sin_eq_0_0 _ H) as [k Hk]. exists k. apply eq_IZR. rewrite mult_IZR, <- INR_IZR_INZ.
  assert (0 < INR N) by (apply lt_0_INR; exact HN). pose proof PI_RGT_0 as P.
  apply Rmult_eq_reg_l with (PI / INR N); [|apply Rgt_not_eq; apply Rdiv_lt_0_compat; lra].
  replace (PI / INR N * IZR m) with (2 * PI * IZR m / INR N / 2) by (field; lra). rewrite Hk. field. lra.
Qed.
(** orthogonality: sums over a full period *)
Lemma cos_ortho N m : (0 < N)%nat -> ~ (Z.of_nat N | m)%Z -> rsum N (fun k => cos (2 * PI * IZR m * INR k / INR N)) = 0.
Proof.
  intros HN D. set (t := 2 * PI * IZR m / INR N). assert (P : 0 < INR N) by (apply lt_0_INR; exact HN).
  rewrite (rsum_ext N _ (fun k => cos (INR k * t))) by (intros; f_equal; unfold t; field; lra).
  assert (S0 : sin (t / 2) <> 0) by (intros C; apply D, sin_half_zero; assumption).
  pose proof (cos_sum_telescope t N) as T.
  replace ((INR N - / 2) * t) with (- (t / 2) + 2 * IZR m * PI) in T by (unfold t; field; lra).
  rewrite sin_period_Z, sin_neg in T. apply Rmult_eq_reg_l with (2 * sin (t / 2)); lra.
Qed.
Lemma cos_mult_period N m k : (0 < N)%nat -> (Z.of_nat N | m)%Z -> cos (2 * PI * IZR m * INR k / INR N) = 1.
Proof.
  intros HN [q ->]. assert (P : 0 < INR N) by (apply lt_0_INR; exact HN). rewrite mult_IZR, <- INR_IZR_INZ.
  replace (2 * PI * (IZR q * INR N) * INR k / INR N) with (0 + 2 * IZR (q * Z.of_nat k) * PI).
  - rewrite cos_period_Z. apply cos_0.
  - rewrite mult_IZR, <- INR_IZR_INZ. field. lra.
Qed.
Lemma sin_mult_period N m k : (0 < N)%nat -> (Z.of_nat N | m)%Z -> sin (2 * PI * IZR m * INR k / INR N) = 0.
Proof.
  intros HN [q ->]. assert (P : 0 < INR N) by (apply lt_0_INR; exact HN). rewrite mult_IZR, <- INR_IZR_INZ.
  replace (2 * PI * (IZR q * INR N) * INR k / INR N) with (0 + 2 * IZR (q * Z.of_nat k) * PI).
  - rewrite sin_period_Z. apply sin_0.
  - rewrite mult_IZR, <- INR_IZR_INZ. field. lra.
Qed.
Lemma Zdivide_dec N m : {(Z.of_nat N | m)%Z} + {~ (Z.of_nat N | m)%Z}.
Proof. apply Znumtheory.Zdivide_dec. Qed.
Lemma cos_full N m : (0 < N)%nat ->
  rsum N (fun k => cos (2 * PI * IZR m * INR k / INR N)) = if Zdivide_dec N m then INR N else 0.
Proof.
  intros HN. destruct (Zdivide_dec N m) as [D|D]; [|now apply cos_ortho].
  rewrite (rsum_ext N _ (fun _ => 1)) by (intros; now apply cos_mult_period). rewrite rsum_const. lra.
Qed.
Lemma sin_full N m : (0 < N)%nat -> rsum N (fun k => sin (2 * PI * IZR m * INR k / INR N)) = 0.
Proof.
  intros HN. destruct (Zdivide_dec N m) as [D|D].
  - apply rsum_zero. intros. now apply sin_mult_period.
  - set (t := 2 * PI * IZR m / INR N). assert (P : 0 < INR N) by (apply lt_0_INR; exact HN).
    rewrite (rsum_ext N _ (fun k => sin (INR k * t))) by (intros; f_equal; unfold t; field; lra).
    assert (S0 : sin (t / 2) <> 0) by (intros C; apply D, sin_half_zero; assumption).
    pose proof (sin_sum_telescope t N) as T.
    replace ((INR N - / 2) * t) with (- (t / 2) + 2 * IZR m * PI) in T by (unfold t; field; lra).
    rewrite cos_period_Z, cos_neg in T. apply Rmult_eq_reg_l with (2 * sin (t / 2)); lra.
Qed.

(** ** The sum over half of the frequencies *)
(** a symmetric function of the frequency: half range with doubled interior = full range *)
Lemma half_range N f : (0 < N)%nat -> (forall k, (0 < k < N)%nat -> f (N - k)%nat = f k) ->
  f 0%nat + (if Nat.even N then f (N / 2)%nat else 0) + 2 * rsum ((N - 1) / 2) (fun k => f (S k)) = rsum N f.
Proof.
  intros HN Sy. destruct N as [|N']; [lia|]. rewrite rsum_head. set (N := S N') in *.
  destruct (Nat.even N) eqn:Ev.
  - apply Nat.even_spec in Ev. destruct Ev as [h Eh]. assert (h > 0)%nat by lia.
    replace (N / 2)%nat with h by (rewrite Eh, Nat.mul_comm, Nat.div_mul; lia).
    replace ((N - 1) / 2)%nat with (h - 1)%nat by (apply Nat.div_unique with 1%nat; lia).
    replace N' with ((h - 1) + S (h - 1))%nat by lia. rewrite rsum_split, rsum_head. replace (S (h - 1 + 0)) with h by lia.
    rewrite (rsum_rev (h - 1) (fun i => f (S (h - 1 + S i)))).
    rewrite (rsum_ext (h - 1) (fun i => f (S (h - 1 + S (h - 1 - 1 - i)))) (fun i => f (S i))); [lra|].
    intros i Hi. rewrite <- (Sy (S i)) by lia. f_equal. lia.
  - assert (Od : Nat.odd N = true) by (unfold Nat.odd; now rewrite Ev). apply Nat.odd_spec in Od. destruct Od as [h Eh].
    replace ((N - 1) / 2)%nat with h by (apply Nat.div_unique with 0%nat; lia).
    replace N' with (h + h)%nat by lia. rewrite rsum_split.
    rewrite (rsum_rev h (fun i => f (S (h + i)))).
    rewrite (rsum_ext h (fun i => f (S (h + (h - 1 - i)))) (fun i => f (S i))); [lra|].
    intros i Hi. rewrite <- (Sy (S i)) by lia. f_equal. lia.
Qed.
