(** Transforms of products: circular and linear convolution. *)
From Verif Require Import PyStr PyBase DensModel DensProps ConvModel ConvSpec ConvProofs.
From Coq Require Import Reals Lra Lia.
Local Open Scope R_scope.

Definition cz (N : nat) (m : Z) (k : nat) : R := cos (2 * PI * IZR m * INR k / INR N).
Lemma cz_sym N m k : (0 < k < N)%nat -> cz N m (N - k) = cz N m k.
Proof.
  intros H. unfold cz. assert (P : 0 < INR N) by (apply lt_0_INR; lia). rewrite minus_INR by lia.
  replace (2 * PI * IZR m * (INR N - INR k) / INR N) with (- (2 * PI * IZR m * INR k / INR N) + 2 * IZR m * PI) by (field; lra).
  rewrite cos_period_Z. apply cos_neg.
Qed.
Lemma cz_0 N m : cz N m 0 = 1.
Proof. unfold cz. cbn [INR]. replace (2 * PI * IZR m * 0 / INR N) with 0 by (unfold Rdiv; lra). apply cos_0. Qed.
Lemma angle_diff N j a b k : (0 < N)%nat ->
  angle N j k - (angle N a k + angle N b k) = 2 * PI * IZR (Z.of_nat j - Z.of_nat a - Z.of_nat b) * INR k / INR N.
Proof.
  intros H. assert (P : 0 < INR N) by (apply lt_0_INR; lia). rewrite !minus_IZR, <- !INR_IZR_INZ. unfold angle. field. lra.
Qed.
(** the frequency [k] part of the product of two transforms at position [j] *)
Definition spec_at (N : nat) (x y : list R) (j k : nat) : R :=
  rsum N (fun a => rsum N (fun b => at_ x a * at_ y b * cz N (Z.of_nat j - Z.of_nat a - Z.of_nat b) k)).
Lemma re_prod N x y j k : (0 < N)%nat -> fst (cmul (cmul (dft_at N x k) (dft_at N y k)) (cis (angle N j k))) = spec_at N x y j k.
Proof.
  intros H. unfold spec_at, dft_at, cmul, cis. cbn [fst snd].
  set (Cx := rsum N (fun i => at_ x i * cos (angle N i k))). set (Sx := rsum N (fun i => at_ x i * sin (angle N i k))).
  set (Cy := rsum N (fun i => at_ y i * cos (angle N i k))). set (Sy := rsum N (fun i => at_ y i * sin (angle N i k))).
  transitivity (cos (angle N j k) * (Cx * Cy - Sx * Sy) + sin (angle N j k) * (Sx * Cy + Cx * Sy)); [lra|].
  unfold Cx, Cy, Sx, Sy. rewrite !rsum_mult.
  rewrite <- rsum_minus, <- rsum_plus, <- !rsum_scal, <- rsum_plus. apply rsum_ext. intros a Ha.
  rewrite <- rsum_minus, <- rsum_plus, <- !rsum_scal, <- rsum_plus. apply rsum_ext. intros b Hb.
  unfold cz. rewrite <- angle_diff by exact H. rewrite cos_minus, cos_plus, sin_plus. lra.
Qed.
Lemma spec_sym N x y j k : (0 < k < N)%nat -> spec_at N x y j (N - k) = spec_at N x y j k.
Proof. intros H. unfold spec_at. apply rsum_ext. intros a _. apply rsum_ext. intros b _. now rewrite cz_sym. Qed.
(** circular convolution *)
Lemma spec_full N x y j : (0 < N)%nat ->
  rsum N (spec_at N x y j) =
  INR N * rsum N (fun a => rsum N (fun b => if Zdivide_dec N (Z.of_nat j - Z.of_nat a - Z.of_nat b) then at_ x a * at_ y b else 0)).
Proof.
  intros H. unfold spec_at. rewrite rsum_swap, <- rsum_scal. apply rsum_ext. intros a _. rewrite rsum_swap, <- rsum_scal. apply rsum_ext. intros b _.
  rewrite rsum_scal. unfold cz. rewrite cos_full by exact H. destruct (Zdivide_dec _ _); lra.
Qed.
Lemma at_beyond x i : (length x <= i)%nat -> at_ x i = 0.
Proof. intros. unfold at_. now rewrite nth_overflow. Qed.
Lemma conv_coef_rsum x y k :
  conv_coef x y k = rsum (length x) (fun i => rsum (length y) (fun j => if (i + j =? k)%nat then nth i x 0 * nth j y 0 else 0)).
Proof. exact (pairs_sum (length x) (length y) k (fun i j => nth i x 0 * nth j y 0)). Qed.
(** no wrap-around when the length is enough *)
Lemma circular_linear N x y j : (0 < N)%nat -> (j < N)%nat -> (length x + length y <= N + 1)%nat ->
  rsum N (fun a => rsum N (fun b => if Zdivide_dec N (Z.of_nat j - Z.of_nat a - Z.of_nat b) then at_ x a * at_ y b else 0)) = conv_coef x y j.
Proof.
  intros HN Hj L. rewrite conv_coef_rsum.
  destruct (Nat.eq_dec (length x) 0) as [E|E].
  { rewrite (length_zero_iff_nil x) in E. subst x. cbn [length rsum]. apply rsum_zero. intros a _. apply rsum_zero. intros b _.
    rewrite (at_beyond [] a) by (cbn; lia). destruct (Zdivide_dec _ _); lra. }
  destruct (Nat.eq_dec (length y) 0) as [E'|E'].
  { rewrite (length_zero_iff_nil y) in E'. subst y. cbn [length rsum]. transitivity 0; [|symmetry; now apply rsum_zero]. apply rsum_zero. intros a _. apply rsum_zero. intros b _.
    rewrite (at_beyond [] b) by (cbn; lia). destruct (Zdivide_dec _ _); lra. }
  rewrite (rsum_extend (length x) N); [|lia|].
  2:{ intros a Ha. apply rsum_zero. intros b _. rewrite (at_beyond x a) by lia. destruct (Zdivide_dec _ _); lra. }
  apply rsum_ext. intros a Ha. rewrite (rsum_extend (length y) N); [|lia|].
  2:{ intros b Hb. rewrite (at_beyond y b) by lia. destruct (Zdivide_dec _ _); lra. }
  apply rsum_ext. intros b Hb. unfold at_. destruct (Nat.eqb_spec (a + b) j) as [D|D].
  - destruct (Zdivide_dec _ _) as [_|N0]; [reflexivity|]. exfalso. apply N0. exists 0%Z. lia.
  - destruct (Zdivide_dec _ _) as [[q Q]|_]; [|reflexivity]. exfalso. apply D.
    assert (q = 0)%Z by nia. subst q. lia.
Qed.
Lemma nth_map_seq {A} (f : nat -> A) n k d : (k < n)%nat -> nth k (map f (seq 0 n)) d = f k.
Proof. intros H. rewrite (nth_indep _ d (f 0%nat)) by (rewrite map_length, seq_length; exact H). rewrite (map_nth f). now rewrite seq_nth. Qed.
Lemma cat_cprod N x y k : (k <= N / 2)%nat -> cat_ (cprod (rfft x N) (rfft y N)) k = cmul (dft_at N x k) (dft_at N y k).
Proof.
  intros H. unfold cat_, cprod, rfft.
  assert (E : combine (map (dft_at N x) (seq 0 (N / 2 + 1))) (map (dft_at N y) (seq 0 (N / 2 + 1))) = map (fun i => (dft_at N x i, dft_at N y i)) (seq 0 (N / 2 + 1))).
  { generalize (seq 0 (N / 2 + 1)). intros l. induction l; [reflexivity|]. cbn. now rewrite IHl. }
  rewrite E, map_map. cbn [fst snd].
  apply (nth_map_seq (fun i => cmul (dft_at N x i) (dft_at N y i))). lia.
Qed.
Lemma cos_pi_nat N j : (0 < N)%nat -> Nat.even N = true -> angle N j (N / 2) = PI * INR j.
Proof.
  intros H E. assert (P : 0 < INR N) by (apply lt_0_INR; lia). apply Nat.even_spec in E. destruct E as [h Eh].
  replace (N / 2)%nat with h by (rewrite Eh, Nat.mul_comm, Nat.div_mul; lia). unfold angle. rewrite Eh, mult_INR. cbn [INR]. field.
  rewrite Eh, mult_INR in P. cbn [INR] in P. lra.
Qed.
Lemma sin_pi_nat j : sin (PI * INR j) = 0.
Proof. rewrite Rmult_comm, INR_IZR_INZ. apply sin_eq_0_1. now exists (Z.of_nat j). Qed.
(** the inverse real transform of any spectrum whose parts are symmetric *)
Lemma irfft_sum N a j f : (0 < N)%nat ->
  (forall k, (k <= N / 2)%nat -> fst (cmul (cat_ a k) (cis (angle N j k))) = f k) ->
  (forall k, (0 < k < N)%nat -> f (N - k)%nat = f k) -> irfft_at a N j = rsum N f / INR N.
Proof.
  intros HN F Sy. unfold irfft_at. f_equal. rewrite <- (half_range N f HN Sy).
  assert (D : ((N - 1) / 2 <= N / 2)%nat) by (apply Nat.div_le_mono; lia).
  f_equal; [f_equal|].
  - rewrite <- F by lia. unfold cmul, cis. cbn [fst snd]. unfold angle. cbn [INR]. replace (2 * PI * INR j * 0 / INR N) with 0 by (unfold Rdiv; lra). rewrite cos_0, sin_0. lra.
  - destruct (Nat.even N) eqn:E; [|reflexivity]. rewrite <- F by lia. unfold cmul, cis. cbn [fst snd]. rewrite cos_pi_nat by assumption. rewrite sin_pi_nat. lra.
  - f_equal. apply rsum_ext. intros k Hk. apply F.
    assert (2 * ((N - 1) / 2) <= N - 1)%nat by (apply Nat.mul_div_le; lia). apply Nat.div_le_lower_bound; lia.
Qed.
Lemma irfft_prod N x y j : (0 < N)%nat -> (j < N)%nat -> (length x + length y <= N + 1)%nat ->
  irfft_at (cprod (rfft x N) (rfft y N)) N j = conv_coef x y j.
Proof.
  intros HN Hj L. rewrite (irfft_sum N _ j (spec_at N x y j)); [|exact HN| |].
  - rewrite spec_full, circular_linear by assumption. field. apply not_0_INR. lia.
  - intros k Hk. rewrite cat_cprod by exact Hk. now apply re_prod.
  - intros. now apply spec_sym.
Qed.
(** ** Slices *)
Lemma slice_spec {A} (d : A) i j l : (i <= j)%nat -> (j <= length l)%nat ->
  length (slice i j l) = (j - i)%nat /\ forall k, (k < j - i)%nat -> nth k (slice i j l) d = nth (i + k) l d.
Proof.
  intros H1 H2. unfold slice. split; [rewrite skipn_length, firstn_length; lia|]. intros k Hk.
  assert (G : forall (l : list A) i k, nth k (skipn i l) d = nth (i + k) l d).
  { clear. induction l as [|a l IH]; intros i k; [rewrite skipn_nil; now destruct k, (i + _)%nat|]. destruct i; [reflexivity|]. cbn [skipn]. rewrite IH. reflexivity. }
  rewrite G. clear G. revert l i k H1 H2 Hk. induction j as [|j IH]; intros l i k H1 H2 Hk; [lia|]. destruct l; [cbn in H2; lia|].
  cbn [firstn]. destruct (i + k)%nat eqn:E; [reflexivity|]. cbn [nth]. cbn in H2. destruct i.
  - cbn in E. subst k. specialize (IH l 0%nat n). cbn in IH. apply IH; lia.
  - cbn in E. injection E as <-. apply (IH l i k); lia.
Qed.
Lemma conv_part_slice x y r s i j : conv_part x y s (length r) r -> (i <= j <= length r)%nat -> conv_part x y (s + i) (j - i) (slice i j r).
Proof.
  intros [_ C] H. destruct (slice_spec 0 i j r) as [L E]; try lia. split; [exact L|]. intros k Hk. rewrite E by exact Hk. rewrite C by lia. f_equal. lia.
Qed.
Lemma conv_full_part a v : (0 < length v)%nat -> (0 < length a)%nat -> conv_part a v 0 (length a + length v - 1) (conv_full a v).
Proof.
  intros Hv Ha. unfold conv_full. split; [now rewrite map_length, seq_length|]. intros k Hk. rewrite nth_map_seq by exact Hk. cbn [Nat.add].
  rewrite conv_coef_rsum.
  transitivity (rsum (S k) (fun i => rsum (length v) (fun j => if (i + j =? k)%nat then nth i a 0 * nth j v 0 else 0))).
  - apply rsum_ext. intros i Hi. destruct (Nat.lt_ge_cases (k - i) (length v)) as [D|D].
    + rewrite (rsum_single _ _ (k - i)%nat) by (first [lia | intros j _ Hj; destruct (Nat.eqb_spec (i + j) k); [lia|reflexivity]]).
      destruct (Nat.eqb_spec (i + (k - i)) k); [reflexivity|lia].
    + rewrite (at_beyond v) by exact D. rewrite rsum_zero; [lra|]. intros j Hj. destruct (Nat.eqb_spec (i + j) k); [lia|reflexivity].
  - destruct (Nat.le_ge_cases (S k) (length a)) as [D|D].
    + symmetry. apply rsum_extend; [exact D|]. intros i Hi. apply rsum_zero. intros j Hj. destruct (Nat.eqb_spec (i + j) k); [lia|reflexivity].
    + apply rsum_extend; [exact D|]. intros i Hi. apply rsum_zero. intros j Hj. rewrite (nth_overflow a) by lia. destruct (_ =? _)%nat; lra.
Qed.
Lemma conv_coef_comm x y k : conv_coef x y k = conv_coef y x k.
Proof.
  rewrite !conv_coef_rsum, rsum_swap. apply rsum_ext. intros i _. apply rsum_ext. intros j _. rewrite (Nat.add_comm j i). destruct (_ =? _)%nat; lra.
Qed.
