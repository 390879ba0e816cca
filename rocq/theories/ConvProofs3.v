(** Two-dimensional transforms and auto-convolution. *)
From Verif Require Import PyStr PyBase DensModel DensProps ConvModel ConvSpec ConvProofs ConvProofs2.
From Coq Require Import Reals Lra Lia.
Local Open Scope R_scope.

Definition dsum (n m : nat) (f : nat -> nat -> R) : R := rsum n (fun a => rsum m (fun b => f a b)).
Lemma dsum_ext n m f g : (forall a b, (a < n)%nat -> (b < m)%nat -> f a b = g a b) -> dsum n m f = dsum n m g.
Proof. intros H. apply rsum_ext. intros. apply rsum_ext. auto. Qed.
Lemma dsum_plus n m f g : dsum n m (fun a b => f a b + g a b) = dsum n m f + dsum n m g.
Proof. unfold dsum. rewrite <- rsum_plus. apply rsum_ext. intros. apply rsum_plus. Qed.
Lemma dsum_minus n m f g : dsum n m (fun a b => f a b - g a b) = dsum n m f - dsum n m g.
Proof. unfold dsum. rewrite <- rsum_minus. apply rsum_ext. intros. apply rsum_minus. Qed.
Lemma dsum_scal n m c f : dsum n m (fun a b => c * f a b) = c * dsum n m f.
Proof. unfold dsum. rewrite <- rsum_scal. apply rsum_ext. intros. apply rsum_scal. Qed.
Lemma dsum_scal_r n m c f : dsum n m (fun a b => f a b * c) = dsum n m f * c.
Proof. unfold dsum. rewrite <- rsum_scal_r. apply rsum_ext. intros. apply rsum_scal_r. Qed.
Lemma dsum_zero n m f : (forall a b, (a < n)%nat -> (b < m)%nat -> f a b = 0) -> dsum n m f = 0.
Proof. intros H. apply rsum_zero. intros. apply rsum_zero. auto. Qed.
Lemma dsum_mult n m p q f g : dsum n m f * dsum p q g = dsum n m (fun a b => dsum p q (fun c d => f a b * g c d)).
Proof. rewrite <- dsum_scal_r. apply dsum_ext. intros. symmetry. apply dsum_scal. Qed.
Lemma dsum_rsum n m p (f : nat -> nat -> nat -> R) : rsum p (fun k => dsum n m (f k)) = dsum n m (fun a b => rsum p (fun k => f k a b)).
Proof. unfold dsum. rewrite rsum_swap. apply rsum_ext. intros. apply rsum_swap. Qed.
Lemma re_prod_gen n m p q (x y u v : nat -> nat -> R) phi :
  fst (cmul (cmul (dsum n m (fun a b => x a b * cos (u a b)), - dsum n m (fun a b => x a b * sin (u a b)))
                  (dsum p q (fun c d => y c d * cos (v c d)), - dsum p q (fun c d => y c d * sin (v c d)))) (cis phi))
  = dsum n m (fun a b => dsum p q (fun c d => x a b * y c d * cos (phi - (u a b + v c d)))).
Proof.
  unfold cmul, cis. cbn [fst snd].
  set (Cx := dsum n m (fun a b => x a b * cos (u a b))). set (Sx := dsum n m (fun a b => x a b * sin (u a b))).
  set (Cy := dsum p q (fun a b => y a b * cos (v a b))). set (Sy := dsum p q (fun a b => y a b * sin (v a b))).
  transitivity (cos phi * (Cx * Cy - Sx * Sy) + sin phi * (Sx * Cy + Cx * Sy)); [lra|].
  unfold Cx, Cy, Sx, Sy. rewrite !dsum_mult.
  rewrite <- dsum_minus, <- dsum_plus, <- !dsum_scal, <- dsum_plus. apply dsum_ext. intros a b _ _.
  rewrite <- dsum_minus, <- dsum_plus, <- !dsum_scal, <- dsum_plus. apply dsum_ext. intros c d _ _.
  rewrite cos_minus, cos_plus, sin_plus. lra.
Qed.
(** wrap-around does not happen, for any array of terms *)
Lemma circ_lin N n m j (F : nat -> nat -> R) : (j < N)%nat -> (n <= N)%nat -> (m <= N)%nat -> (n + m <= N + 1)%nat ->
  (forall a b, (n <= a)%nat \/ (m <= b)%nat -> F a b = 0) ->
  dsum N N (fun a b => if Zdivide_dec N (Z.of_nat j - Z.of_nat a - Z.of_nat b) then F a b else 0)
  = dsum n m (fun a b => if (a + b =? j)%nat then F a b else 0).
Proof.
  intros Hj Hn Hm L Z0. unfold dsum. rewrite (rsum_extend n N); [|exact Hn|].
  2:{ intros a Ha. apply rsum_zero. intros b _. rewrite Z0 by lia. now destruct (Zdivide_dec _ _). }
  apply rsum_ext. intros a Ha. rewrite (rsum_extend m N); [|exact Hm|].
  2:{ intros b Hb. rewrite Z0 by lia. now destruct (Zdivide_dec _ _). }
  apply rsum_ext. intros b Hb. destruct (Nat.eqb_spec (a + b) j) as [D|D].
  - destruct (Zdivide_dec _ _) as [_|N0]; [reflexivity|]. exfalso. apply N0. exists 0%Z. lia.
  - destruct (Zdivide_dec _ _) as [[q Q]|_]; [|reflexivity]. exfalso. apply D. assert (q = 0)%Z by nia. subst q. lia.
Qed.
Lemma sz_full N m c : (0 < N)%nat ->
  rsum N (fun k => cos (2 * PI * IZR m * INR k / INR N + c)) = if Zdivide_dec N m then INR N * cos c else 0.
Proof.
  intros HN. rewrite (rsum_ext N _ (fun k => cos c * cos (2 * PI * IZR m * INR k / INR N) - sin c * sin (2 * PI * IZR m * INR k / INR N)))
    by (intros; rewrite cos_plus; lra).
  rewrite rsum_minus, !rsum_scal, cos_full, sin_full by exact HN. destruct (Zdivide_dec N m); lra.
Qed.

Section TwoD.
  Context (N M : nat) (x y : mat) (HN : (0 < N)%nat) (HM : (0 < M)%nat).
  Let prod k l := cmul (rfft2_at N M x k l) (rfft2_at N M y k l).
  Let zi i a c := (Z.of_nat i - Z.of_nat a - Z.of_nat c)%Z.
  (** column frequency [l] of the inverse transform along the rows *)
  Definition g2 (i j l : nat) : R :=
    dsum N M (fun a b => dsum N M (fun c d => if Zdivide_dec N (zi i a c) then in_at x a b * in_at y c d * cz M (zi j b d) l else 0)).
  Lemma g2_spec i j l : fst (cmul (ifft_rows N prod i l) (cis (angle M j l))) = g2 i j l.
  Proof.
    assert (PN : 0 < INR N) by (apply lt_0_INR; lia).
    transitivity (rsum N (fun k => fst (cmul (prod k l) (cis (angle N i k + angle M j l)))) / INR N).
    - unfold ifft_rows, cis, cmul. cbn [fst snd]. unfold Rdiv. rewrite <- !rsum_scal_r, <- rsum_minus. apply rsum_ext. intros k _.
      rewrite cos_plus, sin_plus. lra.
    - unfold prod, rfft2_at. fold dsum.
      transitivity (rsum N (fun k => dsum N M (fun a b => dsum N M (fun c d =>
        in_at x a b * in_at y c d * cos (angle N i k + angle M j l - (angle N a k + angle M b l + (angle N c k + angle M d l)))))) / INR N).
      { f_equal. apply rsum_ext. intros k _. apply (re_prod_gen N M N M (in_at x) (in_at y) (fun a b => angle N a k + angle M b l) (fun c d => angle N c k + angle M d l)). }
      rewrite dsum_rsum. unfold Rdiv. rewrite <- dsum_scal_r. apply dsum_ext. intros a b _ _. rewrite dsum_rsum, <- dsum_scal_r. apply dsum_ext. intros c d _ _.
      rewrite rsum_scal.
      rewrite (rsum_ext N _ (fun k => cos (2 * PI * IZR (zi i a c) * INR k / INR N + 2 * PI * IZR (zi j b d) * INR l / INR M))).
      + rewrite sz_full by exact HN. unfold cz. destruct (Zdivide_dec _ _); [field; lra|lra].
      + intros k _. f_equal. unfold zi. rewrite <- !angle_diff by assumption. lra.
  Qed.
  Lemma g2_sym i j l : (0 < l < M)%nat -> g2 i j (M - l) = g2 i j l.
  Proof. intros H. unfold g2. apply dsum_ext. intros a b _ _. apply dsum_ext. intros c d _ _. now rewrite cz_sym. Qed.
  Lemma irfft2_prod i j : (i < N)%nat -> (j < M)%nat -> (0 < m_rows x)%nat -> (0 < m_rows y)%nat -> (0 < m_cols x)%nat -> (0 < m_cols y)%nat ->
    (m_rows x + m_rows y <= N + 1)%nat -> (m_cols x + m_cols y <= M + 1)%nat ->
    irfft2_at N M prod i j = conv_coef2 (m_rows x) (m_rows y) (m_cols x) (m_cols y) (m_at x) (m_at y) i j.
  Proof.
    intros Hi Hj X1 Y1 X2 Y2 L1 L2. assert (PM : 0 < INR M) by (apply lt_0_INR; lia).
    unfold irfft2_at. rewrite (irfft_sum M _ j (g2 i j)); [|exact HM| |apply g2_sym].
    2:{ intros k Hk. unfold cat_. rewrite nth_map_seq by lia. apply g2_spec. }
    transitivity (dsum N N (fun a c => if Zdivide_dec N (zi i a c) then
                    dsum M M (fun b d => if Zdivide_dec M (zi j b d) then in_at x a b * in_at y c d else 0) else 0)).
    - unfold g2. rewrite dsum_rsum. unfold Rdiv. rewrite <- dsum_scal_r.
      transitivity (dsum N M (fun a b => dsum N M (fun c d => if Zdivide_dec N (zi i a c) then if Zdivide_dec M (zi j b d) then in_at x a b * in_at y c d else 0 else 0))).
      + apply dsum_ext. intros a b _ _. rewrite dsum_rsum, <- dsum_scal_r. apply dsum_ext. intros c d _ _.
        destruct (Zdivide_dec N _); [|rewrite rsum_zero by reflexivity; lra].
        rewrite rsum_scal. unfold cz. rewrite cos_full by exact HM. destruct (Zdivide_dec M _); [field; lra|lra].
      + unfold dsum. apply rsum_ext. intros a _. rewrite rsum_swap. apply rsum_ext. intros c _. destruct (Zdivide_dec N _); [reflexivity|].
        apply rsum_zero. intros. now apply rsum_zero.
    - unfold zi. rewrite (circ_lin N (m_rows x) (m_rows y) i (fun a c => dsum M M (fun b d => if Zdivide_dec M (Z.of_nat j - Z.of_nat b - Z.of_nat d) then in_at x a b * in_at y c d else 0))); try lia.
      2:{ intros a c H. apply dsum_zero. intros b d _ _. unfold in_at. destruct (Zdivide_dec _ _); [|reflexivity].
          destruct H as [H|H].
          - destruct (Nat.ltb_spec a (m_rows x)); [lia|]. cbn [andb]. lra.
          - destruct (Nat.ltb_spec c (m_rows y)); [lia|]. cbn [andb]. lra. }
      unfold conv_coef2.
      rewrite (pairs_sum (m_rows x) (m_rows y) i (fun a c => sum_list (map (fun q => m_at x a (fst q) * m_at y c (snd q)) (pairs_at (m_cols x) (m_cols y) j)))).
      apply rsum_ext. intros a Ha. apply rsum_ext. intros c Hc. destruct (_ =? _)%nat; [|reflexivity].
      rewrite (pairs_sum (m_cols x) (m_cols y) j (fun b d => m_at x a b * m_at y c d)).
      rewrite (circ_lin M (m_cols x) (m_cols y) j (fun b d => in_at x a b * in_at y c d)); try lia.
      + apply rsum_ext. intros b Hb. apply rsum_ext. intros d Hd. destruct (_ =? _)%nat; [|reflexivity]. unfold in_at.
        destruct (Nat.ltb_spec a (m_rows x)); [|lia]. destruct (Nat.ltb_spec b (m_cols x)); [|lia].
        destruct (Nat.ltb_spec c (m_rows y)); [|lia]. destruct (Nat.ltb_spec d (m_cols y)); [|lia]. reflexivity.
      + intros b d H. unfold in_at. destruct H as [H|H].
        * destruct (Nat.ltb_spec b (m_cols x)); [lia|]. rewrite andb_false_r. lra.
        * destruct (Nat.ltb_spec d (m_cols y)); [lia|]. rewrite andb_false_r. lra.
  Qed.
End TwoD.

(** ** Auto-convolution *)
Definition pw (s : nat) (x : list R) (k : nat) : R := fst (dft_at s x k) * fst (dft_at s x k) + snd (dft_at s x k) * snd (dft_at s x k).
Lemma pw_spec s x k : (0 < s)%nat -> pw s x k = rsum s (fun a => rsum s (fun b => at_ x a * at_ x b * cz s (Z.of_nat a - Z.of_nat b) k)).
Proof.
  intros H. unfold pw, dft_at. cbn [fst snd].
  set (C := rsum s (fun j => at_ x j * cos (angle s j k))). set (S0 := rsum s (fun j => at_ x j * sin (angle s j k))).
  transitivity (C * C + S0 * S0); [lra|]. unfold C, S0. rewrite !rsum_mult, <- rsum_plus. apply rsum_ext. intros a _. rewrite <- rsum_plus. apply rsum_ext. intros b _.
  unfold cz. replace (2 * PI * IZR (Z.of_nat a - Z.of_nat b) * INR k / INR s) with (angle s a k - angle s b k).
  - rewrite cos_minus. lra.
  - unfold angle. rewrite minus_IZR, <- !INR_IZR_INZ. field. apply not_0_INR. lia.
Qed.
Lemma pw_sym s x k : (0 < k < s)%nat -> pw s x (s - k) = pw s x k.
Proof. intros H. rewrite !pw_spec by lia. apply rsum_ext. intros. apply rsum_ext. intros. now rewrite cz_sym. Qed.
Lemma im_0 s x : snd (dft_at s x 0) = 0.
Proof.
  unfold dft_at. cbn [snd]. rewrite rsum_zero; [lra|]. intros i _. unfold angle. cbn [INR]. replace (2 * PI * INR i * 0 / INR s) with 0 by (unfold Rdiv; lra). rewrite sin_0. lra.
Qed.
Lemma im_half h x : (0 < h)%nat -> snd (dft_at (2 * h) x h) = 0.
Proof.
  intros H. unfold dft_at. cbn [snd]. rewrite rsum_zero; [lra|]. intros i _.
  replace (angle (2 * h) i h) with (PI * INR i).
  - rewrite sin_pi_nat. lra.
  - unfold angle. rewrite mult_INR. cbn [INR]. field. apply not_0_INR. lia.
Qed.
Lemma last_map_seq {A} (f : nat -> A) n d : (0 < n)%nat -> last (map f (seq 0 n)) d = f (n - 1)%nat.
Proof. intros H. destruct n; [lia|]. rewrite seq_S, map_app. cbn [map]. rewrite last_last. f_equal. lia. Qed.
Lemma power_spec h x : (0 < h)%nat -> power (pack_rfft x (2 * h)) = map (pw (2 * h) x) (seq 0 (h + 1)).
Proof.
  intros H. unfold power. assert (EL : length (pack_rfft x (2 * h)) = (2 * h)%nat) by (unfold pack_rfft; rewrite map_length, seq_length; reflexivity). rewrite EL.
  replace (2 * h / 2)%nat with h by (rewrite Nat.mul_comm, Nat.div_mul; lia). apply map_ext_in. intros k Hk. apply in_seq in Hk.
  destruct (Nat.eqb_spec k h) as [->|D].
  - unfold pack_rfft. rewrite last_map_seq by lia.
    assert (O : Nat.odd (2 * h - 1) = true). { apply Nat.odd_spec. exists (h - 1)%nat. lia. } cbn zeta. rewrite O. cbn [orb].
    replace ((2 * h - 1 + 1) / 2)%nat with h by (apply Nat.div_unique with 0%nat; lia). unfold pw. rewrite im_half by exact H. lra.
  - destruct (Nat.eqb_spec k 0) as [->|D'].
    + unfold pack_rfft, at_. rewrite nth_map_seq by lia. cbn zeta. rewrite Nat.eqb_refl, orb_true_r. change ((0 + 1) / 2)%nat with 0%nat. unfold pw. rewrite im_0. lra.
    + unfold pack_rfft, at_. rewrite !nth_map_seq by lia. cbn zeta.
      assert (O : Nat.odd (2 * k - 1) = true). { apply Nat.odd_spec. exists (k - 1)%nat. lia. }
      assert (O2 : Nat.odd (2 * k) = false). { rewrite <- Nat.negb_even, Nat.even_mul. reflexivity. }
      rewrite O, O2. destruct (Nat.eqb_spec (2 * k) 0); [lia|]. cbn [orb].
      replace ((2 * k - 1 + 1) / 2)%nat with k by (apply Nat.div_unique with 0%nat; lia).
      replace ((2 * k + 1) / 2)%nat with k by (apply Nat.div_unique with 1%nat; lia). reflexivity.
Qed.
Lemma idct_auto h x k : (0 < h)%nat -> (k <= h)%nat ->
  nth k (idct1 (map (pw (2 * h) x) (seq 0 (h + 1)))) 0 = rsum (2 * h) (fun i => pw (2 * h) x i * cos (angle (2 * h) k i)).
Proof.
  intros H Hk. unfold idct1. rewrite map_length, seq_length, nth_map_seq by lia. set (s := (2 * h)%nat) in *.
  assert (Ev : Nat.even s = true) by (unfold s; rewrite Nat.even_mul; reflexivity).
  assert (Hs : (s / 2)%nat = h) by (unfold s; rewrite Nat.mul_comm, Nat.div_mul; lia).
  assert (Ps : 0 < INR s) by (apply lt_0_INR; unfold s; lia).
  assert (Sy : forall i, (0 < i < s)%nat -> pw s x (s - i) * cos (angle s k (s - i)) = pw s x i * cos (angle s k i)).
  { intros i Hi. rewrite pw_sym by exact Hi. f_equal. unfold angle. rewrite minus_INR by lia.
    replace (2 * PI * INR k * (INR s - INR i) / INR s) with (- (2 * PI * INR k * INR i / INR s) + 2 * IZR (Z.of_nat k) * PI) by (rewrite <- INR_IZR_INZ; field; lra).
    rewrite cos_period_Z. apply cos_neg. }
  rewrite <- (half_range s (fun i => pw s x i * cos (angle s k i))) by (first [exact Sy | unfold s; lia]).
  rewrite Ev, Hs. replace ((s - 1) / 2)%nat with (h - 1)%nat by (unfold s; apply Nat.div_unique with 1%nat; lia). f_equal; [f_equal|].
  - unfold at_. rewrite nth_map_seq by lia. unfold angle. cbn [INR]. replace (2 * PI * INR k * 0 / INR s) with 0 by (unfold Rdiv; lra). rewrite cos_0. lra.
  - rewrite last_map_seq by lia. replace (h + 1 - 1)%nat with h by lia. replace (angle s k h) with (PI * INR k); [lra|].
    rewrite <- Hs. symmetry. apply cos_pi_nat; [unfold s; lia|exact Ev].
  - f_equal. replace (h + 1 - 2)%nat with (h - 1)%nat by lia. apply rsum_ext. intros i Hi. unfold at_. rewrite nth_map_seq by lia. f_equal. f_equal.
    replace (h + 1 - 1)%nat with h by lia. unfold angle, s. rewrite mult_INR. change (INR 2) with 2. field. apply not_0_INR. lia.
Qed.
Lemma auto_sum s x k : (0 < s)%nat -> (k + length x <= s)%nat ->
  rsum s (fun i => pw s x i * cos (angle s k i)) = INR s * lag_sum x k.
Proof.
  intros Hs L. set (z := fun (u : Z) => if Zdivide_dec s u then INR s else 0).
  transitivity (rsum s (fun a => rsum s (fun b => at_ x a * at_ x b * ((z (Z.of_nat k + Z.of_nat a - Z.of_nat b)%Z + z (Z.of_nat k - Z.of_nat a + Z.of_nat b)%Z) / 2)))).
  - transitivity (rsum s (fun i => rsum s (fun a => rsum s (fun b => at_ x a * at_ x b *
        ((cz s (Z.of_nat k + Z.of_nat a - Z.of_nat b) i + cz s (Z.of_nat k - Z.of_nat a + Z.of_nat b) i) / 2))))).
    + apply rsum_ext. intros i _. rewrite pw_spec by exact Hs. rewrite <- rsum_scal_r. apply rsum_ext. intros a _. rewrite <- rsum_scal_r. apply rsum_ext. intros b _.
      assert (P : INR s <> 0) by (apply not_0_INR; lia).
      unfold cz. set (t := 2 * PI * IZR (Z.of_nat a - Z.of_nat b) * INR i / INR s).
      replace (2 * PI * IZR (Z.of_nat k + Z.of_nat a - Z.of_nat b) * INR i / INR s) with (angle s k i + t)
        by (unfold t, angle; rewrite !minus_IZR, plus_IZR, <- !INR_IZR_INZ; field; exact P).
      replace (2 * PI * IZR (Z.of_nat k - Z.of_nat a + Z.of_nat b) * INR i / INR s) with (angle s k i - t)
        by (unfold t, angle; rewrite plus_IZR, !minus_IZR, <- !INR_IZR_INZ; field; exact P).
      rewrite cos_plus, cos_minus. lra.
    + rewrite rsum_swap. apply rsum_ext. intros a _. rewrite rsum_swap. apply rsum_ext. intros b _. rewrite rsum_scal. f_equal. unfold Rdiv. rewrite rsum_scal_r, rsum_plus.
      unfold cz. rewrite !cos_full by exact Hs. reflexivity.
  - transitivity (rsum s (fun a => rsum s (fun b => at_ x a * at_ x b * z (Z.of_nat k + Z.of_nat a - Z.of_nat b)%Z))).
    + assert (Sw : rsum s (fun a => rsum s (fun b => at_ x a * at_ x b * z (Z.of_nat k - Z.of_nat a + Z.of_nat b)%Z))
                 = rsum s (fun a => rsum s (fun b => at_ x a * at_ x b * z (Z.of_nat k + Z.of_nat a - Z.of_nat b)%Z))).
      { rewrite rsum_swap. apply rsum_ext. intros b _. apply rsum_ext. intros a _. replace (Z.of_nat k - Z.of_nat a + Z.of_nat b)%Z with (Z.of_nat k + Z.of_nat b - Z.of_nat a)%Z by lia. lra. }
      set (A := rsum s (fun a => rsum s (fun b => at_ x a * at_ x b * z (Z.of_nat k + Z.of_nat a - Z.of_nat b)%Z))) in *.
      transitivity ((A + rsum s (fun a => rsum s (fun b => at_ x a * at_ x b * z (Z.of_nat k - Z.of_nat a + Z.of_nat b)%Z))) * / 2); [|rewrite Sw; lra].
      unfold A. rewrite <- rsum_plus, <- rsum_scal_r. apply rsum_ext. intros a _. rewrite <- rsum_plus, <- rsum_scal_r. apply rsum_ext. intros b _. lra.
    + unfold lag_sum. rewrite rsum_list, <- rsum_scal.
      rewrite (rsum_extend (length x - k) s).
      * apply rsum_ext. intros a Ha. rewrite (rsum_single s _ (a + k)%nat).
        -- unfold z. destruct (Zdivide_dec _ _) as [_|D]; [unfold at_; lra|]. exfalso. apply D. exists 0%Z. lia.
        -- lia.
        -- intros b Hb Nb. destruct (Nat.lt_ge_cases b (length x)) as [Lb|Lb]; [|rewrite (at_beyond x b) by exact Lb; lra].
           unfold z. destruct (Zdivide_dec _ _) as [[q Q]|D]; [|lra]. exfalso. apply Nb. assert (q = 0)%Z by nia. subst q. lia.
      * lia.
      * intros a Ha. apply rsum_zero. intros b Hb. destruct (Nat.lt_ge_cases a (length x)) as [La|La]; [|rewrite (at_beyond x a) by exact La; lra].
        destruct (Nat.lt_ge_cases b (length x)) as [Lb|Lb]; [|rewrite (at_beyond x b) by exact Lb; lra].
        unfold z. destruct (Zdivide_dec _ _) as [[q Q]|D]; [|lra]. exfalso. assert (q = 0)%Z by nia. subst q. lia.
Qed.
