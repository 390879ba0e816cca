(** Properties of the smoothing of spectra and covariances (C152) *)
From Coq Require Import Reals Lra Lia Bool Arith.
From Verif Require Import ConvModel ConvProofs SmoModel SmoSpec.
Local Open Scope R_scope.

(** weight of element j for element i, before it is normalized *)
Definition raw (N n : nat) (s : R) (i j : nat) : R := let k := (i + (Nat.min N n - 1) / 2)%nat in if Nat.leb j k && Nat.ltb (k - j) n then gaussian n s (k - j) else 0.
Definition wt (N n : nat) (s : R) (i j : nat) : R := raw N n s i j / rsum N (raw N n s i).
Lemma raw_nonneg N n s i j : 0 <= raw N n s i j.
Proof. unfold raw. cbv zeta. destruct (_ && _); [apply Rlt_le, exp_pos | lra]. Qed.
Lemma half_lt a : (1 <= a)%nat -> ((a - 1) / 2 < a)%nat.
Proof. intro H. pose proof (Nat.div_le_upper_bound (a - 1) 2 (a - 1)). lia. Qed.
Lemma raw_own N n s i : (1 <= n)%nat -> (1 <= N)%nat -> 0 < raw N n s i i.
Proof.
  intros H1 H2. unfold raw. cbv zeta. pose proof (half_lt (Nat.min N n) ltac:(lia)). destruct (Nat.leb_spec i (i + (Nat.min N n - 1) / 2)); [| lia]. destruct (Nat.ltb_spec (i + (Nat.min N n - 1) / 2 - i) n); [| lia]. apply exp_pos.
Qed.
Lemma rsum_ge N f k : (forall j, 0 <= f j) -> (k < N)%nat -> f k <= rsum N f.
Proof.
  intros P. induction N as [| N IH]; intro K; [lia |]. cbn [rsum]. assert (Z : 0 <= rsum N f) by (clear - P; induction N as [| N IH]; cbn [rsum]; [lra | pose proof (P N); lra]).
  destruct (Nat.eq_dec k N) as [-> | D]; [lra |]. pose proof (IH ltac:(lia)). pose proof (P N). lra.
Qed.
Lemma norm_pos N n s i : (1 <= n)%nat -> (i < N)%nat -> 0 < rsum N (raw N n s i).
Proof. intros H I. pose proof (raw_own N n s i H ltac:(lia)). pose proof (rsum_ge N (raw N n s i) i (raw_nonneg N n s i) I). lra. Qed.
Lemma wt_weights N n s : (1 <= n)%nat -> weights N (wt N n s).
Proof.
  intros H i I. pose proof (norm_pos N n s i H I) as P. split.
  - intros j J. unfold wt. apply Rmult_le_pos; [apply raw_nonneg | apply Rlt_le, Rinv_0_lt_compat, P].
  - unfold wt, Rdiv. rewrite rsum_scal_r. field. lra.
Qed.
Lemma smooth_val N n s x i : (1 <= n)%nat -> (i < N)%nat -> same_conv N x n (gaussian n s) i / same_conv N (fun _ => 1) n (gaussian n s) i = smoothed N (wt N n s) x i.
Proof.
  intros H I. unfold same_conv, full, smoothed. rewrite (rsum_ext N (fun j => 1 * _) (raw N n s i)) by (intros; unfold raw; cbv zeta; ring).
  rewrite (rsum_ext N (fun j => x j * _) (fun j => raw N n s i j * x j)) by (intros; unfold raw; cbv zeta; ring). unfold Rdiv. rewrite <- rsum_scal_r. apply rsum_ext. intros j J. unfold wt, Rdiv. ring.
Qed.
(** each element is a mean with the same weights for all data, and an array of the same length if it is not shorter than the window *)
Theorem C152_mean N smooth nsigma : (1 <= smooth)%nat -> (1 <= nsigma)%nat -> (nsigma * smooth <= N)%nat ->
  exists w, weights N w /\ forall x, exists y, gaussian_smooth_1d N x smooth nsigma = Some (N, y) /\ forall i, (i < N)%nat -> y i = smoothed N w x i.
Proof.
  intros H1 H2 H3. assert (P : (1 <= nsigma * smooth)%nat) by nia. exists (wt N (nsigma * smooth) (INR smooth)). split; [now apply wt_weights |]. intro x. unfold gaussian_smooth_1d. cbv zeta.
  destruct (Nat.eqb_spec N 0); [lia |]. destruct (Nat.eqb_spec (nsigma * smooth) 0); [lia |]. cbn [orb]. rewrite (Nat.max_l N) by assumption. eexists. split; [reflexivity |]. intros i I. now apply smooth_val.
Qed.
Lemma mean_bounds N w x lo hi i : weights N w -> (i < N)%nat -> (forall j, (j < N)%nat -> lo <= x j <= hi) -> lo <= smoothed N w x i <= hi.
Proof.
  intros W I B. destruct (W i I) as (P & S). unfold smoothed.
  assert (G : forall m, (m <= N)%nat -> lo * rsum m (w i) <= rsum m (fun j => w i j * x j) <= hi * rsum m (w i)).
  { induction m as [| m IH]; intro M; cbn [rsum]; [lra |]. specialize (IH ltac:(lia)). pose proof (P m ltac:(lia)) as Pm. pose proof (B m ltac:(lia)) as (B1 & B2).
    pose proof (Rmult_le_compat_l _ _ _ Pm B1). pose proof (Rmult_le_compat_l _ _ _ Pm B2). lra. }
  specialize (G N (Nat.le_refl N)). rewrite S in G. lra.
Qed.
(** so it is between the smallest and the largest element, and constant arrays are not changed *)
Theorem C152_bounds N x smooth nsigma y lo hi : gaussian_smooth_1d N x smooth nsigma = Some (N, y) -> (forall j, (j < N)%nat -> lo <= x j <= hi) -> forall i, (i < N)%nat -> lo <= y i <= hi.
Proof.
  unfold gaussian_smooth_1d. cbv zeta. destruct (Nat.eqb_spec N 0); cbn [orb]; [discriminate |]. destruct (Nat.eqb_spec (nsigma * smooth) 0); [discriminate |]. intros H B i I. injection H as _ <-.
  rewrite smooth_val by lia. apply mean_bounds; [apply wt_weights; lia | exact I | exact B].
Qed.
Lemma sub_INR a b : (b <= a)%nat -> INR (a - b) = INR a - INR b.
Proof. apply minus_INR. Qed.
Lemma raw_odd N h s i j : (2 * h + 1 <= N)%nat -> raw N (2 * h + 1) s i j = if Nat.leb j (i + h) && Nat.leb i (j + h) then bell s (INR i) (INR j) else 0.
Proof.
  intro H. unfold raw. cbv zeta. rewrite Nat.min_r by assumption. replace ((2 * h + 1 - 1) / 2)%nat with h by (rewrite Nat.add_sub, Nat.mul_comm, Nat.div_mul; lia).
  destruct (Nat.leb_spec j (i + h)); cbn [andb]; [| reflexivity]. destruct (Nat.ltb_spec (i + h - j) (2 * h + 1)), (Nat.leb_spec i (j + h)); try lia; [| reflexivity].
  unfold gaussian, bell. f_equal. f_equal. rewrite (sub_INR (i + h) j) by lia. rewrite !plus_INR, mult_INR. replace (INR 2) with 2 by (cbn; ring). replace (INR 1) with 1 by reflexivity. unfold Rdiv. f_equal; [field | f_equal; ring].
Qed.
Lemma raw_even N h s i j : (1 <= h)%nat -> (2 * h <= N)%nat -> raw N (2 * h) s i j = if Nat.ltb j (i + h) && Nat.leb i (j + h) then bell s (INR i - 1 / 2) (INR j) else 0.
Proof.
  intros H1 H. unfold raw. cbv zeta. rewrite Nat.min_r by assumption. replace ((2 * h - 1) / 2)%nat with (h - 1)%nat. 2: { replace (2 * h - 1)%nat with (1 + (h - 1) * 2)%nat by lia. rewrite Nat.div_add by lia. reflexivity. }
  destruct (Nat.leb_spec j (i + (h - 1))), (Nat.ltb_spec j (i + h)); try lia; cbn [andb]; [| reflexivity]. destruct (Nat.ltb_spec (i + (h - 1) - j) (2 * h)), (Nat.leb_spec i (j + h)); try lia; [| reflexivity].
  unfold gaussian, bell. f_equal. f_equal. rewrite (sub_INR (i + (h - 1)) j) by lia. rewrite plus_INR, (sub_INR h 1) by lia. rewrite mult_INR. replace (INR 2) with 2 by (cbn; ring). replace (INR 1) with 1 by reflexivity. unfold Rdiv. f_equal; [field | f_equal; ring].
Qed.
Lemma smoothed_raw N n s g x i : (1 <= n)%nat -> (i < N)%nat -> (forall j, raw N n s i j = g j) -> smoothed N (wt N n s) x i = rsum N (fun j => g j * x j) / rsum N g.
Proof.
  intros H I G. unfold smoothed, wt. rewrite (rsum_ext N (raw N n s i) g) by (intros; apply G). unfold Rdiv. rewrite <- rsum_scal_r. apply rsum_ext. intros j J. rewrite G. ring.
Qed.
(** a window of odd length: the weights are those of a Gaussian around the element *)
Theorem C152_centre N x smooth nsigma h y : (nsigma * smooth = 2 * h + 1)%nat -> (2 * h + 1 <= N)%nat -> gaussian_smooth_1d N x smooth nsigma = Some (N, y) -> forall i, (i < N)%nat ->
  let g := fun j => if Nat.leb j (i + h) && Nat.leb i (j + h) then bell (INR smooth) (INR i) (INR j) else 0 in y i = rsum N (fun j => g j * x j) / rsum N g.
Proof.
  unfold gaussian_smooth_1d. cbv zeta. intros E H. rewrite E. destruct (Nat.eqb_spec N 0); cbn [orb]; [discriminate |]. destruct (Nat.eqb_spec (2 * h + 1) 0); [discriminate |]. intros Y i I. injection Y as _ <-.
  rewrite smooth_val by lia. apply smoothed_raw; [lia | exact I |]. intro j. now apply raw_odd.
Qed.
(** FINDING: a window of even length, as the default of 200: the weights are those of a Gaussian around a point half an element before the element, so everything is moved by half an element *)
Theorem C152_shift_refuted N x smooth nsigma h y : (1 <= h)%nat -> (nsigma * smooth = 2 * h)%nat -> (2 * h <= N)%nat -> gaussian_smooth_1d N x smooth nsigma = Some (N, y) -> forall i, (i < N)%nat ->
  let g := fun j => if Nat.ltb j (i + h) && Nat.leb i (j + h) then bell (INR smooth) (INR i - 1 / 2) (INR j) else 0 in y i = rsum N (fun j => g j * x j) / rsum N g.
Proof.
  unfold gaussian_smooth_1d. cbv zeta. intros H1 E H. rewrite E. destruct (Nat.eqb_spec N 0); cbn [orb]; [discriminate |]. destruct (Nat.eqb_spec (2 * h) 0); [lia |]. intros Y i I. injection Y as _ <-.
  rewrite smooth_val by lia. apply smoothed_raw; [lia | exact I |]. intro j. now apply raw_even.
Qed.
(** with the defaults a unit in the element before contributes as one in the element itself, and one in the element after contributes less *)
Definition unit_at (a j : nat) : R := if Nat.eqb j a then 1 else 0.
Lemma smoothed_unit N w a i : (a < N)%nat -> smoothed N w (unit_at a) i = w i a.
Proof.
  intro A. unfold smoothed. rewrite (rsum_ext N _ (fun j => if Nat.eqb j a then w i a else 0)).
  - clear - A. induction N as [| N IH]; [lia |]. cbn [rsum]. destruct (Nat.eqb_spec N a) as [-> | D].
    + rewrite (rsum_ext a _ (fun _ => 0)); [rewrite rsum_zero; [ring | reflexivity] |]. intros j J. destruct (Nat.eqb_spec j a); [lia | reflexivity].
    + rewrite IH by lia. ring.
  - intros j J. unfold unit_at. destruct (Nat.eqb_spec j a) as [-> |]; ring.
Qed.
Lemma smooth_eq N x smooth nsigma y : gaussian_smooth_1d N x smooth nsigma = Some (N, y) -> forall i, (i < N)%nat -> y i = smoothed N (wt N (nsigma * smooth) (INR smooth)) x i.
Proof.
  unfold gaussian_smooth_1d. cbv zeta. destruct (Nat.eqb_spec N 0); cbn [orb]; [discriminate |]. destruct (Nat.eqb_spec (nsigma * smooth) 0); [discriminate |]. intros H i I. injection H as _ <-. apply smooth_val; lia.
Qed.
Theorem C152_asymmetric_refuted N i y0 y1 y2 : (200 <= N)%nat -> (S (S i) < N)%nat ->
  gaussian_smooth_1d N (unit_at i) 40 5 = Some (N, y0) -> gaussian_smooth_1d N (unit_at (S i)) 40 5 = Some (N, y1) -> gaussian_smooth_1d N (unit_at (S (S i))) 40 5 = Some (N, y2) ->
  y0 (S i) = y1 (S i) /\ y2 (S i) < y0 (S i).
Proof.
  assert (C : (5 * 40 = 2 * 100)%nat) by reflexivity. assert (S0 : 0 < INR 40) by (apply lt_0_INR; lia). assert (H100 : (100 <= 100)%nat) by lia. intros HN HI. assert (HN' : (2 * 100 <= N)%nat) by lia. assert (H2 : (2 <= 100)%nat) by lia. clear HN H100. revert C S0 HN' H2. generalize 100%nat. generalize 40%nat. intros sm h C S0 HN H2 Y0 Y1 Y2.
  rewrite (smooth_eq _ _ _ _ _ Y0), (smooth_eq _ _ _ _ _ Y1), (smooth_eq _ _ _ _ _ Y2) by lia. rewrite !smoothed_unit by lia. rewrite C. unfold wt. pose proof (norm_pos N (2 * h) (INR sm) (S i) ltac:(lia) ltac:(lia)) as NP.
  set (z := rsum N (raw N (2 * h) (INR sm) (S i))) in *. set (s := INR sm) in *. rewrite !raw_even by lia.
  destruct (Nat.ltb_spec i (S i + h)); [| lia]. destruct (Nat.leb_spec (S i) (i + h)); [| lia]. destruct (Nat.ltb_spec (S i) (S i + h)); [| lia]. destruct (Nat.leb_spec (S i) (S i + h)); [| lia].
  destruct (Nat.ltb_spec (S (S i)) (S i + h)); [| lia]. destruct (Nat.leb_spec (S i) (S (S i) + h)); [| lia]. cbn [andb]. unfold bell. rewrite !S_INR. assert (P : 0 < 2 * s ^ 2) by (pose proof (pow_lt s 2 S0); lra). split.
  - replace ((INR i - (INR i + 1 - 1 / 2)) ^ 2) with ((INR i + 1 - (INR i + 1 - 1 / 2)) ^ 2) by field. reflexivity.
  - unfold Rdiv. apply Rmult_lt_compat_r; [now apply Rinv_0_lt_compat |]. apply exp_increasing. apply Ropp_lt_contravar. apply Rmult_lt_compat_r; [now apply Rinv_0_lt_compat |]. nra.
Qed.
(** FINDING: data shorter than the window: the result has the length of the window *)
Theorem C152_short_refuted N x smooth nsigma : (1 <= N)%nat -> (N < nsigma * smooth)%nat -> exists y, gaussian_smooth_1d N x smooth nsigma = Some ((nsigma * smooth)%nat, y).
Proof.
  intros H1 H2. unfold gaussian_smooth_1d. cbv zeta. destruct (Nat.eqb_spec N 0); [lia |]. destruct (Nat.eqb_spec (nsigma * smooth) 0); [lia |]. cbn [orb]. rewrite Nat.max_r by lia. eexists. reflexivity.
Qed.
(** and a covariance of that size is not smoothed *)
Theorem C152_short_cov_refuted N cov smooth : (1 <= N)%nat -> (N < 5 * smooth)%nat -> smoothed_cov N cov smooth = None.
Proof.
  intros H1 H2. unfold smoothed_cov. assert (E : forall x, replaced N x smooth = None).
  { intro x. unfold replaced. destruct (C152_short_refuted N x smooth 5 H1 H2) as (y & ->). destruct (Nat.eqb_spec (5 * smooth) N); [lia | reflexivity]. }
  destruct N as [| N]; [lia |]. cbn [each_row]. destruct (each_row (S N) N cov smooth cov); rewrite ?E; reflexivity.
Qed.

(** ** Covariances *)
Lemma replaced_val N smooth : (1 <= smooth)%nat -> (5 * smooth <= N)%nat -> forall x, exists y, replaced N x smooth = Some y /\ forall i, (i < N)%nat -> y i = smoothed N (wt N (5 * smooth) (INR smooth)) x i.
Proof.
  intros H1 H2 x. unfold replaced, gaussian_smooth_1d. cbv zeta. destruct (Nat.eqb_spec N 0); [lia |]. destruct (Nat.eqb_spec (5 * smooth) 0); [lia |]. cbn [orb]. rewrite (Nat.max_l N) by assumption. rewrite Nat.eqb_refl.
  eexists. split; [reflexivity |]. intros i I. apply smooth_val; lia.
Qed.
Lemma each_row_val N smooth c : (1 <= smooth)%nat -> (5 * smooth <= N)%nat -> forall r out, exists o, each_row N r c smooth out = Some o /\
  forall i j, (j < N)%nat -> o i j = if Nat.ltb i r then smoothed N (wt N (5 * smooth) (INR smooth)) (c i) j else out i j.
Proof.
  intros H1 H2. induction r as [| r IH]; intro out; cbn [each_row]; [eexists; split; [reflexivity | reflexivity] |]. destruct (IH out) as (o & -> & O). destruct (replaced_val N smooth H1 H2 (c r)) as (y & -> & Y).
  eexists. split; [reflexivity |]. intros i j J. cbv beta. destruct (Nat.eqb_spec i r) as [-> | D].
  - destruct (Nat.ltb_spec r (S r)); [| lia]. now apply Y.
  - rewrite O by assumption. destruct (Nat.ltb_spec i r), (Nat.ltb_spec i (S r)); try lia; reflexivity.
Qed.
(** both indices are smoothed with the same weights *)
Theorem C152_cov N cov smooth : (1 <= smooth)%nat -> (5 * smooth <= N)%nat -> exists w, weights N w /\ exists c, smoothed_cov N cov smooth = Some c /\
  forall i j, (i < N)%nat -> (j < N)%nat -> c i j = rsum N (fun a => rsum N (fun b => w i a * cov a b * w j b)).
Proof.
  intros H1 H2. exists (wt N (5 * smooth) (INR smooth)). split; [apply wt_weights; lia |]. set (w := wt N (5 * smooth) (INR smooth)). unfold smoothed_cov.
  destruct (each_row_val N smooth cov H1 H2 N cov) as (s & -> & S1). destruct (each_row_val N smooth (fun i j => s j i) H1 H2 N (fun i j => s j i)) as (s2 & -> & S2). eexists. split; [reflexivity |]. intros i j I J. cbv beta.
  rewrite S2 by assumption. destruct (Nat.ltb_spec j N); [| lia]. unfold smoothed. fold w. apply rsum_ext. intros a A. rewrite S1 by assumption. destruct (Nat.ltb_spec a N); [| lia]. unfold smoothed. fold w.
  rewrite <- rsum_scal. apply rsum_ext. intros b B. ring.
Qed.
(** so a covariance stays one: symmetric, and with no negative variance *)
Theorem C152_cov_symmetric N cov smooth c : (1 <= smooth)%nat -> (5 * smooth <= N)%nat -> smoothed_cov N cov smooth = Some c ->
  (forall i j, (i < N)%nat -> (j < N)%nat -> cov i j = cov j i) -> forall i j, (i < N)%nat -> (j < N)%nat -> c i j = c j i.
Proof.
  intros H1 H2 H SY i j I J. destruct (C152_cov N cov smooth H1 H2) as (w & _ & c' & E & V). rewrite H in E. injection E as <-. rewrite !V by assumption. rewrite rsum_swap. apply rsum_ext. intros b B. apply rsum_ext. intros a A.
  rewrite (SY a b) by assumption. ring.
Qed.
Theorem C152_cov_positive N cov smooth c : (1 <= smooth)%nat -> (5 * smooth <= N)%nat -> smoothed_cov N cov smooth = Some c -> (forall d, 0 <= qform N cov d) -> forall d, 0 <= qform N c d.
Proof.
  intros H1 H2 H P d. destruct (C152_cov N cov smooth H1 H2) as (w & _ & c' & E & V). rewrite H in E. injection E as <-.
  assert (Q : qform N c d = qform N cov (fun a => rsum N (fun i => d i * w i a))).
  { unfold qform. transitivity (rsum N (fun i => rsum N (fun j => rsum N (fun a => rsum N (fun b => d i * w i a * cov a b * (d j * w j b)))))).
    - apply rsum_ext. intros i I. apply rsum_ext. intros j J. rewrite V by assumption. rewrite <- rsum_scal, <- rsum_scal_r. apply rsum_ext. intros a A. rewrite <- rsum_scal, <- rsum_scal_r. apply rsum_ext. intros b B. ring.
    - transitivity (rsum N (fun a => rsum N (fun b => rsum N (fun i => rsum N (fun j => d i * w i a * cov a b * (d j * w j b)))))).
      + rewrite (rsum_ext N _ (fun i => rsum N (fun a => rsum N (fun j => rsum N (fun b => d i * w i a * cov a b * (d j * w j b)))))) by (intros; apply rsum_swap). rewrite rsum_swap. apply rsum_ext. intros a A.
        rewrite (rsum_ext N _ (fun i => rsum N (fun b => rsum N (fun j => d i * w i a * cov a b * (d j * w j b))))) by (intros; apply rsum_swap). apply rsum_swap.
      + apply rsum_ext. intros a A. apply rsum_ext. intros b B. rewrite (Rmult_assoc (rsum N _)), (Rmult_comm (cov a b)), <- Rmult_assoc. rewrite (rsum_mult N N). rewrite <- rsum_scal_r. apply rsum_ext. intros i I. rewrite <- rsum_scal_r. apply rsum_ext. intros j J. ring. }
  rewrite Q. apply P.
Qed.

(** ** Examples *)
Example C152_ex_mean : exists w, weights 300 w.
Proof. destruct (C152_mean 300 40 5) as (w & W & _); [lia | lia | lia |]. now exists w. Qed.
Example C152_ex_constant : exists y, gaussian_smooth_1d 10 (fun _ => 7) 2 5 = Some (10%nat, y) /\ y 4%nat = 7.
Proof.
  destruct (C152_mean 10 2 5) as (w & W & H); [lia | lia | lia |]. destruct (H (fun _ => 7)) as (y & E & _). exists y. split; [exact E |].
  pose proof (C152_bounds 10 (fun _ => 7) 2 5 y 7 7 E (fun _ _ => conj (Rle_refl 7) (Rle_refl 7)) 4 ltac:(lia)). lra.
Qed.
Example C152_ex_short : exists y, gaussian_smooth_1d 10 (fun _ => 7) 40 5 = Some (200%nat, y).
Proof. apply (C152_short_refuted 10 (fun _ => 7) 40 5); lia. Qed.
Example C152_ex_centre : exists y, gaussian_smooth_1d 7 INR 1 5 = Some (7%nat, y) /\ y 3%nat = 3.
Proof.
  destruct (C152_mean 7 1 5) as (w & W & H); [lia | lia | lia |]. destruct (H INR) as (y & E & _). exists y. split; [exact E |]. rewrite (C152_centre 7 INR 1 5 2 y ltac:(lia) ltac:(lia) E 3 ltac:(lia)).
  cbn [rsum Nat.leb Nat.add andb]. unfold bell. cbn [INR]. replace (1 + 1 - (1 + 1 + 1)) with (-1) by ring. replace (1 - (1 + 1 + 1)) with (-2) by ring. replace (1 + 1 + 1 - (1 + 1 + 1)) with 0 by ring.
  replace (1 + 1 + 1 + 1 - (1 + 1 + 1)) with 1 by ring. replace (1 + 1 + 1 + 1 + 1 - (1 + 1 + 1)) with 2 by ring. replace ((-2) ^ 2) with (2 ^ 2) by ring. replace ((-1) ^ 2) with (1 ^ 2) by ring.
  pose proof (exp_pos (- (1 ^ 2 / (2 * 1 ^ 2)))). pose proof (exp_pos (- (2 ^ 2 / (2 * 1 ^ 2)))). pose proof (exp_pos (- (0 ^ 2 / (2 * 1 ^ 2)))). field. lra.
Qed.
Example C152_ex_asymmetric : exists y, gaussian_smooth_1d 300 (unit_at 7) 40 5 = Some (300%nat, y).
Proof. destruct (C152_mean 300 40 5) as (w & W & H); [lia | lia | lia |]. destruct (H (unit_at 7)) as (y & E & _). now exists y. Qed.
Example C152_ex_positive : forall d, 0 <= qform 1 (fun _ _ => 2) d.
Proof. intro d. unfold qform. cbn [rsum]. pose proof (Rle_0_sqr (d 0%nat)) as P. unfold Rsqr in P. lra. Qed.
Print Assumptions C152_mean.
Print Assumptions C152_cov.
Print Assumptions C152_shift_refuted.
