(** C134: the smoothed density of two parameters (get2DDensityGridData). *)
From Coq Require Import Reals ZArith Bool Lia Lra Arith List.
From Verif Require Import PyStr PyBase ConvModel ConvSpec ConvProofs ConvProps KdeModel KdeSpec KdeProofs KdeProps Kde2Model Kde2Spec Kde2Proofs.
Import ListNotations.
Local Open Scope R_scope.

(** ** The kernel *)
Theorem C134_inverse rx ry corr : 0 < rx -> 0 < ry -> -1 < corr < 1 -> exists c00 c11 c10, cinv rx ry corr = Ok (c00, c11, c10) /\
  ry ^ 2 * c00 + rx * ry * corr * c10 = 1 /\ ry ^ 2 * c10 + rx * ry * corr * c11 = 0 /\ rx * ry * corr * c00 + rx ^ 2 * c10 = 0 /\ rx * ry * corr * c10 + rx ^ 2 * c11 = 1 /\
  (forall d e, (d, e) <> (0, 0) -> 0 < d ^ 2 * c00 + e ^ 2 * c11 + 2 * c10 * d * e) /\ (corr = 0 -> c00 = / ry ^ 2 /\ c11 = / rx ^ 2 /\ c10 = 0).
Proof.
  intros X Y C. unfold cinv. set (det := ry ^ 2 * rx ^ 2 - (rx * ry * corr) ^ 2). assert (D : 0 < det). { unfold det. replace (ry ^ 2 * rx ^ 2 - (rx * ry * corr) ^ 2) with ((rx * ry) ^ 2 * (1 - corr ^ 2)) by ring. apply Rmult_lt_0_compat; [apply pow_lt; now apply Rmult_lt_0_compat | nra]. }
  destruct (Req_EM_T det 0); [lra |]. do 3 eexists. split; [reflexivity |].
  split; [unfold det in *; field; lra |]. split; [field; lra |]. split; [field; lra |]. split; [unfold det in *; field; lra |]. split.
  - intros d e NE. replace (_ + _) with (((rx * d - ry * e * corr) ^ 2 + (ry * e) ^ 2 * (1 - corr ^ 2)) / det) by (field; lra). apply Rdiv_lt_0_compat; [| exact D]. pose proof (pow2_ge_0 (rx * d - ry * e * corr)). pose proof (pow2_ge_0 (ry * e)). assert (0 < 1 - corr ^ 2) by nra.
    destruct (Req_EM_T e 0) as [-> | E].
    + assert (d <> 0) by congruence. replace (rx * d - ry * 0 * corr) with (rx * d) by ring. assert (rx * d <> 0) by (apply Rmult_integral_contrapositive_currified; lra). assert (0 < (rx * d) ^ 2) by (assert (0 < (rx * d) * (rx * d)) by nra; nra). nra.
    + assert (ry * e <> 0) by (apply Rmult_integral_contrapositive_currified; lra). assert (0 < (ry * e) ^ 2) by (assert (0 < (ry * e) * (ry * e)) by nra; nra). assert (0 < (ry * e) ^ 2 * (1 - corr ^ 2)) by (now apply Rmult_lt_0_compat). lra.
  - intros ->. unfold det. replace (rx * ry * 0) with 0 by ring. repeat split; field; lra.
Qed.
Theorem C134_singular rx ry corr : corr = 1 \/ corr = -1 -> cinv rx ry corr = Err LinAlgError.
Proof. intro H. unfold cinv. destruct (Req_EM_T _ 0) as [| NE]; [reflexivity |]. exfalso. apply NE. destruct H as [-> | ->]; ring. Qed.
Theorem C134_kernel w c00 c11 c10 : let W := win2 w c00 c11 c10 in let x (k : nat) := INR k - INR w in
  rsum (2 * w + 1) (fun i => rsum (2 * w + 1) (m_at W i)) = 1 /\
  forall i j, (i <= 2 * w)%nat -> (j <= 2 * w)%nat -> 0 < m_at W i j /\ m_at W i j = m_at W (2 * w - i) (2 * w - j) /\
    forall k q, (k <= 2 * w)%nat -> (q <= 2 * w)%nat -> m_at W i j / m_at W k q = exp ((x k ^ 2 * c00 + x q ^ 2 * c11 + 2 * c10 * x k * x q - (x i ^ 2 * c00 + x j ^ 2 * c11 + 2 * c10 * x i * x j)) / 2).
Proof.
  cbv zeta. assert (E : forall i j, m_at (win2 w c00 c11 c10) i j = k2 w c00 c11 c10 (Z.of_nat i - Z.of_nat w) (Z.of_nat j - Z.of_nat w)) by reflexivity. split.
  - rewrite <- (k2_sum w c00 c11 c10). reflexivity.
  - intros i j I J. rewrite !E. split; [apply k2_pos |]. split.
    + unfold k2, gauss2. do 2 f_equal. replace (Z.of_nat (2 * w - i) - Z.of_nat w)%Z with (- (Z.of_nat i - Z.of_nat w))%Z by lia. replace (Z.of_nat (2 * w - j) - Z.of_nat w)%Z with (- (Z.of_nat j - Z.of_nat w))%Z by lia. rewrite !opp_IZR. field.
    + intros k q HK HQ. rewrite !E. unfold k2. pose proof (gauss2_sum w c00 c11 c10). pose proof (gauss2_pos c00 c11 c10 (Z.of_nat k - Z.of_nat w) (Z.of_nat q - Z.of_nat w)).
      transitivity (gauss2 c00 c11 c10 (Z.of_nat i - Z.of_nat w) (Z.of_nat j - Z.of_nat w) * / gauss2 c00 c11 c10 (Z.of_nat k - Z.of_nat w) (Z.of_nat q - Z.of_nat w)); [field; lra |].
      unfold gauss2. rewrite <- exp_Ropp, <- exp_plus. f_equal. rewrite !minus_IZR, <- !INR_IZR_INZ. field.
Qed.
(** ** The density *)
Section Density.
Variables (order : Z) (n : nat) (l : lims) (w : nat) (c00 c11 c10 : R) (N : nat) (H : mat).
Let K := k2 w c00 c11 c10.
Let KP : forall d e, 0 < K d e := k2_pos w c00 c11 c10.
Hypothesis S : sizes2 N w.
Hypothesis SQ : square N H.
Hypothesis HH : nonneg2 N H.
Hypothesis HO : (order <= 1)%Z \/ has_prior l = false.
Lemma raw2_fits : fits2 w N H (raw2F order n l N w K (zat2 N H)).
Proof. apply bias2_fits; [exact KP | destruct S as (_ & ? & _); lia | exact HH |]. now apply Bd2_fits. Qed.
Theorem C134_density_partial : (exists i j, (i < N)%nat /\ (j < N)%nat /\ 0 < m_at H i j) ->
  exists D, kde2 order n l w c00 c11 c10 H = Ok D /\ square N D /\ (exists i j, (i < N)%nat /\ (j < N)%nat /\ m_at D i j = 1) /\
    forall i j, (i < N)%nat -> (j < N)%nat -> 0 <= m_at D i j <= 1 /\ (0 < m_at D i j <-> reached2 w N H (Z.of_nat i) (Z.of_nat j)).
Proof.
  intros (i0 & j0 & I0 & J0 & P0). destruct (raw2_ok order n l w c00 c11 c10 N H S SQ HH HO) as (r & E & RR). unfold kde2. rewrite E. cbn [bindR]. pose proof raw2_fits as F. fold K in RR. set (f := raw2F order n l N w K (zat2 N H)) in *. pose proof RR as (RS & RV). unfold normalize2. rewrite (rep_max N f r RR).
  assert (M : 0 < fmax N f).
  { apply Rlt_le_trans with (f (Z.of_nat i0) (Z.of_nat j0)); [| apply fmax_ge; unfold rng; lia]. apply F; try (unfold rng; lia). exists 0%Z, 0%Z. split; [lia |]. split; [lia |]. rewrite !Z.sub_0_r. unfold zat2. rewrite (proj2 (inside_iff N (Z.of_nat i0))), (proj2 (inside_iff N (Z.of_nat j0))) by (unfold rng; lia). cbn [andb]. now rewrite !Nat2Z.id. }
  destruct (Req_EM_T (fmax N f) 0); [lra |]. eexists. split; [reflexivity |]. split; [destruct RS; split; assumption |]. cbn [m_at]. split.
  - destruct (fmax_at N f ltac:(destruct S as (_ & ? & _); lia)) as (i & j & I & J & Q). unfold rng in *. exists (Z.to_nat i), (Z.to_nat j). split; [lia |]. split; [lia |]. rewrite RV by lia. rewrite !Z2Nat.id by lia. rewrite <- Q. field. lra.
  - intros i j I J. rewrite RV by assumption. destruct (F (Z.of_nat i) (Z.of_nat j) ltac:(unfold rng; lia) ltac:(unfold rng; lia)) as (F0 & FP). split; [split |].
    + apply Rmult_le_pos; [exact F0 | apply Rlt_le; now apply Rinv_0_lt_compat].
    + apply (Rmult_le_reg_r (fmax N f)); [exact M |]. unfold Rdiv. rewrite Rmult_assoc, Rinv_l, Rmult_1_r, Rmult_1_l by lra. apply fmax_ge; unfold rng; lia.
    + rewrite <- FP. split; intro Q; [| now apply Rdiv_lt_0_compat]. destruct (Rle_lt_or_eq_dec _ _ F0) as [L | L]; [exact L |]. rewrite <- L in Q. unfold Rdiv in Q. lra.
Qed.
Theorem C134_empty_partial : (forall i j, (i < N)%nat -> (j < N)%nat -> m_at H i j = 0) -> kde2 order n l w c00 c11 c10 H = Err NoSamples.
Proof.
  intro Z. destruct (raw2_ok order n l w c00 c11 c10 N H S SQ HH HO) as (r & E & RR). unfold kde2. rewrite E. cbn [bindR]. pose proof raw2_fits as F. fold K in RR. set (f := raw2F order n l N w K (zat2 N H)) in *. unfold normalize2. rewrite (rep_max N f r RR).
  destruct (Req_EM_T (fmax N f) 0) as [| NZ]; [reflexivity |]. exfalso. apply NZ. destruct (fmax_at N f ltac:(destruct S as (_ & ? & _); lia)) as (i & j & I & J & ->). destruct (F i j I J) as (F0 & FP). destruct (Rle_lt_or_eq_dec _ _ F0) as [L | L]; [| easy]. apply FP in L. destruct L as (d & e & _ & _ & Q). unfold zat2 in Q.
  destruct (inside N (i - d)) eqn:E1; [| cbn in Q; lra]. destruct (inside N (j - e)) eqn:E2; [| cbn in Q; lra]. cbn [andb] in Q. apply inside_iff in E1. apply inside_iff in E2. unfold rng in *. rewrite Z in Q by lia. lra.
Qed.
(** without limits: the samples seen through the kernel; the total is kept when they stay away from the edges *)
Theorem C134_plain : n = 0%nat -> (order < 0)%Z \/ has_prior l = false ->
  exists r, kde2_raw order n l w c00 c11 c10 H = Ok r /\ forall i j, (i < N)%nat -> (j < N)%nat -> m_at r i j = blur2 w K (zat2 N H) (Z.of_nat i) (Z.of_nat j).
Proof.
  intros -> HP. destruct (raw2_ok order 0 l w c00 c11 c10 N H S SQ HH HO) as (r & E & _ & RV). exists r. split; [exact E |]. intros i j I J. rewrite RV by assumption. unfold raw2F. cbn [bias2F]. unfold Bd2.
  replace (has_prior l && (0 <=? order)%Z) with false by (destruct HP as [HP | HP]; [destruct (Z.leb_spec 0 order); [lia | now rewrite andb_false_r] | now rewrite HP]). apply wsum2_ext. intros d e _ _. now rewrite gm2_00.
Qed.
(** order 0 divides by the part of the kernel inside the limits; order 1 has no bias for linear functions, but for the factor that keeps the density positive *)
Lemma blur_00 f i j : blur2 w (gm2 K 0 0) f i j = blur2 w K f i j.
Proof. apply wsum2_ext. intros d e _ _. now rewrite gm2_00. Qed.
Lemma above_cut f i j : rng N i -> rng N j -> (1 <= N)%nat -> (forall p q, rng N p -> rng N q -> blur2 w K f p q / 100000000 < blur2 w K (sh N l) i j * blur2 w K f i j) -> fmax N (b2 f w K 0 0) * eps8 < a2 N l w K 0 0 i j * b2 f w K 0 0 i j.
Proof.
  intros I J HN C. destruct (fmax_at N (b2 f w K 0 0) HN) as (p & q & P & Q & ->). unfold a2, b2. rewrite !blur_00. specialize (C p q P Q). unfold eps8, Rdiv in *. exact C.
Qed.
Theorem C134_normed_partial i j : let m := blur2 w K (zat2 N H) (Z.of_nat i) (Z.of_nat j) / blur2 w K (sh N l) (Z.of_nat i) (Z.of_nat j) in
  n = 0%nat -> order = 0%Z -> has_prior l = true -> (i < N)%nat -> (j < N)%nat ->
  (forall p q, rng N p -> rng N q -> blur2 w K (zat2 N H) p q / 100000000 < blur2 w K (sh N l) (Z.of_nat i) (Z.of_nat j) * blur2 w K (zat2 N H) (Z.of_nat i) (Z.of_nat j)) ->
  exists r, kde2_raw order n l w c00 c11 c10 H = Ok r /\ m_at r i j = m.
Proof.
  intros m HN0 HO0 HP I J C. subst n order. destruct (raw2_ok 0 0 l w c00 c11 c10 N H S SQ HH HO) as (r & E & _ & RV). exists r. split; [exact E |]. rewrite RV by assumption. unfold raw2F. cbn [bias2F]. unfold Bd2. rewrite HP. cbn [andb Z.leb Z.eqb Z.compare].
  fold K. destruct (Rlt_dec _ _) as [_ | NL]; [| exfalso; apply NL; apply above_cut; trivial; try (unfold rng; lia); destruct S as (_ & ? & _); lia]. unfold b2, a2, m. now rewrite !blur_00.
Qed.
Theorem C134_unbiased_partial i j k0 kx ky : let m := blur2 w K (zat2 N H) (Z.of_nat i) (Z.of_nat j) / blur2 w K (sh N l) (Z.of_nat i) (Z.of_nat j) in
  n = 0%nat -> order = 1%Z -> has_prior l = true -> (i < N)%nat -> (j < N)%nat ->
  (forall p q, rng N p -> rng N q -> blur2 w K (zat2 N H) p q / 100000000 < blur2 w K (sh N l) (Z.of_nat i) (Z.of_nat j) * blur2 w K (zat2 N H) (Z.of_nat i) (Z.of_nat j)) ->
  (forall d e, within w d -> within w e -> zat2 N H (Z.of_nat i - d) (Z.of_nat j - e) = sh N l (Z.of_nat i - d)%Z (Z.of_nat j - e)%Z * (k0 - ky * IZR d - kx * IZR e)) ->
  0 < m -> exists r, kde2_raw order n l w c00 c11 c10 H = Ok r /\ m_at r i j = m * exp (Rmin (k0 / m) 4 - 1) /\ (k0 <= 4 * m -> k0 <= m_at r i j).
Proof.
  intros m HN0 HO1 HP I J C HF M. subst n order. destruct (raw2_ok 1 0 l w c00 c11 c10 N H S SQ HH HO) as (r & E & _ & RV). exists r. split; [exact E |]. rewrite RV by assumption.
  assert (V : raw2F 1 0 l N w (k2 w c00 c11 c10) (zat2 N H) (Z.of_nat i) (Z.of_nat j) = tilt m 4 k0).
  { unfold raw2F. cbn [bias2F]. unfold Bd2. rewrite HP. cbn [andb Z.leb Z.eqb Z.compare Pos.eqb]. fold K. destruct (Rlt_dec _ _) as [_ | NL]; [| exfalso; apply NL; apply above_cut; trivial; try (unfold rng; lia); destruct S as (_ & ? & _); lia].
    assert (Q : b2 (zat2 N H) w K 0 0 (Z.of_nat i) (Z.of_nat j) / a2 N l w K 0 0 (Z.of_nat i) (Z.of_nat j) = m) by (unfold b2, a2, m; now rewrite !blur_00). cbv zeta. rewrite Q. f_equal.
    destruct (a2_pos K KP N l w (Z.of_nat i) (Z.of_nat j) S ltac:(unfold rng; lia) ltac:(unfold rng; lia)) as (_ & D). unfold cor2.
    assert (X : forall u v, b2 (zat2 N H) w K u v (Z.of_nat i) (Z.of_nat j) = k0 * a2 N l w K u v (Z.of_nat i) (Z.of_nat j) - ky * a2 N l w K u (v + 1) (Z.of_nat i) (Z.of_nat j) - kx * a2 N l w K (u + 1) v (Z.of_nat i) (Z.of_nat j)).
    { intros u v. unfold b2, a2, blur2. rewrite <- !wsum2_scal. transitivity (wsum2 w (fun d e => k0 * (gm2 K u v d e * sh N l (Z.of_nat i - d)%Z (Z.of_nat j - e)%Z)) + (-1) * wsum2 w (fun d e => ky * (gm2 K u (v + 1) d e * sh N l (Z.of_nat i - d)%Z (Z.of_nat j - e)%Z)) + (-1) * wsum2 w (fun d e => kx * (gm2 K (u + 1) v d e * sh N l (Z.of_nat i - d)%Z (Z.of_nat j - e)%Z))); [| ring].
      rewrite <- !(wsum2_scal w (-1)), <- !wsum2_plus. apply wsum2_ext. intros d e WD WE. rewrite (HF d e WD WE). unfold gm2. rewrite !pow_add. ring. }
    cbv zeta. rewrite !X. cbn [Nat.add]. unfold den2 in *. cbv zeta in D. field. lra. }
  fold K in V. unfold K in V. rewrite V. split; [reflexivity |]. intro HK. now apply tilt_ge.
Qed.
End Density.
(** an order that is not there is an error *)
Theorem C134_order order n l w c00 c11 c10 N H : sizes2 N w -> square N H -> has_prior l = true -> (1 < order)%Z -> kde2 order n l w c00 c11 c10 H = Err SettingError.
Proof.
  intros (S1 & S2 & S3) SQ HP HO. pose proof SQ as (SR & SC). unfold kde2, kde2_raw. pose proof (win2_kernel w c00 c11 c10) as KW. change (m_rows (win2 w c00 c11 c10)) with (2 * w + 1)%nat. rewrite SC. destruct (conv2_same N w _ H _ (N + 2 * w + (2 * w + 1)) KW SQ ltac:(lia) ltac:(lia)) as (B & -> & _). cbn [bindR]. unfold boundary2. rewrite HP. destruct (Z.leb_spec 0 order); [| lia]. cbn [andb]. rewrite SR, SC.
  destruct (conv2_valid N w _ _ _ (N + 2 * w + (2 * w + 1)) KW (mask_square l w false (N + 2 * w) (N + 2 * w)) ltac:(lia) ltac:(lia)) as (r00 & -> & _). cbn [bindR]. destruct (Z.eqb_spec order 1); [lia |]. destruct (Z.eqb_spec order 0); [lia | reflexivity].
Qed.
(** FINDING: a kernel of one bin (a width of at most a fifth of a bin) makes the mask of the multiplicative correction zero, as mask[-0:] is the whole array: the density is not a number, whatever the samples *)
Lemma matR_fail N f e : (1 <= N)%nat -> f 0%nat 0%nat = Err e -> matR N N f = Err e.
Proof. intros HN E. destruct N as [| N]; [lia |]. unfold matR. cbn [seq mapR bindR]. rewrite E. reflexivity. Qed.
Theorem C134_narrow_refuted order n c00 c11 c10 N H : (1 <= N)%nat -> (Z.of_nat (N + 1) <= 2013265920)%Z -> square N H -> nonneg2 N H -> kde2 order (S n) (mkLims false false false false) 0 c00 c11 c10 H = Err NotFinite.
Proof.
  intros HN B SQ HH. pose proof SQ as (SR & SC). unfold kde2, kde2_raw. pose proof (win2_kernel 0 c00 c11 c10) as KW. change (m_rows (win2 0 c00 c11 c10)) with 1%nat. rewrite SC. set (Win := win2 0 c00 c11 c10) in *. set (K := k2 0 c00 c11 c10) in *. assert (KP : forall d e, 0 < K d e) by (intros; apply k2_pos). replace (N + 2 * 0 + 1)%nat with (N + 1)%nat by lia.
  destruct (conv2_same N 0 _ H Win (N + 1) (KW0 K 0 Win KW) SQ HN ltac:(lia)) as (B0 & -> & RB). cbn [bindR]. unfold boundary2. cbn [has_prior x_bot x_top y_bot y_top orb andb bindR]. unfold mult_bias2. rewrite SR, SC.
  destruct (conv2_valid N 0 _ (edge_mask (mkLims false false false false) 0 true (ones (N + 2 * 0) (N + 2 * 0))) Win (N + 1) (KW0 K 0 Win KW) (mask_square _ 0 true _ _) HN ltac:(lia)) as (r00 & -> & RA). cbn [bindR bias2_loop]. rewrite SR, SC.
  pose proof (b2_fits K KP 0 N H HH) as F. change (blur2 0 (gm2 K 0 0) (zat2 N H)) with (b2 (zat2 N H) 0 K 0 0) in RB. pose proof (fits2_max 0 N H _ HN F) as M. pose proof eps8_pos. set (P0 := b2 (zat2 N H) 0 K 0 0) in *. clearbody P0. pose proof RB as (_ & BV).
  destruct (matR_ok N (fun i j => if Rlt_dec (mmax B0 * eps8) (m_at B0 i j) then rdivE (m_at H i j) (m_at B0 i j) else Ok (m_at H i j)) (box N (zat2 N H) P0)) as (bx & -> & BS & _).
  { intros i j I J. rewrite (rep_max N _ B0 RB), BV by assumption. unfold box, cut2. rewrite (proj2 (inside_iff N (Z.of_nat i))), (proj2 (inside_iff N (Z.of_nat j))) by (unfold rng; lia). cbn [andb]. unfold zat2. rewrite (proj2 (inside_iff N (Z.of_nat i))), (proj2 (inside_iff N (Z.of_nat j))) by (unfold rng; lia). cbn [andb]. rewrite !Nat2Z.id.
    destruct (Rlt_dec _ _) as [L | L]; [| reflexivity]. apply rdivE_ok. assert (0 <= fmax N P0 * eps8) by (apply Rmult_le_pos; lra). lra. }
  cbn [bindR]. destruct (conv2_same N 0 _ bx Win (N + 1) (KW0 K 0 Win KW) BS HN ltac:(lia)) as (c & -> & _). cbn [bindR].
  assert (Z : m_at r00 0 0 = 0).
  { destruct RA as (_ & RV). rewrite RV by lia. unfold blur2, wsum2, wsum. apply rsum_zero. intros p _. apply rsum_zero. intros q _. assert (forall x y, zat2 (N + 2 * 0) (edge_mask (mkLims false false false false) 0 true (ones (N + 2 * 0) (N + 2 * 0))) x y = 0) as ->; [| ring]. intros x y. unfold zat2. destruct (_ && _); reflexivity. }
  rewrite (matR_fail N _ NotFinite); [reflexivity | exact HN |]. unfold rdivE. rewrite Z. destruct (Req_EM_T 0 0); [reflexivity | lra].
Qed.
Theorem C134_narrow_width rx ry : 0 <= Rmax rx ry <= 1 / 5 -> winw_2D rx ry = 0%Z.
Proof.
  intro H. unfold winw_2D. pose proof (round_near (5 / 2 * Rmax rx ry)) as RN. assert (RB : -1 / 2 <= IZR (py_round (5 / 2 * Rmax rx ry)) <= 1) by (revert RN; unfold Rabs; destruct (Rcase_abs _); lra).
  assert (Q : (-1 < py_round (5 / 2 * Rmax rx ry) <= 1)%Z) by (split; [apply lt_IZR | apply le_IZR]; lra). destruct (Z.eq_dec (py_round (5 / 2 * Rmax rx ry)) 1) as [E | E]; [| lia]. exfalso.
  assert (Z.even (py_round (5 / 2 * Rmax rx ry)) = true) as EV. { apply round_half_even. rewrite E in *. revert RN. unfold Rabs. destruct (Rcase_abs _); lra. } rewrite E in EV. discriminate.
Qed.
(** ** Samples that are uniform up to all limits *)
Definition bounded : lims := mkLims true true true true.
Lemma share_le N b t i : 0 <= share N b t i <= 1.
Proof. split; [apply share_nonneg |]. unfold share. assert (P : forall on k, 0 <= part_above on k <= 1) by (intros on k; unfold part_above; destruct on; [| lra]; destruct (k <? 0)%Z; [lra |]; destruct (k =? 0)%Z; lra). destruct (P b i), (P t (Z.of_nat N - 1 - i)%Z). nra. Qed.
Theorem C134_flat_partial order n w c00 c11 c10 N H c : sizes2 N w -> square N H -> (0 <= order <= 1)%Z -> 0 < c ->
  (forall i j, (i < N)%nat -> (j < N)%nat -> m_at H i j = c * (if Nat.eqb i 0 || Nat.eqb i (N - 1) then 1 / 2 else 1) * (if Nat.eqb j 0 || Nat.eqb j (N - 1) then 1 / 2 else 1)) ->
  (forall i j, rng N i -> rng N j -> 1 / 10000 < blur2 w (k2 w c00 c11 c10) (sh N bounded) i j) ->
  exists D, kde2 order n bounded w c00 c11 c10 H = Ok D /\ square N D /\ forall i j, (i < N)%nat -> (j < N)%nat -> m_at D i j = 1.
Proof.
  intros S SQ HO C HB HA. pose proof S as (S1 & S2 & S3). set (K := k2 w c00 c11 c10) in *. assert (KP : forall d e, 0 < K d e) by (intros; apply k2_pos).
  assert (SH : forall p q, rng N p -> rng N q -> sh N bounded p q = (if Nat.eqb (Z.to_nat p) 0 || Nat.eqb (Z.to_nat p) (N - 1) then 1 / 2 else 1) * (if Nat.eqb (Z.to_nat q) 0 || Nat.eqb (Z.to_nat q) (N - 1) then 1 / 2 else 1)).
  { assert (ONE : forall p, rng N p -> share N true true p = if Nat.eqb (Z.to_nat p) 0 || Nat.eqb (Z.to_nat p) (N - 1) then 1 / 2 else 1).
    { intros p P. unfold rng in P. rewrite share_both by exact S2. destruct (Z.ltb_spec p 0); [lia |]. destruct (Z.leb_spec (Z.of_nat N) p); [lia |]. cbn [orb]. destruct (Z.eqb_spec p 0), (Z.eqb_spec p (Z.of_nat N - 1)), (Nat.eqb_spec (Z.to_nat p) 0), (Nat.eqb_spec (Z.to_nat p) (N - 1)); cbn [orb]; try lia; reflexivity. }
    intros p q P Q. unfold sh, share2, bounded. cbn [x_bot x_top y_bot y_top]. now rewrite !ONE. }
  assert (OUT : forall p q, inside N p && inside N q = false -> sh N bounded p q = 0).
  { intros p q Q. unfold sh, share2, bounded. cbn [x_bot x_top y_bot y_top]. rewrite !share_both by exact S2. unfold inside in Q. destruct (Z.ltb_spec p 0); [cbn [orb]; ring |]. destruct (Z.leb_spec (Z.of_nat N) p); [cbn [orb]; ring |]. destruct (Z.ltb_spec q 0); [cbn [orb]; ring |]. destruct (Z.leb_spec (Z.of_nat N) q); [cbn [orb]; ring |].
    exfalso. rewrite (proj2 (Z.leb_le 0 p)), (proj2 (Z.ltb_lt p (Z.of_nat N))), (proj2 (Z.leb_le 0 q)), (proj2 (Z.ltb_lt q (Z.of_nat N))) in Q by lia. discriminate. }
  assert (Z : forall p q, zat2 N H p q = c * sh N bounded p q).
  { intros p q. unfold zat2. destruct (inside N p && inside N q) eqn:E; [| rewrite OUT by exact E; ring]. apply andb_true_iff in E. destruct E as (E1 & E2). apply inside_iff in E1. apply inside_iff in E2. rewrite SH by assumption. unfold rng in *. rewrite HB by lia. ring. }
  assert (HH : nonneg2 N H). { intros i j I J. rewrite HB by assumption. apply Rmult_le_pos; [apply Rmult_le_pos; [lra |] |]; destruct (_ || _); lra. }
  assert (X : forall k m i j, b2 (zat2 N H) w K k m i j = c * a2 N bounded w K k m i j). { intros k m i j. unfold b2, a2, blur2. rewrite <- wsum2_scal. apply wsum2_ext. intros d e _ _. rewrite Z. ring. }
  assert (AU : forall i j, a2 N bounded w K 0 0 i j <= 1).
  { intros i j. unfold a2, blur2. assert (D : 0 <= wsum2 w (fun d e => K d e * (1 - sh N bounded (i - d)%Z (j - e)%Z))). { apply wsum2_nonneg. intros d e _ _. apply Rmult_le_pos; [apply Rlt_le, KP |]. unfold sh, share2. pose proof (share_le N (y_bot bounded) (y_top bounded) (i - d)). pose proof (share_le N (x_bot bounded) (x_top bounded) (j - e)). nra. }
    assert (E : wsum2 w (fun d e => K d e * (1 - sh N bounded (i - d)%Z (j - e)%Z)) = wsum2 w K - wsum2 w (fun d e => gm2 K 0 0 d e * sh N bounded (i - d)%Z (j - e)%Z)).
    { transitivity (wsum2 w K + (-1) * wsum2 w (fun d e => gm2 K 0 0 d e * sh N bounded (i - d)%Z (j - e)%Z)); [| ring]. rewrite <- wsum2_scal, <- wsum2_plus. apply wsum2_ext. intros d e _ _. rewrite gm2_00. ring. }
    rewrite E in D. unfold K at 1 in D. rewrite k2_sum in D. lra. }
  assert (AL : forall i j, rng N i -> rng N j -> 1 / 10000 < a2 N bounded w K 0 0 i j) by (intros i j I J; unfold a2; rewrite (blur_00 w c00 c11 c10); now apply HA).
  assert (B : forall i j, rng N i -> rng N j -> Bd2 order bounded N w K (zat2 N H) i j = c).
  { intros i j I J. destruct (a2_pos K KP N bounded w i j S I J) as (A0 & A1). unfold Bd2. change (has_prior bounded) with true. destruct (Z.leb_spec 0 order); [| lia]. cbn [andb].
    assert (L : fmax N (b2 (zat2 N H) w K 0 0) * eps8 < a2 N bounded w K 0 0 i j * b2 (zat2 N H) w K 0 0 i j).
    { destruct (fmax_at N (b2 (zat2 N H) w K 0 0) ltac:(lia)) as (p & q & P & Q & ->). rewrite !X. pose proof (AU p q). pose proof (AL i j I J). unfold eps8.
      assert (1 / 10000 * (1 / 10000) < a2 N bounded w K 0 0 i j * a2 N bounded w K 0 0 i j) by (apply Rmult_le_0_lt_compat; lra). assert (c * (1 / 10000 * (1 / 10000)) < c * (a2 N bounded w K 0 0 i j * a2 N bounded w K 0 0 i j)) by (apply Rmult_lt_compat_l; assumption).
      assert (c * a2 N bounded w K 0 0 p q <= c * 1) by (apply Rmult_le_compat_l; lra). lra. }
    destruct (Rlt_dec _ _) as [_ | NL]; [| contradiction]. rewrite X. cbv zeta. replace (c * a2 N bounded w K 0 0 i j / a2 N bounded w K 0 0 i j) with c by (field; lra).
    destruct (Z.eqb_spec order 1); [| reflexivity]. assert (COR : cor2 N bounded w K (zat2 N H) i j = c). { unfold cor2. cbv zeta. rewrite !X. unfold den2 in *. cbv zeta in A1. field. lra. }
    rewrite COR. unfold tilt. replace (c / c) with 1 by (field; lra). rewrite Rmin_left by lra. replace (1 - 1) with 0 by ring. rewrite exp_0. ring. }
  assert (F : forall i j, rng N i -> rng N j -> raw2F order n bounded N w K (zat2 N H) i j = c).
  { unfold raw2F. revert B. generalize (Bd2 order bounded N w K (zat2 N H)). induction n as [| n IH]; intros P B; [exact B |]. cbn [bias2F]. apply IH. intros i j I J. unfold step2. rewrite (B i j I J). pose proof (a2c_pos K KP N bounded w i j I J) as A.
    assert (FM : fmax N P = c) by (apply fmax_is; [exists i, j; auto | intros; rewrite B by assumption; lra]).
    replace (blur2 w (gm2 K 0 0) (box N (zat2 N H) P) i j) with (a2c N bounded w K i j); [field; lra |]. apply wsum2_ext. intros d e _ _. f_equal. unfold box, cut2. rewrite FM. destruct (inside N (i - d) && inside N (j - e)) eqn:E; [| reflexivity]. apply andb_true_iff in E. destruct E as (E1 & E2). apply inside_iff in E1. apply inside_iff in E2. rewrite B by assumption.
    destruct (Rlt_dec _ _) as [_ | NL]; [rewrite Z; field; lra |]. exfalso. apply NL. unfold eps8. lra. }
  destruct (raw2_ok order n bounded w c00 c11 c10 N H S SQ HH (or_introl (proj2 HO))) as (r & E & RR). unfold kde2. rewrite E. cbn [bindR]. fold K in RR. unfold normalize2. rewrite (rep_max N _ r RR).
  assert (FM : fmax N (raw2F order n bounded N w K (zat2 N H)) = c) by (apply fmax_is; [exists 0%Z, 0%Z; unfold rng; repeat split; try lia; apply F; unfold rng; lia | intros; rewrite F by assumption; lra]).
  rewrite FM. destruct (Req_EM_T c 0); [lra |]. eexists. split; [reflexivity |]. destruct RR as ((R1 & R2) & RV). split; [split; assumption |]. intros i j I J. cbn [m_at]. rewrite RV by assumption. rewrite F by (unfold rng; lia). field. lra.
Qed.
(** the kernel of uncorrelated parameters always has a quarter of its weight inside *)
Definition g1 (w : nat) (a : R) (d : Z) : R := exp (- (IZR d ^ 2 * a) / 2) / wsum w (fun d => exp (- (IZR d ^ 2 * a) / 2)).
Lemma g1_sum w a : 0 < wsum w (fun d => exp (- (IZR d ^ 2 * a) / 2)).
Proof. apply (wsum_pos w _ 0%Z); [intros; apply Rlt_le, exp_pos | lia | apply exp_pos]. Qed.
Lemma wsum_prod w f g : wsum2 w (fun d e => f d * g e) = wsum w f * wsum w g.
Proof. unfold wsum2. transitivity (wsum w (fun d => wsum w g * f d)); [apply wsum_ext; intros d _; rewrite (wsum_scal w (f d) g); ring |]. rewrite wsum_scal. ring. Qed.
Lemma k2_prod w a b d e : k2 w a b 0 d e = g1 w a d * g1 w b e.
Proof.
  pose proof (g1_sum w a). pose proof (g1_sum w b). unfold k2. assert (G : forall d e, gauss2 a b 0 d e = exp (- (IZR d ^ 2 * a) / 2) * exp (- (IZR e ^ 2 * b) / 2)) by (intros; unfold gauss2; rewrite <- exp_plus; f_equal; field).
  rewrite G. rewrite (wsum2_ext w _ (fun d e => exp (- (IZR d ^ 2 * a) / 2) * exp (- (IZR e ^ 2 * b) / 2))) by (intros; apply G). rewrite (wsum_prod w (fun d => exp (- (IZR d ^ 2 * a) / 2)) (fun e => exp (- (IZR e ^ 2 * b) / 2))). unfold g1. field. lra.
Qed.
Lemma share_mid N b t i : (0 < i < Z.of_nat N - 1)%Z -> share N b t i = 1.
Proof. intro I. unfold share, part_above. destruct (Z.ltb_spec i 0); [lia |]. destruct (Z.eqb_spec i 0); [lia |]. destruct (Z.ltb_spec (Z.of_nat N - 1 - i) 0); [lia |]. destruct (Z.eqb_spec (Z.of_nat N - 1 - i) 0); [lia |]. destruct b, t; ring. Qed.
Lemma share_end N b t i : (2 <= N)%nat -> rng N i -> 1 / 2 <= share N b t i.
Proof. intros HN I. unfold rng in I. unfold share, part_above. destruct (Z.ltb_spec i 0); [lia |]. destruct (Z.ltb_spec (Z.of_nat N - 1 - i) 0); [lia |]. destruct (Z.eqb_spec i 0), (Z.eqb_spec (Z.of_nat N - 1 - i) 0), b, t; try lia; lra. Qed.
Lemma share_pair N b t w i d : (2 <= N)%nat -> (2 * w + 1 <= N)%nat -> rng N i -> (0 <= d <= Z.of_nat w)%Z -> 1 <= share N b t (i - d) + share N b t (i + d).
Proof.
  intros HN HW I D. unfold rng in I. pose proof (share_nonneg N b t (i - d)). pose proof (share_nonneg N b t (i + d)).
  destruct (Z_lt_le_dec 0 (i - d)); [destruct (Z_lt_le_dec (i - d) (Z.of_nat N - 1)); [rewrite (share_mid N b t (i - d)) by lia; lra |] |].
  - assert (d = 0)%Z as -> by lia. replace (i - 0)%Z with i by ring. replace (i + 0)%Z with i by ring. pose proof (share_end N b t i HN I). lra.
  - destruct (Z.eq_dec (i - d) 0) as [Q | Q].
    + pose proof (share_end N b t (i - d) HN ltac:(unfold rng; lia)). pose proof (share_end N b t (i + d) HN ltac:(unfold rng; lia)). lra.
    + rewrite (share_mid N b t (i + d)) by lia. lra.
Qed.
Lemma half_weight w a N b t i : (2 <= N)%nat -> (2 * w + 1 <= N)%nat -> rng N i -> 1 / 2 <= wsum w (fun d => g1 w a d * share N b t (i - d)).
Proof.
  intros HN HW I. set (s := share N b t). pose proof (g1_sum w a) as G. assert (E : forall d, g1 w a (- d) = g1 w a d) by (intro d; unfold g1; do 3 f_equal; rewrite opp_IZR; ring).
  assert (T : wsum w (g1 w a) = 1). { transitivity (wsum w (fun d => / wsum w (fun d => exp (- (IZR d ^ 2 * a) / 2)) * exp (- (IZR d ^ 2 * a) / 2))); [apply wsum_ext; intros; unfold g1, Rdiv; ring |]. rewrite wsum_scal. field. lra. }
  assert (D : wsum w (fun d => g1 w a d * s (i - d)%Z) + wsum w (fun d => g1 w a d * s (i - d)%Z) = wsum w (fun d => g1 w a d * (s (i - d)%Z + s (i + d)%Z))).
  { rewrite <- (wsum_rev w (fun d => g1 w a d * s (i - d)%Z)) at 2. rewrite <- wsum_plus. apply wsum_ext. intros d _. rewrite E. replace (i - - d)%Z with (i + d)%Z by ring. ring. }
  assert (L : 0 <= wsum w (fun d => g1 w a d * (s (i - d)%Z + s (i + d)%Z - 1))).
  { apply wsum_nonneg. intros d WD. apply Rmult_le_pos; [apply Rlt_le; apply Rdiv_lt_0_compat; [apply exp_pos | exact G] |]. destruct (Z_le_gt_dec 0 d).
    - pose proof (share_pair N b t w i d HN HW I ltac:(lia)). unfold s. lra.
    - pose proof (share_pair N b t w i (- d) HN HW I ltac:(lia)) as Q. replace (i - - d)%Z with (i + d)%Z in Q by ring. replace (i + - d)%Z with (i - d)%Z in Q by ring. unfold s. lra. }
  assert (M : wsum w (fun d => g1 w a d * (s (i - d)%Z + s (i + d)%Z - 1)) = wsum w (fun d => g1 w a d * (s (i - d)%Z + s (i + d)%Z)) - wsum w (g1 w a)).
  { transitivity (wsum w (fun d => g1 w a d * (s (i - d)%Z + s (i + d)%Z)) + (-1) * wsum w (g1 w a)); [| ring]. rewrite <- wsum_scal, <- wsum_plus. apply wsum_ext. intros. ring. }
  rewrite M, <- D, T in L. lra.
Qed.
Theorem C134_inside w a b N l i j : (2 <= N)%nat -> (2 * w + 1 <= N)%nat -> rng N i -> rng N j -> 1 / 4 <= blur2 w (k2 w a b 0) (sh N l) i j.
Proof.
  intros HN HW I J. apply Rle_trans with (wsum w (fun d => g1 w a d * share N (y_bot l) (y_top l) (i - d)) * wsum w (fun e => g1 w b e * share N (x_bot l) (x_top l) (j - e))).
  - pose proof (half_weight w a N (y_bot l) (y_top l) i HN HW I). pose proof (half_weight w b N (x_bot l) (x_top l) j HN HW J). nra.
  - rewrite <- (wsum_prod w (fun d => g1 w a d * share N (y_bot l) (y_top l) (i - d)) (fun e => g1 w b e * share N (x_bot l) (x_top l) (j - e))). apply Req_le. apply wsum2_ext. intros d e _ _. rewrite k2_prod. unfold sh, share2. ring.
Qed.
(** ** The unit of the weights does not matter *)
Definition mscale (c : R) (m : mat) : mat := mkMat (m_rows m) (m_cols m) (fun i j => c * m_at m i j).
Lemma fmax_scale N c F G : (1 <= N)%nat -> 0 < c -> (forall i j, rng N i -> rng N j -> G i j = c * F i j) -> fmax N G = c * fmax N F.
Proof.
  intros HN C E. destruct (fmax_at N F HN) as (i & j & I & J & Q). apply fmax_is; [exists i, j; split; [exact I |]; split; [exact J |]; rewrite E by assumption; now rewrite Q |]. intros p q P P'. rewrite E by assumption. apply Rmult_le_compat_l; [lra |]. now apply fmax_ge.
Qed.
Lemma Bd2_scale order l N w K h h' c i j : (forall d e, 0 < K d e) -> sizes2 N w -> rng N i -> rng N j -> 0 < c -> (forall p q, h' p q = c * h p q) -> Bd2 order l N w K h' i j = c * Bd2 order l N w K h i j.
Proof.
  intros KP S I J C E. assert (X : forall k m i j, b2 h' w K k m i j = c * b2 h w K k m i j) by (intros; unfold b2, blur2; rewrite <- wsum2_scal; apply wsum2_ext; intros; rewrite E; ring).
  destruct (a2_pos K KP N l w i j S I J) as (A0 & A1). unfold Bd2. rewrite (fmax_scale N c (b2 h w K 0 0) (b2 h' w K 0 0)); [| destruct S; lia | exact C | intros; apply X]. rewrite X. destruct (_ && _); [| reflexivity]. set (M := fmax N (b2 h w K 0 0)). set (P := b2 h w K 0 0 i j). set (a := a2 N l w K 0 0 i j) in *.
  destruct (Rlt_dec (c * M * eps8) (a * (c * P))) as [L | L], (Rlt_dec (M * eps8) (a * P)) as [L' | L']; [| exfalso; apply L'; apply (Rmult_lt_reg_l c); lra | exfalso; apply L; apply (Rmult_lt_compat_l c) in L'; lra | reflexivity].
  cbv zeta. destruct (order =? 1)%Z; [| field; lra]. rewrite <- tilt_scale by exact C. f_equal; [field; lra |]. unfold cor2. cbv zeta. rewrite !X. field. lra.
Qed.

Lemma zat2_scale N c H p q : zat2 N (mscale c H) p q = c * zat2 N H p q.
Proof. unfold zat2, mscale. destruct (_ && _); cbn [m_at]; ring. Qed.
Lemma step2_scale l w N K H c h' P P' : (1 <= N)%nat -> 0 < c -> (forall p q, h' p q = c * zat2 N H p q) -> fits2 w N H P -> (forall i j, rng N i -> rng N j -> P' i j = c * P i j) ->
  (forall i j, rng N i -> rng N j -> 0 < zat2 N H i j -> fmax N P * eps8 < P i j) -> nonneg2 N H -> forall i j, rng N i -> rng N j -> step2 N l w K h' P' i j = c * step2 N l w K (zat2 N H) P i j.
Proof.
  intros HN C HE F E HC HH i j I J. unfold step2. rewrite (E i j I J). replace (blur2 w (gm2 K 0 0) (box N h' P') i j) with (blur2 w (gm2 K 0 0) (box N (zat2 N H) P) i j); [unfold Rdiv; ring |].
  apply wsum2_ext. intros d e _ _. f_equal. unfold box, cut2. destruct (inside N (i - d) && inside N (j - e)) eqn:Q; [| reflexivity]. apply andb_true_iff in Q. destruct Q as (Q1 & Q2). apply inside_iff in Q1. apply inside_iff in Q2. specialize (HC _ _ Q1 Q2). rewrite (fmax_scale N c P P' HN C E), (E _ _ Q1 Q2), HE.
  pose proof (fits2_max w N H P HN F). pose proof eps8_pos. pose proof (zat2_nonneg N H (i - d) (j - e) HH) as Z0. set (M := fmax N P) in *. set (u := P (i - d)%Z (j - e)%Z) in *. set (z := zat2 N H (i - d) (j - e)) in *. assert (0 <= M * eps8) by (apply Rmult_le_pos; lra).
  destruct (Rlt_dec (M * eps8) u) as [L' | L'].
  - destruct (Rlt_dec (c * M * eps8) (c * u)) as [L | L]; [field; lra |]. exfalso. apply L. apply (Rmult_lt_compat_l c) in L'; lra.
  - assert (z = 0) as -> by (destruct (Rle_lt_or_eq_dec _ _ Z0); [exfalso; apply L'; now apply HC | easy]). destruct (Rlt_dec (c * M * eps8) (c * u)); unfold Rdiv; ring.
Qed.
Theorem C134_scale_partial order n l w c00 c11 c10 N H c : sizes2 N w -> square N H -> nonneg2 N H -> (order <= 1)%Z \/ has_prior l = false -> 0 < c ->
  n = 0%nat \/ n = 1%nat /\ (forall r i j, kde2_raw order 0 l w c00 c11 c10 H = Ok r -> (i < N)%nat -> (j < N)%nat -> 0 < m_at H i j -> mmax r / 100000000 < m_at r i j) ->
  match kde2 order n l w c00 c11 c10 H, kde2 order n l w c00 c11 c10 (mscale c H) with
  | Ok D, Ok D' => square N D /\ square N D' /\ forall i j, (i < N)%nat -> (j < N)%nat -> m_at D' i j = m_at D i j
  | Err e, Err e' => e = e'
  | _, _ => False
  end.
Proof.
  intros S SQ HH HO C HN. pose proof S as (_ & S2 & _). assert (SQ' : square N (mscale c H)) by exact SQ. assert (HH' : nonneg2 N (mscale c H)) by (intros i j I J; apply Rmult_le_pos; [lra | now apply HH]).
  destruct (raw2_ok order n l w c00 c11 c10 N H S SQ HH HO) as (r & E & RR). destruct (raw2_ok order n l w c00 c11 c10 N (mscale c H) S SQ' HH' HO) as (r' & E' & RR'). unfold kde2. rewrite E, E'. cbn [bindR]. set (K := k2 w c00 c11 c10) in *. assert (KP : forall d e, 0 < K d e) by (intros; apply k2_pos).
  assert (B : forall i j, rng N i -> rng N j -> Bd2 order l N w K (zat2 N (mscale c H)) i j = c * Bd2 order l N w K (zat2 N H) i j) by (intros; apply Bd2_scale; trivial; apply zat2_scale).
  assert (F : forall i j, rng N i -> rng N j -> raw2F order n l N w K (zat2 N (mscale c H)) i j = c * raw2F order n l N w K (zat2 N H) i j).
  { destruct HN as [-> | (-> & HC)]; [exact B |]. intros i j I J. unfold raw2F. cbn [bias2F]. apply step2_scale; trivial; try lia; [apply zat2_scale | now apply Bd2_fits |]. clear i j I J. intros i j I J Z. destruct (raw2_ok order 0 l w c00 c11 c10 N H S SQ HH HO) as (r0 & E0 & R0). fold K in R0. unfold raw2F in R0. cbn [bias2F] in R0.
    unfold rng in *. specialize (HC r0 (Z.to_nat i) (Z.to_nat j) E0 ltac:(lia) ltac:(lia)). rewrite (rep_max N _ r0 R0) in HC. destruct R0 as (_ & RV0). rewrite RV0 in HC by lia. rewrite !Z2Nat.id in HC by lia. unfold eps8. apply HC. unfold zat2 in Z. destruct (_ && _); [exact Z | lra]. }
  unfold normalize2. rewrite (rep_max N _ r RR), (rep_max N _ r' RR'). rewrite (fmax_scale N c (raw2F order n l N w K (zat2 N H)) (raw2F order n l N w K (zat2 N (mscale c H)))) by (trivial; lia). set (M := fmax N (raw2F order n l N w K (zat2 N H))).
  destruct (Req_EM_T M 0) as [Q | Q], (Req_EM_T (c * M) 0) as [Q' | Q']; [reflexivity | apply Q'; rewrite Q; ring | destruct (Rmult_integral _ _ Q'); [lra | contradiction] |].
  destruct RR as (RS & RV), RR' as (RS' & RV'). split; [exact RS |]. split; [exact RS' |]. intros i j I J. cbn [m_at]. rewrite RV, RV' by assumption. rewrite F by (unfold rng; lia). field. split; [exact Q | lra].
Qed.
(** FINDING: bins below 10^-8 of the maximum keep their histogram in the multiplicative correction, so the density depends on the unit of the weights *)
Definition dots : mat := mkMat 4 4 (fun i j => if Nat.eqb i 0 && Nat.eqb j 0 then 1000000000 else if Nat.eqb i 3 && Nat.eqb j 3 then 1 else 0).
Definition nolims : lims := mkLims false false false false.
Lemma k2_even d e : k2 1 0 0 0 d e = 1 / 9.
Proof.
  assert (G : forall d e, gauss2 0 0 0 d e = 1) by (intros; unfold gauss2; rewrite <- exp_0; f_equal; field). unfold k2. rewrite G. rewrite (wsum2_ext 1 _ (fun _ _ => 1)) by (intros; apply G). unfold wsum2, wsum. cbn [rsum Nat.mul Nat.add]. lra.
Qed.
Lemma blur_even h i j : blur2 1 (gm2 (k2 1 0 0 0) 0 0) h i j = (h (i - -1)%Z (j - -1)%Z + h (i - -1)%Z (j - 0)%Z + h (i - -1)%Z (j - 1)%Z + (h (i - 0)%Z (j - -1)%Z + h (i - 0)%Z (j - 0)%Z + h (i - 0)%Z (j - 1)%Z) + (h (i - 1)%Z (j - -1)%Z + h (i - 1)%Z (j - 0)%Z + h (i - 1)%Z (j - 1)%Z)) / 9.
Proof. unfold blur2. rewrite (wsum2_ext 1 _ (fun d e => 1 / 9 * h (i - d)%Z (j - e)%Z)) by (intros; rewrite gm2_00, k2_even; reflexivity). unfold wsum2, wsum. cbn [rsum Nat.mul Nat.add Z.of_nat Pos.of_succ_nat Pos.succ]. change (0 - 1)%Z with (-1)%Z. change (1 - 1)%Z with 0%Z. change (2 - 1)%Z with 1%Z. lra. Qed.
Lemma dots_max : fmax 4 (b2 (zat2 4 dots) 1 (k2 1 0 0 0) 0 0) = 1000000000 / 9.
Proof.
  apply fmax_is.
  - exists 0%Z, 0%Z. unfold rng. split; [lia |]. split; [lia |]. unfold b2. rewrite blur_even. cbv -[IZR Rplus Rmult Rminus Ropp Rdiv Rinv]. idtac. lra.
  - intros i j I J. unfold rng in *. assert (QI : (i = 0 \/ i = 1 \/ i = 2 \/ i = 3)%Z) by lia. assert (QJ : (j = 0 \/ j = 1 \/ j = 2 \/ j = 3)%Z) by lia. unfold b2. rewrite blur_even.
    destruct QI as [-> | [-> | [-> | ->]]]; destruct QJ as [-> | [-> | [-> | ->]]]; cbv -[IZR Rplus Rmult Rminus Ropp Rdiv Rinv Rle]; lra.
Qed.
Lemma dots_step c : 0 < c -> let P := b2 (zat2 4 (mscale c dots)) 1 (k2 1 0 0 0) 0 0 in let s := step2 4 nolims 1 (k2 1 0 0 0) (zat2 4 (mscale c dots)) P in s 0%Z 0%Z = c * (1000000000 / 4) /\ s 3%Z 3%Z = c * c / 36.
Proof.
  intro C. cbv zeta. set (K := k2 1 0 0 0). set (h := zat2 4 (mscale c dots)). set (P := b2 h 1 K 0 0).
  assert (X : forall i j, P i j = c * b2 (zat2 4 dots) 1 K 0 0 i j) by (intros; unfold P, b2, blur2; rewrite <- wsum2_scal; apply wsum2_ext; intros; unfold h; rewrite zat2_scale; ring).
  assert (M : fmax 4 P = c * (1000000000 / 9)) by (rewrite (fmax_scale 4 c (b2 (zat2 4 dots) 1 K 0 0) P) by (trivial; lia || (intros; apply X)); unfold K; now rewrite dots_max).
  assert (B0 : forall p q, h p q = 0 -> box 4 h P p q = 0) by (intros p q Q; unfold box, cut2; destruct (_ && _); [| reflexivity]; destruct (Rlt_dec _ _); rewrite Q; [unfold Rdiv; ring | reflexivity]).
  assert (P0 : P 0%Z 0%Z = c * (1000000000 / 9)). { rewrite X. unfold b2, K. rewrite blur_even. f_equal. cbv -[IZR Rplus Rmult Rminus Ropp Rdiv Rinv]. lra. }
  assert (P3 : P 3%Z 3%Z = c / 9). { rewrite X. unfold b2, K. rewrite blur_even. replace (c / 9) with (c * (1 / 9)) by field. f_equal. cbv -[IZR Rplus Rmult Rminus Ropp Rdiv Rinv]. lra. }
  assert (HZ : forall p q, zat2 4 dots p q = 0 -> h p q = 0) by (intros p q Q; unfold h; rewrite zat2_scale, Q; ring).
  assert (X0 : box 4 h P 0%Z 0%Z = 9). { unfold box, cut2. change (inside 4 0 && inside 4 0) with true. cbn iota. rewrite M, P0. destruct (Rlt_dec _ _) as [_ | NL]; [| exfalso; apply NL; unfold eps8; lra]. unfold h. rewrite zat2_scale. replace (zat2 4 dots 0 0) with 1000000000 by reflexivity. field. lra. }
  assert (X3 : box 4 h P 3%Z 3%Z = c). { unfold box, cut2. change (inside 4 3 && inside 4 3) with true. cbn iota. rewrite M, P3. destruct (Rlt_dec _ _) as [L | _]; [exfalso; unfold eps8 in L; lra |]. unfold h. rewrite zat2_scale. replace (zat2 4 dots 3 3) with 1 by reflexivity. ring. }
  assert (A0 : a2c 4 nolims 1 K 0%Z 0%Z = 4 / 9). { unfold a2c, K. rewrite blur_even. cbv -[IZR Rplus Rmult Rminus Ropp Rdiv Rinv]. lra. }
  assert (A3 : a2c 4 nolims 1 K 3%Z 3%Z = 4 / 9). { unfold a2c, K. rewrite blur_even. cbv -[IZR Rplus Rmult Rminus Ropp Rdiv Rinv]. lra. }
  unfold step2. rewrite P0, P3, A0, A3. unfold K. rewrite !blur_even. fold K.
  change (0 - -1)%Z with 1%Z. change (0 - 0)%Z with 0%Z. change (0 - 1)%Z with (-1)%Z. change (3 - -1)%Z with 4%Z. change (3 - 0)%Z with 3%Z. change (3 - 1)%Z with 2%Z. rewrite X0, X3. rewrite !B0 by (apply HZ; reflexivity). split; field; lra.
Qed.
Theorem C134_scale_refuted : exists N w H c D D', sizes2 N w /\ square N H /\ nonneg2 N H /\ 0 < c /\ kde2 1 1 nolims w 0 0 0 H = Ok D /\ kde2 1 1 nolims w 0 0 0 (mscale c H) = Ok D' /\ ~ (forall i j, (i < N)%nat -> (j < N)%nat -> m_at D' i j = m_at D i j).
Proof.
  assert (S : sizes2 4 1) by (unfold sizes2; lia).
  assert (G : forall c, 0 < c -> nonneg2 4 (mscale c dots)). { intros c C i j _ _. unfold mscale, dots. cbn [m_at]. apply Rmult_le_pos; [lra |]. destruct (_ && _); [lra |]. destruct (_ && _); lra. }
  assert (V : forall c, 0 < c -> exists D M, kde2 1 1 nolims 1 0 0 0 (mscale c dots) = Ok D /\ M <> 0 /\ m_at D 0 0 = c * (1000000000 / 4) / M /\ m_at D 3 3 = c * c / 36 / M).
  { intros c C. destruct (raw2_ok 1 1 nolims 1 0 0 0 4 (mscale c dots) S ltac:(split; reflexivity) (G c C) (or_intror eq_refl)) as (r & E & RR). unfold kde2. rewrite E. cbn [bindR]. unfold normalize2. rewrite (rep_max 4 _ r RR). set (f := raw2F 1 1 nolims 4 1 (k2 1 0 0 0) (zat2 4 (mscale c dots))) in *.
    destruct (dots_step c C) as (D0 & D3). change (f 0%Z 0%Z = c * (1000000000 / 4)) in D0. change (f 3%Z 3%Z = c * c / 36) in D3. assert (f 0%Z 0%Z <= fmax 4 f) by (apply fmax_ge; unfold rng; lia). destruct (Req_EM_T (fmax 4 f) 0) as [Q | Q]; [exfalso; lra |].
    eexists. exists (fmax 4 f). split; [reflexivity |]. split; [exact Q |]. cbn [m_at]. destruct RR as (_ & RV). rewrite !RV by lia. cbn [Z.of_nat Pos.of_succ_nat Pos.succ]. now rewrite D0, D3. }
  destruct (V 1 ltac:(lra)) as (D & M & E & MN & D0 & D3). destruct (V 2 ltac:(lra)) as (D' & M' & E' & MN' & D0' & D3').
  exists 4%nat, 1%nat, (mscale 1 dots), 2, D, D'. split; [exact S |]. split; [split; reflexivity |]. split; [apply G; lra |]. split; [lra |]. split; [exact E |]. split.
  - rewrite <- E'. replace (mscale 2 (mscale 1 dots)) with (mscale 2 dots); [reflexivity |]. unfold mscale, dots. cbn [m_rows m_cols m_at]. f_equal. apply FunctionalExtensionality.functional_extensionality. intro i. apply FunctionalExtensionality.functional_extensionality. intro j. ring.
  - intro H. pose proof (H 0%nat 0%nat ltac:(lia) ltac:(lia)) as H0. pose proof (H 3%nat 3%nat ltac:(lia) ltac:(lia)) as H3. rewrite D0, D0' in H0. rewrite D3, D3' in H3. assert (Q : M' = 2 * M). { assert (H1 : 2 * (1000000000 / 4) / M' * (M * M') = 1 * (1000000000 / 4) / M * (M * M')) by (now rewrite H0). replace (2 * (1000000000 / 4) / M' * (M * M')) with (2 * (1000000000 / 4) * M) in H1 by (field; assumption). replace (1 * (1000000000 / 4) / M * (M * M')) with (1 * (1000000000 / 4) * M') in H1 by (field; assumption). lra. }
    rewrite Q in H3. replace (2 * 2 / 36 / (2 * M)) with (1 / 18 * / M) in H3 by (field; assumption). replace (1 * 1 / 36 / M) with (1 / 36 * / M) in H3 by (field; assumption). assert (/ M <> 0) by (now apply Rinv_neq_0_compat). lra.
Qed.
(** ** Exchange and reflection of the parameters *)
Definition transp (m : mat) : mat := mkMat (m_cols m) (m_rows m) (fun i j => m_at m j i).
Definition tlims (l : lims) : lims := mkLims (y_bot l) (y_top l) (x_bot l) (x_top l).
Definition flip (N : nat) (m : mat) : mat := mkMat (m_rows m) (m_cols m) (fun i j => m_at m i (N - 1 - j)).
Definition flims (l : lims) : lims := mkLims (x_top l) (x_bot l) (y_bot l) (y_top l).
Section Moved.
(** a motion of the grid: points, kernel offsets and powers *)
Variables (N w : nat) (mv : Z -> Z -> Z * Z) (K K' : Z -> Z -> R) (l l' : lims) (h h' : Z -> Z -> R).
Let on (F : Z -> Z -> R) (i j : Z) : R := F (fst (mv i j)) (snd (mv i j)).
Hypothesis HN : (1 <= N)%nat.
Hypothesis IN : forall i j, rng N i -> rng N j -> rng N (fst (mv i j)) /\ rng N (snd (mv i j)).
Hypothesis ON : forall p q, rng N p -> rng N q -> exists i j, rng N i /\ rng N j /\ mv i j = (p, q).
Hypothesis OUT : forall i j, inside N (fst (mv i j)) && inside N (snd (mv i j)) = inside N i && inside N j.
Hypothesis HP : has_prior l' = has_prior l.
Hypothesis HS : forall i j, sh N l' i j = on (sh N l) i j.
Hypothesis Hh : forall i j, h' i j = on h i j.
Hypothesis HB : forall f f', (forall i j, f' i j = on f i j) -> forall i j, blur2 w (gm2 K' 0 0) f' i j = on (blur2 w (gm2 K 0 0) f) i j.
Hypothesis HC : forall i j, cor2 N l' w K' h' i j = on (cor2 N l w K h) i j.
Lemma mv_max F F' : (forall i j, F' i j = on F i j) -> fmax N F' = fmax N F.
Proof.
  intro E. destruct (fmax_at N F HN) as (p & q & P & Q & M). destruct (ON p q P Q) as (i & j & I & J & V). apply fmax_is; [exists i, j; split; [exact I |]; split; [exact J |]; rewrite E; unfold on; rewrite V; now rewrite M |]. intros i' j' I' J'. rewrite E. unfold on. destruct (IN i' j' I' J'). now apply fmax_ge.
Qed.
Lemma Bd2_mv order i j : Bd2 order l' N w K' h' i j = on (Bd2 order l N w K h) i j.
Proof. unfold Bd2, on. rewrite (mv_max (b2 h w K 0 0) (b2 h' w K' 0 0)) by (apply HB; exact Hh). unfold a2, b2. rewrite HP, (HB h h' Hh i j), (HB (sh N l) (sh N l') HS i j), HC. reflexivity. Qed.
Lemma bias2_mv n : forall P P', (forall i j, P' i j = on P i j) -> forall i j, bias2F n N l' w K' h' P' i j = on (bias2F n N l w K h P) i j.
Proof.
  induction n as [| n IH]; intros P P' E i j; [apply E |]. cbn [bias2F]. apply IH. clear i j. intros i j. unfold step2 at 1. rewrite E. rewrite (HB (box N h P) (box N h' P')).
  - unfold a2c. rewrite (HB (cut2 N (sh N l)) (cut2 N (sh N l'))); [reflexivity |]. intros p q. unfold cut2, on. rewrite OUT, HS. reflexivity.
  - intros p q. unfold box, cut2, on. rewrite OUT, (mv_max P P' E), E, Hh. reflexivity.
Qed.
Lemma raw2_mv order n i j : raw2F order n l' N w K' h' i j = on (raw2F order n l N w K h) i j.
Proof. apply bias2_mv. intros p q. apply Bd2_mv. Qed.
End Moved.
(** ** Instances of the motion *)
Lemma rep_flat N F r i j : rep N F r -> (i < N)%nat -> (j < N)%nat -> m_at r i j = F (Z.of_nat i) (Z.of_nat j).
Proof. intros (_ & V) I J. now apply V. Qed.
Definition kswap (K : Z -> Z -> R) (d e : Z) : R := K e d.
Lemma k2_swap w c00 c11 c10 d e : k2 w c11 c00 c10 d e = k2 w c00 c11 c10 e d.
Proof.
  assert (G : forall p q, gauss2 c11 c00 c10 p q = gauss2 c00 c11 c10 q p) by (intros; unfold gauss2; f_equal; field).
  unfold k2. rewrite G. f_equal. rewrite <- (wsum2_swap w (gauss2 c00 c11 c10)). apply wsum2_ext. intros; apply G.
Qed.
Lemma k2_flip w c00 c11 c10 d e : k2 w c00 c11 (- c10) d e = k2 w c00 c11 c10 d (- e).
Proof.
  assert (G : forall p q, gauss2 c00 c11 (- c10) p q = gauss2 c00 c11 c10 p (- q)) by (intros; unfold gauss2; f_equal; rewrite opp_IZR; field).
  unfold k2. rewrite G. f_equal. unfold wsum2. apply wsum_ext. intros p _. rewrite <- (wsum_rev w (gauss2 c00 c11 c10 p)). apply wsum_ext. intros; apply G.
Qed.
Section Swap.
Variables (w : nat) (c00 c11 c10 : R).
Let K := k2 w c00 c11 c10.
Let K' := k2 w c11 c00 c10.
Lemma swap_blur k m f f' : (forall i j, f' i j = f j i) -> forall i j, blur2 w (gm2 K' k m) f' i j = blur2 w (gm2 K m k) f j i.
Proof. intros E i j. unfold blur2. rewrite <- wsum2_swap. apply wsum2_ext. intros d e _ _. rewrite E. unfold gm2, K', K. rewrite k2_swap. ring. Qed.
Lemma swap_raw order n l N H i j : (1 <= N)%nat -> raw2F order n (tlims l) N w K' (zat2 N (transp H)) i j = raw2F order n l N w K (zat2 N H) j i.
Proof.
  intro HN.
  assert (HS : forall i j, sh N (tlims l) i j = sh N l j i) by (intros; unfold sh, share2, tlims; cbn [x_bot x_top y_bot y_top]; ring).
  assert (Hh : forall i j, zat2 N (transp H) i j = zat2 N H j i) by (intros; unfold zat2, transp; cbn [m_at]; rewrite andb_comm; reflexivity).
  refine (raw2_mv N w (fun i j => (j, i)) K K' l (tlims l) (zat2 N H) (zat2 N (transp H)) HN _ _ _ _ HS Hh _ _ order n i j).
  - intros p q P Q. cbn [fst snd]. now split.
  - intros p q P Q. exists q, p. split; [exact Q |]. split; [exact P | reflexivity].
  - intros p q. cbn [fst snd]. apply andb_comm.
  - unfold has_prior, tlims. cbn [x_bot x_top y_bot y_top]. apply orb_comm.
  - intros f f' E p q. cbn [fst snd]. now apply swap_blur.
  - intros p q. cbn [fst snd]. unfold cor2, den2, a2, b2. rewrite !(swap_blur _ _ _ _ HS), !(swap_blur _ _ _ _ Hh). f_equal; ring.
Qed.
End Swap.
Section Flip.
Variables (w : nat) (c00 c11 c10 : R).
Let K := k2 w c00 c11 c10.
Let K' := k2 w c00 c11 (- c10).
Lemma flip_blur (M : Z) k m f f' : (forall i j, f' i j = f i (M - j)%Z) -> forall i j, blur2 w (gm2 K' k m) f' i j = (-1) ^ k * blur2 w (gm2 K k m) f i (M - j)%Z.
Proof.
  intros E i j. unfold blur2. rewrite <- wsum2_scal. unfold wsum2. apply wsum_ext. intros d _. rewrite <- wsum_rev. apply wsum_ext. intros e _. rewrite E. unfold gm2, K', K. rewrite k2_flip, opp_IZR. replace (- - e)%Z with e by ring. replace (M - (j - - e))%Z with (M - j - e)%Z by ring. replace (- IZR e) with (-1 * IZR e) by ring. rewrite Rpow_mult_distr. ring.
Qed.
Lemma flip_raw order n l N H i j : (1 <= N)%nat -> raw2F order n (flims l) N w K' (zat2 N (flip N H)) i j = raw2F order n l N w K (zat2 N H) i (Z.of_nat N - 1 - j).
Proof.
  intro HN. set (M := (Z.of_nat N - 1)%Z).
  assert (HI : forall j, inside N (M - j) = inside N j) by (intro q; unfold inside, M; destruct (Z.leb_spec 0 q), (Z.ltb_spec q (Z.of_nat N)), (Z.leb_spec 0 (Z.of_nat N - 1 - q)), (Z.ltb_spec (Z.of_nat N - 1 - q) (Z.of_nat N)); cbn [andb]; trivial; lia).
  assert (HS : forall i j, sh N (flims l) i j = sh N l i (M - j)) by (intros p q; unfold sh, share2, flims, share, M; cbn [x_bot x_top y_bot y_top]; replace (Z.of_nat N - 1 - (Z.of_nat N - 1 - q))%Z with q by ring; ring).
  assert (Hh : forall i j, zat2 N (flip N H) i j = zat2 N H i (M - j)). { intros p q. unfold zat2, flip. cbn [m_at]. rewrite HI. destruct (inside N p); [| reflexivity]. destruct (inside N q) eqn:Q; [| reflexivity]. cbn [andb]. apply inside_iff in Q. unfold rng in Q. f_equal. unfold M. lia. }
  refine (raw2_mv N w (fun i j => (i, (M - j)%Z)) K K' l (flims l) (zat2 N H) (zat2 N (flip N H)) HN _ _ _ _ HS Hh _ _ order n i j).
  - intros p q P Q. cbn [fst snd]. unfold rng, M in *. lia.
  - intros p q P Q. exists p, (M - q)%Z. unfold rng, M in *. repeat split; try lia. f_equal. lia.
  - intros p q. cbn [fst snd]. now rewrite HI.
  - unfold has_prior, flims. cbn [x_bot x_top y_bot y_top]. f_equal. apply orb_comm.
  - intros f f' E p q. cbn [fst snd]. rewrite (flip_blur M 0 0 f f' E). ring.
  - intros p q. cbn [fst snd]. unfold cor2, den2, a2, b2. rewrite !(flip_blur M _ _ _ _ HS), !(flip_blur M _ _ _ _ Hh). f_equal; ring.
Qed.
End Flip.
Lemma kde2_moved order n l l' w c00 c11 c10 d00 d11 d10 N H H' (mi mj : nat -> nat -> nat) : sizes2 N w -> square N H -> square N H' -> nonneg2 N H -> nonneg2 N H' -> (order <= 1)%Z \/ has_prior l = false -> has_prior l' = has_prior l ->
  (forall i j, (i < N)%nat -> (j < N)%nat -> (mi i j < N)%nat /\ (mj i j < N)%nat) ->
  (forall p q, (p < N)%nat -> (q < N)%nat -> exists i j, (i < N)%nat /\ (j < N)%nat /\ mi i j = p /\ mj i j = q) ->
  (forall i j, (i < N)%nat -> (j < N)%nat -> raw2F order n l' N w (k2 w d00 d11 d10) (zat2 N H') (Z.of_nat i) (Z.of_nat j) = raw2F order n l N w (k2 w c00 c11 c10) (zat2 N H) (Z.of_nat (mi i j)) (Z.of_nat (mj i j))) ->
  match kde2 order n l w c00 c11 c10 H, kde2 order n l' w d00 d11 d10 H' with
  | Ok D, Ok D' => square N D /\ square N D' /\ forall i j, (i < N)%nat -> (j < N)%nat -> m_at D' i j = m_at D (mi i j) (mj i j)
  | Err e, Err e' => e = e'
  | _, _ => False
  end.
Proof.
  intros S SQ SQ' G G' HO HP MI MO E. assert (HO' : (order <= 1)%Z \/ has_prior l' = false) by (rewrite HP; exact HO). assert (HN : (1 <= N)%nat) by (destruct S; lia).
  destruct (raw2_ok order n l w c00 c11 c10 N H S SQ G HO) as (r & E1 & RR). destruct (raw2_ok order n l' w d00 d11 d10 N H' S SQ' G' HO') as (r' & E1' & RR'). unfold kde2. rewrite E1, E1'. cbn [bindR]. unfold normalize2. rewrite (rep_max N _ r RR), (rep_max N _ r' RR').
  set (F := raw2F order n l N w _ _) in *. set (F' := raw2F order n l' N w _ _) in *.
  assert (M : fmax N F' = fmax N F).
  { destruct (fmax_at N F HN) as (p & q & P & Q & V). unfold rng in P, Q. destruct (MO (Z.to_nat p) (Z.to_nat q) ltac:(lia) ltac:(lia)) as (i & j & I & J & X & Y). apply fmax_is.
    - exists (Z.of_nat i), (Z.of_nat j). unfold rng. split; [lia |]. split; [lia |]. rewrite E by assumption. rewrite X, Y, V. f_equal; lia.
    - intros a b A B. unfold rng in A, B. specialize (E (Z.to_nat a) (Z.to_nat b) ltac:(lia) ltac:(lia)). rewrite !Z2Nat.id in E by lia. rewrite E. destruct (MI (Z.to_nat a) (Z.to_nat b) ltac:(lia) ltac:(lia)). apply fmax_ge; unfold rng; lia. }
  rewrite M. destruct (Req_EM_T (fmax N F) 0); [reflexivity |]. destruct RR as (Q & V). destruct RR' as (Q' & V'). split; [exact Q |]. split; [exact Q' |]. intros i j I J. cbn [m_at]. rewrite V' by assumption. destruct (MI i j I J). rewrite V by assumption. now rewrite E.
Qed.
(** the parameters exchanged: the density is transposed *)
Theorem C134_transpose order n l w c00 c11 c10 N H : sizes2 N w -> square N H -> nonneg2 N H -> (order <= 1)%Z \/ has_prior l = false ->
  match kde2 order n l w c00 c11 c10 H, kde2 order n (tlims l) w c11 c00 c10 (transp H) with
  | Ok D, Ok D' => square N D /\ square N D' /\ forall i j, (i < N)%nat -> (j < N)%nat -> m_at D' i j = m_at D j i
  | Err e, Err e' => e = e'
  | _, _ => False
  end.
Proof.
  intros S SQ G HO. apply (kde2_moved order n l (tlims l) w c00 c11 c10 c11 c00 c10 N H (transp H) (fun i j => j) (fun i j => i)); trivial.
  - destruct SQ. now split.
  - intros i j I J. now apply G.
  - unfold has_prior, tlims. cbn [x_bot x_top y_bot y_top]. apply orb_comm.
  - intros. now split.
  - intros p q P Q. exists q, p. auto.
  - intros i j I J. apply swap_raw. destruct S; lia.
Qed.
(** x counted from the other end: the correlation changes sign and the density is reversed *)
Theorem C134_mirror order n l w c00 c11 c10 N H : sizes2 N w -> square N H -> nonneg2 N H -> (order <= 1)%Z \/ has_prior l = false ->
  match kde2 order n l w c00 c11 c10 H, kde2 order n (flims l) w c00 c11 (- c10) (flip N H) with
  | Ok D, Ok D' => square N D /\ square N D' /\ forall i j, (i < N)%nat -> (j < N)%nat -> m_at D' i j = m_at D i (N - 1 - j)
  | Err e, Err e' => e = e'
  | _, _ => False
  end.
Proof.
  intros S SQ G HO. apply (kde2_moved order n l (flims l) w c00 c11 c10 c00 c11 (- c10) N H (flip N H) (fun i j => i) (fun i j => N - 1 - j)%nat); trivial.
  - intros i j I J. apply G; lia.
  - unfold has_prior, flims. cbn [x_bot x_top y_bot y_top]. f_equal. apply orb_comm.
  - intros. lia.
  - intros p q P Q. exists p, (N - 1 - q)%nat. lia.
  - intros i j I J. rewrite flip_raw by (destruct S; lia). f_equal; lia.
Qed.
(** a kernel without correlation no wider than the grid keeps enough inside, so flat samples give a flat density *)
Theorem C134_flat order n w a b N H c : sizes2 N w -> (2 * w + 1 <= N)%nat -> square N H -> (0 <= order <= 1)%Z -> 0 < c ->
  (forall i j, (i < N)%nat -> (j < N)%nat -> m_at H i j = c * (if Nat.eqb i 0 || Nat.eqb i (N - 1) then 1 / 2 else 1) * (if Nat.eqb j 0 || Nat.eqb j (N - 1) then 1 / 2 else 1)) ->
  exists D, kde2 order n bounded w a b 0 H = Ok D /\ square N D /\ forall i j, (i < N)%nat -> (j < N)%nat -> m_at D i j = 1.
Proof.
  intros S W SQ HO C HH. apply (C134_flat_partial order n w a b 0 N H c S SQ HO C HH). intros i j I J. pose proof (C134_inside w a b N bounded i j ltac:(destruct S; lia) W I J). lra.
Qed.

(** ** Examples *)
Definition slope3 : mat := mkMat 3 3 (fun i j => sh 3 bounded (Z.of_nat i) (Z.of_nat j) * (4 + INR i + 2 * INR j)).
Example slope3_sizes : sizes2 3 1 /\ square 3 slope3 /\ (exists i j, (i < 3)%nat /\ (j < 3)%nat /\ 0 < m_at slope3 i j) /\ has_prior bounded = true /\ has_prior nolims = false.
Proof. split; [unfold sizes2; lia |]. split; [split; reflexivity |]. split; [exists 1%nat, 1%nat; split; [lia |]; split; [lia |]; cbv -[IZR Rplus Rmult Rminus Ropp Rdiv Rinv Rlt INR]; change (INR 1) with 1; lra |]. split; reflexivity. Qed.
Example slope3_nonneg : nonneg2 3 slope3.
Proof. intros i j _ _. unfold slope3. cbn [m_at]. apply Rmult_le_pos; [unfold sh, share2; apply Rmult_le_pos; apply share_nonneg |]. pose proof (pos_INR i). pose proof (pos_INR j). lra. Qed.
Lemma blur3 h i j : blur2 1 (k2 1 0 0 0) h i j = (h (i - -1)%Z (j - -1)%Z + h (i - -1)%Z (j - 0)%Z + h (i - -1)%Z (j - 1)%Z + (h (i - 0)%Z (j - -1)%Z + h (i - 0)%Z (j - 0)%Z + h (i - 0)%Z (j - 1)%Z) + (h (i - 1)%Z (j - -1)%Z + h (i - 1)%Z (j - 0)%Z + h (i - 1)%Z (j - 1)%Z)) / 9.
Proof. rewrite <- blur_even. unfold blur2. apply wsum2_ext. intros. now rewrite gm2_00. Qed.
Example slope3_cut : forall p q, rng 3 p -> rng 3 q -> blur2 1 (k2 1 0 0 0) (zat2 3 slope3) p q / 100000000 < blur2 1 (k2 1 0 0 0) (sh 3 bounded) 1 1 * blur2 1 (k2 1 0 0 0) (zat2 3 slope3) 1 1.
Proof.
  intros p q P Q. rewrite !blur3. unfold rng in *. assert (PP : (p = 0 \/ p = 1 \/ p = 2)%Z) by lia. assert (QQ : (q = 0 \/ q = 1 \/ q = 2)%Z) by lia.
  destruct PP as [-> | [-> | ->]]; destruct QQ as [-> | [-> | ->]]; cbv -[IZR Rplus Rmult Rminus Ropp Rdiv Rinv Rlt INR]; change (INR 2) with (1 + 1); change (INR 1) with 1; change (INR 0) with 0; lra.
Qed.
Example slope3_linear : forall d e, within 1 d -> within 1 e -> zat2 3 slope3 (Z.of_nat 1 - d) (Z.of_nat 1 - e) = sh 3 bounded (Z.of_nat 1 - d)%Z (Z.of_nat 1 - e)%Z * (7 - 1 * IZR d - 2 * IZR e).
Proof.
  intros d e D E. unfold within in *. assert (DD : (d = -1 \/ d = 0 \/ d = 1)%Z) by lia. assert (EE : (e = -1 \/ e = 0 \/ e = 1)%Z) by lia.
  destruct DD as [-> | [-> | ->]]; destruct EE as [-> | [-> | ->]]; cbv -[IZR Rplus Rmult Rminus Ropp Rdiv Rinv INR]; change (INR 2) with (1 + 1); change (INR 1) with 1; change (INR 0) with 0; lra.
Qed.
(** the correction restores the value 7 of the plane in the middle *)
Example slope3_middle : exists r, kde2_raw 0 0 bounded 1 0 0 0 slope3 = Ok r /\ m_at r 1 1 = 7.
Proof.
  destruct slope3_sizes as (S & SQ & _). assert (O : (0 <= 1)%Z \/ has_prior bounded = false) by (left; lia). assert (I : (1 < 3)%nat) by lia.
  pose proof (C134_normed_partial 0 0 bounded 1 0 0 0 3 slope3 S SQ slope3_nonneg O 1 1) as T. cbv zeta in T. specialize (T eq_refl eq_refl eq_refl I I). change (Z.of_nat 1) with 1%Z in T. specialize (T slope3_cut). destruct T as (r & E & V). exists r. split; [exact E |]. rewrite V. clear.
  assert (A : blur2 1 (k2 1 0 0 0) (sh 3 bounded) 1 1 = 4 / 9) by (rewrite blur3; cbv -[IZR Rplus Rmult Rminus Ropp Rdiv Rinv INR]; lra).
  assert (B : blur2 1 (k2 1 0 0 0) (zat2 3 slope3) 1 1 = 28 / 9) by (rewrite blur3; cbv -[IZR Rplus Rmult Rminus Ropp Rdiv Rinv INR]; change (INR 2) with (1 + 1); change (INR 1) with 1; change (INR 0) with 0; lra).
  rewrite A, B. lra.
Qed.
Example inverse_some : cinv 1 1 (1 / 2) = Ok (4 / 3, 4 / 3, - (2 / 3)).
Proof. unfold cinv. cbv zeta. destruct (Req_EM_T _ 0) as [Q | _]; [exfalso; lra |]. do 2 f_equal; [f_equal |]; field. Qed.
Example flat3 : exists D, kde2 1 2 bounded 1 1 1 0 (mkMat 3 3 (fun i j => 2 * (if Nat.eqb i 0 || Nat.eqb i 2 then 1 / 2 else 1) * (if Nat.eqb j 0 || Nat.eqb j 2 then 1 / 2 else 1))) = Ok D /\ square 3 D /\ forall i j, (i < 3)%nat -> (j < 3)%nat -> m_at D i j = 1.
Proof. apply (C134_flat 1 2 1 1 1 3 _ 2); [unfold sizes2; lia | lia | split; reflexivity | lia | lra |]. intros i j _ _. reflexivity. Qed.
Print Assumptions C134_inverse.
Print Assumptions C134_singular.
Print Assumptions C134_kernel.
Print Assumptions C134_density_partial.
Print Assumptions C134_empty_partial.
Print Assumptions C134_plain.
Print Assumptions C134_normed_partial.
Print Assumptions C134_unbiased_partial.
Print Assumptions C134_order.
Print Assumptions C134_narrow_refuted.
Print Assumptions C134_narrow_width.
Print Assumptions C134_flat_partial.
Print Assumptions C134_flat.
Print Assumptions C134_inside.
Print Assumptions C134_scale_partial.
Print Assumptions C134_scale_refuted.
Print Assumptions C134_transpose.
Print Assumptions C134_mirror.
