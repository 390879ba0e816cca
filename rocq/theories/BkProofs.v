(** Lemmas for foregrounds of B modes. *)
From Coq Require Import Reals Lia Lra Bool.
From Verif Require Import PyStr CnvgModel ConvModel StatModel StatSpec StatProofs CnvgSpec CnvgProofs BkModel BkSpec.
From Coq Require Import List.
Import ListNotations.
Local Open Scope R_scope.

Lemma GK_pos : 0 < Ghz_Kelvin.
Proof.
  assert (T : forall n, 0 < 10 ^ n) by (intro; apply pow_lt; lra). unfold Ghz_Kelvin, planck_h, kB. apply Rmult_lt_0_compat; [| apply T]. apply Rdiv_lt_0_compat; apply Rdiv_lt_0_compat; try apply T; lra.
Qed.
Lemma T_pos : 0 < T_CMB. Proof. unfold T_CMB. lra. Qed.
Lemma posb_true x : 0 < x -> posb x = true. Proof. intro. unfold posb. destruct (Rlt_dec 0 x); [reflexivity | contradiction]. Qed.
Lemma zerob_false x : x <> 0 -> zerob x = false. Proof. intro. unfold zerob. destruct (Req_EM_T x 0); [contradiction | reflexivity]. Qed.
Lemma zerob_true x : x = 0 -> zerob x = true. Proof. intro. unfold zerob. destruct (Req_EM_T x 0); [reflexivity | contradiction]. Qed.
Lemma nonneg_true x : 0 <= x -> nonneg x = true. Proof. intro. unfold nonneg. destruct (Rle_dec 0 x); [reflexivity | contradiction]. Qed.
Lemma exp_gt1 x : 0 < x -> 1 < exp x. Proof. intro. rewrite <- exp_0. now apply exp_increasing. Qed.
Lemma expm1_nz x T : x <> 0 -> T <> 0 -> exp (Ghz_Kelvin * x / T) - 1 <> 0.
Proof.
  intros X N E. assert (Q : exp (Ghz_Kelvin * x / T) = exp 0) by (rewrite exp_0; lra). apply exp_inv in Q. pose proof GK_pos. apply Rmult_integral in Q. destruct Q as [Q | Q]; [apply Rmult_integral in Q; lra |]. now apply (Rinv_neq_0_compat T).
Qed.
Lemma x3beta x beta : 0 < x -> Rpower x (3 + beta) = x ^ 3 * Rpower x beta.
Proof. intro. rewrite Rpower_plus. f_equal. replace 3 with (INR 3) by (cbn; ring). now apply Rpower_pow. Qed.
Lemma x2beta x beta : 0 < x -> Rpower x (2 + beta) = x ^ 2 * Rpower x beta.
Proof. intro. rewrite Rpower_plus. f_equal. replace 2 with (INR 2) at 1 by (cbn; ring). now apply Rpower_pow. Qed.
Lemma greybody_eq beta T x : 0 < x -> Rpower x (3 + beta) / (exp (Ghz_Kelvin * x / T) - 1) = greybody beta T x.
Proof. intro. rewrite x3beta by assumption. unfold greybody, brightness, Rdiv. ring. Qed.
Lemma thermo_pos x : 0 < x -> 0 < thermo x.
Proof. intro P. unfold thermo. apply Rdiv_lt_0_compat; [apply Rmult_lt_0_compat; [now apply pow_lt | apply exp_pos] |]. rewrite <- Rsqr_pow2. apply Rsqr_pos_lt. apply expm1_nz; [lra | pose proof T_pos; lra]. Qed.
(** thermo is the derivative of the brightness up to a constant *)
Lemma thermo_change x : 0 < x -> derivable_pt_lim (brightness x) T_CMB (Ghz_Kelvin / T_CMB ^ 2 * thermo x).
Proof.
  intro X. pose proof T_pos as TP. assert (N : exp (Ghz_Kelvin * x / T_CMB) - 1 <> 0) by (apply expm1_nz; lra).
  assert (D1 : derivable_pt_lim (fun T => Ghz_Kelvin * x / T) T_CMB (- (Ghz_Kelvin * x) / T_CMB ^ 2)).
  { replace (- (Ghz_Kelvin * x) / T_CMB ^ 2) with ((0 * T_CMB - 1 * (Ghz_Kelvin * x)) / Rsqr T_CMB) by (unfold Rsqr; field; lra). apply (derivable_pt_lim_div (fct_cte (Ghz_Kelvin * x)) id); [apply derivable_pt_lim_const | apply derivable_pt_lim_id | unfold id; lra]. }
  assert (D2 : derivable_pt_lim (fun T => exp (Ghz_Kelvin * x / T) - 1) T_CMB (exp (Ghz_Kelvin * x / T_CMB) * (- (Ghz_Kelvin * x) / T_CMB ^ 2) - 0)).
  { apply (derivable_pt_lim_minus (comp exp (fun T => Ghz_Kelvin * x / T)) (fct_cte 1)); [| apply derivable_pt_lim_const]. apply (derivable_pt_lim_comp (fun T => Ghz_Kelvin * x / T) exp); [exact D1 | apply derivable_pt_lim_exp]. }
  replace (Ghz_Kelvin / T_CMB ^ 2 * thermo x) with ((0 * (exp (Ghz_Kelvin * x / T_CMB) - 1) - (exp (Ghz_Kelvin * x / T_CMB) * (- (Ghz_Kelvin * x) / T_CMB ^ 2) - 0) * x ^ 3) / Rsqr (exp (Ghz_Kelvin * x / T_CMB) - 1)).
  - unfold brightness. apply (derivable_pt_lim_div (fct_cte (x ^ 3)) (fun T => exp (Ghz_Kelvin * x / T) - 1)); [apply derivable_pt_lim_const | exact D2 | exact N].
  - unfold thermo, Rsqr. field. split; first [exact N | lra].
Qed.
Lemma change_eq dB x : is_change dB -> 0 < x -> dB x = Ghz_Kelvin / T_CMB ^ 2 * thermo x.
Proof. intros D X. apply (uniqueness_limite (brightness x) T_CMB); [now apply D | now apply thermo_change]. Qed.
Lemma const_pos : 0 < Ghz_Kelvin / T_CMB ^ 2.
Proof. apply Rdiv_lt_0_compat; [apply GK_pos | apply pow_lt, T_pos]. Qed.

(** widths *)
Lemma widths_length rs : length (widths rs) = length rs. Proof. unfold widths. now rewrite map_length, seq_length. Qed.
Lemma widths_nth rs i : (i < length rs)%nat -> nth i (widths rs) 0 = if Nat.eqb i 0 then nu rs 1 - nu rs 0 else if Nat.eqb i (length rs - 1) then nu rs (length rs - 1) - nu rs (length rs - 2) else (nu rs (i + 1) - nu rs (i - 1)) / 2.
Proof. intro I. unfold widths. now rewrite nth_tab. Qed.
Lemma rise rs a b : (forall i, (S i < length rs)%nat -> nu rs i < nu rs (S i)) -> (a < b < length rs)%nat -> nu rs a < nu rs b.
Proof. intros H AB. induction b as [| b IH]; [lia |]. destruct (Nat.eq_dec a b) as [-> |]; [apply H; lia |]. apply Rlt_trans with (nu rs b); [apply IH; lia | apply H; lia]. Qed.
Lemma widths_pos rs i : good_band rs -> (i < length rs)%nat -> 0 < nth i (widths rs) 0.
Proof.
  intros (N & _ & A & _) I. rewrite widths_nth by exact I. destruct (Nat.eqb_spec i 0); [pose proof (rise rs 0 1 A ltac:(lia)); lra |]. destruct (Nat.eqb_spec i (length rs - 1)); [pose proof (rise rs (length rs - 2) (length rs - 1) A ltac:(lia)); lra |]. pose proof (rise rs (i - 1) (i + 1) A ltac:(lia)). lra.
Qed.
Lemma trapezoid_sum rs g : (2 <= length rs)%nat -> let n := length rs in
  Sm n (fun i => nth i (widths rs) 0 * resp rs i * g (nu rs i)) = trapezoid rs g + (nu rs 1 - nu rs 0) / 2 * (resp rs 0 * g (nu rs 0)) + (nu rs (n - 1) - nu rs (n - 2)) / 2 * (resp rs (n - 1) * g (nu rs (n - 1))).
Proof.
  intros N n. set (h := fun i => resp rs i * g (nu rs i)).
  assert (T : forall k, (S k < n)%nat -> Sm (S k) (fun i => nth i (widths rs) 0 * resp rs i * g (nu rs i)) = Sm k (fun i => (nu rs (S i) - nu rs i) * (h i + h (S i)) / 2) + (nu rs 1 - nu rs 0) / 2 * h 0%nat + (nu rs (S k) - nu rs k) / 2 * h k).
  { induction k as [| k IH]; intro K.
    - rewrite Sm_S, !Sm_0, widths_nth by (fold n; lia). cbn [Nat.eqb]. unfold h. field.
    - rewrite Sm_S, IH by lia. rewrite (Sm_S k). rewrite widths_nth by (fold n; lia). fold n. destruct (Nat.eqb_spec (S k) 0); [lia |]. destruct (Nat.eqb_spec (S k) (n - 1)); [lia |]. replace (S k + 1)%nat with (S (S k)) by lia. replace (S k - 1)%nat with k by lia. unfold h. field. }
  destruct n as [| [| k]] eqn:E; [lia | lia |]. rewrite Sm_S, T by lia. rewrite widths_nth by (fold n; lia). fold n. rewrite E. cbn [Nat.eqb]. replace (S (S k) - 1)%nat with (S k) by lia. replace (S (S k) - 2)%nat with k by lia. rewrite Nat.eqb_refl. unfold trapezoid. fold n. rewrite E. replace (S (S k) - 1)%nat with (S k) by lia. rewrite (Sm_S k). unfold h. field.
Qed.
Lemma band_forall rs : good_band rs -> forallb (fun r => posb (fst r)) rs = true.
Proof. intros (_ & P & _). apply forallb_forall. intros r IR. destruct (In_nth _ _ (0, 0) IR) as (i & I & <-). apply posb_true. now apply (P i I). Qed.
Lemma wsum_pos rs g : good_band rs -> (forall x, 0 < x -> 0 < g x) -> 0 < Sm (length rs) (fun i => nth i (widths rs) 0 * resp rs i * g (nu rs i)).
Proof.
  intros G P. pose proof G as (_ & Q & _ & i & I & RI). apply (Sm_pos _ _ i); [| exact I |].
  - intros j J. destruct (Q j J). apply Rmult_le_pos; [apply Rmult_le_pos; [apply Rlt_le, widths_pos; assumption | assumption] |]. apply Rlt_le, P; assumption.
  - destruct (Q i I). apply Rmult_lt_0_compat; [apply Rmult_lt_0_compat; [now apply widths_pos | exact RI] | now apply P].
Qed.

(** ** The kernel exp(-k(x-y)^2) is positive *)
Lemma cv_Sm n (f : nat -> nat -> R) l : (forall i, (i < n)%nat -> Un_cv (f i) (l i)) -> Un_cv (fun N => Sm n (fun i => f i N)) (Sm n l).
Proof.
  induction n as [| n IH]; intro H.
  - intros e E. exists 0%nat. intros. rewrite !Sm_0. unfold R_dist. rewrite Rminus_0_r, Rabs_R0. exact E.
  - rewrite Sm_S. assert (C : Un_cv (fun N => Sm n (fun i => f i N) + f n N) (Sm n l + l n)) by (apply CV_plus; [apply IH; intros; apply H; lia | apply H; lia]). intros e E. destruct (C e E) as (N0 & HN). exists N0. intros N NN. rewrite Sm_S. now apply HN.
Qed.
Lemma cv_scal f l c : Un_cv f l -> Un_cv (fun N => c * f N) (c * l).
Proof. intro H. apply (CV_mult (fun _ => c) f c l); [| exact H]. intros e E. exists 0%nat. intros. unfold R_dist. rewrite Rminus_diag_eq, Rabs_R0 by reflexivity. exact E. Qed.
Lemma cv_nonneg f l : (forall N, 0 <= f N) -> Un_cv f l -> 0 <= l.
Proof.
  intros P C. destruct (Rle_lt_dec 0 l) as [| B]; [assumption |]. destruct (C (- l) ltac:(lra)) as (N & H). specialize (H N (Nat.le_refl N)). unfold R_dist in H. specialize (P N). rewrite Rabs_right in H by lra. lra.
Qed.
Lemma exp_cv x : Un_cv (fun N => sum_f_R0 (fun i => / INR (fact i) * x ^ i) N) (exp x).
Proof. unfold exp. destruct (exist_exp x) as (y & H). exact H. Qed.
Lemma sum_f_Sm f N : sum_f_R0 f N = Sm (S N) f.
Proof. induction N; [rewrite Sm_S, Sm_0; cbn; ring |]. rewrite Sm_S, <- IHN. reflexivity. Qed.
Lemma exp_kernel n (u x : nat -> R) k : 0 <= k -> 0 <= quadratic n (fun i j => exp (k * (x i * x j))) u.
Proof.
  intro K. unfold quadratic. apply (cv_nonneg (fun N => Sm n (fun i => Sm n (fun j => u i * u j * sum_f_R0 (fun m => / INR (fact m) * (k * (x i * x j)) ^ m) N)))).
  - intro N. rewrite (Sm_ext n _ (fun i => Sm (S N) (fun m => (k ^ m / INR (fact m)) * ((u i * x i ^ m) * Sm n (fun j => u j * x j ^ m))))).
    + rewrite Sm_swap. apply Sm_nonneg. intros m _. rewrite Sm_scal, (Sm_ext n _ (fun i => Sm n (fun j => u j * x j ^ m) * (u i * x i ^ m))) by (intros; ring). rewrite Sm_scal. apply Rmult_le_pos; [| exact (Rle_0_sqr _)]. apply Rmult_le_pos; [now apply pow_le | apply Rlt_le, Rinv_0_lt_compat, lt_0_INR, lt_O_fact].
    + intros i _. rewrite (Sm_ext n _ (fun j => Sm (S N) (fun m => (k ^ m / INR (fact m)) * ((u i * x i ^ m) * (u j * x j ^ m))))).
      * rewrite Sm_swap. apply Sm_ext. intros m _. rewrite Sm_scal, Sm_scal. reflexivity.
      * intros j _. rewrite sum_f_Sm, <- Sm_scal. apply Sm_ext. intros m _. rewrite !Rpow_mult_distr. unfold Rdiv. ring.
  - apply (cv_Sm n (fun i N => Sm n (fun j => u i * u j * sum_f_R0 (fun m => / INR (fact m) * (k * (x i * x j)) ^ m) N))). intros i _. apply (cv_Sm n (fun j N => u i * u j * sum_f_R0 (fun m => / INR (fact m) * (k * (x i * x j)) ^ m) N)). intros j _. apply cv_scal, exp_cv.
Qed.
Lemma gauss_kernel n (v x : nat -> R) k : 0 <= k -> 0 <= quadratic n (fun i j => exp (- (k * (x i - x j) ^ 2))) v.
Proof.
  intro K. assert (E : quadratic n (fun i j => exp (- (k * (x i - x j) ^ 2))) v = quadratic n (fun i j => exp (2 * k * (x i * x j))) (fun i => v i * exp (- (k * x i ^ 2)))).
  { unfold quadratic. apply Sm_ext. intros i _. apply Sm_ext. intros j _. replace (- (k * (x i - x j) ^ 2)) with (- (k * x i ^ 2) + - (k * x j ^ 2) + 2 * k * (x i * x j)) by ring. rewrite !exp_plus. ring. }
  rewrite E. apply exp_kernel. lra.
Qed.
