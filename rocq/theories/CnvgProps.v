(** C135 (correlation lengths) and C136 (Gelman-Rubin), chains.py and mcsamples.py. *)
From Coq Require Import Reals ZArith Lia Lra List Bool.
From Verif Require Import PyStr PyBase ConvModel KdeModel StatModel StatSpec StatProofs CnvgModel CnvgSpec CnvgProofs.
Import ListNotations.
Local Open Scope R_scope.

(** C135: the autocorrelation at distance k is the mean product of weighted deviations k rows apart in units of the variance, times rows per weight in units of weight. *)
Theorem C135_autocorrelation n w p K wu : fits w p -> (K < length p)%nat -> sumR w <> 0 -> wvar w p <> 0 ->
  exists r, getAutocorrelation n w p (Some K) wu true = Ok r /\ length r = S K /\ forall k, (k <= K)%nat -> nth k r 0 = if wu then rho w p k else lagmean w p k / wvar w p.
Proof.
  intros F HK N V. rewrite (auto_ok n w p K wu F HK N V). eexists. split; [reflexivity |]. rewrite map_length, seq_length. split; [lia |]. intros k KK. rewrite nth_tab by lia. unfold unit_of, rho. destruct wu; [reflexivity | ring].
Qed.
Theorem C135_constant n w p K wu : fits w p -> (K < length p)%nat -> wvar w p = 0 -> getAutocorrelation n w p (Some K) wu true = Err NotFinite.
Proof.
  intros F HK V. pose proof F as (L & _). unfold getAutocorrelation. cbv zeta. rewrite auto_wdev by assumption. cbn [bindR]. unfold divAll at 1. rewrite (var_wvar w p L), V. destruct (Req_EM_T 0 0); [reflexivity | contradiction].
Qed.
(** FINDING: without a largest distance the distances end at the number of parameters, not at the number of rows. *)
Theorem C135_default_refuted n w p wu : fits w p -> (0 < n <= length p)%nat -> sumR w <> 0 -> wvar w p <> 0 -> exists r, getAutocorrelation n w p None wu true = Ok r /\ length r = n.
Proof.
  intros F HN N V. assert (E : getAutocorrelation n w p None wu true = getAutocorrelation n w p (Some (n - 1)%nat) wu true) by (unfold getAutocorrelation; cbv zeta; cbn iota; reflexivity). rewrite E.
  rewrite (auto_ok n w p (n - 1) wu F ltac:(lia) N V). eexists. split; [reflexivity |]. rewrite map_length, seq_length. lia.
Qed.
(** C135: the correlation length adds the correlations up to the first distance at which these fall to min_corr of that at 0. *)
Theorem C135_length n w p m k : fits w p -> sumR w <> 0 -> wvar w p <> 0 -> (0 < k <= length p / 10)%nat -> rho w p k <= m * rho w p 0 -> (forall i, (i < k)%nat -> m * rho w p 0 < rho w p i) ->
  getCorrelationLength n w p true m = Ok (rho w p 0 + 2 * Sm (k - 1) (fun i => rho w p (S i))).
Proof.
  intros F N V K A B. pose proof F as (L & P & _). unfold getCorrelationLength. rewrite L. assert (length p / 10 < length p)%nat by (apply Nat.div_lt; lia). rewrite (auto_ok n w p (length p / 10) true F ltac:(lia) N V). cbn [bindR]. f_equal.
  set (r := map _ _). assert (R0 : forall i, (i <= length p / 10)%nat -> nth i r 0 = rho w p i) by (intros i I; unfold r; rewrite nth_tab by lia; reflexivity). assert (LR : length r = (length p / 10 + 1)%nat) by (unfold r; now rewrite map_length, seq_length).
  rewrite (corr_length_cut m r k).
  - rewrite R0 by lia. f_equal. f_equal. apply Sm_ext. intros i I. apply R0. lia.
  - lia.
  - rewrite !R0 by lia. exact A.
  - intros i I. rewrite !R0 by lia. now apply B.
Qed.
(** C135: a row is at least as long as its own weight, and the effective number of samples is positive and at most total weight / rho 0. *)
Lemma rho0_pos w p : fits w p -> 0 < sumR w -> 0 < wvar w p -> (forall x, In x w -> 0 <= x) -> 0 < rho w p 0.
Proof.
  intros (L & P & _) N V W. unfold rho, lagmean. rewrite Nat.sub_0_r. apply Rmult_lt_0_compat; [| apply Rdiv_lt_0_compat; [apply lt_0_INR; exact P | exact N]]. apply Rdiv_lt_0_compat; [| exact V]. apply Rdiv_lt_0_compat; [| apply lt_0_INR; exact P].
  assert (EX : {i | (i < length p)%nat /\ nth i w 0 * (nth i p 0 - wmean w p) ^ 2 <> 0 /\ forall j, (j < i)%nat -> ~ nth j w 0 * (nth j p 0 - wmean w p) ^ 2 <> 0} + {forall i, (i < length p)%nat -> ~ nth i w 0 * (nth i p 0 - wmean w p) ^ 2 <> 0}).
  { apply (least_below (fun i => nth i w 0 * (nth i p 0 - wmean w p) ^ 2 <> 0)). intro i. destruct (Req_EM_T (nth i w 0 * (nth i p 0 - wmean w p) ^ 2) 0); [right; tauto | left; assumption]. }
  destruct EX as [(i & I & Q & _) | Q].
  - apply (Sm_pos _ _ i); trivial; [intros j J; rewrite Nat.add_0_r; exact (Rle_0_sqr _) |]. rewrite Nat.add_0_r. set (a := nth i w 0) in *. set (b := nth i p 0 - wmean w p) in *. assert (AB : a * b <> 0) by (intro Z; apply Q; replace (a * b ^ 2) with (a * b * b) by ring; rewrite Z; ring). exact (Rlt_0_sqr _ AB).
  - exfalso. unfold wvar in V. rewrite (Sm_ext _ _ (fun _ => 0)), Sm_zero in V; [unfold Rdiv in V; lra |]. intros i I. specialize (Q i I). lra.
Qed.
Theorem C135_effective n w p m : fits w p -> 0 < sumR w -> 0 < wvar w p -> (forall x, In x w -> 0 <= x) -> 0 <= m ->
  exists N E, getCorrelationLength n w p true m = Ok N /\ getEffectiveSamples n w p m = Ok E /\ rho w p 0 <= N /\ N * E = sumR w /\ 0 < E <= sumR w / rho w p 0.
Proof.
  intros F N V W M. pose proof F as (L & P & _). pose proof (rho0_pos w p F N V W) as R0. unfold getEffectiveSamples, getCorrelationLength. rewrite L. assert (length p / 10 < length p)%nat by (apply Nat.div_lt; lia). rewrite (auto_ok n w p (length p / 10) true F ltac:(lia) ltac:(lra) ltac:(lra)). cbn [bindR].
  set (r := map _ _). assert (Q : nth 0 r 0 = rho w p 0) by (unfold r; rewrite nth_tab by lia; reflexivity). pose proof (corr_length_ge m r M ltac:(rewrite Q; lra)) as G. rewrite Q in G. unfold rdivE, get_norm. destruct (Req_EM_T (corr_length m r) 0); [exfalso; lra |].
  exists (corr_length m r). eexists. split; [reflexivity |]. split; [reflexivity |]. split; [exact G |]. split; [field; assumption |]. split; [apply Rdiv_lt_0_compat; lra |]. unfold Rdiv. apply Rmult_le_compat_l; [lra |]. apply Rinv_le_contravar; lra.
Qed.
Lemma sum_ones w : (forall x, In x w -> x = 1) -> sumR w = INR (length w).
Proof. intro H. induction w as [| x w IH]; [reflexivity |]. rewrite sumR_cons, (H x (or_introl eq_refl)), IH by (intros; apply H; now right). cbn [length]. rewrite S_INR. lra. Qed.
Lemma rho0_unit w p : fits w p -> (forall x, In x w -> x = 1) -> wvar w p <> 0 -> rho w p 0 = 1.
Proof.
  intros (L & P & _) H V. assert (S1 := sum_ones w H). rewrite L in S1. assert (NZ : INR (length p) <> 0) by (apply not_0_INR; lia).
  assert (E : lagmean w p 0 = wvar w p). { unfold lagmean, wvar. rewrite Nat.sub_0_r, S1. f_equal. apply Sm_ext. intros i I. rewrite Nat.add_0_r, (H (nth i w 0)) by (apply nth_In; lia). ring. }
  unfold rho. rewrite E, S1. field. split; assumption.
Qed.
Lemma length_one m x : corr_length m [x] = x.
Proof. unfold corr_length, argmin, above, slice, at_. cbn [map nth first_false]. destruct (Rlt_dec _ _); cbn; lra. Qed.
Lemma short_unit n w p m : fits w p -> 0 < wvar w p -> (forall x, In x w -> x = 1) -> (length p < 10)%nat -> getCorrelationLength n w p true m = Ok 1.
Proof.
  intros F V H S9. pose proof F as (L & P & _). assert (S1 := sum_ones w H). assert (NP : 0 < INR (length w)) by (rewrite L; now apply lt_0_INR). unfold getCorrelationLength. rewrite L, (Nat.div_small (length p) 10 S9). rewrite (auto_ok n w p 0 true F P ltac:(lra) ltac:(lra)). cbn [bindR]. f_equal. rewrite <- (rho0_unit w p F H ltac:(lra)). apply length_one.
Qed.
Theorem C135_unit n w p m : fits w p -> 0 < wvar w p -> (forall x, In x w -> x = 1) -> 0 <= m -> exists E, getEffectiveSamples n w p m = Ok E /\ 0 < E <= INR (length p) /\ ((length p < 10)%nat -> E = INR (length p)).
Proof.
  intros F V H M. pose proof F as (L & P & _). assert (S1 := sum_ones w H). rewrite L in S1. assert (NP : 0 < INR (length p)) by (now apply lt_0_INR). destruct (C135_effective n w p m F ltac:(lra) V ltac:(intros x X; rewrite (H x X); lra) M) as (N & E & EN & EE & R & NE & B). exists E. split; [exact EE |]. rewrite (rho0_unit w p F H ltac:(lra)) in *. rewrite S1 in *. split; [lra |].
  intro S9. rewrite (short_unit n w p m F V H S9) in EN. assert (N = 1) by congruence. subst N. lra.
Qed.
(** C135: neither depends on units: an affine change of the parameter changes nothing, and weights in another unit change the length in this unit. *)
Lemma wmean_affine w p a b : length w = length p -> sumR w <> 0 -> wmean w (map (fun x => a * x + b) p) = a * wmean w p + b.
Proof.
  intros L N. unfold wmean. rewrite map_length. rewrite (Sm_ext _ _ (fun i => a * (nth i w 0 * nth i p 0) + b * nth i w 0)) by (intros i I; rewrite (nth_map0 _ p i 0) by exact I; ring). rewrite Sm_plus, !Sm_scal. replace (Sm (length p) (fun i => nth i w 0)) with (sumR w) by (rewrite sumR_Sm; now rewrite L). field. exact N.
Qed.
Lemma wvar_affine w p a b : length w = length p -> sumR w <> 0 -> wvar w (map (fun x => a * x + b) p) = a ^ 2 * wvar w p.
Proof.
  intros L N. unfold wvar. rewrite map_length, (wmean_affine w p a b L N). rewrite (Sm_ext _ _ (fun i => a ^ 2 * (nth i w 0 * (nth i p 0 - wmean w p) ^ 2))) by (intros i I; rewrite (nth_map0 _ p i 0) by exact I; ring). rewrite Sm_scal. field. exact N.
Qed.
Lemma rho_affine w p a b k : length w = length p -> sumR w <> 0 -> wvar w p <> 0 -> a <> 0 -> rho w (map (fun x => a * x + b) p) k = rho w p k.
Proof.
  intros L N V A. unfold rho. rewrite wvar_affine, map_length by assumption. assert (E : lagmean w (map (fun x => a * x + b) p) k = a ^ 2 * lagmean w p k).
  { unfold lagmean. rewrite map_length, (wmean_affine w p a b L N). unfold Rdiv. rewrite <- Rmult_assoc. f_equal. rewrite <- Sm_scal. apply Sm_ext. intros i I. rewrite !(nth_map0 _ p _ 0) by lia. ring. }
  rewrite E. field. repeat split; trivial.
Qed.
Theorem C135_affine n w p m a b : fits w p -> sumR w <> 0 -> wvar w p <> 0 -> a <> 0 -> let q := map (fun x => a * x + b) p in
  getCorrelationLength n w q true m = getCorrelationLength n w p true m /\ getEffectiveSamples n w q m = getEffectiveSamples n w p m.
Proof.
  intros F N V A q. pose proof F as (L & P & B). assert (LQ : length q = length p) by (unfold q; apply map_length). assert (FQ : fits w q) by (unfold fits; rewrite LQ; exact F). assert (VQ : wvar w q <> 0) by (unfold q; rewrite wvar_affine by assumption; apply Rmult_integral_contrapositive_currified; [now apply pow_nonzero | exact V]).
  assert (E : getCorrelationLength n w q true m = getCorrelationLength n w p true m).
  { unfold getCorrelationLength. assert (length p / 10 < length p)%nat by (apply Nat.div_lt; lia). rewrite L. rewrite (auto_ok n w p (length p / 10) true F ltac:(lia) N V), (auto_ok n w q (length p / 10) true FQ ltac:(lia) N VQ). cbn [bindR]. f_equal. f_equal. apply map_ext. intro k. apply (rho_affine w p a b k L N V A). }
  split; [exact E |]. unfold getEffectiveSamples. now rewrite E.
Qed.
Lemma nth_scale c (w : list R) i : nth i (map (fun x => c * x) w) 0 = c * nth i w 0.
Proof. rewrite <- (map_nth (fun x => c * x)). f_equal. ring. Qed.
Lemma sum_scale c w : sumR (map (fun x => c * x) w) = c * sumR w.
Proof. rewrite (sumR_scal c (fun x => x)), map_id. reflexivity. Qed.
Lemma wmean_scale c w p : c <> 0 -> sumR w <> 0 -> wmean (map (fun x => c * x) w) p = wmean w p.
Proof. intros C N. unfold wmean. rewrite sum_scale, (Sm_ext _ _ (fun i => c * (nth i w 0 * nth i p 0))) by (intros; rewrite nth_scale; ring). rewrite Sm_scal. field. split; assumption. Qed.
Lemma wvar_scale c w p : c <> 0 -> sumR w <> 0 -> wvar (map (fun x => c * x) w) p = wvar w p.
Proof. intros C N. unfold wvar. rewrite sum_scale, wmean_scale by assumption. rewrite (Sm_ext _ _ (fun i => c * (nth i w 0 * (nth i p 0 - wmean w p) ^ 2))) by (intros; rewrite nth_scale; ring). rewrite Sm_scal. field. split; assumption. Qed.
Lemma rho_scale c w p k : c <> 0 -> sumR w <> 0 -> wvar w p <> 0 -> rho (map (fun x => c * x) w) p k = c * rho w p k.
Proof.
  intros C N V. unfold rho. rewrite sum_scale, wvar_scale by assumption. assert (E : lagmean (map (fun x => c * x) w) p k = c ^ 2 * lagmean w p k).
  { unfold lagmean. rewrite wmean_scale by assumption. unfold Rdiv. rewrite <- Rmult_assoc. f_equal. rewrite <- Sm_scal. apply Sm_ext. intros i I. rewrite !nth_scale. ring. }
  rewrite E. field. repeat split; trivial.
Qed.
Theorem C135_weights n w p m c : fits w p -> sumR w <> 0 -> wvar w p <> 0 -> 0 < c -> let u := map (fun x => c * x) w in
  getCorrelationLength n u p true m = bindR (getCorrelationLength n w p true m) (fun N => Ok (c * N)) /\ getEffectiveSamples n u p m = getEffectiveSamples n w p m.
Proof.
  intros F N V C u. pose proof F as (L & P & B). assert (LU : length u = length w) by (unfold u; apply map_length). assert (FU : fits u p) by (unfold fits; rewrite LU; exact F). assert (CN : c <> 0) by lra. assert (NU : sumR u <> 0) by (unfold u; rewrite sum_scale; now apply Rmult_integral_contrapositive_currified). assert (VU : wvar u p <> 0) by (unfold u; now rewrite wvar_scale).
  assert (length p / 10 < length p)%nat by (apply Nat.div_lt; lia).
  assert (E : getCorrelationLength n u p true m = bindR (getCorrelationLength n w p true m) (fun N => Ok (c * N))).
  { unfold getCorrelationLength. rewrite LU, L. rewrite (auto_ok n w p (length p / 10) true F ltac:(lia) N V), (auto_ok n u p (length p / 10) true FU ltac:(lia) NU VU). cbn [bindR]. f_equal. rewrite <- corr_length_scale by exact C. f_equal. rewrite map_map. apply map_ext. intro k. apply (rho_scale c w p k CN N V). }
  split; [exact E |]. unfold getEffectiveSamples. rewrite E. destruct (getCorrelationLength n w p true m) as [l |]; [| reflexivity]. cbn [bindR]. unfold rdivE, get_norm. unfold u. rewrite sum_scale. destruct (Req_EM_T l 0) as [-> | NL].
  - destruct (Req_EM_T (c * 0) 0) as [| NZ]; [reflexivity | exfalso; apply NZ; ring].
  - destruct (Req_EM_T (c * l) 0) as [Q | NZ]; [exfalso; apply Rmult_integral in Q; tauto |]. f_equal. field. split; assumption.
Qed.
(** FINDING: if the correlations stay above min_corr up to the largest distance (a tenth of the rows), np.argmin is 0 and nothing is added: the slowest chains
    have the shortest correlation length.  A chain of 2 h rows that changes its value once has 2 h effective samples. *)
Theorem C135_slow_refuted n w p m : fits w p -> 0 < sumR w -> 0 < wvar w p -> (forall x, In x w -> 0 <= x) -> (forall k, (k <= length p / 10)%nat -> m * rho w p 0 < rho w p k) ->
  getCorrelationLength n w p true m = Ok (rho w p 0) /\ getEffectiveSamples n w p m = Ok (sumR w / rho w p 0).
Proof.
  intros F N V W A. pose proof F as (L & P & _). pose proof (rho0_pos w p F N V W). assert (E : getCorrelationLength n w p true m = Ok (rho w p 0)).
  { unfold getCorrelationLength. rewrite L. assert (length p / 10 < length p)%nat by (apply Nat.div_lt; lia). rewrite (auto_ok n w p (length p / 10) true F ltac:(lia) ltac:(lra) ltac:(lra)). cbn [bindR]. f_equal. set (r := map _ _). assert (R0 : forall i, (i <= length p / 10)%nat -> nth i r 0 = rho w p i) by (intros i I; unfold r; rewrite nth_tab by lia; reflexivity).
    rewrite corr_length_all; [now apply R0; lia |]. unfold r at 1. rewrite map_length, seq_length. intros i I. rewrite !R0 by lia. apply A. lia. }
  split; [exact E |]. unfold getEffectiveSamples. rewrite E. cbn [bindR]. unfold rdivE, get_norm. destruct (Req_EM_T (rho w p 0) 0); [exfalso; lra | reflexivity].
Qed.
Definition two_steps (h : nat) : list R := map (fun i => if Nat.ltb i h then 0 else 1) (seq 0 (2 * h)).
Lemma steps_nth h i : (i < 2 * h)%nat -> nth i (two_steps h) 0 = if Nat.ltb i h then 0 else 1.
Proof. intro I. unfold two_steps. now rewrite nth_tab. Qed.
Lemma ones_nth k i : (i < k)%nat -> nth i (repeat 1 k) 0 = 1.
Proof. intro I. pose proof (nth_In (repeat 1 k) 0 (n := i) ltac:(now rewrite repeat_length)) as Q. now apply repeat_spec in Q. Qed.
Lemma steps_mean h : (0 < h)%nat -> wmean (repeat 1 (2 * h)) (two_steps h) = 1 / 2.
Proof.
  intro H. assert (LP : length (two_steps h) = (h + h)%nat) by (unfold two_steps; rewrite map_length, seq_length; lia). unfold wmean. rewrite LP, Sm_app. rewrite (Sm_ext h _ (fun _ => 0)) by (intros i I; rewrite ones_nth, steps_nth by lia; destruct (Nat.ltb_spec i h); [ring | lia]).
  rewrite (Sm_ext h (fun i => _ * nth (h + i) _ 0) (fun _ => 1)) by (intros i I; rewrite ones_nth, steps_nth by lia; destruct (Nat.ltb_spec (h + i) h); [lia | ring]). rewrite !Sm_const. rewrite sum_ones by (intros x X; now apply repeat_spec in X). rewrite repeat_length, mult_INR. change (INR 2) with (1 + 1). assert (0 < INR h) by (now apply lt_0_INR). field. lra.
Qed.
Lemma steps_lag h k : (k < h)%nat -> lagmean (repeat 1 (2 * h)) (two_steps h) k = / 4 * (INR (2 * h) - 3 * INR k) / INR (2 * h - k).
Proof.
  intro K. assert (LP : length (two_steps h) = (2 * h)%nat) by (unfold two_steps; rewrite map_length, seq_length; lia). unfold lagmean. rewrite LP, steps_mean by lia. f_equal. replace (2 * h - k)%nat with (h - k + (k + (h - k)))%nat by lia. rewrite !Sm_app.
  transitivity (Sm (h - k) (fun _ => / 4) + (Sm k (fun _ => - / 4) + Sm (h - k) (fun _ => / 4))).
  - f_equal; [apply Sm_ext; intros i I; rewrite !ones_nth, !steps_nth by lia; destruct (Nat.ltb_spec i h), (Nat.ltb_spec (i + k) h); try lia; lra |]. f_equal; apply Sm_ext; intros i I; rewrite !ones_nth, !steps_nth by lia.
    + destruct (Nat.ltb_spec (h - k + i) h), (Nat.ltb_spec (h - k + i + k) h); try lia; lra.
    + destruct (Nat.ltb_spec (h - k + (k + i)) h), (Nat.ltb_spec (h - k + (k + i) + k) h); try lia; lra.
  - rewrite !Sm_const, minus_INR, mult_INR by lia. change (INR 2) with (1 + 1). lra.
Qed.
Theorem C135_one_move_refuted n h : (1 <= h)%nat -> (4 * Z.of_nat h <= 2013265920)%Z -> getEffectiveSamples n (repeat 1 (2 * h)) (two_steps h) (1 / 20) = Ok (INR (2 * h)).
Proof.
  intros H B. assert (LP : length (two_steps h) = (2 * h)%nat) by (unfold two_steps; rewrite map_length, seq_length; lia). set (w := repeat 1 (2 * h)). set (p := two_steps h) in *. assert (W1 : forall x, In x w -> x = 1) by (intros x X; now apply repeat_spec in X).
  assert (F : fits w p) by (unfold fits; rewrite LP; unfold w; rewrite repeat_length; lia). pose proof F as (L & _). assert (NP : 0 < INR (2 * h)) by (apply lt_0_INR; lia). assert (S1 : sumR w = INR (2 * h)) by (rewrite (sum_ones w W1); unfold w; now rewrite repeat_length).
  assert (E0 : lagmean w p 0 = wvar w p). { unfold lagmean, wvar. rewrite Nat.sub_0_r, S1, LP. f_equal. apply Sm_ext. intros i I. rewrite Nat.add_0_r, (W1 (nth i w 0)) by (apply nth_In; rewrite L, LP; exact I). ring. }
  assert (V : wvar w p = / 4). { rewrite <- E0. unfold w, p. rewrite steps_lag by lia. rewrite Nat.sub_0_r. cbn [INR]. field. lra. }
  assert (R1 := rho0_unit w p F W1 ltac:(rewrite V; lra)).
  destruct (C135_slow_refuted n w p (1 / 20) F ltac:(lra) ltac:(rewrite V; lra) ltac:(intros x X; rewrite (W1 x X); lra)) as (_ & E).
  - intros k K. rewrite R1, LP in *. assert (KH : (5 * k <= h)%nat) by (pose proof (Nat.mul_div_le (2 * h) 10 ltac:(lia)); lia). unfold rho. rewrite V, LP, S1. unfold w, p. rewrite steps_lag by lia. rewrite minus_INR, mult_INR in * by lia. change (INR 2) with (1 + 1) in *. assert (KR : 5 * INR k <= INR h) by (apply le_INR in KH; rewrite mult_INR in KH; change (INR 5) with (1 + 1 + 1 + 1 + 1) in KH; lra). assert (0 <= INR k) by (apply pos_INR).
    set (a := INR h) in *. set (b := INR k) in *. replace (/ 4 * ((1 + 1) * a - 3 * b) / ((1 + 1) * a - b) / / 4 * ((1 + 1) * a / ((1 + 1) * a))) with ((2 * a - 3 * b) / (2 * a - b)) by (field; lra). apply Rmult_lt_reg_r with (2 * a - b); [lra |]. unfold Rdiv. rewrite (Rmult_assoc (2 * a - 3 * b)), Rinv_l by lra. lra.
  - rewrite E, R1, S1. f_equal. field.
Qed.
(** C135: for several chains the products of all chains are added, in units of the weighted variance about the common mean. *)
Theorem C135_pooled n cs j : cs <> [] -> (forall c, In c cs -> fits (cw c) (col c j) /\ sumR (cw c) <> 0) -> sumR (joined_w cs) <> 0 -> wvar (joined_w cs) (joined cs j) <> 0 ->
  let K := minN (map (fun c => length (cw c) / 10)%nat cs) in
  exists r, pooled_corr n cs j = Ok r /\ length r = S K /\ (forall c, In c cs -> (K <= length (cw c) / 10)%nat) /\
    forall k, (k <= K)%nat -> nth k r 0 = sumR (map (fun c => INR (length (cw c)) * lagmean (cw c) (col c j) k) cs) / (sumR (joined_w cs) * wvar (joined_w cs) (joined cs j)).
Proof.
  intros NE H N V K. assert (KM : forall c, In c cs -> (K <= length (cw c) / 10)%nat) by (intros c C; apply minN_le, in_map_iff; exists c; now split).
  assert (LJ : length (joined_w cs) = length (joined cs j)) by (apply joined_length; intros c C; now destruct (H c C) as ((L & _) & _)).
  unfold pooled_corr. cbv zeta. fold K. rewrite sum_corrs_ok; [| unfold zeros; apply repeat_length |].
  - cbn [bindR]. unfold divAll, get_norm. rewrite (var_wvar _ _ LJ). destruct (Req_EM_T (sumR (joined_w cs) * wvar (joined_w cs) (joined cs j)) 0) as [Z | _]; [apply Rmult_integral in Z; destruct Z; contradiction |]. eexists. split; [reflexivity |]. rewrite !map_length, seq_length. split; [lia |]. split; [exact KM |]. intros k KK. rewrite map_map, nth_tab by lia. unfold Rdiv. f_equal. unfold zeros. rewrite nth_repeat, Rplus_0_l. apply sumR_ext. intros c C. destruct (H c C) as ((L & _) & _). rewrite L. ring.
  - intros c C. destruct (H c C) as ((L & P & Q) & NW). split; [repeat split; auto |]. split; [| exact NW]. specialize (KM c C). assert (0 < length (cw c))%nat by (destruct (cw c); [exfalso; apply NW; reflexivity | cbn; lia]). rewrite L in *. pose proof (Nat.div_lt (length (col c j)) 10 ltac:(lia) ltac:(lia)). lia.
Qed.
(** one chain: the correlation length of that chain *)
Theorem C135_pooled_one n c j : fits (cw c) (col c j) -> sumR (cw c) <> 0 -> wvar (cw c) (col c j) <> 0 -> pooled_length n [c] j = getCorrelationLength n (cw c) (col c j) true (1 / 20).
Proof.
  intros F N V. pose proof F as (L & _). assert (JW : joined_w [c] = cw c) by (unfold joined_w; cbn [flat_map]; apply app_nil_r). assert (JP : joined [c] j = col c j) by (unfold joined; cbn [flat_map]; apply app_nil_r).
  destruct (C135_pooled n [c] j) as (r & E & LR & _ & ER); [discriminate | intros c' [<- | []]; now split | now rewrite JW | now rewrite JW, JP |]. cbn [map minN fold_left] in *. unfold pooled_length, getCorrelationLength. rewrite E. cbn [bindR]. rewrite JW, JP in ER. assert (P0 : (0 < length (cw c))%nat) by (destruct (cw c); [exfalso; apply N; reflexivity | cbn; lia]). pose proof (Nat.div_lt (length (cw c)) 10 P0 ltac:(lia)).
  rewrite (auto_ok n (cw c) (col c j) (length (cw c) / 10) true F) by (try rewrite <- L; assumption). cbn [bindR]. do 2 f_equal. apply tab_eq; [rewrite LR; lia |]. intros k KK. rewrite ER by lia. unfold unit_of. rewrite sumR_cons. change (sumR []) with 0. rewrite L. field. split; assumption.
Qed.
(** the thinning that is suggested is the length of the worst parameter *)
Theorem C135_longest n cs m : longest n cs = Ok m -> 0 <= m /\ (forall j, (j < n)%nat -> exists N, pooled_length n cs j = Ok N /\ N <= m) /\ (m = 0 \/ exists j, (j < n)%nat /\ pooled_length n cs j = Ok m).
Proof.
  unfold longest. assert (G : forall js l, mapR (pooled_length n cs) js = Ok l -> forall z, z <= fold_left (fun m N => Rmax N m) l z /\ (forall j, In j js -> exists N, pooled_length n cs j = Ok N /\ N <= fold_left (fun m N => Rmax N m) l z) /\ (fold_left (fun m N => Rmax N m) l z = z \/ exists j, In j js /\ pooled_length n cs j = Ok (fold_left (fun m N => Rmax N m) l z))).
  { induction js as [| j js IH]; intros l E z; cbn [mapR] in E.
    - injection E as <-. cbn. split; [lra |]. split; [intros j [] | now left].
    - destruct (pooled_length n cs j) as [N | e] eqn:EN; [| discriminate E]. cbn [bindR] in E. destruct (mapR (pooled_length n cs) js) as [l' | e] eqn:EL; [| discriminate E]. cbn [bindR] in E. injection E as <-. cbn [fold_left]. destruct (IH l' eq_refl (Rmax N z)) as (A & B & C). pose proof (Rmax_l N z). pose proof (Rmax_r N z). split; [lra |]. split.
      + intros i [<- | I]; [exists N; split; [exact EN | lra] | now apply B].
      + destruct C as [C | (i & I & EI)]; [| right; exists i; split; [now right | exact EI]]. rewrite C. unfold Rmax. destruct (Rle_dec N z); [now left | right; exists j; split; [now left | exact EN]]. }
  destruct (mapR (pooled_length n cs) (seq 0 n)) as [l | e] eqn:E; [| discriminate]. cbn [bindR]. intro Q. injection Q as <-. destruct (G _ _ E 0) as (A & B & C). split; [exact A |]. split; [intros j J; apply B, in_seq; lia |]. destruct C as [C | (j & I & EJ)]; [now left | right; exists j; split; [apply in_seq in I; lia | exact EJ]].
Qed.

(** C136: the number of Gelman and Rubin is the largest ratio of the variance of means to the mean variance among all combinations of the first k parameters. *)
Lemma Sm_e k (l : nat) f : (l < k)%nat -> Sm k (fun j => delta l j * f j) = f l.
Proof. intro L. rewrite (Sm_ext k _ (fun j => f j * delta l j)) by (intros; ring). now apply Sm_delta. Qed.
Lemma form_nonneg_cov n cs k v : (forall c, In c cs -> good_chain n c) -> cs <> [] -> 0 <= mean_of_vars k v cs.
Proof.
  intros G NE. unfold mean_of_vars. assert (0 < INR (length cs)) by (apply lt_0_INR; destruct cs; [congruence | cbn; lia]). apply Rmult_le_pos; [| left; now apply Rinv_0_lt_compat]. apply sumR_nonneg. intros c C. destruct (G c C) as (_ & _ & W & N). unfold wvar. apply Rmult_le_pos; [| left; now apply Rinv_0_lt_compat]. apply Sm_nonneg. intros i I. apply Rmult_le_pos; [| apply pow2_ge_0]. rewrite comb_length in I. apply W, nth_In, I.
Qed.
Lemma var_nonneg k v cs : (2 <= length cs)%nat -> 0 <= var_of_means k v cs.
Proof.
  intro L. unfold var_of_means. cbv zeta. assert (2 <= INR (length cs)) by (change 2 with (INR 2); now apply le_INR). apply Rmult_le_pos; [| left; apply Rinv_0_lt_compat; lra]. apply sumR_nonneg. intros. apply pow2_ge_0.
Qed.
Lemma nth_tabL (f : nat -> list R) m a : (a < m)%nat -> nth a (map f (seq 0 m)) [] = f a.
Proof. intro A. rewrite (nth_indep _ [] (f 0%nat)) by (now rewrite map_length, seq_length). rewrite (map_nth f), seq_nth by exact A. reflexivity. Qed.
Section Worst.
Variable eigh : nat -> matrix -> list R * matrix.
Variable eigvalsh : nat -> matrix -> list R.
Variable junk : matrix.
Variables n k : nat.
Hypothesis EH : is_eigh eigh k.
Hypothesis EV : is_eigvalsh eigvalsh k.
Hypothesis K0 : (0 < k <= n)%nat.
Theorem C136_worst cs : (2 <= length cs)%nat -> (forall c, In c cs -> good_chain n c) ->
  match getGelmanRubin eigh eigvalsh junk cs k with
  | Ok (Some g) => (forall v, var_of_means k v cs <= g * mean_of_vars k v cs) /\ (exists v, 0 < mean_of_vars k v cs /\ var_of_means k v cs = g * mean_of_vars k v cs) /\ forall v i, (i < k)%nat -> v i <> 0 -> 0 < mean_of_vars k v cs
  | Ok None => exists v i, (i < k)%nat /\ v i <> 0 /\ mean_of_vars k v cs = 0
  | Err _ => False
  end.
Proof.
  intros L2 G. assert (NE : cs <> []) by (destruct cs; [cbn in L2; lia | congruence]). pose proof (EH _ (meancov_sym junk n cs k G (proj2 K0))) as E. unfold getGelmanRubin, getGelmanRubinEigenvalues. destruct (Nat.leb_spec (length cs) 1); [lia |]. destruct (eigh k (meancov junk cs)) as (w, U). cbn [fst snd] in E. pose proof E as (LW & O & EE).
  assert (NW : w <> []) by (destruct w; [cbn in LW; lia | congruence]). destruct (Rlt_dec 0 (minL w)) as [P | P]; cbn [bindR option_map].
  - assert (PW : forall j, (j < k)%nat -> 0 < nth j w 0) by (intros j J; apply Rlt_le_trans with (1 := P), minR_le, nth_In; lia). fold (scaled w U). fold (carried k (scaled w U) (meanscov cs)). destruct (EV _ (carried_sym k (scaled w U) _ (meanscov_sym cs k))) as (V & F). set (D := eigvalsh k (carried k (scaled w U) (meanscov cs))) in *.
    destruct (quotient_max k _ _ w U D V E PW F (proj1 K0)) as (A & (v & B1 & B2) & C). split; [| split].
    + intro u. rewrite <- (form_meanscov n cs k u G (proj2 K0)), <- (form_meancov junk n cs k u G (proj2 K0)). apply A.
    + exists v. rewrite <- (form_meanscov n cs k v G (proj2 K0)), <- (form_meancov junk n cs k v G (proj2 K0)), B1, B2. split; lra.
    + intros u i I Z. destruct (form_nonneg_cov n cs k u G NE) as [Q | Q]; [exact Q |]. exfalso. apply Z. apply (C u); [| exact I]. rewrite (form_meancov junk n cs k u G (proj2 K0)). now symmetry.
  - destruct (In_nth _ _ 0 (minR_in w NW)) as (l & LL & EL). rewrite LW in LL. assert (FV : mean_of_vars k (fun i => U i l) cs = nth l w 0). { rewrite <- (form_meancov junk n cs k _ G (proj2 K0)), (form_eigen k _ w U _ E), <- (Sm_basis k l (fun j => nth j w 0) LL). apply Sm_ext. intros j J. do 2 f_equal. unfold into. rewrite (proj1 (O j l J LL)). unfold delta. now rewrite Nat.eqb_sym. }
    pose proof (form_nonneg_cov n cs k (fun i => U i l) G NE) as Q. unfold minL in P. rewrite FV in Q. assert (Z : nth l w 0 = 0) by lra.
    assert (NZ : exists i, (i < k)%nat /\ U i l <> 0). { assert (S1 : Sm k (fun m => U m l * U m l) = 1) by (rewrite (proj1 (O l l LL LL)); unfold delta; now rewrite Nat.eqb_refl). clear - S1. assert (GG : forall kk, (exists i, (i < kk)%nat /\ U i l <> 0) \/ Sm kk (fun m => U m l * U m l) = 0). { clear. induction kk as [| kk IH]; [right; apply Sm_0 |]. destruct IH as [(i & I & Z) | Z]; [left; exists i; split; [lia | exact Z] |]. destruct (Req_dec (U kk l) 0) as [Y | Y]; [right; rewrite Sm_S, Z, Y; ring | left; exists kk; split; [lia | exact Y]]. } destruct (GG k) as [Y | Y]; [exact Y | lra]. }
    destruct NZ as (i & I & NI). exists (fun i => U i l), i. split; [exact I |]. split; [exact NI |]. rewrite FV. exact Z.
Qed.
(** not negative, and zero exactly when all chains have the same means *)
Theorem C136_zero cs g : (2 <= length cs)%nat -> (forall c, In c cs -> good_chain n c) -> getGelmanRubin eigh eigvalsh junk cs k = Ok (Some g) ->
  0 <= g /\ (g = 0 <-> forall c j, In c cs -> (j < k)%nat -> wmean (cw c) (col c j) = wmean (joined_w cs) (joined cs j)).
Proof.
  intros L2 G E. pose proof (C136_worst cs L2 G) as W. rewrite E in W. destruct W as (A & (v & B1 & B2) & _). pose proof (var_nonneg k v cs L2). assert (P : 0 <= g) by (destruct (Rle_dec 0 g); [assumption | exfalso; nra]). split; [exact P |].
  assert (CL : forall c a, In c cs -> (a < k)%nat -> length (col c a) = length (cw c)) by (intros c a C I; destruct (G c C) as (LN & LC & _); unfold col; apply LC, nth_In; lia). assert (I2 : 2 <= INR (length cs)) by (change 2 with (INR 2); now apply le_INR). split.
  - intros Z c j C J. specialize (A (delta j)). rewrite Z, Rmult_0_l in A. pose proof (var_nonneg k (delta j) cs L2) as Q. assert (S0 : sumR (map (fun c => (wmean (cw c) (comb k (delta j) c) - wmean (flat_map cw cs) (flat_map (comb k (delta j)) cs)) ^ 2) cs) = 0). { assert (V0 : var_of_means k (delta j) cs = 0) by lra. unfold var_of_means in V0. cbv zeta in V0. unfold Rdiv in V0. apply Rmult_integral in V0. destruct V0 as [V0 | V0]; [exact V0 |]. assert (0 < / (INR (length cs) - 1)) by (apply Rinv_0_lt_compat; lra). lra. }
    pose proof (sumR_zero _ _ (fun c _ => pow2_ge_0 _) S0 c C) as X. cbv beta in X. rewrite wmean_comb in X by (intros; now apply CL). rewrite wmean_all in X by exact CL. rewrite !(Sm_e k j) in X by exact J. nra.
  - intro SM. assert (V0 : var_of_means k v cs = 0). { unfold var_of_means. cbv zeta. rewrite (sumR_ext _ (fun _ => 0)); [| intros c C; rewrite wmean_comb by (intros; now apply CL); rewrite wmean_all by exact CL; rewrite (Sm_ext k (fun a => v a * wmean (cw c) (col c a)) (fun a => v a * wmean (joined_w cs) (joined cs a))) by (intros a I; now rewrite (SM c a C I)); ring]. assert (Z : forall l : list chain, sumR (map (fun _ => 0) l) = 0) by (induction l as [| x l IH]; [reflexivity | cbn [map]; rewrite sumR_cons, IH; ring]). rewrite Z. unfold Rdiv. ring. }
    rewrite V0 in B2. symmetry in B2. apply Rmult_integral in B2. destruct B2; [assumption | lra].
Qed.
(** the same for all linear functions of the parameters that can be undone *)
Lemma relinear_comb A sh v c i : (i < length (cw c))%nat -> nth i (comb k v (relinear k A sh c)) 0 = nth i (comb k (fun b => Sm k (fun a => v a * A a b)) c) 0 + Sm k (fun a => v a * sh a).
Proof.
  intro I. rewrite (comb_nth k v (relinear k A sh c) i) by exact I. rewrite comb_nth by exact I. rewrite (Sm_ext k _ (fun a => v a * (Sm k (fun b => A a b * nth i (col c b) 0) + sh a))).
  - rewrite (Sm_ext k _ (fun a => v a * Sm k (fun b => A a b * nth i (col c b) 0) + v a * sh a)) by (intros; ring). rewrite Sm_plus. f_equal. rewrite (Sm_ext k _ (fun a => Sm k (fun b => v a * A a b * nth i (col c b) 0))) by (intros; rewrite <- Sm_scal; apply Sm_ext; intros; ring). rewrite Sm_swap. apply Sm_ext. intros b _. rewrite Rmult_comm, <- Sm_scal. apply Sm_ext. intros. ring.
  - intros a AA. f_equal. unfold col at 1, relinear. cbn [cps]. rewrite nth_tabL by exact AA. rewrite nth_tab by exact I. reflexivity.
Qed.
Definition shifted (t : R) (l : list R) : list R := map (fun x => 1 * x + t) l.
Lemma relinear_shift A sh v c : comb k v (relinear k A sh c) = shifted (Sm k (fun a => v a * sh a)) (comb k (fun b => Sm k (fun a => v a * A a b)) c).
Proof.
  apply (nth_ext _ _ 0 0); [unfold shifted; rewrite map_length, !comb_length; reflexivity |]. intros i I. rewrite comb_length in I. change (cw (relinear k A sh c)) with (cw c) in I. rewrite relinear_comb by exact I. unfold shifted. rewrite (nth_map0 _ _ i 0) by (now rewrite comb_length). ring.
Qed.
Lemma relinear_forms A sh v cs : (forall c, In c cs -> good_chain n c) -> cs <> [] -> let u := fun b => Sm k (fun a => v a * A a b) in
  var_of_means k v (map (relinear k A sh) cs) = var_of_means k u cs /\ mean_of_vars k v (map (relinear k A sh) cs) = mean_of_vars k u cs.
Proof.
  intros G NE u. set (t := Sm k (fun a => v a * sh a)). assert (NC : forall c, In c cs -> sumR (cw c) <> 0) by (intros c C; destruct (G c C) as (_ & _ & _ & N); lra).
  assert (EW : flat_map cw (map (relinear k A sh) cs) = flat_map cw cs) by (clear; induction cs as [| c cs IH]; [reflexivity | cbn [map flat_map]; now rewrite IH]).
  assert (EC : flat_map (comb k v) (map (relinear k A sh) cs) = shifted t (flat_map (comb k u) cs)) by (clear; induction cs as [| c cs IH]; [reflexivity | cbn [map flat_map]; rewrite IH, relinear_shift; unfold shifted; now rewrite map_app]).
  assert (LL : length (flat_map cw cs) = length (flat_map (comb k u) cs)) by (clear; induction cs as [| c cs IH]; [reflexivity |]; cbn [flat_map]; rewrite !app_length, comb_length; congruence).
  assert (NA : sumR (flat_map cw cs) <> 0). { rewrite sumR_flat. destruct cs as [| c cs]; [congruence |]. cbn [map]. rewrite sumR_cons. destruct (G c (or_introl eq_refl)) as (_ & _ & _ & N). assert (0 <= sumR (map (fun x => sumR (cw x)) cs)) by (apply sumR_nonneg; intros x X; destruct (G x (or_intror X)) as (_ & _ & _ & N'); lra). lra. }
  split.
  - unfold var_of_means. cbv zeta. rewrite map_length, map_map, EW, EC. f_equal. apply sumR_ext. intros c C. rewrite relinear_shift. change (cw (relinear k A sh c)) with (cw c). unfold shifted. rewrite !wmean_affine; [f_equal; unfold u, t; ring | exact LL | exact NA | now rewrite comb_length | now apply NC].
  - unfold mean_of_vars. rewrite map_length, map_map. f_equal. apply sumR_ext. intros c C. rewrite relinear_shift. change (cw (relinear k A sh c)) with (cw c). unfold shifted. rewrite wvar_affine; [fold u; ring | now rewrite comb_length | now apply NC].
Qed.
Lemma forms_ext u v cs : (forall i, (i < k)%nat -> u i = v i) -> var_of_means k u cs = var_of_means k v cs /\ mean_of_vars k u cs = mean_of_vars k v cs.
Proof.
  intro H. assert (C : forall c, comb k u c = comb k v c) by (intro c; unfold comb; apply map_ext; intro i; apply Sm_ext; intros a A; now rewrite H). unfold var_of_means, mean_of_vars. cbv zeta. split.
  - assert (F : flat_map (comb k u) cs = flat_map (comb k v) cs) by (induction cs as [| c cs' IH]; [reflexivity | cbn [flat_map]; now rewrite C, IH]). rewrite F. f_equal. apply sumR_ext. intros c _. now rewrite C.
  - f_equal. apply sumR_ext. intros c _. now rewrite C.
Qed.
Lemma good_relinear A sh c : good_chain n c -> good_chain k (relinear k A sh c).
Proof.
  intros (LN & LC & W & N). unfold good_chain, relinear. cbn [cps cw]. split; [now rewrite map_length, seq_length |]. split; [| split; assumption]. intros p P. apply in_map_iff in P. destruct P as (a & <- & _). now rewrite map_length, seq_length.
Qed.
End Worst.
Theorem C136_linear eigh eigvalsh junk junk' n k A B sh cs g : is_eigh eigh k -> is_eigvalsh eigvalsh k -> (0 < k <= n)%nat -> (2 <= length cs)%nat -> (forall c, In c cs -> good_chain n c) ->
  (forall i j, (i < k)%nat -> (j < k)%nat -> Sm k (fun m => B i m * A m j) = delta i j /\ Sm k (fun m => A i m * B m j) = delta i j) ->
  getGelmanRubin eigh eigvalsh junk cs k = Ok (Some g) -> getGelmanRubin eigh eigvalsh junk' (map (relinear k A sh) cs) k = Ok (Some g).
Proof.
  intros EH EV KN L2 G BA E. assert (NE : cs <> []) by (destruct cs; [cbn in L2; lia | congruence]).
  assert (G' : forall c, In c (map (relinear k A sh) cs) -> good_chain k c) by (intros c C; apply in_map_iff in C; destruct C as (c0 & <- & C0); eapply good_relinear; eauto).
  pose proof (C136_worst eigh eigvalsh junk n k EH EV KN cs L2 G) as W. rewrite E in W. destruct W as (A1 & (v & V1 & V2) & A3).
  pose proof (C136_worst eigh eigvalsh junk' k k EH EV (conj (proj1 KN) (le_n k)) (map (relinear k A sh) cs) ltac:(now rewrite map_length) G') as W'.
  pose proof (fun v => relinear_forms n k A sh v cs G NE) as RF. cbv zeta in RF.
  assert (BK : forall u i, (i < k)%nat -> Sm k (fun a => Sm k (fun b => u b * B b a) * A a i) = u i). { intros u i I. rewrite (Sm_ext k _ (fun a => Sm k (fun b => u b * (B b a * A a i)))) by (intros; rewrite Rmult_comm, <- Sm_scal; apply Sm_ext; intros; ring). rewrite Sm_swap. rewrite (Sm_ext k _ (fun b => delta i b * u b)); [now apply Sm_e |]. intros b BB. rewrite Sm_scal, (proj1 (BA b i BB I)). unfold delta. rewrite (Nat.eqb_sym b i). ring. }
  destruct (getGelmanRubin eigh eigvalsh junk' (map (relinear k A sh) cs) k) as [[g' |] | e]; [| exfalso | contradiction].
  - destruct W' as (B1 & (v' & V1' & V2') & _). do 2 f_equal. destruct (RF v') as (R1 & R2). rewrite R1, R2 in V2'. rewrite R2 in V1'. specialize (A1 (fun b => Sm k (fun a => v' a * A a b))). rewrite V2' in A1.
    set (u := fun a => Sm k (fun b => v b * B b a)) in *. destruct (RF u) as (Q1 & Q2). destruct (forms_ext k _ v cs (BK v)) as (Q3 & Q4). specialize (B1 u). rewrite Q1, Q2 in B1. unfold u in B1. rewrite Q3, Q4, V2 in B1. apply Rle_antisym; [apply Rmult_le_reg_r with (1 := V1'); exact A1 | apply Rmult_le_reg_r with (1 := V1); exact B1].
  - destruct W' as (v' & i & I & NZ & Z). destruct (RF v') as (_ & R2). rewrite R2 in Z. set (u := fun b => Sm k (fun a => v' a * A a b)) in *. assert (U0 : forall b, (b < k)%nat -> u b = 0) by (intros b BB; destruct (Req_dec (u b) 0) as [Y | Y]; [exact Y | pose proof (A3 u b BB Y); lra]).
    apply NZ. rewrite <- (Sm_e k i v' I). rewrite (Sm_ext k _ (fun a => Sm k (fun b => B b i * (v' a * A a b)))); [| intros a AA; rewrite <- (Rmult_comm (v' a)); unfold delta; rewrite Nat.eqb_sym; fold (delta a i); rewrite <- (proj2 (BA a i AA I)), <- Sm_scal; apply Sm_ext; intros; ring]. rewrite Sm_swap. refine (eq_trans _ (Sm_zero k)). apply Sm_ext. intros b BB. rewrite Sm_scal. fold (u b). rewrite (U0 b BB). ring.
Qed.
Theorem C136_one eigh eigvalsh junk cs k : (length cs <= 1)%nat -> getGelmanRubin eigh eigvalsh junk cs k = Err NotFinite.
Proof. intro L. unfold getGelmanRubin, getGelmanRubinEigenvalues. destruct (Nat.leb_spec (length cs) 1); [reflexivity | lia]. Qed.
(** for one parameter, variance of means over mean variance by weight; the latter and the variance of the means by weight add to the variance of all samples *)
Lemma dev_sum w p : length w = length p -> sumR w <> 0 -> Sm (length p) (fun i => nth i w 0 * (nth i p 0 - wmean w p)) = 0.
Proof.
  intros L N. rewrite (Sm_ext _ _ (fun i => nth i w 0 * nth i p 0 + - wmean w p * nth i w 0)) by (intros; ring). rewrite Sm_plus, Sm_scal. assert (SW : Sm (length p) (fun i => nth i w 0) = sumR w) by (rewrite <- L; symmetry; apply sumR_Sm). rewrite SW. unfold wmean. field. exact N.
Qed.
Lemma about w p a : length w = length p -> sumR w <> 0 -> Sm (length p) (fun i => nth i w 0 * (nth i p 0 - a) ^ 2) = sumR w * wvar w p + sumR w * (wmean w p - a) ^ 2.
Proof.
  intros L N. pose proof (dev_sum w p L N) as D. set (m := wmean w p) in *. assert (SW : Sm (length p) (fun i => nth i w 0) = sumR w) by (rewrite <- L; symmetry; apply sumR_Sm).
  rewrite (Sm_ext _ _ (fun i => nth i w 0 * (nth i p 0 - m) ^ 2 + (2 * (m - a) * (nth i w 0 * (nth i p 0 - m)) + (m - a) ^ 2 * nth i w 0))) by (intros; ring). rewrite Sm_plus, Sm_plus, !Sm_scal, D, SW. unfold wvar. fold m. field. exact N.
Qed.
Theorem C136_mean_var n cs j : (2 <= length cs)%nat -> (forall c, In c cs -> good_chain n c) -> (j < n)%nat -> inside cs j <> 0 ->
  mean_var2 cs j = Ok (between cs j / inside cs j) /\
  inside cs j + sumR (map (fun c => sumR (cw c) * (wmean (cw c) (col c j) - wmean (joined_w cs) (joined cs j)) ^ 2) cs) / sumR (joined_w cs) = wvar (joined_w cs) (joined cs j).
Proof.
  intros L2 G J NZ. assert (CL : forall c, In c cs -> length (col c j) = length (cw c)) by (intros c C; destruct (G c C) as (LN & LC & _); unfold col; apply LC, nth_In; lia). assert (I2 : 2 <= INR (length cs)) by (change 2 with (INR 2); now apply le_INR).
  assert (NA : sumR (joined_w cs) <> 0). { unfold joined_w. rewrite sumR_flat. destruct cs as [| c cs]; [cbn in L2; lia |]. cbn [map]. rewrite sumR_cons. destruct (G c (or_introl eq_refl)) as (_ & _ & _ & N). assert (0 <= sumR (map (fun x => sumR (cw x)) cs)) by (apply sumR_nonneg; intros x X; destruct (G x (or_intror X)) as (_ & _ & _ & N'); lra). lra. }
  assert (LJ : length (joined_w cs) = length (joined cs j)) by (apply joined_length; intros; symmetry; now apply CL).
  assert (EB : sumR (map (fun c => (mean (cw c) (col c j) - mean (joined_w cs) (joined cs j)) ^ 2) cs) / (INR (length cs) - 1) = between cs j). { unfold between. f_equal. apply sumR_ext. intros c C. rewrite !mean_wmean; [reflexivity | exact LJ | symmetry; now apply CL]. }
  assert (EI : sumR (map (fun c => dot (cw c) (map (fun x => x ^ 2) (mean_diff (cw c) (col c j)))) cs) / get_norm (joined_w cs) = inside cs j). { unfold inside, get_norm. fold (joined_w cs). f_equal. apply sumR_ext. intros c C. pose proof (CL c C) as LC. rewrite dot_Sm by (unfold mean_diff; rewrite !map_length; now symmetry). unfold wvar. rewrite LC. destruct (G c C) as (_ & _ & _ & N). field_simplify; [| lra]. apply Sm_ext. intros i I. rewrite (nth_map0 _ _ i 0) by (unfold mean_diff; rewrite map_length; lia). unfold mean_diff. rewrite (nth_map0 _ _ i 0) by lia. rewrite mean_wmean by now symmetry. reflexivity. }
  split.
  - unfold mean_var2. cbv zeta. unfold rdivE at 1. destruct (Req_EM_T (INR (length cs) - 1) 0); [lra |]. cbn [bindR]. rewrite EB. unfold rdivE at 1. destruct (Req_EM_T (get_norm (joined_w cs)) 0); [contradiction |]. cbn [bindR]. rewrite EI. unfold rdivE. destruct (Req_EM_T (inside cs j) 0); [contradiction | reflexivity].
  - unfold inside. fold (joined_w cs). unfold wvar at 2. set (mu := wmean (joined_w cs) (joined cs j)). unfold Rdiv. rewrite <- Rmult_plus_distr_r. f_equal. rewrite <- sumR_plus.
    transitivity (sumR (map (fun c => Sm (length (col c j)) (fun i => nth i (cw c) 0 * (nth i (col c j) 0 - mu) ^ 2)) cs)).
    + apply sumR_ext. intros c C. destruct (G c C) as (_ & _ & _ & N). rewrite about by (try (symmetry; now apply CL); lra). reflexivity.
    + clearbody mu. clear - CL. set (q := fun w p => Sm (length p) (fun i => nth i w 0 * (nth i p 0 - mu) ^ 2)). change (sumR (map (fun c => q (cw c) (col c j)) cs) = q (joined_w cs) (joined cs j)). assert (QD : forall w p, length w = length p -> q w p = dot w (map (fun x => (x - mu) ^ 2) p)). { intros w p L. rewrite dot_Sm by (now rewrite map_length). unfold q. rewrite L. apply Sm_ext. intros i I. now rewrite (nth_map0 _ _ i 0) by exact I. }
      rewrite QD by (apply joined_length; intros; symmetry; now apply CL). unfold joined_w, joined. rewrite (sumR_ext _ (fun c => dot (cw c) (map (fun x => (x - mu) ^ 2) (col c j)))) by (intros c C; apply QD; symmetry; now apply CL). rewrite <- (dot_flat cw (fun c => map (fun x => (x - mu) ^ 2) (col c j))) by (intros c C; rewrite map_length; symmetry; now apply CL). f_equal. clear. induction cs as [| c cs IH]; [reflexivity |]. cbn [flat_map]. now rewrite map_app, IH.
Qed.
(** chains of equal weight: the worst combination is not better than any parameter *)
Theorem C136_single eigh eigvalsh junk n k cs j g s : is_eigh eigh k -> is_eigvalsh eigvalsh k -> (j < k <= n)%nat -> (2 <= length cs)%nat -> (forall c, In c cs -> good_chain n c) -> (forall c, In c cs -> sumR (cw c) = s) ->
  getGelmanRubin eigh eigvalsh junk cs k = Ok (Some g) -> exists q, mean_var2 cs j = Ok q /\ q <= g.
Proof.
  intros EH EV JK L2 G SW E. pose proof (C136_worst eigh eigvalsh junk n k EH EV ltac:(lia) cs L2 G) as W. rewrite E in W. destruct W as (A & _ & P). assert (CL : forall c a, In c cs -> (a < k)%nat -> length (col c a) = length (cw c)) by (intros c a C I; destruct (G c C) as (LN & LC & _); unfold col; apply LC, nth_In; lia). assert (I2 : 2 <= INR (length cs)) by (change 2 with (INR 2); now apply le_INR).
  assert (EC : forall c, In c cs -> comb k (delta j) c = col c j). { intros c C. apply (nth_ext _ _ 0 0); [rewrite comb_length; symmetry; apply CL; [exact C | lia] |]. intros i I. rewrite comb_length in I. rewrite comb_nth by exact I. apply (Sm_e k j (fun a => nth i (col c a) 0)). lia. }
  assert (ES : 0 < s). { destruct cs as [| c cs]; [cbn in L2; lia |]. rewrite <- (SW c (or_introl eq_refl)). now destruct (G c (or_introl eq_refl)) as (_ & _ & _ & N). }
  assert (EA : sumR (flat_map cw cs) = s * INR (length cs)). { rewrite sumR_flat, (sumR_ext _ (fun _ => s)) by exact SW. clear. induction cs as [| c cs IH]; [cbn; ring |]. cbn [map length]. rewrite sumR_cons, IH, S_INR. ring. }
  assert (EI : inside cs j = mean_of_vars k (delta j) cs). { unfold inside, mean_of_vars. rewrite EA. rewrite (sumR_ext _ (fun c => s * wvar (cw c) (comb k (delta j) c))) by (intros c C; rewrite (SW c C), (EC c C); reflexivity). rewrite sumR_scal. field. split; lra. }
  assert (EB : between cs j = var_of_means k (delta j) cs). { unfold between, var_of_means. cbv zeta. assert (EF : flat_map (comb k (delta j)) cs = flat_map (fun c => col c j) cs) by (clear - EC; induction cs as [| c cs IH]; [reflexivity |]; cbn [flat_map]; rewrite (EC c (or_introl eq_refl)), IH by (intros; apply EC; now right); reflexivity). rewrite EF. f_equal. apply sumR_ext. intros c C. now rewrite (EC c C). }
  assert (PI : 0 < inside cs j). { rewrite EI. apply (P (delta j) j); [lia |]. unfold delta. rewrite Nat.eqb_refl. lra. }
  destruct (C136_mean_var n cs j L2 G ltac:(lia) ltac:(lra)) as (M & _). eexists. split; [exact M |]. apply Rmult_le_reg_r with (1 := PI). unfold Rdiv. rewrite Rmult_assoc, Rinv_l, Rmult_1_r by lra. rewrite EB, EI. apply A.
Qed.
(** Examples *)
Definition zigzag : list R := [0; 1; 0; 1; 0; 1; 0; 1; 0; 1].
Lemma zigzag_rho : wmean (repeat 1 10) zigzag = 1 / 2 /\ wvar (repeat 1 10) zigzag = 1 / 4 /\ sumR (repeat 1 10) = 10.
Proof.
  assert (A : sumR (repeat 1 10) = 10) by (cbn [repeat sumR fold_right]; lra). assert (B : wmean (repeat 1 10) zigzag = 1 / 2). { unfold wmean. rewrite A. unfold Sm. cbn [length zigzag seq map nth sumR fold_right repeat]. lra. } split; [exact B |]. split; [| exact A]. unfold wvar. rewrite A, B. unfold Sm. cbn [length zigzag seq map nth sumR fold_right repeat]. lra.
Qed.
Example C135_ex : fits (repeat 1 10) zigzag /\ rho (repeat 1 10) zigzag 0 = 1 /\ rho (repeat 1 10) zigzag 1 <= 1 / 20 * rho (repeat 1 10) zigzag 0 /\ getCorrelationLength 3 (repeat 1 10) zigzag true (1 / 20) = Ok 1.
Proof.
  destruct zigzag_rho as (A & B & C). assert (F : fits (repeat 1 10) zigzag) by (split; [reflexivity | cbn; lia]).
  assert (R0 : rho (repeat 1 10) zigzag 0 = 1) by (apply rho0_unit; [exact F | intros x X; now apply repeat_spec in X | rewrite B; lra]).
  assert (R1 : rho (repeat 1 10) zigzag 1 = -1). { unfold rho, lagmean. rewrite A, B, C. unfold Sm. cbn [length zigzag seq map nth sumR fold_right repeat plus Nat.sub INR]. cbv beta. field_simplify; lra. }
  split; [exact F |]. split; [exact R0 |]. split; [rewrite R0, R1; lra |].
  assert (E : getCorrelationLength 3 (repeat 1 10) zigzag true (1 / 20) = Ok (rho (repeat 1 10) zigzag 0)); [| rewrite E, R0; reflexivity].
  rewrite (C135_length 3 (repeat 1 10) zigzag (1 / 20) 1 F); [| rewrite C; lra | rewrite B; lra | cbn; lia | rewrite R0, R1; lra | intros i I; assert (i = 0)%nat as -> by lia; rewrite R0; lra]. f_equal. cbn [Nat.sub]. rewrite Sm_0. ring.
Qed.
Definition e1 (k : nat) (M : matrix) : list R * matrix := ([M 0%nat 0%nat], fun _ _ => 1).
Lemma one_eigh : is_eigh e1 1 /\ is_eigvalsh (fun k M => fst (e1 k M)) 1.
Proof.
  assert (E : forall M, eigen_of 1 M (fst (e1 1 M)) (snd (e1 1 M))). { intro M. split; [reflexivity |]. split; [intros i j I J | intros i j I J]; assert (i = 0)%nat as -> by lia; assert (j = 0)%nat as -> by lia; unfold Sm; cbn [seq map e1 fst snd nth sumR fold_right]; [unfold delta; cbn [Nat.eqb]; lra | lra]. }
  split; [intros M _; apply E | intros M _; exists (snd (e1 1 M)); apply E].
Qed.
Definition two_chains : list chain := [mkChain [1; 1] [[0; 2]]; mkChain [1; 1] [[1; 3]]].
Lemma two_good c : In c two_chains -> good_chain 1 c.
Proof.
  assert (S2 : sumR [1; 1] = 2) by (cbn [sumR fold_right]; lra). intros [<- | [<- | []]]; unfold good_chain; cbn [cps cw]; (split; [reflexivity |]; split; [intros p [<- | []]; reflexivity |]; split; [intros x [<- | [<- | []]]; lra | rewrite S2; lra]).
Qed.
Lemma two_mean a b : wmean [1; 1] [a; b] = (a + b) / 2.
Proof. assert (S2 : sumR [1; 1] = 2) by (cbn [sumR fold_right]; lra). unfold wmean. rewrite S2. unfold Sm. cbn [length seq map nth sumR fold_right]. lra. Qed.
Lemma two_var a b : wvar [1; 1] [a; b] = (a - b) ^ 2 / 4.
Proof. assert (S2 : sumR [1; 1] = 2) by (cbn [sumR fold_right]; lra). unfold wvar. rewrite S2, two_mean. unfold Sm. cbn [length seq map nth sumR fold_right]. field. Qed.
Lemma two_forms v : var_of_means 1 v two_chains = v 0%nat ^ 2 / 2 /\ mean_of_vars 1 v two_chains = v 0%nat ^ 2.
Proof.
  assert (C1 : comb 1 v (mkChain [1; 1] [[0; 2]]) = [0; 2 * v 0%nat]) by (unfold comb, Sm, col; cbn [length cw seq map nth cps sumR fold_right]; repeat (f_equal; try ring)). assert (C2 : comb 1 v (mkChain [1; 1] [[1; 3]]) = [v 0%nat; 3 * v 0%nat]) by (unfold comb, Sm, col; cbn [length cw seq map nth cps sumR fold_right]; repeat (f_equal; try ring)).
  assert (S4 : sumR [1; 1; 1; 1] = 4) by (cbn [sumR fold_right]; lra). assert (M4 : wmean [1; 1; 1; 1] [0; 2 * v 0%nat; v 0%nat; 3 * v 0%nat] = 3 * v 0%nat / 2) by (unfold wmean; rewrite S4; unfold Sm; cbn [length seq map nth sumR fold_right]; lra).
  unfold var_of_means, mean_of_vars, two_chains. cbv zeta. cbn [flat_map map length app cw]. rewrite C1, C2. cbn [app]. rewrite M4, !two_mean, !two_var. change (INR 2) with (1 + 1). cbn [sumR fold_right]. split; field.
Qed.
Example C136_ex junk : getGelmanRubin e1 (fun k M => fst (e1 k M)) junk two_chains 1 = Ok (Some (1 / 2)).
Proof.
  destruct one_eigh as (EH & EV). pose proof (C136_worst e1 (fun k M => fst (e1 k M)) junk 1 1 EH EV ltac:(lia) two_chains ltac:(cbn; lia) two_good) as W. destruct (getGelmanRubin e1 (fun k M => fst (e1 k M)) junk two_chains 1) as [[g |] | e]; [| exfalso | contradiction].
  - destruct W as (_ & (v & V1 & V2) & _). destruct (two_forms v) as (A & B). rewrite A, B in V2. rewrite B in V1. do 2 f_equal. apply Rmult_eq_reg_r with (v 0%nat ^ 2); lra.
  - destruct W as (v & i & I & NZ & Z). destruct (two_forms v) as (_ & B). rewrite B in Z. assert (i = 0)%nat as -> by lia. nra.
Qed.
Example C136_mean_ex : mean_var2 two_chains 0 = Ok (1 / 2).
Proof.
  destruct one_eigh as (EH & EV). assert (I0 : inside two_chains 0 = 1). { unfold inside, two_chains, col. cbn [flat_map map app cw cps nth]. rewrite !two_var. assert (S4 : sumR [1; 1; 1; 1] = 4) by (cbn [sumR fold_right]; lra). assert (S2 : sumR [1; 1] = 2) by (cbn [sumR fold_right]; lra). rewrite S4, S2. cbn [sumR fold_right]. lra. }
  destruct (C136_mean_var 1 two_chains 0 ltac:(cbn; lia) two_good ltac:(lia) ltac:(rewrite I0; lra)) as (E & _). rewrite E, I0. f_equal. assert (M4 : wmean [1; 1; 1; 1] [0; 2; 1; 3] = 3 / 2) by (assert (S4 : sumR [1; 1; 1; 1] = 4) by (cbn [sumR fold_right]; lra); unfold wmean; rewrite S4; unfold Sm; cbn [length seq map nth sumR fold_right]; lra).
  unfold between, two_chains, col. cbn [flat_map map app cw cps nth length]. rewrite M4, !two_mean. change (INR 2) with (1 + 1). cbn [sumR fold_right]. lra.
Qed.
Print Assumptions C135_autocorrelation. Print Assumptions C135_constant. Print Assumptions C135_default_refuted. Print Assumptions C135_length. Print Assumptions C135_effective. Print Assumptions C135_unit. Print Assumptions C135_affine. Print Assumptions C135_weights. Print Assumptions C135_slow_refuted. Print Assumptions C135_one_move_refuted. Print Assumptions C135_pooled. Print Assumptions C135_pooled_one. Print Assumptions C135_longest.
Print Assumptions C136_worst. Print Assumptions C136_zero. Print Assumptions C136_linear. Print Assumptions C136_one. Print Assumptions C136_mean_var. Print Assumptions C136_single.
