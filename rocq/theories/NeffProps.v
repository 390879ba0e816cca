(** C143: effective numbers of samples for density estimates, and bandwidths. *)
From Coq Require Import Reals ZArith List Bool Lra Lia Psatz.
From Verif Require Import PyStr PyStrFacts PyBase ConvModel KdeModel Kde2Model StatModel StatSpec StatProofs CnvgModel CnvgSpec CnvgProofs CnvgProps NeffModel NeffSpec NeffProofs.
From Coq Require Import List.
Import ListNotations.
Local Open Scope R_scope.

Lemma Ok_inj {A} (a b : A) : Ok a = Ok b -> a = b. Proof. congruence. Qed.
Lemma corr_excess s w d k : s <> 0 -> length w = length d -> corr_k (kernel1' s) (uncorr_term (kernel1 s) d w) d w k = excess s w d k.
Proof.
  intros S L.
  assert (P : forall kern k, (forall x y, kern x y = exp (- ((x - y) ^ 2 / (4 * s ^ 2)))) -> pair_term kern d w k = lag s w d k).
  { intros kern j H. rewrite (pair_Sm kern d w j 0 L). apply Sm_ext. intros i I. rewrite H. reflexivity. }
  assert (K1 : forall x y, kernel1 s x y = exp (- ((x - y) ^ 2 / (4 * s ^ 2)))) by (intros; unfold kernel1; f_equal; field; exact S).
  assert (K2 : forall x y, kernel1' s x y = exp (- ((x - y) ^ 2 / (4 * s ^ 2)))) by (intros; unfold kernel1'; f_equal; field; exact S).
  unfold corr_k, excess, uncorr_term. cbv zeta. rewrite (P _ k K2). f_equal. f_equal.
  assert (Q : forall (f : nat -> R) a, sumR (map f (seq a 5)) = Sm 5 (fun j => f (a + j)%nat)).
  { intros f a. unfold Sm. rewrite <- (map_map (fun j => (a + j)%nat) f). f_equal. f_equal. cbn. repeat (f_equal; try lia). }
  rewrite !Q. unfold far. f_equal. apply Sm_ext. intros j J. apply P. exact K1.
Qed.

(** what an Ok result of the function means *)
Lemma Neff_inv n w d h scale m0 mc E : length w = length d -> Neff_kde false n w d h scale (Some m0) mc = Ok E ->
  exists s N, s = (match scale with Some s => if Req_EM_T s 0 then sqrt (wvar w d) else s | None => sqrt (wvar w d) end) * h /\ s <> 0 /\ (2 <= length d)%nat /\
    sum_N (sum2 w) (excess s w d) mc (Nat.min m0 (length d / 10)) = Ok N /\ N <> 0 /\ E = get_norm w ^ 2 / N.
Proof.
  intros L H. unfold Neff_kde in H. cbv zeta in H. cbn [bindR] in H. rewrite (var_wvar w d L) in H. 
  set (s := (match scale with Some s => if Req_EM_T s 0 then sqrt (wvar w d) else s | None => sqrt (wvar w d) end) * h) in *.
  destruct (Nat.leb_spec (length d) 1); [discriminate|]. destruct (Req_EM_T s 0) as [|S]; [discriminate|].
  rewrite (sum_N_ext _ _ (excess s w d)) in H by (intros; apply corr_excess; assumption).
  destruct (sum_N (sum2 w) (excess s w d) mc (Nat.min m0 (length d / 10))) as [N|] eqn:Q; [|discriminate]. cbn [bindR] in H.
  unfold rdivE in H. destruct (Req_EM_T N 0) as [|NZ]; [discriminate|]. exists s, N. repeat (split; [assumption || reflexivity || lia |]). symmetry. apply Ok_inj. exact H.
Qed.
(** the sum over all maximal distances: with none given some is *)
Lemma Neff_none n w d h scale mc : Neff_kde false n w d h scale None mc =
  bindR (getCorrelationLength n w d false (5 / 100)) (fun l => Neff_kde false n w d h scale (Some (int_of (l * (3 / 2)) + 4)%nat) mc).
Proof. unfold Neff_kde. generalize (getCorrelationLength n w d false (5 / 100)). intros [l|e]; reflexivity. Qed.
Lemma Neff_some n w d h scale mo mc E : Neff_kde false n w d h scale mo mc = Ok E -> exists m0, Neff_kde false n w d h scale (Some m0) mc = Ok E.
Proof.
  intros H. destruct mo as [m0|]; [exists m0; exact H|]. rewrite Neff_none in H.
  destruct (getCorrelationLength n w d false (5 / 100)) as [l|]; [|discriminate].
  exists (int_of (l * (3 / 2)) + 4)%nat. exact H.
Qed.

(** ** Numbers of samples *)
(** never more than the number that the weights alone give, which is at most the number of rows *)
Theorem C143_bounds : forall nested n w d h scale mo mc E, length w = length d -> get_norm w <> 0 -> 0 <= mc ->
  Neff_kde nested n w d h scale mo mc = Ok E -> 0 < E <= kish w /\ kish w <= INR (length w).
Proof.
  intros nested n w d h scale mo mc E L G M H. pose proof (kish_le w G) as [K1 K2]. pose proof (norm_nonzero_sum2 w G) as P.
  split; [|exact K2]. destruct nested.
  - unfold Neff_kde, uncorrelated_Neff, rdivE in H. destruct (Req_EM_T (sum2 w) 0); [lra|]. apply Ok_inj in H. rewrite kish_eq in *. lra.
  - apply Neff_some in H. destruct H as [m0 H]. destruct (Neff_inv _ _ _ _ _ _ _ _ L H) as [s [N [_ [_ [_ [Q [_ X]]]]]]].
    apply sum_N_ge in Q; [|lra | exact M].
    assert (G2 : 0 < get_norm w ^ 2) by (pose proof (Rsqr_pos_lt _ G) as Y; unfold Rsqr in Y; cbn; lra).
    rewrite X. split; [apply Rdiv_lt_0_compat; lra|]. rewrite kish_eq. unfold Rdiv. apply Rmult_le_compat_l; [lra|]. apply Rinv_le_contravar; lra.
Qed.
Print Assumptions C143_bounds.
(** samples without correlation: the number of rows if all weights are equal *)
Theorem C143_equal : forall n w d h scale mo mc c, c <> 0 -> (0 < length w)%nat -> (forall i, (i < length w)%nat -> nth i w 0 = c) ->
  Neff_kde true n w d h scale mo mc = Ok (INR (length w)) /\ kish w = INR (length w).
Proof.
  intros n w d h scale mo mc c C P H.
  assert (PN : 0 < INR (length w)) by (apply lt_0_INR; exact P).
  assert (A : get_norm w = INR (length w) * c) by (rewrite get_norm_Sm, (Sm_ext _ _ (fun _ => c)) by exact H; apply Sm_const).
  assert (B : sum2 w = INR (length w) * c ^ 2) by (rewrite sum2_Sm, (Sm_ext _ _ (fun _ => c ^ 2)) by (intros i I; rewrite (H i I); reflexivity); apply Sm_const).
  assert (K : kish w = INR (length w)) by (rewrite kish_eq, A, B; field; split; lra).
  split; [|exact K]. unfold Neff_kde, uncorrelated_Neff, rdivE. destruct (Req_EM_T (sum2 w) 0) as [Z|Z].
  - exfalso. rewrite B in Z. apply Rmult_integral in Z. destruct Z as [Z|Z]; [lra|]. revert Z. apply pow_nonzero. exact C.
  - rewrite <- K, kish_eq. reflexivity.
Qed.
Print Assumptions C143_equal.
Example C143_equal_ex : Neff_kde true 1 [2; 2; 2] [5; 6; 7] (1 / 5) None None (5 / 100) = Ok (INR 3).
Proof. apply (proj1 (C143_equal 1 [2; 2; 2] _ _ _ _ _ 2 ltac:(lra) ltac:(cbn; lia) ltac:(intros [|[|[|i]]] I; cbn in *; try reflexivity; lia))). Qed.

(** weights in another unit, and another unit or origin of the parameter, do not matter if the largest distance is given *)
Theorem C143_units : forall n w d h m0 mc c a b, length w = length d -> get_norm w <> 0 -> 0 < c -> a <> 0 ->
  Neff_kde false n (map (fun x => c * x) w) (map (fun x => a * x + b) d) h None (Some m0) mc = Neff_kde false n w d h None (Some m0) mc.
Proof.
  intros n w d h m0 mc c a b L G C A. unfold Neff_kde. cbv zeta. cbn [bindR]. set (w' := map (fun x => c * x) w). set (d' := map (fun x => a * x + b) d).
  assert (Lw : length w' = length d) by (unfold w'; rewrite map_length; exact L).
  assert (Ld : length d' = length d) by (unfold d'; apply map_length).
  assert (Gw : get_norm w' = c * get_norm w) by (unfold w'; apply sum_scale).
  assert (Nw' : sumR w' <> 0) by (change (get_norm w' <> 0); rewrite Gw; apply Rmult_integral_contrapositive_currified; [lra | exact G]).
  assert (V : var w' d' = a ^ 2 * var w d).
  { rewrite (var_wvar w' d') by lia. rewrite (var_wvar w d L). unfold d'. rewrite wvar_affine by assumption. unfold w'. rewrite wvar_scale; [reflexivity | lra | exact G]. }
  assert (SD : sqrt (var w' d') = Rabs a * sqrt (var w d)).
  { rewrite V, sqrt_mult_alt by apply pow2_ge_0. f_equal. replace (a ^ 2) with (Rsqr a) by (unfold Rsqr; ring). apply sqrt_Rsqr_abs. }
  rewrite SD, Ld. set (s := sqrt (var w d)). destruct (Nat.leb (length d) 1); [reflexivity|].
  assert (AA : Rabs a <> 0) by (apply Rabs_no_R0; exact A).
  destruct (Req_EM_T (Rabs a * s * h) 0) as [Z|Z], (Req_EM_T (s * h) 0) as [Y|Y]; try reflexivity.
  - exfalso. rewrite Rmult_assoc in Z. apply Rmult_integral in Z. destruct Z; contradiction.
  - exfalso. apply Z. rewrite Rmult_assoc, Y. ring.
  - assert (A2 : Rabs a ^ 2 = a ^ 2) by (rewrite pow2_abs; reflexivity).
    assert (K1 : forall x y, kernel1 (Rabs a * s * h) (a * x + b) (a * y + b) = kernel1 (s * h) x y).
    { intros x y. unfold kernel1. f_equal. f_equal. f_equal. rewrite Rmult_assoc, Rpow_mult_distr, A2. generalize (s * h) Y. intros r Y'. field. split; assumption. }
    assert (K2 : forall x y, kernel1' (Rabs a * s * h) (a * x + b) (a * y + b) = kernel1' (s * h) x y).
    { intros x y. rewrite !kernel_same by assumption. apply K1. }
    assert (U : uncorr_term (kernel1 (Rabs a * s * h)) d' w' = c ^ 2 * uncorr_term (kernel1 (s * h)) d w).
    { unfold d'. rewrite (uncorr_map (fun x => a * x + b) (kernel1 (s * h))) by assumption. unfold w'. apply uncorr_scal. exact L. }
    rewrite (sum_N_ext _ _ (fun k => c ^ 2 * corr_k (kernel1' (s * h)) (uncorr_term (kernel1 (s * h)) d w) d w k)).
    + assert (S2 : sum2 w' = c ^ 2 * sum2 w).
      { rewrite !sum2_Sm. unfold w'. rewrite map_length, <- Sm_scal. apply Sm_ext. intros i I. rewrite nth_scale. ring. }
      rewrite S2, sum_N_scal by (apply pow_lt; exact C).
      destruct (sum_N _ _ _ _) as [N|]; [|reflexivity]. cbn [bindR]. rewrite Gw. unfold rdivE.
      destruct (Req_EM_T (c ^ 2 * N) 0) as [P|P], (Req_EM_T N 0) as [Q|Q]; try reflexivity.
      * exfalso. apply Rmult_integral in P. destruct P as [P|P]; [|contradiction]. revert P. apply pow_nonzero. lra.
      * exfalso. apply P. rewrite Q. ring.
      * f_equal. field. split; [exact Q | lra].
    + intros k. unfold corr_k. rewrite U, Ld. unfold d'. rewrite (pair_map (fun x => a * x + b) (kernel1' (s * h))) by assumption.
      unfold w'. rewrite pair_scal by exact L. ring.
Qed.
Print Assumptions C143_units.
Example C143_units_ex : get_norm [1; 2] <> 0 /\ map (fun x => 3 * x) [1; 2] = [3; 6].
Proof. split; [unfold get_norm; cbn; lra | cbn; f_equal; [lra | f_equal; lra]]. Qed.

(** FINDING: without a largest distance, which comes from the correlation length in units of rows: that length goes with the square of the unit of weights *)
Theorem C143_rows_refuted : forall n w p m c, fits w p -> sumR w <> 0 -> wvar w p <> 0 -> 0 < c ->
  getCorrelationLength n (map (fun x => c * x) w) p false m = bindR (getCorrelationLength n w p false m) (fun l => Ok (c ^ 2 * l)).
Proof.
  intros n w p m c F N V C. pose proof F as (L & P & B). set (u := map (fun x => c * x) w).
  assert (LU : length u = length w) by (unfold u; apply map_length). assert (FU : fits u p) by (unfold fits; rewrite LU; exact F).
  assert (NU : sumR u <> 0) by (unfold u; rewrite sum_scale; apply Rmult_integral_contrapositive_currified; [lra | exact N]).
  assert (VU : wvar u p <> 0) by (unfold u; rewrite wvar_scale; [exact V | lra | exact N]).
  assert (length p / 10 < length p)%nat by (apply Nat.div_lt; lia).
  unfold getCorrelationLength. rewrite LU, L. rewrite (auto_ok n w p (length p / 10) false F ltac:(lia) N V), (auto_ok n u p (length p / 10) false FU ltac:(lia) NU VU).
  cbn [bindR]. f_equal. rewrite <- corr_length_scale by (apply pow_lt; exact C). f_equal. rewrite map_map. apply map_ext. intros k. unfold unit_of.
  unfold u. rewrite wvar_scale by (try exact N; lra).
  assert (E : lagmean (map (fun x => c * x) w) p k = c ^ 2 * lagmean w p k).
  { unfold lagmean. rewrite wmean_scale by (try exact N; lra). unfold Rdiv. rewrite <- Rmult_assoc. f_equal. rewrite <- Sm_scal. apply Sm_ext. intros i I. rewrite !nth_scale. ring. }
  rewrite E. unfold Rdiv. ring.
Qed.
Print Assumptions C143_rows_refuted.

(** ** Sum of correlations *)
Lemma range_one a m : range a (m + 1) 1 = seq a (m + 1 - a).
Proof.
  unfold range. replace ((m + 1 - a + (1 - 1)) / 1)%nat with (m + 1 - a)%nat by (rewrite Nat.div_1_r; lia).
  generalize (m + 1 - a)%nat. intros j. transitivity (map (fun i => (a + i)%nat) (seq 0 j)); [apply map_ext; intros; lia|].
  revert a. induction j as [|j IH]; intros a; [reflexivity|]. cbn [seq map]. f_equal; [lia|]. rewrite <- (IH (S a)), <- seq_shift, map_map. apply map_ext. intros; lia.
Qed.
Lemma cumulate_run corr thr K m : reaches corr thr m K -> forall j s acc, (4 <= s <= K + 1)%nat -> (s + j = m + 1)%nat ->
  cumulate corr thr 1 (seq s j) acc = acc + Sm (K + 1 - s) (fun i => corr (s + i)%nat).
Proof.
  intros [A [B D]]. induction j as [|j IH]; intros s acc S E.
  - replace (K + 1 - s)%nat with 0%nat by lia. rewrite Sm_0. cbn. ring.
  - cbn [seq cumulate]. cbv zeta. destruct (Nat.eq_dec s (K + 1)) as [Z|Z].
    + replace (K + 1 - s)%nat with 0%nat by lia. rewrite Sm_0. destruct (Rlt_dec (corr s) thr) as [|n]; [ring|]. exfalso. apply n.
      replace s with (Datatypes.S K) by lia. apply D. lia.
    + destruct (Rlt_dec (corr s) thr) as [l|n]; [pose proof (B s ltac:(lia)); lra|]. destruct (Nat.ltb_spec 3 s); [|lia].
      rewrite (IH (Datatypes.S s)) by lia. replace (K + 1 - s)%nat with (Datatypes.S (K + 1 - Datatypes.S s)) by lia. rewrite Sm_shift, Nat.add_0_r.
      cbn [INR]. rewrite Rmult_1_r, Rplus_assoc. f_equal. f_equal. apply Sm_ext. intros i I. f_equal. lia.
Qed.
Lemma sum_N_direct c0 corr mc m K N : sum_N c0 corr mc m = Ok N -> (m < 20)%nat -> corr 2%nat <> mc * c0 -> reaches corr (mc * c0) m K ->
  N = c0 + 2 * corr_sum corr K - (if Nat.leb 3 K then corr 3%nat else 0).
Proof.
  intros E M D R. pose proof R as [A [B C]]. unfold sum_N in E. cbv zeta in E. unfold corr_sum.
  destruct (Nat.leb_spec 1 m) as [M1|]; [|discriminate].
  destruct (Rlt_dec (corr 1%nat) (mc * c0)) as [L1|L1].
  { assert (K = 0)%nat. { destruct K; [reflexivity|]. pose proof (B 1%nat ltac:(lia)). lra. } subst K. rewrite Sm_0. cbn [Nat.leb]. apply Ok_inj in E. lra. }
  assert (K1 : (1 <= K)%nat). { destruct K; [|lia]. exfalso. apply L1. apply C. lia. }
  destruct (Nat.leb_spec 2 m) as [M2|]; [|discriminate].
  destruct (Rlt_dec (mc * c0) (corr 2%nat)) as [L2|L2].
  - assert (K2 : (2 <= K)%nat). { destruct (Nat.eq_dec K 1) as [->|]; [|lia]. exfalso. pose proof (C ltac:(lia)). lra. }
    assert (ST : step_size (find_max m corr (mc * c0) m) = 1%nat).
    { unfold step_size. destruct (find_max_end m corr (mc * c0) m ltac:(lia)) as [Q|[[Q|Q] _]];
      (destruct (Nat.ltb_spec (find_max m corr (mc * c0) m) 20) as [|G]; [reflexivity|]); [lia | lia |].
      pose proof (Nat.div_le_upper_bound m 3 m ltac:(lia) ltac:(lia)). lia. }
    rewrite ST, range_one in E. apply Ok_inj in E. rewrite <- E. clear E.
    destruct (Nat.leb_spec 3 K) as [K3|K3].
    + replace (m + 1 - 3)%nat with (Datatypes.S (m - 3)) by lia. cbn [seq cumulate]. cbv zeta.
      destruct (Rlt_dec (corr 3%nat) (mc * c0)) as [l|n]; [pose proof (B 3%nat ltac:(lia)); lra|]. cbn [Nat.ltb Nat.leb INR].
      rewrite (cumulate_run corr (mc * c0) K m R (m - 3) 4) by lia.
      replace K with (3 + (K + 1 - 4))%nat at 2 by lia. rewrite Sm_app. rewrite !Sm_S, Sm_0.
      rewrite (Sm_ext _ (fun i => corr (4 + i)%nat) (fun i => corr (Datatypes.S (3 + i)))) by (intros; f_equal; lia). lra.
    + assert (K = 2)%nat by lia. subst K. rewrite !Sm_S, Sm_0.
      destruct (m + 1 - 3)%nat as [|j] eqn:J; cbn [seq cumulate]; [ring|]. cbv zeta.
      destruct (Rlt_dec (corr 3%nat) (mc * c0)) as [l|n]; [ring|]. exfalso. apply n. apply C. lia.
  - assert (K2 : (K = 1)%nat). { destruct (le_lt_dec K 1); [lia|]. exfalso. pose proof (B 2%nat ltac:(lia)). lra. }
    subst K. rewrite Sm_S, Sm_0. cbn [Nat.leb]. apply Ok_inj in E. lra.
Qed.
(** for correlations over less than 20 rows: the sum of the correlation up to where it falls below the threshold, but that at 3 only half *)
Theorem C143_direct : forall n w d h scale m0 mc E s K, length w = length d -> Neff_kde false n w d h scale (Some m0) mc = Ok E ->
  s = (match scale with Some s => if Req_EM_T s 0 then sqrt (wvar w d) else s | None => sqrt (wvar w d) end) * h ->
  let m := Nat.min m0 (length d / 10) in let squares := Sm (length w) (fun i => nth i w 0 ^ 2) in
  (m < 20)%nat -> excess s w d 2 <> mc * squares -> reaches (excess s w d) (mc * squares) m K ->
  E * (squares + 2 * corr_sum (excess s w d) K - (if Nat.leb 3 K then excess s w d 3 else 0)) = Sm (length w) (fun i => nth i w 0) ^ 2.
Proof.
  intros n w d h scale m0 mc E s K L H ES. cbv zeta. intros M D R.
  destruct (Neff_inv _ _ _ _ _ _ _ _ L H) as [s' [N [ES' [_ [_ [Q [NZ X]]]]]]].
  rewrite <- ES in ES'. rewrite ES' in Q. rewrite <- sum2_Sm in *. rewrite <- get_norm_Sm.
  rewrite <- (sum_N_direct _ _ _ _ _ _ Q M D R), X. field. exact NZ.
Qed.
Print Assumptions C143_direct.
(** FINDING: so, if correlations reach that far, the number is larger than with the sum that the comment in the program gives *)
Theorem C143_half_refuted : forall n w d h scale m0 mc E s K, length w = length d -> get_norm w <> 0 -> Neff_kde false n w d h scale (Some m0) mc = Ok E ->
  s = (match scale with Some s => if Req_EM_T s 0 then sqrt (wvar w d) else s | None => sqrt (wvar w d) end) * h ->
  let m := Nat.min m0 (length d / 10) in let squares := Sm (length w) (fun i => nth i w 0 ^ 2) in
  (m < 20)%nat -> excess s w d 2 <> mc * squares -> reaches (excess s w d) (mc * squares) m K -> 0 < mc -> (3 <= K)%nat ->
  Sm (length w) (fun i => nth i w 0) ^ 2 / (squares + 2 * corr_sum (excess s w d) K) < E.
Proof.
  intros n w d h scale m0 mc E s K L G H ES. cbv zeta. intros M D R MC K3.
  pose proof (C143_direct n w d h scale m0 mc E s K L H ES M D R) as T. destruct (Nat.leb_spec 3 K); [|lia].
  destruct (C143_bounds false n w d h scale (Some m0) mc E L G (Rlt_le _ _ MC) H) as [[EP _] _].
  pose proof (norm_nonzero_sum2 w G) as P. rewrite sum2_Sm in P. set (sq := Sm (length w) (fun i => nth i w 0 ^ 2)) in *.
  pose proof R as [A [B C]]. assert (TP : 0 < mc * sq) by (apply Rmult_lt_0_compat; assumption).
  pose proof (B 3%nat ltac:(lia)) as B3.
  assert (CS : 0 <= corr_sum (excess s w d) K) by (apply Sm_nonneg; intros i I; pose proof (B (Datatypes.S i) ltac:(lia)); lra).
  rewrite <- T. apply Rmult_lt_reg_r with (sq + 2 * corr_sum (excess s w d) K); [lra|].
  unfold Rdiv. rewrite (Rmult_assoc _ (/ _)), Rinv_l, Rmult_1_r by lra. apply Rmult_lt_compat_l; [exact EP|]. lra.
Qed.
Print Assumptions C143_half_refuted.
(** from 20 rows on there is always a result; FINDING: with less than 10 there is none *)
Theorem C143_defined : forall n w d h scale m0 mc, length w = length d -> get_norm w <> 0 -> 0 <= mc ->
  let s := (match scale with Some s => if Req_EM_T s 0 then sqrt (wvar w d) else s | None => sqrt (wvar w d) end) * h in s <> 0 ->
  (20 <= length d)%nat -> (2 <= m0)%nat -> exists E, Neff_kde false n w d h scale (Some m0) mc = Ok E.
Proof.
  intros n w d h scale m0 mc L G M. cbv zeta. intros S LD M0. unfold Neff_kde. cbv zeta. cbn [bindR]. rewrite (var_wvar w d L).
  destruct (Nat.leb_spec (length d) 1); [lia|]. destruct (Req_EM_T _ 0) as [|_]; [contradiction|].
  assert (M2 : (2 <= Nat.min m0 (length d / 10))%nat) by (apply Nat.min_glb; [exact M0 | apply Nat.div_le_lower_bound; lia]).
  match goal with |- exists E, bindR (sum_N ?a ?b ?c ?d) _ = _ => assert (Q : exists N, sum_N a b c d = Ok N) end.
  { unfold sum_N. cbv zeta. destruct (Nat.leb_spec 1 (Nat.min m0 (length d / 10))); [|lia]. destruct (Rlt_dec _ _); [eauto|].
    destruct (Nat.leb_spec 2 (Nat.min m0 (length d / 10))); [|lia]. destruct (Rlt_dec _ _); eauto. }
  destruct Q as [N Q]. rewrite Q. cbn [bindR]. pose proof (norm_nonzero_sum2 w G). apply sum_N_ge in Q; [|lra | exact M].
  unfold rdivE. destruct (Req_EM_T N 0); [lra|]. eauto.
Qed.
Print Assumptions C143_defined.
Theorem C143_few_refuted : forall n w d h scale m0 mc, length w = length d ->
  let s := (match scale with Some s => if Req_EM_T s 0 then sqrt (wvar w d) else s | None => sqrt (wvar w d) end) * h in s <> 0 ->
  (2 <= length d < 10)%nat -> Neff_kde false n w d h scale (Some m0) mc = Err IndexError.
Proof.
  intros n w d h scale m0 mc L. cbv zeta. intros S LD. unfold Neff_kde. cbv zeta. cbn [bindR]. rewrite (var_wvar w d L).
  destruct (Nat.leb_spec (length d) 1); [lia|]. destruct (Req_EM_T _ 0) as [|_]; [contradiction|].
  rewrite (Nat.div_small (length d) 10), Nat.min_0_r by lia. reflexivity.
Qed.
Print Assumptions C143_few_refuted.

(** a step in the middle of 30 rows: correlations reach to 3 *)
Definition step_d : list R := repeat 0 15 ++ repeat 1 15.
Definition step_w : list R := repeat 1 30.
Lemma step_nth i : (i < 30)%nat -> nth i step_d 0 = (if Nat.ltb i 15 then 0 else 1) /\ nth i step_w 0 = 1.
Proof.
  intros I. unfold step_d, step_w. split.
  - destruct (Nat.ltb_spec i 15); [rewrite app_nth1 by (rewrite repeat_length; lia) | rewrite app_nth2 by (rewrite repeat_length; lia)].
    + apply nth_repeat.
    + rewrite repeat_length. do 30 (destruct i as [|i]; [try lia; reflexivity|]). lia.
  - do 30 (destruct i as [|i]; [reflexivity|]). lia.
Qed.
Example C143_half_ex : let s := 1 / 2 in reaches (excess s step_w step_d) (5 / 100 * 30) (Nat.min 3 (length step_d / 10)) 3 /\ excess s step_w step_d 2 <> 5 / 100 * 30 /\
  Sm (length step_w) (fun i => nth i step_w 0 ^ 2) = 30.
Proof.
  cbv zeta. set (q := exp (- (1))).
  assert (Q : 0 < q < 1 / 2).
  { split; [apply exp_pos|]. unfold q. rewrite exp_Ropp. pose proof (exp_ineq1 1 ltac:(lra)). unfold Rdiv. rewrite Rmult_1_l. apply Rinv_lt_contravar; lra. }
  assert (LD : length step_d = 30%nat) by reflexivity.
  assert (TERM : forall i k, (k + i < 30)%nat -> exp (- ((nth i step_d 0 - nth (k + i) step_d 0) ^ 2 / (4 * (1 / 2) ^ 2))) * nth i step_w 0 * nth (k + i) step_w 0 =
     if (Nat.ltb i 15 && negb (Nat.ltb (k + i) 15))%bool then q else 1).
  { intros i k H. destruct (step_nth i ltac:(lia)) as [-> ->]. destruct (step_nth (k + i) H) as [-> ->]. unfold q.
    destruct (Nat.ltb_spec i 15), (Nat.ltb_spec (k + i) 15); cbn [andb negb]; rewrite !Rmult_1_r; try lia.
    - replace (- ((0 - 0) ^ 2 / (4 * (1 / 2) ^ 2))) with 0 by field. apply exp_0.
    - f_equal. field.
    - replace (- ((1 - 1) ^ 2 / (4 * (1 / 2) ^ 2))) with 0 by field. apply exp_0. }
  assert (NEAR : forall k, (k <= 15)%nat -> lag (1 / 2) step_w step_d k = INR (15 - k) + (INR k * q + INR (15 - k))).
  { intros k K. unfold lag. rewrite LD. replace (30 - k)%nat with ((15 - k) + (k + (15 - k)))%nat by lia. rewrite !Sm_app. f_equal; [|f_equal].
    - rewrite (Sm_ext _ _ (fun _ => 1)); [rewrite Sm_const; ring|]. intros i I. rewrite TERM by lia.
      destruct (Nat.ltb_spec (k + i) 15); [|lia]. rewrite andb_false_r. reflexivity.
    - rewrite (Sm_ext _ _ (fun _ => q)); [rewrite Sm_const; ring|]. intros i I. rewrite TERM by lia.
      destruct (Nat.ltb_spec (15 - k + i) 15); [|lia]. destruct (Nat.ltb_spec (k + (15 - k + i)) 15); [lia|]. reflexivity.
    - rewrite (Sm_ext _ _ (fun _ => 1)); [rewrite Sm_const; ring|]. intros i I. rewrite TERM by lia.
      destruct (Nat.ltb_spec (15 - k + (k + i)) 15); [lia|]. reflexivity. }
  assert (FAR : forall k, (15 <= k <= 19)%nat -> lag (1 / 2) step_w step_d k = INR (30 - k) * q).
  { intros k K. unfold lag. rewrite LD. rewrite (Sm_ext _ _ (fun _ => q)); [apply Sm_const|]. intros i I. rewrite TERM by lia.
    destruct (Nat.ltb_spec i 15); [|lia]. destruct (Nat.ltb_spec (k + i) 15); [lia|]. reflexivity. }
  assert (U : Sm 5 (fun j => lag (1 / 2) step_w step_d (far 30 j)) / Sm 5 (fun j => INR 30 - INR (far 30 j)) = q).
  { rewrite (Sm_ext 5 (fun j => lag (1 / 2) step_w step_d (far 30 j)) (fun j => q * (INR 30 - INR (far 30 j)))).
    - rewrite Sm_scal. rewrite !Sm_S, Sm_0. unfold far. change (30 / 2)%nat with 15%nat. cbn [Nat.add]. rewrite !INR_IZR_INZ. cbn [Z.of_nat Pos.of_succ_nat Pos.succ]. field.
    - intros j J. unfold far. change (30 / 2)%nat with 15%nat. rewrite FAR by lia. rewrite minus_INR by lia. ring. }
  assert (X : forall k, (k <= 15)%nat -> excess (1 / 2) step_w step_d k = (30 - 2 * INR k) * (1 - q)).
  { intros k K. unfold excess. cbv zeta. rewrite LD, U, NEAR by exact K. rewrite minus_INR by exact K.
    replace (INR 30) with 30 by (rewrite INR_IZR_INZ; reflexivity). replace (INR 15) with 15 by (rewrite INR_IZR_INZ; reflexivity). ring. }
  split; [|split].
  - rewrite LD. change (Nat.min 3 (30 / 10)) with 3%nat. split; [lia|]. split; [|lia]. intros k K. rewrite X by lia.
    assert (INR k <= 3) by (replace 3 with (INR 3) by (cbn; ring); apply le_INR; lia). nra.
  - rewrite X by lia. cbn [INR]. lra.
  - change (length step_w) with 30%nat. rewrite (Sm_ext _ _ (fun _ => 1)); [rewrite Sm_const, INR_IZR_INZ; cbn; ring|]. intros i I. destruct (step_nth i I) as [_ ->]. ring.
Qed.

(** ** Two parameters *)
Lemma sum_until_nonneg corr thr ks : 0 <= thr -> 0 <= sum_until corr thr ks.
Proof. intros T. induction ks as [|k r IH]; cbn [sum_until]; [lra|]. destruct (Rlt_dec (corr k) thr); lra. Qed.
Theorem C143_bounds2 : forall nested n w d1 d2 h mo mc E, length w = length d1 -> get_norm w <> 0 -> 0 <= mc ->
  Neff_kde_2d nested n w d1 d2 h mo mc = Ok E -> 0 < E <= kish w /\ kish w <= INR (length w).
Proof.
  intros nested n w d1 d2 h mo mc E L G M H. pose proof (kish_le w G) as [K1 K2]. pose proof (norm_nonzero_sum2 w G) as P.
  destruct nested; [exact (C143_bounds true n w d1 h None None mc E L G M H)|].
  unfold Neff_kde_2d in H. cbv zeta in H. destruct (Rlt_dec _ _); [exact (C143_bounds false n w d1 h None None mc E L G M H)|].
  destruct (Req_EM_T _ 0) in H; [discriminate|]. destruct (Req_EM_T h 0); [discriminate|].
  match type of H with bindR ?x _ = _ => destruct x as [m|]; cbn [bindR] in H; [|discriminate] end.
  destruct (Nat.leb _ _) in H; [discriminate|]. unfold rdivE in H.
  match type of H with (if Req_EM_T (_ + 2 * ?c) 0 then _ else _) = _ => set (S := c) in *; assert (SP : 0 <= S) by (apply sum_until_nonneg; apply Rmult_le_pos; lra) end.
  destruct (Req_EM_T _ 0) in H; [discriminate|]. apply Ok_inj in H. split; [|exact K2].
  assert (G2 : 0 < get_norm w ^ 2) by (pose proof (Rsqr_pos_lt _ G) as Y; unfold Rsqr in Y; cbn; lra).
  rewrite <- H. split; [apply Rdiv_lt_0_compat; lra|]. rewrite kish_eq. unfold Rdiv. apply Rmult_le_compat_l; [lra|]. apply Rinv_le_contravar; lra.
Qed.
Print Assumptions C143_bounds2.

(** ** Bandwidth *)
(** a bandwidth that goes with the number of samples to the power -1/5 becomes one that goes with the power -1/(4 m + 5) for order m; the rule of thumb
    of a normal distribution takes the place of a bandwidth that could not be found or is too small *)
Theorem C143_bandwidth : forall isj par N quiet qchi raises order mo ko h, 0 < N ->
  getAutoBandwidth1D isj par N quiet qchi raises order mo ko = Ok h ->
  let width := Rmax (p_max par) (range_max par) - Rmin (p_min par) (range_min par) in
  let m0 := match mo with Some m => m | None => order end in
  let m := if Nat.leb ko 1 then m0 else Nat.max m0 1 in
  exists a, h = a * Rpower N (- 1 / (4 * INR m + 5)) /\
    ((exists h0, isj N = Some h0 /\ 1 / 100 * Rpower N (- 1 / 5) * (range_max par - range_min par) / width <= h0 /\ a = h0 * Rpower N (1 / 5)) \/
     ((forall h0, isj N = Some h0 -> h0 < 1 / 100 * Rpower N (- 1 / 5) * (range_max par - range_min par) / width) /\ a = 106 / 100 * sigma_range par / width)).
Proof.
  intros isj par N quiet qchi raises order mo ko h P H. cbv zeta. unfold getAutoBandwidth1D in H. cbv zeta in H.
  set (width := Rmax (p_max par) (range_max par) - Rmin (p_min par) (range_min par)) in *.
  set (low := 1 / 100 * Rpower N (- 1 / 5) * (range_max par - range_min par) / width) in *.
  set (m0 := match mo with Some m => m | None => order end) in *.
  replace (if Nat.ltb 1 ko then Nat.max m0 1 else m0) with (if Nat.leb ko 1 then m0 else Nat.max m0 1) in H
    by (destruct (Nat.ltb_spec 1 ko), (Nat.leb_spec ko 1); try reflexivity; lia).
  set (m := if Nat.leb ko 1 then m0 else Nat.max m0 1) in *. clearbody m.
  set (fb := if _ : bool then Err BandwidthError else Ok (106 / 100 * sigma_range par * Rpower N (- 1 / 5) / width)) in H.
  assert (F : forall x, fb = Ok x -> x = 106 / 100 * sigma_range par / width * Rpower N (- 1 / 5)).
  { intros x X. unfold fb in X. match type of X with (if ?c then _ else _) = _ => destruct c end; [discriminate|]. apply Ok_inj in X. rewrite <- X. unfold Rdiv. ring. }
  clearbody fb.
  assert (POW : Rpower N (1 / 5) * Rpower N (- 1 / 5) = 1) by (rewrite <- Rpower_plus; replace (1 / 5 + - 1 / 5) with 0 by field; apply Rpower_O; exact P).
  assert (IN : forall x, (if Nat.eqb m 0 then Ok x else Ok (x * Rpower N (1 / 5 - 1 / (4 * INR m + 5)))) = Ok h ->
     h = x * Rpower N (1 / 5) * Rpower N (- 1 / (4 * INR m + 5))).
  { intros x X. assert (Q : 0 <= INR m) by apply pos_INR. rewrite Rmult_assoc, <- Rpower_plus.
    replace (1 / 5 + - 1 / (4 * INR m + 5)) with (1 / 5 - 1 / (4 * INR m + 5)) by (field; lra).
    destruct (Nat.eqb_spec m 0) as [->|NZ]; apply Ok_inj in X; [|symmetry; exact X]. rewrite <- X. cbn [INR].
    replace (1 / 5 - 1 / (4 * 0 + 5)) with 0 by field. rewrite Rpower_O by exact P. ring. }
  assert (FB : forall (Q : forall h0, isj N = Some h0 -> h0 < low) x, fb = Ok x -> (if Nat.eqb m 0 then Ok x else Ok (x * Rpower N (1 / 5 - 1 / (4 * INR m + 5)))) = Ok h ->
     exists a, h = a * Rpower N (- 1 / (4 * INR m + 5)) /\ ((exists h0, isj N = Some h0 /\ low <= h0 /\ a = h0 * Rpower N (1 / 5)) \/
       ((forall h0, isj N = Some h0 -> h0 < low) /\ a = 106 / 100 * sigma_range par / width))).
  { intros Q x X Y. apply IN in Y. rewrite (F x X) in Y. exists (106 / 100 * sigma_range par / width). split; [|right; split; [exact Q | reflexivity]].
    rewrite Y. rewrite (Rmult_assoc (106 / 100 * sigma_range par / width)), (Rmult_comm (Rpower N (- 1 / 5))), POW. ring. }
  destruct (isj N) as [h0|] eqn:I.
  - destruct (Rlt_dec h0 low) as [l|g].
    + destruct fb as [x|] eqn:Z; [|discriminate]. cbn [bindR] in H. apply (FB ltac:(intros h1 X; assert (h1 = h0) by congruence; subst; exact l) x eq_refl H).
    + cbn [bindR] in H. exists (h0 * Rpower N (1 / 5)). split; [apply IN; exact H|]. left. exists h0. split; [reflexivity|]. split; [lra | reflexivity].
  - destruct fb as [x|] eqn:Z; [|discriminate]. cbn [bindR] in H. apply (FB ltac:(discriminate) x eq_refl H).
Qed.
Print Assumptions C143_bandwidth.
(** an error is raised only if it was asked for, the rule of thumb is used and the name is not among those without warnings *)
Theorem C143_raises : forall isj par N quiet qchi raises order mo ko e,
  getAutoBandwidth1D isj par N quiet qchi raises order mo ko = Err e ->
  raises = true /\ ~ In (p_name par) quiet /\ (qchi = true -> contains (L "chi2_") (p_name par) = false /\ contains (L "minuslog") (p_name par) = false).
Proof.
  intros isj par N quiet qchi raises order mo ko e H. unfold getAutoBandwidth1D in H. cbv zeta in H.
  set (warns := _ && _) in H.
  assert (K : warns = true).
  { destruct warns; [reflexivity|]. exfalso. destruct (isj N) as [h0|].
    - unfold bindR in H. repeat match type of H with context [if ?c then _ else _] => destruct c end; discriminate.
    - unfold bindR in H. repeat match type of H with context [if ?c then _ else _] => destruct c end; discriminate. }
  unfold warns in K. apply andb_true_iff in K. destruct K as [W R]. split; [exact R|]. apply andb_true_iff in W. destruct W as [W1 W2]. split.
  - intros X. apply negb_true_iff in W1. assert (existsb (str_eqb (p_name par)) quiet = true); [|congruence]. apply existsb_exists. exists (p_name par). split; [exact X | apply str_eqb_refl].
  - intros ->. cbn [negb orb] in W2. apply andb_true_iff in W2. destruct W2 as [A B]. apply negb_true_iff in A, B. split; assumption.
Qed.
Print Assumptions C143_raises.
(** 32 samples, no bandwidth found, order 0: the number of samples to the power -1/5 is 1/2 *)
Example C143_bandwidth_ex : getAutoBandwidth1D (fun _ => None) (mkPar 0 1 0 1 (1 / 4) (L "x")) 32 [] true false 0 None 1 = Ok (53 / 400).
Proof.
  unfold getAutoBandwidth1D. cbv zeta. cbn [p_max range_max p_min range_min sigma_range p_name]. rewrite andb_false_r. cbn [bindR Nat.ltb Nat.leb Nat.eqb].
  f_equal. rewrite Rmax_left, Rmin_left by lra. replace (Rpower 32 (- 1 / 5)) with (1 / 2); [lra|].
  replace 32 with (Rpower 2 5) by (replace 5 with (INR 5) by (cbn; lra); rewrite Rpower_pow by lra; cbn; lra).
  rewrite Rpower_mult. replace (5 * (- 1 / 5)) with (- (1)) by lra. rewrite Rpower_Ropp, Rpower_1 by lra. lra.
Qed.
Example C143_raises_ex : getAutoBandwidth1D (fun _ => None) (mkPar 0 1 0 1 (1 / 4) (L "x")) 32 [] true true 0 None 1 = Err BandwidthError.
Proof. reflexivity. Qed.
