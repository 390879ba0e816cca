(** Bandwidths of kernel density estimates *)
From Coq Require Import Reals ZArith Lra Lia List Bool.
From Verif Require Import PyStr PyBase ConvModel KdeModel Kde2Model StatModel StatSpec StatProofs NeffModel BwModel BwSpec.
From Coq Require Import List.
Import ListNotations.
Local Open Scope R_scope.

Lemma rsum_nonneg n f : (forall k, (k < n)%nat -> 0 <= f k) -> 0 <= rsum n f.
Proof. induction n as [|n IH]; intros H; cbn; [lra|]. assert (0 <= rsum n f) by (apply IH; intros; apply H; lia). specialize (H n ltac:(lia)). lra. Qed.
Lemma rsum_pos n f k0 : (forall k, (k < n)%nat -> 0 <= f k) -> (k0 < n)%nat -> 0 < f k0 -> 0 < rsum n f.
Proof.
  induction n as [|n IH]; intros H K P; [lia|]. cbn. assert (0 <= rsum n f) by (apply rsum_nonneg; intros; apply H; lia). pose proof (H n ltac:(lia)).
  destruct (Nat.eq_dec k0 n) as [-> |]; [lra|]. assert (0 < rsum n f) by (apply IH; [intros; apply H; lia | lia | exact P]). lra.
Qed.
Lemma rsum_zero n f : (forall k, (k < n)%nat -> f k = 0) -> rsum n f = 0.
Proof. induction n as [|n IH]; intros H; cbn; [reflexivity|]. rewrite IH by (intros; apply H; lia). rewrite H by lia. ring. Qed.
Lemma odds_pos j : 0 < odds j.
Proof. unfold odds. induction (seq 0 j) as [|i l IH]; cbn [map fold_right]; [lra|]. apply Rmult_lt_0_compat; [apply lt_0_INR; lia | exact IH]. Qed.
Lemma Rpower_pos x y : 0 < Rpower x y.
Proof. apply exp_pos. Qed.
Lemma sqrtPI : 0 < sqrt PI. Proof. apply sqrt_lt_R0, PI_RGT_0. Qed.
Lemma const1_pos j : 0 < const1 j.
Proof.
  unfold const1. pose proof (Rpower_pos (1 / 2) (INR j + 1 / 2)). pose proof (odds_pos j). pose proof sqrtPI. pose proof (sqrt_lt_R0 2 ltac:(lra)).
  apply Rdiv_lt_0_compat; [|apply Rdiv_lt_0_compat; assumption]. apply Rmult_lt_0_compat; [lra | assumption].
Qed.
Lemma pw_pos x y : 0 < x -> pw x y = Ok (Rpower x y).
Proof. intros H. unfold pw. destruct (Rlt_dec 0 x); [reflexivity | contradiction]. Qed.
Lemma rdivE_ok a b : b <> 0 -> rdivE a b = Ok (a / b).
Proof. intros H. unfold rdivE. destruct (Req_EM_T b 0); [contradiction | reflexivity]. Qed.

(** ** One parameter *)
Definition nonflat (n : nat) (a2 : nat -> R) : Prop := (forall k, (k < n)%nat -> 0 <= a2 k) /\ exists k, (k < n)%nat /\ 0 < a2 k.
Lemma ksum_pos n a2 j t : nonflat n a2 -> 0 < ksum n a2 j t.
Proof.
  intros [G [k [K P]]]. unfold ksum. apply Rmult_lt_0_compat; [apply Rmult_lt_0_compat; [lra | apply pow_lt, PI_RGT_0]|].
  apply rsum_pos with k; [|exact K | apply Rmult_lt_0_compat; [exact P | apply exp_pos]]. intros i I. apply Rmult_le_pos; [apply G; exact I | left; apply exp_pos].
Qed.
Lemma stages_pos n a2 N js f : nonflat n a2 -> 0 < N -> 0 < f -> exists f', stages n a2 N js f = Ok f' /\ 0 < f'.
Proof.
  intros G HN. revert f. induction js as [|j js IH]; intros f F; cbn [stages]; [exists f; auto|].
  destruct (Req_EM_T f 0); [lra|]. rewrite pw_pos. 2:{ apply Rdiv_lt_0_compat; [apply Rdiv_lt_0_compat; [apply const1_pos | exact HN] | exact F]. }
  cbn [bindR]. cbv zeta. pose proof (ksum_pos n a2 j (Rpower (const1 j / N / f) (2 / (3 + 2 * INR j))) G) as P. destruct (Req_EM_T _ 0) as [Z|_]; [lra|]. apply IH. exact P.
Qed.
(** the function whose zero is searched is defined for all widths, is the width less a positive width, and has no zero at a width that is not positive *)
Theorem C147_fixed_point : forall n a2 N h, nonflat n a2 -> 0 < N ->
  (0 < h -> exists h', fixed_point n a2 N h = Ok (h - h') /\ 0 < h') /\ (h <= 0 -> exists v, fixed_point n a2 N h = Ok v /\ v < 0).
Proof.
  intros n a2 N h G HN. split; intros H; unfold fixed_point; destruct (Rle_dec h 0); try lra.
  - destruct (stages_pos n a2 N [6; 5; 4; 3; 2]%nat (ksum n a2 7 (h ^ 2)) G HN (ksum_pos _ _ _ _ G)) as [f [E F]]. rewrite E. cbn [bindR]. rewrite pw_pos. 2:{ pose proof sqrtPI. repeat apply Rmult_lt_0_compat; try assumption; lra. }
    cbn [bindR]. eexists. split; [reflexivity | apply Rpower_pos].
  - exists (h - 1). split; [reflexivity | lra].
Qed.
Print Assumptions C147_fixed_point.
(** flat bins: no width *)
Theorem C147_fixed_point_flat : forall n a2 N h, (forall k, (k < n)%nat -> a2 k = 0) -> 0 < h -> fixed_point n a2 N h = Err NonConvergence.
Proof.
  intros n a2 N h G H. unfold fixed_point. destruct (Rle_dec h 0); [lra|]. assert (Z : ksum n a2 7 (h ^ 2) = 0) by (unfold ksum; rewrite rsum_zero; [ring | intros k K; rewrite G by exact K; ring]).
  rewrite Z. cbn [stages]. destruct (Req_EM_T 0 0); [reflexivity | contradiction].
Qed.
Print Assumptions C147_fixed_point_flat.
(** when the solvers return zeros, so does the bandwidth, and it is positive *)
Theorem C147_binned : forall n a2 N fsolve brentq h, nonflat n a2 -> 0 < N -> (forall s x v, fsolve s x = Ok v -> fixed_point n a2 N v = Ok 0) -> (forall a b x v, brentq a b x = Ok v -> fixed_point n a2 N v = Ok 0) ->
  bandwidth_binned fsolve brentq N = Some h -> 0 < h /\ fixed_point n a2 N h = Ok 0.
Proof.
  intros n a2 N fs br h G HN F B H. assert (Z : fixed_point n a2 N h = Ok 0).
  { unfold bandwidth_binned in H. rewrite (pw_pos N _ HN) in H. destruct (fs _ _) as [v|] eqn:EF; [|discriminate]. apply F in EF. destruct (Rlt_dec v _); [|injection H as <-; exact EF].
    destruct (br _ _ _) as [v'|] eqn:EB; injection H as <-; [eapply B; exact EB | exact EF]. }
  split; [|exact Z]. destruct (Rlt_le_dec 0 h) as [|L]; [assumption|]. destruct (proj2 (C147_fixed_point n a2 N h G HN) L) as [v [E V]]. rewrite Z in E. injection E as E. lra.
Qed.
Print Assumptions C147_binned.

(** bins *)
Lemma lmax_ge l x : In x l -> x <= lmax l.
Proof. induction l as [|y l IH]; [contradiction|]. intros [<- | I]; destruct l as [|z l]; try contradiction; [right; reflexivity | apply Rmax_l |]. apply Rle_trans with (lmax (z :: l)); [apply IH; exact I | apply Rmax_r]. Qed.
Lemma lmin_le l x : In x l -> lmin l <= x.
Proof. induction l as [|y l IH]; [contradiction|]. intros [<- | I]; destruct l as [|z l]; try contradiction; [right; reflexivity | apply Rmin_l |]. apply Rle_trans with (lmin (z :: l)); [apply Rmin_r | apply IH; exact I]. Qed.
Lemma mapR_all {A B} (f : A -> res B) (P : A -> B -> Prop) l : (forall x, In x l -> exists y, f x = Ok y /\ P x y) -> exists ys, mapR f l = Ok ys /\ Forall2 P l ys.
Proof.
  induction l as [|x l IH]; intros H; [exists []; split; [reflexivity | constructor]|]. destruct (H x (or_introl eq_refl)) as [y [E Q]]. destruct IH as [ys [E2 F]]; [intros; apply H; right; assumption|].
  exists (y :: ys). split; [cbn; rewrite E; cbn [bindR]; rewrite E2; reflexivity | constructor; assumption].
Qed.
(** each sample inside the range has a bin of the array, which holds it *)
Theorem C147_bins : forall samples rmin rmax nbins e lo hi, samples <> [] -> (2 <= nbins)%nat ->
  lo = (match rmin with Some v => v | None => lmin samples - (lmax samples - lmin samples) * e end) -> hi = (match rmax with Some v => v | None => lmax samples + (lmax samples - lmin samples) * e end) ->
  lo < hi -> (forall x, In x samples -> lo <= x <= hi) ->
  exists b, bin_samples samples rmin rmax nbins e = Ok (b, hi - lo) /\
    Forall2 (fun x k => (0 <= k <= Z.of_nat nbins - 1)%Z /\ IZR k * ((hi - lo) / (INR nbins - 1)) <= x - lo < (IZR k + 1) * ((hi - lo) / (INR nbins - 1))) samples b.
Proof.
  intros samples rmin rmax nbins e lo hi NE NB EL EH LT IN. destruct samples as [|s0 ss]; [congruence|]. unfold bin_samples. cbv zeta. rewrite <- EL, <- EH.
  set (l := s0 :: ss) in *. assert (B1 : 1 <= INR nbins - 1) by (apply le_INR in NB; cbn in NB; lra). set (dx := (hi - lo) / (INR nbins - 1)). assert (DP : 0 < dx) by (apply Rdiv_lt_0_compat; lra).
  destruct (mapR_all (fun x => bindR (rdivE (x - lo) dx) (fun b => Ok (to_int b)))
     (fun x k => (0 <= k <= Z.of_nat nbins - 1)%Z /\ IZR k * dx <= x - lo < (IZR k + 1) * dx) l) as [b [E F]].
  { intros x I. specialize (IN x I). rewrite rdivE_ok by lra. cbn [bindR]. eexists. split; [reflexivity|]. assert (Q0 : 0 <= (x - lo) / dx) by (apply Rle_mult_inv_pos; lra).
    unfold to_int. destruct (Rle_dec 0 ((x - lo) / dx)); [|contradiction]. destruct (base_Int_part ((x - lo) / dx)) as [I1 I2]. set (k := Int_part ((x - lo) / dx)) in *.
    assert (EX : x - lo = (x - lo) / dx * dx) by (field; lra). assert (QM : (x - lo) / dx <= INR nbins - 1).
    { replace (INR nbins - 1) with ((hi - lo) / dx) by (unfold dx; field; split; lra). unfold Rdiv. apply Rmult_le_compat_r; [left; apply Rinv_0_lt_compat; exact DP | lra]. }
    split; [split|split].
    - assert (-1 < k)%Z; [|lia]. apply lt_IZR. lra.
    - apply le_IZR. rewrite minus_IZR, <- INR_IZR_INZ. lra.
    - rewrite EX. apply Rmult_le_compat_r; lra.
    - rewrite EX at 1. apply Rmult_lt_compat_r; lra. }
  rewrite E. cbn [bindR]. exists b. split; [reflexivity | exact F].
Qed.
Print Assumptions C147_bins.
(** without limits the range of samples that are not all equal holds them *)
Theorem C147_bins_free : forall samples e, 0 <= e -> lmin samples < lmax samples ->
  lmin samples - (lmax samples - lmin samples) * e < lmax samples + (lmax samples - lmin samples) * e /\ forall x, In x samples -> lmin samples - (lmax samples - lmin samples) * e <= x <= lmax samples + (lmax samples - lmin samples) * e.
Proof.
  intros l e E LT. pose proof (Rmult_le_pos (lmax l - lmin l) e ltac:(lra) E). split; [lra|]. intros x I. pose proof (lmax_ge l x I). pose proof (lmin_le l x I). lra.
Qed.
Print Assumptions C147_bins_free.
(** FINDING: equal samples have no bin (a division by zero) *)
Theorem C147_bins_refuted : forall x k nbins e, bin_samples (repeat x (S k)) None None nbins e = Err NotFinite.
Proof.
  intros x k nbins e. assert (MX : forall k, lmax (repeat x (S k)) = x) by (induction k0 as [|k0 IH]; [reflexivity|]; change (Rmax x (lmax (repeat x (S k0))) = x); rewrite IH; apply Rmax_left; right; reflexivity).
  assert (MN : forall k, lmin (repeat x (S k)) = x) by (induction k0 as [|k0 IH]; [reflexivity|]; change (Rmin x (lmin (repeat x (S k0))) = x); rewrite IH; apply Rmin_left; right; reflexivity).
  unfold bin_samples. rewrite MX, MN. cbn [repeat]. cbv zeta. replace ((x + (x - x) * e - (x - (x - x) * e)) / (INR nbins - 1)) with 0 by (unfold Rdiv; ring). cbn [mapR]. unfold rdivE. destruct (Req_EM_T 0 0); [reflexivity | contradiction].
Qed.
Print Assumptions C147_bins_refuted.

(** ** Two parameters *)
Definition nonflat2 (n : nat) (a2 : nat -> nat -> R) : Prop := (forall i j, (i < n)%nat -> (j < n)%nat -> 0 <= a2 i j) /\ exists i j, (i < n)%nat /\ (j < n)%nat /\ 0 < a2 i j.
Lemma sgn n : (- 1) ^ n = 1 \/ (- 1) ^ n = - 1.
Proof. induction n as [|n [E|E]]; cbn [pow]; [left; reflexivity | right; rewrite E; ring | left; rewrite E; ring]. Qed.
Lemma psi_sign n a2 s0 s1 t : nonflat2 n a2 -> 0 < (- 1) ^ (s0 + s1) * psi n a2 s0 s1 t.
Proof.
  intros [G [i [j [I [J P]]]]]. unfold psi. set (w := fun k s => exp (- II k * (PI ^ 2 * t) + ln (II k) * INR s)).
  assert (W : forall k s, 0 < w k s) by (intros; apply exp_pos). set (X := rsum n _). assert (XP : 0 < X).
  { unfold X. assert (IN : forall j', (j' < n)%nat -> 0 <= rsum n (fun i0 => w i0 s1 * a2 i0 j')) by (intros j' J'; apply rsum_nonneg; intros k K; apply Rmult_le_pos; [left; apply W | apply G; assumption]).
    apply rsum_pos with j; [|exact J|]. 1:{ intros k K. apply Rmult_le_pos; [apply IN; exact K | left; apply W]. }
    apply Rmult_lt_0_compat; [|apply W]. apply rsum_pos with i; [|exact I|]. 1:{ intros k K. apply Rmult_le_pos; [left; apply W | apply G; assumption]. }
    apply Rmult_lt_0_compat; [apply W | exact P]. }
  pose proof (pow_lt PI (2 * (s0 + s1)) PI_RGT_0) as PP. pose proof (Rmult_lt_0_compat _ _ XP PP). destruct (sgn (s0 + s1)) as [E|E]; rewrite E; lra.
Qed.
Lemma K2_sign s0 s1 : exists k, 0 < k /\ K2 s0 * K2 s1 = (- 1) ^ (s0 + s1) * k.
Proof.
  pose proof (odds_pos s0). pose proof (odds_pos s1). assert (0 < sqrt (2 * PI)) by (apply sqrt_lt_R0; pose proof PI_RGT_0; lra).
  exists (odds s0 * odds s1 / (sqrt (2 * PI) * sqrt (2 * PI))). split; [apply Rdiv_lt_0_compat; apply Rmult_lt_0_compat; assumption|]. unfold K2. rewrite pow_add. field. lra.
Qed.
Lemma f2d_sign n a2 N t d : nonflat2 n a2 -> 0 < N -> forall s0 s1, exists v, f2d n a2 N t d s0 s1 = Ok v /\ 0 < (- 1) ^ (s0 + s1) * v.
Proof.
  intros G HN. induction d as [|d IH]; intros s0 s1; cbn [f2d]; [eexists; split; [reflexivity | apply psi_sign; exact G]|].
  destruct (IH (S s0) s1) as [u [EU U]]. destruct (IH s0 (S s1)) as [v [EV V]]. rewrite EU. cbn [bindR]. rewrite EV. cbn [bindR]. cbv zeta.
  replace (S s0 + s1)%nat with (S (s0 + s1)) in U by lia. replace (s0 + S s1)%nat with (S (s0 + s1)) in V by lia. cbn [pow] in U, V.
  destruct (K2_sign s0 s1) as [k [KP KE]]. set (c := (1 + (1 / 2) ^ (s0 + s1 + 1)) / 3). assert (CP : 0 < c) by (unfold c; pose proof (pow_lt (1 / 2) (s0 + s1 + 1) ltac:(lra)); lra).
  assert (UV : u + v <> 0) by (destruct (sgn (s0 + s1)) as [E|E]; rewrite E in *; lra). rewrite rdivE_ok by exact UV. cbn [bindR].
  assert (QP : 0 < - 2 * c * K2 s0 * K2 s1 / N / (u + v)).
  { pose proof (Rmult_lt_0_compat _ _ CP KP) as CK. replace (- 2 * c * K2 s0 * K2 s1 / N / (u + v)) with (2 * (c * k) / N * / (- ((- 1) ^ (s0 + s1)) * (u + v))).
    - apply Rmult_lt_0_compat; [apply Rdiv_lt_0_compat; lra|]. apply Rinv_0_lt_compat. destruct (sgn (s0 + s1)) as [E|E]; rewrite E in *; lra.
    - replace (- 2 * c * K2 s0 * K2 s1) with (- 2 * c * (K2 s0 * K2 s1)) by ring. rewrite KE. destruct (sgn (s0 + s1)) as [E|E]; rewrite E; field; repeat split; lra. }
  rewrite pw_pos by exact QP. cbn [bindR]. eexists. split; [reflexivity | apply psi_sign; exact G].
Qed.
(** the estimates of the integrals of products of derivatives are defined, and have the signs of the integrals *)
Theorem C147_func2d : forall n a2 N s0 s1 t, nonflat2 n a2 -> 0 < N -> exists v, func2d n a2 N s0 s1 t = Ok v /\ 0 < (- 1) ^ (s0 + s1) * v.
Proof. intros. apply f2d_sign; assumption. Qed.
Print Assumptions C147_func2d.
Lemma func2d_even n a2 N s0 s1 t : nonflat2 n a2 -> 0 < N -> (s0 + s1 = 2)%nat -> exists v, func2d n a2 N s0 s1 t = Ok v /\ 0 < v.
Proof. intros G HN E. destruct (C147_func2d n a2 N s0 s1 t G HN) as [v [EV V]]. exists v. split; [exact EV|]. rewrite E in V. cbn [pow] in V. lra. Qed.
(** the function of the squared width has at each time the sign of the difference to a positive time; no zero is at or below 0 *)
Theorem C147_fixed_2D : forall n a2 N t, nonflat2 n a2 -> 0 < N -> exists time, 0 < time /\ fixed_point_2D n a2 N t = Ok ((t - time) / time) /\
  (fixed_point_2D n a2 N t = Ok 0 <-> t = time) /\ (t = 0 -> fixed_point_2D n a2 N t = Ok (- 1)).
Proof.
  intros n a2 N t G HN. unfold fixed_point_2D. destruct (func2d_even n a2 N 0 2 t G HN eq_refl) as [a [EA A]]. destruct (func2d_even n a2 N 2 0 t G HN eq_refl) as [b [EB B]]. destruct (func2d_even n a2 N 1 1 t G HN eq_refl) as [c [EC C]].
  rewrite EA. cbn [bindR]. rewrite EB. cbn [bindR]. rewrite EC. cbn [bindR]. rewrite pw_pos. 2:{ pose proof (Rmult_lt_0_compat _ _ PI_RGT_0 HN). replace (2 * PI * N) with (2 * (PI * N)) by ring. apply Rmult_lt_0_compat; lra. }
  cbn [bindR]. set (time := Rpower _ _). assert (T : 0 < time) by apply Rpower_pos. rewrite rdivE_ok by lra. exists time. split; [exact T|]. split; [reflexivity|]. split.
  - split; [|intros ->; f_equal; field; lra]. intros E. injection E as E. assert (t - time = 0); [|lra]. replace (t - time) with ((t - time) / time * time) by (field; lra). rewrite E. ring.
  - intros ->. f_equal. field. lra.
Qed.
Print Assumptions C147_fixed_2D.

Lemma Rpower_nat x n : 0 < x -> forall y, Rpower x y ^ n = Rpower x (y * INR n).
Proof. intros X y. rewrite <- Rpower_pow by apply Rpower_pos. apply Rpower_mult. Qed.
Lemma pow_inj_pos n a b : (1 <= n)%nat -> 0 < a -> 0 < b -> a ^ n = b ^ n -> a = b.
Proof.
  intros HN A B E. assert (LT : forall x y, 0 < x -> x < y -> x ^ n < y ^ n).
  { intros x y X L. clear E. induction n as [|m IH]; [lia|]. destruct m as [|m]; [cbn; lra|]. change (x * x ^ S m < y * y ^ S m). apply Rmult_gt_0_lt_compat; try lra; [|apply IH; lia]. apply pow_lt; lra. }
  destruct (Rtotal_order a b) as [L|[L|L]]; [pose proof (LT a b A L); lra | exact L | pose proof (LT b a B L); lra].
Qed.
(** the widths without correlation are those of least mean square error *)
Theorem C147_diag : forall n a2 N tstar, nonflat2 n a2 -> 0 < N -> exists p02 p20 p11 hx hy,
  diag_h n a2 N tstar = Ok (p02, p20, p11, (hx, hy)) /\ func2d n a2 N 0 2 tstar = Ok p02 /\ func2d n a2 N 2 0 tstar = Ok p20 /\ func2d n a2 N 1 1 tstar = Ok p11 /\
  0 < p02 /\ 0 < p20 /\ 0 < p11 /\ 0 < hx /\ 0 < hy /\ forall a b, 0 < a -> 0 < b -> mise0 p20 p02 p11 N hx hy <= mise0 p20 p02 p11 N a b.
Proof.
  intros n a2 N ts G HN. unfold diag_h. destruct (func2d_even n a2 N 0 2 ts G HN eq_refl) as [Q [EQ' QP]]. destruct (func2d_even n a2 N 2 0 ts G HN eq_refl) as [P [EP PP]]. destruct (func2d_even n a2 N 1 1 ts G HN eq_refl) as [M [EM MP]].
  rewrite EQ'. cbn [bindR]. rewrite EP. cbn [bindR]. rewrite EM. cbn [bindR]. rewrite (pw_pos Q) by exact QP. cbn [bindR]. rewrite (pw_pos P) by exact PP. cbn [bindR]. cbv zeta.
  set (u := Rpower Q (3 / 4)). set (v := Rpower P (3 / 4)). assert (UP : 0 < u) by apply Rpower_pos. assert (VP : 0 < v) by apply Rpower_pos.
  assert (SP : 0 < sqrt (P * Q)) by (apply sqrt_lt_R0, Rmult_lt_0_compat; assumption). set (B := M + sqrt (P * Q)). assert (BP : 0 < B) by (unfold B; lra). set (den := 4 * PI * N * B). assert (DN : 0 < den) by (unfold den; pose proof (Rmult_lt_0_compat _ _ PI_RGT_0 HN); replace (4 * PI * N) with (4 * (PI * N)) by ring; apply Rmult_lt_0_compat; lra).
  assert (DV : 0 < den * v) by (apply Rmult_lt_0_compat; assumption). assert (DU : 0 < den * u) by (apply Rmult_lt_0_compat; assumption).
  rewrite rdivE_ok by lra. cbn [bindR]. rewrite pw_pos by (apply Rdiv_lt_0_compat; assumption). cbn [bindR]. rewrite rdivE_ok by lra. cbn [bindR]. rewrite pw_pos by (apply Rdiv_lt_0_compat; assumption). cbn [bindR].
  set (hx := Rpower (u / (den * v)) (1 / 6)). set (hy := Rpower (v / (den * u)) (1 / 6)). assert (XP : 0 < hx) by apply Rpower_pos. assert (YP : 0 < hy) by apply Rpower_pos.
  exists Q, P, M, hx, hy. split; [reflexivity|]. repeat (split; [assumption || reflexivity|]). intros a b A Bb.
  assert (X6 : hx ^ 6 = u / (den * v)) by (unfold hx; rewrite Rpower_nat by (apply Rdiv_lt_0_compat; assumption); replace (1 / 6 * INR 6) with 1 by (cbn; field); apply Rpower_1; apply Rdiv_lt_0_compat; assumption).
  assert (Y6 : hy ^ 6 = v / (den * u)) by (unfold hy; rewrite Rpower_nat by (apply Rdiv_lt_0_compat; assumption); replace (1 / 6 * INR 6) with 1 by (cbn; field); apply Rpower_1; apply Rdiv_lt_0_compat; assumption).
  assert (U4 : u ^ 4 = Q ^ 3) by (unfold u; rewrite Rpower_nat by exact QP; rewrite <- Rpower_pow by exact QP; f_equal; cbn; field).
  assert (V4 : v ^ 4 = P ^ 3) by (unfold v; rewrite Rpower_nat by exact PP; rewrite <- Rpower_pow by exact PP; f_equal; cbn; field).
  set (w := hx * hy). assert (WP : 0 < w) by (apply Rmult_lt_0_compat; assumption).
  assert (W3 : w ^ 3 = / den).
  { apply (pow_inj_pos 2); [lia | apply pow_lt; exact WP | apply Rinv_0_lt_compat; exact DN|]. replace ((w ^ 3) ^ 2) with (hx ^ 6 * hy ^ 6) by (unfold w; ring). rewrite X6, Y6. field. lra. }
  assert (EG : hx ^ 4 * P = hy ^ 4 * Q).
  { apply (pow_inj_pos 3); [lia | apply Rmult_lt_0_compat; [apply pow_lt|]; assumption | apply Rmult_lt_0_compat; [apply pow_lt|]; assumption |].
    replace ((hx ^ 4 * P) ^ 3) with ((hx ^ 6) ^ 2 * P ^ 3) by ring. replace ((hy ^ 4 * Q) ^ 3) with ((hy ^ 6) ^ 2 * Q ^ 3) by ring. rewrite X6, Y6, <- U4, <- V4. field. lra. }
  assert (SS : sqrt (P * Q) * sqrt (P * Q) = P * Q) by (apply sqrt_sqrt, Rlt_le, Rmult_lt_0_compat; assumption).
  assert (EG2 : hx ^ 4 * P = w ^ 2 * sqrt (P * Q)).
  { apply (pow_inj_pos 2); [lia | apply Rmult_lt_0_compat; [apply pow_lt|]; assumption | apply Rmult_lt_0_compat; [apply pow_lt|]; assumption |].
    replace ((hx ^ 4 * P) ^ 2) with (hx ^ 4 * P * (hx ^ 4 * P)) by ring. rewrite EG at 2. replace ((w ^ 2 * sqrt (P * Q)) ^ 2) with (w ^ 4 * (sqrt (P * Q) * sqrt (P * Q))) by ring. rewrite SS. unfold w. ring. }
  assert (ND : / (4 * PI * N) = w ^ 3 * B) by (rewrite W3; unfold den; field; pose proof PI_RGT_0; repeat split; lra).
  assert (AV : mise0 P Q M N hx hy = 3 / 2 * w ^ 2 * B).
  { unfold mise0. replace (/ (4 * PI * N * hx * hy)) with (/ (4 * PI * N) * / w) by (unfold w; field; pose proof PI_RGT_0; repeat split; lra). rewrite ND, <- EG, EG2. unfold B at 2. replace (2 * hx ^ 2 * hy ^ 2 * M) with (2 * w ^ 2 * M) by (unfold w; ring). unfold B. field. lra. }
  rewrite AV. set (z := a * b). assert (ZP : 0 < z) by (apply Rmult_lt_0_compat; assumption).
  apply Rle_trans with (w ^ 3 * B * / z + z ^ 2 * B / 2).
  - apply Rmult_le_reg_l with (2 * z); [lra|]. replace (2 * z * (w ^ 3 * B * / z + z ^ 2 * B / 2)) with (B * (2 * w ^ 3 + z ^ 3)) by (field; lra). replace (2 * z * (3 / 2 * w ^ 2 * B)) with (B * (3 * w ^ 2 * z)) by field.
    apply Rmult_le_compat_l; [lra|]. assert (0 <= (z - w) * (z - w) * (z + 2 * w)) by (apply Rmult_le_pos; [apply Rle_0_sqr | lra]). nra.
  - unfold mise0. replace (/ (4 * PI * N * a * b)) with (/ (4 * PI * N) * / z) by (unfold z; field; pose proof PI_RGT_0; repeat split; lra). rewrite ND. apply Rplus_le_compat_l.
    assert (RP : sqrt P * sqrt P = P) by (apply sqrt_sqrt; lra). assert (RQ : sqrt Q * sqrt Q = Q) by (apply sqrt_sqrt; lra). assert (RPQ : sqrt (P * Q) = sqrt P * sqrt Q) by (apply sqrt_mult; lra).
    unfold B, z. rewrite RPQ. pose proof (Rle_0_sqr (a ^ 2 * sqrt P - b ^ 2 * sqrt Q)) as SQ. unfold Rsqr in SQ. replace (a ^ 4 * P) with (a ^ 4 * (sqrt P * sqrt P)) by (rewrite RP; ring). replace (b ^ 4 * Q) with (b ^ 4 * (sqrt Q * sqrt Q)) by (rewrite RQ; ring). lra.
Qed.
Print Assumptions C147_diag.
(** get_h without correlation *)
Theorem C147_get_hdiag : forall n a2 N corr tstar odd m1 m2, nonflat2 n a2 -> 0 < N -> exists p02 p20 p11 hx hy, get_h n a2 N corr tstar false odd m1 m2 = Ok (hx, hy, 0) /\
  func2d n a2 N 0 2 tstar = Ok p02 /\ func2d n a2 N 2 0 tstar = Ok p20 /\ func2d n a2 N 1 1 tstar = Ok p11 /\ 0 < hx /\ 0 < hy /\
  forall a b, 0 < a -> 0 < b -> mise0 p20 p02 p11 N hx hy <= mise0 p20 p02 p11 N a b.
Proof.
  intros n a2 N corr ts odd m1 m2 G HN. destruct (C147_diag n a2 N ts G HN) as [p02 [p20 [p11 [hx [hy [E [E1 [E2 [E3 [_ [_ [_ [HX [HY M]]]]]]]]]]]]]]. exists p02, p20, p11, hx, hy. unfold get_h. rewrite E. cbn [bindR].
  split; [reflexivity|]. repeat (split; [assumption|]). exact M.
Qed.
Print Assumptions C147_get_hdiag.

(** the error that is minimized: variance, and a quarter of the squared second derivative along the kernel; it is defined for all kernels when the moments are those of one power spectrum *)
Theorem C147_amise : forall n A u v N hx hy c, (forall k, (k < n)%nat -> 0 <= A k) -> 0 < N -> 0 < hx -> 0 < hy -> -1 < c < 1 -> let m := spec_moment n A u v in
  AMISE (mkMom (m 4%nat 0%nat) (m 0%nat 4%nat) (m 2%nat 2%nat) (Some (m 3%nat 1%nat)) (Some (m 1%nat 3%nat))) N hx hy c =
  Ok (Some (/ (4 * PI * N * (hx * hy * sqrt (1 - c ^ 2))) + Sm n (fun k => A k * (hx ^ 2 * u k ^ 2 + 2 * (c * hx * hy) * u k * v k + hy ^ 2 * v k ^ 2) ^ 2) / 4)).
Proof.
  intros n A u v N hx hy c AP HN HX HY HC m. unfold AMISE. cbn [p31 p13 p40 p04 p22]. cbv zeta.
  set (b := 1 / 4 * _). assert (EB : b = Sm n (fun k => A k * (hx ^ 2 * u k ^ 2 + 2 * (c * hx * hy) * u k * v k + hy ^ 2 * v k ^ 2) ^ 2) / 4).
  { unfold b, m, spec_moment. clear. induction n as [|n IH]; [rewrite !Sm_0; field|]. rewrite !Sm_S.
    match type of IH with ?l = ?r => match goal with |- ?l' = _ => transitivity (l + A n * (hx ^ 2 * u n ^ 2 + 2 * (c * hx * hy) * u n * v n + hy ^ 2 * v n ^ 2) ^ 2 / 4); [field|] end end. rewrite IH. field. }
  assert (BP : 0 <= b) by (rewrite EB; apply Rmult_le_pos; [|lra]; apply Sm_nonneg; intros k K; apply Rmult_le_pos; [apply AP; exact K | rewrite <- Rsqr_pow2; apply Rle_0_sqr]).
  destruct (Rlt_dec b 0); [lra|]. assert (CC : 0 < 1 - c ^ 2) by nra. destruct (Rlt_dec 0 (1 - c ^ 2)); [|contradiction].
  pose proof (sqrt_lt_R0 _ CC) as SC. pose proof PI_RGT_0 as PI0.
  assert (DP : 0 < 4 * PI * hx * hy * sqrt (1 - c ^ 2) * N).
  { replace (4 * PI * hx * hy * sqrt (1 - c ^ 2) * N) with (4 * (PI * (hx * (hy * (sqrt (1 - c ^ 2) * N))))) by ring. pose proof (Rmult_lt_0_compat _ _ SC HN) as D1. pose proof (Rmult_lt_0_compat _ _ HY D1) as D2. pose proof (Rmult_lt_0_compat _ _ HX D2) as D3. pose proof (Rmult_lt_0_compat _ _ PI0 D3). lra. }
  destruct (Req_EM_T _ 0) as [Z|_]; [lra|]. rewrite EB. f_equal. f_equal. f_equal. replace (4 * PI * N * (hx * hy * sqrt (1 - c ^ 2))) with (4 * PI * hx * hy * sqrt (1 - c ^ 2) * N) by ring. unfold Rdiv. ring.
Qed.
Print Assumptions C147_amise.
(** without correlation it is the error of which C147_diag speaks *)
Theorem C147_amise0 : forall p N hx hy q31 q13, p31 p = Some q31 -> p13 p = Some q13 -> 0 < N -> 0 < hx -> 0 < hy -> 0 < p40 p -> 0 < p04 p -> 0 < p22 p ->
  AMISE p N hx hy 0 = Ok (Some (mise0 (p40 p) (p04 p) (p22 p) N hx hy)).
Proof.
  intros p N hx hy q31 q13 E1 E2 HN HX HY P1 P2 P3. unfold AMISE. rewrite E1, E2. cbv zeta. set (b := 1 / 4 * _).
  assert (EB : b = (hx ^ 4 * p40 p + hy ^ 4 * p04 p + 2 * hx ^ 2 * hy ^ 2 * p22 p) / 4) by (unfold b; field).
  assert (0 < b). { rewrite EB. pose proof (Rmult_lt_0_compat _ _ (pow_lt _ 4 HX) P1). pose proof (Rmult_lt_0_compat _ _ (pow_lt _ 4 HY) P2). pose proof (Rmult_lt_0_compat _ _ (Rmult_lt_0_compat _ _ (pow_lt _ 2 HX) (pow_lt _ 2 HY)) P3). lra. }
  destruct (Rlt_dec b 0); [lra|]. replace (1 - 0 ^ 2) with 1 by ring. rewrite sqrt_1. destruct (Rlt_dec 0 1); [|lra]. pose proof PI_RGT_0 as PI0.
  assert (DP : 0 < 4 * PI * hx * hy * 1 * N).
  { replace (4 * PI * hx * hy * 1 * N) with (4 * (PI * (hx * (hy * N)))) by ring. pose proof (Rmult_lt_0_compat _ _ HY HN) as D2. pose proof (Rmult_lt_0_compat _ _ HX D2) as D3. pose proof (Rmult_lt_0_compat _ _ PI0 D3). lra. }
  destruct (Req_EM_T _ 0) as [Z|_]; [lra|]. rewrite EB. unfold mise0. f_equal. f_equal. f_equal. replace (4 * PI * N * hx * hy) with (4 * PI * hx * hy * 1 * N) by ring. unfold Rdiv. ring.
Qed.
Print Assumptions C147_amise0.
Lemma ltn_lt x y : ltn x y = true -> exists a b, x = Some a /\ y = Some b /\ a < b.
Proof. unfold ltn. destruct x as [a|], y as [b|]; try discriminate. destruct (Rlt_dec a b); [|discriminate]. intros _. exists a, b. auto. Qed.
(** whatever the minimizers return, the chosen kernel has no larger error than that without correlation *)
Theorem C147_choose : forall p N corr hx hy m1 m2 A0 a b c, AMISE p N hx hy 0 = Ok (Some A0) -> 0 <= A0 -> choose p N corr hx hy m1 m2 = Ok (a, b, c) ->
  exists A, AMISE p N a b c = Ok (Some A) /\ A <= A0.
Proof.
  intros p N corr hx hy m1 m2 A0 a b c E0 P0 H. unfold choose in H. rewrite E0 in H. cbn [bindR] in H. cbv zeta in H.
  set (T := if Req_EM_T corr 0 then _ else _) in H.
  assert (TT : exists x y z B, T = (x, y, z, Some B) /\ AMISE p N x y z = Ok (Some B) /\ B <= A0).
  { assert (KEEP : exists x y z B, (hx, hy, 0, Some A0) = (x, y, z, Some B) /\ AMISE p N x y z = Ok (Some B) /\ B <= A0) by (exists hx, hy, 0, A0; repeat split; [exact E0 | lra]).
    unfold T. destruct (Req_EM_T corr 0); [exact KEEP|]. destruct (m1 _ _) as [[x y]|]; [|exact KEEP]. destruct (AMISE p N x y corr) as [B|] eqn:EB; [|exact KEEP]. destruct (ltn B (Some A0)) eqn:EL; [|exact KEEP].
    destruct (ltn_lt _ _ EL) as [B' [A' [-> [EA L]]]]. exists x, y, corr, B'. split; [reflexivity|]. split; [exact EB|]. injection EA as EA. lra. }
  destruct TT as [x [y [z [B [ET [EB BL]]]]]]. rewrite ET in H. cbn [option_map] in H.
  assert (K : (a, b, c) = (x, y, z) -> exists A, AMISE p N a b c = Ok (Some A) /\ A <= A0) by (intros Q; injection Q as -> -> ->; exists B; split; assumption).
  destruct (m2 x y corr) as [[[x2 y2] z2]|]; [|apply K; congruence]. destruct (AMISE p N x2 y2 z2) as [B2|] eqn:E2; [|apply K; congruence]. destruct (ltn B2 _) eqn:EL; [|apply K; congruence].
  destruct (ltn_lt _ _ EL) as [b2 [b3 [-> [EA L]]]]. injection EA as EA. assert (Q : (a, b, c) = (x2, y2, z2)) by congruence. injection Q as -> -> ->. exists b2. split; [exact E2|]. destruct (Rle_lt_dec 0 B); lra.
Qed.
Print Assumptions C147_choose.
(** moments that are not numbers leave the kernel without correlation *)
Theorem C147_choose_nan : forall p N corr hx hy m1 m2, p31 p = None \/ p13 p = None -> choose p N corr hx hy m1 m2 = Ok (hx, hy, 0).
Proof.
  intros p N corr hx hy m1 m2 H. assert (A : forall x y c, AMISE p N x y c = Ok None) by (intros; unfold AMISE; destruct H as [-> | ->]; [reflexivity | destruct (p31 p); reflexivity]).
  unfold choose. rewrite A. cbn [bindR]. cbv zeta.
  assert (E : (if Req_EM_T corr 0 then (hx, hy, 0, None) else match m1 (hx / sqrt (1 - Rabs corr)) (hy / sqrt (1 - Rabs corr)) with Some (a, b) => match AMISE p N a b corr with Ok A0 => if ltn A0 None then (a, b, corr, A0) else (hx, hy, 0, None) | Err _ => (hx, hy, 0, None) end | None => (hx, hy, 0, None) end) = (hx, hy, 0, None)).
  { destruct (Req_EM_T corr 0); [reflexivity|]. destruct (m1 _ _) as [[x y]|]; [|reflexivity]. rewrite A. reflexivity. }
  rewrite E. destruct (m2 hx hy corr) as [[[x y] z]|]; [|reflexivity]. rewrite A. reflexivity.
Qed.
Print Assumptions C147_choose_nan.

(** ** Shear *)
(** the sheared samples are not correlated and have equal variances *)
Theorem C147_shear : forall n w x y l r0 r1, Sm n w <> 0 -> is_chol (wcov n w x x) (wcov n w x y) (wcov n w y y) l -> shear_r l = (r0, r1) ->
  let z := fun k => r0 * x k + r1 * y k in wcov n w x z = 0 /\ wcov n w z z = wcov n w x x.
Proof.
  intros n w x y [[l00 l10] l11] r0 r1 W C E z. cbn in C. destruct C as [P0 [P1 [C0 [C1 C2]]]]. cbn in E. injection E as E0 E1.
  assert (R0 : r0 = - l10 / l11) by (rewrite <- E0; field; lra). assert (R1 : r1 = l00 / l11) by (rewrite <- E1; field; lra).
  assert (MZ : wmean n w z = r0 * wmean n w x + r1 * wmean n w y).
  { unfold wmean. assert (Q : Sm n (fun k => w k * z k) = r0 * Sm n (fun k => w k * x k) + r1 * Sm n (fun k => w k * y k)) by (rewrite <- !Sm_scal, <- Sm_plus; apply Sm_ext; intros; unfold z; ring). rewrite Q. field. exact W. }
  assert (Z1 : forall g, Sm n (fun k => w k * g k * (z k - wmean n w z)) = r0 * Sm n (fun k => w k * g k * (x k - wmean n w x)) + r1 * Sm n (fun k => w k * g k * (y k - wmean n w y))).
  { intros g. rewrite <- !Sm_scal, <- Sm_plus. apply Sm_ext. intros. rewrite MZ. unfold z. ring. }
  assert (XZ : wcov n w x z = r0 * wcov n w x x + r1 * wcov n w x y) by (unfold wcov; rewrite (Z1 (fun k => x k - wmean n w x)); field; exact W).
  assert (YZ : wcov n w y z = r0 * wcov n w x y + r1 * wcov n w y y).
  { unfold wcov. rewrite (Z1 (fun k => y k - wmean n w y)). assert (S : Sm n (fun k => w k * (y k - wmean n w y) * (x k - wmean n w x)) = Sm n (fun k => w k * (x k - wmean n w x) * (y k - wmean n w y))) by (apply Sm_ext; intros; ring). rewrite S. field. exact W. }
  assert (ZX : forall g, wcov n w z g = wcov n w g z) by (intros g; unfold wcov; f_equal; apply Sm_ext; intros; ring).
  assert (ZZ : wcov n w z z = r0 * wcov n w x z + r1 * wcov n w y z).
  { unfold wcov at 1. rewrite (Z1 (fun k => z k - wmean n w z)). rewrite <- (ZX x), <- (ZX y). unfold wcov. field. exact W. }
  rewrite ZZ, YZ, XZ, <- C0, <- C1, <- C2, R0, R1. split; field; lra.
Qed.
Print Assumptions C147_shear.
(** the kernel of the parameters is that of the sheared parameters: a first and b second sheared parameter is a + b r0 of the first and b r1 of the second parameter.
    The width of the first parameter is kept *)
Theorem C147_derotate : forall l r0 r1 hx hy c kx ky kc, (let '(l00, _, l11) := l in 0 < l00 /\ 0 < l11) -> shear_r l = (r0, r1) -> 0 < hx -> 0 < hy -> -1 < c < 1 -> derotate (shear_S l) hx hy c = (kx, ky, kc) ->
  kx = hx /\ 0 < ky /\ -1 < kc < 1 /\ forall a b, kvar (kx, ky, kc) (a + b * r0) (b * r1) = kvar (hx, hy, c) a b.
Proof.
  intros [[l00 l10] l11] r0 r1 hx hy c kx ky kc [P0 P1] ER HX HY HC ED. cbn in ER. injection ER as E0 E1. unfold derotate, shear_S in ED. cbv zeta in ED.
  assert (R0 : r0 = - l10 / l11) by (rewrite <- E0; field; lra). assert (R1 : r1 = l00 / l11) by (rewrite <- E1; field; lra).
  set (s10 := l10 / l00). set (s11 := l11 / l00). assert (SP : 0 < s11) by (apply Rdiv_lt_0_compat; assumption).
  assert (K0 : l00 * (1 / l00) * hx ^ 2 * (l00 * (1 / l00)) = hx ^ 2) by (field; lra). rewrite K0 in ED.
  assert (S0 : l00 * (1 / l00) = 1) by (field; lra). assert (S1 : l10 * (1 / l00) = s10) by (unfold s10; field; lra). assert (S2 : l11 * (1 / l00) = s11) by (unfold s11; field; lra). rewrite S0, S1, S2 in ED.
  set (k01 := 1 * hx ^ 2 * s10 + 1 * (hx * hy * c) * s11) in ED. set (k11 := (s10 * hx ^ 2 + s11 * (hx * hy * c)) * s10 + (s10 * (hx * hy * c) + s11 * hy ^ 2) * s11) in ED.
  injection ED as EX EY EC. assert (XX : kx = hx) by (transitivity (sqrt (hx ^ 2)); [symmetry; exact EX | rewrite <- Rsqr_pow2; apply sqrt_Rsqr; lra]).
  assert (CC : 0 < 1 - c * c) by nra. assert (D : 0 < (s11 * hy) * (s11 * hy) * (1 - c * c)) by (pose proof (Rmult_lt_0_compat _ _ SP HY) as Q; apply Rmult_lt_0_compat; [apply Rmult_lt_0_compat; exact Q | exact CC]).
  assert (KP : 0 < k11). { replace k11 with ((s10 * hx + s11 * hy * c) * (s10 * hx + s11 * hy * c) + (s11 * hy) * (s11 * hy) * (1 - c * c)) by (unfold k11; ring). pose proof (Rle_0_sqr (s10 * hx + s11 * hy * c)) as Q. unfold Rsqr in Q. lra. }
  assert (YP : 0 < ky) by (rewrite <- EY; apply sqrt_lt_R0; exact KP). assert (YY : ky * ky = k11) by (rewrite <- EY; apply sqrt_sqrt; lra).
  assert (SQ : sqrt (hx ^ 2 * k11) = hx * ky) by (rewrite <- YY; replace (hx ^ 2 * (ky * ky)) with (Rsqr (hx * ky)) by (unfold Rsqr; ring); apply sqrt_Rsqr; left; apply Rmult_lt_0_compat; assumption).
  assert (XYP : 0 < hx * ky) by (apply Rmult_lt_0_compat; assumption).
  assert (EC' : kc = k01 / sqrt (hx ^ 2 * k11)) by (symmetry; exact EC). assert (CE : kc * (hx * ky) = k01) by (rewrite EC', SQ; field; split; lra).
  assert (C2 : kc * kc < 1).
  { assert (M : k01 * k01 < (hx * ky) * (hx * ky)). { replace ((hx * ky) * (hx * ky)) with (hx * hx * k11) by (rewrite <- YY; ring). assert (Q : hx * hx * k11 - k01 * k01 = hx * hx * ((s11 * hy) * (s11 * hy) * (1 - c * c))) by (unfold k11, k01; ring). pose proof (Rmult_lt_0_compat _ _ (Rmult_lt_0_compat _ _ HX HX) D). lra. }
    rewrite <- CE in M. apply Rmult_lt_reg_r with ((hx * ky) * (hx * ky)); [apply Rmult_lt_0_compat; exact XYP|]. lra. }
  split; [exact XX|]. split; [exact YP|]. split; [split; nra|]. intros a b. unfold kvar. rewrite XX.
  replace ((a + b * r0) ^ 2 * hx ^ 2 + 2 * (a + b * r0) * (b * r1) * kc * hx * ky + (b * r1) ^ 2 * ky ^ 2) with ((a + b * r0) ^ 2 * hx ^ 2 + 2 * (a + b * r0) * (b * r1) * (kc * (hx * ky)) + (b * r1) ^ 2 * (ky * ky)) by ring.
  rewrite CE, YY. unfold k01, k11, s10, s11. rewrite R0, R1. field. lra.
Qed.
Print Assumptions C147_derotate.

(** ** Squared width and its fallback *)
Theorem C147_t_star : forall t fb r, 0 < fb -> t_star (Ok t) (Some fb) = Ok r -> (r = fb /\ 1 / 100 < t /\ 2 * fb < t) \/ (r = t /\ (t <= 1 / 100 \/ t <= 2 * fb)).
Proof.
  intros t fb r P H. unfold t_star in H. destruct (Req_EM_T fb 0); [lra|]. destruct (Rlt_dec (1 / 100) t); [destruct (Rlt_dec (2 * fb) t)|]; injection H as <-; [left | right | right]; repeat split; try assumption; [right | left]; lra.
Qed.
Print Assumptions C147_t_star.
Theorem C147_t_star_failed : forall e fb, t_star (Err e) (Some fb) = Ok fb.
Proof. reflexivity. Qed.
Print Assumptions C147_t_star_failed.

(** ** The bandwidth of two parameters *)
Definition dirs (sw : bool) (h : R * R * R) (x y : R) : R := if sw then kvar h y x else kvar h x y.
(** correlated parameters of which one at most has limits: the kernel is that of the sheared parameters, and the width of the parameter with limits is not changed by the shear *)
Theorem C147_sheared : forall chol xs ys nb optS optD raises px py N corr rx ry min_corr mc l r0 r1 b1 R1 b2 R2 h1 h2 c,
  let sw := has_limits py in let pu := if sw then py else px in let u := if sw then ys else xs in let v := if sw then xs else ys in
  min_corr < Rabs corr -> Rabs corr <= mc -> has_limits px = false \/ has_limits py = false -> chol sw = Ok l -> (let '(l00, _, l11) := l in 0 < l00 /\ 0 < l11) -> shear_r l = (r0, r1) ->
  bin_samples u (if has_bot pu then Some (rmin pu) else None) (if has_top pu then Some (rmax pu) else None) nb (1 / 10) = Ok (b1, R1) ->
  bin_samples (map (fun z => r0 * fst z + r1 * snd z) (combine u v)) None None nb (1 / 10) = Ok (b2, R2) ->
  optS (negb (has_limits px || has_limits py)) b1 b2 = Ok (h1, h2, c) -> 0 < h1 * R1 -> 0 < h2 * R2 -> -1 < c < 1 ->
  exists hx hy kc, bandwidth2D chol xs ys nb optS optD raises px py N corr rx ry min_corr mc 0 = Ok (hx, hy, kc) /\ (if sw then hy else hx) = h1 * R1 /\ 0 < hx /\ 0 < hy /\ -1 < kc < 1 /\
    forall a b, dirs sw (hx, hy, kc) (a + b * r0) (b * r1) = kvar (h1 * R1, h2 * R2, c) a b.
Proof.
  intros chol xs ys nb optS optD raises px py N corr rx ry mcr mc l r0 r1 b1 R1 b2 R2 h1 h2 c sw pu u v C1 C2 HL EL LP ER EB1 EB2 EO P1 P2 PC.
  assert (SL : shear_limits px py = (sw, if has_bot pu then Some (rmin pu) else None, if has_top pu then Some (rmax pu) else None)).
  { unfold shear_limits, pu, sw. destruct (has_limits py) eqn:EP; [|reflexivity]. destruct HL as [HL|HL]; [|congruence]. unfold has_limits in HL. apply orb_false_elim in HL. destruct HL as [B T]. rewrite B, T. reflexivity. }
  assert (DC : negb (has_limits px) || negb (has_limits py) = true) by (destruct HL as [-> | ->]; [reflexivity | apply orb_true_r]).
  unfold bandwidth2D. cbv zeta. destruct (Rlt_dec mcr (Rabs corr)); [|contradiction]. destruct (Rle_dec (Rabs corr) mc); [|contradiction]. rewrite DC. cbn [andb].
  rewrite SL. rewrite EL. cbn [bindR]. rewrite ER. fold u. fold v. rewrite EB1. cbn [bindR fst snd]. rewrite EB2. cbn [bindR fst snd]. rewrite EO. cbn [bindR].
  destruct (derotate (shear_S l) (h1 * R1) (h2 * R2) c) as [[kx ky] kc] eqn:ED. destruct (C147_derotate l r0 r1 _ _ c kx ky kc LP ER P1 P2 PC ED) as [KX [KY [KC KV]]]. cbn [with_fallback bindR].
  destruct sw; cbn [bindR Nat.eqb].
  - exists ky, kx, kc. split; [reflexivity|]. split; [exact KX|]. split; [exact KY|]. split; [rewrite KX; exact P1|]. split; [exact KC|]. intros a b. rewrite <- KV. unfold dirs, kvar. ring.
  - exists kx, ky, kc. split; [reflexivity|]. split; [exact KX|]. split; [rewrite KX; exact P1|]. split; [exact KY|]. split; [exact KC|]. intros a b. apply KV.
Qed.
Print Assumptions C147_sheared.
(** little correlation: the optimizer of the bins in units of their range *)
Theorem C147_direct : forall chol xs ys nb optS optD raises px py N corr rx ry min_corr mc h1 h2 c, Rabs corr <= min_corr -> Rabs corr <= mc -> corr <= 8 / 10 ->
  optD (negb (has_limits px || has_limits py)) = Ok (h1, h2, c) -> bandwidth2D chol xs ys nb optS optD raises px py N corr rx ry min_corr mc 0 = Ok (h1 * rx, h2 * ry, c).
Proof.
  intros chol xs ys nb optS optD raises px py N corr rx ry mcr mc h1 h2 c C1 C2 C3 EO. unfold bandwidth2D. cbv zeta. destruct (Rlt_dec mcr (Rabs corr)); [lra|]. cbn [andb]. destruct (Rlt_dec mc (Rabs corr)); [lra|]. destruct (Rlt_dec (8 / 10) corr); [lra|].
  rewrite andb_false_r. cbn [orb]. rewrite EO. reflexivity.
Qed.
Print Assumptions C147_direct.
(** more correlation than is used: the correlation is cut to the largest one, with its sign *)
Theorem C147_high : forall chol xs ys nb optS optD raises px py N corr rx ry min_corr mc, 0 < mc -> mc < Rabs corr -> exists c,
  bandwidth2D chol xs ys nb optS optD raises px py N corr rx ry min_corr mc 0 = Ok (sigma px / Rpower N (1 / 6), sigma py / Rpower N (1 / 6), c) /\ Rabs c = mc /\ 0 < c * corr.
Proof.
  intros chol xs ys nb optS optD raises px py N corr rx ry mcr mc M C. unfold bandwidth2D. cbv zeta. destruct (Rle_dec (Rabs corr) mc); [lra|]. rewrite andb_false_r. cbn [andb]. destruct (Rlt_dec mc (Rabs corr)); [|contradiction]. cbn [orb bindR Nat.eqb].
  exists (cut_corr corr mc). split; [reflexivity|]. unfold cut_corr, Rmin, Rmax. unfold Rabs in C. destruct (Rcase_abs corr).
  - destruct (Rle_dec corr mc); [|lra]. destruct (Rle_dec corr (- mc)); [|lra]. split; [rewrite Rabs_Ropp; apply Rabs_pos_eq; lra | nra].
  - destruct (Rle_dec corr mc); [lra|]. destruct (Rle_dec mc (- mc)); [lra|]. split; [apply Rabs_pos_eq; lra | nra].
Qed.
Print Assumptions C147_high.
(** a ValueError of the optimizer gives positive widths from the standard deviations *)
Theorem C147_failed : forall chol xs ys nb optS optD px py N corr rx ry min_corr mc, Rabs corr <= min_corr -> Rabs corr <= mc -> corr <= 8 / 10 -> 0 < sigma px -> 0 < sigma py ->
  optD (negb (has_limits px || has_limits py)) = Err ValueError -> exists hx hy, bandwidth2D chol xs ys nb optS optD false px py N corr rx ry min_corr mc 0 = Ok (hx, hy, corr) /\ 0 < hx /\ 0 < hy.
Proof.
  intros chol xs ys nb optS optD px py N corr rx ry mcr mc C1 C2 C3 S1 S2 EO. unfold bandwidth2D. cbv zeta. destruct (Rlt_dec mcr (Rabs corr)); [lra|]. cbn [andb]. destruct (Rlt_dec mc (Rabs corr)); [lra|]. destruct (Rlt_dec (8 / 10) corr); [lra|].
  rewrite andb_false_r. cbn [orb]. rewrite EO. cbn. assert (CU : cut_corr corr mc = corr).
  { unfold cut_corr. apply Rabs_le_inv in C2 || pose proof (Rabs_def2 corr mc). assert (L : - mc <= corr <= mc) by (unfold Rabs in C2; destruct (Rcase_abs corr); lra). rewrite Rmin_left by lra. apply Rmax_left. lra. }
  rewrite CU. do 2 eexists. split; [reflexivity|]. split; apply Rdiv_lt_0_compat; try assumption; apply Rpower_pos.
Qed.
Print Assumptions C147_failed.
(** a bias correction makes both widths larger by the same factor *)
Theorem C147_order : forall chol xs ys nb optS optD raises px py N corr rx ry min_corr mc k hx hy c, 1 <= N -> bandwidth2D chol xs ys nb optS optD raises px py N corr rx ry min_corr mc 0 = Ok (hx, hy, c) ->
  exists f, 11 / 10 <= f /\ bandwidth2D chol xs ys nb optS optD raises px py N corr rx ry min_corr mc (S k) = Ok (hx * f, hy * f, c).
Proof.
  intros chol xs ys nb optS optD raises px py N corr rx ry mcr mc k hx hy c HN H. unfold bandwidth2D in *. cbv zeta in *. match type of H with bindR ?x _ = _ => destruct x as [[[a b] d]|e]; [|discriminate] end.
  cbn [bindR Nat.eqb] in *. injection H as -> -> ->. eexists. split; [|reflexivity]. set (e := 1 / 6 - 1 / (2 + 4 * (1 + INR (S k)))).
  assert (EP : 0 <= e). { unfold e. pose proof (pos_INR (S k)). assert (/ (2 + 4 * (1 + INR (S k))) <= / 6) by (apply Rinv_le_contravar; lra). unfold Rdiv. rewrite !Rmult_1_l. lra. }
  assert (1 <= Rpower N e); [|lra]. unfold Rpower. rewrite <- exp_0. assert (LN : 0 <= ln N) by (destruct HN as [L|L]; [left; rewrite <- ln_1; apply ln_increasing; lra | rewrite <- L, ln_1; right; reflexivity]).
  pose proof (Rmult_le_pos _ _ EP LN) as Q. destruct Q as [Q|Q]; [left; apply exp_increasing; exact Q | rewrite <- Q; right; reflexivity].
Qed.
Print Assumptions C147_order.
(** FINDING: reflecting a parameter does not reflect the kernel: with limits on both parameters the test is on the correlation instead of its absolute value *)
Theorem C147_reflect_refuted : forall chol xs ys nb optS optD raises px py N corr rx ry min_corr mc h1 h2, has_limits px = true -> has_limits py = true -> 8 / 10 < corr -> corr <= mc ->
  optD false = Ok (h1, h2, 0) -> bandwidth2D chol xs ys nb optS optD raises px py N corr rx ry min_corr mc 0 = Ok (sigma px / Rpower N (1 / 6), sigma py / Rpower N (1 / 6), corr) /\
  bandwidth2D chol xs ys nb optS optD raises px py N (- corr) rx ry min_corr mc 0 = Ok (h1 * rx, h2 * ry, 0).
Proof.
  intros chol xs ys nb optS optD raises px py N corr rx ry mcr mc h1 h2 HX HY C1 C2 EO. unfold bandwidth2D. cbv zeta. rewrite HX, HY. cbn [negb orb]. rewrite !andb_false_r.
  rewrite Rabs_Ropp. assert (AB : Rabs corr = corr) by (apply Rabs_pos_eq; lra). rewrite AB. destruct (Rlt_dec mc corr); [lra|]. cbn [orb andb]. destruct (Rlt_dec (8 / 10) corr); [|lra]. destruct (Rlt_dec (8 / 10) (- corr)); [lra|].
  rewrite EO. cbn. split; [|reflexivity]. f_equal. f_equal. unfold cut_corr. rewrite Rmin_left by lra. apply Rmax_left. lra.
Qed.
Print Assumptions C147_reflect_refuted.
(** FINDING: the setting use_effective_samples_2D is not used when use_2D_Neff is left at its default False *)
Theorem C147_setting_refuted : forall setting corr n2 nx ny, choose_Neff None (Some false) setting corr n2 nx ny = Rmin nx ny.
Proof. reflexivity. Qed.
Print Assumptions C147_setting_refuted.

(** ** Examples *)
Example C147_nonflat_ex : nonflat 2 (fun k => INR k).
Proof. split; [intros; apply pos_INR | exists 1%nat; split; [lia | cbn; lra]]. Qed.
Example C147_nonflat2_ex : nonflat2 2 (fun i j => INR i * INR j).
Proof. split; [intros; apply Rmult_le_pos; apply pos_INR | exists 1%nat, 1%nat; repeat split; [lia | lia | cbn; lra]]. Qed.
(** three samples in 11 bins of the range 0 to 1 *)
Example C147_bins_ex : exists b, bin_samples [0; 1 / 2; 1] (Some 0) (Some 1) 11 (1 / 10) = Ok (b, 1 - 0).
Proof. destruct (C147_bins [0; 1 / 2; 1] (Some 0) (Some 1) 11 (1 / 10) 0 1) as [b [E _]]; try reflexivity; [discriminate | lia | lra | intros x [<- | [<- | [<- | []]]]; lra |]. exists b. exact E. Qed.
(** a fixed point: with the solver returning it, the bandwidth is it *)
Example C147_binned_ex : forall h, 0 < h -> 19 / 1000 <= h -> bandwidth_binned (fun _ _ => Ok h) (fun _ _ _ => Err ValueError) 1 = Some h.
Proof.
  intros h H L. unfold bandwidth_binned. rewrite pw_pos by lra. assert (P : Rpower 1 (- 1 / 5) = 1) by (unfold Rpower; rewrite ln_1, Rmult_0_r; apply exp_0). rewrite P. destruct (Rlt_dec h (19 / 1000 * 1)); [lra | reflexivity].
Qed.
(** variances 4 and 2 and covariance 2: factor 2, 1, 1; sheared samples - x + 2 y *)
Example C147_chol_ex : is_chol 4 2 2 (2, 1, 1) /\ shear_r (2, 1, 1) = (- 1, 2).
Proof. cbn. split; [lra|]. f_equal; lra. Qed.
Example C147_shear_ex : exists n w x y l, Sm n w <> 0 /\ is_chol (wcov n w x x) (wcov n w x y) (wcov n w y y) l.
Proof.
  exists 4%nat, (fun _ => 1), (fun k => match k with 0%nat => 2 | 1%nat => - 2 | _ => 0 end), (fun k => match k with 0%nat => 1 | 1%nat => - 1 | 2%nat => 1 | _ => - 1 end), (sqrt 2, / sqrt 2, / sqrt 2).
  assert (S2 : 0 < sqrt 2) by (apply sqrt_lt_R0; lra). assert (SS : sqrt 2 * sqrt 2 = 2) by (apply sqrt_sqrt; lra). split; [rewrite !Sm_S, Sm_0; lra|].
  unfold is_chol, wcov, wmean. rewrite !Sm_S, !Sm_0. split; [exact S2|]. split; [apply Rinv_0_lt_compat; exact S2|]. split; [rewrite SS; field|]. split; [field_simplify; lra|]. rewrite <- Rinv_mult, SS. field.
Qed.
Example C147_derotate_ex : forall kx ky kc, derotate (shear_S (2, 1, 1)) 1 1 0 = (kx, ky, kc) -> kx = 1 /\ kvar (kx, ky, kc) 0 1 = 1 / 2.
Proof.
  intros kx ky kc E. destruct (C147_derotate (2, 1, 1) (- 1) 2 1 1 0 kx ky kc) as [X [_ [_ V]]]; try lra; [exact (proj2 C147_chol_ex) | exact E|]. split; [exact X|].
  specialize (V (1 / 2) (1 / 2)). replace (1 / 2 + 1 / 2 * - 1) with 0 in V by field. replace (1 / 2 * 2) with 1 in V by field. rewrite V. unfold kvar. field.
Qed.
(** one spectral line: the error is defined *)
Example C147_amise_ex : exists A, AMISE (mkMom 1 1 1 (Some 1) (Some 1)) 1 1 1 (1 / 2) = Ok (Some A).
Proof.
  pose proof (C147_amise 1 (fun _ => 1) (fun _ => 1) (fun _ => 1) 1 1 1 (1 / 2) ltac:(intros; lra) ltac:(lra) ltac:(lra) ltac:(lra) ltac:(lra)) as H. cbv zeta in H. unfold spec_moment in H. rewrite !Sm_S, !Sm_0 in H.
  replace (0 + 1 * 1 ^ 4 * 1 ^ 0) with 1 in H by ring. replace (0 + 1 * 1 ^ 0 * 1 ^ 4) with 1 in H by ring. replace (0 + 1 * 1 ^ 2 * 1 ^ 2) with 1 in H by ring. replace (0 + 1 * 1 ^ 3 * 1 ^ 1) with 1 in H by ring. replace (0 + 1 * 1 ^ 1 * 1 ^ 3) with 1 in H by ring. eexists. exact H.
Qed.
(** moments 1: a minimizer that returns the widths 1, 1 and correlation 0, and one that fails *)
Example C147_choose_ex : choose (mkMom 1 1 1 (Some 0) (Some 0)) 1 0 1 1 (fun _ _ => None) (fun _ _ _ => None) = Ok (1, 1, 0).
Proof.
  unfold choose. rewrite (C147_amise0 _ 1 1 1 0 0) by (reflexivity || (cbn; lra)). cbn [bindR]. destruct (Req_EM_T 0 0); [reflexivity | contradiction].
Qed.
(** limits on both parameters, correlations 0.9 and - 0.9 *)
Example C147_reflect_refuted_ex : let p := mkPar2 true false 0 1 1 in let f c := bandwidth2D (fun _ => Err ValueError) [] [] 10 (fun _ _ _ => Err ValueError) (fun _ => Ok (1, 1, 0)) false p p 1 c 1 1 (1 / 5) (95 / 100) 0 in
  (exists h, f (9 / 10) = Ok (h, h, 9 / 10)) /\ exists h, f (- (9 / 10)) = Ok (h, h, 0).
Proof.
  cbv zeta. destruct (C147_reflect_refuted (fun _ => Err ValueError) [] [] 10 (fun _ _ _ => Err ValueError) (fun _ => Ok (1, 1, 0)) false (mkPar2 true false 0 1 1) (mkPar2 true false 0 1 1) 1 (9 / 10) 1 1 (1 / 5) (95 / 100) 1 1 eq_refl eq_refl ltac:(lra) ltac:(lra) eq_refl) as [A B].
  split; eexists; [exact A | exact B].
Qed.
Example C147_setting_refuted_ex : choose_Neff None (Some false) true 0 100 7 9 = 7 /\ choose_Neff None None true 0 100 7 9 = 100.
Proof. unfold choose_Neff. rewrite Rabs_R0. destruct (Rlt_dec 0 (999 / 1000)); [|lra]. cbn. split; [apply Rmin_left; lra | reflexivity]. Qed.

(** ** The equations of the times *)
Lemma odds_dfact j : odds j = dfact j.
Proof.
  unfold odds. induction j as [|j IH]; [reflexivity|]. rewrite seq_S, map_app, fold_right_app. cbn [map fold_right dfact plus].
  assert (A : forall l x, fold_right Rmult x l = fold_right Rmult 1 l * x) by (induction l as [|y l IHl]; intros x; cbn; [ring | rewrite IHl; ring]). rewrite A, IH. rewrite plus_INR, mult_INR. cbn [INR]. ring.
Qed.
Lemma II_pos k : 0 < II k.
Proof. unfold II. apply pow_lt, lt_0_INR. lia. Qed.
Lemma II_exp k j t : exp (INR j * ln (II k) - II k * (PI ^ 2 * t)) * PI ^ (2 * j) = (INR (k + 1) * PI) ^ (2 * j) * exp (- ((INR (k + 1) * PI) ^ 2 * t)).
Proof.
  unfold Rminus. rewrite exp_plus. assert (E : exp (INR j * ln (II k)) = INR (k + 1) ^ (2 * j)) by (change (exp (INR j * ln (II k))) with (Rpower (II k) (INR j)); rewrite Rpower_pow by apply II_pos; unfold II; rewrite pow_mult; reflexivity).
  rewrite E, Rpow_mult_distr. replace (- (II k * (PI ^ 2 * t))) with (- ((INR (k + 1) * PI) ^ 2 * t)) by (unfold II; ring). ring.
Qed.
Lemma ksum_deriv2 n a2 j t : ksum n a2 j t = deriv2 n a2 j t.
Proof.
  unfold ksum, deriv2. rewrite Rmult_assoc. f_equal. induction n as [|n IH]; [rewrite Sm_0; cbn [rsum]; ring|]. rewrite Sm_S. cbn [rsum]. rewrite Rmult_plus_distr_l, IH. f_equal. rewrite Rmult_assoc, <- II_exp. ring.
Qed.
Lemma sqrt_half : Rpower (1 / 2) (1 / 2) = / sqrt 2.
Proof. replace (1 / 2) with (/ 2) by field. rewrite Rpower_sqrt by lra. rewrite sqrt_inv. reflexivity. Qed.
Lemma const1_spec j : const1 j = (1 + (1 / 2) ^ j / sqrt 2) / 3 * dfact j * sqrt 2 / sqrt PI.
Proof.
  unfold const1. rewrite odds_dfact. rewrite Rpower_plus, Rpower_pow by lra. rewrite sqrt_half. pose proof sqrtPI. pose proof (sqrt_lt_R0 2 ltac:(lra)). field. split; lra.
Qed.
Lemma stage_time N j f : 0 < N -> 0 < f -> time_of N j f (Rpower (const1 j / N / f) (2 / (3 + 2 * INR j))).
Proof.
  intros HN F. split; [apply Rpower_pos|]. pose proof (const1_pos j) as CP. assert (Q : 0 < const1 j / N / f) by (apply Rdiv_lt_0_compat; [apply Rdiv_lt_0_compat|]; assumption).
  rewrite Rpower_nat by exact Q. replace (2 / (3 + 2 * INR j) * INR (2 * j + 3)) with (INR 2).
  - rewrite Rpower_pow by exact Q. rewrite <- const1_spec. f_equal. field. lra.
  - rewrite plus_INR, mult_INR. cbn [INR]. pose proof (pos_INR j). field. lra.
Qed.
Lemma stages_cons n a2 N j js f : nonflat n a2 -> 0 < N -> 0 < f -> exists t, time_of N j f t /\ stages n a2 N (j :: js) f = stages n a2 N js (deriv2 n a2 j t).
Proof.
  intros G HN F. exists (Rpower (const1 j / N / f) (2 / (3 + 2 * INR j))). split; [apply stage_time; assumption|]. cbn [stages]. destruct (Req_EM_T f 0); [lra|]. rewrite pw_pos. 2:{ apply Rdiv_lt_0_compat; [apply Rdiv_lt_0_compat; [apply const1_pos | exact HN] | exact F]. }
  cbn [bindR]. cbv zeta. rewrite <- ksum_deriv2. pose proof (ksum_pos n a2 j (Rpower (const1 j / N / f) (2 / (3 + 2 * INR j))) G). destruct (Req_EM_T _ 0); [lra | reflexivity].
Qed.
(** the width that is compared is that of the plug-in method of Sheather and Jones as improved by Botev et al., with derivatives from the seventh to the second *)
Theorem C147_isj : forall n a2 N h, nonflat n a2 -> 0 < N -> 0 < h -> exists t6 t5 t4 t3 t2 h', fixed_point n a2 N h = Ok (h - h') /\
  time_of N 6 (deriv2 n a2 7 (h ^ 2)) t6 /\ time_of N 5 (deriv2 n a2 6 t6) t5 /\ time_of N 4 (deriv2 n a2 5 t5) t4 /\ time_of N 3 (deriv2 n a2 4 t4) t3 /\ time_of N 2 (deriv2 n a2 3 t3) t2 /\
  0 < h' /\ h' ^ 5 * (2 * N * sqrt PI * deriv2 n a2 2 t2) = 1.
Proof.
  intros n a2 N h G HN H. assert (DP : forall j t, 0 < deriv2 n a2 j t) by (intros; rewrite <- ksum_deriv2; apply ksum_pos; exact G).
  unfold fixed_point. destruct (Rle_dec h 0); [lra|]. rewrite ksum_deriv2.
  destruct (stages_cons n a2 N 6 [5; 4; 3; 2]%nat _ G HN (DP 7%nat (h ^ 2))) as [t6 [T6 E6]]. rewrite E6. destruct (stages_cons n a2 N 5 [4; 3; 2]%nat _ G HN (DP 6%nat t6)) as [t5 [T5 E5]]. rewrite E5.
  destruct (stages_cons n a2 N 4 [3; 2]%nat _ G HN (DP 5%nat t5)) as [t4 [T4 E4]]. rewrite E4. destruct (stages_cons n a2 N 3 [2]%nat _ G HN (DP 4%nat t4)) as [t3 [T3 E3]]. rewrite E3.
  destruct (stages_cons n a2 N 2 []%nat _ G HN (DP 3%nat t3)) as [t2 [T2 E2]]. rewrite E2. cbn [stages bindR].
  assert (P : 0 < 2 * N * sqrt PI * deriv2 n a2 2 t2). { pose proof (Rmult_lt_0_compat _ _ (Rmult_lt_0_compat _ _ HN sqrtPI) (DP 2%nat t2)). lra. }
  rewrite pw_pos by exact P. cbn [bindR]. exists t6, t5, t4, t3, t2. eexists. split; [reflexivity|]. repeat (split; [assumption || apply Rpower_pos|]). rewrite Rpower_nat by exact P.
  replace (- 1 / 5 * INR 5) with (- (1)) by (cbn; field). rewrite Rpower_Ropp, Rpower_1 by exact P. field. pose proof sqrtPI. pose proof (DP 2%nat t2). repeat split; lra.
Qed.
Print Assumptions C147_isj.
Lemma rsum_Sm' n f g : (forall k, (k < n)%nat -> f k = g k) -> rsum n f = Sm n g.
Proof. induction n as [|n IH]; intros H; [rewrite Sm_0; reflexivity|]. rewrite Sm_S. cbn [rsum]. rewrite IH by (intros; apply H; lia). rewrite H by lia. reflexivity. Qed.
Lemma psi_deriv2d n a2 s0 s1 t : psi n a2 s0 s1 t = deriv2d n a2 s0 s1 t.
Proof.
  unfold psi, deriv2d. set (w := fun k s => exp (- II k * (PI ^ 2 * t) + ln (II k) * INR s)).
  assert (W : forall k s, w k s = INR (k + 1) ^ (2 * s) * exp (- (INR (k + 1) ^ 2 * PI ^ 2 * t))).
  { intros k s. unfold w. rewrite exp_plus. assert (E : exp (ln (II k) * INR s) = INR (k + 1) ^ (2 * s)) by (rewrite Rmult_comm; change (exp (INR s * ln (II k))) with (Rpower (II k) (INR s)); rewrite Rpower_pow by apply II_pos; unfold II; rewrite pow_mult; reflexivity).
    rewrite E. replace (- II k * (PI ^ 2 * t)) with (- (INR (k + 1) ^ 2 * PI ^ 2 * t)) by (unfold II; ring). ring. }
  rewrite (rsum_Sm' n _ (fun j => Sm n (fun i => w i s1 * a2 i j * w j s0))).
  2:{ intros j J. rewrite (rsum_Sm' n _ (fun i => w i s1 * a2 i j)) by reflexivity. rewrite Rmult_comm, <- Sm_scal. apply Sm_ext. intros. change (exp (- II j * (PI ^ 2 * t) + ln (II j) * INR s0)) with (w j s0). ring. }
  replace (2 * (s0 + s1))%nat with (2 * s0 + 2 * s1)%nat by lia. rewrite (pow_add PI).
  transitivity ((- 1) ^ (s0 + s1) / 4 * (PI ^ (2 * s0) * PI ^ (2 * s1) * Sm n (fun j => Sm n (fun i => w i s1 * a2 i j * w j s0)))); [field|]. f_equal. rewrite <- Sm_scal. apply Sm_ext. intros j J. rewrite <- Sm_scal. apply Sm_ext. intros i I0.
  rewrite !W, !Rpow_mult_distr. replace (- ((INR (i + 1) ^ 2 + INR (j + 1) ^ 2) * PI ^ 2 * t)) with (- (INR (i + 1) ^ 2 * PI ^ 2 * t) + - (INR (j + 1) ^ 2 * PI ^ 2 * t)) by ring. rewrite exp_plus. ring.
Qed.
(** the same of two parameters: from the fifth order on the given time is used, below it that of the next order *)
Theorem C147_func2d_time : forall n a2 N s0 s1 t, nonflat2 n a2 -> 0 < N ->
  ((5 <= s0 + s1)%nat -> func2d n a2 N s0 s1 t = Ok (deriv2d n a2 s0 s1 t)) /\
  ((s0 + s1 <= 4)%nat -> exists u v time, func2d n a2 N (S s0) s1 t = Ok u /\ func2d n a2 N s0 (S s1) t = Ok v /\ time_2d N s0 s1 (u + v) time /\ func2d n a2 N s0 s1 t = Ok (deriv2d n a2 s0 s1 time)).
Proof.
  intros n a2 N s0 s1 t G HN. split; intros L; unfold func2d.
  - replace (5 - (s0 + s1))%nat with 0%nat by lia. cbn [f2d]. rewrite psi_deriv2d. reflexivity.
  - replace (5 - (s0 + s1))%nat with (S (4 - (s0 + s1))) by lia. replace (5 - (S s0 + s1))%nat with (4 - (s0 + s1))%nat by lia. replace (5 - (s0 + S s1))%nat with (4 - (s0 + s1))%nat by lia. set (d := (4 - (s0 + s1))%nat).
    destruct (f2d_sign n a2 N t d G HN (S s0) s1) as [u [EU U]]. destruct (f2d_sign n a2 N t d G HN s0 (S s1)) as [v [EV V]]. cbn [f2d]. rewrite EU. cbn [bindR]. rewrite EV. cbn [bindR]. cbv zeta.
    replace (S s0 + s1)%nat with (S (s0 + s1)) in U by lia. replace (s0 + S s1)%nat with (S (s0 + s1)) in V by lia. cbn [pow] in U, V. set (c := (1 + (1 / 2) ^ (s0 + s1 + 1)) / 3). assert (CP : 0 < c) by (unfold c; pose proof (pow_lt (1 / 2) (s0 + s1 + 1) ltac:(lra)); lra).
    assert (UV : u + v <> 0) by (destruct (sgn (s0 + s1)) as [E|E]; rewrite E in *; lra). rewrite rdivE_ok by exact UV. cbn [bindR].
    assert (SP : sqrt (2 * PI) * sqrt (2 * PI) = 2 * PI) by (apply sqrt_sqrt; pose proof PI_RGT_0; lra). assert (SQ : 0 < sqrt (2 * PI)) by (apply sqrt_lt_R0; pose proof PI_RGT_0; lra).
    assert (KK : K2 s0 * K2 s1 = (- 1) ^ (s0 + s1) * (dfact s0 * dfact s1 / (2 * PI))) by (unfold K2; rewrite !odds_dfact, pow_add; set (sq := sqrt (2 * PI)) in *; clearbody sq; rewrite <- SP; field; lra).
    assert (DF : 0 < dfact s0 * dfact s1 / (2 * PI)). { apply Rdiv_lt_0_compat; [|pose proof PI_RGT_0; lra]. rewrite <- !odds_dfact. apply Rmult_lt_0_compat; apply odds_pos. }
    set (D := dfact s0 * dfact s1 / (2 * PI)) in *. pose proof (Rmult_lt_0_compat _ _ CP DF) as CD.
    assert (EQ : - 2 * c * K2 s0 * K2 s1 / N / (u + v) = 2 * (c * D) / N * / (- ((- 1) ^ (s0 + s1)) * (u + v))).
    { replace (- 2 * c * K2 s0 * K2 s1) with (- 2 * c * (K2 s0 * K2 s1)) by ring. rewrite KK. destruct (sgn (s0 + s1)) as [E|E]; rewrite E; field; repeat split; lra. }
    assert (SG : 0 < - ((- 1) ^ (s0 + s1)) * (u + v)) by (destruct (sgn (s0 + s1)) as [E|E]; rewrite E in *; lra).
    assert (QP : 0 < - 2 * c * K2 s0 * K2 s1 / N / (u + v)) by (rewrite EQ; apply Rmult_lt_0_compat; [apply Rdiv_lt_0_compat; lra | apply Rinv_0_lt_compat; exact SG]).
    rewrite pw_pos by exact QP. cbn [bindR]. rewrite psi_deriv2d. do 3 eexists. repeat (split; [reflexivity|]). split; [|reflexivity]. split; [apply Rpower_pos|]. rewrite Rpower_nat by exact QP.
    replace (1 / (2 + INR (s0 + s1)) * INR (s0 + s1 + 2)) with 1 by (rewrite (plus_INR (s0 + s1) 2); cbn [INR]; pose proof (pos_INR (s0 + s1)); field; lra). rewrite Rpower_1 by exact QP. rewrite EQ. fold c. replace (2 * c * dfact s0 * dfact s1 / (2 * PI)) with (2 * (c * D)) by (unfold D, Rdiv; ring).
    rewrite (pow_add (- 1) (s0 + s1) 1). cbn [pow]. replace ((- 1) ^ (s0 + s1) * (- 1 * 1) * (u + v)) with (- ((- 1) ^ (s0 + s1)) * (u + v)) by ring. set (X := - ((- 1) ^ (s0 + s1)) * (u + v)) in *. clearbody X. field. split; lra.
Qed.
Print Assumptions C147_func2d_time.
(** the time compared in two dimensions *)
Theorem C147_fixed_2D_time : forall n a2 N t a b c, nonflat2 n a2 -> 0 < N -> func2d n a2 N 0 2 t = Ok a -> func2d n a2 N 2 0 t = Ok b -> func2d n a2 N 1 1 t = Ok c -> exists time,
  fixed_point_2D n a2 N t = Ok ((t - time) / time) /\ 0 < time /\ time ^ 3 * (2 * PI * N * (a + b + 2 * c)) = 1.
Proof.
  intros n a2 N t a b c G HN EA EB EC. unfold fixed_point_2D. rewrite EA. cbn [bindR]. rewrite EB. cbn [bindR]. rewrite EC. cbn [bindR].
  destruct (func2d_even n a2 N 0 2 t G HN eq_refl) as [a' [EA' A]]. destruct (func2d_even n a2 N 2 0 t G HN eq_refl) as [b' [EB' B]]. destruct (func2d_even n a2 N 1 1 t G HN eq_refl) as [c' [EC' C]].
  assert (a' = a) by congruence. assert (b' = b) by congruence. assert (c' = c) by congruence. subst a' b' c'.
  assert (P : 0 < 2 * PI * N * (a + b + 2 * c)) by (pose proof (Rmult_lt_0_compat _ _ PI_RGT_0 HN); replace (2 * PI * N) with (2 * (PI * N)) by ring; apply Rmult_lt_0_compat; lra).
  rewrite pw_pos by exact P. cbn [bindR]. eexists. split; [apply rdivE_ok; apply Rgt_not_eq, Rpower_pos|]. split; [apply Rpower_pos|]. rewrite Rpower_nat by exact P. replace (- 1 / 3 * INR 3) with (- (1)) by (cbn; field). rewrite Rpower_Ropp, Rpower_1 by exact P. apply Rinv_l. lra.
Qed.
Print Assumptions C147_fixed_2D_time.
Example C147_sheared_ex : exists hx hy kc, bandwidth2D (fun _ => Ok (2, 1, 1)) [0; 1] [0; 1] 11 (fun _ _ _ => Ok (1, 1, 0)) (fun _ => Err ValueError) false (mkPar2 true true 0 1 1) (mkPar2 false false 0 1 1) 100 (1 / 2) 1 1 (1 / 5) (95 / 100) 0 = Ok (hx, hy, kc) /\ hx = 1 * (1 - 0).
Proof.
  destruct (C147_bins [0; 1] (Some 0) (Some 1) 11 (1 / 10) 0 1) as [b1 [E1 _]]; try reflexivity; [discriminate | lia | lra | intros x [<- | [<- | []]]; lra |].
  assert (M : lmin (map (fun z => - 1 * fst z + 2 * snd z) (combine [0; 1] [0; 1])) = 0 /\ lmax (map (fun z => - 1 * fst z + 2 * snd z) (combine [0; 1] [0; 1])) = 1) by (cbn; split; [rewrite Rmin_left by lra | rewrite Rmax_right by lra]; ring).
  destruct M as [M1 M2]. destruct (C147_bins (map (fun z => - 1 * fst z + 2 * snd z) (combine [0; 1] [0; 1])) None None 11 (1 / 10) (- (1 / 10)) (11 / 10)) as [b2 [E2 _]]; try discriminate; [lia | rewrite M1, M2; field | rewrite M1, M2; field | lra | intros x [<- | [<- | []]]; cbn; lra |].
  destruct (C147_sheared (fun _ => Ok (2, 1, 1)) [0; 1] [0; 1] 11 (fun _ _ _ => Ok (1, 1, 0)) (fun _ => Err ValueError) false (mkPar2 true true 0 1 1) (mkPar2 false false 0 1 1) 100 (1 / 2) 1 1 (1 / 5) (95 / 100) (2, 1, 1) (- 1) 2 b1 (1 - 0) b2 (11 / 10 - - (1 / 10)) 1 1 0) as [hx [hy [kc [E [X _]]]]]; try reflexivity; try lra.
  - rewrite Rabs_pos_eq; lra.
  - rewrite Rabs_pos_eq; lra.
  - right. reflexivity.
  - exact (proj2 C147_chol_ex).
  - exact E1.
  - exact E2.
  - exists hx, hy, kc. split; [exact E | exact X].
Qed.
