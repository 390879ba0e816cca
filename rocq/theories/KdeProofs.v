(** Proofs for KdeModel: the estimate as a function on the integers. *)
From Coq Require Import Reals ZArith Bool Lia Lra Arith List.
From Verif Require Import PyStr PyBase ConvModel ConvSpec ConvProofs ConvProps KdeModel KdeSpec.
Import ListNotations.
Local Open Scope R_scope.

(** ** Sums over the window *)
Lemma wsum_ext w f g : (forall d, (- Z.of_nat w <= d <= Z.of_nat w)%Z -> f d = g d) -> wsum w f = wsum w g.
Proof. intro H. apply rsum_ext. intros i I. apply H. lia. Qed.
Lemma wsum_plus w f g : wsum w (fun d => f d + g d) = wsum w f + wsum w g.
Proof. unfold wsum. apply rsum_plus. Qed.
Lemma wsum_scal w c f : wsum w (fun d => c * f d) = c * wsum w f.
Proof. unfold wsum. apply rsum_scal. Qed.
Lemma wsum_rev w f : wsum w (fun d => f (- d)%Z) = wsum w f.
Proof. unfold wsum. rewrite (rsum_rev _ (fun i => f (Z.of_nat i - Z.of_nat w)%Z)). apply rsum_ext. intros i I. f_equal. lia. Qed.
Lemma rsum_nonneg n f : (forall i, (i < n)%nat -> 0 <= f i) -> 0 <= rsum n f.
Proof. induction n; intro H; cbn [rsum]; [lra |]. specialize (IHn (fun i I => H i (Nat.lt_lt_succ_r _ _ I))). specialize (H n ltac:(lia)). lra. Qed.
Lemma rsum_pos n f k : (forall i, (i < n)%nat -> 0 <= f i) -> (k < n)%nat -> 0 < f k -> 0 < rsum n f.
Proof.
  induction n; intros H K P; [lia |]. cbn [rsum]. pose proof (rsum_nonneg n f (fun i I => H i (Nat.lt_lt_succ_r _ _ I))). pose proof (H n ltac:(lia)).
  destruct (Nat.eq_dec k n) as [-> | NE]; [lra |]. specialize (IHn (fun i I => H i (Nat.lt_lt_succ_r _ _ I)) ltac:(lia) P). lra.
Qed.
Lemma rsum_zero_each n f : (forall i, (i < n)%nat -> 0 <= f i) -> rsum n f = 0 -> forall k, (k < n)%nat -> f k = 0.
Proof. intros H E k K. destruct (Rle_lt_or_eq_dec 0 (f k) (H k K)) as [P | P]; [| easy]. pose proof (rsum_pos n f k H K P). lra. Qed.
Lemma wsum_nonneg w f : (forall d, (- Z.of_nat w <= d <= Z.of_nat w)%Z -> 0 <= f d) -> 0 <= wsum w f.
Proof. intro H. apply rsum_nonneg. intros i I. apply H. lia. Qed.
Lemma wsum_pos w f d : (forall d, (- Z.of_nat w <= d <= Z.of_nat w)%Z -> 0 <= f d) -> (- Z.of_nat w <= d <= Z.of_nat w)%Z -> 0 < f d -> 0 < wsum w f.
Proof.
  intros H D P. apply (rsum_pos _ _ (Z.to_nat (d + Z.of_nat w))); [intros i I; apply H; lia | lia |]. replace (Z.of_nat (Z.to_nat (d + Z.of_nat w)) - Z.of_nat w)%Z with d by lia. exact P.
Qed.
(** ** The kernel *)
Lemma gauss_pos h d : 0 < gauss h d.
Proof. apply exp_pos. Qed.
Lemma gauss_sum w h : 0 < wsum w (gauss h).
Proof. apply (wsum_pos w _ 0%Z); [intros; apply Rlt_le, gauss_pos | lia | apply gauss_pos]. Qed.
Lemma gk_pos w h d : 0 < gk w h d.
Proof. apply Rdiv_lt_0_compat; [apply gauss_pos | apply gauss_sum]. Qed.
Lemma gk_sum w h : wsum w (gk w h) = 1.
Proof.
  pose proof (gauss_sum w h). transitivity (wsum w (fun d => / wsum w (gauss h) * gauss h d)); [apply wsum_ext; intros d _; unfold gk, Rdiv; ring |]. rewrite wsum_scal. field. lra.
Qed.
Lemma gk_even w h d : gk w h (- d) = gk w h d.
Proof. unfold gk, gauss. rewrite opp_IZR. do 2 f_equal. unfold Rdiv. ring. Qed.
Lemma seq_at n (f : nat -> R) k : (k < n)%nat -> at_ (map f (seq 0 n)) k = f k.
Proof. intro K. unfold at_. rewrite (nth_indep _ 0 (f 0%nat)) by (rewrite map_length, seq_length; exact K). rewrite map_nth, seq_nth by exact K. reflexivity. Qed.
Lemma kernel_x_at w k : (k < 2 * w + 1)%nat -> at_ (kernel_x w) k = IZR (Z.of_nat k - Z.of_nat w).
Proof. intro K. unfold kernel_x. now rewrite seq_at. Qed.
Lemma kernel_x_len w : length (kernel_x w) = (2 * w + 1)%nat.
Proof. unfold kernel_x. now rewrite map_length, seq_length. Qed.
Lemma kernel_win_len w h : length (kernel_win w h) = (2 * w + 1)%nat.
Proof. unfold kernel_win. now rewrite !map_length, kernel_x_len. Qed.
Lemma at_map (f : R -> R) l k : (k < length l)%nat -> at_ (map f l) k = f (at_ l k).
Proof. intro K. unfold at_. rewrite (nth_indep _ 0 (f 0)) by (rewrite map_length; exact K). apply map_nth. Qed.
Lemma kernel_win_at w h k : (k < 2 * w + 1)%nat -> at_ (kernel_win w h) k = gk w h (Z.of_nat k - Z.of_nat w).
Proof.
  intro K. unfold kernel_win. rewrite at_map by (rewrite map_length, kernel_x_len; exact K). rewrite at_map by (rewrite kernel_x_len; exact K). rewrite kernel_x_at by exact K. unfold gk, gauss. f_equal. f_equal.
  rewrite map_length, kernel_x_len. apply rsum_ext. intros i I. rewrite at_map by (rewrite kernel_x_len; exact I). rewrite kernel_x_at by exact I. reflexivity.
Qed.
Lemma zip_len f a b n : length a = n -> length b = n -> length (zip f a b) = n.
Proof. intros A B. unfold zip. rewrite map_length, combine_length. lia. Qed.
Lemma zip_at f a b n k : length a = n -> length b = n -> (k < n)%nat -> at_ (zip f a b) k = f (at_ a k) (at_ b k).
Proof.
  intros A B K. unfold zip, at_. rewrite (nth_indep _ 0 (f (fst (0, 0)) (snd (0, 0)))) by (rewrite map_length, combine_length; lia). rewrite (map_nth (fun p => f (fst p) (snd p))). rewrite combine_nth by lia. reflexivity.
Qed.
(** a list that is the kernel [g] *)
Definition is_kernel (w : nat) (g : Z -> R) (l : list R) : Prop := length l = (2 * w + 1)%nat /\ forall k, (k < 2 * w + 1)%nat -> at_ l k = g (Z.of_nat k - Z.of_nat w)%Z.
Lemma win_kernel w h : is_kernel w (gm w h 0) (kernel_win w h).
Proof. split; [apply kernel_win_len |]. intros k K. rewrite kernel_win_at by exact K. unfold gm. cbn. ring. Qed.
Lemma zip_kernel w g g' f l : is_kernel w g l -> (forall d, g' d = f (g d) (IZR d)) -> is_kernel w g' (zip f l (kernel_x w)).
Proof.
  intros (A & B) E. split; [apply zip_len; [exact A | apply kernel_x_len] |]. intros k K. rewrite (zip_at _ _ _ (2 * w + 1)) by (assumption || apply kernel_x_len). rewrite B, kernel_x_at, E by exact K. reflexivity.
Qed.
(** ** Convolutions *)
Lemma coef_sum x y k : conv_coef x y k = rsum (length y) (fun j => nth j y 0 * zat x (Z.of_nat k - Z.of_nat j)).
Proof.
  unfold conv_coef. rewrite (pairs_sum _ _ _ (fun i j => nth i x 0 * nth j y 0)). rewrite rsum_swap. apply rsum_ext. intros j J. unfold zat. destruct (Z.ltb_spec (Z.of_nat k - Z.of_nat j) 0) as [L | L].
  - rewrite Rmult_0_r. apply rsum_zero. intros i I. destruct (Nat.eqb_spec (i + j) k); [lia | reflexivity].
  - destruct (Nat.lt_ge_cases (k - j) (length x)) as [I | I].
    + rewrite (rsum_single _ _ (k - j)%nat); [| exact I | intros i _ NE; destruct (Nat.eqb_spec (i + j) k); [lia | reflexivity]]. destruct (Nat.eqb_spec (k - j + j) k); [| lia]. replace (Z.to_nat (Z.of_nat k - Z.of_nat j)) with (k - j)%nat by lia. ring.
    + rewrite rsum_zero; [| intros i Q; destruct (Nat.eqb_spec (i + j) k); [lia | reflexivity]]. rewrite (nth_overflow x) by lia. ring.
Qed.
Lemma coef_blur w g x y k : is_kernel w g y -> conv_coef x y k = blur w g (zat x) (Z.of_nat k - Z.of_nat w).
Proof. intros (A & B). rewrite coef_sum, A. unfold blur, wsum. apply rsum_ext. intros j J. unfold at_ in B. rewrite B by exact J. f_equal. f_equal. lia. Qed.
Lemma conv_same w g x y : is_kernel w g y -> (2 * w + 1 <= length x)%nat -> (Z.of_nat (length x + 2 * w) <= 2013265920)%Z ->
  exists r, conv Same x y = Ok r /\ length r = length x /\ forall i, (i < length x)%nat -> at_ r i = blur w g (zat x) (Z.of_nat i).
Proof.
  intros K LX B. pose proof K as (LY & _). destruct (C41_convolve1D (mkArr 0 x) (mkArr 1 y) Same true false 0 true true w (length x)) as (r & E & C); cbn [a_val]; try lia.
  - split; reflexivity.
  - replace w with ((length y - 1) / 2)%nat at 1; [constructor |]. rewrite LY. replace (2 * w + 1 - 1)%nat with (w * 2)%nat by lia. apply Nat.div_mul. lia.
  - exists r. unfold conv. rewrite E. cbn [bindR fst]. split; [reflexivity |]. destruct C as (CL & CN). split; [exact CL |]. intros i I. unfold at_. rewrite CN by exact I. cbn [a_val]. rewrite (coef_blur w g) by exact K. f_equal. lia.
Qed.
Lemma conv_valid w g N x y : is_kernel w g y -> (2 * w + 1 <= N)%nat -> length x = (N + 2 * w)%nat -> (Z.of_nat (N + 4 * w) <= 2013265920)%Z ->
  exists r, conv Valid x y = Ok r /\ length r = N /\ forall i, (i < N)%nat -> at_ r i = blur w g (fun q => zat x (q + Z.of_nat w)) (Z.of_nat i).
Proof.
  intros K LN LX B. pose proof K as (LY & _). destruct (C41_convolve1D (mkArr 0 x) (mkArr 1 y) Valid false false 0 true true (length y - 1)%nat N) as (r & E & C); cbn [a_val]; try lia.
  - split; reflexivity.
  - replace N with (length x + 1 - length y)%nat at 1 by lia. constructor.
  - exists r. unfold conv. rewrite E. cbn [bindR fst]. split; [reflexivity |]. destruct C as (CL & CN). split; [exact CL |]. intros i I. unfold at_. rewrite CN by exact I. cbn [a_val]. rewrite (coef_blur w g) by exact K.
    unfold blur. apply wsum_ext. intros d _. f_equal. f_equal. lia.
Qed.
(** ** The mask *)
Lemma at_repeat c n k : (k < n)%nat -> at_ (repeat c n) k = c.
Proof. revert k. induction n; intros [| k] K; cbn [repeat at_ nth]; try lia; [reflexivity |]. apply IHn. lia. Qed.
Lemma at_over l k : (length l <= k)%nat -> at_ l k = 0.
Proof. intro K. unfold at_. now apply nth_overflow. Qed.
Lemma set_at_len i v l : length (set_at i v l) = length l.
Proof. unfold set_at. now rewrite map_length, seq_length. Qed.
Lemma zero_first_len i l : length (zero_first i l) = length l.
Proof. unfold zero_first. now rewrite map_length, seq_length. Qed.
Lemma zero_last_len i l : length (zero_last i l) = length l.
Proof. unfold zero_last. now rewrite map_length, seq_length. Qed.
Lemma mask_len N w bot top : length (prior_mask N w bot top) = (N + 2 * w)%nat.
Proof. unfold prior_mask. destruct bot, top; rewrite ?zero_last_len, ?set_at_len, ?zero_first_len, ?set_at_len, repeat_length; reflexivity. Qed.
Lemma mask_at N w bot top k : (2 <= N)%nat -> (1 <= w)%nat -> (k < N + 2 * w)%nat -> at_ (prior_mask N w bot top) k = share N bot top (Z.of_nat k - Z.of_nat w).
Proof.
  intros HN HW K. assert (BOT : at_ (if bot then zero_first w (set_at w (1 / 2) (repeat 1 (N + 2 * w))) else repeat 1 (N + 2 * w)) k = part_above bot (Z.of_nat k - Z.of_nat w)).
  { destruct bot; [| rewrite at_repeat by exact K; reflexivity]. unfold zero_first. rewrite set_at_len, repeat_length, seq_at by exact K. unfold part_above. destruct (Nat.ltb_spec k w); destruct (Z.ltb_spec (Z.of_nat k - Z.of_nat w) 0); try lia; [reflexivity |].
    unfold set_at. rewrite repeat_length, seq_at by exact K. destruct (Nat.eqb_spec k w); destruct (Z.eqb_spec (Z.of_nat k - Z.of_nat w) 0); try lia; [reflexivity |]. now apply at_repeat. }
  unfold prior_mask, share. cbv zeta. set (m := if bot then _ else _) in *. assert (LM : length m = (N + 2 * w)%nat) by (unfold m; destruct bot; rewrite ?zero_first_len, ?set_at_len, repeat_length; reflexivity).
  destruct top; [| rewrite BOT; unfold part_above; ring]. unfold zero_last. rewrite set_at_len, LM, seq_at by exact K. unfold part_above at 2. destruct (Nat.eqb_spec w 0); [lia |]. cbn [orb].
  destruct (Nat.leb_spec (N + 2 * w - w) k); destruct (Z.ltb_spec (Z.of_nat N - 1 - (Z.of_nat k - Z.of_nat w)) 0); try lia; [ring |].
  unfold set_at. rewrite LM, seq_at by exact K. destruct (Nat.eqb_spec k (N + 2 * w - (w + 1))); destruct (Z.eqb_spec (Z.of_nat N - 1 - (Z.of_nat k - Z.of_nat w)) 0); try lia; [| rewrite BOT; ring].
  destruct bot; unfold part_above; [| lra]. destruct (Z.ltb_spec (Z.of_nat k - Z.of_nat w) 0); [lia |]. destruct (Z.eqb_spec (Z.of_nat k - Z.of_nat w) 0); [lia | lra].
Qed.
Lemma mask_blur N w bot top g i : (2 <= N)%nat -> (1 <= w)%nat -> (0 <= i < Z.of_nat N)%Z -> blur w g (fun q => zat (prior_mask N w bot top) (q + Z.of_nat w)) i = blur w g (share N bot top) i.
Proof.
  intros HN HW I. apply wsum_ext. intros d D. f_equal. unfold zat. destruct (Z.ltb_spec (i - d + Z.of_nat w) 0); [lia |]. change (nth ?a ?b 0) with (at_ b a). rewrite mask_at by lia. f_equal. lia.
Qed.
Lemma part_above_nonneg b i : 0 <= part_above b i.
Proof. unfold part_above. destruct b; [| lra]. destruct (Z.ltb_spec i 0); [lra |]. destruct (Z.eqb_spec i 0); lra. Qed.
Lemma part_above_pos b i : (0 <= i)%Z -> 0 < part_above b i.
Proof. intro I. unfold part_above. destruct b; [| lra]. destruct (Z.ltb_spec i 0); [lia |]. destruct (Z.eqb_spec i 0); lra. Qed.
Lemma share_nonneg N bot top i : 0 <= share N bot top i.
Proof. apply Rmult_le_pos; apply part_above_nonneg. Qed.
Lemma share_pos N bot top i : (0 <= i < Z.of_nat N)%Z -> 0 < share N bot top i.
Proof. intro I. apply Rmult_lt_0_compat; apply part_above_pos; lia. Qed.
(** the mask of mult_bias *)
Definition cut (N : nat) (f : Z -> R) (i : Z) : R := if (0 <=? i)%Z && (i <? Z.of_nat N)%Z then f i else 0.
Definition mask0 (N : nat) (bot top : bool) : list R :=
  let m := repeat 1 N in
  let m := if bot then set_at 0 (at_ m 0 * (1 / 2)) m else m in
  if top then set_at (N - 1) (at_ m (N - 1) * (1 / 2)) m else m.
Lemma mask0_len N bot top : length (mask0 N bot top) = N.
Proof. unfold mask0. destruct bot, top; rewrite ?set_at_len, repeat_length; reflexivity. Qed.
Lemma mask0_at N bot top i : (2 <= N)%nat -> zat (mask0 N bot top) i = cut N (share N bot top) i.
Proof.
  intro HN. unfold zat, cut. destruct (Z.ltb_spec i 0); destruct (Z.leb_spec 0 i); try lia; [reflexivity |]. cbn [andb]. change (nth ?a ?b 0) with (at_ b a). destruct (Z.ltb_spec i (Z.of_nat N)) as [K | K]; [| apply at_over; rewrite mask0_len; lia].
  set (k := Z.to_nat i). assert (KN : (k < N)%nat) by lia. replace i with (Z.of_nat k) in * by lia. clearbody k.
  assert (BOT : forall k, (k < N)%nat -> at_ (if bot then set_at 0 (at_ (repeat 1 N) 0 * (1 / 2)) (repeat 1 N) else repeat 1 N) k = part_above bot (Z.of_nat k)).
  { intros q Q. destruct bot; [| rewrite at_repeat by exact Q; reflexivity]. unfold set_at. rewrite repeat_length, seq_at by exact Q. unfold part_above. destruct (Z.ltb_spec (Z.of_nat q) 0); [lia |].
    destruct (Nat.eqb_spec q 0); destruct (Z.eqb_spec (Z.of_nat q) 0); try lia; rewrite at_repeat by lia; lra. }
  unfold mask0, share. cbv zeta. set (m := if bot then _ else _) in *. assert (LM : length m = N) by (unfold m; destruct bot; rewrite ?set_at_len, repeat_length; reflexivity).
  destruct top; [| rewrite BOT by exact KN; unfold part_above; ring]. unfold set_at. rewrite LM, seq_at by exact KN. unfold part_above at 2. destruct (Z.ltb_spec (Z.of_nat N - 1 - Z.of_nat k) 0); [lia |].
  destruct (Nat.eqb_spec k (N - 1)); destruct (Z.eqb_spec (Z.of_nat N - 1 - Z.of_nat k) 0); try lia; rewrite BOT by lia; [subst k; reflexivity | ring].
Qed.
(** ** Denominators *)
Lemma pos_pair v a0 a1 a2 w : (forall d, 0 <= v d) -> a0 = wsum w v -> a1 = wsum w (fun d => v d * IZR d) -> a2 = wsum w (fun d => v d * IZR d ^ 2) ->
  0 < v 0%Z -> (exists d, (- Z.of_nat w <= d <= Z.of_nat w)%Z /\ d <> 0%Z /\ 0 < v d) -> 0 < a2 /\ 0 < a0 * a2 - a1 ^ 2.
Proof.
  intros V E0 E1 E2 V0 (d & D & ND & VD). assert (SQ : forall x, 0 <= x ^ 2) by (intro; nra). assert (ID : 0 < IZR d ^ 2) by (assert (IZR d <> 0) by (now apply not_0_IZR); nra).
  assert (P2 : 0 < a2). { rewrite E2. apply (wsum_pos w _ d); [intros; apply Rmult_le_pos; auto | exact D | now apply Rmult_lt_0_compat]. }
  split; [exact P2 |].
  assert (Q : 0 < wsum w (fun d => v d * (a2 - a1 * IZR d) ^ 2)).
  { apply (wsum_pos w _ 0%Z); [intros; apply Rmult_le_pos; auto | lia |]. apply Rmult_lt_0_compat; [exact V0 |]. replace (a2 - a1 * 0) with a2 by ring. nra. }
  assert (E : wsum w (fun d => v d * (a2 - a1 * IZR d) ^ 2) = a2 * (a0 * a2 - a1 ^ 2)).
  { transitivity (wsum w (fun d => a2 ^ 2 * v d + (- 2 * a1 * a2 * (v d * IZR d) + a1 ^ 2 * (v d * IZR d ^ 2)))); [apply wsum_ext; intros; ring |]. rewrite !wsum_plus, !wsum_scal, <- E0, <- E1, <- E2. ring. }
  rewrite E in Q. nra.
Qed.
Lemma pos_triple v a0 a1 a2 a3 a4 w : (forall d, 0 <= v d) -> a0 = wsum w v -> a1 = wsum w (fun d => v d * IZR d) -> a2 = wsum w (fun d => v d * IZR d ^ 2) -> a3 = wsum w (fun d => v d * IZR d ^ 3) -> a4 = wsum w (fun d => v d * IZR d ^ 4) ->
  0 < v 0%Z -> (exists d e, (- Z.of_nat w <= d <= Z.of_nat w)%Z /\ (- Z.of_nat w <= e <= Z.of_nat w)%Z /\ d <> 0%Z /\ e <> 0%Z /\ d <> e /\ 0 < v d /\ 0 < v e) ->
  0 < a4 * a2 * a0 - a4 * a1 ^ 2 - a2 ^ 3 - a3 ^ 2 * a0 + 2 * a1 * a2 * a3.
Proof.
  intros V E0 E1 E2 E3 E4 V0 (d & e & D & E & ND & NE & DE & VD & VE). assert (SQ : forall x, 0 <= x ^ 2) by (intro; nra). assert (SP : forall x, x <> 0 -> 0 < x ^ 2) by (intros x X; assert (0 < x * x) by nra; nra).
  assert (ID : IZR d <> 0) by (now apply not_0_IZR). assert (IE : IZR e <> 0) by (now apply not_0_IZR).
  assert (F : forall x, x ^ 4 = x ^ 2 * x ^ 2) by (intro; ring).
  assert (P4 : 0 < a4). { rewrite E4. apply (wsum_pos w _ d); [intros; apply Rmult_le_pos; [auto | rewrite F; now apply Rmult_le_pos] | exact D |]. apply Rmult_lt_0_compat; [exact VD |]. rewrite F. apply Rmult_lt_0_compat; now apply SP. }
  set (A := a4 * a2 - a3 ^ 2). set (B := a2 * a3 - a4 * a1). set (C := a3 * a1 - a2 ^ 2).
  assert (PA : 0 < A).
  { assert (Q : 0 < wsum w (fun d => v d * IZR d ^ 2 * (a4 - a3 * IZR d) ^ 2)).
    { assert (ALL : forall d, (- Z.of_nat w <= d <= Z.of_nat w)%Z -> 0 <= v d * IZR d ^ 2 * (a4 - a3 * IZR d) ^ 2) by (intros; apply Rmult_le_pos; [apply Rmult_le_pos; auto | auto]).
      destruct (Req_EM_T (a4 - a3 * IZR d) 0) as [Z | NZ].
      - apply (wsum_pos w _ e ALL E). apply Rmult_lt_0_compat; [apply Rmult_lt_0_compat; auto |]. apply SP. intro Z'. assert (a3 * (IZR d - IZR e) = 0) by lra. assert (IZR d - IZR e <> 0) by (intro; apply DE, eq_IZR; lra). assert (Z3 : a3 = 0) by (apply Rmult_integral in H; destruct H; [assumption | contradiction]). rewrite Z3 in Z. lra.
      - apply (wsum_pos w _ d ALL D). apply Rmult_lt_0_compat; [apply Rmult_lt_0_compat; auto | now apply SP]. }
    assert (EQ : wsum w (fun d => v d * IZR d ^ 2 * (a4 - a3 * IZR d) ^ 2) = a4 * A).
    { transitivity (wsum w (fun d => a4 ^ 2 * (v d * IZR d ^ 2) + (- 2 * a3 * a4 * (v d * IZR d ^ 3) + a3 ^ 2 * (v d * IZR d ^ 4)))); [apply wsum_ext; intros; ring |]. rewrite !wsum_plus, !wsum_scal, <- E2, <- E3, <- E4. unfold A. ring. }
    rewrite EQ in Q. nra. }
  assert (Q : 0 < wsum w (fun d => v d * (A + B * IZR d + C * IZR d ^ 2) ^ 2)).
  { apply (wsum_pos w _ 0%Z); [intros; apply Rmult_le_pos; auto | lia |]. apply Rmult_lt_0_compat; [exact V0 |]. apply SP. replace (A + B * 0 + C * 0 ^ 2) with A by ring. lra. }
  assert (EQ : wsum w (fun d => v d * (A + B * IZR d + C * IZR d ^ 2) ^ 2) = A * (a4 * a2 * a0 - a4 * a1 ^ 2 - a2 ^ 3 - a3 ^ 2 * a0 + 2 * a1 * a2 * a3)).
  { transitivity (wsum w (fun d => A ^ 2 * v d + (2 * A * B * (v d * IZR d) + ((B ^ 2 + 2 * A * C) * (v d * IZR d ^ 2) + (2 * B * C * (v d * IZR d ^ 3) + C ^ 2 * (v d * IZR d ^ 4)))))); [apply wsum_ext; intros; ring |].
    rewrite !wsum_plus, !wsum_scal, <- E0, <- E1, <- E2, <- E3, <- E4. unfold A, B, C. ring. }
  rewrite EQ in Q. nra.
Qed.
(** ** The estimate as a function *)
Definition am (N : nat) (bot top : bool) (w : nat) (h : R) (k : nat) (i : Z) : R := blur w (gm w h k) (share N bot top) i.
Definition bm (b : Z -> R) (w : nat) (h : R) (k : nat) (i : Z) : R := blur w (gm w h k) b i.
Definition tilt (m lim c : R) : R := m * exp (Rmin (c / m) lim - 1).
Definition Bd (order : Z) (bot top : bool) (N w : nat) (h : R) (b : Z -> R) (i : Z) : R :=
  let P := bm b w h 0 i in let a k := am N bot top w h k i in let x k := bm b w h k i in
  if (bot || top) && (0 <=? order)%Z then
    if Req_EM_T (a 0%nat * P) 0 then P else
    let m := P / a 0%nat in
    if (order =? 0)%Z then m
    else if (order =? 1)%Z then tilt m 4 ((P * a 2%nat - x 1%nat * a 1%nat) / (a 0%nat * a 2%nat - a 1%nat ^ 2))
    else tilt m 4 ((P * (a 4%nat * a 2%nat - a 3%nat ^ 2) + x 1%nat * (a 2%nat * a 3%nat - a 4%nat * a 1%nat) + x 2%nat * (a 3%nat * a 1%nat - a 2%nat ^ 2)) /
           (a 4%nat * a 2%nat * a 0%nat - a 4%nat * a 1%nat ^ 2 - a 2%nat ^ 3 - a 3%nat ^ 2 * a 0%nat + 2 * a 1%nat * a 2%nat * a 3%nat))
  else if (order =? 2)%Z then
    let s2 := wsum w (gm w h 2) in let s4 := wsum w (gm w h 4) in
    if Rlt_dec 0 P then tilt P 2 ((P * s4 - s2 * x 2%nat) / (s4 - s2 ^ 2)) else P
  else P.
Definition fine (b P : Z -> R) (j : Z) : R := b j / (if Req_EM_T (P j) 0 then 1 else P j).
Definition a00 (N : nat) (bot top : bool) (w : nat) (h : R) (i : Z) : R := blur w (gm w h 0) (cut N (share N bot top)) i.
Definition step (N : nat) (bot top : bool) (w : nat) (h : R) (b P : Z -> R) (i : Z) : R := P i * blur w (gm w h 0) (fine b P) i / a00 N bot top w h i.
Fixpoint biasF (n N : nat) (bot top : bool) (w : nat) (h : R) (b P : Z -> R) : Z -> R :=
  match n with O => P | S n' => biasF n' N bot top w h b (step N bot top w h b P) end.
Definition rawF (order : Z) (n : nat) (bot top : bool) (N w : nat) (h : R) (b : Z -> R) : Z -> R := biasF n N bot top w h b (Bd order bot top N w h b).
Definition tab (N : nat) (f : Z -> R) : list R := map (fun i => f (Z.of_nat i)) (seq 0 N).
Lemma tab_len N f : length (tab N f) = N.
Proof. unfold tab. now rewrite map_length, seq_length. Qed.
Lemma tab_at N f i : (i < N)%nat -> at_ (tab N f) i = f (Z.of_nat i).
Proof. intro I. unfold tab. now rewrite seq_at. Qed.
Lemma zat_tab N f i : zat (tab N f) i = cut N f i.
Proof.
  unfold zat, cut. destruct (Z.ltb_spec i 0); destruct (Z.leb_spec 0 i); try lia; [reflexivity |]. cbn [andb]. change (nth ?a ?b 0) with (at_ b a). destruct (Z.ltb_spec i (Z.of_nat N)).
  - rewrite tab_at by lia. f_equal. lia.
  - apply at_over. rewrite tab_len. lia.
Qed.
Lemma tab_ext N f g : (forall i, (0 <= i < Z.of_nat N)%Z -> f i = g i) -> tab N f = tab N g.
Proof. intro H. unfold tab. apply map_ext_in. intros i I. apply in_seq in I. apply H. lia. Qed.
Lemma mapR_tab (N : nat) (f : nat -> res R) (g : Z -> R) : (forall i, (i < N)%nat -> f i = Ok (g (Z.of_nat i))) -> mapR f (seq 0 N) = Ok (tab N g).
Proof. intro H. rewrite <- (map_id (seq 0 N)) at 1. unfold tab. apply mapR_map. intros i I. apply in_seq in I. apply H. lia. Qed.
Lemma list_tab l (f : Z -> R) N : length l = N -> (forall i, (i < N)%nat -> at_ l i = f (Z.of_nat i)) -> l = tab N f.
Proof. intros E H. apply (nth_ext _ _ 0 0); [now rewrite tab_len |]. intros i I. rewrite E in I. fold (at_ l i). fold (at_ (tab N f) i). rewrite tab_at by exact I. now apply H. Qed.
Lemma rdivE_ok a b : b <> 0 -> rdivE a b = Ok (a / b).
Proof. intro H. unfold rdivE. destruct (Req_EM_T b 0); [contradiction | reflexivity]. Qed.
Lemma bounds N w : sizes N w -> (2 <= N)%nat /\ (1 <= w)%nat /\ (Z.of_nat (N + 2 * w) <= 2013265920)%Z.
Proof. intros (A & B & C). lia. Qed.
Lemma two_near N w i : sizes N w -> (0 <= i < Z.of_nat N)%Z -> exists d e, (- Z.of_nat w <= d <= Z.of_nat w)%Z /\ (- Z.of_nat w <= e <= Z.of_nat w)%Z /\ d <> 0%Z /\ e <> 0%Z /\ d <> e /\ (0 <= i - d < Z.of_nat N)%Z /\ (0 <= i - e < Z.of_nat N)%Z.
Proof.
  intros (A & B & C) I. destruct (Z.eq_dec i 0); [exists (-1)%Z, (-2)%Z; lia |]. destruct (Z.eq_dec i (Z.of_nat N - 1)); [exists 1%Z, 2%Z; lia |]. exists (-1)%Z, 1%Z. lia.
Qed.
Lemma am_v N bot top w h k i : am N bot top w h k i = wsum w (fun d => gk w h d * share N bot top (i - d) * IZR d ^ k).
Proof. apply wsum_ext. intros d _. unfold gm. ring. Qed.
Lemma am_denoms N bot top w h i : sizes N w -> (0 <= i < Z.of_nat N)%Z -> let a k := am N bot top w h k i in
  0 < a 0%nat /\ 0 < a 2%nat /\ 0 < a 0%nat * a 2%nat - a 1%nat ^ 2 /\ 0 < a 4%nat * a 2%nat * a 0%nat - a 4%nat * a 1%nat ^ 2 - a 2%nat ^ 3 - a 3%nat ^ 2 * a 0%nat + 2 * a 1%nat * a 2%nat * a 3%nat.
Proof.
  intros S I a. set (v := fun d => gk w h d * share N bot top (i - d)). assert (V : forall d, 0 <= v d) by (intro d; apply Rmult_le_pos; [apply Rlt_le, gk_pos | apply share_nonneg]).
  assert (VP : forall d, (0 <= i - d < Z.of_nat N)%Z -> 0 < v d) by (intros d D; apply Rmult_lt_0_compat; [apply gk_pos | now apply share_pos]). assert (V0 : 0 < v 0%Z) by (apply VP; lia).
  assert (E0 : a 0%nat = wsum w v) by (unfold a; rewrite am_v; apply wsum_ext; intros; unfold v; cbn; ring).
  assert (E1 : a 1%nat = wsum w (fun d => v d * IZR d)) by (unfold a; rewrite am_v; apply wsum_ext; intros; unfold v; ring).
  assert (EK : forall k, a k = wsum w (fun d => v d * IZR d ^ k)) by (intro k; unfold a; apply am_v).
  destruct (two_near N w i S I) as (d & e & D & E & ND & NE & DE & ID & IE).
  split; [rewrite E0; apply (wsum_pos w v 0%Z); [auto | lia | exact V0] |].
  destruct (pos_pair v (a 0%nat) (a 1%nat) (a 2%nat) w V E0 E1 (EK _) V0) as (P2 & P02); [exists d; auto |]. split; [exact P2 |]. split; [exact P02 |].
  apply (pos_triple v _ _ _ _ _ w V E0 E1 (EK _) (EK _) (EK _) V0). exists d, e. repeat split; auto; lia.
Qed.
Lemma sm_denom w h : (1 <= w)%nat -> 0 < wsum w (gm w h 2) /\ 0 < wsum w (gm w h 4) - wsum w (gm w h 2) ^ 2.
Proof.
  intro W. assert (P2 : 0 < wsum w (gm w h 2)).
  { apply (wsum_pos w _ 1%Z); [intros; unfold gm; apply Rmult_le_pos; [apply Rlt_le, gk_pos | nra] | lia |]. unfold gm. pose proof (gk_pos w h 1). nra. }
  split; [exact P2 |]. set (s := wsum w (gm w h 2)) in *.
  assert (E : wsum w (fun d => gk w h d * (IZR d ^ 2 - s) ^ 2) = wsum w (gm w h 4) - s ^ 2).
  { transitivity (wsum w (fun d => gm w h 4 d + (- 2 * s * gm w h 2 d + s ^ 2 * gk w h d))); [apply wsum_ext; intros; unfold gm; ring |]. rewrite !wsum_plus, !wsum_scal, gk_sum. fold s. change (wsum w (fun d => gm w h 4 d)) with (wsum w (gm w h 4)). change (wsum w (fun d => gm w h 2 d)) with s. ring. }
  rewrite <- E. apply (wsum_pos w _ 0%Z); [intros; apply Rmult_le_pos; [apply Rlt_le, gk_pos | apply pow2_ge_0] | lia |]. apply Rmult_lt_0_compat; [apply gk_pos |]. replace (0 ^ 2 - s) with (- s) by ring. nra.
Qed.
Lemma a00_pos N bot top w h i : (0 <= i < Z.of_nat N)%Z -> 0 < a00 N bot top w h i.
Proof.
  intro I. unfold a00, blur. assert (CN : forall j, 0 <= cut N (share N bot top) j) by (intro j; unfold cut; destruct (_ && _); [apply share_nonneg | lra]).
  apply (wsum_pos w _ 0%Z); [intros; apply Rmult_le_pos; [unfold gm; cbn; rewrite Rmult_1_r; apply Rlt_le, gk_pos | apply CN] | lia |]. apply Rmult_lt_0_compat; [unfold gm; cbn; rewrite Rmult_1_r; apply gk_pos |].
  unfold cut. replace (i - 0)%Z with i by lia. destruct (Z.leb_spec 0 i); [| lia]. destruct (Z.ltb_spec i (Z.of_nat N)); [| lia]. now apply share_pos.
Qed.
Lemma boundary_ok order bot top w h bins : sizes (length bins) w -> (order <= 2)%Z \/ (bot || top) = false ->
  boundary order bot top w (kernel_win w h) bins (tab (length bins) (bm (zat bins) w h 0)) = Ok (tab (length bins) (Bd order bot top (length bins) w h (zat bins))).
Proof.
  intros SZ HO. pose proof SZ as (S1 & S2 & S3). destruct (bounds _ _ SZ) as (B1 & B2 & B3). set (N := length bins) in *. pose proof (win_kernel w h) as K0.
  assert (K1 : is_kernel w (gm w h 1) (zip Rmult (kernel_win w h) (kernel_x w))) by (apply (zip_kernel w (gm w h 0)); [exact K0 |]; intro d; unfold gm; ring).
  assert (K2 : is_kernel w (gm w h 2) (zip Rmult (zip Rmult (kernel_win w h) (kernel_x w)) (kernel_x w))) by (apply (zip_kernel w (gm w h 1)); [exact K1 |]; intro d; unfold gm; ring).
  assert (K3 : is_kernel w (gm w h 3) (zip (fun a x => a * x ^ 2) (zip Rmult (kernel_win w h) (kernel_x w)) (kernel_x w))) by (apply (zip_kernel w (gm w h 1)); [exact K1 |]; intro d; unfold gm; ring).
  assert (K4 : is_kernel w (gm w h 4) (zip (fun a x => a * x ^ 3) (zip Rmult (kernel_win w h) (kernel_x w)) (kernel_x w))) by (apply (zip_kernel w (gm w h 1)); [exact K1 |]; intro d; unfold gm; ring).
  assert (VAL : forall k l, is_kernel w (gm w h k) l -> conv Valid (prior_mask N w bot top) l = Ok (tab N (am N bot top w h k))).
  { intros k l K. destruct (conv_valid w (gm w h k) N (prior_mask N w bot top) l K S2 (mask_len _ _ _ _) S3) as (r & -> & LR & AR). f_equal. apply list_tab; [exact LR |]. intros i I. rewrite AR by exact I. apply mask_blur; lia. }
  assert (SAM : forall k l, is_kernel w (gm w h k) l -> conv Same bins l = Ok (tab N (bm (zat bins) w h k))).
  { intros k l K. destruct (conv_same w (gm w h k) bins l K S2 B3) as (r & -> & LR & AR). f_equal. apply list_tab; [exact LR |]. exact AR. }
  unfold boundary. fold N. unfold Bd. destruct ((bot || top) && (0 <=? order)%Z) eqn:EL.
  - apply andb_prop in EL. destruct EL as (EB & EO). rewrite (VAL 0%nat _ K0). cbn [bindR].
    assert (A0 : forall i, (i < N)%nat -> am N bot top w h 0 (Z.of_nat i) <> 0) by (intros i I; destruct (am_denoms N bot top w h (Z.of_nat i) SZ ltac:(lia)) as (P & _); lra).
    destruct (order =? 0)%Z eqn:E0.
    + apply mapR_tab. intros i I. rewrite !tab_at by exact I. destruct (Req_EM_T _ 0); [reflexivity |]. rewrite rdivE_ok by auto. reflexivity.
    + destruct HO as [HO | HO]; [| congruence]. destruct (Z.leb_spec order 2); [| lia]. rewrite (VAL 1%nat _ K1), (VAL 2%nat _ K2), (SAM 1%nat _ K1). cbn [bindR]. destruct (order =? 1)%Z eqn:E1.
      * apply mapR_tab. intros i I. rewrite !tab_at by exact I. destruct (Req_EM_T _ 0) as [| NZ]; [reflexivity |]. rewrite rdivE_ok by auto. cbn [bindR]. destruct (am_denoms N bot top w h (Z.of_nat i) SZ ltac:(lia)) as (P0 & P2 & P02 & _).
        unfold linear_at. rewrite rdivE_ok by lra. cbn [bindR]. unfold tilted. rewrite rdivE_ok; [reflexivity |]. apply Rmult_integral_contrapositive_currified; [intro Z; apply NZ; rewrite Z; ring | apply Rinv_neq_0_compat; lra].
      * rewrite (VAL 3%nat _ K3), (VAL 4%nat _ K4), (SAM 2%nat _ K2). cbn [bindR]. apply mapR_tab. intros i I. rewrite !tab_at by exact I. destruct (Req_EM_T _ 0) as [| NZ]; [reflexivity |]. rewrite rdivE_ok by auto. cbn [bindR].
        destruct (am_denoms N bot top w h (Z.of_nat i) SZ ltac:(lia)) as (P0 & P2 & _ & P3). unfold quadratic_at. rewrite rdivE_ok by lra. cbn [bindR]. unfold tilted.
        rewrite rdivE_ok; [reflexivity |]. apply Rmult_integral_contrapositive_currified; [intro Z; apply NZ; rewrite Z; ring | apply Rinv_neq_0_compat; lra].
  - destruct (order =? 2)%Z eqn:E2.
    + assert (K2' : is_kernel w (gm w h 2) (zip (fun a x => a * x ^ 2) (kernel_win w h) (kernel_x w))) by (apply (zip_kernel w (gm w h 0)); [exact K0 |]; intro d; unfold gm; ring).
      rewrite (SAM 2%nat _ K2'). cbn [bindR]. destruct K2' as (L2 & A2). rewrite L2.
      assert (E2' : rsum (2 * w + 1) (at_ (zip (fun a x => a * x ^ 2) (kernel_win w h) (kernel_x w))) = wsum w (gm w h 2)) by (apply rsum_ext; intros i I; now apply A2).
      assert (E4' : rsum (2 * w + 1) (fun k => at_ (zip (fun a x => a * x ^ 2) (kernel_win w h) (kernel_x w)) k * at_ (kernel_x w) k ^ 2) = wsum w (gm w h 4)).
      { apply rsum_ext. intros i I. rewrite A2, kernel_x_at by exact I. unfold gm. ring. }
      rewrite E2', E4'. destruct (sm_denom w h B2) as (Q2 & Q4). apply mapR_tab. intros i I. rewrite !tab_at by exact I. rewrite rdivE_ok by lra. cbn [bindR]. destruct (Rlt_dec 0 _) as [P | P]; [| reflexivity]. unfold tilted. rewrite rdivE_ok by lra. reflexivity.
    + f_equal.
Qed.
Lemma cut_zat l i : cut (length l) (zat l) i = zat l i.
Proof.
  unfold cut, zat. destruct (Z.ltb_spec i 0); destruct (Z.leb_spec 0 i); try lia; [reflexivity |]. cbn [andb]. destruct (Z.ltb_spec i (Z.of_nat (length l))); [reflexivity |]. symmetry. apply nth_overflow. lia.
Qed.
Lemma zat_out l i : (i < 0)%Z \/ (Z.of_nat (length l) <= i)%Z -> zat l i = 0.
Proof. intro H. unfold zat. destruct (Z.ltb_spec i 0); [reflexivity |]. apply nth_overflow. lia. Qed.
Lemma bias_ok bot top w h bins : sizes (length bins) w -> forall n P, bias_loop n (kernel_win w h) bins (tab (length bins) (a00 (length bins) bot top w h)) (tab (length bins) P) = Ok (tab (length bins) (biasF n (length bins) bot top w h (zat bins) P)).
Proof.
  intro SZ. pose proof SZ as (S1 & S2 & S3). destruct (bounds _ _ SZ) as (B1 & B2 & B3). set (N := length bins) in *. pose proof (win_kernel w h) as K0. induction n as [| n IH]; intro P; [reflexivity |]. cbn [bias_loop biasF].
  set (fl := map _ _). assert (EF : fl = tab N (fine (zat bins) P)).
  { apply list_tab; [unfold fl; now rewrite map_length, seq_length |]. intros i I. unfold fl. fold N. rewrite seq_at by exact I. rewrite tab_at by exact I. unfold fine. f_equal. unfold zat. destruct (Z.ltb_spec (Z.of_nat i) 0); [lia |]. now rewrite Nat2Z.id. }
  rewrite EF. destruct (conv_same w (gm w h 0) (tab N (fine (zat bins) P)) _ K0) as (r & -> & LR & AR); [rewrite tab_len; exact S2 | rewrite tab_len; exact B3 |]. cbn [bindR]. rewrite tab_len in LR, AR.
  rewrite tab_len. rewrite (mapR_tab N _ (step N bot top w h (zat bins) P)); [cbn [bindR]; apply IH |]. intros i I. rewrite !tab_at, AR by exact I. rewrite rdivE_ok by (pose proof (a00_pos N bot top w h (Z.of_nat i) ltac:(lia)); lra). do 2 f_equal. unfold step. f_equal.
  f_equal. apply wsum_ext. intros d _. f_equal. rewrite zat_tab. unfold cut. destruct (Z.leb_spec 0 (Z.of_nat i - d)); destruct (Z.ltb_spec (Z.of_nat i - d) (Z.of_nat N)); cbn [andb]; try reflexivity; unfold fine; rewrite zat_out by lia; unfold Rdiv; ring.
Qed.
Lemma raw_ok order n bot top w h bins : sizes (length bins) w -> (order <= 2)%Z \/ (bot || top) = false ->
  kde1_raw order n bot top w h bins = Ok (tab (length bins) (rawF order n bot top (length bins) w h (zat bins))).
Proof.
  intros SZ HO. pose proof SZ as (S1 & S2 & S3). destruct (bounds _ _ SZ) as (B1 & B2 & B3). pose proof (win_kernel w h) as K0. unfold kde1_raw. destruct (conv_same w (gm w h 0) bins _ K0 S2 B3) as (r & -> & LR & AR). cbn [bindR].
  rewrite (list_tab r (bm (zat bins) w h 0) (length bins) LR AR). rewrite (boundary_ok order bot top w h bins SZ HO). cbn [bindR]. unfold mult_bias. destruct n as [| n]; [reflexivity |].
  change (if top then _ else _) with (mask0 (length bins) bot top).
  destruct (conv_same w (gm w h 0) (mask0 (length bins) bot top) _ K0) as (r' & -> & LR' & AR'); [rewrite mask0_len; exact S2 | rewrite mask0_len; exact B3 |]. cbn [bindR]. rewrite mask0_len in LR', AR'.
  rewrite (list_tab r' (a00 (length bins) bot top w h) (length bins) LR').
  - rewrite (bias_ok bot top w h bins SZ). reflexivity.
  - intros i I. rewrite AR' by exact I. apply wsum_ext. intros d _. f_equal. now apply mask0_at.
Qed.
