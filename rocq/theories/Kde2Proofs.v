(** Proofs about the kernel density estimate of two parameters. *)
From Coq Require Import Reals ZArith Bool Lia Lra Arith List.
From Verif Require Import PyStr PyBase ConvModel ConvSpec ConvProofs ConvProofs2 ConvProofs3 ConvProps KdeModel KdeSpec KdeProofs KdeProps Kde2Model Kde2Spec.
Import ListNotations.
Local Open Scope R_scope.

Definition within (w : nat) (d : Z) : Prop := (- Z.of_nat w <= d <= Z.of_nat w)%Z.
Definition rng (N : nat) (i : Z) : Prop := (0 <= i < Z.of_nat N)%Z.
Lemma inside_iff N i : inside N i = true <-> rng N i.
Proof. unfold inside, rng. rewrite andb_true_iff, Z.leb_le, Z.ltb_lt. reflexivity. Qed.
(** ** Sums *)
Lemma wsum2_ext w f g : (forall d e, within w d -> within w e -> f d e = g d e) -> wsum2 w f = wsum2 w g.
Proof. intro H. apply wsum_ext. intros d D. apply wsum_ext. intros e E. now apply H. Qed.
Lemma wsum2_plus w f g : wsum2 w (fun d e => f d e + g d e) = wsum2 w f + wsum2 w g.
Proof. unfold wsum2. rewrite <- wsum_plus. apply wsum_ext. intros d _. apply wsum_plus. Qed.
Lemma wsum2_scal w c f : wsum2 w (fun d e => c * f d e) = c * wsum2 w f.
Proof. unfold wsum2. rewrite <- wsum_scal. apply wsum_ext. intros d _. apply wsum_scal. Qed.
Lemma wsum2_swap w f : wsum2 w (fun d e => f e d) = wsum2 w f.
Proof. unfold wsum2, wsum. apply rsum_swap. Qed.
Lemma wsum2_nonneg w f : (forall d e, within w d -> within w e -> 0 <= f d e) -> 0 <= wsum2 w f.
Proof. intro H. apply wsum_nonneg. intros d D. apply wsum_nonneg. intros e E. now apply H. Qed.
Lemma wsum2_pos w f d e : (forall d e, within w d -> within w e -> 0 <= f d e) -> within w d -> within w e -> 0 < f d e -> 0 < wsum2 w f.
Proof.
  intros H D E P. apply (wsum_pos w _ d); [| exact D |].
  - intros x X. apply wsum_nonneg. intros y Y. now apply H.
  - apply (wsum_pos w _ e); [intros y Y; now apply H | exact E | exact P].
Qed.
Lemma wsum2_pos_ex w f : 0 < wsum2 w f -> exists d e, within w d /\ within w e /\ 0 < f d e.
Proof.
  intro H. destruct (rsum_pos_ex _ _ H) as (k & K & P). cbv beta in P. destruct (rsum_pos_ex _ _ P) as (q & Q & P'). exists (Z.of_nat k - Z.of_nat w)%Z, (Z.of_nat q - Z.of_nat w)%Z. unfold within. split; [lia |]. split; [lia | exact P'].
Qed.
Lemma wsum2_rev w f : wsum2 w (fun d e => f (- d)%Z (- e)%Z) = wsum2 w f.
Proof. unfold wsum2. rewrite <- (wsum_rev w (fun d => wsum w (f d))). apply wsum_ext. intros d _. apply (wsum_rev w (f (- d)%Z)). Qed.
(** ** The kernel *)
Lemma gauss2_pos a b c d e : 0 < gauss2 a b c d e.
Proof. apply exp_pos. Qed.
Lemma gauss2_sum w a b c : 0 < wsum2 w (gauss2 a b c).
Proof. apply (wsum2_pos w _ 0 0); try (unfold within; lia); intros; try apply Rlt_le; apply gauss2_pos. Qed.
Lemma k2_pos w a b c d e : 0 < k2 w a b c d e.
Proof. apply Rdiv_lt_0_compat; [apply gauss2_pos | apply gauss2_sum]. Qed.
Lemma k2_sum w a b c : wsum2 w (k2 w a b c) = 1.
Proof.
  pose proof (gauss2_sum w a b c) as S. transitivity (wsum2 w (fun d e => / wsum2 w (gauss2 a b c) * gauss2 a b c d e)); [apply wsum2_ext; intros; unfold k2, Rdiv; ring |]. rewrite wsum2_scal. field. lra.
Qed.
Definition is_kernel2 (w : nat) (g : Z -> Z -> R) (m : mat) : Prop := m_rows m = (2 * w + 1)%nat /\ m_cols m = (2 * w + 1)%nat /\
  forall i j, (i < 2 * w + 1)%nat -> (j < 2 * w + 1)%nat -> m_at m i j = g (Z.of_nat i - Z.of_nat w)%Z (Z.of_nat j - Z.of_nat w)%Z.
Lemma win2_kernel w a b c : is_kernel2 w (k2 w a b c) (win2 w a b c).
Proof. repeat split. Qed.
Lemma weigh_kernel w g g' f m : is_kernel2 w g m -> (forall i j, (i < 2 * w + 1)%nat -> (j < 2 * w + 1)%nat -> g' (Z.of_nat i - Z.of_nat w)%Z (Z.of_nat j - Z.of_nat w)%Z = g (Z.of_nat i - Z.of_nat w)%Z (Z.of_nat j - Z.of_nat w)%Z * f i j) -> is_kernel2 w g' (weigh m f).
Proof. intros (A & B & C) H. split; [exact A |]. split; [exact B |]. intros i j I J. cbn. rewrite H, C by assumption. reflexivity. Qed.
(** ** Convolutions *)
Lemma pairs_one n m k (F : nat -> nat -> R) : sum_list (map (fun p => F (fst p) (snd p)) (pairs_at n m k)) = rsum m (fun j => if inside n (Z.of_nat k - Z.of_nat j) then F (Z.to_nat (Z.of_nat k - Z.of_nat j)) j else 0).
Proof.
  rewrite pairs_sum, rsum_swap. apply rsum_ext. intros j J. destruct (inside n (Z.of_nat k - Z.of_nat j)) eqn:E.
  - apply inside_iff in E. unfold rng in E. rewrite (rsum_single _ _ (Z.to_nat (Z.of_nat k - Z.of_nat j))); [| lia | intros i _ NE; destruct (Nat.eqb_spec (i + j) k); [lia | reflexivity]]. destruct (Nat.eqb_spec (Z.to_nat (Z.of_nat k - Z.of_nat j) + j) k); [reflexivity | lia].
  - apply rsum_zero. intros i I. destruct (Nat.eqb_spec (i + j) k) as [Q |]; [| reflexivity]. exfalso. assert (inside n (Z.of_nat k - Z.of_nat j) = true); [apply inside_iff; unfold rng; lia | congruence].
Qed.
Lemma coef2_blur w g x y N k l : is_kernel2 w g y -> square N x ->
  conv_coef2 (m_rows x) (m_rows y) (m_cols x) (m_cols y) (m_at x) (m_at y) k l = blur2 w g (zat2 N x) (Z.of_nat k - Z.of_nat w) (Z.of_nat l - Z.of_nat w).
Proof.
  intros (A & B & C) (SR & SC). unfold conv_coef2. rewrite A, B, SR, SC.
  rewrite (pairs_one N (2 * w + 1) k (fun a c => sum_list (map (fun q => m_at x a (fst q) * m_at y c (snd q)) (pairs_at N (2 * w + 1) l)))).
  unfold blur2, wsum2, wsum. apply rsum_ext. intros c Hc. replace (Z.of_nat k - Z.of_nat w - (Z.of_nat c - Z.of_nat w))%Z with (Z.of_nat k - Z.of_nat c)%Z by ring. unfold zat2. destruct (inside N (Z.of_nat k - Z.of_nat c)) eqn:E; cbn [andb].
  - rewrite (pairs_one N (2 * w + 1) l (fun b d => m_at x (Z.to_nat (Z.of_nat k - Z.of_nat c)) b * m_at y c d)). apply rsum_ext. intros d Hd. rewrite C by assumption. replace (Z.of_nat l - Z.of_nat w - (Z.of_nat d - Z.of_nat w))%Z with (Z.of_nat l - Z.of_nat d)%Z by ring. destruct (inside N (Z.of_nat l - Z.of_nat d)); ring.
  - symmetry. apply rsum_zero. intros. ring.
Qed.
Definition rep (N : nat) (F : Z -> Z -> R) (m : mat) : Prop := square N m /\ forall i j, (i < N)%nat -> (j < N)%nat -> m_at m i j = F (Z.of_nat i) (Z.of_nat j).
Lemma rep_ext N F G m : (forall i j, rng N i -> rng N j -> F i j = G i j) -> rep N F m -> rep N G m.
Proof. intros H (S & E). split; [exact S |]. intros i j I J. rewrite E by assumption. apply H; unfold rng; lia. Qed.
Lemma conv2_same N w g x y Lg : is_kernel2 w g y -> square N x -> (1 <= N)%nat -> (Z.of_nat (Nat.max Lg (N + 2 * w)) <= 2013265920)%Z -> exists r, conv2 Same Lg x y = Ok r /\ rep N (blur2 w g (zat2 N x)) r.
Proof.
  intros K S HN B. pose proof K as (A1 & A2 & _). pose proof S as (S1 & S2).
  destruct (C65_convolve2D x y Same true false Lg w N w N) as (r & E & (R1 & R2 & R3)); try (rewrite ?A1, ?A2, ?S1, ?S2; lia).
  - split; reflexivity.
  - rewrite A1, S1. replace w with ((2 * w + 1 - 1) / 2)%nat at 2; [constructor |]. replace (2 * w + 1 - 1)%nat with (w * 2)%nat by lia. apply Nat.div_mul. lia.
  - rewrite A2, S2. replace w with ((2 * w + 1 - 1) / 2)%nat at 2; [constructor |]. replace (2 * w + 1 - 1)%nat with (w * 2)%nat by lia. apply Nat.div_mul. lia.
  - exists r. unfold conv2. rewrite E. cbn [bindR]. split; [reflexivity |]. split; [split; assumption |]. intros i j I J. rewrite R3 by assumption. rewrite (coef2_blur w g x y N) by assumption. f_equal; lia.
Qed.
Lemma conv2_valid N w g x y Lg : is_kernel2 w g y -> square (N + 2 * w) x -> (1 <= N)%nat -> (Z.of_nat (Nat.max Lg (N + 4 * w)) <= 2013265920)%Z ->
  exists r, conv2 Valid Lg x y = Ok r /\ rep N (blur2 w g (fun p q => zat2 (N + 2 * w) x (p + Z.of_nat w) (q + Z.of_nat w))) r.
Proof.
  intros K S HN B. pose proof K as (A1 & A2 & _). pose proof S as (S1 & S2).
  destruct (C65_convolve2D x y Valid false false Lg (2 * w) N (2 * w) N) as (r & E & (R1 & R2 & R3)); try (rewrite ?A1, ?A2, ?S1, ?S2; lia).
  - split; reflexivity.
  - rewrite A1, S1. replace (2 * w)%nat with (2 * w + 1 - 1)%nat at 3 by lia. replace N with (N + 2 * w + 1 - (2 * w + 1))%nat at 2 by lia. constructor.
  - rewrite A2, S2. replace (2 * w)%nat with (2 * w + 1 - 1)%nat at 3 by lia. replace N with (N + 2 * w + 1 - (2 * w + 1))%nat at 2 by lia. constructor.
  - exists r. unfold conv2. rewrite E. cbn [bindR]. split; [reflexivity |]. split; [split; assumption |]. intros i j I J. rewrite R3 by assumption. rewrite (coef2_blur w g x y (N + 2 * w)) by assumption.
    apply wsum2_ext. intros d e _ _. f_equal. f_equal; lia.
Qed.
(** ** Matrices of elements that may fail *)
Lemma matR_ok N (f : nat -> nat -> res R) (F : Z -> Z -> R) : (forall i j, (i < N)%nat -> (j < N)%nat -> f i j = Ok (F (Z.of_nat i) (Z.of_nat j))) -> exists r, matR N N f = Ok r /\ rep N F r.
Proof.
  intro H. unfold matR.
  assert (E : mapR (fun i => mapR (f i) (seq 0 N)) (seq 0 N) = Ok (map (fun i => tab N (F (Z.of_nat i))) (seq 0 N))).
  { assert (G : forall l, (forall i, In i l -> (i < N)%nat) -> mapR (fun i => mapR (f i) (seq 0 N)) l = Ok (map (fun i => tab N (F (Z.of_nat i))) l)).
    { induction l as [| i l IH]; intro HL; [reflexivity |]. cbn [mapR map]. rewrite IH by (intros; apply HL; now right). rewrite (mapR_tab N (f i) (F (Z.of_nat i))); [reflexivity |]. intros j J. apply H; [apply HL; now left | exact J]. }
    apply G. intros i I. apply in_seq in I. lia. }
  rewrite E. cbn [bindR]. eexists. split; [reflexivity |]. split; [split; reflexivity |]. intros i j I J. cbn [m_at]. rewrite (nth_indep _ [] (tab N (F (Z.of_nat 0)))) by (now rewrite map_length, seq_length). rewrite (map_nth (fun i => tab N (F (Z.of_nat i)))). rewrite seq_nth by exact I. apply tab_at. exact J.
Qed.
(** ** The largest element *)
Definition fmax (N : nat) (F : Z -> Z -> R) : R := lmax (flat_map (fun i => map (fun j => F (Z.of_nat i) (Z.of_nat j)) (seq 0 N)) (seq 0 N)).
Lemma rep_max N F m : rep N F m -> mmax m = fmax N F.
Proof.
  intros ((A & B) & E). unfold mmax, fmax. rewrite A, B. f_equal. rewrite !flat_map_concat_map. f_equal. apply map_ext_in. intros i I. apply in_seq in I. apply map_ext_in. intros j J. apply in_seq in J. apply E; lia.
Qed.
Lemma fmax_in N (F : Z -> Z -> R) (x : R) : In x (flat_map (fun i => map (fun j => F (Z.of_nat i) (Z.of_nat j)) (seq 0 N)) (seq 0 N)) <-> exists i j, rng N i /\ rng N j /\ x = F i j.
Proof.
  rewrite in_flat_map. split.
  - intros (i & I & J). apply in_map_iff in J. destruct J as (j & <- & J). apply in_seq in I. apply in_seq in J. exists (Z.of_nat i), (Z.of_nat j). unfold rng. repeat split; lia.
  - intros (i & j & I & J & ->). unfold rng in *. exists (Z.to_nat i). split; [apply in_seq; lia |]. apply in_map_iff. exists (Z.to_nat j). split; [f_equal; lia | apply in_seq; lia].
Qed.
Lemma fmax_ge N F i j : rng N i -> rng N j -> F i j <= fmax N F.
Proof. intros I J. apply lmax_ge. apply fmax_in. exists i, j. auto. Qed.
Lemma fmax_at N F : (1 <= N)%nat -> exists i j, rng N i /\ rng N j /\ fmax N F = F i j.
Proof.
  intro HN. apply fmax_in. apply lmax_in. intro Q. assert (In (F 0%Z 0%Z) []) as []. rewrite <- Q. apply fmax_in. exists 0%Z, 0%Z. unfold rng. repeat split; lia.
Qed.
Lemma fmax_is N F m : (exists i j, rng N i /\ rng N j /\ F i j = m) -> (forall i j, rng N i -> rng N j -> F i j <= m) -> fmax N F = m.
Proof.
  intros (i & j & I & J & E) H. apply lmax_is; [apply fmax_in; exists i, j; auto |]. intros x X. apply fmax_in in X. destruct X as (p & q & P & Q & ->). now apply H.
Qed.
Lemma fmax_ext N F G : (forall i j, rng N i -> rng N j -> F i j = G i j) -> fmax N F = fmax N G.
Proof.
  intro H. unfold fmax. f_equal. rewrite !flat_map_concat_map. f_equal. apply map_ext_in. intros i I. apply in_seq in I. apply map_ext_in. intros j J. apply in_seq in J. apply H; unfold rng; lia.
Qed.
(** ** The mask *)
Definition sh (N : nat) (l : lims) : Z -> Z -> R := share2 N (x_bot l) (x_top l) (y_bot l) (y_top l).
Definition cut2 (N : nat) (f : Z -> Z -> R) (i j : Z) : R := if inside N i && inside N j then f i j else 0.
Lemma mask_square l w ae n m : m_rows (edge_mask l w ae (ones n m)) = n /\ m_cols (edge_mask l w ae (ones n m)) = m.
Proof. unfold edge_mask. destruct (x_bot l), (x_top l), (y_bot l), (y_top l), ae; split; reflexivity. Qed.
Definition f_bot (w : nat) (on : bool) (k : nat) (v : R) : R := if on then if Nat.ltb k w then 0 else if Nat.eqb k w then v / 2 else v else v.
Definition f_top (n w : nat) (on : bool) (k : nat) (v : R) : R := if on then if Nat.eqb w 0 || Nat.leb (n - w) k then 0 else if Nat.eqb k (n - (w + 1)) then v / 2 else v else v.
Lemma bot_part N w (on : bool) k : (2 <= N)%nat -> (k < N + 2 * w)%nat -> forall v : R, f_bot w on k v = v * part_above on (Z.of_nat k - Z.of_nat w).
Proof.
  intros HN K v. unfold part_above, f_bot. destruct on; [| ring]. destruct (Nat.ltb_spec k w), (Z.ltb_spec (Z.of_nat k - Z.of_nat w) 0); try lia; [ring |]. destruct (Nat.eqb_spec k w), (Z.eqb_spec (Z.of_nat k - Z.of_nat w) 0); try lia; lra.
Qed.
Lemma top_part N w (on : bool) k : (2 <= N)%nat -> (1 <= w)%nat -> (k < N + 2 * w)%nat -> forall v : R, f_top (N + 2 * w) w on k v = v * part_above on (Z.of_nat N - 1 - (Z.of_nat k - Z.of_nat w)).
Proof.
  intros HN HW K v. unfold part_above, f_top. destruct on; [| ring]. destruct (Nat.eqb_spec w 0); [lia |]. cbn [orb]. destruct (Nat.leb_spec (N + 2 * w - w) k), (Z.ltb_spec (Z.of_nat N - 1 - (Z.of_nat k - Z.of_nat w)) 0); try lia; [ring |].
  destruct (Nat.eqb_spec k (N + 2 * w - (w + 1))), (Z.eqb_spec (Z.of_nat N - 1 - (Z.of_nat k - Z.of_nat w)) 0); try lia; lra.
Qed.
Lemma mask2_at N l w ae i j : (2 <= N)%nat -> (1 <= w)%nat -> (i < N + 2 * w)%nat -> (j < N + 2 * w)%nat ->
  m_at (edge_mask l w ae (ones (N + 2 * w) (N + 2 * w))) i j = (if ae then cut2 N (sh N l) else sh N l) (Z.of_nat i - Z.of_nat w)%Z (Z.of_nat j - Z.of_nat w)%Z.
Proof.
  intros HN HW I J.
  assert (E : m_at (edge_mask l w false (ones (N + 2 * w) (N + 2 * w))) i j = sh N l (Z.of_nat i - Z.of_nat w)%Z (Z.of_nat j - Z.of_nat w)%Z).
  { transitivity (f_top (N + 2 * w) w (y_top l) i (f_bot w (y_bot l) i (f_top (N + 2 * w) w (x_top l) j (f_bot w (x_bot l) j 1)))).
    - clear. unfold edge_mask. destruct (x_bot l), (x_top l), (y_bot l), (y_top l); reflexivity.
    - rewrite !(top_part N) by assumption. rewrite !(bot_part N) by assumption. unfold sh, share2, share. ring. }
  destruct ae; [| exact E]. unfold edge_mask in *. cbv zeta in *. set (m := if y_top l then _ else _) in *. assert (SQ : m_rows m = (N + 2 * w)%nat /\ m_cols m = (N + 2 * w)%nat) by (unfold m; clear; destruct (x_bot l), (x_top l), (y_bot l), (y_top l); split; reflexivity). destruct SQ as (SR & SC).
  unfold zero_rows_last, zero_rows_first, zero_cols_last, zero_cols_first. cbn [m_at m_rows m_cols]. rewrite SR, SC, E. unfold cut2. destruct (Nat.eqb_spec w 0); [lia |]. cbn [orb].
  destruct (inside N (Z.of_nat i - Z.of_nat w)) eqn:Ei; cbn [andb].
  - apply inside_iff in Ei. unfold rng in Ei. destruct (Nat.leb_spec (N + 2 * w - w) i); [lia |]. destruct (Nat.ltb_spec i w); [lia |]. destruct (inside N (Z.of_nat j - Z.of_nat w)) eqn:Ej.
    + apply inside_iff in Ej. unfold rng in Ej. destruct (Nat.leb_spec (N + 2 * w - w) j); [lia |]. destruct (Nat.ltb_spec j w); [lia |]. reflexivity.
    + destruct (Nat.leb_spec (N + 2 * w - w) j); [reflexivity |]. destruct (Nat.ltb_spec j w); [reflexivity |]. exfalso. assert (inside N (Z.of_nat j - Z.of_nat w) = true); [apply inside_iff; unfold rng; lia | congruence].
  - destruct (Nat.leb_spec (N + 2 * w - w) i); [reflexivity |]. destruct (Nat.ltb_spec i w); [reflexivity |]. exfalso. assert (inside N (Z.of_nat i - Z.of_nat w) = true); [apply inside_iff; unfold rng; lia | congruence].
Qed.
Lemma mask2_blur N l w ae g i j : (2 <= N)%nat -> (1 <= w)%nat -> rng N i -> rng N j ->
  blur2 w g (fun p q => zat2 (N + 2 * w) (edge_mask l w ae (ones (N + 2 * w) (N + 2 * w))) (p + Z.of_nat w) (q + Z.of_nat w)) i j = blur2 w g (if ae then cut2 N (sh N l) else sh N l) i j.
Proof.
  intros HN HW I J. apply wsum2_ext. intros d e D E. f_equal. unfold rng, within in *. unfold zat2. replace (inside (N + 2 * w) (i - d + Z.of_nat w)) with true by (symmetry; apply inside_iff; unfold rng; lia). replace (inside (N + 2 * w) (j - e + Z.of_nat w)) with true by (symmetry; apply inside_iff; unfold rng; lia). cbn [andb].
  rewrite mask2_at by lia. f_equal; lia.
Qed.
Lemma sh_nonneg N l i j : 0 <= sh N l i j.
Proof. apply Rmult_le_pos; apply share_nonneg. Qed.
Lemma sh_pos N l i j : rng N i -> rng N j -> 0 < sh N l i j.
Proof. intros I J. apply Rmult_lt_0_compat; now apply share_pos. Qed.
(** ** Denominators *)
Lemma gram v w p00 p10 p01 p20 p02 p11 : (forall d e, 0 <= v d e) -> p00 = wsum2 w v -> p10 = wsum2 w (fun d e => v d e * IZR e) -> p01 = wsum2 w (fun d e => v d e * IZR d) ->
  p20 = wsum2 w (fun d e => v d e * IZR e ^ 2) -> p02 = wsum2 w (fun d e => v d e * IZR d ^ 2) -> p11 = wsum2 w (fun d e => v d e * (IZR e * IZR d)) ->
  0 < v 0%Z 0%Z -> (exists d, within w d /\ d <> 0%Z /\ 0 < v d 0%Z) -> (exists e, within w e /\ e <> 0%Z /\ 0 < v 0%Z e) ->
  0 < p00 /\ p20 * p01 ^ 2 + p10 ^ 2 * p02 - p00 * p02 * p20 + p11 ^ 2 * p00 - 2 * p01 * p10 * p11 < 0.
Proof.
  intros V E00 E10 E01 E20 E02 E11 V0 (d & D & ND & VD) (e & E & NE & VE). assert (W0 : within w 0) by (unfold within; lia). assert (SP : forall x, x <> 0 -> 0 < x ^ 2) by (intros x X; assert (0 < x * x) by nra; nra).
  assert (SQ : forall x, 0 <= x ^ 2) by (intro; apply pow2_ge_0).
  assert (P0 : 0 < p00) by (rewrite E00; apply (wsum2_pos w v 0 0); auto). split; [exact P0 |].
  assert (P2 : 0 < p02). { rewrite E02. apply (wsum2_pos w _ d 0); auto; [intros; apply Rmult_le_pos; auto |]. apply Rmult_lt_0_compat; [exact VD |]. apply SP. now apply not_0_IZR. }
  set (M := p20 * p02 - p11 ^ 2).
  assert (PM : 0 < M).
  { assert (Q : 0 < wsum2 w (fun d e => v d e * (p02 * IZR e - p11 * IZR d) ^ 2)).
    { apply (wsum2_pos w _ 0 e); auto; [intros; apply Rmult_le_pos; auto |]. apply Rmult_lt_0_compat; [exact VE |]. apply SP. replace (p02 * IZR e - p11 * 0) with (p02 * IZR e) by ring. apply Rmult_integral_contrapositive_currified; [lra | now apply not_0_IZR]. }
    assert (EQ : wsum2 w (fun d e => v d e * (p02 * IZR e - p11 * IZR d) ^ 2) = p02 * M).
    { transitivity (wsum2 w (fun d e => p02 ^ 2 * (v d e * IZR e ^ 2) + (- 2 * p02 * p11 * (v d e * (IZR e * IZR d)) + p11 ^ 2 * (v d e * IZR d ^ 2)))); [apply wsum2_ext; intros; ring |]. rewrite !wsum2_plus, !wsum2_scal, <- E20, <- E02, <- E11. unfold M. ring. }
    rewrite EQ in Q. nra. }
  set (B := p01 * p11 - p10 * p02). set (C := p10 * p11 - p01 * p20).
  assert (Q : 0 < wsum2 w (fun d e => v d e * (M + B * IZR e + C * IZR d) ^ 2)).
  { apply (wsum2_pos w _ 0 0); auto; [intros; apply Rmult_le_pos; auto |]. apply Rmult_lt_0_compat; [exact V0 |]. apply SP. replace (M + B * 0 + C * 0) with M by ring. lra. }
  set (det := p20 * p01 ^ 2 + p10 ^ 2 * p02 - p00 * p02 * p20 + p11 ^ 2 * p00 - 2 * p01 * p10 * p11).
  assert (EQ : wsum2 w (fun d e => v d e * (M + B * IZR e + C * IZR d) ^ 2) = - (M * det)).
  { transitivity (wsum2 w (fun d e => M ^ 2 * v d e + (2 * M * B * (v d e * IZR e) + (2 * M * C * (v d e * IZR d) + (B ^ 2 * (v d e * IZR e ^ 2) + (2 * B * C * (v d e * (IZR e * IZR d)) + C ^ 2 * (v d e * IZR d ^ 2))))))); [apply wsum2_ext; intros; ring |].
    rewrite !wsum2_plus, !wsum2_scal, <- E00, <- E10, <- E01, <- E20, <- E02, <- E11. unfold det, M, B, C. ring. }
  rewrite EQ in Q. clear - Q PM. clearbody det M. nra.
Qed.
(** ** The estimate as a function *)
Definition gm2 (K : Z -> Z -> R) (k m : nat) (d e : Z) : R := K d e * IZR e ^ k * IZR d ^ m.
Definition a2 (N : nat) (l : lims) (w : nat) (K : Z -> Z -> R) (k m : nat) : Z -> Z -> R := blur2 w (gm2 K k m) (sh N l).
Definition b2 (h : Z -> Z -> R) (w : nat) (K : Z -> Z -> R) (k m : nat) : Z -> Z -> R := blur2 w (gm2 K k m) h.
Definition den2 (N : nat) (l : lims) (w : nat) (K : Z -> Z -> R) (i j : Z) : R :=
  let a k m := a2 N l w K k m i j in a 2%nat 0%nat * a 0%nat 1%nat ^ 2 + a 1%nat 0%nat ^ 2 * a 0%nat 2%nat - a 0%nat 0%nat * a 0%nat 2%nat * a 2%nat 0%nat + a 1%nat 1%nat ^ 2 * a 0%nat 0%nat - 2 * a 0%nat 1%nat * a 1%nat 0%nat * a 1%nat 1%nat.
Definition cor2 (N : nat) (l : lims) (w : nat) (K h : Z -> Z -> R) (i j : Z) : R :=
  let a k m := a2 N l w K k m i j in let x k m := b2 h w K k m i j in
  (x 0%nat 0%nat * (a 1%nat 1%nat ^ 2 - a 0%nat 2%nat * a 2%nat 0%nat) + x 1%nat 0%nat * (a 1%nat 0%nat * a 0%nat 2%nat - a 0%nat 1%nat * a 1%nat 1%nat) + x 0%nat 1%nat * (a 0%nat 1%nat * a 2%nat 0%nat - a 1%nat 0%nat * a 1%nat 1%nat)) / den2 N l w K i j.
Definition Bd2 (order : Z) (l : lims) (N w : nat) (K h : Z -> Z -> R) (i j : Z) : R :=
  let P := b2 h w K 0 0 in
  if has_prior l && (0 <=? order)%Z then
    if Rlt_dec (fmax N P * eps8) (a2 N l w K 0 0 i j * P i j) then
      let m := P i j / a2 N l w K 0 0 i j in if (order =? 1)%Z then tilt m 4 (cor2 N l w K h i j) else m
    else P i j
  else P i j.
Definition box (N : nat) (h P : Z -> Z -> R) : Z -> Z -> R := cut2 N (fun p q => if Rlt_dec (fmax N P * eps8) (P p q) then h p q / P p q else h p q).
Definition a2c (N : nat) (l : lims) (w : nat) (K : Z -> Z -> R) : Z -> Z -> R := blur2 w (gm2 K 0 0) (cut2 N (sh N l)).
Definition step2 (N : nat) (l : lims) (w : nat) (K h P : Z -> Z -> R) (i j : Z) : R := P i j * blur2 w (gm2 K 0 0) (box N h P) i j / a2c N l w K i j.
Fixpoint bias2F (n N : nat) (l : lims) (w : nat) (K h P : Z -> Z -> R) : Z -> Z -> R := match n with O => P | S n' => bias2F n' N l w K h (step2 N l w K h P) end.
Definition raw2F (order : Z) (n : nat) (l : lims) (N w : nat) (K h : Z -> Z -> R) : Z -> Z -> R := bias2F n N l w K h (Bd2 order l N w K h).
Definition fits2 (w N : nat) (H : mat) (P : Z -> Z -> R) : Prop := forall i j, rng N i -> rng N j -> 0 <= P i j /\ (0 < P i j <-> reached2 w N H i j).
Section Kern.
Variable K : Z -> Z -> R.
Hypothesis KP : forall d e, 0 < K d e.
Lemma gm2_00 d e : gm2 K 0 0 d e = K d e.
Proof. unfold gm2. cbn. ring. Qed.
Lemma a2_pos N l w i j : sizes2 N w -> rng N i -> rng N j -> 0 < a2 N l w K 0 0 i j /\ den2 N l w K i j < 0.
Proof.
  intros (S1 & S2 & _) I J. set (v := fun d e => K d e * sh N l (i - d)%Z (j - e)%Z). unfold den2.
  assert (V : forall d e, 0 <= v d e) by (intros; apply Rmult_le_pos; [apply Rlt_le, KP | apply sh_nonneg]).
  assert (VP : forall d e, rng N (i - d) -> rng N (j - e) -> 0 < v d e) by (intros; apply Rmult_lt_0_compat; [apply KP | now apply sh_pos]). unfold rng in *.
  apply (gram v w); try (unfold a2, blur2; apply wsum2_ext; intros d e _ _; unfold gm2, v; ring); auto.
  - apply VP; lia.
  - destruct (Z.eq_dec i 0); [exists (-1)%Z | exists 1%Z]; (split; [unfold within; lia |]; split; [lia |]; apply VP; lia).
  - destruct (Z.eq_dec j 0); [exists (-1)%Z | exists 1%Z]; (split; [unfold within; lia |]; split; [lia |]; apply VP; lia).
Qed.
Lemma a2c_pos N l w i j : rng N i -> rng N j -> 0 < a2c N l w K i j.
Proof.
  intros I J. apply (wsum2_pos w _ 0 0); try (unfold within; lia).
  - intros d e _ _. rewrite gm2_00. apply Rmult_le_pos; [apply Rlt_le, KP |]. unfold cut2. destruct (_ && _); [apply sh_nonneg | lra].
  - rewrite gm2_00, !Z.sub_0_r. unfold cut2. rewrite (proj2 (inside_iff N i) I), (proj2 (inside_iff N j) J). cbn [andb]. apply Rmult_lt_0_compat; [apply KP | now apply sh_pos].
Qed.
Lemma zat2_nonneg N H i j : nonneg2 N H -> 0 <= zat2 N H i j.
Proof. intro HH. unfold zat2. destruct (inside N i) eqn:I; [| cbn; lra]. destruct (inside N j) eqn:J; [| cbn; lra]. cbn [andb]. apply inside_iff in I. apply inside_iff in J. unfold rng in *. apply HH; lia. Qed.
Lemma blur2_nonneg w f i j : (forall p q, 0 <= f p q) -> 0 <= blur2 w (gm2 K 0 0) f i j.
Proof. intro H. apply wsum2_nonneg. intros d e _ _. rewrite gm2_00. apply Rmult_le_pos; [apply Rlt_le, KP | apply H]. Qed.
Lemma blur2_pos w f i j : (forall p q, 0 <= f p q) -> (0 < blur2 w (gm2 K 0 0) f i j <-> exists d e, within w d /\ within w e /\ 0 < f (i - d)%Z (j - e)%Z).
Proof.
  intro H. split.
  - intro P. destruct (wsum2_pos_ex _ _ P) as (d & e & D & E & Q). exists d, e. split; [exact D |]. split; [exact E |]. rewrite gm2_00 in Q. destruct (Rle_lt_or_eq_dec _ _ (H (i - d)%Z (j - e)%Z)) as [L | L]; [exact L |]. rewrite <- L in Q. lra.
  - intros (d & e & D & E & Q). apply (wsum2_pos w _ d e); auto; [intros x y _ _; rewrite gm2_00; apply Rmult_le_pos; [apply Rlt_le, KP | apply H] |]. rewrite gm2_00. apply Rmult_lt_0_compat; [apply KP | exact Q].
Qed.
Lemma b2_fits w N H : nonneg2 N H -> fits2 w N H (b2 (zat2 N H) w K 0 0).
Proof. intros HH i j _ _. split; [apply blur2_nonneg; intros; now apply zat2_nonneg |]. unfold b2. rewrite blur2_pos by (intros; now apply zat2_nonneg). reflexivity. Qed.
Lemma fits2_max w N H P : (1 <= N)%nat -> fits2 w N H P -> 0 <= fmax N P.
Proof. intros HN F. destruct (fmax_at N P HN) as (i & j & I & J & ->). now apply F. Qed.
Lemma eps8_pos : 0 < eps8.
Proof. unfold eps8. apply Rinv_0_lt_compat. lra. Qed.
Lemma Bd2_fits order l w N H : sizes2 N w -> nonneg2 N H -> fits2 w N H (Bd2 order l N w K (zat2 N H)).
Proof.
  intros S HH i j I J. pose proof (b2_fits w N H HH) as F. destruct (F i j I J) as (F0 & FP). destruct (a2_pos N l w i j S I J) as (A & _). unfold Bd2. destruct (_ && _); [| split; assumption]. destruct (Rlt_dec _ _) as [L | L]; [| split; assumption].
  pose proof (fits2_max w N H _ ltac:(destruct S; lia) F) as M. pose proof eps8_pos.
  assert (P : 0 < b2 (zat2 N H) w K 0 0 i j). { destruct (Rle_lt_or_eq_dec _ _ F0) as [Q | Q]; [exact Q |]. rewrite <- Q in L. assert (0 <= fmax N (b2 (zat2 N H) w K 0 0) * eps8) by (apply Rmult_le_pos; lra). lra. }
  assert (Q : 0 < b2 (zat2 N H) w K 0 0 i j / a2 N l w K 0 0 i j) by (now apply Rdiv_lt_0_compat). cbv zeta. rewrite <- FP. destruct (order =? 1)%Z.
  - pose proof (tilt_pos _ 4 (cor2 N l w K (zat2 N H) i j) Q). split; [lra | split; auto].
  - split; [lra | split; auto].
Qed.
Lemma box_sign w N H P : (1 <= N)%nat -> nonneg2 N H -> fits2 w N H P -> forall p q, 0 <= box N (zat2 N H) P p q /\ (0 < box N (zat2 N H) P p q <-> 0 < zat2 N H p q).
Proof.
  intros HN HH F p q. pose proof (zat2_nonneg N H p q HH) as Z0. unfold box, cut2. destruct (inside N p) eqn:I.
  2: { cbn [andb]. assert (zat2 N H p q = 0) as -> by (unfold zat2; now rewrite I). split; [lra | split; lra]. }
  destruct (inside N q) eqn:J.
  2: { cbn [andb]. assert (zat2 N H p q = 0) as -> by (unfold zat2; now rewrite I, J). split; [lra | split; lra]. }
  cbn [andb]. apply inside_iff in I. apply inside_iff in J. destruct (Rlt_dec _ _) as [L | L]; [| split; [exact Z0 | reflexivity]].
  pose proof (fits2_max w N H P HN F) as M. pose proof eps8_pos. assert (0 < P p q) by (assert (0 <= fmax N P * eps8) by (apply Rmult_le_pos; lra); lra).
  destruct (Rle_lt_or_eq_dec _ _ Z0) as [Q | Q]; [assert (0 < zat2 N H p q / P p q) by (now apply Rdiv_lt_0_compat); split; [lra | split; auto] |]. rewrite <- Q. unfold Rdiv. rewrite Rmult_0_l. split; [lra | split; lra].
Qed.
Lemma step2_fits l w N H P : (1 <= N)%nat -> nonneg2 N H -> fits2 w N H P -> fits2 w N H (step2 N l w K (zat2 N H) P).
Proof.
  intros HN HH F i j I J. destruct (F i j I J) as (P0 & PP). pose proof (box_sign w N H P HN HH F) as BS. pose proof (a2c_pos N l w i j I J) as A. unfold step2.
  pose proof (blur2_nonneg w (box N (zat2 N H) P) i j (fun p q => proj1 (BS p q))) as C0. pose proof (blur2_pos w (box N (zat2 N H) P) i j (fun p q => proj1 (BS p q))) as CP.
  assert (CR : 0 < blur2 w (gm2 K 0 0) (box N (zat2 N H) P) i j <-> reached2 w N H i j). { rewrite CP. split; intros (d & e & D & E & Q); exists d, e; (split; [exact D |]; split; [exact E |]); now apply BS. }
  set (c := blur2 w (gm2 K 0 0) (box N (zat2 N H) P) i j) in *. split.
  - apply Rmult_le_pos; [now apply Rmult_le_pos | apply Rlt_le; now apply Rinv_0_lt_compat].
  - rewrite <- PP. split; intro Q.
    + destruct (Rle_lt_or_eq_dec _ _ P0) as [L | L]; [exact L |]. rewrite <- L in Q. unfold Rdiv in Q. rewrite !Rmult_0_l in Q. lra.
    + apply Rdiv_lt_0_compat; [| exact A]. apply Rmult_lt_0_compat; [exact Q |]. apply CR, PP, Q.
Qed.
Lemma bias2_fits n l w N H : (1 <= N)%nat -> nonneg2 N H -> forall P, fits2 w N H P -> fits2 w N H (bias2F n N l w K (zat2 N H) P).
Proof. intros HN HH. induction n as [| n IH]; intros P F; [exact F |]. cbn [bias2F]. apply IH. now apply step2_fits. Qed.
(** ** The program computes it *)
Variables (w : nat) (Win : mat).
Hypothesis KW : is_kernel2 w K Win.
Lemma KW0 : is_kernel2 w (gm2 K 0 0) Win.
Proof. destruct KW as (A & B & C). split; [exact A |]. split; [exact B |]. intros i j I J. rewrite gm2_00. now apply C. Qed.
Lemma boundary2_ok order l N H B : sizes2 N w -> square N H -> nonneg2 N H -> (order <= 1)%Z \/ has_prior l = false -> rep N (b2 (zat2 N H) w K 0 0) B ->
  exists r, boundary2 order l w (N + 4 * w + 1) Win H B = Ok r /\ rep N (Bd2 order l N w K (zat2 N H)) r.
Proof.
  intros S SQ HH HO RB. pose proof S as (S1 & S2 & S3). pose proof SQ as (SR & SC). unfold boundary2, Bd2. destruct (has_prior l && (0 <=? order)%Z) eqn:HP; [| exists B; split; [reflexivity | exact RB]].
  rewrite SR, SC. set (mask := edge_mask l w false (ones (N + 2 * w) (N + 2 * w))). assert (MS : square (N + 2 * w) mask) by apply mask_square.
  assert (CV : forall g y, is_kernel2 w g y -> exists r, conv2 Valid (N + 4 * w + 1) mask y = Ok r /\ rep N (blur2 w g (sh N l)) r).
  { intros g y KY. destruct (conv2_valid N w g mask y (N + 4 * w + 1) KY MS) as (r & E & RR); [lia | lia |]. exists r. split; [exact E |]. eapply rep_ext; [| exact RR]. intros i j I J. exact (mask2_blur N l w false g i j S2 S1 I J). }
  assert (CS : forall g y, is_kernel2 w g y -> exists r, conv2 Same (N + 4 * w + 1) H y = Ok r /\ rep N (blur2 w g (zat2 N H)) r) by (intros g y KY; apply conv2_same; trivial; lia).
  destruct (CV _ _ KW0) as (r00 & -> & _ & R00). cbn [bindR]. change (blur2 w (gm2 K 0 0) (sh N l)) with (a2 N l w K 0 0) in R00.
  assert (KX : is_kernel2 w (gm2 K 1 0) (weigh Win (fun _ j : nat => IZR (Z.of_nat j - Z.of_nat w)))) by (apply (weigh_kernel w K); [exact KW |]; intros; unfold gm2; ring).
  assert (KY : is_kernel2 w (gm2 K 0 1) (weigh Win (fun i _ : nat => IZR (Z.of_nat i - Z.of_nat w)))) by (apply (weigh_kernel w K); [exact KW |]; intros; unfold gm2; ring).
  assert (W : forall (f : nat -> nat -> R -> res R) (G : Z -> Z -> R -> R), (forall i j normed, (i < N)%nat -> (j < N)%nat -> 0 < normed -> f i j normed = Ok (G (Z.of_nat i) (Z.of_nat j) normed)) ->
    exists r, matR N N (fun i j => if Rlt_dec (mmax B * eps8) (m_at r00 i j * m_at B i j) then bindR (rdivE (m_at B i j) (m_at r00 i j)) (f i j) else Ok (m_at B i j)) = Ok r /\
      rep N (fun i j => if Rlt_dec (fmax N (b2 (zat2 N H) w K 0 0) * eps8) (a2 N l w K 0 0 i j * b2 (zat2 N H) w K 0 0 i j) then G i j (b2 (zat2 N H) w K 0 0 i j / a2 N l w K 0 0 i j) else b2 (zat2 N H) w K 0 0 i j) r).
  { intros f G HF. apply matR_ok. intros i j I J. rewrite (rep_max N _ B RB). rewrite R00 by assumption. destruct RB as (RBS & RB). rewrite RB by assumption. destruct (a2_pos N l w (Z.of_nat i) (Z.of_nat j) S ltac:(unfold rng; lia) ltac:(unfold rng; lia)) as (A & _).
    destruct (Rlt_dec _ _) as [L | L]; [| reflexivity]. rewrite rdivE_ok by lra. cbn [bindR]. apply HF; [exact I | exact J |]. pose proof (b2_fits w N H HH) as F. destruct (F (Z.of_nat i) (Z.of_nat j) ltac:(unfold rng; lia) ltac:(unfold rng; lia)) as (F0 & _). pose proof (fits2_max w N H _ ltac:(lia) F) as M. pose proof eps8_pos.
    assert (0 <= fmax N (b2 (zat2 N H) w K 0 0) * eps8) by (apply Rmult_le_pos; lra). apply Rdiv_lt_0_compat; [| exact A]. destruct (Rle_lt_or_eq_dec _ _ F0) as [Q | Q]; [exact Q |]. rewrite <- Q in L. lra. }
  destruct (Z.eqb_spec order 1) as [O1 | O1].
  - destruct (CV _ _ KX) as (r10 & -> & _ & R10). cbn [bindR]. destruct (CV _ _ KY) as (r01 & -> & _ & R01). cbn [bindR].
    destruct (CV (gm2 K 2 0) (weigh (weigh Win (fun _ j : nat => IZR (Z.of_nat j - Z.of_nat w))) (fun _ j : nat => IZR (Z.of_nat j - Z.of_nat w)))) as (r20 & -> & _ & R20); [apply (weigh_kernel w (gm2 K 1 0)); [exact KX |]; intros; unfold gm2; ring |]. cbn [bindR].
    destruct (CV (gm2 K 0 2) (weigh (weigh Win (fun i _ : nat => IZR (Z.of_nat i - Z.of_nat w))) (fun i _ : nat => IZR (Z.of_nat i - Z.of_nat w)))) as (r02 & -> & _ & R02); [apply (weigh_kernel w (gm2 K 0 1)); [exact KY |]; intros; unfold gm2; ring |]. cbn [bindR].
    destruct (CV (gm2 K 1 1) (weigh (weigh Win (fun i _ : nat => IZR (Z.of_nat i - Z.of_nat w))) (fun _ j : nat => IZR (Z.of_nat j - Z.of_nat w)))) as (r11 & -> & _ & R11); [apply (weigh_kernel w (gm2 K 0 1)); [exact KY |]; intros; unfold gm2; ring |]. cbn [bindR].
    destruct (CS _ _ KX) as (x10 & -> & _ & X10). cbn [bindR]. destruct (CS _ _ KY) as (x01 & -> & _ & X01). cbn [bindR].
    apply (W _ (fun i j m => tilt m 4 (cor2 N l w K (zat2 N H) i j))). intros i j m I J M. destruct (a2_pos N l w (Z.of_nat i) (Z.of_nat j) S ltac:(unfold rng; lia) ltac:(unfold rng; lia)) as (_ & D).
    rewrite R00, R10, R01, R20, R02, R11, X10, X01 by assumption. destruct RB as (_ & RB). rewrite RB by assumption. unfold linear2_at. unfold den2, a2 in D. cbv zeta in D. rewrite rdivE_ok by (unfold a2; lra). cbn [bindR]. unfold tilted. rewrite rdivE_ok by lra. cbn [bindR]. reflexivity.
  - destruct (Z.eqb_spec order 0) as [O0 | O0].
    + apply (W _ (fun i j m => m)). reflexivity.
    + exfalso. apply andb_true_iff in HP. destruct HP as (HP & HP2). apply Z.leb_le in HP2. destruct HO as [HO | HO]; [lia | congruence].
Qed.
Lemma bias2_ok l N H r00 : sizes2 N w -> square N H -> nonneg2 N H -> rep N (a2c N l w K) r00 -> forall n B P, rep N P B -> fits2 w N H P ->
  exists r, bias2_loop n (N + 4 * w + 1) Win H r00 B = Ok r /\ rep N (bias2F n N l w K (zat2 N H) P) r.
Proof.
  intros S SQ HH RA. pose proof S as (S1 & S2 & S3). pose proof SQ as (SR & SC). induction n as [| n IH]; intros B P RP F; [exists B; split; [reflexivity | exact RP] |]. cbn [bias2_loop bias2F]. rewrite SR, SC.
  pose proof (fits2_max w N H P ltac:(lia) F) as M. pose proof eps8_pos as EP. pose proof RP as (PS & PV). pose proof RA as (AS & AV).
  destruct (matR_ok N (fun i j => if Rlt_dec (mmax B * eps8) (m_at B i j) then rdivE (m_at H i j) (m_at B i j) else Ok (m_at H i j)) (box N (zat2 N H) P)) as (bx & -> & BS & BV).
  { intros i j I J. rewrite (rep_max N P B RP), PV by assumption. unfold box, cut2. rewrite (proj2 (inside_iff N (Z.of_nat i))), (proj2 (inside_iff N (Z.of_nat j))) by (unfold rng; lia). cbn [andb]. unfold zat2. rewrite (proj2 (inside_iff N (Z.of_nat i))), (proj2 (inside_iff N (Z.of_nat j))) by (unfold rng; lia). cbn [andb]. rewrite !Nat2Z.id.
    destruct (Rlt_dec _ _) as [L | L]; [| reflexivity]. apply rdivE_ok. assert (0 <= fmax N P * eps8) by (apply Rmult_le_pos; lra). lra. }
  cbn [bindR]. destruct (conv2_same N w (gm2 K 0 0) bx Win (N + 4 * w + 1) KW0 BS ltac:(lia) ltac:(lia)) as (c & -> & CS & CV). cbn [bindR].
  destruct (matR_ok N (fun i j => rdivE (m_at B i j * m_at c i j) (m_at r00 i j)) (step2 N l w K (zat2 N H) P)) as (B' & -> & RB').
  { intros i j I J. rewrite PV, CV, AV by assumption. pose proof (a2c_pos N l w (Z.of_nat i) (Z.of_nat j) ltac:(unfold rng; lia) ltac:(unfold rng; lia)). rewrite rdivE_ok by lra. unfold step2. do 3 f_equal. apply wsum2_ext. intros d e _ _. f_equal. unfold zat2. destruct (inside N (Z.of_nat i - d)) eqn:E1.
    - destruct (inside N (Z.of_nat j - e)) eqn:E2; cbn [andb].
      + apply inside_iff in E1. apply inside_iff in E2. unfold rng in *. rewrite BV by lia. f_equal; lia.
      + unfold box, cut2. now rewrite E1, E2.
    - unfold box, cut2. now rewrite E1. }
  cbn [bindR]. apply IH; [exact RB' |]. apply step2_fits; trivial. lia.
Qed.
End Kern.
Theorem raw2_ok order n l w c00 c11 c10 N H : sizes2 N w -> square N H -> nonneg2 N H -> (order <= 1)%Z \/ has_prior l = false ->
  exists r, kde2_raw order n l w c00 c11 c10 H = Ok r /\ rep N (raw2F order n l N w (k2 w c00 c11 c10) (zat2 N H)) r.
Proof.
  intros S SQ HH HO. pose proof S as (S1 & S2 & S3). pose proof SQ as (SR & SC). unfold kde2_raw. rewrite SC. change (m_rows (win2 w c00 c11 c10)) with (2 * w + 1)%nat. replace (N + 2 * w + (2 * w + 1))%nat with (N + 4 * w + 1)%nat by lia.
  set (K := k2 w c00 c11 c10). pose proof (win2_kernel w c00 c11 c10) as KW. fold K in KW. assert (KP : forall d e, 0 < K d e) by (intros; apply k2_pos). pose proof (KW0 K w _ KW) as K0.
  destruct (conv2_same N w _ H _ (N + 4 * w + 1) K0 SQ ltac:(lia) ltac:(lia)) as (B & -> & RB). cbn [bindR]. destruct (boundary2_ok K KP w _ KW order l N H B S SQ HH HO RB) as (B1 & -> & R1). cbn [bindR].
  unfold raw2F. destruct n as [| n]; [exists B1; split; [reflexivity | exact R1] |]. unfold mult_bias2. rewrite SR, SC.
  destruct (conv2_valid N w _ _ _ (N + 4 * w + 1) K0 (mask_square l w true (N + 2 * w) (N + 2 * w)) ltac:(lia) ltac:(lia)) as (r00 & -> & RA). cbn [bindR].
  apply (bias2_ok K KP w _ KW l N H r00 S SQ HH); [| exact R1 | now apply Bd2_fits]. eapply rep_ext; [| exact RA]. intros i j I J. exact (mask2_blur N l w true (gm2 K 0 0) i j S2 S1 I J).
Qed.
