(** Properties C41, C64, C65, C66 and C67: convolutions. *)
From Verif Require Import PyStr PyBase DensModel DensProps ConvModel ConvSpec ConvProofs ConvProofs2 ConvProofs3.
From Coq Require Import Reals Lra Lia.
Local Open Scope nat_scope.

Lemma near_nat k f : nearestFFTnumber (Z.of_nat k) = Ok f -> k <= Z.to_nat f /\ 0 < Z.to_nat f /\ Nat.even (Z.to_nat f) = true.
Proof.
  intros H. pose proof (C40_even _ _ H) as E. apply C40_smallest in H. destruct H as [I [L _]].
  assert (P : (0 < f)%Z). { assert (A : forallb (fun z => (0 <? z)%Z) fastFFT = true) by (vm_compute; reflexivity). rewrite forallb_forall in A. apply Z.ltb_lt. now apply A. }
  split; [lia|]. split; [lia|]. apply Z.even_spec in E. destruct E as [q E]. apply Nat.even_spec. exists (Z.to_nat q). lia.
Qed.
Lemma near_total k : (Z.of_nat k <= 2013265920)%Z -> exists f, nearestFFTnumber (Z.of_nat k) = Ok f.
Proof. intros H. now apply C40_defined. Qed.
Lemma near_two : nearestFFTnumber (Z.of_nat (Nat.max 0 1)) = Ok 2%Z.
Proof. vm_compute. reflexivity. Qed.
Lemma near_max k sz : nearestFFTnumber k = Ok sz -> (sz <= 2013265920)%Z.
Proof. intros F. apply C40_smallest in F. destruct F as [I _]. assert (A : forallb (fun z => (z <=? 2013265920)%Z) fastFFT = true) by (vm_compute; reflexivity). rewrite forallb_forall in A. apply Z.leb_le. now apply A. Qed.
Lemma near_bound k sz : nearestFFTnumber k = Ok sz -> (k <= 2013265920)%Z.
Proof. intros F. apply C40_defined. exists sz. exact F. Qed.
Local Opaque nearestFFTnumber fastFFT.
Lemma rfft_length x N : length (rfft x N) = N / 2 + 1.
Proof. unfold rfft. now rewrite map_length, seq_length. Qed.
Lemma irfft_full x y N : 0 < N -> Nat.even N = true -> length x + length y <= N + 1 ->
  exists r, irfft (cprod (rfft x N) (rfft y N)) = Ok r /\ conv_part x y 0 N r.
Proof.
  intros HN E L. unfold irfft, irfft_n, cprod. rewrite map_length, combine_length, !rfft_length, Nat.min_id.
  apply Nat.even_spec in E. destruct E as [h E]. replace (N / 2) with h by (rewrite E, Nat.mul_comm, Nat.div_mul; lia).
  replace (2 * (h + 1 - 1)) with N by lia. destruct (Nat.eqb_spec N 0); [lia|]. eexists. split; [reflexivity|].
  split; [now rewrite map_length, seq_length|]. intros k Hk. rewrite nth_map_seq by exact Hk. now apply irfft_prod.
Qed.
Lemma part_firstn x y s len r k : conv_part x y s len r -> k <= len -> conv_part x y s k (slice 0 k r).
Proof.
  intros [L C] H. pose proof (conv_part_slice x y r s 0 k) as P. rewrite Nat.add_0_r, Nat.sub_0_r in P. apply P; [|lia]. rewrite L. now split.
Qed.
Lemma part_slice x y s len r i j : conv_part x y s len r -> i <= j <= len -> conv_part x y (s + i) (j - i) (slice i j r).
Proof. intros [L C] H. apply conv_part_slice; [|lia]. rewrite L. now split. Qed.
Lemma slice_empty {A} i j (l : list A) : j <= i -> slice i j l = [].
Proof. intros H. unfold slice. apply skipn_all2. rewrite firstn_length. lia. Qed.
(** result of a mode applied to the full convolution, as in both implementations *)
Lemma modes n m x y r : 0 < n -> 0 < m -> conv_part x y 0 (n + m - 1) r ->
  conv_part x y ((m - 1) / 2) n (slice ((m - 1) / 2) ((m - 1) / 2 + n) r) /\ conv_part x y (m - 1) (n + 1 - m) (slice (m - 1) n r).
Proof.
  intros Hn Hm C. assert (D : (m - 1) / 2 <= m - 1) by (apply Nat.div_le_upper_bound; lia). split.
  - pose proof (part_slice x y 0 _ r ((m - 1) / 2) ((m - 1) / 2 + n) C) as P. cbn [Nat.add] in P. replace ((m - 1) / 2 + n - (m - 1) / 2) with n in P by lia. apply P. lia.
  - destruct (Nat.le_gt_cases m n) as [L|L].
    + pose proof (part_slice x y 0 _ r (m - 1) n C) as P. cbn [Nat.add] in P. replace (n + 1 - m) with (n - (m - 1)) by lia. apply P. lia.
    + rewrite slice_empty by lia. replace (n + 1 - m) with 0 by lia. split; [reflexivity|lia].
Qed.
Definition wants (mode : cmode) (first last : bool) : Prop :=
  match mode with Full => first = true /\ last = true | Same => first = true /\ last = false | Valid => first = false /\ last = false | OtherMode => False end.

(** ** C41 *)
Lemma fft_uncached x y mode f l L u1 u2 start len :
  0 < length (a_val x) -> 0 < length (a_val y) -> (Z.of_nat (Nat.max L (length (a_val x) + length (a_val y) - 1)) <= 2013265920)%Z ->
  wants mode f l -> part_of (length (a_val x)) (length (a_val y)) f l start len ->
  exists r, convolveFFT x y mode L None u1 u2 = Ok (Some r, None) /\ conv_part (a_val x) (a_val y) start len r.
Proof.
  intros Hx Hy B W P. destruct (near_total _ B) as [fz F]. destruct (near_nat _ _ F) as [G1 [G2 G3]]. unfold convolveFFT. rewrite F. cbn [bindR]. cbn zeta.
  cbn [cached_rfft]. set (N := Z.to_nat fz) in *. clearbody N. set (n := length (a_val x)) in *. set (m := length (a_val y)) in *.
  destruct (irfft_full (a_val x) (a_val y) N G2 G3) as [r [E C]]; [fold n m; lia|]. rewrite E. cbn [bindR].
  apply (part_firstn _ _ _ _ _ (n + m - 1)) in C; [|lia]. destruct (modes n m _ _ _ Hx Hy C) as [S1 V1].
  destruct P, mode; cbn in W; destruct W; try discriminate; eexists; (split; [reflexivity|assumption]).
Qed.
(** through the transform: every mode gives its part of the exact linear convolution, whatever the lengths *)
Theorem C41_fft x y mode f l L u1 u2 start len :
  0 < length (a_val x) -> 0 < length (a_val y) -> (Z.of_nat (Nat.max L (length (a_val x) + length (a_val y) - 1)) <= 2013265920)%Z ->
  wants mode f l -> part_of (length (a_val x)) (length (a_val y)) f l start len ->
  exists r, convolveFFT x y mode L None u1 u2 = Ok (Some r, None) /\ conv_part (a_val x) (a_val y) start len r.
Proof. exact (fft_uncached x y mode f l L u1 u2 start len). Qed.
(** convolve1D with the second array not longer than the first, as it is always used for smoothing *)
Theorem C41_convolve1D x y mode f l L u1 u2 start len :
  0 < length (a_val y) -> length (a_val y) <= length (a_val x) ->
  (Z.of_nat (Nat.max L (length (a_val x) + length (a_val y) - 1)) <= 2013265920)%Z ->
  wants mode f l -> part_of (length (a_val x)) (length (a_val y)) f l start len ->
  exists r, convolve1D x y mode L None u1 u2 = Ok (Some r, None) /\ conv_part (a_val x) (a_val y) start len r.
Proof.
  intros Hy Lxy B W P. unfold convolve1D. destruct (Nat.ltb_spec 1000 (Nat.min (length (a_val x)) (length (a_val y)))) as [Big|Small].
  - eapply fft_uncached; try eassumption. lia.
  - unfold np_convolve. destruct (Nat.ltb_spec (length (a_val x)) (length (a_val y))); [lia|]. destruct (Nat.eqb_spec (length (a_val y)) 0); [lia|].
    assert (Hx : 0 < length (a_val x)) by lia. pose proof (conv_full_part _ _ Hy Hx) as C. destruct (modes _ _ _ _ _ Hx Hy C) as [S1 V1].
    destruct P, mode; cbn in W; destruct W; try discriminate; eexists; (split; [reflexivity|assumption]).
Qed.
(** FINDING: for a longer second array, 'same' through np.convolve has its length and not that of the first array (through the
    transform it has the length of the first), and 'valid' is not empty *)
Theorem C41_longer_second_refuted x y L c u1 u2 :
  0 < length (a_val x) -> length (a_val x) < length (a_val y) -> length (a_val x) <= 1000 ->
  (exists r, convolve1D x y Same L c u1 u2 = Ok (Some r, c) /\ length r = length (a_val y)) /\
  (exists r, convolve1D x y Valid L c u1 u2 = Ok (Some r, c) /\ length r = length (a_val y) + 1 - length (a_val x)).
Proof.
  intros Hx Lxy Small. unfold convolve1D. destruct (Nat.ltb_spec 1000 (Nat.min (length (a_val x)) (length (a_val y)))); [lia|].
  unfold np_convolve. destruct (Nat.ltb_spec (length (a_val x)) (length (a_val y))); [|lia]. destruct (Nat.eqb_spec (length (a_val x)) 0); [lia|].
  assert (Hy : 0 < length (a_val y)) by lia. pose proof (conv_full_part _ _ Hx Hy) as C. destruct (modes _ _ _ _ _ Hy Hx C) as [[S1 _] [V1 _]].
  split; eexists; (split; [reflexivity|assumption]).
Qed.
(** the full mode does not depend on the order of the arrays, in either implementation *)
Theorem C41_commutes x y L u1 u2 r r' :
  0 < length (a_val x) -> 0 < length (a_val y) ->
  convolve1D x y Full L None u1 u2 = Ok (Some r, None) -> convolve1D y x Full L None u1 u2 = Ok (Some r', None) -> r = r'.
Proof.
  intros Hx Hy E E'.
  assert (G : forall x y r, 0 < length (a_val x) -> 0 < length (a_val y) -> convolve1D x y Full L None u1 u2 = Ok (Some r, None) ->
              conv_part (a_val x) (a_val y) 0 (length (a_val x) + length (a_val y) - 1) r).
  { clear. intros x y r Hx Hy. unfold convolve1D. destruct (Nat.ltb_spec 1000 (Nat.min (length (a_val x)) (length (a_val y)))) as [Big|Small].
    - intros E. assert (B : (Z.of_nat (Nat.max L (length (a_val x) + length (a_val y) - 1)) <= 2013265920)%Z).
      { unfold convolveFFT in E. destruct (nearestFFTnumber (Z.of_nat (Nat.max L (length (a_val x) + length (a_val y) - 1)))) eqn:F; [|discriminate E]. exact (near_bound _ _ F). }
      destruct (fft_uncached x y Full true true L u1 u2 0 (length (a_val x) + length (a_val y) - 1) Hx Hy B) as [r0 [E0 C0]]; [now split|constructor|].
      rewrite E0 in E. assert (r0 = r) by congruence. now subst r0.
    - unfold np_convolve. destruct (Nat.ltb_spec (length (a_val x)) (length (a_val y))).
      + destruct (Nat.eqb_spec (length (a_val x)) 0); [lia|]. cbn [bindR]. intros E. assert (conv_full (a_val y) (a_val x) = r) by congruence. subst r.
        destruct (conv_full_part (a_val y) (a_val x)) as [L1 C1]; try assumption. split; [lia|]. intros k Hk. rewrite C1 by lia. apply conv_coef_comm.
      + destruct (Nat.eqb_spec (length (a_val y)) 0); [lia|]. cbn [bindR]. intros E. assert (conv_full (a_val x) (a_val y) = r) by congruence. subst r. now apply conv_full_part. }
  destruct (G x y r Hx Hy E) as [L1 C1]. destruct (G y x r' Hy Hx E') as [L2 C2]. apply nth_ext with 0%R 0%R; [lia|]. intros k Hk. rewrite C1, C2 by lia. apply conv_coef_comm.
Qed.
(** the full convolution is the product of polynomials *)
Lemma poly_rsum l t : polyval l t = rsum (length l) (fun i => (nth i l 0 * t ^ i)%R).
Proof.
  induction l as [|a l IH]; [reflexivity|]. cbn [polyval length]. rewrite rsum_head. cbn [nth pow]. rewrite IH, <- rsum_scal. rewrite Rmult_1_r. f_equal. apply rsum_ext. intros. lra.
Qed.
Lemma conv_poly x y r t : 0 < length x -> 0 < length y -> conv_part x y 0 (length x + length y - 1) r -> polyval r t = (polyval x t * polyval y t)%R.
Proof.
  intros Hx Hy [L C]. rewrite !poly_rsum, L.
  rewrite (rsum_ext _ (fun i => nth i r 0 * t ^ i)%R (fun k => rsum (length x) (fun i => rsum (length y) (fun j => if (i + j =? k) then nth i x 0 * nth j y 0 * t ^ (i + j) else 0)))%R).
  - rewrite rsum_swap, rsum_mult. apply rsum_ext. intros i Hi. rewrite rsum_swap. apply rsum_ext. intros j Hj. rewrite (rsum_single _ _ (i + j)) by (first [lia|intros k _ Hk; destruct (Nat.eqb_spec (i + j) k); [lia|reflexivity]]).
    rewrite Nat.eqb_refl, pow_add. lra.
  - intros k Hk. rewrite C by exact Hk. cbn [Nat.add]. rewrite conv_coef_rsum, <- rsum_scal_r. apply rsum_ext. intros i _. rewrite <- rsum_scal_r. apply rsum_ext. intros j _.
    destruct (Nat.eqb_spec (i + j) k); [subst k; lra|lra].
Qed.
Theorem C41_polynomials x y L u1 u2 r t : 0 < length (a_val x) -> 0 < length (a_val y) ->
  (Z.of_nat (Nat.max L (length (a_val x) + length (a_val y) - 1)) <= 2013265920)%Z ->
  convolveFFT x y Full L None u1 u2 = Ok (Some r, None) -> polyval r t = (polyval (a_val x) t * polyval (a_val y) t)%R.
Proof.
  intros Hx Hy B E. destruct (fft_uncached x y Full true true L u1 u2 0 (length (a_val x) + length (a_val y) - 1) Hx Hy B) as [r0 [E0 C0]]; [now split|constructor|].
  rewrite E0 in E. assert (r0 = r) by congruence. subst r0. now apply conv_poly.
Qed.
(** arrays too large for the table of transform sizes are refused *)
Theorem C41_too_large x y mode L c u1 u2 : 1000 < Nat.min (length (a_val x)) (length (a_val y)) ->
  (2013265920 < Z.of_nat (Nat.max L (length (a_val x) + length (a_val y) - 1)))%Z -> convolve1D x y mode L c u1 u2 = Err IndexError.
Proof.
  intros H B. unfold convolve1D. destruct (Nat.ltb_spec 1000 (Nat.min (length (a_val x)) (length (a_val y)))); [|lia]. unfold convolveFFT. now rewrite C40_beyond.
Qed.
(** hypotheses hold for arrays on both sides of the switch, and the values are what one computes by hand *)
Example C41_ex_small : let x := mkArr 0 [1; 2; 3; 4]%R in let y := mkArr 1 [1; -1]%R in
  wants Same true false /\ part_of 4 2 true false 0 4 /\ exists r, convolve1D x y Same 0 None true true = Ok (Some r, None) /\ r = [1; 1; 1; 1]%R.
Proof.
  cbn zeta. split; [now split|]. split; [exact (part_same 4 2)|]. eexists. split; [reflexivity|]. cbn. repeat f_equal; unfold at_; cbn; lra.
Qed.
Example C41_ex_large : let x := mkArr 0 (repeat 1%R 1500) in let y := mkArr 1 (repeat 1%R 1001) in
  1000 < Nat.min (length (a_val x)) (length (a_val y)) /\ length (a_val y) <= length (a_val x) /\
  (Z.of_nat (Nat.max 0 (length (a_val x) + length (a_val y) - 1)) <= 2013265920)%Z /\ part_of (length (a_val x)) (length (a_val y)) false false 1000 500.
Proof. cbn [a_val]. rewrite !repeat_length. repeat split; try (vm_compute; discriminate || lia); try lia. exact (part_valid 1500 1001). Qed.
Example C41_ex_longer : let x := mkArr 0 [1; 2]%R in let y := mkArr 1 [1; 0; 0]%R in
  exists r, convolve1D x y Same 0 None true true = Ok (Some r, None) /\ length r = 3.
Proof. cbn zeta. eexists. split; reflexivity. Qed.

(** ** C64: cached transforms *)
Section Cache.
  Context (heap : nat -> list R).
  (** every array is the one its id stands for *)
  Definition lives (x : arr) : Prop := a_val x = heap (a_id x).
  Definition cache_ok (c : option cache) : Prop :=
    match c with None => True | Some m => forall f n i v, cget (f, n, i) m = Some v -> v = rfft (heap i) f end.
  Lemma key_refl k : ckey_eqb k k = true.
  Proof. unfold ckey_eqb. now rewrite !Nat.eqb_refl. Qed.
  Lemma key_eq a b : ckey_eqb a b = true -> a = b.
  Proof. destruct a as [[a1 a2] a3], b as [[b1 b2] b3]. unfold ckey_eqb. cbn [fst snd]. rewrite !andb_true_iff, !Nat.eqb_eq. intros [[-> ->] ->]. reflexivity. Qed.
  Lemma cached_spec c u x f : cache_ok c -> lives x -> fst (cached_rfft c u x f) = rfft (a_val x) f /\ cache_ok (snd (cached_rfft c u x f)).
  Proof.
    intros K X. unfold cached_rfft. destruct c as [m|]; [|now split]. destruct u; [|now split].
    destruct (cget _ m) eqn:E; cbn [fst snd].
    - split; [|exact K]. rewrite X. exact (K _ _ _ _ E).
    - split; [reflexivity|]. intros f' n' i' v. unfold cget. cbn [find fst]. destruct (ckey_eqb (f, length (a_val x), a_id x) (f', n', i')) eqn:Q.
      + apply key_eq in Q. injection Q as <- <- <-. cbn [option_map snd]. intros V. assert (v = rfft (a_val x) f) by congruence. subst v. now rewrite X.
      + apply K.
  Qed.
  (** one call: same result with and without the cache, and the cache stays right *)
  Lemma call_cached x y mode L c u1 u2 r c' : cache_ok c -> lives x -> lives y ->
    convolveFFT x y mode L c u1 u2 = Ok (r, c') -> convolveFFT x y mode L None u1 u2 = Ok (r, None) /\ cache_ok c'.
  Proof.
    intros K X Y. unfold convolveFFT. destruct (nearestFFTnumber _) as [fz|]; [|discriminate]. cbn [bindR]. cbn zeta.
    destruct (cached_spec c u2 y (Z.to_nat fz) K Y) as [E1 K1]. destruct (cached_rfft c u2 y (Z.to_nat fz)) as [yf c1]. cbn [fst snd] in E1, K1.
    destruct (cached_spec c1 u1 x (Z.to_nat fz) K1 X) as [E2 K2]. destruct (cached_rfft c1 u1 x (Z.to_nat fz)) as [xf c2]. cbn [fst snd] in E2, K2.
    cbn [cached_rfft]. subst yf xf. destruct (irfft _) as [r0|]; [|discriminate]. cbn [bindR]. intros E.
    assert (c2 = c') by congruence. subst c'. split; [|exact K2]. assert (Q : forall (a b : option (list R)), Ok (a, c2) = Ok (b, c2) -> Ok (a, @None cache) = Ok (b, None)) by congruence.
    apply Q in E. exact E.
  Qed.
End Cache.
(** a sequence of calls sharing one cache *)
Record ccall := mkCC { cc_x : arr; cc_y : arr; cc_mode : cmode; cc_largest : nat; cc_u1 : bool; cc_u2 : bool }.
Definition run_call (c : option cache) (k : ccall) := convolveFFT (cc_x k) (cc_y k) (cc_mode k) (cc_largest k) c (cc_u1 k) (cc_u2 k).
Fixpoint run_calls (c : option cache) (ks : list ccall) : res (list (option (list R))) :=
  match ks with
  | [] => Ok []
  | k :: ks' => bindR (run_call c k) (fun rc => bindR (run_calls (snd rc) ks') (fun l => Ok (fst rc :: l)))
  end.
(** as long as an id always stands for the same array, a shared cache changes no result *)
Theorem C64_cache_transparent heap ks : (forall k, In k ks -> lives heap (cc_x k) /\ lives heap (cc_y k)) ->
  forall rs, run_calls (Some []) ks = Ok rs -> Forall2 (fun k r => run_call None k = Ok (r, None)) ks rs.
Proof.
  intros A. assert (G : forall c rs, cache_ok heap c -> run_calls c ks = Ok rs -> Forall2 (fun k r => run_call None k = Ok (r, None)) ks rs).
  { revert A. induction ks as [|k ks IH]; intros A c rs K; cbn [run_calls].
    - intros E. assert (rs = []) by congruence. subst rs. constructor.
    - destruct (run_call c k) as [[r c1]|] eqn:E1; [|discriminate]. cbn [bindR fst snd]. destruct (run_calls c1 ks) as [l|] eqn:E2; [|discriminate]. cbn [bindR].
      intros E. assert (rs = r :: l) by congruence. subst rs. destruct (A k (or_introl eq_refl)) as [X Y]. destruct (call_cached heap _ _ _ _ _ _ _ _ _ K X Y E1) as [E3 K1].
      constructor; [exact E3|]. apply (IH (fun k' I => A k' (or_intror I)) c1 l K1 E2). }
  intros rs. apply G. cbn. intros f n i v. discriminate.
Qed.
(** a failure does not depend on the cache either *)
Theorem C64_cache_errors heap x y mode L m u1 u2 e : cache_ok heap (Some m) -> lives heap x -> lives heap y ->
  (convolveFFT x y mode L (Some m) u1 u2 = Err e <-> convolveFFT x y mode L None u1 u2 = Err e).
Proof.
  intros K X Y. unfold convolveFFT. destruct (nearestFFTnumber _) as [fz|]; [|cbn [bindR]; split; congruence]. cbn [bindR]. cbn zeta.
  destruct (cached_spec heap (Some m) u2 y (Z.to_nat fz) K Y) as [E1 K1]. destruct (cached_rfft (Some m) u2 y (Z.to_nat fz)) as [yf c1]. cbn [fst snd] in E1, K1.
  destruct (cached_spec heap c1 u1 x (Z.to_nat fz) K1 X) as [E2 K2]. destruct (cached_rfft c1 u1 x (Z.to_nat fz)) as [xf c2]. cbn [fst snd] in E2, K2.
  cbn [cached_rfft]. subst yf xf. destruct (irfft _) as [r0|]; cbn [bindR]; split; congruence.
Qed.
(** FINDING (the source warns of it): an id used again for another array of the same length gives the old array's convolution *)
Theorem C64_reused_id_refuted : exists x x' y c r, a_id x = a_id x' /\ run_call (Some []) (mkCC x y Full 0 true true) = Ok (Some r, c) /\
  run_call c (mkCC x' y Full 0 true true) = Ok (Some r, c) /\ ~ conv_part (a_val x') (a_val y) 0 1 r.
Proof.
  set (x := mkArr 0 [1%R]). set (x' := mkArr 0 [2%R]). set (y := mkArr 1 [1%R]).
  pose proof near_two as N1.
  destruct (irfft_full [1%R] [1%R] 2) as [r [E C]]; [lia|reflexivity|cbn; lia|].
  exists x, x', y, (Some [((2, 1, 0), rfft [1%R] 2); ((2, 1, 1), rfft [1%R] 2)]), (slice 0 1 r). split; [reflexivity|]. split; [|split].
  - unfold run_call, convolveFFT. cbn [cc_x cc_y cc_mode cc_largest cc_u1 cc_u2 a_val x y length]. change (1 + 1 - 1) with 1. rewrite N1. cbn [bindR]. cbn zeta. change (Z.to_nat 2) with 2.
    change (cached_rfft (Some []) true y 2) with (rfft [1%R] 2, Some [((2, 1, 1), rfft [1%R] 2)]). cbv beta iota.
    change (cached_rfft (Some [((2, 1, 1), rfft [1%R] 2)]) true x 2) with (rfft [1%R] 2, Some [((2, 1, 0), rfft [1%R] 2); ((2, 1, 1), rfft [1%R] 2)]). cbv beta iota.
    rewrite E. reflexivity.
  - unfold run_call, convolveFFT. cbn [cc_x cc_y cc_mode cc_largest cc_u1 cc_u2 a_val x' y length]. change (1 + 1 - 1) with 1. rewrite N1. cbn [bindR]. cbn zeta. change (Z.to_nat 2) with 2.
    set (cc := Some [((2, 1, 0), rfft [1%R] 2); ((2, 1, 1), rfft [1%R] 2)]).
    change (cached_rfft cc true y 2) with (rfft [1%R] 2, cc). cbv beta iota. change (cached_rfft cc true x' 2) with (rfft [1%R] 2, cc). cbv beta iota.
    rewrite E. reflexivity.
  - apply (part_firstn _ _ _ _ _ 1) in C; [|lia]. intros [_ C']. destruct C as [_ C]. specialize (C 0 ltac:(lia)). specialize (C' 0 ltac:(lia)). rewrite C in C'.
    unfold conv_coef, pairs_at in C'. cbn in C'. lra.
Qed.
Example C64_ex : let h i := match i with 0 => [1; 2]%R | _ => [3]%R end in
  forall k, In k [mkCC (mkArr 0 (h 0)) (mkArr 1 (h 1)) Full 0 true true; mkCC (mkArr 1 (h 1)) (mkArr 0 (h 0)) Same 0 true false] -> lives h (cc_x k) /\ lives h (cc_y k).
Proof. cbn zeta. intros k [<-|[<-|[]]]; split; reflexivity. Qed.

(** ** C65: two dimensions *)
(** [r] is the part of the convolution of [x] and [y] that starts at (i0, j0) and has n rows and m columns *)
Definition conv_part2 (x y : mat) (i0 j0 n m : nat) (r : mat) : Prop :=
  m_rows r = n /\ m_cols r = m /\ forall i j, i < n -> j < m ->
  m_at r i j = conv_coef2 (m_rows x) (m_rows y) (m_cols x) (m_cols y) (m_at x) (m_at y) (i0 + i) (j0 + j).
Theorem C65_convolve2D x y mode f l L i0 n j0 m : 0 < m_rows x -> 0 < m_rows y -> 0 < m_cols x -> 0 < m_cols y ->
  (Z.of_nat (Nat.max L (m_rows x + m_rows y - 1)) <= 2013265920)%Z -> (Z.of_nat (Nat.max L (m_cols x + m_cols y - 1)) <= 2013265920)%Z ->
  wants mode f l -> part_of (m_rows x) (m_rows y) f l i0 n -> part_of (m_cols x) (m_cols y) f l j0 m ->
  exists r, convolve2D x y mode L = Ok (Some r) /\ conv_part2 x y i0 j0 n m r.
Proof.
  intros X1 Y1 X2 Y2 B1 B2 W P1 P2. destruct (near_total _ B1) as [f0 F0]. destruct (near_total _ B2) as [f1 F1].
  destruct (near_nat _ _ F0) as [G1 [G2 _]]. destruct (near_nat _ _ F1) as [G3 [G4 _]].
  unfold convolve2D. rewrite F0, F1. cbn [bindR]. cbn zeta. set (N := Z.to_nat f0) in *. set (M := Z.to_nat f1) in *. clearbody N M. clear F0 F1.
  assert (A : forall i j, i < m_rows x + m_rows y - 1 -> j < m_cols x + m_cols y - 1 ->
     irfft2_at N M (fun k l => cmul (rfft2_at N M x k l) (rfft2_at N M y k l)) i j = conv_coef2 (m_rows x) (m_rows y) (m_cols x) (m_cols y) (m_at x) (m_at y) i j).
  { intros i j Hi Hj. apply irfft2_prod; try assumption; lia. }
  set (ff := irfft2_at N M _) in *. clearbody ff.
  destruct P1; inversion P2; subst; destruct mode; cbn in W; destruct W; try discriminate; eexists; (split; [reflexivity|]).
  - split; [reflexivity|]. split; [reflexivity|]. intros i j Hi Hj. cbn [m_at]. now apply A.
  - assert (D1 : (m_rows y - 1) / 2 <= m_rows y - 1) by (apply Nat.div_le_upper_bound; lia). assert (D2 : (m_cols y - 1) / 2 <= m_cols y - 1) by (apply Nat.div_le_upper_bound; lia).
    assert (S1 : centered_start (Z.of_nat (m_rows x + m_rows y - 1)) (Z.of_nat (m_rows x)) = Z.of_nat ((m_rows y - 1) / 2)).
    { unfold centered_start. rewrite Nat2Z.inj_div. f_equal. lia. }
    assert (S2 : centered_start (Z.of_nat (m_cols x + m_cols y - 1)) (Z.of_nat (m_cols x)) = Z.of_nat ((m_cols y - 1) / 2)).
    { unfold centered_start. rewrite Nat2Z.inj_div. f_equal. lia. }
    unfold centered. cbn [m_rows m_cols]. rewrite S1, S2. unfold conv_part2, slice2. cbn [m_rows m_cols m_at].
    split; [lia|]. split; [lia|]. intros i j Hi Hj. rewrite !Nat2Z.id. apply A; lia.
  - assert (S1 : centered_start (Z.of_nat (m_rows x + m_rows y - 1)) (Z.of_nat (m_rows x) - Z.of_nat (m_rows y) + 1) = Z.of_nat (m_rows y - 1)).
    { unfold centered_start. symmetry. apply Z.div_unique with 0%Z; lia. }
    assert (S2 : centered_start (Z.of_nat (m_cols x + m_cols y - 1)) (Z.of_nat (m_cols x) - Z.of_nat (m_cols y) + 1) = Z.of_nat (m_cols y - 1)).
    { unfold centered_start. symmetry. apply Z.div_unique with 0%Z; lia. }
    unfold centered. cbn [m_rows m_cols]. rewrite S1, S2. unfold conv_part2, slice2. cbn [m_rows m_cols m_at].
    split; [lia|]. split; [lia|]. intros i j Hi Hj. rewrite !Nat2Z.id. apply A; lia.
Qed.
(** smoothing a delta function gives the kernel *)
Theorem C65_delta y L r : 0 < m_rows y -> 0 < m_cols y -> convolve2D (mkMat 1 1 (fun _ _ => 1%R)) y Full L = Ok (Some r) ->
  m_rows r = m_rows y /\ m_cols r = m_cols y /\ forall i j, i < m_rows y -> j < m_cols y -> m_at r i j = m_at y i j.
Proof.
  intros H1 H2 E.
  assert (B1 : (Z.of_nat (Nat.max L (m_rows (mkMat 1 1 (fun _ _ => 1%R)) + m_rows y - 1)) <= 2013265920)%Z).
  { unfold convolve2D in E. destruct (nearestFFTnumber (Z.of_nat (Nat.max L (m_rows (mkMat 1 1 (fun _ _ => 1%R)) + m_rows y - 1)))) as [a|] eqn:Fa; [exact (near_bound _ _ Fa)|discriminate E]. }
  assert (B2 : (Z.of_nat (Nat.max L (m_cols (mkMat 1 1 (fun _ _ => 1%R)) + m_cols y - 1)) <= 2013265920)%Z).
  { unfold convolve2D in E. destruct (nearestFFTnumber (Z.of_nat (Nat.max L (m_rows (mkMat 1 1 (fun _ _ => 1%R)) + m_rows y - 1)))) as [a|]; [|discriminate E].
    cbn [bindR] in E. destruct (nearestFFTnumber (Z.of_nat (Nat.max L (m_cols (mkMat 1 1 (fun _ _ => 1%R)) + m_cols y - 1)))) as [b|] eqn:Fb; [exact (near_bound _ _ Fb)|discriminate E]. }
  destruct (C65_convolve2D (mkMat 1 1 (fun _ _ => 1%R)) y Full true true L 0 (1 + m_rows y - 1) 0 (1 + m_cols y - 1)) as [r0 [E0 [R1 [R2 R3]]]];
    try assumption; try (cbn; lia); try (now split); try exact (part_full 1 _).
  rewrite E0 in E. assert (r0 = r) by congruence. subst r0. replace (1 + m_rows y - 1) with (m_rows y) in * by lia. replace (1 + m_cols y - 1) with (m_cols y) in * by lia.
  split; [exact R1|]. split; [exact R2|]. intros i j Hi Hj. rewrite R3 by assumption. cbn [m_rows m_cols m_at Nat.add].
  unfold conv_coef2.
  assert (PA : forall m k, k < m -> pairs_at 1 m k = [(0, k)]).
  { clear. intros m k Hk. unfold pairs_at. cbn [seq list_prod]. rewrite app_nil_r. replace m with (k + (1 + (m - k - 1))) by lia. rewrite !seq_app, !map_app, !filter_app. cbn [seq map filter fst snd Nat.add]. rewrite Nat.eqb_refl.
    assert (Z1 : forall l : list nat, (forall a, In a l -> a <> k) -> filter (fun p => fst p + snd p =? k) (map (fun b => (0, b)) l) = []).
    { induction l as [|a l IH]; intros H; [reflexivity|]. cbn [map filter fst snd Nat.add]. destruct (Nat.eqb_spec a k) as [->|_]; [exfalso; apply (H k); [now left|reflexivity]|]. apply IH. intros b Hb. apply H. now right. }
    rewrite !Z1; [reflexivity| |]; intros a Ha; apply in_seq in Ha; lia. }
  rewrite !PA by assumption. cbn. lra.
Qed.
Example C65_ex : let x := mkMat 3 4 (fun i j => INR (i + j)) in let y := mkMat 2 2 (fun _ _ => 1%R) in
  0 < m_rows x /\ 0 < m_cols y /\ (Z.of_nat (Nat.max 0 (m_rows x + m_rows y - 1)) <= 2013265920)%Z /\ part_of (m_rows x) (m_rows y) false false 1 2 /\ part_of (m_cols x) (m_cols y) false false 1 3.
Proof. cbn zeta. cbn [m_rows m_cols]. repeat split; try lia; [exact (part_valid 3 2)|exact (part_valid 4 2)]. Qed.

(** ** C66: auto-convolution *)
Lemma auto_entries x s : 0 < length x -> 2 * length x <= s -> Nat.even s = true ->
  forall k, k <= length x -> nth k (idct1 (power (pack_rfft x s))) 0%R = (INR s * lag_sum x k)%R.
Proof.
  intros Hx L E k Hk. apply Nat.even_spec in E. destruct E as [h E]. subst s. rewrite power_spec by lia. rewrite idct_auto by lia. apply auto_sum; lia.
Qed.
(** result[k] = sum_i x_i x_{i+k}, divided by the number of terms if asked *)
Theorem C66_autoConvolve x n normalize : 0 < length x -> (2 * Z.of_nat (length x) <= 2013265920)%Z ->
  match n with Some k => k <= length x | None => True end ->
  exists r, autoConvolve x n normalize = Ok r /\ length r = (match n with Some (S k) => S k | _ => length x end) /\
  forall k, k < length r -> nth k r 0%R = (lag_sum x k / (if normalize then INR (length x - k) else 1))%R.
Proof.
  intros Hx B Hn. unfold autoConvolve. replace (2 * Z.of_nat (length x))%Z with (Z.of_nat (2 * length x)) in * by lia.
  destruct (near_total _ B) as [sz F]. destruct (near_nat _ _ F) as [G1 [G2 G3]]. rewrite F. cbn [bindR]. cbn zeta. set (s := Z.to_nat sz) in *. clearbody s. clear F.
  set (n' := match n with Some (S k) => S k | _ => length x end). assert (Hn' : n' <= length x) by (subst n'; destruct n as [[|k]|]; lia).
  assert (Ll : length (idct1 (power (pack_rfft x s))) = s / 2 + 1).
  { unfold idct1, power, pack_rfft. now rewrite ?map_length, ?seq_length, ?map_length, ?seq_length, ?map_length, ?seq_length. }
  assert (Hs : length x <= s / 2) by (apply Nat.div_le_lower_bound; lia).
  assert (Lr : length (map (fun v => v / INR s)%R (firstn n' (idct1 (power (pack_rfft x s))))) = n') by (rewrite map_length, firstn_length; lia).
  assert (V : forall k, k < n' -> nth k (map (fun v => v / INR s)%R (firstn n' (idct1 (power (pack_rfft x s))))) 0%R = lag_sum x k).
  { intros k Hk. rewrite (nth_indep _ 0%R ((fun v => v / INR s)%R 0%R)) by lia. rewrite (map_nth (fun v => v / INR s)%R).
    destruct (slice_spec 0%R 0 n' (idct1 (power (pack_rfft x s)))) as [_ SP]; [lia|lia|]. unfold slice in SP. cbn [skipn] in SP. rewrite SP by lia. cbn [Nat.add].
    rewrite auto_entries by (assumption || lia). field. apply not_0_INR. lia. }
  set (r := map _ (firstn n' _)) in *. clearbody r. destruct normalize.
  - rewrite Lr, Nat.eqb_refl. eexists. split; [reflexivity|]. rewrite map_length, combine_length, seq_length, Lr, Nat.min_id. split; [reflexivity|]. intros k Hk.
    rewrite (nth_indep _ 0%R ((fun p => snd p / (INR (length x) - INR (fst p)))%R (0, 0%R))) by (rewrite map_length, combine_length, seq_length; lia).
    rewrite (map_nth (fun p => (snd p / (INR (length x) - INR (fst p)))%R)). rewrite combine_nth by (rewrite seq_length; lia). cbn [fst snd]. rewrite seq_nth by exact Hk. cbn [Nat.add].
    rewrite V by exact Hk. rewrite minus_INR by lia. reflexivity.
  - exists r. split; [reflexivity|]. split; [exact Lr|]. intros k Hk. rewrite V by lia. field.
Qed.
(** lag 0 is the sum of squares, which no other lag exceeds *)
Lemma lag0 x : lag_sum x 0 = rsum (length x) (fun i => (nth i x 0 * nth i x 0)%R).
Proof. unfold lag_sum. rewrite rsum_list, Nat.sub_0_r. apply rsum_ext. intros. now rewrite Nat.add_0_r. Qed.
Lemma rsum_le n f g : (forall i, i < n -> (f i <= g i)%R) -> (rsum n f <= rsum n g)%R.
Proof. induction n as [|n IH]; intros H; cbn [rsum]; [lra|]. pose proof (IH ltac:(intros; apply H; lia)). pose proof (H n ltac:(lia)). lra. Qed.
Lemma lag_bound x k : (Rabs (lag_sum x k) <= lag_sum x 0)%R.
Proof.
  rewrite lag0. unfold lag_sum. rewrite rsum_list. set (n := length x). set (a := fun i => nth i x 0%R).
  assert (S1 : (rsum (n - k) (fun i => a i * a i) <= rsum n (fun i => a i * a i))%R).
  { replace n with ((n - k) + (n - (n - k))) at 2 by lia. rewrite rsum_split. assert (0 <= rsum (n - (n - k)) (fun i => a (n - k + i)%nat * a (n - k + i)%nat))%R; [|lra].
    rewrite <- (rsum_zero (n - (n - k)) (fun _ => 0%R)) by reflexivity. apply rsum_le. intros. nra. }
  assert (S2 : (rsum (n - k) (fun i => a (i + k)%nat * a (i + k)%nat) <= rsum n (fun i => a i * a i))%R).
  { destruct (Nat.le_gt_cases k n) as [L|L].
    - replace n with (k + (n - k)) at 2 by lia. rewrite rsum_split. rewrite (rsum_ext (n - k) (fun i => a (i + k)%nat * a (i + k)%nat)%R (fun i => a (k + i)%nat * a (k + i)%nat)%R) by (intros; now rewrite Nat.add_comm).
      assert (0 <= rsum k (fun i => a i * a i))%R; [|lra]. rewrite <- (rsum_zero k (fun _ => 0%R)) by reflexivity. apply rsum_le. intros. nra.
    - replace (n - k) with 0 by lia. cbn [rsum]. rewrite <- (rsum_zero n (fun _ => 0%R)) by reflexivity. apply rsum_le. intros. nra. }
  assert (U : (rsum (n - k) (fun i => a i * a (i + k)%nat) <= / 2 * (rsum (n - k) (fun i => a i * a i) + rsum (n - k) (fun i => a (i + k)%nat * a (i + k)%nat)))%R).
  { rewrite <- rsum_plus, <- rsum_scal. apply rsum_le. intros i _. pose proof (Rle_0_sqr (a i - a (i + k)%nat)) as Q. unfold Rsqr in Q. lra. }
  assert (D : (- rsum (n - k) (fun i => a i * a (i + k)%nat) <= / 2 * (rsum (n - k) (fun i => a i * a i) + rsum (n - k) (fun i => a (i + k)%nat * a (i + k)%nat)))%R).
  { rewrite <- rsum_opp, <- rsum_plus, <- rsum_scal. apply rsum_le. intros i _. pose proof (Rle_0_sqr (a i + a (i + k)%nat)) as Q. unfold Rsqr in Q. lra. }
  unfold a in *. apply Rabs_le. lra.
Qed.
Theorem C66_largest_at_zero x n r k : 0 < length x -> (2 * Z.of_nat (length x) <= 2013265920)%Z -> match n with Some k => k <= length x | None => True end ->
  autoConvolve x n false = Ok r -> k < length r -> (Rabs (nth k r 0) <= nth 0 r 0)%R.
Proof.
  intros Hx B Hn E Hk. destruct (C66_autoConvolve x n false Hx B Hn) as [r0 [E0 [_ V]]]. rewrite E0 in E. assert (r0 = r) by congruence. subst r0.
  rewrite !V by lia. replace (lag_sum x k / 1)%R with (lag_sum x k) by field. replace (lag_sum x 0 / 1)%R with (lag_sum x 0) by field. apply lag_bound.
Qed.
(** the auto-correlation: 1 at lag 0 unless all numbers are equal, and unchanged by shifting the data *)
Theorem C66_autoCorrelation x mu : 0 < length x -> (2 * Z.of_nat (length x) <= 2013265920)%Z ->
  (INR (length x) * mu = fold_right Rplus 0 x)%R ->  (* mu is the mean *)
  let z := map (fun v => v - mu)%R x in lag_sum z 0 <> 0%R ->
  exists r, autoCorrelation x None true 0 = Ok r /\ length r = length x /\ nth 0 r 0%R = 1%R /\
  forall k, k < length x -> nth k r 0%R = (lag_sum z k / lag_sum z 0 * (INR (length x) / INR (length x - k)))%R.
Proof.
  intros Hx B Hm z Hz. assert (Em : mean x = mu).
  { unfold mean. assert (Es : rsum (length x) (at_ x) = fold_right Rplus 0%R x).
    { clear. induction x as [|a x IH]; [reflexivity|]. cbn [length fold_right]. rewrite rsum_head. unfold at_ in *. cbn [nth].
      f_equal. rewrite <- IH. apply rsum_ext. intros i Hi. reflexivity. }
    rewrite Es, <- Hm. field. apply not_0_INR. lia. }
  unfold autoCorrelation. rewrite Em. fold z. assert (Lz : length z = length x) by (unfold z; now rewrite map_length).
  destruct (C66_autoConvolve z None true) as [r [E [L V]]]; [lia|rewrite Lz; exact B|exact I|]. rewrite E. cbn [bindR].
  destruct r as [|r0 r']; [cbn in L; lia|]. eexists. split; [reflexivity|]. cbn [skipn].
  assert (P : (INR (length x) <> 0)%R) by (apply not_0_INR; lia).
  assert (R0 : r0 = (lag_sum z 0 / INR (length x))%R). { specialize (V 0 ltac:(cbn; lia)). cbn [nth] in V. rewrite V, Nat.sub_0_r, Lz. reflexivity. }
  assert (N : forall k, k < length x -> nth k (map (fun v => v / r0)%R (r0 :: r')) 0%R = (lag_sum z k / lag_sum z 0 * (INR (length x) / INR (length x - k)))%R).
  { intros k Hk. rewrite (nth_indep _ 0%R ((fun v => v / r0)%R 0%R)) by (rewrite map_length; lia). rewrite (map_nth (fun v => v / r0)%R), V by lia. rewrite Lz, R0. field.
    repeat split; try assumption. apply not_0_INR. lia. }
  split; [now rewrite map_length, L, Lz|]. split; [|exact N]. rewrite N by exact Hx. rewrite Nat.sub_0_r. field. now split.
Qed.
(** a requested length beyond the largest transform fails (between the number of samples and half the transform the source
    divides by zero and by negative counts, which is not modelled) *)
Theorem C66_too_long : forall x n, 0 < length x -> (2 * Z.of_nat (length x) <= 2013265920)%Z ->
  (2013265920 < Z.of_nat n)%Z -> autoConvolve x (Some n) true = Err ValueError.
Proof.
  intros x n Hx B Hn. unfold autoConvolve. replace (2 * Z.of_nat (length x))%Z with (Z.of_nat (2 * length x)) in * by lia.
  destruct (near_total _ B) as [sz F]. rewrite F. cbn [bindR]. cbn zeta.
  pose proof (near_max _ _ F) as M.
  set (s := Z.to_nat sz) in *. assert (S1 : (Z.of_nat s <= 2013265920)%Z) by lia. clearbody s. clear F.
  assert (Ll : length (idct1 (power (pack_rfft x s))) = s / 2 + 1).
  { unfold idct1, power, pack_rfft. now rewrite ?map_length, ?seq_length, ?map_length, ?seq_length, ?map_length, ?seq_length. }
  destruct n as [|n]; [lia|]. rewrite map_length, firstn_length, Ll. assert (s / 2 <= s) by (apply Nat.div_le_upper_bound; lia).
  destruct (Nat.eqb_spec (Nat.min (S n) (s / 2 + 1)) (S n)) as [Q|_]; [|reflexivity]. exfalso. assert (s / 2 * 2 <= s) by (rewrite Nat.mul_comm; apply Nat.mul_div_le; lia). lia.
Qed.
Example C66_ex : 0 < length [1; 2; 4]%R /\ lag_sum [1; 2; 4]%R 1 = 10%R /\ lag_sum (map (fun v => v - mean [1; 2; 3]) [1; 2; 3])%R 0 <> 0%R.
Proof. split; [cbn; lia|]. split; [unfold lag_sum; cbn; lra|]. unfold lag_sum, mean, at_. cbn. lra. Qed.

(** ** C67: smoothing by a truncated Gaussian *)
Lemma window_length s f : length (window s f) = 2 * f + 1.
Proof. unfold window. now rewrite !map_length, seq_length. Qed.
Definition weight (s : R) (f i : nat) : R := exp (- ((INR i - INR f) / s) ^ 2 / 2).
Lemma window_nth s f i : i < 2 * f + 1 -> nth i (window s f) 0%R = (weight s f i / rsum (2 * f + 1) (weight s f))%R.
Proof.
  intros H. unfold window. set (w := map _ (seq 0 (2 * f + 1))). rewrite (nth_indep _ 0%R ((fun v => v / rsum (2 * f + 1) (at_ w))%R 0%R)) by (rewrite map_length; unfold w; rewrite map_length, seq_length; exact H).
  rewrite (map_nth (fun v => v / rsum (2 * f + 1) (at_ w))%R). assert (E : forall j, j < 2 * f + 1 -> nth j w 0%R = weight s f j) by (intros j Hj; unfold w; rewrite nth_map_seq by exact Hj; reflexivity).
  rewrite E by exact H. f_equal. apply rsum_ext. intros j Hj. unfold at_. now apply E.
Qed.
Lemma weight_pos s f i : (0 < weight s f i)%R.
Proof. apply exp_pos. Qed.
Lemma rsum_pos n f : 0 < n -> (forall i, i < n -> (0 < f i)%R) -> (0 < rsum n f)%R.
Proof. induction n as [|n IH]; intros Hn H; [lia|]. cbn [rsum]. destruct n; [cbn; pose proof (H 0 ltac:(lia)); lra|]. pose proof (IH ltac:(lia) ltac:(intros; apply H; lia)). pose proof (H (S n) ltac:(lia)). lra. Qed.
(** the kernel: positive, symmetric, largest in the middle, of sum 1 *)
Theorem C67_kernel s f : let w := window s f in
  length w = 2 * f + 1 /\ (forall i, i < 2 * f + 1 -> (0 < nth i w 0)%R /\ nth i w 0%R = nth (2 * f - i) w 0%R) /\ sum_list w = 1%R.
Proof.
  cbn zeta. assert (P : (0 < rsum (2 * f + 1) (weight s f))%R) by (apply rsum_pos; [lia|intros; apply weight_pos]).
  split; [apply window_length|]. split.
  - intros i Hi. rewrite !window_nth by lia. split; [apply Rdiv_lt_0_compat; [apply weight_pos|exact P]|]. f_equal. unfold weight. do 2 f_equal.
    rewrite minus_INR, mult_INR by lia. change (INR 2) with 2%R. unfold Rdiv. f_equal.
    replace ((2 * INR f - INR i - INR f) * / s)%R with (- ((INR i - INR f) * / s))%R by lra. rewrite <- Rsqr_pow2, <- Rsqr_pow2. apply Rsqr_neg.
  - transitivity (rsum (2 * f + 1) (fun i => nth i (window s f) 0%R)).
    + rewrite <- rsum_list. f_equal. apply nth_ext with 0%R 0%R; [now rewrite map_length, seq_length, window_length|]. intros n Hn. rewrite window_length in Hn. now rewrite nth_map_seq.
    + rewrite (rsum_ext _ _ (fun i => weight s f i * / rsum (2 * f + 1) (weight s f))%R) by (intros; rewrite window_nth by assumption; reflexivity). rewrite rsum_scal_r. field. lra.
Qed.
(** the result is the exact linear convolution with that kernel; 'same' and 'valid' need a kernel of more than one point *)
Theorem C67_trunc x s f mode fi la start len : 0 < length x -> (Z.of_nat (length x + 2 * f) <= 2013265920)%Z -> (0 < f \/ mode = Full) ->
  wants mode fi la -> part_of (length x) (2 * f + 1) fi la start len ->
  exists r, convolveGaussianTrunc x s f mode = Ok (Some r) /\ conv_part x (window s f) start len r.
Proof.
  intros Hx B Hf W P. destruct (near_total _ B) as [sz F]. destruct (near_nat _ _ F) as [G1 [G2 G3]]. unfold convolveGaussianTrunc. rewrite F. cbn [bindR]. cbn zeta.
  set (N := Z.to_nat sz) in *. clearbody N. unfold irfft_n. destruct (Nat.eqb_spec N 0); [lia|]. cbn [bindR].
  assert (C0 : conv_part x (window s f) 0 N (map (irfft_at (cprod (rfft x N) (rfft (window s f) N)) N) (seq 0 N))).
  { split; [now rewrite map_length, seq_length|]. intros k Hk. rewrite nth_map_seq by exact Hk. apply irfft_prod; [lia|exact Hk|]. rewrite window_length. lia. }
  set (r0 := map _ (seq 0 N)) in *. clearbody r0. apply (part_firstn _ _ _ _ _ (length x + 2 * f)) in C0; [|lia]. set (r := slice 0 _ r0) in *. clearbody r.
  assert (Lr : length r = length x + 2 * f) by apply C0.
  destruct P, mode; cbn in W; destruct W; try discriminate; eexists; (split; [reflexivity|]).
  - replace (length x + (2 * f + 1) - 1) with (length x + 2 * f) by lia. exact C0.
  - destruct Hf as [Hf|Hf]; [|discriminate]. unfold slice_neg. destruct (Nat.eqb_spec f 0); [lia|]. rewrite Lr.
    replace ((2 * f + 1 - 1) / 2) with f by (apply Nat.div_unique with 0; lia).
    pose proof (part_slice _ _ 0 _ r f (length x + 2 * f - f) C0) as Q. cbn [Nat.add] in Q. replace (length x + 2 * f - f - f) with (length x) in Q by lia. apply Q. lia.
  - destruct Hf as [Hf|Hf]; [|discriminate]. unfold slice_neg. destruct (Nat.eqb_spec (2 * f) 0); [lia|]. rewrite Lr. replace (2 * f + 1 - 1) with (2 * f) by lia.
    destruct (Nat.le_gt_cases (2 * f) (length x)) as [D|D].
    + pose proof (part_slice _ _ 0 _ r (2 * f) (length x + 2 * f - 2 * f) C0) as Q. cbn [Nat.add] in Q. replace (length x + 1 - (2 * f + 1)) with (length x + 2 * f - 2 * f - 2 * f) by lia. apply Q. lia.
    + rewrite slice_empty by lia. replace (length x + 1 - (2 * f + 1)) with 0 by lia. split; [reflexivity|lia].
Qed.
(** smoothing keeps the total *)
Theorem C67_total x s f r : 0 < length x -> (Z.of_nat (length x + 2 * f) <= 2013265920)%Z ->
  convolveGaussianTrunc x s f Full = Ok (Some r) -> sum_list r = sum_list x.
Proof.
  intros Hx B E. destruct (C67_trunc x s f Full true true 0 (length x + (2 * f + 1) - 1) Hx B) as [r0 [E0 C]]; [now right|now split|constructor|].
  rewrite E0 in E. assert (r0 = r) by congruence. subst r0. rewrite <- (window_length s f) in C. pose proof (conv_poly x (window s f) r 1 Hx ltac:(rewrite window_length; lia) C) as Q.
  assert (PS : forall l, polyval l 1 = sum_list l). { induction l as [|a l IH]; [reflexivity|]. cbn [polyval]. rewrite IH, sum_list_cons. lra. }
  rewrite !PS in Q. destruct (C67_kernel s f) as [_ [_ K]]. rewrite K in Q. lra.
Qed.
(** FINDING: for a width below 1/sigma_range of a pixel (fill = 0) 'same' and 'valid' return nothing at all *)
Theorem C67_narrow_refuted x s : (Z.of_nat (length x) <= 2013265920)%Z ->
  convolveGaussianTrunc x s 0 Same = Ok (Some []) /\ convolveGaussianTrunc x s 0 Valid = Ok (Some []).
Proof.
  intros B. destruct (near_total _ B) as [sz F]. destruct (near_nat _ _ F) as [G1 [G2 G3]]. unfold convolveGaussianTrunc. rewrite Nat.mul_0_r, Nat.add_0_r, F. cbn [bindR]. cbn zeta. unfold irfft_n.
  destruct (Nat.eqb_spec (Z.to_nat sz) 0); [lia|]. cbn [bindR]. split; reflexivity.
Qed.
Example C67_ex : 0 < length [1; 0; 2]%R /\ (Z.of_nat (length [1; 0; 2]%R + 2 * 4) <= 2013265920)%Z /\ part_of (length [1; 0; 2]%R) (2 * 4 + 1) true false 4 3.
Proof. split; [cbn; lia|]. split; [cbn; lia|]. exact (part_same 3 9). Qed.

Print Assumptions C41_convolve1D.
Print Assumptions C64_cache_transparent.
Print Assumptions C65_convolve2D.
Print Assumptions C66_autoCorrelation.
Print Assumptions C67_total.
