(** C133: the smoothed density of one parameter (get1DDensityGridData). *)
From Coq Require Import Reals ZArith Bool Lia Lra Arith List.
From Verif Require Import PyStr PyBase ConvModel ConvSpec ConvProofs ConvProps KdeModel KdeSpec KdeProofs.
Import ListNotations.
Local Open Scope R_scope.

(** ** Width and kernel *)
Lemma round_near x : Rabs (IZR (py_round x) - x) <= 1 / 2.
Proof.
  unfold py_round. destruct (base_Int_part x) as (A & B). destruct (Rlt_dec _ _); [apply Rabs_le; lra |]. destruct (Rlt_dec _ _); [rewrite plus_IZR; apply Rabs_le; lra |]. destruct (Z.even _); [| rewrite plus_IZR]; apply Rabs_le; lra.
Qed.
Lemma round_half_even x : Rabs (IZR (py_round x) - x) = 1 / 2 -> Z.even (py_round x) = true.
Proof.
  unfold py_round. destruct (base_Int_part x) as (A & B). set (n := Int_part x) in *. destruct (Rlt_dec _ _); [intro H; exfalso; rewrite Rabs_left1 in H by lra; lra |]. destruct (Rlt_dec _ _); [rewrite plus_IZR; intro H; exfalso; rewrite Rabs_right in H by lra; lra |].
  destruct (Z.even n) eqn:E; [trivial |]. intros _. rewrite Z.even_add, E. reflexivity.
Qed.
(** The width in bins does not depend on the unit of the parameter; an automatic one is the bandwidth, at most a quarter of the range; a positive setting is in standard deviations or in bins of the plot *)
Theorem C133_smooth ss bw err range fw nb c : 0 < c -> 0 < fw ->
  smooth_1D ss (c * bw) (c * err) (c * range) (c * fw) nb = smooth_1D ss bw err range fw nb /\
  (ss <= 0 -> smooth_1D ss bw err range fw nb * fw = Rabs ss * bw \/ bw > range / 4 /\ smooth_1D ss bw err range fw nb * fw = Rabs ss * (range / 4)) /\
  (ss <= 0 -> smooth_1D ss bw err range fw nb * fw <= Rabs ss * bw /\ smooth_1D ss bw err range fw nb * fw <= Rabs ss * (range / 4)) /\
  (0 < ss < 1 -> smooth_1D ss bw err range fw nb * fw = ss * err) /\
  (1 <= ss -> smooth_1D ss bw err range fw nb * fw * IZR (nb - 1) = ss * range \/ nb = 1%Z).
Proof.
  intros C F. unfold smooth_1D. split.
  - destruct (Rle_dec ss 0); [| destruct (Rlt_dec ss 1)].
    + replace (Rmin (c * bw) (c * range / 4)) with (c * Rmin bw (range / 4)); [field; lra |]. unfold Rmin. destruct (Rle_dec bw (range / 4)), (Rle_dec (c * bw) (c * range / 4)); try (unfold Rdiv in *; ring); exfalso; nra.
    + field. lra.
    + unfold Rdiv. generalize (/ IZR (nb - 1)). intro y. field. lra.
  - destruct (Rle_dec ss 0); [| destruct (Rlt_dec ss 1)]; (split; [intro | split; [intro | split; intro]]); try lra.
    + unfold Rmin. destruct (Rle_dec bw (range / 4)); [left | right; split; [lra |]]; field; lra.
    + replace (Rmin bw (range / 4) * Rabs ss / fw * fw) with (Rabs ss * Rmin bw (range / 4)) by (field; lra). pose proof (Rabs_pos ss). split; apply Rmult_le_compat_l; try lra; [apply Rmin_l | apply Rmin_r].
    + field; lra.
    + destruct (Z.eq_dec nb 1) as [E | E]; [now right | left]. assert (IZR (nb - 1) <> 0) by (apply not_0_IZR; lia). set (k := IZR (nb - 1)) in *. clearbody k. field. split; first [assumption | lra].
Qed.
Example C133_example_smooth : 0 < 2 /\ 0 < 1 / 100 /\ smooth_1D (-1) 3 1 8 1 100 = 2.
Proof. repeat split; try lra. unfold smooth_1D. destruct (Rle_dec (-1) 0); [| lra]. rewrite Rmin_right by lra. rewrite Rabs_left by lra. lra. Qed.
Theorem C133_width s0 N : (8 <= N)%nat -> let s := smooth_bins s0 N in let w := winw_1D s N in
  1 <= s <= INR N / 2 /\ (1 <= s0 <= INR N / 2 - 1 -> s = s0) /\ (2 <= w)%Z /\ (2 * w + 4 <= Z.of_nat N)%Z /\ IZR w <= 5 / 2 * s + 1 / 2 /\ ((w < Z.of_nat N / 2 - 2)%Z -> Rabs (IZR w - 5 / 2 * s) <= 1 / 2).
Proof.
  intros HN s w. assert (D : (2 * (N / 2) <= N < 2 * (N / 2) + 2)%nat). { pose proof (Nat.div_mod N 2 ltac:(lia)). pose proof (Nat.mod_upper_bound N 2 ltac:(lia)). lia. }
  assert (D2 : INR (N / 2) <= INR N / 2 /\ INR N / 2 - 1 < INR (N / 2)). { destruct D as (D1 & D2). apply le_INR in D1. rewrite mult_INR in D1. apply lt_INR in D2. rewrite plus_INR, mult_INR in D2. change (INR 2) with (1 + 1) in *. lra. }
  assert (H4 : 4 <= INR (N / 2)). { replace 4 with (INR 4) by (cbn; lra). apply le_INR. lia. }
  assert (S1 : 1 <= s <= INR (N / 2)). { unfold s, smooth_bins. split; [apply Rmin_glb; [apply Rmax_l | lra] | apply Rmin_r]. }
  pose proof (round_near (5 / 2 * s)) as RN. assert (RB : - (1 / 2) <= IZR (py_round (5 / 2 * s)) - 5 / 2 * s <= 1 / 2) by (revert RN; unfold Rabs; destruct (Rcase_abs _); lra).
  assert (R2 : (2 <= py_round (5 / 2 * s))%Z).
  { destruct (Z_lt_le_dec (py_round (5 / 2 * s)) 2) as [L | L]; [| exact L]. exfalso. assert (Q : IZR (py_round (5 / 2 * s)) <= 1) by (apply IZR_le; lia). lra. }
  assert (NZ : (Z.of_nat N / 2 = Z.of_nat (N / 2))%Z) by (rewrite Nat2Z.inj_div; reflexivity).
  assert (W : (w = py_round (5 / 2 * s) \/ w = Z.of_nat N / 2 - 2)%Z /\ (w <= py_round (5 / 2 * s))%Z /\ (w <= Z.of_nat N / 2 - 2)%Z) by (unfold w, winw_1D; lia).
  split; [lra |]. split; [| split; [lia |]; split; [lia |]; split].
  - intro H0. unfold s, smooth_bins. rewrite Rmax_right by lra. apply Rmin_left. lra.
  - destruct W as (_ & W & _). apply IZR_le in W. lra.
  - intro LW. destruct W as ([E | E] & _); [| lia]. rewrite E. apply Rabs_le. lra.
Qed.
Theorem C133_kernel w h : (forall k, (k <= 2 * w)%nat -> 0 < nth k (kernel_win w h) 0 /\ nth k (kernel_win w h) 0 = nth (2 * w - k) (kernel_win w h) 0) /\ rsum (2 * w + 1) (fun k => nth k (kernel_win w h) 0) = 1 /\
  forall k l, (k <= 2 * w)%nat -> (l <= 2 * w)%nat -> 0 < h -> nth k (kernel_win w h) 0 / nth l (kernel_win w h) 0 = exp (((INR l - INR w) ^ 2 - (INR k - INR w) ^ 2) / (2 * h ^ 2)).
Proof.
  assert (E : forall k, (k <= 2 * w)%nat -> nth k (kernel_win w h) 0 = gk w h (Z.of_nat k - Z.of_nat w)) by (intros k K; apply kernel_win_at; lia). split; [| split].
  - intros k K. rewrite !E by lia. split; [apply gk_pos |]. rewrite <- gk_even. f_equal. lia.
  - rewrite <- (gk_sum w h). unfold wsum. apply rsum_ext. intros i I. apply E. lia.
  - intros k l K I H. rewrite !E by lia. unfold gk. pose proof (gauss_sum w h). pose proof (gauss_pos h (Z.of_nat l - Z.of_nat w)).
    transitivity (gauss h (Z.of_nat k - Z.of_nat w) * / gauss h (Z.of_nat l - Z.of_nat w)); [field; lra |]. unfold gauss. rewrite <- exp_Ropp, <- exp_plus. f_equal. rewrite !minus_IZR, <- !INR_IZR_INZ. field. lra.
Qed.
(** ** Where the density is positive *)
Lemma zat_nonneg l i : nonneg l -> 0 <= zat l i.
Proof.
  intro H. unfold zat. destruct (i <? 0)%Z; [lra |]. destruct (Nat.lt_ge_cases (Z.to_nat i) (length l)) as [K | K]; [apply H; now apply nth_In | rewrite nth_overflow by lia; lra].
Qed.
Lemma gm0 w h d : gm w h 0 d = gk w h d.
Proof. unfold gm. cbn. ring. Qed.
Lemma blur_nonneg w h f i : (forall d, (- Z.of_nat w <= d <= Z.of_nat w)%Z -> 0 <= f (i - d)%Z) -> 0 <= blur w (gm w h 0) f i.
Proof. intro H. apply wsum_nonneg. intros d D. rewrite gm0. apply Rmult_le_pos; [apply Rlt_le, gk_pos | now apply H]. Qed.
Lemma rsum_pos_ex n f : 0 < rsum n f -> exists k, (k < n)%nat /\ 0 < f k.
Proof.
  induction n as [| n IH]; cbn [rsum]; intro H; [lra |]. destruct (Rlt_dec 0 (f n)) as [L | L]; [exists n; split; [lia | exact L] |]. destruct IH as (k & K & P); [lra |]. exists k. split; [lia | exact P].
Qed.
Lemma blur_pos w h f i : (forall d, (- Z.of_nat w <= d <= Z.of_nat w)%Z -> 0 <= f (i - d)%Z) -> (0 < blur w (gm w h 0) f i <-> exists d, (- Z.of_nat w <= d <= Z.of_nat w)%Z /\ 0 < f (i - d)%Z).
Proof.
  intro H. split.
  - intro P. destruct (rsum_pos_ex _ _ P) as (k & K & Q). cbv beta in Q. set (d := (Z.of_nat k - Z.of_nat w)%Z) in *. exists d. split; [unfold d; lia |]. rewrite gm0 in Q.
    destruct (Rle_lt_or_eq_dec _ _ (H d ltac:(unfold d; lia))) as [L | L]; [exact L |]. rewrite <- L in Q. lra.
  - intros (d & D & P). apply (wsum_pos w _ d); [intros e E; rewrite gm0; apply Rmult_le_pos; [apply Rlt_le, gk_pos | now apply H] | exact D |]. rewrite gm0. apply Rmult_lt_0_compat; [apply gk_pos | exact P].
Qed.
Lemma tilt_pos m lim c : 0 < m -> 0 < tilt m lim c.
Proof. intro M. apply Rmult_lt_0_compat; [exact M | apply exp_pos]. Qed.
Lemma Bd_pos order bot top N w h l i : sizes N w -> nonneg l -> (0 <= i < Z.of_nat N)%Z -> let P := Bd order bot top N w h (zat l) i in 0 <= P /\ (0 < P <-> reached w l i).
Proof.
  intros S H I. cbv zeta. pose proof (blur_nonneg w h (zat l) i (fun d _ => zat_nonneg l _ H)) as B0. pose proof (blur_pos w h (zat l) i (fun d _ => zat_nonneg l _ H)) as BP. fold (reached w l i) in BP. change (blur w (gm w h 0) (zat l) i) with (bm (zat l) w h 0 i) in B0, BP.
  destruct (am_denoms N bot top w h i S I) as (A0 & _). unfold Bd.
  assert (G : forall x, (0 < bm (zat l) w h 0 i -> 0 < x) -> (bm (zat l) w h 0 i = 0 -> x = 0) -> 0 <= x /\ (0 < x <-> reached w l i)).
  { intros x X1 X2. rewrite <- BP. destruct (Rle_lt_or_eq_dec _ _ B0) as [L | L]; [specialize (X1 L); split; [lra | split; auto] |]. rewrite (X2 (eq_sym L)). split; [lra |]. split; lra. }
  apply G; intro Q.
  - destruct (_ && _); [| destruct (_ =? 2)%Z; [destruct (Rlt_dec _ _); [now apply tilt_pos | exact Q] | exact Q]]. destruct (Req_EM_T _ 0) as [Z | _]; [exact Q |]. assert (0 < bm (zat l) w h 0 i / am N bot top w h 0 i) by (now apply Rdiv_lt_0_compat).
    destruct (_ =? 0)%Z; [assumption |]. destruct (_ =? 1)%Z; now apply tilt_pos.
  - rewrite Q. destruct (_ && _); [| destruct (_ =? 2)%Z; [destruct (Rlt_dec _ _); [lra | reflexivity] | reflexivity]]. destruct (Req_EM_T _ 0) as [_ | Z]; [reflexivity |]. elim Z. ring.
Qed.
Definition fits (w N : nat) (l : list R) (P : Z -> R) : Prop := forall i, (0 <= i < Z.of_nat N)%Z -> 0 <= P i /\ (0 < P i <-> reached w l i).
Lemma fine_sign w l P : nonneg l -> fits w (length l) l P -> forall j, 0 <= fine (zat l) P j /\ (0 < fine (zat l) P j <-> 0 < zat l j).
Proof.
  intros H F j. unfold fine. pose proof (zat_nonneg l j H) as Z0. destruct (Rle_lt_or_eq_dec _ _ Z0) as [Z | Z].
  - assert (J : (0 <= j < Z.of_nat (length l))%Z) by (destruct (Z_lt_le_dec j 0), (Z_lt_le_dec j (Z.of_nat (length l))); try lia; rewrite zat_out in Z by lia; lra).
    destruct (F j J) as (_ & FP). assert (PJ : 0 < P j) by (apply FP; exists 0%Z; split; [lia |]; now rewrite Z.sub_0_r). destruct (Req_EM_T (P j) 0); [lra |]. assert (0 < zat l j / P j) by (now apply Rdiv_lt_0_compat). split; [lra | split; auto].
  - rewrite <- Z. unfold Rdiv. rewrite Rmult_0_l. split; [lra | split; lra].
Qed.
Lemma step_fits bot top w h l P : nonneg l -> fits w (length l) l P -> fits w (length l) l (step (length l) bot top w h (zat l) P).
Proof.
  intros H F i I. destruct (F i I) as (P0 & PP). pose proof (fine_sign w l P H F) as FS. unfold step. pose proof (a00_pos (length l) bot top w h i I) as A.
  pose proof (blur_nonneg w h (fine (zat l) P) i (fun d _ => proj1 (FS _))) as C0. pose proof (blur_pos w h (fine (zat l) P) i (fun d _ => proj1 (FS _))) as CP.
  assert (CR : 0 < blur w (gm w h 0) (fine (zat l) P) i <-> reached w l i). { rewrite CP. split; intros (d & D & Q); exists d; (split; [exact D |]); now apply FS. }
  set (c := blur w (gm w h 0) (fine (zat l) P) i) in *. split.
  - apply Rmult_le_pos; [now apply Rmult_le_pos | apply Rlt_le; now apply Rinv_0_lt_compat].
  - rewrite <- PP. split; intro Q.
    + destruct (Rle_lt_or_eq_dec _ _ P0) as [L | L]; [exact L |]. rewrite <- L in Q. unfold Rdiv in Q. rewrite !Rmult_0_l in Q. lra.
    + apply Rdiv_lt_0_compat; [| exact A]. apply Rmult_lt_0_compat; [exact Q |]. apply CR, PP, Q.
Qed.
Lemma bias_fits n bot top w h l : nonneg l -> forall P, fits w (length l) l P -> fits w (length l) l (biasF n (length l) bot top w h (zat l) P).
Proof. intro H. induction n as [| n IH]; intros P F; [exact F |]. cbn [biasF]. apply IH. now apply step_fits. Qed.
Lemma raw_fits order n bot top w h l : sizes (length l) w -> nonneg l -> fits w (length l) l (rawF order n bot top (length l) w h (zat l)).
Proof. intros S H. apply bias_fits; [exact H |]. intros i I. now apply Bd_pos. Qed.
(** ** The largest value *)
Lemma lmax_ge l x : In x l -> x <= lmax l.
Proof.
  induction l as [| y l IH]; intro I; [contradiction |]. destruct l as [| z l]; [destruct I as [<- | []]; cbn; lra |]. change (lmax (y :: z :: l)) with (Rmax y (lmax (z :: l))). destruct I as [<- | I]; [apply Rmax_l |]. eapply Rle_trans; [now apply IH | apply Rmax_r].
Qed.
Lemma lmax_in l : l <> [] -> In (lmax l) l.
Proof.
  induction l as [| y l IH]; intro N; [contradiction |]. destruct l as [| z l]; [now left |]. change (lmax (y :: z :: l)) with (Rmax y (lmax (z :: l))). destruct (Rle_dec y (lmax (z :: l))); [rewrite Rmax_right by assumption; right; apply IH; discriminate | rewrite Rmax_left by lra; now left].
Qed.
Lemma lmax_is l m : In m l -> (forall x, In x l -> x <= m) -> lmax l = m.
Proof. intros I H. apply Rle_antisym; [apply H; apply lmax_in; intro E; rewrite E in I; contradiction | now apply lmax_ge]. Qed.
Lemma tab_in N f x : In x (tab N f) <-> exists i, (0 <= i < Z.of_nat N)%Z /\ x = f i.
Proof.
  unfold tab. rewrite in_map_iff. split.
  - intros (i & <- & I). apply in_seq in I. exists (Z.of_nat i). split; [lia | reflexivity].
  - intros (i & I & ->). exists (Z.to_nat i). split; [f_equal; lia | apply in_seq; lia].
Qed.
(** a density of largest value 1 that is positive exactly where samples are within the width of the kernel *)
Theorem C133_density order n bot top w h bins : sizes (length bins) w -> nonneg bins -> (exists x, In x bins /\ 0 < x) -> (order <= 2)%Z \/ (bot || top) = false ->
  exists D, kde1 order n bot top w h bins = Ok D /\ length D = length bins /\ In 1 D /\ forall i, (i < length bins)%nat -> 0 <= nth i D 0 <= 1 /\ (0 < nth i D 0 <-> reached w bins (Z.of_nat i)).
Proof.
  intros S H (x & IX & PX) HO. unfold kde1. rewrite (raw_ok order n bot top w h bins S HO). cbn [bindR]. pose proof (raw_fits order n bot top w h bins S H) as F. set (f := rawF _ _ _ _ _ _ _ _) in *. set (N := length bins) in *.
  destruct (In_nth _ _ 0 IX) as (k & K & E). assert (P : 0 < f (Z.of_nat k)). { apply (F (Z.of_nat k)); [lia |]. exists 0%Z. split; [lia |]. rewrite Z.sub_0_r. unfold zat. destruct (Z.ltb_spec (Z.of_nat k) 0); [lia |]. rewrite Nat2Z.id, E. exact PX. }
  assert (M : 0 < lmax (tab N f)). { eapply Rlt_le_trans; [exact P |]. apply lmax_ge. apply tab_in. exists (Z.of_nat k). split; [lia | reflexivity]. }
  unfold normalize_max. destruct (Req_EM_T (lmax (tab N f)) 0); [lra |]. eexists. split; [reflexivity |]. split; [rewrite map_length; apply tab_len |]. split.
  - apply in_map_iff. exists (lmax (tab N f)). split; [field; lra |]. apply lmax_in. intro Q. apply (f_equal (@length R)) in Q. rewrite tab_len in Q. cbn in Q. lia.
  - intros i I. change (nth i ?l 0) with (at_ l i). rewrite at_map by (rewrite tab_len; exact I). rewrite tab_at by exact I. destruct (F (Z.of_nat i) ltac:(lia)) as (F0 & FP). split; [split |].
    + apply Rmult_le_pos; [exact F0 | apply Rlt_le; now apply Rinv_0_lt_compat].
    + apply (Rmult_le_reg_r (lmax (tab N f))); [exact M |]. unfold Rdiv. rewrite Rmult_assoc, Rinv_l, Rmult_1_r, Rmult_1_l by lra. apply lmax_ge. apply tab_in. exists (Z.of_nat i). split; [lia | reflexivity].
    + rewrite <- FP. split; intro Q; [| now apply Rdiv_lt_0_compat]. destruct (Rle_lt_or_eq_dec _ _ F0) as [L | L]; [exact L |]. rewrite <- L in Q. unfold Rdiv in Q. lra.
Qed.
(** no samples, or an order that is not there, are errors *)
Theorem C133_empty order n bot top w h N : sizes N w -> (order <= 2)%Z \/ (bot || top) = false -> kde1 order n bot top w h (repeat 0 N) = Err NoSamples.
Proof.
  intros S HO. assert (NN : nonneg (repeat 0 N)) by (intros x X; apply repeat_spec in X; lra). assert (S' : sizes (length (repeat 0 N)) w) by (now rewrite repeat_length). unfold kde1. rewrite (raw_ok order n bot top w h _ S' HO). cbn [bindR].
  pose proof (raw_fits order n bot top w h _ S' NN) as F. set (f := rawF _ _ _ _ _ _ _ _) in *. unfold normalize_max. rewrite repeat_length in *. destruct (Req_EM_T (lmax (tab N f)) 0) as [| NZ]; [reflexivity |]. exfalso. apply NZ.
  assert (Z : forall i, (0 <= i < Z.of_nat N)%Z -> f i = 0).
  { intros i I. destruct (F i I) as (F0 & FP). destruct (Rle_lt_or_eq_dec _ _ F0) as [L | L]; [| easy]. apply FP in L. destruct L as (d & _ & Q). unfold zat in Q. destruct (_ <? 0)%Z; [lra |]. rewrite nth_repeat in Q. lra. }
  apply lmax_is; [apply tab_in; exists 0%Z; destruct S as (? & ? & ?); split; [lia | symmetry; apply Z; lia] |]. intros x X. apply tab_in in X. destruct X as (i & I & ->). rewrite Z by exact I. lra.
Qed.
Theorem C133_order order n bot top w h bins : sizes (length bins) w -> (bot || top) = true -> (2 < order)%Z -> kde1 order n bot top w h bins = Err SettingError.
Proof.
  intros SZ HB HO. pose proof SZ as (S1 & S2 & S3). destruct (bounds _ _ SZ) as (B1 & B2 & B3). pose proof (win_kernel w h) as K0. unfold kde1, kde1_raw. destruct (conv_same w (gm w h 0) bins _ K0 S2 B3) as (r & -> & _). cbn [bindR]. unfold boundary. rewrite HB.
  destruct (Z.leb_spec 0 order); [| lia]. cbn [andb]. destruct (conv_valid w (gm w h 0) (length bins) (prior_mask (length bins) w bot top) _ K0 S2 (mask_len _ _ _ _) S3) as (a & -> & _). cbn [bindR]. destruct (Z.eqb_spec order 0); [lia |]. destruct (Z.leb_spec order 2); [lia | reflexivity].
Qed.

(** ** What the corrections give *)
Lemma bm_lin b w h k i s c0 c1 c2 : (forall d, (- Z.of_nat w <= d <= Z.of_nat w)%Z -> b (i - d)%Z = s (i - d)%Z * (c0 - c1 * IZR d + c2 * IZR d ^ 2)) ->
  blur w (gm w h k) b i = c0 * blur w (gm w h k) s i - c1 * blur w (gm w h (k + 1)) s i + c2 * blur w (gm w h (k + 2)) s i.
Proof.
  intro H. unfold blur. rewrite <- !wsum_scal. transitivity (wsum w (fun d => c0 * (gm w h k d * s (i - d)%Z)) + (-1) * wsum w (fun d => c1 * (gm w h (k + 1) d * s (i - d)%Z)) + wsum w (fun d => c2 * (gm w h (k + 2) d * s (i - d)%Z))); [| ring].
  rewrite <- wsum_scal, <- !wsum_plus. apply wsum_ext. intros d D. rewrite (H d D). unfold gm. rewrite !pow_add. ring.
Qed.
Lemma tilt_ge m lim c : 0 < m -> c <= lim * m -> c <= tilt m lim c.
Proof.
  intros M H. unfold tilt. assert (Q : c / m <= lim) by (apply (Rmult_le_reg_r m); [exact M |]; unfold Rdiv; rewrite Rmult_assoc, Rinv_l by lra; lra). rewrite Rmin_left by exact Q.
  assert (E : c / m <= exp (c / m - 1)). { destruct (Req_EM_T (c / m - 1) 0) as [Z | Z]; [rewrite Z, exp_0; lra |]. pose proof (exp_ineq1 (c / m - 1) Z). lra. }
  apply (Rmult_le_compat_l m) in E; [| lra]. replace (m * (c / m)) with c in E by (field; lra). exact E.
Qed.
(** order 0 divides by the part of the kernel inside the limits *)
Theorem C133_normed bot top w h bins i : sizes (length bins) w -> (bot || top) = true -> (i < length bins)%nat ->
  exists P, kde1_raw 0 0 bot top w h bins = Ok P /\ nth i P 0 = blur w (gk w h) (zat bins) (Z.of_nat i) / blur w (gk w h) (share (length bins) bot top) (Z.of_nat i).
Proof.
  intros S B I. rewrite (raw_ok 0 0 bot top w h bins S) by (left; lia). eexists. split; [reflexivity |]. change (nth i ?l 0) with (at_ l i). rewrite tab_at by exact I. unfold rawF. cbn [biasF]. unfold Bd. rewrite B. cbn [andb].
  change (0 <=? 0)%Z with true. change (0 =? 0)%Z with true. cbn iota. assert (G : forall f, blur w (gk w h) f (Z.of_nat i) = blur w (gm w h 0) f (Z.of_nat i)) by (intro f; apply wsum_ext; intros; now rewrite gm0). rewrite !G.
  fold (bm (zat bins) w h 0 (Z.of_nat i)). fold (am (length bins) bot top w h 0 (Z.of_nat i)). destruct (am_denoms _ bot top w h (Z.of_nat i) S ltac:(lia)) as (A & _). destruct (Req_EM_T _ 0) as [Z | Z]; [| reflexivity].
  assert (bm (zat bins) w h 0 (Z.of_nat i) = 0) as -> by (cbv beta in A; destruct (Rmult_integral _ _ Z); [lra | assumption]). unfold Rdiv. ring.
Qed.
(** order 1 (2) has no bias where the samples follow a linear (quadratic) function up to the limits, but for the factor that keeps the density positive *)
Theorem C133_unbiased order bot top w h bins i c0 c1 c2 : let N := length bins in let z := Z.of_nat i in
  sizes N w -> (bot || top) = true -> (i < N)%nat -> order = 1%Z /\ c2 = 0 \/ order = 2%Z ->
  (forall d, (- Z.of_nat w <= d <= Z.of_nat w)%Z -> zat bins (z - d) = share N bot top (z - d) * (c0 - c1 * IZR d + c2 * IZR d ^ 2)) ->
  let m := blur w (gk w h) (zat bins) z / blur w (gk w h) (share N bot top) z in 0 < m ->
  exists P, kde1_raw order 0 bot top w h bins = Ok P /\ nth i P 0 = m * exp (Rmin (c0 / m) 4 - 1) /\ (c0 <= 4 * m -> c0 <= nth i P 0).
Proof.
  intros N z S B I HO HF m M. assert (HO2 : (order <= 2)%Z) by (destruct HO as [(-> & _) | ->]; lia).
  assert (G : forall f, blur w (gk w h) f z = blur w (gm w h 0) f z) by (intro f; apply wsum_ext; intros; now rewrite gm0). unfold m in *. rewrite !G in *. clear G. clear m.
  fold (bm (zat bins) w h 0 z) in *. fold (am N bot top w h 0 z) in *.
  assert (E : Bd order bot top N w h (zat bins) z = tilt (bm (zat bins) w h 0 z / am N bot top w h 0 z) 4 c0).
  { unfold Bd. rewrite B. destruct (am_denoms N bot top w h z S ltac:(unfold z; lia)) as (A0 & _ & A1 & A2). cbv beta in A1, A2. destruct (Req_EM_T _ 0) as [Z | _]. { exfalso. assert (bm (zat bins) w h 0 z = 0) as Q by (cbv beta in A0; destruct (Rmult_integral _ _ Z); [lra | assumption]). rewrite Q in M. unfold Rdiv in M. lra. }
    pose proof (bm_lin (zat bins) w h 0 z _ c0 c1 c2 HF) as X0. pose proof (bm_lin (zat bins) w h 1 z _ c0 c1 c2 HF) as X1. pose proof (bm_lin (zat bins) w h 2 z _ c0 c1 c2 HF) as X2. cbn [Nat.add] in X0, X1, X2.
    change (blur w (gm w h ?k) (zat bins) z) with (bm (zat bins) w h k z) in X0, X1, X2.
    change (blur w (gm w h 0) (share N bot top) z) with (am N bot top w h 0 z) in X0. change (blur w (gm w h 1) (share N bot top) z) with (am N bot top w h 1 z) in X0, X1. change (blur w (gm w h 2) (share N bot top) z) with (am N bot top w h 2 z) in X0, X1, X2.
    change (blur w (gm w h 3) (share N bot top) z) with (am N bot top w h 3 z) in X1, X2. change (blur w (gm w h 4) (share N bot top) z) with (am N bot top w h 4 z) in X2.
    destruct HO as [(-> & ->) | ->]; cbn [andb Z.leb Z.eqb Z.compare Pos.eqb]; f_equal.
    - rewrite X0, X1. field. lra.
    - rewrite X0, X1, X2. field. lra. }
  rewrite (raw_ok order 0 bot top w h bins S (or_introl HO2)). eexists. split; [reflexivity |]. change (nth i ?l 0) with (at_ l i). rewrite tab_at by exact I. unfold rawF. cbn [biasF]. fold N z. rewrite E. split; [reflexivity |]. intro H. now apply tilt_ge.
Qed.
(** without limits: the samples seen through the kernel, and for order 2 no bias for cubic functions *)
Theorem C133_plain order bot top w h bins : sizes (length bins) w -> (order < 0)%Z \/ (bot || top) = false /\ order <> 2%Z ->
  exists P, kde1_raw order 0 bot top w h bins = Ok P /\ (forall i, (i < length bins)%nat -> nth i P 0 = blur w (gk w h) (zat bins) (Z.of_nat i)) /\
    ((forall i, (i < w \/ length bins - w <= i)%nat -> nth i bins 0 = 0) -> rsum (length bins) (fun i => nth i P 0) = rsum (length bins) (fun i => nth i bins 0)).
Proof.
  intros S HO. pose proof S as (S1 & S2 & S3). rewrite (raw_ok order 0 bot top w h bins S) by (destruct HO as [| (? & _)]; [left; lia | now right]). eexists. split; [reflexivity |].
  assert (V : forall i, (i < length bins)%nat -> nth i (tab (length bins) (rawF order 0 bot top (length bins) w h (zat bins))) 0 = blur w (gk w h) (zat bins) (Z.of_nat i)).
  { intros i I. change (nth i ?l 0) with (at_ l i). rewrite tab_at by exact I. unfold rawF. cbn [biasF]. unfold Bd. replace ((bot || top) && (0 <=? order)%Z) with false by (destruct HO as [HO | (HO & _)]; [destruct (Z.leb_spec 0 order); [lia | now rewrite andb_false_r] | now rewrite HO]).
    replace (order =? 2)%Z with false by (symmetry; apply Z.eqb_neq; destruct HO as [| (_ & HO)]; [lia | exact HO]). unfold bm. apply wsum_ext. intros. now rewrite gm0. }
  split; [exact V |]. intro HZ. rewrite (rsum_ext _ _ (fun i => blur w (gk w h) (zat bins) (Z.of_nat i)) V). unfold blur, wsum. rewrite rsum_swap.
  assert (ZN : forall j, (j < Z.of_nat w)%Z \/ (Z.of_nat (length bins) - Z.of_nat w <= j)%Z -> zat bins j = 0). { intros j J. unfold zat. destruct (Z.ltb_spec j 0); [reflexivity |]. apply HZ. lia. }
  assert (SH : forall k, (k < 2 * w + 1)%nat -> rsum (length bins) (fun i => zat bins (Z.of_nat i - (Z.of_nat k - Z.of_nat w))) = rsum (length bins) (fun i => nth i bins 0)).
  { intros k K. assert (NT : forall i, zat bins (Z.of_nat i) = nth i bins 0) by (intro i; unfold zat; destruct (Z.ltb_spec (Z.of_nat i) 0); [lia |]; now rewrite Nat2Z.id).
    destruct (Nat.le_gt_cases w k) as [L | L].
    - replace (length bins) with ((k - w) + (length bins - (k - w)))%nat at 1 by lia. rewrite rsum_split, rsum_zero by (intros i I; apply ZN; lia). rewrite (rsum_ext _ _ (fun i => nth i bins 0)) by (intros i I; rewrite <- NT; f_equal; lia).
      rewrite Rplus_0_l. symmetry. apply rsum_extend; [lia |]. intros i I. apply HZ. lia.
    - transitivity (rsum (length bins - (w - k)) (fun i => nth (i + (w - k)) bins 0)).
      + rewrite (rsum_extend (length bins - (w - k)) (length bins)); [| lia | intros i I; apply ZN; lia]. apply rsum_ext. intros i I. rewrite <- NT. f_equal. lia.
      + replace (length bins) with ((w - k) + (length bins - (w - k)))%nat at 2 by lia. rewrite rsum_split, (rsum_zero (w - k)) by (intros i I; apply HZ; lia). rewrite Rplus_0_l. apply rsum_ext. intros i I. f_equal. lia. }
  rewrite (rsum_ext (2 * w + 1) _ (fun k => gk w h (Z.of_nat k - Z.of_nat w) * rsum (length bins) (fun i => nth i bins 0))) by (intros k K; rewrite rsum_scal, SH by exact K; reflexivity). rewrite rsum_scal_r. pose proof (gk_sum w h) as G. unfold wsum in G. rewrite G. ring.
Qed.
Lemma odd_zero w h k : Nat.odd k = true -> wsum w (gm w h k) = 0.
Proof.
  intro O. apply Nat.odd_spec in O. destruct O as (q & ->). pose proof (wsum_rev w (gm w h (2 * q + 1))) as E. assert (F : wsum w (fun d => gm w h (2 * q + 1) (- d)%Z) = -1 * wsum w (gm w h (2 * q + 1))); [| lra].
  rewrite <- wsum_scal. apply wsum_ext. intros d _. unfold gm. rewrite gk_even, opp_IZR, !pow_add, !pow_mult. replace ((- IZR d) ^ 2) with (IZR d ^ 2) by ring. ring.
Qed.
Theorem C133_free w h bins i c0 c1 c2 c3 : let z := Z.of_nat i in sizes (length bins) w -> (i < length bins)%nat ->
  (forall d, (- Z.of_nat w <= d <= Z.of_nat w)%Z -> zat bins (z - d) = c0 - c1 * IZR d + c2 * IZR d ^ 2 - c3 * IZR d ^ 3) ->
  let m := blur w (gk w h) (zat bins) z in 0 < m -> exists P, kde1_raw 2 0 false false w h bins = Ok P /\ nth i P 0 = m * exp (Rmin (c0 / m) 2 - 1) /\ (c0 <= 2 * m -> c0 <= nth i P 0).
Proof.
  intros z S I HF m M. rewrite (raw_ok 2 0 false false w h bins S (or_intror eq_refl)). eexists. split; [reflexivity |]. change (nth i ?l 0) with (at_ l i). rewrite tab_at by exact I. unfold rawF. cbn [biasF]. fold z.
  assert (G : m = bm (zat bins) w h 0 z) by (apply wsum_ext; intros; now rewrite gm0). rewrite G in *.
  assert (E : Bd 2 false false (length bins) w h (zat bins) z = tilt (bm (zat bins) w h 0 z) 2 c0).
  { unfold Bd. cbn [andb orb Z.leb Z.eqb Z.compare Pos.eqb]. destruct (Rlt_dec 0 _) as [_ | Q]; [| contradiction]. f_equal. destruct (sm_denom w h ltac:(destruct S; lia)) as (_ & A).
    assert (X : forall k, bm (zat bins) w h k z = c0 * wsum w (gm w h k) - c1 * wsum w (gm w h (k + 1)) + c2 * wsum w (gm w h (k + 2)) - c3 * wsum w (gm w h (k + 3))).
    { intro k. unfold bm, blur. transitivity (wsum w (fun d => c0 * gm w h k d) + (-1) * wsum w (fun d => c1 * gm w h (k + 1) d) + wsum w (fun d => c2 * gm w h (k + 2) d) + (-1) * wsum w (fun d => c3 * gm w h (k + 3) d)); [| rewrite !wsum_scal; ring].
      rewrite <- !(wsum_scal w (-1)), <- !wsum_plus. apply wsum_ext. intros d D. rewrite (HF d D). unfold gm. rewrite !pow_add. ring. }
    assert (G0 : wsum w (gm w h 0) = 1) by (rewrite <- (gk_sum w h); apply wsum_ext; intros; now rewrite gm0).
    rewrite !X. cbn [Nat.add]. rewrite (odd_zero w h 1), (odd_zero w h 3), (odd_zero w h 5), G0 by reflexivity. field. lra. }
  rewrite E. split; [reflexivity |]. intro H. now apply tilt_ge.
Qed.
(** samples that are uniform between the limits give a flat density *)
Lemma share_both N i : (2 <= N)%nat -> share N true true i = if (i <? 0)%Z || (Z.of_nat N <=? i)%Z then 0 else if (i =? 0)%Z || (i =? Z.of_nat N - 1)%Z then 1 / 2 else 1.
Proof.
  intro HN. unfold share, part_above. destruct (Z.ltb_spec i 0); [cbn [orb]; ring |]. destruct (Z.leb_spec (Z.of_nat N) i); cbn [orb].
  - destruct (Z.ltb_spec (Z.of_nat N - 1 - i) 0); [ring | lia].
  - destruct (Z.ltb_spec (Z.of_nat N - 1 - i) 0); [lia |]. destruct (Z.eqb_spec i 0), (Z.eqb_spec i (Z.of_nat N - 1)), (Z.eqb_spec (Z.of_nat N - 1 - i) 0); cbn [orb]; try lia; lra.
Qed.
Theorem C133_flat order n w h bins c : let N := length bins in sizes N w -> (0 <= order <= 2)%Z -> 0 < c -> (forall i, (i < N)%nat -> nth i bins 0 = if Nat.eqb i 0 || Nat.eqb i (N - 1) then c / 2 else c) ->
  kde1 order n true true w h bins = Ok (repeat 1 N).
Proof.
  intros N S HO C HB. pose proof S as (S1 & S2 & S3). unfold kde1. rewrite (raw_ok order n true true w h bins S) by (left; lia). fold N. cbn [bindR].
  assert (Z : forall j, zat bins j = c * share N true true j).
  { intro j. rewrite share_both by lia. unfold zat. destruct (Z.ltb_spec j 0); [cbn [orb]; ring |]. destruct (Z.leb_spec (Z.of_nat N) j); cbn [orb]; [rewrite nth_overflow by (unfold N in *; lia); ring |]. rewrite HB by lia.
    destruct (Nat.eqb_spec (Z.to_nat j) 0), (Nat.eqb_spec (Z.to_nat j) (N - 1)), (Z.eqb_spec j 0), (Z.eqb_spec j (Z.of_nat N - 1)); cbn [orb]; try lia; lra. }
  assert (B : forall i, (0 <= i < Z.of_nat N)%Z -> Bd order true true N w h (zat bins) i = c).
  { intros i I. destruct (am_denoms N true true w h i S I) as (A0 & _ & A1 & A2). cbv beta in A0, A1, A2. assert (X : forall k, bm (zat bins) w h k i = c * am N true true w h k i). { intro k. unfold bm, am, blur. rewrite <- wsum_scal. apply wsum_ext. intros d _. rewrite Z. ring. }
    unfold Bd. cbn [orb]. destruct (Z.leb_spec 0 order); [| lia]. cbn [andb]. rewrite !X. destruct (Req_EM_T _ 0) as [Q | _]. { exfalso. assert (0 < am N true true w h 0 i * (c * am N true true w h 0 i)) by (repeat apply Rmult_lt_0_compat; assumption). lra. }
    replace (c * am N true true w h 0 i / am N true true w h 0 i) with c by (field; lra). assert (T : tilt c 4 c = c). { unfold tilt. replace (c / c) with 1 by (field; lra). rewrite Rmin_left by lra. replace (1 - 1) with 0 by ring. rewrite exp_0. ring. }
    destruct (Z.eqb_spec order 0); [reflexivity |]. destruct (Z.eqb_spec order 1).
    - replace ((_ - _) / _) with c by (field; lra). exact T.
    - replace ((_ + _) / _) with c by (field; lra). exact T. }
  assert (F : forall i, (0 <= i < Z.of_nat N)%Z -> rawF order n true true N w h (zat bins) i = c).
  { unfold rawF. revert B. generalize (Bd order true true N w h (zat bins)). induction n as [| n IH]; intros P B; [exact B |]. cbn [biasF]. apply IH. intros i I. unfold step. rewrite (B i I). pose proof (a00_pos N true true w h i I) as A.
    replace (blur w (gm w h 0) (fine (zat bins) P) i) with (a00 N true true w h i); [field; lra |]. apply wsum_ext. intros d _. f_equal. unfold cut, fine. destruct (Z.leb_spec 0 (i - d)), (Z.ltb_spec (i - d) (Z.of_nat N)); cbn [andb]; try (rewrite zat_out by (unfold N in *; lia); unfold Rdiv; ring).
    rewrite (B (i - d)%Z) by lia. destruct (Req_EM_T c 0); [lra |]. rewrite Z. field. lra. }
  rewrite (tab_ext N _ (fun _ => c)) by exact F. unfold normalize_max. assert (M : lmax (tab N (fun _ => c)) = c). { apply lmax_is; [apply tab_in; exists 0%Z; split; [lia | reflexivity] |]. intros x X. apply tab_in in X. destruct X as (? & _ & ->). lra. }
  rewrite M. destruct (Req_EM_T c 0); [lra |]. f_equal. unfold tab. rewrite map_map. transitivity (map (fun _ : nat => 1) (seq 0 N)); [apply map_ext; intros _; field; lra |]. clear. generalize 0%nat. induction N as [| N IH]; intro s; [reflexivity |]. cbn [seq map repeat]. now rewrite IH.
Qed.
(** the unit of the weights does not matter *)
Lemma zat_scale c l i : zat (map (Rmult c) l) i = c * zat l i.
Proof.
  unfold zat. destruct (_ <? 0)%Z; [ring |]. destruct (Nat.lt_ge_cases (Z.to_nat i) (length l)) as [L | L]; [rewrite (nth_indep _ 0 (c * 0)) by (now rewrite map_length); apply map_nth | rewrite !nth_overflow by (rewrite ?map_length; lia); ring].
Qed.
Lemma tilt_scale c m lim q : 0 < c -> tilt (c * m) lim (c * q) = c * tilt m lim q.
Proof. intro C. unfold tilt. destruct (Req_EM_T m 0) as [-> | M]; [ring |]. replace (c * q / (c * m)) with (q / m) by (field; lra). ring. Qed.
Lemma Bd_scale order bot top N w h b b' c i : sizes N w -> (0 <= i < Z.of_nat N)%Z -> 0 < c -> (forall j, b' j = c * b j) -> Bd order bot top N w h b' i = c * Bd order bot top N w h b i.
Proof.
  intros S I C H. assert (X : forall k, bm b' w h k i = c * bm b w h k i). { intro k. unfold bm, blur. rewrite <- wsum_scal. apply wsum_ext. intros d _. rewrite H. ring. }
  destruct (am_denoms N bot top w h i S I) as (A0 & _ & A1 & A2). cbv beta in A0, A1, A2. destruct (sm_denom w h ltac:(destruct S; lia)) as (_ & A4). unfold Bd. rewrite !X. destruct (_ && _).
  - destruct (Req_EM_T (am N bot top w h 0 i * (c * bm b w h 0 i)) 0) as [Z | Z], (Req_EM_T (am N bot top w h 0 i * bm b w h 0 i) 0) as [Z' | Z'].
    + reflexivity.
    + exfalso. apply Z'. apply (Rmult_eq_reg_l c); [| lra]. rewrite Rmult_0_r, <- Z. ring.
    + exfalso. apply Z. transitivity (c * (am N bot top w h 0 i * bm b w h 0 i)); [ring | rewrite Z'; ring].
    + destruct (_ =? 0)%Z; [field; lra |]. destruct (_ =? 1)%Z; rewrite <- tilt_scale by exact C; f_equal; field; lra.
  - destruct (_ =? 2)%Z; [| reflexivity]. destruct (Rlt_dec 0 (c * _)) as [L | L], (Rlt_dec 0 (bm b w h 0 i)) as [L' | L']; [| | | reflexivity].
    + rewrite <- tilt_scale by exact C. f_equal. field. lra.
    + exfalso. apply L'. apply (Rmult_lt_reg_l c); lra.
    + exfalso. apply L. now apply Rmult_lt_0_compat.
Qed.
Lemma biasF_scale n bot top w h l c : 0 < c -> nonneg l -> forall P P', fits w (length l) l P -> (forall i, (0 <= i < Z.of_nat (length l))%Z -> P' i = c * P i) ->
  forall i, (0 <= i < Z.of_nat (length l))%Z -> biasF n (length l) bot top w h (zat (map (Rmult c) l)) P' i = c * biasF n (length l) bot top w h (zat l) P i.
Proof.
  intros C H. induction n as [| n IH]; intros P P' F E i I; [now apply E |]. cbn [biasF]. apply IH; [now apply step_fits | | exact I]. clear i I. intros i I. unfold step. rewrite (E i I).
  replace (blur w (gm w h 0) (fine (zat (map (Rmult c) l)) P') i) with (blur w (gm w h 0) (fine (zat l) P) i); [unfold Rdiv; ring |]. apply wsum_ext. intros d _. f_equal. unfold fine. rewrite zat_scale. set (j := (i - d)%Z).
  destruct (Z_lt_le_dec j 0) as [J | J]; [rewrite zat_out by lia; unfold Rdiv; ring |]. destruct (Z_lt_le_dec j (Z.of_nat (length l))) as [J' | J']; [| rewrite zat_out by lia; unfold Rdiv; ring]. rewrite (E j) by lia.
  destruct (F j ltac:(lia)) as (F0 & FP). destruct (Req_EM_T (P j) 0) as [Z | Z].
  - assert (zat l j = 0) as ->; [| unfold Rdiv; ring]. destruct (Rle_lt_or_eq_dec _ _ (zat_nonneg l j H)) as [L | L]; [| easy]. exfalso. assert (0 < P j); [| lra]. apply FP. exists 0%Z. split; [lia |]. now rewrite Z.sub_0_r.
  - destruct (Req_EM_T (c * P j) 0) as [Q | Q]; [destruct (Rmult_integral _ _ Q); [lra | contradiction] |]. field. split; [exact Z | lra].
Qed.
Theorem C133_scale order n bot top w h bins c : sizes (length bins) w -> nonneg bins -> 0 < c -> kde1 order n bot top w h (map (Rmult c) bins) = kde1 order n bot top w h bins.
Proof.
  intros S H C. destruct (Z_le_gt_dec order 2) as [HO | HO]; [| destruct (bot || top) eqn:B; [rewrite !C133_order by (rewrite ?map_length; trivial; lia); reflexivity |]].
  all: assert (S' : sizes (length (map (Rmult c) bins)) w) by (now rewrite map_length); unfold kde1; rewrite !(raw_ok order n bot top w h) by (trivial; (now left) || (now right)); cbn [bindR]; rewrite map_length; set (N := length bins) in *;
    rewrite (tab_ext N (rawF order n bot top N w h (zat (map (Rmult c) bins))) (fun i => c * rawF order n bot top N w h (zat bins) i))
      by (intros i I; apply biasF_scale; trivial; [intros j J; now apply Bd_pos | intros j J; apply Bd_scale; trivial; apply zat_scale]);
    set (f := rawF order n bot top N w h (zat bins));
    assert (M : lmax (tab N (fun i => c * f i)) = c * lmax (tab N f))
      by (assert (NE : tab N f <> []) by (intro Q; apply (f_equal (@length R)) in Q; rewrite tab_len in Q; cbn in Q; destruct S as (? & ? & _); lia); apply lmax_is;
          [apply tab_in; destruct (proj1 (tab_in N f _) (lmax_in _ NE)) as (k & K & Q); exists k; split; [exact K | now rewrite <- Q]
          | intros x X; apply tab_in in X; destruct X as (k & K & ->); apply Rmult_le_compat_l; [lra |]; apply lmax_ge, tab_in; exists k; split; [exact K | reflexivity]]);
    unfold normalize_max; rewrite M; destruct (Req_EM_T (c * lmax (tab N f)) 0) as [Q | Q], (Req_EM_T (lmax (tab N f)) 0) as [Q' | Q'];
    [reflexivity | exfalso; destruct (Rmult_integral _ _ Q); [lra | contradiction] | exfalso; apply Q; rewrite Q'; ring |
     f_equal; unfold tab; rewrite !map_map; apply map_ext; intro i; field; split; [exact Q' | lra]].
Qed.
(** the two ends are treated alike *)
Lemma zat_rev l i : zat (rev l) i = zat l (Z.of_nat (length l) - 1 - i).
Proof.
  destruct (Z_lt_le_dec i 0) as [J | J]; [rewrite !zat_out by (rewrite ?rev_length; lia); reflexivity |]. destruct (Z_lt_le_dec i (Z.of_nat (length l))) as [K | K]; [| rewrite !zat_out by (rewrite ?rev_length; lia); reflexivity].
  unfold zat. destruct (Z.ltb_spec i 0); [lia |]. destruct (Z.ltb_spec (Z.of_nat (length l) - 1 - i) 0); [lia |]. rewrite rev_nth by lia. f_equal. lia.
Qed.
Lemma blur_mirror w h k f f' M i : (forall j, f' j = f (M - j)%Z) -> blur w (gm w h k) f' i = (-1) ^ k * blur w (gm w h k) f (M - i).
Proof.
  intro H. unfold blur. rewrite <- wsum_scal, <- wsum_rev. apply wsum_ext. intros d _. rewrite H. unfold gm. rewrite gk_even, opp_IZR. replace (M - (i - - d))%Z with (M - i - d)%Z by ring. replace (- IZR d) with (-1 * IZR d) by ring. rewrite Rpow_mult_distr. ring.
Qed.
Lemma share_mirror N bot top j : share N top bot j = share N bot top (Z.of_nat N - 1 - j).
Proof. unfold share. replace (Z.of_nat N - 1 - (Z.of_nat N - 1 - j))%Z with j by ring. ring. Qed.
Lemma Bd_mirror order bot top N w h b b' i : (forall j, b' j = b (Z.of_nat N - 1 - j)%Z) -> Bd order top bot N w h b' i = Bd order bot top N w h b (Z.of_nat N - 1 - i).
Proof.
  intro H. assert (X : forall k, bm b' w h k i = (-1) ^ k * bm b w h k (Z.of_nat N - 1 - i)) by (intro k; now apply blur_mirror). assert (A : forall k, am N top bot w h k i = (-1) ^ k * am N bot top w h k (Z.of_nat N - 1 - i)) by (intro k; apply blur_mirror; intro j; apply share_mirror).
  unfold Bd. rewrite (orb_comm top bot), !X, !A. set (a := fun k => am N bot top w h k (Z.of_nat N - 1 - i)). set (x := fun k => bm b w h k (Z.of_nat N - 1 - i)). change (am N bot top w h ?k (Z.of_nat N - 1 - i)) with (a k). change (bm b w h ?k (Z.of_nat N - 1 - i)) with (x k).
  replace ((-1) ^ 0 * a 0%nat) with (a 0%nat) by ring. replace ((-1) ^ 0 * x 0%nat) with (x 0%nat) by ring. replace ((-1) ^ 1 * a 1%nat) with (- a 1%nat) by ring. replace ((-1) ^ 1 * x 1%nat) with (- x 1%nat) by ring. replace ((-1) ^ 2 * a 2%nat) with (a 2%nat) by ring. replace ((-1) ^ 2 * x 2%nat) with (x 2%nat) by ring.
  replace ((-1) ^ 3 * a 3%nat) with (- a 3%nat) by ring. replace ((-1) ^ 4 * a 4%nat) with (a 4%nat) by ring.
  destruct (_ && _); [| reflexivity]. destruct (Req_EM_T _ 0); [reflexivity |]. destruct (_ =? 0)%Z; [reflexivity |]. destruct (_ =? 1)%Z; f_equal; (f_equal; [ring | f_equal; ring]).
Qed.
Lemma biasF_mirror n bot top w h l : forall P P', (forall j, P' j = P (Z.of_nat (length l) - 1 - j)%Z) -> forall i, biasF n (length l) top bot w h (zat (rev l)) P' i = biasF n (length l) bot top w h (zat l) P (Z.of_nat (length l) - 1 - i).
Proof.
  induction n as [| n IH]; intros P P' E i; [apply E |]. cbn [biasF]. apply IH. clear i. intro i. unfold step. rewrite E. set (N := length l) in *.
  assert (X : blur w (gm w h 0) (fine (zat (rev l)) P') i = blur w (gm w h 0) (fine (zat l) P) (Z.of_nat N - 1 - i)). { etransitivity; [apply (blur_mirror w h 0 (fine (zat l) P)); intro j; unfold fine; rewrite zat_rev, E; reflexivity | cbn [pow]; apply Rmult_1_l]. }
  assert (A : a00 N top bot w h i = a00 N bot top w h (Z.of_nat N - 1 - i)). { unfold a00. etransitivity; [apply (blur_mirror w h 0 (cut N (share N bot top)) _ (Z.of_nat N - 1)); intro j; unfold cut; rewrite share_mirror | cbn [pow]; apply Rmult_1_l].
    destruct (Z.leb_spec 0 j), (Z.ltb_spec j (Z.of_nat N)), (Z.leb_spec 0 (Z.of_nat N - 1 - j)), (Z.ltb_spec (Z.of_nat N - 1 - j) (Z.of_nat N)); cbn [andb]; trivial; lia. }
  now rewrite X, A.
Qed.
Lemma tab_mirror N f : tab N (fun i => f (Z.of_nat N - 1 - i)%Z) = rev (tab N f).
Proof.
  symmetry. apply list_tab; [now rewrite rev_length, tab_len |]. intros i I. unfold at_. rewrite rev_nth by (now rewrite tab_len). rewrite tab_len. change (nth ?k ?l 0) with (at_ l k). rewrite tab_at by lia. f_equal. lia.
Qed.
Theorem C133_mirror order n bot top w h bins : sizes (length bins) w -> kde1 order n top bot w h (rev bins) = match kde1 order n bot top w h bins with Ok D => Ok (rev D) | Err e => Err e end.
Proof.
  intro S. assert (S' : sizes (length (rev bins)) w) by (now rewrite rev_length). destruct (Z_le_gt_dec order 2) as [HO | HO]; [| destruct (bot || top) eqn:B; [rewrite !C133_order by (rewrite ?(orb_comm top bot); trivial; lia); reflexivity |]].
  all: unfold kde1; rewrite !(raw_ok order n) by (trivial; (now left) || (right; now rewrite ?(orb_comm top bot))); cbn [bindR]; rewrite rev_length; set (N := length bins) in *;
    rewrite (tab_ext N (rawF order n top bot N w h (zat (rev bins))) (fun i => rawF order n bot top N w h (zat bins) (Z.of_nat N - 1 - i)%Z))
      by (intros i _; apply biasF_mirror; intro j; apply Bd_mirror; intro k; apply zat_rev);
    rewrite tab_mirror; set (l := tab N (rawF order n bot top N w h (zat bins)));
    assert (M : lmax (rev l) = lmax l)
      by (assert (NE : l <> []) by (intro Q; apply (f_equal (@length R)) in Q; unfold l in Q; rewrite tab_len in Q; cbn in Q; destruct S as (? & ? & _); lia); apply lmax_is; [apply -> in_rev; now apply lmax_in | intros x X; apply in_rev in X; now apply lmax_ge]);
    unfold normalize_max; rewrite M; destruct (Req_EM_T (lmax l) 0); [reflexivity | now rewrite map_rev].
Qed.
(** ** Examples *)
Example C133_example_width : smooth_bins 3 100 = 3 /\ winw_1D 3 100 = 8%Z.
Proof.
  assert (E : INR 100 = 100) by (rewrite INR_IZR_INZ; reflexivity). destruct (C133_width 3 100 ltac:(lia)) as (_ & B & C & _ & _ & D). rewrite B in * by (rewrite E; lra). split; [reflexivity |]. clear - C D.
  assert (M : (winw_1D 3 100 <= py_round (5 / 2 * 3))%Z) by apply Z.le_min_l. pose proof (round_near (5 / 2 * 3)) as RN. pose proof (round_half_even (5 / 2 * 3)) as RE.
  assert (RB : 7 <= IZR (py_round (5 / 2 * 3)) <= 8) by (revert RN; unfold Rabs; destruct (Rcase_abs _); lra). assert (Q : py_round (5 / 2 * 3) = 8%Z).
  { assert (7 <= py_round (5 / 2 * 3) <= 8)%Z as Z by (split; apply le_IZR; lra). destruct (Z.eq_dec (py_round (5 / 2 * 3)) 7) as [S | S]; [| lia]. rewrite S in RE. exfalso. assert (Z.even 7 = true); [apply RE; unfold Rabs; destruct (Rcase_abs _); lra | discriminate]. }
  unfold winw_1D. rewrite Q. reflexivity.
Qed.
Example C133_example_sizes : sizes 5 2.
Proof. unfold sizes. lia. Qed.
Example C133_example_flat order n h : (0 <= order <= 2)%Z -> kde1 order n true true 2 h [1; 2; 2; 2; 1] = Ok [1; 1; 1; 1; 1].
Proof. intro H. apply (C133_flat order n 2 h [1; 2; 2; 2; 1] 2); [exact C133_example_sizes | exact H | lra |]. intros i I. cbn [length] in I. do 5 (destruct i as [| i]; [cbn; lra |]). lia. Qed.
Example C133_example_density order n bot top h : (order <= 2)%Z -> exists D, kde1 order n bot top 2 h [3; 0; 0; 0; 0] = Ok D /\ In 1 D /\ 0 < nth 2 D 0 /\ nth 3 D 0 = 0.
Proof.
  intro H. destruct (C133_density order n bot top 2 h [3; 0; 0; 0; 0]) as (D & E & _ & M & V).
  - exact C133_example_sizes.
  - intros x X. repeat destruct X as [<- | X]; try lra. contradiction.
  - exists 3. split; [now left | lra].
  - now left.
  - exists D. split; [exact E |]. split; [exact M |]. split.
    + apply (V 2%nat); [cbn; lia |]. exists 2%Z. split; [lia |]. cbn. lra.
    + destruct (V 3%nat) as ((V0 & _) & VP); [cbn; lia |]. destruct (Rle_lt_or_eq_dec _ _ V0) as [L | L]; [| easy]. apply VP in L. destruct L as (d & DD & L). exfalso. unfold zat in L. destruct (Z.ltb_spec (Z.of_nat 3 - d) 0); [lra |].
      assert (K : (1 <= Z.to_nat (Z.of_nat 3 - d))%nat) by lia. destruct (Z.to_nat (Z.of_nat 3 - d)) as [| [| [| [| [| q]]]]]; cbn in L; try lia; try lra. destruct q; lra.
Qed.
(** linear samples up to the lower limit: 1/2, 2, 3, 4, 5 for the function 1 + i *)
Example C133_example_unbiased h : exists P, kde1_raw 1 0 true false 2 h [1 / 2; 2; 3; 4; 5] = Ok P /\ (1 <= 4 * (blur 2 (gk 2 h) (zat [1 / 2; 2; 3; 4; 5]) 0 / blur 2 (gk 2 h) (share 5 true false) 0) -> 1 <= nth 0 P 0).
Proof.
  destruct (C133_unbiased 1 true false 2 h [1 / 2; 2; 3; 4; 5] 0 1 1 0) as (P & E & _ & V).
  - exact C133_example_sizes.
  - reflexivity.
  - cbn. lia.
  - now left.
  - intros d D. assert (Q : (d = -2 \/ d = -1 \/ d = 0 \/ d = 1 \/ d = 2)%Z) by lia. destruct Q as [-> | [-> | [-> | [-> | ->]]]]; cbv -[IZR Rplus Rmult Rminus Ropp Rdiv Rinv]; lra.
  - assert (G : forall f, blur 2 (gk 2 h) f (Z.of_nat 0) = blur 2 (gm 2 h 0) f (Z.of_nat 0)) by (intro f; apply wsum_ext; intros; now rewrite gm0). rewrite !G. apply Rdiv_lt_0_compat.
    + apply blur_pos; [intros; apply zat_nonneg; intros x X; repeat destruct X as [<- | X]; try lra; contradiction |]. exists 0%Z. split; [lia |]. cbn. lra.
    + apply (am_denoms 5 true false 2 h 0 C133_example_sizes). lia.
  - exists P. split; [exact E | exact V].
Qed.
Example C133_example_plain h : exists P, kde1_raw 0 0 false false 2 h [0; 0; 7; 0; 0] = Ok P /\ rsum 5 (fun i => nth i P 0) = 7.
Proof.
  destruct (C133_plain 0 false false 2 h [0; 0; 7; 0; 0] C133_example_sizes) as (P & E & _ & T); [right; split; [reflexivity | lia] |]. exists P. split; [exact E |]. etransitivity; [apply T | cbn; lra]. intros i I. cbn in I. do 5 (destruct i as [| i]; [reflexivity || lia |]). now destruct i.
Qed.
Print Assumptions C133_width.
Print Assumptions C133_density.
Print Assumptions C133_unbiased.
Print Assumptions C133_flat.
Print Assumptions C133_mirror.
