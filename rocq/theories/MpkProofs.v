(** Lemmas for MpkProps.v *)
From Coq Require Import Reals Lra Lia ZArith Bool List.
From Verif Require Import McmcModel BaoModel BaoSpec BaoProofs SnModel SnProofs MpkModel MpkSpec.
Import ListNotations.
Local Open Scope R_scope.

Lemma wth_windowed g T i : wth g T i = windowed g T i.
Proof. unfold wth, matvec, windowed. apply sum1_total. Qed.
Lemma windowed_ext g T T' i : (forall j, (1 <= j <= bands g)%nat -> T j = T' j) -> windowed g T i = windowed g T' i.
Proof. intro E. unfold windowed. apply total_ext. intros j J. now rewrite E. Qed.
Lemma windowed_scale g T c i : windowed g (fun j => c * T j) i = c * windowed g T i.
Proof. unfold windowed. rewrite <- total_scale. apply total_ext. intros. ring. Qed.
Lemma windowed_lin g T U a b i : windowed g (fun j => a * T j + b * U j) i = a * windowed g T i + b * windowed g U i.
Proof. unfold windowed. rewrite <- !total_scale, <- total_plus. apply total_ext. intros. ring. Qed.
Lemma dot_matvec n M u v : dot n u (matvec n M v) = bf n M u v.
Proof. unfold dot, bf, matvec. rewrite sum1_total. apply total_ext. intros i I. rewrite sum1_total, <- total_scale. apply total_ext. intros. ring. Qed.
Lemma metric_diag g : icov g = None -> metric g = diagm (fun i => / sdev g i ^ 2).
Proof. intro E. unfold metric, diagm. now rewrite E. Qed.
Lemma metric_cov g C : icov g = Some C -> metric g = C.
Proof. intro E. unfold metric. now rewrite E. Qed.
Lemma no_sdev_false g : no_sdev g = false <-> forall i, (1 <= i <= pts g)%nat -> sdev g i <> 0.
Proof.
  unfold no_sdev. split.
  - intros E i I Z. assert (existsb (fun i => is0 (sdev g i)) (seq 1 (pts g)) = true); [| congruence].
    apply existsb_exists. exists i. split; [apply in_seq; lia |]. unfold is0. now destruct (Req_EM_T (sdev g i) 0).
  - intro E. apply not_true_is_false. intro H. apply existsb_exists in H. destruct H as (i & I & Z). apply in_seq in I. unfold is0 in Z.
    destruct (Req_EM_T (sdev g i) 0) as [Q |]; [exact (E i ltac:(lia) Q) | discriminate].
Qed.
Lemma bad_A_false Ag n ks : bad_A Ag n ks = false <-> forall i, (1 <= i <= n)%nat -> 1 + Ag * ks i <> 0.
Proof.
  unfold bad_A. split.
  - intros E i I Z. assert (existsb (fun i => is0 (1 + Ag * ks i)) (seq 1 n) = true); [| congruence].
    apply existsb_exists. exists i. split; [apply in_seq; lia |]. unfold is0. now destruct (Req_EM_T (1 + Ag * ks i) 0).
  - intro E. apply not_true_is_false. intro H. apply existsb_exists in H. destruct H as (i & I & Z). apply in_seq in I. unfold is0 in Z.
    destruct (Req_EM_T (1 + Ag * ks i) 0) as [Q |]; [exact (E i ltac:(lia) Q) | discriminate].
Qed.
Lemma dot_weigh g u v : dot (pts g) u (weigh g v) = bf (pts g) (metric g) u v.
Proof.
  unfold weigh. destruct (icov g) as [C |] eqn:E.
  - rewrite (metric_cov g C E). apply dot_matvec.
  - rewrite (metric_diag g E), bf_diag. unfold dot. rewrite sum1_total. apply total_ext. intros i I. unfold Rdiv. ring.
Qed.
Lemma errors_ok_cov g C : icov g = Some C -> errors_ok g. Proof. intros E N. congruence. Qed.
Lemma errors_ok_sdev g : errors_ok g -> icov g = None -> no_sdev g = false.
Proof. intros E N. apply no_sdev_false. exact (E N). Qed.

Definition A2 (g : region) : R := bf (pts g) (metric g) (Pd g) (Pd g).
Definition B2 (g : region) (T : nat -> R) : R := bf (pts g) (metric g) (windowed g T) (Pd g).
Definition N2 (g : region) (T U : nat -> R) : R := bf (pts g) (metric g) (windowed g T) (windowed g U).
Lemma bf_wth_l g M T v : bf (pts g) M (wth g T) v = bf (pts g) M (windowed g T) v.
Proof. apply bf_ext; intros; try reflexivity. apply wth_windowed. Qed.
Lemma bf_wth_r g M v T : bf (pts g) M v (wth g T) = bf (pts g) M v (windowed g T).
Proof. apply bf_ext; intros; try reflexivity. apply wth_windowed. Qed.

Lemma chisq1_eq g T : errors_ok g -> chisq1 g T = (if Rlt_dec 0 (N2 g T T) then Ok (A2 g - B2 g T ^ 2 / N2 g T T + ln (N2 g T T)) else Undef).
Proof.
  intro E. unfold chisq1. destruct (icov g) as [C |] eqn:I.
  - rewrite !dot_matvec, bf_wth_l, bf_wth_r, bf_wth_l. unfold A2, B2, N2. rewrite (metric_cov g C I). set (N := bf (pts g) C (windowed g T) (windowed g T)).
    unfold rdiv, rlog. destruct (Req_EM_T N 0) as [Z | NZ]; cbn [bind]; [destruct (Rlt_dec 0 N); [lra | reflexivity] |].
    destruct (Rlt_dec 0 N); reflexivity.
  - rewrite (errors_ok_sdev g E I).
    assert (EN : sum1 (pts g) (fun i => wth g T i * wth g T i * (1 / sdev g i ^ 2)) = N2 g T T).
    { unfold N2. rewrite (metric_diag g I), bf_diag, sum1_total. apply total_ext. intros i J. rewrite wth_windowed. unfold Rdiv. ring. }
    assert (EB : sum1 (pts g) (fun i => wth g T i * Pd g i * (1 / sdev g i ^ 2)) = B2 g T).
    { unfold B2. rewrite (metric_diag g I), bf_diag, sum1_total. apply total_ext. intros i J. rewrite wth_windowed. unfold Rdiv. ring. }
    cbv zeta. rewrite EN, EB. unfold rdiv, rlog. destruct (Req_EM_T (N2 g T T) 0) as [Z | NZ]; cbn [bind]; [destruct (Rlt_dec 0 (N2 g T T)); [lra | reflexivity] |].
    destruct (Rlt_dec 0 (N2 g T T)); [| reflexivity]. cbn [bind]. f_equal. f_equal.
    assert (EA : sum1 (pts g) (fun i => Pd g i * (Pd g i - wth g T i * (B2 g T / N2 g T T)) * (1 / sdev g i ^ 2)) = A2 g - B2 g T / N2 g T T * B2 g T).
    { set (t := B2 g T / N2 g T T). unfold A2, B2. rewrite (metric_diag g I), !bf_diag, sum1_total, <- total_scale.
      replace (total (fun i => / sdev g i ^ 2 * (Pd g i * Pd g i)) (pts g) - total (fun i => t * (/ sdev g i ^ 2 * (windowed g T i * Pd g i))) (pts g))
        with (total (fun i => / sdev g i ^ 2 * (Pd g i * Pd g i)) (pts g) + (-1) * total (fun i => t * (/ sdev g i ^ 2 * (windowed g T i * Pd g i))) (pts g)) by ring.
      rewrite <- total_scale, <- total_plus. apply total_ext. intros i J. rewrite wth_windowed. unfold Rdiv. ring. }
    rewrite EA. field. exact NZ.
Qed.
(** chi squared for two amplitudes *)
Lemma chi2_lin g T U x y : symmetric (pts g) (metric g) ->
  chi2 g (fun i => x * windowed g T i + y * windowed g U i) =
  A2 g - 2 * x * B2 g T - 2 * y * B2 g U + x * x * N2 g T T + 2 * x * y * N2 g T U + y * y * N2 g U U.
Proof.
  intro S. unfold chi2. rewrite <- bf_form.
  rewrite (bf_ext _ _ (metric g) _ (fun i => 1 * Pd g i + (- x * windowed g T i + - y * windowed g U i)) _ (fun i => 1 * Pd g i + (- x * windowed g T i + - y * windowed g U i))) by (intros; try reflexivity; ring).
  rewrite bf_square3 by exact S. unfold A2, B2, N2. rewrite (bf_sym _ _ (Pd g) (windowed g T) S), (bf_sym _ _ (Pd g) (windowed g U) S). ring.
Qed.
Lemma chi2_one g T b : symmetric (pts g) (metric g) -> chi2 g (fun i => b * windowed g T i) = A2 g - 2 * b * B2 g T + b * b * N2 g T T.
Proof.
  intro S. transitivity (chi2 g (fun i => b * windowed g T i + 0 * windowed g T i)).
  - unfold chi2. apply form_ext; intros; [reflexivity | ring].
  - rewrite chi2_lin by exact S. ring.
Qed.
(** the value of a marginalization is unique *)
Lemma marginal1_unique f v v' : marginal1 f v -> marginal1 f v' -> v = v'.
Proof.
  intros (m & N & b0 & P & F & ->) (m' & N' & b0' & P' & F' & ->).
  assert (E : forall b, m + N * (b - b0) ^ 2 = m' + N' * (b - b0') ^ 2) by (intro b; rewrite <- F, <- F'; reflexivity).
  assert (EN : N = N'). { pose proof (E 0) as E0. pose proof (E 1) as E1. pose proof (E (-1)) as E2. nra. }
  subst N'. assert (EB : b0 = b0'). { pose proof (E 0) as E0. pose proof (E 1) as E1. nra. }
  subst b0'. pose proof (E 0). replace m' with m by lra. reflexivity.
Qed.
Lemma marginal2_unique f v v' : marginal2 f v -> marginal2 f v' -> v = v'.
Proof.
  intros (m & a & b & d & x0 & y0 & P & D & F & ->) (m' & a' & b' & d' & x0' & y0' & P' & D' & F' & ->).
  assert (E : forall x y, m + a * (x - x0) ^ 2 + 2 * b * (x - x0) * (y - y0) + d * (y - y0) ^ 2 = m' + a' * (x - x0') ^ 2 + 2 * b' * (x - x0') * (y - y0') + d' * (y - y0') ^ 2)
    by (intros x y; rewrite <- F, <- F'; reflexivity).
  pose proof (E 0 0) as E00. pose proof (E 1 0) as E10. pose proof (E (-1) 0) as Em0. pose proof (E 0 1) as E01. pose proof (E 0 (-1)) as E0m. pose proof (E 1 1) as E11.
  assert (EA : a = a') by nra. assert (ED : d = d') by nra. assert (EB : b = b') by nra. subst a' d' b'.
  assert (X1 : a * (x0 - x0') + b * (y0 - y0') = 0) by nra. assert (X2 : b * (x0 - x0') + d * (y0 - y0') = 0) by nra.
  assert (Y : y0 = y0'). { assert ((a * d - b ^ 2) * (y0 - y0') = 0). { replace ((a * d - b ^ 2) * (y0 - y0')) with (a * (b * (x0 - x0') + d * (y0 - y0')) - b * (a * (x0 - x0') + b * (y0 - y0'))) by ring. rewrite X1, X2. ring. } apply Rmult_integral in H. lra. }
  subst y0'. assert (X : x0 = x0'). { assert (a * (x0 - x0') = 0) by lra. apply Rmult_integral in H. lra. }
  subst x0'. replace m' with m by lra. reflexivity.
Qed.
Lemma is_min_unique f m m' : is_min f m -> is_min f m' -> m = m'.
Proof. intros ((b & E) & L) ((b' & E') & L'). pose proof (L b'). pose proof (L' b). lra. Qed.
Lemma parabola_marginal A B N : 0 < N -> marginal1 (fun b => A - 2 * b * B + b * b * N) ((A - B ^ 2 / N + ln N) / 2).
Proof. intro P. exists (A - B ^ 2 / N), N, (B / N). repeat split; [exact P |]. intro b. field. lra. Qed.
Lemma marginal1_ext f f' v : (forall b, f b = f' b) -> marginal1 f v -> marginal1 f' v.
Proof. intros E (m & N & b0 & P & F & V). exists m, N, b0. repeat split; [exact P | | exact V]. intro b. rewrite <- E. apply F. Qed.
Lemma parabola_min A B N : 0 < N -> is_min (fun b => A - 2 * b * B + b * b * N) (A - B ^ 2 / N).
Proof.
  intro P. split; [exists (B / N); field; lra |]. intro b. replace (A - 2 * b * B + b * b * N) with (A - B ^ 2 / N + N * (b - B / N) ^ 2) by (field; lra).
  pose proof (pow2_ge_0 (b - B / N)). nra.
Qed.
(** the matrix of two amplitudes *)
Lemma flat_like_ok a b d v1 v2 pp v : flat_like a b d v1 v2 pp = Ok v ->
  marginal2 (fun x y => pp - 2 * x * v1 - 2 * y * v2 + x * x * a + 2 * x * y * b + y * y * d) v.
Proof.
  unfold flat_like. destruct (Rlt_dec (Rabs a) tiny); [discriminate |]. destruct (Rlt_dec (Rabs d) tiny); [discriminate |].
  destruct (Rlt_dec 0 a) as [P |]; [| discriminate]. destruct (Rlt_dec 0 (a * d - b ^ 2)) as [D |]; [| discriminate]. intro E. injection E as E.
  set (det := a * d - b ^ 2) in *. set (x0 := (d * v1 - b * v2) / det). set (y0 := (a * v2 - b * v1) / det).
  exists (pp - (x0 * v1 + y0 * v2)), a, b, d, x0, y0. repeat split; [exact P | exact D | |].
  - intros x y. unfold x0, y0, det. field. unfold det in D. lra.
  - rewrite <- E. f_equal. f_equal. replace (x0 * v1 + y0 * v2) with (v1 * (d / det * v1 + - b / det * v2) + v2 * (- b / det * v1 + a / det * v2)); [reflexivity |]. unfold x0, y0. field. lra.
Qed.
Lemma flat_like_exists a b d v1 v2 pp : tiny <= a -> tiny <= d -> 0 < a * d - b ^ 2 -> exists v, flat_like a b d v1 v2 pp = Ok v.
Proof.
  intros A D P. assert (T : 0 < tiny) by (unfold tiny; apply Rinv_0_lt_compat, pow_lt; lra). unfold flat_like.
  destruct (Rlt_dec (Rabs a) tiny) as [L |]; [rewrite Rabs_right in L by lra; lra |].
  destruct (Rlt_dec (Rabs d) tiny) as [L |]; [rewrite Rabs_right in L by lra; lra |].
  destruct (Rlt_dec 0 a); [| lra]. destruct (Rlt_dec 0 (a * d - b ^ 2)); [eexists; reflexivity | lra].
Qed.
(** ** values of Q *)
Lemma mapO_spec {A B} (f : A -> out B) l : forall r, mapO f l = Ok r -> Forall2 (fun x y => f x = Ok y) l r.
Proof.
  induction l as [| x l IH]; intros r E; cbn [mapO] in E; [injection E as <-; constructor |].
  destruct (f x) as [y | |] eqn:F; try discriminate. cbn [bind] in E. destruct (mapO f l) as [t | |] eqn:M; try discriminate. cbn [bind] in E. injection E as <-.
  constructor; [exact F | now apply IH].
Qed.
Lemma mapO_ok {A B} (f : A -> out B) l : (forall x, In x l -> exists y, f x = Ok y) -> exists r, mapO f l = Ok r.
Proof.
  induction l as [| x l IH]; intro E; cbn [mapO]; [eexists; reflexivity |].
  destruct (E x (or_introl eq_refl)) as (y & ->). destruct IH as (r & ->); [intros; apply E; now right |]. eexists; reflexivity.
Qed.
Lemma fold_min_le l : forall s, fold_left Rmin l s <= s /\ (forall x, In x l -> fold_left Rmin l s <= x) /\ (fold_left Rmin l s = s \/ In (fold_left Rmin l s) l).
Proof.
  induction l as [| x l IH]; intro s; cbn [fold_left]; [repeat split; [lra | intros y [] | now left] |].
  destruct (IH (Rmin s x)) as (L & A & E). pose proof (Rmin_l s x). pose proof (Rmin_r s x). repeat split; [lra | |].
  - intros y [<- | Y]; [lra | now apply A].
  - destruct E as [E | E]; [| right; now right]. rewrite E. unfold Rmin. destruct (Rle_dec s x); [now left | right; now left].
Qed.
Lemma iQs_13 : iQs = [-6; -5; -4; -3; -2; -1; 0; 1; 2; 3; 4; 5; 6]%Z. Proof. reflexivity. Qed.
Lemma rsum_cons x l : rsum (x :: l) = x + rsum l. Proof. reflexivity. Qed.
Lemma rsum_pos l : l <> [] -> (forall x, In x l -> 0 < x) -> 0 < rsum l.
Proof.
  induction l as [| x l IH]; intros N P; [contradiction |]. rewrite rsum_cons. pose proof (P x (or_introl eq_refl)).
  destruct l as [| y l]; [cbn; lra |]. assert (0 < rsum (y :: l)); [| lra]. apply IH; [discriminate | intros; apply P; now right].
Qed.
Lemma calweight_pos i : 0 < calweight i. Proof. apply exp_pos. Qed.
Lemma rsum_scale {A} c (f : A -> R) l : rsum (map (fun x => c * f x) l) = c * rsum (map f l).
Proof. induction l as [| x l IH]; cbn [map]; [cbn; ring |]. rewrite !rsum_cons, IH. ring. Qed.
Lemma rsum_ext {A} (f g : A -> R) l : (forall x, In x l -> f x = g x) -> rsum (map f l) = rsum (map g l).
Proof. induction l as [| x l IH]; intro E; cbn [map]; [reflexivity |]. rewrite !rsum_cons, IH by (intros; apply E; now right). rewrite E by now left. reflexivity. Qed.
(** the value for a list of 13 *)
Lemma average_ok cs : length cs = 13%nat -> exists v, average cs = Ok v /\ exp (- v) * rsum (map calweight iQs) = rsum (map (fun p => calweight (fst p) * exp (- (snd p / 2))) (combine iQs cs)).
Proof.
  intro L. destruct cs as [| c u]; [discriminate |]. set (cs := c :: u) in *. unfold average. change (c :: u) with cs. fold cs. unfold cs at 1. fold cs.
  set (best := fold_left Rmin u c). set (W := rsum (map calweight iQs)).
  assert (PW : 0 < W) by (apply rsum_pos; [discriminate | intros x I; apply in_map_iff in I; destruct I as (i & <- & _); apply calweight_pos]).
  set (S := rsum (map (fun p => exp (- (snd p - best) / 2) * calweight (fst p)) (combine iQs cs))).
  assert (ES : S = exp (best / 2) * rsum (map (fun p => calweight (fst p) * exp (- (snd p / 2))) (combine iQs cs))).
  { unfold S. rewrite <- rsum_scale. apply rsum_ext. intros p _. replace (- (snd p - best) / 2) with (best / 2 + - (snd p / 2)) by field. rewrite exp_plus. ring. }
  assert (PS : 0 < S).
  { unfold S. apply rsum_pos; [unfold cs; discriminate |]. intros x I. apply in_map_iff in I. destruct I as (p & <- & _). apply Rmult_lt_0_compat; [apply exp_pos | apply calweight_pos]. }
  assert (PX : 0 < S / W) by (apply Rdiv_lt_0_compat; assumption).
  destruct (Req_EM_T (S / W) 0) as [Z |]; [lra |]. rewrite (rlog_pos _ PX). cbn [bind]. eexists. split; [reflexivity |].
  replace (- (- ln (S / W) + best / 2)) with (ln (S / W) + - (best / 2)) by ring. rewrite exp_plus, exp_ln by exact PX. rewrite ES at 1.
  rewrite (exp_Ropp (best / 2)). field. split; [pose proof (exp_pos (best / 2)); lra | lra].
Qed.
Lemma total_S f n : total f (S n) = total f n + f (S n). Proof. reflexivity. Qed.
Lemma rsum_app l l' : rsum (l ++ l') = rsum l + rsum l'.
Proof. induction l as [| x l IH]; cbn [app]; [cbn; ring |]. rewrite !rsum_cons, IH. ring. Qed.
Lemma rsum_total f n : rsum (map f (seq 1 n)) = total f n.
Proof. induction n as [| n IH]; [reflexivity |]. rewrite seq_S, map_app, rsum_app, IH. cbn [map total rsum fold_right]. replace (1 + n)%nat with (S n) by lia. ring. Qed.
Lemma iQs_seq : iQs = map (fun k => (Z.of_nat k - 7)%Z) (seq 1 13). Proof. reflexivity. Qed.
Lemma calweight_gauss k : calweight (Z.of_nat k - 7) = gauss dQ k.
Proof. unfold calweight, gauss. rewrite minus_IZR, <- INR_IZR_INZ. reflexivity. Qed.
Lemma combine_map_seq {A} (f : nat -> A) (d : R) cs : forall s n, length cs = n -> combine (map f (seq s n)) cs = map (fun k => (f k, nth (k - s) cs d)) (seq s n).
Proof.
  induction cs as [| c cs IH]; intros s n L; cbn [length] in L; subst n; [reflexivity |]. cbn [seq map combine]. rewrite Nat.sub_diag. cbn [nth]. f_equal.
  rewrite (IH (S s) (length cs) eq_refl). apply map_ext_in. intros k K. apply in_seq in K. f_equal. replace (k - s)%nat with (S (k - S s)) by lia. reflexivity.
Qed.
Lemma average_mean cs v : length cs = 13%nat -> average cs = Ok v -> log_mean dQ (fun k => nth (k - 1) cs 0 / 2) v.
Proof.
  intros L E. destruct (average_ok cs L) as (v' & E' & S). rewrite E in E'. injection E' as <-. unfold log_mean.
  rewrite iQs_seq in S. rewrite map_map in S. rewrite (combine_map_seq _ 0 cs 1 13 L), map_map in S. cbn [fst snd] in S.
  rewrite !rsum_total in S. rewrite (total_ext 13 (gauss dQ) (fun k => calweight (Z.of_nat k - 7))) by (intros; symmetry; apply calweight_gauss). rewrite S.
  apply total_ext. intros k _. rewrite calweight_gauss. reflexivity.
Qed.
Lemma total_le n f g : (forall i, (1 <= i <= n)%nat -> f i <= g i) -> total f n <= total g n.
Proof. induction n as [| n IH]; intro E; cbn [total]; [lra |]. pose proof (E (S n) ltac:(lia)). pose proof (IH ltac:(intros; apply E; lia)). lra. Qed.
Lemma total_pos n f : (1 <= n)%nat -> (forall i, (1 <= i <= n)%nat -> 0 < f i) -> 0 < total f n.
Proof.
  induction n as [| n IH]; intros N E; [lia |]. cbn [total]. pose proof (E (S n) ltac:(lia)). destruct n as [| n]; [cbn; lra |].
  pose proof (IH ltac:(lia) ltac:(intros; apply E; lia)). lra.
Qed.
Lemma gauss_pos dq k : 0 < gauss dq k. Proof. apply exp_pos. Qed.
Lemma log_mean_mono dq l l' v v' : (forall k, (1 <= k <= 13)%nat -> l k <= l' k) -> log_mean dq l v -> log_mean dq l' v' -> v <= v'.
Proof.
  intros L E E'. unfold log_mean in *. assert (G : 0 < total (gauss dq) 13) by (apply total_pos; [lia | intros; apply gauss_pos]).
  assert (T : total (fun k => gauss dq k * exp (- l' k)) 13 <= total (fun k => gauss dq k * exp (- l k)) 13).
  { apply total_le. intros k K. apply Rmult_le_compat_l; [apply Rlt_le, gauss_pos |]. destruct (L k K) as [Q | Q]; [apply Rlt_le, exp_increasing; lra | rewrite Q; lra]. }
  rewrite <- E, <- E' in T. apply Rmult_le_reg_r in T; [| exact G]. destruct (Rle_or_lt v v') as [| Q]; [assumption |].
  assert (exp (- v) < exp (- v')) by (apply exp_increasing; lra). lra.
Qed.
Lemma log_mean_const dq c : log_mean dq (fun _ => c) c.
Proof. unfold log_mean. rewrite <- total_scale. apply total_ext. intros. ring. Qed.
Lemma log_mean_unique dq l v v' : log_mean dq l v -> log_mean dq l v' -> v = v'.
Proof. intros E E'. pose proof (log_mean_mono dq l l v v' ltac:(intros; lra) E E'). pose proof (log_mean_mono dq l l v' v ltac:(intros; lra) E' E). lra. Qed.
Lemma log_mean_ext dq l l' v : (forall k, (1 <= k <= 13)%nat -> l k = l' k) -> log_mean dq l v -> log_mean dq l' v.
Proof. intros E H. unfold log_mean in *. rewrite H. apply total_ext. intros k K. now rewrite E. Qed.
Lemma log_mean_shift dq l c v : log_mean dq l v -> log_mean dq (fun k => l k + c) (v + c).
Proof.
  unfold log_mean. intro H. replace (- (v + c)) with (- c + - v) by ring. rewrite exp_plus, Rmult_assoc, H, <- total_scale. apply total_ext. intros k _.
  replace (- (l k + c)) with (- c + - l k) by ring. rewrite exp_plus. ring.
Qed.
Lemma finite_max n (l : nat -> R) : (1 <= n)%nat -> exists k, (1 <= k <= n)%nat /\ forall j, (1 <= j <= n)%nat -> l j <= l k.
Proof.
  induction n as [| n IH]; intro N; [lia |]. destruct n as [| n]; [exists 1%nat; split; [lia |]; intros j J; replace j with 1%nat by lia; lra |].
  destruct (IH ltac:(lia)) as (k & K & M). destruct (Rle_or_lt (l (S (S n))) (l k)) as [Q | Q].
  - exists k. split; [lia |]. intros j J. destruct (Nat.eq_dec j (S (S n))) as [-> |]; [exact Q | apply M; lia].
  - exists (S (S n)). split; [lia |]. intros j J. destruct (Nat.eq_dec j (S (S n))) as [-> |]; [lra |]. pose proof (M j ltac:(lia)). lra.
Qed.
Lemma log_mean_between dq l v : log_mean dq l v -> exists a b, (1 <= a <= 13)%nat /\ (1 <= b <= 13)%nat /\ l a <= v <= l b.
Proof.
  intro H. destruct (finite_max 13 l ltac:(lia)) as (b & B & MB). destruct (finite_max 13 (fun k => - l k) ltac:(lia)) as (a & A & MA). exists a, b. repeat split; try lia.
  - apply (log_mean_mono dq (fun _ => l a) l); [| apply log_mean_const | exact H]. intros k K. pose proof (MA k K). cbn in H0. lra.
  - apply (log_mean_mono dq l (fun _ => l b)); [| exact H | apply log_mean_const]. intros k K. exact (MB k K).
Qed.
Lemma Forall2_nth {A B} (P : A -> B -> Prop) l r : Forall2 P l r -> forall k d e, (k < length l)%nat -> P (nth k l d) (nth k r e).
Proof. induction 1 as [| x y l r H F IH]; intros k d e K; cbn [length] in K; [lia |]. destruct k; cbn [nth]; [exact H | apply IH; lia]. Qed.
Lemma Forall2_len {A B} (P : A -> B -> Prop) l r : Forall2 P l r -> length l = length r.
Proof. induction 1; cbn; congruence. Qed.
Lemma nth_iQs k : (1 <= k <= 13)%nat -> nth (k - 1) iQs 0%Z = (Z.of_nat k - 7)%Z.
Proof. intro K. rewrite iQs_seq, (nth_indep _ 0%Z (Z.of_nat 0 - 7)%Z) by (rewrite map_length, seq_length; lia). rewrite (map_nth (fun k => (Z.of_nat k - 7)%Z)), seq_nth by lia. f_equal. f_equal. lia. Qed.
(** ** regions together *)
Lemma over_cons g gs f : over_regions (g :: gs) f = f g + over_regions gs f. Proof. reflexivity. Qed.
Lemma all_chi2_lin gs T U x y : (forall g, In g gs -> symmetric (pts g) (metric g)) ->
  all_chi2 gs (fun g i => x * windowed g T i + y * windowed g U i) =
  over_regions gs A2 - 2 * x * over_regions gs (fun g => B2 g T) - 2 * y * over_regions gs (fun g => B2 g U) + x * x * over_regions gs (fun g => N2 g T T)
  + 2 * x * y * over_regions gs (fun g => N2 g T U) + y * y * over_regions gs (fun g => N2 g U U).
Proof.
  induction gs as [| g gs IH]; intro S; cbn [all_chi2]; [unfold over_regions; cbn; ring |]. rewrite IH by (intros; apply S; now right). rewrite chi2_lin by (apply S; now left).
  rewrite !over_cons. ring.
Qed.
Lemma all_chi2_one gs T b : (forall g, In g gs -> symmetric (pts g) (metric g)) ->
  all_chi2 gs (fun g i => b * windowed g T i) = over_regions gs A2 - 2 * b * over_regions gs (fun g => B2 g T) + b * b * over_regions gs (fun g => N2 g T T).
Proof.
  induction gs as [| g gs IH]; intro S; cbn [all_chi2]; [unfold over_regions; cbn; ring |]. rewrite IH by (intros; apply S; now right). rewrite chi2_one by (apply S; now left).
  rewrite !over_cons. ring.
Qed.
Lemma over_ext gs f f' : (forall g, In g gs -> f g = f' g) -> over_regions gs f = over_regions gs f'.
Proof. apply rsum_ext. Qed.
Lemma w_pp_A g : w_pp g = A2 g. Proof. unfold w_pp, A2. apply dot_weigh. Qed.
Lemma w_tp_B g T : w_tp T g = B2 g T. Proof. unfold w_tp, B2. rewrite dot_weigh. apply bf_wth_l. Qed.
Lemma w_tt_N g T U : symmetric (pts g) (metric g) -> w_tt T U g = N2 g T U.
Proof. intro S. unfold w_tt, N2. rewrite dot_comm, dot_weigh, bf_sym, bf_wth_l, bf_wth_r by exact S. reflexivity. Qed.
Lemma wig_chisq_eq sgl gs T N0 : (forall g, In g gs -> symmetric (pts g) (metric g)) ->
  wig_chisq sgl gs T N0 = (let N := sgl (N0 + over_regions gs (fun g => N2 g T T)) in if Req_EM_T N 0 then Undef else Ok (over_regions gs A2 - over_regions gs (fun g => B2 g T) ^ 2 / N, N)).
Proof.
  intro S. unfold wig_chisq. cbv zeta. rewrite (over_ext gs (w_tt T T) (fun g => N2 g T T)) by (intros; apply w_tt_N; now apply S).
  rewrite (over_ext gs (w_tp T) (fun g => B2 g T)) by (intros; apply w_tp_B). rewrite (over_ext gs w_pp A2) by (intros; apply w_pp_A).
  unfold rdiv. destruct (Req_EM_T (sgl (N0 + over_regions gs (fun g => N2 g T T))) 0); reflexivity.
Qed.
(** ** reading *)
Lemma read_points_all vals : forall n i P s ok, (n <= length vals)%nat -> exists P' s', read_points n (map Some vals) i P s ok = (P', s', if Nat.eqb n 0 then ok else Some true) /\
  (forall k, (k < n)%nat -> P' (i + k)%nat = Some (fst (nth k vals (0, 0))) /\ s' (i + k)%nat = Some (snd (nth k vals (0, 0)))) /\ (forall k, (k < i)%nat -> P' k = P k /\ s' k = s k).
Proof.
  induction vals as [| [p e] vals IH]; intros n i P s ok L; cbn [length] in L.
  - replace n with O by lia. eexists _, _. split; [reflexivity |]. split; intros; [lia | split; reflexivity].
  - destruct n as [| n]; [eexists _, _; split; [reflexivity |]; split; intros; [lia | split; reflexivity] |]. cbn [map read_points].
    destruct (IH n (S i) (upd P i (Some p)) (upd s i (Some e)) (Some true) ltac:(lia)) as (P' & s' & E & K & B). exists P', s'. repeat split.
    + rewrite E. cbn [Nat.eqb]. destruct (Nat.eqb n 0); reflexivity.
    + destruct k as [| k]; [replace (i + 0)%nat with i by lia; rewrite (proj1 (B i ltac:(lia))), upd_same; reflexivity |]. replace (i + S k)%nat with (S i + k)%nat by lia. apply K. lia.
    + destruct k as [| k]; [replace (i + 0)%nat with i by lia; rewrite (proj2 (B i ltac:(lia))), upd_same; reflexivity |]. replace (i + S k)%nat with (S i + k)%nat by lia. apply K. lia.
    + rewrite (proj1 (B k ltac:(lia))). apply upd_other. lia.
    + rewrite (proj2 (B k ltac:(lia))). apply upd_other. lia.
Qed.
Lemma read_points_last n : forall rows i P s ok, (1 <= n)%nat -> snd (read_points n rows i P s ok) = Some (match nth_error rows (n - 1) with Some (Some _) => true | _ => false end).
Proof.
  induction n as [| n IH]; intros rows i P s ok N; [lia |]. destruct n as [| n].
  - destruct rows as [| [[p e] |] rows]; reflexivity.
  - change (S (S n) - 1)%nat with (S n). remember (S n) as q eqn:EQ. destruct rows as [| [[p e] |] rows]; cbn [read_points]; rewrite IH by lia; rewrite EQ; replace (S n - 1)%nat with n by lia; try reflexivity. now destruct n.
Qed.
Lemma nth_error_skipn {A} k : forall (l : list A) j, nth_error (skipn k l) j = nth_error l (k + j).
Proof. induction k as [| k IH]; intros l j; [reflexivity |]. destruct l as [| x l]; [now destruct j |]. apply IH. Qed.
Lemma nth_skipn {A} k : forall (l : list A) j d, nth j (skipn k l) d = nth (k + j) l d.
Proof. induction k as [| k IH]; intros l j d; [reflexivity |]. destruct l as [| x l]; [now destruct j |]. apply IH. Qed.
Lemma points_of_all vals : forall n i P ok rest, (n <= length vals)%nat -> exists P', points_of n (map Row vals ++ rest) i P ok = (P', if Nat.eqb n 0 then ok else true, map Row (skipn n vals) ++ rest) /\
  (forall k, (k < n)%nat -> P' (i + k)%nat = nth k vals 0) /\ (forall k, (k < i)%nat -> P' k = P k).
Proof.
  induction vals as [| p vals IH]; intros n i P ok rest L; cbn [length] in L.
  - replace n with O by lia. exists P. split; [destruct rest as [| []]; reflexivity |]. split; intros; [lia | reflexivity].
  - destruct n as [| n]; [exists P; split; [reflexivity |]; split; intros; [lia | reflexivity] |]. cbn [map app points_of].
    destruct (IH n (S i) (upd P i p) true rest ltac:(lia)) as (P' & E & K & B). exists P'. repeat split.
    + rewrite E. cbn [Nat.eqb skipn]. destruct (Nat.eqb n 0); reflexivity.
    + intros k HK. destruct k as [| k]; [replace (i + 0)%nat with i by lia; rewrite (B i ltac:(lia)), upd_same; reflexivity |]. replace (i + S k)%nat with (S i + k)%nat by lia. apply K. lia.
    + intros k HK. rewrite (B k ltac:(lia)). apply upd_other. lia.
Qed.
Lemma strict_all vals rest : forall n, n = length vals -> strict n (map Row vals ++ rest) = Ok rest.
Proof. induction vals as [| p vals IH]; intros n ->; [reflexivity |]. cbn. now apply IH. Qed.
Lemma skipn_map_Row k : forall vals rest, (k <= length vals)%nat -> skipn k (map Row vals ++ rest) = map Row (skipn k vals) ++ rest.
Proof. induction k as [| k IH]; intros vals rest L; [reflexivity |]. destruct vals; cbn [length] in L; [lia |]. cbn. apply IH. lia. Qed.
Lemma select_cons {A} (a : bool) active (x : A) l : select (a :: active) (x :: l) = if a then x :: select active l else select active l.
Proof. unfold select. cbn. destruct a; reflexivity. Qed.
Lemma skip_ok_true k vals rest : (k <= length vals)%nat -> skip_ok k (map Row vals ++ rest) true = true.
Proof.
  intro L. destruct k as [| k]; [reflexivity |]. cbn [skip_ok]. rewrite nth_error_app1 by (rewrite map_length; lia).
  destruct (nth_error (map Row vals) k) as [[|] |] eqn:E; [| reflexivity |].
  - apply nth_error_In, in_map_iff in E. destruct E as (? & ? & _). discriminate.
  - apply nth_error_None in E. rewrite map_length in E. lia.
Qed.
Lemma wig_points_all full mn mx : (1 <= mn <= mx)%nat -> (mx <= full)%nat -> forall active regs, length active = length regs -> (forall vals, In vals regs -> length vals = full) ->
  (full = 50%nat \/ forall a, In a active -> a = true) ->
  exists Ps, wig_points full mn mx active (measurements_file regs) true = Ok Ps /\
    Forall2 (fun P vals => forall i, (1 <= i <= mx + 1 - mn)%nat -> P i = nth (mn + i - 2) vals 0) Ps (select active regs).
Proof.
  intros MN MX. induction active as [| a active IH]; intros regs L F H; destruct regs as [| vals regs]; try discriminate; [exists []; split; [reflexivity | constructor] |].
  cbn [length] in L. destruct (IH regs ltac:(lia) ltac:(intros; apply F; now right) ltac:(destruct H as [H | H]; [now left | right; intros; apply H; now right])) as (Ps & E & S).
  pose proof (F vals (or_introl eq_refl)) as LV.
  assert (EM : measurements_file (vals :: regs) = Head :: Head :: map Row vals ++ measurements_file regs) by reflexivity.
  rewrite EM. cbn [wig_points headlines bind]. rewrite select_cons. destruct a.
  - rewrite skipn_map_Row by lia. rewrite skip_ok_true by lia. destruct (points_of_all (skipn (mn - 1) vals) (mx + 1 - mn) 1 (fun _ => 0) true (measurements_file regs) ltac:(rewrite skipn_length; lia)) as (P & EP & K & _).
    rewrite EP. rewrite strict_all by (rewrite !skipn_length; lia). cbn [bind].
    replace (if Nat.eqb (mx + 1 - mn) 0 then true else true) with true by (destruct (Nat.eqb _ _); reflexivity).
    replace (if Nat.ltb mx full then true else true) with true by (destruct (Nat.ltb _ _); reflexivity).
    rewrite E. cbn [bind]. exists (P :: Ps). split; [reflexivity |]. constructor; [| exact S].
    intros i I. replace i with (1 + (i - 1))%nat at 1 by lia. rewrite K by lia. rewrite nth_skipn. f_equal. lia.
  - assert (full = 50)%nat by (destruct H as [H | H]; [exact H | discriminate (H false (or_introl eq_refl))]). rewrite strict_all by lia. cbn [bind]. rewrite E. exists Ps. split; [reflexivity | exact S].
Qed.
Lemma wig_rows_all r n rows : forall j M rest, (forall xs, In xs rows -> length xs = n) -> exists M', wig_rows r j (length rows) n (map WRow rows ++ rest) M = Ok (M', Some rest) /\
  (forall b c, (b < length rows)%nat -> (1 <= c <= n)%nat -> M' r (j + b)%nat c = Some (nth (c - 1) (nth b rows []) 0)) /\
  (forall a b c, a <> r -> M' a b c = M a b c) /\ (forall a b c, (b < j)%nat -> M' a b c = M a b c).
Proof.
  induction rows as [| xs rows IH]; intros j M rest F; cbn [length map app wig_rows].
  - exists M. repeat split; intros; lia.
  - rewrite (F xs (or_introl eq_refl)), Nat.ltb_irrefl.
    set (M1 := fun a b c : nat => if (a =? r)%nat && (b =? j)%nat && (1 <=? c)%nat && (c <=? n)%nat then Some (nth (c - 1) xs 0) else M a b c).
    destruct (IH (S j) M1 rest ltac:(intros; apply F; now right)) as (M' & E & K & A & B). exists M'. split; [exact E |]. repeat split.
    + intros b c L C. destruct b as [| b]; [| replace (j + S b)%nat with (S j + b)%nat by lia; apply K; lia].
      replace (j + 0)%nat with j by lia. rewrite B by lia. unfold M1. rewrite !Nat.eqb_refl. destruct (Nat.leb_spec 1 c), (Nat.leb_spec c n); try lia. reflexivity.
    + intros a b c N. rewrite A by exact N. unfold M1. destruct (Nat.eqb_spec a r); [contradiction | reflexivity].
    + intros a b c L. rewrite B by lia. unfold M1. destruct (Nat.eqb_spec b j); [lia |]. now rewrite andb_false_r.
Qed.
Lemma read_matrices_all m n mats : forall r M, (forall rows, In rows mats -> length rows = m /\ forall xs, In xs rows -> length xs = n) ->
  exists M', ReadWiggleZMatrices (length mats) r m n (matrices_file mats) M = Ok M' /\
  (forall a b c, (a < length mats)%nat -> (1 <= b <= m)%nat -> (1 <= c <= n)%nat -> M' (r + a)%nat b c = Some (nth (c - 1) (nth (b - 1) (nth a mats []) []) 0)) /\
  (forall a b c, (a < r)%nat -> M' a b c = M a b c).
Proof.
  induction mats as [| rows mats IH]; intros r M F; cbn [length ReadWiggleZMatrices].
  - exists M. repeat split; intros; lia.
  - destruct (F rows (or_introl eq_refl)) as (LR & LX). assert (EM : matrices_file (rows :: mats) = WHead :: map WRow rows ++ matrices_file mats) by reflexivity. rewrite EM.
    destruct (wig_rows_all r n rows 1 M (matrices_file mats) LX) as (M1 & E1 & K1 & A1 & _). rewrite LR in E1. rewrite E1. cbn [bind fst snd].
    destruct (IH (S r) M1 ltac:(intros; apply F; now right)) as (M' & E & K & B). exists M'. split; [exact E |]. split.
    + intros a b c L HB HC. destruct a as [| a]; [| replace (r + S a)%nat with (S r + a)%nat by lia; apply K; lia].
      replace (r + 0)%nat with r by lia. rewrite B by lia. replace b with (1 + (b - 1))%nat at 1 by lia. rewrite K1 by lia. reflexivity.
    + intros a b c L. rewrite B by lia. apply A1. lia.
Qed.
Lemma chosen_select {A} (d : A) active : forall r l, length active = length l -> map (fun k => nth (k - r) l d) (chosen_regions active r) = select active l.
Proof.
  assert (G : forall active r k, In k (chosen_regions active r) -> (r <= k)%nat).
  { induction active0 as [| a active0 IH]; intros r k I; cbn in I; [contradiction |]. destruct a; [destruct I as [<- | I]; [lia |] |]; apply IH in I; lia. }
  induction active as [| a active IH]; intros r l L; destruct l as [| x l]; try discriminate; [reflexivity |]. cbn [length] in L. rewrite select_cons.
  assert (E : map (fun k => nth (k - r) (x :: l) d) (chosen_regions active (S r)) = select active l).
  { rewrite <- (IH (S r) l ltac:(lia)). apply map_ext_in. intros k K. apply G in K. replace (k - r)%nat with (S (k - S r)) by lia. reflexivity. }
  cbn [chosen_regions]. destruct a; [cbn [map]; f_equal; [now rewrite Nat.sub_diag | exact E] | exact E].
Qed.
(** norms that are kept from one value of Q to the next make chi squared too large *)
Lemma wig_loop_above gs T l : (forall g, In g gs -> symmetric (pts g) (metric g)) -> (forall i, In i l -> 0 < over_regions gs (fun g => N2 g (T i) (T i))) -> forall N0 cs, 0 <= N0 -> wig_loop (fun x => x) gs T l N0 = Ok cs ->
  Forall2 (fun i c => over_regions gs A2 - over_regions gs (fun g => B2 g (T i)) ^ 2 / over_regions gs (fun g => N2 g (T i) (T i)) <= c) l cs.
Proof.
  intro S. induction l as [| i l IH]; intros P N0 cs Z H; cbn [wig_loop] in H; [injection H as <-; constructor |].
  rewrite wig_chisq_eq in H by exact S. cbv beta zeta in H. pose proof (P i (or_introl eq_refl)) as PI. set (N := over_regions gs (fun g => N2 g (T i) (T i))) in *. destruct (Req_EM_T (N0 + N) 0); [lra |]. cbn [bind fst snd] in H.
  destruct (wig_loop (fun x => x) gs T l (N0 + N)) as [t | |] eqn:W; try discriminate. cbn [bind] in H. injection H as <-. constructor.
  - set (B := over_regions gs (fun g => B2 g (T i))). fold N. assert (B ^ 2 / (N0 + N) <= B ^ 2 / N); [| lra].
    unfold Rdiv. apply Rmult_le_compat_l; [apply pow2_ge_0 |]. apply Rinv_le_contravar; lra.
  - apply (IH ltac:(intros; apply P; now right) (N0 + N)); [lra | exact W].
Qed.
Lemma wig_loop_ok gs T l : (forall g, In g gs -> symmetric (pts g) (metric g)) -> (forall i, In i l -> 0 < over_regions gs (fun g => N2 g (T i) (T i))) -> forall N0, 0 <= N0 -> exists cs, wig_loop (fun x => x) gs T l N0 = Ok cs.
Proof.
  intro S. induction l as [| i l IH]; intros P N0 Z; cbn [wig_loop]; [eexists; reflexivity |].
  rewrite wig_chisq_eq by exact S. cbv beta zeta. pose proof (P i (or_introl eq_refl)) as PI. set (N := over_regions gs (fun g => N2 g (T i) (T i))) in *. destruct (Req_EM_T (N0 + N) 0); [lra |]. cbn [bind fst snd].
  destruct (IH ltac:(intros; apply P; now right) (N0 + N) ltac:(lra)) as (cs & ->). eexists; reflexivity.
Qed.
Lemma log_mean_exists dq l : exists v, log_mean dq l v.
Proof.
  assert (G : 0 < total (gauss dq) 13) by (apply total_pos; [lia | intros; apply gauss_pos]).
  set (X := total (fun k => gauss dq k * exp (- l k)) 13). assert (PX : 0 < X) by (apply total_pos; [lia | intros; apply Rmult_lt_0_compat; [apply gauss_pos | apply exp_pos]]).
  exists (- ln (X / total (gauss dq) 13)). unfold log_mean. rewrite Ropp_involutive, exp_ln by (apply Rdiv_lt_0_compat; assumption). fold X. field. lra.
Qed.
