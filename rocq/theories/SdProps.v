(** C145: test of Gelman and Rubin, densities and kernels of the Fortran program. *)
From Coq Require Import Reals ZArith Bool Lia Lra Psatz.
From Verif Require Import BaoModel StatModel StatSpec StatProofs CnvgModel CnvgSpec CnvgProofs SdModel SdSpec.
From Coq Require Import List.
Import ListNotations.
Local Open Scope R_scope.

(** ** Gelman and Rubin *)
Lemma scaled_form k cov M v : (forall i, (i < k)%nat -> 0 < cov i i) -> form k (unit_scaled cov M) v = form k M (fun i => v i / sqrt (cov i i)).
Proof.
  intros P. unfold form. apply Sm_ext. intros i I. apply Sm_ext. intros j J. unfold unit_scaled.
  pose proof (sqrt_lt_R0 _ (P i I)). pose proof (sqrt_lt_R0 _ (P j J)). field. split; lra.
Qed.
(** the largest eigenvalue is the largest ratio of the variance of means to the mean variance over all combinations of the parameters *)
Theorem C145_worst : forall root diag k cov means D, (0 < k)%nat -> symmetric k means -> (forall i, (i < k)%nat -> 0 < cov i i) ->
  (forall M A, root k M = Some A -> root_of k M A) -> is_eigvalsh diag k -> GelmanRubinEvalues root diag k cov means = Some D ->
  (forall v, quad k means v <= maxR D * quad k cov v) /\ (exists v, quad k cov v = 1 /\ quad k means v = maxR D).
Proof.
  intros root diag k cov means D K SY P RT EV H. unfold GelmanRubinEvalues in H.
  destruct (root k (unit_scaled cov cov)) as [A|] eqn:E; [|discriminate]. destruct (RT _ _ E) as [Lo LL]. clear RT E.
  set (U := mtrans A) in *. set (N := unit_scaled cov means) in *.
  change (mmul k (mmul k A N) U) with (carried k U N) in H.
  assert (SN : symmetric k N) by (intros i j I J; unfold N, unit_scaled; rewrite (SY i j I J); unfold Rdiv; ring).
  destruct (EV _ (carried_sym k U N SN)) as [V F].
  assert (HD : D = diag k (carried k U N)) by congruence. rewrite <- HD in F. clear HD H EV. pose proof F as (LD & OV & FE).
  assert (ND : D <> []) by (destruct D; [cbn in LD; lia | congruence]).
  set (C1 := unit_scaled cov cov) in *.
  assert (CF : forall z, form k C1 (outof k U z) = Sm k (fun j => z j ^ 2)).
  { intros z. rewrite <- carried_form.
    assert (ID : forall i j, (i < k)%nat -> (j < k)%nat -> carried k U C1 i j = delta i j).
    { intros i j I J. unfold carried, mmul. rewrite rsum_Sm. rewrite (Sm_ext k _ (fun m => Lo m i * A j m)).
      - rewrite (Sm_ext k _ (fun m => A j m * Lo m i)) by (intros; ring). rewrite (proj1 (LL j i J I)). unfold delta. rewrite (Nat.eqb_sym j i). reflexivity.
      - intros m M. rewrite rsum_Sm. unfold U, mtrans. f_equal.
        rewrite (Sm_ext k _ (fun a => Sm k (fun b => Lo m b * (A i a * Lo a b)))).
        + rewrite Sm_swap. rewrite (Sm_ext k _ (fun b => Lo m b * delta i b)); [apply Sm_delta; exact I|]. intros b B. rewrite Sm_scal, (proj1 (LL i b I B)). reflexivity.
        + intros a AA. destruct (LL a m AA M) as [_ [_ ->]]. rewrite <- Sm_scal. apply Sm_ext. intros; ring. }
    unfold form. rewrite (Sm_ext k _ (fun i => z i ^ 2)); [reflexivity|]. intros i I.
    rewrite (Sm_ext k _ (fun j => z i * z j * delta i j)) by (intros j J; rewrite ID by assumption; reflexivity).
    rewrite (Sm_delta k (fun j => z i * z j) i I). ring. }
  assert (MX : forall z, form k N (outof k U z) <= maxR D * form k C1 (outof k U z)).
  { intros z. rewrite CF, <- carried_form, (form_eigen _ _ D V z F), (norm_into k V z OV), <- Sm_scal. apply Sm_le. intros j J.
    apply Rmult_le_compat_r; [apply pow2_ge_0|]. apply maxR_ge. apply nth_In. lia. }
  assert (BACK : forall v i, (i < k)%nat -> outof k U (fun a => Sm k (fun b => Lo b a * v b)) i = v i).
  { intros v i I. unfold outof, U, mtrans. rewrite (Sm_ext k _ (fun a => Sm k (fun b => v b * (Lo b a * A a i)))) by (intros; rewrite <- Sm_scal; apply Sm_ext; intros; ring).
    rewrite Sm_swap. rewrite (Sm_ext k _ (fun b => v b * delta i b)); [apply Sm_delta; exact I|]. intros b B. rewrite Sm_scal. f_equal.
    destruct (LL b i B I) as [_ [-> _]]. unfold delta. rewrite (Nat.eqb_sym b i). reflexivity. }
  assert (SQ : forall i, (i < k)%nat -> 0 < sqrt (cov i i)) by (intros; apply sqrt_lt_R0; apply P; assumption).
  split.
  - intros v. change (form k means v <= maxR D * form k cov v). set (u := fun i => v i * sqrt (cov i i)).
    assert (EU : forall M, form k M v = form k (unit_scaled cov M) (outof k U (fun a => Sm k (fun b => Lo b a * u b)))).
    { intros M. rewrite (form_ext k (unit_scaled cov M) (outof k U (fun a => Sm k (fun b => Lo b a * u b))) u) by (intros; apply BACK; assumption). rewrite scaled_form by exact P. apply form_ext. intros i I. unfold u. pose proof (SQ i I). field. lra. }
    rewrite !EU. apply MX.
  - destruct (In_nth D (maxR D) 0 (maxR_in D ND)) as [j [J EJ]]. set (z := fun i => V i j).
    exists (fun i => outof k U z i / sqrt (cov i i)). change (form k cov (fun i => outof k U z i / sqrt (cov i i)) = 1 /\ form k means (fun i => outof k U z i / sqrt (cov i i)) = maxR D).
    rewrite <- !scaled_form by exact P. fold C1 N. rewrite LD in J.
    assert (Z : forall m, (m < k)%nat -> into k V z m = delta j m) by (intros m M; unfold into, z; rewrite (Sm_ext k _ (fun i => V i j * V i m)) by (intros; ring); apply (OV j m J M)).
    split.
    + rewrite CF. unfold z. rewrite (Sm_ext k _ (fun i => V i j * V i j)) by (intros; ring). rewrite (proj1 (OV j j J J)). unfold delta. rewrite Nat.eqb_refl. reflexivity.
    + rewrite <- carried_form, (form_eigen _ _ D V z F). rewrite (Sm_ext k _ (fun m => (nth m D 0 * delta j m) * delta j m)) by (intros m M; rewrite Z by exact M; ring).
      rewrite (Sm_delta k (fun m => nth m D 0 * delta j m) j J). unfold delta. rewrite Nat.eqb_refl, EJ. ring.
Qed.
Print Assumptions C145_worst.
(** two parameters without correlation *)
Example C145_worst_ex : root_of 2 delta delta /\ symmetric 2 (fun i j => 3 * delta i j) /\ eigen_of 2 (fun i j => 3 * delta i j) [3; 3] delta.
Proof.
  assert (S2 : forall f, Sm 2 f = f 0%nat + f 1%nat) by (intros; rewrite !Sm_S, Sm_0; ring).
  split; [|split].
  - exists delta. intros i j I J. rewrite !S2. destruct i as [|[|i]]; [| |lia]; (destruct j as [|[|j]]; [| |lia]); cbn; repeat split; lra.
  - intros i j I J. f_equal. unfold delta. rewrite Nat.eqb_sym. reflexivity.
  - split; [reflexivity|]. split.
    + intros i j I J. rewrite !S2. destruct i as [|[|i]]; [| |lia]; (destruct j as [|[|j]]; [| |lia]); cbn; split; lra.
    + intros i j I J. rewrite !S2. destruct i as [|[|i]]; [| |lia]; (destruct j as [|[|j]]; [| |lia]); cbn; lra.
Qed.

(** ** Densities *)
Lemma Ok_in {A} (a b : A) : Ok a = Ok b -> a = b. Proof. congruence. Qed.
Lemma int_part_is r z : IZR z <= r < IZR z + 1 -> Int_part r = z.
Proof.
  intros [A B]. destruct (base_Int_part r) as [C D]. assert (E : (Int_part r < z + 1)%Z) by (apply lt_IZR; rewrite plus_IZR; lra).
  assert (F : (z < Int_part r + 1)%Z) by (apply lt_IZR; rewrite plus_IZR; lra). lia.
Qed.
Lemma lookup_ok {A} n (f : nat -> A) i : (1 <= i <= n)%nat -> lookup n f i = Ok (f i).
Proof. intros H. unfold lookup. destruct (Nat.leb_spec 1 i), (Nat.leb_spec i n); try lia. reflexivity. Qed.
(** between two points: the straight line and a part that is zero at both ends *)
Theorem C145_prob : forall D i t, uniform D -> (1 <= i < d_n D)%nat -> 0 <= t < 1 -> INR i + t <= INR (d_n D) - 1 / 1000000 ->
  Prob D (d_X D i + t * d_spacing D) = Ok ((1 - t) * d_P D i + t * d_P D (S i) - d_spacing D ^ 2 / 6 * (t * (1 - t) * ((2 - t) * d_ddP D i + (1 + t) * d_ddP D (S i)))).
Proof.
  intros D i t (N & H & X) I T E. set (h := d_spacing D) in *. unfold Prob. cbv zeta. fold h.
  pose proof (X i ltac:(lia)) as Xi. pose proof (X (d_n D) ltac:(lia)) as Xn. pose proof (X (S i) ltac:(lia)) as Xs. rewrite S_INR in Xs.
  assert (I1 : 1 <= INR i) by (replace 1 with (INR 1) by reflexivity; apply le_INR; lia).
  destruct (Rlt_dec (d_X D (d_n D) - h / 1000000) (d_X D i + t * h)) as [Q|_]; [exfalso; rewrite Xn, Xi in Q; nra|].
  destruct (Rlt_dec (d_X D i + t * h) (d_X D 1 - h / 1000000)) as [Q|_]; [exfalso; rewrite Xi in Q; nra|].
  assert (TR : trunc ((d_X D i + t * h - d_X D 1) / h) = (Z.of_nat i - 1)%Z).
  { replace ((d_X D i + t * h - d_X D 1) / h) with (INR i - 1 + t) by (rewrite Xi; field; lra). unfold trunc. destruct (Rle_dec 0 (INR i - 1 + t)) as [_|Q]; [|lra].
    apply int_part_is. rewrite minus_IZR, <- INR_IZR_INZ. lra. }
  rewrite TR. replace (1 + Z.to_nat (Z.max 0 (Z.of_nat i - 1)))%nat with i by lia. rewrite Nat.add_1_r.
  rewrite !lookup_ok by lia. cbn [bind]. f_equal. rewrite Xs, Xi. field. lra.
Qed.
Print Assumptions C145_prob.
Theorem C145_prob_points : forall D i, uniform D -> (1 <= i <= d_n D)%nat -> Prob D (d_X D i) = Ok (d_P D i).
Proof.
  intros D i U I. pose proof U as (N & H & X). destruct (Nat.eq_dec i (d_n D)) as [-> | NE].
  - unfold Prob. cbv zeta. destruct (Rlt_dec _ _) as [_|Q]; [|exfalso; apply Q; lra]. destruct (Rlt_dec _ _) as [Q|_]; [exfalso; lra|]. apply lookup_ok. lia.
  - replace (d_X D i) with (d_X D i + 0 * d_spacing D) by ring. rewrite C145_prob; [f_equal; field | exact U | lia | lra |].
    assert (INR i + 1 <= INR (d_n D)) by (rewrite <- S_INR; apply le_INR; lia). lra.
Qed.
Print Assumptions C145_prob_points.
Lemma near_point D x : uniform D -> d_X D 1 <= x <= d_X D (d_n D) - d_spacing D / 1000000 -> exists i t, (1 <= i < d_n D)%nat /\ 0 <= t < 1 /\ INR i + t <= INR (d_n D) - 1 / 1000000 /\ x = d_X D i + t * d_spacing D.
Proof.
  intros (N & H & X) [A B]. set (h := d_spacing D) in *. set (r := (x - d_X D 1) / h). pose proof (X (d_n D) ltac:(lia)) as Xn.
  assert (R0 : 0 <= r) by (unfold r, Rdiv; apply Rmult_le_pos; [lra | apply Rlt_le, Rinv_0_lt_compat; exact H]).
  assert (RX : x = d_X D 1 + r * h) by (unfold r; field; lra).
  assert (R1 : r <= INR (d_n D) - 1 - 1 / 1000000). { apply Rmult_le_reg_r with h; [exact H|]. rewrite RX, Xn in B. lra. }
  destruct (base_Int_part r) as [C E]. set (z := Int_part r) in *.
  assert (Z0 : (0 <= z)%Z) by (assert (-1 < z)%Z; [apply lt_IZR; lra | lia]).
  assert (Z1 : (z + 1 < Z.of_nat (d_n D))%Z) by (apply lt_IZR; rewrite plus_IZR, <- INR_IZR_INZ; lra).
  exists (Z.to_nat (z + 1)), (r - IZR z). assert (EI : INR (Z.to_nat (z + 1)) = IZR z + 1) by (rewrite INR_IZR_INZ, Z2Nat.id, plus_IZR by lia; reflexivity).
  split; [lia|]. split; [lra|]. split; [rewrite EI; lra|]. rewrite (X (Z.to_nat (z + 1))) by lia. rewrite EI, RX. fold h. ring.
Qed.
Theorem C145_prob_range : forall D x, uniform D ->
  (d_X D 1 <= x <= d_X D (d_n D) -> exists v, Prob D x = Ok v) /\
  (x < d_X D 1 - d_spacing D / 1000000 \/ d_X D (d_n D) + d_spacing D / 1000000 < x -> Prob D x = Stop).
Proof.
  intros D x U. pose proof U as (N & H & X). split.
  - intros [A B]. destruct (Rle_dec x (d_X D (d_n D) - d_spacing D / 1000000)) as [C|C].
    + destruct (near_point D x U (conj A C)) as [i [t [I [T [E ->]]]]]. rewrite C145_prob by assumption. eauto.
    + unfold Prob. cbv zeta. destruct (Rlt_dec _ _) as [_|Q]; [|exfalso; lra]. destruct (Rlt_dec _ _) as [Q|_]; [exfalso; lra|]. rewrite lookup_ok by lia. eauto.
  - pose proof (X (d_n D) ltac:(lia)) as Xn. assert (I2 : 2 <= INR (d_n D)) by (replace 2 with (INR 2) by (cbn; ring); apply le_INR; lia).
    intros [A|A]; unfold Prob; cbv zeta.
    + destruct (Rlt_dec _ _) as [Q|_]; [exfalso; rewrite Xn in Q; nra|]. destruct (Rlt_dec _ _) as [_|Q]; [reflexivity | lra].
    + destruct (Rlt_dec _ _) as [_|Q]; [|exfalso; lra]. destruct (Rlt_dec _ _) as [_|Q]; [reflexivity | lra].
Qed.
Print Assumptions C145_prob_range.
(** the cubic part of a density that is straight is zero *)
Example C145_prob_ex : let D := mkD 3 2 (fun i => 2 * INR i) (fun i => INR i) (fun _ => 0) in uniform D /\ Prob D 5 = Ok (5 / 2).
Proof.
  cbv zeta. assert (U : uniform (mkD 3 2 (fun i => 2 * INR i) (fun i => INR i) (fun _ => 0))) by (split; [cbn; lia|]; split; [cbn; lra|]; intros i I; cbn; lra).
  split; [exact U|]. pose proof (C145_prob _ 2 (1 / 2) U ltac:(cbn; lia) ltac:(lra) ltac:(cbn; lra)) as E. cbn in E. replace (2 * (1 + 1) + 1 / 2 * 2) with 5 in E by lra. rewrite E. f_equal. lra.
Qed.

(** ** Limits *)
Lemma all_ok_total {A} (l : list (out A)) : (forall x, In x l -> exists v, x = Ok v) -> exists r, all_ok l = Ok r /\ length r = length l /\ forall i d e, (i < length l)%nat -> nth i l e = Ok (nth i r d).
Proof.
  induction l as [|x l IH]; intros H; [exists []; split; [reflexivity|]; split; [reflexivity|]; intros; cbn in *; lia|].
  destruct (H x ltac:(left; reflexivity)) as [v ->]. destruct IH as [r [E [L F]]]; [intros; apply H; right; assumption|].
  exists (v :: r). cbn. rewrite E. cbn. split; [reflexivity|]. split; [lia|]. intros [|i] d e I; [reflexivity|]. apply F. lia.
Qed.
Lemma grid_ok D : uniform D -> exists g, fine_grid D = Ok g /\ length g = bign D /\ forall i, (i < bign D)%nat -> Prob D (point D (S i)) = Ok (nth i g 0).
Proof.
  intros U. pose proof U as (N & H & X). unfold fine_grid.
  destruct (all_ok_total (map (fun i => Prob D (point D i)) (seq 1 (bign D)))) as [g [E [L F]]].
  - intros x I. apply in_map_iff in I. destruct I as [i [<- I]]. apply in_seq in I. apply C145_prob_range; [exact U|]. rewrite (X (d_n D)) by lia. unfold point.
    assert (A : 1 <= INR i) by (replace 1 with (INR 1) by reflexivity; apply le_INR; lia).
    assert (B : INR i <= (INR (d_n D) - 1) * 100 + 1).
    { replace ((INR (d_n D) - 1) * 100 + 1) with (INR (bign D)); [apply le_INR; lia|]. unfold bign. rewrite plus_INR, mult_INR, minus_INR by lia. rewrite (INR_IZR_INZ 100). cbn. ring. }
    split; nra.
  - rewrite map_length, seq_length in L. exists g. split; [exact E|]. split; [exact L|]. intros i I.
    specialize (F i 0 (Prob D (point D 0)) ltac:(rewrite map_length, seq_length; exact I)). rewrite (map_nth (fun i => Prob D (point D i))), seq_nth in F by exact I. exact F.
Qed.
Lemma sum_ge_zero g : Forall (fun x => 0 <= x) g -> sum_ge 0 g = sumR g.
Proof.
  intros H. unfold sum_ge. f_equal. induction H as [|x g X H IH]; [reflexivity|]. cbn. destruct (Rle_dec 0 x); [rewrite IH; reflexivity | contradiction].
Qed.
Lemma bisect_inv fuel g p norm T b t last b' t' : b < t -> t <= T -> p * norm <= sum_ge b g -> (t = T \/ sum_ge t g < p * norm) -> bisect fuel g p norm b t last = Some (b', t') ->
  b <= b' < t' /\ t' <= T /\ p * norm <= sum_ge b' g /\ (t' = T \/ sum_ge t' g < p * norm).
Proof.
  revert b t last. induction fuel as [|fuel IH]; intros b t last BT TT HB HT E; [discriminate|]. cbn [bisect] in E. cbv zeta in E.
  destruct (Rlt_dec (sum_ge ((b + t) / 2) g) (p * norm)) as [L|L].
  - destruct (Rlt_dec _ (1 / 10000)) in E.
    + assert (b' = b /\ t' = (b + t) / 2) as [-> ->] by (split; congruence). split; [lra|]. split; [lra|]. split; [exact HB|]. right. exact L.
    + apply IH in E; [exact E | lra | lra | exact HB | right; exact L].
  - destruct (Rlt_dec _ (1 / 10000)) in E.
    + assert (b' = (b + t) / 2 /\ t' = t) as [-> ->] by (split; congruence). split; [lra|]. split; [lra|]. split; [lra|]. exact HT.
    + apply IH in E; [|lra | lra | lra | exact HT]. destruct E as [E1 E2]. split; [lra | exact E2].
Qed.
Lemma first_above_spec t g i k : first_above t g i = Some k -> (i <= k < i + length g)%nat /\ t < nth (k - i) g 0 /\ forall j, (j < k - i)%nat -> nth j g 0 <= t.
Proof.
  revert i. induction g as [|x g IH]; intros i E; cbn in E; [discriminate|]. destruct (Rlt_dec t x) as [L|L].
  - assert (k = i) by congruence. subst. rewrite Nat.sub_diag. split; [cbn; lia|]. split; [exact L|]. intros; lia.
  - apply IH in E. destruct E as [A [B C]]. split; [cbn; lia|]. replace (k - i)%nat with (S (k - S i)) by lia. split; [exact B|].
    intros [|j] J; [cbn; lra | apply C; lia].
Qed.
Lemma first_above_some t g i x : In x g -> t < x -> exists k, first_above t g i = Some k.
Proof. revert i. induction g as [|y g IH]; intros i I L; [contradiction|]. cbn. destruct (Rlt_dec t y); [eauto|]. destruct I as [-> | I]; [contradiction|]. apply IH; assumption. Qed.

(** the level lies between one with at least the fraction above it and one with less; a limit inside the range is the first (last) point above the level *)
Theorem C145_limits : forall fuel D p mn mx lb lt, uniform D -> 0 <= p <= 1 -> 0 <= d_P D 1 -> 0 <= d_P D (d_n D) ->
  Limits fuel D p = Ok (Some (mn, mx, lb, lt)) -> exists g b t, length g = bign D /\ (forall i, (i < bign D)%nat -> Prob D (point D (S i)) = Ok (nth i g 0)) /\
  (Forall (fun x => 0 <= x) g -> 0 < maxR g ->
    let norm := sumR g - 1 / 2 * d_P D (d_n D) - 1 / 2 * d_P D 1 in let level := (b + t) / 2 in
    b < level < t /\ t <= maxR g /\ p * norm <= sum_ge b g /\ (t = maxR g \/ sum_ge t g < p * norm) /\
    (lb = true <-> level <= nth 0 g 0) /\ (lt = true <-> level <= nth (bign D - 1) g 0) /\
    (lb = false -> exists i, (i < bign D)%nat /\ mn = point D (S i) /\ level < nth i g 0 /\ forall j, (j < i)%nat -> nth j g 0 <= level) /\
    (lt = false -> exists i, (i < bign D)%nat /\ mx = point D (S i) /\ level < nth i g 0 /\ forall j, (i < j < bign D)%nat -> nth j g 0 <= level)).
Proof.
  intros fuel D p mn mx lb lt U P P1 Pn H. destruct (grid_ok D U) as [g [EG [LG FG]]]. unfold Limits in H. rewrite EG in H. cbn [bind] in H. cbv zeta in H.
  set (norm := sumR g - 1 / 2 * d_P D (d_n D) - 1 / 2 * d_P D 1) in *.
  destruct (bisect fuel g p norm 0 (maxR g) (-1)) as [[b t]|] eqn:B; [|apply Ok_in in H; discriminate]. exists g, b, t. split; [exact LG|]. split; [exact FG|].
  intros G MX. cbv zeta. fold norm.
  assert (S0 : 0 <= sumR g) by (clear -G; induction G; cbn; [lra|]; unfold sumR in *; lra).
  assert (BI : p * norm <= sum_ge 0 g).
  { rewrite (sum_ge_zero g G). assert (norm <= sumR g) by (unfold norm; lra). destruct (Rle_dec 0 norm); nra. }
  destruct (bisect_inv _ _ _ _ (maxR g) _ _ _ _ _ MX (Rle_refl _) BI (or_introl eq_refl) B) as [I1 [I2 [I3 I4]]].
  split; [lra|]. split; [exact I2|]. split; [exact I3|]. split; [exact I4|]. set (level := (b + t) / 2) in *. rewrite LG in H.
  match type of H with bind ?x _ = _ => destruct x as [m1| |] eqn:E1; try discriminate end. cbn [bind] in H.
  match type of H with bind ?x _ = _ => destruct x as [m2| |] eqn:E2; try discriminate end. cbn [bind] in H. apply Ok_in in H.
  assert (mn = m1 /\ mx = m2) as [-> ->] by (split; congruence).
  assert (LB : lb = if Rle_dec level (nth 0 g 0) then true else false) by congruence.
  assert (LT : lt = if Rle_dec level (nth (bign D - 1) g 0) then true else false) by congruence. clear H.
  split; [rewrite LB; destruct (Rle_dec level (nth 0 g 0)); split; intros; try assumption; try reflexivity; try discriminate; contradiction|].
  split; [rewrite LT; destruct (Rle_dec level (nth (bign D - 1) g 0)); split; intros; try assumption; try reflexivity; try discriminate; contradiction|].
  rewrite <- LB in E1. rewrite <- LT in E2. split.
  - intros ->. destruct (first_above level g 1) as [k|] eqn:F; [|discriminate]. apply Ok_in in E1. apply first_above_spec in F. destruct F as [F1 [F2 F3]].
    exists (k - 1)%nat. split; [lia|]. split; [rewrite <- E1; f_equal; lia|]. split; [exact F2 | exact F3].
  - intros ->. destruct (first_above level (rev g) 1) as [k|] eqn:F; [|discriminate]. apply Ok_in in E2. apply first_above_spec in F. rewrite rev_length in F. destruct F as [F1 [F2 F3]].
    rewrite rev_nth in F2 by lia. exists (bign D - k)%nat. split; [lia|]. split; [rewrite <- E2; f_equal; lia|]. split; [replace (bign D - k)%nat with (length g - S (k - 1))%nat by lia; exact F2|].
    intros j J. specialize (F3 (bign D - 1 - j)%nat ltac:(lia)). rewrite rev_nth in F3 by lia. replace (length g - S (bign D - 1 - j))%nat with j in F3 by lia. exact F3.
Qed.
Print Assumptions C145_limits.
(** neither a stop nor an undefined limit *)
Theorem C145_limits_defined : forall fuel D p, uniform D -> 0 <= p <= 1 -> 0 < d_P D 1 + d_P D (d_n D) -> (forall i v, (1 <= i <= bign D)%nat -> Prob D (point D i) = Ok v -> 0 <= v) -> exists r, Limits fuel D p = Ok r.
Proof.
  intros fuel D p U P PP NN. pose proof U as (N & _). destruct (grid_ok D U) as [g [EG [LG FG]]]. unfold Limits. rewrite EG. cbn [bind]. cbv zeta.
  assert (G : Forall (fun x => 0 <= x) g). { apply Forall_forall. intros x I. destruct (In_nth g x 0 I) as [k [K <-]]. apply (NN (S k)); [lia|]. apply FG. lia. }
  assert (F1 : d_P D 1 = nth 0 g 0). { apply Ok_in. rewrite <- (FG 0%nat) by (unfold bign; lia). unfold point. replace (d_X D 1 + (INR 1 - 1) * d_spacing D / 100) with (d_X D 1) by (cbn; field). symmetry. apply C145_prob_points; [exact U | lia]. }
  assert (Fn : d_P D (d_n D) = nth (bign D - 1) g 0).
  { apply Ok_in. rewrite <- (FG (bign D - 1)%nat) by (unfold bign; lia). replace (point D (S (bign D - 1))) with (d_X D (d_n D)); [symmetry; apply C145_prob_points; [exact U | lia]|].
    destruct U as (_ & _ & X). rewrite (X (d_n D)) by lia. unfold point, bign. replace (S ((d_n D - 1) * 100 + 1 - 1)) with (S ((d_n D - 1) * 100)) by lia. rewrite S_INR, mult_INR, minus_INR by lia. rewrite (INR_IZR_INZ 100). cbn. field. }
  assert (I1 : In (nth 0 g 0) g) by (apply nth_In; unfold bign in LG; lia).
  assert (In' : In (nth (bign D - 1) g 0) g) by (apply nth_In; unfold bign in *; lia).
  pose proof (proj1 (Forall_forall _ _) G _ I1) as A1. pose proof (proj1 (Forall_forall _ _) G _ In') as An. cbv beta in A1, An.
  pose proof (maxR_ge _ _ I1) as B1. pose proof (maxR_ge _ _ In') as Bn.
  assert (MX : 0 < maxR g) by lra.
  set (norm := sumR g - 1 / 2 * d_P D (d_n D) - 1 / 2 * d_P D 1).
  destruct (bisect fuel g p norm 0 (maxR g) (-1)) as [[b t]|] eqn:B; [|eauto].
  assert (S0 : 0 <= sumR g) by (clear -G; induction G; cbn; [lra|]; unfold sumR in *; lra).
  assert (BI : p * norm <= sum_ge 0 g).
  { rewrite (sum_ge_zero g G). assert (norm <= sumR g) by (unfold norm; lra). destruct (Rle_dec 0 norm); nra. }
  destruct (bisect_inv _ _ _ _ (maxR g) _ _ _ _ _ MX (Rle_refl _) BI (or_introl eq_refl) B) as [J1 [J2 _]].
  assert (GN : g <> []) by (intros ->; cbn in LG; unfold bign in LG; lia). pose proof (maxR_in g GN) as IM.
  destruct (first_above_some ((b + t) / 2) g 1 (maxR g) IM ltac:(lra)) as [k1 E1].
  destruct (first_above_some ((b + t) / 2) (rev g) 1 (maxR g) (proj1 (in_rev g _) IM) ltac:(lra)) as [k2 E2]. rewrite E1, E2.
  destruct (Rle_dec _ _), (Rle_dec _ _); cbn [bind]; eauto.
Qed.
Print Assumptions C145_limits_defined.
(** FINDING: a limit at the end of the range is the density there, not the position *)
Theorem C145_limits_refuted : forall fuel D p mn mx lb lt, Limits fuel D p = Ok (Some (mn, mx, lb, lt)) -> (lb = true -> mn = d_P D 1) /\ (lt = true -> mx = d_P D (d_n D)).
Proof.
  intros fuel D p mn mx lb lt H. unfold Limits in H. destruct (fine_grid D) as [g| |]; try discriminate. cbn [bind] in H. cbv zeta in H.
  destruct (bisect _ _ _ _ _ _ _) as [[b t]|]; [|apply Ok_in in H; discriminate].
  destruct (Rle_dec ((b + t) / 2) (nth 0 g 0)), (Rle_dec ((b + t) / 2) (nth (length g - 1) g 0)); cbn [bind] in H;
    repeat (match type of H with bind ?x _ = _ => destruct x; cbn [bind] in H; try discriminate end);
    apply Ok_in in H; split; intros L; congruence.
Qed.
Print Assumptions C145_limits_refuted.
(** a flat density between 5 and 6: the limits are 1 and 1 *)
Lemma max_ones k : maxR (repeat 1 (S k)) = 1.
Proof. unfold maxR. cbn. induction k as [|k IH]; [reflexivity|]. cbn. rewrite Rmax_left by lra. exact IH. Qed.
Lemma sum_ones t k : t <= 1 -> sum_ge t (repeat 1 k) = INR k.
Proof.
  intros T. unfold sum_ge. induction k as [|k IH]; [reflexivity|]. cbn [repeat filter]. destruct (Rle_dec t 1); [|contradiction]. unfold sumR in *. cbn [fold_right]. rewrite IH, S_INR. ring.
Qed.
Example C145_limits_refuted_ex : let D := mkD 2 1 (fun i => 4 + INR i) (fun _ => 1) (fun _ => 0) in uniform D /\ Limits 2 D (95 / 100) = Ok (Some (1, 1, true, true)).
Proof.
  cbv zeta. set (D := mkD 2 1 (fun i => 4 + INR i) (fun _ => 1) (fun _ => 0)).
  assert (U : uniform D) by (split; [cbn; lia|]; split; [cbn; lra|]; intros i I; cbn; lra). split; [exact U|].
  destruct (grid_ok D U) as [g [EG [LG FG]]]. change (bign D) with 101%nat in LG, FG.
  assert (GV : g = repeat 1 101).
  { apply (nth_ext _ _ 0 0); [rewrite repeat_length; exact LG|]. intros i I. rewrite LG in I.
    replace (nth i (repeat 1 101) 0) with 1 by (symmetry; apply (repeat_spec 101 1); apply nth_In; rewrite repeat_length; exact I).
    specialize (FG i I). destruct (Nat.eq_dec i 100) as [-> | NE].
    - replace (point D 101) with (d_X D (d_n D)) in FG by (unfold point; cbn [d_X d_n d_spacing D]; rewrite (INR_IZR_INZ 101); cbn; lra). rewrite C145_prob_points in FG by (try exact U; cbn; lia). apply Ok_in in FG. rewrite <- FG. reflexivity.
    - assert (IB : INR i <= 99) by (replace 99 with (INR 99) by (rewrite INR_IZR_INZ; reflexivity); apply le_INR; lia). pose proof (pos_INR i).
      replace (point D (S i)) with (d_X D 1 + INR i / 100 * d_spacing D) in FG by (unfold point; rewrite S_INR; cbn [d_spacing D]; lra).
      rewrite C145_prob in FG; [| exact U | cbn; lia | lra | cbn [d_n D INR]; lra]. apply Ok_in in FG. rewrite <- FG. cbn [d_P d_ddP D]. ring. }
  unfold Limits. rewrite EG. cbn [bind]. cbv zeta. rewrite GV. rewrite max_ones.
  assert (SR : sumR (repeat 1 101) = 101). { transitivity (sum_ge 0 (repeat 1 101)); [symmetry; apply sum_ge_zero; apply Forall_forall; intros x X; apply repeat_spec in X; lra|]. rewrite sum_ones by lra. rewrite INR_IZR_INZ. reflexivity. }
  assert (I101 : INR 101 = 101) by (rewrite INR_IZR_INZ; reflexivity).
  rewrite SR. cbn [d_P D d_n]. remember (repeat 1 101) as L101 eqn:EL. assert (SL : forall t, t <= 1 -> sum_ge t L101 = 101) by (intros t T; rewrite EL, sum_ones by exact T; exact I101). cbn [bisect]. cbv zeta. rewrite (SL ((0 + 1) / 2)) by lra.
  destruct (Rlt_dec 101 _) as [Q|_]; [lra|]. destruct (Rlt_dec (Rabs (101 / -1 - 1)) _) as [Q|_]; [exfalso; rewrite Rabs_left in Q by lra; lra|].
  rewrite (SL (((0 + 1) / 2 + 1) / 2)) by lra. destruct (Rlt_dec 101 _) as [Q|_]; [lra|].
  destruct (Rlt_dec (Rabs (101 / 101 - 1)) _) as [_|Q]; [|exfalso; apply Q; replace (101 / 101 - 1) with 0 by field; rewrite Rabs_R0; lra].
  assert (N0 : nth 0 L101 0 = 1) by (rewrite EL; reflexivity).
  assert (N1 : nth (length L101 - 1) L101 0 = 1) by (rewrite EL; reflexivity). rewrite N0, N1.
  destruct (Rle_dec _ 1) as [_|Q]; [|exfalso; apply Q; lra]. reflexivity.
Qed.

(** ** Kernels *)
Lemma zsum_Sm a k f : zsum a k f = Sm k (fun i => f (a + Z.of_nat i)%Z).
Proof. reflexivity. Qed.
Lemma zsum_S a k f : zsum a (S k) f = zsum a k f + f (a + Z.of_nat k)%Z.
Proof. rewrite !zsum_Sm, Sm_S. reflexivity. Qed.
Lemma moment_0 w h r : moment w h 0 r = zsum (- Z.of_nat w) (w + 1) (fun j => Win w h j * IZR j ^ r).
Proof. unfold moment. rewrite zsum_Sm, Nat.add_0_r. apply Sm_ext. intros k K. replace (- Z.of_nat w + Z.of_nat k)%Z with (Z.of_nat k - Z.of_nat w)%Z by lia. reflexivity. Qed.
Lemma moment_S w h i r : moment w h (S i) r = moment w h i r + Win w h (Z.of_nat (S i)) * IZR (Z.of_nat (S i)) ^ r.
Proof. unfold moment. replace (w + 1 + S i)%nat with (S (w + 1 + i)) by lia. rewrite Sm_S. replace (Z.of_nat (w + 1 + i) - Z.of_nat w)%Z with (Z.of_nat (S i)) by lia. reflexivity. Qed.
Lemma zsum_ext a k f g : (forall j, f j = g j) -> zsum a k f = zsum a k g.
Proof. intros E. rewrite !zsum_Sm. apply Sm_ext. intros; apply E. Qed.
Lemma a0_is w h i : a0 w h i = moment w h i 0.
Proof. induction i as [|i IH]; [rewrite moment_0; apply zsum_ext; intros; cbn; ring|]. rewrite moment_S. cbn [a0]. rewrite IH. cbn [pow]. ring. Qed.
Lemma a1_is w h i : a1 w h i = moment w h i 1.
Proof. induction i as [|i IH]; [rewrite moment_0; apply zsum_ext; intros; unfold xWin; cbn [pow]; ring|]. rewrite moment_S. cbn [a1]. rewrite IH. unfold xWin. cbn [pow]. ring. Qed.
Lemma a2_is w h i : a2 w h i = moment w h i 2.
Proof. induction i as [|i IH]; [rewrite moment_0; reflexivity|]. rewrite moment_S. cbn [a2]. rewrite IH. unfold xWin. cbn [pow]. ring. Qed.
Lemma zsum_pos a k f : (0 < k)%nat -> (forall j, 0 < f j) -> 0 < zsum a k f.
Proof.
  intros K P. destruct k as [|k]; [lia|]. rewrite zsum_S. assert (0 <= zsum a k f) by (rewrite zsum_Sm; apply Sm_nonneg; intros; apply Rlt_le, P). pose proof (P (a + Z.of_nat k)%Z). lra.
Qed.
Lemma raw_pos h i : 0 < raw h i. Proof. apply exp_pos. Qed.
(** the window is positive, symmetric, largest at the middle and sums to one *)
Theorem C145_window : forall w h, 0 < h ->
  Sm (2 * w + 1) (fun k => Win w h (Z.of_nat k - Z.of_nat w)) = 1 /\ (forall i, 0 < Win w h i /\ Win w h (- i) = Win w h i) /\ (forall i j, (Z.abs i < Z.abs j)%Z -> Win w h j < Win w h i).
Proof.
  intros w h H. assert (P : 0 < zsum (- Z.of_nat w) (2 * w + 1) (raw h)) by (apply zsum_pos; [lia | apply raw_pos]).
  split; [|split].
  - transitivity (zsum (- Z.of_nat w) (2 * w + 1) (raw h) * / zsum (- Z.of_nat w) (2 * w + 1) (raw h)); [|field; lra].
    rewrite (zsum_Sm _ _ (raw h)) at 1. rewrite Rmult_comm, <- Sm_scal. apply Sm_ext. intros k K. unfold Win. replace (- Z.of_nat w + Z.of_nat k)%Z with (Z.of_nat k - Z.of_nat w)%Z by lia. unfold Rdiv. ring.
  - intros i. split; [apply Rdiv_lt_0_compat; [apply raw_pos | exact P]|]. unfold Win, raw. f_equal. f_equal. rewrite opp_IZR. field. lra.
  - intros i j IJ. unfold Win, Rdiv. apply Rmult_lt_compat_r; [apply Rinv_0_lt_compat; exact P|]. unfold raw. apply exp_increasing.
    assert (L : IZR i ^ 2 < IZR j ^ 2) by (replace (IZR i ^ 2) with (IZR (i * i)) by (rewrite mult_IZR; ring); replace (IZR j ^ 2) with (IZR (j * j)) by (rewrite mult_IZR; ring); apply IZR_lt; rewrite <- (Z.abs_square i), <- (Z.abs_square j); nia).
    assert (Q : 0 < / h ^ 2) by (apply Rinv_0_lt_compat, pow_lt, H).
    replace (- (IZR j / h) ^ 2 / 2) with (- (IZR j ^ 2 * / h ^ 2) / 2) by (field; lra). replace (- (IZR i / h) ^ 2 / 2) with (- (IZR i ^ 2 * / h ^ 2) / 2) by (field; lra). nra.
Qed.
Print Assumptions C145_window.
Lemma Sm_minus k f g : Sm k (fun i => f i - g i) = Sm k f - Sm k g.
Proof. induction k as [|k IH]; [rewrite !Sm_0; ring|]. rewrite !Sm_S, IH. ring. Qed.
(** with two points at least the determinant is positive *)
Lemma det_pos w h i : (1 <= w)%nat -> 0 < h -> 0 < moment w h i 0 * moment w h i 2 - moment w h i 1 ^ 2.
Proof.
  intros W H. set (n := (w + 1 + i)%nat). set (x := fun k => IZR (Z.of_nat k - Z.of_nat w)). set (p := fun k => Win w h (Z.of_nat k - Z.of_nat w)).
  assert (PP : forall k, 0 < p k) by (intros; apply (C145_window w h H)).
  assert (M : forall r, moment w h i r = Sm n (fun k => p k * x k ^ r)) by reflexivity.
  assert (M0 : 0 < moment w h i 0).
  { rewrite M. unfold n. replace (w + 1 + i)%nat with (S (w + i)) by lia. rewrite Sm_S. assert (0 <= Sm (w + i) (fun k => p k * x k ^ 0)) by (apply Sm_nonneg; intros k K; cbn; pose proof (PP k); lra). pose proof (PP (w + i)%nat) as Q. change (x (w + i)%nat ^ 0) with 1. lra. }
  set (m := moment w h i 1 / moment w h i 0).
  assert (V : moment w h i 0 * moment w h i 2 - moment w h i 1 ^ 2 = moment w h i 0 * Sm n (fun k => p k * (x k - m) ^ 2)).
  { rewrite (Sm_ext n _ (fun k => p k * x k ^ 2 - ((2 * m) * (p k * x k ^ 1) - m ^ 2 * (p k * x k ^ 0)))) by (intros; cbn; ring).
    rewrite Sm_minus, Sm_minus, !Sm_scal, <- !M. unfold m. field. lra. }
  rewrite V. apply Rmult_lt_0_compat; [exact M0|].
  assert (NN : forall k, 0 <= p k * (x k - m) ^ 2) by (intros k; apply Rmult_le_pos; [apply Rlt_le, PP | apply pow2_ge_0]).
  assert (S2 : forall k, 0 < Sm (S (S k)) (fun k => p k * (x k - m) ^ 2)).
  { intros k. rewrite !Sm_S. assert (0 <= Sm k (fun k => p k * (x k - m) ^ 2)) by (apply Sm_nonneg; intros; apply NN).
    assert (D : x (S k) = x k + 1) by (unfold x; rewrite <- plus_IZR; f_equal; lia). rewrite D.
    pose proof (NN k) as N1. pose proof (NN (S k)) as N2. rewrite D in N2.
    destruct (Req_dec (x k - m) 0) as [E|E].
    - replace (x k + 1 - m) with 1 by lra. pose proof (PP (S k)). lra.
    - assert (0 < p k * (x k - m) ^ 2) by (apply Rmult_lt_0_compat; [apply PP|]; pose proof (Rsqr_pos_lt _ E) as Q; unfold Rsqr in Q; lra). lra. }
  unfold n. replace (w + 1 + i)%nat with (S (S (w - 1 + i))) by lia. apply S2.
Qed.
(** near the edge, where the window is cut after i points, the corrected window has total one and mean zero *)
Theorem C145_boundary : forall w h i, (1 <= w)%nat -> 0 < h -> exists K x, boundary_K w h i = Ok K /\ boundary_xK w h i = Ok x /\
  Sm (w + 1 + i) (fun k => let j := (Z.of_nat k - Z.of_nat w)%Z in Win w h j * (K - x * IZR j)) = 1 /\
  Sm (w + 1 + i) (fun k => let j := (Z.of_nat k - Z.of_nat w)%Z in Win w h j * (K - x * IZR j) * IZR j) = 0.
Proof.
  intros w h i W H. pose proof (det_pos w h i W H) as DP. unfold boundary_K, boundary_xK, over_det. cbv zeta. rewrite a0_is, a1_is, a2_is.
  destruct (Req_EM_T _ 0) as [Q|_]; [lra|]. eexists. eexists. split; [reflexivity|]. split; [reflexivity|].
  set (M0 := moment w h i 0) in *. set (M1 := moment w h i 1) in *. set (M2 := moment w h i 2) in *. set (d := M0 * M2 - M1 ^ 2) in *. split.
  - transitivity (M2 / d * M0 - M1 / d * M1); [|unfold d; field; fold d; lra].
    rewrite (Sm_ext _ _ (fun k => M2 / d * (Win w h (Z.of_nat k - Z.of_nat w) * IZR (Z.of_nat k - Z.of_nat w) ^ 0) - M1 / d * (Win w h (Z.of_nat k - Z.of_nat w) * IZR (Z.of_nat k - Z.of_nat w) ^ 1))) by (intros; cbn [pow]; ring).
    rewrite Sm_minus, !Sm_scal. reflexivity.
  - transitivity (M2 / d * M1 - M1 / d * M2); [|unfold d; field; fold d; lra].
    rewrite (Sm_ext _ _ (fun k => M2 / d * (Win w h (Z.of_nat k - Z.of_nat w) * IZR (Z.of_nat k - Z.of_nat w) ^ 1) - M1 / d * (Win w h (Z.of_nat k - Z.of_nat w) * IZR (Z.of_nat k - Z.of_nat w) ^ 2))) by (intros; cbn [pow]; ring).
    rewrite Sm_minus, !Sm_scal. reflexivity.
Qed.
Print Assumptions C145_boundary.
(** a window of one point: the determinant is zero *)
Theorem C145_boundary_point_refuted : forall h, boundary_K 0 h 0 = Undef /\ boundary_xK 0 h 0 = Undef.
Proof.
  intros h. unfold boundary_K, boundary_xK, over_det. cbv zeta.
  assert (E : a0 0 h 0 * a2 0 h 0 - a1 0 h 0 ^ 2 = 0) by (rewrite a0_is, a1_is, a2_is; unfold moment; rewrite !Sm_S, !Sm_0; cbn; ring).
  destruct (Req_EM_T _ 0) as [_|Q]; [split; reflexivity | contradiction].
Qed.
Print Assumptions C145_boundary_point_refuted.
Example C145_boundary_ex : (1 <= 3)%nat /\ 0 < 3 / 2 /\ Win 3 (3 / 2) 1 < Win 3 (3 / 2) 0.
Proof. split; [lia|]. split; [lra|]. apply C145_window; [lra | reflexivity]. Qed.
