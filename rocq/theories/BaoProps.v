(** C118: likelihoods of baryon acoustic oscillations from tables of probability; C119: from measurements with errors *)
From Coq Require Import Reals Bool List Lia Lra ZArith.
From Verif Require Import McmcModel BaoModel BaoSpec BaoProofs.
Import ListNotations.
Local Open Scope R_scope.
Local Opaque logZero.

(** C118: between the first point and the last but one of both axes the result is minus the logarithm of the value that is interpolated linearly in
    both directions; for each cell that holds the point, so that the value has no jumps between cells. *)
Theorem C118_interpolated_partial g a b i j : increasing (np g) (perp g) -> increasing (nl g) (plel g) ->
  (1 <= i)%nat -> (S i < np g)%nat -> perp g 1 < a -> perp g i <= a <= perp g (S i) ->
  (1 <= j)%nat -> (S j < nl g)%nat -> plel g 1 < b -> plel g j <= b <= plel g (S j) ->
  exists v, DR1x_grid g a b = Ok v /\ minus_log logZero (bilinear g i j a b) v.
Proof.
  intros SP SL I1 I2 A1 A J1 J2 B1 B.
  assert (LA : a <= perp g (np g - 1)).
  { destruct (Nat.eq_dec (S i) (np g - 1)) as [<- | N]; [lra |]. assert (perp g (S i) < perp g (np g - 1)) by (apply (incr_lt _ _ SP); lia). lra. }
  assert (LB : b <= plel g (nl g - 1)).
  { destruct (Nat.eq_dec (S j) (nl g - 1)) as [<- | N]; [lra |]. assert (plel g (S j) < plel g (nl g - 1)) by (apply (incr_lt _ _ SL); lia). lra. }
  (* the cells that the loops find *)
  destruct (cell (np g - 1) (perp g) a) as (i' & I1' & I2' & A1' & A2'); [lia | exact A1 | exact LA |].
  destruct (cell (nl g - 1) (plel g) b) as (j' & J1' & J2' & B1' & B2'); [lia | exact B1 | exact LB |].
  assert (EI : i' = i \/ S i' = i /\ a = perp g i).
  { destruct (Nat.lt_trichotomy i' i) as [L | [-> | L]]; [right | now left |].
    - destruct (Nat.eq_dec (S i') i) as [E | N]; [subst i; split; [reflexivity | lra] |]. exfalso. assert (perp g (S i') < perp g i) by (apply (incr_lt _ _ SP); lia). lra.
    - exfalso. destruct (Nat.eq_dec (S i) i') as [<- | N]; [lra |]. assert (perp g (S i) < perp g i') by (apply (incr_lt _ _ SP); lia). lra. }
  assert (EJ : j' = j \/ S j' = j /\ b = plel g j).
  { destruct (Nat.lt_trichotomy j' j) as [L | [-> | L]]; [right | now left |].
    - destruct (Nat.eq_dec (S j') j) as [E | N]; [subst j; split; [reflexivity | lra] |]. exfalso. assert (plel g (S j') < plel g j) by (apply (incr_lt _ _ SL); lia). lra.
    - exfalso. destruct (Nat.eq_dec (S j) j') as [<- | N]; [lra |]. assert (plel g (S j) < plel g j') by (apply (incr_lt _ _ SL); lia). lra. }
  assert (X : perp g i' < perp g (S i')) by (apply SP; lia). assert (Y : plel g j' < plel g (S j')) by (apply SL; lia).
  assert (EB : bilinear g i j a b = bilinear g i' j' a b).
  { unfold bilinear. assert (X0 : perp g i < perp g (S i)) by (apply SP; lia). assert (Y0 : plel g j < plel g (S j)) by (apply SL; lia).
    destruct EI as [-> | (<- & ->)], EJ as [-> | (<- & ->)].
    - reflexivity.
    - f_equal; rewrite line_l, line_r; auto.
    - rewrite line_l, line_r; auto.
    - rewrite !line_l, !line_r; auto. }
  rewrite EB. unfold DR1x_grid. rewrite !lookup_in by lia. cbn [bind].
  destruct (Rlt_dec a (perp g 1)); [lra |]. destruct (Rlt_dec (perp g (np g - 1)) a); [lra |]. destruct (Rlt_dec b (plel g 1)); [lra |]. destruct (Rlt_dec (plel g (nl g - 1)) b); [lra |].
  rewrite (search_spec (np g) (perp g) a i') by (auto; lia). rewrite (search_spec (nl g) (plel g) b j') by (auto; lia). cbn [value_of bind].
  rewrite !lookup_in by lia. cbn [bind]. rewrite !Nat.add_1_r, code_bilinear by assumption. fold (bilinear g i' j' a b).
  eexists. split; [reflexivity |]. unfold minus_log. destruct (Rlt_dec 0 (bilinear g i' j' a b)); [left; auto | right; split; [lra | reflexivity]].
Qed.
(** C118: the points of the table have the values of the table. *)
Corollary C118_nodes g i j : increasing (np g) (perp g) -> increasing (nl g) (plel g) -> (1 < i)%nat -> (i < np g)%nat -> (1 < j)%nat -> (j < nl g)%nat ->
  exists v, DR1x_grid g (perp g i) (plel g j) = Ok v /\ minus_log logZero (prob g i j) v.
Proof.
  intros SP SL I1 I2 J1 J2. destruct i as [| i]; [lia |]. destruct j as [| j]; [lia |].
  assert (X0 : perp g i < perp g (S i)) by (apply SP; lia). assert (Y0 : plel g j < plel g (S j)) by (apply SL; lia).
  destruct (C118_interpolated_partial g (perp g (S i)) (plel g (S j)) i j) as (v & E & M); auto; try lia; try lra.
  1: apply (incr_lt _ _ SP); lia.
  1: apply (incr_lt _ _ SL); lia.
  exists v. split; [exact E |]. unfold bilinear in M. rewrite !line_r in M by assumption. exact M.
Qed.
(** C118: the interpolated probability is between bounds of the four corners of its cell. *)
Theorem C118_between g i j a b lo hi : perp g i < perp g (S i) -> plel g j < plel g (S j) -> perp g i <= a <= perp g (S i) -> plel g j <= b <= plel g (S j) ->
  (forall i' j', (i' = i \/ i' = S i) -> (j' = j \/ j' = S j) -> lo <= prob g i' j' <= hi) -> lo <= bilinear g i j a b <= hi.
Proof. intros X Y A B C. unfold bilinear. apply line_between; auto; apply line_between; auto. Qed.
(** C118: outside of the table the point is excluded. *)
Theorem C118_outside g a b : (2 <= np g)%nat -> (2 <= nl g)%nat -> increasing (np g) (perp g) -> increasing (nl g) (plel g) ->
  a < perp g 1 \/ perp g (np g) < a \/ b < plel g 1 \/ plel g (nl g) < b -> DR1x_grid g a b = Ok logZero.
Proof.
  intros N M SP SL Q. unfold DR1x_grid. rewrite !lookup_in by lia. cbn [bind].
  assert (P1 : perp g (np g - 1) < perp g (np g)) by (apply (incr_lt _ _ SP); lia). assert (P2 : plel g (nl g - 1) < plel g (nl g)) by (apply (incr_lt _ _ SL); lia).
  destruct (Rlt_dec a (perp g 1)); [reflexivity |]. destruct (Rlt_dec (perp g (np g - 1)) a); [reflexivity |]. destruct (Rlt_dec b (plel g 1)); [reflexivity |]. destruct (Rlt_dec (plel g (nl g - 1)) b); [reflexivity |].
  exfalso. lra.
Qed.
(** FINDING: the part of the table between the last two points of an axis is excluded too, whatever probability it has. *)
Theorem C118_last_refuted g a b : (2 <= np g)%nat -> (2 <= nl g)%nat -> perp g (np g - 1) < a -> DR1x_grid g a b = Ok logZero.
Proof.
  intros N M Q. unfold DR1x_grid. rewrite !lookup_in by lia. cbn [bind]. destruct (Rlt_dec a (perp g 1)); [reflexivity |]. destruct (Rlt_dec (perp g (np g - 1)) a); [reflexivity | lra].
Qed.
(** FINDING: at the first point of an axis exactly, the arrays are read at index 0. *)
Theorem C118_first_refuted g b : (2 <= np g)%nat -> (2 <= nl g)%nat -> perp g 1 <= perp g (np g - 1) -> plel g 1 <= b -> b <= plel g (nl g - 1) -> DR1x_grid g (perp g 1) b = Undef.
Proof.
  intros N M P Q1 Q2. unfold DR1x_grid. rewrite !lookup_in by lia. cbn [bind].
  destruct (Rlt_dec (perp g 1) (perp g 1)); [lra |]. destruct (Rlt_dec (perp g (np g - 1)) (perp g 1)); [lra |]. destruct (Rlt_dec b (plel g 1)); [lra |]. destruct (Rlt_dec (plel g (nl g - 1)) b); [lra |].
  rewrite search_first by (try lra; lia). cbn [value_of bind Nat.sub]. destruct (search (plel g) b (seq 1 (nl g))); reflexivity.
Qed.
(** C118: a file that tells a table line by line, the second coordinate running fastest, is read as this table divided by its largest value. *)
Theorem C118_read square n m g0 x y p more : (1 <= n)%nat -> (1 <= m)%nat -> (square = true -> m = n) ->
  exists g top, DR1x_InitProbDist square n m (rows_of n m x y p ++ more) g0 = Ok g /\ np g = n /\ nl g = m /\
    (forall i, (1 <= i <= n)%nat -> perp g i = x i) /\ (forall j, (1 <= j <= m)%nat -> plel g j = y j) /\
    (forall i j, (1 <= i <= n)%nat -> (1 <= j <= m)%nat -> prob g i j = p i j / top /\ p i j <= top) /\ (exists i j, (1 <= i <= n)%nat /\ (1 <= j <= m)%nat /\ top = p i j).
Proof.
  intros N M SQ. unfold DR1x_InitProbDist. assert ((if square then n else m) = m) as -> by (destruct square; auto; symmetry; auto).
  rewrite rows_pairs. destruct (read_rows_spec x y p more (pairs n m) (mkGrid n m (perp g0) (plel g0) (prob g0))) as (g & E & A1 & A2 & A3 & _ & A5 & _ & A7 & _).
  rewrite E. cbn [bind]. eexists _, (maxprob g). split; [reflexivity |]. cbn [np nl perp plel prob] in *. split; [exact A1 |]. split; [exact A2 |].
  assert (T := fold_max_ge (map (fun ij => prob g (fst ij) (snd ij)) (pairs (np g) (nl g))) (prob g 1%nat 1%nat)). fold (maxprob g) in T. rewrite A1, A2 in T. destruct T as (T1 & T2 & T3).
  split; [| split; [| split]].
  - intros i I. apply A3. exists 1%nat. apply pairs_In. lia.
  - intros j J. apply A5. exists 1%nat. apply pairs_In. lia.
  - intros i j I J. rewrite A7 by (apply pairs_In; lia). split; [reflexivity |]. rewrite <- (A7 i j) by (apply pairs_In; lia). apply T2. apply in_map_iff. exists (i, j). split; [reflexivity | apply pairs_In; lia].
  - destruct T3 as [T3 | T3].
    + exists 1%nat, 1%nat. split; [lia |]. split; [lia |]. rewrite T3. apply A7. apply pairs_In. lia.
    + apply in_map_iff in T3 as ([i j] & T3 & I). cbn [fst snd] in T3. apply pairs_In in I as I'. exists i, j. split; [lia |]. split; [lia |]. rewrite <- T3. now apply A7.
Qed.
(** C118: so with no negative value and one above 0 the probabilities are from 0 to 1 and one of them is 1: the best point of the table has likelihood 0 and no other has less. *)
Theorem C118_peak square n m g0 x y p more g : (1 <= n)%nat -> (1 <= m)%nat -> (square = true -> m = n) -> DR1x_InitProbDist square n m (rows_of n m x y p ++ more) g0 = Ok g ->
  (forall i j, (1 <= i <= n)%nat -> (1 <= j <= m)%nat -> 0 <= p i j) -> (exists i j, (1 <= i <= n)%nat /\ (1 <= j <= m)%nat /\ 0 < p i j) ->
  (forall i j, (1 <= i <= n)%nat -> (1 <= j <= m)%nat -> 0 <= prob g i j <= 1) /\ exists i j, (1 <= i <= n)%nat /\ (1 <= j <= m)%nat /\ prob g i j = 1.
Proof.
  intros N M SQ E P (i0 & j0 & I0 & J0 & P0). destruct (C118_read square n m g0 x y p more N M SQ) as (g' & top & E' & _ & _ & _ & _ & A & (i1 & j1 & I1 & J1 & T)).
  assert (g' = g) as -> by congruence. assert (TP : 0 < top) by (destruct (A i0 j0 I0 J0); lra). split.
  - intros i j I J. destruct (A i j I J) as (-> & L). specialize (P i j I J). split; [apply Rmult_le_pos; [exact P | apply Rlt_le, Rinv_0_lt_compat, TP] |].
    apply (Rmult_le_reg_r top); [exact TP |]. unfold Rdiv. rewrite Rmult_assoc, Rinv_l by lra. lra.
  - exists i1, j1. split; [exact I1 |]. split; [exact J1 |]. destruct (A i1 j1 I1 J1) as (-> & _). rewrite <- T. field. lra.
Qed.
Theorem C118_nonneg g a b i j v : increasing (np g) (perp g) -> increasing (nl g) (plel g) ->
  (forall i j, (1 <= i <= np g)%nat -> (1 <= j <= nl g)%nat -> 0 <= prob g i j <= 1) ->
  (1 <= i)%nat -> (S i < np g)%nat -> perp g 1 < a -> perp g i <= a <= perp g (S i) -> (1 <= j)%nat -> (S j < nl g)%nat -> plel g 1 < b -> plel g j <= b <= plel g (S j) ->
  DR1x_grid g a b = Ok v -> 0 <= v.
Proof.
  intros SP SL P I1 I2 A1 A J1 J2 B1 B E. destruct (C118_interpolated_partial g a b i j) as (v' & E' & [(Q & ->) | (_ & ->)]); auto.
  - assert (L : bilinear g i j a b <= 1). { apply (C118_between g i j a b 0 1); auto; [apply SP; lia | apply SL; lia |]. intros i' j' [-> | ->] [-> | ->]; apply P; lia. }
    assert (v = - ln (bilinear g i j a b)) as -> by congruence. destruct L as [L | ->]; [| rewrite ln_1; lra]. pose proof (ln_increasing _ _ Q L) as LI. rewrite ln_1 in LI. lra.
  - assert (v = logZero) as -> by congruence. Local Transparent logZero. unfold logZero. apply pow_le. lra.
Qed.
Local Opaque logZero.
(** C118: a file with too few lines stops. *)
Theorem C118_short n m rows g0 : (length rows < n * m)%nat -> DR1x_InitProbDist false n m rows g0 = Stop.
Proof. intro L. unfold DR1x_InitProbDist. rewrite read_rows_short; [reflexivity |]. unfold pairs. rewrite prod_length, !seq_length. exact L. Qed.
(** C118: the coordinates are the ratios to the fiducial cosmology of the distance and of the inverse of H, in units of the ruler; they are both 1 for that cosmology, whichever way the settings tell it. *)
Theorem C118_alpha f k z rs H D rd : 0 < rs -> 0 < rd -> 0 < H -> 0 < D -> 0 < D_A k z -> 0 < Hofz k z -> f = Separate rd H D \/ f = Products (H * rd) (D / rd) ->
  alpha_perp f k z rs = (D_A k z / rs) / (D / rd) /\ alpha_plel f k z rs = (1 / (Hofz_Hunit k z * rs)) / (1 / (H * rd)) /\
  (D_A k z / rs = D / rd -> Hofz_Hunit k z * rs = H * rd -> alpha_perp f k z rs = 1 /\ alpha_plel f k z rs = 1).
Proof.
  intros RS RD PH PD PA PZ F. assert (E1 : DA_rd_fid f = D / rd) by (destruct F as [-> | ->]; reflexivity). assert (E2 : Hrd_fid f = H * rd) by (destruct F as [-> | ->]; reflexivity).
  assert (PHU : 0 < Hofz_Hunit k z). { unfold Hofz_Hunit, const_c. lra. }
  unfold alpha_perp, alpha_plel. rewrite E1, E2. split; [reflexivity |]. assert (0 < Hofz_Hunit k z * rs) by now apply Rmult_lt_0_compat. assert (0 < H * rd) by now apply Rmult_lt_0_compat. split.
  - field. repeat split; lra.
  - intros -> ->. assert (0 < D / rd) by (apply Rmult_lt_0_compat; [exact PD | now apply Rinv_0_lt_compat]). split; field; [| lra]. repeat split; lra.
Qed.

(** C118: the table of the main galaxy sample: within the limits of alpha the table of 399 values is read inside its bounds, at the ends of the interval of 0.001 that holds alpha
    (to 2 10^-8), and the result is half of the mean of the two values. *)
Theorem C118_mgs_partial tab a : alpha_min <= a <= alpha_max ->
  exists i, (1 <= i <= 398)%nat /\ MGS_table 399 tab a = Ok (((tab i + tab (S i)) / 2) / 2) /\
    8005 / 10000 + (INR i - 1) / 1000 <= a <= 8005 / 10000 + INR i / 1000 + 2 / 100000000.
Proof.
  intros (A1 & A2). unfold MGS_table. destruct (Rlt_dec alpha_max a); [lra |]. destruct (Rlt_dec a alpha_min); [lra |]. unfold alpha_min, alpha_max in *.
  set (r := (a - 8005 / 10000) / mgs_step). destruct (base_Int_part r) as (B1 & B2). set (q := Int_part r) in *.
  assert (ER : a = 8005 / 10000 + r * (8589935 / 8589934592)) by (unfold r, mgs_step; field).
  assert (R0 : 0 <= r) by lra. assert (R1 : r < 398) by lra.
  assert (Q0 : (-1 < q)%Z) by (apply lt_IZR; lra). assert (Q1 : (q < 398)%Z) by (apply lt_IZR; lra).
  set (i := Z.to_nat (1 + q)). assert (EI : INR i = 1 + IZR q). { unfold i. rewrite INR_IZR_INZ, Z2Nat.id by lia. rewrite plus_IZR. reflexivity. }
  assert (I : (1 <= i <= 398)%nat) by (unfold i; lia). exists i. split; [exact I |]. split.
  - rewrite !lookup_in by lia. cbn [bind]. rewrite Nat.add_1_r. reflexivity.
  - rewrite EI. assert (IZR q <= 397) by (apply IZR_le; lia). assert (0 <= IZR q) by (apply IZR_le; lia). lra.
Qed.
Theorem C118_mgs_outside n tab a : a < alpha_min \/ alpha_max < a -> MGS_table n tab a = Ok logZero.
Proof. intro Q. unfold MGS_table, alpha_min, alpha_max in *. destruct (Rlt_dec (11985 / 10000) a); [reflexivity |]. destruct (Rlt_dec a (8005 / 10000)); [reflexivity | lra]. Qed.
(** FINDING: there is no interpolation, so at a point of the table the result is not the value of the table, and it jumps at the points. *)
Theorem C118_mgs_refuted : MGS_table 399 INR alpha_min = Ok (3 / 4) /\ INR 1 / 2 = 1 / 2.
Proof.
  split; [| cbn; lra]. unfold MGS_table. destruct (Rlt_dec alpha_max alpha_min) as [L |]; [unfold alpha_max, alpha_min in L; lra |]. destruct (Rlt_dec alpha_min alpha_min); [lra |].
  assert (Int_part ((alpha_min - alpha_min) / mgs_step) = 0%Z) as ->.
  { replace ((alpha_min - alpha_min) / mgs_step) with (IZR 0) by (unfold mgs_step; field). unfold Int_part. rewrite <- (tech_up (IZR 0) 1); [reflexivity | |]; simpl; lra. }
  change (Z.to_nat (1 + 0)) with 1%nat. rewrite !lookup_in by lia. cbn [bind]. f_equal. cbn [INR Nat.add]. lra.
Qed.
(** C118: alpha is the ratio to the fiducial D_v/rs of the sample. *)
Theorem C118_mgs_alpha k z rs : 0 < rs -> D_v k z / rs = (6389518 / 10000) / (14869 / 100) -> alphamgs k z rs = 1.
Proof. intros _ E. unfold alphamgs. rewrite E. field. Qed.
(** a table of 3 points each way; the middle of its first cell *)
Definition g3 : grid := mkGrid 3 3 INR INR (fun i j => INR (i * j) / 9).
Lemma g3_incr : increasing 3 INR. Proof. intros i _ _. apply lt_INR. lia. Qed.
Example C118_ex : (exists v, DR1x_grid g3 (3 / 2) (3 / 2) = Ok v /\ v = - ln (1 / 4)) /\
  (exists v, DR1x_grid g3 2 2 = Ok v /\ v = - ln (4 / 9)) /\ DR1x_grid g3 1 (3 / 2) = Undef /\ DR1x_grid g3 (5 / 2) (3 / 2) = Ok logZero.
Proof.
  split; [| split; [| split]].
  - destruct (C118_interpolated_partial g3 (3 / 2) (3 / 2) 1 1) as (v & E & M); try exact g3_incr; cbn [np nl perp plel g3]; try lia; try (cbn [INR]; lra).
    exists v. split; [exact E |]. unfold bilinear, line in M. cbn [perp plel prob g3 Nat.mul Nat.add INR] in M.
    match type of M with minus_log _ ?p _ => replace p with (1 / 4) in M by field end. destruct M as [(_ & M) | (M & _)]; [exact M | lra].
  - destruct (C118_nodes g3 2 2) as (v & E & M); try exact g3_incr; cbn [np nl g3]; try lia. exists v. split; [exact E |]. cbn [prob g3 Nat.mul Nat.add INR] in M.
    match type of M with minus_log _ ?p _ => replace p with (4 / 9) in M by field end. destruct M as [(_ & M) | (M & _)]; [exact M | lra].
  - apply (C118_first_refuted g3 (3 / 2)); cbn [np nl perp plel g3 Nat.sub INR]; try lia; lra.
  - apply C118_last_refuted; cbn [np nl perp g3 Nat.sub INR]; try lia; lra.
Qed.

(** C119: for each type the theory is what the type means, for a calculator that gives the distances of the cosmology and with matter as what is not dark energy and curvature. *)
Theorem C119_meaning k u P rs z t : gives k u -> 0 < z -> 0 < rs -> 0 <= h0 P -> 0 <= 1 - omv P - omk P -> t <> f_sigma8 -> t <> dilation ->
  exists v, theory1 k P rs z t = Ok v /\ means u (1 - omv P - omk P) (h0 P) rs z t v.
Proof.
  intros (G1 & G2 & G3) Z RS H0 OM N1 N2. destruct (G3 z Z) as (PA & PH & PV & EV). specialize (G1 z Z). specialize (G2 z).
  assert (C : c_kms = const_c / 1000) by (unfold c_kms, const_c; lra). assert (CP : 0 < c_kms) by (unfold c_kms; lra). assert (HP : 0 < Hub u z) by (rewrite G2; now apply Rmult_lt_0_compat).
  assert (MM : is_mean (DM u z) (z * c_kms / Hub u z) (D_v k z)) by (split; [exact PV | rewrite EV; field; lra]).
  destruct t; try contradiction; cbn [theory1 means]; eexists; (split; [reflexivity |]).
  - (* Az *) exists (D_v k z). split; [exact MM |]. unfold Acoustic. rewrite <- C. set (om := 1 - omv P - omk P) in *.
    assert (S : 0 <= om * (h0 P / 100 * (h0 P / 100))). { apply Rmult_le_pos; [exact OM |]. apply Rmult_le_pos; lra. } assert (0 < c_kms * z) by now apply Rmult_lt_0_compat. split.
    + unfold Rdiv at 1. apply Rmult_le_pos; [| apply Rlt_le, Rinv_0_lt_compat; assumption]. apply Rmult_le_pos; [lra | apply sqrt_pos].
    + replace ((100 * D_v k z * sqrt (om * (h0 P / 100 * (h0 P / 100))) / (c_kms * z)) ^ 2) with (10000 * D_v k z ^ 2 * (sqrt (om * (h0 P / 100 * (h0 P / 100))) * sqrt (om * (h0 P / 100 * (h0 P / 100)))) / (c_kms * z) ^ 2) by (field; lra).
      rewrite sqrt_sqrt by exact S. field. lra.
  - replace (D_v k z / rs * rs) with (D_v k z) by (field; lra). exact MM.
  - replace (rs / (rs / D_v k z)) with (D_v k z) by (field; lra). exact MM.
  - rewrite G1. field. lra.
  - rewrite G1, G2. field. repeat split; try lra.
  - unfold Hofz_Hunit. rewrite G2, C. field.
  - unfold Hofz_Hunit. rewrite G2, C. field.
  - rewrite G1. field. lra.
Qed.
Theorem C119_growth k P rs z : theory1 k P rs z f_sigma8 = Ok (growth k z). Proof. reflexivity. Qed.
(** C119: the likelihood is half of the quadratic form of the differences from the data, and it does stop or not by the types alone. *)
Theorem C119_value k P fixed rdrag b M (T : nat -> mtype) (O : nat -> R) :
  (forall j, (1 <= j <= num b)%nat -> typ b j = Some (T j) /\ T j <> dilation /\ obs b j = Some (O j)) ->
  exists y, (forall j, (1 <= j <= num b)%nat -> theory1 k P (get_rs_drag fixed rdrag * rescale b) (zs b j) (T j) = Ok (y j)) /\
    (symmetric (num b) M -> BAO_LnLike k P fixed rdrag b M = Ok (form (num b) M (fun j => y j - O j) / 2)) /\
    BAO_LnLike k P fixed rdrag b M = Ok (form (num b) (fun i j => M (Nat.min i j) (Nat.max i j)) (fun j => y j - O j) / 2).
Proof.
  intro Q. set (rs := get_rs_drag fixed rdrag * rescale b). destruct (theories_ok k P rs b T O (seq 1 (num b))) as (l & E).
  { intros j J. apply in_seq in J. apply Q. lia. }
  destruct (theories_spec _ _ _ _ _ _ E) as (L & S). rewrite seq_length in *.
  exists (fun j => match theory1 k P rs (zs b j) (T j) with Ok y => y | _ => 0 end).
  assert (V : forall j, (1 <= j <= num b)%nat -> exists y, theory1 k P rs (zs b j) (T j) = Ok y /\ nth (j - 1) l 0 = y - O j).
  { intros j J. destruct (S (j - 1)%nat) as (t & y & o & A & B & C & D); [lia |]. rewrite seq_nth in A, B, C by lia. replace (1 + (j - 1))%nat with j in * by lia.
    destruct (Q j J) as (A' & _ & C'). assert (t = T j) as -> by congruence. assert (o = O j) as -> by congruence. exists y. auto. }
  split; [intros j J; destruct (V j J) as (y & -> & _); reflexivity |].
  assert (U : BAO_LnLike k P fixed rdrag b M = Ok (QuadForm (num b) M (fun i => nth (i - 1) l 0) / 2)) by (unfold BAO_LnLike; fold rs; rewrite E; reflexivity).
  split; [intro SY; rewrite U, QuadForm_form by exact SY | rewrite U, QuadForm_upper]; (f_equal; f_equal; apply form_ext; [reflexivity |]; intros j J; destruct (V j J) as (y & -> & D); exact D).
Qed.
(** C119: for a positive inverse covariance it is 0 where the theory is the data, and above 0 elsewhere. *)
Theorem C119_best k P fixed rdrag b M (T : nat -> mtype) (O : nat -> R) v : symmetric (num b) M -> positive (num b) M ->
  (forall j, (1 <= j <= num b)%nat -> typ b j = Some (T j) /\ T j <> dilation /\ obs b j = Some (O j)) -> BAO_LnLike k P fixed rdrag b M = Ok v ->
  0 <= v /\ (v = 0 <-> forall j, (1 <= j <= num b)%nat -> theory1 k P (get_rs_drag fixed rdrag * rescale b) (zs b j) (T j) = Ok (O j)).
Proof.
  intros SY PM Q E. destruct (C119_value k P fixed rdrag b M T O Q) as (y & Y & F & _). rewrite (F SY) in E. injection E as <-.
  destruct (Forall_Exists_dec (fun j => y j - O j = 0) (fun j => Req_EM_T (y j - O j) 0) (seq 1 (num b))) as [A | A].
  - rewrite Forall_forall in A. assert (Z : form (num b) M (fun j => y j - O j) = 0).
    { unfold form. apply total_0. intros i I. apply total_0. intros j J. rewrite (A j) by (apply in_seq; lia). ring. }
    rewrite Z. split; [lra |]. split; [| lra]. intros _ j J. rewrite (Y j J). f_equal. specialize (A j ltac:(apply in_seq; lia)). lra.
  - apply Exists_exists in A as (j & I & N). apply in_seq in I. assert (0 < form (num b) M (fun j => y j - O j)) by (apply PM; exists j; split; [lia | exact N]).
    split; [lra |]. split; [lra |]. intro W. exfalso. apply N. specialize (W j ltac:(lia)). rewrite (Y j) in W by lia. injection W as ->. lra.
Qed.
(** C119: without a covariance file it is half of the sum of the squares of the differences in units of the errors. *)
Theorem C119_errors inv k P fixed rdrag b (T : nat -> mtype) (O e : nat -> R) :
  (forall j, (1 <= j <= num b)%nat -> typ b j = Some (T j) /\ T j <> dilation /\ obs b j = Some (O j) /\ err b j = Some (e j) /\ e j <> 0) ->
  exists M y, InitProbDist inv NoFile b = Ok M /\ (forall j, (1 <= j <= num b)%nat -> theory1 k P (get_rs_drag fixed rdrag * rescale b) (zs b j) (T j) = Ok (y j)) /\
    BAO_LnLike k P fixed rdrag b M = Ok (total (fun j => ((y j - O j) / e j) ^ 2) (num b) / 2).
Proof.
  intro Q. assert (AS : all_set (err b) (seq 1 (num b)) = true).
  { assert (W : forall js, (forall j, In j js -> exists x, err b j = Some x) -> all_set (err b) js = true).
    { induction js as [| j js IH]; intro W; [reflexivity |]. cbn [all_set]. destruct (W j (or_introl eq_refl)) as (x & ->). apply IH. intros i I. apply W. now right. }
    apply W. intros j J. apply in_seq in J. exists (e j). apply Q. lia. }
  unfold InitProbDist. rewrite AS. eexists. destruct (C119_value k P fixed rdrag b (fun i j => if Nat.eqb i j then match err b i with Some e => 1 / (e * e) | None => 0 end else 0) T O) as (y & Y & F & _).
  { intros j J. destruct (Q j J) as (A & B & C & _). auto. }
  exists y. split; [reflexivity |]. split; [exact Y |]. rewrite F.
  - rewrite form_diag. f_equal. f_equal. apply total_ext. intros j J. destruct (Q j J) as (_ & _ & _ & -> & N). field. exact N.
  - intros i j _ _. rewrite (Nat.eqb_sym j i). destruct (Nat.eqb_spec i j) as [-> |]; reflexivity.
Qed.
(** C119: the length of the ruler is the fixed one if this is above 0, and rs_rescale changes it: with rs_rescale 1/r the ratios are in units of rs/r. *)
Theorem C119_ruler k P rs r z : 0 < rs -> 0 < r -> 0 < D_v k z ->
  theory1 k P (rs * (1 / r)) z bao_DM_over_rs = Ok ((1 + z) * D_A k z * (r / rs)) /\ theory1 k P (rs * (1 / r)) z bao_Hz_rs = Ok (Hofz_Hunit k z * (rs / r)) /\
  theory1 k P (rs * (1 / r)) z bao_DV_over_rs = Ok (D_v k z * (r / rs)) /\ theory1 k P (rs * (1 / r)) z F_AP = theory1 k P rs z F_AP /\
  theory1 k P (rs * (1 / r)) z bao_Az = theory1 k P rs z bao_Az.
Proof. intros A B C. repeat split; cbn [theory1]; f_equal; field; lra. Qed.
Theorem C119_fixed fixed rdrag : (0 < fixed -> get_rs_drag fixed rdrag = fixed) /\ (fixed <= 0 -> get_rs_drag fixed rdrag = rdrag).
Proof. unfold get_rs_drag. destruct (Rlt_dec 0 fixed); split; intro; try reflexivity; lra. Qed.
(** C119: with a point of type dilation there is no likelihood; the program stops if the points before it can be computed. *)
Theorem C119_dilation k P fixed rdrag b M j v : (1 <= j <= num b)%nat -> typ b j = Some dilation -> BAO_LnLike k P fixed rdrag b M <> Ok v.
Proof.
  intros J E. unfold BAO_LnLike. destruct (theories _ _ _ b (seq 1 (num b))) as [l | |] eqn:EL; cbn [bind]; try discriminate. exfalso.
  destruct (theories_spec _ _ _ _ _ _ EL) as (_ & S). rewrite seq_length in S. destruct (S (j - 1)%nat) as (t & y & o & A & B & _); [lia |]. rewrite seq_nth in A, B by lia.
  replace (1 + (j - 1))%nat with j in * by lia. assert (t = dilation) as -> by congruence. discriminate.
Qed.
Theorem C119_stop k P fixed rdrag b M (T : nat -> mtype) (O : nat -> R) j : (1 <= j <= num b)%nat -> typ b j = Some dilation ->
  (forall i, (1 <= i < j)%nat -> typ b i = Some (T i) /\ obs b i = Some (O i)) -> BAO_LnLike k P fixed rdrag b M = Stop.
Proof.
  intros J E Q. unfold BAO_LnLike. enough (ST : forall m s, (s + m <= num b + 1)%nat -> (1 <= s <= j)%nat -> (j < s + m)%nat -> theories k P (get_rs_drag fixed rdrag * rescale b) b (seq s m) = Stop) by (rewrite ST by lia; reflexivity).
  induction m as [| m IH]; intros s L1 L2 L3; [lia |]. cbn [seq theories]. destruct (Nat.eq_dec s j) as [-> | N]; [rewrite E; reflexivity |].
  destruct (Q s) as (-> & ->); [lia |]. cbn [value_of bind]. rewrite IH by lia. destruct (T s); reflexivity.
Qed.

(** C119: a file with a line for each point, of redshift, value, error and type, is read as it is, further lines are not; redshifts below 0.0001 stop. *)
Definition line_of (p : R * R * R * mtype) : list word := let '(z, o, e, t) := p in [Num z; Num o; Num e; Name (Some t)].
Lemma read_lines_of ps more : exists l, read_lines true false (length ps) (map line_of ps ++ more) = Ok l /\ length l = length ps /\
  forall i z o e t, entry ps i = Some (z, o, e, t) -> entry l i = Some (mkPt z o (Some e) (Some t)).
Proof.
  induction ps as [| [[[z o] e] t] ps (l & E & L & S)]; [exists []; cbn [length read_lines map app]; split; [reflexivity |]; split; [reflexivity |]; intros [| [| i]]; discriminate |].
  cbn [length map app line_of read_lines read_line bind]. rewrite E. cbn [bind]. eexists. split; [reflexivity |]. split; [cbn; lia |].
  intros [| [| i]] z' o' e' t' Q; cbn [entry nth_error] in *; [discriminate | congruence |]. apply (S (Datatypes.S i) _ _ _ _ Q).
Qed.
Theorem C119_file n s ps more : n = length ps -> (forall p, In p ps -> 1 / 10000 <= fst (fst (fst p))) ->
  exists b ex, BAO_ReadIni (mkIni n s None (DataFile true (map line_of ps ++ more))) = Ok (b, ex) /\ num b = n /\ rescale b = s /\
    (forall i z o e t, entry ps i = Some (z, o, e, t) -> zs b i = z /\ obs b i = Some o /\ err b i = Some e /\ typ b i = Some t) /\
    ((exists p, In p ps /\ snd p = f_sigma8) -> ex = Some (map (fun p => fst (fst (fst p))) ps)) /\ ((forall p, In p ps -> snd p <> f_sigma8) -> ex = None).
Proof.
  intros -> PZ. destruct (read_lines_of ps more) as (l & E & L & S). unfold BAO_ReadIni, read_file. cbn [isource itypes inum irescale]. rewrite E. cbn [bind num zs typ].
  assert (W : forall i, In i (seq 1 (length ps)) -> exists z o e t, entry ps i = Some (z, o, e, t) /\ In (z, o, e, t) ps).
  { intros i I. apply in_seq in I. destruct i as [| i]; [lia |]. cbn [entry]. destruct (nth_error ps i) as [[[[z o] e] t] |] eqn:Q; [| apply nth_error_None in Q; lia].
    exists z, o, e, t. split; [reflexivity |]. eapply nth_error_In, Q. }
  match goal with |- context [if existsb ?f ?l then Stop else _] => assert (existsb f l = false) as -> end.
  { apply not_true_is_false. intro C. apply existsb_exists in C as (i & I & C). destruct (W i I) as (z & o & e & t & Q & IN). rewrite (S _ _ _ _ _ Q) in C. cbn [pz] in C. specialize (PZ _ IN). cbn [fst] in PZ.
    destruct (Rlt_dec z (1 / 10000)); [lra | discriminate]. }
  match goal with |- context [if all_set ?f ?l then _ else Undef] => assert (all_set f l = true) as -> end.
  { clear - W S. revert W. generalize (seq 1 (length ps)) as js. induction js as [| j js IH]; intro W; [reflexivity |]. cbn [all_set]. destruct (W j (or_introl eq_refl)) as (z & o & e & t & Q & _). rewrite (S _ _ _ _ _ Q). cbn [ptyp].
    apply IH. intros i I. apply W. now right. }
  eexists _, _. split; [reflexivity |]. cbn [num rescale zs obs err typ]. split; [reflexivity |]. split; [reflexivity |]. split; [| split].
  - intros i z o e t Q. rewrite (S _ _ _ _ _ Q). auto.
  - intros (p & IP & EP). match goal with |- (if existsb ?f ?l then _ else _) = _ => assert (existsb f l = true) as -> end.
    { apply existsb_exists. apply In_nth_error in IP as (m & IP). exists (Datatypes.S m). assert (m < length ps)%nat by (apply nth_error_Some; congruence). split; [apply in_seq; lia |].
      destruct p as [[[z o] e] t]. rewrite (S (Datatypes.S m) z o e t IP). cbn in EP |- *. now rewrite EP. }
    f_equal. clear - S L. assert (X : forall k, map (fun i => match entry l i with Some p => pz p | None => 0 end) (seq (1 + k) (length ps - k)) = map (fun p => fst (fst (fst p))) (skipn k ps)).
    { intro k. remember (length ps - k)%nat as m eqn:EM. revert k EM. induction m as [| m IH]; intros k EM.
      - rewrite skipn_all2 by lia. reflexivity.
      - cbn [seq map]. destruct (nth_error ps k) as [[[[z o] e] t] |] eqn:Q; [| apply nth_error_None in Q; lia]. assert (SK : skipn k ps = (z, o, e, t) :: skipn (Datatypes.S k) ps).
        { clear - Q. revert k Q. induction ps as [| p ps IH]; intros [| k] Q; cbn in *; try discriminate; [now injection Q as -> |]. now apply IH. }
        rewrite SK. cbn [map fst]. rewrite (S (1 + k)%nat z o e t Q). cbn [pz]. f_equal. apply (IH (Datatypes.S k)). lia. }
    specialize (X 0%nat). cbn [Nat.add skipn] in X. rewrite Nat.sub_0_r in X. exact X.
  - intro N. match goal with |- (if existsb ?f ?l then _ else _) = _ => assert (existsb f l = false) as -> end; [| reflexivity].
    apply not_true_is_false. intro C. apply existsb_exists in C as (i & I & C). destruct (W i I) as (z & o & e & t & Q & IN). rewrite (S _ _ _ _ _ Q) in C. cbn [ptyp] in C. specialize (N _ IN). cbn [snd] in N. destruct t; cbn in C; congruence.
Qed.
(** C119: the columns of the file for each choice of settings: the error is there if bao_measurements_file_has_error says so, the type if there is no measurement_type. *)
Definition columns (he ht : bool) (p : R * R * R * mtype) : list word := let '(z, o, e, t) := p in Num z :: Num o :: (if he then [Num e] else []) ++ (if ht then [] else [Name (Some t)]).
Theorem C119_columns s ty he ps more : let ht := match ty with Some _ => true | None => false end in
  exists b, read_file (mkIni (length ps) s ty (DataFile he (map (columns he ht) ps ++ more))) he (map (columns he ht) ps ++ more) = Ok b /\ num b = length ps /\ rescale b = s /\
    forall i z o e t, entry ps i = Some (z, o, e, t) -> zs b i = z /\ obs b i = Some o /\ err b i = (if he then Some e else None) /\ typ b i = match ty with Some l => entry l i | None => Some t end.
Proof.
  cbv zeta. set (ht := match ty with Some _ => true | None => false end).
  assert (X : exists l, read_lines he ht (length ps) (map (columns he ht) ps ++ more) = Ok l /\ forall i z o e t, entry ps i = Some (z, o, e, t) -> entry l i = Some (mkPt z o (if he then Some e else None) (if ht then None else Some t))).
  { clear s. clearbody ht. induction ps as [| [[[z o] e] t] ps (l & E & S)]; [exists []; split; [reflexivity |]; intros [| [| i]]; discriminate |].
    cbn [length map app read_lines]. replace (read_line he ht (columns he ht (z, o, e, t))) with (Ok (mkPt z o (if he then Some e else None) (if ht then None else Some t))) by (destruct he, ht; reflexivity). cbn [bind]. rewrite E. cbn [bind]. eexists. split; [reflexivity |].
    intros [| [| i]] z' o' e' t' Q; cbn [entry nth_error] in *; [discriminate | injection Q as -> -> -> ->; reflexivity |]. apply (S (Datatypes.S i) _ _ _ _ Q). }
  destruct X as (l & E & S). unfold read_file. cbn [inum itypes irescale]. fold ht. rewrite E. cbn [bind]. eexists. split; [reflexivity |]. cbn [num rescale zs obs err typ]. split; [reflexivity |]. split; [reflexivity |].
  intros i z o e t Q. rewrite (S _ _ _ _ _ Q). cbn [pz pobs perr]. split; [reflexivity |]. split; [reflexivity |]. split; [reflexivity |]. unfold ht in *. destruct ty as [tl |]; [reflexivity |]. rewrite (S _ _ _ _ _ Q). reflexivity.
Qed.
(** C119: the matrix of the likelihood is that of the file of inverse covariance, or the inverse of the one in the file of covariance. *)
Theorem C119_matrix inv M b : (forall i k, (1 <= i <= num b)%nat -> (1 <= k <= num b)%nat -> total (fun j => M i j * inv M j k) (num b) = if Nat.eqb i k then 1 else 0) ->
  InitProbDist inv (Invcov M) b = Ok M /\ exists W, InitProbDist inv (Cov M) b = Ok W /\ forall i k, (1 <= i <= num b)%nat -> (1 <= k <= num b)%nat -> total (fun j => M i j * W j k) (num b) = if Nat.eqb i k then 1 else 0.
Proof. intro H. split; [reflexivity |]. exists (inv M). split; [reflexivity | exact H]. Qed.
Example C119_matrix_ex : let b := mkBao 2 1 (fun _ => 1) (fun _ => None) (fun _ => None) (fun _ => None) in let M i j := if Nat.eqb i j then 2 else 0 in
  exists W, InitProbDist (fun _ i j => if Nat.eqb i j then 1 / 2 else 0) (Cov M) b = Ok W /\ forall i k, (1 <= i <= 2)%nat -> (1 <= k <= 2)%nat -> total (fun j => M i j * W j k) 2 = if Nat.eqb i k then 1 else 0.
Proof.
  cbv zeta. set (b := mkBao _ _ _ _ _ _). apply (C119_matrix (fun _ i j => if Nat.eqb i j then 1 / 2 else 0) (fun i j => if Nat.eqb i j then 2 else 0) b). cbn [num b]. intros i k I K.
  assert (i = 1 \/ i = 2)%nat as [-> | ->] by lia; assert (k = 1 \/ k = 2)%nat as [-> | ->] by lia; unfold total; cbn; lra.
Qed.
Theorem C119_low I b ex : BAO_ReadIni I = Ok (b, ex) -> forall i, (1 <= i <= num b)%nat -> 1 / 10000 <= zs b i /\ exists t, typ b i = Some t.
Proof.
  unfold BAO_ReadIni. destruct (match isource I with Zeff zl z1 meas => read_zeff I zl z1 meas | DataFile h ls => read_file I h ls end) as [b' | |]; try discriminate. cbn [bind].
  destruct (existsb _ (seq 1 (num b'))) eqn:EX; [discriminate |]. destruct (all_set _ (seq 1 (num b'))) eqn:AS; [| discriminate]. intros E i J. injection E as -> _. split.
  - destruct (Rlt_dec (zs b i) (1 / 10000)) as [L |]; [| lra]. exfalso. assert (C : existsb (fun i => if Rlt_dec (zs b i) (1 / 10000) then true else false) (seq 1 (num b)) = true); [| congruence].
    apply existsb_exists. exists i. split; [apply in_seq; lia |]. destruct (Rlt_dec (zs b i) (1 / 10000)); [reflexivity | contradiction].
  - assert (IN : In i (seq 1 (num b))) by (apply in_seq; lia). revert AS IN. generalize (seq 1 (num b)) as js. induction js as [| j js IH]; intros AS IN; [destruct IN |]. cbn [all_set] in AS.
    destruct (typ b j) as [t |] eqn:ET; [| discriminate]. destruct IN as [<- | IN]; [now exists t | auto].
Qed.
Theorem C119_missing h t n ls : (length ls < n)%nat -> (forall l, In l ls -> exists p, read_line h t l = Ok p) -> read_lines h t n ls = Stop.
Proof.
  revert n. induction ls as [| l ls IH]; intros [| n] L Q; cbn [length] in L; try lia; [reflexivity |]. cbn [read_lines]. destruct (Q l (or_introl eq_refl)) as (p & ->). cbn [bind].
  rewrite IH; [reflexivity | lia |]. intros l' I. apply Q. now right.
Qed.
(** FINDING: with zeff and more than one point no error is read, and without a file of covariance the errors are used as they are. *)
Theorem C119_unset_refuted inv n s ty zl z1 meas b ex : (1 < n)%nat -> BAO_ReadIni (mkIni n s (Some ty) (Zeff zl z1 meas)) = Ok (b, ex) -> InitProbDist inv NoFile b = Undef.
Proof.
  intros N E. unfold BAO_ReadIni, read_zeff in E. cbn [isource inum itypes irescale] in E. destruct (types_of n (Some ty) 1) as [t1 |]; [| discriminate]. cbn [value_of bind] in E.
  assert (Q : forall o : bao, err o = (fun _ => None) -> num o = n -> InitProbDist inv NoFile o = Undef).
  { intros o EO NO. unfold InitProbDist. rewrite NO, EO. destruct n as [| n]; [lia |]. reflexivity. }
  assert (exists o, err o = (fun _ : nat => @None R) /\ num o = n /\ b = o) as (o & O1 & O2 & ->); [| now apply Q].
  destruct (is_dilation t1); [| destruct (Nat.ltb_spec 1 n); [destruct (Nat.leb n (length meas)); [| discriminate] | lia]]; cbn [bind num zs typ] in E;
  (destruct (existsb _ (seq 1 n)); [discriminate |]; destruct (all_set _ (seq 1 n)); [| discriminate]; injection E as <- _; eexists; split; [| split; [| reflexivity]]; reflexivity).
Qed.
(** FINDING: with zeff and no measurement_type the type of the first point is used before it is set. *)
Theorem C119_type_refuted n s zl z1 meas : BAO_ReadIni (mkIni n s None (Zeff zl z1 meas)) = Undef.
Proof. reflexivity. Qed.
(** FINDING: a list of redshifts that is too short is taken as its first number (the one that is read as a number) for all points. *)
Theorem C119_short_refuted s z1 z2 o1 o2 o3 : 1 / 10000 <= z1 -> exists b ex,
  BAO_ReadIni (mkIni 3 s (Some [bao_DV_over_rs; bao_DV_over_rs; bao_DV_over_rs]) (Zeff [z1; z2] z1 [o1; o2; o3])) = Ok (b, ex) /\ map (zs b) (seq 1 3) = [z1; z1; z1].
Proof.
  intro Z. unfold BAO_ReadIni, read_zeff. cbn. destruct (Rlt_dec z1 (1 / 10000)); [lra |]. cbn. eexists _, _. split; reflexivity.
Qed.
(** two correlated points *)
Definition k1 : calc := mkCalc (fun _ => 2) (fun _ => 1) (fun _ => 1) (fun _ => 1 / 2).
Example C119_ex : exists b, BAO_ReadIni (mkIni 2 1 (Some [bao_DV_over_rs; f_sigma8]) (DataFile true [[Num 1; Num 1; Num 1]; [Num 2; Num 1; Num 2]])) = Ok (b, Some [1; 2]) /\
  BAO_LnLike k1 (mkCmbp 0 0 70) 0 1 b (fun i j => if Nat.eqb i j then 1 else 1 / 2) = Ok (3 / 8) /\
  exists M, InitProbDist (fun M => M) NoFile b = Ok M /\ BAO_LnLike k1 (mkCmbp 0 0 70) 0 1 b M = Ok (17 / 32).
Proof.
  eexists. split; [unfold BAO_ReadIni, read_file; cbn; destruct (Rlt_dec 1 (1 / 10000)); [lra |]; destruct (Rlt_dec 2 (1 / 10000)); [lra |]; reflexivity |].
  split.
  - unfold BAO_LnLike, get_rs_drag. destruct (Rlt_dec 0 0); [lra |]. cbn. f_equal. unfold QuadForm, MulVecSymm, sum1. cbn. lra.
  - eexists. split; [reflexivity |]. unfold BAO_LnLike, get_rs_drag. destruct (Rlt_dec 0 0); [lra |]. cbn. f_equal. unfold QuadForm, MulVecSymm, sum1. cbn. lra.
Qed.
(** the meaning of the types can be met by one universe *)
Example C119_universe : exists k u, gives k u.
Proof.
  exists (mkCalc (fun z => z) (fun z => z / (1 + z)) (fun _ => 1) (fun _ => 1)), (mkUni (fun z => if Rlt_dec 0 z then z else 0) (fun _ => c_kms)). repeat split; cbn [D_v D_A Hofz DM Hub].
  - intros z Z. destruct (Rlt_dec 0 z); [| lra]. field. lra.
  - intro z. lra.
  - apply Rmult_lt_0_compat; [lra | apply Rinv_0_lt_compat; lra].
  - lra.
  - exact H.
  - destruct (Rlt_dec 0 z); [| lra]. field. unfold c_kms. lra.
Qed.
Print Assumptions C118_interpolated_partial.
Print Assumptions C118_peak.
Print Assumptions C118_mgs_partial.
Print Assumptions C119_meaning.
Print Assumptions C119_best.
Print Assumptions C119_file.
Print Assumptions C119_columns.
Print Assumptions C119_matrix.
