(** C140: foregrounds of B modes, source/CMB_BK_Planck.f90. *)
From Coq Require Import Reals Lia Lra Bool.
From Verif Require Import PyStr PyStrFacts CnvgModel ConvModel StatModel StatSpec StatProofs CnvgSpec CnvgProofs BkModel BkSpec BkProofs.
From Coq Require Import List.
Import ListNotations.
Local Open Scope R_scope.

Lemma read_ok fd fs rs : good_band rs -> 0 < fd -> 0 < fs -> exists b, ReadBandpass fd fs rs = Some b /\ rows b = rs /\ dnu b = widths rs /\
  (let W g := Sm (length rs) (fun i => nth i (widths rs) 0 * resp rs i * g (nu rs i)) in th_dust b = W thermo / thermo fd /\ th_sync b = W thermo / thermo fs /\ nu_bar b = W (fun x => x) / W (fun _ => 1)).
Proof.
  intros G D S. unfold ReadBandpass. destruct (Nat.ltb_spec (length rs) 2) as [B |]; [destruct G; lia |]. rewrite (band_forall rs G), (posb_true fd D), (posb_true fs S). cbn [andb negb]. rewrite !rsum_Sm. rewrite zerob_false.
  - eexists. split; [reflexivity |]. cbn [rows dnu th_dust th_sync nu_bar]. split; [reflexivity |]. split; [reflexivity |]. cbv zeta. repeat split.
    + f_equal. apply Sm_ext. intros; unfold thermo, Rdiv; ring.
    + f_equal. apply Sm_ext. intros; unfold thermo, Rdiv; ring.
    + rewrite (Sm_ext _ (fun i => nth i (widths rs) 0 * nu rs i * resp rs i) (fun i => nth i (widths rs) 0 * resp rs i * nu rs i)) by (intros; ring). rewrite (Sm_ext _ (fun i => nth i (widths rs) 0 * resp rs i) (fun i => nth i (widths rs) 0 * resp rs i * 1)) by (intros; ring). reflexivity.
  - rewrite (Sm_ext _ _ (fun i => nth i (widths rs) 0 * resp rs i * (fun _ => 1) (nu rs i))) by (intros; ring). apply Rgt_not_eq. apply (wsum_pos rs (fun _ => 1) G). intros; lra.
Qed.
(** C140: a band with positive frequencies can be read, and its mean frequency lies in it. *)
Theorem C140_band fd fs rs : good_band rs -> 0 < fd -> 0 < fs -> exists b, ReadBandpass fd fs rs = Some b /\ nu rs 0 <= nu_bar b <= nu rs (length rs - 1).
Proof.
  intros G D S. destruct (read_ok fd fs rs G D S) as (b & E & _ & _ & _ & _ & NB). exists b. split; [exact E |]. rewrite NB. cbv beta. pose proof (wsum_pos rs (fun _ => 1) G ltac:(intros; lra)) as W. cbv beta in W. set (t := Sm (length rs) (fun i => nth i (widths rs) 0 * resp rs i * 1)) in *. pose proof G as (N & P & A & _).
  assert (K : forall i, (i < length rs)%nat -> nu rs 0 <= nu rs i <= nu rs (length rs - 1)). { intros i I. split; [destruct i; [lra |]; pose proof (rise rs 0 (Datatypes.S i) A ltac:(lia)); lra |]. destruct (Nat.eq_dec i (length rs - 1)) as [-> |]; [lra |]. pose proof (rise rs i (length rs - 1) A ltac:(lia)). lra. }
  assert (Q : forall i, (i < length rs)%nat -> 0 <= nth i (widths rs) 0 * resp rs i) by (intros i I; apply Rmult_le_pos; [apply Rlt_le; now apply widths_pos | now apply P]).
  split; [apply Rmult_le_reg_r with t; [exact W |] | apply Rmult_le_reg_r with t; [exact W |]]; unfold Rdiv; rewrite Rmult_assoc, Rinv_l, Rmult_1_r by lra; unfold t; rewrite <- Sm_scal; apply Sm_le; intros i I; specialize (K i I); specialize (Q i I); nra.
Qed.
(** C140: the factor of dust is the greybody seen through the band, in units of that at the pivot frequency, and both in units of temperature of the CMB; so for synchrotron radiation. *)
Theorem C140_scaling dB fd fs rs b beta Td : good_band rs -> 0 < fd -> 0 < fs -> ReadBandpass fd fs rs = Some b -> Td <> 0 -> is_change dB ->
  let seen g := trapezoid rs g + ends rs g in
  DustScaling beta Td b fd 1 = Some ((seen (greybody beta Td) / greybody beta Td fd) / (seen dB / dB fd)) /\ SyncScaling beta b fs 1 = Some ((seen (powerlaw beta) / powerlaw beta fs) / (seen dB / dB fs)).
Proof.
  intros G D S E T C seen. destruct (read_ok fd fs rs G D S) as (b' & E' & RB & DB & TD & TS & _). rewrite E in E'. injection E' as <-. cbv zeta in TD, TS. pose proof (wsum_pos rs thermo G thermo_pos) as W. pose proof (thermo_pos fd D) as PD. pose proof (thermo_pos fs S) as PS. pose proof const_pos as CP.
  assert (K : forall g, seen g = Sm (length rs) (fun i => nth i (widths rs) 0 * resp rs i * g (nu rs i))) by (intro g; unfold seen, ends; rewrite (trapezoid_sum rs g (proj1 G)); ring).
  assert (KB : seen dB = Ghz_Kelvin / T_CMB ^ 2 * Sm (length rs) (fun i => nth i (widths rs) 0 * resp rs i * thermo (nu rs i))). { rewrite K, <- Sm_scal. apply Sm_ext. intros i I. rewrite (change_eq dB _ C) by (now apply G). ring. }
  rewrite KB, !K, !(change_eq dB _ C) by assumption. set (w := Sm _ (fun i => _ * thermo _)) in *. set (c := Ghz_Kelvin / T_CMB ^ 2) in *. split.
  - unfold DustScaling. rewrite (zerob_false Td T), (zerob_false (th_dust b)) by (rewrite TD; apply Rgt_not_eq, Rdiv_lt_0_compat; assumption). cbn [orb]. rewrite (zerob_true (1 - 1)) by ring. rewrite RB, DB, TD, rsum_Sm, greybody_eq by exact D. f_equal.
    rewrite (Sm_ext _ _ (fun i => nth i (widths rs) 0 * resp rs i * greybody beta Td (nu rs i))) by (intros i I; rewrite <- greybody_eq by (now apply G); unfold Rdiv; ring). unfold Rdiv. rewrite !Rinv_mult, !Rinv_inv. field. repeat split; try lra. unfold greybody, brightness. apply Rmult_integral_contrapositive_currified; [apply Rgt_not_eq, exp_pos |]. apply Rmult_integral_contrapositive_currified; [apply pow_nonzero; lra |]. apply Rinv_neq_0_compat, expm1_nz; [lra | exact T].
  - unfold SyncScaling. rewrite (zerob_false (th_sync b)) by (rewrite TS; apply Rgt_not_eq, Rdiv_lt_0_compat; assumption). rewrite (zerob_true (1 - 1)) by ring. rewrite RB, DB, TS, rsum_Sm, x2beta by exact S. f_equal. fold (powerlaw beta fs).
    rewrite (Sm_ext _ _ (fun i => nth i (widths rs) 0 * resp rs i * powerlaw beta (nu rs i))) by (intros i I; rewrite x2beta by (now apply G); reflexivity). assert (P : powerlaw beta fs <> 0) by (apply Rgt_not_eq, Rmult_lt_0_compat; [now apply pow_lt | apply exp_pos]). unfold Rdiv. rewrite !Rinv_mult, !Rinv_inv. field. repeat split; lra.
Qed.
Lemma single_sum rs k g : single rs k -> Sm (length rs) (fun i => nth i (widths rs) 0 * resp rs i * g (nu rs i)) = nth k (widths rs) 0 * resp rs k * g (nu rs k).
Proof.
  intros (K & O). rewrite (Sm_ext _ _ (fun i => (nth i (widths rs) 0 * resp rs i * g (nu rs i)) * delta k i)); [now rewrite (Sm_delta (length rs) (fun i => nth i (widths rs) 0 * resp rs i * g (nu rs i)) k K) |]. intros i I. unfold delta. destruct (Nat.eqb_spec k i) as [-> | N]; [ring |]. rewrite (O i I) by congruence. ring.
Qed.
Lemma Rpower_scale a x e : 0 < a -> 0 < x -> Rpower (a * x) e = Rpower a e * Rpower x e. Proof. intros. symmetry. now apply Rpower_mult_distr. Qed.
Lemma th_error_eq b g : 0 < g -> 0 < nu_bar b -> th_error b g = thermo (g * nu_bar b) / thermo (nu_bar b).
Proof.
  intros G N. pose proof T_pos. unfold th_error, thermo. set (x := nu_bar b) in *. pose proof (expm1_nz x T_CMB ltac:(lra) ltac:(lra)) as N1. assert (GX : 0 < g * x) by (now apply Rmult_lt_0_compat). pose proof (expm1_nz (g * x) T_CMB ltac:(lra) ltac:(lra)) as N2.
  replace (Ghz_Kelvin * x * g / T_CMB) with (Ghz_Kelvin * (g * x) / T_CMB) by (unfold Rdiv; ring). replace (Ghz_Kelvin * x * (g - 1) / T_CMB) with (Ghz_Kelvin * (g * x) / T_CMB + - (Ghz_Kelvin * x / T_CMB)) by (field; lra). rewrite exp_plus, exp_Ropp. set (e1 := exp (Ghz_Kelvin * x / T_CMB)) in *. set (e2 := exp (Ghz_Kelvin * (g * x) / T_CMB)) in *. assert (0 < e1) by apply exp_pos. field. repeat split; lra.
Qed.
(** C140: for a band of one frequency the factors are those of that frequency, moved by the error of the centre; 1 at the pivot frequency. *)
Theorem C140_single dB fd fs rs k b beta Td g : good_band rs -> single rs k -> 0 < fd -> 0 < fs -> ReadBandpass fd fs rs = Some b -> Td <> 0 -> is_change dB -> 0 < g ->
  let x := g * nu rs k in
  nu_bar b = nu rs k /\ DustScaling beta Td b fd g = Some ((greybody beta Td x / greybody beta Td fd) / (dB x / dB fd)) /\ SyncScaling beta b fs g = Some ((powerlaw beta x / powerlaw beta fs) / (dB x / dB fs)).
Proof.
  intros G SI D S E T C GP x. destruct (read_ok fd fs rs G D S) as (b' & E' & RB & DB & TD & TS & NB). rewrite E in E'. injection E' as <-. cbv zeta in TD, TS, NB. pose proof SI as (KL & _). pose proof G as (_ & PO & _ & i0 & I0 & R0).
  assert (RK : 0 < resp rs k). { destruct (Nat.eq_dec i0 k) as [<- | N]; [exact R0 |]. rewrite (proj2 SI i0 I0 N) in R0. lra. } pose proof (widths_pos rs k G KL) as WK. destruct (PO k KL) as (NK & _).
  set (n := nu rs k) in *. set (a := nth k (widths rs) 0 * resp rs k) in *. assert (A : 0 < a) by (now apply Rmult_lt_0_compat).
  assert (NB' : nu_bar b = n) by (rewrite NB, (single_sum rs k (fun x => x) SI), (single_sum rs k (fun _ => 1) SI); fold a; fold n; field; lra).
  rewrite (single_sum rs k thermo SI) in TD, TS. fold a n in TD, TS. pose proof (thermo_pos n NK) as PN. pose proof (thermo_pos fd D) as PD. pose proof (thermo_pos fs S) as PS. pose proof const_pos as CP. assert (X : 0 < x) by (now apply Rmult_lt_0_compat). pose proof (thermo_pos x X) as PX.
  split; [exact NB' |]. rewrite !(change_eq dB _ C) by assumption. set (c := Ghz_Kelvin / T_CMB ^ 2) in *.
  assert (N3 : forall y, 0 < y -> greybody beta Td y <> 0). { intros y Y. unfold greybody, brightness. apply Rmult_integral_contrapositive_currified; [apply Rgt_not_eq, exp_pos |]. apply Rmult_integral_contrapositive_currified; [apply pow_nonzero; lra |]. apply Rinv_neq_0_compat, expm1_nz; [lra | exact T]. }
  assert (N4 : forall y, 0 < y -> powerlaw beta y <> 0) by (intros y Y; apply Rgt_not_eq, Rmult_lt_0_compat; [now apply pow_lt | apply exp_pos]). split.
  - unfold DustScaling. rewrite (zerob_false Td T), (zerob_false (th_dust b)) by (rewrite TD; apply Rgt_not_eq, Rdiv_lt_0_compat; [now apply Rmult_lt_0_compat | assumption]). cbn [orb]. rewrite RB, DB, rsum_Sm, greybody_eq by exact D.
    rewrite (Sm_ext _ _ (fun i => nth i (widths rs) 0 * resp rs i * greybody beta Td (nu rs i))) by (intros i I; rewrite <- greybody_eq by (now apply G); unfold Rdiv; ring). rewrite (single_sum rs k (greybody beta Td) SI). fold a n. rewrite TD.
    assert (ER : g = 1 -> x = n) by (intros ->; unfold x; ring). unfold zerob. destruct (Req_EM_T (g - 1) 0) as [G1 | G1].
    + f_equal. rewrite ER by lra. field. repeat split; try lra; now apply N3.
    + rewrite (posb_true g GP), NB'. destruct (Req_EM_T n 0) as [B |]; [lra |]. cbn [negb orb]. f_equal. rewrite th_error_eq by (rewrite ?NB'; assumption). rewrite NB'. fold x.
      assert (GB : Rpower g (3 + beta) * (exp (Ghz_Kelvin * n / Td) - 1) / (exp (Ghz_Kelvin * n * g / Td) - 1) = greybody beta Td x / greybody beta Td n).
      { rewrite <- !greybody_eq by assumption. unfold x. rewrite Rpower_scale by assumption. replace (Ghz_Kelvin * n * g / Td) with (Ghz_Kelvin * (g * n) / Td) by (unfold Rdiv; ring). pose proof (expm1_nz n Td ltac:(lra) T). pose proof (expm1_nz (g * n) Td ltac:(unfold x in X; lra) T). assert (0 < Rpower n (3 + beta)) by apply exp_pos. field. repeat split; try assumption; lra. }
      rewrite GB. field. repeat split; try lra; now apply N3.
  - unfold SyncScaling. rewrite (zerob_false (th_sync b)) by (rewrite TS; apply Rgt_not_eq, Rdiv_lt_0_compat; [now apply Rmult_lt_0_compat | assumption]). rewrite RB, DB, rsum_Sm, x2beta by exact S. fold (powerlaw beta fs).
    rewrite (Sm_ext _ _ (fun i => nth i (widths rs) 0 * resp rs i * powerlaw beta (nu rs i))) by (intros i I; rewrite x2beta by (now apply G); reflexivity). rewrite (single_sum rs k (powerlaw beta) SI). fold a n. rewrite TS.
    assert (ER : g = 1 -> x = n) by (intros ->; unfold x; ring). unfold zerob. destruct (Req_EM_T (g - 1) 0) as [G1 | G1].
    + f_equal. rewrite ER by lra. field. repeat split; try lra; now apply N4.
    + rewrite (posb_true g GP), NB'. destruct (Req_EM_T n 0) as [B |]; [lra |]. cbn [negb orb]. f_equal. rewrite th_error_eq by (rewrite ?NB'; assumption). rewrite NB'. fold x.
      assert (GB : Rpower g (2 + beta) = powerlaw beta x / powerlaw beta n).
      { unfold powerlaw. rewrite <- !x2beta by assumption. unfold x. rewrite Rpower_scale by assumption. assert (0 < Rpower n (2 + beta)) by apply exp_pos. field. lra. }
      rewrite GB. field. repeat split; try lra; now apply N4.
Qed.
(** C140: at the pivot frequency the factors are 1. *)
Theorem C140_pivot fd fs rs k b beta Td g : good_band rs -> single rs k -> 0 < fd -> 0 < fs -> ReadBandpass fd fs rs = Some b -> Td <> 0 -> 0 < g ->
  (g * nu rs k = fd -> DustScaling beta Td b fd g = Some 1) /\ (g * nu rs k = fs -> SyncScaling beta b fs g = Some 1).
Proof.
  intros G SI D S E T GP. pose proof (C140_single (fun x => Ghz_Kelvin / T_CMB ^ 2 * thermo x) fd fs rs k b beta Td g G SI D S E T (fun x X => thermo_change x X) GP) as (_ & A & B). cbv zeta beta in A, B. pose proof const_pos. pose proof (thermo_pos fd D). pose proof (thermo_pos fs S). split; intro Q.
  - rewrite A, Q. f_equal. assert (greybody beta Td fd <> 0). { unfold greybody, brightness. apply Rmult_integral_contrapositive_currified; [apply Rgt_not_eq, exp_pos |]. apply Rmult_integral_contrapositive_currified; [apply pow_nonzero; lra |]. apply Rinv_neq_0_compat, expm1_nz; [lra | exact T]. } set (c := Ghz_Kelvin / T_CMB ^ 2) in *. field. repeat split; try assumption; lra.
  - rewrite B, Q. f_equal. assert (powerlaw beta fs <> 0) by (apply Rgt_not_eq, Rmult_lt_0_compat; [now apply pow_lt | apply exp_pos]). set (c := Ghz_Kelvin / T_CMB ^ 2) in *. field. repeat split; try assumption; lra.
Qed.
(** C140: the unit of the response does not matter. *)
Definition louder (c : R) (rs : list (R * R)) : list (R * R) := map (fun r => (fst r, c * snd r)) rs.
Lemma louder_nth c rs i : nu (louder c rs) i = nu rs i /\ resp (louder c rs) i = c * resp rs i.
Proof. unfold nu, resp, louder. destruct (Nat.lt_ge_cases i (length rs)) as [I | I]; [rewrite (nth_indep _ (0, 0) (fst (0, 0), c * snd (0, 0))) by (now rewrite map_length); rewrite (map_nth (fun r => (fst r, c * snd r)) rs (0, 0) i); split; reflexivity |]. rewrite !nth_overflow by (rewrite ?map_length; exact I). cbn. split; ring. Qed.
Theorem C140_units c fd fs rs b beta Td g : 0 < c -> good_band rs -> 0 < fd -> 0 < fs -> ReadBandpass fd fs rs = Some b -> exists b', ReadBandpass fd fs (louder c rs) = Some b' /\ nu_bar b' = nu_bar b /\ DustScaling beta Td b' fd g = DustScaling beta Td b fd g /\ SyncScaling beta b' fs g = SyncScaling beta b fs g.
Proof.
  intros CP G D S E. assert (LL : length (louder c rs) = length rs) by apply map_length. assert (G' : good_band (louder c rs)).
  { destruct G as (A & B & C & i & I & P). split; [now rewrite LL |]. split; [intros j J; rewrite LL in J; destruct (louder_nth c rs j) as (-> & ->); destruct (B j J); split; [assumption | apply Rmult_le_pos; lra] |]. split; [intros j J; rewrite LL in J; rewrite (proj1 (louder_nth c rs j)), (proj1 (louder_nth c rs (Datatypes.S j))); now apply C |]. exists i. rewrite LL. split; [exact I |]. rewrite (proj2 (louder_nth c rs i)). now apply Rmult_lt_0_compat. }
  destruct (read_ok fd fs rs G D S) as (b1 & E1 & RB & DB & TD & TS & NB). rewrite E in E1. injection E1 as <-. destruct (read_ok fd fs _ G' D S) as (b' & E' & RB' & DB' & TD' & TS' & NB'). exists b'. split; [exact E' |]. cbv zeta in *. rewrite LL in *.
  assert (W : widths (louder c rs) = widths rs). { unfold widths. rewrite LL. apply map_ext. intro i. rewrite !(proj1 (louder_nth c rs _)). reflexivity. } rewrite W in *.
  assert (K : forall f : R -> R, Sm (length rs) (fun i => nth i (widths rs) 0 * resp (louder c rs) i * f (nu (louder c rs) i)) = c * Sm (length rs) (fun i => nth i (widths rs) 0 * resp rs i * f (nu rs i))). { intro f. rewrite <- Sm_scal. apply Sm_ext. intros i _. destruct (louder_nth c rs i) as (-> & ->). ring. }
  rewrite (K thermo) in TD', TS'. rewrite (K (fun x => x)), (K (fun _ => 1)) in NB'. pose proof (wsum_pos rs (fun _ => 1) G ltac:(intros; lra)) as W1. cbv beta in W1. pose proof (wsum_pos rs thermo G thermo_pos) as WT. pose proof (thermo_pos fd D) as PD. pose proof (thermo_pos fs S) as PS. set (w1 := Sm _ (fun i => _ * 1)) in *. set (wt := Sm _ (fun i => _ * thermo _)) in *.
  assert (NN : nu_bar b' = nu_bar b) by (rewrite NB, NB'; field; lra). split; [exact NN |]. assert (TDc : th_dust b' = c * th_dust b) by (rewrite TD, TD'; field; lra). assert (TSc : th_sync b' = c * th_sync b) by (rewrite TS, TS'; field; lra). assert (TD0 : 0 < th_dust b) by (rewrite TD; now apply Rdiv_lt_0_compat). assert (TS0 : 0 < th_sync b) by (rewrite TS; now apply Rdiv_lt_0_compat).
  assert (TE : th_error b' g = th_error b g) by (unfold th_error; rewrite NN; reflexivity). split.
  - unfold DustScaling. rewrite RB, RB', DB, DB', LL, NN, TE, TDc, !rsum_Sm. rewrite (zerob_false (c * th_dust b)), (zerob_false (th_dust b)) by (apply Rgt_not_eq; try apply Rmult_lt_0_compat; assumption).
    rewrite (Sm_ext _ (fun i => nth i (widths rs) 0 * resp (louder c rs) i * _ / _) (fun i => c * (nth i (widths rs) 0 * resp rs i * Rpower (nu rs i) (3 + beta) / (exp (Ghz_Kelvin * nu rs i / Td) - 1)))) by (intros i _; destruct (louder_nth c rs i) as (-> & ->); unfold Rdiv; ring). rewrite Sm_scal. set (w := Sm _ _). set (q := Rpower fd (3 + beta) / _).
    assert (Q : c * w / q / (c * th_dust b) = w / q / th_dust b) by (unfold Rdiv; rewrite Rinv_mult; rewrite (Rmult_comm c w), !Rmult_assoc; f_equal; rewrite <- (Rmult_assoc c (/ q)), (Rmult_comm c (/ q)), Rmult_assoc; f_equal; field; lra). rewrite Q. reflexivity.
  - unfold SyncScaling. rewrite RB, RB', DB, DB', LL, NN, TE, TSc, !rsum_Sm. rewrite (zerob_false (c * th_sync b)), (zerob_false (th_sync b)) by (apply Rgt_not_eq; try apply Rmult_lt_0_compat; assumption).
    rewrite (Sm_ext _ (fun i => nth i (widths rs) 0 * resp (louder c rs) i * _) (fun i => c * (nth i (widths rs) 0 * resp rs i * Rpower (nu rs i) (2 + beta)))) by (intros i _; destruct (louder_nth c rs i) as (-> & ->); unfold Rdiv; ring). rewrite Sm_scal. set (w := Sm _ _). set (q := Rpower fs (2 + beta)).
    assert (Q : c * w / q / (c * th_sync b) = w / q / th_sync b) by (unfold Rdiv; rewrite Rinv_mult; rewrite (Rmult_comm c w), !Rmult_assoc; f_equal; rewrite <- (Rmult_assoc c (/ q)), (Rmult_comm c (/ q)), Rmult_assoc; f_equal; field; lra). rewrite Q. reflexivity.
Qed.
(** C140 refuted: the first and the last frequency of a band count twice as much as in the trapezoidal rule; a flat band seems wider than it is. *)
Theorem C140_ends_refuted rs fd fs b g : ReadBandpass fd fs rs = Some b -> Sm (length rs) (fun i => nth i (dnu b) 0 * resp rs i * g (nu rs i)) = trapezoid rs g + ends rs g /\ (resp rs 0 = 0 -> resp rs (length rs - 1) = 0 -> ends rs g = 0).
Proof.
  unfold ReadBandpass. destruct (Nat.ltb_spec (length rs) 2) as [| N]; [discriminate |]. cbv zeta. destruct (negb _); [discriminate |]. destruct (zerob _); [discriminate |]. intro E. injection E as <-. cbn [dnu]. split.
  - rewrite (trapezoid_sum rs g N). unfold ends. ring.
  - intros A B. unfold ends. rewrite A, B. ring.
Qed.
Lemma growth_eq f l : scl_ell f l = growth f l. Proof. destruct f; reflexivity. Qed.
Lemma growth_nonneg f l : 0 <= growth f l.
Proof. destruct f; cbn [growth]; try lra; [apply Rmult_le_pos; [apply pos_INR | lra] | rewrite <- Rsqr_pow2; apply Rle_0_sqr]. Qed.
Lemma ln_div x y : 0 < x -> 0 < y -> ln (x / y) = ln x - ln y.
Proof. intros. unfold Rdiv. rewrite ln_mult, ln_Rinv by (try apply Rinv_0_lt_compat; assumption). ring. Qed.
(** C140: dust or synchrotron radiation at two frequencies has lost correlation by a power of what it has lost between the pivots. *)
Theorem C140_decorrelation D x y p l f : good_pivot p -> 0 < x -> 0 < y -> let e := apart x y p ^ 2 * growth f l in
  (0 < D <= 1 -> Decorrelation D x y p l f = Some (Rpower D e)) /\ (1 < D < 2 -> Decorrelation D x y p l f = Some (2 - Rpower (2 - D) e)) /\ (D <= 0 \/ 2 <= D -> Decorrelation D x y p l f = None).
Proof.
  intros (P1 & P2 & PN) X Y e. assert (LP : ln (fst p) - ln (snd p) <> 0) by (intro B; apply PN, ln_inv; try assumption; lra). assert (Q : forall d, 0 < d -> exp (ln d * (ln (x / y) ^ 2 / ln (fst p / snd p) ^ 2) * scl_ell f l) = Rpower d e).
  { intros d Hd. unfold Rpower, e, apart. rewrite growth_eq, !ln_div by assumption. f_equal. field. exact LP. }
  unfold Decorrelation. rewrite (zerob_false y), (posb_true (x / y)), (zerob_false (snd p)), (posb_true (fst p / snd p)), (zerob_false (ln _)); try (now apply Rdiv_lt_0_compat); try lra; [| rewrite ln_div by assumption; exact LP]. cbn [negb orb]. split; [| split].
  - intros (A & B). destruct (Rlt_dec 1 D); [lra |]. rewrite (posb_true D A), Q by exact A. reflexivity.
  - intros (A & B). destruct (Rlt_dec 1 D); [| lra]. rewrite posb_true by lra. rewrite Q by lra. reflexivity.
  - unfold posb. intro H. destruct (Rlt_dec 1 D); [destruct (Rlt_dec 0 (2 - D)); [lra | reflexivity] | destruct (Rlt_dec 0 D); [lra | reflexivity]].
Qed.
Lemma Rpower_le1 D e : 0 < D <= 1 -> 0 <= e -> 0 < Rpower D e <= 1.
Proof.
  intros (A & B) E. split; [apply exp_pos |]. unfold Rpower. rewrite <- exp_0. assert (ln D <= 0). { destruct (Rle_lt_or_eq_dec _ _ B) as [L | ->]; [apply Rlt_le; rewrite <- ln_1; now apply ln_increasing | rewrite ln_1; lra]. }
  assert (Q : e * ln D <= 0) by nra. destruct (Rle_lt_or_eq_dec _ _ Q) as [L | ->]; [apply Rlt_le; now apply exp_increasing | apply Rle_refl].
Qed.
(** C140: what remains is between 0 and 1, does not depend on the order of the maps, is what was given for the pivots, and is not more for frequencies further apart. *)
Theorem C140_correlation D x y p l f : good_pivot p -> 0 < x -> 0 < y -> 0 < D <= 1 -> exists c, Decorrelation D x y p l f = Some c /\ 0 < c <= 1 /\ Decorrelation D y x p l f = Some c /\
  (x = y -> c = 1) /\ (x = fst p -> y = snd p -> f = flat \/ l = 80%nat -> c = D) /\ (forall z, x <= y <= z -> exists c', Decorrelation D x z p l f = Some c' /\ c' <= c).
Proof.
  intros P X Y DD. exists (Rpower D (apart x y p ^ 2 * growth f l)). pose proof P as (P1 & P2 & PN). assert (LP : ln (fst p) - ln (snd p) <> 0) by (intro B; apply PN, ln_inv; try assumption; lra). pose proof (growth_nonneg f l) as GN.
  split; [now apply C140_decorrelation |]. split; [apply Rpower_le1; [exact DD |]; apply Rmult_le_pos; [rewrite <- Rsqr_pow2; apply Rle_0_sqr | exact GN] |]. split; [| split; [| split]].
  - replace (apart x y p ^ 2) with (apart y x p ^ 2) by (unfold apart; field; exact LP). now apply C140_decorrelation.
  - intros ->. unfold apart. replace ((ln y - ln y) / (ln (fst p) - ln (snd p))) with 0 by (field; exact LP). unfold Rpower. rewrite pow_i, !Rmult_0_l, exp_0 by lia. reflexivity.
  - intros -> -> FL. unfold apart. replace ((ln (fst p) - ln (snd p)) / (ln (fst p) - ln (snd p))) with 1 by (field; exact LP). replace (growth f l) with 1. { rewrite pow1, Rmult_1_l. apply Rpower_1. lra. } destruct FL as [-> | ->]; [reflexivity |]. destruct f; cbn [growth]; try reflexivity; replace (INR 80) with 80 by (rewrite INR_IZR_INZ; reflexivity); field.
  - intros z (XY & YZ). exists (Rpower D (apart x z p ^ 2 * growth f l)). split; [apply C140_decorrelation; try assumption; lra |].
    assert (LL : forall a b, 0 < a -> a <= b -> ln a <= ln b) by (intros a b A B; destruct (Rle_lt_or_eq_dec _ _ B) as [L | ->]; [apply Rlt_le; now apply ln_increasing | apply Rle_refl]). pose proof (LL x y X XY). pose proof (LL y z Y YZ).
    assert (AP : apart x y p ^ 2 <= apart x z p ^ 2). { unfold apart, Rdiv. rewrite !Rpow_mult_distr. apply Rmult_le_compat_r; [rewrite <- Rsqr_pow2; apply Rle_0_sqr |]. nra. }
    replace (apart x z p ^ 2 * growth f l) with (apart x y p ^ 2 * growth f l + (apart x z p ^ 2 - apart x y p ^ 2) * growth f l) by ring. rewrite Rpower_plus. destruct (Rpower_le1 D ((apart x z p ^ 2 - apart x y p ^ 2) * growth f l) DD ltac:(apply Rmult_le_pos; lra)) as (A & B). assert (0 < Rpower D (apart x y p ^ 2 * growth f l)) by apply exp_pos. nra.
Qed.
(** C140: the error of the centre is found by the name of the map. *)
Theorem C140_center ps a c : let p k := nth (k - 1) ps 0 in bandcenter_err ps (a ++ L "95" ++ c) = p 13%nat + p 14%nat + 1 /\
  (contains (L "95") (a ++ L "150" ++ c) = false -> bandcenter_err ps (a ++ L "150" ++ c) = p 13%nat + p 15%nat + 1) /\
  (contains (L "95") (a ++ L "220" ++ c) = false -> contains (L "150") (a ++ L "220" ++ c) = false -> bandcenter_err ps (a ++ L "220" ++ c) = p 13%nat + p 16%nat + 1).
Proof.
  assert (K : forall s a c : str, contains s (a ++ s ++ c) = true). { clear. intros s a c. assert (S0 : startswith s (s ++ c) = true) by apply startswith_app. induction a as [| x a IH]; cbn [app]; [destruct (s ++ c); cbn [contains]; now rewrite S0 |]. cbn [contains]. rewrite IH. apply orb_true_r. }
  unfold bandcenter_err. cbv zeta. split; [now rewrite K |]. split; [intros ->; now rewrite K | intros -> ->; now rewrite K].
Qed.
Definition kind (s : spectrum) (t : nat) : Prop := theory_i s = t /\ theory_j s = t.
(** C140: foregrounds are added to spectra of E and of B modes and to nothing else. *)
Theorem C140_added m ps Cls i j l : (forall x, AddForegrounds m ps Cls i j l = Some x -> kind (Cls i j) 2 \/ kind (Cls i j) 3 -> exists di dj si sj cd cs,
    fdust m ps i = Some di /\ fdust m ps j = Some dj /\ fsync m ps i = Some si /\ fsync m ps j = Some sj /\
    deltap (nth 10 ps 0) m ps (pivot_dust m) (form_dust m) i j l = Some cd /\ deltap (nth 11 ps 0) m ps (pivot_sync m) (form_sync m) i j l = Some cs /\
    let u := INR l / 80 in let ed := if Nat.eqb (theory_i (Cls i j)) 2 then nth 8 ps 0 else 1 in let es := if Nat.eqb (theory_i (Cls i j)) 2 then nth 9 ps 0 else 1 in
    let Ad := nth 0 ps 0 in let As := nth 1 ps 0 in let ad := nth 2 ps 0 in let as_ := nth 5 ps 0 in let r := nth 7 ps 0 in
    0 <= Ad * As /\ 0 <= ed * es /\
    x = cl (Cls i j) l + Ad * ed * Rpower u ad * (di * dj) * cd + As * es * Rpower u as_ * (si * sj) * cs + r * sqrt (Ad * As) * sqrt (ed * es) * Rpower u ((ad + as_) / 2) * (di * sj + si * dj)) /\
  (~ kind (Cls i j) 2 -> ~ kind (Cls i j) 3 -> AddForegrounds m ps Cls i j l = Some (cl (Cls i j) l)).
Proof.
  split.
  - intros x H K. unfold AddForegrounds in H. cbv zeta in H. set (C := Cls i j) in *. set (ee := (theory_i C =? 2)%nat && (theory_j C =? 2)%nat) in *.
    assert (EE : ee = Nat.eqb (theory_i C) 2) by (unfold ee; destruct K as [(A & B) | (A & B)]; rewrite A, B; reflexivity). assert (T : ee || ((theory_i C =? 3)%nat && (theory_j C =? 3)%nat) = true) by (rewrite EE; destruct K as [(A & B) | (A & B)]; rewrite A, B; reflexivity). rewrite T in H. rewrite EE in H.
    destruct (fdust m ps i) as [di |]; [| discriminate H]. destruct (fdust m ps j) as [dj |]; [| discriminate H]. destruct (fsync m ps i) as [si |]; [| discriminate H]. destruct (fsync m ps j) as [sj |]; [| discriminate H].
    destruct (deltap (Delta_dust (fg_of ps)) m ps (pivot_dust m) (form_dust m) i j l) as [cd |] eqn:ED; [| discriminate H]. destruct (deltap (Delta_sync (fg_of ps)) m ps (pivot_sync m) (form_sync m) i j l) as [cs |] eqn:ES; [| discriminate H].
    exists di, dj, si, sj, cd, cs. do 4 (split; [reflexivity |]). split; [exact ED |]. split; [exact ES |]. cbn [fg_of Adust Async alphadust alphasync dustsync_corr EEtoBB_dust EEtoBB_sync] in H. unfold par in H. cbn [Nat.sub] in H. unfold ell_power, lpivot in H. cbv zeta.
    unfold nonneg in H. destruct (Rle_dec 0 (nth 0 ps 0 * nth 1 ps 0)) as [A |]; [| discriminate H]. cbn [negb orb] in H. destruct (Nat.eqb (theory_i C) 2); cbn [andb] in H.
    + destruct (Rle_dec 0 (nth 8 ps 0 * nth 9 ps 0)) as [B |]; [| discriminate H]. cbn [negb] in H. injection H as <-. split; [exact A |]. split; [exact B |]. ring.
    + injection H as <-. split; [exact A |]. split; [lra |]. rewrite Rmult_1_l, sqrt_1. ring.
  - intros N2 N3. unfold AddForegrounds. cbv zeta. unfold kind in *. destruct (Nat.eqb_spec (theory_i (Cls i j)) 2); destruct (Nat.eqb_spec (theory_j (Cls i j)) 2); destruct (Nat.eqb_spec (theory_i (Cls i j)) 3); destruct (Nat.eqb_spec (theory_j (Cls i j)) 3); cbn [andb orb]; try reflexivity; exfalso; first [apply N2; split; assumption | apply N3; split; assumption | lia].
Qed.
Lemma some_inj {A} (a b : A) : Some a = Some b -> a = b. Proof. congruence. Qed.
(** the correlation of two maps as a kernel *)
Lemma deltap_kernel D m ps p f l n : good_pivot p -> 0 < D <= 1 -> (forall i, (i < n)%nat -> 0 < nu_bar (band m (S i)) * err_of m ps (S i)) ->
  exists k, 0 <= k /\ (need_decorr D = false -> k = 0) /\ forall i j, (i < n)%nat -> (j < n)%nat -> deltap D m ps p f (S i) (S j) l = Some (exp (- (k * (ln (nu_bar (band m (S i)) * err_of m ps (S i)) - ln (nu_bar (band m (S j)) * err_of m ps (S j))) ^ 2))).
Proof.
  intros P DD POS. pose proof P as (P1 & P2 & PN). assert (LP : ln (fst p) - ln (snd p) <> 0) by (intro B; apply PN, ln_inv; try assumption; lra). unfold deltap. destruct (need_decorr D) eqn:ND.
  - exists (- ln D * growth f l / (ln (fst p) - ln (snd p)) ^ 2). split; [| split; [discriminate |]].
    + assert (ln D <= 0). { destruct (Rle_lt_or_eq_dec _ _ (proj2 DD)) as [L | ->]; [apply Rlt_le; rewrite <- ln_1; now apply ln_increasing | rewrite ln_1; lra]. } pose proof (growth_nonneg f l). apply Rmult_le_pos; [apply Rmult_le_pos; lra |]. apply Rlt_le, Rinv_0_lt_compat. rewrite <- Rsqr_pow2. now apply Rsqr_pos_lt.
    + intros i j I J. cbn [andb]. destruct (Nat.eqb_spec (S i) (S j)) as [E | E]; cbn [negb].
      * injection E as <-. rewrite (Rminus_diag_eq (ln (nu_bar (band m (S i)) * err_of m ps (S i))) _ eq_refl). f_equal. rewrite pow_i, Rmult_0_r, Ropp_0, exp_0 by lia. reflexivity.
      * destruct (C140_decorrelation D _ _ p l f P (POS i I) (POS j J)) as (Q & _). rewrite (Q DD). f_equal. unfold Rpower, apart. f_equal. field. exact LP.
  - exists 0. split; [lra |]. split; [reflexivity |]. intros i j _ _. cbn [andb]. f_equal. rewrite Rmult_0_l, Ropp_0, exp_0. reflexivity.
Qed.
Lemma quadratic_ext n F G v : (forall i j, (i < n)%nat -> (j < n)%nat -> F i j = G i j) -> quadratic n F v = quadratic n G v.
Proof. intro H. unfold quadratic. apply Sm_ext. intros i I. apply Sm_ext. intros j J. rewrite H by assumption. reflexivity. Qed.
Lemma quadratic_plus n F G v : quadratic n (fun i j => F i j + G i j) v = quadratic n F v + quadratic n G v.
Proof. unfold quadratic. rewrite <- Sm_plus. apply Sm_ext. intros i _. rewrite <- Sm_plus. apply Sm_ext. intros; ring. Qed.
Lemma quadratic_scaled n K d v c : quadratic n (fun i j => c * (d i * d j) * K i j) v = c * quadratic n K (fun i => v i * d i).
Proof. unfold quadratic. rewrite <- Sm_scal. apply Sm_ext. intros i _. rewrite <- Sm_scal. apply Sm_ext. intros; ring. Qed.
Lemma quadratic_one n u : quadratic n (fun _ _ => 1) u = Sm n u * Sm n u.
Proof. unfold quadratic. rewrite (Sm_ext n _ (fun i => Sm n u * u i)); [now rewrite Sm_scal |]. intros i _. rewrite (Sm_ext n _ (fun j => u i * u j)) by (intros; ring). rewrite Sm_scal. ring. Qed.
Lemma quadratic_cross n d s v c : quadratic n (fun i j => c * (d i * s j + s i * d j)) v = 2 * c * (Sm n (fun i => v i * d i) * Sm n (fun i => v i * s i)).
Proof.
  assert (P : forall a b : nat -> R, Sm n (fun i => Sm n (fun j => v i * v j * (c * (a i * b j)))) = c * (Sm n (fun i => v i * a i) * Sm n (fun i => v i * b i))).
  { intros a b. rewrite (Sm_ext n _ (fun i => (c * Sm n (fun i => v i * b i)) * (v i * a i))); [rewrite Sm_scal; ring |]. intros i _. rewrite (Sm_ext n _ (fun j => (c * v i * a i) * (v j * b j))) by (intros; ring). rewrite Sm_scal. ring. }
  unfold quadratic. rewrite (Sm_ext n _ (fun i => Sm n (fun j => v i * v j * (c * (d i * s j))) + Sm n (fun j => v i * v j * (c * (s i * d j))))) by (intros; rewrite <- Sm_plus; apply Sm_ext; intros; ring). rewrite Sm_plus, !P. ring.
Qed.
(** C140: the foregrounds of maps of one kind are a covariance: no combination of maps gets negative power from them, if either dust and synchrotron radiation are not correlated or neither has lost correlation. *)
Theorem C140_positive m ps Cls l n t F v : (t = 2 \/ t = 3)%nat -> (forall i j, (i < n)%nat -> (j < n)%nat -> kind (Cls (S i) (S j)) t) ->
  (forall i j, (i < n)%nat -> (j < n)%nat -> AddForegrounds m ps Cls (S i) (S j) l = Some (cl (Cls (S i) (S j)) l + F i j)) ->
  0 <= nth 0 ps 0 -> 0 <= nth 1 ps 0 -> 0 <= nth 8 ps 0 -> 0 <= nth 9 ps 0 -> -1 <= nth 7 ps 0 <= 1 -> 0 < nth 10 ps 0 <= 1 -> 0 < nth 11 ps 0 <= 1 -> good_pivot (pivot_dust m) -> good_pivot (pivot_sync m) -> (forall i, (i < n)%nat -> 0 < nu_bar (band m (S i)) * err_of m ps (S i)) ->
  (nth 7 ps 0 = 0 \/ (Rabs (nth 10 ps 0 - 1) <= 1 / 100000 /\ Rabs (nth 11 ps 0 - 1) <= 1 / 100000)) -> 0 <= quadratic n F v.
Proof.
  intros T K H A0 A1 A8 A9 A7 D1 D2 P1 P2 POS OR. set (Ad := nth 0 ps 0) in *. set (As := nth 1 ps 0) in *. set (r := nth 7 ps 0) in *.
  destruct (deltap_kernel (nth 10 ps 0) m ps (pivot_dust m) (form_dust m) l n P1 D1 POS) as (k1 & K1 & Z1 & Q1). destruct (deltap_kernel (nth 11 ps 0) m ps (pivot_sync m) (form_sync m) l n P2 D2 POS) as (k2 & K2 & Z2 & Q2). set (x i := ln (nu_bar (band m (S i)) * err_of m ps (S i))) in *.
  set (d i := match fdust m ps (S i) with Some y => y | None => 0 end). set (s i := match fsync m ps (S i) with Some y => y | None => 0 end). set (u := INR l / 80). set (ed := if Nat.eqb t 2 then nth 8 ps 0 else 1). set (es := if Nat.eqb t 2 then nth 9 ps 0 else 1).
  assert (E1 : 0 <= ed) by (unfold ed; destruct (Nat.eqb t 2); lra). assert (E2 : 0 <= es) by (unfold es; destruct (Nat.eqb t 2); lra).
  set (c1 := Ad * ed * Rpower u (nth 2 ps 0)). set (c2 := As * es * Rpower u (nth 5 ps 0)). set (c3 := r * sqrt (Ad * As) * sqrt (ed * es) * Rpower u ((nth 2 ps 0 + nth 5 ps 0) / 2)).
  assert (EF : forall i j, (i < n)%nat -> (j < n)%nat -> F i j = c1 * (d i * d j) * exp (- (k1 * (x i - x j) ^ 2)) + c2 * (s i * s j) * exp (- (k2 * (x i - x j) ^ 2)) + c3 * (d i * s j + s i * d j)).
  { intros i j I J. destruct (C140_added m ps Cls (S i) (S j) l) as (AD & _). assert (KK : kind (Cls (S i) (S j)) 2 \/ kind (Cls (S i) (S j)) 3) by (destruct T as [<- | <-]; [left | right]; now apply K). destruct (AD _ (H i j I J) KK) as (di & dj & si & sj & cd & cs & e1 & e2 & e3 & e4 & e5 & e6 & e7). cbv zeta in e7. destruct e7 as (_ & _ & e7).
    rewrite (Q1 i j I J) in e5. apply some_inj in e5. subst cd. rewrite (Q2 i j I J) in e6. apply some_inj in e6. subst cs. unfold d, s. rewrite e1, e2, e3, e4. rewrite (proj1 (K i j I J)) in e7. fold ed es u Ad As r in e7. unfold c1, c2, c3. rewrite !Rplus_assoc in e7. apply Rplus_eq_reg_l in e7. rewrite e7. unfold x. ring. }
  rewrite (quadratic_ext n F _ v EF). rewrite (quadratic_plus n (fun i j => c1 * (d i * d j) * exp (- (k1 * (x i - x j) ^ 2)) + c2 * (s i * s j) * exp (- (k2 * (x i - x j) ^ 2)))), (quadratic_plus n (fun i j => c1 * (d i * d j) * exp (- (k1 * (x i - x j) ^ 2)))).
  assert (RP : forall e, 0 < Rpower u e) by (intro; apply exp_pos). assert (C1 : 0 <= c1) by (unfold c1; apply Rmult_le_pos; [now apply Rmult_le_pos | apply Rlt_le, RP]). assert (C2 : 0 <= c2) by (unfold c2; apply Rmult_le_pos; [now apply Rmult_le_pos | apply Rlt_le, RP]).
  rewrite (quadratic_scaled n (fun i j => exp (- (k1 * (x i - x j) ^ 2))) d), (quadratic_scaled n (fun i j => exp (- (k2 * (x i - x j) ^ 2))) s), quadratic_cross. destruct OR as [R0 | (N1 & N2)].
  - replace c3 with 0 by (unfold c3; rewrite R0; ring). pose proof (Rmult_le_pos _ _ C1 (gauss_kernel n (fun i => v i * d i) x k1 K1)). pose proof (Rmult_le_pos _ _ C2 (gauss_kernel n (fun i => v i * s i) x k2 K2)). lra.
  - assert (ZZ : forall D, Rabs (D - 1) <= 1 / 100000 -> need_decorr D = false) by (intros D HD; unfold need_decorr; destruct (Rlt_dec _ _); [lra | reflexivity]). specialize (Z1 (ZZ _ N1)). specialize (Z2 (ZZ _ N2)).
    assert (ONE : forall k u0, k = 0 -> quadratic n (fun i j => exp (- (k * (x i - x j) ^ 2))) u0 = Sm n u0 * Sm n u0). { intros k u0 ->. rewrite <- quadratic_one. apply quadratic_ext. intros. rewrite Rmult_0_l, Ropp_0, exp_0. reflexivity. }
    rewrite !ONE by assumption. set (X := Sm n (fun i => v i * d i)). set (Y := Sm n (fun i => v i * s i)).
    set (a := sqrt Ad * sqrt ed * Rpower u (nth 2 ps 0 / 2)). set (b := sqrt As * sqrt es * Rpower u (nth 5 ps 0 / 2)).
    assert (HALF : forall e, Rpower u e = Rpower u (e / 2) * Rpower u (e / 2)) by (intro e; rewrite <- Rpower_plus; f_equal; lra).
    assert (EC1 : c1 = a * a). { unfold c1, a. rewrite (HALF (nth 2 ps 0)). rewrite <- (sqrt_sqrt Ad A0) at 1. rewrite <- (sqrt_sqrt ed E1) at 1. ring. }
    assert (EC2 : c2 = b * b). { unfold c2, b. rewrite (HALF (nth 5 ps 0)). rewrite <- (sqrt_sqrt As A1) at 1. rewrite <- (sqrt_sqrt es E2) at 1. ring. }
    assert (EC3 : c3 = r * (a * b)). { unfold c3, a, b. rewrite !sqrt_mult by assumption. replace ((nth 2 ps 0 + nth 5 ps 0) / 2) with (nth 2 ps 0 / 2 + nth 5 ps 0 / 2) by lra. rewrite Rpower_plus. ring. }
    rewrite EC1, EC2, EC3. replace (a * a * (X * X) + b * b * (Y * Y) + 2 * (r * (a * b)) * (X * Y)) with ((a * X + r * (b * Y)) * (a * X + r * (b * Y)) + (1 - r * r) * ((b * Y) * (b * Y))) by ring.
    pose proof (Rle_0_sqr (a * X + r * (b * Y))) as S1. pose proof (Rle_0_sqr (b * Y)) as S2. unfold Rsqr in S1, S2. assert (0 <= 1 - r * r) by nra. pose proof (Rmult_le_pos _ _ H0 S2). lra.
Qed.
Definition rs1 : list (R * R) := [(100, 1); (200, 0)].
Definition rs2 : list (R * R) := [(100, 0); (200, 1)].
Lemma rs_good : good_band rs1 /\ good_band rs2 /\ single rs1 0 /\ single rs2 1.
Proof.
  split; [| split; [| split]].
  - split; [cbn; lia |]. split; [intros [| [| i]] I; cbn in *; [lra | lra | lia] |]. split; [intros [| i] I; cbn in *; [lra | lia] |]. exists 0%nat. cbn. split; [lia | lra].
  - split; [cbn; lia |]. split; [intros [| [| i]] I; cbn in *; [lra | lra | lia] |]. split; [intros [| i] I; cbn in *; [lra | lia] |]. exists 1%nat. cbn. split; [lia | lra].
  - split; [cbn; lia |]. intros [| [| i]] I N; cbn in *; [lia | reflexivity | lia].
  - split; [cbn; lia |]. intros [| [| i]] I N; cbn in *; [reflexivity | lia | lia].
Qed.
Lemma greybody_pos beta Td x : 0 < Td -> 0 < x -> 0 < greybody beta Td x.
Proof.
  intros T X. unfold greybody, brightness. apply Rmult_lt_0_compat; [apply exp_pos |]. apply Rdiv_lt_0_compat; [now apply pow_lt |]. assert (1 < exp (Ghz_Kelvin * x / Td)) by (apply exp_gt1; apply Rdiv_lt_0_compat; [apply Rmult_lt_0_compat; [apply GK_pos | exact X] | exact T]). lra.
Qed.
Definition all_B (i j : nat) : spectrum := mkSpec 3 3 (fun _ => 0).
(** C140 refuted: if dust and synchrotron radiation are correlated, but dust has lost correlation between frequencies, combinations of maps may have negative power. *)
Theorem C140_positive_refuted : exists m ps F v, (forall i j, (i < 2)%nat -> (j < 2)%nat -> AddForegrounds m ps all_B (S i) (S j) 80 = Some (0 + F i j)) /\ 0 <= nth 0 ps 0 /\ 0 <= nth 1 ps 0 /\ nth 7 ps 0 = -1 /\ nth 10 ps 0 = 1 / 2 /\ nth 11 ps 0 = 1 /\ good_pivot (pivot_dust m) /\ good_pivot (pivot_sync m) /\ quadratic 2 F v < 0.
Proof.
  destruct rs_good as (G1 & G2 & S1 & S2). set (dB := fun x => Ghz_Kelvin / T_CMB ^ 2 * thermo x). assert (C : is_change dB) by (intros x X; now apply thermo_change).
  destruct (read_ok 353 23 rs1 G1 ltac:(lra) ltac:(lra)) as (b1 & R1 & _). destruct (read_ok 353 23 rs2 G2 ltac:(lra) ltac:(lra)) as (b2 & R2 & _).
  destruct (C140_single dB 353 23 rs1 0 b1 2 20 1 G1 S1 ltac:(lra) ltac:(lra) R1 ltac:(lra) C ltac:(lra)) as (N1 & D1 & _). destruct (C140_single dB 353 23 rs2 1 b2 2 20 1 G2 S2 ltac:(lra) ltac:(lra) R2 ltac:(lra) C ltac:(lra)) as (N2 & D2 & _).
  destruct (C140_single dB 353 23 rs1 0 b1 (-3) 20 1 G1 S1 ltac:(lra) ltac:(lra) R1 ltac:(lra) C ltac:(lra)) as (_ & _ & Y1). destruct (C140_single dB 353 23 rs2 1 b2 (-3) 20 1 G2 S2 ltac:(lra) ltac:(lra) R2 ltac:(lra) C ltac:(lra)) as (_ & _ & Y2).
  cbv zeta in *. change (nu rs1 0) with 100 in *. change (nu rs2 1) with 200 in *. assert (PB : forall x, 0 < x -> 0 < dB x) by (intros x X; apply Rmult_lt_0_compat; [apply const_pos | now apply thermo_pos]). assert (PP : forall x, 0 < x -> 0 < powerlaw (-3) x) by (intros x X; apply Rmult_lt_0_compat; [now apply pow_lt | apply exp_pos]).
  assert (Q : forall g x y : R, 0 < x -> 0 < y -> 0 < g -> forall h, 0 < h -> 0 < g / h / (dB x / dB y)) by (intros g x y X Y Gg h Hh; apply Rdiv_lt_0_compat; apply Rdiv_lt_0_compat; try assumption; now apply PB).
  match type of D1 with _ = Some ?e => set (d1 := e) in * end. match type of D2 with _ = Some ?e => set (d2 := e) in * end. match type of Y1 with _ = Some ?e => set (s1 := e) in * end. match type of Y2 with _ = Some ?e => set (s2 := e) in * end.
  assert (d1p : 0 < d1) by (apply Q; try lra; apply greybody_pos; lra). assert (d2p : 0 < d2) by (apply Q; try lra; apply greybody_pos; lra). assert (s1p : 0 < s1) by (apply Q; try lra; apply PP; lra). assert (s2p : 0 < s2) by (apply Q; try lra; apply PP; lra). clearbody d1 d2 s1 s2.
  set (As := (d1 / s1) ^ 2). set (ps := [1; As; 0; 2; 20; 0; -3; -1; 1; 1; 1 / 2; 1; 0; 0; 0; 0]). set (m := mkMaps [[]; []] [b1; b2] 353 23 (217, 353) (23, 33) flat flat).
  assert (rp : 0 < d1 / s1) by (now apply Rdiv_lt_0_compat). assert (QA : sqrt (1 * As) = d1 / s1) by (rewrite Rmult_1_l; unfold As; rewrite <- Rsqr_pow2; apply sqrt_Rsqr; lra). assert (PAs : 0 <= As) by (unfold As; rewrite <- Rsqr_pow2; apply Rle_0_sqr).
  assert (GPd : good_pivot (217, 353)) by (repeat split; cbn; lra). assert (GPs : good_pivot (23, 33)) by (repeat split; cbn; lra).
  destruct (C140_correlation (1 / 2) 100 200 (217, 353) 80 flat GPd ltac:(lra) ltac:(lra) ltac:(lra)) as (c & CD & (CP & _) & CD' & _).
  assert (CL1 : c < 1). { destruct (C140_decorrelation (1 / 2) 100 200 (217, 353) 80 flat GPd ltac:(lra) ltac:(lra)) as (E & _). rewrite (E ltac:(lra)) in CD. apply some_inj in CD. rewrite <- CD. unfold Rpower. apply Rlt_le_trans with (exp 0); [apply exp_increasing | rewrite exp_0; lra]. unfold growth, apart. cbn [fst snd]. assert (ln (1 / 2) < 0) by (rewrite <- ln_1; apply ln_increasing; lra).
    assert (A1 : ln 100 - ln 200 <> 0) by (assert (ln 100 < ln 200) by (apply ln_increasing; lra); lra). assert (A2 : ln 217 - ln 353 <> 0) by (assert (ln 217 < ln 353) by (apply ln_increasing; lra); lra). assert (0 < ((ln 100 - ln 200) / (ln 217 - ln 353)) ^ 2) by (rewrite <- Rsqr_pow2; apply Rsqr_pos_lt; unfold Rdiv; apply Rmult_integral_contrapositive_currified; [exact A1 | now apply Rinv_neq_0_compat]). set (z := ((ln 100 - ln 200) / (ln 217 - ln 353)) ^ 2) in *. clearbody z. nra. }
  assert (ER : forall i, err_of m ps i = 1). { intro i. unfold err_of, m. cbn [m_names]. transitivity (bandcenter_err ps []); [f_equal; destruct (i - 1)%nat as [| [| [|]]]; reflexivity |]. unfold bandcenter_err. reflexivity. }
  assert (F1 : fdust m ps 1 = Some d1) by (unfold fdust; rewrite ER; exact D1). assert (F2 : fdust m ps 2 = Some d2) by (unfold fdust; rewrite ER; exact D2). assert (F3 : fsync m ps 1 = Some s1) by (unfold fsync; rewrite ER; exact Y1). assert (F4 : fsync m ps 2 = Some s2) by (unfold fsync; rewrite ER; exact Y2).
  assert (ND : need_decorr (1 / 2) = true) by (unfold need_decorr; destruct (Rlt_dec _ _) as [| B]; [reflexivity |]; exfalso; apply B; rewrite Rabs_left by lra; lra). assert (NS : need_decorr 1 = false) by (unfold need_decorr; destruct (Rlt_dec _ _) as [B |]; [| reflexivity]; exfalso; rewrite Rminus_diag_eq, Rabs_R0 in B by reflexivity; lra).
  set (df := fun i : nat => match i with 0%nat => d1 | _ => d2 end). set (sf := fun i : nat => match i with 0%nat => s1 | _ => s2 end). set (kf := fun i j : nat => if Nat.eqb i j then 1 else c).
  set (F := fun i j => df i * df j * kf i j + As * (sf i * sf j) - d1 / s1 * (df i * sf j + sf i * df j)).
  assert (AF : forall i j, (i < 2)%nat -> (j < 2)%nat -> AddForegrounds m ps all_B (S i) (S j) 80 = Some (0 + F i j)).
  { intros i j I J. assert (FD : forall k, (k < 2)%nat -> fdust m ps (S k) = Some (df k)) by (intros [| [| k]] Hk; [exact F1 | exact F2 | lia]). assert (FS : forall k, (k < 2)%nat -> fsync m ps (S k) = Some (sf k)) by (intros [| [| k]] Hk; [exact F3 | exact F4 | lia]).
    assert (DD : deltap (1 / 2) m ps (217, 353) flat (S i) (S j) 80 = Some (kf i j)). { unfold deltap, kf. rewrite ND, !ER, !Rmult_1_r. cbn [andb Nat.eqb]. destruct i as [| [| i]]; destruct j as [| [| j]]; try lia; cbn [Nat.eqb negb]; try reflexivity; unfold band, m; cbn [m_bands Nat.sub nth]; rewrite N1, N2; assumption. }
    assert (DS : deltap 1 m ps (23, 33) flat (S i) (S j) 80 = Some 1) by (unfold deltap; rewrite NS; reflexivity).
    unfold AddForegrounds. cbn [all_B theory_i theory_j Nat.eqb andb orb cl]. rewrite !FD, !FS by assumption. change (Delta_dust (fg_of ps)) with (1 / 2). change (Delta_sync (fg_of ps)) with 1. change (pivot_dust m) with (217, 353). change (pivot_sync m) with (23, 33). change (form_dust m) with flat. change (form_sync m) with flat. rewrite DD, DS.
    cbn [fg_of Adust Async alphadust alphasync dustsync_corr]. unfold par, ps. cbn [Nat.sub nth]. fold ps. rewrite nonneg_true by lra. cbn [negb orb andb]. f_equal. rewrite QA. unfold ell_power, lpivot. replace (INR 80 / 80) with 1 by (replace (INR 80) with 80 by (rewrite INR_IZR_INZ; reflexivity); field). unfold Rpower. rewrite ln_1, !Rmult_0_r, exp_0. unfold F. ring. }
  assert (F00 : F 0%nat 0%nat = 0) by (unfold F, As, df, sf, kf; cbn [Nat.eqb]; field; lra). assert (F01 : F 0%nat 1%nat = d1 * d2 * (c - 1)) by (unfold F, As, df, sf, kf; cbn [Nat.eqb]; field; lra). assert (F10 : F 1%nat 0%nat = d1 * d2 * (c - 1)) by (unfold F, As, df, sf, kf; cbn [Nat.eqb]; field; lra).
  set (w := d1 * d2 * (1 - c)). assert (W : 0 < w) by (unfold w; apply Rmult_lt_0_compat; [now apply Rmult_lt_0_compat | lra]). set (q := F 1%nat 1%nat) in *. set (v := fun i : nat => match i with 0%nat => (q + 1) / (2 * w) | _ => 1 end).
  exists m, ps, F, v. split; [exact AF |]. split; [cbn; lra |]. split; [exact PAs |]. split; [reflexivity |]. split; [reflexivity |]. split; [reflexivity |]. split; [exact GPd |]. split; [exact GPs |].
  unfold quadratic. rewrite !Sm_S, !Sm_0. rewrite F00, F01, F10. fold q. cbn [v]. replace (d1 * d2 * (c - 1)) with (- w) by (unfold w; ring). replace (0 + (0 + (q + 1) / (2 * w) * ((q + 1) / (2 * w)) * 0 + (q + 1) / (2 * w) * 1 * - w) + (0 + 1 * ((q + 1) / (2 * w)) * - w + 1 * 1 * q)) with (-1) by (field; lra). lra.
Qed.
Example C140_band_ex : exists b, ReadBandpass 353 23 rs1 = Some b /\ nu_bar b = 100 /\ DustScaling 2 20 b 353 (353 / 100) = Some 1 /\ SyncScaling (-3) b 23 (23 / 100) = Some 1 /\ is_change (fun x => Ghz_Kelvin / T_CMB ^ 2 * thermo x).
Proof.
  destruct rs_good as (G1 & _ & S1 & _). destruct (read_ok 353 23 rs1 G1 ltac:(lra) ltac:(lra)) as (b & E & _). exists b. split; [exact E |]. assert (C : is_change (fun x => Ghz_Kelvin / T_CMB ^ 2 * thermo x)) by (intros x X; now apply thermo_change).
  split; [exact (proj1 (C140_single _ 353 23 rs1 0 b 2 20 1 G1 S1 ltac:(lra) ltac:(lra) E ltac:(lra) C ltac:(lra))) |]. split; [| split; [| exact C]].
  - apply (C140_pivot 353 23 rs1 0 b 2 20 (353 / 100) G1 S1 ltac:(lra) ltac:(lra) E ltac:(lra) ltac:(lra)). change (nu rs1 0) with 100. lra.
  - apply (C140_pivot 353 23 rs1 0 b (-3) 20 (23 / 100) G1 S1 ltac:(lra) ltac:(lra) E ltac:(lra) ltac:(lra)). change (nu rs1 0) with 100. lra.
Qed.
Example C140_decorrelation_ex : good_pivot (217, 353) /\ Decorrelation (1 / 2) 217 353 (217, 353) 10 flat = Some (1 / 2) /\ Decorrelation 2 217 353 (217, 353) 10 flat = None.
Proof.
  assert (G : good_pivot (217, 353)) by (repeat split; cbn; lra). split; [exact G |]. split.
  - destruct (C140_correlation (1 / 2) 217 353 (217, 353) 10 flat G ltac:(lra) ltac:(lra) ltac:(lra)) as (c & E & _ & _ & _ & P & _). rewrite E. f_equal. apply P; [reflexivity | reflexivity | now left].
  - apply C140_decorrelation; [exact G | lra | lra | right; lra].
Qed.
(** a flat band from 100 to 200 seems twice as wide *)
Example C140_ends_ex : trapezoid [(100, 1); (200, 1)] (fun _ => 1) = 100 /\ ends [(100, 1); (200, 1)] (fun _ => 1) = 100.
Proof. unfold trapezoid, ends. cbn [length Nat.sub]. rewrite Sm_S, Sm_0. unfold nu, resp. cbn [nth fst snd]. split; lra. Qed.
Example C140_center_ex : bandcenter_err [0; 0; 0; 0; 0; 0; 0; 0; 0; 0; 0; 0; 1 / 100; 2 / 100; 3 / 100; 4 / 100] (L "BK15_150_B") = 1 / 100 + 3 / 100 + 1 /\ bandcenter_err [] (L "P353_B") = 1.
Proof. split; [exact (proj1 (proj2 (C140_center [0; 0; 0; 0; 0; 0; 0; 0; 0; 0; 0; 0; 1 / 100; 2 / 100; 3 / 100; 4 / 100] (L "BK15_") (L "_B"))) eq_refl) | reflexivity]. Qed.
(** one map of one frequency *)
Example C140_positive_ex : exists m ps F, (forall i j, (i < 1)%nat -> (j < 1)%nat -> kind (all_B (S i) (S j)) 3 /\ AddForegrounds m ps all_B (S i) (S j) 80 = Some (cl (all_B (S i) (S j)) 80 + F i j)) /\ nth 0 ps 0 = 1 /\ nth 1 ps 0 = 2 /\ nth 7 ps 0 = 1 / 5 /\ nth 10 ps 0 = 1 /\ good_pivot (pivot_dust m) /\ (forall i, (i < 1)%nat -> 0 < nu_bar (band m (S i)) * err_of m ps (S i)).
Proof.
  destruct rs_good as (G1 & _ & S1 & _). destruct (read_ok 353 23 rs1 G1 ltac:(lra) ltac:(lra)) as (b1 & R1 & _). assert (C : is_change (fun x => Ghz_Kelvin / T_CMB ^ 2 * thermo x)) by (intros x X; now apply thermo_change).
  destruct (C140_single _ 353 23 rs1 0 b1 2 20 1 G1 S1 ltac:(lra) ltac:(lra) R1 ltac:(lra) C ltac:(lra)) as (N1 & D1 & _). destruct (C140_single _ 353 23 rs1 0 b1 (-3) 20 1 G1 S1 ltac:(lra) ltac:(lra) R1 ltac:(lra) C ltac:(lra)) as (_ & _ & Y1). cbv zeta in *. change (nu rs1 0) with 100 in *.
  match type of D1 with _ = Some ?e => set (d := e) in * end. match type of Y1 with _ = Some ?e => set (s := e) in * end. clearbody d s. set (ps := [1; 2; 0; 2; 20; 0; -3; 1 / 5; 1; 1; 1; 1]). set (m := mkMaps [[]] [b1] 353 23 (217, 353) (23, 33) flat flat).
  assert (ER1 : err_of m ps 1 = 1) by reflexivity.
  assert (AF : exists y, AddForegrounds m ps all_B 1 1 80 = Some y).
  { unfold AddForegrounds. cbn [all_B theory_i theory_j Nat.eqb andb orb cl]. unfold fdust, fsync. rewrite ER1. change (DustScaling _ _ (band m 1) _ 1) with (DustScaling 2 20 b1 353 1). change (SyncScaling _ (band m 1) _ 1) with (SyncScaling (-3) b1 23 1). rewrite D1, Y1. unfold deltap. cbn [Nat.eqb negb]. rewrite !andb_false_r. rewrite nonneg_true by (cbn; lra). cbn [negb orb]. eexists. reflexivity. }
  destruct AF as (y & AF). exists m, ps, (fun _ _ => y). split.
  - intros i j I J. assert (i = 0%nat) by lia. assert (j = 0%nat) by lia. subst. split; [split; reflexivity |]. rewrite AF. cbn [all_B cl]. f_equal. ring.
  - do 4 (split; [reflexivity |]). split; [repeat split; cbn; lra |]. intros i I. assert (i = 0%nat) by lia. subst. rewrite ER1. unfold band, m. cbn [m_bands Nat.sub nth]. rewrite N1. lra.
Qed.
Print Assumptions C140_band.
Print Assumptions C140_scaling.
Print Assumptions C140_single.
Print Assumptions C140_pivot.
Print Assumptions C140_units.
Print Assumptions C140_decorrelation.
Print Assumptions C140_correlation.
Print Assumptions C140_center.
Print Assumptions C140_added.
Print Assumptions C140_positive.
Print Assumptions C140_ends_refuted.
Print Assumptions C140_positive_refuted.
