(** Likelihoods of galaxy power spectra *)
From Coq Require Import Reals Lra Lia ZArith Bool List.
From Verif Require Import McmcModel BaoModel BaoSpec BaoProofs SnModel SnProofs MpkModel MpkSpec MpkProofs.
Import ListNotations.
Local Open Scope R_scope.

(** ** C128: MPK *)
(** without Q the value is the likelihood with the amplitude marginalized *)
Theorem C128_amplitude : forall g ks lin v, errors_ok g -> symmetric (pts g) (metric g) -> MPK_like NoQ g ks lin = Ok v ->
  marginal1 (fun b => chi2 g (fun i => b * windowed g lin i)) v.
Proof.
  intros g ks lin v E S H. cbn [MPK_like] in H. rewrite chisq1_eq in H by exact E. destruct (Rlt_dec 0 (N2 g lin lin)) as [P |]; [| discriminate]. injection H as <-.
  eapply marginal1_ext; [| apply (parabola_marginal (A2 g) (B2 g lin) _ P)]. intro b. symmetry. now apply chi2_one.
Qed.
(** and there is a value if the spectrum is seen in some band *)
Theorem C128_value : forall g ks lin, errors_ok g -> positive (pts g) (metric g) -> (exists i, (1 <= i <= pts g)%nat /\ windowed g lin i <> 0) -> exists v, MPK_like NoQ g ks lin = Ok v.
Proof.
  intros g ks lin E P N. cbn [MPK_like]. rewrite chisq1_eq by exact E. destruct (Rlt_dec 0 (N2 g lin lin)) as [Q | Q]; [eexists; reflexivity |].
  exfalso. apply Q. unfold N2. rewrite bf_form. now apply P.
Qed.
(** a larger spectrum changes the value by the logarithm of the factor only *)
Theorem C128_factor : forall g ks lin c v, errors_ok g -> 0 < c -> MPK_like NoQ g ks lin = Ok v -> MPK_like NoQ g ks (fun j => c * lin j) = Ok (v + ln c).
Proof.
  intros g ks lin c v E C H. cbn [MPK_like] in *. rewrite chisq1_eq in * by exact E. destruct (Rlt_dec 0 (N2 g lin lin)) as [P |]; [| discriminate]. injection H as <-.
  assert (EB : B2 g (fun j => c * lin j) = c * B2 g lin).
  { unfold B2. rewrite (bf_ext _ _ (metric g) _ (fun i => c * windowed g lin i + 0 * windowed g lin i) _ (Pd g)) by (intros; try reflexivity; rewrite windowed_scale; ring). rewrite bf_lin_l. ring. }
  assert (EN : N2 g (fun j => c * lin j) (fun j => c * lin j) = (c * c) * N2 g lin lin).
  { unfold N2. rewrite (bf_ext _ _ (metric g) _ (fun i => c * windowed g lin i + 0 * windowed g lin i) _ (fun i => c * windowed g lin i + 0 * windowed g lin i)) by (intros; try reflexivity; rewrite windowed_scale; ring).
    rewrite bf_lin_l, bf_lin_r. ring. }
  assert (PC : 0 < c * c) by (now apply Rmult_lt_0_compat). rewrite EB, EN.
  destruct (Rlt_dec 0 (c * c * N2 g lin lin)) as [| Q]; [| exfalso; apply Q; now apply Rmult_lt_0_compat]. cbn [bind half]. unfold half. f_equal.
  rewrite ln_mult, ln_mult by assumption. field. split; lra.
Qed.
(** independent errors are a covariance matrix without off-diagonal elements *)
Theorem C128_errors : forall g p ks lin, icov g = None -> errors_ok g ->
  MPK_like p g ks lin = MPK_like p (mkReg (pts g) (bands g) (Pd g) (Wm g) (Some (fun i j => if Nat.eqb i j then / sdev g i ^ 2 else 0)) (sdev g)) ks lin.
Proof.
  intros g p ks lin I E. set (g' := mkReg _ _ _ _ _ _). assert (EM : metric g' = metric g) by (unfold metric, g'; cbn; now rewrite I).
  assert (EC : forall T, chisq1 g T = chisq1 g' T).
  { intro T. rewrite !chisq1_eq; [| intro Q; discriminate | exact E]. unfold N2, A2, B2. rewrite EM. reflexivity. }
  assert (EF : forall T U, flat2 g T U = flat2 g' T U).
  { intros T U. unfold flat2. rewrite (errors_ok_sdev g E I), andb_false_r. cbn [has negb andb icov g'].
    rewrite (dot_comm _ (weigh g (wth g T)) (wth g T)), (dot_comm _ (weigh g (wth g T)) (wth g U)), (dot_comm _ (weigh g (wth g U)) (wth g U)), (dot_comm _ (weigh g (Pd g)) (wth g T)), (dot_comm _ (weigh g (Pd g)) (wth g U)), !dot_weigh.
    rewrite (dot_comm _ (weigh g' (wth g' T)) (wth g' T)), (dot_comm _ (weigh g' (wth g' T)) (wth g' U)), (dot_comm _ (weigh g' (wth g' U)) (wth g' U)), (dot_comm _ (weigh g' (Pd g')) (wth g' T)), (dot_comm _ (weigh g' (Pd g')) (wth g' U)), !dot_weigh.
    rewrite EM. reflexivity. }
  destruct p as [| Ag | Ag mid sigma]; cbn [MPK_like].
  - now rewrite EC.
  - change (bands g') with (bands g). destruct (bad_A Ag (bands g) ks); [reflexivity | apply EF].
  - change (bands g') with (bands g). destruct (bad_A Ag (bands g) ks); [reflexivity |]. destruct (Req_EM_T sigma 0); [now rewrite EC |].
    assert (EO : forall l, mapO (fun i => chisq1 g (with_Q Ag (mid + IZR i * sigma * dQ) ks lin)) l = mapO (fun i => chisq1 g' (with_Q Ag (mid + IZR i * sigma * dQ) ks lin)) l)
      by (induction l as [| x l IH]; [reflexivity |]; cbn [mapO]; rewrite EC, IH; reflexivity).
    now rewrite EO.
Qed.
(** flat prior on the amplitude and its product with Q *)
Theorem C128_flat : forall g Ag ks lin v, symmetric (pts g) (metric g) -> MPK_like (QFlat Ag) g ks lin = Ok v ->
  marginal2 (fun x y => chi2 g (windowed g (fun j => lin j * (x + y * ks j ^ 2) / (1 + Ag * ks j)))) v.
Proof.
  intros g Ag ks lin v S H. cbn [MPK_like] in H. destruct (bad_A Ag (bands g) ks) eqn:B; [discriminate |]. unfold flat2 in H.
  destruct (negb (has (icov g)) && no_sdev g); [discriminate |]. set (T := fun i => lin i / (1 + Ag * ks i)) in *. set (U := fun i => T i * ks i ^ 2) in *.
  rewrite (dot_comm _ (weigh g (wth g T)) (wth g T)), (dot_comm _ (weigh g (wth g T)) (wth g U)), (dot_comm _ (weigh g (wth g U)) (wth g U)), (dot_comm _ (weigh g (Pd g)) (wth g T)), (dot_comm _ (weigh g (Pd g)) (wth g U)), !dot_weigh in H.
  rewrite !bf_wth_l, !bf_wth_r in H. apply flat_like_ok in H. destruct H as (m & a & b & d & x0 & y0 & P & D & F & V).
  exists m, a, b, d, x0, y0. repeat split; [exact P | exact D | | exact V]. intros x y. rewrite <- F.
  transitivity (chi2 g (fun i => x * windowed g T i + y * windowed g U i)).
  - unfold chi2. apply form_ext; [reflexivity |]. intros i I. f_equal. rewrite <- windowed_lin. apply windowed_ext. intros j J. unfold U, T. unfold Rdiv. ring.
  - rewrite chi2_lin by exact S. unfold A2, B2, N2. rewrite (bf_sym _ _ (windowed g U) (windowed g T) S). reflexivity.
Qed.
(** the run stops if the two contributions cannot be told apart *)
Theorem C128_flat_degenerate : forall g Ag ks lin c, errors_ok g -> symmetric (pts g) (metric g) -> (forall j, (1 <= j <= bands g)%nat -> 1 + Ag * ks j <> 0) ->
  (forall j, (1 <= j <= bands g)%nat -> ks j ^ 2 = c) -> MPK_like (QFlat Ag) g ks lin = Stop.
Proof.
  intros g Ag ks lin c E S B K. cbn [MPK_like]. rewrite (proj2 (bad_A_false Ag (bands g) ks) B). unfold flat2.
  assert (EG : negb (has (icov g)) && no_sdev g = false).
  { destruct (icov g) eqn:I; [reflexivity |]. rewrite (errors_ok_sdev g E I). apply andb_false_r. }
  rewrite EG. set (T := fun i => lin i / (1 + Ag * ks i)). set (U := fun i => T i * ks i ^ 2).
  rewrite (dot_comm _ (weigh g (wth g T)) (wth g T)), (dot_comm _ (weigh g (wth g T)) (wth g U)), (dot_comm _ (weigh g (wth g U)) (wth g U)), !dot_weigh, !bf_wth_l, !bf_wth_r.
  assert (EU : forall i, windowed g U i = c * windowed g T i + 0 * windowed g T i).
  { intro i. rewrite <- windowed_lin. apply windowed_ext. intros j J. unfold U. rewrite (K j J). ring. }
  rewrite (bf_ext _ (metric g) (metric g) (windowed g U) (fun i => c * windowed g T i + 0 * windowed g T i) (windowed g T) (windowed g T)) by (intros; try reflexivity; apply EU).
  rewrite (bf_ext _ (metric g) (metric g) (windowed g U) (fun i => c * windowed g T i + 0 * windowed g T i) (windowed g U) (fun i => c * windowed g T i + 0 * windowed g T i)) by (intros; try reflexivity; apply EU).
  rewrite !bf_lin_l, !bf_lin_r. set (N := bf (pts g) (metric g) (windowed g T) (windowed g T)). unfold flat_like.
  destruct (Rlt_dec (Rabs N) tiny); [reflexivity |]. match goal with |- context [Rlt_dec (Rabs ?x) tiny] => destruct (Rlt_dec (Rabs x) tiny); [reflexivity |] end.
  destruct (Rlt_dec 0 N); [| reflexivity]. match goal with |- context [Rlt_dec 0 ?x] => destruct (Rlt_dec 0 x) as [Q |]; [exfalso; ring_simplify in Q; lra | reflexivity] end.
Qed.
(** a normal prior on Q: minus the logarithm of the weighted mean of the likelihoods at 13 values of Q, each with the amplitude marginalized *)
Theorem C128_normal : forall g Ag mid sigma ks lin v, errors_ok g -> symmetric (pts g) (metric g) -> sigma <> 0 -> MPK_like (QGauss Ag mid sigma) g ks lin = Ok v ->
  exists l, (forall k, (1 <= k <= 13)%nat -> marginal1 (fun b => chi2 g (fun i => b * windowed g (shape Ag (mid + (INR k - 7) * dQ * sigma) ks lin) i)) (l k)) /\ log_mean dQ l v.
Proof.
  intros g Ag mid sigma ks lin v E S N H. cbn [MPK_like] in H. destruct (bad_A Ag (bands g) ks); [discriminate |]. destruct (Req_EM_T sigma 0); [contradiction |].
  destruct (mapO _ iQs) as [cs | |] eqn:M; try discriminate. cbn [bind] in H. apply mapO_spec in M. pose proof (Forall2_len _ _ _ M) as L. cbn in L.
  exists (fun k => nth (k - 1) cs 0 / 2). split; [| apply average_mean; [now symmetry | exact H]].
  intros k K. pose proof (Forall2_nth _ _ _ M (k - 1) 0%Z 0 ltac:(cbn; lia)) as X. cbn beta in X. rewrite (nth_iQs k K) in X.
  apply (C128_amplitude g ks _ _ E S). cbn [MPK_like]. rewrite (minus_IZR (Z.of_nat k) 7), <- INR_IZR_INZ in X.
  replace (mid + (INR k - 7) * sigma * dQ) with (mid + (INR k - 7) * dQ * sigma) in X by ring. change (with_Q Ag) with (shape Ag) in X. rewrite X. reflexivity.
Qed.
Theorem C128_step : Rabs (dQ - 4 / 10) < / 10 ^ 7.
Proof. unfold dQ. replace (13421773 / 33554432 - 4 / 10) with (1 / 167772160) by field. rewrite Rabs_right by lra. simpl. lra. Qed.
(** hence the value is between those for single values of Q, and is not logZero by mistake *)
Theorem C128_normal_between : forall g Ag mid sigma ks lin v, errors_ok g -> symmetric (pts g) (metric g) -> sigma <> 0 -> MPK_like (QGauss Ag mid sigma) g ks lin = Ok v ->
  exists a b va vb, (1 <= a <= 13)%nat /\ (1 <= b <= 13)%nat /\ MPK_like NoQ g ks (shape Ag (mid + (INR a - 7) * dQ * sigma) ks lin) = Ok va /\
    MPK_like NoQ g ks (shape Ag (mid + (INR b - 7) * dQ * sigma) ks lin) = Ok vb /\ va <= v <= vb.
Proof.
  intros g Ag mid sigma ks lin v E S N H. pose proof H as H'. cbn [MPK_like] in H. destruct (bad_A Ag (bands g) ks); [discriminate |]. destruct (Req_EM_T sigma 0); [contradiction |].
  destruct (mapO _ iQs) as [cs | |] eqn:M; try discriminate. cbn [bind] in H. apply mapO_spec in M. pose proof (Forall2_len _ _ _ M) as L. cbn in L.
  assert (X : forall k, (1 <= k <= 13)%nat -> MPK_like NoQ g ks (shape Ag (mid + (INR k - 7) * dQ * sigma) ks lin) = Ok (nth (k - 1) cs 0 / 2)).
  { intros k K. pose proof (Forall2_nth _ _ _ M (k - 1) 0%Z 0 ltac:(cbn; lia)) as X. cbn beta in X. rewrite (nth_iQs k K) in X. cbn [MPK_like]. rewrite (minus_IZR (Z.of_nat k) 7), <- INR_IZR_INZ in X.
    replace (mid + (INR k - 7) * sigma * dQ) with (mid + (INR k - 7) * dQ * sigma) in X by ring. change (with_Q Ag) with (shape Ag) in X. rewrite X. reflexivity. }
  destruct (log_mean_between _ _ _ (average_mean cs v (eq_sym L) H)) as (a & b & A & B & BW). exists a, b, (nth (a - 1) cs 0 / 2), (nth (b - 1) cs 0 / 2).
  repeat split; try lia; try (apply X; assumption); apply BW.
Qed.
(** a prior of width 0 fixes Q *)
Theorem C128_fixed : forall g Ag mid ks lin, (forall j, (1 <= j <= bands g)%nat -> 1 + Ag * ks j <> 0) -> MPK_like (QGauss Ag mid 0) g ks lin = MPK_like NoQ g ks (shape Ag mid ks lin).
Proof.
  intros g Ag mid ks lin B. cbn [MPK_like]. rewrite (proj2 (bad_A_false Ag (bands g) ks) B). destruct (Req_EM_T 0 0); [| contradiction].
  replace (mid + IZR (-6) * 0 * dQ) with mid by ring. reflexivity.
Qed.
(** distances: nothing is scaled in the fiducial model, volumes scale with the third power, and wavenumbers below the table are those of its begin *)
Theorem C128_fiducial : forall DVf H0 Dv z zs k0 P k, DVf <> 0 -> H0 * Dv z = DVf -> Rabs (z - zs) <= 1 / 1000 ->
  (forall i, k0 <= k i) -> exists ks lin, theory_of true DVf z (mkPk k0 zs P) H0 Dv k = Ok (ks, lin) /\ forall i, ks i = k i /\ lin i = P (k i) z.
Proof.
  intros DVf H0 Dv z zs k0 P k N E Z K. unfold theory_of, a_scl. rewrite rdiv_ok by (now rewrite E). cbn [bind z_stored k_first PowerAt]. rewrite E. replace (DVf / DVf) with 1 by (field; exact N).
  destruct (Rlt_dec (1 / 1000) (Rabs (z - zs))); [lra |]. unfold is0. destruct (Req_EM_T 1 0); [lra |]. eexists _, _. split; [reflexivity |].
  intro i. unfold mpk_lin. assert (EK : k_scaled k0 1 k i = k i) by (unfold k_scaled; rewrite Rmult_1_l; apply Rmax_right, K). rewrite EK. split; [reflexivity | field].
Qed.
Theorem C128_scaling : forall s DVf z P H0 Dv k ks lin, theory_of s DVf z P H0 Dv k = Ok (ks, lin) ->
  exists a, a <> 0 /\ (s = false -> a = 1) /\ (s = true -> a * (H0 * Dv z) = DVf) /\ Rabs (z - z_stored P) <= 1 / 1000 /\
  forall i, (ks i = a * k i \/ a * k i <= k_first P /\ ks i = k_first P) /\ lin i * a ^ 3 = PowerAt P (ks i) z.
Proof.
  intros s DVf z P H0 Dv k ks lin E. unfold theory_of in E. destruct (a_scl s DVf H0 (Dv z)) as [a | |] eqn:A; try discriminate. cbn [bind] in E.
  destruct (Rlt_dec (1 / 1000) (Rabs (z - z_stored P))) as [| Z]; [discriminate |]. unfold is0 in E. destruct (Req_EM_T a 0) as [| NA]; [discriminate |]. injection E as <- <-.
  exists a. repeat split; [exact NA | | | lra | |].
  - intros ->. cbn in A. congruence.
  - intros ->. cbn in A. unfold rdiv in A. destruct (Req_EM_T (H0 * Dv z) 0) as [| NZ]; [discriminate |]. injection A as <-. field. split; intro Q; apply NZ; rewrite Q; ring.
  - unfold k_scaled, Rmax. destruct (Rle_dec (k_first P) (a * k i)); [now left | right; split; lra].
  - unfold mpk_lin. field. exact NA.
Qed.
Theorem C128_stops : forall m L NL H0 Dv P a, (if nonlin m then NL else L) = Some P -> a_scl (m_scaling m) (DV_fid m) H0 (Dv (exact_z m)) = Ok a ->
  1 / 1000 < Rabs (exact_z m - z_stored P) -> MPK_LnLike m L NL H0 Dv = Stop.
Proof. intros m L NL H0 Dv P a E A Z. unfold MPK_LnLike. rewrite E. unfold theory_of. rewrite A. cbn [bind]. destruct (Rlt_dec _ _); [reflexivity | contradiction]. Qed.
Theorem C128_missing : forall m L NL H0 Dv, (if nonlin m then NL else L) = None -> MPK_LnLike m L NL H0 Dv = Stop.
Proof. intros m L NL H0 Dv E. unfold MPK_LnLike. now rewrite E. Qed.
Theorem C128_uses : forall m L NL H0 Dv P ks lin, (if nonlin m then NL else L) = Some P -> theory_of (m_scaling m) (DV_fid m) (exact_z m) P H0 Dv (m_k m) = Ok (ks, lin) ->
  MPK_LnLike m L NL H0 Dv = MPK_like (mprior m) (m_reg m) ks lin.
Proof. intros m L NL H0 Dv P ks lin E T. unfold MPK_LnLike. rewrite E, T. reflexivity. Qed.
(** reading: the rows from [mn] to [mx] are used *)
Theorem C128_rows_partial : forall mn mx vals, (1 <= mn <= mx)%nat -> (mx <= length vals)%nat -> exists P s, read_measurements mn mx (map Some vals) = Ok (P, s) /\
  forall i, (1 <= i <= mx + 1 - mn)%nat -> P i = Some (fst (nth (mn + i - 2) vals (0, 0))) /\ s i = Some (snd (nth (mn + i - 2) vals (0, 0))).
Proof.
  intros mn mx vals MN L. unfold read_measurements. rewrite skipn_map. set (n := (mx + 1 - mn)%nat).
  destruct (read_points_all (skipn (mn - 1) vals) n 1 (fun i => if Nat.leb 1 i && Nat.leb i n then Some 0 else None) (fun _ => None) (skip_status (mn - 1) (map Some vals)) ltac:(rewrite skipn_length; lia)) as (P & s & E & K & _).
  rewrite E. destruct (Nat.eqb_spec n 0); [lia |]. exists P, s. split; [reflexivity |]. intros i I. destruct (K (i - 1)%nat ltac:(lia)) as (K1 & K2).
  replace (1 + (i - 1))%nat with i in * by lia. rewrite nth_skipn in *. replace (mn - 1 + (i - 1))%nat with (mn + i - 2)%nat in * by lia. now split.
Qed.
(** the run stops if the last row is missing or is not of numbers *)
Theorem C128_last_row : forall mn mx rows, (1 <= mn <= mx)%nat -> (nth_error rows (mx - 1) = None \/ nth_error rows (mx - 1) = Some None) -> read_measurements mn mx rows = Stop.
Proof.
  intros mn mx rows MN B. unfold read_measurements. match goal with |- context [read_points ?n ?r ?i ?P ?s ?o] => pose proof (read_points_last n r i P s o ltac:(lia)) as L; destruct (read_points n r i P s o) as [[P' s'] ok] end.
  cbn [snd] in L. rewrite L. rewrite nth_error_skipn. replace (mn - 1 + (mx + 1 - mn - 1))%nat with (mx - 1)%nat by lia. destruct B as [-> | ->]; reflexivity.
Qed.
(** FINDING: another row that is not of numbers is not noticed: its measurement is 0 and its error is not set *)
Theorem C128_rows_refuted : exists mn mx rows P s i, (1 <= i <= mx + 1 - mn)%nat /\ nth_error rows (mn + i - 2) = Some None /\ read_measurements mn mx rows = Ok (P, s) /\ P i = Some 0 /\ s i = None.
Proof.
  exists 1%nat, 3%nat, [Some (5, 1); None; Some (7, 1)]. eexists _, _. exists 2%nat. split; [lia |]. split; [reflexivity |]. split; [reflexivity |]. split; reflexivity.
Qed.
(** the parts of the files that belong to the bands that are used *)
Theorem C128_parts_partial : forall I kf vals Wf cov inv, (1 <= mn_p I <= mx_p I)%nat -> (mx_p I <= full_p I)%nat -> (1 <= mn_k I)%nat -> (mx_k I <= full_k I)%nat -> length vals = full_p I ->
  exists g k, MPK_read I kf (map Some vals) Wf cov inv = Ok (g, k) /\ pts g = (mx_p I + 1 - mn_p I)%nat /\ bands g = (mx_k I + 1 - mn_k I)%nat /\
  (forall i, (1 <= i <= pts g)%nat -> Pd g i = fst (nth (mn_p I + i - 2) vals (0, 0)) /\ sdev g i = snd (nth (mn_p I + i - 2) vals (0, 0))) /\
  (forall i j, Wm g i j = Wf (mn_p I + i - 1)%nat (mn_k I + j - 1)%nat) /\ (forall j, k j = kf (mn_k I + j - 1)%nat) /\
  icov g = match cov with None => None | Some C => Some (inv (pts g) (fun i j => C (mn_p I + i - 1)%nat (mn_p I + j - 1)%nat)) end.
Proof.
  intros I kf vals Wf cov inv MP XP MK XK L. destruct (C128_rows_partial (mn_p I) (mx_p I) vals MP ltac:(lia)) as (P & s & E & K). unfold MPK_read, in_range.
  destruct (Nat.leb_spec 1 (mn_p I)); [| lia]. destruct (Nat.leb_spec (mx_p I) (full_p I)); [| lia]. destruct (Nat.leb_spec 1 (mn_k I)); [| lia]. destruct (Nat.leb_spec (mx_k I) (full_k I)); [| lia].
  cbn [andb negb]. rewrite E. cbn [bind fst snd].
  assert (ES : set_of s (mx_p I + 1 - mn_p I) = true).
  { unfold set_of. apply forallb_forall. intros i J. apply in_seq in J. rewrite (proj2 (K i ltac:(lia))). reflexivity. }
  rewrite ES, orb_true_r. cbn [negb]. eexists _, _. split; [reflexivity |]. cbn [pts bands Pd sdev Wm icov]. repeat split.
  - rewrite (proj1 (K i ltac:(lia))). reflexivity.
  - rewrite (proj2 (K i ltac:(lia))). reflexivity.
Qed.

(** ** C129: WiggleZ *)
Definition exact (x : R) : R := x.
(** without Q: half of the least chi squared of all regions over one amplitude *)
Theorem C129_profile_partial : forall gs n ks lin v, (forall g, In g gs -> symmetric (pts g) (metric g)) -> 0 < over_regions gs (fun g => form (pts g) (metric g) (windowed g lin)) ->
  wig_like exact NoQ gs n ks lin = Ok v -> is_min (fun b => all_chi2 gs (fun g i => b * windowed g lin i)) (2 * v).
Proof.
  intros gs n ks lin v S P H. unfold wig_like in H. destruct (negb (forallb has_cov gs)); [discriminate |]. rewrite wig_chisq_eq in H by exact S. cbv zeta in H. unfold exact in H. rewrite Rplus_0_l in H.
  change (over_regions gs (fun g => N2 g lin lin)) with (over_regions gs (fun g => form (pts g) (metric g) (windowed g lin))) in H. set (N := over_regions gs (fun g => form (pts g) (metric g) (windowed g lin))) in *.
  destruct (Req_EM_T N 0); [lra |]. cbn [bind fst half] in H. unfold half in H. injection H as EV. replace (2 * v) with (over_regions gs A2 - over_regions gs (fun g => B2 g lin) ^ 2 / N) by (rewrite <- EV; field; lra).
  destruct (parabola_min (over_regions gs A2) (over_regions gs (fun g => B2 g lin)) N P) as ((b & E) & M). split; [exists b | intro c]; rewrite all_chi2_one by exact S; [exact E | apply M].
Qed.
(** so that the amplitude of the spectrum has no effect *)
Theorem C129_factor : forall gs n ks lin c v, (forall g, In g gs -> symmetric (pts g) (metric g)) -> c <> 0 -> wig_like exact NoQ gs n ks lin = Ok v -> wig_like exact NoQ gs n ks (fun j => c * lin j) = Ok v.
Proof.
  intros gs n ks lin c v S C H. unfold wig_like in *. destruct (negb (forallb has_cov gs)); [discriminate |]. rewrite wig_chisq_eq in * by exact S. cbv zeta in *. unfold exact in *. rewrite Rplus_0_l in *.
  assert (EB : over_regions gs (fun g => B2 g (fun j => c * lin j)) = c * over_regions gs (fun g => B2 g lin)).
  { unfold over_regions. rewrite <- rsum_scale. apply rsum_ext. intros g _. unfold B2. rewrite (bf_ext _ _ (metric g) _ (fun i => c * windowed g lin i + 0 * windowed g lin i) _ (Pd g)) by (intros; try reflexivity; rewrite windowed_scale; ring). rewrite bf_lin_l. ring. }
  assert (EN : over_regions gs (fun g => N2 g (fun j => c * lin j) (fun j => c * lin j)) = (c * c) * over_regions gs (fun g => N2 g lin lin)).
  { unfold over_regions. rewrite <- rsum_scale. apply rsum_ext. intros g _. unfold N2. rewrite (bf_ext _ _ (metric g) _ (fun i => c * windowed g lin i + 0 * windowed g lin i) _ (fun i => c * windowed g lin i + 0 * windowed g lin i)) by (intros; try reflexivity; rewrite windowed_scale; ring).
    rewrite bf_lin_l, bf_lin_r. ring. }
  rewrite EB, EN. set (N := over_regions gs (fun g => N2 g lin lin)) in *. destruct (Req_EM_T N 0); [discriminate |]. cbn [bind fst] in H.
  destruct (Req_EM_T (c * c * N) 0) as [Q |]; [exfalso; apply Rmult_integral in Q; destruct Q as [Q | Q]; [apply Rmult_integral in Q; destruct Q |]; contradiction |]. cbn [bind fst].
  rewrite <- H. f_equal. f_equal. field. split; assumption.
Qed.
(** one region: MPK with a flat prior on the amplitude has the logarithm of the norm in addition *)
Theorem C129_mpk : forall g n ks lin v w, has_cov g = true -> symmetric (pts g) (metric g) -> MPK_like NoQ g ks lin = Ok v -> wig_like exact NoQ [g] n ks lin = Ok w ->
  v = w + ln (form (pts g) (metric g) (windowed g lin)) / 2.
Proof.
  intros g n ks lin v w C S H W. assert (E : errors_ok g) by (intro I; unfold has_cov in C; rewrite I in C; discriminate).
  cbn [MPK_like] in H. rewrite chisq1_eq in H by exact E. destruct (Rlt_dec 0 (N2 g lin lin)) as [P |]; [| discriminate]. injection H as <-.
  unfold wig_like in W. cbn [forallb] in W. rewrite C in W. cbn [andb negb] in W. rewrite wig_chisq_eq in W by (intros h [<- | []]; exact S). cbv zeta in W.
  unfold over_regions, exact in W. cbn [map rsum fold_right] in W. replace (0 + (N2 g lin lin + 0)) with (N2 g lin lin) in W by ring. destruct (Req_EM_T (N2 g lin lin) 0); [lra |].
  cbn [bind fst half] in W. unfold half in W. injection W as <-. change (form (pts g) (metric g) (windowed g lin)) with (N2 g lin lin). field. lra.
Qed.
(** flat prior on the amplitude and its product with Q, for all regions together *)
Theorem C129_flat : forall gs n Ag ks lin v, (forall g, In g gs -> symmetric (pts g) (metric g)) -> wig_like exact (QFlat Ag) gs n ks lin = Ok v ->
  marginal2 (fun x y => all_chi2 gs (fun g => windowed g (fun j => lin j * (x + y * ks j ^ 2) / (1 + Ag * ks j)))) v.
Proof.
  intros gs n Ag ks lin v S H. unfold wig_like in H. destruct (negb (forallb has_cov gs)); [discriminate |]. destruct (bad_A Ag n ks); [discriminate |]. cbv zeta in H.
  set (T := fun i => lin i / (1 + Ag * ks i)) in *. set (U := fun i => lin i / (1 + Ag * ks i) * ks i ^ 2) in *.
  rewrite (over_ext gs (w_tt T T) (fun g => N2 g T T)), (over_ext gs (w_tt T U) (fun g => N2 g T U)), (over_ext gs (w_tt U U) (fun g => N2 g U U)), (over_ext gs (w_tp T) (fun g => B2 g T)), (over_ext gs (w_tp U) (fun g => B2 g U)), (over_ext gs w_pp A2) in H
    by (intros; first [apply w_tt_N; now apply S | apply w_tp_B | apply w_pp_A]).
  apply flat_like_ok in H. destruct H as (m & a & b & d & x0 & y0 & P & D & F & V). exists m, a, b, d, x0, y0. repeat split; [exact P | exact D | | exact V].
  intros x y. rewrite <- F. rewrite <- all_chi2_lin by exact S. clear. induction gs as [| g gs IH]; [reflexivity |]. cbn [all_chi2]. rewrite IH. f_equal.
  unfold chi2. apply form_ext; [reflexivity |]. intros i I. f_equal. rewrite <- windowed_lin. apply windowed_ext. intros j J. unfold U, T, Rdiv. ring.
Qed.
(** normal prior on Q: FINDING normV is not set to 0 for each value of Q, so that the values after the first are too large.  The result is never below the right one *)
Theorem C129_normal_partial : forall gs n Ag mid sigma ks lin v, (forall g, In g gs -> symmetric (pts g) (metric g)) -> sigma <> 0 ->
  (forall k, (1 <= k <= 13)%nat -> 0 < over_regions gs (fun g => form (pts g) (metric g) (windowed g (shape Ag (mid + (INR k - 7) * dQ * sigma) ks lin)))) -> wig_like exact (QGauss Ag mid sigma) gs n ks lin = Ok v ->
  exists l w, (forall k, (1 <= k <= 13)%nat -> is_min (fun b => all_chi2 gs (fun g i => b * windowed g (shape Ag (mid + (INR k - 7) * dQ * sigma) ks lin) i)) (2 * l k)) /\ log_mean dQ l w /\ w <= v.
Proof.
  intros gs n Ag mid sigma ks lin v S NS P H. unfold wig_like in H. destruct (negb (forallb has_cov gs)); [discriminate |]. destruct (bad_A Ag n ks); [discriminate |].
  destruct (Req_EM_T sigma 0); [contradiction |]. change exact with (fun x : R => x) in H. set (T := fun i => with_Q Ag (mid + IZR i * sigma * dQ) ks lin) in *.
  assert (ET : forall k, T (Z.of_nat k - 7)%Z = shape Ag (mid + (INR k - 7) * dQ * sigma) ks lin).
  { intro k. unfold T. rewrite minus_IZR, <- INR_IZR_INZ. replace (mid + (INR k - 7) * sigma * dQ) with (mid + (INR k - 7) * dQ * sigma) by ring. reflexivity. }
  assert (PT : forall i, In i iQs -> 0 < over_regions gs (fun g => N2 g (T i) (T i))).
  { intros i I. rewrite iQs_seq in I. apply in_map_iff in I. destruct I as (k & <- & K). apply in_seq in K. rewrite ET. apply (P k). lia. }
  destruct (wig_loop (fun x => x) gs T iQs 0) as [cs | |] eqn:W; try discriminate. cbn [bind] in H.
  pose proof (wig_loop_above gs T iQs S PT 0 cs ltac:(lra) W) as F. pose proof (Forall2_len _ _ _ F) as L. cbn [length iQs map seq] in L.
  set (l := fun k => (over_regions gs A2 - over_regions gs (fun g => B2 g (T (Z.of_nat k - 7)%Z)) ^ 2 / over_regions gs (fun g => N2 g (T (Z.of_nat k - 7)%Z) (T (Z.of_nat k - 7)%Z))) / 2).
  destruct (log_mean_exists dQ l) as (w & LM). exists l, w. split; [| split; [exact LM |]].
  - intros k K. replace (2 * l k) with (over_regions gs A2 - over_regions gs (fun g => B2 g (T (Z.of_nat k - 7)%Z)) ^ 2 / over_regions gs (fun g => N2 g (T (Z.of_nat k - 7)%Z) (T (Z.of_nat k - 7)%Z))) by (unfold l; field; apply Rgt_not_eq; rewrite ET; apply (P k K)).
    rewrite ET. destruct (parabola_min (over_regions gs A2) (over_regions gs (fun g => B2 g (shape Ag (mid + (INR k - 7) * dQ * sigma) ks lin))) _ (P k K)) as ((b & E) & M).
    split; [exists b | intro c]; rewrite all_chi2_one by exact S; [exact E | apply M].
  - apply (log_mean_mono dQ l (fun k => nth (k - 1) cs 0 / 2) w v); [| exact LM | apply average_mean; [now symmetry | exact H]].
    intros k K. pose proof (Forall2_nth _ _ _ F (k - 1) 0%Z 0 ltac:(cbn; lia)) as X. cbn beta in X. rewrite (nth_iQs k K) in X. unfold l. lra.
Qed.
(** one point: every value of Q fits exactly, and the result should be 0 *)
Definition onept : region := mkReg 1 1 (fun _ => 1) (fun _ _ => 1) (Some (fun _ _ => 1)) (fun _ => 1).
Lemma onept_sym : symmetric (pts onept) (metric onept). Proof. intros i j _ _. reflexivity. Qed.
Lemma onept_N T : over_regions [onept] (fun g => N2 g T T) = T 1%nat * T 1%nat.
Proof. unfold over_regions, N2, bf, windowed, metric. cbn. ring. Qed.
Lemma onept_B T : over_regions [onept] (fun g => B2 g T) = T 1%nat. Proof. unfold over_regions, B2, bf, windowed, metric. cbn. ring. Qed.
Lemma onept_A : over_regions [onept] A2 = 1. Proof. unfold over_regions, A2, bf, metric. cbn. ring. Qed.
Theorem C129_normal_refuted : exists v, wig_like exact (QGauss 0 10 1) [onept] 1 (fun _ => 1) (fun _ => 1) = Ok v /\ 0 < v /\
  forall k, (1 <= k <= 13)%nat -> is_min (fun b => all_chi2 [onept] (fun g i => b * windowed g (shape 0 (10 + (INR k - 7) * dQ * 1) (fun _ => 1) (fun _ => 1)) i)) 0.
Proof.
  set (T := fun i : Z => with_Q 0 (10 + IZR i * 1 * dQ) (fun _ => 1) (fun _ => 1)).
  assert (ET : forall i, T i 1%nat = 11 + IZR i * dQ) by (intro i; unfold T, with_Q; field).
  assert (DQ : 39 / 100 < dQ < 41 / 100) by (unfold dQ; lra).
  assert (PT : forall i, In i iQs -> 8 < T i 1%nat).
  { intros i I. rewrite ET. rewrite iQs_13 in I. cbn [In] in I. repeat (destruct I as [<- | I]; [lra |]). contradiction. }
  assert (SY : forall g, In g [onept] -> symmetric (pts g) (metric g)) by (intros g [<- | []]; apply onept_sym).
  assert (PN : forall i, In i iQs -> 0 < over_regions [onept] (fun g => N2 g (T i) (T i))) by (intros i I; rewrite onept_N; pose proof (PT i I); nra).
  destruct (wig_loop_ok [onept] T iQs SY PN 0 ltac:(lra)) as (cs & W). pose proof (wig_loop_above [onept] T iQs SY PN 0 cs ltac:(lra) W) as F.
  pose proof (Forall2_len _ _ _ F) as L. cbn [length iQs map seq] in L. destruct (average_ok cs (eq_sym L)) as (v & V & _).
  exists v. split; [| split].
  - unfold wig_like. cbn [forallb has_cov has icov onept andb negb]. replace (bad_A 0 1 (fun _ => 1)) with false by (symmetry; apply bad_A_false; intros; lra).
    destruct (Req_EM_T 1 0); [lra |]. fold T. change exact with (fun x : R => x). rewrite W. exact V.
  - pose proof (average_mean cs v (eq_sym L) V) as LM.
    assert (A0 : forall k, (1 <= k <= 13)%nat -> 0 <= nth (k - 1) cs 0).
    { intros k K. pose proof (Forall2_nth _ _ _ F (k - 1) 0%Z 0 ltac:(cbn; lia)) as X. cbn beta in X. rewrite onept_N, onept_B, onept_A in X.
      set (t := T (nth (k - 1) iQs 0%Z) 1%nat) in *. assert (8 < t) by (apply PT, nth_In; cbn; lia). replace (1 - t ^ 2 / (t * t)) with 0 in X by (field; lra). exact X. }
    assert (A1 : 0 < nth 1 cs 0).
    { clear - W PT SY. rewrite iQs_13 in *. set (l := [-4; -3; -2; -1; 0; 1; 2; 3; 4; 5; 6]%Z) in *. cbn [wig_loop] in W. rewrite wig_chisq_eq in W by exact SY. cbv beta zeta in W. rewrite !onept_N, !onept_B, !onept_A in W.
      pose proof (PT (-6)%Z ltac:(now left)) as P6. pose proof (PT (-5)%Z ltac:(right; now left)) as P5. set (t := T (-6)%Z 1%nat) in *. set (u := T (-5)%Z 1%nat) in *.
      destruct (Req_EM_T (0 + t * t) 0); [nra |]. cbn [bind fst snd] in W. rewrite wig_chisq_eq in W by exact SY. cbv beta zeta in W. rewrite !onept_N, !onept_B, !onept_A in W. fold u in W.
      destruct (Req_EM_T (0 + t * t + u * u) 0); [nra |]. cbn [bind fst snd] in W. destruct (wig_loop (fun x => x) [onept] T l (0 + t * t + u * u)) as [r | |]; try discriminate. cbn [bind] in W. injection W as <-. cbn [nth].
      assert (u ^ 2 / (0 + t * t + u * u) < 1); [| lra]. apply (Rmult_lt_reg_r (0 + t * t + u * u)); [nra |]. unfold Rdiv. rewrite Rmult_assoc, Rinv_l by nra. nra. }
    set (l := fun k => nth (k - 1) cs 0 / 2) in LM. unfold log_mean in LM. destruct (Rlt_or_le 0 v) as [| Q]; [assumption | exfalso].
    assert (E1 : 1 <= exp (- v)) by (rewrite <- exp_0; destruct Q as [Q | Q]; [apply Rlt_le, exp_increasing; lra | rewrite Q, Ropp_0; lra]).
    assert (G : 0 < total (gauss dQ) 13) by (apply total_pos; [lia | intros; apply gauss_pos]).
    assert (LT : total (fun k => gauss dQ k * exp (- l k)) 13 < total (gauss dQ) 13).
    { assert (B : forall k, (1 <= k <= 13)%nat -> gauss dQ k * exp (- l k) <= gauss dQ k).
      { intros k K. pose proof (gauss_pos dQ k). assert (exp (- l k) <= 1); [| nra]. rewrite <- exp_0. pose proof (A0 k K). unfold l. destruct H0 as [H0 | H0]; [apply Rlt_le, exp_increasing; lra | rewrite <- H0; right; f_equal; field]. }
      assert (B2' : gauss dQ 2 * exp (- l 2%nat) < gauss dQ 2).
      { pose proof (gauss_pos dQ 2). assert (exp (- l 2%nat) < 1); [| nra]. rewrite <- exp_0. apply exp_increasing. unfold l. change (2 - 1)%nat with 1%nat. lra. }
      rewrite !total_S. change (total (fun k => gauss dQ k * exp (- l k)) 0) with 0. change (total (gauss dQ) 0) with 0.
      pose proof (B 1%nat ltac:(lia)). pose proof (B 3%nat ltac:(lia)). pose proof (B 4%nat ltac:(lia)). pose proof (B 5%nat ltac:(lia)). pose proof (B 6%nat ltac:(lia)). pose proof (B 7%nat ltac:(lia)).
      pose proof (B 8%nat ltac:(lia)). pose proof (B 9%nat ltac:(lia)). pose proof (B 10%nat ltac:(lia)). pose proof (B 11%nat ltac:(lia)). pose proof (B 12%nat ltac:(lia)). pose proof (B 13%nat ltac:(lia)). lra. }
    nra.
  - intros k K. set (U := shape 0 (10 + (INR k - 7) * dQ * 1) (fun _ => 1) (fun _ => 1)). assert (EU : U 1%nat = 11 + (INR k - 7) * dQ) by (unfold U, shape; field).
    assert (KB : 1 <= INR k <= 13) by (split; [apply (le_INR 1); lia | replace 13 with (INR 13) by (cbn; ring); apply le_INR; lia]). assert (PU : 8 < U 1%nat) by (rewrite EU; nra).
    split; [exists (/ U 1%nat) | intro b]; rewrite all_chi2_one by exact SY; rewrite onept_A, onept_B, onept_N; [field; lra |].
    replace (1 - 2 * b * U 1%nat + b * b * (U 1%nat * U 1%nat)) with ((1 - b * U 1%nat) ^ 2) by ring. apply pow2_ge_0.
Qed.
(** FINDING: normV is of single precision.  The relative error e of norms is one of the part of chi squared that is explained by the spectrum *)
Theorem C129_single_partial : forall sgl e gs n ks lin v m, (forall g, In g gs -> symmetric (pts g) (metric g)) -> 0 <= e < 1 -> (forall x, Rabs (sgl x - x) <= e * Rabs x) ->
  0 < over_regions gs (fun g => form (pts g) (metric g) (windowed g lin)) -> is_min (fun b => all_chi2 gs (fun g i => b * windowed g lin i)) m ->
  wig_like sgl NoQ gs n ks lin = Ok v -> Rabs (2 * v - m) <= e / (1 - e) * (all_chi2 gs (fun _ _ => 0) - m).
Proof.
  intros sgl e gs n ks lin v m S E G P M H. unfold wig_like in H. destruct (negb (forallb has_cov gs)); [discriminate |]. rewrite wig_chisq_eq in H by exact S. cbv zeta in H. rewrite Rplus_0_l in H.
  change (over_regions gs (fun g => form (pts g) (metric g) (windowed g lin))) with (over_regions gs (fun g => N2 g lin lin)) in P. set (N := over_regions gs (fun g => N2 g lin lin)) in *.
  destruct (Req_EM_T (sgl N) 0) as [| NZ]; [discriminate |]. cbn [bind fst half] in H. unfold half in H. injection H as EV. set (A := over_regions gs A2) in *. set (B := over_regions gs (fun g => B2 g lin)) in *.
  assert (EM : m = A - B ^ 2 / N).
  { apply (is_min_unique _ _ _ M). destruct (parabola_min A B N P) as ((b & Eb) & Mb). split; [exists b | intro c]; rewrite all_chi2_one by exact S; [exact Eb | apply Mb]. }
  assert (EA : all_chi2 gs (fun _ _ => 0) = A).
  { transitivity (all_chi2 gs (fun g i => 0 * windowed g lin i)).
    - clear. induction gs as [| g gs IH]; [reflexivity |]. cbn [all_chi2]. rewrite IH. f_equal. unfold chi2. apply form_ext; [reflexivity |]. intros. ring.
    - rewrite all_chi2_one by exact S. fold A. ring. }
  rewrite EA, EM. pose proof (G N) as GN. rewrite (Rabs_right N) in GN by lra. assert (SN : (1 - e) * N <= sgl N) by (unfold Rabs in GN; destruct (Rcase_abs (sgl N - N)); lra).
  assert (PS : 0 < sgl N) by nra. replace (2 * v - (A - B ^ 2 / N)) with (B ^ 2 / N * ((sgl N - N) / sgl N)) by (rewrite <- EV; field; split; lra).
  replace (A - (A - B ^ 2 / N)) with (B ^ 2 / N) by ring. rewrite Rabs_mult. assert (Q0 : 0 <= B ^ 2 / N) by (apply Rmult_le_pos; [apply pow2_ge_0 | apply Rlt_le, Rinv_0_lt_compat; lra]).
  rewrite (Rabs_right (B ^ 2 / N)) by lra. rewrite (Rmult_comm (e / (1 - e))). apply Rmult_le_compat_l; [exact Q0 |].
  unfold Rdiv at 1. rewrite Rabs_mult, Rabs_inv. rewrite (Rabs_right (sgl N)) by lra.
  apply (Rmult_le_reg_r (sgl N)); [exact PS |]. rewrite Rmult_assoc, Rinv_l by lra. rewrite Rmult_1_r. apply (Rle_trans _ (e * N)); [exact GN |].
  apply (Rmult_le_reg_r (1 - e)); [lra |]. replace (e / (1 - e) * sgl N * (1 - e)) with (e * sgl N) by (field; lra). nra.
Qed.
(** so that chi squared of a perfect fit may be negative *)
Theorem C129_single_refuted : forall sgl c, 0 < sgl (c * c) < c * c -> exists v, wig_like sgl NoQ [onept] 1 (fun _ => 1) (fun _ => c) = Ok v /\ v < 0.
Proof.
  intros sgl c (P & L). unfold wig_like. cbn [forallb has_cov has icov onept andb negb]. rewrite wig_chisq_eq by (intros g [<- | []]; apply onept_sym). cbv zeta. rewrite Rplus_0_l, onept_N, onept_B, onept_A.
  destruct (Req_EM_T (sgl (c * c)) 0); [lra |]. cbn [bind fst half]. eexists. split; [reflexivity |]. assert (1 < c ^ 2 / sgl (c * c)); [| lra].
  apply (Rmult_lt_reg_r (sgl (c * c))); [exact P |]. unfold Rdiv. rewrite Rmult_assoc, Rinv_l by lra. lra.
Qed.
(** reading: each region that is used gets the rows of its own block of the file *)
Theorem C129_measurements_partial : forall full mn mx active regs, (1 <= mn <= mx)%nat -> (mx <= full)%nat -> length active = length regs -> (forall vals, In vals regs -> length vals = full) ->
  (full = 50%nat \/ forall a, In a active -> a = true) ->
  exists Ps, wig_points full mn mx active (measurements_file regs) true = Ok Ps /\ Forall2 (fun P vals => forall i, (1 <= i <= mx + 1 - mn)%nat -> P i = nth (mn + i - 2) vals 0) Ps (select active regs).
Proof. intros. now apply wig_points_all. Qed.
(** FINDING: 50 rows are skipped for a region that is not used, whatever the number of rows.  With 52 rows two headlines are read as failed measurements, and the rest is
    shifted, without an error *)
Theorem C129_measurements_refuted : forall f : nat -> R, exists regs P, (forall vals, In vals regs -> length vals = 52%nat) /\ nth 0 (select [false; true] regs) [] = map f (seq 1 52) /\
  wig_points 52 1 52 [false; true] (measurements_file regs) true = Ok [P] /\ P 1%nat = 0 /\ P 2%nat = 0 /\ forall i, (3 <= i <= 52)%nat -> P i = f (i - 2)%nat.
Proof.
  intro f. exists [map f (seq 1 52); map f (seq 1 52)]. eexists. split; [| split; [reflexivity | split; [reflexivity |]]].
  - intros vals [<- | [<- | []]]; reflexivity.
  - split; [reflexivity |]. split; [reflexivity |]. intros i I.
    assert (X : forall k, (k < 50)%nat -> (k + 3 <= 52)%nat) by lia. clear X. do 3 (destruct i as [| i]; [lia |]).
    do 50 (destruct i as [| i]; [reflexivity |]). lia.
Qed.
Theorem C129_matrices_partial : forall m n active mats mn kmn M, length active = length mats -> (forall rows, In rows mats -> length rows = m /\ forall xs, In xs rows -> length xs = n) -> (1 <= mn)%nat -> (1 <= kmn)%nat ->
  exists M', ReadWiggleZMatrices (length mats) 1 m n (matrices_file mats) M = Ok M' /\
  Forall2 (fun p rows => forall i j, (1 <= i)%nat -> (mn + i - 1 <= m)%nat -> (1 <= j)%nat -> (kmn + j - 1 <= n)%nat -> p i j = Some (nth (kmn + j - 2) (nth (mn + i - 2) rows []) 0)) (region_parts active mn kmn M') (select active mats).
Proof.
  intros m n active mats mn kmn M L F MN KN. destruct (read_matrices_all m n mats 1 M F) as (M' & E & K & _). exists M'. split; [exact E |].
  rewrite <- (chosen_select [] active 1 mats L). unfold region_parts.
  assert (G : forall active r k, In k (chosen_regions active r) -> (r <= k < r + length active)%nat).
  { induction active0 as [| a active0 IH]; intros r k I; cbn in I; [contradiction |]. cbn [length]. destruct a; [destruct I as [<- | I]; [lia |] |]; apply IH in I; lia. }
  specialize (G active 1%nat). induction (chosen_regions active 1) as [| r l IH]; cbn [map]; [constructor |]. constructor; [| apply IH; intros; apply G; now right].
  intros i j I1 I2 J1 J2. pose proof (G r (or_introl eq_refl)). replace r with (1 + (r - 1))%nat at 1 by lia. rewrite K by lia.
  replace (mn + i - 1 - 1)%nat with (mn + i - 2)%nat by lia. replace (kmn + j - 1 - 1)%nat with (kmn + j - 2)%nat by lia. reflexivity.
Qed.
(** FINDING: a file that ends early is accepted, elements are not set *)
Theorem C129_matrices_refuted : exists ls M', ReadWiggleZMatrices 2 1 2 1 ls (fun _ _ _ => None) = Ok M' /\ M' 1%nat 1%nat 1%nat = Some 5 /\ M' 1%nat 2%nat 1%nat = None /\ M' 2%nat 1%nat 1%nat = None.
Proof. exists [WHead; WRow [5]]. eexists. split; [reflexivity |]. repeat split. Qed.
(** a headline in place of a row stops the run *)
Theorem C129_matrices_wrong : forall r m n rows rest M, (length rows < m)%nat -> (forall xs, In xs rows -> length xs = n) -> wig_rows r 1 m n (map WRow rows ++ WHead :: rest) M = Stop.
Proof.
  intros r m n rows rest M L F. revert m M L F. generalize 1%nat. induction rows as [| xs rows IH]; intros j m M L F; (destruct m as [| m]; [cbn in L; lia |]); [reflexivity |]. cbn [map app wig_rows].
  rewrite (F xs (or_introl eq_refl)), Nat.ltb_irrefl. apply IH; [cbn in L; lia | intros; apply F; now right].
Qed.
(** the redshift has to be one of the four *)
Theorem C129_zbin : forall z i, zbin z = Ok i <-> (1 <= i <= 4)%nat /\ Rabs (z - nth (i - 1) [22 / 100; 41 / 100; 60 / 100; 78 / 100] 0) <= 1 / 1000.
Proof.
  intros z i. unfold zbin, zeval. cbn [zbin_from].
  assert (AB : forall c, Rabs (z - c) <= 1 / 1000 <-> c - 1 / 1000 <= z <= c + 1 / 1000) by (intro c; unfold Rabs; destruct (Rcase_abs (z - c)); split; intro; lra).
  destruct (Rle_dec (Rabs (z - 22 / 100)) (1 / 1000)) as [A1 | A1]; destruct (Rle_dec (Rabs (z - 41 / 100)) (1 / 1000)) as [A2 | A2];
  destruct (Rle_dec (Rabs (z - 60 / 100)) (1 / 1000)) as [A3 | A3]; destruct (Rle_dec (Rabs (z - 78 / 100)) (1 / 1000)) as [A4 | A4]; rewrite AB in A1, A2, A3, A4; try (exfalso; lra);
  (destruct (Req_EM_T z 0) as [Z | Z]; [try (exfalso; lra) |]); (split; [intro E; first [discriminate E | injection E as <-; split; [lia | cbn [nth Nat.sub]; apply AB; lra]] |]);
  intros (I & Q); rewrite AB in Q; destruct i as [| [| [| [| [| i]]]]]; try lia; cbn [nth Nat.sub] in Q; try (exfalso; lra); reflexivity.
Qed.
Theorem C129_zbin_stops : forall z, (forall i, zbin z <> Ok i) -> zbin z = Stop.
Proof. intros z N. unfold zbin in *. destruct (Req_EM_T z 0); [reflexivity |]. destruct (zbin_from 1 zeval z 0); [reflexivity |]. exfalso. eapply N. reflexivity. Qed.
(** the correction by simulations leaves the spectrum of the simulated cosmology at the fit *)
Theorem C129_gigglez : forall fit fid ks lin i, fid (ks i) <> 0 -> gigglez false fit fid ks lin i = lin i /\ (lin i = fid (ks i) -> gigglez true fit fid ks lin i = fit (ks i)).
Proof. intros fit fid ks lin i N. split; [reflexivity |]. intro E. unfold gigglez. rewrite E. field. exact N. Qed.

(** ** Examples *)
(** two points, two bands *)
Definition exreg : region := mkReg 2 2 (fun i => INR i + 1) (fun i j => if Nat.eqb i j then 1 else 1 / 2) (Some (fun i j => if Nat.eqb i j then 2 else 1)) (fun _ => 0).
Definition exdiag : region := mkReg 2 2 (fun i => INR i + 1) (fun i j => if Nat.eqb i j then 1 else 1 / 2) None (fun i => INR i).
Lemma exreg_sym : symmetric (pts exreg) (metric exreg).
Proof. intros i j _ _. unfold metric. cbn [icov exreg]. rewrite (Nat.eqb_sym j i). destruct (Nat.eqb i j); reflexivity. Qed.
Lemma exdiag_ok : errors_ok exdiag. Proof. intros _ i I. cbn in I. cbn [sdev exdiag]. apply not_0_INR. lia. Qed.
Lemma exdiag_sym : symmetric (pts exdiag) (metric exdiag).
Proof. rewrite metric_diag by reflexivity. apply diagm_sym. Qed.
Lemma exreg_N T U : N2 exreg T U = (T 1%nat + T 2%nat / 2) * (2 * (U 1%nat + U 2%nat / 2) + (U 1%nat / 2 + U 2%nat)) + (T 1%nat / 2 + T 2%nat) * ((U 1%nat + U 2%nat / 2) + 2 * (U 1%nat / 2 + U 2%nat)).
Proof. unfold N2, bf, windowed, metric, exreg. cbn. field. Qed.
Example C128_ex : (exists v, MPK_like NoQ exreg (fun _ => 1) (fun _ => 1) = Ok v) /\ (exists v, MPK_like NoQ exdiag (fun _ => 1) (fun _ => 1) = Ok v).
Proof.
  split; cbn [MPK_like]; (rewrite chisq1_eq; [| try apply exdiag_ok; intro; discriminate]).
  - rewrite exreg_N. destruct (Rlt_dec _ _) as [| Q]; [eexists; reflexivity | exfalso; apply Q; lra].
  - destruct (Rlt_dec 0 (N2 exdiag (fun _ => 1) (fun _ => 1))) as [| Q]; [eexists; reflexivity | exfalso; apply Q]. unfold N2. rewrite bf_form. rewrite metric_diag by reflexivity. apply positive_diag.
    + intros i I. apply Rinv_0_lt_compat, pow_lt. cbn [sdev exdiag]. apply lt_0_INR. cbn in I. lia.
    + exists 1%nat. split; [cbn; lia |]. unfold windowed. cbn. lra.
Qed.
Example C128_ex_Q : (exists v, MPK_like (QFlat 1) exreg INR (fun _ => 1) = Ok v) /\ (exists v, MPK_like (QGauss 1 10 1) exreg INR (fun _ => 1) = Ok v).
Proof.
  assert (B : bad_A 1 2 INR = false) by (apply bad_A_false; intros i I; pose proof (pos_INR i); lra).
  split; cbn [MPK_like bands exreg]; rewrite B.
  - unfold flat2. cbn [has icov exreg negb andb]. fold exreg. set (T := fun i : nat => 1 / (1 + 1 * INR i)). set (U := fun i : nat => T i * INR i ^ 2).
    change 2%nat with (pts exreg). rewrite (dot_comm _ (weigh exreg (wth exreg T)) (wth exreg T)), (dot_comm _ (weigh exreg (wth exreg T)) (wth exreg U)), (dot_comm _ (weigh exreg (wth exreg U)) (wth exreg U)), !dot_weigh, !bf_wth_l, !bf_wth_r.
    fold (N2 exreg T T) (N2 exreg U T) (N2 exreg U U). rewrite !exreg_N. assert (T1 : T 1%nat = 1 / 2) by (unfold T; cbn; field). assert (T2 : T 2%nat = 1 / 3) by (unfold T; cbn; field).
    assert (U1 : U 1%nat = 1 / 2) by (unfold U; rewrite T1; cbn; field). assert (U2 : U 2%nat = 4 / 3) by (unfold U; rewrite T2; cbn; field). rewrite T1, T2, U1, U2.
    assert (tiny <= 1) by (unfold tiny; rewrite <- Rinv_1; apply Rinv_le_contravar; [lra |]; apply pow_R1_Rle; lra). apply flat_like_exists; lra.
  - destruct (Req_EM_T 1 0); [lra |]. destruct (mapO_ok (fun i => chisq1 exreg (with_Q 1 (10 + IZR i * 1 * dQ) INR (fun _ => 1))) iQs) as (cs & E).
    + intros i I. rewrite chisq1_eq by (intro; discriminate). rewrite exreg_N. assert (DQ : 39 / 100 < dQ < 41 / 100) by (unfold dQ; lra).
      assert (P : 0 < 10 + IZR i * 1 * dQ) by (rewrite iQs_13 in I; cbn [In] in I; repeat (destruct I as [<- | I]; [lra |]); contradiction). set (q := 10 + IZR i * 1 * dQ) in *.
      assert (W1 : 0 < with_Q 1 q INR (fun _ => 1) 1%nat) by (unfold with_Q; cbn; apply Rdiv_lt_0_compat; lra). assert (W2 : 0 < with_Q 1 q INR (fun _ => 1) 2%nat) by (unfold with_Q; cbn; apply Rdiv_lt_0_compat; lra).
      destruct (Rlt_dec _ _) as [| Q]; [eexists; reflexivity | exfalso; apply Q]. nra.
    + rewrite E. cbn [bind]. pose proof (Forall2_len _ _ _ (mapO_spec _ _ _ E)) as L. destruct (average_ok cs (eq_sym L)) as (v & V & _). exists v. exact V.
Qed.
Example C128_ex_theory : exists ks lin, theory_of true 3 (35 / 100) (mkPk (1 / 10000) (35 / 100) (fun k _ => k)) 1 (fun _ => 3) (fun i => INR i + 1) = Ok (ks, lin) /\ ks 1%nat = 2 /\ lin 1%nat = 2.
Proof.
  destruct (C128_fiducial 3 1 (fun _ => 3) (35 / 100) (35 / 100) (1 / 10000) (fun k _ => k) (fun i => INR i + 1)) as (ks & lin & E & K); try lra; [rewrite Rminus_diag_eq by reflexivity; rewrite Rabs_R0; lra | intro i; pose proof (pos_INR i); lra |].
  exists ks, lin. split; [exact E |]. destruct (K 1%nat) as (-> & ->). cbn. split; lra.
Qed.
Example C128_ex_rows : exists P s, read_measurements 2 3 [None; Some (5, 1); Some (7, 2)] = Ok (P, s) /\ P 1%nat = Some 5 /\ s 2%nat = Some 2 /\ read_measurements 2 3 [Some (1, 1); Some (5, 1)] = Stop.
Proof. eexists _, _. repeat split. Qed.
Example C129_ex : exists v, wig_like exact NoQ [exreg; exreg] 2 (fun _ => 1) (fun _ => 1) = Ok v.
Proof.
  unfold wig_like. cbn [forallb has_cov has icov exreg andb negb]. rewrite wig_chisq_eq by (intros g [<- | [<- | []]]; apply exreg_sym). cbv zeta. unfold exact. rewrite !over_cons, !exreg_N.
  destruct (Req_EM_T _ _) as [Q |]; [exfalso; unfold over_regions in Q; cbn in Q; lra | eexists; reflexivity].
Qed.
Example C129_ex_read : exists Ps, wig_points 2 2 2 [true; true] (measurements_file [[5; 6]; [7; 8]]) true = Ok Ps /\ map (fun P => P 1%nat) Ps = [6; 8] /\ zbin (41 / 100) = Ok 2%nat.
Proof. eexists. split; [reflexivity |]. split; [reflexivity |]. apply C129_zbin. split; [lia |]. cbn. rewrite Rminus_diag_eq by lra. rewrite Rabs_R0. lra. Qed.
Print Assumptions C128_flat.
Print Assumptions C129_normal_refuted.
