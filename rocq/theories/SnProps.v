(** C120: likelihood of supernovae with free magnitude; C121: its data *)
From Coq Require Import FinFun Reals ZArith Bool List Lia Lra FunctionalExtensionality.
From Verif Require Import McmcModel BaoModel BaoSpec BaoProofs SnModel SnSpec SnProofs.
Import ListNotations.
Local Open Scope R_scope.
Local Opaque logZero.

(** C120: the likelihood is that of a normal distribution of the residuals, integrated over the common magnitude: half of the least chi^2 plus the
    half logarithm of E/2pi, where chi^2 is the least one plus E times the square of the distance from the best magnitude. *)
Theorem C120_one inv C n s pre alpha beta lum W : (1 <= n)%nat -> (forall i, (1 <= i <= n)%nat -> 0 < diag_var alpha beta pre s i) ->
  weights inv C n s pre alpha beta W -> positive n W ->
  exists v E m0, 0 < E /\ E = form n W (fun _ => 1) /\ least1 (chi2_one n W (residual alpha beta s lum)) v /\
    (forall m, chi2_one n W (residual alpha beta s lum) m = v + E * (m - m0) ^ 2) /\
    alpha_beta_like inv C n s pre None alpha beta lum = Ok (v / 2 + ln (E / (2 * PI)) / 2).
Proof.
  intros N P WT PW. destruct (like_forms inv C n s pre None alpha beta lum W N P WT) as (e & SY & L); [discriminate |]. cbn zeta in L.
  set (d := fun i => residual alpha beta s lum i - e) in *. pose proof (positive_one n W N PW) as PE. set (E := bf n W one one) in *. set (B := bf n W d one) in *.
  assert (Q : forall m, chi2_one n W (residual alpha beta s lum) m = (bf n W d d - B * B / E) + E * (m - (e + B / E)) ^ 2).
  { intro m. rewrite (chi2_one_square n W _ e m SY) by (fold E; lra). fold d E B. field. lra. }
  exists (bf n W d d - B * B / E), E, (e + B / E). split; [exact PE |]. split; [reflexivity |]. split; [split |].
  - exists (e + B / E). rewrite Q. ring.
  - intro m. rewrite Q. assert (0 <= (m - (e + B / E)) ^ 2) by apply pow2_ge_0. assert (0 <= E * (m - (e + B / E)) ^ 2) by (apply Rmult_le_pos; lra). lra.
  - split; [exact Q |]. rewrite L. cbn [has]. rewrite finish_one by exact PE. cbn [mA mB mE]. f_equal. unfold twopi. lra.
Qed.
(** C120: the same for two sets with a magnitude each: with the determinant E G of the two magnitudes. *)
Theorem C120_two inv C n s pre alpha beta lum W A1 A2 : (1 <= n)%nat -> (forall i, (1 <= i <= n)%nat -> 0 < diag_var alpha beta pre s i) ->
  weights inv C n s pre alpha beta W -> positive n W -> split_sets n A1 A2 ->
  exists v E G x1 x2 q, 0 < E /\ 0 < G /\ E = form n W A1 /\ E * G = form n W A1 * form n W A2 - (form n W (fun i => A1 i + A2 i) - form n W A1 - form n W A2) ^ 2 / 4 /\
    least2 (chi2_two n W A1 A2 (residual alpha beta s lum)) v /\
    (forall m1 m2, chi2_two n W A1 A2 (residual alpha beta s lum) m1 m2 = v + E * ((m1 - x1) + q * (m2 - x2)) ^ 2 + G * (m2 - x2) ^ 2) /\
    alpha_beta_like inv C n s pre (Some (A1, A2)) alpha beta lum = Ok (v / 2 + ln (E / (2 * PI)) / 2 + ln (G / (2 * PI)) / 2).
Proof.
  intros N P WT PW SP. destruct (like_forms inv C n s pre (Some (A1, A2)) alpha beta lum W N P WT) as (e & SY & L); [intros ? ? Q; injection Q as <- <-; exact SP |]. cbn zeta in L.
  set (d := fun i => residual alpha beta s lum i - e) in *. destruct (positive_two n W A1 A2 SY PW SP) as (PE & PG). set (E := bf n W A1 A1) in *. set (B := bf n W d A1) in *. set (CC := bf n W d A2) in *.
  set (D := bf n W A1 A2) in *. set (F := bf n W A2 A2) in *. set (A := bf n W d d) in *. set (G := F - D * D / E) in *.
  assert (S1 : forall i, (1 <= i <= n)%nat -> A1 i + A2 i = 1) by (intros i I; destruct SP as (SP & _); destruct (SP i I) as [(-> & ->) | (-> & ->)]; lra).
  set (v := A - CC * CC / G - B * B * F / (E * G) + 2 * B * CC * D / (E * G)).
  set (x2 := e + (CC - D * B / E) / G). set (x1 := e + B / E - D / E * (x2 - e)).
  assert (Q : forall m1 m2, chi2_two n W A1 A2 (residual alpha beta s lum) m1 m2 = v + E * ((m1 - x1) + D / E * (m2 - x2)) ^ 2 + G * (m2 - x2) ^ 2).
  { intros m1 m2. rewrite (chi2_two_square n W A1 A2 _ e m1 m2 SY S1); [| fold E; lra | fold E D F G; lra]. fold d E B CC D F A G. fold v. f_equal; [f_equal; f_equal |].
    - unfold x1. ring.
    - f_equal. unfold x2. ring. }
  exists v, E, G, x1, x2, (D / E). split; [exact PE |]. split; [exact PG |]. split; [reflexivity |]. split; [| split; [split |]].
  - rewrite <- !bf_form. fold E F. replace (bf n W (fun i => A1 i + A2 i) (fun i => A1 i + A2 i)) with (E + 2 * D + F); [unfold G; field; lra |].
    rewrite (bf_ext n W W (fun i => A1 i + A2 i) (fun i => 1 * A1 i + 1 * A2 i) (fun i => A1 i + A2 i) (fun i => 1 * A1 i + 1 * A2 i)); try (intros; ring); auto. rewrite bf_square2 by exact SY. fold E D F. ring.
  - exists x1, x2. rewrite Q. ring.
  - intros m1 m2. rewrite Q. assert (0 <= E * (m1 - x1 + D / E * (m2 - x2)) ^ 2) by (apply Rmult_le_pos; [lra | apply pow2_ge_0]). assert (0 <= G * (m2 - x2) ^ 2) by (apply Rmult_le_pos; [lra | apply pow2_ge_0]). lra.
  - split; [exact Q |]. rewrite L. cbn [has]. rewrite finish_two; cbn [mA mB mC mD mE mF]; [| exact PE | exact PG]. fold E D F G. f_equal. unfold twopi, v. lra.
Qed.
(** C120: a change of all magnitudes, or of the unit of distance (the Hubble constant), does not change the likelihood. *)
Lemma estimated_shift n s lum w c : sum1 n w <> 0 -> estimated n (brighter (fun _ => c) s) lum w = estimated n s lum w + c.
Proof.
  intro N. unfold estimated. assert (E : sum1 n (fun i => (mag (brighter (fun _ => c) s i) - lum i) * w i) = sum1 n (fun i => (mag (s i) - lum i) * w i) + c * sum1 n w).
  { rewrite !sum1_total, <- total_scale, <- total_plus. apply total_ext. intros. cbn [brighter mag]. ring. }
  rewrite E. field. exact N.
Qed.
Theorem C120_shift inv C n s pre two alpha beta lum c : alpha_beta_like inv C n (brighter (fun _ => c) s) pre two alpha beta lum = alpha_beta_like inv C n s pre two alpha beta lum.
Proof.
  unfold alpha_beta_like. change (diag_var alpha beta pre (brighter (fun _ => c) s)) with (diag_var alpha beta pre s). change (cov_matrix C alpha beta pre (brighter (fun _ => c) s)) with (cov_matrix C alpha beta pre s).
  destruct (existsb _ (seq 1 n)); [reflexivity |]. cbn [orb]. destruct (Req_EM_T _ 0) as [| NZ]; [reflexivity |].
  replace (diffmag alpha beta (brighter (fun _ => c) s) lum (estimated n (brighter (fun _ => c) s) lum (fun i => 1 / diag_var alpha beta pre s i))) with (diffmag alpha beta s lum (estimated n s lum (fun i => 1 / diag_var alpha beta pre s i))); [reflexivity |].
  extensionality i. rewrite estimated_shift by exact NZ. unfold diffmag. cbn [brighter mag stretch colour]. ring.
Qed.
Lemma sum1_ext n f g : (forall i, (1 <= i <= n)%nat -> f i = g i) -> sum1 n f = sum1 n g.
Proof. intro E. rewrite !sum1_total. now apply total_ext. Qed.
Lemma like_ext inv C n s pre two alpha beta lum lum' : (forall i, (1 <= i <= n)%nat -> lum i = lum' i) -> alpha_beta_like inv C n s pre two alpha beta lum = alpha_beta_like inv C n s pre two alpha beta lum'.
Proof.
  intro EL. unfold alpha_beta_like. destruct (existsb _ (seq 1 n)); [reflexivity |]. cbn [orb]. destruct (Req_EM_T _ 0); [reflexivity |].
  assert (EE : estimated n s lum (fun i => 1 / diag_var alpha beta pre s i) = estimated n s lum' (fun i => 1 / diag_var alpha beta pre s i)).
  { unfold estimated. f_equal. apply sum1_ext. intros i I. now rewrite EL. }
  rewrite EE. set (e := estimated n s lum' _).
  assert (ED : forall i, (1 <= i <= n)%nat -> diffmag alpha beta s lum e i = diffmag alpha beta s lum' e i) by (intros i I; unfold diffmag; now rewrite EL).
  destruct (diag_errors C).
  - f_equal. unfold margs_diag. destruct two as [[A1 A2] |]; f_equal; apply sum1_ext; intros i I; now rewrite ED.
  - destruct (inv n _) as [U |]; [| reflexivity]. f_equal.
    assert (EM : forall i, MulVecSymm n U (diffmag alpha beta s lum e) i = MulVecSymm n U (diffmag alpha beta s lum' e) i) by (intro i; unfold MulVecSymm; apply sum1_ext; intros j J; now rewrite ED).
    unfold margs_full. destruct two as [[A1 A2] |]; f_equal; unfold dot; apply sum1_ext; intros i I; rewrite ?EM, ?ED by assumption; reflexivity.
Qed.
Theorem C120_unit inv C n s pre two alpha beta DA c : 0 < c -> (forall i, (1 <= i <= n)%nat -> 0 < (1 + zhel (s i)) * (1 + zcmb (s i)) * DA (zcmb (s i))) ->
  alpha_beta_like inv C n s pre two alpha beta (lumdists (fun z => c * DA z) s []) = alpha_beta_like inv C n s pre two alpha beta (lumdists DA s []).
Proof.
  intros PC PD. set (k := 5 * log10 c).
  rewrite (like_ext inv C n s pre two alpha beta _ (fun i => lumdists DA s [] i + k)).
  - rewrite <- (C120_shift inv C n s pre two alpha beta (lumdists DA s []) (- k)). unfold alpha_beta_like.
    change (diag_var alpha beta pre (brighter (fun _ => - k) s)) with (diag_var alpha beta pre s). change (cov_matrix C alpha beta pre (brighter (fun _ => - k) s)) with (cov_matrix C alpha beta pre s).
    set (w := fun i => 1 / diag_var alpha beta pre s i).
    assert (EE : estimated n (brighter (fun _ => - k) s) (lumdists DA s []) w = estimated n s (fun i => lumdists DA s [] i + k) w) by (unfold estimated; f_equal; apply sum1_ext; intros; cbn [brighter mag]; ring).
    rewrite EE. replace (diffmag alpha beta (brighter (fun _ => - k) s) (lumdists DA s []) (estimated n s (fun i => lumdists DA s [] i + k) w)) with (diffmag alpha beta s (fun i => lumdists DA s [] i + k) (estimated n s (fun i => lumdists DA s [] i + k) w)); [reflexivity |].
    extensionality i. unfold diffmag. cbn [brighter mag stretch colour]. ring.
  - intros i I. unfold lumdists, k, log10. cbn [fold_left]. replace ((1 + zhel (s i)) * (1 + zcmb (s i)) * (c * DA (zcmb (s i)))) with ((1 + zhel (s i)) * (1 + zcmb (s i)) * DA (zcmb (s i)) * c) by ring.
    rewrite ln_mult; [unfold Rdiv; ring | now apply PD | exact PC].
Qed.
(** C120: with two sets, a change of all magnitudes of one set does not change the likelihood either. *)
Theorem C120_shift_two inv C n s pre alpha beta lum W A1 A2 c : (1 <= n)%nat -> (forall i, (1 <= i <= n)%nat -> 0 < diag_var alpha beta pre s i) ->
  weights inv C n s pre alpha beta W -> positive n W -> split_sets n A1 A2 ->
  alpha_beta_like inv C n (brighter (fun i => c * A2 i) s) pre (Some (A1, A2)) alpha beta lum = alpha_beta_like inv C n s pre (Some (A1, A2)) alpha beta lum.
Proof.
  intros N P WT PW SP. destruct (C120_two inv C n s pre alpha beta lum W A1 A2 N P WT PW SP) as (v & E & G & x1 & x2 & q & PE & PG & EE & EG & (L1 & L2) & Q & ->).
  destruct (C120_two inv C n (brighter (fun i => c * A2 i) s) pre alpha beta lum W A1 A2 N P WT PW SP) as (v' & E' & G' & x1' & x2' & q' & PE' & PG' & EE' & EG' & (L1' & L2') & Q' & ->).
  assert (E' = E) as -> by congruence. assert (G' = G) as -> by (apply (Rmult_eq_reg_l E); [congruence | lra]).
  assert (SH : forall m1 m2, chi2_two n W A1 A2 (residual alpha beta (brighter (fun i => c * A2 i) s) lum) m1 m2 = chi2_two n W A1 A2 (residual alpha beta s lum) m1 (m2 - c)).
  { intros m1 m2. unfold chi2_two. apply form_ext; [reflexivity |]. intros i _. unfold residual. cbn [brighter mag stretch colour]. ring. }
  assert (v' = v) as ->; [| reflexivity]. apply Rle_antisym.
  - destruct L1 as (m1 & m2 & <-). specialize (L2' m1 (m2 + c)). rewrite SH in L2'. now replace (m2 + c - c) with m2 in L2' by ring.
  - destruct L1' as (m1 & m2 & <-). rewrite SH. apply L2.
Qed.
(** C120: where the inverse covariance does not exist the point is excluded. *)
Theorem C120_failed inv C n s pre two alpha beta lum : (1 <= n)%nat -> (forall i, (1 <= i <= n)%nat -> 0 < diag_var alpha beta pre s i) ->
  diag_errors C = false -> inv n (cov_matrix C alpha beta pre s) = None -> alpha_beta_like inv C n s pre two alpha beta lum = Ok logZero.
Proof.
  intros N P D NI. unfold alpha_beta_like. rewrite D, NI. match goal with |- (if ?b then _ else _) = _ => destruct b eqn:EB; [exfalso | reflexivity] end. apply orb_true_iff in EB as [EB | EB].
  - apply existsb_exists in EB as (i & I & X). apply in_seq in I. specialize (P i ltac:(lia)). destruct (Req_EM_T (diag_var alpha beta pre s i) 0); [lra | discriminate].
  - set (w := fun i => 1 / diag_var alpha beta pre s i) in *. destruct (Req_EM_T (sum1 n w) 0) as [Z |]; [| discriminate].
    assert (PW : forall i, (1 <= i <= n)%nat -> 0 < w i) by (intros i I; unfold w; apply Rmult_lt_0_compat; [lra | apply Rinv_0_lt_compat, P, I]).
    pose proof (positive_one n (diagm w) N (positive_diag n w PW)) as Q. rewrite bf_diag in Q. rewrite sum1_total in Z. erewrite total_ext in Q; [rewrite Z in Q; lra |]. intros. unfold one. ring.
Qed.
(** C120: the sets are those on the two sides of the cut; if all supernovae are below it there is one magnitude. *)
Theorem C120_sets_partial cut n s : (exists i, (1 <= i <= n)%nat /\ thirdvar (s i) <= cut) ->
  match prep_two true cut n s with
  | Some (A1, A2) => split_sets n A1 A2 /\ forall i, (A1 i = 1 <-> thirdvar (s i) <= cut) /\ (A2 i = 1 <-> cut < thirdvar (s i))
  | None => forall i, (1 <= i <= n)%nat -> thirdvar (s i) <= cut
  end.
Proof.
  intros (i1 & I1 & L1). unfold prep_two. destruct (existsb _ (seq 1 n)) eqn:EX.
  - apply existsb_exists in EX as (i2 & I2 & L2). apply in_seq in I2. split; [split; [| split] |].
    + intros i _. destruct (Rle_dec (thirdvar (s i)) cut); auto.
    + exists i1. split; [exact I1 |]. destruct (Rle_dec (thirdvar (s i1)) cut); [reflexivity | contradiction].
    + exists i2. split; [lia |]. destruct (Rle_dec (thirdvar (s i2)) cut); [discriminate | reflexivity].
    + intro i. destruct (Rle_dec (thirdvar (s i)) cut) as [L | L]; repeat split; intro; try lra; auto.
  - intros i I. destruct (Rle_dec (thirdvar (s i)) cut) as [L | L]; [exact L |]. exfalso. assert (existsb (fun i => negb (if Rle_dec (thirdvar (s i)) cut then true else false)) (seq 1 n) = true); [| congruence].
    apply existsb_exists. exists i. split; [apply in_seq; lia |]. destruct (Rle_dec (thirdvar (s i)) cut); [contradiction | reflexivity].
Qed.
(** FINDING: has_A1 is true from the start, so if all supernovae are above the cut the first set is empty and the likelihood divides by 0. *)
Theorem C120_sets_refuted cut n s inv C pre alpha beta lum : (1 <= n)%nat -> (forall i, (1 <= i <= n)%nat -> cut < thirdvar (s i)) -> (forall i, (1 <= i <= n)%nat -> 0 < diag_var alpha beta pre s i) -> diag_errors C = true ->
  has (prep_two true cut n s) = true /\ alpha_beta_like inv C n s pre (prep_two true cut n s) alpha beta lum = Undef.
Proof.
  intros N L P D. assert (H2 : prep_two true cut n s <> None).
  { unfold prep_two. destruct (existsb _ (seq 1 n)) eqn:EX; [discriminate |]. exfalso. assert (X : existsb (fun i => negb (if Rle_dec (thirdvar (s i)) cut then true else false)) (seq 1 n) = true); [| congruence].
    apply existsb_exists. exists 1%nat. split; [apply in_seq; lia |]. specialize (L 1%nat ltac:(lia)). destruct (Rle_dec (thirdvar (s 1%nat)) cut); [lra | reflexivity]. }
  split; [destruct (prep_two true cut n s); [reflexivity | congruence] |]. unfold alpha_beta_like. rewrite D. match goal with |- (if ?b then _ else _) = _ => destruct b eqn:EB; [reflexivity |] end.
  unfold prep_two in *. destruct (existsb (fun i => negb (if Rle_dec (thirdvar (s i)) cut then true else false)) (seq 1 n)); [| congruence]. unfold finish, margs_diag, has. cbn [mD mE].
  match goal with |- context [rdiv _ (sum1 n ?f)] => assert (Z : sum1 n f = 0) end.
  { rewrite sum1_total. apply total_0. intros i I. specialize (L i I). destruct (Rle_dec (thirdvar (s i)) cut); [lra | ring]. }
  rewrite Z. unfold rdiv. destruct (Req_EM_T 0 0); [reflexivity | lra].
Qed.
(** C120: marginalized over alpha and beta, the result is minus the logarithm of the sum of the likelihoods at the points of the grid that are not excluded, times the area of a cell. *)
Theorem C120_marge wa wb l : 0 < wa -> 0 < wb -> (exists x, In x l /\ x <> logZero) ->
  exists v, marge wa wb l = Ok v /\ exp (- v) = fold_right (fun y t => exp (- y) + t) 0 (used l) * wa * wb.
Proof.
  intros A B (x & I & NZ). assert (IU : In x (used l)) by (apply filter_In; split; [exact I |]; destruct (Req_EM_T x logZero); [contradiction | reflexivity]).
  unfold marge. destruct (used l) as [| x0 u]; [destruct IU |]. set (best := fold_left Rmin u x0). set (us := x0 :: u).
  assert (S : forall us, fold_right (fun y t => exp (- y + best) + t) 0 us = exp best * fold_right (fun y t => exp (- y) + t) 0 us).
  { induction us0 as [| y us0 IH]; cbn [fold_right]; [ring |]. rewrite IH, exp_plus. ring. }
  assert (P : 0 < fold_right (fun y t => exp (- y) + t) 0 us).
  { unfold us. clear. cbn [fold_right]. assert (0 <= fold_right (fun y t => exp (- y) + t) 0 u); [| pose proof (exp_pos (- x0)); lra].
    induction u as [| y u IH]; cbn [fold_right]; [lra |]. pose proof (exp_pos (- y)). lra. }
  rewrite S. assert (P' : 0 < exp best * fold_right (fun y t => exp (- y) + t) 0 us * wa * wb) by (pose proof (exp_pos best); repeat apply Rmult_lt_0_compat; assumption).
  rewrite rlog_pos by exact P'. cbn [bind]. eexists. split; [reflexivity |]. replace (- (best - ln (exp best * fold_right (fun y t => exp (- y) + t) 0 us * wa * wb))) with (ln (exp best * fold_right (fun y t => exp (- y) + t) 0 us * wa * wb) + - best) by ring.
  rewrite exp_plus, exp_ln by exact P'. rewrite exp_Ropp. pose proof (exp_pos best). field. lra.
Qed.
Theorem C120_used l x : In x (used l) <-> In x l /\ x <> logZero.
Proof. unfold used. rewrite filter_In. destruct (Req_EM_T x logZero); split; intros (A & B); split; auto; try discriminate; contradiction. Qed. 
Lemma NoDup_list_prod {A B} (l : list A) (l' : list B) : NoDup l -> NoDup l' -> NoDup (list_prod l l').
Proof.
  intros N N'. induction N as [| x l NI N IH]; cbn [list_prod]; [constructor |].
  assert (AP : forall (u v : list (A * B)), NoDup u -> NoDup v -> (forall x, In x u -> ~ In x v) -> NoDup (u ++ v)).
  { induction u as [| y u IHu]; intros v U V D; [exact V |]. cbn [app]. inversion U; subst. constructor.
    - rewrite in_app_iff. intros [X | X]; [contradiction | apply (D y); [now left | exact X]].
    - apply IHu; auto. intros z Z. apply D. now right. }
  apply AP; [apply FinFun.Injective_map_NoDup; [intros a b E; congruence | exact N'] | exact IH |].
  intros [a b] I J. apply in_map_iff in I as (c & E & _). injection E as <- <-. apply in_prod_iff in J as (J & _). contradiction.
Qed.
Lemma filter_le {A} (f : A -> bool) l : (length (filter f l) <= length l)%nat.
Proof. induction l as [| x l IH]; cbn [filter length]; [lia |]. destruct (f x); cbn [length]; lia. Qed.
(** C120: the grid is the points with whole steps within the circle, each once, and there is place for them. *)
Theorem C120_grid n : (forall a b, In (a, b) (disc n) <-> (a * a + b * b <= Z.of_nat n * Z.of_nat n)%Z) /\ NoDup (disc n) /\ (length (disc n) <= (2 * n + 1) * (2 * n + 1))%nat.
Proof.
  assert (ST : forall a, In a (steps n) <-> (- Z.of_nat n <= a <= Z.of_nat n)%Z).
  { intro a. unfold steps. rewrite in_map_iff. split.
    - intros (k & <- & I). apply in_seq in I. lia.
    - intro A. exists (Z.to_nat (a + Z.of_nat n)). split; [lia |]. apply in_seq. lia. }
  assert (ND : NoDup (steps n)).
  { unfold steps. apply FinFun.Injective_map_NoDup; [intros x y E; lia | apply seq_NoDup]. }
  split; [| split].
  - intros a b. unfold disc. rewrite filter_In, in_prod_iff, !ST. cbn [fst snd]. rewrite Z.leb_le. split; [tauto |]. intro L. split; [| exact L]. split; nia.
  - unfold disc. apply NoDup_filter. apply NoDup_list_prod; exact ND.
  - unfold disc. etransitivity; [apply filter_le |]. rewrite prod_length. unfold steps. rewrite map_length, seq_length. lia.
Qed.
(** two supernovae with correlated magnitudes *)
Definition sn1 (m : R) : sn := mkSn 0 1 m 1 0 0 0 0 0 0 0 0 false 0.
Definition s2 (i : nat) : sn := sn1 (INR i).
Example C120_ex : positive 2 (fun i j => if Nat.eqb i j then 1 / diag_var 0 0 (fun _ => 1) s2 i else 0) /\
  alpha_beta_like (fun _ _ => None) (mkCovs None None None None None None) 2 s2 (fun _ => 1) None 0 0 (fun _ => 0) = Ok (1 / 4 + ln (2 / (2 * PI)) / 2).
Proof.
  split.
  - apply (positive_diag 2 (fun i => 1 / diag_var 0 0 (fun _ => 1) s2 i)). intros i _. unfold diag_var, s2, sn1. cbn [stretch_var colour_var cms cmc csc]. lra.
  - unfold alpha_beta_like. cbn [seq existsb]. unfold diag_var, s2, sn1. cbn [stretch_var colour_var cms cmc csc]. destruct (Req_EM_T _ 0); [lra |]. cbn [orb].
    destruct (Req_EM_T (sum1 2 _) 0) as [Z |]; [unfold sum1 in Z; cbn [seq fold_left] in Z; lra |]. cbn [diag_errors has c_mag c_stretch c_colour c_ms c_mc c_sc orb negb].
    rewrite finish_one; unfold margs_diag, estimated, diffmag, sum1; cbn [seq fold_left mA mB mE mag stretch colour INR]; [| lra]. f_equal.
    unfold twopi. match goal with |- (?x + ln (?y / _)) / 2 = _ => replace y with 2 by lra; replace x with (1 / 2) by field end. lra.
Qed.
(** C120: the points of the grid, alpha and beta each in steps of their own about the centre, all different. *)
Theorem C120_points n wa wb : 0 < wa -> 0 < wb -> (forall x y, In (x, y) (map (grid_point wa wb) (disc n)) <-> exists a b, (a * a + b * b <= Z.of_nat n * Z.of_nat n)%Z /\ x = alpha_center + IZR a * wa /\ y = beta_center + IZR b * wb) /\
  NoDup (map (grid_point wa wb) (disc n)) /\ In (alpha_center, beta_center) (map (grid_point wa wb) (disc n)).
Proof.
  intros A B. destruct (C120_grid n) as (G & D & _).
  assert (P : forall x y, In (x, y) (map (grid_point wa wb) (disc n)) <-> exists a b, (a * a + b * b <= Z.of_nat n * Z.of_nat n)%Z /\ x = alpha_center + IZR a * wa /\ y = beta_center + IZR b * wb).
  { intros x y. rewrite in_map_iff. split.
    - intros ((a & b) & E & I). exists a, b. apply G in I. unfold grid_point in E. cbn [fst snd] in E. injection E as <- <-. repeat split. exact I.
    - intros (a & b & I & -> & ->). exists (a, b). split; [reflexivity | now apply G]. }
  split; [exact P |]. split.
  - revert D. generalize (disc n). intros l D. induction D as [| p l N D IH]; [constructor |]. cbn [map]. constructor; [| exact IH]. intro I. apply in_map_iff in I. destruct I as (q & E & I). apply N. unfold grid_point in E. injection E as E1 E2. replace p with q; [exact I |].
    destruct p as (pa & pb), q as (qa & qb). cbn [fst snd] in E1, E2. f_equal; apply eq_IZR; [apply Rmult_eq_reg_r with wa | apply Rmult_eq_reg_r with wb]; lra.
  - apply P. exists 0%Z, 0%Z. split; [nia |]. split; ring.
Qed.
Example C120_ex2 : disc 1 = [(-1, 0); (0, -1); (0, 0); (0, 1); (1, 0)]%Z. Proof. reflexivity. Qed.

(** C121: the covariance matrix is that of the magnitudes corrected for stretch and colour, if the files for two different quantities are symmetric matrices;
    with matrices of the errors of each supernova in the diagonal. *)
Theorem C121_cov_partial K alpha beta pre s i j : cov_symmetric K -> K Qmag Qstretch i j = K Qmag Qstretch j i -> K Qmag Qcolour i j = K Qmag Qcolour j i -> K Qstretch Qcolour i j = K Qstretch Qcolour j i ->
  cov_matrix (mkCovs (Some (K Qmag Qmag)) (Some (K Qstretch Qstretch)) (Some (K Qcolour Qcolour)) (Some (K Qmag Qstretch)) (Some (K Qmag Qcolour)) (Some (K Qstretch Qcolour))) alpha beta pre s i j =
  cov_combination K alpha beta i j + (if Nat.eqb i j then diag_var alpha beta pre s i else 0).
Proof.
  intros S E1 E2 E3. unfold cov_matrix, cov_combination, over, weight, add. cbn [c_mag c_stretch c_colour c_ms c_mc c_sc].
  rewrite (S Qstretch Qmag i j), (S Qcolour Qmag i j), (S Qcolour Qstretch i j), <- E1, <- E2, <- E3. ring.
Qed.
(** C121: a missing file counts as 0. *)
Theorem C121_missing alpha beta pre s i j : cov_matrix (mkCovs None None None None None None) alpha beta pre s i j = (if Nat.eqb i j then diag_var alpha beta pre s i else 0).
Proof. unfold cov_matrix, add. cbn. ring. Qed.
(** FINDING: for a covariance of magnitude and stretch that is not a symmetric matrix (the magnitude of one supernova and the stretch of another) the value of one order is used twice. *)
Theorem C121_cov_refuted : exists K, cov_symmetric K /\ (forall a i j, K a a i j = if Nat.eqb i j then 1 else 0) /\
  cov_matrix (mkCovs (Some (K Qmag Qmag)) (Some (K Qstretch Qstretch)) (Some (K Qcolour Qcolour)) (Some (K Qmag Qstretch)) (Some (K Qmag Qcolour)) (Some (K Qstretch Qcolour))) 1 1 (fun _ => 0) (fun _ => mkSn 0 1 0 0 0 0 0 0 0 0 0 0 false 0) 1 2 = 1 /\
  cov_combination K 1 1 1 2 = 1 / 2.
Proof.
  exists (fun a b i j => match a, b with
    | Qmag, Qstretch => if Nat.eqb i 1 && Nat.eqb j 2 then 1 / 2 else 0
    | Qstretch, Qmag => if Nat.eqb j 1 && Nat.eqb i 2 then 1 / 2 else 0
    | Qmag, Qmag | Qstretch, Qstretch | Qcolour, Qcolour => if Nat.eqb i j then 1 else 0
    | _, _ => 0 end).
  split; [| split; [| split]].
  - intros [] [] i j; try reflexivity; rewrite (Nat.eqb_sym j i); reflexivity.
  - intros [] i j; reflexivity.
  - unfold cov_matrix, add. cbn. lra.
  - unfold cov_combination, over, weight. cbn. lra.
Qed.
(** C121: for one supernova the variance is that of the corrected magnitude. *)
Theorem C121_variance K alpha beta pre s i : cov_symmetric K -> pre i = K Qmag Qmag i i -> stretch_var (s i) = K Qstretch Qstretch i i -> colour_var (s i) = K Qcolour Qcolour i i ->
  cms (s i) = K Qmag Qstretch i i -> cmc (s i) = K Qmag Qcolour i i -> csc (s i) = K Qstretch Qcolour i i -> diag_var alpha beta pre s i = cov_combination K alpha beta i i.
Proof.
  intros S E1 E2 E3 E4 E5 E6. unfold diag_var, cov_combination, over, weight. rewrite E1, E2, E3, E4, E5, E6, (S Qstretch Qmag i i), (S Qcolour Qmag i i), (S Qcolour Qstretch i i). ring.
Qed.
(** C121: the variance of the magnitude has the intrinsic dispersion of its set, and the peculiar velocity through the slope of the distance modulus of an empty universe; not for supernovae with known distance. *)
Definition mu_empty (z : R) : R := 5 * log10 (z * (1 + z / 2)).
Theorem C121_pre disp pecz s slope : (0 <= dataset s < 10)%Z -> 0 < zcmb s -> derivable_pt_lim mu_empty (zcmb s) slope ->
  pre_var disp pecz s = Ok (mag_var s + disp (S (Z.to_nat (dataset s))) ^ 2 + (if absd s then 0 else (slope * pecz) ^ 2)).
Proof.
  intros D Z SL. unfold pre_var. destruct (Z.leb_spec 0 (dataset s)); [| lia]. destruct (Z.ltb_spec (dataset s) 10); [| lia]. cbn [andb].
  replace (Z.to_nat (dataset s + 1)) with (S (Z.to_nat (dataset s))) by lia. f_equal. destruct (absd s); [ring |].
  assert (L10 : ln10 <> 0). { unfold ln10. assert (0 < ln 10); [rewrite <- ln_1; apply ln_increasing; lra | lra]. }
  assert (PZ : 0 < zcmb s * (1 + zcmb s / 2)) by (apply Rmult_lt_0_compat; lra).
  assert (ES : slope = 5 * (/ (zcmb s * (1 + zcmb s / 2)) * (1 + zcmb s)) / ln10).
  { eapply uniqueness_limite; [exact SL |].
    assert (H1 : derivable_pt_lim (fun z => z * (1 + z / 2)) (zcmb s) (1 * (1 + zcmb s / 2) + zcmb s * (0 + 1 * / 2))).
    { apply (derivable_pt_lim_mult (fun z => z) (fun z => 1 + z / 2)); [apply derivable_pt_lim_id |]. apply (derivable_pt_lim_plus (fun _ => 1) (fun z => z / 2)); [apply derivable_pt_lim_const |].
      assert (H1 := derivable_pt_lim_scal (fun z => z) (/ 2) (zcmb s) 1 (derivable_pt_lim_id _)). unfold mult_real_fct in H1. rewrite Rmult_1_l. rewrite Rmult_1_r in H1.
      intros eps PE. destruct (H1 eps PE) as (del & H2). exists del. intros h HN HL. specialize (H2 h HN HL). replace ((zcmb s + h) / 2 - zcmb s / 2) with (/ 2 * (zcmb s + h) - / 2 * zcmb s) by field. exact H2. }
    assert (H2 := derivable_pt_lim_comp _ ln _ _ _ H1 (derivable_pt_lim_ln _ PZ)). unfold comp in H2.
    assert (H3 := derivable_pt_lim_scal _ (5 / ln10) _ _ H2). unfold mult_real_fct in H3.
    replace (5 / ln10 * (/ (zcmb s * (1 + zcmb s / 2)) * (1 * (1 + zcmb s / 2) + zcmb s * (0 + 1 * / 2)))) with (5 * (/ (zcmb s * (1 + zcmb s / 2)) * (1 + zcmb s)) / ln10) in H3 by (field; repeat split; lra).
    intros eps PE. destruct (H3 eps PE) as (del & H4). exists del. intros h HN HL. specialize (H4 h HN HL). unfold mu_empty, log10.
    replace (5 * (ln ((zcmb s + h) * (1 + (zcmb s + h) / 2)) / ln10) - 5 * (ln (zcmb s * (1 + zcmb s / 2)) / ln10)) with (5 / ln10 * ln ((zcmb s + h) * (1 + (zcmb s + h) / 2)) - 5 / ln10 * ln (zcmb s * (1 + zcmb s / 2))) by (field; exact L10). exact H4. }
  rewrite ES. unfold zfacsq. field. repeat split; lra.
Qed.
(** FINDING: a number of the data set that is too large is reported, but then the table of dispersions is read outside of its bounds. *)
Theorem C121_dataset_refuted disp pecz s : (dataset s < 0 \/ 10 <= dataset s)%Z -> pre_var disp pecz s = Undef.
Proof. intro D. unfold pre_var. destruct (Z.leb_spec 0 (dataset s)), (Z.ltb_spec (dataset s) 10); try reflexivity. lia. Qed.
(** C121: absolute distances go to the first supernova of the name, and a name that is not there stops. *)
Theorem C121_absdist names ad : match match_absdist names ad with
  | Some l => map snd l = map snd ad /\ Forall2 (fun j p => exists k, fst j = S k /\ nth_error names k = Some (fst p) /\ ~ In (fst p) (firstn k names)) l ad
  | None => exists p, In p ad /\ ~ In (fst p) names
  end.
Proof.
  assert (IX : forall names x m, match index_of names x m with Some j => exists k, j = (m + k)%nat /\ nth_error names k = Some x /\ ~ In x (firstn k names) | None => ~ In x names end).
  { induction names0 as [| y l IH]; intros x m; cbn [index_of]; [intros [] |]. destruct (Z.eqb_spec y x) as [-> | N].
    - exists O. split; [lia |]. split; [reflexivity | intros []].
    - specialize (IH x (S m)). destruct (index_of l x (S m)) as [j |].
      + destruct IH as (k & -> & A & B). exists (S k). split; [lia |]. split; [exact A |]. cbn [firstn]. intros [C | C]; [congruence | contradiction].
      + intros [C | C]; [congruence | contradiction]. }
  induction ad as [| [x d] ad IH]; cbn [match_absdist]; [split; [reflexivity | constructor] |]. specialize (IX names x 1%nat). destruct (index_of names x 1) as [j |].
  - destruct IX as (k & -> & A & B). destruct (match_absdist names ad) as [l |].
    + destruct IH as (E & F). split; [cbn; now rewrite E |]. constructor; [exists k; auto | exact F].
    + destruct IH as (p & I & NI). exists p. split; [now right | exact NI].
  - exists (x, d). split; [now left | exact IX].
Qed.
(** C121: luminosity distances: of the supernova in the frame of the CMB, as seen with its redshift in ours. *)
Theorem C121_distance DA s i : 0 < 1 + zhel (s i) -> 0 < (1 + zcmb (s i)) * DA (zcmb (s i)) -> lumdists DA s [] i = 5 * log10 (1 + zhel (s i)) + 5 * log10 ((1 + zcmb (s i)) * DA (zcmb (s i))).
Proof. intros A B. unfold lumdists, log10. cbn [fold_left]. rewrite Rmult_assoc, ln_mult by assumption. unfold Rdiv. ring. Qed.
Theorem C121_known DA s ad i d : (forall d', In (i, d') ad -> d' = d) -> In (i, d) ad -> lumdists DA s ad i = 5 * log10 d.
Proof.
  intros U I. unfold lumdists. set (x := 5 * log10 _). clearbody x. enough (G : forall x, (In (i, d) ad \/ x = 5 * log10 d) -> fold_left (fun x p => if Nat.eqb (fst p) i then 5 * log10 (snd p) else x) ad x = 5 * log10 d) by auto.
  clear I x. induction ad as [| [j d'] ad IH]; intros x Q; cbn [fold_left fst snd]; [destruct Q as [[] | Q]; exact Q |]. apply IH; [intros d'' I; apply U; now right |]. destruct (Nat.eqb_spec j i) as [-> | N].
  - right. f_equal. f_equal. apply U. now left.
  - destruct Q as [[Q | Q] | Q]; [congruence | now left | now right].
Qed.

(** C121: a file of at most 5000 lines, with comments and with a name and 15 numbers in each other line, is read as it is, whatever follows on the lines. *)
Theorem C121_read file l : tells 15 true file l -> (length file <= Z.to_nat 5000)%nat -> read_jla_lc_data file = Some (map (fun xs => (xs, F16)) l).
Proof.
  intros T L. unfold read_jla_lc_data. rewrite Nat.min_l by exact L. clear L.
  assert (G : forall rest l, tells 15 true rest l -> forall pre first third, (first = false -> third = true) -> read_loop (pre ++ rest) (length rest) (length pre) first third = Some (map (fun xs => (xs, F16)) l)).
  { clear T. intros rest l0 T. induction T as [| f l0 T IH | xs more f l0 LX _ T IH]; intros pre first third FT; [reflexivity | |]; cbn [length read_loop]; unfold turn; rewrite nth_error_app2, Nat.sub_diag by lia; cbn [nth_error].
    - specialize (IH (pre ++ [Comment]) first third FT). rewrite <- app_assoc, app_length, Nat.add_1_r in IH. exact IH.
    - unfold sn_line at 1. rewrite (READ_full pre xs more f 15) by lia. rewrite <- LX, firstn_all. assert (negb first && negb third = false) as -> by (destruct first; [reflexivity |]; rewrite FT; reflexivity).
      specialize (IH (pre ++ [sn_line xs more]) false true (fun _ => eq_refl)). rewrite <- app_assoc, app_length, Nat.add_1_r in IH. cbn [app] in IH. rewrite IH. reflexivity. }
  apply (G file l T []). discriminate.
Qed.
(** C121: and so is one with a name and 14 numbers on each line, without the number of the data set. *)
Theorem C121_read_short file l : tells 14 false file l -> (length file <= Z.to_nat 5000)%nat -> read_jla_lc_data file = Some (map (fun xs => (xs, F15)) l).
Proof.
  intros T L. unfold read_jla_lc_data. rewrite Nat.min_l by exact L. clear L.
  assert (G : forall rest l, tells 14 false rest l -> forall pre first third, (first = false -> third = true) -> read_loop (pre ++ rest) (length rest) (length pre) first third = Some (map (fun xs => (xs, F15)) l)).
  { clear T. intros rest l0 T. induction T as [| f l0 T IH | xs more f l0 LX MO T IH]; intros pre first third FT; [reflexivity | |]; cbn [length read_loop]; unfold turn; rewrite nth_error_app2, Nat.sub_diag by lia; cbn [nth_error].
    - specialize (IH (pre ++ [Comment]) first third FT). rewrite <- app_assoc, app_length, Nat.add_1_r in IH. exact IH.
    - rewrite (MO eq_refl) in *. unfold sn_line at 1. rewrite (READ_short pre xs f 15); [| lia | apply (tells_text _ _ _ _ T)].
      assert (B : back2 (S (S (length pre))) = length pre) by (unfold back2; lia).
      assert (R15 : READ (pre ++ sn_line xs [] :: f) (length pre) 15 = Good xs (S (length pre))) by (rewrite (READ_full pre xs [] f 14) by lia; now rewrite <- LX, firstn_all).
      assert (negb first && negb third = false) as FT' by (destruct first; [reflexivity |]; rewrite FT; reflexivity).
      specialize (IH (pre ++ [sn_line xs []]) false true (fun _ => eq_refl)). rewrite <- app_assoc, app_length, Nat.add_1_r in IH. cbn [app] in IH.
      destruct f as [| r f]; rewrite B, R15, FT', IH; reflexivity. }
  apply (G file l T []). discriminate.
Qed.
(** FINDING: for a file without the third variable, with a name and 13 numbers on each line, the code falls through to the next format after it has read a line:
    it goes back two lines, and all supernovae are read as the first one. *)
Theorem C121_read_refuted xs l : length xs = 13%nat -> Forall (fun ys => length ys = 13%nat) l -> (length (xs :: l) <= Z.to_nat 5000)%nat ->
  read_jla_lc_data (map (fun ys => sn_line ys []) (xs :: l)) = Some (repeat (xs, F14) (length (xs :: l))).
Proof.
  intros LX LL L. unfold read_jla_lc_data. rewrite map_length, Nat.min_l by exact L. clear L.
  set (file := map (fun ys => sn_line ys []) (xs :: l)).
  assert (HL : forall ys, In ys (xs :: l) -> length ys = 13%nat) by (rewrite Forall_forall in LL; intros ys [<- | I]; auto).
  (* what READ does at a line *)
  assert (RD : forall p, (p < length file)%nat -> exists ys, nth_error (xs :: l) p = Some ys /\ nth_error file p = Some (sn_line ys []) /\ READ file p 14 = Good ys (S p) /\
    (forall k, (13 < k)%nat -> READ file p (S k) = End (S (S p)) \/ READ file p (S k) = Err (S (S p)))).
  { intros p P. unfold file in P. rewrite map_length in P. destruct (nth_error (xs :: l) p) as [ys |] eqn:E; [| apply nth_error_None in E; lia]. exists ys. split; [reflexivity |]. split; [unfold file; apply (map_nth_error (fun ys => sn_line ys []) _ _ E) |].
    destruct (nth_error_split _ _ E) as (l1 & l2 & E1 & E2). assert (LY : length ys = 13%nat) by (apply HL; rewrite E1; apply in_or_app; right; now left).
    assert (EF : file = map (fun ys => sn_line ys []) l1 ++ sn_line ys [] :: map (fun ys => sn_line ys []) l2) by (unfold file; rewrite E1, map_app; reflexivity).
    assert (EP : p = length (map (fun ys => sn_line ys []) l1)) by (rewrite map_length; auto). rewrite EF, EP. split.
    - rewrite (READ_full _ ys [] _ 13) by lia. now rewrite <- LY, firstn_all.
    - intros k K. rewrite READ_short by (try lia; (destruct l2; [exact I | eexists; reflexivity])). destruct (map (fun ys => sn_line ys []) l2); auto. }
  (* a turn at line 0, and at line 1 *)
  assert (TU : forall p first, (p < length file)%nat -> (p <= 1)%nat -> turn file p first false = Some (Some (xs, F14), false, 1%nat)).
  { intros p first P P1. destruct (RD p P) as (ys & _ & E2 & E3 & E4). unfold turn. rewrite E2. unfold sn_line at 1.
    destruct (RD 0%nat ltac:(lia)) as (y0 & N0 & _ & E0 & _). cbn [nth_error] in N0. injection N0 as <-.
    assert (B1 : back2 (S (S p)) = p) by (unfold back2; lia). assert (B2 : back2 (S p) = 0%nat) by (unfold back2; lia).
    destruct (E4 15%nat ltac:(lia)) as [-> | ->]; rewrite B1; destruct (E4 14%nat ltac:(lia)) as [-> | ->]; rewrite B1, E3, andb_false_r, B2, E0; reflexivity. }
  assert (LO : forall t first, (2 <= length file)%nat -> read_loop file t 1 first false = Some (repeat (xs, F14) t)).
  { induction t as [| t IH]; intros first F2; [reflexivity |]. cbn [read_loop]. rewrite TU by lia. rewrite IH by exact F2. reflexivity. }
  change (length (xs :: l)) with (S (length l)). cbn [read_loop]. assert (LF : length file = S (length l)) by (unfold file; now rewrite map_length). rewrite TU by lia.
  destruct (length l) as [| m] eqn:EL; [reflexivity |]. rewrite LO by lia. reflexivity.
Qed.
Example C121_ex : read_jla_lc_data [Comment; sn_line [1;2;3;4;5;6;7;8;9;10;11;12;13;14;15] [Num 16]; sn_line [2;2;3;4;5;6;7;8;9;10;11;12;13;14;15] []] =
    Some [([1;2;3;4;5;6;7;8;9;10;11;12;13;14;15], F16); ([2;2;3;4;5;6;7;8;9;10;11;12;13;14;15], F16)] /\
  read_jla_lc_data [sn_line [1;2;3;4;5;6;7;8;9;10;11;12;13] []; sn_line [2;2;3;4;5;6;7;8;9;10;11;12;13] []] = Some [([1;2;3;4;5;6;7;8;9;10;11;12;13], F14); ([1;2;3;4;5;6;7;8;9;10;11;12;13], F14)] /\
  match_absdist [7; 8]%Z [(8%Z, 1)] = Some [(2%nat, 1)].
Proof. repeat split; reflexivity. Qed.
Print Assumptions C120_one.
Print Assumptions C120_two.
Print Assumptions C120_marge.
Print Assumptions C121_pre.
Print Assumptions C121_read.
Print Assumptions C121_read_refuted.
