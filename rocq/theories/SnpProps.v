(** Properties of the Python likelihood of supernovae (C148) *)
From Coq Require Import Reals ZArith Lra Lia Psatz Bool.
From Verif Require Import PyStr PyStrFacts PyBase ConvModel KdeModel Kde2Model BaoModel BaoSpec BaoProofs SnModel SnSpec SnProofs.
From Verif Require Import SnProps.
From Verif Require Import PyBase SnpModel SnpSpec.
From Coq Require Import List.
Import ListNotations.
Local Open Scope R_scope.

Lemma rsum_total n f : rsum n f = total (fvec f) n.
Proof. induction n as [| n IH]; cbn [rsum total]; [reflexivity |]. rewrite IH. unfold fvec. cbn [Nat.sub]. now rewrite Nat.sub_0_r. Qed.
Lemma vdot_bf n W u v : vdot n (mdot n W u) v = bf n (fmat W) (fvec v) (fvec u).
Proof.
  unfold vdot, bf. rewrite rsum_total. apply total_ext. intros i I. unfold fvec at 1. unfold mdot. rewrite rsum_total. rewrite Rmult_comm, <- total_scale. apply total_ext. intros j J.
  unfold fvec, fmat. ring.
Qed.
Lemma sum_bf n W u : rsum n (mdot n W u) = bf n (fmat W) SnProofs.one (fvec u).
Proof.
  unfold bf. rewrite rsum_total. apply total_ext. intros i I. unfold fvec at 1. unfold mdot. rewrite rsum_total. apply total_ext. intros j J. unfold fvec, fmat, SnProofs.one. ring.
Qed.
Lemma all_bf n W : rsum n (fun i => rsum n (fun j => W i j)) = bf n (fmat W) SnProofs.one SnProofs.one.
Proof. unfold bf. rewrite rsum_total. apply total_ext. intros i I. unfold fvec at 1. rewrite rsum_total. apply total_ext. intros j J. unfold fvec, fmat, SnProofs.one. ring. Qed.
(** the marginalized quantities *)
Definition pfin (two : bool) (m : margs) : res R :=
  if two then
    bindR (rdivE (mD m * mD m) (mE m)) (fun q =>
    let G := mF m - q in
    if Rlt_dec G 0 then Err AssertionError
    else bindR (plog (mE m / (2 * PI))) (fun l1 => bindR (plog (G / (2 * PI))) (fun l2 =>
      bindR (rdivE (mC m * mC m) G) (fun t1 => bindR (rdivE (mB m * mB m * mF m) (mE m * G)) (fun t2 => bindR (rdivE (2 * mB m * mC m * mD m) (mE m * G)) (fun t3 =>
      Ok ((mA m + l1 + l2 - t1 - t2 + t3) / 2)))))))
  else bindR (plog (mE m / (2 * PI))) (fun l => bindR (rdivE (mB m ^ 2) (mE m)) (fun q => Ok ((mA m + l - q) / 2))).
Lemma pfin_fin two m v : pfin two m = Ok v <-> SnModel.finish two m = BaoModel.Ok v.
Proof.
  pose proof PI_RGT_0 as PP. assert (TP : 0 < 2 * PI) by lra. assert (TI : 0 < / (2 * PI)) by (apply Rinv_0_lt_compat; exact TP).
  unfold pfin, SnModel.finish, plog, rlog, rdivE, rdiv, twopi. destruct m as [A B C D E F]; cbn [mA mB mC mD mE mF].
  assert (Q : forall x, x * (1 / (2 * PI)) = x / (2 * PI)) by (intro; unfold Rdiv; ring).
  assert (S : forall x, 0 < x / (2 * PI) <-> 0 < x).
  { intro x. unfold Rdiv. split; intro H; [| now apply Rmult_lt_0_compat]. apply (Rmult_lt_reg_r (/ (2 * PI))); [exact TI |]. now rewrite Rmult_0_l. }
  destruct two; rewrite ?Q.
  - destruct (Req_EM_T E 0) as [-> | NE]; [cbn; split; discriminate |]. cbn [bindR bind]. cbv zeta. rewrite !Q. set (G := F - D * D / E).
    destruct (Rlt_dec G 0) as [G0 | G0], (Rle_dec G 0) as [G1 | G1]; try (split; discriminate); [exfalso; lra | |].
    + destruct (Rlt_dec 0 (E / (2 * PI))); cbn [bindR]; [| split; discriminate]. destruct (Rlt_dec 0 (G / (2 * PI))) as [X | X]; cbn [bindR]; [apply (proj1 (S _)) in X; lra | split; discriminate].
    + destruct (Rlt_dec 0 (E / (2 * PI))); cbn [bindR bind]; [| split; discriminate]. destruct (Rlt_dec 0 (G / (2 * PI))) as [X | X]; cbn [bindR bind]; [| split; discriminate].
      destruct (Req_EM_T G 0) as [Z | NG]; [lra |]. cbn [bindR]. destruct (Req_EM_T (E * G) 0) as [Z | NEG]; [destruct (Rmult_integral _ _ Z); contradiction |]. cbn [bindR].
      split; intro H; injection H as <-; reflexivity.
  - destruct (Rlt_dec 0 (E / (2 * PI))) as [X | X]; cbn [bindR bind]; [| split; discriminate]. apply (proj1 (S _)) in X. destruct (Req_EM_T E 0) as [Z | NE]; [lra |]. cbn [bindR bind].
    replace (B ^ 2) with (B * B) by ring. split; intro H; injection H as <-; reflexivity.
Qed.
Lemma finish_margs n W d two : symmetric n (fmat W) -> SnpModel.finish n W d two = pfin (has (ftwo two)) (margs_full n (fmat W) (fvec d) (ftwo two)).
Proof.
  intro SY. rewrite (margs_full_bf n (fmat W) (fvec d) (ftwo two) SY). unfold SnpModel.finish, pfin. destruct two as [[A1 A2] |]; cbn [ftwo option_map has fst snd mA mB mC mD mE mF].
  - rewrite !vdot_bf. rewrite ?(bf_sym n (fmat W) (fvec A1) (fvec d) SY), ?(bf_sym n (fmat W) (fvec A2) (fvec d) SY), ?(bf_sym n (fmat W) (fvec A2) (fvec A1) SY). reflexivity.
  - rewrite vdot_bf, sum_bf, all_bf. rewrite ?(bf_sym n (fmat W) SnProofs.one (fvec d) SY). reflexivity.
Qed.
Lemma margs_ext n W U d d' two : symmetric n W -> (forall i j, (1 <= i <= n)%nat -> (1 <= j <= n)%nat -> (i <= j)%nat -> U i j = W i j) -> (forall i, (1 <= i <= n)%nat -> d i = d' i) -> margs_full n U d' two = margs_full n W d two.
Proof.
  intros SY EU ED. rewrite margs_from_upper, (margs_full_bf n (from_upper U)), (margs_full_bf n W) by (exact SY || apply from_upper_sym).
  assert (EW : forall i j, (1 <= i <= n)%nat -> (1 <= j <= n)%nat -> from_upper U i j = W i j).
  { intros i j I J. unfold from_upper. destruct (Nat.le_ge_cases i j) as [H | H]; [rewrite Nat.min_l, Nat.max_r by lia; apply EU; lia | rewrite Nat.min_r, Nat.max_l by lia; rewrite EU by lia; apply SY; lia]. }
  destruct two as [[A1 A2] |]; f_equal; apply bf_ext; auto; intros; symmetry; auto.
Qed.
Lemma existsb_shift f n : existsb f (seq 1 n) = existsb (fun i => f (S i)) (seq 0 n).
Proof. rewrite <- seq_shift. induction (seq 0 n) as [| x l IH]; cbn [map existsb]; [reflexivity | now rewrite IH]. Qed.
Lemma existsb_ext' {A} (f g : A -> bool) l : (forall x, f x = g x) -> existsb f l = existsb g l.
Proof. intro E. induction l as [| x l IH]; cbn [existsb]; [reflexivity | now rewrite E, IH]. Qed.
Lemma isclose_far a b : isclose a b = true <-> Rabs (a - b) <= / 10 ^ 8 + / 10 ^ 5 * Rabs b.
Proof. unfold isclose. destruct (Rle_dec _ _); split; intro; try assumption; try reflexivity; [discriminate | contradiction]. Qed.
Lemma far_not alpha beta a b : far alpha beta a b <-> isclose alpha a && isclose beta b = false.
Proof.
  unfold far. rewrite andb_false_iff, <- !not_true_iff_false, !isclose_far. split; intros [H | H]; [left | right | left | right]; lra.
Qed.
Lemma inverse_new inv C D alpha beta c : new_point alpha beta c ->
  inverse inv C D alpha beta c = match inv (d_n D) (covmat C D alpha beta) with
    | Some W => (Ok W, mkCache (if alphabeta_covmat C then Some (alpha, beta) else c_last c) (Some W))
    | None => (Err LinAlgError, if alphabeta_covmat C then mkCache (Some (alpha, beta)) (c_inv c) else c) end.
Proof.
  unfold new_point, inverse. destruct (alphabeta_covmat C); [| reflexivity]. destruct (c_last c) as [[a b] |]; [| reflexivity]. intro F. apply far_not in F. rewrite F. reflexivity.
Qed.
Lemma diag_errors_count C : (0 < count C)%nat -> diag_errors (fcovs C) = false.
Proof. unfold count, diag_errors, fcovs. destruct C as [[] [] [] [] [] []]; cbn; auto; lia. Qed.
Lemma cov_same C D alpha beta i j : alphabeta_covmat C = true -> (1 <= i)%nat -> (1 <= j)%nat -> cov_matrix (fcovs C) alpha beta (fun i => pre_vars D (i - 1)) (fsn D) i j = fmat (covmat C D alpha beta) i j.
Proof.
  intros AB I J. unfold cov_matrix, fmat, covmat, delta, add, addm, diag_var. rewrite AB. replace (Nat.eqb (i - 1) (j - 1)) with (Nat.eqb i j) by (destruct (Nat.eqb_spec i j), (Nat.eqb_spec (i - 1) (j - 1)); try reflexivity; lia).
  destruct C as [m s k ms mc sc]; cbn [fcovs c_mag c_stretch c_colour c_ms c_mc c_sc k_mag k_stretch k_colour k_ms k_mc k_sc]. unfold fsn; cbn. destruct m, s, k, ms, mc, sc, (Nat.eqb i j); cbn [option_map]; unfold fmat; ring.
Qed.
(** The covariance of the magnitudes is the one of the Fortran likelihood *)
Theorem C148_cov C D alpha beta i j : alphabeta_covmat C = true -> (1 <= i)%nat -> (1 <= j)%nat ->
  cov_matrix (fcovs C) alpha beta (fun i => pre_vars D (i - 1)) (fsn D) i j = covmat C D alpha beta (i - 1) (j - 1).
Proof. intros. now apply cov_same. Qed.
Theorem C148_variance D disp i : disp 1%nat = 0 -> pre_var disp (d_pecz D) (fsn D i) = BaoModel.Ok (pre_vars D (i - 1)).
Proof.
  intro Z. unfold pre_var. cbn [fsn dataset absd]. change ((0 <=? 0)%Z && (0 <? 10)%Z) with true. cbv iota. change (Z.to_nat (0 + 1)) with 1%nat. rewrite Z. f_equal. unfold pre_vars, zfacsq, ln10. cbn [fsn mag_var zcmb].
  set (r := (1 + d_zcmb D (i - 1)) / _). replace (ln 10 ^ 2) with (ln 10 * ln 10) by ring. set (k := 25 / (ln 10 * ln 10)). cbn [pow]. ring.
Qed.
(** With the inverse of LAPACK and a new point the value is the one of the Fortran likelihood, and there is a value for the same data *)
Theorem C148_same pinv finv C D two lum alpha beta c v : same_inv (d_n D) pinv finv C D alpha beta -> alphabeta_covmat C = true -> (0 < count C)%nat -> new_point alpha beta c ->
  fst (SnpModel.alpha_beta_like pinv C D two lum alpha beta None c) = Ok v <->
  SnModel.alpha_beta_like finv (fcovs C) (d_n D) (fsn D) (fun i => pre_vars D (i - 1)) (ftwo two) alpha beta (fvec lum) = BaoModel.Ok v.
Proof.
  intros (W & EW & SW & U & EU & UW) AB CN NP. unfold SnpModel.alpha_beta_like, SnModel.alpha_beta_like. cbv zeta. rewrite AB. set (n := d_n D) in *.
  assert (DE : forall i, diag_var alpha beta (fun i => pre_vars D (i - 1)) (fsn D) i = fvec (delta C D alpha beta) i).
  { intro i. unfold fvec, delta, diag_var. rewrite AB. reflexivity. }
  rewrite existsb_shift. erewrite (existsb_ext' (fun i => if Req_EM_T (diag_var _ _ _ _ (S i)) 0 then true else false) (fun i => if Req_EM_T (delta C D alpha beta i) 0 then true else false)); cycle 1.
  { intro i. rewrite DE. unfold fvec. cbn [Nat.sub]. now rewrite Nat.sub_0_r. }
  assert (SWT : sum1 n (fun i => 1 / diag_var alpha beta (fun i0 => pre_vars D (i0 - 1)) (fsn D) i) = rsum n (fun i => 1 / delta C D alpha beta i)).
  { rewrite sum1_total, rsum_total. apply total_ext. intros i I. now rewrite DE. }
  rewrite SWT. match goal with |- fst (if ?b then _ else _) = _ <-> _ => destruct b; [cbn; split; discriminate |] end.
  rewrite (inverse_new pinv C D alpha beta c NP). fold n. rewrite EW. cbn [fst]. rewrite diag_errors_count by exact CN. rewrite EU.
  assert (SY : symmetric n (fmat W)) by (intros i j I J; unfold fmat; apply SW; lia).
  cbn [bindR]. rewrite (finish_margs n W _ two SY), pfin_fin. erewrite <- (margs_ext n (fmat W) U); [reflexivity | exact SY | exact UW |].
  intros i I. unfold diffmag, estimated, fvec. cbn [fsn mag stretch colour].
  replace (sum1 n (fun i0 => 1 / diag_var alpha beta (fun i1 => pre_vars D (i1 - 1)) (fsn D) i0)) with (rsum n (fun i => 1 / delta C D alpha beta i)) by (symmetry; exact SWT).
  f_equal. f_equal. rewrite sum1_total, rsum_total. apply total_ext. intros k K. rewrite DE. reflexivity.
Qed.
Print Assumptions C148_same.
Lemma rsum_pos n (f : nat -> R) : (forall i, (i < n)%nat -> 0 < f i) -> (0 < n)%nat -> 0 < rsum n f.
Proof.
  induction n as [| n IH]; intros Q N; [lia |]. cbn [rsum]. pose proof (Q n ltac:(lia)) as Qn. destruct n as [| n]; [cbn [rsum]; lra |]. assert (0 < rsum (S n) f) by (apply IH; [intros; apply Q; lia | lia]). lra.
Qed.
(** With the covariance of magnitudes only, alpha and beta are not used: the value is the one of Fortran for alpha = beta = 0 *)
Theorem C148_mag_only inv C D two lum alpha beta g c : alphabeta_covmat C = false ->
  SnpModel.alpha_beta_like inv C D two lum alpha beta g c = SnpModel.alpha_beta_like inv C D two lum 0 0 None c.
Proof. intro AB. unfold SnpModel.alpha_beta_like, delta. rewrite AB. reflexivity. Qed.
(** The inverse that is given back is the one of a point that is close to the point, and the state stays exact *)
Theorem C148_cache inv C D alpha beta c W c' : alphabeta_covmat C = true -> exact inv C D c -> inverse inv C D alpha beta c = (Ok W, c') ->
  exact inv C D c' /\ exists a b, inv (d_n D) (covmat C D a b) = Some W /\
    (a = alpha /\ b = beta \/ Rabs (alpha - a) <= / 10 ^ 8 + / 10 ^ 5 * Rabs a /\ Rabs (beta - b) <= / 10 ^ 8 + / 10 ^ 5 * Rabs b).
Proof.
  intros AB EX H. unfold exact in EX |- *. unfold inverse in H. rewrite AB in H. destruct (c_last c) as [[a b] |] eqn:EL.
  - destruct (isclose alpha a && isclose beta b) eqn:CL.
    + destruct EX as (V & EV & IV). rewrite EV in H. injection H as <- <-. rewrite EL. split; [exists V; split; assumption |]. exists a, b. split; [exact IV |]. right. apply andb_true_iff in CL as (C1 & C2).
      split; now apply isclose_far.
    + destruct (inv (d_n D) (covmat C D alpha beta)) as [V |] eqn:IV; [| discriminate]. injection H as <- <-. cbn. split; [exists V; split; [reflexivity | exact IV] |]. exists alpha, beta. split; [exact IV |]. left; split; reflexivity.
  - destruct (inv (d_n D) (covmat C D alpha beta)) as [V |] eqn:IV; [| discriminate]. injection H as <- <-. cbn. split; [exists V; split; [reflexivity | exact IV] |]. exists alpha, beta. split; [exact IV |]. left; split; reflexivity.
Qed.
(** a point that is new has its own inverse *)
Theorem C148_new inv C D alpha beta c W c' : new_point alpha beta c -> inverse inv C D alpha beta c = (Ok W, c') -> inv (d_n D) (covmat C D alpha beta) = Some W /\ c_inv c' = Some W.
Proof. intros NP H. rewrite inverse_new in H by exact NP. destruct (inv _ _) as [V |]; [| discriminate]. injection H as <- <-. split; reflexivity. Qed.
(** FINDING: for another point that is close to the last one the inverse of the last one is given back *)
Theorem C148_cache_refuted inv C D a b alpha beta V : alphabeta_covmat C = true -> inv (d_n D) (covmat C D a b) = Some V ->
  Rabs (alpha - a) <= / 10 ^ 8 + / 10 ^ 5 * Rabs a -> Rabs (beta - b) <= / 10 ^ 8 + / 10 ^ 5 * Rabs b ->
  let c := snd (inverse inv C D a b (mkCache None None)) in inverse inv C D alpha beta c = (Ok V, c).
Proof.
  intros AB IV H1 H2 c. assert (EC : c = mkCache (Some (a, b)) (Some V)) by (unfold c, inverse; rewrite AB; cbn [c_last c_inv]; rewrite IV; reflexivity).
  rewrite EC. unfold inverse. rewrite AB. cbn [c_last c_inv]. rewrite (proj2 (isclose_far alpha a) H1), (proj2 (isclose_far beta b) H2). reflexivity.
Qed.
(** FINDING: after a failure of the inversion the same point has the inverse of an earlier point *)
Theorem C148_failed_refuted inv C D a b alpha beta V : alphabeta_covmat C = true -> inv (d_n D) (covmat C D a b) = Some V -> far alpha beta a b -> inv (d_n D) (covmat C D alpha beta) = None ->
  let c1 := snd (inverse inv C D a b (mkCache None None)) in
  exists c2, inverse inv C D alpha beta c1 = (Err LinAlgError, c2) /\ fst (inverse inv C D alpha beta c2) = Ok V.
Proof.
  intros AB IV F NI c1. assert (EC : c1 = mkCache (Some (a, b)) (Some V)) by (unfold c1, inverse; rewrite AB; cbn [c_last c_inv]; rewrite IV; reflexivity).
  rewrite EC. exists (mkCache (Some (alpha, beta)) (Some V)). split.
  - rewrite inverse_new by exact F. rewrite NI, AB. reflexivity.
  - unfold inverse. rewrite AB. cbn [c_last c_inv]. assert (R0 : forall x, isclose x x = true).
    { intro x. apply isclose_far. rewrite Rminus_diag_eq, Rabs_R0 by reflexivity. pose proof (Rabs_pos x). assert (0 < / 10 ^ 8) by (apply Rinv_0_lt_compat; lra). assert (0 < / 10 ^ 5) by (apply Rinv_0_lt_compat; lra). nra. }
    now rewrite !R0.
Qed.
(** FINDING: marginalization without the inverses beforehand, with the covariance of magnitudes only, stops as invcov is never set *)
Theorem C148_unset_refuted inv C D two grid p wa wb lum ab : alphabeta_covmat C = false -> (forall i, (i < d_n D)%nat -> 0 < pre_vars D i) -> (0 < d_n D)%nat ->
  exists invs c, setup inv C D true false (p :: grid) = (Ok invs, c) /\ fst (loglike inv C D two true (p :: grid) wa wb invs lum ab c) = Err AttributeError.
Proof.
  intros AB P N. exists (map (fun _ => None) (p :: grid)), (mkCache None None). split; [reflexivity |]. unfold loglike. cbn [map combine grid_likes].
  rewrite C148_mag_only by exact AB. unfold SnpModel.alpha_beta_like at 1. cbv zeta. unfold delta. rewrite AB.
  match goal with |- context [if ?b then (Err NotFinite, _) else _] => assert (EB : b = false) end.
  { apply orb_false_iff. split.
    - apply not_true_iff_false. intro X. apply existsb_exists in X as (i & I & X). apply in_seq in I. specialize (P i ltac:(lia)). destruct (Req_EM_T (pre_vars D i) 0); [lra | discriminate].
    - assert (PW : 0 < rsum (d_n D) (fun i => 1 / pre_vars D i)).
      { assert (Q : forall i, (i < d_n D)%nat -> 0 < 1 / pre_vars D i) by (intros i I; specialize (P i I); apply Rmult_lt_0_compat; [lra | now apply Rinv_0_lt_compat]).
        now apply rsum_pos. }
      match goal with |- (if ?d then _ else _) = _ => destruct d; [lra | reflexivity] end. }
  rewrite EB. reflexivity.
Qed.
(** ** Grid *)
Lemma zrange_steps s : zrange (- Z.of_nat s) (Z.of_nat s + 1) = steps s.
Proof. unfold zrange, steps. replace (Z.to_nat (Z.of_nat s + 1 - - Z.of_nat s)) with (2 * s + 1)%nat by lia. apply map_ext. intro k. lia. Qed.
Lemma flat_filter {A B} (f : A * B -> bool) l l' : flat_map (fun a => flat_map (fun b => if f (a, b) then [(a, b)] else []) l') l = filter f (list_prod l l').
Proof.
  induction l as [| a l IH]; cbn [flat_map list_prod]; [reflexivity |]. rewrite filter_app, IH. f_equal. clear IH. induction l' as [| b l' IH]; cbn [flat_map map filter]; [reflexivity |]. rewrite IH. destruct (f (a, b)); reflexivity.
Qed.
Theorem C148_grid s a b : (In (a, b) (marge_points s) <-> (a * a + b * b <= Z.of_nat s * Z.of_nat s)%Z) /\ NoDup (marge_points s) /\ marge_points s = disc s.
Proof.
  assert (E : marge_points s = disc s).
  { unfold marge_points. cbv zeta. rewrite zrange_steps. rewrite (flat_filter (fun p => (fst p ^ 2 + snd p ^ 2 <=? Z.of_nat s ^ 2)%Z)). unfold disc. apply filter_ext. intros [x y]. cbn [fst snd]. rewrite !Z.pow_2_r. reflexivity. }
  split; [| split; [| exact E]]; rewrite E.
  - unfold disc. rewrite filter_In, in_prod_iff. cbn [fst snd]. rewrite Z.leb_le. split; [intros (_ & H); exact H |]. intro H. split; [| exact H].
    assert (B : forall x, (x * x <= Z.of_nat s * Z.of_nat s)%Z -> In x (steps s)).
    { intros x Hx. unfold steps. apply in_map_iff. exists (Z.to_nat (x + Z.of_nat s)). assert (- Z.of_nat s <= x <= Z.of_nat s)%Z by nia. split; [lia |]. apply in_seq. lia. }
    split; apply B; nia.
  - unfold disc. apply NoDup_filter. apply NoDup_list_prod; unfold steps; apply FinFun.Injective_map_NoDup; try apply seq_NoDup; intros x y; lia.
Qed.
(** ** Marginal likelihood *)
Theorem C148_marge wa wb l : 0 < wa -> 0 < wb -> l <> [] -> exists v, marginal wa wb l = Ok v /\ exp (- v) = fold_right Rplus 0 (map (fun x => exp (- x)) l) * wa * wb.
Proof.
  intros A B NE. unfold marginal. destruct l as [| x0 l0]; [contradiction |]. cbv zeta. set (best := pmin (x0 :: l0)). set (l := x0 :: l0) in *. clearbody best.
  assert (S : fold_right Rplus 0 (map (fun x => exp (- x + best)) l) = exp best * fold_right Rplus 0 (map (fun x => exp (- x)) l)).
  { clear. induction l as [| x l IH]; cbn [map fold_right]; [ring |]. rewrite IH, exp_plus. ring. }
  assert (PS : 0 < fold_right Rplus 0 (map (fun x => exp (- x)) l)).
  { unfold l. cbn [map fold_right]. pose proof (exp_pos (- x0)). assert (0 <= fold_right Rplus 0 (map (fun x => exp (- x)) l0)); [| lra]. clear. induction l0 as [| x l IH]; cbn [map fold_right]; [lra |]. pose proof (exp_pos (- x)). lra. }
  set (T := fold_right Rplus 0 (map (fun x => exp (- x)) l)) in *. rewrite S. clearbody T. unfold plog. pose proof (exp_pos best).
  assert (PT : 0 < exp best * T * wa * wb) by (apply Rmult_lt_0_compat; [apply Rmult_lt_0_compat; [apply Rmult_lt_0_compat |] |]; assumption).
  destruct (Rlt_dec 0 (exp best * T * wa * wb)); [| contradiction]. cbn [bindR]. eexists. split; [reflexivity |].
  replace (- (best - ln (exp best * T * wa * wb))) with (- best + ln (exp best * T * wa * wb)) by ring. rewrite exp_plus, exp_ln by exact PT. rewrite exp_Ropp. field. lra.
Qed.
(** ** Two values of scriptm: two_sets are both not empty, or there is one value *)
Theorem C148_sets cut D : match two_sets true cut D with
  | Some (A1, A2) => split_sets (d_n D) (fvec A1) (fvec A2) /\ forall i, (A1 i = 1 <-> d_third D i <= cut) /\ (A2 i = 1 <-> cut < d_third D i)
  | None => (forall i, (i < d_n D)%nat -> d_third D i <= cut) \/ (forall i, (i < d_n D)%nat -> cut < d_third D i) end.
Proof.
  set (low := fun i => if Rle_dec (d_third D i) cut then true else false).
  change (two_sets true cut D) with (if negb (existsb low (seq 0 (d_n D))) then None else if negb (existsb (fun i => negb (low i)) (seq 0 (d_n D))) then None else Some ((fun i => if low i then 1 else 0), (fun i => if low i then 0 else 1))).
  assert (LT : forall i, low i = true <-> d_third D i <= cut) by (intro i; unfold low; destruct (Rle_dec _ _); split; intros; try discriminate; try lra; auto).
  assert (LF : forall i, low i = false <-> cut < d_third D i) by (intro i; unfold low; destruct (Rle_dec _ _); split; intros; try discriminate; try lra; auto).
  destruct (existsb low (seq 0 (d_n D))) eqn:H1; cbn [negb]; cycle 1.
  { right. intros i I. apply LF. destruct (low i) eqn:X; [| reflexivity]. exfalso. apply not_true_iff_false in H1. apply H1. apply existsb_exists. exists i. split; [apply in_seq; lia | exact X]. }
  destruct (existsb (fun i => negb (low i)) (seq 0 (d_n D))) eqn:H2; cbn [negb]; cycle 1.
  { left. intros i I. apply LT. destruct (low i) eqn:X; [reflexivity |]. exfalso. apply not_true_iff_false in H2. apply H2. apply existsb_exists. exists i. split; [apply in_seq; lia | now rewrite X]. }
  apply existsb_exists in H1 as (i1 & I1 & X1). apply existsb_exists in H2 as (i2 & I2 & X2). apply in_seq in I1, I2. apply negb_true_iff in X2.
  split.
  - split; [| split].
    + intros i I. unfold fvec. destruct (low (i - 1)%nat); [left | right]; split; reflexivity.
    + exists (S i1). split; [lia |]. unfold fvec. cbn [Nat.sub]. now rewrite Nat.sub_0_r, X1.
    + exists (S i2). split; [lia |]. unfold fvec. cbn [Nat.sub]. now rewrite Nat.sub_0_r, X2.
  - intro i. rewrite <- LT, <- LF. destruct (low i); split; split; intro; try reflexivity; try discriminate; lra.
Qed.
(** ** The inverses beforehand *)
Lemma inverse_grid inv C D grid p c W : alphabeta_covmat C = true -> spaced grid -> In p grid -> exact inv C D c -> (forall a b, c_last c = Some (a, b) -> In (a, b) grid) -> inv (d_n D) (covmat C D (fst p) (snd p)) = Some W ->
  exists c', inverse inv C D (fst p) (snd p) c = (Ok W, c') /\ exact inv C D c' /\ (forall a b, c_last c' = Some (a, b) -> In (a, b) grid).
Proof.
  intros AB SP IP EX LG IW. destruct (c_last c) as [[a b] |] eqn:EL.
  - destruct (SP p (a, b) IP (LG a b eq_refl)) as [-> | F].
    + cbn [fst snd] in *. unfold inverse. rewrite AB, EL. destruct (isclose a a && isclose b b) eqn:CL.
      * unfold exact in EX. rewrite EL in EX. destruct EX as (V & EV & IV). rewrite IW in IV. injection IV as <-. rewrite EV. exists c. split; [reflexivity |]. split; [unfold exact; rewrite EL; exists W; split; assumption |].
        intros a' b' E. rewrite EL in E. injection E as <- <-. exact IP.
      * rewrite IW. eexists. split; [reflexivity |]. split; [unfold exact; cbn; exists W; split; [reflexivity | exact IW] |]. cbn. intros a' b' E. injection E as <- <-. exact IP.
    + assert (NP : new_point (fst p) (snd p) c) by (unfold new_point; rewrite EL; exact F). rewrite (inverse_new inv C D _ _ c NP), IW, AB. eexists. split; [reflexivity |].
      split; [unfold exact; cbn; exists W; split; [reflexivity | exact IW] |]. cbn. intros a' b' E. injection E as <- <-. destruct p; exact IP.
  - assert (NP : new_point (fst p) (snd p) c) by (unfold new_point; rewrite EL; exact I). rewrite (inverse_new inv C D _ _ c NP), IW, AB. eexists. split; [reflexivity |].
    split; [unfold exact; cbn; exists W; split; [reflexivity | exact IW] |]. cbn. intros a' b' E. injection E as <- <-. destruct p; exact IP.
Qed.
Lemma precompute_ok inv C D grid (V : R * R -> rmat) : alphabeta_covmat C = true -> spaced grid -> (forall p, In p grid -> inv (d_n D) (covmat C D (fst p) (snd p)) = Some (V p)) ->
  forall l c, (forall p, In p l -> In p grid) -> exact inv C D c -> (forall a b, c_last c = Some (a, b) -> In (a, b) grid) ->
  exists c', precompute inv C D l c = (Ok (map V l), c') /\ exact inv C D c' /\ (forall a b, c_last c' = Some (a, b) -> In (a, b) grid).
Proof.
  intros AB SP HV. induction l as [| [a b] l IH]; intros c IN EX LG; cbn [precompute map]; [exists c; auto |].
  destruct (inverse_grid inv C D grid (a, b) c (V (a, b)) AB SP (IN _ (or_introl eq_refl)) EX LG (HV _ (IN _ (or_introl eq_refl)))) as (c1 & E1 & X1 & G1). cbn [fst snd] in E1. rewrite E1.
  destruct (IH c1 (fun p H => IN p (or_intror H)) X1 G1) as (c2 & -> & X2 & G2). exists c2. cbn [bindR]. auto.
Qed.
Lemma likes_same inv C D two lum grid (V : R * R -> rmat) : alphabeta_covmat C = true -> spaced grid -> (forall p, In p grid -> inv (d_n D) (covmat C D (fst p) (snd p)) = Some (V p)) ->
  let f p g := SnpModel.alpha_beta_like inv C D two lum (fst p) (snd p) g in
  forall l c c0, (forall p, In p l -> In p grid) -> exact inv C D c -> (forall a b, c_last c = Some (a, b) -> In (a, b) grid) ->
  fst (grid_likes f (combine l (map Some (map V l))) c0) = fst (grid_likes f (combine l (map (fun _ => None) l)) c).
Proof.
  intros AB SP HV f. induction l as [| p l IH]; intros c c0 IN EX LG; [reflexivity |]. cbn [map combine grid_likes].
  destruct (inverse_grid inv C D grid p c (V p) AB SP (IN _ (or_introl eq_refl)) EX LG (HV _ (IN _ (or_introl eq_refl)))) as (c1 & E1 & X1 & G1).
  unfold f at 1 3. unfold SnpModel.alpha_beta_like. cbv zeta. rewrite AB.
  match goal with |- context [if ?b then (Err NotFinite, _) else _] => destruct b; [reflexivity |] end.
  rewrite E1. cbn [bindR]. destruct (SnpModel.finish _ _ _ _) as [v | e]; [| reflexivity].
  specialize (IH c1 c0 (fun q H => IN q (or_intror H)) X1 G1). fold f.
  destruct (grid_likes f (combine l (map Some (map V l))) c0) as [r1 k1], (grid_likes f (combine l (map (fun _ => None) l)) c1) as [r2 k2]. cbn [fst] in *. now rewrite IH.
Qed.
(** The likelihood with the inverses of the grid beforehand is the one where they are computed for every model *)
Theorem C148_precompute inv C D two grid wa wb lum ab c : alphabeta_covmat C = true -> spaced grid -> (forall p, In p grid -> inv (d_n D) (covmat C D (fst p) (snd p)) <> None) ->
  exact inv C D c -> (forall a b, c_last c = Some (a, b) -> In (a, b) grid) ->
  exists invs c0, setup inv C D true true grid = (Ok invs, c0) /\
    fst (loglike inv C D two true grid wa wb invs lum ab c0) = fst (loglike inv C D two true grid wa wb (map (fun _ => None) grid) lum ab c).
Proof.
  intros AB SP HI EX LG. set (V := fun p => match inv (d_n D) (covmat C D (fst p) (snd p)) with Some W => W | None => fun _ _ => 0 end).
  assert (HV : forall p, In p grid -> inv (d_n D) (covmat C D (fst p) (snd p)) = Some (V p)) by (intros p I; specialize (HI p I); unfold V; destruct (inv _ _); [reflexivity | contradiction]).
  destruct (precompute_ok inv C D grid V AB SP HV grid (mkCache None None) (fun p H => H)) as (c0 & EP & _ & _); [reflexivity | discriminate |].
  exists (map Some (map V grid)), c0. split; [unfold setup; rewrite EP; reflexivity |]. unfold loglike.
  pose proof (likes_same inv C D two lum grid V AB SP HV grid c c0 (fun p H => H) EX LG) as L. cbv zeta in L.
  destruct (grid_likes _ (combine grid (map Some (map V grid))) c0) as [r1 k1], (grid_likes _ (combine grid (map (fun _ => None) grid)) c) as [r2 k2]. cbn [fst] in *. now rewrite L.
Qed.
(** ** Reading *)
Lemma eqb_str a b : str_eqb a b = true <-> a = b.
Proof. apply str_eqb_eq. Qed.
Lemma attr_set a b i x l : attr a (set_attr b i x l) = if str_eqb a b then option_map (set_nth i x) (attr a l) else attr a l.
Proof.
  induction l as [| [k v] l IH]; cbn [set_attr attr]; [destruct (str_eqb a b); reflexivity |]. destruct (str_eqb b k) eqn:BK; cbn [attr].
  - apply eqb_str in BK as ->. destruct (str_eqb a k); reflexivity.
  - destruct (str_eqb a k) eqn:AK; [| exact IH]. apply eqb_str in AK as ->. destruct (str_eqb k b) eqn:KB; [| reflexivity]. apply eqb_str in KB as ->. rewrite (proj2 (eqb_str b b) eq_refl) in BK. discriminate.
Qed.
Lemma set_nth_len i x l : length (set_nth i x l) = length l.
Proof. revert i. induction l as [| y l IH]; intros [| i]; cbn; auto. Qed.
Lemma set_nth_at i x l j : nth j (set_nth i x l) 0 = if Nat.eqb j i && Nat.ltb i (length l) then x else nth j l 0.
Proof.
  revert i j. induction l as [| y l IH]; intros i j.
  - cbn [set_nth length]. change (Nat.ltb i 0) with false. rewrite andb_false_r. destruct i; reflexivity.
  - destruct i as [| i], j as [| j]; cbn [set_nth nth length]; try reflexivity. rewrite IH. reflexivity.
Qed.
Lemma put_row_ok num ix : forall l st, NoDup (map fst l) ->
  (forall c v, In (c, v) l -> c <> L "name" -> num v <> None /\ exists a, attr c (r_arr st) = Some a /\ (ix < length a)%nat) ->
  exists st', put_row num ix l st = Ok st' /\ r_cols st' = r_cols st /\ r_third st' = r_third st /\ r_ix st' = r_ix st /\
    (forall c, (forall v, In (c, v) l -> c = L "name") -> attr c (r_arr st') = attr c (r_arr st)) /\
    (forall c v x, In (c, v) l -> c <> L "name" -> num v = Some x -> attr c (r_arr st') = option_map (set_nth ix x) (attr c (r_arr st))).
Proof.
  induction l as [| [c v] l IH]; intros st ND H; cbn [put_row]; [exists st; repeat split; auto; intros c v x [] |].
  cbn [map fst] in ND. inversion ND as [| ? ? NI ND']; subst.
  assert (FR : forall v', In (c, v') l -> False) by (intros v' I; apply NI; change c with (fst (c, v')); now apply in_map).
  destruct (str_eqb c (L "name")) eqn:EN.
  - apply eqb_str in EN. destruct (IH (mkRs (r_cols st) (r_third st) (r_arr st) (r_names st ++ [v]) (r_ix st)) ND') as (st' & E & A & B & C & K1 & K2); [intros c' v' I; cbn [r_arr]; apply (H c' v'); right; exact I |].
    exists st'. rewrite E. cbn [r_cols r_third r_ix r_arr] in *. repeat split; auto.
    + intros c' N. apply K1. intros v' I. apply (N v'). now right.
    + intros c' v' x [Q | I] NN EX; [injection Q as <- <-; contradiction |]. now apply (K2 c' v' x).
  - assert (NN : c <> L "name") by (intro Q; apply eqb_str in Q; congruence).
    destruct (H c v (or_introl eq_refl) NN) as (NV & a & EA & LA). destruct (num v) as [x |] eqn:EV; [| contradiction]. rewrite EA. rewrite (proj2 (Nat.ltb_lt _ _) LA).
    destruct (IH (mkRs (r_cols st) (r_third st) (set_attr c ix x (r_arr st)) (r_names st) (r_ix st)) ND') as (st' & E & A & B & C & K1 & K2).
    { intros c' v' I NN'. destruct (H c' v' (or_intror I) NN') as (NV' & a' & EA' & LA'). split; [exact NV' |]. cbn [r_arr]. rewrite attr_set. destruct (str_eqb c' c) eqn:Q; [apply eqb_str in Q as ->; destruct (FR _ I) |]. now exists a'. }
    exists st'. rewrite E. cbn [r_cols r_third r_ix r_arr] in *. repeat split; auto.
    + intros c' N. rewrite K1 by (intros v' I; apply (N v'); now right). rewrite attr_set. destruct (str_eqb c' c) eqn:Q; [| reflexivity]. apply eqb_str in Q as ->. destruct (NN (N v (or_introl eq_refl))).
    + intros c' v' y [Q | I] NN' EX.
      * injection Q as <- <-. rewrite EV in EX. injection EX as <-. rewrite K1 by (intros v' I; destruct (FR _ I)). rewrite attr_set, (proj2 (eqb_str c c) eq_refl). reflexivity.
      * rewrite (K2 c' v' y I NN' EX). rewrite attr_set. destruct (str_eqb c' c) eqn:Q; [apply eqb_str in Q as ->; destruct (FR _ I) | reflexivity].
Qed.
Lemma map_fst_combine {A B} (l : list A) : forall (l' : list B), length l = length l' -> map fst (combine l l') = l.
Proof. induction l as [| x l IH]; intros [| y l'] E; cbn in *; try discriminate; [reflexivity |]. rewrite IH by congruence. reflexivity. Qed.
Lemma in_combine_nth {A B} (l : list A) (l' : list B) k d d' : length l = length l' -> (k < length l)%nat -> In (nth k l d, nth k l' d') (combine l l').
Proof. intros E K. rewrite <- combine_nth by exact E. apply nth_In. rewrite combine_length. lia. Qed.
Lemma read_rows num nl (cols : list str) m V : NoDup cols -> forall (rs : list (list str)) st, r_cols st = Some cols -> (r_ix st + length rs <= m)%nat ->
  (forall r, In r rs -> length r = length cols) ->
  (forall j k, (j < length rs)%nat -> (k < length cols)%nat -> nth k cols [] <> L "name" -> num (nth k (nth j rs []) []) = Some (V (r_ix st + j)%nat k)) ->
  (forall k, (k < length cols)%nat -> nth k cols [] <> L "name" -> exists a, attr (nth k cols []) (r_arr st) = Some a /\ length a = m /\ forall i, (i < r_ix st)%nat -> nth i a 0 = V i k) ->
  exists st', read_lines num nl st (map Row rs) = Ok st' /\ r_ix st' = (r_ix st + length rs)%nat /\ r_third st' = r_third st /\
    forall k, (k < length cols)%nat -> nth k cols [] <> L "name" -> exists a, attr (nth k cols []) (r_arr st') = Some a /\ length a = m /\ forall i, (i < r_ix st')%nat -> nth i a 0 = V i k.
Proof.
  intro ND. induction rs as [| r rs IH]; intros st EC LE LR HV INV; cbn [map read_lines]; [exists st; cbn [length]; repeat split; auto; lia |].
  cbn [length] in LE. assert (Lr : length cols = length r) by (symmetry; apply LR; now left).
  destruct (put_row_ok num (r_ix st) (combine cols r) st) as (st1 & E1 & C1 & T1 & X1 & K1 & K2).
  { now rewrite map_fst_combine. }
  { intros c v I NN. destruct (In_nth _ _ ([], []) I) as (k & K & EK). rewrite combine_nth in EK by exact Lr. injection EK as <- <-. rewrite combine_length in K.
    split; [specialize (HV 0%nat k ltac:(cbn [length]; lia) ltac:(lia) NN); cbn [nth] in HV; unfold str in *; rewrite HV; discriminate |].
    destruct (INV k ltac:(lia) NN) as (a & EA & LA & _). exists a. split; [exact EA | lia]. }
  cbn [read_line]. rewrite EC. unfold str in *. rewrite E1. cbn [bindR].
  destruct (IH (mkRs (r_cols st1) (r_third st1) (r_arr st1) (r_names st1) (S (r_ix st1)))) as (st' & E' & X' & T' & I').
  - cbn [r_cols]. congruence.
  - cbn [r_ix]. lia.
  - intros; apply LR; now right.
  - intros j k J K NN. cbn [r_ix]. rewrite X1. specialize (HV (S j) k ltac:(cbn [length]; lia) K NN). cbn [nth] in HV. rewrite HV. do 2 f_equal. lia.
  - intros k K NN. cbn [r_arr r_ix]. destruct (INV k K NN) as (a & EA & LA & VA). pose proof (HV 0%nat k ltac:(cbn [length]; lia) K NN) as H0. cbn [nth] in H0. rewrite Nat.add_0_r in H0.
    exists (set_nth (r_ix st) (V (r_ix st) k) a). rewrite (K2 _ _ _ (in_combine_nth cols r k [] [] Lr K) NN H0), EA. split; [reflexivity |]. rewrite set_nth_len. split; [exact LA |].
    intros i I. rewrite set_nth_at. rewrite X1 in I. destruct (Nat.eqb_spec i (r_ix st)) as [-> | N]; [rewrite (proj2 (Nat.ltb_lt _ _)) by lia; reflexivity | apply VA; lia].
  - exists st'. rewrite E'. cbn [r_ix r_third] in *. repeat split; auto; [cbn [length]; lia | congruence].
Qed.
Lemma attr_zeros cols z rest c : In c cols -> attr c (map (fun c => (c, z)) (rev cols) ++ rest) = Some z.
Proof.
  intro I. apply in_rev in I. induction (rev cols) as [| b l IH]; [destruct I |]. cbn [map app attr]. destruct (str_eqb c b) eqn:Q; [reflexivity |]. apply IH. destruct I as [-> | I]; [rewrite (proj2 (eqb_str c c) eq_refl) in Q; discriminate | exact I].
Qed.
(** The numbers of column k of the rows after the header are the array of the name of column k *)
Theorem C148_read num ws (rs : list (list str)) V : let cols := columns ws in NoDup cols -> (forall r, In r rs -> length r = length cols) ->
  (forall j k, (j < length rs)%nat -> (k < length cols)%nat -> nth k cols [] <> L "name" -> num (nth k (nth j rs []) []) = Some (V j k)) ->
  exists st, read_file num (Head ws :: map Row rs) = Ok st /\ r_ix st = length rs /\ (r_third st = true <-> In (L "third_var") cols) /\
    forall k, (k < length cols)%nat -> nth k cols [] <> L "name" -> exists a, attr (nth k cols []) (r_arr st) = Some a /\ length a = length rs /\ forall i, (i < length rs)%nat -> nth i a 0 = V i k.
Proof.
  intros cols ND LR HV. unfold read_file. cbn [length read_lines read_line bindR r_names r_ix r_arr]. rewrite map_length. cbn [Nat.sub]. rewrite Nat.sub_0_r. fold cols. cbv zeta.
  destruct (read_rows num (S (length rs)) cols (length rs) V ND rs (mkRs (Some cols) (mem_str (L "third_var") cols)
    (map (fun c => (c, repeat 0 (length rs))) (rev cols) ++ [(L "set", repeat 0 (length rs)); (L "dthird_var", repeat 0 (length rs)); (L "third_var", repeat 0 (length rs))] ++ []) [] 0)) as (st' & E & X & T & I).
  - reflexivity.
  - cbn [r_ix]. lia.
  - exact LR.
  - exact HV.
  - intros k K NN. cbn [r_arr r_ix]. eexists. split; [apply attr_zeros; now apply nth_In |]. split; [apply repeat_length |]. intros; lia.
  - exists st'. split; [exact E |]. cbn [r_ix r_third] in *. rewrite X in *. cbn [Nat.add] in *. repeat split; auto; rewrite T; [apply mem_str_In | apply mem_str_In].
Qed.
(** FINDING: a line with '#' anywhere after the rows sets every array to zero *)
Lemma read_app num nl ls : forall ls' st, read_lines num nl st (ls ++ ls') = bindR (read_lines num nl st ls) (fun s => read_lines num nl s ls').
Proof. induction ls as [| l ls IH]; intros ls' st; cbn [app read_lines bindR]; [reflexivity |]. destruct (read_line num nl st l); cbn [bindR]; [apply IH | reflexivity]. Qed.
Theorem C148_comment_refuted num ls ws st c : read_file num (ls ++ [Head ws]) = Ok st -> In c (columns ws) -> attr c (r_arr st) = Some (repeat 0 (length ls)).
Proof.
  unfold read_file. rewrite app_length. cbn [length]. rewrite read_app. destruct (read_lines _ _ _ ls) as [s | e]; [| discriminate]. cbn [bindR read_lines read_line]. intro H. injection H as <-. intro I. cbn [r_arr].
  replace (length ls + 1 - 1)%nat with (length ls) by lia. now apply attr_zeros.
Qed.
(** FINDING: a column 'name' replaces the name of the data set by zeros *)
Lemma put_row_name num ix : forall l t t', put_row num ix l t = Ok t' -> attr (L "name") (r_arr t') = attr (L "name") (r_arr t).
Proof.
  induction l as [| [c v] l IHl]; intros t t' Q; cbn [put_row] in Q; [injection Q as <-; reflexivity |]. destruct (str_eqb c (L "name")) eqn:N; [rewrite (IHl _ _ Q); reflexivity |]. destruct (num v); [| discriminate]. destruct (attr c (r_arr t)); [| discriminate].
  destruct (Nat.ltb _ _); [| discriminate]. rewrite (IHl _ _ Q). cbn [r_arr]. rewrite attr_set. destruct (str_eqb (L "name") c) eqn:M; [| reflexivity]. apply eqb_str in M as <-. rewrite (proj2 (eqb_str _ _) eq_refl) in N. discriminate.
Qed.
Lemma read_name num nl : forall rs s st, read_lines num nl s (map Row rs) = Ok st -> attr (L "name") (r_arr st) = attr (L "name") (r_arr s).
Proof.
  induction rs as [| r rs IH]; intros s st H; cbn [map read_lines] in H; [injection H as <-; reflexivity |].
  cbn [read_line] in H. destruct (r_cols s) as [cols |]; [| discriminate]. destruct (put_row num (r_ix s) (combine cols r) s) as [s1 | e] eqn:E; [| discriminate]. cbn [bindR] in H. rewrite (IH _ _ H). cbn [r_arr].
  exact (put_row_name num (r_ix s) _ _ _ E).
Qed.
Theorem C148_name_refuted num ws rs st : read_file num (Head ws :: map Row rs) = Ok st -> In (L "name") (columns ws) -> attr (L "name") (r_arr st) = Some (repeat 0 (length rs)).
Proof.
  unfold read_file. cbn [length read_lines read_line bindR r_names r_ix r_arr]. cbv zeta. intros H I. rewrite (read_name _ _ _ _ _ H). cbn [r_arr]. rewrite map_length. cbn [Nat.sub]. rewrite Nat.sub_0_r. apply attr_zeros. exact I.
Qed.
(** the arrays have an element for every line but one; there are as many supernovae as rows *)
Lemma put_row_keep num ix : forall l t t', put_row num ix l t = Ok t' -> r_ix t' = r_ix t /\ forall c a, attr c (r_arr t') = Some a -> exists a0, attr c (r_arr t) = Some a0 /\ length a = length a0.
Proof.
  induction l as [| [c v] l IH]; intros t t' Q; cbn [put_row] in Q; [injection Q as <-; split; [reflexivity | eauto] |]. destruct (str_eqb c (L "name")); [apply IH in Q as (A & B); split; [exact A | exact B] |].
  destruct (num v); [| discriminate]. destruct (attr c (r_arr t)); [| discriminate]. destruct (Nat.ltb _ _); [| discriminate]. apply IH in Q as (A & B). split; [exact A |]. intros c' a E. destruct (B c' a E) as (a0 & E0 & L0). cbn [r_arr] in E0.
  rewrite attr_set in E0. destruct (str_eqb c' c); [| eauto]. destruct (attr c' (r_arr t)) as [a1 |]; [| discriminate]. cbn [option_map] in E0. injection E0 as <-. rewrite set_nth_len in L0. eauto.
Qed.
Theorem C148_length num ls st : read_file num ls = Ok st -> r_ix st = rows ls /\ forall c a, attr c (r_arr st) = Some a -> length a = (length ls - 1)%nat.
Proof.
  unfold read_file. generalize (length ls) as nl. intro nl. set (s := mkRs None false [] [] 0). assert (P0 : forall c a, attr c (r_arr s) = Some a -> length a = (nl - 1)%nat) by (intros c a; discriminate).
  change (rows ls) with (r_ix s + rows ls)%nat. clearbody s. revert s P0. induction ls as [| l ls IH]; intros s P0 H; cbn [read_lines] in H; [injection H as <-; split; [cbn; lia | exact P0] |].
  destruct (read_line num nl s l) as [s1 | e] eqn:E; [| discriminate]. cbn [bindR] in H.
  assert (Q : r_ix s1 = (r_ix s + rows [l])%nat /\ forall c a, attr c (r_arr s1) = Some a -> length a = (nl - 1)%nat).
  { destruct l as [ws | | ws]; cbn [read_line] in E.
    - injection E as <-. split; [cbn; lia |]. cbn [r_arr]. intros c a. generalize (rev (columns ws)). induction l as [| b l IHl]; cbn [map app attr].
      + repeat (match goal with |- context [if ?b then _ else _] => destruct b end; [intro Q; injection Q as <-; apply repeat_length |]). apply P0.
      + destruct (str_eqb c b); [intro Q; injection Q as <-; apply repeat_length | exact IHl].
    - injection E as <-. split; [cbn; lia | exact P0].
    - destruct (r_cols s); [| discriminate]. destruct (put_row _ _ _ s) as [s2 |] eqn:E2; [| discriminate]. cbn [bindR] in E. injection E as <-. apply put_row_keep in E2 as (A & B). cbn [r_ix r_arr]. split; [cbn; lia |].
      intros c a E. destruct (B c a E) as (a0 & E0 & L0). rewrite L0. eauto. }
  destruct Q as (Q1 & Q2). destruct (IH s1 Q2 H) as (R1 & R2). split; [| exact R2]. assert (RL : rows (l :: ls) = (rows [l] + rows ls)%nat) by (destruct l; reflexivity). lia.
Qed.
(** FINDING: with an empty line the arrays are longer than the number of supernovae *)
Theorem C148_blank_refuted num ls st c a : In Blank ls -> (exists ws, In (Head ws) ls) -> read_file num ls = Ok st -> attr c (r_arr st) = Some a -> (r_ix st < length a)%nat.
Proof.
  intros IB (ws & IH) H E. apply C148_length in H as (-> & HL). rewrite (HL c a E). apply in_split in IH as (l1 & l2 & ->). assert (IB' : In Blank (l1 ++ l2)) by (apply in_app_iff in IB; apply in_app_iff; destruct IB as [I | [I | I]]; [now left | discriminate | now right]).
  unfold rows. rewrite filter_app. cbn [filter]. rewrite <- filter_app. rewrite app_length. cbn [length]. replace (length l1 + S (length l2) - 1)%nat with (length (l1 ++ l2)) by (rewrite app_length; lia).
  apply in_split in IB' as (m1 & m2 & ->). rewrite filter_app. cbn [filter]. rewrite !app_length. cbn [length].
  assert (F : forall l, (length (filter (fun l0 => match l0 with Row _ => true | _ => false end) l) <= length l)%nat) by (induction l as [| [] l IHl]; cbn; lia). pose proof (F m1). pose proof (F m2). lia.
Qed.
(** ** Examples: one supernova; the covariance 2 - 2 alpha^2 has no inverse for alpha = 1 *)
Definition ex_D : data := mkData 1 (fun _ => 1) (fun _ => 1) (fun _ => 24) (fun _ => 1) (fun _ => 1) (fun _ => 0) (fun _ => 0) (fun _ => 0) (fun _ => 9) (fun _ => 0) (fun _ => 0) (fun _ => 0) 0.
Definition ex_C : pcovs := mkPc (Some (fun _ _ => 1)) (Some (fun _ _ => -2)) None None None None.
Definition ex_inv : SnpModel.inverter := fun _ M => if Req_EM_T (M 0%nat 0%nat) 0 then None else Some (fun _ _ => / M 0%nat 0%nat).
Definition ex_finv : SnModel.inverter := fun _ M => Some (fun _ _ => / M 1%nat 1%nat).
Lemma ex_pre i : pre_vars ex_D i = 1.
Proof. unfold pre_vars. cbn [ex_D d_mag_var d_pecz]. rewrite (pow_i 2) by lia. ring. Qed.
Lemma ex_cov a b : covmat ex_C ex_D a b 0 0 = 2 - 2 * a * a.
Proof. unfold covmat, delta. change (alphabeta_covmat ex_C) with true. cbn [Nat.eqb]. rewrite ex_pre. cbn. ring. Qed.
Example C148_ex_data : alphabeta_covmat ex_C = true /\ (0 < count ex_C)%nat /\ new_point 0 2 (mkCache None None) /\ same_inv (d_n ex_D) ex_inv ex_finv ex_C ex_D 0 2.
Proof.
  repeat split; [cbn; lia |]. exists (fun _ _ => / covmat ex_C ex_D 0 2 0%nat 0%nat). split; [| split].
  - unfold ex_inv. rewrite ex_cov. destruct (Req_EM_T (2 - 2 * 0 * 0) 0); [exfalso; lra | reflexivity].
  - reflexivity.
  - eexists. split; [reflexivity |]. intros i j I J _. unfold fmat. rewrite C148_cov by (try reflexivity; lia). reflexivity.
Qed.
Example C148_ex_close : ex_inv 1%nat (covmat ex_C ex_D 0 2) <> None /\ Rabs (/ 10 ^ 9 - 0) <= / 10 ^ 8 + / 10 ^ 5 * Rabs 0 /\ covmat ex_C ex_D (/ 10 ^ 9) 2 0 0 <> covmat ex_C ex_D 0 2 0 0.
Proof.
  repeat split.
  - unfold ex_inv. rewrite ex_cov. destruct (Req_EM_T (2 - 2 * 0 * 0) 0); [exfalso; lra | discriminate].
  - rewrite Rminus_0_r, Rabs_R0, Rabs_pos_eq by lra. lra.
  - rewrite !ex_cov. lra.
Qed.
Example C148_ex_failed : ex_inv 1%nat (covmat ex_C ex_D 0 2) <> None /\ far 1 2 0 2 /\ ex_inv 1%nat (covmat ex_C ex_D 1 2) = None.
Proof.
  unfold ex_inv. rewrite !ex_cov. repeat split.
  - destruct (Req_EM_T (2 - 2 * 0 * 0) 0); [exfalso; lra | discriminate].
  - left. rewrite Rminus_0_r, Rabs_R0, Rabs_R1. lra.
  - destruct (Req_EM_T (2 - 2 * 1 * 1) 0); [reflexivity | exfalso; lra].
Qed.
Example C148_ex_mag : alphabeta_covmat (mkPc (Some (fun _ _ => 1)) None None None None None) = false /\ (forall i, (i < d_n ex_D)%nat -> 0 < pre_vars ex_D i) /\ (0 < d_n ex_D)%nat.
Proof. repeat split; [intros; rewrite ex_pre; lra | cbn; lia]. Qed.
Example C148_ex_grid : marge_points 1 = [(-1, 0); (0, -1); (0, 0); (0, 1); (1, 0)]%Z. Proof. reflexivity. Qed.
Example C148_ex_spaced : spaced [(0, 2); (/ 2, 2)] /\ exact ex_inv ex_C ex_D (mkCache None None) /\ forall p, In p [(0, 2); (/ 2, 2)] -> ex_inv (d_n ex_D) (covmat ex_C ex_D (fst p) (snd p)) <> None.
Proof.
  repeat split.
  - intros p q [<- | [<- | []]] [<- | [<- | []]]; cbn [fst snd]; try (left; reflexivity); right; left.
    + replace (0 - / 2) with (- (/ 2)) by ring. rewrite Rabs_Ropp, Rabs_pos_eq by lra. lra.
    + rewrite Rabs_R0, Rminus_0_r, Rabs_pos_eq by lra. lra.
  - intros p [<- | [<- | []]]; unfold ex_inv; rewrite ex_cov; cbn [fst]; match goal with |- context [Req_EM_T ?x 0] => destruct (Req_EM_T x 0) as [H | H]; [exfalso; lra | discriminate] end.
Qed.
Example C148_ex_sets : two_sets true 10 ex_D = None /\ exists A1 A2, two_sets true 10 (mkData 2 (fun _ => 1) (fun _ => 1) (fun _ => 24) (fun _ => 1) (fun _ => 1) (fun _ => 0) (fun _ => 0) (fun _ => 0) (fun i => INR i * 20) (fun _ => 0) (fun _ => 0) (fun _ => 0) 0) = Some (A1, A2).
Proof.
  split; unfold two_sets; cbn [d_n d_third ex_D seq existsb INR].
  - destruct (Rle_dec 9 10); [reflexivity | lra].
  - destruct (Rle_dec (0 * 20) 10); [| lra]. destruct (Rle_dec (1 * 20) 10); [lra |]. cbn. eauto.
Qed.
Example C148_ex_marge : [1; 2] <> [] /\ 0 < 1 / 100. Proof. split; [discriminate | lra]. Qed.
Example C148_ex_columns : columns [L "name"; L "zcmb"; L "mb"; L "dmb"; L "x1"; L "color"; L "3rdvar"; L "cov_m_s"] = [L "name"; L "zcmb"; L "mag"; L "dmb"; L "stretch"; L "colour"; L "third_var"; L "cov_mag_stretch"].
Proof. reflexivity. Qed.
Example C148_ex_read (f : str -> R) : let ws := [L "name"; L "zcmb"; L "mb"] in let rs := [[L "a"; L "1"; L "22"]; [L "b"; L "333"; L "1"]] in
  NoDup (columns ws) /\ (forall r, In r rs -> length r = length (columns ws)) /\
  bindR (read_file (fun w => Some (f w)) (Head ws :: map Row rs)) (fun st => Ok (attr (L "mag") (r_arr st), attr (L "zcmb") (r_arr st), r_names st)) = Ok (Some [f (L "22"); f (L "1")], Some [f (L "1"); f (L "333")], [L "a"; L "b"]) /\
  bindR (read_file (fun w => Some (f w)) (Head ws :: Blank :: map Row rs)) (fun st => Ok (option_map (@length R) (attr (L "mag") (r_arr st)), r_ix st)) = Ok (Some 3%nat, 2%nat).
Proof.
  repeat split.
  - change (columns [L "name"; L "zcmb"; L "mb"]) with [L "name"; L "zcmb"; L "mag"]. repeat (apply NoDup_cons; [cbn; intuition discriminate |]). apply NoDup_nil.
  - intros r [<- | [<- | []]]; reflexivity.
Qed.
Print Assumptions C148_precompute.
Print Assumptions C148_read.
