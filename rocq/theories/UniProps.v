(** Properties of the likelihood of the Union 2.1 supernovae (C153) *)
From Coq Require Import Reals Lra Lia Arith String.
From Verif Require Import ConvModel ConvProofs UniModel UniSpec.
Local Open Scope R_scope.

Lemma ln10 : 0 < ln 10.
Proof. rewrite <- ln_1. apply ln_increasing; lra. Qed.
Lemma modulus_iff D m : 0 < D -> (is_modulus D m <-> m = 5 * log10 D + 25).
Proof.
  intro H. pose proof ln10 as L. unfold is_modulus, log10, Rpower.
  assert (E : ln (D * 100000) = ln D + 5 * ln 10). { replace 100000 with (10 ^ 5) by (cbn [pow]; lra). rewrite ln_mult by (try lra; apply pow_lt; lra). rewrite ln_pow by lra. f_equal. f_equal. cbn [INR]. lra. }
  assert (P : 0 < D * 100000) by lra. split; intro Q.
  - assert (K : m / 5 * ln 10 = ln D + 5 * ln 10) by (rewrite <- E, <- Q, ln_exp; reflexivity). apply (Rmult_eq_reg_r (ln 10)); [| lra]. unfold Rdiv in *. rewrite !Rmult_plus_distr_r. rewrite <- (Rmult_assoc 5), (Rmult_assoc (5 * ln D)), Rinv_l by lra. lra.
  - rewrite Q. replace ((5 * (ln D / ln 10) + 25) / 5 * ln 10) with (ln D + 5 * ln 10) by (field; lra). rewrite <- E. now apply exp_ln.
Qed.
Lemma chisq_bilinear n S d : chisq n S d = bilinear n S d d.
Proof. unfold chisq, bilinear. apply rsum_ext. intros i I. rewrite <- rsum_scal. apply rsum_ext. intros j J. ring. Qed.
Lemma bilinear_ext n S a b a' b' : (forall i, (i < n)%nat -> a i = a' i) -> (forall i, (i < n)%nat -> b i = b' i) -> bilinear n S a b = bilinear n S a' b'.
Proof. intros A B. unfold bilinear. apply rsum_ext. intros i I. apply rsum_ext. intros j J. now rewrite A, B. Qed.
(** the likelihood is half the chi^2 of the differences of the moduli of the luminosity distances *)
Theorem C153_like n S z moduli DA mu : (forall i, (i < n)%nat -> 0 < luminosity (z i) (DA (z i))) -> (forall i, (i < n)%nat -> is_modulus (luminosity (z i) (DA (z i))) (mu i)) ->
  SN_LnLike n S z moduli DA = bilinear n S (fun i => mu i - moduli i) (fun i => mu i - moduli i) / 2.
Proof.
  intros P M. unfold SN_LnLike. rewrite chisq_bilinear. f_equal.
  assert (E : forall i, (i < n)%nat -> diffs z moduli DA i = mu i - moduli i).
  { intros i I. pose proof (proj1 (modulus_iff _ _ (P i I)) (M i I)) as ->. unfold diffs, luminosity. replace ((1 + z i) ^ 2 * DA (z i)) with ((1 + z i) * (1 + z i) * DA (z i)) by ring. ring. }
  apply bilinear_ext; exact E.
Qed.
(** it is zero for a model with the moduli of the data and not negative for any inverse covariance *)
Theorem C153_zero n S z moduli DA : (forall i, (i < n)%nat -> 0 < luminosity (z i) (DA (z i))) -> (forall i, (i < n)%nat -> is_modulus (luminosity (z i) (DA (z i))) (moduli i)) -> SN_LnLike n S z moduli DA = 0.
Proof.
  intros P M. rewrite (C153_like n S z moduli DA moduli P M). unfold bilinear. rewrite (rsum_ext n _ (fun _ => 0)); [rewrite rsum_zero; [lra | reflexivity] |]. intros i I. rewrite (rsum_ext n _ (fun _ => 0)); [apply rsum_zero; reflexivity |]. intros j J. ring.
Qed.
Theorem C153_nonneg n S z moduli DA : (forall d, 0 <= bilinear n S d d) -> 0 <= SN_LnLike n S z moduli DA.
Proof. intro H. unfold SN_LnLike. rewrite chisq_bilinear. pose proof (H (diffs z moduli DA)). lra. Qed.

(** ** H0 *)
Lemma bilinear_shift n S d c : symm n S -> bilinear n S (fun i => d i + c) (fun i => d i + c) = bilinear n S d d + 2 * c * bilinear n S one d + c * c * bilinear n S one one.
Proof.
  intro SY. assert (T : bilinear n S d one = bilinear n S one d). { unfold bilinear. rewrite rsum_swap. apply rsum_ext. intros i I. apply rsum_ext. intros j J. unfold one. rewrite (SY i j) by assumption. ring. }
  assert (E : bilinear n S (fun i => d i + c) (fun i => d i + c) = bilinear n S d d + c * bilinear n S one d + c * bilinear n S d one + c * c * bilinear n S one one); [| rewrite E, T; ring].
  unfold bilinear, one. rewrite <- !rsum_scal, <- !rsum_plus. apply rsum_ext. intros i I. rewrite <- !rsum_scal, <- !rsum_plus. apply rsum_ext. intros j J. ring.
Qed.
(** other distances by a factor, as those of another H0, move all moduli by one number *)
Theorem C153_scale n S z moduli DA f : symm n S -> 0 < f -> (forall i, (i < n)%nat -> 0 < luminosity (z i) (DA (z i))) -> let c := 5 * log10 f in
  SN_LnLike n S z moduli (fun x => f * DA x) = SN_LnLike n S z moduli DA + c * bilinear n S one (diffs z moduli DA) + c * c / 2 * bilinear n S one one.
Proof.
  intros SY F P c. unfold SN_LnLike. rewrite !chisq_bilinear. pose proof ln10 as L.
  assert (E : forall i, (i < n)%nat -> diffs z moduli (fun x => f * DA x) i = diffs z moduli DA i + c).
  { intros i I. unfold diffs, c, log10. pose proof (P i I) as Q. unfold luminosity in Q. replace ((1 + z i) ^ 2 * (f * DA (z i))) with (f * ((1 + z i) ^ 2 * DA (z i))) by ring. rewrite ln_mult; [field; lra | exact F |].
    replace ((1 + z i) ^ 2 * DA (z i)) with ((1 + z i) * (1 + z i) * DA (z i)) by ring. exact Q. }
  rewrite (bilinear_ext n S _ _ (fun i => diffs z moduli DA i + c) (fun i => diffs z moduli DA i + c) E E). rewrite bilinear_shift by assumption. field.
Qed.
(** H0 has no effect if the sum of each row of the inverse covariance is zero *)
Theorem C153_free n S z moduli DA f : symm n S -> 0 < f -> (forall i, (i < n)%nat -> 0 < luminosity (z i) (DA (z i))) -> (forall i, (i < n)%nat -> rsum n (S i) = 0) ->
  SN_LnLike n S z moduli (fun x => f * DA x) = SN_LnLike n S z moduli DA.
Proof.
  intros SY F P Z. pose proof (C153_scale n S z moduli DA f SY F P) as E. cbv zeta in E. rewrite E.
  assert (B : forall d, bilinear n S one d = 0).
  { intro d. unfold bilinear. rewrite rsum_swap. rewrite (rsum_ext n _ (fun _ => 0)); [apply rsum_zero; reflexivity |]. intros j J. rewrite (rsum_ext n _ (fun i => S j i * d j)) by (intros i I; unfold one; rewrite (SY i j) by assumption; ring). rewrite rsum_scal_r, Z by assumption. ring. }
  rewrite !B. ring.
Qed.
(** FINDING: the header says that the likelihood is marginalized over H0; with any inverse covariance that gives a weight to the mean of the data it depends on H0 *)
Theorem C153_marginalized_refuted n S z moduli DA : symm n S -> bilinear n S one one <> 0 -> (forall i, (i < n)%nat -> 0 < luminosity (z i) (DA (z i))) ->
  exists f, 0 < f /\ SN_LnLike n S z moduli (fun x => f * DA x) <> SN_LnLike n S z moduli DA.
Proof.
  intros SY A P. pose proof ln10 as L. assert (U : forall k, 5 * log10 (exp (k * ln 10 / 5)) = k) by (intro k; unfold log10; rewrite ln_exp; field; lra).
  set (a := bilinear n S one one) in *. set (b := bilinear n S one (diffs z moduli DA)).
  destruct (Req_dec (b + a / 2) 0) as [Z | Z]; [exists (exp (-1 * ln 10 / 5)) | exists (exp (1 * ln 10 / 5))]; (split; [apply exp_pos |]); intro E; rewrite C153_scale in E by (try assumption; apply exp_pos); rewrite U in E; fold a b in E; lra.
Qed.
(** the file with systematic errors is read if it is asked for *)
Theorem C153_file u s : union_file u s = Some "sn_wmat_sys_union2.1.txt"%string <-> u = Some true /\ s = Some true.
Proof. destruct u as [[|] |], s as [[|] |]; cbn; split; intro H; try discriminate; try (destruct H; discriminate); try (split; reflexivity); reflexivity. Qed.
(** FINDING: the default is said to be with systematic errors, and is without *)
Theorem C153_default_refuted : union_file (Some true) None = Some "sn_wmat_nosys_union2.1.txt"%string.
Proof. reflexivity. Qed.

(** ** Examples *)
Example C153_ex_like : is_modulus 10 30 /\ SN_LnLike 1 (fun _ _ => 2) (fun _ => 0) (fun _ => 27) (fun _ => 10) = 9.
Proof.
  assert (M : is_modulus 10 30). { unfold is_modulus. replace (30 / 5) with (INR 6) by (cbn [INR]; lra). rewrite Rpower_pow by lra. cbn [pow]. lra. }
  split; [exact M |]. rewrite (C153_like 1 (fun _ _ => 2) (fun _ => 0) (fun _ => 27) (fun _ => 10) (fun _ => 30)).
  - unfold bilinear. cbn [rsum]. lra.
  - intros i I. unfold luminosity. lra.
  - intros i I. unfold luminosity. replace ((1 + 0) * (1 + 0) * 10) with 10 by ring. exact M.
Qed.
Example C153_ex_free : symm 2 (fun i j => if Nat.eqb i j then 1 else -1) /\ forall i, (i < 2)%nat -> rsum 2 (fun j => if Nat.eqb i j then 1 else -1) = 0.
Proof. split; [intros i j I J; rewrite Nat.eqb_sym; reflexivity |]. intros [| [| i]] I; [| | lia]; cbn [rsum Nat.eqb]; lra. Qed.
Example C153_ex_marginalized : bilinear 2 (fun i j => if Nat.eqb i j then 1 else 0) one one = 2.
Proof. unfold bilinear, one. cbn [rsum Nat.eqb]. lra. Qed.
Example C153_ex_file : union_file (Some true) (Some true) = Some "sn_wmat_sys_union2.1.txt"%string.
Proof. reflexivity. Qed.
Print Assumptions C153_like.
Print Assumptions C153_scale.
Print Assumptions C153_marginalized_refuted.
Print Assumptions C153_file.
