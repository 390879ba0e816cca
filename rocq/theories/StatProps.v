(** C21 (covariance) and C23 (reweighting), chains.py. *)
From Coq Require Import Reals List Lra Lia.
From Verif Require Import StatModel StatSpec StatProofs.
Import ListNotations.
Local Open Scope R_scope.

(** C21: the matrix does not depend on the uninitialised memory it is built in, and each entry is the
    weighted mean product of deviations. *)
Theorem C21_entries : forall junk w ps m a b, length w = m -> Forall (fun p => length p = m) ps ->
  (a < length ps)%nat -> (b < length ps)%nat ->
  let mu p := Sm m (fun k => nth k w 0 * nth k p 0) / sumR w in
  cov junk w ps a b =
    Sm m (fun k => nth k w 0 * (nth k (nth a ps []) 0 - mu (nth a ps [])) * (nth k (nth b ps []) 0 - mu (nth b ps [])))
    / sumR w.
Proof.
  intros junk w ps m a b Hw Hp Ha Hb mu. rewrite (cov_entry junk w ps a b m) by auto. unfold get_norm. f_equal.
  rewrite Forall_forall in Hp.
  assert (E : forall i, (i < length ps)%nat -> mean w (nth i ps []) = mu (nth i ps [])).
  { intros i Hi. unfold mean, mu. rewrite dot_Sm by (rewrite (Hp (nth i ps []) (nth_In _ _ Hi)); auto). rewrite Hw. reflexivity. }
  rewrite !E by auto. reflexivity.
Qed.
Theorem C21_symmetric : forall junk w ps a b, (a < length ps)%nat -> (b < length ps)%nat ->
  cov junk w ps a b = cov junk w ps b a.
Proof. exact cov_sym. Qed.
Theorem C21_diagonal : forall junk w ps a, Forall (fun p => length p = length w) ps -> (a < length ps)%nat ->
  cov junk w ps a a = var w (nth a ps []).
Proof. exact cov_diag. Qed.
Theorem C21_positive_semidefinite : forall junk w ps (v : nat -> R), Forall (fun p => length p = length w) ps ->
  Forall (fun x => 0 <= x) w -> 0 < sumR w ->
  let n := length ps in
  0 <= Sm n (fun i => Sm n (fun j => v i * v j * cov junk w ps i j)).
Proof. exact cov_psd. Qed.
Theorem C21_weight_scale : forall junk c w ps, 0 < c -> 0 < sumR w -> Forall (fun p => length p = length w) ps ->
  (forall p, mean (map (fun x => c * x) w) p = mean w p) /\
  forall a b, (a < length ps)%nat -> (b < length ps)%nat -> cov junk (map (fun x => c * x) w) ps a b = cov junk w ps a b.
Proof.
  intros. split; intros.
  - apply mean_scal; [lra|unfold get_norm; lra].
  - apply cov_scal; auto; [lra|unfold get_norm; lra].
Qed.
Theorem C21_mean_shift : forall w p c, length w = length p -> sumR w <> 0 ->
  mean w (map (fun x => x + c) p) = mean w p + c.
Proof. exact mean_shift. Qed.

Example C21_ex : let w := [1; 2; 1] in let ps := [[1; 2; 3]; [0; 1; 5]] in
  Forall (fun p => length p = length w) ps /\ Forall (fun x => 0 <= x) w /\ 0 < sumR w /\
  cov (fun _ _ => 77) w ps 0%nat 1%nat = 5 / 4 /\ cov (fun _ _ => 77) w ps 1%nat 0%nat = 5 / 4 /\
  var w [1; 2; 3] = 1 / 2.
Proof.
  repeat split; repeat constructor; try lra; unfold sumR, cov, cov_raw, store, var, dot, mul, mean_diff, mean, get_norm, dot, mul, sumR; cbn; lra.
Qed.

(** C23: one step multiplies each weight by exp(-a) up to a common factor, adds to the likelihoods. *)
Theorem C23_formula : forall w l a, length a = length w ->
  proportional (fst (reweightAddingLogLikes (w, l) a)) (mul w (map (fun x => exp (- x)) a)) /\
  snd (reweightAddingLogLikes (w, l) a) = map (fun p => fst p + snd p) (combine l a).
Proof. intros. split; [now apply reweight_formula|reflexivity]. Qed.
Theorem C23_compose : forall w l a b, length l = length w -> length a = length w -> length b = length w ->
  let two := reweightAddingLogLikes (reweightAddingLogLikes (w, l) a) b in
  let one := reweightAddingLogLikes (w, l) (map (fun p => fst p + snd p) (combine a b)) in
  snd two = snd one /\ proportional (fst two) (fst one).
Proof. exact reweight_compose. Qed.
(** no weight grows *)
Theorem C23_weights_do_not_grow : forall w l a, length a = length w -> Forall (fun x => 0 <= x) w ->
  Forall2 (fun w' w => 0 <= w' <= w) (fst (reweightAddingLogLikes (w, l) a)) w.
Proof. exact reweight_bounded. Qed.
(** cooling: the weights are those of the likelihood raised to the power c (L is minus log likelihood) *)
Theorem C23_cool_formula : forall w l c, length l = length w ->
  snd (cool (w, l) c) = map (fun x => x * c) l /\
  proportional (fst (cool (w, l) c)) (mul w (map (fun x => exp ((1 - c) * x)) l)).
Proof. exact cool_formula. Qed.
Theorem C23_cool_compose : forall w l s t, length l = length w ->
  let two := cool (cool (w, l) s) t in
  let one := cool (w, l) (s * t) in
  snd two = snd one /\ proportional (fst two) (fst one).
Proof. exact cool_compose. Qed.
Theorem C23_cool_one : forall w l, length l = length w -> cool (w, l) 1 = (w, l).
Proof. exact cool_one. Qed.

(** likelihoods 0 and 1 with unit weights: adding the likelihoods again gives weights 1 and exp(-1) *)
Example C23_ex : reweightAddingLogLikes ([1; 1], [0; 1]) [0; 1] = ([1; exp (-1)], [0; 2]).
Proof.
  unfold reweightAddingLogLikes, mul, minR. cbn. rewrite Rmin_left by lra.
  replace (- (0 - 0)) with 0 by lra. replace (- (1 - 0)) with (-1) by lra. rewrite exp_0. repeat f_equal; lra.
Qed.

Print Assumptions C21_entries.
Print Assumptions C21_symmetric.
Print Assumptions C21_diagonal.
Print Assumptions C21_positive_semidefinite.
Print Assumptions C21_weight_scale.
Print Assumptions C21_mean_shift.
Print Assumptions C23_formula.
Print Assumptions C23_compose.
Print Assumptions C23_weights_do_not_grow.
Print Assumptions C23_cool_formula.
Print Assumptions C23_cool_compose.
Print Assumptions C23_cool_one.
