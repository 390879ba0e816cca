(** Properties of the priors of parameters and of linear combinations (C154) *)
From Coq Require Import Reals Lra Lia Arith Bool.
From Verif Require Import LcModel LcSpec.
From Coq Require Import List.
Import ListNotations.
Local Open Scope R_scope.

Lemma upd_same c i v : upd c i v i = v.
Proof. unfold upd. now rewrite Nat.eqb_refl. Qed.
Lemma upd_other c i v j : j <> i -> upd c i v j = c j.
Proof. intro H. unfold upd. destruct (Nat.eqb_spec j i); [contradiction | reflexivity]. Qed.
(** ** Reading *)
Lemma assign_spec idx : forall vs c w, NoDup idx -> assign idx vs c = Some w -> (length idx <= length vs)%nat /\ (forall k, (k < length idx)%nat -> w (nth k idx 0%nat) = nth k vs 0) /\ (forall j, ~ In j idx -> w j = c j).
Proof.
  induction idx as [| i idx IH]; intros vs c w ND H; cbn in H.
  - injection H as <-. split; [cbn; lia |]. split; [intros k K; cbn in K; lia | reflexivity].
  - destruct vs as [| v vs]; [discriminate |]. apply NoDup_cons_iff in ND. destruct ND as (NI & ND). destruct (IH vs _ w ND H) as (L & A & B). split; [cbn; lia |]. split.
    + intros [| k] K; cbn [nth]; [rewrite B by exact NI; apply upd_same | apply A; cbn in K; lia].
    + intros j J. rewrite B by (intro Q; apply J; now right). apply upd_other. intro E. apply J. left. now symmetry.
Qed.
(** each parameter of a combination has its weight, and the others have none *)
Theorem C154_weights idx weights prior c : NoDup idx -> read_comb idx weights prior = Some c ->
  (forall k, (k < length idx)%nat -> cw c (nth k idx 0%nat) = nth k weights 0) /\ (forall j, ~ In j idx -> cw c j = 0) /\ (prior = None /\ cstd c = 0 \/ exists r, prior = Some (cmean c :: cstd c :: r)).
Proof.
  unfold read_comb. intros ND H. destruct (assign idx weights (fun _ => 0)) as [w |] eqn:E; [| discriminate]. destruct (assign_spec _ _ _ _ ND E) as (_ & A & B).
  destruct prior as [[| m [| s r]] |]; try discriminate; injection H as <-; cbn [cw cstd cmean]; (split; [exact A |]; split; [exact B |]); [right; now exists r | left; now split].
Qed.
(** the program stops if and only if there are less weights than parameters or a prior without a mean and a width *)
Lemma assign_none idx : forall vs c, assign idx vs c = None <-> (length vs < length idx)%nat.
Proof. induction idx as [| i idx IH]; intros [| v vs] c; cbn; split; intro H; try discriminate; try lia; try reflexivity; [apply IH in H; lia | apply IH; lia]. Qed.
Theorem C154_stop idx weights prior : read_comb idx weights prior = None <-> (length weights < length idx)%nat \/ exists l, prior = Some l /\ (length l < 2)%nat.
Proof.
  unfold read_comb. destruct (assign idx weights (fun _ => 0)) as [w |] eqn:E.
  - assert (L : ~ (length weights < length idx)%nat) by (intro L; apply (assign_none idx weights (fun _ => 0)) in L; congruence).
    destruct prior as [[| m [| s r]] |]; split; intro H; try discriminate; try reflexivity; try (right; eexists; split; [reflexivity | cbn; lia]); destruct H as [H | (l & H & K)]; try contradiction; try discriminate. injection H as <-. cbn in K. lia.
  - apply assign_none in E. split; [now left | reflexivity].
Qed.
(** priors are read for the parameters that vary, or for all of them if those of fixed ones are included *)
Lemma read_gauss_spec vary incl line is : forall mean std m s, NoDup is -> read_gauss is vary incl line mean std = Some (m, s) ->
  (forall i, ~ In i is -> m i = mean i /\ s i = std i) /\ forall i, In i is -> (vary i || incl = true /\ exists r, line i = Some (m i :: s i :: r)) \/ ((vary i || incl = false \/ line i = None) /\ m i = mean i /\ s i = std i).
Proof.
  induction is as [| a is IH]; intros mean std m s ND H; cbn in H.
  - injection H as <- <-. split; [split; reflexivity | intros i []].
  - apply NoDup_cons_iff in ND. destruct ND as (NI & ND). destruct (vary a || incl) eqn:V.
    + destruct (line a) as [[| x [| y r]] |] eqn:Ln; try discriminate; destruct (IH _ _ _ _ ND H) as (A & B).
      * split.
        -- intros i I. destruct (A i) as (A1 & A2); [intro Q; apply I; now right |]. assert (D : i <> a) by (intro Q; apply I; left; now symmetry). rewrite upd_other in A1, A2 by exact D. now split.
        -- intros i [<- | I].
           ++ left. split; [exact V |]. exists r. destruct (A a NI) as (A1 & A2). rewrite upd_same in A1, A2. now rewrite A1, A2.
           ++ assert (D : i <> a) by (intro Q; subst; contradiction). destruct (B i I) as [B1 | (B0 & B1 & B2)]; [now left | right]. rewrite upd_other in B1, B2 by exact D. now repeat split.
      * split; [intros i I; apply A; intro Q; apply I; now right |]. intros i [<- | I]; [right; split; [now right | now apply A] | now apply B].
    + destruct (IH _ _ _ _ ND H) as (A & B). split; [intros i I; apply A; intro Q; apply I; now right |]. intros i [<- | I]; [right; split; [now left | now apply A] | now apply B].
Qed.
Theorem C154_read n vary incl line m s : read_gauss (seq 0 n) vary incl line (fun _ => 0) (fun _ => 0) = Some (m, s) -> forall i, (i < n)%nat ->
  (vary i || incl = true /\ exists r, line i = Some (m i :: s i :: r)) \/ ((vary i || incl = false \/ line i = None) /\ s i = 0).
Proof.
  intros H i I. destruct (read_gauss_spec _ _ _ _ _ _ _ _ (seq_NoDup n 0) H) as (_ & B). destruct (B i) as [B1 | (B1 & _ & B2)]; [apply in_seq; lia | now left | right; now split].
Qed.

(** ** Values *)
Definition weights_of (n : nat) (w : nat -> R) : list (nat * R) := map (fun i => (i, w i)) (seq 0 n).
Lemma fold_dot l a b x : fold_left (fun acc i => acc + a i * b i) l x = x + lin (map (fun i => (i, a i)) l) b.
Proof. revert x. induction l as [| i l IH]; intro x; cbn; [ring |]. rewrite IH. ring. Qed.
Lemma dot_lin n w P : dot n w P = lin (weights_of n w) P.
Proof. unfold dot, weights_of. rewrite fold_dot. ring. Qed.
(** the priors that are used: those of parameters that vary (or of all), and those of combinations *)
Definition param_priors (is : list nat) (vary : nat -> bool) (incl : bool) (mean std : nat -> R) : list prior :=
  flat_map (fun i => if (vary i || incl)%bool then if Req_EM_T (std i) 0 then [] else [([(i, 1)], mean i, std i)] else []) is.
Definition comb_priors (n : nat) (combs : list comb) : list prior := flat_map (fun c => if Req_EM_T (cstd c) 0 then [] else [(weights_of n (cw c), cmean c, cstd c)]) combs.
Lemma product_app p q P : product (p ++ q) P = product p P * product q P.
Proof. induction p as [| x p IH]; cbn; [ring |]. rewrite IH. ring. Qed.
Lemma exp_step a x s : s <> 0 -> exp (- ((a + (x / s) ^ 2) / 2)) = exp (- (a / 2)) * exp (- (x * x / (2 * (s * s)))).
Proof. intro H. rewrite <- exp_plus. f_equal. field. exact H. Qed.
(** exp(-logLike) is the product of the Gaussians *)
Theorem C154_density n vary incl mean std combs P : exp (- log_priors n vary incl mean std combs P) = product (param_priors (seq 0 n) vary incl mean std ++ comb_priors n combs) P.
Proof.
  unfold log_priors. cbv zeta. rewrite product_app.
  set (f := fun acc i => if ((vary i || incl) && (if Req_EM_T (std i) 0 then false else true))%bool then acc + ((P i - mean i) / std i) ^ 2 else acc).
  assert (A : forall l x, exp (- (fold_left f l x / 2)) = exp (- (x / 2)) * product (param_priors l vary incl mean std) P).
  { induction l as [| i l IH]; intro x; cbn [fold_left param_priors flat_map]; [cbn; ring |]. fold (param_priors l vary incl mean std). rewrite IH, product_app. unfold f at 1. destruct (vary i || incl); cbn [andb]; [| cbn; ring].
    destruct (Req_EM_T (std i) 0) as [Z | Z]; [cbn; ring |]. rewrite exp_step by exact Z. cbn [product density lin]. replace (1 * P i + 0) with (P i) by ring. ring. }
  assert (B : forall l x, exp (- (fold_left (fun acc c => if Req_EM_T (cstd c) 0 then acc else acc + ((dot n (cw c) P - cmean c) / cstd c) ^ 2) l x / 2)) = exp (- (x / 2)) * product (comb_priors n l) P).
  { induction l as [| c l IH]; intro x; cbn [fold_left comb_priors flat_map]; [cbn; ring |]. fold (comb_priors n l). rewrite IH, product_app. destruct (Req_EM_T (cstd c) 0) as [Z | Z]; [cbn; ring |]. rewrite exp_step by exact Z. cbn [product density]. rewrite <- dot_lin. ring. }
  rewrite B, A. replace (- (0 / 2)) with 0 by lra. rewrite exp_0. ring.
Qed.
(** FINDING: a combination of fixed parameters only adds its number although priors of fixed parameters are not included, where the same prior of the parameter adds nothing *)
Theorem C154_fixed_refuted : exists c line, read_comb [0%nat] [1] (line 0%nat) = Some c /\ log_priors 1 (fun _ => false) false (fun _ => 0) (fun _ => 0) [c] (fun _ => 3) = 2 /\
  exists m s, read_gauss (seq 0 1) (fun _ => false) false line (fun _ => 0) (fun _ => 0) = Some (m, s) /\ log_priors 1 (fun _ => false) false m s [] (fun _ => 3) = 0.
Proof.
  exists (mkComb 1 1 (upd (fun _ => 0) 0 1)), (fun _ => Some [1; 1]). split; [reflexivity |]. split.
  - unfold log_priors. cbn. destruct (Req_EM_T 1 0); [lra |]. lra.
  - do 2 eexists. split; [reflexivity |]. unfold log_priors. cbn. lra.
Qed.

(** ** Examples *)
Example C154_ex_weights : exists c, read_comb [2; 0]%nat [5; 7] (Some [1; 2]) = Some c /\ cw c 2%nat = 5 /\ cw c 0%nat = 7 /\ cw c 1%nat = 0.
Proof. eexists. split; [reflexivity |]. now repeat split. Qed.
Example C154_ex_stop : read_comb [2; 0]%nat [5] None = None.
Proof. reflexivity. Qed.
Example C154_ex_read : exists m s, read_gauss (seq 0 2) (fun i => Nat.eqb i 1) false (fun _ => Some [3; 4]) (fun _ => 0) (fun _ => 0) = Some (m, s) /\ s 0%nat = 0 /\ s 1%nat = 4.
Proof. do 2 eexists. split; [reflexivity |]. now split. Qed.
Example C154_ex_density : log_priors 2 (fun _ => true) false (fun _ => 1) (fun i => if Nat.eqb i 0 then 2 else 0) [mkComb 1 1 (fun _ => 1)] (fun _ => 5) = 2 + 81 / 2.
Proof. unfold log_priors. cbn. destruct (Req_EM_T 2 0); [lra |]. destruct (Req_EM_T 0 0); [| lra]. destruct (Req_EM_T 1 0); [lra |]. cbn. lra. Qed.
Print Assumptions C154_weights.
Print Assumptions C154_density.
Print Assumptions C154_fixed_refuted.
