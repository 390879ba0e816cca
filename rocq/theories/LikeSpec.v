(** What the evaluation of likelihoods should give: everything computed from scratch at the parameters, nothing reused. *)
From Coq Require Import Reals List Bool.
From Verif Require Import StatModel McmcModel LikeModel.
Import ListNotations.
Local Open Scope R_scope.
Local Open Scope list_scope.

(** sums in which logZero stands for an impossible point *)
Definition zsum (a b : R) : R := if Req_EM_T a logZero then logZero else if Req_EM_T b logZero then logZero else a + b.

(** a Gaussian with maximum 1; no prior for a width of 0 *)
Definition gaussian (x mean std : R) : R := if Req_EM_T std 0 then 1 else exp (- ((x - mean) ^ 2 / (2 * std ^ 2))).
Definition prodR (l : list R) : R := fold_right Rmult 1 l.

Section Spec.
  Context {Tr D Pw Bg : Type}.
  Variable C : config Tr D Pw Bg.
  (** the theory at P *)
  Definition fresh_theory (P : list R) : option (theory D Pw) :=
    if use_theory C then
      match camb_transfer C (firstn (nh C + ni C) P) with
      | Some (tr, d) => match camb_power C (firstn (nh C + ni C) P) tr with
                        | Some w => Some (mkTh (Some d) (Some w)) | None => None end
      | None => None
      end
    else match camb_thermal C (firstn (nh C) P) with Some d => Some (mkTh (Some d) None) | None => None end.
  Definition fresh_like (P : list R) (t : theory D Pw) (k : like D Pw Bg) : R :=
    lk_val k P t (Some (camb_background C (firstn (nh C) P))).
  (** minus the log of the likelihood at P, with the priors on derived quantities *)
  Definition fresh_main (P : list R) : R :=
    match fresh_theory P with
    | None => logZero
    | Some t =>
        let ls := map (fresh_like P t) (likes C) in
        if existsb (fun l => if Req_EM_T l logZero then true else false) ls then logZero
        else zsum (prior0 C P) (sumR ls)
    end.
  (** minus the log of the posterior at temperature T; logZero for an impossible point *)
  Definition total (P : list R) : R :=
    if Req_EM_T (bounds C P) logZero then logZero
    else if Req_EM_T (prior0 C P) logZero then logZero
    else if Req_EM_T (fresh_main P) logZero then logZero
    else let l := bounds C P + fresh_main P / T C in
         if Req_EM_T l logZero then logZero else if Req_EM_T (priors C P) logZero then logZero else l + priors C P / T C.

  (** Assumptions on the external parts: dependent_params is right, likelihoods without background parameters do not use the
      background, every likelihood depends on some parameter, and with block_semi_fast transfer functions only depend on the hard
      parameters. *)
  Definition dep_right (k : like D Pw Bg) : Prop :=
    forall P P' t t', length P = np C -> length P' = np C -> fresh_theory P = Some t -> fresh_theory P' = Some t' ->
      (forall j, nth j (lk_dep k) false = true -> nth j P 0 = nth j P' 0) -> fresh_like P t k = fresh_like P' t' k.
  Definition no_background (k : like D Pw Bg) : Prop :=
    (forall j, (j < nh C)%nat -> nth j (lk_dep k) false = false) -> forall P t b b', lk_val k P t b = lk_val k P t b'.
  Definition has_param (k : like D Pw Bg) : Prop := exists j, (j < np C)%nat /\ nth j (lk_dep k) false = true.
  Record sound_config : Prop := mkSC {
    sc_dep : Forall dep_right (likes C);
    sc_bg : Forall no_background (likes C);
    sc_par : Forall has_param (likes C);
    sc_semi : block_semi_fast C = true -> forall P P', firstn (nh C) P = firstn (nh C) P' ->
                camb_transfer C (firstn (nh C + ni C) P) = camb_transfer C (firstn (nh C + ni C) P');
    sc_np : (nh C + ni C <= np C)%nat;
    sc_hard : (0 < nh C)%nat }.

  (** the parameters dragging proposals may not change *)
  Definition slow_params : nat := if block_semi_fast C then nh C else (nh C + ni C)%nat.
  (** a move with arrays of the right length; the changes in a dragging step are of fast parameters *)
  Definition sound_delta (d : list R) : Prop := length d = np C /\ forall j, (j < slow_params)%nat -> nth j d 0 = 0.
  Definition sound_move (m : move) : Prop :=
    match m with
    | Metropolis P _ _ => length P = np C
    | Dragging P l _ _ => length P = np C /\ Forall (fun q => sound_delta (fst q)) l
    end.
  (** a point that was not evaluated: parameters read from the start values or from a chain file *)
  Definition unevaluated (p : point D Pw) : Prop :=
    length (pt_P p) = np C /\ length (pt_likes p) = length (likes C) /\ pt_valid p = false /\ pt_th p = None /\ pt_info p = None.
  (** a point whose stored theory and likelihoods are those of its parameters *)
  Definition right_point (p : point D Pw) : Prop :=
    exists t, fresh_theory (pt_P p) = Some t /\ pt_th p = Some t /\ pt_likes p = map (fresh_like (pt_P p) t) (likes C).
End Spec.
