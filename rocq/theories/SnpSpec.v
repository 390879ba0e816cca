(** The same supernovae for the Fortran likelihood *)
From Coq Require Import Reals ZArith List.
From Verif Require Import BaoModel BaoSpec SnModel SnpModel.
Import ListNotations.
Local Open Scope R_scope.

(** supernova i of the Python arrays is i + 1 in Fortran; no absolute distance, no intrinsic dispersion *)
Definition fsn (D : data) (i : nat) : sn := let k := (i - 1)%nat in
  mkSn (d_zhel D k) (d_zcmb D k) (d_mag D k) (d_mag_var D k) (d_stretch D k) (d_stretch_var D k) (d_colour D k) (d_colour_var D k) (d_third D k) (d_cms D k) (d_cmc D k) (d_csc D k) false 0.
Definition fmat (M : nat -> nat -> R) (i j : nat) : R := M (i - 1)%nat (j - 1)%nat.
Definition fvec (v : nat -> R) (i : nat) : R := v (i - 1)%nat.
Definition fcovs (C : pcovs) : covs := mkCovs (option_map fmat (k_mag C)) (option_map fmat (k_stretch C)) (option_map fmat (k_colour C)) (option_map fmat (k_ms C)) (option_map fmat (k_mc C)) (option_map fmat (k_sc C)).
Definition ftwo (t : option ((nat -> R) * (nat -> R))) : option ((nat -> R) * (nat -> R)) := option_map (fun p => (fvec (fst p), fvec (snd p))) t.
(** the Fortran inversion gives the same inverse *)
Definition same_inv (n : nat) (pinv : SnpModel.inverter) (finv : SnModel.inverter) (C : pcovs) (D : data) (alpha beta : R) : Prop :=
  exists W, pinv n (covmat C D alpha beta) = Some W /\ (forall i j, (i < n)%nat -> (j < n)%nat -> W i j = W j i) /\
    exists U, finv n (cov_matrix (fcovs C) alpha beta (fun i => pre_vars D (i - 1)) (fsn D)) = Some U /\ forall i j, (1 <= i <= n)%nat -> (1 <= j <= n)%nat -> (i <= j)%nat -> U i j = fmat W i j.
(** the point (alpha, beta) is not taken for (a, b) *)
Definition far (alpha beta a b : R) : Prop := / 10 ^ 8 + / 10 ^ 5 * Rabs a < Rabs (alpha - a) \/ / 10 ^ 8 + / 10 ^ 5 * Rabs b < Rabs (beta - b).
Definition new_point (alpha beta : R) (c : cache) : Prop := match c_last c with Some (a, b) => far alpha beta a b | None => True end.
(** the inverse that is kept is the one of the last point *)
Definition exact (inv : SnpModel.inverter) (C : pcovs) (D : data) (c : cache) : Prop :=
  match c_last c with Some (a, b) => exists W, c_inv c = Some W /\ inv (d_n D) (covmat C D a b) = Some W | None => c_inv c = None end.
(** two points of the grid are the same or not taken for each other *)
Definition spaced (grid : list (R * R)) : Prop := forall p q, In p grid -> In q grid -> p = q \/ far (fst p) (snd p) (fst q) (snd q).
(** data rows of a file *)
Definition rows (ls : list line) : nat := length (filter (fun l => match l with Row _ => true | _ => false end) ls).
