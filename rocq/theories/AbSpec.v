(** What likelihoods of the Hubble constant and of abundances should be. *)
From Coq Require Import Reals String.
Local Open Scope R_scope.

(** density of a normal distribution *)
Definition normal (mu sigma x : R) : R := exp (- ((x - mu) ^ 2 / (2 * sigma ^ 2))) / (sigma * sqrt (2 * PI)).
(** helium in a mix of nH hydrogen atoms and nHe helium atoms: by mass, and by the number of nucleons *)
Definition by_mass (mH mHe nH nHe : R) : R := mHe * nHe / (mH * nH + mHe * nHe).
Definition by_nucleons (nH nHe : R) : R := 4 * nHe / (nH + 4 * nHe).
(** columns of the tables that belong to a measurement: value and error *)
Inductive columns : string -> nat -> nat -> Prop := col_Yp : columns "Yp" 5 6 | col_DH : columns "D/H" 7 8.
