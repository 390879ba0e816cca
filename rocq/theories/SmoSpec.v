(** Weighted means *)
From Coq Require Import Reals.
From Verif Require Import ConvModel.
Local Open Scope R_scope.

(** rows of weights that are not negative and sum to one *)
Definition weights (N : nat) (w : nat -> nat -> R) : Prop := forall i, (i < N)%nat -> (forall j, (j < N)%nat -> 0 <= w i j) /\ rsum N (w i) = 1.
Definition smoothed (N : nat) (w : nat -> nat -> R) (x : nat -> R) (i : nat) : R := rsum N (fun j => w i j * x j).
(** a Gaussian of width s around c *)
Definition bell (s c x : R) : R := exp (- ((x - c) ^ 2 / (2 * s ^ 2))).
Definition qform (N : nat) (C : nat -> nat -> R) (d : nat -> R) : R := rsum N (fun i => rsum N (fun j => d i * C i j * d j)).
