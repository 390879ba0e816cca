(** Quadratic forms, equally spaced densities and moments. *)
From Coq Require Import Reals ZArith List.
From Verif Require Import StatModel StatSpec CnvgModel CnvgSpec SdModel.
Local Open Scope R_scope.

Definition quad (k : nat) (M : matrix) (v : nat -> R) : R := Sm k (fun i => Sm k (fun j => v i * v j * M i j)).
(** what Matrix_CholeskyRootInverse promises: the inverse of a matrix L with M = L L^T *)
Definition root_of (k : nat) (M A : matrix) : Prop := exists Lo : matrix,
  (forall i j, (i < k)%nat -> (j < k)%nat -> Sm k (fun m => A i m * Lo m j) = delta i j /\ Sm k (fun m => Lo i m * A m j) = delta i j /\ M i j = Sm k (fun m => Lo i m * Lo j m)).
(** at least two points at the same distance *)
Definition uniform (D : density) : Prop := (2 <= d_n D)%nat /\ 0 < d_spacing D /\ forall i, (1 <= i <= d_n D)%nat -> d_X D i = d_X D 1 + (INR i - 1) * d_spacing D.
(** moments of the window from -w to i *)
Definition moment (w : nat) (h : R) (i r : nat) : R := Sm (w + 1 + i) (fun k => Win w h (Z.of_nat k - Z.of_nat w) * IZR (Z.of_nat k - Z.of_nat w) ^ r).
