(** Distance moduli and their chi^2 *)
From Coq Require Import Reals.
From Verif Require Import ConvModel.
Local Open Scope R_scope.

(** the distance modulus is m when ten to the power m / 5 is the luminosity distance in units of 10 pc; distances D are in Mpc *)
Definition is_modulus (D m : R) : Prop := Rpower 10 (m / 5) = D * 100000.
(** luminosity distance from the angular diameter distance *)
Definition luminosity (z D : R) : R := (1 + z) * (1 + z) * D.
Definition bilinear (n : nat) (S : nat -> nat -> R) (a b : nat -> R) : R := rsum n (fun i => rsum n (fun j => a i * S i j * b j)).
Definition symm (n : nat) (S : nat -> nat -> R) : Prop := forall i j, (i < n)%nat -> (j < n)%nat -> S i j = S j i.
Definition one (i : nat) : R := 1.
