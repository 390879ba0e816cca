(** Moments of a mixture, and the density at values of some of the parameters. *)
From Coq Require Import Reals List.
From Verif Require Import StatSpec CnvgModel.
Local Open Scope R_scope.

Definition mix_mean (n : nat) (w : nat -> R) (m : nat -> nat -> R) (i : nat) : R := Sm n (fun c => w c * m c i).
Definition mix_cov (n : nat) (w : nat -> R) (m : nat -> nat -> R) (C : nat -> matrix) (i j : nat) : R :=
  Sm n (fun c => w c * (C c i j + (m c i - mix_mean n w m i) * (m c j - mix_mean n w m j))).
(** the vector x has these values at these places *)
Definition has_values (ix : list nat) (v : list R) (x : nat -> R) : Prop := forall a, (a < length ix)%nat -> x (nth a ix 0%nat) = nth a v 0.
