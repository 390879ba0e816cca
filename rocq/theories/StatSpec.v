(** Finite sums and proportional weight vectors. *)
From Verif Require Import StatModel.
From Coq Require Import Reals List.
Local Open Scope R_scope.
(** sum of f 0, ..., f (n-1) *)
Definition Sm (n : nat) (f : nat -> R) : R := sumR (map f (seq 0 n)).
(** equal relative weights *)
Definition proportional (u v : list R) : Prop := exists c, 0 < c /\ u = map (fun x => c * x) v.
