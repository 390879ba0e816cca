(** Notions for likelihood statistics. *)
From Coq Require Import Reals Lia Lra List Bool Permutation.
From Verif Require Import StatModel StatSpec.
Import ListNotations.
Local Open Scope R_scope.

(** weighted mean of f of each value *)
Definition wavg (w L : list R) (f : R -> R) : R := Sm (length L) (fun i => nth i w 0 * f (nth i L 0)) / sumR w.
(** one weight for each value, none negative, not all zero *)
Definition good (w L : list R) : Prop := length w = length L /\ (forall x, In x w -> 0 <= x) /\ 0 < sumR w.
(** what argsort returns: all positions, values in ascending order *)
Definition sorts (L : list R) (ix : list nat) : Prop := Permutation ix (seq 0 (length L)) /\ forall a b, (a <= b < length L)%nat -> nth (nth a ix 0%nat) L 0 <= nth (nth b ix 0%nat) L 0.
(** total weight of some rows *)
Definition weight_of (w : list R) (ix : list nat) : R := sumR (map (fun i => nth i w 0) ix).
