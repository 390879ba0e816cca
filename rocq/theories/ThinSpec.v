(** What thinning should do, stated without reference to the algorithm. *)
From Verif Require Import PyStr.
From Coq Require Import QArith.
Local Open Scope nat_scope.

(** A whole number as a weight. *)
Definition qn (n : nat) : Q := inject_Z (Z.of_nat n).

(** The unit-weight chain: row [i] written out as many times as its weight says. *)
Definition units (ws : list nat) : list nat :=
  concat (map (fun p => repeat (fst p) (snd p)) (combine (seq 0 (length ws)) ws)).

(** Every [f]-th entry: positions f-1, 2f-1, ... *)
Definition every_kth (f : nat) (l : list nat) : list nat :=
  map (fun k => nth (k * f + (f - 1)) l 0) (seq 0 (length l / f)).

(** Total weight of the rows before row [i]. *)
Definition before (ws : list nat) (i : nat) : nat := list_sum (firstn i ws).
