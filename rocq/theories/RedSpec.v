(** Grids of redshifts *)
From Coq Require Import Reals List.
Import ListNotations.
Local Open Scope R_scope.

Fixpoint rising (l : list R) : Prop :=
  match l with [] => True | x :: l' => (forall y, In y l' -> x < y) /\ rising l' end.
(** steps of ln(1+z) between neighbours are at most h *)
Fixpoint fine (h : R) (l : list R) : Prop :=
  match l with x :: ((y :: _) as l') => ln (1 + y) - ln (1 + x) <= h /\ fine h l' | _ => True end.
