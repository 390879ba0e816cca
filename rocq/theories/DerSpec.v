(** Values by their names *)
From Coq Require Import Reals String List Bool.
Import ListNotations.
Fixpoint at_name (names : list string) (d : list R) (n : string) : option R :=
  match names, d with
  | x :: names, v :: d => if (x =? n)%string then Some v else at_name names d n
  | _, _ => None
  end.
