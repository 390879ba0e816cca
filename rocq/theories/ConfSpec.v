(** Tail weights. *)
From Verif Require Import PyStr ThinModel.
From Coq Require Import QArith.
Local Open Scope nat_scope.
(** total weight of the samples satisfying [p] *)
Definition mass (p : Q -> bool) (vw : list (Q * Q)) : Q := sumQ (map snd (filter (fun x => p (fst x)) vw)).
Definition below (x y : Q) : bool := negb (Qle_bool x y).
Definition upto (x y : Q) : bool := Qle_bool y x.
Definition above (x y : Q) : bool := negb (Qle_bool y x).
Definition atleast (x y : Q) : bool := Qle_bool x y.
