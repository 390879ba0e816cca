(** Specification vocabulary for the set-up of parameters *)
From Coq Require Import Reals String Ascii Bool Arith List.
From Verif Require Import PyStr NamesModel NamesSpec.
Import ListNotations.
Local Open Scope R_scope.

(** The quadratic form of a matrix, for coefficients given with their indices *)
Definition form2 (m : nat -> nat -> R) (l k : list (nat * R)) : R :=
  fold_right Rplus 0 (map (fun p => fold_right Rplus 0 (map (fun q => snd p * snd q * m (fst p) (fst q)) k)) l).
Definition form (m : nat -> nat -> R) (l : list (nat * R)) : R := form2 m l l.
Definition vector (n : nat) (l : list (nat * R)) : Prop := NoDup (map fst l) /\ forall i, In i (map fst l) -> (i < n)%nat.
Definition semidefinite (n : nat) (m : nat -> nat -> R) : Prop := forall l, vector n l -> 0 <= form m l.
Definition definite (n : nat) (m : nat -> nat -> R) : Prop :=
  forall l, vector n l -> 0 <= form m l /\ (form m l = 0 -> forall q, In q l -> snd q = 0).
(** The matrix in a file: element (x,y) is in row y and column x *)
Definition file_matrix (rows : list (list R)) (x y : nat) : R := nth x (nth y rows []) 0.
(** A range of a parameter *)
Definition within (lo hi p : R) : Prop := lo <= p <= hi.
