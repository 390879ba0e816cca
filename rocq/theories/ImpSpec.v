(** What importance sampling should give, stated without the loop of the model. *)
From Coq Require Import Reals List Bool ZArith.
From Verif Require Import StatModel McmcModel.
Import ListNotations.
Local Open Scope R_scope.
Local Open Scope list_scope.

Section Imp.
  Context {X : Type}.
  Notation row := (R * R * X)%type.          (* weight, -log(likelihood), point *)
  Definition weight_of (r : row) : R := fst (fst r).
  Definition like_of (r : row) : R := snd (fst r).
  Definition point_of (r : row) : X := snd r.

  (** The weight in a list of samples of the points that satisfy [f] *)
  Definition total (f : X -> bool) (l : list row) : R := sumR (map weight_of (filter (fun r => f (point_of r)) l)).

  (** [b] is what becomes of the samples [a]: a sample stays, in its place, or is left out *)
  Inductive becomes (goes : row -> Prop) (stays : row -> row -> Prop) : list row -> list row -> Prop :=
  | be_nil : becomes goes stays [] []
  | be_out r a b : goes r -> becomes goes stays a b -> becomes goes stays (r :: a) b
  | be_in r r' a b : stays r r' -> becomes goes stays a b -> becomes goes stays (r :: a) (r' :: b).

  (** Importance sampling with the new -log(likelihood) [L1], which is [bad] for points of no likelihood, for the points [A] that
      are allowed, with a common factor exp(o); samples of negligible weight go *)
  Definition new_weight (L1 : X -> R) (o : R) (r : row) : R := weight_of r * exp (like_of r - L1 (point_of r) + o).
  Definition importance (A : X -> bool) (L1 : X -> R) (bad least : R) (o : R) : list row -> list row -> Prop :=
    becomes (fun r => A (point_of r) = false \/ L1 (point_of r) = bad \/ new_weight L1 o r <= least)
            (fun r r' => A (point_of r) = true /\ L1 (point_of r) <> bad /\ least < new_weight L1 o r /\
                         r' = (new_weight L1 o r, L1 (point_of r), point_of r)).
  (** Only the points are selected, weights are kept *)
  Definition selected (A : X -> bool) (L1 : row -> R) (least : R) : list row -> list row -> Prop :=
    becomes (fun r => A (point_of r) = false \/ weight_of r <= least)
            (fun r r' => A (point_of r) = true /\ least < weight_of r /\ r' = (weight_of r, L1 r, point_of r)).

  (** The chain that is meant by samples of integer weights: each is repeated as often as its weight *)
  Fixpoint repeated (l : list (nat * (R * X))) : list (R * X) :=
    match l with [] => [] | (n, y) :: l' => repeat y n ++ repeated l' end.
  (** Every k-th element, after [a] have been counted *)
  Fixpoint every {A} (k a : nat) (l : list A) : list A :=
    match l with [] => [] | y :: l' => if Nat.eqb (S a) k then y :: every k 0 l' else every k (S a) l' end.
  Definition weighted (l : list (nat * (R * X))) : list row := map (fun q => (INR (fst q), fst (snd q), snd (snd q))) l.

  Definition least_of (l : list R) (v : R) : Prop := In v l /\ forall u, In u l -> v <= u.
End Imp.

(** The number n of rows to leave out at the beginning *)
Definition nearest (x : R) (n : nat) : Prop := x - / 2 < INR n <= x + / 2.
Definition floor_of (x : R) (n : nat) : Prop := INR n <= x < INR n + 1.
(** The rows to leave out of a file of [len] rows for redo_skip = f; a part of the file has to be given for text files only *)
Definition dropped (text : bool) (f : R) (len n : nat) : Prop :=
  (f <= 0 /\ n = 0%nat) \/ (0 < f < 1 /\ text = true /\ nearest (INR len * f) n) \/ (1 <= f /\ floor_of f n).
(** The difference of the best likelihoods, new and old, of some samples; [bad] if none has a new likelihood *)
Definition best_difference (bad : R) (old new : list R) (d : R) : Prop :=
  exists a b, least_of new a /\ least_of old b /\ ((a <> bad /\ d = a - b) \/ (a = bad /\ d = bad)).
