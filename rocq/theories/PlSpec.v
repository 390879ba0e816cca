(** What the binned Planck likelihood should be. *)
From Coq Require Import Reals ZArith String List.
From Verif Require Import BaoSpec.
Import ListNotations.
Local Open Scope R_scope.

(** the spectra in the order of the data: TT, TE, EE *)
Definition spectrum (i : nat) (name : string) (a b : nat) : Prop :=
  (i, name, a, b) = (1%nat, "TT"%string, 1%nat, 1%nat) \/ (i, name, a, b) = (2%nat, "TE"%string, 2%nat, 1%nat) \/ (i, name, a, b) = (3%nat, "EE"%string, 2%nat, 2%nat).
(** sum of the C_l of a bin with weights, where D_l = l (l + 1) C_l / 2 pi *)
Definition C_of (D : nat -> R) (l : nat) : R := 2 * PI * D l / (INR l * (INR l + 1)).
Fixpoint band (w : nat -> R) (C : nat -> R) (from count : nat) : R :=
  match count with O => 0 | S k => w from * C from + band w C (S from) k end.
(** matrices *)
Definition inverse_of (n : nat) (A B : nat -> nat -> R) : Prop :=
  forall i j, (1 <= i <= n)%nat -> (1 <= j <= n)%nat ->
    total (fun k => A i k * B k j) n = (if Nat.eqb i j then 1 else 0) /\ total (fun k => B i k * A k j) n = (if Nat.eqb i j then 1 else 0).
Definition covariance (n : nat) (C : nat -> nat -> R) : Prop := symmetric n C /\ forall v, 0 <= form n C v.
(** lexicographic order of (spectrum, bin) *)
Definition before (x y : nat * nat) : Prop := (fst x < fst y)%nat \/ (fst x = fst y /\ (snd x < snd y)%nat).
