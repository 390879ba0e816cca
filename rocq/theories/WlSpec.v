(** Measurements of weak lensing in their order, ranges of multipoles, and the Limber approximation *)
From Coq Require Import Reals ZArith Bool List.
From Verif Require Import BaoModel BaoSpec WlModel.
Import ListNotations.
Local Open Scope R_scope.

(** all measurements: number of the type in the data, type, line *)
Definition listing (types : list nat) (file : nat -> list mline) : list (nat * nat * mline) :=
  concat (map (fun k => map (fun x => (k, nth (k - 1) types O, x)) (file k)) (seq 1 (length types))).
Definition numbered {A} (l : list A) : list (nat * A) := combine (seq 1 (length l)) l.
(** a measurement is selected by its type and its angle *)
Definition selected (S : setup) (m : nat * nat * mline) : Prop :=
  let '(_, tp, x) := m in want S tp = true /\ fst (sel S tp (b1 x) (b2 x)) <= theta S (th x) <= snd (sel S tp (b1 x) (b2 x)).
Definition item_of (m : nat * nat * mline) : item := let '(k, _, x) := m in mkI k (b1 x) (b2 x) (th x).
Definition key_of (m : nat * nat * mline) : nat * nat * nat * nat := let '(k, _, x) := m in (k, b1 x, b2 x, th x).
Definition value_at (m : nat * nat * mline) : R := let '(_, _, x) := m in dat x.
(** l' holds the elements of l that satisfy P, in their order *)
Inductive chosen {A} (P : A -> Prop) : list A -> list A -> Prop :=
| chosen_nil : chosen P [] []
| chosen_yes x l l' : P x -> chosen P l l' -> chosen P (x :: l) (x :: l')
| chosen_no x l l' : ~ P x -> chosen P l l' -> chosen P (x :: l) l'.
(** ranges of integers that follow each other from a to b *)
Inductive follow : Z -> Z -> list (Z * Z) -> Prop :=
| follow_nil a : follow a (a - 1) []
| follow_cons a m b l : (a <= m)%Z -> follow (m + 1) b l -> follow a b ((a, m) :: l).
Fixpoint strictly (l : list Z) : Prop := match l with x :: (y :: _) as l' => (x < y)%Z /\ strictly l' | _ => True end.
(** sum over integers from a to b *)
Definition zsum (a b : Z) (f : Z -> R) : R := total (fun k => f (a + Z.of_nat k - 1)%Z) (Z.to_nat (b - a + 1)).
(** the weight of sources at distances beyond x *)
Definition efficiency (n : nat) (chi dchi src : nat -> R) (i : nat) : R :=
  total (fun j => if Nat.leb i j then dchi j * src j * ((chi j - chi i) / chi j) else 0) n.
(** the spectrum of two fields with kernels qa, qb: integral of q q P(l+1/2 over chi)/chi^2 *)
Definition limber_sum (n : nat) (chi dchi : nat -> R) (P : nat -> R) (qa qb : nat -> R) : R := total (fun j => dchi j * (qa j * qb j / chi j ^ 2) * P j) n.
