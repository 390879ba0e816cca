(** Binned spectra of maps and least squares *)
From Coq Require Import Reals Arith.
From Verif Require Import ConvModel.
Local Open Scope R_scope.

(** map i is of field 0 (T), 1 (E) or 2 (B) *)
Definition field (t e i : nat) : nat := if Nat.ltb i t then 0%nat else if Nat.ltb i (t + e) then 1%nat else 2%nat.
(** number of the spectrum of two fields in TT EE BB TE TB EB *)
Definition spectrum (f g : nat) : nat := match Nat.min f g, Nat.max f g with 0, 0 => 0 | 1, 1 => 1 | 2, 2 => 2 | 0, 1 => 3 | 0, _ => 4 | _, _ => 5 end%nat.
(** C_l of two fields from D_l = l (l + 1) C_l / 2 pi; TB and EB are zero, and so are spectra that are not used *)
Definition theory_cl (has : nat -> bool) (get : nat * nat -> nat -> R) (f g l : nat) : R :=
  let k := spectrum f g in if has k then (if Nat.ltb k 4 then get (Nat.min f g, Nat.max f g) l / (if Nat.eqb l 0 then 1 else INR l * (INR l + 1) / (2 * PI)) else 0) else 0.
(** model of the data: calibrated spectra t and nuisance components, less the data *)
Definition residual (N : nat) (Jt : nat -> nat -> R) (g nuis hat t : nat -> R) (k : nat) : R := g k * (rsum N (fun i => Jt i k * t i) + nuis k) - hat k.
Definition quad (n : nat) (S : nat -> nat -> R) (d : nat -> R) : R := rsum n (fun i => rsum n (fun j => d i * S i j * d j)).
Definition symm (n : nat) (S : nat -> nat -> R) : Prop := forall i j, (i < n)%nat -> (j < n)%nat -> S i j = S j i.
Definition posdef (n : nat) (S : nat -> nat -> R) : Prop := forall d, 0 <= quad n S d.
(** a solver solves *)
Definition solves (s : nat -> (nat -> nat -> R) -> (nat -> R) -> option (nat -> R)) : Prop := forall a M v x, s a M v = Some x -> forall i, (i < a)%nat -> rsum a (fun j => M i j * x j) = v i.
