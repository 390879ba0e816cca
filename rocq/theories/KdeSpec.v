(** Vocabulary for kernel density estimates on a grid of integers. *)
From Coq Require Import Reals ZArith List Bool Lia.
From Verif Require Import ConvModel.
Import ListNotations.
Local Open Scope R_scope.

(** sum over d = -w .. w *)
Definition wsum (w : nat) (f : Z -> R) : R := rsum (2 * w + 1) (fun i => f (Z.of_nat i - Z.of_nat w)%Z).
(** an array, with zeros outside *)
Definition zat (l : list R) (i : Z) : R := if (i <? 0)%Z then 0 else nth (Z.to_nat i) l 0.
(** f seen through the kernel g *)
Definition blur (w : nat) (g f : Z -> R) (i : Z) : R := wsum w (fun d => g d * f (i - d)%Z).
(** the Gaussian kernel cut at w bins, of sum 1 *)
Definition gauss (h : R) (d : Z) : R := exp (- (IZR d / h) ^ 2 / 2).
Definition gk (w : nat) (h : R) (d : Z) : R := gauss h d / wsum w (gauss h).
Definition gm (w : nat) (h : R) (k : nat) (d : Z) : R := gk w h d * IZR d ^ k.
(** the part of a bin that the limits of the parameter leave: bins 0 and N - 1 are centred on the limits *)
Definition part_above (on : bool) (i : Z) : R := if on then (if (i <? 0)%Z then 0 else if (i =? 0)%Z then 1 / 2 else 1) else 1.
Definition share (N : nat) (bot top : bool) (i : Z) : R := part_above bot i * part_above top (Z.of_nat N - 1 - i).
(** samples near bin i *)
Definition reached (w : nat) (l : list R) (i : Z) : Prop := exists d, (- Z.of_nat w <= d <= Z.of_nat w)%Z /\ 0 < zat l (i - d).
(** sizes that are used: a kernel of more than 3 bins that is shorter than the array, and arrays for which there is a transform *)
Definition sizes (N w : nat) : Prop := (2 <= w)%nat /\ (2 * w + 1 <= N)%nat /\ (Z.of_nat (N + 4 * w) <= 2013265920)%Z.
Definition nonneg (l : list R) : Prop := forall x, In x l -> 0 <= x.
