(** Vocabulary for kernel density estimates on a grid of pairs of integers. *)
From Coq Require Import Reals ZArith List Bool.
From Verif Require Import ConvModel KdeSpec.
Import ListNotations.
Local Open Scope R_scope.

(** sum over d, e = -w .. w *)
Definition wsum2 (w : nat) (f : Z -> Z -> R) : R := wsum w (fun d => wsum w (f d)).
(** an array of N rows and columns, with zeros outside *)
Definition inside (N : nat) (i : Z) : bool := (0 <=? i)%Z && (i <? Z.of_nat N)%Z.
Definition zat2 (N : nat) (m : mat) (i j : Z) : R := if inside N i && inside N j then m_at m (Z.to_nat i) (Z.to_nat j) else 0.
(** f seen through the kernel g *)
Definition blur2 (w : nat) (g f : Z -> Z -> R) (i j : Z) : R := wsum2 w (fun d e => g d e * f (i - d)%Z (j - e)%Z).
(** the correlated Gaussian kernel cut at w bins, of sum 1; d counts rows (y), e columns (x) *)
Definition gauss2 (c00 c11 c10 : R) (d e : Z) : R := exp (- (IZR d ^ 2 * c00 + IZR e ^ 2 * c11 + 2 * c10 * IZR d * IZR e) / 2).
Definition k2 (w : nat) (c00 c11 c10 : R) (d e : Z) : R := gauss2 c00 c11 c10 d e / wsum2 w (gauss2 c00 c11 c10).
(** the part of a bin that the limits leave: [share] of KdeSpec for each parameter *)
Definition share2 (N : nat) (xb xt yb yt : bool) (i j : Z) : R := share N yb yt i * share N xb xt j.
(** samples near bin (i, j) *)
Definition reached2 (w N : nat) (m : mat) (i j : Z) : Prop := exists d e, (- Z.of_nat w <= d <= Z.of_nat w)%Z /\ (- Z.of_nat w <= e <= Z.of_nat w)%Z /\ 0 < zat2 N m (i - d) (j - e).
Definition sizes2 (N w : nat) : Prop := (1 <= w)%nat /\ (2 <= N)%nat /\ (Z.of_nat (N + 4 * w + 1) <= 2013265920)%Z.
Definition square (N : nat) (m : mat) : Prop := m_rows m = N /\ m_cols m = N.
Definition nonneg2 (N : nat) (m : mat) : Prop := forall i j, (i < N)%nat -> (j < N)%nat -> 0 <= m_at m i j.
