(** Effective numbers of samples. *)
From Coq Require Import Reals List.
From Verif Require Import StatModel StatSpec.
Local Open Scope R_scope.

(** number of independent samples of weight 1 with the same sum and sum of squares of weights *)
Definition kish (w : list R) : R := Sm (length w) (fun i => nth i w 0) ^ 2 / Sm (length w) (fun i => nth i w 0 ^ 2).
(** a correlation that is at least thr up to distance K, and below it at K + 1 if that is still to be looked at *)
Definition reaches (corr : nat -> R) (thr : R) (maxoff K : nat) : Prop :=
  (K <= maxoff)%nat /\ (forall k, (1 <= k <= K)%nat -> thr <= corr k) /\ ((K < maxoff)%nat -> corr (S K) < thr).
(** sum of a correlation up to distance K *)
Definition corr_sum (corr : nat -> R) (K : nat) : R := Sm K (fun i => corr (S i)).
(** products of weights of rows k apart, less where the values differ by more than the width s; and what they exceed the mean at large distances by *)
Definition lag (s : R) (w d : list R) (k : nat) : R :=
  Sm (length d - k) (fun i => exp (- ((nth i d 0 - nth (k + i) d 0) ^ 2 / (4 * s ^ 2))) * nth i w 0 * nth (k + i) w 0).
Definition far (n : nat) (j : nat) : nat := (n / 2 + j)%nat.
Definition excess (s : R) (w d : list R) (k : nat) : R :=
  let n := length d in
  lag s w d k - (INR n - INR k) * (Sm 5 (fun j => lag s w d (far n j)) / Sm 5 (fun j => INR n - INR (far n j))).
