(** Vocabulary for properties of convolutions, independent of transforms. *)
From Verif Require Import PyStr PyBase.
From Coq Require Import Reals.
Local Open Scope nat_scope.

Definition sum_list (l : list R) : R := fold_right Rplus 0%R l.
(** all index pairs (i, j) with i < n, j < m and i + j = k *)
Definition pairs_at (n m k : nat) : list (nat * nat) := filter (fun p => fst p + snd p =? k) (list_prod (seq 0 n) (seq 0 m)).
(** coefficient k of the product of two polynomials: the exact linear convolution *)
Definition conv_coef (x y : list R) (k : nat) : R :=
  sum_list (map (fun p => nth (fst p) x 0 * nth (snd p) y 0)%R (pairs_at (length x) (length y) k)).
(** [r] has [len] entries, entry [k] being entry [start + k] of the linear convolution *)
Definition conv_part (x y : list R) (start len : nat) (r : list R) : Prop :=
  length r = len /\ forall k, k < len -> nth k r 0%R = conv_coef x y (start + k).
(** the same in two dimensions, for arrays given by shape and entries *)
Definition conv_coef2 (n1 m1 n2 m2 : nat) (x y : nat -> nat -> R) (k l : nat) : R :=
  sum_list (map (fun p => sum_list (map (fun q => x (fst p) (fst q) * y (snd p) (snd q))%R (pairs_at n2 m2 l))) (pairs_at n1 m1 k)).
(** auto-covariance sum at lag k *)
Definition lag_sum (x : list R) (k : nat) : R := sum_list (map (fun i => nth i x 0 * nth (i + k) x 0)%R (seq 0 (length x - k))).
(** which part of the linear convolution of arrays of [n] and [m] numbers each mode asks for: start and number of entries *)
Inductive part_of (n m : nat) : bool -> bool -> nat -> nat -> Prop :=
| part_full : part_of n m true true 0 (n + m - 1)
| part_same : part_of n m true false ((m - 1) / 2) n
| part_valid : part_of n m false false (m - 1) (n + 1 - m).
(** value of the polynomial with the given coefficients *)
Fixpoint polyval (l : list R) (t : R) : R := match l with [] => 0%R | a :: r => (a + t * polyval r t)%R end.
