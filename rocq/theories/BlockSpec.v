(** What the blocks and proposals have to satisfy. *)
From Verif Require Import StatModel StatSpec McmcModel BlockModel.
From Coq Require Import Reals List Bool ZArith Arith Lia Permutation.
Import ListNotations.
Local Open Scope list_scope.
Local Open Scope nat_scope.

(** a parameter is slow if fast and slow ones are not distinguished or it is not among the fast ones *)
Definition is_slow (s : setup) (i : nat) : Prop := s_use s = false \/ ~ In i (s_fast s).
(** the j-th varying parameter is fast, comes after index_data or is not put apart as semi-fast, and belongs to the likelihood *)
Definition fast_of (s : setup) (like : nat * nat) (j : nat) : Prop :=
  1 <= j <= num_used s /\ ~ is_slow s (used s j) /\ (s_data s <= used s j \/ s_semi s = false) /\
  fst like <= used s j < fst like + snd like.
(** the first fast parameter of a likelihood (the last parameter of all is not looked at) *)
Definition first_of (s : setup) (like : nat * nat) (j : nat) : Prop :=
  fast_of s like j /\ j < num_used s /\ forall i, i < j -> ~ fast_of s like i.
(** number of times [x] occurs *)
Definition times (x : nat) (l : list nat) : nat := length (filter (Nat.eqb x) l).
(** each draw gives permutations *)
Definition shuffles (ns nf : nat) (d : pdraw) : Prop :=
  Permutation (pd_all d) (seq 1 (ns + nf)) /\ Permutation (pd_slow d) (seq 1 ns) /\ Permutation (pd_fast d) (seq 1 nf).
(** between two periods: no fast proposals left to do, all cycles complete *)
Definition between (ns nf : nat) (p : pstate) : Prop :=
  p_fast_ix p = 0 /\ (exists k, cy_loop (p_all p) = k * (ns + nf)) /\ (exists k, cy_loop (p_slow p) = k * ns) /\ (exists k, cy_loop (p_fast p) = k * nf).

Local Open Scope R_scope.
(** Matrix_Cholesky: lower triangular with L L^T = A, for the positive definite matrices on which it does not stop *)
Definition cholesky_of (n : nat) (A L : nat -> nat -> R) : Prop :=
  (forall i j, (i < n)%nat -> (j < n)%nat -> (i < j)%nat -> L i j = 0) /\
  (forall i j, (i < n)%nat -> (j < n)%nat -> Sm n (fun k => L i k * L j k) = A i j).
(** the columns of a rotation: the matrix times its transpose is one *)
Definition orthogonal (n : nat) (Rot : nat -> nat -> R) : Prop :=
  forall i j, (i < n)%nat -> (j < n)%nat -> Sm n (fun l => Rot i l * Rot j l) = if Nat.eqb i j then 1 else 0.
(** the change of used parameter number [i] by a unit step in direction [l] of block [b] *)
Definition unit_change (blocks : list (list nat)) (chol : nat -> (nat -> nat -> R) -> nat -> nat -> R) (cov : nat -> nat -> R)
    (Rot : nat -> nat -> nat -> R) (b l : nat) (i : nat) : R :=
  update (used_params_changed blocks b) (block_change blocks chol cov b (Rot b) l 1) (fun _ => 0) i.
