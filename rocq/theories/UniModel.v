(** source/supernovae_Union2.f90 80-152: likelihood of the Union 2.1 supernovae.  Numbers are real; arrays are functions of indices from 0 and n is SN_num (580 in the code).
    Angular diameter distances in Mpc come from the calculator and are an argument; settings are values that may be missing; files are their numbers. *)
From Coq Require Import Reals Arith String.
From Verif Require Import ConvModel.
Local Open Scope R_scope.

(** 92, 100, 112-116: whether the likelihood is used, and the file of its inverse covariance *)
Definition setting (dflt : bool) (v : option bool) : bool := match v with Some b => b | None => dflt end.
Definition union_file (use_Union Union_syscovmat : option bool) : option string :=
  if setting false use_Union then Some (if setting false Union_syscovmat then "sn_wmat_sys_union2.1.txt"%string else "sn_wmat_nosys_union2.1.txt"%string) else None.
Definition log10 (x : R) : R := ln x / ln 10.
(** 137-140 *)
Definition diffs (z moduli : nat -> R) (DA : R -> R) (i : nat) : R := 5 * log10 ((1 + z i) ^ 2 * DA (z i)) + 25 - moduli i.
(** 142: dot_product(d, matmul(ninv, d)) *)
Definition chisq (n : nat) (ninv : nat -> nat -> R) (d : nat -> R) : R := rsum n (fun i => d i * rsum n (fun j => ninv i j * d j)).
(** 126-152 *)
Definition SN_LnLike (n : nat) (ninv : nat -> nat -> R) (z moduli : nat -> R) (DA : R -> R) : R := chisq n ninv (diffs z moduli DA) / 2.
