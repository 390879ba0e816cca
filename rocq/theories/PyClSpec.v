(** What is the same in the two programs: indices from 0 and from 1, maps, windows and data *)
From Coq Require Import Reals ZArith Bool List.
From Verif Require Import PyStr BaoModel BaoSpec MapModel MapSpec HlModel HlSpec PyClModel.
Import ListNotations.
Local Open Scope R_scope.

(** an index from 1, with 0 for none, as an index from 0, with -1 for none *)
Definition from0 (k : nat) : Z := (Z.of_nat k - 1)%Z.
Definition from0_pair (p : nat * nat) : Z * Z := (from0 (fst p), from0 (snd p)).
(** a result that the one program has if the other has it, and no result if the other stops *)
Definition agree {A B} (f : A -> B) (x : out A) (y : out B) : Prop := match x with Ok a => y = Ok (f a) | _ => y = Stop end.
Definition same_maps (m : maps) (p : pmaps) : Prop := names m = pnames p /\ named m = phas p /\ fields m = map S (pfields p).
Definition one_char (s : str) : Prop := length s = 1%nat.
(** all rows are of the same length, and there are two at least *)
Definition rectangle (k : nat) (rows : list (Z * list R)) : Prop := (2 <= length rows)%nat /\ (1 <= k)%nat /\ Forall (fun r => length (snd r) = k) rows.
(** the same windows for the same bins; the first bin is [first] *)
Definition same_windows (w : windows) (p : pwindows) (first : Z) : Prop :=
  wlo w = plo p /\ whi w = phi p /\ pin p = map from0_pair (cols_in w) /\ pout p = map from0 (cols_out w) /\ fixCls w = None /\
  forall l i b, (b < pnb p)%nat -> (i < length (cols_in w))%nat -> (plo p <= l <= phi p)%Z -> pW p i b l = W w l (S i) (first + Z.of_nat b).
(** the last column is one of the columns *)
Definition complete (ncl : nat) (outs : list nat) : Prop := Forall (fun o => (o <= ncl)%nat) outs /\ In ncl outs.
(** the same data *)
Record same_data (d : data) (p : pdata) : Prop := {
  s_n : nmaps d = pn p; s_like : like d = plike p; s_binned : binned d = pbinned p; s_first : pbmin p = (if pbinned p then blo d - 1 else blo d)%Z; s_bins : pbins p = Z.to_nat (bhi d - blo d + 1);
  s_noise : forall b, (b < pbins p)%nat -> noiseM d (blo d + Z.of_nat b) = pnoise p b;
  s_hat : forall b, (b < pbins p)%nat -> chatM d (blo d + Z.of_nat b) = phat p b;
  s_cf : forall b, (b < pbins p)%nat -> cfhalf d (blo d + Z.of_nat b) = pcf p b;
  s_used : cl_use_index (clix d) = map S (pused p); s_icov : icov d = pcovinv p; s_fsky : fsky d = pfsky p }.
(** inverse, and the logarithm of the absolute value of the determinant *)
Definition inverts (inv : nat -> matrix -> option matrix) (n : nat) : Prop := forall M, symmetric n M -> positive n M -> exists X, inv n M = Some X /\ meq n (times n X M) one.
Definition logs_det (slogdet : nat -> matrix -> R) (n : nat) (det : matrix -> R) : Prop := forall M, det M <> 0 -> slogdet n M = ln (Rabs (det M)).
