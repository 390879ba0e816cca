(** Quantiles of rows, and correlations between steps. *)
From Coq Require Import Reals QArith List.
From Verif Require Import ThinModel ConfSpec StatSpec.

(** a value of which at most a fraction [f] of the weight is below, and at least [f] is not above *)
Definition quantile (v ws : list Q) (f q : Q) : Prop :=
  In q v /\ (mass (below q) (combine v ws) <= f * sumQ ws)%Q /\ (f * sumQ ws <= mass (upto q) (combine v ws))%Q.
(** rows from a up to before b *)
Definition rows {A} (a b : nat) (l : list A) : list A := firstn (b - a) (skipn a l).
(** mean product of values at distance k *)
Definition autocov (d : list R) (k : nat) : R := (Sm (length d - k) (fun i => nth (k + i) d 0 * nth i d 0) / INR (length d - k))%R.
(** values of some rows *)
Definition picked (l : list R) (ix : list nat) : list R := map (fun i => nth i l 0%R) ix.
