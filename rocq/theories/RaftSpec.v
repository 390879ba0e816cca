(** Notions for the test of Raftery and Lewis: counts, likelihoods of Markov chains and their convergence. *)
From Coq Require Import Reals Lia Lra List Bool.
From Verif Require Import ThinSpec RaftModel.
Import ListNotations.
Local Open Scope R_scope.

(** how often x, y and z (x and y) follow each other *)
Definition occurs3 (b : list nat) (x y z : nat) : nat := length (filter (fun i => Nat.eqb (nth i b 0%nat) x && Nat.eqb (nth (S i) b 0%nat) y && Nat.eqb (nth (S (S i)) b 0%nat) z) (seq 0 (length b - 2))).
Definition occurs2 (b : list nat) (x y : nat) : nat := length (filter (fun i => Nat.eqb (nth i b 0%nat) x && Nat.eqb (nth (S i) b 0%nat) y) (seq 0 (length b - 1))).
Definition bits (b : list nat) : Prop := forall x, In x b -> (x <= 1)%nat.
(** n log p *)
Definition xl (n : nat) (p : R) : R := if Nat.eqb n 0 then 0 else INR n * ln p.
Definition two (f : nat -> R) : R := f 0%nat + f 1%nat.
(** log likelihood of processes of second order, of first order, and of independent numbers *)
Definition LL2 (t : table3) (q : nat -> nat -> nat -> R) : R := two (fun x => two (fun y => two (fun z => xl (t x y z) (q x y z)))).
Definition LL1 (t : table3) (p : nat -> nat -> R) : R := two (fun x => two (fun y => two (fun z => xl (t x y z) (p y z)))).
Definition KK1 (t : table2) (p : nat -> nat -> R) : R := two (fun x => two (fun y => xl (t x y) (p x y))).
Definition KK0 (t : table2) (r : nat -> R) : R := two (fun x => two (fun y => xl (t x y) (r y))).
(** probabilities of 0 and 1, positive for what happens *)
Definition law (r : nat -> R) : Prop := 0 <= r 0%nat /\ 0 <= r 1%nat /\ two r = 1.
Definition law2 (t : table3) (q : nat -> nat -> nat -> R) : Prop := forall x y, (x <= 1)%nat -> (y <= 1)%nat -> law (q x y) /\ forall z, (z <= 1)%nat -> t x y z <> 0%nat -> 0 < q x y z.
Definition law1 (t : table3) (p : nat -> nat -> R) : Prop := forall y, (y <= 1)%nat -> law (p y) /\ forall x z, (x <= 1)%nat -> (z <= 1)%nat -> t x y z <> 0%nat -> 0 < p y z.
Definition klaw1 (t : table2) (p : nat -> nat -> R) : Prop := forall x, (x <= 1)%nat -> law (p x) /\ forall y, (y <= 1)%nat -> t x y <> 0%nat -> 0 < p x y.
Definition klaw0 (t : table2) (r : nat -> R) : Prop := law r /\ forall x y, (x <= 1)%nat -> (y <= 1)%nat -> t x y <> 0%nat -> 0 < r y.
(** g is twice the gain in the largest log likelihood by memory of one more step *)
Definition gain2 (t : table3) (g : R) : Prop := exists q p, law2 t q /\ law1 t p /\ (forall q', law2 t q' -> LL2 t q' <= LL2 t q) /\ (forall p', law1 t p' -> LL1 t p' <= LL1 t p) /\ g = 2 * (LL2 t q - LL1 t p).
Definition gain1 (t : table2) (g : R) : Prop := exists p r, klaw1 t p /\ klaw0 t r /\ (forall p', klaw1 t p' -> KK1 t p' <= KK1 t p) /\ (forall r', klaw0 t r' -> KK0 t r' <= KK0 t r) /\ g = 2 * (KK1 t p - KK0 t r).
(** the probability of 0 after n steps, 0 becoming 1 with probability a and 1 becoming 0 with probability b *)
Fixpoint evolve (a b p : R) (n : nat) : R := match n with O => p | S n' => evolve a b p n' * (1 - a) + (1 - evolve a b p n') * b end.
(** 1 for samples below the limit *)
Definition below (u x : R) : nat := if Rlt_dec x u then 1%nat else 0%nat.
Definition flags (xs : list R) (u : R) (ix : list nat) : list nat := map (fun i => below u (nth i xs 0)) ix.
(** the rows that remain of every f-th unit of weight, and whether memory of two steps (of one step) is not worth its parameters *)
Definition markov_fits (kept : nat -> list nat) (xs : list R) (u : R) (f : nat) : Prop :=
  (3 <= length (kept f))%nat /\ exists g, gain2 (occurs3 (flags xs u (kept f))) g /\ g < 2 * ln (INR (length (kept f) - 2)).
Definition indep_fits (kept : nat -> list nat) (xs : list R) (u : R) (f : nat) : Prop :=
  (2 <= length (kept f))%nat /\ exists g, gain1 (occurs2 (flags xs u (kept f))) g /\ g < ln (INR (length (kept f) - 1)).
(** the frequencies of leaving 0 and of leaving 1 *)
Definition leave0 (b : list nat) : R := INR (occurs3 b 0 0 1 + occurs3 b 1 0 1) / INR (occurs3 b 0 0 0 + occurs3 b 1 0 0 + (occurs3 b 0 0 1 + occurs3 b 1 0 1)).
Definition leave1 (b : list nat) : R := INR (occurs3 b 0 1 0 + occurs3 b 1 1 0) / INR (occurs3 b 0 1 0 + occurs3 b 1 1 0 + (occurs3 b 0 1 1 + occurs3 b 1 1 1)).
(** within eps of equilibrium after n steps, whatever the start *)
Definition settled (eps a b : R) (n : nat) : Prop := forall p, 0 <= p <= 1 -> Rabs (evolve a b p n - b / (a + b)) < eps.
(** every f-th unit of weight, and the first row if it is lighter than f, as thinning does (see C16) *)
Definition kept_rows (ws : list nat) (f : nat) : list nat := (if Nat.ltb (nth 0 ws 0%nat) f then [0%nat] else []) ++ every_kth f (units ws).
