(** Notions for principal components. *)
From Coq Require Import Reals List Bool Permutation.
From Verif Require Import StatModel StatSpec CnvgModel CnvgSpec PcaModel.
Import ListNotations.
Local Open Scope R_scope.

(** weighted mean of a function of the row *)
Definition avg (w : list R) (f : nat -> R) : R := Sm (length w) (fun r => nth r w 0 * f r) / sumR w.
Definition dev (w : list R) (f : nat -> R) (r : nat) : R := f r - avg w f.
Definition spread (w : list R) (f : nat -> R) : R := sqrt (avg w (fun r => dev w f r ^ 2)).
Definition unit_dev (w : list R) (f : nat -> R) (r : nat) : R := dev w f r / spread w f.
(** the logarithms asked for *)
Definition lin (m : pmap) (x : R) : R := match m with PN => x | PL => ln x | PM => ln (- x) end.
Definition var_of (cs : list (list R)) (np : nat) (pm : list pmap) (j r : nat) : R := lin (if Nat.ltb j np then nth j pm PN else PN) (nth r (nth j cs []) 0).
(** columns of samples with weights that are not negative and not all zero *)
Definition good_data (w : list R) (cs : list (list R)) : Prop := (forall c, In c cs -> length c = length w) /\ (forall x, In x w -> 0 <= x) /\ 0 < sumR w.
(** no variable is constant *)
Definition varies (w : list R) (cs : list (list R)) (np : nat) (pm : list pmap) : Prop := forall j, (j < length cs)%nat -> spread w (var_of cs np pm j) <> 0.
(** what numpy.linalg says of eig (for symmetric matrices: real unit vectors, not said to be orthogonal) and of inv *)
Definition eig_pairs (k : nat) (M : matrix) (e : list R) (V : matrix) : Prop :=
  length e = k /\ (forall j, (j < k)%nat -> Sm k (fun m => V m j ^ 2) = 1) /\ forall i j, (i < k)%nat -> (j < k)%nat -> Sm k (fun m => M i m * V m j) = nth j e 0 * V i j.
Definition is_eig (eig : nat -> matrix -> list R * matrix) (k : nat) : Prop := forall M, symmetric k M -> eig_pairs k M (fst (eig k M)) (snd (eig k M)).
Definition inverse (k : nat) (A B : matrix) : Prop := forall i j, (i < k)%nat -> (j < k)%nat -> Sm k (fun m => A i m * B m j) = delta i j /\ Sm k (fun m => B i m * A m j) = delta i j.
Definition is_inv (inv : nat -> matrix -> option matrix) (k : nat) : Prop := forall M K, inv k M = Some K -> inverse k M K.
Definition is_sort (argsort : list R -> list nat) : Prop := forall e, Permutation (argsort e) (seq 0 (length e)) /\ forall a b, (a <= b < length e)%nat -> nth (nth a (argsort e) 0%nat) e 0 <= nth (nth b (argsort e) 0%nat) e 0.
(** a combination of the unit deviations of the first k variables *)
Definition combi (w : list R) (cs : list (list R)) (np : nat) (pm : list pmap) (k : nat) (v : nat -> R) (r : nat) : R := Sm k (fun j => v j * unit_dev w (var_of cs np pm j) r).
(** what a printed term means, in a sum and in a product *)
Definition addend (t : term) (x : R) : R := match t with Shift m (Some e) => (x - m) / e | _ => 0 end.
Definition factor (t : term) (x : R) : R := match t with Power d e => Rpower (x / d) e | Shift m (Some e) => exp ((x - m) / e) | Shift m None => 1 end.
Definition has_exponent_one (t : term) : Prop := match t with Power _ e => e = 1 | Shift _ e => e = Some 1 end.
