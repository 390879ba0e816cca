(** Matrices up to their size, orthogonal matrices, decompositions, and the likelihood of a full sky *)
From Coq Require Import Reals ZArith Bool List RelationClasses Morphisms.
From Verif Require Import BaoModel BaoSpec MapModel MapSpec HlModel.
Import ListNotations.
Local Open Scope R_scope.

Definition meq (n : nat) (A B : matrix) : Prop := forall i j, (1 <= i <= n)%nat -> (1 <= j <= n)%nat -> A i j = B i j.
Definition one : matrix := fun i j => if Nat.eqb i j then 1 else 0.
Definition diagm (D : nat -> R) : matrix := fun i j => if Nat.eqb i j then D i else 0.
Definition times (n : nat) (A B : matrix) : matrix := fun i j => total (fun k => A i k * B k j) n.
Definition orthogonal (n : nat) (U : matrix) : Prop := meq n (times n (tr U) U) one /\ meq n (times n U (tr U)) one.
(** M = U D U^T *)
Definition decomposes (n : nat) (M U : matrix) (D : nat -> R) : Prop := orthogonal n U /\ meq n M (times n U (times n (diagm D) (tr U))).
(** what LAPACK gives for a symmetric matrix; and for a positive one L L^T with a triangular L *)
Definition diagonalizes (diag : diagonalizer) (n : nat) : Prop := forall M, symmetric n M -> decomposes n M (fst (diag n M)) (snd (diag n M)).
Definition lower (n : nat) (L : matrix) : Prop := forall i j, (1 <= i <= n)%nat -> (i < j <= n)%nat -> L i j = 0.
Definition factorizes (chol : cholesky) (n : nat) : Prop := forall M, symmetric n M -> positive n M -> exists L, chol n M = Some L /\
  meq n M (times n L (tr L)) /\ lower n L /\ (forall i, (1 <= i <= n)%nat -> 0 < L i i).
(** what is needed of a determinant *)
Fixpoint product (f : nat -> R) (n : nat) : R := match n with O => 1 | S k => product f k * f n end.
Definition is_determinant (n : nat) (det : matrix -> R) : Prop :=
  (forall A B, meq n A B -> det A = det B) /\ (forall A B, det (times n A B) = det A * det B) /\ (forall L, lower n L -> det L = product (fun i => L i i) n /\ det (tr L) = product (fun i => L i i) n).
(** the eigenvalues of C^-1/2 Chat C^-1/2: those x with Chat v = x C v *)
Definition relative_to (n : nat) (C Chat : matrix) (E : nat -> R) : Prop :=
  exists V, meq n (times n (tr V) (times n C V)) one /\ meq n Chat (times n C (times n V (times n (diagm E) (times n (tr V) C)))).
Definition trace (n : nat) (M : matrix) : R := total (fun i => M i i) n.
(** minus twice the logarithm of the likelihood of one multipole of a full sky, up to a constant, from the eigenvalues *)
Definition full_sky (n : nat) (E : nat -> R) : R := total (fun i => E i - ln (E i) - 1) n.

(** a spectrum whose C_l is a straight line *)
Definition straight (p q : R) (l : Z) : R := (p + q * IZR l) * (IZR l * (IZR l + 1)).
(** what a file holds for a signal *)
Definition in_file (includes_noise : bool) (signal noise : R) : R := if includes_noise then signal + noise else signal.
(** the spectra i, j that the likelihood uses *)
Definition uses (d : data) (i j : nat) : Prop := (1 <= j <= i)%nat /\ (i <= nmaps d)%nat /\ In (MapSpec.triangle i j) (clix d).
(** numbers of spectra are numbers of a triangle, or 0 if not used; the number of elements of all bins *)
Definition numbers (d : data) : Prop := forall c, In c (clix d) -> c = O \/ exists i j, (1 <= j <= i)%nat /\ (i <= nmaps d)%nat /\ c = MapSpec.triangle i j.
Definition stacked (d : data) : nat := (Z.to_nat (bhi d - blo d + 1) * length (filter (fun c => negb (Nat.eqb c 0)) (clix d)))%nat.
