(** Vocabulary for correlations of weighted samples and for the comparison of chains. *)
From Coq Require Import Reals ZArith List.
From Verif Require Import StatModel StatSpec CnvgModel.
Import ListNotations.
Local Open Scope R_scope.

(** weighted mean and variance of the values p *)
Definition wmean (w p : list R) : R := Sm (length p) (fun i => nth i w 0 * nth i p 0) / sumR w.
Definition wvar (w p : list R) : R := Sm (length p) (fun i => nth i w 0 * (nth i p 0 - wmean w p) ^ 2) / sumR w.
(** mean product of the weighted deviations of samples k rows apart *)
Definition lagmean (w p : list R) (k : nat) : R :=
  Sm (length p - k) (fun i => nth i w 0 * (nth i p 0 - wmean w p) * (nth (i + k) w 0 * (nth (i + k) p 0 - wmean w p))) / INR (length p - k).
(** in units of the variance, for a chain in which a row of weight 1 is one sample *)
Definition rho (w p : list R) (k : nat) : R := lagmean w p k / wvar w p * (INR (length p) / sumR w).
(** samples that the FFT sizes allow *)
Definition fits (w p : list R) : Prop := length w = length p /\ (0 < length p)%nat /\ (2 * Z.of_nat (length p) <= 2013265920)%Z.
(** a linear combination of the first k parameters *)
Definition comb (k : nat) (v : nat -> R) (c : chain) : list R := map (fun i => Sm k (fun a => v a * nth i (col c a) 0)) (seq 0 (length (cw c))).
(** chains of n parameters with weights that are not negative and not all zero *)
Definition good_chain (n : nat) (c : chain) : Prop := length (cps c) = n /\ (forall p, In p (cps c) -> length p = length (cw c)) /\ (forall x, In x (cw c) -> 0 <= x) /\ 0 < sumR (cw c).
(** the variance of the means of the chains and the mean of their variances, for the combination v *)
Definition var_of_means (k : nat) (v : nat -> R) (cs : list chain) : R :=
  let mu := wmean (flat_map cw cs) (flat_map (comb k v) cs) in sumR (map (fun c => (wmean (cw c) (comb k v c) - mu) ^ 2) cs) / (INR (length cs) - 1).
Definition mean_of_vars (k : nat) (v : nat -> R) (cs : list chain) : R := sumR (map (fun c => wvar (cw c) (comb k v c)) cs) / INR (length cs).
(** an orthogonal matrix, and what numpy.linalg says of eigh and eigvalsh for symmetric matrices *)
Definition delta (i j : nat) : R := if Nat.eqb i j then 1 else 0.
Definition orthogonal (k : nat) (U : matrix) : Prop :=
  forall i j, (i < k)%nat -> (j < k)%nat -> Sm k (fun m => U m i * U m j) = delta i j /\ Sm k (fun m => U i m * U j m) = delta i j.
Definition eigen_of (k : nat) (M : matrix) (w : list R) (U : matrix) : Prop :=
  length w = k /\ orthogonal k U /\ forall i j, (i < k)%nat -> (j < k)%nat -> Sm k (fun m => M i m * U m j) = nth j w 0 * U i j.
Definition symmetric (k : nat) (M : matrix) : Prop := forall i j, (i < k)%nat -> (j < k)%nat -> M i j = M j i.
Definition is_eigh (eigh : nat -> matrix -> list R * matrix) (k : nat) : Prop := forall M, symmetric k M -> eigen_of k M (fst (eigh k M)) (snd (eigh k M)).
Definition is_eigvalsh (eigvalsh : nat -> matrix -> list R) (k : nat) : Prop := forall M, symmetric k M -> exists U, eigen_of k M (eigvalsh k M) U.
(** one parameter: the variance of the means, and the mean of the variances by weight *)
Definition between (cs : list chain) (j : nat) : R := sumR (map (fun c => (wmean (cw c) (col c j) - wmean (flat_map cw cs) (flat_map (fun c => col c j) cs)) ^ 2) cs) / (INR (length cs) - 1).
Definition inside (cs : list chain) (j : nat) : R := sumR (map (fun c => sumR (cw c) * wvar (cw c) (col c j)) cs) / sumR (flat_map cw cs).
(** the chains with parameters that are linear functions of the old ones *)
Definition relinear (k : nat) (A : matrix) (sh : nat -> R) (c : chain) : chain :=
  mkChain (cw c) (map (fun a => map (fun i => Sm k (fun b => A a b * nth i (nth b (cps c) []) 0) + sh a) (seq 0 (length (cw c)))) (seq 0 k)).
