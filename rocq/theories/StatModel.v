(** Model of means, variances and covariances of weighted samples, python/getdist/chains.py, over the
    real numbers (floating point arithmetic is taken as exact).  Arrays are lists of reals. *)
From Coq Require Import Reals List Bool Arith Lia Lra.
Import ListNotations.
Local Open Scope R_scope.

Definition sumR (l : list R) : R := fold_right Rplus 0 l.
(** elementwise product and np.dot of arrays of equal length *)
Definition mul (a b : list R) : list R := map (fun p => fst p * snd p) (combine a b).
Definition dot (a b : list R) : R := sumR (mul a b).

(** get_norm, chains.py 641-654, where=None *)
Definition get_norm (w : list R) : R := sumR w.
(** mean, chains.py 656-668 with weighted_sum 627-639; setMeans 363-374 divides the same sum *)
Definition mean (w p : list R) : R := dot w p / get_norm w.
(** mean_diff, chains.py 732-749 *)
Definition mean_diff (w p : list R) : list R := map (fun x => x - mean w p) p.
(** var, chains.py 670-684; getVars 391-403 *)
Definition var (w p : list R) : R := dot (map (fun x => x ^ 2) (mean_diff w p)) w / get_norm w.

(** cov, chains.py 697-721: the matrix starts uninitialised ([junk]) and both triangles are stored. *)
Definition store (M : nat -> nat -> R) (a b : nat) (x : R) : nat -> nat -> R :=
  fun i j => if (i =? a)%nat && (j =? b)%nat then x else M i j.
Definition cov_raw (junk : nat -> nat -> R) (w : list R) (diffs : list (list R)) : nat -> nat -> R :=
  let n := length diffs in
  fold_left (fun M i =>
    let weightdiff := mul (nth i diffs []) w in
    fold_left (fun M j =>
      let M1 := store M i j (dot weightdiff (nth j diffs [])) in
      store M1 j i (M1 i j)) (seq i (n - i)) M)
    (seq 0 n) junk.
Definition cov (junk : nat -> nat -> R) (w : list R) (ps : list (list R)) : nat -> nat -> R :=
  let M := cov_raw junk w (map (mean_diff w) ps) in
  fun i j => M i j / get_norm w.

(** reweightAddingLogLikes, chains.py 955-967, on a sample set with likelihoods *)
Definition minR (l : list R) : R := match l with [] => 0 | x :: l' => fold_left Rmin l' x end.
Definition maxR (l : list R) : R := match l with [] => 0 | x :: l' => fold_left Rmax l' x end.
Definition reweightAddingLogLikes (wl : list R * list R) (a : list R) : list R * list R :=
  let scale := minR a in
  (mul (fst wl) (map (fun x => exp (- (x - scale))) a),
   map (fun p => fst p + snd p) (combine (snd wl) a)).

(** cool, chains.py 969-980 *)
Definition cool (wl : list R * list R) (c : R) : list R * list R :=
  let MaxL := maxR (snd wl) in
  let newL := map (fun x => x * c) (snd wl) in
  (mul (fst wl) (map (fun p => exp (- (fst p - snd p) - MaxL * (1 - c))) (combine newL (snd wl))), newL).
