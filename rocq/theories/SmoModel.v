(** python/planck/smoothing.py 1-22: smoothing of spectra and covariances with a Gaussian.  Numbers are real; arrays are functions of indices from 0 with their sizes.
    scipy.signal.gaussian and np.convolve are modelled by their definitions (a window symmetric around its middle; mode 'same' keeps the middle part of the length of the longer array). *)
From Coq Require Import Reals Bool Arith.
From Verif Require Import ConvModel.
Local Open Scope R_scope.

(** 10: signal.gaussian(n, std=s) *)
Definition gaussian (n : nat) (s : R) (k : nat) : R := exp (- ((INR k - (INR n - 1) / 2) ^ 2 / (2 * s * s))).
(** all products: element k of np.convolve(x, w, mode='full') *)
Definition full (N : nat) (x : nat -> R) (n : nat) (w : nat -> R) (k : nat) : R := rsum N (fun j => x j * (if Nat.leb j k && Nat.ltb (k - j) n then w (k - j)%nat else 0)).
(** 11-12: np.convolve(x, w, mode='same'), of the length max(N, n) *)
Definition same_conv (N : nat) (x : nat -> R) (n : nat) (w : nat -> R) (i : nat) : R := full N x n w (i + (Nat.min N n - 1) / 2).
(** 9-12: the length and the elements; None: an empty array *)
Definition gaussian_smooth_1d (N : nat) (x : nat -> R) (smooth nsigma : nat) : option (nat * (nat -> R)) :=
  let n := (nsigma * smooth)%nat in let win := gaussian n (INR smooth) in
  if Nat.eqb N 0 || Nat.eqb n 0 then None else Some (Nat.max N n, fun i => same_conv N x n win i / same_conv N (fun _ => 1) n win i).
(** a row or a column of length N is replaced; None: its length is another one *)
Definition replaced (N : nat) (x : nat -> R) (smooth : nat) : option (nat -> R) :=
  match gaussian_smooth_1d N x smooth 5 with Some (len, y) => if Nat.eqb len N then Some y else None | None => None end.
(** the loop over the rows of a matrix *)
Fixpoint each_row (N r : nat) (c : nat -> nat -> R) (smooth : nat) (out : nat -> nat -> R) : option (nat -> nat -> R) :=
  match r with
  | 0%nat => Some out
  | S r' => match each_row N r' c smooth out with
            | Some o => match replaced N (c r') smooth with Some y => Some (fun i j => if Nat.eqb i r' then y j else o i j) | None => None end
            | None => None
            end
  end.
(** 15-22: rows of cov, then columns of the result; a square matrix *)
Definition smoothed_cov (N : nat) (cov : nat -> nat -> R) (smooth : nat) : option (nat -> nat -> R) :=
  match each_row N N cov smooth cov with
  | Some s => match each_row N N (fun i j => s j i) smooth (fun i j => s j i) with Some s2 => Some (fun i j => s2 j i) | None => None end
  | None => None
  end.
