(** What the likelihoods of galaxy power spectra should be, without reference to how they are computed. *)
From Coq Require Import Reals ZArith List Lia.
From Verif Require Import BaoModel BaoSpec MpkModel.
Local Open Scope R_scope.

(** Spectrum seen through the windows of a region, and the inverse covariance of its points (independent errors if there is no matrix) *)
Definition windowed (g : region) (T : nat -> R) (i : nat) : R := total (fun j => Wm g i j * T j) (bands g).
Definition metric (g : region) (i j : nat) : R := match icov g with Some C => C i j | None => if Nat.eqb i j then / (sdev g i) ^ 2 else 0 end.
Definition chi2 (g : region) (x : nat -> R) : R := form (pts g) (metric g) (fun i => Pd g i - x i).
Definition errors_ok (g : region) : Prop := icov g = None -> forall i, (1 <= i <= pts g)%nat -> sdev g i <> 0.

(** Minus the logarithm of the integral of exp(-f/2) over all b, without the constant ln(2 pi)/2: f has to be a parabola m + N (b - b0)^2, and the integral is
    exp(-m/2) sqrt(2 pi/N) *)
Definition marginal1 (f : R -> R) (v : R) : Prop := exists m N b0, 0 < N /\ (forall b, f b = m + N * (b - b0) ^ 2) /\ v = (m + ln N) / 2.
(** the same for two parameters, without ln(2 pi): the integral over a quadratic form with determinant D is exp(-m/2) 2 pi/sqrt D *)
Definition marginal2 (f : R -> R -> R) (v : R) : Prop := exists m a b d x0 y0, 0 < a /\ 0 < a * d - b ^ 2 /\
  (forall x y, f x y = m + a * (x - x0) ^ 2 + 2 * b * (x - x0) * (y - y0) + d * (y - y0) ^ 2) /\ v = (m + ln (a * d - b ^ 2)) / 2.
(** least value *)
Definition is_min (f : R -> R) (m : R) : Prop := (exists b, f b = m) /\ forall b, m <= f b.

(** weights of the 13 values of Q at distances of 0.4 sigma *)
Definition gauss (dq : R) (k : nat) : R := exp (- ((INR k - 7) * dq) ^ 2 / 2).
(** [v] is minus the logarithm of the mean of exp(-l(k)), k = 1..13 *)
Definition log_mean (dq : R) (l : nat -> R) (v : R) : Prop := exp (- v) * total (gauss dq) 13 = total (fun k => gauss dq k * exp (- l k)) 13.
(** correction for the shape *)
Definition shape (Ag Q : R) (ks lin : nat -> R) (i : nat) : R := lin i * (1 + Q * ks i ^ 2) / (1 + Ag * ks i).

(** sum of chi squared over regions *)
Fixpoint all_chi2 (gs : list region) (x : region -> nat -> R) : R := match gs with nil => 0 | cons g l => chi2 g (x g) + all_chi2 l x end.
(** regions that are used *)
Definition select {A} (active : list bool) (l : list A) : list A := map snd (filter fst (combine active l)).
(** a file of measurements and a file of matrices with a block for each region *)
Definition measurements_file (regs : list (list R)) : list mline := concat (map (fun vals => Head :: Head :: map Row vals) regs).
Definition matrices_file (mats : list (list (list R))) : list wline := concat (map (fun rows => WHead :: map WRow rows) mats).
