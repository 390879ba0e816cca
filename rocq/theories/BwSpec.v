(** Independent statements about bandwidths of kernels *)
From Coq Require Import Reals List.
From Verif Require Import StatSpec.
From Coq Require Import List.
Import ListNotations.
Local Open Scope R_scope.

(** mean square error of a kernel estimate without correlation: variance and squared bias; qx, qy, qxy are the integrals of fxx^2, fyy^2 and fxy^2 *)
Definition mise0 (qx qy qxy N hx hy : R) : R := / (4 * PI * N * hx * hy) + (hx ^ 4 * qx + hy ^ 4 * qy + 2 * hx ^ 2 * hy ^ 2 * qxy) / 4.
(** power spectrum: powers A at frequencies (u, v) *)
Definition spec_moment (n : nat) (A u v : nat -> R) (r s : nat) : R := Sm n (fun k => A k * u k ^ r * v k ^ s).
(** the quadratic form of a kernel with widths and correlation: variance of a x + b y *)
Definition kvar (h : R * R * R) (a b : R) : R := let '(hx, hy, c) := h in a ^ 2 * hx ^ 2 + 2 * a * b * c * hx * hy + b ^ 2 * hy ^ 2.
(** Cholesky factor of [[a, b], [b, c]] *)
Definition is_chol (a b c : R) (l : R * R * R) : Prop := let '(l00, l10, l11) := l in 0 < l00 /\ 0 < l11 /\ l00 * l00 = a /\ l10 * l00 = b /\ l10 * l10 + l11 * l11 = c.
(** weighted covariance of two samples *)
Definition wmean (n : nat) (w x : nat -> R) : R := Sm n (fun k => w k * x k) / Sm n w.
Definition wcov (n : nat) (w x y : nat -> R) : R := Sm n (fun k => w k * (x k - wmean n w x) * (y k - wmean n w y)) / Sm n w.
(** product of the first odd numbers *)
Fixpoint dfact (j : nat) : R := match j with O => 1 | S j' => (2 * INR j' + 1) * dfact j' end.
(** squared norm of the derivative j of a series of cosines of k pi x after smoothing for a time *)
Definition deriv2 (n : nat) (a2 : nat -> R) (j : nat) (t : R) : R := 2 * Sm n (fun k => a2 k * (INR (k + 1) * PI) ^ (2 * j) * exp (- ((INR (k + 1) * PI) ^ 2 * t))).
(** times of successive derivatives (Botev et al. 2010): that of derivative j minimizes the error given the norm f of derivative j + 1 *)
Definition time_of (N : R) (j : nat) (f t : R) : Prop := 0 < t /\ t ^ (2 * j + 3) = ((1 + (1 / 2) ^ j / sqrt 2) / 3 * dfact j * sqrt 2 / sqrt PI / (N * f)) ^ 2.
(** the same of two parameters *)
Definition deriv2d (n : nat) (a2 : nat -> nat -> R) (s0 s1 : nat) (t : R) : R :=
  (- 1) ^ (s0 + s1) / 4 * Sm n (fun j => Sm n (fun i => a2 i j * (INR (j + 1) * PI) ^ (2 * s0) * (INR (i + 1) * PI) ^ (2 * s1) * exp (- (((INR (i + 1)) ^ 2 + (INR (j + 1)) ^ 2) * PI ^ 2 * t)))).
Definition time_2d (N : R) (s0 s1 : nat) (f t : R) : Prop :=
  0 < t /\ t ^ (s0 + s1 + 2) * (N * ((- 1) ^ (s0 + s1 + 1) * f)) = 2 * ((1 + (1 / 2) ^ (s0 + s1 + 1)) / 3) * dfact s0 * dfact s1 / (2 * PI).
