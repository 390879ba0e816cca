(** Noise of an experiment with a Gaussian beam *)
From Coq Require Import Reals ZArith List.
From Verif Require Import PyStr.
Import ListNotations.
Local Open Scope R_scope.

Definition radians (arcmin : R) : R := arcmin / 60 * (PI / 180).
(** the beam exp(-theta^2 / 2 sigma^2) is half of its height at half of the full width *)
Definition half_at (fwhm_arcmin sigma : R) : Prop := 0 < sigma /\ exp (- (radians fwhm_arcmin / 2) ^ 2 / (2 * sigma ^ 2)) = 1 / 2.
(** its transform at multipole l *)
Definition beam (sigma : R) (l : nat) : R := exp (- (INR l * (INR l + 1) * sigma ^ 2) / 2).
(** white noise of variance v per steradian seen through the beam, as l (l + 1) N_l / 2 pi *)
Definition band (v sigma : R) (l : nat) : R := INR l * (INR l + 1) / (2 * PI) * (v / beam sigma l ^ 2).
(** a noise of n muK arcmin *)
Definition white (n : R) : R := radians n ^ 2.
(** the rows of multipoles lmin .. lmax *)
Definition table (lmin lmax : nat) (f : nat -> list R) : list (Z * list R) := map (fun l => (Z.of_nat l, f l)) (seq lmin (lmax + 1 - lmin)).
