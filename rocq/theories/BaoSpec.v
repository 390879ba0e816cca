(** What the measurements of baryon acoustic oscillations mean, and interpolation of a table *)
From Coq Require Import Reals Bool List.
From Verif Require Import BaoModel.
Import ListNotations.
Local Open Scope R_scope.

(** distances of a cosmology at redshift z: the transverse comoving distance DM in Mpc and H in km/s/Mpc; c in km/s *)
Definition c_kms : R := 299792458 / 1000.
Record universe := mkUni { DM : R -> R; Hub : R -> R }.
(** the calculator gives these distances: D_A = DM/(1+z), H in 1/Mpc, D_v the mean of two transverse distances and one along the line of sight *)
Definition gives (k : calc) (u : universe) : Prop :=
  (forall z, 0 < z -> DM u z = (1 + z) * D_A k z) /\ (forall z, Hub u z = c_kms * Hofz k z) /\
  (forall z, 0 < z -> 0 < D_A k z /\ 0 < Hofz k z /\ 0 < D_v k z /\ D_v k z ^ 3 = z * (c_kms / Hub u z) * (DM u z) ^ 2).
(** the positive number whose cube is x^2 y: the mean of two lengths x and one y *)
Definition is_mean (x y m : R) : Prop := 0 < m /\ m ^ 3 = x ^ 2 * y.
(** what each type of measurement is, with the length rs of the ruler: [v] is the value *)
Definition means (u : universe) (omm H0 : R) (rs z : R) (t : mtype) (v : R) : Prop :=
  match t with
  | bao_DV_over_rs => is_mean (DM u z) (z * c_kms / Hub u z) (v * rs)
  | bao_rs_over_DV => is_mean (DM u z) (z * c_kms / Hub u z) (rs / v)
  | bao_DA_over_rs => v * (1 + z) * rs = DM u z
  | bao_DM_over_rs => v * rs = DM u z
  | bao_Hz_rs => v = Hub u z * rs
  | bao_Hz_rs_103 => 1000 * v = Hub u z * rs
  | F_AP => v = DM u z / (c_kms / Hub u z)
  | bao_Az => exists m, is_mean (DM u z) (z * c_kms / Hub u z) m /\ 0 <= v /\ v ^ 2 = m ^ 2 * omm * H0 ^ 2 / (c_kms * z) ^ 2
  | f_sigma8 | dilation => False
  end.
(** sums of squares and forms *)
Fixpoint total (f : nat -> R) (n : nat) : R := match n with O => 0 | S k => total f k + f n end.
Definition symmetric (n : nat) (M : nat -> nat -> R) : Prop := forall i j, (1 <= i <= n)%nat -> (1 <= j <= n)%nat -> M i j = M j i.
Definition form (n : nat) (M : nat -> nat -> R) (v : nat -> R) : R := total (fun i => total (fun j => v i * M i j * v j) n) n.
Definition positive (n : nat) (M : nat -> nat -> R) : Prop := forall v, (exists i, (1 <= i <= n)%nat /\ v i <> 0) -> 0 < form n M v.

(** tables: both axes increase *)
Definition increasing (n : nat) (f : nat -> R) : Prop := forall i, (1 <= i)%nat -> (i < n)%nat -> f i < f (S i).
(** the straight line through two points, and interpolation in two directions *)
Definition line (x0 x1 y0 y1 x : R) : R := y0 + (y1 - y0) * ((x - x0) / (x1 - x0)).
Definition bilinear (g : grid) (i j : nat) (a b : R) : R :=
  line (perp g i) (perp g (S i)) (line (plel g j) (plel g (S j)) (prob g i j) (prob g i (S j)) b)
       (line (plel g j) (plel g (S j)) (prob g (S i) j) (prob g (S i) (S j)) b) a.
(** minus the logarithm of a probability *)
Definition minus_log (logZero p v : R) : Prop := (0 < p /\ v = - ln p) \/ (p <= 0 /\ v = logZero).
(** the lines of a file that tells a table *)
Definition rows_of (n m : nat) (x y : nat -> R) (p : nat -> nat -> R) : list (R * R * R) :=
  flat_map (fun i => map (fun j => (x i, y j, p i j)) (seq 1 m)) (seq 1 n).
