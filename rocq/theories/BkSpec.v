(** Notions for foregrounds of B modes. *)
From Coq Require Import Reals List.
From Verif Require Import StatSpec BkModel.
Import ListNotations.
Local Open Scope R_scope.

(** Planck's law for the frequency x and temperature T, without the constant factor; x^beta times it is a greybody *)
Definition brightness (x T : R) : R := x ^ 3 / (exp (Ghz_Kelvin * x / T) - 1).
Definition greybody (beta T x : R) : R := Rpower x beta * brightness x T.
(** the law of Rayleigh and Jeans for a temperature that is a power of the frequency *)
Definition powerlaw (beta x : R) : R := x ^ 2 * Rpower x beta.
(** change of brightness with the temperature of the CMB *)
Definition is_change (dB : R -> R) : Prop := forall x, 0 < x -> derivable_pt_lim (brightness x) T_CMB (dB x).
(** positive frequencies in ascending order, responses not negative *)
Definition good_band (rs : list (R * R)) : Prop := (2 <= length rs)%nat /\ (forall i, (i < length rs)%nat -> 0 < nu rs i /\ 0 <= resp rs i) /\ (forall i, (S i < length rs)%nat -> nu rs i < nu rs (S i)) /\ exists i, (i < length rs)%nat /\ 0 < resp rs i.
(** integral over the band by the trapezoidal rule *)
Definition trapezoid (rs : list (R * R)) (g : R -> R) : R :=
  Sm (length rs - 1) (fun i => (nu rs (S i) - nu rs i) * (resp rs i * g (nu rs i) + resp rs (S i) * g (nu rs (S i))) / 2).
(** distance of two frequencies in units of the distance of the pivots *)
Definition apart (x y : R) (pivot : R * R) : R := (ln x - ln y) / (ln (fst pivot) - ln (snd pivot)).
Definition good_pivot (p : R * R) : Prop := 0 < fst p /\ 0 < snd p /\ fst p <> snd p.
Definition quadratic (n : nat) (F : nat -> nat -> R) (v : nat -> R) : R := Sm n (fun i => Sm n (fun j => v i * v j * F i j)).
(** the first and last step of the band are counted with their full width *)
Definition ends (rs : list (R * R)) (g : R -> R) : R := let n := length rs in
  (nu rs 1 - nu rs 0) / 2 * (resp rs 0 * g (nu rs 0)) + (nu rs (n - 1) - nu rs (n - 2)) / 2 * (resp rs (n - 1) * g (nu rs (n - 1))).
Definition growth (f : lform) (l : nat) : R := match f with lin => INR l / 80 | quad => (INR l / 80) ^ 2 | _ => 1 end.
(** only the frequency of row k gets through *)
Definition single (rs : list (R * R)) (k : nat) : Prop := (k < length rs)%nat /\ forall i, (i < length rs)%nat -> i <> k -> resp rs i = 0.
