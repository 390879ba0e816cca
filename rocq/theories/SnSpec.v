(** Gaussian likelihoods with free offsets, covariance of combinations, and lines of light curves *)
From Coq Require Import Reals ZArith Bool List.
From Verif Require Import BaoModel BaoSpec SnModel.
Import ListNotations.
Local Open Scope R_scope.

(** chi^2 of residuals [r] with one offset for all of them, and with one for each of two sets *)
Definition chi2_one (n : nat) (W : nat -> nat -> R) (r : nat -> R) (m : R) : R := form n W (fun i => r i - m).
Definition chi2_two (n : nat) (W : nat -> nat -> R) (A1 A2 : nat -> R) (r : nat -> R) (m1 m2 : R) : R := form n W (fun i => r i - (m1 * A1 i + m2 * A2 i)).
(** the function has its minimum [v] at [m] *)
Definition least1 (f : R -> R) (v : R) : Prop := (exists m, f m = v) /\ forall m, v <= f m.
Definition least2 (f : R -> R -> R) (v : R) : Prop := (exists m1 m2, f m1 m2 = v) /\ forall m1 m2, v <= f m1 m2.
(** residuals of magnitudes, corrected for stretch and colour *)
Definition residual (alpha beta : R) (s : nat -> sn) (lum : nat -> R) (i : nat) : R := mag (s i) + alpha * stretch (s i) - beta * colour (s i) - lum i.
(** every supernova is in one of two sets, and none is empty *)
Definition split_sets (n : nat) (A1 A2 : nat -> R) : Prop :=
  (forall i, (1 <= i <= n)%nat -> (A1 i = 1 /\ A2 i = 0) \/ (A1 i = 0 /\ A2 i = 1)) /\
  (exists i, (1 <= i <= n)%nat /\ A1 i = 1) /\ (exists i, (1 <= i <= n)%nat /\ A2 i = 1).
(** the three quantities of a light curve; the covariance of all of them; weights of the corrected magnitude *)
Inductive quantity := Qmag | Qstretch | Qcolour.
Definition weight (alpha beta : R) (q : quantity) : R := match q with Qmag => 1 | Qstretch => alpha | Qcolour => - beta end.
Definition over (f : quantity -> R) : R := f Qmag + f Qstretch + f Qcolour.
Definition cov_combination (K : quantity -> quantity -> nat -> nat -> R) (alpha beta : R) (i j : nat) : R :=
  over (fun a => over (fun b => weight alpha beta a * weight alpha beta b * K a b i j)).
Definition cov_symmetric (K : quantity -> quantity -> nat -> nat -> R) : Prop := forall a b i j, K a b i j = K b a j i.
(** a line of the file with a name and numbers, and possibly more *)
Definition sn_line (xs : list R) (more : list word) : rec := Words (Txt :: map Num xs ++ more).
(** a file of comments and of lines with [k] numbers after the name; with more words after them if [ex] *)
Inductive tells (k : nat) (ex : bool) : list rec -> list (list R) -> Prop :=
| tells_nil : tells k ex [] []
| tells_comment f l : tells k ex f l -> tells k ex (Comment :: f) l
| tells_line xs more f l : length xs = k -> (ex = false -> more = []) -> tells k ex f l -> tells k ex (sn_line xs more :: f) (xs :: l).
(** other magnitudes of the same supernovae *)
Definition brighter (c : nat -> R) (s : nat -> sn) (i : nat) : sn :=
  mkSn (zhel (s i)) (zcmb (s i)) (mag (s i) + c i) (mag_var (s i)) (stretch (s i)) (stretch_var (s i)) (colour (s i)) (colour_var (s i)) (thirdvar (s i)) (cms (s i)) (cmc (s i)) (csc (s i)) (absd (s i)) (dataset (s i)).
(** the matrix of which the upper triangle is given *)
Definition from_upper (W : nat -> nat -> R) (i j : nat) : R := W (Nat.min i j) (Nat.max i j).
(** the inverse covariance that the likelihood is to use: the inverse variances without covariance files, else what the inversion returns in its upper triangle *)
Definition weights (inv : inverter) (C : covs) (n : nat) (s : nat -> sn) (pre : nat -> R) (alpha beta : R) (W : nat -> nat -> R) : Prop :=
  (diag_errors C = true /\ W = fun i j => if Nat.eqb i j then 1 / diag_var alpha beta pre s i else 0) \/
  (diag_errors C = false /\ exists U, inv n (cov_matrix C alpha beta pre s) = Some U /\ W = from_upper U).
