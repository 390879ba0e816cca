(** Model of source/samples.f90, lines 40-66 and 113-265: eigenvalues of the test of Gelman and Rubin, interpolated densities with their
    limits, and kernels. Numbers are real; arrays have indices from 1, or from -winw; reading outside is a result of its own. *)
From Coq Require Import Reals ZArith Bool Lia.
From Verif Require Import BaoModel StatModel CnvgModel.
From Coq Require Import List.
Import ListNotations.
Local Open Scope R_scope.

(** ** Gelman and Rubin, 40-66 *)
(** 50-58: every row and column is divided by the root of the element on the diagonal of cov *)
Definition unit_scaled (cov M : matrix) : matrix := fun i j => M i j / sqrt (cov i i) / sqrt (cov j j).
(** 60-65; [root_inverse]: Matrix_CholeskyRootInverse, None for an error; [diagonalize]: the eigenvalues of Matrix_Diagonalize *)
Definition GelmanRubinEvalues (root_inverse : nat -> matrix -> option matrix) (diagonalize : nat -> matrix -> list R) (num : nat) (cov meanscov : matrix) : option (list R) :=
  match root_inverse num (unit_scaled cov cov) with
  | None => None
  | Some rot => Some (diagonalize num (mmul num (mmul num rot (unit_scaled cov meanscov)) (mtrans rot)))
  end.

(** ** Densities *)
Record density := mkD { d_n : nat; d_spacing : R; d_X : nat -> R; d_P : nat -> R; d_ddP : nat -> R }.
(** int() of Fortran: towards zero *)
Definition trunc (x : R) : Z := if Rle_dec 0 x then Int_part x else (- Int_part (- x))%Z.
(** 113-138 *)
Definition Prob (D : density) (x : R) : out R :=
  let n := d_n D in let h := d_spacing D in
  if Rlt_dec (d_X D n - h / 1000000) x then
    if Rlt_dec (d_X D n + h / 1000000) x then Stop else lookup n (d_P D) n
  else if Rlt_dec x (d_X D 1 - h / 1000000) then Stop
  else
    let llo := (1 + Z.to_nat (Z.max 0 (trunc ((x - d_X D 1) / h))))%nat in
    let lhi := (llo + 1)%nat in
    bind (lookup n (d_X D) lhi) (fun xhi => bind (lookup n (d_X D) llo) (fun xlo =>
    bind (lookup n (d_P D) llo) (fun plo => bind (lookup n (d_P D) lhi) (fun phi =>
    bind (lookup n (d_ddP D) llo) (fun clo => bind (lookup n (d_ddP D) lhi) (fun chi =>
    let a0 := (xhi - x) / h in
    let b0 := (x - xlo) / h in
    Ok (a0 * plo + b0 * phi + ((a0 ^ 3 - a0) * clo + (b0 ^ 3 - b0) * chi) * h ^ 2 / 6))))))).
(** 175-178 and 210, 222: the points at which the density is taken, i from 1 *)
Definition point (D : density) (i : nat) : R := d_X D 1 + (INR i - 1) * d_spacing D / 100.
Fixpoint all_ok {A} (l : list (out A)) : out (list A) :=
  match l with [] => Ok [] | x :: r => bind x (fun a => bind (all_ok r) (fun b => Ok (a :: b))) end.
Definition bign (D : density) : nat := ((d_n D - 1) * 100 + 1)%nat.
Definition fine_grid (D : density) : out (list R) := all_ok (map (fun i => Prob D (point D i)) (seq 1 (bign D))).
(** 188: the sum of the elements that are at least t *)
Definition sum_ge (t : R) (g : list R) : R := sumR (filter (fun x => if Rle_dec t x then true else false) g).
(** 183-196: the loop; the result are try_b and try_t at its end; None is a loop that has not ended *)
Fixpoint bisect (fuel : nat) (g : list R) (p norm b t : R) (last : R) : option (R * R) :=
  match fuel with
  | O => None
  | S fuel' =>
    let m := (b + t) / 2 in
    let s := sum_ge m g in
    let '(b, t) := if Rlt_dec s (p * norm) then (b, m) else (m, t) in
    if Rlt_dec (Rabs (s / last - 1)) (1 / 10000) then Some (b, t) else bisect fuel' g p norm b t s
  end.
(** 202-207, 214-219: the place (from 1) of the first element above t *)
Fixpoint first_above (t : R) (g : list R) (i : nat) : option nat :=
  match g with [] => None | x :: r => if Rlt_dec t x then Some i else first_above t r (S i) end.
(** 161-223: mn, mx, lim_bot, lim_top; the position of the last element above the level is found backwards *)
Definition Limits (fuel : nat) (D : density) (p : R) : out (option (R * R * bool * bool)) :=
  bind (fine_grid D) (fun g =>
  let norm := sumR g - 1 / 2 * d_P D (d_n D) - 1 / 2 * d_P D 1 in
  match bisect fuel g p norm 0 (maxR g) (-1) with
  | None => Ok None
  | Some (b, t) =>
    let level := (b + t) / 2 in
    let lim_bot := if Rle_dec level (nth 0 g 0) then true else false in
    let lim_top := if Rle_dec level (nth (length g - 1) g 0) then true else false in
    bind (if lim_bot then Ok (d_P D 1) else match first_above level g 1 with Some i => Ok (point D i) | None => Undef end) (fun mn =>
    bind (if lim_top then Ok (d_P D (d_n D)) else match first_above level (rev g) 1 with Some i => Ok (point D (length g + 1 - i)) | None => Undef end) (fun mx =>
    Ok (Some (mn, mx, lim_bot, lim_top))))
  end).

(** ** Kernels, 226-265 *)
(** element i of the window before it is divided by the sum *)
Definition raw (h : R) (i : Z) : R := exp (- (IZR i / h) ^ 2 / 2).
(** sum over i = a, a + 1, ..., k elements *)
Definition zsum (a : Z) (k : nat) (f : Z -> R) : R := sumR (map (fun i => f (a + Z.of_nat i)%Z) (seq 0 k)).
Definition Win (w : nat) (h : R) (i : Z) : R := raw h i / zsum (- Z.of_nat w) (2 * w + 1) (raw h).
Definition xWin (w : nat) (h : R) (i : Z) : R := Win w h i * IZR i.
(** 246-259: from the sum up to 0, one more each time *)
Fixpoint a0 (w : nat) (h : R) (i : nat) : R := match i with O => zsum (- Z.of_nat w) (w + 1) (Win w h) | S i' => a0 w h i' + Win w h (Z.of_nat i) end.
Fixpoint a1 (w : nat) (h : R) (i : nat) : R := match i with O => zsum (- Z.of_nat w) (w + 1) (xWin w h) | S i' => a1 w h i' + xWin w h (Z.of_nat i) end.
Fixpoint a2 (w : nat) (h : R) (i : nat) : R :=
  match i with O => zsum (- Z.of_nat w) (w + 1) (fun j => Win w h j * IZR j ^ 2) | S i' => a2 w h i' + xWin w h (Z.of_nat i) * IZR (Z.of_nat i) end.
(** 260-261: Undef is a division by zero *)
Definition over_det (w : nat) (h : R) (i : nat) (x : R) : out R :=
  let det := a0 w h i * a2 w h i - a1 w h i ^ 2 in if Req_EM_T det 0 then Undef else Ok (x / det).
Definition boundary_K (w : nat) (h : R) (i : nat) : out R := over_det w h i (a2 w h i).
Definition boundary_xK (w : nat) (h : R) (i : nat) : out R := over_det w h i (a1 w h i).
