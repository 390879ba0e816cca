(** Likelihood approximations for bandpowers: source/CMBlikes.f90 651-660, 711-725 (noise), 862-915 (Transform), 968-980 (ExactChiSq), 998-1138 (theory for maps), 1177-1239 (LogLike),
    1307-1349 (foregrounds of smica), and Matrix_Root, Matrix_Trace, MatrixSym_LogDet of source/Matrix_utils_new.f90 421-440, 604-634.  Real numbers are exact; arrays are functions of
    indices from 1; the roots and logarithms of numbers that are not positive are the result Undef.  Diagonalization and Cholesky decomposition (LAPACK) are arguments.
    Not modelled: the optional argument COffset, which no caller gives; threads (the sum over bins has no order here). *)
From Coq Require Import Reals ZArith Bool List.
From Verif Require Import McmcModel BaoModel MapModel.
Import ListNotations.
Local Open Scope R_scope.

Definition matrix := nat -> nat -> R.
Definition mm (n : nat) (A B : matrix) : matrix := fun i j => sum1 n (fun k => A i k * B k j).
Definition tr (A : matrix) : matrix := fun i j => A j i.
(** Matrix_Diagonalize: the matrix of eigenvectors and the eigenvalues *)
Definition diagonalizer := nat -> matrix -> matrix * (nat -> R).
Definition all_pos (n : nat) (D : nat -> R) : bool := forallb (fun i => if Rlt_dec 0 (D i) then true else false) (seq 1 n).
(** 421-440; [pow] as a function of the eigenvalue *)
Definition Matrix_Root (diag : diagonalizer) (n : nat) (pow : R -> R) (M : matrix) : out matrix :=
  let '(U, D) := diag n M in
  if all_pos n D then Ok (mm n (fun i j => U i j * pow (D j)) (tr U)) else Undef.
(** 895: sign(sqrt(2*max(0,x-log(x)-1)),x-1) *)
Definition gfun (x : R) : R := let s := sqrt (2 * Rmax 0 (x - ln x - 1)) in if Rlt_dec (x - 1) 0 then - s else s.
(** 862-915 without COffset; the loop divides each element by the roots of its row and of its column *)
Definition Transform (diag : diagonalizer) (n : nat) (C Chat CfHalf : matrix) : out matrix :=
  let '(U, D) := diag n C in
  let Rot := mm n (mm n (tr U) Chat) U in
  if all_pos n D then
    let roots i := sqrt (D i) in
    let Rot1 := fun i j => Rot i j / roots i / roots j in
    let Rot2 := mm n U (mm n Rot1 (tr U)) in
    let '(V, E) := diag n Rot2 in
    if all_pos n E then
      let U2 := mm n CfHalf V in
      Ok (mm n (fun i j => U2 i j * gfun (E j)) (tr U2))
    else Undef
  else Undef.
(** 604-634; [chol] is the Cholesky factor, None if the matrix is not positive *)
Definition Matrix_Trace (n : nat) (M : matrix) : R := sum1 n (fun i => M i i).
Definition cholesky := nat -> matrix -> option matrix.
Definition LogDet (chol : cholesky) (n : nat) (M : matrix) : out R := match chol n M with Some L => Ok (2 * sum1 n (fun i => ln (L i i))) | None => Stop end.
(** 968-980 *)
Definition ExactChiSq (diag : diagonalizer) (chol : cholesky) (n : nat) (fsky : R) (C Chat : matrix) (l : Z) : out R :=
  bind (Matrix_Root diag n (fun x => / sqrt x) C) (fun M0 =>
  let M := mm n M0 (mm n Chat M0) in
  bind (LogDet chol n M) (fun ld => Ok (IZR (2 * l + 1) * fsky * (Matrix_Trace n M - INR n - ld)))).

(** ** Noise: 651-660, 711-725 *)
Inductive approx := HL | Gaussian | Exact.
Definition hat_used (a : approx) (includes_noise : bool) (hat noise : R) : R :=
  match a with Gaussian => if includes_noise then hat - noise else hat | _ => if includes_noise then hat else hat + noise end.
Definition fid_used (includes_noise : bool) (fid noise : R) : R := if includes_noise then fid else fid + noise.
(** 1212-1214 *)
Definition with_noise (a : approx) (C : R) (noise : R) : R := match a with Gaussian => C | _ => C + noise end.

(** ** LogLike: 1177-1239 *)
Record data := mkData { nmaps : nat; like : approx; binned : bool; blo : Z; bhi : Z; noiseM : Z -> matrix; chatM : Z -> matrix; cfhalf : Z -> matrix; clix : list nat; icov : matrix; fsky : R }.
Definition noisy (d : data) (C : matrix) (b : Z) : matrix := fun i j => with_noise (like d) (C i j) (noiseM d b i j).
Definition bin_vector (diag : diagonalizer) (d : data) (C : matrix) (b : Z) : out (list R) :=
  match like d with
  | HL => bind (Transform diag (nmaps d) (noisy d C b) (chatM d b) (cfhalf d b)) (fun T => Ok (vec_bin (clix d) (MatrixToElements (nmaps d) T)))
  | _ => Ok (vec_bin (clix d) (MatrixToElements (nmaps d) (fun i j => noisy d C b i j - chatM d b i j)))
  end.
Definition chisq (diag : diagonalizer) (chol : cholesky) (d : data) (theory : Z -> out matrix) : out R :=
  match like d with
  | Exact => if binned d then Stop else
      bind (mapM (fun b => bind (theory b) (fun C => ExactChiSq diag chol (nmaps d) (fsky d) (noisy d C b) (chatM d b) b)) (upto (blo d) (bhi d))) (fun l => Ok (fold_right Rplus 0 l))
  | _ => bind (mapM (fun b => bind (theory b) (fun C => bin_vector diag d C b)) (upto (blo d) (bhi d))) (fun vs =>
         let X := concat vs in Ok (QuadForm (length X) (icov d) (fun i => nth (i - 1) X 0)))
  end.
(** [cal] is the calibration parameter if calibration_index > 0, [prior] is log_calibration_prior *)
Definition LogLike (diag : diagonalizer) (chol : cholesky) (d : data) (theory : Z -> out matrix) (cal : option R) (prior : R) : out R :=
  bind (chisq diag chol d theory) (fun c =>
  bind (match cal with
        | Some x => if Rlt_dec 0 prior then if Rlt_dec 0 x then Ok (c + (ln x / prior) ^ 2) else Undef else Ok c
        | None => Ok c
        end) (fun c' => Ok (c' / 2))).

(** ** Theory for maps *)
(** 284-299, 998-1064: [th] has the spectra of the fields i >= j; spectra of maps are always allocated *)
Definition map_theory (fields : nat -> nat) (th : nat -> nat -> spectrum) (i j : nat) (l : Z) : R :=
  let f := fields i in let g := fields j in
  let '(f, g) := if Nat.ltb f g then (g, f) else (f, g) in
  match th f g with Some C => C l | None => 0 end.
(** 1074-1113: one spectrum.  Without two points the first value is taken from outside of the array. *)
Definition aberration (a : R) (lmin lmax : Z) (D : Z -> R) (l : Z) : out R :=
  if (lmin <=? 0)%Z || (lmax <=? lmin)%Z then Undef else
  let cl l := D l / (IZR l * (IZR l + 1)) in
  let d1 l := if (lmin + 1 <=? l)%Z && (l <=? lmax - 1)%Z then (1 / 2) * (cl (l + 1)%Z - cl (l - 1)%Z) else cl l in
  let d2 l := if (l =? lmin)%Z then d1 (lmin + 1)%Z else d1 l in
  let d3 l := if (l =? lmax)%Z then d2 (lmax - 1)%Z else d2 l in
  Ok (D l + a * (IZR l ^ 2 * (IZR l + 1) * d3 l)).
(** 1307-1334: the foregrounds of smica, for the spectrum of fields f and g *)
Definition smica (A1 n1 n1run A2 n2 : R) (f g : nat) (D : Z -> R) (l : Z) : R :=
  if Nat.eqb f 1 && Nat.eqb g 1 then
    let lnrat := ln (IZR l / 2000) in
    D l + A1 * exp (n1 * lnrat + n1run / 2 * lnrat ^ 2) + A2 * Rpower (IZR l / 2000) n2
  else D l.
(** 1116-1138: aberration, then foregrounds, then calibration *)
Definition adapt (a : R) (fg : nat -> nat -> (Z -> R) -> Z -> R) (cal : option R) (lmin lmax : Z) (f g : nat) (D : Z -> R) (l : Z) : out R :=
  let cmb := Nat.leb f 3 && Nat.leb g 3 in
  let calib x := match cal with Some c => if cmb then (if Req_EM_T c 0 then Undef else Ok (x / c ^ 2)) else Ok x | None => Ok x end in
  if (if Req_EM_T a 0 then false else true) && cmb then
    if (lmin <=? 0)%Z || (lmax <=? lmin)%Z then Undef
    else calib (fg f g (fun l => match aberration a lmin lmax D l with Ok x => x | _ => 0 end) l)
  else calib (fg f g D l).
(** 1336-1349: the derived parameter is the foreground of the first map at 2000 *)
Definition smica_derived (A1 n1 n1run A2 n2 : R) (lmin lmax : Z) (f : nat) : out R :=
  if (lmin <=? 2000)%Z && (2000 <=? lmax)%Z then Ok (smica A1 n1 n1run A2 n2 f f (fun _ => 0) 2000) else Undef.
