(** The likelihood of supernovae of the JLA sample: source/supernovae_JLA.f90 221-262 (grid of alpha and beta), 269-302, 371-491 (reading of light curves),
    551-594 (absolute distances), 773-991 (covariance and preparation), 1028-1228 (likelihood).  Real numbers are exact; arrays are functions of
    indices from 1, and a division by 0, a logarithm of a number that is not positive and a read outside an array are the result Undef.  Inversion of matrices is an argument.
    Not modelled: printing, the files of covariance, the cache of the inverse (allow_inv_cache is false). *)
From Coq Require Import Reals ZArith Bool List.
From Verif Require Import McmcModel BaoModel.
Import ListNotations.
Local Open Scope R_scope.

(** 153-170 without the name; dz is not used after it is read *)
Record sn := mkSn { zhel : R; zcmb : R; mag : R; mag_var : R; stretch : R; stretch_var : R; colour : R; colour_var : R; thirdvar : R;
                    cms : R; cmc : R; csc : R; absd : bool; dataset : Z }.
Definition ln10 : R := ln 10.
Definition log10 (x : R) : R := ln x / ln10.
(** ** Preparation: 874-957 *)
(** 882, 912-921; [disp] is intrinsicdisp, with indices from 1 to 10.  An invalid number of the data set is only reported (893-900). *)
Definition zfacsq : R := 25 / (ln10 * ln10).
Definition pre_var (disp : nat -> R) (pecz : R) (s : sn) : out R :=
  if (0 <=? dataset s)%Z && (dataset s <? 10)%Z then
    let d := disp (Z.to_nat (dataset s + 1)) in
    let v := mag_var s + d * d in
    Ok (if absd s then v else
          let r := (1 + zcmb s) / (zcmb s * (1 + (1 / 2) * zcmb s)) in v + zfacsq * (pecz * pecz) * (r * r))
  else Undef.
(** 924-957: the two sets of the fit with two values of scriptm; None if there is one value for all.  has_A1 is set at 926 and never unset. *)
Definition prep_two (twoscriptmfit : bool) (cut : R) (n : nat) (s : nat -> sn) : option ((nat -> R) * (nat -> R)) :=
  if twoscriptmfit then
    let low i := if Rle_dec (thirdvar (s i)) cut then true else false in
    let has_A2 := existsb (fun i => negb (low i)) (seq 1 n) in
    if has_A2 then Some (fun i => if low i then 1 else 0, fun i => if low i then 0 else 1) else None
  else None.
(** ** Covariance: 806-834 *)
Record covs := mkCovs { c_mag : option (nat -> nat -> R); c_stretch : option (nat -> nat -> R); c_colour : option (nat -> nat -> R);
                        c_ms : option (nat -> nat -> R); c_mc : option (nat -> nat -> R); c_sc : option (nat -> nat -> R) }.
Definition add (f : R) (m : option (nat -> nat -> R)) (i j : nat) : R := match m with Some M => f * M i j | None => 0 end.
Definition diag_var (alpha beta : R) (pre : nat -> R) (s : nat -> sn) (i : nat) : R :=
  pre i + alpha * alpha * stretch_var (s i) + beta * beta * colour_var (s i) + 2 * alpha * cms (s i) - 2 * beta * cmc (s i) - 2 * (alpha * beta) * csc (s i).
Definition cov_matrix (C : covs) (alpha beta : R) (pre : nat -> R) (s : nat -> sn) (i j : nat) : R :=
  add 1 (c_mag C) i j + add (alpha * alpha) (c_stretch C) i j + add (beta * beta) (c_colour C) i j + add (2 * alpha) (c_ms C) i j
  - add (2 * beta) (c_mc C) i j - add (2 * (alpha * beta)) (c_sc C) i j + (if Nat.eqb i j then diag_var alpha beta pre s i else 0).
(** 672-680 *)
Definition has {A} (x : option A) : bool := match x with Some _ => true | None => false end.
Definition diag_errors (C : covs) : bool := negb (has (c_mag C) || has (c_stretch C) || has (c_colour C) || has (c_ms C) || has (c_mc C) || has (c_sc C)).

(** ** Likelihood for alpha and beta: 1028-1148 *)
(** 836-860: DPOTRF and DPOTRI for the upper triangle; None if they fail *)
Definition inverter := nat -> (nat -> nat -> R) -> option (nat -> nat -> R).
Definition twopi : R := 2 * PI.
Definition rdiv (x y : R) : out R := if Req_EM_T y 0 then Undef else Ok (x / y).
Definition rlog (x : R) : out R := if Rlt_dec 0 x then Ok (ln x) else Undef.
Record margs := mkM { mA : R; mB : R; mC : R; mD : R; mE : R; mF : R }.
(** 1135-1148 *)
Definition finish (two : bool) (m : margs) : out R :=
  if two then
    bind (rdiv (mD m * mD m) (mE m)) (fun q =>
    let G := mF m - q in
    if Rle_dec G 0 then Stop
    else bind (rlog (mE m * (1 / twopi))) (fun l1 => bind (rlog (G * (1 / twopi))) (fun l2 =>
      Ok ((mA m + l1 + l2 - mC m * mC m / G - mB m * mB m * mF m / (mE m * G) + 2 * mB m * mC m * mD m / (mE m * G)) / 2))))
  else bind (rlog (mE m * (1 / twopi))) (fun l1 => bind (rdiv (mB m * mB m) (mE m)) (fun q => Ok ((mA m + l1 - q) / 2))).
(** 1062-1065 *)
Definition estimated (n : nat) (s : nat -> sn) (lum w : nat -> R) : R := sum1 n (fun i => (mag (s i) - lum i) * w i) / sum1 n w.
Definition diffmag (alpha beta : R) (s : nat -> sn) (lum : nat -> R) (est : R) (i : nat) : R := mag (s i) - lum i + alpha * stretch (s i) - beta * colour (s i) - est.
(** 1067-1078 *)
Definition margs_diag (n : nat) (w d : nat -> R) (two : option ((nat -> R) * (nat -> R))) : margs :=
  let A := sum1 n (fun i => w i * (d i * d i)) in
  match two with
  | Some (A1, A2) => mkM A (sum1 n (fun i => w i * d i * A1 i)) (sum1 n (fun i => w i * d i * A2 i)) 0 (sum1 n (fun i => w i * A1 i)) (sum1 n (fun i => w i * A2 i))
  | None => mkM A (sum1 n (fun i => w i * d i)) 0 0 (sum1 n w) 0
  end.
(** 1098-1132: [W] is right in its upper triangle only *)
Definition dot (n : nat) (u v : nat -> R) : R := sum1 n (fun i => u i * v i).
Definition margs_full (n : nat) (W : nat -> nat -> R) (d : nat -> R) (two : option ((nat -> R) * (nat -> R))) : margs :=
  let Wd := MulVecSymm n W d in
  match two with
  | Some (A1, A2) => let W1 := MulVecSymm n W A1 in let W2 := MulVecSymm n W A2 in
      mkM (dot n d Wd) (dot n Wd A1) (dot n Wd A2) (dot n W1 A2) (dot n W1 A1) (dot n W2 A2)
  | None => mkM (dot n d Wd) (sum1 n Wd) 0 0 (sum1 n (fun i => W i i + 2 * sum1 (i - 1) (fun k => W k i))) 0
  end.
Definition alpha_beta_like (inv : inverter) (C : covs) (n : nat) (s : nat -> sn) (pre : nat -> R) (two : option ((nat -> R) * (nat -> R))) (alpha beta : R) (lum : nat -> R) : out R :=
  let w := fun i => 1 / diag_var alpha beta pre s i in
  if existsb (fun i => if Req_EM_T (diag_var alpha beta pre s i) 0 then true else false) (seq 1 n) || (if Req_EM_T (sum1 n w) 0 then true else false) then Undef else
  let d := diffmag alpha beta s lum (estimated n s lum w) in
  if diag_errors C then finish (has two) (margs_diag n w d two)
  else match inv n (cov_matrix C alpha beta pre s) with
       | None => Ok logZero
       | Some W => finish (has two) (margs_full n W d two)
       end.
(** ** 1195-1206: distances; [DA] is the angular diameter distance, [ad] the absolute distances with the indices of their supernovae *)
Definition lumdists (DA : R -> R) (s : nat -> sn) (ad : list (nat * R)) (i : nat) : R :=
  fold_left (fun x p => if Nat.eqb (fst p) i then 5 * log10 (snd p) else x) ad (5 * log10 ((1 + zhel (s i)) * (1 + zcmb (s i)) * DA (zcmb (s i)))).
(** 551-594: the index of the first supernova of the name; None for STOP.  Names are numbers here. *)
Fixpoint index_of (names : list Z) (x : Z) (j : nat) : option nat :=
  match names with [] => None | y :: l => if (y =? x)%Z then Some j else index_of l x (S j) end.
Fixpoint match_absdist (names : list Z) (ad : list (Z * R)) : option (list (nat * R)) :=
  match ad with
  | [] => Some []
  | (x, d) :: ad' => match index_of names x 1, match_absdist names ad' with Some j, Some l => Some ((j, d) :: l) | _, _ => None end
  end.
(** ** Marginalization: 243-251, 1207-1217 *)
Definition steps (n : nat) : list Z := map (fun k => (Z.of_nat k - Z.of_nat n)%Z) (seq 0 (2 * n + 1)).
Definition disc (n : nat) : list (Z * Z) := filter (fun ab => (fst ab * fst ab + snd ab * snd ab <=? Z.of_nat n * Z.of_nat n)%Z) (list_prod (steps n) (steps n)).
(** 0.14 and 3.123 are constants of single precision *)
Definition alpha_center : R := 9395241 / 67108864.
Definition beta_center : R := 13098811 / 4194304.
Definition grid_point (wa wb : R) (p : Z * Z) : R * R := (alpha_center + IZR (fst p) * wa, beta_center + IZR (snd p) * wb).
(** the least of the values that are not logZero; None if there are none, where minval gives the largest number and the sum is 0 *)
Definition used (l : list R) : list R := filter (fun x => if Req_EM_T x logZero then false else true) l.
Definition marge (wa wb : R) (l : list R) : out R :=
  match used l with
  | [] => Undef
  | x :: u => let best := fold_left Rmin u x in
              bind (rlog (fold_right (fun y t => exp (- y + best) + t) 0 (x :: u) * wa * wb)) (fun g => Ok (best - g))
  end.

(** ** Reading of light curves: 371-491 *)
(** a word of the file is a number or not.  A line is a comment or has words. *)
Inductive word := Num (x : R) | Txt.
Inductive rec := Comment | Words (l : list word).
(** READ of k items from the record at [pos] on; the first item is a text, the others are numbers; items may come from several records.
    The new position is after the record of the last item, or after the record of the error, or after the end of the file (one more than the number of records). *)
Inductive rd := Good (xs : list R) (pos : nat) | Err (pos : nat) | End (pos : nat).
Fixpoint take_items (isname : bool) (k : nat) (ws : list word) (acc : list R) : option (nat * list R * bool) :=
  match k with
  | O => Some (O, acc, isname)
  | S k' => match ws with
            | [] => Some (k, acc, isname)
            | w :: ws' => if isname then take_items false k' ws' acc
                          else match w with Num x => take_items false k' ws' (acc ++ [x]) | Txt => None end
            end
  end.
(** words of a comment are read too by a list-directed READ: its first one is a text *)
Definition words_of (r : rec) : list word := match r with Comment => [Txt] | Words l => l end.
Fixpoint read_items (isname : bool) (k : nat) (rest : list rec) (pos : nat) (acc : list R) : rd :=
  match rest with
  | [] => End (S pos)
  | r :: rest' => match take_items isname k (words_of r) acc with
                  | None => Err (S pos)
                  | Some (O, acc', _) => Good acc' (S pos)
                  | Some (k', acc', nm) => read_items nm k' rest' (S pos) acc'
                  end
  end.
Definition READ (file : list rec) (pos k : nat) : rd := read_items true k (skipn pos file) pos [].
Definition back2 (pos : nat) : nat := (pos - 2)%nat.
(** the numbers that were read after the name, and whether there is a third variable: 16 items with third variable and data set, 15 without data set, 14 with data set only *)
Inductive fmt := F16 | F15 | F14.
(** 392-482: one turn of the loop at line [pos]; [first] is count = 1, [third] is has_thirdvar.  None for STOP. *)
Definition turn (file : list rec) (pos : nat) (first third : bool) : option (option (list R * fmt) * bool * nat) :=
  (* 459-473: at label 40 with the position p *)
  let at40 p := match READ file (back2 p) 14 with
                | Good xs q => if negb first && third then None else Some (Some (xs, F14), third, q)
                | _ => None
                end in
  let at30 p := match READ file (back2 p) 14 with
                | Good xs q => if negb first && third then None else at40 q (* 449-456: no GOTO 10 here *)
                | Err q | End q => at40 q
                end in
  let at20 p := match READ file (back2 p) 15 with
                | Good xs q => if negb first && negb third then None else Some (Some (xs, F15), true, q)
                | Err q | End q => at30 q
                end in
  match nth_error file pos with
  | None => at20 (S (length file))
  | Some Comment => Some (None, third, S pos)
  | Some (Words _) =>
      match READ file pos 16 with
      | Good xs q => if negb first && negb third then None else Some (Some (xs, F16), true, q)
      | Err q | End q => at20 q
      end
  end.
Fixpoint read_loop (file : list rec) (turns pos : nat) (first third : bool) : option (list (list R * fmt)) :=
  match turns with
  | O => Some []
  | S t => match turn file pos first third with
           | None => None
           | Some (None, th, q) => read_loop file t q first th
           | Some (Some e, th, q) => match read_loop file t q false th with Some l => Some (e :: l) | None => None end
           end
  end.
(** 269-302, 641-643: at most 5000 lines are counted *)
Definition read_jla_lc_data (file : list rec) : option (list (list R * fmt)) := read_loop file (Nat.min (length file) (Z.to_nat 5000)) 0 true false.
