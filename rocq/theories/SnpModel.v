(** The likelihood of supernovae in Python: python/planck/SN.py 71-184, 192-295.  Real numbers are exact; a division by zero and the logarithm of a number that is not positive
    (numpy: inf or nan) are the error NotFinite.  np.linalg.inv is an argument; None is LinAlgError.  Lines of the file are split into words, and a number is read by an
    argument.  Not modelled: the dataset file, the files of covariance, printing. *)
From Coq Require Import Reals ZArith List Bool.
From Verif Require Import PyStr PyBase ConvModel KdeModel Kde2Model.
Import ListNotations.
Local Open Scope R_scope.

Definition AssertionError : exn := OtherError (L "AssertionError").
(** ** Reading: 71-106, with the lines of the file from 81 on *)
(** a line with '#', with the words after its first character; a line of white space; another line *)
Inductive line := Head (ws : list str) | Blank | Row (ws : list str).
(** 85-89: the first column of the name is renamed *)
Fixpoint replace_first (a b : str) (l : list str) : list str := match l with [] => [] | x :: r => if str_eqb x a then b :: r else x :: replace_first a b r end.
Definition renames : list (str * str) :=
  [(L "mb", L "mag"); (L "color", L "colour"); (L "x1", L "stretch"); (L "3rdvar", L "third_var"); (L "d3rdvar", L "dthird_var"); (L "cov_m_s", L "cov_mag_stretch");
   (L "cov_m_c", L "cov_mag_colour"); (L "cov_s_c", L "cov_stretch_colour")].
Definition columns (ws : list str) : list str := fold_left (fun l p => replace_first (fst p) (snd p) l) renames ws.
(** attributes that are arrays, the last set first *)
Record rstate := mkRs { r_cols : option (list str); r_third : bool; r_arr : list (str * list R); r_names : list str; r_ix : nat }.
Fixpoint attr (a : str) (l : list (str * list R)) : option (list R) := match l with [] => None | (b, v) :: r => if str_eqb a b then Some v else attr a r end.
Fixpoint set_nth (i : nat) (x : R) (l : list R) : list R := match l, i with [], _ => [] | _ :: r, O => x :: r | y :: r, S i' => y :: set_nth i' x r end.
Fixpoint set_attr (a : str) (i : nat) (x : R) (l : list (str * list R)) : list (str * list R) :=
  match l with [] => [] | (b, v) :: r => if str_eqb a b then (b, set_nth i x v) :: r else (b, v) :: set_attr a i x r end.
(** 99-105; 'name' is only kept in the list of names *)
Fixpoint put_row (num : str -> option R) (ix : nat) (l : list (str * str)) (st : rstate) : res rstate :=
  match l with
  | [] => Ok st
  | (c, v) :: r =>
      if str_eqb c (L "name") then put_row num ix r (mkRs (r_cols st) (r_third st) (r_arr st) (r_names st ++ [v]) (r_ix st))
      else match num v with
           | None => Err ValueError
           | Some x =>
               match attr c (r_arr st) with
               | None => Err AttributeError
               | Some arr => if Nat.ltb ix (length arr) then put_row num ix r (mkRs (r_cols st) (r_third st) (set_attr c ix x (r_arr st)) (r_names st) (r_ix st)) else Err IndexError
               end
           end
  end.
Definition read_line (num : str -> option R) (nlines : nat) (st : rstate) (l : line) : res rstate :=
  let zeros := repeat 0 (nlines - 1) in
  match l with
  | Head ws => let cols := columns ws in
      Ok (mkRs (Some cols) (mem_str (L "third_var") cols) (map (fun c => (c, zeros)) (rev cols) ++ [(L "set", zeros); (L "dthird_var", zeros); (L "third_var", zeros)] ++ r_arr st) (r_names st) (r_ix st))
  | Blank => Ok st
  | Row ws => match r_cols st with
              | None => Err (OtherError (L "Data file must have comment header"))
              | Some cols => bindR (put_row num (r_ix st) (combine cols ws) st) (fun st' => Ok (mkRs (r_cols st') (r_third st') (r_arr st') (r_names st') (S (r_ix st'))))
              end
  end.
Fixpoint read_lines (num : str -> option R) (nlines : nat) (st : rstate) (ls : list line) : res rstate :=
  match ls with [] => Ok st | l :: r => bindR (read_line num nlines st l) (fun st' => read_lines num nlines st' r) end.
Definition read_file (num : str -> option R) (ls : list line) : res rstate := read_lines num (length ls) (mkRs None false [] [] 0) ls.

(** ** Data *)
Record data := mkData { d_n : nat; d_zhel : nat -> R; d_zcmb : nat -> R; d_mag : nat -> R; d_mag_var : nat -> R; d_stretch : nat -> R; d_stretch_var : nat -> R; d_colour : nat -> R; d_colour_var : nat -> R;
                        d_third : nat -> R; d_cms : nat -> R; d_cmc : nat -> R; d_csc : nat -> R; d_pecz : R }.
Definition rmat := nat -> nat -> R.
Record pcovs := mkPc { k_mag : option rmat; k_stretch : option rmat; k_colour : option rmat; k_ms : option rmat; k_mc : option rmat; k_sc : option rmat }.
Definition isSome {A} (x : option A) : bool := match x with Some _ => true | None => false end.
(** 128: more than one covariance, or none of the magnitude *)
Definition count (C : pcovs) : nat := length (filter (fun b => b) [isSome (k_mag C); isSome (k_stretch C); isSome (k_colour C); isSome (k_ms C); isSome (k_mc C); isSome (k_sc C)]).
Definition alphabeta_covmat (C : pcovs) : bool := Nat.ltb 1 (count C) || negb (isSome (k_mag C)).
(** 135-137 *)
Definition pre_vars (D : data) (i : nat) : R :=
  d_mag_var D i + 25 / ln 10 ^ 2 * d_pecz D ^ 2 * ((1 + d_zcmb D i) / (d_zcmb D i * (1 + 1 / 2 * d_zcmb D i))) ^ 2.
(** 139-155: the two sets of supernovae, None with one value of scriptm *)
Definition two_sets (twoscriptmfit : bool) (cut : R) (D : data) : option ((nat -> R) * (nat -> R)) :=
  if twoscriptmfit then
    let low i := if Rle_dec (d_third D i) cut then true else false in
    let A1 i := if low i then 1 else 0 in let A2 i := if low i then 0 else 1 in
    let has1 := existsb low (seq 0 (d_n D)) in let has2 := existsb (fun i => negb (low i)) (seq 0 (d_n D)) in
    if negb has1 then None else if negb has2 then None else Some (A1, A2)
  else None.
(** ** Inverse covariance: 192-225 *)
(** np.isclose *)
Definition isclose (a b : R) : bool := if Rle_dec (Rabs (a - b)) (/ 10 ^ 8 + / 10 ^ 5 * Rabs b) then true else false.
(** _last_alpha and _last_beta (None for inf), and invcov *)
Record cache := mkCache { c_last : option (R * R); c_inv : option rmat }.
Definition addm (f : R) (m : option rmat) (i j : nat) : R := match m with Some M => f * M i j | None => 0 end.
Definition delta (C : pcovs) (D : data) (alpha beta : R) (i : nat) : R :=
  if alphabeta_covmat C then
    pre_vars D i + alpha * alpha * d_stretch_var D i + beta * beta * d_colour_var D i + 2 * alpha * d_cms D i - 2 * beta * d_cmc D i - 2 * (alpha * beta) * d_csc D i
  else pre_vars D i.
Definition covmat (C : pcovs) (D : data) (alpha beta : R) (i j : nat) : R :=
  let m := match k_mag C with Some M => M i j | None => 0 end in
  (if alphabeta_covmat C then m + addm (alpha * alpha) (k_stretch C) i j + addm (beta * beta) (k_colour C) i j + addm (2 * alpha) (k_ms C) i j - addm (2 * beta) (k_mc C) i j - addm (2 * (alpha * beta)) (k_sc C) i j else m) +
  (if Nat.eqb i j then delta C D alpha beta i else 0).
Definition inverter := nat -> rmat -> option rmat.
Definition inverse (inv : inverter) (C : pcovs) (D : data) (alpha beta : R) (c : cache) : res rmat * cache :=
  let compute c' := match inv (d_n D) (covmat C D alpha beta) with Some W => (Ok W, mkCache (c_last c') (Some W)) | None => (Err LinAlgError, c') end in
  if alphabeta_covmat C then
    match c_last c with
    | Some (a, b) => if isclose alpha a && isclose beta b then (match c_inv c with Some W => Ok W | None => Err AttributeError end, c) else compute (mkCache (Some (alpha, beta)) (c_inv c))
    | None => compute (mkCache (Some (alpha, beta)) (c_inv c))
    end
  else compute c.
(** ** Likelihood: 227-273 *)
Definition mdot (n : nat) (M : rmat) (v : nat -> R) (i : nat) : R := rsum n (fun j => M i j * v j).
Definition vdot (n : nat) (u v : nat -> R) : R := rsum n (fun i => u i * v i).
Definition plog (x : R) : res R := if Rlt_dec 0 x then Ok (ln x) else Err NotFinite.
Definition finish (n : nat) (W : rmat) (d : nat -> R) (two : option ((nat -> R) * (nat -> R))) : res R :=
  let v := mdot n W d in let A := vdot n v d in
  match two with
  | Some (A1, A2) =>
      let B := vdot n v A1 in let C := vdot n v A2 in let v1 := mdot n W A1 in let D := vdot n v1 A2 in let E := vdot n v1 A1 in let F := vdot n (mdot n W A2) A2 in
      bindR (rdivE (D * D) E) (fun q =>
      let G := F - q in
      if Rlt_dec G 0 then Err AssertionError
      else bindR (plog (E / (2 * PI))) (fun l1 => bindR (plog (G / (2 * PI))) (fun l2 =>
        bindR (rdivE (C * C) G) (fun t1 => bindR (rdivE (B * B * F) (E * G)) (fun t2 => bindR (rdivE (2 * B * C * D) (E * G)) (fun t3 =>
        Ok ((A + l1 + l2 - t1 - t2 + t3) / 2)))))))
  | None =>
      let B := rsum n v in let E := rsum n (fun i => rsum n (fun j => W i j)) in
      bindR (plog (E / (2 * PI))) (fun l => bindR (rdivE (B ^ 2) E) (fun q => Ok ((A + l - q) / 2)))
  end.
Definition alpha_beta_like (inv : inverter) (C : pcovs) (D : data) (two : option ((nat -> R) * (nat -> R))) (lum : nat -> R) (alpha beta : R) (given : option rmat) (c : cache) : res R * cache :=
  let n := d_n D in
  let w i := 1 / delta C D alpha beta i in
  if existsb (fun i => if Req_EM_T (delta C D alpha beta i) 0 then true else false) (seq 0 n) || (if Req_EM_T (rsum n w) 0 then true else false) then (Err NotFinite, c)
  else
    let est := rsum n (fun i => (d_mag D i - lum i) * w i) / rsum n w in
    if alphabeta_covmat C then
      let d i := d_mag D i - lum i + alpha * d_stretch D i - beta * d_colour D i - est in
      match given with
      | Some W => (finish n W d two, c)
      | None => let '(r, c') := inverse inv C D alpha beta c in (bindR r (fun W => finish n W d two), c')
      end
    else
      let d i := d_mag D i - lum i - est in
      (match c_inv c with Some W => finish n W d two | None => Err AttributeError end, c).
(** ** Marginalization: 157-184, 282-289.  No value of the grid is inf here. *)
Definition zrange (a b : Z) : list Z := map (fun k => (a + Z.of_nat k)%Z) (seq 0 (Z.to_nat (b - a))).
Definition marge_points (steps : nat) : list (Z * Z) :=
  let s := Z.of_nat steps in
  flat_map (fun a => flat_map (fun b => if (a ^ 2 + b ^ 2 <=? s ^ 2)%Z then [(a, b)] else []) (zrange (- s) (s + 1))) (zrange (- s) (s + 1)).
Definition marge_grid (steps : nat) (ca cb wa wb : R) : list (R * R) := map (fun p => (ca + IZR (fst p) * wa, cb + IZR (snd p) * wb)) (marge_points steps).
(** the likelihoods of the points in order *)
Fixpoint grid_likes (f : R * R -> option rmat -> cache -> res R * cache) (l : list ((R * R) * option rmat)) (c : cache) : res (list R) * cache :=
  match l with
  | [] => (Ok [], c)
  | (p, g) :: r => let '(x, c1) := f p g c in
      match x with
      | Err e => (Err e, c1)
      | Ok v => let '(vs, c2) := grid_likes f r c1 in (bindR vs (fun t => Ok (v :: t)), c2)
      end
  end.
Fixpoint pmin (l : list R) : R := match l with [] => 0 | [x] => x | x :: r => Rmin x (pmin r) end.
Definition marginal (wa wb : R) (l : list R) : res R :=
  match l with
  | [] => Err ValueError
  | _ => let best := pmin l in bindR (plog (fold_right Rplus 0 (map (fun x => exp (- x + best)) l) * wa * wb)) (fun g => Ok (best - g))
  end.
(** 178-184: the inverses that are computed beforehand *)
Fixpoint precompute (inv : inverter) (C : pcovs) (D : data) (l : list (R * R)) (c : cache) : res (list rmat) * cache :=
  match l with
  | [] => (Ok [], c)
  | (a, b) :: r => let '(x, c1) := inverse inv C D a b c in
      match x with Err e => (Err e, c1) | Ok W => let '(ws, c2) := precompute inv C D r c1 in (bindR ws (fun t => Ok (W :: t)), c2) end
  end.
Definition setup (inv : inverter) (C : pcovs) (D : data) (marginalize pre : bool) (grid : list (R * R)) : res (list (option rmat)) * cache :=
  let c := mkCache None None in
  if marginalize then
    if pre then let '(ws, c1) := precompute inv C D grid c in (bindR ws (fun l => Ok (map Some l)), c1) else (Ok (map (fun _ => None) grid), c)
  else if alphabeta_covmat C then (Ok [], c)
  else let '(x, c1) := inverse inv C D 0 0 c in (bindR x (fun _ => Ok []), c1).
(** 278-295; [ab]: alpha and beta of the data parameters *)
Definition loglike (inv : inverter) (C : pcovs) (D : data) (two : option ((nat -> R) * (nat -> R))) (marginalize : bool) (grid : list (R * R)) (wa wb : R) (invs : list (option rmat)) (lum : nat -> R) (ab : R * R) (c : cache) : res R * cache :=
  if marginalize then
    let '(vs, c1) := grid_likes (fun p g => alpha_beta_like inv C D two lum (fst p) (snd p) g) (combine grid invs) c in (bindR vs (marginal wa wb), c1)
  else if alphabeta_covmat C then alpha_beta_like inv C D two lum (fst ab) (snd ab) None c
  else alpha_beta_like inv C D two lum 0 0 None c.
(** 281 *)
Definition lumdists (D : data) (DA : nat -> R) (i : nat) : R := 5 * (ln ((1 + d_zhel D i) * (1 + d_zcmb D i) * DA i) / ln 10).
