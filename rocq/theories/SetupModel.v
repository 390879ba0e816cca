(** Model of the set-up of the parameters: ranges, start points and the covariance matrix for proposals, source/BaseParameters.f90
    85-160 and 220-255, source/IO.f90 27-80.  Indices are counted from 0.  Real numbers are exact.  A line of numbers is the list of
    them, None if it cannot be read; lines of a matrix that are blank or comments are left out (the text file class is in a library
    that is not in the repository).  An index outside an array is an error. *)
From Coq Require Import Reals String Ascii Bool Arith List.
From Verif Require Import PyStr NamesModel McmcModel LikeModel.
Import ListNotations.
Local Open Scope R_scope.

Definition mat := nat -> nat -> R.
Definition setm (m : mat) (i j : nat) (v : R) : mat := fun a b => if (a =? i)%nat && (b =? j)%nat then v else m a b.
Definition zero_mat : mat := fun _ _ => 0.

(** IO.f90 46-53: [num] rows, of which the first [num] numbers are read; None when the program stops *)
Fixpoint read_rows (num k : nat) (rows : list (list R)) : option (list (list R)) :=
  match k with
  | O => Some []
  | S k' => match rows with
            | [] => None
            | r :: rows' => if (num <=? length r)%nat then option_map (cons (firstn num r)) (read_rows num k' rows') else None
            end
  end.
(** tmpMat(x,y): row y is read into the column y *)
Definition tmp (rows : list (list R)) (x y : nat) : R := nth x (nth y rows []) 0.
(** IO.f90 56-62: cov_params is 0 for names that are not used *)
Definition scatter (cov : list nat) (rows : list (list R)) : mat :=
  fold_left (fun m y =>
    match nth y cov O with
    | O => m
    | S j => fold_left (fun m x => match nth x cov O with O => m | S i => setm m i j (tmp rows x y) end) (seq 0 (length cov)) m
    end) (seq 0 (length cov)) zero_mat.
(** IO.f90 27-80: [comment] is the text after the comment mark, [np] is num_params, [nt] is num_theory_params *)
Definition ReadProposeMatrix (sep : ascii -> bool) (l : list pn) (np nt : nat) (comment : str) (rows : list (list R)) : option mat :=
  match rows, comment with
  | r :: _, [] =>
      if (length r =? np)%nat then option_map (fun rs => fun i j => nth j (nth i rs []) 0) (read_rows np np rows)
      else if (length r =? nt)%nat
           then option_map (fun rs => fun i j => if (i <? nt)%nat && (j <? nt)%nat then nth j (nth i rs []) 0 else 0) (read_rows nt nt rows)
      else None
  | _ :: _, _ =>
      match ReadIndices sep l comment None (Some (Some O)) true with
      | Some (cov, Some num) =>
          match read_rows num num rows with
          | Some rs => if forallb (fun v => (v <=? np)%nat) cov then Some (scatter cov rs) else None
          | None => None
          end
      | _ => None
      end
  | [], _ => None
  end.
(** BaseParameters.f90 233-243, one pass of the loop: (pmat, HasNewParams) *)
Definition cov_step (varying : nat -> bool) (PWidth : nat -> R) (st : mat * bool) (i : nat) : mat * bool :=
  let (m, new) := st in
  let st := if Reqb (m i i) 0 && varying i then (setm m i i (PWidth i * PWidth i), true) else (m, new) in
  if varying i then st else (fun a b => if (a =? i)%nat || (b =? i)%nat then 0 else fst st a b, snd st).
(** 220-255: the matrix over the varied parameters [used]; [file] is None when no file is given *)
Definition ReadSetCovMatrix (np : nat) (varying : nat -> bool) (PWidth : nat -> R) (used : list nat) (file : option mat) : mat * bool :=
  match file with
  | Some pmat =>
      let (m, new) := fold_left (cov_step varying PWidth) (seq 0 np) (pmat, false) in
      (fun a b => m (nth a used O) (nth b used O), new)
  | None => (fun a b => if (a =? b)%nat then PWidth (nth a used O) * PWidth (nth a used O) else 0, true)
  end.

(** BaseParameters.f90 121-148: the ranges of a parameter, None when the program stops *)
Record range := mkR { center : R; PMin : R; PMax : R; StartWidth : R; pw : R; vary : bool }.
Definition read_range (line : option (list R)) : option range :=
  match line with
  | None | Some [] => None
  | Some [c] => Some (mkR c c c 0 0 false)
  | Some (c :: lo :: hi :: sw :: w :: _) =>
      let v := negb (Reqb w 0) in
      let lo := if v then lo else c in
      let hi := if v then hi else c in
      if Rltb hi lo then None else if Rltb c lo then None else if Rltb hi c then None
      else Some (mkR c lo hi sw w v)
  | Some _ => None
  end.
Fixpoint ReadParams (lines : list (option (list R))) : option (list range) :=
  match lines with
  | [] => Some []
  | l :: lines' => match read_range l, ReadParams lines' with Some r, Some rs => Some (r :: rs) | _, _ => None end
  end.
(** 150-158 *)
Definition params_used (rs : list range) : list nat :=
  map fst (filter (fun q => vary (snd q)) (combine (seq 0 (length rs)) rs)).
(** 85-105: the numbers of Gaussian1 are taken from a list; None when it is used up *)
Fixpoint start_value (r : range) (gs : list R) : option (R * list R) :=
  match gs with
  | [] => None
  | g :: gs' =>
      let p := if Rltb (StartWidth r) 0 then center r - Rabs g * StartWidth r else center r + g * StartWidth r in
      if negb (Rltb p (PMin r)) && negb (Rltb (PMax r) p) then Some (p, gs') else start_value r gs'
  end.
Fixpoint SetStartPositions (rs : list range) (used : list nat) (P : list R) (gs : list R) : option (list R) :=
  match used with
  | [] => Some P
  | i :: used' =>
      match nth_error rs i with
      | None => None
      | Some r => match start_value r gs with
                  | None => None
                  | Some (p, gs') => SetStartPositions rs used' (upd i p P) gs'
                  end
      end
  end.
