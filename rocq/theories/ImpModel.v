(** Model of importance sampling of a chain, source/ImportanceSampling.f90 105-411, with the reading of rows of IO.f90 95-147 and of
    records of ParamSet.f90 74-138 (what a record holds is in PsetModel.v).  Real arithmetic is exact.  A record is a weight, a
    -log(likelihood) and a point of an arbitrary type [X] (parameters, stored theory and stored likelihoods).  The prior cuts, the
    theory calculation and the new likelihood are arguments, they do not keep any memory between points.  A variable that a failed
    read should have set keeps its value (Fortran leaves it undefined).  Not modelled: names of input parameters, the text output of
    theory, the printed statistics, redo_temperature (part of the likelihood), flushing of files. *)
From Coq Require Import Reals List Bool ZArith Lia Lra.
From Verif Require Import StatModel McmcModel.
Import ListNotations.
Local Open Scope R_scope.
Local Open Scope list_scope.

(** Fortran nint: to the nearest integer, halves away from zero *)
Definition nint (x : R) : Z := if Rltb x 0 then (- Int_part (- x + / 2))%Z else Int_part (x + / 2).
Definition Rleb (a b : R) : bool := negb (Rltb b a).
(** 1e-100_mcp of line 365 *)
Definition tiny : R := / 10 ^ 100.

Section Imp.
  Context {X : Type}.
  (** What the next read gives.  A row of a text chain with an N (from NaN) in it is [Nan]: IO.f90:124-127 returns OK without
      setting anything. *)
  Inductive item := Row (mult like : R) (x : X) | Nan | Eof.
  (** Lines 14-44, and the external functions *)
  Record config := mkI {
    from_text : bool;              (* redo_from_text *)
    likelihoods : bool;            (* redo_likelihoods .or. redo_add *)
    new_theory : bool;             (* redo_theory *)
    like_only : bool;              (* redo_change_like_only *)
    nochange : bool;               (* redo_nochange *)
    thin : Z;                      (* redo_thin *)
    auto : bool;                   (* redo_auto_likescale *)
    max_diff : R;                  (* redo_max_logLike_diff *)
    count : nat;                   (* redo_auto_likescale_count *)
    quot : Z;                      (* InF%Size()/(InF%Position() - last_file_loc), line 270 *)
    center : X;                    (* Params%P = BaseParams%center, line 242 *)
    cuts_ok : X -> bool;           (* CheckPriorCuts(Params) /= logZero, line 298 *)
    theory_ok : X -> bool;         (* error == 0 after GetTheoryForImportance, line 305 *)
    post : X -> R }.               (* GetLogLikePost, lines 313-317 *)
  (** The variables of a pass.  redo_skip, thin_acc, mult, like and Params%P live on to the next pass. *)
  Record st := mkSt {
    skip : R; acc : Z; mult : R; like : R; x : X;
    num : Z; beg : Z; used : nat; max_like : R; max_truelike : R;
    out : list (R * R * X) }.      (* WriteParams(mult, truelike), lines 371-372 *)
  Inductive flow :=
  | Next (s : st)
  | Exit (s : st)
  | Restart (offset : R) (s : st)  (* lines 357-362 *)
  | Wait (d : R) (s : st)          (* in MPI_Allgather, having sent d *)
  | Stop.                          (* MpiStop *)

  Variable C : config.

  Definition set_row (m l : R) (p : X) (s : st) : st :=
    mkSt (skip s) (acc s) m l p (num s) (beg s) (used s) (max_like s) (max_truelike s) (out s).
  Definition set_num (n : Z) (s : st) : st :=
    mkSt (skip s) (acc s) (mult s) (like s) (x s) n (beg s) (used s) (max_like s) (max_truelike s) (out s).
  Definition set_beg (f : R) (b : Z) (s : st) : st :=
    mkSt f (acc s) (mult s) (like s) (x s) (num s) b (used s) (max_like s) (max_truelike s) (out s).
  Definition set_acc (a : Z) (m : R) (s : st) : st :=
    mkSt (skip s) a m (like s) (x s) (num s) (beg s) (used s) (max_like s) (max_truelike s) (out s).
  Definition set_used (m ml mt : R) (s : st) : st :=
    mkSt (skip s) (acc s) m (like s) (x s) (num s) (beg s) (S (used s)) ml mt (out s).
  Definition write (r : R * R * X) (s : st) : st :=
    mkSt (skip s) (acc s) (mult s) (like s) (x s) (num s) (beg s) (used s) (max_like s) (max_truelike s) (out s ++ [r]).

  (** Lines 365-377 *)
  Definition write_point (truelike : R) (s : st) : flow :=
    Next (if Rltb tiny (mult s) then write (mult s, truelike, x s) s else s).
  (** Lines 340-363; [agree] is what comes out of the Allgather and the average for the difference of this chain (None while it
      waits), without MPI it gives the difference itself *)
  Definition check_scale (agree : R -> option R) (loop1 : bool) (truelike : R) (s : st) : flow :=
    if auto C && loop1 && Nat.eqb (used s) (count C) && negb (like_only C) && negb (nochange C) then
      let like_diff := if negb (Reqb (max_truelike s) logZero) then max_truelike s - max_like s else logZero in
      match agree like_diff with
      | None => Wait like_diff s
      | Some d => if Rltb (max_diff C) (Rabs d) then Restart d s else write_point truelike s
      end
    else write_point truelike s.
  (** Lines 296-383 *)
  Definition process (agree : R -> option R) (loop1 : bool) (offset : R) (s : st) : flow :=
    if likelihoods C && negb (cuts_ok C (x s)) then Next s else
    if new_theory C && negb (theory_ok C (x s)) then Next s else
    let tl := if likelihoods C then post C (x s) else like s in
    let weight := if likelihoods C then (if Reqb tl logZero then 0 else exp (like s - tl + offset)) else 1 in
    let m := if likelihoods C && negb (like_only C) && negb (nochange C) then mult s * weight else mult s in
    let tl := if nochange C then like s else tl in
    check_scale agree loop1 tl (set_used m (Rmin (max_like s) (like s)) (Rmin (max_truelike s) tl) s).
  (** Lines 279-294; [err] is error==1 *)
  Definition thinned (agree : R -> option R) (loop1 : bool) (offset : R) (err : bool) (s : st) : flow :=
    if (1 <? thin C)%Z then
      if Rltb (/ 10000) (Rabs (IZR (nint (mult s)) - mult s)) then Stop else
      let a := (acc s + nint (mult s))%Z in
      if (thin C <=? a)%Z then
        let s := set_acc (Z.rem a (thin C)) (IZR (Z.quot a (thin C))) s in
        if err then Exit s else process agree loop1 offset s
      else Next (set_acc a (mult s) s)
    else if err then Exit s else process agree loop1 offset s.
  (** Lines 240-277 *)
  Definition step (agree : R -> option R) (loop1 : bool) (offset : R) (i : item) (s : st) : flow :=
    if from_text C then
      match i with
      | Eof => Exit s
      | _ =>
        let s := match i with Row m l p => set_row m l p s | _ => set_row (mult s) (like s) (center C) s end in
        let s := set_num (num s + 1) s in
        if Rleb 1 (skip s) && Rleb (IZR (num s)) (skip s) then Next s else thinned agree loop1 offset false s
      end
    else
      let s := match i with Row m l p => set_row m l p s | _ => s end in
      let err := match i with Row _ _ _ => false | _ => true end in
      let s := set_num (num s + 1) s in
      if Rltb 0 (skip s) && Rltb (skip s) 1 then
        if (beg s =? 0)%Z then Next (set_beg (skip s) 1 s)
        else if (beg s =? 1)%Z then Next (set_beg (IZR (quot C) * skip s) 2 s)
        else thinned agree loop1 offset err (set_beg (skip s) (beg s + 1) s)
      else if Rleb (IZR (num s)) (skip s) then Next s
      else thinned agree loop1 offset err s.

  (** The inner loop, lines 239-385.  Reading goes on after the end of the file; None if it still does after [fuel] more reads. *)
  Fixpoint at_end (fuel : nat) agree loop1 offset (s : st) : option flow :=
    match fuel with
    | O => None
    | S n => match step agree loop1 offset Eof s with Next s' => at_end n agree loop1 offset s' | f => Some f end
    end.
  Fixpoint pass (fuel : nat) agree loop1 offset (rows : list item) (s : st) : option flow :=
    match rows with
    | [] => at_end fuel agree loop1 offset s
    | i :: rows' => match step agree loop1 offset i s with Next s' => pass fuel agree loop1 offset rows' s' | f => Some f end
    end.
  (** Lines 221-237 *)
  Definition init (s : st) : st := mkSt (skip s) (acc s) (mult s) (like s) (x s) 0 0 0 logZero logZero [].

  Inductive result :=
  | Written (o : list (R * R * X))
  | Waits (d : R)
  | Stopped
  | Endless.        (* more than [fuel] reads after the end of the file *)
  Definition result_of (f : option flow) : result :=
    match f with Some (Exit s) => Written (out s) | Some (Wait d _) => Waits d | Some Stop => Stopped | _ => Endless end.
  (** The outer loop, lines 210-392, for [redo_likeoffset = offset]; [s0] has the variables that are not set by then *)
  Definition chain (fuel : nat) agree (offset : R) (rows : list item) (s0 : st) : result :=
    match pass fuel agree true offset rows (init s0) with
    | Some (Restart d s) => result_of (pass fuel agree false d rows (init s))
    | f => result_of f
    end.

  (** The start of the subroutine: for a text file a part of the number of lines is made a number of rows, lines 147-149 *)
  Definition start_skip (redo_skip : R) (rows : list item) : R :=
    if from_text C && Rltb redo_skip 1 then IZR (nint (INR (length rows) * redo_skip)) else redo_skip.
  Definition start (redo_skip : R) (junk : st) (rows : list item) : st :=
    mkSt (start_skip redo_skip rows) (acc junk) (mult junk) (like junk) (x junk) 0 0 0 0 0 [].

  (** All chains: with MPI, lines 348-356, no chain goes past the Allgather before all have come to it.  A chain that has no file
      ([None], line 170: has_chain=.false.) never calls it. *)
  Definition gathered (ds : list R) : R :=
    let fin := filter (fun d => negb (Reqb d logZero)) ds in
    match fin with [] => 0 | _ => sumR fin / INR (length fin) end.
  Definition sent (fuel : nat) (offset : R) (c : list item * st) : option R :=
    match chain fuel (fun _ => None) offset (fst c) (snd c) with Waits d => Some d | _ => None end.
  Fixpoint allSome {A} (l : list (option A)) : option (list A) :=
    match l with
    | [] => Some []
    | None :: _ => None
    | Some a :: l' => match allSome l' with Some r => Some (a :: r) | None => None end
    end.
  (** The results of the chains that have a file *)
  Definition chains_mpi (fuel : nat) (offset : R) (cs : list (option (list item * st))) : list result :=
    let ds := map (fun c => match c with Some c => sent fuel offset c | None => None end) cs in
    let agree := match allSome ds with Some ds => fun _ : R => Some (gathered ds) | None => fun _ => None end in
    flat_map (fun c => match c with Some c => [chain fuel agree offset (fst c) (snd c)] | None => [] end) cs.
  Definition chain_single (fuel : nat) (offset : R) (c : list item * st) : result :=
    chain fuel (fun d => Some d) offset (fst c) (snd c).
End Imp.
Arguments item : clear implicits. Arguments config : clear implicits. Arguments st : clear implicits. Arguments result : clear implicits.
