(** Model of the .data files of parameter points, source/ParamSet.f90 35-138, and of the likelihood of a point that was read from one,
    source/calclike.f90 334-389 with source/ImportanceSampling.f90 247-263, 313-317.  Real arithmetic is exact.  The bytes of a file are
    not modelled: a file is the list of the items that are written and read (header, then records).  Names have no blanks at the end
    (WriteTrim; a comparison in Fortran ignores them).  The theory of a point is a value of an arbitrary type that is written and
    read as it is.  Array indices are counted from 0. *)
From Coq Require Import Reals String List Bool Arith Lia Lra.
From Verif Require Import StatModel McmcModel LikeModel.
Import ListNotations.
Local Open Scope R_scope.
Local Open Scope list_scope.

(** ObjectParamNames.f90:254-267, None for -1 *)
Fixpoint index (names : list string) (n : string) : option nat :=
  match names with
  | [] => None
  | m :: names' => if String.eqb m n then Some O else option_map S (index names' n)
  end.

Section Pset.
  Context {Th : Type}.
  (** BaseParams%NameMapping%name (the derived parameters come after the first num_params), params_used, BaseParams%center, the
      names of DataLikelihoods *)
  Record setup := mkSu { names : list string; used : list nat; center : list R; likenames : list string }.
  (** ParamSet: P, Likelihoods, Theory *)
  Record pset := mkPs { ps_P : list R; ps_likes : list R; ps_th : Th }.
  Record record := mkRe { re_mult : R; re_like : R; re_likes : list R; re_P : list R; re_th : Th }.
  (** The header, lines 44-64: the number of parameters, their names if all have one, the names of the likelihoods; None if nothing
      was written *)
  Record file := mkFi { fi_head : option (nat * option (list string) * list string); fi_recs : list record }.

  Definition pick {A} (d : A) (l : list A) (ix : list nat) : list A := map (fun i => nth i l d) ix.
  (** Lines 35-72 *)
  Definition WriteModel (su : setup) (f : file) (p : pset) (like mult : R) : file :=
    let head := match fi_head f with
                | Some h => h
                | None => (length (used su),
                           (if existsb (String.eqb "") (names su) then None else Some (pick ""%string (names su) (used su))),
                           likenames su)
                end in
    mkFi (Some head) (fi_recs f ++ [mkRe mult like (firstn (length (likenames su)) (ps_likes p)) (pick 0 (ps_P p) (used su)) (ps_th p)]).

  (** What is kept of the header: current_param_indices, like_indices (None for 0), has_likes *)
  Record head := mkHe { h_ix : list nat; h_like : list (option nat); h_has : list bool }.
  (** Lines 97-117; None for MpiStop *)
  Definition read_names (su : setup) (np : nat) (ns : option (list string)) : option (list nat) :=
    if Nat.eqb np (length (used su)) then
      match ns with
      | Some ns => fold_right (fun n r => match index (names su) n, r with Some i, Some l => Some (i :: l) | _, _ => None end) (Some []) ns
      | None => Some (used su)
      end
    else None.
  (** Lines 118-131 *)
  Definition read_likes (su : setup) (ls : list string) : list (option nat) * list bool :=
    let ix := map (index (likenames su)) ls in
    (ix, map (fun j => existsb (fun o => match o with Some k => Nat.eqb k j | None => false end) ix) (seq 0 (length (likenames su)))).
  Definition ReadHead (su : setup) (f : file) : option head :=
    match fi_head f with
    | Some (np, ns, ls) => bindO (read_names su np ns) (fun ix => Some (mkHe ix (fst (read_likes su ls)) (snd (read_likes su ls))))
    | None => None
    end.
  (** Lines 133-147: the assignments are made one after the other *)
  Definition put_likes (ix : list (option nat)) (vals : list R) (l : list R) : list R :=
    fold_left (fun l q => match fst q with Some k => upd k (snd q) l | None => l end) (combine ix vals) l.
  Definition put_params (ix : list nat) (vals : list R) (P : list R) : list R :=
    fold_left (fun P q => upd (fst q) (snd q) P) (combine ix vals) P.
  Definition ReadRecord (su : setup) (h : head) (P0 : list R) (r : record) : R * R * pset :=
    let P := center su ++ skipn (length (center su)) P0 in
    (re_mult r, re_like r, mkPs (put_params (h_ix h) (re_P r) P)
                                (put_likes (h_like h) (re_likes r) (repeat 0 (length (likenames su)))) (re_th r)).
End Pset.
Arguments pset : clear implicits. Arguments record : clear implicits. Arguments file : clear implicits.

Section Post.
  Context {X : Type}.
  (** A likelihood: whether it depends on any parameter, and its value *)
  Definition lik := (bool * (X -> R))%type.
  (** calclike.f90:357-389 with changeMask = .true.; None when an impossible point ends it *)
  Fixpoint post_likes (x : X) (do_like : list bool) (ls : list lik) (vals : list R) : option (list R) :=
    match do_like, ls, vals with
    | d :: do', (dep, val) :: ls', v :: vals' =>
        if d && dep then
          if Reqb (val x) logZero then None else option_map (cons (val x)) (post_likes x do' ls' vals')
        else option_map (cons v) (post_likes x do' ls' vals')
    | _, _, _ => Some vals
    end.
  (** calclike.f90:334-354; the bounds, the priors on derived quantities and the Gaussian priors are functions of the point *)
  Definition GetLogLikePost (T : R) (bounds prior0 priors : X -> R) (ls : list lik) (do_like : list bool) (vals : list R) (x : X) : R :=
    let l0 := bounds x in
    if Reqb l0 logZero then l0 else
    let l1 := AddLikeTemp T l0 (prior0 x) in
    if Reqb l1 logZero then l1 else
    let l2 := AddLikeTemp T l1 (match post_likes x do_like ls vals with Some vs => sumR vs | None => logZero end) in
    if Reqb l2 logZero then l2 else AddLikeTemp T l2 (priors x).

  (** ImportanceSampling.f90:249-263: the likelihoods that are there already, and redo_add; None for MpiStop.  The flag [name] is
      redo_like_name, None if it is not given. *)
  Definition for_name (lnames : list string) (name : option string) (has : list bool) (redo_add : bool) : option (list bool * bool) :=
    match name with
    | None => Some (has, redo_add)
    | Some n => match index lnames n with
                | None => Some (has, redo_add)
                | Some i => if nth i has false then
                              if forallb (fun b => b) has then Some (upd i false has, true) else None
                            else None
                end
    end.
  (** Lines 313-317 *)
  Definition truelike (T : R) (bounds prior0 priors : X -> R) (ls : list lik) (has : list bool) (redo_add : bool) (vals : list R) (x : X) : R :=
    GetLogLikePost T bounds prior0 priors ls (if redo_add then map negb has else map (fun _ => true) ls) vals x.
End Post.
