(** Model of python/paramgrid/jobqueue.py (job index, job settings, job deletion) and of
    python/deleteJobs.py. *)
From Verif Require Import PyStr PyStrFacts PyBase.
From Coq Require Import ZArith QArith Qround.
Local Open Scope nat_scope.

(** ** The job index *)
(** fields of a submitted job that the index uses (jobqueue.py 67-69, 286, 318) *)
Record job := mkJob { jid : str; jname : str; jnames : list str }.
(** jobqueue.py 136-140 *)
Record index := mkIndex { settings : dict job; byName : dict str; byRoot : dict str; jobSeq : list str }.
Definition empty_index := mkIndex [] [] [] [].

(** jobqueue.py 142-147 *)
Definition addJob (x : index) (j : job) : index :=
  mkIndex (dset (jid j) j (settings x))
          (dset (jname j) (jid j) (byName x))
          (fold_left (fun d n => dset n (jid j) d) (jnames j) (byRoot x))
          (jobSeq x ++ [jid j]).

(** del d[k]: KeyError if absent *)
Definition del_key {V} (k : str) (d : dict V) : res (dict V) :=
  if dhas k d then Ok (ddel k d) else Err KeyError.
Fixpoint del_keys {V} (ks : list str) (d : dict V) : res (dict V) :=
  match ks with [] => Ok d | k :: ks' => bindR (del_key k d) (del_keys ks') end.

(** jobqueue.py 149-157 (jobId None: nothing happens).  After a KeyError the callers do not save. *)
Definition delId (x : index) (id : str) : res index :=
  match dget id (settings x) with
  | None => Ok x
  | Some j =>
      bindR (del_keys (jnames j) (byRoot x)) (fun roots =>
      bindR (del_key id (settings x)) (fun st =>
      bindR (del_key (jname j) (byName x)) (fun nm =>
      Ok (mkIndex st nm roots (filter (fun s => negb (str_eqb s id)) (jobSeq x))))))
  end.

(** deleteJobNames, jobqueue.py 188-197, on the loaded index *)
Definition deleteJobNames (x : index) (names : list str) : res index :=
  fold_left (fun r n => bindR r (fun x => match dget n (byName x) with None => Ok x | Some id => delId x id end))
            names (Ok x).

(** ** Saving: jobqueue.py 160-178 *)
(** what a pickle file holds: a complete object or the torn result of an interrupted write *)
Inductive content := Whole (x : index) | Torn.
(** the two files jobIndex.pyobj and jobIndex.pyobj_tmp ([None]: absent) *)
Record disk := mkDisk { main : option content; tmp : option content }.
(** loadJobIndex with must_exist=False; unpickling a torn file raises *)
Definition loadJobIndex (d : disk) : res index :=
  match main d with None => Ok empty_index | Some (Whole x) => Ok x | Some Torn => Err (OtherError (L "unpickle")) end.
(** the states of the disk during saveJobIndex, one per file system operation (writing the pickle takes
    some number [k] of steps; os.remove only if the file exists; shutil.move within one directory is one
    atomic rename) *)
Definition save_states (x : index) (k : nat) (d : disk) : list disk :=
  let writing := mkDisk (main d) (Some Torn) in                              (* 174: open truncates *)
  let written := mkDisk (main d) (Some (Whole x)) in                         (* 175 *)
  let removed := mkDisk None (Some (Whole x)) in                             (* 177 *)
  let moved := mkDisk (Some (Whole x)) None in                               (* 178 *)
  d :: repeat writing (S k) ++ [written] ++
  (match main d with Some _ => [removed] | None => [] end) ++ [moved].

(** ** Settings: jobqueue.py 46-60 *)
Definition hh : str := L "##".
(** the text up to the end of the line ('.' does not match a newline) *)
Fixpoint this_line (s : str) : str :=
  match s with [] => [] | c :: s' => if ch_eqb c nl then [] else c :: this_line s' end.
(** the greedy group followed by two hashes: up to the last '##' of the text *)
Fixpoint before_last_hh (s : str) : option str :=
  match s with
  | [] => None
  | c :: s' => match before_last_hh s' with
               | Some t => Some (c :: t)
               | None => if startswith hh s then Some [] else None
               end
  end.
(** re.search of '##', name, ':', a greedy group of any characters, '##', jobqueue.py 47; names without
    special characters *)
Fixpoint search_value (pre s : str) : option str :=
  match (if startswith pre s then before_last_hh (this_line (skipn (length pre) s)) else None) with
  | Some v => Some v
  | None => match s with [] => None | _ :: s' => search_value pre s' end
  end.
Definition extractValue (template name : str) : option str :=
  option_map strip (search_value (hh ++ name ++ L ":") template).

(** jobqueue.py 52-60: [A] is the type of python values, [of_str] embeds strings; [tp] the conversion *)
Definition getDefaulted {A T} (of_str : str -> A) (tp : A -> res T) (env : dict str)
    (key : str) (arg : option A) (template : option str) (ext_env : bool) (default : option A) : res (option T) :=
  let orelse (x : option A) (y : option A) := match x with Some _ => x | None => y end in
  let v := orelse arg
             (orelse (match template with Some t => option_map of_str (extractValue t (L "DEFAULT_" ++ key)) | None => None end)
             (orelse (option_map of_str (dget (L "COSMOMC_" ++ key) env))
             (orelse (if ext_env then option_map of_str (dget (L "ext_env") env) else None)
                     default))) in
  match v with None => Ok None | Some a => bindR (tp a) (fun t => Ok (Some t)) end.

(** ** Job resources: jobqueue.py 83-108 and 253-278 *)
Local Open Scope Z_scope.
(** default number of chains per node, 92-99 *)
Definition perNode (cores : Z) : Z :=
  if cores =? 4 then 2
  else if cores mod 4 =? 0 then cores / 4
  else if (3 <? cores) && (cores mod 3 =? 0) then cores / 3
  else 1.
(** 101 *)
Definition default_nodes (cores : Z) : Z := Z.max 1 (4 / perNode cores).

Record resources := mkRes { coresPerNode : Z; chainsPerNode : Z; nodes : Z; runsPerJob : Z }.
(** 102-108: number of chains and threads; python 3 division.  The module does not import the true
    division of python 3, so under python 2 ([py3] = false) the quotient is already rounded. *)
Definition omp_of (py3 : bool) (r : resources) : res Q :=
  let d := chainsPerNode r * runsPerJob r in
  if d =? 0 then Err ZeroDivisionError
  else Ok (if py3 then Qdiv (inject_Z (coresPerNode r)) (inject_Z d) else inject_Z (coresPerNode r / d)).
Definition check_settings (py3 : bool) (r : resources) : res Z :=
  bindR (omp_of py3 r) (fun q =>
    if Qeq_bool q (inject_Z (Qfloor q)) then Ok (Qfloor q)
    else Err (OtherError (L "Chains must each have equal number of cores"))).

(** the numbers put into the script, 260-278, for [nfiles] parameter files *)
Record script_vals := mkVals { v_omp : Z; v_numnodes : Z; v_numruns : Z; v_nummpi : Z; v_chainspernode : Z;
  v_ppn : Z; v_mpipernode : Z; v_numtasks : Z; v_numslots : Z }.
Definition submit_vals (py3 : bool) (r : resources) (nfiles : Z) (sequential : bool) : res script_vals :=
  bindR (check_settings py3 r) (fun _ =>
    let nchains := nodes r * chainsPerNode r in
    let runs := if sequential then 1 else nfiles in
    let d := chainsPerNode r * runs in
    if d =? 0 then Err ZeroDivisionError else
    let omp := coresPerNode r / d in
    let ppn := chainsPerNode r * runs * omp in
    Ok (mkVals omp (nodes r) runs nchains (chainsPerNode r) ppn (chainsPerNode r * runs)
               (nchains * runs) (ppn * nodes r))).
Local Close Scope Z_scope.

(** ** Deleting jobs: jobqueue.py 204-250 *)
(** an element of the list jobIds: text, an integer, or None *)
Inductive pyid := IdStr (s : str) | IdInt (z : Z) | IdNone.
Definition pyid_eqb (a b : pyid) : bool :=
  match a, b with
  | IdStr s, IdStr t => str_eqb s t
  | IdInt x, IdInt y => Z.eqb x y
  | IdNone, IdNone => true
  | _, _ => false
  end.
Definition id_in (x : pyid) (l : list pyid) : bool := existsb (pyid_eqb x) l.
Definition add_id (l : list pyid) (x : pyid) : list pyid := if id_in x l then l else l ++ [x].
Definition opt_id (o : option str) : pyid := match o with Some s => IdStr s | None => IdNone end.

Definition isdigit_str (s : str) : bool :=
  match s with [] => false | _ => forallb (fun c => (48 <=? nat_of_ascii c) && (nat_of_ascii c <=? 57)) s end.
(** 224-228: the number in a job id; [toint] is python's int(text) *)
Definition id_number (toint : str -> option Z) (s : str) : res Z :=
  let parts := split_ch "."%char s in
  match parts with
  | [] => Err IndexError
  | p0 :: rest =>
      let num p := match toint p with Some z => Ok z | None => Err ValueError end in
      match rest with
      | [] => num p0
      | p1 :: _ => if isdigit_str p0 then num p0 else num p1
      end
  end.

Record selection := mkSel { s_ids : list pyid; s_roots : option (list str); s_names : option (list str);
                            s_minmax : option (Z * Z); s_min : option Z }.
Definition in_range (sl : selection) (z : Z) : bool :=
  match s_minmax sl with Some (a, b) => Z.leb a z && Z.leb z b | None => false end
  || match s_min sl with Some m => Z.leb m z | None => false end.
(** 210-231 *)
Definition select_ids (toint : str -> option Z) (x : index) (sl : selection) : res (list pyid) :=
  let l1 := match s_roots sl with
            | Some rs => fold_left (fun l r => add_id l (opt_id (dget r (byRoot x)))) rs (s_ids sl)
            | None => s_ids sl end in
  let l2 := match s_names sl with
            | Some ns => fold_left (fun l n => add_id l (opt_id (dget n (byName x)))) ns l1
            | None => l1 end in
  match s_minmax sl, s_min sl with
  | None, None => Ok l2
  | _, _ => fold_left (fun r kv => bindR r (fun l => bindR (id_number toint (fst kv)) (fun z =>
              Ok (if in_range sl z then add_id l (IdStr (fst kv)) else l)))) (settings x) (Ok l2)
  end.
(** 234-247: state is the index and the ids given to qdel so far; [qdel id] is whether the command
    succeeds (check_output raises otherwise, leaving the saved index untouched) *)
Fixpoint delete_loop (valid : str -> bool) (qdel : str -> bool) (confirm : bool) (ids : list pyid)
    (x : index) (cancelled : list str) : list str * res index :=
  match ids with
  | [] => (cancelled, Ok x)
  | IdStr id :: ids' =>
      match dget id (settings x) with
      | None => delete_loop valid qdel confirm ids' x cancelled
      | Some _ =>
          if confirm then
            let c := if valid id then cancelled ++ [id] else cancelled in
            if valid id && negb (qdel id) then (c, Err (OtherError (L "qdel")))
            else match delId x id with
                 | Err e => (c, Err e)
                 | Ok x' => delete_loop valid qdel confirm ids' x' c
                 end
          else delete_loop valid qdel confirm ids' x cancelled
      end
  | _ :: ids' => delete_loop valid qdel confirm ids' x cancelled              (* not a key of the index *)
  end.
Definition deleteJobs (toint : str -> option Z) (valid qdel : str -> bool) (confirm : bool)
    (sl : selection) (x : index) : list str * res index :=
  match select_ids toint x sl with
  | Err e => ([], Err e)
  | Ok ids => delete_loop valid qdel confirm ids x []
  end.

(** deleteJobs.py 12-30: options of the script (argparse type=int) and the calls it makes when a batch is
    given; [names] are the filtered grid items with their _minimize variants *)
Record del_args := mkDel { a_range : option (Z * Z); a_min : option Z; a_ids : option (list Z) }.
Definition script_calls (a : del_args) (names : list str) : list selection :=
  (match a_range a with Some r => [mkSel [] None None (Some r) None] | None => [] end) ++
  (match a_min a with
   | Some m => [mkSel [] None None None (Some m)]
   | None => match a_ids a with
             | Some ids => [mkSel (map IdInt ids) None None None None]
             | None => [mkSel [] (Some names) None None None]
             end
   end).
(** the calls run one after another on the saved index *)
Fixpoint run_calls toint valid qdel confirm (cs : list selection) (x : index) : list str * res index :=
  match cs with
  | [] => ([], Ok x)
  | c :: cs' =>
      match deleteJobs toint valid qdel confirm c x with
      | (k, Err e) => (k, Err e)
      | (k, Ok x') => let (k', r) := run_calls toint valid qdel confirm cs' x' in (k ++ k', r)
      end
  end.
