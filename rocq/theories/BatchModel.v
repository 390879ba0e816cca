(** Model of python/paramgrid/batchjob.py: data sets, job items, grids of jobs, name resolution,
    chain files and progress predicates. *)
From Verif Require Import PyStr PyStrFacts PyBase PyNum.
From Coq Require Import QArith.
Local Open Scope nat_scope.

Definition us : ascii := "_"%char.
Definition tag_of (names : list str) : str := join [us] names.
Definition post : str := L "_post".

(** ** dataSet, batchjob.py 86-173 (names and tag; ini parameters and distribution settings are not modelled) *)
Record dset := mkD { d_names : list str; d_tag : str }.
(** 87-99 *)
Definition new_dset (names : list str) : dset := mkD names (tag_of names).
(** 122-132 *)
Definition extendForImportance (d : dset) (names : list str) : dset :=
  mkD (d_names d ++ names)
      (if contains (L "_post_") (d_tag d) then d_tag d ++ L "_" ++ tag_of names else d_tag d ++ L "_post_" ++ tag_of names).
(** 161-170; a substitution by None or the empty text drops the name *)
Definition namesReplacing (d : dset) (dic : option (dict (option str))) : list str :=
  match dic with
  | None => d_names d
  | Some m => flat_map (fun n => match dget n m with
                                 | None => [n]
                                 | Some None => []
                                 | Some (Some v) => match v with [] => [] | _ => [v] end
                                 end) (d_names d)
  end.
(** 172-173 *)
Definition makeNormedDatatag (d : dset) dic : str := tag_of (sort_str (namesReplacing d dic)).

(** ** jobItem, batchjob.py 215-293 (names, not paths and settings) *)
Record jinfo := mkI { j_base : str; j_params : list str; j_data : dset; j_name : str; j_datatag : str; j_imp : bool }.
(** 216-236 *)
Definition new_item (base : str) (params : list str) (d : dset) : jinfo :=
  mkI base params d (tag_of (base :: params) ++ L "_" ++ d_tag d) (d_tag d) false.
(** 284-290 *)
Definition makeNormedName (base : str) (params : list str) (d : dset) dic : str :=
  let np := tag_of (sort_str params) in
  base ++ (if 0 <? length np then L "_" ++ np else []) ++ L "_" ++ makeNormedDatatag d dic.
(** 293 *)
Definition normed (i : jinfo) : str := makeNormedName (j_base i) (j_params i) (j_data i) None.

(** an importance setting: names, and the user's wantImportance (191-212, 252-256) *)
Record imprun := mkRun { i_names : list str; i_want : jinfo -> bool }.
(** 260-281: the importance job made from parent [p]; jobItem is called without the parent's base *)
Definition imp_item (p : jinfo) (names : list str) : jinfo :=
  let d := extendForImportance (j_data p) names in
  let tag := (if contains (L "_post_") (j_name p) then L "_" else L "_post_") ++ tag_of names in
  mkI (L "base") (j_params p) d (j_name p ++ tag) (j_datatag p ++ tag) true.

(** job objects: [uid] is the object's identity *)
Inductive job := Job (uid : nat) (info : jinfo) (kids : list job).
Definition uid (j : job) := let (u, _, _) := j in u.
Definition info (j : job) := let (_, i, _) := j in i.
Definition kids (j : job) := let (_, _, k) := j in k.

(** 250-282; [c] is the next unused identity *)
Fixpoint new_kids (c : nat) (p : jinfo) (runs : list imprun) : list job :=
  match runs with
  | [] => []
  | r :: runs' =>
      if negb (i_want r p) then new_kids c p runs'
      else if existsb (fun n => mem_str n (d_names (j_data p))) (i_names r) then new_kids c p runs'
      else Job c (imp_item p (i_names r)) [] :: new_kids (S c) p runs'
  end.
Definition makeImportance (c : nat) (runs : list imprun) (j : job) : nat * job :=
  let new := new_kids c (info j) runs in (c + length new, Job (uid j) (info j) (kids j ++ new)).

(** 308-312 *)
Fixpoint importanceJobsRecursive (j : job) : list job :=
  let (_, _, ks) := j in ks ++ flat_map importanceJobsRecursive ks.
(** 314-319; `in` and list.remove compare objects by identity *)
Fixpoint remove_uid (u : nat) (l : list job) : list job :=
  match l with [] => [] | j :: l' => if uid j =? u then l' else j :: remove_uid u l' end.
Fixpoint removeImportance (u : nat) (j : job) : job :=
  let (v, i, ks) := j in
  if existsb (fun k => uid k =? u) ks then Job v i (remove_uid u ks) else Job v i (map (removeImportance u) ks).

(** ** batchJob, batchjob.py 450-545 (sub-batches are taken to be part of the list of jobs) *)
Record group := mkG { g_datasets : list dset; g_params : list (list str); g_runs : list imprun }.
Record settings := mkS { s_groups : list group; s_runs : list imprun; s_items : list jinfo; s_filters : list imprun }.

(** 467-477 *)
Definition add_item (skip : list str) (runs : list (list imprun)) (st : nat * list job) (i : jinfo) : nat * list job :=
  let (c, js) := st in
  if mem_str (j_name i) skip then (c, js)
  else let (c', j) := fold_left (fun cj rs => makeImportance (fst cj) rs (snd cj)) runs (S c, Job c i []) in (c', js ++ [j]).
Definition group_items (g : group) : list jinfo :=
  flat_map (fun d => map (fun p => new_item (L "base") p d) (g_params g)) (g_datasets g).
(** 478-480: given items are not checked against skip *)
Definition build (skip : list str) (s : settings) : nat * list job :=
  let st := fold_left (fun st g => fold_left (add_item skip [g_runs g; s_runs s]) (group_items g) st) (s_groups s) (0, []) in
  fold_left (add_item [] [s_runs s]) (s_items s) st.
(** 482-486 *)
Fixpoint filter_kids (c : nat) (fs : list imprun) (ks : list job) : nat * list job :=
  match ks with
  | [] => (c, [])
  | k :: ks' => let (c1, k1) := makeImportance c fs k in let (c2, ks2) := filter_kids c1 fs ks' in (c2, k1 :: ks2)
  end.
Definition filter_job (c : nat) (fs : list imprun) (j : job) : nat * job :=
  let (c1, ks) := filter_kids c fs (kids j) in makeImportance c1 fs (Job (uid j) (info j) ks).
Fixpoint filter_jobs (c : nat) (fs : list imprun) (js : list job) : list job :=
  match js with
  | [] => []
  | j :: js' => let (c1, j1) := filter_job c fs j in j1 :: filter_jobs c1 fs js'
  end.

(** 499-508 with wantImportance *)
Definition items_imp (skip : list str) (js : list job) : list job :=
  flat_map (fun j => j :: filter (fun i => negb (mem_str (j_name (info i)) skip)) (importanceJobsRecursive j)) js.
(** 518-521: the first item of that normed name that is not the object [excl] *)
Definition normed_name_item (excl : option nat) (name : str) (l : list job) : option job :=
  find (fun j => str_eqb (normed (info j)) name && negb (match excl with Some u => uid j =? u | None => false end)) l.
Definition has (o : option job) : bool := match o with Some _ => true | None => false end.

(** one of the loops 488-492, 493-497: [test] sees the current grid *)
Definition sweep_item (test : list job -> job -> bool) (pre : list job) (it : job) (later : list job) : job :=
  fold_left (fun it x => if test (pre ++ it :: later) x then removeImportance (uid x) it else it)
            (importanceJobsRecursive it) it.
Fixpoint sweep (test : list job -> job -> bool) (pre js : list job) : list job :=
  match js with [] => pre | it :: later => sweep test (pre ++ [sweep_item test pre it later]) later end.
Definition is_full_run (st : list job) (x : job) : bool := has (normed_name_item None (normed (info x)) st).
Definition is_duplicate (skip : list str) (st : list job) (x : job) : bool :=
  has (normed_name_item (Some (uid x)) (normed (info x)) (items_imp skip st)).
Definition clean (skip : list str) (js : list job) : list job :=
  sweep (is_duplicate skip) [] (sweep is_full_run [] js).
(** 463-497 *)
Definition makeItems (skip : list str) (s : settings) : list job :=
  let (c, js) := build skip s in clean skip (filter_jobs c (s_filters s) js).

(** 523-524 *)
Definition normalizeDataTag (tag : str) : str := tag_of (sort_str (split_ch us (replace_str post [] tag))).
(** 526-540 with raiseError=False, returnJobItem=True; [paramtag] already a list (text is split at '_', 529) *)
Definition resolveName (skip : list str) (js : list job) (base : str) (paramtag : list str) (datatag : str) (wantImportance : bool) : option job :=
  let name := tag_of (match paramtag with [] => [base] | _ => base :: sort_str paramtag end) ++ L "_" ++ normalizeDataTag datatag in
  normed_name_item None name (if wantImportance then items_imp skip js else js).
Definition split_paramtag (s : str) : list str := match s with [] => [] | _ => split_ch us s end.
(** 542-545 *)
Definition resolveRoot (skip : list str) (js : list job) (root : str) : option job :=
  match find (fun j => str_eqb (j_name (info j)) root) (items_imp skip js) with
  | Some j => Some j
  | None => normed_name_item None root (items_imp skip js)
  end.

(** ** Files of a job *)
(** a file: its text and modification time *)
Record file := mkF { f_text : str; f_time : Q }.
Definition fs := str -> option file.
(** 68-69 *)
Definition nonEmptyFile (d : fs) (f : str) : bool := match d f with Some x => 0 <? length (f_text x) | None => false end.
(** 330-331 *)
Definition chainName (root : str) (n : nat) : str := root ++ L "_" ++ show_nat n ++ L ".txt".
(** 333-335 *)
Definition chainExists (d : fs) (root : str) (n : nat) : bool := nonEmptyFile d (chainName root n).
(** 340-346; [fuel] bounds the loop *)
Fixpoint existing_from (fuel : nat) (d : fs) (root : str) (i : nat) : res (list str) :=
  match fuel with
  | O => Err RecursionError
  | S k => if chainExists d root i then bindR (existing_from k d root (S i)) (fun l => Ok (chainName root i :: l)) else Ok []
  end.
(** 337-346; num_chains None or 0 means all existing *)
Definition chainNames (fuel : nat) (d : fs) (root : str) (num_chains : option nat) : res (list str) :=
  match num_chains with
  | Some (S n) => Ok (map (chainName root) (seq 0 (S n)))
  | _ => existing_from fuel d root 1
  end.
(** 348-349 *)
Definition allChainExists (d : fs) (root : str) (n : nat) : bool := forallb (fun i => chainExists d root (i + 1)) (seq 0 n).

(** 382-388: None or the number and whether the second line is Done; [tofloat] is python's float(text).
    readlines: lines without their line ends, all stripped afterwards *)
Definition convergeStat (tofloat : str -> option Q) (d : fs) (root : str) : res (option (Q * bool)) :=
  let f := root ++ L ".converge_stat" in
  if nonEmptyFile d f then
    match d f with
    | None => Err IOError
    | Some x =>
        match text_lines (f_text x) with
        | [] => Err IndexError
        | l0 :: rest =>
            match tofloat (strip l0) with
            | None => Err ValueError
            | Some R => Ok (Some (R, match rest with l1 :: _ => str_eqb (strip l1) (L "Done") | [] => false end))
            end
        end
    end
  else Ok None.
(** 351-352 *)
Definition chainFileDate (d : fs) (root : str) : res Q :=
  match d (chainName root 1) with Some x => Ok (f_time x) | None => Err IOError end.
(** 362-365; [now] is time.time() *)
Definition notRunning (now : Q) (d : fs) (root : str) : res bool :=
  if chainExists d root 1 then bindR (chainFileDate d root) (fun t => Ok (negb (Qle_bool (now - 300) t))) else Ok false.
(** 412-413 *)
Definition parentChanged (d : fs) (root parent : str) : res bool :=
  if chainExists d root 1 then
    bindR (chainFileDate d root) (fun t => bindR (chainFileDate d parent) (fun tp => Ok (negb (Qle_bool tp t))))
  else Ok true.
(** 390-397; [parent] is None for a full run *)
Definition chainFinished tofloat (now : Q) (d : fs) (root : str) (parent : option str) : res bool :=
  match parent with
  | Some p =>
      bindR (convergeStat tofloat d p) (fun s =>
        match s with
        | None => Ok false
        | Some (_, done) =>
            bindR (parentChanged d root p) (fun ch => if ch then Ok false else
            bindR (notRunning now d root) (fun nr => if nr then Ok done else Ok false))
        end)
  | None => bindR (convergeStat tofloat d root) (fun s => match s with None => Ok false | Some (_, done) => Ok done end)
  end.
(** 399-403 *)
Definition wantCheckpointContinue tofloat (d : fs) (root : str) (minR : Q) : res bool :=
  bindR (convergeStat tofloat d root) (fun s =>
    match s with
    | None => Ok false
    | Some (R, done) =>
        match d (root ++ L "_1.chk") with
        | None => Ok false
        | Some _ => Ok (negb done && negb (Qle_bool R minR))
        end
    end).
(** 405-410 *)
Definition getDistNeedsUpdate (d : fs) (root dist : str) : res bool :=
  if chainExists d root 1 then
    match d (dist ++ L ".margestats") with
    | None => Ok true
    | Some m => bindR (chainFileDate d root) (fun t => Ok (negb (Qle_bool t (f_time m))))
    end
  else Ok false.
(** 881-910 of getdist/types.py and 415-420: the last entry of the list of eigenvalue texts; [eigs] reads
    that list from the .converge file, the cached result is not modelled *)
Definition jobR (tofloat : str -> option Q) (eigs : str -> res (list str)) (d : fs) (dist : str) : res (option Q) :=
  let f := dist ++ L ".converge" in
  if nonEmptyFile d f then
    match d f with
    | None => Err IOError
    | Some x => bindR (eigs (f_text x)) (fun l =>
        match rev l with
        | [] => Err IndexError
        | r :: _ => match tofloat r with Some q => Ok (Some q) | None => Err ValueError end
        end)
    end
  else Ok None.
(** 422-429 *)
Definition hasConvergeBetterThan tofloat eigs (d : fs) (dist : str) (R : Q) (returnNotExist : bool) : bool :=
  match jobR tofloat eigs d dist with
  | Ok (Some r) => Qle_bool r R
  | Ok None => returnNotExist
  | Err _ => returnNotExist
  end.
