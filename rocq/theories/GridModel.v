(** Model of python/paramgrid/gridconfig.py (ini files of a grid, choice of proposal matrices), of dataSet.add in
    python/paramgrid/batchjob.py, and of python/getdist/chain_grid.py. *)
From Verif Require Import PyStr PyStrFacts PyBase PyNum BatchModel.

Section Grid.
Context {V : Type}.
(** an entry of a data set's params, gridconfig.py 58-66: a dictionary, an ini file, a nested list, or something else *)
Inductive dparam := DDict (d : dict V) | DFile (f : str) | DList (l : list dparam) | DOther.
(** IniFile(): its own parameters and the DEFAULT files *)
Record gini := mkIni { g_own : dict V; g_defaults : list str }.
(** updateIniParams, gridconfig.py 57-66 *)
Fixpoint upd (path : str) (p : dparam) (i : gini) : res gini :=
  match p with
  | DDict d => Ok (mkIni (dupdate (g_own i) d) (g_defaults i))
  | DFile f => Ok (mkIni (g_own i) (g_defaults i ++ [path ++ f]))
  | DList l => fold_left (fun a q => bindR a (upd path q)) l (Ok i)
  | DOther => Err (OtherError (L "Unknown item in setting .ini/param list"))
  end.
Definition updateIniParams (path : str) (ps : list dparam) (i : gini) : res gini := upd path (DList ps) i.

(** what a grid's setting file defines; [None]: attribute absent *)
Record gsettings := mkGS {
  gs_params : dict V; gs_param_extra : option (dict (dict V)); gs_extra : option (dict V);
  gs_defaults : list str; gs_override : option (list str); gs_start : V; gs_impDefaults : list str }.
Record gjob := mkGJ { gj_params : list str; gj_param_extra : option (dict (dict V)); gj_extra : option (dict V); gj_root : V; gj_data : list dparam }.

Definition setp (k : str) (v : V) (d : dict V) : dict V := PyStr.dset k v d.
Definition upd_opt (o : option (dict V)) (d : dict V) : dict V := match o with Some e => dupdate d e | None => d end.
Definition sub_opt (o : option (dict (dict V))) (p : str) : option (dict V) := match o with Some m => dget p m | None => None end.
Definition pkey (p : str) : str := L "param[" ++ p ++ L "]".
(** 117-122 *)
Definition param_step (s : gsettings) (j : gjob) (acc : res (dict V)) (p : str) : res (dict V) :=
  bindR acc (fun d =>
    match dget p (gs_params s) with
    | None => Err KeyError
    | Some v => Ok (upd_opt (sub_opt (gj_param_extra j) p) (upd_opt (sub_opt (gs_param_extra s) p) (setp (pkey p) v d)))
    end).
(** 114-196: the main ini file of a job; [cov] is what the choice of a proposal matrix sets (131-187, below) *)
Definition makeIni (common : str) (s : gsettings) (j : gjob) (cov : dict V) (action : V) : res gini :=
  bindR (fold_left (param_step s j) (gj_params j) (@Ok (dict V) [])) (fun d1 =>
  let d2 := upd_opt (gj_extra j) (upd_opt (gs_extra s) d1) in
  let d3 := dupdate (setp (L "file_root") (gj_root j) d2) cov in
  bindR (updateIniParams common (gj_data j) (mkIni (setp (L "start_at_bestfit") (gs_start s) d3) [])) (fun i =>
  let defs := g_defaults i ++ map (fun f => common ++ f) (gs_defaults s) in
  let defs' := match gs_override s with Some l => map (fun f => common ++ f) l ++ defs | None => defs end in
  Ok (mkIni (setp (L "action") action (g_own i)) defs'))).
(** setMinimize 50-54; the values are given *)
Record minvals := mkMV { mv_action : V; mv_lmin : V; mv_acc : V; mv_sterile : V }.
Definition setMinimize (mv : minvals) (params : list str) (d : dict V) : dict V :=
  let d1 := setp (L "lmin_store_all_cmb") (mv_lmin mv) (setp (L "action") (mv_action mv) d) in
  let d2 := if mem_str (L "omegak") params then setp (L "accuracy_level") (mv_acc mv) d1 else d1 in
  if mem_str (L "meffsterile") params then setp (L "sterile_mphys_max") (mv_sterile mv) d2 else d2.
(** 198-201 *)
Definition minimizeIni (mv : minvals) (j : gjob) (i : gini) : gini := mkIni (setMinimize mv (gj_params j) (g_own i)) (g_defaults i).
(** 210-225 (cosmomcAction is 0): ini file of an importance job [root] with settings [ps] of parent [j] *)
Definition importanceIni (common : str) (s : gsettings) (mv : minvals) (j : gjob) (parentIni : str) (root one : V) (ps : list dparam)
    (minimize : bool) : res gini :=
  bindR (updateIniParams common ps (mkIni [] [])) (fun i =>
  if minimize then Ok (mkIni (setMinimize mv (gj_params j) (setp (L "file_root") root (g_own i))) (g_defaults i ++ [parentIni]))
  else Ok (mkIni (setp (L "action") one (setp (L "redo_outroot") root (g_own i)))
                 (g_defaults i ++ map (fun f => common ++ f) (gs_impDefaults s) ++ [parentIni]))).

(** dataSet.add, batchjob.py 101-112, for given params *)
Definition ds_add (existing new : list dparam) (overrideExisting : bool) : list dparam :=
  if overrideExisting then new ++ existing else existing ++ new.
End Grid.
Arguments dparam : clear implicits.
Arguments gini : clear implicits.
Arguments gsettings : clear implicits.
Arguments gjob : clear implicits.
Arguments minvals : clear implicits.

(** ** Choice of a proposal matrix, gridconfig.py 131-187 *)
Definition path_join (a b : str) : str :=   (* os.path.join *)
  match b with
  | c :: _ => if ch_eqb c "/"%char then b
              else match rev a with [] => b | e :: _ => if ch_eqb e "/"%char then a ++ b else a ++ L "/" ++ b end
  | [] => match rev a with [] => [] | e :: _ => if ch_eqb e "/"%char then a else a ++ L "/" end
  end.
Definition cext : str := L ".covmat".
(** s.replace(old, new, 1) *)
Fixpoint replace1 (old new s : str) : str :=
  if startswith old s then new ++ skipn (length old) s
  else match s with [] => [] | c :: s' => c :: replace1 old new s' end.
Record covset := mkCS {
  cs_dir : str; cs_fallback : option str; cs_mappings : option (dict str); cs_covmat : option str; cs_newCovmats : bool;
  cs_renamer : option (str -> list str); cs_renames : option (list (str * str)); cs_withoutOrder : option (list str) }.
Definition subs_of (m : dict str) : dict (option str) := map (fun kv => (fst kv, Some (snd kv))) m.
Section Covmat.
  Context (exists_ : str -> bool) (base : str) (cs : covset) (i : jinfo) (data_covmat : option str).
  Definition covdir := path_join base (cs_dir cs).
  Definition mapped_norm : str :=
    makeNormedName (j_base i) (j_params i) (j_data i) (match cs_mappings cs with Some m => Some (subs_of m) | None => None end).
  (** 140-141 *)
  Definition mapped_name (m : dict str) : str := tag_of (map (fun x => match dget x m with Some y => y | None => x end) (split_ch us (j_name i))).
  (** 133-149 *)
  Definition specific : str :=
    let c1 := path_join covdir (j_name i ++ cext) in
    if exists_ c1 then c1 else
    let c2 := path_join covdir (mapped_norm ++ cext) in
    let c3 := if exists_ c2 then c2 else match cs_mappings cs with Some m => path_join covdir (mapped_name m ++ cext) | None => c2 end in
    let c4 := if exists_ c3 then c3 else
              match data_covmat with
              | Some f => let c := base ++ f in if exists_ c then c else path_join covdir f
              | None => c3
              end in
    if exists_ c4 then c4 else
    match cs_covmat cs with
    | Some f => let c := base ++ f in if exists_ c then c else path_join covdir f
    | None => c4
    end.
  (** 162-168 *)
  Definition rename_tries (ren : list (str * str)) (aname : str) : list str :=
    let direct n := map (fun on => replace1 (fst on) (snd on) n) (filter (fun on => contains (fst on) n) ren) in
    direct aname ++ flat_map (fun no => if contains (snd no) aname then direct (replace1 (snd no) (fst no) aname) else []) ren.
  (** 169-178; [removes] accumulates *)
  Fixpoint without_tries (removes : dict (option str)) (order : list str) : list str :=
    match order with
    | [] => []
    | n :: order' =>
        if mem_str n (d_names (j_data i)) then
          let removes' := PyStr.dset n (Some []) removes in
          makeNormedName (j_base i) (j_params i) (j_data i) (Some [(n, Some [])]) ::
          makeNormedName (j_base i) (j_params i) (j_data i) (Some removes') :: without_tries removes' order'
        else without_tries removes order'
    end.
  Definition tries : list str :=
    (match cs_renamer cs with Some f => f (j_name i) ++ f mapped_norm | None => [] end) ++
    (match cs_renames cs with Some ren => flat_map (rename_tries ren) [j_name i; mapped_norm] | None => [] end) ++
    (match cs_withoutOrder cs with
     | Some order => without_tries (match cs_mappings cs with Some m => subs_of m | None => [] end) order
     | None => [] end).
  (** 179-181 *)
  Definition try_path (n : str) : str :=
    path_join (path_join base (path_join base (match cs_fallback cs with Some f => f | None => cs_dir cs end))) (n ++ cext).
  (** 152-187: the matrix used, and whether MPI_Max_R_ProposeUpdate is set *)
  Definition choose_covmat : option str * bool :=
    if exists_ specific then (Some specific, cs_newCovmats cs)
    else (option_map try_path (find (fun n => exists_ (try_path n)) tries), true).
End Covmat.

(** ** chain_grid.py: chains found under a directory *)
(** 48-55: a chain: the parts of its path (chainRoot split at the separator), its tag, and its name *)
Record citem := mkCI { ci_parts : list str; ci_tag : str; ci_name : list str; ci_path : list str }.
(** 89-94; the name is the last part, chainPath the rest *)
Definition new_citem (parts : list str) (tag : str) : citem := mkCI parts tag [last parts []] (removelast parts).
Definition add_root (d : dict (list citem)) (root : str) (it : citem) : dict (list citem) :=
  PyStr.dset root ((match dget root d with Some l => l | None => [] end) ++ [it]) d.
(** the [n]th part from the end (n = 1 is the last); python's s[-n] *)
Definition from_end (n : nat) (parts : list str) : option str := nth_error (rev parts) (n - 1).
(** 102-104: first n >= 2 such that not all parts agree; IndexError if a path ends first *)
Definition same_part (n : nat) (paths : list (list str)) : res bool :=
  match paths with
  | [] => Ok true
  | p0 :: rest =>
      (fix go l := match l with
                   | [] => Ok true
                   | p :: l' => match from_end n p, from_end n p0 with
                                | Some a, Some b => if str_eqb a b then go l' else Ok false
                                | _, _ => Err IndexError
                                end
                   end) rest
  end.
Fixpoint differ_at (fuel n : nat) (paths : list (list str)) : res nat :=
  match fuel with
  | O => Err RecursionError
  | S k => bindR (same_part n paths) (fun same => if same then differ_at k (S n) paths else Ok n)
  end.
(** parts[-n:] and parts[:-n] *)
Definition tail_parts (n : nat) (parts : list str) : list str := skipn (length parts - n) parts.
Definition head_parts (n : nat) (parts : list str) : list str := firstn (length parts - n) parts.
(** 100-111 for one root: the renamed items *)
Definition unique_items (items : list citem) : res (list citem) :=
  match items with
  | [] | [_] => Ok items
  | _ => let paths := map ci_parts items in
         bindR (differ_at (S (S (length (concat paths)))) 2 paths) (fun n =>
         Ok (map (fun it => mkCI (ci_parts it) (ci_tag it) (tail_parts n (ci_parts it)) (head_parts n (ci_parts it))) items))
  end.
(** 86-87 *)
Definition normed_root (root : str) : str :=
  tag_of (sort_str (split_ch us (replace_str (L "_post") [] (replace_str (L "__") (L "_") root)))).
Record cgrid := mkCG { cg_roots : dict citem; cg_sorted : dict (list citem) }.
(** 96-111: the final dictionaries; the first is keyed by name (parts joined by '/'), later items replace earlier ones of
    the same name (the order of its keys is not modelled: python keeps unrenamed entries in place and appends the others) *)
Definition make_unique (d : dict (list citem)) : res cgrid :=
  bindR (mapR (fun kv => bindR (unique_items (snd kv)) (fun l => Ok (fst kv, l))) d) (fun ls =>
  Ok (mkCG (fold_left (fun acc it => PyStr.dset (join (L "/") (ci_name it)) it acc) (flat_map snd ls) [])
           (fold_left (fun acc kv => let n := normed_root (fst kv) in
                          PyStr.dset n ((match dget n acc with Some l => l | None => [] end) ++ snd kv) acc) ls []))).
(** 123-133; Ok None: not found *)
Definition resolve_root (g : cgrid) (root : str) : res (option citem) :=
  match dget root (cg_roots g) with
  | Some it => Ok (Some it)
  | None => match dget (normed_root root) (cg_sorted g) with
            | None | Some [] => Ok None
            | Some [it] => Ok (Some it)
            | Some _ => Err ValueError
            end
  end.
(** 63-94: all chains found, in the order of the walk, added under their roots *)
Definition add_all (found : list (list str * str)) : dict (list citem) :=
  fold_left (fun d pt => add_root d (last (fst pt) []) (new_citem (fst pt) (snd pt))) found [].
