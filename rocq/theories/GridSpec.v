(** Vocabulary for the statements about generated ini files, proposal matrices and chain names. *)
From Verif Require Import PyStr PyBase GridModel BatchModel.
From Coq Require Import Permutation.

(** ** Option sources *)
(** [k] has value [v] in the last of the sources that defines it *)
Definition last_def {V} (k : str) (v : V) (sources : list (dict V)) : Prop :=
  exists lower d higher, sources = lower ++ d :: higher /\ In (k, v) d /\ forall d', In d' higher -> ~ In k (dkeys d').
(** a python dictionary has each key once *)
Definition real_dict {V} (d : dict V) : Prop := NoDup (dkeys d).
Section Sources.
Context {V : Type}.
(** the dictionaries and the files of an item list, from left to right *)
Fixpoint dicts_in (p : dparam V) : list (dict V) :=
  match p with DDict d => [d] | DFile _ => [] | DList l => flat_map dicts_in l | DOther => [] end.
Fixpoint files_in (p : dparam V) : list str :=
  match p with DDict _ => [] | DFile f => [f] | DList l => flat_map files_in l | DOther => [] end.
Fixpoint has_other (p : dparam V) : bool :=
  match p with DList l => existsb has_other l | DOther => true | _ => false end.
Definition opt_src (o : option (dict V)) : list (dict V) := match o with Some d => [d] | None => [] end.
Definition of_param (o : option (dict (dict V))) (p : str) : list (dict V) :=
  match o with Some m => opt_src (dget p m) | None => [] end.
(** all sources of a chain run's options, weakest first: each parameter's prior, general and own extra options,
    then the extra options of the settings, those of the job, the output root, the proposal matrix, the start, the data
    set's dictionaries in order, and the action *)
Definition sources (s : gsettings V) (j : gjob V) (cov : dict V) (action : V) : list (dict V) :=
  flat_map (fun p => match dget p (gs_params s) with
                     | Some v => [(L "param[" ++ p ++ L "]", v)] :: of_param (gs_param_extra s) p ++ of_param (gj_param_extra j) p
                     | None => [] end) (gj_params j) ++
  opt_src (gs_extra s) ++ opt_src (gj_extra j) ++
  [[(L "file_root", gj_root j)]; cov; [(L "start_at_bestfit", gs_start s)]] ++
  flat_map dicts_in (gj_data j) ++ [[(L "action", action)]].
(** how CosmoMC reads the file: its own lines, else the first DEFAULT file that defines the key *)
Fixpoint first_file (content : str -> dict V) (k : str) (files : list str) : option V :=
  match files with [] => None | f :: r => match dget k (content f) with Some v => Some v | None => first_file content k r end end.
Definition effective (content : str -> dict V) (i : gini V) (k : str) : option V :=
  match dget k (g_own i) with Some v => Some v | None => first_file content k (g_defaults i) end.
(** value a list of items gives to [k]: through its dictionaries (the last one), or through its files (the first one) *)
Definition dict_value (k : str) (ps : list (dparam V)) : option V :=
  fold_left (fun a d => match dget k d with Some v => Some v | None => a end) (flat_map dicts_in ps) None.
Definition file_value (content : str -> dict V) (path : str) (k : str) (ps : list (dparam V)) : option V :=
  first_file content k (map (fun f => path ++ f) (flat_map files_in ps)).
Definition orelse {A} (a b : option A) : option A := match a with Some _ => a | None => b end.
End Sources.

(** ** Proposal matrices *)
(** [n] is [a] with the first occurrence of [old] replaced by [new] *)
Definition first_subst (old new a n : str) : Prop :=
  exists x y, a = x ++ old ++ y /\ n = x ++ new ++ y /\
  (forall x' y', a = x' ++ old ++ y' -> length x <= length x').
(** candidates for the job itself, best first *)
Definition own_candidates (base : str) (cs : covset) (i : jinfo) (data_covmat : option str) : list str :=
  let dir := path_join base (cs_dir cs) in
  let file n := path_join dir (n ++ L ".covmat") in
  let given f := [base ++ f; path_join dir f] in
  let opt (o : option str) := match o with Some f => given f | None => [] end in
  [file (j_name i);
   file (makeNormedName (j_base i) (j_params i) (j_data i) (match cs_mappings cs with Some m => Some (subs_of m) | None => None end))] ++
  match cs_mappings cs with
  | Some m => [file (tag_of (map (fun x => match dget x m with Some y => y | None => x end) (split_ch us (j_name i))))]
  | None => [] end ++
  opt data_covmat ++ opt (cs_covmat cs).
(** names of substitutes: what the settings' renamer says, one rename applied, one rename undone and another applied, or
    names of data sets left out *)
Inductive substitute (cs : covset) (i : jinfo) (normed_name : str) : str -> Prop :=
| sub_renamer f a n : cs_renamer cs = Some f -> In a [j_name i; normed_name] -> In n (f a) -> substitute cs i normed_name n
| sub_rename ren old new a n : cs_renames cs = Some ren -> In a [j_name i; normed_name] -> In (old, new) ren ->
    first_subst old new a n -> substitute cs i normed_name n
| sub_swap ren old new old1 new1 a m n : cs_renames cs = Some ren -> In a [j_name i; normed_name] ->
    In (new1, old1) ren -> first_subst old1 new1 a m -> In (old, new) ren -> first_subst old new m n ->
    substitute cs i normed_name n
| sub_without1 order x : cs_withoutOrder cs = Some order -> In x order -> In x (d_names (j_data i)) ->
    substitute cs i normed_name (makeNormedName (j_base i) (j_params i) (j_data i) (Some [(x, Some [])]))
| sub_without pre x post dic : cs_withoutOrder cs = Some (pre ++ x :: post) -> In x (d_names (j_data i)) ->
    (* [dic] drops the names met so far and otherwise maps names as the settings do *)
    (forall y, dget y dic = if mem_str y (pre ++ [x]) && mem_str y (d_names (j_data i)) then Some (Some [])
                            else match cs_mappings cs with Some m => option_map Some (dget y m) | None => None end) ->
    substitute cs i normed_name (makeNormedName (j_base i) (j_params i) (j_data i) (Some dic)).

(** ** Chains in directories *)
(** all chains of a group are found in different places *)
Definition group_ok (root : str) (l : list citem) : Prop :=
  l <> [] /\ NoDup (map ci_parts l) /\ forall it, In it l -> 2 <= length (ci_parts it) /\ last (ci_parts it) [] = root /\
    Forall (fun p => ~ In "/"%char p) (ci_parts it) /\ ci_name it = [root] /\ ci_path it = removelast (ci_parts it).
(** [b] ends with the parts [a] *)
Definition ends_with (a b : list str) : Prop := exists x, b = x ++ a.
(** the words of a name: separated by underscores *)
Definition words (s : str) : list str := split_ch us s.
Definition simplified (s : str) : str := PyNum.replace_str (L "_post") [] (PyNum.replace_str (L "__") (L "_") s).
(** a chain found by the walk: the parts of its path (the last is the file root) and its folder tag *)
Definition froot (pt : list str * str) : str := last (fst pt) [].
Definition place_ok (pt : list str * str) : Prop := 2 <= length (fst pt) /\ Forall (fun p => ~ In "/"%char p) (fst pt).
