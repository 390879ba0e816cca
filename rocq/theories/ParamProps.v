(** Properties C07-C10, C55, C56 (parameter lists and renames). *)
From Verif Require Import PyStr PyBase ParamModel ParamSpec ParamProofs.
From Coq Require Import Permutation Sorted.

(** C07: writing a .paramnames file and reading it back. *)
Theorem C07_paramnames_round_trip : forall l, Forall good_param l ->
  load_paramnames (plist_text l) = Ok (map without_renames l).
Proof. exact paramnames_round_trip. Qed.
Print Assumptions C07_paramnames_round_trip.
Example C07_example :
  let l := [mkP (L "omegabh2") (L "\Omega_b h^2") (L "baryon # density") false [];
            mkP (L "H0") [] [] true []; mkP (L "n#s") [] (L "tilt") true [];
            mkP (L "tau") (L "\tau") [] false []] in
  Forall good_param l /\ load_paramnames (plist_text l) = Ok l.
Proof.
  split; [|vm_compute; reflexivity].
  repeat constructor; try (vm_compute; reflexivity); try discriminate; vm_compute; intuition discriminate.
Qed.
(** The exclusion of '!' is needed: such a label comes back with a backslash. *)
Theorem C07_bang_label_refuted : exists p, plabel p = L "a!b" /\
  load_paramnames (plist_text [p]) = Ok [mkP (pname p) (L "a\b") (pcomment p) (pderived p) []].
Proof. exact bang_label_refutation. Qed.
Print Assumptions C07_bang_label_refuted.

(** C08: with keep_names_1st the merged dictionary is exactly the set of connected components of
    the given entries; the key of a group is a key of the left-most dictionary having one.
    [pick] is python's arbitrary choice in set.pop(). *)
Theorem C08_merge_is_components : forall pick dicts, (forall l, l <> [] -> In (pick l) l) ->
  exists m, mergeRenames pick true dicts = Some m /\
    (forall k alts, In (k, alts) m -> mentioned dicts k /\ NoDup (k :: alts) /\
       forall x, In x (k :: alts) <-> linked dicts k x) /\
    NoDup (dkeys m) /\
    (forall k1 k2, In k1 (dkeys m) -> In k2 (dkeys m) -> linked dicts k1 k2 -> k1 = k2) /\
    (forall x, mentioned dicts x -> exists k alts, In (k, alts) m /\ In x (k :: alts)) /\
    (forall k, In k (dkeys m) -> exists ds1 d ds2, dicts = ds1 ++ d :: ds2 /\ In k (dkeys d) /\
       forall d' y, In d' ds1 -> In y (dkeys d') -> ~ linked dicts k y).
Proof. exact mergeRenames_keep. Qed.
Print Assumptions C08_merge_is_components.
(** Without keep_names_1st (the default) a component appears exactly when some dictionary has a key
    in it and does not have all its names as keys. *)
Theorem C08_merge_default_partial : forall pick keep1 dicts, (forall l, l <> [] -> In (pick l) l) ->
  exists m, mergeRenames pick keep1 dicts = Some m /\
    (forall k alts, In (k, alts) m -> mentioned dicts k /\ NoDup (k :: alts) /\
       (forall x, In x (k :: alts) <-> linked dicts k x) /\
       exists ds1 d ds2, dicts = ds1 ++ d :: ds2 /\ In k (dkeys d) /\ gives_name keep1 dicts d k /\
         forall d', In d' ds1 -> ~ gives_name keep1 dicts d' k) /\
    NoDup (dkeys m) /\
    (forall k1 k2, In k1 (dkeys m) -> In k2 (dkeys m) -> linked dicts k1 k2 -> k1 = k2) /\
    (forall x, mentioned dicts x ->
       ((exists k alts, In (k, alts) m /\ In x (k :: alts)) <-> exists d, In d dicts /\ gives_name keep1 dicts d x)).
Proof. exact mergeRenames_spec. Qed.
Print Assumptions C08_merge_default_partial.
(** FINDING: a group all of whose names are keys of the same dictionary is lost. *)
Theorem C08_group_lost_refuted : forall pick,
  mergeRenames pick false [[(L "a", [L "b"]); (L "b", [L "a"])]] = Some [].
Proof. exact mergeRenames_lost. Qed.
Print Assumptions C08_group_lost_refuted.
Example C08_example : mergeRenames (fun l => hd [] l) true
   [[(L "a", [L "b"]); (L "c", [])]; [(L "d", [L "e"]); (L "x", [L "b"; L "e"])]]
  = Some [(L "a", [L "b"; L "x"; L "e"; L "d"]); (L "c", [])].
Proof. vm_compute. reflexivity. Qed.

(** C09: lookups. *)
Theorem C09_number_of_name : forall l name,
  (forall n, numberOfName l name = Some n <->
     exists l1 p l2, l = l1 ++ p :: l2 /\ pname p = name /\ length l1 = n /\ ~ In name (map pname l1)) /\
  (numberOfName l name = None <-> ~ In name (map pname l)) /\
  (hasParam l name = true <-> In name (map pname l)).
Proof. exact numberOfName_spec. Qed.
Print Assumptions C09_number_of_name.
Theorem C09_par_with_name : forall l name error, (forall p, In p l -> prenames p = []) ->
  parWithName l name error [] =
    match numberOfName l name with
    | Some n => Ok (nth_error l n)
    | None => if error then Err (OtherError name) else Ok None
    end.
Proof. exact parWithName_plain. Qed.
Print Assumptions C09_par_with_name.
(** with renames: the first parameter sharing a known name with the request *)
Theorem C09_par_with_renames : forall l name error r,
  (exists p l1 l2, parWithName l name error r = Ok (Some p) /\ l = l1 ++ p :: l2 /\
     (exists x, answers r p x /\ tried r name x) /\
     (forall q, In q l1 -> ~ exists x, answers r q x /\ tried r name x)) \/
  ((forall q, In q l -> ~ exists x, answers r q x /\ tried r name x) /\
   parWithName l name error r = if error then Err (OtherError name) else Ok None).
Proof. exact parWithName_spec. Qed.
Print Assumptions C09_par_with_renames.
Definition ex_list : list pinfo :=
  [mkP (L "a") [] [] false []; mkP (L "b") [] [] true []; mkP (L "a") (L "second") [] true []; mkP (L "c") [] [] false [L "cc"]].
Example C09_example : numberOfName ex_list (L "a") = Some 0 /\ numberOfName ex_list (L "zz") = None /\
  parWithName ex_list (L "old") true [(L "old", [L "cc"])] = Ok (Some (mkP (L "c") [] [] false [L "cc"])) /\
  parWithName ex_list (L "zz") true [] = Err (OtherError (L "zz")).
Proof. vm_compute. auto. Qed.

(** C10: deletion, selection, counts. *)
Theorem C10_delete_indices : forall l ix, exists kept,
  deleteIndices l ix = flat_map (fun n => match nth_error l n with Some p => [p] | None => [] end) kept /\
  (forall n, In n kept <-> n < length l /\ ~ In n ix) /\ StronglySorted lt kept.
Proof. exact deleteIndices_spec. Qed.
Print Assumptions C10_delete_indices.
Theorem C10_filtered_copy_names : forall l params,
  subseq (fun p => In (pname p) params) l (filteredCopy_names l params).
Proof. exact filteredCopy_names_spec. Qed.
Print Assumptions C10_filtered_copy_names.
Theorem C10_filtered_copy : forall l params,
  subseq (fun p => exists q, In q params /\ (pname q = pname p \/ In (pname p) (prenames q))) l (filteredCopy l params).
Proof. exact filteredCopy_spec. Qed.
Print Assumptions C10_filtered_copy.
Theorem C10_counts : forall l, numDerived l + numNonDerived l = length l /\
  numDerived l = length (getDerivedNames l) /\ numNonDerived l = length (getRunningNames l) /\
  Permutation (getRunningNames l ++ getDerivedNames l) (map pname l).
Proof. exact counts. Qed.
Print Assumptions C10_counts.
Theorem C10_add_derived : forall l name label comment derived renames,
  good_name name ->
  exists p, addDerived l name label comment derived renames = Ok (l ++ [p]) /\
    pname p = name /\ pcomment p = comment /\ prenames p = renames /\
    pderived p = match derived with Some b => b | None => true end /\
    (label <> [] -> plabel p = label) /\ (label = [] -> plabel p = name).
Proof. exact addDerived_spec. Qed.
Print Assumptions C10_add_derived.
Example C10_example :
  map pname (deleteIndices ex_list [2; 0; 7]) = [L "b"; L "c"] /\
  map pname (filteredCopy ex_list [mkP (L "q") [] [] false [L "c"]; mkP (L "b") [] [] false []]) = [L "b"; L "c"].
Proof. vm_compute. auto. Qed.

(** C55: parameter infos stored in keyword form come back. *)
Theorem C55_keywords_round_trip : forall l,
  Forall (fun p => good_name (pname p) /\ ~ In backslash (pname p) /\ strip (plabel p) = plabel p /\
           ~ In "#"%char (plabel p) /\ ~ In "!"%char (plabel p) /\ pcomment p <> L "NULL") l ->
  loadFromKeyWords (saveKeyWords l) = Ok (map without_renames l).
Proof. exact keywords_round_trip. Qed.
Print Assumptions C55_keywords_round_trip.
Example C55_example :
  let l := [mkP (L "omegabh2") (L "\Omega_b h^2") (L "baryon # density") false [];
            mkP (L "H0") [] [] true []] in
  Forall (fun p => good_name (pname p) /\ ~ In backslash (pname p) /\ strip (plabel p) = plabel p /\
           ~ In "#"%char (plabel p) /\ ~ In "!"%char (plabel p) /\ pcomment p <> L "NULL") l /\
  loadFromKeyWords (saveKeyWords l) = Ok l.
Proof.
  split; [|vm_compute; reflexivity].
  repeat constructor; try (vm_compute; reflexivity); try discriminate; vm_compute; intuition discriminate.
Qed.

(** C56: after updateRenames a parameter is found under every name linked to it, and under no other. *)
Theorem C56_update_renames : forall pick l r, (forall s, s <> [] -> In (pick s) s) -> NoDup (map pname l) ->
  exists l', updateRenames pick l r = Some l' /\ map pname l' = map pname l /\
    map plabel l' = map plabel l /\ map pderived l' = map pderived l /\
    (forall x, (exists p, In p l /\ linked [known_renames l; r] (pname p) x) ->
       exists q, parWithName l' x true [] = Ok (Some q) /\ linked [known_renames l; r] (pname q) x) /\
    (forall x, (forall p, In p l -> ~ linked [known_renames l; r] (pname p) x) ->
       parWithName l' x false [] = Ok None).
Proof. exact updateRenames_spec. Qed.
Print Assumptions C56_update_renames.
Example C56_example :
  let l := [mkP (L "H0") [] [] false []; mkP (L "om") [] [] false [L "omegam"]] in
  NoDup (map pname l) /\
  option_map (fun l' => parWithName l' (L "Omega_m") true []) (updateRenames (fun s => hd [] s) l [(L "Omega_m", [L "omegam"])])
  = Some (Ok (Some (mkP (L "om") [] [] false [L "omegam"; L "Omega_m"]))).
Proof.
  split; [|vm_compute; reflexivity]. repeat constructor; vm_compute; intuition discriminate.
Qed.
