(** Properties of generated ini files (C35, C59), proposal matrices (C60) and chain names (C37, C61). *)
From Verif Require Import PyStr PyStrFacts PyBase PyNum BatchModel GridModel GridSpec GridProofs GridProofs2.
From Coq Require Import Permutation.

(** ** C35 *)
(** every option of a chain run has the value given by its highest-priority source; nothing else is set *)
Theorem C35_precedence : forall V common (s : gsettings V) j cov action i, Forall real_dict (sources s j cov action) ->
  makeIni common s j cov action = Ok i -> forall k v, dget k (g_own i) = Some v <-> last_def k v (sources s j cov action).
Proof.
  intros V common s j cov action i F H k v. pose proof (makeIni_spec common s j cov action) as M.
  destruct (_ && _); [|destruct M as [e M]; congruence]. destruct M as [i' [M [O _]]]. rewrite M in H. injection H as <-.
  rewrite O, (last_def_get k v _ F), get_updates by exact F. reflexivity.
Qed.
Print Assumptions C35_precedence.
(** an option set by one source only survives with its value *)
Theorem C35_single_source : forall V common (s : gsettings V) j cov action i lower d higher k v,
  Forall real_dict (sources s j cov action) -> makeIni common s j cov action = Ok i ->
  sources s j cov action = lower ++ d :: higher -> In (k, v) d ->
  (forall d', In d' (lower ++ higher) -> ~ In k (dkeys d')) -> dget k (g_own i) = Some v.
Proof.
  intros V common s j cov action i lower d higher k v F H E I N. apply (C35_precedence V common s j cov action i F H).
  exists lower, d, higher. split; [exact E|]. split; [exact I|]. intros d' I'. apply N. apply in_or_app. now right.
Qed.
Print Assumptions C35_single_source.
(** default files: overriding ones first, then the data set's, then the grid's *)
Theorem C35_defaults : forall V common (s : gsettings V) j cov action i, makeIni common s j cov action = Ok i ->
  g_defaults i = map (fun f => common ++ f)
    ((match gs_override s with Some l => l | None => [] end) ++ flat_map files_in (gj_data j) ++ gs_defaults s).
Proof.
  intros V common s j cov action i H. pose proof (makeIni_spec common s j cov action) as M.
  destruct (_ && _); [|destruct M as [e M]; congruence]. destruct M as [i' [M [_ D]]]. rewrite M in H. now injection H as <-.
Qed.
Print Assumptions C35_defaults.
(** an ini file is made exactly if every parameter has a prior and the data set's items are of known kinds *)
Theorem C35_made_iff : forall V common (s : gsettings V) j cov action,
  (exists i, makeIni common s j cov action = Ok i) <->
  (forall p, In p (gj_params j) -> dget p (gs_params s) <> None) /\ (forall p, In p (gj_data j) -> has_other p = false).
Proof.
  intros V common s j cov action. pose proof (makeIni_spec common s j cov action) as M.
  assert (A : forallb (fun p => dhas p (gs_params s)) (gj_params j) = true <-> forall p, In p (gj_params j) -> dget p (gs_params s) <> None).
  { rewrite forallb_forall. split; intros H p I; specialize (H p I); unfold dhas in *; destruct (dget p (gs_params s)); congruence. }
  assert (B : existsb has_other (gj_data j) = false <-> forall p, In p (gj_data j) -> has_other p = false).
  { split.
    - intros H p I. destruct (has_other p) eqn:E; [|reflexivity]. rewrite <- H. symmetry. apply existsb_exists. eauto.
    - intros H. destruct (existsb has_other (gj_data j)) eqn:E; [|reflexivity]. apply existsb_exists in E. destruct E as [p [I E]]. rewrite (H p I) in E. discriminate. }
  rewrite <- A, <- B. destruct (forallb _ (gj_params j)), (existsb has_other (gj_data j)); cbn in M.
  - split; [intros [i H]; destruct M; congruence|intros [_ ?]; discriminate].
  - split; [auto|]. intros _. destruct M as [i [M _]]. eauto.
  - split; [intros [i H]; destruct M; congruence|intros [? _]; discriminate].
  - split; [intros [i H]; destruct M; congruence|intros [? _]; discriminate].
Qed.
Print Assumptions C35_made_iff.
(** the minimization variant differs in the run action and the accuracy options only *)
Theorem C35_minimize : forall V (mv : minvals V) j i k, 
  g_defaults (minimizeIni mv j i) = g_defaults i /\
  dget k (g_own (minimizeIni mv j i)) =
  if str_eqb k (L "sterile_mphys_max") && mem_str (L "meffsterile") (gj_params j) then Some (mv_sterile mv)
  else if str_eqb k (L "accuracy_level") && mem_str (L "omegak") (gj_params j) then Some (mv_acc mv)
  else if str_eqb k (L "lmin_store_all_cmb") then Some (mv_lmin mv)
  else if str_eqb k (L "action") then Some (mv_action mv) else dget k (g_own i).
Proof. intros. split; [reflexivity|]. apply min_get. Qed.
Print Assumptions C35_minimize.
(** importance runs: own settings first, in order; their files, the importance defaults and last the parent's ini file *)
Theorem C35_importance : forall V common (s : gsettings V) mv j parent root one ps i k,
  Forall real_dict (flat_map dicts_in ps) -> importanceIni common s mv j parent root one ps false = Ok i ->
  g_defaults i = map (fun f => common ++ f) (flat_map files_in ps ++ gs_impDefaults s) ++ [parent] /\
  dget k (g_own i) = if str_eqb k (L "action") then Some one else if str_eqb k (L "redo_outroot") then Some root else dict_value k ps.
Proof.
  intros V common s mv j parent root one ps i k F H. unfold importanceIni in H. pose proof (updates_spec common ps (mkIni [] [])) as U.
  destruct (existsb has_other ps).
  - destruct U as [e U]. rewrite U in H. discriminate.
  - destruct U as [i' [U [D O]]]. rewrite U in H. cbn [bindR] in H. injection H as <-. cbn [g_own g_defaults]. split.
    + rewrite D. cbn [g_defaults app]. now rewrite map_app, app_assoc.
    + unfold setp. rewrite !dget_dset, O. cbn [g_own]. rewrite get_updates by exact F. reflexivity.
Qed.
Print Assumptions C35_importance.
Theorem C35_importance_minimize : forall V common (s : gsettings V) mv j parent root one ps i k,
  Forall real_dict (flat_map dicts_in ps) -> importanceIni common s mv j parent root one ps true = Ok i ->
  g_defaults i = map (fun f => common ++ f) (flat_map files_in ps) ++ [parent] /\
  dget k (g_own i) =
  if str_eqb k (L "sterile_mphys_max") && mem_str (L "meffsterile") (gj_params j) then Some (mv_sterile mv)
  else if str_eqb k (L "accuracy_level") && mem_str (L "omegak") (gj_params j) then Some (mv_acc mv)
  else if str_eqb k (L "lmin_store_all_cmb") then Some (mv_lmin mv)
  else if str_eqb k (L "action") then Some (mv_action mv)
  else if str_eqb k (L "file_root") then Some root else dict_value k ps.
Proof.
  intros V common s mv j parent root one ps i k F H. unfold importanceIni in H. pose proof (updates_spec common ps (mkIni [] [])) as U.
  destruct (existsb has_other ps).
  - destruct U as [e U]. rewrite U in H. discriminate.
  - destruct U as [i' [U [D O]]]. rewrite U in H. cbn [bindR] in H. injection H as <-. cbn [g_own g_defaults]. split.
    + now rewrite D.
    + rewrite min_get. unfold setp. rewrite dget_dset, O. cbn [g_own]. rewrite get_updates by exact F. reflexivity.
Qed.
Print Assumptions C35_importance_minimize.
Definition ex_set : gsettings nat :=
  mkGS [(L "ns", 1); (L "omegak", 2)] (Some [(L "omegak", [(L "acc", 3); (L "x", 4)])]) (Some [(L "x", 5); (L "y", 6)])
       [L "common.ini"] (Some [L "over.ini"]) 0 [].
Definition ex_gj : gjob nat := mkGJ [L "ns"; L "omegak"] (Some [(L "ns", [(L "acc", 7)])]) (Some [(L "y", 8)]) 9 [DFile (L "plik.ini"); DList [DDict [(L "y", 10)]; DDict [(L "z", 11)]]].
Example C35_example : Forall real_dict (sources ex_set ex_gj [] 0) /\
  exists i, makeIni (L "c/") ex_set ex_gj [] 0 = Ok i /\ dget (L "acc") (g_own i) = Some 3 /\ dget (L "x") (g_own i) = Some 5 /\
    dget (L "y") (g_own i) = Some 10 /\ dget (L "z") (g_own i) = Some 11 /\ dget (L "param[ns]") (g_own i) = Some 1 /\
    g_defaults i = [L "c/over.ini"; L "c/plik.ini"; L "c/common.ini"].
Proof.
  split.
  - repeat constructor; cbn; intuition discriminate.
  - eexists. split; [vm_compute; reflexivity|]. repeat split.
Qed.

(** ** C59 *)
(** what really happens: among dictionaries the later item wins, among files the earlier one, and dictionaries always beat files *)
Theorem C59_exact : forall V (content : str -> dict V) path existing new (b : bool) i k,
  Forall real_dict (flat_map dicts_in existing) -> Forall real_dict (flat_map dicts_in new) ->
  updateIniParams path (ds_add existing new b) (mkIni [] []) = Ok i ->
  effective content i k =
    if b then orelse (orelse (dict_value k existing) (dict_value k new)) (orelse (file_value content path k new) (file_value content path k existing))
    else orelse (orelse (dict_value k new) (dict_value k existing)) (orelse (file_value content path k existing) (file_value content path k new)).
Proof.
  intros V content path existing new b i k F1 F2 H. unfold ds_add in H.
  destruct b; (apply (effective_updates content path k) in H; [|rewrite flat_map_app; apply Forall_app; auto]);
    rewrite H, dict_value_app, file_value_app; reflexivity.
Qed.
Print Assumptions C59_exact.
(** the claim holds for options set through files only *)
Theorem C59_files_partial : forall V (content : str -> dict V) path existing new (b : bool) i k v,
  flat_map dicts_in existing = [] -> flat_map dicts_in new = [] ->
  updateIniParams path (ds_add existing new b) (mkIni [] []) = Ok i ->
  file_value content path k (if b then new else existing) = Some v -> effective content i k = Some v.
Proof.
  intros V content path existing new b i k v E1 E2 H Hv.
  rewrite (C59_exact V content path existing new b i k); [|rewrite E1; constructor|rewrite E2; constructor|exact H].
  unfold dict_value. rewrite E1, E2. cbn [fold_left orelse]. destruct b; rewrite Hv; reflexivity.
Qed.
Print Assumptions C59_files_partial.
(** FINDING: with dictionaries, overrideExisting=True keeps the existing value, and overrideExisting=False replaces it *)
Theorem C59_dictionaries_refuted : exists (existing new : list (dparam nat)) k,
  dict_value k new = Some 2 /\ dict_value k existing = Some 1 /\
  (exists i, updateIniParams [] (ds_add existing new true) (mkIni [] []) = Ok i /\ effective (fun _ => []) i k = Some 1) /\
  (exists i, updateIniParams [] (ds_add existing new false) (mkIni [] []) = Ok i /\ effective (fun _ => []) i k = Some 2).
Proof.
  exists [DDict [(L "a", 1)]], [DDict [(L "a", 2)]], (L "a"). repeat split; eexists; split; reflexivity.
Qed.
Print Assumptions C59_dictionaries_refuted.
(** FINDING: a new ini file does not override an existing dictionary entry either *)
Theorem C59_file_over_dictionary_refuted : exists (content : str -> dict nat) (existing new : list (dparam nat)) k i,
  file_value content [] k new = Some 2 /\ updateIniParams [] (ds_add existing new true) (mkIni [] []) = Ok i /\ effective content i k = Some 1.
Proof.
  exists (fun _ => [(L "a", 2)]), [DDict [(L "a", 1)]], [DFile (L "f.ini")], (L "a"). eexists. repeat split.
Qed.
Print Assumptions C59_file_over_dictionary_refuted.
Example C59_example : let content f := if str_eqb f (L "p/new.ini") then [(L "a", 2)] else [(L "a", 1); (L "b", 3)] in
  exists i, updateIniParams (L "p/") (ds_add [DFile (L "old.ini")] [DFile (L "new.ini")] true) (mkIni [] []) = Ok i /\
  effective content i (L "a") = Some 2 /\ effective content i (L "b") = Some 3.
Proof. eexists. repeat split. Qed.

(** ** C60 *)
(** the first existing candidate is used; nothing is used exactly if none exists *)
Theorem C60_first_existing : forall ex base cs i dc,
  match fst (choose_covmat ex base cs i dc) with
  | Some f => exists before after, own_candidates base cs i dc ++ map (try_path base cs) (tries cs i) = before ++ f :: after /\
                ex f = true /\ Forall (fun g => ex g = false) before
  | None => Forall (fun g => ex g = false) (own_candidates base cs i dc ++ map (try_path base cs) (tries cs i))
  end.
Proof.
  intros ex base cs i dc. rewrite choose_spec. generalize (own_candidates base cs i dc ++ map (try_path base cs) (tries cs i)). intros l.
  induction l as [|x l IH]; [constructor|]. cbn [find]. destruct (ex x) eqn:E.
  - exists [], l. repeat split; auto.
  - destruct (find ex l) as [f|].
    + destruct IH as [b [a [-> [E1 F]]]]. exists (x :: b), a. repeat split; auto.
    + constructor; assumption.
Qed.
Print Assumptions C60_first_existing.
(** the substitutes tried after the job's own matrices are exactly the renamed and reduced names *)
Theorem C60_substitutes : forall cs i n, In n (tries cs i) <-> substitute cs i (mapped_norm cs i) n.
Proof. exact tries_iff. Qed.
Print Assumptions C60_substitutes.
(** an own matrix is preferred to any substitute, and the proposal update is on unless an own matrix was found and newCovmats is off *)
Theorem C60_update : forall ex base cs i dc,
  snd (choose_covmat ex base cs i dc) = false <->
  (exists f, In f (own_candidates base cs i dc) /\ ex f = true) /\ cs_newCovmats cs = false.
Proof.
  intros ex base cs i dc. unfold choose_covmat. pose proof (specific_spec ex base cs i dc) as S.
  destruct (ex (specific ex base cs i dc)) eqn:E; cbn [snd].
  - apply find_some in S. split; [intros H; split; [eauto|exact H]|tauto].
  - split; [discriminate|]. intros [[f [I Ef]] _]. apply (find_none _ _ S) in I. congruence.
Qed.
Print Assumptions C60_update.
Definition ex_cs : covset :=
  mkCS (L "covs") None (Some [(L "plikHM", L "plik")]) None true None (Some [(L "lowl", L "lowE")]) (Some [L "lensing"]).
Definition ex_ji : jinfo := new_item (L "base") [L "mnu"] (new_dset [L "plikHM"; L "lowl"; L "lensing"]).
Example C60_example :
  own_candidates (L "/b/") ex_cs ex_ji None =
    [L "/b/covs/base_mnu_plikHM_lowl_lensing.covmat"; L "/b/covs/base_mnu_lensing_lowl_plik.covmat"; L "/b/covs/base_mnu_plik_lowl_lensing.covmat"] /\
  tries ex_cs ex_ji = [L "base_mnu_plikHM_lowE_lensing"; L "base_mnu_lensing_lowE_plik"; L "base_mnu_lowl_plikHM"; L "base_mnu_lowl_plik"] /\
  choose_covmat (fun f => str_eqb f (L "/b/covs/base_mnu_lowl_plik.covmat")) (L "/b/") ex_cs ex_ji None = (Some (L "/b/covs/base_mnu_lowl_plik.covmat"), true).
Proof. repeat split; vm_compute; reflexivity. Qed.

(** ** C37 *)
(** a group of chains with the same root: the parts compared agree up to a position where at least two differ; the names are the
    path endings from that position on, and path and name together are still the chain *)
Theorem C37_groups : forall items items', unique_items items = Ok items' -> 2 <= length items ->
  exists n, 2 <= n /\
    (forall a b, In a items -> In b items -> forall q, 2 <= q < n -> from_end q (ci_parts a) = from_end q (ci_parts b)) /\
    (exists a b, In a items /\ In b items /\ from_end n (ci_parts a) <> None /\ from_end n (ci_parts b) <> None /\
       from_end n (ci_parts a) <> from_end n (ci_parts b)) /\
    items' = map (fun it => mkCI (ci_parts it) (ci_tag it) (tail_parts n (ci_parts it)) (head_parts n (ci_parts it))) items.
Proof. exact unique_group. Qed.
Print Assumptions C37_groups.
Theorem C37_path_and_name : forall root items items', group_ok root items -> unique_items items = Ok items' ->
  Forall2 (fun it it' => ci_parts it' = ci_parts it /\ ci_path it' ++ ci_name it' = ci_parts it /\ last (ci_name it') [] = root) items items'.
Proof.
  intros root l l' G H. pose proof (unique_shape root l l' G H) as S. clear -S. induction S as [|a b l l' [S1 [S2 [S3 _]]] S IH]; constructor; auto.
Qed.
Print Assumptions C37_path_and_name.
(** two chains with the same root: distinct names, or an IndexError if one path is an ending of the other *)
Theorem C37_two : forall a b root, group_ok root [a; b] ->
  (ends_with (ci_parts a) (ci_parts b) \/ ends_with (ci_parts b) (ci_parts a) -> unique_items [a; b] = Err IndexError) /\
  (~ ends_with (ci_parts a) (ci_parts b) -> ~ ends_with (ci_parts b) (ci_parts a) ->
     exists a' b', unique_items [a; b] = Ok [a'; b'] /\ ci_parts a' = ci_parts a /\ ci_parts b' = ci_parts b /\ ci_name a' <> ci_name b').
Proof.
  intros a b root G. destruct (unique_two a b root G) as [U1 U2]. split; [exact U1|]. intros N1 N2.
  destruct (U2 N1 N2) as [a' [b' [H1 [H2 [H3 [_ [_ [_ [_ [H4 _]]]]]]]]]]. exists a', b'. auto.
Qed.
Print Assumptions C37_two.
(** whole directory: if no root occurs more than twice every chain stays addressable under a name of its own *)
Theorem C37_addressable_partial : forall found g, NoDup (map fst found) -> Forall place_ok found ->
  (forall root, length (filter (fun pt => str_eqb (froot pt) root) found) <= 2) -> make_unique (add_all found) = Ok g ->
  forall pt, In pt found -> exists it, dget (join (L "/") (ci_name it)) (cg_roots g) = Some it /\
    ci_parts it = fst pt /\ ci_path it ++ ci_name it = fst pt /\ last (ci_name it) [] = last (fst pt) [].
Proof. exact addressable. Qed.
Print Assumptions C37_addressable_partial.
Definition pl (l : list string) (t : string) : list str * str := (map L l, L t).
Arguments pl _%string _%string.
Ltac places := repeat (apply Forall_cons || apply Forall_nil); (split; [cbn; lia|]; repeat (apply Forall_cons || apply Forall_nil); (let C := fresh in intros C; cbn in C; repeat (destruct C as [C|C]; [discriminate C|]); exact C)).
(** FINDING: of three chains with the same root two can get the same name; one of them is lost *)
Theorem C37_three_refuted : exists found g, NoDup (map fst found) /\ Forall place_ok found /\ make_unique (add_all found) = Ok g /\
  length found = 3 /\ length (cg_roots g) = 2 /\ dget (L "y/r") (cg_roots g) <> None /\
  forall n it, dget n (cg_roots g) = Some it -> ci_parts it <> [L "base"; L "a"; L "y"; L "r"].
Proof.
  exists [pl (["base"; "a"; "x"; "r"]%string) "a"; pl (["base"; "a"; "y"; "r"]%string) "a"; pl (["base"; "b"; "y"; "r"]%string) "b"]. eexists.
  split; [|split; [|split; [vm_compute; reflexivity|]]].
  - repeat constructor; cbn; intuition discriminate.
  - places.
  - split; [reflexivity|]. split; [reflexivity|]. split; [discriminate|]. intros n it H. apply dget_Some_In in H. cbn in H.
    destruct H as [H|[H|[]]]; injection H as <- <-; discriminate.
Qed.
Print Assumptions C37_three_refuted.
(** FINDING: with a relative base directory the loop can run off the path, so no chain of the directory can be used *)
Theorem C37_short_path_refuted : exists found, NoDup (map fst found) /\ Forall place_ok found /\ make_unique (add_all found) = Err IndexError.
Proof.
  exists [pl (["b"; "x"; "r"]%string) "x"; pl (["b"; "b"; "x"; "r"]%string) "b"]. split; [|split; [|vm_compute; reflexivity]].
  - repeat constructor; cbn; intuition discriminate.
  - places.
Qed.
Print Assumptions C37_short_path_refuted.
Definition ex_found := [pl (["g"; "a"; "base_r"]%string) "a"; pl (["g"; "b"; "base_r"]%string) "b"; pl (["g"; "a"; "other_r"]%string) "a"].
Example C37_example : NoDup (map fst ex_found) /\ Forall place_ok ex_found /\
  exists g, make_unique (add_all ex_found) = Ok g /\ dkeys (cg_roots g) = [L "a/base_r"; L "b/base_r"; L "other_r"].
Proof.
  split; [repeat constructor; cbn; intuition discriminate|]. split; [places|].
  eexists. split; vm_compute; reflexivity.
Qed.

(** ** C61 *)
(** a chain is found by its name; else by the words of its file root in any order if this is unambiguous *)
Theorem C61_lookup : forall found g r, NoDup (map fst found) -> Forall place_ok found -> make_unique (add_all found) = Ok g ->
  match dget r (cg_roots g) with
  | Some it => resolve_root g r = Ok (Some it) /\ join (L "/") (ci_name it) = r /\
               In (ci_parts it) (map fst found) /\ ci_path it ++ ci_name it = ci_parts it
  | None => exists sel, Permutation (map ci_parts sel) (map fst (filter (fun pt => str_eqb (normed_root r) (normed_root (froot pt))) found)) /\
       resolve_root g r = match sel with [] => Ok None | [it] => Ok (Some it) | _ => Err ValueError end
  end.
Proof. exact resolve_spec. Qed.
Print Assumptions C61_lookup.
Theorem C61_same_words : forall a b, normed_root a = normed_root b <-> Permutation (words (simplified a)) (words (simplified b)).
Proof. exact normed_root_iff. Qed.
Print Assumptions C61_same_words.
(** what is returned is one of the chains found, and either has the name asked for or a root with the same words *)
Theorem C61_sound : forall found g r it, NoDup (map fst found) -> Forall place_ok found -> make_unique (add_all found) = Ok g ->
  resolve_root g r = Ok (Some it) ->
  In (ci_parts it) (map fst found) /\
  (join (L "/") (ci_name it) = r \/ Permutation (words (simplified r)) (words (simplified (last (ci_parts it) [])))).
Proof.
  intros found g r it ND F H R. pose proof (resolve_spec found g r ND F H) as S. destruct (dget r (cg_roots g)) as [x|].
  - destruct S as [S1 [S2 [S3 _]]]. rewrite S1 in R. injection R as ->. auto.
  - destruct S as [sel [P E]]. rewrite E in R. destruct sel as [|a [|b sel]]; try discriminate. injection R as ->.
    assert (I : In (ci_parts it) (map fst (filter (fun pt => str_eqb (normed_root r) (normed_root (froot pt))) found))).
    { apply (Permutation_in _ P). now left. }
    apply in_map_iff in I. destruct I as [pt [E1 I]]. apply filter_In in I. destruct I as [I1 I2]. apply str_eqb_eq in I2. rewrite <- E1.
    split; [now apply in_map|]. right. now apply normed_root_iff.
Qed.
Print Assumptions C61_sound.
(** an ambiguous request is refused *)
Theorem C61_ambiguous : forall found g r p1 p2, NoDup (map fst found) -> Forall place_ok found -> make_unique (add_all found) = Ok g ->
  dget r (cg_roots g) = None -> In p1 found -> In p2 found -> fst p1 <> fst p2 ->
  Permutation (words (simplified r)) (words (simplified (last (fst p1) []))) ->
  Permutation (words (simplified r)) (words (simplified (last (fst p2) []))) -> resolve_root g r = Err ValueError.
Proof.
  intros found g r p1 p2 ND F H N I1 I2 NE P1 P2. pose proof (resolve_spec found g r ND F H) as S. rewrite N in S.
  destruct S as [sel [P E]]. rewrite E. apply normed_root_iff in P1, P2.
  assert (J : forall p, In p found -> normed_root r = normed_root (last (fst p) []) -> In (fst p) (map ci_parts sel)).
  { intros p I Ep. apply (Permutation_in _ (Permutation_sym P)). apply in_map. apply filter_In. split; [exact I|]. apply str_eqb_eq. exact Ep. }
  pose proof (J p1 I1 P1) as J1. pose proof (J p2 I2 P2) as J2. destruct sel as [|a [|b sel]]; [destruct J1| |reflexivity].
  cbn in J1, J2. destruct J1 as [J1|[]]. destruct J2 as [J2|[]]. congruence.
Qed.
Print Assumptions C61_ambiguous.
Example C61_example : exists g, make_unique (add_all ex_found) = Ok g /\
  (exists it, resolve_root g (L "r_other") = Ok (Some it) /\ ci_parts it = map L ["g"; "a"; "other_r"]%string) /\
  resolve_root g (L "base_r") = Err ValueError /\ resolve_root g (L "zzz") = Ok None.
Proof. eexists. split; [vm_compute; reflexivity|]. split; [eexists; split; vm_compute; reflexivity|]. split; vm_compute; reflexivity. Qed.
