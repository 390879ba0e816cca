(** C25-C28 and C52: job index, saving it, job resources and settings, deletion of jobs. *)
From Verif Require Import PyStr PyStrFacts PyBase JobModel JobSpec JobProofs JobProofs2.
From Coq Require Import ZArith QArith Lia.
Local Open Scope nat_scope.

(** ** C25 *)
(** Any history in which no submitted job reuses the id, name or a root of a listed job. *)
Theorem C25_views_agree : forall ops, all_fresh ops ->
  exists x, run ops = Ok x /\ agrees x (live_after ops).
Proof.
  intros ops H. destruct (run_spec ops H) as [E D]. eexists. split; [exact E|]. now apply agrees_index_of.
Qed.
(** In particular deleting an id removes its own entries and nothing else. *)
Theorem C25_delete_own_entries : forall ops id, all_fresh ops ->
  exists x x', run ops = Ok x /\ delId x id = Ok x' /\
  (forall i, dget i (settings x') = if str_eqb i id then None else dget i (settings x)) /\
  (forall n, dget n (byName x') = match dget n (byName x) with Some i => if str_eqb i id then None else Some i | None => None end) /\
  (forall r, dget r (byRoot x') = match dget r (byRoot x) with Some i => if str_eqb i id then None else Some i | None => None end).
Proof.
  intros ops id H. destruct (run_spec ops H) as [E D]. destruct (del_index_of _ id D) as [E' D'].
  pose proof (agrees_index_of _ D) as (A1 & A2 & A3 & _). pose proof (agrees_index_of _ D') as (B1 & B2 & B3 & _).
  set (live := live_after ops) in *. set (live' := filter _ live) in *.
  assert (Hl : forall j, In j live' <-> In j live /\ jid j <> id).
  { intros j. unfold live'. rewrite filter_In, negb_true_iff, str_eqb_neq. reflexivity. }
  eexists _, _. split; [exact E|]. split; [exact E'|].
  assert (Opt : forall (V : Type) (a b : option V), (forall v, a = Some v <-> b = Some v) -> a = b).
  { intros V a b G. destruct a as [v|]; [symmetry; now apply G|]. destruct b as [v|]; [|auto]. now apply G. }
  split; [|split].
  - intros i. apply Opt. intros j. rewrite B1, Hl. destruct (str_eqb_spec i id) as [->|N].
    + split; [|discriminate]. intros [[_ C] C2]. contradiction.
    + rewrite A1. split; [tauto|]. intros [C1 C2]. repeat split; auto. congruence.
  - intros n. apply Opt. intros i. rewrite B2.
    destruct (dget n (byName (index_of live))) as [i0|] eqn:E0.
    + apply A2 in E0. destruct E0 as (j0 & Hj0 & En & Ei). destruct (str_eqb_spec i0 id) as [->|N].
      * split; [|discriminate]. intros (j & Hj & Ej & Eij). apply Hl in Hj. destruct Hj as [Hj Nj].
        assert (C1 : dget n (byName (index_of live)) = Some i) by (apply A2; eauto).
        assert (C2 : dget n (byName (index_of live)) = Some id) by (apply A2; eauto). congruence.
      * split.
        -- intros (j & Hj & Ej & Eij). apply Hl in Hj. destruct Hj as [Hj Nj].
           assert (C1 : dget n (byName (index_of live)) = Some i) by (apply A2; eauto).
           assert (C2 : dget n (byName (index_of live)) = Some i0) by (apply A2; eauto). congruence.
        -- intros C. injection C as <-. exists j0. rewrite Hl. repeat split; auto. congruence.
    + split; [|discriminate]. intros (j & Hj & Ej & Eij). apply Hl in Hj. destruct Hj as [Hj Nj].
      assert (C1 : dget n (byName (index_of live)) = Some i) by (apply A2; eauto). congruence.
  - intros n. apply Opt. intros i. rewrite B3.
    destruct (dget n (byRoot (index_of live))) as [i0|] eqn:E0.
    + apply A3 in E0. destruct E0 as (j0 & Hj0 & En & Ei). destruct (str_eqb_spec i0 id) as [->|N].
      * split; [|discriminate]. intros (j & Hj & Ej & Eij). apply Hl in Hj. destruct Hj as [Hj Nj].
        assert (C1 : dget n (byRoot (index_of live)) = Some i) by (apply A3; eauto).
        assert (C2 : dget n (byRoot (index_of live)) = Some id) by (apply A3; eauto). congruence.
      * split.
        -- intros (j & Hj & Ej & Eij). apply Hl in Hj. destruct Hj as [Hj Nj].
           assert (C1 : dget n (byRoot (index_of live)) = Some i) by (apply A3; eauto).
           assert (C2 : dget n (byRoot (index_of live)) = Some i0) by (apply A3; eauto). congruence.
        -- intros C. injection C as <-. exists j0. rewrite Hl. repeat split; auto. congruence.
    + split; [|discriminate]. intros (j & Hj & Ej & Eij). apply Hl in Hj. destruct Hj as [Hj Nj].
      assert (C1 : dget n (byRoot (index_of live)) = Some i) by (apply A3; eauto). congruence.
Qed.
(** Submissions alone, names reused or not: names and roots lead to the latest job. *)
Theorem C25_latest_submission : forall js,
  let x := fold_left addJob js empty_index in
  (forall n, dget n (byName x) = option_map jid (find (fun j => str_eqb n (jname j)) (rev js))) /\
  (forall r, dget r (byRoot x) = option_map jid (find (fun j => mem_str r (jnames j)) (rev js))).
Proof.
  intros js x. destruct (adds_latest js empty_index) as [H1 H2]. split.
  - intros n. unfold x. rewrite H1. now destruct (find _ _).
  - intros r. unfold x. rewrite H2. now destruct (find _ _).
Qed.
(** Resubmitting a run while its old entry is still listed breaks the property: deleting the old id
    removes the entries of the new job, and deleting the new id then raises KeyError. *)
Theorem C25_resubmission_refuted : exists j1 j2 x x1,
  jid j1 <> jid j2 /\ jname j1 = jname j2 /\ jnames j1 = jnames j2 /\
  run [Add j1; Add j2] = Ok x /\ delId x (jid j1) = Ok x1 /\
  dget (jid j2) (settings x1) = Some j2 /\ dget (jname j2) (byName x1) = None /\
  (forall r, In r (jnames j2) -> dget r (byRoot x1) = None) /\
  delId x1 (jid j2) = Err KeyError.
Proof.
  exists (mkJob (L "1") (L "run") [L "base"]), (mkJob (L "2") (L "run") [L "base"]). eexists _, _.
  split; [discriminate|]. split; [reflexivity|]. split; [reflexivity|]. split; [vm_compute; reflexivity|].
  split; [vm_compute; reflexivity|]. split; [vm_compute; reflexivity|]. split; [vm_compute; reflexivity|].
  split; [|vm_compute; reflexivity]. intros r [<-|[]]. vm_compute. reflexivity.
Qed.
Example C25_ex : let j1 := mkJob (L "1") (L "a") [L "r1"; L "r2"] in let j2 := mkJob (L "2") (L "b") [L "r3"] in
  let ops := [Add j1; Add j2; Del (L "1"); Add (mkJob (L "3") (L "a") [L "r1"])] in
  all_fresh ops /\ live_after ops = [j2; mkJob (L "3") (L "a") [L "r1"]].
Proof.
  cbv zeta. split; [|reflexivity].
  intros pre j post E.
  assert (H : length pre <= 3).
  { apply (f_equal (@length op)) in E. rewrite app_length in E. cbn in E. lia. }
  assert (ND1 : forall a : str, NoDup [a]) by (intros; constructor; [intros []|constructor]).
  assert (ND2 : NoDup [L "r1"; L "r2"]) by (constructor; [intros [C|[]]; discriminate|apply ND1]).
  destruct pre as [|a1 [|a2 [|a3 [|a4 pre]]]]; cbn in H; try lia; cbn in E; injection E; intros; subst;
    try discriminate; unfold fresh; cbn [live_after fold_left live_step app map flat_map jid jname jnames filter].
  - split; [intros []|]. split; [intros []|]. split; [exact ND2|]. intros r _ [].
  - split; [intros [C|[]]; discriminate|]. split; [intros [C|[]]; discriminate|]. split; [apply ND1|].
    intros r [<-|[]] [C|[C|[]]]; discriminate.
  - change (filter _ _) with [mkJob (L "2") (L "b") [L "r3"]]. cbn [map flat_map jid jname jnames app].
    split; [intros [C|[]]; discriminate|]. split; [intros [C|[]]; discriminate|]. split; [apply ND1|].
    intros r [<-|[]] [C|[]]; discriminate.
Qed.

(** ** C26 *)
(** At every crash point the old index or the new one is loaded, except between the removal of the old
    file and the renaming of the new one; then the complete new index is in the temporary file. *)
Theorem C26_crash_partial : forall x k d s, In s (save_states x k d) ->
  loadJobIndex s = loadJobIndex d \/ loadJobIndex s = Ok x \/
  (main s = None /\ main d <> None /\ tmp s = Some (Whole x)).
Proof.
  intros x k d s H. destruct (save_cases x k d s H) as [E|[(E1 & E2 & E3)|[E1 E2]]]; unfold loadJobIndex.
  - rewrite E. auto.
  - auto.
  - rewrite E1. auto.
Qed.
(** The first save is safe, and a save that runs to its end leaves the new index and no temporary file. *)
Theorem C26_first_save : forall x k d s, main d = None -> In s (save_states x k d) ->
  loadJobIndex s = loadJobIndex d \/ loadJobIndex s = Ok x.
Proof.
  intros x k d s Hd H. destruct (C26_crash_partial x k d s H) as [E|[E|(E1 & E2 & E3)]]; auto. contradiction.
Qed.
Theorem C26_completed_save : forall x k d d0, last (save_states x k d) d0 = mkDisk (Some (Whole x)) None.
Proof.
  intros. unfold save_states. rewrite app_comm_cons, !app_assoc, last_last. reflexivity.
Qed.
(** In the gap every listed job is forgotten: an empty index is loaded without an error. *)
Theorem C26_gap_refuted : forall old new k, old <> empty_index -> exists s,
  In s (save_states new k (mkDisk (Some (Whole old)) None)) /\ loadJobIndex s = Ok empty_index.
Proof.
  intros old new k H. exists (mkDisk None (Some (Whole new))). split; [|reflexivity].
  unfold save_states. cbn [In]. right. apply in_or_app. right. cbn. auto.
Qed.
Example C26_ex : length (save_states empty_index 2 (mkDisk (Some (Whole empty_index)) None)) = 7.
Proof. reflexivity. Qed.

(** ** C27 *)
Theorem C27_accepted_iff_even_split : forall r, (0 < chainsPerNode r)%Z -> (0 < runsPerJob r)%Z ->
  (forall omp, check_settings true r = Ok omp <-> coresPerNode r = (omp * (chainsPerNode r * runsPerJob r))%Z) /\
  ((forall omp, coresPerNode r <> (omp * (chainsPerNode r * runsPerJob r))%Z) -> exists e, check_settings true r = Err e).
Proof.
  intros r H1 H2. assert (Hd : (chainsPerNode r * runsPerJob r <> 0)%Z) by lia. split.
  - now apply check_settings_ok.
  - intros H. eexists. now apply check_settings_err.
Qed.
(** Script values, when no more files are submitted than runs per job (as runbatch does). *)
Theorem C27_script_values : forall r omp nfiles sequential,
  (0 < coresPerNode r)%Z -> (0 < chainsPerNode r)%Z -> (0 < nodes r)%Z -> (0 < runsPerJob r)%Z ->
  check_settings true r = Ok omp -> (0 < nfiles)%Z -> (sequential = true \/ nfiles <= runsPerJob r)%Z ->
  exists v, submit_vals true r nfiles sequential = Ok v /\
  v_numruns v = (if sequential then 1 else nfiles)%Z /\
  (omp <= v_omp v)%Z /\ (1 <= v_omp v)%Z /\
  v_nummpi v = (v_numnodes v * v_chainspernode v)%Z /\
  v_numtasks v = (v_nummpi v * v_numruns v)%Z /\
  v_numtasks v = (v_numnodes v * v_mpipernode v)%Z /\
  v_ppn v = (v_mpipernode v * v_omp v)%Z /\
  v_numslots v = (v_numtasks v * v_omp v)%Z /\
  (v_ppn v <= coresPerNode r)%Z /\
  (coresPerNode r - v_ppn v < v_mpipernode v)%Z.
Proof.
  intros r omp nfiles sequential Hc Hch Hn Hr Hok Hf Hs. pose proof Hok as Hok'.
  apply check_settings_ok in Hok; [|lia]. unfold submit_vals. rewrite Hok'. cbn [bindR]. cbv zeta.
  set (runs := if sequential then 1%Z else nfiles).
  assert (Hruns : (0 < runs <= runsPerJob r)%Z) by (unfold runs; destruct sequential; destruct Hs; try discriminate; lia).
  set (d := (chainsPerNode r * runs)%Z). assert (Hd : (0 < d)%Z) by (unfold d; lia).
  destruct (Z.eqb_spec d 0); [lia|]. eexists. split; [reflexivity|]. cbn.
  pose proof (Z.div_mod (coresPerNode r) d ltac:(lia)) as Hdm. pose proof (Z.mod_pos_bound (coresPerNode r) d Hd) as Hm.
  set (o := (coresPerNode r / d)%Z) in *.
  assert (Hdle : (d <= chainsPerNode r * runsPerJob r)%Z) by (unfold d; nia).
  assert (Homp : (0 < omp)%Z) by nia.
  assert (Ho : (omp <= o)%Z).
  { unfold o. apply Z.div_le_lower_bound; [lia|]. rewrite Hok. nia. }
  repeat split; try (unfold d in *; nia); try lia.
Qed.
(** The built-in defaults are always accepted. *)
Theorem C27_defaults_accepted : forall cores, (0 < cores)%Z ->
  let r := mkRes cores (perNode cores) (default_nodes cores) 1 in
  check_settings true r = Ok (cores / perNode cores)%Z /\ (0 < nodes r)%Z /\ (3 <= nodes r * chainsPerNode r)%Z.
Proof.
  intros cores H r. destruct (perNode_divides cores H) as [Hp E]. split; [|split].
  - apply check_settings_ok; cbn [chainsPerNode runsPerJob coresPerNode r]; [lia|]. lia.
  - cbn. unfold default_nodes. lia.
  - cbn. unfold default_nodes. set (p := perNode cores) in *.
    destruct (Z_le_gt_dec 4 p) as [L4|L4].
    + assert (1 <= Z.max 1 (4 / p))%Z by lia. nia.
    + assert (P : (p = 1 \/ p = 2 \/ p = 3)%Z) by lia. destruct P as [->|[->| ->]]; cbn; lia.
Qed.
(** More files than processors: zero threads and zero processors per node are requested. *)
Theorem C27_too_many_files_refuted : exists r v, check_settings true r = Ok 1%Z /\
  submit_vals true r 2 false = Ok v /\ v_omp v = 0%Z /\ v_ppn v = 0%Z /\ v_numtasks v = 8%Z.
Proof.
  exists (mkRes 4 4 1 1). eexists. split; [vm_compute; reflexivity|]. split; [vm_compute; reflexivity|]. repeat split.
Qed.
(** Under python 2 the division is rounded first and uneven splits are not rejected. *)
Theorem C27_python2_refuted : exists r, (coresPerNode r mod (chainsPerNode r * runsPerJob r) <> 0)%Z /\
  check_settings false r = Ok 1%Z /\ exists e, check_settings true r = Err e.
Proof. exists (mkRes 5 3 1 1). split; [discriminate|]. split; [reflexivity|]. eexists. vm_compute. reflexivity. Qed.
Example C27_ex : submit_vals true (mkRes 16 4 2 2) 1 false = Ok (mkVals 4 2 1 8 4 16 4 8 32) /\
  check_settings true (mkRes 16 4 2 2) = Ok 2%Z.
Proof. split; reflexivity. Qed.

(** ** C28 *)
(** A value in the template: the marker text, the value up to the last "##" of the line. *)
Theorem C28_template_value : forall name pre v post,
  ~ In "#"%char name -> ~ In nl v -> contains (L "##" ++ name ++ L ":") pre = false ->
  contains (L "##") (L "#" ++ this_line post) = false ->
  extractValue (pre ++ L "##" ++ name ++ L ":" ++ v ++ L "##" ++ post) name = Some (strip v).
Proof.
  intros name pre v post Hn Hv Hp Hq. unfold extractValue. fold hh.
  pose proof (search_found (name ++ L ":") v post) as G. 
  replace (pre ++ hh ++ name ++ L ":" ++ v ++ hh ++ post) with (pre ++ (hh ++ name ++ L ":") ++ v ++ hh ++ post)
    by now rewrite <- !app_assoc.
  rewrite G; auto.
  - destruct name; discriminate.
  - intros C. apply in_app_or in C. destruct C as [C|[C|[]]]; [contradiction|discriminate].
Qed.
Theorem C28_template_absent : forall name t, contains (L "##" ++ name ++ L ":") t = false -> extractValue t name = None.
Proof. intros name t H. unfold extractValue. fold hh. rewrite search_none by exact H. reflexivity. Qed.

(** the result of applying the conversion [tp] to a value *)
Definition converted A T (tp : A -> res T) (a : A) : res (option T) := match tp a with Ok t => Ok (Some t) | Err e => Err e end.
Theorem C28_priority : forall A T (of_str : str -> A) (tp : A -> res T) env key default,
  let get arg template := getDefaulted of_str tp env key arg template false default in
  (forall a template, get (Some a) template = converted A T tp a) /\
  (forall t v, extractValue t (L "DEFAULT_" ++ key) = Some v -> get None (Some t) = converted A T tp (of_str v)) /\
  (forall template, (forall t, template = Some t -> extractValue t (L "DEFAULT_" ++ key) = None) ->
     (forall v, dget (L "COSMOMC_" ++ key) env = Some v -> get None template = converted A T tp (of_str v)) /\
     (dget (L "COSMOMC_" ++ key) env = None ->
        (forall d, default = Some d -> get None template = converted A T tp d) /\
        (default = None -> get None template = Ok None))).
Proof.
  intros A T of_str tp env key default get. unfold get, getDefaulted. split; [|split].
  - reflexivity.
  - intros t v ->. reflexivity.
  - intros template H.
    assert (E : match template with Some t => option_map of_str (extractValue t (L "DEFAULT_" ++ key)) | None => None end = None).
    { destruct template as [t|]; [|reflexivity]. now rewrite (H t). }
    rewrite E. split.
    + intros v ->. reflexivity.
    + intros ->. split; [intros d ->|intros ->]; reflexivity.
Qed.
(** The extra environment name is ignored: whatever it is, the variable literally called ext_env is read. *)
Theorem C28_ext_env_refuted : forall A T (of_str : str -> A) (tp : A -> res T) key default v,
  getDefaulted of_str tp [(L "ext_env", v)] key None None true default = converted A T tp (of_str v).
Proof.
  intros. unfold getDefaulted. cbn [dget].
  destruct (str_eqb_spec (L "COSMOMC_" ++ key) (L "ext_env")) as [E|N]; [discriminate|]. reflexivity.
Qed.
Example C28_ex : extractValue (L "#!/bin/sh" ++ [nl] ++ L "##DEFAULT_nodes: 4 ##" ++ [nl] ++ L "x") (L "DEFAULT_nodes") = Some (L "4") /\
  contains (L "##" ++ L "DEFAULT_nodes" ++ L ":") (L "#!/bin/sh" ++ [nl]) = false.
Proof. split; reflexivity. Qed.

(** ** C52 *)
(** jobqueue.deleteJobs: exactly the chosen jobs leave the index, exactly the chosen jobs still queued
    are cancelled, each once. *)
Theorem C52_delete_jobs : forall toint valid qdel sl ops, all_fresh ops -> (forall id, qdel id = true) ->
  (s_minmax sl <> None \/ s_min sl <> None -> forall j, In j (live_after ops) -> exists z, id_number toint (jid j) = Ok z) ->
  exists x x' k p, run ops = Ok x /\ deleteJobs toint valid qdel true sl x = (k, Ok x') /\
    agrees x' (filter p (live_after ops)) /\
    (forall j, In j (live_after ops) -> (p j = false <-> chosen toint sl j)) /\
    NoDup k /\ (forall id, In id k <-> valid id = true /\ exists j, In j (live_after ops) /\ jid j = id /\ chosen toint sl j).
Proof.
  intros toint valid qdel sl ops Hf Hq Hn. destruct (run_spec ops Hf) as [E D].
  destruct (deleteJobs_spec toint valid qdel sl _ D Hq Hn) as (k & keep & Ek & Dk & (p & Ekeep & Hp) & Nk & Hk).
  exists (index_of (live_after ops)), (index_of keep), k, p. split; [exact E|]. split; [exact Ek|].
  split; [rewrite <- Ekeep; now apply agrees_index_of|]. auto.
Qed.
(** The script without selection options, and with --delete_id_min alone. *)
Theorem C52_script_partial : forall toint valid qdel names ops a, all_fresh ops -> (forall id, qdel id = true) ->
  (forall j, In j (live_after ops) -> exists z, id_number toint (jid j) = Ok z) ->
  a_range a = None -> a_ids a = None ->
  exists x x' k p, run ops = Ok x /\ run_calls toint valid qdel true (script_calls a names) x = (k, Ok x') /\
    agrees x' (filter p (live_after ops)) /\
    (forall j, In j (live_after ops) -> (p j = false <->
       match a_min a with
       | Some m => exists z, id_number toint (jid j) = Ok z /\ (m <= z)%Z
       | None => exists r, In r names /\ In r (jnames j)
       end)).
Proof.
  intros toint valid qdel names ops a Hf Hq Hn Ha1 Ha2. unfold script_calls. rewrite Ha1, Ha2. cbn [app].
  destruct (a_min a) as [m|].
  - destruct (C52_delete_jobs toint valid qdel (mkSel [] None None None (Some m)) ops Hf Hq (fun _ => Hn))
      as (x & x' & k & p & E & Ek & Ag & Hp & _).
    exists x, x', (k ++ []), p. split; [exact E|]. cbn [run_calls]. rewrite Ek. split; [reflexivity|]. split; [exact Ag|].
    intros j Hj. rewrite Hp by exact Hj. unfold chosen. cbn. split.
    + intros [[]|[(rs & r & C & _)|[(ns & C & _)|(z & Ez & [(u & b & C & _)|(m' & C & Hm)])]]]; try discriminate.
      injection C as <-. eauto.
    + intros (z & Ez & Hm). right. right. right. exists z. split; [exact Ez|]. right. eauto.
  - destruct (C52_delete_jobs toint valid qdel (mkSel [] (Some names) None None None) ops Hf Hq (fun _ => Hn))
      as (x & x' & k & p & E & Ek & Ag & Hp & _).
    exists x, x', (k ++ []), p. split; [exact E|]. cbn [run_calls]. rewrite Ek. split; [reflexivity|]. split; [exact Ag|].
    intros j Hj. rewrite Hp by exact Hj. unfold chosen. cbn. split.
    + intros [[]|[(rs & r & C & Hr)|[(ns & C & _)|(z & Ez & [(u & b & C & _)|(m' & C & Hm)])]]]; try discriminate.
      injection C as <-. exists r. exact Hr.
    + intros (r & Hr). right. left. exists names, r. split; [reflexivity|exact Hr].
Qed.
(** Without --confirm nothing is cancelled and the index is unchanged. *)
Theorem C52_unconfirmed : forall toint valid qdel sl x k x',
  deleteJobs toint valid qdel false sl x = (k, Ok x') -> k = [] /\ x' = x.
Proof.
  intros toint valid qdel sl x k x'. unfold deleteJobs. destruct (select_ids toint x sl); [|discriminate].
  rewrite delete_loop_unconfirmed. intros E. injection E as <- <-. auto.
Qed.
(** --delete_ids never deletes anything: the option yields integers, the index is keyed by text. *)
Theorem C52_ids_refuted : forall toint valid qdel names x ids,
  run_calls toint valid qdel true (script_calls (mkDel None None (Some ids)) names) x = ([], Ok x).
Proof.
  intros. cbn [script_calls a_range a_min a_ids app run_calls]. unfold deleteJobs, select_ids. cbn [s_roots s_names s_ids s_minmax s_min].
  assert (E : delete_loop valid qdel true (map IdInt ids) x [] = ([], Ok x)).
  { induction ids as [|z ids IH]; cbn; auto. }
  now rewrite E.
Qed.
(** --delete_id_range also deletes every job of the (filtered) grid. *)
Theorem C52_range_refuted : exists j1 j2 x x' toint, 
  run [Add j1; Add j2] = Ok x /\ id_number toint (jid j1) = Ok 5%Z /\ id_number toint (jid j2) = Ok 9%Z /\
  run_calls toint (fun _ => true) (fun _ => true) true (script_calls (mkDel (Some (1, 6)%Z) None None) [L "r1"; L "r2"]) x
    = ([jid j1; jid j2], Ok x') /\ settings x' = [].
Proof.
  exists (mkJob (L "5") (L "a") [L "r1"]), (mkJob (L "9") (L "b") [L "r2"]).
  eexists _, _, (fun s => if str_eqb s (L "5") then Some 5%Z else Some 9%Z).
  split; [vm_compute; reflexivity|]. split; [vm_compute; reflexivity|]. split; [vm_compute; reflexivity|].
  split; vm_compute; reflexivity.
Qed.
(** The number of a job id: the whole id, the part before the first dot if it is made of digits, and
    otherwise the part between the first two dots. *)
Theorem C52_id_number : forall toint a, ~ In "."%char a ->
  let num p := match toint p with Some z => Ok z | None => Err ValueError end in
  id_number toint a = num a /\
  (forall rest, a <> [] -> (forall c, In c a -> 48 <= nat_of_ascii c <= 57) -> id_number toint (a ++ L "." ++ rest) = num a) /\
  (forall b rest, a = [] \/ (exists c, In c a /\ ~ 48 <= nat_of_ascii c <= 57) -> ~ In "."%char b ->
     (rest = [] \/ exists r, rest = L "." ++ r) -> id_number toint (a ++ L "." ++ b ++ rest) = num b).
Proof.
  intros toint a Ha num. unfold id_number. split; [|split].
  - rewrite split_ch_notin by exact Ha. reflexivity.
  - intros rest Hn Hd. rewrite split_ch_app by exact Ha. pose proof (split_ch_nonempty "."%char rest) as Ne.
    destruct (split_ch "."%char rest) as [|p1 ps]; [contradiction|].
    assert (D : isdigit_str a = true).
    { destruct a as [|c a]; [contradiction|]. unfold isdigit_str. apply forallb_forall. intros x Hx. apply andb_true_iff.
      rewrite !Nat.leb_le. now apply Hd. }
    now rewrite D.
  - intros b rest Hd Hb Hr. rewrite split_ch_app by exact Ha.
    assert (D : isdigit_str a = false).
    { destruct Hd as [->|(c & Hc & Hx)]; [reflexivity|]. destruct (isdigit_str a) eqn:E; [|reflexivity]. exfalso. apply Hx.
      destruct a as [|c0 a]; [contradiction|]. unfold isdigit_str in E. rewrite forallb_forall in E. specialize (E c Hc).
      apply andb_true_iff in E. now rewrite !Nat.leb_le in E. }
    destruct Hr as [->|[r ->]].
    + rewrite app_nil_r, split_ch_notin by exact Hb. now rewrite D.
    + rewrite split_ch_app by exact Hb. now rewrite D.
Qed.
Example C52_ex : id_number (fun s => if str_eqb s (L "12") then Some 12%Z else None) (L "12.server") = Ok 12%Z /\
  id_number (fun s => if str_eqb s (L "12") then Some 12%Z else None) (L "moab.12") = Ok 12%Z.
Proof. split; reflexivity. Qed.

Example C52_ex2 : let j1 := mkJob (L "5") (L "a") [L "r1"] in let j2 := mkJob (L "9") (L "b") [L "r2"] in
  let toint s := if str_eqb s (L "5") then Some 5%Z else Some 9%Z in
  deleteJobs toint (fun _ => true) (fun _ => true) true (mkSel [] (Some [L "r2"; L "r2_minimize"]) None None None)
    (addJob (addJob empty_index j1) j2) = ([L "9"], Ok (addJob empty_index j1)).
Proof. reflexivity. Qed.

Print Assumptions C25_views_agree.
Print Assumptions C25_delete_own_entries.
Print Assumptions C25_latest_submission.
Print Assumptions C25_resubmission_refuted.
Print Assumptions C26_crash_partial.
Print Assumptions C26_first_save.
Print Assumptions C26_completed_save.
Print Assumptions C26_gap_refuted.
Print Assumptions C27_accepted_iff_even_split.
Print Assumptions C27_script_values.
Print Assumptions C27_defaults_accepted.
Print Assumptions C27_too_many_files_refuted.
Print Assumptions C27_python2_refuted.
Print Assumptions C28_template_value.
Print Assumptions C28_template_absent.
Print Assumptions C28_priority.
Print Assumptions C28_ext_env_refuted.
Print Assumptions C52_delete_jobs.
Print Assumptions C52_script_partial.
Print Assumptions C52_unconfirmed.
Print Assumptions C52_id_number.
Print Assumptions C52_ids_refuted.
Print Assumptions C52_range_refuted.
