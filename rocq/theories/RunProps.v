(** C34, C36, C58: job filters and batch submission. *)
From Verif Require Import PyStr PyStrFacts PyBase PyNum RunModel RunSpec RunProofs.
From Coq Require Import QArith.
Local Open Scope nat_scope.

(** ** C34 *)
(** All runs are submitted once, in order, in groups of runsPerJob ([md5] must accept texts, or runsPerJob = 1). *)
Theorem C34_groups_partial : forall md5 r k inis, combining r = false -> 1 <= k -> r_runsPerJob r = Z.of_nat k ->
  k = 1 \/ (forall s, exists h, md5 s = Ok h) ->
  exists calls, submit_all md5 r inis = (calls, None) /\
    groups_of k (map (replace_str dot_ini []) inis) (map c_files calls).
Proof.
  intros md5 r k inis H1 H2 H3 H4. destruct (submit_all_spec md5 r k inis H1 H2 H3 H4) as (calls & E & G & _). eauto.
Qed.
(** The files submitted are those selected (the job system appends ".ini" again) if ".ini" occurs only at their ends. *)
Theorem C34_files_partial : forall x, contains (L ".ini") x = false -> replace_str dot_ini [] (x ++ L ".ini") ++ L ".ini" = x ++ L ".ini".
Proof. intros x H. f_equal. now apply replace_dot_ini. Qed.
Theorem C34_files_refuted : exists x, replace_str dot_ini [] (x ++ L ".ini") ++ L ".ini" <> x ++ L ".ini".
Proof. exists (L "/grid.init/iniFiles/base_A"). vm_compute. discriminate. Qed.
(** One job for all runs. *)
Theorem C34_combined : forall md5 r c n inis, r_combine r = Some (c :: n) -> (r_runsPerJob r <= 1)%Z ->
  submit_all md5 r inis =
  (match inis with [] => [] | _ => [mkCall (c :: n) (map (replace_str dot_ini []) inis) true] end, None).
Proof.
  intros md5 r c n inis Hc Hr. unfold submit_all. rewrite combine_fold by (try reflexivity; unfold combining; now rewrite Hc).
  cbn [s_exn s_pending s_calls app]. destruct inis as [|i inis]; [reflexivity|]. cbn [map].
  assert (E : (1 <? r_runsPerJob r)%Z = false) by (apply Z.ltb_ge; lia). now rewrite E, Hc.
Qed.
(** Exactly the selected jobs of the grid, in grid order, each once. *)
Theorem C34_selected_once : forall md5 fnm r o queued ans path b k,
  combining r = false -> 1 <= k -> r_runsPerJob r = Z.of_nat k -> k = 1 \/ (forall s, exists h, md5 s = Ok h) -> well_marked b ->
  exists calls sel, runbatch md5 fnm r o queued ans path b = (calls, None) /\
    groups_of k (map (fun j => replace_str dot_ini [] (iniFile path r j)) sel) (map c_files calls) /\
    (forall j, In j sel <-> In j (filteredBatchItems fnm (adjust r o) (fun j => a_exists (ans j)) b (r_subitems r) false) /\
                            submits r queued j (ans j) = true) /\
    (exists keep, sel = filter keep (items (r_subitems r) true b)) /\
    (NoDup (items (r_subitems r) true b) -> NoDup sel).
Proof.
  intros md5 fnm r o queued ans path b k H1 H2 H3 H4 W. unfold runbatch.
  set (fl := filteredBatchItems _ _ _ _ _ _).
  destruct (submit_all_spec md5 r k (map (iniFile path r) (filter (fun j => submits r queued j (ans j)) fl)) H1 H2 H3 H4) as (calls & E & G & _).
  exists calls, (filter (fun j => submits r queued j (ans j)) fl). split; [exact E|]. split; [rewrite map_map in G; exact G|]. split.
  - intros j. now rewrite filter_In.
  - unfold fl. rewrite filtered_sub by exact W. rewrite filter_filter_and. split; [eauto|]. intros N. now apply NoDup_filter.
Qed.
(** Python 3: hashlib.md5 of a text raises TypeError, so grouping runs with long names submits nothing. *)
Theorem C34_long_names_refuted : exists r inis, r_runsPerJob r = 2%Z /\ combining r = false /\
  submit_all (fun _ => Err TypeError) r inis = ([], Some TypeError) /\ length inis = 2.
Proof.
  exists (mkR false false false false false false false false None 0 0 None false false false None 2),
    [L "/g/iniFiles/base_mnu_plikHM_TTTEEE_lowl_lowE_lensing.ini"; L "/g/iniFiles/base_nnu_plikHM_TTTEEE_lowl_lowE_lensing.ini"].
  repeat split.
Qed.
(** Two jobs, or the same job run differently, never share an ini file. *)
Theorem C34_files_distinct : forall path r r' j j', iniFile path r j = iniFile path r' j' ->
  t_imp j = t_imp j' /\ t_name j ++ variant r = t_name j' ++ variant r'.
Proof.
  intros path r r' j j' H. unfold iniFile in H. apply app_inv_head in H.
  assert (E : t_imp j = t_imp j') by (destruct (t_imp j), (t_imp j'); try reflexivity; discriminate). split; [exact E|].
  rewrite E in H. apply app_inv_head in H. apply app_inv_head in H. rewrite !app_assoc in H. now apply app_inv_tail in H.
Qed.
(** The name of a group of runs is made of the names of its ini files as long as it is shorter than 70 characters
    (no digest needed); otherwise it is cut to at most 88. *)
Theorem C34_job_name : forall md5 files s, s = join (L "-") (map basename files) ->
  (length s < 70 \/ length files <= 1 -> jobName md5 files = Ok s) /\
  (forall n, 70 <= length s -> 2 <= length files -> jobName md5 files = Ok n -> length n <= 88 /\ exists f h, In f files /\ n = takeS 70 (basename f) ++ L "__" ++ h).
Proof.
  intros md5 files s ->. unfold jobName. split.
  - intros H. destruct ((length files <? 2) || (length _ <? 70)) eqn:E; [reflexivity|]. apply orb_false_iff in E. rewrite !Nat.ltb_ge in E. lia.
  - intros n H1 H2. replace (length files <? 2) with false by (symmetry; apply Nat.ltb_ge; lia).
    replace (length (join (L "-") (map basename files)) <? 70) with false by (symmetry; apply Nat.ltb_ge; lia). cbn [orb].
    destruct files as [|f files]; [cbn in H2; lia|]. destruct (md5 _) as [h|]; cbn [bindR]; [|discriminate]. intros H.
    assert (E : n = takeS 70 (basename f) ++ L "__" ++ takeS 16 h) by congruence. clear H. subst n. split.
    + rewrite app_length. change (L "__" ++ takeS 16 h) with ("_"%char :: "_"%char :: takeS 16 h). cbn [length].
      unfold takeS. rewrite !firstn_length. lia.
    + exists f, (takeS 16 h). split; [now left|reflexivity].
Qed.
Example C34_job_name_ex : jobName (fun _ => Err TypeError) [L "/g/a"; L "/g/b"] = Ok (L "a-b").
Proof. reflexivity. Qed.
Example C34_ex : let r := mkR false false false false false false false false None 0 0 None false false false None 2 in
  submit_all (fun s => Ok s) r [L "/g/a.ini"; L "/g/b.ini"; L "/g/c.ini"] =
  ([mkCall (L "a-b") [L "/g/a"; L "/g/b"] false; mkCall (L "c") [L "/g/c"] false], None).
Proof. reflexivity. Qed.

(** ** C36 *)
(** A job is listed exactly if it is in the grid and satisfies all options, unless two options of which one is
    ignored are combined. *)
Theorem C36_exactly_partial : forall fnm o ex b sub ce j, well_marked b -> compatible o ->
  (In j (filteredBatchItems fnm o ex b sub ce) <->
   In j (items sub true b) /\ satisfies fnm o j /\ (ce = true -> ex j = true)).
Proof. intros. now apply filtered_iff. Qed.
(** Order and multiplicity are those of the grid. *)
Theorem C36_order : forall fnm o ex b sub ce, well_marked b ->
  exists keep, filteredBatchItems fnm o ex b sub ce = filter keep (items sub true b).
Proof. intros. eexists. now apply filtered_sub. Qed.
Theorem C36_no_duplicates : forall fnm o ex b sub ce, well_marked b -> NoDup (items sub true b) ->
  NoDup (filteredBatchItems fnm o ex b sub ce).
Proof. intros. rewrite filtered_sub by assumption. now apply NoDup_filter. Qed.
(** Without options all jobs are listed. *)
Definition no_options : opts := mkO false None None None None None None None None None None None None.
Theorem C36_no_options : forall fnm ex b, filteredBatchItems fnm no_options ex b true false = items true true b.
Proof.
  intros. unfold filteredBatchItems. cbn [o_noimportance no_options negb]. induction (items true true b) as [|j l IH]; [reflexivity|].
  cbn [filter]. rewrite IH. unfold jobItemWanted, wantImportance, paramsMatch, dataMatches, groupMatches, nameMatches, no_skipped_param. cbn.
  destruct (t_imp j); reflexivity.
Qed.
(** --datatag overrides --skip_data: adding an option adds a job that was excluded. *)
Theorem C36_datatag_refuted : exists o o' j b fnm, well_marked b /\
  o' = mkO (o_noimportance o) (o_importance o) (o_importancetag o) (o_name o) (o_param o) (o_paramtag o) (o_data o) (Some [t_datatag j])
           (o_musthave o) (o_skip_data o) (o_skip_param o) (o_group o) (o_skip_group o) /\
  filteredBatchItems fnm o (fun _ => true) b true false = [] /\ filteredBatchItems fnm o' (fun _ => true) b true false = [j] /\
  ~ satisfies fnm o' j.
Proof.
  set (j := mkIt 0 (L "base_A_X") [] (L "base") [L "A"; L "X"] (L "A_X") None false [] []).
  exists (mkO false None None None None None None None None (Some [L "X"]) None None None). eexists. exists j, (Bat [] [(j, [])] []), (fun _ _ => true).
  split; [cbn; split; [repeat constructor|exact I]|]. split; [reflexivity|]. split; [reflexivity|]. split; [reflexivity|].
  intros [? ? ? ? ? ? ? ? ? S ? ? ?]. cbn in S. apply (S [L "X"] eq_refl). exists (L "X"). split; [now left|right; now left].
Qed.
(** --paramtag overrides --skip_param in the same way. *)
Theorem C36_paramtag_refuted : exists o o' j b fnm, well_marked b /\
  o' = mkO (o_noimportance o) (o_importance o) (o_importancetag o) (o_name o) (o_param o) (Some [t_paramtag j]) (o_data o) (o_datatag o)
           (o_musthave o) (o_skip_data o) (o_skip_param o) (o_group o) (o_skip_group o) /\
  filteredBatchItems fnm o (fun _ => true) b true false = [] /\ filteredBatchItems fnm o' (fun _ => true) b true false = [j].
Proof.
  set (j := mkIt 0 (L "base_mnu_A") [L "mnu"] (L "base_mnu") [L "A"] (L "A") None false [] []).
  exists (mkO false None None None None None None None None None (Some [L "mnu"]) None None). eexists. exists j, (Bat [] [(j, [])] []), (fun _ _ => true).
  split; [cbn; split; [repeat constructor|exact I]|]. repeat split; reflexivity.
Qed.
(** Adding an option never adds a job if no option is ignored. *)
Definition extends (o o' : opts) : Prop :=
  (o_noimportance o = true -> o_noimportance o' = true) /\
  forall f, In f [o_importance; o_importancetag; o_name; o_param; o_paramtag; o_data; o_datatag; o_musthave; o_skip_data; o_skip_param; o_group; o_skip_group] ->
    f o = None \/ f o' = f o.
Theorem C36_monotone_partial : forall fnm o o' ex b sub ce, well_marked b -> compatible o -> compatible o' -> extends o o' ->
  incl (filteredBatchItems fnm o' ex b sub ce) (filteredBatchItems fnm o ex b sub ce).
Proof.
  intros fnm o o' ex b sub ce W C C' [X1 X2] j. rewrite !filtered_iff by assumption. intros (Hi & [] & Hc). split; [exact Hi|]. split; [|exact Hc].
  assert (M : forall f P, In f [o_importance; o_importancetag; o_name; o_param; o_paramtag; o_data; o_datatag; o_musthave; o_skip_data; o_skip_param; o_group; o_skip_group] ->
     given (f o') P -> given (f o) P).
  { intros f P Hf G l E. destruct (X2 f Hf) as [N|N]; [congruence|]. apply G. congruence. }
  constructor; [auto|..]; (eapply M; [cbn; tauto|eassumption]).
Qed.
Example C36_ex : let main := mkIt 0 (L "base_A") [] (L "base") [L "A"] (L "A") (Some (L "g")) false [] [] in
  let imp := mkIt 1 (L "base_A_post_B") [] (L "base") [L "A"; L "B"] (L "A_post_B") (Some (L "g")) true (L "B") [L "B"] in
  let b := Bat [] [(main, [imp])] [] in
  well_marked b /\ compatible (mkO false (Some []) None None None None (Some [L "B"; L "C"]) None None None None None None) /\
  filteredBatchItems (fun _ _ => false) (mkO false (Some []) None None None None (Some [L "B"; L "C"]) None None None None None None) (fun _ => true) b true false = [imp].
Proof. cbv zeta. repeat split; auto; try (now left); repeat constructor. Qed.

(** ** C58 *)
Theorem C58_submitted_iff : forall r queued j a, r_filters r = false ->
  (submits r queued j a = true <-> to_submit r j a /\ (r_not_queued r = true -> notQueued r queued (t_name j) = true)).
Proof.
  intros r queued j a Hf. unfold submits, cond_exist, cond_state. rewrite Hf. cbn [negb orb]. rewrite andb_true_r.
  rewrite !andb_true_iff, !orb_true_iff, !negb_true_iff. split.
  - intros ((((((E1 & E2) & E3) & E4) & ((S1 & S2) & S3) & S4 & S5) & F) & Q). split; [|intros H; destruct Q; congruence].
    constructor.
    + intros H. destruct (isMinimize r); cbn [negb andb orb] in E1; rewrite ?orb_false_r, ?andb_true_iff, ?negb_true_iff in E1; destruct (a_minExists a), (a_exists a); cbn in *; intuition congruence.
    + intros H. intuition congruence.
    + intros H n En. rewrite En in E3. rewrite negb_true_iff in E3. intuition congruence.
    + intuition congruence.
    + intros H1 H2. destruct S1 as [[S1|S1]|S1]; [apply Qeq_bool_iff in S1; contradiction|congruence|exact S1].
    + intros H1. destruct S2 as [S2|S2]; [apply Qeq_bool_iff in S2; contradiction|exact S2].
    + intros q Eq. rewrite Eq in S3. now apply andb_true_iff in S3.
    + intros H1 H2. destruct S4 as [[S4|S4]|S4]; [congruence|congruence|]. rewrite !andb_true_iff, !orb_true_iff, !negb_true_iff in S4.
      destruct S4 as ((P & C) & T). split; [|split; intros; intuition congruence].
      destruct (r_importance_ready r); cbn in P; rewrite ?Hf in P; cbn in P; intuition congruence.
    + intros H. intuition congruence.
    + intros H. rewrite H in F. exact F.
  - intros ([E1 E2 E3 E4 S1 S2 S3 S4 S5 F] & Q).
    assert (D : forall x : bool, x = false \/ x = true) by (intros []; auto).
    split; [split; [split; [split; [split; [split|]|]|split; [split; [split|]|split]]|]|].
    + destruct (r_notexist r); [|tauto]. specialize (E1 eq_refl). destruct (isMinimize r); rewrite E1; cbn; tauto.
    + destruct (r_minimize_failed r); auto.
    + destruct (isMinimize r); [auto|]. destruct (r_notall r) as [n|]; [|auto]. right. rewrite negb_true_iff. now apply E3.
    + destruct (isMinimize r); auto.
    + destruct (Qeq_bool (r_parent_converge r) 0) eqn:E; [auto|]. assert (N : ~ (r_parent_converge r == 0)%Q) by (intros C; apply Qeq_bool_iff in C; congruence).
      destruct (t_imp j); [right; now apply S1|auto].
    + destruct (Qeq_bool (r_converge r) 0) eqn:E; [auto|]. assert (N : ~ (r_converge r == 0)%Q) by (intros C; apply Qeq_bool_iff in C; congruence). auto.
    + destruct (r_checkpoint_run r) as [q|]; [|reflexivity]. apply andb_true_iff. now apply S3.
    + destruct (t_imp j) eqn:Ei; [|auto]. destruct (isMinimize r); [auto|]. right. destruct (S4 eq_refl eq_refl) as (P & C & T).
      rewrite !andb_true_iff. split; [split|].
      * destruct (r_importance_ready r); rewrite P; reflexivity.
      * destruct (r_importance_changed r); cbn; auto.
      * destruct (r_parent_stopped r); cbn; auto.
    + destruct (r_chain_exists r); auto.
    + destruct (t_imp j); cbn; auto.
    + destruct (r_not_queued r); auto.
Qed.
(** With --filters nothing is submitted; filters run only for importance filters whose parent chain exists. *)
Theorem C58_filters : forall r queued j a, r_filters r = true -> submits r queued j a = false /\
  (runs_filter r j a = true -> t_imp j = true /\ a_filter a = true /\ p_exists a = true).
Proof.
  intros r queued j a H. unfold submits, runs_filter. rewrite H. cbn [negb]. rewrite andb_false_r. cbn [andb]. split; [reflexivity|].
  rewrite !andb_true_iff. tauto.
Qed.
(** --not_queued: no run whose ini file is queued is submitted again ... *)
Theorem C58_not_queued_partial : forall r queued j a, r_not_queued r = true -> r_importance_minimize r = false \/ r_minimize r = true ->
  submits r queued j a = true -> ~ In (t_name j ++ variant r) queued.
Proof.
  intros r queued j a Hq Hm H. unfold submits in H. rewrite Hq in H. cbn [negb orb] in H. apply andb_true_iff in H. destruct H as [_ H].
  unfold notQueued in H. apply negb_true_iff in H. unfold variant. destruct (r_minimize r); cbn [orb].
  - now apply mem_str_false.
  - destruct Hm as [-> | ]; [|discriminate]. rewrite app_nil_r. now apply mem_str_false.
Qed.
(** ... except importance minimisations, which are looked up under another name. *)
Theorem C58_not_queued_refuted : exists r queued j a, r_not_queued r = true /\ submits r queued j a = true /\ In (t_name j ++ variant r) queued.
Proof.
  exists (mkR false true false false false true false false None 0 0 None false false false None 1), [L "base_A_post_B_minimize"],
    (mkIt 1 (L "base_A_post_B") [] (L "base") [L "A"; L "B"] (L "A_post_B") None true (L "B") [L "B"]),
    (mkA false false false (fun _ => false) true (fun _ _ => false) (fun _ => false) false false (fun _ => true) true true true false).
  split; [reflexivity|]. split; [reflexivity|]. now left.
Qed.
(** Which kinds of jobs are considered. *)
Theorem C58_kinds : forall fnm r o ex b sub ce j, well_marked b -> In j (filteredBatchItems fnm (adjust r o) ex b sub ce) ->
  (r_minimize r = true -> t_imp j = false) /\
  (o_importance o = None -> r_importance_minimize r = false -> r_importance_changed r = false -> r_importance_ready r = false ->
     r_filters r = false -> t_imp j = false) /\
  ((r_importance_minimize r = true \/ (o_importance o <> None)) -> t_imp j = true).
Proof.
  intros fnm r o ex b sub ce j W H. unfold filteredBatchItems in H. apply filter_In in H. destruct H as [Hi Hc].
  assert (N : o_noimportance (adjust r o) = true -> t_imp j = false).
  { intros E. rewrite E in Hi. now apply (items_unmarked sub b W). }
  assert (Wt : jobItemWanted (adjust r o) j = true) by (rewrite !andb_true_iff in Hc; tauto). apply wanted_iff in Wt. destruct Wt as [Wt _].
  unfold adjust in *. split; [|split].
  - intros E. apply N. rewrite E, orb_true_r. destruct (r_importance_minimize r), (o_importance o), (r_importance_changed r || r_importance_ready r), (r_filters r); reflexivity.
  - intros E1 E2 E3 E4 E5. apply N. rewrite E1, E2, E3, E4, E5. reflexivity.
  - intros [E|E].
    + rewrite E in Wt. destruct (o_importance o) as [l|]; cbn in Wt; eapply Wt; reflexivity.
    + destruct (o_importance o) as [l|]; [|congruence]. destruct (r_importance_minimize r); cbn in Wt; eapply Wt; reflexivity.
Qed.
Example C58_ex : let r := mkR false false false true false false true false None 0 0 None false false false None 1 in
  let j := mkIt 1 (L "base_A_post_B") [] (L "base") [L "A"; L "B"] (L "A_post_B") None true (L "B") [L "B"] in
  let a := mkA false false false (fun _ => false) true (fun _ _ => false) (fun _ => false) false true (fun _ => true) true true true false in
  submits r [] j a = true /\ to_submit r j a.
Proof.
  cbv zeta. split; [reflexivity|]. apply (C58_submitted_iff _ []); reflexivity.
Qed.

Print Assumptions C34_groups_partial.
Print Assumptions C34_files_partial.
Print Assumptions C34_files_refuted.
Print Assumptions C34_combined.
Print Assumptions C34_files_distinct.
Print Assumptions C34_job_name.
Print Assumptions C34_selected_once.
Print Assumptions C34_long_names_refuted.
Print Assumptions C36_exactly_partial.
Print Assumptions C36_order.
Print Assumptions C36_no_duplicates.
Print Assumptions C36_no_options.
Print Assumptions C36_datatag_refuted.
Print Assumptions C36_paramtag_refuted.
Print Assumptions C36_monotone_partial.
Print Assumptions C58_submitted_iff.
Print Assumptions C58_filters.
Print Assumptions C58_not_queued_partial.
Print Assumptions C58_not_queued_refuted.
Print Assumptions C58_kinds.
