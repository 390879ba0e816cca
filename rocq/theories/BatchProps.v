(** C29-C33: data tags, importance jobs, name resolution, job state predicates, chain names. *)
From Verif Require Import PyStr PyStrFacts PyBase PyNum BatchModel BatchSpec BatchProofs BatchProofs2.
From Coq Require Import Permutation QArith.
Local Open Scope nat_scope.

(** ** C29 *)
Theorem C29_permutation : forall a b ta tb dic, Permutation a b ->
  makeNormedDatatag (mkD a ta) dic = makeNormedDatatag (mkD b tb) dic.
Proof.
  intros a b ta tb dic P. unfold makeNormedDatatag. f_equal. apply sort_perm_eq. unfold namesReplacing. cbn [d_names].
  destruct dic as [m|]; [|exact P]. now apply Permutation_flat_map.
Qed.
Theorem C29_name_permutation : forall base p q a b ta tb dic, Permutation p q -> Permutation a b ->
  makeNormedName base p (mkD a ta) dic = makeNormedName base q (mkD b tb) dic.
Proof.
  intros base p q a b ta tb dic Pp Pa. unfold makeNormedName. rewrite (sort_perm_eq p q Pp).
  now rewrite (C29_permutation a b ta tb dic Pa).
Qed.
Theorem C29_distinct : forall a b ta tb, a <> [] -> b <> [] -> Forall plain a -> Forall plain b ->
  makeNormedDatatag (mkD a ta) None = makeNormedDatatag (mkD b tb) None -> Permutation a b.
Proof.
  intros a b ta tb Ha Hb Pa Pb E. unfold makeNormedDatatag in E. cbn in E.
  apply tag_of_inj in E; auto using sort_nonempty, sort_Forall.
  rewrite <- (sort_perm a), <- (sort_perm b), E. reflexivity.
Qed.
(** Substitutions of data names. *)
Theorem C29_substitutions : forall m names names' t, substituted m names names' ->
  makeNormedDatatag (mkD names t) (Some m) = makeNormedDatatag (new_dset names') None.
Proof.
  intros m names names' t H. unfold makeNormedDatatag, namesReplacing. cbn [d_names new_dset]. f_equal. f_equal.
  induction H as [|n l l' E H IH|n l l' E H IH|n v l l' E N H IH]; [reflexivity|..]; cbn [flat_map]; rewrite IH.
  - now rewrite E.
  - destruct E as [E|E]; now rewrite E.
  - rewrite E. destruct v; [contradiction|reflexivity].
Qed.
Example C29_substitutions_ex : let m := [(L "lensing", None); (L "plikTT", Some (L "plik"))] in
  substituted m [L "plikTT"; L "lensing"; L "BAO"] [L "plik"; L "BAO"] /\
  makeNormedDatatag (mkD [L "plikTT"; L "lensing"; L "BAO"] []) (Some m) = L "BAO_plik".
Proof.
  split; [|reflexivity]. apply su_repl; [reflexivity|discriminate|]. apply su_drop; [left; reflexivity|]. apply su_stay; [reflexivity|]. constructor.
Qed.
(** The tag written in any order, with any "_post" marks, is normalised to the same text ... *)
Theorem C29_normalized_tag : forall n0 rest m0 rest',
  plain n0 -> Forall (fun pn => tag_name (snd pn)) rest -> plain m0 -> Forall (fun pn => tag_name (snd pn)) rest' ->
  Permutation (n0 :: map snd rest) (m0 :: map snd rest') ->
  normalizeDataTag (tag_text n0 rest) = normalizeDataTag (tag_text m0 rest') /\
  normalizeDataTag (tag_text n0 rest) = makeNormedDatatag (new_dset (n0 :: map snd rest)) None.
Proof.
  intros n0 rest m0 rest' H1 H2 H3 H4 P. rewrite !normalize_tag_text by assumption.
  split; [f_equal; now apply sort_perm_eq|reflexivity].
Qed.
(** ... and normalising it again changes nothing (names that do not start with "post"). *)
Theorem C29_idempotent_partial : forall n0 rest,
  tag_name n0 -> Forall (fun pn => tag_name (snd pn)) rest ->
  normalizeDataTag (normalizeDataTag (tag_text n0 rest)) = normalizeDataTag (tag_text n0 rest).
Proof.
  intros n0 rest H0 H. rewrite (normalize_tag_text n0 rest) by (auto; apply H0).
  assert (F : Forall tag_name (sort_str (n0 :: map snd rest))).
  { apply sort_Forall. constructor; [exact H0|]. rewrite Forall_map. exact H. }
  pose proof (sort_nonempty (n0 :: map snd rest)) as Ne. pose proof (sort_idem (n0 :: map snd rest)) as I.
  destruct (sort_str (n0 :: map snd rest)) as [|m0 ms]; [exfalso; now apply Ne|].
  inversion F as [|? ? F0 Fm]; subst. rewrite <- tag_text_of at 1. rewrite normalize_tag_text.
  - now rewrite map_snd_pair, I.
  - apply F0.
  - rewrite Forall_map. cbn. exact Fm.
Qed.
(** A data set called "post...": its tag changes again on a second normalisation. *)
Theorem C29_idempotent_refuted : exists tag, normalizeDataTag (normalizeDataTag tag) <> normalizeDataTag tag.
Proof. exists (L "post_A"). vm_compute. discriminate. Qed.
Example C29_ex : plain (L "plikHM") /\ Forall (fun pn : bool * str => tag_name (snd pn)) [(false, L "TT"); (true, L "BAO"); (false, L "pos")] /\
  tag_text (L "plikHM") [(false, L "TT"); (true, L "BAO"); (false, L "pos")] = L "plikHM_TT_post_BAO_pos" /\
  normalizeDataTag (L "plikHM_TT_post_BAO_pos") = L "BAO_TT_plikHM_pos".
Proof.
  split; [|split; [|split; reflexivity]].
  - intros C. cbn in C. repeat (destruct C as [C|C]; [discriminate|]). exact C.
  - repeat constructor; intros C; cbn in C; repeat (destruct C as [C|C]; [discriminate|]); exact C.
Qed.

(** ** C30 *)
(** Before cleaning, the grid is exactly what was requested (no job skipped, one per request, in order). *)
Theorem C30_requested : forall skip s, map shape (built skip s) = requested skip s /\
  makeItems skip s = clean skip (built skip s).
Proof. intros. split; [apply built_shape|apply makeItems_eq]. Qed.
(** No importance job has the normed name of a full run or of another listed job. *)
Theorem C30_no_redundant : forall skip s x,
  In x (imps (makeItems skip s)) ->
  (forall j, In j (makeItems skip s) -> normed (info j) <> normed (info x)) /\
  (forall y, In y (items_imp skip (makeItems skip s)) -> normed (info y) = normed (info x) -> uid y = uid x).
Proof.
  intros skip s x. rewrite makeItems_eq. destruct (clean_spec skip (built skip s) (imps_NoDup _ (built_NoDup skip s))) as (_ & C & _).
  intros Hx. destruct (C x Hx) as [C1 C2]. split.
  - intros j Hj E. assert (T : is_full_run (clean skip (built skip s)) x = true).
    { apply normed_item_some. exists j. split; [exact Hj|]. split; [exact E|discriminate]. } congruence.
  - intros y Hy E. destruct (Nat.eq_dec (uid y) (uid x)) as [|Ne]; [assumption|]. exfalso.
    assert (T : is_duplicate skip (clean skip (built skip s)) x = true).
    { apply normed_item_some. exists y. split; [exact Hy|]. split; [exact E|]. intros u Eu. now injection Eu as <-. } congruence.
Qed.
(** identities are unique, so the second part names one object *)
Theorem C30_identities : forall skip s, NoDup (map uid (imps (makeItems skip s))) /\
  NoDup (map uid (imps (built skip s))).
Proof.
  intros skip s. pose proof (imps_NoDup _ (built_NoDup skip s)) as N. split; [|exact N]. rewrite makeItems_eq.
  destruct (clean_spec skip (built skip s) N) as (F & _ & _). rewrite idents_uid. rewrite idents_uid in N.
  eapply subseq_NoDup; [apply subseq_map, F2_subseq, F|exact N].
Qed.
(** All full runs are kept, and the importance jobs kept are an ordered selection of those requested. *)
Theorem C30_order : forall skip s,
  idents (makeItems skip s) = idents (built skip s) /\
  subseq (idents (imps (makeItems skip s))) (idents (imps (built skip s))).
Proof.
  intros skip s. rewrite makeItems_eq. pose proof (imps_NoDup _ (built_NoDup skip s)) as N.
  destruct (clean_spec skip (built skip s) N) as (F & _ & _). split.
  - revert F. unfold idents. generalize (clean skip (built skip s)), (built skip s). intros A B F. induction F as [|a b la lb H1 H2 IH]; cbn; [auto|]. destruct (shr_key _ _ H1) as [-> ->]. now rewrite IH.
  - now apply F2_subseq.
Qed.
(** A requested importance job is kept if neither it nor an importance job it derives from is redundant. *)
Theorem C30_non_redundant_kept : forall skip s x, In x (imps (built skip s)) ->
  (forall z, In z (imps (built skip s)) -> from_or_is z x ->
     (forall j, In j (built skip s) -> normed (info j) <> normed (info z)) /\
     (forall y, In y (items_imp skip (built skip s)) -> uid y <> uid z -> normed (info y) <> normed (info z))) ->
  In (uid x, info x) (idents (imps (makeItems skip s))).
Proof.
  intros skip s x Hx H. rewrite makeItems_eq. pose proof (imps_NoDup _ (built_NoDup skip s)) as N.
  destruct (clean_spec skip (built skip s) N) as (_ & _ & K). destruct (K x Hx) as (x' & Hx' & S).
  - intros z Hz Fz. destruct (H z Hz Fz) as [H1 H2]. split.
    + destruct (is_full_run (built skip s) z) eqn:T; [|reflexivity]. apply normed_item_some in T. destruct T as (j & Hj & Ej & _).
      now apply H1 in Hj.
    + destruct (is_duplicate skip (built skip s) z) eqn:T; [|reflexivity]. apply normed_item_some in T. destruct T as (j & Hj & Ej & Eu).
      exfalso. apply (H2 j Hj); auto.
  - unfold idents. apply in_map_iff. exists x'. destruct (shr_key _ _ S) as [-> ->]. auto.
Qed.
(** Without importance jobs of importance jobs, each requested name is kept exactly once
    (as a full run or as an importance job). *)
Theorem C30_name_kept_partial : forall skip s x, (forall z, In z (imps (built skip s)) -> kids z = []) ->
  In x (imps (built skip s)) -> ~ In (j_name (info x)) skip ->
  (forall j, In j (makeItems skip s) -> normed (info j) <> normed (info x)) ->
  exists y, In y (imps (makeItems skip s)) /\ ~ In (j_name (info y)) skip /\ normed (info y) = normed (info x).
Proof.
  intros skip s x Fl Hx Ns NM. rewrite makeItems_eq in *. pose proof (imps_NoDup _ (built_NoDup skip s)) as N.
  destruct (clean_spec skip (built skip s) N) as (F & _ & _).
  apply (clean_survive skip (built skip s) x); auto.
  - intros z Hz. specialize (Fl z Hz). destruct z as [u i ks]. cbn in Fl. subst ks. reflexivity.
  - intros j Hj E. destruct (Forall2_In_r _ _ _ j F Hj) as [k [Hk Sk]]. destruct (shr_key _ _ Sk) as [_ Ei].
    apply (NM k Hk). congruence.
Qed.
(** With nested ones (importance filters) a requested job can be lost: its parent is replaced by a full run
    and takes it along although no other job has its name. *)
Definition lost_settings : settings :=
  mkS [mkG [new_dset [L "A"]; new_dset [L "A"; L "B"]] [[]] []]
      [mkRun [L "B"] (fun _ => true)] [] [mkRun [L "F"] (fun i => j_imp i)].
Theorem C30_lost_refuted : exists x, In x (imps (built [] lost_settings)) /\
  normed (info x) = L "base_A_B_F" /\
  (forall y, In y (items_imp [] (built [] lost_settings)) -> normed (info y) = normed (info x) -> uid y = uid x) /\
  (forall y, In y (items_imp [] (makeItems [] lost_settings)) -> normed (info y) <> normed (info x)).
Proof.
  eexists. split; [right; left; reflexivity|]. split; [reflexivity|]. split.
  - intros y Hy E. vm_compute in Hy. repeat (destruct Hy as [<-|Hy]; [try reflexivity; exfalso; revert E; vm_compute; discriminate|]). destruct Hy.
  - intros y Hy E. vm_compute in Hy. repeat (destruct Hy as [<-|Hy]; [revert E; vm_compute; discriminate|]). destruct Hy.
Qed.
Example C30_ex : let s := mkS [mkG [new_dset [L "A"]; new_dset [L "B"]] [[]; [L "mnu"]] []]
      [mkRun [L "A"] (fun _ => true); mkRun [L "B"] (fun _ => true)] [] [] in
  map (fun j => j_name (info j)) (imps (built [] s)) = [L "base_A_post_B"; L "base_mnu_A_post_B"; L "base_B_post_A"; L "base_mnu_B_post_A"] /\
  map (fun j => j_name (info j)) (imps (makeItems [] s)) = [L "base_B_post_A"; L "base_mnu_B_post_A"].
Proof. split; reflexivity. Qed.

(** ** C31 *)
(** A query for parameters [pt] (any order) and a data tag (any order, any "_post" marks): a job is found
    exactly if one with the normed name exists, and a found job has that name. *)
Theorem C31_resolve : forall skip js base pt n0 rest (imp : bool),
  Forall (fun p : str => p <> []) pt -> plain n0 -> Forall (fun pn => tag_name (snd pn)) rest ->
  let N := makeNormedName base pt (new_dset (n0 :: map snd rest)) None in
  let listed := if imp then items_imp skip js else js in
  match resolveName skip js base pt (tag_text n0 rest) imp with
  | Some j => In j listed /\ normed (info j) = N
  | None => forall j, In j listed -> normed (info j) <> N
  end.
Proof.
  intros skip js base pt n0 rest imp Hp H0 H N listed. unfold resolveName. rewrite normalize_tag_text by assumption.
  assert (E : tag_of (match pt with [] => [base] | _ => base :: sort_str pt end) ++ L "_" ++ tag_of (sort_str (n0 :: map snd rest)) = N).
  { unfold N, makeNormedName, makeNormedDatatag. cbn [namesReplacing d_names new_dset]. destruct pt as [|p pt]; [reflexivity|].
    pose proof (sort_nonempty (p :: pt)) as Ne. pose proof (sort_Forall _ _ Hp) as Fp.
    destruct (sort_str (p :: pt)) as [|q qs]; [exfalso; now apply Ne|]. inversion Fp; subst.
    assert (Lq : 0 <? length (tag_of (q :: qs)) = true).
    { apply Nat.ltb_lt. destruct q; [contradiction|]. destruct qs; cbn; lia. }
    rewrite Lq. change (tag_of (base :: q :: qs)) with (base ++ [us] ++ tag_of (q :: qs)). now rewrite <- !app_assoc. }
  rewrite E. fold listed. unfold normed_name_item. destruct (find _ listed) as [j|] eqn:Ef.
  - apply find_some in Ef. destruct Ef as [Hj Ej]. rewrite andb_true_r in Ej. apply str_eqb_eq in Ej. auto.
  - intros j Hj C. pose proof (find_none _ _ Ef j Hj) as F. cbn beta in F. now rewrite C, str_eqb_refl in F.
Qed.
(** For a job of the grid any reordering of its parameters and data names finds a job of the same name. *)
Theorem C31_finds_job : forall skip js j pt n0 rest, In j (items_imp skip js) ->
  Forall (fun p : str => p <> []) (j_params (info j)) ->
  Permutation pt (j_params (info j)) -> Permutation (n0 :: map snd rest) (d_names (j_data (info j))) ->
  plain n0 -> Forall (fun pn => tag_name (snd pn)) rest ->
  exists j', resolveName skip js (j_base (info j)) pt (tag_text n0 rest) true = Some j' /\
    In j' (items_imp skip js) /\ normed (info j') = normed (info j).
Proof.
  intros skip js j pt n0 rest Hj Hp Pp Pd H0 H.
  assert (Hp' : Forall (fun p : str => p <> []) pt) by (rewrite Forall_forall in *; intros p Hx; apply Hp; eapply Permutation_in; eauto).
  pose proof (C31_resolve skip js (j_base (info j)) pt n0 rest true Hp' H0 H) as R. cbv zeta in R.
  assert (E : makeNormedName (j_base (info j)) pt (new_dset (n0 :: map snd rest)) None = normed (info j)).
  { unfold normed. destruct (j_data (info j)) as [ns t]. cbn [d_names] in Pd. now apply C29_name_permutation. }
  rewrite E in R. destruct (resolveName _ _ _ _ _ _) as [j'|]; [exists j'; tauto|]. exfalso. now apply (R j Hj).
Qed.
(** In a grid made by makeItems a kept importance job is found itself. *)
Theorem C31_finds_importance_job : forall skip s j pt n0 rest,
  In j (imps (makeItems skip s)) -> ~ In (j_name (info j)) skip ->
  Forall (fun p : str => p <> []) (j_params (info j)) ->
  Permutation pt (j_params (info j)) -> Permutation (n0 :: map snd rest) (d_names (j_data (info j))) ->
  plain n0 -> Forall (fun pn => tag_name (snd pn)) rest ->
  exists j', resolveName skip (makeItems skip s) (j_base (info j)) pt (tag_text n0 rest) true = Some j' /\ uid j' = uid j.
Proof.
  intros skip s j pt n0 rest Hj Ns Hp Pp Pd H0 H.
  destruct (C31_finds_job skip (makeItems skip s) j pt n0 rest) as (j' & E & Hj' & En); auto.
  { apply items_imp_In. auto. }
  exists j'. split; [exact E|]. destruct (C30_no_redundant skip s j Hj) as [_ U]. now apply U.
Qed.
(** The text given for the parameters is split into its parts. *)
Theorem C31_paramtag_text : forall pt, Forall plain pt -> tag_of pt <> [] -> split_paramtag (tag_of pt) = pt.
Proof.
  intros pt Hp Hn. unfold split_paramtag. destruct (tag_of pt) as [|c t] eqn:E; [contradiction|]. rewrite <- E.
  apply split_tag; [intros ->; discriminate|exact Hp].
Qed.
(** The data tags of jobs (including importance jobs) are tags of their data names. *)
Definition tagged (i : jinfo) : Prop := exists n0 rest, j_datatag i = tag_text n0 rest /\ n0 :: map snd rest = d_names (j_data i).
Theorem C31_job_tags :
  (forall base ps n ns, tagged (new_item base ps (new_dset (n :: ns)))) /\
  (forall p n ns, tagged p -> tagged (imp_item p (n :: ns))).
Proof.
  split.
  - intros base ps n ns. exists n, (map (pair false) ns). cbn. now rewrite tag_text_of, map_snd_pair.
  - intros p n ns (n0 & rest & E & En). unfold tagged, imp_item, extendForImportance. cbn [j_datatag j_data d_names].
    exists n0, (rest ++ (negb (contains (L "_post_") (j_name p)), n) :: map (pair false) ns).
    rewrite tag_text_app, map_app. cbn [map snd]. rewrite map_snd_pair, <- En. split; [|reflexivity]. rewrite E. f_equal.
    rewrite <- tag_text_of. unfold tag_text. cbn [map concat fst snd]. destruct (contains _ _); cbn [negb]; now rewrite <- !app_assoc.
Qed.
Lemma join_app sep a b : a <> [] -> b <> [] -> join sep (a ++ b) = join sep a ++ sep ++ join sep b.
Proof.
  intros Ha Hb. induction a as [|x a IH]; [congruence|]. destruct a as [|y a].
  - cbn [app]. destruct b; [congruence|reflexivity].
  - change (join sep ((x :: y :: a) ++ b)) with (x ++ sep ++ join sep ((y :: a) ++ b)). rewrite IH by discriminate.
    change (join sep (x :: y :: a)) with (x ++ sep ++ join sep (y :: a)). now rewrite <- !app_assoc.
Qed.
(** However often data are added to a data set for importance sampling, its tag marks the added names with "_post_" once. *)
Theorem C31_post_mark_once : forall a bs, contains (L "_post_") (tag_of a) = false -> bs <> [] -> Forall (fun b : list str => b <> []) bs ->
  let d := fold_left extendForImportance bs (new_dset a) in
  d_tag d = tag_of a ++ L "_post_" ++ tag_of (concat bs) /\ d_names d = a ++ concat bs.
Proof.
  intros a bs Ha Hb Hn. destruct bs as [|b bs]; [congruence|]. clear Hb. inversion Hn as [|? ? Hb Hn']; subst. cbn [fold_left].
  assert (G : forall bs d names, Forall (fun b : list str => b <> []) bs -> names <> [] -> d_tag d = tag_of a ++ L "_post_" ++ tag_of names -> d_names d = a ++ names ->
    let e := fold_left extendForImportance bs d in d_tag e = tag_of a ++ L "_post_" ++ tag_of (names ++ concat bs) /\ d_names e = a ++ names ++ concat bs).
  { clear. induction bs as [|b bs IH]; intros d names Hn N Ht Hd; cbn [fold_left concat].
    - rewrite !app_nil_r. auto.
    - inversion Hn as [|? ? Hb Hn']; subst. destruct (IH (extendForImportance d b) (names ++ b)) as [E1 E2]; [exact Hn'|destruct names; [congruence|discriminate]| | |].
      + unfold extendForImportance. cbn [d_tag]. rewrite Ht.
        assert (C : contains (L "_post_") (tag_of a ++ L "_post_" ++ tag_of names) = true).
        { generalize (tag_of names) as y. generalize (tag_of a) as x. clear. intros x y. induction x as [|c x IH].
          - cbn [app]. unfold contains. change (L "_post_" ++ y) with ("_"%char :: (L "post_" ++ y)). cbn. reflexivity.
          - cbn [app]. cbn [contains]. rewrite IH. apply orb_true_r. }
        rewrite C, <- !app_assoc. do 2 f_equal. symmetry. apply join_app; assumption.
      + unfold extendForImportance. cbn [d_names]. now rewrite Hd, <- app_assoc.
      + rewrite <- !app_assoc in E1, E2. auto. }
  destruct (G bs (extendForImportance (new_dset a) b) b Hn' Hb) as [E1 E2].
  - unfold extendForImportance. cbn [d_tag new_dset]. now rewrite Ha.
  - reflexivity.
  - cbn [concat]. auto.
Qed.
Example C31_post_mark_ex : d_tag (fold_left extendForImportance [[L "B"; L "C"]; [L "D"]] (new_dset [L "A"])) = L "A_post_B_C_D".
Proof. reflexivity. Qed.
(** Whatever the texts of the query are, the answer is decided by its normalised form alone. *)
Theorem C31_any_query : forall skip js base pt qt datatag datatag' (imp : bool),
  Permutation pt qt -> normalizeDataTag datatag = normalizeDataTag datatag' ->
  resolveName skip js base pt datatag imp = resolveName skip js base qt datatag' imp /\
  match resolveName skip js base pt datatag imp with
  | Some j => In j (if imp then items_imp skip js else js) /\
              normed (info j) = join (L "_") (base :: sort_str pt ++ [normalizeDataTag datatag])
  | None => forall j, In j (if imp then items_imp skip js else js) ->
              normed (info j) <> join (L "_") (base :: sort_str pt ++ [normalizeDataTag datatag])
  end.
Proof.
  intros skip js base pt qt datatag datatag' imp P E.
  assert (J : forall l x t, join (L "_") (x :: l ++ [t]) = join (L "_") (x :: l) ++ L "_" ++ t).
  { induction l as [|y l IH]; intros x t; [reflexivity|]. change (join (L "_") (x :: (y :: l) ++ [t])) with (x ++ L "_" ++ join (L "_") (y :: l ++ [t])).
    rewrite IH. change (join (L "_") (x :: y :: l)) with (x ++ L "_" ++ join (L "_") (y :: l)). now rewrite <- !app_assoc. }
  assert (X : forall p : list str, match p with [] => [base] | _ => base :: sort_str p end = base :: sort_str p) by (intros [|p ps]; reflexivity).
  unfold resolveName. rewrite !X, <- E, (sort_perm_eq pt qt P). split; [reflexivity|]. rewrite J.
  change (tag_of (base :: sort_str qt)) with (join (L "_") (base :: sort_str qt)). unfold normed_name_item.
  destruct (find _ _) as [j|] eqn:Ef.
  - apply find_some in Ef. destruct Ef as [Hj Ej]. rewrite andb_true_r in Ej. apply str_eqb_eq in Ej. auto.
  - intros j Hj C. pose proof (find_none _ _ Ef j Hj) as F. cbn beta in F. now rewrite C, str_eqb_refl in F.
Qed.
(** A data name that itself contains an underscore: the job is not found by its own data tag. *)
Theorem C31_underscore_refuted : exists s j, In j (makeItems [] s) /\ resolveName [] (makeItems [] s) (L "base") (j_params (info j)) (j_datatag (info j)) true = None.
Proof.
  exists (mkS [mkG [new_dset [L "x_a"; L "b"]] [[]] []] [] [] []). eexists. split; [left; reflexivity|reflexivity].
Qed.
Theorem C31_root : forall skip js root,
  match resolveRoot skip js root with
  | Some j => In j (items_imp skip js) /\
      (j_name (info j) = root \/ (normed (info j) = root /\ forall i, In i (items_imp skip js) -> j_name (info i) <> root))
  | None => forall i, In i (items_imp skip js) -> j_name (info i) <> root /\ normed (info i) <> root
  end.
Proof.
  intros skip js root. unfold resolveRoot. destruct (find _ _) as [j|] eqn:E.
  - apply find_some in E. destruct E as [Hj Ej]. apply str_eqb_eq in Ej. auto.
  - assert (NF : forall i, In i (items_imp skip js) -> j_name (info i) <> root).
    { intros i Hi C. pose proof (find_none _ _ E i Hi) as F. cbn beta in F. now rewrite C, str_eqb_refl in F. }
    unfold normed_name_item. destruct (find _ (items_imp skip js)) as [j|] eqn:E2 in |- *.
    + apply find_some in E2. destruct E2 as [Hj Ej]. rewrite andb_true_r in Ej. apply str_eqb_eq in Ej. auto.
    + intros i Hi. split; [now apply NF|]. intros C. pose proof (find_none _ _ E2 i Hi) as F. cbn beta in F.
      now rewrite C, str_eqb_refl in F.
Qed.
Example C31_ex : let s := mkS [mkG [new_dset [L "A"; L "C"]] [[L "mnu"; L "nnu"]] []] [mkRun [L "B"] (fun _ => true)] [] [] in
  option_map (fun j => j_name (info j)) (resolveName [] (makeItems [] s) (L "base") (split_paramtag (L "nnu_mnu")) (L "B_C_A") true)
    = Some (L "base_mnu_nnu_A_C_post_B") /\
  split_paramtag (L "nnu_mnu") = [L "nnu"; L "mnu"].
Proof. split; reflexivity. Qed.

(** ** C32 *)
Definition has_stat (tofloat : str -> option Q) (d : fs) (root : str) (R : Q) (done : bool) : Prop :=
  exists x l0 rest, d (root ++ L ".converge_stat") = Some x /\ f_text x <> [] /\ text_lines (f_text x) = l0 :: rest /\
    tofloat (strip l0) = Some R /\ (done = true <-> exists l1 rest', rest = l1 :: rest' /\ strip l1 = L "Done").
Lemma nonEmpty_iff d f : nonEmptyFile d f = true <-> exists x, d f = Some x /\ f_text x <> [].
Proof.
  unfold nonEmptyFile. destruct (d f) as [x|]; [|split; [discriminate|intros (x & E & _); discriminate]].
  rewrite Nat.ltb_lt. split.
  - intros H. exists x. split; [reflexivity|]. intros C. rewrite C in H. cbn in H. lia.
  - intros (y & E & H). injection E as <-. destruct (f_text x); [contradiction|cbn; lia].
Qed.
Lemma convergeStat_iff tofloat d root R done : convergeStat tofloat d root = Ok (Some (R, done)) <-> has_stat tofloat d root R done.
Proof.
  unfold convergeStat, has_stat. destruct (nonEmptyFile d _) eqn:E.
  - apply nonEmpty_iff in E. destruct E as (x & Ex & Hx). rewrite Ex.
    assert (D : forall rest, (match rest with l1 :: _ => str_eqb (strip l1) (L "Done") | [] => false end) = true <-> exists l1 rest', rest = l1 :: rest' /\ strip l1 = L "Done").
    { intros [|l1 rest']; [split; [discriminate|intros (l1 & r & C & _); discriminate]|]. rewrite str_eqb_eq. split.
      - intros H. eauto.
      - intros (l & r & C & H). now injection C as <- <-. }
    split.
    + destruct (text_lines (f_text x)) as [|l0 rest] eqn:Et; [discriminate|]. destruct (tofloat (strip l0)) as [R'|] eqn:Ef; [|discriminate].
      intros H. injection H as <- <-. exists x, l0, rest. repeat split; auto; now apply D.
    + intros (x' & l0 & rest & E1 & E2 & E3 & E4 & E5). injection E1 as <-. rewrite E3, E4. do 3 f_equal.
      apply eq_true_iff_eq. rewrite D. symmetry. exact E5.
  - split; [discriminate|]. intros (x & l0 & rest & E1 & E2 & _). exfalso.
    assert (T : nonEmptyFile d (root ++ L ".converge_stat") = true) by (apply nonEmpty_iff; eauto). congruence.
Qed.
(** A full run is reported finished exactly if its convergence file is readable and says Done. *)
Theorem C32_full_run_finished : forall tofloat now d root,
  chainFinished tofloat now d root None = Ok true <-> exists R, has_stat tofloat d root R true.
Proof.
  intros. unfold chainFinished. split.
  - destruct (convergeStat tofloat d root) as [[[R done]|]|] eqn:E; cbn; try discriminate. intros H. injection H as ->.
    exists R. now apply convergeStat_iff.
  - intros [R H]. apply convergeStat_iff in H. now rewrite H.
Qed.
(** An importance job is finished exactly if its parent is, its chain exists, is not older than the parent's
    and was last written more than five minutes ago. *)
Theorem C32_importance_finished : forall tofloat now d root parent,
  chainFinished tofloat now d root (Some parent) = Ok true <->
  (exists R, has_stat tofloat d parent R true) /\
  (exists c p, d (chainName root 1) = Some c /\ f_text c <> [] /\ d (chainName parent 1) = Some p /\
     f_time p <= f_time c /\ f_time c < now - 300)%Q.
Proof.
  intros. unfold chainFinished, parentChanged, notRunning, chainFileDate, chainExists. split.
  - destruct (convergeStat tofloat d parent) as [[[R done]|]|] eqn:E; cbn [bindR]; try discriminate.
    destruct (nonEmptyFile d (chainName root 1)) eqn:Ne; cbn [bindR]; [|discriminate].
    apply nonEmpty_iff in Ne. destruct Ne as (c & Ec & Hc). rewrite Ec. cbn [bindR].
    destruct (d (chainName parent 1)) as [p|] eqn:Ep; cbn [bindR]; [|discriminate].
    destruct (Qle_bool (f_time p) (f_time c)) eqn:E1; cbn [negb]; [|discriminate].
    destruct (Qle_bool (now - 300) (f_time c)) eqn:E2; cbn [negb]; [discriminate|]. intros H. injection H as ->.
    split; [exists R; now apply convergeStat_iff|]. exists c, p. repeat split; auto; [now apply Qle_bool_iff|].
    apply Qnot_le_lt. intros C. apply Qle_bool_iff in C. congruence.
  - intros ((R & H) & (c & p & Ec & Hc & Ep & H1 & H2)). apply convergeStat_iff in H. rewrite H. cbn [bindR].
    assert (Ne : nonEmptyFile d (chainName root 1) = true) by (apply nonEmpty_iff; eauto). rewrite Ne, Ec, Ep. cbn [bindR].
    apply Qle_bool_iff in H1. rewrite H1. cbn [negb]. destruct (Qle_bool (now - 300) (f_time c)) eqn:E2; [|reflexivity].
    exfalso. apply Qle_bool_iff in E2. now apply Qlt_not_le in H2.
Qed.
(** An importance chain counts as outdated if it is missing or empty, or older than the parent's chain. *)
Theorem C32_parent_changed : forall d root parent,
  (forall c p, d (chainName root 1) = Some c -> f_text c <> [] -> d (chainName parent 1) = Some p ->
     exists b, parentChanged d root parent = Ok b /\ (b = true <-> f_time c < f_time p)%Q) /\
  ((forall c, d (chainName root 1) = Some c -> f_text c = []) -> parentChanged d root parent = Ok true) /\
  (forall c, d (chainName root 1) = Some c -> f_text c <> [] -> d (chainName parent 1) = None -> parentChanged d root parent = Err IOError).
Proof.
  intros d root parent. unfold parentChanged, chainExists, chainFileDate. split; [|split].
  - intros c p Ec Hc Ep. assert (Ne : nonEmptyFile d (chainName root 1) = true) by (apply nonEmpty_iff; eauto). rewrite Ne, Ec, Ep. cbn [bindR].
    eexists. split; [reflexivity|]. rewrite negb_true_iff. split.
    + intros H. apply Qnot_le_lt. intros C. apply Qle_bool_iff in C. congruence.
    + intros H. destruct (Qle_bool (f_time p) (f_time c)) eqn:E; [|reflexivity]. apply Qle_bool_iff in E. exfalso. now apply Qlt_not_le in H.
  - intros H. destruct (nonEmptyFile d (chainName root 1)) eqn:Ne; [|reflexivity]. apply nonEmpty_iff in Ne. destruct Ne as (c & Ec & Hc). exfalso. now apply Hc, H.
  - intros c Ec Hc Ep. assert (Ne : nonEmptyFile d (chainName root 1) = true) by (apply nonEmpty_iff; eauto). now rewrite Ne, Ec, Ep.
Qed.
Theorem C32_checkpoint_continue : forall tofloat d root minR,
  wantCheckpointContinue tofloat d root minR = Ok true <->
  (exists R, has_stat tofloat d root R false /\ minR < R)%Q /\ (exists c, d (root ++ L "_1.chk") = Some c).
Proof.
  intros. unfold wantCheckpointContinue. split.
  - destruct (convergeStat tofloat d root) as [[[R done]|]|] eqn:E; cbn [bindR]; try discriminate.
    destruct (d (root ++ L "_1.chk")) as [c|]; [|discriminate]. intros H. injection H as H. apply andb_true_iff in H.
    destruct H as [H1 H2]. apply negb_true_iff in H1, H2. subst done. split; [|eauto]. exists R.
    split; [now apply convergeStat_iff|]. apply Qnot_le_lt. intros C. apply Qle_bool_iff in C. congruence.
  - intros ((R & H & Hm) & (c & Ec)). apply convergeStat_iff in H. rewrite H, Ec. cbn [bindR negb andb].
    destruct (Qle_bool R minR) eqn:E; [|reflexivity]. apply Qle_bool_iff in E. exfalso. now apply Qlt_not_le in Hm.
Qed.
Theorem C32_getdist_update : forall d root dist, exists b, getDistNeedsUpdate d root dist = Ok b /\
  (b = true <-> exists c, d (chainName root 1) = Some c /\ f_text c <> [] /\
     (forall m, d (dist ++ L ".margestats") = Some m -> f_time m < f_time c)%Q).
Proof.
  intros. unfold getDistNeedsUpdate, chainExists, chainFileDate. destruct (nonEmptyFile d (chainName root 1)) eqn:Ne.
  - apply nonEmpty_iff in Ne. destruct Ne as (c & Ec & Hc). rewrite Ec. cbn [bindR].
    destruct (d (dist ++ L ".margestats")) as [m|] eqn:Em; eexists; split; try reflexivity.
    + rewrite negb_true_iff. split.
      * intros H. exists c. repeat split; auto. intros m' E. injection E as <-. apply Qnot_le_lt. intros C.
        apply Qle_bool_iff in C. congruence.
      * intros (c' & E & _ & H). injection E as <-. specialize (H m eq_refl). destruct (Qle_bool (f_time c) (f_time m)) eqn:E; [|reflexivity].
        exfalso. apply Qle_bool_iff in E. now apply Qlt_not_le in H.
    + split; [|reflexivity]. intros _. exists c. repeat split; auto. discriminate.
  - eexists. split; [reflexivity|]. split; [discriminate|]. intros (c & Ec & Hc & _). exfalso.
    assert (T : nonEmptyFile d (chainName root 1) = true) by (apply nonEmpty_iff; eauto). congruence.
Qed.
(** The stored R value is the last one of the file; with no or an unreadable file the given answer is returned. *)
Theorem C32_converge_better : forall tofloat eigs d dist R dflt,
  (forall x l r q, d (dist ++ L ".converge") = Some x -> f_text x <> [] -> eigs (f_text x) = Ok (l ++ [r]) -> tofloat r = Some q ->
     (hasConvergeBetterThan tofloat eigs d dist R dflt = true <-> q <= R)%Q) /\
  ((forall x, d (dist ++ L ".converge") = Some x -> f_text x = [] \/ forall l r q, eigs (f_text x) = Ok (l ++ [r]) -> tofloat r <> Some q) ->
     hasConvergeBetterThan tofloat eigs d dist R dflt = dflt).
Proof.
  intros. unfold hasConvergeBetterThan, jobR. split.
  - intros x l r q Ex Hx El Er. assert (Ne : nonEmptyFile d (dist ++ L ".converge") = true) by (apply nonEmpty_iff; eauto).
    rewrite Ne, Ex, El. cbn [bindR]. rewrite rev_app_distr. cbn [rev app]. rewrite Er. apply Qle_bool_iff.
  - intros H. destruct (nonEmptyFile d (dist ++ L ".converge")) eqn:Ne; [|reflexivity].
    apply nonEmpty_iff in Ne. destruct Ne as (x & Ex & Hx). rewrite Ex. destruct (H x Ex) as [C|C]; [contradiction|].
    destruct (eigs (f_text x)) as [l|e]; cbn [bindR]; [|reflexivity]. destruct (rev l) as [|r l'] eqn:Er; [reflexivity|].
    destruct (tofloat r) as [q|] eqn:Eq; [|reflexivity]. exfalso. apply (f_equal (@rev str)) in Er. rewrite rev_involutive in Er. cbn in Er.
    apply (C (rev l') r q); [now rewrite Er|exact Eq].
Qed.
Example C32_ex : let d := fun f => if str_eqb f (L "r.converge_stat") then Some (mkF (L "0.005" ++ [nl] ++ L "Done" ++ [nl]) 5) else None in
  has_stat (fun s => if str_eqb s (L "0.005") then Some (5 # 1000)%Q else None) d (L "r") (5 # 1000)%Q true.
Proof.
  cbv zeta. eexists _, _, _. split; [reflexivity|]. split; [discriminate|]. split; [vm_compute; reflexivity|]. split; [reflexivity|].
  split; [intros _; eexists _, _; split; reflexivity|reflexivity].
Qed.

(** ** C33 *)
(** Without a number of chains: the files of chains 1, 2, ... up to the first one missing or empty. *)
Theorem C33_existing_partial : forall fuel d root l, chainNames fuel d root None = Ok l ->
  exists n, l = map (chainName root) (seq 1 n) /\ chainExists d root (S n) = false /\ forall i, 1 <= i <= n -> chainExists d root i = true.
Proof.
  intros fuel d root. cbn [chainNames].
  assert (G : forall fuel i l, existing_from fuel d root i = Ok l -> exists n, l = map (chainName root) (seq i n) /\
     chainExists d root (i + n) = false /\ forall k, i <= k < i + n -> chainExists d root k = true).
  { clear fuel. induction fuel as [|fuel IH]; intros i l; cbn [existing_from]; [discriminate|].
    destruct (chainExists d root i) eqn:E.
    - destruct (existing_from fuel d root (S i)) as [l'|] eqn:E'; cbn [bindR]; [|discriminate]. intros H. injection H as <-.
      destruct (IH (S i) l' E') as (n & -> & H1 & H2). exists (S n). split; [reflexivity|]. split; [now rewrite Nat.add_succ_r|].
      intros k Hk. destruct (Nat.eq_dec k i) as [->|]; [exact E|]. apply H2. lia.
    - intros H. injection H as <-. exists 0. split; [reflexivity|]. rewrite Nat.add_0_r. split; [exact E|]. intros k Hk. lia. }
  intros l H. apply G in H. destruct H as (n & -> & H1 & H2). exists n. split; [reflexivity|]. split; [exact H1|]. intros i Hi. apply H2. lia.
Qed.
(** It terminates whenever only finitely many chains exist. *)
Theorem C33_terminates : forall d root n, chainExists d root (S n) = false -> exists l, chainNames (S n) d root None = Ok l.
Proof.
  intros d root n H. cbn [chainNames].
  assert (G : forall m i, i + m = S n -> exists l, existing_from (S m) d root i = Ok l).
  { induction m as [|m IH]; intros i E.
    - exists []. cbn [existing_from]. replace i with (S n) by lia. now rewrite H.
    - cbn [existing_from]. destruct (chainExists d root i); [|eauto]. destruct (IH (S i)) as [l El]; [lia|]. 
      cbn [existing_from] in El. rewrite El. cbn [bindR]. eauto. }
  apply (G n 1). lia.
Qed.
Theorem C33_all_exist : forall d root n, allChainExists d root n = true <-> forall i, 1 <= i <= n -> chainExists d root i = true.
Proof.
  intros. unfold allChainExists. rewrite forallb_forall. split.
  - intros H i Hi. specialize (H (i - 1)). replace (i - 1 + 1) with i in H by lia. apply H, in_seq. lia.
  - intros H i Hi. apply in_seq in Hi. apply H. lia.
Qed.
Theorem C33_names_distinct : forall root i j, chainName root i = chainName root j -> i = j.
Proof.
  intros root i j E. unfold chainName in E. apply app_inv_head in E. apply (app_inv_head (L "_")) in E.
  apply app_inv_tail in E. now apply show_nat_inj.
Qed.
(** With a number of chains the names are those of chains 0 .. n-1: the last chain is missed and a file that
    the sampler never writes is named. *)
Theorem C33_numbered_refuted : forall fuel d root n, exists l, chainNames fuel d root (Some (S n)) = Ok l /\
  In (chainName root 0) l /\ ~ In (chainName root (S n)) l /\ length l = S n.
Proof.
  intros. eexists. split; [reflexivity|]. split; [now left|]. split; [|now rewrite map_length, seq_length].
  intros C. apply in_map_iff in C. destruct C as (i & E & Hi). apply C33_names_distinct in E. apply in_seq in Hi. lia.
Qed.
Example C33_ex : chainName (L "chains/base") 12 = L "chains/base_12.txt".
Proof. reflexivity. Qed.

Print Assumptions C29_permutation.
Print Assumptions C29_substitutions.
Print Assumptions C31_post_mark_once.
Print Assumptions C32_parent_changed.
Print Assumptions C29_name_permutation.
Print Assumptions C29_distinct.
Print Assumptions C29_normalized_tag.
Print Assumptions C29_idempotent_partial.
Print Assumptions C29_idempotent_refuted.
Print Assumptions C30_requested.
Print Assumptions C30_no_redundant.
Print Assumptions C30_identities.
Print Assumptions C30_order.
Print Assumptions C30_non_redundant_kept.
Print Assumptions C30_name_kept_partial.
Print Assumptions C30_lost_refuted.
Print Assumptions C31_resolve.
Print Assumptions C31_finds_job.
Print Assumptions C31_finds_importance_job.
Print Assumptions C31_paramtag_text.
Print Assumptions C31_job_tags.
Print Assumptions C31_any_query.
Print Assumptions C31_underscore_refuted.
Print Assumptions C31_root.
Print Assumptions C32_full_run_finished.
Print Assumptions C32_importance_finished.
Print Assumptions C32_checkpoint_continue.
Print Assumptions C32_getdist_update.
Print Assumptions C32_converge_better.
Print Assumptions C33_existing_partial.
Print Assumptions C33_terminates.
Print Assumptions C33_all_exist.
Print Assumptions C33_names_distinct.
Print Assumptions C33_numbered_refuted.
