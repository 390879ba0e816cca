(** Proofs about generated ini files, proposal matrices and chain names. *)
From Verif Require Import PyStr PyStrFacts PyBase PyNum BatchModel GridModel GridSpec.
From Coq Require Import Permutation.

Section Ini.
Context {V : Type}.
Lemma dparam_nested (P : dparam V -> Prop) :
  (forall d, P (DDict d)) -> (forall f, P (DFile f)) -> (forall l, Forall P l -> P (DList l)) -> P DOther -> forall p, P p.
Proof.
  intros H1 H2 H3 H4. fix IH 1. intros [d|f|l|]; [apply H1|apply H2| |apply H4].
  apply H3. induction l as [|p l IHl]; [constructor|]. constructor; [apply IH|exact IHl].
Qed.
Lemma fold_err {A} (f : A -> gini V -> res (gini V)) l e :
  fold_left (fun a q => bindR a (f q)) l (Err e) = Err e.
Proof. induction l as [|x l IH]; [reflexivity|]. cbn [fold_left bindR]. exact IH. Qed.
Lemma upd_spec path p : forall i : gini V,
  if has_other p then exists e, upd path p i = Err e
  else exists i', upd path p i = Ok i' /\ g_defaults i' = g_defaults i ++ map (fun f => path ++ f) (files_in p) /\
       g_own i' = fold_left dupdate (dicts_in p) (g_own i).
Proof.
  induction p as [d|f|l IH|] using dparam_nested; intros i.
  - cbn. eexists. split; [reflexivity|]. cbn. now rewrite app_nil_r.
  - cbn. eexists. split; [reflexivity|]. cbn. auto.
  - cbn [has_other upd]. cbn [files_in dicts_in]. revert i. induction IH as [|p l Hp Hl IH]; intros i.
    + cbn. eexists. split; [reflexivity|]. cbn. now rewrite app_nil_r.
    + cbn [existsb fold_left flat_map bindR]. specialize (Hp i). destruct (has_other p).
      * destruct Hp as [e ->]. cbn [orb]. exists e. apply fold_err.
      * destruct Hp as [i1 [-> [D1 O1]]]. cbn [orb]. specialize (IH i1). destruct (existsb has_other l); [exact IH|].
        destruct IH as [i2 [E [D2 O2]]]. exists i2. split; [exact E|]. split.
        -- now rewrite D2, D1, map_app, app_assoc.
        -- now rewrite O2, O1, fold_left_app.
  - cbn. eauto.
Qed.
Lemma updates_spec path ps (i : gini V) :
  if existsb has_other ps then exists e, updateIniParams path ps i = Err e
  else exists i', updateIniParams path ps i = Ok i' /\
       g_defaults i' = g_defaults i ++ map (fun f => path ++ f) (flat_map files_in ps) /\
       g_own i' = fold_left dupdate (flat_map dicts_in ps) (g_own i).
Proof. exact (upd_spec path (DList ps) i). Qed.

Lemma get_updates k : forall (ds : list (dict V)) d0, Forall real_dict ds ->
  dget k (fold_left dupdate ds d0) = fold_left (fun a d => match dget k d with Some v => Some v | None => a end) ds (dget k d0).
Proof.
  induction ds as [|d ds IH]; intros d0 F; [reflexivity|]. inversion F; subst. cbn [fold_left].
  rewrite IH by assumption. now rewrite dget_dupdate by assumption.
Qed.
Lemma get_last k (ds : list (dict V)) : forall a,
  match fold_left (fun a d => match dget k d with Some v => Some v | None => a end) ds a with
  | Some v => (exists lo d hi, ds = lo ++ d :: hi /\ dget k d = Some v /\ forall d', In d' hi -> dget k d' = None) \/
              (a = Some v /\ forall d', In d' ds -> dget k d' = None)
  | None => a = None /\ forall d', In d' ds -> dget k d' = None
  end.
Proof.
  induction ds as [|d ds IH]; intros a.
  - cbn. destruct a; [right|]; split; auto; intros ? [].
  - cbn [fold_left]. specialize (IH (match dget k d with Some v => Some v | None => a end)).
    destruct (fold_left _ ds _) as [v|].
    + destruct IH as [[lo [d1 [hi [E H]]]]|[E H]].
      * left. exists (d :: lo), d1, hi. rewrite E. auto.
      * destruct (dget k d) as [w|] eqn:G.
        -- left. exists [], d, ds. injection E as ->. auto.
        -- right. split; [exact E|]. intros d' [<-|I]; auto.
    + destruct IH as [E H]. destruct (dget k d) as [w|] eqn:G; [discriminate|]. split; [exact E|]. intros d' [<-|I]; auto.
Qed.
Lemma last_def_get k v (ds : list (dict V)) : Forall real_dict ds ->
  (last_def k v ds <-> fold_left (fun a d => match dget k d with Some v => Some v | None => a end) ds None = Some v).
Proof.
  intros F. pose proof (get_last k ds None) as G. split.
  - intros [lo [d [hi [-> [I N]]]]]. rewrite fold_left_app. cbn [fold_left].
    rewrite Forall_forall in F. assert (Hd : real_dict d) by (apply F; apply in_or_app; right; now left).
    rewrite (dget_In_NoDup k v d Hd I).
    clear -N. induction hi as [|h hi IH]; [reflexivity|]. cbn [fold_left].
    assert (E : dget k h = None) by (apply dget_None; apply N; now left). rewrite E. apply IH. intros d' I. apply N. now right.
  - intros E. rewrite E in G. destruct G as [[lo [d [hi [-> [Gd N]]]]]|[C _]]; [|discriminate].
    exists lo, d, hi. split; [reflexivity|]. split; [now apply dget_Some_In|]. intros d' I. apply dget_None. now apply N.
Qed.

(** *** the main ini file *)
Lemma sub_opt_of (o : option (dict (dict V))) p d : upd_opt (sub_opt o p) d = fold_left dupdate (of_param o p) d.
Proof. unfold sub_opt, of_param. destruct o as [m|]; [|reflexivity]. destruct (dget p m); reflexivity. Qed.
Lemma opt_of (o : option (dict V)) d : upd_opt o d = fold_left dupdate (opt_src o) d.
Proof. destruct o; reflexivity. Qed.
Lemma setp_update k (v : V) d : setp k v d = dupdate d [(k, v)].
Proof. reflexivity. Qed.
Lemma params_fold (s : gsettings V) (j : gjob V) : forall ps d,
  if forallb (fun p => dhas p (gs_params s)) ps then
    fold_left (param_step s j) ps (Ok d) = Ok (fold_left dupdate (flat_map (fun p => match dget p (gs_params s) with
         | Some v => [(L "param[" ++ p ++ L "]", v)] :: of_param (gs_param_extra s) p ++ of_param (gj_param_extra j) p
         | None => [] end) ps) d)
  else fold_left (param_step s j) ps (Ok d) = Err KeyError.
Proof.
  induction ps as [|p ps IH]; intros d; [reflexivity|]. cbn [forallb fold_left flat_map].
  assert (E : param_step s j (Ok d) p = match dget p (gs_params s) with None => Err KeyError
     | Some v => Ok (upd_opt (sub_opt (gj_param_extra j) p) (upd_opt (sub_opt (gs_param_extra s) p) (setp (pkey p) v d))) end) by reflexivity.
  rewrite E. unfold dhas. destruct (dget p (gs_params s)) as [v|] eqn:G; cbn [andb].
  - specialize (IH (upd_opt (sub_opt (gj_param_extra j) p) (upd_opt (sub_opt (gs_param_extra s) p) (setp (pkey p) v d)))).
    destruct (forallb _ ps); [|exact IH]. rewrite IH. f_equal. rewrite fold_left_app. f_equal.
    cbn [fold_left]. rewrite fold_left_app, !sub_opt_of. reflexivity.
  - clear. induction ps as [|q ps IH]; [reflexivity|]. exact IH.
Qed.
Lemma makeIni_spec common s j cov (action : V) :
  if forallb (fun p => dhas p (gs_params s)) (gj_params j) && negb (existsb has_other (gj_data j)) then
    exists i, makeIni common s j cov action = Ok i /\
      g_own i = fold_left dupdate (sources s j cov action) [] /\
      g_defaults i = map (fun f => common ++ f) ((match gs_override s with Some l => l | None => [] end) ++ flat_map files_in (gj_data j) ++ gs_defaults s)
  else exists e, makeIni common s j cov action = Err e.
Proof.
  unfold makeIni. pose proof (params_fold s j (gj_params j) []) as P.
  destruct (forallb _ (gj_params j)); rewrite P; cbn [bindR andb]; [|eauto].
  match goal with |- context [updateIniParams common (gj_data j) ?i0] => pose proof (updates_spec common (gj_data j) i0) as U end.
  destruct (existsb has_other (gj_data j)); cbn [negb].
  - destruct U as [e ->]. cbn. eauto.
  - destruct U as [i [-> [D O]]]. cbn [bindR]. eexists. split; [reflexivity|]. cbn [g_own g_defaults]. split.
    + rewrite O. unfold sources. rewrite !fold_left_app. cbn [fold_left]. rewrite !setp_update, !opt_of. cbn [g_own]. reflexivity.
    + rewrite D. cbn [g_defaults app]. destruct (gs_override s); rewrite !map_app; reflexivity.
Qed.
Lemma min_get (mv : minvals V) ps d k : dget k (setMinimize mv ps d) =
  if str_eqb k (L "sterile_mphys_max") && mem_str (L "meffsterile") ps then Some (mv_sterile mv)
  else if str_eqb k (L "accuracy_level") && mem_str (L "omegak") ps then Some (mv_acc mv)
  else if str_eqb k (L "lmin_store_all_cmb") then Some (mv_lmin mv)
  else if str_eqb k (L "action") then Some (mv_action mv) else dget k d.
Proof.
  unfold setMinimize, setp.
  destruct (mem_str (L "meffsterile") ps), (mem_str (L "omegak") ps); rewrite !dget_dset, ?andb_true_r, ?andb_false_r; reflexivity.
Qed.

Lemma fold_orelse k : forall (ds : list (dict V)) a,
  fold_left (fun a d => match dget k d with Some v => Some v | None => a end) ds a =
  orelse (fold_left (fun a d => match dget k d with Some v => Some v | None => a end) ds None) a.
Proof.
  induction ds as [|d ds IH]; intros a; [reflexivity|]. cbn [fold_left].
  rewrite IH. symmetry. rewrite IH. symmetry. destruct (fold_left _ ds None); [reflexivity|]. cbn [orelse]. destruct (dget k d); reflexivity.
Qed.
Lemma dict_value_app k (a b : list (dparam V)) : dict_value k (a ++ b) = orelse (dict_value k b) (dict_value k a).
Proof. unfold dict_value. rewrite flat_map_app, fold_left_app. apply fold_orelse. Qed.
Lemma first_file_app (content : str -> dict V) k a b :
  first_file content k (a ++ b) = orelse (first_file content k a) (first_file content k b).
Proof. induction a as [|f a IH]; [reflexivity|]. cbn [app first_file]. destruct (dget k (content f)); [reflexivity|exact IH]. Qed.
Lemma file_value_app content path k (a b : list (dparam V)) :
  file_value content path k (a ++ b) = orelse (file_value content path k a) (file_value content path k b).
Proof. unfold file_value. rewrite flat_map_app, map_app. apply first_file_app. Qed.
Lemma effective_updates content path k (ps : list (dparam V)) i : Forall real_dict (flat_map dicts_in ps) ->
  updateIniParams path ps (mkIni [] []) = Ok i ->
  effective content i k = orelse (dict_value k ps) (file_value content path k ps).
Proof.
  intros F E. pose proof (updates_spec path ps (mkIni [] [])) as U. destruct (existsb has_other ps).
  - destruct U as [e U]. congruence.
  - destruct U as [i' [U [D O]]]. rewrite U in E. injection E as <-. unfold effective, file_value. rewrite D, O. cbn [g_own g_defaults app].
    rewrite get_updates by exact F. cbn [dget]. clear. unfold dict_value. match goal with |- match ?x with _ => _ end = _ => destruct x; reflexivity end.
Qed.
End Ini.

(** ** proposal matrices *)
Lemma startswith_iff p s : startswith p s = true <-> exists y, s = p ++ y.
Proof.
  split.
  - intros H. exists (skipn (length p) s). revert s H. induction p as [|c p IH]; intros s H; [reflexivity|].
    destruct s as [|d s]; [discriminate|]. cbn [startswith] in H. apply andb_true_iff in H. destruct H as [H1 H2].
    destruct (ch_eqb_spec c d) as [->|]; [|discriminate]. cbn. f_equal. now apply IH.
  - intros [y ->]. apply startswith_app.
Qed.
Lemma contains_iff sub s : contains sub s = true <-> exists x y, s = x ++ sub ++ y.
Proof.
  induction s as [|c s IH]; cbn [contains].
  - rewrite orb_false_r, startswith_iff. split.
    + intros [y H]. exists [], y. exact H.
    + intros [x [y H]]. symmetry in H. apply app_eq_nil in H. destruct H as [_ H]. apply app_eq_nil in H. destruct H as [-> ->].
      exists []. reflexivity.
  - rewrite orb_true_iff, startswith_iff, IH. split.
    + intros [[y H]|[x [y ->]]]; [exists [], y; exact H|]. exists (c :: x), y. reflexivity.
    + intros [[|d x] [y H]]; [left; exists y; exact H|]. injection H as -> H. right. exists x, y. exact H.
Qed.
Lemma replace1_subst old new : forall a, contains old a = true -> first_subst old new a (replace1 old new a).
Proof.
  induction a as [|c a IH]; intros H.
  - cbn [contains] in H. rewrite orb_false_r in H. unfold replace1. rewrite H. apply startswith_iff in H. destruct H as [y H].
    rewrite H at 2. rewrite skipn_app, skipn_all, Nat.sub_diag. exists [], y. cbn. repeat split; [exact H|]. intros; lia.
  - cbn [replace1]. destruct (startswith old (c :: a)) eqn:S.
    + apply startswith_iff in S. destruct S as [y S]. rewrite S at 2. rewrite skipn_app, skipn_all, Nat.sub_diag.
      exists [], y. cbn. repeat split; [exact S|]. intros; lia.
    + cbn [contains] in H. rewrite S in H. destruct (IH H) as [x [y [E [En Hm]]]]. exists (c :: x), y.
      split; [now rewrite E|]. split; [now rewrite En|]. intros [|d x'] y' E'.
      * exfalso. cbn in E'. assert (startswith old (c :: a) = true) by (apply startswith_iff; now exists y'). congruence.
      * injection E' as -> E'. cbn [length]. apply le_n_S. now apply (Hm x' y').
Qed.
Lemma first_subst_fun old new a n n' : first_subst old new a n -> first_subst old new a n' -> n = n'.
Proof.
  intros [x [y [E [En H]]]] [x' [y' [E' [En' H']]]].
  assert (length x = length x') by (pose proof (H _ _ E'); pose proof (H' _ _ E); lia).
  rewrite E in E'. assert (x = x' /\ old ++ y = old ++ y') as [-> E2].
  { clear -H0 E'. revert x' H0 E'. induction x as [|c x IH]; intros [|d x'] L E'; try discriminate; [auto|].
    injection E' as -> E'. injection L as L. destruct (IH _ L E') as [-> ->]. auto. }
  apply app_inv_head in E2. subst. reflexivity.
Qed.
Lemma subst_iff old new a n : first_subst old new a n <-> contains old a = true /\ n = replace1 old new a.
Proof.
  split.
  - intros H. assert (C : contains old a = true) by (destruct H as [x [y [E _]]]; apply contains_iff; now exists x, y).
    split; [exact C|]. apply (first_subst_fun old new a); [exact H|]. now apply replace1_subst.
  - intros [C ->]. now apply replace1_subst.
Qed.
Lemma specific_spec ex base cs i dc :
  if ex (specific ex base cs i dc) then find ex (own_candidates base cs i dc) = Some (specific ex base cs i dc)
  else find ex (own_candidates base cs i dc) = None.
Proof.
  unfold specific, own_candidates, mapped_norm, mapped_name, covdir, cext.
  set (dir := path_join base (cs_dir cs)). cbv zeta. cbn [app find].
  destruct (ex (path_join dir (j_name i ++ L ".covmat"))) eqn:E1; [now rewrite ?E1|].
  destruct (ex (path_join dir (makeNormedName _ _ _ _ ++ L ".covmat"))) eqn:E2; [now rewrite ?E2|].
  destruct (cs_mappings cs) as [m|]; cbn [app find].
  - destruct (ex (path_join dir (tag_of _ ++ L ".covmat"))) eqn:E3; [reflexivity || now rewrite ?E3|].
    destruct dc as [f|]; cbn [app find].
    + destruct (ex (base ++ f)) eqn:E4; [now rewrite ?E4|]. destruct (ex (path_join dir f)) eqn:E5; [now rewrite ?E5|].
      destruct (cs_covmat cs) as [g|]; cbn [app find].
      * destruct (ex (base ++ g)) eqn:E6; [now rewrite ?E6|]. destruct (ex (path_join dir g)) eqn:E7; reflexivity.
      * now rewrite ?E5.
    + rewrite ?E3. destruct (cs_covmat cs) as [g|]; cbn [app find].
      * destruct (ex (base ++ g)) eqn:E6; [now rewrite ?E6|]. destruct (ex (path_join dir g)) eqn:E7; reflexivity.
      * now rewrite ?E3.
  - rewrite ?E2. destruct dc as [f|]; cbn [app find].
    + destruct (ex (base ++ f)) eqn:E4; [now rewrite ?E4|]. destruct (ex (path_join dir f)) eqn:E5; [now rewrite ?E5|].
      destruct (cs_covmat cs) as [g|]; cbn [app find].
      * destruct (ex (base ++ g)) eqn:E6; [now rewrite ?E6|]. destruct (ex (path_join dir g)) eqn:E7; reflexivity.
      * now rewrite ?E5.
    + rewrite ?E2. destruct (cs_covmat cs) as [g|]; cbn [app find].
      * destruct (ex (base ++ g)) eqn:E6; [now rewrite ?E6|]. destruct (ex (path_join dir g)) eqn:E7; reflexivity.
      * now rewrite ?E2.
Qed.
Lemma rename_tries_iff ren a n : In n (rename_tries ren a) <->
  (exists old new, In (old, new) ren /\ first_subst old new a n) \/
  (exists old new old1 new1 m, In (new1, old1) ren /\ first_subst old1 new1 a m /\ In (old, new) ren /\ first_subst old new m n).
Proof.
  assert (D : forall b, In n (map (fun on => replace1 (fst on) (snd on) b) (filter (fun on => contains (fst on) b) ren)) <->
    exists old new, In (old, new) ren /\ first_subst old new b n).
  { intros b. rewrite in_map_iff. split.
    - intros [[o w] [<- H]]. apply filter_In in H. destruct H as [H1 H2]. exists o, w. split; [exact H1|]. now apply replace1_subst.
    - intros [o [w [H1 H2]]]. apply subst_iff in H2. destruct H2 as [H2 ->]. exists (o, w). split; [reflexivity|]. now apply filter_In. }
  unfold rename_tries. rewrite in_app_iff, D, in_flat_map. split; (intros [H|H]; [left; exact H|right]).
  - destruct H as [[n1 o1] [H1 H2]]. cbn [fst snd] in H2. destruct (contains o1 a) eqn:C; [|contradiction].
    apply D in H2. destruct H2 as [o [w [H2 H3]]]. exists o, w, o1, n1, (replace1 o1 n1 a). split; [exact H1|]. split; [now apply replace1_subst|]. auto.
  - destruct H as [o [w [o1 [n1 [m [H1 [H2 [H3 H4]]]]]]]]. exists (n1, o1). split; [exact H1|]. cbn [fst snd].
    apply subst_iff in H2. destruct H2 as [H2 ->]. rewrite H2. apply D. eauto.
Qed.
Lemma makeNormedName_ext b ps d dic dic' : (forall y, dget y dic = dget y dic') ->
  makeNormedName b ps d (Some dic) = makeNormedName b ps d (Some dic').
Proof.
  intros H. unfold makeNormedName, makeNormedDatatag, namesReplacing.
  assert (E : flat_map (fun n => match dget n dic with None => [n] | Some None => [] | Some (Some v) => match v with [] => [] | _ => [v] end end) (d_names d)
            = flat_map (fun n => match dget n dic' with None => [n] | Some None => [] | Some (Some v) => match v with [] => [] | _ => [v] end end) (d_names d)).
  { apply flat_map_ext. intros n. now rewrite H. }
  now rewrite E.
Qed.
Definition dropping (i : jinfo) (drop : list str) (m : dict (option str)) (y : str) : option (option str) :=
  if mem_str y drop && mem_str y (d_names (j_data i)) then Some (Some []) else dget y m.
Lemma mem_app x a b : mem_str x (a ++ b) = mem_str x a || mem_str x b.
Proof. unfold mem_str. apply existsb_app. Qed.
Lemma without_iff i m n : forall order done removes, (forall y, dget y removes = dropping i done m y) ->
  (In n (without_tries i removes order) <->
   (exists x, In x order /\ In x (d_names (j_data i)) /\ n = makeNormedName (j_base i) (j_params i) (j_data i) (Some [(x, Some [])])) \/
   (exists pre x post dic, order = pre ++ x :: post /\ In x (d_names (j_data i)) /\ (forall y, dget y dic = dropping i (done ++ pre ++ [x]) m y) /\
      n = makeNormedName (j_base i) (j_params i) (j_data i) (Some dic))).
Proof.
  induction order as [|x order IH]; intros done removes HR.
  - cbn. split; [intros []|]. intros [[x [[] _]]|[pre [x [post [dic [E _]]]]]]. destruct pre; discriminate.
  - cbn [without_tries].
    assert (HR2 : mem_str x (d_names (j_data i)) = true -> forall y, dget y (PyStr.dset x (Some []) removes) = dropping i (done ++ [x]) m y).
    { intros Hx y. rewrite dget_dset, HR. unfold dropping. rewrite mem_app.
      destruct (str_eqb_spec y x) as [->|N].
      - assert (E : mem_str x [x] = true) by (apply mem_str_In; now left). now rewrite E, Hx, orb_true_r.
      - assert (E : mem_str y [x] = false) by (apply mem_str_false; intros [->|[]]; congruence). rewrite E, orb_false_r. reflexivity. }
    assert (HR3 : mem_str x (d_names (j_data i)) = false -> forall y, dget y removes = dropping i (done ++ [x]) m y).
    { intros Hx y. rewrite HR. unfold dropping. rewrite mem_app.
      destruct (str_eqb_spec y x) as [->|N].
      - rewrite Hx, !andb_false_r. reflexivity.
      - assert (E : mem_str y [x] = false) by (apply mem_str_false; intros [->|[]]; congruence). rewrite E, orb_false_r. reflexivity. }
    assert (Step : forall removes', (forall y, dget y removes' = dropping i (done ++ [x]) m y) ->
      (In n (without_tries i removes' order) <->
       (exists z, In z order /\ In z (d_names (j_data i)) /\ n = makeNormedName (j_base i) (j_params i) (j_data i) (Some [(z, Some [])])) \/
       (exists pre z post dic, x :: order = (x :: pre) ++ z :: post /\ In z (d_names (j_data i)) /\
          (forall y, dget y dic = dropping i (done ++ (x :: pre) ++ [z]) m y) /\
          n = makeNormedName (j_base i) (j_params i) (j_data i) (Some dic)))).
    { intros r Hr. rewrite (IH (done ++ [x]) r Hr). clear. split; (intros [H|[pre [z [post [dic [E H]]]]]]; [left; exact H|right]).
      - exists pre, z, post, dic. rewrite E. split; [reflexivity|]. rewrite <- app_assoc in H. exact H.
      - exists pre, z, post, dic. cbn [app] in E. injection E as ->. split; [reflexivity|]. rewrite <- app_assoc. exact H. }
    destruct (mem_str x (d_names (j_data i))) eqn:Hx.
    + cbn [In]. rewrite (Step _ (HR2 eq_refl)). split.
      * intros [<-|[<-|[[z [H1 H2]]|[pre [z [post [dic H]]]]]]].
        -- left. exists x. split; [now left|]. split; [now apply mem_str_In|reflexivity].
        -- right. exists [], x, order, (PyStr.dset x (Some []) removes). split; [reflexivity|]. split; [now apply mem_str_In|].
           split; [exact (HR2 eq_refl)|reflexivity].
        -- left. exists z. split; [now right|exact H2].
        -- right. now exists (x :: pre), z, post, dic.
      * intros [[z [[<-|H1] [H2 H3]]]|[[|w pre] [z [post [dic [E [H1 [H2 H3]]]]]]]].
        -- left. auto.
        -- right. right. left. exists z. auto.
        -- injection E as -> ->. right. left. rewrite H3. apply makeNormedName_ext. intros y. rewrite H2. apply (HR2 eq_refl).
        -- injection E as -> E. right. right. right. exists pre, z, post, dic. rewrite E. auto.
    + rewrite (Step _ (HR3 eq_refl)). split.
      * intros [[z [H1 H2]]|[pre [z [post [dic H]]]]]; [left; exists z; split; [now right|exact H2]|].
        right. now exists (x :: pre), z, post, dic.
      * intros [[z [[<-|H1] [H2 H3]]]|[[|w pre] [z [post [dic [E [H1 [H2 H3]]]]]]]].
        -- apply mem_str_In in H2. congruence.
        -- left. exists z. auto.
        -- injection E as -> ->. apply mem_str_In in H1. congruence.
        -- injection E as -> E. right. exists pre, z, post, dic. rewrite E. auto.
Qed.
Lemma subs_get y m : dget y (subs_of m) = option_map Some (dget y m).
Proof. unfold subs_of. induction m as [|[k v] m IH]; [reflexivity|]. cbn [map dget fst snd]. destruct (str_eqb y k); [reflexivity|exact IH]. Qed.
Lemma tries_iff cs i n : In n (tries cs i) <-> substitute cs i (mapped_norm cs i) n.
Proof.
  unfold tries. rewrite !in_app_iff. split.
  - intros [H|[H|H]].
    + destruct (cs_renamer cs) as [f|] eqn:E; [|contradiction]. apply in_app_or in H.
      destruct H as [H|H]; eapply sub_renamer; eauto; cbn; auto.
    + destruct (cs_renames cs) as [ren|] eqn:E; [|contradiction]. apply in_flat_map in H. destruct H as [a [Ha H]].
      apply rename_tries_iff in H. destruct H as [[o [w [H1 H2]]]|[o [w [o1 [n1 [m [H1 [H2 [H3 H4]]]]]]]]].
      * eapply sub_rename; eauto.
      * exact (sub_swap cs i _ ren o w o1 n1 a m n E Ha H1 H2 H3 H4).
    + destruct (cs_withoutOrder cs) as [order|] eqn:E; [|contradiction].
      apply (without_iff i (match cs_mappings cs with Some m => subs_of m | None => [] end) n order []) in H; [|intros y; reflexivity].
      destruct H as [[x [H1 [H2 ->]]]|[pre [x [post [dic [-> [H1 [H2 ->]]]]]]]].
      * eapply sub_without1; eauto.
      * eapply sub_without; eauto. intros y. rewrite H2. unfold dropping. cbn [app].
        destruct (_ && _); [reflexivity|]. destruct (cs_mappings cs); [apply subs_get|reflexivity].
  - intros H. destruct H as [f a n E Ha Hn|ren o w a n E Ha H1 H2|ren o w o1 n1 a m n E Ha H1 H2 H3 H4|order x E H1 H2|pre x post dic E H1 H2].
    + left. rewrite E. apply in_or_app. cbn in Ha. destruct Ha as [<-|[<-|[]]]; auto.
    + right. left. rewrite E. apply in_flat_map. exists a. split; [exact Ha|]. apply rename_tries_iff. left. eauto.
    + right. left. rewrite E. apply in_flat_map. exists a. split; [exact Ha|]. apply rename_tries_iff. right. exists o, w, o1, n1, m. auto.
    + right. right. rewrite E. eapply (without_iff i (match cs_mappings cs with Some m => subs_of m | None => [] end) _ order []); [intros y; reflexivity|]. left. eauto.
    + right. right. rewrite E. eapply (without_iff i (match cs_mappings cs with Some m => subs_of m | None => [] end) _ _ []); [intros y; reflexivity|]. right.
      exists pre, x, post, dic. split; [reflexivity|]. split; [exact H1|]. split; [|reflexivity]. intros y. rewrite H2. unfold dropping. cbn [app].
      destruct (_ && _); [reflexivity|]. destruct (cs_mappings cs); [symmetry; apply subs_get|reflexivity].
Qed.
Lemma choose_spec ex base cs i dc :
  fst (choose_covmat ex base cs i dc) =
  find ex (own_candidates base cs i dc ++ map (try_path base cs) (tries cs i)).
Proof.
  unfold choose_covmat. pose proof (specific_spec ex base cs i dc) as S.
  assert (FA : forall l l' : list str, find ex (l ++ l') = match find ex l with Some x => Some x | None => find ex l' end).
  { induction l as [|x l IH]; intros l'; [reflexivity|]. cbn [app find]. destruct (ex x); [reflexivity|apply IH]. }
  rewrite FA. destruct (ex (specific ex base cs i dc)); rewrite S; [reflexivity|]. cbn [fst].
  induction (tries cs i) as [|n l IH]; [reflexivity|]. cbn [find map]. destruct (ex (try_path base cs n)); [reflexivity|exact IH].
Qed.
