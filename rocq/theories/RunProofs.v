From Verif Require Import PyStr PyStrFacts PyBase PyNum RunModel RunSpec.
From Coq Require Import QArith.
Local Open Scope nat_scope.

(** ** Filters *)
Lemma any_in_iff l names : any_in l names = true <-> shares l names.
Proof.
  unfold any_in, shares. rewrite existsb_exists. split; intros (x & H1 & H2); exists x; (split; [exact H1|]); now apply mem_str_In.
Qed.
Lemma any_in_false l names : any_in l names = false <-> ~ shares l names.
Proof. rewrite <- any_in_iff. destruct (any_in l names); split; intros; auto; try discriminate. exfalso; auto. Qed.
Lemma given_none P : given None P.
Proof. intros l H. discriminate. Qed.
Lemma given_some l P : given (Some l) P <-> P l.
Proof. split; [intros H; now apply H|intros H l' E; injection E as <-; exact H]. Qed.
Lemma given_none_iff P : given None P <-> True.
Proof. split; auto using given_none. Qed.

Definition wanted_group (o : opts) (j : item) : Prop :=
  given (o_importance o) (fun l => t_imp j = true /\ (l <> [] -> shares l (t_impnames j))) /\
  given (o_importancetag o) (fun l => t_imp j = true -> l <> [] -> In (t_imptag j) l).
Lemma wanted_iff o j : jobItemWanted o j = true <-> wanted_group o j.
Proof.
  unfold jobItemWanted, wanted_group, wantImportance, none_or_empty, listof.
  destruct (t_imp j); cbn [negb andb orb].
  - rewrite andb_true_iff, !orb_true_iff, mem_str_In, any_in_iff.
    destruct (o_importance o) as [[|a l]|]; destruct (o_importancetag o) as [[|b m]|]; rewrite ?given_none_iff, ?given_some; cbn [In]; 
      firstorder congruence.
  - rewrite orb_false_r. destruct (o_importance o) as [l|]; destruct (o_importancetag o) as [m|]; rewrite ?given_none_iff, ?given_some; firstorder congruence.
Qed.
Lemma name_iff fnm o j : nameMatches fnm o j = true <-> given (o_name o) (fun l => exists p, In p l /\ fnm (t_name j) p = true).
Proof. unfold nameMatches. destruct (o_name o) as [l|]; rewrite ?given_none_iff, ?given_some; [apply existsb_exists|tauto]. Qed.
Lemma group_in_iff g l : group_in g l = true <-> exists x, g = Some x /\ In x l.
Proof.
  destruct g as [s|]; cbn; [rewrite mem_str_In|]; split.
  - eauto.
  - intros (x & E & H). now injection E as <-.
  - discriminate.
  - intros (x & E & _). discriminate.
Qed.
Lemma group_iff o j : groupMatches o j = true <->
  given (o_group o) (fun l => exists g, t_group j = Some g /\ In g l) /\
  given (o_skip_group o) (fun l => forall g, t_group j = Some g -> ~ In g l).
Proof.
  unfold groupMatches. rewrite andb_true_iff.
  assert (A : (match o_skip_group o with None => true | Some l => negb (group_in (t_group j) l) end) = true <->
              given (o_skip_group o) (fun l => forall g, t_group j = Some g -> ~ In g l)).
  { destruct (o_skip_group o) as [l|]; rewrite ?given_none_iff, ?given_some; [|tauto]. rewrite negb_true_iff. split.
    - intros H g E C. assert (T : group_in (t_group j) l = true) by (apply group_in_iff; eauto). congruence.
    - intros H. destruct (group_in (t_group j) l) eqn:E; [|reflexivity]. apply group_in_iff in E. destruct E as (x & E & C). exfalso. now apply (H x). }
  rewrite A. destruct (o_group o) as [l|]; rewrite ?given_none_iff, ?given_some; [rewrite group_in_iff|]; tauto.
Qed.
Lemma data_iff o j : (o_datatag o = None \/ (o_data o = None /\ o_skip_data o = None)) ->
  (dataMatches o j = true <->
   given (o_data o) (fun l => shares l (t_datanames j)) /\ given (o_datatag o) (In (t_datatag j)) /\
   given (o_musthave o) (fun l => incl l (t_datanames j)) /\ given (o_skip_data o) (fun l => ~ shares l (t_datanames j))).
Proof.
  intros C. unfold dataMatches.
  assert (M : (match o_musthave o with Some l => negb (forallb (fun x => mem_str x (t_datanames j)) l) | None => false end) = false <->
              given (o_musthave o) (fun l => incl l (t_datanames j))).
  { destruct (o_musthave o) as [l|]; rewrite ?given_none_iff, ?given_some; [|tauto]. rewrite negb_false_iff, forallb_forall. unfold incl.
    split; intros H x Hx; apply mem_str_In; auto. }
  rewrite <- M. destruct (match o_musthave o with Some l => _ | None => _ end); [split; [discriminate|intuition congruence]|].
  destruct C as [E|[E1 E2]].
  - rewrite E, given_none_iff. destruct (o_skip_data o) as [l|]; rewrite ?given_none_iff, ?given_some.
    + rewrite <- any_in_false. destruct (any_in l (t_datanames j)); [intuition congruence|].
      destruct (o_data o); rewrite ?given_none_iff, ?given_some, ?any_in_iff; tauto.
    + destruct (o_data o); rewrite ?given_none_iff, ?given_some, ?any_in_iff; tauto.
  - rewrite E1, E2, !given_none_iff. destruct (o_datatag o); rewrite ?given_none_iff, ?given_some, ?mem_str_In; tauto.
Qed.
Lemma params_iff o j : (o_paramtag o = None \/ (o_param o = None /\ o_skip_param o = None)) ->
  (paramsMatch o j = true <->
   given (o_param o) (fun l => shares l (t_params j)) /\ given (o_paramtag o) (In (t_paramtag j)) /\
   given (o_skip_param o) (fun l => ~ shares l (t_params j))).
Proof.
  intros C. unfold paramsMatch.
  assert (S : no_skipped_param o j = true <-> given (o_skip_param o) (fun l => ~ shares l (t_params j))).
  { unfold no_skipped_param, none_or_empty, listof. destruct (o_skip_param o) as [[|a l]|]; rewrite ?given_none_iff, ?given_some; cbn [orb].
    - split; [|reflexivity]. intros _ (x & [] & _).
    - rewrite negb_true_iff, any_in_false. tauto.
    - tauto. }
  rewrite <- S. destruct C as [E|[E1 E2]].
  - rewrite E, given_none_iff. destruct (o_param o) as [l|]; rewrite ?given_none_iff, ?given_some; [|tauto].
    rewrite <- any_in_iff. destruct (any_in l (t_params j)); intuition congruence.
  - rewrite E1, !given_none_iff. destruct (o_paramtag o) as [l|]; rewrite ?given_none_iff, ?given_some; [|].
    + rewrite mem_str_In. unfold no_skipped_param. rewrite E2. cbn. tauto.
    + tauto.
Qed.
(** items *)
Lemma batch_rec' (P : batch -> Prop) : (forall skip jobs subs, Forall P subs -> P (Bat skip jobs subs)) -> forall b, P b.
Proof. intros H. fix IH 1. intros [skip jobs subs]. apply H. induction subs; constructor; auto. Qed.
Lemma fold_and_Forall {A} (P : A -> Prop) l : fold_right (fun b p => P b /\ p) True l <-> Forall P l.
Proof. induction l; cbn; [split; auto|]. rewrite IHl. split; [intros []; now constructor|intros H; inversion H; auto]. Qed.
Lemma items_unmarked sub b : well_marked b -> forall j, In j (items sub false b) -> t_imp j = false.
Proof.
  induction b as [skip jobs subs IH] using batch_rec'. cbn [well_marked items]. rewrite fold_and_Forall. intros [Wj Ws] j Hj.
  apply in_app_or in Hj. destruct Hj as [Hj|Hj].
  - apply in_flat_map in Hj. destruct Hj as (x & Hx & [<-|[]]). rewrite Forall_forall in Wj. now apply Wj.
  - destruct sub; [|contradiction]. apply in_flat_map in Hj. destruct Hj as (b & Hb & Hj). rewrite Forall_forall in IH, Ws.
    apply (IH b Hb (Ws b Hb) j Hj).
Qed.
Lemma items_noimp sub b : well_marked b -> items sub false b = filter (fun j => negb (t_imp j)) (items sub true b).
Proof.
  induction b as [skip jobs subs IH] using batch_rec'. cbn [well_marked items]. rewrite fold_and_Forall. intros [Wj Ws].
  rewrite filter_app. f_equal.
  - clear IH Ws. induction Wj as [|[m is] jobs [H1 H2] _ IHj]; [reflexivity|]. cbn [flat_map fst snd] in *. rewrite filter_app. cbn [filter]. rewrite H1. cbn [negb app].
    f_equal. rewrite IHj. rewrite <- (app_nil_l (filter _ (flat_map _ jobs))) at 1. f_equal. symmetry.
    clear - H2. induction H2 as [|i is Hi _ IH]; [reflexivity|]. cbn [filter]. destruct (negb (mem_str (t_name i) skip)); [cbn [filter]; rewrite Hi|]; exact IH.
  - destruct sub; [|reflexivity]. induction IH as [|b subs Hb _ IHs]; [reflexivity|]. inversion Ws; subst. cbn [flat_map]. rewrite filter_app. f_equal; auto.
Qed.
Lemma filtered_iff fnm o ex b sub ce j : well_marked b -> compatible o ->
  In j (filteredBatchItems fnm o ex b sub ce) <->
  In j (items sub true b) /\ satisfies fnm o j /\ (ce = true -> ex j = true).
Proof.
  intros W [Cd Cp]. unfold filteredBatchItems. rewrite filter_In, !andb_true_iff, orb_true_iff, negb_true_iff.
  rewrite wanted_iff, name_iff, (params_iff o j Cp), (data_iff o j Cd), group_iff. unfold wanted_group.
  assert (I : In j (items sub (negb (o_noimportance o)) b) <-> In j (items sub true b) /\ (o_noimportance o = true -> t_imp j = false)).
  { destruct (o_noimportance o); cbn [negb].
    - rewrite (items_noimp sub b W), filter_In, negb_true_iff. tauto.
    - split; [intros H; split; [exact H|discriminate]|tauto]. }
  rewrite I. split.
  - intros ((Hi & Hn) & Hc & ((((Hw1 & Hw2) & Hname) & Hp1 & Hp2 & Hp3) & Hd1 & Hd2 & Hd3 & Hd4) & Hg1 & Hg2).
    split; [exact Hi|]. split; [constructor; assumption|]. destruct Hc; [congruence|auto].
  - intros (Hi & [] & Hc). assert (ce = false \/ ex j = true) by (destruct ce; [right; auto|left; reflexivity]). tauto.
Qed.
Lemma filtered_sub fnm o ex b sub ce : well_marked b ->
  filteredBatchItems fnm o ex b sub ce =
  filter (fun j => (negb ce || ex j) && (jobItemWanted o j && nameMatches fnm o j && paramsMatch o j && dataMatches o j && groupMatches o j)
                   && (negb (o_noimportance o) || negb (t_imp j))) (items sub true b).
Proof.
  intros W. unfold filteredBatchItems. destruct (o_noimportance o); cbn [negb orb].
  - rewrite (items_noimp sub b W). induction (items sub true b) as [|x l IH]; [reflexivity|]. cbn [filter].
    destruct (negb (t_imp x)); cbn [filter]; rewrite IH; [now rewrite andb_true_r|now rewrite andb_false_r].
  - apply filter_ext. intros x. now rewrite andb_true_r.
Qed.

(** ** Groups *)
Lemma replace_dot_ini x : contains dot_ini x = false -> replace_str dot_ini [] (x ++ dot_ini) = x.
Proof.
  induction x as [|c x IH]; [reflexivity|]. intros H. cbn [contains] in H. apply orb_false_iff in H. destruct H as [H1 H2].
  change ((c :: x) ++ dot_ini) with (c :: (x ++ dot_ini)). rewrite replace_miss; [now rewrite IH|].
  clear IH H2. destruct (startswith dot_ini (c :: x ++ dot_ini)) eqn:E; [|reflexivity]. exfalso.
  apply startswith_true in E. destruct E as [t E]. unfold dot_ini, L in *.
  destruct x as [|c1 [|c2 [|c3 x]]]; cbn in E; injection E; intros; subst; try discriminate.
Qed.
Definition named (md5 : str -> res str) (c : call) : Prop := jobName md5 (c_files c) = Ok (c_name c).
Definition strip_ini (f : str) : str := replace_str dot_ini [] f.
Definition safe_names (md5 : str -> res str) (k : nat) : Prop := k = 1 \/ forall s, exists h, md5 s = Ok h.
Lemma jobName_ok md5 k files : safe_names md5 k -> length files <= k -> exists n, jobName md5 files = Ok n.
Proof.
  intros S Hl. unfold jobName. destruct (_ || _) eqn:E; [eauto|]. destruct files as [|f files]; [eauto|].
  destruct S as [->|S].
  - apply orb_false_iff in E. destruct E as [E _]. apply Nat.ltb_ge in E. lia.
  - destruct (S (join (L "-") (map basename (f :: files)))) as [h Eh]. rewrite Eh. cbn [bindR]. eauto.
Qed.
Lemma submit_fold md5 r k inis : combining r = false -> 1 <= k -> r_runsPerJob r = Z.of_nat k -> safe_names md5 k ->
  forall st, s_exn st = None -> length (s_pending st) < k -> Forall (fun c => length (c_files c) = k /\ c_seq c = false /\ named md5 c) (s_calls st) ->
  let st' := fold_left (submitJob md5 r) inis st in
  s_exn st' = None /\ length (s_pending st') < k /\ Forall (fun c => length (c_files c) = k /\ c_seq c = false /\ named md5 c) (s_calls st') /\
  concat (map c_files (s_calls st')) ++ s_pending st' = (concat (map c_files (s_calls st)) ++ s_pending st) ++ map strip_ini inis.
Proof.
  intros Hc Hk Hr Hm. induction inis as [|ini inis IH]; intros st He Hp Hf; cbn [fold_left map].
  - repeat split; auto. now rewrite app_nil_r.
  - assert (G : forall st1, submitJob md5 r st ini = st1 -> s_exn st1 = None /\ length (s_pending st1) < k /\
       Forall (fun c => length (c_files c) = k /\ c_seq c = false /\ named md5 c) (s_calls st1) /\
       concat (map c_files (s_calls st1)) ++ s_pending st1 = (concat (map c_files (s_calls st)) ++ s_pending st) ++ [strip_ini ini]).
    { intros st1 <-. unfold submitJob. rewrite He, Hc, Hr. set (pend := s_pending st ++ [replace_str dot_ini [] ini]).
      assert (Lp : length pend = S (length (s_pending st))) by (unfold pend; rewrite app_length; cbn; lia).
      destruct (Z.of_nat k <=? Z.of_nat (length pend))%Z eqn:El.
      - apply Z.leb_le in El. destruct (jobName_ok md5 k pend Hm) as [n En]; [lia|]. rewrite En. cbn [s_exn s_pending s_calls length].
        split; [reflexivity|]. split; [lia|]. split.
        + apply Forall_app. split; [exact Hf|]. constructor; [|constructor]. cbn. repeat split; [lia|exact En].
        + rewrite map_app, concat_app. cbn. unfold pend. now rewrite !app_nil_r, app_assoc.
      - apply Z.leb_gt in El. cbn [s_exn s_pending s_calls]. split; [reflexivity|]. split; [lia|]. split; [exact Hf|].
        unfold pend. now rewrite app_assoc. }
    destruct (G _ eq_refl) as (G1 & G2 & G3 & G4). destruct (IH _ G1 G2 G3) as (I1 & I2 & I3 & I4).
    split; [exact I1|]. split; [exact I2|]. split; [exact I3|]. rewrite I4, G4. now rewrite <- !app_assoc.
Qed.
Lemma groups_snoc {A} k (gs : list (list A)) last : Forall (fun g => length g = k) gs -> 1 <= k -> length last <= k -> last <> [] ->
  groups_of k (concat gs ++ last) (gs ++ [last]).
Proof.
  intros F Hk Hl Hn. split; [rewrite concat_app; cbn; now rewrite app_nil_r|]. intros pre g post E.
  destruct (rev post) as [|z rp] eqn:Er.
  - apply (f_equal (@rev _)) in Er. rewrite rev_involutive in Er. cbn in Er. subst post.
    change (pre ++ [g]) with (pre ++ [g]) in E. apply app_inj_tail in E. destruct E as [<- <-]. repeat split; auto. congruence.
  - apply (f_equal (@rev _)) in Er. rewrite rev_involutive in Er. cbn in Er. subst post.
    replace (pre ++ g :: rev rp ++ [z]) with ((pre ++ g :: rev rp) ++ [z]) in E by (now rewrite <- app_assoc).
    apply app_inj_tail in E. destruct E as [-> _]. apply Forall_app in F. destruct F as [_ F]. inversion F; subst.
    split; [intros ->; cbn in *; lia|]. split; auto.
Qed.
Lemma groups_full {A} k (gs : list (list A)) : Forall (fun g => length g = k) gs -> 1 <= k -> groups_of k (concat gs) gs.
Proof.
  intros F Hk. split; [reflexivity|]. intros pre g post E. subst gs. apply Forall_app in F. destruct F as [_ F]. inversion F; subst.
  split; [intros ->; cbn in *; lia|]. split; auto.
Qed.
Lemma submit_all_spec md5 r k inis : combining r = false -> 1 <= k -> r_runsPerJob r = Z.of_nat k -> safe_names md5 k ->
  exists calls, submit_all md5 r inis = (calls, None) /\ groups_of k (map strip_ini inis) (map c_files calls) /\ Forall (named md5) calls.
Proof.
  intros Hc Hk Hr Hm. unfold submit_all.
  destruct (submit_fold md5 r k inis Hc Hk Hr Hm (mkSt [] [] None) eq_refl) as (H1 & H2 & H3 & H4); [cbn; lia|constructor|].
  cbv zeta in H1, H2, H3, H4. set (st := fold_left _ _ _) in *. rewrite H1. cbn [concat map app s_pending s_calls] in H4.
  assert (F : Forall (fun g => length g = k) (map c_files (s_calls st))) by (rewrite Forall_map; eapply Forall_impl; [|exact H3]; cbn; tauto).
  assert (N : Forall (named md5) (s_calls st)) by (eapply Forall_impl; [|exact H3]; cbn; tauto).
  destruct (s_pending st) as [|p ps] eqn:Ep.
  - exists (s_calls st). split; [reflexivity|]. split; [|exact N]. rewrite <- H4, app_nil_r. now apply groups_full.
  - destruct (jobName_ok md5 k (p :: ps) Hm) as [n En]; [lia|].
    assert (E : match r_combine r with Some (c :: n) => Ok (c :: n) | _ => jobName md5 (p :: ps) end = Ok n).
    { unfold combining in Hc. destruct (r_combine r) as [[|c l]|]; auto. discriminate. }
    rewrite E, En. destruct (1 <? r_runsPerJob r)%Z; cbn [bindR]; eexists; (split; [reflexivity|]); (split; [|apply Forall_app; split; [exact N|repeat constructor; exact En]]);
      rewrite <- H4, map_app; cbn [map c_files]; apply groups_snoc; auto; try lia; discriminate.
Qed.
Lemma combine_fold md5 r inis : combining r = true -> forall st, s_exn st = None -> 
  fold_left (submitJob md5 r) inis st = mkSt (s_pending st ++ map strip_ini inis) (s_calls st) None.
Proof.
  intros Hc. induction inis as [|i inis IH]; intros st He; cbn [fold_left map].
  - destruct st as [a b c]. cbn in *. now rewrite app_nil_r, He.
  - unfold submitJob at 2. rewrite He, Hc. rewrite IH by reflexivity. cbn [s_pending s_calls]. now rewrite <- app_assoc.
Qed.
Lemma filter_filter_and {A} (p q : A -> bool) l : filter p (filter q l) = filter (fun x => q x && p x) l.
Proof. induction l as [|x l IH]; [reflexivity|]. cbn [filter]. destruct (q x); cbn [filter andb]; [|exact IH]. destruct (p x); now rewrite IH. Qed.
