(** Removing redundant importance jobs. *)
From Verif Require Import PyStr PyStrFacts PyBase PyNum BatchModel BatchSpec BatchProofs.
From Coq Require Import Permutation.
Local Open Scope nat_scope.

Lemma subseq_In {A} (l l' : list A) x : subseq l l' -> In x l -> In x l'.
Proof. induction 1; cbn; [auto| |auto]. intros [<-|H']; auto. Qed.
Lemma subseq_NoDup {A} (l l' : list A) : subseq l l' -> NoDup l' -> NoDup l.
Proof.
  induction 1 as [|x l l' H IH|x l l' H IH]; intros N; [constructor| |].
  - inversion N; subst. constructor; [|auto]. intros C. apply H2. eapply subseq_In; eauto.
  - inversion N; subst. auto.
Qed.
Lemma subseq_map {A B} (f : A -> B) l l' : subseq l l' -> subseq (map f l) (map f l').
Proof. induction 1; cbn; constructor; auto. Qed.
Lemma subseq_app {A} (a b c d : list A) : subseq a b -> subseq c d -> subseq (a ++ c) (b ++ d).
Proof. induction 1; cbn; intros; auto; constructor; auto. Qed.
Lemma idents_uid l : map uid l = map fst (idents l).
Proof. unfold idents. rewrite map_map. reflexivity. Qed.
Lemma shr_NoDup a b : shr a b -> NoDup (map uid (all b)) -> NoDup (map uid (all a)).
Proof.
  intros H. rewrite !idents_uid. apply subseq_NoDup, subseq_map, sel_subseq, shr_all_aux, H.
Qed.
Lemma NoDup_uid_inj l x y : NoDup (map uid l) -> In x l -> In y l -> uid x = uid y -> x = y.
Proof.
  induction l as [|a l IH]; cbn; intros N; [intros []|]. inversion N; subst. intros [<-|Hx] [<-|Hy] E; auto.
  - exfalso. apply H1. rewrite E. now apply in_map.
  - exfalso. apply H1. rewrite <- E. now apply in_map.
Qed.

Definition mono (test : list job -> job -> bool) : Prop :=
  forall st' st x' x, Forall2 shr st' st -> uid x' = uid x -> info x' = info x -> test st' x' = true -> test st x = true.
Lemma F2_refl st : Forall2 shr st st.
Proof. induction st; constructor; auto using shr_refl. Qed.
Lemma F2_mid pre a b later : shr a b -> Forall2 shr (pre ++ a :: later) (pre ++ b :: later).
Proof. intros H. apply Forall2_app; [apply F2_refl|]. constructor; [exact H|apply F2_refl]. Qed.

Definition step (test : list job -> job -> bool) (pre later : list job) (it x : job) : job :=
  if test (pre ++ it :: later) x then removeImportance (uid x) it else it.
Lemma fold_step_shr test pre later xs : forall cur, shr (fold_left (step test pre later) xs cur) cur.
Proof.
  induction xs as [|x xs IH]; intros cur; cbn [fold_left]; [apply shr_refl|].
  eapply shr_trans; [apply IH|]. unfold step. destruct (test _ x); [apply remove_shr|apply shr_refl].
Qed.
Lemma fold_step_clean test pre later xs : mono test -> forall cur, NoDup (map uid (all cur)) ->
  let it' := fold_left (step test pre later) xs cur in
  forall x x', In x xs -> In x' (all it') -> uid x' = uid x -> info x' = info x -> test (pre ++ it' :: later) x' = false.
Proof.
  intros M. induction xs as [|x0 xs IH]; intros cur N it' x x' Hx Hx' Eu Ei; [destruct Hx|]. cbn [fold_left] in it'.
  assert (N' : NoDup (map uid (all (step test pre later cur x0)))).
  { unfold step. destruct (test _ x0); [|exact N]. eapply shr_NoDup; [apply remove_shr|exact N]. }
  destruct Hx as [<-|Hx]; [|eapply (IH _ N'); eauto].
  destruct (test (pre ++ it' :: later) x') eqn:E; [|reflexivity]. exfalso.
  assert (Sh : shr it' (step test pre later cur x0)) by apply fold_step_shr.
  assert (T : test (pre ++ cur :: later) x0 = true).
  { eapply M; [apply F2_mid| exact Eu|exact Ei|exact E].
    eapply shr_trans; [exact Sh|]. unfold step. destruct (test _ x0); [apply remove_shr|apply shr_refl]. }
  unfold step in Sh. rewrite T in Sh. destruct (shr_all_In _ _ x' Sh Hx') as [y [Hy Sy]].
  apply (remove_gone (uid x0) cur N). destruct (shr_key _ _ Sy) as [E1 _]. apply in_map_iff. exists y. split; [congruence|exact Hy].
Qed.

Lemma from_or_is_shr z' z x' : shr z' z -> from_or_is z' x' -> exists x, shr x' x /\ from_or_is z x.
Proof.
  intros S [<-|H]; [exists z; split; [exact S|now left]|]. destruct (shr_all_In _ _ x' S H) as [y [Hy Sy]].
  exists y. split; [exact Sy|now right].
Qed.
Lemma fold_step_keep test pre later it xs : mono test -> NoDup (map uid (all it)) -> incl xs (all it) ->
  forall cur, shr cur it -> forall x xc, In x (all it) -> In xc (all cur) -> shr xc x ->
  (forall z, In z (all it) -> from_or_is z x -> test (pre ++ it :: later) z = false) ->
  exists x', In x' (all (fold_left (step test pre later) xs cur)) /\ shr x' x.
Proof.
  intros M N. induction xs as [|x0 xs IH]; intros Hi cur Sc x xc Hx Hxc Sx Hz; cbn [fold_left]; [eauto|].
  assert (Hi' : incl xs (all it)) by (intros y Hy; apply Hi; now right).
  assert (H0 : In x0 (all it)) by (apply Hi; now left).
  unfold step at 2. destruct (test (pre ++ cur :: later) x0) eqn:T; [|apply (IH Hi' cur Sc x xc); auto].
  assert (T0 : test (pre ++ it :: later) x0 = true) by (eapply M; [apply F2_mid, Sc| | |exact T]; reflexivity).
  destruct (remove_keeps (uid x0) cur xc Hxc) as [(x' & Hx' & Sx')|(z & Hzc & Ez & Fz)].
  - apply (IH Hi' _ (shr_trans _ _ _ (remove_shr _ _) Sc) x x'); auto. eapply shr_trans; eauto.
  - exfalso. destruct (shr_all_In _ _ z Sc Hzc) as [z0 [Hz0 Sz]].
    destruct (from_or_is_shr z z0 xc Sz Fz) as (x1 & S1 & F1).
    assert (E0 : z0 = x0).
    { apply (NoDup_uid_inj (all it)); auto. destruct (shr_key _ _ Sz) as [E1 _]. congruence. }
    subst z0. assert (Hx1 : In x1 (all it)) by (destruct F1 as [<-|F1]; [exact H0|eapply all_trans; eauto]).
    assert (E1 : x1 = x).
    { apply (NoDup_uid_inj (all it)); auto. destruct (shr_key _ _ S1), (shr_key _ _ Sx). congruence. }
    subst x1. rewrite (Hz x0 H0 F1) in T0. discriminate.
Qed.
Lemma sweep_item_eq test pre it later : sweep_item test pre it later = fold_left (step test pre later) (all it) it.
Proof. reflexivity. Qed.

Lemma sweep_spec test js : mono test -> Forall (fun it => NoDup (map uid (all it))) js -> forall pre,
  exists js', sweep test pre js = pre ++ js' /\ Forall2 shr js' js /\
  (forall x', In x' (imps js') -> test (pre ++ js') x' = false) /\
  (forall x, In x (imps js) -> (forall it z, In it js -> In x (all it) -> In z (all it) -> from_or_is z x -> test (pre ++ js) z = false) ->
     exists x', In x' (imps js') /\ shr x' x).
Proof.
  intros M. induction js as [|it later IH]; intros HN pre; cbn [sweep].
  - exists []. rewrite app_nil_r. split; [reflexivity|]. split; [constructor|]. split; [intros x' []|intros x []].
  - inversion HN as [|? ? N NL]; subst. set (it' := sweep_item test pre it later).
    destruct (IH NL (pre ++ [it'])) as (js' & E & F & C & K).
    assert (Sh : shr it' it) by apply fold_step_shr.
    exists (it' :: js'). rewrite E, <- app_assoc. split; [reflexivity|]. split; [constructor; auto|]. cbn [app] in *.
    rewrite <- app_assoc in C. cbn [app] in C. split.
    + intros x' Hx'. unfold imps in Hx'. cbn [flat_map] in Hx'. apply in_app_or in Hx'. destruct Hx' as [Hx'|Hx']; [|now apply C].
      destruct (test (pre ++ it' :: js') x') eqn:T; [|reflexivity].
      assert (T' : test (pre ++ it' :: later) x' = true).
      { eapply M; [| | |exact T]; auto. apply Forall2_app; [apply F2_refl|]. constructor; [apply shr_refl|exact F]. }
      destruct (shr_all_In _ _ x' Sh Hx') as [y [Hy Sy]]. destruct (shr_key _ _ Sy) as [E1 E2].
      rewrite (fold_step_clean test pre later (all it) M it N y x' Hy Hx' E1 E2 : test (pre ++ it' :: later) x' = false) in T'. discriminate.
    + intros x Hx Hz. unfold imps in Hx. cbn [flat_map] in Hx. apply in_app_or in Hx. destruct Hx as [Hx|Hx].
      * destruct (fold_step_keep test pre later it (all it) M N (incl_refl _) it (shr_refl it) x x Hx Hx (shr_refl x)) as (x' & Hx' & S').
        { intros z Hzi Fz. apply (Hz it z); auto. now left. }
        exists x'. split; [|exact S']. unfold imps. cbn [flat_map]. apply in_or_app. left. exact Hx'.
      * destruct (K x Hx) as (x' & Hx' & S').
        { intros i z Hi Hxi Hzi Fz. rewrite <- app_assoc. cbn [app].
          destruct (test (pre ++ it' :: later) z) eqn:T; [|reflexivity].
          assert (T' : test (pre ++ it :: later) z = true) by (eapply M; [apply F2_mid, Sh| | |exact T]; reflexivity).
          rewrite (Hz i z) in T'; auto. now right. }
        exists x'. split; [|exact S']. unfold imps. cbn [flat_map]. apply in_or_app. auto.
Qed.

(** the two tests *)
Lemma normed_item_some excl name l : has (normed_name_item excl name l) = true <->
  exists j, In j l /\ normed (info j) = name /\ (forall u, excl = Some u -> uid j <> u).
Proof.
  unfold normed_name_item. destruct (find _ l) as [j|] eqn:E; cbn [has].
  - split; [|reflexivity]. intros _. apply find_some in E. destruct E as [Hj E]. apply andb_true_iff in E. destruct E as [E1 E2].
    apply str_eqb_eq in E1. exists j. split; [exact Hj|]. split; [exact E1|]. intros u ->.
    apply negb_true_iff, Nat.eqb_neq in E2. exact E2.
  - split; [discriminate|]. intros (j & Hj & En & Eu). exfalso. pose proof (find_none _ _ E j Hj) as F. cbn in F.
    rewrite En, str_eqb_refl in F. cbn in F. apply negb_false_iff in F. destruct excl as [u|]; [|discriminate].
    apply Nat.eqb_eq in F. now apply (Eu u).
Qed.
Lemma Forall2_In_l {A B} (R : A -> B -> Prop) la lb a : Forall2 R la lb -> In a la -> exists b, In b lb /\ R a b.
Proof.
  induction 1 as [|x y la lb H1 H2 IH]; cbn; [intros []|]. intros [<-|H]; [eauto|].
  destruct (IH H) as [b [Hb Rb]]. eauto.
Qed.
Lemma mono_full : mono is_full_run.
Proof.
  intros st' st x' x F Eu Ei. unfold is_full_run. rewrite !normed_item_some. intros (j & Hj & En & _).
  destruct (Forall2_In_l _ _ _ j F Hj) as [k [Hk Sk]]. destruct (shr_key _ _ Sk) as [_ E].
  exists k. split; [exact Hk|]. split; [congruence|discriminate].
Qed.
Definition nonskip (skip : list str) (j : job) : Prop := ~ In (j_name (info j)) skip.
Lemma items_imp_In skip st j : In j (items_imp skip st) <-> In j st \/ (In j (imps st) /\ nonskip skip j).
Proof.
  unfold items_imp, imps. rewrite !in_flat_map. split.
  - intros (it & Hit & [<-|H]); [auto|]. apply filter_In in H. destruct H as [H1 H2]. apply negb_true_iff, mem_str_false in H2.
    right. split; [exists it; auto|exact H2].
  - intros [H|[(it & Hit & H1) H2]]; [exists j; split; [exact H|now left]|]. exists it. split; [exact Hit|]. right.
    apply filter_In. split; [exact H1|]. now apply negb_true_iff, mem_str_false.
Qed.
Lemma imps_shr st' st x : Forall2 shr st' st -> In x (imps st') -> exists y, In y (imps st) /\ shr x y.
Proof.
  intros F H. unfold imps in *. apply in_flat_map in H. destruct H as (it & Hit & H).
  destruct (Forall2_In_l _ _ _ it F Hit) as [k [Hk Sk]]. destruct (shr_all_In _ _ x Sk H) as [y [Hy Sy]].
  exists y. split; [apply in_flat_map; eauto|exact Sy].
Qed.
Lemma mono_dup skip : mono (is_duplicate skip).
Proof.
  intros st' st x' x F Eu Ei. unfold is_duplicate. rewrite !normed_item_some. intros (j & Hj & En & Ex).
  specialize (Ex _ eq_refl). apply items_imp_In in Hj. destruct Hj as [Hj|[Hj Ns]].
  - destruct (Forall2_In_l _ _ _ j F Hj) as [k [Hk Sk]]. destruct (shr_key _ _ Sk) as [E1 E2].
    exists k. split; [apply items_imp_In; auto|]. split; [congruence|]. intros u E. injection E as <-. congruence.
  - destruct (imps_shr _ _ j F Hj) as [k [Hk Sk]]. destruct (shr_key _ _ Sk) as [E1 E2].
    exists k. split; [apply items_imp_In; right; split; [exact Hk|]; unfold nonskip in *; congruence|].
    split; [congruence|]. intros u E. injection E as <-. congruence.
Qed.

Lemma F2_shr_trans a b c : Forall2 shr a b -> Forall2 shr b c -> Forall2 shr a c.
Proof.
  intros H. revert c. induction H as [|x y la lb H1 H2 IH]; intros c Hc; inversion Hc; subst; constructor; auto.
  eapply shr_trans; eauto.
Qed.
Lemma F2_items_NoDup st' st : Forall2 shr st' st -> Forall (fun it => NoDup (map uid (all it))) st -> Forall (fun it => NoDup (map uid (all it))) st'.
Proof.
  induction 1 as [|a b la lb H1 H2 IH]; intros H; [constructor|]. inversion H; subst. constructor; [eapply shr_NoDup; eauto|auto].
Qed.

Lemma imps_NoDup_items js : NoDup (map uid (imps js)) -> Forall (fun it => NoDup (map uid (all it))) js.
Proof. intros H. apply Forall_forall. intros it Hit. eapply flat_NoDup; eauto. Qed.

Lemma clean_spec skip js : NoDup (map uid (imps js)) ->
  Forall2 shr (clean skip js) js /\
  (forall x, In x (imps (clean skip js)) -> is_full_run (clean skip js) x = false /\ is_duplicate skip (clean skip js) x = false) /\
  (forall x, In x (imps js) ->
     (forall z, In z (imps js) -> from_or_is z x -> is_full_run js z = false /\ is_duplicate skip js z = false) ->
     exists x', In x' (imps (clean skip js)) /\ shr x' x).
Proof.
  intros NG. pose proof (imps_NoDup_items js NG) as N. unfold clean.
  destruct (sweep_spec is_full_run js mono_full N []) as (j1 & E1 & F1 & C1 & K1). rewrite E1. cbn [app] in *.
  pose proof (F2_items_NoDup _ _ F1 N) as N1.
  destruct (sweep_spec (is_duplicate skip) j1 (mono_dup skip) N1 []) as (j2 & E2 & F2 & C2 & K2). rewrite E2. cbn [app] in *.
  assert (Im : forall it z, In it js -> In z (all it) -> In z (imps js)) by (intros it z H1 H2; apply in_flat_map; eauto).
  split; [eapply F2_shr_trans; eauto|]. split.
  - intros x Hx. split; [|now apply C2]. destruct (is_full_run j2 x) eqn:T; [|reflexivity].
    destruct (imps_shr _ _ x F2 Hx) as [y [Hy Sy]]. destruct (shr_key _ _ Sy) as [Eu Ei].
    rewrite <- (C1 y Hy). symmetry. eapply mono_full; eauto.
  - intros x Hx Hz. destruct (K1 x Hx) as (x1 & Hx1 & S1).
    { intros it z H1 H2 H3 H4. apply (Hz z); eauto. }
    destruct (K2 x1 Hx1) as (x2 & Hx2 & S2).
    { intros it1 z1 H1 H2 H3 H4. destruct (is_duplicate skip j1 z1) eqn:T; [|reflexivity].
      destruct (Forall2_In_l _ _ _ it1 F1 H1) as [it [Hit Sit]].
      destruct (shr_all_In _ _ z1 Sit H3) as [z [Hzz Sz]]. destruct (from_or_is_shr z1 z x1 Sz H4) as (x0 & S0 & F0).
      destruct (shr_key _ _ Sz) as [Eu Ei].
      assert (T' : is_duplicate skip js z = true) by (eapply mono_dup; eauto).
      assert (Hx0 : In x0 (all it)) by (destruct F0 as [<-|F0]; [exact Hzz|eapply all_trans; eauto]).
      assert (E0 : x0 = x).
      { apply (NoDup_uid_inj (imps js)); eauto. destruct (shr_key _ _ S0), (shr_key _ _ S1). congruence. }
      subst x0. destruct (Hz z) as [_ D]; eauto. }
    exists x2. split; [exact Hx2|]. eapply shr_trans; eauto.
Qed.

(** ** without nested importance jobs every name survives *)
Definition flat_job (j : job) : Prop := all j = [].
Lemma sweep_survive skip N js : (forall x, In x (imps js) -> flat_job x) -> forall pre,
  NoDup (map uid (imps js)) -> (forall j, In j (pre ++ js) -> normed (info j) <> N) ->
  (exists y, In y (imps (pre ++ js)) /\ nonskip skip y /\ normed (info y) = N) ->
  exists y, In y (imps (sweep (is_duplicate skip) pre js)) /\ nonskip skip y /\ normed (info y) = N.
Proof.
  induction js as [|it later IH]; intros Fl pre ND NM Hy; cbn [sweep].
  - now rewrite app_nil_r in Hy.
  - assert (ND1 : NoDup (map uid (all it))) by (unfold imps in ND; cbn [flat_map] in ND; rewrite map_app, NoDup_app_iff in ND; tauto).
    assert (ND2 : NoDup (map uid (imps later))) by (unfold imps in ND; cbn [flat_map] in ND; rewrite map_app, NoDup_app_iff in ND; tauto).
    assert (G : forall xs cur, incl xs (all it) -> shr cur it ->
       (exists y, In y (imps (pre ++ cur :: later)) /\ nonskip skip y /\ normed (info y) = N) ->
       exists y, In y (imps (pre ++ fold_left (step (is_duplicate skip) pre later) xs cur :: later)) /\ nonskip skip y /\ normed (info y) = N).
    { induction xs as [|x xs IHx]; intros cur Hi Sc Hc; cbn [fold_left]; [exact Hc|].
      apply IHx; [intros y Hy'; apply Hi; now right| |].
      - unfold step. destruct (is_duplicate _ _ x); [|exact Sc]. eapply shr_trans; [apply remove_shr|exact Sc].
      - unfold step. destruct (is_duplicate skip (pre ++ cur :: later) x) eqn:T; [|exact Hc].
        assert (Hx : In x (all it)) by (apply Hi; now left).
        assert (W : exists y, In y (imps (pre ++ cur :: later)) /\ nonskip skip y /\ normed (info y) = N /\
                    (In y (all cur) -> uid y <> uid x)).
        { destruct (str_eq_dec (normed (info x)) N) as [En|En].
          - apply normed_item_some in T. destruct T as (y & Hyi & Ey & Eu). specialize (Eu _ eq_refl).
            apply items_imp_In in Hyi. destruct Hyi as [Hm|[Hyi Ns]].
            + exfalso. apply in_app_or in Hm. destruct Hm as [Hm|[<-|Hm]].
              * apply (NM y); [apply in_or_app; auto|congruence].
              * apply (NM it); [apply in_or_app; right; now left|]. destruct (shr_key _ _ Sc) as [_ Ei]. congruence.
              * apply (NM y); [apply in_or_app; right; now right|congruence].
            + exists y. repeat split; auto. congruence.
          - destruct Hc as (y & Hyi & Ns & Ey). exists y. repeat split; auto. intros Hyc Eu.
            destruct (shr_all_In _ _ y Sc Hyc) as [y0 [Hy0 S0]]. destruct (shr_key _ _ S0) as [E1 E2].
            assert (y0 = x) by (apply (NoDup_uid_inj (all it)); auto; congruence). subst y0. congruence. }
        destruct W as (y & Hyi & Ns & Ey & Hne). unfold imps in Hyi. rewrite flat_map_app in Hyi. cbn [flat_map] in Hyi.
        apply in_app_or in Hyi. destruct Hyi as [Hyi|Hyi].
        + exists y. split; [|auto]. unfold imps. rewrite flat_map_app. apply in_or_app. auto.
        + apply in_app_or in Hyi. destruct Hyi as [Hyi|Hyi].
          * destruct (remove_keeps (uid x) cur y Hyi) as [(y' & Hy' & Sy')|(z & Hz & Ez & [->|Fz])].
            -- destruct (shr_key _ _ Sy') as [E1 E2]. exists y'. split.
               ++ unfold imps. rewrite flat_map_app. cbn [flat_map]. apply in_or_app. right. apply in_or_app. auto.
               ++ unfold nonskip in *. rewrite E2. auto.
            -- exfalso. now apply Hne.
            -- exfalso. destruct (shr_all_In _ _ z Sc Hz) as [z0 [Hz0 S0]].
               assert (F0 : flat_job z0) by (apply Fl; unfold imps; cbn [flat_map]; apply in_or_app; auto).
               destruct (shr_all_In _ _ y S0 Fz) as [y0 [Hy0 _]]. unfold flat_job in F0. rewrite F0 in Hy0. contradiction.
          * exists y. split; [|auto]. unfold imps. rewrite flat_map_app. cbn [flat_map]. apply in_or_app. right. apply in_or_app. auto. }
    specialize (G (all it) it (incl_refl _) (shr_refl it) Hy).
    assert (Sh : shr (sweep_item (is_duplicate skip) pre it later) it) by apply fold_step_shr.
    apply IH; auto.
    + intros x Hx. apply Fl. unfold imps. cbn [flat_map]. apply in_or_app. auto.
    + intros j Hj. rewrite <- app_assoc in Hj. apply in_app_or in Hj. destruct Hj as [Hj|[<-|Hj]].
      * apply NM. apply in_or_app. auto.
      * destruct (shr_key _ _ Sh) as [_ Ei]. rewrite Ei. apply NM. apply in_or_app. right. now left.
      * apply NM. apply in_or_app. right. now right.
    + rewrite <- app_assoc. exact G.
Qed.
Lemma clean_survive skip js x : NoDup (map uid (imps js)) -> (forall x, In x (imps js) -> flat_job x) ->
  In x (imps js) -> nonskip skip x -> (forall j, In j js -> normed (info j) <> normed (info x)) ->
  exists y, In y (imps (clean skip js)) /\ nonskip skip y /\ normed (info y) = normed (info x).
Proof.
  intros NG Fl Hx Ns NM. pose proof (imps_NoDup_items js NG) as N. unfold clean.
  destruct (sweep_spec is_full_run js mono_full N []) as (j1 & E1 & F1 & C1 & K1). rewrite E1. cbn [app] in *.
  assert (Sub : subseq (idents (imps j1)) (idents (imps js))).
  { unfold imps. clear - F1. induction F1; cbn [flat_map]; [constructor|]. unfold idents in *. rewrite !map_app.
    apply subseq_app; [apply sel_subseq, shr_all_aux; assumption|assumption]. }
  destruct (K1 x Hx) as (x1 & Hx1 & S1).
  { intros it z H1 H2 H3 [->|H4].
    - destruct (is_full_run js x) eqn:T; [|reflexivity]. apply normed_item_some in T. destruct T as (j & Hj & Ej & _).
      now apply NM in Hj.
    - assert (F0 : flat_job z) by (apply Fl; apply in_flat_map; eauto). unfold flat_job in F0. rewrite F0 in H4. contradiction. }
  destruct (shr_key _ _ S1) as [Eu Ei].
  destruct (sweep_survive skip (normed (info x)) j1) with (pre := @nil job) as (y & Hy).
  - intros z Hz. destruct (imps_shr _ _ z F1 Hz) as [z0 [Hz0 S0]]. specialize (Fl z0 Hz0). unfold flat_job in *.
    pose proof (shr_all_aux _ _ S0) as Se. rewrite Fl in Se. now inversion Se.
  - rewrite idents_uid. eapply subseq_NoDup; [apply subseq_map, Sub|]. now rewrite <- idents_uid.
  - intros j Hj. cbn [app] in Hj. destruct (Forall2_In_l _ _ _ j F1 Hj) as [k [Hk Sk]]. destruct (shr_key _ _ Sk) as [_ E].
    rewrite E. now apply NM.
  - exists x1. cbn [app]. unfold nonskip in *. rewrite Ei. auto.
  - eauto.
Qed.

(** ** building *)
Definition uids (j : job) : list nat := uid j :: map uid (all j).
Definition leaf (j : job) : Prop := kids j = [].
Lemma new_kids_uids p runs : forall c, map uid (new_kids c p runs) = seq c (length (new_kids c p runs)) /\ flat_map all (new_kids c p runs) = [].
Proof.
  induction runs as [|r runs IH]; intros c; cbn [new_kids]; [auto|]. destruct (negb (i_want r p)); [apply IH|].
  destruct (existsb _ _); [apply IH|]. cbn. destruct (IH (S c)) as [E1 E2]. now rewrite E1, E2.
Qed.
Lemma makeImp_uids c runs j : let (c', j') := makeImportance c runs j in
  c <= c' /\ Permutation (uids j') (uids j ++ seq c (c' - c)).
Proof.
  destruct j as [u i ks]. unfold makeImportance. cbn [info uid kids]. destruct (new_kids_uids i runs c) as [E1 E2].
  set (new := new_kids c i runs) in *. split; [lia|]. replace (c + length new - c) with (length new) by lia.
  unfold uids. cbn [uid]. rewrite !all_eq, flat_map_app, E2, app_nil_r, !map_app. cbn [app]. rewrite E1. constructor.
  rewrite <- !app_assoc. apply Permutation_app_head. apply Permutation_app_comm.
Qed.
Definition guids (js : list job) : list nat := flat_map uids js.
Lemma seq_glue a b c : a <= b <= c -> seq a (b - a) ++ seq b (c - b) = seq a (c - a).
Proof. intros H. replace (c - a) with ((b - a) + (c - b)) by lia. rewrite seq_app. do 2 f_equal; lia. Qed.
Lemma fold_imp_uids runs : forall c j c' j', fold_left (fun cj rs => makeImportance (fst cj) rs (snd cj)) runs (c, j) = (c', j') ->
  c <= c' /\ Permutation (uids j') (uids j ++ seq c (c' - c)).
Proof.
  induction runs as [|r runs IH]; intros c j c' j'; cbn [fold_left fst snd].
  - intros E. injection E as <- <-. rewrite Nat.sub_diag, app_nil_r. auto.
  - pose proof (makeImp_uids c r j) as M. destruct (makeImportance c r j) as [c1 j1]. destruct M as [L1 P1]. intros E.
    apply IH in E. destruct E as [L2 P2]. split; [lia|]. rewrite P2, P1, <- app_assoc, seq_glue by lia. reflexivity.
Qed.
Definition good (st : nat * list job) : Prop := NoDup (guids (snd st)) /\ forall u, In u (guids (snd st)) -> u < fst st.
Lemma good_add skip runs st i : good st -> good (add_item skip runs st i).
Proof.
  destruct st as [c js]. unfold add_item. destruct (mem_str _ skip); [auto|].
  destruct (fold_left _ runs (S c, Job c i [])) as [c' j] eqn:E. apply fold_imp_uids in E. destruct E as [Lc P].
  unfold good, guids. cbn [fst snd]. intros [N B]. rewrite flat_map_app. cbn [flat_map]. rewrite app_nil_r.
  unfold uids at 2 in P. cbn in P.
  assert (P' : Permutation (uids j) (seq c (c' - c))).
  { rewrite P. replace (c' - c) with (S (c' - S c)) by lia. reflexivity. }
  split.
  - apply NoDup_app_iff. split; [exact N|]. split.
    + eapply Permutation_NoDup; [symmetry; exact P'|apply seq_NoDup].
    + intros u Hu C. apply B in Hu. apply (Permutation_in _ P') in C. apply in_seq in C. lia.
  - intros u Hu. apply in_app_or in Hu. destruct Hu as [Hu|Hu]; [apply B in Hu; lia|].
    apply (Permutation_in _ P') in Hu. apply in_seq in Hu. lia.
Qed.
Lemma good_fold skip runs l : forall st, good st -> good (fold_left (add_item skip runs) l st).
Proof. induction l as [|i l IH]; intros st H; cbn; auto. apply IH, good_add, H. Qed.
Lemma good_build skip s : good (build skip s).
Proof.
  unfold build. apply good_fold.
  assert (G : forall gs st, good st -> good (fold_left (fun st g => fold_left (add_item skip [g_runs g; s_runs s]) (group_items g) st) gs st)).
  { induction gs as [|g gs IH]; intros st H; cbn [fold_left]; auto. apply IH, good_fold, H. }
  apply G. split; [constructor|intros u []].
Qed.
Lemma filter_kids_uids fs ks : forall c c' ks', filter_kids c fs ks = (c', ks') ->
  c <= c' /\ Permutation (guids ks') (guids ks ++ seq c (c' - c)).
Proof.
  induction ks as [|k ks IH]; intros c c' ks'; cbn [filter_kids].
  - intros E. injection E as <- <-. rewrite Nat.sub_diag. auto.
  - pose proof (makeImp_uids c fs k) as M. destruct (makeImportance c fs k) as [c1 k1]. destruct M as [L1 P1].
    destruct (filter_kids c1 fs ks) as [c2 ks2] eqn:E2. intros E. injection E as <- <-. apply IH in E2. destruct E2 as [L2 P2].
    split; [lia|]. unfold guids in *. cbn [flat_map]. rewrite P1, P2, <- (seq_glue c c1 c2) by lia.
    rewrite <- !app_assoc. apply Permutation_app_head. rewrite !app_assoc. apply Permutation_app_tail. apply Permutation_app_comm.
Qed.
Lemma guids_kids ks : Permutation (guids ks) (map uid ks ++ map uid (flat_map all ks)).
Proof.
  induction ks as [|k ks IH]; [constructor|]. unfold guids in *. cbn [flat_map map]. rewrite IH, map_app. unfold uids. cbn [app].
  constructor. rewrite !app_assoc. apply Permutation_app_tail. apply Permutation_app_comm.
Qed.
Lemma uids_kids u i ks : Permutation (uids (Job u i ks)) (u :: guids ks).
Proof. unfold uids. cbn [uid]. rewrite all_eq, map_app. constructor. symmetry. apply guids_kids. Qed.
Lemma filter_job_uids fs j c c' j' : filter_job c fs j = (c', j') -> c <= c' /\ Permutation (uids j') (uids j ++ seq c (c' - c)).
Proof.
  unfold filter_job. destruct (filter_kids c fs (kids j)) as [c1 ks] eqn:E1. apply filter_kids_uids in E1. destruct E1 as [L1 P1].
  intros E. pose proof (makeImp_uids c1 fs (Job (uid j) (info j) ks)) as M. rewrite E in M. destruct M as [L2 P2].
  split; [lia|]. rewrite P2, uids_kids, P1. destruct j as [u i ks0]. cbn [uid kids]. rewrite (uids_kids u i ks0). cbn [app].
  constructor. rewrite <- app_assoc, seq_glue by lia. reflexivity.
Qed.
Lemma filter_jobs_uids fs js : forall c, exists n, Permutation (guids (filter_jobs c fs js)) (guids js ++ seq c n).
Proof.
  induction js as [|j js IH]; intros c; cbn [filter_jobs]; [exists 0; constructor|].
  destruct (filter_job c fs j) as [c1 j1] eqn:E. apply filter_job_uids in E. destruct E as [L1 P1].
  destruct (IH c1) as [n P2]. exists (c1 - c + n). unfold guids in *. cbn [flat_map]. rewrite P1, P2, seq_app.
  replace (c + (c1 - c)) with c1 by lia. rewrite <- !app_assoc. apply Permutation_app_head. rewrite !app_assoc.
  apply Permutation_app_tail, Permutation_app_comm.
Qed.
Definition built (skip : list str) (s : settings) : list job := filter_jobs (fst (build skip s)) (s_filters s) (snd (build skip s)).
Lemma built_NoDup skip s : NoDup (guids (built skip s)).
Proof.
  unfold built. destruct (good_build skip s) as [N B]. destruct (build skip s) as [c js]. cbn [fst snd] in *.
  destruct (filter_jobs_uids (s_filters s) js c) as [n P]. eapply Permutation_NoDup; [symmetry; exact P|].
  apply NoDup_app_iff. split; [exact N|]. split; [apply seq_NoDup|]. intros u Hu C. apply B in Hu. apply in_seq in C. lia.
Qed.
Lemma imps_NoDup js : NoDup (guids js) -> NoDup (map uid (imps js)).
Proof. intros H. eapply (Permutation_NoDup (guids_kids js)) in H. apply NoDup_app_iff in H. tauto. Qed.

(** ** the shape of what is built *)
Lemma new_kids_shape p runs : forall c, map shape (new_kids c p runs) = map (fun i => T i []) (derived p runs).
Proof.
  unfold derived. induction runs as [|r runs IH]; intros c; cbn [new_kids filter]; [reflexivity|]. unfold wanted at 1.
  destruct (i_want r p); cbn [negb andb]; [|apply IH].
  destruct (existsb (fun n => mem_str n (d_names (j_data p))) (i_names r)) eqn:E.
  - assert (F : forallb (fun n => negb (mem_str n (d_names (j_data p)))) (i_names r) = false).
    { apply existsb_exists in E. destruct E as [n [Hn E]]. destruct (forallb _ _) eqn:F; [|reflexivity].
      rewrite forallb_forall in F. specialize (F n Hn). rewrite E in F. discriminate. }
    rewrite F. apply IH.
  - assert (F : forallb (fun n => negb (mem_str n (d_names (j_data p)))) (i_names r) = true).
    { apply forallb_forall. intros n Hn. destruct (mem_str n _) eqn:M; [|reflexivity].
      assert (X : existsb (fun n => mem_str n (d_names (j_data p))) (i_names r) = true) by (apply existsb_exists; eauto). congruence. }
    rewrite F. cbn [map shape]. f_equal. apply IH.
Qed.
Definition ikids (t : itree) := let (_, ts) := t in ts.
Lemma makeImp_shape c runs j : shape (snd (makeImportance c runs j)) = T (info j) (map shape (kids j) ++ map (fun i => T i []) (derived (info j) runs)).
Proof. destruct j as [u i ks]. unfold makeImportance. cbn. now rewrite map_app, new_kids_shape. Qed.
Lemma derived_app p a b : derived p (a ++ b) = derived p a ++ derived p b.
Proof. unfold derived. now rewrite filter_app, map_app. Qed.
Lemma fold_imp_shape runs : forall c j, shape (snd (fold_left (fun cj rs => makeImportance (fst cj) rs (snd cj)) runs (c, j)))
  = T (info j) (map shape (kids j) ++ map (fun i => T i []) (derived (info j) (concat runs))).
Proof.
  induction runs as [|r runs IH]; intros c j; cbn [fold_left concat fst snd].
  - cbn. rewrite app_nil_r. now destruct j.
  - pose proof (makeImp_shape c r j) as M. destruct (makeImportance c r j) as [c1 j1]. cbn [snd] in M. rewrite IH.
    assert (Ei : info j1 = info j /\ map shape (kids j1) = map shape (kids j) ++ map (fun i => T i []) (derived (info j) r)).
    { destruct j1 as [u1 i1 k1]. cbn in M. injection M as -> M. auto. }
    destruct Ei as [-> ->]. now rewrite derived_app, map_app, app_assoc.
Qed.
Definition base_tree (runs : list imprun) (i : jinfo) : itree := T i (map (fun k => T k []) (derived i runs)).
Lemma add_item_shape skip runs st i : map shape (snd (add_item skip runs st i)) =
  map shape (snd st) ++ (if mem_str (j_name i) skip then [] else [base_tree (concat runs) i]).
Proof.
  destruct st as [c js]. unfold add_item. destruct (mem_str _ skip); [cbn; now rewrite app_nil_r|].
  pose proof (fold_imp_shape runs (S c) (Job c i [])) as M. destruct (fold_left _ runs (S c, Job c i [])) as [c' j].
  cbn [snd] in *. rewrite map_app. cbn [map]. rewrite M. reflexivity.
Qed.
Lemma fold_add_shape skip runs l : forall st, map shape (snd (fold_left (add_item skip runs) l st)) =
  map shape (snd st) ++ map (base_tree (concat runs)) (filter (fun i => negb (mem_str (j_name i) skip)) l).
Proof.
  induction l as [|i l IH]; intros st; cbn [fold_left filter]; [now rewrite app_nil_r|]. rewrite IH, add_item_shape, <- app_assoc.
  f_equal. destruct (mem_str (j_name i) skip); reflexivity.
Qed.
Lemma build_shape skip s : map shape (snd (build skip s)) =
  flat_map (fun g => map (base_tree (g_runs g ++ s_runs s)) (filter (fun i => negb (mem_str (j_name i) skip)) (group_items g))) (s_groups s)
  ++ map (base_tree (s_runs s)) (s_items s).
Proof.
  unfold build. rewrite fold_add_shape. cbn [concat]. rewrite app_nil_r.
  assert (F : filter (fun i => negb (mem_str (j_name i) [])) (s_items s) = s_items s).
  { induction (s_items s) as [|a l IH]; cbn; [auto|]. cbn in IH. now rewrite IH. }
  rewrite F. f_equal.
  assert (G : forall gs st, map shape (snd (fold_left (fun st g => fold_left (add_item skip [g_runs g; s_runs s]) (group_items g) st) gs st)) =
    map shape (snd st) ++ flat_map (fun g => map (base_tree (g_runs g ++ s_runs s)) (filter (fun i => negb (mem_str (j_name i) skip)) (group_items g))) gs).
  { induction gs as [|g gs IH]; intros st; cbn [fold_left flat_map]; [now rewrite app_nil_r|].
    rewrite IH, fold_add_shape. cbn [concat]. now rewrite app_nil_r, app_assoc. }
  rewrite G. reflexivity.
Qed.
Definition filtered_kid (fs : list imprun) (t : itree) : itree := let (i, ts) := t in T i (ts ++ map (fun g => T g []) (derived i fs)).
Definition filtered (fs : list imprun) (t : itree) : itree :=
  let (i, ts) := t in T i (map (filtered_kid fs) ts ++ map (fun k => T k []) (derived i fs)).
Lemma makeImp_filtered c fs k : shape (snd (makeImportance c fs k)) = filtered_kid fs (shape k).
Proof. rewrite makeImp_shape. now destruct k. Qed.
Lemma filter_kids_shape fs ks : forall c, map shape (snd (filter_kids c fs ks)) = map (filtered_kid fs) (map shape ks).
Proof.
  induction ks as [|k ks IH]; intros c; cbn [filter_kids]; [reflexivity|].
  pose proof (makeImp_filtered c fs k) as M. destruct (makeImportance c fs k) as [c1 k1]. specialize (IH c1).
  destruct (filter_kids c1 fs ks) as [c2 ks2]. cbn [snd map] in *. now rewrite M, IH.
Qed.
Lemma filter_job_shape c fs j : shape (snd (filter_job c fs j)) = filtered fs (shape j).
Proof.
  unfold filter_job. pose proof (filter_kids_shape fs (kids j) c) as K. destruct (filter_kids c fs (kids j)) as [c1 ks]. cbn [snd] in K.
  rewrite makeImp_shape. cbn [info kids]. rewrite K. now destruct j.
Qed.
Lemma filter_jobs_shape fs js : forall c, map shape (filter_jobs c fs js) = map (filtered fs) (map shape js).
Proof.
  induction js as [|j js IH]; intros c; cbn [filter_jobs]; [reflexivity|]. pose proof (filter_job_shape c fs j) as M.
  destruct (filter_job c fs j) as [c1 j1]. cbn [snd map] in *. now rewrite M, IH.
Qed.
Lemma built_shape skip s : map shape (built skip s) = requested skip s.
Proof.
  unfold built. rewrite filter_jobs_shape, build_shape. unfold requested. rewrite map_app, !map_map.
  assert (B : forall runs i, filtered (s_filters s) (base_tree runs i) = request (s_filters s) runs i).
  { intros runs i. unfold filtered, base_tree, request. rewrite map_map. reflexivity. }
  f_equal; [|apply map_ext; intros i; apply B].
  induction (s_groups s) as [|g gs IH]; cbn [flat_map]; [reflexivity|]. rewrite map_app, IH, map_map. f_equal.
  apply map_ext. intros i. apply B.
Qed.
Lemma makeItems_eq skip s : makeItems skip s = clean skip (built skip s).
Proof. unfold makeItems, built. now destruct (build skip s). Qed.

Lemma F2_subseq a b : Forall2 shr a b -> subseq (idents (imps a)) (idents (imps b)).
Proof.
  intros F. unfold imps. induction F; cbn [flat_map]; [constructor|]. unfold idents in *. rewrite !map_app.
  apply subseq_app; [apply sel_subseq, shr_all_aux; assumption|assumption].
Qed.
Lemma Forall2_In_r {A B} (R : A -> B -> Prop) la lb b : Forall2 R la lb -> In b lb -> exists a, In a la /\ R a b.
Proof. intros F. induction F; intros []; [subst; eauto using in_eq|]. destruct IHF as (a & Ha & Hr); auto. exists a. split; [now right|exact Hr]. Qed.
