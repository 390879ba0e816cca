From Verif Require Import PyStr PyStrFacts PyBase PyNum BatchModel BatchSpec.
From Coq Require Import Permutation.
Local Open Scope nat_scope.

(** ** tags *)
Lemma split_tag names : names <> [] -> Forall plain names -> split_ch us (tag_of names) = names.
Proof.
  induction names as [|a names IH]; intros Hn Hp; [contradiction|]. inversion Hp; subst.
  destruct names as [|b names].
  - cbn. now apply split_ch_notin.
  - change (tag_of (a :: b :: names)) with (a ++ [us] ++ tag_of (b :: names)).
    rewrite split_ch_app by assumption. rewrite IH; [reflexivity|discriminate|assumption].
Qed.
Lemma tag_of_inj a b : a <> [] -> b <> [] -> Forall plain a -> Forall plain b -> tag_of a = tag_of b -> a = b.
Proof. intros Ha Hb Pa Pb E. apply (f_equal (split_ch us)) in E. now rewrite !split_tag in E. Qed.
Lemma sort_nonempty l : l <> [] -> sort_str l <> [].
Proof. intros H C. apply H. pose proof (sort_perm l) as P. rewrite C in P. now apply Permutation_nil in P. Qed.
Lemma sort_Forall (P : str -> Prop) l : Forall P l -> Forall P (sort_str l).
Proof. rewrite !Forall_forall. intros H x Hx. apply H. eapply Permutation_in; [apply sort_perm|exact Hx]. Qed.

Lemma not_start p : forall n t, ~ In us p -> startswith p n = false -> (t = [] \/ exists t', t = us :: t') -> startswith p (n ++ t) = false.
Proof.
  induction p as [|c p IH]; intros n t Hp H Ht; [discriminate|].
  destruct n as [|d n].
  - destruct Ht as [->|[t' ->]]; [reflexivity|]. cbn. destruct (ch_eqb_spec c us) as [->|N]; [exfalso; apply Hp; now left|reflexivity].
  - cbn [app startswith] in *. destruct (ch_eqb c d); [|reflexivity]. cbn [andb] in *. apply IH; auto. intros C. apply Hp. now right.
Qed.
Lemma not_post n t : startswith (L "post") n = false -> (t = [] \/ exists t', t = us :: t') -> startswith (L "post") (n ++ t) = false.
Proof. apply not_start. cbn. intros H. repeat (destruct H as [H|H]; [discriminate|]). exact H. Qed.
Lemma replace_tag_text rest : forall n0, plain n0 -> Forall (fun pn => tag_name (snd pn)) rest ->
  replace_str post [] (tag_text n0 rest) = tag_of (n0 :: map snd rest).
Proof.
  induction rest as [|[p n] rest IH]; intros n0 H0 H.
  - unfold tag_text. cbn. rewrite app_nil_r. unfold post. change (L "_post") with (us :: L "post").
    rewrite <- (app_nil_r n0) at 1. rewrite replace_pass by exact H0. reflexivity || (cbn; now rewrite app_nil_r).
  - inversion H as [|? ? [Hp Hq] Hr]; subst. cbn [snd] in *.
    assert (E : tag_text n0 ((p, n) :: rest) = n0 ++ (if p then post else []) ++ [us] ++ tag_text n rest).
    { unfold tag_text. cbn [map concat fst snd]. rewrite <- !app_assoc. destruct p; reflexivity. }
    rewrite E. unfold post at 1. change (L "_post") with (us :: L "post"). rewrite replace_pass by exact H0.
    change (us :: L "post") with post.
    assert (M : replace_str post [] ([us] ++ tag_text n rest) = [us] ++ tag_of (n :: map snd rest)).
    { cbn [app]. rewrite replace_miss; [now rewrite IH|].
      change (startswith (L "post") (tag_text n rest) = false). unfold tag_text. apply not_post; [exact Hq|].
      destruct rest as [|[q m] rest]; [left; reflexivity|]. right. cbn. destruct q; eexists; reflexivity. }
    destruct p.
    + rewrite replace_hit by discriminate. rewrite M. reflexivity.
    + cbn [app] in *. rewrite M. reflexivity.
Qed.
Lemma normalize_tag_text n0 rest : plain n0 -> Forall (fun pn => tag_name (snd pn)) rest ->
  normalizeDataTag (tag_text n0 rest) = tag_of (sort_str (n0 :: map snd rest)).
Proof.
  intros H0 H. unfold normalizeDataTag. rewrite replace_tag_text by assumption. rewrite split_tag; [reflexivity|discriminate|].
  constructor; [exact H0|]. rewrite Forall_map. eapply Forall_impl; [|exact H]. intros a [Ha _]. exact Ha.
Qed.
Lemma tag_text_of names : forall n0, tag_text n0 (map (pair false) names) = tag_of (n0 :: names).
Proof.
  induction names as [|n names IH]; intros n0; [apply app_nil_r|].
  change (tag_of (n0 :: n :: names)) with (n0 ++ [us] ++ tag_of (n :: names)). rewrite <- IH.
  unfold tag_text. cbn [map concat fst snd]. now rewrite <- !app_assoc.
Qed.
Lemma tag_text_app n0 r1 r2 : tag_text n0 (r1 ++ r2) = tag_text n0 r1 ++ concat (map (fun pn : bool * str => (if fst pn then L "_post_" else L "_") ++ snd pn) r2).
Proof. unfold tag_text. now rewrite map_app, concat_app, app_assoc. Qed.
Lemma map_snd_pair (names : list str) : map snd (map (pair false) names) = names.
Proof. rewrite map_map. cbn. apply map_id. Qed.

(** ** job trees *)
Fixpoint job_rec' (P : job -> Prop) (H : forall u i ks, Forall P ks -> P (Job u i ks)) (j : job) : P j :=
  match j with
  | Job u i ks => H u i ks ((fix go l : Forall P l := match l with [] => Forall_nil P | k :: l' => Forall_cons k (job_rec' P H k) (go l') end) ks)
  end.
Notation all := importanceJobsRecursive.
Lemma all_eq u i ks : all (Job u i ks) = ks ++ flat_map all ks.
Proof. reflexivity. Qed.

Inductive shr : job -> job -> Prop :=
| Shr u i ks' ks : shrs ks' ks -> shr (Job u i ks') (Job u i ks)
with shrs : list job -> list job -> Prop :=
| shrs_nil : shrs [] []
| shrs_keep a b la lb : shr a b -> shrs la lb -> shrs (a :: la) (b :: lb)
| shrs_drop b la lb : shrs la lb -> shrs la (b :: lb).
Scheme shr_mut := Induction for shr Sort Prop with shrs_mut := Induction for shrs Sort Prop.

Lemma shr_refl j : shr j j.
Proof.
  induction j as [u i ks IH] using job_rec'. constructor. induction IH; constructor; auto.
Qed.
Lemma shrs_refl l : shrs l l.
Proof. induction l; constructor; auto using shr_refl. Qed.
Lemma shr_trans_aux : forall b c, shr b c -> forall a, shr a b -> shr a c.
Proof.
  apply (shr_mut (fun b c _ => forall a, shr a b -> shr a c) (fun lb lc _ => forall la, shrs la lb -> shrs la lc)).
  - intros u i ks' ks H IH a Ha. inversion Ha; subst. constructor. auto.
  - auto.
  - intros x y la lb H1 IH1 H2 IH2 l Hl. inversion Hl; subst; constructor; auto.
  - intros y la lb H IH l Hl. constructor. auto.
Qed.
Lemma shr_trans a b c : shr a b -> shr b c -> shr a c.
Proof. intros H1 H2. eapply shr_trans_aux; eauto. Qed.
Lemma shr_key a b : shr a b -> uid a = uid b /\ info a = info b.
Proof. intros H. inversion H; subst. auto. Qed.

(** a sub-list of related jobs *)
Inductive sel : list job -> list job -> Prop :=
| sel_nil : sel [] []
| sel_keep a b la lb : shr a b -> sel la lb -> sel (a :: la) (b :: lb)
| sel_drop b la lb : sel la lb -> sel la (b :: lb).
Lemma sel_app a b c d : sel a b -> sel c d -> sel (a ++ c) (b ++ d).
Proof. induction 1; cbn; intros; auto; constructor; auto. Qed.
Lemma sel_none l : sel [] l.
Proof. induction l; constructor; auto. Qed.
Lemma shrs_sel la lb : shrs la lb -> sel la lb.
Proof. induction 1; constructor; auto. Qed.
Lemma shr_all_aux : forall a b, shr a b -> sel (all a) (all b).
Proof.
  apply (shr_mut (fun a b _ => sel (all a) (all b)) (fun la lb _ => sel (flat_map all la) (flat_map all lb))).
  - intros u i ks' ks H IH. rewrite !all_eq. apply sel_app; [now apply shrs_sel|exact IH].
  - constructor.
  - intros a b la lb H1 I1 H2 I2. cbn [flat_map]. now apply sel_app.
  - intros b la lb H IH. cbn [flat_map]. apply (sel_app [] (all b)); [apply sel_none|exact IH].
Qed.
Lemma sel_In la lb x : sel la lb -> In x la -> exists y, In y lb /\ shr x y.
Proof.
  induction 1 as [|a b la lb H1 H2 IH|b la lb H IH]; cbn; [intros []|..].
  - intros [<-|H]; [eauto|]. destruct (IH H) as [y [Hy Sy]]. eauto.
  - intros Hx. destruct (IH Hx) as [y [Hy Sy]]. eauto.
Qed.
Lemma sel_subseq la lb : sel la lb -> subseq (idents la) (idents lb).
Proof.
  induction 1 as [|a b la lb H1 H2 IH|b la lb H IH]; cbn; [constructor| |now constructor].
  destruct (shr_key _ _ H1) as [-> ->]. now constructor.
Qed.
Lemma shr_all_In a b x : shr a b -> In x (all a) -> exists y, In y (all b) /\ shr x y.
Proof. intros H. apply sel_In. now apply shr_all_aux. Qed.

Lemma all_trans j x y : In x (all j) -> In y (all x) -> In y (all j).
Proof.
  revert x y. induction j as [u i ks IH] using job_rec'. intros x y Hx Hy. rewrite all_eq in *. apply in_app_or in Hx.
  apply in_or_app. right. apply in_flat_map. destruct Hx as [Hx|Hx].
  - exists x. auto.
  - apply in_flat_map in Hx. destruct Hx as [k [Hk Hx]]. exists k. split; [exact Hk|].
    rewrite Forall_forall in IH. eapply IH; eauto.
Qed.

(** ** removal *)
Lemma remove_uid_shrs u l : shrs (remove_uid u l) l.
Proof. induction l as [|j l IH]; cbn; [constructor|]. destruct (uid j =? u); [constructor; apply shrs_refl|constructor; auto using shr_refl]. Qed.
Lemma remove_shr u j : shr (removeImportance u j) j.
Proof.
  induction j as [v i ks IH] using job_rec'. cbn [removeImportance]. destruct (existsb _ ks).
  - constructor. apply remove_uid_shrs.
  - constructor. induction IH; cbn; constructor; auto.
Qed.
Lemma remove_uid_notin u l : NoDup (map uid l) -> ~ In u (map uid (remove_uid u l)).
Proof.
  induction l as [|j l IH]; cbn; [tauto|]. intros N. inversion N; subst. destruct (Nat.eqb_spec (uid j) u) as [<-|E]; [auto|].
  cbn. intros [C|C]; [contradiction|]. now apply IH.
Qed.
Lemma shrs_In la lb x : shrs la lb -> In x la -> exists y, In y lb /\ shr x y.
Proof. intros H. apply sel_In. now apply shrs_sel. Qed.

Lemma NoDup_app_iff {A} (a b : list A) : NoDup (a ++ b) <-> NoDup a /\ NoDup b /\ forall x, In x a -> ~ In x b.
Proof.
  induction a as [|x a IH]; cbn.
  - split; [intros H; repeat split; auto; constructor|tauto].
  - rewrite !NoDup_cons_iff, IH, in_app_iff. split.
    + intros (H1 & H2 & H3 & H4). repeat split; auto. intros y [<-|Hy] C; [tauto|]. now apply (H4 y).
    + intros ((H1 & H2) & H3 & H4). split; [|split; [exact H2|split; [exact H3|]]].
      * intros [C|C]; [auto|]. apply (H4 x); auto.
      * intros y Hy. apply H4; auto.
Qed.
Lemma flat_NoDup (ks : list job) : NoDup (map uid (flat_map all ks)) -> forall k, In k ks -> NoDup (map uid (all k)).
Proof.
  induction ks as [|k ks IH]; cbn; [intros _ k []|]. rewrite map_app, NoDup_app_iff. intros (H1 & H2 & _) k' [<-|H]; auto.
Qed.
Lemma remove_gone u j : NoDup (map uid (all j)) -> ~ In u (map uid (all (removeImportance u j))).
Proof.
  induction j as [v i ks IH] using job_rec'. rewrite all_eq, map_app, NoDup_app_iff. intros (N1 & N2 & N3).
  cbn [removeImportance]. destruct (existsb (fun k => uid k =? u) ks) eqn:E.
  - apply existsb_exists in E. destruct E as [k [Hk E]]. apply Nat.eqb_eq in E. subst u.
    rewrite all_eq, map_app, in_app_iff. intros [C|C]; [now apply remove_uid_notin in C|].
    apply (N3 (uid k)); [now apply in_map|]. apply in_map_iff in C. destruct C as [x [Ex Hx]].
    apply in_flat_map in Hx. destruct Hx as [k' [Hk' Hx]]. apply in_map_iff. exists x. split; [exact Ex|].
    apply in_flat_map. exists k'. split; [|exact Hx]. clear - Hk'. induction ks as [|a ks IH]; cbn in *; [auto|].
    destruct (uid a =? uid k); cbn in *; [auto|]. destruct Hk'; auto.
  - rewrite all_eq, map_app, in_app_iff. intros [C|C].
    + apply in_map_iff in C. destruct C as [x [Ex Hx]]. apply in_map_iff in Hx. destruct Hx as [k [<- Hk]].
      destruct (shr_key _ _ (remove_shr u k)) as [Eu _]. rewrite Eu in Ex.
      assert (F : existsb (fun k => uid k =? u) ks = true) by (apply existsb_exists; exists k; split; [auto|now apply Nat.eqb_eq]). congruence.
    + apply in_map_iff in C. destruct C as [x [Ex Hx]]. apply in_flat_map in Hx. destruct Hx as [k' [Hk' Hx]].
      apply in_map_iff in Hk'. destruct Hk' as [k [<- Hk]]. rewrite Forall_forall in IH.
      apply (IH k Hk); [eapply flat_NoDup; eauto|]. apply in_map_iff. exists x. auto.
Qed.
Lemma remove_uid_split u l x : In x l -> In x (remove_uid u l) \/ uid x = u.
Proof.
  induction l as [|j l IH]; cbn; [auto|]. intros [<-|H]; destruct (Nat.eqb_spec (uid j) u); cbn; auto.
  destruct (IH H); auto.
Qed.
Lemma remove_keeps u j x : In x (all j) ->
  (exists x', In x' (all (removeImportance u j)) /\ shr x' x) \/ (exists z, In z (all j) /\ uid z = u /\ from_or_is z x).
Proof.
  revert x. induction j as [v i ks IH] using job_rec'. intros x Hx. cbn [removeImportance].
  destruct (existsb (fun k => uid k =? u) ks) eqn:E.
  - rewrite !all_eq in *. apply in_app_or in Hx. destruct Hx as [Hx|Hx].
    + destruct (remove_uid_split u ks x Hx) as [H|H].
      * left. exists x. split; [apply in_or_app; auto|apply shr_refl].
      * right. exists x. split; [apply in_or_app; auto|]. split; [exact H|now left].
    + apply in_flat_map in Hx. destruct Hx as [k [Hk Hx]]. destruct (remove_uid_split u ks k Hk) as [H|H].
      * left. exists x. split; [|apply shr_refl]. apply in_or_app. right. apply in_flat_map. eauto.
      * right. exists k. split; [apply in_or_app; auto|]. split; [exact H|now right].
  - rewrite !all_eq in *. apply in_app_or in Hx. destruct Hx as [Hx|Hx].
    + left. exists (removeImportance u x). split; [apply in_or_app; left; now apply in_map|apply remove_shr].
    + apply in_flat_map in Hx. destruct Hx as [k [Hk Hx]]. rewrite Forall_forall in IH.
      destruct (IH k Hk x Hx) as [(x' & H1 & H2)|(z & H1 & H2)].
      * left. exists x'. split; [|exact H2]. apply in_or_app. right. apply in_flat_map.
        exists (removeImportance u k). split; [now apply in_map|exact H1].
      * right. exists z. split; [|exact H2]. apply in_or_app. right. apply in_flat_map. eauto.
Qed.
