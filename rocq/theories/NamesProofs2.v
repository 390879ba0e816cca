From Coq Require Import String Ascii Bool Arith Lia List.
From Verif Require Import PyStr PyStrFacts NamesModel NamesSpec NamesProofs.
Import ListNotations.

Lemma ch_eqb_true a b : ch_eqb a b = true <-> a = b.
Proof. apply Ascii.eqb_eq. Qed.
Lemma ch_eqb_false a b : ch_eqb a b = false <-> a <> b.
Proof. apply Ascii.eqb_neq. Qed.
Lemma white_blank c : white c = false -> c <> blank /\ c <> tab.
Proof. unfold white. intro H. apply orb_false_iff in H. destruct H as [H1 H2]. now apply ch_eqb_false in H1, H2. Qed.
Lemma trim_snoc s c : c <> blank -> trim (s ++ [c]) = s ++ [c].
Proof.
  intro H. unfold trim. rewrite rev_app_distr. cbn. apply ch_eqb_false in H. rewrite H. cbn. now rewrite rev_involutive.
Qed.
Lemma trim_nil : trim [] = [].
Proof. reflexivity. Qed.
Lemma trim_no_blank s : ~ In blank s -> trim s = s.
Proof.
  intro H. destruct s as [| c s] using rev_ind; [reflexivity |]. apply trim_snoc. intro E. apply H. apply in_or_app. right. now left.
Qed.
Lemma last_case {A} (s : list A) : s = [] \/ exists s' c, s = s' ++ [c].
Proof. destruct s as [| c s] using rev_ind; [now left | right; eauto]. Qed.
Lemma trim_app a s : s <> [] -> match rev s with c :: _ => white c = false | [] => True end -> trim (a ++ s) = a ++ s.
Proof.
  intros N H. destruct (last_case s) as [-> | (s' & c & ->)]; [congruence |]. rewrite rev_app_distr in H. cbn in H.
  rewrite app_assoc. apply trim_snoc. now apply white_blank in H.
Qed.
Lemma trim_tight s : tight s -> trim s = s.
Proof. intros [_ H]. destruct s as [| c s]; [reflexivity |]. apply (trim_app []); [discriminate | exact H]. Qed.
Lemma adjustl_tight s : tight s -> adjustl s = s.
Proof. intros [H _]. destruct s as [| c s]; [reflexivity |]. cbn in *. apply white_blank in H. destruct H as [H _]. apply ch_eqb_false in H. now rewrite H. Qed.
Lemma store_all n s : trim s = s -> length s <= n -> store n s = s.
Proof. intros H L. unfold store. now rewrite firstn_all2. Qed.
Lemma until_word sep w c s : Forall (fun c => sep c = false) w -> sep c = true -> until sep (w ++ c :: s) = w.
Proof. intros F S. induction F as [| a w Ha _ IH]; cbn; [now rewrite S | now rewrite Ha, IH]. Qed.
Lemma until_all sep w : Forall (fun c => sep c = false) w -> until sep w = w.
Proof. intro F. induction F as [| a w Ha _ IH]; cbn; [reflexivity | now rewrite Ha, IH]. Qed.
Lemma skip1_first c s : white c = false -> skip1 (c :: s) = c :: s.
Proof. intro H. destruct s; cbn; [reflexivity | now rewrite H]. Qed.
Lemma find_notin c s : ~ In c s -> find_ch c s = None.
Proof.
  induction s as [| b s IH]; cbn; [reflexivity |]. intro H. destruct (ch_eqb b c) eqn:E; [apply ch_eqb_true in E; tauto |].
  rewrite IH by tauto. reflexivity.
Qed.
Lemma find_app c s t : ~ In c s -> find_ch c (s ++ c :: t) = Some (length s).
Proof.
  induction s as [| b s IH]; cbn; intro H; [unfold ch_eqb; now rewrite Ascii.eqb_refl |].
  destruct (ch_eqb b c) eqn:E; [apply ch_eqb_true in E; tauto |]. rewrite IH by tauto. reflexivity.
Qed.
Lemma cut_notin c s : ~ In c s -> cut c s = (s, None).
Proof. intro H. unfold cut. now rewrite find_notin. Qed.
Lemma cut_app c s t : ~ In c s -> cut c (s ++ c :: t) = (s, Some t).
Proof.
  intro H. unfold cut. rewrite find_app by exact H. f_equal.
  - now rewrite firstn_app, firstn_all, Nat.sub_diag, app_nil_r.
  - f_equal. rewrite skipn_app. replace (length s + 1 - length s) with 1 by lia. rewrite (skipn_all2 s) by lia. reflexivity.
Qed.
Lemma counted_app w : ~ In star w -> forall t, counted (w ++ t) = true -> forallb digit w = true /\ counted t = true.
Proof.
  induction w as [| c w IH]; cbn; intros H t E; [now split |]. destruct (digit c) eqn:D.
  - apply IH in E; [destruct E; now split | tauto].
  - exfalso. apply ch_eqb_true in E. tauto.
Qed.
Lemma counted_tab s : counted (tab :: s) = false.
Proof. reflexivity. Qed.
Lemma digit_star : digit star = false.
Proof. reflexivity. Qed.

(** The label field *)
Definition tail_of (wc : bool) (p : pn) : str := lab p ++ (if wc && negb (str_eqb (com p) []) then [tab; hash] ++ com p else []).
Lemma label_field sep wc p : good_pn sep p ->
  let label := store (maxlen * 3) (trim (adjustl (skip1 (tab :: tail_of wc p)))) in
  store maxlen (fst (cut tab (fst (cut hash label)))) = lab p /\
  match snd (cut hash label) with Some c => store maxlen c | None => [] end = (if wc then com p else []).
Proof.
  intros (_ & _ & _ & _ & T1 & H1 & H2 & L1 & T2 & L2). unfold tail_of, maxlen.
  assert (SL : store 128 (lab p) = lab p) by (apply store_all; [now apply trim_tight | exact L1]).
  assert (SC : store 128 (com p) = com p) by (apply store_all; [now apply trim_tight | exact L2]).
  destruct (wc && negb (str_eqb (com p) [])) eqn:W.
  - apply andb_true_iff in W. destruct W as [-> W]. apply negb_true_iff in W.
    destruct (com p) as [| k cs] eqn:EC; [now rewrite str_eqb_same in W |]. clear W. cbn [app].
    assert (E : adjustl (skip1 (tab :: lab p ++ tab :: hash :: k :: cs)) = match lab p with [] => hash :: k :: cs | _ => lab p ++ tab :: hash :: k :: cs end).
    { destruct (lab p) as [| c s] eqn:EL; [reflexivity |]. cbn [app]. destruct T1 as [T1 _]. cbn in T1.
      change (skip1 (tab :: c :: s ++ tab :: hash :: k :: cs)) with (skip1 (c :: s ++ tab :: hash :: k :: cs)).
      rewrite skip1_first by exact T1. cbn. apply white_blank in T1. destruct T1 as [T1 _]. apply ch_eqb_false in T1. now rewrite T1. }
    rewrite E. clear E. destruct T2 as [_ T2].
    assert (TR : forall a, trim (a ++ k :: cs) = a ++ k :: cs) by (intro a; apply trim_app; [discriminate | exact T2]).
    destruct (lab p) as [| c s] eqn:EL.
    + pose proof (TR [hash]) as TH. cbn [app] in TH. rewrite TH. rewrite (store_all (128 * 3)) by ((cbn [length app] in *; lia) || exact TH).
      change (hash :: k :: cs) with ([] ++ hash :: k :: cs). rewrite (cut_app hash []) by (intros []). cbn [fst snd]. rewrite cut_notin by (intros []). cbn [fst]. split; [reflexivity | exact SC].
    + assert (TR' : trim ((c :: s) ++ tab :: hash :: k :: cs) = (c :: s) ++ tab :: hash :: k :: cs).
      { change ((c :: s) ++ tab :: hash :: k :: cs) with ((c :: s) ++ [tab; hash] ++ (k :: cs)). rewrite app_assoc. apply TR. }
      rewrite TR'. rewrite (store_all (128 * 3)); [| exact TR' | rewrite app_length; cbn [length] in *; lia].
      change ((c :: s) ++ tab :: hash :: k :: cs) with ((c :: s) ++ [tab] ++ hash :: k :: cs). rewrite app_assoc.
      rewrite cut_app. 2: { rewrite in_app_iff. intros [H | [H | []]]; [tauto | discriminate]. }
      cbn [fst snd]. rewrite (cut_app tab (c :: s) []) by exact H2. cbn [fst]. now split.
  - rewrite app_nil_r.
    assert (EC : (if wc then com p else []) = []).
    { destruct wc; [| reflexivity]. cbn in W. apply negb_false_iff, str_eqb_true in W. exact W. }
    rewrite EC. destruct (lab p) as [| c s] eqn:EL.
    + split; reflexivity.
    + change (skip1 (tab :: c :: s)) with (skip1 (c :: s)). rewrite skip1_first by (now destruct T1).
      rewrite (adjustl_tight _ T1), (trim_tight _ T1), (store_all (128 * 3)) by ((now apply trim_tight) || (cbn [length] in *; lia)).
      rewrite (cut_notin hash) by exact H1. cbn [fst snd]. rewrite (cut_notin tab) by exact H2. now split.
Qed.

Lemma AsString_shape wc p : tight (lab p) -> tight (com p) -> trim (nm p) = nm p ->
  AsString wc p = (nm p ++ (if der p then [star] else [])) ++ tab :: tail_of wc p.
Proof.
  intros T1 T2 T3. unfold AsString, tail_of. rewrite T3, (trim_tight _ T1), (trim_tight _ T2).
  destruct (wc && negb (str_eqb (com p) [])); rewrite <- ?app_assoc, ?app_nil_r; reflexivity.
Qed.
Lemma tail_last wc p : tight (lab p) -> tight (com p) ->
  match rev (tab :: tail_of wc p) with c :: _ => c <> blank | [] => True end.
Proof.
  intros [_ T1] [_ T2]. unfold tail_of. cbn [rev]. rewrite rev_app_distr.
  destruct (wc && negb (str_eqb (com p) [])) eqn:W.
  - cbn [app rev]. destruct (rev (com p)) as [| c r]; cbn; [discriminate | now apply white_blank in T2].
  - cbn [rev app]. destruct (rev (lab p)) as [| c r]; cbn; [discriminate | now apply white_blank in T1].
Qed.

Lemma ParseLine_AsString sep wc p : sep blank = true -> sep tab = true -> sep star = false -> good_pn sep p ->
  ParseLine sep (AsString wc p) = Parsed (mkN (nm p) (lab p) (if wc then com p else []) (der p)).
Proof.
  intros S1 S2 S3 G. pose proof (label_field sep wc p G) as LF. cbv zeta in LF.
  destruct G as ((N0 & F & NB & NT & Q) & NS & ND & LN & T1 & H1 & H2 & L1 & T2 & L2).
  assert (TN : trim (nm p) = nm p) by (now apply trim_no_blank).
  unfold ParseLine. rewrite (AsString_shape wc p T1 T2 TN).
  set (w := nm p ++ (if der p then [star] else [])). set (t := tail_of wc p) in *.
  assert (TR : trim (w ++ tab :: t) = w ++ tab :: t).
  { pose proof (tail_last wc p T1 T2) as TL. fold t in TL. destruct (last_case (tab :: t)) as [E | (s & c & E)]; [discriminate |].
    rewrite E in *. rewrite rev_app_distr in TL. cbn in TL. rewrite app_assoc. now apply trim_snoc. }
  rewrite TR. assert (WB : ~ In blank w).
  { unfold w. rewrite in_app_iff. destruct (der p); cbn; intuition discriminate. }
  assert (FW : Forall (fun c => sep c = false) w).
  { unfold w. apply Forall_app. split; [exact F |]. destruct (der p); repeat constructor. exact S3. }
  assert (EW : exists c0 w0, nm p = c0 :: w0 /\ white c0 = false /\ sep c0 = false /\ c0 <> "'"%char /\ c0 <> """"%char /\
                 w = c0 :: (w0 ++ (if der p then [star] else []))).
  { unfold w. destruct (nm p) as [| c0 w0]; [congruence |]. exists c0, w0. cbn in NB, NT. apply Forall_inv in F.
    destruct Q as (Q1 & Q2 & _). repeat split; try tauto. unfold white. apply orb_false_iff. split; apply ch_eqb_false; tauto. }
  destruct EW as (c0 & w0 & EN & W0 & SP & Q1 & Q2 & EW).
  assert (LR : list_read sep (w ++ tab :: t) = Word w).
  { unfold list_read. rewrite EW. cbn [app skip_white]. rewrite W0, SP. apply ch_eqb_false in Q1, Q2. rewrite Q1, Q2. cbn [orb].
    assert (C : digit c0 && counted ((w0 ++ (if der p then [star] else [])) ++ tab :: t) = false).
    { destruct (digit c0 && _) eqn:E; [| reflexivity]. exfalso. apply andb_true_iff in E. destruct E as [E1 E2].
      rewrite EN in NS, ND. cbn in NS, ND. rewrite <- app_assoc in E2. apply counted_app in E2; [| tauto]. destruct E2 as [E2 E3].
      destruct (der p); [| discriminate]. rewrite E1, E2 in ND. now specialize (ND eq_refl). }
    rewrite C. change (c0 :: (w0 ++ (if der p then [star] else [])) ++ tab :: t) with ((c0 :: w0 ++ (if der p then [star] else [])) ++ tab :: t).
    rewrite <- EW. now rewrite until_word. }
  assert (SK : skip1 (w ++ tab :: t) = w ++ tab :: t) by (rewrite EW; cbn [app]; now apply skip1_first).
  rewrite SK, LR. cbv zeta.
  assert (LW : length w <= 129) by (unfold w; rewrite app_length; destruct (der p); cbn; lia).
  assert (TW : trim w = w) by (now apply trim_no_blank).
  assert (SW : store (maxlen * 3) w = w) by (apply store_all; [exact TW | unfold maxlen; lia]).
  rewrite SW, skipn_app, skipn_all, Nat.sub_diag. cbn [skipn app].
  destruct (cut hash (store (maxlen * 3) (trim (adjustl (skip1 (tab :: t)))))) as [label comment] eqn:EC. cbn [fst snd] in LF.
  destruct LF as [LF1 LF2]. rewrite LF1, LF2.
  assert (AW : trim (adjustl w) = w).
  { rewrite EW. cbn [adjustl]. apply white_blank in W0. destruct W0 as [W0 _]. apply ch_eqb_false in W0. rewrite W0, <- EW. exact TW. }
  rewrite AW.
  assert (ED : endswith [star] w = der p /\ (if der p then removelast w else w) = nm p).
  { unfold w, endswith. destruct (der p); cbn [rev app].
    - rewrite rev_app_distr. cbn. split; [reflexivity | apply removelast_last].
    - rewrite app_nil_r. split; [| reflexivity]. destruct (last_case (nm p)) as [E | (s & c & E)]; [congruence |].
      rewrite E, rev_app_distr. change (ch_eqb star c && true = false). rewrite andb_true_r. apply Ascii.eqb_neq. intro X. apply NS. rewrite E. apply in_or_app. right. subst. now left. }
  destruct ED as [ED1 ED2]. rewrite ED1, ED2. rewrite store_all by ((unfold maxlen; lia) || exact TN). reflexivity.
Qed.
Lemma AsString_nonblank wc p : tight (lab p) -> tight (com p) -> trim (nm p) = nm p -> trim (AsString wc p) <> [].
Proof.
  intros T1 T2 TN. rewrite (AsString_shape wc p T1 T2 TN). pose proof (tail_last wc p T1 T2) as TL.
  destruct (last_case (tab :: tail_of wc p)) as [E | (s & c & E)]; [discriminate |]. rewrite E in *.
  rewrite rev_app_distr in TL. cbn in TL. rewrite app_assoc, trim_snoc by exact TL. intro X. apply app_eq_nil in X. destruct X. discriminate.
Qed.
Lemma Init_AsString sep wc l : sep blank = true -> sep tab = true -> sep star = false -> Forall (good_pn sep) l ->
  Init sep (map (AsString wc) l) = Some (map (fun p => if wc then p else no_comment p) l).
Proof.
  intros S1 S2 S3 F. induction F as [| p l G _ IH]; [reflexivity |]. cbn [map Init].
  destruct (trim (AsString wc p)) eqn:E.
  - exfalso. destruct G as ((_ & _ & NB & _) & _ & _ & _ & T1 & _ & _ & _ & T2 & _).
    apply (AsString_nonblank wc p T1 T2); [now apply trim_no_blank | exact E].
  - rewrite (ParseLine_AsString sep wc p S1 S2 S3 G), IH. f_equal. f_equal. destruct wc; [now destruct p | reflexivity].
Qed.
