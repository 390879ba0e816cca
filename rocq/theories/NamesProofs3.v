From Coq Require Import String Ascii Bool Arith Lia List.
From Verif Require Import PyStr PyStrFacts NamesModel NamesSpec NamesProofs NamesProofs2.
Import ListNotations.

Lemma white_plain sep w c : plain sep w -> In c w -> white c = false.
Proof.
  intros (_ & _ & B & T & _) I. unfold white. apply orb_false_iff. split; apply ch_eqb_false; intros ->; contradiction.
Qed.
Lemma skip_gap gap s : Forall (fun c => white c = true) gap -> skip_white (gap ++ s) = skip_white s.
Proof. intro F. induction F as [| c gap H _ IH]; [reflexivity |]. cbn. now rewrite H. Qed.
Lemma skip_all gap : Forall (fun c => white c = true) gap -> skip_white gap = [].
Proof. intro F. induction F as [| c gap H _ IH]; [reflexivity |]. cbn. now rewrite H. Qed.
Lemma skip_word sep w s : plain sep w -> skip_white (w ++ s) = w ++ s.
Proof.
  intro P. pose proof (fun c => white_plain sep w c P) as H. destruct P as (N & _). destruct w as [| c w]; [congruence |]. cbn. now rewrite (H c) by now left.
Qed.
Lemma counted_white w : forall s, match s with c :: _ => white c = true | [] => True end -> counted (w ++ s) = counted w.
Proof.
  induction w as [| c w IH]; intros s H; cbn.
  - destruct s as [| c s]; [reflexivity |]. cbn. unfold white in H. apply orb_true_iff in H.
    destruct H as [H | H]; apply ch_eqb_true in H; subst c; reflexivity.
  - destruct (digit c); [now apply IH | reflexivity].
Qed.
Lemma list_read_word sep w s : sep blank = true -> sep tab = true -> plain sep w -> match s with c :: _ => white c = true | [] => True end ->
  list_read sep (w ++ s) = Word w.
Proof.
  intros S1 S2 P H. unfold list_read. rewrite (skip_word sep w s P). destruct P as (N & F & _ & _ & Q).
  destruct w as [| c w]; [congruence |]. cbn [app]. destruct Q as (Q1 & Q2 & Q3). rewrite (Forall_inv F). apply ch_eqb_false in Q1, Q2. rewrite Q1, Q2.
  rewrite counted_white by exact H. rewrite Q3. cbn [orb]. f_equal.
  destruct s as [| b s].
  - rewrite app_nil_r. now apply until_all.
  - apply (until_word sep (c :: w) b s F). unfold white in H. apply orb_true_iff in H. destruct H as [H | H]; apply ch_eqb_true in H; now subst b.
Qed.
Lemma spaced_strip ws s c : white c = true -> spaced ws (s ++ [c]) -> Forall (fun w => w <> [] /\ forall c, In c w -> white c = false) ws -> spaced ws s.
Proof.
  intros Wc H. remember (s ++ [c]) as t eqn:E. revert s E. induction H as [t F | gap w rest ws F Hr H IH]; intros s E FW.
  - subst t. apply Forall_app in F. constructor. tauto.
  - apply Forall_cons_iff in FW. destruct FW as [[N NW] FW].
    destruct (last_case rest) as [-> | (r & b & ->)].
    + exfalso. rewrite app_nil_r in E. destruct (last_case w) as [-> | (w' & b & ->)]; [congruence |]. rewrite app_assoc in E. apply app_inj_tail in E. destruct E as [_ <-].
      rewrite NW in Wc; [discriminate |]. apply in_or_app. right. now left.
    + rewrite !app_assoc in E. apply app_inj_tail in E. destruct E as [<- ->]. rewrite <- app_assoc. constructor; [exact F | |].
      * destruct r as [| a r]; [exact I | exact Hr].
      * now apply IH.
Qed.
Lemma trim_blanks s : exists k, s = trim s ++ repeat blank k.
Proof.
  destruct (last_case s) as [-> | (s' & c & ->)]; [exists 0; reflexivity |]. remember (length s') as n eqn:En. revert s' c En.
  induction n as [n IH] using lt_wf_ind. intros s' c En. destruct (ch_eqb c blank) eqn:Ec.
  - apply ch_eqb_true in Ec. subst c. assert (ET : trim (s' ++ [blank]) = trim s') by (unfold trim; rewrite rev_app_distr; reflexivity).
    rewrite ET. destruct (last_case s') as [-> | (s2 & c2 & ->)]; [exists 1; reflexivity |].
    destruct (IH (length s2)) with (s' := s2) (c := c2) as [k Ek]; [rewrite app_length in En; cbn in En; lia | reflexivity |].
    exists (k + 1). rewrite repeat_app. cbn [repeat]. now rewrite app_assoc, <- Ek.
  - apply ch_eqb_false in Ec. exists 0. cbn. now rewrite app_nil_r, trim_snoc.
Qed.
Lemma spaced_trim ws s : Forall (fun w => w <> [] /\ forall c, In c w -> white c = false) ws -> spaced ws s -> spaced ws (trim s).
Proof.
  intros F H. destruct (trim_blanks s) as [k E]. rewrite E in H. clear E. revert H. generalize (trim s). intro t. induction k as [| k IH]; intro H; [now rewrite app_nil_r in H |].
  apply IH. apply (spaced_strip ws _ blank); [reflexivity | | exact F]. rewrite <- app_assoc. change [blank] with (repeat blank 1). rewrite <- repeat_app. now rewrite Nat.add_1_r.
Qed.

Lemma index_first l n : match NamesModel.index l n with Some i => exists p, nth_error l i = Some p /\ nm p = n | None => ~ In n (names_of l) end.
Proof.
  induction l as [| p l IH]; cbn; [tauto |]. destruct (str_eqb (nm p) n) eqn:E.
  - apply str_eqb_true in E. now exists p.
  - assert (nm p <> n) by (intro X; apply str_eqb_true in X; congruence). destruct (NamesModel.index l n); cbn; [exact IH | tauto].
Qed.
Lemma index_at l i p : NoDup (names_of l) -> nth_error l i = Some p -> NamesModel.index l (nm p) = Some i.
Proof.
  intros ND E. pose proof (index_first l (nm p)) as H. destruct (NamesModel.index l (nm p)) as [j |].
  - destruct H as (q & Eq & En). f_equal. rewrite NoDup_nth_error in ND. apply ND.
    + unfold names_of. rewrite map_length. apply nth_error_Some. congruence.
    + unfold names_of. rewrite !nth_error_map, E, Eq. cbn. now rewrite En.
  - exfalso. apply H. apply in_names. now apply nth_error_In in E.
Qed.
(** base parameters first *)
Definition ordered (l : list pn) : Prop :=
  exists b d, l = b ++ d /\ Forall (fun p => der p = false) b /\ Forall (fun p => der p = true) d.
Lemma num_ordered b d : Forall (fun p => der p = false) b -> Forall (fun p => der p = true) d -> num_MCMC (b ++ d) = length b.
Proof.
  intros B D. unfold num_MCMC, num_derived. rewrite filter_app, app_length.
  assert (E1 : filter der b = []) by (induction B as [| p b H _ IH]; cbn; [reflexivity | now rewrite H]).
  assert (E2 : filter der d = d) by (induction D as [| p d H _ IH]; cbn; [reflexivity | now rewrite H, IH]).
  rewrite ?app_length, E1, E2. cbn [length]. lia.
Qed.
Lemma ordered_base l i p : ordered l -> nth_error l i = Some p -> (num_MCMC l <=? i) = der p.
Proof.
  intros (b & d & -> & B & D) E. rewrite (num_ordered b d B D). destruct (Nat.leb_spec (length b) i).
  - rewrite nth_error_app2 in E by lia. apply nth_error_In in E. rewrite Forall_forall in D. symmetry. now apply D.
  - rewrite nth_error_app1 in E by lia. apply nth_error_In in E. rewrite Forall_forall in B. symmetry. now apply B.
Qed.
Definition as_found (vs : list nat) : found := match vs with v :: _ => Value v | [] => Skip end.
Lemma one_index_means l unknown nd w vs : NoDup (names_of l) -> (nd = true -> ordered l) -> means l unknown nd w vs ->
  one_index l unknown nd w = as_found vs /\ length vs <= 1.
Proof.
  intros ND O [(i & p & E & <- & U & ->) | (H & K)]; unfold one_index.
  - rewrite (index_at l i p ND E). split; [| cbn; lia]. destruct nd; cbn [andb].
    + rewrite (ordered_base l i p (O eq_refl) E), (U eq_refl). reflexivity.
    + reflexivity.
  - assert (EX : match NamesModel.index l w with Some i => if nd && (num_MCMC l <=? i) then None else Some (S i) | None => None end = None).
    { pose proof (index_first l w) as F. destruct (NamesModel.index l w) as [i |]; [| reflexivity]. destruct F as (p & E & En).
      destruct nd; cbn [andb].
      - rewrite (ordered_base l i p (O eq_refl) E). destruct (der p) eqn:D; [reflexivity |]. exfalso. apply (H p (nth_error_In _ _ E) En). intros _. exact D.
      - exfalso. apply (H p (nth_error_In _ _ E) En). discriminate. }
    rewrite EX. destruct K as [[-> ->] | [-> [[-> ->] | (v & -> & ->)]]]; split; cbn; lia || reflexivity.
Qed.
Definition good_word (sep : ascii -> bool) (w : str) : Prop := plain sep w /\ length w <= 128.
Lemma read_words sep l unknown nd : sep blank = true -> sep tab = true -> NoDup (names_of l) -> (nd = true -> ordered l) ->
  forall ws vss s todo, Forall (good_word sep) ws -> Forall2 (means l unknown nd) ws vss -> spaced ws s -> length ws <= todo ->
  read_loop sep l unknown nd todo s = Some (concat vss, negb (todo =? length ws)).
Proof.
  intros S1 S2 ND O. induction ws as [| w ws IH]; intros vss s todo F M S LE; inversion M as [| ? vs ? vss' Mw Ms]; subst.
  - inversion S; subst. destruct todo as [| todo]; [reflexivity |]. cbn [read_loop]. rewrite (skip_all s) by assumption. reflexivity.
  - inversion S as [| gap w0 rest ws0 Fg Hr Sr]; subst. destruct todo as [| todo]; [cbn in LE; lia |]. cbn [read_loop].
    apply Forall_cons_iff in F. destruct F as [[P LW] F].
    rewrite (skip_gap gap) by assumption. rewrite (skip_word sep w rest P). rewrite (list_read_word sep w rest S1 S2 P Hr).
    assert (ES : store maxlen w = w) by (apply store_all; [apply trim_no_blank; apply P | exact LW]). rewrite ES.
    destruct (one_index_means l unknown nd w vs ND O Mw) as [-> L1]. rewrite skipn_app, skipn_all, Nat.sub_diag. cbn [skipn app].
    rewrite (IH vss' rest todo F Ms Sr) by (cbn in LE; lia). cbn [length Nat.eqb].
    destruct vs as [| v [| v2 vs]]; cbn in L1; [reflexivity | reflexivity | lia].
Qed.
Lemma good_nonblank sep ws : Forall (good_word sep) ws -> Forall (fun w => w <> [] /\ forall c, In c w -> white c = false) ws.
Proof. apply Forall_impl. intros w [P _]. split; [apply P |]. intros c. now apply (white_plain sep). Qed.
(** Words after the ones that are wanted are passed over *)
Lemma read_prefix sep l unknown nd : sep blank = true -> sep tab = true -> NoDup (names_of l) -> (nd = true -> ordered l) ->
  forall ws vss more s, Forall (good_word sep) ws -> Forall2 (means l unknown nd) ws vss -> spaced (ws ++ more) s ->
  read_loop sep l unknown nd (length ws) s = Some (concat vss, false).
Proof.
  intros S1 S2 ND O. induction ws as [| w ws IH]; intros vss more s F M S; inversion M as [| ? vs ? vss' Mw Ms]; subst; [reflexivity |].
  inversion S as [| gap w0 rest ws0 Fg Hr Sr]; subst. cbn [length read_loop].
  apply Forall_cons_iff in F. destruct F as [[P LW] F].
  rewrite (skip_gap gap) by assumption. rewrite (skip_word sep w rest P). rewrite (list_read_word sep w rest S1 S2 P Hr).
  assert (ES : store maxlen w = w) by (apply store_all; [apply trim_no_blank; apply P | exact LW]). rewrite ES.
  destruct (one_index_means l unknown nd w vs ND O Mw) as [-> L1]. rewrite skipn_app, skipn_all, Nat.sub_diag. cbn [skipn app].
  rewrite (IH vss' more rest F Ms Sr). destruct vs as [| v [| v2 vs]]; cbn in L1; [reflexivity | reflexivity | lia].
Qed.
