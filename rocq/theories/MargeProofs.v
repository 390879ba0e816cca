(** Facts about marginalised statistics files. *)
From Verif Require Import PyBase PyNum PyStrFacts BoundsSpec BoundsProofs FmtModel FmtSpec MargeModel MargeSpec.
From Coq Require Import ZArith QArith String Ascii Bool List Lia.
Import ListNotations.
Local Open Scope nat_scope.
Local Open Scope list_scope.

(** ** splitting *)
Lemma lstrip_blanks b s : forallb is_space b = true -> lstrip (b ++ s) = lstrip s.
Proof. induction b as [|c b IH]; intros H; [reflexivity|]. cbn in H. apply andb_true_iff in H as [H1 H2]. cbn. rewrite H1. auto. Qed.
Lemma split_n_blanks k b s : forallb is_space b = true -> split_ws_n k (b ++ s) = split_ws_n k s.
Proof. intros H. destruct k; cbn [split_ws_n]; now rewrite lstrip_blanks. Qed.
Lemma take_word_word w t : forallb (fun c => negb (is_space c)) w = true -> no_lead t = false -> take_word (w ++ t) = (w, t).
Proof.
  intros H Ht. induction w as [|c w IH].
  - destruct t as [|c t]; [discriminate|]. cbn in Ht |- *. destruct (is_space c); [reflexivity|discriminate].
  - cbn in H. apply andb_true_iff in H as [H1 H2]. cbn. destruct (is_space c); [discriminate|]. now rewrite IH.
Qed.
Lemma split_n_word k w t : word w -> no_lead t = false -> split_ws_n (S k) (w ++ t) = w :: split_ws_n k t.
Proof.
  intros [N H] Ht. cbn [split_ws_n]. assert (E : lstrip (w ++ t) = w ++ t).
  { destruct w as [|c w]; [contradiction|]. cbn in H. cbn. destruct (is_space c); [discriminate|reflexivity]. }
  rewrite E. destruct (w ++ t) as [|c s] eqn:X; [destruct w; [contradiction|discriminate]|].
  rewrite <- X, take_word_word by assumption. reflexivity.
Qed.
Lemma split_n_end s : s <> [] -> no_lead s = true -> split_ws_n 0 s = [s].
Proof. intros N H. cbn [split_ws_n]. rewrite lstrip_no_lead by exact H. destruct s; [contradiction|reflexivity]. Qed.
Lemma strip_word w : word w -> strip w = w.
Proof.
  intros [N H]. apply strip_stripped. unfold stripped. rewrite no_space_no_lead by exact H. cbn [andb].
  apply no_space_no_lead. apply forallb_forall. intros c Hc. rewrite forallb_forall in H. apply H. now apply in_rev.
Qed.
Lemma rjust_split k n w t : word w -> no_lead t = false -> split_ws_n (S k) (rjust n w ++ t) = w :: split_ws_n k t.
Proof. intros W H. unfold rjust. rewrite <- app_assoc, split_n_blanks by apply forallb_repeat_space. now apply split_n_word. Qed.
Lemma no_lead_rjust n w t : List.length w < n -> no_lead (rjust n w ++ t) = false.
Proof. intros H. unfold rjust. destruct (n - List.length w) eqn:E; [lia|]. reflexivity. Qed.
Lemma ljust_split k n w t : word w -> no_lead t = false -> split_ws_n (S k) (ljust n w ++ t) = w :: split_ws_n k t.
Proof.
  intros W H. unfold ljust. rewrite <- app_assoc. rewrite split_n_word; [|exact W|].
  - now rewrite split_n_blanks by apply forallb_repeat_space.
  - destruct (n - List.length w); [exact H|reflexivity].
Qed.
Lemma word_no_eol w : word w -> no_eol w = true.
Proof.
  intros [_ H]. unfold no_eol. apply forallb_forall. intros c Hc. rewrite forallb_forall in H. specialize (H c Hc).
  destruct (ch_eqb_spec c nl) as [->|]; [discriminate|]. destruct (ch_eqb_spec c cr) as [->|]; [discriminate|]. reflexivity.
Qed.
Lemma no_eol_blanks n : no_eol (repeat " "%char n) = true.
Proof. induction n; [reflexivity|]. exact IHn. Qed.
Lemma no_eol_rjust n w : no_eol w = true -> no_eol (rjust n w) = true.
Proof. intros H. unfold rjust. now rewrite no_eol_app, no_eol_blanks, H. Qed.
Lemma no_eol_ljust n w : no_eol w = true -> no_eol (ljust n w) = true.
Proof. intros H. unfold ljust. now rewrite no_eol_app, no_eol_blanks, H. Qed.
Lemma no_eol_concat l : (forall x, In x l -> no_eol x = true) -> no_eol (concat l) = true.
Proof. induction l as [|x l IH]; intros H; [reflexivity|]. cbn. rewrite no_eol_app, H by now left. rewrite IH; [reflexivity|]. intros; apply H; now right. Qed.

(** ** tags *)
Lemma tag_word {F} (l : plimit F) : word (limitTag l).
Proof. unfold limitTag. destruct (l_two l), (l_up l), (l_low l); (split; [discriminate|reflexivity]). Qed.
Lemma tag_is_tail {F} (l l' : plimit F) t lo hi : l' = ParamLimit lo hi (limitTag l) -> is_tail l t -> is_tail l' t.
Proof.
  intros -> (A & B & C). unfold is_tail, ParamLimit, limitTag. cbn [l_two l_up l_low]. rewrite A, B, C.
  destruct t; repeat split; reflexivity.
Qed.

Section File.
  Context {F : Type} (fmtE show : F -> str) (parse : str -> res F) (rd : F -> F).
  Notation pr := (printable fmtE parse rd).

  Definition lim_items (l : plimit F) : list str := [fmtE (l_lower l); fmtE (l_upper l); limitTag l].
  Lemma lims_split lims k t : (forall l, In l lims -> lim_ok fmtE parse rd l) -> no_lead t = false ->
    split_ws_n (List.length lims * 3 + k) (concat (map (lim_text fmtE) lims) ++ t) = flat_map lim_items lims ++ split_ws_n k t.
  Proof.
    intros H Ht. induction lims as [|l lims IH]; [reflexivity|]. cbn [map concat flat_map List.length].
    destruct (H l (or_introl eq_refl)) as (_ & (W1 & L1 & _) & (W2 & L2 & _)).
    replace (S (List.length lims) * 3 + k) with (S (S (S (List.length lims * 3 + k)))) by lia.
    assert (Hn : no_lead (concat (map (lim_text fmtE) lims) ++ t) = false).
    { destruct lims as [|l2 lims]; [exact Ht|]. cbn [map concat]. unfold lim_text. rewrite <- !app_assoc. apply no_lead_rjust.
      destruct (H l2 (or_intror (or_introl eq_refl))) as (_ & (_ & L3 & _) & _). lia. }
    unfold lim_text at 1. rewrite <- !app_assoc.
    rewrite rjust_split; [|exact W1|apply no_lead_rjust; lia].
    rewrite rjust_split; [|exact W2|reflexivity].
    rewrite (split_n_blanks _ (L "  ")) by reflexivity.
    rewrite ljust_split; [|apply tag_word|exact Hn].
    rewrite IH by (intros; apply H; now right). reflexivity.
  Qed.
  Lemma lims_lead lims t : (forall l, In l lims -> lim_ok fmtE parse rd l) -> no_lead t = false ->
    no_lead (concat (map (lim_text fmtE) lims) ++ t) = false.
  Proof.
    intros H Ht. destruct lims as [|l lims]; [exact Ht|]. cbn [map concat]. unfold lim_text. rewrite <- !app_assoc. apply no_lead_rjust.
    destruct (H l (or_introl eq_refl)) as (_ & (_ & L3 & _) & _). lia.
  Qed.
  Lemma tagged_word p n : par_ok fmtE parse rd n p -> word (tagged_name p).
  Proof.
    intros H. destruct (po_name _ _ _ _ _ H) as [[N W] _]. unfold tagged_name. destruct (m_derived p); [|now split].
    split; [now destruct (m_name p)|]. rewrite forallb_app, W. reflexivity.
  Qed.
  Lemma line_split w n p : par_ok fmtE parse rd n p ->
    map strip (split_ws_n (n * 3 + 3) (par_line fmtE w p)) =
    tagged_name p :: fmtE (m_mean p) :: fmtE (m_err p) :: flat_map lim_items (m_limits p) ++ [m_label p].
  Proof.
    intros H. pose proof (tagged_word p n H) as TW. destruct H as [_ (W1 & L1 & _) (W2 & L2 & _) Hn Hl (N & St & _)].
    assert (E : split_ws_n (n * 3 + 3) (par_line fmtE w p) =
                tagged_name p :: fmtE (m_mean p) :: fmtE (m_err p) :: flat_map lim_items (m_limits p) ++ [m_label p]).
    { unfold par_line. replace (n * 3 + 3) with (S (S (S (n * 3 + 0)))) by lia.
      rewrite ljust_split; [|exact TW|apply no_lead_rjust; lia].
      rewrite rjust_split; [|exact W1|apply no_lead_rjust; lia].
      rewrite rjust_split; [|exact W2|apply lims_lead; [exact Hl|reflexivity]].
      rewrite <- Hn, lims_split; [|exact Hl|reflexivity].
      rewrite (split_n_blanks _ (L "   ")) by reflexivity.
      rewrite split_n_end; [reflexivity|exact N|]. unfold stripped in St. now apply andb_true_iff in St. }
    rewrite E. cbn [map]. rewrite map_app. cbn [map]. rewrite !strip_word by assumption. rewrite strip_stripped by exact St.
    do 4 f_equal. clear -Hl. induction (m_limits p) as [|l ls IH]; [reflexivity|]. cbn [flat_map lim_items app map].
    destruct (Hl l (or_introl eq_refl)) as (_ & (W1 & _) & (W2 & _)). rewrite !strip_word by (try assumption; apply tag_word).
    rewrite IH by (intros; apply Hl; now right). reflexivity.
  Qed.
  Lemma items_nth (lims : list (plimit F)) pre post i l : nth_error lims i = Some l ->
    skipn (List.length pre + i * 3) (pre ++ flat_map lim_items lims ++ post) =
    lim_items l ++ skipn (S i * 3) (flat_map lim_items lims ++ post).
  Proof.
    intros H. rewrite skipn_app, skipn_all2 by lia. cbn [app]. replace (List.length pre + i * 3 - List.length pre) with (i * 3) by lia.
    revert i H. induction lims as [|x ls IH]; intros i H; [destruct i; discriminate|]. destruct i as [|i].
    - injection H as ->. reflexivity.
    - cbn [nth_error] in H. replace (S i * 3) with (S (S (S (i * 3)))) by lia. cbn [flat_map lim_items app skipn]. rewrite (IH i H).
      replace (S (S i) * 3) with (S (S (S (S i * 3)))) by lia. reflexivity.
  Qed.
  Lemma read_limit_ok a b c lims post i l : nth_error lims i = Some l -> lim_ok fmtE parse rd l ->
    read_limit parse (a :: b :: c :: flat_map lim_items lims ++ post) i = Ok (ParamLimit (rd (l_lower l)) (rd (l_upper l)) (limitTag l)).
  Proof.
    intros H (_ & (_ & _ & P1) & (_ & _ & P2)). pose proof (items_nth lims [a; b; c] post i l H) as E.
    cbn [List.length app] in E. set (items := a :: b :: c :: flat_map lim_items lims ++ post) in *.
    unfold read_limit, slice. rewrite E. replace (5 + i * 3 - (3 + i * 3)) with 2 by lia. cbn [lim_items app firstn mapR].
    rewrite P1, P2. cbn [bindR].
    assert (N : nth_error items (5 + i * 3) = Some (limitTag l)).
    { replace (5 + i * 3) with (3 + i * 3 + 2) by lia. rewrite <- (firstn_skipn (3 + i * 3) items), E.
      assert (Lf : List.length (firstn (3 + i * 3) items) = 3 + i * 3).
      { rewrite firstn_length. apply (f_equal (@List.length str)) in E. rewrite skipn_length, app_length in E. cbn [lim_items List.length] in E. lia. }
      rewrite nth_error_app2 by lia. rewrite Lf. replace (3 + i * 3 + 2 - (3 + i * 3)) with 2 by lia. reflexivity. }
    rewrite N. reflexivity.
  Qed.
  Lemma read_par_ok w n p : par_ok fmtE parse rd n p ->
    exists p', read_par parse n (par_line fmtE w p) = Ok p' /\ same_par rd p p'.
  Proof.
    intros H. unfold read_par. rewrite (line_split w n p H).
    pose proof H as [[[N W] St] (_ & _ & P1) (_ & _ & P2) Hn Hl (Nl & Sl & _)].
    assert (NS : exists c r, rev (tagged_name p) = c :: r /\ ch_eqb c "*"%char = m_derived p /\ (if m_derived p then rev r else tagged_name p) = m_name p).
    { unfold tagged_name. destruct (m_derived p).
      - rewrite rev_app_distr. cbn [rev L app]. eexists _, _. split; [reflexivity|]. split; [reflexivity|]. apply rev_involutive.
      - destruct (rev_nonempty _ N) as (c & r & E). rewrite E. eexists _, _. split; [reflexivity|]. split; [|reflexivity].
        apply ch_eqb_neq. intros ->. apply St. rewrite <- (rev_involutive (m_name p)), E. cbn [rev]. apply in_app_iff. right. now left. }
    destruct NS as (c & r & E1 & E2 & E3). rewrite E1, E2. cbn [nth_error]. rewrite P1, P2. cbn [bindR].
    set (items := tagged_name p :: fmtE (m_mean p) :: fmtE (m_err p) :: flat_map lim_items (m_limits p) ++ [m_label p]).
    assert (M : forall ls i, skipn i (m_limits p) = ls -> mapR (read_limit parse items) (seq i (List.length ls)) =
              Ok (map (fun l => ParamLimit (rd (l_lower l)) (rd (l_upper l)) (limitTag l)) ls)).
    { induction ls as [|l ls IH]; intros i E; [reflexivity|]. cbn [List.length seq mapR map].
      assert (Ni : nth_error (m_limits p) i = Some l).
      { rewrite <- (firstn_skipn i (m_limits p)), E. assert (List.length (firstn i (m_limits p)) = i).
        { rewrite firstn_length. assert (i < List.length (m_limits p)); [|lia].
          destruct (Nat.lt_ge_cases i (List.length (m_limits p))); [assumption|]. rewrite skipn_all2 in E by lia. discriminate. }
        rewrite nth_error_app2 by lia. replace (i - List.length (firstn i (m_limits p))) with 0 by lia. reflexivity. }
      unfold items at 1. rewrite (read_limit_ok _ _ _ _ _ _ l Ni).
      - cbn [bindR]. rewrite (IH (S i)); [reflexivity|]. replace (S i) with (1 + i) by lia.
        clear -E. revert i E. induction (m_limits p) as [|x xs IHx]; intros i E; [now rewrite skipn_nil in E|].
        destruct i as [|i]; [cbn in E |- *; now injection E|]. cbn [skipn Nat.add] in *. now apply IHx.
      - apply Hl. eapply nth_error_In, Ni. }
    specialize (M (m_limits p) 0 eq_refl). rewrite Hn in M. rewrite M. cbn [bindR].
    eexists. split; [reflexivity|]. unfold same_par. cbn [m_name m_derived m_label m_mean m_err m_limits].
    repeat (split; [first [assumption|reflexivity|idtac]|]).
    - unfold items. change (tagged_name p :: fmtE (m_mean p) :: fmtE (m_err p) :: flat_map lim_items (m_limits p) ++ [m_label p])
        with ((tagged_name p :: fmtE (m_mean p) :: fmtE (m_err p) :: flat_map lim_items (m_limits p)) ++ [m_label p]). apply last_last.
    - clear. induction (m_limits p) as [|l ls IH]; [constructor|]. cbn [map]. constructor; [|exact IH].
      split; [reflexivity|]. split; [reflexivity|]. intros t Ht. eapply tag_is_tail; [reflexivity|exact Ht].
  Qed.
  Lemma par_line_no_eol w n p : par_ok fmtE parse rd n p -> no_eol (par_line fmtE w p) = true.
  Proof.
    intros H. pose proof (tagged_word p n H) as TW. destruct H as [_ (W1 & _) (W2 & _) Hn Hl (N & St & El)].
    unfold par_line. rewrite !no_eol_app, no_eol_ljust, !no_eol_rjust, El by now apply word_no_eol. cbn [andb].
    rewrite no_eol_concat; [reflexivity|]. intros x Hx. apply in_map_iff in Hx as (l & <- & Hx).
    destruct (Hl l Hx) as (_ & (W3 & _) & (W4 & _)). unfold lim_text. rewrite !no_eol_app, no_eol_ljust, !no_eol_rjust by (apply word_no_eol; try assumption; apply tag_word).
    reflexivity.
  Qed.
  Lemma par_line_nonblank w n p : par_ok fmtE parse rd n p -> strip (par_line fmtE w p) <> [].
  Proof.
    intros H. pose proof (line_split w n p H) as E. intros S. unfold strip in S.
    assert (B : lstrip (par_line fmtE w p) = []).
    { unfold rstrip in S. apply (f_equal (@rev ascii)) in S. rewrite rev_involutive in S. cbn in S.
      assert (forall s, lstrip s = [] -> forallb is_space s = true) as A.
      { induction s as [|c s IH]; intros X; [reflexivity|]. cbn in X |- *. destruct (is_space c); [now apply IH|discriminate]. }
      apply A in S. destruct (lstrip (par_line fmtE w p)) as [|c s] eqn:Q; [reflexivity|].
      assert (no_lead (c :: s) = true) by (rewrite <- Q; apply no_lead_lstrip). cbn in H0.
      rewrite forallb_forall in S. rewrite (S c) in H0 by (apply -> in_rev; now left). discriminate. }
    destruct (n * 3 + 3); cbn [split_ws_n] in E; rewrite B in E; discriminate.
  Qed.
  Lemma read_pars_ok w n ps : (forall p, In p ps -> par_ok fmtE parse rd n p) ->
    exists ps', read_pars parse n (map (par_line fmtE w) ps) = Ok ps' /\ Forall2 (same_par rd) ps ps'.
  Proof.
    induction ps as [|p ps IH]; intros H; [exists []; split; [reflexivity|constructor]|].
    destruct IH as (ps' & E & S); [intros; apply H; now right|]. pose proof (H p (or_introl eq_refl)) as Hp.
    destruct (read_par_ok w n p Hp) as (p' & E1 & S1). exists (p' :: ps'). split; [|now constructor].
    cbn [map read_pars]. rewrite E1, E. cbn [bindR]. destruct (strip (par_line fmtE w p)) eqn:X; [|reflexivity].
    exfalso. eapply par_line_nonblank; eassumption.
  Qed.

  Lemma levels_split xs : xs <> [] -> (forall x, In x xs -> level_ok show parse rd x) -> forall b, forallb is_space b = true -> ~ In ";"%char b ->
    mapR (fun s => parse (strip s)) (split_ch ";"%char (b ++ join (L "; ") (map show xs))) = Ok (map rd xs).
  Proof.
    induction xs as [|x xs IH]; [contradiction|]. intros _ H b Hb Nb.
    destruct (H x (or_introl eq_refl)) as (W & _ & S & P).
    assert (Sx : strip (b ++ show x) = show x).
    { unfold strip. rewrite lstrip_blanks by exact Hb. now apply strip_word. }
    assert (Ns : ~ In ";"%char (b ++ show x)) by (rewrite in_app_iff; tauto).
    destruct xs as [|y xs].
    - cbn [map join]. rewrite split_ch_notin by exact Ns. cbn [mapR]. rewrite Sx, P. reflexivity.
    - change (join (L "; ") (map show (x :: y :: xs))) with (show x ++ [";"%char] ++ (L " " ++ join (L "; ") (map show (y :: xs)))).
      rewrite app_assoc, split_ch_app by exact Ns. cbn [mapR]. rewrite Sx, P. cbn [bindR].
      rewrite (IH ltac:(discriminate) ltac:(intros; apply H; now right) (L " ") eq_refl); [reflexivity|]. intros [E|[]]. discriminate.
  Qed.
End File.
