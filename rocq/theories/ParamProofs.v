From Verif Require Import PyStr PyStrFacts PyBase ParamModel ParamSpec.
From Coq Require Import Permutation Relations Sorted.

(** * .paramnames round trip *)
Lemma word_rest_app w c r : forallb (fun c => negb (is_space c)) w = true -> is_space c = true ->
  word_rest (w ++ c :: r) = (w, c :: r).
Proof.
  intros H Hc. induction w as [|x w IH]; simpl in *; [now rewrite Hc|].
  apply andb_true_iff in H as [H1 H2]. destruct (is_space x); [discriminate|]. now rewrite IH.
Qed.
Lemma word_rest_all w : forallb (fun c => negb (is_space c)) w = true -> word_rest w = (w, []).
Proof.
  intros H. induction w as [|x w IH]; simpl in *; [reflexivity|].
  apply andb_true_iff in H as [H1 H2]. destruct (is_space x); [discriminate|]. now rewrite IH.
Qed.
Lemma split_none_word w : w <> [] -> forallb (fun c => negb (is_space c)) w = true -> split_none_1 w = [w].
Proof.
  intros N H. unfold split_none_1. rewrite lstrip_no_lead by now apply no_space_no_lead.
  destruct w as [|x w]; [congruence|]. now rewrite word_rest_all.
Qed.
Lemma split_none_two w c r : w <> [] -> forallb (fun c => negb (is_space c)) w = true -> is_space c = true ->
  lstrip r <> [] -> split_none_1 (w ++ c :: r) = [w; lstrip r].
Proof.
  intros N H Hc Hr. unfold split_none_1.
  assert (Hw := no_space_no_lead w H).
  rewrite lstrip_app_keep by now rewrite lstrip_no_lead. rewrite lstrip_no_lead by exact Hw.
  destruct (w ++ c :: r) as [|y t] eqn:E; [destruct w; discriminate|]. rewrite <- E.
  rewrite word_rest_app by assumption. simpl. rewrite Hc. destruct (lstrip r); [congruence|reflexivity].
Qed.
Lemma split_none_one w c r : w <> [] -> forallb (fun c => negb (is_space c)) w = true -> is_space c = true ->
  lstrip r = [] -> split_none_1 (w ++ c :: r) = [w].
Proof.
  intros N H Hc Hr. unfold split_none_1.
  assert (Hw := no_space_no_lead w H).
  rewrite lstrip_app_keep by now rewrite lstrip_no_lead. rewrite lstrip_no_lead by exact Hw.
  destruct (w ++ c :: r) as [|y t] eqn:E; [destruct w; discriminate|]. rewrite <- E.
  rewrite word_rest_app by assumption. simpl. rewrite Hc, Hr. reflexivity.
Qed.

Lemma lstrip_ch_notin c s : ~ In c s -> lstrip_ch c s = s.
Proof. destruct s as [|x s]; simpl; [reflexivity|]. destruct (ch_eqb_spec x c); [intros []; auto|reflexivity]. Qed.
Lemma strip_ch_snoc c s : ~ In c s -> strip_ch c (s ++ [c]) = s.
Proof.
  intros H. unfold strip_ch.
  destruct s as [|x s]. { cbn [app lstrip_ch]. rewrite ch_eqb_refl. reflexivity. }
  assert (lstrip_ch c ((x :: s) ++ [c]) = (x :: s) ++ [c]) as ->.
  { cbn [app lstrip_ch]. destruct (ch_eqb_spec x c); [subst; simpl in H; tauto|reflexivity]. }
  rewrite rev_app_distr. cbn [rev app lstrip_ch]. rewrite ch_eqb_refl.
  change (rev s ++ [x]) with (rev (x :: s)). rewrite lstrip_ch_notin; [apply rev_involutive|].
  now rewrite <- in_rev.
Qed.
Lemma endswith_snoc c s : endswith [c] (s ++ [c]) = true.
Proof. unfold endswith. rewrite rev_app_distr. cbn [rev app startswith]. now rewrite ch_eqb_refl. Qed.
Lemma endswith_notin c s : ~ In c s -> endswith [c] s = false.
Proof.
  intros H. unfold endswith. cbn [rev app]. destruct (rev s) as [|x t] eqn:E; [reflexivity|].
  cbn [startswith]. destruct (ch_eqb_spec c x); [|reflexivity].
  exfalso. apply H. rewrite in_rev, E. subst; now left.
Qed.
Lemma in_str_iff c s : in_str c s = true <-> In c s.
Proof.
  unfold in_str. rewrite existsb_exists. split.
  - intros (x & I & E). apply ch_eqb_eq in E. now subst.
  - intros I. exists c. split; [exact I|apply ch_eqb_refl].
Qed.
Lemma in_str_false c s : in_str c s = false <-> ~ In c s.
Proof. rewrite <- in_str_iff. destruct (in_str c s); split; congruence. Qed.
Lemma no_space_notin c s : forallb (fun c => negb (is_space c)) s = true -> is_space c = true -> ~ In c s.
Proof. intros H Hc I. rewrite forallb_forall in H. apply H in I. now rewrite Hc in I. Qed.
Lemma setName_good n : good_name n -> setName n = Ok n.
Proof.
  intros (N & S & A & B). unfold setName.
  rewrite (proj2 (in_str_false star n)) by exact A.
  rewrite (proj2 (in_str_false "?"%char n)) by exact B.
  rewrite (proj2 (in_str_false " "%char n)) by (apply (no_space_notin " "%char n S); reflexivity).
  rewrite (proj2 (in_str_false tab n)) by (apply (no_space_notin tab n S); reflexivity).
  reflexivity.
Qed.
Lemma replace_notin a b s : ~ In a s -> replace_ch a b s = s.
Proof.
  induction s as [|c s IH]; cbn [replace_ch map]; [reflexivity|]. intros H. simpl in H.
  destruct (ch_eqb_spec c a); [subst; tauto|]. f_equal. apply IH. tauto.
Qed.
Lemma replace_inv a b s : ~ In b s -> replace_ch b a (replace_ch a b s) = s.
Proof.
  induction s as [|c s IH]; cbn [replace_ch map]; [reflexivity|]. intros H. simpl in H.
  f_equal; [|apply IH; tauto].
  destruct (ch_eqb_spec c a) as [->|N].
  - now rewrite ch_eqb_refl.
  - destruct (ch_eqb_spec c b); [subst; tauto|reflexivity].
Qed.

Definition shown_name (p : pinfo) : str := pname p ++ (if pderived p then [star] else []).
Lemma shown_name_no_space p : good_name (pname p) ->
  shown_name p <> [] /\ forallb (fun c => negb (is_space c)) (shown_name p) = true.
Proof.
  intros (N & S & _). unfold shown_name. split.
  - destruct (pname p); [congruence|discriminate].
  - rewrite forallb_app, S. now destruct (pderived p).
Qed.
Lemma name_back p : good_name (pname p) ->
  (if endswith [star] (shown_name p) then (strip_ch star (shown_name p), true) else (shown_name p, false))
  = (pname p, pderived p).
Proof.
  intros (N & S & A & B). unfold shown_name. destruct (pderived p).
  - rewrite endswith_snoc, strip_ch_snoc; [reflexivity|exact A].
  - rewrite app_nil_r, endswith_notin; [reflexivity|exact A].
Qed.

Lemma split_ch_1_notin c s : ~ In c s -> split_ch_1 c s = [s].
Proof. intros H. unfold split_ch_1. now rewrite (proj2 (find_ch_None c s)). Qed.
Lemma split_ch_1_app c a b : ~ In c a -> split_ch_1 c (a ++ c :: b) = [a; b].
Proof.
  intros H. unfold split_ch_1. rewrite find_ch_app_notin by exact H.
  rewrite firstn_app, firstn_all, Nat.sub_diag. cbn [firstn]. rewrite app_nil_r. f_equal. f_equal.
  replace (length a + 1) with (length (a ++ [c])) by (rewrite app_length; reflexivity).
  replace (a ++ c :: b) with ((a ++ [c]) ++ b) by now rewrite <- app_assoc.
  rewrite skipn_app, skipn_all, Nat.sub_diag. reflexivity.
Qed.

Lemma tab_space : is_space tab = true. Proof. reflexivity. Qed.

(** reading one written line *)
Lemma line_round_trip p : good_param p ->
  ParamInfo_line (strip (pstring true p)) = Ok (without_renames p) /\ strip (pstring true p) <> [].
Proof.
  intros (Hn & (Ls & Ll & Lh & Lb) & (Cs & Cl)).
  destruct (shown_name_no_space p Hn) as [SN SS].
  assert (NB := name_back p Hn). assert (SG := setName_good _ Hn).
  unfold ParamInfo_line, setFromString. cbn [pderived plabel pcomment prenames].
  assert (E : pstring true p = shown_name p ++ tab :: (plabel p ++ (if negb (str_eqb (pcomment p) []) then [tab; hash] ++ pcomment p else []))).
  { unfold pstring, shown_name. rewrite <- !app_assoc. reflexivity. }
  rewrite E.
  apply strip_fix_stripped in Ls as Ls'. apply strip_fix_stripped in Cs as Cs'.
  assert (Lnl : no_lead (plabel p) = true) by (unfold stripped in Ls'; now apply andb_true_iff in Ls').
  assert (Lrl : no_lead (rev (plabel p)) = true) by (unfold stripped in Ls'; now apply andb_true_iff in Ls').
  assert (Crl : no_lead (rev (pcomment p)) = true) by (unfold stripped in Cs'; now apply andb_true_iff in Cs').
  assert (Slead := no_space_no_lead _ SS).
  assert (Srl : no_lead (rev (shown_name p)) = true).
  { apply no_space_no_lead. rewrite forallb_forall in *. intros c Hc. apply SS. now apply in_rev. }
  destruct (str_eqb_spec (pcomment p) []) as [Ec|Nc]; cbn [negb].
  - rewrite app_nil_r. destruct (plabel p) as [|l0 ls] eqn:El.
    + (* name only *)
      rewrite (strip_snoc_space (shown_name p) tab tab_space).
      rewrite strip_stripped by (unfold stripped; now rewrite Slead, Srl).
      split; [|exact SN]. rewrite split_none_word by assumption. rewrite NB. cbv iota beta. rewrite SG. cbn [bindR].
      unfold without_renames. now rewrite El, Ec.
    + rewrite <- El in *.
      assert (ST : stripped (shown_name p ++ tab :: plabel p) = true).
      { apply stripped_app; try assumption; [discriminate|]. cbn [rev].
        destruct (rev (plabel p)) eqn:Er; [|exact Lrl].
        apply (f_equal (@rev ascii)) in Er. rewrite rev_involutive in Er. simpl in Er. congruence. }
      rewrite strip_stripped by exact ST. split; [|destruct (shown_name p); discriminate].
      assert (LS : lstrip (plabel p) = plabel p) by now apply lstrip_no_lead.
      rewrite split_none_two; [|assumption|assumption|exact tab_space|rewrite LS; congruence].
      rewrite NB. cbv iota beta. rewrite SG. cbn [bindR]. rewrite LS.
      rewrite split_ch_1_notin by exact Lh. rewrite Ls. rewrite replace_notin by exact Lb.
      unfold without_renames. now rewrite Ec.
  - set (cm := [tab; hash] ++ pcomment p).
    assert (ST : stripped (shown_name p ++ tab :: plabel p ++ cm) = true).
    { apply stripped_app; try assumption; [discriminate|].
      unfold cm. change (tab :: plabel p ++ [tab; hash] ++ pcomment p) with ((tab :: plabel p) ++ ([tab; hash] ++ pcomment p)).
      rewrite app_assoc, rev_app_distr. destruct (rev (pcomment p)) eqn:Er; [|exact Crl].
      apply (f_equal (@rev ascii)) in Er. rewrite rev_involutive in Er. simpl in Er. congruence. }
    rewrite strip_stripped by exact ST. split; [|destruct (shown_name p); discriminate].
    assert (LS : lstrip (plabel p ++ cm) = (match plabel p with [] => [] | _ => plabel p ++ [tab] end) ++ hash :: pcomment p).
    { destruct (plabel p) as [|l0 ls] eqn:El; [reflexivity|]. rewrite <- El in *.
      rewrite lstrip_app_keep by (rewrite lstrip_no_lead by exact Lnl; congruence).
      rewrite lstrip_no_lead by exact Lnl. rewrite El. rewrite <- app_assoc. reflexivity. }
    rewrite split_none_two; [|assumption|assumption|exact tab_space|rewrite LS; destruct (plabel p); discriminate].
    rewrite NB. cbv iota beta. rewrite SG. cbn [bindR]. rewrite LS.
    rewrite split_ch_1_app.
    + rewrite Cs. unfold without_renames. f_equal. f_equal.
      destruct (plabel p) as [|l0 ls] eqn:El; [reflexivity|]. rewrite <- El in *.
      rewrite strip_snoc_space by exact tab_space. rewrite Ls. now apply replace_notin.
    + destruct (plabel p) as [|l0 ls] eqn:El; [tauto|]. rewrite <- El in *.
      rewrite in_app_iff. intros [I|[I|[]]]; [now apply Lh|discriminate].
Qed.

Lemma pstring_no_eol p : good_param p -> no_eol (pstring true p) = true.
Proof.
  intros ((Nn & Sn & _) & (_ & Ll & _) & (_ & Lc)).
  unfold pstring. rewrite !no_eol_app.
  assert (no_eol (pname p) = true) as ->.
  { apply no_eol_iff. split; apply (no_space_notin _ _ Sn); reflexivity. }
  assert (no_eol (plabel p) = true) as -> by now apply no_eol_iff.
  destruct (pderived p); destruct (true && negb (str_eqb (pcomment p) [])); simpl; auto;
    rewrite ?no_eol_app; now apply no_eol_iff in Lc as ->.
Qed.

Lemma paramnames_round_trip l : Forall good_param l ->
  load_paramnames (plist_text l) = Ok (map without_renames l).
Proof.
  intros H. rewrite Forall_forall in H. unfold load_paramnames, plist_text.
  replace (concat (map (fun p => pstring true p ++ [nl]) l))
    with (concat (map (fun x => x ++ [nl]) (map (pstring true) l))) by now rewrite map_map.
  rewrite text_lines_nl.
  2:{ apply forallb_forall. intros x Hx. apply in_map_iff in Hx as (p & <- & Hp). now apply pstring_no_eol, H. }
  rewrite map_map.
  assert (F : filter (fun l0 => negb (str_eqb l0 [])) (map (fun x => strip (pstring true x)) l) = map (fun x => strip (pstring true x)) l).
  { clear -H. induction l as [|p l IH]; [reflexivity|]. cbn [map filter].
    destruct (str_eqb_spec (strip (pstring true p)) []) as [E|N].
    - exfalso. destruct (line_round_trip p) as [_ K]; [apply H; now left|]. congruence.
    - cbn [negb]. f_equal. apply IH. intros; apply H; now right. }
  rewrite F. apply mapR_map. intros p Hp. apply line_round_trip. now apply H.
Qed.

Lemma bang_label_refutation : exists p, plabel p = L "a!b" /\
  load_paramnames (plist_text [p]) = Ok [mkP (pname p) (L "a\b") (pcomment p) (pderived p) []].
Proof. exists (mkP (L "x") (L "a!b") [] false []). vm_compute. split; reflexivity. Qed.

(** * keywords *)
Lemma kw_one p : good_name (pname p) -> ~ In backslash (pname p) ->
  strip (plabel p) = plabel p -> ~ In "#"%char (plabel p) -> ~ In "!"%char (plabel p) ->
  pcomment p <> L "NULL" ->
  setFromStringWithComment (mkP [] [] [] false []) (replace_ch backslash bang (pstring false p)) (pcomment p)
  = Ok (without_renames p).
Proof.
  intros Hn Hb Ls Lh Lb Hc.
  destruct (shown_name_no_space p Hn) as [SN SS].
  assert (NB := name_back p Hn). assert (SG := setName_good _ Hn).
  assert (E : replace_ch backslash bang (pstring false p) = shown_name p ++ tab :: replace_ch backslash bang (plabel p)).
  { unfold pstring, shown_name, replace_ch. rewrite !map_app. cbn [andb]. rewrite app_nil_r.
    fold (replace_ch backslash bang (pname p)). rewrite replace_notin by exact Hb.
    rewrite <- app_assoc. f_equal. destruct (pderived p); reflexivity. }
  rewrite E.
  assert (SP : forall s, lstrip (replace_ch backslash bang s) = replace_ch backslash bang (lstrip s)).
  { clear. intros s. induction s as [|c s IH]; [reflexivity|]. cbn [replace_ch map lstrip].
    destruct (ch_eqb_spec c backslash) as [->|N].
    - change (is_space bang) with false. change (is_space backslash) with false. cbn [map].
      rewrite ch_eqb_refl. reflexivity.
    - destruct (is_space c) eqn:Ec; [exact IH|]. cbn [map]. apply ch_eqb_neq in N. rewrite N. reflexivity. }
  assert (RV : forall s, rev (replace_ch backslash bang s) = replace_ch backslash bang (rev s)).
  { intros s. unfold replace_ch. now rewrite map_rev. }
  assert (ST : forall s, strip (replace_ch backslash bang s) = replace_ch backslash bang (strip s)).
  { intros s. unfold strip, rstrip. now rewrite SP, RV, SP, RV. }
  apply strip_fix_stripped in Ls as Ls'.
  assert (Lnl : no_lead (plabel p) = true) by (unfold stripped in Ls'; now apply andb_true_iff in Ls').
  assert (LS : lstrip (replace_ch backslash bang (plabel p)) = replace_ch backslash bang (plabel p)).
  { rewrite SP. now rewrite lstrip_no_lead. }
  unfold setFromStringWithComment, setFromString. cbn [pderived plabel pcomment prenames].
  destruct (plabel p) as [|l0 ls] eqn:El.
  - rewrite split_none_one; [|assumption|assumption|exact tab_space|reflexivity].
    rewrite NB. cbv iota beta. rewrite SG. cbn [bindR pname plabel pderived prenames].
    apply str_eqb_neq in Hc. rewrite Hc. unfold without_renames. now rewrite El.
  - rewrite <- El in *.
    rewrite split_none_two; [|assumption|assumption|exact tab_space|rewrite LS, El; discriminate].
    rewrite NB. cbv iota beta. rewrite SG, LS. cbn [bindR].
    rewrite split_ch_1_notin.
    2:{ unfold replace_ch. rewrite in_map_iff. intros (c & Ec & Ic).
        destruct (ch_eqb_spec c backslash); [discriminate|]. subst. now apply Lh. }
    cbn [pname plabel pderived prenames]. rewrite ST, Ls, replace_inv by exact Lb.
    apply str_eqb_neq in Hc. rewrite Hc. reflexivity.
Qed.

Lemma filter_split {A} (f : A -> bool) l :
  length (filter f l) + length (filter (fun x => negb (f x)) l) = length l.
Proof. induction l as [|x l IH]; simpl; [reflexivity|]. destruct (f x); simpl; lia. Qed.

Lemma keywords_round_trip l :
  Forall (fun p => good_name (pname p) /\ ~ In backslash (pname p) /\ strip (plabel p) = plabel p /\
           ~ In "#"%char (plabel p) /\ ~ In "!"%char (plabel p) /\ pcomment p <> L "NULL") l ->
  loadFromKeyWords (saveKeyWords l) = Ok (map without_renames l).
Proof.
  intros H. unfold saveKeyWords, loadFromKeyWords.
  assert (numDerived l <= length l).
  { unfold numDerived. pose proof (filter_split pderived l). lia. }
  replace (length l - numDerived l + numDerived l) with (length l) by lia. clear H0.
  induction H as [|p l (A & B & C & D & E & F) Hl IH]; [reflexivity|].
  cbn [length map load_kw]. rewrite kw_one by assumption. cbn [bindR]. rewrite IH. reflexivity.
Qed.

(** * lookups *)
Lemma numberOfName_from_spec l : forall i name,
  match numberOfName_from i l name with
  | Some n => exists l1 p l2, l = l1 ++ p :: l2 /\ pname p = name /\ i + length l1 = n /\ ~ In name (map pname l1)
  | None => ~ In name (map pname l)
  end.
Proof.
  induction l as [|p l IH]; intros i name; cbn [numberOfName_from map]; [tauto|].
  destruct (str_eqb_spec (pname p) name) as [E|N].
  - exists [], p, l. simpl. repeat split; auto.
  - specialize (IH (S i) name). destruct (numberOfName_from (S i) l name) as [n|].
    + destruct IH as (l1 & q & l2 & -> & Eq & <- & Hn). exists (p :: l1), q, l2. simpl. repeat split; auto; try lia.
      intros [?|?]; tauto.
    + simpl; tauto.
Qed.
Lemma numberOfName_spec l name :
  (forall n, numberOfName l name = Some n <->
     exists l1 p l2, l = l1 ++ p :: l2 /\ pname p = name /\ length l1 = n /\ ~ In name (map pname l1)) /\
  (numberOfName l name = None <-> ~ In name (map pname l)) /\
  (hasParam l name = true <-> In name (map pname l)).
Proof.
  unfold hasParam, numberOfName. pose proof (numberOfName_from_spec l 0 name) as H.
  destruct (numberOfName_from 0 l name) as [n|].
  - destruct H as (l1 & p & l2 & -> & E & <- & Hn).
    assert (I : In name (map pname (l1 ++ p :: l2))).
    { rewrite map_app, in_app_iff. right; left; exact E. }
    split; [|split].
    + intros m. split.
      * intros [= <-]. exists l1, p, l2. repeat split; auto.
      * intros (l1' & p' & l2' & E' & Ep & <- & Hn'). f_equal. cbn [Nat.add].
        destruct (Nat.lt_trichotomy (length l1) (length l1')) as [Lt|[Eq|Gt]]; [|exact Eq|].
        -- exfalso. apply Hn'. rewrite <- E. apply in_map.
           assert (K : nth_error (l1' ++ p' :: l2') (length l1) = Some p).
           { rewrite <- E', nth_error_app2, Nat.sub_diag by lia. reflexivity. }
           rewrite nth_error_app1 in K by lia. eapply nth_error_In; exact K.
        -- exfalso. apply Hn. rewrite <- Ep. apply in_map.
           assert (K : nth_error (l1 ++ p :: l2) (length l1') = Some p').
           { rewrite E', nth_error_app2, Nat.sub_diag by lia. reflexivity. }
           rewrite nth_error_app1 in K by lia. eapply nth_error_In; exact K.
    + split; [discriminate|tauto].
    + tauto.
  - split; [|split].
    + intros n. split; [discriminate|]. intros (l1 & p & l2 & -> & E & _). exfalso; apply H.
      rewrite map_app, in_app_iff. right; left; exact E.
    + tauto.
    + split; [discriminate|tauto].
Qed.

Lemma meets_iff a b : meets a b = true <-> exists x, In x a /\ In x b.
Proof.
  unfold meets. rewrite existsb_exists. split; intros (x & A & B); exists x; split; auto; now apply mem_str_In.
Qed.
Lemma meets_false a b : meets a b = false <-> forall x, In x a -> ~ In x b.
Proof.
  split.
  - intros H x Ha Hb. assert (meets a b = true) by (apply meets_iff; eauto). congruence.
  - intros H. destruct (meets a b) eqn:E; [|reflexivity]. apply meets_iff in E as (x & A & B). destruct (H x A B).
Qed.

Lemma renames_get_In r k x : In x (renames_get r k) <-> exists v, dget k r = Some v /\ In x v.
Proof.
  unfold renames_get. destruct (dget k r) as [v|].
  - split; [eauto|]. now intros (w & [= <-] & I).
  - split; [intros []|]. now intros (w & [=] & _).
Qed.
Lemma find_par_spec l given r :
  match find_par l given r with
  | Some p => exists l1 l2, l = l1 ++ p :: l2 /\ (exists x, answers r p x /\ In x given) /\
                (forall q, In q l1 -> forall x, answers r q x -> ~ In x given)
  | None => forall q, In q l -> forall x, answers r q x -> ~ In x given
  end.
Proof.
  assert (A : forall p x, In x (pname p :: prenames p ++ renames_get r (pname p)) <-> answers r p x).
  { intros p x. cbn [In]. rewrite in_app_iff, renames_get_In. unfold answers. intuition congruence. }
  induction l as [|p l IH]; cbn [find_par]; [simpl; tauto|].
  destruct (meets _ given) eqn:E.
  - apply meets_iff in E as (x & I1 & I2). exists [], l. split; [reflexivity|]. split; [exists x; now rewrite <- A|simpl; tauto].
  - assert (E' : forall x, answers r p x -> ~ In x given).
    { intros x Hx. apply A in Hx. revert x Hx. now apply meets_false. }
    destruct (find_par l given r) as [q|].
    + destruct IH as (l1 & l2 & -> & Hq & Hl). exists (p :: l1), l2. split; [reflexivity|]. split; [exact Hq|].
      intros q' [<-|I]; eauto.
    + intros q [<-|I]; eauto.
Qed.
Lemma parWithName_spec l name error r :
  (exists p l1 l2, parWithName l name error r = Ok (Some p) /\ l = l1 ++ p :: l2 /\
     (exists x, answers r p x /\ tried r name x) /\
     (forall q, In q l1 -> ~ exists x, answers r q x /\ tried r name x)) \/
  ((forall q, In q l -> ~ exists x, answers r q x /\ tried r name x) /\
   parWithName l name error r = if error then Err (OtherError name) else Ok None).
Proof.
  assert (T : forall x, In x (name :: renames_get r name) <-> tried r name x).
  { intros x. cbn [In]. rewrite renames_get_In. unfold tried. intuition congruence. }
  pose proof (find_par_spec l (name :: renames_get r name) r) as H. unfold parWithName.
  destruct (find_par l (name :: renames_get r name) r) as [p|].
  - left. destruct H as (l1 & l2 & -> & (x & A & B) & Hl). exists p, l1, l2. repeat split; auto.
    + exists x. rewrite <- T. auto.
    + intros q I (y & C & D). apply (Hl q I y C). now apply T.
  - right. split; [|reflexivity]. intros q I (x & A & B). apply (H q I x A). now apply T.
Qed.
(** without any renames the lookups agree *)
Lemma parWithName_plain l name error : (forall p, In p l -> prenames p = []) ->
  parWithName l name error [] =
    match numberOfName l name with
    | Some n => Ok (nth_error l n)
    | None => if error then Err (OtherError name) else Ok None
    end.
Proof.
  intros H. destruct (parWithName_spec l name error []) as [(p & l1 & l2 & E & -> & (x & A & B) & Hl)|[Hn E]]; rewrite E.
  - assert (x = name) as -> by (destruct B as [->|(v & [=] & _)]; reflexivity).
    assert (pname p = name) as Ep.
    { destruct A as [->|[I|(v & [=] & _)]]; [reflexivity|]. rewrite (H p) in I; [destruct I|]. apply in_or_app; right; now left. }
    assert (N : numberOfName (l1 ++ p :: l2) name = Some (length l1)).
    { apply (proj1 (numberOfName_spec (l1 ++ p :: l2) name)). exists l1, p, l2. repeat split; auto.
      intros I. apply in_map_iff in I as (q & Eq & Iq). apply (Hl q Iq). exists name. split; [now left|now left]. }
    rewrite N. rewrite nth_error_app2, Nat.sub_diag by lia. reflexivity.
  - assert (numberOfName l name = None) as ->; [|reflexivity].
    apply (proj1 (proj2 (numberOfName_spec l name))). intros I. apply in_map_iff in I as (q & Eq & Iq).
    apply (Hn q Iq). exists name. split; [now left|now left].
Qed.

(** * selection *)
Lemma delete_from_spec l : forall i ix,
  delete_from i l ix = map snd (filter (fun ip => negb (existsb (Nat.eqb (fst ip)) ix)) (combine (seq i (length l)) l)).
Proof.
  induction l as [|p l IH]; intros i ix; cbn [delete_from length seq combine filter map fst]; [reflexivity|].
  destruct (existsb (Nat.eqb i) ix); cbn [negb map snd]; now rewrite IH.
Qed.
(** positions kept, in order *)
Lemma deleteIndices_spec l ix : exists kept,
  deleteIndices l ix = flat_map (fun n => match nth_error l n with Some p => [p] | None => [] end) kept /\
  (forall n, In n kept <-> n < length l /\ ~ In n ix) /\ Sorted.StronglySorted lt kept.
Proof.
  exists (filter (fun n => negb (existsb (Nat.eqb n) ix)) (seq 0 (length l))).
  assert (X : forall n, existsb (Nat.eqb n) ix = true <-> In n ix).
  { intros n. rewrite existsb_exists. split; [intros (m & I & E); apply Nat.eqb_eq in E; now subst|].
    intros I; exists n; split; [exact I|apply Nat.eqb_refl]. }
  split; [|split].
  - unfold deleteIndices.
    assert (G : forall l pre, delete_from (length pre) l ix =
      flat_map (fun n => match nth_error (pre ++ l) n with Some p => [p] | None => [] end)
               (filter (fun n => negb (existsb (Nat.eqb n) ix)) (seq (length pre) (length l)))).
    { clear. induction l as [|p l IH]; intros pre; cbn [delete_from length seq filter]; [reflexivity|].
      specialize (IH (pre ++ [p])). rewrite app_length in IH. cbn [length] in IH. rewrite Nat.add_1_r in IH.
      rewrite <- app_assoc in IH. cbn [app] in IH. rewrite IH.
      destruct (existsb (Nat.eqb (length pre)) ix); cbn [negb flat_map]; [reflexivity|].
      rewrite nth_error_app2, Nat.sub_diag by lia. reflexivity. }
    exact (G l []).
  - intros n. rewrite filter_In, in_seq, negb_true_iff. rewrite <- X.
    destruct (existsb (Nat.eqb n) ix); split; intros [A B]; split; try lia; try congruence; try discriminate; exfalso; tauto.
  - assert (G : forall n i, Sorted.StronglySorted lt (filter (fun n => negb (existsb (Nat.eqb n) ix)) (seq i n))).
    { clear. induction n as [|n IH]; intros i; cbn [seq filter]; [constructor|].
      destruct (negb _); [|apply IH]. constructor; [apply IH|].
      apply Forall_forall. intros m Hm. apply filter_In in Hm as [Hm _]. apply in_seq in Hm. lia. }
    apply G.
Qed.

Lemma filter_subseq {A} (P : A -> Prop) f (l : list A) : (forall x, f x = true <-> P x) -> subseq P l (filter f l).
Proof.
  intros H. induction l as [|x l IH]; simpl; [constructor|].
  destruct (f x) eqn:E; constructor; auto; [now apply H|]. intros C. apply H in C. congruence.
Qed.
Lemma filteredCopy_names_spec l params :
  subseq (fun p => In (pname p) params) l (filteredCopy_names l params).
Proof. apply filter_subseq. intros p. apply mem_str_In. Qed.
Lemma filteredCopy_spec l params :
  subseq (fun p => exists q, In q params /\ (pname q = pname p \/ In (pname p) (prenames q))) l (filteredCopy l params).
Proof.
  apply filter_subseq. intros p. pose proof (find_par_spec params [pname p] []) as H.
  destruct (find_par params [pname p] []) as [q|].
  - split; [|reflexivity]. intros _. destruct H as (l1 & l2 & -> & (x & A & [<-|[]]) & _).
    exists q. split; [apply in_or_app; right; now left|].
    destruct A as [E|[I|(v & [=] & _)]]; auto.
  - split; [discriminate|]. intros (q & Iq & Hq). exfalso. apply (H q Iq (pname p)).
    + destruct Hq as [E|I]; [left; auto|right; left; exact I].
    + now left.
Qed.
Lemma counts l : numDerived l + numNonDerived l = length l /\
  numDerived l = length (getDerivedNames l) /\ numNonDerived l = length (getRunningNames l) /\
  Permutation (getRunningNames l ++ getDerivedNames l) (map pname l).
Proof.
  unfold numDerived, numNonDerived, getDerivedNames, getRunningNames. rewrite !map_length.
  split; [apply filter_split|]. split; [reflexivity|]. split; [reflexivity|].
  induction l as [|p l IH]; simpl; [reflexivity|]. destruct (pderived p); simpl.
  - rewrite <- Permutation_middle. now constructor.
  - now constructor.
Qed.
Lemma addDerived_spec l name label comment derived renames :
  good_name name ->
  exists p, addDerived l name label comment derived renames = Ok (l ++ [p]) /\
    pname p = name /\ pcomment p = comment /\ prenames p = renames /\
    pderived p = match derived with Some b => b | None => true end /\
    (label <> [] -> plabel p = label) /\ (label = [] -> plabel p = name).
Proof.
  intros H. unfold addDerived, ParamInfo_new. rewrite setName_good by exact H. cbn [bindR].
  eexists. split; [reflexivity|]. cbn. destruct label; repeat split; auto; congruence.
Qed.

(** * renames *)
Definition disj (a b : list str) : Prop := forall x, In x a -> ~ In x b.
Lemma set_of_In l x : In x (set_of l) <-> In x l.
Proof. apply nodup_In. Qed.
Lemma union_In a b x : In x (set_join a b) <-> In x a \/ In x b.
Proof.
  unfold set_join. rewrite in_app_iff, filter_In, negb_true_iff, mem_str_false.
  destruct (in_dec str_eq_dec x a); tauto.
Qed.
Lemma app_filter_NoDup (f : str -> bool) a b :
  NoDup a -> NoDup b -> (forall y, In y a -> f y = false) -> NoDup (a ++ filter f b).
Proof.
  intros A B. induction A as [|u a Hu A IH]; intros H; cbn [app]; [now apply NoDup_filter|].
  constructor; [|apply IH; intros; apply H; now right].
  rewrite in_app_iff, filter_In. intros [?|[_ C]]; [tauto|]. rewrite H in C by now left. discriminate.
Qed.
Lemma union_NoDup a b : NoDup a -> NoDup b -> NoDup (set_join a b).
Proof.
  intros A B. apply app_filter_NoDup; auto. intros y Hy. now apply negb_false_iff, mem_str_In.
Qed.

Lemma absorb_spec s rest :
  match absorb s rest with
  | Some (u, r) => exists t r1 r2, rest = r1 ++ t :: r2 /\ r = r1 ++ r2 /\ u = set_join s t /\ meets s t = true
  | None => forall t, In t rest -> meets s t = false
  end.
Proof.
  induction rest as [|t rest IH]; cbn [absorb]; [intros t []|].
  destruct (meets s t) eqn:E.
  - exists t, [], rest. auto.
  - destruct (absorb s rest) as [[u r]|].
    + destruct IH as (t' & r1 & r2 & -> & -> & -> & M). exists t', (t :: r1), r2. auto.
    + intros t' [<-|I]; auto.
Qed.

Section Merge.
  Variable E : list (list str).
  Definition rel (x y : str) : Prop := exists s, In s E /\ In x s /\ In y s.
  Definition conn := clos_refl_trans _ rel.
  Lemma conn_sym x y : conn x y -> conn y x.
  Proof.
    induction 1 as [x y (s & A & B & C)|x|x y z _ A _ B].
    - apply rt_step. exists s; auto.
    - apply rt_refl.
    - eapply rt_trans; eauto.
  Qed.
  Definition good_group (g : list str) : Prop :=
    NoDup g /\ g <> [] /\ (forall x y, In x g -> In y g -> conn x y) /\ (forall x, In x g -> exists s, In s E /\ In x s).
  Record inv (sets out : list (list str)) : Prop := {
    inv_good : forall g, In g (out ++ sets) -> good_group g;
    inv_cover : forall s, In s E -> exists g, In g (out ++ sets) /\ incl s g;
    inv_out : ForallOrdPairs disj out;
    inv_sep : forall g h, In g out -> In h sets -> disj g h }.
  Lemma FOP_snoc {A} (R : A -> A -> Prop) l x : ForallOrdPairs R l -> Forall (fun y => R y x) l -> ForallOrdPairs R (l ++ [x]).
  Proof.
    induction 1 as [|a l Ha Hl IH]; intros F; cbn [app]; [repeat constructor|].
    inversion F; subst. constructor; [|auto]. apply Forall_app. split; [exact Ha|]. repeat constructor; assumption.
  Qed.
  Lemma merge_loop_inv fuel : forall sets out, length sets <= fuel -> inv sets out ->
    exists out', merge_loop fuel sets out = Some out' /\ inv [] out'.
  Proof.
    induction fuel as [|fuel IH]; intros sets out Hl I.
    - destruct sets; [|simpl in Hl; lia]. exists out. auto.
    - destruct sets as [|s rest]; [exists out; auto|]. cbn [merge_loop].
      pose proof (absorb_spec s rest) as AS. destruct (absorb s rest) as [[u r]|].
      + destruct AS as (t & r1 & r2 & -> & -> & -> & M). apply IH.
        { simpl in *. rewrite app_length in *. simpl in Hl. lia. }
        destruct I as [I1 I2 I3 I4].
        assert (Gs : good_group s) by (apply I1; apply in_or_app; right; now left).
        assert (Gt : good_group t).
        { apply I1. rewrite !in_app_iff. right; right. apply in_or_app; right; now left. }
        assert (Iin : forall g, In g (r1 ++ r2) -> In g (s :: r1 ++ t :: r2)).
        { intros g Hg. right. rewrite in_app_iff in *. cbn [In]. tauto. }
        constructor.
        * intros g Hg. rewrite in_app_iff in Hg. destruct Hg as [Hg|[<-|Hg]].
          -- apply I1. apply in_or_app; now left.
          -- destruct Gs as (N1 & N2 & N3 & N4), Gt as (T1 & T2 & T3 & T4).
             apply meets_iff in M as (z & Z1 & Z2).
             split; [now apply union_NoDup|]. split.
             { intros C. assert (In z []) by (rewrite <- C; apply union_In; now left). auto. }
             split.
             ++ intros x y Hx Hy. apply union_In in Hx, Hy.
                assert (conn x z) by (destruct Hx; auto). assert (conn z y) by (destruct Hy; auto).
                eapply rt_trans; eauto.
             ++ intros x Hx. apply union_In in Hx as [Hx|Hx]; auto.
          -- apply I1. apply in_or_app; right. auto.
        * intros e He. destruct (I2 e He) as (g & Hg & Hi). rewrite in_app_iff in Hg. cbn [In] in Hg. rewrite in_app_iff in Hg. cbn [In] in Hg.
          destruct Hg as [Hg|[<-|[Hg|[<-|Hg]]]].
          -- exists g. split; [apply in_or_app; now left|exact Hi].
          -- exists (set_join s t). split; [apply in_or_app; right; now left|]. intros x Hx. apply union_In; left; auto.
          -- exists g. split; [|exact Hi]. apply in_or_app; right; right. apply in_or_app; now left.
          -- exists (set_join s t). split; [apply in_or_app; right; now left|]. intros x Hx. apply union_In; right; auto.
          -- exists g. split; [|exact Hi]. apply in_or_app; right; right. apply in_or_app; now right.
        * exact I3.
        * intros g h Hg [<-|Hh].
          -- intros x X1 X2. apply union_In in X2 as [X2|X2].
             ++ apply (I4 g s Hg (or_introl eq_refl) x X1 X2).
             ++ apply (I4 g t Hg) in X2; auto. right. apply in_or_app; right; now left.
          -- apply I4; auto.
      + apply IH; [simpl in *; lia|]. destruct I as [I1 I2 I3 I4]. constructor.
        * intros g Hg. apply I1. rewrite <- app_assoc in Hg. exact Hg.
        * intros e He. destruct (I2 e He) as (g & Hg & Hi). exists g. rewrite <- app_assoc. auto.
        * apply FOP_snoc; [exact I3|]. apply Forall_forall. intros g Hg. apply I4; [exact Hg|now left].
        * intros g h Hg Hh. apply in_app_iff in Hg as [Hg|[<-|[]]].
          -- apply I4; [exact Hg|now right].
          -- specialize (AS h Hh). intros x. now apply meets_false.
  Qed.
  Lemma merge_loop_final : (forall s, In s E -> NoDup s /\ s <> []) ->
    exists out, merge_loop (length E) E [] = Some out /\ inv [] out.
  Proof.
    intros H. apply merge_loop_inv; [reflexivity|]. constructor.
    - intros g Hg. cbn [app] in Hg. destruct (H g Hg) as [A B]. split; [exact A|]. split; [exact B|]. split.
      + intros x y Hx Hy. apply rt_step. exists g; auto.
      + intros x Hx. exists g; auto.
    - intros s Hs. exists s. split; [exact Hs|]. intros x; auto.
    - constructor.
    - intros g h [].
  Qed.
  Lemma FOP_disj_eq out g h x : ForallOrdPairs disj out -> In g out -> In h out -> In x g -> In x h -> g = h.
  Proof.
    induction 1 as [|a l Ha Hl IH]; intros Ig Ih Xg Xh; [destruct Ig|].
    rewrite Forall_forall in Ha.
    destruct Ig as [<-|Ig], Ih as [<-|Ih]; auto.
    - exfalso. apply (Ha h Ih x Xg Xh).
    - exfalso. apply (Ha g Ig x Xh Xg).
  Qed.
  (** a final group containing x is the whole component of x *)
  Lemma final_component out g x y : inv [] out -> In g out -> In x g -> (In y g <-> conn x y).
  Proof.
    intros [I1 I2 I3 _] Ig Hx. rewrite app_nil_r in *. split.
    - intros Hy. apply (I1 g Ig); assumption.
    - intros C. revert Hx. induction C as [x y (s & A & B & C)|x|x y z _ H1 _ H2]; auto.
      intros Hx. destruct (I2 s A) as (h & Ih & Sub).
      assert (g = h) as -> by (eapply FOP_disj_eq; eauto). auto.
  Qed.
End Merge.

Lemma rename_sets_In dicts s : In s (rename_sets dicts) <-> exists d k v, In d dicts /\ In (k, v) d /\ s = set_of (k :: v).
Proof.
  unfold rename_sets. rewrite in_flat_map. split.
  - intros (d & Hd & Hs). apply in_map_iff in Hs as ([k v] & <- & I). exists d, k, v. auto.
  - intros (d & k & v & Hd & I & ->). exists d. split; [exact Hd|]. apply in_map_iff. exists (k, v). auto.
Qed.
Lemma rel_together dicts x y : rel (rename_sets dicts) x y <-> together dicts x y.
Proof.
  unfold rel, together. split.
  - intros (s & Hs & Hx & Hy). apply rename_sets_In in Hs as (d & k & v & Hd & I & ->).
    exists d, k, v. rewrite <- !(set_of_In (k :: v)). auto.
  - intros (d & k & v & Hd & I & Hx & Hy). exists (set_of (k :: v)). rewrite !set_of_In. split; auto.
    apply rename_sets_In. eauto 6.
Qed.
Lemma conn_linked dicts x y : conn (rename_sets dicts) x y <-> linked dicts x y.
Proof.
  split; induction 1 as [x y R|x|x y z _ A _ B]; try (now apply rt_refl); try (eapply rt_trans; eassumption);
    apply rt_step; now apply rel_together.
Qed.
Lemma linked_sym dicts x y : linked dicts x y -> linked dicts y x.
Proof. rewrite <- !conn_linked. apply conn_sym. Qed.

Lemma same_set_iff a b : same_set a b = true <-> forall x, In x a <-> In x b.
Proof.
  unfold same_set. rewrite andb_true_iff, !forallb_forall. split.
  - intros [A B] x. split; intros H; apply mem_str_In; auto.
  - intros H. split; intros x Hx; apply mem_str_In; now apply H.
Qed.

Lemma name_group_spec pick keep1 all g x :
  (forall l, l <> [] -> In (pick l) l) -> (forall y, In y g <-> linked all x y) -> NoDup g -> forall dicts,
  match name_group pick keep1 dicts g with
  | Some (k, v) => In k g /\ NoDup (k :: v) /\ (forall y, In y (k :: v) <-> In y g) /\
      exists ds1 d ds2, dicts = ds1 ++ d :: ds2 /\ In k (dkeys d) /\ gives_name keep1 all d x /\
        forall d', In d' ds1 -> ~ gives_name keep1 all d' x
  | None => forall d, In d dicts -> ~ gives_name keep1 all d x
  end.
Proof.
  intros Hp Hg ND. induction dicts as [|d ds IH]; cbn [name_group]; [intros d []|].
  set (p := filter (fun x0 => mem_str x0 g) (dkeys d)).
  assert (Pin : forall y, In y p <-> In y (dkeys d) /\ In y g).
  { intros y. unfold p. rewrite filter_In, mem_str_In. tauto. }
  assert (GN : (negb (match p with [] => true | _ :: _ => false end) && (negb (same_set g p) || keep1) = true)
               <-> gives_name keep1 all d x).
  { unfold gives_name. rewrite andb_true_iff, orb_true_iff.
    assert (A : negb (match p with [] => true | _ :: _ => false end) = true <-> exists y, In y (dkeys d) /\ linked all x y).
    { destruct p as [|y p'] eqn:Ep.
      - split; [discriminate|]. intros (y & A & B). apply Hg in B. assert (In y []) by (apply Pin; auto). auto.
      - split; [|reflexivity]. intros _. exists y. rewrite <- Hg. apply Pin. now left. }
    assert (B : negb (same_set g p) = true <-> exists z, linked all x z /\ ~ In z (dkeys d)).
    { rewrite negb_true_iff. split.
      - intros H. destruct (forallb (fun y => mem_str y (dkeys d)) g) eqn:F.
        + rewrite forallb_forall in F. assert (same_set g p = true); [|congruence].
          apply same_set_iff. intros y. rewrite Pin. split; [|tauto]. intros Hy. split; auto. apply mem_str_In; auto.
        + assert (exists z, In z g /\ mem_str z (dkeys d) = false) as (z & Z1 & Z2).
          { clear -F. induction g as [|a g IH]; simpl in F; [discriminate|]. apply andb_false_iff in F as [F|F].
            - exists a. split; [now left|exact F].
            - destruct (IH F) as (z & A & B). exists z. split; [now right|exact B]. }
          exists z. rewrite <- Hg. split; [exact Z1|now apply mem_str_false].
      - intros (z & Z1 & Z2). destruct (same_set g p) eqn:S; [|reflexivity]. exfalso.
        rewrite same_set_iff in S. apply Hg, S, Pin in Z1. tauto. }
    rewrite A, B. tauto. }
  destruct (negb _ && _) eqn:E.
  - assert (GG := proj1 GN eq_refl).
    assert (Np : p <> []) by (destruct p; [discriminate|discriminate]).
    apply Hp in Np. set (k := pick p) in *. apply Pin in Np as Np'. destruct Np' as [K1 K2].
    split; [exact K2|]. split; [|split].
    + constructor; [|now apply NoDup_filter]. rewrite filter_In, str_eqb_refl. intros [_ C]; discriminate.
    + intros y. cbn [In]. rewrite filter_In, negb_true_iff, str_eqb_neq. split.
      * intros [<-|[? _]]; assumption.
      * intros Hy. destruct (str_eq_dec k y); [now left|right; split; congruence].
    + exists [], d, ds. split; [reflexivity|]. split; [exact K1|]. split; [exact GG|]. intros d' [].
  - assert (NG : ~ gives_name keep1 all d x) by (intros C; apply GN in C; congruence).
    destruct (name_group pick keep1 ds g) as [[k v]|].
    + destruct IH as (A & B & C & ds1 & d0 & ds2 & -> & D & F & G). split; [exact A|]. split; [exact B|]. split; [exact C|].
      exists (d :: ds1), d0, ds2. split; [reflexivity|]. split; [exact D|]. split; [exact F|]. intros d' [<-|I]; auto.
    + intros d' [<-|I]; auto.
Qed.

Lemma mergeRenames_spec pick keep1 dicts : (forall l, l <> [] -> In (pick l) l) ->
  exists m, mergeRenames pick keep1 dicts = Some m /\
    (forall k alts, In (k, alts) m -> mentioned dicts k /\ NoDup (k :: alts) /\
       (forall x, In x (k :: alts) <-> linked dicts k x) /\
       exists ds1 d ds2, dicts = ds1 ++ d :: ds2 /\ In k (dkeys d) /\ gives_name keep1 dicts d k /\
         forall d', In d' ds1 -> ~ gives_name keep1 dicts d' k) /\
    NoDup (dkeys m) /\
    (forall k1 k2, In k1 (dkeys m) -> In k2 (dkeys m) -> linked dicts k1 k2 -> k1 = k2) /\
    (forall x, mentioned dicts x ->
       ((exists k alts, In (k, alts) m /\ In x (k :: alts)) <-> exists d, In d dicts /\ gives_name keep1 dicts d x)).
Proof.
  intros Hp. unfold mergeRenames.
  set (E := rename_sets dicts).
  assert (HE : forall s, In s E -> NoDup s /\ s <> []).
  { intros s Hs. apply rename_sets_In in Hs as (d & k & v & _ & _ & ->). split; [apply NoDup_nodup|].
    intros C. assert (In k []) by (rewrite <- C; apply set_of_In; now left). auto. }
  destruct (merge_loop_final E HE) as (out & -> & I).
  assert (COMP : forall g x, In g out -> In x g -> forall y, In y g <-> linked dicts x y).
  { intros g x Ig Ix y. rewrite <- conn_linked. eapply final_component; eauto. }
  destruct I as [I1 I2 I3 _]. rewrite app_nil_r in I1, I2.
  eexists. split; [reflexivity|].
  (* the fold is a flat_map *)
  set (step := fun m g => match name_group pick keep1 dicts g with Some (k, v) => dset k v m | None => m end).
  set (one := fun g => match name_group pick keep1 dicts g with Some kv => [kv] | None => [] end : dict (list str)).
  assert (NG : forall g, In g out -> exists x, In x g /\
     match name_group pick keep1 dicts g with
     | Some (k, v) => In k g /\ NoDup (k :: v) /\ (forall y, In y (k :: v) <-> In y g) /\
         exists ds1 d ds2, dicts = ds1 ++ d :: ds2 /\ In k (dkeys d) /\ gives_name keep1 dicts d x /\
           forall d', In d' ds1 -> ~ gives_name keep1 dicts d' x
     | None => forall d, In d dicts -> ~ gives_name keep1 dicts d x
     end).
  { intros g Ig. destruct (I1 g Ig) as (N & NE & _). destruct g as [|x g']; [congruence|].
    exists x. split; [now left|]. apply name_group_spec; auto. apply COMP; auto. now left. }
  assert (KEYS : forall gs m, ForallOrdPairs disj gs -> incl gs out ->
     (forall k, In k (dkeys m) -> forall g, In g gs -> ~ In k g) -> NoDup (dkeys m) ->
     fold_left step gs m = m ++ flat_map one gs /\ NoDup (dkeys (m ++ flat_map one gs))).
  { induction gs as [|g gs IH]; intros m Hd Hi Hm Hn; cbn [fold_left flat_map].
    - rewrite app_nil_r. auto.
    - inversion Hd as [|? ? Hg Hgs]; subst. rewrite Forall_forall in Hg.
      assert (Ig : In g out) by (apply Hi; now left).
      destruct (NG g Ig) as (x & Hx & SP).
      assert (Hi' : incl gs out) by (intros a Ha; apply Hi; now right).
      unfold step at 2, one at 1 3. destruct (name_group pick keep1 dicts g) as [[k v]|].
      + destruct SP as (Kg & _). 
        assert (Nk : ~ In k (dkeys m)) by (intros C; apply (Hm k C g (or_introl eq_refl) Kg)).
        rewrite dset_new by exact Nk. rewrite !app_assoc.
        apply IH; auto.
        * intros k' Hk' g' Hg'. unfold dkeys in Hk'. rewrite map_app, in_app_iff in Hk'. destruct Hk' as [Hk'|[<-|[]]].
          -- apply Hm; [exact Hk'|now right].
          -- cbn [fst]. now apply (Hg g' Hg').
        * unfold dkeys. rewrite map_app. cbn [map fst]. apply (Permutation_NoDup (l := k :: map fst m)); [|constructor; assumption].
          apply Permutation_cons_append.
      + cbn [app]. apply IH; auto. intros k Hk g' Hg'. apply Hm; [exact Hk|now right]. }
  destruct (KEYS out [] I3 (incl_refl out)) as [-> ND]; [intros k []|constructor|]. cbn [app] in *.
  assert (IN : forall k alts, In (k, alts) (flat_map one out) <-> exists g, In g out /\ name_group pick keep1 dicts g = Some (k, alts)).
  { intros k alts. rewrite in_flat_map. unfold one. split.
    - intros (g & Ig & H). exists g. split; [exact Ig|]. destruct (name_group pick keep1 dicts g) as [kv|]; [|destruct H].
      destruct H as [->|[]]. reflexivity.
    - intros (g & Ig & H). exists g. split; [exact Ig|]. rewrite H. now left. }
  assert (GNL : forall d x y, linked dicts x y -> gives_name keep1 dicts d x -> gives_name keep1 dicts d y).
  { intros d x y Lxy ((z & A & B) & C). apply linked_sym in Lxy. split.
    - exists z. split; [exact A|]. eapply rt_trans; eauto.
    - destruct C as [C|(w & C & D)]; [now left|right]. exists w. split; [|exact D]. eapply rt_trans; eauto. }
  split; [|split; [exact ND|split]].
  - intros k alts H. apply IN in H as (g & Ig & H). destruct (NG g Ig) as (x & Hx & SP). rewrite H in SP.
    destruct SP as (Kg & NDk & Eq & ds1 & d & ds2 & Ed & Kd & Gd & Nd).
    assert (Lxk : linked dicts x k) by (apply (COMP g x Ig Hx); exact Kg).
    split; [|split; [exact NDk|split]].
    + destruct (I1 g Ig) as (_ & _ & _ & M). destruct (M k Kg) as (s & Hs & Ks).
      apply rel_together. exists s; auto.
    + intros y. rewrite Eq. now apply COMP.
    + exists ds1, d, ds2. repeat split; auto.
      * exists k. split; [exact Kd|apply rt_refl].
      * apply (GNL d x k Lxk) in Gd. apply Gd.
      * intros d' Hd' C. apply (Nd d' Hd'). eapply GNL; [|exact C]. now apply linked_sym.
  - intros k1 k2 H1 H2 Lk.
    unfold dkeys in H1, H2. apply in_map_iff in H1 as ([k1' a1] & <- & H1), H2 as ([k2' a2] & <- & H2). cbn [fst] in *.
    apply IN in H1 as (g1 & Ig1 & H1). apply IN in H2 as (g2 & Ig2 & H2).
    destruct (NG g1 Ig1) as (x1 & Hx1 & SP1). rewrite H1 in SP1. destruct SP1 as (K1 & _).
    destruct (NG g2 Ig2) as (x2 & Hx2 & SP2). rewrite H2 in SP2. destruct SP2 as (K2 & _).
    assert (In k2' g1) by (apply (COMP g1 k1' Ig1 K1); exact Lk).
    assert (g1 = g2) as -> by (eapply FOP_disj_eq; eauto). congruence.
  - intros x Hx. split.
    + intros (k & alts & H & Hin). apply IN in H as (g & Ig & H). destruct (NG g Ig) as (y & Hy & SP). rewrite H in SP.
      destruct SP as (Kg & _ & Eq & ds1 & d & ds2 & -> & _ & Gd & _). exists d. split; [apply in_or_app; right; now left|].
      eapply GNL; [|exact Gd]. apply (COMP g y Ig Hy). now apply Eq.
    + intros (d & Hd & Gd). apply rel_together in Hx as (s & Hs & Xs & _).
      destruct (I2 s Hs) as (g & Ig & Sub). apply Sub in Xs.
      destruct (NG g Ig) as (y & Hy & SP). destruct (name_group pick keep1 dicts g) as [[k v]|] eqn:EN.
      * exists k, v. destruct SP as (_ & _ & Eq & _). split; [apply IN; eauto|now apply Eq].
      * exfalso. apply (SP d Hd). eapply GNL; [|exact Gd]. now apply (COMP g x Ig Xs).
Qed.

Lemma mergeRenames_keep pick dicts : (forall l, l <> [] -> In (pick l) l) ->
  exists m, mergeRenames pick true dicts = Some m /\
    (forall k alts, In (k, alts) m -> mentioned dicts k /\ NoDup (k :: alts) /\
       forall x, In x (k :: alts) <-> linked dicts k x) /\
    NoDup (dkeys m) /\
    (forall k1 k2, In k1 (dkeys m) -> In k2 (dkeys m) -> linked dicts k1 k2 -> k1 = k2) /\
    (forall x, mentioned dicts x -> exists k alts, In (k, alts) m /\ In x (k :: alts)) /\
    (forall k, In k (dkeys m) -> exists ds1 d ds2, dicts = ds1 ++ d :: ds2 /\ In k (dkeys d) /\
       forall d' y, In d' ds1 -> In y (dkeys d') -> ~ linked dicts k y).
Proof.
  intros Hp. destruct (mergeRenames_spec pick true dicts Hp) as (m & Em & A & ND & B & C).
  exists m. split; [exact Em|]. split; [|split; [exact ND|split; [exact B|split]]].
  - intros k alts H. destruct (A k alts H) as (A1 & A2 & A3 & _). auto.
  - intros x Hx. apply C; [exact Hx|]. destruct Hx as (d & k & v & Hd & I & Hin & _).
    exists d. split; [exact Hd|]. split; [|now left]. exists k. split.
    + apply in_map_iff. exists (k, v). auto.
    + apply rt_step. exists d, k, v. repeat split; auto. now left.
  - intros k Hk. unfold dkeys in Hk. apply in_map_iff in Hk as ([k' alts] & <- & Hk).
    destruct (A k' alts Hk) as (_ & _ & _ & ds1 & d & ds2 & E & Kd & _ & N).
    exists ds1, d, ds2. repeat split; auto. intros d' y Hd' Hy L. apply (N d' Hd'). split; [exists y; auto|now left].
Qed.

Lemma mergeRenames_lost : forall pick,
  mergeRenames pick false [[(L "a", [L "b"]); (L "b", [L "a"])]] = Some [].
Proof. intros pick. vm_compute. reflexivity. Qed.

(** * updateRenames *)
Lemma getRenames_all_eq l : NoDup (map pname l) -> getRenames_all l = known_renames l.
Proof.
  unfold getRenames_all, known_renames.
  assert (G : forall l d, NoDup (dkeys d ++ map pname l) ->
    fold_left (fun d p => dset (pname p) (prenames p) d) l d = d ++ map (fun p => (pname p, prenames p)) l).
  { clear. induction l as [|p l IH]; intros d H; cbn [fold_left map]; [now rewrite app_nil_r|].
    cbn [map] in H. assert (N : ~ In (pname p) (dkeys d)).
    { apply NoDup_remove_2 in H. rewrite in_app_iff in H. tauto. }
    rewrite dset_new by exact N. rewrite IH.
    - now rewrite <- app_assoc.
    - unfold dkeys. rewrite map_app. cbn [map fst]. rewrite <- app_assoc. exact H. }
  intros H. exact (G l [] H).
Qed.
Lemma set_renames_spec l k v : In k (map pname l) ->
  exists l1 q l2, l = l1 ++ q :: l2 /\ (k = pname q \/ In k (prenames q)) /\
    set_renames l k v = l1 ++ mkP (pname q) (plabel q) (pcomment q) (pderived q) v :: l2.
Proof.
  induction l as [|p l IH]; cbn [map set_renames]; [intros []|]. intros H.
  destruct (meets (pname p :: prenames p) [k]) eqn:E.
  - apply meets_iff in E as (x & Hx & [<-|[]]). exists [], p, l. split; [reflexivity|]. split; [|reflexivity].
    destruct Hx as [Hx|Hx]; auto.
  - destruct H as [H|H].
    + exfalso. apply meets_false with (x := k) in E; [|now left]. apply E; now left.
    + destruct (IH H) as (l1 & q & l2 & -> & A & ->). exists (p :: l1), q, l2. auto.
Qed.

Lemma updateRenames_spec pick l r : (forall s, s <> [] -> In (pick s) s) -> NoDup (map pname l) ->
  exists l', updateRenames pick l r = Some l' /\ map pname l' = map pname l /\
    map plabel l' = map plabel l /\ map pderived l' = map pderived l /\
    (forall x, (exists p, In p l /\ linked [known_renames l; r] (pname p) x) ->
       exists q, parWithName l' x true [] = Ok (Some q) /\ linked [known_renames l; r] (pname q) x) /\
    (forall x, (forall p, In p l -> ~ linked [known_renames l; r] (pname p) x) ->
       parWithName l' x false [] = Ok None).
Proof.
  intros Hp ND. unfold updateRenames. rewrite getRenames_all_eq by exact ND.
  set (dicts := [known_renames l; r]).
  destruct (mergeRenames_keep pick dicts Hp) as (m & -> & M1 & NDm & M2 & M3 & M4).
  eexists. split; [reflexivity|].
  set (step := fun l' kv => if mem_str (fst kv) (map pname l) then set_renames l' (fst kv) (snd kv) else l').
  assert (G : forall todo done l0, m = done ++ todo ->
     map pname l0 = map pname l -> map plabel l0 = map plabel l -> map pderived l0 = map pderived l ->
     (forall q x, In q l0 -> In x (prenames q) -> linked dicts (pname q) x) ->
     (forall k alts, In (k, alts) done -> In k (map pname l) ->
        exists q, In q l0 /\ linked dicts k (pname q) /\ forall x, In x alts -> x = pname q \/ In x (prenames q)) ->
     let l' := fold_left step todo l0 in
     map pname l' = map pname l /\ map plabel l' = map plabel l /\ map pderived l' = map pderived l /\
     (forall q x, In q l' -> In x (prenames q) -> linked dicts (pname q) x) /\
     (forall k alts, In (k, alts) m -> In k (map pname l) ->
        exists q, In q l' /\ linked dicts k (pname q) /\ forall x, In x alts -> x = pname q \/ In x (prenames q))).
  { induction todo as [|[k v] todo IH]; intros done l0 Em A1 A2 A3 B C; cbn zeta; cbn [fold_left].
    - rewrite app_nil_r in Em. subst done. auto.
    - assert (Em' : m = (done ++ [(k, v)]) ++ todo) by now rewrite <- app_assoc.
      assert (Hkv : In (k, v) m) by (rewrite Em; apply in_or_app; right; now left).
      unfold step at 2 4 6 8 10. cbn [fst snd].
      destruct (mem_str k (map pname l)) eqn:Hk.
      + apply mem_str_In in Hk. rewrite <- A1 in Hk.
        destruct (set_renames_spec l0 k v Hk) as (l1 & q & l2 & El & Hq & ->). rewrite A1 in Hk.
        assert (Lqk : linked dicts (pname q) k).
        { destruct Hq as [->|I]; [apply rt_refl|]. apply B; [|exact I]. subst l0. apply in_or_app; right; now left. }
        destruct (M1 k v Hkv) as (_ & _ & Mkv).
        apply (IH (done ++ [(k, v)])); auto.
        * rewrite <- A1, El, !map_app. reflexivity.
        * rewrite <- A2, El, !map_app. reflexivity.
        * rewrite <- A3, El, !map_app. reflexivity.
        * intros q' x Hq' Hx. apply in_app_iff in Hq' as [Hq'|[<-|Hq']].
          -- apply B; [|exact Hx]. subst l0. apply in_or_app; now left.
          -- cbn [pname prenames] in *. eapply rt_trans; [exact Lqk|]. apply Mkv. now right.
          -- apply B; [|exact Hx]. subst l0. apply in_or_app; right; now right.
        * intros k0 a0 H0 Hk0. apply in_app_iff in H0 as [H0|[[= <- <-]|[]]].
          -- destruct (C k0 a0 H0 Hk0) as (q0 & Iq0 & L0 & R0).
             subst l0. apply in_app_iff in Iq0 as [I0|[<-|I0]].
             ++ exists q0. split; [apply in_or_app; now left|auto].
             ++ exfalso. assert (k0 = k).
                { apply M2; [| |].
                  - rewrite Em. unfold dkeys. rewrite map_app, in_app_iff. left. apply in_map_iff. exists (k0, a0). auto.
                  - apply in_map_iff. exists (k, v). auto.
                  - eapply rt_trans; [exact L0|exact Lqk]. }
                subst k0. unfold dkeys in NDm. rewrite Em, map_app in NDm. cbn [map fst] in NDm.
                apply NoDup_remove_2 in NDm. apply NDm. apply in_or_app; left. apply in_map_iff. exists (k, a0). auto.
             ++ exists q0. split; [apply in_or_app; right; now right|auto].
          -- eexists. split; [apply in_or_app; right; left; reflexivity|]. cbn [pname prenames]. split; [now apply linked_sym|auto].
      + apply mem_str_false in Hk. apply (IH (done ++ [(k, v)])); auto.
        intros k0 a0 H0 Hk0. apply in_app_iff in H0 as [H0|[[= <- <-]|[]]]; [|tauto]. eauto. }
  destruct (G m [] l) as (A1 & A2 & A3 & B & C); auto.
  { intros q x Hq Hx. apply rt_step. exists (known_renames l), (pname q), (prenames q). split; [now left|]. split.
    - apply in_map_iff. exists q. auto.
    - split; [now left|now right]. }
  { intros k alts []. }
  split; [exact A1|]. split; [exact A2|]. split; [exact A3|].
  assert (LQ : forall q x, In q (fold_left step m l) -> answers [] q x -> linked dicts (pname q) x).
  { intros q x Hq [->|[Hx|(v & [=] & _)]]; [apply rt_refl|now apply B]. }
  split.
  - intros x (p & Hpl & Lx).
    assert (Mp : mentioned dicts (pname p)).
    { exists (known_renames l), (pname p), (prenames p). split; [now left|]. split; [|split; now left].
      apply in_map_iff. exists p. auto. }
    destruct (M3 _ Mp) as (k & alts & Hk & Hin).
    destruct (M1 k alts Hk) as (_ & _ & Mk).
    assert (Kn : In k (map pname l)).
    { destruct (M4 k) as (ds1 & d & ds2 & Ed & Kd & N). { apply in_map_iff. exists (k, alts). auto. }
      destruct ds1 as [|d1 ds1].
      - cbn [app] in Ed. injection Ed as <- _. unfold known_renames, dkeys in Kd. rewrite map_map in Kd. exact Kd.
      - exfalso. injection Ed as Ed1 _. apply (N d1 (pname p)); [now left| |now apply Mk].
        rewrite <- Ed1. unfold known_renames, dkeys. rewrite map_map. apply in_map_iff. exists p. auto. }
    assert (ANS : exists q, In q (fold_left step m l) /\ answers [] q x).
    { assert (Hx : In x (k :: alts)). { apply Mk. eapply rt_trans; [apply Mk; exact Hin|exact Lx]. }
      destruct Hx as [<-|Hx].
      - rewrite <- A1 in Kn. apply in_map_iff in Kn as (q & Eq & Iq). exists q. split; [exact Iq|]. left; auto.
      - destruct (C k alts Hk Kn) as (q & Iq & _ & R). exists q. split; [exact Iq|].
        destruct (R x Hx) as [->|?]; [now left|right; now left]. }
    destruct ANS as (q & Iq & Aq).
    destruct (parWithName_spec (fold_left step m l) x true []) as [(p' & l1 & l2 & E & El & (y & Y1 & Y2) & _)|[N _]].
    + exists p'. split; [exact E|]. destruct Y2 as [->|(v & [=] & _)]. apply LQ; [|exact Y1].
      rewrite El. apply in_or_app; right; now left.
    + exfalso. apply (N q Iq). exists x. split; [exact Aq|now left].
  - intros x Hx.
    destruct (parWithName_spec (fold_left step m l) x false []) as [(p' & l1 & l2 & E & El & (y & Y1 & Y2) & _)|[N E]]; [|exact E].
    exfalso. destruct Y2 as [->|(v & [=] & _)].
    assert (Ip : In p' (fold_left step m l)) by (rewrite El; apply in_or_app; right; now left).
    assert (In (pname p') (map pname l)) as I by (rewrite <- A1; now apply in_map).
    apply in_map_iff in I as (p & Ep & Ipl). apply (Hx p Ipl). rewrite Ep. now apply LQ.
Qed.
