From Verif Require Import PyBase PyNum PyStrFacts BoundsSpec BoundsProofs ParamModel ParamSpec ParamProofs MargeModel MargeSpec MargeProofs BestModel BestSpec.
From Coq Require Import ZArith QArith String Ascii Bool List Lia.
Import ListNotations.
Local Open Scope nat_scope.
Local Open Scope list_scope.

(** ** text *)
Lemma ftrim_stripped s : stripped s = true -> ftrim s = s.
Proof.
  unfold stripped, ftrim. intros H. apply andb_true_iff in H as [_ H]. destruct (rev s) as [|c r] eqn:E.
  - cbn. rewrite <- (rev_involutive s), E. reflexivity.
  - cbn in H |- *. destruct (ch_eqb_spec c " "%char) as [->|]; [discriminate|]. rewrite <- E. apply rev_involutive.
Qed.
Lemma field_fits w s : List.length s <= w -> field w s = rjust w s.
Proof. intros H. unfold field. now rewrite (proj2 (Nat.ltb_ge w (List.length s)) H). Qed.
Lemma a22_fits s : List.length s <= 22 -> a22 s = ljust 22 s.
Proof. intros H. unfold a22. apply firstn_all2. unfold ljust. rewrite app_length, repeat_length. lia. Qed.
Lemma blanks_repeat n : blanks (repeat " "%char n).
Proof. unfold blanks. induction n; cbn; auto. Qed.
Lemma blanks_app a b : blanks a -> blanks b -> blanks (a ++ b).
Proof. unfold blanks. intros A B. now rewrite forallb_app, A, B. Qed.
Lemma gap_lead b t : gap b -> no_lead (b ++ t) = false.
Proof. intros [N B]. destruct b as [|c b]; [contradiction|]. cbn in *. apply andb_true_iff in B as [B _]. now rewrite B. Qed.
Lemma label_no_lead s : label_ok s -> no_lead s = true.
Proof. intros [_ H]. now apply andb_true_iff in H as [H _]. Qed.
Lemma label_strip s : label_ok s -> strip s = s.
Proof. intros [_ H]. now apply strip_stripped. Qed.
Lemma word_label w : word w -> label_ok w.
Proof. intros W. split; [apply W|]. apply strip_fix_stripped. now apply strip_word. Qed.
Lemma strip_blanks_l b s : blanks b -> strip (b ++ s) = strip s.
Proof. intros H. unfold strip. now rewrite lstrip_blanks. Qed.
Lemma strip_blanks_r b s : blanks b -> strip (s ++ b) = strip s.
Proof.
  revert s. induction b as [|c b IH]; intros s H; [now rewrite app_nil_r|]. cbn in H. apply andb_true_iff in H as [H1 H2].
  change (c :: b) with ([c] ++ b). rewrite app_assoc, IH by exact H2. now apply strip_snoc_space.
Qed.
Lemma strip_all_blank b : blanks b -> strip b = [].
Proof. intros H. rewrite <- (app_nil_r b), strip_blanks_l by exact H. reflexivity. Qed.
Lemma split_row k b w t : blanks b -> word w -> no_lead t = false -> split_ws_n (S k) (b ++ w ++ t) = w :: split_ws_n k t.
Proof. intros B W H. rewrite split_n_blanks by exact B. now apply split_n_word. Qed.
Lemma split_last b l : blanks b -> label_ok l -> split_ws_n 0 (b ++ l) = [l].
Proof. intros B Lk. rewrite split_n_blanks by exact B. apply split_n_end; [apply Lk|now apply label_no_lead]. Qed.
Lemma blank_line_blanks b : blanks b -> blank_line b = true.
Proof. intros H. unfold blank_line. now rewrite strip_all_blank. Qed.
Lemma strip_nonblank b w t : word w -> strip (b ++ w ++ t) <> [].
Proof.
  intros [N W] H. assert (X : forall s c, In c s -> is_space c = false -> strip s <> []).
  { intros s c Hc Sc E. unfold strip, rstrip in E. assert (E1 : lstrip (rev (lstrip s)) = []) by (rewrite <- (rev_involutive (lstrip (rev (lstrip s)))), E; reflexivity).
    assert (A : forall u, lstrip u = [] -> blanks u).
    { intros u Hu. destruct (lstrip_suffix u) as (p & Ep & Hp). rewrite Hu, app_nil_r in Ep. now rewrite Ep. }
    assert (Y : lstrip s = []). { apply A in E1. destruct (lstrip s) as [|d u] eqn:El; [reflexivity|].
      pose proof (no_lead_lstrip s) as NL. rewrite El in NL. cbn in NL. unfold blanks in E1. rewrite forallb_forall in E1.
      specialize (E1 d). rewrite E1 in NL; [discriminate|]. apply in_rev. rewrite rev_involutive. now left. }
    apply A in Y. unfold blanks in Y. rewrite forallb_forall in Y. rewrite (Y c Hc) in Sc. discriminate. }
  destruct w as [|c w]; [contradiction|]. cbn in W. apply andb_true_iff in W as [W _].
  apply (X (b ++ (c :: w) ++ t) c); [apply in_or_app; right; now left|now apply negb_true_iff|exact H].
Qed.
Lemma blank_line_word b w t : word w -> blank_line (b ++ w ++ t) = false.
Proof. intros W. unfold blank_line. pose proof (strip_nonblank b w t W). destruct (strip _); [contradiction|reflexivity]. Qed.

Lemma neqb_iff a b : negb (str_eqb a b) = true <-> a <> b.
Proof. rewrite negb_true_iff. destruct (str_eqb a b) eqn:E; [apply str_eqb_eq in E; subst; intuition congruence|]. split; [|reflexivity]. intros _ ->. rewrite str_eqb_refl in E. discriminate. Qed.

(** ** rows *)
Lemma row_split line b0 num b1 val b2 name b3 label : is_row line b0 num b1 val b2 name b3 label ->
  map strip (split_ws_n 3 line) = [num; val; name; label].
Proof.
  intros (-> & B0 & W1 & G1 & W2 & G2 & W3 & G3 & Lk).
  rewrite split_row; [|assumption|assumption|now apply gap_lead]. rewrite split_row; [|apply G1|assumption|now apply gap_lead].
  rewrite split_row; [|apply G2|assumption|now apply gap_lead]. rewrite split_last by (apply G3 || exact Lk). cbn [map].
  now rewrite !strip_word, label_strip by assumption.
Qed.
Lemma row_not_blank line b0 num b1 val b2 name b3 label : is_row line b0 num b1 val b2 name b3 label -> blank_line line = false.
Proof. intros (-> & B0 & W1 & _). now apply blank_line_word. Qed.
Lemma rstrip_label a l : label_ok l -> rstrip (a ++ l) = a ++ l.
Proof.
  intros (N & S). unfold rstrip. rewrite rev_app_distr.
  apply andb_true_iff in S as [_ S]. assert (rev l <> []) by (intros E; apply N; rewrite <- (rev_involutive l), E; reflexivity).
  destruct (rev l) as [|c r] eqn:E; [contradiction|]. cbn in S |- *. destruct (is_space c); [discriminate|].
  change (c :: r ++ rev a) with ((c :: r) ++ rev a). rewrite <- E, <- rev_app_distr. apply rev_involutive.
Qed.
Lemma row_strip line b0 num b1 val b2 name b3 label : is_row line b0 num b1 val b2 name b3 label -> rstrip line = line.
Proof.
  intros (-> & B0 & W1 & G1 & W2 & G2 & W3 & G3 & Lk). rewrite !app_assoc. now apply rstrip_label.
Qed.
Lemma lead_blanks_app b w t : blanks b -> word w -> lead_blanks (b ++ w ++ t) = b.
Proof.
  intros B [N W]. induction b as [|c b IH]; cbn.
  - destruct w as [|c w]; [contradiction|]. cbn in *. destruct (is_space c); [discriminate|reflexivity].
  - cbn in B. apply andb_true_iff in B as [B1 B2]. rewrite B1. f_equal. now apply IH.
Qed.
Lemma re_split_row k b w t : blanks b -> word w -> no_lead t = false -> re_split (S k) (b ++ w ++ t) = b :: w :: re_split k t.
Proof.
  intros B W H. cbn [re_split]. rewrite lead_blanks_app by assumption. rewrite lstrip_blanks by exact B.
  assert (E : lstrip (w ++ t) = w ++ t) by (apply lstrip_no_lead; destruct W as [N W]; destruct w; [contradiction|]; cbn in *; apply andb_true_iff in W as [W _]; exact W).
  rewrite E. destruct (w ++ t) as [|c s] eqn:X; [destruct W as [N _]; destruct w; [contradiction|discriminate]|].
  rewrite <- X, take_word_word by (apply W || exact H). reflexivity.
Qed.
Lemma take_word_app s : fst (take_word s) ++ snd (take_word s) = s.
Proof. induction s as [|c s IH]; [reflexivity|]. cbn. destruct (is_space c); [reflexivity|]. cbn. now rewrite IH. Qed.
Lemma take_whole u : forallb (fun c => negb (is_space c)) u = true -> take_word u = (u, []).
Proof. induction u as [|x u IH]; intros Hu; [reflexivity|]. cbn in Hu |- *. apply andb_true_iff in Hu as [H1 H2]. destruct (is_space x); [discriminate|]. now rewrite IH. Qed.
Lemma one_word b w : blanks b -> word w -> split_ws_n 1 (b ++ w) = [w].
Proof.
  intros B W. rewrite split_n_blanks by exact B. cbn [split_ws_n]. rewrite lstrip_no_lead by (apply label_no_lead, word_label, W).
  assert (T := take_whole w (proj2 W)). destruct w as [|c w]; [destruct W; contradiction|]. rewrite T. reflexivity.
Qed.
Lemma re_split_last b l : blanks b -> label_ok l -> re_split 1 (b ++ l) = [b; fst (take_word l); snd (take_word l)].
Proof.
  intros B [N S]. pose proof (label_no_lead l (conj N S)) as NL. cbn [re_split]. rewrite lstrip_blanks, lstrip_no_lead by assumption.
  destruct l as [|c l]; [contradiction|]. f_equal. clear N S. induction b as [|d b IH]; cbn [app lead_blanks].
  - cbn in NL. destruct (is_space c); [discriminate|reflexivity].
  - cbn in B. apply andb_true_iff in B as [B1 B2]. rewrite B1. f_equal. now apply IH.
Qed.
Lemma row_items line b0 num b1 val b2 name b3 label : is_row line b0 num b1 val b2 name b3 label ->
  re_split 4 line = [b0; num; b1; val; b2; name; b3; fst (take_word label); snd (take_word label)].
Proof.
  intros (-> & B0 & W1 & G1 & W2 & G2 & W3 & G3 & Lk).
  rewrite re_split_row; [|assumption|assumption|now apply gap_lead]. rewrite re_split_row; [|apply G1|assumption|now apply gap_lead].
  rewrite re_split_row; [|apply G2|assumption|now apply gap_lead]. now rewrite re_split_last by (apply G3 || exact Lk).
Qed.
(** the line that rename_line makes of a row *)
Lemma rename_row m line b0 num b1 val b2 name b3 label : is_row line b0 num b1 val b2 name b3 label -> num <> L "-log(Like)" ->
  (forall n lab, dget name m = Some (n, lab) -> word n /\ List.length n < List.length name + List.length b3 /\ (forall l, lab = Some l -> label_ok l)) ->
  exists line' b3' has, rename_line m None line = Ok (Some (line', has)) /\
    is_row line' b0 num b1 val b2 (renamed m name) b3' (relabelled m name label) /\
    (has = true <-> renamed m name <> name \/ relabelled m name label <> label).
Proof.
  intros R Nn Hm. unfold rename_line. rewrite (row_strip _ _ _ _ _ _ _ _ _ R), (row_items _ _ _ _ _ _ _ _ _ R).
  destruct (str_eqb num (L "-log(Like)")) eqn:E; [apply str_eqb_eq in E; contradiction|].
  destruct R as (-> & B0 & W1 & G1 & W2 & G2 & W3 & G3 & Lk). rewrite strip_word by exact W3. cbn [label_of].
  unfold renamed, relabelled. destruct (dget name m) as [[n lab]|] eqn:D.
  - destruct (Hm n lab eq_refl) as (Wn & Ln & Ll). set (b3' := repeat " "%char _).
    assert (G3' : gap b3') by (split; [|apply blanks_repeat]; unfold b3'; destruct (List.length b3 + List.length name - List.length n) eqn:X; [lia|discriminate]).
    destruct lab as [l|].
    + eexists. exists b3'. eexists. split; [reflexivity|]. split.
      * split; [cbn [concat]; now rewrite ?app_nil_r|]. repeat (split; [assumption|]). now apply Ll.
      * cbn [concat]. rewrite app_nil_r, take_word_app, orb_true_iff, !neqb_iff. intuition congruence.
    + eexists. exists b3'. eexists. split; [reflexivity|]. split.
      * split; [cbn [concat]; now rewrite ?app_nil_r, take_word_app|]. repeat (split; [assumption|]). exact Lk.
      * rewrite neqb_iff. intuition congruence.
  - eexists. exists b3. eexists. split; [reflexivity|]. split.
    + split; [cbn [concat]; now rewrite ?app_nil_r, take_word_app|]. repeat (split; [assumption|]). exact Lk.
    + split; [discriminate|]. intros [H|H]; contradiction.
Qed.
Lemma rename_blank m b : blanks b -> rename_line m None b = Ok (Some (b, false)).
Proof.
  intros H. unfold rename_line. assert (E : rstrip b = []).
  { unfold rstrip. assert (X : forall u, blanks u -> lstrip u = []) by (intros u Hu; rewrite <- (app_nil_r u), lstrip_blanks by exact Hu; reflexivity).
    rewrite X; [reflexivity|]. unfold blanks in *. rewrite forallb_forall in *. intros c Hc. apply H. now apply in_rev. }
  now rewrite E.
Qed.

(** ** reading renamed lines *)
Section Read.
  Context {F : Type} (parse : str -> res F) (parse_int : str -> res nat).
  Notation read_bpar := (read_bpar parse parse_int).
  Notation read_lines := (read_lines parse parse_int).
  Lemma read_row f d line b0 num b1 val b2 name b3 label : is_row line b0 num b1 val b2 name b3 label ->
    read_bpar f d line = bindR (parse_int num) (fun n => bindR (parse val) (fun v => Ok (mkbf F n v name label f d))).
  Proof. intros R. unfold BestModel.read_bpar. now rewrite (row_split _ _ _ _ _ _ _ _ _ R). Qed.
  (** a file body, with its lines renamed, in a given chunk *)
  Definition renames_body m c (l l' : list str) : Prop :=
    forall want f d, read_lines want c f d l' = bindR (read_lines want c f d l) (fun r => Ok (map (rename_bf m) (fst r), snd r)).
  Definition body_renames m c (l : list str) : Prop := exists l' h, rename_body m None l = Ok (l', h) /\ renames_body m c l l'.
  Lemma body_row m c line l : row_fits m line -> body_renames m c l -> body_renames m c (line :: l).
  Proof.
    intros (b0 & num & b1 & val & b2 & name & b3 & label & R & Nn & Hm) (l' & h & E & Hl).
    destruct (rename_row m line b0 num b1 val b2 name b3 label R Nn Hm) as (line' & b3' & has & E1 & R' & _).
    exists (line' :: l'), (has || h). split; [cbn [rename_body]; rewrite E1; cbn [bindR]; now rewrite E|].
    intros want f d. cbn [BestModel.read_lines]. rewrite (row_not_blank _ _ _ _ _ _ _ _ _ R), (row_not_blank _ _ _ _ _ _ _ _ _ R').
    destruct (negb f || want); [|apply Hl]. rewrite (read_row f d _ _ _ _ _ _ _ _ _ R), (read_row f d _ _ _ _ _ _ _ _ _ R').
    destruct (parse_int num) as [n|]; cbn [bindR]; [|reflexivity]. destruct (parse val) as [v|]; cbn [bindR]; [|reflexivity].
    rewrite Hl. destruct (read_lines want c f d l) as [[r1 r2]|]; reflexivity.
  Qed.
  Lemma body_rows m c rows l : Forall (row_fits m) rows -> body_renames m c l -> body_renames m c (rows ++ l).
  Proof. intros H Hl. induction H as [|r rows Hr H IH]; [exact Hl|]. now apply body_row. Qed.
  Lemma body_blank m c b l : blanks b -> c < 2 -> body_renames m (S c) l -> body_renames m c (b :: l).
  Proof.
    intros B Hc (l' & h & E & Hl). exists (b :: l'), h. split.
    - cbn [rename_body]. rewrite rename_blank by exact B. cbn [bindR]. now rewrite E.
    - intros want f d. cbn [BestModel.read_lines]. rewrite blank_line_blanks by exact B.
      destruct (Nat.eqb_spec (S c) 3); [lia|]. apply Hl.
  Qed.
  Lemma body_tail m b rest : blanks b -> body_renames m 2 (b :: L " -log(Like)     chi-sq   data" :: rest).
  Proof.
    intros B. exists (b :: L " -log(Like)     chi-sq   data" :: rest), false. split.
    - cbn [rename_body]. rewrite rename_blank by exact B. cbn [bindR].
      assert (E : rename_line m None (L " -log(Like)     chi-sq   data") = Ok None) by reflexivity. now rewrite E.
    - intros want f d. cbn [BestModel.read_lines]. rewrite blank_line_blanks by exact B. cbn [Nat.eqb]. destruct (mapR _ _); reflexivity.
  Qed.
  Lemma body_end m c : body_renames m c [].
  Proof. exists [], false. split; [reflexivity|]. intros want f d. reflexivity. Qed.
End Read.

(** ** lines with = *)
Lemma rstrip_after a c s : is_space c = false -> rstrip (a ++ c :: s) = a ++ c :: rstrip s.
Proof.
  intros H. unfold rstrip. rewrite rev_app_distr. cbn [rev]. rewrite <- app_assoc. destruct (lstrip (rev s)) as [|d v] eqn:E.
  - rewrite lstrip_app_space by exact E. cbn [app lstrip]. rewrite H. cbn [rev]. now rewrite rev_involutive.
  - rewrite lstrip_app_keep by (rewrite E; discriminate). rewrite E, rev_app_distr. cbn [app rev]. now rewrite rev_involutive, <- app_assoc.
Qed.
Lemma rstrip_split s : exists b, s = rstrip s ++ b /\ blanks b.
Proof.
  unfold rstrip. destruct (lstrip_suffix (rev s)) as (q & E & H). exists (rev q). split.
  - rewrite <- rev_app_distr, <- E. symmetry. apply rev_involutive.
  - unfold blanks. rewrite forallb_forall in *. intros c Hc. apply H. now apply in_rev.
Qed.
Lemma key_value b key bl v : blanks b -> word key -> ~ In "="%char key -> blanks bl -> ~ In "="%char v ->
  exists k t, split_ch "="%char (strip (b ++ key ++ bl ++ "="%char :: v)) = [k; t] /\ strip k = key /\ strip t = strip v.
Proof.
  intros B [Nk Wk] Ne Bl Nv. exists (key ++ bl), (rstrip v). split; [|split].
  - unfold strip. rewrite lstrip_blanks by exact B. assert (X : lstrip (key ++ bl ++ "="%char :: v) = key ++ bl ++ "="%char :: v).
    { apply lstrip_no_lead. destruct key; [contradiction|]. cbn in *. apply andb_true_iff in Wk as [Wk _]. exact Wk. }
    rewrite X, app_assoc, rstrip_after by reflexivity. change ((key ++ bl) ++ "="%char :: rstrip v) with ((key ++ bl) ++ ["="%char] ++ rstrip v).
    rewrite split_ch_app.
    + rewrite split_ch_notin; [reflexivity|]. destruct (rstrip_split v) as (q & E & _). intros Y. apply Nv. rewrite E. apply in_app_iff. now left.
    + rewrite in_app_iff. intros [Y|Y]; [now apply Ne|]. unfold blanks in Bl. rewrite forallb_forall in Bl. discriminate (Bl _ Y).
  - rewrite strip_blanks_r by exact Bl. apply strip_word. now split.
  - destruct (rstrip_split v) as (q & E & Hq). symmetry. rewrite E at 1. now apply strip_blanks_r.
Qed.

(** ** rows that CosmoMC writes *)
Lemma label_app a b : no_lead a = true -> label_ok b -> a <> [] -> label_ok (a ++ b).
Proof.
  intros A [N S] Na. apply andb_true_iff in S as [_ S]. split; [destruct a; [contradiction|discriminate]|]. now apply stripped_app.
Qed.
Section Write.
  Context {F : Type} (ld fmtE f3 : F -> str) (twice : F -> F) (parse : str -> res F) (parse_int : str -> res nat) (rd : F -> F).
  Notation fpar_ok := (fpar_ok fmtE parse parse_int rd).
  Notation flike_ok := (flike_ok f3 twice parse rd).
  Notation read_lines := (read_lines parse parse_int).
  Lemma show_nat_word n : word (show_nat n).
  Proof.
    split; [apply show_nat_nonempty|]. apply forallb_forall. intros c Hc. apply show_nat_digits in Hc. unfold is_digit in Hc. unfold is_space.
    set (k := nat_of_ascii c) in *. destruct (Nat.leb_spec 9 k), (Nat.leb_spec k 13), (Nat.leb_spec 28 k), (Nat.leb_spec k 32), (Nat.eqb_spec k 133), (Nat.eqb_spec k 160); cbn; try reflexivity; lia.
  Qed.
  Lemma row_of p : fpar_ok p -> exists b0 b1 b3, is_row (par_row fmtE p) b0 (show_nat (f_num p)) b1 (fmtE (f_val p)) (L "   ") (f_name p) b3 (f_label p).
  Proof.
    intros [(N1 & N2) (V1 & V2 & V3) (M1 & M2) Lk]. unfold par_row. rewrite !field_fits, a22_fits, ftrim_stripped by (lia || apply Lk).
    exists (repeat " "%char (5 - List.length (show_nat (f_num p)))), (repeat " "%char (15 - List.length (fmtE (f_val p)))), (repeat " "%char (22 - List.length (f_name p))).
    split; [unfold rjust, ljust; now rewrite <- !app_assoc|]. split; [apply blanks_repeat|]. split; [apply show_nat_word|].
    split; [split; [|apply blanks_repeat]; destruct (15 - List.length (fmtE (f_val p))) eqn:E; [lia|discriminate]|].
    split; [exact V1|]. split; [split; [discriminate|reflexivity]|]. split; [exact M1|].
    split; [split; [|apply blanks_repeat]; destruct (22 - List.length (f_name p)) eqn:E; [lia|discriminate]|exact Lk].
  Qed.
  Lemma read_par_row f d p : fpar_ok p -> read_bpar parse parse_int f d (par_row fmtE p) = Ok (entry rd f d p).
  Proof.
    intros H. destruct (row_of p H) as (b0 & b1 & b3 & R). rewrite (read_row parse parse_int f d _ _ _ _ _ _ _ _ _ R).
    destruct H as [(_ & ->) (_ & _ & V) _ _]. cbn [bindR]. now rewrite V.
  Qed.
  Lemma read_rows want c f d ps rest : Forall fpar_ok ps -> read_lines want c f d (map (par_row fmtE) ps ++ rest) =
    bindR (read_lines want c f d rest) (fun r => Ok ((if negb f || want then map (entry rd f d) ps else []) ++ fst r, snd r)).
  Proof.
    intros H. induction H as [|p ps Hp H IH]; cbn [map app].
    - destruct (read_lines want c f d rest) as [[r1 r2]|]; [|reflexivity]. cbn. now destruct (negb f || want).
    - cbn [BestModel.read_lines]. destruct (row_of p Hp) as (b0 & b1 & b3 & R). rewrite (row_not_blank _ _ _ _ _ _ _ _ _ R).
      rewrite (read_par_row f d p Hp), IH. destruct (negb f || want); cbn [bindR]; [|reflexivity].
      destruct (read_lines want c f d rest) as [[r1 r2]|]; reflexivity.
  Qed.
  Lemma read_like_row k : flike_ok k -> read_like parse (like_row f3 twice k) = Ok (like_entry twice rd k).
  Proof.
    intros [(A1 & A2) (B1 & B2 & B3) (T1 & T2) (N1 & N2) Tg (V1 & V2)]. unfold like_row. rewrite !field_fits by lia.
    rewrite !(ftrim_stripped (k_type k)), !(ftrim_stripped (k_name k)), (ftrim_stripped (k_version k)) by (assumption || apply N1).
    set (ver := match k_version k with [] => [] | _ => _ end). set (tagged := match k_tag k with Some _ => _ | None => _ end).
    assert (FV : forall a, label_ok a -> label_ok (a ++ ver)).
    { intros a La. unfold ver. destruct (k_version k) as [|c v] eqn:Ev; [now rewrite app_nil_r|]. rewrite app_assoc.
      apply label_app; [destruct a; [destruct La; contradiction|]; exact (label_no_lead _ La)|split; [discriminate|exact V1]|destruct a; [destruct La; contradiction|discriminate]]. }
    assert (NE : forall a, ~ In "="%char a -> ~ In "="%char (a ++ ver)).
    { intros a Na. rewrite in_app_iff. intros [X|X]; [now apply Na|]. unfold ver in X. destruct (k_version k); [destruct X|]. destruct X as [X|X]; [discriminate|now apply V2]. }
    assert (LT : label_ok (tagged ++ ver)).
    { apply FV. unfold tagged. destruct (k_tag k) as [t|]; [|exact N1]. destruct (Tg t eq_refl) as (Lt & _). destruct (str_eqb _ _); [exact N1|].
      rewrite app_assoc. apply label_app; [|exact N1|]; (destruct t; [destruct Lt; contradiction|]); [now apply label_no_lead in Lt|discriminate]. }
    assert (LB : label_ok (k_type k ++ L ": " ++ tagged ++ ver)).
    { rewrite app_assoc. apply label_app; [|exact LT|destruct (k_type k); discriminate].
      apply andb_true_iff in T1 as [T1 _]. destruct (k_type k); [reflexivity|exact T1]. }
    unfold read_like. rewrite (rjust_split 1 11) by (exact A1 || (apply no_lead_rjust; lia)). rewrite (rjust_split 0 11 _ _ B1) by reflexivity.
    rewrite split_last by (exact LB || reflexivity). cbn [map]. rewrite (strip_word _ B1), (label_strip _ LB).
    change (L ": " ++ tagged ++ ver) with (":"%char :: (L " " ++ tagged ++ ver)). rewrite split_ch_1_app by exact T2. cbn [map].
    rewrite (strip_stripped _ T1), (strip_blanks_l (L " ")), (label_strip _ LT) by reflexivity.
    unfold like_entry. fold ver. unfold tagged. clear LB LT. destruct (k_tag k) as [t|] eqn:Et.
    - destruct (Tg t eq_refl) as (Lt & Nt). rewrite (ftrim_stripped t) by apply Lt. destruct (str_eqb t (k_name k)) eqn:Eq.
      + rewrite (proj2 (in_str_false "="%char _) (NE _ N2)), B3. reflexivity.
      + assert (Y : in_str "="%char ((t ++ L " = " ++ k_name k) ++ ver) = true).
        { apply in_str_iff. rewrite !in_app_iff. left. right. left. vm_compute. auto. }
        rewrite Y. replace ((t ++ L " = " ++ k_name k) ++ ver) with ((t ++ L " ") ++ ["="%char] ++ (L " " ++ k_name k ++ ver))
          by (rewrite <- !app_assoc; reflexivity).
        rewrite split_ch_app; [|rewrite in_app_iff; intros [X|X]; [now apply Nt|vm_compute in X; intuition discriminate]].
        rewrite split_ch_notin; [|cbn; intros [X|X]; [discriminate|revert X; now apply NE]]. cbn [map].
        rewrite (strip_blanks_r (L " ")), (strip_blanks_l (L " ")) by reflexivity. rewrite (label_strip _ Lt), (label_strip _ (FV _ N1)), B3. reflexivity.
    - rewrite (proj2 (in_str_false "="%char _) (NE _ N2)), B3. reflexivity.
  Qed.
  Lemma like_not_blank k : flike_ok k -> blank_line (like_row f3 twice k) = false.
  Proof.
    intros [(A1 & A2) _ _ _ _ _]. unfold like_row. rewrite (field_fits 11 (f3 (k_val k))) by exact A2. unfold rjust at 1.
    rewrite <- app_assoc. now apply blank_line_word.
  Qed.
  Lemma read_likes ks : Forall flike_ok ks ->
    mapR (read_like parse) (filter (fun l => negb (blank_line l)) (map (like_row f3 twice) ks)) = Ok (map (like_entry twice rd) ks).
  Proof.
    intros H. induction H as [|k ks Hk H IH]; [reflexivity|]. cbn [map filter]. rewrite (like_not_blank k Hk). cbn [negb mapR].
    rewrite (read_like_row k Hk). cbn [bindR]. now rewrite IH.
  Qed.
End Write.
