(** Properties of settings with tags and of conflicts of likelihoods (C150) *)
From Coq Require Import String Ascii Bool Arith Lia.
From Verif Require Import PyStr PyStrFacts NamesModel TagModel TagSpec.
From Coq Require Import List.
Import ListNotations.
Local Open Scope nat_scope.

Lemma adjustl_decomp s : exists n, s = repeat blank n ++ adjustl s /\ (forall t, adjustl s <> blank :: t).
Proof.
  induction s as [| c s (n & E & F)]; [exists 0; split; [reflexivity | discriminate] |]. cbn [adjustl]. unfold ch_eqb. destruct (Ascii.eqb_spec c blank) as [-> | H].
  - exists (S n). cbn [repeat app]. split; [congruence | exact F].
  - exists 0. split; [reflexivity |]. intros t K. congruence.
Qed.
Lemma rev_repeat {A} (x : A) n : rev (repeat x n) = repeat x n.
Proof. induction n as [| n IH]; [reflexivity |]. cbn [repeat rev]. rewrite IH. clear IH. induction n as [| n IH]; [reflexivity |]. cbn [repeat app]. now rewrite IH. Qed.
Lemma trim_decomp s : exists n, s = trim s ++ repeat blank n /\ tight (trim s).
Proof.
  destruct (adjustl_decomp (rev s)) as (n & E & F). exists n. unfold trim. split.
  - rewrite <- (rev_involutive s) at 1. rewrite E at 1. now rewrite rev_app_distr, rev_repeat.
  - intros t K. apply (F (rev t)). rewrite <- (rev_involutive (adjustl (rev s))), K, rev_app_distr. reflexivity.
Qed.
Lemma adjustl_repeat n s : adjustl (repeat blank n ++ s) = adjustl s.
Proof. induction n as [| n IH]; [reflexivity |]. exact IH. Qed.
Lemma trim_pad s n : trim (s ++ repeat blank n) = trim s.
Proof. unfold trim. now rewrite rev_app_distr, rev_repeat, adjustl_repeat. Qed.
Lemma trim_tight s : tight s -> trim s = s.
Proof.
  intro T. destruct (trim_decomp s) as (n & E & _). destruct n as [| n]; [cbn in E; rewrite app_nil_r in E; now rewrite <- E |]. exfalso. apply (T (trim s ++ repeat blank n)).
  rewrite E at 1. change (S n) with (1 + n). rewrite Nat.add_comm, repeat_app. now rewrite app_assoc.
Qed.
Lemma same_trim a b : same a b <-> trim a = trim b.
Proof.
  split; [intros (t & m & n & -> & ->); change " "%char with blank; now rewrite !trim_pad |]. intro E. destruct (trim_decomp a) as (m & A & _), (trim_decomp b) as (n & B & _). exists (trim a), m, n. split; [exact A | now rewrite E].
Qed.
Lemma blank_empty s : is_blank s = true <-> empty s.
Proof. unfold empty. rewrite same_trim. unfold is_blank. change (trim []) with (@nil ascii). destruct (trim s); split; congruence. Qed.
Lemma feq_same a b : feq a b = true <-> same a b.
Proof. unfold feq. rewrite str_eqb_eq. now rewrite same_trim. Qed.

(** ** Keys *)
Lemma index_last p y : ~ In "]"%char p -> p <> [] -> Nat.eqb (index_of "]"%char (p ++ y)) (length (p ++ y)) = true <-> exists t, ~ In "]"%char t /\ y = t ++ ["]"%char].
Proof.
  intros NP NE. rewrite Nat.eqb_eq. unfold index_of. split.
  - destruct (find_ch "]"%char (p ++ y)) as [i |] eqn:F.
    + intro E. apply find_ch_Some in F. destruct F as (x & z & E2 & LX & NX).
      assert (z = []). { apply (f_equal (@length ascii)) in E2. rewrite (app_length x) in E2. cbn [length] in E2. destruct z; [reflexivity | cbn [length] in E2; lia]. } subst z.
      destruct (exists_last (l := y)) as (t & c & Y). { intros ->. rewrite app_nil_r in E2. apply NP. rewrite E2. apply in_or_app. right. now left. }
      subst y. rewrite app_assoc in E2. apply app_inj_tail in E2 as (E2 & ->). exists t. split; [| reflexivity]. intro K. apply NX. rewrite <- E2. apply in_or_app. now right.
    + intro E. destruct p; [congruence | discriminate].
  - intros (t & NT & ->). rewrite app_assoc, find_ch_app_notin; [rewrite !app_length; cbn [Datatypes.length]; lia |]. intro K. apply in_app_or in K as [K | K]; contradiction.
Qed.
Lemma inside_app p t c : inside (length p) (p ++ t ++ [c]) = t.
Proof.
  unfold inside. rewrite skipn_app, skipn_all, Nat.sub_diag. cbn [skipn app]. rewrite !app_length. cbn [length]. replace (length p + (length t + 1) - 1 - length p) with (length t + 0) by lia.
  rewrite firstn_app_2. cbn [firstn]. apply app_nil_r.
Qed.
Lemma index_zero c s : Nat.eqb (index_of c s) 0 = true <-> ~ In c s.
Proof. rewrite Nat.eqb_eq. unfold index_of. rewrite <- find_ch_None. destruct (find_ch c s); split; congruence. Qed.
Lemma value_filled R f raw : filled R f raw (value_of R f raw).
Proof.
  unfold filled, value_of. pose proof (blank_empty raw) as B. destruct f; cbn [andb]; [| right; split; [now left | reflexivity]]. destruct (is_blank raw); cbn [negb].
  - right. split; [right; now apply B | reflexivity].
  - left. split; [reflexivity |]. split; [| reflexivity]. intro E. apply B in E. discriminate.
Qed.
Lemma filled_value R f raw v : filled R f raw v -> v = value_of R f raw.
Proof.
  unfold filled, value_of. pose proof (blank_empty raw) as B. intros [(-> & N & ->) | ([-> | E] & ->)].
  - destruct (is_blank raw); [elim N; now apply B | reflexivity].
  - reflexivity.
  - apply B in E. rewrite E, andb_false_r. reflexivity.
Qed.
Lemma read_key I : NoDup (map fst I) -> forall k v, In (k, v) I -> Read_String I k = v.
Proof.
  intros N k v H. unfold Read_String. assert (E : dget k I = Some v); [| now rewrite E]. induction I as [| [k' v'] I IH]; [destruct H |]. cbn [dget]. cbn [map fst] in N. inversion N as [| ? ? A B]; subst.
  destruct H as [H | H].
  - injection H as -> ->. now rewrite str_eqb_refl.
  - destruct (str_eqb k k') eqn:E; [| now apply IH]. apply str_eqb_eq in E. subst. elim A. change k' with (fst (k', v)). now apply in_map.
Qed.

Section Loops.
Variables (I : ini) (R : str -> str) (f : bool).
Hypothesis uniq : NoDup (map fst I).
Lemma tag_loop_in p : ~ In "]"%char p -> ~ In ","%char p -> p <> [] -> forall keys out, incl keys I -> tag_loop I R f p keys = Some out ->
  forall t v, In (t, v) out <-> exists raw, In (p ++ t ++ ["]"%char], raw) keys /\ ~ empty raw /\ plain t /\ filled R f raw v.
Proof.
  intros P1 P2 P3. induction keys as [| [key w] keys IH]; intros out INC H t v; cbn [tag_loop] in H.
  - injection H as <-. split; [intros [] | intros (raw & [] & _)].
  - assert (INC' : incl keys I) by (intros z Z; apply INC; now right).
    assert (SKIP : forall o, tag_loop I R f p keys = Some o -> (forall t' v', In (t', v') o -> True) -> (key <> p ++ t ++ ["]"%char] \/ empty w \/ ~ plain t) ->
      (In (t, v) o <-> exists raw, In (p ++ t ++ ["]"%char], raw) ((key, w) :: keys) /\ ~ empty raw /\ plain t /\ filled R f raw v)).
    { intros o O _ D. rewrite (IH o INC' O t v). split; intros (raw & A & B & C & E); exists raw; (split; [| repeat split; try assumption; apply C]).
      - now right.
      - destruct A as [A | A]; [| exact A]. injection A as A1 A2. subst w. destruct D as [D | [D | D]]; [congruence | contradiction | contradiction]. }
    destruct (startswith p key && negb (is_blank w)) eqn:S.
    + apply andb_prop in S as (S & NB). apply startswith_true in S as (y & ->). apply negb_true_iff in NB.
      destruct (Nat.eqb (index_of "]"%char (p ++ y)) (length (p ++ y))) eqn:X; cbn [negb] in H; [| discriminate].
      apply (index_last p y P1 P3) in X as (x & NX & ->).
      destruct (Nat.eqb (index_of ","%char (p ++ x ++ ["]"%char])) 0) eqn:Y; cbn [negb] in H.
      * destruct (tag_loop I R f p keys) as [r |] eqn:T; [| discriminate]. injection H as <-. rewrite inside_app. rewrite (read_key I uniq _ w) by (apply INC; now left).
        apply index_zero in Y. assert (PX : plain x). { split; [exact NX |]. intro K. apply Y. apply in_or_app. right. apply in_or_app. now left. }
        assert (NE : ~ empty w) by (intro K; apply blank_empty in K; congruence). split.
        -- intros [E | E].
           ++ injection E as <- <-. exists w. split; [now left |]. split; [exact NE |]. split; [exact PX | apply value_filled].
           ++ apply (IH r INC' eq_refl) in E as (raw & A & B). exists raw. split; [now right | exact B].
        -- intros (raw & [A | A] & B & C & D).
           ++ injection A as A1 ->. apply app_inv_head in A1. apply app_inj_tail in A1 as (-> & _). left. apply filled_value in D. now subst v.
           ++ right. apply (IH r INC' eq_refl). exists raw. auto.
      * apply (SKIP out H); [trivial |]. destruct (list_eq_dec ascii_dec x t) as [-> | D]; [| left; intro K; apply app_inv_head in K; apply app_inj_tail in K as (K & _); contradiction].
        right. right. intros (_ & Q). assert (Z : Nat.eqb (index_of ","%char (p ++ t ++ ["]"%char])) 0 = true); [| congruence]. apply index_zero. intro K.
        apply in_app_or in K as [K | K]; [contradiction |]. apply in_app_or in K as [K | [K | []]]; [contradiction | discriminate].
    + apply (SKIP out H); [trivial |]. apply andb_false_iff in S as [S | S].
      * left. intros ->. rewrite startswith_app in S. discriminate.
      * right. left. apply blank_empty. now apply negb_false_iff in S.
Qed.
Lemma tag_loop_none p : ~ In "]"%char p -> p <> [] -> forall keys, tag_loop I R f p keys = None <-> exists y raw, In (p ++ y, raw) keys /\ ~ empty raw /\ forall t, ~ In "]"%char t -> y <> t ++ ["]"%char].
Proof.
  intros P1 P3. induction keys as [| [key w] keys IH]; cbn [tag_loop]; [split; [discriminate | intros (y & raw & [] & _)] |].
  assert (SKIP : (forall y, key = p ++ y -> empty w \/ exists t, ~ In "]"%char t /\ y = t ++ ["]"%char]) ->
     (tag_loop I R f p keys = None <-> exists y raw, In (p ++ y, raw) ((key, w) :: keys) /\ ~ empty raw /\ forall t, ~ In "]"%char t -> y <> t ++ ["]"%char])).
  { intro D. rewrite IH. split; intros (y & raw & A & B & C); exists y, raw; (split; [| split; assumption]).
    - now right.
    - destruct A as [A | A]; [| exact A]. injection A as A1 A2. subst w. destruct (D y A1) as [E | (t & NT & E)]; [contradiction | elim (C t NT E)]. }
  destruct (startswith p key && negb (is_blank w)) eqn:S.
  - apply andb_prop in S as (S & NB). apply startswith_true in S as (y & ->). apply negb_true_iff in NB.
    destruct (Nat.eqb (index_of "]"%char (p ++ y)) (length (p ++ y))) eqn:X; cbn [negb].
    + apply (index_last p y P1 P3) in X as (x & NX & ->).
      assert (D : forall y, p ++ x ++ ["]"%char] = p ++ y -> empty w \/ exists t, ~ In "]"%char t /\ y = t ++ ["]"%char]) by (intros y E; apply app_inv_head in E; right; exists x; auto).
      apply SKIP in D. destruct (Nat.eqb _ 0); cbn [negb]; [| exact D]. rewrite <- D. destruct (tag_loop I R f p keys); split; congruence.
    + split; [intros _ | reflexivity]. exists y, w. split; [now left |]. split; [intro K; apply blank_empty in K; congruence |]. intros t NT ->.
      assert (Z : Nat.eqb (index_of "]"%char (p ++ t ++ ["]"%char])) (length (p ++ t ++ ["]"%char])) = true) by (apply index_last; eauto). congruence.
  - apply SKIP. intros y ->. apply andb_false_iff in S as [S | S]; [rewrite startswith_app in S; discriminate |]. left. apply blank_empty. now apply negb_false_iff in S.
Qed.
Lemma setting_loop_in p : ~ In "]"%char p -> p <> [] -> forall keys out, incl keys I -> setting_loop I R f p keys = Some out ->
  forall t v, In (t, v) out <-> exists raw, In (p ++ t ++ ["]"%char], raw) keys /\ ~ In "]"%char t /\ filled R f raw v.
Proof.
  intros P1 P3. induction keys as [| [key w] keys IH]; intros out INC H t v; cbn [setting_loop] in H.
  - injection H as <-. split; [intros [] | intros (raw & [] & _)].
  - assert (INC' : incl keys I) by (intros z Z; apply INC; now right). destruct (startswith p key) eqn:S.
    + apply startswith_true in S as (y & ->). destruct (Nat.eqb (index_of "]"%char (p ++ y)) (length (p ++ y))) eqn:X; cbn [negb] in H; [| discriminate].
      apply (index_last p y P1 P3) in X as (x & NX & ->). destruct (setting_loop I R f p keys) as [r |] eqn:T; [| discriminate]. injection H as <-. rewrite inside_app.
      rewrite (read_key I uniq _ w) by (apply INC; now left). split.
      * intros [E | E].
        -- injection E as <- <-. exists w. split; [now left |]. split; [exact NX | apply value_filled].
        -- apply (IH r INC' eq_refl) in E as (raw & A & B). exists raw. split; [now right | exact B].
      * intros (raw & [A | A] & C & D).
        -- injection A as A1 ->. apply app_inv_head in A1. apply app_inj_tail in A1 as (-> & _). left. apply filled_value in D. now subst v.
        -- right. apply (IH r INC' eq_refl). exists raw. auto.
    + rewrite (IH out INC' H t v). split; intros (raw & A & B); exists raw; (split; [| exact B]).
      * now right.
      * destruct A as [A | A]; [| exact A]. injection A as -> ->. rewrite startswith_app in S. discriminate.
Qed.
Lemma tag_loop_nodup p : ~ In "]"%char p -> p <> [] -> forall keys out, NoDup (map fst keys) -> tag_loop I R f p keys = Some out ->
  NoDup (map fst out) /\ forall t, In t (map fst out) -> In (p ++ t ++ ["]"%char]) (map fst keys).
Proof.
  intros P1 P3. induction keys as [| [key w] keys IH]; intros out N H; cbn [tag_loop] in H; [injection H as <-; split; [constructor | intros t []] |]. cbn [map fst] in N. inversion N as [| ? ? A B]; subst.
  assert (SK : tag_loop I R f p keys = Some out -> NoDup (map fst out) /\ forall t, In t (map fst out) -> In (p ++ t ++ ["]"%char]) (map fst ((key, w) :: keys))).
  { intro E. destruct (IH out B E) as (C & D). split; [exact C |]. intros t T. right. now apply D. }
  destruct (startswith p key && negb (is_blank w)) eqn:S; [| now apply SK]. apply andb_prop in S as (S & _). apply startswith_true in S as (y & ->).
  destruct (Nat.eqb (index_of "]"%char (p ++ y)) (length (p ++ y))) eqn:X; cbn [negb] in H; [| discriminate]. destruct (Nat.eqb _ 0); cbn [negb] in H; [| now apply SK].
  apply (index_last p y P1 P3) in X as (x & NX & ->). destruct (tag_loop I R f p keys) as [r |]; [| discriminate]. injection H as <-. rewrite inside_app. destruct (IH r B eq_refl) as (C & D). cbn [map fst]. split.
  - constructor; [| exact C]. intro K. apply A. now apply D.
  - intros t [<- | T]; [now left | right; now apply D].
Qed.
End Loops.

(** ** Theorems *)
Lemma stem_clean (name : str) : ~ In "]"%char name -> ~ In "]"%char (name ++ ["["%char]).
Proof. intros H K. apply in_app_or in K as [K | [K | []]]; [contradiction | discriminate]. Qed.
(** the tags are those of the keys name[tag] with a value *)
Theorem C150_tags I R f name out : NoDup (map fst I) -> plain name -> tight name -> TagValuesForName I R f name = Some out ->
  forall t v, In (t, v) out <-> exists raw, In (tagged name t, raw) I /\ ~ empty raw /\ plain t /\ filled R f raw v.
Proof.
  intros U (P1 & P2) T H t v. unfold TagValuesForName in H. rewrite (trim_tight name T) in H.
  assert (X := tag_loop_in I R f U (name ++ ["["%char]) (stem_clean name P1)). unfold tagged.
  rewrite (X (fun K => match in_app_or _ _ _ K with or_introl K => P2 K | or_intror (or_introl K) => ltac:(discriminate K) | or_intror (or_intror K) => K end) (fun K => ltac:(destruct name; discriminate K)) I out (fun z Z => Z) H t v).
  now rewrite <- !app_assoc.
Qed.
(** each tag once *)
Theorem C150_tags_once I R f name out : NoDup (map fst I) -> ~ In "]"%char (trim name) -> TagValuesForName I R f name = Some out -> NoDup (map fst out).
Proof. intros U P H. unfold TagValuesForName in H. apply (tag_loop_nodup I R f _ (stem_clean _ P)) in H; [apply H | intro K; destruct (trim name); discriminate | exact U]. Qed.
(** it stops just for a key with a value that begins with name[ and does not end with its only ']' *)
Theorem C150_tags_stop I R f name : plain name -> tight name ->
  (TagValuesForName I R f name = None <-> exists y raw, In (name ++ ["["%char] ++ y, raw) I /\ ~ empty raw /\ forall t, ~ In "]"%char t -> name ++ ["["%char] ++ y <> tagged name t).
Proof.
  intros (P1 & _) T. unfold TagValuesForName. rewrite (trim_tight name T). rewrite (tag_loop_none I R f _ (stem_clean _ P1)); [| intro K; destruct name; discriminate].
  split; intros (y & raw & A & B & C); exists y, raw; rewrite <- ?app_assoc in *; (split; [exact A |]; split; [exact B |]); intros t NT E; apply (C t NT).
  - unfold tagged in E. apply app_inv_head in E. apply app_inv_head in E. exact E.
  - unfold tagged. now rewrite E.
Qed.
(** the settings of a tag are those of the keys name[tag,setting] *)
Theorem C150_settings I R f name tag out : NoDup (map fst I) -> plain name -> tight name -> plain tag -> tight tag -> SettingValuesForTagName I R f name tag = Some out ->
  forall s v, In (s, v) out <-> exists raw, In (tagged2 name tag s, raw) I /\ ~ In "]"%char s /\ filled R f raw v.
Proof.
  intros U (P1 & _) T (Q1 & _) T' H s v. unfold SettingValuesForTagName in H. rewrite (trim_tight name T), (trim_tight tag T') in H.
  rewrite (setting_loop_in I R f U (name ++ ["["%char] ++ tag ++ [","%char])) with (keys := I) (out := out).
  - unfold tagged2. now rewrite <- !app_assoc.
  - intro K. apply in_app_or in K as [K | K]; [contradiction |]. apply in_app_or in K as [[K | []] | K]; [discriminate |]. apply in_app_or in K as [K | [K | []]]; [contradiction | discriminate].
  - intro K. destruct name; discriminate.
  - intros z Z. exact Z.
  - exact H.
Qed.
(** no key is for two tags, or for a tag and for a setting *)
Theorem C150_apart name t1 t2 s1 s2 : plain t1 -> plain t2 -> (tagged2 name t1 s1 = tagged2 name t2 s2 -> t1 = t2 /\ s1 = s2) /\ tagged name t1 <> tagged2 name t2 s2 /\ (tagged name t1 = tagged name t2 -> t1 = t2).
Proof.
  intros (_ & A) (_ & B). unfold tagged, tagged2. repeat split.
  - apply app_inv_head in H. apply app_inv_head in H. pose proof (f_equal (find_ch ","%char) H) as F. cbn [app] in F. rewrite !find_ch_app_notin in F by assumption. injection F as F.
    apply (f_equal (firstn (length t1))) in H. rewrite firstn_app, firstn_all, Nat.sub_diag in H. cbn [firstn] in H. rewrite app_nil_r in H. rewrite H, F, firstn_app, firstn_all, Nat.sub_diag. cbn [firstn]. apply app_nil_r.
  - apply app_inv_head in H. apply app_inv_head in H. pose proof (f_equal (find_ch ","%char) H) as F. cbn [app] in F. rewrite !find_ch_app_notin in F by assumption. injection F as F.
    apply (f_equal (skipn (length t1 + 1))) in H. rewrite F in H at 2. rewrite !app_assoc, <- !(app_assoc _ s1), <- !(app_assoc _ s2) in H.
    assert (K : forall (t s : str), skipn (length t + 1) ((t ++ [","%char]) ++ s ++ ["]"%char]) = s ++ ["]"%char]).
    { intros t s. replace (length t + 1) with (length (t ++ [","%char])) by (rewrite app_length; reflexivity). rewrite skipn_app, skipn_all, Nat.sub_diag. reflexivity. }
    rewrite !K in H. apply app_inj_tail in H as (H & _). exact H.
  - intro H. apply app_inv_head in H. apply app_inv_head in H. assert (X : In ","%char (t1 ++ ["]"%char])) by (rewrite H; apply in_or_app; right; now left). apply in_app_or in X as [X | [X | []]]; [contradiction | discriminate].
  - intro H. apply app_inv_head in H. apply app_inv_head in H. now apply app_inj_tail in H as (H & _).
Qed.
(** NamedKey gives the key of a tag *)
Theorem C150_named name tag : tight name -> tight tag -> NamedKey name tag = tagged name tag.
Proof. intros A B. unfold NamedKey, tagged. now rewrite !trim_tight. Qed.
(** FINDING: a tag with a blank at its end is a tag of its own, but its settings are not found *)
Theorem C150_blank_refuted : TagValuesForName [(L "d[a ]", L "x"); (L "d[a ,s]", L "1")] (fun s => s) false (L "d") = Some [(L "a ", L "x")] /\
  SettingValuesForTagName [(L "d[a ]", L "x"); (L "d[a ,s]", L "1")] (fun s => s) false (L "d") (L "a ") = Some [].
Proof. split; vm_compute; reflexivity. Qed.

(** ** Conflicts *)
Definition clash (full : list like) (c : str * str) : Prop := exists o, In o full /\ same (k_type o) (fst c) /\ same (k_name o) (snd c).
Lemma same_trim_r a b : same a (trim b) <-> same a b.
Proof. rewrite !same_trim. assert (E : trim (trim b) = trim b) by (apply trim_tight; destruct (trim_decomp b) as (n & _ & H); exact H). now rewrite E. Qed.
Lemma inner_ok c : forall full ok, fold_left (fun ok o => if feq (k_type o) (trim (fst c)) && feq (k_name o) (trim (snd c)) then false else ok) full ok = true <-> ok = true /\ ~ clash full c.
Proof.
  induction full as [| o full IH]; intro ok; cbn [fold_left].
  - split; [intro H; split; [exact H | intros (o & [] & _)] | intros (H & _); exact H].
  - rewrite IH. destruct (feq (k_type o) (trim (fst c)) && feq (k_name o) (trim (snd c))) eqn:E.
    + split; [intros (H & _); discriminate |]. intros (_ & H). elim H. apply andb_prop in E as (E1 & E2). apply feq_same in E1, E2. apply (proj1 (same_trim_r _ _)) in E1. apply (proj1 (same_trim_r _ _)) in E2. exists o. split; [now left | auto].
    + split; intros (A & B); (split; [exact A |]); intros (q & I & C); apply B.
      * destruct I as [<- | I]; [| now exists q]. exfalso. assert (X : feq (k_type o) (trim (fst c)) && feq (k_name o) (trim (snd c)) = true); [| congruence].
        apply andb_true_intro. split; apply feq_same; apply same_trim_r; apply C.
      * exists q. split; [now right | exact C].
Qed.
Lemma own_ok_iff full cs : own_ok full cs = true <-> forall c, In c cs -> ~ clash full c.
Proof.
  unfold own_ok. assert (G : forall cs ok, fold_left (fun ok c => fold_left (fun ok o => if feq (k_type o) (trim (fst c)) && feq (k_name o) (trim (snd c)) then false else ok) full ok) cs ok = true <-> ok = true /\ forall c, In c cs -> ~ clash full c).
  { clear cs. induction cs as [| c cs IH]; intro ok; cbn [fold_left]; [split; [intro H; split; [exact H | intros c []] | intros (H & _); exact H] |]. rewrite IH, inner_ok. split.
    - intros ((A & B) & C). split; [exact A |]. intros q [<- | Q]; [exact B | now apply C].
    - intros (A & B). split; [split; [exact A | apply B; now left] | intros q Q; apply B; now right]. }
  rewrite G. intuition.
Qed.
Lemma chain_iff full : forall chain, check_chain full chain = true <-> forall cs c, In cs chain -> In c cs -> ~ clash full c.
Proof.
  induction chain as [| cs chain IH]; [split; [intros _ cs c [] | reflexivity] |]. cbn [check_chain]. cbv zeta.
  assert (E : (match chain with [] => own_ok full cs | _ => check_chain full chain && own_ok full cs end) = check_chain full chain && own_ok full cs) by (destruct chain; reflexivity). rewrite E, andb_true_iff, IH, own_ok_iff. split.
  - intros (A & B) x c [<- | X] C; [now apply B | now apply (A x)].
  - intro H. split; [intros x c X C; apply (H x); [now right | exact C] | intros c C; apply (H cs); [now left | exact C]].
Qed.
(** the run goes on just if no likelihood, nor common data of one, excludes a likelihood of the list, in whatever order they are *)
Theorem C150_conflicts full : checkAllConflicts full = None <-> forall k cs c, In k full -> In cs (k_conflicts k) -> In c cs -> ~ clash full c.
Proof.
  unfold checkAllConflicts. assert (G : forall l, check_loop full l = None <-> forall k, In k l -> checkConflicts full k = true).
  { induction l as [| k l IH]; [split; [intros _ k [] | reflexivity] |]. cbn [check_loop]. destruct (checkConflicts full k) eqn:E; cbn [negb].
    - rewrite IH. split; [intros H q [<- | Q]; [exact E | now apply H] | intros H q Q; apply H; now right].
    - split; [discriminate |]. intro H. rewrite (H k (or_introl eq_refl)) in E. discriminate. }
  rewrite G. unfold checkConflicts. split.
  - intros H k cs c K. apply (proj1 (chain_iff full _)). now apply H.
  - intros H k K. apply chain_iff. intros cs c. now apply (H k).
Qed.
(** it is reported by the first likelihood that excludes one of the list *)
Theorem C150_reported full n : checkAllConflicts full = Some n -> exists pre k post cs c, full = pre ++ k :: post /\ n = trim (k_name k) /\ In cs (k_conflicts k) /\ In c cs /\ clash full c /\
  forall q cs' c', In q pre -> In cs' (k_conflicts q) -> In c' cs' -> ~ clash full c'.
Proof.
  unfold checkAllConflicts. assert (G : forall l, check_loop full l = Some n -> exists pre k post, l = pre ++ k :: post /\ n = trim (k_name k) /\ checkConflicts full k = false /\ forall q, In q pre -> checkConflicts full q = true).
  { induction l as [| k l IH]; [discriminate |]. cbn [check_loop]. destruct (checkConflicts full k) eqn:E; cbn [negb].
    - intro H. destruct (IH H) as (pre & x & post & -> & A & B & C). exists (k :: pre), x, post. repeat split; try assumption. intros q [<- | Q]; [exact E | now apply C].
    - intro H. injection H as <-. exists [], k, l. repeat split; [exact E | intros q []]. }
  intro H. destruct (G full H) as (pre & k & post & E & N & B & C). clear H G. exists pre, k, post.
  assert (X : exists cs c, In cs (k_conflicts k) /\ In c cs /\ clash full c).
  { assert (D : forall c, {clash full c} + {~ clash full c}).
    { intro c. destruct (fold_left (fun ok o => if feq (k_type o) (trim (fst c)) && feq (k_name o) (trim (snd c)) then false else ok) full true) eqn:F; [right; now apply inner_ok in F | left].
      destruct (existsb (fun o => feq (k_type o) (trim (fst c)) && feq (k_name o) (trim (snd c))) full) eqn:EX.
      - apply existsb_exists in EX as (o & I & Y). apply andb_prop in Y as (Y1 & Y2). apply feq_same in Y1, Y2. apply (proj1 (same_trim_r _ _)) in Y1. apply (proj1 (same_trim_r _ _)) in Y2. exists o. auto.
      - exfalso. assert (T : fold_left (fun ok o => if feq (k_type o) (trim (fst c)) && feq (k_name o) (trim (snd c)) then false else ok) full true = true); [| congruence].
        apply inner_ok. split; [reflexivity |]. intros (o & I & Y1 & Y2). assert (Z : existsb (fun o => feq (k_type o) (trim (fst c)) && feq (k_name o) (trim (snd c))) full = true); [| congruence].
        apply existsb_exists. exists o. split; [exact I |]. apply andb_true_intro. split; apply feq_same, same_trim_r; assumption. }
    destruct (Exists_dec (fun cs => Exists (clash full) cs) (k_conflicts k) (fun cs => Exists_dec (clash full) cs D)) as [Y | Y].
    - apply Exists_exists in Y as (cs & I & Y). apply Exists_exists in Y as (c & J & Y). exists cs, c. auto.
    - exfalso. assert (Z : checkConflicts full k = true); [| congruence]. apply chain_iff. intros cs c I J K. apply Y. apply Exists_exists. exists cs. split; [exact I |]. apply Exists_exists. exists c. auto. }
  destruct X as (cs & c & I & J & K). exists cs, c. repeat (split; [assumption |]). intros q cs' c' Q. apply (proj1 (chain_iff full _)). now apply C.
Qed.

(** ** Examples *)
Definition exini : ini := [(L "cmb_dataset[P]", L "%DATASETDIR%p.dataset"); (L "cmb_dataset[P,lmax]", L "10"); (L "cmb_dataset[Q]", L " "); (L "cmb_dataset_speed[P]", L "3"); (L "cmb_dataset[R]", L "r")].
Lemma tight_last s c : c <> " "%char -> tight (s ++ [c]).
Proof. intros N t E. apply app_inj_tail in E as (_ & E). contradiction. Qed.
Lemma plain_ok s : existsb (fun c => ch_eqb c "]"%char || ch_eqb c ","%char) s = false -> plain s.
Proof.
  intro H. assert (G : forall c, In c s -> ch_eqb c "]"%char || ch_eqb c ","%char = false). { intros c I. destruct (ch_eqb c "]"%char || ch_eqb c ","%char) eqn:E; [| reflexivity]. rewrite <- H. symmetry. apply existsb_exists. exists c. auto. }
  split; intro K; apply G in K; discriminate.
Qed.
Example C150_ex_tags : TagValuesForName exini (fun s => L "dir/" ++ s) true (L "cmb_dataset") = Some [(L "P", L "dir/%DATASETDIR%p.dataset"); (L "R", L "dir/r")] /\
  SettingValuesForTagName exini (fun s => s) false (L "cmb_dataset") (L "P") = Some [(L "lmax", L "10")] /\ NoDup (map fst exini) /\ plain (L "cmb_dataset") /\ tight (L "cmb_dataset") /\ plain (L "P") /\ tight (L "P").
Proof.
  split; [vm_compute; reflexivity |]. split; [vm_compute; reflexivity |]. split.
  { change (map fst exini) with [L "cmb_dataset[P]"; L "cmb_dataset[P,lmax]"; L "cmb_dataset[Q]"; L "cmb_dataset_speed[P]"; L "cmb_dataset[R]"]. repeat (apply NoDup_cons; [cbn; intuition discriminate |]). apply NoDup_nil. }
  split; [now apply plain_ok |]. split; [apply (tight_last (L "cmb_datase") "t"%char); discriminate |]. split; [now apply plain_ok | apply (tight_last [] "P"%char); discriminate].
Qed.
Example C150_ex_stop : TagValuesForName [(L "d[a]b", L "x")] (fun s => s) false (L "d") = None.
Proof. vm_compute. reflexivity. Qed.
Example C150_ex_conflicts : let a := mkLike (L "BAO") (L "DR12 ") [[(L "BAO", L "DR11")]] in let b := mkLike (L "BAO") (L "DR11") [] in let c := mkLike (L "BAO") (L "MGS") [] in
  checkAllConflicts [b; c; a] = Some (L "DR12") /\ checkAllConflicts [c; a] = None /\ checkAllConflicts [c; b] = None.
Proof. split; [| split]; vm_compute; reflexivity. Qed.
Print Assumptions C150_tags.
Print Assumptions C150_tags_stop.
Print Assumptions C150_settings.
Print Assumptions C150_conflicts.
Print Assumptions C150_reported.
