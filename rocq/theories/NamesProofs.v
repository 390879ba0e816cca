From Coq Require Import String Ascii Bool Arith Lia List.
From Verif Require Import PyStr PyStrFacts NamesModel NamesSpec.
Import ListNotations.

Lemma str_eqb_true a b : str_eqb a b = true <-> a = b.
Proof. unfold str_eqb. destruct (str_eq_dec a b); split; congruence. Qed.
Lemma str_eqb_same a : str_eqb a a = true.
Proof. now apply str_eqb_true. Qed.
Lemma isin_In l n : isin l n = true <-> In n (names_of l).
Proof.
  unfold isin. induction l as [| p l IH]; cbn; [intuition discriminate |].
  destruct (str_eqb (nm p) n) eqn:E; [apply str_eqb_true in E; intuition |].
  assert (nm p <> n) by (intro; apply str_eqb_true in H; congruence).
  destruct (index l n); cbn; intuition congruence.
Qed.
Lemma isin_false l n : isin l n = false <-> ~ In n (names_of l).
Proof. rewrite <- isin_In. destruct (isin l n); intuition congruence. Qed.
Lemma named_In l n : named_in l n = true <-> In n (names_of l).
Proof.
  unfold named_in, names_of. rewrite existsb_exists, in_map_iff. split.
  - intros (p & I & E). apply str_eqb_true in E. now exists p.
  - intros (p & E & I). exists p. split; [exact I | now apply str_eqb_true].
Qed.
Lemma base_In l n : base_in l n = true <-> has_kind false l n.
Proof.
  unfold base_in, has_kind. rewrite existsb_exists. split.
  - intros (p & I & E). apply andb_true_iff in E. destruct E as [E1 E2]. apply str_eqb_true in E1. apply negb_true_iff in E2. now exists p.
  - intros (p & I & E1 & E2). exists p. split; [exact I |]. rewrite E2. apply andb_true_iff. split; [now apply str_eqb_true | reflexivity].
Qed.

(** One pass keeps what is new, if the names of the pass are different *)
Lemma pass_filter d P : forall acc, NoDup (names_of P) ->
  add_pass d acc P = acc ++ filter (fun p => Bool.eqb (der p) d && negb (isin acc (nm p))) P.
Proof.
  unfold add_pass. induction P as [| p P IH]; intros acc ND; cbn [fold_left filter]; [now rewrite app_nil_r |].
  cbn in ND. apply NoDup_cons_iff in ND. destruct ND as [N1 N2].
  rewrite IH by exact N2. rewrite (andb_comm (Bool.eqb _ _)).
  destruct (negb (isin acc (nm p)) && Bool.eqb (der p) d) eqn:E; [| reflexivity].
  rewrite <- app_assoc. cbn [app]. do 2 f_equal. apply filter_ext_in. intros q I. f_equal. f_equal.
  apply eq_true_iff_eq. rewrite !isin_In. unfold names_of. rewrite map_app, in_app_iff. cbn. split; [| tauto].
  intros [H | [H | []]]; [exact H |]. exfalso. apply N1. rewrite H. unfold names_of. now apply in_map.
Qed.
Lemma pass_NoDup d P : forall acc, NoDup (names_of acc) -> NoDup (names_of (add_pass d acc P)).
Proof.
  unfold add_pass. induction P as [| p P IH]; intros acc ND; cbn [fold_left]; [exact ND |]. apply IH.
  destruct (negb (isin acc (nm p)) && Bool.eqb (der p) d) eqn:E; [| exact ND].
  apply andb_true_iff in E. destruct E as [E _]. apply negb_true_iff, isin_false in E.
  unfold names_of. rewrite map_app. cbn [map].
  apply NoDup_rev in ND. rewrite <- (rev_involutive (map nm acc ++ [nm p])). apply NoDup_rev. rewrite rev_app_distr. cbn.
  constructor; [now rewrite <- in_rev | exact ND].
Qed.
Lemma pass_incl d P : forall acc n, In n (names_of (add_pass d acc P)) -> In n (names_of acc) \/ In n (names_of P).
Proof.
  unfold add_pass. induction P as [| p P IH]; intros acc n H; cbn [fold_left] in H; [now left |].
  apply IH in H. cbn [names_of map]. destruct H as [H | H]; [| right; now right].
  destruct (negb (isin acc (nm p)) && Bool.eqb (der p) d); [| now left].
  unfold names_of in *. rewrite map_app, in_app_iff in H. cbn in H. destruct H as [H | [H | []]]; [now left | right; now left].
Qed.

Definition four (this names : list pn) : list pn :=
  add_pass true (add_pass true (add_pass false (add_pass false [] this) names) this) names.
Lemma names_app a b : names_of (a ++ b) = names_of a ++ names_of b.
Proof. apply map_app. Qed.
Lemma in_names_filter f l n : In n (names_of (filter f l)) <-> exists p, In p l /\ f p = true /\ nm p = n.
Proof.
  unfold names_of. rewrite in_map_iff. split.
  - intros (p & E & I). apply filter_In in I. destruct I. now exists p.
  - intros (p & I & F & E). exists p. split; [exact E | now apply filter_In].
Qed.
Lemma names_inj l p q : NoDup (names_of l) -> In p l -> In q l -> nm p = nm q -> p = q.
Proof.
  unfold names_of. induction l as [| r l IH]; cbn; [tauto |]. intros ND [-> | Hp] [-> | Hq] E; try reflexivity;
    apply NoDup_cons_iff in ND; destruct ND as [N1 N2].
  - exfalso. apply N1. rewrite E. now apply in_map.
  - exfalso. apply N1. rewrite <- E. now apply in_map.
  - now apply IH.
Qed.
Lemma in_names l p : In p l -> In (nm p) (names_of l).
Proof. apply in_map. Qed.

Lemma four_merged a b : NoDup (names_of a) -> NoDup (names_of b) -> four a b = merged a b.
Proof.
  intros Na Nb. unfold four. rewrite (pass_filter false a) by exact Na. cbn [app].
  rewrite (filter_ext (fun p => Bool.eqb (der p) false && negb (isin [] (nm p))) (fun p => negb (der p))).
  2: { intro p. cbn. destruct (der p); reflexivity. }
  rewrite (pass_filter false b) by exact Nb.
  set (A := filter (fun p => negb (der p)) a).
  assert (EA : forall n, In n (names_of A) <-> base_in a n = true).
  { intro n. unfold A. rewrite in_names_filter, base_In. unfold has_kind. split; intros (p & I & E1 & E2); exists p.
    - apply negb_true_iff in E1. now repeat split.
    - rewrite E2. now repeat split. }
  rewrite (filter_ext (fun p => Bool.eqb (der p) false && negb (isin A (nm p))) (fun p => negb (der p) && negb (base_in a (nm p)))).
  2: { intro p. change (Bool.eqb (der p) false) with (negb (der p)). do 2 f_equal. apply eq_true_iff_eq. now rewrite isin_In. }
  set (B := filter (fun p => negb (der p) && negb (base_in a (nm p))) b).
  assert (EB : forall n, In n (names_of B) <-> base_in b n = true /\ base_in a n = false).
  { intro n. unfold B. rewrite in_names_filter, base_In. unfold has_kind. split.
    - intros (p & I & E1 & E2). apply andb_true_iff in E1. destruct E1 as [E1 E3]. apply negb_true_iff in E1, E3. subst n.
      split; [now exists p | exact E3].
    - intros [(p & I & E1 & E2) E3]. exists p. subst n. now rewrite E2, E3. }
  rewrite (pass_filter true a) by exact Na.
  rewrite (filter_ext_in (fun p => Bool.eqb (der p) true && negb (isin (A ++ B) (nm p))) (fun p => der p && negb (base_in b (nm p)))).
  2: { intros p I. destruct (der p) eqn:D; [| reflexivity]. cbn. f_equal. apply eq_true_iff_eq.
       rewrite isin_In, names_app, in_app_iff, EA, EB.
       assert (X : base_in a (nm p) = false).
       { destruct (base_in a (nm p)) eqn:E; [| reflexivity]. apply base_In in E. destruct E as (q & Q1 & Q2 & Q3).
         assert (q = p) by (now apply (names_inj a)). subst. congruence. }
       rewrite X. intuition congruence. }
  set (D := filter (fun p => der p && negb (base_in b (nm p))) a).
  assert (ED : forall n, In n (names_of D) <-> has_kind true a n /\ base_in b n = false).
  { intro n. unfold D. rewrite in_names_filter. unfold has_kind. split.
    - intros (p & I & E1 & E2). apply andb_true_iff in E1. destruct E1 as [E1 E3]. apply negb_true_iff in E3. subst n.
      split; [now exists p | exact E3].
    - intros [(p & I & E1 & E2) E3]. exists p. subst n. now rewrite E2, E3. }
  rewrite (pass_filter true b) by exact Nb. unfold merged. fold A B D. rewrite <- !app_assoc. do 3 f_equal.
  apply filter_ext_in. intros p I. destruct (der p) eqn:E; [| reflexivity]. cbn. f_equal. apply eq_true_iff_eq.
  rewrite isin_In, !names_app, !in_app_iff, EA, EB, ED, named_In.
  assert (X : base_in b (nm p) = false).
  { destruct (base_in b (nm p)) eqn:Eb; [| reflexivity]. apply base_In in Eb. destruct Eb as (q & Q1 & Q2 & Q3).
    assert (q = p) by (now apply (names_inj b)). subst. congruence. }
  rewrite X. split.
  - intros [H | [[H _] | [(q & Q1 & Q2 & Q3) _]]]; [| discriminate |].
    + apply base_In in H. destruct H as (q & Q1 & Q2 & _). rewrite <- Q2. now apply in_names.
    + rewrite <- Q2. now apply in_names.
  - intro H. apply in_map_iff in H. destruct H as (q & Q1 & Q2). destruct (der q) eqn:Dq.
    + right. right. split; [now exists q | reflexivity].
    + left. apply base_In. now exists q.
Qed.

Lemma merged_names a b n : In n (names_of (merged a b)) <-> In n (names_of a) \/ In n (names_of b).
Proof.
  unfold merged. rewrite !names_app, !in_app_iff, !in_names_filter. split.
  - intros [(p & I & _ & E) | [(p & I & _ & E) | [(p & I & _ & E) | (p & I & _ & E)]]]; subst n; try (left; now apply in_names); right; now apply in_names.
  - assert (Ha : In n (names_of a) -> base_in b n = false \/ base_in a n = true -> 
        (exists p, In p a /\ negb (der p) = true /\ nm p = n) \/ (exists p, In p a /\ der p && negb (base_in b (nm p)) = true /\ nm p = n)).
    { intros H K. apply in_map_iff in H. destruct H as (p & E & I). destruct (der p) eqn:D.
      - destruct K as [K | K].
        + right. exists p. rewrite D, E, K. now repeat split.
        + left. apply base_In in K. destruct K as (q & Q1 & Q2 & Q3). exists q. rewrite Q3. now repeat split.
      - left. exists p. rewrite D. now repeat split. }
    assert (Hb : base_in b n = true -> base_in a n = false -> exists p, In p b /\ negb (der p) && negb (base_in a (nm p)) = true /\ nm p = n).
    { intros H K. apply base_In in H. destruct H as (q & Q1 & Q2 & Q3). exists q. rewrite Q3, Q2, K. now repeat split. }
    destruct (base_in b n) eqn:Eb, (base_in a n) eqn:Ea; intros [H | H]; try (destruct (Ha H); tauto); try (right; left; now apply Hb).
    + left. apply base_In in Ea. destruct Ea as (q & Q1 & Q2 & Q3). exists q. rewrite Q3. now repeat split.
    + left. apply base_In in Ea. destruct Ea as (q & Q1 & Q2 & Q3). exists q. rewrite Q3. now repeat split.
    + destruct (named_in a n) eqn:En; [apply named_In in En; destruct (Ha En); tauto |].
      right. right. right. apply in_map_iff in H. destruct H as (p & E & I). exists p. destruct (der p) eqn:D.
      * rewrite E, En. now repeat split.
      * exfalso. assert (base_in b n = true) by (apply base_In; now exists p). congruence.
Qed.
Lemma four_NoDup a b : NoDup (names_of (four a b)).
Proof. unfold four. do 4 apply pass_NoDup. constructor. Qed.
Lemma four_incl a b n : In n (names_of (four a b)) -> In n (names_of a) \/ In n (names_of b).
Proof. unfold four. intro H. repeat (apply pass_incl in H; destruct H as [H | H]; try tauto). destruct H. Qed.

Lemma NoDup_map_filter f l : NoDup (names_of l) -> NoDup (names_of (filter f l)).
Proof.
  unfold names_of. induction l as [| p l IH]; cbn; [tauto |]. intro ND. apply NoDup_cons_iff in ND. destruct ND as [N1 N2].
  destruct (f p); cbn; [| now apply IH]. constructor; [| now apply IH]. intro I. apply N1.
  apply in_map_iff in I. destruct I as (q & E & I). apply filter_In in I. apply in_map_iff. exists q. tauto.
Qed.
Lemma merged_length a b : NoDup (names_of a) -> NoDup (names_of b) ->
  length (merged a b) = length a + length (filter (fun p => negb (isin a (nm p))) b).
Proof.
  intros Na Nb. set (F := filter (fun p => negb (isin a (nm p))) b).
  assert (E : length (names_of (merged a b)) = length (names_of (a ++ F))).
  { assert (N2 : NoDup (names_of (a ++ F))).
    { rewrite names_app. assert (NF : NoDup (names_of F)) by (now apply NoDup_map_filter).
      assert (DJ : forall n, In n (names_of a) -> In n (names_of F) -> False).
      { intros n I J. unfold F in J. apply in_names_filter in J. destruct J as (p & _ & J1 & J2). apply negb_true_iff, isin_false in J1. now subst. }
      revert DJ. generalize (names_of F) NF. clear - Na. induction Na as [| n l N1 N2 IH]; intros m NF DJ; [exact NF |].
      cbn. constructor; [rewrite in_app_iff; intros [H | H]; [contradiction | apply (DJ n); [now left | exact H]] |].
      apply IH; [exact NF |]. intros k I J. apply (DJ k); [now right | exact J]. }
    assert (IA : forall n, In n (names_of (merged a b)) <-> In n (names_of (a ++ F))).
    { intro n. rewrite merged_names, names_app, in_app_iff. unfold F. rewrite in_names_filter. split.
      - intros [H | H]; [now left |]. destruct (isin a n) eqn:E; [left; now apply isin_In |].
        right. apply in_map_iff in H. destruct H as (p & E1 & E2). exists p. now rewrite E1, E.
      - intros [H | (p & I & _ & E)]; [now left | right; subst n; now apply in_names]. }
    assert (N1 : NoDup (names_of (merged a b))) by (rewrite <- four_merged by assumption; apply four_NoDup).
    apply Nat.le_antisymm; apply NoDup_incl_length; try assumption; intros n I; now apply IA. }
  unfold names_of in E. rewrite !map_length, app_length in E. exact E.
Qed.
