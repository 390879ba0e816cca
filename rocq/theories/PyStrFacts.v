(** Lemmas about the python text helpers. *)
From Verif Require Import PyStr.
From Coq Require Import Permutation.

Lemma str_eqb_eq a b : str_eqb a b = true <-> a = b.
Proof. unfold str_eqb; destruct (str_eq_dec a b); split; congruence. Qed.
Lemma str_eqb_refl a : str_eqb a a = true.
Proof. now apply str_eqb_eq. Qed.
Lemma str_eqb_neq a b : str_eqb a b = false <-> a <> b.
Proof. unfold str_eqb; destruct (str_eq_dec a b); split; congruence. Qed.
Lemma str_eqb_sym a b : str_eqb a b = str_eqb b a.
Proof. unfold str_eqb; destruct (str_eq_dec a b), (str_eq_dec b a); congruence. Qed.
Lemma str_eqb_spec a b : reflect (a = b) (str_eqb a b).
Proof. unfold str_eqb; destruct (str_eq_dec a b); constructor; assumption. Qed.

Lemma ch_eqb_eq a b : ch_eqb a b = true <-> a = b.
Proof. apply Ascii.eqb_eq. Qed.
Lemma ch_eqb_refl a : ch_eqb a a = true.
Proof. now apply ch_eqb_eq. Qed.
Lemma ch_eqb_neq a b : ch_eqb a b = false <-> a <> b.
Proof. apply Ascii.eqb_neq. Qed.
Lemma ch_eqb_spec a b : reflect (a = b) (ch_eqb a b).
Proof. apply Ascii.eqb_spec. Qed.

Lemma mem_str_In x l : mem_str x l = true <-> In x l.
Proof.
  unfold mem_str; rewrite existsb_exists; split.
  - intros (y & Hy & E); apply str_eqb_eq in E; now subst.
  - intros H; exists x; split; [exact H | apply str_eqb_refl].
Qed.
Lemma mem_str_false x l : mem_str x l = false <-> ~ In x l.
Proof. rewrite <- mem_str_In; destruct (mem_str x l); split; congruence. Qed.

(** dictionaries *)
Section Dict.
  Context {V : Type}.
  Implicit Types d e : dict V.

  Lemma dget_dset_same k v d : dget k (dset k v d) = Some v.
  Proof.
    induction d as [|[k' v'] d IH]; simpl; [now rewrite str_eqb_refl|].
    destruct (str_eqb k k') eqn:E; simpl; rewrite E; auto.
  Qed.
  Lemma dget_dset_other k k0 v d : k <> k0 -> dget k (dset k0 v d) = dget k d.
  Proof.
    intros N; induction d as [|[k' v'] d IH]; simpl.
    - apply str_eqb_neq in N; now rewrite N.
    - destruct (str_eqb k0 k') eqn:E; simpl.
      + apply str_eqb_eq in E; subst k'. apply str_eqb_neq in N; now rewrite N.
      + now rewrite IH.
  Qed.
  Lemma dget_dset k k0 v d : dget k (dset k0 v d) = if str_eqb k k0 then Some v else dget k d.
  Proof.
    destruct (str_eqb_spec k k0) as [->|N]; [apply dget_dset_same | now apply dget_dset_other].
  Qed.
  Lemma dget_None k d : dget k d = None <-> ~ In k (dkeys d).
  Proof.
    induction d as [|[k' v'] d IH]; simpl; [tauto|].
    destruct (str_eqb_spec k k') as [->|N]; [split; [discriminate | tauto]|].
    rewrite IH; intuition congruence.
  Qed.
  Lemma dhas_In k d : dhas k d = true <-> In k (dkeys d).
  Proof.
    unfold dhas; destruct (dget k d) eqn:E.
    - split; [intros _ | auto]. destruct (in_dec str_eq_dec k (dkeys d)) as [H|H]; [exact H|].
      apply dget_None in H; congruence.
    - split; [discriminate|]. intros H; apply dget_None in E; contradiction.
  Qed.
  Lemma dhas_false k d : dhas k d = false <-> ~ In k (dkeys d).
  Proof. rewrite <- dhas_In; destruct (dhas k d); split; congruence. Qed.
  Lemma dget_Some_In k v d : dget k d = Some v -> In (k, v) d.
  Proof.
    induction d as [|[k' v'] d IH]; simpl; [discriminate|].
    destruct (str_eqb_spec k k') as [->|N]; [intros [= ->]; now left | intros H; right; auto].
  Qed.
  Lemma dget_In_NoDup k v d : NoDup (dkeys d) -> In (k, v) d -> dget k d = Some v.
  Proof.
    induction d as [|[k' v'] d IH]; simpl; [tauto|].
    intros ND [E|H].
    - injection E as -> ->; now rewrite str_eqb_refl.
    - inversion ND as [|? ? Hn ND']; subst.
      destruct (str_eqb_spec k k') as [->|N]; [|auto].
      exfalso; apply Hn. unfold dkeys; now apply (in_map fst) in H.
  Qed.
  Lemma dset_new k v d : ~ In k (dkeys d) -> dset k v d = d ++ [(k, v)].
  Proof.
    induction d as [|[k' v'] d IH]; simpl; [reflexivity|].
    intros H. destruct (str_eqb_spec k k') as [->|N]; [tauto|]. rewrite IH; tauto.
  Qed.
  Lemma dkeys_dset_In k k0 v d : In k (dkeys (dset k0 v d)) <-> k = k0 \/ In k (dkeys d).
  Proof.
    rewrite <- !dhas_In; unfold dhas; rewrite dget_dset.
    destruct (str_eqb_spec k k0) as [->|N]; [tauto|]. split; [tauto | intros [?|?]; [congruence|auto]].
  Qed.
  Lemma NoDup_dset k v d : NoDup (dkeys d) -> NoDup (dkeys (dset k v d)).
  Proof.
    intros ND; induction d as [|[k' v'] d IH]; simpl; [repeat constructor; simpl; tauto|].
    inversion ND as [|? ? Hn ND']; subst.
    destruct (str_eqb_spec k k') as [->|N]; simpl; [exact ND|].
    constructor; [|apply IH; exact ND'].
    intros H; apply dkeys_dset_In in H as [->|H]; [congruence|contradiction].
  Qed.
  Lemma dget_app k d e : dget k (d ++ e) = match dget k d with Some v => Some v | None => dget k e end.
  Proof.
    induction d as [|[k' v'] d IH]; simpl; [reflexivity|]. destruct (str_eqb k k'); auto.
  Qed.
  Lemma dget_ddel_other k k0 d : k <> k0 -> dget k (ddel k0 d) = dget k d.
  Proof.
    intros N; induction d as [|[k' v'] d IH]; simpl; [reflexivity|].
    destruct (str_eqb_spec k0 k') as [->|N']; simpl.
    - apply str_eqb_neq in N; now rewrite N.
    - now rewrite IH.
  Qed.
  Lemma dget_ddel_same k d : NoDup (dkeys d) -> dget k (ddel k d) = None.
  Proof.
    induction d as [|[k' v'] d IH]; simpl; [reflexivity|]. intros ND.
    inversion ND as [|? ? Hn ND']; subst.
    destruct (str_eqb_spec k k') as [->|N']; simpl.
    - now apply dget_None.
    - apply str_eqb_neq in N'; rewrite N'; auto.
  Qed.
  Lemma ddel_keys_sub k x d : In x (dkeys (ddel k d)) -> In x (dkeys d).
  Proof.
    induction d as [|[k' v'] d IH]; simpl; [tauto|].
    destruct (str_eqb k k'); simpl; tauto.
  Qed.
  Lemma NoDup_ddel k d : NoDup (dkeys d) -> NoDup (dkeys (ddel k d)).
  Proof.
    induction d as [|[k' v'] d IH]; simpl; [auto|]. intros ND.
    inversion ND as [|? ? Hn ND']; subst.
    destruct (str_eqb k k'); simpl; [exact ND'|].
    constructor; [|auto]. intros H; apply Hn; eapply ddel_keys_sub; exact H.
  Qed.
  Lemma dget_ddel k k0 d : NoDup (dkeys d) ->
    dget k (ddel k0 d) = if str_eqb k k0 then None else dget k d.
  Proof.
    intros ND; destruct (str_eqb_spec k k0) as [->|N];
      [now apply dget_ddel_same | now apply dget_ddel_other].
  Qed.
  Lemma dget_dupdate k d e : NoDup (dkeys e) ->
    dget k (dupdate d e) = match dget k e with Some v => Some v | None => dget k d end.
  Proof.
    unfold dupdate; revert d; induction e as [|[k' v'] e IH]; intros d ND; simpl; [reflexivity|].
    inversion ND as [|? ? Hn ND']; subst.
    rewrite IH by exact ND'. rewrite dget_dset. simpl.
    destruct (str_eqb_spec k k') as [->|N]; [|reflexivity].
    simpl in Hn. apply dget_None in Hn. now rewrite Hn.
  Qed.
  Lemma NoDup_dupdate d e : NoDup (dkeys d) -> NoDup (dkeys (dupdate d e)).
  Proof.
    unfold dupdate; revert d; induction e as [|[k' v'] e IH]; intros d ND; simpl; [exact ND|].
    apply IH, NoDup_dset, ND.
  Qed.
End Dict.

(** strip *)
Lemma lstrip_id_cons c s : is_space c = false -> lstrip (c :: s) = c :: s.
Proof. intros H; simpl; now rewrite H. Qed.

(** a text with no blank at either end *)
Definition no_lead (s : str) : bool := match s with [] => true | c :: _ => negb (is_space c) end.
Definition stripped (s : str) : bool := no_lead s && no_lead (rev s).

Lemma lstrip_no_lead s : no_lead s = true -> lstrip s = s.
Proof. destruct s as [|c s]; simpl; [reflexivity|]. destruct (is_space c); [discriminate|reflexivity]. Qed.
Lemma no_lead_lstrip s : no_lead (lstrip s) = true.
Proof. induction s as [|c s IH]; simpl; [reflexivity|]. destruct (is_space c) eqn:E; [exact IH|]. simpl; now rewrite E. Qed.
Lemma strip_stripped s : stripped s = true -> strip s = s.
Proof.
  unfold stripped, strip, rstrip; intros H; apply andb_true_iff in H as [H1 H2].
  rewrite (lstrip_no_lead s H1), (lstrip_no_lead (rev s) H2). apply rev_involutive.
Qed.
Lemma lstrip_suffix s : exists p, s = p ++ lstrip s /\ forallb is_space p = true.
Proof.
  induction s as [|c s (p & E & Hp)]; simpl; [exists []; auto|].
  destruct (is_space c) eqn:Ec; [|exists []; auto].
  exists (c :: p); simpl; rewrite Ec; split; [congruence|exact Hp].
Qed.
Lemma no_lead_rev_lstrip s : no_lead (rev s) = true -> no_lead (rev (lstrip s)) = true.
Proof.
  intros H. destruct (lstrip_suffix s) as (p & E & Hp).
  rewrite E, rev_app_distr in H.
  destruct (rev (lstrip s)) as [|c t] eqn:Et; [reflexivity|].
  simpl in H |- *. exact H.
Qed.
Lemma stripped_strip s : stripped (strip s) = true.
Proof.
  unfold stripped, strip, rstrip.
  rewrite rev_involutive, no_lead_lstrip, andb_true_r.
  pose proof (no_lead_rev_lstrip (rev (lstrip s))) as H.
  apply H. rewrite rev_involutive. apply no_lead_lstrip.
Qed.

Lemma startswith_app p s : startswith p (p ++ s) = true.
Proof. induction p as [|c p IH]; simpl; [reflexivity|]. now rewrite ch_eqb_refl. Qed.
Lemma startswith_true p s : startswith p s = true <-> exists t, s = p ++ t.
Proof.
  revert s; induction p as [|c p IH]; intros s; simpl.
  - split; [intros _; now exists s | auto].
  - destruct s as [|b s]; [split; [discriminate | intros (t & [=])]|].
    rewrite andb_true_iff, IH. split.
    + intros (E & t & ->). apply ch_eqb_eq in E; subst. now exists t.
    + intros (t & [= -> ->]). split; [apply ch_eqb_refl | now exists t].
Qed.

Lemma find_ch_app_notin c a b : ~ In c a -> find_ch c (a ++ c :: b) = Some (length a).
Proof.
  induction a as [|x a IH]; simpl; intros H.
  - now rewrite ch_eqb_refl.
  - destruct (ch_eqb_spec x c) as [->|N]; [tauto|]. rewrite IH; tauto.
Qed.
Lemma find_ch_None c s : find_ch c s = None <-> ~ In c s.
Proof.
  induction s as [|x s IH]; simpl; [tauto|].
  destruct (ch_eqb_spec x c) as [->|N]; [split; [discriminate|tauto]|].
  destruct (find_ch c s); simpl; [|tauto].
  split; [discriminate|]. intros H. exfalso.
  destruct IH as [_ IH]. assert (~ In c s) by tauto. specialize (IH H0). discriminate.
Qed.
Lemma find_ch_Some c s n : find_ch c s = Some n ->
  exists a b, s = a ++ c :: b /\ length a = n /\ ~ In c a.
Proof.
  revert n; induction s as [|x s IH]; intros n; simpl; [discriminate|].
  destruct (ch_eqb_spec x c) as [->|N].
  - intros [= <-]. exists [], s; simpl; tauto.
  - destruct (find_ch c s) as [m|] eqn:E; simpl; [|discriminate]. intros [= <-].
    destruct (IH m eq_refl) as (a & b & -> & <- & H). exists (x :: a), b; simpl.
    repeat split; auto. intros [?|?]; auto.
Qed.
Lemma rfind_ch_app c a b : ~ In c b -> rfind_ch c (a ++ c :: b) = Some (length a).
Proof.
  intros H; induction a as [|x a IH]; simpl.
  - assert (rfind_ch c b = None) as ->.
    { clear -H. induction b as [|y b IHb]; simpl in *; [reflexivity|].
      rewrite IHb by tauto. destruct (ch_eqb_spec y c); [subst; tauto|reflexivity]. }
    now rewrite ch_eqb_refl.
  - now rewrite IH.
Qed.

(** text lines of joined lines *)
Definition no_eol (s : str) : bool := forallb (fun c => negb (ch_eqb c nl) && negb (ch_eqb c cr)) s.

Lemma text_lines_aux_app cur l s : no_eol l = true ->
  text_lines_aux cur (l ++ s) = text_lines_aux (rev l ++ cur) s.
Proof.
  revert cur; induction l as [|c l IH]; intros cur H; simpl; [reflexivity|].
  simpl in H. apply andb_true_iff in H as [H1 H2]. apply andb_true_iff in H1 as [Ha Hb].
  destruct (ch_eqb c nl); [discriminate|]. destruct (ch_eqb c cr); [discriminate|].
  rewrite IH by exact H2. now rewrite <- app_assoc.
Qed.

(** lines seen when reading back "\n".join(lines): the lines themselves, except that a
    final empty line disappears *)
Definition drop_last_empty (l : list str) : list str :=
  match rev l with [] :: r => rev r | _ => l end.

Lemma text_lines_join (l : list str) : forallb no_eol l = true ->
  text_lines (join [nl] l) = drop_last_empty l.
Proof.
  unfold text_lines.
  induction l as [|x l IH]; intros H; [reflexivity|].
  simpl in H. apply andb_true_iff in H as [Hx Hl].
  destruct l as [|y l].
  - simpl. rewrite <- (app_nil_r x) at 1. rewrite text_lines_aux_app by exact Hx. simpl.
    rewrite app_nil_r. destruct (rev x) eqn:E.
    + apply (f_equal (@rev ascii)) in E. rewrite rev_involutive in E. simpl in E. now subst.
    + rewrite <- E, rev_involutive. destruct x; [discriminate|reflexivity].
  - change (join [nl] (x :: y :: l)) with (x ++ [nl] ++ join [nl] (y :: l)).
    rewrite text_lines_aux_app by exact Hx. cbn [app text_lines_aux].
    rewrite ch_eqb_refl. rewrite app_nil_r, rev_involutive. rewrite IH by exact Hl.
    unfold drop_last_empty. cbn [rev].
    destruct (rev l ++ [y]) as [|z r] eqn:E; [destruct (rev l); discriminate|].
    cbn [app]. destruct z; [|reflexivity].
    rewrite rev_app_distr. reflexivity.
Qed.

(** sorting *)
Lemma str_leb_total a b : str_leb a b = true \/ str_leb b a = true.
Proof.
  revert b; induction a as [|x a IH]; intros [|y b]; simpl; auto.
  destruct (nat_of_ascii x <? nat_of_ascii y) eqn:E1; [auto|].
  destruct (nat_of_ascii y <? nat_of_ascii x) eqn:E2; [auto|].
  apply IH.
Qed.
Lemma str_leb_refl a : str_leb a a = true.
Proof. destruct (str_leb_total a a); auto. Qed.
Lemma nat_of_ascii_inj x y : nat_of_ascii x = nat_of_ascii y -> x = y.
Proof. intros H. rewrite <- (ascii_nat_embedding x), <- (ascii_nat_embedding y). congruence. Qed.
Lemma str_leb_antisym a b : str_leb a b = true -> str_leb b a = true -> a = b.
Proof.
  revert b; induction a as [|x a IH]; intros [|y b]; simpl; try (intros; congruence).
  destruct (nat_of_ascii x <? nat_of_ascii y) eqn:E1;
  destruct (nat_of_ascii y <? nat_of_ascii x) eqn:E2; intros H1 H2;
  try discriminate.
  - apply Nat.ltb_lt in E1, E2; lia.
  - apply Nat.ltb_ge in E1, E2.
    f_equal; [apply nat_of_ascii_inj; lia | auto].
Qed.
Lemma str_leb_trans a b c : str_leb a b = true -> str_leb b c = true -> str_leb a c = true.
Proof.
  revert b c; induction a as [|x a IH]; intros [|y b] [|z c]; simpl; try discriminate; auto.
  destruct (Nat.ltb_spec (nat_of_ascii x) (nat_of_ascii y)) as [E1|E1];
  destruct (Nat.ltb_spec (nat_of_ascii y) (nat_of_ascii x)) as [E2|E2];
  destruct (Nat.ltb_spec (nat_of_ascii y) (nat_of_ascii z)) as [E3|E3];
  destruct (Nat.ltb_spec (nat_of_ascii z) (nat_of_ascii y)) as [E4|E4];
  destruct (Nat.ltb_spec (nat_of_ascii x) (nat_of_ascii z)) as [E5|E5];
  destruct (Nat.ltb_spec (nat_of_ascii z) (nat_of_ascii x)) as [E6|E6];
  intros H1 H2; try discriminate; try lia; eauto.
Qed.

Lemma insert_perm x l : Permutation (insert_str x l) (x :: l).
Proof.
  induction l as [|y l IH]; simpl; [reflexivity|].
  destruct (str_leb x y); [reflexivity|]. rewrite IH. apply perm_swap.
Qed.
Lemma sort_perm l : Permutation (sort_str l) l.
Proof. induction l as [|x l IH]; simpl; [reflexivity|]. rewrite insert_perm. now constructor. Qed.

Inductive sorted_str : list str -> Prop :=
| sorted_nil : sorted_str []
| sorted_cons x l : (forall y, In y l -> str_leb x y = true) -> sorted_str l -> sorted_str (x :: l).

Lemma insert_sorted x l : sorted_str l -> sorted_str (insert_str x l).
Proof.
  induction 1 as [|y l Hy Hs IH]; simpl.
  - constructor; [simpl; tauto | constructor].
  - destruct (str_leb x y) eqn:E.
    + constructor; [|constructor; auto].
      intros z [<-|Hz]; [exact E|]. eapply str_leb_trans; [exact E|auto].
    + constructor; [|exact IH].
      intros z Hz. apply (Permutation_in _ (insert_perm x l)) in Hz as [<-|Hz].
      * destruct (str_leb_total x y); congruence.
      * auto.
Qed.
Lemma sort_sorted l : sorted_str (sort_str l).
Proof. induction l; simpl; [constructor | now apply insert_sorted]. Qed.

Lemma sorted_perm_eq l1 l2 : sorted_str l1 -> sorted_str l2 -> Permutation l1 l2 -> l1 = l2.
Proof.
  intros H; revert l2; induction H as [|x l1 Hx Hs IH]; intros l2 H2 P.
  - apply Permutation_nil in P; now subst.
  - destruct H2 as [|y l2 Hy Hs2]; [apply Permutation_sym, Permutation_nil in P; discriminate|].
    assert (x = y) as ->.
    { assert (In y (x :: l1)) as I1 by (eapply Permutation_in; [apply Permutation_sym, P | now left]).
      assert (In x (y :: l2)) as I2 by (eapply Permutation_in; [apply P | now left]).
      destruct I1 as [?|I1]; [auto|]. destruct I2 as [?|I2]; [auto|].
      apply str_leb_antisym; auto. }
    f_equal. apply IH; [exact Hs2|]. eapply Permutation_cons_inv; exact P.
Qed.
Lemma sort_perm_eq l1 l2 : Permutation l1 l2 -> sort_str l1 = sort_str l2.
Proof.
  intros P. apply sorted_perm_eq; try apply sort_sorted.
  rewrite !sort_perm; exact P.
Qed.
Lemma sort_idem l : sort_str (sort_str l) = sort_str l.
Proof. apply sort_perm_eq, sort_perm. Qed.

Lemma remove_first_perm x l : In x l -> Permutation l (x :: remove_first x l).
Proof.
  induction l as [|y l IH]; simpl; [tauto|].
  destruct (str_eqb_spec x y) as [->|N]; [reflexivity|].
  intros [?|H]; [congruence|]. rewrite perm_swap. constructor. auto.
Qed.

(** lines each followed by a newline *)
Lemma text_lines_nl (l : list str) : forallb no_eol l = true ->
  text_lines (concat (map (fun x => x ++ [nl]) l)) = l.
Proof.
  unfold text_lines. induction l as [|x l IH]; intros H; [reflexivity|].
  simpl in H. apply andb_true_iff in H as [Hx Hl]. cbn [map concat].
  rewrite <- app_assoc. rewrite text_lines_aux_app by exact Hx. cbn [app text_lines_aux].
  rewrite ch_eqb_refl, app_nil_r, rev_involutive. now rewrite IH.
Qed.
Lemma no_eol_iff s : no_eol s = true <-> ~ In nl s /\ ~ In cr s.
Proof.
  unfold no_eol. rewrite forallb_forall. split.
  - intros H. split; intros I; apply H in I; vm_compute in I; discriminate.
  - intros [A B] c I. destruct (ch_eqb_spec c nl); [subst; tauto|]. destruct (ch_eqb_spec c cr); [subst; tauto|reflexivity].
Qed.
Lemma no_eol_app a b : no_eol (a ++ b) = no_eol a && no_eol b.
Proof. apply forallb_app. Qed.

Lemma lstrip_app_keep a b : lstrip a <> [] -> lstrip (a ++ b) = lstrip a ++ b.
Proof.
  induction a as [|c a IH]; simpl; [congruence|]. destruct (is_space c); [exact IH|reflexivity].
Qed.
Lemma lstrip_app_space a b : lstrip a = [] -> lstrip (a ++ b) = lstrip b.
Proof.
  induction a as [|c a IH]; simpl; [reflexivity|]. destruct (is_space c); [exact IH|discriminate].
Qed.
Lemma rstrip_snoc_space s c : is_space c = true -> rstrip (s ++ [c]) = rstrip s.
Proof. intros H. unfold rstrip. rewrite rev_app_distr. simpl. now rewrite H. Qed.
Lemma strip_snoc_space s c : is_space c = true -> strip (s ++ [c]) = strip s.
Proof.
  intros H. unfold strip. destruct (lstrip s) as [|x t] eqn:E.
  - rewrite lstrip_app_space by exact E. simpl. now rewrite H.
  - rewrite lstrip_app_keep by congruence. rewrite E. now apply rstrip_snoc_space.
Qed.
Lemma strip_fix_stripped s : strip s = s <-> stripped s = true.
Proof. split; [intros <-; apply stripped_strip | apply strip_stripped]. Qed.
Lemma stripped_app a b : a <> [] -> b <> [] -> no_lead a = true -> no_lead (rev b) = true -> stripped (a ++ b) = true.
Proof.
  intros Ha Hb A B. unfold stripped. rewrite rev_app_distr.
  destruct a; [congruence|]. simpl in *. rewrite A. simpl.
  destruct (rev b) eqn:E; [|exact B]. apply (f_equal (@rev ascii)) in E. rewrite rev_involutive in E. simpl in E. congruence.
Qed.
Lemma no_space_no_lead s : forallb (fun c => negb (is_space c)) s = true -> no_lead s = true.
Proof. destruct s; simpl; [auto|]. now intros H%andb_true_iff. Qed.

(** ** str.split(c) *)
Lemma split_ch_aux_notin c s : forall cur, ~ In c s -> split_ch_aux c cur s = [rev cur ++ s].
Proof.
  induction s as [|b s IH]; intros cur H; cbn [split_ch_aux]; [now rewrite app_nil_r|].
  destruct (ch_eqb_spec b c) as [->|N]; [exfalso; apply H; now left|].
  rewrite IH by (intros C; apply H; now right). cbn [rev]. now rewrite <- app_assoc.
Qed.
Lemma split_ch_notin c s : ~ In c s -> split_ch c s = [s].
Proof. apply split_ch_aux_notin. Qed.
Lemma split_ch_aux_app c a rest : forall cur, ~ In c a ->
  split_ch_aux c cur (a ++ [c] ++ rest) = (rev cur ++ a) :: split_ch c rest.
Proof.
  induction a as [|b a IH]; intros cur H; cbn [app split_ch_aux].
  - destruct (ch_eqb_spec c c); [|contradiction]. now rewrite app_nil_r.
  - destruct (ch_eqb_spec b c) as [->|N]; [exfalso; apply H; now left|].
    change (c :: rest) with ([c] ++ rest). rewrite IH by (intros C; apply H; now right). cbn [rev]. now rewrite <- app_assoc.
Qed.
Lemma split_ch_app c a rest : ~ In c a -> split_ch c (a ++ [c] ++ rest) = a :: split_ch c rest.
Proof. apply split_ch_aux_app. Qed.
Lemma split_ch_nonempty c s : split_ch c s <> [].
Proof.
  unfold split_ch. generalize (@nil ascii). induction s as [|b s IH]; intros cur; cbn; [discriminate|].
  destruct (ch_eqb b c); [discriminate|]. apply IH.
Qed.
