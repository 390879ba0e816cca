(** Proofs about chain names in a directory tree. *)
From Verif Require Import PyStr PyStrFacts PyBase PyNum BatchModel GridModel GridSpec.
From Coq Require Import Permutation.

Lemma from_end_rev n p : from_end n p = nth_error (rev p) (n - 1).
Proof. reflexivity. Qed.
Lemma same_part_ok n p0 rest b : same_part n (p0 :: rest) = Ok b ->
  (b = true -> forall p, In p rest -> exists x, from_end n p = Some x /\ from_end n p0 = Some x) /\
  (b = false -> exists p x y, In p rest /\ from_end n p = Some x /\ from_end n p0 = Some y /\ x <> y).
Proof.
  unfold same_part. revert b. induction rest as [|p rest IH]; intros b H.
  - injection H as <-. split; [intros _ p []|discriminate].
  - destruct (from_end n p) as [x|] eqn:E1; [|discriminate]. destruct (from_end n p0) as [y|] eqn:E2; [|discriminate].
    destruct (str_eqb_spec x y) as [->|N].
    + destruct (IH b H) as [I1 I2]. split.
      * intros Hb q [<-|Hq]; [exists y; auto|exact (I1 Hb q Hq)].
      * intros Hb. destruct (I2 Hb) as [q [x' [y' [Hq R]]]]. exists q, x', y'. split; [now right|exact R].
    + injection H as <-. split; [discriminate|]. intros _. exists p, x, y. split; [now left|auto].
Qed.
Lemma same_part_err n p0 rest e : same_part n (p0 :: rest) = Err e ->
  e = IndexError /\ exists p, In p rest /\ (from_end n p = None \/ from_end n p0 = None).
Proof.
  unfold same_part. induction rest as [|p rest IH]; intros H; [discriminate|].
  destruct (from_end n p) as [x|] eqn:E1; [destruct (from_end n p0) as [y|] eqn:E2|].
  - destruct (str_eqb x y); [|discriminate]. destruct (IH H) as [-> [q [Hq R]]]. split; [reflexivity|]. exists q. split; [now right|exact R].
  - injection H as <-. split; [reflexivity|]. exists p. split; [now left|auto].
  - injection H as <-. split; [reflexivity|]. exists p. split; [now left|auto].
Qed.
Lemma differ_at_ok p0 rest : forall k n m, differ_at k n (p0 :: rest) = Ok m ->
  n <= m /\ (forall q, n <= q < m -> forall p, In p rest -> exists x, from_end q p = Some x /\ from_end q p0 = Some x) /\
  exists p x y, In p rest /\ from_end m p = Some x /\ from_end m p0 = Some y /\ x <> y.
Proof.
  induction k as [|k IH]; intros n m H; [discriminate|]. cbn [differ_at] in H.
  destruct (same_part n (p0 :: rest)) as [[|]|e] eqn:E; cbn [bindR] in H; [| |discriminate].
  - destruct (same_part_ok n p0 rest true E) as [S _]. destruct (IH _ _ H) as [L [Q D]]. split; [lia|]. split; [|exact D].
    intros q Hq p Hp. destruct (Nat.eq_dec q n) as [->|]; [now apply S|]. apply Q; [lia|exact Hp].
  - injection H as <-. destruct (same_part_ok n p0 rest false E) as [_ S]. split; [lia|]. split; [lia|now apply S].
Qed.
Lemma from_end_some n p x : 1 <= n -> from_end n p = Some x -> n <= length p.
Proof.
  intros H E. rewrite from_end_rev in E. assert (L : nth_error (rev p) (n - 1) <> None) by (rewrite E; discriminate).
  apply nth_error_Some in L. rewrite rev_length in L. lia.
Qed.
Lemma differ_at_err p0 p1 rest : forall k n e, 1 <= n -> (forall q, 1 <= q < n -> from_end q p0 <> None) ->
  length p0 + 1 < k + n -> differ_at k n (p0 :: p1 :: rest) = Err e ->
  e = IndexError /\ exists m, n <= m /\
  (forall q, n <= q < m -> forall p, In p (p1 :: rest) -> exists x, from_end q p = Some x /\ from_end q p0 = Some x) /\
  exists p, In p (p1 :: rest) /\ (from_end m p = None \/ from_end m p0 = None).
Proof.
  induction k as [|k IH]; intros n e Hn Hs Hk H.
  - exfalso. assert (Hc : from_end (n - 1) p0 <> None) by (apply Hs; lia).
    apply Hc. rewrite from_end_rev. apply nth_error_None. rewrite rev_length. lia.
  - cbn [differ_at] in H. destruct (same_part n (p0 :: p1 :: rest)) as [[|]|e1] eqn:E; cbn [bindR] in H.
    + destruct (same_part_ok n p0 (p1 :: rest) true E) as [S _]. specialize (S eq_refl).
      destruct (IH (Datatypes.S n) e) as [He [m [L [Q D]]]]; [lia| |lia|exact H|].
      * intros q Hq. destruct (Nat.eq_dec q n) as [->|]; [|apply Hs; lia]. destruct (S p1) as [x [_ Hx]]; [now left|]. now rewrite Hx.
      * split; [exact He|]. exists m. split; [lia|]. split; [|exact D].
        intros q Hq p Hp. destruct (Nat.eq_dec q n) as [->|]; [now apply S|]. apply Q; [lia|exact Hp].
    + discriminate.
    + injection H as <-. destruct (same_part_err n p0 (p1 :: rest) e1 E) as [-> D]. split; [reflexivity|]. exists n. split; [lia|]. split; [lia|exact D].
Qed.
Lemma tail_from_end q n p : 1 <= q <= n -> n <= length p -> from_end q (tail_parts n p) = from_end q p.
Proof.
  intros H L. rewrite !from_end_rev. unfold tail_parts. rewrite <- (firstn_skipn (length p - n) p) at 3.
  rewrite rev_app_distr, nth_error_app1; [reflexivity|]. rewrite rev_length, skipn_length. lia.
Qed.
Lemma head_tail n p : head_parts n p ++ tail_parts n p = p.
Proof. apply firstn_skipn. Qed.

(** one group of chains with the same root *)
Lemma unique_group items items' : unique_items items = Ok items' -> 2 <= length items ->
  exists n, 2 <= n /\
    (forall a b, In a items -> In b items -> forall q, 2 <= q < n -> from_end q (ci_parts a) = from_end q (ci_parts b)) /\
    (exists a b, In a items /\ In b items /\ from_end n (ci_parts a) <> None /\ from_end n (ci_parts b) <> None /\
       from_end n (ci_parts a) <> from_end n (ci_parts b)) /\
    items' = map (fun it => mkCI (ci_parts it) (ci_tag it) (tail_parts n (ci_parts it)) (head_parts n (ci_parts it))) items.
Proof.
  intros H L. destruct items as [|i0 [|i1 items]]; cbn in L; try lia. clear L. unfold unique_items in H.
  set (all := i0 :: i1 :: items) in *.
  destruct (differ_at _ 2 (map ci_parts all)) as [n|e] eqn:E; [|discriminate]. cbn [bindR] in H. injection H as <-.
  exists n. unfold all in E. cbn [map] in E. apply differ_at_ok in E. destruct E as [Hn [Q [p [x [y [Hp [E1 [E2 N]]]]]]]].
  assert (Z : forall a, In a all -> forall q, 2 <= q < n -> from_end q (ci_parts a) = from_end q (ci_parts i0)).
  { intros a [<-|Ha] q Hq; [reflexivity|]. destruct (Q q Hq (ci_parts a)) as [z [-> ->]]; [|reflexivity].
    change (In (ci_parts a) (map ci_parts (i1 :: items))). now apply in_map. }
  split; [exact Hn|]. split; [|split; [|reflexivity]].
  - intros a b Ha Hb q Hq. rewrite (Z a Ha q Hq), (Z b Hb q Hq). reflexivity.
  - change (In p (map ci_parts (i1 :: items))) in Hp. apply in_map_iff in Hp. destruct Hp as [b [<- Hb]].
    exists b, i0. split; [now right|]. split; [now left|]. rewrite E1, E2. repeat split; congruence.
Qed.
Lemma ends_iff a b : ends_with a b <-> forall q, 1 <= q <= length a -> from_end q b = from_end q a.
Proof.
  split.
  - intros [x ->] q Hq. rewrite !from_end_rev, rev_app_distr, nth_error_app1; [reflexivity|]. rewrite rev_length. lia.
  - intros H. exists (rev (skipn (length a) (rev b))).
    rewrite <- (rev_involutive b) at 1. rewrite <- (firstn_skipn (length a) (rev b)) at 1. rewrite rev_app_distr. f_equal.
    rewrite <- (rev_involutive a) at 2. f_equal.
    assert (G : forall k (l m : list str), (forall q, q < k -> nth_error m q = nth_error l q) -> length l = k -> firstn k m = l).
    { clear. induction k as [|k IH]; intros l m H L; [destruct l; [reflexivity|discriminate]|].
      destruct l as [|x l]; [discriminate|]. pose proof (H 0 ltac:(lia)) as H0. destruct m as [|y m]; [discriminate|]. injection H0 as ->.
      cbn. f_equal. apply IH; [|now injection L]. intros q Hq. exact (H (S q) ltac:(lia)). }
    apply G; [|apply rev_length]. intros q Hq. specialize (H (S q) ltac:(lia)). rewrite !from_end_rev in H.
    replace (S q - 1) with q in H by lia. exact H.
Qed.
Lemma from_end_1 p : p <> [] -> from_end 1 p = Some (last p []).
Proof.
  intros H. rewrite from_end_rev. destruct (exists_last H) as [q [x ->]]. rewrite rev_app_distr, last_last. reflexivity.
Qed.
Lemma unique_two a b root : group_ok root [a; b] ->
  (ends_with (ci_parts a) (ci_parts b) \/ ends_with (ci_parts b) (ci_parts a) -> unique_items [a; b] = Err IndexError) /\
  (~ ends_with (ci_parts a) (ci_parts b) -> ~ ends_with (ci_parts b) (ci_parts a) ->
     exists a' b', unique_items [a; b] = Ok [a'; b'] /\ ci_parts a' = ci_parts a /\ ci_parts b' = ci_parts b /\
       ci_path a' ++ ci_name a' = ci_parts a /\ ci_path b' ++ ci_name b' = ci_parts b /\
       last (ci_name a') [] = root /\ last (ci_name b') [] = root /\ ci_name a' <> ci_name b' /\ ci_name a' <> [] /\ ci_name b' <> []).
Proof.
  intros [_ [ND G]]. destruct (G a ltac:(now left)) as [La [Ra _]]. destruct (G b ltac:(right; now left)) as [Lb [Rb _]].
  assert (E1 : from_end 1 (ci_parts b) = from_end 1 (ci_parts a)).
  { rewrite !from_end_1; [now rewrite Ra, Rb| |]; intros C; rewrite C in *; cbn in *; lia. }
  unfold unique_items. cbn [map]. set (fuel := S (S (length (concat [ci_parts a; ci_parts b])))).
  assert (Hf : length (ci_parts a) + 1 < fuel + 2) by (unfold fuel; cbn [concat]; rewrite app_length; lia).
  destruct (differ_at fuel 2 [ci_parts a; ci_parts b]) as [n|e] eqn:D; cbn [bindR].
  - apply differ_at_ok in D. destruct D as [Hn [Q [p [x [y [[<-|[]] [X [Y N]]]]]]]].
    pose proof (from_end_some n _ _ ltac:(lia) X) as Lx. pose proof (from_end_some n _ _ ltac:(lia) Y) as Ly.
    split.
    + intros [C|C]; exfalso; rewrite ends_iff in C.
      * specialize (C n ltac:(lia)). congruence.
      * specialize (C n ltac:(lia)). congruence.
    + intros _ _. eexists. eexists. split; [reflexivity|]. cbn [ci_parts ci_name ci_path]. rewrite !head_tail. do 4 (split; [reflexivity|]).
      assert (T : forall p, n <= length p -> tail_parts n p <> []).
      { intros q Hq C. apply (f_equal (@length _)) in C. unfold tail_parts in C. rewrite skipn_length in C. cbn in C. lia. }
      assert (LT : forall p, n <= length p -> last (tail_parts n p) [] = last p []).
      { intros q Hq. pose proof (from_end_1 _ (T q Hq)) as A1. rewrite tail_from_end in A1 by lia.
        rewrite from_end_1 in A1 by (intros ->; cbn in Hq; lia). now injection A1. }
      rewrite !LT by lia. split; [exact Ra|]. split; [exact Rb|]. split; [|split; apply T; lia].
      intros C. pose proof (tail_from_end n n (ci_parts a) ltac:(lia) ltac:(lia)) as TA.
      pose proof (tail_from_end n n (ci_parts b) ltac:(lia) ltac:(lia)) as TB. rewrite C in TA. rewrite TA in TB. congruence.
  - apply (differ_at_err (ci_parts a) (ci_parts b) []) in D; [|lia| |exact Hf].
    + destruct D as [-> [m [Hm [Q [p [[<-|[]] R]]]]]]. split; [reflexivity|]. intros N1 N2. exfalso.
      assert (Q' : forall q, 1 <= q < m -> from_end q (ci_parts b) = from_end q (ci_parts a)).
      { intros q Hq. destruct (Nat.eq_dec q 1) as [->|]; [exact E1|]. destruct (Q q ltac:(lia) (ci_parts b)) as [z [-> ->]]; [now left|reflexivity]. }
      destruct R as [R|R]; rewrite from_end_rev in R; apply nth_error_None in R; rewrite rev_length in R.
      * apply N2. apply ends_iff. intros q Hq. symmetry. apply Q'. lia.
      * apply N1. apply ends_iff. intros q Hq. apply Q'. lia.
    + intros q Hq. replace q with 1 by lia. rewrite from_end_1; [discriminate|]. intros C. rewrite C in La. cbn in La. lia.
Qed.

(** *** joined names *)
Lemma split_join c l : l <> [] -> Forall (fun p => ~ In c p) l -> split_ch c (join [c] l) = l.
Proof.
  induction l as [|x l IH]; intros N F; [contradiction|]. inversion F; subst. destruct l as [|y l].
  - cbn [join]. now apply split_ch_notin.
  - change (join [c] (x :: y :: l)) with (x ++ [c] ++ join [c] (y :: l)). rewrite split_ch_app by assumption.
    rewrite IH; [reflexivity|discriminate|assumption].
Qed.
Lemma join_inj c l m : l <> [] -> m <> [] -> Forall (fun p => ~ In c p) l -> Forall (fun p => ~ In c p) m ->
  join [c] l = join [c] m -> l = m.
Proof. intros N1 N2 F1 F2 E. rewrite <- (split_join c l N1 F1), E. now apply split_join. Qed.
Lemma split_aux_parts c s : forall cur, ~ In c cur -> Forall (fun p => ~ In c p) (split_ch_aux c cur s).
Proof.
  induction s as [|d s IH]; intros cur H; cbn [split_ch_aux].
  - constructor; [|constructor]. now rewrite <- in_rev.
  - destruct (ch_eqb_spec d c) as [->|N].
    + constructor; [now rewrite <- in_rev|]. apply IH. intros [].
    + apply IH. intros [<-|C]; [now apply N|now apply H].
Qed.
Lemma split_parts c s : Forall (fun p => ~ In c p) (split_ch c s).
Proof. apply split_aux_parts. intros []. Qed.

(** *** all groups *)
Definition shape (root : str) (it it' : citem) : Prop :=
  ci_parts it' = ci_parts it /\ ci_path it' ++ ci_name it' = ci_parts it /\ last (ci_name it') [] = root /\ ci_name it' <> [] /\
  Forall (fun p => ~ In "/"%char p) (ci_name it').
Lemma last_skip (p : list str) n : 1 <= n -> p <> [] -> last (tail_parts n p) [] = last p [] /\ tail_parts n p <> [].
Proof.
  intros Hn Hp. unfold tail_parts. destruct (exists_last Hp) as [q [x ->]]. rewrite app_length. cbn [length].
  rewrite skipn_app. replace (length q + 1 - n - length q) with 0 by lia. cbn [skipn]. rewrite !last_last. split; [reflexivity|].
  intros C. destruct (skipn _ q); discriminate.
Qed.
Lemma unique_shape root l l' : group_ok root l -> unique_items l = Ok l' -> Forall2 (shape root) l l'.
Proof.
  intros G H. destruct l as [|a [|b l]].
  - destruct G as [C _]. contradiction.
  - cbn in H. injection H as <-. constructor; [|constructor]. destruct G as [_ [_ G]]. destruct (G a ltac:(now left)) as [L [R [F [N P]]]].
    unfold shape. rewrite N, P. split; [reflexivity|]. split; [|split; [reflexivity|split; [discriminate|]]].
    + rewrite <- R. symmetry. apply app_removelast_last. intros C. rewrite C in L. cbn in L. lia.
    + constructor; [|constructor]. rewrite <- R. rewrite Forall_forall in F. apply F.
      destruct (exists_last (l := ci_parts a)) as [q [x Q]]; [intros C; rewrite C in L; cbn in L; lia|].
      rewrite Q, last_last. apply in_or_app. right. now left.
  - destruct (unique_group (a :: b :: l) l' H) as [n [Hn [_ [_ ->]]]]; [cbn; lia|]. destruct G as [_ [_ G]].
    revert G. generalize (a :: b :: l). clear -Hn. intros l. induction l as [|it l IH]; intros G; [constructor|].
    cbn [map]. constructor; [|apply IH; intros x Hx; apply G; now right]. destruct (G it ltac:(now left)) as [L [R [F _]]].
    assert (NE : ci_parts it <> []) by (intros C; rewrite C in L; cbn in L; lia).
    destruct (last_skip (ci_parts it) n ltac:(lia) NE) as [S1 S2]. unfold shape. cbn [ci_parts ci_name ci_path].
    rewrite head_tail. split; [reflexivity|]. split; [reflexivity|]. split; [now rewrite S1|]. split; [exact S2|].
    rewrite Forall_forall in *. intros p Hp. apply F. rewrite <- (head_tail n (ci_parts it)). apply in_or_app. now right.
Qed.
Lemma groups_mapR (d : dict (list citem)) ls :
  mapR (fun kv => bindR (unique_items (snd kv)) (fun l => Ok (fst kv, l))) d = Ok ls ->
  Forall2 (fun kv kl => fst kl = fst kv /\ unique_items (snd kv) = Ok (snd kl)) d ls.
Proof.
  revert ls. induction d as [|[k l] d IH]; intros ls H; cbn [mapR] in H; [injection H as <-; constructor|].
  cbn [fst snd] in H. destruct (unique_items l) as [l'|e] eqn:E; cbn [bindR] in H; [|discriminate].
  destruct (mapR _ d) as [r|e] eqn:E2; [|discriminate]. injection H as <-. constructor; [cbn; auto|now apply IH].
Qed.
Definition ikey (it : citem) : str := join (L "/") (ci_name it).
Lemma fold_dset_in : forall l acc it, NoDup (map ikey l) -> In it l ->
  dget (ikey it) (fold_left (fun acc it => PyStr.dset (ikey it) it acc) l acc) = Some it.
Proof.
  assert (K : forall l acc k, ~ In k (map ikey l) -> dget k (fold_left (fun acc it => PyStr.dset (ikey it) it acc) l acc) = dget k acc).
  { induction l as [|x l IH]; intros acc k H; [reflexivity|]. cbn [fold_left]. rewrite IH by (intros C; apply H; now right).
    rewrite dget_dset_other; [reflexivity|]. intros ->. apply H. now left. }
  induction l as [|x l IH]; intros acc it ND I; [destruct I|]. cbn [fold_left]. inversion ND as [|? ? N1 N2]; subst.
  destruct I as [->|I]; [|now apply IH]. rewrite K by exact N1. apply dget_dset_same.
Qed.
Lemma fold_dset_any k : forall l acc,
  match dget k (fold_left (fun acc it => PyStr.dset (ikey it) it acc) l acc) with
  | Some it => In it l /\ ikey it = k \/ dget k acc = Some it /\ ~ In k (map ikey l)
  | None => ~ In k (map ikey l)
  end.
Proof.
  induction l as [|x l IH]; intros acc; cbn [fold_left map]; [destruct (dget k acc); [right|]; auto|].
  specialize (IH (PyStr.dset (ikey x) x acc)). destruct (dget k (fold_left _ l _)) as [it|] eqn:E.
  - destruct IH as [[I K]|[D N]]; [left; split; [now right|exact K]|]. rewrite dget_dset in D.
    destruct (str_eqb_spec k (ikey x)) as [->|NE].
    + injection D as ->. left. split; [now left|reflexivity].
    + right. split; [exact D|]. intros [C|C]; [congruence|contradiction].
  - intros [C|C]; [|contradiction]. revert E. subst k. clear. 
    assert (K : forall l acc k v, dget k acc = Some v -> dget k (fold_left (fun acc it => PyStr.dset (ikey it) it acc) l acc) <> None).
    { clear. induction l as [|y l IH]; intros acc k v H; [cbn; congruence|]. cbn [fold_left].
      destruct (str_eqb_spec k (ikey y)) as [->|N].
      - apply (IH _ _ y). apply dget_dset_same.
      - apply (IH _ _ v). now rewrite dget_dset_other. }
    intros E. eapply K; [apply dget_dset_same|exact E].
Qed.
Lemma slash_one : L "/" = ["/"%char]. Proof. reflexivity. Qed.
Lemma shape_in root l l' : Forall2 (shape root) l l' -> forall it', In it' l' -> exists it, In it l /\ shape root it it'.
Proof.
  induction 1 as [|a b l l' H F IH]; intros it' [].
  - subst. exists a. split; [now left|exact H].
  - destruct (IH it' H0) as [it [I S]]. exists it. split; [now right|exact S].
Qed.
Lemma shape_in2 root l l' : Forall2 (shape root) l l' -> forall it, In it l -> exists it', In it' l' /\ shape root it it'.
Proof.
  induction 1 as [|a b l l' H F IH]; intros it [].
  - subst. exists b. split; [now left|exact H].
  - destruct (IH it H0) as [it' [I S]]. exists it'. split; [now right|exact S].
Qed.
Lemma group_nodup root l l' : group_ok root l -> length l <= 2 -> unique_items l = Ok l' -> NoDup (map ikey l').
Proof.
  intros G L H. pose proof (unique_shape root l l' G H) as S. destruct l as [|a [|b [|c l]]]; [| | |cbn in L; lia].
  - inversion S; subst. constructor.
  - inversion S as [|? a' ? r _ S']; subst. inversion S'; subst. cbn. constructor; [intros []|constructor].
  - destruct (unique_two a b root G) as [U1 U2].
    assert (N1 : ~ ends_with (ci_parts a) (ci_parts b)) by (intros C; rewrite U1 in H by (now left); discriminate).
    assert (N2 : ~ ends_with (ci_parts b) (ci_parts a)) by (intros C; rewrite U1 in H by (now right); discriminate).
    destruct (U2 N1 N2) as [a' [b' [U [_ [_ [_ [_ [_ [_ [NE _]]]]]]]]]]. rewrite U in H. injection H as <-.
    inversion S as [|? ? ? r Sa S']; subst. inversion S' as [|? ? ? r' Sb S'']; subst.
    destruct Sa as [_ [_ [_ [Na Fa]]]]. destruct Sb as [_ [_ [_ [Nb Fb]]]].
    cbn. constructor; [|constructor; [intros []|constructor]]. intros [C|[]]. apply NE.
    unfold ikey in C. rewrite slash_one in C. symmetry. now apply (join_inj "/"%char).
Qed.
Lemma all_nodup (d : dict (list citem)) ls : NoDup (dkeys d) -> (forall root l, In (root, l) d -> group_ok root l /\ length l <= 2) ->
  Forall2 (fun kv kl => fst kl = fst kv /\ unique_items (snd kv) = Ok (snd kl)) d ls -> NoDup (map ikey (flat_map snd ls)).
Proof.
  intros ND G F. revert ND G. induction F as [|[k l] [k' l'] d ls [E U] F IH]; intros ND G; [constructor|].
  cbn [fst snd] in *. subst k'. cbn [flat_map snd]. rewrite map_app.
  assert (NDi : NoDup (map ikey l')) by (destruct (G k l ltac:(now left)); eapply group_nodup; eauto).
  inversion ND as [|? ? NK NDd]; subst.
  assert (Lst : forall it, In it l' -> last (ci_name it) [] = k /\ ci_name it <> [] /\ Forall (fun p => ~ In "/"%char p) (ci_name it)).
  { intros it I. destruct (G k l ltac:(now left)) as [Gk _]. destruct (shape_in k l l' (unique_shape k l l' Gk U) it I) as [x [_ [_ [_ [S1 [S2 S3]]]]]]. auto. }
  assert (Lst2 : forall it, In it (flat_map snd ls) -> exists k2, In k2 (dkeys d) /\ last (ci_name it) [] = k2 /\ ci_name it <> [] /\ Forall (fun p => ~ In "/"%char p) (ci_name it)).
  { assert (G2 : forall root l, In (root, l) d -> group_ok root l) by (intros root l0 I; apply (G root l0); now right).
    clear -F G2. induction F as [|[k l] [k' l'] d ls [E U] F IH]; intros it I; [destruct I|]. cbn [fst snd] in *. subst k'.
    cbn [flat_map snd] in I. apply in_app_or in I. destruct I as [I|I].
    - exists k. split; [now left|]. pose proof (G2 k l ltac:(now left)) as Gk.
      destruct (shape_in k l l' (unique_shape k l l' Gk U) it I) as [x [_ [_ [_ [S1 [S2 S3]]]]]]. auto.
    - destruct (IH (fun r l0 I0 => G2 r l0 (or_intror I0)) it I) as [k2 [I2 R]]. exists k2. split; [now right|exact R]. }
  assert (IHs : NoDup (map ikey (flat_map snd ls))) by (apply IH; [exact NDd|]; intros root l0 I; apply G; now right).
  clear -NDi IHs Lst Lst2 NK. revert NDi Lst. induction l' as [|it l' IH]; intros NDi Lst; [exact IHs|]. cbn [map app].
  inversion NDi; subst. constructor; [|apply IH; [assumption|]; intros x Hx; apply Lst; now right].
  intros C. apply in_app_or in C. destruct C as [C|C]; [contradiction|]. apply in_map_iff in C. destruct C as [it2 [E I2]].
  destruct (Lst it ltac:(now left)) as [A1 [A2 A3]]. destruct (Lst2 it2 I2) as [k2 [K [B1 [B2 B3]]]].
  unfold ikey in E. rewrite slash_one in E. apply join_inj in E; [|assumption..]. apply NK. rewrite <- A1, <- E, B1. exact K.
Qed.
(** *** the walk *)
Definition found_item (pt : list str * str) : citem := new_citem (fst pt) (snd pt).
Lemma add_all_snoc f pt : add_all (f ++ [pt]) = add_root (add_all f) (froot pt) (found_item pt).
Proof. unfold add_all. now rewrite fold_left_app. Qed.
Lemma add_all_keys f : NoDup (dkeys (add_all f)).
Proof. induction f as [|pt f IH] using rev_ind; [constructor|]. rewrite add_all_snoc. unfold add_root. now apply NoDup_dset. Qed.
Lemma add_all_get f root : dget root (add_all f) =
  match filter (fun pt => str_eqb (froot pt) root) f with [] => None | l => Some (map found_item l) end.
Proof.
  induction f as [|pt f IH] using rev_ind; [reflexivity|]. rewrite add_all_snoc. unfold add_root. rewrite dget_dset, filter_app. cbn [filter].
  destruct (str_eqb_spec root (froot pt)) as [->|N].
  - rewrite str_eqb_refl, IH. destruct (filter (fun x => str_eqb (froot x) (froot pt)) f) as [|x l] eqn:E; [reflexivity|].
    cbn [app]. f_equal. change (x :: l ++ [pt]) with ((x :: l) ++ [pt]). now rewrite map_app.
  - rewrite IH. destruct (str_eqb_spec (froot pt) root) as [C|_]; [congruence|]. now rewrite app_nil_r.
Qed.
Lemma add_all_perm (P : str -> bool) f :
  Permutation (flat_map (fun kv : str * list citem => if P (fst kv) then map ci_parts (snd kv) else []) (add_all f))
              (map fst (filter (fun pt => P (froot pt)) f)).
Proof.
  induction f as [|pt f IH] using rev_ind; [constructor|]. rewrite add_all_snoc, filter_app, map_app.
  assert (G : forall d root it, NoDup (dkeys d) ->
    Permutation (flat_map (fun kv : str * list citem => if P (fst kv) then map ci_parts (snd kv) else []) (add_root d root it))
                (flat_map (fun kv : str * list citem => if P (fst kv) then map ci_parts (snd kv) else []) d ++ (if P root then [ci_parts it] else []))).
  { clear. intros d root it _. unfold add_root. induction d as [|[k l] d IH].
    - cbn. destruct (P root); reflexivity.
    - cbn [dget]. destruct (str_eqb root k) eqn:E.
      + cbn [PyStr.dset]. rewrite E. apply str_eqb_eq in E. subst k. cbn [flat_map fst snd]. destruct (P root); [|now rewrite app_nil_r].
        rewrite map_app, <- !app_assoc. apply Permutation_app_head. cbn [map]. apply Permutation_app_comm.
      + cbn [PyStr.dset]. rewrite E. cbn [flat_map fst snd]. rewrite <- app_assoc. apply Permutation_app_head. exact IH. }
  rewrite (G (add_all f) (froot pt) (found_item pt) (add_all_keys f)). rewrite IH.
  apply Permutation_app_head. cbn [filter]. destruct (P (froot pt)); reflexivity.
Qed.
Lemma found_groups f : NoDup (map fst f) -> Forall place_ok f -> forall root l, In (root, l) (add_all f) -> group_ok root l.
Proof.
  intros ND F root l I. apply dget_In_NoDup in I; [|apply add_all_keys]. rewrite add_all_get in I.
  destruct (filter (fun pt => str_eqb (froot pt) root) f) as [|x r] eqn:E; [discriminate|]. injection I as <-.
  change (found_item x :: map found_item r) with (map found_item (x :: r)). rewrite <- E. split; [rewrite E; discriminate|]. split.
  - change (ci_parts) with (fun it => ci_parts it). rewrite map_map. cbn [found_item new_citem ci_parts].
    clear -ND. induction f as [|y f IH]; [constructor|]. cbn [map filter] in *. inversion ND; subst. destruct (str_eqb (froot y) root); [|now apply IH].
    cbn [map]. constructor; [|now apply IH]. intros C. apply in_map_iff in C. destruct C as [z [Ez Iz]]. apply filter_In in Iz.
    apply H1. cbn in Ez. rewrite <- Ez. apply in_map. tauto.
  - intros it I. apply in_map_iff in I. destruct I as [y [<- Iy]]. apply filter_In in Iy. destruct Iy as [Iy Ey]. apply str_eqb_eq in Ey.
    rewrite Forall_forall in F. destruct (F y Iy) as [P1 P2]. cbn. unfold froot in Ey. rewrite Ey. auto.
Qed.
(** *** lookup *)
Lemma sorted_get n : forall (ls : list (str * list citem)) acc,
  dget n (fold_left (fun acc kv => let m := normed_root (fst kv) in
             PyStr.dset m ((match dget m acc with Some l => l | None => [] end) ++ snd kv) acc) ls acc) =
  match filter (fun kv => str_eqb n (normed_root (fst kv))) ls with
  | [] => dget n acc
  | sel => Some ((match dget n acc with Some l => l | None => [] end) ++ flat_map snd sel)
  end.
Proof.
  induction ls as [|[k l] ls IH]; intros acc; [reflexivity|]. cbn [fold_left filter fst snd]. rewrite IH. clear IH.
  rewrite dget_dset. destruct (str_eqb_spec n (normed_root k)) as [->|N].
  - destruct (filter _ ls) as [|x r]; cbn [flat_map snd]; [now rewrite app_nil_r|]. now rewrite <- app_assoc.
  - reflexivity.
Qed.
Lemma normed_root_iff a b : normed_root a = normed_root b <-> Permutation (words (simplified a)) (words (simplified b)).
Proof.
  unfold normed_root. change (replace_str (L "_post") [] (replace_str (L "__") (L "_") a)) with (simplified a).
  change (replace_str (L "_post") [] (replace_str (L "__") (L "_") b)) with (simplified b). unfold words, tag_of. split.
  - intros E.
    assert (S : forall s, sort_str (split_ch us s) <> [] /\ Forall (fun p => ~ In us p) (sort_str (split_ch us s))).
    { intros s. split.
      - intros C. pose proof (Permutation_length (sort_perm (split_ch us s))) as P. rewrite C in P. cbn in P.
        pose proof (split_ch_nonempty us s). destruct (split_ch us s); [contradiction|discriminate].
      - rewrite Forall_forall. intros p Hp. apply (Permutation_in _ (sort_perm _)) in Hp. pose proof (split_parts us s) as F.
        rewrite Forall_forall in F. now apply F. }
    apply join_inj in E; try apply S. rewrite <- (sort_perm (split_ch us (simplified a))), E. apply sort_perm.
  - intros P. now rewrite (sort_perm_eq _ _ P).
Qed.
Lemma resolve_spec f g r : NoDup (map fst f) -> Forall place_ok f -> make_unique (add_all f) = Ok g ->
  match dget r (cg_roots g) with
  | Some it => resolve_root g r = Ok (Some it) /\ join (L "/") (ci_name it) = r /\
               In (ci_parts it) (map fst f) /\ ci_path it ++ ci_name it = ci_parts it
  | None => exists sel, Permutation (map ci_parts sel) (map fst (filter (fun pt => str_eqb (normed_root r) (normed_root (froot pt))) f)) /\
       resolve_root g r = match sel with [] => Ok None | [it] => Ok (Some it) | _ => Err ValueError end
  end.
Proof.
  intros ND F H. unfold make_unique in H. destruct (mapR _ (add_all f)) as [ls|e] eqn:E; [|discriminate]. cbn [bindR] in H. injection H as <-.
  apply groups_mapR in E. pose proof (found_groups f ND F) as G. unfold resolve_root. cbn [cg_roots cg_sorted].
  pose proof (fold_dset_any r (flat_map snd ls) []) as FD. unfold ikey in FD.
  match type of FD with match ?x with _ => _ end => destruct x as [it|] end.
  - split; [reflexivity|]. destruct FD as [[I K]|[C _]]; [|discriminate]. split; [exact K|].
    assert (X : exists root l it0, In (root, l) (add_all f) /\ In it0 l /\ shape root it0 it).
    { clear -E G I. induction E as [|[k l] [k' l'] d ls [E0 U] E IH]; [destruct I|]. cbn [fst snd flat_map] in *. subst k'.
      apply in_app_or in I. destruct I as [I|I].
      - destruct (shape_in k l l' (unique_shape k l l' (G k l ltac:(now left)) U) it I) as [x [Ix Sx]]. exists k, l, x. split; [now left|auto].
      - destruct IH as [root [l0 [x [I0 R]]]]; [intros; apply G; now right|exact I|]. exists root, l0, x. split; [now right|exact R]. }
    destruct X as [root [l [it0 [I0 [I1 [S1 [S2 _]]]]]]]. rewrite S1. split; [|exact S2].
    apply dget_In_NoDup in I0; [|apply add_all_keys]. rewrite add_all_get in I0.
    destruct (filter _ f) as [|x q] eqn:EF; [discriminate|]. injection I0 as <-. change (found_item x :: map found_item q) with (map found_item (x :: q)) in I1.
    rewrite <- EF in I1. apply in_map_iff in I1. destruct I1 as [y [<- Iy]]. apply filter_In in Iy. cbn. apply in_map. tauto.
  - exists (flat_map snd (filter (fun kv => str_eqb (normed_root r) (normed_root (fst kv))) ls)). split.
    + rewrite <- (add_all_perm (fun k => str_eqb (normed_root r) (normed_root k)) f).
      assert (Q : map ci_parts (flat_map snd (filter (fun kv => str_eqb (normed_root r) (normed_root (fst kv))) ls)) =
        flat_map (fun kv : str * list citem => if str_eqb (normed_root r) (normed_root (fst kv)) then map ci_parts (snd kv) else []) (add_all f)).
      { clear -E G. induction E as [|[k l] [k' l'] d ls [E0 U] E IH]; [reflexivity|]. cbn [fst snd flat_map filter] in *. subst k'.
        assert (M : map ci_parts l' = map ci_parts l).
        { pose proof (unique_shape k l l' (G k l ltac:(now left)) U) as S. clear -S. induction S as [|a b l l' [P _] S IH]; [reflexivity|].
          cbn [map]. now rewrite P, IH. }
        destruct (str_eqb (normed_root r) (normed_root k)); cbn [flat_map snd app].
        - rewrite map_app, M, IH; [reflexivity|]. intros; apply G; now right.
        - apply IH. intros; apply G; now right. }
      rewrite Q. reflexivity.
    + rewrite sorted_get. destruct (filter _ ls) as [|x q]; [reflexivity|]. cbn [dget app].
      destruct (flat_map snd (x :: q)) as [|a [|b z]]; reflexivity.
Qed.
Lemma addressable f g : NoDup (map fst f) -> Forall place_ok f ->
  (forall root, length (filter (fun pt => str_eqb (froot pt) root) f) <= 2) -> make_unique (add_all f) = Ok g ->
  forall pt, In pt f -> exists it, dget (join (L "/") (ci_name it)) (cg_roots g) = Some it /\
    ci_parts it = fst pt /\ ci_path it ++ ci_name it = fst pt /\ last (ci_name it) [] = last (fst pt) [].
Proof.
  intros ND F Two H pt I. unfold make_unique in H. destruct (mapR _ (add_all f)) as [ls|e] eqn:E; [|discriminate]. cbn [bindR] in H. injection H as <-.
  apply groups_mapR in E. pose proof (found_groups f ND F) as G. cbn [cg_roots].
  assert (G2 : forall root l, In (root, l) (add_all f) -> group_ok root l /\ length l <= 2).
  { intros root l I0. split; [now apply G|]. apply dget_In_NoDup in I0; [|apply add_all_keys]. rewrite add_all_get in I0.
    specialize (Two root). destruct (filter _ f) as [|x q]; [discriminate|]. injection I0 as <-. cbn [length map] in *. now rewrite map_length. }
  pose proof (all_nodup (add_all f) ls (add_all_keys f) G2 E) as NDa.
  assert (I0 : exists l, In (froot pt, l) (add_all f) /\ In (found_item pt) l).
  { pose proof (add_all_get f (froot pt)) as A. assert (If : In pt (filter (fun x => str_eqb (froot x) (froot pt)) f)) by (apply filter_In; split; [exact I|apply str_eqb_refl]).
    revert A If. destruct (filter (fun x => str_eqb (froot x) (froot pt)) f) as [|x q]; intros A If; [destruct If|].
    exists (map found_item (x :: q)). split; [now apply dget_Some_In|]. now apply in_map. }
  destruct I0 as [l [I0 I1]].
  assert (X : exists it, In it (flat_map snd ls) /\ shape (froot pt) (found_item pt) it).
  { clear -E G I0 I1. induction E as [|[k l0] [k' l'] d ls [E0 U] E IH]; [destruct I0|]. cbn [fst snd flat_map] in *. subst k'.
    destruct I0 as [I0|I0].
    - injection I0 as -> ->. destruct (shape_in2 _ _ _ (unique_shape _ l l' (G _ l ltac:(now left)) U) _ I1) as [x [Ix Sx]].
      exists x. split; [apply in_or_app; now left|exact Sx].
    - destruct IH as [x [Ix Sx]]; [intros; apply G; now right|exact I0|]. exists x. split; [apply in_or_app; now right|exact Sx]. }
  destruct X as [it [I2 [S1 [S2 [S3 _]]]]]. exists it. split; [apply (fold_dset_in (flat_map snd ls) [] it NDa I2)|]. auto.
Qed.
