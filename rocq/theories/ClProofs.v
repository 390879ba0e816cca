From Coq Require Import Reals ZArith Bool List Lia Lra Permutation.
From Verif Require Import ClModel ClSpec.
Import ListNotations.
Local Open Scope Z_scope.

Lemma any_pos_iff r : any_pos r = true <-> exists i j, (1 <= i <= d1 r)%nat /\ (1 <= j <= d2 r)%nat /\ 0 < ask r i j.
Proof.
  unfold any_pos. rewrite existsb_exists. split.
  - intros (i & I & Q). apply existsb_exists in Q as (j & J & Q). apply in_seq in I, J. apply Z.ltb_lt in Q. exists i, j. repeat split; try lia.
  - intros (i & j & I & J & Q). exists i. split; [apply in_seq; lia |]. apply existsb_exists. exists j. split; [apply in_seq; lia | now apply Z.ltb_lt].
Qed.
Lemma upper_iff r : upper r = true <-> exists a b, (1 <= a < b)%nat /\ (b <= d2 r)%nat /\ 0 < ask r a b.
Proof.
  unfold upper. rewrite existsb_exists. split.
  - intros (i & I & Q). apply existsb_exists in Q as (j & J & Q). apply in_seq in I, J. apply Z.ltb_lt in Q. exists i, j. repeat split; try lia.
  - intros (i & j & I & J & Q). exists i. split; [apply in_seq; lia |]. apply existsb_exists. exists j. split; [apply in_seq; lia | now apply Z.ltb_lt].
Qed.
Lemma parse2_bad m l : parse2 m l = None <-> bad l.
Proof.
  unfold parse2, bad. destruct (lmx l) as [r |]; [| destruct (is_CMB l); split; congruence]. destruct (any_pos r) eqn:A.
  - apply any_pos_iff in A as (i & j & I & J & Q). destruct (Nat.eqb (d2 r) (d1 r)) eqn:D; cbn [negb orb].
    + apply Nat.eqb_eq in D. destruct (upper r) eqn:U.
      * split; [intros _ | reflexivity]. apply upper_iff in U. exists i, j. auto 6.
      * split; [discriminate |]. intros (i' & j' & _ & _ & _ & [N | N]); [congruence |]. apply upper_iff in N. congruence.
    + apply Nat.eqb_neq in D. split; [intros _ | reflexivity]. exists i, j. repeat split; try lia.
  - split; [discriminate |]. intros (i & j & I & J & Q & _). assert (any_pos r = true) by (apply any_pos_iff; eauto 6). congruence.
Qed.
Lemma parse_bad ls : forall m, parse m ls = None <-> exists l, In l ls /\ bad l.
Proof.
  induction ls as [| l ls IH]; intro m; cbn [parse].
  - split; [discriminate |]. now intros (l & [] & _).
  - destruct (parse2 m l) as [m' |] eqn:E1.
    + rewrite IH. split; [intros (x & I & Q); exists x; split; [now right | exact Q] |]. intros (x & [-> | I] & Q); [apply (parse2_bad m) in Q; congruence | eauto].
    + split; [intros _ | reflexivity]. exists l. split; [now left | now apply (parse2_bad m)].
Qed.
Lemma asks_cons l ls i j v : asks (l :: ls) i j v <-> asks [l] i j v \/ asks ls i j v.
Proof.
  split.
  - intros (x & r & [-> | I] & Q); [left | right]; exists x, r; split; auto. now left.
  - intros [(x & r & [-> | []] & Q) | (x & r & I & Q)]; exists x, r; split; auto; [now left | now right].
Qed.
(** one likelihood *)
Lemma parse2_spec m l m' : parse2 m l = Some m' -> forall i j, 0 <= m i j -> (1 <= j <= i)%nat ->
  m i j <= m' i j /\ (forall v, asks [l] i j v -> v <= m' i j) /\ (m' i j = m i j \/ asks [l] i j (m' i j)).
Proof.
  intros E1 i j N J. assert (NB : ~ bad l) by (rewrite <- (parse2_bad m); congruence). unfold parse2 in E1. destruct (lmx l) as [r |] eqn:EL.
  - destruct (any_pos r) eqn:A.
    + destruct (Nat.eqb (d2 r) (d1 r)) eqn:D; cbn [negb orb] in E1; [| discriminate]. apply Nat.eqb_eq in D. destruct (upper r) eqn:U; [discriminate |].
      assert (EM : m' i j = if Nat.leb 1 j && Nat.leb j i && Nat.leb i (d2 r) then Z.max (m i j) (ask r i j) else m i j) by (injection E1 as <-; reflexivity).
      assert (B1 : Nat.leb 1 j = true) by (apply Nat.leb_le; lia). assert (B2 : Nat.leb j i = true) by (apply Nat.leb_le; lia). rewrite B1, B2 in EM. cbn [andb] in EM. rewrite EM. clear E1 EM.
      destruct (Nat.leb_spec i (d2 r)) as [L1 | L1].
      * split; [lia |]. split.
        -- intros v (x & r' & [<- | []] & E2 & I1 & J1 & <- & P). rewrite EL in E2. injection E2 as <-. lia.
        -- destruct (Z.max_spec (m i j) (ask r i j)) as [[C ->] | [C ->]]; [right | now left]. exists l, r. repeat split; try lia; [now left | exact EL].
      * split; [lia |]. split; [| now left]. intros v (x & r' & [<- | []] & E2 & I1 & J1 & <- & P). rewrite EL in E2. injection E2 as <-. lia.
    + injection E1 as <-. split; [lia |]. split; [| now left]. intros v (x & r' & [<- | []] & E2 & I1 & J1 & <- & P). rewrite EL in E2. injection E2 as <-.
      assert (any_pos r = true) by (apply any_pos_iff; eauto 6). congruence.
  - destruct (is_CMB l); [discriminate |]. injection E1 as <-. split; [lia |]. split; [| now left]. intros v (x & r' & [<- | []] & E2 & _). congruence.
Qed.
Lemma parse2_outside m l m' : parse2 m l = Some m' -> forall i j, ~ (1 <= j <= i)%nat -> m' i j = m i j.
Proof.
  unfold parse2. intros E1 i j N. destruct (lmx l) as [r |]; [| destruct (is_CMB l); [discriminate | now injection E1 as <-]].
  destruct (any_pos r); [| now injection E1 as <-]. destruct (_ || _); [discriminate |].
  assert (EM : m' i j = if Nat.leb 1 j && Nat.leb j i && Nat.leb i (d2 r) then Z.max (m i j) (ask r i j) else m i j) by (injection E1 as <-; reflexivity).
  rewrite EM. destruct (Nat.leb_spec 1 j), (Nat.leb_spec j i); cbn [andb]; try reflexivity. lia.
Qed.
Lemma parse_outside ls : forall m m', parse m ls = Some m' -> forall i j, ~ (1 <= j <= i)%nat -> m' i j = m i j.
Proof.
  induction ls as [| l ls IH]; intros m m' E1 i j N; cbn [parse] in E1; [now injection E1 as <- |].
  destruct (parse2 m l) as [m1 |] eqn:E2; [| discriminate]. rewrite (IH _ _ E1 i j N). exact (parse2_outside _ _ _ E2 i j N).
Qed.
Lemma parse_spec ls : forall m m', parse m ls = Some m' -> forall i j, 0 <= m i j -> (1 <= j <= i)%nat ->
  m i j <= m' i j /\ (forall v, asks ls i j v -> v <= m' i j) /\ (m' i j = m i j \/ asks ls i j (m' i j)).
Proof.
  induction ls as [| l ls IH]; intros m m' E1 i j N J; cbn [parse] in E1.
  - injection E1 as <-. split; [lia |]. split; [| now left]. intros v (x & r & [] & _).
  - destruct (parse2 m l) as [m1 |] eqn:E2; [| discriminate]. destruct (parse2_spec _ _ _ E2 i j N J) as (A1 & A2 & A3).
    destruct (IH _ _ E1 i j ltac:(lia) J) as (B1 & B2 & B3). split; [lia |]. split.
    + intros v Q. apply asks_cons in Q as [Q | Q]; [specialize (A2 v Q); lia | auto].
    + destruct B3 as [B3 | B3]; [| right; apply asks_cons; now right]. destruct A3 as [A3 | A3]; [left; lia | right; apply asks_cons; left; now rewrite B3].
Qed.
Lemma stored_spec store nonlin i j : stored store nonlin i j = (if 0 <? store then if in_dec (fun x y : nat * nat => ltac:(decide equality; apply Nat.eq_dec)) (i, j) ([(1, 1); (2, 1); (2, 2)]%nat ++ (if nonlin then [(3, 3); (4, 4)]%nat else [])) then store else 0 else 0).
Proof.
  unfold stored. destruct (0 <? store); [| reflexivity]. destruct (in_dec _ _ _) as [I | I].
  - apply in_app_iff in I as [I | I]; [| destruct nonlin; [| destruct I]]; cbn in I; repeat (destruct I as [I | I]; [injection I as <- <-; reflexivity |]); destruct I.
  - destruct i as [| [| [| [| [| i]]]]], j as [| [| [| [| [| j]]]]]; try reflexivity; destruct nonlin; try reflexivity; exfalso; apply I; cbn; auto 8.
Qed.
Lemma stored_kept store nonlin i j : (0 < store /\ kept nonlin i j /\ stored store nonlin i j = store) \/ (~ (0 < store /\ kept nonlin i j) /\ stored store nonlin i j = 0).
Proof.
  rewrite stored_spec. destruct (Z.ltb_spec 0 store) as [S | S]; [| right; split; [lia | reflexivity]]. destruct (in_dec _ _ _) as [I | I].
  - left. split; [exact S |]. split; [| reflexivity]. apply in_app_iff in I as [I | I]; [now left |]. destruct nonlin; [right; auto | destruct I].
  - right. split; [| reflexivity]. intros (_ & [K | (-> & K)]); apply I, in_app_iff; auto.
Qed.
Lemma kept_range nonlin i j : kept nonlin i j -> (1 <= j <= i)%nat /\ (i <= (if nonlin then 4 else 2))%nat.
Proof. intros [K | (-> & K)]; cbn in K; repeat (destruct K as [K | K]; [injection K as <- <-; destruct nonlin || idtac; lia |]); destruct K. Qed.

Lemma numcls_spec ls : forall n0 (f := fun n l => match lmx l with Some r => if any_pos r then Nat.max n (d2 r) else n | None => n end),
  let n := fold_left f ls n0 in (n0 <= n)%nat /\ (forall l r, In l ls -> lmx l = Some r -> any_pos r = true -> (d2 r <= n)%nat) /\
  (n = n0 \/ exists l r, In l ls /\ lmx l = Some r /\ any_pos r = true /\ n = d2 r).
Proof.
  induction ls as [| l ls IH]; intros n0 f n; subst n; cbn [fold_left].
  - split; [lia |]. split; [intros l r [] | now left].
  - destruct (IH (f n0 l)) as (A1 & A2 & A3). fold f in A1, A2, A3. assert (B : (n0 <= f n0 l)%nat) by (unfold f; destruct (lmx l) as [r |]; [destruct (any_pos r) |]; lia).
    split; [lia |]. split.
    + intros x r [<- | I] E1 P; [| exact (A2 x r I E1 P)]. assert (B2 : f n0 l = Nat.max n0 (d2 r)) by (unfold f; now rewrite E1, P). lia.
    + destruct A3 as [A3 | (x & r & I & Q)]; [| right; exists x, r; split; [now right | exact Q]].
      rewrite A3. unfold f. destruct (lmx l) as [r |] eqn:E1; [| now left]. destruct (any_pos r) eqn:P; [| now left].
      destruct (Nat.max_spec n0 (d2 r)) as [[C D] | [C D]]; rewrite D; [right; exists l, r; repeat split; auto; now left | now left].
Qed.
Lemma fold_max l : forall x, (forall y, In y (x :: l) -> y <= fold_left Z.max l x) /\ In (fold_left Z.max l x) (x :: l).
Proof.
  induction l as [| y l IH]; intro x; cbn [fold_left].
  - split; [intros z [-> | []]; lia | now left].
  - destruct (IH (Z.max x y)) as (A & B). split.
    + intros z [-> | [-> | I]]; [specialize (A _ (or_introl eq_refl)); lia | specialize (A _ (or_introl eq_refl)); lia | apply A; now right].
    + destruct B as [B | B]; [| right; now right]. destruct (Z.max_spec x y) as [[C D] | [C D]]; rewrite D in B |- *; [right; left; exact B | left; exact B].
Qed.
Lemma maxval_spec least n m : (0 < n)%nat -> (forall i j, (1 <= i <= n)%nat -> (1 <= j <= n)%nat -> m i j <= maxval least n m) /\
  exists i j, (1 <= i <= n)%nat /\ (1 <= j <= n)%nat /\ m i j = maxval least n m.
Proof.
  intro N. unfold maxval. set (L := concat _). assert (IN : forall x, In x L <-> exists i j, (1 <= i <= n)%nat /\ (1 <= j <= n)%nat /\ m i j = x).
  { intro x. unfold L. rewrite in_concat. split.
    - intros (r & I & J). apply in_map_iff in I as (i & <- & I). apply in_map_iff in J as (j & <- & J). apply in_seq in I, J. exists i, j. repeat split; lia.
    - intros (i & j & I & J & <-). exists (map (m i) (seq 1 n)). split; apply in_map_iff; [exists i | exists j]; split; auto; apply in_seq; lia. }
  clearbody L. destruct L as [| x L].
  - exfalso. apply (IN (m 1%nat 1%nat)). exists 1%nat, 1%nat. repeat split; lia.
  - destruct (fold_max L x) as (A & B). split; [intros i j I J; apply A, IN; eauto | apply IN; exact B].
Qed.
