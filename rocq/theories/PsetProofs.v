From Coq Require Import Reals String List Bool Arith Lia Lra.
From Verif Require Import StatModel McmcModel McmcProofs LikeModel PsetModel PsetSpec.
Import ListNotations.
Local Open Scope R_scope.
Local Open Scope list_scope.
Local Opaque logZero.

Lemma nth_upd {A} (l : list A) : forall k (v : A) i, nth_error (upd k v l) i = if Nat.eqb i k then option_map (fun _ => v) (nth_error l i) else nth_error l i.
Proof.
  induction l as [| y l IH]; intros [| k] v [| i]; cbn; try reflexivity.
  - destruct (Nat.eqb i k); reflexivity.
  - apply IH.
Qed.
Lemma upd_len {A} (l : list A) : forall k (v : A), length (upd k v l) = length l.
Proof. induction l as [| y l IH]; intros [| k] v; cbn; [reflexivity .. | now rewrite IH]. Qed.

Lemma index_nth names n : forall i, index names n = Some i -> nth_error names i = Some n.
Proof.
  induction names as [| m names IH]; intros i; cbn; [discriminate |].
  destruct (String.eqb_spec m n) as [-> | N]; [intro E; now injection E as <- |].
  destruct (index names n) as [k |]; cbn; [| discriminate]. intro E. injection E as <-. now apply IH.
Qed.
Lemma index_first names n : NoDup names -> forall i, nth_error names i = Some n -> index names n = Some i.
Proof.
  intros ND. induction ND as [| m names Hm ND IH]; intros i E; [destruct i; discriminate |].
  cbn. destruct i as [| i]; cbn in E.
  - injection E as ->. now rewrite String.eqb_refl.
  - destruct (String.eqb_spec m n) as [-> | N]; [exfalso; apply Hm; now apply nth_error_In in E |]. now rewrite (IH i E).
Qed.
Lemma index_none names n : index names n = None <-> ~ In n names.
Proof.
  induction names as [| m names IH]; cbn; [tauto |]. destruct (String.eqb_spec m n) as [-> | N].
  - split; [discriminate | tauto].
  - destruct (index names n); cbn; split; intro H; try discriminate.
    + exfalso. assert (E : ~ In n names) by tauto. apply IH in E. discriminate.
    + assert (E : ~ In n names) by now apply IH. tauto.
    + reflexivity.
Qed.
Lemma index_lt names n i : index names n = Some i -> (i < length names)%nat.
Proof. intro E. apply index_nth in E. apply nth_error_Some. now rewrite E. Qed.

Lemma put_other ix : forall vals P i, ~ In i ix -> nth_error (put_params ix vals P) i = nth_error P i.
Proof.
  unfold put_params. induction ix as [| k ix IH]; intros [| v vals] P i N; try reflexivity. cbn [combine fold_left fst snd].
  rewrite IH by (intro; apply N; now right). rewrite nth_upd. destruct (Nat.eqb_spec i k); [exfalso; apply N; now left | reflexivity].
Qed.
Lemma put_len ix : forall vals P, length (put_params ix vals P) = length P.
Proof.
  unfold put_params. induction ix as [| k ix IH]; intros [| v vals] P; try reflexivity. cbn [combine fold_left fst snd].
  now rewrite IH, upd_len.
Qed.
Lemma put_at ix : NoDup ix -> forall vals P j i v, nth_error ix j = Some i -> nth_error vals j = Some v -> (i < length P)%nat ->
  nth_error (put_params ix vals P) i = Some v.
Proof.
  induction 1 as [| k ix Hk ND IH]; intros vals P j i v E1 E2 L; [destruct j; discriminate |].
  destruct vals as [| u vals]; [destruct j; discriminate |]. unfold put_params. cbn [combine fold_left fst snd].
  fold (put_params ix vals (upd k u P)). destruct j as [| j]; cbn in E1, E2.
  - injection E1 as ->. injection E2 as ->. rewrite put_other by exact Hk. rewrite nth_upd, Nat.eqb_refl.
    apply nth_error_Some in L. destruct (nth_error P i); [reflexivity | congruence].
  - apply (IH vals _ j); [exact E1 | exact E2 | now rewrite upd_len].
Qed.

Definition some_ix (ix : list (option nat)) : list nat := flat_map (fun o => match o with Some k => [k] | None => [] end) ix.
Lemma put_likes_other ix : forall vals l i, ~ In (Some i) ix -> nth_error (put_likes ix vals l) i = nth_error l i.
Proof.
  unfold put_likes. induction ix as [| o ix IH]; intros [| v vals] l i N; try reflexivity. cbn [combine fold_left fst snd].
  rewrite IH by (intro; apply N; now right). destruct o as [k |]; [| reflexivity]. rewrite nth_upd.
  destruct (Nat.eqb_spec i k); [exfalso; apply N; left; now subst | reflexivity].
Qed.
Lemma put_likes_at ix : (forall a b i, nth_error ix a = Some (Some i) -> nth_error ix b = Some (Some i) -> a = b) ->
  forall vals l j i v, nth_error ix j = Some (Some i) -> nth_error vals j = Some v -> (i < length l)%nat ->
  nth_error (put_likes ix vals l) i = Some v.
Proof.
  induction ix as [| o ix IH]; intros ND vals l j i v E1 E2 L; [destruct j; discriminate |].
  destruct vals as [| u vals]; [destruct j; discriminate |]. unfold put_likes. cbn [combine fold_left fst snd].
  fold (put_likes ix vals (match o with Some k => upd k u l | None => l end)).
  assert (ND' : forall a b i, nth_error ix a = Some (Some i) -> nth_error ix b = Some (Some i) -> a = b).
  { intros a b i0 Ha Hb. specialize (ND (S a) (S b) i0 Ha Hb). lia. }
  destruct j as [| j]; cbn in E1, E2.
  - injection E1 as ->. injection E2 as ->. rewrite put_likes_other.
    + rewrite nth_upd, Nat.eqb_refl. apply nth_error_Some in L. destruct (nth_error l i); [reflexivity | congruence].
    + intro I. apply In_nth_error in I. destruct I as [k I]. specialize (ND 0%nat (S k) i eq_refl I). discriminate.
  - apply (IH ND' vals _ j); [exact E1 | exact E2 |]. destruct o; [now rewrite upd_len | exact L].
Qed.
Lemma put_likes_len ix : forall vals l, length (put_likes ix vals l) = length l.
Proof.
  unfold put_likes. induction ix as [| o ix IH]; intros [| v vals] l; try reflexivity. cbn [combine fold_left fst snd].
  rewrite IH. destruct o; [apply upd_len | reflexivity].
Qed.

(** names in the header *)
Lemma read_all su ns : forall ix, fold_right (fun n r => match index (names su) n, r with Some i, Some l => Some (i :: l) | _, _ => None end) (Some []) ns = Some ix ->
  Forall2 (fun n i => index (names su) n = Some i) ns ix.
Proof.
  induction ns as [| n ns IH]; intros ix; cbn; [intro E; injection E as <-; constructor |].
  destruct (index (names su) n) as [i |] eqn:EI; [| discriminate].
  destruct (fold_right _ _ ns) as [l |]; [| discriminate]. intro E. injection E as <-. constructor; [exact EI | now apply IH].
Qed.
Lemma read_none su ns : fold_right (fun n r => match index (names su) n, r with Some i, Some l => Some (i :: l) | _, _ => None end) (Some []) ns = None ->
  exists n, In n ns /\ ~ In n (names su).
Proof.
  induction ns as [| n ns IH]; cbn; [discriminate |].
  destruct (index (names su) n) as [i |] eqn:EI; [| intros _; exists n; split; [now left | now apply index_none]].
  destruct (fold_right _ _ ns) as [l |]; [discriminate |]. intros _. destruct (IH eq_refl) as (m & A & B). exists m. split; [now right | exact B].
Qed.
Lemma Forall2_nth {A B} (P : A -> B -> Prop) l m : Forall2 P l m -> forall i a, nth_error l i = Some a -> exists b, nth_error m i = Some b /\ P a b.
Proof.
  induction 1 as [| x y l m H _ IH]; intros [| i] a E; try discriminate; cbn in *; [injection E as <-; eauto | now apply IH].
Qed.
Lemma Forall2_nth_r {A B} (P : A -> B -> Prop) l m : Forall2 P l m -> forall i b, nth_error m i = Some b -> exists a, nth_error l i = Some a /\ P a b.
Proof.
  induction 1 as [| x y l m H _ IH]; intros [| i] a E; try discriminate; cbn in *; [injection E as <-; eauto | now apply IH].
Qed.
Lemma index_NoDup su ns ix : NoDup ns -> Forall2 (fun n i => index (names su) n = Some i) ns ix -> NoDup ix.
Proof.
  intros ND H. induction H as [| n i ns ix E H IH]; [constructor |]. inversion ND as [| ? ? N1 N2]. constructor; [| now apply IH].
  intro I. apply In_nth_error in I. destruct I as [k I]. destruct (Forall2_nth_r _ _ _ H k i I) as (m & M1 & M2).
  apply index_nth in E, M2. assert (m = n) by congruence. subst m. apply N1. now apply nth_error_In in M1.
Qed.
Lemma nth_error_pick {A} (d : A) l ix j i : nth_error ix j = Some i -> (i < length l)%nat -> nth_error (pick d l ix) j = nth_error l i.
Proof.
  intros E L. unfold pick. rewrite nth_error_map, E. cbn. symmetry. now apply nth_error_nth'.
Qed.
Lemma pick_NoDup {A} (d : A) l ix : NoDup l -> NoDup ix -> Forall (fun i => (i < length l)%nat) ix -> NoDup (pick d l ix).
Proof.
  intros NL. induction 1 as [| i ix N ND IH]; intro F; cbn; [constructor |].
  inversion F as [| ? ? F1 F2]. constructor; [| now apply IH]. intro I. unfold pick in I. apply in_map_iff in I. destruct I as (k & E & I).
  rewrite Forall_forall in F2. specialize (F2 k I). assert (k = i); [| now subst]. rewrite NoDup_nth with (d := d) in NL. now apply NL.
Qed.
