(** Proofs about the evaluation of likelihoods. *)
From Coq Require Import Reals List Bool Lia Lra.
From Verif Require Import StatModel McmcModel LikeModel LikeSpec.
Import ListNotations.
Local Open Scope R_scope.
Local Open Scope list_scope.

Local Opaque logZero.
Lemma Reqb_true a b : Reqb a b = true <-> a = b.
Proof. unfold Reqb. destruct (Req_EM_T a b); split; congruence. Qed.
Lemma Reqb_false a b : Reqb a b = false <-> a <> b.
Proof. unfold Reqb. destruct (Req_EM_T a b); split; congruence. Qed.
Lemma Reqb_refl a : Reqb a a = true.
Proof. apply Reqb_true; reflexivity. Qed.

(** ** Masks *)
Lemma any_false m : any m = false <-> forall j, nth j m false = false.
Proof.
  unfold any. induction m as [|b m IH]; cbn; split.
  - intros _ [|j]; reflexivity.
  - reflexivity.
  - intros H. apply orb_false_iff in H as [-> H]. intros [|j]; [reflexivity|]. exact (proj1 IH H j).
  - intros H. pose proof (H O) as H0. cbn in H0. rewrite H0. cbn. apply IH. intros j. exact (H (S j)).
Qed.
Lemma any_true m j : nth j m false = true -> any m = true.
Proof.
  intros H. destruct (any m) eqn:E; [reflexivity|]. rewrite (proj1 (any_false m) E j) in H. discriminate.
Qed.
Lemma nth_firstn_lt {A} n j (l : list A) d : (j < n)%nat -> nth j (firstn n l) d = nth j l d.
Proof.
  revert n j. induction l as [|x l IH]; intros n j H; [rewrite firstn_nil; reflexivity|].
  destruct n; [lia|]. destruct j; [reflexivity|]. cbn. apply IH. lia.
Qed.
Lemma nth_skipn {A} n j (l : list A) d : nth j (skipn n l) d = nth (n + j) l d.
Proof.
  revert l. induction n as [|n IH]; intros l; [reflexivity|]. destruct l; [destruct j; reflexivity|]. cbn. apply IH.
Qed.
Lemma firstn_any n m : any (firstn n m) = false <-> forall j, (j < n)%nat -> nth j m false = false.
Proof.
  rewrite any_false. split; intros H j.
  - intros Hj. rewrite <- (nth_firstn_lt n j m) by assumption. apply H.
  - destruct (Nat.ltb_spec j n) as [Hj|Hj]; [rewrite nth_firstn_lt by assumption; apply H, Hj|].
    apply nth_overflow. rewrite firstn_length. lia.
Qed.
Lemma semi_any n k m : any (firstn k (skipn n m)) = false <-> forall j, (n <= j < n + k)%nat -> nth j m false = false.
Proof.
  rewrite firstn_any. split; intros H j Hj.
  - replace j with (n + (j - n))%nat by lia. rewrite <- nth_skipn. apply H. lia.
  - rewrite nth_skipn. apply H. lia.
Qed.
Lemma nth_both j a b : nth j (both a b) false = nth j a false && nth j b false.
Proof.
  unfold both. revert j b. induction a as [|x a IH]; intros j b; cbn.
  - destruct j; reflexivity.
  - destruct b as [|y b]; cbn; [destruct j; rewrite ?andb_false_r; reflexivity|].
    destruct j; [reflexivity|apply IH].
Qed.
Lemma nth_diff L P j : length L = length P ->
  nth j (map (fun q => negb (Reqb (fst q) (snd q))) (combine L P)) false = negb (Reqb (nth j L 0) (nth j P 0)).
Proof.
  revert P j. induction L as [|x L IH]; intros [|y P] j H; cbn in H |- *; try discriminate.
  - destruct j; rewrite Reqb_refl; reflexivity.
  - destruct j; [reflexivity|apply IH; lia].
Qed.
Lemma firstn_nth_eq n (L P : list R) : length L = length P -> (forall j, (j < n)%nat -> nth j L 0 = nth j P 0) ->
  firstn n L = firstn n P.
Proof.
  intros Hl H. apply (nth_ext _ _ 0 0); [rewrite !firstn_length, Hl; reflexivity|].
  intros j Hj. rewrite firstn_length in Hj. rewrite !nth_firstn_lt by lia. apply H. lia.
Qed.
Lemma nth_repeat_true n j : (j < n)%nat -> nth j (repeat true n) false = true.
Proof. revert j. induction n; intros j H; [lia|]. destruct j; [reflexivity|]. cbn. apply IHn. lia. Qed.

(** ** The heap *)
Lemma upd_length {A} n (x : A) l : length (upd n x l) = length l.
Proof. revert n. induction l; intros [|n]; cbn; auto. Qed.
Lemma upd_same {A} n (x : A) l : (n < length l)%nat -> nth_error (upd n x l) n = Some x.
Proof. revert n. induction l; intros [|n] H; cbn in *; try lia; [reflexivity|]. apply IHl. lia. Qed.
Lemma upd_other {A} n m (x : A) l : n <> m -> nth_error (upd n x l) m = nth_error l m.
Proof. revert n m. induction l; intros [|n] [|m] H; cbn; try congruence. apply IHl. congruence. Qed.

Section Proofs.
  Context {Tr D Pw Bg : Type}.
  Variable C : config Tr D Pw Bg.
  Hypothesis SC : sound_config C.
  Notation heap := (heap Tr Bg). Notation point := (point D Pw).

  Definition live (h : heap) (a : nat) (i : info Tr Bg) : Prop := nth_error h a = Some (Some i).
  Definition ext (h h' : heap) : Prop := forall a i, live h a i -> exists i', live h' a i' /\ i_tr i' = i_tr i.
  Lemma live_lt h a i : live h a i -> (a < length h)%nat.
  Proof. intros H. apply nth_error_Some. unfold live in H. congruence. Qed.
  Lemma ext_refl h : ext h h.
  Proof. intros a i H. exists i. split; [exact H|reflexivity]. Qed.
  Lemma ext_trans h1 h2 h3 : ext h1 h2 -> ext h2 h3 -> ext h1 h3.
  Proof.
    intros A B a i H. destruct (A _ _ H) as (i' & H' & E). destruct (B _ _ H') as (i2 & H2 & E2).
    exists i2. split; [exact H2|congruence].
  Qed.
  Lemma deref_live h a i : live h a i -> deref h (Some a) = Some i.
  Proof. intros H. unfold deref, bindO. unfold live in H. rewrite H. reflexivity. Qed.
  Lemma live_app h x a i : live h a i -> live (h ++ x) a i.
  Proof. intros H. unfold live. rewrite nth_error_app1; [exact H|]. exact (live_lt _ _ _ H). Qed.
  Lemma live_new h i : live (h ++ [Some i]) (length h) i.
  Proof. unfold live. rewrite nth_error_app2 by lia. rewrite Nat.sub_diag. reflexivity. Qed.
  Lemma ext_app h x : ext h (h ++ x).
  Proof. intros a i H. exists i. split; [apply live_app, H|reflexivity]. Qed.
  (** a cell that was not there before is freed *)
  Lemma ext_free h h1 b : ext h h1 -> (forall i, ~ live h b i) -> ext h (upd b None h1).
  Proof.
    intros E N a i H. destruct (E _ _ H) as (i' & H' & E'). exists i'. split; [|exact E'].
    unfold live in *. rewrite upd_other; [exact H'|]. intros ->. exact (N _ H).
  Qed.

  Definition evaluated (h : heap) (p : point) : Prop :=
    pt_valid p = true /\ length (pt_P p) = np C /\ pt_last p = pt_P p /\
    (exists t, fresh_theory C (pt_P p) = Some t /\ pt_th p = Some t /\ pt_likes p = map (fresh_like C (pt_P p) t) (likes C) /\
               Forall (fun l => l <> logZero) (pt_likes p)) /\
    exists a i, pt_info p = Some a /\ live h a i /\
      (use_theory C = true -> exists tr d, camb_transfer C (tpar C (pt_P p)) = Some (tr, d) /\ i_tr i = Some tr).
  Lemma evaluated_ext h h' p : ext h h' -> evaluated h p -> evaluated h' p.
  Proof.
    intros E (V & L & A & B & a & i & Hi & Hl & Ht). repeat split; try assumption.
    destruct (E _ _ Hl) as (i' & Hl' & Ei). exists a, i'. repeat split; [exact Hi|exact Hl'|].
    intros U. destruct (Ht U) as (tr & d & E1 & E2). exists tr, d. split; [exact E1|congruence].
  Qed.
  Definition usable (h : heap) (p : point) : Prop := evaluated h p \/ unevaluated C p.
  Lemma usable_ext h h' p : ext h h' -> usable h p -> usable h' p.
  Proof. intros E [A|A]; [left; apply (evaluated_ext _ _ _ E A)|right; exact A]. Qed.

  (** ** The loop over the likelihoods *)
  Lemma SetParamsForBackground_ok h p a i : pt_info p = Some a -> live h a i ->
    exists h1, SetParamsForBackground C h p = Some h1 /\ length h1 = length h /\
      live h1 a (mkInf (i_tr i) (Some (camb_background C (firstn (nh C) (pt_P p))))) /\ ext h h1.
  Proof.
    intros Hi Hl. unfold SetParamsForBackground. rewrite Hi, (deref_live _ _ _ Hl). cbn.
    eexists. split; [reflexivity|]. split; [apply upd_length|]. split.
    - unfold live. rewrite upd_same; [reflexivity|]. exact (live_lt _ _ _ Hl).
    - intros b j Hj. destruct (Nat.eq_dec a b) as [->|N].
      + eexists. split; [unfold live; rewrite upd_same; [reflexivity|exact (live_lt _ _ _ Hj)]|].
        unfold live in *. cbn. congruence.
      + exists j. split; [unfold live in *; rewrite upd_other by exact N; exact Hj|reflexivity].
  Qed.

  Lemma like_loop_ok p a t m : pt_info p = Some a -> pt_th p = Some t ->
    forall ks bs vals h i,
    live h a i -> (bs = true -> i_bg i = Some (camb_background C (firstn (nh C) (pt_P p)))) ->
    Forall2 (fun k v => any (both (lk_dep k) m) = true \/ (v = fresh_like C (pt_P p) t k /\ v <> logZero)) ks vals ->
    Forall (no_background C) ks ->
    exists h' i' vs ok, like_loop C bs p m (combine (repeat true (length ks)) ks) vals h = Some (h', vs, ok) /\
      live h' a i' /\ i_tr i' = i_tr i /\ ext h h' /\ length h' = length h /\ length vs = length vals /\
      (if (ok : bool) then vs = map (fresh_like C (pt_P p) t) ks /\ Forall (fun l => l <> logZero) vs
       else Exists (fun k => fresh_like C (pt_P p) t k = logZero) ks).
  Proof.
    intros Hi Ht ks. induction ks as [|k ks IH]; intros bs vals h i Hl Hb F N.
    - inversion F; subst. exists h, i, [], true. cbn. repeat split; auto using ext_refl.
    - inversion F as [|? v ? vals' Hv F']; subst. inversion N as [|? ? Nk N']; subst. cbn [length repeat combine like_loop].
      destruct (any (both (lk_dep k) m)) eqn:Et; cbn [andb].
      + assert (exists h1 i1 bs1,
           (if any (firstn (nh C) (lk_dep k)) && negb bs
            then bindO (SetParamsForBackground C h p) (fun h1 => Some (h1, true)) else Some (h, bs)) = Some (h1, bs1) /\
           live h1 a i1 /\ i_tr i1 = i_tr i /\ ext h h1 /\ length h1 = length h /\
           (bs1 = true -> i_bg i1 = Some (camb_background C (firstn (nh C) (pt_P p)))) /\
           lk_val k (pt_P p) t (i_bg i1) = fresh_like C (pt_P p) t k) as (h1 & i1 & bs1 & -> & Hl1 & Ei1 & X1 & Ln1 & Hb1 & Ev).
        { destruct (any (firstn (nh C) (lk_dep k))) eqn:Eh; cbn [andb].
          - destruct bs; cbn [negb].
            + exists h, i, true. repeat split; auto using ext_refl. unfold fresh_like. rewrite Hb by reflexivity. reflexivity.
            + destruct (SetParamsForBackground_ok h p a i Hi Hl) as (h1 & -> & Ln & Hl1 & X). cbn.
              eexists h1, _, true. split; [reflexivity|]. split; [exact Hl1|]. repeat split; auto.
          - exists h, i, bs. repeat split; auto using ext_refl. apply Nk. apply firstn_any. exact Eh. }
        cbn [bindO]. rewrite Ht. cbn [bindO]. rewrite Hi, (deref_live _ _ _ Hl1). cbn [bindO]. rewrite Ev.
        destruct (Reqb (fresh_like C (pt_P p) t k) logZero) eqn:Ez.
        * exists h1, i1, (v :: vals'), false. repeat split; auto. apply Exists_cons_hd. apply Reqb_true. exact Ez.
        * destruct (IH bs1 vals' h1 i1 Hl1 Hb1 F' N') as (h2 & i2 & vs & ok & -> & Hl2 & Ei2 & X2 & Ln2 & Lv & R). cbn [bindO].
          exists h2, i2, (fresh_like C (pt_P p) t k :: vs), ok.
          split; [reflexivity|]. split; [exact Hl2|]. split; [congruence|]. split; [apply (ext_trans _ _ _ X1 X2)|].
          split; [congruence|]. split; [cbn; congruence|]. destruct ok.
          -- destruct R as [-> R]. split; [reflexivity|]. constructor; [apply Reqb_false; exact Ez|exact R].
          -- apply Exists_cons_tl. exact R.
      + destruct Hv as [Hv|[Hv Hz]]; [congruence|].
        destruct (IH bs vals' h i Hl Hb F' N') as (h2 & i2 & vs & ok & -> & Hl2 & Ei2 & X2 & Ln2 & Lv & R). cbn [bindO].
        exists h2, i2, (v :: vs), ok.
        split; [reflexivity|]. split; [exact Hl2|]. split; [congruence|]. split; [exact X2|].
        split; [congruence|]. split; [cbn; congruence|]. destruct ok.
        * destruct R as [-> R]. split; [cbn; congruence|]. constructor; assumption.
        * apply Exists_cons_tl. exact R.
  Qed.

  (** ** The theory *)
  (** what is known before: nothing, or all at the parameters L *)
  Definition diff (L P : list R) : list bool := map (fun q => negb (Reqb (fst q) (snd q))) (combine L P).
  Lemma diff_slow L P : length L = length P -> slowChanged C (diff L P) = false -> firstn (nh C) L = firstn (nh C) P.
  Proof.
    intros Hl H. apply firstn_nth_eq; [exact Hl|]. intros j Hj. unfold slowChanged in H.
    pose proof (proj1 (firstn_any _ _) H j Hj) as E. unfold diff in E. rewrite nth_diff in E by exact Hl.
    apply negb_false_iff in E. apply Reqb_true in E. exact E.
  Qed.
  Lemma diff_semi L P : length L = length P -> slowChanged C (diff L P) = false -> semiSlowChanged C (diff L P) = false ->
    tpar C L = tpar C P.
  Proof.
    intros Hl H1 H2. apply firstn_nth_eq; [exact Hl|]. intros j Hj. unfold slowChanged in H1. unfold semiSlowChanged in H2.
    assert (nth j (diff L P) false = false) as E.
    { destruct (Nat.ltb_spec j (nh C)) as [Hn|Hn].
      - exact (proj1 (firstn_any _ _) H1 j Hn).
      - apply (proj1 (semi_any _ _ _) H2 j). lia. }
    unfold diff in E. rewrite nth_diff in E by exact Hl. apply negb_false_iff in E. apply Reqb_true in E. exact E.
  Qed.
  Lemma diff_untouched L P k j : length L = length P -> any (both (lk_dep k) (diff L P)) = false ->
    nth j (lk_dep (D := D) (Pw := Pw) (Bg := Bg) k) false = true -> nth j L 0 = nth j P 0.
  Proof.
    intros Hl H Hd. pose proof (proj1 (any_false _) H j) as E. rewrite nth_both, Hd in E. unfold diff in E.
    rewrite nth_diff in E by exact Hl. cbn in E. apply negb_false_iff in E. apply Reqb_true in E. exact E.
  Qed.

  Definition known (h : heap) (p : point) (L : list R) : Prop :=
    length L = np C /\ fresh_theory C L = pt_th p /\ pt_th p <> None /\
    (use_theory C = true -> exists a i tr d, pt_info p = Some a /\ live h a i /\
       camb_transfer C (tpar C L) = Some (tr, d) /\ i_tr i = Some tr).
  Lemma CalculateRequired_ok h p a i m : length (pt_P p) = np C -> pt_info p = Some a -> live h a i -> pt_th p <> None ->
    (use_theory C = false -> forall t, pt_th p = Some t -> t_pow t = None) ->
    slowChanged C m = true \/ (exists L, known h p L /\ m = diff L (pt_P p)) ->
    exists h2 p2 ok a2 i2, CalculateRequiredTheoryChanges C h p m = Some (h2, p2, ok) /\
      pt_P p2 = pt_P p /\ pt_likes p2 = pt_likes p /\ pt_last p2 = pt_last p /\ pt_valid p2 = true /\
      ext h h2 /\ (length h <= length h2)%nat /\ pt_info p2 = Some a2 /\ live h2 a2 i2 /\ (a2 = a \/ length h <= a2)%nat /\
      (slowChanged C m = false -> semiSlowChanged C m && negb (block_semi_fast C) = false -> a2 = a) /\
      (if (ok : bool) then exists t, fresh_theory C (pt_P p) = Some t /\ pt_th p2 = Some t /\
         (use_theory C = true -> exists tr d, camb_transfer C (tpar C (pt_P p)) = Some (tr, d) /\ i_tr i2 = Some tr) /\
         (slowChanged C m = true -> i_bg i2 = Some (camb_background C (firstn (nh C) (pt_P p))))
       else fresh_theory C (pt_P p) = None).
  Proof.
    intros Lp Hi Hl Hth Hp K. unfold CalculateRequiredTheoryChanges.
    destruct (pt_th p) as [t|] eqn:Et; [clear Hth|congruence].
    destruct (use_theory C) eqn:U.
    - destruct (slowChanged C m || (semiSlowChanged C m && negb (block_semi_fast C))) eqn:B.
      + (* new transfer functions *)
        unfold GetNewTransferData. rewrite Et. cbn [bindO].
        destruct (camb_transfer C (tpar C (pt_P p))) as [[tr d]|] eqn:ET; cbn [alloc bindO].
        * replace ((slowChanged C m || semiSlowChanged C m) && true) with true
            by (destruct (slowChanged C m), (semiSlowChanged C m); cbn in *; congruence).
          unfold GetNewPowerData, set_th. cbn [pt_th pt_info pt_P bindO].
          rewrite (deref_live _ _ _ (live_new h _)). cbn [bindO i_tr t_der].
          destruct (camb_power C (tpar C (pt_P p)) tr) as [w|] eqn:EP; cbn [bindO].
          -- eexists _, _, true, (length h), _. split; [reflexivity|]. cbn. repeat (split; [reflexivity|]).
             split; [apply ext_app|]. split; [rewrite app_length; lia|]. split; [reflexivity|]. split; [apply live_new|].
             split; [right; lia|]. split.
             { intros E1 E2. rewrite E1, E2 in B. discriminate. }
             exists (mkTh (Some d) (Some w)). split.
             { unfold fresh_theory. rewrite U. unfold tpar in *. rewrite ET, EP. reflexivity. }
             split; [reflexivity|]. split; [intros _; exists tr, d; split; [reflexivity|reflexivity]|reflexivity].
          -- eexists _, _, false, (length h), _. split; [reflexivity|]. cbn. repeat (split; [reflexivity|]).
             split; [apply ext_app|]. split; [rewrite app_length; lia|]. split; [reflexivity|]. split; [apply live_new|].
             split; [right; lia|]. split.
             { intros E1 E2. rewrite E1, E2 in B. discriminate. }
             unfold fresh_theory. rewrite U. unfold tpar in *. rewrite ET, EP. reflexivity.
        * replace ((slowChanged C m || semiSlowChanged C m) && false) with false by (rewrite andb_false_r; reflexivity).
          eexists _, _, false, (length h), _. split; [reflexivity|]. cbn. repeat (split; [reflexivity|]).
          split; [apply ext_app|]. split; [rewrite app_length; lia|]. split; [reflexivity|]. split; [apply live_new|].
          split; [right; lia|]. split.
          { intros E1 E2. rewrite E1, E2 in B. discriminate. }
          unfold fresh_theory. rewrite U. unfold tpar in *. rewrite ET. reflexivity.
      + apply orb_false_iff in B as [B1 B2]. rewrite B1 in *. cbn [orb bindO].
        destruct K as [K|(L & (LL & FL & _ & KT) & ->)]; [congruence|]. rewrite Et in FL.
        assert (HL : length L = length (pt_P p)) by congruence.
        destruct (KT U) as (a' & i' & tr & d & Hi' & Hl' & ET & EI).
        assert (a' = a) by congruence. subst a'. assert (i' = i) by (unfold live in *; congruence). subst i'.
        pose proof (diff_slow _ _ HL B1) as HS.
        destruct (semiSlowChanged C (diff L (pt_P p))) eqn:S; cbn [andb].
        * (* power spectra from the old transfer functions *)
          cbn [andb] in B2. apply negb_false_iff in B2.
          assert (ET' : camb_transfer C (tpar C (pt_P p)) = Some (tr, d)).
          { rewrite <- ET. symmetry. apply (sc_semi C SC B2). exact HS. }
          unfold GetNewPowerData. rewrite Et. cbn [bindO]. rewrite Hi, (deref_live _ _ _ Hl). cbn [bindO]. rewrite EI.
          cbn [bindO].
          assert (Ed : t_der t = Some d).
          { unfold fresh_theory in FL. rewrite U in FL. unfold tpar in ET. rewrite ET in FL.
            destruct (camb_power C _ tr); [|discriminate]. injection FL as <-. reflexivity. }
          destruct (camb_power C (tpar C (pt_P p)) tr) as [w|] eqn:EP; cbn [bindO].
          -- eexists _, _, true, a, i. split; [reflexivity|]. cbn. repeat (split; [reflexivity|]).
             split; [apply ext_refl|]. split; [lia|]. split; [reflexivity|]. split; [exact Hl|].
             split; [left; reflexivity|]. split; [reflexivity|].
             exists (mkTh (Some d) (Some w)). split.
             { unfold fresh_theory. rewrite U. unfold tpar in *. rewrite ET', EP. reflexivity. }
             split; [rewrite Ed; reflexivity|]. split; [intros _; exists tr, d; split; [exact ET'|exact EI]|discriminate].
          -- eexists _, _, false, a, i. split; [reflexivity|]. cbn. repeat (split; [reflexivity|]).
             split; [apply ext_refl|]. split; [lia|]. split; [reflexivity|]. split; [exact Hl|].
             split; [left; reflexivity|]. split; [reflexivity|].
             unfold fresh_theory. rewrite U. unfold tpar in *. rewrite ET', EP. reflexivity.
        * pose proof (diff_semi _ _ HL B1 S) as HT.
          eexists _, _, true, a, i. split; [reflexivity|]. cbn. repeat (split; [reflexivity|]).
          split; [apply ext_refl|]. split; [lia|]. split; [exact Hi|]. split; [exact Hl|].
          split; [left; reflexivity|]. split; [reflexivity|].
          exists t. split.
          { rewrite <- FL. unfold fresh_theory. rewrite U. unfold tpar in HT. rewrite HT. reflexivity. }
          split; [exact Et|]. split; [|discriminate]. intros _. exists tr, d. split; [rewrite <- HT; exact ET|exact EI].
    - destruct (slowChanged C m) eqn:B.
      + unfold GetNewBackgroundData. rewrite Et. cbn [bindO].
        destruct (SetParamsForBackground_ok h p a i Hi Hl) as (h1 & -> & Ln & Hl1 & X). cbn [bindO]. unfold hard.
        destruct (camb_thermal C (firstn (nh C) (pt_P p))) as [d|] eqn:ED; cbn [bindO].
        * eexists _, _, true, a, _. split; [reflexivity|]. cbn. repeat (split; [reflexivity|]).
          split; [exact X|]. split; [lia|]. split; [exact Hi|]. split; [exact Hl1|].
          split; [left; reflexivity|]. split; [reflexivity|].
          exists (mkTh (Some d) None). split; [unfold fresh_theory; rewrite U, ED; reflexivity|].
          split; [rewrite (Hp eq_refl t eq_refl); reflexivity|]. split; [intros; congruence|reflexivity].
        * eexists _, _, false, a, _. split; [reflexivity|]. cbn. repeat (split; [reflexivity|]).
          split; [exact X|]. split; [lia|]. split; [exact Hi|]. split; [exact Hl1|].
          split; [left; reflexivity|]. split; [reflexivity|]. unfold fresh_theory. rewrite U, ED. reflexivity.
      + destruct K as [K|(L & (LL & FL & _ & KT) & ->)]; [congruence|]. rewrite Et in FL.
        assert (HL : length L = length (pt_P p)) by congruence.
        pose proof (diff_slow _ _ HL B) as HS. cbn [bindO].
        eexists _, _, true, a, i. split; [reflexivity|]. cbn. repeat (split; [reflexivity|]).
        split; [apply ext_refl|]. split; [lia|]. split; [exact Hi|]. split; [exact Hl|].
        split; [left; reflexivity|]. split; [reflexivity|].
        exists t. split; [rewrite <- FL; unfold fresh_theory; rewrite U, HS; reflexivity|].
        split; [exact Et|]. split; [intros; congruence|discriminate].
  Qed.

  (** ** One evaluation *)
  Lemma existsb_lz ls : existsb (fun l => if Req_EM_T l logZero then true else false) ls = true <-> Exists (fun l => l = logZero) ls.
  Proof.
    induction ls as [|l ls IH]; cbn; [split; [discriminate|intros H; inversion H]|].
    destruct (Req_EM_T l logZero) as [E|E]; cbn.
    - split; [intros _; apply Exists_cons_hd, E|reflexivity].
    - rewrite IH. split; [apply Exists_cons_tl|]. intros H. inversion H; subst; [congruence|assumption].
  Qed.
  Lemma AddLike_zsum a b : AddLike a b = zsum a b.
  Proof.
    unfold AddLike, zsum, Reqb. destruct (Req_EM_T a logZero); cbn; [congruence|]. destruct (Req_EM_T b logZero); reflexivity.
  Qed.

  Lemma GetLogLikeMain_ok h p P : usable h p -> length P = np C -> prior0 C P <> logZero ->
    exists h' q v a i, GetLogLikeMain C h (set_P P p) = Some (h', q, v) /\ v = fresh_main C P /\ pt_P q = P /\
      ext h h' /\ (length h <= length h')%nat /\ pt_info q = Some a /\ live h' a i /\
      (pt_info p = Some a \/ (length h <= a)%nat) /\
      (v <> logZero -> evaluated h' q) /\
      (evaluated h p -> firstn (slow_params C) P = firstn (slow_params C) (pt_P p) -> pt_info q = pt_info p).
  Proof.
    intros Up LP Pr. unfold GetLogLikeMain.
    (* SetCurrentPoint *)
    assert (exists h0 p0 a0 i0, SetCurrentPoint h (set_P P p) = (h0, p0) /\ pt_P p0 = P /\ pt_likes p0 = pt_likes p /\
        pt_last p0 = pt_last p /\ pt_valid p0 = pt_valid p /\ pt_th p0 = pt_th p /\ ext h h0 /\ (length h <= length h0)%nat /\
        pt_info p0 = Some a0 /\ live h0 a0 i0 /\ (pt_info p = Some a0 /\ h0 = h \/ pt_info p = None /\ (length h <= a0)%nat))
      as (h0 & p0 & a0 & i0 & -> & P0 & K0 & L0 & V0 & T0 & X0 & Ln0 & I0 & Hl0 & A0).
    { unfold SetCurrentPoint. unfold set_P. cbn [pt_info]. destruct (pt_info p) as [a|] eqn:E.
      - assert (exists i, live h a i) as [i Hl].
        { destruct Up as [(_ & _ & _ & _ & a' & i & Ha & Hl & _)|(_ & _ & _ & _ & Ha)]; [|congruence].
          assert (a' = a) by congruence. subst. exists i. exact Hl. }
        eexists h, _, a, i. split; [reflexivity|]. cbn. repeat (split; [reflexivity|]).
        split; [apply ext_refl|]. split; [lia|]. split; [reflexivity|]. split; [exact Hl|]. left. split; reflexivity.
      - cbn [alloc]. eexists _, _, (length h), _. split; [reflexivity|]. cbn. repeat (split; [reflexivity|]).
        split; [apply ext_app|]. split; [rewrite app_length; lia|]. split; [reflexivity|]. split; [apply live_new|].
        right. split; [reflexivity|lia]. }
    rewrite P0. rewrite (proj2 (Reqb_false _ _) Pr).
    set (m := changeMask C p0). set (p1 := SetNewTheoryResults p0).
    assert (pt_P p1 = P /\ pt_likes p1 = pt_likes p /\ pt_last p1 = pt_last p /\ pt_info p1 = Some a0 /\ pt_th p1 <> None /\
            (pt_th p <> None -> pt_th p1 = pt_th p) /\ (pt_th p = None -> pt_th p1 = Some (mkTh None None)))
      as (P1 & K1 & L1 & I1 & T1 & T1a & T1b).
    { unfold p1, SetNewTheoryResults. rewrite T0. destruct (pt_th p) eqn:E.
      - repeat split; try congruence; try (intros; congruence).
      - unfold set_th. cbn. repeat split; try congruence; try (intros; congruence). }
    assert (Hc : slowChanged C m = true \/ exists L, known h0 p1 L /\ m = diff L (pt_P p1)).
    { unfold m, changeMask. rewrite V0. destruct Up as [E|E].
      - right. destruct E as (V & Lp & La & (t & Ft & Tt & _) & a & i & Ha & Hl & Ht). rewrite V. cbn [negb].
        exists (pt_P p). split; [|rewrite P1, P0, L0, La; reflexivity]. split; [exact Lp|].
        assert (Hth : pt_th p1 = pt_th p) by (apply T1a; congruence).
        split; [congruence|]. split; [congruence|]. intros U. destruct (Ht U) as (tr & d & E1 & E2).
        destruct A0 as [[A0 Hh]|[A0 _]]; [|congruence]. assert (a0 = a) by congruence. subst a0 h0.
        exists a, i, tr, d. repeat split; assumption.
      - left. destruct E as (_ & _ & V & _). rewrite V. cbn [negb]. unfold slowChanged. apply (any_true _ O).
        pose proof (sc_hard C SC) as Hn. pose proof (sc_np C SC) as Hm. rewrite nth_firstn_lt by lia.
        apply nth_repeat_true. lia. }
    assert (Hpw : use_theory C = false -> forall t, pt_th p1 = Some t -> t_pow t = None).
    { intros U t Et. destruct Up as [E|E].
      - destruct E as (_ & _ & _ & (t' & Ft & Tt & _) & _). rewrite T1a in Et by congruence.
        unfold fresh_theory in Ft. rewrite U in Ft. destruct (camb_thermal C _); [|discriminate].
        assert (t = t') by congruence. subst. injection Ft as <-. reflexivity.
      - destruct E as (_ & _ & _ & Tn & _). rewrite T1b in Et by exact Tn. injection Et as <-. reflexivity. }
    assert (LP1 : length (pt_P p1) = np C) by congruence.
    destruct (CalculateRequired_ok h0 p1 a0 i0 m LP1 I1 Hl0 T1 Hpw Hc)
      as (h2 & p2 & ok & a2 & i2 & -> & P2 & K2 & L2 & V2 & X2 & Ln2 & I2 & Hl2 & A2 & S2 & R2). cbn [bindO].
    rewrite P1 in *.
    assert (Ha : pt_info p = Some a2 \/ (length h <= a2)%nat).
    { destruct A2 as [->|A2]; [|right; lia]. destruct A0 as [[A0 _]|[_ A0]]; [left; exact A0|right; exact A0]. }
    assert (Hfast : evaluated h p -> firstn (slow_params C) P = firstn (slow_params C) (pt_P p) -> a2 = a0 /\ pt_info p = Some a0).
    { intros E Hf. destruct E as (V & Lp & La & _ & a & i & Hpa & _).
      destruct A0 as [[A0 _]|[A0 _]]; [|congruence]. split; [|exact A0].
      assert (Hm : forall j, (j < slow_params C)%nat -> nth j m false = false).
      { intros j Hj. unfold m, changeMask. rewrite V0, V. cbn [negb]. rewrite nth_diff by congruence.
        rewrite P0, L0, La. assert (nth j (pt_P p) 0 = nth j P 0) as ->; [|rewrite Reqb_refl; reflexivity].
        rewrite <- (nth_firstn_lt (slow_params C) j P) by exact Hj. rewrite Hf. rewrite nth_firstn_lt by exact Hj. reflexivity. }
      apply S2.
      - apply firstn_any. intros j Hj. apply Hm. unfold slow_params. destruct (block_semi_fast C); lia.
      - unfold slow_params in Hm. destruct (block_semi_fast C) eqn:Eb; cbn [negb]; [apply andb_false_r|].
        rewrite andb_true_r. apply semi_any. intros j Hj. apply Hm. lia. }
    destruct ok.
    - destruct R2 as (t & Ft & Tt & Et & Eb).
      assert (F2 : Forall2 (fun k v => any (both (lk_dep k) m) = true \/ (v = fresh_like C (pt_P p2) t k /\ v <> logZero))
                     (likes C) (pt_likes p2)).
      { rewrite K2, K1, P2. destruct Up as [E|E].
        - destruct E as (V & Lp & La & (t0 & Ft0 & Tt0 & K & Z) & _). rewrite K. rewrite K in Z.
          assert (Em : m = diff (pt_P p) P). { unfold m, changeMask. rewrite V0, V, P0, L0, La. reflexivity. }
          rewrite Em. pose proof (sc_dep C SC) as SD. revert Z SD. generalize (likes C). intros ks.
          induction ks as [|k ks IH]; intros Z SD; [constructor|].
          pose proof (Forall_inv Z) as Z1. pose proof (Forall_inv_tail Z) as Z2. pose proof (Forall_inv SD) as Dk.
          pose proof (Forall_inv_tail SD) as SD'. cbn [map] in *.
          constructor; [|apply IH; assumption].
          destruct (any (both (lk_dep k) (diff (pt_P p) P))) eqn:Ek; [left; reflexivity|right].
          split; [|assumption]. apply Dk; try assumption. intros j Hj. apply (diff_untouched _ _ k j); congruence.
        - destruct E as (_ & LK & V & _). assert (Em : m = repeat true (np C)). { unfold m, changeMask. rewrite V0, V. reflexivity. }
          rewrite Em. pose proof (sc_par C SC) as SP. revert LK SP. generalize (pt_likes p). generalize (likes C). intros ks.
          induction ks as [|k ks IH]; intros vs Hv SP; destruct vs as [|v vs]; try discriminate; constructor.
          + left. destruct (Forall_inv SP) as (j & Hj & Dj). apply (any_true _ j). rewrite nth_both, Dj.
            rewrite nth_repeat_true by exact Hj. reflexivity.
          + apply IH; [cbn in Hv; lia|exact (Forall_inv_tail SP)]. }
      unfold LogLikeWithTheorySet.
      destruct (like_loop_ok p2 a2 t m I2 Tt (likes C) (slowChanged C m) (pt_likes p2) h2 i2 Hl2) as
        (h3 & i3 & vs & ok & -> & Hl3 & Ei3 & X3 & Ln3 & Lv & R3); [rewrite P2; exact Eb|exact F2|exact (sc_bg C SC)|].
      cbn [bindO]. eexists h3, _, _, a2, i3. split; [reflexivity|]. split.
      { rewrite AddLike_zsum. unfold fresh_main. rewrite Ft. rewrite P2 in R3. destruct ok.
        - destruct R3 as [Ev Z]. rewrite <- Ev.
          destruct (existsb _ vs) eqn:Ex; [|reflexivity].
          apply existsb_lz in Ex. apply Exists_exists in Ex as (x & Hx & Ez). rewrite Forall_forall in Z.
          exfalso. exact (Z x Hx Ez).
        - assert (existsb (fun l => if Req_EM_T l logZero then true else false) (map (fresh_like C P t) (likes C)) = true) as ->.
          { apply existsb_lz. apply Exists_exists in R3 as (k & Hk & Ek). apply Exists_exists.
            exists (fresh_like C P t k). split; [apply in_map, Hk|exact Ek]. }
          unfold zsum. destruct (Req_EM_T (prior0 C P) logZero); [reflexivity|]. destruct (Req_EM_T logZero logZero); congruence. }
      unfold set_last, set_likes. cbn [pt_P pt_info pt_likes pt_last pt_valid pt_th].
      split; [exact P2|]. split; [apply (ext_trans _ _ _ X0), (ext_trans _ _ _ X2), X3|]. split; [lia|]. split; [exact I2|].
      split; [exact Hl3|]. split; [exact Ha|]. split.
      + intros Hz. rewrite AddLike_zsum in Hz. destruct ok.
        2:{ exfalso. apply Hz. unfold zsum. destruct (Req_EM_T (prior0 C P) logZero); [reflexivity|].
            destruct (Req_EM_T logZero logZero); congruence. }
        destruct R3 as [Ev Z]. unfold evaluated. cbn [pt_P pt_info pt_likes pt_last pt_valid pt_th]. rewrite P2 in *.
        split; [exact V2|]. split; [congruence|]. split; [reflexivity|]. split.
        * exists t. repeat split; assumption.
        * exists a2, i3. split; [exact I2|]. split; [exact Hl3|]. intros U. destruct (Et U) as (tr & d & E1 & E2).
          exists tr, d. split; [exact E1|congruence].
      + intros E Hf. destruct (Hfast E Hf) as [-> Hp]. congruence.
    - eexists h2, p2, logZero, a2, i2. split; [reflexivity|]. split; [unfold fresh_main; rewrite R2; reflexivity|].
      split; [exact P2|]. split; [apply (ext_trans _ _ _ X0 X2)|]. split; [lia|]. split; [exact I2|]. split; [exact Hl2|].
      split; [exact Ha|]. split; [congruence|]. intros E Hf. destruct (Hfast E Hf) as [-> Hp]. congruence.
  Qed.

  Lemma GetLogLike_ok h p P : usable h p -> length P = np C ->
    exists h' q v, GetLogLike C h (set_P P p) = Some (h', q, v) /\ v = total C P /\ pt_P q = P /\
      ext h h' /\ (length h <= length h')%nat /\
      (pt_info q = pt_info p \/ exists a i, pt_info q = Some a /\ live h' a i /\ (length h <= a)%nat) /\
      (v <> logZero -> evaluated h' q) /\
      (evaluated h p -> firstn (slow_params C) P = firstn (slow_params C) (pt_P p) -> pt_info q = pt_info p).
  Proof.
    intros Up LP. unfold GetLogLike, total. change (pt_P (set_P P p)) with P.
    destruct (Reqb (bounds C P) logZero) eqn:B.
    { apply Reqb_true in B. eexists h, _, _. split; [reflexivity|]. rewrite B. destruct (Req_EM_T logZero logZero); [|congruence].
      split; [reflexivity|]. split; [reflexivity|]. split; [apply ext_refl|]. split; [lia|]. split; [left; reflexivity|].
      split; [congruence|reflexivity]. }
    apply Reqb_false in B. destruct (Req_EM_T (bounds C P) logZero) as [|_]; [contradiction|].
    destruct (Req_EM_T (prior0 C P) logZero) as [E|E].
    - (* impossible derived quantities *)
      unfold GetLogLikeMain. unfold SetCurrentPoint. change (pt_info (set_P P p)) with (pt_info p).
      destruct (pt_info p) as [a|] eqn:Ea.
      + change (pt_P (set_P P p)) with P. rewrite E, Reqb_refl. cbn [bindO]. unfold AddLikeTemp. rewrite (proj2 (Reqb_false _ _) B), Reqb_refl.
        cbn [negb]. rewrite Reqb_refl. eexists h, _, _. split; [reflexivity|]. split; [reflexivity|]. split; [reflexivity|].
        split; [apply ext_refl|]. split; [lia|]. split; [left; exact Ea|]. split; [congruence|]. intros; exact Ea.
      + cbn [alloc]. cbn [pt_P]. change (pt_P (set_P P p)) with P. rewrite E, Reqb_refl. cbn [bindO]. unfold AddLikeTemp.
        rewrite (proj2 (Reqb_false _ _) B), Reqb_refl. cbn [negb]. rewrite Reqb_refl. eexists _, _, _. split; [reflexivity|].
        split; [reflexivity|]. split; [reflexivity|]. split; [apply ext_app|]. split; [rewrite app_length; lia|]. split.
        { right. exists (length h). eexists. split; [reflexivity|]. split; [apply live_new|lia]. }
        split; [congruence|]. intros (_ & _ & _ & _ & a & i & Ha & _). congruence.
    - destruct (GetLogLikeMain_ok h p P Up LP E) as (h1 & q & v & a & i & -> & -> & Pq & X & Ln & I & Hl & A & Hv & Hf).
      cbn [bindO]. unfold AddLikeTemp. rewrite (proj2 (Reqb_false _ _) B). cbn [negb].
      assert (Hi : pt_info q = pt_info p \/ exists a i, pt_info q = Some a /\ live h1 a i /\ (length h <= a)%nat).
      { destruct A as [A|A]; [left; congruence|right; exists a, i; repeat split; assumption]. }
      destruct (Req_EM_T (fresh_main C P) logZero) as [Z|Z].
      + rewrite Z, Reqb_refl, Reqb_refl. eexists h1, q, _. split; [reflexivity|]. repeat (split; [first [reflexivity|assumption]|]).
        split; [congruence|exact Hf].
      + rewrite (proj2 (Reqb_false _ _) Z).
        destruct (Reqb (bounds C P + fresh_main C P / T C) logZero) eqn:Y.
        * eexists h1, q, _. split; [reflexivity|]. apply Reqb_true in Y. rewrite Y.
          destruct (Req_EM_T logZero logZero); [|congruence]. repeat (split; [first [reflexivity|assumption]|]).
          split; [congruence|exact Hf].
        * cbn [negb]. apply Reqb_false in Y. destruct (Req_EM_T (bounds C P + fresh_main C P / T C) logZero) as [|_]; [contradiction|].
          rewrite Pq. unfold Reqb. eexists h1, q, _. split; [reflexivity|]. destruct (Req_EM_T (priors C P) logZero).
          -- repeat (split; [first [reflexivity|assumption]|]). split; [congruence|exact Hf].
          -- repeat (split; [first [reflexivity|assumption]|]). split; [intros _; apply Hv, Z|exact Hf].
  Qed.

  (** ** Clearing points *)
  Lemma Clear_same (h : heap) (p keep : point) : pt_info p = pt_info keep ->
    exists q, Clear h p keep = Some (h, q) /\ (pt_info q = None \/ pt_info q = pt_info keep).
  Proof.
    intros E. unfold Clear. rewrite E. destruct (pt_info keep) as [b|].
    - rewrite Nat.eqb_refl. eexists. split; [reflexivity|]. right. reflexivity.
    - eexists. split; [reflexivity|]. left. reflexivity.
  Qed.
  Lemma Clear_none (h : heap) (p keep : point) : pt_info p = None -> exists q, Clear h p keep = Some (h, q) /\ pt_info q = None.
  Proof. intros E. unfold Clear. rewrite E. eexists. split; reflexivity. Qed.
  Lemma Clear_other (h : heap) (p keep : point) a i : pt_info p = Some a -> pt_info keep <> Some a -> live h a i ->
    exists q, Clear h p keep = Some (upd a None h, q) /\ pt_info q = None.
  Proof.
    intros E N Hl. unfold Clear. rewrite E. destruct (match pt_info keep with Some b => Nat.eqb a b | None => false end) eqn:B.
    - destruct (pt_info keep) as [b|]; [|discriminate]. apply Nat.eqb_eq in B. subst. congruence.
    - unfold dealloc. rewrite (deref_live _ _ _ Hl). cbn. eexists. split; reflexivity.
  Qed.
  Lemma usable_info h p a : usable h p -> pt_info p = Some a -> exists i, live h a i.
  Proof.
    intros [(_ & _ & _ & _ & a' & i & Ha & Hl & _)|(_ & _ & _ & _ & Ha)] E; [|congruence].
    assert (a' = a) by congruence. subst. exists i. exact Hl.
  Qed.
  Lemma evaluated_free h p a : evaluated h p -> pt_info p <> Some a -> evaluated (upd a None h) p.
  Proof.
    intros (V & L & A & B & b & i & Hi & Hl & Ht) N. repeat split; try assumption.
    exists b, i. split; [exact Hi|]. split; [|exact Ht]. unfold live in *. rewrite upd_other by congruence. exact Hl.
  Qed.
  Lemma usable_free h p a : usable h p -> pt_info p <> Some a -> usable (upd a None h) p.
  Proof. intros [E|E] N; [left; apply evaluated_free; assumption|right; exact E]. Qed.

  (** clearing a trial point evaluated from [cur] *)
  Lemma Clear_trial h h1 q cur : usable h cur -> ext h h1 ->
    (pt_info q = pt_info cur \/ exists a i, pt_info q = Some a /\ live h1 a i /\ (length h <= a)%nat) ->
    exists h2 q2, Clear h1 q cur = Some (h2, q2) /\ ext h h2 /\ (pt_info q2 = None \/ pt_info q2 = pt_info cur).
  Proof.
    intros U X [E|(a & i & E & Hl & Ha)].
    - destruct (Clear_same h1 q cur E) as (q2 & -> & Hq). exists h1, q2. repeat split; assumption.
    - assert (pt_info cur <> Some a) as N.
      { intros E2. destruct (usable_info _ _ _ U E2) as (j & Hj). apply live_lt in Hj. lia. }
      destruct (Clear_other h1 q cur a i E N Hl) as (q2 & -> & Hq). exists (upd a None h1), q2. split; [reflexivity|].
      split; [|left; exact Hq]. apply ext_free; [exact X|]. intros j Hj. apply live_lt in Hj. lia.
  Qed.
  (** clearing the current point when another one replaces it *)
  Lemma Clear_current h cur q : usable h cur -> evaluated h q ->
    exists h2 q2, Clear h cur q = Some (h2, q2) /\ evaluated h2 q.
  Proof.
    intros U E. destruct (pt_info cur) as [a|] eqn:Ea.
    - destruct (usable_info _ _ _ U Ea) as (i & Hl).
      assert ({pt_info q = Some a} + {pt_info q <> Some a}) as [Eq|Nq] by (decide equality; apply Nat.eq_dec).
      + destruct (Clear_same h cur q) as (q2 & -> & _); [congruence|]. exists h, q2. split; [reflexivity|exact E].
      + destruct (Clear_other h cur q a i Ea Nq Hl) as (q2 & -> & _). exists (upd a None h), q2. split; [reflexivity|].
        apply evaluated_free; assumption.
    - destruct (Clear_none h cur q Ea) as (q2 & -> & _). exists h, q2. split; [reflexivity|exact E].
  Qed.
  (** a point that was replaced in turn *)
  Lemma Clear_drop h cur q : usable h cur -> evaluated h q ->
    exists h2 q2, Clear h q cur = Some (h2, q2) /\ usable h2 cur.
  Proof.
    intros U E. assert (E2 := E). destruct E2 as (_ & _ & _ & _ & a & i & Ha & Hl & _).
    assert ({pt_info cur = Some a} + {pt_info cur <> Some a}) as [Eq|Nq] by (decide equality; apply Nat.eq_dec).
    - destruct (Clear_same h q cur) as (q2 & -> & _); [congruence|]. exists h, q2. split; [reflexivity|exact U].
    - destruct (Clear_other h q cur a i Ha Nq Hl) as (q2 & -> & _). exists (upd a None h), q2. split; [reflexivity|].
      apply usable_free; assumption.
  Qed.

  (** ** Moves *)
  Definition ev_ok (e : list R * R) : Prop := snd e = total C (fst e).
  Lemma usable_len h p : usable h p -> length (pt_P p) = np C.
  Proof. intros [(_ & L & _)|(L & _)]; exact L. Qed.
  Lemma vadd_length a b : length (vadd a b) = min (length a) (length b).
  Proof. unfold vadd. rewrite map_length, combine_length. reflexivity. Qed.
  Lemma vadd_nth a b j : (j < length a)%nat -> (j < length b)%nat -> nth j (vadd a b) 0 = nth j a 0 + nth j b 0.
  Proof.
    revert b j. induction a as [|x a IH]; intros [|y b] j H1 H2; cbn in *; try lia. destruct j; [reflexivity|]. apply IH; lia.
  Qed.
  Lemma slow_le : (slow_params C <= np C)%nat.
  Proof. unfold slow_params. pose proof (sc_np C SC). destruct (block_semi_fast C); lia. Qed.
  Lemma vadd_fast P d : length P = np C -> sound_delta C d ->
    length (vadd P d) = np C /\ firstn (slow_params C) (vadd P d) = firstn (slow_params C) P.
  Proof.
    intros LP [Ld Hd]. pose proof slow_le as Hs. assert (L : length (vadd P d) = np C) by (rewrite vadd_length; lia).
    split; [exact L|]. apply firstn_nth_eq; [lia|]. intros j Hj. rewrite vadd_nth by lia. rewrite (Hd j Hj). lra.
  Qed.

  Lemma drag_like_ok l : Forall (fun q => sound_delta C (fst q)) l ->
    forall h cs ce ts le ev, usable h cs -> evaluated h ce -> (pt_info ts = None \/ pt_info ts = pt_info cs) ->
    le = total C (pt_P ce) -> Forall ev_ok ev ->
    exists h2 cs2 ce2 le2 ev2, drag_like C l h cs ce ts le ev = Some (h2, cs2, ce2, le2, ev2) /\
      ext h h2 /\ evaluated h2 ce2 /\ le2 = total C (pt_P ce2) /\ Forall ev_ok ev2.
  Proof.
    induction 1 as [|[d acc] l Hd Hl IH]; intros h cs ce ts le ev Us Ee Ht Ele Hev.
    - exists h, cs, ce, le, ev. split; [reflexivity|]. split; [apply ext_refl|]. split; [exact Ee|]. split; [exact Ele|exact Hev].
    - cbn [drag_like]. cbn [fst] in Hd.
      destruct (vadd_fast (pt_P ce) d (usable_len h ce (or_introl Ee)) Hd) as [Le Fe].
      destruct (vadd_fast (pt_P cs) d (usable_len h cs Us) Hd) as [Ls Fs].
      destruct (GetLogLike_ok h ce (vadd (pt_P ce) d) (or_introl Ee) Le) as (h1 & te & EndLike & -> & VE & Pte & X1 & Ln1 & Ite & Gte & Fte).
      cbn [bindO]. assert (Hte : pt_info te = pt_info ce) by (apply Fte; assumption).
      assert (Hev1 : Forall ev_ok (ev ++ [(vadd (pt_P ce) d, EndLike)])).
      { apply Forall_app. split; [exact Hev|]. constructor; [exact VE|constructor]. }
      destruct (Reqb EndLike logZero) eqn:Z; cbn [negb bindO].
      + (* impossible end point *)
        destruct (Clear_same h1 te ce Hte) as (q2 & -> & _). cbn [bindO fst].
        assert (exists q3, Clear h1 ts cs = Some (h1, q3) /\ (pt_info q3 = None \/ pt_info q3 = pt_info cs)) as (q3 & -> & Hq3).
        { destruct Ht as [Ht|Ht]; [destruct (Clear_none h1 ts cs Ht) as (q3 & -> & Hq); exists q3; auto|].
          destruct (Clear_same h1 ts cs Ht) as (q3 & -> & Hq). exists q3. auto. }
        cbn [bindO fst snd].
        destruct (IH h1 cs ce q3 le (ev ++ [(vadd (pt_P ce) d, EndLike)])) as (h2 & cs2 & ce2 & le2 & ev2 & -> & X2 & R); try assumption.
        { apply (usable_ext h); assumption. }
        { apply (evaluated_ext h); assumption. }
        exists h2, cs2, ce2, le2, ev2. split; [reflexivity|]. split; [apply (ext_trans _ _ _ X1 X2)|exact R].
      + apply Reqb_false in Z. specialize (Gte Z).
        destruct (GetLogLike_ok h1 cs (vadd (pt_P cs) d) (usable_ext _ _ _ X1 Us) Ls)
          as (h2 & ts1 & StartLike & -> & VS & Pts & X2 & Ln2 & Its & Gts & Fts).
        cbn [bindO].
        assert (Hev2 : Forall ev_ok ((ev ++ [(vadd (pt_P ce) d, EndLike)]) ++ [(vadd (pt_P cs) d, StartLike)])).
        { apply Forall_app. split; [exact Hev1|]. constructor; [exact VS|constructor]. }
        destruct (if negb (Reqb StartLike logZero) then acc else false) eqn:A.
        * assert (ZS : StartLike <> logZero).
          { destruct (Reqb StartLike logZero) eqn:ZS; [discriminate|]. apply Reqb_false. exact ZS. }
          specialize (Gts ZS).
          destruct (Clear_same h2 ce te (eq_sym Hte)) as (q2 & -> & _). cbn [bindO fst].
          assert (Xc : exists h3 q3, Clear h2 cs ts1 = Some (h3, q3) /\ ext h2 h3).
          { destruct Us as [Es|Es].
            - destruct (Clear_same h2 cs ts1) as (q3 & -> & _).
              { symmetry. apply Fts; [apply (evaluated_ext h); assumption|exact Fs]. }
              exists h2, q3. split; [reflexivity|apply ext_refl].
            - destruct Es as (_ & _ & _ & _ & In). destruct (Clear_none h2 cs ts1 In) as (q3 & -> & _).
              exists h2, q3. split; [reflexivity|apply ext_refl]. }
          destruct Xc as (h3 & q3 & -> & X3). cbn [bindO fst].
          destruct (IH h3 ts1 te ts1 EndLike _
                      (or_introl (evaluated_ext _ _ _ X3 Gts)) (evaluated_ext _ _ _ (ext_trans _ _ _ X2 X3) Gte)
                      (or_intror eq_refl) ltac:(rewrite Pte; exact VE) Hev2)
            as (h4 & cs2 & ce2 & le2 & ev2 & -> & X4 & R).
          exists h4, cs2, ce2, le2, ev2. split; [reflexivity|]. split; [|exact R].
          apply (ext_trans _ _ _ X1), (ext_trans _ _ _ X2), (ext_trans _ _ _ X3), X4.
        * destruct (Clear_same h2 te ce Hte) as (q2 & -> & _). cbn [bindO fst].
          destruct (Clear_trial h1 h2 ts1 cs (usable_ext _ _ _ X1 Us) X2 Its) as (h3 & q3 & -> & X3 & Hq3). cbn [bindO fst snd].
          assert (X03 : ext h h3) by apply (ext_trans _ _ _ X1 X3).
          destruct (IH h3 cs ce q3 le _ (usable_ext _ _ _ X03 Us) (evaluated_ext _ _ _ X03 Ee) Hq3 Ele Hev2)
            as (h4 & cs2 & ce2 & le2 & ev2 & -> & X4 & R).
          exists h4, cs2, ce2, le2, ev2. split; [reflexivity|]. split; [apply (ext_trans _ _ _ X03 X4)|exact R].
  Qed.

  (** the points written *)
  Definition out_ok (o : point * R) : Prop := snd o = total C (pt_P (fst o)) /\ snd o <> logZero /\ right_point C (fst o).
  Lemma evaluated_right h p : evaluated h p -> right_point C p.
  Proof. intros (_ & _ & _ & (t & A & B & E & _) & _). exists t. repeat split; assumption. Qed.
  (** the state between moves *)
  Definition s_ok (s : sampler Tr D Pw Bg) : Prop :=
    usable (s_heap s) (s_cur s) /\ Forall ev_ok (s_eval s) /\
    (evaluated (s_heap s) (s_cur s) -> s_like s = total C (pt_P (s_cur s))).
  Lemma do_move_ok m s : sound_move C m -> s_ok s ->
    exists s', do_move C m s = Some s' /\ s_ok s' /\
      (s_out s' = s_out s /\ (evaluated (s_heap s') (s_cur s') \/ s_cur s' = s_cur s /\ s_like s' = s_like s)
       \/ s_out s' = s_out s ++ [(s_cur s, s_like s)] /\ s_like s <> logZero /\ evaluated (s_heap s') (s_cur s')).
  Proof.
    intros Hm (U & Hev & Hl). destruct m as [P acc mu|P l acc mu]; cbn [do_move sound_move] in *.
    - unfold metropolis_like.
      destruct (GetLogLike_ok (s_heap s) (s_cur s) P U Hm) as (h1 & q & v & -> & V & Pq & X & Ln & I & G & _). cbn [bindO].
      assert (Hev1 : Forall ev_ok (s_eval s ++ [(P, v)])).
      { apply Forall_app. split; [exact Hev|]. constructor; [exact V|constructor]. }
      destruct (if negb (Reqb v logZero) then acc else false) eqn:A.
      + assert (Z : v <> logZero). { destruct (Reqb v logZero) eqn:Z; [discriminate|]. apply Reqb_false. exact Z. }
        specialize (G Z). destruct (Clear_current h1 (s_cur s) q (usable_ext _ _ _ X U) G) as (h2 & q2 & -> & E2). cbn [bindO fst andb].
        eexists. split; [reflexivity|]. split.
        { split; [left; exact E2|]. split; [exact Hev1|]. cbn. intros _. rewrite Pq. exact V. }
        cbn. destruct (mu && negb (Reqb (s_like s) logZero)) eqn:O.
        * right. split; [reflexivity|]. apply andb_true_iff in O as [_ O]. apply negb_true_iff in O. apply Reqb_false in O.
          split; assumption.
        * left. split; [reflexivity|]. left; exact E2.
      + destruct (Clear_trial (s_heap s) h1 q (s_cur s) U X I) as (h2 & q2 & -> & X2 & _). cbn [bindO fst andb].
        eexists. split; [reflexivity|]. split.
        { split; [cbn; apply (usable_ext _ _ _ X2 U)|]. split; [exact Hev1|]. cbn. intros E. apply Hl.
          destruct U as [U|U]; [exact U|]. destruct U as (_ & _ & V1 & _). destruct E as (V2 & _). congruence. }
        cbn. left. split; [reflexivity|]. right. split; reflexivity.
    - destruct Hm as [LP Hd]. unfold dragging_like.
      destruct (GetLogLike_ok (s_heap s) (s_cur s) P U LP) as (h1 & q & v & -> & V & Pq & X & Ln & I & G & _). cbn [bindO].
      assert (Hev1 : Forall ev_ok (s_eval s ++ [(P, v)])).
      { apply Forall_app. split; [exact Hev|]. constructor; [exact V|constructor]. }
      destruct (Reqb v logZero) eqn:Z.
      + destruct (Clear_trial (s_heap s) h1 q (s_cur s) U X I) as (h2 & q2 & -> & X2 & _). cbn [bindO fst].
        eexists. split; [reflexivity|]. split.
        { split; [cbn; apply (usable_ext _ _ _ X2 U)|]. split; [exact Hev1|]. cbn. intros E. apply Hl.
          destruct U as [U|U]; [exact U|]. destruct U as (_ & _ & V1 & _). destruct E as (V2 & _). congruence. }
        cbn. left. split; [reflexivity|]. right. split; reflexivity.
      + apply Reqb_false in Z. specialize (G Z).
        destruct (drag_like_ok l Hd h1 (s_cur s) q (mkPt [] [] [] false None None) v _ (usable_ext _ _ _ X U) G
                    (or_introl eq_refl) ltac:(rewrite Pq; exact V) Hev1) as (h2 & cs2 & ce2 & le2 & ev2 & -> & X2 & E2 & L2 & Hev2).
        cbn [bindO]. pose proof (usable_ext _ _ _ (ext_trans _ _ _ X X2) U) as U2.
        destruct acc; cbn [andb].
        * destruct (Clear_current h2 (s_cur s) ce2 U2 E2) as (h3 & q3 & -> & E3). cbn [bindO fst].
          eexists. split; [reflexivity|]. split.
          { split; [left; exact E3|]. split; [exact Hev2|]. cbn. intros _. exact L2. }
          cbn. destruct (mu && negb (Reqb (s_like s) logZero)) eqn:O.
          -- right. split; [reflexivity|]. apply andb_true_iff in O as [_ O]. apply negb_true_iff in O. apply Reqb_false in O.
             split; assumption.
          -- left. split; [reflexivity|]. left; exact E3.
        * destruct (Clear_drop h2 (s_cur s) ce2 U2 E2) as (h3 & q3 & -> & U3). cbn [bindO fst].
          eexists. split; [reflexivity|]. split.
          { split; [exact U3|]. split; [exact Hev2|]. cbn. intros E. apply Hl.
            destruct U as [U|U]; [exact U|]. destruct U as (_ & _ & V1 & _). destruct E as (V2 & _). congruence. }
          cbn. left. split; [reflexivity|]. right. split; reflexivity.
  Qed.

  (** with the first point [p] and its likelihood [l] as read from a file *)
  Definition run_ok (p : point) (l : R) (s : sampler Tr D Pw Bg) : Prop :=
    s_ok s /\ (unevaluated C (s_cur s) /\ s_cur s = p /\ s_like s = l /\ s_out s = []
               \/ evaluated (s_heap s) (s_cur s) /\
                  exists o rest, s_out s = o ++ rest /\ (o = [] \/ o = [(p, l)] /\ l <> logZero) /\ Forall out_ok rest).
  Lemma do_move_run p l m s : sound_move C m -> run_ok p l s -> exists s', do_move C m s = Some s' /\ run_ok p l s'.
  Proof.
    intros Hm [So R]. destruct (do_move_ok m s Hm So) as (s' & E & So' & H). exists s'. split; [exact E|]. split; [exact So'|].
    destruct H as [[O [Ev|[Ec El]]]|(O & N & Ev)].
    - right. split; [exact Ev|]. rewrite O. destruct R as [(_ & _ & _ & ->)|(_ & R)]; [|exact R].
      exists [], []. auto.
    - rewrite O, Ec, El. destruct R as [R|[E0 R]]; [left; exact R|right].
      split; [|exact R]. destruct So' as [[U|U] _]; [rewrite Ec in U; exact U|].
      destruct U as (_ & _ & V1 & _). destruct E0 as (V2 & _). congruence.
    - right. split; [exact Ev|]. rewrite O. destruct R as [(_ & -> & El & ->)|(E0 & o & rest & -> & Ho & Hr)].
      + rewrite El in *. exists [(p, l)], []. split; [reflexivity|]. split; [right; split; [reflexivity|exact N]|constructor].
      + exists o, (rest ++ [(s_cur s, s_like s)]). rewrite app_assoc. split; [reflexivity|]. split; [exact Ho|].
        apply Forall_app. split; [exact Hr|]. constructor; [|constructor]. destruct So as (_ & _ & Hl).
        split; [apply Hl, E0|]. split; [exact N|]. apply (evaluated_right _ _ E0).
  Qed.
  Lemma do_moves_run p l ms : Forall (sound_move C) ms -> forall s, run_ok p l s ->
    exists s', do_moves C ms s = Some s' /\ run_ok p l s'.
  Proof.
    induction 1 as [|m ms Hm Hms IH]; intros s R.
    - exists s. split; [reflexivity|exact R].
    - cbn [do_moves]. destruct (do_move_run p l m s Hm R) as (s1 & -> & R1). cbn [bindO]. apply IH, R1.
  Qed.
  Lemma start_run h p l : unevaluated C p -> run_ok p l (mkS h p l [] []).
  Proof.
    intros U. split.
    - split; [right; exact U|]. split; [constructor|]. cbn. intros (V & _). destruct U as (_ & _ & V2 & _). congruence.
    - left. cbn. auto.
  Qed.

  (** ** The minimizer *)
  Lemma ffn_ok P h mp : usable h mp -> length P = np C ->
    exists h' mp' l, ffn C P h mp = Some (h', mp', l) /\ usable h' mp' /\ l = total C P /\
      (if Req_EM_T (total C P) logZero then mp' = mp else evaluated h' mp' /\ pt_P mp' = P).
  Proof.
    intros U LP. unfold ffn. destruct (GetLogLike_ok h mp P U LP) as (h1 & q & v & -> & V & Pq & X & Ln & I & G & _). cbn [bindO].
    destruct (Reqb v logZero) eqn:Z.
    - destruct (Clear_trial h h1 q mp U X I) as (h2 & q2 & -> & X2 & _). cbn [bindO fst]. eexists _, _, _. split; [reflexivity|].
      split; [apply (usable_ext _ _ _ X2 U)|]. split; [exact V|]. apply Reqb_true in Z.
      destruct (Req_EM_T (total C P) logZero); [reflexivity|congruence].
    - apply Reqb_false in Z. specialize (G Z). destruct (Clear_current h1 mp q (usable_ext _ _ _ X U) G) as (h2 & q2 & -> & E2).
      cbn [bindO fst]. eexists _, _, _. split; [reflexivity|]. split; [left; exact E2|]. split; [exact V|].
      destruct (Req_EM_T (total C P) logZero); [congruence|]. split; [exact E2|exact Pq].
  Qed.
  Lemma ffns_ok Ps : Forall (fun P => length P = np C) Ps -> forall h mp ev, usable h mp -> Forall ev_ok ev ->
    exists h' mp' ev', ffns C Ps h mp ev = Some (h', mp', ev') /\ usable h' mp' /\ Forall ev_ok ev' /\ length ev' = (length ev + length Ps)%nat.
  Proof.
    induction 1 as [|P Ps LP Hp IH]; intros h mp ev U He.
    - exists h, mp, ev. split; [reflexivity|]. split; [exact U|]. split; [exact He|]. cbn. lia.
    - cbn [ffns]. destruct (ffn_ok P h mp U LP) as (h1 & mp1 & l & -> & U1 & V & _). cbn [bindO].
      destruct (IH h1 mp1 (ev ++ [(P, l)]) U1) as (h2 & mp2 & ev2 & -> & U2 & E2 & L2).
      { apply Forall_app. split; [exact He|]. constructor; [exact V|constructor]. }
      exists h2, mp2, ev2. split; [reflexivity|]. split; [exact U2|]. split; [exact E2|]. rewrite L2, app_length. cbn. lia.
  Qed.

  (** ** Importance sampling *)
  (** the values after GetLogLikePost: new ones where do_like is set, stored ones elsewhere *)
  Fixpoint mixed (P : list R) (t : theory D Pw) (dl : list bool) (ks : list (like D Pw Bg)) (vals : list R) : list R :=
    match dl, ks, vals with
    | d :: dl', k :: ks', v :: vals' => (if d then fresh_like C P t k else v) :: mixed P t dl' ks' vals'
    | _, _, _ => vals
    end.
  Fixpoint redone (dl : list bool) (ks : list (like D Pw Bg)) : list (like D Pw Bg) :=
    match dl, ks with d :: dl', k :: ks' => if d then k :: redone dl' ks' else redone dl' ks' | _, _ => [] end.
  Lemma any_all k : has_param C k -> any (both (lk_dep k) (repeat true (np C))) = true.
  Proof.
    intros (j & Hj & E). apply (any_true _ j). rewrite nth_both, E, nth_repeat_true by exact Hj. reflexivity.
  Qed.
  Lemma like_loop_post p a t : pt_info p = Some a -> pt_th p = Some t ->
    forall ks dl bs vals h i, live h a i -> (bs = true -> i_bg i = Some (camb_background C (firstn (nh C) (pt_P p)))) ->
    length dl = length ks -> length vals = length ks -> Forall (no_background C) ks -> Forall (has_param C) ks ->
    exists h' i' vs ok, like_loop C bs p (repeat true (np C)) (combine dl ks) vals h = Some (h', vs, ok) /\
      live h' a i' /\
      (if (ok : bool) then vs = mixed (pt_P p) t dl ks vals /\ Forall (fun k => fresh_like C (pt_P p) t k <> logZero) (redone dl ks)
       else Exists (fun k => fresh_like C (pt_P p) t k = logZero) (redone dl ks)).
  Proof.
    intros Hi Ht ks. induction ks as [|k ks IH]; intros dl bs vals h i Hl Hb Ld Lv N Hp.
    - destruct dl; [|discriminate]. destruct vals; [|discriminate]. exists h, i, [], true. cbn. auto.
    - destruct dl as [|d dl]; [discriminate|]. destruct vals as [|v vals]; [discriminate|].
      pose proof (Forall_inv N) as Nk. pose proof (Forall_inv_tail N) as N'. pose proof (Forall_inv Hp) as Hk. pose proof (Forall_inv_tail Hp) as Hp'.
      cbn [combine like_loop]. rewrite (any_all k Hk), andb_true_r. destruct d.
      + assert (exists h1 i1 bs1,
           (if any (firstn (nh C) (lk_dep k)) && negb bs
            then bindO (SetParamsForBackground C h p) (fun h1 => Some (h1, true)) else Some (h, bs)) = Some (h1, bs1) /\
           live h1 a i1 /\
           (bs1 = true -> i_bg i1 = Some (camb_background C (firstn (nh C) (pt_P p)))) /\
           lk_val k (pt_P p) t (i_bg i1) = fresh_like C (pt_P p) t k) as (h1 & i1 & bs1 & -> & Hl1 & Hb1 & Ev).
        { destruct (any (firstn (nh C) (lk_dep k))) eqn:Eh; cbn [andb].
          - destruct bs; cbn [negb].
            + exists h, i, true. repeat split; auto. unfold fresh_like. rewrite Hb by reflexivity. reflexivity.
            + destruct (SetParamsForBackground_ok h p a i Hi Hl) as (h1 & -> & Ln & Hl1 & X). cbn.
              eexists h1, _, true. split; [reflexivity|]. split; [exact Hl1|]. split; reflexivity.
          - exists h, i, bs. repeat split; auto. apply Nk. apply firstn_any. exact Eh. }
        cbn [bindO]. rewrite Ht. cbn [bindO]. rewrite Hi, (deref_live _ _ _ Hl1). cbn [bindO redone mixed]. rewrite Ev.
        destruct (Reqb (fresh_like C (pt_P p) t k) logZero) eqn:Ez.
        * exists h1, i1, (v :: vals), false. split; [reflexivity|]. split; [exact Hl1|]. apply Exists_cons_hd. apply Reqb_true. exact Ez.
        * destruct (IH dl bs1 vals h1 i1 Hl1 Hb1 ltac:(cbn in Ld; lia) ltac:(cbn in Lv; lia) N' Hp') as (h2 & i2 & vs & ok & -> & Hl2 & R). cbn [bindO].
          exists h2, i2, (fresh_like C (pt_P p) t k :: vs), ok.
          split; [reflexivity|]. split; [exact Hl2|]. destruct ok.
          -- destruct R as [-> R]. split; [reflexivity|]. constructor; [apply Reqb_false; exact Ez|exact R].
          -- apply Exists_cons_tl. exact R.
      + destruct (IH dl bs vals h i Hl Hb ltac:(cbn in Ld; lia) ltac:(cbn in Lv; lia) N' Hp') as (h2 & i2 & vs & ok & -> & Hl2 & R). cbn [bindO redone mixed].
        exists h2, i2, (v :: vs), ok. split; [reflexivity|]. split; [exact Hl2|]. destruct ok; [|exact R].
        destruct R as [-> R]. split; [reflexivity|exact R].
  Qed.
  Lemma mixed_length P t dl ks vals : length (mixed P t dl ks vals) = length vals.
  Proof. revert ks vals. induction dl; intros [|k ks] [|v vals]; cbn; auto. Qed.

  Lemma GetLogLikePost_ok dl h p t : length (pt_P p) = np C -> pt_th p = Some t ->
    length dl = length (likes C) -> length (pt_likes p) = length (likes C) ->
    (forall a, pt_info p = Some a -> exists i, live h a i) ->
    exists h' q v, GetLogLikePost C dl h p = Some (h', q, v) /\
      (bounds C (pt_P p) <> logZero -> prior0 C (pt_P p) <> logZero -> bounds C (pt_P p) + prior0 C (pt_P p) / T C <> logZero ->
       (Forall (fun k => fresh_like C (pt_P p) t k <> logZero) (redone dl (likes C)) ->
        let s := sumR (mixed (pt_P p) t dl (likes C) (pt_likes p)) in
        let l2 := bounds C (pt_P p) + prior0 C (pt_P p) / T C + s / T C in
        pt_likes q = mixed (pt_P p) t dl (likes C) (pt_likes p) /\
        (s <> logZero -> l2 <> logZero -> priors C (pt_P p) <> logZero -> v = l2 + priors C (pt_P p) / T C)) /\
       (Exists (fun k => fresh_like C (pt_P p) t k = logZero) (redone dl (likes C)) -> v = logZero)) /\
      (bounds C (pt_P p) = logZero \/ prior0 C (pt_P p) = logZero \/ priors C (pt_P p) = logZero -> v = logZero).
  Proof.
    intros LP Ht Ld Lv Hi. unfold GetLogLikePost. destruct (Reqb (bounds C (pt_P p)) logZero) eqn:B.
    { apply Reqb_true in B. exists h, p, (bounds C (pt_P p)). split; [reflexivity|]. split; [congruence|]. intros _. exact B. }
    apply Reqb_false in B.
    assert (exists h0 a i, SetCurrentPoint h p = (h0, mkPt (pt_P p) (pt_likes p) (pt_last p) (pt_valid p) (pt_th p) (Some a)) /\ live h0 a i)
      as (h0 & a & i & -> & Hl).
    { unfold SetCurrentPoint. destruct (pt_info p) as [a|] eqn:Ea.
      - destruct (Hi a eq_refl) as (i & Hl). exists h, a, i. split; [|exact Hl]. f_equal. rewrite <- Ea. destruct p; reflexivity.
      - eexists _, _, _. split; [reflexivity|]. apply live_new. }
    cbn [pt_P].
    assert (E1 : AddLikeTemp (T C) (bounds C (pt_P p)) (prior0 C (pt_P p)) =
                 if Reqb (prior0 C (pt_P p)) logZero then logZero else bounds C (pt_P p) + prior0 C (pt_P p) / T C).
    { unfold AddLikeTemp. rewrite (proj2 (Reqb_false _ _) B). reflexivity. }
    rewrite E1. clear E1.
    destruct (Reqb (prior0 C (pt_P p)) logZero) eqn:Z0.
    { apply Reqb_true in Z0. rewrite Reqb_refl. eexists _, _, _. split; [reflexivity|]. split; [congruence|reflexivity]. }
    apply Reqb_false in Z0.
    destruct (Reqb (bounds C (pt_P p) + prior0 C (pt_P p) / T C) logZero) eqn:Z1.
    { apply Reqb_true in Z1. eexists _, _, _. split; [reflexivity|]. split; [congruence|]. intros _. exact Z1. }
    apply Reqb_false in Z1. unfold LogLikeWithTheorySet. cbn [pt_likes].
    set (p0 := mkPt (pt_P p) (pt_likes p) (pt_last p) (pt_valid p) (pt_th p) (Some a)).
    destruct (like_loop_post p0 a t eq_refl Ht (likes C) dl false (pt_likes p) h0 i Hl ltac:(discriminate) Ld Lv (sc_bg C SC) (sc_par C SC))
      as (h1 & i1 & vs & ok & -> & Hl1 & R).
    cbn [bindO]. change (pt_P p0) with (pt_P p) in R.
    assert (NEx : forall ks, Forall (fun k => fresh_like C (pt_P p) t k <> logZero) ks -> Exists (fun k => fresh_like C (pt_P p) t k = logZero) ks -> False).
    { intros ks F E. apply Exists_exists in E. destruct E as (k & Hk & E). rewrite Forall_forall in F. exact (F k Hk E). }
    destruct ok.
    - destruct R as [-> R]. set (s := sumR _). set (L1 := bounds C (pt_P p) + prior0 C (pt_P p) / T C) in *.
      destruct (Reqb (AddLikeTemp (T C) L1 s) logZero) eqn:Z2.
      + apply Reqb_true in Z2. eexists _, _, _. split; [reflexivity|]. split.
        * intros _ _ _. split; [|intros E; destruct (NEx _ R E)]. intros _. split; [reflexivity|]. intros Hs Hl2 _. exfalso.
          unfold AddLikeTemp in Z2. rewrite (proj2 (Reqb_false _ _) Z1) in Z2. cbn [negb] in Z2.
          rewrite (proj2 (Reqb_false _ _) Hs) in Z2. exact (Hl2 Z2).
        * intros _. exact Z2.
      + eexists _, _, _. split; [reflexivity|]. change (pt_P (set_likes _ p0)) with (pt_P p). split.
        * intros _ _ _. split; [|intros E; destruct (NEx _ R E)]. intros _. split; [reflexivity|]. intros Hs Hl2 Hp.
          assert (E2 : AddLikeTemp (T C) L1 s = L1 + s / T C).
          { unfold AddLikeTemp. rewrite (proj2 (Reqb_false _ _) Z1). cbn [negb]. rewrite (proj2 (Reqb_false _ _) Hs). reflexivity. }
          rewrite E2. unfold AddLikeTemp. rewrite (proj2 (Reqb_false _ _) Hl2). cbn [negb]. rewrite (proj2 (Reqb_false _ _) Hp). reflexivity.
        * intros [E|[E|E]]; [contradiction|contradiction|]. rewrite E. unfold AddLikeTemp at 1. rewrite Z2. cbn [negb]. rewrite Reqb_refl. reflexivity.
    - assert (E2 : AddLikeTemp (T C) (bounds C (pt_P p) + prior0 C (pt_P p) / T C) logZero = logZero).
      { unfold AddLikeTemp. rewrite (proj2 (Reqb_false _ _) Z1). cbn [negb]. rewrite Reqb_refl. reflexivity. }
      rewrite E2, Reqb_refl. eexists _, _, _. split; [reflexivity|]. split; [|reflexivity]. intros _ _ _.
      split; [intros F; destruct (NEx _ F R)|reflexivity].
  Qed.
  Lemma mixed_all P t ks : forall vals, length vals = length ks -> mixed P t (repeat true (length ks)) ks vals = map (fresh_like C P t) ks.
  Proof. induction ks as [|k ks IH]; intros [|v vals] H; cbn in *; try discriminate; [reflexivity|]. f_equal. apply IH. lia. Qed.
  Lemma redone_all ks : redone (repeat true (length ks)) ks = ks.
  Proof. induction ks as [|k ks IH]; cbn; [reflexivity|]. f_equal. exact IH. Qed.

  (** ** Memory in use *)
  Definition only (h : heap) (l : list nat) : Prop := forall b i, live h b i -> In b l.
  Definition addr (p : point) : list nat := match pt_info p with Some a => [a] | None => [] end.
  Lemma only_incl h l l' : only h l -> incl l l' -> only h l'.
  Proof. intros H I b i Hb. apply I, (H b i Hb). Qed.
  Lemma only_upd h l a i : only h l -> In a l -> only (upd a (Some i) h) l.
  Proof.
    intros H Ha b j Hb. destruct (Nat.eq_dec a b) as [<-|N]; [exact Ha|]. unfold live in Hb. rewrite upd_other in Hb by exact N. exact (H b j Hb).
  Qed.
  Lemma upd_out {A} n (x : A) l : (length l <= n)%nat -> upd n x l = l.
  Proof. revert n. induction l as [|y l IH]; intros [|n] H; cbn in *; try lia; [reflexivity|reflexivity|]. f_equal. apply IH. lia. Qed.
  Lemma only_free h l a : only h l -> only (upd a None h) (filter (fun b => negb (Nat.eqb a b)) l).
  Proof.
    intros H b j Hb. destruct (Nat.eq_dec a b) as [<-|N].
    - exfalso. unfold live in Hb. destruct (Nat.lt_ge_cases a (length h)) as [L|L].
      + rewrite upd_same in Hb by exact L. discriminate.
      + rewrite upd_out in Hb by exact L. apply nth_error_None in L. congruence.
    - unfold live in Hb. rewrite upd_other in Hb by exact N. apply filter_In. split; [exact (H b j Hb)|].
      apply negb_true_iff, Nat.eqb_neq. exact N.
  Qed.
  Lemma only_app h l i : only h l -> only (h ++ [Some i]) (length h :: l).
  Proof.
    intros H b j Hb. destruct (Nat.lt_ge_cases b (length h)) as [L|L].
    - right. apply (H b j). unfold live in *. rewrite nth_error_app1 in Hb by exact L. exact Hb.
    - left. apply live_lt in Hb. rewrite app_length in Hb. cbn in Hb. lia.
  Qed.
  Lemma SetParamsForBackground_only h p h' l : only h l -> SetParamsForBackground C h p = Some h' -> only h' l.
  Proof.
    intros H E. unfold SetParamsForBackground in E. destruct (deref h (pt_info p)) as [i|] eqn:Dr; [|discriminate]. cbn in E.
    destruct (pt_info p) as [a|]; [|discriminate]. cbn in E. inversion E; subst. apply only_upd; [exact H|].
    unfold deref, bindO in Dr. destruct (nth_error h a) as [[j|]|] eqn:N; try discriminate. exact (H a j N).
  Qed.
  Lemma like_loop_only p m : forall ls vals bs h h' vs ok l, only h l -> like_loop C bs p m ls vals h = Some (h', vs, ok) -> only h' l.
  Proof.
    induction ls as [|[d k] ls IH]; intros vals bs h h' vs ok l H E; cbn [like_loop] in E; [inversion E; subst; exact H|].
    destruct vals as [|v vals]; [inversion E; subst; exact H|].
    destruct (d && any (both (lk_dep k) m)).
    - destruct (any (firstn (nh C) (lk_dep k)) && negb bs).
      + destruct (SetParamsForBackground C h p) as [h1|] eqn:E1; [|discriminate]. cbn [bindO] in E.
        pose proof (SetParamsForBackground_only _ _ _ _ H E1) as H1.
        destruct (pt_th p); [|discriminate]. cbn [bindO] in E. destruct (deref h1 (pt_info p)); [|discriminate]. cbn [bindO] in E.
        destruct (Reqb _ logZero); [inversion E; subst; exact H1|].
        destruct (like_loop C true p m ls vals h1) as [[[h2 vs2] ok2]|] eqn:E2; [|discriminate]. cbn [bindO] in E. inversion E; subst.
        apply (IH _ _ _ _ _ _ _ H1 E2).
      + cbn [bindO] in E. destruct (pt_th p); [|discriminate]. cbn [bindO] in E. destruct (deref h (pt_info p)); [|discriminate]. cbn [bindO] in E.
        destruct (Reqb _ logZero); [inversion E; subst; exact H|].
        destruct (like_loop C bs p m ls vals h) as [[[h2 vs2] ok2]|] eqn:E2; [|discriminate]. cbn [bindO] in E. inversion E; subst.
        apply (IH _ _ _ _ _ _ _ H E2).
    - destruct (like_loop C bs p m ls vals h) as [[[h2 vs2] ok2]|] eqn:E2; [|discriminate]. cbn [bindO] in E. inversion E; subst.
      apply (IH _ _ _ _ _ _ _ H E2).
  Qed.
  Lemma GetNewTransferData_only h p h' q ok l : only h l -> GetNewTransferData C h p = Some (h', q, ok) -> only h' (addr q ++ l).
  Proof.
    intros H E. unfold GetNewTransferData in E. destruct (pt_th p); [|discriminate]. cbn [bindO] in E.
    destruct (camb_transfer C _) as [[tr d]|]; cbn [alloc] in E; inversion E; subst; unfold addr; cbn; apply only_app, H.
  Qed.
  Lemma GetNewPowerData_only h p h' q ok : GetNewPowerData C h p = Some (h', q, ok) -> h' = h /\ pt_info q = pt_info p.
  Proof.
    intros E. unfold GetNewPowerData in E. destruct (pt_th p); [|discriminate]. cbn [bindO] in E. destruct (deref h _); [|discriminate].
    cbn [bindO] in E. destruct (i_tr _); [|discriminate]. cbn [bindO] in E. destruct (camb_power C _ _); inversion E; subst; auto.
  Qed.
  Lemma Calculate_only h p m h' q ok l : only h l -> CalculateRequiredTheoryChanges C h p m = Some (h', q, ok) -> only h' (addr q ++ l).
  Proof.
    intros H E. unfold CalculateRequiredTheoryChanges in E.
    match type of E with bindO ?x _ = _ => destruct x as [[[h1 p1] ok1]|] eqn:E1; [|discriminate] end.
    cbn [bindO] in E. inversion E; subst. clear E. change (addr (set_valid p1)) with (addr p1).
    destruct (use_theory C).
    - match type of E1 with bindO ?x _ = _ => destruct x as [[[h2 p2] ok2]|] eqn:E2; [|discriminate] end. cbn [bindO] in E1.
      assert (H2 : only h2 (addr p2 ++ l)).
      { destruct (slowChanged C m || (semiSlowChanged C m && negb (block_semi_fast C))); [apply (GetNewTransferData_only _ _ _ _ _ _ H E2)|]. inversion E2; subst. apply (only_incl _ _ _ H), incl_appr, incl_refl. }
      destruct ((slowChanged C m || semiSlowChanged C m) && ok2); [|inversion E1; subst; exact H2].
      destruct (GetNewPowerData_only _ _ _ _ _ E1) as [-> Ei]. unfold addr. rewrite Ei. exact H2.
    - destruct (slowChanged C m); [|inversion E1; subst; apply (only_incl _ _ _ H), incl_appr, incl_refl].
      unfold GetNewBackgroundData in E1. destruct (pt_th p); [|discriminate]. cbn [bindO] in E1.
      destruct (SetParamsForBackground C h p) as [h2|] eqn:E2; [|discriminate]. cbn [bindO] in E1.
      pose proof (SetParamsForBackground_only _ _ _ _ H E2) as H2.
      destruct (camb_thermal C _); inversion E1; subst; apply (only_incl _ _ _ H2), incl_appr, incl_refl.
  Qed.
  Lemma GetLogLike_only h p h' q v l : only h l -> pt_info p <> None -> GetLogLike C h p = Some (h', q, v) -> only h' (addr q ++ l).
  Proof.
    intros H Hi E. unfold GetLogLike in E. destruct (Reqb (bounds C _) logZero).
    { inversion E; subst. apply (only_incl _ _ _ H), incl_appr, incl_refl. }
    destruct (GetLogLikeMain C h p) as [[[h1 p1] lm]|] eqn:E1; [|discriminate]. cbn [bindO] in E.
    enough (K : only h1 (addr p1 ++ l)) by (destruct (Reqb _ logZero); inversion E; subst; exact K).
    clear E. unfold GetLogLikeMain, SetCurrentPoint in E1. destruct (pt_info p) as [a|] eqn:Ea; [|congruence].
    destruct (Reqb (prior0 C _) logZero); [inversion E1; subst; apply (only_incl _ _ _ H), incl_appr, incl_refl|].
    destruct (CalculateRequiredTheoryChanges C h (SetNewTheoryResults p) (changeMask C p)) as [[[h2 p2] ok]|] eqn:E2; [|discriminate].
    cbn [bindO] in E1. pose proof (Calculate_only _ _ _ _ _ _ _ H E2) as H2. destruct ok; [|inversion E1; subst; exact H2].
    unfold LogLikeWithTheorySet in E1.
    destruct (like_loop C _ p2 _ _ _ h2) as [[[h3 vs] ok]|] eqn:E3; [|discriminate]. cbn [bindO] in E1. inversion E1; subst.
    apply (like_loop_only _ _ _ _ _ _ _ _ _ _ H2 E3).
  Qed.
  Lemma Clear_only h (p keep : point) h2 q l : only h l -> Clear h p keep = Some (h2, q) -> only h2 l.
  Proof.
    intros H E. unfold Clear in E. destruct (pt_info p) as [a|]; [|inversion E; subst; exact H].
    destruct (match pt_info keep with Some b => _ | None => _ end); [inversion E; subst; exact H|].
    unfold dealloc in E. destruct (deref h (Some a)); [|discriminate]. cbn [bindO] in E. inversion E; subst.
    apply (only_incl _ _ _ (only_free _ _ a H)). intros b Hb. apply filter_In in Hb. apply Hb.
  Qed.
  (** only the kept point's cell, and other ones that were there *)
  Lemma Clear_only_keep h (p keep : point) h2 q l : only h (addr p ++ addr keep ++ l) -> Clear h p keep = Some (h2, q) -> only h2 (addr keep ++ l).
  Proof.
    intros H E. unfold Clear in E. unfold addr in H at 1. destruct (pt_info p) as [a|] eqn:Ea; [|inversion E; subst; exact H].
    assert (F : forall k, only (upd a None h) (filter (fun b => negb (Nat.eqb a b)) (a :: k)) -> only (upd a None h) k).
    { intros k K. apply (only_incl _ _ _ K). intros x Hx. apply filter_In in Hx. destruct Hx as [[<-|Hx] N]; [|exact Hx].
      rewrite Nat.eqb_refl in N. discriminate. }
    destruct (pt_info keep) as [b|] eqn:Eb.
    - destruct (Nat.eqb a b) eqn:Eq.
      + apply Nat.eqb_eq in Eq. inversion E; subst. apply (only_incl _ _ _ H). unfold addr. rewrite Eb. intros x [->|Hx]; [left; reflexivity|exact Hx].
      + unfold dealloc in E. destruct (deref h (Some a)); [|discriminate]. cbn [bindO] in E. inversion E; subst. apply F, only_free, H.
    - unfold dealloc in E. destruct (deref h (Some a)); [|discriminate]. cbn [bindO] in E. inversion E; subst. apply F, only_free, H.
  Qed.
  Lemma incl_swap {A} (a b c : list A) : incl (a ++ b ++ c) (b ++ a ++ c).
  Proof. intros x Hx. rewrite !in_app_iff in *. tauto. Qed.

  Lemma drag_like_only l : Forall (fun q => sound_delta C (fst q)) l ->
    forall h cs ce ts le ev h2 cs2 ce2 le2 ev2 c e k, evaluated h cs -> evaluated h ce -> (pt_info ts = None \/ pt_info ts = pt_info cs) ->
    pt_info cs = Some c -> pt_info ce = Some e -> only h (c :: e :: k) -> drag_like C l h cs ce ts le ev = Some (h2, cs2, ce2, le2, ev2) ->
    only h2 (c :: e :: k) /\ pt_info ce2 = Some e.
  Proof.
    induction 1 as [|[d acc] l Hd Hl IH]; intros h cs ce ts le ev h2 cs2 ce2 le2 ev2 c e k Es Ee Ht Ic Ie O E; cbn [drag_like] in E.
    - inversion E; subst. auto.
    - cbn [fst] in Hd.
      destruct (vadd_fast (pt_P ce) d (usable_len h ce (or_introl Ee)) Hd) as [Le Fe].
      destruct (vadd_fast (pt_P cs) d (usable_len h cs (or_introl Es)) Hd) as [Ls Fs].
      destruct (GetLogLike_ok h ce (vadd (pt_P ce) d) (or_introl Ee) Le) as (h1 & te & EndLike & G1 & VE & Pte & X1 & Ln1 & Ite & Gte & Fte).
      assert (Hte : pt_info te = pt_info ce) by (apply Fte; assumption). rewrite Ie in Hte.
      assert (O1 : only h1 (c :: e :: k)).
      { apply (only_incl _ (addr te ++ (c :: e :: k))); [apply (GetLogLike_only _ _ _ _ _ _ O) in G1; [exact G1|cbn; congruence]|].
        unfold addr. rewrite Hte. intros x [<-|Hx]; [right; left; reflexivity|exact Hx]. }
      rewrite G1 in E. cbn [bindO] in E. destruct (Reqb EndLike logZero) eqn:Z; cbn [negb bindO] in E.
      + destruct (Clear_same h1 te ce) as (q2 & Q2 & _); [congruence|]. rewrite Q2 in E. cbn [bindO fst] in E.
        assert (exists q3, Clear h1 ts cs = Some (h1, q3) /\ (pt_info q3 = None \/ pt_info q3 = pt_info cs)) as (q3 & Q3 & Hq3).
        { destruct Ht as [Ht|Ht]; [destruct (Clear_none h1 ts cs Ht) as (q3 & -> & Hq); exists q3; auto|].
          destruct (Clear_same h1 ts cs Ht) as (q3 & -> & Hq). exists q3. auto. }
        rewrite Q3 in E. cbn [bindO fst snd] in E.
        apply (IH _ _ _ _ _ _ _ _ _ _ _ c e k (evaluated_ext _ _ _ X1 Es) (evaluated_ext _ _ _ X1 Ee) Hq3 Ic Ie O1 E).
      + apply Reqb_false in Z. specialize (Gte Z).
        destruct (GetLogLike_ok h1 cs (vadd (pt_P cs) d) (or_introl (evaluated_ext _ _ _ X1 Es)) Ls)
          as (h3 & ts1 & StartLike & G2 & VS & Pts & X2 & Ln2 & Its & Gts & Fts).
        assert (Hts : pt_info ts1 = pt_info cs) by (apply Fts; [apply (evaluated_ext _ _ _ X1 Es)|exact Fs]). rewrite Ic in Hts.
        assert (O2 : only h3 (c :: e :: k)).
        { apply (only_incl _ (addr ts1 ++ (c :: e :: k))); [apply (GetLogLike_only _ _ _ _ _ _ O1) in G2; [exact G2|cbn; congruence]|].
          unfold addr. rewrite Hts. intros x [<-|Hx]; [left; reflexivity|exact Hx]. }
        rewrite G2 in E. cbn [bindO] in E.
        destruct (if negb (Reqb StartLike logZero) then acc else false) eqn:A.
        * assert (ZS : StartLike <> logZero). { destruct (Reqb StartLike logZero) eqn:ZS; [discriminate|]. apply Reqb_false. exact ZS. }
          destruct (Clear_same h3 ce te) as (q2 & Q2 & _); [congruence|]. rewrite Q2 in E. cbn [bindO fst] in E.
          destruct (Clear_same h3 cs ts1) as (q3 & Q3 & _); [congruence|]. rewrite Q3 in E. cbn [bindO fst] in E.
          apply (IH _ _ _ _ _ _ _ _ _ _ _ c e k (Gts ZS) (evaluated_ext _ _ _ X2 Gte) (or_intror eq_refl) Hts Hte O2 E).
        * destruct (Clear_same h3 te ce) as (q2 & Q2 & _); [congruence|]. rewrite Q2 in E. cbn [bindO fst] in E.
          destruct (Clear_same h3 ts1 cs) as (q3 & Q3 & Hq3); [congruence|]. rewrite Q3 in E. cbn [bindO fst snd] in E.
          apply (IH _ _ _ _ _ _ _ _ _ _ _ c e k (evaluated_ext _ _ _ (ext_trans _ _ _ X1 X2) Es) (evaluated_ext _ _ _ (ext_trans _ _ _ X1 X2) Ee)
                   Hq3 Ic Ie O2 E).
  Qed.

  Lemma do_move_only m s s' k : sound_move C m -> evaluated (s_heap s) (s_cur s) -> only (s_heap s) (addr (s_cur s) ++ k) ->
    do_move C m s = Some s' -> only (s_heap s') (addr (s_cur s') ++ k).
  Proof.
    intros Hm Ev O E. assert (Hi := Ev). destruct Hi as (_ & _ & _ & _ & c & ic & Hc & _).
    assert (Ac : addr (s_cur s) = [c]) by (unfold addr; rewrite Hc; reflexivity).
    assert (Hne : forall P, pt_info (set_P P (s_cur s)) <> None) by (intros P; cbn; congruence).
    destruct m as [P acc mu|P l acc mu]; cbn [do_move sound_move] in *.
    - unfold metropolis_like in E.
      destruct (GetLogLike C (s_heap s) (set_P P (s_cur s))) as [[[h1 q] v]|] eqn:G; [|discriminate]. cbn [bindO] in E.
      pose proof (GetLogLike_only _ _ _ _ _ _ O (Hne P) G) as O1.
      destruct (if negb (Reqb v logZero) then acc else false).
      + destruct (Clear h1 (s_cur s) q) as [[h2 q2]|] eqn:Q; [|discriminate]. cbn [bindO fst andb] in E. inversion E; subst. cbn.
        apply (Clear_only_keep _ _ _ _ _ _ (only_incl _ _ _ O1 (incl_swap _ _ _)) Q).
      + destruct (Clear h1 q (s_cur s)) as [[h2 q2]|] eqn:Q; [|discriminate]. cbn [bindO fst andb] in E. inversion E; subst. cbn.
        apply (Clear_only_keep _ _ _ _ _ _ O1 Q).
    - destruct Hm as [LP Hd]. unfold dragging_like in E.
      destruct (GetLogLike_ok (s_heap s) (s_cur s) P (or_introl Ev) LP) as (h1 & q & v & G & V & Pq & X & Ln & I & Gq & _).
      pose proof (GetLogLike_only _ _ _ _ _ _ O (Hne P) G) as O1. rewrite G in E. cbn [bindO] in E.
      destruct (Reqb v logZero) eqn:Z.
      + destruct (Clear h1 q (s_cur s)) as [[h2 q2]|] eqn:Q; [|discriminate]. cbn [bindO fst andb] in E. inversion E; subst. cbn.
        apply (Clear_only_keep _ _ _ _ _ _ O1 Q).
      + apply Reqb_false in Z. specialize (Gq Z). assert (Hq := Gq). destruct Hq as (_ & _ & _ & _ & e & ie & He & _).
        assert (Aq : addr q = [e]) by (unfold addr; rewrite He; reflexivity).
        destruct (drag_like C l h1 (s_cur s) q _ v _) as [[[[[h2 cs2] ce] le] ev2]|] eqn:Dg; [|discriminate]. cbn [bindO] in E.
        destruct (drag_like_only l Hd _ _ _ (mkPt [] [] [] false None None) _ _ _ _ _ _ _ c e k (evaluated_ext _ _ _ X Ev) Gq (or_introl eq_refl) Hc He
                    ltac:(rewrite Aq, Ac in O1; apply (only_incl _ _ _ O1); intros x Hx; cbn in *; tauto) Dg) as [O2 Hce].
        assert (Ace : addr ce = [e]) by (unfold addr; rewrite Hce; reflexivity).
        destruct acc; cbn [andb] in E.
        * destruct (Clear h2 (s_cur s) ce) as [[h3 q3]|] eqn:Q; [|discriminate]. cbn [bindO fst] in E. inversion E; subst. cbn.
          apply (Clear_only_keep _ _ _ _ _ k) in Q; [exact Q|]. rewrite Ac, Ace. exact O2.
        * destruct (Clear h2 ce (s_cur s)) as [[h3 q3]|] eqn:Q; [|discriminate]. cbn [bindO fst] in E. inversion E; subst. cbn.
          apply (Clear_only_keep _ _ _ _ _ k) in Q; [exact Q|]. rewrite Ac, Ace. apply (only_incl _ _ _ O2). intros x Hx; cbn in *; tauto.
  Qed.
  Lemma do_moves_only p l ms : Forall (sound_move C) ms -> forall s s' k, run_ok p l s -> evaluated (s_heap s) (s_cur s) ->
    only (s_heap s) (addr (s_cur s) ++ k) -> do_moves C ms s = Some s' -> only (s_heap s') (addr (s_cur s') ++ k).
  Proof.
    induction 1 as [|m ms Hm Hms IH]; intros s s' k R Ev O E; cbn [do_moves] in E.
    - inversion E; subst. exact O.
    - destruct (do_move_run p l m s Hm R) as (s1 & E1 & R1). rewrite E1 in E. cbn [bindO] in E.
      apply (IH s1 s'); auto; [|apply (do_move_only m s s1 k Hm Ev O E1)].
      destruct R1 as [S1 [(U & _)|[Ev1 _]]]; [|exact Ev1]. exfalso. destruct U as (_ & _ & V & _).
      destruct R as [S0 _]. destruct (do_move_ok m s Hm S0) as (s2 & E2 & _ & [(_ & [Ev2|[Ec _]])|(_ & _ & Ev2)]);
        rewrite E1 in E2; inversion E2; subst; try (destruct Ev2 as (V2 & _); congruence).
      rewrite Ec in V. destruct Ev as (V2 & _). congruence.
  Qed.
End Proofs.
