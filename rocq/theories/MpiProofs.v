(** Proofs for the messages between chains. *)
From Coq Require Import List Bool Arith Lia.
From Verif Require Import MpiModel.
Import ListNotations.

Lemma set1_eq {A} (f : nat -> A) i v : set1 f i v i = v.
Proof. unfold set1. now rewrite Nat.eqb_refl. Qed.
Lemma set1_ne {A} (f : nat -> A) i v k : k <> i -> set1 f i v k = f k.
Proof. unfold set1. intros H. apply Nat.eqb_neq in H. now rewrite H. Qed.
Lemma set2_eq {A} (f : nat -> nat -> A) i j v : set2 f i j v i j = v.
Proof. unfold set2. now rewrite !Nat.eqb_refl. Qed.
Lemma set2_ne {A} (f : nat -> nat -> A) i j v a b : a <> i \/ b <> j -> set2 f i j v a b = f a b.
Proof. unfold set2. intros [H|H]; apply Nat.eqb_neq in H; rewrite H; [reflexivity|now rewrite andb_false_r]. Qed.
Lemma send_in N f i m b : b <> i -> b < N -> send_all N f i m i b = f i b ++ [m].
Proof. unfold send_all. intros H1 H2. apply Nat.eqb_neq in H1. apply Nat.ltb_lt in H2. now rewrite Nat.eqb_refl, H1, H2. Qed.
Lemma send_out N f i m a b : a <> i \/ b = i -> send_all N f i m a b = f a b.
Proof. unfold send_all. intros [H|H]; [apply Nat.eqb_neq in H; now rewrite H|subst b]. rewrite Nat.eqb_refl. cbn. now rewrite andb_false_r. Qed.
Lemma post_in N f i b : b <> i -> b < N -> post_all N f i i b = RPosted.
Proof. unfold post_all. intros H1 H2. apply Nat.eqb_neq in H1. apply Nat.ltb_lt in H2. now rewrite Nat.eqb_refl, H1, H2. Qed.
Lemma post_out N f i a b : a <> i \/ b = i -> post_all N f i a b = f a b.
Proof. unfold post_all. intros [H|H]; [apply Nat.eqb_neq in H; now rewrite H|subst b]. rewrite Nat.eqb_refl. cbn. now rewrite andb_false_r. Qed.

(** number of updates announced *)
Definition ann (s : sys) : nat := if waiting s 0 then S (ent s 0) else ent s 0.
Definition done (x : recv) : bool := match x with RDone _ => true | _ => false end.
Record Inv (N : nat) (b : bool) (s : sys) : Prop := {
  i_ba : forall i, i < N -> allb s i = true -> burn s i = true;
  i_ua : forall i, i < N -> upd s i = true -> allb s i = true;
  i_w : waiting s 0 = true -> upd s 0 = true /\ inside s 0 = false;
  i_in : forall i, i < N -> inside s i = true -> upd s i = true;
  i_restart : b = true -> forall i, i < N -> burn s i = true /\ allb s i = true;
  i_all : forall i j, i < N -> j < N -> allb s i = true -> burn s j = true /\ (b = false -> j <> i -> rq s i j = RDone MBurn);
  i_self : forall i, rq s i i = RNone;
  i_rq : forall i j, i < N -> j < N -> j <> i -> if b then rq s i j = RNone else
    match rq s i j with RNone => burn s i = false | RPosted => burn s i = true /\ allb s i = false | RDone m => m = MBurn /\ burn s i = true /\ burn s j = true end;
  i_net : forall i j, i < N -> j < N -> i <> j -> net s j i =
    (if negb b && burn s j && negb (done (rq s i j)) then [MBurn] else []) ++ (if j =? 0 then repeat MUpdate (ann s - ent s i) else []);
  i_ent : forall i, i < N -> ent s 0 <= ent s i <= ann s }.

Lemma inv_start N b r s : 0 < N -> (forall i, i < N -> r i = b) -> start N r s -> Inv N b s.
Proof.
  intros HN HR (H1 & H2 & H3). assert (W : waiting s 0 = false) by apply (H1 0 HN).
  assert (A : forall i, i < N -> burn s i = b /\ allb s i = b /\ (upd s i = true -> b = true) /\ inside s i = false /\ ent s i = 0).
  { intros i Hi. destruct (H1 i Hi) as (A1 & A2 & A3 & A4 & A5 & A6). rewrite (HR i Hi) in *. auto. }
  constructor.
  - intros i Hi. destruct (A i Hi) as (-> & -> & _). auto.
  - intros i Hi. destruct (A i Hi) as (_ & -> & H & _). auto.
  - rewrite W. discriminate.
  - intros i Hi. destruct (A i Hi) as (_ & _ & _ & -> & _). discriminate.
  - intros -> i Hi. destruct (A i Hi) as (-> & -> & _). auto.
  - intros i j Hi Hj. destruct (A i Hi) as (_ & -> & _). destruct (A j Hj) as (-> & _). intros ->. split; [reflexivity|discriminate].
  - intros i. apply H3.
  - intros i j Hi Hj Hn. rewrite H3. destruct (A i Hi) as (-> & _). destruct b; reflexivity.
  - intros i j Hi Hj Hn. rewrite H2, H3. destruct (A j Hj) as (-> & _). unfold ann. rewrite W. destruct (A 0 HN) as (_ & _ & _ & _ & ->). cbn. destruct b; cbn; destruct (j =? 0); reflexivity.
  - intros i Hi. unfold ann. rewrite W. destruct (A 0 HN) as (_ & _ & _ & _ & ->). destruct (A i Hi) as (_ & _ & _ & _ & ->). lia.
Qed.

Ltac ss := cbn [burn allb upd waiting inside ent net rq].
Ltac s1 k i := destruct (Nat.eq_dec k i) as [?E|?E]; [subst k; rewrite ?set1_eq in *|rewrite ?(set1_ne _ i _ k) in * by assumption].
Ltac s0 i := destruct (Nat.eq_dec i 0) as [?E|?E]; [subst i; rewrite ?set1_eq in *|rewrite ?(set1_ne _ i _ 0) in * by (apply not_eq_sym; assumption)].

Lemma inv_step N b s s' : Inv N b s -> step N s s' -> Inv N b s'.
Proof.
  intros V H. pose proof V as [V1 V2 V3 V4 V5 V6 V7 V8 V9 V10]. destruct H as [i Hi Bi Ii|i j m l Hi Hj Ri Ni|i Hi Bi Ai Ii Di|i Hi Bi Ai Ui Ii|HN B0 U0 W0 I0|HN B0 U0 W0 I0 E0|i m l H0 Hi Bi Ui Ii Ri Ni|i Hi Ii Li].
  - (* burn *)
    assert (Hb : b = false) by (destruct b; [destruct (V5 eq_refl i Hi); congruence|reflexivity]). subst b.
    assert (NA : forall k, k < N -> allb s k = true -> False) by (intros k Hk Ak; destruct (V6 k i Hk Hi Ak); congruence).
    assert (HN : 0 < N) by lia.
    assert (W : waiting s 0 = false). { destruct (waiting s 0) eqn:W; [|reflexivity]. exfalso. apply (NA 0 HN). apply V2; [exact HN|]. now apply V3. }
    constructor; ss; try assumption.
    + intros k Hk Ak. exfalso. now apply (NA k).
    + intros D. discriminate.
    + intros k j Hk Hj Ak. exfalso. now apply (NA k).
    + intros k. rewrite post_out; [apply V7|]. destruct (Nat.eq_dec k i); [now right|now left].
    + intros k j Hk Hj Hkj. destruct (Nat.eq_dec k i) as [->|E].
      * rewrite post_in by assumption. rewrite set1_eq. split; [reflexivity|]. destruct (allb s i) eqn:A; [exfalso; now apply (NA i)|reflexivity].
      * rewrite post_out by now left. rewrite (set1_ne _ i _ k) by assumption. specialize (V8 k j Hk Hj Hkj). destruct (rq s k j) as [| |m]; try assumption. destruct V8 as (A1 & A2 & A3). repeat split; auto. s1 j i; auto.
    + intros k j Hk Hj Hkj. specialize (V9 k j Hk Hj Hkj). unfold ann in *. ss. rewrite W in *. destruct (Nat.eq_dec j i) as [->|E].
      * rewrite send_in by (try assumption; lia). rewrite V9, set1_eq, Bi. cbn [negb andb app]. rewrite (post_out _ _ i k i) by (now left).
        assert (D : done (rq s k i) = false). { specialize (V8 k i Hk Hi ltac:(lia)). destruct (rq s k i); try reflexivity. destruct V8 as (_ & _ & A3). congruence. }
        rewrite D. cbn [negb app]. destruct (i =? 0); [|reflexivity]. specialize (V10 k Hk). unfold ann in V10. rewrite ?W in V10. replace (ent s 0 - ent s k) with 0 by lia. reflexivity.
      * rewrite send_out by now left. rewrite (set1_ne _ i _ j) by assumption. rewrite V9. destruct (Nat.eq_dec k i) as [->|E2].
        { rewrite post_in by assumption. assert (D : done (rq s i j) = false). { specialize (V8 i j Hi Hj ltac:(lia)). destruct (rq s i j); try reflexivity. destruct V8 as (_ & A3 & _). congruence. } rewrite D. reflexivity. }
        { rewrite post_out by now left. reflexivity. }
  - (* deliver *)
    assert (Hij : j <> i) by (intros ->; rewrite V7 in Ri; discriminate).
    assert (Hb : b = false) by (destruct b; [rewrite (V8 i j Hi Hj Hij) in Ri; discriminate|reflexivity]). subst b.
    pose proof (V8 i j Hi Hj Hij) as R. rewrite Ri in R. destruct R as (Bi & Ai).
    pose proof (V9 i j Hi Hj ltac:(lia)) as M. rewrite Ri, Ni in M. cbn [negb done andb] in M.
    assert (Bj : burn s j = true).
    { destruct (burn s j) eqn:Bj; [reflexivity|]. exfalso. cbn [andb app] in M. destruct (Nat.eqb_spec j 0) as [->|]; [|discriminate].
      unfold ann in *. destruct (waiting s 0) eqn:W; [destruct (V3 eq_refl) as (U & _); apply V2, V1 in U; try lia; congruence|]. specialize (V10 i Hi). replace (ent s 0 - ent s i) with 0 in M by lia. discriminate. }
    rewrite Bj in M. cbn [andb app] in M. injection M as -> M.
    constructor; ss; try assumption.
    + intros k l0 Hk Hl Ak. destruct (V6 k l0 Hk Hl Ak) as (A1 & A2). split; [exact A1|]. intros D Hd. rewrite set2_ne; [now apply A2|]. left. intros ->. congruence.
    + intros k. rewrite set2_ne; [apply V7|]. lia.
    + intros k l0 Hk Hl Hn. destruct (Nat.eq_dec k i) as [->|E]; [destruct (Nat.eq_dec l0 j) as [->|E]|].
      * rewrite set2_eq. auto.
      * rewrite set2_ne by now right. now apply V8.
      * rewrite set2_ne by now left. now apply V8.
    + intros k l0 Hk Hl Hn. specialize (V9 k l0 Hk Hl Hn). unfold ann in *. ss. destruct (Nat.eq_dec k i) as [->|E]; [destruct (Nat.eq_dec l0 j) as [->|E]|].
      * rewrite !set2_eq. cbn [done negb]. rewrite andb_false_r. exact M.
      * rewrite !set2_ne by (auto). exact V9.
      * rewrite !set2_ne by (auto). exact V9.
  - (* all *)
    assert (D : forall j, j < N -> j <> i -> b = false -> rq s i j = RDone MBurn /\ burn s j = true).
    { intros j Hj Hn ->. specialize (V8 i j Hi Hj Hn). destruct (Di j Hj Hn) as (m & E). rewrite E in V8. destruct V8 as (-> & _ & A). auto. }
    constructor; ss; try assumption.
    + intros k Hk. s1 k i; auto.
    + intros k Hk Uk. s1 k i; auto.
    + intros Hb k Hk. destruct (V5 Hb k Hk). split; [assumption|]. s1 k i; auto.
    + intros k j Hk Hj Ak. s1 k i; [|now apply V6]. destruct b; [split; [now apply V5|discriminate]|]. destruct (Nat.eq_dec j i) as [->|E]; [split; [exact Bi|intros _ X; contradiction]|].
      destruct (D j Hj E eq_refl). auto.
    + intros k j Hk Hj Hn. specialize (V8 k j Hk Hj Hn). destruct b; [exact V8|]. s1 k i; [|exact V8]. destruct (D j Hj Hn eq_refl) as (R & _). rewrite R in *. exact V8.
  - (* upd *)
    constructor; ss; try assumption.
    + intros k Hk Uk. s1 k i; auto.
    + intros W. destruct (V3 W) as (A1 & A2). split; [s0 i; auto|exact A2].
    + intros k Hk Ik. s1 k i; auto.
  - (* notify *)
    constructor; ss; try assumption.
    + intros _. auto.
    + intros k j Hk Hj Hn. specialize (V9 k j Hk Hj Hn). unfold ann in *. ss. rewrite set1_eq, W0 in *. destruct (Nat.eq_dec j 0) as [->|E].
      * rewrite send_in by (try assumption; lia). rewrite V9. cbn [Nat.eqb]. specialize (V10 k Hk). rewrite ?W0 in V10. replace (ent s 0 - ent s k) with 0 by lia. replace (S (ent s 0) - ent s k) with 1 by lia. cbn [repeat]. now rewrite app_nil_r.
      * rewrite send_out by now left. rewrite V9. apply Nat.eqb_neq in E. now rewrite E.
    + intros k Hk. specialize (V10 k Hk). unfold ann in *. ss. rewrite set1_eq, W0 in *. lia.
  - (* root *)
    assert (G : forall k, k < N -> k <> 0 -> ent s k = S (ent s 0)).
    { intros k Hk Hn. specialize (V9 k 0 Hk HN Hn). specialize (V10 k Hk). unfold ann in *. rewrite W0 in *. destruct (S (ent s 0) - ent s k) as [|n] eqn:E; [lia|]. exfalso. apply (E0 k); [lia|lia|]. rewrite V9. apply in_app_iff. right. cbn. now left. }
    constructor; ss; try assumption.
    + rewrite set1_eq. discriminate.
    + intros k Hk Ik. s1 k 0; auto.
    + intros k j Hk Hj Hn. specialize (V9 k j Hk Hj Hn). rewrite V9. unfold ann in *. ss. rewrite !set1_eq, W0. f_equal. destruct (Nat.eq_dec j 0) as [Ej|Ej]; [|apply Nat.eqb_neq in Ej; now rewrite Ej]. rewrite Ej in Hn. rewrite (set1_ne _ 0 _ k) by assumption. reflexivity.
    + intros k Hk. specialize (V10 k Hk). unfold ann in *. ss. rewrite !set1_eq, W0 in *. s1 k 0; [lia|]. rewrite (G k Hk E). lia.
  - (* probe *)
    assert (Ai : allb s i = true) by auto. pose proof (V9 i 0 Hi ltac:(lia) ltac:(lia)) as M. rewrite Ni in M. cbn [Nat.eqb] in M.
    assert (P : negb b && burn s 0 && negb (done (rq s i 0)) = false).
    { destruct b; [reflexivity|]. destruct (V6 i 0 Hi ltac:(lia) Ai) as (_ & R). rewrite (R eq_refl ltac:(lia)). cbn. now rewrite andb_false_r. }
    rewrite P in M. cbn [app] in M. destruct (ann s - ent s i) as [|n] eqn:E; [discriminate|]. cbn [repeat] in M. injection M as -> ->.
    pose proof (V10 i Hi) as G.
    constructor; ss; try assumption.
    + intros W. rewrite set1_ne by lia. now apply V3.
    + intros k Hk Ik. s1 k i; auto.
    + intros k j Hk Hj Hn. specialize (V9 k j Hk Hj Hn). unfold ann in *. ss. rewrite (set1_ne _ i _ 0) by lia. destruct (Nat.eq_dec j 0) as [->|E2]; [destruct (Nat.eq_dec k i) as [->|E3]|].
      * rewrite set2_eq, P, set1_eq. cbn [app Nat.eqb]. f_equal. lia.
      * rewrite set2_ne, set1_ne by auto. exact V9.
      * rewrite set2_ne by auto. rewrite V9. apply Nat.eqb_neq in E2. now rewrite E2.
    + intros k Hk. specialize (V10 k Hk). unfold ann in *. ss. rewrite (set1_ne _ i _ 0) by lia. s1 k i; lia.
  - (* leave *)
    constructor; ss; try assumption.
    + intros W. destruct (V3 W). split; [assumption|]. s0 i; auto.
    + intros k Hk Ik. s1 k i; [discriminate|auto].
Qed.
Lemma inv_steps N b s s' : Inv N b s -> steps N s s' -> Inv N b s'.
Proof. intros V H. induction H; [exact V|]. now apply (inv_step N b s1). Qed.
Lemma steps_trans N s1 s2 s3 : steps N s1 s2 -> steps N s2 s3 -> steps N s1 s3.
Proof. intros H1 H2. induction H2; [exact H1|]. now apply (st_step _ _ s0). Qed.
Lemma steps_one N s s' : step N s s' -> steps N s s'.
Proof. intros H. apply (st_step _ _ s); [constructor|exact H]. Qed.

(** ** Continuations *)
Definition same (s s' : sys) : Prop := burn s' = burn s /\ waiting s' = waiting s /\ inside s' = inside s /\ ent s' = ent s.
Lemma path_deliver N s i : Inv N false s -> i < N -> (forall j, j < N -> burn s j = true) -> forall m, m <= N ->
  exists s', steps N s s' /\ same s s' /\ allb s' = allb s /\ upd s' = upd s /\ forall j, j < m -> j <> i -> rq s' i j = RDone MBurn.
Proof.
  intros V Hi B. induction m as [|m IH]; intros Hm.
  - exists s. split; [constructor|]. split; [repeat split|]. split; [reflexivity|]. split; [reflexivity|]. lia.
  - destruct (IH ltac:(lia)) as (s1 & P1 & (P2 & P3 & P4 & P5) & P6 & P7 & P8). pose proof (inv_steps N false s s1 V P1) as V1. destruct (Nat.eq_dec m i) as [E|E].
    + exists s1. repeat split; try assumption. intros j Hj Hn. apply P8; lia.
    + pose proof (i_rq _ _ _ V1 i m Hi ltac:(lia) E) as R. pose proof (i_net _ _ _ V1 i m Hi ltac:(lia) ltac:(lia)) as M. rewrite P2, B in M by lia. rewrite P2, B in R by lia.
      destruct (rq s1 i m) as [| |x] eqn:Q; [discriminate| |].
      * cbn [negb done andb app] in M. eexists. split; [eapply st_step; [exact P1|]; apply (s_deliver N s1 i m _ _ Hi ltac:(lia) Q M)|]. ss. repeat split; try assumption.
        intros j Hj Hn. destruct (Nat.eq_dec j m) as [->|E2]; [apply set2_eq|]. rewrite set2_ne by now right. apply P8; lia.
      * destruct R as (-> & _). exists s1. repeat split; try assumption. intros j Hj Hn. destruct (Nat.eq_dec j m) as [->|E2]; [exact Q|]. apply P8; lia.
Qed.
Lemma path_upd N b s i : Inv N b s -> i < N -> inside s i = false -> (forall j, j < N -> burn s j = true) ->
  exists s', steps N s s' /\ same s s' /\ upd s' i = true.
Proof.
  intros V Hi I B.
  assert (A : exists s', steps N s s' /\ same s s' /\ allb s' i = true).
  { destruct (allb s i) eqn:A; [exists s; split; [constructor|split; [repeat split|exact A]]|]. destruct b; [destruct (i_restart _ _ _ V eq_refl i Hi); congruence|].
    destruct (path_deliver N s i V Hi B N (le_n N)) as (s1 & P1 & (P2 & P3 & P4 & P5) & P6 & P7 & P8). eexists. split.
    - eapply st_step; [exact P1|]. apply (s_all N s1 i Hi); [now rewrite P2, B|now rewrite P6|now rewrite P4|]. intros j Hj Hn. exists MBurn. now apply P8.
    - ss. split; [repeat split; assumption|apply set1_eq]. }
  destruct A as (s1 & P1 & P2 & P3). destruct (upd s1 i) eqn:U; [exists s1; auto|]. pose proof P2 as (P4 & P5 & P6 & P7). eexists. split.
  - eapply st_step; [exact P1|]. apply (s_upd N s1 i Hi); [now rewrite P4, B|exact P3|exact U|now rewrite P6].
  - split; [repeat split; assumption|apply set1_eq].
Qed.
Lemma path_leave_all N s : (forall i, i < N -> ent s i = ent s 0) -> forall m, m <= N ->
  exists s', steps N s s' /\ burn s' = burn s /\ waiting s' = waiting s /\ ent s' = ent s /\ forall i, i < m -> inside s' i = false.
Proof.
  intros E. induction m as [|m IH]; intros Hm.
  - exists s. repeat split; [constructor|lia].
  - destruct (IH ltac:(lia)) as (s1 & P1 & P2 & P3 & P4 & P5). destruct (inside s1 m) eqn:I.
    + eexists. split; [eapply st_step; [exact P1|]; apply (s_leave N s1 m ltac:(lia) I); rewrite P4; intros j Hj; rewrite (E m), (E j) by lia; lia|].
      ss. repeat split; try assumption. intros i Hi. destruct (Nat.eq_dec i m) as [->|]; [apply set1_eq|]. rewrite set1_ne by assumption. apply P5. lia.
    + exists s1. repeat split; try assumption. intros i Hi. destruct (Nat.eq_dec i m) as [->|]; [exact I|apply P5; lia].
Qed.
Lemma path_leave N b s i : Inv N b s -> i < N -> ent s i = ent s 0 -> exists s', steps N s s' /\ burn s' = burn s /\ waiting s' = waiting s /\ ent s' = ent s /\ inside s' i = false.
Proof.
  intros V Hi E. destruct (inside s i) eqn:I; [|exists s; repeat split; [constructor|exact I]]. eexists. split.
  - apply steps_one. apply (s_leave N s i Hi I). intros j Hj. pose proof (i_ent _ _ _ V j Hj). lia.
  - ss. repeat split. apply set1_eq.
Qed.
Lemma path_enter N b s i : Inv N b s -> waiting s 0 = true -> 0 < i -> i < N -> ent s i = ent s 0 ->
  exists s', steps N s s' /\ waiting s' = waiting s /\ ent s' i = S (ent s 0) /\ forall j, j <> i -> ent s' j = ent s j.
Proof.
  intros V W H0 Hi E. assert (B : forall j, j < N -> burn s j = true).
  { intros j Hj. destruct (i_w _ _ _ V W) as (U & _). apply (i_ua _ _ _ V) in U; [|lia]. refine (proj1 (i_all _ _ _ V 0 j _ Hj U)); lia. }
  destruct (path_leave N b s i V Hi E) as (s1 & P1 & P2 & P3 & P4 & P5). pose proof (inv_steps _ _ _ _ V P1) as V1.
  destruct (path_upd N b s1 i V1 Hi P5 ltac:(intros; rewrite P2; now apply B)) as (s2 & Q1 & (Q2 & Q3 & Q4 & Q5) & Q6). pose proof (inv_steps _ _ _ _ V1 Q1) as V2.
  pose proof (i_ua _ _ _ V2 i Hi Q6) as A. pose proof (i_net _ _ _ V2 i 0 Hi ltac:(lia) ltac:(lia)) as M. cbn [Nat.eqb] in M.
  assert (K : ann s2 - ent s2 i = 1) by (unfold ann; rewrite Q3, P3, W, Q5, P4; lia). rewrite K in M. cbn [repeat] in M.
  assert (R : rq s2 i 0 <> RPosted). { pose proof (i_rq _ _ _ V2 i 0 Hi ltac:(lia) ltac:(lia)) as R. intros Z. rewrite Z in R. destruct b; [discriminate|]. destruct R. congruence. }
  assert (P : exists m l, net s2 0 i = m :: l) by (destruct (negb b && burn s2 0 && negb (done (rq s2 i 0))); rewrite M; cbn; eauto).
  destruct P as (m & l & P). eexists. split.
  - eapply steps_trans; [exact P1|]. eapply st_step; [exact Q1|]. apply (s_probe N s2 i m l H0 Hi); [rewrite Q2, P2; now apply B|exact Q6|now rewrite Q4|exact R|exact P].
  - ss. split; [now rewrite Q3|]. split; [rewrite set1_eq, Q5, P4; lia|]. intros j Hj. now rewrite set1_ne, Q5, P4.
Qed.
Lemma path_complete N b s : 0 < N -> Inv N b s -> waiting s 0 = true ->
  exists s', steps N s s' /\ forall i, i < N -> inside s' i = false /\ ent s' i = S (ent s 0).
Proof.
  intros HN V W.
  assert (A : forall m, m <= N -> exists s', steps N s s' /\ waiting s' = waiting s /\ ent s' 0 = ent s 0 /\ forall i, 0 < i -> i < m -> ent s' i = S (ent s 0)).
  { induction m as [|m IH]; intros Hm; [exists s; repeat split; [constructor|lia]|]. destruct (IH ltac:(lia)) as (s1 & P1 & P2 & P3 & P4). pose proof (inv_steps _ _ _ _ V P1) as V1.
    destruct (Nat.eq_dec m 0) as [->|Hm0]; [exists s1; repeat split; try assumption; lia|].
    pose proof (i_ent _ _ _ V1 m ltac:(lia)) as G. unfold ann in G. rewrite P2, W, P3 in G. destruct (Nat.eq_dec (ent s1 m) (ent s 0)) as [E|E].
    - destruct (path_enter N b s1 m V1 ltac:(now rewrite P2) ltac:(lia) ltac:(lia) ltac:(lia)) as (s2 & Q1 & Q2 & Q3 & Q4). exists s2. split; [eapply steps_trans; eassumption|].
      split; [congruence|]. split; [rewrite Q4 by lia; exact P3|]. intros i H1 H2. destruct (Nat.eq_dec i m) as [->|]; [rewrite Q3; lia|]. rewrite Q4 by assumption. apply P4; lia.
    - exists s1. repeat split; try assumption. intros i H1 H2. destruct (Nat.eq_dec i m) as [->|]; [lia|apply P4; lia]. }
  destruct (A N (le_n N)) as (s1 & P1 & P2 & P3 & P4). pose proof (inv_steps _ _ _ _ V P1) as V1.
  assert (W1 : waiting s1 0 = true) by now rewrite P2. destruct (i_w _ _ _ V1 W1) as (U & I).
  assert (T : step N s1 (mkSys (burn s1) (allb s1) (upd s1) (set1 (waiting s1) 0 false) (set1 (inside s1) 0 true) (set1 (ent s1) 0 (S (ent s1 0))) (net s1) (rq s1))).
  { apply (s_root N s1 HN); [apply (i_ba _ _ _ V1 0 HN), (i_ua _ _ _ V1 0 HN), U|exact U|exact W1|exact I|]. intros j H1 H2 H3. rewrite (i_net _ _ _ V1 j 0 H2 HN ltac:(lia)) in H3. cbn [Nat.eqb] in H3.
    unfold ann in H3. rewrite W1, P3, P4, Nat.sub_diag in H3 by assumption. cbn in H3. rewrite app_nil_r in H3. destruct (negb b && _ && _); cbn in H3; [destruct H3 as [H3|H3]; [discriminate|contradiction]|contradiction]. }
  set (s2 := mkSys _ _ _ _ _ _ _ _) in T. assert (E2 : forall i, i < N -> ent s2 i = S (ent s 0)).
  { intros i Hi. unfold s2. ss. destruct (Nat.eq_dec i 0) as [->|]; [now rewrite set1_eq, P3|]. rewrite set1_ne by assumption. apply P4; lia. }
  destruct (path_leave_all N s2 ltac:(intros; rewrite !E2 by lia; reflexivity) N (le_n N)) as (s3 & R1 & R2 & R3 & R4 & R5). exists s3. split.
  - eapply steps_trans; [eapply st_step; [exact P1|exact T]|exact R1].
  - intros i Hi. split; [now apply R5|]. rewrite R4. now apply E2.
Qed.
Lemma path_burn N b s : Inv N b s -> (forall i, i < N -> inside s i = false) -> forall m, m <= N ->
  exists s', steps N s s' /\ waiting s' = waiting s /\ inside s' = inside s /\ ent s' = ent s /\ forall i, i < m -> burn s' i = true.
Proof.
  intros V I. induction m as [|m IH]; intros Hm; [exists s; repeat split; [constructor|lia]|]. destruct (IH ltac:(lia)) as (s1 & P1 & P2 & P3 & P4 & P5). destruct (burn s1 m) eqn:B.
  - exists s1. repeat split; try assumption. intros i Hi. destruct (Nat.eq_dec i m) as [->|]; [exact B|apply P5; lia].
  - eexists. split; [eapply st_step; [exact P1|]; apply (s_burn N s1 m ltac:(lia) B); rewrite P3; apply I; lia|]. ss. repeat split; try assumption. intros i Hi. destruct (Nat.eq_dec i m) as [->|]; [apply set1_eq|]. rewrite set1_ne by assumption. apply P5; lia.
Qed.
Lemma path_live N b s : 0 < N -> Inv N b s -> exists s', steps N s s' /\ forall i, i < N -> inside s' i = false /\ ent s' i = S (ent s 0).
Proof.
  intros HN V. destruct (waiting s 0) eqn:W; [now apply (path_complete N b)|].
  assert (E : forall i, i < N -> ent s i = ent s 0) by (intros i Hi; pose proof (i_ent _ _ _ V i Hi) as G; unfold ann in G; rewrite W in G; lia).
  destruct (path_leave_all N s E N (le_n N)) as (s1 & P1 & P2 & P3 & P4 & P5). pose proof (inv_steps _ _ _ _ V P1) as V1.
  destruct (path_burn N b s1 V1 P5 N (le_n N)) as (s2 & Q1 & Q2 & Q3 & Q4 & Q5). pose proof (inv_steps _ _ _ _ V1 Q1) as V2.
  destruct (path_upd N b s2 0 V2 HN ltac:(rewrite Q3; now apply P5) Q5) as (s3 & R1 & (R2 & R3 & R4 & R5) & R6). pose proof (inv_steps _ _ _ _ V2 R1) as V3.
  pose (s4 := mkSys (burn s3) (allb s3) (upd s3) (set1 (waiting s3) 0 true) (inside s3) (ent s3) (send_all N (net s3) 0 MUpdate) (rq s3)).
  assert (T : step N s3 s4).
  { apply (s_notify N s3 HN); [rewrite R2; now apply Q5|exact R6|now rewrite R3, Q2, P3|rewrite R4, Q3; now apply P5]. }
  destruct (path_complete N b s4 HN (inv_step _ _ _ _ V3 T)) as (s5 & X1 & X2); [apply set1_eq|]. exists s5. split.
  - eapply steps_trans; [exact P1|]. eapply steps_trans; [exact Q1|]. eapply steps_trans; [|exact X1]. eapply st_step; [exact R1|exact T].
  - intros i Hi. destruct (X2 i Hi) as (Y1 & Y2). split; [exact Y1|]. rewrite Y2. unfold s4. ss. now rewrite R5, Q4, P4.
Qed.

(** ** Some chains restart and others do not *)
Record InvB (N j : nat) (s : sys) : Prop := { b_burn : burn s j = true; b_net : net s j 0 = []; b_rq : forall m, rq s 0 j <> RDone m;
  b_allb : allb s 0 = false; b_upd : upd s 0 = false; b_ent : ent s 0 = 0 }.
Lemma invB_step N j s s' : 0 < j -> j < N -> InvB N j s -> step N s s' -> InvB N j s'.
Proof.
  intros Hj HN [V1 V2 V3 V4 V5 V6] H. destruct H as [i Hi Bi Ii|i k m l Hi Hk Ri Ni|i Hi Bi Ai Ii Di|i Hi Bi Ai Ui Ii|H0 B0 U0 W0 I0|H0 B0 U0 W0 I0 E0|i m l H0 Hi Bi Ui Ii Ri Ni|i Hi Ii Li]; try congruence; constructor; ss; try assumption.
  - s1 j i; auto.
  - rewrite send_out; [assumption|]. left. intros ->. congruence.
  - intros m. destruct (Nat.eq_dec i 0) as [->|]; [rewrite post_in by lia; discriminate|]. rewrite post_out by lia. apply V3.
  - destruct (Nat.eq_dec k j) as [->|]; [destruct (Nat.eq_dec i 0) as [->|]|]; [congruence| |]; rewrite set2_ne by auto; assumption.
  - intros x. destruct (Nat.eq_dec k j) as [->|]; [destruct (Nat.eq_dec i 0) as [->|]|]; [congruence| |]; rewrite set2_ne by auto; apply V3.
  - s0 i; [|assumption]. destruct (Di j HN ltac:(lia)) as (m & Hm). now apply V3 in Hm.
  - s0 i; [congruence|assumption].
  - rewrite set2_ne by lia. assumption.
  - rewrite set1_ne by lia. assumption.
Qed.

Record InvA (N i : nat) (s : sys) : Prop := { a_burn : burn s 0 = true; a_ent : ent s i = 0; a_in : inside s i = false;
  a_root : if ent s 0 =? 0 then inside s 0 = false else ent s 0 = 1 /\ inside s 0 = true /\ waiting s 0 = false;
  a_none : waiting s 0 = false -> ent s 0 = 0 -> net s 0 i = [] /\ done (rq s i 0) = false;
  a_one : net s 0 i = [] \/ net s 0 i = [MUpdate];
  a_done : done (rq s i 0) = true -> net s 0 i = [] /\ burn s i = true;
  a_all : allb s i = true -> done (rq s i 0) = true; a_upd : upd s i = true -> allb s i = true; a_posted : rq s i 0 = RPosted -> burn s i = true }.
Lemma invA_step N i s s' : 0 < i -> i < N -> InvA N i s -> step N s s' -> InvA N i s'.
Proof.
  intros H0 HN V H. pose proof V as [V1 V2 V3 V4 V5 V6 V7 V8 V9 V11].
  assert (ND : burn s i = false -> done (rq s i 0) = false) by (intros B; destruct (done (rq s i 0)); [destruct (V7 eq_refl); congruence|reflexivity]).
  destruct H as [k Hk Bk Ik|k j m l Hk Hj Rk Nk|k Hk Bk Ak Ik Dk|k Hk Bk Ak Uk Ik|HN0 B0 U0 W0 I0|HN0 B0 U0 W0 I0 E0|k m l Hk0 Hk Bk Uk Ik Rk Nk|k Hk Ik Lk].
  - (* burn *) assert (k <> 0) by congruence. assert (E0 : send_all N (net s) k MBurn 0 i = net s 0 i) by (apply send_out; lia).
    assert (D : done (post_all N (rq s) k i 0) = true -> done (rq s i 0) = true /\ k <> i).
    { destruct (Nat.eq_dec k i) as [->|E]; [rewrite post_in by lia; discriminate|]. rewrite post_out by lia. auto. }
    constructor; ss; rewrite ?E0; try assumption.
    + s0 k; auto.
    + intros W E. destruct (V5 W E) as (A1 & A2). split; [exact A1|]. destruct (done (post_all _ _ _ _ _)) eqn:Q; [|reflexivity]. destruct (D eq_refl). congruence.
    + intros Q. destruct (D Q) as (A1 & A2). destruct (V7 A1). split; [assumption|]. rewrite set1_ne by auto. assumption.
    + intros A. destruct (Nat.eq_dec k i) as [->|E]; [rewrite ND in V8 by assumption; specialize (V8 A); discriminate|]. rewrite post_out by lia. auto.
    + destruct (Nat.eq_dec k i) as [->|E]; [intros _; apply set1_eq|]. rewrite post_out, set1_ne by lia. auto.
  - (* deliver *) destruct (Nat.eq_dec k i) as [->|E]; [destruct (Nat.eq_dec j 0) as [->|E]|].
    + assert (M : l = [] /\ ~ (waiting s 0 = false /\ ent s 0 = 0)).
      { split; [destruct V6 as [V6|V6]; rewrite V6 in Nk; congruence|]. intros (A & B). destruct (V5 A B). congruence. } destruct M as (-> & M).
      assert (B : burn s i = true \/ burn s i = false) by (destruct (burn s i); auto).
      constructor; ss; rewrite ?set2_eq; try assumption.
      * intros A B'. exfalso. auto.
      * now left.
      * intros _. split; [reflexivity|]. apply (a_posted N i s V Rk).
      * reflexivity.
      * discriminate.
    + constructor; ss; rewrite ?(set2_ne _ j i l 0 i), ?(set2_ne _ i j _ i 0) by auto; assumption.
    + constructor; ss; rewrite ?(set2_ne _ j k l 0 i), ?(set2_ne _ k j _ i 0) by auto; assumption.
  - (* all *) constructor; ss; try assumption.
    + intros A. s1 i k; [|auto]. destruct (Dk 0 ltac:(lia) ltac:(lia)) as (m & ->). reflexivity.
    + intros U. s1 i k; auto.
  - (* upd *) constructor; ss; try assumption. intros U. s1 i k; auto.
  - (* notify *) assert (Z : ent s 0 = 0) by (destruct (Nat.eqb_spec (ent s 0) 0); [assumption|destruct V4 as (_ & V4 & _); congruence]). destruct (V5 W0 Z) as (A1 & A2).
    constructor; ss; rewrite ?set1_eq, ?send_in, ?A1 by lia; try assumption.
    + rewrite Z in *. exact V4.
    + discriminate.
    + now right.
    + congruence.
  - (* root *) assert (Z : ent s 0 = 0) by (destruct (Nat.eqb_spec (ent s 0) 0); [assumption|destruct V4 as (_ & V4 & _); congruence]).
    constructor; ss; rewrite ?set1_eq; rewrite ?(set1_ne _ 0 _ i) by lia; try assumption.
    + rewrite Z. cbn. auto.
    + lia.
  - (* probe *) assert (k <> i). { intros ->. apply V9, V8, V7 in Uk. destruct Uk. congruence. }
    constructor; ss; rewrite ?(set1_ne _ k _ 0) by lia; rewrite ?(set1_ne _ k _ i), ?(set2_ne _ 0 k l 0 i) by auto; assumption.
  - (* leave *) constructor; ss; try assumption.
    + s1 i k; auto.
    + s0 k; [|assumption]. pose proof (Lk i HN) as L. destruct (Nat.eqb_spec (ent s 0) 0); [reflexivity|]. lia.
Qed.
Lemma invA_start N r i s : 0 < i -> i < N -> r 0 = true -> r i = false -> start N r s -> InvA N i s.
Proof.
  intros H0 HN R0 Ri (H1 & H2 & H3). destruct (H1 0 ltac:(lia)) as (A1 & A2 & A3 & A4 & A5 & A6). destruct (H1 i HN) as (B1 & B2 & B3 & B4 & B5 & B6). rewrite Ri, R0 in *.
  constructor; rewrite ?H2, ?H3, ?A6; auto; try discriminate; try congruence. intros U. specialize (B3 U). discriminate.
Qed.
Lemma invB_start N r j s : 0 < j -> j < N -> r 0 = false -> r j = true -> start N r s -> InvB N j s.
Proof.
  intros H0 HN R0 Ri (H1 & H2 & H3). destruct (H1 0 ltac:(lia)) as (A1 & A2 & A3 & A4 & A5 & A6). destruct (H1 j HN) as (B1 & B2 & B3 & B4 & B5 & B6). rewrite Ri, R0 in *.
  constructor; rewrite ?H2, ?H3; auto; try discriminate. destruct (upd s 0); [specialize (A3 eq_refl); discriminate|reflexivity].
Qed.
Lemma mixed_zero N r : (exists i, i < N /\ r i = true) -> (exists i, i < N /\ r i = false) -> exists j, j < N /\ forall s, reachable N r s -> ent s j = 0.
Proof.
  intros (i & Hi & Ri) (k & Hk & Rk). destruct (r 0) eqn:R0.
  - exists k. split; [exact Hk|]. assert (0 < k) by (destruct k; [congruence|lia]). intros s (s0 & S0 & H0). apply (a_ent N k s). pose proof (invA_start N r k s0 H Hk R0 Rk S0) as V. clear S0. induction H0; [exact V|]. now apply (invA_step N k s1).
  - exists 0. split; [lia|]. assert (0 < i) by (destruct i; [congruence|lia]). intros s (s0 & S0 & H0). apply (b_ent N i s). pose proof (invB_start N r i s0 H Hi R0 Ri S0) as V. clear S0. induction H0; [exact V|]. now apply (invB_step N i s1).
Qed.
Lemma inside_pos N r s : reachable N r s -> forall i, i < N -> inside s i = true -> 1 <= ent s i.
Proof.
  intros (s0 & (S0 & _) & H). induction H as [|s1 s2 H IH T]; intros i Hi.
  - destruct (S0 i Hi) as (_ & _ & _ & _ & A & _). congruence.
  - specialize (IH i Hi). destruct T; ss; auto.
    + intros I. s1 i 0; [lia|auto].
    + intros I. s1 i i0; [lia|auto].
    + intros I. s1 i i0; [discriminate|auto].
Qed.
Lemma reachable_steps N r s s' : reachable N r s -> steps N s s' -> reachable N r s'.
Proof. intros (s0 & S0 & H) H2. exists s0. split; [exact S0|]. eapply steps_trans; eassumption. Qed.
Lemma hang N r : (exists i, i < N /\ r i = true) -> (exists i, i < N /\ r i = false) -> forall s, reachable N r s -> forall i, i < N -> inside s i = true ->
  forall s', steps N s s' -> inside s' i = true /\ ent s' i = ent s i.
Proof.
  intros M1 M2 s Hs i Hi I s' H. destruct (mixed_zero N r M1 M2) as (j & Hj & Z). induction H as [|s1 s2 H IH T]; [auto|]. destruct IH as (IH & EE).
  pose proof (reachable_steps N r s s1 Hs H) as R1. pose proof (inside_pos N r s1 R1 i Hi IH) as P. specialize (Z s1 R1). destruct T; ss; auto.
  - s1 i 0; [congruence|auto].
  - s1 i i0; [congruence|auto].
  - s1 i i0; [|auto]. specialize (H2 j Hj). lia.
Qed.
