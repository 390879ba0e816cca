(** Properties of the messages between chains.  C93: the protocol for updates, C94: updates go on. *)
From Coq Require Import List Bool Arith Lia.
From Verif Require Import MpiModel MpiProofs.
Import ListNotations.

(** all chains are new, or all restart from checkpoints *)
Definition uniform (N : nat) (r : nat -> bool) : Prop := exists b, forall i, i < N -> r i = b.

(** ** C93 *)
(** a chain that has seen the end of burn-in of all others is right *)
Theorem C93_burn : forall N r s, uniform N r -> reachable N r s -> forall i j, i < N -> j < N -> allb s i = true -> burn s j = true.
Proof.
  intros N r s (b & Hb) (s0 & S0 & H) i j Hi Hj A. pose proof (inv_steps N b s0 s (inv_start N b r s0 ltac:(lia) Hb S0) H) as V. now apply (i_all _ _ _ V i j).
Qed.
(** although all messages have the same tag, the receives posted at the end of burn-in only take the messages sent at the end of
    burn-in, and a chain that looks for an update only finds messages that announce one *)
Theorem C93_messages : forall N r s, uniform N r -> reachable N r s -> forall i, i < N ->
  (forall j m, j < N -> rq s i j = RDone m -> m = MBurn) /\ (0 < i -> upd s i = true -> forall m, In m (net s 0 i) -> m = MUpdate).
Proof.
  intros N r s (b & Hb) (s0 & S0 & H) i Hi. pose proof (inv_steps N b s0 s (inv_start N b r s0 ltac:(lia) Hb S0) H) as V. split.
  - intros j m Hj R. destruct (Nat.eq_dec j i) as [->|E]; [rewrite (i_self _ _ _ V) in R; discriminate|]. pose proof (i_rq _ _ _ V i j Hi Hj E) as Q. rewrite R in Q. destruct b; [discriminate|]. apply Q.
  - intros H0 U m M. rewrite (i_net _ _ _ V i 0 Hi ltac:(lia) ltac:(lia)) in M. cbn [Nat.eqb] in M.
    assert (P : negb b && burn s 0 && negb (done (rq s i 0)) = false).
    { destruct b; [reflexivity|]. destruct (i_all _ _ _ V i 0 Hi ltac:(lia) (i_ua _ _ _ V i Hi U)) as (_ & R). rewrite (R eq_refl ltac:(lia)). cbn. now rewrite andb_false_r. }
    rewrite P in M. cbn [app] in M. now apply repeat_spec in M.
Qed.
(** no two chains are in different updates more than one apart; if a chain is in an update, every other chain has begun it, or the
    message that announces it is waiting for that chain, or (root) it waits for the others to receive that message *)
Theorem C93_rounds : forall N r s, uniform N r -> reachable N r s -> forall i j, i < N -> j < N ->
  ent s i <= S (ent s j) /\ (inside s i = true -> ent s i <= ent s j \/ (0 < j /\ In MUpdate (net s 0 j)) \/ (j = 0 /\ waiting s 0 = true)).
Proof.
  intros N r s (b & Hb) (s0 & S0 & H) i j Hi Hj. pose proof (inv_steps N b s0 s (inv_start N b r s0 ltac:(lia) Hb S0) H) as V.
  pose proof (i_ent _ _ _ V i Hi) as E1. pose proof (i_ent _ _ _ V j Hj) as E2. unfold ann in *. split; [destruct (waiting s 0); lia|]. intros I.
  destruct (le_dec (ent s i) (ent s j)) as [L|L]; [now left|]. right. destruct (Nat.eq_dec j 0) as [->|Hj0].
  - right. split; [reflexivity|]. destruct (waiting s 0); [reflexivity|lia].
  - left. split; [lia|]. rewrite (i_net _ _ _ V j 0 Hj ltac:(lia) Hj0). cbn [Nat.eqb]. apply in_app_iff. right. unfold ann. destruct (waiting s 0); [|lia].
    replace (S (ent s 0) - ent s j) with 1 by lia. now left.
Qed.
(** a chain leaves its k-th update only after all chains have begun theirs, and all give their samples to the same update: when
    the root is not waiting, all have begun the same number of updates *)
Theorem C93_same : forall N r s, uniform N r -> reachable N r s -> waiting s 0 = false -> forall i, i < N -> ent s i = ent s 0.
Proof.
  intros N r s (b & Hb) (s0 & S0 & H) W i Hi. pose proof (inv_steps N b s0 s (inv_start N b r s0 ltac:(lia) Hb S0) H) as V.
  pose proof (i_ent _ _ _ V i Hi) as E1. unfold ann in E1. rewrite W in E1. lia.
Qed.

(** ** C94 *)
(** if all chains are new or all restart, whatever has happened, the chains can finish the current update or the next one *)
Theorem C94_live_partial : forall N r s, 0 < N -> uniform N r -> reachable N r s ->
  exists s', steps N s s' /\ forall i, i < N -> inside s' i = false /\ ent s' i = S (ent s 0).
Proof.
  intros N r s HN (b & Hb) (s0 & S0 & H). apply (path_live N b s HN). exact (inv_steps N b s0 s (inv_start N b r s0 HN Hb S0) H).
Qed.
(** FINDING: each chain decides alone, by its own .chk file, whether it restarts.  If some do and some do not (a chain was stopped
    before its first checkpoint, or as in C89), no update is ever finished: a chain never takes part, and every chain that begins
    an update stays in it for ever. *)
Theorem C94_mixed_refuted : forall N r, (exists i, i < N /\ r i = true) -> (exists i, i < N /\ r i = false) ->
  (exists j, j < N /\ forall s, reachable N r s -> ent s j = 0) /\
  (forall s i, reachable N r s -> i < N -> inside s i = true -> forall s', steps N s s' -> inside s' i = true /\ ent s' i = ent s i).
Proof. intros N r H1 H2. split; [now apply mixed_zero|]. intros s i Hs Hi I. now apply (hang N r H1 H2 s Hs i Hi I). Qed.
(** it does happen: chain 1 restarts and chain 0 is new; the message with which chain 0 tells that its burn-in has ended is taken by
    chain 1 for the announcement of an update, where it waits for ever *)
Definition two (b0 b1 : bool) : sys := mkSys (fun i => if i =? 0 then b0 else b1) (fun i => if i =? 0 then b0 else b1) (fun i => if i =? 0 then b0 else b1)
  (fun _ => false) (fun _ => false) (fun _ => 0) (fun _ _ => []) (fun _ _ => RNone).
Definition only (k i : nat) : bool := i =? k.
Lemma two_start b0 b1 r : r 0 = b0 -> r 1 = b1 -> start 2 r (two b0 b1).
Proof. intros H0 H1. split; [|split; reflexivity]. intros [|[|i]] Hi; [| |lia]; cbn; rewrite ?H0, ?H1; repeat split; auto. Qed.
Example C94_ex_new_root : exists s, reachable 2 (only 1) s /\ inside s 1 = true /\ forall s', steps 2 s s' -> inside s' 1 = true.
Proof.
  assert (P : exists s, steps 2 (two false true) s /\ inside s 1 = true).
  { eexists. split; [eapply st_step; [eapply st_step; [apply st_refl|]|]|].
    - apply (s_burn 2 _ 0); [lia|reflexivity|reflexivity].
    - apply (s_probe 2 _ 1 MBurn []); try reflexivity; try lia. discriminate.
    - reflexivity. }
  destruct P as (s & P1 & P2). exists s. assert (R : reachable 2 (only 1) s) by (exists (two false true); split; [now apply two_start|exact P1]).
  split; [exact R|]. split; [exact P2|]. intros s' H. refine (proj1 (hang 2 (only 1) _ _ s R 1 ltac:(lia) P2 s' H)); [exists 1|exists 0]; split; auto; lia.
Qed.
(** chain 0 restarts and chain 1 is new: the receive of chain 1 takes the announcement of an update for the end of burn-in, and
    the root waits for ever *)
Example C94_ex_old_root : exists s, reachable 2 (only 0) s /\ inside s 0 = true /\ allb s 1 = true /\ forall s', steps 2 s s' -> inside s' 0 = true.
Proof.
  assert (P : exists s, steps 2 (two true false) s /\ inside s 0 = true /\ allb s 1 = true).
  { assert (T1 : exists s1, step 2 (two true false) s1 /\ burn s1 0 = true /\ upd s1 0 = true /\ waiting s1 0 = true /\ inside s1 0 = false /\
      burn s1 1 = false /\ allb s1 1 = false /\ inside s1 1 = false /\ net s1 0 1 = [MUpdate]).
    { eexists. split; [apply (s_notify 2); try reflexivity; lia|]. repeat split. }
    destruct T1 as (s1 & T1 & A1 & A2 & A3 & A4 & A5 & A6 & A7 & A8).
    assert (T2 : exists s2, step 2 s1 s2 /\ burn s2 0 = true /\ upd s2 0 = true /\ waiting s2 0 = true /\ inside s2 0 = false /\
      burn s2 1 = true /\ allb s2 1 = false /\ inside s2 1 = false /\ net s2 0 1 = [MUpdate] /\ rq s2 1 0 = RPosted).
    { eexists. split; [apply (s_burn 2 s1 1); auto|]. cbn. repeat split; assumption. }
    destruct T2 as (s2 & T2 & B1 & B2 & B3 & B4 & B5 & B6 & B7 & B8 & B9).
    assert (T3 : exists s3, step 2 s2 s3 /\ burn s3 0 = true /\ upd s3 0 = true /\ waiting s3 0 = true /\ inside s3 0 = false /\
      burn s3 1 = true /\ allb s3 1 = false /\ inside s3 1 = false /\ net s3 0 1 = [] /\ rq s3 1 0 = RDone MUpdate).
    { eexists. split; [apply (s_deliver 2 s2 1 0 MUpdate []); auto|]. cbn. repeat split; assumption. }
    destruct T3 as (s3 & T3 & C1 & C2 & C3 & C4 & C5 & C6 & C7 & C8 & C9).
    assert (T4 : exists s4, step 2 s3 s4 /\ burn s4 0 = true /\ upd s4 0 = true /\ waiting s4 0 = true /\ inside s4 0 = false /\ net s4 0 1 = [] /\ allb s4 1 = true).
    { eexists. split; [apply (s_all 2 s3 1); auto; intros [|[|j]] H1 H2; try lia; eauto|]. cbn. repeat split; assumption. }
    destruct T4 as (s4 & T4 & D1 & D2 & D3 & D4 & D5 & D6).
    eexists. split; [eapply st_step; [eapply st_step; [eapply st_step; [eapply st_step; [eapply st_step; [apply st_refl|exact T1]|exact T2]|exact T3]|exact T4]|]|].
    - apply (s_root 2 s4); auto. intros [|[|j]] H1 H2; try lia. rewrite D5. intros [].
    - cbn. auto. }
  destruct P as (s & P1 & P2 & P3). exists s. assert (R : reachable 2 (only 0) s) by (exists (two true false); split; [now apply two_start|exact P1]).
  split; [exact R|]. split; [exact P2|]. split; [exact P3|]. intros s' H. refine (proj1 (hang 2 (only 0) _ _ s R 0 ltac:(lia) P2 s' H)); [exists 0|exists 1]; split; auto; lia.
Qed.
(** two new chains can finish three updates *)
Example C93_ex : exists s, reachable 2 (fun _ => false) s /\ ent s 0 = 3 /\ ent s 1 = 3 /\ inside s 1 = false.
Proof.
  assert (U : uniform 2 (fun _ => false)) by (exists false; auto). assert (R0 : reachable 2 (fun _ => false) (two false false)) by (exists (two false false); split; [now apply two_start|constructor]).
  destruct (C94_live_partial 2 _ _ ltac:(lia) U R0) as (s1 & P1 & Q1). pose proof (reachable_steps _ _ _ _ R0 P1) as R1.
  destruct (C94_live_partial 2 _ _ ltac:(lia) U R1) as (s2 & P2 & Q2). pose proof (reachable_steps _ _ _ _ R1 P2) as R2.
  destruct (C94_live_partial 2 _ _ ltac:(lia) U R2) as (s3 & P3 & Q3). pose proof (reachable_steps _ _ _ _ R2 P3) as R3.
  exists s3. split; [exact R3|]. destruct (Q3 0 ltac:(lia)) as (_ & E0). destruct (Q3 1 ltac:(lia)) as (I1 & E1). destruct (Q2 0 ltac:(lia)) as (_ & E2). destruct (Q1 0 ltac:(lia)) as (_ & E3).
  rewrite E0, E1, E2, E3. cbn. auto.
Qed.

Print Assumptions C93_burn.
Print Assumptions C93_messages.
Print Assumptions C93_rounds.
Print Assumptions C93_same.
Print Assumptions C94_live_partial.
Print Assumptions C94_mixed_refuted.
