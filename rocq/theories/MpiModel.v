(** Messages between chains: TMpiChainCollector_AddNewPoint and UpdateCovAndCheckConverge, source/SampleCollector.f90 212-251,
    324-456, as a transition system of N chains (MPIRank = 0 .. N-1).
    Each transition is one of the actions of AddNewPoint in one chain, or the arrival of a message at a posted receive.  The
    numbers of samples are left out, so that every condition on them may become true at any time; actions that the code does in
    one call may be separated by actions of other chains.  The two ALLGATHERs of an update are one; the decision to stop is not
    modelled.
    Rules of MPI that are used: messages from one chain to another with the same tag are received in the order in which they were
    sent; a message that a posted receive can take is not seen by IPROBE; a request of IRECV is done when a message was received,
    one of ISSEND when the message was received; no chain leaves an ALLGATHER before all chains have entered it. *)
From Coq Require Import List Bool Arith Lia.
Import ListNotations.

(** the value sent is never used; the names say which statement sent it: ISEND at the end of burn-in (line 386), ISSEND to start
    an update (line 434); both have tag 0 *)
Inductive msg := MBurn | MUpdate.
(** the request of the IRECV (line 387) of a chain for one other chain *)
Inductive recv := RNone | RPosted | RDone (m : msg).
(** Burn_done, all_burn, DoUpdates and Waiting of each chain; whether it is inside UpdateCovAndCheckConverge, and how many updates
    it has begun; net i j: messages from i to j that were not received; rq i j: request of chain i for a message from j *)
Record sys := mkSys { burn : nat -> bool; allb : nat -> bool; upd : nat -> bool; waiting : nat -> bool; inside : nat -> bool;
  ent : nat -> nat; net : nat -> nat -> list msg; rq : nat -> nat -> recv }.
Definition set1 {A} (f : nat -> A) (i : nat) (v : A) : nat -> A := fun k => if k =? i then v else f k.
Definition set2 {A} (f : nat -> nat -> A) (i j : nat) (v : A) : nat -> nat -> A := fun a b => if (a =? i) && (b =? j) then v else f a b.
(** i sends m to all others *)
Definition send_all (N : nat) (f : nat -> nat -> list msg) (i : nat) (m : msg) : nat -> nat -> list msg :=
  fun a b => if (a =? i) && negb (b =? i) && (b <? N) then f a b ++ [m] else f a b.
Definition post_all (N : nat) (f : nat -> nat -> recv) (i : nat) : nat -> nat -> recv :=
  fun a b => if (a =? i) && negb (b =? i) && (b <? N) then RPosted else f a b.

Inductive step (N : nat) (s : sys) : sys -> Prop :=
(** end of burn-in, lines 369-390 *)
| s_burn i : i < N -> burn s i = false -> inside s i = false ->
    step N s (mkSys (set1 (burn s) i true) (allb s) (upd s) (waiting s) (inside s) (ent s) (send_all N (net s) i MBurn) (post_all N (rq s) i))
(** a message arrives at a posted IRECV *)
| s_deliver i j m l : i < N -> j < N -> rq s i j = RPosted -> net s j i = m :: l ->
    step N s (mkSys (burn s) (allb s) (upd s) (waiting s) (inside s) (ent s) (set2 (net s) j i l) (set2 (rq s) i j (RDone m)))
(** TESTALL of the receives, lines 412-418 *)
| s_all i : i < N -> burn s i = true -> allb s i = false -> inside s i = false -> (forall j, j < N -> j <> i -> exists m, rq s i j = RDone m) ->
    step N s (mkSys (burn s) (set1 (allb s) i true) (upd s) (waiting s) (inside s) (ent s) (net s) (rq s))
(** enough samples for updates, lines 421-424 *)
| s_upd i : i < N -> burn s i = true -> allb s i = true -> upd s i = false -> inside s i = false ->
    step N s (mkSys (burn s) (allb s) (set1 (upd s) i true) (waiting s) (inside s) (ent s) (net s) (rq s))
(** the root chain starts an update, lines 427-436 *)
| s_notify : 0 < N -> burn s 0 = true -> upd s 0 = true -> waiting s 0 = false -> inside s 0 = false ->
    step N s (mkSys (burn s) (allb s) (upd s) (set1 (waiting s) 0 true) (inside s) (ent s) (send_all N (net s) 0 MUpdate) (rq s))
(** TESTALL of the root: all others have received the message; it enters the update, lines 427-430, 449-452 *)
| s_root : 0 < N -> burn s 0 = true -> upd s 0 = true -> waiting s 0 = true -> inside s 0 = false ->
    (forall j, 0 < j -> j < N -> ~ In MUpdate (net s 0 j)) ->
    step N s (mkSys (burn s) (allb s) (upd s) (set1 (waiting s) 0 false) (set1 (inside s) 0 true) (set1 (ent s) 0 (S (ent s 0))) (net s) (rq s))
(** IPROBE and RECV in another chain, which then enters the update, lines 438-445, 449-452 *)
| s_probe i m l : 0 < i -> i < N -> burn s i = true -> upd s i = true -> inside s i = false -> rq s i 0 <> RPosted -> net s 0 i = m :: l ->
    step N s (mkSys (burn s) (allb s) (upd s) (waiting s) (set1 (inside s) i true) (set1 (ent s) i (S (ent s i))) (set2 (net s) 0 i l) (rq s))
(** ALLGATHER ends, lines 248-251 *)
| s_leave i : i < N -> inside s i = true -> (forall j, j < N -> ent s i <= ent s j) ->
    step N s (mkSys (burn s) (allb s) (upd s) (waiting s) (set1 (inside s) i false) (ent s) (net s) (rq s)).

Inductive steps (N : nat) (s : sys) : sys -> Prop :=
| st_refl : steps N s s
| st_step s1 s2 : steps N s s1 -> step N s1 s2 -> steps N s s2.

(** start of a run: r i says that chain i restarts from a checkpoint (driver.F90 121-130, decided by each chain alone), which is
    written only after all_burn (lines 338-344), so that Burn_done and all_burn are set and DoUpdates may be (ReadState, lines
    153-171); others start with all flags false (lines 41-45, 54) *)
Definition start (N : nat) (r : nat -> bool) (s : sys) : Prop :=
  (forall i, i < N -> burn s i = r i /\ allb s i = r i /\ (upd s i = true -> r i = true) /\ waiting s i = false /\ inside s i = false /\ ent s i = 0) /\
  (forall i j, net s i j = []) /\ (forall i j, rq s i j = RNone).
Definition reachable (N : nat) (r : nat -> bool) (s : sys) : Prop := exists s0, start N r s0 /\ steps N s0 s.
