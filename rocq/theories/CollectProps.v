(** Properties of the collection of samples: checkpoints, burn-in and convergence.
    C88 checkpoint files, C89 crashes while writing, C90 burn-in, C91 covariance of all chains, C92 the decision to stop. *)
From Coq Require Import Reals List Bool ZArith Arith Lia Lra String.
From Verif Require Import PyBase StatModel StatSpec StatProofs SortModel CollectModel CollectSpec CollectProofs.
Import ListNotations.
Local Open Scope list_scope.
Local Open Scope nat_scope.

(** ** C88 *)
(** a list of samples is read as it was written, and reading stops at its end *)
Theorem C88_samples : forall (F : Type) (l : list (item F)) rest, ReadBinary (SaveBinary l ++ rest) = Ok (l, rest).
Proof. intros F l rest. apply ReadBinary_ok. Qed.
(** a checkpoint gives back the saved state, for any data after it, whatever the values before reading; only checkpoint_burn is new *)
Theorem C88_roundtrip : forall (F : Type) (s : state F) num_slow freq chkfreq rest,
  ReadCheckpoint (List.length (k_maxparams s)) (List.length (k_cov s)) num_slow freq chkfreq (checkpoint_file s ++ rest) = Ok (reread (chkfreq / 3) s).
Proof.
  intros F s num_slow freq chkfreq rest. unfold ReadCheckpoint, checkpoint_file. cbn [app read_int]. rewrite Z.eqb_refl.
  rewrite (ReadState_ok s _ _ num_slow freq chkfreq eq_refl eq_refl). reflexivity.
Qed.
(** a checkpoint of which any part at the end is missing is not read *)
Theorem C88_truncated : forall (F : Type) (s : state F) num_slow freq chkfreq k, k < List.length (checkpoint_file s) ->
  exists e, ReadCheckpoint (List.length (k_maxparams s)) (List.length (k_cov s)) num_slow freq chkfreq (firstn k (checkpoint_file s)) = Err e.
Proof.
  intros F s ns fr cf k Hk. unfold ReadCheckpoint, checkpoint_file in *. destruct k as [|k]; [eexists; reflexivity|]. cbn [firstn read_int]. rewrite Z.eqb_refl.
  destruct (ReadState _ _ ns fr cf (firstn k (SaveState s))) as [(st, r)|e] eqn:E; [|eexists; reflexivity]. exfalso.
  apply (truncated_state _ _ ns fr cf s k st r eq_refl eq_refl) in E; [exact E|]. cbn in Hk |- *. lia.
Qed.
(** other files and later formats are refused *)
Theorem C88_refused : forall (F : Type) np nc num_slow freq chkfreq (f : list (tok F)) s,
  ReadCheckpoint np nc num_slow freq chkfreq f = Ok s -> exists v r, f = TI chk_id :: TI v :: r /\ (v <= 2)%Z.
Proof.
  intros F np nc ns fr cf f s. unfold ReadCheckpoint. destruct f as [|[z|b|x|st] f]; cbn [read_int]; try discriminate.
  destruct (Z.eqb_spec z chk_id) as [->|]; [|discriminate]. unfold ReadState, rbind at 1. destruct f as [|[v|b|x|st] f]; cbn [read_int]; try discriminate.
  destruct (Z.ltb_spec 2 v) as [H|H]; [discriminate|]. intros _. exists v, f. split; [reflexivity|lia].
Qed.
Definition ex_state : state nat :=
  mkSt 2 true true false 70 true 80 [IReal [1; 2]; IReal [3; 4]; IInt [7%Z]; IStr (L "ab"); ILog [true]] 12 5 [1; 2; 3] 9 [4; 5; 6; 7] 0.
Example C88_ex : ReadCheckpoint 3 4 2 40 100 (checkpoint_file ex_state) = Ok (reread 33 ex_state) /\
  ReadCheckpoint 3 4 2 40 100 (firstn 30 (checkpoint_file ex_state)) = Err IOError /\ List.length (checkpoint_file ex_state) = 37.
Proof. repeat split. Qed.
(** the old format: the update frequency is computed from the current one *)
Example C88_ex_old : forall s, ReadState (F := nat) 0 0 3 40 100
  [TI 1; TI 2; TL true; TL true; TL false; TI 70; TL true; TI 0; TI 12; TF 5; TI 9] = Ok (s, []) -> k_freq s = 120%Z.
Proof. intros s [= <-]. reflexivity. Qed.

(** ** C89 *)
(** whenever a run is stopped while it writes a checkpoint, the file root.chk is the one from before or the complete new one, or
    is missing while root.chk_tmp is complete; root.txt is as it was *)
Theorem C89_disk : forall (F : Type) (s : state F) k d, let d' := crashed s k d in d_txt d' = d_txt d /\
  (d_chk d' = d_chk d \/ d_chk d' = Some (checkpoint_file s) \/ d_chk d' = None /\ d_tmp d' = Some (checkpoint_file s)).
Proof.
  intros F s k d d'. subst d'. rewrite crash_cases. destruct (k =? 0); [auto|]. destruct (_ <=? _); [cbn; auto|]. destruct (_ =? _); cbn; auto.
Qed.
(** so the next run goes on from the previous or from the new checkpoint, unless it stopped between the deletion of the old
    file and the renaming of the new one *)
Theorem C89_restart_partial : forall (F : Type) np nc num_slow freq chkfreq (s : state F) k d,
  np = List.length (k_maxparams s) -> nc = List.length (k_cov s) -> k <> List.length (checkpoint_file s) + 3 ->
  restart np nc num_slow freq chkfreq (crashed s k d) = restart np nc num_slow freq chkfreq d \/
  restart np nc num_slow freq chkfreq (crashed s k d) = Ok (Some (reread (chkfreq / 3) s), d_txt d).
Proof.
  intros F np nc ns fr cf s k d -> -> Hk. rewrite crash_cases. destruct (Nat.eqb_spec k 0); [now left|]. destruct (Nat.leb_spec k (List.length (checkpoint_file s) + 2)); [left; reflexivity|].
  destruct (Nat.eqb_spec k (List.length (checkpoint_file s) + 3)); [contradiction|]. right. unfold restart. cbn [d_chk d_txt].
  pose proof (C88_roundtrip F s ns fr cf []) as X. rewrite app_nil_r in X. rewrite X. reflexivity.
Qed.
(** FINDING: the old file is deleted before the new one is renamed.  A run stopped in between leaves no root.chk, so that the next
    run begins new chains and empties root.txt: all samples of the chain are lost. *)
Theorem C89_restart_refuted : forall (F : Type) np nc num_slow freq chkfreq (s : state F) d,
  exists k, k <= List.length (WriteCheckpoint s) /\ restart np nc num_slow freq chkfreq (crashed s k d) = Ok (None, []).
Proof.
  intros F np nc ns fr cf s d. exists (List.length (checkpoint_file s) + 3). split.
  - unfold WriteCheckpoint. cbn [List.length]. rewrite app_length, map_length. cbn [List.length]. lia.
  - rewrite crash_cases. destruct (Nat.eqb_spec (List.length (checkpoint_file s) + 3) 0); [lia|]. destruct (Nat.leb_spec (List.length (checkpoint_file s) + 3) (List.length (checkpoint_file s) + 2)); [lia|].
    rewrite Nat.eqb_refl. reflexivity.
Qed.
Example C89_ex : let d := mkDisk (Some (checkpoint_file ex_state)) None [L "1 2.5 0.1"] in
  restart 3 4 2 40 100 (crashed ex_state 20 d) = Ok (Some (reread 33 ex_state), [L "1 2.5 0.1"]) /\
  restart 3 4 2 40 100 (crashed ex_state 40 d) = Ok (None, []) /\
  restart 3 4 2 40 100 (crashed ex_state 41 d) = Ok (Some (reread 33 ex_state), [L "1 2.5 0.1"]).
Proof. repeat split. Qed.

(** ** C90 *)
(** burn-in ends as soon as each parameter has changed at least 52 times between successive stored points from the 51st on *)
Theorem C90_ends : forall (F : Type) (eqb : F -> F -> bool) (d0 : F) np mn thin ps, (forall p, In p ps -> List.length p = np) ->
  let ev := every_from thin 0 ps in
  (b_done (add_points eqb np mn ps (burn_start thin)) = true <-> 52 <= List.length ev /\ forall i, i < np -> 52 <= changes eqb d0 i (skipn 50 ev)).
Proof.
  intros F eqb d0 np mn thin ps H ev. destruct (inv_run eqb d0 np mn thin ps H) as (_ & _ & I). split.
  - intros D. rewrite D in I. exact (proj1 I).
  - intros E. destruct (b_done _); [reflexivity|]. exfalso. apply I. exact E.
Qed.
(** so that each has changed at least 52 times in all *)
Theorem C90_explored : forall (F : Type) (eqb : F -> F -> bool) d0 np mn thin ps, (forall p, In p ps -> List.length p = np) ->
  b_done (add_points eqb np mn ps (burn_start thin)) = true -> forall i, i < np -> 52 <= changes eqb d0 i (every_from thin 0 ps).
Proof.
  intros F eqb d0 np mn thin ps H D i Hi. apply (C90_ends F eqb d0 np mn thin ps H) in D. destruct D as (_ & D). specialize (D i Hi).
  pose proof (changes_skip eqb d0 i 50 (every_from thin 0 ps)). lia.
Qed.
(** the stored points are every thin-th point, in order; only the oldest can have been deleted at the end of burn-in, and then at
    least min_update remain *)
Theorem C90_samples : forall (F : Type) (eqb : F -> F -> bool) (d0 : F) np mn thin ps, (forall p, In p ps -> List.length p = np) ->
  let b := add_points eqb np mn ps (burn_start thin) in
  exists n, b_samples b = skipn n (every_from thin 0 ps) /\ (b_done b = false -> n = 0) /\ (0 < n -> mn <= List.length (b_samples b)).
Proof.
  intros F eqb d0 np mn thin ps H b. destruct (inv_run eqb d0 np mn thin ps H) as (_ & _ & I). fold b in I. destruct (b_done b).
  - destruct I as (_ & n & A & _ & C). exists n. split; [exact A|]. split; [discriminate|exact C].
  - destruct I as (A & _). exists 0. split; [exact A|]. split; [auto|lia].
Qed.
Example C90_ex : let ps := map (fun k => [k; k]) (seq 0 103) in let b := add_points Nat.eqb 2 60 ps (burn_start 1) in
  b_done b = true /\ List.length (b_samples b) = 60 /\ b_done (add_points Nat.eqb 2 60 (firstn 102 ps) (burn_start 1)) = false /\
  b_done (add_points Nat.eqb 2 60 (map (fun k => [k; k / 4]) (seq 0 103)) (burn_start 1)) = false.
Proof. vm_compute. repeat split. Qed.

(** ** C91 *)
Local Open Scope R_scope.
(** the second half of the samples of a chain: Count - Count/2 + 1 of them, the last ones *)
Theorem C91_half : forall A (l : list A), (2 <= List.length l)%nat ->
  exists front, l = front ++ last_half l /\ List.length (last_half l) = (List.length l - List.length l / 2 + 1)%nat.
Proof.
  intros A l H. exists (firstn (List.length l / 2 - 1) l). unfold last_half. split; [now rewrite firstn_skipn|]. rewrite skipn_length.
  pose proof (Nat.div_lt (List.length l) 2 ltac:(lia) ltac:(lia)). assert (1 <= List.length l / 2)%nat by (apply (Nat.div_le_mono 2 (List.length l) 2); lia). lia.
Qed.
(** the mean is that of all samples of all chains; their covariance about it is the matrix used for proposals plus the covariance
    of the means of the chains, with the factor by which the latter was increased taken back *)
Theorem C91_mean : forall cs i, nonempty cs -> pool_mean cs i = all_mean cs i.
Proof. exact pool_mean_all. Qed.
Theorem C91_total : forall cs i j, (1 < List.length cs)%nat -> nonempty cs ->
  all_cov cs i j = MPICovMat cs i j + (INR (List.length cs) - 1) / INR (List.length cs) * meanscov cs i j.
Proof. exact all_cov_split. Qed.
(** the matrix used for proposals is a covariance matrix: symmetric and not negative in any direction *)
Theorem C91_covariance : forall cs, cs <> [] -> nonempty cs ->
  (forall i j, MPICovMat cs i j = MPICovMat cs j i) /\ (forall n v, 0 <= Sm n (fun i => Sm n (fun j => v i * v j * MPICovMat cs i j))).
Proof. intros cs H1 H2. split; [intros i j; apply cov_sym|intros n v; now apply cov_psd]. Qed.
(** and is at most the covariance of all samples: chains far apart do not widen it *)
Theorem C91_below : forall cs, (1 < List.length cs)%nat -> nonempty cs -> forall n v,
  Sm n (fun i => Sm n (fun j => v i * v j * MPICovMat cs i j)) <= Sm n (fun i => Sm n (fun j => v i * v j * all_cov cs i j)).
Proof. exact cov_below. Qed.
Definition ex_chain (a b c : R) : chain := (3%nat, fun k i => if (k =? 0)%nat then a else if (k =? 1)%nat then b else c).
Example C91_ex : let cs := [ex_chain 0 1 2; ex_chain 4 5 6] in nonempty cs /\ pool_mean cs 0 = 3 /\ MPICovMat cs 0 0 = 2 / 3 /\ meanscov cs 0 0 = 8 /\ all_cov cs 0 0 = 14 / 3.
Proof.
  cbv zeta. split; [intros c [<-|[<-|[]]]; cbn; lia|]. unfold all_cov, all_mean, all_n, meanscov, MPICovMat, pool_mean, pool_norm, chain_cov, chain_mean, chain_n, ex_chain, Sm, sumR. cbn.
  repeat split; field.
Qed.

(** ** C92 *)
(** a run stops at the first check at which R is below the limit, the last earlier check with an invertible covariance matrix had
    R below the limit too (without such a check: the flag at the start was set), and the limits agree if they are checked *)
Theorem C92_stop_partial : forall o nchains fluke rs k, fst (checks o nchains fluke rs) = Some k <->
  good o nchains fluke rs k /\ forall j, (j < k)%nat -> ~ good o nchains fluke rs j.
Proof. exact checks_least. Qed.
(** so a chain that did not start from a checkpoint stops only after two checks with R below the limit *)
Theorem C92_two : forall o nchains rs k, fst (checks o nchains false rs) = Some k ->
  exists j x y, (j < k)%nat /\ nth_error (map fst rs) j = Some (Some x) /\ nth_error (map fst rs) k = Some (Some y) /\ x < o_stop o /\ y < o_stop o.
Proof.
  intros o nchains rs k H. apply C92_stop_partial in H. destruct H as ((_ & (y & lim & H1 & H2 & _) & H3) & _).
  destruct (before k rs) as [x|] eqn:E; [|discriminate]. destruct (before_in rs k x E) as (j & Hj & Hx). exists j, x, y. split; [exact Hj|]. split; [exact Hx|].
  split; [now rewrite nth_error_map, H1|]. now split.
Qed.
(** chains with the same flag reach the same decision and keep the same flag (all have the same R) *)
Theorem C92_agree : forall o nchains f1 f2 lim r, (1 < nchains)%nat -> (r <> None \/ f1 = f2) -> v_fluke (check o nchains f1 lim r) = v_fluke (check o nchains f2 lim r).
Proof. intros o n f1 f2 lim r H [G| ->]; [|reflexivity]. unfold check. apply Nat.ltb_lt in H. rewrite H. destruct r; [reflexivity|contradiction]. Qed.
(** FINDING: a check whose covariance matrix is not invertible leaves the flag as it is, so that the two checks need not follow
    each other *)
Theorem C92_consecutive_refuted : exists o nchains rs k,
  fst (checks o nchains false rs) = Some (S k) /\ nth_error rs k = Some (None, true).
Proof.
  exists (mkCO (1/20) false true false 2 0), 2%nat, [(Some (1/100), true); (None, true); (Some (1/100), true)], 1%nat. split; [|reflexivity].
  apply checks_least. split.
  - split; [lia|]. split; [exists (1/100), true; cbn; repeat split; lra|cbn; lra].
  - intros [|[|j]] Hj (_ & (x & lim & H & _) & G); [cbn in G; discriminate|discriminate H|lia].
Qed.
(** FINDING: each chain keeps the flag in its own checkpoint, written at its own times.  After a restart chains with different flags
    decide differently at the same check: one stops and the others go on. *)
Theorem C92_restart_refuted : exists o nchains lim r, v_stop (check o nchains true lim r) = true /\ v_stop (check o nchains false lim r) = false.
Proof.
  exists (mkCO (1/20) false true false 2 0), 2%nat, true, (Some (1/100)). unfold check. cbn. rewrite (proj2 (rlt_true (1/100) (1/20))) by lra. split; reflexivity.
Qed.
(** FINDING: with a diagonal covariance to start with, the proposal is changed even if the covariance matrix cannot be inverted *)
Theorem C92_singular_refuted : exists o nchains f lim, v_learn (check o nchains f lim None) = true.
Proof.
  exists (mkCO (1/20) false true true 2 0), 2%nat, false, true. unfold check. cbn. apply rlt_true. lra.
Qed.
Example C92_ex : let o := mkCO (1/20) false true false 2 0 in
  fst (checks o 4 false [(Some 3, true); (Some (1/25), true); (Some (1/10), true); (Some (1/30), true); (Some (1/30), true)]) = Some 4%nat.
Proof.
  cbv zeta. apply checks_least. split.
  - split; [lia|]. split; [exists (1/30), true; cbn; repeat split; lra|cbn; lra].
  - intros [|[|[|[|j]]]] Hj (_ & (x & lim & H & H1 & _) & G); cbn in H, H1, G; try (injection H as <- <-); try lra; try discriminate; lia.
Qed.

Print Assumptions C88_samples.
Print Assumptions C88_roundtrip.
Print Assumptions C88_truncated.
Print Assumptions C88_refused.
Print Assumptions C89_disk.
Print Assumptions C89_restart_partial.
Print Assumptions C89_restart_refuted.
Print Assumptions C90_ends.
Print Assumptions C90_explored.
Print Assumptions C90_samples.
Print Assumptions C91_half.
Print Assumptions C91_mean.
Print Assumptions C91_total.
Print Assumptions C91_covariance.
Print Assumptions C91_below.
Print Assumptions C92_stop_partial.
Print Assumptions C92_two.
Print Assumptions C92_agree.
Print Assumptions C92_consecutive_refuted.
Print Assumptions C92_restart_refuted.
Print Assumptions C92_singular_refuted.
