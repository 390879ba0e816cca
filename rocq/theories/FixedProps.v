(** C24: deleteFixedParams, chains.py 1001-1016 and 1489-1504. *)
From Verif Require Import PyStr PyBase ThinModel ChainSpec FixedModel FixedProofs.
From Coq Require Import QArith Qabs.
Local Open Scope nat_scope.

(** Combined samples.  Every parameter constant over all rows is removed; every removed parameter is
    constant to a relative 1e-12; what is left are the remaining columns, values untouched, each under
    its own name; the recorded fixed value is within the same tolerance of every row. *)
Theorem C24_combined : forall N (names : list N) rows, rows <> [] ->
  Forall (fun r => length r = length names) rows ->
  exists fixed vals keep,
    delete_fixed_combined names rows =
      Ok (map (fun r => map (fun i => nth i r 0%Q) keep) rows, delete_ix fixed names, combine fixed vals) /\
    length vals = length fixed /\
    (forall d, delete_ix fixed names = map (fun i => nth i names d) keep) /\
    (forall i, In i keep <-> i < length names /\ ~ In i fixed) /\
    subseq keep (seq 0 (length names)) /\
    (forall i, i < length names -> (exists c, forall r, In r rows -> nth i r 0 == c)%Q -> In i fixed) /\
    (forall i v, In (i, v) (combine fixed vals) -> i < length names /\
       forall r, In r rows -> (Qabs (nth i r 0 - v) <= (1 # 1000000000000) * Qabs v)%Q).
Proof.
  intros N names rows Hne Hlen. destruct (fixed_params_spec (length names) rows Hne) as (f & vals & E & Hl & Hf & Hv).
  exists f, vals, (kept_ix (length names) f). split.
  { unfold delete_fixed_combined. rewrite E. cbn [bindR fst snd]. repeat f_equal.
    unfold delete_cols. apply map_ext_in. intros r Hr. rewrite Forall_forall in Hlen.
    rewrite (delete_ix_kept f r 0%Q), (Hlen r Hr). reflexivity. }
  split; [exact Hl|]. split; [intros d; apply delete_ix_kept|].
  split; [intros i; apply kept_ix_spec|]. split.
  { unfold kept_ix. generalize (seq 0 (length names)) as l. induction l as [|x l IH]; cbn; [constructor|].
    destruct (negb (in_ix x f)); constructor; exact IH. }
  split.
  - intros i Hi [c Hc]. apply Hf. split; [exact Hi|]. now apply const_is_fixed with c.
  - intros i v Hin.
    assert (G : exists k, nth_error f k = Some i /\ nth_error vals k = Some v).
    { clear - Hin. revert vals Hin. induction f as [|x f IH]; intros [|y vals] Hin; cbn in Hin; try contradiction.
      destruct Hin as [Hin|Hin].
      - injection Hin as -> ->. exists 0. auto.
      - destruct (IH _ Hin) as [k Hk]. exists (S k). exact Hk. }
    destruct G as [k [Hk1 Hk2]]. specialize (Hv k i Hk1). rewrite Hv in Hk2. injection Hk2 as <-.
    apply nth_error_In in Hk1. apply Hf in Hk1. destruct Hk1 as [Hi Hx]. split; [exact Hi|]. now apply fixed_is_const.
Qed.

(** Separate chains.  The decision is taken from the first chain alone. *)
Theorem C24_separate_first_chain_only : forall N (names : list N) c0 rest, c0 <> [] ->
  exists fixed vals,
    delete_fixed_separate names (c0 :: rest) =
      Ok (map (delete_cols fixed) (c0 :: rest), delete_ix fixed names, combine fixed vals) /\
    (forall i, In i fixed <-> i < length names /\ is_fixed c0 i = true).
Proof.
  intros N names c0 rest Hne. destruct (fixed_params_spec (length names) c0 Hne) as (f & vals & E & Hl & Hf & Hv).
  exists f, vals. unfold delete_fixed_separate. rewrite E. auto.
Qed.
(** Hence the property fails when chains are kept separate: here parameter 0 takes the values 1 and 2,
    yet its column is deleted and 1 recorded as its fixed value, whereas the combined samples keep it. *)
Theorem C24_separate_refuted : exists (names : list nat) chains out out',
  delete_fixed_separate names chains = Ok out /\ snd (fst out) = [20] /\ snd out = [(0%nat, 2 # 2)]%Q /\
  delete_fixed_combined names (concat chains) = Ok out' /\ snd (fst out') = [10; 20] /\ snd out' = [].
Proof.
  exists [10; 20], [[[1; 3]; [1; 4]]; [[2; 3]; [2; 4]]]%Q. eexists _, _.
  split; [vm_compute; reflexivity|]. cbn. split; [reflexivity|]. split; [reflexivity|].
  split; [vm_compute; reflexivity|]. split; reflexivity.
Qed.

Example C24_ex : delete_fixed_combined [10; 20; 30] [[1; 3; 5]; [1; 4; 5]; [1; 3; 5]]%Q
  = Ok ([[3]; [4]; [3]]%Q, [20], [(0%nat, 3 # 3); (2%nat, 15 # 3)]%Q).
Proof. vm_compute. reflexivity. Qed.

Print Assumptions C24_combined.
Print Assumptions C24_separate_first_chain_only.
Print Assumptions C24_separate_refuted.
