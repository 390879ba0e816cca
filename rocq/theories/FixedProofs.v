From Verif Require Import PyStr PyBase ThinModel ChainSpec ChainProofs FixedModel.
From Coq Require Import QArith Qabs Lqa Qfield.
Local Open Scope nat_scope.

Lemma average_const c l : l <> [] -> (forall x, In x l -> x == c)%Q -> (average l == c)%Q.
Proof.
  intros Hne H. unfold average.
  assert (E : (sumQ l == inject_Z (Z.of_nat (length l)) * c)%Q).
  { clear Hne. unfold sumQ. induction l as [|x l IH]; cbn [fold_right length]; [ring|].
    rewrite IH by (intros; apply H; cbn; auto). rewrite (H x) by (cbn; auto).
    rewrite Nat2Z.inj_succ. unfold Z.succ. rewrite inject_Z_plus. ring. }
  rewrite E. field. intros C. assert (E0 : (inject_Z (Z.of_nat (length l)) == inject_Z 0)%Q) by exact C.
  rewrite inject_Z_injective in E0. destruct l; [congruence|cbn in E0; lia].
Qed.

Lemma const_is_fixed rows i c : rows <> [] -> (forall r, In r rows -> nth i r 0 == c)%Q -> is_fixed rows i = true.
Proof.
  intros Hne H. unfold is_fixed.
  assert (Hc : forall x, In x (column i rows) -> (x == c)%Q).
  { intros x Hx. apply in_map_iff in Hx. destruct Hx as [r [<- Hr]]. auto. }
  assert (Hcne : column i rows <> []) by (destruct rows; [congruence|discriminate]).
  assert (Hav : (average (column i rows) == c)%Q) by now apply average_const.
  set (col := column i rows) in *. apply andb_true_iff. split.
  - assert (H0 : (nth 0 col 0 == c)%Q) by (apply Hc; apply nth_In; destruct col; [congruence|cbn; lia]).
    assert (H1 : (last col 0 == c)%Q).
    { apply Hc. destruct (exists_last Hcne) as [l' [a E]]. rewrite E, last_last. apply in_or_app. cbn; auto. }
    unfold isclose. apply Qle_bool_iff. setoid_replace (nth 0 col 0 - last col 0)%Q with 0%Q by (rewrite H0, H1; ring).
    cbn [Qabs]. pose proof (Qabs_nonneg (last col 0%Q)) as Hn. change (Qabs 0) with 0%Q.
    assert (Hq : (0 <= (1 # 100000) * Qabs (last col 0))%Q) by (apply Qmult_le_0_compat; [discriminate|exact Hn]).
    apply Qle_trans with ((1 # 100000000) + 0)%Q; [discriminate|]. apply Qplus_le_r. exact Hq.
  - unfold allclose. apply forallb_forall. intros x Hx. apply Qle_bool_iff.
    setoid_replace (x - average col)%Q with 0%Q by (rewrite (Hc x Hx), Hav; ring).
    change (Qabs 0) with 0%Q. apply Qmult_le_0_compat; [discriminate|apply Qabs_nonneg].
Qed.

Lemma fixed_is_const rows i : is_fixed rows i = true -> forall r, In r rows ->
  (Qabs (nth i r 0 - average (column i rows)) <= (1 # 1000000000000) * Qabs (average (column i rows)))%Q.
Proof.
  intros H r Hr. unfold is_fixed in H. apply andb_true_iff in H. destruct H as [_ H].
  unfold allclose in H. rewrite forallb_forall in H. apply Qle_bool_iff. apply H.
  apply in_map_iff. exists r. auto.
Qed.

Lemma fixed_params_spec ncols rows : rows <> [] -> exists f vals,
  fixed_params ncols rows = Ok (f, vals) /\ length vals = length f /\
  (forall i, In i f <-> i < ncols /\ is_fixed rows i = true) /\
  (forall k i, nth_error f k = Some i -> nth_error vals k = Some (average (column i rows))).
Proof.
  intros Hne. unfold fixed_params. destruct rows as [|r rows]; [congruence|].
  eexists _, _. split; [reflexivity|]. split; [apply map_length|]. split.
  - intros i. rewrite filter_In, in_seq. intuition lia.
  - intros k i Hk. rewrite nth_error_map, Hk. reflexivity.
Qed.

(** the names left are those of the columns left, in the same order: zip commutes with deletion *)
Lemma delete_ix_combine {A B} ix (a : list A) (b : list B) : length a = length b ->
  delete_ix ix (combine a b) = combine (delete_ix ix a) (delete_ix ix b).
Proof.
  unfold delete_ix. intros H. rewrite combine_length, H, Nat.min_id. generalize 0 as k. revert b H.
  induction a as [|x a IH]; intros [|y b] H k; cbn in *; try discriminate; [reflexivity|].
  destruct (in_ix k ix); cbn; rewrite IH by lia; reflexivity.
Qed.
Lemma delete_ix_In {A} ix (l : list A) i x : nth_error l i = Some x -> ~ In i ix -> In x (delete_ix ix l).
Proof.
  intros H Hn. unfold delete_ix. apply in_map_iff. exists (i, x). split; [reflexivity|].
  apply filter_In. split.
  - assert (G : forall (l : list A) k i, nth_error l i = Some x -> In (k + i, x) (combine (seq k (length l)) l)).
    { clear. induction l as [|y l IH]; intros k [|i] H; cbn in *; try discriminate.
      - injection H as ->. left. f_equal. lia.
      - right. replace (k + S i) with (S k + i) by lia. now apply IH. }
    apply (G l 0 i H).
  - cbn. apply negb_true_iff. apply not_true_is_false. intros C. apply existsb_exists in C.
    destruct C as [j [Hj E]]. apply Nat.eqb_eq in E. subst. contradiction.
Qed.
Lemma delete_ix_subseq {A} ix (l : list A) : subseq (delete_ix ix l) l.
Proof.
  unfold delete_ix. generalize 0 as k. induction l as [|x l IH]; intros k; cbn; [constructor|].
  destruct (in_ix k ix); cbn; constructor; apply IH.
Qed.
Lemma delete_ix_length {A B} ix (a : list A) (b : list B) : length a = length b -> length (delete_ix ix a) = length (delete_ix ix b).
Proof.
  unfold delete_ix. intros H. rewrite !map_length, H. generalize 0 as k. revert b H.
  induction a as [|x a IH]; intros [|y b] H k; cbn in *; try discriminate; [reflexivity|].
  destruct (in_ix k ix); cbn; rewrite (IH b) by lia; reflexivity.
Qed.
(** which original positions survive *)
Definition kept_ix (n : nat) (ix : list nat) : list nat := filter (fun i => negb (in_ix i ix)) (seq 0 n).
Lemma delete_ix_kept {A} ix (l : list A) d : delete_ix ix l = map (fun i => nth i l d) (kept_ix (length l) ix).
Proof.
  unfold delete_ix, kept_ix.
  assert (G : forall (l : list A) k pre, length pre = k ->
     map snd (filter (fun p => negb (in_ix (fst p) ix)) (combine (seq k (length l)) l))
     = map (fun i => nth i (pre ++ l) d) (filter (fun i => negb (in_ix i ix)) (seq k (length l)))).
  { clear. induction l as [|x l IH]; intros k pre Hp; cbn; [reflexivity|].
    specialize (IH (S k) (pre ++ [x])). rewrite app_length in IH. cbn in IH. rewrite <- app_assoc in IH. cbn in IH.
    destruct (in_ix k ix); cbn; rewrite IH by lia; [reflexivity|]. f_equal.
    rewrite app_nth2 by lia. rewrite Hp, Nat.sub_diag. reflexivity. }
  exact (G l 0 [] eq_refl).
Qed.
Lemma kept_ix_spec n ix i : In i (kept_ix n ix) <-> i < n /\ ~ In i ix.
Proof.
  unfold kept_ix. rewrite filter_In, in_seq, negb_true_iff. split.
  - intros [H1 H2]. split; [lia|]. intros C. assert (in_ix i ix = true) by (apply existsb_exists; exists i; split; [exact C|apply Nat.eqb_refl]). congruence.
  - intros [H1 H2]. split; [lia|]. apply not_true_is_false. intros C. apply existsb_exists in C.
    destruct C as [j [Hj E]]. apply Nat.eqb_eq in E. subst. contradiction.
Qed.
