(** Properties C16 and C17 (thinning). *)
From Verif Require Import PyStr PyBase ThinModel ThinSpec ThinProofs.
From Coq Require Import QArith Sorted.
Local Open Scope nat_scope.

(** C16: when some weight exceeds the factor, the kept rows are every factor-th unit of the
    unit-weight chain. *)
Theorem C16_keeps_every_kth_unit : forall f ns, 0 < f -> (exists w, In w ns /\ f < w) ->
  thin_indices_single_samples (qn f) (map qn ns) = Ok (every_kth f (units ns)).
Proof.
  intros f ns Hf [w [Hw Hlt]]. rewrite thin_int by (auto; intros ->; destruct Hw).
  assert (E : existsb (fun w => f <? w) ns = true).
  { apply existsb_exists. exists w. split; [exact Hw|now apply Nat.ltb_lt]. }
  rewrite E. reflexivity.
Qed.
Print Assumptions C16_keeps_every_kth_unit.
Theorem C16_kept_rows : forall f ns, 0 < f -> (exists w, In w ns /\ f < w) ->
  exists kept, thin_indices_single_samples (qn f) (map qn ns) = Ok kept /\
    length kept = list_sum ns / f /\ StronglySorted le kept /\
    (forall i, In i kept -> i < length ns /\ 0 < nth i ns 0) /\
    (forall i, i < length ns -> count_occ Nat.eq_dec kept i = before ns (S i) / f - before ns i / f).
Proof.
  intros f ns Hf Hw. exists (every_kth f (units ns)).
  split; [now apply C16_keeps_every_kth_unit|].
  split; [now apply kept_length|split; [now apply kept_sorted|split]].
  - intros i Hi. split; [now apply kept_range with f|now apply kept_positive with f].
  - intros i Hi. now apply count_kept.
Qed.
Print Assumptions C16_kept_rows.
(** FINDING: when no weight exceeds the factor, row 0 is kept as well although no whole unit of
    [factor] has been reached, unless its weight is exactly the factor. *)
Theorem C16_small_weights : forall f ns, 0 < f -> ns <> [] -> (forall w, In w ns -> w <= f) ->
  thin_indices_single_samples (qn f) (map qn ns) =
    Ok ((if nth 0 ns 0 <? f then [0] else []) ++ every_kth f (units ns)).
Proof.
  intros f ns Hf Hne Hw. rewrite thin_int by auto.
  assert (E : existsb (fun w => f <? w) ns = false).
  { apply not_true_is_false. intros Ht. apply existsb_exists in Ht. destruct Ht as [w [H1 H2]].
    apply Nat.ltb_lt in H2. specialize (Hw w H1). lia. }
  rewrite E. reflexivity.
Qed.
Print Assumptions C16_small_weights.
Theorem C16_small_weights_refuted :
  thin_indices_single_samples (qn 3) (map qn [1; 1; 1; 1; 1; 1]) = Ok [0; 2; 5].
Proof. vm_compute. reflexivity. Qed.
Print Assumptions C16_small_weights_refuted.
(** Only weights that are whole up to 1e-4, and whole factors, are accepted. *)
Theorem C16_needs_integers : forall factor ws out, Forall (fun w => 0 <= w)%Q ws ->
  thin_indices_single_samples factor ws = Ok out ->
  ws <> [] /\ (factor == inject_Z (trunc factor))%Q /\
  Forall (fun w => 0 <= w - inject_Z (trunc w) <= 1 # 10000)%Q ws.
Proof. exact thin_accepts. Qed.
Print Assumptions C16_needs_integers.
Example C16_example : (exists w, In w [3; 0; 5; 1] /\ 2 < w) /\
  units [3; 0; 5; 1] = [0; 0; 0; 2; 2; 2; 2; 2; 3] /\
  thin_indices_single_samples (qn 2) (map qn [3; 0; 5; 1]) = Ok [0; 2; 2; 2].
Proof. split; [exists 3; cbn; auto|]. vm_compute. auto. Qed.
Example C16_example_accepted :
  thin_indices_single_samples 2 [3; 0; (500001 # 100000); 1]%Q = Ok [0; 2; 2; 2] /\
  thin_indices_single_samples 2 [3; 1 # 2]%Q = Err (OtherError (L "Can only thin with integer weights")).
Proof. vm_compute. auto. Qed.

(** C17: thinning that keeps weights. *)
Theorem C17_weighted_thin : forall f ns, 0 < f -> (exists w, In w ns /\ f < w) ->
  exists pairs, thin_indices_and_weights (qn f) (map qn ns) = Ok pairs /\
    StronglySorted lt (map fst pairs) /\
    list_sum (map snd pairs) = list_sum ns / f /\
    (forall i w, In (i, w) pairs -> w = before ns (S i) / f - before ns i / f /\ 0 < w /\ 0 < nth i ns 0) /\
    (forall i, i < length ns -> before ns i / f < before ns (S i) / f -> In i (map fst pairs)).
Proof.
  intros f ns Hf Hw. destruct (C16_kept_rows f ns Hf Hw) as [kept [Hk [Hl [_ [Hr Hc]]]]].
  destruct (thin_weights_spec f ns Hf) as [kept' [pairs [Hk' [Hp [Hs [Hin [Hcnt Hsum]]]]]]].
  { intros ->. destruct Hw as [w [[] _]]. }
  rewrite Hk in Hk'. injection Hk' as <-.
  exists pairs. split; [exact Hp|split; [exact Hs|split; [congruence|split]]].
  - intros i w H. destruct (Hcnt i w H) as [-> Hpos].
    assert (Hik : In i kept) by (apply Hin; exact (in_map fst _ _ H)).
    destruct (Hr i Hik) as [Hlt Hpw]. rewrite <- (Hc i Hlt). auto.
  - intros i Hi Hlt. apply Hin. apply (count_occ_In Nat.eq_dec). rewrite Hc by auto. lia.
Qed.
Print Assumptions C17_weighted_thin.
(** FINDING: with all weights at most the factor, a leading row of weight zero is kept with weight
    one, and the total is one more than total weight // factor. *)
Theorem C17_zero_weight_row_refuted : forall f ns, 0 < f -> (forall w, In w ns -> w <= f) ->
  exists pairs, thin_indices_and_weights (qn f) (map qn (0 :: ns)) = Ok pairs /\
    In 0 (map fst pairs) /\ list_sum (map snd pairs) = S (list_sum ns / f).
Proof.
  intros f ns Hf Hw.
  destruct (thin_weights_spec f (0 :: ns) Hf) as [kept [pairs [Hk [Hp [Hs [Hin [Hcnt Hsum]]]]]]]; [discriminate|].
  rewrite C16_small_weights in Hk; auto; [|discriminate|intros w [<-|H]; [lia|auto]].
  cbn [nth] in Hk. assert (E : (0 <? f) = true) by now apply Nat.ltb_lt. rewrite E in Hk. injection Hk as <-.
  exists pairs. split; [exact Hp|split].
  - apply Hin. cbn; auto.
  - rewrite Hsum. cbn [app length]. rewrite kept_length by auto. reflexivity.
Qed.
Print Assumptions C17_zero_weight_row_refuted.
Example C17_example : thin_indices_and_weights (qn 2) (map qn [3; 0; 5; 1]) = Ok [(0, 1); (2, 3)] /\
  thin_indices_and_weights (qn 2) (map qn [0; 2; 2]) = Ok [(0, 1); (1, 1); (2, 1)].
Proof. vm_compute. auto. Qed.
