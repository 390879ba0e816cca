(** Lists of the sampler: C85 (sorting), C86 (deleting, thinning and removing duplicates), C87 (limits of samples). *)
From Coq Require Import Reals List Bool ZArith Arith Lia Lra Permutation.
From Verif Require Import PyBase SortModel SortSpec SortProofs.
Import ListNotations.
Local Open Scope list_scope.
Local Open Scope nat_scope.

(** ** C85 *)
(** Sort ends without an access outside the list, and gives the same items in order, for every comparison. *)
Theorem C85_sort {A} (cmp : A -> A -> Z) a : ordering cmp -> exists a', Sort cmp a = Ok a' /\ Permutation a a' /\ in_order cmp a'.
Proof. intros O. now apply Sort_ok. Qed.
Print Assumptions C85_sort.
(** QuickSort of a part of the list leaves the rest as it is, and sorts the part. *)
Theorem C85_part {A} (cmp : A -> A -> Z) (l1 l2 l3 : list A) : ordering cmp -> 2 <= length l2 ->
  exists l2', QuickSort cmp (length l2) (l1 ++ l2 ++ l3) (length l1 + 1) (length l1 + length l2) = Ok (l1 ++ l2' ++ l3) /\
    Permutation l2 l2' /\ in_order cmp l2'.
Proof.
  intros O H. destruct (QuickSort_ok cmp O (length l2) (l1 ++ l2 ++ l3) (length l1 + 1) (length l1 + length l2)) as (a' & E & (M1 & M2 & M3 & _) & S0); try lia.
  { rewrite !app_length. lia. }
  rewrite !app_length in M1.
  assert (F1 : firstn (length l1) a' = l1).
  { apply nth_error_ext. intros k. destruct (le_lt_dec (length l1) k) as [K|K].
    - rewrite (proj2 (nth_error_None (firstn (length l1) a') k)) by (rewrite firstn_length; lia). symmetry. now apply nth_error_None.
    - specialize (M3 (S k) ltac:(lia)). cbn [get] in M3. rewrite nth_error_app1 in M3 by exact K. rewrite <- (firstn_skipn (length l1) a'), nth_error_app1 in M3 by (rewrite firstn_length; lia).
      destruct (nth_error (firstn _ _) k) eqn:E1, (nth_error l1 k) eqn:E2; congruence. }
  assert (F3 : skipn (length l1 + length l2) a' = l3).
  { apply nth_error_ext. intros k. specialize (M3 (S (length l1 + length l2 + k)) ltac:(lia)). cbn [get] in M3.
    rewrite app_assoc, nth_error_app2 in M3 by (rewrite app_length; lia). rewrite app_length in M3. replace (length l1 + length l2 + k - (length l1 + length l2)) with k in M3 by lia.
    rewrite <- (firstn_skipn (length l1 + length l2) a'), nth_error_app2 in M3 by (rewrite firstn_length; lia). rewrite firstn_length, Nat.min_l in M3 by lia.
    replace (length l1 + length l2 + k - (length l1 + length l2)) with k in M3 by lia. destruct (nth_error (skipn _ _) k) eqn:E1, (nth_error l3 k) eqn:E2; congruence. }
  set (l2' := firstn (length l2) (skipn (length l1) a')).
  assert (EQ : a' = l1 ++ l2' ++ l3).
  { rewrite <- (firstn_skipn (length l1) a') at 1. rewrite F1. f_equal. unfold l2'. rewrite <- (firstn_skipn (length l2) (skipn (length l1) a')) at 1. f_equal.
    rewrite <- F3. clear. revert a'. induction (length l1) as [|k IH]; intros a'; [reflexivity|]. destruct a' as [|x a']; [cbn; now rewrite skipn_nil|]. cbn [skipn Nat.add]. apply IH. }
  assert (LL : length l2' = length l2) by (unfold l2'; rewrite firstn_length, skipn_length; lia).
  exists l2'. split; [now rewrite <- EQ|]. split.
  - rewrite EQ in M2. apply Permutation_app_inv_l in M2. now apply Permutation_app_inv_r in M2.
  - apply order_of_get. intros k m x y Hk G1 G2. pose proof (get_range _ _ _ G2). rewrite EQ in S0. apply (S0 (length l1 + k) (length l1 + m) x y); try lia.
    + rewrite get_app_r by lia. rewrite get_app_l by lia. exact G1.
    + rewrite get_app_r by lia. rewrite get_app_l by lia. exact G2.
Qed.
Print Assumptions C85_part.
(** The comparison of numbers is such a comparison. *)
Theorem C85_reals : ordering CompareReal /\ (forall x y, (CompareReal x y < 0)%Z <-> (x < y)%R) /\ (forall x y, (0 < CompareReal x y)%Z <-> (y < x)%R).
Proof. split; [exact CompareReal_ordering|]. split; [exact CompareReal_neg|exact CompareReal_pos]. Qed.
Print Assumptions C85_reals.
Example C85_ex : ordering Z.sub /\ Sort Z.sub [3; 1; 2; 3; 0; 2]%Z = Ok [0; 1; 2; 2; 3; 3]%Z /\
  QuickSort Z.sub 3 [9; 3; 1; 2; 0]%Z 2 4 = Ok [9; 1; 2; 3; 0]%Z.
Proof. split; [split; intros; lia|]. split; reflexivity. Qed.

(** ** C86 *)
Theorem C86_delete {A} (l1 l2 l3 : list A) : DeleteRange (l1 ++ l2 ++ l3) (length l1 + 1) (length l1 + length l2) = l1 ++ l3.
Proof. apply DeleteRange_app. Qed.
Print Assumptions C86_delete.
(** Thin(i) keeps the items 1, 1+i, 1+2i, ... and frees the others. *)
Theorem C86_thin {A} (a : list A) i : 1 <= i -> 1 <= length a ->
  (forall k, nth_error (fst (Thin a i)) k = nth_error a (k * i)) /\ Permutation a (fst (Thin a i) ++ snd (Thin a i)) /\
  length (fst (Thin a i)) = (length a - 1) / i + 1.
Proof.
  intros Hi Hn. split; [intros k; now apply Thin_get|]. split; [pose proof (Thin_parts a i Hi) as H; destruct (Thin a i); exact H|].
  unfold Thin. destruct (Nat.ltb_spec 1 (length a)) as [C|C]; cbn [fst]; [now apply slice_length|]. replace (length a - 1) with 0 by lia. rewrite Nat.div_0_l by lia. lia.
Qed.
Print Assumptions C86_thin.
Theorem C86_thin_twice {A} (a : list A) i j : 1 <= i -> 1 <= j -> fst (Thin (fst (Thin a i)) j) = fst (Thin a (i * j)).
Proof. apply Thin_Thin. Qed.
Print Assumptions C86_thin_twice.
(** Sort and RemoveDuplicates leave one item of each kind, in increasing order. *)
Theorem C86_unique {A} (cmp : A -> A -> Z) a : ordering cmp -> exists s, Sort cmp a = Ok s /\
  increasing cmp (RemoveDuplicates cmp s) /\ (forall x, In x (RemoveDuplicates cmp s) -> In x a) /\
  (forall x, In x a -> exists y, In y (RemoveDuplicates cmp s) /\ cmp y x = 0%Z).
Proof.
  intros O. destruct (Sort_ok cmp O a) as (s & E & P & S0). exists s. split; [exact E|]. rewrite RemoveDuplicates_dedup. split; [now apply dedup_increasing|]. split.
  - intros x H. apply (Permutation_in x (Permutation_sym P)). now apply dedup_sub in H.
  - intros x H. apply dedup_covers; [exact O|]. now apply (Permutation_in x P).
Qed.
Print Assumptions C86_unique.
Example C86_ex : DeleteRange [1; 2; 3; 4; 5] 2 3 = [1; 4; 5] /\ Thin [1; 2; 3; 4; 5; 6; 7; 8] 3 = ([1; 4; 7], [2; 3; 5; 6; 8]) /\
  RemoveDuplicates Z.sub [0; 1; 1; 1; 2; 3; 3]%Z = [0; 1; 2; 3]%Z.
Proof. split; [reflexivity|]. split; reflexivity. Qed.

(** ** C87 *)
Local Open Scope R_scope.
(** The limits are the linear interpolation of the sorted samples at (n-1)*limfrac and (n-1)*(1-limfrac). *)
Theorem C87_quantile xs f : xs <> [] -> 0 <= f <= 1 -> exists s, Permutation xs s /\ in_order CompareReal s /\
  ConfidVal xs f = Ok (interp s ((INR (length xs) - 1) * f), interp s ((INR (length xs) - 1) * (1 - f))).
Proof.
  intros Hn Hf. destruct (Sort_ok CompareReal CompareReal_ordering xs) as (s & E & P & S0). exists s. split; [exact P|]. split; [exact S0|].
  pose proof (Permutation_length P) as LN. assert (1 <= length s)%nat by (destruct xs; [contradiction|rewrite <- LN; cbn; lia]).
  unfold ConfidVal. rewrite E. cbn [bindR]. rewrite lim_at_val by (auto; lra). cbn [bindR]. rewrite lim_at_val by (auto; lra). cbn [bindR]. now rewrite LN.
Qed.
Print Assumptions C87_quantile.
(** At most (n-1)*limfrac + 1 samples are below the lower limit and fewer than (n-1)*limfrac + 1 above the upper one; and more than
    (n-1)*limfrac are up to the lower limit. *)
Theorem C87_counts xs f lo up : xs <> [] -> 0 <= f <= 1 -> ConfidVal xs f = Ok (lo, up) ->
  INR (n_below xs lo) <= (INR (length xs) - 1) * f + 1 /\ (INR (length xs) - 1) * f < INR (n_upto xs lo) /\
  INR (length xs) - INR (n_upto xs up) < (INR (length xs) - 1) * f + 1 /\ (INR (length xs) - 1) * f <= INR (length xs) - INR (n_below xs up).
Proof.
  intros Hn Hf E. destruct (C87_quantile xs f Hn Hf) as (s & P & S0 & E2). rewrite E2 in E. injection E as <- <-. pose proof (Permutation_length P) as LN.
  assert (HN : 1 <= INR (length xs)) by (destruct xs; [contradiction|]; apply (le_INR 1); cbn; lia).
  unfold n_below, n_upto. rewrite !(filter_perm _ _ _ P). fold (n_below s (interp s ((INR (length xs) - 1) * f))) (n_upto s (interp s ((INR (length xs) - 1) * f))).
  fold (n_upto s (interp s ((INR (length xs) - 1) * (1 - f)))) (n_below s (interp s ((INR (length xs) - 1) * (1 - f)))).
  destruct (interp_counts s ((INR (length xs) - 1) * f) S0) as (A1 & A2); [rewrite <- LN; split; nra|].
  destruct (interp_counts s ((INR (length xs) - 1) * (1 - f)) S0) as (B1 & B2); [rewrite <- LN; split; nra|]. repeat split; lra.
Qed.
Print Assumptions C87_counts.
(** The order of the samples does not matter, and the lower limit is not above the upper one for limfrac up to 1/2. *)
Theorem C87_order xs ys f : xs <> [] -> 0 <= f <= 1 -> Permutation xs ys -> ConfidVal ys f = ConfidVal xs f.
Proof.
  intros Hn Hf P. assert (Hm : ys <> []) by (intros ->; symmetry in P; apply Permutation_nil in P; contradiction).
  destruct (C87_quantile xs f Hn Hf) as (s & P1 & S1 & ->). destruct (C87_quantile ys f Hm Hf) as (s' & P2 & S2 & ->).
  assert (s = s') by (apply sorted_unique; auto; transitivity xs; [now symmetry|]; now transitivity ys). subst s'. now rewrite (Permutation_length P).
Qed.
Print Assumptions C87_order.
Theorem C87_interval xs f lo up : xs <> [] -> 0 <= f <= 1 / 2 -> ConfidVal xs f = Ok (lo, up) -> lo <= up.
Proof.
  intros Hn Hf E. destruct (C87_quantile xs f Hn ltac:(lra)) as (s & P & S0 & E2). rewrite E2 in E. injection E as <- <-.
  assert (HN : 1 <= INR (length xs)) by (destruct xs; [contradiction|]; apply (le_INR 1); cbn; lia).
  apply interp_mono; [exact S0|split; nra|]. rewrite <- (Permutation_length P). nra.
Qed.
Print Assumptions C87_interval.
(** five samples, a quarter on each side *)
Example C87_ex : ConfidVal [5; 1; 4; 2; 3] (1 / 4) = Ok (2, 4) /\ n_below [5; 1; 4; 2; 3] 2 = 1%nat /\ n_upto [5; 1; 4; 2; 3] 2 = 2%nat.
Proof.
  assert (S0 : in_order CompareReal [1; 2; 3; 4; 5]) by (cbn; repeat split; try contradiction; intros y Hy; apply CompareReal_le; repeat (destruct Hy as [<-|Hy]; [lra|]); contradiction).
  assert (P : Permutation [5; 1; 4; 2; 3] [1; 2; 3; 4; 5]).
  { transitivity (1 :: [5; 4; 2; 3]); [apply perm_swap|]. constructor. transitivity ([5; 4] ++ [2; 3]); [reflexivity|]. transitivity ([2; 3] ++ [5; 4]); [apply Permutation_app_comm|]. repeat constructor. }
  split.
  - destruct (C87_quantile [5; 1; 4; 2; 3] (1 / 4) ltac:(discriminate) ltac:(lra)) as (s & P1 & S1 & ->). assert (s = [1; 2; 3; 4; 5]) by (apply sorted_unique; auto; transitivity [5; 1; 4; 2; 3]; [now symmetry|exact P]). subst s.
    assert (I1 : int_of ((INR (length [5; 1; 4; 2; 3]) - 1) * (1 / 4)) = 1%nat) by (apply int_of_unique; cbn; lra).
    assert (I2 : int_of ((INR (length [5; 1; 4; 2; 3]) - 1) * (1 - 1 / 4)) = 3%nat) by (apply int_of_unique; cbn; lra).
    unfold interp. unfold int_of in I1, I2. rewrite I1, I2. cbn [nth Nat.add length INR]. f_equal. f_equal; field.
  - split; unfold n_below, n_upto; cbn [filter]; repeat (destruct (Rlt_dec _ _) as [?|?]; try (exfalso; lra)); repeat (destruct (Rle_dec _ _) as [?|?]; try (exfalso; lra)); reflexivity.
Qed.
