(** Blocks and proposals of the sampler: C81 (blocks of parameters), C82 (blocks of likelihoods), C83 (cycles of proposals),
    C84 (proposals follow the covariance matrix). *)
From Coq Require Import Reals List Bool ZArith Arith Lia Lra Permutation Sorted.
From Verif Require Import StatModel StatSpec StatProofs McmcModel BlockModel BlockSpec BlockProofs.
Import ListNotations.
Local Open Scope list_scope.
Local Open Scope nat_scope.

(** ** C81 *)

(** Every varying parameter is in exactly one block. *)
Theorem C81_partition s : Permutation (concat (param_blocks s)) (seq 1 (num_used s)) /\ NoDup (concat (param_blocks s)).
Proof. split; [apply blocks_perm|]. apply (Permutation_NoDup (l := seq 1 (num_used s))); [symmetry; apply blocks_perm|apply seq_NoDup]. Qed.
Print Assumptions C81_partition.
(** The first two blocks have the slow parameters and the others the fast ones. *)
Theorem C81_speed s b j : In j (nth b (param_blocks s) []) -> (b < 2 <-> is_slow s (used s j)).
Proof.
  intros H. assert (R : 1 <= j <= num_used s).
  { apply concat_nth in H. apply (Permutation_in j (blocks_perm s)) in H. apply in_seq in H. lia. }
  rewrite <- type_slow by now apply used_varying. unfold slow_tp_max, param_blocks in *. cbn [map app] in H.
  destruct b as [|[|[|b]]]; cbn [nth] in H;
    [apply filter_In in H; destruct H as (_ & H); apply Nat.eqb_eq in H; unfold tp_slow in H; lia
    |apply filter_In in H; destruct H as (_ & H); apply Nat.eqb_eq in H; unfold tp_semislow in H; lia
    |apply filter_In in H; destruct H as (_ & H); apply Nat.eqb_eq in H; unfold tp_semifast in H; lia
    |apply fast_blocks_in in H; unfold tp_fast in H; lia].
Qed.
Print Assumptions C81_speed.
(** Of the slow ones those from index_semislow on are apart, and of the fast ones those before index_data, if semi-fast blocks are used. *)
Theorem C81_kinds s b j : In j (nth b (param_blocks s) []) ->
  (b = 1 <-> is_slow s (used s j) /\ s_use s = true /\ s_semi s = true /\ (0 <= s_semislow s <= Z.of_nat (used s j))%Z) /\
  (b = 2 <-> ~ is_slow s (used s j) /\ s_semi s = true /\ used s j < s_data s).
Proof.
  intros H. assert (R : 1 <= j <= num_used s).
  { apply concat_nth in H. apply (Permutation_in j (blocks_perm s)) in H. apply in_seq in H. lia. }
  pose proof (used_varying s j R) as V.
  assert (T : param_type s (used s j) = match b with 0 => tp_slow | 1 => tp_semislow | 2 => tp_semifast | _ => tp_fast end).
  { unfold param_blocks in H. cbn [map app] in H. destruct b as [|[|[|b]]]; cbn [nth] in H;
      [apply filter_In in H; now apply Nat.eqb_eq|apply filter_In in H; now apply Nat.eqb_eq|apply filter_In in H; now apply Nat.eqb_eq|].
    apply fast_blocks_in in H. tauto. }
  assert (S : is_slow s (used s j) <-> s_use s && existsb (Nat.eqb (used s j)) (s_fast s) = false).
  { unfold is_slow. rewrite andb_false_iff. split; (intros [A|A]; [now left|right]).
    - destruct (existsb _ _) eqn:X; [|reflexivity]. exfalso. apply A. apply existsb_exists in X. destruct X as (x & Hx & E). apply Nat.eqb_eq in E. now subst.
    - intros I. assert (existsb (Nat.eqb (used s j)) (s_fast s) = true) by (apply existsb_exists; exists (used s j); split; [exact I|apply Nat.eqb_refl]). congruence. }
  unfold param_type in T. rewrite V in T. rewrite S.
  destruct (s_use s && existsb (Nat.eqb (used s j)) (s_fast s)) eqn:F.
  - destruct (s_data s <=? used s j) eqn:D; cbn [orb] in T.
    + apply Nat.leb_le in D. unfold tp_fast, tp_slow, tp_semislow, tp_semifast in T. split; split; intros X; try (subst b; discriminate); [destruct X as (X & _); discriminate|lia].
    + apply Nat.leb_gt in D. destruct (s_semi s); cbn [negb] in T; unfold tp_fast, tp_slow, tp_semislow, tp_semifast in T.
      * split; split; intros X; try (subst b; discriminate); [destruct X as (X & _); discriminate|split; [discriminate|split; [reflexivity|exact D]]|].
        destruct b as [|[|[|b]]]; try discriminate. reflexivity.
      * split; split; intros X; try (subst b; discriminate); [destruct X as (X & _); discriminate|destruct X as (_ & X & _); discriminate].
  - unfold tp_fast, tp_slow, tp_semislow, tp_semifast in T.
    destruct (s_use s); cbn [andb] in T; [|split; split; intros X; try (subst b; discriminate); [destruct X as (_ & X & _); discriminate|destruct X as (X & _); congruence]].
    destruct (0 <=? s_semislow s)%Z eqn:A; cbn [andb] in T;
      [|split; split; intros X; try (subst b; discriminate); [destruct X as (_ & _ & _ & X); apply Z.leb_gt in A; lia|destruct X as (X & _); congruence]].
    destruct (s_semislow s <=? Z.of_nat (used s j))%Z eqn:B; cbn [andb] in T;
      [|split; split; intros X; try (subst b; discriminate); [destruct X as (_ & _ & _ & X); apply Z.leb_gt in B; lia|destruct X as (X & _); congruence]].
    apply Z.leb_le in A, B. destruct (s_semi s).
    + split; split; intros X; try (subst b; discriminate); [auto| |destruct X as (X & _); congruence].
      destruct b as [|[|[|b]]]; try discriminate. reflexivity.
    + split; split; intros X; try (subst b; discriminate); [destruct X as (_ & _ & X & _); discriminate|destruct X as (X & _); congruence].
Qed.
Print Assumptions C81_kinds.
(** The numbers of slow and fast parameters are those of the proposer, and add up to all varying parameters. *)
Theorem C81_counts s :
  Slow_n (param_blocks s) slow_tp_max = num_slow s /\ Fast_n (param_blocks s) slow_tp_max = num_fast s /\
  num_slow s + num_fast s = num_used s /\ All_n (param_blocks s) = num_used s.
Proof.
  assert (A : All_n (param_blocks s) = num_used s) by (unfold All_n, total; rewrite (Permutation_length (blocks_perm s)); apply seq_length).
  assert (B : Slow_n (param_blocks s) slow_tp_max = num_slow s) by (unfold Slow_n, total, num_slow, slow_tp_max, param_blocks; cbn [map app firstn concat]; rewrite app_nil_r, app_length; reflexivity).
  assert (C : num_slow s + num_fast s = num_used s).
  { rewrite <- A. unfold All_n, total, param_blocks, num_slow, num_fast. cbn [map app concat]. rewrite !app_length. lia. }
  unfold Fast_n. lia.
Qed.
Print Assumptions C81_counts.
(** The arrays of the blocks of slow and semi-fast parameters have the size they are allocated with: the number of all parameters of the kind. *)
Theorem C81_sizes s speed : 1 <= speed -> length (filter (fun i => param_type s i =? speed) (seq 1 (s_n s))) = length (speed_block s speed).
Proof.
  intros H.
  assert (E : filter (fun i => param_type s i =? speed) (seq 1 (s_n s)) = filter (fun i => param_type s i =? speed) (params_used s)).
  { unfold params_used. induction (seq 1 (s_n s)) as [|i l IH]; [reflexivity|]. cbn [filter]. destruct (s_varying s i) eqn:V; cbn [filter]; rewrite IH; [reflexivity|].
    unfold param_type. rewrite V. replace (0 =? speed) with false by (symmetry; apply Nat.eqb_neq; lia). reflexivity. }
  rewrite E. unfold speed_block.
  assert (M : params_used s = map (used s) (seq 1 (num_used s))).
  { apply (nth_ext _ _ 0 (used s 0)); [rewrite map_length, seq_length; reflexivity|]. intros k Hk. rewrite map_nth, seq_nth by exact Hk. unfold used. f_equal. lia. }
  rewrite M at 1. clear. induction (seq 1 (num_used s)) as [|i l IH]; [reflexivity|]. cbn [map filter]. destruct (_ =? speed); cbn [length]; now rewrite IH.
Qed.
Print Assumptions C81_sizes.
(** nine parameters of which 3 is fixed, theory parameters up to 6 (initial power from 5), fast parameters from 5; two likelihoods with
    two fast parameters each *)
Definition ex_s81 : setup :=
  mkSet 10 (fun i => negb (i =? 3)) true (fast_from 6 10) 7 5 true true [(7, 2); (9, 2)].
Example C81_ex : param_blocks ex_s81 = [[1; 2; 3]; [4]; [5]; [6; 7; 8]; [9]] /\
  map (map (used ex_s81)) (param_blocks ex_s81) = [[1; 2; 4]; [5]; [6]; [7; 8; 9]; [10]] /\
  num_slow ex_s81 = 4 /\ num_fast ex_s81 = 5 /\ is_slow ex_s81 5 /\ ~ is_slow ex_s81 6.
Proof.
  split; [reflexivity|]. split; [reflexivity|]. split; [reflexivity|]. split; [reflexivity|]. unfold is_slow. cbn. split; [right; lia|intros [H|H]; [discriminate|lia]].
Qed.

(** ** C82 *)

(** Where the blocks of fast parameters are cut: the fast parameters j and j+1 are in different blocks exactly if j is a break. *)
Theorem C82_cuts_partial s j :
  1 <= j < num_used s -> param_type s (used s j) = tp_fast -> param_type s (used s (j + 1)) = tp_fast ->
  (In j (breaks s) <-> ~ exists b, In j (nth b (param_blocks s) []) /\ In (j + 1) (nth b (param_blocks s) [])).
Proof.
  intros Hj T1 T2. destruct (breaks_sorted s) as (S & E & M).
  assert (IN : forall x, In x (orderIndices (breaks s)) <-> In x (breaks s)) by (intros x; split; apply Permutation_in; [|symmetry]; apply orderIndices_perm).
  split.
  - intros I (b & A & B). unfold param_blocks in A, B. cbn [map app] in A, B.
    assert (SP : forall v, v <> tp_fast -> ~ In j (speed_block s v)) by (intros v Hv X; apply filter_In in X; destruct X as (_ & X); apply Nat.eqb_eq in X; congruence).
    destruct b as [|[|[|b]]]; cbn [nth] in A, B; [now apply SP in A|now apply SP in A|now apply SP in A|].
    apply (fast_blocks_cut s (orderIndices (breaks s)) 1 j b S ltac:(intros; lia) (proj2 (IN j) I) A B).
  - intros N. destruct (in_dec Nat.eq_dec j (breaks s)) as [I|I]; [exact I|]. exfalso. apply N.
    destruct (fast_blocks_same s (orderIndices (breaks s)) 1 j S ltac:(lia) ltac:(lia)) as (b & A & B); auto.
    + exists (num_used s). split; [|lia]. apply IN. unfold breaks. apply in_app_iff. right. now left.
    + intros X. now apply I, IN.
    + exists (3 + b). unfold param_blocks. cbn [map app Nat.add nth]. now split.
Qed.
Print Assumptions C82_cuts_partial.
Lemma fast_of_type s l j : fast_of s l j -> param_type s (used s j) = tp_fast.
Proof.
  intros (R & NS & D & _). unfold param_type. rewrite used_varying by exact R. unfold is_slow in NS.
  destruct (s_use s); [|exfalso; apply NS; now left]. cbn [andb].
  destruct (existsb (Nat.eqb (used s j)) (s_fast s)) eqn:X.
  - destruct D as [D|D]; [apply Nat.leb_le in D; rewrite D; reflexivity|rewrite D, orb_true_r; reflexivity].
  - exfalso. apply NS. right. intros I. assert (existsb (Nat.eqb (used s j)) (s_fast s) = true) by (apply existsb_exists; exists (used s j); split; [exact I|apply Nat.eqb_refl]). congruence.
Qed.
Lemma type_fast_of s l j : 1 <= j <= num_used s -> param_type s (used s j) = tp_fast -> fst l <= used s j < fst l + snd l -> fast_of s l j.
Proof.
  intros R T L. unfold param_type, tp_slow, tp_semislow, tp_semifast, tp_fast in T. rewrite used_varying in T by exact R.
  destruct (s_use s && existsb (Nat.eqb (used s j)) (s_fast s)) eqn:F.
  - apply andb_prop in F. destruct F as (U & F). apply existsb_exists in F. destruct F as (x & Hx & E). apply Nat.eqb_eq in E. subst x.
    repeat split; try lia.
    + intros [X|X]; [congruence|]. now apply X.
    + destruct (s_data s <=? used s j) eqn:D; [left; now apply Nat.leb_le|]. cbn [orb] in T. destruct (s_semi s); [discriminate|now right].
  - destruct (s_use s && _ && _ && _); discriminate.
Qed.
Lemma first_fast_iff s l j : first_fast s l = Some j <-> first_of s l j.
Proof.
  unfold first_fast, first_of. set (f := fun j0 => _).
  assert (FF : forall i, 1 <= i <= num_used s -> (f i = true <-> fast_of s l i)).
  { intros i Hi. unfold f. rewrite !andb_true_iff, Nat.eqb_eq, Nat.leb_le, Nat.ltb_lt. split.
    - intros ((A & B) & C). now apply type_fast_of.
    - intros F. pose proof (fast_of_type _ _ _ F) as T. destruct F as (_ & _ & _ & B & C). auto. }
  assert (G : forall n a, 1 <= a -> a + n <= num_used s ->
    (find f (seq a n) = Some j <-> a <= j < a + n /\ fast_of s l j /\ forall i, a <= i < j -> ~ fast_of s l i)).
  { induction n as [|n IH]; intros a Ha Hn; cbn [seq find]; [split; [discriminate|lia]|].
    destruct (f a) eqn:E.
    - apply FF in E; [|lia]. split.
      + intros X. inversion X; subst. split; [lia|]. split; [exact E|intros; lia].
      + intros (B & F & M). destruct (Nat.eq_dec a j) as [->|N]; [reflexivity|]. exfalso. apply (M a); [lia|exact E].
    - rewrite IH by lia. split; intros (B & F & M).
      + split; [lia|]. split; [exact F|]. intros i Hi X. destruct (Nat.eq_dec i a) as [->|N]; [|apply (M i); [lia|exact X]]. apply FF in X; [congruence|lia].
      + assert (j <> a) by (intros ->; apply FF in F; [congruence|lia]). split; [lia|]. split; [exact F|]. intros i Hi. apply M. lia. }
  destruct (Nat.eq_dec (num_used s) 0) as [Z|Z].
  - rewrite Z. cbn. split; [discriminate|lia].
  - rewrite G by lia. split.
    + intros (B & F & M). split; [exact F|]. split; [lia|]. intros i Hi X. apply (M i); [|exact X]. destruct X as (X & _). lia.
    + intros (F & B & M). assert (1 <= j) by (destruct F as (X & _); lia). split; [lia|]. split; [exact F|]. intros i Hi. apply M. lia.
Qed.
(** Where the breaks are: at the first fast parameter of each likelihood that has some, but the first such likelihood, and at the end. *)
Theorem C82_breaks_partial s j : In j (breaks s) <->
  j = num_used s \/
  (s_bylike s = true /\ exists l1 A l2 B l3, s_likes s = l1 ++ A :: l2 ++ B :: l3 /\ (exists i, first_of s A i) /\ first_of s B j).
Proof.
  assert (F0 : forall likes, In j (find_breaks s false likes) <-> exists l1 B l2, likes = l1 ++ B :: l2 /\ first_of s B j).
  { induction likes as [|l likes IH]; cbn [find_breaks].
    - split; [intros []|]. intros (l1 & B & l2 & E & _). destruct l1; discriminate.
    - assert (K : (exists l1 B l2, l :: likes = l1 ++ B :: l2 /\ first_of s B j) <-> first_of s l j \/ In j (find_breaks s false likes)).
      { rewrite IH. split.
        - intros (l1 & B & l2 & E & H). destruct l1 as [|x l1]; cbn in E; inversion E; subst; [now left|right]. exists l1, B, l2. auto.
        - intros [H|(l1 & B & l2 & -> & H)]; [exists [], l, likes; auto|exists (l :: l1), B, l2; auto]. }
      rewrite K, <- first_fast_iff. destruct (first_fast s l) as [k|].
      + cbn. split; [intros [->|H]; auto|intros [H|H]; [left; congruence|now right]].
      + split; [auto|intros [H|H]; [discriminate|exact H]]. }
  assert (F1 : forall likes, In j (find_breaks s true likes) <-> exists l1 A l2 B l3, likes = l1 ++ A :: l2 ++ B :: l3 /\ (exists i, first_of s A i) /\ first_of s B j).
  { induction likes as [|l likes IH]; cbn [find_breaks].
    - split; [intros []|]. intros (l1 & A & l2 & B & l3 & E & _). destruct l1; discriminate.
    - destruct (first_fast s l) as [k|] eqn:E.
      + rewrite F0. apply first_fast_iff in E. split.
        * intros (l1 & B & l2 & -> & H). exists [], l, l1, B, l2. split; [reflexivity|]. split; [now exists k|exact H].
        * intros (l1 & A & l2 & B & l3 & Eq & _ & H). destruct l1 as [|x l1]; cbn in Eq; inversion Eq; subst.
          -- exists l2, B, l3. auto.
          -- exists (l1 ++ A :: l2), B, l3. rewrite <- app_assoc. auto.
      + rewrite IH. split.
        * intros (l1 & A & l2 & B & l3 & -> & H). exists (l :: l1), A, l2, B, l3. auto.
        * intros (l1 & A & l2 & B & l3 & Eq & (i & Hi) & H). destruct l1 as [|x l1]; cbn in Eq; inversion Eq; subst.
          -- apply first_fast_iff in Hi. congruence.
          -- exists l1, A, l2, B, l3. split; [reflexivity|]. split; [now exists i|exact H]. }
  unfold breaks. rewrite in_app_iff. destruct (s_bylike s).
  - rewrite F1. cbn. split; [intros [H|[H|[]]]; auto|intros [H|(_ & H)]; auto].
  - cbn. split; [intros [[]|[H|[]]]; auto|intros [H|(H & _)]; [auto|discriminate]].
Qed.
Print Assumptions C82_breaks_partial.
(** FINDING: a break is set at the first parameter of a likelihood, but the blocks end at the breaks (lines 408-419 of
    BaseParameters.f90), so the first parameter of a likelihood goes into the block of the likelihood before: whenever likelihood A
    has fast parameters up to number j, at least two of them, and those of B start at j+1, then j and j+1 share a block. *)
Theorem C82_separate_refuted s A B j :
  s_bylike s = true -> In A (s_likes s) -> In B (s_likes s) -> fast_of s A j -> fast_of s B (j + 1) ->
  (forall l, In l (s_likes s) -> fast_of s l j -> fast_of s l (j - 1)) ->
  exists b, In j (nth b (param_blocks s) []) /\ In (j + 1) (nth b (param_blocks s) []).
Proof.
  intros Hs IA IB FA FB Two. pose proof (fast_of_type _ _ _ FA) as T1. pose proof (fast_of_type _ _ _ FB) as T2.
  assert (Hj : 1 <= j < num_used s) by (destruct FA as (R1 & _), FB as (R2 & _); lia).
  assert (N : ~ In j (breaks s)).
  { unfold breaks. rewrite Hs. intros I. apply in_app_iff in I. destruct I as [I|[I|[]]]; [|lia].
    assert (X : forall likes first, (forall l, In l likes -> In l (s_likes s)) -> In j (find_breaks s first likes) -> exists l, In l (s_likes s) /\ first_fast s l = Some j).
    { induction likes as [|l likes IH]; intros first Sub H; [destruct H|]. cbn [find_breaks] in H. destruct (first_fast s l) as [k|] eqn:E; [|apply (IH first); auto; intros; apply Sub; now right].
      destruct first; [apply (IH false); auto; intros; apply Sub; now right|]. destruct H as [->|H]; [exists l; split; [apply Sub; now left|exact E]|apply (IH false); auto; intros; apply Sub; now right]. }
    destruct (X _ _ (fun l H => H) I) as (l & Il & E). unfold first_fast in E.
    pose proof (find_some _ _ E) as (_ & P). apply andb_prop in P. destruct P as (P & P3). apply andb_prop in P. destruct P as (P1 & P2). apply Nat.eqb_eq in P1. apply Nat.leb_le in P2. apply Nat.ltb_lt in P3.
    assert (FL : fast_of s l j) by (destruct FA as (R1 & R2 & R3 & _); repeat split; auto; lia).
    specialize (Two l Il FL). assert (Hj1 : 1 <= j - 1) by (destruct Two as ((Q & _) & _); exact Q).
    assert (F1 : find (fun j => (param_type s (used s j) =? tp_fast) && (fst l <=? used s j) && (used s j <? fst l + snd l)) (seq 1 (j - 1)) <> None).
    { intros F. pose proof (find_none _ _ F (j - 1) ltac:(apply in_seq; lia)) as Z. cbv beta in Z. rewrite (fast_of_type _ _ _ Two) in Z.
      destruct Two as (_ & _ & _ & Q1 & Q2). apply Nat.leb_le in Q1. apply Nat.ltb_lt in Q2. rewrite Q1, Q2 in Z. discriminate. }
    assert (SPL : seq 1 (num_used s - 1) = seq 1 (j - 1) ++ seq j (num_used s - j)).
    { replace j with (1 + (j - 1)) at 2 by lia. rewrite <- seq_app. f_equal. lia. }
    rewrite SPL in E. clear -E F1 Hj1.
    assert (G : forall (f : nat -> bool) a b, find f a <> None -> find f (a ++ b) = find f a) by (intros f a b; induction a as [|x a IH]; intros Hn; [now destruct Hn|]; cbn [find app] in *; destruct (f x); auto).
    rewrite G in E by exact F1. apply find_some in E. destruct E as (E & _). apply in_seq in E. lia. }
  destruct (C82_cuts_partial s j Hj T1 T2) as (_ & C). destruct (in_dec Nat.eq_dec j (breaks s)) as [I|I]; [contradiction|].
  destruct (breaks_sorted s) as (S & _). assert (IN : forall x, In x (orderIndices (breaks s)) -> In x (breaks s)) by (intros x; apply Permutation_in, orderIndices_perm).
  destruct (fast_blocks_same s (orderIndices (breaks s)) 1 j S ltac:(lia) ltac:(lia)) as (b & X & Y); auto.
  - exists (num_used s). split; [|lia]. apply (Permutation_in _ (Permutation_sym (orderIndices_perm _))). unfold breaks. apply in_app_iff. right. now left.
  - exists (3 + b). unfold param_blocks. cbn [map app Nat.add nth]. now split.
Qed.
Print Assumptions C82_separate_refuted.
(** in the example the likelihoods with parameters 7, 8 and 9, 10: parameter 9 is in the block of 7 and 8 *)
Example C82_ex : s_bylike ex_s81 = true /\ fast_of ex_s81 (7, 2) 7 /\ fast_of ex_s81 (9, 2) 8 /\
  (forall l, In l (s_likes ex_s81) -> fast_of ex_s81 l 7 -> fast_of ex_s81 l 6) /\ breaks ex_s81 = [8; 9] /\
  param_type ex_s81 (used ex_s81 8) = tp_fast /\ param_type ex_s81 (used ex_s81 9) = tp_fast.
Proof.
  assert (NS : forall k, In k [7; 8; 9; 10] -> ~ is_slow ex_s81 k) by (intros k Hk [H|H]; [discriminate|]; apply H; cbn in *; lia).
  split; [reflexivity|]. split; [split; [cbn; lia|split; [apply NS; cbn; lia|split; [left; cbn; lia|cbn; lia]]]|].
  split; [split; [cbn; lia|split; [apply NS; cbn; lia|split; [left; cbn; lia|cbn; lia]]]|].
  split; [|repeat split; reflexivity].
  intros l [<-|[<-|[]]] (R & _ & _ & X); [|cbn in X; lia]. split; [cbn; lia|split; [apply NS; cbn; lia|split; [left; cbn; lia|cbn; lia]]].
Qed.

(** ** C83 *)

(** A period of Slow%n + oversample_fast*Fast%n calls of GetProposal: each slow index is used once, each fast index oversample_fast
    times, whatever the random orders; and then the next period begins. *)
Theorem C83_period ns nf ov ds p :
  1 <= ov -> 1 <= ns + nf -> between ns nf p -> Forall (shuffles ns nf) ds -> length ds = ns + ov * nf ->
  let '(xs, p') := picks ns nf ov ds p in
  (forall x, 1 <= x <= ns -> times x xs = 1) /\ (forall x, ns < x <= ns + nf -> times x xs = ov) /\
  length xs = ns + ov * nf /\ between ns nf p'.
Proof.
  intros Hov Hn (B1 & B2 & B3 & B4) F E.
  destruct ds as [|d ds]; [cbn in E; nia|]. pose proof (Forall_inv F) as (FA & FS & FF). pose proof (Forall_inv_tail F) as F2. cbn [length] in E.
  assert (LX : forall ds p, length (fst (picks ns nf ov ds p)) = length ds).
  { clear. induction ds as [|d ds IH]; intros p; [reflexivity|]. cbn [picks]. destruct (pick ns nf ov d p) as (x, p1). specialize (IH p1). destruct (picks ns nf ov ds p1). cbn [fst length] in *. now rewrite IH. }
  pose proof (LX (d :: ds) p) as LXS. clear LX.
  (* the first call starts a new order *)
  assert (LA : length (pd_all d) = ns + nf) by (apply Permutation_length in FA; rewrite seq_length in FA; exact FA).
  assert (KM : cy_loop (p_all p) mod (ns + nf) = 0) by (destruct B2 as (k & ->); apply Nat.mod_mul; lia).
  destruct (pd_all d) as [|a q] eqn:PA; [cbn in LA; lia|].
  assert (NX : Next (ns + nf) (a :: q) (p_all p) = (a, mkCy 1 (a :: q))) by (unfold Next; rewrite KM; reflexivity).
  assert (HQ : forall b, In b (a :: q) -> 1 <= b <= ns + nf) by (intros b Hb; apply (Permutation_in b FA) in Hb; apply in_seq in Hb; lia).
  assert (CQ : cost ns ov (a :: q) = ns + ov * nf).
  { rewrite cost_count by exact Hov. unfold nslow, nfast. rewrite !(count_perm ov Hov _ _ _ FA). destruct (nslow_seq ns nf ov Hov) as (X & Y). unfold nslow, nfast in X, Y. now rewrite X, Y. }
  assert (GS : good ns (p_slow p)) by now left. assert (GF : good nf (p_fast p)) by now left.
  assert (CS : nslow ns (a :: q) = ns /\ nfast ns (a :: q) = nf) by (unfold nslow, nfast; rewrite !(count_perm ov Hov _ _ _ FA); apply (nslow_seq ns nf ov Hov)).
  assert (MAIN : exists sl fl, let xs := fst (picks ns nf ov (d :: ds) p) in let p' := snd (picks ns nf ov (d :: ds) p) in
    Forall (fun x => Permutation x (seq 1 ns)) sl /\ Forall (fun x => Permutation x (seq 1 nf)) fl /\ length sl = ns /\ length fl = ov * nf /\
    filter (fun x => x <=? ns) xs = fst (Nexts ns sl (p_slow p)) /\ filter (fun x => ns <? x) xs = map (Nat.add ns) (fst (Nexts nf fl (p_fast p))) /\
    p_slow p' = snd (Nexts ns sl (p_slow p)) /\ p_fast p' = snd (Nexts nf fl (p_fast p)) /\ cy_loop (p_all p') = ns + nf /\ p_fast_ix p' = 0).
  { cbn [picks]. unfold pick. rewrite B1. cbn [Nat.eqb negb]. rewrite PA, NX. cbn [cost fold_right] in CQ. destruct CS as (CS & CF). unfold nslow, nfast in CS, CF. cbn [filter] in CS, CF.
    destruct (HQ a (or_introl eq_refl)) as (A1 & A2). destruct (ns <? a) eqn:C.
    - apply Nat.ltb_lt in C. replace (a <=? ns) with false in CS by (symmetry; apply Nat.leb_gt; lia). unfold pick_fast. cbn [p_fast p_fast_ix p_all p_slow].
      destruct (Next_good nf (pd_fast d) (p_fast p) ltac:(lia) FF GF) as (R & G').
      destruct (Next nf (pd_fast d) (p_fast p)) as (x, cf) eqn:NF. cbn [fst snd] in R, G'. cbn [p_fast_ix p_all p_slow p_fast].
      pose proof (picks_run ns nf ov Hov ds (mkPS (ov - 1) (mkCy 1 (a :: q)) (p_slow p) cf) q F2 LA) as IH. cbn [p_fast_ix p_all p_slow p_fast cy_loop cy_ind skipn] in IH.
      specialize (IH ltac:(lia) eq_refl ltac:(unfold cost; lia) ltac:(lia) (fun b Hb => HQ b (or_intror Hb)) GS G').
      destruct (picks ns nf ov ds _) as (xs, p2). destruct IH as (sl & fl & I1 & I2 & I3 & I4 & I5 & I6 & I7 & I8 & I9 & I10).
      exists sl, (pd_fast d :: fl). cbn [Nexts]. rewrite NF. destruct (Nexts nf fl cf) as (ys, cf2). cbn [fst snd] in *. cbn [filter].
      replace (ns + x <=? ns) with false by (symmetry; apply Nat.leb_gt; lia). replace (ns <? ns + x) with true by (symmetry; apply Nat.ltb_lt; lia).
      unfold nslow, nfast in I3, I4. cbn [length map] in *. rewrite I6. repeat split; auto; try lia; nia.
    - apply Nat.ltb_ge in C. replace (a <=? ns) with true in CS by (symmetry; apply Nat.leb_le; lia). unfold pick_slow. cbn [p_fast p_fast_ix p_all p_slow].
      destruct (Next_good ns (pd_slow d) (p_slow p) ltac:(lia) FS GS) as (R & G').
      destruct (Next ns (pd_slow d) (p_slow p)) as (x, cs) eqn:NF. cbn [fst snd] in R, G'.
      pose proof (picks_run ns nf ov Hov ds (mkPS 0 (mkCy 1 (a :: q)) cs (p_fast p)) q F2 LA) as IH. cbn [p_fast_ix p_all p_slow p_fast cy_loop cy_ind skipn] in IH.
      specialize (IH ltac:(lia) eq_refl ltac:(unfold cost; lia) ltac:(lia) (fun b Hb => HQ b (or_intror Hb)) G' GF).
      destruct (picks ns nf ov ds _) as (xs, p2). destruct IH as (sl & fl & I1 & I2 & I3 & I4 & I5 & I6 & I7 & I8 & I9 & I10).
      exists (pd_slow d :: sl), fl. cbn [Nexts]. rewrite NF. destruct (Nexts ns sl cs) as (ys, cf2). cbn [fst snd] in *. cbn [filter].
      replace (x <=? ns) with true by (symmetry; apply Nat.leb_le; lia). replace (ns <? x) with false by (symmetry; apply Nat.ltb_ge; lia).
      unfold nslow, nfast in I3, I4. cbn [length map] in *. rewrite I5. repeat split; auto; try lia; nia. }
  destruct MAIN as (sl & fl & M1 & M2 & M3 & M4 & M5 & M6 & M7 & M8 & M9 & M10).
  destruct (picks ns nf ov (d :: ds) p) as (xs, p') eqn:PK. cbn [fst snd] in *.
  assert (TF : forall x (f : nat -> bool), f x = true -> times x xs = times x (filter f xs)).
  { clear. intros x f Hf. unfold times. induction xs as [|y xs IH]; [reflexivity|]. cbn [filter]. destruct (f y) eqn:E; cbn [filter]; destruct (x =? y) eqn:X; cbn [length]; rewrite ?IH; auto.
    apply Nat.eqb_eq in X. subst. congruence. }
  split; [|split; [|split; [cbn [length] in LXS; lia|]]].
  - intros x Hx. rewrite (TF x (fun x => x <=? ns)) by (apply Nat.leb_le; lia). rewrite M5.
    destruct (Nexts_cycles ns 1 ltac:(lia) sl (p_slow p) B3 M1 ltac:(lia)) as (T & _). rewrite T. replace ((1 <=? x) && (x <=? ns)) with true; [reflexivity|]. symmetry. apply andb_true_iff. rewrite !Nat.leb_le. lia.
  - intros x Hx. rewrite (TF x (fun x => ns <? x)) by (apply Nat.ltb_lt; lia). rewrite M6.
    destruct (Nexts_cycles nf ov ltac:(lia) fl (p_fast p) B4 M2 ltac:(lia)) as (T & _). specialize (T (x - ns)). replace ((1 <=? x - ns) && (x - ns <=? nf)) with true in T by (symmetry; apply andb_true_iff; rewrite !Nat.leb_le; lia).
    rewrite <- T. clear -Hx. unfold times. induction (fst (Nexts nf fl (p_fast p))) as [|y l IH]; [reflexivity|]. cbn [map filter]. replace (x =? ns + y) with (x - ns =? y).
    + destruct (x - ns =? y); cbn [length]; now rewrite IH.
    + destruct (x - ns =? y) eqn:Y; symmetry; [apply Nat.eqb_eq in Y; apply Nat.eqb_eq; lia|apply Nat.eqb_neq in Y; apply Nat.eqb_neq; lia].
  - split; [exact M10|]. split; [exists 1; lia|]. split.
    + rewrite M7. destruct ns as [|ns']; [destruct sl; [cbn; exact B3|cbn in M3; lia]|]. apply (Nexts_cycles (S ns') 1 ltac:(lia) sl (p_slow p) B3 M1 ltac:(lia)).
    + rewrite M8. destruct nf as [|nf']; [destruct fl; [cbn; exact B4|cbn in M4; lia]|]. apply (Nexts_cycles (S nf') ov ltac:(lia) fl (p_fast p) B4 M2 ltac:(lia)).
Qed.
Print Assumptions C83_period.
Lemma pstart_between ns nf : between ns nf pstart.
Proof. repeat split; exists 0; reflexivity. Qed.
(** The index chosen says which block is used: the block that has the parameter with that place in the order from slow to fast. *)
Theorem C83_block blocks x : 1 <= x <= All_n blocks ->
  let b := ProposerForIndex blocks x in
  1 <= b <= length (used_blocks blocks) /\ In (nth (x - 1) (concat blocks) 0) (nth (b - 1) (used_blocks blocks) []).
Proof.
  intros H. unfold ProposerForIndex.
  assert (T2 : total (used_blocks blocks) = All_n blocks) by (unfold total, All_n; now rewrite used_blocks_concat).
  destruct (proposer_for_nth (used_blocks blocks) 1 1 (x - 1) ltac:(lia)) as (c & C1 & C2 & C3 & C4 & C5). rewrite C2. rewrite used_blocks_concat in C5. cbn zeta.
  replace (1 + c - 1) with c by lia. split; [lia|exact C5].
Qed.
Print Assumptions C83_block.
Definition ex_d83 : pdraw := mkPD [3; 1; 2] [2; 1] [1].
Example C83_ex : between 2 1 pstart /\ shuffles 2 1 ex_d83 /\ fst (picks 2 1 3 (repeat ex_d83 5) pstart) = [3; 3; 3; 2; 1] /\
  ProposerForIndex [[1; 2]; []; [3]] 3 = 2.
Proof.
  split; [apply pstart_between|]. split; [|split; reflexivity]. unfold shuffles, ex_d83. cbn. split; [|split; [apply perm_swap|apply Permutation_refl]].
  apply (Permutation_cons_append [1; 2] 3).
Qed.

(** ** C84 *)
Local Open Scope R_scope.

(** The mapping matrices follow the covariance matrix: with any rotation in each block, the outer products of the parameter changes
    for unit steps along all directions of all blocks add up to the covariance matrix. *)
Theorem C84_covariance blocks chol cov Rot i j :
  NoDup (concat blocks) -> (forall k, In k (concat blocks) -> 0 < cov k k) ->
  cholesky_of (All_n blocks) (fun p q => corr cov (nth p (concat blocks) 0%nat) (nth q (concat blocks) 0%nat)) (Lmat blocks chol cov) ->
  (forall b, (1 <= b <= length (used_blocks blocks))%nat -> orthogonal (block_size blocks b) (Rot b)) ->
  In i (concat blocks) -> In j (concat blocks) ->
  Sm (length (used_blocks blocks)) (fun b => Sm (block_size blocks (S b)) (fun l =>
    unit_change blocks chol cov Rot (S b) l i * unit_change blocks chol cov Rot (S b) l j)) = cov i j.
Proof.
  intros ND P HL O Ii Ij. apply (In_nth _ _ 0%nat) in Ii, Ij. destruct Ii as (p & Hp & Ei), Ij as (q & Hq & Ej).
  assert (IX : forall r, nth r (concat blocks) 0%nat = index_at blocks r) by (intros r; unfold index_at, indices; now rewrite used_blocks_concat).
  rewrite <- Ei, <- Ej, !IX. apply covariance; auto; [|intros b Hb; apply O; lia].
  destruct HL as (H1 & H2). split; [exact H1|]. intros a b Ha Hb. rewrite <- !IX. now apply H2.
Qed.
Print Assumptions C84_covariance.
(** A proposal for an index above Slow%n changes no slow parameter, and a proposal of a block changes no parameter of an earlier block. *)
Theorem C84_fast_only s chol cov x Rot l r P i :
  let blocks := param_blocks s in
  (num_slow s < x <= num_used s)%nat -> In i (concat (firstn slow_tp_max blocks)) ->
  GetBlockProposal blocks chol cov s (ProposerForIndex blocks x) Rot l r P (used s i) = P (used s i).
Proof.
  intros blocks Hx Hi. destruct (C81_counts s) as (CS & CF & CA & CN). fold blocks in CS, CF, CN.
  destruct (fast_start blocks slow_tp_max x ltac:(lia)) as (F1 & F2). unfold GetBlockProposal, update. rewrite position_none; [reflexivity|].
  unfold params_changed, used_params_changed. intros H. apply in_map_iff in H. destruct H as (k & E & K).
  destruct (C81_partition s) as (PM & ND). fold blocks in PM, ND. assert (IC : In i (concat blocks)).
  { rewrite <- (firstn_skipn slow_tp_max blocks), concat_app. apply in_app_iff. now left. }
  assert (KC : In k (concat blocks)).
  { rewrite <- used_blocks_concat. fold (indices blocks). rewrite <- (firstn_skipn (block_start blocks (ProposerForIndex blocks x) - 1) (indices blocks)). apply in_app_iff. now right. }
  assert (RG : forall y, In y (concat blocks) -> (1 <= y <= num_used s)%nat) by (intros y Hy; apply (Permutation_in y PM) in Hy; apply in_seq in Hy; lia).
  apply used_inj in E; [|now apply RG|now apply RG]. subst k.
  assert (EQ : indices blocks = concat (firstn slow_tp_max blocks) ++ concat (skipn slow_tp_max blocks)) by (unfold indices; rewrite used_blocks_concat, <- concat_app, firstn_skipn; reflexivity).
  rewrite EQ, skipn_app in K. rewrite skipn_all2 in K by (unfold Slow_n, total in F1; lia). cbn [app] in K.
  assert (K2 : In i (concat (skipn slow_tp_max blocks))) by (rewrite <- (firstn_skipn (block_start blocks (ProposerForIndex blocks x) - 1 - length (concat (firstn slow_tp_max blocks))) (concat (skipn slow_tp_max blocks))); apply in_app_iff; now right).
  apply (NoDup_app_in (concat (firstn slow_tp_max blocks)) (concat (skipn slow_tp_max blocks)) i); auto. rewrite <- concat_app, firstn_skipn. exact ND.
Qed.
Print Assumptions C84_fast_only.
(** two parameters in two blocks, standard deviations 1 and 2 and correlation 0.6 *)
Definition ex_cov84 (i j : nat) : R := match i, j with 1%nat, 1%nat => 1 | 2%nat, 2%nat => 4 | _, _ => 6 / 5 end.
Definition ex_chol84 (n : nat) (A : nat -> nat -> R) (i j : nat) : R :=
  match i, j with 0%nat, 0%nat => 1 | 1%nat, 0%nat => 3 / 5 | 1%nat, 1%nat => 4 / 5 | _, _ => 0 end.
Example C84_ex : NoDup (concat [[1]; [2]]%nat) /\ (forall k, In k (concat [[1]; [2]]%nat) -> 0 < ex_cov84 k k) /\
  cholesky_of 2 (fun p q => corr ex_cov84 (nth p [1; 2]%nat 0%nat) (nth q [1; 2]%nat 0%nat)) (Lmat [[1]; [2]]%nat ex_chol84 ex_cov84) /\
  orthogonal 1 (fun _ _ => -1) /\ used_params_changed [[1]; [2]]%nat 2 = [2]%nat.
Proof.
  assert (S1 : psigma ex_cov84 1 = 1) by (unfold psigma; cbn; apply sqrt_1).
  assert (S2 : psigma ex_cov84 2 = 2) by (unfold psigma; cbn; replace 4 with (2 * 2) by ring; apply sqrt_square; lra).
  split; [repeat constructor; cbn; lia|]. split; [intros k [<-|[<-|[]]]; cbn; lra|]. split; [|split; [|reflexivity]].
  - split.
    + intros i j Hi Hj Hij. assert (i = 0%nat) by lia. assert (j = 1%nat) by lia. subst. reflexivity.
    + intros i j Hi Hj. unfold corr, Lmat, Sm. destruct i as [|[|i]]; [| |lia]; (destruct j as [|[|j]]; [| |lia]); cbn [nth seq map sumR fold_right ex_chol84]; rewrite ?S1, ?S2; unfold ex_cov84; field.
  - intros i j Hi Hj. assert (i = 0%nat) by lia. assert (j = 0%nat) by lia. subst. unfold Sm. cbn. ring.
Qed.
