(** Lemmas for BlockProps.v *)
From Verif Require Import StatModel StatSpec StatProofs McmcModel BlockModel BlockSpec.
From Coq Require Import Reals List Bool ZArith Arith Lia Lra Permutation Sorted.
Import ListNotations.
Local Open Scope list_scope.
Local Open Scope nat_scope.

(** ** orderIndices sorts *)
Lemma minval_in l : l <> [] -> In (minval l) l.
Proof.
  destruct l as [|a l]; [congruence|]. intros _. cbn [minval]. revert a. induction l as [|b l IH]; intros a; [now left|]. cbn [fold_left].
  destruct (IH (Nat.min a b)) as [E|H]; [|now right; right]. destruct (Nat.min_dec a b) as [X|X]; rewrite X in *; [left; congruence|right; left; congruence].
Qed.
Lemma minval_le l x : In x l -> minval l <= x.
Proof.
  destruct l as [|a l]; [intros []|]. cbn [minval]. revert a x. induction l as [|b l IH]; intros a x H; [destruct H as [<-|[]]; cbn; lia|]. cbn [fold_left].
  assert (M : fold_left Nat.min l (Nat.min a b) <= Nat.min a b) by (apply IH; now left).
  destruct H as [<-|[<-|H]]; [lia|lia|]. apply IH. now right.
Qed.
Lemma drop_first_perm a l : In a l -> Permutation l (a :: drop_first a l).
Proof.
  induction l as [|b l IH]; intros H; [destruct H|]. cbn [drop_first]. destruct (b =? a) eqn:E; [apply Nat.eqb_eq in E; now subst|].
  apply Nat.eqb_neq in E. destruct H as [H|H]; [congruence|]. rewrite (IH H) at 1. apply perm_swap.
Qed.
Lemma order_perm n : forall l, length l = n -> Permutation (order n l) l.
Proof.
  induction n as [|n IH]; intros l E; [destruct l; [constructor|discriminate]|]. cbn [order].
  assert (I : In (minval l) l) by (apply minval_in; destruct l; discriminate).
  pose proof (drop_first_perm _ _ I) as P. transitivity (minval l :: drop_first (minval l) l); [|symmetry; exact P].
  constructor. apply IH. apply Permutation_length in P. cbn in P. lia.
Qed.
Lemma order_sorted n : forall l, length l = n -> StronglySorted le (order n l).
Proof.
  induction n as [|n IH]; intros l E; [constructor|]. cbn [order].
  assert (I : In (minval l) l) by (apply minval_in; destruct l; discriminate).
  pose proof (drop_first_perm _ _ I) as P. assert (LN : length (drop_first (minval l) l) = n) by (apply Permutation_length in P; cbn in P; lia).
  constructor; [now apply IH|]. rewrite Forall_forall. intros x H. apply minval_le. apply (Permutation_in x (order_perm n _ LN)) in H.
  eapply Permutation_in; [symmetry; exact P|]. now right.
Qed.
Lemma orderIndices_perm l : Permutation (orderIndices l) l.
Proof. now apply order_perm. Qed.
Lemma orderIndices_sorted l : StronglySorted le (orderIndices l).
Proof. now apply order_sorted. Qed.
Lemma sorted_last l x d : StronglySorted le l -> In x l -> (forall y, In y l -> y <= x) -> last l d = x.
Proof.
  induction l as [|a l IH]; intros S I M; [destruct I|]. inversion S as [|? ? S1 S2]. destruct l as [|b l].
  - destruct I as [I|[]]. exact I.
  - change (last (a :: b :: l) d) with (last (b :: l) d). apply IH; auto; [|intros; apply M; now right].
    destruct I as [<-|I]; [|exact I]. rewrite Forall_forall in S2. pose proof (S2 b (or_introl eq_refl)). pose proof (M b (or_intror (or_introl eq_refl))). left. lia.
Qed.

(** ** Blocks *)
Lemma find_breaks_range s : forall likes first j, In j (find_breaks s first likes) -> 1 <= j < num_used s.
Proof.
  induction likes as [|l likes IH]; intros first j H; [destruct H|]. cbn [find_breaks] in H. destruct (first_fast s l) as [k|] eqn:E; [|now apply IH in H].
  assert (1 <= k < num_used s) by (apply find_some in E; destruct E as (E & _); apply in_seq in E; lia).
  destruct first; [now apply IH in H|]. destruct H as [<-|H]; [lia|now apply IH in H].
Qed.
Lemma breaks_sorted s : StronglySorted le (orderIndices (breaks s)) /\ last (orderIndices (breaks s)) 0 = num_used s /\
  (forall j, In j (orderIndices (breaks s)) -> j <= num_used s).
Proof.
  assert (IN : forall j, In j (orderIndices (breaks s)) <-> In j (breaks s)) by (intros j; split; apply Permutation_in; [|symmetry]; apply orderIndices_perm).
  assert (LE : forall j, In j (breaks s) -> j <= num_used s).
  { intros j H. unfold breaks in H. apply in_app_iff in H. destruct H as [H|[<-|[]]]; [|lia]. destruct (s_bylike s); [|destruct H]. apply find_breaks_range in H. lia. }
  split; [apply orderIndices_sorted|]. split.
  - apply sorted_last; [apply orderIndices_sorted| |intros; now apply LE, IN]. apply IN. unfold breaks. apply in_app_iff. right. now left.
  - intros; now apply LE, IN.
Qed.
Lemma filter_filter_len {A} (f : A -> bool) l : length (filter f l) <= length l.
Proof. induction l as [|a l IH]; cbn; [lia|]. destruct (f a); cbn; lia. Qed.
Lemma fast_blocks_concat s br : forall ix, 1 <= ix -> StronglySorted le br -> br <> [] -> (forall j, In j br -> ix <= j + 1) ->
  concat (fast_blocks s ix br) = filter (fun i => param_type s (used s i) =? tp_fast) (seq ix (last br 0 + 1 - ix)).
Proof.
  induction br as [|j br IH]; intros ix Hx S N M; [congruence|]. inversion S as [|? ? S1 S2]. cbn [fast_blocks concat].
  assert (HJ : ix <= j + 1) by (apply M; now left). destruct br as [|k br].
  - cbn [fast_blocks concat last]. now rewrite app_nil_r.
  - rewrite Forall_forall in S2. rewrite IH; [|lia|exact S1|discriminate|intros q Hq; pose proof (S2 q Hq); lia].
    change (last (j :: k :: br) 0) with (last (k :: br) 0). set (e := last (k :: br) 0).
    assert (E : j <= e).
    { assert (I : In e (k :: br)) by (unfold e; clear; revert k; induction br as [|q br IHb]; intros k; [now left|]; change (last (k :: q :: br) 0) with (last (q :: br) 0); right; apply IHb).
      now apply S2. }
    rewrite <- filter_app. f_equal. replace (j + 1) with (ix + (j + 1 - ix)) at 2 by lia. rewrite <- seq_app. f_equal. lia.
Qed.
Lemma fast_concat s : concat (fast_blocks s 1 (orderIndices (breaks s))) = speed_block s tp_fast.
Proof.
  destruct (breaks_sorted s) as (S & E & _). rewrite fast_blocks_concat; [| lia|exact S| |intros; lia].
  - rewrite E. unfold speed_block. f_equal. f_equal. lia.
  - intros N. pose proof (orderIndices_perm (breaks s)) as P. rewrite N in P. apply Permutation_nil in P. unfold breaks in P. apply app_eq_nil in P. destruct P; discriminate.
Qed.
Lemma used_in s j : 1 <= j <= num_used s -> In (used s j) (params_used s).
Proof. intros H. apply nth_In. unfold num_used in H. lia. Qed.
Lemma used_varying s j : 1 <= j <= num_used s -> s_varying s (used s j) = true.
Proof. intros H. apply used_in in H. unfold params_used in H. now apply filter_In in H. Qed.
Lemma type_cases s i : s_varying s i = true -> param_type s i = tp_slow \/ param_type s i = tp_semislow \/ param_type s i = tp_semifast \/ param_type s i = tp_fast.
Proof. intros H. unfold param_type. rewrite H. destruct (_ && _); [destruct (_ || _); tauto|]. destruct (_ && _); tauto. Qed.
Lemma type_slow s i : s_varying s i = true -> (param_type s i <= slow_tp_max <-> is_slow s i).
Proof.
  intros H. unfold param_type, is_slow. rewrite H.
  assert (EX : existsb (Nat.eqb i) (s_fast s) = true <-> In i (s_fast s)).
  { rewrite existsb_exists. split; [intros (x & I & E); apply Nat.eqb_eq in E; now subst|intros I; exists i; split; [exact I|apply Nat.eqb_refl]]. }
  destruct (s_use s); cbn [andb].
  - destruct (existsb (Nat.eqb i) (s_fast s)) eqn:X.
    + destruct (_ || _); unfold tp_fast, tp_semifast, slow_tp_max; (split; [lia|]); intros [D|D]; try discriminate; exfalso; apply D, EX; reflexivity.
    + split; [intros _; right; intros I; apply EX in I; discriminate|intros _]. destruct (_ && _); unfold tp_slow, tp_semislow, slow_tp_max; lia.
  - unfold tp_slow, slow_tp_max. split; auto.
Qed.
(** a list whose elements have one of four kinds, kind by kind *)
Lemma perm_filter {A} (f : A -> bool) l : Permutation (filter f l ++ filter (fun x => negb (f x)) l) l.
Proof.
  induction l as [|a l IH]; [constructor|]. cbn [filter]. destruct (f a); cbn [negb app]; [now constructor|]. rewrite <- Permutation_middle. now constructor.
Qed.
Lemma perm_kinds (t : nat -> nat) l : (forall x, In x l -> t x = tp_slow \/ t x = tp_semislow \/ t x = tp_semifast \/ t x = tp_fast) ->
  Permutation (filter (fun x => t x =? tp_slow) l ++ filter (fun x => t x =? tp_semislow) l ++ filter (fun x => t x =? tp_semifast) l ++ filter (fun x => t x =? tp_fast) l) l.
Proof.
  induction l as [|a l IH]; intros H; [constructor|]. specialize (IH (fun x Hx => H x (or_intror Hx))). cbn [filter].
  destruct (H a (or_introl eq_refl)) as [E|[E|[E|E]]]; rewrite E; cbn [Nat.eqb tp_slow tp_semislow tp_semifast tp_fast app].
  - now constructor.
  - rewrite <- Permutation_middle. now constructor.
  - rewrite !app_assoc, <- Permutation_middle. rewrite <- !app_assoc. now constructor.
  - rewrite !app_assoc, <- Permutation_middle. rewrite <- !app_assoc. now constructor.
Qed.
Lemma blocks_concat s : concat (param_blocks s) = speed_block s tp_slow ++ speed_block s tp_semislow ++ speed_block s tp_semifast ++ speed_block s tp_fast.
Proof. unfold param_blocks. rewrite concat_app, fast_concat. cbn [map concat]. rewrite app_nil_r, <- !app_assoc. reflexivity. Qed.
Lemma blocks_perm s : Permutation (concat (param_blocks s)) (seq 1 (num_used s)).
Proof.
  rewrite blocks_concat. unfold speed_block. apply (perm_kinds (fun i => param_type s (used s i))). intros i Hi. apply in_seq in Hi. apply type_cases, used_varying. lia.
Qed.
Lemma fast_blocks_in s br : forall ix b j, In j (nth b (fast_blocks s ix br) []) -> param_type s (used s j) = tp_fast.
Proof.
  induction br as [|k br IH]; intros ix b j H; [destruct b; destruct H|]. destruct b as [|b]; cbn [fast_blocks nth] in H; [|now apply IH in H].
  apply filter_In in H. now apply Nat.eqb_eq.
Qed.
Lemma concat_nth {A} (l : list (list A)) b x : In x (nth b l []) -> In x (concat l).
Proof. revert b. induction l as [|y l IH]; intros b H; [destruct b; destruct H|]. cbn [concat]. apply in_app_iff. destruct b; [now left|right; now apply (IH b)]. Qed.

(** ** Cycles *)
Lemma Nexts_app n a b : forall c, Nexts n (a ++ b) c = (fst (Nexts n a c) ++ fst (Nexts n b (snd (Nexts n a c))), snd (Nexts n b (snd (Nexts n a c)))).
Proof.
  induction a as [|p a IH]; intros c; [cbn; now destruct (Nexts n b c)|]. cbn [app Nexts]. destruct (Next n p c) as (x, c1). rewrite IH.
  destruct (Nexts n a c1) as (xs, c2). cbn [fst snd app]. reflexivity.
Qed.
Lemma skipn_nth {A} k (l : list A) d : k < length l -> skipn k l = nth k l d :: skipn (S k) l.
Proof. revert l. induction k as [|k IH]; intros l H; (destruct l as [|a l]; [cbn in H; lia|]); [reflexivity|]. cbn [length] in H. change (skipn (S k) (a :: l)) with (skipn k l). rewrite IH by lia. reflexivity. Qed.
Lemma Nexts_rest n : forall perms c, 1 <= cy_loop c <= n -> length (cy_ind c) = n -> length perms = n - cy_loop c ->
  fst (Nexts n perms c) = skipn (cy_loop c) (cy_ind c) /\ cy_loop (snd (Nexts n perms c)) = n.
Proof.
  induction perms as [|p perms IH]; intros c H L E; cbn [length] in E.
  - cbn [Nexts fst snd]. rewrite skipn_all2 by lia. split; [reflexivity|lia].
  - cbn [Nexts]. unfold Next. rewrite Nat.mod_small by lia. replace (cy_loop c + 1 =? 1) with false by (symmetry; apply Nat.eqb_neq; lia).
    specialize (IH (mkCy (cy_loop c + 1) (cy_ind c))). cbn [cy_loop cy_ind] in IH. destruct (IH ltac:(lia) L ltac:(lia)) as (I1 & I2).
    destruct (Nexts n perms _) as (xs, c2). cbn [fst snd] in *. rewrite I1. split; [|exact I2]. rewrite (skipn_nth (cy_loop c) (cy_ind c) 0) by lia. f_equal; [f_equal; lia|f_equal; lia].
Qed.
Lemma Nexts_cycle n p perms c : n <> 0 -> cy_loop c mod n = 0 -> length p = n -> length (p :: perms) = n ->
  fst (Nexts n (p :: perms) c) = p /\ cy_loop (snd (Nexts n (p :: perms) c)) = n.
Proof.
  intros Hn M LP L. cbn [Nexts]. unfold Next. rewrite M. cbn [Nat.add Nat.eqb Nat.sub].
  destruct (Nexts_rest n perms (mkCy 1 p)) as (A & B); cbn [cy_loop cy_ind length] in *; [lia|lia|lia|]. destruct (Nexts n perms (mkCy 1 p)) as (xs, c2). cbn [fst snd] in *.
  rewrite A. split; [|exact B]. destruct p as [|x p]; [cbn in LP; lia|]. reflexivity.
Qed.
Lemma times_app x a b : times x (a ++ b) = times x a + times x b.
Proof. unfold times. now rewrite filter_app, app_length. Qed.
Lemma times_perm x a b : Permutation a b -> times x a = times x b.
Proof. intros P. unfold times. apply Permutation_length. induction P; cbn [filter]; [constructor| | |etransitivity; eassumption]; [destruct (x =? x0); [now constructor|assumption]|].
  destruct (x =? y); destruct (x =? x0); try apply Permutation_refl. apply perm_swap. Qed.
Lemma times_seq x a n : times x (seq a n) = if (a <=? x) && (x <? a + n) then 1 else 0.
Proof.
  revert a. induction n as [|n IH]; intros a.
  { replace ((a <=? x) && (x <? a + 0)) with false; [reflexivity|]. symmetry. apply andb_false_iff. rewrite Nat.leb_gt, Nat.ltb_ge. lia. }
  unfold times in *. cbn [seq filter]. destruct (x =? a) eqn:E.
  - apply Nat.eqb_eq in E. subst. cbn [length]. rewrite IH. replace (S a <=? a) with false by (symmetry; apply Nat.leb_gt; lia). cbn [andb].
    rewrite Nat.leb_refl. replace (a <? a + S n) with true by (symmetry; apply Nat.ltb_lt; lia). reflexivity.
  - apply Nat.eqb_neq in E. rewrite IH. replace (a + S n) with (S a + n) by lia. replace (a <=? x) with (S a <=? x); [reflexivity|].
    destruct (a <=? x) eqn:F; [apply Nat.leb_le in F; apply Nat.leb_le; lia|apply Nat.leb_gt in F; apply Nat.leb_gt; lia].
Qed.
(** m full cycles of calls *)
Lemma Nexts_cycles n m : n <> 0 -> forall perms c, (exists k, cy_loop c = k * n) -> Forall (fun p => Permutation p (seq 1 n)) perms -> length perms = m * n ->
  (forall x, times x (fst (Nexts n perms c)) = if (1 <=? x) && (x <=? n) then m else 0) /\ (exists k, cy_loop (snd (Nexts n perms c)) = k * n).
Proof.
  intros Hn. induction m as [|m IH]; intros perms c K F E.
  - destruct perms; [|discriminate]. cbn [Nexts fst snd]. split; [|exact K]. intros x. cbn. now destruct (_ && _).
  - rewrite <- (firstn_skipn n perms) in F |- *. apply Forall_app in F. destruct F as (F1 & F2).
    assert (L1 : length (firstn n perms) = n) by (rewrite firstn_length; cbn [Nat.mul] in E; lia).
    assert (L2 : length (skipn n perms) = m * n) by (rewrite skipn_length; cbn [Nat.mul] in E; lia).
    destruct (firstn n perms) as [|p q] eqn:Q; [cbn in L1; lia|]. inversion F1 as [|? ? FP _].
    assert (LP : length p = n) by (apply Permutation_length in FP; rewrite seq_length in FP; exact FP).
    assert (KM : cy_loop c mod n = 0) by (destruct K as (k & ->); apply Nat.mod_mul; exact Hn).
    destruct (Nexts_cycle n p q c Hn KM LP L1) as (V & W). rewrite Nexts_app. cbn [fst snd].
    destruct (IH (skipn n perms) (snd (Nexts n (p :: q) c)) ltac:(exists 1; lia) F2 L2) as (A & B). split; [|exact B].
    intros z. rewrite times_app, V, A, (times_perm z p _ FP), times_seq. replace (z <? 1 + n) with (z <=? n) by reflexivity. destruct (_ && _); lia.
Qed.

(** ** Proposals *)
Definition cost (ns ov : nat) (q : list nat) : nat := fold_right (fun a t => (if ns <? a then ov else 1) + t) 0 q.
Definition nslow (ns : nat) (q : list nat) : nat := length (filter (fun a => a <=? ns) q).
Definition nfast (ns : nat) (q : list nat) : nat := length (filter (fun a => ns <? a) q).
Lemma Next_fst n p c : fst (Next n p c) = nth (cy_loop c mod n) (cy_ind (snd (Next n p c))) 0.
Proof. unfold Next. cbn [fst snd cy_ind]. f_equal. lia. Qed.
(** values of cycles of permutations are in range *)
Definition good (n : nat) (c : cycler) : Prop := (exists k, cy_loop c = k * n) \/ (1 <= cy_loop c <= n /\ Permutation (cy_ind c) (seq 1 n)).
Lemma Next_good n p c : n <> 0 -> Permutation p (seq 1 n) -> good n c -> 1 <= fst (Next n p c) <= n /\ good n (snd (Next n p c)).
Proof.
  intros Hn P G. rewrite Next_fst.
  assert (X : 1 <= cy_loop (snd (Next n p c)) <= n /\ Permutation (cy_ind (snd (Next n p c))) (seq 1 n)).
  { unfold Next. cbn [snd cy_loop cy_ind]. pose proof (Nat.mod_upper_bound (cy_loop c) n Hn). split; [lia|]. destruct (cy_loop c mod n + 1 =? 1) eqn:E; [exact P|]. apply Nat.eqb_neq in E.
    destruct G as [(k & G)|(_ & G)]; [rewrite G, Nat.mod_mul in E by exact Hn; lia|exact G]. }
  split; [|right; exact X]. destruct X as (_ & X). assert (I : In (nth (cy_loop c mod n) (cy_ind (snd (Next n p c))) 0) (seq 1 n)).
  { eapply Permutation_in; [exact X|]. apply nth_In. apply Permutation_length in X. rewrite X, seq_length. now apply Nat.mod_upper_bound. }
  apply in_seq in I. lia.
Qed.
Section Picks.
  Variables ns nf ov : nat.
  Hypothesis Hov : 1 <= ov.
  Lemma picks_run : forall ds p q, Forall (shuffles ns nf) ds -> length (cy_ind (p_all p)) = ns + nf ->
    1 <= cy_loop (p_all p) <= ns + nf -> skipn (cy_loop (p_all p)) (cy_ind (p_all p)) = q ->
    length ds = p_fast_ix p + cost ns ov q -> (0 < p_fast_ix p -> nf <> 0) -> (forall a, In a q -> 1 <= a <= ns + nf) ->
    good ns (p_slow p) -> good nf (p_fast p) ->
    let '(xs, p') := picks ns nf ov ds p in
    exists sl fl, Forall (fun x => Permutation x (seq 1 ns)) sl /\ Forall (fun x => Permutation x (seq 1 nf)) fl /\
      length sl = nslow ns q /\ length fl = p_fast_ix p + ov * nfast ns q /\
      filter (fun x => x <=? ns) xs = fst (Nexts ns sl (p_slow p)) /\ filter (fun x => ns <? x) xs = map (Nat.add ns) (fst (Nexts nf fl (p_fast p))) /\
      p_slow p' = snd (Nexts ns sl (p_slow p)) /\ p_fast p' = snd (Nexts nf fl (p_fast p)) /\
      cy_loop (p_all p') = ns + nf /\ p_fast_ix p' = 0.
  Proof.
    induction ds as [|d ds IH]; intros p q F LI LP Q E HF HQ GS GF.
    - cbn [picks length] in *. destruct q as [|a q]; [|cbn [cost fold_right] in E; destruct (ns <? a); lia].
      exists [], []. cbn [nslow nfast filter length cost fold_right Nexts fst snd map] in *. assert (LL : cy_loop (p_all p) = ns + nf).
      { pose proof (f_equal (@length nat) Q) as X. rewrite skipn_length in X. cbn in X. lia. }
      repeat split; auto; lia.
    - pose proof (Forall_inv F) as (FA & FS & FF). pose proof (Forall_inv_tail F) as F2. cbn [picks]. destruct (p_fast_ix p =? 0) eqn:Z; unfold pick; rewrite Z; cbn [negb].
      + apply Nat.eqb_eq in Z. rewrite Z in *. destruct q as [|a q]; [cbn in E; lia|].
        assert (LT : cy_loop (p_all p) < ns + nf) by (pose proof (f_equal (@length nat) Q) as X; rewrite skipn_length in X; cbn in X; lia).
        rewrite (skipn_nth _ _ 0) in Q by lia. injection Q as Qa Qq.
        assert (NX : Next (ns + nf) (pd_all d) (p_all p) = (a, mkCy (cy_loop (p_all p) + 1) (cy_ind (p_all p)))).
        { unfold Next. rewrite Nat.mod_small by lia. replace (cy_loop (p_all p) + 1 =? 1) with false by (symmetry; apply Nat.eqb_neq; lia). rewrite <- Qa. f_equal. f_equal. lia. }
        rewrite NX. destruct (HQ a (or_introl eq_refl)) as (A1 & A2). cbn [cost fold_right length] in E.
        destruct (ns <? a) eqn:C.
        * apply Nat.ltb_lt in C. unfold pick_fast. cbn [p_fast p_fast_ix p_all p_slow].
          destruct (Next_good nf (pd_fast d) (p_fast p) ltac:(lia) FF GF) as (R & G').
          destruct (Next nf (pd_fast d) (p_fast p)) as (x, cf) eqn:NF. cbn [fst snd] in R, G'. cbn [p_fast_ix p_all p_slow p_fast].
          specialize (IH (mkPS (ov - 1) (mkCy (cy_loop (p_all p) + 1) (cy_ind (p_all p))) (p_slow p) cf) q F2 LI). cbn [p_fast_ix p_all p_slow p_fast cy_loop cy_ind] in IH.
          specialize (IH ltac:(lia) ltac:(rewrite Nat.add_1_r; exact Qq) ltac:(unfold cost; lia) ltac:(lia) (fun b Hb => HQ b (or_intror Hb)) GS G').
          destruct (picks ns nf ov ds _) as (xs, p2). destruct IH as (sl & fl & I1 & I2 & I3 & I4 & I5 & I6 & I7 & I8 & I9 & I10).
          exists sl, (pd_fast d :: fl). cbn [Nexts]. rewrite NF. destruct (Nexts nf fl cf) as (ys, cf2). cbn [fst snd] in *.
          unfold nslow, nfast in *. cbn [filter length]. replace (ns <? a) with true by (symmetry; apply Nat.ltb_lt; lia). replace (a <=? ns) with false by (symmetry; apply Nat.leb_gt; lia).
          replace (ns + x <=? ns) with false by (symmetry; apply Nat.leb_gt; lia). replace (ns <? ns + x) with true by (symmetry; apply Nat.ltb_lt; lia).
          cbn [length map]. rewrite I6. repeat split; auto. nia.
        * apply Nat.ltb_ge in C. unfold pick_slow. cbn [p_fast p_fast_ix p_all p_slow].
          destruct (Next_good ns (pd_slow d) (p_slow p) ltac:(lia) FS GS) as (R & G').
          destruct (Next ns (pd_slow d) (p_slow p)) as (x, cs) eqn:NF. cbn [fst snd] in R, G'.
          specialize (IH (mkPS 0 (mkCy (cy_loop (p_all p) + 1) (cy_ind (p_all p))) cs (p_fast p)) q F2 LI). cbn [p_fast_ix p_all p_slow p_fast cy_loop cy_ind] in IH.
          specialize (IH ltac:(lia) ltac:(rewrite Nat.add_1_r; exact Qq) ltac:(unfold cost; lia) ltac:(lia) (fun b Hb => HQ b (or_intror Hb)) G' GF).
          destruct (picks ns nf ov ds _) as (xs, p2). destruct IH as (sl & fl & I1 & I2 & I3 & I4 & I5 & I6 & I7 & I8 & I9 & I10).
          exists (pd_slow d :: sl), fl. cbn [Nexts]. rewrite NF. destruct (Nexts ns sl cs) as (ys, cf2). cbn [fst snd] in *.
          unfold nslow, nfast in *. cbn [filter length]. replace (ns <? a) with false by (symmetry; apply Nat.ltb_ge; lia). replace (a <=? ns) with true by (symmetry; apply Nat.leb_le; lia).
          replace (x <=? ns) with true by (symmetry; apply Nat.leb_le; lia). replace (ns <? x) with false by (symmetry; apply Nat.ltb_ge; lia).
          cbn [length map]. rewrite I5. repeat split; auto; lia.
      + apply Nat.eqb_neq in Z. unfold pick_fast. cbn [p_fast p_fast_ix p_all p_slow].
        destruct (Next_good nf (pd_fast d) (p_fast p) ltac:(apply HF; lia) FF GF) as (R & G').
        destruct (Next nf (pd_fast d) (p_fast p)) as (x, cf) eqn:NF. cbn [fst snd] in R, G'. cbn [p_fast_ix p_all p_slow p_fast].
        specialize (IH (mkPS (p_fast_ix p - 1) (p_all p) (p_slow p) cf) q F2 LI). cbn [p_fast_ix p_all p_slow p_fast cy_loop cy_ind] in IH. cbn [length] in E.
        specialize (IH LP Q ltac:(lia) ltac:(lia) HQ GS G').
        destruct (picks ns nf ov ds _) as (xs, p2). destruct IH as (sl & fl & I1 & I2 & I3 & I4 & I5 & I6 & I7 & I8 & I9 & I10).
        exists sl, (pd_fast d :: fl). cbn [Nexts]. rewrite NF. destruct (Nexts nf fl cf) as (ys, cf2). cbn [fst snd] in *. cbn [filter].
        replace (ns + x <=? ns) with false by (symmetry; apply Nat.leb_gt; lia). replace (ns <? ns + x) with true by (symmetry; apply Nat.ltb_lt; lia).
        cbn [length map]. rewrite I6. repeat split; auto. lia.
  Qed.
  Lemma cost_app a b : cost ns ov (a ++ b) = cost ns ov a + cost ns ov b.
  Proof. induction a as [|x a IH]; [reflexivity|]. cbn [cost fold_right app] in *. unfold cost in *. rewrite IH. lia. Qed.
  Lemma cost_count q : cost ns ov q = nslow ns q + ov * nfast ns q.
  Proof.
    induction q as [|a q IH]; [unfold nslow, nfast; cbn; lia|]. unfold nslow, nfast, cost in *. cbn [fold_right filter]. rewrite IH. destruct (ns <? a) eqn:E.
    - apply Nat.ltb_lt in E. replace (a <=? ns) with false by (symmetry; apply Nat.leb_gt; lia). cbn [length]. lia.
    - apply Nat.ltb_ge in E. replace (a <=? ns) with true by (symmetry; apply Nat.leb_le; lia). cbn [length]. lia.
  Qed.
  Lemma count_perm (f : nat -> bool) a b : Permutation a b -> length (filter f a) = length (filter f b).
  Proof. intros P. induction P; cbn [filter]; [reflexivity| | |congruence]; [destruct (f x); cbn; lia|]. destruct (f x), (f y); reflexivity. Qed.
  Lemma nslow_seq : nslow ns (seq 1 (ns + nf)) = ns /\ nfast ns (seq 1 (ns + nf)) = nf.
  Proof.
    unfold nslow, nfast. rewrite seq_app, !filter_app, !app_length.
    assert (ALL : forall (f : nat -> bool) l, (forall x, In x l -> f x = true) -> filter f l = l) by (intros f l; induction l as [|x l IH]; intros H; [reflexivity|]; cbn; rewrite H by (now left); f_equal; apply IH; intros; apply H; now right).
    assert (NONE : forall (f : nat -> bool) l, (forall x, In x l -> f x = false) -> filter f l = []) by (intros f l; induction l as [|x l IH]; intros H; [reflexivity|]; cbn; rewrite H by (now left); apply IH; intros; apply H; now right).
    rewrite (ALL (fun a => a <=? ns) (seq 1 ns)), (NONE (fun a => a <=? ns) (seq (1 + ns) nf)), (NONE (fun a => ns <? a) (seq 1 ns)), (ALL (fun a => ns <? a) (seq (1 + ns) nf)), !seq_length; cbn [length]; [lia| | | |];
      intros x Hx; apply in_seq in Hx; first [apply Nat.leb_le|apply Nat.ltb_ge|apply Nat.ltb_lt|apply Nat.leb_gt]; lia.
  Qed.
End Picks.

(** ** Consecutive fast parameters *)
Lemma fast_blocks_same s br : forall ix j, StronglySorted le br -> 1 <= ix -> ix <= j -> (exists e, In e br /\ j + 1 <= e) -> ~ In j br ->
  param_type s (used s j) = tp_fast -> param_type s (used s (j + 1)) = tp_fast ->
  exists b, In j (nth b (fast_blocks s ix br) []) /\ In (j + 1) (nth b (fast_blocks s ix br) []).
Proof.
  induction br as [|k br IH]; intros ix j S H1 Hx (e & Ie & He) N T1 T2; [destruct Ie|]. inversion S as [|? ? S1 S2]. destruct (Nat.le_gt_cases (j + 1) k) as [K|K].
  - exists 0. cbn [fast_blocks nth]. split; apply filter_In; (split; [apply in_seq; lia|now apply Nat.eqb_eq]).
  - assert (k <> j) by (intros ->; apply N; now left). destruct Ie as [<-|Ie]; [lia|].
    destruct (IH (k + 1) j S1 ltac:(lia) ltac:(lia) (ex_intro _ e (conj Ie He)) ltac:(intros I; apply N; now right) T1 T2) as (b & B). exists (Datatypes.S b). exact B.
Qed.
Lemma fast_blocks_ge s br : forall ix b x, In x (nth b (fast_blocks s ix br) []) -> StronglySorted le br -> (forall k, In k br -> ix <= k + 1) -> ix <= x.
Proof.
  induction br as [|k br IH]; intros ix b x H S M; [destruct b; destruct H|]. destruct b as [|b]; cbn [fast_blocks nth] in H.
  - apply filter_In in H. destruct H as (H & _). apply in_seq in H. lia.
  - inversion S as [|? ? S1 S2]. rewrite Forall_forall in S2. apply (IH _ _ _) in H; [|exact S1|intros q Hq; specialize (S2 q Hq); lia]. specialize (M k (or_introl eq_refl)). lia.
Qed.
Lemma fast_blocks_cut s br : forall ix j b, StronglySorted le br -> (forall k, In k br -> ix <= k + 1) -> In j br ->
  In j (nth b (fast_blocks s ix br) []) -> In (j + 1) (nth b (fast_blocks s ix br) []) -> False.
Proof.
  induction br as [|k br IH]; intros ix j b S M I A B; [destruct I|]. inversion S as [|? ? S1 S2]. rewrite Forall_forall in S2. destruct b as [|b]; cbn [fast_blocks nth] in A, B.
  - apply filter_In in A, B. destruct A as (A & _), B as (B & _). apply in_seq in A, B. destruct I as [<-|I]; [lia|]. specialize (S2 j I). lia.
  - assert (M' : forall q, In q br -> k + 1 <= q + 1) by (intros q Hq; specialize (S2 q Hq); lia).
    destruct I as [<-|I]; [pose proof (fast_blocks_ge s br _ _ _ A S1 M'); lia|]. exact (IH _ _ _ S1 M' I A B).
Qed.
Lemma params_used_nodup s : NoDup (params_used s).
Proof. unfold params_used. apply NoDup_filter, seq_NoDup. Qed.
Lemma used_inj s i j : 1 <= i <= num_used s -> 1 <= j <= num_used s -> used s i = used s j -> i = j.
Proof.
  intros Hi Hj E. unfold used, num_used in *. pose proof (proj1 (NoDup_nth (params_used s) 0) (params_used_nodup s) (i - 1) (j - 1) ltac:(lia) ltac:(lia) E). lia.
Qed.

(** ** Blocks of the proposer *)
Lemma used_blocks_concat blocks : concat (used_blocks blocks) = concat blocks.
Proof. unfold used_blocks. induction blocks as [|b bl IH]; [reflexivity|]. cbn [filter]. destruct b as [|x b]; cbn [length Nat.eqb negb concat app]; [exact IH|]. now rewrite <- IH. Qed.
Lemma starts_app a b : forall ix, starts ix (a ++ b) = starts ix a ++ starts (ix + total a) b.
Proof.
  unfold total. induction a as [|x a IH]; intros ix; [cbn; f_equal; lia|]. cbn [app starts concat]. rewrite IH, app_length. f_equal. f_equal. f_equal. lia.
Qed.
Lemma starts_length us : forall ix, length (starts ix us) = length us.
Proof. induction us as [|b us IH]; intros ix; [reflexivity|]. cbn. now rewrite IH. Qed.
Lemma proposer_for_app a b : forall k, proposer_for k (a ++ b) = proposer_for k a ++ proposer_for (k + length a) b.
Proof.
  induction a as [|x a IH]; intros k; [cbn; f_equal; lia|]. cbn [app proposer_for length]. rewrite IH, app_assoc. f_equal. f_equal. lia.
Qed.
Lemma proposer_for_length us : forall k, length (proposer_for k us) = total us.
Proof. unfold total. induction us as [|b us IH]; intros k; [reflexivity|]. cbn [proposer_for concat]. now rewrite !app_length, repeat_length, IH. Qed.
Lemma proposer_for_nth us : forall k ix x, x < total us ->
  exists b, b < length us /\ nth x (proposer_for k us) 0 = k + b /\ ix <= nth b (starts ix us) 0 <= ix + x /\
    ix + x < nth b (starts ix us) 0 + length (nth b us []) /\ In (nth x (concat us) 0) (nth b us []).
Proof.
  unfold total. induction us as [|b us IH]; intros k ix x H; [cbn in H; lia|]. cbn [concat] in *. rewrite app_length in H. cbn [proposer_for starts].
  destruct (Nat.lt_ge_cases x (length b)) as [C|C].
  - exists 0. cbn [nth length]. rewrite !app_nth1 by (rewrite ?repeat_length; exact C).
    split; [lia|]. split; [|split; [lia|split; [lia|now apply nth_In]]].
    rewrite (nth_indep _ 0 k) by (rewrite repeat_length; exact C). rewrite nth_repeat. lia.
  - rewrite !app_nth2 by (rewrite ?repeat_length; exact C). rewrite repeat_length.
    destruct (IH (S k) (ix + length b) (x - length b) ltac:(lia)) as (c & C1 & C2 & C3 & C4 & C5). exists (S c). cbn [nth length]. repeat split; try lia. exact C5.
Qed.
Lemma fast_start blocks m x : Slow_n blocks m < x <= All_n blocks -> Slow_n blocks m < block_start blocks (ProposerForIndex blocks x) <= x.
Proof.
  intros H. unfold block_start, ProposerForIndex.
  assert (U : used_blocks blocks = used_blocks (firstn m blocks) ++ used_blocks (skipn m blocks)) by (unfold used_blocks; rewrite <- filter_app, firstn_skipn; reflexivity).
  assert (T1 : total (used_blocks (firstn m blocks)) = Slow_n blocks m) by (unfold total, Slow_n; now rewrite used_blocks_concat).
  assert (T2 : total (used_blocks blocks) = All_n blocks) by (unfold total, All_n; now rewrite used_blocks_concat).
  rewrite U in *. set (a := used_blocks (firstn m blocks)) in *. set (b := used_blocks (skipn m blocks)) in *.
  assert (TB : total (a ++ b) = total a + total b) by (unfold total; now rewrite concat_app, app_length).
  destruct (proposer_for_nth b (1 + length a) (1 + total a) (x - 1 - total a) ltac:(lia)) as (c & C1 & C2 & C3 & C4 & C5).
  assert (N : nth (x - 1) (proposer_for 1 (a ++ b)) 0 = 1 + length a + c) by (rewrite proposer_for_app, app_nth2 by (rewrite proposer_for_length; lia); rewrite proposer_for_length; exact C2).
  rewrite N, starts_app. rewrite app_nth2 by (rewrite starts_length; lia). rewrite starts_length. replace (1 + length a + c - 1 - length a) with c by lia. lia.
Qed.
Lemma position_none x l : ~ In x l -> position x l = None.
Proof. induction l as [|a l IH]; intros H; [reflexivity|]. cbn [position]. destruct (Nat.eqb a x) eqn:E; [apply Nat.eqb_eq in E; exfalso; apply H; now left|]. rewrite IH; [reflexivity|]. intros I. apply H. now right. Qed.
Lemma position_nth l : forall p, NoDup l -> p < length l -> position (nth p l 0) l = Some p.
Proof.
  induction l as [|a l IH]; intros p N H; [cbn in H; lia|]. inversion N as [|? ? N1 N2]. destruct p as [|p]; cbn [nth position]; [now rewrite Nat.eqb_refl|]. cbn [length] in H.
  replace (Nat.eqb a (nth p l 0)) with false; [rewrite IH by (auto; lia); reflexivity|]. symmetry. apply Nat.eqb_neq. intros ->. apply N1, nth_In. lia.
Qed.
Lemma NoDup_app_r {A} (a b : list A) : NoDup (a ++ b) -> NoDup b.
Proof. induction a as [|x a IH]; [auto|]. intros H. inversion H. now apply IH. Qed.
Lemma NoDup_app_in {A} (a b : list A) x : NoDup (a ++ b) -> In x a -> In x b -> False.
Proof. induction a as [|y a IH]; intros H I J; [destruct I|]. inversion H as [|? ? H1 H2]. destruct I as [->|I]; [apply H1, in_app_iff; now right|now apply IH]. Qed.

(** ** The covariance *)
Local Open Scope R_scope.
Lemma Sm_split a b f : Sm (a + b) f = Sm a f + Sm b (fun k => f (a + k)%nat).
Proof. induction b as [|b IH]; [rewrite Nat.add_0_r, Sm_0; ring|]. rewrite Nat.add_succ_r, !Sm_S, IH. ring. Qed.
Lemma Sm_blocks us f : forall ix, Sm (length us) (fun b => Sm (length (nth b us [])) (fun k => f (nth b (starts ix us) 0 + k)%nat)) = Sm (total us) (fun k => f (ix + k)%nat).
Proof.
  unfold total. induction us as [|b us IH]; intros ix; [reflexivity|]. cbn [length concat starts]. rewrite Sm_shift. cbn [nth]. rewrite IH, app_length, Sm_split. f_equal.
  apply Sm_ext. intros k _. f_equal. lia.
Qed.
Section Cov.
  Variable blocks : list (list nat).
  Variable chol : nat -> (nat -> nat -> R) -> nat -> nat -> R.
  Variable cov : nat -> nat -> R.
  Hypothesis nodup : NoDup (concat blocks).
  Let n := All_n blocks.
  Hypothesis pos : forall i, In i (concat blocks) -> 0 < cov i i.
  Hypothesis HL : cholesky_of n (fun p q => corr cov (index_at blocks p) (index_at blocks q)) (Lmat blocks chol cov).
  Lemma ind_len : length (indices blocks) = n.
  Proof. unfold indices, n, All_n, total. now rewrite used_blocks_concat. Qed.
  Lemma ind_nodup : NoDup (indices blocks).
  Proof. unfold indices. now rewrite used_blocks_concat. Qed.
  Lemma start_nth b : (b < length (used_blocks blocks))%nat -> block_start blocks (S b) = nth b (starts 1 (used_blocks blocks)) 0%nat /\
    (1 <= block_start blocks (S b))%nat /\ (block_start blocks (S b) - 1 + block_size blocks (S b) <= n)%nat /\ block_size blocks (S b) = length (nth b (used_blocks blocks) []).
  Proof.
    intros H. unfold block_start, block_size. cbn [Nat.sub]. rewrite Nat.sub_0_r. split; [reflexivity|].
    assert (X : forall us ix c, (c < length us)%nat -> (ix <= nth c (starts ix us) 0 /\ nth c (starts ix us) 0 + length (nth c us []) <= ix + total us)%nat).
    { unfold total. induction us as [|y us IH]; intros ix c Hc; [cbn in Hc; lia|]. destruct c as [|c]; cbn [starts nth concat] in *; rewrite app_length; [lia|].
      specialize (IH (ix + length y)%nat c ltac:(cbn in Hc; lia)). lia. }
    specialize (X (used_blocks blocks) 1%nat b H). assert (T2 : total (used_blocks blocks) = n) by (unfold total, n, All_n, total; now rewrite used_blocks_concat). lia.
  Qed.
  Lemma unit_change_eq Rot b l p : (b < length (used_blocks blocks))%nat -> (p < n)%nat ->
    unit_change blocks chol cov Rot (S b) l (index_at blocks p) =
    psigma cov (index_at blocks p) * Sm (block_size blocks (S b)) (fun k => Lmat blocks chol cov p (block_start blocks (S b) - 1 + k) * Rot (S b) k l).
  Proof.
    intros Hb Hp. destruct (start_nth b Hb) as (_ & H1 & H2 & _). unfold unit_change, update, used_params_changed. set (st := (block_start blocks (S b) - 1)%nat) in *.
    pose proof ind_nodup as ND. pose proof ind_len as LN. rewrite <- (firstn_skipn st (indices blocks)) in ND.
    destruct (Nat.lt_ge_cases p st) as [C|C].
    - rewrite position_none.
      + rewrite (Sm_ext _ _ (fun _ => 0)), Sm_zero; [ring|]. intros k Hk. destruct HL as (Z & _). rewrite Z by lia. ring.
      + intros I. refine (NoDup_app_in _ _ _ ND _ I). unfold index_at.
        assert (X : nth p (indices blocks) 0%nat = nth p (firstn st (indices blocks)) 0%nat).
        { rewrite <- (firstn_skipn st (indices blocks)) at 1. apply app_nth1. rewrite firstn_length. lia. }
        rewrite X. apply nth_In. rewrite firstn_length. lia.
    - assert (E : index_at blocks p = nth (p - st) (skipn st (indices blocks)) 0%nat).
      { unfold index_at. rewrite <- (firstn_skipn st (indices blocks)) at 1. rewrite app_nth2 by (rewrite firstn_length; lia). f_equal. rewrite firstn_length. lia. }
      rewrite E at 1. rewrite position_nth; [|now apply NoDup_app_r in ND|rewrite skipn_length; lia].
      unfold block_change, matvec. fold (Sm (block_size blocks (S b)) (fun k => mapping_matrix blocks chol cov (S b) (p - st) k * (Rot (S b) k l * 1))).
      rewrite Rplus_0_l, <- Sm_scal. apply Sm_ext. intros k Hk. unfold mapping_matrix, used_params_changed. fold st. rewrite <- E. replace (st + (p - st))%nat with p by lia. ring.
  Qed.
  Lemma Sm_delta m f i : (i < m)%nat -> Sm m (fun k => f k * (if Nat.eqb i k then 1 else 0)) = f i.
  Proof.
    induction m as [|m IH]; intros H; [lia|]. rewrite Sm_S. destruct (Nat.eq_dec i m) as [->|N].
    - rewrite Nat.eqb_refl, (Sm_ext _ _ (fun _ => 0)), Sm_zero; [ring|]. intros k Hk. replace (Nat.eqb m k) with false by (symmetry; apply Nat.eqb_neq; lia). ring.
    - rewrite IH by lia. replace (Nat.eqb i m) with false by (symmetry; now apply Nat.eqb_neq). ring.
  Qed.
  Lemma block_sum Rot m A B : orthogonal m Rot ->
    Sm m (fun l => Sm m (fun k => A k * Rot k l) * Sm m (fun k => B k * Rot k l)) = Sm m (fun k => A k * B k).
  Proof.
    intros O.
    transitivity (Sm m (fun l => Sm m (fun k => Sm m (fun k' => A k * B k' * (Rot k l * Rot k' l))))).
    { apply Sm_ext. intros l _. rewrite Rmult_comm, <- Sm_scal. apply Sm_ext. intros k _. rewrite Rmult_comm, <- Sm_scal. apply Sm_ext. intros k' _. ring. }
    rewrite Sm_swap. apply Sm_ext. intros k Hk. rewrite Sm_swap.
    transitivity (Sm m (fun k' => A k * B k' * (if Nat.eqb k k' then 1 else 0))).
    { apply Sm_ext. intros k' Hk'. rewrite Sm_scal. f_equal. now apply O. }
    now rewrite (Sm_delta m (fun k' => A k * B k') k Hk).
  Qed.
  Lemma covariance Rot p q : (forall b, (b < length (used_blocks blocks))%nat -> orthogonal (block_size blocks (S b)) (Rot (S b))) -> (p < n)%nat -> (q < n)%nat ->
    Sm (length (used_blocks blocks)) (fun b => Sm (block_size blocks (S b)) (fun l =>
      unit_change blocks chol cov Rot (S b) l (index_at blocks p) * unit_change blocks chol cov Rot (S b) l (index_at blocks q))) = cov (index_at blocks p) (index_at blocks q).
  Proof.
    intros O Hp Hq. set (L := Lmat blocks chol cov) in *. set (sp := psigma cov (index_at blocks p)). set (sq := psigma cov (index_at blocks q)).
    transitivity (sp * sq * Sm (length (used_blocks blocks)) (fun b => Sm (length (nth b (used_blocks blocks) [])) (fun k =>
      (fun c => L p (c - 1)%nat * L q (c - 1)%nat) (nth b (starts 1 (used_blocks blocks)) 0 + k)%nat))).
    - rewrite <- Sm_scal. apply Sm_ext. intros b Hb. destruct (start_nth b Hb) as (E1 & E2 & _ & E3). rewrite <- E1, <- E3.
      transitivity (Sm (block_size blocks (S b)) (fun l => sp * sq * (Sm (block_size blocks (S b)) (fun k => L p (block_start blocks (S b) - 1 + k)%nat * Rot (S b) k l) *
        Sm (block_size blocks (S b)) (fun k => L q (block_start blocks (S b) - 1 + k)%nat * Rot (S b) k l)))).
      { apply Sm_ext. intros l _. rewrite !unit_change_eq by assumption. fold sp sq L. ring. }
      rewrite Sm_scal, block_sum by (now apply O). f_equal. apply Sm_ext. intros k _. cbv beta. replace (block_start blocks (S b) + k - 1)%nat with (block_start blocks (S b) - 1 + k)%nat by lia. reflexivity.
    - rewrite (Sm_blocks (used_blocks blocks) (fun c => L p (c - 1)%nat * L q (c - 1)%nat) 1). assert (T2 : total (used_blocks blocks) = n) by (unfold total, n, All_n, total; now rewrite used_blocks_concat).
      rewrite T2. destruct HL as (_ & HH). rewrite (Sm_ext n _ (fun k => L p k * L q k)) by (intros k _; cbv beta; replace (1 + k - 1)%nat with k by lia; reflexivity).
      rewrite HH by assumption. unfold corr. fold sp sq.
      assert (P : forall r, (r < n)%nat -> 0 < psigma cov (index_at blocks r)).
      { intros r Hr. unfold psigma. apply sqrt_lt_R0, pos. rewrite <- used_blocks_concat. apply nth_In. fold (indices blocks). now rewrite ind_len. }
      pose proof (P p Hp) as P1. pose proof (P q Hq) as P2. fold sp in P1. fold sq in P2. field. lra.
  Qed.
End Cov.
