(** Proofs for the lists of the sampler. *)
From Coq Require Import Reals List Bool ZArith Arith Lia Lra Permutation.
From Verif Require Import PyBase SortModel SortSpec.
Import ListNotations.
Local Open Scope list_scope.
Local Open Scope nat_scope.

Section Arrays.
  Context {A : Type}.
  Implicit Types a : list A.
  Lemma get_ok a i : 1 <= i <= length a -> exists x, get a i = Ok x.
  Proof.
    intros H. destruct i as [|k]; [lia|]. cbn [get]. destruct (nth_error a k) eqn:E; [eauto|]. apply nth_error_None in E. lia.
  Qed.
  Lemma get_range a i x : get a i = Ok x -> 1 <= i <= length a.
  Proof.
    destruct i as [|k]; [discriminate|]. cbn [get]. destruct (nth_error a k) eqn:E; [|discriminate]. intros _. assert (k < length a) by (apply nth_error_Some; congruence). lia.
  Qed.
  Lemma get_in a i x : get a i = Ok x -> In x a.
  Proof. destruct i as [|k]; [discriminate|]. cbn [get]. destruct (nth_error a k) eqn:E; [|discriminate]. intros [= <-]. now apply nth_error_In in E. Qed.
  Lemma get_of_in a x : In x a -> exists i, get a i = Ok x.
  Proof. intros H. apply In_nth_error in H. destruct H as (k & E). exists (S k). cbn [get]. now rewrite E. Qed.
  Lemma get_cons a y i : 1 <= i -> get (y :: a) (S i) = get a i.
  Proof. intros H. destruct i; [lia|]. reflexivity. Qed.
  Lemma put_length a i x : length (put a i x) = length a.
  Proof. revert i. induction a as [|y a IH]; intros i; [destruct i; reflexivity|]. destruct i as [|[|i]]; cbn [put length]; [reflexivity|reflexivity|]. now rewrite IH. Qed.
  Lemma get_put_same a i x : 1 <= i <= length a -> get (put a i x) i = Ok x.
  Proof.
    revert i. induction a as [|y a IH]; intros i H; [cbn in H; lia|]. destruct i as [|[|i]]; [lia|reflexivity|]. cbn [put]. rewrite get_cons by lia. apply IH. cbn in H. lia.
  Qed.
  Lemma get_put_other a i j x : i <> j -> get (put a i x) j = get a j.
  Proof.
    revert i j. induction a as [|y a IH]; intros i j H; [destruct i; reflexivity|]. destruct i as [|[|i]]; [reflexivity| |].
    - cbn [put]. destruct j as [|[|j]]; [reflexivity|lia|]. now rewrite !get_cons by lia.
    - cbn [put]. destruct j as [|[|j]]; [reflexivity|reflexivity|]. rewrite !get_cons by lia. apply IH. lia.
  Qed.
  Lemma put_perm a i x y : get a i = Ok x -> Permutation (y :: a) (x :: put a i y).
  Proof.
    revert i. induction a as [|z a IH]; intros i H; [destruct i as [|[|]]; discriminate|]. destruct i as [|[|i]]; [discriminate| |].
    - cbn in H. injection H as ->. cbn [put]. apply perm_swap.
    - rewrite get_cons in H by lia. cbn [put]. transitivity (z :: y :: a); [apply perm_swap|]. transitivity (z :: x :: put a (S i) y); [constructor; now apply IH|apply perm_swap].
  Qed.
  Lemma Swap_ok a i j x y : get a i = Ok x -> get a j = Ok y -> exists a', Swap a i j = Ok a' /\ length a' = length a /\ Permutation a a' /\
    get a' i = Ok y /\ get a' j = Ok x /\ (forall k, k <> i -> k <> j -> get a' k = get a k).
  Proof.
    intros Hx Hy. unfold Swap. rewrite Hx. cbn [bindR]. rewrite Hy. cbn [bindR]. eexists. split; [reflexivity|].
    pose proof (get_range _ _ _ Hx) as Ri. pose proof (get_range _ _ _ Hy) as Rj.
    split; [now rewrite !put_length|]. assert (Gj : get (put a i y) j = Ok y).
    { destruct (Nat.eq_dec i j) as [->|N]; [now apply get_put_same|rewrite get_put_other by exact N; exact Hy]. }
    split; [|split; [|split]].
    - apply (Permutation_cons_inv (a := y)). transitivity (x :: put a i y); [now apply put_perm|now apply put_perm].
    - destruct (Nat.eq_dec i j) as [->|N]; [rewrite get_put_same by (rewrite put_length; lia); congruence|]. rewrite get_put_other by auto. now apply get_put_same.
    - apply get_put_same. rewrite put_length. lia.
    - intros k K1 K2. now rewrite !get_put_other by auto.
  Qed.

  Variable cmp : A -> A -> Z.
  Hypothesis O : ordering cmp.
  Lemma cmp_refl x : cmp x x = 0%Z.
  Proof. destruct O as (O1 & _). specialize (O1 x x). lia. Qed.
  Lemma cmp_swap x y : (0 <= cmp x y)%Z <-> (cmp y x <= 0)%Z.
  Proof. destruct O as (O1 & _). specialize (O1 x y). lia. Qed.
  Lemma cmp_trans x y z : (cmp x y <= 0)%Z -> (cmp y z <= 0)%Z -> (cmp x z <= 0)%Z.
  Proof. apply O. Qed.

  Lemma scan_up_ok a p k xk : get a k = Ok xk -> (0 <= cmp xk p)%Z -> forall fuel i, 1 <= i <= k -> k - i < fuel ->
    exists i' x', scan_up cmp fuel a p i = Ok i' /\ i <= i' <= k /\ get a i' = Ok x' /\ (0 <= cmp x' p)%Z /\
      (forall m x, i <= m < i' -> get a m = Ok x -> (cmp x p < 0)%Z).
  Proof.
    intros Gk Ck. induction fuel as [|f IH]; intros i Hi Hf; [lia|]. cbn [scan_up]. pose proof (get_range _ _ _ Gk).
    destruct (get_ok a i ltac:(lia)) as (x & Gi). rewrite Gi. cbn [bindR]. destruct (Z.ltb_spec (cmp x p) 0) as [C|C].
    - assert (i <> k) by (intros ->; rewrite Gk in Gi; injection Gi as ->; lia).
      destruct (IH (i + 1) ltac:(lia) ltac:(lia)) as (i' & x' & E & R1 & G & C' & M). exists i', x'. repeat split; auto; try lia.
      intros m y Hm Gm. destruct (Nat.eq_dec m i) as [->|N]; [rewrite Gi in Gm; injection Gm as <-; exact C|]. apply (M m y); auto. lia.
    - exists i, x. repeat split; auto; lia.
  Qed.
  Lemma scan_down_ok a p k xk : get a k = Ok xk -> (cmp xk p <= 0)%Z -> forall fuel j, k <= j <= length a -> j - k < fuel ->
    exists j' x', scan_down cmp fuel a p j = Ok j' /\ k <= j' <= j /\ get a j' = Ok x' /\ (cmp x' p <= 0)%Z /\
      (forall m x, j' < m <= j -> get a m = Ok x -> (0 < cmp x p)%Z).
  Proof.
    intros Gk Ck. induction fuel as [|f IH]; intros j Hj Hf; [lia|]. cbn [scan_down]. pose proof (get_range _ _ _ Gk).
    destruct (get_ok a j ltac:(lia)) as (x & Gj). rewrite Gj. cbn [bindR]. destruct (Z.ltb_spec 0 (cmp x p)) as [C|C].
    - assert (j <> k) by (intros ->; rewrite Gk in Gj; injection Gj as ->; lia).
      destruct (IH (j - 1) ltac:(lia) ltac:(lia)) as (j' & x' & E & R1 & G & C' & M). exists j', x'. repeat split; auto; try lia.
      intros m y Hm Gm. destruct (Nat.eq_dec m j) as [->|N]; [rewrite Gj in Gm; injection Gm as <-; exact C|]. apply (M m y); auto. lia.
    - exists j, x. repeat split; auto; lia.
  Qed.

  (** a' has the same items as a, outside L..R at the same places *)
  Definition moved (L R : nat) a a' : Prop :=
    length a' = length a /\ Permutation a a' /\ (forall k, k < L \/ R < k -> get a' k = get a k) /\
    (forall Q : A -> Prop, (forall k x, L <= k <= R -> get a k = Ok x -> Q x) -> forall k x, L <= k <= R -> get a' k = Ok x -> Q x).
  Lemma moved_refl L R a : moved L R a a.
  Proof. repeat split; auto. Qed.
  Lemma moved_trans L R a b c : moved L R a b -> moved L R b c -> moved L R a c.
  Proof.
    intros (A1 & A2 & A3 & A4) (B1 & B2 & B3 & B4). split; [congruence|]. split; [etransitivity; eassumption|]. split; [intros k Hk; rewrite B3, A3; auto|].
    intros Q HQ. apply B4. now apply A4.
  Qed.
  Lemma moved_weaken L R L' R' a a' : L <= L' -> R' <= R -> moved L' R' a a' -> moved L R a a'.
  Proof.
    intros H1 H2 (A1 & A2 & A3 & A4). split; [exact A1|]. split; [exact A2|]. split; [intros k Hk; apply A3; lia|].
    intros Q HQ k x Hk Gk. destruct (le_lt_dec L' k) as [K1|K1]; [|rewrite A3 in Gk by lia; now apply (HQ k)]. destruct (le_lt_dec k R') as [K2|K2]; [|rewrite A3 in Gk by lia; now apply (HQ k)].
    apply (A4 Q) with (k := k); auto. intros k' x' Hk'. apply HQ. lia.
  Qed.
  Lemma moved_swap L R a a' i j : L <= i <= R -> L <= j <= R -> Swap a i j = Ok a' -> moved L R a a'.
  Proof.
    intros Hi Hj. unfold Swap. destruct (get a i) as [x|] eqn:Gi; [|discriminate]. destruct (get a j) as [y|] eqn:Gj; [|discriminate]. cbn [bindR]. intros E.
    destruct (Swap_ok a i j x y Gi Gj) as (b & E2 & A1 & A2 & A3 & A4 & A5). unfold Swap in E2. rewrite Gi, Gj in E2. cbn [bindR] in E2. rewrite E in E2. injection E2 as <-.
    split; [exact A1|]. split; [exact A2|]. split; [intros k Hk; apply A5; lia|].
    intros Q HQ k z Hk Gk. destruct (Nat.eq_dec k i) as [->|N1]; [rewrite A3 in Gk; injection Gk as <-; now apply (HQ j)|].
    destruct (Nat.eq_dec k j) as [->|N2]; [rewrite A4 in Gk; injection Gk as <-; now apply (HQ i)|]. rewrite A5 in Gk by auto. now apply (HQ k).
  Qed.

  Lemma partition_ok L R p : 1 <= L -> forall fuel a i j, R <= length a -> L <= i -> j <= R -> j - i < fuel ->
    (forall k x, L <= k < i -> get a k = Ok x -> (cmp x p <= 0)%Z) -> (forall k x, j < k <= R -> get a k = Ok x -> (0 <= cmp x p)%Z) ->
    (exists k x, i <= k <= R /\ get a k = Ok x /\ (0 <= cmp x p)%Z) -> (exists k x, L <= k <= j /\ get a k = Ok x /\ (cmp x p <= 0)%Z) ->
    exists a' i' j', partition cmp fuel a p i j = Ok (a', i', j') /\ moved L R a a' /\ j' < i' /\ i <= i' <= R + 1 /\ L <= j' + 1 /\ j' <= j /\
      (forall k x, L <= k < i' -> get a' k = Ok x -> (cmp x p <= 0)%Z) /\ (forall k x, j' < k <= R -> get a' k = Ok x -> (0 <= cmp x p)%Z) /\
      ((exists m x, i <= m <= j /\ get a m = Ok x /\ cmp x p = 0%Z) -> i < i' /\ j' < j).
  Proof.
    intros HL. induction fuel as [|f IH]; intros a i j HR Hi Hj Hf Lo Hi2 (ku & xu & Ku & Gu & Cu) (kd & xd & Kd & Gd & Cd); [lia|]. cbn [partition].
    destruct (scan_up_ok a p ku xu Gu Cu (S (length a)) i ltac:(lia) ltac:(lia)) as (i1 & x1 & E1 & R1 & G1 & C1 & M1). rewrite E1. cbn [bindR].
    destruct (scan_down_ok a p kd xd Gd Cd (S (length a)) j ltac:(lia) ltac:(lia)) as (j1 & y1 & E2 & R2 & G2 & C2 & M2). rewrite E2. cbn [bindR].
    destruct (Nat.leb_spec i1 j1) as [C|C].
    - destruct (Swap_ok a i1 j1 x1 y1 G1 G2) as (b & Eb & B1 & B2 & B3 & B4 & B5). rewrite Eb. cbn [bindR].
      assert (MV : moved L R a b) by (apply (moved_swap L R a b i1 j1); auto; lia).
      assert (LoB : forall k x, L <= k < i1 + 1 -> get b k = Ok x -> (cmp x p <= 0)%Z).
      { intros k x Hk G. destruct (Nat.eq_dec k i1) as [->|N]; [rewrite B3 in G; injection G as <-; exact C2|].
        assert (k <> j1) by lia. rewrite B5 in G by auto. destruct (le_lt_dec i k); [pose proof (M1 k x ltac:(lia) G); lia|apply (Lo k x); auto; lia]. }
      assert (HiB : forall k x, j1 - 1 < k <= R -> get b k = Ok x -> (0 <= cmp x p)%Z).
      { intros k x Hk G. destruct (Nat.eq_dec k j1) as [->|N]; [rewrite B4 in G; injection G as <-; exact C1|].
        assert (k <> i1) by lia. rewrite B5 in G by auto. destruct (le_lt_dec k j); [pose proof (M2 k x ltac:(lia) G); lia|apply (Hi2 k x); auto; lia]. }
      destruct (Nat.ltb_spec (j1 - 1) (i1 + 1)) as [D|D].
      + exists b, (i1 + 1), (j1 - 1). split; [reflexivity|]. repeat (split; [first [exact MV|lia]|]). split; [exact LoB|]. split; [exact HiB|]. intros _. lia.
      + destruct (IH b (i1 + 1) (j1 - 1)) as (a' & i' & j' & E & V1 & V2 & V3 & V4 & V5 & V6 & V7 & _); auto; try lia.
        * exists j1, x1. split; [lia|]. split; [exact B4|exact C1].
        * exists i1, y1. split; [lia|]. split; [exact B3|exact C2].
        * exists a', i', j'. split; [exact E|]. split; [now apply (moved_trans L R a b a')|]. split; [exact V2|]. split; [lia|]. split; [exact V4|]. split; [lia|]. split; [exact V6|]. split; [exact V7|]. intros _. lia.
    - exists a, i1, j1. split; [reflexivity|]. split; [apply moved_refl|]. split; [exact C|]. split; [lia|]. split; [lia|]. split; [lia|].
      split; [|split].
      + intros k x Hk G. destruct (le_lt_dec i k); [pose proof (M1 k x ltac:(lia) G); lia|apply (Lo k x); auto; lia].
      + intros k x Hk G. destruct (le_lt_dec k j); [pose proof (M2 k x ltac:(lia) G); lia|apply (Hi2 k x); auto; lia].
      + intros (m & x & Hm & Gm & Cm). exfalso.
        assert (i1 <= m) by (destruct (le_lt_dec i1 m); auto; pose proof (M1 m x ltac:(lia) Gm); lia).
        assert (m <= j1) by (destruct (le_lt_dec m j1); auto; pose proof (M2 m x ltac:(lia) Gm); lia). lia.
  Qed.

  Lemma QuickSort_ok : forall fuel a L R, 1 <= L -> L < R -> R <= length a -> R - L < fuel ->
    exists a', QuickSort cmp fuel a L R = Ok a' /\ moved L R a a' /\
      (forall k m x y, L <= k <= m -> m <= R -> get a' k = Ok x -> get a' m = Ok y -> (cmp x y <= 0)%Z).
  Proof.
    induction fuel as [|f IH]; intros a L R HL HLR HR Hf; [lia|]. cbn [QuickSort].
    assert (MID : L <= (L + R) / 2 <= R) by (split; [apply Nat.div_le_lower_bound; lia|apply Nat.div_le_upper_bound; lia]).
    destruct (get_ok a ((L + R) / 2) ltac:(lia)) as (p & Gp). rewrite Gp. cbn [bindR]. pose proof (cmp_refl p) as CP.
    assert (EX : exists k x, L <= k <= R /\ get a k = Ok x /\ cmp x p = 0%Z) by (exists ((L + R) / 2), p; auto).
    destruct (partition_ok L R p HL (S (length a)) a L R HR ltac:(lia) ltac:(lia) ltac:(lia) ltac:(intros; lia) ltac:(intros; lia)) as
      (b & i & j & E & V1 & V2 & V3 & V4 & V5 & V6 & V7 & V8); [destruct EX as (k & x & EX); exists k, x; intuition lia|destruct EX as (k & x & EX); exists k, x; intuition lia|].
    rewrite E. cbn [bindR]. specialize (V8 EX).
    assert (LB : length b = length a) by apply V1.
    assert (S1 : exists c, (if L <? j then QuickSort cmp f b L j else Ok b) = Ok c /\ moved L j b c /\
      (forall k m x y, L <= k <= m -> m <= j -> get c k = Ok x -> get c m = Ok y -> (cmp x y <= 0)%Z)).
    { destruct (Nat.ltb_spec L j) as [C|C]; [apply IH; lia|]. exists b. split; [reflexivity|]. split; [apply moved_refl|].
      intros k m x y H1 H2 Gk Gm. assert (k = m) by lia. subst m. rewrite Gk in Gm. injection Gm as <-. rewrite cmp_refl. lia. }
    destruct S1 as (c & Ec & Mc & Sc). rewrite Ec. cbn [bindR].
    assert (LC : length c = length a) by (destruct Mc as (X & _); congruence).
    assert (S2 : exists d, (if R <=? i then Ok c else QuickSort cmp f c i R) = Ok d /\ moved i R c d /\
      (forall k m x y, i <= k <= m -> m <= R -> get d k = Ok x -> get d m = Ok y -> (cmp x y <= 0)%Z)).
    { destruct (Nat.leb_spec R i) as [C|C]; [|apply IH; lia]. exists c. split; [reflexivity|]. split; [apply moved_refl|].
      intros k m x y H1 H2 Gk Gm. assert (k = m) by lia. subst m. rewrite Gk in Gm. injection Gm as <-. rewrite cmp_refl. lia. }
    destruct S2 as (d & Ed & Md & Sd). rewrite Ed. exists d. split; [reflexivity|]. split.
    - apply (moved_trans L R a b d); [exact V1|]. apply (moved_trans L R b c d); [apply (moved_weaken L R L j); auto; lia|apply (moved_weaken L R i R); auto; lia].
    - assert (Low : forall k x, L <= k < i -> get d k = Ok x -> (cmp x p <= 0)%Z).
      { intros k x Hk G. destruct Md as (_ & _ & Dout & _). rewrite Dout in G by lia. destruct Mc as (_ & _ & Cout & Cin).
        destruct (le_lt_dec k j) as [K|K]; [apply (Cin (fun x => (cmp x p <= 0)%Z)) with (k := k); auto; [|lia]; intros k' x' Hk' Gk'; apply (V6 k' x'); auto; lia|].
        rewrite Cout in G by lia. apply (V6 k x); auto. }
      assert (High : forall k x, j < k <= R -> get d k = Ok x -> (0 <= cmp x p)%Z).
      { destruct Md as (_ & _ & Dout & Din), Mc as (_ & _ & Cout & _).
        assert (HC : forall k x, j < k <= R -> get c k = Ok x -> (0 <= cmp x p)%Z) by (intros k x Hk G; rewrite Cout in G by lia; apply (V7 k x); auto).
        intros k x Hk G. destruct (le_lt_dec i k) as [K|K]; [apply (Din (fun x => (0 <= cmp x p)%Z)) with (k := k); auto; [|lia]; intros k' x' Hk' Gk'; apply (HC k' x'); auto; lia|].
        rewrite Dout in G by lia. now apply (HC k x). }
      intros k m x y Hk Hm Gk Gm. destruct (le_lt_dec i k) as [K|K]; [apply (Sd k m); auto; lia|]. destruct (le_lt_dec m j) as [J|J].
      + destruct Md as (_ & _ & Dout & _). rewrite Dout in Gk, Gm by lia. apply (Sc k m x y); auto; lia.
      + apply (cmp_trans x p y); [apply (Low k x); auto; lia|]. apply cmp_swap. apply (High m y); auto; lia.
  Qed.
  Lemma order_of_get a : (forall k m x y, 1 <= k <= m -> get a k = Ok x -> get a m = Ok y -> (cmp x y <= 0)%Z) -> in_order cmp a.
  Proof.
    induction a as [|x a IH]; intros H; [exact I|]. split.
    - intros y Hy. destruct (get_of_in a y Hy) as (i & G). pose proof (get_range _ _ _ G). apply (H 1 (S i) x y); [lia|reflexivity|rewrite get_cons by lia; exact G].
    - apply IH. intros k m u v Hk G1 G2. apply (H (S k) (S m) u v); [lia|rewrite get_cons by lia; exact G1|rewrite get_cons by lia; exact G2].
  Qed.
  Lemma Sort_ok a : exists a', Sort cmp a = Ok a' /\ Permutation a a' /\ in_order cmp a'.
  Proof.
    unfold Sort. destruct (Nat.ltb_spec 1 (length a)) as [C|C].
    - destruct (QuickSort_ok (length a) a 1 (length a)) as (a' & E & (M1 & M2 & _) & S0); try lia. exists a'. split; [exact E|]. split; [exact M2|].
      apply order_of_get. intros k m x y Hk G1 G2. pose proof (get_range _ _ _ G2). apply (S0 k m); auto; lia.
    - exists a. split; [reflexivity|]. split; [reflexivity|]. destruct a as [|x [|y a]]; [exact I| |cbn in C; lia]. cbn. split; [contradiction|exact I].
  Qed.
End Arrays.

(** ** Removal of duplicates *)
Section Dups.
  Context {A : Type} (cmp : A -> A -> Z).
  Fixpoint dedup (l : list A) : list A :=
    match l with
    | [] => []
    | x :: r => match dedup r with [] => [x] | y :: r' => if (cmp y x =? 0)%Z then x :: r' else x :: y :: r' end
    end.
  Lemma dedup_head x r : exists r', dedup (x :: r) = x :: r'.
  Proof. cbn [dedup]. destruct (dedup r) as [|y r']; [eauto|]. destruct (_ =? 0)%Z; eauto. Qed.
  Lemma get_app_r (l1 l2 : list A) i : 1 <= i -> get (l1 ++ l2) (length l1 + i) = get l2 i.
  Proof. intros H. destruct i as [|i]; [lia|]. rewrite Nat.add_succ_r. cbn [get]. rewrite nth_error_app2 by lia. now replace (length l1 + i - length l1) with i by lia. Qed.
  Lemma get_app_l (l1 l2 : list A) i : i <= length l1 -> get (l1 ++ l2) i = get l1 i.
  Proof. intros H. destruct i as [|i]; [reflexivity|]. cbn [get]. now rewrite nth_error_app1 by lia. Qed.
  Lemma dups_run l1 : forall (x : A) (r : list A), fold_left (dup_step cmp) (rev (seq 1 (length l1))) (l1 ++ dedup (x :: r)) = dedup (l1 ++ x :: r).
  Proof.
    induction l1 as [|z l1 IH] using rev_ind; intros x r; [reflexivity|].
    rewrite app_length. cbn [length]. rewrite Nat.add_1_r, seq_S, rev_app_distr. cbn [rev app fold_left]. rewrite <- !app_assoc. cbn [app].
    replace (dup_step cmp (l1 ++ z :: dedup (x :: r)) (1 + length l1)) with (l1 ++ dedup (z :: x :: r)); [now apply IH|].
    unfold dup_step. destruct (dedup_head x r) as (r' & E). replace (1 + length l1 + 1) with (length l1 + 2) by lia. rewrite get_app_r by lia. replace (1 + length l1) with (length l1 + 1) by lia. rewrite get_app_r by lia.
    change (dedup (z :: x :: r)) with (match dedup (x :: r) with [] => [z] | y :: r' => if (cmp y z =? 0)%Z then z :: r' else z :: y :: r' end). rewrite E. cbn [get nth_error].
    destruct (_ =? 0)%Z; [|reflexivity]. unfold DeleteItem. replace (length l1 + 1 + 1 - 1) with (length l1 + 1) by lia.
    change (z :: x :: r') with ([z] ++ x :: r'). rewrite app_assoc. rewrite firstn_app, skipn_app. rewrite app_length. cbn [length].
    rewrite firstn_all2 by (rewrite app_length; cbn; lia). rewrite skipn_all2 by (rewrite app_length; cbn; lia).
    replace (length l1 + 2 - 1 - (length l1 + 1)) with 0 by lia. replace (length l1 + 2 - (length l1 + 1)) with 1 by lia. cbn [firstn skipn app]. rewrite ?app_nil_r, <- ?app_assoc. reflexivity.
  Qed.
  Lemma RemoveDuplicates_dedup l : RemoveDuplicates cmp l = dedup l.
  Proof.
    destruct l as [|x l] using rev_ind; [reflexivity|]. unfold RemoveDuplicates. rewrite app_length. cbn [length]. replace (length l + 1 - 1) with (length l) by lia.
    exact (dups_run l x []).
  Qed.
  Lemma dedup_sub l z : In z (dedup l) -> In z l.
  Proof.
    induction l as [|x r IH]; [contradiction|]. cbn [dedup]. destruct (dedup r) as [|y r'] eqn:E; [intros [<-|[]]; now left|]. destruct (_ =? 0)%Z; intros [<-|H]; [now left|right; apply IH; now right|now left|right; now apply IH].
  Qed.
  Hypothesis O : ordering cmp.
  Lemma cmp_le_lt x y z : (cmp x y <= 0)%Z -> (cmp y z < 0)%Z -> (cmp x z < 0)%Z.
  Proof.
    intros H1 H2. destruct (Z.lt_ge_cases (cmp x z) 0) as [C|C]; [exact C|]. exfalso. apply (cmp_swap cmp O) in C. pose proof (cmp_trans cmp O z x y C H1). destruct O as (O1 & _). specialize (O1 y z). lia.
  Qed.
  Lemma cmp_eq_sym x y : cmp x y = 0%Z -> cmp y x = 0%Z.
  Proof. destruct O as (O1 & _). pose proof (O1 x y). pose proof (O1 y x). lia. Qed.
  Lemma dedup_increasing l : in_order cmp l -> increasing cmp (dedup l).
  Proof.
    induction l as [|x r IH]; [auto|]. intros (H & Hr). specialize (IH Hr). cbn [dedup].
    assert (SUB : forall z, In z (dedup r) -> (cmp x z <= 0)%Z) by (intros z Hz; now apply H, dedup_sub).
    destruct (dedup r) as [|y r'] eqn:E; [split; [intros ? []|exact I]|]. destruct IH as (I1 & I2). destruct (Z.eqb_spec (cmp y x) 0) as [C|C].
    - split; [|exact I2]. intros z Hz. apply (cmp_le_lt x y z); [apply SUB; now left|now apply I1].
    - split; [|now split]. assert (XY : (cmp x y < 0)%Z).
      { pose proof (SUB y (or_introl eq_refl)). assert (cmp x y <> 0)%Z by (intros Z0; now apply C, cmp_eq_sym). lia. }
      intros z [<-|Hz]; [exact XY|]. apply (cmp_le_lt x y z); [lia|now apply I1].
  Qed.
  Lemma dedup_covers l x : In x l -> exists y, In y (dedup l) /\ cmp y x = 0%Z.
  Proof.
    induction l as [|z r IH]; [contradiction|]. intros [->|H].
    - destruct (dedup_head x r) as (r' & E). exists x. rewrite E. split; [now left|now apply cmp_refl].
    - destruct (IH H) as (y & Hy & C). cbn [dedup]. destruct (dedup r) as [|u r'] eqn:E; [contradiction|]. destruct (Z.eqb_spec (cmp u z) 0) as [D|D].
      + destruct Hy as [<-|Hy]; [|exists y; split; [now right|exact C]]. exists z. split; [now left|]. apply cmp_eq_sym in D.
        assert (cmp z x <= 0)%Z by (apply (cmp_trans cmp O z u x); lia). assert (cmp x z <= 0)%Z by (apply (cmp_trans cmp O x u z); [apply cmp_eq_sym in C; lia|apply cmp_eq_sym in D; lia]).
        destruct O as (O1 & _). pose proof (O1 z x). pose proof (O1 x z). lia.
      + exists y. split; [now right|exact C].
  Qed.
End Dups.

(** ** Ranges and thinning *)
Section Thinning.
  Context {A : Type}.
  Implicit Types a : list A.
  Lemma DeleteRange_app (l1 l2 l3 : list A) : DeleteRange (l1 ++ l2 ++ l3) (length l1 + 1) (length l1 + length l2) = l1 ++ l3.
  Proof.
    unfold DeleteRange. rewrite !app_length. replace (length l1 + (length l2 + length l3) - (length l1 + length l2 + 1 - (length l1 + 1))) with (length l1 + length l3) by lia.
    replace (length l1 + 1 - 1) with (length l1 + 0) by lia. destruct (Nat.ltb_spec (length l1 + length l2) (length l1 + (length l2 + length l3))) as [C|C].
    - rewrite firstn_app_2, firstn_O, app_nil_r. rewrite app_assoc. rewrite skipn_app, skipn_all2 by (rewrite app_length; lia). rewrite app_length, Nat.sub_diag. cbn [skipn app].
      apply firstn_all2. rewrite app_length. lia.
    - assert (length l3 = 0) by lia. destruct l3; [|discriminate]. rewrite !app_nil_r, Nat.add_0_r. rewrite <- (Nat.add_0_r (length l1)), firstn_app_2, firstn_O. now rewrite !app_nil_r.
  Qed.
  Lemma multiples n i : 1 <= n -> 1 <= i -> filter (fun j => j mod i =? 0) (seq 0 n) = map (fun k => k * i) (seq 0 ((n - 1) / i + 1)).
  Proof.
    intros Hn Hi. induction n as [|n IH]; [lia|]. destruct (Nat.eq_dec n 0) as [->|N].
    - cbn [seq filter]. rewrite Nat.mod_0_l by lia. cbn [Nat.eqb]. rewrite Nat.sub_diag, Nat.div_0_l by lia. reflexivity.
    - rewrite seq_S, filter_app, IH by lia. replace (S n - 1) with n by lia. cbn [filter Nat.add]. pose proof (Nat.div_mod n i ltac:(lia)) as D. pose proof (Nat.mod_upper_bound n i ltac:(lia)).
      destruct (Nat.eqb_spec (n mod i) 0) as [C|C].
      + assert (E : n / i = (n - 1) / i + 1).
        { destruct (n / i) as [|q] eqn:Q; [nia|]. assert ((n - 1) / i = q); [|lia]. symmetry. apply (Nat.div_unique (n - 1) i q (i - 1)); nia. }
        rewrite E. rewrite (Nat.add_1_r ((n - 1) / i + 1)), seq_S, map_app. f_equal. cbn [map Nat.add]. f_equal. rewrite <- E. lia.
      + rewrite app_nil_r. assert (E : n / i = (n - 1) / i); [|now rewrite E]. apply (Nat.div_unique (n - 1) i (n / i) (n mod i - 1)); lia.
  Qed.
  Lemma list_nth (d : A) a : a = map (fun j => nth j a d) (seq 0 (length a)).
  Proof. apply (nth_ext _ _ d (nth 0 a d)); [now rewrite map_length, seq_length|]. intros k Hk. rewrite (map_nth (fun j => nth j a d)), seq_nth by exact Hk. reflexivity. Qed.
  Lemma slice_map d a i : 1 <= length a -> 1 <= i -> slice a i = map (fun k => nth (k * i) a d) (seq 0 ((length a - 1) / i + 1)).
  Proof.
    intros Hn Hi. unfold slice. rewrite flat_map_concat_map.
    assert (B : forall k, In k (seq 0 ((length a - 1) / i + 1)) -> k * i < length a).
    { intros k Hk. apply in_seq in Hk. pose proof (Nat.mul_div_le (length a - 1) i ltac:(lia)). nia. }
    revert B. generalize (seq 0 ((length a - 1) / i + 1)) as ks. induction ks as [|k ks IH]; intros B; [reflexivity|]. cbn [map concat]. rewrite IH by (intros; apply B; now right).
    rewrite (nth_error_nth' a d) by (apply B; now left). reflexivity.
  Qed.
  Lemma slice_length a i : 1 <= length a -> 1 <= i -> length (slice a i) = (length a - 1) / i + 1.
  Proof. intros Hn Hi. destruct a as [|d a]; [cbn in Hn; lia|]. rewrite (slice_map d) by assumption. now rewrite map_length, seq_length. Qed.
  Lemma slice_get a i k : 1 <= length a -> 1 <= i -> nth_error (slice a i) k = nth_error a (k * i).
  Proof.
    intros Hn Hi. destruct a as [|d a']; [cbn in Hn; lia|]. set (a := d :: a') in *. rewrite (slice_map d) by assumption.
    destruct (le_lt_dec ((length a - 1) / i + 1) k) as [C|C].
    - rewrite (proj2 (nth_error_None _ k)) by (rewrite map_length, seq_length; exact C). symmetry. apply nth_error_None.
      pose proof (Nat.mul_succ_div_gt (length a - 1) i ltac:(lia)). nia.
    - rewrite (nth_error_nth' _ d) by (rewrite map_length, seq_length; exact C). rewrite (nth_indep _ d (nth (0 * i) a d)) by (rewrite map_length, seq_length; exact C).
      rewrite (map_nth (fun k => nth (k * i) a d)), seq_nth by exact C. cbn [Nat.add]. symmetry. apply nth_error_nth'.
      pose proof (Nat.mul_div_le (length a - 1) i ltac:(lia)). nia.
  Qed.
  Lemma filter_split (f : A -> bool) (l : list A) : Permutation l (filter f l ++ filter (fun x => negb (f x)) l).
  Proof.
    induction l as [|x l IH]; [reflexivity|]. cbn [filter]. destruct (f x); cbn [negb]; [cbn [app]; now constructor|]. transitivity (x :: filter f l ++ filter (fun x => negb (f x)) l); [now constructor|]. apply Permutation_middle.
  Qed.
  Lemma Thin_parts a i : 1 <= i -> let '(kept, freed) := Thin a i in Permutation a (kept ++ freed).
  Proof.
    intros Hi. unfold Thin. destruct (Nat.ltb_spec 1 (length a)) as [C|C]; [|now rewrite app_nil_r].
    destruct a as [|d a']; [cbn in C; lia|]. set (a := d :: a') in *. rewrite (slice_map d) by lia.
    assert (CB : combine (seq 1 (length a)) a = map (fun j => (S j, nth j a d)) (seq 0 (length a))).
    { rewrite (list_nth d a) at 2. rewrite <- seq_shift. generalize (seq 0 (length a)) as s. induction s as [|j s IH]; [reflexivity|]. cbn [map combine]. now rewrite IH. }
    rewrite CB.
    assert (F : forall s, map snd (filter (fun jx : nat * A => negb ((fst jx - 1) mod i =? 0)) (map (fun j => (S j, nth j a d)) s)) = map (fun j => nth j a d) (filter (fun j => negb (j mod i =? 0)) s)).
    { induction s as [|j s IH]; [reflexivity|]. cbn [map filter fst]. replace (S j - 1) with j by lia. destruct (negb _); cbn [map snd]; now rewrite IH. }
    rewrite F. rewrite <- (map_map (fun k => k * i) (fun j => nth j a d)), <- multiples by lia. rewrite <- map_app. rewrite (list_nth d a) at 1. apply Permutation_map.
    clear. induction (seq 0 (length a)) as [|x l IH]; [reflexivity|]. cbn [filter]. destruct (_ =? 0); cbn [negb]; [cbn [app]; now constructor|]. etransitivity; [apply perm_skip, IH|]. apply Permutation_middle.
  Qed.
  Lemma nth_error_ext (l1 l2 : list A) : (forall k, nth_error l1 k = nth_error l2 k) -> l1 = l2.
  Proof.
    revert l2. induction l1 as [|x l1 IH]; intros [|y l2] H; [reflexivity|specialize (H 0); discriminate|specialize (H 0); discriminate|]. pose proof (H 0) as H0. injection H0 as ->. f_equal. apply IH. intros k. apply (H (S k)).
  Qed.
  Lemma Thin_get a i k : 1 <= i -> 1 <= length a -> nth_error (fst (Thin a i)) k = nth_error a (k * i).
  Proof.
    intros Hi Hn. unfold Thin. destruct (Nat.ltb_spec 1 (length a)) as [C|C]; cbn [fst]; [now apply slice_get|].
    destruct a as [|x [|y a]]; [cbn in Hn; lia| |cbn in C; lia]. destruct k as [|k]; [reflexivity|]. rewrite (proj2 (nth_error_None [x] (S k))) by (cbn; lia). symmetry. apply nth_error_None. cbn [length]. nia.
  Qed.
  Lemma Thin_nil i : fst (@Thin A [] i) = [].
  Proof. reflexivity. Qed.
  Lemma Thin_Thin a i j : 1 <= i -> 1 <= j -> fst (Thin (fst (Thin a i)) j) = fst (Thin a (i * j)).
  Proof.
    intros Hi Hj. destruct a as [|x a']; [reflexivity|]. set (a := x :: a') in *. assert (Hn : 1 <= length a) by (cbn; lia).
    apply nth_error_ext. intros k. rewrite (Thin_get a (i * j)) by nia.
    assert (H1 : 1 <= length (fst (Thin a i))).
    { assert (E : nth_error (fst (Thin a i)) 0 = Some x) by (rewrite Thin_get by assumption; reflexivity). assert (0 < length (fst (Thin a i))) by (apply nth_error_Some; congruence). lia. }
    rewrite !Thin_get by assumption. f_equal. lia.
  Qed.
End Thinning.

(** ** Limits *)
Local Open Scope R_scope.
Lemma CompareReal_neg x y : (CompareReal x y < 0)%Z <-> x < y.
Proof. unfold CompareReal. destruct (Rlt_dec (x - y) 0); [|destruct (Rlt_dec 0 (x - y))]; split; intros; try lia; lra. Qed.
Lemma CompareReal_pos x y : (0 < CompareReal x y)%Z <-> y < x.
Proof. unfold CompareReal. destruct (Rlt_dec (x - y) 0); [|destruct (Rlt_dec 0 (x - y))]; split; intros; try lia; lra. Qed.
Lemma CompareReal_le x y : (CompareReal x y <= 0)%Z <-> x <= y.
Proof. pose proof (CompareReal_pos x y) as H. split; intros C; [apply Rnot_lt_le; intros D; apply H in D; lia|]. destruct (Z.lt_ge_cases 0 (CompareReal x y)) as [D|D]; [apply H in D; lra|exact D]. Qed.
Lemma CompareReal_ordering : ordering CompareReal.
Proof. split; [intros a b; rewrite CompareReal_neg, CompareReal_pos; reflexivity|]. intros a b c. rewrite !CompareReal_le. lra. Qed.
Lemma int_of_spec x : 0 <= x -> INR (int_of x) <= x < INR (int_of x) + 1.
Proof.
  intros H. unfold int_of. destruct (base_Int_part x) as (B1 & B2). assert (P : (0 <= Int_part x)%Z) by (apply Z.lt_succ_r, lt_IZR; rewrite succ_IZR; lra).
  rewrite INR_IZR_INZ, Z2Nat.id by exact P. lra.
Qed.
Lemma int_of_unique x k : INR k <= x < INR k + 1 -> int_of x = k.
Proof.
  intros H. pose proof (pos_INR k). pose proof (int_of_spec x ltac:(lra)) as I. destruct (lt_eq_lt_dec (int_of x) k) as [[C|C]|C]; [|exact C|]; exfalso; apply le_INR in C; rewrite S_INR in C; lra.
Qed.
Lemma get_nth {A} (a : list A) i d : (1 <= i <= length a)%nat -> get a i = Ok (nth (i - 1) a d).
Proof. intros H. destruct i as [|k]; [lia|]. cbn [get]. rewrite (nth_error_nth' a d) by lia. now replace (S k - 1)%nat with k by lia. Qed.
Lemma sorted_nth s i j : in_order CompareReal s -> (i <= j < length s)%nat -> nth i s 0 <= nth j s 0.
Proof.
  revert i j. induction s as [|x s IH]; intros i j H Hij; [cbn in Hij; lia|]. destruct H as (H1 & H2). destruct i as [|i], j as [|j]; cbn [nth] in *; [lra| |lia|apply IH; auto; cbn in Hij; lia].
  apply CompareReal_le, H1, nth_In. cbn in Hij. lia.
Qed.
Lemma lim_at_val s f : (1 <= length s)%nat -> 0 <= f <= 1 -> lim_at s f = Ok (interp s ((INR (length s) - 1) * f)).
Proof.
  intros Hn Hf. unfold lim_at. set (n := length s) in *. set (t := (INR n - 1) * f). assert (HN : 1 <= INR n) by (apply (le_INR 1); exact Hn).
  assert (T : 0 <= t <= INR n - 1) by (unfold t; split; nra). pose proof (int_of_spec t ltac:(lra)) as I. set (k := int_of t) in *.
  assert (E : int_of (t + 1) = (k + 1)%nat) by (apply int_of_unique; rewrite plus_INR; cbn [INR]; lra). cbn zeta. rewrite E. replace (Nat.max (k + 1) 1) with (k + 1)%nat by lia.
  assert (K : (k < n)%nat) by (apply INR_lt; lra). rewrite (get_nth s (k + 1) 0) by (fold n; lia). cbn [bindR]. replace (k + 1 - 1)%nat with k by lia.
  assert (IV : interp s t = nth k s 0 * (1 - (t - INR k)) + (t - INR k) * nth (k + 1) s 0) by reflexivity. rewrite IV. rewrite plus_INR. cbn [INR].
  destruct (Rlt_dec (INR k + 1) (t + 1)) as [C|C].
  - assert (K2 : (k + 1 < n)%nat) by (apply INR_lt; rewrite plus_INR; cbn [INR]; lra). replace (k + 1 <? n)%nat with true by (symmetry; now apply Nat.ltb_lt). cbn [andb].
    rewrite (get_nth s (k + 1 + 1) 0) by (fold n; lia). cbn [bindR]. replace (k + 1 + 1 - 1)%nat with (k + 1)%nat by lia. f_equal. replace (t + 1 - (INR k + 1)) with (t - INR k) by ring. reflexivity.
  - rewrite andb_false_r. f_equal. assert (t - INR k = 0) by lra. rewrite H. ring.
Qed.
Lemma interp_bounds s t : in_order CompareReal s -> 0 <= t <= INR (length s) - 1 ->
  nth (int_of t) s 0 <= interp s t /\ (forall j, (int_of t < j < length s)%nat -> interp s t <= nth j s 0).
Proof.
  intros S0 T. pose proof (int_of_spec t ltac:(lra)) as I. unfold interp. fold (int_of t). set (k := int_of t) in *. cbn zeta. assert (K : (k < length s)%nat) by (apply INR_lt; lra).
  destruct (le_lt_dec (length s) (k + 1)) as [C|C].
  - assert (INR (length s) <= INR k + 1) by (apply le_INR in C; rewrite plus_INR in C; exact C). assert (D : t - INR k = 0) by lra. rewrite D. split; [nra|]. intros j Hj. lia.
  - pose proof (sorted_nth s k (k + 1) S0 ltac:(lia)). split; [nra|]. intros j Hj. pose proof (sorted_nth s (k + 1) j S0 ltac:(lia)). nra.
Qed.
Lemma interp_mono s t1 t2 : in_order CompareReal s -> 0 <= t1 <= t2 -> t2 <= INR (length s) - 1 -> interp s t1 <= interp s t2.
Proof.
  intros S0 H1 H2. pose proof (int_of_spec t1 ltac:(lra)) as I1. pose proof (int_of_spec t2 ltac:(lra)) as I2.
  destruct (lt_eq_lt_dec (int_of t1) (int_of t2)) as [[C|C]|C].
  - assert (K : (int_of t2 < length s)%nat) by (apply INR_lt; lra). destruct (interp_bounds s t1 S0 ltac:(lra)) as (_ & B). destruct (interp_bounds s t2 S0 ltac:(lra)) as (B2 & _). specialize (B (int_of t2) ltac:(lia)). lra.
  - unfold interp. fold (int_of t1) (int_of t2). rewrite <- C in *. set (k := int_of t1) in *. cbn zeta. destruct (le_lt_dec (length s) (k + 1)) as [D|D].
    + assert (INR (length s) <= INR k + 1) by (apply le_INR in D; rewrite plus_INR in D; exact D). assert (t1 = t2) by lra. subst. lra.
    + pose proof (sorted_nth s k (k + 1) S0 ltac:(lia)). nra.
  - exfalso. apply le_INR in C. rewrite S_INR in C. lra.
Qed.
Lemma filter_perm {A} (f : A -> bool) a b : Permutation a b -> length (filter f a) = length (filter f b).
Proof. intros P. induction P; cbn [filter]; [reflexivity| | |congruence]; [destruct (f x); cbn; lia|]. destruct (f x), (f y); reflexivity. Qed.
Lemma filter_none {A} (f : A -> bool) l : (forall x, In x l -> f x = false) -> filter f l = [].
Proof. induction l as [|x l IH]; intros H; [reflexivity|]. cbn [filter]. rewrite H by now left. apply IH. intros y Hy. apply H. now right. Qed.
Lemma filter_every {A} (f : A -> bool) l : (forall x, In x l -> f x = true) -> filter f l = l.
Proof. induction l as [|x l IH]; intros H; [reflexivity|]. cbn [filter]. rewrite H by now left. f_equal. apply IH. intros y Hy. apply H. now right. Qed.
Lemma firstn_in_nth (s : list R) m x : In x (firstn m s) -> exists j, (j < m)%nat /\ (j < length s)%nat /\ nth j s 0 = x.
Proof.
  intros H. apply (In_nth _ _ 0) in H. destruct H as (j & Hj & E). rewrite firstn_length in Hj. exists j. split; [lia|]. split; [lia|]. rewrite <- E. rewrite <- (firstn_skipn m s) at 1. rewrite app_nth1 by (rewrite firstn_length; lia). reflexivity.
Qed.
Lemma skipn_in_nth (s : list R) m x : In x (skipn m s) -> exists j, (m <= j < length s)%nat /\ nth j s 0 = x.
Proof.
  intros H. apply (In_nth _ _ 0) in H. destruct H as (j & Hj & E). rewrite skipn_length in Hj. exists (m + j)%nat. split; [lia|]. rewrite <- E. rewrite <- (firstn_skipn m s) at 1. rewrite app_nth2 by (rewrite firstn_length; lia). f_equal. rewrite firstn_length. lia.
Qed.
Lemma below_sorted s v m : (forall j, (m <= j < length s)%nat -> v <= nth j s 0) -> (n_below s v <= m)%nat.
Proof.
  intros H. unfold n_below. rewrite <- (firstn_skipn m s), filter_app, app_length. rewrite (filter_none _ (skipn m s)).
  - cbn [length]. rewrite Nat.add_0_r. assert (L : forall {A} (f : A -> bool) l, (length (filter f l) <= length l)%nat) by (clear; intros A f l; induction l as [|x l IH]; cbn [filter length]; [lia|]; destruct (f x); cbn [length]; lia).
    etransitivity; [apply L|]. rewrite firstn_length. lia.
  - intros x Hx. apply skipn_in_nth in Hx. destruct Hx as (j & Hj & <-). destruct (Rlt_dec _ _) as [C|C]; [|reflexivity]. specialize (H j Hj). lra.
Qed.
Lemma upto_sorted s v m : (m <= length s)%nat -> (forall j, (j < m)%nat -> nth j s 0 <= v) -> (m <= n_upto s v)%nat.
Proof.
  intros Hm H. unfold n_upto. rewrite <- (firstn_skipn m s), filter_app, app_length. rewrite (filter_every _ (firstn m s)); [rewrite firstn_length; lia|].
  intros x Hx. apply firstn_in_nth in Hx. destruct Hx as (j & Hj & _ & <-). destruct (Rle_dec _ _) as [C|C]; [reflexivity|]. specialize (H j Hj). lra.
Qed.
Lemma interp_counts s t : in_order CompareReal s -> 0 <= t <= INR (length s) - 1 ->
  INR (n_below s (interp s t)) <= t + 1 /\ t < INR (n_upto s (interp s t)).
Proof.
  intros S0 T. destruct (interp_bounds s t S0 T) as (B1 & B2). pose proof (int_of_spec t ltac:(lra)) as I. assert (K : (int_of t < length s)%nat) by (apply INR_lt; lra). split.
  - assert (C : (n_below s (interp s t) <= int_of t + 1)%nat) by (apply below_sorted; intros j Hj; apply B2; lia). apply le_INR in C. rewrite plus_INR in C. cbn [INR] in C. lra.
  - assert (C : (int_of t + 1 <= n_upto s (interp s t))%nat).
    { apply upto_sorted; [lia|]. intros j Hj. pose proof (sorted_nth s j (int_of t) S0 ltac:(lia)). lra. }
    apply le_INR in C. rewrite plus_INR in C. cbn [INR] in C. lra.
Qed.
Lemma sorted_unique s s' : Permutation s s' -> in_order CompareReal s -> in_order CompareReal s' -> s = s'.
Proof.
  revert s'. induction s as [|x s IH]; intros [|y s'] P H H'; [reflexivity|apply Permutation_nil in P; discriminate|symmetry in P; apply Permutation_nil in P; discriminate|].
  destruct H as (H1 & H2), H' as (H1' & H2'). assert (E : x = y).
  { assert (I1 : In x (y :: s')) by (apply (Permutation_in x P); now left). assert (I2 : In y (x :: s)) by (apply (Permutation_in y (Permutation_sym P)); now left).
    destruct I1 as [->|I1]; [reflexivity|]. destruct I2 as [->|I2]; [reflexivity|]. apply H1, CompareReal_le in I2. apply H1', CompareReal_le in I1. lra. }
  subst y. f_equal. apply IH; auto. now apply Permutation_cons_inv in P.
Qed.
