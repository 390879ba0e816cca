From Verif Require Import PyStr PyBase ThinModel ChainModel ChainProofs ConfModel ConfSpec.
From Coq Require Import QArith Permutation Lqa Sorted.
Local Open Scope nat_scope.

Lemma sumQ_perm l l' : Permutation l l' -> (sumQ l == sumQ l')%Q.
Proof.
  unfold sumQ. induction 1; cbn [fold_right]; try reflexivity.
  - rewrite IHPermutation. reflexivity.
  - ring.
  - etransitivity; eauto.
Qed.
Lemma sumQ_app a b : (sumQ (a ++ b) == sumQ a + sumQ b)%Q.
Proof. unfold sumQ. induction a as [|x a IH]; cbn [app fold_right]; [ring|]. rewrite IH. ring. Qed.
Lemma sumQ_nonneg l : Forall (fun w => 0 <= w)%Q l -> (0 <= sumQ l)%Q.
Proof. unfold sumQ. induction 1; cbn [fold_right]; lra. Qed.

Lemma filter_perm {A} (p : A -> bool) l l' : Permutation l l' -> Permutation (filter p l) (filter p l').
Proof.
  induction 1 as [|x l l' H IH|x y l|l1 l2 l3 H1 IH1 H2 IH2]; cbn.
  - constructor.
  - destruct (p x); [constructor|]; auto.
  - destruct (p x), (p y); try constructor; apply Permutation_refl.
  - etransitivity; eauto.
Qed.
Lemma mass_perm p l l' : Permutation l l' -> (mass p l == mass p l')%Q.
Proof. intros H. unfold mass. apply sumQ_perm, Permutation_map, filter_perm, H. Qed.

Lemma mass_app p a b : (mass p (a ++ b) == mass p a + mass p b)%Q.
Proof.
  unfold mass. assert (E : filter (fun x : Q * Q => p (fst x)) (a ++ b) = filter (fun x => p (fst x)) a ++ filter (fun x => p (fst x)) b).
  { induction a as [|x a IH]; cbn; [auto|]. destruct (p (fst x)); cbn; now rewrite IH. }
  rewrite E, map_app. apply sumQ_app.
Qed.
Lemma mass_all p l : (forall x, In x l -> p (fst x) = true) -> mass p l = sumQ (map snd l).
Proof.
  intros H. unfold mass. f_equal. f_equal. induction l as [|x l IH]; cbn; [auto|].
  rewrite H by (cbn; auto). f_equal. apply IH. intros; apply H; cbn; auto.
Qed.
Lemma mass_none p l : (forall x, In x l -> p (fst x) = false) -> mass p l = 0%Q.
Proof.
  intros H. unfold mass. replace (filter _ l) with (@nil (Q * Q)); [reflexivity|].
  induction l as [|x l IH]; cbn; [auto|]. rewrite H by (cbn; auto). apply IH. intros; apply H; cbn; auto.
Qed.
Lemma mass_le p l : Forall (fun x => 0 <= snd x)%Q l -> (0 <= mass p l /\ mass p l <= sumQ (map snd l))%Q.
Proof.
  induction 1 as [|x l Hx H [I1 I2]]; unfold mass in *; cbn; [lra|].
  destruct (p (fst x)); cbn; unfold sumQ in *; lra.
Qed.

Lemma cumsumQ_nth l : forall acc k, k < length l -> (nth k (cumsumQ acc l) 0 == acc + sumQ (firstn (S k) l))%Q.
Proof.
  induction l as [|w l IH]; intros acc k Hk; cbn [length] in Hk; [lia|].
  cbn [cumsumQ firstn]. destruct k as [|k]; cbn [nth].
  - cbn. ring.
  - rewrite IH by lia. change (sumQ (w :: firstn (S k) l)) with (w + sumQ (firstn (S k) l))%Q. ring.
Qed.
Lemma cumsumQ_length l : forall acc, length (cumsumQ acc l) = length l.
Proof. induction l; intros; cbn; auto. Qed.

Lemma searchsorted_le a v : searchsorted a v <= length a.
Proof. induction a as [|x a IH]; cbn; [lia|]. destruct (Qltb x v); lia. Qed.
Lemma searchsorted_before a v : forall k, k < searchsorted a v -> (nth k a 0 < v)%Q.
Proof.
  induction a as [|x a IH]; intros k Hk; cbn in Hk; [lia|].
  destruct (Qltb x v) eqn:E; [|lia]. destruct k; cbn; [now apply Qltb_iff|]. apply IH. lia.
Qed.
Lemma searchsorted_at a v : searchsorted a v < length a -> (v <= nth (searchsorted a v) a 0)%Q.
Proof.
  induction a as [|x a IH]; cbn; [lia|]. destruct (Qltb x v) eqn:E; cbn [nth]; intros H.
  - apply IH. lia.
  - apply Qnot_lt_le. intros C. apply Qltb_iff in C. congruence.
Qed.
Lemma searchsorted_mono a : forall v v', (v <= v')%Q -> searchsorted a v <= searchsorted a v'.
Proof.
  induction a as [|x a IH]; intros v v' H; cbn; [lia|].
  destruct (Qltb x v) eqn:E.
  - assert (E' : Qltb x v' = true) by (apply Qltb_iff; apply Qltb_iff in E; lra). rewrite E'.
    specialize (IH v v' H). lia.
  - lia.
Qed.

Lemma firstn_map_nth {A} (l : list A) d : forall k, k <= length l -> firstn k l = map (fun i => nth i l d) (seq 0 k).
Proof.
  intros k. revert l. induction k as [|k IH]; intros l H; [reflexivity|].
  destruct l as [|x l]; cbn in H; [lia|]. cbn [firstn seq map nth]. f_equal.
  rewrite IH by lia. rewrite <- seq_shift, map_map. reflexivity.
Qed.

Lemma map_snd_combine (v ws : list Q) : length ws = length v -> map snd (combine v ws) = ws.
Proof.
  revert v. induction ws as [|w ws IH]; intros [|y v] H; cbn in *; try discriminate; [auto|]. f_equal. apply IH. lia.
Qed.

(** the limit for a given target *)
Definition limit_at (d : conf_data) (target : Q) : Q :=
  nth (nth (Nat.min (searchsorted (c_cum d) target) (length (c_ix d) - 1)) (c_ix d) 0) (c_vec d) 0%Q.

Lemma limit_spec argsort v ws target : is_argsort argsort -> v <> [] -> length ws = length v ->
  Forall (fun w => 0 <= w)%Q ws -> (0 <= target <= sumQ ws)%Q ->
  let d := mkConf v (sumQ ws) (argsort v) (cumsumQ 0 (map (fun i => nth i ws 0%Q) (argsort v))) in
  let x := limit_at d target in
  In x v /\ (mass (below x) (combine v ws) <= target)%Q /\ (target <= mass (upto x) (combine v ws))%Q.
Proof.
  intros Has Hne Hlen Hw Ht d x. destruct (Has v) as [Hperm Hsort].
  set (ix := argsort v) in *. set (n := length v) in *.
  assert (Hixl : length ix = n) by (rewrite (Permutation_length Hperm); apply seq_length).
  assert (Hn : 0 < n) by (unfold n; destruct v; [congruence|cbn; lia]).
  set (sv := map (fun i => (nth i v 0%Q, nth i ws 0%Q)) ix).
  assert (Hcomb : combine v ws = map (fun i => (nth i v 0%Q, nth i ws 0%Q)) (seq 0 n)).
  { assert (Hc : length (combine v ws) = n) by (rewrite combine_length, Hlen; unfold n; lia).
    rewrite <- (firstn_all (combine v ws)). rewrite (firstn_map_nth _ (0%Q, 0%Q)) by lia. rewrite Hc.
    apply map_ext. intros i. apply combine_nth. symmetry. exact Hlen. }
  assert (Hp : Permutation sv (combine v ws)) by (rewrite Hcomb; apply Permutation_map; exact Hperm).
  assert (Hsw : map (fun i => nth i ws 0%Q) ix = map snd sv) by (unfold sv; rewrite map_map; reflexivity).
  assert (Hsvl : length sv = n) by (unfold sv; rewrite map_length; exact Hixl).
  assert (Hsvn : forall k, k < n -> nth k sv (0%Q, 0%Q) = (nth (nth k ix 0) v 0%Q, nth (nth k ix 0) ws 0%Q)).
  { intros k Hk. unfold sv. set (f := fun i => (nth i v 0%Q, nth i ws 0%Q)).
    rewrite nth_indep with (d' := f 0) by (rewrite map_length; lia). now rewrite map_nth. }
  assert (Htot : (sumQ (map snd sv) == sumQ ws)%Q).
  { rewrite (sumQ_perm _ (map snd (combine v ws))) by (apply Permutation_map, Hp).
    rewrite map_snd_combine by exact Hlen. reflexivity. }
  assert (Hnn : Forall (fun y => 0 <= snd y)%Q sv).
  { apply Forall_forall. intros y Hy. unfold sv in Hy. apply in_map_iff in Hy. destruct Hy as [i [<- Hi]]. cbn.
    assert (i < n) by (apply (Permutation_in _ Hperm) in Hi; apply in_seq in Hi; lia).
    rewrite Forall_forall in Hw. apply Hw. apply nth_In. lia. }
  set (cum := cumsumQ 0 (map (fun i => nth i ws 0%Q) ix)) in *.
  assert (Hcl : length cum = n) by (unfold cum; rewrite cumsumQ_length, map_length; lia).
  assert (Hcn : forall k, k < n -> (nth k cum 0 == sumQ (map snd (firstn (S k) sv)))%Q).
  { intros k Hk. unfold cum. rewrite cumsumQ_nth by (rewrite map_length; lia). rewrite Hsw, firstn_map. ring. }
  set (s := searchsorted cum target).
  assert (Hs : s < n).
  { destruct (Nat.lt_ge_cases s n) as [|C]; [auto|]. exfalso.
    assert (n - 1 < s) as Hb by lia. apply searchsorted_before in Hb.
    rewrite Hcn in Hb by lia. replace (S (n - 1)) with (length sv) in Hb by lia.
    rewrite firstn_all, Htot in Hb. lra. }
  assert (Ex : x = fst (nth s sv (0%Q, 0%Q))).
  { unfold x, limit_at, d. cbn [c_ix c_vec c_cum]. fold s. rewrite Nat.min_l by lia.
    rewrite Hsvn by lia. reflexivity. }
  assert (Hsorted : forall a b, a <= b < n -> (fst (nth a sv (0%Q, 0%Q)) <= fst (nth b sv (0%Q, 0%Q)))%Q).
  { intros a b Hab. destruct (Nat.eq_dec a b) as [->|N]; [lra|]. rewrite !Hsvn by lia. cbn. apply Hsort. lia. }
  assert (Hfirst : forall k, In k (firstn (S s) sv) -> (fst k <= x)%Q).
  { intros y Hy. apply In_nth with (d := (0%Q, 0%Q)) in Hy. destruct Hy as [k [Hk <-]].
    rewrite firstn_length in Hk. rewrite Ex.
    rewrite <- (firstn_skipn (S s) sv) at 2. rewrite app_nth1 by (rewrite firstn_length; lia).
    assert (E1 : nth k (firstn (S s) sv) (0%Q, 0%Q) = nth k sv (0%Q, 0%Q)).
    { rewrite <- (firstn_skipn (S s) sv) at 2. rewrite app_nth1 by (rewrite firstn_length; lia). reflexivity. }
    assert (E2 : nth s (firstn (S s) sv) (0%Q, 0%Q) = nth s sv (0%Q, 0%Q)).
    { rewrite <- (firstn_skipn (S s) sv) at 2. rewrite app_nth1 by (rewrite firstn_length; lia). reflexivity. }
    rewrite E1, E2. apply Hsorted. lia. }
  assert (Hrest : forall y, In y (skipn s sv) -> (x <= fst y)%Q).
  { intros y Hy. apply In_nth with (d := (0%Q, 0%Q)) in Hy. destruct Hy as [k [Hk <-]].
    rewrite skipn_length in Hk. rewrite Ex.
    assert (E1 : nth k (skipn s sv) (0%Q, 0%Q) = nth (s + k) sv (0%Q, 0%Q)).
    { rewrite <- (firstn_skipn s sv) at 2. rewrite app_nth2; rewrite firstn_length, Nat.min_l by lia; [|lia].
      f_equal. lia. }
    rewrite E1. apply Hsorted. lia. }
  split; [|split].
  - rewrite Ex, Hsvn by lia. cbn. apply nth_In.
    assert (In (nth s ix 0) ix) as Hi by (apply nth_In; lia). apply (Permutation_in _ Hperm) in Hi. apply in_seq in Hi. lia.
  - rewrite <- (mass_perm _ _ _ Hp). rewrite <- (firstn_skipn s sv), mass_app.
    rewrite (mass_none (below x) (skipn s sv)).
    2:{ intros y Hy. unfold below. apply negb_false_iff, Qle_bool_iff. now apply Hrest. }
    assert (Hf : Forall (fun y => 0 <= snd y)%Q (firstn s sv)).
    { apply Forall_forall. intros y Hy. rewrite Forall_forall in Hnn. apply Hnn.
      rewrite <- (firstn_skipn s sv). apply in_or_app; auto. }
    destruct (mass_le (below x) _ Hf) as [_ Hle].
    destruct s as [|s'] eqn:Es.
    + unfold mass. cbn. lra.
    + assert (Hb : (nth s' cum 0 < target)%Q) by (apply searchsorted_before; unfold s in Es; lia).
      rewrite Hcn in Hb by lia. lra.
  - rewrite <- (mass_perm _ _ _ Hp). rewrite <- (firstn_skipn (S s) sv), mass_app.
    rewrite (mass_all (upto x) (firstn (S s) sv)).
    2:{ intros y Hy. unfold upto. apply Qle_bool_iff. now apply Hfirst. }
    assert (Hf : Forall (fun y => 0 <= snd y)%Q (skipn (S s) sv)).
    { apply Forall_forall. intros y Hy. rewrite Forall_forall in Hnn. apply Hnn.
      rewrite <- (firstn_skipn (S s) sv). apply in_or_app; auto. }
    destruct (mass_le (upto x) _ Hf) as [Hge _].
    assert (Ha : (target <= nth s cum 0)%Q) by (apply searchsorted_at; fold s; lia).
    rewrite Hcn in Ha by lia. lra.
Qed.

Lemma limit_mono argsort v ws target target' : is_argsort argsort -> v <> [] -> length ws = length v ->
  (target <= target')%Q ->
  let d := mkConf v (sumQ ws) (argsort v) (cumsumQ 0 (map (fun i => nth i ws 0%Q) (argsort v))) in
  (limit_at d target <= limit_at d target')%Q.
Proof.
  intros Has Hne Hlen Ht d. destruct (Has v) as [Hperm Hsort]. unfold limit_at, d. cbn [c_ix c_vec c_cum].
  set (cum := cumsumQ _ _).
  assert (Hixl : length (argsort v) = length v) by (rewrite (Permutation_length Hperm); apply seq_length).
  pose proof (searchsorted_mono cum target target' Ht) as Hm.
  set (a := Nat.min (searchsorted cum target) _). set (b := Nat.min (searchsorted cum target') _).
  assert (Hab : a <= b) by (unfold a, b; lia).
  assert (Hb : b < length v) by (unfold b; destruct v; [congruence|cbn in *; lia]).
  destruct (Nat.eq_dec a b) as [->|N]; [lra|]. apply Hsort. lia.
Qed.

Lemma init_full argsort vec weights start stop : length weights = length vec ->
  is_argsort argsort ->
  let v := pyslice start stop vec in let ws := pyslice start stop weights in
  length ws = length v /\
  initParamConfidenceData argsort vec weights start stop =
    mkConf v (sumQ ws) (argsort v) (cumsumQ 0 (map (fun i => nth i ws 0%Q) (argsort v))).
Proof.
  intros Hl Has v ws.
  assert (Hlen : length ws = length v).
  { unfold v, ws, pyslice, slice. destruct stop; rewrite ?firstn_length, !skipn_length; lia. }
  split; [exact Hlen|]. unfold initParamConfidenceData. fold v. fold ws. f_equal. f_equal.
  apply map_ext_in. intros i Hi. destruct (Has v) as [Hp _]. apply (Permutation_in _ Hp), in_seq in Hi.
  assert (Hi' : i < length ws) by lia. clear - Hi'. unfold ws, pyslice, slice in *.
  assert (G : forall k, nth k (skipn start weights) 0%Q = nth (start + k) weights 0%Q).
  { clear. revert weights. induction start as [|s IH]; intros [|x l] k; cbn; auto. now destruct k. }
  destruct stop as [e|].
  - rewrite firstn_length in Hi'. rewrite <- G.
    assert (E : forall (l : list Q) m k, k < m -> nth k (firstn m l) 0%Q = nth k l 0%Q).
    { clear. induction l as [|x l IH]; intros [|m] [|k] H; cbn; auto; try lia. apply IH. lia. }
    rewrite E by lia. reflexivity.
  - now rewrite G.
Qed.

(** a concrete argsort, so that the promise is satisfiable *)
Fixpoint insq (x : Q * nat) (l : list (Q * nat)) : list (Q * nat) :=
  match l with [] => [x] | y :: l' => if Qle_bool (fst x) (fst y) then x :: l else y :: insq x l' end.
Definition isort (l : list (Q * nat)) : list (Q * nat) := fold_right insq [] l.
Definition ins_argsort (v : list Q) : list nat := map snd (isort (combine v (seq 0 (length v)))).

Lemma insq_perm x l : Permutation (insq x l) (x :: l).
Proof.
  induction l as [|y l IH]; cbn; [auto|]. destruct (Qle_bool (fst x) (fst y)); [auto|].
  rewrite IH. apply perm_swap.
Qed.
Lemma isort_perm l : Permutation (isort l) l.
Proof. induction l as [|x l IH]; cbn; [auto|]. rewrite insq_perm. now constructor. Qed.
Definition pair_le (x y : Q * nat) := (fst x <= fst y)%Q.
Lemma insq_sorted x l : Sorted.StronglySorted pair_le l -> Sorted.StronglySorted pair_le (insq x l).
Proof.
  induction 1 as [|y l Hl IH Hy]; cbn; [repeat constructor|].
  destruct (Qle_bool (fst x) (fst y)) eqn:E.
  - apply Qle_bool_iff in E. constructor; [now constructor|]. constructor; [exact E|].
    eapply Forall_impl; [|exact Hy]. intros z Hz. unfold pair_le in *. lra.
  - assert (E' : (fst y <= fst x)%Q).
    { destruct (Qlt_le_dec (fst x) (fst y)) as [C|C]; [|exact C].
      assert (Qle_bool (fst x) (fst y) = true) by (apply Qle_bool_iff; lra). congruence. }
    constructor; [exact IH|]. apply Forall_forall. intros z Hz.
    apply (Permutation_in _ (insq_perm x l)) in Hz. destruct Hz as [<-|Hz]; [exact E'|].
    rewrite Forall_forall in Hy. auto.
Qed.
Lemma isort_sorted l : Sorted.StronglySorted pair_le (isort l).
Proof. induction l; cbn; [constructor|]. now apply insq_sorted. Qed.
Lemma ssorted_nth (l : list (Q * nat)) d : Sorted.StronglySorted pair_le l -> forall a b, a < b < length l -> pair_le (nth a l d) (nth b l d).
Proof.
  induction 1 as [|x l Hl IH Hx]; intros a b H; cbn in H; [lia|].
  destruct b as [|b]; [lia|]. destruct a as [|a]; cbn.
  - rewrite Forall_forall in Hx. apply Hx. apply nth_In. lia.
  - apply IH. lia.
Qed.
Lemma ins_argsort_ok : is_argsort ins_argsort.
Proof.
  intros v. unfold ins_argsort. set (l := combine v (seq 0 (length v))).
  assert (Hp : Permutation (isort l) l) by apply isort_perm.
  assert (Hl : length l = length v) by (unfold l; rewrite combine_length, seq_length; lia).
  split.
  - transitivity (map snd l); [now apply Permutation_map|].
    replace (map snd l) with (seq 0 (length v)); [auto|]. unfold l. generalize 0 as k.
    clear. induction v as [|x v IH]; intros k; cbn; [auto|]. f_equal. apply IH.
  - assert (Hin : forall p, In p (isort l) -> nth (snd p) v 0%Q = fst p).
    { intros p Hin. apply (Permutation_in _ Hp) in Hin. unfold l in Hin.
      assert (G : forall (u : list Q) k, In p (combine u (seq k (length u))) -> k <= snd p /\ nth (snd p - k) u 0%Q = fst p).
      { clear. induction u as [|x u IH]; intros k H; cbn in H; [contradiction|]. destruct H as [<-|H].
        - cbn. rewrite Nat.sub_diag. auto.
        - apply IH in H. destruct H as [H1 H2]. split; [lia|]. replace (snd p - k) with (S (snd p - S k)) by lia. exact H2. }
      destruct (G v 0 Hin) as [_ E]. rewrite Nat.sub_0_r in E. exact E. }
    intros a b Hab. assert (Hsl : length (isort l) = length v) by (rewrite (Permutation_length Hp); exact Hl).
    assert (Hm : forall k, k < length v -> nth (nth k (map snd (isort l)) 0) v 0%Q = fst (nth k (isort l) (0%Q, 0))).
    { intros k Hk. change 0 with (snd (0%Q, 0)) at 1. rewrite map_nth. apply Hin. apply nth_In. lia. }
    rewrite !Hm by lia. apply (ssorted_nth _ (0%Q, 0) (isort_sorted l)). lia.
Qed.

Lemma mass_compl p l : (mass p l + mass (fun y => negb (p y)) l == sumQ (map snd l))%Q.
Proof.
  unfold mass. induction l as [|x l IH]; cbn [filter map]; [reflexivity|].
  destruct (p (fst x)); cbn [negb filter map]; unfold sumQ in *; cbn [fold_right]; rewrite <- IH; ring.
Qed.
Lemma mass_ext p q l : (forall x, p x = q x) -> mass p l = mass q l.
Proof. intros H. unfold mass. f_equal. f_equal. apply filter_ext. auto. Qed.

Lemma confidence_limit d f upper : c_ix d <> [] ->
  confidence d f upper = Ok (limit_at d (if upper then (c_norm d * (1 - f))%Q else (c_norm d * f)%Q)).
Proof. intros H. unfold confidence, limit_at. destruct (c_ix d) eqn:E; [congruence|]. destruct upper; reflexivity. Qed.
