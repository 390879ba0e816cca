(** C144: split tests and correlations between steps. *)
From Coq Require Import Reals ZArith QArith Bool Lia Lra.
From Verif Require Import PyStr PyBase ThinModel ConfModel ConfSpec ConfProofs ConfProps HistModel HistSpec HistProofs HistProps RaftModel KdeModel StatModel StatSpec StatProofs CnvgProofs StepModel StepSpec.
From Coq Require Import List.
Import ListNotations.
Local Open Scope nat_scope.

Lemma Ok_eq {A} (a b : A) : Ok a = Ok b -> a = b. Proof. congruence. Qed.
Lemma mapR_ok {A B} (f : A -> res B) l r : mapR f l = Ok r -> Forall2 (fun x y => f x = Ok y) l r.
Proof.
  revert r. induction l as [|x l IH]; intros r H; cbn in H; [assert (r = []) by congruence; subst; constructor|].
  destruct (f x) as [y|] eqn:E; [|discriminate]. destruct (mapR f l) as [s|]; [|discriminate]. assert (r = y :: s) by congruence. subst. constructor; [exact E | apply IH; reflexivity].
Qed.
Lemma mapR_fails {A B} (f : A -> res B) l e x : (forall y z, f y = Err z -> z = e) -> In x l -> f x = Err e -> mapR f l = Err e.
Proof.
  intros H. induction l as [|y l IH]; intros I E; [contradiction|]. cbn. destruct (f y) as [v|z] eqn:Q; [|rewrite (H y z Q); reflexivity].
  destruct I as [-> | I]; [congruence|]. rewrite (IH I E). reflexivity.
Qed.
Lemma mapR_total {A B} (f : A -> res B) l : (forall x, In x l -> exists y, f x = Ok y) -> exists r, mapR f l = Ok r.
Proof.
  induction l as [|x l IH]; intros H; [exists []; reflexivity|]. cbn. destruct (H x ltac:(left; reflexivity)) as [y ->].
  destruct IH as [r ->]; [intros; apply H; right; assumption|]. eauto.
Qed.
Lemma F2_len {A B} (P : A -> B -> Prop) l r : Forall2 P l r -> length l = length r.
Proof. induction 1; cbn; lia. Qed.
Lemma F2_nth {A B} (P : A -> B -> Prop) l r a b i : Forall2 P l r -> i < length l -> P (nth i l a) (nth i r b).
Proof. intros H. revert i. induction H; intros [|i] I; cbn in *; try lia; [assumption | apply IHForall2; lia]. Qed.

(** ** Split tests *)
Lemma parts_length b : length (parts b) = length b - 1.
Proof.
  unfold parts. rewrite combine_length. destruct b as [|x b]; [reflexivity|]. cbn [tl]. rewrite removelast_firstn_len, firstn_length. cbn [length]. lia.
Qed.
Lemma parts_nth b i : S i < length b -> nth i (parts b) (0, 0) = (nth i b 0, nth (S i) b 0).
Proof.
  intros H. unfold parts. rewrite combine_nth.
  - f_equal; [|destruct b; [cbn in H; lia | reflexivity]]. rewrite removelast_firstn_len.
    assert (G : forall (l : list nat) n i, i < n -> nth i (firstn n l) 0 = nth i l 0) by (induction l as [|x l IH]; intros [|n] [|k] K; cbn; try reflexivity; try lia; apply IH; lia).
    apply G. lia.
  - destruct b as [|x b]; [reflexivity|]. cbn [tl]. rewrite removelast_firstn_len, firstn_length. cbn [length]. lia.
Qed.
Lemma conf_err d f u e : confidence d f u = Err e -> e = IndexError.
Proof. unfold confidence. destruct (c_ix d); [congruence | discriminate]. Qed.

(** the mean square of the changes of the quantile between the parts and all rows, in units of the standard deviation *)
Theorem C144_split : forall argsort vec ws f var n s, is_argsort argsort -> length ws = length vec -> vec <> [] -> Forall (fun w => 0 <= w)%Q ws -> (0 <= f <= 1)%Q -> 1 <= n ->
  split_sq argsort vec ws f var n = Ok s ->
  let b := getFractionIndices ws (sumQ ws) (length ws) n in
  exists q qs, quantile vec ws f q /\ length qs = n /\
    (forall i, i < n -> quantile (rows (nth i b 0) (nth (S i) b 0) vec) (rows (nth i b 0) (nth (S i) b 0) ws) f (nth i qs 0%Q)) /\
    (s * inject_Z (Z.of_nat n) * var == sumQ (map (fun x => (x - q) * (x - q)) qs))%Q.
Proof.
  intros argsort vec ws f var n s A L NE P F N H. cbv zeta. unfold split_sq in H. cbv zeta in H. set (b := getFractionIndices ws (sumQ ws) (length ws) n) in *.
  assert (QU : forall start stop, pyslice start stop vec <> [] -> forall x, confidence (initParamConfidenceData argsort vec ws start stop) f false = Ok x ->
     quantile (pyslice start stop vec) (pyslice start stop ws) f x).
  { intros start stop V x X. destruct (C22_lower argsort vec ws start stop f A L P F V) as [y [E [Y1 [Y2 Y3]]]]. assert (x = y) by congruence. subst. split; [exact Y1 | split; assumption]. }
  destruct (confidence (initParamConfidenceData argsort vec ws 0 None) f false) as [q|] eqn:Eq; [|discriminate]. cbn [bindR] in H.
  match type of H with bindR ?x _ = _ => destruct x as [sq|] eqn:Es; [|discriminate] end. cbn [bindR] in H.
  destruct (Qeq_bool var 0) eqn:V; [discriminate|]. assert (VN : ~ (var == 0)%Q) by (intros X; apply Qeq_bool_iff in X; congruence).
  apply Ok_eq in H. apply mapR_ok in Es. pose proof (F2_len _ _ _ Es) as LS. rewrite parts_length in LS.
  destruct (C48_ends ws n N P) as [LB _]. fold b in LB.
  set (g := fun p : nat * nat => match confidence (initParamConfidenceData argsort vec ws (fst p) (Some (snd p))) f false with Ok c => c | Err _ => 0%Q end).
  exists q, (map g (parts b)). split; [exact (QU 0 None ltac:(cbn; exact NE) q Eq)|]. split; [rewrite map_length, parts_length; lia|]. split.
  - intros i I. pose proof (F2_nth _ _ _ (0, 0) 0%Q i Es ltac:(rewrite parts_length; lia)) as X. cbv beta in X.
    rewrite (nth_indep _ 0%Q (g (0, 0))) by (rewrite map_length, parts_length; lia). rewrite map_nth. rewrite parts_nth in X |- * by lia. unfold g. cbn [fst snd] in *.
    destruct (confidence _ f false) as [c|] eqn:E in X; [|discriminate]. rewrite E.
    apply (QU (nth i b 0) (Some (nth (S i) b 0))); [|exact E]. intros Z. rewrite (C22_empty argsort vec ws _ _ f false A L Z) in E. discriminate.
  - rewrite <- H. assert (SQ : sumQ (map (fun x => (x - q) * (x - q))%Q (map g (parts b))) = sumQ sq).
    { f_equal. rewrite map_map. clear -Es. induction Es as [|p y l r X Y IH]; [reflexivity|]. cbn [map]. f_equal; [|exact IH]. unfold g.
      destruct (confidence _ f false) as [c|] in X |- *; [|discriminate]. cbn [bindR] in X. apply Ok_eq in X. exact X. }
    rewrite SQ. assert (NN : ~ (inject_Z (Z.of_nat n) == 0)%Q) by (intros Z; assert (X : (0 < inject_Z (Z.of_nat n))%Q) by (rewrite <- (Zlt_Qlt 0); lia); rewrite Z in X; discriminate). field. split; assumption.
Qed.
Print Assumptions C144_split.
Lemma rows_none {A} a b (l : list A) : b <= a -> pyslice a (Some b) l = [].
Proof. intros H. unfold pyslice, ChainModel.slice, PyStr.slice. replace (b - a) with 0 by lia. reflexivity. Qed.
(** FINDING: a part without rows ends the program; there is one whenever there are more parts than rows *)
Theorem C144_split_refuted : forall argsort vec ws f var n i, is_argsort argsort -> length ws = length vec -> vec <> [] -> Forall (fun w => 0 <= w)%Q ws -> 1 <= n -> i < n ->
  let b := getFractionIndices ws (sumQ ws) (length ws) n in nth i b 0 = nth (S i) b 0 -> split_sq argsort vec ws f var n = Err IndexError.
Proof.
  intros argsort vec ws f var n i A L NE P N I. cbv zeta. intros E. unfold split_sq. cbv zeta. set (b := getFractionIndices ws (sumQ ws) (length ws) n) in *.
  destruct (confidence (initParamConfidenceData argsort vec ws 0 None) f false) as [q|e] eqn:Eq; [|rewrite (conf_err _ _ _ _ Eq); reflexivity]. cbn [bindR].
  destruct (C48_ends ws n N P) as [LB _]. fold b in LB.
  rewrite (mapR_fails _ _ IndexError (nth i (parts b) (0, 0))); [reflexivity | | apply nth_In; rewrite parts_length; lia |].
  - intros y z Z. destruct (confidence _ f false) as [c|e] eqn:X in Z; cbn [bindR] in Z; [discriminate|]. assert (e = z) by congruence. subst. exact (conf_err _ _ _ _ X).
  - rewrite parts_nth by lia. cbn [fst snd]. rewrite (C22_empty argsort vec ws _ _ f false A L); [reflexivity|]. apply rows_none. lia.
Qed.
Print Assumptions C144_split_refuted.
Lemma climb (b : list nat) n : (forall i, i < n -> nth i b 0 < nth (S i) b 0) -> n <= nth n b 0.
Proof. induction n as [|n IH]; intros H; [lia|]. pose proof (IH ltac:(intros; apply H; lia)). pose proof (H n ltac:(lia)). lia. Qed.
Theorem C144_split_few_refuted : forall argsort vec ws f var n, is_argsort argsort -> length ws = length vec -> vec <> [] -> Forall (fun w => 0 <= w)%Q ws ->
  length vec < n -> split_sq argsort vec ws f var n = Err IndexError.
Proof.
  intros argsort vec ws f var n A L NE P N. set (b := getFractionIndices ws (sumQ ws) (length ws) n).
  assert (X : {i | i < n /\ nth i b 0 = nth (S i) b 0} + {forall i, i < n -> nth i b 0 <> nth (S i) b 0}).
  { clearbody b. clear. induction n as [|n [[i [I E]]|IH]].
    - right. intros i I. lia.
    - left. exists i. split; [lia | exact E].
    - destruct (Nat.eq_dec (nth n b 0) (nth (S n) b 0)) as [E|E]; [left; exists n; split; [lia | exact E]|].
      right. intros i I. destruct (Nat.eq_dec i n) as [-> |]; [exact E | apply IH; lia]. }
  destruct X as [[i [I E]]|X]; [apply (C144_split_refuted argsort vec ws f var n i A L NE P ltac:(lia) I E)|].
  exfalso. pose proof (climb b n) as C. pose proof (frac_end ws n) as FE. fold b in FE. rewrite FE in C. enough (n <= length ws) by lia. apply C.
  intros i I. destruct (C48_monotone ws n i (S i) P ltac:(lia)) as [M _]. fold b in M. pose proof (X i I). lia.
Qed.
Print Assumptions C144_split_few_refuted.
Example C144_split_ex : getFractionIndices [1; 1; 1; 9]%Q 12 4 4 = [0; 2; 3; 3; 4] /\ split_sq (fun v => seq 0 (length v)) [1; 2; 3; 4]%Q [1; 1; 1; 1]%Q (1 # 4) 1 2 = Ok (1 # 2)%Q.
Proof. split; vm_compute; reflexivity. Qed.

(** ** Correlations between steps *)
Local Open Scope R_scope.
Lemma lag_term_ok d k v x : lag_term d k v = Ok x -> (k < length d)%nat /\ v <> 0 /\ x = autocov d k / v.
Proof.
  unfold lag_term. cbv zeta. destruct (Nat.leb_spec (length d) k) as [|K]; [discriminate|]. unfold rdivE.
  destruct (Req_EM_T (INR (length d - k)) 0) as [Z|Z]; [discriminate|]. cbn [bindR]. destruct (Req_EM_T v 0) as [|V]; [discriminate|]. intros H. apply Ok_eq in H.
  split; [exact K|]. split; [exact V|]. rewrite <- H. unfold autocov. f_equal. f_equal.
  rewrite dot_Sm by (rewrite skipn_length, firstn_length; lia). rewrite skipn_length. apply Sm_ext. intros i I. f_equal.
  - clear. revert d. induction k as [|k IH]; intros [|y d]; cbn [skipn Nat.add]; try reflexivity; [destruct i; reflexivity | apply IH].
  - assert (G : forall (l : list R) n i, (i < n)%nat -> nth i (firstn n l) 0 = nth i l 0) by (induction l as [|y l IH]; intros [|n] [|j] J; cbn; try reflexivity; try lia; apply IH; lia).
    apply G. lia.
Qed.
Lemma lag_term_err d k v e : lag_term d k v = Err e -> e = NotFinite.
Proof.
  unfold lag_term, rdivE. cbv zeta. destruct (Nat.leb (length d) k); [congruence|]. destruct (Req_EM_T _ 0); cbn [bindR]; [congruence|]. destruct (Req_EM_T v 0); [congruence | discriminate].
Qed.
Lemma mapR_err {A B} (f : A -> res B) l e z : (forall y z, f y = Err z -> z = e) -> mapR f l = Err z -> z = e.
Proof.
  intros H. induction l as [|x l IH]; cbn; [discriminate|]. destruct (f x) eqn:E; [|intros; assert (z = e0) by congruence; subst; eapply H; exact E].
  destruct (mapR f l); [discriminate|]. intros. apply IH. congruence.
Qed.
Lemma chain_table_err c ix vars m e : chain_table c ix vars m = Err e -> e = NotFinite.
Proof. unfold chain_table. apply mapR_err. intros off z. apply mapR_err. intros j w. apply lag_term_err. Qed.
Definition entry (t : list (list R)) (i j : nat) : R := nth j (nth i t []) 0.
Lemma chain_table_ok c ix vars m new : chain_table c ix vars m = Ok new -> length new = m /\ Forall (fun r => length r = length vars) new /\
  forall i j, (i < m)%nat -> (j < length vars)%nat -> entry new i j = autocov (picked (nth j (sc_diffs c) []) ix) (S i) / nth j vars 0.
Proof.
  intros H. unfold chain_table in H. apply mapR_ok in H. pose proof (F2_len _ _ _ H) as L. rewrite seq_length in L. split; [lia|]. split.
  - clear L. induction H as [|k r a b X Y IH]; constructor; [|exact IH]. apply mapR_ok in X. apply F2_len in X. rewrite seq_length in X. lia.
  - intros i j I J. pose proof (F2_nth _ _ _ 0%nat [] i H ltac:(rewrite seq_length; exact I)) as X. cbv beta in X. rewrite seq_nth in X by exact I.
    apply mapR_ok in X. pose proof (F2_nth _ _ _ 0%nat 0 j X ltac:(rewrite seq_length; exact J)) as Y. cbv beta in Y. rewrite seq_nth in Y by exact J. cbn [Nat.add] in Y.
    destruct (lag_term_ok _ _ _ _ Y) as [_ [_ E]]. exact E.
Qed.
Lemma add_row_nth a b j : length a = length b -> (j < length a)%nat -> nth j (add_row a b) 0 = nth j a 0 + nth j b 0.
Proof.
  intros L J. unfold add_row. rewrite (nth_map0 _ _ j (0, 0)) by (rewrite combine_length; lia). rewrite combine_nth by exact L. reflexivity.
Qed.
Lemma add_table_spec nv t new : Forall (fun r => length r = nv) t -> Forall (fun r => length r = nv) new -> (length new <= length t)%nat ->
  length (add_table t new) = length t /\ Forall (fun r => length r = nv) (add_table t new) /\
  forall i j, (i < length new)%nat -> (j < nv)%nat -> entry (add_table t new) i j = entry t i j + entry new i j.
Proof.
  intros T N. revert t T. induction N as [|r new Lr N IH]; intros t T LE.
  - unfold add_table. replace (combine t []) with (@nil (list R * list R)) by (destruct t; reflexivity). cbn. split; [reflexivity|]. split; [exact T|]. intros; lia.
  - destruct t as [|x t]; [cbn in LE; lia|]. inversion T; subst. cbn [length] in LE. destruct (IH t ltac:(assumption) ltac:(lia)) as [A [B C]].
    change (add_table (x :: t) (r :: new)) with (add_row x r :: add_table t new). split; [cbn [length]; lia|]. split.
    + constructor; [|exact B]. unfold add_row. rewrite map_length, combine_length. lia.
    + intros [|i] j I J.
      * unfold entry. cbn [nth]. apply add_row_nth; lia.
      * unfold entry in *. cbn [nth]. apply C; [cbn [length] in I; lia | exact J].
Qed.
Definition col_sum (vars : list R) (cs : list schain) (ixs : list (list nat)) (i j : nat) : R :=
  sumR (map (fun p => autocov (picked (nth j (sc_diffs (fst p)) []) (snd p)) (S i) / nth j vars 0) (combine cs ixs)).
Lemma loop_ok thin vars cs : forall m t K T, Forall (fun r => length r = length vars) t -> (m <= length t)%nat -> chains_loop thin vars cs m t = Ok (K, T) ->
  exists ixs, Forall2 (fun c ix => thinned (sc_ws c) thin = Ok ix) cs ixs /\ K = fold_left Nat.min (map (fun ix => (length ix / thin)%nat) ixs) m /\ length T = length t /\ (K <= m)%nat /\ Forall (fun r => length r = length vars) T /\
    forall i j, (i < K)%nat -> (j < length vars)%nat -> entry T i j = entry t i j + col_sum vars cs ixs i j.
Proof.
  induction cs as [|c cs IH]; intros m t K T LT M H; cbn [chains_loop] in H.
  - apply Ok_eq in H. assert (K = m /\ T = t) as [-> ->] by (split; congruence). exists []. split; [constructor|]. split; [reflexivity|]. split; [reflexivity|]. split; [lia|]. split; [exact LT|].
    intros i j _ _. unfold col_sum. cbn. ring.
  - destruct (thinned (sc_ws c) thin) as [ix|] eqn:E; [|discriminate]. cbn [bindR] in H. cbv zeta in H.
    destruct (chain_table c ix vars (Nat.min m (length ix / thin))) as [new|] eqn:N; [|discriminate]. cbn [bindR] in H.
    destruct (chain_table_ok _ _ _ _ _ N) as [LN [FN EN]].
    destruct (add_table_spec (length vars) t new LT FN ltac:(lia)) as [AL [AF AE]].
    assert (LE : (Nat.min m (length ix / thin) <= length (add_table t new))%nat) by lia. destruct (IH _ _ K T AF LE H) as [ixs [X1 [X2 [X3 [X4 [X6 X5]]]]]]. exists (ix :: ixs). split; [constructor; assumption|]. split; [exact X2|].
    split; [lia|]. split; [lia|]. split; [exact X6|]. intros i j I J. rewrite X5, AE, EN by lia. unfold col_sum. cbn [combine map sumR fold_right fst snd]. unfold sumR. ring.
Qed.
(** as many distances as all chains allow, and at each the mean over chains of the covariance of the thinned steps at this distance, in units of the variance *)
Theorem C144_steps : forall clt ithin nmax ws cs vars heads T, corr_steps clt ithin nmax ws cs vars = Ok (Some (heads, T)) ->
  let thin := autocorr_thin clt ithin in
  exists ix ixs, thinned ws thin = Ok ix /\ Forall2 (fun c i => thinned (sc_ws c) thin = Ok i) cs ixs /\
    let K := fold_left Nat.min (map (fun i => (length i / thin)%nat) ixs) (Nat.min nmax (length ix / (2 * length cs))) in
    heads = map (fun i => (S i * thin)%nat) (seq 0 K) /\ length T = K /\
    forall i j, (i < K)%nat -> (j < length vars)%nat -> nth j (nth i T []) 0 = col_sum vars cs ixs i j / INR (length cs).
Proof.
  intros clt ithin nmax ws cs vars heads T H. cbv zeta. unfold corr_steps in H. cbv zeta in H. set (thin := autocorr_thin clt ithin) in *.
  destruct (thinned ws thin) as [ix|] eqn:E; [|discriminate]. cbn [bindR] in H. set (m := Nat.min nmax (length ix / (2 * length cs))) in *.
  destruct (Nat.eqb_spec m 0) as [|M]; [discriminate|].
  destruct (chains_loop thin vars cs m (repeat (repeat 0 (length vars)) m)) as [[K t]|] eqn:Q; [|discriminate]. cbn [bindR] in H.
  assert (HH : heads = map (fun i => ((i + 1) * thin)%nat) (seq 0 K) /\ T = firstn K (map (map (fun x => x / INR (length cs))) t)) by (split; congruence).
  destruct HH as [-> ->].
  assert (FR : Forall (fun r => length r = length vars) (repeat (repeat 0 (length vars)) m)) by (apply Forall_forall; intros r R; apply repeat_spec in R; subst; apply repeat_length).
  destruct (loop_ok thin vars cs m _ K t FR ltac:(rewrite repeat_length; lia) Q) as [ixs [X1 [X2 [X3 [X4 [X6 X5]]]]]]. rewrite repeat_length in X3.
  exists ix, ixs. split; [reflexivity|]. split; [exact X1|]. fold m. rewrite <- X2. split; [apply map_ext; intros; f_equal; lia|].
  split; [rewrite firstn_length, map_length; lia|]. intros i j I J.
  assert (G : forall (l : list (list R)) n i, (i < n)%nat -> nth i (firstn n l) [] = nth i l []) by (induction l as [|y l IH]; intros [|n] [|k] L; cbn; try reflexivity; try lia; apply IH; lia).
  rewrite G by exact I. change [] with (map (fun x => x / INR (length cs)) []). rewrite map_nth.
  assert (LJ : length (nth i t []) = length vars) by (apply (proj1 (Forall_forall _ _) X6); apply nth_In; lia).
  rewrite (nth_map0 _ _ j 0) by lia. f_equal. change (nth j (nth i t []) 0) with (entry t i j). rewrite X5 by assumption.
  unfold entry. assert (Z : nth j (nth i (repeat (repeat 0 (length vars)) m) []) 0 = 0); [|rewrite Z; ring].
  assert (RP : forall (x : list R) n k, (k < n)%nat -> nth k (repeat x n) [] = x) by (induction n as [|n IH]; intros [|k] L; cbn; try reflexivity; try lia; apply IH; lia).
  rewrite RP by lia. apply nth_repeat.
Qed.
Print Assumptions C144_steps.
(** with every second step or less kept, there is always a table *)
Lemma loop_defined thin vars cs : (2 <= thin)%nat -> Forall (fun v => v <> 0) vars -> Forall (fun c => exists ix, thinned (sc_ws c) thin = Ok ix) cs -> forall m t, exists p, chains_loop thin vars cs m t = Ok p.
Proof.
  intros TH V. induction 1 as [|c cs [ix E] F IH]; intros m t; cbn [chains_loop]; [eauto|]. rewrite E. cbn [bindR]. cbv zeta.
  destruct (mapR_total (fun off => mapR (fun j => lag_term (thinned_diff c j ix) off (nth j vars 0)) (seq 0 (length vars))) (seq 1 (Nat.min m (length ix / thin)))) as [new N].
  - intros off O. apply in_seq in O. apply mapR_total. intros j J. apply in_seq in J. unfold lag_term, thinned_diff. cbv zeta. rewrite map_length.
    assert (D : (length ix / thin <= length ix / 2)%nat) by (apply Nat.div_le_compat_l; lia).
    assert (D2 : (length ix / 2 < length ix)%nat) by (apply Nat.div_lt; [|lia]; destruct (length ix); [cbn in *; lia | lia]).
    destruct (Nat.leb_spec (length ix) off); [lia|]. unfold rdivE. destruct (Req_EM_T (INR (length ix - off)) 0) as [Z|_]; [change 0 with (INR 0) in Z; apply INR_eq in Z; lia|].
    cbn [bindR]. assert (NV : nth j vars 0 <> 0) by (apply (proj1 (Forall_forall _ _) V); apply nth_In; lia). destruct (Req_EM_T (nth j vars 0) 0); [contradiction | eauto].
  - unfold chain_table. rewrite N. cbn [bindR]. apply IH.
Qed.
Theorem C144_steps_defined : forall clt ithin nmax ws cs vars ix, clt <> 1%nat -> Forall (fun v => v <> 0) vars ->
  let thin := autocorr_thin clt ithin in thinned ws thin = Ok ix -> Forall (fun c => exists ix, thinned (sc_ws c) thin = Ok ix) cs ->
  exists r, corr_steps clt ithin nmax ws cs vars = Ok r.
Proof.
  intros clt ithin nmax ws cs vars ix C V. cbv zeta. intros E F. unfold corr_steps. cbv zeta. rewrite E. cbn [bindR]. destruct (Nat.eqb _ 0); [eauto|].
  assert (T : (2 <= autocorr_thin clt ithin)%nat).
  { unfold autocorr_thin. destruct (Nat.eqb_spec clt 0); cbn [negb]; [|lia]. destruct (Nat.eqb_spec ithin 0); [lia|]. destruct (Nat.leb_spec ithin 30); [lia|].
    apply Nat.div_le_lower_bound; lia. }
  destruct (loop_defined _ vars cs T V F (Nat.min nmax (length ix / (2 * length cs))) (repeat (repeat 0 (length vars)) (Nat.min nmax (length ix / (2 * length cs))))) as [[K t] ->]. cbn [bindR]. eauto.
Qed.
Print Assumptions C144_steps_defined.
(** FINDING: with all steps kept, a chain that is not longer than the largest distance gives 0 / 0 *)
Lemma loop_fails vars cs : (1 <= length vars)%nat -> Forall (fun c => exists ix, thinned (sc_ws c) 1 = Ok ix /\ (1 <= length ix)%nat) cs -> forall m t c ix, In c cs -> thinned (sc_ws c) 1 = Ok ix -> (length ix <= m)%nat ->
  chains_loop 1 vars cs m t = Err NotFinite.
Proof.
  intros NV. induction 1 as [|c0 cs [ix0 [E0 L0]] F IH]; intros m t c ix I E L; [contradiction|]. cbn [chains_loop]. rewrite E0. cbn [bindR]. cbv zeta. rewrite Nat.div_1_r.
  destruct (le_lt_dec (length ix0) m) as [S|S].
  - rewrite Nat.min_r by exact S. unfold chain_table. rewrite (mapR_fails _ _ NotFinite (length ix0)); [reflexivity | | apply in_seq; lia |].
    + intros off z. apply mapR_err. intros j w. apply lag_term_err.
    + apply (mapR_fails _ _ NotFinite 0%nat); [intros j w; apply lag_term_err | apply in_seq; lia|]. unfold lag_term, thinned_diff. cbv zeta. rewrite map_length.
      destruct (Nat.leb_spec (length ix0) (length ix0)); [reflexivity | lia].
  - rewrite Nat.min_l by lia. destruct (chain_table c0 ix0 vars m) as [new|e] eqn:N; cbn [bindR]; [|rewrite (chain_table_err _ _ _ _ _ N); reflexivity].
    destruct I as [-> | I]; [assert (ix = ix0) by congruence; subst; lia|]. exact (IH m (add_table t new) c ix I E L).
Qed.
Theorem C144_steps_refuted : forall ithin nmax ws cs vars all c ix, (1 <= length vars)%nat -> thinned ws 1 = Ok all ->
  Forall (fun c => exists ix, thinned (sc_ws c) 1 = Ok ix /\ (1 <= length ix)%nat) cs -> In c cs -> thinned (sc_ws c) 1 = Ok ix ->
  (length ix <= Nat.min nmax (length all / (2 * length cs)))%nat -> corr_steps 1 ithin nmax ws cs vars = Err NotFinite.
Proof.
  intros ithin nmax ws cs vars all c ix NV E F I EI L. unfold corr_steps. cbv zeta. change (autocorr_thin 1 ithin) with 1%nat. rewrite E. cbn [bindR].
  destruct (proj1 (Forall_forall _ _) F c I) as [ix' [E' L']]. assert (ix' = ix) by congruence. subst ix'.
  destruct (Nat.eqb_spec (Nat.min nmax (length all / (2 * length cs))) 0) as [|_]; [lia|].
  rewrite (loop_fails vars cs NV F _ _ c ix I EI L). reflexivity.
Qed.
Print Assumptions C144_steps_refuted.
Example C144_steps_refuted_ex : thinned [1; 1; 1; 1; 1; 1; 1; 1; 1]%nat 1 = Ok (seq 0 9) /\ thinned [1]%nat 1 = Ok [0%nat] /\ (1 <= Nat.min 15 (9 / (2 * 2)))%nat.
Proof. split; [vm_compute; reflexivity|]. split; [vm_compute; reflexivity|]. cbn. lia. Qed.
Example C144_steps_ex : thinned [3; 3; 3; 3]%nat 2 = Ok [0; 1; 1; 2; 3; 3]%nat /\ autocorr_thin 2 0 = 2%nat /\ autocorr_thin 0 90 = 15%nat.
Proof. split; [vm_compute; reflexivity|]. split; reflexivity. Qed.
