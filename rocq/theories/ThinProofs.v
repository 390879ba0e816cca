(** Proofs about thinning. *)
From Verif Require Import PyStr PyBase ThinModel ThinSpec.
From Coq Require Import QArith Qabs Sorted Permutation.
Local Open Scope nat_scope.

(** Walk along the unit-weight chain, keeping a row whenever [f] units have been passed. *)
Fixpoint picks (f tot : nat) (l : list nat) : list nat :=
  match l with
  | [] => []
  | x :: l' => if S tot =? f then x :: picks f 0 l' else picks f (S tot) l'
  end.

Fixpoint units_from (i : nat) (ns : list nat) : list nat :=
  match ns with [] => [] | w :: ns' => repeat i w ++ units_from (S i) ns' end.

Lemma units_from_eq ns : forall i,
  units_from i ns = concat (map (fun p => repeat (fst p) (snd p)) (combine (seq i (length ns)) ns)).
Proof. induction ns as [|w ns IH]; intros i; cbn; [reflexivity|]. rewrite IH. reflexivity. Qed.

Lemma units_eq ns : units ns = units_from 0 ns.
Proof. symmetry. apply units_from_eq. Qed.

Lemma units_from_length ns : forall i, length (units_from i ns) = list_sum ns.
Proof. induction ns as [|w ns IH]; intros i; cbn; [reflexivity|]. now rewrite app_length, repeat_length, IH. Qed.

Lemma picks_short f : forall l tot, tot + length l < f -> picks f tot l = [].
Proof.
  induction l as [|x l IH]; intros tot H; cbn [picks length] in *; [reflexivity|].
  destruct (S tot =? f) eqn:E; [apply Nat.eqb_eq in E; lia|]. apply IH. lia.
Qed.

Lemma picks_app_short f : forall l1 l2 tot, tot + length l1 < f ->
  picks f tot (l1 ++ l2) = picks f (tot + length l1) l2.
Proof.
  induction l1 as [|x l IH]; intros l2 tot H; cbn [picks length app] in *; [f_equal; lia|].
  destruct (S tot =? f) eqn:E; [apply Nat.eqb_eq in E; lia|]. rewrite IH by lia. f_equal. lia.
Qed.

Lemma picks_one f i : forall m tot l, tot < f -> f <= m + tot ->
  picks f tot (repeat i m ++ l) = i :: picks f 0 (repeat i (m - (f - tot)) ++ l).
Proof.
  induction m as [|m IH]; intros tot l H1 H2; [lia|]. cbn [repeat app picks].
  destruct (S tot =? f) eqn:E.
  - apply Nat.eqb_eq in E. do 2 f_equal. f_equal. f_equal. lia.
  - apply Nat.eqb_neq in E. rewrite IH by lia. do 4 f_equal. lia.
Qed.

Lemma picks_app f : 0 < f -> forall l1 l2 tot, tot < f ->
  picks f tot (l1 ++ l2) = picks f tot l1 ++ picks f ((tot + length l1) mod f) l2.
Proof.
  intros Hf. induction l1 as [|x l IH]; intros l2 tot H; cbn [app picks length].
  - rewrite Nat.add_0_r, Nat.mod_small by lia. reflexivity.
  - destruct (S tot =? f) eqn:E.
    + apply Nat.eqb_eq in E. rewrite IH by lia. cbn. f_equal. f_equal. f_equal.
      replace (tot + S (length l)) with (length l + 1 * f) by lia.
      rewrite Nat.mod_add by lia. reflexivity.
    + apply Nat.eqb_neq in E. rewrite IH by lia. f_equal. f_equal. f_equal. lia.
Qed.

Lemma picks_repeat f i : 0 < f -> forall w tot, tot < f -> picks f tot (repeat i w) = repeat i ((tot + w) / f).
Proof.
  intros Hf. induction w as [|w IH]; intros tot H; cbn [repeat picks].
  - rewrite Nat.add_0_r, Nat.div_small by lia. reflexivity.
  - destruct (S tot =? f) eqn:E.
    + apply Nat.eqb_eq in E. rewrite IH by lia.
      replace (tot + S w) with (w + 1 * f) by lia. rewrite Nat.div_add by lia.
      replace (w / f + 1) with (S (w / f)) by lia. reflexivity.
    + apply Nat.eqb_neq in E. rewrite IH by lia. do 2 f_equal. lia.
Qed.

Lemma picks_length f : 0 < f -> forall l tot, tot < f -> length (picks f tot l) = (tot + length l) / f.
Proof.
  intros Hf. induction l as [|x l IH]; intros tot H; cbn [picks length].
  - rewrite Nat.div_small by lia. reflexivity.
  - destruct (S tot =? f) eqn:E.
    + apply Nat.eqb_eq in E. cbn. rewrite IH by lia.
      replace (tot + S (length l)) with (length l + 1 * f) by lia. rewrite Nat.div_add by lia. cbn. lia.
    + apply Nat.eqb_neq in E. rewrite IH by lia. f_equal. lia.
Qed.

Lemma picks_nth f : 0 < f -> forall l tot k d, tot < f -> k < (tot + length l) / f ->
  nth k (picks f tot l) d = nth (k * f + (f - 1 - tot)) l d.
Proof.
  intros Hf. induction l as [|x l IH]; intros tot k d H Hk; cbn [picks length] in *.
  - rewrite Nat.div_small in Hk by lia. lia.
  - destruct (S tot =? f) eqn:E.
    + apply Nat.eqb_eq in E. replace (tot + S (length l)) with (length l + 1 * f) in Hk by lia.
      rewrite Nat.div_add in Hk by lia.
      destruct k as [|k]; cbn [nth].
      * replace (0 * f + (f - 1 - tot)) with 0 by lia. reflexivity.
      * rewrite IH by (cbn; lia). replace (S k * f + (f - 1 - tot)) with (S (k * f + (f - 1 - 0))) by (cbn; lia). reflexivity.
    + apply Nat.eqb_neq in E. rewrite IH; [|lia|replace (S tot + length l) with (tot + S (length l)) by lia; exact Hk].
      replace (k * f + (f - 1 - tot)) with (S (k * f + (f - 1 - S tot))) by lia. reflexivity.
Qed.

Lemma picks_every_kth f l : 0 < f -> picks f 0 l = every_kth f l.
Proof.
  intros Hf. unfold every_kth. apply nth_ext with (d := 0) (d' := 0).
  - rewrite map_length, seq_length, picks_length by lia. reflexivity.
  - intros k Hk. rewrite picks_length in Hk by lia. cbn in Hk.
    rewrite picks_nth by (cbn; lia).
    rewrite nth_indep with (d' := (fun k => nth (k * f + (f - 1)) l 0) 0) (n := k) (l := map _ _)
      by (rewrite map_length, seq_length; lia).
    rewrite map_nth with (f := fun k => nth (k * f + (f - 1)) l 0). rewrite seq_nth by lia. cbn.
    f_equal. lia.
Qed.

(** the loop *)
Lemma skipn_nth {A} (l : list A) : forall i d, i < length l -> skipn i l = nth i l d :: skipn (S i) l.
Proof.
  induction l as [|x l IH]; intros [|i] d H; cbn in *; try lia; [reflexivity|]. apply IH. lia.
Qed.

Lemma nth_of_nat i : forall ns, nth i (map Z.of_nat ns) 0%Z = Z.of_nat (nth i ns 0).
Proof. intros ns. change 0%Z with (Z.of_nat 0). apply map_nth. Qed.

Lemma thin_loop_picks f ns : 0 < f -> forall fuel i mult tot out size,
  tot < f ->
  (if i <? length ns then True else mult = 0) ->
  let stream := repeat i mult ++ units_from (S i) (skipn (S i) ns) in
  length ns - i + length (picks f tot stream) < fuel ->
  size = Z.of_nat (length out + length (picks f tot stream)) ->
  forall multz, (i < length ns -> multz = Z.of_nat mult) ->
  thin_loop fuel (map Z.of_nat ns) (Z.of_nat f) size i multz (Z.of_nat tot) out
  = Ok (out ++ picks f tot stream).
Proof.
  intros Hf. induction fuel as [|fuel IH]; intros i mult tot out size Ht Hi stream Hfuel Hsize multz Hm; [lia|].
  cbn [thin_loop]. rewrite map_length.
  destruct (i <? length ns) eqn:Ei.
  2:{ subst mult. apply Nat.ltb_ge in Ei. unfold stream. cbn [repeat app].
      rewrite skipn_all2 by lia. cbn. now rewrite app_nil_r. }
  apply Nat.ltb_lt in Ei. specialize (Hm Ei). subst multz.
  assert (Estep : forall tot', tot' < f ->
     units_from (S i) (skipn (S i) ns) =
       repeat (S i) (if S i <? length ns then nth (S i) ns 0 else 0) ++ units_from (S (S i)) (skipn (S (S i)) ns)).
  { intros tot' _. destruct (S i <? length ns) eqn:E.
    - apply Nat.ltb_lt in E. rewrite (skipn_nth ns (S i) 0) by lia. reflexivity.
    - apply Nat.ltb_ge in E. rewrite !skipn_all2 by lia. reflexivity. }
  assert (Hmz : forall m0, S i < length ns ->
     (if S i <? length ns then nth (S i) (map Z.of_nat ns) 0%Z else m0)
     = Z.of_nat (if S i <? length ns then nth (S i) ns 0 else 0)).
  { intros m0 H. assert (E : (S i <? length ns) = true) by now apply Nat.ltb_lt. rewrite E. apply nth_of_nat. }
  assert (Hz : forall mm, if S i <? length ns then True else (if S i <? length ns then mm else 0) = 0).
  { intros mm. destruct (S i <? length ns); auto. }
  destruct (Z.of_nat mult + Z.of_nat tot <? Z.of_nat f)%Z eqn:E1.
  - apply Z.ltb_lt in E1.
    assert (Ep : picks f tot stream = picks f (tot + mult) (units_from (S i) (skipn (S i) ns))).
    { unfold stream. rewrite picks_app_short by (rewrite repeat_length; lia). now rewrite repeat_length. }
    rewrite Ep in Hfuel, Hsize |- *. rewrite (Estep 0) in Hfuel, Hsize |- * by lia.
    rewrite <- Nat2Z.inj_add. apply IH; auto; try lia; try apply Hz.
  - apply Z.ltb_ge in E1.
    assert (Ep : picks f tot stream =
       i :: picks f 0 (repeat i (mult - (f - tot)) ++ units_from (S i) (skipn (S i) ns))).
    { unfold stream. apply picks_one; lia. }
    rewrite Ep in Hfuel, Hsize |- *. cbn [length] in Hfuel, Hsize.
    assert (Hlt : (Z.of_nat (length out) <? size)%Z = true) by (apply Z.ltb_lt; lia). rewrite Hlt.
    destruct (Z.of_nat mult =? Z.of_nat f - Z.of_nat tot)%Z eqn:E2.
    + apply Z.eqb_eq in E2. assert (E3 : mult - (f - tot) = 0) by lia. rewrite E3 in *. cbn [repeat app] in *.
      rewrite (Estep 0) in Hfuel, Hsize |- * by lia.
      rewrite (IH (S i) (if S i <? length ns then nth (S i) ns 0 else 0) 0); auto; try lia; try apply Hz.
      * now rewrite <- app_assoc.
      * rewrite app_length. cbn [length]. lia.
    + rewrite (IH i (mult - (f - tot)) 0); auto; try lia.
      * now rewrite <- app_assoc.
      * apply Nat.ltb_lt in Ei. now rewrite Ei.
      * rewrite app_length. cbn [length]. lia.
Qed.

(** the other branch *)
Fixpoint changes (i : nat) (prev : Z) (l : list Z) : list nat :=
  match l with
  | [] => []
  | y :: l' => if (y =? prev)%Z then changes (S i) prev l' else i :: changes (S i) y l'
  end.

Lemma changes_shift l : forall i prev, changes (S i) prev l = map S (changes i prev l).
Proof.
  induction l as [|y l IH]; intros i prev; cbn; [reflexivity|].
  destruct (y =? prev)%Z; rewrite IH; reflexivity.
Qed.

Lemma ins_low x l : (forall y, In y l -> x < y)%Z -> ins x l = x :: l.
Proof.
  destruct l as [|y l]; cbn; intros H; [reflexivity|].
  assert (E : (x <? y)%Z = true) by (apply Z.ltb_lt; apply H; auto). now rewrite E.
Qed.
Lemma ins_In x l y : In y (ins x l) <-> y = x \/ In y l.
Proof.
  induction l as [|z l IH]; cbn.
  - intuition congruence.
  - destruct (x <? z)%Z eqn:E1; cbn; [intuition congruence|].
    destruct (x =? z)%Z eqn:E2; cbn.
    + apply Z.eqb_eq in E2. subst. intuition congruence.
    + rewrite IH. intuition congruence.
Qed.
Lemma np_unique_In l y : In y (np_unique l) <-> In y l.
Proof.
  induction l as [|x l IH]; cbn; [reflexivity|]. rewrite ins_In, IH. intuition congruence.
Qed.
Lemma ins_sorted x l : StronglySorted Z.lt l -> StronglySorted Z.lt (ins x l).
Proof.
  induction 1 as [|y l H IH Hf]; cbn; [repeat constructor|].
  destruct (x <? y)%Z eqn:E1.
  - apply Z.ltb_lt in E1. constructor; [constructor; auto|]. constructor; [exact E1|].
    rewrite Forall_forall in *. intros z Hz. specialize (Hf z Hz). lia.
  - apply Z.ltb_ge in E1. destruct (x =? y)%Z eqn:E2.
    + constructor; auto.
    + apply Z.eqb_neq in E2. constructor; [exact IH|]. rewrite Forall_forall in *. intros z Hz.
      apply ins_In in Hz. destruct Hz as [->|Hz]; [lia|auto].
Qed.
Lemma np_unique_sorted l : StronglySorted Z.lt (np_unique l).
Proof. induction l; cbn; [constructor|now apply ins_sorted]. Qed.

Lemma unique_index_changes l : forall x, StronglySorted Z.le (x :: l) ->
  unique_index (x :: l) = 0 :: changes 1 x l.
Proof.
  induction l as [|y l IH]; intros x H.
  - unfold unique_index. cbn. now rewrite Z.eqb_refl.
  - inversion H as [|? ? Hs Hx]; subst. specialize (IH y Hs). rewrite changes_shift.
    cbn [changes]. rewrite changes_shift.
    unfold unique_index in *.
    assert (Hhd : exists t, np_unique (y :: l) = y :: t /\ (forall z, In z t -> (y < z)%Z)).
    { pose proof (np_unique_sorted (y :: l)) as Hsrt.
      destruct (np_unique (y :: l)) as [|z t] eqn:En.
      - assert (Hin : In y (np_unique (y :: l))) by (apply np_unique_In; cbn; auto). rewrite En in Hin. destruct Hin.
      - inversion Hsrt as [|? ? ? Hf]; subst. rewrite Forall_forall in Hf.
        assert (Hin : In y (np_unique (y :: l))) by (apply np_unique_In; cbn; auto).
        assert (Hz : In z (y :: l)) by (apply np_unique_In; rewrite En; cbn; auto).
        assert (y <= z)%Z.
        { inversion Hs as [|? ? ? Hf']; subst. rewrite Forall_forall in Hf'.
          destruct Hz as [->|Hz]; [lia|auto]. }
        rewrite En in Hin. destruct Hin as [->|Hin]; [|specialize (Hf _ Hin); lia].
        exists t. split; [reflexivity|exact Hf]. }
    destruct Hhd as [t [Ht Hlt]].
    change (np_unique (x :: y :: l)) with (ins x (np_unique (y :: l))). rewrite Ht in *.
    assert (Hxy : (x <= y)%Z) by (inversion Hx; auto).
    cbn [map first_ix] in IH. rewrite Z.eqb_refl in IH. injection IH as IH.
    assert (Hmap : forall s, (forall z, In z s -> (x < z)%Z) ->
       map (fun v => first_ix v (x :: y :: l)) s = map S (map (fun v => first_ix v (y :: l)) s)).
    { intros s Hs'. rewrite map_map. apply map_ext_in. intros z Hz.
      cbn [first_ix]. destruct (z =? x)%Z eqn:E; [|reflexivity].
      apply Z.eqb_eq in E. specialize (Hs' z Hz). lia. }
    destruct (y =? x)%Z eqn:E.
    + apply Z.eqb_eq in E. subst y.
      cbn [ins]. rewrite Z.ltb_irrefl, Z.eqb_refl. cbn [map]. rewrite Hmap by auto.
      cbn [first_ix]. rewrite Z.eqb_refl. f_equal. f_equal.
      rewrite <- changes_shift. exact IH.
    + apply Z.eqb_neq in E.
      rewrite ins_low by (intros z [<-|Hz]; [lia|specialize (Hlt z Hz); lia]).
      cbn [map]. rewrite Hmap by (intros z Hz; specialize (Hlt z Hz); lia).
      cbn [first_ix]. rewrite !Z.eqb_refl.
      assert (E' : (y =? x)%Z = false) by (apply Z.eqb_neq; auto). rewrite E'.
      do 2 f_equal. f_equal. exact IH.
Qed.

Lemma changes_picks f ns : 0 < f -> Forall (fun w => w <= f) ns -> forall i c,
  changes i (Z.of_nat c / Z.of_nat f) (map (fun z => z / Z.of_nat f)%Z (cumsum_from (Z.of_nat c) (map Z.of_nat ns)))
  = picks f (c mod f) (units_from i ns).
Proof.
  intros Hf. induction 1 as [|w ns Hw _ IH]; intros i c; cbn [map cumsum_from changes units_from]; [reflexivity|].
  rewrite <- Nat2Z.inj_add, <- !Nat2Z.inj_div.
  rewrite picks_app by (auto; apply Nat.mod_upper_bound; lia).
  rewrite picks_repeat by (auto; apply Nat.mod_upper_bound; lia). rewrite repeat_length.
  rewrite Nat.add_mod_idemp_l by lia. rewrite <- IH. rewrite Nat2Z.inj_div.
  assert (Hb : c mod f < f) by (apply Nat.mod_upper_bound; lia).
  pose proof (Nat.div_mod c f ltac:(lia)) as Hdm.
  assert (Hsum : (c + w) / f = c / f + (c mod f + w) / f).
  { rewrite Hdm at 1. rewrite (Nat.mul_comm f), <- Nat.add_assoc, Nat.div_add_l by lia. reflexivity. }
  assert (Hle : (c mod f + w) / f <= 1).
  { apply Nat.lt_succ_r. apply Nat.div_lt_upper_bound; lia. }
  rewrite <- Nat2Z.inj_div, Hsum.
  destruct (Z.of_nat (c / f + (c mod f + w) / f) =? Z.of_nat (c / f))%Z eqn:E.
  - apply Z.eqb_eq in E. assert (E0 : (c mod f + w) / f = 0) by lia. rewrite E0. cbn.
    rewrite Nat.add_0_r. reflexivity.
  - apply Z.eqb_neq in E. assert (E0 : (c mod f + w) / f = 1) by lia. rewrite E0. reflexivity.
Qed.

Lemma cumsum_sorted f ns : (0 < f)%Z -> forall c,
  StronglySorted Z.le (map (fun z => z / f)%Z (cumsum_from c (map Z.of_nat ns))) /\
  Forall (fun q => (c / f <= q)%Z) (map (fun z => z / f)%Z (cumsum_from c (map Z.of_nat ns))).
Proof.
  intros Hf. induction ns as [|w ns IH]; intros c; cbn; [split; constructor|].
  destruct (IH (c + Z.of_nat w)%Z) as [I1 I2].
  assert (Hc : (c / f <= (c + Z.of_nat w) / f)%Z) by (apply Z.div_le_mono; lia).
  split; constructor; auto. eapply Forall_impl; [|exact I2]. intros q Hq. cbn in Hq. lia.
Qed.

(** max *)
Lemma maxZ_spec l : forall x y, (maxZ x l <= y)%Z <-> (x <= y)%Z /\ Forall (fun w => (w <= y)%Z) l.
Proof.
  induction l as [|w l IH]; intros x y; cbn.
  - intuition.
  - unfold maxZ in *. cbn. rewrite IH. rewrite Z.max_lub_iff. split.
    + intros [[H1 H2] H3]. auto.
    + intros [H1 H2]. inversion H2; subst. auto.
Qed.

Lemma trunc_qn n : trunc (qn n) = Z.of_nat n.
Proof. unfold trunc, qn. cbn. apply Z.quot_1_r. Qed.

Lemma sumZ_nat ns : sumZ (map Z.of_nat ns) = Z.of_nat (list_sum ns).
Proof.
  induction ns as [|n ns IH]; [reflexivity|].
  change (sumZ (map Z.of_nat (n :: ns))) with (Z.of_nat n + sumZ (map Z.of_nat ns))%Z.
  change (list_sum (n :: ns)) with (n + list_sum ns). rewrite IH. lia.
Qed.

Lemma sumQ_nat ns : (sumQ (map qn ns) == inject_Z (Z.of_nat (list_sum ns)))%Q.
Proof.
  induction ns as [|n ns IH]; [reflexivity|].
  change (sumQ (map qn (n :: ns))) with (qn n + sumQ (map qn ns))%Q.
  change (list_sum (n :: ns)) with (n + list_sum ns). rewrite IH. unfold qn.
  rewrite <- inject_Z_plus. rewrite Nat2Z.inj_add. reflexivity.
Qed.

Lemma guard ns : Qle_bool (Qabs (inject_Z (sumZ (map trunc (map qn ns))) - sumQ (map qn ns))) (1 # 10000) = true.
Proof.
  apply Qle_bool_iff. rewrite map_map, (map_ext _ Z.of_nat trunc_qn), sumZ_nat. pose proof (sumQ_nat ns) as Hq. rewrite Hq.
  setoid_replace (inject_Z (Z.of_nat (list_sum ns)) - inject_Z (Z.of_nat (list_sum ns)))%Q with 0%Q by ring.
  discriminate.
Qed.

Lemma thin_int f ns : 0 < f -> ns <> [] ->
  thin_indices_single_samples (qn f) (map qn ns) =
    Ok ((if existsb (fun w => f <? w) ns then [] else if nth 0 ns 0 <? f then [0] else [])
        ++ every_kth f (units ns)).
Proof.
  intros Hf Hne. unfold thin_indices_single_samples. cbv zeta. rewrite guard. cbn [negb].
  rewrite trunc_qn. assert (Eq : Qeq_bool (qn f) (inject_Z (Z.of_nat f)) = true) by (apply Qeq_bool_iff; reflexivity).
  rewrite Eq. cbn [negb]. rewrite map_map, (map_ext _ Z.of_nat trunc_qn).
  rewrite <- picks_every_kth, units_eq by auto.
  destruct ns as [|w0 ns]; [congruence|]. cbn [map].
  destruct (maxZ (Z.of_nat w0) (map Z.of_nat ns) <=? Z.of_nat f)%Z eqn:E.
  - apply Z.leb_le in E. apply maxZ_spec in E. destruct E as [E0 E1].
    assert (Hall : Forall (fun w => w <= f) ns).
    { rewrite Forall_forall in *. intros w Hw. specialize (E1 (Z.of_nat w) (in_map _ _ _ Hw)). lia. }
    assert (Hex : existsb (fun w => f <? w) (w0 :: ns) = false).
    { apply not_true_is_false. intros Ht. apply existsb_exists in Ht. destruct Ht as [w [Hw Hlt]].
      apply Nat.ltb_lt in Hlt. destruct Hw as [<-|Hw]; [lia|]. rewrite Forall_forall in Hall. specialize (Hall w Hw). lia. }
    rewrite Hex. f_equal. unfold cumsum. cbn [cumsum_from map].
    change (Z.of_nat w0 :: map Z.of_nat ns) with (map Z.of_nat (w0 :: ns)).
    pose proof (cumsum_sorted (Z.of_nat f) ns ltac:(lia) (0 + Z.of_nat w0)%Z) as [Hs Hfa].
    rewrite unique_index_changes.
    2:{ constructor; auto. }
    rewrite Z.add_0_l. rewrite changes_picks by auto. cbn [nth units_from].
    rewrite picks_app by lia. rewrite picks_repeat by lia. rewrite repeat_length. cbn [Nat.add].
    destruct (w0 <? f) eqn:Ew.
    + apply Nat.ltb_lt in Ew. rewrite (Nat.div_small w0) by lia. reflexivity.
    + apply Nat.ltb_ge in Ew. assert (w0 = f) by lia. subst w0. rewrite Nat.div_same by lia. reflexivity.
  - apply Z.leb_gt in E.
    assert (Hex : existsb (fun w => f <? w) (w0 :: ns) = true).
    { apply not_false_is_true. intros Hn. assert (maxZ (Z.of_nat w0) (map Z.of_nat ns) <= Z.of_nat f)%Z; [|lia].
      apply maxZ_spec. assert (Hall : forall w, In w (w0 :: ns) -> w <= f).
      { intros w Hw. destruct (f <? w) eqn:Ef; [|apply Nat.ltb_ge in Ef; auto].
        assert (existsb (fun w => f <? w) (w0 :: ns) = true) by (apply existsb_exists; eauto). congruence. }
      split; [specialize (Hall w0 (or_introl eq_refl)); lia|].
      apply Forall_forall. intros z Hz. apply in_map_iff in Hz. destruct Hz as [w [<- Hw]].
      specialize (Hall w (or_intror Hw)). lia. }
    rewrite Hex. cbn [app].
    change (Z.of_nat w0 :: map Z.of_nat ns) with (map Z.of_nat (w0 :: ns)).
    rewrite sumZ_nat, <- Nat2Z.inj_div.
    assert (Hn : (Z.of_nat (list_sum (w0 :: ns) / f) <? 0)%Z = false) by (apply Z.ltb_ge; lia). rewrite Hn.
    rewrite Nat2Z.id, map_length.
    assert (Hl : length (picks f 0 (repeat 0 w0 ++ units_from 1 (skipn 1 (w0 :: ns)))) = list_sum (w0 :: ns) / f).
    { rewrite picks_length by auto. f_equal. rewrite app_length, repeat_length, units_from_length. reflexivity. }
    change 0%Z with (Z.of_nat 0) at 1.
    rewrite (thin_loop_picks f (w0 :: ns) Hf _ 0 w0 0); auto.
    + cbn [app]. rewrite Hl, Z.eqb_refl. reflexivity.
    + exact I.
    + rewrite Hl. lia.
Qed.

(** how often a row is kept *)
Lemma count_repeat (i j : nat) n : count_occ Nat.eq_dec (repeat i n) j = if i =? j then n else 0.
Proof.
  induction n as [|n IH]; cbn; [now destruct (i =? j)|]. destruct (Nat.eq_dec i j) as [->|N].
  - rewrite IH, Nat.eqb_refl. reflexivity.
  - rewrite IH. assert (E : (i =? j) = false) by (apply Nat.eqb_neq; auto). now rewrite E.
Qed.

Lemma picks_In f : forall l tot x, In x (picks f tot l) -> In x l.
Proof.
  induction l as [|y l IH]; intros tot x H; cbn [picks] in *; [destruct H|].
  destruct (S tot =? f); [destruct H as [<-|H]|]; cbn; eauto.
Qed.

Lemma units_from_In ns : forall i x, In x (units_from i ns) -> i <= x < i + length ns.
Proof.
  induction ns as [|w ns IH]; intros i x H; cbn in *; [destruct H|].
  apply in_app_or in H. destruct H as [H|H].
  - apply repeat_spec in H. lia.
  - apply IH in H. lia.
Qed.

Lemma count_none (l : list nat) j : (forall x, In x l -> x <> j) -> count_occ Nat.eq_dec l j = 0.
Proof. intros H. apply count_occ_not_In. intros Hin. now apply (H j). Qed.

Lemma count_picks f ns : 0 < f -> forall i c j, j < length ns ->
  count_occ Nat.eq_dec (picks f (c mod f) (units_from i ns)) (i + j)
  = (c + list_sum (firstn (S j) ns)) / f - (c + list_sum (firstn j ns)) / f.
Proof.
  intros Hf. induction ns as [|w ns IH]; intros i c j Hj; cbn [length] in Hj; [lia|].
  cbn [units_from]. assert (Hb : c mod f < f) by (apply Nat.mod_upper_bound; lia).
  rewrite picks_app, picks_repeat, repeat_length by auto. rewrite count_occ_app, count_repeat.
  rewrite Nat.add_mod_idemp_l by lia.
  pose proof (Nat.div_mod c f ltac:(lia)) as Hdm.
  assert (Hsum : (c + w) / f = c / f + (c mod f + w) / f).
  { rewrite Hdm at 1. rewrite (Nat.mul_comm f), <- Nat.add_assoc, Nat.div_add_l by lia. reflexivity. }
  destruct j as [|j].
  - rewrite Nat.add_0_r, Nat.eqb_refl. rewrite count_none.
    + cbn. rewrite !Nat.add_0_r. lia.
    + intros x Hx. apply picks_In, units_from_In in Hx. lia.
  - assert (E : (i =? i + S j) = false) by (apply Nat.eqb_neq; lia). rewrite E.
    replace (i + S j) with (S i + j) by lia. rewrite IH by lia.
    change (list_sum (firstn (S j) (w :: ns))) with (w + list_sum (firstn j ns)).
    change (list_sum (firstn (S (S j)) (w :: ns))) with (w + list_sum (firstn (S j) ns)).
    rewrite !Nat.add_assoc. reflexivity.
Qed.

Lemma count_kept f ns i : 0 < f -> i < length ns ->
  count_occ Nat.eq_dec (every_kth f (units ns)) i = before ns (S i) / f - before ns i / f.
Proof.
  intros Hf Hi. rewrite <- picks_every_kth, units_eq by auto.
  assert (E0 : 0 = 0 mod f) by (symmetry; apply Nat.mod_small; lia). rewrite E0 at 1.
  exact (count_picks f ns Hf 0 0 i Hi).
Qed.

Lemma sorted_app (l1 l2 : list nat) : StronglySorted le l1 -> StronglySorted le l2 ->
  (forall x y, In x l1 -> In y l2 -> x <= y) -> StronglySorted le (l1 ++ l2).
Proof.
  induction 1 as [|a l H IH Hf]; cbn; intros H2 Hc; [exact H2|].
  constructor; [apply IH; auto|]. apply Forall_forall. intros y Hy. apply in_app_or in Hy.
  destruct Hy as [Hy|Hy]; [rewrite Forall_forall in Hf; auto|auto].
Qed.

Lemma units_from_sorted ns : forall i, StronglySorted le (units_from i ns).
Proof.
  induction ns as [|w ns IH]; intros i; cbn; [constructor|]. apply sorted_app; auto.
  - induction w as [|w IHw]; cbn; constructor; auto. apply Forall_forall. intros y Hy.
    apply repeat_spec in Hy. lia.
  - intros x y Hx Hy. apply repeat_spec in Hx. apply units_from_In in Hy. lia.
Qed.

Lemma picks_sorted f : forall l tot, StronglySorted le l -> StronglySorted le (picks f tot l).
Proof.
  induction l as [|y l IH]; intros tot H; cbn [picks]; [constructor|]. inversion H as [|? ? H1 H2]; subst.
  destruct (S tot =? f); auto. constructor; auto. apply Forall_forall. intros x Hx.
  apply picks_In in Hx. rewrite Forall_forall in H2. auto.
Qed.

Lemma kept_sorted f ns : 0 < f -> StronglySorted le (every_kth f (units ns)).
Proof. intros Hf. rewrite <- picks_every_kth, units_eq by auto. apply picks_sorted, units_from_sorted. Qed.

Lemma kept_range f ns i : 0 < f -> In i (every_kth f (units ns)) -> i < length ns.
Proof. intros Hf. rewrite <- picks_every_kth, units_eq by auto. intros H. apply picks_In, units_from_In in H. lia. Qed.

Lemma kept_length f ns : 0 < f -> length (every_kth f (units ns)) = list_sum ns / f.
Proof. intros Hf. rewrite <- picks_every_kth, units_eq by auto. rewrite picks_length by auto. now rewrite units_from_length. Qed.

Lemma kept_positive f ns i : 0 < f -> In i (every_kth f (units ns)) -> 0 < nth i ns 0.
Proof.
  intros Hf. rewrite <- picks_every_kth, units_eq by auto. intros H. apply picks_In in H.
  assert (G : forall ns i j, In j (units_from i ns) -> 0 < nth (j - i) ns 0).
  { clear. induction ns as [|w ns IH]; intros i j H; cbn in *; [destruct H|].
    apply in_app_or in H. destruct H as [H|H].
    - pose proof (repeat_spec _ _ _ H). subst. rewrite Nat.sub_diag. destruct w; [destruct H|lia].
    - pose proof (units_from_In _ _ _ H). destruct (j - i) as [|k] eqn:E; [lia|].
      specialize (IH _ _ H). replace (j - S i) with k in IH by lia. exact IH. }
  specialize (G ns 0 i H). now rewrite Nat.sub_0_r in G.
Qed.

(** accepted weights are nearly whole *)
Lemma trunc_nonneg q : (0 <= q)%Q -> (0 <= trunc q)%Z /\ (inject_Z (trunc q) <= q)%Q.
Proof.
  destruct q as [n d]. unfold trunc, Qle, inject_Z. cbn. rewrite !Z.mul_1_r. intros H.
  split; [apply Z.quot_pos; lia|]. rewrite Z.quot_div_nonneg by lia.
  rewrite Z.mul_comm. apply Z.mul_div_le. lia.
Qed.

Lemma sum_gap ws : Forall (fun w => 0 <= w)%Q ws ->
  (inject_Z (sumZ (map trunc ws)) <= sumQ ws)%Q /\
  (forall w, In w ws -> w - inject_Z (trunc w) <= sumQ ws - inject_Z (sumZ (map trunc ws)))%Q.
Proof.
  induction 1 as [|w ws Hw _ [IH1 IH2]]; [cbn; split; [discriminate|intros _ []]|].
  destruct (trunc_nonneg w Hw) as [_ Hle].
  change (sumZ (map trunc (w :: ws))) with (trunc w + sumZ (map trunc ws))%Z.
  change (sumQ (w :: ws)) with (w + sumQ ws)%Q. rewrite inject_Z_plus.
  set (a := inject_Z (trunc w)) in *. set (b := inject_Z (sumZ (map trunc ws))) in *.
  split; [apply Qplus_le_compat; auto|]. intros v [<-|Hv].
  - fold a. apply Qle_minus_iff. apply Qle_minus_iff in IH1.
    setoid_replace (w + sumQ ws - (a + b) + - (w - a))%Q with (sumQ ws + - b)%Q by ring. exact IH1.
  - specialize (IH2 v Hv). apply Qle_trans with (1 := IH2).
    apply Qle_minus_iff. apply Qle_minus_iff in Hle.
    setoid_replace (w + sumQ ws - (a + b) + - (sumQ ws - b))%Q with (w + - a)%Q by ring. exact Hle.
Qed.

Lemma thin_accepts factor ws out : Forall (fun w => 0 <= w)%Q ws ->
  thin_indices_single_samples factor ws = Ok out ->
  ws <> [] /\ (factor == inject_Z (trunc factor))%Q /\
  Forall (fun w => 0 <= w - inject_Z (trunc w) <= 1 # 10000)%Q ws.
Proof.
  intros Hn H. unfold thin_indices_single_samples in H. cbv zeta in H.
  destruct (Qle_bool _ _) eqn:E1; cbn [negb] in H; [|discriminate].
  destruct (Qeq_bool _ _) eqn:E2; cbn [negb] in H; [|discriminate].
  split; [intros ->; discriminate|]. split; [now apply Qeq_bool_iff|].
  apply Qle_bool_iff in E1. destruct (sum_gap ws Hn) as [G1 G2]. apply Forall_forall. intros w Hw.
  rewrite Forall_forall in Hn. split.
  - destruct (trunc_nonneg w (Hn w Hw)) as [_ T]. apply Qle_minus_iff in T. exact T.
  - apply Qle_trans with (1 := G2 w Hw). apply Qle_trans with (2 := E1).
    rewrite Qabs_neg.
    + setoid_replace (- (inject_Z (sumZ (map trunc ws)) - sumQ ws))%Q with (sumQ ws - inject_Z (sumZ (map trunc ws)))%Q by ring.
      apply Qle_refl.
    + apply Qle_minus_iff in G1. apply Qle_minus_iff.
      setoid_replace (0 + - (inject_Z (sumZ (map trunc ws)) - sumQ ws))%Q with (sumQ ws + - inject_Z (sumZ (map trunc ws)))%Q by ring.
      exact G1.
Qed.

(** np.unique with counts *)
Lemma countZ_nat (l : list nat) i : countZ (Z.of_nat i) (map Z.of_nat l) = count_occ Nat.eq_dec l i.
Proof.
  unfold countZ. induction l as [|x l IH]; cbn [map filter count_occ]; [reflexivity|].
  destruct (Nat.eq_dec x i) as [->|N].
  - rewrite Z.eqb_refl. cbn [length]. now rewrite IH.
  - assert (E : (Z.of_nat i =? Z.of_nat x)%Z = false) by (apply Z.eqb_neq; lia). now rewrite E.
Qed.

Lemma list_sum_counts_aux (us : list Z) : NoDup us -> forall l, (forall x, In x l -> In x us) ->
  list_sum (map (fun v => countZ v l) us) = length l.
Proof.
  intros Hn. induction l as [|x l IH]; intros H.
  - clear. induction us; cbn; auto.
  - specialize (IH ltac:(intros; apply H; cbn; auto)). cbn [length]. rewrite <- IH.
    assert (Hx : In x us) by (apply H; cbn; auto). clear - Hn Hx.
    induction us as [|u us IH]; [destruct Hx|]. inversion Hn as [|? ? N1 N2]; subst.
    cbn [map]. change (list_sum (?a :: ?r)) with (a + list_sum r).
    assert (E1 : forall v, countZ v (x :: l) = (if (v =? x)%Z then 1 else 0) + countZ v l).
    { intros v. unfold countZ. cbn [filter]. destruct (v =? x)%Z; reflexivity. }
    destruct Hx as [->|Hx].
    + rewrite E1, Z.eqb_refl.
      assert (E2 : map (fun v => countZ v (x :: l)) us = map (fun v => countZ v l) us).
      { apply map_ext_in. intros v Hv. rewrite E1. destruct (v =? x)%Z eqn:E; [|reflexivity].
        apply Z.eqb_eq in E. subst. contradiction. }
      rewrite E2. lia.
    + rewrite IH by auto. rewrite E1. destruct (u =? x)%Z eqn:E; [|lia].
      apply Z.eqb_eq in E. subst. contradiction.
Qed.

Lemma thin_weights_spec f ns : 0 < f -> ns <> [] ->
  exists kept pairs, thin_indices_single_samples (qn f) (map qn ns) = Ok kept /\
    thin_indices_and_weights (qn f) (map qn ns) = Ok pairs /\
    StronglySorted lt (map fst pairs) /\
    (forall i, In i (map fst pairs) <-> In i kept) /\
    (forall i w, In (i, w) pairs -> w = count_occ Nat.eq_dec kept i /\ 0 < w) /\
    list_sum (map snd pairs) = length kept.
Proof.
  intros Hf Hne. unfold thin_indices_and_weights. rewrite (thin_int f ns Hf Hne). cbn [bindR].
  set (kept := _ ++ _). exists kept.
  set (zs := map Z.of_nat kept).
  exists (map (fun v => (Z.to_nat v, countZ v zs)) (np_unique zs)).
  assert (Hz : forall v, In v (np_unique zs) -> exists n, v = Z.of_nat n /\ In n kept).
  { intros v Hv. rewrite np_unique_In in Hv. apply in_map_iff in Hv. destruct Hv as [n [<- Hn]]. eauto. }
  pose proof (np_unique_sorted zs) as Hs.
  split; [reflexivity|split; [reflexivity|]]. rewrite !map_map. cbn [fst snd].
  split; [|split; [|split]].
  - assert (Hnn : Forall (fun v => 0 <= v)%Z (np_unique zs)).
    { apply Forall_forall. intros v Hv. destruct (Hz v Hv) as [n [-> _]]. lia. }
    clear Hz. induction Hs as [|v l Hs IH Hv]; cbn; constructor.
    + apply IH. now inversion Hnn.
    + inversion Hnn as [|? ? N1 N2]; subst. apply Forall_forall. intros m Hm. apply in_map_iff in Hm.
      destruct Hm as [u [<- Hu]]. rewrite Forall_forall in Hv, N2. specialize (Hv u Hu). specialize (N2 u Hu). lia.
  - intros i. rewrite in_map_iff. split.
    + intros [v [<- Hv]]. destruct (Hz v Hv) as [n [-> Hn]]. now rewrite Nat2Z.id.
    + intros Hi. exists (Z.of_nat i). rewrite Nat2Z.id. split; [reflexivity|]. apply np_unique_In.
      apply in_map_iff. eauto.
  - intros i w H. apply in_map_iff in H. destruct H as [v [E Hv]]. destruct (Hz v Hv) as [n [-> Hn]].
    rewrite Nat2Z.id in E. injection E as <- <-. unfold zs. rewrite countZ_nat. split; [reflexivity|].
    now apply count_occ_In.
  - unfold zs at 1 2. rewrite list_sum_counts_aux.
    + unfold zs. now rewrite map_length.
    + assert (Hnd : StronglySorted Z.lt (np_unique zs)) by exact Hs. clear - Hnd. unfold zs in Hnd.
      induction Hnd as [|v l _ IH Hv]; constructor; auto. intros Hin. rewrite Forall_forall in Hv.
      specialize (Hv v Hin). lia.
    + intros x Hx. now apply np_unique_In.
Qed.
