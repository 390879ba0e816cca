From Verif Require Import PyStr PyStrFacts PyBase CovModel.
From Coq Require Import QArith Reals Lra.
Local Open Scope nat_scope.

Lemma index_from_spec l : forall i x,
  match index_from i l x with
  | Some n => exists l1 l2, l = l1 ++ x :: l2 /\ n = i + length l1 /\ ~ In x l1
  | None => ~ In x l
  end.
Proof.
  induction l as [|y l IH]; intros i x; cbn [index_from]; [intros []|].
  destruct (str_eqb_spec x y) as [->|N].
  - exists [], l. repeat split; auto; simpl; lia.
  - specialize (IH (S i) x). destruct (index_from (S i) l x) as [n|].
    + destruct IH as (l1 & l2 & -> & -> & H). exists (y :: l1), l2. simpl. repeat split; auto; try lia. intros [?|?]; auto.
    + simpl. intros [?|?]; auto.
Qed.
Lemma index_of_nth l x i : NoDup l -> nth_error l i = Some x -> index_of l x = Some i.
Proof.
  intros ND H. unfold index_of. pose proof (index_from_spec l 0 x) as S.
  assert (I : In x l) by (eapply nth_error_In; eauto).
  destruct (index_from 0 l x) as [n|]; [|contradiction].
  destruct S as (l1 & l2 & -> & -> & N). f_equal. simpl.
  assert (K : nth_error (l1 ++ x :: l2) (length l1) = Some x) by (rewrite nth_error_app2, Nat.sub_diag by lia; reflexivity).
  apply (proj1 (NoDup_nth_error _) ND); [|congruence].
  apply nth_error_Some. congruence.
Qed.

(** * rescaling *)
Lemma rescale_entries (c : covmat Q) name s k : NoDup (cnames c) -> nth_error (cnames c) k = Some name ->
  let c' := rescaleParameter c name s in
  cnames c' = cnames c /\ csize c' = csize c /\
  (cmat c' k k == cmat c k k * (s * s))%Q /\
  (forall j, j <> k -> (cmat c' k j == cmat c k j * s)%Q /\ (cmat c' j k == cmat c j k * s)%Q) /\
  (forall i j, i <> k -> j <> k -> cmat c' i j = cmat c i j).
Proof.
  intros ND H. unfold rescaleParameter. rewrite (index_of_nth _ _ _ ND H). cbn [cmat cnames csize].
  split; [reflexivity|]. split; [reflexivity|]. unfold scale_row, scale_col. split; [|split].
  - rewrite Nat.eqb_refl. ring.
  - intros j N. apply Nat.eqb_neq in N. rewrite N, Nat.eqb_refl. split; ring.
  - intros i j Ni Nj. apply Nat.eqb_neq in Ni, Nj. now rewrite Ni, Nj.
Qed.
Lemma rescale_other (c : covmat Q) name s : ~ In name (cnames c) -> rescaleParameter c name s = c.
Proof.
  intros H. unfold rescaleParameter, index_of. pose proof (index_from_spec (cnames c) 0 name) as S.
  destruct (index_from 0 (cnames c) name); [|reflexivity]. destruct S as (l1 & l2 & E & _). exfalso. apply H.
  rewrite E. apply in_or_app; right; now left.
Qed.
Lemma rescale_symmetric (c : covmat Q) name s :
  (forall i j, cmat c i j == cmat c j i)%Q ->
  forall i j, (cmat (rescaleParameter c name s) i j == cmat (rescaleParameter c name s) j i)%Q.
Proof.
  intros H i j. unfold rescaleParameter. destruct (index_of (cnames c) name) as [k|]; [|apply H].
  cbn [cmat]. unfold scale_row, scale_col. destruct (i =? k), (j =? k); rewrite (H i j); ring.
Qed.
Lemma rescale_inverse (c : covmat Q) name s : ~ (s == 0)%Q ->
  forall i j, (cmat (rescaleParameter (rescaleParameter c name s) name (/ s)) i j == cmat c i j)%Q.
Proof.
  intros H i j. unfold rescaleParameter at 1. 
  assert (E : cnames (rescaleParameter c name s) = cnames c) by (unfold rescaleParameter; destruct (index_of (cnames c) name); reflexivity).
  rewrite E. unfold rescaleParameter. destruct (index_of (cnames c) name) as [k|]; [|reflexivity].
  cbn [cmat]. unfold scale_row, scale_col. destruct (i =? k), (j =? k); try reflexivity; field; exact H.
Qed.

(** * merging *)
Lemma merged_names_spec p1 p2 : exists new, merged_names p1 p2 = p1 ++ new /\ NoDup new /\
  (forall x, In x new <-> In x p2 /\ ~ In x p1).
Proof.
  unfold merged_names.
  assert (G : forall p2 acc, exists new, fold_left (fun acc p => if mem_str p acc then acc else acc ++ [p]) p2 acc = acc ++ new /\
    NoDup new /\ (forall x, In x new <-> In x p2 /\ ~ In x acc)).
  { clear. induction p2 as [|p p2 IH]; intros acc; cbn [fold_left].
    - exists []. rewrite app_nil_r. split; [reflexivity|]. split; [constructor|]. simpl. tauto.
    - destruct (mem_str p acc) eqn:E.
      + apply mem_str_In in E. destruct (IH acc) as (new & -> & N & I). exists new. split; [reflexivity|]. split; [exact N|].
        intros x. rewrite I. cbn [In]. split; [tauto|]. intros [[->|?] ?]; tauto.
      + apply mem_str_false in E. destruct (IH (acc ++ [p])) as (new & -> & N & I). exists (p :: new). split.
        { now rewrite <- app_assoc. } split.
        { constructor; [|exact N]. rewrite I, in_app_iff. cbn [In]. tauto. }
        intros x. cbn [In]. rewrite I, in_app_iff. cbn [In].
        destruct (str_eq_dec p x) as [->|Nx]; tauto. }
  apply G.
Qed.
Lemma index_map_get l : forall i d x, NoDup l ->
  dget x (index_map i l d) = match index_from i l x with Some n => Some n | None => dget x d end.
Proof.
  induction l as [|y l IH]; intros i d x ND; cbn [index_map index_from]; [reflexivity|].
  inversion ND as [|? ? Hy ND']; subst. rewrite IH by exact ND'. rewrite dget_dset.
  destruct (str_eqb_spec x y) as [->|N]; [|reflexivity].
  pose proof (index_from_spec l (S i) y) as SP. destruct (index_from (S i) l y); [|reflexivity].
  destruct SP as (l1 & l2 & -> & _). exfalso. apply Hy. apply in_or_app; right; now left.
Qed.
Lemma lookup_ix_nth l x i : NoDup l -> nth_error l i = Some x -> lookup_ix (index_map 0 l []) x = i.
Proof.
  intros ND H. unfold lookup_ix. rewrite index_map_get by exact ND.
  pose proof (index_of_nth l x i ND H) as E. unfold index_of in E. now rewrite E.
Qed.
Lemma NoDup_app_intro {A} (a b : list A) : NoDup a -> NoDup b -> (forall x, In x a -> ~ In x b) -> NoDup (a ++ b).
Proof.
  intros Ha Hb. induction Ha as [|x a Hx Ha IH]; intros D; [exact Hb|]. cbn [app]. constructor.
  - rewrite in_app_iff. intros [?|H]; [contradiction|]. apply (D x); [now left|exact H].
  - apply IH. intros y Hy. apply D. now right.
Qed.
Lemma merge_names {A} (zero : A) c1 c2 : NoDup (cnames c1) -> exists new,
  cnames (mergeCovmatWhereNew zero c1 c2) = cnames c1 ++ new /\ NoDup (cnames c1 ++ new) /\
  (forall x, In x new <-> In x (cnames c2) /\ ~ In x (cnames c1)).
Proof.
  intros ND. destruct (merged_names_spec (cnames c1) (cnames c2)) as (new & E & N & I).
  exists new. split; [exact E|]. split; [|exact I].
  apply NoDup_app_intro; auto. intros x H1 H2. now apply I in H2.
Qed.
Lemma merge_entries {A} (zero : A) c1 c2 i j a b :
  NoDup (cnames c1) -> NoDup (cnames c2) ->
  let c := mergeCovmatWhereNew zero c1 c2 in
  nth_error (cnames c) i = Some a -> nth_error (cnames c) j = Some b ->
  (forall i1 j1, nth_error (cnames c1) i1 = Some a -> nth_error (cnames c1) j1 = Some b -> cmat c i j = cmat c1 i1 j1) /\
  (forall i2 j2, ~ (In a (cnames c1) /\ In b (cnames c1)) ->
     nth_error (cnames c2) i2 = Some a -> nth_error (cnames c2) j2 = Some b -> cmat c i j = cmat c2 i2 j2) /\
  (~ (In a (cnames c1) /\ In b (cnames c1)) -> ~ (In a (cnames c2) /\ In b (cnames c2)) -> cmat c i j = zero).
Proof.
  intros N1 N2 c Ha Hb. unfold c, mergeCovmatWhereNew in *. cbv zeta in *. cbn [cmat cnames] in *.
  assert (Ea : nth i (merged_names (cnames c1) (cnames c2)) [] = a) by (apply nth_error_nth; exact Ha).
  assert (Eb : nth j (merged_names (cnames c1) (cnames c2)) [] = b) by (apply nth_error_nth; exact Hb).
  rewrite Ea, Eb.
  assert (MM : forall l, (mem_str a l && mem_str b l = true) <-> (In a l /\ In b l)).
  { intros l. now rewrite andb_true_iff, !mem_str_In. }
  split; [|split].
  - intros i1 j1 H1 H2. assert (mem_str a (cnames c1) && mem_str b (cnames c1) = true) as ->.
    { apply MM. split; eapply nth_error_In; eauto. }
    now rewrite (lookup_ix_nth _ _ _ N1 H1), (lookup_ix_nth _ _ _ N1 H2).
  - intros i2 j2 H H1 H2. destruct (mem_str a (cnames c1) && mem_str b (cnames c1)) eqn:E; [apply MM in E; contradiction|].
    assert (mem_str a (cnames c2) && mem_str b (cnames c2) = true) as ->.
    { apply MM. split; eapply nth_error_In; eauto. }
    now rewrite (lookup_ix_nth _ _ _ N2 H1), (lookup_ix_nth _ _ _ N2 H2).
  - intros H1 H2. destruct (mem_str a (cnames c1) && mem_str b (cnames c1)) eqn:E; [apply MM in E; contradiction|].
    destruct (mem_str a (cnames c2) && mem_str b (cnames c2)) eqn:E2; [apply MM in E2; contradiction|reflexivity].
Qed.
Lemma merge_symmetric {A} (zero : A) c1 c2 :
  (forall i j, cmat c1 i j = cmat c1 j i) -> (forall i j, cmat c2 i j = cmat c2 j i) ->
  forall i j, cmat (mergeCovmatWhereNew zero c1 c2) i j = cmat (mergeCovmatWhereNew zero c1 c2) j i.
Proof.
  intros H1 H2 i j. unfold mergeCovmatWhereNew. cbv zeta. cbn [cmat].
  rewrite (andb_comm (mem_str (nth j _ _) (cnames c1))), (andb_comm (mem_str (nth j _ _) (cnames c2))).
  destruct (_ && _); [apply H1|]. destruct (_ && _); [apply H2|reflexivity].
Qed.

(** * correlation *)
Local Open Scope R_scope.
Definition step_factor (d : nat -> R) (lim : nat) (k : nat) : R := if (k <? lim)%nat then d k else 1.
Lemma correlation_loop (M : mat R) (d : nat -> R) n : forall a b,
  (forall k, (k < n)%nat -> d k <> 0) ->
  fold_left (fun m i => div_col i (d i) (div_row i (d i) m)) (seq 0 n) M a b
  = M a b / (step_factor d n a * step_factor d n b).
Proof.
  induction n as [|n IH]; intros a b H.
  - cbn [seq fold_left]. unfold step_factor. cbn. field.
  - rewrite seq_S, fold_left_app. cbn [fold_left Nat.add]. set (m := fold_left _ (seq 0 n) M) in *. unfold div_col, div_row.
    assert (IH' : forall a b, (forall k, (k < n)%nat -> d k <> 0) -> m a b = M a b / (step_factor d n a * step_factor d n b)) by exact IH. clear IH.
    assert (H' : forall k, (k < n)%nat -> d k <> 0) by (intros; apply H; lia).
    assert (Hn := H n ltac:(lia)).
    assert (F : forall k, step_factor d (S n) k = if (k =? n)%nat then d n else step_factor d n k).
    { intros k. unfold step_factor. destruct (Nat.eqb_spec k n) as [->|N].
      - rewrite (proj2 (Nat.ltb_lt n (S n))) by lia. reflexivity.
      - destruct (Nat.ltb_spec k (S n)), (Nat.ltb_spec k n); try lia; reflexivity. }
    assert (Fn : step_factor d n n = 1) by (unfold step_factor; now rewrite Nat.ltb_irrefl).
    assert (NZ : forall k, step_factor d n k <> 0).
    { intros k. unfold step_factor. destruct (Nat.ltb_spec k n); [now apply H'|lra]. }
    rewrite !F, !IH' by exact H'.
    destruct (Nat.eqb_spec a n) as [->|Na], (Nat.eqb_spec b n) as [->|Nb]; rewrite ?Fn; try field; repeat split; try apply NZ; try exact Hn; try exact E.
Qed.
Lemma correlation_entries (c : covmat R) i j :
  (forall k, (k < csize c)%nat -> cmat c k k > 0) -> (i < csize c)%nat -> (j < csize c)%nat ->
  correlation c i j = cmat c i j / (sqrt (cmat c i i) * sqrt (cmat c j j)).
Proof.
  intros H Hi Hj. unfold correlation.
  rewrite (correlation_loop (cmat c) (fun k => sqrt (cmat c k k))).
  - unfold step_factor. rewrite (proj2 (Nat.ltb_lt _ _) Hi), (proj2 (Nat.ltb_lt _ _) Hj). reflexivity.
  - intros k Hk E. apply sqrt_eq_0 in E; [|left; now apply H]. specialize (H k Hk). lra.
Qed.
Lemma correlation_unit (c : covmat R) i :
  (forall k, (k < csize c)%nat -> cmat c k k > 0) -> (i < csize c)%nat -> correlation c i i = 1.
Proof.
  intros H Hi. rewrite correlation_entries by assumption. rewrite sqrt_sqrt by (left; now apply H).
  field. specialize (H i Hi). lra.
Qed.
Lemma correlation_sym (c : covmat R) i j :
  (forall k, (k < csize c)%nat -> cmat c k k > 0) -> (forall a b, cmat c a b = cmat c b a) ->
  (i < csize c)%nat -> (j < csize c)%nat -> correlation c i j = correlation c j i.
Proof.
  intros H S Hi Hj. rewrite !correlation_entries by assumption. rewrite (S j i). rewrite (Rmult_comm (sqrt (cmat c j j))). reflexivity.
Qed.
Lemma correlation_merged (c1 c2 : covmat R) i j :
  correlation (mergeCovmatWhereNew 0 c1 c2) i j = cmat (mergeCovmatWhereNew 0 c1 c2) i j.
Proof. reflexivity. Qed.

Definition nz (x : R) : R := if Req_EM_T x 0 then 1 else x.
Lemma covToCorr_loop (M : mat R) (d : nat -> R) n : forall a b,
  fold_left (fun m i => if Req_EM_T (d i) 0 then m else div_col i (d i) (div_row i (d i) m)) (seq 0 n) M a b
  = M a b / (step_factor (fun k => nz (d k)) n a * step_factor (fun k => nz (d k)) n b).
Proof.
  assert (NZ0 : forall x, nz x <> 0) by (intros x; unfold nz; destruct (Req_EM_T x 0); lra).
  induction n as [|n IH]; intros a b.
  - cbn [seq fold_left]. unfold step_factor. cbn. field.
  - rewrite seq_S, fold_left_app. cbn [fold_left Nat.add].
    assert (F : forall k, step_factor (fun k => nz (d k)) (S n) k = if (k =? n)%nat then nz (d n) else step_factor (fun k => nz (d k)) n k).
    { intros k. unfold step_factor. destruct (Nat.eqb_spec k n) as [->|N].
      - rewrite (proj2 (Nat.ltb_lt n (S n))) by lia. reflexivity.
      - destruct (Nat.ltb_spec k (S n)), (Nat.ltb_spec k n); try lia; reflexivity. }
    assert (Fn : step_factor (fun k => nz (d k)) n n = 1) by (unfold step_factor; now rewrite Nat.ltb_irrefl).
    assert (NZ : forall k, step_factor (fun k => nz (d k)) n k <> 0).
    { intros k. unfold step_factor. destruct (Nat.ltb_spec k n); [apply NZ0|lra]. }
    rewrite !F. specialize (NZ0 (d n)).
    destruct (Req_EM_T (d n) 0) as [E|E].
    + rewrite IH. assert (nz (d n) = 1) as -> by (unfold nz; destruct (Req_EM_T (d n) 0); [reflexivity|contradiction]).
      destruct (Nat.eqb_spec a n) as [->|Na], (Nat.eqb_spec b n) as [->|Nb]; rewrite ?Fn; reflexivity.
    + set (m := fold_left _ (seq 0 n) M) in *. unfold div_col, div_row. rewrite !IH.
      assert (nz (d n) = d n) as -> by (unfold nz; destruct (Req_EM_T (d n) 0); [contradiction|reflexivity]).
      destruct (Nat.eqb_spec a n) as [->|Na], (Nat.eqb_spec b n) as [->|Nb]; rewrite ?Fn; try field; repeat split; try apply NZ; try exact Hn; try exact E.
Qed.
Lemma covToCorr_entries n (M : mat R) i j : (i < n)%nat -> (j < n)%nat ->
  (M i i > 0 -> M j j > 0 -> covToCorr n M i j = M i j / (sqrt (M i i) * sqrt (M j j))) /\
  (M i i = 0 -> M j j > 0 -> covToCorr n M i j = M i j / sqrt (M j j)) /\
  (M i i = 0 -> M j j = 0 -> covToCorr n M i j = M i j).
Proof.
  intros Hi Hj. unfold covToCorr. rewrite (covToCorr_loop M (fun k => sqrt (M k k))).
  unfold step_factor. rewrite (proj2 (Nat.ltb_lt _ _) Hi), (proj2 (Nat.ltb_lt _ _) Hj).
  assert (P : forall k, M k k > 0 -> nz (sqrt (M k k)) = sqrt (M k k)).
  { intros k H. unfold nz. destruct (Req_EM_T (sqrt (M k k)) 0) as [E|]; [|reflexivity].
    apply sqrt_eq_0 in E; lra. }
  assert (Z : forall k, M k k = 0 -> nz (sqrt (M k k)) = 1).
  { intros k H. unfold nz. rewrite H, sqrt_0. destruct (Req_EM_T 0 0); [reflexivity|lra]. }
  split; [|split].
  - intros A B. now rewrite !P.
  - intros A B. rewrite Z, P by assumption. now rewrite Rmult_1_l.
  - intros A B. rewrite !Z by assumption. field.
Qed.
