(** Proofs about contour levels, integrals, limits and FFT sizes. *)
From Verif Require Import PyStr PyBase DensModel DensSpec.
From Coq Require Import QArith Qround Lqa Permutation Sorting.Sorted Psatz.
Local Open Scope nat_scope.

Lemma Qlt_b_iff a b : Qlt_b a b = true <-> (a < b)%Q.
Proof.
  unfold Qlt_b. rewrite negb_true_iff. split; intros H.
  - apply Qnot_le_lt. intros C. apply Qle_bool_iff in C. congruence.
  - destruct (Qle_bool b a) eqn:E; [|reflexivity]. apply Qle_bool_iff in E. lra.
Qed.
Lemma Qlt_b_false a b : Qlt_b a b = false <-> (b <= a)%Q.
Proof. unfold Qlt_b. rewrite negb_false_iff. apply Qle_bool_iff. Qed.
Lemma sumq_app a b : (sumq (a ++ b) == sumq a + sumq b)%Q.
Proof. induction a as [|x a IH]; cbn [app sumq fold_right]; [unfold sumq; cbn; lra|]. fold (sumq (a ++ b)) (sumq a). rewrite IH. lra. Qed.
Lemma sumq_cons x a : sumq (x :: a) = (x + sumq a)%Q.
Proof. reflexivity. Qed.
Lemma sumq_nonneg l : Forall (fun x => 0 <= x)%Q l -> (0 <= sumq l)%Q.
Proof. induction 1 as [|x l H F IH]; [cbn; lra|]. rewrite sumq_cons. lra. Qed.
Lemma sumq_perm a b : Permutation a b -> (sumq a == sumq b)%Q.
Proof. induction 1; rewrite ?sumq_cons in *; try lra. Qed.
Lemma cum_nth l : forall a i, i < length l -> exists c, nth_error (cumq a l) i = Some c /\ (c == a + sumq (firstn (S i) l))%Q.
Proof.
  induction l as [|x l IH]; intros a i H; [cbn in H; lia|]. destruct i as [|i].
  - cbn. eexists. split; [reflexivity|]. lra.
  - cbn [cumq nth_error]. cbn in H. destruct (IH (a + x)%Q i ltac:(lia)) as [c [E1 E2]]. exists c. split; [exact E1|].
    change (firstn (S (S i)) (x :: l)) with (x :: firstn (S i) l). rewrite sumq_cons, E2. lra.
Qed.
Lemma cum_length l : forall a, length (cumq a l) = length l.
Proof. induction l as [|x l IH]; intros a; [reflexivity|]. cbn. now rewrite IH. Qed.
Lemma ss_le c t : searchsorted c t <= length c.
Proof. induction c as [|x c IH]; cbn; [lia|]. destruct (Qlt_b x t); lia. Qed.
Lemma ss_below c t : forall i x, i < searchsorted c t -> nth_error c i = Some x -> (x < t)%Q.
Proof.
  induction c as [|y c IH]; intros i x H E; cbn in H; [lia|]. destruct (Qlt_b y t) eqn:Q; [|lia].
  destruct i as [|i]; [injection E as <-; now apply Qlt_b_iff|]. apply (IH i); [lia|exact E].
Qed.
Lemma ss_at c t x : nth_error c (searchsorted c t) = Some x -> (t <= x)%Q.
Proof.
  induction c as [|y c IH]; cbn; [discriminate|]. destruct (Qlt_b y t) eqn:Q; [exact IH|]. cbn. intros E. injection E as <-. now apply Qlt_b_false.
Qed.
Lemma ss_end c t : searchsorted c t = length c -> forall x, In x c -> (x < t)%Q.
Proof.
  intros H x I. apply In_nth_error in I. destruct I as [i E]. apply (ss_below c t i x); [|exact E]. rewrite H. apply nth_error_Some. congruence.
Qed.

(** *** contour levels *)
Lemma interp_between s0 s1 d : (s0 <= s1)%Q -> (0 <= d)%Q -> (d <= 1)%Q -> (s0 <= s1 * (1 - d) + d * s0)%Q /\ (s1 * (1 - d) + d * s0 <= s1)%Q.
Proof. intros. split; nra. Qed.
(** decomposition at the position found *)
Lemma level_split (ms : list Q) t l : contour_level ms t = Ok l ->
  exists A x y B, ms = A ++ x :: y :: B /\ (sumq A + x < t)%Q /\ (t <= sumq A + x + y)%Q /\
    exists d, (0 <= d)%Q /\ (d < 1)%Q /\ (d * y == sumq A + x + y - t)%Q /\ (l == y * (1 - d) + d * x)%Q.
Proof.
  unfold contour_level. set (c := cumq 0 ms). set (ix := searchsorted c t). destruct (ix =? 0) eqn:E0; [discriminate|].
  apply Nat.eqb_neq in E0. destruct (nth_error c ix) as [ci|] eqn:E1; [|discriminate].
  destruct (nth_error c (ix - 1)) as [cp|] eqn:E2; [|discriminate]. destruct (nth_error ms ix) as [si|] eqn:E3; [|discriminate].
  destruct (nth_error ms (ix - 1)) as [sp|] eqn:E4; [|discriminate]. intros H. injection H as <-.
  apply nth_error_split in E4. destruct E4 as [A [R [Em La]]]. 
  assert (Er : exists B, R = si :: B).
  { rewrite Em in E3. rewrite nth_error_app2 in E3 by lia. replace (ix - length A) with 1 in E3 by lia. cbn in E3. destruct R as [|z B]; [discriminate|]. injection E3 as ->. now exists B. }
  destruct Er as [B ->]. exists A, sp, si, B. split; [exact Em|].
  assert (Lm : ix < length ms) by (rewrite Em, app_length; cbn; lia).
  destruct (cum_nth ms 0 ix Lm) as [ci' [C1 C2]]. fold c in C1. rewrite E1 in C1. injection C1 as <-.
  destruct (cum_nth ms 0 (ix - 1) ltac:(lia)) as [cp' [D1 D2]]. fold c in D1. rewrite E2 in D1. injection D1 as <-.
  assert (F1 : (ci == sumq A + sp + si)%Q).
  { rewrite C2, Em. replace (S ix) with (length A + 2) by lia. rewrite firstn_app_2. cbn [firstn]. rewrite sumq_app, !sumq_cons. cbn. lra. }
  assert (F2 : (cp == sumq A + sp)%Q).
  { rewrite D2, Em. replace (S (ix - 1)) with (length A + 1) by lia. rewrite firstn_app_2. cbn [firstn]. rewrite sumq_app, !sumq_cons. cbn. lra. }
  assert (G1 : (cp < t)%Q) by (apply (ss_below c t (ix - 1)); [fold ix; lia|exact E2]).
  assert (G2 : (t <= ci)%Q) by (apply (ss_at c t); exact E1).
  split; [lra|]. split; [lra|]. exists ((ci - t) / (ci - cp))%Q.
  assert (P : (0 < ci - cp)%Q) by lra.
  split; [apply Qle_shift_div_l; [exact P|lra]|]. split; [apply Qlt_shift_div_r; [exact P|lra]|]. split; [|reflexivity].
  assert (Ey : (si == ci - cp)%Q) by lra. rewrite Ey. 
  transitivity (ci - t)%Q; [field; lra|lra].
Qed.
Lemma filter_all {A} (p : A -> bool) l : Forall (fun x => p x = true) l -> filter p l = l.
Proof. induction 1 as [|x l H F IH]; [reflexivity|]. cbn. now rewrite H, IH. Qed.
Lemma mass_nonneg cells P : Forall (fun c => 0 <= snd c)%Q cells -> (0 <= mass cells P)%Q.
Proof.
  intros F. apply sumq_nonneg. apply Forall_forall. intros x I. apply in_map_iff in I. destruct I as [c [<- I]]. apply filter_In in I.
  rewrite Forall_forall in F. now apply F.
Qed.
Lemma mass_app a b P : (mass (a ++ b) P == mass a P + mass b P)%Q.
Proof. unfold mass. rewrite filter_app, map_app. apply sumq_app. Qed.
Lemma mass_le_total cells P : Forall (fun c => 0 <= snd c)%Q cells -> (mass cells P <= total cells)%Q.
Proof.
  unfold mass, total. induction 1 as [|c l H F IH]; [cbn; lra|]. cbn [filter map]. rewrite sumq_cons. destruct (P (fst c)); cbn [map]; rewrite ?sumq_cons; lra.
Qed.
Lemma mass_none cells P : Forall (fun c => P (fst c) = false) cells -> (mass cells P == 0)%Q.
Proof. unfold mass. induction 1 as [|c l H F IH]; [cbn; lra|]. cbn [filter]. rewrite H. exact IH. Qed.
Lemma mass_all cells P : Forall (fun c => P (fst c) = true) cells -> (mass cells P == total cells)%Q.
Proof. unfold mass, total. intros F. rewrite filter_all by exact F. reflexivity. Qed.
Lemma mass_perm a b P : Permutation a b -> (mass a P == mass b P)%Q.
Proof.
  intros H. unfold mass. apply sumq_perm. apply Permutation_map. clear -H. induction H; cbn.
  - constructor.
  - destruct (P (fst x)); [now constructor|assumption].
  - destruct (P (fst x)), (P (fst y)); try reflexivity. constructor.
  - etransitivity; eassumption.
Qed.
Lemma ssorted_app {A} (R : A -> A -> Prop) a b : StronglySorted R (a ++ b) -> forall x y, In x a -> In y b -> R x y.
Proof.
  induction a as [|z a IH]; intros S x y [] I; inversion S as [|? ? S1 F]; subst.
  - rewrite Forall_forall in F. apply F. apply in_or_app. now right.
  - now apply IH.
Qed.
(** the general statement, for cells in increasing order of density *)
Lemma level_encloses cells t l :
  StronglySorted (fun a b => fst a <= fst b)%Q cells -> Forall (fun c => 0 <= snd c)%Q cells ->
  Forall (fun c => fst c == snd c)%Q cells ->
  contour_level (map snd cells) t = Ok l -> encloses cells (total cells - t) l.
Proof.
  intros S N M H. destruct (level_split _ _ _ H) as [A0 [x [y [B0 [E [T1 [T2 [d [D1 [D2 [D3 L]]]]]]]]]]].
  assert (Sp : exists A cx cy B, cells = A ++ cx :: cy :: B /\ map snd A = A0 /\ snd cx = x /\ snd cy = y /\ map snd B = B0).
  { clear -E. revert cells E. induction A0 as [|a A0 IH]; intros [|c cells] E; try discriminate.
    - destruct cells as [|c2 cells]; [discriminate|]. injection E as <- <- <-. now exists [], c, c2, cells.
    - injection E as <- E. destruct (IH cells E) as [A [cx [cy [B [-> [R1 R]]]]]]. exists (c :: A), cx, cy, B. cbn. rewrite R1. auto. }
  destruct Sp as [A [cx [cy [B [-> [<- [<- [<- <-]]]]]]]].
  set (cells := A ++ cx :: cy :: B) in *.
  assert (Hx : (fst cx == snd cx)%Q) by (rewrite Forall_forall in M; apply M; unfold cells; apply in_or_app; right; now left).
  assert (Hy : (fst cy == snd cy)%Q) by (rewrite Forall_forall in M; apply M; unfold cells; apply in_or_app; right; right; now left).
  assert (Sxy : (fst cx <= fst cy)%Q).
  { apply (ssorted_app (fun a b => fst a <= fst b)%Q (A ++ [cx]) (cy :: B)); [rewrite <- app_assoc; exact S|apply in_or_app; right; now left|now left]. }
  assert (SA : forall a, In a (A ++ [cx]) -> (fst a <= fst cx)%Q).
  { intros a I. apply in_app_or in I. destruct I as [I|[<-|[]]]; [|lra].
    apply (ssorted_app (fun a b => fst a <= fst b)%Q A (cx :: cy :: B) S); [exact I|now left]. }
  assert (SB : forall b, In b (cy :: B) -> (fst cy <= fst b)%Q).
  { intros b [<-|I]; [lra|]. apply (ssorted_app (fun a b => fst a <= fst b)%Q (A ++ [cx; cy]) B); [rewrite <- app_assoc; exact S|apply in_or_app; right; right; now left|exact I]. }
  assert (NB : Forall (fun c => 0 <= snd c)%Q (cy :: B)).
  { apply Forall_forall. intros c I. rewrite Forall_forall in N. apply N. unfold cells. apply in_or_app. right. now right. }
  assert (Tot : (total cells == sumq (map snd A) + snd cx + snd cy + total B)%Q).
  { unfold total, cells. rewrite map_app. cbn [map]. rewrite sumq_app, !sumq_cons. lra. }
  destruct (interp_between (snd cx) (snd cy) d) as [I1 I2]; [lra|exact D1|lra|].
  assert (Split : forall P, (mass cells P == mass (A ++ [cx]) P + mass (cy :: B) P)%Q).
  { intros P. rewrite <- mass_app. unfold cells. rewrite <- app_assoc. reflexivity. }
  split.
  - rewrite Split. assert (mass (cy :: B) (fun v => Qle_bool l v) == snd cy + total B)%Q as ->.
    { rewrite mass_all; [unfold total; cbn [map]; rewrite sumq_cons; reflexivity|]. apply Forall_forall. intros c I. apply Qle_bool_iff. specialize (SB c I). lra. }
    assert (0 <= mass (A ++ [cx]) (fun v => Qle_bool l v))%Q.
    { apply mass_nonneg. apply Forall_forall. intros c I. rewrite Forall_forall in N. apply N. unfold cells. apply in_app_or in I.
      apply in_or_app. destruct I as [I|[<-|[]]]; [now left|right; now left]. }
    lra.
  - exists (fst cx), (fst cy). split; [apply in_map; unfold cells; apply in_or_app; right; now left|].
    split; [apply in_map; unfold cells; apply in_or_app; right; right; now left|]. split; [lra|]. split; [lra|]. split.
    + intros v I. apply in_map_iff in I. destruct I as [c [<- I]]. unfold cells in I.
      change (cx :: cy :: B) with ([cx] ++ cy :: B) in I. rewrite app_assoc in I. apply in_app_or in I.
      destruct I as [I|I]; [left; now apply SA|right; now apply SB].
    + rewrite Split. assert (mass (A ++ [cx]) (fun v => Qlt_b (fst cy) v) == 0)%Q as ->.
      { apply mass_none. apply Forall_forall. intros c I. apply Qlt_b_false. specialize (SA c I). lra. }
      unfold mass at 1. cbn [filter]. assert (Qlt_b (fst cy) (fst cy) = false) as -> by (apply Qlt_b_false; lra).
      fold (mass B (fun v => Qlt_b (fst cy) v)).
      assert (mass B (fun v => Qlt_b (fst cy) v) <= total B)%Q by (apply mass_le_total; inversion NB; assumption). lra.
Qed.
Lemma level_mono (ms : list Q) t1 t2 l1 l2 : StronglySorted Qle ms -> (t1 <= t2)%Q ->
  contour_level ms t1 = Ok l1 -> contour_level ms t2 = Ok l2 -> (l1 <= l2)%Q.
Proof.
  intros SS Ht H1 H2. destruct (level_split _ _ _ H1) as [A1 [x1 [y1 [B1 [E1 [P1 [Q1 [d1 [D1 [D2 [D3 L1]]]]]]]]]]].
  destruct (level_split _ _ _ H2) as [A2 [x2 [y2 [B2 [E2 [P2 [Q2 [d2 [F1 [F2 [F3 L2]]]]]]]]]]].
  assert (S1 : (x1 <= y1)%Q) by (rewrite E1 in SS; apply (ssorted_app Qle (A1 ++ [x1]) (y1 :: B1)); [rewrite <- app_assoc; exact SS|apply in_or_app; right; now left|now left]).
  assert (S2 : (x2 <= y2)%Q) by (rewrite E2 in SS; apply (ssorted_app Qle (A2 ++ [x2]) (y2 :: B2)); [rewrite <- app_assoc; exact SS|apply in_or_app; right; now left|now left]).
  destruct (interp_between x1 y1 d1 S1 D1 ltac:(lra)) as [I1 I2]. destruct (interp_between x2 y2 d2 S2 F1 ltac:(lra)) as [J1 J2].
  (* lengths of the two prefixes *)
  destruct (lt_eq_lt_dec (length A1) (length A2)) as [[Lt|Eq]|Gt].
  - (* y1 is at or before x2 *)
    assert (y1 <= x2)%Q; [|lra].
    assert (N1 : nth_error ms (S (length A1)) = Some y1) by (rewrite E1, nth_error_app2 by lia; replace (S (length A1) - length A1) with 1 by lia; reflexivity).
    assert (N2 : nth_error ms (length A2) = Some x2) by (rewrite E2, nth_error_app2 by lia; replace (length A2 - length A2) with 0 by lia; reflexivity).
    destruct (Nat.eq_dec (S (length A1)) (length A2)) as [Eq2|NE]; [rewrite <- Eq2, N1 in N2; injection N2 as ->; lra|].
    rewrite E2 in SS. apply (ssorted_app Qle A2 (x2 :: y2 :: B2) SS); [|now left].
    rewrite E2, nth_error_app1 in N1 by lia. eapply nth_error_In; eauto.
  - assert (A1 = A2 /\ x1 = x2 /\ y1 = y2) as [-> [-> ->]].
    { rewrite E2 in E1. clear -Eq E1. revert A2 Eq E1. induction A1 as [|a A1 IH]; intros [|b A2] L E; try discriminate.
      - injection E as -> -> _. auto.
      - injection E as -> E. injection L as L. destruct (IH _ L E) as [-> R]. auto. }
    assert (d2 <= d1)%Q.
    { assert (0 < y2)%Q by lra. assert (d2 * y2 <= d1 * y2)%Q by lra. apply Qmult_le_r in H0; assumption. }
    rewrite L1, L2. nra.
  - exfalso. (* then the total up to x1 exceeds t2 *)
    assert (E : exists C, A1 = A2 ++ x2 :: C).
    { rewrite E2 in E1. clear -Gt E1. revert A1 Gt E1. induction A2 as [|b A2 IH]; intros [|a A1] L E; cbn in L; try lia.
      - injection E as -> _. now exists A1.
      - injection E as -> E. destruct (IH A1 ltac:(lia) E) as [C ->]. now exists C. }
    destruct E as [C ->]. rewrite E2 in E1. rewrite <- app_assoc in E1. apply app_inv_head in E1. cbn [app] in E1. injection E1 as E1.
    rewrite sumq_app, sumq_cons in P1.
    assert (Pos : forall z, In z ms -> (0 <= z)%Q \/ True) by auto.
    assert (Hy : (0 < y2)%Q) by lra.
    assert (HB : Forall (fun z => 0 <= z)%Q (y2 :: B2)).
    { apply Forall_forall. intros z [<-|I]; [lra|]. assert (y2 <= z)%Q; [|lra]. rewrite E2 in SS.
      apply (ssorted_app Qle (A2 ++ [x2; y2]) B2); [rewrite <- app_assoc; exact SS|apply in_or_app; right; right; now left|exact I]. }
    destruct C as [|c C]; cbn [app] in E1; injection E1 as -> E1.
    + rewrite E1 in HB. cbn in P1. lra.
    + rewrite sumq_cons in P1. rewrite E1 in HB. inversion HB as [|? ? Hc HB']; subst. apply Forall_app in HB'. destruct HB' as [HC HR].
      apply sumq_nonneg in HC. inversion HR as [|? ? Hx1 _]; subst. lra.
Qed.
(** cells in the order given by argsort *)
Lemma sorts_cells order (vals : list Q) (cells : list (Q * Q)) : map fst cells = vals -> sorts order vals ->
  Permutation (map (fun k => nth k cells (0, 0)%Q) order) cells /\
  StronglySorted (fun a b => fst a <= fst b)%Q (map (fun k => nth k cells (0, 0)%Q) order).
Proof.
  intros <- [P S]. rewrite map_length in P. split.
  - rewrite (Permutation_map (fun k => nth k cells (0, 0)%Q) P). clear. 
    assert (E : map (fun k => nth k cells (0, 0)%Q) (seq 0 (length cells)) = cells); [|now rewrite E].
    induction cells as [|c l IH]; [reflexivity|]. cbn [length seq map nth]. f_equal. rewrite <- seq_shift, map_map. exact IH.
  - assert (G : forall k, nth k (map fst cells) 0%Q = fst (nth k cells (0, 0)%Q)) by (intros k; apply (map_nth fst cells (0, 0)%Q k)).
    clear P. induction S as [|a l S IH F]; [constructor|]. cbn [map]. constructor.
    + exact IH.
    + apply Forall_forall. intros c I. apply in_map_iff in I. destruct I as [k [<- I]]. rewrite Forall_forall in F. specialize (F k I). now rewrite <- !G.
Qed.
(** *** half edges *)
Definition halve1 (shape ind : list nat) (v : Q) (d : nat) : Q :=
  let v1 := if nth d ind 0 =? nth d shape 0 - 1 then (v / 2)%Q else v in if nth d ind 0 =? 0 then (v1 / 2)%Q else v1.
Lemma halve_axis_map shape a d : halve_axis shape a d = map (fun c => (fst c, halve1 shape (fst c) (snd c) d)) a.
Proof. reflexivity. Qed.
Lemma half_edges_map shape : forall ds a, fold_left (halve_axis shape) ds a = map (fun c => (fst c, fold_left (halve1 shape (fst c)) ds (snd c))) a.
Proof.
  induction ds as [|d ds IH]; intros a; cbn [fold_left].
  - symmetry. erewrite map_ext; [apply map_id|]. now intros [].
  - rewrite halve_axis_map, IH, map_map. apply map_ext. reflexivity.
Qed.
Lemma fold_left_map {A B C} (f : A -> B -> A) (g : C -> B) l : forall a, fold_left f (map g l) a = fold_left (fun x c => f x (g c)) l a.
Proof. induction l as [|c l IH]; intros a; [reflexivity|]. cbn. apply IH. Qed.
Lemma fold_left_ext_in {A B} (f g : A -> B -> A) l : (forall a b, In b l -> f a b = g a b) -> forall a, fold_left f l a = fold_left g l a.
Proof. induction l as [|c l IH]; intros H a; [reflexivity|]. cbn. rewrite H by now left. apply IH. intros; apply H; now right. Qed.
Lemma halve1_weight shape : forall ind v, length ind = length shape ->
  (fold_left (halve1 shape ind) (seq 0 (length shape)) v == edge_weight shape ind * v)%Q.
Proof.
  induction shape as [|n shape IH]; intros [|i ind] v H; try discriminate; [cbn; lra|].
  injection H as H. cbn [length seq fold_left]. rewrite <- seq_shift, fold_left_map.
  rewrite (fold_left_ext_in _ (halve1 shape ind)) by reflexivity. rewrite IH by exact H. cbn [edge_weight].
  unfold halve1. cbn [nth]. destruct (i =? 0), (i =? n - 1); field.
Qed.
Lemma half_edges_weight shape a : Forall (fun c => length (fst c) = length shape) a ->
  Forall2 (fun c c' => fst c' = fst c /\ (snd c' == edge_weight shape (fst c) * snd c)%Q) a (half_edges shape a).
Proof.
  unfold half_edges. rewrite half_edges_map. induction 1 as [|c a H F IH]; [constructor|]. cbn [map]. constructor; [|exact IH].
  split; [reflexivity|]. cbn [snd fst]. now apply halve1_weight.
Qed.

(** *** integrals *)
Lemma trapz_inner h : forall M a b, (trapz h (a :: M ++ [b]) == ((a + b) / 2 + sumq M) * h)%Q.
Proof.
  induction M as [|x M IH]; intros a b; [cbn; field|].
  change (a :: (x :: M) ++ [b]) with (a :: x :: (M ++ [b])). cbn [trapz].
  change (match M ++ [b] with [] => 0 | b0 :: _ => (x + b0) / 2 * h + trapz h (M ++ [b]) end)%Q with (trapz h (x :: M ++ [b])).
  rewrite IH, sumq_cons. field.
Qed.
Lemma ends_decomp {A} (P : list A) : 2 <= length P -> exists a M b, P = a :: M ++ [b].
Proof.
  destruct P as [|a P]; [cbn; lia|]. destruct P as [|x P] using rev_ind; [cbn; lia|]. intros _. now exists a, P, x.
Qed.
Lemma inner_app {A} (a b : A) M : inner (a :: M ++ [b]) = M.
Proof. unfold inner. cbn [tl]. apply removelast_last. Qed.
Lemma last_app {A} (a b d : A) M : last (a :: M ++ [b]) d = b.
Proof. change (a :: M ++ [b]) with ((a :: M) ++ [b]). apply last_last. Qed.
Lemma integrate1_trapz h P : 2 <= length P -> exists v, integrate1 h P = Ok v /\ (v == trapz h P)%Q.
Proof.
  intros H. destruct (ends_decomp P H) as [a [M [b ->]]]. eexists. split; [reflexivity|].
  rewrite trapz_inner, last_app, inner_app. reflexivity.
Qed.
Lemma sumq_map_ext {A} (f g : A -> Q) l : (forall x, In x l -> f x == g x)%Q -> (sumq (map f l) == sumq (map g l))%Q.
Proof. induction l as [|x l IH]; intros H; [reflexivity|]. cbn [map]. rewrite !sumq_cons. rewrite H by now left. rewrite IH; [reflexivity|]. intros; apply H; now right. Qed.
Lemma sumq_map_plus {A} (f g : A -> Q) l : (sumq (map (fun x => f x + g x) l) == sumq (map f l) + sumq (map g l))%Q.
Proof. induction l as [|x l IH]; [cbn; lra|]. cbn [map]. rewrite !sumq_cons, IH. lra. Qed.
Lemma sumq_map_scale {A} (k : Q) (f : A -> Q) l : (sumq (map (fun x => k * f x) l) == k * sumq (map f l))%Q.
Proof. induction l as [|x l IH]; [cbn; lra|]. cbn [map]. rewrite !sumq_cons, IH. lra. Qed.
Lemma trapz1_row (r : list Q) : 2 <= length r -> (trapz 1 r == (nth 0 r 0 + last r 0) / 2 + sumq (inner r))%Q.
Proof. intros H. destruct (ends_decomp r H) as [a [M [b ->]]]. rewrite trapz_inner, last_app, inner_app. cbn [nth]. ring. Qed.
Lemma integrate2_trapz h P cols : 2 <= length P -> 2 <= cols -> Forall (fun r => length r = cols) P ->
  exists v, integrate2 h P = Ok v /\ (v == trapz h (map (trapz 1) P))%Q.
Proof.
  intros H C F. destruct (ends_decomp P H) as [r0 [M [rn ->]]].
  assert (L0 : 2 <= length r0) by (inversion F; subst; lia).
  assert (Ln : 2 <= length rn) by (rewrite Forall_forall in F; rewrite (F rn); [exact C|right; apply in_or_app; right; now left]).
  assert (LM : forall r, In r M -> 2 <= length r) by (intros r I; rewrite Forall_forall in F; rewrite (F r); [exact C|right; apply in_or_app; now left]).
  unfold integrate2. destruct r0 as [|x r0']; [cbn in L0; lia|]. set (r0 := x :: r0') in *.
  eexists. split; [reflexivity|]. rewrite last_app, inner_app.
  cbn [map]. rewrite map_app. cbn [map]. rewrite trapz_inner, (trapz1_row r0), (trapz1_row rn) by assumption.
  assert (HM : (sumq (map (trapz 1) M) == sumq (map (fun r => ((1#2) * (nth 0 r 0) + (1#2) * (last r 0)) + sumq (inner r)) M))%Q).
  { apply sumq_map_ext. intros r I. rewrite trapz1_row by now apply LM. field. }
  rewrite HM.
  rewrite (sumq_map_plus (fun r => (1#2) * nth 0 r 0 + (1#2) * last r 0)%Q (fun r => sumq (inner r))), (sumq_map_plus (fun r => (1#2) * nth 0 r 0)%Q (fun r => (1#2) * last r 0)%Q), !sumq_map_scale.
  field.
Qed.
Lemma trapz_scale h n : ~ (n == 0)%Q -> forall l, (trapz h (map (fun v => v / n) l) == trapz h l / n)%Q.
Proof.
  intros N l. induction l as [|a l IH]; [cbn; field; exact N|]. destruct l as [|b l]; [cbn; field; exact N|].
  change (trapz h (map (fun v => v / n) (a :: b :: l)))%Q with ((a / n + b / n) / 2 * h + trapz h (map (fun v => v / n) (b :: l)))%Q.
  rewrite IH. change (trapz h (a :: b :: l)) with ((a + b) / 2 * h + trapz h (b :: l))%Q. field. exact N.
Qed.
Lemma trapz_ext h : forall l l', Forall2 Qeq l l' -> (trapz h l == trapz h l')%Q.
Proof.
  induction l as [|a l IH]; intros l' F; inversion F as [|? b ? m E F1]; subst; [reflexivity|].
  destruct l as [|a2 l]; inversion F1 as [|? b2 ? m2 E2 F2]; subst; [reflexivity|].
  change (trapz h (a :: a2 :: l)) with ((a + a2) / 2 * h + trapz h (a2 :: l))%Q.
  change (trapz h (b :: b2 :: m2)) with ((b + b2) / 2 * h + trapz h (b2 :: m2))%Q.
  rewrite (IH _ F1), E, E2. reflexivity.
Qed.
Lemma combine_seq_shift {B} (f : nat * B -> Q) l : forall k, map f (combine (seq (S k) (length l)) l) = map (fun p => f (S (fst p), snd p)) (combine (seq k (length l)) l).
Proof. induction l as [|x l IH]; intros k; [reflexivity|]. cbn. f_equal. apply IH. Qed.
Lemma weighted_const w c l : forall k, (forall i, k <= i < k + length l -> (w i == c)%Q) ->
  (sumq (map (fun p => w (fst p) * snd p) (combine (seq k (length l)) l)) == c * sumq l)%Q.
Proof.
  induction l as [|x l IH]; intros k H; [cbn; lra|]. cbn [length seq combine map fst snd]. rewrite !sumq_cons.
  rewrite IH by (intros i I; apply H; cbn; lia). rewrite H by (cbn; lia). lra.
Qed.
Lemma trapz_weighted h l : 2 <= length l -> (trapz h l == h * weighted (half_ends (length l)) l)%Q.
Proof.
  intros H. destruct (ends_decomp l H) as [a [M [b ->]]]. rewrite trapz_inner. unfold weighted. 
  set (n := length (a :: M ++ [b])). assert (Hn : n = S (S (length M))) by (unfold n; cbn; rewrite app_length; cbn; lia).
  assert (E : combine (seq 0 n) (a :: M ++ [b]) = (0, a) :: combine (seq 1 (length M)) M ++ [(S (length M), b)]).
  { rewrite Hn. cbn [seq combine]. f_equal. clear.
    assert (G : forall k, combine (seq k (S (length M))) (M ++ [b]) = combine (seq k (length M)) M ++ [(k + length M, b)]).
    { induction M as [|x M IH]; intros k; [cbn; now rewrite Nat.add_0_r|]. cbn [length]. change (seq k (S (S (length M)))) with (k :: seq (S k) (S (length M))).
      cbn [app combine]. rewrite IH. cbn. f_equal. f_equal. f_equal. f_equal. lia. }
    exact (G 1). }
  rewrite E. cbn [map fst snd]. rewrite map_app, sumq_cons, sumq_app. cbn [map fst snd]. rewrite sumq_cons.
  assert (E0 : half_ends n 0 = (1 # 2)) by reflexivity. assert (E1 : half_ends n (S (length M)) = (1 # 2)).
  { unfold half_ends. rewrite Hn. replace (S (length M) =? S (S (length M)) - 1) with true by (symmetry; apply Nat.eqb_eq; lia). now rewrite orb_true_r. }
  rewrite E0, E1. rewrite (weighted_const (half_ends n) 1 M 1).
  2:{ intros i I. unfold half_ends. rewrite Hn. replace (i =? 0) with false by (symmetry; apply Nat.eqb_neq; lia).
      replace (i =? S (S (length M)) - 1) with false by (symmetry; apply Nat.eqb_neq; lia). reflexivity. }
  cbn [sumq fold_right]. field.
Qed.
(** maximum *)
Lemma maxq_fold r : forall x, let m := fold_left (fun a y => if Qle_bool a y then y else a) r x in In m (x :: r) /\ forall y, In y (x :: r) -> (y <= m)%Q.
Proof.
  induction r as [|z r IH]; intros x; cbn [fold_left].
  - split; [now left|]. intros y [<-|[]]. lra.
  - destruct (Qle_bool x z) eqn:E.
    + apply Qle_bool_iff in E. destruct (IH z) as [I B]. split; [right; exact I|]. intros y [<-|I2]; [|now apply B]. specialize (B z (or_introl eq_refl)). lra.
    + assert (z < x)%Q by (apply Qlt_b_iff; unfold Qlt_b; now rewrite E). destruct (IH x) as [I B]. split; [destruct I as [I|I]; [now left|right; now right]|].
      intros y [<-|[<-|I2]]; [apply B; now left| |apply B; now right]. specialize (B x (or_introl eq_refl)). lra.
Qed.
Lemma maxq_spec l m : maxq l = Ok m -> In m l /\ forall y, In y l -> (y <= m)%Q.
Proof. destruct l as [|x r]; [discriminate|]. cbn [maxq]. intros H. injection H as <-. apply maxq_fold. Qed.

(** *** n dimensions *)
Lemma pow2_pos n : (0 < pow2 n)%Q.
Proof. induction n as [|n IH]; cbn [pow2]; [reflexivity|]. lra. Qed.
Lemma pow2_add a b : (pow2 (a + b) == pow2 a * pow2 b)%Q.
Proof. induction a as [|a IH]; cbn [Nat.add pow2]; [ring|]. rewrite IH. ring. Qed.
Lemma edge_weight_pow shape : forall ind, length ind = length shape -> (edge_weight shape ind == / pow2 (nboundaries shape ind))%Q.
Proof.
  induction shape as [|n shape IH]; intros [|i ind] H; try discriminate; [reflexivity|]. injection H as H. cbn [edge_weight].
  rewrite IH by exact H. unfold nboundaries. cbn [filter combine fst snd]. 
  pose proof (pow2_pos (length (filter (fun i0 => i0 =? 0) ind) + length (filter (fun p => fst p =? snd p - 1) (combine ind shape)))) as P.
  destruct (i =? 0), (i =? n - 1); cbn [length];
  [replace (S (length (filter (fun i0 => i0 =? 0) ind)) + S (length (filter (fun p => fst p =? snd p - 1) (combine ind shape)))) with
    (S (S (length (filter (fun i0 => i0 =? 0) ind) + length (filter (fun p => fst p =? snd p - 1) (combine ind shape))))) by lia
  | replace (S (length (filter (fun i0 => i0 =? 0) ind)) + length (filter (fun p => fst p =? snd p - 1) (combine ind shape))) with
    (S (length (filter (fun i0 => i0 =? 0) ind) + length (filter (fun p => fst p =? snd p - 1) (combine ind shape)))) by lia
  | replace (length (filter (fun i0 => i0 =? 0) ind) + S (length (filter (fun p => fst p =? snd p - 1) (combine ind shape)))) with
    (S (length (filter (fun i0 => i0 =? 0) ind) + length (filter (fun p => fst p =? snd p - 1) (combine ind shape)))) by lia | ];
  cbn [pow2]; set (w := pow2 _) in *; field; try lra; intros C; lra.
Qed.
Lemma nboundaries_le shape : Forall (fun n => 2 <= n) shape -> forall ind, length ind = length shape -> nboundaries shape ind <= length shape.
Proof.
  intros F ind. revert ind. induction F as [|n shape Hn F IH]; intros [|i ind] H; try discriminate; [cbn; lia|]. injection H as H. specialize (IH ind H).
  unfold nboundaries in *. cbn [filter combine fst snd length]. destruct (i =? 0) eqn:E0.
  - apply Nat.eqb_eq in E0. subst i. replace (0 =? n - 1) with false by (symmetry; apply Nat.eqb_neq; lia). cbn [length]. lia.
  - destruct (i =? n - 1); cbn [length]; lia.
Qed.
Definition wsum (k : nat) (mn : list Q) : Q := sumq (map (fun p => (snd p / pow2 (fst p))%Q) (combine (seq k (length mn)) mn)).
Lemma wsum_cons k x mn : (wsum k (x :: mn) == x / pow2 k + wsum (S k) mn)%Q.
Proof. unfold wsum. cbn [length seq combine map fst snd]. rewrite sumq_cons. reflexivity. Qed.
Lemma add_at_wsum v : forall mn j k, k < length mn -> exists mn', add_at k v mn = Ok mn' /\ length mn' = length mn /\ (wsum j mn' == wsum j mn + v / pow2 (j + k))%Q.
Proof.
  induction mn as [|x mn IH]; intros j k H; [cbn in H; lia|]. destruct k as [|k].
  - eexists. split; [reflexivity|]. split; [reflexivity|]. cbn [firstn skipn app]. rewrite !wsum_cons, Nat.add_0_r. pose proof (pow2_pos j). field. lra.
  - cbn in H. destruct (IH (S j) k ltac:(lia)) as [mn' [E [L W]]]. unfold add_at in *. cbn [nth_error]. destruct (nth_error mn k) as [y|]; [|discriminate].
    injection E as <-. eexists. split; [reflexivity|]. change (firstn (S k) (x :: mn) ++ (y + v)%Q :: skipn (S (S k)) (x :: mn)) with (x :: (firstn k mn ++ (y + v)%Q :: skipn (S k) mn)).
    change (match mn with [] => [] | _ :: l => skipn k l end) with (skipn (S k) mn) in L, W.
    split; [change (length (x :: (firstn k mn ++ (y + v)%Q :: skipn (S k) mn))) with (S (length (firstn k mn ++ (y + v)%Q :: skipn (S k) mn))); rewrite L; reflexivity|].
    rewrite !wsum_cons, W. replace (j + S k) with (S j + k) by lia. apply Qplus_assoc.
Qed.
Lemma integrateN_weights shape P : Forall (fun n => 2 <= n) shape -> length shape <= nth 0 shape 0 -> Forall (fun c => length (fst c) = length shape) P ->
  exists v, integrateN shape P = Ok v /\ (v == sumq (map (fun c => edge_weight shape (fst c) * snd c) P))%Q.
Proof.
  intros F B C. unfold integrateN.
  assert (G : forall P mn, Forall (fun c => length (fst c) = length shape) P -> length mn = nth 0 shape 0 + 1 ->
    exists mn', fold_left (fun a c => bindR a (add_at (nboundaries shape (fst c)) (snd c))) P (Ok mn) = Ok mn' /\
      (wsum 0 mn' == wsum 0 mn + sumq (map (fun c => edge_weight shape (fst c) * snd c) P))%Q).
  { clear P C. induction P as [|c P IH]; intros mn C L.
    - exists mn. split; [reflexivity|]. cbn. lra.
    - inversion C as [|? ? Hc C']; subst. cbn [fold_left bindR].
      destruct (add_at_wsum (snd c) mn 0 (nboundaries shape (fst c))) as [mn' [E [L' W]]]; [pose proof (nboundaries_le shape F (fst c) Hc); lia|].
      rewrite E. destruct (IH mn' C' ltac:(lia)) as [mn2 [E2 W2]]. exists mn2. split; [exact E2|]. rewrite W2, W. cbn [map Nat.add].
      rewrite sumq_cons, (edge_weight_pow shape (fst c) Hc). unfold Qdiv. ring. }
  destruct (G P (repeat 0%Q (nth 0 shape 0 + 1)) C) as [mn' [E W]]; [apply repeat_length|]. rewrite E. cbn [bindR].
  eexists. split; [reflexivity|]. fold (wsum 0 mn'). rewrite W.
  assert (Z : forall n k, (wsum k (repeat 0%Q n) == 0)%Q).
  { induction n as [|n IHn]; intros k; [reflexivity|]. cbn [repeat]. rewrite wsum_cons, IHn. pose proof (pow2_pos k). field. lra. }
  rewrite Z. lra.
Qed.

(** *** FFT sizes *)
Lemma bisect_spec a x : StronglySorted Z.le a -> forall fuel lo hi, hi - lo <= fuel -> lo <= hi <= length a ->
  (forall i, i < lo -> (nth i a 0 < x)%Z) -> (forall i, hi <= i < length a -> (x <= nth i a 0)%Z) ->
  let r := bisect fuel a x lo hi in lo <= r <= hi /\ (forall i, i < r -> (nth i a 0 < x)%Z) /\ (forall i, r <= i < length a -> (x <= nth i a 0)%Z).
Proof.
  intros S. assert (Mono : forall i j, i <= j < length a -> (nth i a 0 <= nth j a 0)%Z).
  { clear -S. induction S as [|y l S IH F]; intros i j H; [cbn in H; lia|]. destruct i as [|i], j as [|j]; cbn [nth]; try lia.
    - rewrite Forall_forall in F. apply F. apply nth_In. cbn in H. lia.
    - apply IH. cbn in H. lia. }
  induction fuel as [|k IH]; intros lo hi Hf Hb Hlo Hhi; cbn [bisect].
  - split; [lia|]. split; [exact Hlo|]. intros i I. apply Hhi. lia.
  - destruct (lo <? hi) eqn:E.
    + apply Nat.ltb_lt in E. set (mid := (lo + hi) / 2). assert (Hm : lo <= mid < hi).
      { unfold mid. split; [apply Nat.div_le_lower_bound; lia|apply Nat.div_lt_upper_bound; lia]. }
      destruct (nth mid a 0 <? x)%Z eqn:C.
      * apply Z.ltb_lt in C. destruct (IH (Datatypes.S mid) hi ltac:(lia) ltac:(lia)) as [B [R1 R2]]; [|exact Hhi|].
        -- intros i I. destruct (Nat.lt_ge_cases i lo); [now apply Hlo|]. assert (nth i a 0 <= nth mid a 0)%Z by (apply Mono; lia). lia.
        -- cbn zeta in B |- *. split; [lia|]. now split.
      * apply Z.ltb_ge in C. destruct (IH lo mid ltac:(lia) ltac:(lia)) as [B [R1 R2]]; [exact Hlo| |].
        -- intros i I. assert (nth mid a 0 <= nth i a 0)%Z by (apply Mono; lia). lia.
        -- cbn zeta in B |- *. split; [lia|]. now split.
    + apply Nat.ltb_ge in E. split; [lia|]. split; [exact Hlo|]. intros i I. apply Hhi. lia.
Qed.
Fixpoint inc (l : list Z) : bool := match l with a :: ((b :: _) as r) => (a <? b)%Z && inc r | _ => true end.
Lemma inc_sorted l : inc l = true -> StronglySorted Z.lt l.
Proof.
  intros H. apply Sorted_StronglySorted; [intros a b c; lia|]. induction l as [|a l IH]; [constructor|]. destruct l as [|b l]; [repeat constructor|].
  cbn [inc] in H. apply andb_true_iff in H. destruct H as [H1 H2]. constructor; [now apply IH|]. constructor. now apply Z.ltb_lt.
Qed.
Lemma fastFFT_sorted : StronglySorted Z.lt fastFFT.
Proof. apply inc_sorted. vm_compute. reflexivity. Qed.
Lemma ss_weaken l : StronglySorted Z.lt l -> StronglySorted Z.le l.
Proof. induction 1 as [|a l S IH F]; constructor; [exact IH|]. eapply Forall_impl; [|exact F]. cbn. lia. Qed.
