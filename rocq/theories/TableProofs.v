(** Facts about result tables. *)
From Verif Require Import PyBase PyNum PyStrFacts TableModel TableSpec.
From Coq Require Import String Ascii Bool List Lia.
Import ListNotations.
Local Open Scope nat_scope.
Local Open Scope list_scope.

(** ** rows and columns *)
Lemma append_at_length {A} i (x : A) rows : List.length (append_at i x rows) = List.length rows.
Proof. revert i. induction rows as [|r rs IH]; intros [|i]; cbn; auto. Qed.
Lemma append_at_nth {A} i (x : A) rows r : i < List.length rows ->
  nth r (append_at i x rows) [] = nth r rows [] ++ (if r =? i then [x] else []).
Proof.
  revert i r. induction rows as [|a rs IH]; intros i r H; [cbn in H; lia|].
  destruct i as [|i], r as [|r]; cbn [append_at nth Nat.eqb]; rewrite ?app_nil_r; try reflexivity.
  apply IH. cbn in H. lia.
Qed.
Lemma fill_nth {A} (g : nat -> A) a k rows : k <= List.length rows ->
  let rows' := fold_left (fun rs i => append_at (i - a) (g i) rs) (seq a k) rows in
  List.length rows' = List.length rows /\
  forall r, nth r rows' [] = nth r rows [] ++ (if r <? k then [g (a + r)] else []).
Proof.
  induction k as [|k IH]; intros Hk; cbn zeta.
  - split; [reflexivity|]. intros r. cbn [seq fold_left]. destruct (Nat.ltb_spec r 0); [lia|]. now rewrite app_nil_r.
  - rewrite seq_S, fold_left_app. cbn [fold_left]. specialize (IH ltac:(lia)). cbn zeta in IH. destruct IH as [L1 N1].
    set (rs := fold_left _ (seq a k) rows) in *. split; [now rewrite append_at_length|].
    intros r. rewrite append_at_nth by lia. rewrite N1. replace (a + k - a) with k by lia. rewrite <- app_assoc. f_equal.
    destruct (Nat.ltb_spec r k), (Nat.eqb_spec r k), (Nat.ltb_spec r (S k)); try lia; subst; reflexivity.
Qed.
Lemma add_column_nth {A} d (names : list A) numrow col rows : List.length rows = numrow ->
  List.length (add_column d names numrow col rows) = numrow /\
  forall r, r < numrow -> nth r (add_column d names numrow col rows) [] =
    nth r rows [] ++ (if numrow * col + r <? List.length names then [nth (numrow * col + r) names d] else []).
Proof.
  intros H. unfold add_column. set (k := Nat.min (numrow * (col + 1)) (List.length names) - numrow * col).
  assert (Hk : k <= List.length rows) by (unfold k; rewrite H, Nat.mul_add_distr_l; lia).
  destruct (fill_nth (fun i => nth i names d) (numrow * col) k rows Hk) as [L1 N1]. cbn zeta in *.
  split; [lia|]. intros r Hr. rewrite N1. f_equal.
  destruct (Nat.ltb_spec r k), (Nat.ltb_spec (numrow * col + r) (List.length names)); try reflexivity; unfold k in *; rewrite Nat.mul_add_distr_l in *; lia.
Qed.

Lemma num_rows_bounds n ncol : ncol <> 0 -> n <= num_rows n ncol * ncol /\ num_rows n ncol <= n /\
  (n <> 0 -> (num_rows n ncol - 1) * ncol < n) /\ (n <> 0 -> 1 <= num_rows n ncol).
Proof.
  intros H. unfold num_rows. pose proof (Nat.div_mod n ncol H) as E. pose proof (Nat.mod_upper_bound n ncol H) as B.
  set (q := n / ncol) in *. set (m := n mod ncol) in *. destruct (Nat.eqb_spec m 0) as [M|M].
  - rewrite Nat.add_0_r. repeat split; nia.
  - repeat split; try nia.
Qed.

Definition cell_list {A} (d : A) (names : list A) numrow m r : list A :=
  map (fun c => nth (numrow * c + r) names d) (filter (fun c => numrow * c + r <? List.length names) (seq 0 m)).
Lemma table_rows_nth {A} d (names : list A) ncol rows : table_rows d names ncol = Ok rows ->
  ncol <> 0 /\ List.length rows = num_rows (List.length names) ncol /\
  forall r, r < List.length rows -> nth r rows [] = cell_list d names (num_rows (List.length names) ncol) ncol r.
Proof.
  unfold table_rows. destruct (Nat.eqb_spec ncol 0) as [|N]; [discriminate|]. intros [= <-]. split; [exact N|].
  destruct (num_rows_bounds (List.length names) ncol N) as (B1 & B2 & _). set (nr := num_rows (List.length names) ncol) in *.
  assert (G : forall m, let rs := fold_left (fun rs col => add_column d names nr col rs) (seq 1 m) (map (fun p => [p]) (firstn nr names)) in
     List.length rs = nr /\ forall r, r < nr -> nth r rs [] = cell_list d names nr (S m) r).
  { induction m as [|m IH]; cbn zeta.
    - cbn [seq fold_left]. rewrite map_length, firstn_length, Nat.min_l by lia. split; [reflexivity|].
      intros r Hr. unfold cell_list. cbn [seq filter]. rewrite Nat.mul_0_r, Nat.add_0_l.
      destruct (Nat.ltb_spec r (List.length names)); [|lia]. cbn [map]. rewrite Nat.mul_0_r, Nat.add_0_l.
      rewrite (nth_indep _ [] [d]) by (rewrite map_length, firstn_length; lia). rewrite (map_nth (fun p => [p])). f_equal.
      rewrite <- (firstn_skipn nr names) at 2. rewrite app_nth1; [reflexivity|]. rewrite firstn_length. lia.
    - rewrite seq_S, fold_left_app. cbn [fold_left]. destruct IH as [L1 N1].
      set (rs := fold_left _ (seq 1 m) _) in *. destruct (add_column_nth d names nr (1 + m) rs L1) as [L2 N2].
      split; [exact L2|]. intros r Hr. rewrite N2, N1 by exact Hr. unfold cell_list. rewrite (seq_S (S m) 0), filter_app, map_app. f_equal.
      cbn [filter Nat.add]. destruct (nr * S m + r <? List.length names); reflexivity. }
  destruct (G (ncol - 1)) as [L1 N1]. cbn zeta in *. replace (S (ncol - 1)) with ncol in N1 by lia.
  split; [exact L1|]. intros r Hr. apply N1. lia.
Qed.

(** a filter that keeps an initial part of a range *)
Lemma filter_seq (p : nat -> bool) m : (forall a b, a <= b -> p b = true -> p a = true) ->
  forall c, nth_error (filter p (seq 0 m)) c = if (c <? m) && p c then Some c else None.
Proof.
  intros Hp. assert (G : exists k, k <= m /\ filter p (seq 0 m) = seq 0 k /\ (forall c, c < m -> p c = (c <? k))).
  { induction m as [|m (k & K1 & K2 & K3)]; [exists 0; split; [lia|]; split; [reflexivity|]; intros; lia|].
    rewrite seq_S, filter_app, K2. cbn [filter]. destruct (p (0 + m)) eqn:E; cbn [Nat.add] in E.
    - assert (k = m).
      { destruct (Nat.eq_dec k m); [assumption|]. specialize (K3 k ltac:(lia)). rewrite Nat.ltb_irrefl in K3.
        rewrite (Hp k m) in K3; [discriminate|lia|exact E]. }
      subst k. exists (S m). split; [lia|]. split; [now rewrite seq_S|]. intros c Hc. rewrite (Hp c m) by (try exact E; lia). symmetry. apply Nat.ltb_lt. lia.
    - exists k. split; [lia|]. split; [now rewrite app_nil_r|]. intros c Hc. destruct (Nat.eq_dec c m) as [->|].
      + rewrite E. symmetry. apply Nat.ltb_ge. exact K1.
      + apply K3. lia. }
  destruct G as (k & K1 & K2 & K3). intros c. rewrite K2. destruct (Nat.ltb_spec c m) as [A|A].
  - rewrite K3 by exact A. cbn [andb]. destruct (Nat.ltb_spec c k).
    + rewrite nth_error_nth' with (d := 0) by (rewrite seq_length; lia). rewrite seq_nth by lia. reflexivity.
    + apply nth_error_None. rewrite seq_length. lia.
  - cbn [andb]. apply nth_error_None. rewrite seq_length. lia.
Qed.
Lemma cell_nth {A} d (names : list A) nr m r c :
  nth_error (cell_list d names nr m r) c = if c <? m then nth_error names (nr * c + r) else None.
Proof.
  unfold cell_list. rewrite nth_error_map, filter_seq.
  - destruct (c <? m); cbn [andb]; [|reflexivity]. destruct (Nat.ltb_spec (nr * c + r) (List.length names)); cbn [option_map].
    + symmetry. now apply nth_error_nth'.
    + symmetry. now apply nth_error_None.
  - intros a b Hab. rewrite !Nat.ltb_lt. intros H. nia.
Qed.
Lemma flat_map_ext_in {A B} (f g : A -> list B) l : (forall x, In x l -> f x = g x) -> flat_map f l = flat_map g l.
Proof. induction l as [|x l IH]; intros H; [reflexivity|]. cbn. rewrite H by now left. rewrite IH; [reflexivity|]. intros; apply H; now right. Qed.
Lemma flat_map_nth {A B} (f : list A -> list B) (l : list (list A)) :
  flat_map f l = flat_map (fun r => f (nth r l [])) (seq 0 (List.length l)).
Proof.
  induction l as [|x l IH]; [reflexivity|]. cbn [flat_map List.length seq nth]. f_equal. rewrite IH, <- seq_shift.
  rewrite !flat_map_concat_map, map_map. reflexivity.
Qed.
Lemma block {A} (l : list A) a k :
  flat_map (fun r => match nth_error l (a + r) with Some x => [x] | None => [] end) (seq 0 k) = firstn k (skipn a l).
Proof.
  revert a. induction k as [|k IH]; intros a; [reflexivity|]. cbn [seq flat_map]. rewrite <- seq_shift, flat_map_concat_map, map_map, <- flat_map_concat_map.
  rewrite (flat_map_ext_in _ (fun r => match nth_error l (S a + r) with Some x => [x] | None => [] end)).
  2:{ intros r _. now replace (a + S r) with (S a + r) by lia. }
  rewrite IH, Nat.add_0_r. destruct (nth_error l a) as [x|] eqn:E.
  - apply nth_error_split in E as (l1 & l2 & -> & <-).
    rewrite !skipn_app, skipn_all, Nat.sub_diag. replace (S (List.length l1) - List.length l1) with 1 by lia.
    rewrite skipn_all2 by lia. reflexivity.
  - apply nth_error_None in E. rewrite !skipn_all2 by lia. now rewrite !firstn_nil.
Qed.
Lemma blocks {A} (l : list A) k n : flat_map (fun c => firstn k (skipn (k * c) l)) (seq 0 n) = firstn (k * n) l.
Proof.
  induction n as [|n IH]; [now rewrite Nat.mul_0_r|]. rewrite seq_S, flat_map_app, IH. cbn [flat_map Nat.add]. rewrite app_nil_r.
  rewrite Nat.mul_succ_r. rewrite <- (firstn_skipn (k * n) l) at 3. rewrite firstn_app, firstn_firstn, Nat.min_r by lia.
  rewrite firstn_length. destruct (Nat.le_gt_cases (k * n) (List.length l)).
  - rewrite Nat.min_l by lia. replace (k * n + k - k * n) with k by lia. reflexivity.
  - rewrite skipn_all2 by lia. now rewrite !firstn_nil.
Qed.

Lemma filter_len {A} (p : A -> bool) l : List.length (filter p l) <= List.length l.
Proof. induction l as [|x l IH]; [apply le_n|]. cbn [filter]. destruct (p x); cbn [List.length]; lia. Qed.

Lemma repeat_length_concat {A} (l : list A) n : List.length (concat (repeat l n)) = n * List.length l.
Proof. induction n as [|n IH]; [reflexivity|]. cbn [repeat concat]. rewrite app_length, IH. lia. Qed.

(** ** counting *)
Lemma count_app c a b : count c (a ++ b) = count c a + count c b.
Proof. apply count_occ_app. Qed.
Lemma count_times c n s : count c (times n s) = n * count c s.
Proof. induction n as [|n IH]; [reflexivity|]. unfold times in *. cbn [repeat concat]. rewrite count_app, IH. lia. Qed.
Lemma declared_app a b : declared (a ++ b) = declared a + declared b.
Proof. unfold declared. rewrite !count_app. lia. Qed.
Lemma declared_times n s : declared (times n s) = n * declared s.
Proof. unfold declared. rewrite !count_times. lia. Qed.
Lemma count_join c sep l : l <> [] -> count c (join sep l) + count c sep = list_sum (map (fun s => count c s + count c sep) l).
Proof.
  induction l as [|x l IH]; [contradiction|]. intros _. destruct l as [|y l]; [cbn [join map]; unfold list_sum; cbn [fold_right]; lia|].
  change (join sep (x :: y :: l)) with (x ++ sep ++ join sep (y :: l)). rewrite !count_app.
  specialize (IH ltac:(discriminate)). change (map (fun s => count c s + count c sep) (x :: y :: l)) with
    ((count c x + count c sep) :: map (fun s => count c s + count c sep) (y :: l)).
  change (list_sum ((count c x + count c sep) :: map (fun s => count c s + count c sep) (y :: l))) with
    ((count c x + count c sep) + list_sum (map (fun s => count c s + count c sep) (y :: l))). rewrite <- IH. lia.
Qed.
Lemma list_sum_const {A} (f : A -> nat) k l : (forall x, In x l -> f x = k) -> list_sum (map f l) = List.length l * k.
Proof. induction l as [|x l IH]; intros H; [reflexivity|].
  change (list_sum (map f (x :: l))) with (f x + list_sum (map f l)). rewrite H by now left. rewrite IH; [cbn [List.length]; lia|]. intros; apply H; now right. Qed.
Lemma count_textAsColumn f txt latex sep bold : good_fmt f -> count "&"%char txt = 0 ->
  count "&"%char (textAsColumn f txt latex sep bold) = if sep then 1 else 0.
Proof.
  intros G H. unfold textAsColumn. set (r := txt ++ times _ (f_spacer f)).
  assert (R : count "&"%char r = 0) by (unfold r; rewrite count_app, count_times, (g_spacer f G); lia).
  assert (T : count "&"%char (texEquation r) = 0).
  { unfold texEquation. destruct r as [|c r']; [reflexivity|]. destruct (ch_eqb c "$"%char); [exact R|].
    rewrite !count_app. rewrite R. reflexivity. }
  set (q := if latex then _ else r).
  assert (Q : count "&"%char q = 0).
  { unfold q. destruct latex; [|exact R]. destruct bold; [|exact T]. rewrite !count_app, T. reflexivity. }
  destruct sep; [|exact Q]. rewrite count_app, Q, (g_sep f G). reflexivity.
Qed.
