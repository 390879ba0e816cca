(** Facts about histograms and combined samples. *)
From Verif Require Import PyStr PyBase PyStrFacts ThinModel ThinProofs ConfModel ConfProofs HistModel HistSpec.
From Coq Require Import ZArith QArith Qabs Qminmax Qfield Lqa String Ascii Bool List Lia.
Import ListNotations.
Local Open Scope nat_scope.
Local Open Scope list_scope.

Lemma trunc_upper q : (0 <= q)%Q -> (q < inject_Z (trunc q) + 1)%Q.
Proof.
  destruct q as [n d]. unfold trunc, Qle, Qlt, inject_Z. cbn. rewrite !Z.mul_1_r. intros H.
  rewrite Z.quot_div_nonneg by lia. pose proof (Z.mod_pos_bound n (Z.pos d) ltac:(lia)). pose proof (Z.div_mod n (Z.pos d) ltac:(lia)). nia.
Qed.
Lemma edges_cover par bf vec : covers par vec -> (range_min par <= range_max par)%Q -> (0 <= bf)%Q ->
  let e := bin_edges par bf in Forall (fun v => fst e <= v /\ v <= snd e)%Q vec /\
    (fst e <= p_min par /\ p_max par <= snd e /\ fst e <= range_min par /\ range_max par <= snd e)%Q.
Proof.
  intros C R B e. unfold bin_edges in e. cbn zeta in e.
  set (border := ((range_max par - range_min par) * bf)%Q) in *. assert (Hb : (0 <= border)%Q) by (unfold border; nra). clearbody border.
  pose proof (Q.le_min_l (p_min par) (range_min par)). pose proof (Q.le_min_r (p_min par) (range_min par)).
  pose proof (Q.le_max_l (p_max par) (range_max par)). pose proof (Q.le_max_r (p_max par) (range_max par)).
  assert (E : (fst e <= p_min par /\ p_max par <= snd e /\ fst e <= range_min par /\ range_max par <= snd e)%Q).
  { unfold e. cbn [fst snd]. destruct (has_bot par), (has_top par); repeat split; lra. }
  split; [|exact E]. unfold covers in C. rewrite Forall_forall in *. intros v Hv. specialize (C v Hv). lra.
Qed.
Lemma bin_index v b0 b1 (n : nat) : (b0 <= v)%Q -> (v <= b1)%Q -> (b0 < b1)%Q -> 2 <= n ->
  let w := ((b1 - b0) / inject_Z (Z.of_nat n - 1))%Q in let i := trunc ((v - b0) / w + (1 # 2))%Q in
  (0 < w)%Q /\ (0 <= i < Z.of_nat n)%Z /\ (Qabs (v - (b0 + inject_Z i * w)) <= w / 2)%Q.
Proof.
  intros H0 H1 Hb Hn w i.
  assert (Hm : (0 < inject_Z (Z.of_nat n - 1))%Q) by (rewrite <- (Zlt_Qlt 0); lia).
  set (m := inject_Z (Z.of_nat n - 1)) in *.
  assert (Hw : (0 < w)%Q) by (unfold w; apply Qlt_shift_div_l; lra).
  assert (Ew : (w * m == b1 - b0)%Q) by (unfold w; field; lra).
  set (t := ((v - b0) / w)%Q) in *. assert (Et : (t * w == v - b0)%Q) by (unfold t; field; lra).
  assert (Ht0 : (0 <= t)%Q) by nra. assert (Htm : (t <= m)%Q) by nra.
  assert (Hq : (0 <= t + (1 # 2))%Q) by lra.
  destruct (trunc_nonneg _ Hq) as (T0 & T1). pose proof (trunc_upper _ Hq) as T2. fold i in T0, T1, T2.
  split; [exact Hw|]. split.
  - split; [exact T0|]. assert (X : (inject_Z i < inject_Z (Z.of_nat n))%Q).
    { assert (Em : (m == inject_Z (Z.of_nat n) - 1)%Q). { unfold m. unfold Z.sub. rewrite inject_Z_plus. change (inject_Z (- (1))) with (- (1))%Q. ring. } lra. }
    now rewrite <- Zlt_Qlt in X.
  - assert (E : (v - (b0 + inject_Z i * w) == (t - inject_Z i) * w)%Q) by (transitivity (t * w - inject_Z i * w)%Q; [rewrite Et; ring|ring]).
    rewrite E. apply Qabs_Qle_condition. assert (A : (t - inject_Z i <= 1 # 2)%Q) by lra. assert (B : (-(1 # 2) <= t - inject_Z i)%Q) by lra.
    assert (E2 : (w / 2 == (1 # 2) * w)%Q) by field. rewrite E2. clear - Hw A B. split; nra.
Qed.

(** ** bincount *)
Lemma weight_cons {A} (p : A -> bool) x l : weight_of p (x :: l) = if p (fst x) then (snd x + weight_of p l)%Q else weight_of p l.
Proof. unfold weight_of. cbn. destruct (p (fst x)); reflexivity. Qed.
Lemma weight_ext {A} (p q : A -> bool) l : (forall x, In x l -> p (fst x) = q (fst x)) -> weight_of p l = weight_of q l.
Proof.
  induction l as [|x l IH]; intros H; [reflexivity|]. rewrite !weight_cons, (H x (or_introl eq_refl)), IH; [reflexivity|].
  intros y Hy. apply H. now right.
Qed.
Lemma sum_indicator (x : Q) i n : 0 <= i < n -> (sumQ (map (fun k => if (i =? k)%nat then x else 0%Q) (seq 0 n)) == x)%Q.
Proof.
  assert (G : forall n a, (sumQ (map (fun k => if (i =? k)%nat then x else 0%Q) (seq a n)) == if (a <=? i) && (i <? a + n) then x else 0)%Q).
  { clear n. induction n as [|n IH]; intros a; cbn [seq map].
    - change (sumQ []) with 0%Q. destruct (Nat.leb_spec a i), (Nat.ltb_spec i (a + 0)); cbn; try reflexivity; lia.
    - change (sumQ (?y :: ?l)) with (y + sumQ l)%Q. rewrite IH.
      destruct (Nat.eqb_spec i a), (Nat.leb_spec (S a) i), (Nat.ltb_spec i (S a + n)), (Nat.leb_spec a i), (Nat.ltb_spec i (a + S n)); cbn [andb]; try lia; ring. }
  intros H. rewrite G. destruct (Nat.leb_spec 0 i), (Nat.ltb_spec i (0 + n)); cbn; try reflexivity; lia.
Qed.
Lemma sumQ_map_plus {A} (f g : A -> Q) l : (sumQ (map (fun k => f k + g k)%Q l) == sumQ (map f l) + sumQ (map g l))%Q.
Proof. unfold sumQ. induction l as [|x l IH]; cbn; [ring|]. rewrite IH. ring. Qed.
Lemma sumQ_map_ext {A} (f g : A -> Q) l : (forall x, In x l -> f x == g x)%Q -> (sumQ (map f l) == sumQ (map g l))%Q.
Proof.
  unfold sumQ. induction l as [|x l IH]; intros H; cbn; [reflexivity|]. rewrite (H x (or_introl eq_refl)), IH; [reflexivity|].
  intros y Hy. apply H. now right.
Qed.
Lemma sum_bins (iw : list (Z * Q)) n : Forall (fun x => 0 <= fst x < Z.of_nat n)%Z iw ->
  (sumQ (map (fun k => weight_of (fun i => (i =? Z.of_nat k)%Z) iw) (seq 0 n)) == sumQ (map snd iw))%Q.
Proof.
  induction 1 as [|[i w] iw Hi _ IH]; cbn [map snd].
  - rewrite (sumQ_map_ext _ (fun _ => 0%Q)) by reflexivity. generalize (seq 0 n). induction l as [|k l IH]; [reflexivity|].
    cbn [map]. change (sumQ (?y :: ?l)) with (y + sumQ l)%Q. rewrite IH. reflexivity.
  - cbn [fst] in Hi. rewrite (sumQ_map_ext _ (fun k => (if (Z.to_nat i =? k)%nat then w else 0) + weight_of (fun i => (i =? Z.of_nat k)%Z) iw)%Q).
    + rewrite sumQ_map_plus, IH, sum_indicator by lia. reflexivity.
    + intros k _. rewrite weight_cons. cbn [fst snd]. destruct (Z.eqb_spec i (Z.of_nat k)), (Nat.eqb_spec (Z.to_nat i) k); try lia; ring.
Qed.
Lemma size_le (ix : list Z) n : Forall (fun i => 0 <= i < Z.of_nat n)%Z ix -> fold_right Nat.max 0 (map (fun i => S (Z.to_nat i)) ix) <= n.
Proof. induction 1 as [|i ix H _ IH]; cbn [map fold_right]; lia. Qed.
Lemma bincount_ok ix ws n : Forall (fun i => 0 <= i < Z.of_nat n)%Z ix -> List.length ix = List.length ws ->
  bincount ix ws n = Ok (map (fun k => weight_of (fun i => (i =? Z.of_nat k)%Z) (combine ix ws)) (seq 0 n)).
Proof.
  intros H E. unfold bincount. assert (N : existsb (fun i => (i <? 0)%Z) ix = false).
  { apply not_true_is_false. intros T. apply existsb_exists in T as (i & Hi & L0). rewrite Forall_forall in H. specialize (H i Hi). apply Z.ltb_lt in L0. lia. }
  rewrite N, E, Nat.eqb_refl. cbn [negb]. rewrite Nat.max_l by now apply size_le. reflexivity.
Qed.
Lemma in_combine_fst {A B} (a : list A) (b : list B) (P : A -> Prop) : Forall P a -> Forall (fun x => P (fst x)) (combine a b).
Proof. intros H. revert b. induction H; intros [|y b]; cbn; constructor; auto. Qed.

(** ** reshape *)
Lemma chop_length {A} cols rows (l : list A) : List.length (chop cols rows l) = rows.
Proof. revert l. induction rows as [|r IH]; intros l; cbn; [reflexivity|]. now rewrite IH. Qed.
Lemma chop_concat {A} cols rows (l : list A) : List.length l = rows * cols -> concat (chop cols rows l) = l.
Proof.
  revert l. induction rows as [|r IH]; intros l H; cbn in *; [now destruct l|]. rewrite IH; [apply firstn_skipn|]. rewrite skipn_length. lia.
Qed.
Lemma chop_rows {A} cols rows (l : list A) : List.length l = rows * cols -> Forall (fun r => List.length r = cols) (chop cols rows l).
Proof.
  revert l. induction rows as [|r IH]; intros l H; cbn in *; constructor.
  - rewrite firstn_length. lia.
  - apply IH. rewrite skipn_length. lia.
Qed.
Lemma nth_firstn {A} (l : list A) d : forall k i, i < k -> nth i (firstn k l) d = nth i l d.
Proof. induction l as [|x l IH]; intros [|k] [|i] H; cbn; try reflexivity; try lia. apply IH. lia. Qed.
Lemma nth_skipn {A} (l : list A) d : forall k i, nth i (skipn k l) d = nth (k + i) l d.
Proof. induction l as [|x l IH]; intros [|k] i; cbn; try reflexivity; [now destruct i|]. apply IH. Qed.
Lemma chop_nth {A} cols rows (l : list A) d y x : y < rows -> x < cols -> nth x (nth y (chop cols rows l) []) d = nth (x + y * cols) l d.
Proof.
  revert l y. induction rows as [|r IH]; intros l y Hy Hx; [lia|]. cbn [chop]. destruct y as [|y]; cbn [nth].
  - rewrite nth_firstn by exact Hx. f_equal. lia.
  - rewrite IH by lia. rewrite nth_skipn. f_equal. lia.
Qed.
Lemma nth_map_seq {A} (f : nat -> A) n k d : k < n -> nth k (map f (seq 0 n)) d = f k.
Proof. intros H. rewrite (nth_indep _ d (f 0)) by (rewrite map_length, seq_length; lia). rewrite map_nth, seq_nth by lia. reflexivity. Qed.

(** ** fractions *)
Lemma upto_next w k : k < List.length w -> (upto_row w (S k) == upto_row w k + nth k w 0)%Q.
Proof.
  unfold upto_row, sumQ. revert k. induction w as [|x w IH]; intros k H; cbn in H; [lia|]. destruct k as [|k]; [cbn [firstn fold_right nth]; ring|].
  change (x + fold_right Qplus 0 (firstn (S k) w) == x + fold_right Qplus 0 (firstn k w) + nth k w 0)%Q. rewrite IH by lia. ring.
Qed.
Lemma upto_all w : upto_row w (List.length w) = sumQ w.
Proof. unfold upto_row. now rewrite firstn_all. Qed.
Lemma share_mono w i j n : (0 <= sumQ w)%Q -> i <= j -> 0 < n -> (share w i n <= share w j n)%Q.
Proof.
  intros S Hij Hn. unfold share. apply Qmult_le_compat_r; [|exact S].
  assert (N : (0 < inject_Z (Z.of_nat n))%Q) by (rewrite <- (Zlt_Qlt 0); lia).
  apply Qmult_le_compat_r; [rewrite <- Zle_Qle; lia|]. apply Qlt_le_weak, Qinv_lt_0_compat, N.
Qed.
Lemma share_lt w i n : (0 <= sumQ w)%Q -> i < n -> (share w i n <= sumQ w)%Q.
Proof.
  intros S H. apply Qle_trans with (share w n n); [apply share_mono; lia || exact S|]. unfold share.
  assert (N : (0 < inject_Z (Z.of_nat n))%Q) by (rewrite <- (Zlt_Qlt 0); lia).
  setoid_replace (inject_Z (Z.of_nat n) / inject_Z (Z.of_nat n) * sumQ w)%Q with (sumQ w)%Q by (field; lra). lra.
Qed.

(** ** attributes *)
Definition cols_only (o : list (str * attr)) : Prop := forall k a, dget k o = Some a -> exists c, a = Col c.
Lemma first_pass cols : Forall (fun p => no_dot (fst p)) cols -> forall o, set_names o cols false = Ok o.
Proof.
  induction 1 as [|[n c] cols H _ IH]; intros o; [reflexivity|]. cbn [set_names fst] in *. rewrite split_ch_notin by exact H. cbn [set_path bindR]. apply IH.
Qed.
Lemma second_pass cols : Forall (fun p => no_dot (fst p)) cols -> NoDup (map fst cols) -> forall o, cols_only o ->
  exists o', set_names o cols true = Ok o' /\ forall k, dget k o' = match dget k cols with Some c => Some (Col c) | None => dget k o end.
Proof.
  induction 1 as [|[n c] cols H _ IH]; intros N o C; cbn [set_names].
  - exists o. split; [reflexivity|]. reflexivity.
  - cbn [fst] in H. inversion N as [|? ? Nn N']; subst.
    assert (E : set_path o (split_ch "."%char n) (Some c) = Ok (dset n (Col c) o)).
    { rewrite split_ch_notin by exact H. cbn [set_path]. destruct (dget n o) as [a|] eqn:D; [|reflexivity]. destruct (C n a D) as (c' & ->). reflexivity. }
    rewrite E. cbn [bindR]. destruct (IH N' (dset n (Col c) o)) as (o' & S & G).
    { intros k a. rewrite dget_dset. destruct (str_eqb k n); [intros [= <-]; eauto|apply C]. }
    exists o'. split; [exact S|]. intros k. rewrite G, dget_dset. cbn [dget]. destruct (str_eqb_spec k n) as [->|]; [|reflexivity].
    apply dget_None in Nn. now rewrite Nn.
Qed.
Lemma getParams_plain cols : Forall (fun p => no_dot (fst p)) cols -> NoDup (map fst cols) ->
  exists o, getParams cols = Ok o /\ forall k, dget k o = match dget k cols with Some c => Some (Col c) | None => None end.
Proof.
  intros H N. unfold getParams. rewrite first_pass by exact H. cbn [bindR]. destruct (second_pass cols H N []) as (o & S & G); [discriminate|].
  exists o. split; [exact S|]. intros k. rewrite G. reflexivity.
Qed.
(** no attribute name has a dot *)
Definition keys_plain (o : list (str * attr)) : Prop := Forall no_dot (dkeys o).
Lemma dset_plain k (a : attr) o : no_dot k -> keys_plain o -> keys_plain (dset k a o).
Proof. unfold keys_plain. intros H K. rewrite Forall_forall in *. intros x Hx. apply dkeys_dset_In in Hx as [->|Hx]; auto. Qed.
Lemma set_path_plain path : Forall no_dot path -> forall o v o', keys_plain o -> set_path o path v = Ok o' -> keys_plain o'.
Proof.
  induction 1 as [|p path Hp _ IH]; intros o v o' K E; cbn [set_path] in E; [now injection E as <-|].
  destruct path as [|p' path].
  - destruct v as [c|]; [|now injection E as <-]. destruct (dget p o) as [[c'|l]|]; injection E as <-; now apply dset_plain.
  - destruct (dget p o) as [[c'|l]|]; [discriminate| |].
    + destruct (set_path l (p' :: path) v); [|discriminate]. injection E as <-. now apply dset_plain.
    + destruct (set_path [] (p' :: path) v); [|discriminate]. injection E as <-. now apply dset_plain.
Qed.
Lemma split_plain s : Forall (fun p => ~ In "."%char p) (split_ch "."%char s).
Proof.
  unfold split_ch. assert (G : forall cur, ~ In "."%char cur -> Forall (fun p => ~ In "."%char p) (split_ch_aux "."%char cur s)).
  { induction s as [|b s IH]; intros cur H; cbn [split_ch_aux].
    - constructor; [|constructor]. now rewrite <- in_rev.
    - destruct (ch_eqb_spec b "."%char) as [->|N].
      + constructor; [now rewrite <- in_rev|]. apply IH. intros [].
      + apply IH. intros [E|E]; [congruence|contradiction]. }
  apply G. intros [].
Qed.
Lemma set_names_plain cols : forall b o o', keys_plain o -> set_names o cols b = Ok o' -> keys_plain o'.
Proof.
  induction cols as [|[n c] cols IH]; intros b o o' K E; cbn [set_names] in E; [now injection E as <-|].
  destruct (set_path o (split_ch "."%char n) (if b then Some c else None)) as [o1|] eqn:S; [|discriminate].
  apply (IH b o1 o'); [|exact E]. eapply set_path_plain; [|exact K|exact S]. apply split_plain.
Qed.
Lemma getParams_keys cols o : getParams cols = Ok o -> keys_plain o.
Proof.
  unfold getParams. destruct (set_names [] cols false) as [o1|] eqn:S; [|discriminate]. cbn [bindR]. intros E.
  eapply set_names_plain; [|exact E]. eapply set_names_plain; [|exact S]. constructor.
Qed.
Lemma map_snd_combine_gen {A B} (a : list A) : forall b : list B, List.length a = List.length b -> map snd (combine a b) = b.
Proof. induction a as [|x a IH]; intros [|y b] H; cbn in *; try lia; [reflexivity|]. f_equal. apply IH. lia. Qed.
