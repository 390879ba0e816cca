(** Lemmas for C130 and C131 *)
From Coq Require Import Reals ZArith Ascii Bool List Lia Lra Setoid Arith FinFun.
From Verif Require Import PyStr McmcModel BaoModel BaoSpec BaoProofs SnProofs MapModel MapSpec MapProofs MapProps HlModel HlSpec HlProofs HlProps PyClModel PyClSpec.
Import ListNotations.
Local Open Scope R_scope.

(** ** Indices *)
Lemma py_index_from : forall l s k, py_index l s = match index_from k l s with Some i => Ok (i - k)%nat | None => Stop end.
Proof.
  induction l as [| x l IH]; intros s k; [reflexivity |]. cbn [py_index index_from]. destruct (str_eqb x s); [now rewrite Nat.sub_diag |].
  rewrite (IH s (S k)). pose proof (index_spec l (S k) s) as H. destruct (index_from (S k) l s) as [i |]; [| reflexivity]. cbn [bind]. f_equal. lia.
Qed.
Lemma py_index_Of l s : py_index l s = match IndexOf l s with Some i => Ok (i - 1)%nat | None => Stop end.
Proof. apply py_index_from. Qed.
Lemma IndexOf_pos l s i : IndexOf l s = Some i -> (1 <= i)%nat.
Proof. intro H. apply IndexOf_some in H. destruct H as ((H & _) & _). exact H. Qed.
Lemma py_in_Of l s : py_in s l = match IndexOf l s with Some _ => true | None => false end.
Proof.
  unfold py_in, IndexOf. generalize 1%nat. induction l as [| x l IH]; intro k; [reflexivity |]. cbn [existsb index_from]. destruct (str_eqb x s); [reflexivity | apply IH].
Qed.
Lemma py_split_x s : py_split "x" s = split_x s.
Proof. induction s as [| c s IH]; [reflexivity |]. cbn [py_split split_x]. rewrite IH. reflexivity. Qed.
Lemma py_pair_agree m p s : same_maps m p -> agree (fun q => ((fst q - 1)%nat, (snd q - 1)%nat)) (pair_indices m s) (py_pair p s).
Proof.
  intros (EN & EH & _). unfold py_pair, pair_indices. rewrite py_split_x, <- EH.
  assert (G : forall x : out (str * str), x <> Undef -> agree (fun q => ((fst q - 1)%nat, (snd q - 1)%nat))
    (bind x (fun ab => match IndexOf (names m) (fst ab), IndexOf (names m) (snd ab) with Some i, Some j => Ok (i, j) | _, _ => Stop end))
    (bind x (fun ab => bind (py_index (pnames p) (fst ab)) (fun i => bind (py_index (pnames p) (snd ab)) (fun j => Ok (i, j)))))).
  { intros [[a b] | |] H; [| reflexivity | now elim H]. cbn [bind fst snd]. rewrite !py_index_Of, <- EN. destruct (IndexOf (names m) a) as [i |]; [cbn [bind] | reflexivity].
    destruct (IndexOf (names m) b) as [j |]; reflexivity. }
  destruct s as [| a [| b [| c s]]]; cbn [length Nat.eqb firstn skipn]; apply G; try (destruct (named m); discriminate); match goal with |- match ?x with _ => _ end <> _ => destruct x; discriminate end.
Qed.
Lemma py_number_used : forall use ix, py_number use ix = map from0 (number_used use ix).
Proof. induction use as [| [] use IH]; intro ix; [reflexivity | |]; cbn [py_number number_used map]; rewrite IH; f_equal; unfold from0; lia. Qed.
Lemma py_index_of_nth use i : nth i (py_index_of use) (-1)%Z = from0 (used_index use (S i)).
Proof. unfold py_index_of, used_index. rewrite py_number_used. replace (-1)%Z with (from0 0) by reflexivity. rewrite map_nth. do 2 f_equal. lia. Qed.

Lemma py_used_agree m p use s : same_maps m p -> agree from0_pair (used_pair m (used_index use) s) (py_used_pair p (py_index_of use) s).
Proof.
  intro H. unfold used_pair, py_used_pair. pose proof (py_pair_agree m p s H) as G. destruct (pair_indices m s) as [[i j] | |] eqn:E; unfold agree in G |- *; rewrite G; [| reflexivity | reflexivity].
  assert (P : (1 <= i /\ 1 <= j)%nat).
  { unfold pair_indices in E. destruct (if Nat.eqb (length s) 2 then _ else _) as [[a b] | |]; try discriminate. cbn [bind fst snd] in E.
    destruct (IndexOf (names m) a) eqn:A; [| discriminate]. destruct (IndexOf (names m) b) eqn:B; [| discriminate]. injection E as <- <-. split; eapply IndexOf_pos; eassumption. }
  cbn [bind fst snd]. rewrite !py_index_of_nth. replace (S (i - 1)) with i by lia. replace (S (j - 1)) with j by lia.
  generalize (used_index use i) (used_index use j). intros a b. unfold from0_pair, from0. destruct (Nat.ltb_spec a b); destruct (Z.ltb_spec (Z.of_nat a - 1) (Z.of_nat b - 1)); try lia; reflexivity.
Qed.
Lemma mapM_agree {A B C} (f : A -> out B) (g : A -> out C) (h : B -> C) l : (forall x, agree h (f x) (g x)) -> agree (map h) (mapM f l) (mapM g l).
Proof.
  intro H. induction l as [| x l IH]; [reflexivity |]. cbn [mapM]. specialize (H x). destruct (f x); unfold agree in H; rewrite H; [| reflexivity | reflexivity]. cbn [bind].
  destruct (mapM f l); unfold agree in IH; rewrite IH; reflexivity.
Qed.
(** ** Pairs and columns *)
Lemma tri_py n : tri n = map (fun p => (S (fst p), S (snd p))) (py_tri n).
Proof.
  unfold tri, py_tri. rewrite <- seq_shift. induction (seq 0 n) as [| i l IH]; [reflexivity |]. cbn [map flat_map]. rewrite map_app, IH. f_equal. rewrite map_map, Nat.add_1_r, <- seq_shift, map_map. reflexivity.
Qed.
Lemma py_tri_len n : length (py_tri n) = (n * (n + 1) / 2)%nat.
Proof. rewrite <- tri_ncl, tri_py, map_length. reflexivity. Qed.
Lemma py_col_loop_number : forall l ix p r, (1 <= fst p)%nat -> (1 <= snd p)%nat -> py_col_loop l ix (from0_pair p) (from0 r) = from0 (number (map (fun p => (S (fst p), S (snd p))) l) ix p r).
Proof.
  induction l as [| (a, b) l IH]; intros ix [i j] r A B; [reflexivity |]. cbn [py_col_loop map number fst snd].
  assert (E : ((Z.of_nat a =? fst (from0_pair (i, j)))%Z && (Z.of_nat b =? snd (from0_pair (i, j)))%Z) = pair_eqb (S a, S b) (i, j)).
  { unfold from0_pair, from0, pair_eqb. cbn [fst snd] in *. destruct (Z.eqb_spec (Z.of_nat a) (Z.of_nat i - 1)); destruct (Nat.eqb_spec (S a) i); try lia; cbn [andb].
    destruct (Z.eqb_spec (Z.of_nat b) (Z.of_nat j - 1)); destruct (Nat.eqb_spec (S b) j); try lia; reflexivity. }
  rewrite E. destruct (pair_eqb _ _); [| apply IH; assumption]. replace (Z.of_nat ix) with (from0 (S ix)) by (unfold from0; lia). apply IH; assumption.
Qed.
Lemma py_col_of n p : py_col n (from0_pair p) = from0 (col_of n p).
Proof.
  destruct p as [i j]. unfold py_col, col_of. cbn [fst snd]. change (fst (from0_pair (i, j))) with (from0 i). change (snd (from0_pair (i, j))) with (from0 j).
  assert (E : forall k, (from0 k =? -1)%Z = Nat.eqb k 0) by (intro k; unfold from0; destruct (Z.eqb_spec (Z.of_nat k - 1) (-1)); destruct (Nat.eqb_spec k 0); try lia; reflexivity).
  rewrite !E. destruct (Nat.eqb_spec i 0) as [| Ni]; [reflexivity |]. destruct (Nat.eqb_spec j 0) as [| Nj]; [reflexivity |]. cbn [orb].
  rewrite tri_py. apply (py_col_loop_number (py_tri n) 0 (i, j) 0); cbn [fst snd]; lia.
Qed.
Lemma py_cols_agree m p use n items : same_maps m p -> agree (map from0) (cols m n (used_index use) items) (py_cols p n (py_index_of use) items).
Proof.
  intro H. unfold cols, py_cols, Cl_i_j, py_Cl_i_j. pose proof (mapM_agree _ _ from0_pair items (fun s => py_used_agree m p use s H)) as G.
  destruct (mapM _ items) as [l | |]; unfold agree in G |- *; rewrite G; [| reflexivity | reflexivity]. cbn [bind]. f_equal. rewrite !map_map. apply map_ext. intro q. apply py_col_of.
Qed.
Lemma used_names_py m p use : same_maps m p -> length use = length (names m) -> used_names m use = py_used_names (pnames p) use /\ length (order_used use) = py_count use.
Proof.
  intros (EN & _) L. rewrite <- EN. unfold used_names, order_used, py_count. split.
  - assert (G : forall (pre l : list str) u, length u = length l -> map (fun i => nth (i - 1) (pre ++ l) []) (order_from (S (length pre)) u) = py_used_names l u).
    { intros pre l u. revert pre l. induction u as [| b u IH]; intros pre [| x l] Q; try discriminate; [reflexivity |]. cbn [order_from py_used_names].
      assert (R : map (fun i => nth (i - 1) (pre ++ x :: l) []) (order_from (S (S (length pre))) u) = py_used_names l u).
      { replace (pre ++ x :: l) with ((pre ++ [x]) ++ l) by (rewrite <- app_assoc; reflexivity). replace (S (length pre)) with (length (pre ++ [x])) by (rewrite app_length; cbn; lia). apply IH. now injection Q. }
      destruct b; [| exact R]. cbn [map]. rewrite R. f_equal. replace (S (length pre) - 1)%nat with (length pre) by lia. rewrite app_nth2, Nat.sub_diag by lia. reflexivity. }
    apply (G [] (names m) use L).
  - generalize 1%nat. clear. induction use as [| [] u IH]; intro k; cbn [order_from filter length]; [reflexivity | now rewrite IH | apply IH].
Qed.
Lemma py_get_cols_agree isnamed used order : forall l ix c pc, (forall k, (k < ix)%nat -> pc k = from0 (c (S k))) -> (forall k, (ix <= k)%nat -> c (S k) = O /\ pc k = (-1)%Z) ->
  exists c' pc', get_cols isnamed used order (map (fun p => (S (fst p), S (snd p))) l) (S ix) c = Ok c' /\ py_get_cols isnamed used order l ix pc = Ok pc' /\ forall k, pc' k = from0 (c' (S k)).
Proof.
  induction l as [| (i, j) l IH]; intros ix c pc A B.
  - exists c, pc. split; [reflexivity |]. split; [reflexivity |]. intro k. destruct (Nat.lt_ge_cases k ix) as [X | X]; [now apply A |]. destruct (B k X) as [-> ->]. reflexivity.
  - cbn [map fst snd get_cols py_get_cols]. destruct (B ix (le_n ix)) as [C0 P0]. unfold col_in. cbn [fst snd]. replace (S i - 1)%nat with i by lia. replace (S j - 1)%nat with j by lia. cbn [Nat.eqb].
    set (a := nth i used []). set (b := nth j used []). assert (NE : forall x y, pair_name isnamed x y = py_name isnamed x y) by reflexivity. rewrite (NE a b), (NE b a), !py_in_Of.
    assert (STEP : forall name k, IndexOf order name = Some (S k) -> exists c' pc', (if Nat.ltb 0 (c (S ix)) then Stop else get_cols isnamed used order (map (fun p => (S (fst p), S (snd p))) l) (S (S ix)) (upd c (S ix) (S k))) = Ok c' /\
      (if negb (pc ix =? -1)%Z then Stop else bind (py_index order name) (fun k => py_get_cols isnamed used order l (S ix) (fun a => if Nat.eqb a ix then Z.of_nat k else pc a))) = Ok pc' /\ forall q, pc' q = from0 (c' (S q))).
    { intros name k K. rewrite C0, P0, py_index_Of, K. cbn [Nat.ltb Nat.leb negb Z.eqb Pos.eqb bind].
      apply IH.
      - intros q Q. destruct (Nat.eqb_spec q ix) as [-> | N]; [rewrite upd_same; unfold from0; lia |]. rewrite upd_other by lia. apply A. lia.
      - intros q Q. destruct (Nat.eqb_spec q ix); [lia |]. rewrite upd_other by lia. apply B. lia. }
    assert (SKIP : exists c' pc', get_cols isnamed used order (map (fun p => (S (fst p), S (snd p))) l) (S (S ix)) c = Ok c' /\ py_get_cols isnamed used order l (S ix) pc = Ok pc' /\ forall q, pc' q = from0 (c' (S q))).
    { apply IH.
      - intros q Q. destruct (Nat.eq_dec q ix) as [-> | N]; [rewrite C0, P0; reflexivity |]. apply A. lia.
      - intros q Q. apply B. lia. }
    destruct (IndexOf order (py_name isnamed a b)) as [k |] eqn:K1; cbn [negb andb].
    + rewrite K1. destruct k as [| k]; [apply IndexOf_pos in K1; lia | exact (STEP _ _ K1)].
    + destruct (Nat.eqb_spec i j) as [-> | N]; cbn [negb].
      * rewrite K1. exact SKIP.
      * destruct (IndexOf order (py_name isnamed b a)) as [k |] eqn:K2; [destruct k as [| k]; [apply IndexOf_pos in K2; lia | exact (STEP _ _ K2)] | exact SKIP].
Qed.
Lemma py_order_agree isnamed used order : exists c pc, GetColsFromOrder isnamed used order = Ok c /\ py_GetColsFromOrder isnamed used order = Ok pc /\ forall k, pc k = from0 (c (S k)).
Proof. unfold GetColsFromOrder, py_GetColsFromOrder. rewrite tri_py. apply py_get_cols_agree; [intros; lia | intros; split; reflexivity]. Qed.
(** ** Files *)
Lemma py_at_lookup l vals n c v : (n <= length vals)%nat -> lookup (length (firstn n vals)) (fun k => nth (k - 1) (firstn n vals) 0) (c - 1) = Ok v -> py_at l vals (from0 c) = Ok v.
Proof.
  intros N H. unfold lookup in H. rewrite firstn_length_le in H by exact N. destruct (Nat.leb_spec 1 (c - 1)); [| discriminate]. destruct (Nat.leb_spec (c - 1) n); [| discriminate]. cbn [andb] in H. injection H as <-.
  unfold py_at, from0. destruct (Z.eqb_spec (Z.of_nat c - 1) 0); [lia |]. replace (Z.to_nat (Z.of_nat c - 1 - 1)) with (c - 2)%nat by lia. destruct (Nat.ltb_spec (c - 2) (length vals)); [| lia]. f_equal.
  replace (c - 1 - 1)%nat with (c - 2)%nat by lia. rewrite <- (firstn_skipn n vals) at 1. rewrite app_nth1; [reflexivity |]. rewrite firstn_length_le by exact N. lia.
Qed.
Lemma py_set_cols_agree c pc n k l vals B : (forall q, pc q = from0 (c (S q))) -> (n <= length vals)%nat -> forall ixs (Cl : table) (cl : nat -> nat -> R) (Cl' : table), (forall a b, cl a b = Cl (S a) (B + Z.of_nat b)%Z) ->
  set_cols c (map S ixs) (B + Z.of_nat k)%Z (firstn n vals) Cl = Ok Cl' -> exists cl', py_set_cols pc ixs k l vals cl = Ok cl' /\ forall a b, cl' a b = Cl' (S a) (B + Z.of_nat b)%Z.
Proof.
  intros P N. induction ixs as [| ix ixs IH]; intros Cl cl Cl' R H.
  - injection H as <-. exists cl. split; [reflexivity | exact R].
  - cbn [map set_cols py_set_cols] in *. rewrite (P ix). destruct (Nat.eqb_spec (c (S ix)) 0) as [E | E].
    + rewrite E. change ((from0 0 =? -1)%Z) with true. cbv iota. now apply (IH Cl).
    + destruct (Z.eqb_spec (from0 (c (S ix))) (-1)) as [X | _]; [unfold from0 in X; lia |].
      destruct (lookup (length (firstn n vals)) (fun k => nth (k - 1) (firstn n vals) 0) (c (S ix) - 1)) as [v | |] eqn:LV; cbn [bind] in H; try discriminate.
      rewrite (py_at_lookup l vals n (c (S ix)) v N LV). cbn [bind]. eapply IH; [| exact H]. intros a b. cbn [Nat.eqb]. rewrite (R a b). destruct (Nat.eqb a ix); cbn [andb]; [| reflexivity].
      destruct (Nat.eqb_spec b k); destruct (Z.eqb_spec (B + Z.of_nat b) (B + Z.of_nat k)); try lia; reflexivity.
Qed.
Lemma py_read_rows_agree (binned : bool) c pc norder ncl bmin bmax : (forall q, pc q = from0 (c (S q))) -> let sh := (if binned then 1 else 0)%Z in
  forall rows ll pl (Cl : table) (cl : nat -> nat -> R) (Cl' : table), pl = option_map (fun l => l - sh)%Z ll -> (forall a b, cl a b = Cl (S a) (bmin + sh + Z.of_nat b)%Z) ->
  read_rows norder ncl c (bmin + sh) (bmax + sh) rows ll Cl = Ok Cl' -> exists cl', py_read_rows binned ncl pc bmin bmax rows pl cl = Ok cl' /\ forall a b, cl' a b = Cl' (S a) (bmin + sh + Z.of_nat b)%Z.
Proof.
  intros P sh. induction rows as [| (l, vals) rows IH]; intros ll pl Cl cl Cl' PL R H.
  - cbn [read_rows py_read_rows] in *. destruct ll as [l |]; [| discriminate]. subst pl. cbn [option_map]. destruct (Z.ltb_spec l (bmax + sh)); [discriminate |]. injection H as <-.
    destruct (Z.ltb_spec (l - sh) bmax); [lia |]. exists cl. split; [reflexivity | exact R].
  - cbn [read_rows py_read_rows] in *. destruct (Nat.ltb_spec (length vals) norder) as [| N]; [discriminate |].
    assert (EL : (if binned then l - 1 else l)%Z = (l - sh)%Z) by (unfold sh; destruct binned; lia). rewrite EL.
    assert (EC : ((bmin <=? l - sh)%Z && (l - sh <=? bmax)%Z) = ((bmin + sh <=? l)%Z && (l <=? bmax + sh)%Z)).
    { destruct (Z.leb_spec bmin (l - sh)); destruct (Z.leb_spec (bmin + sh) l); try lia; cbn [andb]; try reflexivity; destruct (Z.leb_spec (l - sh) bmax); destruct (Z.leb_spec l (bmax + sh)); try lia; reflexivity. }
    rewrite EC. destruct ((bmin + sh <=? l)%Z && (l <=? bmax + sh)%Z) eqn:IN.
    + apply andb_prop in IN. destruct IN as [I1 I2]. apply Z.leb_le in I1, I2. destruct (set_cols c (seq 1 ncl) l (firstn norder vals) Cl) as [Cl1 | |] eqn:SC; cbn [bind] in H; try discriminate.
      assert (LE : l = (bmin + sh + Z.of_nat (Z.to_nat (l - sh - bmin)))%Z) by lia. rewrite LE in SC at 1. rewrite <- seq_shift in SC.
      destruct (py_set_cols_agree c pc norder _ l vals (bmin + sh)%Z P N _ _ _ _ R SC) as (cl1 & -> & R1). cbn [bind]. now apply (IH (Some l) (Some (l - sh)%Z) Cl1).
    + cbn [bind] in H |- *. now apply (IH (Some l) (Some (l - sh)%Z) Cl).
Qed.
Lemma two_d_rectangle k rows : rectangle k rows -> two_d rows = true.
Proof.
  intros (N & K & F). destruct rows as [| (a, v) [| r rows]]; cbn [length] in N; try lia. unfold two_d. inversion F as [| x y A B]; subst. cbn [snd] in *. apply andb_true_intro. split; [apply Nat.ltb_lt; lia |].
  apply forallb_forall. intros x I. apply Nat.eqb_eq. rewrite Forall_forall in F. now apply F.
Qed.
Lemma py_file_agree (binned : bool) isnamed used order bmin bmax k rows Cl : rectangle k rows -> let sh := (if binned then 1 else 0)%Z in
  ReadClArr isnamed used order (bmin + sh) (bmax + sh) rows = Ok Cl -> exists cl, py_ReadClArr binned isnamed used order bmin bmax rows = Ok cl /\ forall a b, cl a b = Cl (S a) (bmin + sh + Z.of_nat b)%Z.
Proof.
  intros RC sh H. unfold ReadClArr, py_ReadClArr in *. destruct order as [| o order]; [discriminate |].
  destruct (py_order_agree isnamed used (o :: order)) as (c & pc & E1 & E2 & P). rewrite E1 in H. rewrite E2. cbn [bind] in *. rewrite (two_d_rectangle k rows RC).
  eapply (py_read_rows_agree binned c pc _ _ bmin bmax P rows None None (fun _ _ => 0)); [reflexivity | | exact H]. reflexivity.
Qed.
(** ** Windows *)
Lemma py_window_agree lo hi n rows Wb : rectangle n rows -> read_window lo hi n rows (fun _ _ => 0) = Ok Wb -> exists P, py_window lo hi n rows = Ok P /\ forall i l, (i < n)%nat -> (lo <= l <= hi)%Z -> P i l = Wb l (S i).
Proof.
  intros RC H. unfold py_window. rewrite (two_d_rectangle n rows RC). destruct RC as (_ & _ & F).
  assert (G : forall W0 P0 W1, (forall i l, (i < n)%nat -> (lo <= l <= hi)%Z -> P0 i l = W0 l (S i)) -> read_window lo hi n rows W0 = Ok W1 -> exists P, py_window_rows lo hi n rows P0 = Ok P /\ forall i l, (i < n)%nat -> (lo <= l <= hi)%Z -> P i l = W1 l (S i)).
  { clear H Wb. induction F as [| (l, vals) rows F1 F IH]; intros W0 P0 W1 R H; cbn [read_window py_window_rows] in *.
    - injection H as <-. exists P0. split; [reflexivity | exact R].
    - cbn [snd] in F1. destruct (Nat.ltb_spec (length vals) n); [discriminate |]. destruct ((lo <=? l)%Z && (l <=? hi)%Z) eqn:IN.
      + unfold py_assign. rewrite F1, Nat.eqb_refl. cbn [bind]. eapply IH; [| exact H]. intros i a I A. cbv beta. destruct (Z.eqb_spec a l); [now replace (S i - 1)%nat with i by lia | now apply R].
      + eapply IH; [| exact H]. exact R. }
  eapply G; [| exact H]. reflexivity.
Qed.
Lemma read_windows_other lo hi n : forall files W0 Wf b l k, read_windows lo hi n files W0 = Ok Wf -> ~ In b (map fst files) -> Wf l k b = W0 l k b.
Proof.
  induction files as [| (b', rows) files IH]; intros W0 Wf b l k H NI; cbn [read_windows] in H; [injection H as <-; reflexivity |]. destruct (read_window lo hi n rows _) as [Wb | |]; cbn [bind] in H; try discriminate.
  cbn [map fst] in NI. rewrite (IH _ _ b l k H) by (intro X; apply NI; now right). cbv beta. destruct (Z.eqb_spec b b') as [-> |]; [exfalso; apply NI; now left | reflexivity].
Qed.
Lemma read_windows_in lo hi n (file : Z -> list (Z * list R)) : forall bs W0 Wf, NoDup bs -> read_windows lo hi n (map (fun b => (b, file b)) bs) W0 = Ok Wf ->
  forall b, In b bs -> exists Wb, read_window lo hi n (file b) (fun _ _ => 0) = Ok Wb /\ forall l k, Wf l k b = Wb l k.
Proof.
  induction bs as [| b' bs IH]; intros W0 Wf ND H b I; [destruct I |]. cbn [map read_windows] in H. destruct (read_window lo hi n (file b') _) as [Wb | |] eqn:E; cbn [bind] in H; try discriminate.
  inversion ND as [| x y NI ND']; subst. destruct I as [-> | I].
  - exists Wb. split; [exact E |]. intros l k. rewrite (read_windows_other _ _ _ _ _ _ b l k H) by (rewrite map_map; cbn [fst]; now rewrite map_id). cbv beta. now rewrite Z.eqb_refl.
  - now apply (IH _ _ ND' H).
Qed.
Lemma upto_NoDup lo hi : NoDup (upto lo hi).
Proof. unfold upto. apply Injective_map_NoDup; [intros a b E; lia | apply seq_NoDup]. Qed.
Lemma mapM_seq {B} (f : nat -> out B) (Q : nat -> B -> Prop) : forall n s, (forall b, (s <= b < s + n)%nat -> exists y, f b = Ok y /\ Q b y) -> exists l, mapM f (seq s n) = Ok l /\ length l = n /\ forall d b, (b < n)%nat -> Q (s + b)%nat (nth b l d).
Proof.
  induction n as [| n IH]; intros s H; [exists []; split; [reflexivity | split; [reflexivity | intros; lia]] |]. cbn [seq mapM]. destruct (H s ltac:(lia)) as (y & -> & Qy). cbn [bind].
  destruct (IH (S s)) as (l & -> & L & P); [intros b B'; apply H; lia |]. cbn [bind]. exists (y :: l). split; [reflexivity |]. split; [cbn; lia |]. intros d [| b] B'; cbn [nth]; [now rewrite Nat.add_0_r |].
  replace (s + S b)%nat with (S s + b)%nat by lia. apply P. lia.
Qed.
Lemma mapM_len {A B} (f : A -> out B) : forall l l', mapM f l = Ok l' -> length l' = length l.
Proof.
  induction l as [| x l IH]; intros l' H; cbn [mapM] in H; [injection H as <-; reflexivity |]. destruct (f x); cbn [bind] in H; try discriminate. destruct (mapM f l) as [t | |]; cbn [bind] in H; try discriminate. injection H as <-. cbn [length]. now rewrite (IH t).
Qed.
Lemma py_windows_agree m p use req lo hi bmin nb ins outs file w : same_maps m p ->
  ReadBinWindows m use req lo hi ins outs (map (fun b => (b, file b)) (upto (bmin + 1) (bmin + Z.of_nat nb))) = Ok w ->
  (forall b, (bmin + 1 <= b <= bmin + Z.of_nat nb)%Z -> rectangle (length ins) (file b)) ->
  exists q, py_readBinWindows p use req lo hi bmin nb ins outs file = Ok q /\ same_windows w q (bmin + 1) /\ pnb q = nb.
Proof.
  intros SM H RC. unfold ReadBinWindows, py_readBinWindows in *. unfold Cl_i_j in H. pose proof (mapM_agree _ _ from0_pair ins (fun s => py_used_agree m p req s SM)) as G1. unfold py_Cl_i_j.
  destruct (mapM (used_pair m (used_index req)) ins) as [ci | |] eqn:E1; cbn [bind] in H; try discriminate. unfold agree in G1. rewrite G1. cbn [bind].
  assert (CN : length (order_used use) = py_count use) by (unfold order_used, py_count; generalize 1%nat; clear; induction use as [| [] u IH]; intro k; cbn [order_from filter length]; [reflexivity | now rewrite IH | apply IH]).
  pose proof (py_cols_agree m p use (length (order_used use)) (match outs with [] => ins | _ => outs end) SM) as G2. rewrite <- CN.
  destruct (cols m (length (order_used use)) (used_index use) (match outs with [] => ins | _ => outs end)) as [co | |]; cbn [bind] in H; try discriminate. unfold agree in G2. rewrite G2. cbn [bind]. rewrite !map_length.
  destruct (Nat.eqb (length ci) (length co)) eqn:EL; [| discriminate]. destruct (read_windows _ _ _ _ _) as [Wf | |] eqn:EW; cbn [bind] in H; try discriminate. injection H as <-.
  rewrite <- (mapM_len _ _ _ E1) in RC.
  destruct (mapM_seq (fun b => py_window lo hi (length ci) (file (Z.of_nat b + 1 + bmin)%Z)) (fun b P => forall i l, (i < length ci)%nat -> (lo <= l <= hi)%Z -> P i l = Wf l (S i) (bmin + 1 + Z.of_nat b)%Z) nb 0) as (Ws & -> & LW & PW).
  - intros b B. destruct (read_windows_in _ _ _ file _ _ _ (upto_NoDup _ _) EW (bmin + 1 + Z.of_nat b)%Z) as (Wb & EB & QB); [apply upto_In; lia |].
    replace (Z.of_nat b + 1 + bmin)%Z with (bmin + 1 + Z.of_nat b)%Z by lia. destruct (py_window_agree lo hi (length ci) _ Wb (RC (bmin + 1 + Z.of_nat b)%Z ltac:(lia)) EB) as (P & EP & QP). exists P. split; [exact EP |]. intros i l I L. rewrite QB. now apply QP.
  - cbn [bind]. eexists. split; [reflexivity |]. split; [| reflexivity]. unfold same_windows. cbn. repeat (split; [reflexivity |]). intros l i b B I L. rewrite (PW (fun _ _ => 0) b B i l I L). reflexivity.
Qed.
Lemma sumL_ext lo hi f g : (forall l, (lo <= l <= hi)%Z -> f l = g l) -> sumL lo hi f = sumL lo hi g.
Proof. intro H. unfold sumL. rewrite !sum1_total. apply total_ext. intros k K. apply H. lia. Qed.
Lemma py_wrap_ok n i : (1 <= n)%nat -> (i <= n)%nat -> py_wrap n (from0 i) = Ok (match i with O => n - 1 | S k => k end)%nat.
Proof.
  intros N I. unfold py_wrap, from0. destruct i as [| i].
  - cbv zeta. destruct (Z.ltb_spec (Z.of_nat 0 - 1) 0); [| lia]. destruct (Z.leb_spec 0 (Z.of_nat 0 - 1 + Z.of_nat n)); [| lia]. destruct (Z.ltb_spec (Z.of_nat 0 - 1 + Z.of_nat n) (Z.of_nat n)); [| lia]. cbn [andb]. f_equal. lia.
  - cbv zeta. destruct (Z.ltb_spec (Z.of_nat (S i) - 1) 0); [lia |]. destruct (Z.leb_spec 0 (Z.of_nat (S i) - 1)); [| lia]. destruct (Z.ltb_spec (Z.of_nat (S i) - 1) (Z.of_nat n)); [| lia]. cbn [andb]. f_equal. lia.
Qed.
Lemma py_bin_from_agree w p first nreq theory pth b : same_windows w p first -> (b < pnb p)%nat -> (1 <= nreq)%nat -> (forall i j, (j <= i)%nat -> (i < nreq)%nat -> theory (S i) (S j) = Some (pth i j)) ->
  forall ins outs k (Cls cls Cls' : nat -> R), Forall (fun q => (snd q <= fst q <= nreq)%nat) ins -> (k + length ins <= length (cols_in w))%nat -> (forall a, cls a = Cls (S a)) ->
  bin_from w nreq theory (first + Z.of_nat b) (S k) ins outs Cls = Ok Cls' -> exists cls', py_bin_from p nreq pth b k (map from0_pair ins) (map from0 outs) cls = Ok cls' /\ forall a, cls' a = Cls' (S a).
Proof.
  intros (EL & EH & _ & _ & EF & EW) B N HT. induction ins as [| (i, j) ins IH]; intros outs k Cls cls Cls' SO KL RR H.
  - cbn [bin_from] in H. injection H as <-. exists cls. split; [reflexivity | exact RR].
  - destruct outs as [| o outs]; [cbn [bin_from] in H; injection H as <-; exists cls; split; [reflexivity | exact RR] |].
    inversion SO as [| x y S1 SO']; subst. cbn [fst snd] in S1. cbn [length] in KL. cbn [map py_bin_from bin_from] in *. unfold py_entry. change (fst (from0_pair (i, j))) with (from0 i). change (snd (from0_pair (i, j))) with (from0 j).
    rewrite !py_wrap_ok by lia. cbn [bind]. destruct (Nat.eqb_spec o 0) as [-> | NO].
    + change ((0 <=? from0 0)%Z) with false. cbv iota. assert (X : forall z : option (Z -> R), match z with Some _ => cls | None => cls end = cls) by (intros [|]; reflexivity). rewrite X.
      apply (IH outs (S k) Cls); [exact SO' | lia | exact RR | exact H].
    + rewrite EF in H. destruct (Nat.leb_spec 1 i); [| discriminate]. destruct (Nat.leb_spec i nreq); [| lia]. destruct (Nat.leb_spec 1 j); [| discriminate]. destruct (Nat.leb_spec j nreq); [| lia]. cbn [andb] in H.
      destruct i as [| i]; [lia |]. destruct j as [| j]; [lia |]. rewrite HT in H by lia. destruct (Nat.leb_spec j i); [| lia]. destruct (Z.leb_spec 0 (from0 o)) as [_ |]; [| unfold from0 in *; lia].
      eapply (IH outs (S k)); [exact SO' | lia | | exact H]. intro a. cbv beta. rewrite (RR a). replace (Z.to_nat (from0 o)) with (o - 1)%nat by (unfold from0; lia).
      destruct (Nat.eqb_spec a (o - 1)); destruct (Nat.eqb_spec (S a) o); try lia; [| reflexivity]. f_equal. rewrite EL, EH. apply sumL_ext. intros l L. rewrite EW by lia. reflexivity.
Qed.
Lemma py_width_complete ncl outs : (1 <= ncl)%nat -> complete ncl outs -> py_width (map from0 outs) = Ok ncl.
Proof.
  intros N (F & I). unfold py_width. set (l := filter (fun x => (0 <=? x)%Z) (map from0 outs)).
  assert (IN : In (from0 ncl) l) by (apply filter_In; split; [now apply in_map | apply Z.leb_le; unfold from0; lia]).
  assert (LE : forall x, In x l -> (x <= from0 ncl)%Z). { intros x X. apply filter_In in X. destruct X as (X & _). apply in_map_iff in X. destruct X as (o & <- & O). rewrite Forall_forall in F. specialize (F o O). unfold from0. lia. }
  assert (MX : fold_right Z.max 0%Z l = from0 ncl).
  { apply Z.le_antisymm.
    - clear IN. induction l as [| x l IH]; cbn [fold_right]; [unfold from0; lia |]. apply Z.max_lub; [apply LE; now left | apply IH; intros y Y; apply LE; now right].
    - clear LE. induction l as [| x l IH]; [destruct IN |]. cbn [fold_right]. destruct IN as [-> | IN]; [lia | specialize (IH IN); lia]. }
  destruct l as [| x l']; [destruct IN |]. rewrite MX. f_equal. unfold from0. lia.
Qed.
Lemma py_fill_agree (X Y : nat -> R) : forall l ix M, (forall k, (ix <= k < ix + length l)%nat -> X k = Y (S k)) -> py_fill l ix X M = fill (map (fun p => (S (fst p), S (snd p))) l) (S ix) Y M.
Proof.
  induction l as [| (i, j) l IH]; intros ix M H; [reflexivity |]. cbn [py_fill map fill fst snd length] in *. rewrite (H ix) by lia. cbv zeta.
  replace (upd2 M (S i) (S j) (Y (S ix)) (S i) (S j)) with (Y (S ix)) by (unfold upd2; now rewrite !Nat.eqb_refl). apply IH. intros k K. apply H. lia.
Qed.
Lemma py_matrix_agree n len (X Y : nat -> R) : (n * (n + 1) / 2 <= len)%nat -> (forall k, (k < n * (n + 1) / 2)%nat -> X k = Y (S k)) -> py_elements_to_matrix n len X = Ok (ElementsToMatrix n Y).
Proof.
  intros L H. unfold py_elements_to_matrix, ElementsToMatrix. rewrite py_tri_len. destruct (Nat.ltb_spec len (n * (n + 1) / 2)); [lia |]. rewrite tri_py. f_equal. apply py_fill_agree. intros k K. rewrite py_tri_len in K. apply H. lia.
Qed.
Lemma py_elements_agree n M : py_matrix_to_elements n M = MatrixToElements n M.
Proof. unfold py_matrix_to_elements, MatrixToElements. rewrite tri_py, map_map. reflexivity. Qed.
(** ** Covariance *)
Lemma py_used_cols_agree : forall cs i, used_cols (S i) cs = map (fun q => (S (fst q), S (snd q))) (py_used_cols i (map from0 cs)).
Proof.
  induction cs as [| c cs IH]; intro i; [reflexivity |]. cbn [used_cols map py_used_cols]. destruct c as [| c]; [change ((0 <=? from0 0)%Z) with false; apply IH |].
  destruct (Z.leb_spec 0 (from0 (S c))) as [_ | X]; [| unfold from0 in X; lia]. cbn [map fst snd]. rewrite <- IH. do 2 f_equal. unfold from0. lia.
Qed.
Lemma py_cl_used_agree cs : cl_use_index cs = map S (py_cl_used (map from0 cs)).
Proof. unfold cl_use_index, py_cl_used. rewrite py_used_cols_agree, !map_map. reflexivity. Qed.
Lemma py_cov_used_agree cs : cov_cl_used cs = map S (py_cov_used (map from0 cs)).
Proof. unfold cov_cl_used, py_cov_used. rewrite py_used_cols_agree, !map_map. reflexivity. Qed.

(** ** Functions of symmetric matrices do not depend on the decomposition *)
Lemma spectral n (f : R -> R) M U D V E : decomposes n M U D -> decomposes n M V E ->
  meq n (times n U (times n (diagm (fun i => f (D i))) (tr U))) (times n V (times n (diagm (fun i => f (E i))) (tr V))).
Proof.
  intros HU HV. pose proof HU as ((U1 & U2) & EU). pose proof HV as ((V1 & V2) & EV). set (P := times n (tr V) U).
  assert (A : meq n (times n P (diagm D)) (times n (diagm E) P)).
  { unfold P. transitivity (times n (tr V) (times n M U)).
    - rewrite EU, !times_assoc, U1, times_one_r. reflexivity.
    - rewrite EV, !times_assoc. rewrite <- (times_assoc n (tr V) V), V1, times_one_l. reflexivity. }
  assert (B : meq n (times n P (diagm (fun i => f (D i)))) (times n (diagm (fun i => f (E i))) P)).
  { intros i j I J. specialize (A i j I J). rewrite times_diag_r in A |- * by exact J. rewrite times_diag_l in A |- * by exact I. destruct (Req_dec (P i j) 0) as [-> | Z]; [ring |].
    assert (X : D j = E i) by (apply (Rmult_eq_reg_l (P i j)); [rewrite A; ring | exact Z]). rewrite X. ring. }
  transitivity (times n V (times n (times n P (diagm (fun i => f (D i)))) (tr U))).
  - unfold P. rewrite !times_assoc. rewrite <- (times_assoc n V (tr V)), V2, times_one_l. reflexivity.
  - rewrite B. unfold P. rewrite !times_assoc, U2, times_one_r. reflexivity.
Qed.
Lemma decomposes_meq n M M' U D : meq n M M' -> decomposes n M U D -> decomposes n M' U D.
Proof. intros E (O & H). split; [exact O |]. rewrite <- E. exact H. Qed.
Lemma Rm_same n C C' Chat U D U' D' : meq n C C' -> decomposes n C U D -> decomposes n C' U' D' -> (forall i, (1 <= i <= n)%nat -> 0 < D i) -> (forall i, (1 <= i <= n)%nat -> 0 < D' i) ->
  meq n (Wm n U D) (Wm n U' D') /\ meq n (Rm n U D Chat) (Rm n U' D' Chat).
Proof.
  intros E H H' P P'. symmetry in E. apply (decomposes_meq n C' C U' D' E) in H'. assert (X : meq n (Wm n U D) (Wm n U' D')) by (apply (spectral n (fun x => / sqrt x) C); assumption).
  split; [exact X |]. rewrite !Rm_W by assumption. rewrite X. reflexivity.
Qed.
Lemma Transform_same diag eigh n C C' Chat Cf : diagonalizes diag n -> diagonalizes eigh n -> meq n C C' -> symmetric n C -> positive n C -> symmetric n Chat -> positive n Chat ->
  exists T T', Transform diag n C Chat Cf = Ok T /\ Transform eigh n C' Chat Cf = Ok T' /\ meq n T T'.
Proof.
  intros G G' E A B A' B'. destruct (transform_ok diag n C Chat Cf G A B A' B') as (U & D & V & X & T & H & HC & PD & HR & PX & HT).
  destruct (transform_ok eigh n C' Chat Cf G' (symmetric_meq2 n C C' E A) (positive_meq n C C' E B) A' B') as (U' & D' & V' & X' & T' & H' & HC' & PD' & HR' & PX' & HT').
  exists T, T'. split; [exact H |]. split; [exact H' |]. rewrite HT, HT', !tr_times, !times_assoc. destruct (Rm_same n C C' Chat U D U' D' E HC HC' PD PD') as (_ & ER).
  symmetry in ER. apply (decomposes_meq n _ _ V' X' ER) in HR'.
  rewrite <- (times_assoc n (diagm (fun i => gfun (X i))) (tr V)), <- (times_assoc n V), (spectral n gfun _ V X V' X' HR HR'), !times_assoc. reflexivity.
Qed.
Lemma py_g_gfun x : py_g x = gfun x.
Proof.
  unfold py_g, gfun, py_sign. cbv zeta. destruct (Rlt_dec (x - 1) 0); [ring |]. destruct (Rlt_dec 0 (x - 1)); [ring |]. assert (x = 1) by lra. subst x. rewrite ln_1. replace (1 - 0 - 1) with 0 by ring.
  rewrite Rmax_left by lra. rewrite Rmult_0_r, sqrt_0. ring.
Qed.
Lemma decomposes_1 M U D : decomposes 1 M U D -> U 1%nat 1%nat * U 1%nat 1%nat = 1 /\ M 1%nat 1%nat = D 1%nat.
Proof.
  intros ((U1 & _) & E). specialize (U1 1%nat 1%nat ltac:(lia) ltac:(lia)). specialize (E 1%nat 1%nat ltac:(lia) ltac:(lia)). unfold times, tr, one, diagm in U1, E. cbn [total Nat.eqb] in U1, E.
  split; [lra |]. rewrite E. transitivity (D 1%nat * (U 1%nat 1%nat * U 1%nat 1%nat)); [ring |]. replace (U 1%nat 1%nat * U 1%nat 1%nat) with 1 by lra. ring.
Qed.
Lemma positive_11 M : positive 1 M -> 0 < M 1%nat 1%nat.
Proof. intro P. specialize (P (fun _ => 1) (ex_intro _ 1%nat (conj (conj (le_n 1) (le_n 1)) R1_neq_R0))). unfold form in P. cbn [total] in P. lra. Qed.
Lemma py_transform_agree diag eigh n C C' Chat Cf : diagonalizes diag n -> diagonalizes eigh n -> meq n C C' -> symmetric n C -> positive n C -> symmetric n Chat -> positive n Chat ->
  exists T T', Transform diag n C Chat Cf = Ok T /\ py_transform eigh n C' Chat Cf = Ok T' /\ meq n T T'.
Proof.
  intros G G' E A B A' B'. unfold py_transform. destruct (Nat.eqb_spec n 1) as [-> | N].
  - destruct (transform_ok diag 1 C Chat Cf G A B A' B') as (U & D & V & X & T & H & HC & PD & HR & PX & HT).
    rewrite <- (E 1%nat 1%nat) by lia. pose proof (positive_11 C B) as PC. pose proof (positive_11 Chat B') as PH.
    destruct (Req_EM_T (C 1%nat 1%nat) 0); [lra |]. assert (0 < Chat 1%nat 1%nat / C 1%nat 1%nat) by (apply Rdiv_lt_0_compat; assumption). destruct (Rlt_dec 0 (Chat 1%nat 1%nat / C 1%nat 1%nat)); [| contradiction].
    exists T. eexists. split; [exact H |]. split; [reflexivity |]. intros i j I J. replace i with 1%nat by lia. replace j with 1%nat by lia. rewrite (HT 1%nat 1%nat) by lia. unfold upd2. cbn [Nat.eqb andb]. rewrite py_g_gfun.
    destruct (decomposes_1 _ _ _ HR) as (V1 & ER). destruct (decomposes_1 _ _ _ HC) as (U1 & EC). rewrite (Rm_W 1 U D Chat PD 1%nat 1%nat) in ER by lia.
    assert (Q : X 1%nat = Chat 1%nat 1%nat / C 1%nat 1%nat).
    { rewrite <- ER, EC. pose proof (PD 1%nat ltac:(lia)) as P1. pose proof (sqrt_lt_R0 _ P1) as P2. pose proof (sqrt_def (D 1%nat) ltac:(lra)) as P3. unfold times, Wm, times, diagm, tr. cbn [total Nat.eqb].
      transitivity (Chat 1%nat 1%nat * ((U 1%nat 1%nat * U 1%nat 1%nat) * (U 1%nat 1%nat * U 1%nat 1%nat)) / (sqrt (D 1%nat) * sqrt (D 1%nat))); [field; lra |]. rewrite U1, P3. field. lra. }
    rewrite <- Q. unfold times, diagm, tr. cbn [total Nat.eqb]. transitivity (gfun (X 1%nat) * Cf 1%nat 1%nat ^ 2 * (V 1%nat 1%nat * V 1%nat 1%nat)); [ring | rewrite V1; ring].
  - destruct (Transform_same diag eigh n C C' Chat Cf G G' E A B A' B') as (T & T' & H & H' & ET). exists T. unfold Transform in H'. destruct (eigh n C') as [U D]. destruct (all_pos n D); [| discriminate].
    destruct (eigh n (mm n U (mm n (fun i j => mm n (mm n (tr U) Chat) U i j / sqrt (D i) / sqrt (D j)) (tr U)))) as [V X]. destruct (all_pos n X); [| discriminate]. injection H' as <-.
    eexists. split; [exact H |]. split; [reflexivity |]. rewrite ET. set (U2 := mm n Cf V). intros i j I J. unfold mm. rewrite !sum1_total. apply total_ext. intros k K. now rewrite py_g_gfun.
Qed.
(** ** The exact likelihood *)
Lemma inverse_WW n C X U D : meq n (times n X C) one -> decomposes n C U D -> (forall i, (1 <= i <= n)%nat -> 0 < D i) -> meq n X (times n (Wm n U D) (Wm n U D)).
Proof.
  intros E H P. destruct (WH n U D (proj1 H) P) as (W1 & W2). pose proof (HH n C U D H P) as EC. rewrite <- EC in E.
  transitivity (times n (times n X (times n (Hm n U D) (Hm n U D))) (times n (Wm n U D) (Wm n U D))); [| rewrite E, times_one_l; reflexivity].
  rewrite !times_assoc. rewrite <- (times_assoc n (Hm n U D) (Wm n U D)), W2, times_one_l, W2, times_one_r. reflexivity.
Qed.
Lemma py_exact_agree diag chol inv slogdet det n f C C' Chat l : diagonalizes diag n -> factorizes chol n -> inverts inv n -> is_determinant n det -> logs_det slogdet n det ->
  meq n C C' -> symmetric n C -> positive n C -> symmetric n Chat -> positive n Chat -> exists c, ExactChiSq diag chol n f C Chat l = Ok c /\ py_exact inv slogdet n f C' Chat l = Ok c.
Proof.
  intros G F IV HD LD E A B A' B'. destruct (exact_ok diag chol n f C Chat l G F A B A' B') as (L & U & D & HC & PD & _ & EL & LL & LP & H). eexists. split; [exact H |]. clear H.
  destruct HD as (DE & DM & DT). destruct (DT L LL) as (X1 & X2). pose proof (product_pos n (fun i => L i i) LP) as PP. unfold py_exact. destruct (Nat.eqb_spec n 1) as [-> | N].
  - rewrite <- (E 1%nat 1%nat) by lia. pose proof (positive_11 C B) as PC. pose proof (positive_11 Chat B') as PH.
    destruct (Req_EM_T (C 1%nat 1%nat) 0); [lra |]. assert (0 < Chat 1%nat 1%nat / C 1%nat 1%nat) by (apply Rdiv_lt_0_compat; assumption). destruct (Rlt_dec 0 (Chat 1%nat 1%nat / C 1%nat 1%nat)); [| contradiction].
    destruct (decomposes_1 _ _ _ HC) as (U1 & EC). specialize (EL 1%nat 1%nat ltac:(lia) ltac:(lia)). rewrite (Rm_W 1 U D Chat PD 1%nat 1%nat) in EL by lia. pose proof (LP 1%nat ltac:(lia)) as LP1.
    assert (Q : L 1%nat 1%nat * L 1%nat 1%nat = Chat 1%nat 1%nat / C 1%nat 1%nat).
    { rewrite EC. pose proof (PD 1%nat ltac:(lia)) as P1. pose proof (sqrt_lt_R0 _ P1) as P2. pose proof (sqrt_def (D 1%nat) ltac:(lra)) as P3. unfold times, Wm, times, diagm, tr in EL. cbn [total Nat.eqb] in EL.
      rewrite <- (Rplus_0_l (L 1%nat 1%nat * L 1%nat 1%nat)), <- EL.
      transitivity (Chat 1%nat 1%nat * ((U 1%nat 1%nat * U 1%nat 1%nat) * (U 1%nat 1%nat * U 1%nat 1%nat)) / (sqrt (D 1%nat) * sqrt (D 1%nat))); [field; lra |]. rewrite U1, P3. field. lra. }
    f_equal. f_equal. rewrite <- Q, ln_mult by assumption. unfold trace, times, tr. cbn [total INR]. ring.
  - destruct (IV C' (symmetric_meq2 n C C' E A) (positive_meq n C C' E B)) as (X & -> & EX). symmetry in E. rewrite E in EX. pose proof (inverse_WW n C X U D EX HC PD) as EW.
    assert (EM : meq n (mm n X Chat) (times n (Wm n U D) (times n (Wm n U D) Chat))) by (rewrite mm_times, EW, times_assoc; reflexivity).
    pose proof (Rm_W n U D Chat PD) as ER. rewrite ER in EL.
    assert (TR : sum1 n (fun i => mm n X Chat i i) = trace n (times n L (tr L))).
    { rewrite sum1_total. change (trace n (mm n X Chat) = trace n (times n L (tr L))). rewrite (trace_ext _ _ _ EM), trace_comm, <- (trace_ext _ _ _ EL). apply trace_ext. rewrite times_assoc. reflexivity. }
    assert (DTE : det (mm n X Chat) = product (fun i => L i i) n * product (fun i => L i i) n).
    { rewrite (DE _ _ EM), !DM. transitivity (det (times n L (tr L))); [| rewrite DM, X1, X2; reflexivity]. rewrite <- (DE _ _ EL), !DM. ring. }
    cbv zeta. rewrite TR. rewrite (LD (mm n X Chat)) by (rewrite DTE; nra). rewrite DTE, Rabs_right by nra. rewrite ln_mult by assumption. rewrite ln_product by exact LP. f_equal. ring.
Qed.
