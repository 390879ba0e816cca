(** C122: maps and spectra of the likelihoods of bandpowers; C123: their windows and covariance *)
From Coq Require Import Reals ZArith Ascii Bool List Lia Lra Arith String.
From Verif Require Import PyStr BaoModel BaoSpec BaoProofs MapModel MapSpec MapProofs.
Import ListNotations.
Local Open Scope R_scope.

(** C122: used maps are numbered in their order, and the list of used maps is the inverse of the numbering. *)
Theorem C122_used use i : (1 <= i)%nat -> used_index use i = if nth (i - 1) use false then used_among use i else O.
Proof. intro I. unfold used_index. rewrite number_used_nth. replace (S (i - 1)) with i by lia. reflexivity. Qed.
Theorem C122_numbering use k i : at1 (order_used use) k i <-> (1 <= i)%nat /\ (1 <= k)%nat /\ used_index use i = k.
Proof.
  unfold at1, order_used. rewrite order_from_spec. split.
  - intros (K & I & U & E). split; [exact I |]. split; [exact K |]. rewrite C122_used, U by exact I. replace i with (S (i - 1)) by lia. rewrite used_among_S by exact U. lia.
  - intros (I & K & E). rewrite C122_used in E by exact I. destruct (nth (i - 1) use false) eqn:U; [| lia]. split; [exact K |]. split; [exact I |]. split; [reflexivity |].
    replace i with (S (i - 1)) in E by lia. rewrite used_among_S in E by exact U. lia.
Qed.
(** C122: the name of a pair gives the two maps, if names of maps are different, not empty and without x. *)
Theorem C122_pair_partial m a b i j : NoDup (names m) -> Forall clean (names m) -> at1 (names m) i a -> at1 (names m) j b -> (named m = false -> Forall (fun s => length s = 1%nat) (names m)) ->
  pair_indices m (pair_name (named m) a b) = Ok (i, j).
Proof.
  intros ND CL A B SH. assert (IA := IndexOf_NoDup _ _ _ ND A). assert (IB := IndexOf_NoDup _ _ _ ND B).
  assert (HA : clean a) by (rewrite Forall_forall in CL; apply CL; eapply nth_error_In; apply A). assert (HB : clean b) by (rewrite Forall_forall in CL; apply CL; eapply nth_error_In; apply B).
  unfold pair_indices. destruct (named m) eqn:EN; cbn [pair_name].
  - rewrite app_length. cbn [length]. destruct HA as (HA & XA), HB as (HB & XB). destruct (Nat.eqb_spec (length a + S (length b)) 2) as [E |]; [destruct a, b; cbn [length] in E; try congruence; lia |].
    rewrite split_x_app by exact XA. cbn [bind fst snd]. now rewrite IA, IB.
  - specialize (SH eq_refl). rewrite Forall_forall in SH. assert (LA := SH a ltac:(eapply nth_error_In; apply A)). assert (LB := SH b ltac:(eapply nth_error_In; apply B)).
    destruct a as [| ca [|]]; try discriminate. destruct b as [| cb [|]]; try discriminate. cbn [app length Nat.eqb firstn skipn bind fst snd]. now rewrite IA, IB.
Qed.
(** FINDING: with an x in the name of a map the first x is taken: other maps are taken, or none is found. *)
Theorem C122_pair_refuted : exists m a b i j, NoDup (names m) /\ at1 (names m) i a /\ at1 (names m) j b /\ named m = true /\ exists i' j', pair_indices m (pair_name true a b) = Ok (i', j') /\ (i', j') <> (i, j).
Proof.
  exists (mkMaps [L "a"; L "bxc"; L "axb"; L "c"] true [1; 1; 1; 1]%nat), (L "axb"), (L "c"), 3%nat, 4%nat.
  split; [cbn; repeat (constructor; [cbn; intuition discriminate |]); constructor |]. split; [split; [lia | reflexivity] |]. split; [split; [lia | reflexivity] |]. split; [reflexivity |].
  exists 1%nat, 2%nat. split; [reflexivity | discriminate].
Qed.
(** C122: the order of the two names does not matter for the spectrum. *)
Theorem C122_symmetric m index s s' i j : pair_indices m s = Ok (i, j) -> pair_indices m s' = Ok (j, i) -> used_pair m index s = used_pair m index s' /\ exists p q, used_pair m index s = Ok (p, q) /\ (q <= p)%nat.
Proof.
  intros E E'. unfold used_pair. rewrite E, E'. cbn [bind fst snd]. destruct (Nat.ltb_spec (index i) (index j)), (Nat.ltb_spec (index j) (index i)); try lia; split; try (do 2 f_equal; lia); eexists; eexists; split; try reflexivity; lia.
Qed.
(** C122: spectra are numbered by the rows of a triangle, without gaps; without a map there is no number. *)
Theorem C122_column n i j : (1 <= j <= i)%nat -> (i <= n)%nat -> col_of n (i, j) = triangle i j /\ (1 <= triangle i j <= n * (n + 1) / 2)%nat.
Proof.
  intros J I. split; [| apply triangle_range; assumption]. unfold col_of. cbn [fst snd]. destruct (Nat.eqb_spec i 0); [lia |]. destruct (Nat.eqb_spec j 0); [lia |]. cbn [orb].
  rewrite (number_in (tri n) (triangle i j - 1)) by (try apply tri_NoDup; apply tri_nth; assumption). unfold triangle. lia.
Qed.
Theorem C122_none n i j : i = O \/ j = O -> col_of n (i, j) = O.
Proof. unfold col_of. cbn [fst snd]. intros [-> | ->]; [reflexivity |]. rewrite orb_true_r. reflexivity. Qed.
Theorem C122_all n c : (1 <= c <= n * (n + 1) / 2)%nat -> exists i j, (1 <= j <= i)%nat /\ (i <= n)%nat /\ c = triangle i j /\ forall i' j', (1 <= j' <= i')%nat -> (i' <= n)%nat -> c = triangle i' j' -> i' = i /\ j' = j.
Proof.
  intro C. rewrite <- tri_ncl in C. destruct (nth_error (tri n) (c - 1)) as [[i j] |] eqn:E; [| apply nth_error_None in E; lia]. exists i, j. assert (I := E). apply nth_error_In in I. apply tri_In in I.
  split; [lia |]. split; [lia |]. assert (T := tri_nth n i j ltac:(lia) ltac:(lia)). split.
  - pose proof (tri_NoDup n) as ND. rewrite NoDup_nth_error in ND. assert (c - 1 = triangle i j - 1)%nat; [| assert (1 <= triangle i j)%nat by (unfold triangle; lia); lia]. apply ND; [lia | congruence].
  - intros i' j' J' I' ->. rewrite tri_nth in E by assumption. injection E as -> ->. auto.
Qed.
(** C122: a vector of elements and its symmetric matrix. *)
Theorem C122_matrix n X : (forall i j, (1 <= j <= i)%nat -> (i <= n)%nat -> ElementsToMatrix n X i j = X (triangle i j)) /\ symmetric n (ElementsToMatrix n X) /\
  MatrixToElements n (ElementsToMatrix n X) = map X (seq 1 (n * (n + 1) / 2)).
Proof.
  split; [intros; apply matrix_element; assumption |]. split.
  - intros i j I J. destruct (Nat.le_ge_cases i j).
    + destruct (matrix_element n X j i ltac:(lia) ltac:(lia)) as (A & B). congruence.
    + destruct (matrix_element n X i j ltac:(lia) ltac:(lia)) as (A & B). congruence.
  - unfold MatrixToElements. rewrite <- tri_ncl. apply nth_ext with (d := 0) (d' := 0); [rewrite !map_length, seq_length; reflexivity |]. rewrite map_length. intros k K.
    destruct (C122_all n (S k)) as (i & j & J & I & E & _); [rewrite <- tri_ncl; lia |].
    assert (T := tri_nth n i j J I). replace (triangle i j - 1)%nat with k in T by lia.
    rewrite (nth_indep _ 0 (ElementsToMatrix n X (fst (0, 0)%nat) (snd (0, 0)%nat))) by (rewrite map_length; exact K). rewrite (map_nth (fun p => ElementsToMatrix n X (fst p) (snd p))).
    rewrite (nth_error_nth _ _ _ T). cbn [fst snd]. rewrite (proj1 (matrix_element n X i j J I)), <- E.
    rewrite (nth_indep _ 0 (X O)) by (rewrite map_length, seq_length; exact K). rewrite map_nth, seq_nth by exact K. reflexivity.
Qed.
Theorem C122_elements n M i j : (1 <= j <= i)%nat -> (i <= n)%nat -> at1 (MatrixToElements n M) (triangle i j) (M i j).
Proof. intros J I. split; [unfold triangle; lia |]. unfold MatrixToElements. rewrite (map_nth_error _ _ _ (tri_nth n i j J I)). reflexivity. Qed.
(** C122: the column of a spectrum in a file is the one with the name of its pair, in either order. *)
Theorem C122_order isnamed used order : exists c, GetColsFromOrder isnamed used order = Ok c /\ forall i j a b, (j <= i)%nat -> at1 used i a -> at1 used j b ->
  ((forall s, In s order -> ~ names_pair isnamed a b s) -> c (triangle i j) = O) /\
  (forall k s, at1 order k s -> names_pair isnamed a b s -> (forall k' s', at1 order k' s' -> names_pair isnamed a b s' -> k' = k) -> c (triangle i j) = k).
Proof.
  destruct (get_cols_ok isnamed used order (tri (length used)) 1 (fun _ => O) (fun _ _ => eq_refl)) as (c & E & A & _). exists c. split; [exact E |]. intros i j a b J AI AJ.
  assert (IL : (i <= length used)%nat). { destruct AI as (I1 & I2). assert (i - 1 < length used)%nat by (apply nth_error_Some; congruence). lia. }
  assert (J1 : (1 <= j)%nat) by apply AJ. specialize (A _ _ (tri_nth (length used) i j ltac:(lia) IL)). replace (1 + (triangle i j - 1))%nat with (triangle i j) in A by (unfold triangle; lia).
  rewrite A. unfold col_in. cbn [fst snd]. rewrite (nth_error_nth _ _ _ (proj2 AI)), (nth_error_nth _ _ _ (proj2 AJ)).
  assert (EQ : i = j -> a = b). { intros ->. destruct AI as (_ & X1), AJ as (_ & X2). congruence. } split.
  - intro N. destruct (IndexOf order (pair_name isnamed a b)) as [k |] eqn:E1.
    + exfalso. apply IndexOf_some in E1 as ((_ & E1) & _). apply (N _ (nth_error_In _ _ E1)). now left.
    + destruct (Nat.eqb_spec i j); [reflexivity |]. destruct (IndexOf order (pair_name isnamed b a)) as [k |] eqn:E2; [| reflexivity]. exfalso. apply IndexOf_some in E2 as ((_ & E2) & _). apply (N _ (nth_error_In _ _ E2)). now right.
  - intros k s AK NP U. destruct (IndexOf order (pair_name isnamed a b)) as [k1 |] eqn:E1.
    + apply IndexOf_some in E1 as (E1 & _). apply (U k1 _ E1). now left.
    + destruct (Nat.eqb_spec i j) as [Q |].
      * exfalso. apply IndexOf_none in E1. apply E1. rewrite (EQ Q) in *. destruct NP as [-> | ->]; eapply nth_error_In; apply AK.
      * destruct (IndexOf order (pair_name isnamed b a)) as [k2 |] eqn:E2.
        -- apply IndexOf_some in E2 as (E2 & _). apply (U k2 _ E2). now right.
        -- exfalso. apply IndexOf_none in E1, E2. destruct NP as [-> | ->]; [apply E1 | apply E2]; eapply nth_error_In; apply AK.
Qed.
(** FINDING: a spectrum that is given twice is never found to be one: the check looks at an array that is still 0. *)
Theorem C122_duplicate_refuted : exists c, GetColsFromOrder false [L "T"; L "E"] [L "L"; L "TT"; L "TE"; L "ET"; L "TT"] = Ok c /\ c 1%nat = 2%nat /\ c 2%nat = 4%nat.
Proof. eexists. split; [reflexivity |]. split; reflexivity. Qed.

(** C122: values of a file: those of the last row of each bin; 0 for bins without a row and spectra without a column. *)
Lemma read_rows_ok norder ncl cols bmin bmax : (forall ix, (1 <= ix <= ncl)%nat -> (cols ix <> O -> 2 <= cols ix <= S norder)%nat) ->
  forall rows ll Cl, Forall (fun r => (norder <= length (snd r))%nat) rows -> (exists l, (bmax <= l)%Z /\ (rows = [] /\ ll = Some l \/ exists r v, rows = r ++ [(l, v)])) ->
  exists Cl', read_rows norder ncl cols bmin bmax rows ll Cl = Ok Cl' /\ forall ix b, (1 <= ix <= ncl)%nat -> (bmin <= b <= bmax)%Z ->
    (cols ix = O -> Cl' ix b = Cl ix b) /\ (forall v, cols ix <> O -> last_for rows b v -> Cl' ix b = nth (cols ix - 2) v 0) /\ (~ In b (map fst rows) -> Cl' ix b = Cl ix b).
Proof.
  intros HC. induction rows as [| [l vals] rows IH]; intros ll Cl F (lz & LZ & EL); cbn [read_rows].
  - destruct EL as [(_ & ->) | (r & v & E)]; [| destruct r; discriminate]. destruct (Z.ltb_spec lz bmax); [lia |]. exists Cl. split; [reflexivity |]. intros ix b I B. split; [reflexivity |]. split; [| reflexivity].
    intros v _ (r1 & r2 & E & _). destruct r1; discriminate.
  - inversion F as [| ? ? F1 F2]; subst. cbn [snd] in F1. destruct (Nat.ltb_spec (length vals) norder); [lia |].
    assert (G : exists Cl1, (if (bmin <=? l)%Z && (l <=? bmax)%Z then set_cols cols (seq 1 ncl) l (firstn norder vals) Cl else Ok Cl) = Ok Cl1 /\ forall ix b, (1 <= ix <= ncl)%nat -> (bmin <= b <= bmax)%Z ->
      Cl1 ix b = if negb (Nat.eqb (cols ix) 0) && (b =? l)%Z then nth (cols ix - 2) vals 0 else Cl ix b).
    { destruct (Z.leb_spec bmin l), (Z.leb_spec l bmax); cbn [andb].
      2-4: exists Cl; split; [reflexivity |]; intros ix b I B; destruct (Z.eqb_spec b l); [lia | rewrite andb_false_r; reflexivity].
      destruct (set_cols_ok cols l (firstn norder vals) (seq 1 ncl) Cl (seq_NoDup _ _)) as (C1 & E & P).
      - intros ix I N. apply in_seq in I. rewrite firstn_length, Nat.min_l by lia. apply HC; [lia | exact N].
      - exists C1. split; [exact E |]. intros ix b I B. rewrite P. assert (existsb (Nat.eqb ix) (seq 1 ncl) = true) as -> by (apply existsb_exists; exists ix; split; [apply in_seq; lia | apply Nat.eqb_refl]). cbn [andb].
        destruct (Nat.eqb_spec (cols ix) 0) as [Z0 | Z0]; [reflexivity |]. destruct (b =? l)%Z; [| reflexivity]. cbn [negb andb]. pose proof (HC ix I Z0). rewrite <- (firstn_skipn norder vals) at 2. rewrite app_nth1; [reflexivity |]. rewrite firstn_length. lia. }
    destruct G as (Cl1 & -> & G). cbn [bind]. destruct (IH (Some l) Cl1 F2) as (Cl' & E & P).
    { destruct EL as [(Q & _) | (r & v & Q)]; [discriminate |]. destruct r as [| x r]; [injection Q as -> -> ->; exists lz; split; [exact LZ |]; left; split; reflexivity | injection Q as _ ->; exists lz; split; [exact LZ |]; right; exists r, v; reflexivity]. }
    exists Cl'. split; [exact E |]. intros ix b I B. destruct (P ix b I B) as (P1 & P2 & P3). specialize (G ix b I B). split; [| split].
    + intro Z0. rewrite P1 by exact Z0. rewrite G, Z0. reflexivity.
    + intros v NZ (r1 & r2 & Q & NI). destruct r1 as [| x r1].
      * injection Q as -> -> ->. rewrite P3 by exact NI. rewrite G, Z.eqb_refl. destruct (Nat.eqb_spec (cols ix) 0); [contradiction | reflexivity].
      * injection Q as _ ->. apply P2; [exact NZ |]. exists r1, r2. split; [reflexivity | exact NI].
    + intro NI. cbn [map fst] in NI. rewrite P3 by (intro X; apply NI; now right). rewrite G. destruct (Z.eqb_spec b l) as [EB |]; [exfalso; apply NI; left; congruence |]. rewrite andb_false_r. reflexivity.
Qed.
Theorem C122_file_partial isnamed used first order bmin bmax rows l v r : rows = r ++ [(l, v)] -> (bmax <= l)%Z -> Forall (fun r => (length order <= length (snd r))%nat) rows ->
  (forall a b, In a used -> In b used -> ~ names_pair isnamed a b first) ->
  exists Cl c, ReadClArr isnamed used (first :: order) bmin bmax rows = Ok Cl /\ GetColsFromOrder isnamed used (first :: order) = Ok c /\
    forall i j b, (1 <= j <= i)%nat -> (i <= length used)%nat -> (bmin <= b <= bmax)%Z ->
      (c (triangle i j) = O -> Cl (triangle i j) b = 0) /\ (forall k w, c (triangle i j) = S (S k) -> last_for rows b w -> Cl (triangle i j) b = nth k w 0) /\ (~ In b (map fst rows) -> Cl (triangle i j) b = 0).
Proof.
  intros ER LB F NF. unfold ReadClArr. destruct (get_cols_ok isnamed used (first :: order) (tri (length used)) 1 (fun _ => O) (fun _ _ => eq_refl)) as (c & E & A & _). unfold GetColsFromOrder. rewrite E. cbn [bind]. replace (length (first :: order) - 1)%nat with (length order) by (cbn [length]; lia). rewrite <- tri_ncl.
  assert (CR : forall ix, (1 <= ix <= length (tri (length used)))%nat -> c ix <> O -> (2 <= c ix <= S (length order))%nat).
  { intros ix I N. destruct (nth_error (tri (length used)) (ix - 1)) as [[i j] |] eqn:Q; [| apply nth_error_None in Q; lia]. assert (T := A _ _ Q). replace (1 + (ix - 1))%nat with ix in T by lia. rewrite T in *.
    apply nth_error_In, tri_In in Q. unfold col_in in *. cbn [fst snd] in *. set (a := nth (i - 1) used []) in *. set (b := nth (j - 1) used []) in *.
    assert (IA : In a used) by (apply nth_In; lia). assert (IB : In b used) by (apply nth_In; lia).
    assert (H : forall s k, names_pair isnamed a b s -> IndexOf (first :: order) s = Some k -> (2 <= k <= S (length order))%nat).
    { intros s k NP X. apply IndexOf_some in X as ((X1 & X2) & _). destruct (Nat.eq_dec k 1) as [-> |]; [cbn in X2; injection X2 as ->; exfalso; apply (NF a b IA IB NP) |].
      assert (k - 1 < length (first :: order))%nat by (apply nth_error_Some; congruence). cbn [length] in *. lia. }
    destruct (IndexOf (first :: order) (pair_name isnamed a b)) as [k |] eqn:X1; [apply (H _ k (or_introl eq_refl) X1) |]. destruct (Nat.eqb i j); [congruence |].
    destruct (IndexOf (first :: order) (pair_name isnamed b a)) as [k |] eqn:X2; [apply (H _ k (or_intror eq_refl) X2) | congruence]. }
  destruct (read_rows_ok (length order) (length (tri (length used))) c bmin bmax CR rows None (fun _ _ => 0) F) as (Cl & EC & P).
  { exists l. split; [exact LB |]. right. exists r, v. exact ER. }
  exists Cl, c. split; [exact EC |]. split; [reflexivity |]. intros i j b J I B. assert (TR := triangle_range (length used) i j J I). rewrite <- tri_ncl in TR. destruct (P (triangle i j) b TR B) as (P1 & P2 & P3). split; [exact P1 |]. split; [| exact P3].
  intros k w EK LF. rewrite (P2 w) by (try lia; exact LF). rewrite EK. replace (S (S k) - 2)%nat with k by lia. reflexivity.
Qed.
(** FINDING: only the last row is checked: a file that lacks bins in between is read with zeros, and a complete one in another order stops; an empty file is judged by a variable that was never set. *)
Theorem C122_rows_refuted :
  (exists Cl, ReadClArr false [L "T"] [L "L"; L "TT"] 1 3 [(1%Z, [5]); (3%Z, [7])] = Ok Cl /\ Cl 1%nat 2%Z = 0) /\
  ReadClArr false [L "T"] [L "L"; L "TT"] 1 2 [(2%Z, [5]); (1%Z, [7])] = Stop /\
  ReadClArr false [L "T"] [L "L"; L "TT"] 1 2 [] = Undef.
Proof. split; [eexists; split; [reflexivity | reflexivity] |]. split; reflexivity. Qed.
Theorem C122_short isnamed used order bmin bmax rows : order <> [] -> Exists (fun r => (length (snd r) < length order - 1)%nat) rows -> forall Cl, ReadClArr isnamed used order bmin bmax rows <> Ok Cl.
Proof.
  intros N E Cl. unfold ReadClArr. destruct order as [| o order]; [congruence |]. destruct (GetColsFromOrder _ _ _) as [c | |]; cbn [bind]; try discriminate. generalize (None : option Z), (fun (_ : nat) (_ : Z) => 0) as C0.
  induction E as [[l v] rows S0 | [l v] rows E IH]; intros ll C0; cbn [read_rows].
  - cbn [snd] in S0. destruct (Nat.ltb_spec (length v) (length (o :: order) - 1)); [discriminate | lia].
  - destruct (Nat.ltb (length v) (length (o :: order) - 1)); [discriminate |]. destruct (if (bmin <=? l)%Z && (l <=? bmax)%Z then _ else _) as [C1 | |]; cbn [bind]; try discriminate. apply IH.
Qed.
Example C122_ex : read_maps [L "T1"; L "T2"; L "E1"] [L "T"; L "T"; L "E"] = Ok (mkMaps [L "T1"; L "T2"; L "E1"] true [1; 1; 2]%nat) /\
  select (mkMaps [L "T1"; L "T2"; L "E1"] true [1; 1; 2]%nat) [] [L "E1"; L "T1"] [L "T2"] = Ok ([true; false; true], [true; true; true]) /\
  cols (mkMaps [L "T1"; L "T2"; L "E1"] true [1; 1; 2]%nat) 2 (used_index [true; false; true]) [L "T1xT1"; L "T1xE1"; L "T2xE1"; L "E1xE1"] = Ok [1; 2; 0; 3]%nat /\
  (exists Cl, ReadClArr true [L "T1"; L "E1"] [L "L"; L "E1xT1"; L "E1xE1"] 1 2 [(1%Z, [5; 6]); (2%Z, [7; 8])] = Ok Cl /\ Cl 1%nat 1%Z = 0 /\ Cl 2%nat 1%Z = 5 /\ Cl 3%nat 2%Z = 8).
Proof. repeat split; try reflexivity. eexists. split; [reflexivity |]. repeat split; reflexivity. Qed.
(** C122: the maps that are used are those that are asked for, by name or by field; required maps are those and the ones used; unknown names stop. *)
Lemma set_nth_spec : forall l j i, nth i (set_nth l j) false = (Nat.eqb i j && Nat.ltb i (length l)) || nth i l false.
Proof.
  induction l as [| b l IH]; intros j i; [destruct i, j; cbn; rewrite ?andb_false_r; reflexivity |]. destruct j as [| j], i as [| i]; cbn [set_nth nth length Nat.eqb]; try reflexivity. rewrite IH. cbn [Nat.ltb Nat.leb]. reflexivity.
Qed.
Lemma set_nth_length : forall l j, length (set_nth l j) = length l.
Proof. induction l as [| b l IH]; intros [| j]; cbn [set_nth length]; auto. Qed.
Lemma switch_on_spec m : NoDup (names m) -> forall items l, length l = length (names m) ->
  match switch_on m l items with
  | Ok l' => Forall (fun s => In s (names m)) items /\ length l' = length l /\ forall i a, at1 (names m) i a -> nth (i - 1) l' false = mem_str a items || nth (i - 1) l false
  | Stop => Exists (fun s => ~ In s (names m)) items
  | Undef => False
  end.
Proof.
  intro ND. induction items as [| s items IH]; intros l LL; cbn [switch_on]; [repeat split; constructor |]. destruct (IndexOf (names m) s) as [j |] eqn:E.
  - apply IndexOf_some in E as (E & _). specialize (IH (set_nth l (j - 1)) ltac:(rewrite set_nth_length; exact LL)). destruct (switch_on m (set_nth l (j - 1)) items) as [l' | |]; [| now right | exact IH]. destruct IH as (A & B & C).
    split; [constructor; [eapply nth_error_In; apply E | exact A] |]. split; [rewrite B; apply set_nth_length |]. intros i a I. rewrite (C i a I), set_nth_spec. unfold mem_str. cbn [existsb]. fold (mem_str a items).
    assert (i - 1 < length l)%nat by (rewrite LL; apply nth_error_Some; rewrite (proj2 I); discriminate). destruct (Nat.ltb_spec (i - 1) (length l)); [| lia]. rewrite andb_true_r.
    assert (Nat.eqb (i - 1) (j - 1) = str_eqb a s) as ->; [| now rewrite orb_assoc, (orb_comm (mem_str a items))].
    destruct (str_eqb_spec a s) as [-> | N].
    + apply Nat.eqb_eq. rewrite NoDup_nth_error in ND. apply ND; [apply nth_error_Some; rewrite (proj2 I); discriminate |]. destruct I as (_ & ->), E as (_ & ->). reflexivity.
    + apply Nat.eqb_neq. intro Q. apply N. destruct I as (_ & I), E as (_ & E). rewrite Q in I. congruence.
  - left. now apply IndexOf_none.
Qed.
Theorem C122_select m fields_use maps_use required use req : NoDup (names m) -> length (fields m) = length (names m) -> select m fields_use maps_use required = Ok (use, req) ->
  Forall (fun s => In s (names m)) (maps_use ++ required) /\
  forall i a f, at1 (names m) i a -> at1 (fields m) i f ->
    (nth (i - 1) use false = true <-> (In a maps_use \/ (maps_use = [] /\ (fields_use = [] \/ exists s c r, In s fields_use /\ s = c :: r /\ TypeIndex c = Ok f)))) /\
    (nth (i - 1) req false = true <-> (nth (i - 1) use false = true \/ In a required)).
Proof.
  intros ND LF. unfold select. destruct (use_fields m fields_use) as [uf | |] eqn:EU; cbn [bind]; try discriminate.
  assert (UF : forall f, uf f = true <-> (fields_use = [] \/ exists s c r, In s fields_use /\ s = c :: r /\ TypeIndex c = Ok f)).
  { intro f. unfold use_fields in EU. destruct fields_use as [| s0 fu]; [destruct (named m); [injection EU as <-; split; auto | discriminate] |].
    destruct (mapM field_of (s0 :: fu)) as [l | |] eqn:EM; cbn [bind] in EU; try discriminate. injection EU as <-. rewrite existsb_exists.
    assert (MM : forall l0 l1, mapM field_of l0 = Ok l1 -> forall f, In f l1 <-> exists s c r, In s l0 /\ s = c :: r /\ TypeIndex c = Ok f).
    { clear. induction l0 as [| s l0 IH]; intros l1 E f; cbn [mapM] in E; [injection E as <-; split; [intros [] | intros (s & c & r & [] & _)] |].
      destruct (field_of s) as [g | |] eqn:EF; cbn [bind] in E; try discriminate. destruct (mapM field_of l0) as [t | |] eqn:ET; cbn [bind] in E; try discriminate. injection E as <-. specialize (IH t eq_refl f).
      unfold field_of, first_char in EF. destruct s as [| c r]; cbn [bind] in EF; try discriminate. split.
      - intros [-> | I]; [exists (c :: r), c, r; split; [now left |]; split; [reflexivity | exact EF] |]. apply IH in I as (s & c' & r' & A & B & C). exists s, c', r'. split; [now right | auto].
      - intros (s & c' & r' & [A | A] & B & C); [left; subst s; injection B as -> ->; congruence | right; apply IH; exists s, c', r'; auto]. }
    split.
    - intros (g & I & E). apply Nat.eqb_eq in E. subst g. right. apply (MM _ _ EM). exact I.
    - intros [Q | Q]; [discriminate |]. exists f. split; [apply (MM _ _ EM); exact Q | apply Nat.eqb_refl]. }
  assert (U1 : forall u, (match maps_use with [] => Ok (map uf (fields m)) | _ => switch_on m (map (fun _ => false) (names m)) maps_use end) = Ok u -> length u = length (names m) /\ Forall (fun s => In s (names m)) maps_use /\
    forall i a f, at1 (names m) i a -> at1 (fields m) i f -> (nth (i - 1) u false = true <-> (In a maps_use \/ (maps_use = [] /\ uf f = true)))).
  { intros u EQ. destruct maps_use as [| s0 mu].
    - injection EQ as <-. rewrite map_length. split; [exact LF |]. split; [constructor |]. intros i a f I J. rewrite (nth_error_nth _ _ _ (map_nth_error uf _ _ (proj2 J))). split; [auto | intros [[] | (_ & X)]; exact X].
    - pose proof (switch_on_spec m ND (s0 :: mu) (map (fun _ => false) (names m)) ltac:(apply map_length)) as H. rewrite EQ in H. destruct H as (A & B & C). rewrite map_length in B. split; [exact B |]. split; [exact A |].
      intros i a f I J. rewrite (C i a I). rewrite (nth_error_nth _ _ _ (map_nth_error (fun _ => false) _ _ (proj2 I))), orb_false_r. unfold mem_str. rewrite existsb_exists. split.
      + intros (x & X & Y). left. destruct (str_eqb_spec a x); [subst; exact X | discriminate].
      + intros [X | (X & _)]; [| discriminate]. exists a. split; [exact X |]. destruct (str_eqb_spec a a); [reflexivity | contradiction]. }
  destruct (match maps_use with [] => _ | _ => _ end) as [u | |] eqn:EQ; cbn [bind]; try discriminate. destruct (U1 u eq_refl) as (LU & FM & UU).
  intro ER. assert (R1 : exists q, (match required with [] => Ok u | _ => switch_on m u required end) = Ok q /\ (use, req) = (u, q)).
  { destruct (match required with [] => _ | _ => _ end) as [q | |]; cbn [bind] in ER; try discriminate. exists q. split; [reflexivity | congruence]. }
  destruct R1 as (q & EQ' & E2). injection E2 as -> ->. destruct required as [| s0 rq].
  - injection EQ' as <-. rewrite app_nil_r. split; [exact FM |]. intros i a f I J. split; [rewrite (UU i a f I J), UF; reflexivity |]. split; [auto | intros [X | []]; exact X].
  - pose proof (switch_on_spec m ND (s0 :: rq) u LU) as H. rewrite EQ' in H. destruct H as (A & B & C). split; [apply Forall_app; split; assumption |]. intros i a f I J. split; [rewrite (UU i a f I J), UF; reflexivity |].
    rewrite (C i a I), orb_true_iff. unfold mem_str. rewrite existsb_exists. split.
    + intros [(x & X & Y) | X]; [right; destruct (str_eqb_spec a x); [subst; exact X | discriminate] | now left].
    + intros [X | X]; [now right | left; exists a; split; [exact X |]; destruct (str_eqb_spec a a); [reflexivity | contradiction]].
Qed.

(** C123: a window gives to each spectrum the sum over the windows for it and over the multipoles. *)
Lemma sumL_over lo hi f : sumL lo hi f = over_l lo hi f.
Proof.
  unfold sumL, over_l, sum1. generalize (Z.to_nat (hi - lo + 1)). intro n.
  assert (G : forall l s, fold_left (fun s i => s + f (lo + Z.of_nat i - 1)%Z) l s = s + fold_right (fun i t => f (lo + Z.of_nat i - 1)%Z + t) 0 l).
  { induction l as [| x l IH]; intro s; cbn [fold_left fold_right]; [ring |]. rewrite IH. ring. }
  rewrite G, Rplus_0_l. rewrite <- seq_shift. induction (seq 0 n) as [| x l IH]; cbn [map fold_right]; [reflexivity |]. rewrite IH. do 2 f_equal. lia.
Qed.
Lemma over_l_0 lo hi f : (forall l, f l = 0) -> over_l lo hi f = 0.
Proof. intro Z. unfold over_l. induction (seq 0 _) as [| x l IH]; cbn [fold_right]; [reflexivity |]. rewrite IH, Z. ring. Qed.
Lemma over_l_ext lo hi f g : (forall l, (lo <= l <= hi)%Z -> f l = g l) -> over_l lo hi f = over_l lo hi g.
Proof.
  intro E. unfold over_l. assert (G : forall l, (forall k, In k l -> (k < Z.to_nat (hi - lo + 1))%nat) -> fold_right (fun k t => f (lo + Z.of_nat k)%Z + t) 0 l = fold_right (fun k t => g (lo + Z.of_nat k)%Z + t) 0 l).
  { induction l as [| x l IH]; intro B; cbn [fold_right]; [reflexivity |]. rewrite IH by (intros; apply B; now right). rewrite E; [reflexivity |]. specialize (B x (or_introl eq_refl)). lia. }
  apply G. intros k K. apply in_seq in K. lia.
Qed.
Theorem C123_window_partial w nreq theory bin : length (cols_in w) = length (cols_out w) -> there w nreq ->
  exists Cls, bin_window w nreq theory bin = Ok Cls /\ forall o, (1 <= o)%nat -> Cls o = windows_to w theory bin o.
Proof.
  unfold there, bin_window, windows_to. intros LE TH.
  assert (G : forall ins outs k Cls0, length ins = length outs -> Forall (fun q => snd q <> O -> (1 <= fst (fst q) <= nreq)%nat /\ (1 <= snd (fst q) <= nreq)%nat) (combine ins outs) ->
    exists Cls, bin_from w nreq theory bin k ins outs Cls0 = Ok Cls /\ forall o, (1 <= o)%nat -> Cls o = Cls0 o + fold_right (fun q t => (if Nat.eqb (snd (snd q)) o then over_l (wlo w) (whi w) (fun l => W w l (fst q) bin * spec_of w theory (fst (snd q)) l) else 0) + t) 0 (combine (seq k (length ins)) (combine ins outs))).
  { induction ins as [| [i j] ins IH]; intros [| o outs] k Cls0 LE' TH'; try discriminate; [exists Cls0; split; [reflexivity |]; intros; cbn; ring |]. cbn [length] in LE'. injection LE' as LE'. cbn [combine] in TH'. inversion TH' as [| ? ? T1 T2]; subst. cbn [fst snd] in T1. cbn [bin_from].
    destruct (Nat.eqb_spec o 0) as [-> | NO].
    - destruct (IH outs (S k) Cls0 LE' T2) as (Cls & E & F). exists Cls. split; [exact E |]. intros o O. rewrite (F o O). cbn [length seq combine fold_right fst snd]. destruct (Nat.eqb_spec 0 o); [lia |]. ring.
    - destruct (T1 NO) as (I & J). assert (Nat.leb 1 i && Nat.leb i nreq && Nat.leb 1 j && Nat.leb j nreq = true) as -> by (rewrite !andb_true_iff, !Nat.leb_le; lia).
      match goal with |- context [bin_from w nreq theory bin (S k) ins outs ?C] => destruct (IH outs (S k) C LE' T2) as (Cls & E & F); exists Cls; split; [exact E |]; intros o' O'; rewrite (F o' O') end.
      cbn [length seq combine fold_right fst snd]. unfold spec_of at 2. cbn [fst snd].
      destruct (match fixCls w with Some F0 => F0 i j | None => None end) as [C |]; [rewrite (Nat.eqb_sym o' o); destruct (Nat.eqb o o'); rewrite ?sumL_over; ring |].
      destruct (theory i j) as [C |]; [rewrite (Nat.eqb_sym o' o); destruct (Nat.eqb o o'); rewrite ?sumL_over; ring |]. destruct (Nat.eqb o o'); [| ring]. rewrite (over_l_0 (wlo w) (whi w) (fun l => W w l k bin * 0)) by (intro; ring). ring. }
  destruct (G (cols_in w) (cols_out w) 1%nat (fun _ => 0) LE TH) as (Cls & E & F). exists Cls. split; [exact E |]. intros o O. rewrite (F o O). ring.
Qed.
(** FINDING: a window for a used spectrum from a map that is not required reads outside of the array of spectra. *)
Theorem C123_window_refuted : exists m use req w, select m [L "E"] [] [] = Ok (use, req) /\ ReadBinWindows m use req 2 3 [L "TT"; L "EE"] [L "EE"; L "EE"] [(1%Z, [(2%Z, [1; 1])])] = Ok w /\
  forall theory, bin_window w (length (order_used req)) theory 1 = Undef.
Proof.
  exists (mkMaps [L "T"; L "E"; L "B"; L "P"] false [1; 2; 3; 4]%nat), [false; true; false; false], [false; true; false; false]. eexists. split; [reflexivity |]. split; [reflexivity |]. intro theory. reflexivity.
Qed.
(** C123: windows are read as they are in the files, within the multipoles. *)
Theorem C123_read lo hi norder rows : Forall (fun r => (norder <= length (snd r))%nat) rows ->
  exists Wb, read_window lo hi norder rows (fun _ _ => 0) = Ok Wb /\ forall l k, (lo <= l <= hi)%Z -> (1 <= k <= norder)%nat ->
    (forall v, last_for rows l v -> Wb l k = nth (k - 1) v 0) /\ (~ In l (map fst rows) -> Wb l k = 0).
Proof.
  intro F. assert (G : forall W0, exists Wb, read_window lo hi norder rows W0 = Ok Wb /\ forall l k, (lo <= l <= hi)%Z -> (1 <= k <= norder)%nat -> (forall v, last_for rows l v -> Wb l k = nth (k - 1) v 0) /\ (~ In l (map fst rows) -> Wb l k = W0 l k)).
  { induction F as [| [l vals] rows F1 F IH]; intro W0; cbn [read_window].
    - exists W0. split; [reflexivity |]. intros l k _ _. split; [intros v (r1 & r2 & E & _); destruct r1; discriminate | reflexivity].
    - cbn [snd] in F1. destruct (Nat.ltb_spec (length vals) norder); [lia |].
      match goal with |- context [read_window lo hi norder rows ?C] => destruct (IH C) as (Wb & E & P) end. exists Wb. split; [exact E |]. intros l' k L K. destruct (P l' k L K) as (P1 & P2). split.
      + intros v (r1 & r2 & Q & NI). destruct r1 as [| x r1].
        * injection Q as E1 E2 E3. subst l v rows. rewrite P2 by exact NI. destruct (Z.leb_spec lo l'), (Z.leb_spec l' hi); try lia. cbn [andb]. now rewrite Z.eqb_refl.
        * injection Q as _ E3. apply P1. exists r1, r2. split; assumption.
      + intro NI. cbn [map fst] in NI. rewrite P2 by (intro X; apply NI; now right). destruct ((lo <=? l)%Z && (l <=? hi)%Z); [| reflexivity]. destruct (Z.eqb_spec l' l) as [-> |]; [exfalso; apply NI; now left | reflexivity]. }
  apply G.
Qed.
(** C123: the correction by a second set of windows is 0 where it is that of the fiducial model. *)
Theorem C123_correction w w' fid nmaps nreq theory bin : length (cols_in w) = length (cols_out w) -> there w nreq -> length (cols_in w') = length (cols_out w') -> there w' nreq ->
  exists M, GetBinnedMapCls w (Some (w', fid)) nmaps nreq theory bin = Ok M /\
  forall i j, (1 <= j <= i)%nat -> (i <= nmaps)%nat -> M i j = windows_to w theory bin (triangle i j) + (windows_to w' theory bin (triangle i j) - fid (triangle i j)) /\ M j i = M i j.
Proof.
  intros L1 T1 L2 T2. unfold GetBinnedMapCls. destruct (C123_window_partial w nreq theory bin L1 T1) as (C1 & -> & P1). destruct (C123_window_partial w' nreq theory bin L2 T2) as (C2 & -> & P2). cbn [bind]. eexists. split; [reflexivity |].
  intros i j J I. destruct (matrix_element nmaps (fun a => C1 a + (C2 a - fid a)) i j J I) as (-> & ->). split; [| reflexivity]. assert (1 <= triangle i j)%nat by (unfold triangle; lia). now rewrite P1, P2.
Qed.
Theorem C123_binned w nmaps nreq theory bin : length (cols_in w) = length (cols_out w) -> there w nreq ->
  exists M, GetBinnedMapCls w None nmaps nreq theory bin = Ok M /\ forall i j, (1 <= j <= i)%nat -> (i <= nmaps)%nat -> M i j = windows_to w theory bin (triangle i j) /\ M j i = M i j.
Proof.
  intros L1 T1. unfold GetBinnedMapCls. destruct (C123_window_partial w nreq theory bin L1 T1) as (C1 & -> & P1). cbn [bind]. eexists. split; [reflexivity |].
  intros i j J I. destruct (matrix_element nmaps C1 i j J I) as (-> & ->). split; [| reflexivity]. assert (1 <= triangle i j)%nat by (unfold triangle; lia). now rewrite P1.
Qed.
(** C123: each column of a window file is for the pairs of maps of its names. *)
Theorem C123_columns m use req lo hi ins outs files w : ReadBinWindows m use req lo hi ins outs files = Ok w ->
  Forall2 (fun s p => used_pair m (used_index req) s = Ok p) ins (cols_in w) /\
  Forall2 (fun s c => exists p, used_pair m (used_index use) s = Ok p /\ c = col_of (length (order_used use)) p) (match outs with [] => ins | _ => outs end) (cols_out w) /\ length (cols_in w) = length (cols_out w) /\ wlo w = lo /\ whi w = hi.
Proof.
  assert (MM : forall {A B} (f : A -> out B) l l', mapM f l = Ok l' -> Forall2 (fun x y => f x = Ok y) l l').
  { intros A B f. induction l as [| x l IH]; intros l' E; cbn [mapM] in E; [injection E as <-; constructor |]. destruct (f x) as [y | |] eqn:EF; cbn [bind] in E; try discriminate. destruct (mapM f l) as [t | |]; cbn [bind] in E; try discriminate. injection E as <-. constructor; auto. }
  unfold ReadBinWindows, cols, Cl_i_j. destruct (mapM (used_pair m (used_index req)) ins) as [ci | |] eqn:E1; cbn [bind]; try discriminate.
  destruct (mapM (used_pair m (used_index use)) (match outs with [] => ins | _ => outs end)) as [co | |] eqn:E2; cbn [bind]; try discriminate.
  destruct (Nat.eqb_spec (length ci) (length (map (col_of (length (order_used use))) co))); [| discriminate]. destruct (read_windows _ _ _ _ _) as [Wf | |]; cbn [bind]; try discriminate. intro E. injection E as <-. cbn [cols_in cols_out wlo whi].
  split; [apply MM; exact E1 |]. split; [| auto]. apply MM in E2. clear - E2. induction E2; cbn [map]; constructor; eauto.
Qed.

(** C123: the covariance is the part of the file for the bins and the spectra that are used, times the scale; the k-th spectrum of a bin is the same in the vector and in the covariance. *)
Lemma place_inj lo n b b' k k' : (lo <= b)%Z -> (lo <= b')%Z -> (1 <= k <= n)%nat -> (1 <= k' <= n)%nat -> place lo n b k = place lo n b' k' -> b = b' /\ k = k'.
Proof.
  intros B B' K K' E. unfold place in E. assert (Z.to_nat (b - lo) = Z.to_nat (b' - lo)).
  { destruct (lt_eq_lt_dec (Z.to_nat (b - lo)) (Z.to_nat (b' - lo))) as [[X | X] | X]; [nia | exact X | nia]. }
  split; [lia |]. nia.
Qed.
Lemma set_cov_spec row lo hi n scale Cov b k b' k' : (lo <= b <= hi)%Z -> (lo <= b' <= hi)%Z -> (1 <= k <= n)%nat -> (1 <= k' <= n)%nat ->
  set_cov row lo hi n scale Cov (place lo n b k) (place lo n b' k') = scale * Cov (row b k) (row b' k').
Proof.
  intros B B' K K'. unfold set_cov. set (f := fun M q => _).
  assert (IN : forall b k, (lo <= b <= hi)%Z -> (1 <= k <= n)%nat -> In (b, k) (list_prod (upto lo hi) (seq 1 n))).
  { intros c m C M. apply in_prod_iff. split; [| apply in_seq; lia]. unfold upto. apply in_map_iff. exists (Z.to_nat (c - lo)). split; [lia |]. apply in_seq. lia. }
  assert (RG : forall q, In q (quads lo hi n) -> (lo <= fst (fst q))%Z /\ (lo <= fst (snd q))%Z /\ (1 <= snd (fst q) <= n)%nat /\ (1 <= snd (snd q) <= n)%nat).
  { intros [[c m] [c' m']] Q. unfold quads in Q. cbn [fst snd]. apply in_prod_iff in Q as (Q1 & Q2). apply in_prod_iff in Q1 as (Q1 & Q3). apply in_prod_iff in Q2 as (Q2 & Q4). apply in_seq in Q3, Q4. unfold upto in *. apply in_map_iff in Q1 as (? & <- & _). apply in_map_iff in Q2 as (? & <- & _). lia. }
  assert (Q : In ((b, k), (b', k')) (quads lo hi n)) by (unfold quads; apply in_prod_iff; split; apply IN; assumption).
  revert RG Q. generalize (fun (_ _ : nat) => 0) as M0. induction (quads lo hi n) as [| q l IH]; intros M0 RG Q; [destruct Q |]. cbn [fold_left].
  destruct (in_dec (fun x y : (Z * nat) * (Z * nat) => ltac:(repeat decide equality)) ((b, k), (b', k')) l) as [Y | N]; [apply IH; [intros; apply RG; now right | exact Y] |].
  destruct Q as [-> | Q]; [| contradiction]. clear IH.
  assert (KEEP : forall l M, (forall q, In q l -> (lo <= fst (fst q))%Z /\ (lo <= fst (snd q))%Z /\ (1 <= snd (fst q) <= n)%nat /\ (1 <= snd (snd q) <= n)%nat) -> ~ In ((b, k), (b', k')) l ->
    fold_left f l M (place lo n b k) (place lo n b' k') = M (place lo n b k) (place lo n b' k')).
  { clear - B B' K K'. intros. revert M H H0. induction l as [| [[c m] [c' m']] l IH]; intros M RG N; [reflexivity |]. cbn [fold_left]. rewrite IH; [| intros; apply RG; now right | intro X; apply N; now right].
    unfold f, upd2. cbn [fst snd]. destruct (RG _ (or_introl eq_refl)) as (R1 & R2 & R3 & R4). cbn [fst snd] in *.
    destruct (Nat.eqb_spec (place lo n b k) (place lo n c m)) as [E1 |]; [| reflexivity]. destruct (Nat.eqb_spec (place lo n b' k') (place lo n c' m')) as [E2 |]; [| reflexivity]. exfalso. apply N. left.
    apply place_inj in E1, E2; try lia. destruct E1, E2. subst. reflexivity. }
  rewrite KEEP; [| intros; apply RG; now right | exact N]. unfold f, upd2. cbn [fst snd]. rewrite !Nat.eqb_refl. reflexivity.
Qed.
Lemma used_cols_spec : forall cs k i c p, nth_error (used_cols k cs) i = Some (c, p) -> (k <= p)%nat /\ nth_error cs (p - k) = Some c /\ c <> O.
Proof.
  induction cs as [| x cs IH]; intros k i c p E; [destruct i; discriminate |]. assert (SH : (S k <= p)%nat -> nth_error cs (p - S k) = nth_error (x :: cs) (p - k)) by (intro L; replace (p - k)%nat with (S (p - S k)) by lia; reflexivity).
  cbn [used_cols] in E. destruct x as [| x].
  - apply IH in E as (A & B & C). rewrite SH in B by lia. split; [lia | auto].
  - destruct i as [| i]; cbn [nth_error] in E.
    + injection E as <- <-. rewrite Nat.sub_diag. split; [lia |]. split; [reflexivity | discriminate].
    + apply IH in E as (A & B & C). rewrite SH in B by lia. split; [lia | auto].
Qed.
Lemma used_cols_all : forall cs k, length (used_cols k cs) = length (filter (fun c => negb (Nat.eqb c 0)) cs).
Proof. induction cs as [| [| x] cs IH]; intro k; cbn [used_cols filter Nat.eqb negb length]; rewrite ?IH; reflexivity. Qed.
Theorem C123_used cs k : (1 <= k <= length (cov_cl_used cs))%nat -> exists c p, at1 (cl_use_index cs) k c /\ at1 (cov_cl_used cs) k p /\ at1 cs p c /\ c <> O.
Proof.
  intro K. unfold cov_cl_used in K. rewrite map_length in K. destruct (nth_error (used_cols 1 cs) (k - 1)) as [[c p] |] eqn:E; [| apply nth_error_None in E; lia]. exists c, p. unfold cl_use_index, cov_cl_used, at1.
  rewrite !(map_nth_error _ _ _ E). cbn [fst snd]. apply used_cols_spec in E as (A & B & C). repeat split; auto; lia.
Qed.
Theorem C123_count cs : length (cl_use_index cs) = length (filter (fun c => negb (Nat.eqb c 0)) cs) /\ length (cov_cl_used cs) = length (cl_use_index cs).
Proof. unfold cl_use_index, cov_cl_used. rewrite !map_length. split; [apply used_cols_all | reflexivity]. Qed.
Theorem C123_cov_bins lmin lmax lo hi cs scale Cov b k b' k' p p' : (1 <= lo)%Z -> (lo <= b <= hi)%Z -> (lo <= b' <= hi)%Z -> at1 (cov_cl_used cs) k p -> at1 (cov_cl_used cs) k' p' ->
  covmat true lmin lmax lo hi cs scale Cov (place lo (length (cov_cl_used cs)) b k) (place lo (length (cov_cl_used cs)) b' k') =
  scale * Cov ((Z.to_nat b - 1) * length cs + p)%nat ((Z.to_nat b' - 1) * length cs + p')%nat.
Proof.
  intros L B B' (K & P) (K' & P'). unfold covmat. assert (k - 1 < length (cov_cl_used cs))%nat by (apply nth_error_Some; congruence). assert (k' - 1 < length (cov_cl_used cs))%nat by (apply nth_error_Some; congruence).
  rewrite set_cov_spec by lia. unfold row_binned. rewrite (nth_error_nth _ _ _ P), (nth_error_nth _ _ _ P'). do 3 f_equal; lia.
Qed.
Theorem C123_cov_multipoles lmin lmax lo hi cs scale Cov b k b' k' p p' : (lmin <= lo)%Z -> (hi <= lmax)%Z -> (lo <= b <= hi)%Z -> (lo <= b' <= hi)%Z -> at1 (cov_cl_used cs) k p -> at1 (cov_cl_used cs) k' p' ->
  covmat false lmin lmax lo hi cs scale Cov (place lo (length (cov_cl_used cs)) b k) (place lo (length (cov_cl_used cs)) b' k') =
  scale * Cov ((p - 1) * Z.to_nat (lmax - lmin + 1) + (Z.to_nat (b - lmin) + 1))%nat ((p' - 1) * Z.to_nat (lmax - lmin + 1) + (Z.to_nat (b' - lmin) + 1))%nat.
Proof.
  intros L H B B' (K & P) (K' & P'). unfold covmat. assert (k - 1 < length (cov_cl_used cs))%nat by (apply nth_error_Some; congruence). assert (k' - 1 < length (cov_cl_used cs))%nat by (apply nth_error_Some; congruence).
  rewrite set_cov_spec by lia. unfold row_unbinned. rewrite (nth_error_nth _ _ _ P), (nth_error_nth _ _ _ P'). do 3 f_equal; lia.
Qed.
Theorem C123_vector cs X k c x : at1 (cl_use_index cs) k c -> at1 X c x -> at1 (vec_bin cs X) k x.
Proof. intros (K & C) (C1 & H). split; [exact K |]. unfold vec_bin. rewrite (map_nth_error _ _ _ C). f_equal. now apply nth_error_nth. Qed.
(** C123: the scale of the covariance is that of the data set, 1 if it has none: it is so for the first data set and for those with one. *)
Theorem C123_scale_partial keys i x : at1 keys i (Some x) -> at1 (scales 1 keys) i x.
Proof.
  intros (I & E). split; [exact I |]. revert E. generalize (i - 1)%nat, 1. clear I i. induction keys as [| k keys IH]; intros n s E; [destruct n; discriminate |]. cbn [scales]. destruct n as [| n]; cbn [nth_error] in *; [injection E as ->; reflexivity |]. now apply IH.
Qed.
Theorem C123_scale_first key keys : at1 (scales 1 (key :: keys)) 1 (match key with Some x => x | None => 1 end).
Proof. split; [lia |]. reflexivity. Qed.
(** FINDING: the scale is kept from one data set to the next one: without one of its own its covariance is scaled by that of the data set before. *)
Theorem C123_scale_refuted x : at1 (scales 1 [Some x; None]) 2 x.
Proof. split; [lia | reflexivity]. Qed.
(** C123: the theory is asked for the spectra of each required field and for that of temperature and polarization. *)
Theorem C123_lmax_partial m req lmax i j f : at1 (order_used req) i j -> at1 (fields m) j f -> (1 <= f <= 4)%nat -> cl_lmax m req lmax f f = lmax /\
  (forall i' j' f', at1 (order_used req) i' j' -> at1 (fields m) j' f' -> f = 2%nat -> f' = 1%nat -> cl_lmax m req lmax f f' = lmax).
Proof.
  intros O F R4. assert (RQ : forall i j f, at1 (order_used req) i j -> at1 (fields m) j f -> required_field m req f = true).
  { intros a b c (_ & A) (_ & B). unfold required_field. apply existsb_exists. exists b. split; [eapply nth_error_In; exact A |]. rewrite (nth_error_nth _ _ _ B). apply Nat.eqb_refl. }
  assert (R1 := RQ _ _ _ O F). unfold cl_lmax. split.
  - rewrite Nat.eqb_refl, R1. destruct (Nat.leb_spec 1 f), (Nat.leb_spec f 4); try lia. reflexivity.
  - intros i' j' f' O' F' -> ->. rewrite R1, (RQ _ _ _ O' F'). reflexivity.
Qed.
(** FINDING: the spectra of the lensing potential with temperature or polarization are not asked for, also if both maps are required. *)
Theorem C123_lmax_refuted m req lmax f : (f = 1 \/ f = 2)%nat -> cl_lmax m req lmax 4 f = 0%Z.
Proof. intros [-> | ->]; reflexivity. Qed.
Example C123_ex : (exists w, ReadBinWindows (mkMaps [L "T"; L "E"; L "B"; L "P"] false [1; 2; 3; 4]%nat) [true; true; false; false] [true; true; false; false] 2 3 [L "TT"; L "TE"; L "ET"] [L "TT"; L "TE"; L "EE"] [(1%Z, [(2%Z, [1; 2; 3]); (3%Z, [4; 5; 6])])] = Ok w /\
    there w 2 /\ cols_in w = [(1, 1); (2, 1); (2, 1)]%nat /\ cols_out w = [1; 2; 3]%nat /\ W w 3 2%nat 1 = 5) /\
  covmat true 0 0 2 3 [1; 0; 3]%nat 2 (fun i j => INR i + INR j / 100) 3 2 = 2 * (INR 7 + INR 6 / 100).
Proof.
  split.
  - eexists. split; [reflexivity |]. split; [unfold there; cbn; repeat constructor |]. repeat split; reflexivity.
  - exact (C123_cov_bins 0 0 2 3 [1; 0; 3]%nat 2 (fun i j => INR i + INR j / 100) 3 1 2 2 1 3 ltac:(lia) ltac:(lia) ltac:(lia) (conj (le_n 1) eq_refl) (conj (le_S _ _ (le_n 1)) eq_refl)).
Qed.
Print Assumptions C122_select.
Print Assumptions C122_file_partial.
Print Assumptions C123_window_partial.
Print Assumptions C123_cov_bins.
