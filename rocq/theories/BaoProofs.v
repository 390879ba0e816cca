From Coq Require Import Reals Bool List Lia Lra.
From Verif Require Import McmcModel BaoModel BaoSpec.
Import ListNotations.
Local Open Scope R_scope.

Lemma fold_sum l : forall (f : nat -> R) s, fold_left (fun s i => s + f i) l s = s + fold_right (fun i s => f i + s) 0 l.
Proof. induction l as [| x l IH]; intros f s; cbn [fold_left fold_right]; [lra |]. rewrite IH. lra. Qed.
Lemma sum1_total n f : sum1 n f = total f n.
Proof.
  unfold sum1. induction n as [| n IH]; [reflexivity |]. rewrite seq_S, fold_left_app. cbn [fold_left total]. rewrite IH. reflexivity.
Qed.
Lemma total_ext n f g : (forall i, (1 <= i <= n)%nat -> f i = g i) -> total f n = total g n.
Proof. induction n as [| n IH]; intro E; [reflexivity |]. cbn [total]. rewrite IH by (intros; apply E; lia). rewrite E by lia. reflexivity. Qed.
Lemma total_scale n f c : total (fun i => c * f i) n = c * total f n.
Proof. induction n as [| n IH]; cbn [total]; [ring |]. rewrite IH. ring. Qed.
Lemma total_0 n f : (forall i, (1 <= i <= n)%nat -> f i = 0) -> total f n = 0.
Proof. induction n as [| n IH]; intro E; [reflexivity |]. cbn [total]. rewrite IH by (intros; apply E; lia). rewrite E by lia. ring. Qed.
Lemma total_one n f k : (1 <= k <= n)%nat -> (forall i, (1 <= i <= n)%nat -> i <> k -> f i = 0) -> total f n = f k.
Proof.
  induction n as [| n IH]; intros K E; [lia |]. cbn [total]. destruct (Nat.eq_dec k (S n)) as [-> | N].
  - rewrite total_0; [ring |]. intros i I. apply E; lia.
  - rewrite IH; [| lia |]. 2: intros i I NI; apply E; lia. rewrite (E (S n)) by lia. ring.
Qed.
Lemma QuadForm_upper n M v : QuadForm n M v = form n (fun i j => M (Nat.min i j) (Nat.max i j)) v.
Proof.
  unfold QuadForm, form. rewrite sum1_total. apply total_ext. intros i I. unfold MulVecSymm. rewrite sum1_total, <- total_scale. apply total_ext. intros j J. ring.
Qed.
Lemma form_ext n M M' v v' : (forall i j, (1 <= i <= n)%nat -> (1 <= j <= n)%nat -> M i j = M' i j) -> (forall i, (1 <= i <= n)%nat -> v i = v' i) -> form n M v = form n M' v'.
Proof. intros E EV. unfold form. apply total_ext. intros i I. apply total_ext. intros j J. now rewrite E, (EV i), (EV j). Qed.
Lemma QuadForm_form n M v : symmetric n M -> QuadForm n M v = form n M v.
Proof.
  intro S. rewrite QuadForm_upper. apply form_ext; [| reflexivity]. intros i j I J. destruct (Nat.le_gt_cases i j) as [L | L].
  - now rewrite Nat.min_l, Nat.max_r by lia.
  - rewrite Nat.min_r, Nat.max_l by lia. apply S; lia.
Qed.
Lemma form_diag n d v : form n (fun i j => if Nat.eqb i j then d i else 0) v = total (fun i => d i * (v i * v i)) n.
Proof.
  unfold form. apply total_ext. intros i I. rewrite (total_one n _ i); [| exact I |].
  - rewrite Nat.eqb_refl. ring.
  - intros j J N. assert (Nat.eqb i j = false) as -> by (apply Nat.eqb_neq; lia). ring.
Qed.

(** the theory for all points *)
Lemma theories_spec k P rs b js l : theories k P rs b js = Ok l ->
  length l = length js /\ forall m, (m < length js)%nat -> exists t y o, typ b (nth m js O) = Some t /\ theory1 k P rs (zs b (nth m js O)) t = Ok y /\ obs b (nth m js O) = Some o /\ nth m l 0 = y - o.
Proof.
  revert l. induction js as [| j js IH]; intros l E; cbn [theories] in E.
  - injection E as <-. split; [reflexivity |]. cbn. lia.
  - destruct (typ b j) as [t |] eqn:ET; [| discriminate]. cbn [value_of bind] in E. destruct (theory1 k P rs (zs b j) t) as [y | |] eqn:EY; try discriminate. cbn [bind] in E.
    destruct (obs b j) as [o |] eqn:EO; [| discriminate]. cbn [value_of bind] in E. destruct (theories k P rs b js) as [l' | |] eqn:EL; try discriminate. cbn [bind] in E.
    injection E as <-. destruct (IH _ eq_refl) as (A & B). split; [cbn; lia |]. intros [| m] M; cbn [nth].
    + exists t, y, o. auto.
    + apply B. cbn in M. lia.
Qed.
Lemma theories_ok k P rs b (T : nat -> mtype) (O : nat -> R) js :
  (forall j, In j js -> typ b j = Some (T j) /\ T j <> dilation /\ obs b j = Some (O j)) -> exists l, theories k P rs b js = Ok l.
Proof.
  induction js as [| j js IH]; intro Q; [exists []; reflexivity |]. cbn [theories]. destruct (Q j (or_introl eq_refl)) as (-> & N & ->). cbn [value_of bind].
  destruct IH as (l & ->); [intros i I; apply Q; now right |]. destruct (T j); try congruence; cbn [theory1 bind]; eexists; reflexivity.
Qed.

(** axes *)
Lemma incr_lt n f : increasing n f -> forall i j, (1 <= i)%nat -> (i < j)%nat -> (j <= n)%nat -> f i < f j.
Proof.
  intros S i j I. induction j as [| j IH]; intros L J; [lia |]. destruct (Nat.eq_dec i j) as [-> | N]; [apply S; lia |].
  eapply Rlt_trans; [apply IH; lia | apply S; lia].
Qed.
Lemma search_spec n f a i : increasing n f -> (1 <= i)%nat -> (i < n)%nat -> f i < a -> a <= f (S i) -> forall m s, (s <= S i)%nat -> (1 <= s)%nat -> (S i < s + m)%nat -> (s + m <= S n)%nat -> search f a (seq s m) = Some i.
Proof.
  intros S I N A B. induction m as [| m IH]; intros s L1 L2 L3 L4; [lia |]. cbn [seq search]. destruct (Rle_dec (a - f s) 0) as [D | D].
  - destruct (Nat.eq_dec s (Datatypes.S i)) as [-> | NS]; [f_equal; lia |]. exfalso. assert (f s <= f i); [| lra].
    destruct (Nat.eq_dec s i) as [-> | NI]; [lra |]. apply Rlt_le, (incr_lt n f S); lia.
  - apply IH; try lia. destruct (Nat.eq_dec s (Datatypes.S i)) as [-> | NS]; [exfalso; lra | lia].
Qed.
Lemma search_first f a s m : a <= f s -> (1 <= m)%nat -> search f a (seq s m) = Some (s - 1)%nat.
Proof. intros A M. destruct m; [lia |]. cbn [seq search]. destruct (Rle_dec (a - f s) 0); [reflexivity | lra]. Qed.
(** every point of the axis above its first one is in a cell *)
Lemma cell n f a : (1 <= n)%nat -> f 1%nat < a -> a <= f n -> exists i, (1 <= i)%nat /\ (i < n)%nat /\ f i < a /\ a <= f (S i).
Proof.
  induction n as [| n IH]; intros N A B; [lia |]. destruct n as [| n]; [lra |]. destruct (Rle_lt_dec a (f (S n))) as [L | L].
  - destruct IH as (i & I1 & I2 & I3); try assumption; [lia |]. exists i. repeat split; try apply I3; lia.
  - exists (S n). repeat split; try assumption; lia.
Qed.
Lemma lookup_in {A} n (f : nat -> A) i : (1 <= i <= n)%nat -> lookup n f i = Ok (f i).
Proof. intro I. unfold lookup. destruct (Nat.leb_spec 1 i), (Nat.leb_spec i n); try lia. reflexivity. Qed.
Lemma lookup_0 {A} n (f : nat -> A) : lookup n f 0 = Undef. Proof. reflexivity. Qed.
(** the expression of the code is the interpolation in two directions *)
Lemma code_bilinear x0 x1 y0 y1 p00 p10 p01 p11 a b : x0 < x1 -> y0 < y1 ->
  1 / ((x1 - x0) * (y1 - y0)) * (p00 * (x1 - a) * (y1 - b) - p10 * (x0 - a) * (y1 - b) - p01 * (x1 - a) * (y0 - b) + p11 * (x0 - a) * (y0 - b)) =
  line x0 x1 (line y0 y1 p00 p01 b) (line y0 y1 p10 p11 b) a.
Proof. intros X Y. unfold line. field. split; lra. Qed.
(** interpolation at the two ends, and between them *)
Lemma line_l x0 x1 y0 y1 : x0 < x1 -> line x0 x1 y0 y1 x0 = y0. Proof. intro. unfold line. field. lra. Qed.
Lemma line_r x0 x1 y0 y1 : x0 < x1 -> line x0 x1 y0 y1 x1 = y1. Proof. intro. unfold line. field. lra. Qed.
Lemma line_between x0 x1 y0 y1 x lo hi : x0 < x1 -> x0 <= x <= x1 -> lo <= y0 <= hi -> lo <= y1 <= hi -> lo <= line x0 x1 y0 y1 x <= hi.
Proof.
  intros L X Y0 Y1. unfold line. set (w := (x - x0) / (x1 - x0)). assert (W : 0 <= w <= 1).
  { unfold w. split; [apply Rmult_le_pos; [lra | apply Rlt_le, Rinv_0_lt_compat; lra] |]. apply (Rmult_le_reg_r (x1 - x0)); [lra |]. field_simplify; lra. }
  replace (y0 + (y1 - y0) * w) with ((1 - w) * y0 + w * y1) by ring. split.
  - replace lo with ((1 - w) * lo + w * lo) by ring. apply Rplus_le_compat; apply Rmult_le_compat_l; lra.
  - replace hi with ((1 - w) * hi + w * hi) at 1 by ring. apply Rplus_le_compat; apply Rmult_le_compat_l; lra.
Qed.

(** reading the lines *)
Lemma fold_max_ge l : forall s, s <= fold_left Rmax l s /\ (forall x, In x l -> x <= fold_left Rmax l s) /\ (fold_left Rmax l s = s \/ In (fold_left Rmax l s) l).
Proof.
  induction l as [| y l IH]; intro s; cbn [fold_left]; [split; [lra | split; [intros x [] | now left]] |].
  destruct (IH (Rmax s y)) as (A & B & C). pose proof (Rmax_l s y). pose proof (Rmax_r s y). split; [lra |]. split.
  - intros x [<- | I]; [lra | now apply B].
  - destruct C as [C | C]; [| right; now right]. rewrite C. unfold Rmax. destruct (Rle_dec s y); [right; now left | now left].
Qed.
Lemma upd_same {A} (f : nat -> A) i x : upd f i x i = x. Proof. unfold upd. now rewrite Nat.eqb_refl. Qed.
Lemma upd_other {A} (f : nat -> A) i x k : k <> i -> upd f i x k = f k. Proof. intro N. unfold upd. destruct (Nat.eqb_spec k i); [contradiction | reflexivity]. Qed.
Lemma pairs_In n m i j : In (i, j) (pairs n m) <-> (1 <= i <= n)%nat /\ (1 <= j <= m)%nat.
Proof. unfold pairs. rewrite in_prod_iff, !in_seq. lia. Qed.
(** after reading lines of a table for a list of points, those points are in the arrays *)
Lemma read_rows_spec (x y : nat -> R) (p : nat -> nat -> R) more : forall ijs g,
  exists g', read_rows ijs (map (fun ij => (x (fst ij), y (snd ij), p (fst ij) (snd ij))) ijs ++ more) g = Ok g' /\ np g' = np g /\ nl g' = nl g /\
    (forall i, (exists j, In (i, j) ijs) -> perp g' i = x i) /\ (forall i, (forall j, ~ In (i, j) ijs) -> perp g' i = perp g i) /\
    (forall j, (exists i, In (i, j) ijs) -> plel g' j = y j) /\ (forall j, (forall i, ~ In (i, j) ijs) -> plel g' j = plel g j) /\
    (forall i j, In (i, j) ijs -> prob g' i j = p i j) /\ (forall i j, ~ In (i, j) ijs -> prob g' i j = prob g i j).
Proof.
  assert (D : forall a b : nat * nat, {a = b} + {a <> b}) by (decide equality; apply Nat.eq_dec).
  induction ijs as [| [i0 j0] ijs IH]; intro g; cbn [map app read_rows fst snd].
  - exists g. split; [destruct more; reflexivity |]. repeat split; auto; intros ? []; contradiction.
  - destruct (IH (mkGrid (np g) (nl g) (upd (perp g) i0 (x i0)) (upd (plel g) j0 (y j0)) (upd (prob g) i0 (upd (prob g i0) j0 (p i0 j0))))) as (g' & E & A1 & A2 & A3 & A4 & A5 & A6 & A7 & A8).
    cbn [np nl perp plel prob] in *. exists g'. split; [exact E |]. split; [exact A1 |]. split; [exact A2 |].
    assert (X1 : forall i, {exists j, In (i, j) ijs} + {forall j, ~ In (i, j) ijs}).
    { intro i. destruct (in_dec Nat.eq_dec i (map fst ijs)) as [I | I]; [left | right].
      - apply in_map_iff in I as ([a b] & <- & I). now exists b.
      - intros j J. apply I. apply in_map_iff. now exists (i, j). }
    assert (X2 : forall j, {exists i, In (i, j) ijs} + {forall i, ~ In (i, j) ijs}).
    { intro i. destruct (in_dec Nat.eq_dec i (map snd ijs)) as [I | I]; [left | right].
      - apply in_map_iff in I as ([a b] & <- & I). now exists a.
      - intros j J. apply I. apply in_map_iff. now exists (j, i). }
    repeat split.
    + intros i (j & J). destruct (X1 i) as [Y | Y]; [now apply A3 |]. rewrite A4 by exact Y. destruct J as [J | J]; [| now destruct (Y j)]. injection J as -> ->. apply upd_same.
    + intros i N. rewrite A4 by (intros j J; apply (N j); now right). apply upd_other. intros ->. apply (N j0). now left.
    + intros j (i & J). destruct (X2 j) as [Y | Y]; [now apply A5 |]. rewrite A6 by exact Y. destruct J as [J | J]; [| now destruct (Y i)]. injection J as -> ->. apply upd_same.
    + intros j N. rewrite A6 by (intros i J; apply (N i); now right). apply upd_other. intros ->. apply (N i0). now left.
    + intros i j J. destruct (in_dec D (i, j) ijs) as [Y | Y]; [now apply A7 |]. rewrite A8 by exact Y. destruct J as [J | J]; [| contradiction]. injection J as -> ->. rewrite !upd_same. reflexivity.
    + intros i j N. rewrite A8 by (intro J; apply N; now right). destruct (Nat.eq_dec i i0) as [-> | NI].
      * rewrite upd_same. apply upd_other. intros ->. apply N. now left.
      * now rewrite upd_other.
Qed.
Lemma rows_pairs n m x y p : rows_of n m x y p = map (fun ij => (x (fst ij), y (snd ij), p (fst ij) (snd ij))) (pairs n m).
Proof.
  unfold rows_of, pairs. generalize (seq 1 n) as l. induction l as [| i l IH]; [reflexivity |]. cbn [flat_map list_prod map]. rewrite map_app, map_map, IH. reflexivity.
Qed.
Lemma read_rows_short : forall ijs rows g, (length rows < length ijs)%nat -> read_rows ijs rows g = Stop.
Proof.
  induction ijs as [| [i j] ijs IH]; intros rows g L; [cbn in L; lia |]. destruct rows as [| [[t0 t1] t2] rows]; [reflexivity |]. cbn [read_rows]. apply IH. cbn in L. lia.
Qed.
