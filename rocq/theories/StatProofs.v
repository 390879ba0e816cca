(** Proofs about means, variances, covariances and reweighting. *)
From Coq Require Import Reals List Bool Arith Lia Lra.
From Verif Require Import StatModel StatSpec.
Import ListNotations.
Local Open Scope R_scope.

(** finite sums *)

Lemma sumR_app a b : sumR (a ++ b) = sumR a + sumR b.
Proof. unfold sumR. induction a as [|x a IH]; cbn [app fold_right]; [lra|]. rewrite IH. lra. Qed.
Lemma Sm_S n f : Sm (S n) f = Sm n f + f n.
Proof. unfold Sm. rewrite seq_S, map_app, sumR_app. cbn [map Nat.add]. unfold sumR at 2. cbn [fold_right]. lra. Qed.
Lemma Sm_0 f : Sm 0 f = 0. Proof. reflexivity. Qed.
Lemma Sm_ext n f g : (forall i, (i < n)%nat -> f i = g i) -> Sm n f = Sm n g.
Proof. induction n; intros H; [reflexivity|]. rewrite !Sm_S, IHn, H by (intros; auto with arith). reflexivity. Qed.
Lemma Sm_plus n f g : Sm n (fun i => f i + g i) = Sm n f + Sm n g.
Proof. induction n; [rewrite ?Sm_0; lra|]. rewrite !Sm_S, IHn. lra. Qed.
Lemma Sm_scal n c f : Sm n (fun i => c * f i) = c * Sm n f.
Proof. induction n; [rewrite ?Sm_0; lra|]. rewrite !Sm_S, IHn. lra. Qed.
Lemma Sm_zero n : Sm n (fun _ => 0) = 0.
Proof. induction n; [reflexivity|]. rewrite Sm_S, IHn. lra. Qed.
Lemma Sm_swap n m f : Sm n (fun i => Sm m (fun j => f i j)) = Sm m (fun j => Sm n (fun i => f i j)).
Proof.
  induction n; [cbn; symmetry; apply Sm_zero|]. rewrite Sm_S, IHn, <- Sm_plus.
  apply Sm_ext. intros j _. now rewrite Sm_S.
Qed.
Lemma Sm_nonneg n f : (forall i, (i < n)%nat -> 0 <= f i) -> 0 <= Sm n f.
Proof. induction n; intros H; [rewrite Sm_0; lra|]. rewrite Sm_S. assert (0 <= Sm n f) by auto. specialize (H n ltac:(lia)). lra. Qed.

Lemma Sm_shift n f : Sm (S n) f = f 0%nat + Sm n (fun i => f (S i)).
Proof. unfold Sm. rewrite <- cons_seq, <- seq_shift. cbn [map sumR fold_right]. now rewrite map_map. Qed.

Lemma mul_length a b : length a = length b -> length (mul a b) = length a.
Proof. intros H. unfold mul. rewrite map_length, combine_length. lia. Qed.
Lemma mul_nth a : forall b k, length a = length b -> nth k (mul a b) 0 = nth k a 0 * nth k b 0.
Proof.
  unfold mul. induction a as [|x a IH]; intros [|y b] k H; cbn in *; try discriminate.
  - destruct k; lra.
  - destruct k; [reflexivity|]. apply IH. lia.
Qed.
Lemma sumR_Sm l : sumR l = Sm (length l) (fun k => nth k l 0).
Proof. induction l as [|x l IH]; [reflexivity|]. cbn [length]. rewrite Sm_shift. cbn [nth]. rewrite <- IH. reflexivity. Qed.
Lemma dot_Sm a b : length a = length b -> dot a b = Sm (length a) (fun k => nth k a 0 * nth k b 0).
Proof.
  intros H. unfold dot. rewrite sumR_Sm, mul_length by auto. apply Sm_ext. intros k _. now apply mul_nth.
Qed.
Lemma mean_diff_length w p : length (mean_diff w p) = length p.
Proof. apply map_length. Qed.

(** the filled matrix *)
Lemma inner_fill (e : nat -> R) i k : forall j0 M a b, (i <= j0)%nat ->
  fold_left (fun M j => let M1 := store M i j (e j) in store M1 j i (M1 i j)) (seq j0 k) M a b
  = if (a =? i)%nat && (j0 <=? b)%nat && (b <? j0 + k)%nat then e b
    else if (b =? i)%nat && (j0 <=? a)%nat && (a <? j0 + k)%nat then e a else M a b.
Proof.
  induction k as [|k IH]; intros j0 M a b Hj; cbn [seq fold_left].
  - rewrite Nat.add_0_r.
    destruct (a =? i)%nat, (b =? i)%nat, (j0 <=? b)%nat eqn:E1, (b <? j0)%nat eqn:E2,
      (j0 <=? a)%nat eqn:E3, (a <? j0)%nat eqn:E4; cbn; auto;
    repeat match goal with H : (_ <=? _)%nat = true |- _ => apply Nat.leb_le in H
                         | H : (_ <? _)%nat = true |- _ => apply Nat.ltb_lt in H end; lia.
  - rewrite IH by lia. unfold store. rewrite !Nat.eqb_refl. cbn [andb].
    destruct (Nat.eqb_spec a i) as [->|Na], (Nat.eqb_spec b i) as [->|Nb]; cbn [andb];
    repeat match goal with |- context [(?x <=? ?y)%nat] => destruct (Nat.leb_spec x y)
           | |- context [(?x <? ?y)%nat] => destruct (Nat.ltb_spec x y)
           | |- context [(?x =? ?y)%nat] => destruct (Nat.eqb_spec x y) end; subst; cbn [andb]; try lia; reflexivity.
Qed.

Lemma cov_raw_entry junk w diffs a b : (a < length diffs)%nat -> (b < length diffs)%nat ->
  cov_raw junk w diffs a b = dot (mul (nth (Nat.min a b) diffs []) w) (nth (Nat.max a b) diffs []).
Proof.
  set (n := length diffs). intros Ha Hb. unfold cov_raw. fold n.
  assert (G : forall k s M, (s + k = n)%nat ->
    fold_left (fun M i => fold_left (fun M j =>
      let M1 := store M i j (dot (mul (nth i diffs []) w) (nth j diffs [])) in store M1 j i (M1 i j)) (seq i (n - i)) M)
      (seq s k) M a b
    = if (s <=? Nat.min a b)%nat then dot (mul (nth (Nat.min a b) diffs []) w) (nth (Nat.max a b) diffs []) else M a b).
  { induction k as [|k IH]; intros s M Hs; cbn [seq fold_left].
    - destruct (Nat.leb_spec s (Nat.min a b)); [lia|reflexivity].
    - rewrite IH by lia. rewrite inner_fill by lia.
      destruct (Nat.leb_spec (S s) (Nat.min a b)).
      + destruct (Nat.leb_spec s (Nat.min a b)); [reflexivity|lia].
      + destruct (Nat.leb_spec s (Nat.min a b)).
        * assert (Em : Nat.min a b = s) by lia. rewrite Em.
          destruct (Nat.eqb_spec a s) as [->|Na]; cbn [andb].
          -- assert (E1 : (s <=? b)%nat = true) by (apply Nat.leb_le; lia).
             assert (E2 : (b <? s + (n - s))%nat = true) by (apply Nat.ltb_lt; lia). rewrite E1, E2. cbn [andb].
             rewrite Nat.max_r by lia. reflexivity.
          -- destruct (Nat.eqb_spec b s) as [->|Nb]; [|lia]. cbn [andb].
             assert (E1 : (s <=? a)%nat = true) by (apply Nat.leb_le; lia).
             assert (E2 : (a <? s + (n - s))%nat = true) by (apply Nat.ltb_lt; lia). rewrite E1, E2. cbn [andb].
             rewrite Nat.max_l by lia. reflexivity.
        * destruct (Nat.eqb_spec a s) as [->|Na]; cbn [andb].
          -- assert (E1 : (s <=? b)%nat = false) by (apply Nat.leb_gt; lia). rewrite E1. cbn [andb].
             destruct (Nat.eqb_spec b s); [lia|]. reflexivity.
          -- destruct (Nat.eqb_spec b s) as [->|Nb]; [|reflexivity]. cbn [andb].
             assert (E1 : (s <=? a)%nat = false) by (apply Nat.leb_gt; lia). rewrite E1. reflexivity. }
  exact (G n 0%nat junk eq_refl).
Qed.

(** the covariance as a weighted sum *)
Lemma cov_entry junk w ps a b m : length w = m -> Forall (fun p => length p = m) ps ->
  (a < length ps)%nat -> (b < length ps)%nat ->
  cov junk w ps a b =
    Sm m (fun k => nth k w 0 * (nth k (nth a ps []) 0 - mean w (nth a ps [])) * (nth k (nth b ps []) 0 - mean w (nth b ps [])))
    / get_norm w.
Proof.
  intros Hw Hp Ha Hb. unfold cov. cbv zeta. f_equal.
  rewrite cov_raw_entry by (rewrite map_length; auto).
  assert (Hl : forall i, (i < length ps)%nat -> length (nth i ps []) = m).
  { intros i Hi. rewrite Forall_forall in Hp. apply Hp. now apply nth_In. }
  assert (Hd : forall i, (i < length ps)%nat -> nth i (map (mean_diff w) ps) [] = mean_diff w (nth i ps [])).
  { intros i Hi. rewrite nth_indep with (d' := mean_diff w []) by (now rewrite map_length). apply map_nth. }
  rewrite !Hd by lia.
  assert (Hn : forall i k, (i < length ps)%nat -> (k < m)%nat ->
     nth k (mean_diff w (nth i ps [])) 0 = nth k (nth i ps []) 0 - mean w (nth i ps [])).
  { intros i k Hi Hk. unfold mean_diff. set (f := fun x => x - mean w (nth i ps [])).
    rewrite nth_indep with (d' := f 0) by (rewrite map_length, Hl; auto). rewrite map_nth. reflexivity. }
  rewrite dot_Sm; rewrite mul_length; rewrite ?mean_diff_length, ?Hl by lia; try lia.
  apply Sm_ext. intros k Hk. rewrite mul_nth by (rewrite mean_diff_length, Hl; lia).
  rewrite !Hn by lia.
  destruct (Nat.le_gt_cases a b).
  - rewrite Nat.min_l, Nat.max_r by lia. lra.
  - rewrite Nat.min_r, Nat.max_l by lia. lra.
Qed.

Lemma cov_sym junk w ps a b : (a < length ps)%nat -> (b < length ps)%nat -> cov junk w ps a b = cov junk w ps b a.
Proof.
  intros Ha Hb. unfold cov. cbv zeta. rewrite !cov_raw_entry by (rewrite map_length; auto).
  now rewrite (Nat.min_comm b a), (Nat.max_comm b a).
Qed.

Lemma cov_diag junk w ps a : Forall (fun p => length p = length w) ps -> (a < length ps)%nat ->
  cov junk w ps a a = var w (nth a ps []).
Proof.
  intros Hp Ha. rewrite (cov_entry junk w ps a a (length w)) by auto. unfold var. f_equal.
  assert (Hl : length (nth a ps []) = length w) by (rewrite Forall_forall in Hp; apply Hp; now apply nth_In).
  rewrite dot_Sm by (rewrite map_length, mean_diff_length; auto). rewrite map_length, mean_diff_length, Hl.
  apply Sm_ext. intros k Hk. unfold mean_diff. rewrite map_map.
  set (f := fun x => (x - mean w (nth a ps [])) ^ 2).
  rewrite nth_indep with (d' := f 0) (l := map _ _) by (rewrite map_length, Hl; auto).
  rewrite map_nth. unfold f. lra.
Qed.

Lemma cov_psd junk w ps (v : nat -> R) : Forall (fun p => length p = length w) ps ->
  Forall (fun x => 0 <= x) w -> 0 < get_norm w ->
  let n := length ps in
  0 <= Sm n (fun i => Sm n (fun j => v i * v j * cov junk w ps i j)).
Proof.
  intros Hp Hw Hn n. set (d := fun i k => nth k (nth i ps []) 0 - mean w (nth i ps [])).
  assert (E : Sm n (fun i => Sm n (fun j => v i * v j * cov junk w ps i j))
              = / get_norm w * Sm (length w) (fun k => nth k w 0 * (Sm n (fun i => v i * d i k)) ^ 2)).
  { transitivity (Sm n (fun i => Sm n (fun j => / get_norm w * Sm (length w) (fun k => nth k w 0 * ((v i * d i k) * (v j * d j k)))))).
    - apply Sm_ext. intros i Hi. apply Sm_ext. intros j Hj. rewrite (cov_entry junk w ps i j (length w)) by auto.
      unfold Rdiv. rewrite (Rmult_comm _ (/ get_norm w)), <- !Rmult_assoc, (Rmult_comm (v i * v j)), Rmult_assoc.
      f_equal. rewrite <- Sm_scal. apply Sm_ext. intros k Hk. unfold d. ring.
    - transitivity (/ get_norm w * Sm n (fun i => Sm n (fun j => Sm (length w) (fun k => nth k w 0 * ((v i * d i k) * (v j * d j k)))))).
      { rewrite <- Sm_scal. apply Sm_ext. intros i _. now rewrite <- Sm_scal. }
      f_equal.
      transitivity (Sm n (fun i => Sm (length w) (fun k => Sm n (fun j => nth k w 0 * ((v i * d i k) * (v j * d j k)))))).
      { apply Sm_ext. intros i _. apply Sm_swap. }
      rewrite Sm_swap. apply Sm_ext. intros k _.
      transitivity (Sm n (fun i => (nth k w 0 * Sm n (fun j => v j * d j k)) * (v i * d i k))).
      + apply Sm_ext. intros i _. transitivity ((nth k w 0 * (v i * d i k)) * Sm n (fun j => v j * d j k)); [|ring].
        rewrite <- Sm_scal. apply Sm_ext. intros j _. ring.
      + rewrite Sm_scal. ring. }
  rewrite E. apply Rmult_le_pos; [apply Rlt_le, Rinv_0_lt_compat, Hn|].
  apply Sm_nonneg. intros k Hk. apply Rmult_le_pos; [|apply pow2_ge_0].
  rewrite Forall_forall in Hw. apply Hw. now apply nth_In.
Qed.

(** scaling all weights *)
Lemma dot_scal c w p : dot (map (fun x => c * x) w) p = c * dot w p.
Proof.
  unfold dot, mul. revert p. induction w as [|x w IH]; intros [|y p]; cbn; try lra.
  unfold sumR in IH. rewrite IH. ring.
Qed.
Lemma norm_scal c w : get_norm (map (fun x => c * x) w) = c * get_norm w.
Proof. unfold get_norm. induction w as [|x w IH]; cbn; [lra|]. unfold sumR in IH. rewrite IH. ring. Qed.
Lemma div_scal a b c : c <> 0 -> b <> 0 -> c * a / (c * b) = a / b.
Proof. intros. field. auto. Qed.
Lemma mean_scal c w p : c <> 0 -> get_norm w <> 0 -> mean (map (fun x => c * x) w) p = mean w p.
Proof. intros. unfold mean. rewrite dot_scal, norm_scal. now apply div_scal. Qed.
Lemma cov_scal junk c w ps a b : c <> 0 -> get_norm w <> 0 -> Forall (fun p => length p = length w) ps ->
  (a < length ps)%nat -> (b < length ps)%nat ->
  cov junk (map (fun x => c * x) w) ps a b = cov junk w ps a b.
Proof.
  intros Hc Hn Hp Ha Hb.
  rewrite (cov_entry junk (map (fun x => c * x) w) ps a b (length w)) by (auto; apply map_length).
  rewrite (cov_entry junk w ps a b (length w)) by auto.
  rewrite norm_scal, !mean_scal by auto. rewrite <- div_scal with (c := c) (b := get_norm w) by auto. f_equal.
  rewrite <- Sm_scal. apply Sm_ext. intros k Hk.
  assert (En : nth k (map (fun x => c * x) w) 0 = c * nth k w 0).
  { rewrite nth_indep with (d' := (fun x => c * x) 0) by (now rewrite map_length). now rewrite map_nth. }
  rewrite En. ring.
Qed.

Lemma mean_shift w p c : length w = length p -> get_norm w <> 0 -> mean w (map (fun x => x + c) p) = mean w p + c.
Proof.
  intros Hl Hn. unfold mean.
  assert (E : forall w p, length w = length p -> dot w (map (fun x => x + c) p) = dot w p + c * get_norm w).
  { clear. unfold dot, mul, get_norm. induction w as [|x w IH]; intros [|y p] H; cbn in *; try discriminate; [lra|].
    unfold sumR in IH. rewrite IH by lia. ring. }
  rewrite E by auto. field. auto.
Qed.

(** ** reweighting *)
Lemma mul_assoc_map a : forall b c, mul (mul a b) c = mul a (mul b c).
Proof. unfold mul. induction a as [|x a IH]; intros [|y b] [|z c]; cbn; auto. rewrite IH. f_equal. ring. Qed.

Lemma exp_move x a b c : a = c + b -> x * exp a = exp c * (x * exp b).
Proof. intros ->. rewrite exp_plus. ring. Qed.
Lemma exp_move2 x a1 a2 b c : a1 + a2 = c + b -> x * exp a1 * exp a2 = exp c * (x * exp b).
Proof. intros H. rewrite Rmult_assoc, <- exp_plus, H, exp_plus. ring. Qed.


Lemma reweight_compose w l a b : length l = length w -> length a = length w -> length b = length w ->
  let two := reweightAddingLogLikes (reweightAddingLogLikes (w, l) a) b in
  let one := reweightAddingLogLikes (w, l) (map (fun p => fst p + snd p) (combine a b)) in
  snd two = snd one /\ proportional (fst two) (fst one).
Proof.
  intros Hl Ha Hb. cbn [reweightAddingLogLikes fst snd]. set (ab := map _ (combine a b)). split.
  - unfold ab. clear. revert a b. induction l as [|x l IH]; intros [|y a] [|z b]; cbn; auto. rewrite IH. f_equal. ring.
  - exists (exp (minR a + minR b - minR ab)). split; [apply exp_pos|].
    set (sa := minR a). set (sb := minR b). set (sab := minR ab). unfold ab, mul. clearbody sa sb sab.
    clear - Ha Hb. revert a b Ha Hb. induction w as [|x w IH]; intros [|y a] [|z b] Ha Hb; cbn in *; try discriminate; auto.
    rewrite IH by lia. f_equal.
    apply exp_move2. ring.
Qed.

Lemma reweight_formula w l a : length a = length w ->
  proportional (fst (reweightAddingLogLikes (w, l) a)) (mul w (map (fun x => exp (- x)) a)).
Proof.
  intros Ha. exists (exp (minR a)). split; [apply exp_pos|]. cbn. set (s := minR a). clearbody s. clear l.
  unfold mul. revert a Ha. induction w as [|x w IH]; intros [|y a] H; cbn in *; try discriminate; auto.
  rewrite IH by lia. f_equal. apply exp_move. ring.
Qed.

Lemma cool_formula w l c : length l = length w ->
  snd (cool (w, l) c) = map (fun x => x * c) l /\
  proportional (fst (cool (w, l) c)) (mul w (map (fun x => exp ((1 - c) * x)) l)).
Proof.
  intros Hl. split; [reflexivity|]. exists (exp (- (maxR l * (1 - c)))). split; [apply exp_pos|]. cbn.
  set (m := maxR l). clearbody m. unfold mul. revert l Hl.
  induction w as [|x w IH]; intros [|y l] H; cbn in *; try discriminate; auto.
  rewrite IH by lia. f_equal. apply exp_move. ring.
Qed.

Lemma cool_compose w l s t : length l = length w ->
  let two := cool (cool (w, l) s) t in
  let one := cool (w, l) (s * t) in
  snd two = snd one /\ proportional (fst two) (fst one).
Proof.
  intros Hl two one. split.
  - unfold two, one. cbn. rewrite map_map. apply map_ext. intros. ring.
  - unfold two, one. cbn. set (l1 := map (fun x => x * s) l).
    exists (exp (- (maxR l * (1 - s)) - maxR l1 * (1 - t) + maxR l * (1 - s * t))). split; [apply exp_pos|].
    set (m1 := maxR l1). set (m := maxR l). unfold l1. clearbody m m1. unfold mul. clear two one l1.
    revert l Hl. induction w as [|x w IH]; intros [|y l] H; cbn in *; try discriminate; auto.
    rewrite IH by lia. f_equal. apply exp_move2. ring.
Qed.

Lemma cool_one w l : length l = length w -> cool (w, l) 1 = (w, l).
Proof.
  intros Hl. unfold cool. cbn [fst snd]. f_equal.
  - set (m := maxR l). clearbody m. unfold mul. revert l Hl.
    induction w as [|x w IH]; intros [|y l] H; cbn in *; try discriminate; auto.
    rewrite IH by lia. f_equal. replace (- (y * 1 - y) - m * (1 - 1)) with 0 by ring. rewrite exp_0. ring.
  - rewrite <- (map_id l) at 2. apply map_ext. intros. ring.
Qed.

(** no overflow: every factor of [cool] with c < 1 and of reweighting is at most one *)
Lemma minR_le l x : In x l -> minR l <= x.
Proof.
  destruct l as [|y l]; [intros []|]. cbn. intros H.
  assert (G : forall l y, fold_left Rmin l y <= y /\ forall x, In x l -> fold_left Rmin l y <= x).
  { clear. induction l as [|z l IH]; intros y; cbn; [split; [lra|intros _ []]|].
    destruct (IH (Rmin y z)) as [I1 I2]. pose proof (Rmin_l y z). pose proof (Rmin_r y z).
    split; [lra|]. intros x [<-|Hx]; [lra|auto]. }
  destruct (G l y) as [G1 G2]. destruct H as [<-|H]; auto.
Qed.
Lemma maxR_ge l x : In x l -> x <= maxR l.
Proof.
  destruct l as [|y l]; [intros []|]. cbn. intros H.
  assert (G : forall l y, y <= fold_left Rmax l y /\ forall x, In x l -> x <= fold_left Rmax l y).
  { clear. induction l as [|z l IH]; intros y; cbn; [split; [lra|intros _ []]|].
    destruct (IH (Rmax y z)) as [I1 I2]. pose proof (Rmax_l y z). pose proof (Rmax_r y z).
    split; [lra|]. intros x [<-|Hx]; [lra|auto]. }
  destruct (G l y) as [G1 G2]. destruct H as [<-|H]; auto.
Qed.
Lemma reweight_bounded w l a : length a = length w -> Forall (fun x => 0 <= x) w ->
  Forall2 (fun w' w => 0 <= w' <= w) (fst (reweightAddingLogLikes (w, l) a)) w.
Proof.
  intros Ha Hw. cbn. assert (Hm : forall x, In x a -> minR a <= x) by (intros; now apply minR_le).
  revert Hm. generalize (minR a) as m. unfold mul. revert a Ha.
  induction Hw as [|x w Hx Hw IH]; intros [|y a] H m Hm; cbn in *; try discriminate; constructor.
  - assert (He : exp (- (y - m)) <= 1).
    { rewrite <- exp_0. destruct (Req_dec (- (y - m)) 0) as [->|N]; [lra|]. left. apply exp_increasing.
      specialize (Hm y (or_introl eq_refl)). lra. }
    pose proof (exp_pos (- (y - m))). cbn. nra.
  - apply IH; auto.
Qed.
