(** Lemmas about autocorrelations and Gelman-Rubin tests. *)
From Coq Require Import Reals ZArith Lia Lra List Bool.
From Verif Require Import PyStr PyBase ConvModel ConvSpec ConvProofs ConvProps KdeModel StatModel StatSpec StatProofs CnvgModel CnvgSpec.
Import ListNotations.
Local Open Scope R_scope.

(** ** Sums *)
Lemma nth_map0 {A} (f : A -> R) l i d : (i < length l)%nat -> nth i (map f l) 0 = f (nth i l d).
Proof. intro H. rewrite nth_indep with (d' := f d) by (now rewrite map_length). apply map_nth. Qed.
Lemma nth_tab {A} (f : nat -> A) n i d : (i < n)%nat -> nth i (map f (seq 0 n)) d = f i.
Proof. intro H. rewrite nth_indep with (d' := f 0%nat) by (now rewrite map_length, seq_length). rewrite map_nth, seq_nth by exact H. reflexivity. Qed.
Lemma tab_eq (l : list R) n f : length l = n -> (forall i, (i < n)%nat -> nth i l 0 = f i) -> l = map f (seq 0 n).
Proof.
  intros L H. apply nth_ext with (d := 0) (d' := 0); [now rewrite map_length, seq_length |]. intros i I. rewrite L in I. rewrite H by exact I. now rewrite nth_tab.
Qed.
Lemma Sm_app a b f : Sm (a + b) f = Sm a f + Sm b (fun i => f (a + i)%nat).
Proof. induction b as [| b IH]; [rewrite Nat.add_0_r, Sm_0; lra |]. rewrite Nat.add_succ_r, !Sm_S, IH. lra. Qed.
Lemma Sm_const n c : Sm n (fun _ => c) = INR n * c.
Proof. induction n; [rewrite Sm_0; cbn; lra |]. rewrite Sm_S, IHn, S_INR. lra. Qed.
Lemma rsum_Sm n f : rsum n f = Sm n f.
Proof. rewrite <- rsum_list. reflexivity. Qed.
Lemma Sm_pos n f i : (forall j, (j < n)%nat -> 0 <= f j) -> (i < n)%nat -> 0 < f i -> 0 < Sm n f.
Proof.
  intros N I P. replace n with (i + S (n - S i))%nat by lia. rewrite Sm_app, Sm_shift, Nat.add_0_r.
  assert (0 <= Sm i f) by (apply Sm_nonneg; intros; apply N; lia). assert (0 <= Sm (n - S i) (fun j => f (i + S j)%nat)) by (apply Sm_nonneg; intros; apply N; lia). lra.
Qed.
Lemma Sm_delta n f i : (i < n)%nat -> Sm n (fun j => f j * delta i j) = f i.
Proof.
  intro I. replace n with (i + S (n - S i))%nat by lia. rewrite Sm_app, Sm_shift, Nat.add_0_r. unfold delta. rewrite Nat.eqb_refl.
  rewrite (Sm_ext i _ (fun _ => 0)), (Sm_ext (n - S i) _ (fun _ => 0)), !Sm_zero; [lra | |]; intros j J.
  - destruct (Nat.eqb_spec i (i + S j)); [lia | lra].
  - destruct (Nat.eqb_spec i j); [lia | lra].
Qed.
Lemma sumR_scal {A} c (f : A -> R) l : sumR (map (fun x => c * f x) l) = c * sumR (map f l).
Proof. induction l; cbn [map sumR fold_right]; [lra |]. change (c * f a + sumR (map (fun x => c * f x) l) = c * (f a + sumR (map f l))). rewrite IHl. lra. Qed.
Lemma sumR_plus {A} (f g : A -> R) l : sumR (map (fun x => f x + g x) l) = sumR (map f l) + sumR (map g l).
Proof. induction l as [| a l IH]; [cbn; lra |]. cbn [map]. change (f a + g a + sumR (map (fun x => f x + g x) l) = (f a + sumR (map f l)) + (g a + sumR (map g l))). rewrite IH. lra. Qed.
Lemma sumR_cons a l : sumR (a :: l) = a + sumR l. Proof. reflexivity. Qed.
Lemma sumR_ext {A} (f g : A -> R) l : (forall x, In x l -> f x = g x) -> sumR (map f l) = sumR (map g l).
Proof. intro H. f_equal. apply map_ext_in. exact H. Qed.
Lemma sumR_nonneg {A} (f : A -> R) l : (forall x, In x l -> 0 <= f x) -> 0 <= sumR (map f l).
Proof. induction l as [| a l IH]; intro H; cbn [map]; [cbn; lra |]. rewrite sumR_cons. pose proof (H a (or_introl eq_refl)). assert (0 <= sumR (map f l)) by (apply IH; intros; apply H; now right). lra. Qed.
Lemma sumR_zero {A} (f : A -> R) l : (forall x, In x l -> 0 <= f x) -> sumR (map f l) = 0 -> forall x, In x l -> f x = 0.
Proof.
  induction l as [| a l IH]; intros H E x I; [destruct I |]. cbn [map] in E. rewrite sumR_cons in E. pose proof (H a (or_introl eq_refl)). assert (0 <= sumR (map f l)) by (apply sumR_nonneg; intros; apply H; now right).
  destruct I as [<- | I]; [lra |]. apply IH; [intros; apply H; now right | lra | exact I].
Qed.
Lemma sumR_Sm_swap {A} n (f : A -> nat -> R) l : sumR (map (fun x => Sm n (f x)) l) = Sm n (fun i => sumR (map (fun x => f x i) l)).
Proof. induction l as [| a l IH]; [cbn [map]; rewrite (Sm_ext n _ (fun _ => 0)) by reflexivity; now rewrite Sm_zero |]. cbn [map]. rewrite sumR_cons, IH, <- Sm_plus. reflexivity. Qed.

(** ** Means *)
Lemma mean_wmean w p : length w = length p -> mean w p = wmean w p.
Proof. intro L. unfold mean, wmean, get_norm. f_equal. rewrite dot_Sm by exact L. now rewrite L. Qed.
Lemma var_wvar w p : length w = length p -> var w p = wvar w p.
Proof.
  intro L. unfold var, wvar, get_norm. f_equal. rewrite dot_Sm by (rewrite map_length, mean_diff_length; congruence). rewrite map_length, mean_diff_length. apply Sm_ext. intros i I. unfold mean_diff. rewrite map_map, (nth_map0 _ p i 0) by exact I. rewrite (mean_wmean w p L). ring.
Qed.
Lemma wdev_length w p : length w = length p -> length (mul (mean_diff w p) w) = length p.
Proof. intro L. rewrite mul_length; rewrite mean_diff_length; congruence. Qed.
Lemma wdev_nth w p i : length w = length p -> (i < length p)%nat -> nth i (mul (mean_diff w p) w) 0 = nth i w 0 * (nth i p 0 - wmean w p).
Proof. intros L I. rewrite mul_nth by (rewrite mean_diff_length; congruence). unfold mean_diff. rewrite (nth_map0 _ p i 0) by exact I. rewrite (mean_wmean w p L). ring. Qed.
Lemma wdev_lag w p k : length w = length p -> lag_sum (mul (mean_diff w p) w) k / INR (length p - k) = lagmean w p k.
Proof.
  intro L. unfold lagmean, lag_sum. f_equal. rewrite wdev_length by exact L. change (Sm (length p - k) (fun i => nth i (mul (mean_diff w p) w) 0 * nth (i + k) (mul (mean_diff w p) w) 0) = Sm (length p - k) (fun i => nth i w 0 * (nth i p 0 - wmean w p) * (nth (i + k) w 0 * (nth (i + k) p 0 - wmean w p)))).
  apply Sm_ext. intros i I. now rewrite !wdev_nth by (trivial; lia).
Qed.
Lemma auto_wdev w p K : fits w p -> (K < length p)%nat -> autoConvolve (mul (mean_diff w p) w) (Some (K + 1)%nat) true = Ok (map (lagmean w p) (seq 0 (K + 1))).
Proof.
  intros (L & P & B) HK. assert (LD := wdev_length w p L). destruct (C66_autoConvolve (mul (mean_diff w p) w) (Some (K + 1)%nat) true) as (r & E & LR & V); [lia | rewrite LD; exact B | lia |]. rewrite E. f_equal. rewrite Nat.add_1_r in *. apply tab_eq; [exact LR |]. intros i I. rewrite V by lia. rewrite LD. now apply wdev_lag.
Qed.
Definition unit_of (wu : bool) (w p : list R) : R := if wu then INR (length p) / sumR w else 1.
Lemma auto_ok n w p K wu : fits w p -> (K < length p)%nat -> sumR w <> 0 -> wvar w p <> 0 -> getAutocorrelation n w p (Some K) wu true = Ok (map (fun k => lagmean w p k / wvar w p * unit_of wu w p) (seq 0 (K + 1))).
Proof.
  intros F HK N V. pose proof F as (L & P & B). unfold getAutocorrelation. cbv zeta. rewrite auto_wdev by assumption. cbn [bindR]. unfold divAll at 1. rewrite (var_wvar w p L). destruct (Req_EM_T (wvar w p) 0) as [| _]; [contradiction |]. cbn [bindR]. unfold unit_of. destruct wu.
  - unfold divAll, get_norm. destruct (Req_EM_T (sumR w) 0) as [| _]; [contradiction |]. f_equal. rewrite !map_map. apply map_ext. intro k. rewrite wdev_length by exact L. field. split; assumption.
  - f_equal. rewrite map_map. apply map_ext. intro k. ring.
Qed.
Lemma auto_raw n w p K : fits w p -> (K < length p)%nat -> sumR w <> 0 -> getAutocorrelation n w p (Some K) true false = Ok (map (fun k => lagmean w p k * INR (length p) / sumR w) (seq 0 (K + 1))).
Proof.
  intros F HK N. pose proof F as (L & P & B). unfold getAutocorrelation. cbv zeta. rewrite auto_wdev by assumption. cbn [bindR]. unfold divAll, get_norm. destruct (Req_EM_T (sumR w) 0) as [| _]; [contradiction |]. f_equal. rewrite !map_map. apply map_ext. intro k. now rewrite wdev_length by exact L.
Qed.
(** ** The length *)
Lemma first_false_some l k : first_false l = Some k <-> (k < length l)%nat /\ nth k l true = false /\ forall i, (i < k)%nat -> nth i l false = true.
Proof.
  revert k. induction l as [| b l IH]; intro k; cbn [first_false]; [split; [discriminate | intros (H & _); cbn in H; lia] |]. destruct b.
  - destruct (first_false l) as [k' |] eqn:E; cbn [option_map].
    + pose proof (proj1 (IH k') eq_refl) as (A & B & C). split.
      * intro Q. injection Q as <-. cbn [length nth]. split; [lia |]. split; [exact B |]. intros [| i] I; [reflexivity | apply C; lia].
      * intros (A' & B' & C'). destruct k as [| k]; [cbn in B'; discriminate |]. f_equal. f_equal. cbn [length nth] in *. enough (Some k' = Some k) by congruence. apply (proj2 (IH k)). split; [lia |]. split; [exact B' |]. intros i I. apply (C' (S i)). lia.
    + split; [discriminate |]. intros (A' & B' & C'). destruct k as [| k]; [cbn in B'; discriminate |]. cbn [length nth] in *. enough (None = Some k) by discriminate. apply (proj2 (IH k)). split; [lia |]. split; [exact B' |]. intros i I. apply (C' (S i)). lia.
  - split.
    + intro Q. injection Q as <-. cbn. split; [lia |]. split; [reflexivity | intros; lia].
    + intros (_ & _ & C). destruct k as [| k]; [reflexivity |]. specialize (C 0%nat ltac:(lia)). discriminate.
Qed.
Lemma first_false_none l : (forall i, (i < length l)%nat -> nth i l false = true) -> first_false l = None.
Proof. intro H. destruct (first_false l) as [k |] eqn:E; [| reflexivity]. apply first_false_some in E as (A & B & _). specialize (H k A). rewrite (nth_indep l true false A) in B. congruence. Qed.
Lemma nth_above c l i d : (i < length l)%nat -> nth i (above c l) d = if Rlt_dec c (nth i l 0) then true else false.
Proof. intro H. unfold above. set (f := fun x => if Rlt_dec c x then true else false). rewrite nth_indep with (d' := f 0) by (now rewrite map_length). apply (map_nth f). Qed.
Lemma nth_skip {A} (l : list A) d : forall k i, nth i (skipn k l) d = nth (k + i) l d.
Proof. induction l as [| x l IH]; intros [| k] i; cbn [skipn Nat.add]; try reflexivity; [destruct i; reflexivity |]. apply IH. Qed.
Lemma slice_sum (l : list R) k : (k <= length l)%nat -> sumR (slice 1 k l) = Sm (k - 1) (fun i => nth (S i) l 0).
Proof.
  intro H. unfold slice. rewrite sumR_Sm, skipn_length, firstn_length, Nat.min_l by exact H. apply Sm_ext. intros i I. rewrite nth_skip. replace (1 + i)%nat with (S i) by lia. rewrite <- (firstn_skipn k l) at 2. now rewrite app_nth1 by (rewrite firstn_length; lia).
Qed.
Lemma corr_length_cut m l k : (0 < k < length l)%nat -> nth k l 0 <= m * nth 0 l 0 -> (forall i, (i < k)%nat -> m * nth 0 l 0 < nth i l 0) -> corr_length m l = nth 0 l 0 + 2 * Sm (k - 1) (fun i => nth (S i) l 0).
Proof.
  intros (K0 & KL) A B. unfold corr_length. change (at_ l 0) with (nth 0 l 0). assert (E : first_false (above (m * nth 0 l 0) l) = Some k).
  { apply first_false_some. unfold above at 1. rewrite map_length. split; [exact KL |]. split; [rewrite nth_above by exact KL; destruct (Rlt_dec _ _); [lra | reflexivity] |]. intros i I. rewrite nth_above by lia. destruct (Rlt_dec _ _) as [| NL]; [reflexivity | exfalso; apply NL; now apply B]. }
  unfold argmin. rewrite E. rewrite slice_sum by lia. reflexivity.
Qed.
Lemma corr_length_all m l : (forall i, (i < length l)%nat -> m * nth 0 l 0 < nth i l 0) -> corr_length m l = nth 0 l 0.
Proof.
  intro B. unfold corr_length. change (at_ l 0) with (nth 0 l 0). unfold argmin. rewrite first_false_none.
  - unfold slice. cbn. lra.
  - unfold above at 1. rewrite map_length. intros i I. rewrite nth_above by exact I. destruct (Rlt_dec _ _) as [| NL]; [reflexivity | exfalso; apply NL; now apply B].
Qed.
Lemma corr_length_neg m l : nth 0 l 0 <= m * nth 0 l 0 -> corr_length m l = nth 0 l 0.
Proof. intro A. unfold corr_length. change (at_ l 0) with (nth 0 l 0). destruct l as [| x l]; [cbn; lra |]. cbn [nth] in *. unfold argmin, above. cbn [map first_false]. destruct (Rlt_dec _ _); [lra |]. unfold slice. cbn. lra. Qed.
Lemma least_below (P : nat -> Prop) (dec : forall i, {P i} + {~ P i}) n : {k | (k < n)%nat /\ P k /\ forall i, (i < k)%nat -> ~ P i} + {forall i, (i < n)%nat -> ~ P i}.
Proof.
  induction n as [| n [(k & A & B & C) | N]]; [right; intros; lia | left; exists k; split; [lia | auto] |]. destruct (dec n) as [Y | Y]; [left; exists n; split; [lia | auto] |]. right. intros i I. destruct (Nat.eq_dec i n) as [-> | Q]; [exact Y | apply N; lia].
Qed.
Lemma corr_length_ge m l : 0 <= m -> 0 <= nth 0 l 0 -> nth 0 l 0 <= corr_length m l.
Proof.
  intros M P. destruct (least_below (fun i => nth i l 0 <= m * nth 0 l 0) (fun i => Rle_dec _ _) (length l)) as [(k & A & B & C) | N].
  - destruct k as [| k]; [rewrite corr_length_neg by exact B; lra |]. rewrite (corr_length_cut m l (S k)) by (trivial; try lia; intros i I; apply Rnot_le_lt; now apply C).
    assert (0 <= Sm (S k - 1) (fun i => nth (S i) l 0)); [| lra]. apply Sm_nonneg. intros i I. specialize (C (S i) ltac:(lia)). apply Rnot_le_lt in C. assert (0 <= m * nth 0 l 0) by (now apply Rmult_le_pos). lra.
  - rewrite corr_length_all by (intros; apply Rnot_le_lt; now apply N). lra.
Qed.
Lemma corr_length_scale m c l : 0 < c -> corr_length m (map (fun x => c * x) l) = c * corr_length m l.
Proof.
  intro C. destruct l as [| x0 l0]; [unfold corr_length, argmin, above, slice, at_; cbn; lra |]. set (l := x0 :: l0).
  assert (N0 : forall i, nth i (map (fun x => c * x) l) 0 = c * nth i l 0) by (intro i; rewrite <- (map_nth (fun x => c * x)); f_equal; ring).
  unfold corr_length. change (at_ ?a 0) with (nth 0 a 0). rewrite N0. replace (above (m * (c * nth 0 l 0)) (map (fun x => c * x) l)) with (above (m * nth 0 l 0) l).
  - set (k := argmin _). unfold slice. rewrite firstn_map, skipn_map, (sumR_scal c (fun x => x)), map_id. ring.
  - unfold above. rewrite map_map. apply map_ext. intro x. destruct (Rlt_dec (m * nth 0 l 0) x), (Rlt_dec (m * (c * nth 0 l 0)) (c * x)); trivial; exfalso; nra.
Qed.
(** ** Several chains *)
Lemma minN_le l x : In x l -> (minN l <= x)%nat.
Proof.
  destruct l as [| y l]; [intros [] |]. cbn [minN]. assert (G : forall l y, (fold_left Nat.min l y <= y)%nat /\ forall x, In x l -> (fold_left Nat.min l y <= x)%nat).
  { clear. induction l as [| z l IH]; intro y; [split; [cbn; lia | intros x []] |]. cbn [fold_left]. destruct (IH (Nat.min y z)) as (A & B). split; [lia |]. intros x [-> | I]; [lia | now apply B]. }
  destruct (G l y) as (A & B). intros [-> | I]; auto.
Qed.
Lemma sum_corrs_ok n K j : forall cs acc, length acc = (K + 1)%nat -> (forall c, In c cs -> fits (cw c) (col c j) /\ (K < length (col c j))%nat /\ sumR (cw c) <> 0) ->
  sum_corrs n K j cs acc = Ok (map (fun k => nth k acc 0 + sumR (map (fun c => lagmean (cw c) (col c j) k * INR (length (col c j))) cs)) (seq 0 (K + 1))).
Proof.
  induction cs as [| c cs IH]; intros acc LA H.
  - cbn [sum_corrs map]. f_equal. apply tab_eq; [exact LA |]. intros. cbn. lra.
  - cbn [sum_corrs]. destruct (H c (or_introl eq_refl)) as (F & LK & N). rewrite (auto_raw n (cw c) (col c j) K F LK N). cbn [bindR]. unfold get_norm. set (r := map (fun y => y * sumR (cw c)) _).
    assert (LR : length r = (K + 1)%nat) by (unfold r; now rewrite !map_length, seq_length). rewrite IH; [| unfold addL; rewrite map_length, combine_length; lia | intros; apply H; now right]. f_equal. apply map_ext_in. intros k IK. apply in_seq in IK. cbn [map]. rewrite sumR_cons, <- Rplus_assoc. f_equal.
    unfold addL. rewrite (nth_map0 _ _ k (0, 0)) by (rewrite combine_length; lia). rewrite combine_nth by congruence. cbn [fst snd]. f_equal. unfold r. rewrite map_map, nth_tab by lia. field. exact N.
Qed.
Lemma joined_length cs j : (forall c, In c cs -> length (cw c) = length (col c j)) -> length (joined_w cs) = length (joined cs j).
Proof. induction cs as [| c cs IH]; intro H; [reflexivity |]. unfold joined_w, joined in *. cbn [flat_map]. rewrite !app_length, IH by (intros; apply H; now right). now rewrite (H c (or_introl eq_refl)). Qed.
Lemma sumR_flat {A} (f : A -> list R) l : sumR (flat_map f l) = sumR (map (fun x => sumR (f x)) l).
Proof. induction l as [| a l IH]; [reflexivity |]. cbn [flat_map map]. now rewrite sumR_app, sumR_cons, IH. Qed.
Lemma dot_app a b : forall c d, length a = length b -> dot (a ++ c) (b ++ d) = dot a b + dot c d.
Proof.
  revert b. induction a as [| x a IH]; intros [| y b] c d L; cbn [app]; try discriminate; [unfold dot at 2; cbn; lra |]. unfold dot, mul in *. cbn [combine map]. rewrite !sumR_cons. rewrite IH by (cbn in L; lia). cbn [fst snd]. lra.
Qed.
Lemma dot_flat {A} (f g : A -> list R) l : (forall x, In x l -> length (f x) = length (g x)) -> dot (flat_map f l) (flat_map g l) = sumR (map (fun x => dot (f x) (g x)) l).
Proof. induction l as [| a l IH]; intro H; [reflexivity |]. cbn [flat_map map]. rewrite dot_app by (apply H; now left). rewrite sumR_cons, IH by (intros; apply H; now right). reflexivity. Qed.
Lemma wmean_dot w p : length w = length p -> wmean w p = dot w p / sumR w.
Proof. intro L. unfold wmean. rewrite dot_Sm by exact L. now rewrite L. Qed.
(** ** Forms *)
Definition form (k : nat) (M : matrix) (v : nat -> R) : R := Sm k (fun i => Sm k (fun j => v i * v j * M i j)).
Lemma comb_length k v c : length (comb k v c) = length (cw c).
Proof. unfold comb. now rewrite map_length, seq_length. Qed.
Lemma comb_nth k v c i : (i < length (cw c))%nat -> nth i (comb k v c) 0 = Sm k (fun a => v a * nth i (col c a) 0).
Proof. intro I. unfold comb. now rewrite nth_tab. Qed.
Lemma dot_comb k v c : (forall a, (a < k)%nat -> length (col c a) = length (cw c)) -> dot (cw c) (comb k v c) = Sm k (fun a => v a * dot (cw c) (col c a)).
Proof.
  intro H. rewrite dot_Sm by (now rewrite comb_length). rewrite (Sm_ext k _ (fun a => Sm (length (cw c)) (fun i => v a * (nth i (cw c) 0 * nth i (col c a) 0)))) by (intros a A; rewrite dot_Sm by (symmetry; now apply H); now rewrite Sm_scal). rewrite Sm_swap. apply Sm_ext. intros i I. rewrite comb_nth by exact I. rewrite <- Sm_scal. apply Sm_ext. intros a _. ring.
Qed.
Lemma wmean_comb k v c : (forall a, (a < k)%nat -> length (col c a) = length (cw c)) -> wmean (cw c) (comb k v c) = Sm k (fun a => v a * wmean (cw c) (col c a)).
Proof.
  intro H. rewrite wmean_dot by (now rewrite comb_length). rewrite dot_comb by exact H. unfold Rdiv. rewrite Rmult_comm, <- Sm_scal. apply Sm_ext. intros a A. rewrite wmean_dot by (symmetry; now apply H). unfold Rdiv. ring.
Qed.
Lemma wmean_all k v cs : (forall c a, In c cs -> (a < k)%nat -> length (col c a) = length (cw c)) -> wmean (flat_map cw cs) (flat_map (comb k v) cs) = Sm k (fun a => v a * wmean (joined_w cs) (joined cs a)).
Proof.
  intro H. assert (LL : length (flat_map cw cs) = length (flat_map (comb k v) cs)) by (clear H; induction cs as [| c cs IH]; [reflexivity |]; cbn [flat_map]; rewrite !app_length, comb_length; congruence).
  rewrite wmean_dot by exact LL. rewrite dot_flat by (intros; now rewrite comb_length). rewrite (sumR_ext _ (fun c => Sm k (fun a => v a * dot (cw c) (col c a)))) by (intros c C; apply dot_comb; intros a A; now apply H). rewrite sumR_Sm_swap. unfold Rdiv. rewrite Rmult_comm, <- Sm_scal. apply Sm_ext. intros a A.
  rewrite wmean_dot by (apply joined_length; intros c C; symmetry; now apply H). unfold joined_w, joined. rewrite dot_flat by (intros c C; symmetry; now apply H). rewrite sumR_scal. unfold Rdiv. ring.
Qed.
Lemma square_sum k (v : nat -> R) (x : nat -> R) : Sm k (fun i => Sm k (fun j => v i * v j * (x i * x j))) = (Sm k (fun i => v i * x i)) ^ 2.
Proof.
  transitivity (Sm k (fun i => Sm k (fun j => v j * x j) * (v i * x i))); [| rewrite Sm_scal; ring]. apply Sm_ext. intros i _. rewrite Rmult_comm, <- Sm_scal. apply Sm_ext. intros. ring.
Qed.
Lemma form_cov junk n c k v : good_chain n c -> (k <= n)%nat -> form k (cov junk (cw c) (cps c)) v = wvar (cw c) (comb k v c).
Proof.
  intros (LN & LC & W & N) K. assert (FL : Forall (fun p => length p = length (cw c)) (cps c)) by (apply Forall_forall; exact LC).
  assert (CL : forall a, (a < k)%nat -> length (col c a) = length (cw c)) by (intros a A; unfold col; apply LC, nth_In; lia).
  unfold form, wvar. rewrite comb_length, wmean_comb by exact CL. set (m := length (cw c)). set (x := fun i a => nth i (col c a) 0 - wmean (cw c) (col c a)).
  transitivity (Sm k (fun a => Sm k (fun b => Sm m (fun i => / sumR (cw c) * (nth i (cw c) 0 * (v a * v b * (x i a * x i b))))))).
  - apply Sm_ext. intros a A. apply Sm_ext. intros b B. rewrite (cov_entry junk (cw c) (cps c) a b m eq_refl FL) by lia. fold (col c a). fold (col c b). rewrite !mean_wmean by (symmetry; now apply CL). unfold get_norm, Rdiv. rewrite Sm_scal, (Rmult_comm _ (/ sumR (cw c))), (Rmult_comm (v a * v b)), Rmult_assoc. f_equal. rewrite Rmult_comm, <- Sm_scal. apply Sm_ext. intros i I. unfold x. ring.
  - transitivity (Sm m (fun i => / sumR (cw c) * (nth i (cw c) 0 * Sm k (fun a => Sm k (fun b => v a * v b * (x i a * x i b)))))).
    + rewrite (Sm_ext k _ (fun a => Sm m (fun i => Sm k (fun b => / sumR (cw c) * (nth i (cw c) 0 * (v a * v b * (x i a * x i b))))))) by (intros; apply Sm_swap). rewrite Sm_swap. apply Sm_ext. intros i I. rewrite <- Rmult_assoc, <- Sm_scal. apply Sm_ext. intros a _. rewrite <- Sm_scal. apply Sm_ext. intros b _. ring.
    + rewrite Sm_scal. unfold Rdiv. rewrite Rmult_comm. f_equal. apply Sm_ext. intros i I. f_equal. rewrite square_sum. f_equal. rewrite comb_nth by exact I. unfold x. rewrite (Sm_ext k (fun a => v a * (nth i (col c a) 0 - wmean (cw c) (col c a))) (fun a => v a * nth i (col c a) 0 + -1 * (v a * wmean (cw c) (col c a)))) by (intros; ring). rewrite Sm_plus, Sm_scal. ring.
Qed.
Lemma form_sumR {A} k (M : A -> matrix) v q l : form k (fun i j => sumR (map (fun c => M c i j) l) / q) v = sumR (map (fun c => form k (M c) v) l) / q.
Proof.
  unfold form. rewrite sumR_Sm_swap. unfold Rdiv. rewrite (Rmult_comm (Sm k _)), <- Sm_scal. apply Sm_ext. intros i _. rewrite sumR_Sm_swap, <- Sm_scal. apply Sm_ext. intros j _. rewrite (sumR_scal (v i * v j) (fun c => M c i j)). ring.
Qed.
Lemma form_meancov junk n cs k v : (forall c, In c cs -> good_chain n c) -> (k <= n)%nat -> form k (meancov junk cs) v = mean_of_vars k v cs.
Proof. intros G K. unfold meancov, mean_of_vars. rewrite (form_sumR k (fun c => cov junk (cw c) (cps c))). f_equal. apply sumR_ext. intros c C. apply (form_cov junk n c k v); auto. Qed.
Lemma form_meanscov n cs k v : (forall c, In c cs -> good_chain n c) -> (k <= n)%nat -> form k (meanscov cs) v = var_of_means k v cs.
Proof.
  intros G K. assert (CL : forall c a, In c cs -> (a < k)%nat -> length (col c a) = length (cw c)) by (intros c a C A; destruct (G c C) as (LN & LC & _); unfold col; apply LC, nth_In; lia).
  unfold meanscov, var_of_means. cbv zeta. rewrite (form_sumR k (fun c i j => (mean (cw c) (col c i) - mean (joined_w cs) (joined cs i)) * (mean (cw c) (col c j) - mean (joined_w cs) (joined cs j)))). f_equal. apply sumR_ext. intros c C. unfold form. rewrite (square_sum k v (fun i => mean (cw c) (col c i) - mean (joined_w cs) (joined cs i))). f_equal. rewrite wmean_comb by (intros; now apply CL). rewrite wmean_all by exact CL.
  rewrite (Sm_ext k _ (fun a => v a * wmean (cw c) (col c a) + -1 * (v a * wmean (joined_w cs) (joined cs a)))); [rewrite Sm_plus, Sm_scal; ring |]. intros a A. rewrite !mean_wmean; [ring | apply joined_length; intros; symmetry; now apply CL | symmetry; now apply CL].
Qed.
(** ** Eigenvectors *)
Definition into (k : nat) (U : matrix) (v : nat -> R) (j : nat) : R := Sm k (fun i => U i j * v i).
Definition outof (k : nat) (U : matrix) (y : nat -> R) (i : nat) : R := Sm k (fun j => U i j * y j).
Lemma out_in k U v i : orthogonal k U -> (i < k)%nat -> outof k U (into k U v) i = v i.
Proof.
  intros O I. unfold outof, into. rewrite (Sm_ext k _ (fun j => Sm k (fun m => v m * (U i j * U m j)))) by (intros; rewrite <- Sm_scal; apply Sm_ext; intros; ring). rewrite Sm_swap. rewrite (Sm_ext k _ (fun m => v m * delta i m)) by (intros m M; rewrite Sm_scal; f_equal; apply (O i m I M)). now apply Sm_delta.
Qed.
Lemma in_out k U y j : orthogonal k U -> (j < k)%nat -> into k U (outof k U y) j = y j.
Proof.
  intros O I. unfold outof, into. rewrite (Sm_ext k _ (fun i => Sm k (fun m => y m * (U i j * U i m)))) by (intros; rewrite <- Sm_scal; apply Sm_ext; intros; ring). rewrite Sm_swap. rewrite (Sm_ext k _ (fun m => y m * delta j m)) by (intros m M; rewrite Sm_scal; f_equal; apply (O j m I M)). now apply Sm_delta.
Qed.
Lemma form_eigen k M w U v : eigen_of k M w U -> form k M v = Sm k (fun j => nth j w 0 * into k U v j ^ 2).
Proof.
  intros (_ & O & E). unfold form. transitivity (Sm k (fun i => v i * Sm k (fun j => nth j w 0 * into k U v j * U i j))).
  - apply Sm_ext. intros i I. rewrite (Sm_ext k (fun j => v i * v j * M i j) (fun j => v i * (M i j * v j))) by (intros; ring). rewrite Sm_scal. f_equal. rewrite (Sm_ext k _ (fun m => Sm k (fun j => into k U v j * (M i m * U m j)))).
    + rewrite Sm_swap. apply Sm_ext. intros j J. rewrite Sm_scal, (E i j I J). ring.
    + intros m MM. rewrite <- (out_in k U v m O MM) at 1. unfold outof. rewrite <- Sm_scal. apply Sm_ext. intros. ring.
  - rewrite (Sm_ext k _ (fun i => Sm k (fun j => (nth j w 0 * into k U v j) * (U i j * v i)))) by (intros; rewrite <- Sm_scal; apply Sm_ext; intros; ring). rewrite Sm_swap. apply Sm_ext. intros j J. rewrite Sm_scal. unfold into at 2. unfold into. ring.
Qed.
Lemma norm_into k U v : orthogonal k U -> Sm k (fun i => v i ^ 2) = Sm k (fun j => into k U v j ^ 2).
Proof.
  intro O. rewrite (Sm_ext k _ (fun i => Sm k (fun j => into k U v j * (U i j * v i)))).
  - rewrite Sm_swap. apply Sm_ext. intros j J. rewrite Sm_scal. unfold into. ring.
  - intros i I. transitivity (outof k U (into k U v) i * v i); [rewrite (out_in k U v i O I); ring |]. unfold outof. rewrite Rmult_comm, <- Sm_scal. apply Sm_ext. intros. ring.
Qed.
Lemma maxR_in l : l <> [] -> In (maxR l) l.
Proof.
  destruct l as [| x l]; [congruence |]. intros _. cbn [maxR]. revert x. induction l as [| y l IH]; intro x; [now left |]. cbn [fold_left]. destruct (IH (Rmax x y)) as [E | I]; [| now right; right]. unfold Rmax in *. destruct (Rle_dec x y); [right; left; exact E | left; exact E].
Qed.
Lemma minR_in l : l <> [] -> In (minR l) l.
Proof.
  destruct l as [| x l]; [congruence |]. intros _. cbn [minR]. revert x. induction l as [| y l IH]; intro x; [now left |]. cbn [fold_left]. destruct (IH (Rmin x y)) as [E | I]; [| now right; right]. unfold Rmin in *. destruct (Rle_dec x y); [left; exact E | right; left; exact E].
Qed.
(** the ratio of two forms, one of them positive definite *)
Definition scaled (w : list R) (U : matrix) : matrix := fun i j => U i j / sqrt (nth j w 0).
Definition carried (k : nat) (U S : matrix) : matrix := mmul k (mmul k (mtrans U) S) U.
Lemma carried_form k U S z : form k (carried k U S) z = form k S (outof k U z).
Proof.
  unfold form, carried, mmul, mtrans, outof. transitivity (Sm k (fun a => Sm k (fun b => Sm k (fun i => Sm k (fun j => z a * z b * U i a * U j b * S i j))))).
  - apply Sm_ext. intros a _. apply Sm_ext. intros b _. rewrite rsum_Sm, <- Sm_scal. rewrite Sm_swap. apply Sm_ext. intros j _. rewrite rsum_Sm. rewrite Rmult_comm, Rmult_assoc, Rmult_comm, <- Sm_scal. apply Sm_ext. intros. ring.
  - transitivity (Sm k (fun i => Sm k (fun j => Sm k (fun a => Sm k (fun b => z a * z b * U i a * U j b * S i j))))).
    + rewrite (Sm_ext k _ (fun a => Sm k (fun i => Sm k (fun b => Sm k (fun j => z a * z b * U i a * U j b * S i j))))) by (intros; apply Sm_swap). rewrite Sm_swap. apply Sm_ext. intros i _. rewrite (Sm_ext k _ (fun a => Sm k (fun j => Sm k (fun b => z a * z b * U i a * U j b * S i j)))) by (intros; apply Sm_swap). apply Sm_swap.
    + apply Sm_ext. intros i _. apply Sm_ext. intros j _. rewrite (Sm_ext k _ (fun a => (U i a * z a) * (S i j * Sm k (fun b => U j b * z b)))); [rewrite (Sm_ext k _ (fun a => (S i j * Sm k (fun b => U j b * z b)) * (U i a * z a))) by (intros; ring); rewrite Sm_scal; ring |]. intros a _. rewrite <- Rmult_assoc, <- Sm_scal. apply Sm_ext. intros. ring.
Qed.
Lemma carried_sym k U S : symmetric k S -> symmetric k (carried k U S).
Proof.
  intros SY a b _ _. unfold carried, mmul, mtrans. rewrite !rsum_Sm. rewrite (Sm_ext k _ (fun j => Sm k (fun i => U i a * S i j * U j b))) by (intros; rewrite rsum_Sm, Rmult_comm, <- Sm_scal; apply Sm_ext; intros; ring). rewrite (Sm_ext k (fun m => rsum k _ * _) (fun j => Sm k (fun i => U i b * S i j * U j a))) by (intros; rewrite rsum_Sm, Rmult_comm, <- Sm_scal; apply Sm_ext; intros; ring).
  rewrite Sm_swap. apply Sm_ext. intros i I. apply Sm_ext. intros j J. rewrite (SY i j I J). ring.
Qed.
Lemma meancov_sym junk n cs k : (forall c, In c cs -> good_chain n c) -> (k <= n)%nat -> symmetric k (meancov junk cs).
Proof.
  intros G K i j I J. unfold meancov. f_equal. apply sumR_ext. intros c C. destruct (G c C) as (LN & LC & _). assert (FL : Forall (fun p => length p = length (cw c)) (cps c)) by (apply Forall_forall; exact LC). rewrite !(cov_entry junk (cw c) (cps c) _ _ (length (cw c)) eq_refl FL) by lia. f_equal. apply Sm_ext. intros. ring.
Qed.
Lemma meanscov_sym cs k : symmetric k (meanscov cs).
Proof. intros i j _ _. unfold meanscov. cbv zeta. f_equal. apply sumR_ext. intros. ring. Qed.
Lemma outof_scaled k w U z i : (forall j, (j < k)%nat -> 0 < nth j w 0) -> outof k (scaled w U) z i = outof k U (fun j => z j / sqrt (nth j w 0)) i.
Proof. intro P. unfold outof, scaled. apply Sm_ext. intros. unfold Rdiv. ring. Qed.
(** every combination is reached, with the form C as the sum of squares *)
Lemma reach k C w U z : eigen_of k C w U -> (forall j, (j < k)%nat -> 0 < nth j w 0) -> form k C (outof k (scaled w U) z) = Sm k (fun j => z j ^ 2).
Proof.
  intros E P. rewrite (form_eigen k C w U _ E). apply Sm_ext. intros j J. destruct E as (_ & O & _). assert (X : into k U (outof k (scaled w U) z) j = z j / sqrt (nth j w 0)). { rewrite <- (in_out k U (fun j => z j / sqrt (nth j w 0)) j O J). unfold into at 1 2. apply Sm_ext. intros i I. f_equal. now apply outof_scaled. }
  rewrite X. pose proof (P j J) as Q. pose proof (sqrt_lt_R0 _ Q) as SQ. rewrite <- (sqrt_sqrt (nth j w 0)) at 1 by lra. field. lra.
Qed.
Lemma form_ext k M u v : (forall i, (i < k)%nat -> u i = v i) -> form k M u = form k M v.
Proof. intro H. unfold form. apply Sm_ext. intros i I. apply Sm_ext. intros j J. now rewrite !H. Qed.
Lemma reached k w U v : orthogonal k U -> (forall j, (j < k)%nat -> 0 < nth j w 0) -> forall i, (i < k)%nat -> outof k (scaled w U) (fun j => sqrt (nth j w 0) * into k U v j) i = v i.
Proof.
  intros O P i I. rewrite outof_scaled by exact P. transitivity (outof k U (into k U v) i); [| now apply out_in]. unfold outof. apply Sm_ext. intros j J. f_equal. pose proof (sqrt_lt_R0 _ (P j J)). field. lra.
Qed.
Lemma Sm_le k f g : (forall i, (i < k)%nat -> f i <= g i) -> Sm k f <= Sm k g.
Proof. induction k as [| k IH]; intro H; [rewrite !Sm_0; lra |]. rewrite !Sm_S. apply Rplus_le_compat; [apply IH; intros; apply H; lia | apply H; lia]. Qed.
Lemma Sm_sq_zero k f : Sm k (fun j => f j ^ 2) = 0 -> forall j, (j < k)%nat -> f j = 0.
Proof.
  induction k as [| k IH]; intros H j J; [lia |]. rewrite Sm_S in H. pose proof (Sm_nonneg k (fun j => f j ^ 2) (fun j _ => pow2_ge_0 (f j))). pose proof (pow2_ge_0 (f k)). assert (f k ^ 2 = 0) by lra. destruct (Nat.eq_dec j k) as [-> |]; [nra | apply IH; [lra | lia]].
Qed.
Lemma Sm_basis k (l : nat) f : (l < k)%nat -> Sm k (fun j => f j * delta l j ^ 2) = f l.
Proof. intro L. rewrite (Sm_ext k _ (fun j => f j * delta l j)); [now apply Sm_delta |]. intros j _. unfold delta. destruct (Nat.eqb l j); ring. Qed.
Lemma quotient_max k C S w U D V : eigen_of k C w U -> (forall j, (j < k)%nat -> 0 < nth j w 0) -> eigen_of k (carried k (scaled w U) S) D V -> (0 < k)%nat ->
  (forall v, form k S v <= maxR D * form k C v) /\ (exists v, form k C v = 1 /\ form k S v = maxR D) /\ (forall v, form k C v = 0 -> forall i, (i < k)%nat -> v i = 0).
Proof.
  intros E P F K. pose proof E as (LW & O & _). pose proof F as (LD & OV & _). split; [| split].
  - intro v. set (z := fun j => sqrt (nth j w 0) * into k U v j). assert (EZ : forall i, (i < k)%nat -> outof k (scaled w U) z i = v i) by (intros; now apply reached). rewrite <- (form_ext k S _ v EZ), <- (form_ext k C _ v EZ), <- carried_form, (reach k C w U z E P), (form_eigen _ _ D V z F), (norm_into k V z OV), <- Sm_scal. apply Sm_le. intros j J. apply Rmult_le_compat_r; [apply pow2_ge_0 |]. apply maxR_ge, nth_In. lia.
  - assert (ND : D <> []) by (destruct D; [cbn in LD; lia | congruence]). destruct (In_nth _ _ 0 (maxR_in D ND)) as (l & LL & EL). rewrite LD in LL. exists (outof k (scaled w U) (fun i => V i l)). rewrite (reach k C w U _ E P), <- carried_form, (form_eigen _ _ D V _ F). split.
    + rewrite (Sm_ext k _ (fun m => V m l * V m l)) by (intros; ring). rewrite (proj1 (OV l l LL LL)). unfold delta. now rewrite Nat.eqb_refl.
    + rewrite <- EL. rewrite <- (Sm_basis k l (fun j => nth j D 0) LL). apply Sm_ext. intros j J. do 2 f_equal. unfold into. rewrite (proj1 (OV j l J LL)). unfold delta. now rewrite Nat.eqb_sym.
  - intros v Z i I. rewrite (form_eigen k C w U v E) in Z. rewrite <- (out_in k U v i O I). unfold outof. refine (eq_trans _ (Sm_zero k)). apply Sm_ext. intros j J. assert (Y : sqrt (nth j w 0) * into k U v j = 0). { apply (Sm_sq_zero k (fun j => sqrt (nth j w 0) * into k U v j)); [| exact J]. refine (eq_trans _ Z). apply Sm_ext. intros m M. pose proof (P m M). cbv beta. rewrite <- (sqrt_sqrt (nth m w 0)) at 2 by lra. ring. }
    pose proof (sqrt_lt_R0 _ (P j J)). apply Rmult_integral in Y. destruct Y as [Y | ->]; [lra | ring].
Qed.
