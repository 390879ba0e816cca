(** Histograms, split samples, combined samples and thinned output: C47, C48, C49, C50. *)
From Verif Require Import PyStr PyBase PyStrFacts BoundsSpec BoundsProofs ThinModel ConfModel ConfProofs HistModel HistSpec HistProofs.
From Coq Require Import ZArith QArith Qabs Qminmax Lqa String Ascii Bool List Lia.
Import ListNotations.
Local Open Scope nat_scope.
Local Open Scope list_scope.

(** ** C47: histograms *)

Theorem C47_bins vec par bins bf ix w b0 b1 : covers par vec -> (range_min par <= range_max par)%Q -> (0 <= bf)%Q -> 2 <= bins ->
  binSamples vec par bins bf = Ok (ix, w, b0, b1) ->
  (0 < w)%Q /\ (b0 + inject_Z (Z.of_nat bins - 1) * w == b1)%Q /\ Forall (fun i => 0 <= i < Z.of_nat bins)%Z ix /\
  Forall2 (fun v i => Qabs (v - (b0 + inject_Z i * w)) <= w / 2)%Q vec ix.
Proof.
  intros C R B N H. unfold binSamples in H. destruct (edges_cover par bf vec C R B) as (E & E2).
  destruct (bin_edges par bf) as [e0 e1]. cbn [fst snd] in *. destruct (Nat.eqb_spec bins 1); [lia|].
  destruct (Qeq_bool _ 0) eqn:Z0; [discriminate|]. injection H as <- <- <- <-.
  assert (Hm : (0 < inject_Z (Z.of_nat bins - 1))%Q) by (rewrite <- (Zlt_Qlt 0); lia).
  assert (L0 : (e0 < e1)%Q).
  { apply Qnot_le_lt. intros L0. assert (e0 == e1)%Q by lra. apply Qeq_bool_neq in Z0. apply Z0. rewrite H. field. lra. }
  assert (Hi := fun v H0 H1 => bin_index v e0 e1 bins H0 H1 L0 N). cbn zeta in Hi.
  split; [apply Qlt_shift_div_l; lra|]. split; [field; lra|].
  clear E2 Z0. induction E as [|v vec (V0 & V1) E IH]; [split; constructor|]. inversion C; subst. destruct (IH ltac:(assumption)) as (I1 & I2).
  destruct (Hi v V0 V1) as (_ & I3 & I4). split; constructor; assumption.
Qed.
Print Assumptions C47_bins.
Theorem C47_defined vec par bins bf : covers par vec -> (range_min par <= range_max par)%Q -> (0 <= bf)%Q -> 2 <= bins ->
  (p_min par < p_max par)%Q \/ (range_min par < range_max par)%Q -> exists r, binSamples vec par bins bf = Ok r.
Proof.
  intros C R B N D. unfold binSamples. destruct (edges_cover par bf vec C R B) as (E & E2).
  destruct (bin_edges par bf) as [e0 e1]. cbn [fst snd] in *. destruct (Nat.eqb_spec bins 1); [lia|].
  destruct (Qeq_bool _ 0) eqn:Z0; [|eauto]. exfalso. apply Qeq_bool_eq in Z0.
  assert (Hm : (0 < inject_Z (Z.of_nat bins - 1))%Q) by (rewrite <- (Zlt_Qlt 0); lia).
  assert (X : (e1 - e0 == 0)%Q). { setoid_replace (e1 - e0)%Q with ((e1 - e0) / inject_Z (Z.of_nat bins - 1) * inject_Z (Z.of_nat bins - 1))%Q by (field; lra). rewrite Z0. ring. }
  lra.
Qed.
Print Assumptions C47_defined.
Theorem C47_weights ix ws bins : Forall (fun i => 0 <= i < Z.of_nat bins)%Z ix -> List.length ix = List.length ws ->
  exists h, bincount ix ws bins = Ok h /\ List.length h = bins /\ (sumQ h == sumQ ws)%Q /\
    forall k, k < bins -> nth k h 0%Q = weight_of (fun i => (i =? Z.of_nat k)%Z) (combine ix ws).
Proof.
  intros H E. eexists. split; [now apply bincount_ok|]. split; [now rewrite map_length, seq_length|]. split.
  - rewrite sum_bins; [now rewrite map_snd_combine_gen|]. now apply (in_combine_fst ix ws (fun i => 0 <= i < Z.of_nat bins)%Z).
  - intros k Hk. now rewrite nth_map_seq.
Qed.
Print Assumptions C47_weights.
Theorem C47_histogram_2d ixs iys ws xsize ysize :
  Forall (fun i => 0 <= i < Z.of_nat xsize)%Z ixs -> Forall (fun i => 0 <= i < Z.of_nat ysize)%Z iys ->
  List.length ixs = List.length ws -> List.length iys = List.length ws ->
  exists h, make2Dhist ixs iys ws xsize ysize = Ok h /\ List.length h = ysize /\ Forall (fun r => List.length r = xsize) h /\
    (sumQ (concat h) == sumQ ws)%Q /\
    forall x y, x < xsize -> y < ysize ->
      nth x (nth y h []) 0%Q = weight_of (fun p => (fst p =? Z.of_nat x)%Z && (snd p =? Z.of_nat y)%Z) (combine (combine ixs iys) ws).
Proof.
  intros HX HY EX EY. unfold make2Dhist. set (flat := map _ _).
  assert (HF : Forall (fun i => 0 <= i < Z.of_nat (xsize * ysize))%Z flat).
  { unfold flat. clear flat EX EY. revert iys HY. induction HX as [|i ixs Hi HX IH]; intros [|j iys] HY; cbn [combine map]; try constructor.
    - inversion HY; subst. cbn [fst snd]. split; [nia|]. rewrite Nat2Z.inj_mul. nia.
    - inversion HY; subst. now apply IH. }
  assert (EF : List.length flat = List.length ws) by (unfold flat; rewrite map_length, combine_length; lia).
  destruct (C47_weights flat ws (xsize * ysize) HF EF) as (h & Eh & Lh & Sh & Nh). rewrite Eh. cbn [bindR]. unfold reshape.
  rewrite Lh, (Nat.mul_comm xsize ysize), Nat.eqb_refl. eexists. split; [reflexivity|].
  assert (Lh' : List.length h = ysize * xsize) by lia.
  split; [apply chop_length|]. split; [now apply chop_rows|]. split; [now rewrite chop_concat|].
  intros x y Hx Hy. rewrite chop_nth by assumption. rewrite Nh by nia. unfold flat. clear - HX HY EX EY Hx Hy.
  revert iys ws HY EX EY. induction HX as [|i ixs Hi HX IH]; intros [|j iys] [|w ws] HY EX EY; cbn [List.length] in *; try lia; [reflexivity|].
  inversion HY; subst. cbn [combine map fst snd]. rewrite !weight_cons. cbn [fst snd]. rewrite IH by (assumption || lia).
  assert (B : ((i + j * Z.of_nat xsize =? Z.of_nat (x + y * xsize)) = (i =? Z.of_nat x) && (j =? Z.of_nat y))%Z).
  { destruct (Z.eqb_spec (i + j * Z.of_nat xsize) (Z.of_nat (x + y * xsize))), (Z.eqb_spec i (Z.of_nat x)), (Z.eqb_spec j (Z.of_nat y)); cbn; try reflexivity; exfalso; nia. }
  now rewrite B.
Qed.
Print Assumptions C47_histogram_2d.
(** the ranges that _initParam sets, for samples within the limits *)
Theorem C47_range pmin pmax lo hi smooth bot top : (pmin <= lo)%Q -> (lo <= hi)%Q -> (hi <= pmax)%Q -> (0 <= smooth)%Q ->
  (forall l, bot = Some l -> l <= pmin)%Q -> (forall l, top = Some l -> pmax <= l)%Q ->
  let par := init_range pmin pmax lo hi smooth bot top in
  p_min par = pmin /\ p_max par = pmax /\ (range_min par <= range_max par)%Q.
Proof.
  intros H1 H2 H3 H4 Hb Ht. unfold init_range.
  assert (A : exists l1 b, match bot with Some l => if Qlt_b (2 * smooth) (lo - l)%Q && Qlt_b smooth (pmin - l)%Q then (lo, false) else (l, true) | None => (lo, false) end = (l1, b) /\ (l1 <= lo)%Q).
  { destruct bot as [l|]; [|exists lo, false; split; [reflexivity|lra]]. specialize (Hb l eq_refl). destruct (_ && _); eexists _, _; (split; [reflexivity|lra]). }
  assert (B : exists l1 b, match top with Some l => if Qlt_b (2 * smooth) (l - hi)%Q && Qlt_b smooth (l - pmax)%Q then (hi, false) else (l, true) | None => (hi, false) end = (l1, b) /\ (hi <= l1)%Q).
  { destruct top as [l|]; [|exists hi, false; split; [reflexivity|lra]]. specialize (Ht l eq_refl). destruct (_ && _); eexists _, _; (split; [reflexivity|lra]). }
  destruct A as (l1 & b1 & -> & A). destruct B as (l2 & b2 & -> & B). cbn. split; [reflexivity|]. split; [reflexivity|]. destruct b1, b2; lra.
Qed.
Print Assumptions C47_range.
(** FINDING: with samples below the lower limit the range is reversed, and samples fall outside of the bins *)
Theorem C47_limits_refuted : exists vec lo hi smooth l ix w b0 b1,
  (0 <= lo)%Q /\ (lo <= hi)%Q /\ (hi <= 10)%Q /\ (0 <= smooth)%Q /\ Forall (fun v => 0 <= v /\ v <= 10)%Q vec /\
  binSamples vec (init_range 0 10 lo hi smooth (Some l) None) 11 (1#10) = Ok (ix, w, b0, b1) /\ Exists (fun i => 11 <= i)%Z ix.
Proof.
  exists [0%Q; 10%Q], 0%Q, 10%Q, 1%Q, 60%Q. eexists. eexists. eexists. eexists. split; [lra|]. split; [lra|]. split; [lra|]. split; [lra|].
  split; [repeat constructor; lra|]. split; [vm_compute; reflexivity|]. apply Exists_cons_tl, Exists_cons_hd. lia.
Qed.
Print Assumptions C47_limits_refuted.
Example C47_ex : let par := init_range 0 10 1 9 (1#2) (Some 0%Q) None in
  covers par [0%Q; 3%Q; 10%Q] /\ (range_min par < range_max par)%Q /\ has_bot par = true /\
  match binSamples [0%Q; 3%Q; 10%Q] par 5 (1#10) with Ok (ix, _, _, _) => ix = [0; 1; 4]%Z | Err _ => False end.
Proof. cbn zeta. split; [repeat constructor; cbn; lra|]. split; [vm_compute; reflexivity|]. split; [reflexivity|]. vm_compute. reflexivity. Qed.
Example C47_ex2 : Forall (fun i => 0 <= i < 3)%Z [0; 2; 2]%Z /\ make2Dhist [0; 2; 2]%Z [1; 0; 1]%Z [1; 2; 4]%Q 3 2 = Ok [[0%Q; 0%Q; 2%Q]; [1%Q; 0%Q; 4%Q]].
Proof. split; [repeat constructor; lia|]. vm_compute. reflexivity. Qed.

(** ** C48: rows that split the weight *)

Theorem C48_ends w n : 1 <= n -> Forall (fun x => 0 <= x)%Q w ->
  let b := getFractionIndices w (sumQ w) (List.length w) n in List.length b = n + 1 /\ nth 0 b 0 = 0 /\ nth n b 0 = List.length w.
Proof.
  intros N P. cbn zeta. unfold getFractionIndices. split; [|split].
  - rewrite app_length, map_length, seq_length. reflexivity.
  - destruct n as [|n]; [lia|]. cbn [seq map app nth]. destruct w as [|x w]; [reflexivity|]. cbn [cumsumQ searchsorted]. inversion P; subst.
    destruct (ChainModel.Qltb _ _) eqn:E; [|reflexivity]. apply ChainProofs.Qltb_iff in E. exfalso.
    assert (X : (inject_Z (Z.of_nat 0) / inject_Z (Z.of_nat (S n)) * sumQ (x :: w) == 0)%Q) by (unfold Qdiv; change (inject_Z (Z.of_nat 0)) with 0%Q; ring).
    rewrite X in E. lra.
  - rewrite app_nth2; rewrite map_length, seq_length; [|lia]. now rewrite Nat.sub_diag.
Qed.
Print Assumptions C48_ends.
Lemma frac_nth w n i : i < n -> nth i (getFractionIndices w (sumQ w) (List.length w) n) 0 = searchsorted (cumsumQ 0 w) (share w i n).
Proof.
  intros H. unfold getFractionIndices. rewrite app_nth1 by (rewrite map_length, seq_length; exact H). now rewrite nth_map_seq.
Qed.
Lemma frac_end w n : nth n (getFractionIndices w (sumQ w) (List.length w) n) 0 = List.length w.
Proof. unfold getFractionIndices. rewrite app_nth2; rewrite map_length, seq_length; [|lia]. now rewrite Nat.sub_diag. Qed.
Theorem C48_monotone w n i j : Forall (fun x => 0 <= x)%Q w -> i <= j <= n ->
  let b := getFractionIndices w (sumQ w) (List.length w) n in nth i b 0 <= nth j b 0 <= List.length w.
Proof.
  intros P H. cbn zeta. pose proof (sumQ_nonneg w P) as S.
  assert (U : forall k, searchsorted (cumsumQ 0 w) (share w k n) <= List.length w).
  { intros k. pose proof (searchsorted_le (cumsumQ 0 w) (share w k n)) as X. now rewrite cumsumQ_length in X. }
  destruct (Nat.eq_dec j n) as [->|].
  - rewrite frac_end. split; [|lia]. destruct (Nat.eq_dec i n) as [->|]; [now rewrite frac_end|]. rewrite frac_nth by lia. apply U.
  - rewrite !frac_nth by lia. split; [|apply U]. apply searchsorted_mono. apply share_mono; lia || exact S.
Qed.
Print Assumptions C48_monotone.
Theorem C48_boundary w n i : w <> [] -> Forall (fun x => 0 <= x)%Q w -> i < n ->
  let b := nth i (getFractionIndices w (sumQ w) (List.length w) n) 0 in
  b < List.length w /\ (forall k, k < b -> (upto_row w (S k) < share w i n)%Q) /\ (share w i n <= upto_row w (S b))%Q.
Proof.
  intros Ne P H. cbn zeta. rewrite frac_nth by exact H. pose proof (sumQ_nonneg w P) as S.
  set (s := searchsorted (cumsumQ 0 w) (share w i n)).
  assert (Hl : s <= List.length w) by (pose proof (searchsorted_le (cumsumQ 0 w) (share w i n)) as X; now rewrite cumsumQ_length in X).
  assert (B : forall k, k < s -> (upto_row w (1 + k) < share w i n)%Q).
  { intros k Hk. pose proof (searchsorted_before (cumsumQ 0 w) (share w i n) k Hk) as X. rewrite cumsumQ_nth in X by lia.
    unfold upto_row. cbn [Nat.add]. lra. }
  assert (Hs : s < List.length w).
  { destruct (Nat.eq_dec s (List.length w)) as [E|]; [|lia]. exfalso. destruct w as [|x w]; [congruence|].
    specialize (B (List.length w) ltac:(rewrite E; cbn; lia)). change (1 + List.length w) with (List.length (x :: w)) in B. rewrite upto_all in B.
    pose proof (share_lt (x :: w) i n S H). lra. }
  split; [exact Hs|]. split; [exact B|].
  assert (Hs' : s < List.length (cumsumQ 0 w)) by now rewrite cumsumQ_length.
  pose proof (searchsorted_at (cumsumQ 0 w) (share w i n) Hs') as X. fold s in X. rewrite cumsumQ_nth in X by exact Hs. unfold upto_row. lra.
Qed.
Print Assumptions C48_boundary.
(** the weight of a segment is the fraction up to the weight of one row at each end *)
Theorem C48_segment w n i : w <> [] -> Forall (fun x => 0 <= x)%Q w -> i < n ->
  let b := getFractionIndices w (sumQ w) (List.length w) n in
  let b0 := nth i b 0 in let b1 := nth (S i) b 0 in
  let seg := (upto_row w b1 - upto_row w b0)%Q in
  (seg <= sumQ w / inject_Z (Z.of_nat n) + nth b0 w 0)%Q /\ (sumQ w / inject_Z (Z.of_nat n) - nth b1 w 0 <= seg)%Q.
Proof.
  intros Ne P H. cbn zeta.
  set (b := getFractionIndices w (sumQ w) (List.length w) n).
  assert (Hn : (0 < inject_Z (Z.of_nat n))%Q) by (rewrite <- (Zlt_Qlt 0); lia).
  assert (D : (share w (S i) n - share w i n == sumQ w / inject_Z (Z.of_nat n))%Q).
  { unfold share. rewrite Nat2Z.inj_succ, <- Z.add_1_r, inject_Z_plus. change (inject_Z 1) with 1%Q. field. lra. }
  assert (G : forall j, j < n -> (upto_row w (nth j b 0%nat) <= share w j n)%Q /\ (share w j n <= upto_row w (nth j b 0%nat) + nth (nth j b 0%nat) w 0)%Q).
  { intros j Hj. destruct (C48_boundary w n j Ne P Hj) as (B1 & B2 & B3). fold b in B1, B2, B3. rewrite upto_next in B3 by exact B1. split; [|exact B3].
    destruct (nth j b 0) as [|k]; [|apply Qlt_le_weak, B2; lia].
    change (upto_row w 0) with 0%Q. pose proof (sumQ_nonneg w P) as S. pose proof (share_mono w 0 j n S ltac:(lia) ltac:(lia)) as X.
    assert (Z0 : (share w 0 n == 0)%Q) by (unfold share, Qdiv; change (inject_Z (Z.of_nat 0)) with 0%Q; ring). lra. }
  destruct (G i H) as (G1 & G2). destruct (Nat.eq_dec (S i) n) as [E|].
  - assert (X : nth (S i) b 0 = List.length w) by (unfold b; rewrite E; apply frac_end). rewrite X, upto_all, (nth_overflow w 0%Q (Nat.le_refl (List.length w))).
    assert (T : (share w (S i) n == sumQ w)%Q) by (unfold share; rewrite E; field; lra). split; lra.
  - destruct (G (S i) ltac:(lia)) as (G3 & G4). split; lra.
Qed.
Print Assumptions C48_segment.
Example C48_ex : Forall (fun x => 0 <= x)%Q [1; 5; 1; 1]%Q /\ getFractionIndices [1; 5; 1; 1]%Q 8 4 2 = [0; 1; 4] /\ (share [1; 5; 1; 1]%Q 1 2 == 4)%Q.
Proof. split; [repeat constructor; lra|]. split; vm_compute; reflexivity. Qed.

(** ** C49: combined samples *)

Theorem C49_mass w1 w2 a b w : combined_weights w1 w2 (Some (a, b)) = Ok w ->
  exists v1 v2, w = v1 ++ v2 /\ (sumQ v1 * b == sumQ v2 * a)%Q /\
    (exists c, Forall2 (fun x y => y == x * c)%Q w1 v1) /\ (exists c, Forall2 (fun x y => y == x * c)%Q w2 v2).
Proof.
  unfold combined_weights. destruct (Qeq_bool (sumQ w2) 0) eqn:E; [discriminate|]. apply Qeq_bool_neq in E. intros [= <-].
  eexists. eexists. split; [reflexivity|].
  assert (SM : forall c l, (sumQ (map (fun x => x * c)%Q l) == sumQ l * c)%Q).
  { intros c l. unfold sumQ. induction l as [|x l IH]; cbn; [ring|]. rewrite IH. ring. }
  assert (SM2 : forall c d l, (sumQ (map (fun x => x * c * d)%Q l) == sumQ l * c * d)%Q).
  { intros c d l. unfold sumQ. induction l as [|x l IH]; cbn; [ring|]. rewrite IH. ring. }
  split; [|split].
  - rewrite SM, SM2. field. exact E.
  - exists a. clear. induction w1; cbn; constructor; [reflexivity|assumption].
  - exists (b * (sumQ w1 / sumQ w2))%Q. clear E. generalize (sumQ w2) as t. intros t. induction w2; cbn; constructor; [ring|assumption].
Qed.
Print Assumptions C49_mass.
Theorem C49_append w1 w2 : combined_weights w1 w2 None = Ok (w1 ++ w2).
Proof. reflexivity. Qed.
Print Assumptions C49_append.
(** missing: names with dots *)
Theorem C49_columns_partial s1 s2 sw w : plain_set s1 -> plain_set s2 -> combined_weights (s_weights s1) (s_weights s2) sw = Ok w ->
  exists s, getCombined s1 s2 sw = Ok s /\ s_weights s = w /\
    s_logl s = match s_logl s1, s_logl s2 with Some a, Some b => Some (a ++ b) | _, _ => None end /\
    (forall n, In n (map s_name (s_pars s)) <-> In n (map s_name (s_pars s1)) /\ In n (map s_name (s_pars s2))) /\
    (forall p, In p (s_pars s) -> exists p2 c1, In p2 (s_pars s2) /\ fst p = fst p2 /\ has_col s1 (s_name p) c1 /\ snd p = c1 ++ snd p2).
Proof.
  intros (N1 & P1) (N2 & P2) W. unfold getCombined. rewrite W. cbn [bindR].
  assert (K : forall s, map fst (s_cols s) = map s_name (s_pars s)) by (intros s; unfold s_cols; now rewrite map_map).
  assert (PL : forall s, Forall (fun p => no_dot (s_name p)) (s_pars s) -> Forall (fun p => no_dot (fst p)) (s_cols s)).
  { intros s H. unfold s_cols. apply Forall_map. exact H. }
  destruct (getParams_plain (s_cols s1)) as (o1 & G1 & D1); [now apply PL|now rewrite K|].
  destruct (getParams_plain (s_cols s2)) as (o2 & G2 & D2); [now apply PL|now rewrite K|].
  rewrite G1, G2. cbn [bindR]. set (common := filter _ _).
  assert (HC : forall s p, NoDup (map s_name (s_pars s)) -> In p (s_pars s) -> dget (s_name p) (s_cols s) = Some (snd p)).
  { intros s p N Hp. apply dget_In_NoDup; [change (NoDup (map fst (s_cols s))); now rewrite K|]. unfold s_cols. apply in_map_iff. eauto. }
  assert (M : forall l, incl l common -> exists ps, mapR (fun p => bindR (column o1 (s_name p)) (fun a => bindR (column o2 (s_name p)) (fun b => Ok (fst p, a ++ b)))) l = Ok ps /\
    Forall2 (fun p q => fst q = fst p /\ exists p1, In p1 (s_pars s1) /\ s_name p1 = s_name p /\ snd q = snd p1 ++ snd p) l ps).
  { induction l as [|p l IH]; intros HI; [exists []; split; [reflexivity|constructor]|].
    destruct IH as (ps & E & F); [intros x Hx; apply HI; now right|].
    assert (Hp : In p common) by (apply HI; now left). apply filter_In in Hp as (Hp & Hm). apply mem_str_In, in_map_iff in Hm as (p1 & En & Hp1).
    exists ((fst p, snd p1 ++ snd p) :: ps). split.
    - cbn [mapR]. unfold column at 1. rewrite D1, <- En, (HC s1 p1 N1 Hp1). cbn [bindR]. unfold column at 1. rewrite D2, En, (HC s2 p N2 Hp). cbn [bindR].
      rewrite E. reflexivity.
    - constructor; [|exact F]. cbn [fst snd]. split; [reflexivity|]. exists p1. auto. }
  destruct (M common (fun x h => h)) as (ps & E & F). rewrite E. cbn [bindR].
  eexists. split; [reflexivity|]. cbn [s_weights s_logl s_pars]. split; [reflexivity|]. split; [reflexivity|].
  assert (NM : map s_name ps = map s_name common).
  { clear E M. induction F as [|p q l ps (F1 & _) F IH]; [reflexivity|]. cbn [map]. unfold s_name at 1 3. now rewrite F1, IH. }
  split.
  - intros n. rewrite NM. rewrite in_map_iff. split.
    + intros (p & <- & Hp). apply filter_In in Hp as (Hp & Hm). split; [now apply mem_str_In|now apply in_map].
    + intros (H1 & H2). apply in_map_iff in H2 as (p & <- & Hp). exists p. split; [reflexivity|]. apply filter_In. split; [exact Hp|now apply mem_str_In].
  - intros q Hq. assert (X : exists p, In p common /\ fst q = fst p /\ exists p1, In p1 (s_pars s1) /\ s_name p1 = s_name p /\ snd q = snd p1 ++ snd p).
    { clear - F Hq. induction F as [|p q' l ps (F1 & F2) F IH]; [destruct Hq|]. destruct Hq as [->|Hq]; [exists p; split; [now left|auto]|].
      destruct (IH Hq) as (p' & I & R). exists p'. split; [now right|exact R]. }
    destruct X as (p & Hp & F1 & p1 & Hp1 & En & Es). apply filter_In in Hp as (Hp & _). exists p, (snd p1). split; [exact Hp|]. split; [exact F1|].
    split; [|exact Es]. exists p1. split; [exact Hp1|]. split; [|reflexivity]. rewrite En. unfold s_name. now rewrite F1.
Qed.
Print Assumptions C49_columns_partial.
(** FINDING: samples with a common parameter name that contains a dot cannot be combined *)
Theorem C49_dots_refuted s1 s2 sw p : In p (s_pars s2) -> In (s_name p) (map s_name (s_pars s1)) -> In "."%char (s_name p) ->
  exists e, getCombined s1 s2 sw = Err e.
Proof.
  intros H2 H1 Hd. unfold getCombined. destruct (combined_weights _ _ _) as [w|e]; cbn [bindR]; [|eauto].
  destruct (getParams (s_cols s1)) as [o1|e] eqn:G1; cbn [bindR]; [|eauto]. destruct (getParams (s_cols s2)) as [o2|e]; cbn [bindR]; [|eauto].
  set (common := filter _ _). assert (Hc : In p common) by (apply filter_In; split; [exact H2|now apply mem_str_In]).
  assert (X : dget (s_name p) o1 = None).
  { apply dget_None. intros Hin. pose proof (getParams_keys _ _ G1) as K. unfold keys_plain in K. rewrite Forall_forall in K. exact (K _ Hin Hd). }
  assert (M : exists e, mapR (fun p => bindR (column o1 (s_name p)) (fun a => bindR (column o2 (s_name p)) (fun b => Ok (fst p, a ++ b)))) common = Err e).
  { clearbody common. clear - Hc X. induction common as [|q l IH]; [destruct Hc|]. cbn [mapR]. destruct Hc as [->|Hc].
    - unfold column at 1. rewrite X. cbn [bindR]. eauto.
    - destruct (bindR (column o1 (s_name q)) _) as [y|e]; cbn [bindR]; [|eauto]. destruct (IH Hc) as (e & ->). cbn [bindR]. eauto. }
  destruct M as (e & ->). cbn [bindR]. eauto.
Qed.
Print Assumptions C49_dots_refuted.
Definition ex_s1 : sset := mkss [(L "x", L "X", false, [1; 2]%Q); (L "y", L "Y", true, [3; 4]%Q)] [1; 3]%Q (Some [5; 6]%Q).
Definition ex_s2 : sset := mkss [(L "z", L "Z", false, [7]%Q); (L "x", L "X2", false, [8]%Q)] [2]%Q (Some [9]%Q).
Example C49_ex : plain_set ex_s1 /\ plain_set ex_s2 /\
  getCombined ex_s1 ex_s2 (Some (1, 2)%Q) = Ok (mkss [(L "x", L "X2", false, [1; 2; 8]%Q)] [1; 3; 2 * 2 * (4 / 2)]%Q (Some [5; 6; 9]%Q)).
Proof.
  split; [|split].
  - split; [|repeat constructor; intros H; vm_compute in H; intuition discriminate].
    repeat constructor; intros H; vm_compute in H; intuition discriminate.
  - split; [|repeat constructor; intros H; vm_compute in H; intuition discriminate].
    repeat constructor; intros H; vm_compute in H; intuition discriminate.
  - vm_compute. reflexivity.
Qed.
Example C49_dots_ex : In "."%char (s_name (L "a.b", L "", false, [1%Q])).
Proof. vm_compute. auto. Qed.

(** ** C50: thinned output *)
Section Thin.
  Context {F : Type} (fixed sci : F -> str) (one : F) (cooled cool_weight : F -> F) (df : F).
  Notation writeThinData := (writeThinData fixed sci one cooled cool_weight).
  Notation wanted_row := (wanted_row fixed sci one cooled cool_weight df).
  (** missing: row numbers other than 0, 1, 2, ... in order *)
  Theorem C50_rows_partial cool1 logl rows k : k <= List.length rows -> List.length logl = List.length rows ->
    writeThinData cool1 logl rows (seq 0 k) = Ok (concat (map (wanted_row cool1 logl rows) (seq 0 k))).
  Proof.
    intros H E. unfold HistModel.writeThinData.
    assert (G : forall n a, a + n <= List.length rows ->
      thin_rows fixed sci one cooled cool_weight cool1 logl rows a (seq a n) = Ok (map (wanted_row cool1 logl rows) (seq a n))).
    { induction n as [|n IH]; intros a Ha; cbn [seq thin_rows map]; [reflexivity|]. unfold thin_row.
      rewrite (nth_error_nth' logl df) by lia. rewrite (nth_error_nth' rows []) by lia. cbn [bindR]. rewrite IH by lia. cbn [bindR].
      do 2 f_equal. unfold HistSpec.wanted_row. destruct cool1; now rewrite <- app_assoc. }
    rewrite G by lia. reflexivity.
  Qed.
  (** FINDING: the k-th line has the values of row k, whatever row was asked for *)
  Theorem C50_rows_refuted cool1 l0 l1 r0 r1 : writeThinData cool1 [l0; l1] [r0; r1] [1] =
    Ok ((if cool1 then fixed one ++ fixed l1 else sci (cool_weight l1) ++ sci (cooled l1)) ++ concat (map sci r0)).
  Proof. unfold HistModel.writeThinData. cbn. rewrite app_nil_r. destruct cool1; now rewrite <- app_assoc. Qed.
  (** FINDING: asking for more rows than there are samples, as with repeated rows, fails *)
  Theorem C50_repeat_refuted cool1 l0 r0 : writeThinData cool1 [l0] [r0] [0; 0] = Err IndexError.
  Proof. reflexivity. Qed.
  (** FINDING: the rows are not separated by newlines *)
  Theorem C50_lines_refuted cool1 logl rows ix text : (forall x, ~ In nl (fixed x)) -> (forall x, ~ In nl (sci x)) ->
    writeThinData cool1 logl rows ix = Ok text -> ~ In nl text.
  Proof.
    intros H1 H2 H. unfold HistModel.writeThinData in H. destruct (thin_rows _ _ _ _ _ _ _ _ _ _) as [ts|] eqn:E; [|discriminate]. injection H as <-.
    assert (SN : forall r, ~ In nl (concat (map sci r))).
    { intros r. induction r as [|x r IH]; cbn; [tauto|]. rewrite in_app_iff. intros [X|X]; [now apply (H2 x)|now apply IH]. }
    revert ts E. generalize 0 as i. induction ix as [|t ix IH]; intros i ts E; cbn [thin_rows] in E; [injection E as <-; tauto|].
    destruct (thin_row fixed sci one cooled cool_weight cool1 logl rows i t) as [x|] eqn:R; [|discriminate]. cbn [bindR] in E.
    destruct (thin_rows fixed sci one cooled cool_weight cool1 logl rows (S i) ix) as [xs|] eqn:X; [|discriminate]. injection E as <-.
    cbn [concat]. rewrite in_app_iff. intros [Y|Y]; [|now apply (IH (S i) xs X)].
    unfold thin_row in R. destruct (nth_error logl t), (nth_error rows i); try discriminate. injection R as <-.
    destruct cool1; rewrite !in_app_iff in Y; destruct Y as [Y|[Y|Y]]; (now apply H1 in Y) || (now apply H2 in Y) || (now apply SN in Y).
  Qed.
  (** FINDING: without cooling the weight and the likelihood are one word *)
  Theorem C50_words_refuted l v r rest : word (fixed one) -> word (fixed l) -> sci v = " "%char :: rest ->
    exists text, writeThinData true [l] [v :: r] [0] = Ok text /\ exists t, split_ws text = (fixed one ++ fixed l) :: t.
  Proof.
    intros (W1 & W2) (W3 & W4) Hs. eexists. split; [reflexivity|]. cbn [concat map]. rewrite app_nil_r, Hs. cbn [app]. rewrite app_assoc.
    rewrite split_ws_word_blank; [eauto| |reflexivity]. split; [|rewrite forallb_app, W2, W4; reflexivity].
    intros X. apply app_eq_nil in X as (X & _). contradiction.
  Qed.
End Thin.
Print Assumptions C50_rows_partial.
Print Assumptions C50_rows_refuted.
Print Assumptions C50_repeat_refuted.
Print Assumptions C50_lines_refuted.
Print Assumptions C50_words_refuted.
Example C50_ex : writeThinData (fun s => s) (fun s => L " " ++ s) (L "1.0") (fun s => s) (fun s => s) true [L "5"; L "6"] [[L "a"]; [L "b"]] [1] = Ok (L "1.06 a") /\
  word (L "1.0") /\ List.length [L "5"; L "6"] = List.length [[L "a"]; [L "b"]].
Proof. split; [reflexivity|]. split; [|reflexivity]. split; [discriminate|reflexivity]. Qed.
