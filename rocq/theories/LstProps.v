(** C138: likelihood statistics, mcsamples.py 2002-2037. *)
From Coq Require Import Reals Lia Lra Bool Permutation.
From Verif Require Import PyStr PyBase StatModel StatSpec StatProofs LstModel LstSpec LstProofs.
From Coq Require Import List.
Import ListNotations.
Local Open Scope R_scope.

Lemma stats_inv w L ps ix c1 c2 s : good w L -> setLikeStats w L ps ix c1 c2 = Ok s -> exists ls,
  s = summary w L ix c1 c2 ls /\ Forall2 (fun p l => par_limits ix (searchsortedR (cumsumR 0 (take ix w)) (sumR w * c1)) (searchsortedR (cumsumR 0 (take ix w)) (sumR w * c2)) (argminR L) p = Ok l) ps ls.
Proof.
  intros G H. rewrite (stats_summary w L ps ix c1 c2 G) in H. destruct (mapR _ ps) as [ls |] eqn:M; [| discriminate H]. cbn [bindR] in H. exists ls. split; [congruence | now apply mapR_spec].
Qed.

(** C138: the best fit is the first sample with the smallest value, and each parameter's best fit is its value there. *)
Theorem C138_best w L ps ix c1 c2 s : good w L -> setLikeStats w L ps ix c1 c2 = Ok s -> exists k, (k < length L)%nat /\ logLike_sample s = nth k L 0 /\
  (forall x, In x L -> logLike_sample s <= x) /\ (forall j, (j < k)%nat -> logLike_sample s < nth j L 0) /\ Forall2 (fun p l => bestfit l = nth k p 0) ps (lims s).
Proof.
  intros G H. destruct (stats_inv _ _ _ _ _ _ _ G H) as (ls & -> & F). pose proof (good_nonempty _ _ G) as NE. destruct (argminR_spec L NE) as (A & B & C). exists (argminR L). cbn [summary logLike_sample lims]. repeat split; [exact A | intros x I; now apply best_in | exact C |].
  clear H. induction F as [| p l ps ls P F IH]; constructor; [| exact IH]. apply par_ok in P. destruct P as (_ & _ & ->). reflexivity.
Qed.
(** C138: the three averages; that of inverse likelihoods is left out exactly when the values span 30 or more. *)
Theorem C138_means w L ps ix c1 c2 s : good w L -> setLikeStats w L ps ix c1 c2 = Ok s ->
  meanLogLike s = wavg w L (fun x => x) /\ exp (- logMeanLike s) = wavg w L (fun x => exp (- x)) /\ complexity s = 2 * (meanLogLike s - logLike_sample s) /\
  (forall v, logMeanInvLike s = Some v -> exp v = wavg w L exp) /\ (logMeanInvLike s = None <-> exists x y, In x L /\ In y L /\ 30 <= x - y).
Proof.
  intros G H. destruct (stats_inv _ _ _ _ _ _ _ G H) as (ls & -> & F). pose proof (good_nonempty _ _ G) as NE. cbn [summary meanLogLike logMeanLike complexity logMeanInvLike logLike_sample].
  assert (E1 : 0 < wavg w L exp) by (rewrite (wavg_ext w L _ (fun x => exp (1 * x))) by (intro; f_equal; ring); now apply wavg_exp_pos).
  assert (E2 : 0 < wavg w L (fun x => exp (- x))) by (rewrite (wavg_ext w L _ (fun x => exp (-1 * x))) by (intro; f_equal; ring); now apply wavg_exp_pos).
  split; [reflexivity |]. split; [rewrite Ropp_involutive; now apply exp_ln |]. split; [reflexivity |]. destruct (argminR_spec L NE) as (A & _ & _). split.
  - intros v V. destruct (Rlt_dec _ 30); [| discriminate V]. injection V as <-. now apply exp_ln.
  - destruct (Rlt_dec (maxR L - nth (argminR L) L 0) 30) as [D | D].
    + split; [discriminate |]. intros (x & y & X & Y & Q). pose proof (maxR_ge L x X). pose proof (best_in L y NE Y). lra.
    + split; [| reflexivity]. intros _. exists (maxR L), (nth (argminR L) L 0). split; [now apply maxR_attained |]. split; [now apply nth_In | lra].
Qed.
(** C138: best fit, mean likelihood, mean of the logarithm and mean inverse likelihood come in this order. *)
Theorem C138_order w L ps ix c1 c2 s : good w L -> setLikeStats w L ps ix c1 c2 = Ok s ->
  logLike_sample s <= logMeanLike s <= meanLogLike s /\ (forall v, logMeanInvLike s = Some v -> meanLogLike s <= v <= maxR L) /\ 0 <= complexity s.
Proof.
  intros G H. destruct (stats_inv _ _ _ _ _ _ _ G H) as (ls & -> & F). pose proof (good_nonempty _ _ G) as NE. cbn [summary meanLogLike logMeanLike complexity logMeanInvLike logLike_sample]. set (m := nth (argminR L) L 0).
  assert (J1 := jensen w L 1 G). assert (J2 := jensen w L (-1) G). rewrite (wavg_ext w L (fun x => exp (1 * x)) exp) in J1 by (intro; f_equal; ring). rewrite (wavg_ext w L (fun x => exp (-1 * x)) (fun x => exp (- x))) in J2 by (intro; f_equal; ring).
  set (mu := wavg w L (fun x => x)) in *.
  assert (P1 : m <= - ln (wavg w L (fun x => exp (- x)))).
  { assert (Q : ln (wavg w L (fun x => exp (- x))) <= - m); [| lra]. rewrite <- (ln_exp (- m)). apply ln_mono; [eapply Rlt_le_trans; [apply exp_pos | exact J2] |]. rewrite <- (wavg_const w L (exp (- m)) G). apply wavg_le; [exact G |]. intros x I. destruct (Rle_lt_or_eq_dec _ _ (best_in L x NE I)) as [Q | Q]; fold m in Q; [left; apply exp_increasing; lra | rewrite Q; lra]. }
  assert (P2 : - ln (wavg w L (fun x => exp (- x))) <= mu).
  { assert (Q : -1 * mu <= ln (wavg w L (fun x => exp (- x)))); [| lra]. rewrite <- (ln_exp (-1 * mu)). apply ln_mono; [apply exp_pos | exact J2]. }
  repeat split; try assumption; [| | lra]; destruct (Rlt_dec _ 30); try discriminate; injection H0 as <-.
  - rewrite <- (ln_exp mu). apply ln_mono; [apply exp_pos |]. now rewrite Rmult_1_l in J1.
  - rewrite <- (ln_exp (maxR L)). apply ln_mono; [eapply Rlt_le_trans; [apply exp_pos | exact J1] |]. rewrite <- (wavg_const w L (exp (maxR L)) G). apply wavg_le; [exact G |]. intros x I. destruct (Rle_lt_or_eq_dec _ _ (maxR_ge L x I)) as [Q | Q]; [left; now apply exp_increasing | rewrite Q; lra].
Qed.
(** C138: the complexity vanishes only when all samples with weight are best fits. *)
Lemma Sm_zero_all n f : (forall i, (i < n)%nat -> 0 <= f i) -> Sm n f = 0 -> forall i, (i < n)%nat -> f i = 0.
Proof.
  induction n as [| n IH]; intros P Z i I; [lia |]. rewrite Sm_S in Z. pose proof (Sm_nonneg n f ltac:(intros; apply P; lia)). pose proof (P n ltac:(lia)). destruct (Nat.eq_dec i n) as [-> | N]; [lra |]. apply IH; [intros; apply P; lia | lra | lia].
Qed.
Theorem C138_complexity w L ps ix c1 c2 s : good w L -> setLikeStats w L ps ix c1 c2 = Ok s -> (complexity s = 0 <-> forall i, (i < length L)%nat -> 0 < nth i w 0 -> nth i L 0 = logLike_sample s).
Proof.
  intros G H. destruct (stats_inv _ _ _ _ _ _ _ G H) as (ls & -> & F). pose proof (good_nonempty _ _ G) as NE. cbn [summary complexity logLike_sample]. set (m := nth (argminR L) L 0). pose proof G as (E & _ & N).
  assert (D : wavg w L (fun x => x) - m = Sm (length L) (fun i => nth i w 0 * (nth i L 0 - m)) / sumR w).
  { transitivity (wavg w L (fun x => - m + 1 * x)); [rewrite (wavg_affine w L (fun x => x)) by exact G; ring |]. unfold wavg. f_equal. apply Sm_ext. intros; ring. }
  assert (P : forall i, (i < length L)%nat -> 0 <= nth i w 0 * (nth i L 0 - m)).
  { intros i I. apply Rmult_le_pos; [apply (good_nth w L i G) |]. pose proof (best_in L (nth i L 0) NE (nth_In _ _ I)). fold m in H0. lra. }
  rewrite D. split.
  - intros Z i I W. assert (Z' : Sm (length L) (fun i => nth i w 0 * (nth i L 0 - m)) = 0). { apply Rmult_eq_reg_r with (/ sumR w); [| apply Rinv_neq_0_compat; lra]. unfold Rdiv in Z. lra. }
    pose proof (Sm_zero_all _ _ P Z' i I) as Q. cbv beta in Q. apply Rmult_integral in Q. lra.
  - intro A. rewrite (Sm_ext (length L) _ (fun _ => 0)), Sm_zero by (intros i I; destruct (Rle_lt_or_eq_dec _ _ (good_nth w L i G)) as [W | W]; [rewrite (A i I W); ring | rewrite <- W; ring]). unfold Rdiv. ring.
Qed.
(** C138: a constant added to all values is added to all averages and changes nothing else. *)
Definition shift_stats (c : R) (s : stats) : stats := mkStats (logLike_sample s + c) (option_map (fun v => v + c) (logMeanInvLike s)) (meanLogLike s + c) (logMeanLike s + c) (complexity s) (ND_cont1 s) (ND_cont2 s) (lims s).
Lemma argmin_from_shift c l : forall b a i, argmin_from (b + c) a i (map (fun x => x + c) l) = argmin_from b a i l.
Proof. induction l as [| x l IH]; intros; cbn [argmin_from map]; [reflexivity |]. destruct (Rlt_dec (x + c) (b + c)), (Rlt_dec x b); try (exfalso; lra); apply IH. Qed.
Lemma maxR_shift c l : l <> [] -> maxR (map (fun x => x + c) l) = maxR l + c.
Proof.
  intro NE. apply Rle_antisym.
  - assert (I : In (maxR (map (fun x => x + c) l)) (map (fun x => x + c) l)) by (apply maxR_attained; destruct l; [congruence | discriminate]). apply in_map_iff in I. destruct I as (x & <- & I). pose proof (maxR_ge l x I). lra.
  - apply maxR_ge. apply (in_map (fun x => x + c)). now apply maxR_attained.
Qed.
Theorem C138_shift w L ps ix c1 c2 s c : good w L -> setLikeStats w L ps ix c1 c2 = Ok s -> setLikeStats w (map (fun x => x + c) L) ps ix c1 c2 = Ok (shift_stats c s).
Proof.
  intros G H. pose proof (good_nonempty _ _ G) as NE. assert (G' : good w (map (fun x => x + c) L)) by (destruct G as (A & B & C); repeat split; [now rewrite map_length | exact B | exact C]).
  assert (AM : argminR (map (fun x => x + c) L) = argminR L) by (destruct L; [reflexivity | apply argmin_from_shift]).
  assert (M : nth (argminR L) (map (fun x => x + c) L) 0 = nth (argminR L) L 0 + c).
  { destruct (argminR_spec L NE) as (A & _ & _). rewrite nth_indep with (d' := 0 + c) by (now rewrite map_length). apply (map_nth (fun x => x + c)). }
  destruct (stats_inv _ _ _ _ _ _ _ G H) as (ls & -> & F). apply mapR_spec in F. rewrite (stats_summary _ _ _ _ _ _ G'), AM, F. cbn [bindR]. f_equal. unfold summary, shift_stats. cbv zeta. cbn [logLike_sample logMeanInvLike meanLogLike logMeanLike complexity ND_cont1 ND_cont2 lims]. rewrite AM, M, maxR_shift by exact NE.
  assert (K1 : wavg w (map (fun x => x + c) L) (fun x => x) = wavg w L (fun x => x) + c) by (rewrite wavg_map, (wavg_ext w L _ (fun x => c + 1 * x)) by (intro; ring); rewrite (wavg_affine w L (fun x => x)) by exact G; ring).
  assert (K2 : ln (wavg w (map (fun x => x + c) L) exp) = ln (wavg w L exp) + c).
  { rewrite wavg_map, (wavg_ext w L _ (fun x => exp (1 * (x - - c)))) by (intro; f_equal; ring). rewrite ln_scaled by exact G. rewrite (wavg_ext w L (fun x => exp (1 * x)) exp) by (intro; f_equal; ring). ring. }
  assert (K3 : ln (wavg w (map (fun x => x + c) L) (fun x => exp (- x))) = ln (wavg w L (fun x => exp (- x))) - c).
  { rewrite wavg_map, (wavg_ext w L _ (fun x => exp (-1 * (x - - c)))) by (intro; f_equal; ring). rewrite ln_scaled by exact G. rewrite (wavg_ext w L (fun x => exp (-1 * x)) (fun x => exp (- x))) by (intro; f_equal; ring). ring. }
  rewrite K1, K2, K3. replace (maxR L + c - (nth (argminR L) L 0 + c)) with (maxR L - nth (argminR L) L 0) by ring. f_equal; [destruct (Rlt_dec _ 30); reflexivity | ring | ring].
Qed.
(** C138: the unit of weight does not matter. *)
Theorem C138_scale w L ps ix c1 c2 k : good w L -> 0 < k -> setLikeStats (map (fun x => k * x) w) L ps ix c1 c2 = setLikeStats w L ps ix c1 c2.
Proof.
  intros G K. pose proof G as (_ & _ & N). assert (N' : get_norm w <> 0) by (unfold get_norm; lra). unfold setLikeStats. destruct L as [| x0 l0] eqn:EL; [reflexivity |]. rewrite <- EL in *. cbv zeta. rewrite !(mean_scal k w) by (assumption || lra). rewrite dot_scal, norm_scal, div_scal by (assumption || lra).
  rewrite take_scale. rewrite !Rmult_assoc.
  assert (S : forall t, searchsortedR (cumsumR 0 (map (fun x => k * x) (take ix w))) (k * t) = searchsortedR (cumsumR 0 (take ix w)) t) by (intro t; replace 0 with (k * 0) at 1 by ring; rewrite cumsum_scale; now apply search_scale).
  rewrite !S. reflexivity.
Qed.

(** ** The regions of N dimensions *)
Lemma sorts_length (L : list R) ix : sorts L ix -> length ix = length L.
Proof. intros (P & _). now rewrite (Permutation_length P), seq_length. Qed.
Lemma in_firstn {A} (d : A) n l x : In x (firstn n l) -> exists a, (a < n)%nat /\ (a < length l)%nat /\ nth a l d = x.
Proof.
  revert l. induction n as [| n IH]; intros [| y l]; cbn [firstn]; [intros [] | intros [] | intros [] |]. intros [E | I]; [exists 0%nat; cbn; repeat split; [lia | lia | exact E] |]. destruct (IH l I) as (a & A1 & B & C). exists (S a). cbn. repeat split; [lia | lia | exact C].
Qed.
Lemma nth_in_firstn {A} (d : A) n l a : (a < n)%nat -> (a < length l)%nat -> In (nth a l d) (firstn n l).
Proof. revert l a. induction n as [| n IH]; intros [| y l] a A1 B; cbn in B; try lia. destruct a; [now left |]. cbn [firstn nth]. right. apply IH; lia. Qed.
(** C138: a region is made of the samples with smallest values, weighs less than its fraction of the total, and would not with one more sample; regions are nested. *)
Lemma region_one w L ix c n : good w L -> sorts L ix -> 0 < c <= 1 -> n = searchsortedR (cumsumR 0 (take ix w)) (sumR w * c) ->
  (n < length L)%nat /\ weight_of w (firstn n ix) < c * sumR w <= weight_of w (firstn (S n) ix) /\ forall a b, In a (firstn n ix) -> (b < length L)%nat -> ~ In b (firstn n ix) -> nth a L 0 <= nth b L 0.
Proof.
  intros G S C E. pose proof G as (EL & _ & N). pose proof (sorts_length L ix S) as LE. destruct (region_weight w ix (sumR w * c) n E) as (A & B & Q); [apply Rmult_lt_0_compat; lra |].
  assert (NL : (n < length ix)%nat).
  { destruct (Nat.lt_ge_cases n (length ix)) as [T | T]; [exact T |]. rewrite firstn_all2, (weight_all w L ix EL (proj1 S)) in A by lia. assert (sumR w * c <= sumR w * 1) by (apply Rmult_le_compat_l; lra). lra. }
  specialize (B NL). split; [lia |]. split; [lra |]. intros a b IA LB NB. destruct (in_firstn 0%nat _ _ _ IA) as (i & I1 & I2 & <-).
  assert (IB : In b ix) by (apply (Permutation_in b (Permutation_sym (proj1 S))), in_seq; lia). destruct (In_nth _ _ 0%nat IB) as (j & J & <-). apply (proj2 S). destruct (Nat.lt_ge_cases j n) as [T | T]; [elim NB; now apply nth_in_firstn | lia].
Qed.
Theorem C138_region w L ps ix c1 c2 s : good w L -> sorts L ix -> 0 < c1 <= 1 -> 0 < c2 <= 1 -> setLikeStats w L ps ix c1 c2 = Ok s ->
  let ok c n := weight_of w (firstn n ix) < c * sumR w <= weight_of w (firstn (S n) ix) /\ forall a b, In a (firstn n ix) -> (b < length L)%nat -> ~ In b (firstn n ix) -> nth a L 0 <= nth b L 0 in
  ok c1 (ND_cont1 s) /\ ok c2 (ND_cont2 s) /\ (c1 <= c2 -> (ND_cont1 s <= ND_cont2 s)%nat).
Proof.
  intros G S C1 C2 H. destruct (stats_inv _ _ _ _ _ _ _ G H) as (ls & -> & F). cbv zeta. cbn [summary ND_cont1 ND_cont2]. pose proof G as (_ & _ & N). split; [exact (proj2 (region_one w L ix c1 _ G S C1 eq_refl)) |]. split; [exact (proj2 (region_one w L ix c2 _ G S C2 eq_refl)) |]. intro C. apply search_mono, Rmult_le_compat_l; lra.
Qed.
(** C138: limits are the extreme values in the regions, those of the second contain those of the first, and a best fit with no equal lies between. *)
Definition spans (p : list R) (ix : list nat) (n : nat) (b t : R) : Prop :=
  (exists i, In i (firstn n ix) /\ nth i p 0 = b) /\ (exists i, In i (firstn n ix) /\ nth i p 0 = t) /\ forall i, In i (firstn n ix) -> b <= nth i p 0 <= t.
Lemma spans_ok p ix n : firstn n ix <> [] -> spans p ix n (minR (take (firstn n ix) p)) (maxR (take (firstn n ix) p)).
Proof.
  intro NE. assert (NE' : take (firstn n ix) p <> []) by (unfold take; destruct (firstn n ix); [congruence | discriminate]). repeat split.
  - pose proof (minR_attained _ NE') as I. unfold take in I at 2. apply in_map_iff in I. destruct I as (i & E & I). exists i. split; [exact I | exact E].
  - pose proof (maxR_attained _ NE') as I. unfold take in I at 2. apply in_map_iff in I. destruct I as (i & E & I). exists i. split; [exact I | exact E].
  - apply minR_le. unfold take. apply (in_map (fun i => nth i p 0)). assumption.
  - apply maxR_ge. unfold take. apply (in_map (fun i => nth i p 0)). assumption.
Qed.
Theorem C138_limits w L ps ix c1 c2 s : good w L -> sorts L ix -> 0 < c1 <= c2 -> setLikeStats w L ps ix c1 c2 = Ok s ->
  Forall2 (fun p l => spans p ix (ND_cont1 s) (bot1 l) (top1 l) /\ spans p ix (ND_cont2 s) (bot2 l) (top2 l) /\ bot2 l <= bot1 l <= top1 l /\ top1 l <= top2 l /\
    ((forall i, (i < length L)%nat -> nth i L 0 = logLike_sample s -> i = argminR L) -> bot1 l <= bestfit l <= top1 l)) ps (lims s).
Proof.
  intros G S C H. pose proof (good_nonempty _ _ G) as NE. destruct (stats_inv _ _ _ _ _ _ _ G H) as (ls & -> & F). cbn [summary ND_cont1 ND_cont2 lims logLike_sample]. pose proof G as (_ & _ & N).
  assert (MN : (searchsortedR (cumsumR 0 (take ix w)) (sumR w * c1) <= searchsortedR (cumsumR 0 (take ix w)) (sumR w * c2))%nat) by (apply search_mono, Rmult_le_compat_l; lra).
  revert MN F. generalize (searchsortedR (cumsumR 0 (take ix w)) (sumR w * c1)), (searchsortedR (cumsumR 0 (take ix w)) (sumR w * c2)). intros n1 n2 MN F. clear H. induction F as [| p l ps ls P F IH]; constructor; [| exact IH]. apply par_ok in P. destruct P as (N1 & N2 & ->). cbn [bot1 bot2 top1 top2 bestfit].
  pose proof (spans_ok p ix n1 N1) as S1. pose proof (spans_ok p ix n2 N2) as S2. split; [exact S1 |]. split; [exact S2 |].
  assert (sub : forall i, In i (firstn n1 ix) -> In i (firstn n2 ix)). { intros i I. destruct (in_firstn 0%nat _ _ _ I) as (a & A1 & A2 & <-). apply nth_in_firstn; lia. }
  destruct S1 as ((i & I & EI) & (j & J & EJ) & A1). destruct S2 as (_ & _ & A2). pose proof (A1 i I). pose proof (A2 i (sub i I)). pose proof (A2 j (sub j J)). repeat split; try lra; apply A1.
  all: destruct (argminR_spec L NE) as (K1 & K2 & _).
  all: assert (Z : (0 < n1)%nat) by (destruct n1; [elim N1; reflexivity | lia]); assert (LX : (0 < length ix)%nat) by (destruct ix; [elim N1; now destruct n1 | cbn; lia]).
  all: assert (E0 : nth 0 ix 0%nat = argminR L).
  all: try (apply H2; [assert (Y : In (nth 0 ix 0%nat) (seq 0 (length L))) by (apply (Permutation_in _ (proj1 S)), nth_In, LX); apply in_seq in Y; lia |]).
  all: try (assert (IB : In (argminR L) ix) by (apply (Permutation_in _ (Permutation_sym (proj1 S))), in_seq; lia); destruct (In_nth _ _ 0%nat IB) as (b & B & EB); rewrite (sorts_length L ix S) in B, LX; apply Rle_antisym; [rewrite <- EB; apply (proj2 S); lia | apply K2; assert (Y : In (nth 0 ix 0%nat) (seq 0 (length L))) by (apply (Permutation_in _ (proj1 S)), nth_In; rewrite (sorts_length L ix S); lia); apply in_seq in Y; lia]).
  all: rewrite <- E0; apply nth_in_firstn; lia.
Qed.
(** C138: statistics exist exactly when the best sample weighs less than both fractions of the total. *)
Theorem C138_defined w L p ps ix c1 c2 : good w L -> sorts L ix -> 0 < c1 -> 0 < c2 ->
  ((exists s, setLikeStats w L (p :: ps) ix c1 c2 = Ok s) <-> nth (nth 0 ix 0%nat) w 0 < c1 * sumR w /\ nth (nth 0 ix 0%nat) w 0 < c2 * sumR w) /\
  ((exists s, setLikeStats w L (p :: ps) ix c1 c2 = Ok s) \/ setLikeStats w L (p :: ps) ix c1 c2 = Err ValueError).
Proof.
  intros G SO C1 C2. pose proof (good_nonempty _ _ G) as NE. rewrite (stats_summary w L _ ix c1 c2 G). pose proof (sorts_length L ix SO) as LE. destruct ix as [| i0 ix]; [destruct L; [congruence | discriminate LE] |]. cbn [nth].
  change (take (i0 :: ix) w) with (nth i0 w 0 :: take ix w). cbn [cumsumR searchsortedR]. rewrite Rplus_0_l. set (a := nth i0 w 0).
  assert (X1 : sumR w * c1 = c1 * sumR w) by ring. assert (X2 : sumR w * c2 = c2 * sumR w) by ring. rewrite X1, X2.
  assert (all : forall n1 n2 b l, exists r, mapR (par_limits (i0 :: ix) (S n1) (S n2) b) l = Ok r).
  { intros n1 n2 b l. induction l as [| q l (r & E)]; [now exists [] |]. cbn [mapR]. assert (Q : exists y, par_limits (i0 :: ix) (S n1) (S n2) b q = Ok y) by (eexists; apply par_ok; repeat split; discriminate). destruct Q as (y & ->). rewrite E. now eexists. }
  destruct (Rlt_dec a (c1 * sumR w)) as [D1 | D1].
  - destruct (Rlt_dec a (c2 * sumR w)) as [D2 | D2].
    + destruct (all (searchsortedR (cumsumR a (take ix w)) (c1 * sumR w)) (searchsortedR (cumsumR a (take ix w)) (c2 * sumR w)) (argminR L) (p :: ps)) as (r & ->). cbn [bindR]. split; [split; [tauto | intros _; now eexists] | left; now eexists].
    + cbn [mapR]. unfold par_limits. cbn [firstn take map minE bindR]. split; [split; [intros (s & Q); discriminate Q | tauto] | now right].
  - cbn [mapR]. unfold par_limits. cbn [firstn take map minE bindR]. split; [split; [intros (s & Q); discriminate Q | tauto] | now right].
Qed.

(** FINDING (C138): the region for a fraction never holds that fraction of the weight, since searchsorted gives the number of samples before the one that completes it. *)
Theorem C138_content_refuted w L ps ix c1 c2 s : good w L -> sorts L ix -> 0 < c1 <= 1 -> 0 < c2 <= 1 -> setLikeStats w L ps ix c1 c2 = Ok s ->
  ~ c1 * sumR w <= weight_of w (firstn (ND_cont1 s) ix) /\ ~ c2 * sumR w <= weight_of w (firstn (ND_cont2 s) ix).
Proof. intros G S C1 C2 H. destruct (C138_region _ _ _ _ _ _ _ G S C1 C2 H) as ((A & _) & (B & _) & _). lra. Qed.
(** three samples of equal weight *)
Lemma ex_good : good [1; 1; 1] [5; 4; 7].
Proof. repeat split; [intros x [<- | [<- | [<- | []]]]; lra | cbn; lra]. Qed.
Lemma ex_sorts : sorts [5; 4; 7] [1; 0; 2]%nat.
Proof.
  split; [apply perm_swap |]. intros a b (H & I). cbn [length] in I. assert (C : (a = 0 \/ a = 1 \/ a = 2)%nat) by lia. assert (D : (b = 0 \/ b = 1 \/ b = 2)%nat) by lia.
  destruct C as [-> | [-> | ->]], D as [-> | [-> | ->]]; try lia; cbn; lra.
Qed.
Example C138_ex : good [1; 1; 1] [5; 4; 7] /\ sorts [5; 4; 7] [1; 0; 2]%nat /\ exists s, setLikeStats [1; 1; 1] [5; 4; 7] [[10; 20; 30]] [1; 0; 2]%nat (68 / 100) (95 / 100) = Ok s /\
  logLike_sample s = 4 /\ meanLogLike s = 16 / 3 /\ complexity s = 8 / 3 /\ ND_cont1 s = 2%nat /\ ND_cont2 s = 2%nat /\ (exists v, logMeanInvLike s = Some v) /\ lims s = [mkLim 10 10 20 20 20].
Proof.
  split; [exact ex_good |]. split; [exact ex_sorts |].
  assert (A : argminR [5; 4; 7] = 1%nat) by (cbn [argminR argmin_from]; destruct (Rlt_dec 4 5); [| exfalso; lra]; destruct (Rlt_dec 7 4); [exfalso; lra | reflexivity]).
  assert (N : forall c, 2 < 3 * c <= 3 -> searchsortedR (cumsumR 0 (take [1; 0; 2]%nat [1; 1; 1])) (sumR [1; 1; 1] * c) = 2%nat).
  { intros c C. cbn [take map nth cumsumR searchsortedR sumR fold_right]. destruct (Rlt_dec (0 + 1) _) as [D | D]; [| exfalso; apply D; lra]. destruct (Rlt_dec (0 + 1 + 1) _) as [D' | D']; [| exfalso; apply D'; lra]. destruct (Rlt_dec (0 + 1 + 1 + 1) _) as [D'' | D'']; [exfalso; lra | reflexivity]. }
  assert (W : wavg [1; 1; 1] [5; 4; 7] (fun x => x) = 16 / 3) by (unfold wavg; cbn [length Sm seq map nth sumR fold_right]; unfold Sm; cbn [seq map nth sumR fold_right]; lra).
  assert (M1 : Rmin 20 10 = 10) by (unfold Rmin; destruct (Rle_dec 20 10); lra). assert (M2 : Rmax 20 10 = 20) by (unfold Rmax; destruct (Rle_dec 20 10); lra).
  assert (M3 : Rmax (Rmax 5 4) 7 = 7) by (unfold Rmax; destruct (Rle_dec 5 4); [exfalso; lra |]; destruct (Rle_dec 5 7); lra).
  rewrite (stats_summary _ _ _ _ _ _ ex_good), A, !N by lra. cbn [mapR]. unfold par_limits. cbn [firstn take map nth minE maxE minR maxR fold_left bindR]. rewrite M1, M2. eexists. split; [reflexivity |]. cbn [summary logLike_sample meanLogLike complexity ND_cont1 ND_cont2 logMeanInvLike lims]. rewrite A, !N, W by lra. cbn [nth]. repeat split; try lra.
  cbn [maxR fold_left]. rewrite M3. destruct (Rlt_dec (7 - 4) 30) as [D | D]; [now eexists | exfalso; apply D; lra].
Qed.
(** FINDING (C138): with the default fractions and one sample of large weight no statistics come out, since np.min of no samples raises. *)
Theorem C138_error_refuted : good [7; 1] [4; 5] /\ sorts [4; 5] [0; 1]%nat /\ setLikeStats [7; 1] [4; 5] [[10; 20]] [0; 1]%nat (68 / 100) (95 / 100) = Err ValueError.
Proof.
  assert (G : good [7; 1] [4; 5]) by (repeat split; [intros x [<- | [<- | []]]; lra | cbn; lra]).
  assert (S : sorts [4; 5] [0; 1]%nat). { split; [apply Permutation_refl |]. intros a b (H & I). cbn [length] in I. assert (C : (a = 0 \/ a = 1)%nat) by lia. assert (D : (b = 0 \/ b = 1)%nat) by lia. destruct C as [-> | ->], D as [-> | ->]; try lia; cbn; lra. }
  split; [exact G |]. split; [exact S |]. destruct (C138_defined [7; 1] [4; 5] [10; 20] [] [0; 1]%nat (68 / 100) (95 / 100) G S ltac:(lra) ltac:(lra)) as (D & [E | E]); [| exact E]. apply D in E. cbn in E. exfalso. lra.
Qed.
Print Assumptions C138_best.
Print Assumptions C138_means.
Print Assumptions C138_order.
Print Assumptions C138_complexity.
Print Assumptions C138_shift.
Print Assumptions C138_scale.
Print Assumptions C138_region.
Print Assumptions C138_limits.
Print Assumptions C138_defined.
Print Assumptions C138_content_refuted.
Print Assumptions C138_error_refuted.
