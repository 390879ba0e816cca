(** C137: the convergence test of Raftery and Lewis, mcsamples.py. *)
From Coq Require Import Reals ZArith QArith Lia Lra Bool.
From Verif Require Import PyStr PyBase ThinModel ThinSpec ThinProofs RaftModel RaftSpec RaftProofs.
From Coq Require Import List.
Import ListNotations.
Local Open Scope R_scope.

(** C137: the tables count what follows what, and each statistic is twice the gain of the largest log likelihood by memory of one more step. *)
Theorem C137_counts b x y z : bits b -> (x <= 1)%nat -> (y <= 1)%nat -> (z <= 1)%nat -> bincount3 b x y z = occurs3 b x y z /\ bincount2 b x y = occurs2 b x y.
Proof. intros. split; [now apply bincount3_occurs | now apply bincount2_occurs]. Qed.
Theorem C137_gain_markov t g : gain2 t g <-> g = g2_markov t.
Proof. split; [intro H; apply (gain2_unique t); [exact H | apply g2_markov_is] | intros ->; apply g2_markov_is]. Qed.
Theorem C137_gain_indep b g : bits b -> (2 <= length b)%nat -> gain1 (occurs2 b) g <-> g2_indep (length b) (bincount2 b) = Some g.
Proof.
  intros B L. set (t := bincount2 b). assert (E : g2_indep (length b) t = Some (2 * (KK1 t (kbest1 t) - KK0 t (kbest0 t)))) by (apply g2_indep_gain; [lia | now apply total2]).
  assert (G : gain1 t (2 * (KK1 t (kbest1 t) - KK0 t (kbest0 t)))) by (exists (kbest1 t), (kbest0 t); split; [apply kbest1_law |]; split; [apply kbest0_law |]; split; [apply kbest1_best |]; split; [apply kbest0_best | reflexivity]).
  apply (gain1_ext t (occurs2 b)) in G; [| intros; now apply bincount2_occurs]. rewrite E. split; [intro H; f_equal; now apply (gain1_unique (occurs2 b)) | intro H; congruence].
Qed.
Theorem C137_gain_positive t b g h : gain2 t g -> gain1 (occurs2 b) h -> 0 <= g /\ 0 <= h.
Proof.
  intros (q & p & A & B & C & D & ->) (q' & p' & A' & B' & C' & D' & ->). split.
  - destruct (LL1_LL2 t p B) as (E & L). specialize (C _ L). rewrite <- E in C. lra.
  - assert (L : klaw1 (occurs2 b) (fun _ => p')) by (destruct B' as (L & P); intros x X; split; [exact L | intros y Y N; now apply (P x y)]). specialize (C' _ L). change (KK1 (occurs2 b) (fun _ => p')) with (KK0 (occurs2 b) p') in C'. lra.
Qed.
(** the number of steps is the least after which the two-state chain stays within epsilon of equilibrium *)
Theorem C137_burn eps a b t : 0 < a <= 1 -> 0 < b <= 1 -> 0 < eps < 1 / 2 -> burn_steps eps a b = inr t ->
  (1 <= floorN (t + 1))%nat /\ forall n, settled eps a b n <-> (floorN (t + 1) <= n)%nat.
Proof.
  intros A B E H. destruct (burn_floor eps a b t A B E H) as (M & S1 & S0). split; [exact M |]. intro n. split; [| apply S1]. intro ST. destruct (Nat.le_gt_cases (floorN (t + 1)) n) as [| LT]; [assumption | exfalso]. destruct (burn_ok eps a b t A B E H) as (K & _). apply K in ST. apply S0, K. apply Rlt_le_trans with (1 := ST), le_INR. lia.
Qed.
Theorem C137_burn_defined eps a b : 0 < a <= 1 -> 0 < b <= 1 -> (exists t, burn_steps eps a b = inr t) <-> a + b <> 1 /\ a + b <> 2.
Proof.
  intros A B. unfold burn_steps. cbv zeta. destruct (Req_EM_T (a + b) 1) as [Z | N]; [split; [intros (t & H); discriminate | intros (N & _); contradiction] |]. destruct (Req_EM_T (ln (Rabs (1 - (a + b)))) 0) as [Z | N2].
  - split; [intros (t & H); discriminate |]. intros (_ & M). exfalso. assert (P : 0 < Rabs (1 - (a + b))) by (apply Rabs_pos_lt; lra). rewrite <- ln_1 in Z. apply ln_inv in Z; [| exact P | lra]. unfold Rabs in Z. destruct (Rcase_abs (1 - (a + b))); lra.
  - split; [intros _ | intros _; eexists; reflexivity]. split; [exact N |]. intro Z. apply N2. rewrite Z. replace (1 - 2) with (-1) by ring. rewrite Rabs_left by lra. replace (- -1) with 1 by ring. apply ln_1.
Qed.
Section OneChain.
Variable ws : list nat.
Variable xs : nat -> list R.
Variables conf conf2 : nat -> bool -> R.
Hypothesis HW : (0 < maxw ws)%nat.
Lemma ws_some : ws <> [].
Proof. intro E. rewrite E in HW. cbn in HW. lia. Qed.
Lemma thinned_kept f : (maxw ws <= f)%nat -> thinned ws f = Ok (kept_rows ws f).
Proof.
  intro F. unfold thinned. change (inject_Z (Z.of_nat f)) with (qn f). change (map (fun n => inject_Z (Z.of_nat n)) ws) with (map qn ws). rewrite thin_int by (try exact ws_some; lia). unfold kept_rows. assert (X : existsb (fun w => (f <? w)%nat) ws = false). { apply not_true_is_false. intro H. apply existsb_exists in H. destruct H as (w & I & L). apply Nat.ltb_lt in L. pose proof (list_max_ge _ _ I). unfold maxw in F. lia. } now rewrite X.
Qed.
Lemma kept_few f : (list_sum ws < f)%nat -> (length (kept_rows ws f) < 2)%nat.
Proof.
  intro F. unfold kept_rows. rewrite app_length. unfold every_kth. rewrite map_length, seq_length, list_sum_units, Nat.div_small by exact F. destruct (Nat.ltb (nth 0 ws 0%nat) f); cbn; lia.
Qed.
Definition short (f : nat) : Prop := (length (kept_rows ws f) < 2)%nat.
Definition fits_at (j : nat) (u : R) (f : nat) : Prop := markov_fits (kept_rows ws) (xs j) u f.
Lemma fits_model j u f : (3 <= length (kept_rows ws f))%nat -> fits_at j u f <-> g2_markov (bincount3 (binary xs j u (kept_rows ws f))) - ln (INR (length (kept_rows ws f) - 2)) * 2 < 0.
Proof.
  intro L. unfold fits_at, markov_fits. rewrite binary_flags. set (b := flags (xs j) u (kept_rows ws f)). assert (G : gain2 (occurs3 b) (g2_markov (bincount3 b))) by (apply (gain2_ext (bincount3 b)); [intros; apply bincount3_occurs; trivial; apply flags_bits | apply g2_markov_is]). split.
  - intros (_ & g & GG & LT). rewrite (gain2_unique _ _ _ G GG). lra.
  - intro H. split; [exact L |]. exists (g2_markov (bincount3 b)). split; [exact G | lra].
Qed.
Lemma markov_loop_ok j u : forall fuel s r, (maxw ws <= thin s)%nat -> markov_loop ws xs fuel j u s = Some (inl r) ->
  (thin s <= thin r)%nat /\ nburn r = nburn s /\ hardest r = hardest s /\ hardestend r = hardestend s /\ (thin r = thin s \/ ~ fits_at j u (thin r - 1)) /\
  (short (thin r) \/ (fits_at j u (thin r) /\ tran r = Some (bincount3 (binary xs j u (kept_rows ws (thin r)))))).
Proof.
  induction fuel as [| fuel IH]; intros s r F; cbn [markov_loop]; [discriminate |]. rewrite thinned_kept by exact F. destruct (Nat.ltb_spec (length (kept_rows ws (thin s))) 2) as [S2 | S2].
  - intro Q. injection Q as <-. cbn. split; [lia |]. do 4 (split; [reflexivity || (left; reflexivity) |]). left. exact S2.
  - destruct (Nat.eqb_spec (length (kept_rows ws (thin s))) 2) as [| N2]; [discriminate |]. assert (L3 : (3 <= length (kept_rows ws (thin s)))%nat) by lia. pose proof (fits_model j u (thin s) L3) as FM. destruct (Rlt_dec _ 0) as [LT | NL].
    + intro Q. injection Q as <-. cbn. split; [lia |]. do 4 (split; [reflexivity || (left; reflexivity) |]). right. split; [now apply FM | reflexivity].
    + intro Q. apply IH in Q; [| cbn; lia]. cbn [thin nburn hardest hardestend] in Q. destruct Q as (A & B & C & D & E & G). split; [lia |]. do 3 (split; [assumption |]). split; [| exact G]. destruct E as [E | E]; [| now right]. right. rewrite E. cbn [Nat.sub]. rewrite Nat.sub_0_r. intro H. apply NL. now apply FM.
Qed.
Lemma markov_loop_short j u fuel s r : (maxw ws <= thin s)%nat -> short (thin s) -> markov_loop ws xs fuel j u s = Some (inl r) -> thin r = thin s.
Proof.
  intros F S. destruct fuel as [| fuel]; cbn [markov_loop]; [discriminate |]. rewrite thinned_kept by exact F. destruct (Nat.ltb_spec (length (kept_rows ws (thin s))) 2) as [S2 | S2]; [| unfold short in S; lia]. intro Q. injection Q as <-. reflexivity.
Qed.
Lemma burn_thin j e s r : burn j e s = inl r -> thin r = thin s.
Proof.
  unfold burn. destruct (tran s) as [t |]; [| discriminate]. destruct (_ || _)%bool; [discriminate |]. destruct (burn_steps _ _ _) as [x | tmp]; [discriminate |]. cbv zeta. destruct (Nat.ltb _ _); intro Q; injection Q as <-; reflexivity.
Qed.
Lemma params_short fuel : forall js s r, (maxw ws <= thin s)%nat -> short (thin s) -> params ws xs conf fuel js s = Some (inl r) -> thin r = thin s.
Proof.
  induction js as [| (j, e) js IH]; intros s r F S; cbn [params]; [intro Q; congruence |]. unfold one. destruct (markov_loop ws xs fuel j (conf j e) s) as [[s1 | x] |] eqn:E; [| discriminate | discriminate]. pose proof (markov_loop_short _ _ _ _ _ F S E) as T1. destruct (burn j e s1) as [s2 | x] eqn:B; [| discriminate]. pose proof (burn_thin _ _ _ _ B) as T2. intro Q. apply IH in Q; [congruence | |]; rewrite T2, T1; assumption.
Qed.
(** parameter j and limit e are done with factor f and m steps *)
Definition flags_at (j : nat) (e : bool) (f : nat) : list nat := flags (xs j) (conf j e) (kept_rows ws f).
Definition steps_at (j : nat) (e : bool) (f m : nat) : Prop :=
  let b := flags_at j e f in 0 < leave0 b <= 1 /\ 0 < leave1 b <= 1 /\ forall n, settled (/ 1000) (leave0 b) (leave1 b) n <-> (m <= n)%nat.
Lemma frac_range a b : (a <> 0)%nat -> 0 < INR a / INR (b + a) <= 1.
Proof.
  intro A. assert (0 < INR a) by (apply lt_0_INR; lia). pose proof (pos_INR b). rewrite plus_INR. split; [apply Rdiv_lt_0_compat; lra |]. apply Rmult_le_reg_r with (INR b + INR a); [lra |]. unfold Rdiv. rewrite Rmult_assoc, Rinv_l by lra. lra.
Qed.
Lemma burn_done j e s r : tran s = Some (bincount3 (binary xs j (conf j e) (kept_rows ws (thin s)))) -> burn j e s = inl r ->
  exists m, steps_at j e (thin s) m /\ (1 <= m)%nat /\ thin r = thin s /\ nburn r = Nat.max (nburn s) (m * thin s) /\ (if Nat.ltb (nburn s) (m * thin s) then hardest r = Some j /\ hardestend r = e else hardest r = hardest s /\ hardestend r = hardestend s).
Proof.
  intros T. unfold burn. rewrite T. rewrite binary_flags. fold (flags_at j e (thin s)). set (b := flags_at j e (thin s)). assert (BB : bits b) by apply flags_bits. destruct (Nat.eqb_spec (sum01 (bincount3 b) 0 1) 0) as [| N1]; [discriminate |]. destruct (Nat.eqb_spec (sum01 (bincount3 b) 1 0) 0) as [| N2]; [discriminate |]. cbn [orb].
  assert (EA : alpha_of (bincount3 b) = leave0 b) by (unfold alpha_of, leave0, sum01; rewrite !bincount3_occurs by (trivial; lia); reflexivity). assert (EB : beta_of (bincount3 b) = leave1 b) by (unfold beta_of, leave1, sum01; rewrite !bincount3_occurs by (trivial; lia); reflexivity).
  assert (RA : 0 < leave0 b <= 1) by (rewrite <- EA; unfold alpha_of; now apply frac_range). assert (RB : 0 < leave1 b <= 1) by (rewrite <- EB; unfold beta_of; rewrite Nat.add_comm; now apply frac_range). rewrite EA, EB. destruct (burn_steps (/ 1000) (leave0 b) (leave1 b)) as [x | tmp] eqn:E; [discriminate |]. cbv zeta.
  destruct (C137_burn (/ 1000) (leave0 b) (leave1 b) tmp RA RB ltac:(lra) E) as (M1 & SE). intro Q. exists (floorN (tmp + 1)). split; [split; [exact RA |]; split; [exact RB | exact SE] |]. split; [exact M1 |]. destruct (Nat.ltb_spec (nburn s) (floorN (tmp + 1) * thin s)) as [LT | GE]; injection Q as <-; cbn [thin nburn hardest hardestend]; (split; [reflexivity |]; split; [lia | auto]).
Qed.
Definition done (s0 s : st) (je : nat * bool) : Prop := exists f m, (thin s0 <= f <= thin s)%nat /\ fits_at (fst je) (conf (fst je) (snd je)) f /\ steps_at (fst je) (snd je) f m /\ (m * f <= nburn s)%nat /\ (1 <= m)%nat.
Definition worst (s0 s : st) (js : list (nat * bool)) : Prop :=
  (nburn s = nburn s0 /\ hardest s = hardest s0 /\ hardestend s = hardestend s0) \/
  exists je f m, In je js /\ hardest s = Some (fst je) /\ hardestend s = snd je /\ (thin s0 <= f <= thin s)%nat /\ fits_at (fst je) (conf (fst je) (snd je)) f /\ steps_at (fst je) (snd je) f m /\ nburn s = (m * f)%nat /\ (1 <= m)%nat.
Lemma params_ok fuel : forall js s r, (maxw ws <= thin s)%nat -> params ws xs conf fuel js s = Some (inl r) ->
  (thin s <= thin r)%nat /\ (nburn s <= nburn r)%nat /\ (short (thin r) \/ ((forall je, In je js -> done s r je) /\ worst s r js /\ (thin r = thin s \/ exists je, In je js /\ ~ fits_at (fst je) (conf (fst je) (snd je)) (thin r - 1)))).
Proof.
  induction js as [| (j, e) js IH]; intros s r F; cbn [params].
  - intro Q. injection Q as <-. split; [lia |]. split; [lia |]. right. split; [intros je [] |]. split; [left; auto | now left].
  - unfold one. destruct (markov_loop ws xs fuel j (conf j e) s) as [[s1 | x] |] eqn:E; [| discriminate | discriminate]. destruct (markov_loop_ok _ _ _ _ _ F E) as (A1 & A2 & A3 & A4 & A5 & A6). destruct (burn j e s1) as [s2 | x] eqn:B; [| discriminate]. pose proof (burn_thin _ _ _ _ B) as T2. intro Q. assert (F2 : (maxw ws <= thin s2)%nat) by lia.
    destruct (IH s2 r F2 Q) as (B1 & B1n & B2). destruct A6 as [SH | (FT & TR)].
    + assert (S2 : short (thin s2)) by (now rewrite T2). rewrite (params_short fuel js s2 r F2 S2 Q). split; [lia |]. split; [| now left]. assert (nburn s1 <= nburn s2)%nat; [| lia]. clear - B. unfold burn in B. destruct (tran s1) as [t |]; [| discriminate]. destruct (_ || _)%bool; [discriminate |]. destruct (burn_steps _ _ _) as [x | tmp]; [discriminate |]. cbv zeta in B. destruct (Nat.ltb_spec (nburn s1) (floorN (tmp + 1) * thin s1)); injection B as <-; cbn [nburn]; lia.
    + destruct (burn_done j e s1 s2 TR B) as (m & ST & M1 & _ & NB & HD). split; [lia |]. split; [lia |]. destruct B2 as [SH | (D & W & R)]; [now left | right]. split; [| split].
      * intros je [<- | I]; [exists (thin s1), m; cbn [fst snd]; split; [lia |]; split; [exact FT |]; split; [exact ST |]; split; [lia | exact M1] |]. destruct (D je I) as (f & m' & G1 & G2 & G3 & G4). exists f, m'. split; [lia |]. auto.
      * destruct W as [(W1 & W2 & W3) | (je & f & m' & I & W1 & W2 & W3 & W4)]; [| right; exists je, f, m'; split; [now right |]; split; [exact W1 |]; split; [exact W2 |]; split; [lia | exact W4]].
        destruct (Nat.ltb_spec (nburn s1) (m * thin s1)) as [LT | GE]; destruct HD as (H1 & H2).
        -- right. exists (j, e), (thin s1), m. cbn [fst snd]. split; [now left |]. split; [congruence |]. split; [congruence |]. split; [lia |]. split; [exact FT |]. split; [exact ST |]. split; [lia | exact M1].
        -- left. split; [lia |]. split; congruence.
      * destruct R as [R | (je & I & R)]; [| right; exists je; split; [now right | exact R]]. destruct A5 as [A5 | A5]; [left; lia | right; exists (j, e); split; [now left |]]. cbn [fst snd]. now rewrite R, T2.
Qed.
Definition indep_at (j : nat) (u : R) (f : nat) : Prop := indep_fits (kept_rows ws) (xs j) u f.
Lemma indep_model j u f : (2 <= length (kept_rows ws f))%nat -> exists g, g2_indep (length (kept_rows ws f)) (bincount2 (binary xs j u (kept_rows ws f))) = Some g /\ (indep_at j u f <-> g - ln (INR (length (kept_rows ws f) - 1)) < 0).
Proof.
  intro L. unfold indep_at, indep_fits. rewrite binary_flags. set (b := flags (xs j) u (kept_rows ws f)). assert (LB : length b = length (kept_rows ws f)) by (unfold b, flags; apply map_length). assert (BB : bits b) by apply flags_bits. assert (E : g2_indep (length b) (bincount2 b) = Some (2 * (KK1 (bincount2 b) (kbest1 (bincount2 b)) - KK0 (bincount2 b) (kbest0 (bincount2 b))))) by (apply g2_indep_gain; [lia | now apply total2]). rewrite <- LB in *. rewrite E. eexists. split; [reflexivity |]. pose proof (proj2 (C137_gain_indep b _ BB L) E) as G. split.
  - intros (_ & g & GG & LT). rewrite (gain1_unique _ _ _ G GG). lra.
  - intro H. split; [exact L |]. eexists. split; [exact G | lra].
Qed.
Lemma indep_loop_ok j u : forall fuel f r, (maxw ws <= f)%nat -> indep_loop ws xs fuel j u f = Some r -> exists f' k, r = inl (f', k) /\ (f <= f')%nat /\ k = length (kept_rows ws f') /\ ((k < 2)%nat \/ indep_at j u f') /\ forall f'', (f <= f'' < f')%nat -> ~ indep_at j u f''.
Proof.
  induction fuel as [| fuel IH]; intros f r F; cbn [indep_loop]; [discriminate |]. rewrite thinned_kept by exact F. destruct (Nat.ltb_spec (length (kept_rows ws f)) 2) as [S2 | S2].
  - intro Q. injection Q as <-. exists f, (length (kept_rows ws f)). split; [reflexivity |]. split; [lia |]. split; [reflexivity |]. split; [now left | intros; lia].
  - destruct (indep_model j u f S2) as (g & E & M). rewrite E. destruct (Rlt_dec (g - ln (INR (length (kept_rows ws f) - 1))) 0) as [LT | NL].
    + intro Q. injection Q as <-. exists f, (length (kept_rows ws f)). split; [reflexivity |]. split; [lia |]. split; [reflexivity |]. split; [right; now apply M | intros; lia].
    + intro Q. apply IH in Q; [| lia]. destruct Q as (f' & k & -> & A & B & C & D). exists f', k. split; [reflexivity |]. split; [lia |]. split; [exact B |]. split; [exact C |]. intros f'' R. destruct (Nat.eq_dec f'' f) as [-> | NE]; [intro I; apply NL; now apply M | apply D; lia].
Qed.
(** C137: what is reported for a chain *)
Theorem C137_report fuel n old rep : raftery ws xs conf conf2 fuel n old = Some (Some rep) -> r_thin rep <> 0%nat ->
  (maxw ws <= r_markov rep <= r_thin rep)%nat /\
  (forall j e, (j < n)%nat -> exists f m, (maxw ws <= f <= r_markov rep)%nat /\ fits_at j (conf j e) f /\ steps_at j e f m /\ (m * f <= r_burn rep)%nat) /\
  (r_markov rep = maxw ws \/ exists j e, (j < n)%nat /\ ~ fits_at j (conf j e) (r_markov rep - 1)) /\
  ((0 < n)%nat -> exists j e f m, (j < n)%nat /\ (maxw ws <= f <= r_markov rep)%nat /\ fits_at j (conf j e) f /\ steps_at j e f m /\ r_burn rep = (m * f)%nat /\
     indep_at j (conf2 j e) (r_thin rep) /\ forall f', (r_markov rep <= f' < r_thin rep)%nat -> ~ indep_at j (conf2 j e) f').
Proof.
  unfold raftery. set (s0 := mkSt _ _ _ _ _ _). destruct (params ws xs conf fuel (both n) s0) as [[s | x] |] eqn:E; [| intro Q; injection Q as <-; cbn; congruence | discriminate]. destruct (params_ok fuel (both n) s0 s (le_n _) E) as (A & A' & P). cbn [thin s0] in A. cbv zeta. set (h := match hardest s with Some j => j | None => 0%nat end). destruct (indep_loop ws xs fuel h (conf2 h (hardestend s)) (thin s)) as [r |] eqn:EI; [| discriminate]. destruct (indep_loop_ok _ _ _ _ _ A EI) as (f' & k & -> & B & C & D & G). intros Q NZ. injection Q as <-. cbn [r_thin r_markov r_burn] in *. destruct (Nat.ltb_spec k 2) as [| K2]; [congruence |].
  assert (BI : forall j e, (j < n)%nat <-> In (j, e) (both n)). { intros j e. unfold both. rewrite in_flat_map. split; [intro J; exists j; split; [apply in_seq; lia | destruct e; cbn; auto] |]. intros (j' & I & H). apply in_seq in I. destruct H as [H | [H | []]]; injection H as <- <-; lia. }
  destruct D as [D | D]; [lia |]. destruct P as [SH | (DN & W & R)].
  - exfalso. destruct fuel as [| fuel]; [discriminate EI |]. cbn [indep_loop] in EI. rewrite thinned_kept in EI by exact A. destruct (Nat.ltb_spec (length (kept_rows ws (thin s))) 2) as [S2 | S2]; [injection EI as E1 E2; subst; lia | unfold short in SH; lia].
  - split; [lia |]. split; [| split].
    + intros j e J. destruct (DN (j, e) (proj1 (BI j e) J)) as (f & m & D1 & D2 & D3 & D4 & _). exists f, m. auto.
    + destruct R as [R | ((j, e) & I & R)]; [left; exact R | right; exists j, e; split; [now apply (BI j e) | exact R]].
    + intro N. destruct W as [(W1 & W2 & W3) | ((j, e) & f & m & I & W1 & W2 & W3 & W4 & W5 & W6 & W7)].
      * exfalso. cbn in W1. destruct (DN (0%nat, false) (proj1 (BI _ _) N)) as (f & m & D1 & D2 & D3 & D4 & M1). rewrite W1 in D4. assert (F1 : (1 <= f)%nat) by (cbn [thin s0] in D1; lia). pose proof (Nat.mul_le_mono 1 m 1 f M1 F1). lia.
      * exists j, e, f, m. split; [now apply (BI j e) |]. split; [exact W3 |]. split; [exact W4 |]. split; [exact W5 |]. split; [exact W6 |]. assert (HH : h = j) by (unfold h; now rewrite W1). cbn [fst snd] in W2. rewrite HH, W2 in *. split; [exact D | exact G].
Qed.
(** it always ends, within as many turns of each loop as the chain has weight, and never by the return in the middle *)
Lemma markov_loop_ends j u : forall fuel s, (maxw ws <= thin s)%nat -> (list_sum ws + 2 <= fuel + thin s)%nat -> (0 < fuel)%nat -> markov_loop ws xs fuel j u s <> None.
Proof.
  induction fuel as [| fuel IH]; intros s F L P; [lia |]. cbn [markov_loop]. rewrite thinned_kept by exact F. destruct (Nat.ltb_spec (length (kept_rows ws (thin s))) 2); [discriminate |]. destruct (Nat.eqb _ 2); [discriminate |]. destruct (Rlt_dec _ 0); [discriminate |]. apply IH; cbn [thin]; try lia. destruct fuel as [| fuel]; [| lia]. pose proof (kept_few (thin s) ltac:(lia)). lia.
Qed.
Lemma indep_loop_ends j u : forall fuel f, (maxw ws <= f)%nat -> (list_sum ws + 2 <= fuel + f)%nat -> (0 < fuel)%nat -> indep_loop ws xs fuel j u f <> None.
Proof.
  induction fuel as [| fuel IH]; intros f F L P; [lia |]. cbn [indep_loop]. rewrite thinned_kept by exact F. destruct (Nat.ltb_spec (length (kept_rows ws f)) 2) as [| S2]; [discriminate |]. destruct (g2_indep _ _); [| discriminate]. destruct (Rlt_dec _ 0); [discriminate |]. apply IH; try lia. destruct fuel as [| fuel]; [| lia]. pose proof (kept_few f ltac:(lia)). lia.
Qed.
Lemma params_ends fuel : (list_sum ws + 2 <= fuel)%nat -> forall js s, (maxw ws <= thin s)%nat -> params ws xs conf fuel js s <> None.
Proof.
  intros L. induction js as [| (j, e) js IH]; intros s F; cbn [params]; [discriminate |]. unfold one. destruct (markov_loop ws xs fuel j (conf j e) s) as [[s1 | x] |] eqn:E; [| discriminate | exfalso; apply (markov_loop_ends j (conf j e) fuel s F); trivial; lia]. destruct (burn j e s1) as [s2 | x] eqn:B; [| discriminate]. apply IH. rewrite (burn_thin _ _ _ _ B). destruct (markov_loop_ok _ _ _ _ _ F E) as (A & _). lia.
Qed.
Theorem C137_ends fuel n old : (list_sum ws + 2 <= fuel)%nat -> exists rep, raftery ws xs conf conf2 fuel n old = Some (Some rep).
Proof.
  intro L. unfold raftery. set (s0 := mkSt _ _ _ _ _ _). destruct (params ws xs conf fuel (both n) s0) as [[s | x] |] eqn:E; [| eexists; reflexivity | exfalso; exact (params_ends fuel L (both n) s0 (le_n _) E)]. destruct (params_ok fuel (both n) s0 s (le_n _) E) as (A & _). cbn [thin s0] in A. cbv zeta. set (h := match hardest s with Some j => j | None => 0%nat end). destruct (indep_loop ws xs fuel h (conf2 h (hardestend s)) (thin s)) as [r |] eqn:EI; [| exfalso; apply (indep_loop_ends h (conf2 h (hardestend s)) fuel (thin s) A); trivial; lia]. destruct (indep_loop_ok _ _ _ _ _ A EI) as (f' & k & -> & _). eexists. reflexivity.
Qed.
(** FINDING: a chain whose limits are crossed independently of where it is, which is the best that can happen, fails. *)
Theorem C137_independent_refuted fuel n old : (0 < n)%nat -> (list_sum ws + 2 <= fuel)%nat -> fits_at 0 (conf 0%nat false) (maxw ws) -> leave0 (flags_at 0 false (maxw ws)) + leave1 (flags_at 0 false (maxw ws)) = 1 ->
  raftery ws xs conf conf2 fuel n old = Some (Some (mkRep 0 0 0)).
Proof.
  intros N L F S1. unfold raftery, both. set (s0 := mkSt _ _ _ _ _ _). destruct n as [| n]; [lia |]. cbn [seq flat_map app params]. unfold one. destruct fuel as [| fuel]; [lia |]. cbn [markov_loop]. change (thin s0) with (maxw ws). rewrite thinned_kept by lia. pose proof F as (L3 & _). destruct (Nat.ltb_spec (length (kept_rows ws (maxw ws))) 2); [lia |]. destruct (Nat.eqb_spec (length (kept_rows ws (maxw ws))) 2); [lia |]. destruct (Rlt_dec _ 0) as [_ | NL]; [| exfalso; apply NL; now apply (fits_model 0 (conf 0%nat false) (maxw ws) L3)].
  unfold burn. cbn [tran]. rewrite binary_flags. fold (flags_at 0 false (maxw ws)). set (b := flags_at 0 false (maxw ws)) in *. assert (BB : bits b) by apply flags_bits. destruct (_ || _)%bool; [reflexivity |].
  assert (EA : alpha_of (bincount3 b) = leave0 b) by (unfold alpha_of, leave0, sum01; rewrite !bincount3_occurs by (trivial; lia); reflexivity). assert (EB : beta_of (bincount3 b) = leave1 b) by (unfold beta_of, leave1, sum01; rewrite !bincount3_occurs by (trivial; lia); reflexivity). rewrite EA, EB. unfold burn_steps. cbv zeta. destruct (Req_EM_T (leave0 b + leave1 b) 1) as [_ | X]; [reflexivity | contradiction].
Qed.
End OneChain.
(** Examples *)
Lemma ln_pos x : 1 < x -> 0 < ln x.
Proof. intro P. rewrite <- ln_1. apply ln_increasing; lra. Qed.
Definition ex_ws : list nat := [1; 1; 1; 1; 1]%nat.
Definition ex_xs (j : nat) : list R := [1; 1; 1; 0; 1].
Definition ex_conf (j : nat) (e : bool) : R := 1 / 2.
Lemma ex_binary j u : 0 < u <= 1 -> binary ex_xs j u [0; 1; 2; 3; 4]%nat = [0; 0; 0; 1; 0]%nat.
Proof. intro U. unfold binary, binchain, ex_xs. cbn [map nth]. destruct (Rle_dec u 1); [| lra]. destruct (Rle_dec u 0); [lra | reflexivity]. Qed.
Lemma ex_g2 : g2_markov (bincount3 [0; 0; 0; 1; 0]%nat) = 0.
Proof.
  cbv -[INR ln Rplus Rmult Rdiv Rminus Ropp IZR]. change (INR 1) with 1. change (INR 2) with (1 + 1). replace (1 / ((1 + 1) / (1 + 1))) with 1 by field. replace (1 / (1 / 1)) with 1 by field. rewrite ln_1. ring.
Qed.
Lemma ex_g1 : exists g, g2_indep 5 (bincount2 [0; 0; 0; 1; 0]%nat) = Some g /\ g < ln (INR 4).
Proof.
  pose proof (g2_indep_gain (bincount2 [0; 0; 0; 1; 0]%nat) 5 ltac:(lia) eq_refl) as E. eexists. split; [exact E |]. rewrite <- (Rplus_0_r (ln _)). unfold KK1, KK0, two, kbest1, kbest0, freq, xl. cbv -[INR ln Rplus Rmult Rdiv Rminus Ropp IZR Rlt]. replace (INR 1) with 1 by reflexivity. replace (INR 2) with 2 by (cbn; lra). replace (INR 3) with 3 by (cbn; lra). replace (INR 4) with 4 by (cbn; lra). replace (1 / 1) with 1 by field. rewrite ln_1.
  assert (A : ln (2 / 3) = ln 2 - ln 3) by (unfold Rdiv; rewrite ln_mult, ln_Rinv; lra). assert (B : ln (1 / 3) = - ln 3) by (unfold Rdiv; rewrite Rmult_1_l, ln_Rinv; lra). assert (C : ln (3 / 4) = ln 3 - ln 4) by (unfold Rdiv; rewrite ln_mult, ln_Rinv; lra). assert (D : ln (1 / 4) = - ln 4) by (unfold Rdiv; rewrite Rmult_1_l, ln_Rinv; lra). assert (F : ln 4 = 2 * ln 2) by (replace 4 with (2 * 2) by ring; rewrite ln_mult; lra). rewrite A, B, C, D, F.
  assert (G : 9 * ln 2 < 6 * ln 3). { assert (H : ln (8 * 8 * 8) < ln (27 * 27)) by (apply ln_increasing; lra). assert (K8 : ln 8 = 3 * ln 2) by (replace 8 with (2 * (2 * 2)) by ring; rewrite !ln_mult; lra). assert (K27 : ln 27 = 3 * ln 3) by (replace 27 with (3 * (3 * 3)) by ring; rewrite !ln_mult; lra). rewrite !ln_mult in H by lra. lra. } lra.
Qed.
Lemma ex_leave : alpha_of (bincount3 [0; 0; 0; 1; 0]%nat) = 1 / 2 /\ beta_of (bincount3 [0; 0; 0; 1; 0]%nat) = 1.
Proof. cbv -[INR Rdiv Rplus Rmult IZR]. change (INR 1) with 1. change (INR 2) with (1 + 1). split; field. Qed.
Lemma ex_burn : exists t, burn_steps (/ 1000) (1 / 2) 1 = inr t /\ floorN (t + 1) = 10%nat.
Proof.
  destruct (proj2 (C137_burn_defined (/ 1000) (1 / 2) 1 ltac:(lra) ltac:(lra)) ltac:(split; lra)) as (t & E). exists t. split; [exact E |]. destruct (C137_burn (/ 1000) (1 / 2) 1 t ltac:(lra) ltac:(lra) ltac:(lra) E) as (_ & S).
  assert (P2 : forall n, (/ 2) ^ n = / 2 ^ n) by (intro n; now rewrite <- Rinv_pow by lra).
  assert (EQ : forall p n, Rabs (evolve (1 / 2) 1 p n - 1 / (1 / 2 + 1)) = (/ 2) ^ n * Rabs (p - 2 / 3)). { intros p n. rewrite evolve_eq by lra. rewrite Rabs_mult, <- RPow_abs. replace (1 / (1 / 2 + 1)) with (2 / 3) by field. replace (Rabs (1 - (1 / 2 + 1))) with (/ 2) by (unfold Rabs; destruct (Rcase_abs (1 - (1 / 2 + 1))); lra). reflexivity. }
  apply Nat.le_antisymm.
  - apply S. intros p P. rewrite EQ. apply Rle_lt_trans with ((/ 2) ^ 10 * (2 / 3)); [| rewrite P2; cbn [pow]; lra]. apply Rmult_le_compat_l; [apply pow_le; lra |]. apply Rabs_le. lra.
  - destruct (Nat.le_gt_cases 10 (floorN (t + 1))) as [| LT]; [assumption | exfalso]. assert (S9 : settled (/ 1000) (1 / 2) 1 9) by (apply S; lia). specialize (S9 0 ltac:(lra)). rewrite EQ in S9. rewrite Rminus_0_l, Rabs_Ropp, (Rabs_pos_eq (2 / 3)) in S9 by lra. rewrite P2 in S9. cbn [pow] in S9. lra.
Qed.
Example C137_ex old : raftery ex_ws ex_xs ex_conf ex_conf 7 1 old = Some (Some (mkRep 1 1 10)).
Proof.
  assert (HW : (0 < maxw ex_ws)%nat) by (cbn; lia). assert (KR : kept_rows ex_ws 1 = [0; 1; 2; 3; 4]%nat) by reflexivity. assert (TH : thinned ex_ws 1 = Ok [0; 1; 2; 3; 4]%nat) by (rewrite thinned_kept by (trivial; cbn; lia); now rewrite KR).
  destruct ex_leave as (EA & EB). destruct ex_burn as (t & ET & EF). pose proof (ln_pos 3 ltac:(lra)) as L3. assert (I3 : INR 3 = 3) by (cbn; lra). set (tb := bincount3 [0; 0; 0; 1; 0]%nat) in *.
  assert (O : forall e r tt0 b h he, one ex_ws ex_xs ex_conf 7 0 e (mkSt 1 r tt0 b h he) = Some (inl (if Nat.ltb b 10 then mkSt 1 5 (Some tb) 10 (Some 0%nat) e else mkSt 1 5 (Some tb) b h he))).
  { intros. unfold one, ex_conf. assert (ML : markov_loop ex_ws ex_xs 7 0 (1 / 2) (mkSt 1 r tt0 b h he) = Some (inl (mkSt 1 5 (Some tb) b h he))). { cbn [markov_loop thin]. rewrite TH. cbn [length Nat.ltb Nat.leb Nat.eqb Nat.sub nburn hardest hardestend]. rewrite ex_binary by lra. rewrite ex_g2, I3. destruct (Rlt_dec (0 - ln 3 * 2) 0) as [_ | X]; [reflexivity | lra]. }
    rewrite ML. unfold burn. cbn [tran thin nburn rows]. rewrite EA, EB, ET, EF. assert (Z1 : Nat.eqb (sum01 tb 0 1) 0 = false) by reflexivity. assert (Z2 : Nat.eqb (sum01 tb 1 0) 0 = false) by reflexivity. rewrite Z1, Z2. cbn [orb]. change (10 * 1)%nat with 10%nat. destruct (Nat.ltb b 10); reflexivity. }
  assert (PA : params ex_ws ex_xs ex_conf 7 (both 1) (mkSt 1 (rows old) (tran old) 0 (hardest old) (hardestend old)) = Some (inl (mkSt 1 5 (Some tb) 10 (Some 0%nat) false))). { unfold both. cbn [seq flat_map app]. cbn [params]. rewrite O. change (Nat.ltb 0 10) with true. cbn iota. rewrite O. reflexivity. }
  unfold raftery. change (maxw ex_ws) with 1%nat. rewrite PA. cbn [hardest hardestend thin nburn]. unfold ex_conf.
  cbn [indep_loop]. rewrite TH. cbn [length Nat.ltb Nat.leb Nat.sub]. rewrite ex_binary by lra. destruct ex_g1 as (g & EG & LG). rewrite EG. destruct (Rlt_dec (g - ln (INR 4)) 0) as [_ | X]; [reflexivity | lra].
Qed.
Definition ex_ws2 : list nat := [1; 1; 1; 1; 1; 1; 1; 1; 1; 1]%nat.
Definition ex_xs2 (j : nat) : list R := [1; 1; 1; 0; 1; 0; 0; 0; 1; 1].
Example C137_independent_ex old : raftery ex_ws2 ex_xs2 ex_conf ex_conf 12 1 old = Some (Some (mkRep 0 0 0)).
Proof.
  assert (HW : (0 < maxw ex_ws2)%nat) by (cbn; lia). change 1%nat with (maxw ex_ws2) at 1.
  assert (KR : kept_rows ex_ws2 (maxw ex_ws2) = [0; 1; 2; 3; 4; 5; 6; 7; 8; 9]%nat) by reflexivity.
  assert (FL : flags_at ex_ws2 ex_xs2 ex_conf 0 false (maxw ex_ws2) = [0; 0; 0; 1; 0; 1; 1; 1; 0; 0]%nat). { unfold flags_at. rewrite KR. unfold flags, ex_xs2, ex_conf, below. cbn [map nth]. destruct (Rlt_dec 1 (1 / 2)); [lra |]. destruct (Rlt_dec 0 (1 / 2)); [reflexivity | lra]. }
  apply C137_independent_refuted; [exact HW | cbn; lia | cbn; lia | |].
  - apply fits_model; [rewrite KR; cbn; lia |]. rewrite binary_flags. change (flags (ex_xs2 0) (ex_conf 0%nat false) (kept_rows ex_ws2 (maxw ex_ws2))) with (flags_at ex_ws2 ex_xs2 ex_conf 0 false (maxw ex_ws2)). rewrite FL, KR. assert (G : g2_markov (bincount3 [0; 0; 0; 1; 0; 1; 1; 1; 0; 0]%nat) = 0). { cbv -[INR ln Rplus Rmult Rdiv Rminus Ropp IZR]. change (INR 1) with 1. change (INR 4) with (1 + 1 + 1 + 1). replace (1 / ((1 + 1 + 1 + 1) / (1 + 1 + 1 + 1))) with 1 by field. rewrite ln_1. ring. } rewrite G. cbn [length Nat.sub]. assert (I8 : INR 8 = 8) by (cbn; lra). rewrite I8. pose proof (ln_pos 8 ltac:(lra)). lra.
  - rewrite FL. unfold leave0, leave1. cbv -[INR Rdiv Rplus Rmult IZR]. change (INR 2) with (1 + 1). change (INR 4) with (1 + 1 + 1 + 1). field.
Qed.
Print Assumptions C137_counts. Print Assumptions C137_gain_markov. Print Assumptions C137_gain_indep. Print Assumptions C137_gain_positive. Print Assumptions C137_burn. Print Assumptions C137_burn_defined. Print Assumptions C137_report. Print Assumptions C137_ends. Print Assumptions C137_independent_refuted.
