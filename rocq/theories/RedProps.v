(** C110: the redshifts at which power spectra are computed (source/CosmologyTypes.f90) *)
From Coq Require Import Reals List Bool ZArith Arith Lia Lra Permutation.
From Verif Require Import PyBase SortModel SortSpec SortProofs SortProps RedModel RedSpec RedProofs.
Import ListNotations.
Local Open Scope R_scope.

Lemma gt0_true x : gt0 x = true <-> 0 < x.
Proof. unfold gt0. destruct (Rlt_dec 0 x); split; intro H; try congruence; tauto. Qed.
Lemma gt0_false x : gt0 x = false <-> x <= 0.
Proof. unfold gt0. destruct (Rlt_dec 0 x); split; intro H; try congruence; lra. Qed.
Lemma ceiling_at x : IZR (ceiling x) - 1 < x <= IZR (ceiling x).
Proof. unfold ceiling. destruct (base_Int_part (- x)) as [B1 B2]. rewrite opp_IZR. lra. Qed.
Lemma ln_pos m : 0 < m -> 0 < ln (m + 1).
Proof. intro H. rewrite <- ln_1. apply ln_increasing; lra. Qed.
Lemma steps_pos a : 0 < maxz a -> 0 < dlnz a -> (1 <= steps a)%Z.
Proof.
  intros H1 H2. unfold steps. pose proof (ceiling_at (ln (maxz a + 1) / dlnz a)) as C.
  assert (0 < ln (maxz a + 1) / dlnz a) by (apply Rdiv_lt_0_compat; [now apply ln_pos | exact H2]).
  assert (0 < IZR (ceiling (ln (maxz a + 1) / dlnz a))) by lra. apply lt_IZR in H0. lia.
Qed.
Lemma step_pos a : 0 <= maxz a -> 0 < dlnz a -> 0 < step_of a.
Proof.
  intros H1 H2. unfold step_of. destruct (gt0 (maxz a)) eqn:G; [| exact H2]. apply gt0_true in G. apply Rdiv_lt_0_compat; [now apply ln_pos |].
  pose proof (steps_pos a G H2). apply IZR_lt. lia.
Qed.
Lemma start_grid a : 0 <= maxz a -> 0 < dlnz a -> forall j g, nth_error (start a) j = Some g -> 0 <= g /\ ln (g + 1) / step_of a = INR j.
Proof.
  intros H1 H2 j g E. pose proof (step_pos a H1 H2) as SP. unfold start in E. destruct j as [| j].
  { injection E as <-. rewrite Rplus_0_l, ln_1. cbn. split; [lra |]. unfold Rdiv. ring. }
  cbn [nth_error] in E. destruct (gt0 (maxz a)) eqn:G; [| destruct j; discriminate]. pose proof G as G'. apply gt0_true in G'. pose proof (steps_pos a G' H2) as S1.
  set (n := Z.to_nat (steps a)) in *. assert (Hn : (1 <= n)%nat) by (unfold n; lia).
  destruct (le_lt_dec (n - 1) j) as [L | L].
  - rewrite nth_error_app2 in E by (rewrite map_length, seq_length; exact L). rewrite map_length, seq_length in E.
    destruct (j - (n - 1))%nat as [| k] eqn:EJ; [| destruct k; discriminate]. injection E as <-. split; [lra |]. unfold step_of. rewrite G.
    assert (IE : IZR (steps a) = INR (S j)). { replace (S j) with n by lia. unfold n. rewrite INR_IZR_INZ, Z2Nat.id by lia. reflexivity. }
    rewrite IE. pose proof (ln_pos (maxz a) G'). assert (INR (S j) <> 0) by (apply not_0_INR; lia). field. split; lra.
  - rewrite nth_error_app1 in E by (rewrite map_length, seq_length; exact L). rewrite nth_error_map in E.
    assert (ES : nth_error (seq 1 (n - 1)) j = Some (S j)).
    { clear - L. assert (Q : forall k s i, (i < k)%nat -> nth_error (seq s k) i = Some (s + i)%nat).
      { induction k as [| k IH]; intros s i Li; [lia |]. destruct i; cbn; [f_equal; lia |]. rewrite IH by lia. f_equal. lia. }
      rewrite Q by exact L. reflexivity. }
    rewrite ES in E. assert (EG : g = exp (step_of a * INR (S j)) - 1) by (cbv [option_map] in E; congruence). clear E ES. subst g. replace (exp (step_of a * INR (S j)) - 1 + 1) with (exp (step_of a * INR (S j))) by ring. rewrite ln_exp. split.
    + assert (0 < step_of a * INR (S j)) by (apply Rmult_lt_0_compat; [exact SP | apply lt_0_INR; lia]). pose proof (exp_ineq1 (step_of a * INR (S j))). lra.
    + field. lra.
Qed.

(** What a likelihood asks for *)
Definition exact_for (l : lk) : list R := if needs_ps l && needs_exact l then exact_z l else [].
Definition range_for (l : lk) : Prop := needs_ps l = true /\ needs_exact l = false /\ ((0 < num_z l)%nat \/ needs_sigmaR l = true).
Definition sensible (l : lk) : Prop := Forall (fun z => 0 <= z) (exact_z l) /\ 0 <= max_z l /\ ((2 < num_z l)%nat -> 0 < max_z l).

Lemma gather_ok : forall ls a b, gather a ls = Some b -> Forall sensible ls -> 0 <= maxz a -> 0 < dlnz a -> Forall (fun z => 0 <= z) (exacts a) ->
  0 <= maxz b /\ 0 < dlnz b /\ Forall (fun z => 0 <= z) (exacts b) /\ maxz a <= maxz b /\ dlnz b <= dlnz a /\
  (forall z, In z (exacts a) \/ (exists l, In l ls /\ In z (exact_for l)) -> In z (exacts b)) /\
  (forall l, In l ls -> range_for l -> max_z l <= maxz b /\ ((2 < num_z l)%nat -> dlnz b <= ln (max_z l + 1) / (INR (num_z l) - 1))).
Proof.
  induction ls as [| l ls IH]; intros a b E F H1 H2 H3.
  { injection E as <-. repeat split; try assumption; try lra; try contradiction. intros z [I | (l & [] & _)]. exact I. }
  cbn [gather] in E. destruct (gather1 a l) as [a' |] eqn:E1; [| discriminate]. inversion F as [| ? ? (S1 & S2 & S3) F']; subst.
  assert (K : 0 <= maxz a' /\ 0 < dlnz a' /\ Forall (fun z => 0 <= z) (exacts a') /\ maxz a <= maxz a' /\ dlnz a' <= dlnz a /\
    (forall z, In z (exacts a) \/ In z (exact_for l) -> In z (exacts a')) /\
    (range_for l -> max_z l <= maxz a' /\ ((2 < num_z l)%nat -> dlnz a' <= ln (max_z l + 1) / (INR (num_z l) - 1)))).
  { unfold gather1 in E1. unfold exact_for, range_for. destruct (needs_ps l); [| injection E1 as <-; cbn [andb]; split; [exact H1 |]; split; [exact H2 |]; split; [exact H3 |]; split; [lra |]; split; [lra |]; split; [intros z [I | []]; exact I | intros (Q & _); discriminate]].
    destruct (needs_exact l); cbn [orb andb] in *.
    { injection E1 as <-. cbn [maxz dlnz exacts]. repeat split; try assumption; try lra; try (now apply Forall_app); try (intros; intuition discriminate).
      intros z I. now apply in_or_app. }
    pose proof (Rmax_l (maxz a) (max_z l)) as M1. pose proof (Rmax_r (maxz a) (max_z l)) as M2.
    destruct ((0 <? num_z l)%nat || needs_sigmaR l) eqn:W.
    2: { injection E1 as <-. apply orb_false_iff in W. destruct W as [W1 W2]. apply Nat.ltb_ge in W1. repeat split; try assumption; try lra; try (intros z [I | []]; exact I);
         intros; destruct H as (_ & _ & [Q | Q]); try lia; congruence. }
    destruct ((2 <? num_z l)%nat && gt0 (Rmax (maxz a) (max_z l))) eqn:C1.
    - injection E1 as <-. cbn [maxz dlnz exacts]. apply andb_true_iff in C1. destruct C1 as [C1 C2]. apply Nat.ltb_lt in C1. specialize (S3 C1).
      assert (P : 0 < ln (max_z l + 1) / (INR (num_z l) - 1)).
      { apply Rdiv_lt_0_compat; [now apply ln_pos |]. apply lt_INR in C1. cbn in C1. lra. }
      pose proof (Rmin_l (dlnz a) (ln (max_z l + 1) / (INR (num_z l) - 1))). pose proof (Rmin_r (dlnz a) (ln (max_z l + 1) / (INR (num_z l) - 1))).
      repeat split; try assumption; try lra; try (now apply Rmin_glb_lt). intros z [I | []]; exact I.
    - destruct ((num_z l <? 2)%nat && gt0 (Rmax (maxz a) (max_z l))) eqn:C2; [discriminate |].
      destruct ((1 <? num_z l)%nat && (if Req_EM_T (Rmax (maxz a) (max_z l)) 0 then true else false)) eqn:C3; [discriminate |]. injection E1 as <-. cbn [maxz dlnz exacts].
      split; [lra |]. split; [exact H2 |]. split; [exact H3 |]. split; [exact M1 |]. split; [lra |]. split; [intros z [I | []]; exact I |]. intros _. split; [exact M2 |].
      intro L. pose proof L as L'. apply Nat.ltb_lt in L'. rewrite L' in C1. cbn [andb] in C1. apply gt0_false in C1. specialize (S3 L). lra. }
  destruct K as (K1 & K2 & K3 & K4 & K5 & K6 & K7). destruct (IH a' b E F' K1 K2 K3) as (J1 & J2 & J3 & J4 & J5 & J6 & J7).
  repeat split; try assumption; try lra.
  - intros z [I | (l' & [<- | I'] & I)]; apply J6; [left; apply K6; now left | left; apply K6; now right | right; now exists l'].
  - destruct H as [<- | I]; [destruct (K7 H0); lra | now apply J7].
  - intro L. destruct H as [<- | I]; [destruct (K7 H0) as [_ Q]; specialize (Q L); lra | now apply J7].
Qed.
Lemma increasing_rising l : increasing CompareReal l -> rising l.
Proof. induction l as [| a l IH]; cbn; [tauto |]. intros [H1 H2]. split; [| now apply IH]. intros y I. now apply CompareReal_neg, H1. Qed.
Lemma compare_zero x y : CompareReal y x = 0%Z -> y = x.
Proof. unfold CompareReal. destruct (Rlt_dec (y - x) 0); [discriminate |]. destruct (Rlt_dec 0 (y - x)); [discriminate |]. lra. Qed.
Lemma last_top : forall l d y, rising l -> In y l -> y <= last l d.
Proof.
  induction l as [| a l IH]; intros d y Hr I; [destruct I |]. destruct Hr as [H1 H2]. destruct l as [| b l]; [destruct I as [<- | []]; cbn; lra |].
  change (last (a :: b :: l) d) with (last (b :: l) d). destruct I as [<- | I]; [| now apply IH]. left. apply H1.
  clear. assert (Q : forall (l : list R) b, In (last (b :: l) d) (b :: l)). { induction l0 as [| c l0 IH]; intro b0; [now left |]. right. exact (IH c). } apply Q.
Qed.
Lemma last_app1 (l : list R) x d : last (l ++ [x]) d = x.
Proof. apply last_last. Qed.

(** The redshifts increase from 0, are at least two, hold every redshift that is asked for, and reach the largest range *)
Theorem C110_grid : forall lss outs ls zs, Initialize_PKSettings lss outs ls = Some (Some zs) -> Forall sensible ls -> Forall (fun z => 0 <= z) outs ->
  rising zs /\ hd_error zs = Some 0 /\ (2 <= length zs)%nat /\ (forall z, In z outs -> In z zs) /\
  (forall l z, In l ls -> In z (exact_for l) -> In z zs) /\
  (forall l, In l ls -> range_for l -> exists z, In z zs /\ max_z l <= z).
Proof.
  intros lss outs ls zs E F FO. unfold Initialize_PKSettings in E. destruct (gather _ ls) as [a |] eqn:EG; [| discriminate].
  destruct (use_LSS a); [| discriminate]. destruct (gather_ok ls _ a EG F) as (M & D & X & _ & _ & IX & RX); try (cbn; lra); [constructor |].
  unfold redshifts in E. cbn [exacts maxz] in E. set (b := mkAcc (maxz a) (dlnz a) (exacts a ++ outs) true) in *.
  destruct (C86_unique CompareReal (exacts a ++ outs) CompareReal_ordering) as (s & ES & INC & SUB & COV). rewrite ES in E.
  set (ez := RemoveDuplicates CompareReal s) in *.
  assert (EZ : forall z, In z (exacts a ++ outs) -> In z ez). { intros z I. destruct (COV z I) as (y & Iy & Cy). apply compare_zero in Cy. now subst. }
  assert (PZ : forall z, In z ez -> 0 <= z). { intros z I. apply SUB in I. apply in_app_or in I. rewrite Forall_forall in X, FO. destruct I; auto. }
  destruct (insert_start (step_of b) (start b) (step_pos b M D) (start_grid b M D) ez eq_refl PZ (increasing_rising _ INC)) as (I1 & I2 & I3 & I4).
  remember (fst (fold_left (insert (step_of b) (length (start b))) ez (start b, 1%nat))) as full eqn:EF. clear EF. injection E as <-.
  set (full2 := if Rlt_dec (last full 0) (maxz a) then full ++ [maxz a] else full).
  assert (K : rising full2 /\ hd_error full2 = Some 0 /\ (forall z, In z ez -> In z full2) /\ (exists z, In z full2 /\ maxz a <= z)).
  { unfold full2. destruct full as [| f0 full0]; [discriminate |]. destruct (Rlt_dec (last (f0 :: full0) 0) (maxz a)) as [L | L].
    - split; [| split; [exact I2 | split]].
      + rewrite rising_app. split; [exact I1 |]. split; [cbn; split; [intros q [] | exact I] |]. intros u v Iu [<- | []]. pose proof (last_top _ 0 u I1 Iu). lra.
      + intros z Iz. apply in_or_app. left. now apply I3.
      + exists (maxz a). split; [apply in_or_app; right; now left | lra].
    - split; [exact I1 |]. split; [exact I2 |]. split; [exact I3 |]. exists (last (f0 :: full0) 0). split; [| lra].
      clear. assert (Q : forall (l : list R) b, In (last (b :: l) 0) (b :: l)). { induction l as [| c l IH]; intro b0; [now left |]. right. exact (IH c). } apply Q. }
  destruct K as (K1 & K2 & K3 & K4). clearbody full2.
  set (full3 := if (length full2 <? 2)%nat then full2 ++ [0.1] else full2).
  assert (S3 : forall z, In z full2 -> In z full3). { intros z I. unfold full3. destruct (length full2 <? 2)%nat; [apply in_or_app; now left | exact I]. }
  split; [| split; [| split; [| split; [| split]]]].
  - unfold full3. destruct (Nat.ltb_spec (length full2) 2) as [L | L]; [| exact K1]. destruct full2 as [| f [| ? ?]]; [discriminate | | cbn in L; lia]. injection K2 as ->. cbn. repeat split; intros y I; [| destruct I]. destruct I as [<- | []]. lra.
  - unfold full3. destruct (length full2 <? 2)%nat; [| exact K2]. destruct full2; [discriminate | exact K2].
  - unfold full3. destruct (Nat.ltb_spec (length full2) 2) as [L | L]; [| exact L]. destruct full2; [discriminate |]. rewrite app_length. cbn. lia.
  - intros z I. apply S3, K3, EZ, in_or_app. now right.
  - intros l z Il Iz. apply S3, K3, EZ, in_or_app. left. apply IX. right. now exists l.
  - intros l Il Hr. destruct K4 as (z & Iz & Hz). exists z. split; [now apply S3 |]. destruct (RX l Il Hr). lra.
Qed.
(** Without other values the steps are as fine as each likelihood asks *)
Lemma fine_grid h : 0 < h -> forall l k, (forall j g, nth_error l j = Some g -> 0 <= g /\ ln (g + 1) / h = INR (k + j)) -> fine h l.
Proof.
  intros Hh. induction l as [| a [| b l] IH]; intros k H; cbn; try exact I. split.
  - destruct (H 0%nat a eq_refl) as [_ A1]. destruct (H 1%nat b eq_refl) as [_ B1].
    assert (A2 : ln (a + 1) = h * INR (k + 0)) by (rewrite <- A1; field; lra). assert (B2 : ln (b + 1) = h * INR (k + 1)) by (rewrite <- B1; field; lra).
    rewrite (Rplus_comm 1 b), (Rplus_comm 1 a), A2, B2, !plus_INR. cbn. lra.
  - apply (IH (S k)). intros j g E. destruct (H (S j) g E) as [P Q]. split; [exact P |]. rewrite Q. f_equal. lia.
Qed.
Theorem C110_fine_partial : forall ls a, gather (mkAcc 0 30 [] true) ls = Some a -> Forall sensible ls ->
  exists h, fine h (start a) /\ forall l, In l ls -> range_for l -> (2 < num_z l)%nat -> h <= ln (max_z l + 1) / (INR (num_z l) - 1).
Proof.
  intros ls a E F. destruct (gather_ok ls _ a E F) as (M & D & _ & _ & _ & _ & RX); try (cbn; lra); [constructor |]. exists (step_of a). split.
  - apply (fine_grid (step_of a) (step_pos a M D) (start a) 0). exact (start_grid a M D).
  - intros l Il Hr L. destruct (RX l Il Hr) as [_ Q]. specialize (Q L). apply Rle_trans with (dlnz a); [| exact Q]. unfold step_of. destruct (gt0 (maxz a)) eqn:G; [| lra]. apply gt0_true in G.
    pose proof (steps_pos a G D) as SP. pose proof (ceiling_at (ln (maxz a + 1) / dlnz a)) as C. fold (steps a) in C. assert (0 < IZR (steps a)) by (apply IZR_lt; lia).
    apply Rmult_le_reg_r with (IZR (steps a)); [assumption |]. unfold Rdiv. rewrite Rmult_assoc, Rinv_l, Rmult_1_r by lra.
    apply Rmult_le_reg_r with (/ dlnz a); [now apply Rinv_0_lt_compat |]. replace (dlnz a * IZR (steps a) * / dlnz a) with (IZR (steps a)) by (field; lra). unfold Rdiv in C. lra.
Qed.
(** Each redshift of a likelihood is found, to 1e-4 *)
Theorem C110_index : forall zs z, In z zs -> exists k y, z_index zs z = Some (S k) /\ nth_error zs k = Some y /\ Rabs (z - y) <= 1e-4 /\
  forall j w, (j < k)%nat -> nth_error zs j = Some w -> 1e-4 < Rabs (z - w).
Proof.
  induction zs as [| u zs IH]; intros z I; [destruct I |]. cbn [z_index]. destruct (Rlt_dec 1e-4 (Rabs (z - u))) as [L | L].
  - destruct I as [-> | I]; [exfalso; rewrite Rminus_diag_eq, Rabs_R0 in L by reflexivity; lra |]. destruct (IH z I) as (k & y & E1 & E2 & E3 & E4).
    exists (S k), y. rewrite E1. repeat split; try assumption. intros [| j] w Lj Ej; [cbn in Ej; injection Ej as <-; exact L | apply (E4 j w); [lia | exact Ej]].
  - exists 0%nat, u. repeat split; [lra |]. intros; lia.
Qed.
(** FINDING: redshifts closer than 1e-4 are given the spectrum of the lower one *)
Theorem C110_close_refuted : exists z y, z <> y /\ z_index [0; y; z] z = Some 2%nat.
Proof.
  exists 0.35005, 0.35. split; [lra |]. cbn. destruct (Rlt_dec _ _) as [L | L].
  - cbn. destruct (Rlt_dec _ _) as [K | K]; [| reflexivity]. exfalso. rewrite Rabs_right in K; lra.
  - exfalso. apply L. rewrite Rabs_right; lra.
Qed.
(** FINDING: an exact redshift takes the place of the nearest point of the grid, so the steps are not as fine as the likelihoods ask *)
Theorem C110_fine_refuted : exists l1 l2 z1 z2 rest, Initialize_PKSettings true [] [l1; l2] = Some (Some (z1 :: z2 :: rest)) /\ Forall sensible [l1; l2] /\ range_for l1 /\
  ln (max_z l1 + 1) / (INR (num_z l1) - 1) < ln (1 + z2) - ln (1 + z1).
Proof.
  set (m := exp 2 - 1). set (z := exp (7/5) - 1). exists (mkLk true false [] 3 m false), (mkLk true true [z] 1 0 false), 0, z, [m].
  assert (M : 1 < m) by (unfold m; pose proof (exp_ineq1 2); lra). assert (Zp : 1 < z) by (unfold z; pose proof (exp_ineq1 (7/5)); lra).
  assert (LM : ln (m + 1) = 2) by (unfold m; replace (exp 2 - 1 + 1) with (exp 2) by ring; apply ln_exp).
  assert (LZ : ln (z + 1) = 7/5) by (unfold z; replace (exp (7/5) - 1 + 1) with (exp (7/5)) by ring; apply ln_exp).
  assert (ZM : z < m) by (unfold z, m; assert (exp (7/5) < exp 2) by (apply exp_increasing; lra); lra).
  split; [| split; [| split]].
  - unfold Initialize_PKSettings. cbn [gather gather1 needs_ps needs_exact num_z needs_sigmaR max_z maxz dlnz exacts use_LSS orb Nat.ltb Nat.leb andb length Nat.eqb negb exact_z app].
    rewrite Rmax_right by lra. replace (gt0 m) with true by (symmetry; apply gt0_true; lra). cbn [andb maxz dlnz exacts use_LSS app].
    rewrite LM. replace (2 / (INR 3 - 1)) with 1 by (cbn; field). rewrite Rmin_right by lra.
    unfold redshifts. cbn [exacts]. unfold Sort. cbn [length Nat.ltb Nat.leb]. unfold RemoveDuplicates. cbn [length Nat.sub seq rev fold_left].
    assert (ST : steps (mkAcc m 1 [z] true) = 2%Z).
    { unfold steps. cbn [maxz dlnz]. rewrite LM. pose proof (ceiling_at (2 / 1)) as C. replace (2 / 1) with 2 in * by field. assert (1 < IZR (ceiling 2) < 3) as [A B] by lra.
      apply lt_IZR in A. apply lt_IZR in B. lia. }
    assert (SO : step_of (mkAcc m 1 [z] true) = 1). { unfold step_of. rewrite ST. cbn [maxz]. replace (gt0 m) with true by (symmetry; apply gt0_true; lra). rewrite LM. field. }
    unfold start. rewrite ST, SO. cbn [maxz]. replace (gt0 m) with true by (symmetry; apply gt0_true; lra). change (Z.to_nat 2 - 1)%nat with 1%nat. cbn [seq map app length insert].
    destruct (Req_EM_T z 0); [lra |]. rewrite LZ.
    assert (NI : nint (7/5/1) = 1%Z). { pose proof (nint_at (7/5/1)) as [P Q]; [lra |]. assert (0 < IZR (nint (7/5/1)) < 2) as [A B] by lra. apply lt_IZR in A. apply lt_IZR in B. lia. }
    rewrite NI. change (Z.to_nat 1) with 1%nat. cbn. destruct (Rlt_dec m m) as [L | L]; [lra |]. reflexivity.
  - repeat constructor; cbn; try lra; try lia; intros; lia.
  - repeat split. left. cbn. lia.
  - cbn [max_z num_z]. rewrite LM, (Rplus_comm 1 z), LZ, Rplus_0_r, ln_1. cbn. lra.
Qed.
(** FINDING: the largest range so far is used where the range of the likelihood is meant (lines 340-357), so that cluster counts (needs_sigmaR,
    with no redshifts of its own, szcounts.f90 1458-1461) stop the program after weak lensing but not before it *)
Theorem C110_order_refuted : forall n m, (2 < n)%nat -> 0 < m ->
  let wl := mkLk true false [] n m false in let sz := mkLk true false [] 0 0 true in
  Initialize_PKSettings true [0.15] [wl; sz] = None /\ Initialize_PKSettings true [0.15] [sz; wl] <> None.
Proof.
  intros n m Ln Hm wl sz. unfold wl, sz, Initialize_PKSettings. apply Nat.ltb_lt in Ln. assert (L0 : (0 <? n)%nat = true) by (apply Nat.ltb_lt; apply Nat.ltb_lt in Ln; lia).
  assert (G : gt0 m = true) by now apply gt0_true. assert (G0 : gt0 0 = false) by (apply gt0_false; lra).
  cbn [gather gather1 needs_ps needs_exact num_z needs_sigmaR max_z maxz dlnz exacts use_LSS]. rewrite L0, Ln. cbn [orb andb]. rewrite (Rmax_right 0 m) by lra. rewrite G.
  cbn [maxz dlnz exacts use_LSS]. rewrite (Rmax_left m 0) by lra. rewrite G. cbn [Nat.ltb Nat.leb orb andb]. split; [reflexivity |].
  rewrite (Rmax_right 0 0) by lra. rewrite G0. cbn [andb maxz dlnz exacts use_LSS app]. rewrite (Rmax_right 0 m) by lra. rewrite G.
  unfold redshifts. cbn [exacts]. unfold Sort. cbn. discriminate.
Qed.
Example C110_ex : exists l1 l2 zs, Initialize_PKSettings true [0.15] [l1; l2] = Some (Some zs) /\ Forall sensible [l1; l2] /\ range_for l1 /\ exact_for l2 = [0.5].
Proof.
  exists (mkLk true false [] 100 2 false), (mkLk true true [0.5] 1 0 false).
  assert (E : exists a, gather (mkAcc 0 30 [] true) [mkLk true false [] 100 2 false; mkLk true true [0.5] 1 0 false] = Some a /\ use_LSS a = true /\ exacts a = [0.5]).
  { cbn [gather gather1 needs_ps needs_exact num_z needs_sigmaR max_z maxz dlnz exacts use_LSS orb]. rewrite (Rmax_right 0 2) by lra. replace (gt0 2) with true by (symmetry; apply gt0_true; lra).
    cbn [Nat.ltb Nat.leb andb exacts app exact_z maxz dlnz]. eexists. split; [reflexivity |]. split; reflexivity. }
  destruct E as (a & E1 & E2 & E3). unfold Initialize_PKSettings. cbn [length Nat.eqb negb andb]. rewrite E1, E2, E3. unfold redshifts. cbn [exacts app].
  destruct (C85_sort CompareReal [0.5; 0.15] CompareReal_ordering) as (s & ES & _). rewrite ES. eexists. split; [reflexivity |].
  split; [repeat constructor; cbn; try lra; intros; lia |]. split; [repeat split; left; cbn; lia | reflexivity].
Qed.
Print Assumptions C110_grid.
Print Assumptions C110_fine_partial.
Print Assumptions C110_index.
Print Assumptions C110_fine_refuted.
Print Assumptions C110_order_refuted.
