(** C112: the Hubble parameter from theta; C113: the parameterizations agree *)
From Coq Require Import Reals List Bool Arith Lia Lra.
From Verif Require Import McmcModel CosModel CosSpec CosProofs.
Import ListNotations.
Local Open Scope R_scope.

(** a run: the parameters of each call and the object that is filled *)
Fixpoint run bbn deg BBN Theta Zre Hmin Hmax (n : nat) (s : store) (calls : list (list R * cmb)) : option (list cmb) :=
  match calls with
  | [] => Some []
  | (p, c) :: calls => match TP bbn deg BBN Theta Zre Hmin Hmax n s p c with
                       | None => None
                       | Some (r, s) => match run bbn deg BBN Theta Zre Hmin Hmax n s calls with Some l => Some (r :: l) | None => None end
                       end
  end.
Lemma proper_base p : proper p -> firstn num_hard (base_of p) <> repeat 0 16.
Proof.
  intros (i & Hi & N) E. apply N. change (P p i = 0). unfold base_of, num_theory, num_hard in E. cbn [seq map firstn repeat] in E. injection E. intros.
  do 17 (destruct i as [| i]; [first [lia | assumption] |]). lia.
Qed.
(** C112: whatever points are asked for in whatever order, the parameters from the cache are those of a computation without it. *)
Theorem C112_cache bbn deg BBN Theta Zre Hmin Hmax n s calls : slow_only Theta -> slow_only Zre -> Forall (fun q => proper (fst q)) calls ->
  firstn 16 (base (slot1 s)) = repeat 0 16 -> firstn 16 (base (slot2 s)) = repeat 0 16 ->
  run bbn deg BBN Theta Zre Hmin Hmax n s calls = sequence (map (fun q => option_map fst (fresh bbn deg BBN Theta Zre Hmin Hmax n (fst q) (snd q))) calls).
Proof.
  intros HT HZ F S1 S2.
  set (good := fun c => firstn 16 (base c) = repeat 0 16 \/ exists p c', fresh bbn deg BBN Theta Zre Hmin Hmax n p c' = Some (c, true)).
  assert (G1 : good (slot1 s)) by now left. assert (G2 : good (slot2 s)) by now left. clear S1 S2. revert s G1 G2.
  induction calls as [| [p c] calls IH]; intros s G1 G2; [reflexivity |]. inversion F as [| ? ? PP F']; subst. specialize (IH F'). cbn [fst] in PP. cbn [run map fst snd].
  assert (HH : forall sl, good sl -> hit p sl = true -> fresh bbn deg BBN Theta Zre Hmin Hmax n p c = Some (SetFast p (set_base p sl), true)).
  { intros sl G E. unfold hit in E. apply eqb_list_true in E. destruct G as [G | (p' & c' & G)].
    - exfalso. apply (proper_base p PP). rewrite E. exact G.
    - destruct (fresh_hit _ _ _ _ _ _ _ _ p' p' c' c' sl HT HZ G eq_refl) as [_ EB]. rewrite EB in E.
      now destruct (fresh_hit _ _ _ _ _ _ _ _ p' p c' c sl HT HZ G (eq_sym E)) as [Q _]. }
  unfold TP. destruct (hit p (slot1 s)) eqn:E1; [rewrite (HH _ G1 E1); cbn [option_map fst sequence]; now rewrite IH |].
  destruct (hit p (slot2 s)) eqn:E2; [rewrite (HH _ G2 E2); cbn [option_map fst sequence]; now rewrite IH |].
  destruct (fresh bbn deg BBN Theta Zre Hmin Hmax n p c) as [[r [|]] |] eqn:EF; cbn [option_map fst sequence]; [| now rewrite IH | reflexivity].
  assert (GR : good r) by (right; eauto). destruct (at2 s); now rewrite IH.
Qed.
Print Assumptions C112_cache.

Lemma fresh_true bbn deg BBN Theta Zre Hmin Hmax n p c r : fresh bbn deg BBN Theta Zre Hmin Hmax n p c = Some (r, true) ->
  let c0 := fst (first_time bbn deg BBN p (set_base p c)) in
  exists r', bisect Theta n (for_h c0 Hmax) Hmin Hmax (-1) (P p 3 / 100) = Some r' /\ r = set_zre r' (if Req_EM_T (tau r') 0 then 0 else Zre r') /\
    Theta (for_h c0 Hmin) <= P p 3 / 100 <= Theta (for_h c0 Hmax).
Proof.
  intros F c0. unfold fresh in F. destruct (first_time bbn deg BBN p (set_base p c)) as [c1 e] eqn:E1. subst c0. cbn [fst] in *. destruct e; [discriminate |]. rewrite for_h_twice in F.
  destruct (Rlt_dec (P p 3 / 100) (Theta (for_h c1 Hmin))); [discriminate |]. destruct (Rlt_dec (Theta (for_h c1 Hmax)) (P p 3 / 100)); [discriminate |]. cbn [orb] in F.
  destruct (bisect Theta n (for_h c1 Hmax) Hmin Hmax (-1) (P p 3 / 100)) as [r' |]; [| discriminate]. injection F as <-. exists r'. repeat split; lra.
Qed.
(** C112: the Hubble parameter lies within its range and gives the theta that was asked for, up to a multiple of 1e-7,
    when theta rises with H0 at a rate between [k] and [K]; it is the exact solution up to 1e-7 / k. *)
Theorem C112_theta bbn deg BBN Theta Zre Hmin Hmax n p c r k K : slow_only Theta -> Hmin <= Hmax -> 0 < k <= K ->
  (let c0 := fst (first_time bbn deg BBN p (set_base p c)) in
   (forall x y, Hmin <= x <= y -> y <= Hmax -> k * (y - x) <= Theta (for_h c0 y) - Theta (for_h c0 x) <= K * (y - x)) /\ 0 <= Theta (for_h c0 Hmin)) ->
  fresh bbn deg BBN Theta Zre Hmin Hmax n p c = Some (r, true) ->
  Hmin <= H0 r <= Hmax /\ Rabs (Theta r - P p 3 / 100) <= K / k * 1e-7 /\
  (forall x, Hmin <= x <= Hmax -> Theta (for_h r x) = P p 3 / 100 -> Rabs (H0 r - x) <= 1e-7 / k).
Proof.
  intros HT L [Hk HkK] HH F. destruct (fresh_true _ _ _ _ _ _ _ _ _ _ _ F) as (r' & B & -> & I). set (c0 := fst (first_time bbn deg BBN p (set_base p c))) in *. destruct HH as (HD & H00).
  assert (PD : forall H, Hmin <= H <= Hmax -> 0 <= Theta (for_h c0 H)). { intros H LH. destruct (HD Hmin H); try lra. nra. }
  destruct (bisect_start Theta c0 n (for_h c0 Hmax) Hmin Hmax (P p 3 / 100) r' (fun H => for_h_twice _ _ _) B L I PD) as (b & t & e & -> & L1 & L2 & L3 & Q & V & E).
  set (m := (b + t) / 2) in *.
  assert (EQ : forall H z, Theta (set_zre (for_h c0 H) z) = Theta (for_h c0 H)) by (intros; apply HT, slow_zre).
  assert (W : (t - b) / 2 * k < 1e-7).
  { destruct E as [-> | ->].
    - destruct (HD b m) as [Z1 Z2]; [unfold m; lra | unfold m; lra |]. assert (EM : m - b = (t - b) / 2) by (unfold m; lra). rewrite EM in Z1.
      eapply Rle_lt_trans; [| exact V]. eapply Rle_trans; [| apply Rle_abs]. lra.
    - destruct (HD m t) as [Z1 Z2]; [unfold m; lra | unfold m; lra |]. assert (EM : t - m = (t - b) / 2) by (unfold m; lra). rewrite EM in Z1.
      rewrite Rabs_minus_sym in V. eapply Rle_lt_trans; [| exact V]. eapply Rle_trans; [| apply Rle_abs]. lra. }
  assert (W2 : (t - b) / 2 <= 1e-7 / k). { apply Rmult_le_reg_r with k; [exact Hk |]. unfold Rdiv at 2. rewrite Rmult_assoc, Rinv_l by lra. lra. }
  split; [cbn [H0 set_zre for_h]; unfold m; lra |]. split.
  - rewrite EQ. destruct (HD b m) as [Y1 Y2]; [unfold m; lra | unfold m; lra |]. destruct (HD m t) as [Z1 Z2]; [unfold m; lra | unfold m; lra |].
    assert (EM1 : m - b = (t - b) / 2) by (unfold m; lra). assert (EM2 : t - m = (t - b) / 2) by (unfold m; lra). rewrite EM1 in *. rewrite EM2 in *.
    assert (W3 : K * ((t - b) / 2) <= K / k * 1e-7). { replace (K / k * 1e-7) with (K * (1e-7 / k)) by (field; lra). apply Rmult_le_compat_l; lra. }
    apply Rabs_le. lra.
  - intros x Hx Ex. cbn [H0 set_zre for_h]. 
    assert (Ex' : Theta (for_h c0 x) = P p 3 / 100) by (rewrite <- Ex; apply HT; reflexivity).
    assert (b <= x <= t).
    { split.
      - destruct (Rle_lt_dec b x) as [? | N]; [assumption |]. destruct (HD x b) as [U _]; try lra. nra.
      - destruct (Rle_lt_dec x t) as [? | N]; [assumption |]. destruct (HD t x) as [U _]; try lra. nra. }
    eapply Rle_trans; [| exact W2]. apply Rabs_le. unfold m. lra.
Qed.
Print Assumptions C112_theta.
(** C112: the search for the Hubble parameter ends whenever theta has bounded slope. *)
Theorem C112_ends bbn deg BBN Theta Zre Hmin Hmax p c K : Hmin <= Hmax -> 0 <= K ->
  (let c0 := fst (first_time bbn deg BBN p (set_base p c)) in
   forall x y, Hmin <= x <= y -> y <= Hmax -> Rabs (Theta (for_h c0 y) - Theta (for_h c0 x)) <= K * (y - x)) ->
  exists n, forall m, (n <= m)%nat -> fresh bbn deg BBN Theta Zre Hmin Hmax m p c <> None.
Proof.
  intros L HK HD. set (c0 := fst (first_time bbn deg BBN p (set_base p c))) in *.
  destruct (bisect_total Theta c0 K Hmin Hmax (P p 3 / 100) (for_h c0 Hmax) HK L HD (fun H => for_h_twice _ _ _)) as (n & Hn). exists n. intros m Hm. specialize (Hn m Hm).
  unfold fresh. subst c0. destruct (first_time bbn deg BBN p (set_base p c)) as [c1 e]. cbn [fst] in Hn. destruct e; [discriminate |]. rewrite for_h_twice.
  destruct (_ || _); [discriminate |]. destruct (bisect Theta m (for_h c1 Hmax) Hmin Hmax (-1) (P p 3 / 100)); [discriminate | contradiction].
Qed.
Print Assumptions C112_ends.

(** C112: a point with no solution for H0 is outside the prior; points within it have H0 and the redshift of reionization within their limits. *)
Theorem C112_prior bbn deg BBN Theta Zre Hmin Hmax hm hs zm zs mz ms n p c r a : 0 < Hmin -> fresh bbn deg BBN Theta Zre Hmin Hmax n p c = Some (r, a) ->
  let pr := TP_prior Hmin Hmax hm hs zm zs mz ms r in
  (a = false -> pr = logZero) /\
  (pr <> logZero -> Hmin <= H0 r <= Hmax /\ mz <= zre r /\
     pr = (if Req_EM_T hm 0 then 0 else ((H0 r - hm) / hs) ^ 2 / 2) + (if Req_EM_T zm 0 then 0 else ((zre r - zm) / zs) ^ 2 / 2)).
Proof.
  intros HP F pr. split.
  - intros ->. assert (E : H0 r = 0).
    { unfold fresh in F. destruct (first_time bbn deg BBN p (set_base p c)) as [c1 e]. destruct e; [injection F as <-; reflexivity |].
      destruct (_ || _); [injection F as <-; reflexivity |]. destruct (bisect _ _ _ _ _ _); discriminate. }
    unfold pr, TP_prior, Rlt_b. rewrite E. destruct (Rlt_dec 0 Hmin); [reflexivity | contradiction].
  - unfold pr, TP_prior, Rlt_b. destruct (Rlt_dec (H0 r) Hmin); cbn [orb]; [congruence |]. destruct (Rlt_dec Hmax (H0 r)); [congruence |]. destruct (Rlt_dec (zre r) mz); [congruence |].
    match goal with |- context [if ?b then logZero else _] => destruct b end; [congruence |]. intros _. split; [lra |]. split; [lra |].
    destruct (Req_EM_T hm 0), (Req_EM_T zm 0); cbn [pow]; rewrite ?Rmult_1_r; reflexivity.
Qed.
Print Assumptions C112_prior.

(** A theta that rises with H0 but is almost level near the middle of the range: the search stops where two values are near each other. *)
Definition level (x : R) : R := if Rle_dec x 70 then x / 100 else if Rle_dec x 85 then 7/10 + (x - 70) * 1e-9 else 7/10 + 15e-9 + (x - 85) / 10.
Definition none : cmb := mkC (repeat 0 24) (repeat 0 8) 0 0 0 0 0 0 0 0 0 0 0 0 0 0 0 0 0 0 0 0 0 0 0 0 0 0.
Definition pt : list R := [2/100; 12/100; 100; 0; 0; 6/100; 0; -1; 0; 3046/1000; 24/100; 0; 5/10; 1; 1; 0; 3; 96/100; 0; 0; 0; 0; 0; 1].
(** Finding (169): the loop ends when two steps give nearly the same theta, not when theta is near the one asked for. *)
Theorem C112_level_refuted : exists Theta, slow_only Theta /\ (forall c x y, 40 <= x -> x < y -> Theta (for_h c x) < Theta (for_h c y)) /\
  exists n r, fresh false false (fun _ _ => None) Theta (fun _ => 0) 40 100 n pt none = Some (r, true) /\ 29/100 < Rabs (Theta r - P pt 3 / 100).
Proof.
  exists (fun c => level (H0 c)). split; [intros c c' E; unfold slow in E; injection E; intros; congruence |]. split.
  - intros c x y L1 L2. cbn [H0 for_h]. unfold level. destruct (Rle_dec x 70), (Rle_dec y 70), (Rle_dec x 85), (Rle_dec y 85); lra.
  - assert (A1 : level 40 = 4/10) by (unfold level; destruct (Rle_dec 40 70); lra).
    assert (A2 : level 100 = 22/10 + 15e-9) by (unfold level; destruct (Rle_dec 100 70); [lra |]; destruct (Rle_dec 100 85); lra).
    assert (A3 : level ((40 + 100) / 2) = 7/10) by (unfold level; destruct (Rle_dec ((40 + 100) / 2) 70); lra).
    assert (A4 : level (((40 + 100) / 2 + 100) / 2) = 7/10 + 15e-9) by (unfold level; destruct (Rle_dec (((40 + 100) / 2 + 100) / 2) 70); [lra |]; destruct (Rle_dec (((40 + 100) / 2 + 100) / 2) 85); lra).
    assert (B : forall c, bisect (fun c => level (H0 c)) 2 c 40 100 (-1) 1 = Some (for_h (for_h c ((40 + 100) / 2)) (((40 + 100) / 2 + 100) / 2))).
    { intro c. cbn [bisect]. change (H0 (for_h c ((40 + 100) / 2))) with ((40 + 100) / 2). rewrite A3. destruct (Rlt_dec (7/10) 1); [| lra].
      destruct (Rlt_dec (Rabs (7/10 - -1)) 1e-7) as [V | V]; [rewrite Rabs_pos_eq in V by lra; lra |]. 
      change (H0 (for_h (for_h c ((40 + 100) / 2)) (((40 + 100) / 2 + 100) / 2))) with (((40 + 100) / 2 + 100) / 2). rewrite A4.
      destruct (Rlt_dec (7/10 + 15e-9) 1); [| lra]. destruct (Rlt_dec (Rabs (7/10 + 15e-9 - 7/10)) 1e-7) as [U | U]; [reflexivity | exfalso; apply U; rewrite Rabs_pos_eq; lra]. }
    assert (E3 : P pt 3 / 100 = 1) by (unfold P; cbn; lra). rewrite E3.
    exists 2%nat. unfold fresh. remember (first_time false false (fun _ _ => None) pt (set_base pt none)) as fc eqn:EF. destruct fc as [c1 e].
    assert (EE : e = false). { unfold first_time in EF. injection EF as _ ->. destruct (Rlt_dec 0 (P pt 7 / mass_fac)) as [Q | Q]; [exfalso; revert Q; unfold P, mass_fac; cbn; lra | reflexivity]. }
    rewrite EE, E3. change (H0 (for_h (for_h c1 40) 100)) with 100. change (H0 (for_h c1 40)) with 40.
    rewrite A1, A2. destruct (Rlt_dec 1 (4/10)); [lra |]. destruct (Rlt_dec (22/10 + 15e-9) 1); [lra |]. cbn [orb]. rewrite B.
    eexists. split; [reflexivity |]. cbn [H0 set_zre for_h]. rewrite A4, Rabs_minus_sym, Rabs_pos_eq; lra.
Qed.
Print Assumptions C112_level_refuted.
(** theta = H0 / 50: 100 times theta = 120 gives H0 = 60 within 5e-6, and the same again from the cache for another spectrum *)
Example C112_ex : slow_only (fun c => H0 c / 50) /\ proper pt /\
  (forall c x y, 40 <= x <= y -> y <= 100 -> 1/50 * (y - x) <= H0 (for_h c y) / 50 - H0 (for_h c x) / 50 <= 1/50 * (y - x)) /\
  hit pt (mkC (base_of pt) [] 1 0 0 0 0 0 0 0 0 0 0 0 0 0 0 0 0 0 0 0 0 0 0 0 0 0) = true /\ hit pt none = false.
Proof.
  split; [intros c c' E; unfold slow in E; injection E; intros; congruence |]. split; [exists 1%nat; split; [lia | cbn; lra] |].
  split; [intros c x y L1 L2; cbn [H0 for_h]; lra |]. split.
  - unfold hit. now apply eqb_list_true.
  - destruct (hit pt none) eqn:E; [| reflexivity]. unfold hit in E. apply eqb_list_true in E. cbn in E. injection E. intros. lra.
Qed.

Lemma closed_for_h c H : H <> 0 -> omdmh2 c = omch2 c + omnuh2 c -> nufrac c = omnuh2 c / omdmh2 c -> closed (for_h c H).
Proof.
  intros HH E N. unfold closed. cbn [omv omk omb omdm omc omnu omdmh2 omch2 omnuh2 h H0 ombh2 nufrac for_h]. assert (Q : H / 100 <> 0) by lra. assert (Q2 : H / 100 * (H / 100) <> 0) by (apply Rmult_integral_contrapositive; auto).
  rewrite E. repeat split; try (field; auto); try lra. intro ND. rewrite N, E. field. exact ND.
Qed.
(** C113: for each parameterization the densities add up, and the parameters that were given are the ones that are used. *)
Theorem C113_theta bbn deg BBN Theta Zre Hmin Hmax n p c r : 0 < Hmin -> Hmin <= Hmax -> fresh bbn deg BBN Theta Zre Hmin Hmax n p c = Some (r, true) ->
  closed r /\ base r = base_of p /\ initp r = exp (P p 17) :: map (P p) (seq 18 7) /\
  ombh2 r = P p 1 /\ omch2 r = P p 2 /\ tau r = P p 4 /\ omk r = P p 5 /\ mnu_std r = P p 6 /\ sterile r * mass_fac = P p 7 /\ omnuh2 r = standard_nu deg (P p 6) (P p 10) + sterile r /\
  w r = P p 8 /\ wa r = P p 9 /\ nnu r = P p 10 /\ (bbn = false -> YHe r = P p 11) /\ (bbn = true -> BBN (P p 1) (P p 10 - std_neff) = Some (YHe r)) /\
  iso r = P p 12 /\ zre_delta r = P p 13 /\ ALens r = P p 14 /\ ALensf r = P p 15 /\ fdm r = P p 16 /\ (sterile r > 0 -> std_neff <= nnu r).
Proof.
  intros HP HL F. assert (ER : snd (first_time bbn deg BBN p (set_base p c)) = false).
  { unfold fresh in F. destruct (first_time bbn deg BBN p (set_base p c)) as [c1 e]. cbn. destruct e; [discriminate | reflexivity]. }
  destruct (fresh_true _ _ _ _ _ _ _ _ _ _ _ F) as (r' & B & -> & I). set (c0 := fst (first_time bbn deg BBN p (set_base p c))) in *.
  assert (K : exists H, r' = for_h c0 H /\ 0 < H).
  { clear - HP HL B. assert (HC : forall H, for_h (for_h c0 Hmax) H = for_h c0 H) by reflexivity. revert B HC. generalize (for_h c0 Hmax) as c1. generalize (-1) as last. assert (HM : 0 < Hmax) by lra. clear HL. revert Hmin Hmax HP HM.
    induction n as [| n IH]; intros b t Hb Ht last c1 B HC; [discriminate |]. cbn [bisect] in B. rewrite HC in B. destruct (Rlt_dec (Theta (for_h c0 ((b + t) / 2))) (P p 3 / 100));
      (destruct (Rlt_dec _ 1e-7); [injection B as <-; eexists; split; [reflexivity | lra] |]).
    - eapply (IH ((b + t) / 2) t); [lra | lra | exact B |]. reflexivity.
    - eapply (IH b ((b + t) / 2)); [lra | lra | exact B |]. reflexivity. }
  destruct K as (H & -> & HH).
  assert (C : closed (for_h c0 H)). { apply closed_for_h; [lra | reflexivity | reflexivity]. }
  split; [exact C |]. unfold c0 in *. unfold first_time in *. cbn [fst snd] in *. clear C I B c0. apply orb_false_iff in ER. destruct ER as [E1 E2].
  cbn [base initp ombh2 omch2 tau omk mnu_std sterile omnuh2 w wa nnu YHe iso zre_delta ALens ALensf fdm set_zre for_h set_base].
  split; [reflexivity |]. split; [reflexivity |]. split; [reflexivity |]. split; [reflexivity |]. split; [reflexivity |]. split; [reflexivity |]. split; [reflexivity |].
  split; [unfold mass_fac; field |]. split; [reflexivity |]. split; [reflexivity |]. split; [reflexivity |]. split; [reflexivity |].
  split; [intros ->; reflexivity |]. split; [intros ->; destruct (BBN (P p 1) (P p 10 - std_neff)); [reflexivity | discriminate] |].
  split; [reflexivity |]. split; [reflexivity |]. split; [reflexivity |]. split; [reflexivity |]. split; [reflexivity |].
  intro G. destruct (Rlt_dec 0 (P p 7 / mass_fac)); [| lra]. destruct (Rlt_dec (P p 10) std_neff); [discriminate | lra].
Qed.
Print Assumptions C113_theta.
Theorem C113_astro bbn BBN p c : let r := AP bbn BBN p c in P p 3 <> 0 ->
  closed r /\ omb r + omdm r = P p 1 /\ omb r = P p 2 /\ H0 r = P p 3 /\ omk r = P p 4 /\ mnu_std r = P p 5 /\ omnuh2 r = standard_nu false (P p 5) (P p 8) /\ w r = P p 6 /\ wa r = P p 7 /\ nnu r = P p 8 /\
  (bbn = false -> YHe r = P p 9) /\ hd 0 (initp r) = 10 * P p 10 /\ tl (initp r) = map (P p) (seq 11 7) /\ sterile r = 0.
Proof.
  intros r HH. assert (Q : P p 3 / 100 <> 0) by lra. remember (P p 3 / 100) as hh eqn:Ehh.
  remember (P p 5 / mass_fac * fpow (std_neff / 3) (75 / 100)) as nu eqn:Enu. unfold closed, r, standard_nu. cbn [omv omk omb omdm omc omnu omdmh2 omch2 omnuh2 h H0 ombh2 nufrac mnu_std w wa nnu YHe initp sterile AP hd tl]. rewrite orb_true_r, <- ?Ehh, <- ?Enu.
  repeat split; try (intros ->; reflexivity); try solve [field; auto]; try (subst hh; lra); try (intro ND; unfold Rdiv at 1; rewrite Rmult_assoc, Rinv_l; [ring | exact ND]).
Qed.
Print Assumptions C113_astro.
Theorem C113_background p c : let r := BK p c in P p 2 <> 0 ->
  closed r /\ omb r + omdm r = P p 1 /\ H0 r = P p 2 /\ omk r = P p 3 /\ omnuh2 r = standard_nu false (P p 4) (P p 7) /\ w r = P p 5 /\ wa r = P p 6 /\ nnu r = P p 7.
Proof.
  intros r HH. assert (Q : P p 2 / 100 <> 0) by lra. remember (P p 2 / 100) as hh eqn:Ehh.
  remember (P p 4 / mass_fac * fpow (std_neff / 3) (75 / 100)) as nu eqn:Enu. unfold closed, r, standard_nu. cbn [omv omk omb omdm omc omnu omdmh2 omch2 omnuh2 h H0 ombh2 nufrac mnu_std w wa nnu YHe initp sterile BK]. rewrite orb_true_r, <- ?Ehh, <- ?Enu.
  repeat split; try solve [field; auto]; try (subst hh; lra); try (intro ND; unfold Rdiv at 1; rewrite Rmult_assoc, Rinv_l; [ring | exact ND]).
Qed.
Print Assumptions C113_background.

(** the point of the astro parameterization that has the derived parameters of [r] *)
Definition astro_of (r : cmb) : list R := [omb r + omdm r; omb r; H0 r; omk r; mnu_std r; w r; wa r; nnu r; YHe r; hd 0 (initp r) / 10] ++ tl (initp r).
(** C113: a point of the theta parameterization and the point of the astro parameterization with its derived parameters are the same cosmology,
    when there is no sterile neutrino and the mass of neutrinos does not depend on their number. *)
Theorem C113_agree_partial bbn deg BBN Theta Zre Hmin Hmax n p c c' r : 0 < Hmin -> Hmin <= Hmax -> fresh bbn deg BBN Theta Zre Hmin Hmax n p c = Some (r, true) ->
  P p 7 = 0 -> std_neff < P p 10 \/ deg = false ->
  let a := AP bbn BBN (astro_of r) c' in
  (omb a, omc a, omv a, omnu a, omk a, omdm a) = (omb r, omc r, omv r, omnu r, omk r, omdm r) /\ (ombh2 a, omch2 a, omnuh2 a, omdmh2 a, nufrac a) = (ombh2 r, omch2 r, omnuh2 r, omdmh2 r, nufrac r) /\
  (h a, H0 a, w a, wa a, YHe a, nnu a, sterile a, mnu_std a) = (h r, H0 r, w r, wa r, YHe r, nnu r, sterile r, mnu_std r) /\ initp a = initp r.
Proof.
  intros HP HL F E7 EN a. pose proof (C113_theta _ _ _ _ _ _ _ _ _ _ _ HP HL F) as T.
  destruct T as ((T1 & T2 & T3 & T4 & T5 & T6 & T7 & T8 & T9) & B1 & B2 & B3 & B4 & B5 & B6 & B7 & B8 & B9 & B10 & B11 & B12 & B13 & B14 & _).
  destruct (fresh_true _ _ _ _ _ _ _ _ _ _ _ F) as (r' & BB & RR & _).
  assert (HR : 0 < H0 r).
  { rewrite RR. cbn [H0 set_zre]. clear - HP HL BB. revert BB. generalize (for_h (fst (first_time bbn deg BBN p (set_base p c))) Hmax) as c1. generalize (-1) as last. assert (HM : 0 < Hmax) by lra. clear HL. revert Hmin Hmax HP HM.
    induction n as [| n IH]; intros b t Hb Ht last c1 B; [discriminate |]. cbn [bisect] in B. destruct (Rlt_dec (Theta (for_h c1 ((b + t) / 2))) (P p 3 / 100));
      (destruct (Rlt_dec _ 1e-7); [injection B as <-; cbn; lra |]).
    - apply (IH ((b + t) / 2) t) in B; lra.
    - apply (IH b ((b + t) / 2)) in B; lra. }
  assert (NF : nufrac r = omnuh2 r / omdmh2 r).
  { rewrite RR. cbn [nufrac omnuh2 omdmh2 set_zre]. clear - BB. assert (Q : forall c1, nufrac c1 = omnuh2 c1 / omdmh2 c1 -> forall n b t l r', bisect Theta n c1 b t l (P p 3 / 100) = Some r' -> nufrac r' = omnuh2 r' / omdmh2 r').
    { clear. intros c1 H n. revert c1 H. induction n as [| n IH]; intros c1 H b t l r' B; [discriminate |]. cbn [bisect] in B. destruct (Rlt_dec (Theta (for_h c1 ((b + t) / 2))) (P p 3 / 100));
      (destruct (Rlt_dec _ 1e-7); [injection B as <-; exact H |]); (eapply IH; [| exact B]; exact H). }
    eapply Q; [| exact BB]. reflexivity. }
  assert (ST : sterile r = 0). { rewrite E7 in B8. unfold mass_fac in B8. lra. }
  assert (SN : standard_nu deg (P p 6) (P p 10) = P p 6 / mass_fac * fpow (std_neff / 3) (75 / 100)).
  { unfold standard_nu. destruct EN as [EN | ->]; [| now rewrite orb_true_r]. destruct (Rlt_dec std_neff (P p 10)); [reflexivity | contradiction]. }
  rewrite ST, Rplus_0_r, SN, <- B7 in B9.
  assert (HI : hd 0 (initp r) / 10 * 10 = hd 0 (initp r)) by field.
  assert (Q : h r <> 0) by lra. assert (Q2 : h r * h r <> 0) by (apply Rmult_integral_contrapositive; auto). assert (P2 : (h r) ^ 2 = h r * h r) by ring. rewrite P2 in *.
  assert (X1 : omnuh2 r / (h r * h r) = omnu r) by (rewrite <- T7; field; auto).
  assert (X2 : omb r + omdm r - omb r - omnu r = omc r) by lra.
  unfold a, AP, astro_of. cbn [P nth Nat.sub app]. unfold P. cbn [nth Nat.sub app]. rewrite <- T4, <- B9. 
  cbn [omb omc omv omnu omk omdm ombh2 omch2 omnuh2 omdmh2 nufrac h H0 w wa YHe nnu sterile mnu_std initp]. rewrite X1, X2, T5, T6, <- T3, HI, NF.
  assert (X3 : omdmh2 r / (h r * h r) = omdm r) by (rewrite <- T8; field; auto). rewrite X3.
  assert (X4 : 1 - omk r - omb r - omdm r = omv r) by lra. rewrite X4, ST.
  split; [reflexivity |]. split; [reflexivity |]. split.
  - assert (Y : (if bbn then match BBN (ombh2 r) (nnu r - std_neff) with Some v => v | None => YHe c' end else YHe r) = YHe r).
    { destruct bbn; [| reflexivity]. rewrite B3, B12, (B14 eq_refl). reflexivity. }
    rewrite Y. reflexivity.
  - rewrite B2. reflexivity.
Qed.
Print Assumptions C113_agree_partial.
(** C113: the background parameterization with the same matter, curvature, dark energy and neutrinos has the same densities as the astro one. *)
Theorem C113_backgrounds_agree bbn BBN p q c c' : P p 3 <> 0 -> P q 1 = P p 1 -> P q 2 = P p 3 -> P q 3 = P p 4 -> P q 4 = P p 5 -> P q 5 = P p 6 -> P q 6 = P p 7 -> P q 7 = P p 8 ->
  let a := AP bbn BBN p c in let b := BK q c' in
  omb b + omdm b = omb a + omdm a /\ omv b = omv a /\ omk b = omk a /\ omnu b = omnu a /\ (H0 b, w b, wa b, nnu b) = (H0 a, w a, wa a, nnu a).
Proof.
  intros N E1 E2 E3 E4 E5 E6 E7 a b. destruct (C113_astro bbn BBN p c N) as (A1 & A2 & A3 & A4 & A5 & A6 & A7 & A8 & A9 & A10 & _).
  destruct (C113_background q c') as (B1 & B2 & B3 & B4 & B5 & B6 & B7 & B8); [congruence |]. fold a in A1, A2, A4, A5, A7, A8, A9, A10. fold b in B1, B2, B3, B4, B5, B6, B7, B8.
  split; [congruence |]. destruct A1 as (A1 & _), B1 as (B1 & _). split; [lra |]. split; [congruence |]. split; [| congruence].
  unfold a, b. cbn [omnu AP BK]. now rewrite E2, E4.
Qed.
Print Assumptions C113_backgrounds_agree.
(** Finding (305, 463, 377): with degenerate neutrinos and fewer than 3.046 of them, the same sum of masses is another density in the theta parameterization
    than in the two others. *)
Theorem C113_fewer_refuted mnu nnu : 0 < mnu -> 0 < nnu -> nnu < std_neff -> standard_nu true mnu nnu < standard_nu false mnu nnu.
Proof.
  intros H1 H2 H3. unfold standard_nu. cbn [negb]. rewrite orb_true_r, orb_false_r. destruct (Rlt_dec std_neff nnu); [lra |]. apply Rmult_lt_compat_l; [apply Rdiv_lt_0_compat; [lra | unfold mass_fac; lra] |].
  unfold fpow. destruct (Rlt_dec 0 (nnu / 3)); [| lra]. destruct (Rlt_dec 0 (std_neff / 3)); [| lra]. apply Rlt_Rpower_l; lra.
Qed.
Print Assumptions C113_fewer_refuted.
(** Finding (362-397): the background parameterization leaves the width of reionization, ALensf, the spectrum and the sum of masses as they were. *)
Theorem C113_kept_refuted p c : zre_delta (BK p c) = zre_delta c /\ ALensf (BK p c) = ALensf c /\ initp (BK p c) = initp c /\ mnu_std (BK p c) = mnu_std c.
Proof. repeat split. Qed.
Print Assumptions C113_kept_refuted.
(** matter 0.3, baryons 0.05, H0 = 70 and massless neutrinos *)
Definition astro1 : list R := [3/10; 5/100; 70; 0; 0; -1; 0; 3046/1000; 24/100; 2; 96/100; 0; 0; 0; 0; 0; 1].
Example C113_ex : P astro1 3 <> 0 /\ closed (AP false (fun _ _ => None) astro1 none) /\ ombh2 (AP false (fun _ _ => None) astro1 none) = 245/10000 /\
  omc (AP false (fun _ _ => None) astro1 none) = 25/100 /\ omv (AP false (fun _ _ => None) astro1 none) = 7/10 /\ hd 0 (initp (AP false (fun _ _ => None) astro1 none)) = 20 /\
  closed (BK [3/10; 70; 0; 0; -1; 0; 3046/1000] none) /\ standard_nu true (6/100) 3 < standard_nu false (6/100) 3.
Proof.
  assert (N : P astro1 3 <> 0) by (unfold P; cbn; lra). split; [exact N |]. destruct (C113_astro false (fun _ _ => None) astro1 none N) as (A1 & A2 & A3 & A4 & A5 & A6 & A7 & A8 & A9 & A10 & A11 & A12 & _).
  split; [exact A1 |]. assert (NU : omnuh2 (AP false (fun _ _ => None) astro1 none) = 0) by (rewrite A7; unfold standard_nu; rewrite orb_true_r; unfold P; cbn; unfold Rdiv; ring).
  assert (NU2 : omnu (AP false (fun _ _ => None) astro1 none) = 0) by (cbn [omnu omnuh2 AP] in *; rewrite NU; unfold Rdiv; ring).
  destruct A1 as (C1 & C2 & C3 & C4 & C5 & C6 & C7 & C8 & _). 
  set (r := AP false (fun _ _ => None) astro1 none) in *.
  unfold P in A2, A3, A4, A5, A12. cbn [astro1 nth Nat.sub] in A2, A3, A4, A5, A12.
  split; [rewrite <- C5, C4, A4, A3; lra |]. split; [lra |]. split; [lra |]. split; [lra |].
  split; [apply (C113_background [3/10; 70; 0; 0; -1; 0; 3046/1000] none); unfold P; cbn; lra |]. apply C113_fewer_refuted; unfold std_neff; lra.
Qed.
