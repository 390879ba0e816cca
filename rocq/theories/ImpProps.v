(** C98-C101: importance sampling of chains *)
From Coq Require Import Reals List Bool ZArith Lia Lra.
From Verif Require Import StatModel McmcModel McmcProofs ImpModel ImpSpec ImpProofs ImpProofs2.
Import ListNotations.
Local Open Scope R_scope.
Local Open Scope list_scope.
Local Opaque logZero tiny.

(** The redone likelihoods and the weights in use *)
Definition reweights {X} (C : config X) : Prop := likelihoods C = true /\ like_only C = false /\ nochange C = false.

(** C98: each sample after those left out at the beginning is weighted by the ratio of the likelihoods *)
Theorem C98_weights {X} (C : config X) fuel agree offset rows f junk n :
  reweights C -> auto C = false -> (thin C <= 1)%Z -> (n < fuel)%nat -> dropped (from_text C) f (length rows) n ->
  exists b, chain C fuel agree offset (map item_of rows) (start C f junk (map item_of rows)) = Written b /\
            importance (allowed C) (post C) logZero tiny offset (skipn n rows) b.
Proof.
  intros (L1 & L2 & L3) A1 T1 F1 D1. eexists. split.
  - apply chain_noscale with (n := n); try assumption. left. unfold active. now rewrite A1.
  - now apply emit_importance.
Qed.

(** and so samples of the old distribution become samples of the new one *)
Theorem C98_target {X} (C : config X) fuel agree offset rows f junk n (eqX : X -> X -> bool) L0 k x :
  reweights C -> auto C = false -> (thin C <= 1)%Z -> (n < fuel)%nat -> dropped (from_text C) f (length rows) n ->
  (forall y z, eqX y z = true <-> y = z) ->
  (forall r, In r (skipn n rows) -> like_of r = L0 (point_of r)) ->
  total (eqX x) (skipn n rows) = k * exp (- L0 x) ->
  (forall r, In r (skipn n rows) -> point_of r = x -> tiny < new_weight (post C) offset r) ->
  exists b, chain C fuel agree offset (map item_of rows) (start C f junk (map item_of rows)) = Written b /\
    total (eqX x) b = (if allowed C x then if Reqb (post C x) logZero then 0 else k * exp offset * exp (- post C x) else 0).
Proof.
  intros RW A1 T1 F1 D1 EX HL HT HW.
  destruct (C98_weights C fuel agree offset rows f junk n RW A1 T1 F1 D1) as (b & Hb & Ib).
  exists b. split; [exact Hb |].
  assert (E1 : forall y, eqX x y = true -> y = x) by (intros y Hy; symmetry; now apply EX).
  destruct (allowed C x) eqn:EA.
  2: { apply (total_none (allowed C) (post C) offset (eqX x) x (skipn n rows)); auto. }
  destruct (Reqb (post C x) logZero) eqn:EZ.
  { apply Reqb_spec in EZ. apply (total_none (allowed C) (post C) offset (eqX x) x (skipn n rows)); auto. }
  apply Reqb_false in EZ.
  rewrite (total_importance (allowed C) (post C) offset (eqX x) x (skipn n rows) b Ib E1 EA EZ).
  2: { intros r Hr Ef. apply HW; [exact Hr | now apply E1]. }
  replace (k * exp offset * exp (- post C x)) with ((k * exp (- L0 x)) * exp (L0 x - post C x + offset)).
  2: { replace (L0 x - post C x + offset) with (L0 x + (- post C x + offset)) by lra. rewrite !exp_plus.
       assert (E : exp (- L0 x) * exp (L0 x) = 1) by (rewrite <- exp_plus, Rplus_opp_l; apply exp_0).
       replace (k * exp (- L0 x) * (exp (L0 x) * (exp (- post C x) * exp offset)))
         with (k * (exp (- L0 x) * exp (L0 x)) * (exp (- post C x) * exp offset)) by ring. rewrite E. ring. }
  rewrite <- HT. unfold total. clear HT HW Ib Hb.
  induction (skipn n rows) as [| r l IH]; [unfold sumR; cbn; ring |].
  cbn [filter]. destruct (eqX x (point_of r)) eqn:Er; [| apply IH; intros; apply HL; now right].
  cbn [map]. unfold sumR in *. cbn [fold_right]. rewrite IH by (intros; apply HL; now right).
  unfold new_weight. rewrite (HL r (or_introl eq_refl)), (E1 _ Er). ring.
Qed.

(** With redo_change_like_only the weights are kept, with redo_nochange the likelihoods too *)
Theorem C98_like_only {X} (C : config X) fuel agree offset rows f junk n :
  likelihoods C = true -> like_only C = true -> nochange C = false -> (thin C <= 1)%Z -> (n < fuel)%nat ->
  dropped (from_text C) f (length rows) n ->
  exists b, chain C fuel agree offset (map item_of rows) (start C f junk (map item_of rows)) = Written b /\
            selected (allowed C) (fun r => post C (point_of r)) tiny (skipn n rows) b.
Proof.
  intros L1 L2 L3 T1 F1 D1. eexists. split.
  - apply chain_noscale with (n := n); try assumption. left. unfold active. rewrite L2. cbn. now rewrite !andb_false_r.
  - apply emit_selected; [intro; now apply usable_allowed | intro r; unfold newlike; now rewrite L3, L1 | right; now left].
Qed.
Theorem C98_nochange {X} (C : config X) fuel agree offset rows f junk n :
  likelihoods C = true -> nochange C = true -> (thin C <= 1)%Z -> (n < fuel)%nat ->
  dropped (from_text C) f (length rows) n ->
  exists b, chain C fuel agree offset (map item_of rows) (start C f junk (map item_of rows)) = Written b /\
            selected (allowed C) like_of tiny (skipn n rows) b.
Proof.
  intros L1 L3 T1 F1 D1. eexists. split.
  - apply chain_noscale with (n := n); try assumption. left. unfold active. rewrite L3. cbn. now rewrite !andb_false_r.
  - apply emit_selected; [intro; now apply usable_allowed | intro r; unfold newlike; now rewrite L3 | right; now right].
Qed.

(** C99: thinning takes every k-th step of the chain, counted on from what thin_acc is before *)
Theorem C99_every_partial {X} (C : config X) fuel agree offset l f junk n a :
  reweights C -> auto C = false -> from_text C = true -> (1 < thin C)%Z -> (0 < fuel)%nat ->
  acc junk = Z.of_nat a -> (a < Z.to_nat (thin C))%nat -> dropped true f (length l) n ->
  exists t b, chain C fuel agree offset (map item_of (weighted l)) (start C f junk (map item_of (weighted l))) = Written b /\
    repeated t = every (Z.to_nat (thin C)) a (repeated (skipn n l)) /\
    importance (allowed C) (post C) logZero tiny offset (weighted t) b.
Proof.
  intros (L1 & L2 & L3) A1 X1 T1 F1 J1 J2 D1. set (s0 := start C f junk (map item_of (weighted l))).
  assert (E2 : skipn (nburn (skip s0)) (weighted l) = weighted (skipn n l)).
  { unfold s0. cbn [start skip]. rewrite (nburn_text C f (weighted l) X1 n).
    - unfold weighted. apply skipn_map.
    - unfold weighted. now rewrite map_length. }
  destruct (picked_every C (skipn n l) a T1 J2) as (t & P1 & P2).
  exists t. eexists. split; [| split; [exact P2 |]].
  - rewrite (chain_quiet C fuel agree offset (weighted l) s0).
    + rewrite E2. unfold s0. cbn [start acc]. rewrite J1, P1. reflexivity.
    + split; [exact F1 | now left].
    + rewrite E2. apply integer_nat.
    + left. unfold active. now rewrite A1.
  - now apply emit_importance.
Qed.
(** With automatic scaling of the likelihoods, too, some a, between 0 and the k of thinning, is counted on from *)
Theorem C99_restart_partial {X} (C : config X) fuel offset l f junk n :
  reweights C -> from_text C = true -> (1 < thin C)%Z -> (0 < fuel)%nat ->
  (0 <= acc junk < thin C)%Z -> dropped true f (length l) n ->
  exists a t b o, (a < Z.to_nat (thin C))%nat /\
    chain_single C fuel offset (map item_of (weighted l), start C f junk (map item_of (weighted l))) = Written b /\
    repeated t = every (Z.to_nat (thin C)) a (repeated (skipn n l)) /\
    importance (allowed C) (post C) logZero tiny o (weighted t) b.
Proof.
  intros (L1 & L2 & L3) X1 T1 F1 J1 D1. set (s0 := start C f junk (map item_of (weighted l))).
  assert (E2 : skipn (nburn (skip s0)) (weighted l) = weighted (skipn n l)).
  { unfold s0. cbn [start skip]. rewrite (nburn_text C f (weighted l) X1 n).
    - unfold weighted. apply skipn_map.
    - unfold weighted. now rewrite map_length. }
  assert (F2 : fine C fuel (skip s0)) by (split; [exact F1 | now left]).
  assert (I2 : integer_weights C (skipn (nburn (skip s0)) (weighted l))) by (rewrite E2; apply integer_nat).
  assert (G : exists z o, (0 <= z < thin C)%Z /\ chain_single C fuel offset (map item_of (weighted l), s0) =
            Written (flat_map (emit C o) (picked C z (weighted (skipn n l))))).
  { unfold chain_single. cbn [fst snd].
    destruct (active C true) eqn:EA.
    - destruct (le_lt_dec (count C) 0) as [H0 | H0].
      + exists (acc junk), offset. split; [exact J1 |]. rewrite (chain_quiet C fuel _ offset (weighted l) s0 F2 I2).
        * now rewrite E2.
        * right. right. lia.
      + destruct (le_lt_dec (count C) (length (ufilter C (picked C (acc s0) (skipn (nburn (skip s0)) (weighted l)))))) as [H1 | H1].
        * destruct (chain_trigger C fuel (fun d => Some d) offset (weighted l) s0 F2 I2 EA (conj H0 H1)) as (z & Hz & E3).
          cbv zeta in E3. rewrite E3. match goal with |- context [Rltb _ (Rabs ?d)] => destruct (Rltb (max_diff C) (Rabs d)) eqn:ED; [exists z, d | exists (acc junk), offset] end.
          -- split; [| now rewrite E2]. apply Hz; [intros _; exact J1 | apply nonneg_nat | exact T1].
          -- split; [exact J1 |]. now rewrite E2.
        * exists (acc junk), offset. split; [exact J1 |]. rewrite (chain_quiet C fuel _ offset (weighted l) s0 F2 I2).
          -- now rewrite E2.
          -- right. now left.
    - exists (acc junk), offset. split; [exact J1 |]. rewrite (chain_quiet C fuel _ offset (weighted l) s0 F2 I2).
      + now rewrite E2.
      + now left. }
  destruct G as (z & o & Hz & E3).
  destruct (picked_every C (skipn n l) (Z.to_nat z) T1) as (t & P1 & P2); [lia |]. rewrite Z2Nat.id in P1 by lia.
  exists (Z.to_nat z), t. eexists. exists o. split; [lia |]. split; [exact E3 |]. split; [exact P2 |].
  rewrite P1. now apply emit_importance.
Qed.

(** C100: the chains of an MPI run are given the same offset if all, or none, have enough samples to look at *)
Definition here {X} (C : config X) (f : R) (c : list (R * R * X) * st X) : option (list (item X) * st X) :=
  Some (map item_of (fst c), start C f (snd c) (map item_of (fst c))).
Theorem C100_common_partial {X} (C : config X) fuel offset (cs : list (list (R * R * X) * st X)) f burn :
  reweights C -> auto C = true -> (thin C <= 1)%Z -> (0 < count C)%nat -> 0 <= max_diff C -> cs <> [] ->
  Forall (fun c => (burn c < fuel)%nat /\ dropped (from_text C) f (length (fst c)) (burn c) /\
                   Forall (fun r => like_of r <= logZero /\ post C (point_of r) <= logZero) (fst c)) cs ->
  let enough c := (count C <= length (filter (fun r => allowed C (point_of r)) (skipn (burn c) (fst c))))%nat in
  Forall enough cs \/ Forall (fun c => ~ enough c) cs ->
  exists o,
    Forall2 (fun c r => exists b, r = Written b /\ importance (allowed C) (post C) logZero tiny o (skipn (burn c) (fst c)) b)
            cs (chains_mpi C fuel offset (map (here C f) cs)) /\
    (o = offset \/
     (max_diff C < Rabs o /\ exists ds,
        Forall2 (fun c d => best_difference logZero (map like_of (looked C (skipn (burn c) (fst c))))
                              (map (fun r => post C (point_of r)) (looked C (skipn (burn c) (fst c)))) d) cs ds /\
        let fin := filter (fun d => negb (Reqb d logZero)) ds in o * INR (length fin) = sumR fin)).
Proof.
  intros (L1 & L2 & L3) A1 T1 C1 M1 NE H enough [HE | HE].
  - set (P := fun (c : list (R * R * X) * st X) d => best_difference logZero (map like_of (looked C (skipn (burn c) (fst c))))
                              (map (fun r => post C (point_of r)) (looked C (skipn (burn c) (fst c)))) d /\
      forall agree, chain C fuel agree offset (map item_of (fst c)) (start C f (snd c) (map item_of (fst c))) =
      match agree d with
      | None => Waits d
      | Some d => if Rltb (max_diff C) (Rabs d) then Written (flat_map (emit C d) (skipn (burn c) (fst c)))
                  else Written (flat_map (emit C offset) (skipn (burn c) (fst c)))
      end).
    assert (HP : Forall (fun c => exists d, P c d) cs).
    { rewrite Forall_forall in *. intros c Hc. destruct (H c Hc) as (H1 & H2 & H3). specialize (HE c Hc).
      destruct (chain_scale C fuel (fun _ => None) offset (fst c) f (snd c) (burn c) L1 L2 L3 A1 T1 C1 H1 H2 HE H3) as (d & B & E).
      exists d. split; [exact B |]. intro agree.
      destruct (chain_scale C fuel agree offset (fst c) f (snd c) (burn c) L1 L2 L3 A1 T1 C1 H1 H2 HE H3) as (d' & B' & E').
      assert (d' = d); [| now subst].
      destruct B as (a1 & b1 & Ba1 & Bb1 & B), B' as (a2 & b2 & Ba2 & Bb2 & B').
      assert (a1 = a2) by (destruct Ba1 as [i1 j1], Ba2 as [i2 j2]; apply Rle_antisym; auto).
      assert (b1 = b2) by (destruct Bb1 as [i1 j1], Bb2 as [i2 j2]; apply Rle_antisym; auto).
      subst. destruct B as [[B D] | [B D]], B' as [[B' D'] | [B' D']]; congruence. }
    apply Forall_exists2 in HP. destruct HP as (ds & HP).
    assert (ES : allSome (map (fun c => match c with Some c => sent C fuel offset c | None => None end) (map (here C f) cs)) = Some ds).
    { rewrite map_map. apply allSome_map. clear -HP. induction HP as [| c d cs ds [_ Hd] _ IH]; [constructor |].
      constructor; [| exact IH]. unfold here, sent. cbn [fst snd]. now rewrite Hd. }
    set (g := gathered ds).
    assert (EC : chains_mpi C fuel offset (map (here C f) cs) =
      map (fun c => chain C fuel (fun _ => Some g) offset (map item_of (fst c)) (start C f (snd c) (map item_of (fst c)))) cs).
    { unfold chains_mpi. rewrite ES. rewrite flat_map_concat_map, map_map. unfold here. cbn [fst snd].
      rewrite <- flat_map_concat_map. apply flat_map_single. }
    rewrite EC. exists (if Rltb (max_diff C) (Rabs g) then g else offset). split.
    + clearbody g. clear -HP L1 L2 L3. induction HP as [| c d cs ds [_ Hd] _ IH]; [constructor |]. cbn [map]. constructor; [| exact IH].
      rewrite Hd. destruct (Rltb (max_diff C) (Rabs g)); eexists; (split; [reflexivity | now apply emit_importance]).
    + destruct (Rltb (max_diff C) (Rabs g)) eqn:EG; [right | now left]. apply Rltb_spec in EG. split; [exact EG |].
      exists ds. split.
      * clear -HP. induction HP as [| c d cs ds [B _] _ IH]; constructor; assumption.
      * cbv zeta. unfold g, gathered in *. destruct (filter _ ds) as [| u us] eqn:EF.
        -- rewrite Rabs_R0 in EG. lra.
        -- field. apply not_0_INR. discriminate.
  - exists offset. split; [| now left].
    assert (EC : forall agree, map (fun c => chain C fuel agree offset (map item_of (fst c)) (start C f (snd c) (map item_of (fst c)))) cs =
              map (fun c => Written (flat_map (emit C offset) (skipn (burn c) (fst c)))) cs).
    { intro agree. apply map_ext_in. intros c Hc. rewrite Forall_forall in H, HE. destruct (H c Hc) as (H1 & H2 & H3).
      apply chain_noscale; try assumption. right. specialize (HE c Hc). unfold enough in HE. lia. }
    unfold chains_mpi. rewrite flat_map_concat_map, map_map. unfold here. cbn [fst snd]. rewrite <- flat_map_concat_map, flat_map_single.
    rewrite EC. clear -L1 L2 L3. induction cs as [| c cs IH]; constructor; [| exact IH].
    eexists. split; [reflexivity | now apply emit_importance].
Qed.

(** C101: a part of a .data file: at least two samples are left out *)
Theorem C101_part_partial {X} (C : config X) fuel agree offset rows f junk k header record :
  reweights C -> auto C = false -> from_text C = false -> (thin C <= 1)%Z -> 0 < f < 1 ->
  (0 <= header < record)%Z -> quot C = Z.div (header + Z.of_nat (length rows) * record) record ->
  floor_of (INR (length rows) * f) k -> (Nat.max 2 k + 2 < fuel)%nat ->
  exists b, chain C fuel agree offset (map item_of rows) (start C f junk (map item_of rows)) = Written b /\
            importance (allowed C) (post C) logZero tiny offset (skipn (Nat.max 2 k) rows) b.
Proof.
  intros (L1 & L2 & L3) A1 X1 T1 Hf HR HQ HK F.
  assert (EQ : quot C = Z.of_nat (length rows)).
  { rewrite HQ, Z.div_add by lia. rewrite Z.div_small by lia. lia. }
  eexists. split.
  - apply data_part with (k := k) (n := Nat.max 2 k); try assumption; try reflexivity.
    + unfold active. now rewrite A1.
    + lia.
    + rewrite EQ, <- INR_IZR_INZ. exact HK.
  - now apply emit_importance.
Qed.
(** A number of samples, or a part of a text file *)
Theorem C101_rows {X} (C : config X) fuel agree offset rows f junk n :
  likelihoods C = false -> new_theory C = false -> (thin C <= 1)%Z -> (n < fuel)%nat ->
  dropped (from_text C) f (length rows) n -> Forall (fun r => tiny < weight_of r) rows -> auto C = false ->
  chain C fuel agree offset (map item_of rows) (start C f junk (map item_of rows)) = Written (skipn n rows).
Proof.
  intros L1 N1 T1 F1 D1 W A1. set (s0 := start C f junk (map item_of rows)).
  destruct (start_fine C fuel f junk rows n F1 (or_intror T1) D1) as [F2 E2]. fold s0 in F2, E2.
  rewrite (chain_quiet C fuel agree offset rows s0 F2).
  - rewrite E2, picked_all by exact T1. f_equal.
    assert (W2 : Forall (fun r => tiny < weight_of r) (skipn n rows)).
    { rewrite <- (firstn_skipn n rows) in W. apply Forall_app in W. now destruct W. }
    clear E2. induction W2 as [| r l Hr _ IH]; [reflexivity |]. cbn [flat_map]. rewrite IH. unfold emit, usable, newmult, newlike.
    rewrite L1, N1. cbn [negb orb andb]. apply Rltb_spec in Hr. rewrite Hr. destruct (nochange C); destruct r as [[m v] p]; reflexivity.
  - intro; lia.
  - left. unfold active. now rewrite A1.
Qed.

(** ** Findings and examples.  Points are numbers, the new likelihood is given by [new], all of thin = k etc. as in the arguments. *)
Ltac dec := repeat match goal with
  | |- context [Rltb ?a ?b] => first [ replace (Rltb a b) with true by (symmetry; apply Rltb_spec; lra)
                                     | replace (Rltb a b) with false by (symmetry; apply Rltb_false; lra) ]
  | |- context [Rleb ?a ?b] => first [ replace (Rleb a b) with true by (symmetry; apply Rleb_true; lra)
                                     | replace (Rleb a b) with false by (symmetry; apply Rleb_false; lra) ]
  end.
Lemma tiny_lt_1 : tiny < 1.
Proof.
  Transparent tiny. unfold tiny. Opaque tiny. pose proof Rinv_1 as E. rewrite <- E.
  apply Rinv_1_lt_contravar; [lra | apply Rlt_pow_R1; [lra | lia]].
Qed.
Definition setup (text likes : bool) (k : Z) (scale : bool) (new : nat -> R) : config nat :=
  mkI text likes false false false k scale 10 2 10 7%nat (fun _ => true) (fun _ => true) new.
Definition junk0 : st nat := mkSt 0 0 0 0 0%nat 0 0 0 0 0 [].

Lemma dropped_none text len : dropped text 0 len 0.
Proof. left. split; [lra | reflexivity]. Qed.

(** C101: a row with NaN in a text chain is not left out: the parameters are the central ones, weight and likelihood those of the row
    before *)
Theorem C101_nan_refuted :
  chain (setup true false 1 false (fun _ => 0)) 1 (fun d => Some d) 0 [Row 1 3 5%nat; Nan] (start (setup true false 1 false (fun _ => 0)) 0 junk0 [Row 1 3 5%nat; Nan])
  = Written [(1, 3, 5%nat); (1, 3, 7%nat)].
Proof.
  pose proof tiny_lt_1.
  assert (ES : start_skip (setup true false 1 false (fun _ => 0)) 0 [Row 1 3 5%nat; Nan] = 0).
  { unfold start_skip. cbn [setup from_text andb]. replace (Rltb 0 1) with true by (symmetry; apply Rltb_spec; lra).
    rewrite Rmult_0_r. change 0 with (INR 0) at 1. now rewrite nint_INR. }
  unfold start. rewrite ES.
  unfold chain, init, setup, junk0, pass, step, thinned, process, check_scale, write_point, at_end.
  cbn -[Rltb Rleb Rmin Rabs]. unfold step. cbn -[Rltb Rleb Rmin Rabs].
  dec. cbn -[Rltb Rleb Rmin Rabs].
  unfold thinned, process, check_scale, write_point, write, set_used. cbn -[Rltb Rleb Rmin Rabs]. dec. cbn -[Rltb Rleb Rmin Rabs]. dec.
  cbn -[Rltb Rleb Rmin Rabs]. reflexivity.
Qed.

Lemma half_tiny : tiny < / 4.
Proof.
  Transparent tiny. unfold tiny. Opaque tiny. apply Rinv_lt_contravar; [apply Rmult_lt_0_compat; [lra | apply pow_lt; lra] |].
  apply Rlt_le_trans with (10 ^ 1); [lra | apply Rle_pow; [lra | lia]].
Qed.
Lemma zero_not_logZero : 0 <> logZero.
Proof. Transparent logZero. unfold logZero. Opaque logZero. intro H. assert (0 < 10 ^ 30) by (apply pow_lt; lra). lra. Qed.
Lemma logZero_big : 100 < logZero.
Proof.
  Transparent logZero. unfold logZero. Opaque logZero. apply Rlt_le_trans with (10 ^ 3); [lra |]. apply Rle_pow; [lra | lia].
Qed.

(** C99: thin_acc is not set before it is used: with 11 in it the first sample, of weight 1, gets weight 6 for redo_thin=2 *)
Theorem C99_start_refuted :
  chain (setup true false 2 false (fun _ => 0)) 1 (fun d => Some d) 0 [Row 1 3 5%nat]
        (start (setup true false 2 false (fun _ => 0)) 0 (mkSt 0 11 0 0 0%nat 0 0 0 0 0 []) [Row 1 3 5%nat])
  = Written [(6, 3, 5%nat)].
Proof.
  pose proof tiny_lt_1. assert (N1 : nint 1 = 1%Z) by (change 1 with (INR 1) at 1; now rewrite nint_INR).
  set (C := setup true false 2 false (fun _ => 0)). change [Row 1 3 5%nat] with (map (@item_of nat) [(1, 3, 5%nat)]).
  rewrite (chain_quiet C).
  - unfold start. cbn [skip acc]. rewrite (nburn_text C 0 _ eq_refl 0 (dropped_none _ _)). cbn [skipn picked C setup thin].
    rewrite N1. cbn -[Rltb]. dec. reflexivity.
  - split; [lia | now left].
  - intros _. unfold start. cbn [skip]. rewrite (nburn_text C 0 _ eq_refl 0 (dropped_none _ _)). cbn [skipn].
    apply Forall_cons; [| constructor]. cbn [weight_of fst]. rewrite N1.
    match goal with |- Rabs ?a <= _ => replace a with 0 by lra end. rewrite Rabs_R0. lra.
  - now left.
Qed.

(** C99: at the end of a .data file the weight that was written last is tested to be an integer, and the program stops *)
Theorem C99_stop_refuted :
  chain (setup false true 2 false (fun _ => 0)) 1 (fun d => Some d) (ln (/ 4)) [Row 2 0 5%nat]
        (start (setup false true 2 false (fun _ => 0)) 0 junk0 [Row 2 0 5%nat])
  = Stopped.
Proof.
  pose proof half_tiny. pose proof zero_not_logZero.
  assert (N2 : nint 2 = 2%Z) by (change 2 with (INR 2) at 1; now rewrite nint_INR).
  assert (N4 : nint (/ 4) = 0%Z).
  { unfold nint. dec. apply Z.le_antisymm; [| apply Int_part_le; simpl (IZR 0); lra].
    destruct (base_Int_part (/ 4 + / 2)) as [B1 B2]. assert (D : IZR (Int_part (/ 4 + / 2)) < IZR 1) by (simpl; lra). apply lt_IZR in D. lia. }
  set (C := setup false true 2 false (fun _ => 0)). set (s0 := start C 0 junk0 [Row 2 0 5%nat]).
  assert (E1 : exists s1, step C (fun d => Some d) true (ln (/ 4)) (Row 2 0 5%nat) (init s0) = Next s1 /\ mult s1 = / 4 /\ skip s1 = 0 /\ num s1 = 1%Z).
  { assert (ES : init s0 = mkSt 0 0 0 0 0%nat 0 0 0 logZero logZero []) by reflexivity. rewrite ES.
    unfold step. cbn -[Rltb Rleb thinned]. dec. cbn [andb]. unfold thinned. cbn -[Rltb Rabs nint process].
    rewrite N2. rewrite Rminus_diag_eq by reflexivity. rewrite Rabs_R0. dec. cbn -[Rltb Rabs process].
    unfold process. cbn -[Rltb Rabs check_scale Reqb exp ln]. replace (Reqb 0 logZero) with false by (symmetry; apply Reqb_false; assumption).
    replace (0 - 0 + ln (/ 4)) with (ln (/ 4)) by lra. rewrite exp_ln by lra. rewrite Rmult_1_l.
    unfold check_scale. cbn -[Rltb]. unfold write_point. cbn -[Rltb]. dec. eexists. split; [reflexivity |]. now repeat split. }
  destruct E1 as (s1 & E1 & M1 & K1 & U1).
  unfold chain. cbn [pass]. rewrite E1. cbn [at_end]. unfold step. cbn [C setup from_text]. cbn [skip set_num num]. rewrite K1. dec. cbn [andb].
  replace (Rleb (IZR (num s1 + 1)) 0) with false by (symmetry; apply Rleb_false; rewrite U1; simpl; lra).
  unfold thinned. cbn [thin mult set_num]. rewrite M1, N4. cbn [Z.ltb Z.compare Pos.compare Pos.compare_cont].
  replace (Rabs (0 - / 4)) with (/ 4) by (rewrite Rabs_left; lra). dec. reflexivity.
Qed.

(** C100: a chain with fewer samples than redo_auto_likescale_count, or without a file, keeps the others waiting *)
Definition good (p : nat) : R * R * nat := (1, 3, p).
Lemma good_waits agree : exists d,
  chain (setup true true 1 true (fun _ => 3)) 1 agree 0 (map item_of [good 5; good 6])
    (start (setup true true 1 true (fun _ => 3)) 0 junk0 (map item_of [good 5; good 6])) =
  match agree d with None => Waits d | Some d => if Rltb 10 (Rabs d) then Written (flat_map (emit (setup true true 1 true (fun _ => 3)) d) [good 5; good 6])
                                                  else Written (flat_map (emit (setup true true 1 true (fun _ => 3)) 0) [good 5; good 6]) end.
Proof.
  pose proof logZero_big. set (C := setup true true 1 true (fun _ => 3)).
  destruct (chain_scale C 1 agree 0 [good 5; good 6] 0 junk0 0) as (d & B & E); try reflexivity; try (cbn; lia).
  { apply dropped_none. }
  { repeat constructor; cbn; lra. }
  exists d. exact E.
Qed.
Theorem C100_waits_refuted : exists d,
  chains_mpi (setup true true 1 true (fun _ => 3)) 1 0 (map (here (setup true true 1 true (fun _ => 3)) 0) [([good 5; good 6], junk0); ([good 5], junk0)])
    = [Waits d; Written [(1, 3, 5%nat)]] /\
  chains_mpi (setup true true 1 true (fun _ => 3)) 1 0 [here (setup true true 1 true (fun _ => 3)) 0 ([good 5; good 6], junk0); None] = [Waits d].
Proof.
  pose proof logZero_big. pose proof tiny_lt_1.
  destruct (good_waits (fun _ => None)) as (d & E). exists d. set (C := setup true true 1 true (fun _ => 3)) in *.
  assert (E5 : forall agree, chain C 1 agree 0 (map item_of [good 5]) (start C 0 junk0 (map item_of [good 5])) = Written [(1, 3, 5%nat)]).
  { intro agree. rewrite (chain_noscale C 1 agree 0 [good 5] 0 junk0 0); try reflexivity; try (cbn; lia).
    - cbn [skipn flat_map]. unfold emit, newmult, newlike. cbn [C setup usable likelihoods cuts_ok new_theory negb orb andb point_of good snd like_only nochange post].
      unfold usable. cbn. replace (Reqb 3 logZero) with false by (symmetry; apply Reqb_false; lra).
      replace (3 - 3 + 0) with 0 by lra. rewrite exp_0, Rmult_1_r. dec. reflexivity.
    - apply dropped_none. }
  cbn [map] in E, E5. split.
  - unfold chains_mpi, here. cbn [map fst snd]. unfold sent. cbn [fst snd]. rewrite E, E5. cbn [allSome flat_map app fst snd]. now rewrite E, E5.
  - unfold chains_mpi, here. cbn [map fst snd flat_map app]. unfold sent. cbn [fst snd]. rewrite E. cbn [allSome flat_map app fst snd]. now rewrite E.
Qed.
(** C100: without MPI, if none of the samples looked at has a likelihood, logZero becomes the offset *)
Theorem C100_single_refuted :
  let new p := if Nat.leb 7 p then 3 else logZero in
  let C := setup true true 1 true new in
  chain_single C 1 0 (map item_of [good 5; good 6; good 7], start C 0 junk0 (map item_of [good 5; good 6; good 7])) =
  Written [(exp logZero, 3, 7%nat)].
Proof.
  intros new C. pose proof logZero_big. pose proof tiny_lt_1. unfold chain_single. cbn [fst snd].
  destruct (chain_scale C 1 (fun d => Some d) 0 [good 5; good 6; good 7] 0 junk0 0) as (d & B & E); try reflexivity; try (cbn; lia).
  { apply dropped_none. }
  { repeat constructor; cbn; lra. }
  rewrite E. destruct B as (a & b & B1 & B2 & B).
  assert (a = logZero). { destruct B1 as [B1 _]. cbn in B1. destruct B1 as [B1 | [B1 | []]]; now symmetry. }
  destruct B as [[B _] | [_ B]]; [contradiction |]. subst d.
  replace (Rltb (max_diff C) (Rabs logZero)) with true.
  2: { symmetry. apply Rltb_spec. cbn [C setup max_diff]. rewrite Rabs_right by lra. lra. }
  cbn [skipn flat_map]. unfold emit, newmult, newlike, usable. cbn -[Rltb Reqb exp].
  replace (Reqb logZero logZero) with true by (symmetry; now apply Reqb_spec). rewrite Rmult_0_r.
  replace (Reqb 3 logZero) with false by (symmetry; apply Reqb_false; lra).
  pose proof tiny_pos. dec. replace (3 - 3 + logZero) with logZero by lra. rewrite Rmult_1_l.
  assert (1 < exp logZero) by (rewrite <- exp_0; apply exp_increasing; lra). dec. reflexivity.
Qed.

(** C101: a tenth of ten samples is one, but two are left out of a .data file *)
Definition ten : list (R * R * nat) := map good (seq 0 10).
Theorem C101_part_refuted :
  chain (setup false false 1 false (fun _ => 3)) 9 (fun d => Some d) 0 (map item_of ten) (start (setup false false 1 false (fun _ => 3)) (/ 10) junk0 (map item_of ten))
    = Written (skipn 2 ten) /\ nearest (INR (length ten) * / 10) 1.
Proof.
  pose proof tiny_lt_1. split.
  - rewrite (data_part (setup false false 1 false (fun _ => 3)) 9 (fun d => Some d) 0 ten (/ 10) junk0 1 2); try reflexivity; try (cbn; lia); try lra.
    + cbn [skipn ten map seq flat_map app]. unfold emit, usable, newmult, newlike. cbn -[Rltb]. dec. reflexivity.
    + unfold floor_of. cbn. lra.
  - unfold nearest, ten. rewrite map_length, seq_length. cbn. lra.
Qed.

(** Examples for the theorems: weights of two samples, and the thinning of a chain *)
Example C98_example : reweights (setup true true 1 false (fun p => INR p)) /\
  chain (setup true true 1 false (fun p => INR p)) 1 (fun d => Some d) 0 (map item_of [(2, 3, 1%nat); (1, 3, 2%nat)])
    (start (setup true true 1 false (fun p => INR p)) 0 junk0 (map item_of [(2, 3, 1%nat); (1, 3, 2%nat)])) =
  Written [(2 * exp 2, 1, 1%nat); (exp 1, 2, 2%nat)] /\
  total (Nat.eqb 1) [(2, 3, 1%nat); (1, 3, 2%nat)] = 2 * exp 3 * exp (- 3) /\
  forall r, In r [(2, 3, 1%nat); (1, 3, 2%nat)] -> point_of r = 1%nat -> tiny < new_weight (fun p => INR p) 0 r.
Proof.
  pose proof logZero_big. pose proof tiny_lt_1. split; [repeat split |].
  pose proof (exp_increasing 0 1 ltac:(lra)) as G1. pose proof (exp_increasing 0 2 ltac:(lra)) as G2. rewrite exp_0 in G1, G2.
  split; [| split].
  - rewrite (chain_noscale _ 1 _ 0 _ 0 junk0 0); try reflexivity; try (cbn; lia).
    + cbn [skipn flat_map]. unfold emit, newmult, newlike, usable. cbn -[Rltb Reqb exp].
      replace (Reqb 1 logZero) with false by (symmetry; apply Reqb_false; lra).
      replace (Reqb (1 + 1) logZero) with false by (symmetry; apply Reqb_false; lra).
      replace (3 - 1 + 0) with 2 by lra. replace (3 - (1 + 1) + 0) with 1 by lra. rewrite Rmult_1_l. dec. cbn.
      repeat f_equal; lra.
    + apply dropped_none.
  - unfold total. cbn. rewrite Rmult_assoc, <- exp_plus. replace (3 + -3) with 0 by lra. rewrite exp_0. lra.
  - intros r [E | [E | []]]; subst r; cbn; [intros _ | discriminate]. unfold new_weight. cbn. replace (3 - 1 + 0) with 2 by lra. lra.
Qed.
Example C99_example : repeated [(1%nat, (0, 5%nat)); (1%nat, (0, 7%nat))] =
  every 3 0 (repeated [(2%nat, (0, 4%nat)); (3%nat, (0, 5%nat)); (2%nat, (0, 7%nat))]).
Proof. reflexivity. Qed.
Example C100_example : exists o, Forall2 (fun c r => exists b, r = Written b /\
    importance (allowed (setup true true 1 true (fun _ => 3))) (fun _ => 3) logZero tiny o (skipn 0 (fst c)) b)
  [([good 5; good 6], junk0); ([good 6; good 7], junk0)]
  (chains_mpi (setup true true 1 true (fun _ => 3)) 1 0 (map (here (setup true true 1 true (fun _ => 3)) 0) [([good 5; good 6], junk0); ([good 6; good 7], junk0)])).
Proof.
  pose proof logZero_big.
  destruct (C100_common_partial (setup true true 1 true (fun _ => 3)) 1 0 [([good 5; good 6], junk0); ([good 6; good 7], junk0)] 0 (fun _ => 0%nat)) as (o & H1 & _);
    try (cbn; lia); try reflexivity.
  - repeat split.
  - cbn. lra.
  - discriminate.
  - repeat (apply Forall_cons || apply Forall_nil); (split; [lia | split; [apply dropped_none | repeat constructor; cbn; lra]]).
  - left. repeat constructor; cbn; lia.
  - exists o. exact H1.
Qed.
Example C101_example : dropped true (/ 4) 10 3 /\ dropped false (5 / 2) 10 2.
Proof. split; [right; left | right; right]; repeat split; cbn; lra. Qed.

Print Assumptions C98_weights.
Print Assumptions C98_target.
Print Assumptions C98_like_only.
Print Assumptions C98_nochange.
Print Assumptions C101_nan_refuted.
Print Assumptions C99_every_partial.
Print Assumptions C99_restart_partial.
Print Assumptions C99_start_refuted.
Print Assumptions C99_stop_refuted.
Print Assumptions C100_common_partial.
Print Assumptions C100_waits_refuted.
Print Assumptions C100_single_refuted.
Print Assumptions C101_part_partial.
Print Assumptions C101_rows.
Print Assumptions C101_part_refuted.
