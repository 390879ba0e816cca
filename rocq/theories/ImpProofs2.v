From Coq Require Import Reals List Bool ZArith Lia Lra.
From Verif Require Import StatModel McmcModel McmcProofs ImpModel ImpSpec ImpProofs.
Import ListNotations.
Local Open Scope R_scope.
Local Open Scope list_scope.

Lemma tiny_pos : 0 < tiny.
Proof. unfold tiny. apply Rinv_0_lt_compat. apply pow_lt. lra. Qed.
Local Opaque logZero tiny.

Section Imp.
  Context {X : Type}.
  Notation row := (R * R * X)%type.
  Variable C : config X.

  Definition allowed (p : X) : bool := cuts_ok C p && (negb (new_theory C) || theory_ok C p).
  Lemma emit_importance o rows : likelihoods C = true -> like_only C = false -> nochange C = false ->
    importance allowed (post C) logZero tiny o rows (flat_map (emit C o) rows).
  Proof.
    intros L1 L2 L3. induction rows as [| r rows IH]; [constructor |]. cbn [flat_map]. unfold emit at 1, newmult, newlike, usable.
    rewrite L1, L2, L3. cbn [andb negb orb]. fold (allowed (point_of r)).
    destruct (allowed (point_of r)) eqn:EA; [| apply be_out; [now left | exact IH]].
    destruct (Reqb (post C (point_of r)) logZero) eqn:EZ.
    - assert (E : Rltb tiny (weight_of r * 0) = false) by (apply Rltb_false; rewrite Rmult_0_r; pose proof tiny_pos; lra).
      rewrite E. apply be_out; [right; left; now apply Reqb_spec in EZ | exact IH].
    - apply Reqb_false in EZ. fold (new_weight (post C) o r).
      destruct (Rltb tiny (new_weight (post C) o r)) eqn:ET.
      + apply Rltb_spec in ET. apply be_in; [| exact IH]. repeat split; assumption.
      + apply Rltb_false in ET. apply be_out; [right; right; exact ET | exact IH].
  Qed.
  Lemma emit_selected o rows A (L : row -> R) :
    (forall r, usable C (point_of r) = A (point_of r)) -> (forall r, newlike C r = L r) ->
    likelihoods C = false \/ like_only C = true \/ nochange C = true ->
    selected A L tiny rows (flat_map (emit C o) rows).
  Proof.
    intros HA HL K. induction rows as [| r rows IH]; [constructor |]. cbn [flat_map]. unfold emit at 1, newmult. rewrite HA, HL.
    assert (E : likelihoods C && negb (like_only C) && negb (nochange C) = false).
    { destruct K as [K | [K | K]]; rewrite K; cbn; now rewrite ?andb_false_r. }
    rewrite E. destruct (A (point_of r)) eqn:EA; [| apply be_out; [now left | exact IH]].
    destruct (Rltb tiny (weight_of r)) eqn:ET.
    - apply Rltb_spec in ET. apply be_in; [| exact IH]. repeat split; assumption.
    - apply Rltb_false in ET. apply be_out; [right; exact ET | exact IH].
  Qed.
  Lemma picked_all a rows : (thin C <= 1)%Z -> picked C a rows = rows.
  Proof.
    intro T. assert (E : (1 <? thin C)%Z = false) by (apply Z.ltb_ge; lia).
    induction rows as [| [[m l] p] rows IH]; [reflexivity |]. cbn [picked]. now rewrite E, IH.
  Qed.

  Lemma total_importance A L1 o f (x : X) rows b : importance A L1 logZero tiny o rows b ->
    (forall y, f y = true -> y = x) -> A x = true -> L1 x <> logZero ->
    (forall r, In r rows -> f (point_of r) = true -> tiny < new_weight L1 o r) ->
    total f b = sumR (map (new_weight L1 o) (filter (fun r => f (point_of r)) rows)).
  Proof.
    intros I Hf HA HL. unfold total. induction I as [| r a b G I IH | r r' a b G I IH]; intro HW.
    - reflexivity.
    - cbn [filter]. destruct (f (point_of r)) eqn:Ef; [exfalso | apply IH; intros; apply HW; [now right | assumption]].
      pose proof (Hf _ Ef) as E. pose proof (HW r (or_introl eq_refl) Ef) as W. rewrite E in G.
      destruct G as [G | [G | G]]; [congruence | congruence | lra].
    - destruct G as (_ & _ & _ & ->). cbn [filter point_of snd].
      destruct (f (point_of r)) eqn:Ef.
      + unfold point_of in *. cbn [snd fst]. rewrite ?Ef. cbn [map]. unfold sumR in *. cbn [fold_right weight_of fst].
        rewrite IH; [reflexivity |]. intros; apply HW; [now right | assumption].
      + unfold point_of in *. cbn [snd fst]. rewrite ?Ef. apply IH. intros; apply HW; [now right | assumption].
  Qed.
  Lemma total_none A L1 o f (x : X) rows b : importance A L1 logZero tiny o rows b ->
    (forall y, f y = true -> y = x) -> A x = false \/ L1 x = logZero -> total f b = 0.
  Proof.
    intros I Hf HA. unfold total. induction I as [| r a b G I IH | r r' a b G I IH].
    - reflexivity.
    - exact IH.
    - destruct G as (G1 & G2 & _ & ->). cbn [filter]. unfold point_of at 1. cbn [snd].
      destruct (f (point_of r)) eqn:Ef; [| unfold point_of in Ef; now rewrite ?Ef].
      pose proof (Hf _ Ef) as E. rewrite E in *. destruct HA; congruence.
  Qed.

  Lemma nburn_text f rows : from_text C = true -> forall n, dropped true f (length rows) n ->
    skipn (nburn (start_skip C f (map item_of rows))) rows = skipn n rows.
  Proof.
    intros ET n D. unfold start_skip. rewrite ET, map_length. cbn [andb].
    destruct D as [[D1 D2] | [(D1 & _ & D2) | (D1 & D2)]].
    - subst n. assert (E : Rltb f 1 = true) by (apply Rltb_spec; lra). rewrite E.
      unfold nburn. assert (E2 : Rleb 1 (IZR (nint (INR (length rows) * f))) = false).
      { apply Rleb_false. apply IZR_lt. pose proof (pos_INR (length rows)).
        assert (H0 : INR (length rows) * f <= 0) by nra. unfold nint.
        destruct (Rltb (INR (length rows) * f) 0) eqn:EN.
        - assert (0 <= Int_part (- (INR (length rows) * f) + / 2))%Z; [apply Int_part_le; simpl (IZR 0); lra | lia].
        - apply Rltb_false in EN. replace (INR (length rows) * f) with 0 by lra.
          destruct (base_Int_part (0 + / 2)) as [B1 B2].
          assert (D : IZR (Int_part (0 + / 2)) < IZR 1) by (cbn; lra). apply lt_IZR in D. lia. }
      now rewrite E2.
    - assert (E : Rltb f 1 = true) by (apply Rltb_spec; lra). rewrite E.
      assert (EN : nint (INR (length rows) * f) = Z.of_nat n).
      { unfold nint. pose proof (pos_INR (length rows)). assert (H0 : Rltb (INR (length rows) * f) 0 = false) by (apply Rltb_false; nra).
        rewrite H0. destruct D2 as [D2 D3]. rewrite (INR_IZR_INZ n) in D2, D3.
        apply Z.le_antisymm; [| apply Int_part_le; lra].
        destruct (base_Int_part (INR (length rows) * f + / 2)) as [B1 B2].
        assert (D : IZR (Int_part (INR (length rows) * f + / 2)) < IZR (Z.of_nat n + 1)) by (rewrite plus_IZR; lra).
        apply lt_IZR in D. lia. }
      rewrite EN. unfold nburn. destruct (Rleb 1 (IZR (Z.of_nat n))) eqn:E1.
      + replace (Int_part (IZR (Z.of_nat n))) with (Z.of_nat n); [now rewrite Nat2Z.id |].
        apply Z.le_antisymm; [apply Int_part_le; lra |]. apply le_IZR. now destruct (base_Int_part (IZR (Z.of_nat n))).
      + apply Rleb_false in E1. apply lt_IZR in E1. now replace n with 0%nat by lia.
    - assert (E : Rltb f 1 = false) by (apply Rltb_false; lra). rewrite E. unfold nburn.
      assert (E1 : Rleb 1 f = true) by (apply Rleb_true; lra). rewrite E1.
      replace (Int_part f) with (Z.of_nat n); [now rewrite Nat2Z.id |].
      destruct D2 as [D2 D3]. rewrite INR_IZR_INZ in D2, D3. apply Z.le_antisymm; [now apply Int_part_le |].
      destruct (base_Int_part f) as [B1 B2]. assert (D : IZR (Int_part f) < IZR (Z.of_nat n + 1)) by (rewrite plus_IZR; lra).
      apply lt_IZR in D. lia.
  Qed.
  Lemma nburn_data f (rows : list row) : from_text C = false -> forall n, dropped false f (length rows) n ->
    nburn (start_skip C f (map item_of rows)) = n /\ Rltb 0 f && Rltb f 1 = false.
  Proof.
    intros ET n D. unfold start_skip. rewrite ET. cbn [andb].
    destruct D as [[D1 D2] | [(D1 & D0 & D2) | (D1 & D2)]].
    - unfold nburn. assert (E1 : Rleb 1 f = false) by (apply Rleb_false; lra). rewrite E1. split; [now symmetry |].
      assert (E2 : Rltb 0 f = false) by (apply Rltb_false; lra). now rewrite E2.
    - discriminate.
    - unfold nburn. assert (E1 : Rleb 1 f = true) by (apply Rleb_true; lra). rewrite E1. split.
      + replace (Int_part f) with (Z.of_nat n); [now rewrite Nat2Z.id |].
        destruct D2 as [D2 D3]. rewrite INR_IZR_INZ in D2, D3. apply Z.le_antisymm; [now apply Int_part_le |].
        destruct (base_Int_part f) as [B1 B2]. assert (D : IZR (Int_part f) < IZR (Z.of_nat n + 1)) by (rewrite plus_IZR; lra).
        apply lt_IZR in D. lia.
      + assert (E2 : Rltb f 1 = false) by (apply Rltb_false; lra). rewrite E2. apply andb_false_r.
  Qed.
  (** rows left out and end of the file, for both kinds of file *)
  Lemma start_fine fuel f junk (rows : list row) n : (n < fuel)%nat -> from_text C = true \/ (thin C <= 1)%Z ->
    dropped (from_text C) f (length rows) n ->
    let s0 := start C f junk (map item_of rows) in
    fine C fuel (skip s0) /\ skipn (nburn (skip s0)) rows = skipn n rows.
  Proof.
    intros F T D. unfold fine. cbn [start skip]. destruct (from_text C) eqn:ET.
    - split; [split; [lia | now left] |]. now apply nburn_text.
    - destruct T as [T | T]; [discriminate |]. destruct (nburn_data f rows ET n D) as [E1 E2].
      split; [split; [lia | right] |].
      + split; [exact T |]. rewrite E1. split; [| exact F]. unfold start_skip. now rewrite ET.
      + now rewrite E1.
  Qed.

  (** Thinning *)
  Lemma nint_INR n : nint (INR n) = Z.of_nat n.
  Proof.
    unfold nint. pose proof (pos_INR n). assert (E : Rltb (INR n) 0 = false) by (apply Rltb_false; lra). rewrite E.
    rewrite INR_IZR_INZ. apply Z.le_antisymm; [| apply Int_part_le; lra].
    destruct (base_Int_part (IZR (Z.of_nat n) + / 2)) as [B1 B2].
    assert (D : IZR (Int_part (IZR (Z.of_nat n) + / 2)) < IZR (Z.of_nat n + 1)) by (rewrite plus_IZR; lra). apply lt_IZR in D. lia.
  Qed.
  Lemma integer_nat l : integer_weights C (weighted (X := X) l).
  Proof.
    intros _. unfold weighted. rewrite Forall_map. apply Forall_forall. intros q _. cbn. rewrite nint_INR, INR_IZR_INZ.
    replace (IZR (Z.of_nat (fst q)) - IZR (Z.of_nat (fst q))) with 0 by lra. rewrite Rabs_R0. lra.
  Qed.
  Lemma nonneg_nat l : Forall (fun r : row => 0 <= weight_of r) (weighted (X := X) l).
  Proof. unfold weighted. rewrite Forall_map. apply Forall_forall. intros q _. cbn. apply pos_INR. Qed.

  Lemma every_repeat {A} k (y : A) l : (0 < k)%nat -> forall n a, (a < k)%nat ->
    every k a (repeat y n ++ l) = repeat y ((a + n) / k) ++ every k ((a + n) mod k) l.
  Proof.
    intro K. induction n as [| n IH]; intros a Ha.
    - cbn [repeat app]. rewrite Nat.add_0_r, Nat.div_small, Nat.mod_small by assumption. reflexivity.
    - cbn [repeat app every]. destruct (Nat.eqb_spec (S a) k) as [E | E].
      + rewrite IH by lia. replace (a + S n)%nat with (0 + n + 1 * k)%nat by lia.
        rewrite Nat.div_add, Nat.mod_add by lia. rewrite Nat.add_1_r. reflexivity.
      + rewrite IH by lia. now replace (S a + n)%nat with (a + S n)%nat by lia.
  Qed.
  Lemma picked_every l : forall a, (1 < thin C)%Z -> (a < Z.to_nat (thin C))%nat ->
    exists t, picked C (Z.of_nat a) (weighted l) = weighted t /\
      repeated t = every (Z.to_nat (thin C)) a (repeated (X := X) l).
  Proof.
    induction l as [| [n [v p]] l IH]; intros a T Ha.
    - exists []. split; reflexivity.
    - cbn [weighted map picked fst snd repeated]. fold (weighted l). assert (E1 : (1 <? thin C)%Z = true) by (apply Z.ltb_lt; lia).
      rewrite E1, nint_INR, every_repeat by lia. set (k := Z.to_nat (thin C)) in *.
      assert (EK : thin C = Z.of_nat k) by lia. rewrite EK, <- Nat2Z.inj_add.
      destruct (Z.of_nat k <=? Z.of_nat (a + n))%Z eqn:E2.
      + apply Z.leb_le in E2. rewrite Z.rem_mod_nonneg, Z.quot_div_nonneg, <- Nat2Z.inj_mod, <- Nat2Z.inj_div by lia.
        destruct (IH ((a + n) mod k)%nat T) as (t & H1 & H2); [apply Nat.mod_upper_bound; lia |].
        exists ((((a + n) / k)%nat, (v, p)) :: t). split.
        * cbn [weighted map fst snd]. rewrite <- INR_IZR_INZ. f_equal. exact H1.
        * cbn [repeated]. now rewrite H2.
      + apply Z.leb_gt in E2. rewrite Nat.div_small, Nat.mod_small by lia. cbn [repeat app]. apply IH; [assumption | lia].
  Qed.

  (** The scale *)
  Lemma folded_least (f : row -> R) us : forall v, us <> [] -> Forall (fun r => f r <= v) us -> least_of (map f us) (folded f us v).
  Proof.
    induction us as [| r us IH] using rev_ind; intros v N H; [congruence |].
    unfold folded. rewrite fold_left_app. cbn [fold_left]. fold (folded f us v). apply Forall_app in H. destruct H as [H1 H2].
    apply Forall_inv in H2. rewrite map_app. cbn [map]. destruct us as [| u us'].
    - cbn. assert (E : Rmin v (f r) = f r) by (apply Rmin_right; lra). rewrite E. split; [now left |].
      intros u [Hu | []]. subst. lra.
    - destruct (IH v) as [I1 I2]; [discriminate | exact H1 |]. remember (u :: us') as us. clear Hequs u us'. split.
      + apply in_or_app. unfold Rmin. destruct (Rle_dec _ _); [now left | right; now left].
      + intros w Hw. apply in_app_or in Hw. destruct Hw as [Hw | [Hw | []]].
        * apply Rle_trans with (folded f us v); [apply Rmin_l | now apply I2].
        * subst w. apply Rmin_r.
  Qed.

  Lemma usable_allowed p : likelihoods C = true -> usable C p = allowed p.
  Proof. unfold usable, allowed. intros ->. reflexivity. Qed.
  Definition looked (kept : list row) : list row := firstn (count C) (filter (fun r => allowed (point_of r)) kept).

  (** A chain with the check of the scale *)
  Lemma chain_scale fuel agree o rows f junk n :
    likelihoods C = true -> like_only C = false -> nochange C = false -> auto C = true -> (thin C <= 1)%Z -> (0 < count C)%nat ->
    (n < fuel)%nat -> dropped (from_text C) f (length rows) n ->
    (count C <= length (filter (fun r => allowed (point_of r)) (skipn n rows)))%nat ->
    Forall (fun r => like_of r <= logZero /\ post C (point_of r) <= logZero) rows ->
    exists d, best_difference logZero (map like_of (looked (skipn n rows))) (map (fun r => post C (point_of r)) (looked (skipn n rows))) d /\
      chain C fuel agree o (map item_of rows) (start C f junk (map item_of rows)) =
      match agree d with
      | None => Waits d
      | Some d => if Rltb (max_diff C) (Rabs d) then Written (flat_map (emit C d) (skipn n rows))
                  else Written (flat_map (emit C o) (skipn n rows))
      end.
  Proof.
    intros L1 L2 L3 A1 T1 C1 F1 D1 N1 Z1. set (s0 := start C f junk (map item_of rows)).
    destruct (start_fine fuel f junk rows n F1 (or_intror T1) D1) as [F2 E2]. fold s0 in F2, E2.
    destruct (chain_trigger C fuel agree o rows s0 F2) as (a & _ & E3).
    { intro; lia. }
    { unfold active. now rewrite A1, L2, L3. }
    { rewrite E2, picked_all by exact T1. unfold ufilter. erewrite filter_ext; [split; [exact C1 | exact N1] |].
      intro r. now apply usable_allowed. }
    rewrite E2, !picked_all in E3 by exact T1.
    assert (EU : firstn (count C) (ufilter C (skipn n rows)) = looked (skipn n rows)).
    { unfold looked, ufilter. f_equal. apply filter_ext. intro r. now apply usable_allowed. }
    rewrite EU in E3. eexists. split; [| exact E3].
    assert (ZK : Forall (fun r => like_of r <= logZero /\ post C (point_of r) <= logZero) (looked (skipn n rows))).
    { apply Forall_forall. intros r Hr. rewrite Forall_forall in Z1. apply Z1.
      assert (H : In r (filter (fun r => allowed (point_of r)) (skipn n rows))).
      { rewrite <- (firstn_skipn (count C)). apply in_or_app. now left. }
      apply filter_In in H. destruct H as [H _]. rewrite <- (firstn_skipn n). apply in_or_app. now right. }
    assert (NE : looked (skipn n rows) <> []).
    { unfold looked. intro E. apply (f_equal (@length _)) in E. rewrite firstn_length in E. cbn in E. lia. }
    assert (NL : forall r, newlike C r = post C (point_of r)) by (intro r; unfold newlike; now rewrite L1, L3).
    exists (folded (newlike C) (looked (skipn n rows)) logZero), (folded like_of (looked (skipn n rows)) logZero).
    split; [| split].
    - rewrite <- (map_ext (newlike C)) by exact NL. apply folded_least; [exact NE |].
      apply Forall_forall. intros r Hr. rewrite Forall_forall in ZK. rewrite NL. now apply ZK.
    - apply folded_least; [exact NE |]. apply Forall_forall. intros r Hr. rewrite Forall_forall in ZK. now apply ZK.
    - unfold diff_of. destruct (Reqb _ _) eqn:E; cbn [negb].
      + right. split; [now apply Reqb_spec in E | reflexivity].
      + left. split; [now apply Reqb_false in E | reflexivity].
  Qed.
  Lemma chain_noscale fuel agree o rows f junk n :
    likelihoods C = true -> (thin C <= 1)%Z -> (n < fuel)%nat -> dropped (from_text C) f (length rows) n ->
    active C true = false \/ (length (filter (fun r => allowed (point_of r)) (skipn n rows)) < count C)%nat ->
    chain C fuel agree o (map item_of rows) (start C f junk (map item_of rows)) = Written (flat_map (emit C o) (skipn n rows)).
  Proof.
    intros L1 T1 F1 D1 Q. set (s0 := start C f junk (map item_of rows)).
    destruct (start_fine fuel f junk rows n F1 (or_intror T1) D1) as [F2 E2]. fold s0 in F2, E2.
    rewrite (chain_quiet C fuel agree o rows s0 F2).
    - now rewrite E2, picked_all by exact T1.
    - intro; lia.
    - rewrite E2, picked_all by exact T1. unfold ufilter.
      rewrite (filter_ext _ (fun r => allowed (point_of r))) by (intro r; now apply usable_allowed). tauto.
  Qed.

  Lemma allSome_map {A B} (g : A -> option B) l bs : Forall2 (fun a b => g a = Some b) l bs -> allSome (map g l) = Some bs.
  Proof. induction 1 as [| a b l bs E _ IH]; [reflexivity |]. cbn. now rewrite E, IH. Qed.
  Lemma Forall_exists2 {A B} (P : A -> B -> Prop) l : Forall (fun a => exists b, P a b) l -> exists bs, Forall2 P l bs.
  Proof.
    induction 1 as [| a l [b Hb] _ [bs IH]]; [exists []; constructor | exists (b :: bs); now constructor].
  Qed.
  Lemma flat_map_single {A B} (g : A -> B) l : flat_map (fun a => [g a]) l = map g l.
  Proof. induction l as [| a l IH]; [reflexivity |]. cbn. now rewrite IH. Qed.

  (** A part of a .data file *)
  Lemma step_two fuel agree loop1 o f r1 r2 rest s : from_text C = false -> 0 < f < 1 -> skip s = f ->
    exists s2, pass C fuel agree loop1 o (map item_of (r1 :: r2 :: rest)) (init s) =
        pass C fuel agree loop1 o (map item_of rest) s2 /\
      skip s2 = IZR (quot C) * f /\ acc s2 = acc s /\ used s2 = 0%nat /\ out s2 = [] /\ num s2 = 2%Z /\ beg s2 = 2%Z.
  Proof.
    intros ET Hf Hs. assert (E : Rltb 0 f && Rltb f 1 = true) by (apply andb_true_iff; split; apply Rltb_spec; lra).
    set (a1 := set_beg f 1 (set_num 1 (set_row (weight_of r1) (like_of r1) (point_of r1) (init s)))).
    assert (E1 : step C agree loop1 o (item_of r1) (init s) = Next a1).
    { unfold step, item_of. rewrite ET. cbn [skip init set_row set_num num beg]. rewrite Hs, E. reflexivity. }
    set (a2 := set_beg (IZR (quot C) * f) 2 (set_num 2 (set_row (weight_of r2) (like_of r2) (point_of r2) a1))).
    assert (E2 : step C agree loop1 o (item_of r2) a1 = Next a2).
    { unfold step, item_of. rewrite ET. unfold a1. cbn [skip init set_row set_num set_beg num beg]. rewrite E. reflexivity. }
    exists a2. cbn [map pass]. rewrite E1, E2. split; [reflexivity |]. now repeat split.
  Qed.

  Lemma end_part agree loop1 o fuel s k : from_text C = false -> (thin C <= 1)%Z -> (0 < fuel)%nat -> (k < fuel)%nat ->
    (2 <= beg s)%Z -> (0 <= num s)%Z -> floor_of (skip s) k ->
    exists s', at_end C fuel agree loop1 o s = Some (Exit s') /\ out s' = out s.
  Proof.
    intros ET T F0 F B N [K1 K2]. destruct (Rltb 0 (skip s) && Rltb (skip s) 1) eqn:E.
    - apply at_end_past; [exact F0 | | now right]. unfold past. rewrite ET. left. now split.
    - apply at_end_exits with (n := k); [exact F0 |]. right. split; [exact T |]. split; [exact E |]. split; [exact F |].
      rewrite INR_IZR_INZ in K2. apply Rlt_le_trans with (1 := K2). rewrite <- plus_IZR. apply IZR_le. lia.
  Qed.
  Lemma data_part fuel agree o rows f junk k n :
    from_text C = false -> (thin C <= 1)%Z -> active C true = false -> 0 < f < 1 -> (0 <= quot C)%Z ->
    floor_of (IZR (quot C) * f) k -> n = Nat.max 2 k -> (n + 2 < fuel)%nat ->
    chain C fuel agree o (map item_of rows) (start C f junk (map item_of rows)) = Written (flat_map (emit C o) (skipn n rows)).
  Proof.
    intros ET T Q Hf Hq HK Hn F. set (s := start C f junk (map item_of rows)).
    assert (Hs : skip s = f) by (unfold s; cbn; unfold start_skip; now rewrite ET).
    assert (E : Rltb 0 f && Rltb f 1 = true) by (apply andb_true_iff; split; apply Rltb_spec; lra).
    assert (G : exists s', pass C fuel agree true o (map item_of rows) (init s) = Some (Exit s') /\
              out s' = flat_map (emit C o) (skipn n rows)).
    2: { destruct G as (s' & G1 & G2). unfold chain. rewrite G1. cbn. now rewrite G2. }
    destruct rows as [| r1 [| r2 rest]].
    - rewrite skipn_nil. cbn [map pass flat_map]. destruct fuel as [| [| fuel]]; [lia | lia |]. cbn [at_end].
      set (a1 := set_beg f 1 (set_num 1 (init s))).
      assert (E1 : step C agree true o Eof (init s) = Next a1).
      { unfold step. rewrite ET. cbn [skip init set_num num beg]. rewrite Hs, E. reflexivity. }
      set (a2 := set_beg (IZR (quot C) * f) 2 (set_num 2 a1)).
      assert (E2 : step C agree true o Eof a1 = Next a2).
      { unfold step. rewrite ET. unfold a1. cbn [skip init set_num set_beg num beg]. rewrite E. reflexivity. }
      rewrite E1, E2. apply (end_part agree true o fuel a2 k ET T); [lia | lia | cbn; lia | cbn; lia | exact HK].
    - rewrite skipn_all2 by (cbn; lia). cbn [map pass flat_map]. destruct fuel as [| fuel]; [lia |]. cbn [at_end].
      set (a1 := set_beg f 1 (set_num 1 (set_row (weight_of r1) (like_of r1) (point_of r1) (init s)))).
      assert (E1 : step C agree true o (item_of r1) (init s) = Next a1).
      { unfold step, item_of. rewrite ET. cbn [skip init set_row set_num num beg]. rewrite Hs, E. reflexivity. }
      set (a2 := set_beg (IZR (quot C) * f) 2 (set_num 2 a1)).
      assert (E2 : step C agree true o Eof a1 = Next a2).
      { unfold step. rewrite ET. unfold a1. cbn [skip init set_row set_num set_beg num beg]. rewrite E. reflexivity. }
      rewrite E1, E2. apply (end_part agree true o fuel a2 k ET T); [lia | lia | cbn; lia | cbn; lia | exact HK].
    - destruct (step_two fuel agree true o f r1 r2 rest s ET Hf Hs) as (s2 & E2 & K2 & A2 & U2 & O2 & N2 & B2). rewrite E2.
      assert (EN : skipn n (r1 :: r2 :: rest) = skipn (n - 2) rest) by (replace n with (S (S (n - 2))) by lia; cbn; f_equal; lia).
      rewrite EN. destruct HK as [HK1 HK2]. rewrite INR_IZR_INZ in HK1, HK2.
      assert (I0 : forall l, integer_weights C l) by (intros l H; lia).
      destruct (le_lt_dec k 2) as [Hk | Hk].
      + replace (n - 2)%nat with 0%nat by lia. cbn [skipn].
        assert (P2 : past C s2).
        { unfold past. rewrite ET, K2, N2, B2. destruct (Rltb 0 (IZR (quot C) * f) && Rltb (IZR (quot C) * f) 1); [left | right].
          - split; [reflexivity | lia].
          - split; [reflexivity |]. apply Rlt_le_trans with (1 := HK2). rewrite <- plus_IZR. apply IZR_le. lia. }
        destruct (pass_plain C fuel agree true o [] rest s2) as (s3 & E3 & P3 & K3 & D3); [exact P2 | apply I0 | now left |].
        rewrite app_nil_r in E3. rewrite E3. cbn [pass].
        destruct (at_end_past C agree true o fuel s3) as (s' & E4 & O4); [lia | exact P3 | now right |].
        exists s'. split; [exact E4 |]. rewrite O4. destruct D3 as (D3 & _). now rewrite D3, O2, picked_all by exact T.
      + assert (S1 : 1 <= skip s2). { rewrite K2. apply Rle_trans with (2 := HK1). apply IZR_le. lia. }
        assert (S2 : Rltb 0 (skip s2) && Rltb (skip s2) 1 = false).
        { assert (E0 : Rltb (skip s2) 1 = false) by (now apply Rltb_false). rewrite E0. apply andb_false_r. }
        destruct (le_lt_dec (length rest) (k - 2)) as [HL | HL].
        * rewrite skipn_all2 by lia. cbn [flat_map].
          destruct (pass_burn C fuel agree true o [] rest s2) as (s3 & E3 & U3 & N3); [exact S1 | |].
          { rewrite K2, N2. apply Rle_trans with (2 := HK1). apply IZR_le. lia. }
          rewrite app_nil_r in E3. rewrite E3. cbn [pass]. destruct U3 as (K3 & A3 & V3 & O3 & _).
          destruct (at_end_exits C agree true o k fuel s3) as (s' & E4 & O4).
          { lia. }
          { right. split; [exact T |]. rewrite K3. split; [exact S2 |]. split; [lia |]. rewrite K2.
            apply Rlt_le_trans with (1 := HK2). rewrite <- plus_IZR. apply IZR_le. lia. }
          exists s'. split; [exact E4 |]. now rewrite O4, O3, O2.
        * replace (n - 2)%nat with (k - 2)%nat by lia.
          assert (L : length (firstn (k - 2) rest) = (k - 2)%nat) by (rewrite firstn_length; lia).
          destruct (pass_burn C fuel agree true o (map item_of (skipn (k - 2) rest)) (firstn (k - 2) rest) s2) as (s3 & E3 & U3 & N3); [exact S1 | |].
          { rewrite K2, N2, L. apply Rle_trans with (2 := HK1). apply IZR_le. lia. }
          rewrite <- map_app, firstn_skipn in E3. rewrite E3. destruct U3 as (K3 & A3 & V3 & O3 & _).
          assert (P3 : past C s3).
          { unfold past. rewrite ET, K3, N3, L, N2. right. split; [exact S2 |]. rewrite K2.
            apply Rlt_le_trans with (1 := HK2). rewrite <- plus_IZR. apply IZR_le. lia. }
          destruct (pass_plain C fuel agree true o [] (skipn (k - 2) rest) s3) as (s4 & E4 & P4 & K4 & D4); [exact P3 | apply I0 | now left |].
          rewrite app_nil_r in E4. rewrite E4. cbn [pass].
          destruct (at_end_past C agree true o fuel s4) as (s' & E5 & O5); [lia | exact P4 | now right |].
          exists s'. split; [exact E5 |]. rewrite O5. destruct D4 as (D4 & _). now rewrite D4, O3, O2, picked_all by exact T.
  Qed.
End Imp.
