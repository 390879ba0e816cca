From Coq Require Import Reals List Bool ZArith Lia Lra.
From Verif Require Import StatModel McmcModel McmcProofs ImpModel ImpSpec.
Import ListNotations.
Local Open Scope R_scope.
Local Open Scope list_scope.
Local Opaque logZero tiny.

Lemma Rltb_false a b : Rltb a b = false <-> b <= a.
Proof. unfold Rltb. destruct (Rlt_dec a b); split; intro H; try lra; try discriminate; auto. Qed.
Lemma Rleb_true a b : Rleb a b = true <-> a <= b.
Proof. unfold Rleb. rewrite negb_true_iff. apply Rltb_false. Qed.
Lemma Rleb_false a b : Rleb a b = false <-> b < a.
Proof. unfold Rleb. rewrite negb_false_iff. apply Rltb_spec. Qed.

Section Imp.
  Context {X : Type}.
  Notation row := (R * R * X)%type.
  Variable C : config X.

  Definition usable (p : X) : bool := (negb (likelihoods C) || cuts_ok C p) && (negb (new_theory C) || theory_ok C p).
  Definition newlike (r : row) : R :=
    if nochange C then like_of r else if likelihoods C then post C (point_of r) else like_of r.
  Definition newmult (o : R) (r : row) : R :=
    if likelihoods C && negb (like_only C) && negb (nochange C)
    then weight_of r * (if Reqb (post C (point_of r)) logZero then 0 else exp (like_of r - post C (point_of r) + o))
    else weight_of r.
  Definition emit (o : R) (r : row) : list row :=
    if usable (point_of r) then
      if Rltb tiny (newmult o r) then [(newmult o r, newlike r, point_of r)] else []
    else [].
  Definition ufilter (l : list row) := filter (fun r => usable (point_of r)) l.
  Definition active (loop1 : bool) : bool := auto C && loop1 && negb (like_only C) && negb (nochange C).
  Definition past (s : st X) : Prop :=
    if from_text C then Rleb 1 (skip s) && Rleb (IZR (num s + 1)) (skip s) = false
    else (Rltb 0 (skip s) && Rltb (skip s) 1 = true /\ (2 <= beg s)%Z) \/
         (Rltb 0 (skip s) && Rltb (skip s) 1 = false /\ skip s < IZR (num s + 1)).
  Definition row_of (s : st X) : row := (mult s, like s, x s).
  Definition fixed (s s' : st X) : Prop := skip s' = skip s /\ acc s' = acc s /\ num s' = num s /\ beg s' = beg s.
  Definition diff_of (mt ml : R) : R := if negb (Reqb mt logZero) then mt - ml else logZero.
  Definition folded (f : row -> R) (us : list row) (v : R) : R := fold_left (fun a r => Rmin a (f r)) us v.

  (** what the row [r] does to a state, when nothing is rescaled *)
  Definition done (o : R) (us : list row) (s s' : st X) : Prop :=
    out s' = out s ++ flat_map (emit o) us /\ used s' = (used s + length (ufilter us))%nat /\
    max_like s' = folded like_of (ufilter us) (max_like s) /\ max_truelike s' = folded newlike (ufilter us) (max_truelike s).

  Lemma done_app o a b s s1 s2 : done o a s s1 -> done o b s1 s2 -> done o (a ++ b) s s2.
  Proof.
    unfold done, ufilter, folded. intros (A & B & D & E) (A' & B' & D' & E').
    rewrite flat_map_app, filter_app, app_length, !fold_left_app, A', B', D', E', A, B, D, E, app_assoc. repeat split. lia.
  Qed.
  Lemma done_nil o s : done o [] s s.
  Proof. unfold done; cbn. rewrite app_nil_r. repeat split; lia. Qed.
  Lemma done_cons o a b s s1 s2 : done o [a] s s1 -> done o b s1 s2 -> done o (a :: b) s s2.
  Proof. apply (done_app o [a]). Qed.

  Lemma process_plain agree loop1 o s :
    active loop1 = false \/ (S (used s) <> count C) \/ usable (x s) = false ->
    exists s', process C agree loop1 o s = Next s' /\ fixed s s' /\ done o [row_of s] s s'.
  Proof.
    intro Q. unfold process. unfold done, ufilter. cbn [filter flat_map]. unfold emit, newmult, newlike.
    cbn [row_of point_of like_of weight_of fst snd]. unfold usable in *.
    destruct (likelihoods C && negb (cuts_ok C (x s))) eqn:E1.
    { exists s. apply andb_true_iff in E1. destruct E1 as [E1 E2]. rewrite negb_true_iff in E2. rewrite E1, E2. cbn.
      unfold fixed. rewrite app_nil_r. repeat split; lia. }
    destruct (new_theory C && negb (theory_ok C (x s))) eqn:E2.
    { exists s. apply andb_true_iff in E2. destruct E2 as [E2 E3]. rewrite negb_true_iff in E3. rewrite E2, E3. cbn.
      rewrite andb_false_r. unfold fixed. cbn. rewrite app_nil_r. repeat split; lia. }
    assert (U : (negb (likelihoods C) || cuts_ok C (x s)) && (negb (new_theory C) || theory_ok C (x s)) = true).
    { apply andb_false_iff in E1, E2. destruct E1 as [E1 | E1], E2 as [E2 | E2]; try rewrite negb_false_iff in E1;
        try rewrite negb_false_iff in E2; rewrite E1, E2; cbn; now rewrite ?orb_true_r. }
    rewrite U in *. cbn [filter length fold_left folded]. unfold check_scale.
    match goal with |- context [if auto C && loop1 && ?e && ?f && ?g then _ else _] =>
      assert (EQ : auto C && loop1 && e && f && g = false) end.
    { cbn [used set_used]. unfold active in Q. destruct Q as [Q | [Q | Q]].
      - destruct (auto C), loop1, (Nat.eqb _ _), (like_only C), (nochange C); cbn in *; congruence.
      - apply Nat.eqb_neq in Q. rewrite Q. now rewrite !andb_false_r.
      - discriminate. }
    rewrite EQ. unfold write_point. eexists. split; [reflexivity |].
    assert (EM : (if likelihoods C && negb (like_only C) && negb (nochange C)
      then mult s * (if likelihoods C then if Reqb (if likelihoods C then post C (x s) else like s) logZero then 0
         else exp (like s - (if likelihoods C then post C (x s) else like s) + o) else 1) else mult s) =
      (if likelihoods C && negb (like_only C) && negb (nochange C)
      then mult s * (if Reqb (post C (x s)) logZero then 0 else exp (like s - post C (x s) + o)) else mult s)).
    { destruct (likelihoods C); reflexivity. }
    rewrite EM.
    cbn [mult set_used].
    match goal with |- context [Rltb tiny ?m] => destruct (Rltb tiny m) eqn:ET end.
    - unfold fixed. cbn. repeat split; lia.
    - unfold fixed. cbn. rewrite app_nil_r. repeat split; lia.
  Qed.

  Lemma process_trigger agree loop1 o s :
    active loop1 = true -> S (used s) = count C -> usable (x s) = true ->
    exists s', fixed s s' /\ done o [row_of s] s s' /\
    exists s0, fixed s s0 /\
    let d := diff_of (Rmin (max_truelike s) (newlike (row_of s))) (Rmin (max_like s) (like s)) in
    process C agree loop1 o s =
      match agree d with None => Wait d s0 | Some d => if Rltb (max_diff C) (Rabs d) then Restart d s0 else Next s' end.
  Proof.
    intros Q Q1 U.
    unfold process, done, ufilter. cbn [filter flat_map]. unfold emit, newmult, newlike.
    cbn [row_of point_of like_of weight_of fst snd]. rewrite U. unfold usable in U.
    assert (E : likelihoods C && negb (cuts_ok C (x s)) = false /\ new_theory C && negb (theory_ok C (x s)) = false).
    { destruct (likelihoods C), (cuts_ok C (x s)), (new_theory C), (theory_ok C (x s)); cbn in *; try discriminate; auto. }
    destruct E as [E1 E2]. rewrite E1, E2. unfold check_scale. unfold active in Q.
    match goal with |- context [if auto C && loop1 && ?e && ?f && ?g then _ else _] =>
      assert (EQ : auto C && loop1 && e && f && g = true) end.
    { cbn [used set_used]. rewrite Q1, Nat.eqb_refl. destruct (auto C), loop1, (like_only C), (nochange C); cbn in *; congruence. }
    rewrite EQ. cbn [filter length fold_left folded]. unfold write_point.
    assert (EM : (if likelihoods C && negb (like_only C) && negb (nochange C)
      then mult s * (if likelihoods C then if Reqb (if likelihoods C then post C (x s) else like s) logZero then 0
         else exp (like s - (if likelihoods C then post C (x s) else like s) + o) else 1) else mult s) =
      (if likelihoods C && negb (like_only C) && negb (nochange C)
      then mult s * (if Reqb (post C (x s)) logZero then 0 else exp (like s - post C (x s) + o)) else mult s)).
    { destruct (likelihoods C); reflexivity. }
    rewrite EM. cbn [mult set_used max_truelike max_like].
    eexists. split; [| split; [| eexists; split; [| reflexivity]]];
    match goal with |- context [Rltb tiny ?m] => destruct (Rltb tiny m) eqn:ET | _ => idtac end.
    all: unfold fixed; cbn; rewrite ?app_nil_r; repeat split; lia.
  Qed.

  (** Thinning *)
  Fixpoint picked (a : Z) (rows : list row) : list row :=
    match rows with
    | [] => []
    | (m, l, p) :: rows' =>
      if (1 <? thin C)%Z then
        let b := (a + nint m)%Z in
        if (thin C <=? b)%Z then (IZR (Z.quot b (thin C)), l, p) :: picked (Z.rem b (thin C)) rows' else picked b rows'
      else (m, l, p) :: picked a rows'
    end.
  Definition integer_weights (rows : list row) : Prop :=
    (1 < thin C)%Z -> Forall (fun r => Rabs (IZR (nint (weight_of r)) - weight_of r) <= / 10000) rows.
  Definition item_of (r : row) : item X := Row (weight_of r) (like_of r) (point_of r).

  Definition set_item (r : row) (s : st X) : st X := set_row (weight_of r) (like_of r) (point_of r) s.
  Definition ready (r : row) (s s1 : st X) : Prop :=
    past s1 /\ skip s1 = skip s /\ acc s1 = acc s /\ used s1 = used s /\ out s1 = out s /\ max_like s1 = max_like s /\
    max_truelike s1 = max_truelike s /\ row_of s1 = r.
  Lemma past_step agree loop1 o r s : past s -> exists s1, ready r s s1 /\
    step C agree loop1 o (item_of r) s = thinned C agree loop1 o false s1.
  Proof.
    unfold past, ready, step, item_of. destruct r as [[m l] p]. cbn [weight_of like_of point_of fst snd].
    destruct (from_text C) eqn:ET; intro H.
    - cbn [num skip set_num set_row]. rewrite H. eexists. split; [| reflexivity]. unfold past. rewrite ET. cbn.
      repeat split. apply andb_false_iff in H. apply andb_false_iff. destruct H as [H | H]; [now left | right].
      apply Rleb_false in H. apply Rleb_false. rewrite !plus_IZR in *. lra.
    - cbn [num skip set_num set_row]. destruct H as [[H H1] | [H H1]]; rewrite H.
      + cbn [beg set_num set_row]. destruct (beg s =? 0)%Z eqn:E0; [apply Z.eqb_eq in E0; lia |].
        destruct (beg s =? 1)%Z eqn:E1; [apply Z.eqb_eq in E1; lia |].
        eexists. split; [| reflexivity]. unfold past. rewrite ET. cbn. split; [| repeat split]. left. split; [exact H | lia].
      + assert (E : Rleb (IZR (num s + 1)) (skip s) = false) by (apply Rleb_false; lra). rewrite E.
        eexists. split; [| reflexivity]. unfold past. rewrite ET. cbn. split; [| repeat split]. right.
        split; [exact H |]. rewrite !plus_IZR in *. lra.
  Qed.
  Lemma past_fixed s s' : past s -> skip s' = skip s -> num s' = num s -> beg s' = beg s -> past s'.
  Proof. unfold past. intros H -> -> ->. exact H. Qed.

  Definition acc_ok (s : st X) : Prop := (1 < thin C -> 0 <= acc s < thin C)%Z.
  Lemma nint_nonneg m : 0 <= m -> (0 <= nint m)%Z.
  Proof.
    intro H. unfold nint. assert (E : Rltb m 0 = false) by (apply Rltb_false; lra). rewrite E.
    destruct (base_Int_part (m + / 2)) as [A B].
    assert (D : IZR (-1) < IZR (Int_part (m + / 2))) by (cbn; lra). apply lt_IZR in D. lia.
  Qed.

  Lemma thinned_step agree loop1 o r s :
    integer_weights [r] -> row_of s = r ->
    (exists s1, fixed s (set_acc (acc s) (mult s) s1) /\ picked (acc s) [r] = [] /\ thinned C agree loop1 o false s = Next s1 /\
       (forall rows, picked (acc s) (r :: rows) = picked (acc s1) rows) /\ done o [] s s1 /\
       (acc_ok s -> 0 <= weight_of r -> acc_ok s1)) \/
    (exists s1 r1, skip s1 = skip s /\ num s1 = num s /\ beg s1 = beg s /\ row_of s1 = r1 /\
       done o [] s s1 /\ (forall rows, picked (acc s) (r :: rows) = r1 :: picked (acc s1) rows) /\
       thinned C agree loop1 o false s = process C agree loop1 o s1 /\
       (acc_ok s -> 0 <= weight_of r -> acc_ok s1)).
  Proof.
    intros I E. unfold thinned. destruct r as [[m l] p]. cbn [picked].
    assert (mult s = m) by (now injection E). assert (like s = l) by (now injection E). assert (x s = p) by (now injection E).
    destruct (1 <? thin C)%Z eqn:E1.
    - apply Z.ltb_lt in E1. apply I in E1. apply Forall_inv in E1. cbn in E1. rewrite H.
      apply Rltb_false in E1. rewrite E1.
      destruct (thin C <=? acc s + nint m)%Z eqn:E2.
      + right. eexists. eexists. split; [| split; [| split; [| split; [reflexivity | split; [| split; [| split; [reflexivity |]]]]]]]; try reflexivity.
        * unfold done. cbn. rewrite app_nil_r. repeat split; lia.
        * intros. cbn. subst. reflexivity.
        * unfold acc_ok. cbn. intros A W T. apply nint_nonneg in W. apply Z.rem_bound_pos; lia.
      + left. eexists. split; [| split; [| split; [reflexivity | split; [| split]]]].
        * unfold fixed; cbn; repeat split.
        * reflexivity.
        * intros. reflexivity.
        * unfold done. cbn. rewrite app_nil_r. repeat split; lia.
        * unfold acc_ok. cbn. intros A W T. apply nint_nonneg in W. apply Z.leb_gt in E2. lia.
    - right. eexists. eexists. split; [| split; [| split; [| split; [reflexivity | split; [| split; [| split; [reflexivity |]]]]]]]; try reflexivity.
      * apply done_nil.
      * intros. rewrite E. reflexivity.
      * intros A _. exact A.
  Qed.

  Definition quiet (loop1 : bool) (n : nat) (s : st X) : Prop :=
    active loop1 = false \/ (used s + n < count C)%nat \/ (count C <= used s)%nat.
  Lemma done_ready o r s s1 s2 us : ready r s s1 -> done o us s1 s2 -> done o us s s2.
  Proof. unfold ready, done. intros (A & B & D & E & F & G & H & I). now rewrite E, F, G, H. Qed.

  Lemma integer_cons r rows : integer_weights (r :: rows) -> integer_weights [r] /\ integer_weights rows.
  Proof.
    unfold integer_weights. intro H. split; intro T; specialize (H T).
    - apply Forall_cons; [now apply Forall_inv in H | constructor].
    - now apply Forall_inv_tail in H.
  Qed.

  Lemma pass_plain fuel agree loop1 o rest rows : forall s,
    past s -> integer_weights rows -> quiet loop1 (length (ufilter (picked (acc s) rows))) s ->
    exists s', pass C fuel agree loop1 o (map item_of rows ++ rest) s = pass C fuel agree loop1 o rest s' /\
      past s' /\ skip s' = skip s /\ done o (picked (acc s) rows) s s'.
  Proof.
    induction rows as [| r rows IH]; intros s P I Q.
    { exists s. cbn. split; [reflexivity |]. split; [exact P |]. split; [reflexivity | apply done_nil]. }
    apply integer_cons in I. destruct I as [I1 I].
    destruct (past_step agree loop1 o r s P) as (s1 & RD & ES). cbn [map app pass]. rewrite ES.
    pose proof RD as (P1 & K1 & A1 & U1 & O1 & M1 & T1 & R1).
    destruct (thinned_step agree loop1 o r s1 I1 R1)
      as [(s2 & F & _ & ET & PK & D2 & AK) | (s2 & r1 & F1 & F2 & F3 & R2 & D2 & PK & ET & AK)].
    - rewrite ET. destruct F as (G1 & G2 & G3 & G4). cbn in G1, G2, G3, G4.
      specialize (PK rows). rewrite A1 in PK. rewrite PK in Q |- *.
      assert (U2 : used s2 = used s) by (destruct D2 as (_ & D2 & _); cbn in D2; lia).
      destruct (IH s2) as (s' & E' & P' & K' & D'); [eapply past_fixed; [exact P1 | congruence ..] | exact I | unfold quiet in *; now rewrite U2 |].
      exists s'. split; [exact E' |]. split; [exact P' |]. split; [congruence |].
      eapply done_ready; [exact RD |]. exact (done_app o [] _ _ _ _ D2 D').
    - rewrite ET. specialize (PK rows). rewrite A1 in PK. rewrite PK in Q |- *.
      assert (U2 : used s2 = used s) by (destruct D2 as (_ & D2 & _); cbn in D2; lia).
      destruct (process_plain agree loop1 o s2) as (s3 & E3 & (G1 & G2 & G3 & G4) & D3).
      { unfold quiet in Q. rewrite U2. unfold ufilter in Q. cbn [filter length] in Q.
        assert (xr : point_of r1 = x s2) by (now rewrite <- R2). rewrite xr in Q.
        destruct (usable (x s2)); [| now right; right]. cbn [length] in Q. destruct Q as [Q | [Q | Q]]; [now left | right; left; lia ..]. }
      rewrite E3.
      assert (U3 : used s3 = (used s + length (ufilter [r1]))%nat) by (destruct D3 as (_ & D3 & _); rewrite D3, U2, R2; reflexivity).
      destruct (IH s3) as (s' & E' & P' & K' & D'); [eapply past_fixed; [exact P1 | congruence ..] | exact I | |].
      { unfold quiet in *. rewrite U3, G2. destruct Q as [Q | [Q | Q]]; [now left | right; left | right; right; lia].
        change (r1 :: picked (acc s2) rows) with ([r1] ++ picked (acc s2) rows) in Q. unfold ufilter in *. rewrite filter_app, app_length in Q.
        lia. }
      exists s'. split; [exact E' |]. split; [exact P' |]. split; [congruence |].
      eapply done_ready; [exact RD |]. rewrite R2 in D3. rewrite G2 in D'. exact (done_app o [] _ _ _ _ D2 (done_cons _ _ _ _ _ _ D3 D')).
  Qed.

  (** With the check of the scale: [us] are the samples that are looked at *)
  Lemma pass_trigger fuel agree loop1 o rest rows : forall s,
    past s -> integer_weights rows -> active loop1 = true -> (used s < count C)%nat ->
    (count C <= used s + length (ufilter (picked (acc s) rows)))%nat ->
    let us := firstn (count C - used s) (ufilter (picked (acc s) rows)) in
    let d := diff_of (folded newlike us (max_truelike s)) (folded like_of us (max_like s)) in
    exists s0 s', skip s0 = skip s /\
      (acc_ok s -> Forall (fun r => 0 <= weight_of r) rows -> acc_ok s0) /\ past s' /\ skip s' = skip s /\ done o (picked (acc s) rows) s s' /\
      pass C fuel agree loop1 o (map item_of rows ++ rest) s =
      match agree d with
      | None => Some (Wait d s0)
      | Some d => if Rltb (max_diff C) (Rabs d) then Some (Restart d s0) else pass C fuel agree loop1 o rest s'
      end.
  Proof.
    induction rows as [| r rows IH]; intros s P I AC U1 U2.
    { cbn in U2. lia. }
    apply integer_cons in I. destruct I as [I1 I].
    destruct (past_step agree loop1 o r s P) as (s1 & RD & ES). cbn [map app pass]. rewrite ES.
    pose proof RD as (P1 & K1 & A1 & V1 & O1 & M1 & T1 & R1).
    destruct (thinned_step agree loop1 o r s1 I1 R1)
      as [(s2 & F & _ & ET & PK & D2 & AK) | (s2 & r1 & F1 & F2 & F3 & R2 & D2 & PK & ET & AK)].
    - rewrite ET. destruct F as (G1 & G2 & G3 & G4). cbn in G1, G2, G3, G4.
      specialize (PK rows). rewrite A1 in PK. rewrite PK in U2 |- *.
      pose proof D2 as (_ & W2 & X2 & Y2). cbn in W2, X2, Y2.
      assert (W3 : used s2 = used s) by lia.
      assert (X3 : max_like s2 = max_like s) by congruence. assert (Y3 : max_truelike s2 = max_truelike s) by congruence.
      destruct (IH s2) as (s0 & s' & E0 & AO & P' & K' & D' & EQ);
        [eapply past_fixed; [exact P1 | congruence ..] | exact I | exact AC | lia | lia |].
      rewrite W3, X3, Y3 in EQ. exists s0, s'. split; [congruence |].
      split; [intros Z1 Z2; apply AO; [apply AK; [unfold acc_ok in *; now rewrite A1 | now apply Forall_inv in Z2] | now apply Forall_inv_tail in Z2] |].
      split; [exact P' |]. split; [congruence |]. split; [| exact EQ].
      eapply done_ready; [exact RD |]. exact (done_app o [] _ _ _ _ D2 D').
    - rewrite ET. specialize (PK rows). rewrite A1 in PK. rewrite PK in U2 |- *.
      pose proof D2 as (_ & W2 & X2 & Y2). cbn in W2, X2, Y2.
      assert (W3 : used s2 = used s) by lia.
      assert (X3 : max_like s2 = max_like s) by congruence. assert (Y3 : max_truelike s2 = max_truelike s) by congruence.
      destruct (usable (x s2)) eqn:EU.
      + assert (EF : forall l, ufilter (r1 :: l) = r1 :: ufilter l) by
          (intro l; unfold ufilter; cbn [filter]; rewrite <- R2; cbn [point_of row_of snd]; now rewrite EU).
        rewrite EF in U2 |- *. cbn [length] in U2.
        destruct (Nat.eq_dec (S (used s2)) (count C)) as [EC | EC].
        * destruct (process_trigger agree loop1 o s2 AC EC EU) as (s3 & F4 & D3 & s0 & F5 & EP). cbv zeta in EP. rewrite EP.
          replace (count C - used s)%nat with 1%nat by lia. cbn [firstn]. unfold folded. cbn [fold_left].
          rewrite X3, Y3, R2. replace (like s2) with (like_of r1) by now rewrite <- R2.
          destruct F4 as (H1 & H2 & H3 & H4). destruct F5 as (L1 & L2 & L3 & L4).
          destruct (pass_plain fuel agree loop1 o rest rows s3) as (s' & E' & P' & K' & D');
            [eapply past_fixed; [exact P1 | congruence ..] | exact I | |].
          { right. right. destruct D3 as (_ & D3 & _). rewrite D3, R2. rewrite EF. cbn. lia. }
          exists s0, s'. split; [congruence |].
          split; [intros Z1 Z2; unfold acc_ok in *; rewrite L2; apply AK; [now rewrite A1 | now apply Forall_inv in Z2] |].
          split; [exact P' |]. split; [congruence |]. split.
          { eapply done_ready; [exact RD |]. rewrite R2 in D3. rewrite H2 in D'.
            exact (done_app o [] _ _ _ _ D2 (done_cons _ _ _ _ _ _ D3 D')). }
          cbv zeta. match goal with |- context [agree ?e] => destruct (agree e) as [d0 |]; [| reflexivity] end.
          destruct (Rltb (max_diff C) (Rabs d0)); [reflexivity |]. exact E'.
        * destruct (process_plain agree loop1 o s2) as (s3 & E3 & (G1 & G2 & G3 & G4) & D3); [right; left; exact EC |].
          rewrite E3. pose proof D3 as (_ & W4 & X4 & Y4). rewrite R2, EF in W4, X4, Y4. cbn in W4, X4, Y4.
          destruct (IH s3) as (s0 & s' & E0 & AO & P' & K' & D' & EQ);
            [eapply past_fixed; [exact P1 | congruence ..] | exact I | exact AC | lia | rewrite G2; lia |].
          rewrite G2 in EQ, D'.
          exists s0, s'. split; [congruence |].
        split; [intros Z1 Z2; apply AO; [unfold acc_ok in *; rewrite G2; apply AK; [now rewrite A1 | now apply Forall_inv in Z2] | now apply Forall_inv_tail in Z2] |].
        split; [exact P' |]. split; [congruence |]. split.
          { eapply done_ready; [exact RD |]. rewrite R2 in D3. exact (done_app o [] _ _ _ _ D2 (done_cons _ _ _ _ _ _ D3 D')). }
          rewrite EQ. replace (count C - used s)%nat with (S (count C - used s3)) by lia. cbn [firstn].
          unfold folded. cbn [fold_left]. rewrite <- X3, <- Y3. rewrite X4, Y4. reflexivity.
      + assert (EF : forall l, ufilter (r1 :: l) = ufilter l) by
          (intro l; unfold ufilter; cbn [filter]; rewrite <- R2; cbn [point_of row_of snd]; now rewrite EU).
        destruct (process_plain agree loop1 o s2) as (s3 & E3 & (G1 & G2 & G3 & G4) & D3); [right; right; exact EU |].
        rewrite E3. pose proof D3 as (_ & W4 & X4 & Y4). rewrite R2, EF in W4, X4, Y4. cbn in W4, X4, Y4.
        rewrite EF in U2 |- *.
        destruct (IH s3) as (s0 & s' & E0 & AO & P' & K' & D' & EQ);
          [eapply past_fixed; [exact P1 | congruence ..] | exact I | exact AC | lia | rewrite G2; lia |].
        rewrite G2 in EQ, D'.
        exists s0, s'. split; [congruence |].
        split; [intros Z1 Z2; apply AO; [unfold acc_ok in *; rewrite G2; apply AK; [now rewrite A1 | now apply Forall_inv in Z2] | now apply Forall_inv_tail in Z2] |].
        split; [exact P' |]. split; [congruence |]. split.
        { eapply done_ready; [exact RD |]. rewrite R2 in D3. exact (done_app o [] _ _ _ _ D2 (done_cons _ _ _ _ _ _ D3 D')). }
        rewrite EQ. rewrite W4, X4, Y4, X3, Y3. replace (used s2 + 0)%nat with (used s) by lia. reflexivity.
  Qed.

  (** Rows left out at the beginning *)
  Definition nburn (f : R) : nat := if Rleb 1 f then Z.to_nat (Int_part f) else 0.
  Lemma Int_part_le z f : IZR z <= f -> (z <= Int_part f)%Z.
  Proof. intro H. destruct (base_Int_part f) as [A B]. assert (D : IZR z < IZR (Int_part f + 1)) by (rewrite plus_IZR; lra). apply lt_IZR in D. lia. Qed.
  Lemma Int_part_lt z f : (z <= Int_part f)%Z -> IZR z <= f.
  Proof. intro H. apply IZR_le in H. destruct (base_Int_part f) as [A B]. lra. Qed.

  Definition unchanged (s s' : st X) : Prop :=
    skip s' = skip s /\ acc s' = acc s /\ used s' = used s /\ out s' = out s /\ max_like s' = max_like s /\
    max_truelike s' = max_truelike s.
  Lemma burn_step agree loop1 o r s : 1 <= skip s -> IZR (num s + 1) <= skip s ->
    exists s', step C agree loop1 o (item_of r) s = Next s' /\ unchanged s s' /\ num s' = (num s + 1)%Z.
  Proof.
    intros S1 S2. unfold step, item_of. apply Rleb_true in S2. pose proof S1 as S3. apply Rleb_true in S3.
    assert (S4 : Rltb (skip s) 1 = false) by now apply Rltb_false.
    destruct (from_text C); cbn [num skip set_num set_row].
    - rewrite S3, S2. eexists. split; [reflexivity |]. now repeat split.
    - rewrite S4, andb_false_r, S2. eexists. split; [reflexivity |]. now repeat split.
  Qed.
  Lemma pass_burn fuel agree loop1 o rest rows : forall s, 1 <= skip s -> IZR (num s + Z.of_nat (length rows)) <= skip s ->
    exists s', pass C fuel agree loop1 o (map item_of rows ++ rest) s = pass C fuel agree loop1 o rest s' /\
      unchanged s s' /\ num s' = (num s + Z.of_nat (length rows))%Z.
  Proof.
    induction rows as [| r rows IH]; intros s S1 S2.
    { exists s. split; [reflexivity |]. split; [now repeat split | cbn; lia]. }
    cbn [length] in S2. rewrite Nat2Z.inj_succ in S2.
    assert (S3 : IZR (num s + 1) <= skip s).
    { apply Rle_trans with (2 := S2). apply IZR_le. lia. }
    destruct (burn_step agree loop1 o r s S1 S3) as (s1 & E1 & U1 & N1). cbn [map app pass]. rewrite E1.
    destruct U1 as (K1 & A1 & V1 & O1 & M1 & T1).
    destruct (IH s1) as (s' & E' & (K2 & A2 & V2 & O2 & M2 & T2) & N').
    { now rewrite K1. }
    { rewrite K1, N1. apply Rle_trans with (2 := S2). apply IZR_le. lia. }
    exists s'. split; [exact E' |]. split; [repeat split; congruence |]. rewrite N', N1. cbn [length]. lia.
  Qed.

  Definition fine (fuel : nat) (f : R) : Prop :=
    (0 < fuel)%nat /\ (from_text C = true \/
     ((thin C <= 1)%Z /\ Rltb 0 f && Rltb f 1 = false /\ (nburn f < fuel)%nat)).
  Lemma at_end_exits agree loop1 o : forall n fuel s, (0 < fuel)%nat ->
    from_text C = true \/ ((thin C <= 1)%Z /\ Rltb 0 (skip s) && Rltb (skip s) 1 = false /\
      (n < fuel)%nat /\ skip s < IZR (num s + Z.of_nat n + 1)) ->
    exists s', at_end C fuel agree loop1 o s = Some (Exit s') /\ out s' = out s.
  Proof.
    intros n fuel. revert n. induction fuel as [| fuel IH]; intros n s F H; [lia |]. cbn [at_end]. unfold step.
    destruct H as [H | (H1 & H2 & H3 & H4)].
    { rewrite H. exists s. split; reflexivity. }
    destruct (from_text C) eqn:ET; [exists s; split; reflexivity |].
    cbn [skip set_num num]. rewrite H2.
    destruct (Rleb (IZR (num s + 1)) (skip s)) eqn:E.
    - apply Rleb_true in E.
      assert (n <> 0)%nat. { intros ->. cbn in H4. rewrite Z.add_0_r in H4. lra. }
      destruct (IH (n - 1)%nat (set_num (num s + 1) s)) as (s' & E' & O').
      { lia. }
      { right. split; [exact H1 |]. split; [exact H2 |]. split; [lia |]. cbn [skip num set_num].
        replace (num s + 1 + Z.of_nat (n - 1) + 1)%Z with (num s + Z.of_nat n + 1)%Z by lia. exact H4. }
      exists s'. split; [exact E' | now rewrite O'].
    - unfold thinned. assert (E1 : (1 <? thin C)%Z = false) by (apply Z.ltb_ge; lia). rewrite E1.
      eexists. split; [reflexivity | reflexivity].
  Qed.
  Lemma at_end_past agree loop1 o fuel s : (0 < fuel)%nat -> past s -> (from_text C = true \/ (thin C <= 1)%Z) ->
    exists s', at_end C fuel agree loop1 o s = Some (Exit s') /\ out s' = out s.
  Proof.
    intros F P T. destruct fuel as [| fuel]; [lia |]. cbn [at_end]. unfold step, past in *.
    destruct (from_text C) eqn:ET; [exists s; split; reflexivity |].
    destruct T as [T | T]; [discriminate |]. cbn [skip set_num num].
    assert (E1 : (1 <? thin C)%Z = false) by (apply Z.ltb_ge; lia).
    destruct P as [[P P1] | [P P1]]; rewrite P.
    - cbn [beg set_num]. destruct (beg s =? 0)%Z eqn:E0; [apply Z.eqb_eq in E0; lia |].
      destruct (beg s =? 1)%Z eqn:E2; [apply Z.eqb_eq in E2; lia |].
      unfold thinned. rewrite E1. eexists. split; reflexivity.
    - apply Rleb_false in P1. rewrite P1. unfold thinned. rewrite E1. eexists. split; reflexivity.
  Qed.

  (** The state in which the rows that are kept are read *)
  Lemma begin_pass fuel agree loop1 o rows s0 : fine fuel (skip s0) ->
    exists s1, unchanged (init s0) s1 /\
      pass C fuel agree loop1 o (map item_of rows) (init s0) =
        pass C fuel agree loop1 o (map item_of (skipn (nburn (skip s0)) rows)) s1 /\
      (past s1 \/ (skipn (nburn (skip s0)) rows = [] /\ 1 <= skip s1 /\
                   skip s1 < IZR (num s1 + Z.of_nat (nburn (skip s0)) + 1))).
  Proof.
    intros [F0 F]. unfold nburn in *. destruct (Rleb 1 (skip s0)) eqn:E.
    - pose proof E as E'. apply Rleb_true in E'. set (z := Int_part (skip s0)) in *.
      assert (Z1 : (1 <= z)%Z) by now apply Int_part_le.
      destruct (base_Int_part (skip s0)) as [B1 B2]. fold z in B1, B2.
      destruct (le_lt_dec (length rows) (Z.to_nat z)) as [H | H].
      + rewrite skipn_all2 by exact H.
        destruct (pass_burn fuel agree loop1 o [] rows (init s0)) as (s1 & E1 & U1 & N1).
        { exact E'. }
        { cbn [init num skip]. apply Rle_trans with (IZR z); [apply IZR_le; lia | lra]. }
        rewrite app_nil_r in E1. exists s1. split; [exact U1 |]. split; [exact E1 |]. right. split; [reflexivity |].
        destruct U1 as (K1 & _). rewrite K1. split; [exact E' |]. rewrite N1. cbn [init num skip].
        apply Rlt_le_trans with (IZR (z + 1)); [rewrite plus_IZR; lra | apply IZR_le; lia].
      + replace (map item_of rows) with (map item_of (firstn (Z.to_nat z) rows) ++ map item_of (skipn (Z.to_nat z) rows))
          by now rewrite <- map_app, firstn_skipn.
        assert (L : length (firstn (Z.to_nat z) rows) = Z.to_nat z) by (rewrite firstn_length; lia).
        destruct (pass_burn fuel agree loop1 o (map item_of (skipn (Z.to_nat z) rows)) (firstn (Z.to_nat z) rows) (init s0)) as (s1 & E1 & U1 & N1).
        { exact E'. }
        { cbn [init num skip]. rewrite L. apply Rle_trans with (IZR z); [apply IZR_le; lia | lra]. }
        exists s1. split; [exact U1 |]. split; [exact E1 |]. left. destruct U1 as (K1 & _).
        rewrite L in N1. cbn [init num] in N1. unfold past. rewrite K1, N1. cbn [init skip].
        assert (S1 : skip s0 < IZR (0 + Z.of_nat (Z.to_nat z) + 1)).
        { replace (0 + Z.of_nat (Z.to_nat z) + 1)%Z with (z + 1)%Z by lia. rewrite plus_IZR. lra. }
        destruct (from_text C).
        * apply Rleb_false in S1. rewrite S1. apply andb_false_r.
        * right. split; [| exact S1]. assert (S2 : Rltb (skip s0) 1 = false) by now apply Rltb_false. rewrite S2. apply andb_false_r.
    - exists (init s0). split; [repeat split |]. split; [reflexivity |]. left. unfold past. cbn [init skip num].
      destruct (from_text C) eqn:ET; [now rewrite E |].
      destruct F as [F | (F1 & F2 & F3)]; [discriminate |]. right. split; [exact F2 |]. apply Rleb_false in E. cbn. lra.
  Qed.

  Lemma pass_all_plain fuel agree loop1 o rows s0 : fine fuel (skip s0) ->
    let kept := picked (acc s0) (skipn (nburn (skip s0)) rows) in
    integer_weights (skipn (nburn (skip s0)) rows) ->
    active loop1 = false \/ (length (ufilter kept) < count C)%nat \/ count C = 0%nat ->
    exists s', pass C fuel agree loop1 o (map item_of rows) (init s0) = Some (Exit s') /\ out s' = flat_map (emit o) kept.
  Proof.
    intros F kept I Q. destruct (begin_pass fuel agree loop1 o rows s0 F) as (s1 & U1 & E1 & P1). rewrite E1.
    destruct U1 as (K1 & A1 & V1 & O1 & M1 & T1). destruct F as [F0 F]. cbn [init skip acc used out] in *.
    destruct P1 as [P1 | (E2 & L1 & L2)].
    - destruct (pass_plain fuel agree loop1 o [] (skipn (nburn (skip s0)) rows) s1) as (s2 & E2 & P2 & K2 & D2).
      { exact P1. } { exact I. }
      { unfold quiet. rewrite A1, V1. fold kept. cbn [init used acc]. destruct Q as [Q | [Q | Q]]; [now left | right; left; lia | right; right; lia]. }
      rewrite app_nil_r in E2. rewrite E2. cbn [pass].
      destruct (at_end_past agree loop1 o fuel s2) as (s' & E3 & O3); [exact F0 | exact P2 | tauto |].
      exists s'. split; [exact E3 |]. rewrite O3. destruct D2 as (D2 & _). now rewrite D2, O1, A1.
    - subst kept. rewrite E2. cbn [map pass].
      destruct (at_end_exits agree loop1 o (nburn (skip s0)) fuel s1) as (s' & E3 & O3).
      { exact F0. }
      { destruct F as [F | (F1 & F2 & F3)]; [now left | right]. split; [exact F1 |]. rewrite K1 in *. split; [exact F2 |].
        split; [exact F3 |]. exact L2. }
      exists s'. split; [exact E3 |]. rewrite O3, O1. reflexivity.
  Qed.

  Lemma pass_all_trigger fuel agree loop1 o rows s0 : fine fuel (skip s0) ->
    let kept := picked (acc s0) (skipn (nburn (skip s0)) rows) in
    integer_weights (skipn (nburn (skip s0)) rows) ->
    active loop1 = true -> (0 < count C <= length (ufilter kept))%nat ->
    let us := firstn (count C) (ufilter kept) in
    let d := diff_of (folded newlike us logZero) (folded like_of us logZero) in
    exists sr s', skip sr = skip s0 /\
      (acc_ok s0 -> Forall (fun r => 0 <= weight_of r) rows -> acc_ok sr) /\ out s' = flat_map (emit o) kept /\
      pass C fuel agree loop1 o (map item_of rows) (init s0) =
      match agree d with
      | None => Some (Wait d sr)
      | Some d => if Rltb (max_diff C) (Rabs d) then Some (Restart d sr) else Some (Exit s')
      end.
  Proof.
    intros F kept I Q N us d. destruct (begin_pass fuel agree loop1 o rows s0 F) as (s1 & U1 & E1 & P1). rewrite E1.
    destruct U1 as (K1 & A1 & V1 & O1 & M1 & T1). destruct F as [F0 F]. cbn [init skip acc used out max_like max_truelike] in *.
    destruct P1 as [P1 | (E2 & L1 & L2)].
    - destruct (pass_trigger fuel agree loop1 o [] (skipn (nburn (skip s0)) rows) s1) as (sr & s2 & K0 & AO & P2 & K2 & D2 & E2).
      { exact P1. } { exact I. } { exact Q. } { rewrite V1. lia. } { rewrite V1, A1. fold kept. lia. }
      rewrite app_nil_r in E2. rewrite V1, A1, M1, T1, Nat.sub_0_r in E2. fold kept in E2.
      destruct (at_end_past agree loop1 o fuel s2) as (s' & E3 & O3); [exact F0 | exact P2 | tauto |].
      exists sr, s'. split; [congruence |]. split; [| split].
      + intros B1 B2. apply AO; [unfold acc_ok in *; now rewrite A1 |].
        rewrite <- (firstn_skipn (nburn (skip s0)) rows) in B2. apply Forall_app in B2. now destruct B2.
      + rewrite O3. destruct D2 as (D2 & _). now rewrite D2, O1, A1.
      + rewrite E2. subst us d. match goal with |- context [agree ?e] => destruct (agree e) as [d0 |]; [| reflexivity] end.
        destruct (Rltb (max_diff C) (Rabs d0)); [reflexivity |]. exact E3.
    - subst kept. rewrite E2 in N. cbn in N. lia.
  Qed.

  (** The whole chain *)
  Lemma chain_quiet fuel agree o rows s0 : fine fuel (skip s0) ->
    let kept := picked (acc s0) (skipn (nburn (skip s0)) rows) in
    integer_weights (skipn (nburn (skip s0)) rows) ->
    active true = false \/ (length (ufilter kept) < count C)%nat \/ count C = 0%nat ->
    chain C fuel agree o (map item_of rows) s0 = Written (flat_map (emit o) kept).
  Proof.
    intros F kept I Q. destruct (pass_all_plain fuel agree true o rows s0 F I Q) as (s' & E & O).
    unfold chain. rewrite E. cbn. now rewrite O.
  Qed.
  Lemma chain_trigger fuel agree o rows s0 : fine fuel (skip s0) ->
    let kept := picked (acc s0) (skipn (nburn (skip s0)) rows) in
    integer_weights (skipn (nburn (skip s0)) rows) ->
    active true = true -> (0 < count C <= length (ufilter kept))%nat ->
    let us := firstn (count C) (ufilter kept) in
    let d := diff_of (folded newlike us logZero) (folded like_of us logZero) in
    exists a, (acc_ok s0 -> Forall (fun r => 0 <= weight_of r) rows -> (1 < thin C -> 0 <= a < thin C)%Z) /\
    chain C fuel agree o (map item_of rows) s0 =
      match agree d with
      | None => Waits d
      | Some d => if Rltb (max_diff C) (Rabs d) then Written (flat_map (emit d) (picked a (skipn (nburn (skip s0)) rows)))
                  else Written (flat_map (emit o) kept)
      end.
  Proof.
    intros F kept I Q N us d.
    destruct (pass_all_trigger fuel agree true o rows s0 F I Q N) as (sr & s' & K & AO & O & E).
    exists (acc sr). split; [exact AO |]. unfold chain. rewrite E. subst us d. fold kept.
    match goal with |- context [agree ?e] => destruct (agree e) as [d0 |]; [| reflexivity] end.
    destruct (Rltb (max_diff C) (Rabs d0)).
    - destruct (pass_all_plain fuel agree false d0 rows sr) as (s2 & E2 & O2).
      { now rewrite K. }
      { now rewrite K. }
      { left. unfold active. now rewrite andb_false_r. }
      rewrite E2. cbn. rewrite O2, K. reflexivity.
    - cbn. now rewrite O.
  Qed.
End Imp.
