(** C116: which C_l are computed, and how far; C117: C_l from CAMB *)
From Coq Require Import Reals ZArith Bool List Lia Lra Permutation.
From Verif Require Import ClModel ClSpec ClProofs.
Import ListNotations.
Local Open Scope Z_scope.

Section Cl.
Context {least store lmin lmaxc : Z} {nonlin : bool}.
Notation Init := (Initialize_CMBSettings least store lmin lmaxc nonlin).
Lemma init_cases ls s : Init ls = Some s -> exists m, parse (stored store nonlin) ls = Some m /\ (forall i j, lm s i j = if 0 <? m i j then Z.max (m i j) lmin else m i j).
Proof. unfold Initialize_CMBSettings. destruct (parse _ ls) as [m |]; [| discriminate]. intro E1. injection E1 as <-. exists m. split; [reflexivity |]. reflexivity. Qed.
Lemma stored_nonneg i j : 0 <= stored store nonlin i j.
Proof. destruct (stored_kept store nonlin i j) as [(A & _ & ->) | (_ & ->)]; lia. Qed.

(** C116: each likelihood gets at least the multipoles that it asks for, and at least lmin_computed_cl of them; spectra that are to be stored are computed as far. *)
Theorem C116_enough ls s : Init ls = Some s ->
  (forall i j v, asks ls i j v -> (1 <= j <= i)%nat /\ v <= lm s i j /\ lmin <= lm s i j) /\ (forall i j, 0 < store -> kept nonlin i j -> store <= lm s i j /\ lmin <= lm s i j).
Proof.
  intro E1. destruct (init_cases _ _ E1) as (m & EP & EM). split.
  - intros i j v Q. assert (J : (1 <= j <= i)%nat).
    { destruct Q as (l & r & I & EL & I1 & J1 & EV & P). split; [lia |]. destruct (Nat.le_gt_cases j i) as [| G]; [assumption |]. exfalso.
      assert (parse (stored store nonlin) ls = None); [| congruence]. apply parse_bad. exists l. split; [exact I |]. unfold bad. rewrite EL. exists i, j. repeat split; try lia.
      right. exists i, j. repeat split; lia. }
    split; [exact J |]. destruct (parse_spec _ _ _ EP i j (stored_nonneg i j) J) as (_ & A & _). specialize (A v Q). assert (0 < v) by (destruct Q as (? & ? & _ & _ & _ & _ & _ & ?); assumption).
    rewrite EM. destruct (Z.ltb_spec 0 (m i j)); lia.
  - intros i j S K. destruct (kept_range _ _ _ K) as (J & _). destruct (parse_spec _ _ _ EP i j (stored_nonneg i j) J) as (A & _).
    destruct (stored_kept store nonlin i j) as [(_ & _ & B) | (B & _)]; [| exfalso; auto]. rewrite EM. destruct (Z.ltb_spec 0 (m i j)); lia.
Qed.
(** C116: and not more: a spectrum that nobody asks for is not computed, and the length of another one is what somebody asks for. *)
Theorem C116_exact ls s i j : Init ls = Some s ->
  lm s i j = 0 /\ (forall v, ~ asks ls i j v) /\ ~ (0 < store /\ kept nonlin i j) \/
  exists v, (asks ls i j v \/ 0 < store /\ kept nonlin i j /\ v = store) /\ lm s i j = Z.max v lmin.
Proof.
  intro E1. destruct (init_cases _ _ E1) as (m & EP & EM). destruct (C116_enough _ _ E1) as (C1 & C2).
  assert (Q : m i j = 0 \/ 0 < m i j /\ (asks ls i j (m i j) \/ 0 < store /\ kept nonlin i j /\ m i j = store)).
  { destruct (Nat.le_gt_cases 1 j) as [J1 | J1], (Nat.le_gt_cases j i) as [J2 | J2].
    2, 3, 4: rewrite (parse_outside _ _ _ EP i j) by lia; destruct (stored_kept store nonlin i j) as [(A & B & ->) | (_ & ->)]; [right; split; [exact A | right; auto] | now left].
    destruct (parse_spec _ _ _ EP i j (stored_nonneg i j) (conj J1 J2)) as (A1 & A2 & [A3 | A3]).
    - destruct (stored_kept store nonlin i j) as [(B1 & B2 & B3) | (B1 & B2)]; [right; split; [lia | right; repeat split; auto; lia] | left; lia].
    - right. split; [destruct A3 as (? & ? & _ & _ & _ & _ & _ & ?); assumption | now left]. }
  rewrite EM. destruct Q as [Q | (P & Q)].
  - left. rewrite Q. cbn. split; [reflexivity |]. split.
    + intros v A. assert (P : 0 < v) by (destruct A as (? & ? & _ & _ & _ & _ & _ & ?); assumption). specialize (C1 _ _ _ A). rewrite EM, Q in C1. cbn in C1. lia.
    + intros (S & K). specialize (C2 _ _ S K). rewrite EM, Q in C2. cbn in C2. lia.
  - right. exists (m i j). split; [exact Q |]. destruct (Z.ltb_spec 0 (m i j)); lia.
Qed.
(** C116: the program stops just when a CMB likelihood asks for nothing, or when the table of a likelihood is not square or has entries above the diagonal. *)
Theorem C116_stop ls : Init ls = None <-> exists l, In l ls /\ bad l.
Proof. rewrite <- (parse_bad ls (stored store nonlin)). unfold Initialize_CMBSettings. destruct (parse _ ls); split; congruence. Qed.
(** C116: the order of the likelihoods does not matter. *)
Theorem C116_order ls ls' s s' : Permutation ls ls' -> Init ls = Some s -> Init ls' = Some s' -> num s = num s' /\ forall i j, lm s i j = lm s' i j.
Proof.
  intros PM E1 E2. split.
  - assert (EN : forall l x, Init l = Some x -> num x = if 0 <? store then Nat.max (numcls1 l) (if nonlin then 4 else 2) else numcls1 l).
    { intros l x. unfold Initialize_CMBSettings. destruct (parse _ l); [| discriminate]. intro E3. injection E3 as <-. reflexivity. }
    rewrite (EN _ _ E1), (EN _ _ E2). assert (X : numcls1 ls = numcls1 ls'); [| now rewrite X].
    unfold numcls1. destruct (numcls_spec ls O) as (A1 & A2 & A3), (numcls_spec ls' O) as (B1 & B2 & B3).
    apply Nat.le_antisymm.
    + destruct A3 as [-> | (l & r & I & E3 & P & ->)]; [lia |]. apply (B2 l r); auto. eapply Permutation_in; eassumption.
    + destruct B3 as [-> | (l & r & I & E3 & P & ->)]; [lia |]. apply (A2 l r); auto. eapply Permutation_in; [apply Permutation_sym |]; eassumption.
  - assert (SW : forall l l' i j v, Permutation l l' -> asks l i j v -> asks l' i j v).
    { intros l l' i j v P (x & r & I & Q). exists x, r. split; [eapply Permutation_in; eassumption | exact Q]. }
    assert (LE : forall l l' x x' i j, Permutation l l' -> Init l = Some x -> Init l' = Some x' -> lm x i j <= lm x' i j).
    { intros l l' x x' i j P F1 F2. destruct (C116_exact _ _ i j F1) as [(-> & _) | (v & [A | (S & K & ->)] & ->)].
      - destruct (C116_exact _ _ i j F2) as [(-> & _) | (v & [A | (S & K & ->)] & ->)]; [lia | | lia]. assert (0 < v) by (destruct A as (? & ? & _ & _ & _ & _ & _ & ?); assumption). lia.
      - destruct (C116_enough _ _ F2) as (C & _). specialize (C _ _ _ (SW _ _ _ _ _ P A)). lia.
      - destruct (C116_enough _ _ F2) as (_ & C). specialize (C i j S K). lia. }
    intros i j. apply Z.le_antisymm; [exact (LE _ _ _ _ i j PM E1 E2) | exact (LE _ _ _ _ i j (Permutation_sym PM) E2 E1)].
Qed.
(** C116: every spectrum fits into the table; the largest length is that of some spectrum, and no more is computed than lmax_computed_cl; the potential is computed just when it is asked for. *)
Theorem C116_lmax ls s : Init ls = Some s -> (forall i j, lm s i j <> 0 -> (1 <= j <= i)%nat /\ (i <= num s)%nat) /\
  (use_CMB s = true <-> exists i j, lm s i j <> 0) /\ (use_phi s = true <-> exists j, lm s 4 j <> 0) /\
  (use_CMB s = true -> (forall i j, lm s i j <= lmax s) /\ (exists i j, lm s i j = lmax s) /\ lcomp s <= lmaxc /\ (lcomp s = lmaxc \/ forall i j, lm s i j <= lcomp s)).
Proof.
  intro E1. assert (R : forall i j, lm s i j <> 0 -> (1 <= j <= i)%nat /\ (i <= num s)%nat).
  { intros i j N. assert (EN : num s = if 0 <? store then Nat.max (numcls1 ls) (if nonlin then 4 else 2) else numcls1 ls).
    { unfold Initialize_CMBSettings in E1. destruct (parse _ ls); [| discriminate]. injection E1 as <-. reflexivity. }
    destruct (C116_exact _ _ i j E1) as [(Z0 & _) | (v & [A | (S & K & _)] & _)]; [contradiction | |].
    - destruct (C116_enough _ _ E1) as (C & _). destruct (C _ _ _ A) as (J & _). split; [exact J |]. destruct A as (l & r & I & EL & I1 & J1 & EV & P).
      assert (AP : any_pos r = true) by (apply any_pos_iff; exists i, j; rewrite EV; auto). destruct (numcls_spec ls O) as (_ & B & _). specialize (B l r I EL AP). fold (numcls1 ls) in B.
      assert (SQ : d1 r = d2 r). { destruct (Nat.eq_dec (d1 r) (d2 r)) as [| NE]; [assumption |]. exfalso. assert (X : Init ls = None) by (apply C116_stop; exists l; split; [exact I |]; unfold bad; rewrite EL; exists i, j; repeat split; try lia). congruence. }
      rewrite EN. destruct (0 <? store); lia.
    - destruct (kept_range _ _ _ K) as (J & I). split; [exact J |]. rewrite EN. apply Z.ltb_lt in S. rewrite S. lia. }
  assert (NZ : num s <> O -> exists i j, lm s i j <> 0).
  { unfold Initialize_CMBSettings in E1. destruct (init_cases _ _ E1) as (m & EP & EM). rewrite EP in E1. injection E1 as <-. cbn [num lm]. intro N.
    assert (PZ : forall i j, 0 < m i j -> exists i j, (if 0 <? m i j then Z.max (m i j) lmin else m i j) <> 0).
    { intros i j P. exists i, j. apply Z.ltb_lt in P as P'. rewrite P'. lia. }
    assert (E1 : Init ls = Some (mkCs (if 0 <? store then Nat.max (numcls1 ls) (if nonlin then 4 else 2) else numcls1 ls) (fun a b => if 0 <? m a b then Z.max (m a b) lmin else m a b)
      (negb (Nat.eqb (if 0 <? store then Nat.max (numcls1 ls) (if nonlin then 4 else 2) else numcls1 ls) 0)) ((Nat.ltb 3 (if 0 <? store then Nat.max (numcls1 ls) (if nonlin then 4 else 2) else numcls1 ls)) && existsb (fun j => negb ((if 0 <? m 4%nat j then Z.max (m 4%nat j) lmin else m 4%nat j) =? 0)) (seq 1 (if 0 <? store then Nat.max (numcls1 ls) (if nonlin then 4 else 2) else numcls1 ls)))
      (maxval least (if 0 <? store then Nat.max (numcls1 ls) (if nonlin then 4 else 2) else numcls1 ls) (fun a b => if 0 <? m a b then Z.max (m a b) lmin else m a b))
      (Z.min (maxval least (if 0 <? store then Nat.max (numcls1 ls) (if nonlin then 4 else 2) else numcls1 ls) (fun a b => if 0 <? m a b then Z.max (m a b) lmin else m a b)) lmaxc))) by (unfold Initialize_CMBSettings; now rewrite EP).
    destruct (C116_enough _ _ E1) as (C1 & C2). cbn [lm] in C1, C2. destruct (Z.ltb_spec 0 store) as [S | S].
    - specialize (C2 1%nat 1%nat S (or_introl (or_introl eq_refl))). exists 1%nat, 1%nat. lia.
    - destruct (numcls_spec ls O) as (_ & _ & [B | (l & r & I & EL & AP & _)]); [contradiction |]. apply any_pos_iff in AP as (i & j & I1 & J1 & P).
      destruct (C1 i j (ask r i j)) as (_ & V & _); [exists l, r; auto 10 |]. exists i, j. lia. }
  split; [exact R |].
  assert (UC : use_CMB s = negb (Nat.eqb (num s) 0)) by (unfold Initialize_CMBSettings in E1; destruct (parse _ ls); [| discriminate]; injection E1 as <-; reflexivity).
  split. { rewrite UC. destruct (Nat.eqb_spec (num s) 0) as [N | N]; cbn; split; try discriminate; [| auto | auto]. intros (i & j & X). destruct (R _ _ X). lia. }
  split.
  { assert (UP : use_phi s = (Nat.ltb 3 (num s)) && existsb (fun j => negb (lm s 4%nat j =? 0)) (seq 1 (num s))) by (unfold Initialize_CMBSettings in E1; destruct (parse _ ls); [| discriminate]; injection E1 as <-; reflexivity).
    rewrite UP, andb_true_iff, existsb_exists. split.
    - intros (_ & j & _ & Q). exists j. apply negb_true_iff, Z.eqb_neq in Q. exact Q.
    - intros (j & Q). destruct (R _ _ Q) as (J & N). split; [apply Nat.ltb_lt; lia |]. exists j. split; [apply in_seq; lia | now apply negb_true_iff, Z.eqb_neq]. }
  intro U. rewrite UC in U. apply negb_true_iff, Nat.eqb_neq in U. destruct (NZ U) as (i0 & j0 & N0).
  assert (TM : lmax s = maxval least (num s) (lm s) /\ lcomp s = Z.min (maxval least (num s) (lm s)) lmaxc) by (unfold Initialize_CMBSettings in E1; destruct (parse _ ls); [| discriminate]; injection E1 as <-; split; reflexivity).
  destruct TM as (T1 & T2). destruct (maxval_spec least (num s) (lm s)) as (M1 & i & j & I & J & M2); [lia |]. rewrite T1, T2.
  assert (NN : forall i j, lm s i j = 0 \/ 0 < lm s i j) by (intros a b; destruct (C116_exact _ _ a b E1) as [(-> & _) | (v & A & ->)]; [now left | right; assert (0 < v) by (destruct A as [(? & ? & _ & _ & _ & _ & _ & ?) | (? & _ & ->)]; assumption); lia]).
  assert (B : forall a b, lm s a b <= maxval least (num s) (lm s)).
  { intros a b. destruct (NN a b) as [Z0 | P].
    - destruct (R _ _ N0) as (J0 & I0). specialize (M1 i0 j0 ltac:(lia) ltac:(lia)). destruct (NN i0 j0); lia.
    - destruct (R a b) as (J0 & I0); [lia |]. apply M1; lia. }
  split; [exact B |]. split; [now exists i, j |]. split; [lia |]. destruct (Z.min_spec (maxval least (num s) (lm s)) lmaxc) as [[C ->] | [C ->]]; [right; exact B | now left].
Qed.
End Cl.
Print Assumptions C116_enough.
Print Assumptions C116_exact.
Print Assumptions C116_stop.
Print Assumptions C116_order.
Print Assumptions C116_lmax.
(** Finding (303-304 with Calculator_CAMB.f90 837-838): without CMB likelihoods the largest length is that of an empty array, the least integer; with lensing on,
    twice the number of multipoles is outside the integers. *)
Theorem C116_none_refuted lmin lmaxc nonlin : 0 <= lmaxc -> exists s, Initialize_CMBSettings (- 2^31) 0 lmin lmaxc nonlin [mkLk None false] = Some s /\ use_CMB s = false /\ lcomp s = - 2^31 /\ (lcomp s + 150) * 2 < - 2^31.
Proof. intro P. eexists. split; [reflexivity |]. split; [reflexivity |]. cbn [lcomp]. unfold maxval. cbn. lia. Qed.
Print Assumptions C116_none_refuted.
(** Planck-like temperature and polarization, and a lensing likelihood *)
Definition planck : req := mkReq 2 2 (fun i j => match i, j with 1%nat, 1%nat => 2508 | 2%nat, _ => 1996 | _, _ => 0 end).
Definition lens_like : req := mkReq 4 4 (fun i j => if Nat.eqb i 4 && Nat.eqb j 4 then 400 else 0).
Example C116_ex : exists s, Initialize_CMBSettings (- 2^31) 0 2000 4500 true [mkLk (Some planck) true; mkLk None false; mkLk (Some lens_like) true] = Some s /\
  num s = 4%nat /\ lm s 1 1 = 2508 /\ lm s 2 1 = 2000 /\ lm s 3 3 = 0 /\ lm s 4 4 = 2000 /\ lmax s = 2508 /\ lcomp s = 2508 /\ use_phi s = true /\
  asks [mkLk (Some planck) true; mkLk None false; mkLk (Some lens_like) true] 2 1 1996 /\ ~ bad (mkLk (Some planck) true).
Proof.
  eexists. split; [reflexivity |]. repeat (split; [reflexivity |]). split.
  - exists (mkLk (Some planck) true), planck. repeat split; cbn; try lia. now left.
  - rewrite <- (parse2_bad (fun _ _ => 0)). vm_compute. discriminate.
Qed.

Local Open Scope R_scope.
Section Powers.
Context (s : cset) (lensing tens : bool) (ltens : Z) (cons : R) (tmpl : col -> Z -> R).
Notation one' := (one s lensing tens ltens cons tmpl).
Notation fields' := (fields s lensing tens ltens cons tmpl).

Lemma indS_T i j c : indT i j = Some c -> indS i j = (match c with B => None | _ => Some c end).
Proof. unfold indT, indS. destruct i as [| [| [| [|]]]], j as [| [| [| [|]]]]; intro Q; try discriminate; injection Q as <-; reflexivity. Qed.
(** one spectrum *)
Lemma one_spec st norm i j old n cl : one' st norm i j old = (n, cl) -> (0 < lcomp s)%Z -> (0 < lm s i j)%Z ->
  (indT i j = None -> n = norm /\ forall L, cl L = 0) /\
  (forall c, indT i j = Some c ->
     (forall L, (2 <= L <= lm s i j)%Z -> (L <= lcomp s)%Z -> cl L = cmb_power lensing cons st c L + waves tens ltens cons st c L) /\
     (forall L, (2 <= L <= lm s i j)%Z -> (lcomp s < L)%Z -> cl L = n * tmpl c L) /\
     ((lm s i j <= lcomp s)%Z -> n = norm) /\ (norm <> 0 -> n = norm) /\
     (norm = 0 -> (lcomp s < lm s i j)%Z -> (2 <= lcomp s)%Z -> n = cmb_power lensing cons st c (lcomp s) / tmpl c (lcomp s))).
Proof.
  unfold one. intros E1 P1 P2. assert (X : (Z.min (lcomp s) (lm s i j) =? 0)%Z = false) by (apply Z.eqb_neq; lia). rewrite X in E1. split.
  - intro E2. rewrite E2 in E1. injection E1 as <- <-. auto.
  - intros c E2. rewrite E2, (indS_T _ _ _ E2) in E1. set (lx := Z.min (lcomp s) (lm s i j)) in *.
    set (cl0 := if lensing then _ else _) in E1.
    assert (V : forall L, (2 <= L <= lx)%Z -> cl0 L = cmb_power lensing cons st c L).
    { intros L Q. unfold cl0, cmb_power. assert (B : ((2 <=? L) && (L <=? lx))%Z = true) by (apply andb_true_iff; split; apply Z.leb_le; lia).
      destruct lensing; [unfold over; now rewrite B |]. destruct c; try (unfold over; rewrite B; reflexivity). ring. }
    clearbody cl0. destruct (Z.ltb_spec (lcomp s) (lm s i j)) as [LT | GE].
    + assert (EX : lx = lcomp s) by (unfold lx; lia). set (k := if Req_EM_T norm 0 then cl0 lx / tmpl c lx else norm) in E1.
      assert (F : forall L, over (lx + 1) (lm s i j) (fun L => k * tmpl c L) cl0 L = if ((lx + 1 <=? L) && (L <=? lm s i j))%Z then k * tmpl c L else cl0 L) by reflexivity.
      assert (RES : n = k /\ (forall L, (2 <= L <= lm s i j)%Z -> (L <= lcomp s)%Z -> cl L = cmb_power lensing cons st c L + waves tens ltens cons st c L) /\
        (forall L, (2 <= L <= lm s i j)%Z -> (lcomp s < L)%Z -> cl L = k * tmpl c L)).
      { destruct tens.
        - injection E1 as <- <-. split; [reflexivity |]. unfold waves. cbn [andb]. set (ct := over (lx + 1) (lm s i j) (fun L => k * tmpl c L) cl0) in *. clearbody ct. split; intros L R1 R2; unfold over; rewrite ?F.
          + assert (B : ((lx + 1 <=? L) && (L <=? lm s i j))%Z = false) by (apply andb_false_iff; left; apply Z.leb_gt; lia). rewrite B, (V L) by lia.
            destruct (Z.leb_spec 2 L); [| lia]. destruct (Z.leb_spec L ltens) as [T | T]; cbn [andb].
            * destruct (Z.leb_spec L (Z.min lx ltens)); [reflexivity | lia].
            * destruct (Z.leb_spec L (Z.min lx ltens)); [lia | ring].
          + assert (B : ((2 <=? L) && (L <=? Z.min lx ltens))%Z = false) by (apply andb_false_iff; right; apply Z.leb_gt; lia). rewrite B.
            assert (B2 : ((lx + 1 <=? L) && (L <=? lm s i j))%Z = true) by (apply andb_true_iff; split; apply Z.leb_le; lia). now rewrite B2.
        - injection E1 as <- <-. split; [reflexivity |]. unfold waves. cbn [andb]. split; intros L R1 R2; rewrite F.
          + assert (B : ((lx + 1 <=? L) && (L <=? lm s i j))%Z = false) by (apply andb_false_iff; left; apply Z.leb_gt; lia). rewrite B, (V L) by lia. ring.
          + assert (B2 : ((lx + 1 <=? L) && (L <=? lm s i j))%Z = true) by (apply andb_true_iff; split; apply Z.leb_le; lia). now rewrite B2. }
      destruct RES as (-> & R1 & R2). split; [exact R1 |]. split; [exact R2 |]. split; [lia |]. unfold k. split.
      * intro N. destruct (Req_EM_T norm 0); [contradiction | reflexivity].
      * intros N _ L2. destruct (Req_EM_T norm 0); [| contradiction]. rewrite (V lx) by lia. now rewrite EX.
    + assert (EX : lx = lm s i j) by (unfold lx; lia).
      assert (RES : n = norm /\ (forall L, (2 <= L <= lm s i j)%Z -> cl L = cmb_power lensing cons st c L + waves tens ltens cons st c L)).
      { destruct tens; injection E1 as <- <-; (split; [reflexivity |]); unfold waves; cbn [andb]; intros L R1.
        - unfold over. rewrite (V L) by lia. destruct (Z.leb_spec 2 L); [| lia]. destruct (Z.leb_spec L ltens), (Z.leb_spec L (Z.min lx ltens)); cbn [andb]; try lia; [reflexivity | ring].
        - rewrite (V L) by lia. ring. }
      destruct RES as (-> & R1). split; [intros L Q _; auto |]. split; [intros L Q Q2; lia |]. split; [auto |]. split; [auto |]. lia.
Qed.
Definition six : list (nat * nat) := [(1, 1); (2, 2); (2, 1); (3, 3); (3, 2); (3, 1)]%nat.
Lemma pairs_six : pairs (Nat.min 3 (num s)) = filter (fun q => Nat.leb (fst q) (num s)) six.
Proof. destruct (num s) as [| [| [| n]]]; reflexivity. Qed.
Lemma indT_six i j c : indT i j = Some c -> In (i, j) six.
Proof. unfold indT, indS, six. destruct i as [| [| [| [|]]]], j as [| [| [| [|]]]]; intro Q; try discriminate; cbn; auto 8. Qed.
Lemma six_in i j : (1 <= j <= i)%nat -> (i <= Nat.min 3 (num s))%nat -> In (i, j) (pairs (Nat.min 3 (num s))).
Proof. intros J I. rewrite pairs_six. apply filter_In. split; [| cbn; apply Nat.leb_le; lia]. unfold six. destruct i as [| [| [| [|]]]], j as [| [| [| [|]]]]; cbn; auto 8; lia. Qed.
Lemma pairs_nodup : NoDup (pairs (Nat.min 3 (num s))).
Proof. rewrite pairs_six. apply NoDup_filter. unfold six. repeat constructor; cbn; intuition discriminate. Qed.

Definition step (st : state) (a : R * theory) (q : nat * nat) : R * theory :=
  let '(n, t) := a in let '(n, c) := one' st n (fst q) (snd q) (t (fst q) (snd q)) in (n, set_cl t (fst q) (snd q) c).
Lemma fields_eq st norm t : fields' st norm t = fold_left (step st) (pairs (Nat.min 3 (num s))) (norm, t).
Proof. reflexivity. Qed.
(** a spectrum is set once, with some normalization; the others do not touch it *)
Lemma steps_other st l : forall n (t : theory) i j, ~ In (i, j) l -> snd (fold_left (step st) l (n, t)) i j = t i j.
Proof.
  induction l as [| (a, b) l IH]; intros n t i j N; [reflexivity |]. cbn [fold_left]. unfold step at 2. cbn [fst snd]. destruct (one' st n a b (t a b)) as (n', c).
  rewrite IH by (intro I; apply N; now right). unfold set_cl. destruct (Nat.eqb_spec i a), (Nat.eqb_spec j b); cbn; try reflexivity. subst. exfalso. apply N. now left.
Qed.
Lemma steps_in st l : NoDup l -> forall n (t : theory) i j, In (i, j) l -> exists n1 n2, one' st n1 i j (t i j) = (n2, snd (fold_left (step st) l (n, t)) i j) /\
   (exists a b, l = a ++ (i, j) :: b /\ n1 = fst (fold_left (step st) a (n, t))).
Proof.
  induction l as [| (a, b) l IH]; intros ND n t i j I; [destruct I |]. inversion ND as [| ? ? NI ND']; subst. destruct I as [I | I].
  - injection I as -> ->. cbn [fold_left]. unfold step at 2. cbn [fst snd]. destruct (one' st n i j (t i j)) as (n', c) eqn:E1. exists n, n'.
    rewrite steps_other by assumption. unfold set_cl at 1. rewrite !Nat.eqb_refl. cbn. split; [exact E1 |]. exists [], l. split; reflexivity.
  - cbn [fold_left]. assert (NE : (i, j) <> (a, b)) by (intro Q; rewrite Q in I; contradiction).
    unfold step at 2. cbn [fst snd]. destruct (one' st n a b (t a b)) as (n', c) eqn:E1. destruct (IH ND' n' (set_cl t a b c) i j I) as (n1 & n2 & H1 & x & y & H2 & H3).
    exists n1, n2. split.
    + assert (T : set_cl t a b c i j = t i j). { unfold set_cl. destruct (Nat.eqb_spec i a), (Nat.eqb_spec j b); cbn; try reflexivity. subst. contradiction. } now rewrite T in H1.
    + exists ((a, b) :: x), y. split; [now rewrite H2 |]. cbn [fold_left]. unfold step at 2. cbn [fst snd]. now rewrite E1.
Qed.
Lemma steps_norm st l : forall n (t : theory), n <> 0 -> (0 < lcomp s)%Z -> (forall q, 0 <= lm s (fst q) (snd q))%Z -> fst (fold_left (step st) l (n, t)) = n.
Proof.
  induction l as [| (a, b) l IH]; intros n t N P Q; [reflexivity |]. cbn [fold_left]. unfold step at 2. cbn [fst snd]. destruct (one' st n a b (t a b)) as (n', c) eqn:E1.
  assert (n' = n); [| subst; auto]. destruct (Z.eq_dec (lm s a b) 0) as [Z0 | NZ].
  - unfold one in E1. rewrite Z0, Z.min_r, Z.eqb_refl in E1 by lia. now injection E1 as <- _.
  - specialize (Q (a, b)). cbn in Q. destruct (one_spec _ _ _ _ _ _ _ E1 P ltac:(lia)) as (S1 & S2). destruct (indT a b) as [x |] eqn:E2; [destruct (S2 x eq_refl) as (_ & _ & _ & K & _); auto | apply S1; reflexivity].
Qed.

(** C117: up to the largest multipole that is computed, the spectra are those of CAMB in squared microkelvin, lensed or not, with the gravitational waves up to their limit,
    whatever was in the arrays or was computed before; TB and EB vanish; above, they are a multiple of the template. *)
Theorem C117_value st norm t n t' : fields' st norm t = (n, t') -> (0 < lcomp s)%Z -> forall i j, (1 <= j <= i)%nat -> (i <= Nat.min 3 (num s))%nat -> (0 < lm s i j)%Z ->
  (i = 3%nat -> (j < 3)%nat -> forall L, t' i j L = 0) /\
  forall c, In (i, j, c) [(1, 1, Temp); (2, 2, E); (2, 1, Cross); (3, 3, B)]%nat ->
   (forall L, (2 <= L <= lm s i j)%Z -> (L <= lcomp s)%Z -> t' i j L = cmb_power lensing cons st c L + waves tens ltens cons st c L) /\
   exists k, forall L, (2 <= L <= lm s i j)%Z -> (lcomp s < L)%Z -> t' i j L = k * tmpl c L.
Proof.
  intros E1 P i j J I P2. rewrite fields_eq in E1. destruct (steps_in st _ pairs_nodup norm t i j (six_in i j J I)) as (n1 & n2 & E2 & _). rewrite E1 in E2. cbn [snd] in E2.
  destruct (one_spec _ _ _ _ _ _ _ E2 P P2) as (S1 & S2). split.
  - intros -> J3 L. apply S1. destruct j as [| [| [|]]]; try reflexivity; lia.
  - intros c IN. assert (EC : indT i j = Some c) by (cbn in IN; repeat (destruct IN as [IN | IN]; [injection IN as <- <- <-; reflexivity |]); destruct IN).
    destruct (S2 c EC) as (V1 & V2 & _). split; [exact V1 | exists n2; exact V2].
Qed.
(** C117: when all spectra are computed as far as they are needed, they do not depend on the points that were computed before. *)
Theorem C117_history norm l : (forall i j, (lm s i j <= lcomp s)%Z) ->
  points s lensing tens ltens cons tmpl norm l = map (fun q => option_map snd (SetPowers s lensing tens ltens cons tmpl (fst (fst q)) (snd (fst q)) 0 (snd q))) l.
Proof.
  intro A. assert (O1 : forall st n i j old, one' st n i j old = (n, snd (one' st 0 i j old))).
  { intros st n i j old. unfold one. destruct (_ =? 0)%Z; [reflexivity |]. destruct (indT i j); [| reflexivity]. destruct (Z.ltb_spec (lcomp s) (lm s i j)); [specialize (A i j); lia |]. reflexivity. }
  assert (F1 : forall st l n (t : theory), fold_left (step st) l (n, t) = (n, snd (fold_left (step st) l (0, t)))).
  { intros st. induction l0 as [| (a, b) l0 IH]; intros n t; [reflexivity |]. cbn [fold_left]. unfold step at 2 4. cbn [fst snd]. rewrite (O1 st n), (O1 st 0). apply IH. }
  revert norm. induction l as [| ((st, sc), t) l IH]; intro n; [reflexivity |]. cbn [points map fst snd]. unfold SetPowers at 1 2. rewrite !fields_eq, (F1 _ _ n), (F1 _ _ 0). cbn [snd].
  destruct (potential _ _ st sc _); cbn [option_map snd]; now rewrite IH.
Qed.
(** C117, partly: for the first point the spectra join their continuation: all are continued with the factor that makes TT continuous.
    Missing: this holds for the first point only, see C117_saved_refuted. *)
Theorem C117_joined_partial st t n t' : fields' st 0 t = (n, t') -> (2 <= lcomp s)%Z -> (forall i j, 0 <= lm s i j)%Z -> (1 <= num s)%nat -> (lcomp s < lm s 1 1)%Z ->
  cmb_power lensing cons st Temp (lcomp s) <> 0 -> tmpl Temp (lcomp s) <> 0 ->
  n * tmpl Temp (lcomp s) = cmb_power lensing cons st Temp (lcomp s) /\
  forall i j c L, (i <= num s)%nat -> In (i, j, c) [(1, 1, Temp); (2, 2, E); (2, 1, Cross); (3, 3, B)]%nat -> (lcomp s < L <= lm s i j)%Z -> t' i j L = n * tmpl c L.
Proof.
  intros E1 P NN N1 LT NZ NT. rewrite fields_eq in E1.
  set (k := cmb_power lensing cons st Temp (lcomp s) / tmpl Temp (lcomp s)).
  assert (KZ : k <> 0) by (unfold k; intro Q; apply Rmult_integral in Q as [Q | Q]; [contradiction | revert Q; apply Rinv_neq_0_compat; assumption]).
  assert (HD : exists r, pairs (Nat.min 3 (num s)) = (1, 1)%nat :: r) by (rewrite pairs_six; destruct (num s) as [| [| [| m]]]; [lia | eexists; reflexivity | eexists; reflexivity | eexists; reflexivity]).
  destruct HD as (r & HD). assert (PRE : forall a b i j, (1, 1)%nat :: r = a ++ (i, j) :: b -> (i, j) <> (1, 1)%nat -> fst (fold_left (step st) a (0, t)) = k).
  { intros a b i j EQ NE. destruct a as [| q a]; [cbn in EQ; exfalso; apply NE; congruence |]. cbn in EQ. injection EQ as <- _. cbn [fold_left]. unfold step at 2. cbn [fst snd].
    destruct (one' st 0 1 1 (t 1%nat 1%nat)) as (n', c) eqn:E2. destruct (one_spec _ _ _ _ _ _ _ E2 ltac:(lia) ltac:(lia)) as (_ & S). destruct (S Temp eq_refl) as (_ & _ & _ & _ & S'). rewrite steps_norm; [auto | rewrite S'; auto | lia | intros q; apply NN]. }
  assert (FN : n = k).
  { assert (X : fst (fold_left (step st) (pairs (Nat.min 3 (num s))) (0, t)) = n) by now rewrite E1. rewrite HD in X. cbn [fold_left] in X. unfold step at 2 in X. cbn [fst snd] in X.
    destruct (one' st 0 1 1 (t 1%nat 1%nat)) as (n', c) eqn:E2. destruct (one_spec _ _ _ _ _ _ _ E2 ltac:(lia) ltac:(lia)) as (_ & S). destruct (S Temp eq_refl) as (_ & _ & _ & _ & S').
    rewrite steps_norm in X; [| rewrite S'; auto | lia | intros q; apply NN]. rewrite <- X. apply S'; auto. }
  split; [rewrite FN; unfold k; field; exact NT |].
  intros i j c L IL IN LL. assert (EC : indT i j = Some c /\ (1 <= j <= i)%nat /\ (i <= 3)%nat) by (cbn in IN; repeat (destruct IN as [IN | IN]; [injection IN as <- <- <-; repeat split; lia |]); destruct IN).
  destruct EC as (EC & J & I3). destruct (steps_in st _ pairs_nodup 0 t i j (six_in i j J ltac:(lia))) as (n1 & n2 & E2 & a & b & H1 & H2). rewrite E1 in E2. cbn [snd] in E2.
  destruct (one_spec _ _ _ _ _ _ _ E2 ltac:(lia) ltac:(lia)) as (_ & S). destruct (S c EC) as (_ & V & _ & K1 & K2). rewrite (V L) by lia. f_equal. rewrite FN.
  destruct (Nat.eq_dec i 1) as [-> | NI].
  - assert (j = 1%nat) by lia. subst j. injection EC as <-. rewrite HD in H1. destruct a as [| q a].
    + cbn in H2. subst n1. apply K2; auto; lia.
    + exfalso. assert (ND := pairs_nodup). rewrite HD in ND. cbn in H1. injection H1 as <- H1. rewrite H1 in ND. inversion ND as [| ? ? NI _]; subst. apply NI, in_or_app. right. now left.
  - rewrite HD in H1. rewrite (PRE a b i j H1) in H2 by congruence. subst n1. apply K1. exact KZ.
Qed.
(** Finding (378, 416): the normalization of the continuation is kept from the first point that was computed; spectra of later points do not join. *)
Theorem C117_kept_refuted st norm t n t' : fields' st norm t = (n, t') -> norm <> 0 -> (0 < lcomp s)%Z -> (forall i j, 0 <= lm s i j)%Z -> n = norm /\
  forall i j c L, (i <= num s)%nat -> In (i, j, c) [(1, 1, Temp); (2, 2, E); (2, 1, Cross); (3, 3, B)]%nat -> (2 <= L)%Z -> (lcomp s < L <= lm s i j)%Z -> t' i j L = norm * tmpl c L.
Proof.
  intros E1 N P NN. rewrite fields_eq in E1. split; [transitivity (fst (fold_left (step st) (pairs (Nat.min 3 (num s))) (norm, t))); [now rewrite E1 | apply steps_norm; auto] |].
  intros i j c L IL IN L2 LL. assert (EC : indT i j = Some c /\ (1 <= j <= i)%nat /\ (i <= 3)%nat) by (cbn in IN; repeat (destruct IN as [IN | IN]; [injection IN as <- <- <-; repeat split; lia |]); destruct IN).
  destruct EC as (EC & J & I3). destruct (steps_in st _ pairs_nodup norm t i j (six_in i j J ltac:(lia))) as (n1 & n2 & E2 & a & b & H1 & H2). rewrite E1 in E2. cbn [snd] in E2.
  destruct (one_spec _ _ _ _ _ _ _ E2 ltac:(lia) ltac:(lia)) as (_ & S). destruct (S c EC) as (_ & V & _ & K1 & K2). rewrite (V L) by lia. f_equal. rewrite steps_norm in H2 by auto. subst n1. auto.
Qed.
(** C117: the spectrum of the lensing potential is [L(L+1)]^2 C_L / (2 pi), times Aphiphi, if CAMB gives L^4 C_L; it vanishes above the computed multipoles. *)
Theorem C117_phi st scale t t' (Cphi : Z -> R) : potential s lensing st scale t = Some t' -> use_phi s = true -> (0 < lcomp s)%Z -> (0 < lm s 4 4)%Z -> (forall L, scalar st Phi L = IZR L ^ 4 * Cphi L) ->
  (forall L, (2 <= L <= lm s 4 4)%Z -> t' 4%nat 4%nat L = if (L <=? lcomp s)%Z then (IZR L * (IZR L + 1)) ^ 2 * Cphi L / (2 * PI) * scale else 0) /\ lensing = true /\
  forall i j, (i <= 3)%nat -> t' i j = t i j.
Proof.
  intros E1 U P P2 HC. unfold potential in E1. rewrite U in E1. assert (X : (Z.min (lcomp s) (lm s 4 4) =? 0)%Z = false) by (apply Z.eqb_neq; lia). rewrite X in E1. destruct lensing; [| discriminate].
  assert (NPI : PI <> 0) by (pose proof PI_RGT_0; lra). split; [| split; [reflexivity |]].
  - intros L R1. assert (G : t' 4%nat 4%nat L = over (Z.min (lcomp s) (lm s 4 4) + 1) (lm s 4 4) (fun _ => 0) (over 2 (Z.min (lcomp s) (lm s 4 4)) (fun L => scalar st Phi L * ((IZR L + 1) ^ 2 / IZR L ^ 2) / (2 * PI) * scale) (t 4%nat 4%nat)) L).
    { destruct (2 <=? Z.min (lcomp s) (lm s 4 1))%Z; injection E1 as <-; reflexivity. }
    rewrite G. unfold over. destruct (Z.leb_spec L (lcomp s)) as [C | C].
    + destruct (Z.leb_spec (Z.min (lcomp s) (lm s 4 4) + 1) L); [lia |]. cbn [andb]. destruct (Z.leb_spec 2 L); [| lia]. destruct (Z.leb_spec L (Z.min (lcomp s) (lm s 4 4))); [| lia]. cbn [andb].
      rewrite HC. assert (IZR L <> 0) by (apply not_0_IZR; lia). field. split; assumption.
    + destruct (Z.leb_spec (Z.min (lcomp s) (lm s 4 4) + 1) L); [| lia]. destruct (Z.leb_spec L (lm s 4 4)); [reflexivity | lia].
  - intros i j I. destruct (2 <=? Z.min (lcomp s) (lm s 4 1))%Z; injection E1 as <-; unfold set_cl; destruct (Nat.eqb_spec i 4); try lia; reflexivity.
Qed.
(** Finding (449): the correlation of potential and temperature is assigned to the whole array in each step, so that all multipoles have the value of the last one. *)
Theorem C117_cross_refuted st scale t t' : potential s lensing st scale t = Some t' -> use_phi s = true -> (2 <= lcomp s)%Z -> (2 <= lm s 4 1)%Z ->
  let lx := Z.min (lcomp s) (lm s 4 1) in forall L, t' 4%nat 1%nat L = scalar st PhiTemp lx / IZR lx ^ 3 * sqrt scale.
Proof.
  intros E1 U P P2 lx L. unfold potential in E1. rewrite U in E1. destruct (if (Z.min (lcomp s) (lm s 4 4) =? 0)%Z then Some t else _) as [t1 |]; [| discriminate].
  destruct (Z.leb_spec 2 (Z.min (lcomp s) (lm s 4 1))); [| lia]. injection E1 as <-. reflexivity.
Qed.
(** C117: the deflection angle is the root of sum (2L+1)/(4 pi) L (L+1) C_L, in minutes of arc. *)
Theorem C117_deflection st (Cphi : Z -> R) : (forall L, scalar st Phi L = IZR L ^ 4 * Cphi L) -> lensing = true -> (1850 <= lcomp s)%Z ->
  rms_deflect s lensing st = sqrt (sum_from (fun L => (2 * IZR L + 1) / (4 * PI) * (IZR L * (IZR L + 1)) * Cphi L) (Lrange 2 2000)) * (180 * 60 / PI) /\
  forall L, In L (Lrange 2 2000) <-> (2 <= L <= 2000)%Z.
Proof.
  intros HC -> P. assert (NPI : PI <> 0) by (pose proof PI_RGT_0; lra).
  assert (IN : forall a b L, (a <= b + 1)%Z -> In L (Lrange a b) <-> (a <= L <= b)%Z).
  { intros a b L AB. unfold Lrange. rewrite in_map_iff. split.
    - intros (k & <- & I). apply in_seq in I. lia.
    - intro Q. exists (Z.to_nat (L - a)). split; [lia | apply in_seq; lia]. }
  split; [| intro L; apply IN; lia]. unfold rms_deflect. destruct (Z.leb_spec 2000 (lcomp s + 150)); [| lia]. cbn [andb].
  assert (F : forall (f g : Z -> R) l, (forall x, In x l -> f x = g x) -> forall a, fold_left (fun a x => a + f x) l a = a + sum_from g l).
  { intros f g. induction l as [| x l IH]; intros EQ a; cbn [fold_left sum_from fold_right]; [ring |]. fold (sum_from g l). rewrite IH by (intros y I; apply EQ; now right). rewrite (EQ x (or_introl eq_refl)). ring. }
  rewrite (F (fun L => scalar st Phi L * ((IZR L + 1) ^ 2 / IZR L ^ 2) / (2 * PI) * (IZR L + 1/2) / (IZR L * (IZR L + 1))) (fun L => (2 * IZR L + 1) / (4 * PI) * (IZR L * (IZR L + 1)) * Cphi L)).
  - rewrite Rplus_0_l. field. exact NPI.
  - intros L I. apply IN in I; [| lia]. rewrite HC. assert (0 < IZR L) by (apply IZR_lt; lia). field. repeat split; lra.
Qed.
End Powers.
Print Assumptions C117_value.
Print Assumptions C117_history.
Print Assumptions C117_joined_partial.
Print Assumptions C117_kept_refuted.
Print Assumptions C117_phi.
Print Assumptions C117_cross_refuted.
Print Assumptions C117_deflection.

(** temperature and B up to 4, computed up to 3; a spectrum that is a for all multipoles *)
Definition small : cset := mkCs 3 (fun i j => if (Nat.eqb i j && Nat.leb i 3 && Nat.leb 1 i)%bool then 4%Z else 0%Z) true false 4 3.
Definition flat (a : R) : state := mkState (fun _ _ => a) (fun _ _ => a) (fun _ _ => 0).
(** Finding: the same point has other spectra when another point was computed before; its temperature spectrum is not continuous where the template begins. *)
Theorem C117_saved_refuted : exists a b : theory,
  points small true false 0 1 (fun _ _ => 1) 0 [(flat 1, 1, fun _ _ _ => 0); (flat 2, 1, fun _ _ _ => 0)] = [Some (fun i j L => a i j L); Some (fun i j L => b i j L)] /\
  a 1%nat 1%nat 4%Z = 1 /\ b 1%nat 1%nat 3%Z = 2 /\ b 1%nat 1%nat 4%Z = 1 /\
  exists c : theory, points small true false 0 1 (fun _ _ => 1) 0 [(flat 2, 1, fun _ _ _ => 0)] = [Some (fun i j L => c i j L)] /\ c 1%nat 1%nat 4%Z = 2.
Proof.
  assert (X : forall d st, SetPowers small true false 0 1 (fun _ _ => 1) st d 0 (fun _ _ _ => 0) = Some (fst (fields small true false 0 1 (fun _ _ => 1) st 0 (fun _ _ _ => 0)), snd (fields small true false 0 1 (fun _ _ => 1) st 0 (fun _ _ _ => 0)))).
  { intros d st. unfold SetPowers. destruct (fields small true false 0 1 (fun _ _ => 1) st 0 (fun _ _ _ => 0)). reflexivity. }
  destruct (fields small true false 0 1 (fun _ _ => 1) (flat 1) 0 (fun _ _ _ => 0)) as (n1, t1) eqn:E1.
  destruct (fields small true false 0 1 (fun _ _ => 1) (flat 2) n1 (fun _ _ _ => 0)) as (n2, t2) eqn:E2.
  destruct (fields small true false 0 1 (fun _ _ => 1) (flat 2) 0 (fun _ _ _ => 0)) as (n3, t3) eqn:E3.
  assert (NN : forall i j, (0 <= lm small i j)%Z) by (intros i j; cbn; destruct (_ && _)%bool; lia).
  destruct (C117_joined_partial small true false 0 1 (fun _ _ => 1) (flat 1) _ _ _ E1) as (A1 & A2); [cbn; lia | exact NN | cbn; lia | cbn; lia | unfold cmb_power; cbn; lra | lra |].
  destruct (C117_joined_partial small true false 0 1 (fun _ _ => 1) (flat 2) _ _ _ E3) as (B1 & B2); [cbn; lia | exact NN | cbn; lia | cbn; lia | unfold cmb_power; cbn; lra | lra |].
  assert (N1 : n1 = 1) by (unfold cmb_power in A1; cbn in A1; lra). assert (N3 : n3 = 2) by (unfold cmb_power in B1; cbn in B1; lra). subst n1 n3.
  destruct (C117_kept_refuted small true false 0 1 (fun _ _ => 1) (flat 2) _ _ _ _ E2 ltac:(lra) ltac:(cbn; lia) NN) as (_ & C2).
  destruct (C117_value small true false 0 1 (fun _ _ => 1) (flat 2) _ _ _ _ E2 ltac:(cbn; lia) 1%nat 1%nat ltac:(lia) ltac:(cbn; lia) ltac:(cbn; lia)) as (_ & D2).
  destruct (D2 Temp (or_introl eq_refl)) as (D3 & _).
  exists t1, t2. split.
  - cbn [points]. unfold SetPowers. rewrite E1. cbn [option_map potential]. unfold potential. cbn [use_phi small]. cbn [option_map]. rewrite E2. reflexivity.
  - split; [rewrite (A2 1%nat 1%nat Temp) by (cbn; auto; lia); lra |]. split; [rewrite D3 by (cbn; lia); unfold cmb_power, waves; cbn; lra |].
    split; [rewrite (C2 1%nat 1%nat Temp) by (cbn; auto; lia); lra |]. exists t3. split.
    + cbn [points]. unfold SetPowers. rewrite E3. reflexivity.
    + rewrite (B2 1%nat 1%nat Temp) by (cbn; auto; lia). lra.
Qed.
Print Assumptions C117_saved_refuted.
(** Finding (416-418): without lensing and gravitational waves there is no B polarization, but above the computed multipoles it is that of the lensed template. *)
Theorem C117_B_refuted st t n t' : fields small false false 0 1 (fun _ _ => 1) st 1 t = (n, t') -> t' 3%nat 3%nat 3%Z = 0 /\ t' 3%nat 3%nat 4%Z = 1.
Proof.
  intro E1. assert (NN : forall i j, (0 <= lm small i j)%Z) by (intros i j; cbn; destruct (_ && _)%bool; lia).
  destruct (C117_value _ _ _ _ _ _ _ _ _ _ _ E1 ltac:(cbn; lia) 3%nat 3%nat ltac:(lia) ltac:(cbn; lia) ltac:(cbn; lia)) as (_ & D). destruct (D B ltac:(cbn; auto)) as (D1 & _).
  destruct (C117_kept_refuted _ _ _ _ _ _ _ _ _ _ _ E1 ltac:(lra) ltac:(cbn; lia) NN) as (_ & C).
  split; [rewrite D1 by (cbn; lia); unfold cmb_power, waves; cbn; lra | rewrite (C 3%nat 3%nat B) by (cbn; auto; lia); lra].
Qed.
Print Assumptions C117_B_refuted.
(** the potential alone: C_L = L^-4 *)
Definition lens_only : cset := mkCs 4 (fun i j => if (Nat.eqb i 4 && Nat.eqb j 4)%bool then 5%Z else if (Nat.eqb i 4 && Nat.eqb j 1)%bool then 4%Z else 0%Z) true true 5 4.
Example C117_ex : exists t', potential lens_only true (flat 1) 1 (fun _ _ _ => 0) = Some t' /\ t' 4%nat 4%nat 5%Z = 0 /\ t' 4%nat 4%nat 2%Z = (9/4) / (2 * PI) /\ t' 4%nat 1%nat 2%Z = 1/64 /\
  (forall i j, (lm lens_only i j <= lmax lens_only)%Z) /\ (1850 <= lcomp (mkCs 1 (fun _ _ => 2000%Z) true false 2000 2000))%Z.
Proof.
  eexists. split; [reflexivity |]. split; [reflexivity |]. split; [cbn; assert (PI <> 0) by (pose proof PI_RGT_0; lra); field; assumption |]. split; [cbn; rewrite sqrt_1; lra |].
  split; [intros i j; cbn; destruct (_ && _)%bool; [lia |]; destruct (_ && _)%bool; lia | cbn; lia].
Qed.
