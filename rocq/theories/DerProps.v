(** C114: derived parameters have the values of their names; C115: the initial power spectrum *)
From Coq Require Import Reals String List Bool Arith Lia Lra.
From Verif Require Import CosModel CosSpec CosProofs CosProps DerModel DerSpec.
Import ListNotations.
Local Open Scope R_scope.

Fixpoint pos (names : list string) (n : string) : option nat :=
  match names with [] => None | x :: names => if (x =? n)%string then Some 0%nat else option_map S (pos names n) end.
Lemma at_pos names : forall d n k, pos names n = Some k -> at_name names d n = nth_error d k.
Proof.
  induction names as [| x names IH]; intros d n k E; [discriminate |]. cbn in E. destruct d as [| v d]; [destruct k; reflexivity |]. cbn [at_name]. destruct (x =? n)%string; [injection E as <-; reflexivity |].
  destruct (pos names n) as [j |] eqn:Q; [| discriminate]. injection E as <-. cbn. now apply IH.
Qed.
Lemma at_left n1 : forall n2 d1 d2 n k, length n1 = length d1 -> pos n1 n = Some k -> at_name (n1 ++ n2) (d1 ++ d2) n = nth_error d1 k.
Proof.
  induction n1 as [| x n1 IH]; intros n2 [| v d1] d2 n k L E; try discriminate. cbn [app at_name pos] in *. destruct (x =? n)%string; [injection E as <-; reflexivity |].
  destruct (pos n1 n) as [j |] eqn:Q; [| discriminate]. injection E as <-. cbn. apply IH; [now injection L | exact Q].
Qed.
Lemma at_right n1 : forall n2 d1 d2 n, length n1 = length d1 -> pos n1 n = None -> at_name (n1 ++ n2) (d1 ++ d2) n = at_name n2 d2 n.
Proof.
  induction n1 as [| x n1 IH]; intros n2 [| v d1] d2 n L E; try discriminate; [reflexivity |]. cbn [app at_name pos] in *. destruct (x =? n)%string; [discriminate |].
  apply IH; [now injection L |]. destruct (pos n1 n); [discriminate | reflexivity].
Qed.
Lemma pos_if (b : bool) l n : pos l n = None -> pos (if b then l else []) n = None.
Proof. now destruct b. Qed.
(** the value is in the first block, or further on *)
Ltac here := match goal with |- at_name (?n1 ++ _) (?d1 ++ _) ?n = _ =>
  let k := eval vm_compute in (pos n1 n) in match k with Some ?j => rewrite (at_left n1 _ d1 _ n j); [reflexivity | reflexivity | vm_compute; reflexivity] end end.
Ltac next L := match goal with |- at_name (?n1 ++ _) (?d1 ++ _) ?n = _ => rewrite (at_right n1 _ d1 _ n); [| L | try apply pos_if; vm_compute; reflexivity] end.
Ltac last_one := match goal with |- at_name ?n1 ?d1 ?n = _ =>
  let k := eval vm_compute in (pos n1 n) in match k with Some ?j => rewrite (at_pos n1 d1 n j); [| vm_compute; reflexivity] end end.
Lemma fpow_half x : 0 < x -> fpow x (5/10) = sqrt x.
Proof. intro H. unfold fpow. destruct (Rlt_dec 0 x); [| contradiction]. rewrite <- Rpower_sqrt by exact H. f_equal. lra. Qed.
Lemma fpow_quarter x : 0 < x -> fpow x (25/100) = sqrt (sqrt x).
Proof.
  intro H. unfold fpow. destruct (Rlt_dec 0 x); [| contradiction]. rewrite <- (Rpower_sqrt (sqrt x)) by (apply sqrt_lt_R0; exact H). rewrite <- (Rpower_sqrt x) by exact H. rewrite Rpower_mult. f_equal. lra.
Qed.

(** what CAMB gives: 13 numbers of the thermal history, and the Hubble rate and the angular diameter distance at each redshift *)
Definition from_camb (t : thy) (th Hub DA : list R) : Prop := length th = 13%nat /\ length Hub = 5%nat /\ length DA = 5%nat /\ thermo t = SetDerived th Hub DA z_outputs.
Lemma list5 {A} (l : list A) : length l = 5%nat -> exists a b c d e, l = [a; b; c; d; e].
Proof. intro H. do 6 (destruct l as [| ? l]; try discriminate). now eexists _, _, _, _, _. Qed.
(** C114: the number of derived parameters is the number of names for all settings, and they can be computed unless the temperature spectrum ends below L = 2000. *)
Theorem C114_count s Yp DH c t th Hub DA : from_camb t th Hub DA -> zs s = z_outputs -> (s_CMB s = true -> forall cl, TT t = Some cl -> (2000 <= length cl)%nat) ->
  exists d, TP_derived s Yp DH c t = Some d /\ length d = length (TP_names s).
Proof.
  intros (T1 & T2 & T3 & T4) Z L. unfold TP_derived. rewrite T4, Z.
  assert (LT : length (SetDerived th Hub DA z_outputs) = 23%nat) by (unfold SetDerived; rewrite app_length, T1; reflexivity).
  assert (LZ : length (concat (map (fun z => [growth t z; sigma8z t z]) z_outputs)) = 10%nat) by reflexivity.
  assert (K : forall dl : list R, length dl = 5%nat -> forall A B D E : R -> list R, True) by auto. clear K.
  destruct (if s_CMB s then match TT t with
                         | Some cl => if (length cl <? 2000)%nat then None else Some (map (fun l => nth (l - 1) cl 0) [40; 220; 810; 1420; 2000]%nat)
                         | None => Some (repeat 0 5)
                         end
         else Some (repeat 0 5)) as [dl |] eqn:ED.
  - assert (LD : length dl = 5%nat).
    { destruct (s_CMB s); [| injection ED as <-; reflexivity]. destruct (TT t) as [cl |]; [| injection ED as <-; reflexivity].
      destruct (length cl <? 2000)%nat; [discriminate |]. injection ED as <-. reflexivity. }
    match goal with |- context [(length ?D =? _)%nat] => set (d := D) end.
    assert (LL : length d = length (TP_names s)).
    { unfold d. rewrite !app_length, LD, LT. unfold TP_names. rewrite !app_length. destruct (s_bbn s), (s_LSS s), (s_tens s); try rewrite LZ; reflexivity. }
    rewrite LL, Nat.eqb_refl. eauto.
  - exfalso. destruct (s_CMB s); [| discriminate]. destruct (TT t) as [cl |]; [| discriminate]. specialize (L eq_refl cl eq_refl).
    destruct (Nat.ltb_spec (length cl) 2000); [lia | discriminate].
Qed.
Print Assumptions C114_count.

(** C114: each derived parameter of the theta parameterization is what its name says. *)
Theorem C114_theta s Yp DH c t th Hub DA d : from_camb t th Hub DA -> zs s = z_outputs -> closed c -> 0 < H0 c -> 0 < omb c + omc c + omnu c -> TP_derived s Yp DH c t = Some d ->
  let v n x := at_name (TP_names s) d n = Some x in
  let om := omb c + omc c + omnu c in
  let hub := H0 c / 100 in
  (v "H0" (H0 c) /\ v "omegal" (1 - omk c - om) /\ v "omegam" om /\ v "omegamh2" (om * hub ^ 2) /\ v "omegamh3" (om * hub ^ 3) /\ v "omeganuh2" (omnu c * hub ^ 2))%string /\
  (v "sigma8" (sigma8 t) /\ v "S8" (sigma8 t * sqrt (om / (3/10))) /\ v "s8omegamp5" (sigma8 t * sqrt om) /\ v "s8omegamp25" (sigma8 t * sqrt (sqrt om)) /\ v "s8h5" (sigma8 t / sqrt hub))%string /\
  (v "rmsdeflect" (deflect t) /\ v "zrei" (zre c) /\ v "A" (nth 0 (initp c) 0 / 10) /\ v "clamp" (nth 0 (initp c) 0 / 10 * exp (- 2 * tau c)))%string /\
  (v "ns02" (let x := ln (2/1000 / pivot s) in nth 1 (initp c) 0 + nth 2 (initp c) 0 * x + nth 3 (initp c) 0 * x ^ 2 / 2) /\ v "yheused" (YHe c) /\ v "YpBBN" (Yp (YHe c)))%string /\
  (s_bbn s = true -> v "DHBBN"%string (1e5 * DH (ombh2 c) (nnu c - std_neff))) /\
  (forall cl, s_CMB s = true -> TT t = Some cl -> (v "DL40" (nth 39 cl 0) /\ v "DL220" (nth 219 cl 0) /\ v "DL810" (nth 809 cl 0) /\ v "DL1420" (nth 1419 cl 0) /\ v "DL2000" (nth 1999 cl 0))%string) /\
  (v "age" (nth 0 th 0) /\ v "zstar" (nth 1 th 0) /\ v "rstar" (nth 2 th 0) /\ v "thetastar" (nth 3 th 0) /\ v "DAstar" (nth 4 th 0) /\ v "zdrag" (nth 5 th 0) /\ v "rdrag" (nth 6 th 0) /\
   v "kd" (nth 7 th 0) /\ v "thetad" (nth 8 th 0) /\ v "zeq" (nth 9 th 0) /\ v "keq" (nth 10 th 0) /\ v "thetaeq" (nth 11 th 0) /\ v "thetarseq" (nth 12 th 0) /\ v "rdragh" (nth 6 th 0 * hub))%string /\
  (let dm i := nth i DA 0 * (1 + nth i z_outputs 0) in let hz i := nth i Hub 0 * 299792458 / 1000 in
   v "Hubble015" (hz 0%nat) /\ v "DM015" (dm 0%nat) /\ v "Hubble038" (hz 1%nat) /\ v "DM038" (dm 1%nat) /\ v "Hubble051" (hz 2%nat) /\ v "DM051" (dm 2%nat) /\
   v "Hubble061" (hz 3%nat) /\ v "DM061" (dm 3%nat) /\ v "Hubble233" (hz 4%nat) /\ v "DM233" (dm 4%nat))%string /\
  (s_LSS s = true -> (v "fsigma8z015" (growth t (15/100)) /\ v "sigma8z015" (sigma8z t (15/100)) /\ v "fsigma8z038" (growth t (38/100)) /\ v "sigma8z038" (sigma8z t (38/100)) /\
     v "fsigma8z051" (growth t (51/100)) /\ v "sigma8z051" (sigma8z t (51/100)) /\ v "fsigma8z061" (growth t (61/100)) /\ v "sigma8z061" (sigma8z t (61/100)) /\
     v "fsigma8z233" (growth t (233/100)) /\ v "sigma8z233" (sigma8z t (233/100)))%string) /\
  (s_tens s = true -> (v "r02" (t02 t) /\ v "rBB" (tBB t) /\ v "r10" (t10 t) /\ v "AT" (1e9 * tAT t) /\ v "ctlamp" (1e9 * tAT t * exp (- 2 * tau c)) /\ (1e-15 <= tAT t -> v "logAT" (ln (1e10 * tAT t))))%string).
Proof.
  intros (T1 & T2 & T3 & T4) Z (C1 & C2 & C3 & C4 & C5 & C6 & C7 & C8 & _) PH PO E v om hub. unfold TP_derived in E. rewrite T4, Z in E.
  assert (OM : omdm c + omb c = om) by (unfold om; lra). rewrite OM in E.
  assert (OMH : omdmh2 c + ombh2 c = om * hub ^ 2) by (rewrite <- C5, <- C8, C4; fold hub; rewrite <- OM; ring). rewrite OMH in E. rewrite C4 in E. fold hub in E.
  assert (PH2 : 0 < hub) by (unfold hub; lra). fold om in PO.
  rewrite !(fpow_half om), !(fpow_half (om / (3/10))), (fpow_half hub), (fpow_quarter om) in E by lra.
  assert (OV : omv c = 1 - omk c - om) by lra. rewrite OV in E. rewrite <- C7, C4 in E. fold hub in E.
  destruct (if s_CMB s then match TT t with
                         | Some cl => if (length cl <? 2000)%nat then None else Some (map (fun l => nth (l - 1) cl 0) [40; 220; 810; 1420; 2000]%nat)
                         | None => Some (repeat 0 5)
                         end
         else Some (repeat 0 5)) as [dl |] eqn:ED; [| discriminate].
  assert (LD : length dl = 5%nat).
  { destruct (s_CMB s); [| injection ED as <-; reflexivity]. destruct (TT t) as [cl |]; [| injection ED as <-; reflexivity].
    destruct (length cl <? 2000)%nat; [discriminate |]. injection ED as <-. reflexivity. }
  destruct (list5 dl LD) as (l1 & l2 & l3 & l4 & l5 & ->). destruct (list5 Hub T2) as (h1 & h2 & h3 & h4 & h5 & ->). destruct (list5 DA T3) as (a1 & a2 & a3 & a4 & a5 & ->).
  assert (DLS : forall cl, s_CMB s = true -> TT t = Some cl -> l1 = nth 39 cl 0 /\ l2 = nth 219 cl 0 /\ l3 = nth 809 cl 0 /\ l4 = nth 1419 cl 0 /\ l5 = nth 1999 cl 0).
  { intros cl Q1 Q2. rewrite Q1, Q2 in ED. destruct (length cl <? 2000)%nat; [discriminate |]. cbn [map] in ED. injection ED as <- <- <- <- <-. auto. }
  clear ED. do 14 (destruct th as [| ? th]; try discriminate T1). clear T1 T2 T3 T4 LD.
  match type of E with (if _ then Some ?D else None) = _ => assert (ED2 : D = d) by (destruct (length D =? length (TP_names s))%nat; [now injection E | discriminate]) end.
  clear E. unfold SetDerived in ED2. cbn [z_outputs length seq map concat nth app] in ED2. unfold z_outputs.
  assert (X1 : 1e-10 * nth 0 (initp c) 0 * 1e9 = nth 0 (initp c) 0 / 10) by lra. rewrite X1 in ED2.
  assert (X2 : om * hub ^ 2 * hub = om * hub ^ 3) by ring. rewrite X2 in ED2.
  assert (X3 : forall x, x * 299792458 / 1e3 = x * 299792458 / 1000) by (intro; lra). rewrite !X3 in ED2.
  assert (X4 : forall x, x * H0 c / 100 = x * hub) by (intro; unfold hub; lra). rewrite X4 in ED2.
  assert (X5 : ln (2 / 1000 / pivot s) * ln (2 / 1000 / pivot s) = ln (2 / 1000 / pivot s) ^ 2) by ring. rewrite X5 in ED2.
  assert (X6 : tAT t * 1e9 = 1e9 * tAT t) by ring. rewrite X6 in ED2.
  destruct s as [b1 b2 b3 b4 pv zz]. cbn [s_bbn s_LSS s_tens s_CMB pivot] in *. unfold v, TP_names. cbn [nth s_bbn s_LSS s_tens]. clear v.
  match type of ED2 with ?a1 :: ?a2 :: ?a3 :: ?a4 :: ?a5 :: ?a6 :: ?a7 :: ?a8 :: ?a9 :: ?a10 :: ?a11 :: ?a12 :: ?a13 :: ?a14 :: ?a15 :: ?a16 :: ?a17 :: ?a18 :: ?a19 :: ?a20 :: ?a21 :: ?a22 :: ?a23 :: ?a24 :: ((if b1 then ?B else []) ++
     ?c1 :: ?c2 :: ?c3 :: ?c4 :: ?c5 :: ?c6 :: ?c7 :: ?c8 :: ?c9 :: ?c10 :: ?c11 :: ?c12 :: ?c13 :: ?c14 :: ?c15 :: ?c16 :: ?c17 :: ?c18 :: ?c19 :: ?c20 :: ?c21 :: ?c22 :: ?c23 :: ((if b2 then ?D else []) ++ (if b3 then ?E else []))) = d =>
    assert (ED3 : d = ([a1; a2; a3; a4; a5; a6; a7; a8; a9; a10; a11; a12; a13; a14; a15; a16; a17; a18; a19; a20; a21; a22; a23; a24] ++ (if b1 then B else []) ++
       [c1; c2; c3; c4; c5; c6; c7; c8; c9; c10; c11; c12; c13; c14; c15; c16; c17; c18; c19; c20; c21; c22; c23] ++ (if b2 then D else []) ++ (if b3 then E else []))%list) by (rewrite <- ED2; reflexivity);
    assert (LB : length (if b1 then der_bbn else []) = length (if b1 then B else [])) by (now destruct b1);
    assert (LL : length (if b2 then der_LSS else []) = length (if b2 then D else [])) by (now destruct b2)
  end. clear ED2. subst d.
  split; [repeat (match goal with |- _ /\ _ => split end); here |]. split; [repeat (match goal with |- _ /\ _ => split end); here |].
  split; [repeat (match goal with |- _ /\ _ => split end); here |]. split; [repeat (match goal with |- _ /\ _ => split end); here |].
  split; [intros ->; next reflexivity; here |].
  split; [intros cl Q1 Q2; destruct (DLS cl Q1 Q2) as (-> & -> & -> & -> & ->); repeat (match goal with |- _ /\ _ => split end); here |].
  split; [repeat (match goal with |- _ /\ _ => split end); try (next reflexivity; next ltac:(exact LB); here); here |].
  split; [repeat (match goal with |- _ /\ _ => split end); next reflexivity; next ltac:(exact LB); here |].
  split; [intros ->; repeat (match goal with |- _ /\ _ => split end); next reflexivity; next ltac:(exact LB); next reflexivity; here |].
  intros ->. repeat (match goal with |- _ /\ _ => split end); try intro HT; next reflexivity; next ltac:(exact LB); next reflexivity; next ltac:(exact LL); last_one; try reflexivity.
  cbn [nth_error]. rewrite Rmax_right by exact HT. do 2 f_equal. ring.
Qed.
Print Assumptions C114_theta.

(** C114: the same for the two other parameterizations; there logA is the logarithm of ten times the parameter A. *)
Theorem C114_astro bbn BBN p c t : let r := AP bbn BBN p c in P p 3 <> 0 -> 0 < P p 1 ->
  let v n x := at_name der_astro (AP_derived r t) n = Some x in
  let given n := at_name base_astro (map (P p) (seq 1 17)) n in
  length (AP_derived r t) = length der_astro /\
  exists om ob hh k A, given "omegam"%string = Some om /\ given "omegab"%string = Some ob /\ given "H0"%string = Some hh /\ given "omegak"%string = Some k /\ given "A"%string = Some A /\
  (v "omegabh2" (ob * (hh / 100) ^ 2) /\ v "omegach2" ((om - ob) * (hh / 100) ^ 2 - omnuh2 r) /\ v "omegal" (1 - k - om) /\ v "omeganuh2" (omnuh2 r) /\ v "logA" (ln (10 * A)) /\
   v "sigma8" (sigma8 t) /\ v "S8" (sigma8 t * sqrt (om / (3/10))) /\ v "s8omegamp5" (sigma8 t * sqrt om) /\ v "s8omegamp25" (sigma8 t * sqrt (sqrt om)))%string.
Proof.
  intros r N PO v given. split; [reflexivity |]. exists (P p 1), (P p 2), (P p 3), (P p 4), (P p 10). repeat (split; [reflexivity |]).
  destruct (C113_astro bbn BBN p c N) as ((C1 & C2 & C3 & C4 & C5 & C6 & C7 & C8 & _) & A2 & A3 & A4 & A5 & A6 & A7 & A8 & A9 & A10 & A11 & A12 & _). fold r in C1, C2, C3, C4, C5, C6, C7, C8, A2, A3, A4, A5, A12.
  assert (OM : omdm r + omb r = P p 1) by lra. unfold v, AP_derived. rewrite OM, (fpow_half (P p 1)), (fpow_half (P p 1 / (3/10))), (fpow_quarter (P p 1)) by lra.
  assert (EA : nth 0 (initp r) 0 = 10 * P p 10) by (destruct (initp r); exact A12). rewrite EA.
  assert (X1 : ombh2 r = P p 2 * (P p 3 / 100) ^ 2) by (rewrite <- C5, C4, A4, A3; reflexivity).
  assert (X2 : omch2 r = (P p 1 - P p 2) * (P p 3 / 100) ^ 2 - omnuh2 r).
  { rewrite <- C6, <- C7, C4, A4, <- A2, A3, C2. ring. }
  assert (X3 : omv r = 1 - P p 4 - P p 1) by lra. rewrite X3.
  repeat (match goal with |- _ /\ _ => split end); last_one; cbn [nth_error]; try reflexivity; f_equal; assumption.
Qed.
Print Assumptions C114_astro.
Theorem C114_background p c : let r := BK p c in P p 2 <> 0 ->
  let given n := at_name base_bk (map (P p) (seq 1 7)) n in
  length (BK_derived r) = length der_bk /\ exists om k, given "omegam"%string = Some om /\ given "omegak"%string = Some k /\ at_name der_bk (BK_derived r) "omegal"%string = Some (1 - k - om).
Proof.
  intros r N given. split; [reflexivity |]. exists (P p 1), (P p 3). repeat (split; [reflexivity |]).
  destruct (C113_background p c N) as ((C1 & _) & A2 & A3 & A4 & _). fold r in C1, A2, A3, A4. unfold BK_derived. cbn. f_equal. lra.
Qed.
Print Assumptions C114_background.
(** C114: each parameter of the theta parameterization is used for the quantity that it is named after. *)
Theorem C114_inputs bbn deg BBN Theta Zre Hmin Hmax n p c r : 0 < Hmin -> Hmin <= Hmax -> fresh bbn deg BBN Theta Zre Hmin Hmax n p c = Some (r, true) ->
  let given n x := at_name base_cmb (base r) n = Some x in
  base r = map (P p) (seq 1 24) /\ length base_cmb = 24%nat /\
  (given "omegabh2" (omb r * (H0 r / 100) ^ 2) /\ given "omegach2" (omc r * (H0 r / 100) ^ 2) /\ given "tau" (tau r) /\ given "omegak" (omk r) /\ given "mnu" (mnu_std r) /\ given "w" (w r) /\ given "wa" (wa r) /\
   given "nnu" (nnu r) /\ given "alpha1" (iso r) /\ given "deltazrei" (zre_delta r) /\ given "Alens" (ALens r) /\ given "Alensf" (ALensf r) /\ given "fdm" (fdm r))%string /\
  (bbn = false -> given "yhe"%string (YHe r)) /\
  (exists la, given "logA"%string la /\ nth 0 (initp r) 0 = exp la) /\
  (given "ns" (nth 1 (initp r) 0) /\ given "nrun" (nth 2 (initp r) 0) /\ given "nrunrun" (nth 3 (initp r) 0) /\ given "r" (nth 4 (initp r) 0) /\ given "nt" (nth 5 (initp r) 0) /\
   given "ntrun" (nth 6 (initp r) 0) /\ given "Aphiphi" (nth 7 (initp r) 0))%string.
Proof.
  intros HP HL F given. destruct (C113_theta _ _ _ _ _ _ _ _ _ _ _ HP HL F) as ((T1 & T2 & T3 & T4 & T5 & T6 & T7 & T8 & T9) & B1 & B2 & B3 & B4 & B5 & B6 & B7 & B8 & B9 & B10 & B11 & B12 & B13 & B14 & B15 & B16 & B17 & B18 & B19 & _).
  split; [exact B1 |]. split; [reflexivity |]. unfold given. rewrite B1, B2, <- T4, T5, T6, B3, B4, B5, B6, B7, B10, B11, B12, B15, B16, B17, B18, B19. unfold base_of, num_theory. cbn [seq map nth].
  split; [repeat (match goal with |- _ /\ _ => split end); last_one; reflexivity |]. split; [intro E; rewrite (B13 E); last_one; reflexivity |].
  split; [exists (P p 17); split; [last_one; reflexivity | reflexivity] |]. repeat (match goal with |- _ /\ _ => split end); last_one; reflexivity.
Qed.
Print Assumptions C114_inputs.
(** Finding (230): with a temperature spectrum that ends below L = 2000 (lmin_computed_cl set lower) the values for L up to 2000 are read behind its end. *)
Theorem C114_short_refuted s Yp DH c t cl : s_CMB s = true -> TT t = Some cl -> (length cl < 2000)%nat -> TP_derived s Yp DH c t = None.
Proof. intros E1 E2 L. unfold TP_derived. rewrite E1, E2. apply Nat.ltb_lt in L. now rewrite L. Qed.
Print Assumptions C114_short_refuted.

(** C115: the initial power spectrum has the amplitude and the slopes of the parameters; tensors are an error when they are not computed. *)
Theorem C115_scalar tens consist ps pt v i : 
  (0 < nth 4 v 0 -> tens = false -> SetCAMBInitPower tens consist ps pt v i = None) /\
  (consist = true -> nth 5 v 0 <> 0 \/ nth 6 v 0 <> 0 -> SetCAMBInitPower tens consist ps pt v i = None) /\
  forall o, SetCAMBInitPower tens consist ps pt v i = Some o ->
    i_As o * 1e10 = nth 0 v 0 /\ i_ns o = nth 1 v 0 /\ i_nrun o = nth 2 v 0 /\ i_nrunrun o = nth 3 v 0 /\ i_r o = nth 4 v 0 /\ i_ps o = ps /\ i_pt o = pt /\ (pt <> ps -> rpivot o = true) /\
    (tens = false -> i_r o <= 0).
Proof.
  unfold SetCAMBInitPower. split; [| split].
  - intros L ->. destruct (Rlt_dec 0 (nth 4 v 0)); [reflexivity | contradiction].
  - intros -> N. destruct (_ && negb tens); [reflexivity |]. destruct (Req_EM_T (nth 5 v 0) 0), (Req_EM_T (nth 6 v 0) 0); cbn; try reflexivity. destruct N; contradiction.
  - intros o E. destruct (Rlt_dec 0 (nth 4 v 0)) as [Q | Q]; cbn [andb] in E.
    + destruct tens; cbn [negb] in E; [| discriminate]. destruct (consist && _); [discriminate |]. injection E as <-. cbn. repeat split; try lra; try discriminate. intro N. destruct (Req_EM_T pt ps); [contradiction | reflexivity].
    + destruct (consist && _); [discriminate |]. injection E as <-. cbn. repeat split; try lra. intro N. destruct (Req_EM_T pt ps); [contradiction | reflexivity].
Qed.
Print Assumptions C115_scalar.
(** C115, partly: the numbers for the tilt and the running of the tensor spectrum are those given, or with the consistency relation
    - r/8 (2 - r/8 - n_s) and r/8 (r/8 + n_s - 1). What is missing: the tilt is not put into the field of the tilt (C115_slope_refuted). *)
Theorem C115_tensor_partial tens consist ps pt v i o : SetCAMBInitPower tens consist ps pt v i = Some o ->
  (consist = false -> i_At o = nth 5 v 0 /\ i_ntrun o = nth 6 v 0) /\
  (consist = true -> let r := nth 4 v 0 in let ns := nth 1 v 0 in i_At o = - (r / 8) * (2 - r / 8 - ns) /\ i_ntrun o = r / 8 * (r / 8 + (ns - 1)) /\ (r = 0 -> i_At o = 0 /\ i_ntrun o = 0)).
Proof.
  unfold SetCAMBInitPower. intro E. destruct (_ && negb tens); [discriminate |]. destruct (consist && _); [discriminate |]. injection E as <-. cbn. split; intros ->; [auto |].
  split; [lra |]. split; [lra |]. intros ->. split; field.
Qed.
Print Assumptions C115_tensor_partial.
(** Finding (Calculator_CAMB.f90 892, 897): the slope of the tensor spectrum is put into At, the amplitude in CAMB's TInitialPowerLaw.
    The slope nt itself is never set, whatever is given for n_t and with or without the consistency relation. *)
Theorem C115_slope_refuted tens consist ps pt v i o : SetCAMBInitPower tens consist ps pt v i = Some o -> i_nt o = i_nt i.
Proof. unfold SetCAMBInitPower. intro E. destruct (_ && negb tens); [discriminate |]. destruct (consist && _); [discriminate |]. injection E as <-. reflexivity. Qed.
Print Assumptions C115_slope_refuted.

(** theory with constant values: 13 numbers of the thermal history, five redshifts *)
Definition th0 : thy := mkTh (8/10) (SetDerived (repeat 1 13) (repeat 1 5) (repeat 1 5) z_outputs) 2 None (fun z => z) (fun z => 1 - z) 0 0 1 0.
Example C114_ex : from_camb th0 (repeat 1 13) (repeat 1 5) (repeat 1 5) /\
  (exists d, TP_derived (mkSett true true true true (5/100) z_outputs) (fun y => y) (fun _ _ => 0) (AP false (fun _ _ => None) astro1 none) th0 = Some d /\ length d = 64%nat) /\
  closed (AP false (fun _ _ => None) astro1 none) /\ 0 < P astro1 1 /\ pos base_cmb "ns" = Some 17%nat /\
  (exists o, SetCAMBInitPower true true (5/100) (2/1000) [20; 96/100; 0; 0; 8/100; 0; 0; 1] (mkIp 0 0 0 0 0 0 0 0 0 0 false) = Some o /\ i_r o = 8/100 /\ i_At o = - (1/100) * (2 - 1/100 - 96/100) /\ i_nt o = 0).
Proof.
  split; [repeat split |]. split; [destruct (C114_count (mkSett true true true true (5/100) z_outputs) (fun y => y) (fun _ _ => 0) (AP false (fun _ _ => None) astro1 none) th0 (repeat 1 13) (repeat 1 5) (repeat 1 5)) as (d & E & L);
     [repeat split | reflexivity | discriminate |]; exists d; split; [exact E | exact L] |].
  split; [apply C113_ex |]. split; [unfold P; cbn; lra |]. split; [reflexivity |].
  unfold SetCAMBInitPower. cbn [nth negb andb]. rewrite andb_false_r. destruct (Req_EM_T 0 0); [| contradiction]. cbn [andb negb]. eexists. split; [reflexivity |]. cbn. repeat split; lra.
Qed.
