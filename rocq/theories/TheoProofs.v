From Coq Require Import FinFun Reals List Bool Arith Lia Lra.
From Verif Require Import TheoModel TheoSpec.
Import ListNotations.
Local Open Scope R_scope.

Lemma in_pairs n i j : In (i, j) (pairs n) <-> (1 <= j <= i)%nat /\ (i <= n)%nat.
Proof.
  unfold pairs. rewrite in_concat. split.
  - intros (l & I & J). apply in_map_iff in I. destruct I as (a & <- & I). apply in_map_iff in J. destruct J as (b & E & J). injection E as -> ->.
    apply in_seq in I. rewrite <- in_rev in J. apply in_seq in J. lia.
  - intros [H1 H2]. exists (map (fun b => (i, b)) (rev (seq 1 i))). split; [apply in_map_iff; exists i; split; [reflexivity | apply in_seq; lia] |].
    apply in_map_iff. exists j. split; [reflexivity |]. rewrite <- in_rev. apply in_seq. lia.
Qed.
Lemma nodup_pairs n : NoDup (pairs n).
Proof.
  unfold pairs. assert (G : forall l, NoDup l -> NoDup (concat (map (fun i => map (fun j => (i, j)) (rev (seq 1 i))) l))); [| apply G, seq_NoDup].
  induction l as [| i l IH]; intro ND; [constructor |]. apply NoDup_cons_iff in ND. destruct ND as [N1 N2]. cbn [map concat].
  assert (NA : forall (A : Type) (a b : list A), NoDup a -> NoDup b -> (forall x, In x a -> ~ In x b) -> NoDup (a ++ b)).
  { clear. intros A a b Ha Hb H. induction Ha as [| x a Nx _ IHa]; cbn; [exact Hb |]. constructor; [| apply IHa; intros y I; apply H; now right].
    intro I. apply in_app_or in I. destruct I as [I | I]; [contradiction | exact (H x (or_introl eq_refl) I)]. }
  apply NA; [| now apply IH |].
  - apply FinFun.Injective_map_NoDup; [intros a b E; now injection E | apply NoDup_rev, seq_NoDup].
  - intros [a b] I J. apply in_map_iff in I. destruct I as (k & E & _). injection E as -> _. apply in_concat in J. destruct J as (m & J1 & J2).
    apply in_map_iff in J1. destruct J1 as (c & <- & J1). apply in_map_iff in J2. destruct J2 as (e & E & _). injection E as -> _. contradiction.
Qed.
Lemma set_at c i j v : set_cl c i j v i j = Some v.
Proof. unfold set_cl. now rewrite !Nat.eqb_refl. Qed.
Lemma set_other c i j v a b : (a, b) <> (i, j) -> set_cl c i j v a b = c a b.
Proof. intro N. unfold set_cl. destruct (Nat.eqb_spec a i); [| reflexivity]. destruct (Nat.eqb_spec b j); [subst; congruence | reflexivity]. Qed.

Lemma read_cls_ok {S} (s sF : settings) (ct : nat -> nat -> option (list R)) : forall ps c (f rest : list (item (S:=S))),
  write_cls sF ct ps = Some f -> NoDup ps ->
  (forall i j, In (i, j) ps -> (0 < lmax sF i j)%nat -> exists l, ct i j = Some l /\ length l = lmax sF i j) ->
  (forall i j, In (i, j) ps -> (i <= num_cls s)%nat -> (0 < lmax s i j)%nat -> exists old, c i j = Some old) ->
  exists c', read_cls s sF c ps (f ++ rest) = Some (c', rest) /\
    (forall i j l old, In (i, j) ps -> (0 < lmax sF i j)%nat -> (i <= num_cls s)%nat -> (0 < lmax s i j)%nat -> ct i j = Some l -> c i j = Some old ->
       c' i j = Some (firstn (Nat.min (lmax sF i j) (lmax s i j)) l ++ skipn (Nat.min (lmax sF i j) (lmax s i j)) old)) /\
    (forall i j, ~ (In (i, j) ps /\ (0 < lmax sF i j)%nat /\ (i <= num_cls s)%nat /\ (0 < lmax s i j)%nat) -> c' i j = c i j).
Proof.
  induction ps as [| [i j] ps IH]; intros c f rest W ND HC HO.
  { injection W as <-. exists c. split; [reflexivity |]. split; [intros i j l old [] | reflexivity]. }
  apply NoDup_cons_iff in ND. destruct ND as [N1 N2]. cbn [write_cls] in W. cbn [read_cls].
  destruct (Nat.ltb_spec 0 (lmax sF i j)) as [P | P].
  2: { destruct (IH c f rest W N2) as (c' & E1 & E2 & E3); [intros a b I; apply HC; now right | intros a b I; apply HO; now right |].
       exists c'. split; [exact E1 |]. split.
       - intros a b l old [E | I] L; [injection E as <- <-; lia | now apply E2].
       - intros a b N. apply E3. intros (I & Q). apply N. split; [now right | exact Q]. }
  destruct (HC i j (or_introl eq_refl) P) as (l & El & Ll). rewrite El in W. destruct (write_cls sF ct ps) as [r |] eqn:EW; [| discriminate]. injection W as <-. cbn [app].
  destruct (Nat.ltb_spec (num_cls s) i) as [Q | Q].
  { destruct (IH c r rest eq_refl N2) as (c' & E1 & E2 & E3); [intros a b I; apply HC; now right | intros a b I; apply HO; now right |].
    exists c'. split; [exact E1 |]. split.
    - intros a b m old [E | I] L L2; [injection E as <- <-; lia | now apply E2].
    - intros a b N. apply E3. intros (I & V). apply N. split; [now right | exact V]. }
  destruct (Nat.ltb_spec 0 (lmax s i j)) as [U | U].
  2: { destruct (IH c r rest eq_refl N2) as (c' & E1 & E2 & E3); [intros a b I; apply HC; now right | intros a b I; apply HO; now right |].
    exists c'. split; [exact E1 |]. split.
    - intros a b m old [E | I] L L2 L3; [injection E as <- <-; lia | now apply E2].
    - intros a b N. apply E3. intros (I & V). apply N. split; [now right | exact V]. }
  destruct (HO i j (or_introl eq_refl) Q U) as (old & Eo). rewrite Eo. set (sz := Nat.min (lmax sF i j) (lmax s i j)).
  replace (sz <=? length l)%nat with true by (symmetry; apply Nat.leb_le; unfold sz; lia).
  set (v := firstn sz l ++ skipn sz old).
  destruct (IH (set_cl c i j v) r rest eq_refl N2) as (c' & E1 & E2 & E3).
  { intros a b I; apply HC; now right. }
  { intros a b I La Lb. rewrite set_other; [apply HO; [now right | exact La | exact Lb] | intros E; injection E as -> ->; contradiction]. }
  exists c'. split; [exact E1 |]. split.
  - intros a b m o [E | I] L1 L2 L3 Em Eo'.
    + injection E as <- <-. rewrite E3; [| intros (I & _); contradiction]. rewrite set_at. assert (m = l) as -> by congruence. assert (o = old) as -> by congruence. reflexivity.
    + apply E2; try assumption. rewrite set_other; [exact Eo' | intros E; injection E as -> ->; contradiction].
  - intros a b N. rewrite E3; [| intros (I & V); apply N; split; [now right | exact V]]. apply set_other. intros E. injection E as -> ->. apply N. repeat split; try assumption. now left.
Qed.
Lemma app_some {S} (a b : option (list (item (S:=S)))) f : app_items a b = Some f -> exists x y, a = Some x /\ b = Some y /\ f = x ++ y.
Proof. unfold app_items. destruct a as [x |], b as [y |]; try discriminate. intro E. injection E as <-. now exists x, y. Qed.
Lemma extended lg x y z k : ln k <= last x 0 -> InitExtrap lg x y z k = mkPk x y z lg.
Proof. intro H. unfold InitExtrap. destruct (Rlt_dec (last x 0) (ln k)); [lra | reflexivity]. Qed.
Lemma read_mat_ok {S} x y p (f : list (item (S:=S))) : on_grid x y (Some p) -> read_mat (length x) (length y) (Mat (pk_z p) :: f) = Some (pk_z p, f).
Proof.
  intros (q & E & _ & _ & L & F). injection E as <-. unfold read_mat. rewrite L, Nat.eqb_refl. cbn [andb].
  replace (forallb _ (pk_z p)) with true; [reflexivity |]. symmetry. apply forallb_forall. intros r I. rewrite Forall_forall in F. now apply Nat.eqb_eq, F.
Qed.
Lemma read_pk_ok {S} s x y o (f : list (item (S:=S))) : ln (kmax s) <= last x 0 -> on_grid x y o ->
  exists m p, mat_of (S:=S) o = Some m /\ read_pk s x y true None (m :: f) = Some (Some p, f) /\ same_values o (Some p) /\ islog p = true /\ pk_x p = x /\ pk_y p = y.
Proof.
  intros HK G. destruct G as (q & -> & E1 & E2 & L & F). exists (Mat (pk_z q)), (mkPk x y (pk_z q) true). split; [reflexivity |]. unfold read_pk.
  rewrite read_mat_ok by (exists q; auto). rewrite extended by exact HK. split; [reflexivity |]. cbn. auto.
Qed.
Lemma read_pk_opt {S} s x y (b : bool) o (rest : list (item (S:=S))) : ln (kmax s) <= last x 0 -> (b = true -> on_grid x y o) ->
  exists l r, opt_items b [mat_of (S:=S) o] = Some l /\ read_pk s x y b None (l ++ rest) = Some (r, rest) /\ (b = true -> same_values o r /\ is_log r).
Proof.
  intros HK G. destruct b.
  - destruct (read_pk_ok (S:=S) s x y o rest HK (G eq_refl)) as (m & p & E1 & E2 & E3 & E4 & _). exists [m], (Some p). cbn. rewrite E1. auto.
  - exists [], None. cbn. split; [reflexivity |]. split; [reflexivity | discriminate].
Qed.
Lemma opt_two {S} b (o1 o2 : option (item (S:=S))) : opt_items b [o1; o2] = app_items (opt_items b [o1]) (opt_items b [o2]).
Proof. destruct b, o1, o2; reflexivity. Qed.
Lemma read_spl_opt {S} (b : bool) (o old : option S) rest : (b = true -> o <> None) ->
  exists l r, opt_items b [option_map Spl o] = Some l /\ read_spl b old (l ++ rest) = Some (r, rest) /\ (b = true -> r = o) /\ (b = false -> r = old).
Proof.
  intro H. destruct b.
  - destruct o as [v |]; [| now specialize (H eq_refl)]. exists [Spl v], (Some v). repeat split. discriminate.
  - exists [], old. repeat split. discriminate.
Qed.
Lemma read_power_ok {S} (s sF : settings) (t u : theory (S:=S)) g rest : holds sF t -> kmax s = kmax sF ->
  (use_matterpower s = true -> use_matterpower sF = true -> differ (redshifts sF) (redshifts s) = false) ->
  (if use_matterpower sF then
                  match MPK t with
                  | None => None
                  | Some m => app_items (Some [Two (length (pk_x m)) (length (pk_y m)); Raw (pk_x m); Raw (pk_y m); Mat (pk_z m)])
                     (app_items (opt_items (use_nonlinear sF) [mat_of (NL_MPK t)])
                     (app_items (opt_items (use_Weylpower sF) [mat_of (WEYL t); mat_of (CROSS t)])
                     (app_items (opt_items (use_nonlinear sF && use_Weylpower sF) [mat_of (NL_WEYL t); mat_of (NL_CROSS t)])
                                (opt_items (use_sigmaR sF) [option_map Spl (sigma_R t)]))))
                  end
                else Some []) = Some g ->
  exists u', read_power s sF u (g ++ rest) = Some (u', rest) /\ scalars_same u u' /\ cls u' = cls u /\ sigma8_z u' = sigma8_z u /\ growth_z u' = growth_z u /\
    (use_matterpower sF = true -> same_values (MPK t) (MPK u') /\ is_log (MPK u') /\
     (use_nonlinear sF = true -> same_values (NL_MPK t) (NL_MPK u') /\ is_log (NL_MPK u')) /\
     (use_Weylpower sF = true -> (same_values (WEYL t) (WEYL u') /\ is_log (WEYL u')) /\ same_values (CROSS t) (CROSS u') /\ is_log (CROSS u')) /\
     (use_nonlinear sF = true -> use_Weylpower sF = true -> (same_values (NL_WEYL t) (NL_WEYL u') /\ is_log (NL_WEYL u')) /\ same_values (NL_CROSS t) (NL_CROSS u') /\ is_log (NL_CROSS u')) /\
     (use_sigmaR sF = true -> sigma_R u' = sigma_R t)).
Proof.
  intros (_ & H & _) HK HR. unfold read_power. destruct (use_matterpower sF) eqn:EM.
  2: { intro E. injection E as <-. exists u. repeat split; try reflexivity; intros; discriminate. }
  destruct (H eq_refl) as (x & y & K & (m & E1 & <- & <- & D1 & D2) & H2 & H3 & H4 & H5). rewrite E1. intro W. rewrite !opt_two in W.
  apply app_some in W. destruct W as (a & b & Ea & W & ->). injection Ea as <-.
  apply app_some in W. destruct W as (b1 & b2 & W1 & W & ->).
  apply app_some in W. destruct W as (b3 & b4 & W3 & W & ->). apply app_some in W3. destruct W3 as (c1 & c2 & Wc & Wd & ->).
  apply app_some in W. destruct W as (b5 & b6 & W5 & W6 & ->). apply app_some in W5. destruct W5 as (c3 & c4 & We & Wf & ->).
  assert (EC : use_matterpower s && (differ (redshifts sF) (redshifts s) || (if Req_EM_T (kmax s) (kmax sF) then false else true)) = false).
  { destruct (use_matterpower s); [| reflexivity]. cbn [andb]. rewrite (HR eq_refl eq_refl). destruct (Req_EM_T (kmax s) (kmax sF)); [reflexivity | contradiction]. }
  rewrite EC. cbn [app]. rewrite !Nat.eqb_refl. cbn [andb]. rewrite <- HK in K. rewrite <- !app_assoc.
  assert (GM : on_grid (pk_x m) (pk_y m) (Some m)) by (exists m; auto).
  destruct (read_pk_ok (S:=S) s _ _ (Some m) (b1 ++ c1 ++ c2 ++ c3 ++ c4 ++ b6 ++ rest) K GM) as (mm & p & Q1 & Q2 & Q3 & Q4 & _). injection Q1 as <-. rewrite Q2.
  destruct (read_pk_opt (S:=S) s (pk_x m) (pk_y m) (use_nonlinear sF) (NL_MPK t) (c1 ++ c2 ++ c3 ++ c4 ++ b6 ++ rest) K H2) as (l1 & r1 & A1 & A2 & A3).
  assert (b1 = l1) as -> by congruence. rewrite A2.
  destruct (read_pk_opt (S:=S) s (pk_x m) (pk_y m) (use_Weylpower sF) (WEYL t) (c2 ++ c3 ++ c4 ++ b6 ++ rest) K (fun h => proj1 (H3 h))) as (l2 & r2 & B1 & B2 & B3).
  assert (c1 = l2) as -> by congruence. rewrite B2.
  destruct (read_pk_opt (S:=S) s (pk_x m) (pk_y m) (use_Weylpower sF) (CROSS t) (c3 ++ c4 ++ b6 ++ rest) K (fun h => proj2 (H3 h))) as (l3 & r3 & C1 & C2 & C3).
  assert (c2 = l3) as -> by congruence. rewrite C2.
  assert (H4' : use_nonlinear sF && use_Weylpower sF = true -> on_grid (pk_x m) (pk_y m) (NL_WEYL t) /\ on_grid (pk_x m) (pk_y m) (NL_CROSS t)).
  { intro h. apply andb_prop in h. destruct h. auto. }
  destruct (read_pk_opt (S:=S) s (pk_x m) (pk_y m) (use_nonlinear sF && use_Weylpower sF) (NL_WEYL t) (c4 ++ b6 ++ rest) K (fun h => proj1 (H4' h))) as (l4 & r4 & F1 & F2 & F3).
  assert (c3 = l4) as -> by congruence. rewrite F2.
  destruct (read_pk_opt (S:=S) s (pk_x m) (pk_y m) (use_nonlinear sF && use_Weylpower sF) (NL_CROSS t) (b6 ++ rest) K (fun h => proj2 (H4' h))) as (l5 & r5 & G1 & G2 & G3).
  assert (c4 = l5) as -> by congruence. rewrite G2.
  destruct (read_spl_opt (use_sigmaR sF) (sigma_R t) (sigma_R u) rest H5) as (l6 & r6 & J1 & J2 & J3 & _).
  assert (b6 = l6) as -> by congruence. rewrite J2.
  eexists. split; [reflexivity |]. cbn [MPK NL_MPK WEYL CROSS NL_WEYL NL_CROSS sigma_R cls sigma8_z growth_z].
  split; [repeat split |]. split; [reflexivity |]. split; [reflexivity |]. split; [reflexivity |]. intros _.
  split; [exact Q3 |]. split; [exact Q4 |]. split; [exact A3 |]. split; [intro h; split; [now apply B3 | now apply C3] |].
  split; [intros h1 h2; assert (h : use_nonlinear sF && use_Weylpower sF = true) by (rewrite h1, h2; reflexivity); split; [now apply F3 | now apply G3] | exact J3].
Qed.
(** the file gives back the theory, whatever is behind *)
Lemma read_body {S} (s sF : settings) (t t0 : theory (S:=S)) f rest : holds sF t -> kmax s = kmax sF ->
  (use_matterpower s = true -> use_matterpower sF = true -> differ (redshifts sF) (redshifts s) = false) ->
  write_body sF t = Some f ->
  exists t', ReadTheory s sF t0 false (f ++ rest) = Some (t', sF, rest) /\ scalars_same t t' /\
   (forall i j, (1 <= j <= i)%nat -> (i <= num_cls s)%nat -> (0 < lmax s i j)%nat ->
      exists c, cls t' i j = Some c /\ length c = lmax s i j /\
        (forall l, (i <= num_cls sF)%nat -> (0 < lmax sF i j)%nat -> cls t i j = Some l -> forall k, (k < lmax s i j)%nat -> nth k c 0 = nth k l 0) /\
        (~ ((i <= num_cls sF)%nat /\ (0 < lmax sF i j)%nat) -> c = repeat 0 (lmax s i j))) /\
   (forall i j, ~ ((1 <= j <= i)%nat /\ (i <= num_cls s)%nat /\ (0 < lmax s i j)%nat) -> cls t' i j = None) /\
   power_same sF t t' /\ (use_matterpower sF = true -> is_log (MPK t') /\
     (use_nonlinear sF = true -> is_log (NL_MPK t')) /\ (use_Weylpower sF = true -> is_log (WEYL t') /\ is_log (CROSS t')) /\
     (use_nonlinear sF = true -> use_Weylpower sF = true -> is_log (NL_WEYL t') /\ is_log (NL_CROSS t'))).
Proof.
  intros HH HK HR W. unfold write_body in W.
  apply app_some in W. destruct W as (a & b & Ea & W & ->). injection Ea as <-.
  apply app_some in W. destruct W as (wc & b1 & Wc & W & ->).
  apply app_some in W. destruct W as (ws & b2 & Ws & W & ->). injection Ws as <-.
  apply app_some in W. destruct W as (wp & b3 & Wp & W & ->).
  rewrite opt_two in W. apply app_some in W. destruct W as (l1 & l2 & W1 & W2 & ->).
  rewrite <- !app_assoc. unfold ReadTheory. cbn [app]. rewrite Nat.eqb_refl.
  assert (AL : forall i j, (1 <= j <= i)%nat -> (i <= num_cls s)%nat -> (0 < lmax s i j)%nat -> Allocate s i j = Some (repeat 0 (lmax s i j))).
  { intros i j [P1 P2] P3 P4. unfold Allocate. rewrite (proj2 (Nat.leb_le _ _) P1), (proj2 (Nat.leb_le _ _) P2), (proj2 (Nat.leb_le _ _) P3), (proj2 (Nat.ltb_lt _ _) P4). reflexivity. }
  assert (AN : forall i j, ~ ((1 <= j <= i)%nat /\ (i <= num_cls s)%nat /\ (0 < lmax s i j)%nat) -> Allocate s i j = None).
  { intros i j N. unfold Allocate. destruct (Nat.leb_spec 1 j), (Nat.leb_spec j i), (Nat.leb_spec i (num_cls s)), (Nat.ltb_spec 0 (lmax s i j)); cbn [andb]; try reflexivity. exfalso. apply N. auto. }
  destruct (read_cls_ok s sF (cls t) (pairs (num_cls sF)) (Allocate s) wc
     ([Sized [ratio_02 t; ratio_C10 t; ratio_BB t; tensor_AT t; rms_deflect t; sigma_8 t]] ++ wp ++ l1 ++ l2 ++ rest) Wc (nodup_pairs _)) as (c' & R1 & R2 & R3).
  { intros i j I P. apply in_pairs in I. apply HH; tauto. }
  { intros i j I P1 P2. apply in_pairs in I. eexists. apply AL; tauto. }
  cbn [app] in R1. rewrite R1.
  match goal with |- context [read_power s sF ?U _] => destruct (read_power_ok s sF t U wp (l1 ++ l2 ++ rest) HH HK HR Wp) as (u & P1 & P2 & P3 & P4 & P5 & P6) end.
  rewrite P1. destruct HH as (HC & _ & HL).
  destruct (read_spl_opt (use_LSS sF) (sigma8_z t) (sigma8_z u) (l2 ++ rest) (fun h => proj1 (HL h))) as (m1 & r1 & A1 & A2 & A3 & _).
  assert (l1 = m1) as -> by congruence. rewrite A2.
  destruct (read_spl_opt (use_LSS sF) (growth_z t) (growth_z u) rest (fun h => proj2 (HL h))) as (m2 & r2 & B1 & B2 & B3 & _).
  assert (l2 = m2) as -> by congruence. rewrite B2.
  eexists. split; [reflexivity |]. unfold scalars_same, power_same in *. cbn [derived ratio_02 ratio_C10 ratio_BB tensor_AT rms_deflect sigma_8 cls MPK NL_MPK WEYL CROSS NL_WEYL NL_CROSS sigma_R sigma8_z growth_z] in *.
  split; [exact P2 |]. rewrite P3. split; [| split].
  - intros i j Q1 Q2 Q3. pose proof (AL i j Q1 Q2 Q3) as EA.
    assert (DD : ((i <= num_cls sF)%nat /\ (0 < lmax sF i j)%nat) \/ ~ ((i <= num_cls sF)%nat /\ (0 < lmax sF i j)%nat)) by lia.
    destruct DD as [[D1 D2] | D].
    + destruct (HC i j Q1 D1 D2) as (l & El & Ll). rewrite (R2 i j l _ (proj2 (in_pairs _ _ _) (conj Q1 D1)) D2 Q2 Q3 El EA). eexists. split; [reflexivity |].
      assert (LF : length (firstn (Nat.min (lmax sF i j) (lmax s i j)) l) = Nat.min (lmax sF i j) (lmax s i j)) by (rewrite firstn_length; lia).
      split; [rewrite app_length, LF, skipn_length, repeat_length; lia |]. split; [| tauto].
      intros l' _ _ El' k Hk. assert (l' = l) as -> by congruence.
      destruct (Nat.lt_ge_cases k (Nat.min (lmax sF i j) (lmax s i j))) as [L | L].
      * rewrite app_nth1 by lia. rewrite <- (firstn_skipn (Nat.min (lmax sF i j) (lmax s i j)) l) at 2. now rewrite app_nth1 by lia.
      * rewrite app_nth2 by lia. rewrite (nth_overflow l) by lia.
        assert (G : forall n m q, nth q (skipn n (repeat 0 m)) 0 = 0); [| apply G].
        induction n as [| n IHn]; intros m q; [apply nth_repeat |]. destruct m as [| m]; [now destruct q | apply IHn].
    + exists (repeat 0 (lmax s i j)). rewrite R3; [| rewrite in_pairs; tauto]. split; [exact EA |]. split; [apply repeat_length |]. split; [intros l h1 h2; tauto | reflexivity].
  - intros i j N. rewrite R3; [now apply AN |]. rewrite in_pairs. tauto.
  - split.
    + split; [| intro h; split; [now apply A3 | now apply B3]]. intro h. destruct (P6 h) as (V1 & V2 & V3 & V4 & V5 & V6). split; [exact V1 |].
      split; [intro e; apply V3, e |]. split; [intro e; destruct (V4 e) as [[? ?] [? ?]]; auto |]. split; [intros e1 e2; destruct (V5 e1 e2) as [[? ?] [? ?]]; auto | exact V6].
    + intro h. destruct (P6 h) as (V1 & V2 & V3 & V4 & V5 & V6). split; [exact V2 |].
      split; [intro e; apply V3, e |]. split; [intro e; destruct (V4 e) as [[? ?] [? ?]]; auto | intros e1 e2; destruct (V5 e1 e2) as [[? ?] [? ?]]; auto].
Qed.
Lemma write_total {S} (s : settings) (t : theory (S:=S)) : holds s t -> exists f, write_body s t = Some f.
Proof.
  intros (H1 & H2 & H3). unfold write_body. rewrite !opt_two.
  assert (WC : forall ps, (forall i j, In (i, j) ps -> (0 < lmax s i j)%nat -> exists c, cls t i j = Some c) -> exists f, write_cls (S:=S) s (cls t) ps = Some f).
  { induction ps as [| [i j] ps IH]; intro H; [eexists; reflexivity |]. cbn [write_cls]. destruct IH as (f & E); [intros a b I; apply H; now right |].
    destruct (Nat.ltb_spec 0 (lmax s i j)); [| rewrite E; eauto]. destruct (H i j (or_introl eq_refl)) as (c & Ec); [lia |]. rewrite Ec, E. eauto. }
  destruct (WC (pairs (num_cls s))) as (f1 & E1). { intros i j I P. apply in_pairs in I. destruct (H1 i j) as (c & Ec & _); try tauto. eauto. }
  rewrite E1. assert (WS : forall (o : option S) b, (b = true -> o <> None) -> exists l, opt_items b [option_map Spl o] = Some l).
  { intros o b H. destruct (read_spl_opt b o None [] H) as (l & _ & E & _). eauto. }
  destruct (WS (sigma8_z t) (use_LSS s) (fun h => proj1 (H3 h))) as (f2 & E2). destruct (WS (growth_z t) (use_LSS s) (fun h => proj2 (H3 h))) as (f3 & E3). rewrite E2, E3.
  destruct (use_matterpower s); [| eexists; reflexivity]. destruct (H2 eq_refl) as (x & y & K & G1 & G2 & G3 & G4 & G5). 
  assert (WM : forall b o, (b = true -> on_grid x y o) -> exists l, opt_items (S:=S) b [mat_of o] = Some l).
  { intros b o G. destruct (read_pk_opt (S:=S) s x y b o [] K G) as (l & _ & E & _). eauto. }
  destruct G1 as (m & -> & _).
  destruct (WM _ _ G2) as (g2 & ->). destruct (WM _ _ (fun h => proj1 (G3 h))) as (g3 & ->). destruct (WM _ _ (fun h => proj2 (G3 h))) as (g4 & ->).
  assert (G4' : use_nonlinear s && use_Weylpower s = true -> on_grid x y (NL_WEYL t) /\ on_grid x y (NL_CROSS t)) by (intro h; apply andb_prop in h; destruct h; auto).
  destruct (WM _ _ (fun h => proj1 (G4' h))) as (g5 & ->). destruct (WM _ _ (fun h => proj2 (G4' h))) as (g6 & ->).
  destruct (WS (sigma_R t) (use_sigmaR s) G5) as (g7 & ->). eexists. reflexivity.
Qed.
