(** Proofs about rows of weighted samples and chains. *)
From Verif Require Import PyStr PyBase ThinModel ThinSpec ThinProofs ChainModel ChainSpec.
From Coq Require Import QArith Qround Lqa.
Local Open Scope nat_scope.

Lemma keep_map {A B} (f : A -> B) : forall m l, keep m (map f l) = map f (keep m l).
Proof. induction m as [|b m IH]; intros [|x l]; cbn; auto. destruct b; cbn; now rewrite IH. Qed.

Lemma keep_filter {A} (p : A -> bool) l : keep (map p l) l = filter p l.
Proof. induction l as [|x l IH]; cbn; auto. destruct (p x); now rewrite IH. Qed.

Lemma subseq_refl {A} (l : list A) : subseq l l.
Proof. induction l; constructor; auto. Qed.
Lemma subseq_nil {A} (l : list A) : subseq [] l.
Proof. induction l; constructor; auto. Qed.
Lemma keep_subseq {A} : forall m (l : list A), subseq (keep m l) l.
Proof.
  induction m as [|b m IH]; intros [|x l]; cbn; try apply subseq_nil.
  destruct b; constructor; auto.
Qed.
Lemma subseq_trans {A} (b c : list A) : subseq b c -> forall a, subseq a b -> subseq a c.
Proof.
  induction 1; intros a Ha; auto.
  - inversion Ha; subst; constructor; auto.
  - constructor; auto.
Qed.
Lemma subseq_incl {A} (a b : list A) : subseq a b -> incl a b.
Proof. induction 1; intros y Hy; cbn in *; intuition. Qed.
Lemma skipn_subseq {A} : forall n (l : list A), subseq (skipn n l) l.
Proof. induction n; intros [|x l]; cbn; try apply subseq_refl; constructor; auto. Qed.
Lemma filter_subseq {A} (p : A -> bool) l : subseq (filter p l) l.
Proof. rewrite <- keep_filter. apply keep_subseq. Qed.

Lemma take_index_map {A B} (f : A -> B) l ix r : take (Index ix) l = Ok r -> take (Index ix) (map f l) = Ok (map f r).
Proof.
  cbn. revert r. induction ix as [|i ix IH]; cbn; intros r H; [injection H as <-; reflexivity|].
  rewrite nth_error_map. destruct (nth_error l i); cbn; [|discriminate].
  destruct (mapR _ ix) eqn:E; [|discriminate]. injection H as <-. now rewrite (IH _ eq_refl).
Qed.
Lemma take_index_err {A B} (f : A -> B) l ix e : take (Index ix) l = Err e -> take (Index ix) (map f l) = Err e.
Proof.
  cbn. revert e. induction ix as [|i ix IH]; cbn; intros e H; [discriminate|].
  rewrite nth_error_map. destruct (nth_error l i); cbn; [|injection H as <-; reflexivity].
  destruct (mapR _ ix) eqn:E; [discriminate|]. injection H as <-. now rewrite (IH _ eq_refl).
Qed.
Lemma take_index_ok {A} (l : list A) ix : (forall i, In i ix -> i < length l) ->
  exists r, take (Index ix) l = Ok r /\ length r = length ix /\
    forall k i, nth_error ix k = Some i -> nth_error r k = nth_error l i.
Proof.
  cbn. induction ix as [|i ix IH]; cbn; intros H.
  - exists []. split; [|split]; auto. intros [|k] i Hk; discriminate.
  - destruct IH as [r [E [El Hr]]]; [auto|]. rewrite E.
    destruct (nth_error l i) as [x|] eqn:En.
    + exists (x :: r). split; [|split]; cbn; auto. intros [|k] j Hk; cbn in *; [injection Hk as <-; auto|auto].
    + apply nth_error_None in En. specialize (H i (or_introl eq_refl)). lia.
Qed.
Lemma take_In {A} (w : sel) (l r : list A) : take w l = Ok r -> incl r l.
Proof.
  destruct w as [m|ix]; cbn.
  - destruct (length m =? length l); [|discriminate]. intros H. injection H as <-. apply subseq_incl, keep_subseq.
  - revert r. induction ix as [|i ix IH]; cbn; intros r H; [injection H as <-; intros ? []|].
    destruct (nth_error l i) eqn:E; [|discriminate]. destruct (mapR _ ix) eqn:E2; [|discriminate].
    injection H as <-. intros y [<-|Hy]; [eauto using nth_error_In|]. now apply (IH _ eq_refl).
Qed.
Lemma take_map {A B} (f : A -> B) w l r : take w l = Ok r -> take w (map f l) = Ok (map f r).
Proof.
  destruct w as [m|ix]; [|apply take_index_map]. cbn. rewrite map_length.
  destruct (length m =? length l); [|discriminate]. intros H. injection H as <-. now rewrite keep_map.
Qed.
Lemma take_map_inv {A B} (f : A -> B) w l r : take w (map f l) = Ok r -> exists r', take w l = Ok r' /\ r = map f r'.
Proof.
  destruct (take w l) as [r'|e] eqn:E; intros H.
  - rewrite (take_map f _ _ _ E) in H. injection H as <-. eauto.
  - exfalso. destruct w as [m|ix].
    + cbn in *. rewrite map_length in H. destruct (length m =? length l); discriminate.
    + rewrite (take_index_err f _ _ _ E) in H. discriminate.
Qed.

(** setSamples_raw from a table *)
Lemma raw_rows {R} (s : wsam R) (h : bool) (t : list (row3 R)) :
  let s' := setSamples_raw s (map r_s t) (Some (map r_w t)) (if h then Some (map r_l t) else None) in
  rows h s' t /\ fresh s' t /\ mwr s' = mwr s.
Proof.
  cbn. unfold setSamples_raw, weightsChanged, rows, fresh. cbn. rewrite map_length.
  repeat split; auto; reflexivity.
Qed.

Lemma filter_rows {R} (s : wsam R) h t w : rows h s t ->
  match take w t with
  | Ok t' => exists s', ws_filter s w = Ok s' /\ rows h s' t' /\ fresh s' t' /\ mwr s' = mwr s
  | Err _ => exists e, ws_filter s w = Err e
  end.
Proof.
  intros [H1 [H2 [H3 H4]]]. unfold ws_filter. rewrite H1, H2.
  destruct (take w t) as [t'|e] eqn:E.
  - rewrite !(take_map _ _ _ _ E). cbn [bindR].
    rewrite H3. unfold take_opt. destruct h.
    + rewrite (take_map _ _ _ _ E). cbn [bindR]. eexists; split; [reflexivity|].
      exact (raw_rows s true t').
    + cbn [bindR]. eexists; split; [reflexivity|]. exact (raw_rows s false t').
  - destruct (take w (map r_s t)) as [r|e'] eqn:E'.
    + apply take_map_inv in E'. destruct E' as [r' [E' _]]. congruence.
    + cbn [bindR]. eauto.
Qed.

(** maximum and minimum *)
Lemma maxQ_spec l m : maxQ l = Ok m -> In m l /\ (forall x, In x l -> (x <= m)%Q).
Proof.
  destruct l as [|x l]; [discriminate|]. cbn. intros H. injection H as <-. revert x.
  induction l as [|y l IH]; intros x; cbn [fold_left].
  - split; [cbn; auto|]. intros z [<-|[]]. apply Qle_refl.
  - destruct (Qle_bool x y) eqn:E.
    + apply Qle_bool_iff in E. destruct (IH y) as [I1 I2]. split; [cbn; cbn in I1; tauto|].
      intros z [<-|Hz]; [|auto]. apply Qle_trans with y; [exact E|apply I2; cbn; auto].
    + assert (Hlt : (y <= x)%Q).
      { apply Qlt_le_weak, Qnot_le_lt. intros C. apply Qle_bool_iff in C. congruence. }
      destruct (IH x) as [I1 I2]. split; [cbn in *; tauto|].
      intros z [<-|[<-|Hz]]; [apply I2; cbn; auto| |apply I2; cbn; auto].
      apply Qle_trans with x; [exact Hlt|apply I2; cbn; auto].
Qed.
Lemma minQ_spec l m : minQ l = Ok m -> In m l /\ (forall x, In x l -> (m <= x)%Q).
Proof.
  destruct l as [|x l]; [discriminate|]. cbn. intros H. injection H as <-. revert x.
  induction l as [|y l IH]; intros x; cbn [fold_left].
  - split; [cbn; auto|]. intros z [<-|[]]. apply Qle_refl.
  - destruct (Qle_bool y x) eqn:E.
    + apply Qle_bool_iff in E. destruct (IH y) as [I1 I2]. split; [cbn; cbn in I1; tauto|].
      intros z [<-|Hz]; [|auto]. apply Qle_trans with y; [apply I2; cbn; auto|exact E].
    + assert (Hlt : (x <= y)%Q).
      { apply Qlt_le_weak, Qnot_le_lt. intros C. apply Qle_bool_iff in C. congruence. }
      destruct (IH x) as [I1 I2]. split; [cbn in *; tauto|].
      intros z [<-|[<-|Hz]]; [apply I2; cbn; auto| |apply I2; cbn; auto].
      apply Qle_trans with x; [apply I2; cbn; auto|exact Hlt].
Qed.
Lemma Qltb_iff a b : Qltb a b = true <-> (a < b)%Q.
Proof.
  unfold Qltb. rewrite negb_true_iff. split; intros H.
  - apply Qnot_le_lt. intros C. apply Qle_bool_iff in C. congruence.
  - destruct (Qle_bool b a) eqn:E; [|reflexivity]. apply Qle_bool_iff in E. apply Qle_not_lt in E. contradiction.
Qed.

(** the weight cut, as a mask *)
Lemma ratio_mask_spec {R} (t : list (row3 R)) ratio : t <> [] -> (0 <= ratio)%Q ->
  exists m, ratio_mask ratio (map r_w t) = Ok m /\
    cut_of ratio t (match m with Some m => keep m t | None => t end) /\
    match m with Some m => length m = length t | None => True end.
Proof.
  intros Hne Hr. unfold ratio_mask.
  destruct (maxQ (map r_w t)) as [mx|] eqn:Emx; [|destruct t; [congruence|discriminate]].
  destruct (minQ (map r_w t)) as [mn|] eqn:Emn; [|destruct t; [congruence|discriminate]]. cbn [bindR].
  apply maxQ_spec in Emx. destruct Emx as [X1 X2]. apply minQ_spec in Emn. destruct Emn as [N1 N2].
  apply in_map_iff in X1. destruct X1 as [xm [Exm Xin]]. apply in_map_iff in N1. destruct N1 as [xn [Exn Nin]].
  assert (HX : forall x, In x t -> (r_w x <= mx)%Q) by (intros; apply X2; now apply in_map).
  assert (HN : forall x, In x t -> (mn <= r_w x)%Q) by (intros; apply N2; now apply in_map).
  destruct (Qltb mn (mx * ratio)) eqn:E.
  - apply Qltb_iff in E. eexists; split; [reflexivity|]. cbv beta iota. split; [|now rewrite !map_length].
    split.
    + intros Hl. exfalso. specialize (Hl xn xm Nin Xin). rewrite Exn, Exm in Hl. apply Qle_not_lt in Hl. contradiction.
    + intros _. exists (fun x => Qltb (mx * ratio) (r_w x)). split.
      * rewrite map_map. apply keep_filter.
      * intros x Hx. rewrite Qltb_iff. split.
        -- intros Hlt y Hy. apply Qle_lt_trans with (mx * ratio)%Q; [|exact Hlt].
           apply Qmult_le_compat_r; auto.
        -- intros Ha. rewrite <- Exm. apply Ha. exact Xin.
  - exists None. split; [reflexivity|]. split; [|exact I]. split; [reflexivity|].
    intros Hl. exfalso. apply Hl. intros x y Hx Hy.
    assert (Hle : (mx * ratio <= mn)%Q).
    { apply Qnot_lt_le. intros C. apply Qltb_iff in C. congruence. }
    apply Qle_trans with (mx * ratio)%Q; [apply Qmult_le_compat_r; auto|].
    apply Qle_trans with mn; auto.
Qed.

Lemma minratio_rows {R} (s : wsam R) h t ratio : rows h s t -> t <> [] -> (0 <= ratio)%Q ->
  exists s' t', setMinWeightRatio_with (fun x => x) ws_filter s ratio = Ok s' /\ rows h s' t' /\
    cut_of ratio t t' /\ subseq t' t /\ mwr s' = mwr s /\ ((s' = s /\ t' = t) \/ fresh s' t').
Proof.
  intros Hrow Hne Hr. pose proof Hrow as [H1 [H2 [H3 H4]]]. unfold setMinWeightRatio_with. rewrite H2.
  assert (E : Qle_bool 0 ratio = true) by now apply Qle_bool_iff. rewrite E.
  destruct (ratio_mask_spec t ratio Hne Hr) as [m [Em [Hcut Hl]]]. rewrite Em. cbn [bindR].
  destruct m as [m|].
  - pose proof (filter_rows s h t (Mask m) Hrow) as F. cbn [take] in F.
    rewrite Hl, Nat.eqb_refl in F. destruct F as [s' [F1 [F2 [F3 F4]]]].
    exists s', (keep m t). split; [exact F1|split; [exact F2|split; [exact Hcut|split; [apply keep_subseq|auto]]]].
  - exists s, t. split; [reflexivity|split; [exact Hrow|split; [exact Hcut|split; [apply subseq_refl|auto]]]].
Qed.

Lemma weightsChanged_rows {R} (s : wsam R) h t : rows h s t ->
  rows h (weightsChanged s) t /\ fresh (weightsChanged s) t /\ mwr (weightsChanged s) = mwr s.
Proof.
  intros [H1 [H2 [H3 H4]]]. unfold weightsChanged, rows, fresh. rewrite H2. cbn.
  repeat split; auto; reflexivity.
Qed.

Lemma setSamples_rows {R} (s : wsam R) (h : bool) (t : list (row3 R)) ratio :
  let r := match ratio with Some r => r | None => mwr s end in
  t <> [] \/ Qle_bool 0 r = false ->
  exists s' t', ws_setSamples s (map r_s t) (Some (map r_w t)) (if h then Some (map r_l t) else None) ratio = Ok s' /\
    rows h s' t' /\ fresh s' t' /\ mwr s' = mwr s /\ subseq t' t /\
    (if Qle_bool 0 r then cut_of r t t' else t' = t).
Proof.
  intros r Hne. unfold ws_setSamples. fold r.
  set (s1 := mkW R _ _ _ _ _ _ _ _).
  assert (Hrow : rows h s1 t) by (unfold rows, s1; cbn; rewrite map_length; repeat split).
  destruct (Qle_bool 0 r) eqn:E.
  - destruct (minratio_rows s1 h t r Hrow) as [s' [t' [M1 [M2 [M3 [M4 [M5 _]]]]]]].
    { destruct Hne; [auto|discriminate]. } { now apply Qle_bool_iff. }
    rewrite M1. cbn [bindR]. destruct (weightsChanged_rows s' h t' M2) as [W1 [W2 W3]].
    exists (weightsChanged s'), t'. split; [reflexivity|]. split; [exact W1|split; [exact W2|]].
    split; [rewrite W3, M5; reflexivity|auto].
  - cbn [bindR]. destruct (weightsChanged_rows s1 h t Hrow) as [W1 [W2 W3]].
    exists (weightsChanged s1), t. split; [reflexivity|]. split; [exact W1|split; [exact W2|]].
    split; [rewrite W3; reflexivity|split; [apply subseq_refl|reflexivity]].
Qed.

Lemma setSamples_empty {R} (s : wsam R) (h : bool) ratio e :
  let r := match ratio with Some r => r | None => mwr s end in
  Qle_bool 0 r = true -> e = ValueError ->
  ws_setSamples s [] (Some []) (if h then Some [] else None) ratio = Err e.
Proof.
  intros r Hr ->. unfold ws_setSamples. fold r. rewrite Hr. unfold setMinWeightRatio_with. cbn [weights].
  rewrite Hr. reflexivity.
Qed.

(** burn-in removal *)
Lemma trunc_bounds q : (0 <= q)%Q -> (0 <= trunc q)%Z /\ (inject_Z (trunc q) <= q)%Q /\ (q < inject_Z (trunc q) + 1)%Q.
Proof.
  destruct q as [a b]. unfold trunc, Qle, Qlt, Qplus, inject_Z; cbn [Qnum Qden]. intros H.
  assert (Ha : (0 <= a)%Z) by lia.
  rewrite Z.quot_div_nonneg by lia.
  pose proof (Z.div_mod a (Zpos b) ltac:(lia)). pose proof (Z.mod_pos_bound a (Zpos b) ltac:(lia)).
  assert (0 <= a / Zpos b)%Z by (apply Z.div_pos; lia).
  repeat split; nia.
Qed.
Lemma half_even_bounds q : let z := round_half_even q in
  (q - (1 # 2) <= inject_Z z)%Q /\ (inject_Z z <= q + (1 # 2))%Q /\
  ((q - (1 # 2) == inject_Z z)%Q \/ (inject_Z z == q + (1 # 2))%Q -> Z.even z = true).
Proof.
  unfold round_half_even. pose proof (Qfloor_le q) as F1. pose proof (Qlt_floor q) as F2. set (f := Qfloor q) in *.
  rewrite inject_Z_plus in F2. change (inject_Z 1) with 1%Q in F2.
  destruct (Qltb (q - inject_Z f) (1 # 2)) eqn:E1.
  - apply Qltb_iff in E1. split; [lra|split; [lra|]]. intros [H|H]; exfalso; lra.
  - assert (E1' : (1 # 2 <= q - inject_Z f)%Q) by (apply Qnot_lt_le; intros H; apply Qltb_iff in H; congruence).
    destruct (Qltb (1 # 2) (q - inject_Z f)) eqn:E2.
    + apply Qltb_iff in E2. rewrite inject_Z_plus. change (inject_Z 1) with 1%Q. split; [lra|split; [lra|]]. intros [H|H]; exfalso; lra.
    + assert (E2' : (q - inject_Z f <= 1 # 2)%Q) by (apply Qnot_lt_le; intros H; apply Qltb_iff in H; congruence).
      destruct (Z.even f) eqn:Ev.
      * split; [lra|split; [lra|]]. auto.
      * rewrite inject_Z_plus. change (inject_Z 1) with 1%Q. split; [lra|split; [lra|]]. intros _. rewrite Z.add_1_r, Z.even_succ, <- Z.negb_even, Ev. reflexivity.
Qed.
Lemma even_of_nat k : Z.even (Z.of_nat k) = Nat.even k.
Proof.
  induction k as [|k IH]; [reflexivity|]. rewrite Nat2Z.inj_succ, Z.even_succ, Nat.even_succ, <- Z.negb_even, <- Nat.negb_even, IH. reflexivity.
Qed.
Lemma burn_rows_count n q : (0 <= q)%Q ->
  let k := inject_Z (Z.of_nat (burn_rows n q)) in
  ((1 <= q)%Q -> (k <= q)%Q /\ (q < k + 1)%Q) /\
  ((q < 1)%Q -> let x := (inject_Z (Z.of_nat n) * q)%Q in
     (x - (1 # 2) <= k)%Q /\ (k <= x + (1 # 2))%Q /\
     ((x - (1 # 2) == k)%Q \/ (k == x + (1 # 2))%Q -> Nat.even (burn_rows n q) = true)).
Proof.
  intros Hq k. subst k. unfold burn_rows. split; intros H.
  - rewrite (proj2 (Qle_bool_iff 1 q) H). destruct (trunc_bounds q Hq) as [T1 T2]. rewrite Z2Nat.id by exact T1. exact T2.
  - destruct (Qle_bool 1 q) eqn:E; [apply Qle_bool_iff in E; lra|]. cbv zeta.
    set (x := (inject_Z (Z.of_nat n) * q)%Q).
    assert (Hx : (0 <= x)%Q).
    { unfold x. apply Qmult_le_0_compat; [|exact Hq]. replace 0%Q with (inject_Z 0) by reflexivity. rewrite <- Zle_Qle. lia. }
    destruct (half_even_bounds x) as [B1 [B2 B3]].
    assert (Hz : (0 <= round_half_even x)%Z).
    { destruct (Z_lt_le_dec (round_half_even x) 0) as [Hn|]; [|assumption]. exfalso.
      assert (H1 : (inject_Z (round_half_even x) <= inject_Z (-1))%Q) by (rewrite <- Zle_Qle; lia).
      replace (inject_Z (-1)) with (-1)%Q in H1 by reflexivity. lra. }
    rewrite <- even_of_nat, Z2Nat.id by exact Hz. auto.
Qed.

Lemma burn_rows_spec {R} (s : wsam R) h t q : rows h s t -> (0 <= mwr s)%Q ->
  let k := burn_rows (length t) q in
  (k < length t -> exists s' t', ws_removeBurn s q = Ok s' /\ rows h s' t' /\ fresh s' t' /\ mwr s' = mwr s /\
     subseq t' (skipn k t) /\ cut_of (mwr s) (skipn k t) t') /\
  (length t <= k -> ws_removeBurn s q = Err ValueError).
Proof.
  intros [H1 [H2 [H3 H4]]] Hr k. unfold ws_removeBurn. rewrite H1, H2, H3, H4. fold k. cbn [option_map].
  rewrite !skipn_map. apply Qle_bool_iff in Hr.
  assert (Eh : option_map (skipn k) (if h then Some (map r_l t) else None) = if h then Some (map r_l (skipn k t)) else None).
  { destruct h; cbn; [now rewrite skipn_map|reflexivity]. }
  rewrite Eh. split; intros Hk.
  - destruct (setSamples_rows s h (skipn k t) None) as [s' [t' [S1 [S2 [S3 [S4 [S5 S6]]]]]]].
    { left. intros C. apply (f_equal (@length _)) in C. rewrite skipn_length in C. cbn in C. lia. }
    cbv zeta in S6. rewrite Hr in S6.
    exists s', t'. repeat split; auto; try apply S2; try apply S3; try apply S6.
  - rewrite skipn_all2 by lia. cbn [map]. now apply setSamples_empty.
Qed.

(** thinning *)
Lemma thin_rows {R} (s : wsam R) h t f s' : rows h s t -> ws_thin s f = Ok s' ->
  exists ix t0, thin_indices_single_samples f (map r_w t) = Ok ix /\ take (Index ix) t = Ok t0 /\
    rows h s' (map (fun x => mkR (r_s x) 1%Q (r_l x)) t0) /\ cached s' = false /\ mwr s' = mwr s.
Proof.
  intros [H1 [H2 [H3 H4]]] H. unfold ws_thin in H. rewrite H1, H2 in H.
  destruct (thin_indices_single_samples f (map r_w t)) as [ix|] eqn:E; [|discriminate]. cbn [bindR] in H.
  destruct (take (Index ix) (map r_s t)) as [sm'|] eqn:E2; [|discriminate].
  apply take_map_inv in E2. destruct E2 as [t0 [E2 ->]]. cbn [bindR] in H.
  exists ix, t0. split; [reflexivity|split; [exact E2|]].
  rewrite H3 in H.
  assert (Hones : forall l : list (row3 R), repeat 1%Q (length l) = map r_w (map (fun x => mkR (r_s x) 1%Q (r_l x)) l)).
  { induction l; cbn; [auto|now f_equal]. }
  assert (Hss : forall l : list (row3 R), map r_s (map (fun x => mkR (r_s x) 1%Q (r_l x)) l) = map r_s l).
  { intros l. rewrite map_map. reflexivity. }
  assert (Hll : forall l : list (row3 R), map r_l (map (fun x => mkR (r_s x) 1%Q (r_l x)) l) = map r_l l).
  { intros l. rewrite map_map. reflexivity. }
  destruct h; cbn [take_opt] in H.
  - rewrite (take_map _ _ _ _ E2) in H. cbn [bindR] in H. injection H as <-.
    unfold rows, setSamples_raw, weightsChanged. cbn. rewrite !map_length, Hones, Hss, Hll. auto.
  - cbn [bindR] in H. injection H as <-.
    unfold rows, setSamples_raw, weightsChanged. cbn. rewrite !map_length, Hones, Hss. auto.
Qed.

Lemma wthin_rows {R} (s : wsam R) h t f s' : rows h s t -> ws_weighted_thin s f = Ok s' ->
  exists p t0, thin_indices_and_weights f (map r_w t) = Ok p /\ take (Index (map fst p)) t = Ok t0 /\
    rows h s' (map (fun xc => mkR (r_s (fst xc)) (inject_Z (Z.of_nat (snd xc))) (r_l (fst xc))) (combine t0 (map snd p))) /\
    length t0 = length p /\
    cached s' = false /\ mwr s' = mwr s.
Proof.
  intros [H1 [H2 [H3 H4]]] H. unfold ws_weighted_thin in H. rewrite H1, H2 in H.
  destruct (thin_indices_and_weights f (map r_w t)) as [p|] eqn:E; [|discriminate]. cbn [bindR] in H.
  destruct (take (Index (map fst p)) (map r_s t)) as [sm'|] eqn:E2; [|discriminate].
  apply take_map_inv in E2. destruct E2 as [t0 [E2 ->]]. cbn [bindR] in H.
  exists p, t0. split; [reflexivity|split; [exact E2|]].
  assert (Hlen : length t0 = length p).
  { clear - E2. cbn in E2. revert t0 E2. induction p as [|q p IH]; intros t0 E2; cbn in *; [injection E2 as <-; auto|].
    destruct (nth_error t (fst q)); [|discriminate]. destruct (mapR _ (map fst p)) eqn:E; [|discriminate].
    injection E2 as <-. cbn. now rewrite (IH _ eq_refl). }
  rewrite H3 in H.
  assert (Hww : forall (l : list (row3 R)) c, length l = length c ->
     map (fun c : nat * nat => inject_Z (Z.of_nat (snd c))) c =
     map r_w (map (fun xc => mkR (r_s (fst xc)) (inject_Z (Z.of_nat (snd xc))) (r_l (fst xc))) (combine l (map snd c)))).
  { induction l as [|x l IH]; intros [|y c] Hc; cbn in *; try discriminate; [auto|]. f_equal. apply IH. lia. }
  assert (Hss : forall (l : list (row3 R)) (c : list (nat * nat)), length l = length c ->
     map r_s (map (fun xc => mkR (r_s (fst xc)) (inject_Z (Z.of_nat (snd xc))) (r_l (fst xc))) (combine l (map snd c))) = map r_s l).
  { induction l as [|x l IH]; intros [|y c] Hc; cbn in *; try discriminate; [auto|]. f_equal. apply IH. lia. }
  assert (Hll : forall (l : list (row3 R)) (c : list (nat * nat)), length l = length c ->
     map r_l (map (fun xc => mkR (r_s (fst xc)) (inject_Z (Z.of_nat (snd xc))) (r_l (fst xc))) (combine l (map snd c))) = map r_l l).
  { induction l as [|x l IH]; intros [|y c] Hc; cbn in *; try discriminate; [auto|]. f_equal. apply IH. lia. }
  assert (Hcl : length (combine t0 (map snd p)) = length t0) by (rewrite combine_length, map_length, Hlen; lia).
  destruct h; cbn [take_opt] in H.
  - rewrite (take_map _ _ _ _ E2) in H. cbn [bindR] in H. injection H as <-.
    unfold rows, setSamples_raw, weightsChanged. cbn.
    rewrite !map_length, Hss, Hll, Hcl, <- (Hww t0) by auto. auto 10.
  - cbn [bindR] in H. injection H as <-.
    unfold rows, setSamples_raw, weightsChanged. cbn.
    rewrite !map_length, Hss, Hcl, <- (Hww t0) by auto. auto 10.
Qed.

(** any sequence of operations *)
Definition rl {R} (x : row3 R) := (r_s x, r_l x).

Lemma op_rows {R} (s : wsam R) h t o s' : rows h s t -> (0 <= mwr s)%Q -> do_op s o = Ok s' ->
  exists t', rows h s' t' /\ mwr s' = mwr s /\ incl (map rl t') (map rl t) /\
             (keeps_order o = true -> subseq t' t).
Proof.
  intros Hrow Hr H. destruct o as [w|f|f|q|q]; cbn [do_op] in H.
  - pose proof (filter_rows s h t w Hrow) as F. destruct (take w t) as [t'|e] eqn:E.
    + destruct F as [s2 [F1 [F2 [F3 F4]]]]. rewrite F1 in H. injection H as <-.
      exists t'. split; [exact F2|split; [exact F4|split]].
      * apply incl_map. now apply take_In with w.
      * destruct w as [m|ix]; cbn; [|discriminate]. intros _. cbn in E.
        destruct (length m =? length t); [|discriminate]. injection E as <-. apply keep_subseq.
    + destruct F as [e' F]. congruence.
  - destruct (thin_rows s h t f s' Hrow H) as [ix [t0 [_ [T2 [T3 [_ T5]]]]]].
    eexists; split; [exact T3|split; [exact T5|split; [|discriminate]]].
    rewrite map_map. apply incl_map with (f := rl). now apply take_In with (Index ix).
  - destruct (wthin_rows s h t f s' Hrow H) as [p [t0 [_ [T2 [T3 [_ [_ T5]]]]]]].
    eexists; split; [exact T3|split; [exact T5|split; [|discriminate]]].
    rewrite map_map. intros y Hy. apply in_map_iff in Hy. destruct Hy as [[x c] [<- Hx]].
    apply in_combine_l in Hx. apply in_map_iff. exists x. split; [reflexivity|].
    apply (take_In _ _ _ T2). exact Hx.
  - destruct (burn_rows_spec s h t q Hrow Hr) as [B1 B2].
    destruct (Nat.lt_ge_cases (burn_rows (length t) q) (length t)) as [Hk|Hk].
    + destruct (B1 Hk) as [s2 [t' [S1 [S2 [S3 [S4 [S5 S6]]]]]]]. rewrite S1 in H. injection H as <-.
      assert (Hsub : subseq t' t) by (eapply subseq_trans; [apply skipn_subseq|exact S5]).
      exists t'. split; [exact S2|split; [exact S4|split; [|auto]]]. apply incl_map. now apply subseq_incl.
    + rewrite (B2 Hk) in H. discriminate.
  - destruct (Qle_bool 0 q) eqn:Eq.
    + destruct t as [|x t].
      * exfalso. unfold setMinWeightRatio_with in H. destruct Hrow as [_ [Hw _]]. rewrite Hw, Eq in H. discriminate.
      * destruct (minratio_rows s h (x :: t) q Hrow) as [s2 [t' [M1 [M2 [M3 [M4 [M5 _]]]]]]];
          [discriminate|now apply Qle_bool_iff|].
        rewrite M1 in H. injection H as <-.
        exists t'. split; [exact M2|split; [exact M5|split; [|auto]]]. apply incl_map. now apply subseq_incl.
    + unfold setMinWeightRatio_with in H. rewrite Eq in H.
      assert (s' = s) by (destruct (weights s); congruence). subst s'.
      exists t. split; [exact Hrow|split; [reflexivity|split; [apply incl_refl|intros; apply subseq_refl]]].
Qed.

Lemma ops_rows {R} l : forall (s : wsam R) h t s', rows h s t -> (0 <= mwr s)%Q -> do_ops s l = Ok s' ->
  exists t', rows h s' t' /\ incl (map rl t') (map rl t) /\
             (forallb keeps_order l = true -> subseq t' t).
Proof.
  induction l as [|o l IH]; cbn; intros s h t s' Hrow Hr H.
  - injection H as <-. exists t. split; [exact Hrow|split; [apply incl_refl|intros; apply subseq_refl]].
  - destruct (do_op s o) as [s1|] eqn:E; [|discriminate]. cbn [bindR] in H.
    destruct (op_rows s h t o s1 Hrow Hr E) as [t1 [R1 [R2 [R3 R4]]]].
    rewrite <- R2 in Hr. destruct (IH s1 h t1 s' R1 Hr H) as [t2 [I1 [I2 I3]]].
    exists t2. split; [exact I1|split; [eapply incl_tran; eauto|]].
    intros Hk. apply andb_true_iff in Hk. destruct Hk. eapply subseq_trans; eauto.
Qed.

Lemma reweight_rows {R} (s : wsam R) h t fs upd : rows h s t -> length fs = length t ->
  (forall l, length (upd l) = length l) ->
  exists s', ws_reweight s fs upd = Ok s' /\ fresh s' (map (fun p => mkR (r_s (fst p)) (r_w (fst p) * snd p)%Q (r_l (fst p))) (combine t fs)) /\
    samples s' = Some (map r_s t) /\ weights s' = Some (map (fun p => r_w (fst p) * snd p)%Q (combine t fs)) /\
    loglikes s' = (if h then Some (upd (map r_l t)) else None).
Proof.
  intros [H1 [H2 [H3 H4]]] Hl Hu. unfold ws_reweight. rewrite H2, map_length, Hl, Nat.eqb_refl.
  eexists; split; [reflexivity|]. unfold weightsChanged, fresh. cbn. rewrite H1, H3.
  assert (E : map (fun p : Q * Q => (fst p * snd p)%Q) (combine (map r_w t) fs)
              = map (fun p : row3 R * Q => (r_w (fst p) * snd p)%Q) (combine t fs)).
  { clear. revert fs. induction t as [|x t IH]; intros [|y fs]; cbn; auto. now rewrite IH. }
  rewrite E. repeat split; auto; [|now destruct h]. rewrite map_map. reflexivity.
Qed.
