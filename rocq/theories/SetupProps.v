(** C108 and C109: the covariance matrix for proposals, ranges and start points of parameters (source/BaseParameters.f90, source/IO.f90) *)
From Coq Require Import Reals String Ascii Bool Arith Lia Lra List Sorted.
From Verif Require Import PyStr NamesModel NamesSpec NamesProofs NamesProofs2 NamesProofs3 McmcModel LikeModel PsetProofs SetupModel SetupSpec SetupProofs NamesProps.
Import ListNotations.
Local Open Scope R_scope.

(** ** C108 *)
(** A file with names: elements go with the names, whatever their order; names that are not used and derived parameters are left out.
    Partial: no two names in the file are the same, and no name is a number *)
Theorem C108_names_partial : forall sep l np nt comment ws rows,
  sep blank = true -> sep tab = true -> ordered l -> NoDup (names_of l) -> np = num_MCMC l ->
  ws <> [] -> NoDup ws -> Forall (good_word sep) ws -> Forall (fun w => forallb digit w = false) ws -> spaced ws comment -> (length ws <= 1024)%nat ->
  (length ws <= length rows)%nat -> Forall (fun r => (length ws <= length r)%nat) (firstn (length ws) rows) ->
  exists m, ReadProposeMatrix sep l np nt comment rows = Some m /\
    forall i j p q, nth_error l i = Some p -> der p = false -> nth_error l j = Some q -> der q = false ->
      (forall x y, nth_error ws x = Some (nm p) -> nth_error ws y = Some (nm q) -> m i j = file_matrix rows x y) /\
      (~ In (nm p) ws \/ ~ In (nm q) ws -> m i j = 0).
Proof.
  intros sep l np nt comment ws rows S1 S2 Od ND -> NE NW GW DW SP L1 L2 FR.
  destruct rows as [| r0 rows0]; [destruct ws; [congruence | cbn in L2; lia] |]. set (rows := r0 :: rows0) in *.
  assert (NC : comment <> []).
  { intro E. destruct SP as [s F | gap w rest ws F Hr H]; [congruence |]. apply app_eq_nil in E. destruct E as [_ E]. apply app_eq_nil in E. destruct E as [E _].
    apply Forall_inv in GW. destruct GW as [(N & _) _]. congruence. }
  assert (RI : ReadIndices sep l comment None (Some (Some O)) true = Some (map (code l) ws, Some (length ws))).
  { rewrite (C107_words_partial sep l (Some (Some O)) true ws (map (fun w => [code l w]) ws) comment S1 S2 ND (fun _ => Od) GW); try assumption.
    - assert (EC : concat (map (fun w => [code l w]) ws) = map (code l) ws) by (clear; induction ws; cbn; congruence). rewrite EC.
      destruct ws as [| w ws]; [congruence |]. cbn [map length]. now rewrite map_length.
    - clear - Od ND DW. induction DW as [| w ws D _ IH]; constructor; [now apply code_means | exact IH]. }
  destruct (read_rows_ok (length ws) (length ws) rows L2 FR) as [rs ER].
  exists (scatter (map (code l) ws) rs). split.
  - unfold ReadProposeMatrix. unfold rows at 1. destruct comment as [| c comment]; [congruence |]. rewrite RI, ER.
    assert (FB : forallb (fun v => (v <=? num_MCMC l)%nat) (map (code l) ws) = true).
    { apply forallb_forall. intros v I. apply in_map_iff in I. destruct I as (w & <- & _). apply Nat.leb_le, code_le. }
    now rewrite FB.
  - intros i j p q Ep Dp Eq Dq.
    assert (U : forall k t x x', nth_error l k = Some t -> der t = false -> nth x (map (code l) ws) O = S k -> nth x' (map (code l) ws) O = S k -> x = x').
    { intros k t x x' Et Dt E1 E2. apply code_nth in E1, E2. destruct E1 as (w1 & E1 & C1), E2 as (w2 & E2 & C2).
      apply (code_base l k t Od ND Et Dt) in C1, C2. subst w1 w2. rewrite NoDup_nth_error in NW. apply NW; [apply nth_error_Some; congruence | congruence]. }
    assert (H : forall k t x, nth_error l k = Some t -> der t = false -> nth_error ws x = Some (nm t) -> nth x (map (code l) ws) O = S k).
    { intros k t x Et Dt Ex. apply nth_error_nth. rewrite nth_error_map, Ex. cbn. f_equal. now apply (code_base l k t Od ND Et Dt). }
    split.
    + intros x y Ex Ey. rewrite (scatter_hit _ rs i j x y).
      * apply (read_rows_at _ _ rows rs ER); apply nth_error_Some; congruence.
      * intros x' E'. apply (U i p x' x Ep Dp E'). now apply (H i p).
      * intros y' E'. apply (U j q y' y Eq Dq E'). now apply (H j q).
      * now apply (H i p).
      * now apply (H j q).
    + intros M. apply scatter_miss.
      * intros x E1 x' E2. now apply (U i p x' x Ep Dp).
      * intros x E1 x' E2. now apply (U j q x' x Eq Dq).
      * destruct M as [M | M]; [left | right]; intros x E; apply M; apply code_nth in E; destruct E as (w & E & C).
        -- apply (code_base l i p Od ND Ep Dp) in C. subst w. now apply nth_error_In in E.
        -- apply (code_base l j q Od ND Eq Dq) in C. subst w. now apply nth_error_In in E.
Qed.
(** The matrix over the varied parameters *)
Theorem C108_matrix : forall np varying PWidth used m, Forall (fun i => (i < np)%nat /\ varying i = true) used ->
  let r := ReadSetCovMatrix np varying PWidth used (Some m) in
  (forall a b i j, nth_error used a = Some i -> nth_error used b = Some j ->
     (i = j /\ m i i = 0 -> fst r a b = PWidth i * PWidth i) /\ (i <> j \/ m i i <> 0 -> fst r a b = m i j)) /\
  (snd r = true <-> exists i, (i < np)%nat /\ varying i = true /\ m i i = 0).
Proof.
  intros np varying PWidth used m F. unfold ReadSetCovMatrix. destruct (cov_fold varying PWidth m np) as [H1 H2].
  destruct (fold_left (cov_step varying PWidth) (seq 0 np) (m, false)) as [m' new]. cbn [fst snd] in *. split.
  - intros a b i j Ea Eb. rewrite (nth_error_nth _ _ O Ea), (nth_error_nth _ _ O Eb), H1. rewrite Forall_forall in F.
    destruct (F i (nth_error_In _ _ Ea)) as [Li Vi]. destruct (F j (nth_error_In _ _ Eb)) as [Lj Vj]. rewrite Vi, Vj. cbn [negb]. rewrite !andb_false_r. cbn [orb].
    apply Nat.ltb_lt in Li. rewrite Li, andb_true_r. split.
    + intros [-> Z]. apply Reqb_spec in Z. now rewrite Nat.eqb_refl, Z.
    + intros [N | N].
      * apply Nat.eqb_neq in N. now rewrite N.
      * destruct (Reqb (m i i) 0) eqn:Z; [apply Reqb_spec in Z; contradiction |]. now rewrite andb_false_r.
  - rewrite H2, existsb_exists. split.
    + intros (i & I & E). apply in_seq in I. apply andb_true_iff in E. destruct E as [E1 E2]. apply Reqb_spec in E2. exists i. repeat split; try assumption. lia.
    + intros (i & L & V & Z). exists i. split; [apply in_seq; lia |]. rewrite V. now apply Reqb_spec.
Qed.
(** The place of a word *)
Fixpoint place (w : str) (ws : list str) : option nat :=
  match ws with [] => None | v :: ws' => if str_eqb v w then Some O else option_map S (place w ws') end.
Lemma place_at w ws : match place w ws with Some x => nth_error ws x = Some w | None => ~ In w ws end.
Proof.
  induction ws as [| v ws IH]; cbn; [tauto |]. destruct (str_eqb v w) eqn:E.
  - apply str_eqb_true in E. now subst.
  - assert (v <> w) by (intro X; apply str_eqb_true in X; congruence). destruct (place w ws); cbn; [exact IH | tauto].
Qed.
(** A proper covariance matrix in the file gives a proper one for the parameters that are varied *)
Theorem C108_definite_partial : forall sep l np nt comment ws rows varying PWidth used,
  sep blank = true -> sep tab = true -> ordered l -> NoDup (names_of l) -> np = num_MCMC l ->
  ws <> [] -> NoDup ws -> Forall (good_word sep) ws -> Forall (fun w => forallb digit w = false) ws -> spaced ws comment -> (length ws <= 1024)%nat ->
  (length ws <= length rows)%nat -> Forall (fun r => (length ws <= length r)%nat) (firstn (length ws) rows) ->
  NoDup used -> Forall (fun i => (i < np)%nat /\ varying i = true) used -> (forall i, varying i = true -> PWidth i <> 0) ->
  exists m, ReadProposeMatrix sep l np nt comment rows = Some m /\
    (semidefinite (length ws) (file_matrix rows) -> semidefinite (length used) (fst (ReadSetCovMatrix np varying PWidth used (Some m)))) /\
    (definite (length ws) (file_matrix rows) -> definite (length used) (fst (ReadSetCovMatrix np varying PWidth used (Some m)))).
Proof.
  intros sep l np nt comment ws rows varying PWidth used S1 S2 Od ND ENP NE NW GW DW SP L1 L2 FR NU FU PW.
  destruct (C108_names_partial sep l np nt comment ws rows S1 S2 Od ND ENP NE NW GW DW SP L1 L2 FR) as (m & EM & HM). exists m. split; [exact EM |].
  destruct (C108_matrix np varying PWidth used m FU) as [HR _]. set (res := fst (ReadSetCovMatrix np varying PWidth used (Some m))) in *.
  assert (BASE : forall a i, nth_error used a = Some i -> exists p, nth_error l i = Some p /\ der p = false).
  { intros a i E. rewrite Forall_forall in FU. destruct (FU i (nth_error_In _ _ E)) as [Li _]. subst np.
    assert (LL : (num_MCMC l <= length l)%nat) by (unfold num_MCMC; lia).
    destruct (nth_error l i) as [p |] eqn:Ep; [| apply nth_error_None in Ep; lia]. exists p. split; [reflexivity |].
    rewrite <- (ordered_base l i p Od Ep). apply Nat.leb_gt. exact Li. }
  set (px := fun a => match nth_error used a with Some i => match nth_error l i with Some p => place (nm p) ws | None => None end | None => None end).
  set (d := fun a => match nth_error used a with Some i => if Reqb (m i i) 0 then PWidth i * PWidth i else 0 | None => 1 end).
  assert (Inj : forall a b x, px a = Some x -> px b = Some x -> a = b).
  { intros a b x Ha Hb. unfold px in *. destruct (nth_error used a) as [i |] eqn:Ea; [| discriminate]. destruct (nth_error used b) as [j |] eqn:Eb; [| discriminate].
    destruct (nth_error l i) as [p |] eqn:Ep; [| discriminate]. destruct (nth_error l j) as [q |] eqn:Eq; [| discriminate].
    pose proof (place_at (nm p) ws) as Pp. rewrite Ha in Pp. pose proof (place_at (nm q) ws) as Pq. rewrite Hb in Pq.
    assert (EN : nm p = nm q) by congruence.
    assert (i = j) as ->. { rewrite NoDup_nth_error in ND. apply ND; [unfold names_of; rewrite map_length; apply nth_error_Some; congruence |].
      unfold names_of. rewrite !nth_error_map, Ep, Eq. cbn. now rewrite EN. }
    rewrite NoDup_nth_error in NU. apply NU; [apply nth_error_Some; congruence | congruence]. }
  assert (Bd : forall a x, px a = Some x -> (x < length ws)%nat).
  { intros a x Ha. unfold px in Ha. destruct (nth_error used a) as [i |]; [| discriminate]. destruct (nth_error l i) as [p |]; [| discriminate].
    pose proof (place_at (nm p) ws) as Pp. rewrite Ha in Pp. apply nth_error_Some. congruence. }
  assert (Dp : forall a, 0 <= d a).
  { intro a. unfold d. destruct (nth_error used a) as [i |]; [| lra]. destruct (Reqb (m i i) 0); [apply Rle_0_sqr | lra]. }
  assert (Dn : forall a, px a = None -> d a <> 0).
  { intros a Ha. unfold px, d in *. destruct (nth_error used a) as [i |] eqn:Ea; [| lra]. destruct (BASE a i Ea) as (p & Ep & Db). rewrite Ep in Ha.
    pose proof (place_at (nm p) ws) as Pp. rewrite Ha in Pp. destruct (HM i i p p Ep Db Ep Db) as [_ Z]. rewrite (Z (or_introl Pp)).
    replace (Reqb 0 0) with true by (symmetry; now apply Reqb_spec). rewrite Forall_forall in FU. destruct (FU i (nth_error_In _ _ Ea)) as [_ V].
    intro E. apply Rmult_integral in E. destruct E; now apply (PW i V). }
  assert (EQ : forall a b, (a < length used)%nat -> (b < length used)%nat ->
    res a b = pulled px (file_matrix rows) a b + (if (a =? b)%nat then d a else 0)).
  { intros a b La Lb. destruct (nth_error used a) as [i |] eqn:Ea; [| apply nth_error_None in Ea; lia]. destruct (nth_error used b) as [j |] eqn:Eb; [| apply nth_error_None in Eb; lia].
    destruct (BASE a i Ea) as (p & Ep & Dbp). destruct (BASE b j Eb) as (q & Eq & Dbq). destruct (HR a b i j Ea Eb) as [R1 R2].
    assert (MP : m i j = pulled px (file_matrix rows) a b).
    { unfold pulled, px. rewrite Ea, Eb, Ep, Eq. pose proof (place_at (nm p) ws) as Pp. pose proof (place_at (nm q) ws) as Pq. destruct (HM i j p q Ep Dbp Eq Dbq) as [M1 M2].
      destruct (place (nm p) ws) as [x |]; [| apply M2; now left]. destruct (place (nm q) ws) as [y |]; [now apply M1 | apply M2; now right]. }
    destruct (Nat.eqb_spec a b) as [-> | Nab].
    - assert (j = i) as -> by congruence. unfold d. rewrite Ea. destruct (Reqb (m i i) 0) eqn:Z.
      + apply Reqb_spec in Z. rewrite (R1 (conj eq_refl Z)), <- MP, Z. ring.
      + assert (N : m i i <> 0) by (intro X; apply Reqb_spec in X; congruence). rewrite (R2 (or_intror N)), <- MP. ring.
    - rewrite R2, MP; [ring |]. left. intros ->. apply Nab. rewrite NoDup_nth_error in NU. apply NU; [exact La | congruence]. }
  assert (FE : forall v, vector (length used) v -> form res v = form (fun a b => pulled px (file_matrix rows) a b + (if (a =? b)%nat then d a else 0)) v).
  { intros v [_ V]. unfold form. apply form2_ext. intros p q Ip Iq. apply EQ; apply V; now apply in_map. }
  destruct (pulled_definite px (file_matrix rows) d (length ws) Inj Bd Dp) as [PS PD]. split.
  - intros SD v V. rewrite (FE v V). exact (PS SD _ v V).
  - intros DD v V. rewrite (FE v V). exact (PD DD Dn _ v V).
Qed.
(** FINDING: a file with more names than max_num_params (250) is written over the end of cov_params (IO.f90 35, 43): ReadIndices reads
    up to 1024 words whatever the length of the array *)
Theorem C108_overflow_refuted : forall sep l w, sep blank = true -> sep tab = true -> NoDup (names_of l) -> ordered l -> good_word sep w -> forallb digit w = false ->
  exists v, ReadIndices sep l (concat (repeat (w ++ [blank]) 251)) None (Some (Some O)) true = Some (repeat v 251, Some 251%nat).
Proof.
  intros sep l w S1 S2 ND Od G D. exists (code l w).
  rewrite (C107_words_partial sep l (Some (Some O)) true (repeat w 251) (repeat [code l w] 251)); try assumption.
  - assert (E : forall n, concat (repeat [code l w] n) = repeat (code l w) n) by (induction n; cbn; congruence). rewrite E. cbn [repeat]. reflexivity.
  - intros _. exact Od.
  - apply Forall_forall. intros x I. apply repeat_spec in I. now subst.
  - assert (H : forall n, Forall2 (means l (Some (Some O)) true) (repeat w n) (repeat [code l w] n)); [| apply H].
    induction n as [| n IH]; constructor; [now apply code_means | exact IH].
  - assert (H : forall n, spaced (repeat w n) (concat (repeat (w ++ [blank]) n)) /\ spaced (repeat w n) (blank :: concat (repeat (w ++ [blank]) n))).
    { induction n as [| n [IH1 IH2]]; [split; constructor; repeat constructor |]. cbn [repeat concat]. rewrite <- !app_assoc. cbn [app]. split.
      - apply (spaced_word [] w (blank :: concat (repeat (w ++ [blank]) n))); [constructor | reflexivity | exact IH2].
      - apply (spaced_word [blank] w (blank :: concat (repeat (w ++ [blank]) n))); [repeat constructor | reflexivity | exact IH2]. }
    apply H.
  - rewrite repeat_length. apply Nat.leb_le. reflexivity.
Qed.
(** FINDING: without a line of names a matrix is taken by its size: the rows are used in the order of the parameters, and an element is
    read as row i, column j, whereas with names it is the transpose *)
Definition ex_l2 : list pn := [mkN (L "a") [] [] false; mkN (L "b") [] [] false].
Theorem C108_transpose_refuted : exists m m',
  ReadProposeMatrix sep_std ex_l2 2 2 (L "a b") [[1; 2]; [3; 4]] = Some m /\ m 0%nat 1%nat = 3 /\
  ReadProposeMatrix sep_std ex_l2 2 2 [] [[1; 2]; [3; 4]] = Some m' /\ m' 0%nat 1%nat = 2.
Proof. eexists. eexists. split; [reflexivity |]. split; [reflexivity |]. split; reflexivity. Qed.

Definition ex_lc : list pn := [mkN (L "a") [] [] false; mkN (L "b") [] [] false; mkN (L "c") [] [] false; mkN (L "D") [] [] true].
Definition ex_rows : list (list R) := [[2; 1; 0]; [1; 3; 0]; [0; 0; 1]].
Lemma ex_definite : definite 3 (file_matrix ex_rows).
Proof.
  (* the form is 2u^2 + 2uv + 3v^2 + w^2 *)
  assert (G : forall l, NoDup (map fst l) -> (forall i, In i (map fst l) -> (i < 3)%nat) ->
    let c k := fold_right Rplus 0 (map (fun q : nat * R => if (fst q =? k)%nat then snd q else 0) l) in
    form (file_matrix ex_rows) l = 2 * (c 0%nat * c 0%nat) + 2 * (c 0%nat * c 1%nat) + 3 * (c 1%nat * c 1%nat) + c 2%nat * c 2%nat).
  { intros l _ B c.
    assert (R1 : forall m (p : nat * R) k, (forall i, In i (map fst k) -> (i < 3)%nat) ->
      fold_right Rplus 0 (map (fun q : nat * R => snd p * snd q * m (fst p) (fst q)) k) =
      snd p * (m (fst p) 0%nat * fold_right Rplus 0 (map (fun q : nat * R => if (fst q =? 0)%nat then snd q else 0) k) +
               m (fst p) 1%nat * fold_right Rplus 0 (map (fun q : nat * R => if (fst q =? 1)%nat then snd q else 0) k) +
               m (fst p) 2%nat * fold_right Rplus 0 (map (fun q : nat * R => if (fst q =? 2)%nat then snd q else 0) k))).
    { intros m p k Bk. induction k as [| q k IH]; cbn [map fold_right]; [ring |]. rewrite IH by (intros i I; apply Bk; now right).
      assert (X : (fst q < 3)%nat) by (apply Bk; now left). destruct (fst q) as [| [| [| n]]]; cbn [Nat.eqb]; try ring. lia. }
    unfold form, form2. rewrite (sum_ext _ (fun p => snd p * (file_matrix ex_rows (fst p) 0%nat * c 0%nat + file_matrix ex_rows (fst p) 1%nat * c 1%nat + file_matrix ex_rows (fst p) 2%nat * c 2%nat))).
    2: { intros p _. now rewrite (R1 (file_matrix ex_rows)). }
    assert (R2 : forall (f : nat -> R) k, (forall i, In i (map fst k) -> (i < 3)%nat) ->
      fold_right Rplus 0 (map (fun p : nat * R => snd p * f (fst p)) k) =
      f 0%nat * fold_right Rplus 0 (map (fun q : nat * R => if (fst q =? 0)%nat then snd q else 0) k) +
      f 1%nat * fold_right Rplus 0 (map (fun q : nat * R => if (fst q =? 1)%nat then snd q else 0) k) +
      f 2%nat * fold_right Rplus 0 (map (fun q : nat * R => if (fst q =? 2)%nat then snd q else 0) k)).
    { intros f k Bk. induction k as [| q k IH]; cbn [map fold_right]; [ring |]. rewrite IH by (intros i I; apply Bk; now right).
      assert (X : (fst q < 3)%nat) by (apply Bk; now left). destruct (fst q) as [| [| [| n]]]; cbn [Nat.eqb]; try ring. lia. }
    rewrite (R2 (fun i => file_matrix ex_rows i 0%nat * c 0%nat + file_matrix ex_rows i 1%nat * c 1%nat + file_matrix ex_rows i 2%nat * c 2%nat) l B).
    fold (c 0%nat). fold (c 1%nat). fold (c 2%nat). unfold file_matrix, ex_rows. cbn [nth]. ring. }
  intros l [ND B]. pose proof (G l ND B) as E. cbv zeta in E. rewrite E.
  set (u := fold_right Rplus 0 (map (fun q : nat * R => if (fst q =? 0)%nat then snd q else 0) l)).
  set (v := fold_right Rplus 0 (map (fun q : nat * R => if (fst q =? 1)%nat then snd q else 0) l)).
  set (w := fold_right Rplus 0 (map (fun q : nat * R => if (fst q =? 2)%nat then snd q else 0) l)).
  assert (SQ : 2 * (u * u) + 2 * (u * v) + 3 * (v * v) + w * w = (u + v) * (u + v) + u * u + 2 * (v * v) + w * w) by ring. rewrite SQ.
  pose proof (Rle_0_sqr (u + v)). pose proof (Rle_0_sqr u). pose proof (Rle_0_sqr v). pose proof (Rle_0_sqr w). unfold Rsqr in *. split; [lra |].
  intros Z q I.
  assert (C : forall k, fold_right Rplus 0 (map (fun q : nat * R => if (fst q =? k)%nat then snd q else 0) l) = 0 -> fst q = k -> snd q = 0).
  { intros k Zk Ek. assert (X : fold_right Rplus 0 (map (fun q : nat * R => if (fst q =? k)%nat then snd q else 0) l) = snd q).
    { clear - ND I Ek. induction l as [| p l IH]; [destruct I |]. cbn [map] in ND. apply NoDup_cons_iff in ND. destruct ND as [N1 N2]. cbn [map fold_right].
      destruct I as [-> | I].
      - rewrite Ek, Nat.eqb_refl. assert (Y : fold_right Rplus 0 (map (fun q : nat * R => if (fst q =? k)%nat then snd q else 0) l) = 0); [| lra].
        rewrite Ek in N1. clear - N1. induction l as [| p l IH]; [reflexivity |]. cbn in *. rewrite IH by tauto. replace (fst p =? k)%nat with false; [ring |]. symmetry. apply Nat.eqb_neq. tauto.
      - rewrite (IH N2 I). replace (fst p =? k)%nat with false; [ring |]. symmetry. apply Nat.eqb_neq. intro Y. apply N1. rewrite Y, <- Ek. now apply in_map. }
    now rewrite <- X. }
  assert (Zu : u * u = 0) by lra. assert (Zv : v * v = 0) by lra. assert (Zw : w * w = 0) by lra.
  apply Rmult_integral in Zu, Zv, Zw. assert (X : (fst q < 3)%nat) by (apply B; now apply in_map).
  destruct (fst q) as [| [| [| n]]] eqn:Eq; [apply (C 0%nat) | apply (C 1%nat) | apply (C 2%nat) | lia]; try reflexivity; try tauto; now destruct Zu, Zv, Zw.
Qed.
Example C108_ex :
  ordered ex_lc /\ NoDup (names_of ex_lc) /\ num_MCMC ex_lc = 3%nat /\ spaced [L "b"; L "x"; L "a"] (L " b x a") /\ definite 3 (file_matrix ex_rows) /\
  exists m, ReadProposeMatrix sep_std ex_lc 3 2 (L " b x a") ex_rows = Some m /\ m 1%nat 1%nat = 2 /\ m 0%nat 0%nat = 1 /\ m 2%nat 2%nat = 0.
Proof.
  split; [exists [mkN (L "a") [] [] false; mkN (L "b") [] [] false; mkN (L "c") [] [] false], [mkN (L "D") [] [] true]; repeat constructor |].
  split; [repeat constructor; vm_compute; intuition discriminate |]. split; [reflexivity |]. split.
  - apply (spaced_word [blank] (L "b") (L " x a")); [repeat constructor | reflexivity |]. apply (spaced_word [blank] (L "x") (L " a")); [repeat constructor | reflexivity |].
    apply (spaced_word [blank] (L "a") []); [repeat constructor | exact I |]. constructor. constructor.
  - split; [exact ex_definite |]. eexists. split; [reflexivity |]. split; [reflexivity |]. split; reflexivity.
Qed.
Print Assumptions C108_names_partial.
Print Assumptions C108_matrix.
Print Assumptions C108_definite_partial.
Print Assumptions C108_overflow_refuted.

(** ** C109 *)
Lemma Rltb_lt a b : Rltb a b = true <-> a < b.
Proof. unfold Rltb. destruct (Rlt_dec a b); split; try congruence; tauto. Qed.
Lemma Rltb_ge a b : Rltb a b = false <-> b <= a.
Proof. unfold Rltb. destruct (Rlt_dec a b); split; intro H; try congruence; lra. Qed.
Lemma range_ok line r : read_range line = Some r -> within (PMin r) (PMax r) (center r) /\ (vary r = false -> PMin r = center r /\ PMax r = center r) /\ (vary r = true <-> pw r <> 0).
Proof.
  unfold read_range, within. destruct line as [[| c [| lo [| hi [| sw [| w rest]]]]] |]; try discriminate.
  - intro E. injection E as <-. cbn. repeat split; try lra; intros; congruence.
  - cbv zeta. destruct (Reqb w 0) eqn:W; cbn [negb]; intro E.
    + destruct (Rltb c c) eqn:Z; [apply Rltb_lt in Z; lra |]. injection E as <-. cbn. apply Reqb_spec in W. repeat split; try lra; intros; congruence.
    + destruct (Rltb hi lo) eqn:Z1; [discriminate |]. destruct (Rltb c lo) eqn:Z2; [discriminate |]. destruct (Rltb hi c) eqn:Z3; [discriminate |]. injection E as <-. cbn.
      apply Rltb_ge in Z1, Z2, Z3. assert (N : w <> 0) by (intro X; apply Reqb_spec in X; congruence). repeat split; try lra; intros; congruence.
Qed.
Theorem C109_ranges : forall lines rs, ReadParams lines = Some rs ->
  length rs = length lines /\
  Forall (fun r => within (PMin r) (PMax r) (center r) /\ (vary r = false -> PMin r = center r /\ PMax r = center r)) rs.
Proof.
  induction lines as [| l lines IH]; intros rs E; cbn in E; [injection E as <-; now split |].
  destruct (read_range l) as [r |] eqn:Er; [| discriminate]. destruct (ReadParams lines) as [rs' |]; [| discriminate]. injection E as <-.
  destruct (IH rs' eq_refl) as [L F]. cbn. split; [now rewrite L |]. constructor; [| exact F]. destruct (range_ok l r Er) as (A & B & _). now split.
Qed.
(** The varied parameters, in order *)
Lemma used_shift rs : forall k, map fst (filter (fun q => vary (snd q)) (combine (seq (S k) (length rs)) rs)) =
  map S (map fst (filter (fun q => vary (snd q)) (combine (seq k (length rs)) rs))).
Proof. induction rs as [| r rs IH]; intro k; cbn; [reflexivity |]. destruct (vary r); cbn; now rewrite IH. Qed.
Lemma used_cons r rs : params_used (r :: rs) = (if vary r then [O] else []) ++ map S (params_used rs).
Proof. unfold params_used. cbn [length seq combine filter snd]. destruct (vary r); cbn [map fst app]; now rewrite used_shift. Qed.
Theorem C109_used : forall rs, StronglySorted lt (params_used rs) /\
  forall i, In i (params_used rs) <-> exists r, nth_error rs i = Some r /\ vary r = true.
Proof.
  induction rs as [| r rs [IH1 IH2]].
  - split; [constructor |]. intro i. split; [intros [] |]. intros (r & E & _). destruct i; discriminate.
  - rewrite used_cons. split.
    + assert (SS : StronglySorted lt (map S (params_used rs))).
      { clear IH2. induction IH1 as [| a l _ IH F]; cbn; constructor; [exact IH |]. apply Forall_map. revert F. apply Forall_impl. intros; lia. }
      destruct (vary r); cbn; [| exact SS]. constructor; [exact SS |]. apply Forall_map. apply Forall_forall. intros; lia.
    + intro i. rewrite in_app_iff, in_map_iff. split.
      * intros [H | (k & <- & H)].
        -- destruct (vary r) eqn:V; [| destruct H]. destruct H as [<- | []]. now exists r.
        -- apply IH2 in H. exact H.
      * intros (q & E & V). destruct i as [| i]; cbn in E.
        -- injection E as ->. rewrite V. left. now left.
        -- right. exists i. split; [reflexivity |]. apply IH2. now exists q.
Qed.
Lemma start_ok r : forall gs p gs', start_value r gs = Some (p, gs') -> within (PMin r) (PMax r) p.
Proof.
  induction gs as [| g gs IH]; intros p gs' E; cbn in E; [discriminate |].
  destruct (negb (Rltb _ (PMin r)) && negb (Rltb (PMax r) _)) eqn:C; [| now apply (IH p gs')]. injection E as <- _.
  apply andb_true_iff in C. destruct C as [C1 C2]. apply negb_true_iff in C1, C2. apply Rltb_ge in C1, C2. now split.
Qed.
Lemma start_all rs : forall used P gs P', SetStartPositions rs used P gs = Some P' -> length P = length rs -> NoDup used ->
  length P' = length rs /\ (forall i, ~ In i used -> nth_error P' i = nth_error P i) /\
  (forall i r, In i used -> nth_error rs i = Some r -> exists p, nth_error P' i = Some p /\ within (PMin r) (PMax r) p).
Proof.
  induction used as [| i used IH]; intros P gs P' E L ND; cbn in E; [injection E as <-; split; [exact L |]; split; [reflexivity | intros i r []] |].
  destruct (nth_error rs i) as [r |] eqn:Er; [| discriminate]. destruct (start_value r gs) as [[p gs'] |] eqn:Es; [| discriminate].
  apply NoDup_cons_iff in ND. destruct ND as [N1 N2]. destruct (IH (upd i p P) gs' P' E) as (A & B & C); [now rewrite upd_len | exact N2 |]. split; [exact A |]. split.
  - intros k Nk. rewrite B by (intro X; apply Nk; now right). rewrite nth_upd. replace (k =? i)%nat with false; [reflexivity |]. symmetry. apply Nat.eqb_neq. intros ->. apply Nk. now left.
  - intros k q [<- | I] Eq.
    + rewrite B by exact N1. rewrite nth_upd, Nat.eqb_refl. assert (Li : (i < length P)%nat) by (rewrite L; apply nth_error_Some; congruence).
      destruct (nth_error P i) eqn:EP; [| apply nth_error_None in EP; lia]. exists p. split; [reflexivity |]. replace q with r by congruence. now apply (start_ok r gs p gs').
    + now apply C.
Qed.
(** Every start point is within the ranges; parameters that are not varied are at their values *)
Theorem C109_start : forall lines rs gs P, ReadParams lines = Some rs ->
  SetStartPositions rs (params_used rs) (map center rs) gs = Some P ->
  length P = length rs /\ forall i r, nth_error rs i = Some r ->
    exists p, nth_error P i = Some p /\ within (PMin r) (PMax r) p /\ (vary r = false -> p = center r).
Proof.
  intros lines rs gs P ER ES. destruct (C109_ranges lines rs ER) as [_ F]. destruct (C109_used rs) as [SS U].
  assert (ND : NoDup (params_used rs)).
  { clear - SS. induction SS as [| a l _ IH H]; constructor; [| exact IH]. intro I. rewrite Forall_forall in H. specialize (H a I). lia. }
  destruct (start_all rs (params_used rs) (map center rs) gs P ES) as (A & B & C); [apply map_length | exact ND |]. split; [exact A |].
  intros i r Er. destruct (vary r) eqn:V.
  - destruct (C i r) as (p & Ep & W); [apply U; now exists r | exact Er |]. exists p. repeat split; try assumption; try apply W. discriminate.
  - exists (center r). rewrite B.
    + rewrite nth_error_map, Er. rewrite Forall_forall in F. destruct (F r (nth_error_In _ _ Er)) as [W _]. split; [reflexivity |]. split; [exact W | reflexivity].
    + intro I. apply U in I. destruct I as (q & Eq & Vq). congruence.
Qed.
(** FINDING: a negative width means a half Gaussian above the centre; for a centre at the upper limit no value but the centre itself is
    accepted, so the loop does not end for any numbers other than 0. *)
Theorem C109_no_end_refuted : forall r gs, center r = PMax r -> StartWidth r < 0 -> Forall (fun g => g <> 0) gs -> start_value r gs = None.
Proof.
  intros r gs EC W F. induction F as [| g gs N _ IH]; [reflexivity |]. cbn. replace (Rltb (StartWidth r) 0) with true by (symmetry; now apply Rltb_lt).
  assert (A : 0 < Rabs g) by (now apply Rabs_pos_lt). assert (X : PMax r < center r - Rabs g * StartWidth r) by (rewrite EC; nra).
  apply Rltb_lt in X. rewrite X. cbn [negb]. now rewrite andb_false_r.
Qed.
Definition ex_lines : list (option (list R)) := [Some [1; 0; 2; 0; 3]; Some [5]; Some [1; 0; 1; -1; 0]].
Example C109_ex : exists rs P, ReadParams ex_lines = Some rs /\ params_used rs = [O] /\ SetStartPositions rs (params_used rs) (map center rs) [7] = Some P.
Proof.
  assert (Z : forall a b, a <= b -> Rltb b a = false) by (intros; now apply Rltb_ge).
  assert (Q : Reqb 3 0 = false) by (destruct (Reqb 3 0) eqn:E; [apply Reqb_spec in E; lra | reflexivity]). assert (Q0 : Reqb 0 0 = true) by (now apply Reqb_spec).
  assert (ER : ReadParams ex_lines = Some [mkR 1 0 2 0 3 true; mkR 5 5 5 0 0 false; mkR 1 1 1 (-1) 0 false]).
  { cbn. rewrite Q, Q0. cbn [negb]. rewrite !Z by lra. reflexivity. }
  eexists. eexists. split; [exact ER |]. split; [reflexivity |]. cbn. rewrite (Z 0 0) by lra. cbn [center PMin PMax StartWidth]. rewrite !Z by lra. cbn. reflexivity.
Qed.
Print Assumptions C109_ranges.
Print Assumptions C109_used.
Print Assumptions C109_start.
Print Assumptions C109_no_end_refuted.
(** Files without names have all parameters, or those of the theory; the others have zero there *)
Theorem C108_plain : forall sep l np nt r rows, (length r = np -> (np <= length (r :: rows))%nat -> Forall (fun x => (np <= length x)%nat) rows ->
    exists m, ReadProposeMatrix sep l np nt [] (r :: rows) = Some m /\ forall i j, (i < np)%nat -> (j < np)%nat -> m i j = file_matrix (r :: rows) j i) /\
  (length r = nt -> nt <> np -> (nt <= length (r :: rows))%nat -> Forall (fun x => (nt <= length x)%nat) rows ->
    exists m, ReadProposeMatrix sep l np nt [] (r :: rows) = Some m /\ (forall i j, (i < nt)%nat -> (j < nt)%nat -> m i j = file_matrix (r :: rows) j i) /\ (forall i j, (nt <= i \/ nt <= j)%nat -> m i j = 0)) /\
  (length r <> np -> length r <> nt -> ReadProposeMatrix sep l np nt [] (r :: rows) = None).
Proof.
  intros sep l np nt r rows. assert (G : forall n, length r = n -> (n <= length (r :: rows))%nat -> Forall (fun x => (n <= length x)%nat) rows -> exists rs, read_rows n n (r :: rows) = Some rs).
  { intros n E L F. apply read_rows_ok; [exact L |]. destruct n as [| n]; [constructor |]. cbn [firstn]. constructor; [lia |]. clear - F. rewrite Forall_forall in *. intros x I. apply F. rewrite <- (firstn_skipn n rows). apply in_or_app. now left. }
  unfold ReadProposeMatrix. split; [| split].
  - intros E L F. destruct (G np E L F) as [rs ER]. rewrite E, Nat.eqb_refl, ER. cbn [option_map]. eexists. split; [reflexivity |]. intros i j I J. apply (read_rows_at np np _ rs ER); assumption.
  - intros E N L F. destruct (G nt E L F) as [rs ER]. rewrite E. destruct (Nat.eqb_spec nt np); [congruence |]. rewrite Nat.eqb_refl, ER. cbn [option_map]. eexists. split; [reflexivity |]. split.
    + intros i j I J. apply Nat.ltb_lt in I as I', J as J'. rewrite I', J'. cbn [andb]. apply (read_rows_at nt nt _ rs ER); assumption.
    + intros i j [H | H]; [destruct (Nat.ltb_spec i nt); [lia | reflexivity] | destruct (Nat.ltb_spec j nt); [lia | now rewrite andb_false_r]].
  - intros N1 N2. destruct (Nat.eqb_spec (length r) np); [congruence |]. destruct (Nat.eqb_spec (length r) nt); [congruence | reflexivity].
Qed.
(** Without a file the widths of the varied parameters are on the diagonal *)
Theorem C108_no_file : forall np varying PWidth used a b i, nth_error used a = Some i ->
  let r := ReadSetCovMatrix np varying PWidth used None in fst r a a = PWidth i * PWidth i /\ (a <> b -> fst r a b = 0) /\ snd r = true.
Proof. intros np varying PWidth used a b i E. cbn [ReadSetCovMatrix fst snd]. rewrite Nat.eqb_refl, (nth_error_nth _ _ O E). split; [reflexivity |]. split; [intro N; destruct (Nat.eqb_spec a b); congruence | reflexivity]. Qed.
Example C108_ex2 : exists m, ReadProposeMatrix sep_std ex_l2 2 1 [] [[5]] = Some m /\ m 0%nat 0%nat = 5 /\ m 1%nat 1%nat = 0 /\ fst (ReadSetCovMatrix 3 (fun _ => true) INR [1; 2]%nat None) 1%nat 1%nat = 4.
Proof. eexists. split; [reflexivity |]. cbn. repeat split; lra. Qed.
Print Assumptions C108_plain. Print Assumptions C108_no_file.
