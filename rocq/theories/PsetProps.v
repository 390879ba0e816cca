(** C102, C103: files of parameter points, and likelihoods added to those of a file *)
From Coq Require Import Reals String List Bool Arith Lia Lra.
From Verif Require Import StatModel McmcModel McmcProofs LikeModel PsetModel PsetSpec PsetProofs.
Import ListNotations.
Local Open Scope R_scope.
Local Open Scope list_scope.
Local Opaque logZero.

(** A run writes its points one after the other: weight, -log(likelihood), point *)
Definition written {Th} (W : setup) (ps : list (R * R * pset Th)) : file Th :=
  fold_left (fun f q => WriteModel W f (snd q) (snd (fst q)) (fst (fst q))) ps (mkFi None []).
Definition used_names (su : setup) : list string := pick ""%string (names su) (used su).
(** Parameters have names, different ones, and so have likelihoods *)
Definition proper (su : setup) : Prop :=
  NoDup (names su) /\ ~ In ""%string (names su) /\ NoDup (used su) /\ Forall (fun i => (i < length (names su))%nat) (used su) /\
  NoDup (likenames su) /\ (length (center su) <= length (names su))%nat.
Definition fits {Th} (su : setup) (p : pset Th) : Prop :=
  Forall (fun i => (i < length (ps_P p))%nat) (used su) /\ length (ps_likes p) = length (likenames su).

Lemma written_more {Th} W ps : forall (f : file Th), fi_head f <> None ->
  fi_head (fold_left (fun f q => WriteModel W f (snd q) (snd (fst q)) (fst (fst q))) ps f) = fi_head f /\
  fi_recs (fold_left (fun f q => WriteModel W f (snd q) (snd (fst q)) (fst (fst q))) ps f) = fi_recs f ++
    map (fun q => mkRe (fst (fst q)) (snd (fst q)) (firstn (length (likenames W)) (ps_likes (snd q))) (pick 0 (ps_P (snd q)) (used W)) (ps_th (snd q))) ps.
Proof.
  induction ps as [| q ps IH]; intros f H; cbn [fold_left map]; [now rewrite app_nil_r |].
  destruct (IH (WriteModel W f (snd q) (snd (fst q)) (fst (fst q)))) as [E1 E2]; [discriminate |].
  rewrite E1, E2. unfold WriteModel. cbn [fi_head fi_recs]. destruct (fi_head f); [| congruence]. split; [reflexivity |].
  now rewrite <- app_assoc.
Qed.
Lemma written_head {Th} W (ps : list (R * R * pset Th)) : proper W -> ps <> [] ->
  fi_head (written W ps) = Some (length (used W), Some (used_names W), likenames W) /\
  fi_recs (written W ps) =
    map (fun q => mkRe (fst (fst q)) (snd (fst q)) (firstn (length (likenames W)) (ps_likes (snd q))) (pick 0 (ps_P (snd q)) (used W)) (ps_th (snd q))) ps.
Proof.
  intros (_ & NE & _) H. destruct ps as [| q ps]; [congruence |]. unfold written. cbn [fold_left].
  destruct (written_more W ps (WriteModel W (mkFi None []) (snd q) (snd (fst q)) (fst (fst q)))) as [E1 E2]; [discriminate |].
  rewrite E1, E2. unfold WriteModel. cbn [fi_head fi_recs app map].
  assert (E : existsb (String.eqb "") (names W) = false).
  { destruct (existsb _ _) eqn:E; [| reflexivity]. apply existsb_exists in E. destruct E as (n & I & E). apply String.eqb_eq in E. now subst. }
  rewrite E. split; reflexivity.
Qed.

(** C102: what is read is what was written, by the names of the parameters *)
Theorem C102_params_partial {Th} W Rd (ps : list (R * R * pset Th)) h j mult like p P0 :
  proper W -> proper Rd -> ReadHead Rd (written W ps) = Some h -> nth_error ps j = Some (mult, like, p) -> fits W p ->
  (length (names Rd) <= length P0)%nat -> (forall n, In n (used_names W) -> In n (used_names Rd)) ->
  exists r q, nth_error (fi_recs (written W ps)) j = Some r /\ ReadRecord Rd h P0 r = (mult, like, q) /\ ps_th q = ps_th p /\
    (forall n v, has_value (used_names W) (pick 0 (ps_P p) (used W)) n v -> has_value (names Rd) (ps_P q) n v) /\
    (forall n, In n (used_names Rd) -> In n (used_names W)) /\
    (forall n v, has_value (names Rd) (center Rd) n v -> ~ In n (used_names W) -> has_value (names Rd) (ps_P q) n v).
Proof.
  intros PW PR RH EJ FP LP IN. assert (NE : ps <> []) by (intros ->; destruct j; discriminate).
  destruct (written_head W ps PW NE) as [E1 E2].
  unfold ReadHead in RH. rewrite E1 in RH. unfold read_names in RH.
  destruct (Nat.eqb_spec (length (used W)) (length (used Rd))) as [EL | EL]; [| discriminate].
  destruct (fold_right _ _ (used_names W)) as [ix |] eqn:EF; [| discriminate]. apply read_all in EF. cbn [bindO] in RH.
  injection RH as RH. subst h. cbn [h_ix h_like].
  rewrite E2, nth_error_map, EJ. cbn [option_map fst snd]. eexists. eexists. split; [reflexivity |]. split; [reflexivity |].
  cbn [ps_th ps_P re_P re_th].
  destruct PW as (NW & _ & NU & FU & _ & _). destruct PR as (NR & _ & NUR & FUR & _ & LC). destruct FP as [FP _].
  assert (NN : NoDup (used_names W)) by (now apply pick_NoDup).
  assert (NI : NoDup ix) by (now apply (index_NoDup Rd (used_names W))).
  assert (LP2 : length (center Rd ++ skipn (length (center Rd)) P0) = length P0).
  { rewrite app_length, skipn_length. lia. }
  split; [reflexivity |]. split; [| split].
  - intros n v (i & I1 & I2). destruct (Forall2_nth _ _ _ EF i n I1) as (k & K1 & K2).
    exists k. split; [now apply index_nth |]. apply put_at with (j := i); try assumption. rewrite LP2. apply index_lt in K2. lia.
  - apply NoDup_length_incl; [exact NN | | exact IN]. unfold used_names, pick. rewrite !map_length. lia.
  - intros n v (i & I1 & I2) NI2. exists i. split; [exact I1 |]. rewrite put_other.
    + rewrite nth_error_app1; [exact I2 |]. apply nth_error_Some. now rewrite I2.
    + intro I. apply In_nth_error in I. destruct I as [k I]. destruct (Forall2_nth_r _ _ _ EF k i I) as (m & M1 & M2).
      apply index_nth in M2. assert (m = n) by congruence. subst. apply NI2. now apply nth_error_In in M1.
Qed.

(** The same for the likelihoods *)
Theorem C102_likes {Th} W Rd (ps : list (R * R * pset Th)) h j mult like p P0 :
  proper W -> proper Rd -> ReadHead Rd (written W ps) = Some h -> nth_error ps j = Some (mult, like, p) -> fits W p ->
  exists r q, nth_error (fi_recs (written W ps)) j = Some r /\ ReadRecord Rd h P0 r = (mult, like, q) /\
    length (ps_likes q) = length (likenames Rd) /\ length (h_has h) = length (likenames Rd) /\
    (forall n v, has_value (likenames W) (ps_likes p) n v -> In n (likenames Rd) ->
       has_value (likenames Rd) (ps_likes q) n v /\ has_value (likenames Rd) (h_has h) n true) /\
    (forall n, In n (likenames Rd) -> ~ In n (likenames W) ->
       has_value (likenames Rd) (ps_likes q) n 0 /\ has_value (likenames Rd) (h_has h) n false).
Proof.
  intros PW PR RH EJ FP. assert (NE : ps <> []) by (intros ->; destruct j; discriminate).
  destruct (written_head W ps PW NE) as [E1 E2].
  unfold ReadHead in RH. rewrite E1 in RH. destruct (read_names _ _ _) as [ix |]; [| discriminate]. cbn [bindO] in RH.
  injection RH as RH. subst h. cbn [h_ix h_like h_has].
  rewrite E2, nth_error_map, EJ. cbn [option_map fst snd]. eexists. eexists. split; [reflexivity |]. split; [reflexivity |].
  cbn [ps_likes re_likes]. destruct PW as (_ & _ & _ & _ & NW & _). destruct PR as (_ & _ & _ & _ & NR & _). destruct FP as [_ FP].
  rewrite <- FP, firstn_all.
  assert (HH : forall i n, nth_error (likenames Rd) i = Some n -> nth_error (snd (read_likes Rd (likenames W))) i =
    Some (existsb (fun o => match o with Some k => Nat.eqb k i | None => false end) (map (index (likenames Rd)) (likenames W)))).
  { intros i n E. unfold read_likes. cbn [snd]. rewrite nth_error_map.
    assert (L : (i < length (likenames Rd))%nat) by (apply nth_error_Some; now rewrite E).
    rewrite (nth_error_nth' _ 0%nat) by (now rewrite seq_length). rewrite seq_nth by exact L. reflexivity. }
  unfold read_likes in HH. cbn [snd] in HH. unfold read_likes. cbn [fst snd h_like].
  split; [now rewrite put_likes_len, repeat_length |]. split; [now rewrite map_length, seq_length |].
  split.
  - intros n v (i & I1 & I2) IN. apply In_nth_error in IN. destruct IN as [k K].
    pose proof (index_first _ _ NR k K) as EK. split.
    + exists k. split; [exact K |]. apply put_likes_at with (ix := map (index (likenames Rd)) (likenames W)) (j := i).
      * intros a b z Ha Hb. rewrite nth_error_map in Ha, Hb.
        destruct (nth_error (likenames W) a) as [na |] eqn:Ea; [| discriminate].
        destruct (nth_error (likenames W) b) as [nb |] eqn:Eb; [| discriminate]. cbn in Ha, Hb.
        injection Ha as Ha. injection Hb as Hb. apply index_nth in Ha, Hb. assert (na = nb) by congruence. subst nb.
        rewrite NoDup_nth_error in NW. apply NW; [apply nth_error_Some; now rewrite Ea | congruence].
      * rewrite nth_error_map, I1. cbn. now rewrite EK.
      * exact I2.
      * rewrite repeat_length. apply nth_error_Some. now rewrite K.
    + exists k. split; [exact K |]. rewrite (HH k n K). f_equal. apply existsb_exists. exists (Some k). split; [| apply Nat.eqb_refl].
      apply in_map_iff. exists n. split; [exact EK | now apply nth_error_In in I1].
  - intros n IN NI. apply In_nth_error in IN. destruct IN as [k K]. split.
    + exists k. split; [exact K |]. rewrite put_likes_other.
      * apply nth_error_repeat. apply nth_error_Some. now rewrite K.
      * intro I. apply in_map_iff in I. destruct I as (m & M1 & M2). apply index_nth in M1.
        assert (m = n) by congruence. now subst.
    + exists k. split; [exact K |]. rewrite (HH k n K). f_equal. destruct (existsb _ _) eqn:E; [| reflexivity]. exfalso.
      apply existsb_exists in E. destruct E as (o & O1 & O2). apply in_map_iff in O1. destruct O1 as (m & M1 & M2).
      destruct o as [z |]; [| discriminate]. apply Nat.eqb_eq in O2. subst z. apply index_nth in M1. assert (m = n) by congruence. now subst.
Qed.

(** The run stops if, and only if, the number of parameters differs or a name is not known *)
Theorem C102_stops {Th} W Rd (ps : list (R * R * pset Th)) : proper W -> ps <> [] ->
  (ReadHead Rd (written W ps) = None <->
   length (used W) <> length (used Rd) \/ exists n, In n (used_names W) /\ ~ In n (names Rd)).
Proof.
  intros PW NE. destruct (written_head W ps PW NE) as [E1 _]. unfold ReadHead. rewrite E1. unfold read_names.
  destruct (Nat.eqb_spec (length (used W)) (length (used Rd))) as [EL | EL]; [| cbn; tauto].
  destruct (fold_right _ _ (used_names W)) as [ix |] eqn:EF; cbn [bindO].
  - split; [discriminate |]. intros [H | (n & I & N)]; [congruence | exfalso]. apply read_all in EF.
    apply In_nth_error in I. destruct I as [k I]. destruct (Forall2_nth _ _ _ EF k n I) as (i & _ & Hi).
    apply index_nth in Hi. apply N. now apply nth_error_In in Hi.
  - split; [intros _; right | reflexivity]. now apply read_none in EF.
Qed.

(** C103: adding likelihoods to the stored ones gives what computing all of them gives *)
Lemma post_same {X} (x : X) ls : forall has vals vals' : list _,
  length has = length ls -> length vals = length ls -> length vals' = length ls -> Forall (fun l => fst l = true) ls ->
  (forall i l, nth_error ls i = Some l -> nth_error has i = Some true -> nth_error vals i = Some (snd l x) /\ snd l x <> logZero) ->
  post_likes x (map negb has) ls vals = post_likes x (map (fun _ => true) ls) ls vals'.
Proof.
  induction ls as [| [dep val] ls IH]; intros [| b has] [| v vals] [| v' vals'] L1 L2 L3 F H; try discriminate; [reflexivity |].
  cbn [map post_likes]. pose proof (Forall_inv F) as D. cbn in D. subst dep.
  cbn [length] in *. assert (E : post_likes x (map negb has) ls vals = post_likes x (map (fun _ => true) ls) ls vals').
  { apply IH; try lia; [now apply Forall_inv_tail in F |]. intros i l. apply (H (S i)). }
  destruct b; cbn [negb andb].
  - destruct (H 0%nat (true, val) eq_refl eq_refl) as [E1 E2]. cbn in E1, E2. injection E1 as ->.
    apply Reqb_false in E2. rewrite E2. now rewrite E.
  - now rewrite E.
Qed.
Theorem C103_add {Th X} W Rd (ps : list (R * R * pset Th)) h j mult like p P0 T bounds prior0 priors (val : string -> X -> R) x :
  proper W -> proper Rd -> ReadHead Rd (written W ps) = Some h -> nth_error ps j = Some (mult, like, p) -> fits W p ->
  (* the stored values are the likelihoods of the point *)
  (forall n v, has_value (likenames W) (ps_likes p) n v -> v = val n x /\ v <> logZero) ->
  exists r q, nth_error (fi_recs (written W ps)) j = Some r /\ ReadRecord Rd h P0 r = (mult, like, q) /\
    forall vals, length vals = length (likenames Rd) ->
    truelike T bounds prior0 priors (map (fun n => (true, val n)) (likenames Rd)) (h_has h) true (ps_likes q) x =
    truelike T bounds prior0 priors (map (fun n => (true, val n)) (likenames Rd)) (h_has h) false vals x.
Proof.
  intros PW PR RH EJ FP HV. destruct (C102_likes W Rd ps h j mult like p P0 PW PR RH EJ FP) as (r & q & E1 & E2 & L1 & L2 & A1 & A2).
  exists r, q. split; [exact E1 |]. split; [exact E2 |]. intros vals LV. unfold truelike, GetLogLikePost.
  rewrite (post_same x _ (h_has h) (ps_likes q) vals); rewrite ?map_length; try assumption; try reflexivity.
  - rewrite Forall_map. apply Forall_forall. reflexivity.
  - intros i l EI EH. rewrite nth_error_map in EI. destruct (nth_error (likenames Rd) i) as [n |] eqn:EN; [| discriminate].
    cbn in EI. injection EI as <-. cbn [snd].
    assert (NR : NoDup (likenames Rd)) by (destruct PR as (_ & _ & _ & _ & NR & _); exact NR).
    assert (U : forall k, nth_error (likenames Rd) k = Some n -> k = i).
    { intros k Hk. rewrite NoDup_nth_error in NR. apply NR; [apply nth_error_Some; now rewrite Hk | congruence]. }
    destruct (in_dec String.string_dec n (likenames W)) as [I | I].
    + apply In_nth_error in I. destruct I as [k K].
      assert (LW : (k < length (ps_likes p))%nat) by (destruct FP as [_ ->]; apply nth_error_Some; now rewrite K).
      apply nth_error_Some in LW. destruct (nth_error (ps_likes p) k) as [v |] eqn:EV; [| congruence].
      destruct (HV n v) as [-> V2]; [exists k; now split |].
      destruct (A1 n (val n x)) as [(k2 & K2 & K3) _]; [exists k; now split | now apply nth_error_In in EN |].
      rewrite (U k2 K2) in K3. now split.
    + destruct (A2 n) as [_ (k2 & K2 & K3)]; [now apply nth_error_In in EN | exact I |]. rewrite (U k2 K2) in K3. congruence.
Qed.
(** and that is the posterior, if all is possible *)
Lemma post_all {X} (x : X) (ls : list (@lik X)) : forall vals, length vals = length ls -> Forall (fun l => fst l = true /\ snd l x <> logZero) ls ->
  post_likes x (map (fun _ : @lik X => true) ls) ls vals = Some (map (fun l => snd l x) ls).
Proof.
  induction ls as [| [dep val] ls IH]; intros [| v vals] L F; try discriminate; [reflexivity |].
  cbn [map post_likes]. destruct (Forall_inv F) as [D Z]. cbn in D, Z. subst dep. cbn [andb]. apply Reqb_false in Z. rewrite Z.
  rewrite IH; [reflexivity | now injection L | now apply Forall_inv_tail in F].
Qed.
Theorem C103_value {X} T bounds prior0 priors (val : string -> X -> R) lnames has vals x :
  length vals = length lnames -> bounds x <> logZero -> prior0 x <> logZero -> priors x <> logZero ->
  Forall (fun n => val n x <> logZero) lnames -> sumR (map (fun n => val n x) lnames) <> logZero ->
  bounds x + prior0 x / T <> logZero -> bounds x + prior0 x / T + sumR (map (fun n => val n x) lnames) / T <> logZero ->
  truelike T bounds prior0 priors (map (fun n => (true, val n)) lnames) has false vals x =
  posterior T (bounds x) (prior0 x) (priors x) (map (fun n => val n x) lnames).
Proof.
  intros LV H1 H2 H3 HF H4 H5 H6. unfold truelike, GetLogLikePost, AddLikeTemp, posterior.
  pose proof (post_all x (map (fun n => (true, val n)) lnames) vals) as E. cbv beta iota. rewrite E.
  - rewrite !map_map. cbn [snd]. apply Reqb_false in H1, H2, H3, H4, H5, H6. rewrite ?H1, ?H2, ?H3, ?H4, ?H5, ?H6. cbn [negb].
    rewrite ?H1, ?H2, ?H3, ?H4, ?H5, ?H6. cbn [negb]. rewrite ?H1, ?H2, ?H3, ?H4, ?H5, ?H6. reflexivity.
  - now rewrite map_length.
  - rewrite Forall_map. cbn. eapply Forall_impl; [| exact HF]. intros n Hn. now split.
Qed.
(** With redo_add the likelihoods that are there are not computed: the result does not depend on what they would give *)
Lemma post_stored {X} (x : X) : forall has vals (ls ls' : list (lik (X:=X))), length ls = length ls' ->
  (forall i, nth_error has i = Some true \/ nth_error ls i = nth_error ls' i) ->
  post_likes x (map negb has) ls vals = post_likes x (map negb has) ls' vals.
Proof.
  induction has as [| h has IH]; intros vals ls ls' L H; [reflexivity |]. destruct ls as [| [d v] ls], ls' as [| [d' v'] ls']; try discriminate; [reflexivity |].
  cbn [map post_likes]. destruct vals as [| u vals]; [reflexivity |].
  assert (IH' : post_likes x (map negb has) ls vals = post_likes x (map negb has) ls' vals).
  { apply IH; [now injection L |]. intro i. exact (H (S i)). }
  rewrite IH'. destruct (H O) as [E | E]; cbn in E.
  - injection E as ->. reflexivity.
  - injection E as -> ->. reflexivity.
Qed.
Theorem C103_stored {X} T bounds prior0 priors (val val' : string -> X -> R) lnames has vals x :
  (forall i n, nth_error lnames i = Some n -> nth_error has i = Some true \/ val n = val' n) ->
  truelike T bounds prior0 priors (map (fun n => (true, val n)) lnames) has true vals x =
  truelike T bounds prior0 priors (map (fun n => (true, val' n)) lnames) has true vals x.
Proof.
  intro H. unfold truelike, GetLogLikePost. cbv iota. rewrite (post_stored x has vals (map (fun n => (true, val n)) lnames) (map (fun n => (true, val' n)) lnames)).
  - reflexivity.
  - now rewrite !map_length.
  - intro i. rewrite !nth_error_map. destruct (nth_error lnames i) as [n |] eqn:E; cbn; [| now right].
    destruct (H i n E) as [A | ->]; [now left | now right].
Qed.
(** redo_like_name: all but that likelihood are taken from the file *)
Theorem C103_name_partial {X} T bounds prior0 priors (val : string -> X -> R) lnames name has redo_add has' vals vals' x :
  NoDup lnames -> In name lnames -> length has = length lnames -> length vals = length lnames -> length vals' = length lnames ->
  for_name lnames (Some name) has redo_add = Some (has', true) ->
  (forall n v, has_value lnames vals n v -> n <> name -> v = val n x /\ v <> logZero) ->
  truelike T bounds prior0 priors (map (fun n => (true, val n)) lnames) has' true vals x =
  truelike T bounds prior0 priors (map (fun n => (true, val n)) lnames) has' false vals' x.
Proof.
  intros ND IN LH LV LV' FN HV. apply In_nth_error in IN. destruct IN as [i I].
  unfold for_name in FN. rewrite (index_first _ _ ND i I) in FN. destruct (nth i has false); [| discriminate].
  destruct (forallb _ has); [| discriminate]. injection FN as <-.
  unfold truelike, GetLogLikePost. rewrite (post_same x _ (upd i false has) vals vals'); rewrite ?map_length, ?upd_len; try assumption; try reflexivity.
  - rewrite Forall_map. apply Forall_forall. reflexivity.
  - intros k l EK EH. rewrite nth_error_map in EK. destruct (nth_error lnames k) as [n |] eqn:EN; [| discriminate].
    cbn in EK. injection EK as <-. cbn [snd]. rewrite nth_upd in EH. destruct (Nat.eqb_spec k i) as [E | E].
    { destruct (nth_error has k); discriminate. }
    assert (L : (k < length vals)%nat) by (rewrite LV; apply nth_error_Some; now rewrite EN).
    apply nth_error_Some in L. destruct (nth_error vals k) as [v |] eqn:EV; [| congruence].
    destruct (HV n v) as [-> V2]; [exists k; now split | | now split].
    intros ->. rewrite NoDup_nth_error in ND. apply E. apply ND; [apply nth_error_Some; now rewrite EN | congruence].
Qed.

(** ** Findings *)
(** C102: a varied parameter of the file that is a derived one now (or a fixed one) is taken, and the parameter that is varied now
    keeps its central value *)
Definition wH : setup := mkSu ["H0"%string] [0%nat] [68] [].
Definition rTheta : setup := mkSu ["theta"; "H0"]%string [0%nat] [1.04] [].
Theorem C102_derived_refuted : exists h r, ReadHead rTheta (written wH [(1, 0, mkPs [70] [] tt)]) = Some h /\
  fi_recs (written wH [(1, 0, mkPs [70] [] tt)]) = [r] /\ ReadRecord rTheta h [0; 0] r = (1, 0, mkPs [1.04; 70] [] tt).
Proof. eexists. eexists. split; [reflexivity |]. split; reflexivity. Qed.
(** C103: a name that no likelihood has is not noticed *)
Theorem C103_name_refuted : for_name ["planck"%string] (Some "plank"%string) [true] false = Some ([true], false).
Proof. reflexivity. Qed.

(** ** Examples *)
Definition w1 : setup := mkSu ["a"; "b"; "c"]%string [2; 0]%nat [1; 2; 3] ["A"; "B"]%string.
Definition r1 : setup := mkSu ["c"; "b"; "a"; "d"]%string [0; 2]%nat [5; 6; 7] ["B"; "C"]%string.
Definition p1 : pset unit := mkPs [10; 20; 30] [0.5; 1.5] tt.
Example C102_example : proper w1 /\ proper r1 /\ fits w1 p1 /\ exists h r, ReadHead r1 (written w1 [(1, 2, p1)]) = Some h /\
  fi_recs (written w1 [(1, 2, p1)]) = [r] /\ ReadRecord r1 h [0; 0; 0; 0; 0] r = (1, 2, mkPs [30; 6; 10; 0; 0] [1.5; 0] tt) /\
  h_has h = [true; false] /\ (forall n, In n (used_names w1) -> In n (used_names r1)).
Proof.
  unfold proper, fits. cbn [names used center likenames w1 r1 p1 ps_P ps_likes length].
  assert (N : forall l : list string, forallb (fun n => Nat.eqb (count_occ String.string_dec l n) 1) l = true -> NoDup l).
  { intros l H. rewrite (NoDup_count_occ' String.string_dec). intros n I. rewrite forallb_forall in H. now apply Nat.eqb_eq, H. }
  assert (N2 : forall l : list nat, forallb (fun n => Nat.eqb (count_occ Nat.eq_dec l n) 1) l = true -> NoDup l).
  { intros l H. rewrite (NoDup_count_occ' Nat.eq_dec). intros n I. rewrite forallb_forall in H. now apply Nat.eqb_eq, H. }
  repeat match goal with |- _ /\ _ => split | |- NoDup _ => (apply N || apply N2); reflexivity | |- ~ In _ _ => cbn; intuition discriminate
    | |- Forall _ _ => repeat constructor | |- (_ <= _)%nat => lia | |- @eq nat _ _ => reflexivity end.
  eexists. eexists. split; [reflexivity |]. split; [reflexivity |]. split; [reflexivity |]. split; [reflexivity |].
  cbn. intros n [E | [E | []]]; subst; tauto.
Qed.
Example C103_example : for_name ["A"; "B"]%string (Some "B"%string) [true; true] false = Some ([true; false], true) /\
  (forall n v, has_value (likenames w1) (ps_likes p1) n v -> v = (if String.eqb n "A" then 0.5 else 1.5) /\ v <> logZero).
Proof.
  assert (100 < logZero).
  { Transparent logZero. unfold logZero. Opaque logZero. apply Rlt_le_trans with (10 ^ 3); [lra |]. apply Rle_pow; [lra | lia]. }
  split; [reflexivity |]. intros n v (i & I1 & I2). destruct i as [| [| i]]; cbn in I1, I2;
    [injection I1 as <-; injection I2 as <- .. | destruct i; discriminate]; cbn; split; lra.
Qed.

Print Assumptions C102_params_partial.
Print Assumptions C102_likes.
Print Assumptions C102_stops.
Print Assumptions C102_derived_refuted.
Print Assumptions C103_add.
Print Assumptions C103_value.
Print Assumptions C103_stored.
Print Assumptions C103_name_partial.
Print Assumptions C103_name_refuted.
