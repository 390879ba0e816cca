From Verif Require Import PyStr PyStrFacts PyBase JobModel JobSpec JobProofs.
From Coq Require Import ZArith QArith Qround Lia.
Local Open Scope nat_scope.

(** ** settings *)
Definition hash : ascii := "#"%char.
Lemma startswith_iff p s : startswith p s = true <-> exists t, s = p ++ t.
Proof. apply startswith_true. Qed.
Lemma hh_eq : hh = [hash; hash].
Proof. reflexivity. Qed.

Lemma app_eq_prefix {A} (a b c d : list A) : a ++ b = c ++ d -> length a <= length c -> exists w, c = a ++ w /\ b = w ++ d.
Proof.
  revert c. induction a as [|x a IH]; intros c E H; cbn in *; [exists c; auto|].
  destruct c as [|y c]; cbn in *; [lia|]. injection E as -> E. destruct (IH c E) as [w [-> ->]]; [lia|].
  exists w. auto.
Qed.

(** the marker cannot start inside the text before it *)
Lemma marker_overlap body u t : body <> [] -> ~ In hash body -> u <> [] ->
  startswith (hh ++ body) (u ++ (hh ++ body) ++ t) = true -> startswith (hh ++ body) u = true.
Proof.
  intros Hb Hh Hu H. apply startswith_iff in H. destruct H as [s E]. apply startswith_iff.
  destruct (le_lt_dec (length (hh ++ body)) (length u)) as [Hl|Hl].
  - symmetry in E. apply app_eq_prefix in E; [|exact Hl]. destruct E as [w [-> _]]. exists w. reflexivity.
  - exfalso. apply app_eq_prefix in E; [|lia]. destruct E as [w [E1 E2]].
    rewrite hh_eq in E1, E2, Hl. cbn [app] in E1, E2, Hl.
    destruct u as [|c u]; [congruence|]. cbn in E1. injection E1 as <- E1.
    destruct u as [|c2 u].
    + cbn in E1. subst w. cbn in E2. injection E2 as E2. destruct body as [|b body]; [congruence|].
      cbn in E2. injection E2 as E2 _. apply Hh. cbn. auto.
    + cbn in E1. injection E1 as <- E1. subst body. destruct w as [|x w]; [rewrite app_nil_r in Hl; cbn in Hl; lia|].
      cbn in E2. injection E2 as E2 _. apply Hh. apply in_or_app. right. cbn. auto.
Qed.

Lemma before_last_spec v : forall y, contains hh (hash :: y) = false ->
  before_last_hh (v ++ hh ++ y) = Some v.
Proof.
  assert (N : forall y, contains hh y = false -> before_last_hh y = None).
  { induction y as [|c y IH]; intros H; [reflexivity|]. cbn [before_last_hh].
    cbn [contains] in H. apply orb_false_iff in H. destruct H as [H1 H2]. rewrite IH by exact H2. now rewrite H1. }
  induction v as [|c v IH]; intros y H; cbn [app].
  - rewrite hh_eq. cbn [app before_last_hh]. 
    assert (E : before_last_hh (hash :: y) = None) by now apply N.
    cbn [before_last_hh] in E. destruct (before_last_hh y); [discriminate|].
    destruct (startswith hh (hash :: y)); [discriminate|]. reflexivity.
  - cbn [before_last_hh]. rewrite IH by exact H. reflexivity.
Qed.

Lemma this_line_app v s : ~ In nl v -> this_line (v ++ s) = v ++ this_line s.
Proof.
  induction v as [|c v IH]; intros H; cbn [app this_line]; [auto|]. destruct (ch_eqb_spec c nl) as [->|N]; [exfalso; apply H; cbn; auto|].
  rewrite IH; [reflexivity|]. intros C. apply H. cbn. auto.
Qed.

Lemma search_found body v post : body <> [] -> ~ In hash body -> ~ In nl v ->
  contains hh (hash :: this_line post) = false ->
  forall pre, contains (hh ++ body) pre = false ->
  search_value (hh ++ body) (pre ++ (hh ++ body) ++ v ++ hh ++ post) = Some v.
Proof.
  intros Hb Hh Hv Hp. induction pre as [|c pre IH]; intros Hc.
  - rewrite app_nil_l.
    assert (E : (if startswith (hh ++ body) ((hh ++ body) ++ v ++ hh ++ post)
                 then before_last_hh (this_line (skipn (length (hh ++ body)) ((hh ++ body) ++ v ++ hh ++ post))) else None) = Some v).
    { rewrite startswith_app. rewrite skipn_app, skipn_all, Nat.sub_diag. cbn [app skipn].
      rewrite this_line_app by exact Hv. change (this_line (hh ++ post)) with (hh ++ this_line post).
      now apply before_last_spec. }
    destruct ((hh ++ body) ++ v ++ hh ++ post) as [|x l] eqn:El; [rewrite hh_eq in El; discriminate|].
    cbn [search_value]. rewrite E. reflexivity.
  - cbn [contains] in Hc. apply orb_false_iff in Hc. destruct Hc as [H1 H2].
    cbn [app search_value].
    destruct (startswith (hh ++ body) (c :: pre ++ (hh ++ body) ++ v ++ hh ++ post)) eqn:E.
    + exfalso. rewrite app_comm_cons in E. apply marker_overlap in E; auto; [congruence|discriminate].
    + apply IH. exact H2.
Qed.
Lemma search_none p s : contains p s = false -> search_value p s = None.
Proof.
  induction s as [|c s IH]; cbn [contains search_value]; intros H.
  - destruct (startswith p []) eqn:E; [|reflexivity]. exfalso. destruct p; [|discriminate]. cbn in H. discriminate.
  - apply orb_false_iff in H. destruct H as [H1 H2]. rewrite H1. auto.
Qed.

(** ** resources *)
Local Open Scope Z_scope.
Lemma check_settings_ok r : chainsPerNode r * runsPerJob r <> 0 ->
  forall omp, check_settings true r = Ok omp <-> coresPerNode r = omp * (chainsPerNode r * runsPerJob r).
Proof.
  intros Hd omp. unfold check_settings, omp_of. set (d := chainsPerNode r * runsPerJob r) in *.
  destruct (Z.eqb_spec d 0) as [E|_]; [contradiction|]. cbn [bindR].
  set (q := (inject_Z (coresPerNode r) / inject_Z d)%Q).
  assert (Hdq : ~ (inject_Z d == 0)%Q).
  { intros C. assert (E : (inject_Z d == inject_Z 0)%Q) by exact C. rewrite inject_Z_injective in E. contradiction. }
  assert (Hq : forall z, (q == inject_Z z)%Q <-> coresPerNode r = z * d).
  { intros z. unfold q. split.
    - intros E. assert (E2 : (inject_Z (coresPerNode r) == inject_Z (z * d))%Q).
      { rewrite inject_Z_mult, <- E. field. exact Hdq. }
      now rewrite inject_Z_injective in E2.
    - intros ->. rewrite inject_Z_mult. field. exact Hdq. }
  destruct (Qeq_bool q (inject_Z (Qfloor q))) eqn:E.
  - apply Qeq_bool_iff in E. apply Hq in E. split.
    + intros H. injection H as <-. exact E.
    + intros H. f_equal. rewrite E in H. apply Z.mul_reg_r in H; auto.
  - split; [discriminate|]. intros H. exfalso. apply Hq in H.
    assert (Ef : Qfloor q = omp) by (rewrite H; apply Qfloor_Z). rewrite Ef in E. apply Qeq_bool_iff in H. congruence.
Qed.
Lemma check_settings_err r : chainsPerNode r * runsPerJob r <> 0 ->
  (forall omp, coresPerNode r <> omp * (chainsPerNode r * runsPerJob r)) ->
  check_settings true r = Err (OtherError (L "Chains must each have equal number of cores")).
Proof.
  intros Hd H. pose proof (check_settings_ok r Hd) as G. unfold check_settings, omp_of in *.
  destruct (Z.eqb_spec (chainsPerNode r * runsPerJob r) 0); [contradiction|]. cbn [bindR] in *.
  destruct (Qeq_bool _ _); [|reflexivity]. exfalso. eapply H. apply G. reflexivity.
Qed.

Lemma perNode_divides c : 0 < c -> 0 < perNode c /\ c = (c / perNode c) * perNode c.
Proof.
  intros H. unfold perNode. destruct (Z.eqb_spec c 4) as [->|N4]; [split; reflexivity|].
  destruct (Z.eqb_spec (c mod 4) 0) as [E|_].
  - assert (c = 4 * (c / 4)) by (pose proof (Z.div_mod c 4); lia). set (k := c / 4) in *.
    split; [lia|]. assert (k <> 0) by lia. replace (c / k) with 4; [lia|]. apply Z.div_unique_exact; lia.
  - destruct ((3 <? c) && (c mod 3 =? 0)) eqn:E3.
    + apply andb_true_iff in E3. destruct E3 as [E1 E2]. apply Z.eqb_eq in E2.
      assert (c = 3 * (c / 3)) by (pose proof (Z.div_mod c 3); lia). set (k := c / 3) in *.
      split; [lia|]. replace (c / k) with 3; [lia|]. apply Z.div_unique_exact; lia.
    + split; [lia|]. rewrite Z.div_1_r. lia.
Qed.
Local Close Scope Z_scope.

(** ** deletion *)
Lemma id_in_spec x l : id_in x l = true <-> In x l.
Proof.
  unfold id_in. rewrite existsb_exists. split.
  - intros [y [H E]]. destruct x, y; cbn in E; try discriminate; auto.
    + apply str_eqb_eq in E. now subst.
    + apply Z.eqb_eq in E. now subst.
  - intros H. exists x. split; [exact H|]. destruct x; cbn; auto using str_eqb_refl, Z.eqb_refl.
Qed.
Lemma id_in_false x l : id_in x l = false <-> ~ In x l.
Proof. rewrite <- id_in_spec. destruct (id_in x l); split; congruence. Qed.
Lemma add_id_In l x y : In y (add_id l x) <-> In y l \/ y = x.
Proof.
  unfold add_id. destruct (id_in x l) eqn:E.
  - apply id_in_spec in E. intuition congruence.
  - rewrite in_app_iff. cbn. intuition congruence.
Qed.
Lemma add_id_NoDup l x : NoDup l -> NoDup (add_id l x).
Proof.
  intros H. unfold add_id. destruct (id_in x l) eqn:E; [exact H|]. apply id_in_false in E.
  apply NoDup_app_intro; auto; [repeat constructor; auto|]. intros y Hy [<-|[]]. contradiction.
Qed.
Lemma fold_add_In {A} (f : A -> pyid) rs : forall l y, In y (fold_left (fun l r => add_id l (f r)) rs l) <-> In y l \/ exists r, In r rs /\ y = f r.
Proof.
  induction rs as [|r rs IH]; intros l y; cbn [fold_left].
  - split; [auto|]. intros [H|[r [[] _]]]; auto.
  - rewrite IH, add_id_In. split.
    + intros [[H|H]|[r' [H1 H2]]]; auto; right; [exists r; cbn; auto|exists r'; cbn; auto].
    + intros [H|[r' [[<-|H1] H2]]]; auto. right. eauto.
Qed.
Lemma fold_add_NoDup {A} (f : A -> pyid) rs : forall l, NoDup l -> NoDup (fold_left (fun l r => add_id l (f r)) rs l).
Proof. induction rs as [|r rs IH]; intros l H; cbn; auto. apply IH, add_id_NoDup, H. Qed.

Definition out_of (ids : list pyid) (live : list job) := filter (fun j => negb (id_in (IdStr (jid j)) ids)) live.

Lemma filter_filter {A} (p q : A -> bool) l : filter p (filter q l) = filter (fun x => q x && p x) l.
Proof. induction l as [|x l IH]; cbn; [auto|]. destruct (q x); cbn; [|exact IH]. destruct (p x); now rewrite IH. Qed.

Lemma delete_loop_spec valid qdel ids : forall live c, distinct live -> (forall id, qdel id = true) -> exists k,
  delete_loop valid qdel true ids (index_of live) c = (c ++ k, Ok (index_of (out_of ids live))) /\
  distinct (out_of ids live) /\ NoDup k /\
  (forall id, In id k <-> valid id = true /\ In (IdStr id) ids /\ In id (map jid live)).
Proof.
  induction ids as [|i ids IH]; intros live c D Hq.
  - exists []. cbn. rewrite app_nil_r. assert (E : out_of [] live = live).
    { unfold out_of. cbn. clear. induction live; cbn; congruence. }
    rewrite E. split; [reflexivity|]. split; [exact D|]. split; [constructor|]. intros id; cbn; tauto.
  - assert (Skip : (forall j, In j live -> IdStr (jid j) <> i) -> out_of (i :: ids) live = out_of ids live).
    { intros H. unfold out_of. apply filter_ext_in. intros j Hj. f_equal. unfold id_in at 1. cbn [existsb].
      destruct (pyid_eqb (IdStr (jid j)) i) eqn:E; [|reflexivity]. exfalso. apply (H j Hj).
      assert (E2 : id_in (IdStr (jid j)) [i] = true) by (unfold id_in; cbn [existsb]; now rewrite E). apply id_in_spec in E2.
      cbn in E2. destruct E2 as [->|[]]. reflexivity. }
    assert (Skip2 : (forall j, In j live -> IdStr (jid j) <> i) -> forall id,
      (valid id = true /\ In (IdStr id) ids /\ In id (map jid live)) <-> (valid id = true /\ In (IdStr id) (i :: ids) /\ In id (map jid live))).
    { intros H id. split; intros (A & B & C); repeat split; auto; [cbn; auto|]. destruct B as [B|B]; [|exact B].
      exfalso. apply in_map_iff in C. destruct C as [j [E Hj]]. apply (H j Hj). congruence. }
    destruct i as [s|z|]; cbn [delete_loop].
    + pose proof (agrees_index_of live D) as (A1 & _).
      destruct (dget s (settings (index_of live))) as [j|] eqn:E.
      * apply A1 in E. destruct E as [Hj <-]. rewrite Hq. cbn [negb]. rewrite andb_false_r.
        destruct (del_index_of live (jid j) D) as [-> D'].
        set (live' := filter (fun i => negb (str_eqb (jid i) (jid j))) live) in *.
        destruct (IH live' (if valid (jid j) then c ++ [jid j] else c) D' Hq) as (k & Ek & Dk & Nk & Hk).
        assert (El : out_of (IdStr (jid j) :: ids) live = out_of ids live').
        { unfold live', out_of. rewrite filter_filter. apply filter_ext. intros i.
          change (id_in (IdStr (jid i)) (IdStr (jid j) :: ids)) with (str_eqb (jid i) (jid j) || id_in (IdStr (jid i)) ids).
          apply negb_orb. }
        assert (Hl' : forall id, In id (map jid live') <-> In id (map jid live) /\ id <> jid j).
        { intros id. unfold live'. rewrite !in_map_iff. split.
          - intros [i [<- Hi]]. apply filter_In in Hi. destruct Hi as [Hi E]. split; [eauto|].
            apply negb_true_iff, str_eqb_neq in E. exact E.
          - intros [[i [<- Hi]] N]. exists i. split; [reflexivity|]. apply filter_In. split; [exact Hi|].
            apply negb_true_iff, str_eqb_neq. exact N. }
        exists (if valid (jid j) then jid j :: k else k). rewrite El, Ek. split; [|split; [|split]].
        -- destruct (valid (jid j)); [rewrite <- app_assoc|]; reflexivity.
        -- exact Dk.
        -- destruct (valid (jid j)); [|exact Nk]. constructor; [|exact Nk]. intros C. apply Hk in C.
           destruct C as (_ & _ & C). apply Hl' in C. tauto.
        -- intros id. specialize (Hk id). rewrite Hl' in Hk.
           destruct (valid (jid j)) eqn:Ev; cbn [In]; rewrite Hk.
           ++ split.
              ** intros [<-|H]; [|tauto]. split; [exact Ev|]. split; [auto|]. now apply in_map.
              ** intros (V & [B|B] & C).
                 --- injection B as <-. auto.
                 --- destruct (str_eq_dec id (jid j)) as [->|N]; [auto|]. tauto.
           ++ split; [tauto|]. intros (V & [B|B] & C).
              ** injection B as <-. congruence.
              ** repeat split; auto. intros ->. congruence.
      * assert (H : forall j, In j live -> IdStr (jid j) <> IdStr s).
        { intros j Hj C. injection C as <-. assert (E' : dget (jid j) (settings (index_of live)) = Some j) by (apply A1; auto). congruence. }
        destruct (IH live c D Hq) as (k & Ek & Dk & Nk & Hk). exists k. rewrite Skip by exact H.
        split; [exact Ek|]. split; [exact Dk|]. split; [exact Nk|]. intros id. rewrite Hk. now apply Skip2.
    + assert (H : forall j, In j live -> IdStr (jid j) <> IdInt z) by discriminate.
      destruct (IH live c D Hq) as (k & Ek & Dk & Nk & Hk). exists k. rewrite Skip by exact H.
      split; [exact Ek|]. split; [exact Dk|]. split; [exact Nk|]. intros id. rewrite Hk. now apply Skip2.
    + assert (H : forall j, In j live -> IdStr (jid j) <> IdNone) by discriminate.
      destruct (IH live c D Hq) as (k & Ek & Dk & Nk & Hk). exists k. rewrite Skip by exact H.
      split; [exact Ek|]. split; [exact Dk|]. split; [exact Nk|]. intros id. rewrite Hk. now apply Skip2.
Qed.

Lemma delete_loop_unconfirmed valid qdel ids : forall x c, delete_loop valid qdel false ids x c = (c, Ok x).
Proof.
  induction ids as [|i ids IH]; intros x c; cbn; [reflexivity|]. destruct i; auto. destruct (dget s (settings x)); auto.
Qed.

Lemma in_range_spec sl z : in_range sl z = true <->
  (exists a b, s_minmax sl = Some (a, b) /\ (a <= z <= b)%Z) \/ (exists m, s_min sl = Some m /\ (m <= z)%Z).
Proof.
  unfold in_range. rewrite orb_true_iff. split.
  - intros [H|H].
    + left. destruct (s_minmax sl) as [[a b]|]; [|discriminate]. apply andb_true_iff in H. rewrite !Z.leb_le in H. eauto.
    + right. destruct (s_min sl) as [m|]; [|discriminate]. apply Z.leb_le in H. eauto.
  - intros [(a & b & -> & H)|(m & -> & H)]; [left|right].
    + apply andb_true_iff. rewrite !Z.leb_le. exact H.
    + now apply Z.leb_le.
Qed.

Lemma select_range toint sl live : (forall j, In j live -> exists z, id_number toint (jid j) = Ok z) -> forall l0,
  exists l, fold_left (fun r kv => bindR r (fun l => bindR (id_number toint (fst kv)) (fun z =>
              Ok (if in_range sl z then add_id l (IdStr (fst kv)) else l)))) (map (fun j => (jid j, j)) live) (Ok l0) = Ok l /\
  forall y, In y l <-> In y l0 \/ exists j z, In j live /\ y = IdStr (jid j) /\ id_number toint (jid j) = Ok z /\ in_range sl z = true.
Proof.
  induction live as [|j live IH]; intros Hn l0; cbn [map fold_left].
  - exists l0. split; [reflexivity|]. intros y. split; [auto|]. intros [H|(j & z & [] & _)]; auto.
  - destruct (Hn j) as [z Ez]; [cbn; auto|]. cbn [bindR fst]. rewrite Ez. cbn [bindR].
    destruct (IH (fun j Hj => Hn j (or_intror Hj)) (if in_range sl z then add_id l0 (IdStr (jid j)) else l0)) as (l & El & Hl).
    exists l. split; [exact El|]. intros y. rewrite Hl. clear El Hl IH. split.
    + intros [H|(j' & z' & H & R)].
      * destruct (in_range sl z) eqn:E; [|auto]. apply add_id_In in H. destruct H as [H|H]; [auto|].
        right. exists j, z. cbn. auto.
      * right. exists j', z'. cbn. tauto.
    + intros [H|(j' & z' & [<-|H] & E1 & E2 & E3)].
      * left. destruct (in_range sl z); [apply add_id_In|]; auto.
      * left. assert (z' = z) by congruence. subst. rewrite E3. apply add_id_In. auto.
      * right. exists j', z'. auto.
Qed.

Lemma select_spec toint sl live : distinct live ->
  (s_minmax sl <> None \/ s_min sl <> None -> forall j, In j live -> exists z, id_number toint (jid j) = Ok z) ->
  exists l, select_ids toint (index_of live) sl = Ok l /\
  forall j, In j live -> (In (IdStr (jid j)) l <-> chosen toint sl j).
Proof.
  intros D Hn. pose proof (agrees_index_of live D) as (A1 & A2 & A3 & _).
  unfold select_ids.
  set (l1 := match s_roots sl with Some rs => _ | None => s_ids sl end).
  set (l2 := match s_names sl with Some ns => _ | None => l1 end).
  assert (U : forall j j', In j live -> In j' live -> jid j = jid j' -> j = j').
  { intros j j' H1 H2 E. assert (G1 : dget (jid j) (settings (index_of live)) = Some j) by (apply A1; auto).
    assert (G2 : dget (jid j) (settings (index_of live)) = Some j') by (apply A1; auto). congruence. }
  assert (H1 : forall j, In j live -> (In (IdStr (jid j)) l1 <-> In (IdStr (jid j)) (s_ids sl) \/ exists rs r, s_roots sl = Some rs /\ In r rs /\ In r (jnames j))).
  { intros j Hj. unfold l1. destruct (s_roots sl) as [rs|].
    - rewrite fold_add_In. split.
      + intros [H|[r [Hr E]]]; [auto|]. right. exists rs, r. repeat split; auto.
        destruct (dget r (byRoot (index_of live))) as [id|] eqn:Er; [|discriminate]. injection E as <-.
        apply A3 in Er. destruct Er as (j' & Hj' & Hr' & E'). now rewrite (U j j').
      + intros [H|(rs' & r & E & Hr & Hj')]; [auto|]. injection E as <-. right. exists r. split; [exact Hr|].
        assert (Er : dget r (byRoot (index_of live)) = Some (jid j)) by (apply A3; eauto). now rewrite Er.
    - split; [auto|]. intros [H|(rs & r & E & _)]; [auto|discriminate]. }
  assert (H2 : forall j, In j live -> (In (IdStr (jid j)) l2 <-> In (IdStr (jid j)) l1 \/ exists ns, s_names sl = Some ns /\ In (jname j) ns)).
  { intros j Hj. unfold l2. destruct (s_names sl) as [ns|].
    - rewrite fold_add_In. split.
      + intros [H|[r [Hr E]]]; [auto|]. right. exists ns. split; [auto|].
        destruct (dget r (byName (index_of live))) as [id|] eqn:Er; [|discriminate]. injection E as <-.
        apply A2 in Er. destruct Er as (j' & Hj' & <- & E'). now rewrite (U j j').
      + intros [H|(ns' & E & Hr)]; [auto|]. injection E as <-. right. exists (jname j). split; [exact Hr|].
        assert (Er : dget (jname j) (byName (index_of live)) = Some (jid j)) by (apply A2; eauto). now rewrite Er.
    - split; [auto|]. intros [H|(ns & E & _)]; [auto|discriminate]. }
  assert (Rng : s_minmax sl <> None \/ s_min sl <> None -> exists l,
    fold_left (fun r kv => bindR r (fun l => bindR (id_number toint (fst kv)) (fun z =>
              Ok (if in_range sl z then add_id l (IdStr (fst kv)) else l)))) (settings (index_of live)) (Ok l2) = Ok l /\
    forall j, In j live -> (In (IdStr (jid j)) l <-> chosen toint sl j)).
  { intros H. destruct (select_range toint sl live (Hn H) l2) as (l & El & Hl). exists l. split; [exact El|].
    intros j Hj. rewrite Hl, H2, H1 by exact Hj. unfold chosen. split.
    - intros [H'|(j' & z & Hj' & E & E2 & E3)]; [tauto|]. injection E as E. rewrite (U j j') by auto.
      right. right. right. exists z. rewrite <- in_range_spec. auto.
    - intros [H'|[H'|[H'|(z & E & H')]]]; [tauto|tauto|tauto|]. right. exists j, z. rewrite in_range_spec. auto. }
  destruct (s_minmax sl) as [mm|] eqn:Emm; [apply Rng; left; discriminate|].
  destruct (s_min sl) as [m|] eqn:Em; [apply Rng; right; discriminate|].
  exists l2. split; [reflexivity|]. intros j Hj. rewrite H2, H1 by exact Hj. unfold chosen. rewrite Emm, Em. split; [tauto|].
  intros [H'|[H'|[H'|(z & E & [(a & b & C & _)|(mm & C & _)])]]]; tauto || discriminate.
Qed.

Lemma deleteJobs_spec toint valid qdel sl live : distinct live -> (forall id, qdel id = true) ->
  (s_minmax sl <> None \/ s_min sl <> None -> forall j, In j live -> exists z, id_number toint (jid j) = Ok z) ->
  exists k keep, deleteJobs toint valid qdel true sl (index_of live) = (k, Ok (index_of keep)) /\
  distinct keep /\
  (exists p, keep = filter p live /\ forall j, In j live -> (p j = false <-> chosen toint sl j)) /\
  NoDup k /\ (forall id, In id k <-> valid id = true /\ exists j, In j live /\ jid j = id /\ chosen toint sl j).
Proof.
  intros D Hq Hn. destruct (select_spec toint sl live D Hn) as (l & El & Hl).
  unfold deleteJobs. rewrite El. destruct (delete_loop_spec valid qdel l live [] D Hq) as (k & Ek & Dk & Nk & Hk).
  exists k, (out_of l live). rewrite Ek. split; [reflexivity|]. split; [exact Dk|]. split; [|split; [exact Nk|]].
  - exists (fun j => negb (id_in (IdStr (jid j)) l)). split; [reflexivity|]. intros j Hj. rewrite negb_false_iff, id_in_spec. auto.
  - intros id. rewrite Hk. split.
    + intros (V & I & M). split; [exact V|]. apply in_map_iff in M. destruct M as [j [<- Hj]]. exists j. rewrite <- Hl; auto.
    + intros (V & j & Hj & <- & C). rewrite <- Hl in C by exact Hj. split; [exact V|]. split; [exact C|]. now apply in_map.
Qed.
