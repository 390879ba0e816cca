From Verif Require Import PyStr PyStrFacts PyBase JobModel JobSpec.
From Coq Require Import ZArith Lia.
Local Open Scope nat_scope.

(** exact contents of a consistent index *)
Definition distinct (live : list job) : Prop :=
  NoDup (map jid live) /\ NoDup (map jname live) /\ NoDup (flat_map jnames live).
Definition index_of (live : list job) : index :=
  mkIndex (map (fun j => (jid j, j)) live) (map (fun j => (jname j, jid j)) live)
          (flat_map (fun j => map (fun r => (r, jid j)) (jnames j)) live) (map jid live).

Lemma keys_map {A V} (f : A -> str) (g : A -> V) l : dkeys (map (fun a => (f a, g a)) l) = map f l.
Proof. unfold dkeys. now rewrite map_map. Qed.
Lemma keys_roots live : dkeys (flat_map (fun j => map (fun r => (r, jid j)) (jnames j)) live) = flat_map jnames live.
Proof.
  unfold dkeys. induction live as [|j live IH]; cbn; [auto|]. rewrite map_app, IH. f_equal.
  rewrite map_map. cbn. apply map_id.
Qed.
Lemma NoDup_app_intro {A} (a b : list A) : NoDup a -> NoDup b -> (forall x, In x a -> ~ In x b) -> NoDup (a ++ b).
Proof.
  induction a as [|x a IH]; intros Ha Hb H; cbn; [auto|]. inversion Ha; subst. constructor.
  - intros C. apply in_app_or in C. destruct C as [C|C]; [contradiction|]. apply (H x); cbn; auto.
  - apply IH; auto. intros y Hy. apply H. cbn; auto.
Qed.
Lemma NoDup_app_l {A} (a b : list A) : NoDup (a ++ b) -> NoDup a.
Proof. induction a as [|x a IH]; cbn; intros H; [constructor|]. inversion H; subst. constructor; [|auto]. intros C. apply H2. apply in_or_app. auto. Qed.
Lemma NoDup_app_r {A} (a b : list A) : NoDup (a ++ b) -> NoDup b.
Proof. induction a as [|x a IH]; cbn; intros H; [auto|]. inversion H; subst. auto. Qed.
Lemma NoDup_app_disj {A} (a b : list A) x : NoDup (a ++ b) -> In x a -> ~ In x b.
Proof.
  induction a as [|y a IH]; cbn; intros H Hx C; [contradiction|]. inversion H; subst. destruct Hx as [->|Hx].
  - apply H2. apply in_or_app; auto.
  - now apply IH.
Qed.

Lemma agrees_index_of live : distinct live -> agrees (index_of live) live.
Proof.
  intros (N1 & N2 & N3). unfold agrees, index_of. cbn [settings byName byRoot jobSeq]. split; [|split; [|split]].
  - intros id j. split.
    + intros H. apply dget_Some_In in H. apply in_map_iff in H. destruct H as [j' [E Hj]]. injection E as <- <-. auto.
    + intros [H <-]. apply dget_In_NoDup; [rewrite keys_map; exact N1|]. apply in_map_iff. exists j. auto.
  - intros n id. split.
    + intros H. apply dget_Some_In in H. apply in_map_iff in H. destruct H as [j' [E Hj]]. injection E as <- <-. eauto.
    + intros (j & H & <- & <-). apply dget_In_NoDup; [rewrite keys_map; exact N2|]. apply in_map_iff. exists j. auto.
  - intros r id. split.
    + intros H. apply dget_Some_In in H. apply in_flat_map in H. destruct H as [j [Hj H]].
      apply in_map_iff in H. destruct H as [r' [E Hr]]. injection E as <- <-. eauto.
    + intros (j & H & Hr & <-). apply dget_In_NoDup; [rewrite keys_roots; exact N3|].
      apply in_flat_map. exists j. split; [exact H|]. apply in_map_iff. exists r. auto.
  - reflexivity.
Qed.

Lemma fold_dset_new {V} (v : V) ns : forall d, NoDup ns -> (forall n, In n ns -> ~ In n (dkeys d)) ->
  fold_left (fun d n => dset n v d) ns d = d ++ map (fun n => (n, v)) ns.
Proof.
  induction ns as [|n ns IH]; intros d Hn Hd; cbn [fold_left map]; [now rewrite app_nil_r|].
  inversion Hn; subst. rewrite (dset_new n v d) by (apply Hd; cbn; auto). rewrite IH; auto.
  - now rewrite <- app_assoc.
  - intros m Hm. unfold dkeys. rewrite map_app. cbn. intros C. apply in_app_or in C.
    destruct C as [C|[->|[]]]; [apply (Hd m); cbn; auto|contradiction].
Qed.

Lemma add_index_of live j : distinct live -> fresh live j ->
  addJob (index_of live) j = index_of (live ++ [j]) /\ distinct (live ++ [j]).
Proof.
  intros (N1 & N2 & N3) (F1 & F2 & F3 & F4). split.
  - unfold addJob, index_of. cbn [settings byName byRoot jobSeq].
    rewrite (dset_new (jid j)) by (rewrite keys_map; exact F1).
    rewrite (dset_new (jname j)) by (rewrite keys_map; exact F2).
    rewrite fold_dset_new; [|exact F3|intros n Hn; rewrite keys_roots; now apply F4].
    rewrite !map_app, flat_map_app. cbn. now rewrite app_nil_r.
  - unfold distinct. rewrite !map_app, flat_map_app. cbn. rewrite app_nil_r. repeat split.
    + apply NoDup_app_intro; auto; [repeat constructor; auto|]. intros x Hx [<-|[]]. contradiction.
    + apply NoDup_app_intro; auto; [repeat constructor; auto|]. intros x Hx [<-|[]]. contradiction.
    + apply NoDup_app_intro; auto. intros x Hx C. now apply (F4 x).
Qed.

Lemma del_keys_ok {V} ks : forall (a b : dict V) (m : dict V), dkeys m = ks -> NoDup (dkeys a ++ ks) ->
  del_keys ks (a ++ m ++ b) = Ok (a ++ b).
Proof.
  induction ks as [|k ks IH]; intros a b m E N; cbn [del_keys].
  - destruct m; [reflexivity|discriminate].
  - destruct m as [|[k' v] m]; cbn in E; [discriminate|]. injection E as -> Em.
    assert (Hk : ~ In k (dkeys a)) by (intros C; apply (NoDup_app_disj _ _ k N C); cbn; auto).
    unfold del_key.
    assert (Hd : forall a : dict V, ~ In k (dkeys a) -> ddel k (a ++ ((k, v) :: m) ++ b) = a ++ m ++ b
                 /\ dhas k (a ++ ((k, v) :: m) ++ b) = true).
    { clear. induction a as [|[k1 v1] a IH]; intros H; cbn in *.
      - unfold dhas. cbn. rewrite str_eqb_refl. auto.
      - unfold dhas in *. cbn. destruct (str_eqb_spec k k1) as [->|N]; [exfalso; auto|].
        destruct IH as [I1 I2]; [auto|]. cbn in I1, I2. rewrite I1. auto. }
    destruct (Hd a Hk) as [-> ->]. cbn [bindR]. apply IH; [exact Em|].
    apply NoDup_remove_1 in N. exact N.
Qed.

Lemma distinct_split a j b : distinct (a ++ j :: b) -> distinct (a ++ b) /\
  ~ In (jid j) (map jid (a ++ b)).
Proof.
  unfold distinct. rewrite !map_app, !flat_map_app. cbn. intros (N1 & N2 & N3).
  split; [repeat split|].
  - now apply NoDup_remove_1 in N1.
  - now apply NoDup_remove_1 in N2.
  - apply NoDup_app_intro.
    + now apply NoDup_app_l in N3.
    + apply NoDup_app_r in N3. now apply NoDup_app_r in N3.
    + intros x Hx C. apply (NoDup_app_disj _ _ x N3 Hx). apply in_or_app. auto.
  - now apply NoDup_remove_2 in N1.
Qed.

Lemma filter_split a j b : ~ In (jid j) (map jid (a ++ b)) ->
  filter (fun i => negb (str_eqb (jid i) (jid j))) (a ++ j :: b) = a ++ b.
Proof.
  intros H. assert (F : forall l, ~ In (jid j) (map jid l) -> filter (fun i => negb (str_eqb (jid i) (jid j))) l = l).
  { clear. induction l as [|i l IH]; cbn; intros H; [auto|]. destruct (str_eqb_spec (jid i) (jid j)) as [E|N].
    - exfalso. apply H. auto.
    - cbn. f_equal. apply IH. auto. }
  rewrite map_app in H. assert (Ha : ~ In (jid j) (map jid a)) by (intros C; apply H; apply in_or_app; auto).
  assert (Hb : ~ In (jid j) (map jid b)) by (intros C; apply H; apply in_or_app; auto).
  rewrite <- (F a Ha) at 2. rewrite <- (F b Hb) at 2.
  clear. induction a as [|i a IH]; cbn.
  - now rewrite str_eqb_refl.
  - destruct (negb (str_eqb (jid i) (jid j))); cbn; now rewrite IH.
Qed.

Lemma del_index_of live id : distinct live ->
  delId (index_of live) id = Ok (index_of (filter (fun j => negb (str_eqb (jid j) id)) live)) /\
  distinct (filter (fun j => negb (str_eqb (jid j) id)) live).
Proof.
  intros D. pose proof (agrees_index_of live D) as (A1 & _).
  unfold delId. destruct (dget id (settings (index_of live))) as [j|] eqn:E.
  - apply A1 in E. destruct E as [Hj <-]. apply in_split in Hj. destruct Hj as (a & b & ->).
    destruct (distinct_split a j b D) as [D' Hn]. rewrite filter_split by exact Hn. split; [|exact D'].
    destruct D as (N1 & N2 & N3). unfold index_of. cbn [settings byName byRoot jobSeq].
    set (ra := flat_map (fun j => map (fun r => (r, jid j)) (jnames j))).
    replace (ra (a ++ j :: b)) with (ra a ++ map (fun r => (r, jid j)) (jnames j) ++ ra b).
    2:{ unfold ra. rewrite flat_map_app. reflexivity. }
    rewrite del_keys_ok.
    2:{ unfold dkeys. rewrite map_map. cbn. apply map_id. }
    2:{ unfold ra. rewrite keys_roots. rewrite flat_map_app in N3. cbn in N3. rewrite app_assoc in N3. now apply NoDup_app_l in N3. }
    cbn [bindR].
    replace (map (fun j0 => (jid j0, j0)) (a ++ j :: b)) with (map (fun j0 => (jid j0, j0)) a ++ [(jid j, j)] ++ map (fun j0 => (jid j0, j0)) b)
      by (rewrite map_app; reflexivity).
    replace (map (fun j0 => (jname j0, jid j0)) (a ++ j :: b)) with (map (fun j0 => (jname j0, jid j0)) a ++ [(jname j, jid j)] ++ map (fun j0 => (jname j0, jid j0)) b)
      by (rewrite map_app; reflexivity).
    assert (K1 : forall V k (x y : dict V) m, dkeys m = [k] -> NoDup (dkeys x ++ [k]) -> del_key k (x ++ m ++ y) = Ok (x ++ y)).
    { intros V k x y m Em N. pose proof (del_keys_ok [k] x y m Em N) as H. cbn in H.
      destruct (del_key k (x ++ m ++ y)); cbn in H; exact H. }
    rewrite K1; [|reflexivity|].
    2:{ rewrite keys_map. rewrite map_app in N1. cbn in N1. change (jid j :: map jid b) with ([jid j] ++ map jid b) in N1.
        rewrite app_assoc in N1. now apply NoDup_app_l in N1. }
    cbn [bindR]. rewrite K1; [|reflexivity|].
    2:{ rewrite keys_map. rewrite map_app in N2. cbn in N2. change (jname j :: map jname b) with ([jname j] ++ map jname b) in N2.
        rewrite app_assoc in N2. now apply NoDup_app_l in N2. }
    cbn [bindR]. unfold ra. rewrite <- !map_app, <- flat_map_app. repeat f_equal.
    rewrite <- (filter_split a j b Hn).
    clear. induction (a ++ j :: b) as [|i l IH]; cbn; [auto|].
    destruct (str_eqb (jid i) (jid j)); cbn; now rewrite IH.
  - assert (F : filter (fun j => negb (str_eqb (jid j) id)) live = live).
    { assert (H : forall j, In j live -> jid j <> id).
      { intros j Hj C. assert (E' : dget id (settings (index_of live)) = Some j) by (apply A1; auto). congruence. }
      clear - H. induction live as [|i l IH]; cbn; [auto|]. destruct (str_eqb_spec (jid i) id) as [C|N].
      - exfalso. apply (H i); cbn; auto.
      - cbn. f_equal. apply IH. intros; apply H; cbn; auto. }
    rewrite F. auto.
Qed.

Lemma run_spec ops : all_fresh ops -> run ops = Ok (index_of (live_after ops)) /\ distinct (live_after ops).
Proof.
  induction ops as [|o ops IH] using rev_ind; intros H.
  - split; [reflexivity|]. unfold live_after, distinct. cbn. repeat split; constructor.
  - destruct IH as [IR ID].
    { intros pre j post E. apply (H pre j (post ++ [o])). rewrite E, <- app_assoc. reflexivity. }
    unfold run, live_after. rewrite !fold_left_app. cbn [fold_left]. fold (run ops) (live_after ops). rewrite IR. cbn [bindR].
    destruct o as [j|id]; cbn [live_step].
    + destruct (add_index_of (live_after ops) j ID) as [E D]; [apply (H ops j []); reflexivity|]. rewrite E. auto.
    + destruct (del_index_of (live_after ops) id ID) as [E D]. auto.
Qed.

(** submissions only: every name and root leads to its latest job *)
Lemma adds_latest js : forall x0, let x := fold_left addJob js x0 in
  (forall n, dget n (byName x) = match find (fun j => str_eqb n (jname j)) (rev js) with Some j => Some (jid j) | None => dget n (byName x0) end) /\
  (forall r, dget r (byRoot x) = match find (fun j => mem_str r (jnames j)) (rev js) with Some j => Some (jid j) | None => dget r (byRoot x0) end).
Proof.
  induction js as [|j js IH] using rev_ind; intros x0; [cbn; auto|].
  cbv zeta in *. rewrite fold_left_app. cbn [fold_left]. rewrite rev_app_distr. cbn [rev app find].
  destruct (IH x0) as [I1 I2]. split.
  - intros n. cbn [addJob byName]. rewrite dget_dset. destruct (str_eqb n (jname j)); [reflexivity|]. apply I1.
  - intros r. cbn [addJob byRoot].
    assert (G : forall ns d, dget r (fold_left (fun d n => dset n (jid j) d) ns d) = if mem_str r ns then Some (jid j) else dget r d).
    { clear. induction ns as [|n ns IH]; intros d; cbn; [reflexivity|]. rewrite IH, dget_dset.
      fold (mem_str r ns). destruct (str_eqb r n); cbn; destruct (mem_str r ns); reflexivity. }
    rewrite G. destruct (mem_str r (jnames j)); [reflexivity|]. apply I2.
Qed.

(** saving *)
Lemma save_cases x k d s : In s (save_states x k d) ->
  main s = main d \/ (main s = None /\ main d <> None /\ tmp s = Some (Whole x)) \/ (main s = Some (Whole x) /\ tmp s = None).
Proof.
  unfold save_states. cbn [In]. intros [<-|H]; [auto|].
  apply in_app_or in H. destruct H as [H|H].
  - apply repeat_spec in H. subst. auto.
  - cbn in H. destruct H as [<-|H]; [auto|]. destruct (main d) eqn:E; cbn in H.
    + destruct H as [<-|[<-|[]]]; cbn; auto. right. left. repeat split; congruence.
    + destruct H as [<-|[]]; cbn; auto.
Qed.
