(** Proofs about the sampler. *)
From Verif Require Import StatModel StatSpec StatProofs McmcModel McmcSpec.
From Coq Require Import Reals List Bool ZArith Lia Lra.
Import ListNotations.
Local Open Scope R_scope.
Local Open Scope list_scope.

Lemma Rltb_spec a b : Rltb a b = true <-> a < b.
Proof. unfold Rltb. destruct (Rlt_dec a b); split; intros; try discriminate; tauto. Qed.
Lemma Reqb_spec a b : Reqb a b = true <-> a = b.
Proof. unfold Reqb. destruct (Req_EM_T a b); split; intros; try discriminate; tauto. Qed.
Lemma Reqb_false a b : Reqb a b = false <-> a <> b.
Proof. unfold Reqb. destruct (Req_EM_T a b); split; intros; try discriminate; tauto. Qed.

Lemma Forall2_cons_iff {A B} (P : A -> B -> Prop) x y l m : Forall2 P (x :: l) (y :: m) <-> P x y /\ Forall2 P l m.
Proof. split; [intros H; now inversion H|intros (H & H'); now constructor]. Qed.

(** ** Boxes *)
Lemma volume_app a b : volume (a ++ b) = volume a * volume b.
Proof. unfold volume. induction a as [|i a IH]; cbn [app fold_right]; [ring|]. rewrite IH. ring. Qed.
Lemma volume_rev b : volume (rev b) = volume b.
Proof. induction b as [|i b IH]; [reflexivity|]. cbn [rev]. rewrite volume_app, IH. unfold volume. cbn [fold_right]. ring. Qed.
Lemma never n (ev : list R -> Prop) : (0 < n)%nat -> (forall us, unit_cube n us -> ~ ev us) -> probability n ev 0.
Proof.
  intros Hn H. exists (repeat (0, 0) n). split; [apply repeat_length|]. split.
  { clear. unfold box_ok. induction n; cbn [repeat]; constructor; auto. cbn. lra. }
  split; [destruct n; [lia|]; unfold volume; cbn [repeat fold_right fst snd]; ring|].
  intros us U. split; [intros E; destruct (H us U E)|]. intros B. destruct n; [lia|]. cbn [repeat] in B. inversion B; subst. cbn in *. lra.
Qed.
Lemma empty_volume b : box_ok b -> (forall us, unit_cube (length b) us -> ~ in_box us b) -> volume b = 0.
Proof.
  intros Ok H.
  assert (D : (exists i, In i b /\ fst i = snd i) \/ Forall (fun i => fst i < snd i) b).
  { clear H. induction Ok as [|i b Hi Ok IH]; [right; constructor|]. destruct IH as [(j & Hj & E)|IH]; [left; exists j; now split; [right|]|].
    destruct (Req_dec (fst i) (snd i)) as [E|E]; [left; exists i; split; [now left|exact E]|right; constructor; [lra|exact IH]]. }
  destruct D as [(i & Hi & E)|D].
  - clear H. induction b as [|j b IH]; [destruct Hi|]. unfold volume. cbn [fold_right]. destruct Hi as [->|Hi]; [rewrite E; ring|].
    inversion Ok; subst. change (fold_right _ 1 b) with (volume b). rewrite IH by assumption. ring.
  - exfalso. apply (H (map (fun i => (fst i + snd i) / 2) b)).
    + split; [apply map_length|]. clear H. induction D as [|i b Hi D IH]; cbn [map]; constructor; inversion Ok; subst; [lra|auto].
    + clear H. unfold in_box. induction D as [|i b Hi D IH]; cbn [map]; constructor; inversion Ok; subst; [lra|auto].
Qed.
(** the probability of an event is determined *)
Lemma box_lower b b' : box_ok b -> box_ok b' -> length b = length b' -> Forall (fun i => fst i < snd i) b ->
  (forall us, unit_cube (length b) us -> in_box us b -> in_box us b') -> Forall2 (fun i j => fst j <= fst i /\ snd i <= snd j) b b'.
Proof.
  intros Ok. revert b'. induction Ok as [|i b Hi Ok IH]; intros [|j b'] Ok' Hl D H; try discriminate; constructor.
  - inversion D as [|? ? Di Db]; subst. inversion Ok' as [|? ? Oj Ob']; subst.
    set (mid := map (fun i => (fst i + snd i) / 2) b).
    assert (M1 : length mid = length b) by apply map_length.
    assert (M2 : Forall (fun u => 0 < u < 1) mid /\ in_box mid b).
    { unfold mid. clear -Ok Db. unfold in_box. induction Db as [|i b Hi D IH]; cbn [map]; [split; constructor|]. inversion Ok; subst. destruct IH as (A & B); [assumption|].
      split; constructor; auto; lra. }
    assert (P : forall u, 0 < u < 1 -> fst i <= u < snd i -> fst j <= u < snd j).
    { intros u Hu Hi'. assert (X : in_box (u :: mid) (j :: b')).
      { apply H; [split; [cbn; now rewrite M1|constructor; [exact Hu|apply M2]]|constructor; [exact Hi'|apply M2]]. }
      now inversion X; subst. }
    split.
    + destruct (Rle_dec (fst j) (fst i)) as [L|L]; [exact L|exfalso].
      set (u := (fst i + Rmin (fst j) (snd i)) / 2). pose proof (Rmin_l (fst j) (snd i)). pose proof (Rmin_r (fst j) (snd i)).
      assert (fst i < Rmin (fst j) (snd i)) by (apply Rmin_glb_lt; lra).
      destruct (P u); unfold u in *; lra.
    + destruct (Rle_dec (snd i) (snd j)) as [L|L]; [exact L|exfalso].
      set (u := (snd i + Rmax (snd j) (fst i)) / 2). pose proof (Rmax_l (snd j) (fst i)). pose proof (Rmax_r (snd j) (fst i)).
      assert (Rmax (snd j) (fst i) < snd i) by (apply Rmax_lub_lt; lra).
      destruct (P u); unfold u in *; lra.
  - inversion D as [|? ? Di Db]; subst. inversion Ok' as [|? ? Oj Ob']; subst. cbn in Hl. apply IH; auto; try lia. intros us U B.
    assert (X : in_box ((fst i + snd i) / 2 :: us) (j :: b')).
    { apply H; [destruct U; split; [cbn; lia|constructor; [lra|assumption]]|constructor; [lra|exact B]]. }
    now inversion X; subst.
Qed.
Lemma probability_unique n ev p q : probability n ev p -> probability n ev q -> p = q.
Proof.
  intros (b & Lb & Ob & Vb & Hb) (b' & Lb' & Ob' & Vb' & Hb'). subst n.
  assert (E : forall us, unit_cube (length b) us -> (in_box us b <-> in_box us b')).
  { intros us U. rewrite <- (Hb us U). now apply Hb'. }
  assert (dec : forall c, box_ok c -> volume c = 0 \/ Forall (fun i => fst i < snd i) c).
  { clear. induction c as [|i c IH]; intros Ok; [right; constructor|]. inversion Ok; subst. unfold volume. cbn [fold_right]. change (fold_right _ 1 c) with (volume c).
    destruct IH as [->|IH]; [assumption|left; ring|]. destruct (Req_dec (fst i) (snd i)) as [X|X]; [left; rewrite X; ring|right; constructor; [lra|exact IH]]. }
  assert (pos : forall c, Forall (fun i => fst i < snd i) c -> 0 < volume c).
  { clear. intros c H. induction H as [|i c Hi H IH]; unfold volume; cbn [fold_right]; [lra|]. apply Rmult_lt_0_compat; [lra|exact IH]. }
  destruct (dec b Ob) as [Z|D].
  - destruct (dec b' Ob') as [Z'|D']; [congruence|].
    assert (X : volume b' = 0 -> p = q) by congruence. apply X. apply empty_volume; [exact Ob'|]. intros us U B. rewrite Lb' in U.
    exfalso. pose proof (pos b' D').
    assert (F : Forall2 (fun i j => fst j <= fst i /\ snd i <= snd j) b' b).
    { apply box_lower; auto. intros us' U' B'. apply E; [now rewrite <- Lb'|exact B']. }
    assert (Forall (fun i => fst i < snd i) b).
    { clear -F D'. induction F; constructor; inversion D'; subst; [lra|auto]. }
    pose proof (pos b H0). lra.
  - assert (D' : Forall (fun i => fst i < snd i) b').
    { assert (F : Forall2 (fun i j => fst j <= fst i /\ snd i <= snd j) b b') by (apply box_lower; auto; intros us' U' B'; now apply E).
      clear -F D. induction F; constructor; inversion D; subst; [lra|auto]. }
    assert (F : Forall2 (fun i j => fst j <= fst i /\ snd i <= snd j) b b') by (apply box_lower; auto; intros us' U' B'; now apply E).
    assert (F' : Forall2 (fun i j => fst j <= fst i /\ snd i <= snd j) b' b) by (apply box_lower; auto; intros us' U' B'; apply E; [now rewrite <- Lb'|exact B']).
    subst p q. clear -F F'. unfold volume. induction F as [|i j b b' H F IH]; [reflexivity|]. inversion F'; subst. cbn [fold_right]. rewrite IH by assumption. f_equal. lra.
Qed.

(** ** Acceptance *)
Lemma randexp_lt u x : 0 < u < 1 -> (x < randexp u <-> u < exp (- x)).
Proof.
  intros Hu. unfold randexp. split; intros H.
  - rewrite <- (exp_ln u) by lra. apply exp_increasing. lra.
  - apply ln_increasing in H; [|lra]. rewrite ln_exp in H. lra.
Qed.
(** the probability to accept *)
Definition ratio (cur like : R) : R := if Req_EM_T like logZero then 0 else Rmin 1 (exp (cur - like)).
Lemma ratio_range cur like : 0 <= ratio cur like <= 1.
Proof.
  unfold ratio. destruct (Req_EM_T like logZero); [lra|]. pose proof (exp_pos (cur - like)). split; [|apply Rmin_l].
  apply Rmin_glb; lra.
Qed.
Lemma accept_iff cur like u : 0 < u < 1 -> (MetropolisAccept like cur (randexp u) = true <-> u < ratio cur like).
Proof.
  intros Hu. unfold MetropolisAccept, ratio. destruct (Req_EM_T like logZero) as [E|E].
  - replace (Reqb like logZero) with true by (symmetry; now apply Reqb_spec). cbn [negb]. split; [discriminate|lra].
  - replace (Reqb like logZero) with false by (symmetry; now apply Reqb_false). cbn [negb].
    destruct (Rltb like cur) eqn:B.
    + apply Rltb_spec in B. split; [|reflexivity]. intros _.
      assert (1 < exp (cur - like)) by (rewrite <- exp_0; apply exp_increasing; lra). rewrite Rmin_left; lra.
    + rewrite Rltb_spec, randexp_lt by exact Hu. replace (- (like - cur)) with (cur - like) by ring.
      unfold Rmin. destruct (Rle_dec 1 (exp (cur - like))); split; lra.
Qed.
Lemma accept_probability cur like : probability 1 (accepts cur like) (ratio cur like).
Proof.
  pose proof (ratio_range cur like). exists [(0, ratio cur like)]. split; [reflexivity|]. split; [constructor; [cbn; lra|constructor]|].
  split; [unfold volume; cbn; ring|]. intros us (Hl & Hu). destruct us as [|u [|? ?]]; try discriminate. inversion Hu; subst.
  cbn [accepts]. rewrite accept_iff by assumption. split; intros X; [constructor; [cbn; lra|constructor]|]. inversion X; subst. cbn in *. lra.
Qed.
Lemma balance_exp a b : exp (- a) * Rmin 1 (exp (a - b)) = exp (- b) * Rmin 1 (exp (b - a)).
Proof.
  destruct (Rle_dec a b) as [H|H].
  - assert (exp (a - b) <= 1) by (rewrite <- exp_0; destruct (Req_dec a b); [right; f_equal; lra|left; apply exp_increasing; lra]).
    assert (1 <= exp (b - a)) by (rewrite <- exp_0; destruct (Req_dec a b); [right; f_equal; lra|left; apply exp_increasing; lra]).
    rewrite Rmin_right, Rmin_left by lra. rewrite <- exp_plus, Rmult_1_r. f_equal. ring.
  - assert (1 <= exp (a - b)) by (rewrite <- exp_0; left; apply exp_increasing; lra).
    assert (exp (b - a) <= 1) by (rewrite <- exp_0; left; apply exp_increasing; lra).
    rewrite Rmin_left, Rmin_right by lra. rewrite <- exp_plus, Rmult_1_r. f_equal. ring.
Qed.
Lemma balance_ratio a b : target a * ratio a b = target b * ratio b a.
Proof. unfold target, ratio. destruct (Req_EM_T a logZero), (Req_EM_T b logZero); try lra. apply balance_exp. Qed.

(** ** Dragging *)
Lemma vadd_length a b : length a = length b -> length (vadd a b) = length a.
Proof. intros H. unfold vadd. rewrite map_length, combine_length. lia. Qed.
Lemma vneg_length a : length (vneg a) = length a. Proof. apply map_length. Qed.
Lemma vadd_undo a b : length a = length b -> vadd (vadd a b) (vneg b) = a.
Proof.
  revert b. induction a as [|x a IH]; intros [|y b] H; try discriminate; [reflexivity|]. unfold vadd, vneg in *. cbn [combine map fst snd].
  f_equal; [ring|]. apply IH. cbn in H. lia.
Qed.
Lemma vadd_comm2 a b c : vadd (vadd a b) c = vadd (vadd a c) b.
Proof.
  revert b c. unfold vadd. induction a as [|x a IH]; intros [|y b] [|z c]; try reflexivity. cbn [combine map fst snd].
  f_equal; [ring|apply IH].
Qed.

Section Drag.
  Variable L : list R -> R.
  Hypothesis top : forall y, L y <= logZero.
  Variable n : nat.
  Hypothesis n_pos : (0 < n)%nat.
  Local Notation pt := (list R * list R)%type.

  Definition lev (i : nat) (p : pt) : R := L (fst p) * (1 - INR i / INR n) + INR i / INR n * L (snd p).
  Definition mv (d : list R) (p : pt) : pt := (vadd (fst p) d, vadd (snd p) d).
  Definition okp (p : pt) : Prop := L (fst p) <> logZero /\ L (snd p) <> logZero.
  Definition step (p : pt) (s : list R * bool) : pt := if snd s then mv (fst s) p else p.
  Fixpoint clean (p : pt) (path : list (list R * bool)) : Prop :=
    okp p /\ match path with [] => True | s :: path' => clean (step p s) path' end.
  (** acceptance probability of a turn *)
  Definition aprob (i : nat) (p : pt) (d : list R) : R :=
    if Req_EM_T (L (snd (mv d p))) logZero then 0 else
    if Req_EM_T (L (fst (mv d p))) logZero then 0 else Rmin 1 (exp (lev i p - lev i (mv d p))).
  Definition side (i : nat) (p : pt) (s : list R * bool) : R * R :=
    if snd s then (0, aprob i p (fst s)) else (aprob i p (fst s), 1).
  Fixpoint sides (i : nat) (p : pt) (path : list (list R * bool)) : list (R * R) :=
    match path with [] => [] | s :: path' => side i p s :: sides (S i) (step p s) path' end.
  (** sums of likelihoods along the path *)
  Fixpoint tot (f : pt -> R) (p : pt) (path : list (list R * bool)) : R :=
    f p + match path with [] => 0 | s :: path' => tot f (step p s) path' end.

  Lemma nR : 0 < INR n. Proof. now apply lt_0_INR. Qed.
  Lemma frac_range i : (i <= n)%nat -> 0 <= INR i / INR n <= 1.
  Proof.
    intros H. pose proof nR. apply le_INR in H. pose proof (pos_INR i). split.
    - apply Rmult_le_pos; [lra|]. left. now apply Rinv_0_lt_compat.
    - apply Rmult_le_reg_r with (INR n); [lra|]. unfold Rdiv. rewrite Rmult_assoc, Rinv_l by lra. lra.
  Qed.
  Lemma lev_top i p : (i <= n)%nat -> okp p -> lev i p < logZero.
  Proof.
    intros Hi (H1 & H2). pose proof (frac_range i Hi) as F. unfold lev. set (f := INR i / INR n) in *.
    pose proof (top (fst p)). pose proof (top (snd p)). assert (A : L (fst p) < logZero) by lra. assert (B : L (snd p) < logZero) by lra.
    destruct (Req_dec f 0) as [E|E]; [rewrite E; lra|].
    assert (f * L (snd p) < f * logZero) by (apply Rmult_lt_compat_l; lra).
    assert (L (fst p) * (1 - f) <= logZero * (1 - f)) by (apply Rmult_le_compat_r; lra). lra.
  Qed.
  Lemma aprob_range i p d : 0 <= aprob i p d <= 1.
  Proof.
    unfold aprob. destruct (Req_EM_T _ _); [lra|]. destruct (Req_EM_T _ _); [lra|]. pose proof (exp_pos (lev i p - lev i (mv d p))).
    split; [apply Rmin_glb; lra|apply Rmin_l].
  Qed.
  Definition dr (p : pt) (a b : R) : drag := mkD (fst p) (snd p) (L (fst p)) (L (snd p)) a b.
  Lemma drag_iff i p delta u a b : (i <= n)%nat -> 0 < u < 1 ->
    (drag_accept L n i delta (randexp u) (dr p a b) = true <-> u < aprob i p delta).
  Proof.
    intros Hi Hu. unfold drag_accept, aprob. cbn [d_end d_start d_lstart d_lend dr mv fst snd].
    destruct (Req_EM_T (L (vadd (snd p) delta)) logZero) as [E|E].
    { replace (Reqb _ _) with true by (symmetry; now apply Reqb_spec). cbn. split; [discriminate|lra]. }
    replace (Reqb _ _) with false by (symmetry; now apply Reqb_false). cbn [negb].
    destruct (Req_EM_T (L (vadd (fst p) delta)) logZero) as [E'|E'].
    { replace (Reqb _ _) with true by (symmetry; now apply Reqb_spec). cbn. split; [discriminate|lra]. }
    replace (Reqb _ _) with false by (symmetry; now apply Reqb_false). cbn [negb].
    rewrite accept_iff by exact Hu. unfold ratio.
    change (L (vadd (fst p) delta) * (1 - INR i / INR n) + INR i / INR n * L (vadd (snd p) delta)) with (lev i (mv delta p)).
    change (L (fst p) * (1 - INR i / INR n) + INR i / INR n * L (snd p)) with (lev i p).
    assert (lev i (mv delta p) < logZero) by (apply lev_top; [exact Hi|split; assumption]).
    destruct (Req_EM_T (lev i (mv delta p)) logZero); [lra|]. reflexivity.
  Qed.
  Lemma drag_next i p delta e a b : drag_step L n i delta e (dr p a b) =
    let p' := step p (delta, drag_accept L n i delta e (dr p a b)) in dr p' (a + L (fst p')) (b + L (snd p')).
  Proof. unfold drag_step. destruct (drag_accept L n i delta e (dr p a b)); reflexivity. Qed.

  Lemma follows_box path : forall i p a b us, (i + length path <= n)%nat -> unit_cube (length path) us ->
    (follows L n i path us (dr p a b) <-> in_box us (sides i p path)).
  Proof.
    induction path as [|[delta acc] path IH]; intros i p a b us Hi (Hl & Hu).
    - destruct us; [|discriminate]. cbn. split; [constructor|trivial].
    - destruct us as [|u us]; [discriminate|]. inversion Hu as [|? ? U0 U1]; subst. cbn [follows sides]. rewrite drag_next.
      cbn [length] in *. pose proof (drag_iff i p delta u a b ltac:(lia) U0) as D. unfold in_box. rewrite Forall2_cons_iff.
      assert (A : (drag_accept L n i delta (randexp u) (dr p a b) = acc) <-> (fst (side i p (delta, acc)) <= u < snd (side i p (delta, acc)))).
      { unfold side. cbn [snd fst]. destruct acc; cbn [fst snd].
        - rewrite D. split; lra.
        - rewrite <- not_true_iff_false, D. split; lra. }
      rewrite <- A. assert (UC : unit_cube (length path) us) by (cbn in Hl; split; [lia|exact U1]).
      split; intros (E & F); (split; [exact E|]); rewrite E in *; cbn zeta in *; (eapply IH; [lia|exact UC|exact F]).
  Qed.
  Lemma follows_clean path : forall i p a b us, okp p -> length us = length path ->
    follows L n i path us (dr p a b) -> clean p path.
  Proof.
    induction path as [|[delta acc] path IH]; intros i p a b us Ok Hl F; cbn [clean]; (split; [exact Ok|]); [trivial|].
    destruct us as [|u us]; [discriminate|]. cbn [follows] in F. destruct F as (E & F). rewrite drag_next, E in F. cbn zeta in F.
    refine (IH _ _ _ _ us _ _ F); [|cbn in Hl; lia]. unfold step. cbn [snd]. destruct acc; [|exact Ok].
    unfold drag_accept in E. cbn [d_end d_start dr] in E.
    destruct (Reqb (L (vadd (snd p) delta)) logZero) eqn:E1; [discriminate|]. cbn [negb] in E.
    destruct (Reqb (L (vadd (fst p) delta)) logZero) eqn:E2; [discriminate|].
    apply Reqb_false in E1, E2. split; assumption.
  Qed.
  Lemma follows_loop path : forall i p a b us, follows L n i path us (dr p a b) ->
    drag_loop L n i (combine (map fst path) (map randexp us)) (dr p a b) =
    dr (fold_left step path p) (a + (tot (fun p => L (fst p)) p path - L (fst p))) (b + (tot (fun p => L (snd p)) p path - L (snd p))).
  Proof.
    induction path as [|[delta acc] path IH]; intros i p a b us F.
    - destruct us; [|destruct F]. cbn. f_equal; ring.
    - destruct us as [|u us]; [destruct F|]. cbn [follows] in F. destruct F as (E & F). cbn [map fst combine drag_loop].
      rewrite drag_next in *. rewrite E in *. cbn zeta in *. rewrite (IH _ _ _ _ _ F). cbn [fold_left tot]. f_equal; ring.
  Qed.
  Lemma tot_diff f g p path : tot (fun p => f p - g p) p path = tot f p path - tot g p path.
  Proof. revert p. induction path; intros p; cbn [tot]; [ring|]. rewrite IHpath. ring. Qed.
  Lemma tot_top f p path : (forall q, okp q -> f q < logZero) -> clean p path -> tot f p path < INR (S (length path)) * logZero.
  Proof.
    intros Hf. revert p. induction path as [|s path IH]; intros p (Ok & C); cbn [tot].
    - specialize (Hf p Ok). cbn [length]. change (INR 1) with 1. lra.
    - specialize (Hf p Ok). specialize (IH _ C). rewrite S_INR. cbn [length]. rewrite S_INR in *. lra.
  Qed.

  (** the way back *)
  Definition swap (p : pt) : pt := (snd p, fst p).
  Lemma swap_step p s : swap (step p s) = step (swap p) s.
  Proof. unfold step. destruct (snd s); reflexivity. Qed.
  Lemma okp_swap p : okp p -> okp (swap p). Proof. intros (A & B). now split. Qed.
  Lemma lev_swap i p : (i <= n)%nat -> lev (n - i) (swap p) = lev i p.
  Proof. intros H. pose proof nR. unfold lev, swap. cbn [fst snd]. rewrite minus_INR by exact H. field. lra. Qed.
  Lemma aprob_swap i p d : (i <= n)%nat -> aprob (n - i) (swap p) d = aprob i p d.
  Proof.
    intros H. unfold aprob. replace (mv d (swap p)) with (swap (mv d p)) by reflexivity. rewrite !lev_swap by exact H. cbn [swap fst snd].
    destruct (Req_EM_T (L (snd (mv d p))) logZero), (Req_EM_T (L (fst (mv d p))) logZero); reflexivity.
  Qed.
  Lemma side_swap i p s : (i <= n)%nat -> side (n - i) (swap p) s = side i p s.
  Proof. intros H. unfold side. now rewrite !aprob_swap. Qed.
  Definition sized (k : nat) (p : pt) (path : list (list R * bool)) : Prop :=
    length (fst p) = k /\ length (snd p) = k /\ Forall (fun s => length (fst s) = k) path.
  Lemma undo_step k p s : length (fst p) = k -> length (snd p) = k -> length (fst s) = k -> step (step p s) (undo s) = p.
  Proof.
    intros H1 H2 H3. unfold step, undo. cbn [snd fst]. destruct (snd s); [|reflexivity]. unfold mv. cbn [fst snd].
    rewrite !vadd_undo by congruence. now destruct p.
  Qed.
  Lemma step_sized k p s : length (fst p) = k -> length (snd p) = k -> length (fst s) = k -> length (fst (step p s)) = k /\ length (snd (step p s)) = k.
  Proof. intros. unfold step. destruct (snd s); [|tauto]. unfold mv. cbn [fst snd]. rewrite !vadd_length; congruence || (split; congruence). Qed.
  Lemma back_cons s path : back (s :: path) = back path ++ [undo s]. Proof. reflexivity. Qed.
  Lemma back_length path : length (back path) = length path. Proof. unfold back. now rewrite rev_length, map_length. Qed.
  Lemma back_end k path : forall p, sized k p path -> fold_left step (back path) (fold_left step path p) = p.
  Proof.
    induction path as [|s path IH]; intros p (H1 & H2 & H3); [reflexivity|]. inversion H3 as [|? ? Ls H3']. cbn [fold_left]. rewrite back_cons, fold_left_app, IH.
    - cbn [fold_left]. exact (undo_step k p s H1 H2 Ls).
    - destruct (step_sized _ p s H1 H2 Ls) as (T1 & T2). exact (conj T1 (conj T2 H3')).
  Qed.
  Lemma sides_app path path' : forall i p, sides i p (path ++ path') = sides i p path ++ sides (i + length path) (fold_left step path p) path'.
  Proof.
    induction path as [|s path IH]; intros i p; cbn [app sides fold_left length]; [now rewrite Nat.add_0_r|]. rewrite IH. now replace (S i + length path)%nat with (i + S (length path))%nat by lia.
  Qed.
  (** balance of one turn *)
  Lemma turn_balance k i p s : length (fst p) = k -> length (snd p) = k -> length (fst s) = k -> okp p -> okp (step p s) ->
    exp (- lev i p) * (snd (side i p s) - fst (side i p s)) =
    exp (- lev i (step p s)) * (snd (side i (step p s) (undo s)) - fst (side i (step p s) (undo s))).
  Proof.
    intros H1 H2 H3 Ok Ok'. pose proof (undo_step k p s H1 H2 H3) as U. unfold side, undo, step in *. cbn [snd fst] in *. destruct (snd s); [|reflexivity].
    cbn [fst snd]. rewrite !Rminus_0_r. unfold aprob. rewrite U. destruct Ok as (A & B), Ok' as (A' & B').
    destruct (Req_EM_T _ _); [contradiction|]. destruct (Req_EM_T _ _); [contradiction|]. destruct (Req_EM_T _ _); [contradiction|]. destruct (Req_EM_T _ _); [contradiction|].
    apply balance_exp.
  Qed.
  Lemma lev_next i p : lev (S i) p = lev i p + (L (snd p) - L (fst p)) / INR n.
  Proof. unfold lev. rewrite S_INR. pose proof nR. field. lra. Qed.

  Lemma path_balance k path : forall i p, (S i + length path = n)%nat -> sized k p path -> clean p path ->
    exp (- lev i p) * volume (sides (S i) p path) =
    exp (- lev n (fold_left step path p)) * volume (sides 1 (swap (fold_left step path p)) (back path)) *
    exp (tot (fun q => (L (snd q) - L (fst q)) / INR n) p path).
  Proof.
    induction path as [|s path IH]; intros i p Hn (S1 & S2 & S3) (Ok & C).
    - cbn [sides back fold_left tot length rev map] in *. unfold volume. cbn [fold_right]. rewrite !Rmult_1_r, <- exp_plus. f_equal.
      pose proof (lev_next i p) as E. replace (S i) with n in E by lia. rewrite E. ring.
    - cbn [length] in Hn. inversion S3 as [|? ? Ls S3']. cbn [sides fold_left tot]. destruct (step_sized _ p s S1 S2 Ls) as (T1 & T2).
      assert (Ok' : okp (step p s)) by (destruct path; apply C).
      specialize (IH (S i) (step p s) ltac:(lia) (conj T1 (conj T2 S3')) C).
      rewrite back_cons, sides_app, volume_app, back_length.
      assert (BE : fold_left step (back path) (swap (fold_left step path (step p s))) = swap (step p s)).
      { rewrite <- (back_end k path (step p s)) at 2 by (split; [exact T1|split; [exact T2|exact S3']]).
        generalize (fold_left step path (step p s)). generalize (back path). clear. induction l as [|s l IH]; intros q; [reflexivity|]. cbn [fold_left]. now rewrite <- swap_step, IH. }
      rewrite BE. cbn [sides]. replace (1 + length path)%nat with (n - S i)%nat by lia. rewrite side_swap by lia.
      change (volume (side (S i) p s :: sides (S (S i)) (step p s) path)) with ((snd (side (S i) p s) - fst (side (S i) p s)) * volume (sides (S (S i)) (step p s) path)).
      change (volume [side (S i) (step p s) (undo s)]) with ((snd (side (S i) (step p s) (undo s)) - fst (side (S i) (step p s) (undo s))) * 1).
      pose proof (turn_balance k (S i) p s S1 S2 Ls Ok Ok') as TB.
      set (K := snd (side (S i) p s) - fst (side (S i) p s)) in *. set (K' := snd (side (S i) (step p s) (undo s)) - fst (side (S i) (step p s) (undo s))) in *.
      rewrite exp_plus. replace (exp (- lev i p)) with (exp (- lev (S i) p) * exp ((L (snd p) - L (fst p)) / INR n)).
      2:{ rewrite <- exp_plus. f_equal. rewrite lev_next. ring. }
      transitivity (exp ((L (snd p) - L (fst p)) / INR n) * (exp (- lev (S i) p) * K) * volume (sides (S (S i)) (step p s) path)); [ring|].
      rewrite TB. transitivity (exp ((L (snd p) - L (fst p)) / INR n) * K' * (exp (- lev (S i) (step p s)) * volume (sides (S (S i)) (step p s) path))); [ring|].
      rewrite IH. ring.
  Qed.

  Lemma swap_fold l : forall q, fold_left step l (swap q) = swap (fold_left step l q).
  Proof. induction l as [|s l IH]; intros q; [reflexivity|]. cbn [fold_left]. now rewrite <- swap_step, IH. Qed.
  Lemma tot_app f path path' : forall p, tot f p (path ++ path') = tot f p path + tot f (fold_left step path p) path' - f (fold_left step path p).
  Proof. induction path as [|s path IH]; intros p; cbn [app tot fold_left]; [ring|]. rewrite IH. ring. Qed.
  Lemma tot_back k f path : forall p, sized k p path -> tot f (fold_left step path p) (back path) = tot f p path.
  Proof.
    induction path as [|s path IH]; intros p (H1 & H2 & H3); [reflexivity|]. inversion H3 as [|? ? Ls H3'].
    destruct (step_sized _ p s H1 H2 Ls) as (T1 & T2). assert (SZ : sized k (step p s) path) by (split; [exact T1|split; [exact T2|exact H3']]).
    rewrite back_cons, tot_app. cbn [fold_left tot]. rewrite (IH _ SZ), (back_end k path _ SZ), (undo_step k p s H1 H2 Ls). ring.
  Qed.
  Lemma tot_swap f path : forall p, tot f (swap p) path = tot (fun q => f (swap q)) p path.
  Proof. induction path as [|s path IH]; intros p; cbn [tot]; [reflexivity|]. now rewrite <- swap_step, IH. Qed.
  Lemma clean_app path path' : forall p, clean p (path ++ path') <-> clean p path /\ clean (fold_left step path p) path'.
  Proof.
    induction path as [|s path IH]; intros p; cbn [app clean fold_left].
    - destruct path'; cbn [clean]; tauto.
    - rewrite IH. tauto.
  Qed.
  Lemma clean_swap path : forall p, clean p path -> clean (swap p) path.
  Proof. induction path as [|s path IH]; intros p (A & B); cbn [clean]; (split; [now apply okp_swap|]); [trivial|]. rewrite <- swap_step. now apply IH. Qed.
  Lemma clean_back k path : forall p, sized k p path -> clean p path -> clean (fold_left step path p) (back path).
  Proof.
    induction path as [|s path IH]; intros p (H1 & H2 & H3) (Ok & C); [now split|]. inversion H3 as [|? ? Ls H3'].
    destruct (step_sized _ p s H1 H2 Ls) as (T1 & T2). assert (SZ : sized k (step p s) path) by (split; [exact T1|split; [exact T2|exact H3']]).
    rewrite back_cons. apply clean_app. cbn [fold_left]. split; [now apply IH|]. rewrite (back_end k path _ SZ). cbn [clean].
    rewrite (undo_step k p s H1 H2 Ls). split; [|now split]. destruct path; apply C.
  Qed.
  Lemma clean_end path : forall p, clean p path -> okp (fold_left step path p).
  Proof. induction path as [|s path IH]; intros p (A & B); [exact A|]. cbn [fold_left]. now apply IH. Qed.
  Lemma sized_end k path : forall p, sized k p path -> sized k (fold_left step path p) (back path).
  Proof.
    intros p (H1 & H2 & H3). assert (E : forall path p, length (fst p) = k -> length (snd p) = k -> Forall (fun s => length (fst s) = k) path ->
      length (fst (fold_left step path p)) = k /\ length (snd (fold_left step path p)) = k).
    { clear. induction path as [|s path IH]; intros p H1 H2 H3; [now split|]. inversion H3 as [|? ? Ls H3']. cbn [fold_left]. destruct (step_sized _ p s H1 H2 Ls). now apply IH. }
    destruct (E path p H1 H2 H3). split; [assumption|]. split; [assumption|]. unfold back. apply Forall_rev. rewrite Forall_map.
    apply Forall_forall. intros s Hs. rewrite Forall_forall in H3. specialize (H3 s Hs). unfold undo. cbn [fst]. destruct (snd s); [now rewrite vneg_length|exact H3].
  Qed.
  Lemma back_back path : back (back path) = path.
  Proof.
    unfold back. rewrite map_rev, rev_involutive, map_map. rewrite <- (map_id path) at 2. apply map_ext. intros [d b]. unfold undo. cbn [fst snd].
    destruct b; [|reflexivity]. unfold vneg. rewrite map_map. f_equal. rewrite <- (map_id d) at 2. apply map_ext. intros x. ring.
  Qed.
  Lemma fold_endpoint path : forall x y, fold_left step path (x, y) = (endpoint x path, endpoint y path).
  Proof. induction path as [|[d b] path IH]; intros x y; [reflexivity|]. unfold endpoint in *. cbn [fold_left fst snd]. unfold step at 2. cbn [snd fst]. destruct b; [unfold mv; cbn [fst snd]|]; apply IH. Qed.
  Lemma endpoint_shift path : forall x v, endpoint (vadd x v) path = vadd (endpoint x path) v.
  Proof.
    induction path as [|[d b] path IH]; intros x v; [reflexivity|]. unfold endpoint in *. cbn [fold_left fst snd]. destruct b; [|apply IH].
    rewrite vadd_comm2. apply IH.
  Qed.
  Lemma endpoint_length k path : forall x, length x = k -> Forall (fun s => length (fst s) = k) path -> length (endpoint x path) = k.
  Proof.
    induction path as [|[d b] path IH]; intros x H F; [exact H|]. inversion F as [|? ? F1 F2]. unfold endpoint in *. cbn [fold_left fst snd] in *. apply IH; [|exact F2].
    destruct b; [rewrite vadd_length; congruence|exact H].
  Qed.
End Drag.

(** ** The dragging step as an event *)
Section DragEventFacts.
  Variable L : list R -> R.
  Hypothesis top : forall y, L y <= logZero.
  Context {Col : Type}.
  Variable add : Col -> list R -> R -> Z -> option Z -> Col.
  Variable burn_in : Z.

  Lemma MoveDone_mult b t (c : chain Col) : c_mult (MoveDone add burn_in b t c) = if b then 1%Z else (c_mult c + 1)%Z.
  Proof. unfold MoveDone. destruct b; [|reflexivity]. destruct (0 <? c_mult c)%Z; destruct (Rltb (c_like c) (c_max c)); reflexivity. Qed.
  Definition start_sum p path := tot (fun p => L (fst p)) p path.
  Definition end_sum p path := tot (fun p => L (snd p)) p path.
  (** the end of a dragging step *)
  Lemma dragging_end (c : chain Col) slow path us u : c_like c = L (c_par c) -> L (vadd (c_par c) slow) <> logZero -> length us = length path ->
    let p := (c_par c, vadd (c_par c) slow) in let n := S (length path) in
    follows L n 1 path us (dr L p (L (fst p)) (L (snd p))) ->
    dragging L add burn_in slow (combine (map fst path) (map randexp us)) (randexp u) c =
      let a := MetropolisAccept (end_sum p path / INR n) (start_sum p path / INR n) (randexp u) in
      let c1 := MoveDone add burn_in a None c in
      if a then set_cur (endpoint (snd p) path) (L (endpoint (snd p) path)) c1 else c1.
  Proof.
    intros Hc He Hl p n F. unfold dragging.
    assert (LN : length (combine (map fst path) (map randexp us)) = length path) by (rewrite combine_length, !map_length; lia).
    rewrite LN. replace (Reqb (L (vadd (c_par c) slow)) logZero) with false by (symmetry; now apply Reqb_false).
    rewrite Hc. change (mkD (c_par c) (vadd (c_par c) slow) (L (c_par c)) (L (vadd (c_par c) slow)) (L (c_par c)) (L (vadd (c_par c) slow)))
      with (dr L p (L (fst p)) (L (snd p))).
    change (S (length path)) with n. rewrite (follows_loop L n path 1 p _ _ us F). cbn [d_ssum d_esum d_end d_lend dr].
    assert (FE : snd (fold_left step path p) = endpoint (snd p) path) by (unfold p; now rewrite fold_endpoint). rewrite FE.
    replace (L (fst p) + (tot (fun p0 => L (fst p0)) p path - L (fst p))) with (start_sum p path) by (unfold start_sum; ring).
    replace (L (snd p) + (tot (fun p0 => L (snd p0)) p path - L (snd p))) with (end_sum p path) by (unfold end_sum; ring).
    reflexivity.
  Qed.

  Lemma mean_top (f : list R * list R -> R) p path : (forall q, okp L q -> f q < logZero) -> clean L p path -> tot f p path / INR (S (length path)) < logZero.
  Proof.
    intros Hf C. pose proof (tot_top L f p path Hf C) as T. assert (0 < INR (S (length path))) by (apply lt_0_INR; lia).
    apply Rmult_lt_reg_r with (INR (S (length path))); [assumption|]. unfold Rdiv. rewrite Rmult_assoc, Rinv_l by lra. lra.
  Qed.
  (** probability of a clean path *)
  Definition path_prob p path : R :=
    ratio (start_sum p path / INR (S (length path))) (end_sum p path / INR (S (length path))) * volume (sides L (S (length path)) 1 p path).
  Lemma side_ok n i p s : 0 <= fst (side L n i p s) <= snd (side L n i p s) /\ snd (side L n i p s) <= 1.
  Proof. pose proof (aprob_range L n i p (fst s)). unfold side. destruct (snd s); cbn [fst snd]; lra. Qed.
  Lemma sides_ok n path : forall i p, box_ok (sides L n i p path).
  Proof. induction path as [|s path IH]; intros i p; cbn [sides]; constructor; [apply side_ok|apply IH]. Qed.
  Lemma sides_length n path : forall i p, length (sides L n i p path) = length path.
  Proof. induction path as [|s path IH]; intros i p; cbn [sides length]; [reflexivity|now rewrite IH]. Qed.
  Lemma event_clean (c : chain Col) slow path ul : c_like c = L (c_par c) -> (1 <= c_mult c)%Z -> L (c_par c) <> logZero -> length ul = S (length path) ->
    drag_event L add burn_in c slow path ul -> clean L (c_par c, vadd (c_par c) slow) path.
  Proof.
    intros Hc Hm Hx Hl E. destruct ul as [|u us]; [destruct E|]. destruct E as (F & M). rewrite Hc in F.
    assert (He : L (vadd (c_par c) slow) <> logZero).
    { intros Z. unfold dragging in M. rewrite Z in M. replace (Reqb logZero logZero) with true in M by (symmetry; now apply Reqb_spec). cbn [c_mult] in M. lia. }
    refine (follows_clean L (S (length path)) ltac:(lia) path 1 (c_par c, vadd (c_par c) slow) _ _ us _ _ F); [now split|cbn in Hl; lia].
  Qed.
  Lemma event_probability (c : chain Col) slow path : c_like c = L (c_par c) -> (1 <= c_mult c)%Z -> clean L (c_par c, vadd (c_par c) slow) path ->
    probability (S (length path)) (drag_event L add burn_in c slow path) (path_prob (c_par c, vadd (c_par c) slow) path).
  Proof.
    intros Hc Hm C. set (p := (c_par c, vadd (c_par c) slow)) in *. set (n := S (length path)).
    assert (OK : okp L p) by (destruct path; apply C). set (r := ratio (start_sum p path / INR n) (end_sum p path / INR n)).
    pose proof (ratio_range (start_sum p path / INR n) (end_sum p path / INR n)) as RR. fold r in RR.
    exists ((0, r) :: sides L n 1 p path). split; [cbn; now rewrite sides_length|]. split; [constructor; [cbn; lra|apply sides_ok]|].
    split; [unfold volume, path_prob; cbn [fold_right fst snd]; fold n r; unfold volume; ring|].
    intros [|u us] (Hl & Hu); [discriminate|]. inversion Hu as [|? ? U0 U1]; subst. cbn [drag_event]. rewrite Hc.
    change (mkD (c_par c) (vadd (c_par c) slow) (L (c_par c)) (L (vadd (c_par c) slow)) (L (c_par c)) (L (vadd (c_par c) slow)))
      with (dr L p (L (fst p)) (L (snd p))).
    assert (LU : length us = length path) by (cbn in Hl; lia). fold n. unfold in_box. rewrite Forall2_cons_iff.
    pose proof (follows_box L top n ltac:(unfold n; lia) path 1 p (L (fst p)) (L (snd p)) us ltac:(unfold n; lia) (conj LU U1)) as FB. unfold in_box in FB. rewrite <- FB.
    assert (ACC : follows L n 1 path us (dr L p (L (fst p)) (L (snd p))) ->
      (c_mult (dragging L add burn_in slow (combine (map fst path) (map randexp us)) (randexp u) c) = 1%Z <-> fst (0, r) <= u < snd (0, r))).
    { intros F. rewrite (dragging_end c slow path us u Hc (proj2 OK) LU F). cbn zeta. fold p n. cbn [fst snd].
      pose proof (accept_iff (start_sum p path / INR n) (end_sum p path / INR n) u U0) as A. fold r in A.
      destruct (MetropolisAccept (end_sum p path / INR n) (start_sum p path / INR n) (randexp u)).
      - cbn [set_cur c_mult]. rewrite MoveDone_mult. split; [intros _; assert (u < r) by now apply A|]; lra || reflexivity.
      - rewrite MoveDone_mult. split; [lia|]. intros (_ & X). apply A in X. discriminate. }
    split; intros (X & Y); [split; [now apply ACC|exact X]|split; [exact Y|now apply ACC]].
  Qed.
End DragEventFacts.

(** ** Runs *)
Section Run.
  Variable L : list R -> R.
  Context {Col : Type}.
  Variable add : Col -> list R -> R -> Z -> option Z -> Col.
  Variable burn_in oversample : Z.

  Definition accepted_to (t : option Z) (c c' : chain Col) : Prop :=
    c_mult c' = 1%Z /\ c_like c' <> logZero /\
    c_accept c' = (if (0 <? c_mult c)%Z then c_accept c + 1 else c_accept c)%Z /\
    c_col c' = (if (0 <? c_mult c)%Z && negb (Reqb (c_like c) logZero) && (burn_in <? c_accept c)%Z
                then add (c_col c) (c_par c) (c_like c) (c_mult c) t else c_col c) /\
    c_max c' = Rmin (c_max c) (c_like c) /\ c_sample c' = (c_sample c + 1)%Z /\
    (c_like c < c_max c -> c_maxpar c' = c_par c) /\ (~ c_like c < c_max c -> c_maxpar c' = c_maxpar c).
  Definition rejected_to (c c' : chain Col) : Prop :=
    here c' = here c /\ c_mult c' = (c_mult c + 1)%Z /\ c_accept c' = c_accept c /\ c_col c' = c_col c /\
    c_max c' = c_max c /\ c_maxpar c' = c_maxpar c /\ (c_sample c' = (c_sample c + 1)%Z \/ c_sample c' = c_sample c).

  Lemma metropolis_cases t delta e c :
    accepted_to t c (metropolis L add burn_in t delta e c) \/
    rejected_to c (metropolis L add burn_in t delta e c) /\ c_sample (metropolis L add burn_in t delta e c) = (c_sample c + 1)%Z.
  Proof.
    unfold metropolis. destruct (Reqb (L (vadd (c_par c) delta)) logZero) eqn:Z; cbn [negb].
    { right. split; [|reflexivity]. unfold rejected_to, here, MoveDone. cbn. tauto. }
    destruct (MetropolisAccept _ _ _); [left|right; split; [unfold rejected_to, here, MoveDone; cbn; tauto|reflexivity]].
    apply Reqb_false in Z. unfold accepted_to, MoveDone, set_cur, Rltb, Rmin.
    destruct (0 <? c_mult c)%Z; destruct (Rlt_dec (c_like c) (c_max c)); destruct (Rle_dec (c_max c) (c_like c)); cbn [c_mult c_like c_accept c_col c_max c_sample c_maxpar andb];
      repeat split; auto; try contradiction; try lra.
  Qed.
  Lemma dragging_cases slow l e c : (forall y, L y <= logZero) ->
    c_like c = L (c_par c) -> c_like c <> logZero ->
    accepted_to None c (dragging L add burn_in slow l e c) \/ rejected_to c (dragging L add burn_in slow l e c).
  Proof.
    intros top Hc Hx. unfold dragging. destruct (Reqb (L (vadd (c_par c) slow)) logZero) eqn:Z.
    { right. unfold rejected_to, here. cbn. tauto. }
    apply Reqb_false in Z.
    assert (LE : forall l i d, d_lend d <> logZero -> d_lend (drag_loop L (S (length l)) i l d) <> logZero).
    { intros l0. generalize (S (length l0)). clear. induction l0 as [|[delta u] l IH]; intros n i d H; [exact H|]. cbn [drag_loop]. apply IH.
      unfold drag_step. destruct (drag_accept L n i delta u d) eqn:E; [|exact H]. cbn [d_lend]. unfold drag_accept in E.
      destruct (Reqb (L (vadd (d_end d) delta)) logZero) eqn:X; [discriminate|]. now apply Reqb_false in X. }
    specialize (LE l 1%nat (mkD (c_par c) (vadd (c_par c) slow) (c_like c) (L (vadd (c_par c) slow)) (c_like c) (L (vadd (c_par c) slow))) Z).
    destruct (MetropolisAccept _ _ _); [left|right; unfold rejected_to, here, MoveDone; cbn; tauto].
    unfold accepted_to, MoveDone, set_cur, Rltb, Rmin.
    destruct (0 <? c_mult c)%Z; destruct (Rlt_dec (c_like c) (c_max c)); destruct (Rle_dec (c_max c) (c_like c)); cbn [c_mult c_like c_accept c_col c_max c_sample c_maxpar andb];
      repeat split; auto; try contradiction; try lra.
  Qed.
  (** the point of a chain has its likelihood *)
  Lemma metropolis_like t delta e c : c_like c = L (c_par c) -> c_like (metropolis L add burn_in t delta e c) = L (c_par (metropolis L add burn_in t delta e c)).
  Proof.
    intros H. unfold metropolis. destruct (if negb _ then _ else false); [reflexivity|]. exact H.
  Qed.
  Lemma dragging_like slow l e c : c_like c = L (c_par c) -> c_like (dragging L add burn_in slow l e c) = L (c_par (dragging L add burn_in slow l e c)).
  Proof.
    intros H. unfold dragging. destruct (Reqb _ _); [exact H|]. destruct (MetropolisAccept _ _ _); [|exact H]. cbn [set_cur c_like c_par].
    assert (D : forall l n i d, d_lend d = L (d_end d) -> d_lend (drag_loop L n i l d) = L (d_end (drag_loop L n i l d))).
    { clear. induction l as [|[delta u] l IH]; intros n i d H; [exact H|]. cbn [drag_loop]. apply IH. unfold drag_step.
      destruct (drag_accept _ _ _ _ _ _); [reflexivity|exact H]. }
    now apply D.
  Qed.
  Definition count_drag (c : chain Col) : chain Col :=
    mkC (c_par c) (c_like c) (c_mult c) (c_sample c) (c_accept c) (c_max c) (c_maxpar c) (c_drag c + 1) (c_col c).
  Lemma step_like ud nb r c : c_like c = L (c_par c) -> c_like (GetNewSample L add burn_in oversample ud nb r c) = L (c_par (GetNewSample L add burn_in oversample ud nb r c)).
  Proof.
    intros H. unfold GetNewSample, GetNewDragSample. destruct ud; [|now apply metropolis_like]. destruct (_ || _); [now apply metropolis_like|].
    destruct (negb _); [now apply metropolis_like|now apply dragging_like].
  Qed.
  Definition run_thin (ud nb : bool) : option Z := if ud && negb nb then None else Some oversample.
  Lemma step_cases ud nb r c : (forall y, L y <= logZero) -> c_like c = L (c_par c) ->
    let c' := GetNewSample L add burn_in oversample ud nb r c in
    (exists t, (c_like c <> logZero -> t = run_thin ud nb) /\ accepted_to t c c') \/
    rejected_to c c' /\ (ud = false -> c_sample c' = (c_sample c + 1)%Z).
  Proof.
    intros top Hc. cbn zeta. unfold GetNewSample. destruct ud.
    - unfold GetNewDragSample. destruct (Reqb (c_like c) logZero) eqn:Z; cbn [orb].
      { apply Reqb_spec in Z. destruct (metropolis_cases (Some oversample) (r_all r) (r_e r) c) as [A|(A & _)]; [left; eexists; split; [contradiction|exact A]|right; split; [exact A|discriminate]]. }
      apply Reqb_false in Z. destruct nb.
      { destruct (metropolis_cases (Some oversample) (r_all r) (r_e r) c) as [A|(A & _)]; [left; eexists; split; [intros _|exact A]; reflexivity|right; split; [exact A|discriminate]]. }
      fold (count_drag c). destruct (negb _).
      + destruct (metropolis_cases None (r_fast r) (r_e r) (count_drag c)) as [A|(A & _)]; [left; exists None; split; [reflexivity|exact A]|right; split; [exact A|discriminate]].
      + destruct (dragging_cases (r_slow r) (r_drag r) (r_e r) (count_drag c) top Hc Z) as [A|A]; [left; exists None; split; [reflexivity|exact A]|right; split; [exact A|discriminate]].
    - destruct (metropolis_cases (Some oversample) (r_all r) (r_e r) c) as [A|(A & B)]; [left; eexists; split; [intros _|exact A]; reflexivity|right; split; [exact A|intros _; exact B]].
  Qed.

  Definition collect (t : option Z) (col : Col) (rows : list row) : Col :=
    fold_left (fun k r => let '(p, l, m) := r in add k p l m t) rows col.
  Lemma expand_app a b : expand (a ++ b) = expand a ++ expand b.
  Proof. unfold expand. now rewrite flat_map_app. Qed.
  Lemma repeat_snoc {A} (x : A) n : repeat x (S n) = repeat x n ++ [x].
  Proof. induction n; [reflexivity|]. cbn [repeat app] in *. now rewrite <- IHn. Qed.

  Definition inv (t : option Z) (col0 : Col) (c : chain Col) (tr : list (list R * R)) (blocks : list row) : Prop :=
    expand blocks ++ repeat (here c) (Z.to_nat (c_mult c)) = tr /\ (0 <= c_mult c)%Z /\
    c_accept c = Z.of_nat (length blocks) /\ Forall (fun r => (1 <= weight r)%Z) blocks /\
    (blocks <> [] -> c_like c <> logZero) /\
    c_col c = collect t col0 (skipn (Z.to_nat (burn_in + 1)) blocks).
  Lemma inv_step t t' col0 c c' tr blocks : (0 <= burn_in)%Z -> (c_like c <> logZero -> t' = t) -> inv t col0 c tr blocks -> accepted_to t' c c' ->
    exists blocks', inv t col0 c' (tr ++ [here c']) blocks'.
  Proof.
    intros Hb Ht (I1 & I2 & I3 & I4 & I5 & I6) (A1 & A2 & A3 & A4 & _). unfold inv. rewrite A1.
    destruct (0 <? c_mult c)%Z eqn:M.
    - apply Z.ltb_lt in M. exists (blocks ++ [(c_par c, c_like c, c_mult c)]). rewrite expand_app.
      change (expand [(c_par c, c_like c, c_mult c)]) with (repeat (here c) (Z.to_nat (c_mult c)) ++ []). rewrite app_nil_r, I1.
      split; [reflexivity|]. split; [lia|]. split; [rewrite A3, I3, app_length; cbn; lia|]. split; [apply Forall_app; split; [exact I4|constructor; [cbn; lia|constructor]]|].
      split; [intros _; exact A2|]. rewrite A4, I6, I3. cbn [andb].
      destruct (burn_in <? Z.of_nat (length blocks))%Z eqn:B.
      + apply Z.ltb_lt in B. assert (NZ : c_like c <> logZero) by (apply I5; intros E; rewrite E in B; cbn in B; lia).
        replace (Reqb (c_like c) logZero) with false by (symmetry; now apply Reqb_false). cbn [negb andb]. rewrite (Ht NZ).
        rewrite skipn_app. replace (Z.to_nat (burn_in + 1) - length blocks)%nat with 0%nat by lia. cbn [skipn]. unfold collect. rewrite fold_left_app. reflexivity.
      + apply Z.ltb_ge in B. rewrite andb_false_r. rewrite !skipn_all2; [reflexivity|rewrite app_length; cbn; lia|lia].
    - apply Z.ltb_ge in M. assert (E0 : c_mult c = 0%Z) by lia. exists blocks. rewrite E0 in I1. cbn [repeat Z.to_nat] in I1. rewrite app_nil_r in I1. rewrite I1.
      split; [reflexivity|]. split; [lia|]. split; [congruence|]. split; [exact I4|]. split; [intros _; exact A2|]. rewrite A4. cbn [andb]. exact I6.
  Qed.
  Lemma inv_reject t col0 c c' tr blocks : inv t col0 c tr blocks -> rejected_to c c' -> inv t col0 c' (tr ++ [here c']) blocks.
  Proof.
    intros (I1 & I2 & I3 & I4 & I5 & I6) (R1 & R2 & R3 & R4 & _). unfold inv. rewrite R2, R3, R4, R1. replace (Z.to_nat (c_mult c + 1)) with (S (Z.to_nat (c_mult c))) by lia.
    rewrite repeat_snoc, app_assoc, I1. split; [reflexivity|]. split; [lia|]. split; [exact I3|]. split; [exact I4|]. split; [|exact I6].
    intros N. specialize (I5 N). unfold here in R1. injection R1 as _ E. now rewrite E.
  Qed.
  Lemma inv_run ud nb col0 : (0 <= burn_in)%Z -> (forall y, L y <= logZero) ->
    forall rs c tr blocks, c_like c = L (c_par c) -> inv (run_thin ud nb) col0 c tr blocks ->
    exists blocks', inv (run_thin ud nb) col0 (final (GetNewSample L add burn_in oversample ud nb) rs c)
      (tr ++ map here (states (GetNewSample L add burn_in oversample ud nb) rs c)) blocks'.
  Proof.
    intros Hb top. induction rs as [|r rs IH]; intros c tr blocks Hc I; cbn [states map final fold_left].
    - exists blocks. now rewrite app_nil_r.
    - set (c' := GetNewSample L add burn_in oversample ud nb r c). replace (tr ++ here c' :: map here (states (GetNewSample L add burn_in oversample ud nb) rs c'))
        with ((tr ++ [here c']) ++ map here (states (GetNewSample L add burn_in oversample ud nb) rs c')) by (rewrite <- app_assoc; reflexivity).
      assert (Hc' : c_like c' = L (c_par c')) by now apply step_like.
      destruct (step_cases ud nb r c top Hc) as [(t' & Ht & A)|(A & _)].
      + destruct (inv_step _ _ _ _ _ _ _ Hb Ht I A) as (bl & I'). exact (IH c' _ bl Hc' I').
      + exact (IH c' _ blocks Hc' (inv_reject _ _ _ _ _ _ I A)).
  Qed.
End Run.

(** ** Thinning *)
Lemma expand_snoc rows p l m : expand (rows ++ [(p, l, m)]) = expand rows ++ repeat (p, l) (Z.to_nat m).
Proof. unfold expand. rewrite flat_map_app. cbn [flat_map]. now rewrite app_nil_r. Qed.
Lemma every_app {A} t (l : list A) x m : (0 < t)%nat -> every t (l ++ repeat x m) = every t l ++ repeat x ((length l mod t + m) / t).
Proof.
  intros Ht.
  assert (EV : forall (w : list A) d, every t w = map (fun k => nth (k * t + t - 1) w d) (seq 0 (length w / t))).
  { intros w d. destruct w as [|a w']; [cbn [every length]; rewrite Nat.div_0_l by lia; reflexivity|]. unfold every. apply map_ext_in. intros k Hk. apply in_seq in Hk.
    apply nth_indep. pose proof (Nat.mul_div_le (length (a :: w')) t ltac:(lia)). assert ((k + 1) * t <= length (a :: w') / t * t)%nat by (apply Nat.mul_le_mono_r; lia). lia. }
  rewrite !(EV _ x), app_length, repeat_length.
  pose proof (Nat.div_mod (length l) t ltac:(lia)) as DM. set (q := (length l / t)%nat) in *. set (r := (length l mod t)%nat) in *.
  pose proof (Nat.mod_upper_bound (length l) t ltac:(lia)) as RB. fold r in RB.
  replace ((length l + m) / t)%nat with (q + (r + m) / t)%nat.
  2:{ replace (length l + m)%nat with ((r + m) + q * t)%nat by lia. rewrite Nat.div_add by lia. lia. }
  rewrite seq_app, map_app. f_equal.
  - apply map_ext_in. intros k Hk. apply in_seq in Hk. assert ((k + 1) * t <= q * t)%nat by (apply Nat.mul_le_mono_r; lia).
    apply app_nth1. lia.
  - rewrite <- (seq_length ((r + m) / t) (0 + q)) at 2.
    assert (SAME : forall ks, (forall k, In k ks -> (q <= k)%nat) -> map (fun k => nth (k * t + t - 1) (l ++ repeat x m) x) ks = repeat x (length ks)).
    { induction ks as [|k ks IH]; intros H; [reflexivity|]. cbn [map length repeat]. rewrite IH by (intros; apply H; now right). f_equal.
      assert (q <= k)%nat by (apply H; now left). assert (q * t <= k * t)%nat by (apply Nat.mul_le_mono_r; lia). rewrite app_nth2 by lia. apply nth_repeat. }
    apply SAME. intros k Hk. apply in_seq in Hk. lia.
Qed.

Lemma total_len rows : Forall (fun r => (0 <= weight r)%Z) rows -> Z.of_nat (length (expand rows)) = fold_right (fun r s => (weight r + s)%Z) 0%Z rows.
Proof.
  induction rows as [|((p, l), m) rows IH]; intros H; [reflexivity|]. inversion H as [|? ? A B]. cbn [expand flat_map]. rewrite app_length, repeat_length. fold (expand rows).
  cbn [fold_right weight snd] in *. rewrite <- IH by assumption. lia.
Qed.

(** the state of a collector after the rows [ins], without checkpoint burn *)
Definition thinned (s t : Z) (k : collector) (ins : list row) : Prop :=
  k_burn k = 0%Z /\ expand (k_rows k) = every (Z.to_nat t) (expand ins) /\ k_acc k = (Z.of_nat (length (expand ins)) mod t)%Z /\
  (s <> 0%Z -> expand (k_data k) = every (Z.to_nat (s * t)) (expand ins) /\ k_indep k = (Z.of_nat (length (expand ins)) mod (s * t))%Z) /\
  (s = 0%Z -> k_data k = []).
Lemma div_nat n a m t : (0 < t)%Z -> (0 <= m)%Z -> a = (Z.of_nat n mod t)%Z ->
  Z.to_nat ((a + m) / t) = ((n mod Z.to_nat t + Z.to_nat m) / Z.to_nat t)%nat.
Proof.
  intros Ht Hm ->. apply Nat2Z.inj. rewrite Z2Nat.id.
  2:{ apply Z.div_pos; [|lia]. pose proof (Z.mod_pos_bound (Z.of_nat n) t Ht). lia. }
  rewrite Nat2Z.inj_div, Nat2Z.inj_add, Nat2Z.inj_mod, !Z2Nat.id by lia. reflexivity.
Qed.
Lemma mod_snoc n m t : (0 < t)%Z -> (0 <= m)%Z -> ((Z.of_nat n mod t + m) mod t = Z.of_nat (n + Z.to_nat m) mod t)%Z.
Proof. intros Ht Hm. rewrite Nat2Z.inj_add, Z2Nat.id by lia. now rewrite Zplus_mod_idemp_l. Qed.
Lemma thinned_step s t k ins p l m tf : (0 < t)%Z -> (0 <= s)%Z -> (1 <= m)%Z -> match tf with Some x => x | None => 1%Z end = t ->
  thinned s t k ins -> thinned s t (AddWeighted s k p l m tf) (ins ++ [(p, l, m)]).
Proof.
  intros Ht Hs Hm Etf (B & R1 & A & D & D0). unfold AddWeighted. rewrite Etf, B. cbn [Z.eqb negb].
  set (n := length (expand ins)) in *.
  assert (LEN : length (expand (ins ++ [(p, l, m)])) = (n + Z.to_nat m)%nat) by (rewrite expand_snoc, app_length, repeat_length; reflexivity).
  assert (ABND : (0 <= k_acc k < t)%Z) by (rewrite A; now apply Z.mod_pos_bound).
  set (acc := (k_acc k + m)%Z).
  assert (HR : forall rows acc1, (if (t <=? acc)%Z || (t =? 1)%Z then (k_rows k ++ [(p, l, (acc / t)%Z)], (acc mod t)%Z) else (k_rows k, acc)) = (rows, acc1) ->
    expand rows = every (Z.to_nat t) (expand (ins ++ [(p, l, m)])) /\ acc1 = (Z.of_nat (length (expand (ins ++ [(p, l, m)]))) mod t)%Z).
  { intros rows acc1 E. rewrite LEN, expand_snoc, every_app by lia. fold n. rewrite <- R1, <- (div_nat n (k_acc k) m t) by (auto; lia). fold acc.
    rewrite <- mod_snoc, <- A by lia. fold acc. destruct ((t <=? acc)%Z || (t =? 1)%Z) eqn:C; injection E as <- <-.
    - rewrite expand_snoc. split; reflexivity.
    - apply orb_false_iff in C. destruct C as (C & _). apply Z.leb_gt in C. rewrite Z.div_small by (unfold acc in *; lia). cbn [Z.to_nat repeat]. rewrite app_nil_r.
      split; [reflexivity|]. symmetry. apply Z.mod_small. unfold acc in *; lia. }
  destruct (if (t <=? acc)%Z || (t =? 1)%Z then _ else _) as (rows, acc1) eqn:E. destruct (HR rows acc1 eq_refl) as (HR1 & HR2). clear HR E.
  destruct (Z.eq_dec s 0) as [S0|S0].
  - subst s. cbn [Z.eqb negb andb]. unfold thinned. cbn [k_burn k_rows k_acc k_data]. split; [reflexivity|]. split; [exact HR1|]. split; [exact HR2|]. split; [congruence|]. intros _. now apply D0.
  - destruct (D S0) as (D1 & D2). assert (Hst : (0 < s * t)%Z) by nia. set (T := (s * t)%Z) in *.
    assert (IBND : (0 <= k_indep k < T)%Z) by (rewrite D2; now apply Z.mod_pos_bound).
    replace (s =? 0)%Z with false by (symmetry; now apply Z.eqb_neq). cbn [negb andb]. rewrite andb_true_r.
    assert (X : expand (if (T <=? k_indep k + m)%Z then k_data k ++ [(p, l, ((k_indep k + m) / T)%Z)] else k_data k) = every (Z.to_nat T) (expand (ins ++ [(p, l, m)])) /\
      (if (T <=? k_indep k + m)%Z then ((k_indep k + m) mod T)%Z else (k_indep k + m)%Z) = (Z.of_nat (length (expand (ins ++ [(p, l, m)]))) mod T)%Z).
    { rewrite LEN, (expand_snoc ins), every_app by lia. fold n. rewrite <- D1, <- (div_nat n (k_indep k) m T) by (auto; lia). rewrite <- mod_snoc, <- D2 by lia.
      destruct (T <=? k_indep k + m)%Z eqn:C.
      - rewrite expand_snoc. split; reflexivity.
      - apply Z.leb_gt in C. rewrite Z.div_small by lia. cbn [Z.to_nat repeat]. rewrite app_nil_r. split; [reflexivity|]. symmetry. apply Z.mod_small. lia. }
    destruct (T <=? k_indep k + m)%Z; unfold thinned; cbn [k_burn k_rows k_acc k_data k_indep]; (split; [reflexivity|]; split; [exact HR1|]; split; [exact HR2|]; split; [intros _; exact X|intros; contradiction]).
Qed.
Lemma thinned_collect s t tf : (0 < t)%Z -> (0 <= s)%Z -> match tf with Some x => x | None => 1%Z end = t ->
  forall rows k ins, Forall (fun r => (1 <= weight r)%Z) rows -> thinned s t k ins -> thinned s t (collect (AddWeighted s) tf k rows) (ins ++ rows).
Proof.
  intros Ht Hs E. induction rows as [|((p, l), m) rows IH]; intros k ins F I; [now rewrite app_nil_r|]. inversion F as [|? ? F1 F2].
  pose proof (IH _ _ F2 (thinned_step s t k ins p l m tf Ht Hs F1 E I)) as X. rewrite <- app_assoc in X. exact X.
Qed.
Lemma thinned_new s t : (0 < t)%Z -> thinned s t (new_collector 0) [].
Proof. intros Ht. unfold thinned, new_collector. cbn. rewrite ?Zmod_0_l. tauto. Qed.
(** while checkpoint_burn counts down nothing is written *)
Lemma burn_collect s tf rows : forall b, (Z.of_nat (length rows) <= b)%Z ->
  match tf with Some x => (1 <= x)%Z | None => True end ->
  collect (AddWeighted s) tf (new_collector b) rows = new_collector (b - Z.of_nat (length rows)).
Proof.
  induction rows as [|((p, l), m) rows IH]; intros b Hb Ht; [cbn; f_equal; lia|]. cbn [length] in *. cbn [collect fold_left].
  replace (AddWeighted s (new_collector b) p l m tf) with (new_collector (b - 1)).
  - fold (collect (AddWeighted s) tf (new_collector (b - 1)) rows). rewrite IH by (auto; lia). f_equal. lia.
  - unfold AddWeighted, new_collector. cbn [k_burn k_acc k_indep k_rows k_data]. replace (b =? 0)%Z with false by (symmetry; apply Z.eqb_neq; lia). cbn [negb].
    rewrite andb_false_r. destruct tf as [x|]; [|reflexivity]. rewrite Zmod_0_l. destruct (_ || _); reflexivity.
Qed.

(** ** Counting steps, and the best point *)
Section Count.
  Variable L : list R -> R.
  Context {Col : Type}.
  Variable add : Col -> list R -> R -> Z -> option Z -> Col.
  Variable burn_in oversample : Z.
  Hypothesis top : forall y, L y <= logZero.
  Notation stp ud nb := (GetNewSample L add burn_in oversample ud nb).

  Lemma step_sample ud nb r c : c_like c = L (c_par c) ->
    c_sample (stp ud nb r c) = (c_sample c + 1)%Z \/ ud = true /\ c_sample (stp ud nb r c) = c_sample c.
  Proof.
    intros H. destruct (step_cases L add burn_in oversample ud nb r c top H) as [(t & _ & A)|(A & B)]; [left; apply A|].
    destruct ud; [|left; now apply B]. destruct A as (_ & _ & _ & _ & _ & _ & [A|A]); auto.
  Qed.
  Lemma run_like ud nb rs : forall c, c_like c = L (c_par c) -> c_like (final (stp ud nb) rs c) = L (c_par (final (stp ud nb) rs c)).
  Proof. induction rs as [|r rs IH]; intros c H; [exact H|]. cbn [final fold_left]. apply IH. now apply step_like. Qed.
  Lemma SampleFrom_run ud nb n ot rs : forall c pts c' pts', c_like c = L (c_par c) -> (c_sample c <= n * oversample + 1)%Z ->
    SampleFrom L add burn_in oversample ud nb n ot rs c pts = Some (Some (c', pts')) ->
    exists rs1 rs2, rs = rs1 ++ rs2 /\ c' = final (stp ud nb) rs1 c /\ c_sample c' = (n * oversample + 1)%Z /\
      (c_sample c' - c_sample c <= Z.of_nat (length rs1))%Z /\ (ud = false -> (c_sample c' - c_sample c = Z.of_nat (length rs1))%Z).
  Proof.
    assert (STOP : forall (c c' : chain Col) (pts pts' : list (list R * R)), (c_sample c <= n * oversample + 1)%Z -> negb (c_sample c <=? n * oversample)%Z = true ->
      Some (Some (c, pts)) = Some (Some (c', pts')) -> c' = c /\ c_sample c' = (n * oversample + 1)%Z).
    { intros c c' pts pts' H N E. injection E as <- _. apply negb_true_iff, Z.leb_gt in N. split; [reflexivity|lia]. }
    induction rs as [|r rs IH]; intros c pts c' pts' Hc Hn E.
    - cbn [SampleFrom] in E. destruct (negb _) eqn:N; [|discriminate]. destruct (STOP _ _ _ _ Hn N E) as (-> & S). exists [], []. rewrite S. cbn. repeat split; try reflexivity; lia.
    - cbn [SampleFrom] in E. destruct (negb _) eqn:N.
      { destruct (STOP _ _ _ _ Hn N E) as (-> & S). exists [], (r :: rs). rewrite S. cbn. repeat split; try reflexivity; lia. }
      apply negb_false_iff, Z.leb_le in N. set (c1 := stp ud nb r c) in *. assert (Hc1 : c_like c1 = L (c_par c1)) by now apply step_like.
      assert (ST : c_sample c1 = (c_sample c + 1)%Z \/ ud = true /\ c_sample c1 = c_sample c) by now apply step_sample.
      assert (GO : exists pts1, SampleFrom L add burn_in oversample ud nb n ot rs c1 pts1 = Some (Some (c', pts'))).
      { destruct (negb (Reqb (c_like c1) logZero)); [eexists; exact E|]. destruct (1000 <? c_sample c1)%Z; [discriminate|eexists; exact E]. }
      destruct GO as (pts1 & GO). destruct (IH c1 pts1 c' pts' Hc1 ltac:(lia) GO) as (rs1 & rs2 & -> & F & S & C1 & C2).
      exists (r :: rs1), rs2. split; [reflexivity|]. split; [exact F|]. split; [exact S|]. cbn [length]. split; [lia|]. intros ->. specialize (C2 eq_refl).
      destruct ST as [ST|(X & _)]; [lia|discriminate].
  Qed.

  Lemma best_run ud nb rs : forall c, c_like c = L (c_par c) ->
    let c' := final (stp ud nb) rs c in
    (forall s, In s (c :: states (stp ud nb) rs c) -> c_max c' <= c_like s \/ here s = here c') /\ c_max c' <= c_max c /\
    (c_max c' = c_max c /\ c_maxpar c' = c_maxpar c \/
     exists s, In s (c :: states (stp ud nb) rs c) /\ c_max c' = c_like s /\ c_maxpar c' = c_par s).
  Proof.
    induction rs as [|r rs IH]; intros c Hc c'.
    - cbn [states final fold_left] in *. unfold c'. split; [|split; [lra|left; split; reflexivity]]. intros s [<-|[]]. now right.
    - set (c1 := stp ud nb r c). assert (Hc1 : c_like c1 = L (c_par c1)) by now apply step_like.
      destruct (IH c1 Hc1) as (I1 & I2 & I3). change (final (stp ud nb) rs c1) with c' in *. cbn [states]. fold c1.
      destruct (step_cases L add burn_in oversample ud nb r c top Hc) as [(t & _ & A)|(A & _)]; fold c1 in A.
      + destruct A as (_ & _ & _ & _ & M & _ & P1 & P2). split; [|split].
        * intros s [<-|H]; [left|now apply I1]. rewrite M in I2. pose proof (Rmin_r (c_max c) (c_like c)). lra.
        * rewrite M in I2. pose proof (Rmin_l (c_max c) (c_like c)). lra.
        * destruct I3 as [(E1 & E2)|(s & H & E)]; [|right; exists s; split; [now right|exact E]].
          rewrite E1, E2, M. destruct (Rlt_dec (c_like c) (c_max c)) as [X|X].
          -- right. exists c. split; [now left|]. split; [apply Rmin_right; lra|now apply P1].
          -- left. split; [apply Rmin_left; lra|now apply P2].
      + destruct A as (R1 & _ & _ & _ & M & P & _). rewrite M in I2. split; [|split; [exact I2|]].
        * intros s [<-|H]; [|now apply I1]. destruct (I1 c1 (or_introl eq_refl)) as [X|X].
          -- left. injection R1 as _ E. now rewrite <- E.
          -- right. now rewrite <- R1.
        * destruct I3 as [(E1 & E2)|(s & H & E)]; [left; split; congruence|right; exists s; split; [now right|exact E]].
  Qed.
End Count.
