(** C95-C97: likelihood values with reuse of earlier results. *)
From Coq Require Import Reals Lra Lia List Bool.
From Verif Require Import StatModel McmcModel LikeModel LikeSpec LikeProofs.
Import ListNotations.
Local Open Scope R_scope.
Local Open Scope list_scope.
Local Opaque logZero.

Lemma logZero_big : 1000 < logZero.
Proof.
  Transparent logZero. unfold logZero. change 30%nat with (3 + 27)%nat. rewrite pow_add. assert (1 <= 10 ^ 27) by (apply pow_R1_Rle; lra).
  replace (10 ^ 3) with 1000 by ring. assert (1 < 10 ^ 27); [|lra]. apply Rlt_pow_R1; [lra|lia].
Qed.
Local Opaque logZero.

(** ** An example setup: a slow parameter x and a fast parameter y, x > -10, likelihoods (x+1)^2 + y^2 from the power spectrum and y *)
Definition exC : config R R R R :=
  mkCf 1 0 2 true false (fun P => Some (nth 0 P 0, 2)) (fun _ tr => Some (tr + 1)) (fun _ => Some 2) (fun P => nth 0 P 0)
    (fun _ => 0) (fun P => nth 1 P 0 / 2) (fun P => GetLogLikeBounds [-10; -10] [10; 10] P) 1
    [mkLk [true; true] (fun P t b => match t_pow t with Some w => w ^ 2 + nth 1 P 0 ^ 2 | None => 0 end); mkLk [false; true] (fun P t b => nth 1 P 0)].
Definition exq : point R R := mkPt [1; 1] [0; 0] [] false None None.
Definition exmoves : list move :=
  [Metropolis [2; 1] true true; Metropolis [2; 3] true true; Dragging [3; 3] [([0; 1], true); ([0; -2], false)] true true; Metropolis [11; 3] true true].
Lemma exC_sound : sound_config exC.
Proof.
  constructor; cbn [likes nh ni np block_semi_fast camb_transfer exC].
  - constructor; [|constructor; [|constructor]].
    + intros P P' t t' L1 L2 F1 F2 E. unfold fresh_theory in F1, F2. cbn in F1, F2. inversion F1; inversion F2; subst. unfold fresh_like. cbn.
      cbn [lk_dep np exC] in *. pose proof (E 0%nat eq_refl) as E0. pose proof (E 1%nat eq_refl) as E1.
      destruct P as [|x [|y [|]]]; try discriminate. destruct P' as [|x' [|y' [|]]]; try discriminate. cbn in *. subst. reflexivity.
    + intros P P' t t' L1 L2 F1 F2 E. unfold fresh_like. cbn. exact (E 1%nat eq_refl).
  - constructor; [|constructor; [|constructor]].
    + intros H P t b b'. reflexivity.
    + intros H P t b b'. reflexivity.
  - constructor; [|constructor; [|constructor]]; exists 1%nat; split; cbn; auto; lia.
  - discriminate.
  - lia.
  - lia.
Qed.
Lemma exmoves_sound : Forall (sound_move exC) exmoves.
Proof.
  repeat constructor; cbn; try lia; intros j Hj; (assert (j = 0%nat) as -> by lia); reflexivity.
Qed.
Lemma exq_unevaluated : unevaluated exC exq.
Proof. repeat split. Qed.
Lemma ex_bounds x y : -10 <= x <= 10 -> -10 <= y <= 10 -> bounds exC [x; y] = 0.
Proof.
  intros Hx Hy. cbn. unfold GetLogLikeBounds, Rltb. cbn.
  repeat match goal with |- context [Rlt_dec ?a ?b] => destruct (Rlt_dec a b); [exfalso; lra|] end. reflexivity.
Qed.
Lemma ex_total x y : -10 <= x <= 10 -> -10 <= y <= 10 -> total exC [x; y] = (x + 1) ^ 2 + y ^ 2 + y + y / 2.
Proof.
  intros Hx Hy. pose proof logZero_big as Z. unfold total. rewrite ex_bounds by assumption. cbn [prior0 exC].
  destruct (Req_EM_T 0 logZero); [lra|].
  assert (E : fresh_main exC [x; y] = (x + 1) ^ 2 + y ^ 2 + y).
  { unfold fresh_main, fresh_theory. cbn. unfold fresh_like. cbn.
    assert (0 <= (x + 1) ^ 2 <= 121) by (split; [apply pow2_ge_0|]; nra). assert (0 <= y ^ 2 <= 100) by (split; [apply pow2_ge_0|]; nra).
    destruct (Req_EM_T _ logZero) as [E|_]; [exfalso; lra|]. destruct (Req_EM_T _ logZero) as [E|_]; [exfalso; lra|]. cbn.
    unfold zsum. destruct (Req_EM_T 0 logZero); [lra|]. destruct (Req_EM_T _ logZero) as [E|_]; [exfalso; lra|]. lra. }
  assert (0 <= (x + 1) ^ 2 <= 121) by (split; [apply pow2_ge_0|]; nra). assert (0 <= y ^ 2 <= 100) by (split; [apply pow2_ge_0|]; nra).
  rewrite E. destruct (Req_EM_T _ logZero) as [F|_]; [exfalso; lra|]. cbn [T exC].
  destruct (Req_EM_T _ logZero) as [F|_]; [exfalso; lra|]. cbn [priors exC nth]. destruct (Req_EM_T _ logZero) as [F|_]; [exfalso; lra|]. field.
Qed.

(** ** C95 *)

(** Every likelihood value the sampler gets, for any sequence of proposals and decisions, is the value computed from scratch. *)
Theorem C95_values {Tr D Pw Bg} (C : config Tr D Pw Bg) ms h p l s :
  sound_config C -> unevaluated C p -> Forall (sound_move C) ms -> do_moves C ms (mkS h p l [] []) = Some s ->
  Forall (fun e => snd e = total C (fst e)) (s_eval s).
Proof.
  intros SC U Hm E. destruct (do_moves_run C SC p l ms Hm _ (start_run C h p l U)) as (s' & E' & (_ & Hev & _) & _).
  rewrite E in E'. inversion E'; subst. exact Hev.
Qed.
Print Assumptions C95_values.
(** A new chain starts with likelihood logZero; each point written has the likelihood and the theory of its own parameters. *)
Theorem C95_written {Tr D Pw Bg} (C : config Tr D Pw Bg) ms h p s :
  sound_config C -> unevaluated C p -> Forall (sound_move C) ms -> do_moves C ms (mkS h p logZero [] []) = Some s ->
  Forall (fun o => snd o = total C (pt_P (fst o)) /\ snd o <> logZero /\ right_point C (fst o)) (s_out s).
Proof.
  intros SC U Hm E. destruct (do_moves_run C SC p logZero ms Hm _ (start_run C h p logZero U)) as (s' & E' & _ & R).
  rewrite E in E'. inversion E'; subst. destruct R as [(_ & _ & _ & ->)|(_ & o & rest & -> & Ho & Hr)]; [constructor|].
  destruct Ho as [->|[_ N]]; [exact Hr|congruence].
Qed.
Print Assumptions C95_written.
(** When a chain is continued with the point and likelihood read from its file, the same holds for all points written but the point
    read itself, which may come first. *)
Theorem C95_continued {Tr D Pw Bg} (C : config Tr D Pw Bg) ms h p l s :
  sound_config C -> unevaluated C p -> Forall (sound_move C) ms -> do_moves C ms (mkS h p l [] []) = Some s ->
  exists first rest, s_out s = first ++ rest /\ (first = [] \/ first = [(p, l)]) /\
    Forall (fun o => snd o = total C (pt_P (fst o)) /\ snd o <> logZero /\ right_point C (fst o)) rest.
Proof.
  intros SC U Hm E. destruct (do_moves_run C SC p l ms Hm _ (start_run C h p l U)) as (s' & E' & _ & R).
  rewrite E in E'. inversion E'; subst. destruct R as [(_ & _ & _ & ->)|(_ & o & rest & -> & Ho & Hr)].
  - exists [], []. auto.
  - exists o, rest. split; [reflexivity|]. split; [|exact Hr]. destruct Ho as [->|[-> _]]; auto.
Qed.
Print Assumptions C95_continued.
(** The current point of a chain that moved is right too, with its likelihood. *)
Theorem C95_current {Tr D Pw Bg} (C : config Tr D Pw Bg) ms h p l s :
  sound_config C -> unevaluated C p -> Forall (sound_move C) ms -> do_moves C ms (mkS h p l [] []) = Some s ->
  (s_cur s = p /\ s_like s = l /\ s_out s = []) \/ (s_like s = total C (pt_P (s_cur s)) /\ right_point C (s_cur s)).
Proof.
  intros SC U Hm E. destruct (do_moves_run C SC p l ms Hm _ (start_run C h p l U)) as (s' & E' & (_ & _ & Hl) & R).
  rewrite E in E'. inversion E'; subst. destruct R as [(_ & -> & -> & ->)|(Ev & _)]; [left; auto|right].
  split; [apply Hl, Ev|apply (evaluated_right C _ _ Ev)].
Qed.
Print Assumptions C95_current.
(** The values the minimizer gets. *)
Theorem C95_minimizer {Tr D Pw Bg} (C : config Tr D Pw Bg) Ps h p h' p' ev :
  sound_config C -> unevaluated C p -> Forall (fun P => length P = np C) Ps -> ffns C Ps h p [] = Some (h', p', ev) ->
  length ev = length Ps /\ Forall (fun e => snd e = total C (fst e)) ev.
Proof.
  intros SC U Hp E. destruct (ffns_ok C SC Ps Hp h p [] (or_intror U) (Forall_nil _)) as (h2 & p2 & ev2 & E2 & _ & He & L).
  rewrite E in E2. inversion E2; subst. split; [exact L|exact He].
Qed.
Print Assumptions C95_minimizer.
(** Outside the bounds the likelihood is logZero, inside that part is 0; the Gaussian priors give half the sum of squared deviations. *)
Theorem C95_bounds pmin pmax P : length pmin = length P -> length pmax = length P ->
  (GetLogLikeBounds pmin pmax P = 0 <-> forall j, (j < length P)%nat -> nth j pmin 0 <= nth j P 0 <= nth j pmax 0) /\
  (GetLogLikeBounds pmin pmax P = logZero <-> exists j, (j < length P)%nat /\ (nth j P 0 < nth j pmin 0 \/ nth j pmax 0 < nth j P 0)).
Proof.
  intros L1 L2. pose proof logZero_big as Z.
  assert (K : (existsb (fun p => Rltb (snd p) (fst p)) (combine P pmax) || existsb (fun p => Rltb (fst p) (snd p)) (combine P pmin) = true <->
               exists j, (j < length P)%nat /\ (nth j P 0 < nth j pmin 0 \/ nth j pmax 0 < nth j P 0))).
  { rewrite orb_true_iff. split.
    - intros [H|H]; apply existsb_exists in H; destruct H as ([a b] & Hi & H); cbn in H;
        apply (In_nth _ _ (0, 0)) in Hi; destruct Hi as (j & Hj & E); rewrite combine_length in Hj; rewrite combine_nth in E by lia;
        inversion E; subst; exists j; (split; [lia|]); unfold Rltb in H;
        match type of H with context [Rlt_dec ?a ?b] => destruct (Rlt_dec a b) end; try discriminate; auto.
    - intros (j & Hj & [H|H]); [right|left]; apply existsb_exists; eexists;
        (split; [apply (nth_In _ (0, 0) (n := j)); rewrite combine_length; lia|]);
        rewrite combine_nth by lia; cbn; unfold Rltb;
        match goal with |- context [Rlt_dec ?a ?b] => destruct (Rlt_dec a b) end; auto. }
  unfold GetLogLikeBounds. destruct (_ || _) eqn:E.
  - split.
    + split; [intros; lra|]. intros H. destruct (proj1 K eq_refl) as (j & Hj & H2). specialize (H j Hj). lra.
    + split; [intros _; apply K; reflexivity|reflexivity].
  - split.
    + split; [intros _ j Hj|reflexivity].
      destruct (Rle_dec (nth j pmin 0) (nth j P 0)) as [A|A].
      * split; [exact A|]. destruct (Rle_dec (nth j P 0) (nth j pmax 0)) as [B|B]; [exact B|].
        enough (false = true) by discriminate. apply K. exists j. split; [exact Hj|right; lra].
      * enough (false = true) by discriminate. apply K. exists j. split; [exact Hj|left; lra].
    + split; [lra|]. intros H. enough (false = true) by discriminate. apply K. exact H.
Qed.
Print Assumptions C95_bounds.
Lemma exp_half_sum {A} (f g : A -> R) l : (forall a, exp (- (f a / 2)) = g a) ->
  exp (- (sumR (map f l) / 2)) = prodR (map g l).
Proof.
  intros H. induction l as [|a l IH].
  - cbn. replace (- (0 / 2)) with 0 by lra. apply exp_0.
  - change (prodR (map g (a :: l))) with (g a * prodR (map g l)). change (sumR (map f (a :: l))) with (f a + sumR (map f l)).
    rewrite <- H, <- IH, <- exp_plus. f_equal. lra.
Qed.
(** The prior density is the product of the Gaussian densities of the parameters that vary (or of all) and of the linear combinations. *)
Theorem C95_priors fixed_too gauss lin P :
  exp (- GetLogPriors fixed_too gauss lin P) =
  prodR (map (fun q => let '(p, (varying, mean, std)) := q in if varying || fixed_too then gaussian p mean std else 1) (combine P gauss)) *
  prodR (map (fun q => let '(comb, mean, std) := q in gaussian (dotR comb P) mean std) lin).
Proof.
  unfold GetLogPriors. match goal with |- exp (- ((?a + ?b) / 2)) = _ => replace (- ((a + b) / 2)) with (- (a / 2) + - (b / 2)) by lra end.
  rewrite exp_plus.
  assert (G : forall x m s, exp (- ((if negb (Reqb s 0) then ((x - m) / s) ^ 2 else 0) / 2)) = gaussian x m s).
  { intros x m s. unfold gaussian, Reqb. destruct (Req_EM_T s 0); cbn [negb].
    - replace (- (0 / 2)) with 0 by lra. apply exp_0.
    - f_equal. field. assumption. }
  f_equal; apply exp_half_sum.
  - intros [p [[v m] s]]. destruct (v || fixed_too); cbn [andb]; [apply G|]. replace (- (0 / 2)) with 0 by lra. apply exp_0.
  - intros [[c m] s]. apply G.
Qed.
Print Assumptions C95_priors.

(** ** C96 *)

(** No move ever uses or frees memory that is not there. *)
Theorem C96_sampler_partial {Tr D Pw Bg} (C : config Tr D Pw Bg) ms h p l :
  sound_config C -> unevaluated C p -> Forall (sound_move C) ms -> do_moves C ms (mkS h p l [] []) <> None.
Proof.
  intros SC U Hm. destruct (do_moves_run C SC p l ms Hm _ (start_run C h p l U)) as (s' & -> & _). discriminate.
Qed.
Print Assumptions C96_sampler_partial.
Theorem C96_minimizer_partial {Tr D Pw Bg} (C : config Tr D Pw Bg) Ps h p :
  sound_config C -> unevaluated C p -> Forall (fun P => length P = np C) Ps -> ffns C Ps h p [] <> None.
Proof.
  intros SC U Hp. destruct (ffns_ok C SC Ps Hp h p [] (or_intror U) (Forall_nil _)) as (h2 & p2 & ev2 & -> & _). discriminate.
Qed.
Print Assumptions C96_minimizer_partial.
(** Once a chain has moved, no memory is lost: later on, each cell in use is that of the current point or one that was already lost. *)
Theorem C96_no_leak_partial {Tr D Pw Bg} (C : config Tr D Pw Bg) ms ms' h p l s s' b i :
  sound_config C -> unevaluated C p -> Forall (sound_move C) ms -> Forall (sound_move C) ms' ->
  do_moves C ms (mkS h p l [] []) = Some s -> pt_valid (s_cur s) = true -> do_moves C ms' s = Some s' ->
  nth_error (s_heap s') b = Some (Some i) ->
  pt_info (s_cur s') = Some b \/ exists j, nth_error (s_heap s) b = Some (Some j) /\ pt_info (s_cur s) <> Some b.
Proof.
  intros SC U Hm Hm' E V E' Hb. destruct (do_moves_run C SC p l ms Hm _ (start_run C h p l U)) as (s0 & E0 & R).
  rewrite E in E0. inversion E0; subst s0. clear E0. assert (Ev : evaluated C (s_heap s) (s_cur s)).
  { destruct R as [_ [(Un & _)|(Ev & _)]]; [|exact Ev]. destruct Un as (_ & _ & V2 & _). congruence. }
  set (f := fun b => match nth_error (s_heap s) b with Some (Some _) => true | _ => false end).
  set (k := filter (fun b => f b && negb (match pt_info (s_cur s) with Some c => Nat.eqb b c | None => false end)) (seq 0 (length (s_heap s)))).
  assert (O : only (s_heap s) (addr (s_cur s) ++ k)).
  { intros x j Hx. apply in_app_iff. unfold addr. destruct (pt_info (s_cur s)) as [c|] eqn:Ec.
    - destruct (Nat.eq_dec x c) as [->|N]; [left; left; reflexivity|right]. apply filter_In. split.
      + apply in_seq. pose proof (live_lt _ _ _ Hx). lia.
      + unfold f. unfold live in Hx. rewrite Hx. rewrite (proj2 (Nat.eqb_neq _ _) N). reflexivity.
    - right. apply filter_In. split; [apply in_seq; pose proof (live_lt _ _ _ Hx); lia|]. unfold f. unfold live in Hx. rewrite Hx. reflexivity. }
  pose proof (do_moves_only C SC p l ms' Hm' s s' k R Ev O E' b i Hb) as I. apply in_app_iff in I. destruct I as [I|I].
  - left. unfold addr in I. destruct (pt_info (s_cur s')); [|destruct I]. destruct I as [->|[]]. reflexivity.
  - right. apply filter_In in I. destruct I as [_ I]. apply andb_true_iff in I as [I1 I2]. unfold f in I1.
    destruct (nth_error (s_heap s) b) as [[j|]|]; try discriminate. exists j. split; [reflexivity|]. intros Q. rewrite Q, Nat.eqb_refl in I2. discriminate.
Qed.
Print Assumptions C96_no_leak_partial.

(** Computing with the example *)
Ltac rb := repeat (cbv -[Reqb Rltb Rplus Rmult Ropp Rminus Rdiv Rinv IZR pow logZero];
  match goal with
  | |- context [Reqb ?a ?b] =>
      first [ rewrite (proj2 (Reqb_true a b)) by (first [reflexivity | lra])
            | rewrite (proj2 (Reqb_false a b)) by (pose proof logZero_big; lra) ]
  | |- context [Rltb ?a ?b] =>
      first [ replace (Rltb a b) with false by (unfold Rltb; destruct (Rlt_dec a b); [lra|reflexivity])
            | replace (Rltb a b) with true by (unfold Rltb; destruct (Rlt_dec a b); [reflexivity|lra]) ]
  end).

Lemma ex_ffn : exists h prm l, ffn exC [1; 1] [] exq = Some (h, prm, l) /\ h = [Some (mkInf None None); Some (mkInf (Some 1) (Some 1))] /\
  prm = mkPt [1; 1] [(1 + 1) ^ 2 + 1 ^ 2; 1] [1; 1] true (Some (mkTh (Some 2) (Some (1 + 1)))) (Some 1%nat).
Proof. eexists _, _, _. split; [rb; reflexivity|]. split; reflexivity. Qed.
Definition ex_prm : point R R := mkPt [1; 1] [(1 + 1) ^ 2 + 1 ^ 2; 1] [1; 1] true (Some (mkTh (Some 2) (Some (1 + 1)))) (Some 1%nat).
Definition ex_turn : list move := [Metropolis [2; 1] true true].
Lemma ex_refine1 l : refine exC ex_turn None [Some (mkInf None None); Some (mkInf (Some 1) (Some 1))] ex_prm l =
  Some ([Some (mkInf None None); None; None], ex_prm).
Proof. rb. destruct (Reqb l logZero); reflexivity. Qed.
Lemma ex_refine2 l : refine exC ex_turn None [Some (mkInf None None); None; None] ex_prm l = None.
Proof. rb. reflexivity. Qed.
(** In the last refinement of the minimizer, chains are started from copies of the best point.  A chain that moves frees the memory of
    its start point, that is of the best point.  If no better point was found the best point is used again, and the next chain frees
    its memory a second time. *)
Theorem C96_refine_refuted : exists h prm l, ffn exC [1; 1] [] exq = Some (h, prm, l) /\ l <> logZero /\
  total exC [1; 1] < total exC [2; 1] /\ Forall (sound_move exC) ex_turn /\
  refine exC ex_turn None h prm l <> None /\ refines exC [(ex_turn, None); (ex_turn, None)] h prm l = None.
Proof.
  destruct ex_ffn as (h & prm & l & E & Eh & Ep). exists h, prm, l. split; [exact E|].
  assert (L : l = total exC [1; 1]).
  { destruct (C95_minimizer exC [[1; 1]] [] exq h prm [([1; 1], l)] exC_sound exq_unevaluated) as [_ H].
    - repeat constructor.
    - cbn [ffns]. rewrite E. reflexivity.
    - exact (Forall_inv H). }
  rewrite ex_total in L by lra. split; [pose proof logZero_big; lra|]. split; [rewrite !ex_total by lra; lra|].
  split; [repeat constructor|]. rewrite Eh, Ep. fold ex_prm. unfold refines. rewrite ex_refine1. split; [discriminate|].
  cbn [bindO fst snd]. rewrite ex_refine2. reflexivity.
Qed.
Print Assumptions C96_refine_refuted.
(** The first evaluation loses the memory that was allocated before the theory is computed. *)
Theorem C96_first_refuted : exists s, do_move exC (Metropolis [2; 1] true true) (mkS [] exq logZero [] []) = Some s /\
  pt_info (s_cur s) = Some 1%nat /\ exists i, nth_error (s_heap s) 0 = Some (Some i).
Proof. eexists. split; [rb; reflexivity|]. split; [reflexivity|]. eexists. reflexivity. Qed.
Print Assumptions C96_first_refuted.

(** a chain that moves, changes a fast parameter, drags, and meets a point outside the bounds *)
Example C95_ex : sound_config exC /\ unevaluated exC exq /\ Forall (sound_move exC) exmoves /\ total exC [2; 1] = 23 / 2 /\ total exC [11; 3] = logZero /\
  exists s, do_moves exC exmoves (mkS [] exq logZero [] []) = Some s.
Proof.
  split; [exact exC_sound|]. split; [exact exq_unevaluated|]. split; [exact exmoves_sound|]. split; [rewrite ex_total by lra; lra|].
  split.
  - unfold total. replace (bounds exC [11; 3]) with logZero; [destruct (Req_EM_T logZero logZero); congruence|].
    symmetry. apply (C95_bounds [-10; -10] [10; 10] [11; 3]); [reflexivity|reflexivity|]. exists 0%nat. cbn. split; [lia|right; lra].
  - pose proof (C96_sampler_partial exC exmoves [] exq logZero exC_sound exq_unevaluated exmoves_sound) as N.
    destruct (do_moves exC exmoves _) as [s|]; [exists s; reflexivity|congruence].
Qed.
Example C96_ex : exists s s', do_moves exC [Metropolis [2; 1] true true] (mkS [] exq logZero [] []) = Some s /\ pt_valid (s_cur s) = true /\
  do_moves exC [Metropolis [2; 3] true true] s = Some s' /\ length (s_out s') = 1%nat.
Proof. eexists _, _. split; [rb; reflexivity|]. split; [reflexivity|]. split; [rb; reflexivity|]. reflexivity. Qed.

(** ** C97 *)

(** Importance sampling from stored theory results: likelihoods that are selected are computed anew, others keep the stored value, and
    the sum with priors is that of the sampler. *)
Theorem C97_redone {Tr D Pw Bg} (C : config Tr D Pw Bg) dl h p t :
  sound_config C -> length (pt_P p) = np C -> fresh_theory C (pt_P p) = Some t -> pt_th p = Some t -> pt_info p = None ->
  length dl = length (likes C) -> length (pt_likes p) = length (likes C) ->
  (forall j d k v, nth_error dl j = Some d -> nth_error (likes C) j = Some k -> nth_error (pt_likes p) j = Some v ->
     fresh_like C (pt_P p) t k <> logZero /\ (d = false -> v = fresh_like C (pt_P p) t k)) ->
  total C (pt_P p) <> logZero -> bounds C (pt_P p) + prior0 C (pt_P p) / T C <> logZero ->
  sumR (map (fresh_like C (pt_P p) t) (likes C)) <> logZero ->
  exists h' q, GetLogLikePost C dl h p = Some (h', q, total C (pt_P p)) /\ pt_likes q = map (fresh_like C (pt_P p) t) (likes C).
Proof.
  intros SC LP Ft Ht Hi Ld Lv Hs Tz Bz Sz.
  destruct (GetLogLikePost_ok C SC dl h p t LP Ht Ld Lv ltac:(congruence)) as (h' & q & v & E & R & _).
  assert (M : mixed C (pt_P p) t dl (likes C) (pt_likes p) = map (fresh_like C (pt_P p) t) (likes C) /\
              Forall (fun k => fresh_like C (pt_P p) t k <> logZero) (redone dl (likes C)) /\
              Forall (fun k => fresh_like C (pt_P p) t k <> logZero) (likes C)).
  { clear - Hs Ld Lv. revert Hs Ld Lv. generalize (likes C) (pt_likes p) (pt_P p). intros ks. revert dl.
    induction ks as [|k ks IH]; intros [|d dl] [|v vs] P Hs Ld Lv; cbn in *; try discriminate; [auto|].
    destruct (IH dl vs P ltac:(intros j; exact (Hs (S j))) ltac:(lia) ltac:(lia)) as (A & B & F).
    destruct (Hs 0%nat d k v eq_refl eq_refl eq_refl) as [N G]. rewrite A. split; [destruct d; [reflexivity|rewrite G; reflexivity]|].
    split; [destruct d; [constructor; assumption|exact B]|constructor; assumption]. }
  destruct M as (M & F & Fa). unfold total in *.
  destruct (Req_EM_T (bounds C (pt_P p)) logZero); [congruence|]. destruct (Req_EM_T (prior0 C (pt_P p)) logZero); [congruence|].
  destruct (R n n0 Bz) as [R1 _]. destruct (R1 F) as [Q V]. rewrite M in *.
  destruct (Req_EM_T (fresh_main C (pt_P p)) logZero) as [|Mz]; [congruence|].
  destruct (Req_EM_T (bounds C (pt_P p) + fresh_main C (pt_P p) / T C) logZero) as [|Lz]; [congruence|].
  destruct (Req_EM_T (priors C (pt_P p)) logZero) as [|Pz]; [congruence|].
  assert (Em : fresh_main C (pt_P p) = prior0 C (pt_P p) + sumR (map (fresh_like C (pt_P p) t) (likes C))).
  { unfold fresh_main in *. rewrite Ft in *. destruct (existsb _ _); [congruence|]. unfold zsum in *.
    destruct (Req_EM_T (prior0 C (pt_P p)) logZero); [congruence|]. destruct (Req_EM_T (sumR _) logZero); [congruence|]. reflexivity. }
  exists h', q. split; [|exact Q]. rewrite E. f_equal. f_equal.
  assert (El : bounds C (pt_P p) + fresh_main C (pt_P p) / T C =
               bounds C (pt_P p) + prior0 C (pt_P p) / T C + sumR (map (fresh_like C (pt_P p) t) (likes C)) / T C).
  { rewrite Em. unfold Rdiv. ring. }
  rewrite El in *. apply V; assumption.
Qed.
Print Assumptions C97_redone.
(** A point that is impossible for the priors or for a selected likelihood gets logZero. *)
Theorem C97_impossible {Tr D Pw Bg} (C : config Tr D Pw Bg) dl h p t :
  sound_config C -> length (pt_P p) = np C -> pt_th p = Some t -> pt_info p = None ->
  length dl = length (likes C) -> length (pt_likes p) = length (likes C) -> bounds C (pt_P p) + prior0 C (pt_P p) / T C <> logZero ->
  bounds C (pt_P p) = logZero \/ prior0 C (pt_P p) = logZero \/ priors C (pt_P p) = logZero \/
    (exists j k, nth_error dl j = Some true /\ nth_error (likes C) j = Some k /\ fresh_like C (pt_P p) t k = logZero) ->
  exists h' q, GetLogLikePost C dl h p = Some (h', q, logZero).
Proof.
  intros SC LP Ht Hi Ld Lv Bz H. destruct (GetLogLikePost_ok C SC dl h p t LP Ht Ld Lv ltac:(congruence)) as (h' & q & v & E & R & Z).
  exists h', q. rewrite E. f_equal. f_equal.
  destruct H as [H|[H|[H|(j & k & Hd & Hk & H)]]]; auto.
  destruct (Req_EM_T (bounds C (pt_P p)) logZero); [auto|]. destruct (Req_EM_T (prior0 C (pt_P p)) logZero); [auto|].
  apply (R n n0 Bz). apply Exists_exists. exists k. split; [|exact H]. clear - Hd Hk. revert dl j Hd Hk. generalize (likes C). intros ks.
  induction ks as [|k' ks IH]; intros [|d dl] [|j] Hd Hk; cbn in *; try discriminate.
  - inversion Hd; inversion Hk; subst. left. reflexivity.
  - destruct d; [right|]; apply (IH dl j Hd Hk).
Qed.
Print Assumptions C97_impossible.
(** The stored first likelihood is kept, the second one is computed. *)
Definition ex_post : point R R := mkPt [1; 2] [8; 7] [] false (Some (mkTh (Some 2) (Some (1 + 1)))) None.
Example C97_ex : fresh_theory exC (pt_P ex_post) = Some (mkTh (Some 2) (Some (1 + 1))) /\ total exC (pt_P ex_post) = 11 /\
  exists h q, GetLogLikePost exC [false; true] [] ex_post = Some (h, q, 11) /\ pt_likes q = [8; 2].
Proof.
  split; [reflexivity|]. split; [cbn [pt_P ex_post]; rewrite ex_total by lra; lra|].
  destruct (C97_redone exC [false; true] [] ex_post (mkTh (Some 2) (Some (1 + 1))) exC_sound) as (h & q & E & L);
    try reflexivity.
  - intros j d k v Hd Hk Hv. pose proof logZero_big.
    destruct j as [|[|j]]; cbn in Hd, Hk, Hv; [| |destruct j; discriminate]; inversion Hd; inversion Hk; inversion Hv; subst; unfold fresh_like; cbn; split; try discriminate; lra.
  - cbn [pt_P ex_post]. rewrite ex_total by lra. pose proof logZero_big. lra.
  - cbn [pt_P ex_post]. rewrite ex_bounds by lra. cbn. pose proof logZero_big. lra.
  - cbn. pose proof logZero_big. lra.
  - exists h, q. cbn [pt_P ex_post] in E, L. rewrite ex_total in E by lra. split; [rewrite E; do 2 f_equal; lra|].
    rewrite L. unfold fresh_like. cbn. f_equal. lra.
Qed.
