(** C22: sample-counting confidence limits, chains.py 781-823. *)
From Verif Require Import PyStr PyBase ThinModel ChainModel ChainProofs ConfModel ConfSpec ConfProofs.
From Coq Require Import QArith Permutation Lqa.
Local Open Scope nat_scope.

Lemma conf_common argsort vec weights start stop : is_argsort argsort -> length weights = length vec ->
  Forall (fun w => 0 <= w)%Q weights ->
  let v := pyslice start stop vec in let ws := pyslice start stop weights in
  v <> [] -> exists d, initParamConfidenceData argsort vec weights start stop = d /\
  d = mkConf v (sumQ ws) (argsort v) (cumsumQ 0 (map (fun i => nth i ws 0%Q) (argsort v))) /\
  length ws = length v /\ Forall (fun w => 0 <= w)%Q ws /\ c_ix d <> [].
Proof.
  intros Has Hl Hw v ws Hne. destruct (init_full argsort vec weights start stop Hl Has) as [Hlen E].
  fold v ws in Hlen, E. eexists. split; [exact E|]. split; [reflexivity|]. split; [exact Hlen|]. split.
  - unfold ws, pyslice, slice. rewrite Forall_forall in Hw |- *. intros x Hx. apply Hw.
    assert (G : forall k (l : list Q) x, In x (skipn k l) -> In x l).
    { clear. intros k l x H. rewrite <- (firstn_skipn k l). apply in_or_app. auto. }
    assert (G2 : forall k (l : list Q) x, In x (firstn k l) -> In x l).
    { clear. intros k l x H. rewrite <- (firstn_skipn k l). apply in_or_app. auto. }
    destruct stop; eauto.
  - cbn. destruct (Has v) as [Hp _]. intros C. rewrite C in Hp. apply Permutation_nil in Hp.
    destruct v; [congruence|discriminate].
Qed.

(** Lower tail and its mirror image, on rows [start:stop]; [f] is the tail fraction. *)
Theorem C22_lower : forall argsort vec weights start stop f, is_argsort argsort -> length weights = length vec ->
  Forall (fun w => 0 <= w)%Q weights -> (0 <= f <= 1)%Q ->
  let v := pyslice start stop vec in let ws := pyslice start stop weights in
  v <> [] -> exists x,
    confidence (initParamConfidenceData argsort vec weights start stop) f false = Ok x /\ In x v /\
    (mass (below x) (combine v ws) <= f * sumQ ws)%Q /\ (f * sumQ ws <= mass (upto x) (combine v ws))%Q.
Proof.
  intros argsort vec weights start stop f Has Hl Hw Hf v ws Hne.
  destruct (conf_common argsort vec weights start stop Has Hl Hw Hne) as (d & -> & Ed & Hlen & Hws & Hix).
  fold v ws in Ed, Hlen, Hws. pose proof (sumQ_nonneg _ Hws) as Hs.
  exists (limit_at d (c_norm d * f)%Q). rewrite confidence_limit by exact Hix. split; [reflexivity|].
  assert (En : c_norm d = sumQ ws) by (rewrite Ed; reflexivity). rewrite En.
  destruct (limit_spec argsort v ws (sumQ ws * f)%Q Has Hne Hlen Hws) as (I1 & I2 & I3).
  { split; nra. }
  cbv zeta in I1, I2, I3. rewrite <- Ed in I1, I2, I3.
  split; [exact I1|]. split; rewrite (Qmult_comm f); assumption.
Qed.
Theorem C22_upper : forall argsort vec weights start stop f, is_argsort argsort -> length weights = length vec ->
  Forall (fun w => 0 <= w)%Q weights -> (0 <= f <= 1)%Q ->
  let v := pyslice start stop vec in let ws := pyslice start stop weights in
  v <> [] -> exists x,
    confidence (initParamConfidenceData argsort vec weights start stop) f true = Ok x /\ In x v /\
    (mass (above x) (combine v ws) <= f * sumQ ws)%Q /\ (f * sumQ ws <= mass (atleast x) (combine v ws))%Q.
Proof.
  intros argsort vec weights start stop f Has Hl Hw Hf v ws Hne.
  destruct (conf_common argsort vec weights start stop Has Hl Hw Hne) as (d & -> & Ed & Hlen & Hws & Hix).
  fold v ws in Ed, Hlen, Hws. pose proof (sumQ_nonneg _ Hws) as Hs.
  exists (limit_at d (c_norm d * (1 - f))%Q). rewrite confidence_limit by exact Hix. split; [reflexivity|].
  assert (En : c_norm d = sumQ ws) by (rewrite Ed; reflexivity). rewrite En.
  destruct (limit_spec argsort v ws (sumQ ws * (1 - f))%Q Has Hne Hlen Hws) as (I1 & I2 & I3).
  { split; nra. }
  cbv zeta in I1, I2, I3. rewrite <- Ed in I1, I2, I3.
  split; [exact I1|]. set (x := limit_at d _) in *.
  pose proof (mass_compl (upto x) (combine v ws)) as M1. pose proof (mass_compl (below x) (combine v ws)) as M2.
  rewrite map_snd_combine in M1, M2 by exact Hlen.
  rewrite (mass_ext (fun y => negb (upto x y)) (above x)) in M1 by reflexivity.
  rewrite (mass_ext (fun y => negb (below x y)) (atleast x)) in M2 by (intros y; unfold below, atleast; apply negb_involutive).
  split; lra.
Qed.
(** monotone in the tail fraction *)
Theorem C22_monotone : forall argsort vec weights start stop f g upper, is_argsort argsort -> length weights = length vec ->
  Forall (fun w => 0 <= w)%Q weights -> (f <= g)%Q ->
  pyslice start stop vec <> [] -> exists x y,
    confidence (initParamConfidenceData argsort vec weights start stop) f upper = Ok x /\
    confidence (initParamConfidenceData argsort vec weights start stop) g upper = Ok y /\
    if upper then (y <= x)%Q else (x <= y)%Q.
Proof.
  intros argsort vec weights start stop f g upper Has Hl Hw Hfg Hne.
  destruct (conf_common argsort vec weights start stop Has Hl Hw Hne) as (d & -> & Ed & Hlen & Hws & Hix).
  pose proof (sumQ_nonneg _ Hws) as Hs.
  assert (En : c_norm d = sumQ (pyslice start stop weights)) by (rewrite Ed; reflexivity).
  rewrite !confidence_limit by exact Hix. eexists _, _. split; [reflexivity|]. split; [reflexivity|].
  rewrite En. destruct upper; rewrite Ed; apply limit_mono; auto; nra.
Qed.
(** twoTailLimits returns an ordered interval, each tail holding at most (1-conf)/2 of the weight *)
Theorem C22_two_tail : forall argsort vec weights conf, is_argsort argsort -> length weights = length vec ->
  Forall (fun w => 0 <= w)%Q weights -> (0 <= conf <= 1)%Q -> vec <> [] -> exists lo hi,
    twoTailLimits (initParamConfidenceData argsort vec weights 0 None) conf = Ok (lo, hi) /\ (lo <= hi)%Q /\
    (mass (below lo) (combine vec weights) <= (1 - conf) / 2 * sumQ weights)%Q /\
    (mass (above hi) (combine vec weights) <= (1 - conf) / 2 * sumQ weights)%Q.
Proof.
  intros argsort vec weights conf Has Hl Hw Hc Hne.
  assert (Hh : ((1 - conf) / 2 == (1 - conf) * (1 # 2))%Q) by (unfold Qdiv; reflexivity).
  destruct (C22_lower argsort vec weights 0 None ((1 - conf) / 2)%Q Has Hl Hw) as (lo & E1 & _ & L1 & _);
    [rewrite Hh; split; lra|exact Hne|].
  destruct (C22_lower argsort vec weights 0 None (1 - (1 - conf) / 2)%Q Has Hl Hw) as (hi & E2 & _ & _ & U2);
    [rewrite Hh; split; lra|exact Hne|].
  destruct (C22_monotone argsort vec weights 0 None ((1 - conf) / 2)%Q (1 - (1 - conf) / 2)%Q false Has Hl Hw) as (x & y & E3 & E4 & Hxy);
    [rewrite Hh; lra|exact Hne|].
  exists lo, hi. unfold twoTailLimits. rewrite E1, E2. cbn [bindR]. split; [reflexivity|].
  rewrite E1 in E3. rewrite E2 in E4. injection E3 as <-. injection E4 as <-. split; [exact Hxy|].
  cbn [pyslice skipn] in *. split; [exact L1|].
  pose proof (mass_compl (upto hi) (combine vec weights)) as M1. rewrite map_snd_combine in M1 by exact Hl.
  rewrite (mass_ext (fun y => negb (upto hi y)) (above hi)) in M1 by reflexivity. lra.
Qed.
(** an empty range of rows is an error *)
Theorem C22_empty : forall argsort vec weights start stop f upper, is_argsort argsort -> length weights = length vec ->
  pyslice start stop vec = [] ->
  confidence (initParamConfidenceData argsort vec weights start stop) f upper = Err IndexError.
Proof.
  intros argsort vec weights start stop f upper Has Hl E. destruct (init_full argsort vec weights start stop Hl Has) as [_ ->].
  rewrite E. destruct (Has []) as [Hp _]. apply Permutation_sym, Permutation_nil in Hp.
  unfold confidence. cbn [c_ix]. now rewrite Hp.
Qed.

Example C22_ex : is_argsort ins_argsort /\
  (let d := initParamConfidenceData ins_argsort [3#1; 1#1; 2#1; 1#1]%Q [1; 2; 1; 0]%Q 0 None in
   confidence d (1#2) false = Ok (1#1)%Q /\ confidence d (1#2) true = Ok (1#1)%Q /\
   confidence d (1#4) true = Ok (2#1)%Q /\ twoTailLimits d (1#2) = Ok (1#1, 2#1)%Q).
Proof. split; [apply ins_argsort_ok|]. vm_compute. auto. Qed.

Print Assumptions C22_lower.
Print Assumptions C22_upper.
Print Assumptions C22_monotone.
Print Assumptions C22_two_tail.
Print Assumptions C22_empty.
