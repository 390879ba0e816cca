(** The sampler: C76 (Metropolis acceptance), C77 (dragging), C78 (weights of the chain), C79 (best
    point), C80 (thinning of the chain file). *)
From Verif Require Import StatModel StatSpec StatProofs McmcModel McmcSpec McmcProofs.
From Coq Require Import Reals List Bool ZArith Lia Lra.
Import ListNotations.
Local Open Scope R_scope.
Local Open Scope list_scope.

(** ** C76 *)

(** A move to -log(likelihood) [like] is accepted with probability min(1, exp(cur-like)), and never if [like] is LogZero. *)
Theorem C76_probability cur like :
  (like <> logZero -> probability 1 (accepts cur like) (Rmin 1 (exp (cur - like)))) /\
  (like = logZero -> probability 1 (accepts cur like) 0).
Proof.
  pose proof (accept_probability cur like) as A. unfold ratio in A. destruct (Req_EM_T like logZero); split; intros; try contradiction; exact A.
Qed.
Print Assumptions C76_probability.

(** Detailed balance, whatever the two likelihoods. *)
Theorem C76_detailed_balance a b p q :
  probability 1 (accepts a b) p -> probability 1 (accepts b a) q -> target a * p = target b * q.
Proof.
  intros P Q. rewrite (probability_unique _ _ _ _ P (accept_probability a b)), (probability_unique _ _ _ _ Q (accept_probability b a)).
  apply balance_ratio.
Qed.
Print Assumptions C76_detailed_balance.

(** On any finite set of points with symmetric proposal probabilities the target distribution is stationary: after a step from
    the target distribution the probability of point j, by moves to j and by rejected moves at j, is the same as before. *)
Theorem C76_stationary N (like : nat -> R) (prop acc : nat -> nat -> R) j :
  (forall i k, prop i k = prop k i) -> (forall i k, probability 1 (accepts (like i) (like k)) (acc i k)) -> (j < N)%nat ->
  Sm N (fun i => target (like i) * (prop i j * acc i j)) + target (like j) * (1 - Sm N (fun k => prop j k * acc j k)) = target (like j).
Proof.
  intros Sy P _.
  assert (E : Sm N (fun i => target (like i) * (prop i j * acc i j)) = Sm N (fun k => target (like j) * (prop j k * acc j k))).
  { apply Sm_ext. intros i _. rewrite (Sy i j). pose proof (C76_detailed_balance _ _ _ _ (P i j) (P j i)) as B.
    transitivity (prop j i * (target (like i) * acc i j)); [ring|]. rewrite B. ring. }
  rewrite E, Sm_scal. ring.
Qed.
Print Assumptions C76_stationary.
(** The step uses the decision: the point moves exactly if the likelihood of the trial point is accepted, and LogZero is never reached. *)
Theorem C76_step {Col} LogLike (add : Col -> list R -> R -> Z -> option Z -> Col) burn_in thin delta u (c : chain Col) :
  0 < u < 1 -> c_like c = LogLike (c_par c) ->
  let trial := vadd (c_par c) delta in let c' := metropolis LogLike add burn_in thin delta (randexp u) c in
  (accepts (c_like c) (LogLike trial) [u] -> c_par c' = trial) /\
  (~ accepts (c_like c) (LogLike trial) [u] -> c_par c' = c_par c) /\
  c_like c' = LogLike (c_par c') /\ (c_like c <> logZero -> c_like c' <> logZero).
Proof.
  intros Hu Hc trial c'. unfold c', metropolis. fold trial. cbn [accepts].
  assert (SAME : (if negb (Reqb (LogLike trial) logZero) then MetropolisAccept (LogLike trial) (c_like c) (randexp u) else false) =
                 MetropolisAccept (LogLike trial) (c_like c) (randexp u)) by (unfold MetropolisAccept; destruct (Reqb (LogLike trial) logZero); reflexivity).
  rewrite SAME.
  assert (PAR : c_par (MoveDone add burn_in false thin c) = c_par c /\ c_like (MoveDone add burn_in false thin c) = c_like c) by now split.
  destruct (MetropolisAccept (LogLike trial) (c_like c) (randexp u)) eqn:E; cbn [set_cur c_par c_like].
  - split; [reflexivity|]. split; [congruence|]. split; [reflexivity|]. intros _ Z. unfold MetropolisAccept in E. rewrite Z in E.
    replace (Reqb logZero logZero) with true in E by (symmetry; now apply Reqb_spec). discriminate.
  - destruct PAR as (P1 & P2). rewrite P1, P2. split; [discriminate|]. split; [reflexivity|]. split; [exact Hc|tauto].
Qed.
Print Assumptions C76_step.
Example C76_ex : accepts 2 1 [1/2] /\ ~ accepts 1 3 [1/2] /\ ~ accepts 1 logZero [1/2] /\ 1 <> logZero /\
  probability 1 (accepts 1 3) (exp (-2)).
Proof.
  assert (LZ : logZero > 10 ^ 3) by (unfold logZero; apply Rlt_pow; [lra|lia]).
  assert (H2 : exp (-2) < 1/2).
  { assert (X : 1 + 2 < exp 2) by (apply exp_ineq1; lra). assert (E : exp 2 * exp (-2) = 1) by (rewrite <- exp_plus; replace (2 + -2) with 0 by ring; apply exp_0).
    pose proof (exp_pos (-2)). nra. }
  assert (M : Rmin 1 (exp (1 - 3)) = exp (-2)) by (replace (1 - 3) with (-2) by ring; apply Rmin_right; lra).
  cbn [accepts]. rewrite !accept_iff by lra. unfold ratio.
  destruct (Req_EM_T 1 logZero); [lra|]. destruct (Req_EM_T 3 logZero); [lra|]. destruct (Req_EM_T logZero logZero); [|contradiction].
  split; [replace (2 - 1) with 1 by ring; assert (1 + 1 < exp 1) by (apply exp_ineq1; lra); rewrite Rmin_left; lra|].
  split; [rewrite M; lra|]. split; [lra|]. split; [assumption|]. rewrite <- M. apply (proj1 (C76_probability 1 3)). assumption.
Qed.

(** ** C77 *)

(** Detailed balance of the dragging step, path by path: the probability, from the point x, of taking a path of fast moves and
    accepting its end y, weighted with the target at x, is that of the way back from y, weighted with the target at y. *)
Theorem C77_path_balance {Col} LogLike (add : Col -> list R -> R -> Z -> option Z -> Col) burn_in k slow path (c c' : chain Col) p q :
  (forall y, LogLike y <= logZero) ->
  length (c_par c) = k -> length slow = k -> Forall (fun s => length (fst s) = k) path ->
  c_like c = LogLike (c_par c) -> c_like c' = LogLike (c_par c') -> (1 <= c_mult c)%Z -> (1 <= c_mult c')%Z ->
  c_par c' = endpoint (vadd (c_par c) slow) path ->
  probability (S (length path)) (drag_event LogLike add burn_in c slow path) p ->
  probability (S (length path)) (drag_event LogLike add burn_in c' (vneg slow) (back path)) q ->
  target (LogLike (c_par c)) * p = target (LogLike (c_par c')) * q.
Proof.
  intros top Lx Ls Lp Hc Hc' Hm Hm' Hy P Q. set (L := LogLike) in *. set (n := S (length path)). set (p0 := (c_par c, vadd (c_par c) slow)).
  assert (SZ : sized k p0 path) by (split; [exact Lx|split; [cbn; rewrite vadd_length; congruence|exact Lp]]).
  set (pN := fold_left step path p0).
  assert (EN : pN = (endpoint (c_par c) path, c_par c')) by (unfold pN, p0; now rewrite fold_endpoint, <- Hy).
  assert (ES : (c_par c', vadd (c_par c') (vneg slow)) = swap pN).
  { rewrite EN. unfold swap. cbn [fst snd]. f_equal. rewrite Hy, endpoint_shift. apply vadd_undo. rewrite (endpoint_length k); congruence. }
  assert (SZN : sized k pN (back path)) by (apply sized_end; exact SZ).
  assert (SZ' : sized k (swap pN) (back path)) by (destruct SZN as (A & B & C); split; [exact B|split; [exact A|exact C]]).
  assert (LB : length (back path) = length path) by apply back_length.
  assert (BACK : clean L (swap pN) (back path) -> clean L p0 path).
  { intros C. apply (clean_back L k _ _ SZ') in C. rewrite swap_fold in C. unfold pN in C. rewrite (back_end k path p0 SZ), back_back in C.
    apply clean_swap in C. unfold swap in C. cbn [fst snd] in C. now rewrite <- surjective_pairing in C. }
  assert (FWD : clean L p0 path -> clean L (swap pN) (back path)) by (intros C; apply clean_swap; apply (clean_back L k); assumption).
  assert (ZP : ~ clean L p0 path -> L (c_par c) <> logZero -> p = 0).
  { intros NC Hx. refine (probability_unique _ _ _ _ P _). apply never; [lia|]. intros us (Lu & _) E. apply NC.
    now apply (event_clean L add burn_in c slow path us). }
  assert (ZQ : ~ clean L p0 path -> L (c_par c') <> logZero -> q = 0).
  { intros NC Hx. refine (probability_unique _ _ _ _ Q _). apply never; [lia|]. intros us (Lu & _) E. apply NC, BACK. rewrite <- ES.
    apply (event_clean L add burn_in c' (vneg slow) (back path) us); auto. now rewrite LB. }
  assert (T0 : forall x, L x = logZero -> target (L x) = 0) by (intros x E; unfold target; destruct (Req_EM_T (L x) logZero); [reflexivity|contradiction]).
  assert (DEC : clean L p0 path \/ ~ clean L p0 path).
  { clear -L. generalize p0. induction path as [|s path IH]; intros r; cbn [clean].
    - unfold okp. destruct (Req_EM_T (L (fst r)) logZero), (Req_EM_T (L (snd r)) logZero); tauto.
    - unfold okp. destruct (IH (step r s)); destruct (Req_EM_T (L (fst r)) logZero), (Req_EM_T (L (snd r)) logZero); tauto. }
  destruct DEC as [C|NC].
  2:{ destruct (Req_EM_T (L (c_par c)) logZero) as [Ex|Ex]; destruct (Req_EM_T (L (c_par c')) logZero) as [Ey|Ey];
      rewrite ?(T0 _ Ex), ?(T0 _ Ey), ?(ZP NC Ex), ?(ZQ NC Ey); ring. }
  (* a path on which all likelihoods are finite *)
  assert (OK0 : okp L p0) by (destruct path; apply C). pose proof (clean_end L path p0 C) as OKN. fold pN in OKN.
  assert (Ex : L (c_par c) <> logZero) by apply OK0. assert (Ey : L (c_par c') <> logZero) by (rewrite EN in OKN; apply OKN).
  rewrite (probability_unique _ _ _ _ P (event_probability L top add burn_in c slow path Hc Hm C)).
  assert (Q' : probability (S (length path)) (drag_event L add burn_in c' (vneg slow) (back path)) (path_prob L (swap pN) (back path))).
  { rewrite <- ES, <- LB. apply (event_probability L top add burn_in c' (vneg slow) (back path) Hc' Hm'). rewrite ES. now apply FWD. }
  rewrite (probability_unique _ _ _ _ Q Q'). unfold path_prob. rewrite LB. fold p0 n.
  unfold target. destruct (Req_EM_T (L (c_par c)) logZero); [contradiction|]. destruct (Req_EM_T (L (c_par c')) logZero); [contradiction|].
  assert (S1 : start_sum L (swap pN) (back path) = end_sum L p0 path).
  { unfold start_sum, end_sum. rewrite tot_swap. unfold pN. rewrite (tot_back k) by exact SZ. reflexivity. }
  assert (S2 : end_sum L (swap pN) (back path) = start_sum L p0 path).
  { unfold start_sum, end_sum. rewrite tot_swap. unfold pN. rewrite (tot_back k) by exact SZ. reflexivity. }
  rewrite S1, S2. set (s := start_sum L p0 path / INR n). set (e := end_sum L p0 path / INR n).
  assert (s < logZero) by (apply (mean_top L (fun p => L (fst p))); [intros r (A & _); pose proof (top (fst r)); lra|exact C]).
  assert (e < logZero) by (apply (mean_top L (fun p => L (snd p))); [intros r (_ & A); pose proof (top (snd r)); lra|exact C]).
  unfold ratio. destruct (Req_EM_T e logZero); [lra|]. destruct (Req_EM_T s logZero); [lra|].
  assert (nR0 : 0 < INR n) by (apply lt_0_INR; unfold n; lia).
  pose proof (path_balance L n ltac:(unfold n; lia) k path 0 p0 eq_refl SZ C) as B. fold pN in B.
  assert (L0 : lev L n 0 p0 = L (c_par c)) by (unfold lev; cbn [INR]; unfold Rdiv; rewrite Rmult_0_l; cbn [p0 fst]; ring).
  assert (LN : lev L n n pN = L (c_par c')) by (unfold lev; rewrite EN; cbn [fst snd]; field; lra).
  assert (TT : tot (fun r => (L (snd r) - L (fst r)) / INR n) p0 path = e - s).
  { unfold e, s, end_sum, start_sum. revert nR0. generalize (INR n). clear. intros N nR0. generalize p0. clear p0. induction path as [|t path IH]; intros r; cbn [tot]; [field; lra|]. rewrite IH. field. lra. }
  rewrite L0, LN, TT in B.
  set (V := volume (sides L n 1 p0 path)) in *. set (V' := volume (sides L n 1 (swap pN) (back path))) in *.
  transitivity (Rmin 1 (exp (s - e)) * (exp (- L (c_par c)) * V)); [ring|]. rewrite B.
  pose proof (balance_exp s e) as BE.
  assert (X : exp (e - s) * Rmin 1 (exp (s - e)) = Rmin 1 (exp (e - s))).
  { apply (f_equal (Rmult (exp e))) in BE. rewrite <- !Rmult_assoc, <- !exp_plus in BE. replace (e + - e) with 0 in BE by ring. rewrite exp_0, Rmult_1_l in BE.
    replace (e + - s) with (e - s) in BE by ring. exact BE. }
  rewrite <- X. ring.
Qed.
Print Assumptions C77_path_balance.

(** Every path has a probability, and a step that takes it with acceptance ends at its end point with the likelihood of that point. *)
Theorem C77_lands {Col} LogLike (add : Col -> list R -> R -> Z -> option Z -> Col) burn_in slow path (c : chain Col) :
  (forall y, LogLike y <= logZero) -> c_like c = LogLike (c_par c) -> c_like c <> logZero -> (1 <= c_mult c)%Z ->
  (exists p, probability (S (length path)) (drag_event LogLike add burn_in c slow path) p) /\
  (forall u us, length us = length path -> drag_event LogLike add burn_in c slow path (u :: us) ->
    let c' := dragging LogLike add burn_in slow (combine (map fst path) (map randexp us)) (randexp u) c in
    c_par c' = endpoint (vadd (c_par c) slow) path /\ c_like c' = LogLike (c_par c') /\ c_like c' <> logZero).
Proof.
  intros top Hc Hx Hm. set (L := LogLike) in *. rewrite Hc in Hx.
  assert (DEC : forall r, clean L r path \/ ~ clean L r path).
  { clear -L. induction path as [|s path IH]; intros r; cbn [clean].
    - unfold okp. destruct (Req_EM_T (L (fst r)) logZero), (Req_EM_T (L (snd r)) logZero); tauto.
    - unfold okp. destruct (IH (step r s)); destruct (Req_EM_T (L (fst r)) logZero), (Req_EM_T (L (snd r)) logZero); tauto. }
  split.
  - destruct (DEC (c_par c, vadd (c_par c) slow)) as [C|NC]; [eexists; now apply event_probability|].
    exists 0. apply never; [lia|]. intros us (Lu & _) E. apply NC. now apply (event_clean L add burn_in c slow path us).
  - intros u us Lu E c'. pose proof (event_clean L add burn_in c slow path (u :: us) Hc Hm Hx ltac:(cbn; lia) E) as C.
    destruct E as (F & M). rewrite Hc in F. assert (OK : okp L (c_par c, vadd (c_par c) slow)) by (destruct path; apply C).
    unfold c'. rewrite (dragging_end L add burn_in c slow path us u Hc (proj2 OK) Lu F) in *. cbn zeta in *.
    destruct (MetropolisAccept _ _ _); [|rewrite MoveDone_mult in M; lia]. cbn [set_cur c_par c_like fst snd]. split; [reflexivity|]. split; [reflexivity|].
    apply clean_end in C. rewrite fold_endpoint in C. apply C.
Qed.
Print Assumptions C77_lands.
(** a flat likelihood on the positive numbers *)
Definition ex_L77 (y : list R) : R := if Rlt_dec (nth 0 y 0) 0 then logZero else 1.
Definition ex_c77 (x : R) : chain (list row) := mkC [x] 1 1 0 0 0 [] 0 [].
Definition ex_p77 : list (list R * bool) := [([1], true); ([-9], false)].
Example C77_ex : (forall y, ex_L77 y <= logZero) /\ c_like (ex_c77 1) = ex_L77 (c_par (ex_c77 1)) /\
  c_par (ex_c77 3) = endpoint (vadd (c_par (ex_c77 1)) [1]) ex_p77 /\
  probability 3 (drag_event ex_L77 (fun c _ _ _ _ => c) 0 (ex_c77 1) [1] ex_p77) 1 /\ back ex_p77 = [([-9], false); ([-1], true)].
Proof.
  assert (LZ : logZero > 10 ^ 3) by (unfold logZero; apply Rlt_pow; [lra|lia]).
  assert (top : forall y, ex_L77 y <= logZero) by (intros y; unfold ex_L77; destruct (Rlt_dec _ _); lra).
  assert (V : forall x, 0 <= x -> ex_L77 [x] = 1) by (intros x Hx; unfold ex_L77; cbn [nth]; destruct (Rlt_dec x 0); [lra|reflexivity]).
  assert (W : forall x, x < 0 -> ex_L77 [x] = logZero) by (intros x Hx; unfold ex_L77; cbn [nth]; destruct (Rlt_dec x 0); [reflexivity|lra]).
  split; [exact top|]. split; [cbn; rewrite V; [reflexivity|lra]|]. split; [cbn; repeat f_equal; ring|]. split.
  - pose proof (event_probability ex_L77 top (fun (c : list row) _ _ _ _ => c) 0 (ex_c77 1) [1] ex_p77) as E. cbn [c_like c_par c_mult ex_c77] in E.
    assert (PP : path_prob ex_L77 ([1], vadd [1] [1]) ex_p77 = 1).
    { unfold path_prob, ex_p77. cbn [length]. unfold start_sum, end_sum, sides, side, volume, step, mv. cbn [tot snd fst vadd combine map fold_right].
      unfold step, mv. cbn [snd fst]. unfold aprob, mv, lev. cbn [snd fst vadd combine map].
      rewrite !V by lra. rewrite !W by lra. destruct (Req_EM_T 1 logZero); [lra|]. destruct (Req_EM_T logZero logZero); [|contradiction]. cbn [fst snd].
      match goal with |- context [exp ?e] => replace e with 0 end.
      2:{ cbn [INR]. field. }
      rewrite exp_0, Rmin_left by lra. unfold ratio. cbn [INR]. replace ((1 + (1 + (1 + 0))) / (1 + 1 + 1)) with 1 by field.
      destruct (Req_EM_T 1 logZero); [lra|]. replace (1 - 1) with 0 by ring. rewrite exp_0, Rmin_left by lra. ring. }
    rewrite PP in E. apply E; [rewrite V; [reflexivity|lra]|lia|]. cbn [clean ex_p77]. unfold okp, step, mv. cbn [fst snd vadd combine map].
    rewrite !V by lra. repeat split; lra.
  - unfold back, ex_p77, undo. cbn. reflexivity.
Qed.

(** ** C78 *)

(** The weights count the steps: after any run of the sampler from a fresh start the list of the points it was at, step by step, is
    the list of the points left so far, each repeated as often as its weight, and the current point repeated mult times.  The
    collector has been given exactly the points left, with these weights and in this order, without the first burn_in+1 of them. *)
Theorem C78_weights {Col} LogLike (add : Col -> list R -> R -> Z -> option Z -> Col) burn_in oversample use_drag no_blocks rs (c : chain Col) :
  (forall y, LogLike y <= logZero) -> (0 <= burn_in)%Z -> fresh LogLike c ->
  let step := GetNewSample LogLike add burn_in oversample use_drag no_blocks in
  let thin := if use_drag && negb no_blocks then None else Some oversample in
  exists blocks : list row,
    map here (states step rs c) = expand blocks ++ repeat (here (final step rs c)) (Z.to_nat (c_mult (final step rs c))) /\
    Forall (fun r => (1 <= weight r)%Z) blocks /\ (0 <= c_mult (final step rs c))%Z /\
    c_accept (final step rs c) = Z.of_nat (length blocks) /\
    c_col (final step rs c) =
      fold_left (fun k r => add k (fst (fst r)) (snd (fst r)) (weight r) thin) (skipn (Z.to_nat (burn_in + 1)) blocks) (c_col c).
Proof.
  intros top Hb (F1 & F2 & F3) step thin.
  assert (I0 : inv add burn_in (run_thin oversample use_drag no_blocks) (c_col c) c [] []).
  { unfold inv. rewrite F2, F3. rewrite skipn_nil. split; [reflexivity|]. split; [lia|]. split; [reflexivity|]. split; [constructor|]. split; [congruence|reflexivity]. }
  destruct (inv_run LogLike add burn_in oversample use_drag no_blocks (c_col c) Hb top rs c [] [] F1 I0) as (bl & I1 & I2 & I3 & I4 & _ & I6).
  cbn [app] in I1. exists bl. split; [symmetry; exact I1|]. split; [exact I4|]. split; [exact I2|]. split; [exact I3|]. unfold step. rewrite I6. unfold collect, run_thin.
  fold thin. clear. generalize (c_col c). induction (skipn (Z.to_nat (burn_in + 1)) bl) as [|((p, l), m) rows IH]; intros k; [reflexivity|]. cbn [fold_left fst snd weight]. apply IH.
Qed.
Print Assumptions C78_weights.

(** The number of steps: a run for samples_to_get samples makes samples_to_get*Oversample_fast+1 steps, with dragging at least so many. *)
Theorem C78_steps {Col} LogLike (add : Col -> list R -> R -> Z -> option Z -> Col) burn_in oversample use_drag no_blocks samples output_thin rs
    (c c' : chain Col) pts :
  (forall y, LogLike y <= logZero) -> fresh LogLike c -> c_sample c = 0%Z -> (0 <= samples)%Z -> (1 <= oversample)%Z ->
  SampleFrom LogLike add burn_in oversample use_drag no_blocks samples output_thin rs c [] = Some (Some (c', pts)) ->
  exists rs1 rs2, rs = rs1 ++ rs2 /\ c' = final (GetNewSample LogLike add burn_in oversample use_drag no_blocks) rs1 c /\
    (samples * oversample + 1 <= Z.of_nat (length rs1))%Z /\
    (use_drag = false -> Z.of_nat (length rs1) = samples * oversample + 1)%Z.
Proof.
  intros top (F1 & _) S0 Hn Ho E.
  destruct (SampleFrom_run LogLike add burn_in oversample top use_drag no_blocks samples output_thin rs c [] c' pts F1 ltac:(nia) E) as (rs1 & rs2 & A & B & C & D & G).
  exists rs1, rs2. rewrite S0, C in *. repeat split; auto; [lia|]. intros U. specialize (G U). lia.
Qed.
Print Assumptions C78_steps.
(** FINDING: a dragging step whose slow move is outside the prior counts in the weight but not in num_sample (MCMC.f90:371-376
    returns before MoveDone), so with dragging the number of steps is not that of num_sample. *)
Theorem C78_drag_count_refuted :
  exists (LogLike : list R -> R) slow (c : chain (list row)), (forall y, LogLike y <= logZero) /\ fresh LogLike c /\
    let c' := dragging LogLike (fun k _ _ _ _ => k) 0 slow [] 1 c in c_mult c' = (c_mult c + 1)%Z /\ c_sample c' = c_sample c.
Proof.
  exists ex_L77, [-5], (mkC [1] 1 0 0 0 0 [] 0 []).
  assert (LZ : logZero > 10 ^ 3) by (unfold logZero; apply Rlt_pow; [lra|lia]).
  split; [intros y; unfold ex_L77; destruct (Rlt_dec _ _); lra|]. split.
  { unfold fresh, ex_L77. cbn. destruct (Rlt_dec 1 0); [lra|]. auto. }
  unfold dragging. assert (E : ex_L77 (vadd [1] [-5]) = logZero) by (unfold ex_L77; cbn; destruct (Rlt_dec _ _); [reflexivity|lra]).
  cbn [c_par]. rewrite E. replace (Reqb logZero logZero) with true by (symmetry; now apply Reqb_spec). split; reflexivity.
Qed.
Print Assumptions C78_drag_count_refuted.

(** two moves to the right, one rejected move between them *)
Definition ex_c78 : chain (list row) := mkC [1] 1 0 0 0 logZero [] 0 [].
Definition ex_r78 (d : R) : draws := mkDr [d] [] [] [] 1.
Definition ex_add78 (k : list row) (p : list R) (l : R) (m : Z) (t : option Z) : list row := k ++ [(p, l, m)].
Example C78_ex : fresh ex_L77 ex_c78 /\
  let step := GetNewSample ex_L77 ex_add78 0 1 false false in
  map here (states step [ex_r78 1; ex_r78 (-9); ex_r78 2; ex_r78 3] ex_c78) =
    expand [([1 + 1], 1, 2%Z); ([1 + 1 + 2], 1, 1%Z)] ++ [([1 + 1 + 2 + 3], 1)] /\
  c_col (final step [ex_r78 1; ex_r78 (-9); ex_r78 2; ex_r78 3] ex_c78) = [([1 + 1 + 2], 1, 1%Z)].
Proof.
  assert (LZ : logZero > 10 ^ 3) by (unfold logZero; apply Rlt_pow; [lra|lia]).
  assert (V : forall x, 0 <= x -> ex_L77 [x] = 1) by (intros x Hx; unfold ex_L77; cbn [nth]; destruct (Rlt_dec x 0); [lra|reflexivity]).
  assert (W : forall x, x < 0 -> ex_L77 [x] = logZero) by (intros x Hx; unfold ex_L77; cbn [nth]; destruct (Rlt_dec x 0); [reflexivity|lra]).
  assert (Z1 : Reqb 1 logZero = false) by (apply Reqb_false; lra).
  assert (Z2 : Reqb logZero logZero = true) by now apply Reqb_spec.
  assert (L1 : Rltb 1 1 = false) by (unfold Rltb; destruct (Rlt_dec 1 1); [lra|reflexivity]).
  assert (L2 : Rltb (1 - 1) 1 = true) by (unfold Rltb; destruct (Rlt_dec (1 - 1) 1); [reflexivity|lra]).
  assert (MV : forall x d m n a mx mp col, 0 <= x + d -> metropolis ex_L77 ex_add78 0 (Some 1%Z) [d] 1 (mkC [x] 1 m n a mx mp 0 col) =
    set_cur [x + d] 1 (MoveDone ex_add78 0 true (Some 1%Z) (mkC [x] 1 m n a mx mp 0 col))).
  { intros x d m n a mx mp col H. unfold metropolis, MetropolisAccept. cbn [c_par c_like vadd combine map fst snd]. rewrite V by exact H. rewrite Z1, L1, L2. reflexivity. }
  assert (RJ : forall x d m n a mx mp col, x + d < 0 -> metropolis ex_L77 ex_add78 0 (Some 1%Z) [d] 1 (mkC [x] 1 m n a mx mp 0 col) =
    mkC [x] 1 (m + 1) (n + 1) a mx mp 0 col).
  { intros x d m n a mx mp col H. unfold metropolis, MetropolisAccept. cbn [c_par c_like vadd combine map fst snd]. rewrite W by exact H. rewrite Z2. reflexivity. }
  assert (MX : forall x, Rltb 1 x = true -> Rltb 1 x = true) by auto.
  assert (L3 : Rltb 1 logZero = true) by (unfold Rltb; destruct (Rlt_dec 1 logZero); [reflexivity|lra]).
  split; [unfold fresh, ex_c78; cbn [c_like c_par c_mult c_accept]; rewrite V by lra; auto|].
  cbn zeta. unfold GetNewSample, GetNewMetropolisSample, ex_c78, ex_r78. cbn [states final fold_left r_all r_e map].
  rewrite !(MV 1 1) by lra. unfold MoveDone at 1 2 3 4 5. cbn [c_par c_like c_mult c_sample c_accept c_max c_maxpar c_drag c_col]. change (0 <? 0)%Z with false. cbv iota.
  rewrite !L3. unfold set_cur. cbn [c_par c_like c_mult c_sample c_accept c_max c_maxpar c_drag c_col Z.add].
  rewrite !(RJ (1 + 1) (-9)) by lra. rewrite !(MV (1 + 1) 2) by lra. unfold MoveDone, set_cur. cbn [c_par c_like c_mult c_sample c_accept c_max c_maxpar c_drag c_col].
  change (0 <? 1 + 1)%Z with true. cbv iota. rewrite !Z1, !L1. cbn [negb andb Z.ltb Z.compare Z.add Pos.add Pos.succ c_par c_like c_mult c_sample c_accept c_max c_maxpar c_drag c_col].
  rewrite !(MV (1 + 1 + 2) 3) by lra. unfold MoveDone, set_cur. cbn [c_par c_like c_mult c_sample c_accept c_max c_maxpar c_drag c_col Z.ltb Z.compare].
  rewrite !Z1, !L1. cbn. split; reflexivity.
Qed.

(** ** C79 *)

(** MaxLike after a run is the lowest value at any of the points the chain was at and has left, and MaxLikeParams is such a point. *)
Theorem C79_best_partial {Col} LogLike (add : Col -> list R -> R -> Z -> option Z -> Col) burn_in oversample use_drag no_blocks rs (c : chain Col) :
  (forall y, LogLike y <= logZero) -> c_like c = LogLike (c_par c) -> c_max c = logZero ->
  let step := GetNewSample LogLike add burn_in oversample use_drag no_blocks in
  let c' := final step rs c in let visited := c :: states step rs c in
  (forall s, In s visited -> c_max c' <= c_like s \/ here s = here c') /\
  (c_max c' <> logZero -> exists s, In s visited /\ c_max c' = c_like s /\ c_maxpar c' = c_par s).
Proof.
  intros top Hc Hm step c' visited. destruct (best_run LogLike add burn_in oversample top use_drag no_blocks rs c Hc) as (A & _ & B).
  split; [exact A|]. intros N. destruct B as [(B & _)|B]; [|exact B]. exfalso. apply N. unfold c', step. congruence.
Qed.
Print Assumptions C79_best_partial.
Definition ex_L79 (y : list R) : R := if Rlt_dec (nth 0 y 0) 1 then 0 else 1.
(** FINDING: the point a chain is at when it stops is never compared (MCMC.f90:182 compares the point that is left), so the best
    point of the run may be missed; minimize.f90:362-368 takes MaxLike for the best. *)
Theorem C79_best_refuted :
  exists (LogLike : list R -> R) (rs : list draws) (c c' : chain (list row)) pts,
    (forall y, LogLike y <= logZero) /\ fresh LogLike c /\ c_max c = logZero /\ c_sample c = 0%Z /\
    SampleFrom LogLike ex_add78 0 1 false false 0 1 rs c [] = Some (Some (c', pts)) /\ c_like c' < c_max c' /\ c_max c' < logZero.
Proof.
  assert (LZ : logZero > 10 ^ 3) by (unfold logZero; apply Rlt_pow; [lra|lia]).
  assert (V1 : ex_L79 [1] = 1) by (unfold ex_L79; cbn [nth]; destruct (Rlt_dec 1 1); [lra|reflexivity]).
  assert (V0 : ex_L79 [1 + -1] = 0) by (unfold ex_L79; cbn [nth]; destruct (Rlt_dec (1 + -1) 1); [reflexivity|lra]).
  assert (Z0 : Reqb 0 logZero = false) by (apply Reqb_false; lra).
  exists ex_L79, [ex_r78 (-1)], ex_c78. eexists. eexists.
  split; [intros y; unfold ex_L79; destruct (Rlt_dec _ _); lra|]. split; [unfold fresh; rewrite <- V1 at 1; auto|]. split; [reflexivity|]. split; [reflexivity|].
  assert (EQ : GetNewSample ex_L79 ex_add78 0 1 false false (ex_r78 (-1)) ex_c78 = mkC [1 + -1] 0 1 1 0 1 [1] 0 []).
  { unfold GetNewSample, GetNewMetropolisSample, metropolis, MetropolisAccept, MoveDone, set_cur. cbn [c_par ex_c78 r_all ex_r78 vadd combine map fst snd c_like c_max c_mult].
    rewrite V0, Z0. unfold Rltb. destruct (Rlt_dec 0 1); [|lra]. destruct (Rlt_dec 1 logZero); [|lra]. reflexivity. }
  split; [|split].
  - cbn [SampleFrom]. rewrite EQ. cbn [c_sample c_like c_mult c_par ex_c78 Z.mul Z.leb Z.compare negb]. rewrite Z0. reflexivity.
  - cbn. lra.
  - cbn. lra.
Qed.
Print Assumptions C79_best_refuted.
Example C79_ex : c_like ex_c78 = ex_L79 (c_par ex_c78) /\ c_max ex_c78 = logZero /\
  c_max (final (GetNewSample ex_L79 ex_add78 0 1 false false) [ex_r78 (-1)] ex_c78) = 1.
Proof.
  assert (LZ : logZero > 10 ^ 3) by (unfold logZero; apply Rlt_pow; [lra|lia]).
  assert (V1 : ex_L79 [1] = 1) by (unfold ex_L79; cbn [nth]; destruct (Rlt_dec 1 1); [lra|reflexivity]).
  assert (V0 : ex_L79 [1 + -1] = 0) by (unfold ex_L79; cbn [nth]; destruct (Rlt_dec (1 + -1) 1); [reflexivity|lra]).
  split; [rewrite <- V1 at 1; reflexivity|]. split; [reflexivity|]. cbn [final fold_left].
  unfold GetNewSample, GetNewMetropolisSample, metropolis, MetropolisAccept, MoveDone, set_cur. cbn [c_par ex_c78 r_all ex_r78 vadd combine map fst snd c_like c_max c_mult].
  rewrite V0. replace (Reqb 0 logZero) with false by (symmetry; apply Reqb_false; lra). unfold Rltb. destruct (Rlt_dec 0 1); [|lra]. destruct (Rlt_dec 1 logZero); [|lra]. reflexivity.
Qed.

(** ** C80 *)

(** Thinning by a fixed factor t: the rows of the chain file stand for every t-th of the points the input stands for (the
    fractions of a factor are carried over from point to point), the models of the .data file for every (indep_sample*t)-th. *)
Theorem C80_thinning indep_sample t tf rows :
  (1 <= t)%Z -> (0 <= indep_sample)%Z -> match tf with Some x => x | None => 1%Z end = t -> Forall (fun r => (1 <= weight r)%Z) rows ->
  let k := fold_left (fun k r => AddWeighted indep_sample k (fst (fst r)) (snd (fst r)) (weight r) tf) rows (new_collector 0) in
  expand (k_rows k) = every (Z.to_nat t) (expand rows) /\
  (indep_sample <> 0%Z -> expand (k_data k) = every (Z.to_nat (indep_sample * t)) (expand rows)) /\
  (indep_sample = 0%Z -> k_data k = []).
Proof.
  intros Ht Hs E F k.
  pose proof (thinned_collect indep_sample t tf ltac:(lia) Hs E rows (new_collector 0) [] F (thinned_new indep_sample t ltac:(lia))) as (_ & A & _ & B & C).
  assert (K : collect (AddWeighted indep_sample) tf (new_collector 0) rows = k).
  { unfold k, collect. generalize (new_collector 0). clear. induction rows as [|((p, l), m) rows IH]; intros k; [reflexivity|]. cbn [fold_left fst snd weight]. apply IH. }
  rewrite K in *. split; [exact A|]. split; [intros N; apply B; exact N|exact C].
Qed.
Print Assumptions C80_thinning.

(** The chain file: after a run from a fresh start it stands for every t-th of the points the sampler was at, step by step, after
    the burn-in and up to the last move. *)
Theorem C80_file LogLike indep_sample burn_in oversample use_drag no_blocks rs (c : chain collector) :
  (forall y, LogLike y <= logZero) -> (0 <= burn_in)%Z -> (1 <= oversample)%Z -> (0 <= indep_sample)%Z -> fresh LogLike c -> c_col c = new_collector 0 ->
  let step := GetNewSample LogLike (AddWeighted indep_sample) burn_in oversample use_drag no_blocks in
  let t := if use_drag && negb no_blocks then 1%nat else Z.to_nat oversample in
  let c' := final step rs c in
  exists before recorded,
    map here (states step rs c) = before ++ recorded ++ repeat (here c') (Z.to_nat (c_mult c')) /\
    expand (k_rows (c_col c')) = every t recorded /\
    (exists blocks, before = expand blocks /\ Forall (fun r => (1 <= weight r)%Z) blocks /\ (Z.of_nat (length blocks) <= burn_in + 1)%Z /\
      (recorded <> [] -> (Z.of_nat (length blocks) = burn_in + 1)%Z)).
Proof.
  intros top Hb Ho Hs Hf Hk step t c'.
  destruct (C78_weights LogLike (AddWeighted indep_sample) burn_in oversample use_drag no_blocks rs c top Hb Hf) as (bl & A & B & _ & _ & C).
  fold step c' in A, C. set (n := Z.to_nat (burn_in + 1)) in *. set (tf := if use_drag && negb no_blocks then None else Some oversample) in *.
  exists (expand (firstn n bl)), (expand (skipn n bl)). split; [|split].
  - rewrite app_assoc, <- expand_app, firstn_skipn. exact A.
  - rewrite C, Hk. assert (F : Forall (fun r => (1 <= weight r)%Z) (skipn n bl)) by (apply (Forall_skipn' _ n) in B || (rewrite <- (firstn_skipn n bl) in B; apply Forall_app in B); apply B).
    destruct (C80_thinning indep_sample (Z.of_nat t) tf (skipn n bl)) as (X & _); auto.
    + unfold t. destruct (use_drag && negb no_blocks); lia.
    + unfold tf, t. destruct (use_drag && negb no_blocks); lia.
    + rewrite Nat2Z.id in X. exact X.
  - exists (firstn n bl). split; [reflexivity|]. split; [rewrite <- (firstn_skipn n bl) in B; apply Forall_app in B; apply B|].
    pose proof (firstn_le_length n bl). split; [unfold n in *; lia|]. intros N. rewrite firstn_length. destruct (Nat.le_gt_cases n (length bl)) as [X|X]; [unfold n in *; lia|].
    exfalso. apply N. rewrite skipn_all2 by lia. reflexivity.
Qed.
Print Assumptions C80_file.

(** After a restart the first checkpoint_burn points are not written. *)
Theorem C80_restart indep_sample tf rows b :
  (Z.of_nat (length rows) <= b)%Z -> match tf with Some x => (1 <= x)%Z | None => True end ->
  fold_left (fun k r => AddWeighted indep_sample k (fst (fst r)) (snd (fst r)) (weight r) tf) rows (new_collector b) = new_collector (b - Z.of_nat (length rows)).
Proof.
  intros H Ht. refine (eq_trans _ (burn_collect indep_sample tf rows b H Ht)). unfold collect. generalize (new_collector b). clear.
  induction rows as [|((p, l), m) rows IH]; intros k; [reflexivity|]. cbn [fold_left fst snd weight]. apply IH.
Qed.
Print Assumptions C80_restart.
Definition ex_rows80 : list row := [([0], 1, 2%Z); ([1], 2, 5%Z); ([2], 3, 1%Z); ([3], 4, 4%Z)].
Example C80_ex :
  Forall (fun r => (1 <= weight r)%Z) ex_rows80 /\
  k_rows (fold_left (fun k r => AddWeighted 2 k (fst (fst r)) (snd (fst r)) (weight r) (Some 3%Z)) ex_rows80 (new_collector 0)) =
    [([1], 2, 2%Z); ([3], 4, 2%Z)] /\
  every 3 (expand ex_rows80) = [([1], 2); ([1], 2); ([3], 4); ([3], 4)] /\
  k_data (fold_left (fun k r => AddWeighted 2 k (fst (fst r)) (snd (fst r)) (weight r) (Some 3%Z)) ex_rows80 (new_collector 0)) =
    [([1], 2, 1%Z); ([3], 4, 1%Z)] /\
  k_rows (fold_left (fun k r => AddWeighted 2 k (fst (fst r)) (snd (fst r)) (weight r) (Some 3%Z)) ex_rows80 (new_collector 4)) = [].
Proof. split; [repeat (constructor; [cbn; lia|]); constructor|]. repeat split; reflexivity. Qed.
