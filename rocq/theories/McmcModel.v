(** Model of the Metropolis and dragging samplers, source/MCMC.f90, and of the collection of weighted points,
    source/SampleCollector.f90 82-112.  Likelihoods and parameters are real numbers (arithmetic is taken as exact), the parameter
    array CurParams%P is a list of reals, weights (mult, acc), which only take integer values, are integers.  The likelihood is a
    function of the parameters (its caches are treated in LikeModel.v).  Random numbers and proposals are arguments. *)
From Verif Require Import StatModel.
From Coq Require Import Reals List Bool ZArith Lia Lra.
Import ListNotations.
Local Open Scope R_scope.
Local Open Scope list_scope.

(** settings.f90:114 *)
Definition logZero : R := 10 ^ 30.
Definition Rltb (a b : R) : bool := if Rlt_dec a b then true else false.
Definition Reqb (a b : R) : bool := if Req_EM_T a b then true else false.

(** MCMC.f90:119-131; [e] is the value of randexp1() (drawn only if it is needed) *)
Definition MetropolisAccept (Like CurLike e : R) : bool :=
  if negb (Reqb Like logZero)
  then if Rltb Like CurLike then true else Rltb (Like - CurLike) e
  else false.

(** P + delta, on arrays *)
Definition vadd (a b : list R) : list R := map (fun p => fst p + snd p) (combine a b).

Section Sampler.
  Variable LogLike : list R -> R.      (* this%LogLike, MCMC.f90:89-96 *)
  Variable Col : Type.                 (* the SampleCollector *)
  Variable AddNewWeightedPoint : Col -> list R -> R -> Z -> option Z -> Col.
  Variable burn_in : Z.
  Variable oversample_fast : Z.

  (** CurParams, CurLike, mult and the components of the sampler: MCMC.f90:22-52, 62-65 *)
  Record chain := mkC {
    c_par : list R; c_like : R; c_mult : Z;
    c_sample : Z; c_accept : Z; c_max : R; c_maxpar : list R;
    c_drag : Z;
    c_col : Col }.

  (** MCMC.f90:166-190 *)
  Definition MoveDone (accpt : bool) (thin_fac : option Z) (c : chain) : chain :=
    let ns := (c_sample c + 1)%Z in
    if accpt then
      let '(col, na) :=
        if (0 <? c_mult c)%Z
        then ((if negb (Reqb (c_like c) logZero) && (burn_in <? c_accept c)%Z
               then AddNewWeightedPoint (c_col c) (c_par c) (c_like c) (c_mult c) thin_fac else c_col c),
              (c_accept c + 1)%Z)
        else (c_col c, c_accept c) in
      if Rltb (c_like c) (c_max c)
      then mkC (c_par c) (c_like c) 1 ns na (c_like c) (c_par c) (c_drag c) col
      else mkC (c_par c) (c_like c) 1 ns na (c_max c) (c_maxpar c) (c_drag c) col
    else mkC (c_par c) (c_like c) (c_mult c + 1) ns (c_accept c) (c_max c) (c_maxpar c) (c_drag c) (c_col c).

  (** CurParams = ..., CurLike = ... *)
  Definition set_cur (p : list R) (l : R) (c : chain) : chain :=
    mkC p l (c_mult c) (c_sample c) (c_accept c) (c_max c) (c_maxpar c) (c_drag c) (c_col c).

  (** A Metropolis step with the proposed change [delta]: MCMC.f90:269-307 with thin_fac = Oversample_fast, and 309-335 without.
      Counters of acceptance rates and log lines are left out. *)
  Definition metropolis (thin_fac : option Z) (delta : list R) (e : R) (c : chain) : chain :=
    let trial := vadd (c_par c) delta in
    let like := LogLike trial in
    let accpt := if negb (Reqb like logZero) then MetropolisAccept like (c_like c) e else false in
    let c1 := MoveDone accpt thin_fac c in
    if accpt then set_cur trial like c1 else c1.
  Definition GetNewMetropolisSample := metropolis (Some oversample_fast).
  Definition FastParameterSample := metropolis None.

  (** the variables of the loop MCMC.f90:389-428 *)
  Record drag := mkD { d_start : list R; d_end : list R; d_lstart : R; d_lend : R; d_ssum : R; d_esum : R }.
  (** one turn, MCMC.f90:390-427: [n] is interp_steps, [i] interp_step *)
  Definition drag_accept (n i : nat) (delta : list R) (e : R) (d : drag) : bool :=
    let EndLike := LogLike (vadd (d_end d) delta) in
    if negb (Reqb EndLike logZero) then
      let StartLike := LogLike (vadd (d_start d) delta) in
      if negb (Reqb StartLike logZero) then
        let frac := INR i / INR n in
        let CurIntLike := d_lstart d * (1 - frac) + frac * d_lend d in
        let IntLike := StartLike * (1 - frac) + frac * EndLike in
        MetropolisAccept IntLike CurIntLike e
      else false
    else false.
  Definition drag_step (n i : nat) (delta : list R) (e : R) (d : drag) : drag :=
    if drag_accept n i delta e d then
      let te := vadd (d_end d) delta in let ts := vadd (d_start d) delta in
      mkD ts te (LogLike ts) (LogLike te) (d_ssum d + LogLike ts) (d_esum d + LogLike te)
    else mkD (d_start d) (d_end d) (d_lstart d) (d_lend d) (d_ssum d + d_lstart d) (d_esum d + d_lend d).
  Fixpoint drag_loop (n i : nat) (l : list (list R * R)) (d : drag) : drag :=
    match l with
    | [] => d
    | (delta, e) :: l' => drag_loop n (S i) l' (drag_step n i delta e d)
    end.
  (** MCMC.f90:366-452, the dragging step: [l] are the fast proposals and random numbers of the interp_steps-1 turns,
      [slow] the slow proposal, [e] the random number of the last decision. *)
  Definition dragging (slow : list R) (l : list (list R * R)) (e : R) (c : chain) : chain :=
    let n := S (length l) in
    let TrialEnd := vadd (c_par c) slow in
    let CurEndLike := LogLike TrialEnd in
    if Reqb CurEndLike logZero
    then mkC (c_par c) (c_like c) (c_mult c + 1) (c_sample c) (c_accept c) (c_max c) (c_maxpar c) (c_drag c) (c_col c)
    else
      let d := drag_loop n 1 l (mkD (c_par c) TrialEnd (c_like c) CurEndLike (c_like c) CurEndLike) in
      let CurDragLike := d_ssum d / INR n in
      let DragLike := d_esum d / INR n in
      let accpt := MetropolisAccept DragLike CurDragLike e in
      let c1 := MoveDone accpt None c in
      if accpt then set_cur (d_end d) (d_lend d) c1 else c1.

  (** The proposals and random numbers of one call of GetNewSample: for whichever kind of step it takes. *)
  Record draws := mkDr { r_all : list R; r_fast : list R; r_slow : list R; r_drag : list (list R * R); r_e : R }.
  (** MCMC.f90:338-364: num_fast==0 .or. num_slow==0 is [no_blocks] *)
  Definition GetNewDragSample (no_blocks : bool) (r : draws) (c : chain) : chain :=
    if Reqb (c_like c) logZero || no_blocks then GetNewMetropolisSample (r_all r) (r_e r) c
    else
      let c1 := mkC (c_par c) (c_like c) (c_mult c) (c_sample c) (c_accept c) (c_max c) (c_maxpar c) (c_drag c + 1) (c_col c) in
      if negb (c_drag c1 mod oversample_fast =? 0)%Z then FastParameterSample (r_fast r) (r_e r) c1
      else dragging (r_slow r) (r_drag r) (r_e r) c1.
  Definition GetNewSample (use_drag no_blocks : bool) (r : draws) (c : chain) : chain :=
    if use_drag then GetNewDragSample no_blocks r c else GetNewMetropolisSample (r_all r) (r_e r) c.

  (** The loop of SampleFrom, MCMC.f90:143-156, on a supply of random numbers: the points for AddNewPoint are gathered in a list.
      The answer is [None] if the random numbers do not suffice; [Some None] is the abort of line 153.  CheckParamChange is left out. *)
  Fixpoint SampleFrom (use_drag no_blocks : bool) (samples_to_get output_thin : Z) (rs : list draws) (c : chain) (pts : list (list R * R))
      : option (option (chain * list (list R * R))) :=
    if negb (c_sample c <=? samples_to_get * oversample_fast)%Z then Some (Some (c, pts)) else
    match rs with
    | [] => None
    | r :: rs' =>
        let c1 := GetNewSample use_drag no_blocks r c in
        if negb (Reqb (c_like c1) logZero)
        then SampleFrom use_drag no_blocks samples_to_get output_thin rs' c1
               (if (c_sample c1 mod output_thin =? 0)%Z && (0 <? c_mult c1)%Z then pts ++ [(c_par c1, c_like c1)] else pts)
        else if (1000 <? c_sample c1)%Z then Some None
        else SampleFrom use_drag no_blocks samples_to_get output_thin rs' c1 pts
    end.
End Sampler.
Arguments mkC {Col}. Arguments c_par {Col}. Arguments c_like {Col}. Arguments c_mult {Col}. Arguments c_sample {Col}.
Arguments c_accept {Col}. Arguments c_max {Col}. Arguments c_maxpar {Col}. Arguments c_drag {Col}. Arguments c_col {Col}.
Arguments MoveDone {Col}. Arguments set_cur {Col}. Arguments metropolis LogLike {Col}. Arguments dragging LogLike {Col}.
Arguments GetNewMetropolisSample LogLike {Col}. Arguments FastParameterSample LogLike {Col}.
Arguments GetNewDragSample LogLike {Col}. Arguments GetNewSample LogLike {Col}. Arguments SampleFrom LogLike {Col}.

(** ** The collector *)

(** SampleCollector.f90:38-56, the parts for weighted points: the rows of the chain file and the models of the .data file are
    lists of point, likelihood and weight. *)
Record collector := mkK {
  k_acc : Z; k_indep : Z; k_burn : Z;
  k_rows : list (list R * R * Z); k_data : list (list R * R * Z) }.
(** SampleCollector.f90:82-112; floor(acc/thin) and mod of integers *)
Definition AddWeighted (indep_sample : Z) (k : collector) (P : list R) (like : R) (mult : Z) (thin_fac : option Z) : collector :=
  let thin := match thin_fac with Some t => t | None => 1%Z end in
  let want := (k_burn k =? 0)%Z in
  let acc := if want then (k_acc k + mult)%Z else k_acc k in
  let indep := if want then (k_indep k + mult)%Z else k_indep k in
  let '(rows, acc1) :=
    if (thin <=? acc)%Z || (thin =? 1)%Z
    then (if want then k_rows k ++ [(P, like, (acc / thin)%Z)] else k_rows k, (acc mod thin)%Z)
    else (k_rows k, acc) in
  let burn := if negb (k_burn k =? 0)%Z then (k_burn k - 1)%Z else k_burn k in
  if negb (indep_sample =? 0)%Z && (indep_sample * thin <=? indep)%Z && want
  then mkK acc1 (indep mod (indep_sample * thin)) burn rows (k_data k ++ [(P, like, (indep / (indep_sample * thin))%Z)])
  else mkK acc1 indep burn rows (k_data k).
(** a new collector, SampleCollector.f90:47-52; after a restart checkpoint_burn is checkpoint_freq/3, line 168 *)
Definition new_collector (burn : Z) : collector := mkK 0 0 burn [] [].
