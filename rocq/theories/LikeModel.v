(** Model of the evaluation of likelihoods with reuse of earlier results: source/calclike.f90, source/CalcLike_Cosmology.f90, the
    parameter points of source/GeneralTypes.f90 85-99, 225-252 and the steps of source/MCMC.f90 and source/minimize.f90 that copy
    and clear them.  Numbers are reals (arithmetic is taken as exact).  Theory results are stored in the point itself and copied
    with it; Info is a pointer, copies of a point share what it points to, so that is kept in a heap: a list of cells, the address
    is the place in the list, and a cell that was deallocated is None.  An access to a cell that is not there, a second
    deallocation or a read of a theory that is not there gives None as the result of the whole step.  CAMB, the likelihoods and the
    priors on derived quantities are arguments. *)
From Coq Require Import Reals List Bool Lia Lra.
From Verif Require Import StatModel McmcModel.
Import ListNotations.
Local Open Scope R_scope.
Local Open Scope list_scope.

Definition any (m : list bool) : bool := existsb (fun b => b) m.
Definition both (a b : list bool) : list bool := map (fun p => fst p && snd p) (combine a b).
Definition bindO {A B} (x : option A) (f : A -> option B) : option B := match x with Some a => f a | None => None end.
Fixpoint upd {A} (n : nat) (x : A) (l : list A) : list A :=
  match n, l with O, _ :: l' => x :: l' | S n', y :: l' => y :: upd n' x l' | _, [] => [] end.

(** calclike.f90:69-81 *)
Definition AddLike (cur add : R) : R :=
  if negb (Reqb cur logZero) then (if Reqb add logZero then logZero else cur + add) else cur.
(** calclike.f90:83-95 *)
Definition AddLikeTemp (T cur add : R) : R :=
  if negb (Reqb cur logZero) then (if Reqb add logZero then logZero else cur + add / T) else cur.

(** calclike.f90:97-110 *)
Definition GetLogLikeBounds (pmin pmax P : list R) : R :=
  if existsb (fun p => Rltb (snd p) (fst p)) (combine P pmax) || existsb (fun p => Rltb (fst p) (snd p)) (combine P pmin)
  then logZero else 0.

(** calclike.f90:112-137: a Gaussian prior is (varying, mean, std), a linear combination (coefficients, mean, std) *)
Definition dotR (a b : list R) : R := sumR (map (fun p => fst p * snd p) (combine a b)).
Definition GetLogPriors (fixed_too : bool) (gauss : list (bool * R * R)) (lin : list (list R * R * R)) (P : list R) : R :=
  (sumR (map (fun q => let '(p, (varying, mean, std)) := q in
                       if (varying || fixed_too) && negb (Reqb std 0) then ((p - mean) / std) ^ 2 else 0) (combine P gauss))
   + sumR (map (fun q => let '(comb, mean, std) := q in
                         if negb (Reqb std 0) then ((dotR comb P - mean) / std) ^ 2 else 0) lin)) / 2.

(** What CAMB and the likelihoods need and give: [Tr] transfer functions, [D] the part of TTheoryPredictions set with them
    (SetDerived), [Pw] the part set from power spectra, [Bg] the background. *)
Section Types.
  Variables Tr D Pw Bg : Type.
  Record info := mkInf { i_tr : option Tr; i_bg : option Bg }.
  Record theory := mkTh { t_der : option D; t_pow : option Pw }.
  (** a likelihood: dependent_params, and the value GetLogLike gives for the parameters, the stored theory and the background *)
  Record like := mkLk { lk_dep : list bool; lk_val : list R -> theory -> option Bg -> R }.
  (** GeneralTypes.f90:85-99 *)
  Record point := mkPt {
    pt_P : list R; pt_likes : list R; pt_last : list R; pt_valid : bool;
    pt_th : option theory; pt_info : option nat }.
  Definition heap := list (option info).
  (** Settings and external calls *)
  Record config := mkCf {
    nh : nat; ni : nat; np : nat;             (* num_hard, num_initpower, num_params *)
    use_theory : bool;                        (* Use_CMB .or. Use_LSS .or. get_sigma8 *)
    block_semi_fast : bool;
    (* Calculator_CAMB.f90:198-237, 239-294, 162-193: results of CAMB from the theory parameters, None for an error *)
    camb_transfer : list R -> option (Tr * D);
    camb_power : list R -> Tr -> option Pw;
    camb_thermal : list R -> option D;
    camb_background : list R -> Bg;
    prior0 : list R -> R;                     (* NonBaseParameterPriors *)
    priors : list R -> R;                     (* GetLogPriors *)
    bounds : list R -> R;                     (* GetLogLikeBounds *)
    T : R;                                    (* Temperature *)
    likes : list like }.                      (* DataLikelihoods *)
  (** CurParams, CurLike, and what was evaluated and written: pairs of parameters and likelihood for each call of LogLike, and the
      points and likelihoods handed to AddNewWeightedPoint *)
  Record sampler := mkS {
    s_heap : heap; s_cur : point; s_like : R;
    s_eval : list (list R * R); s_out : list (point * R) }.
End Types.
Arguments mkInf {Tr Bg}. Arguments i_tr {Tr Bg}. Arguments i_bg {Tr Bg}.
Arguments mkTh {D Pw}. Arguments t_der {D Pw}. Arguments t_pow {D Pw}.
Arguments mkLk {D Pw Bg}. Arguments lk_dep {D Pw Bg}. Arguments lk_val {D Pw Bg}.
Arguments mkPt {D Pw}. Arguments pt_P {D Pw}. Arguments pt_likes {D Pw}. Arguments pt_last {D Pw}. Arguments pt_valid {D Pw}. Arguments pt_th {D Pw}. Arguments pt_info {D Pw}.
Arguments nh {Tr D Pw Bg}. Arguments ni {Tr D Pw Bg}. Arguments np {Tr D Pw Bg}. Arguments use_theory {Tr D Pw Bg}. Arguments block_semi_fast {Tr D Pw Bg}. Arguments camb_transfer {Tr D Pw Bg}. Arguments camb_power {Tr D Pw Bg}. Arguments camb_thermal {Tr D Pw Bg}. Arguments camb_background {Tr D Pw Bg}. Arguments prior0 {Tr D Pw Bg}. Arguments priors {Tr D Pw Bg}. Arguments bounds {Tr D Pw Bg}. Arguments T {Tr D Pw Bg}. Arguments likes {Tr D Pw Bg}. Arguments mkCf {Tr D Pw Bg}.
Arguments mkS {Tr D Pw Bg}. Arguments s_heap {Tr D Pw Bg}. Arguments s_cur {Tr D Pw Bg}. Arguments s_like {Tr D Pw Bg}. Arguments s_eval {Tr D Pw Bg}. Arguments s_out {Tr D Pw Bg}.

Section Like.
  Context {Tr D Pw Bg : Type}.
  Variable C : config Tr D Pw Bg.
  Notation nh := (nh C). Notation ni := (ni C). Notation np := (np C). Notation use_theory := (use_theory C).
  Notation block_semi_fast := (block_semi_fast C). Notation camb_transfer := (camb_transfer C).
  Notation camb_power := (camb_power C). Notation camb_thermal := (camb_thermal C). Notation camb_background := (camb_background C).
  Notation prior0 := (prior0 C). Notation priors := (priors C). Notation bounds := (bounds C). Notation T := (T C).
  Notation likes := (likes C).
  Notation info := (info Tr Bg). Notation theory := (theory D Pw). Notation like := (like D Pw Bg).
  Notation point := (point D Pw). Notation heap := (heap Tr Bg). Notation sampler := (sampler Tr D Pw Bg).

  Definition deref (h : heap) (a : option nat) : option info :=
    bindO a (fun n => match nth_error h n with Some (Some i) => Some i | _ => None end).
  Definition store (h : heap) (a : option nat) (i : info) : heap := match a with Some n => upd n (Some i) h | None => h end.
  Definition alloc (h : heap) (i : info) : heap * nat := (h ++ [Some i], length h).
  (** deallocate *)
  Definition dealloc (h : heap) (a : nat) : option heap := bindO (deref h (Some a)) (fun _ => Some (upd a None h)).

  (** the theory parameters, and the background ones, of a parameter array *)
  Definition tpar (P : list R) : list R := firstn (nh + ni) P.
  Definition hard (P : list R) : list R := firstn nh P.

  (** Calculator_CAMB.f90:974-987: Info is allocated if there is none *)
  Definition SetCurrentPoint (h : heap) (p : point) : heap * point :=
    match pt_info p with
    | Some _ => (h, p)
    | None => let '(h1, a) := alloc h (mkInf None None) in
              (h1, mkPt (pt_P p) (pt_likes p) (pt_last p) (pt_valid p) (pt_th p) (Some a))
    end.
  Definition set_th (t : theory) (i : option nat) (p : point) : point :=
    mkPt (pt_P p) (pt_likes p) (pt_last p) (pt_valid p) (Some t) i.
  (** calclike.f90:284-290 *)
  Definition SetNewTheoryResults (p : point) : point :=
    match pt_th p with Some _ => p | None => set_th (mkTh None None) (pt_info p) p end.

  (** calclike.f90:304-308 *)
  Definition changeMask (p : point) : list bool :=
    if negb (pt_valid p) then repeat true np
    else map (fun q => negb (Reqb (fst q) (snd q))) (combine (pt_last p) (pt_P p)).

  (** CalcLike_Cosmology.f90:82-91 with Calculator_CAMB.f90:198-237: new transfer functions, in a new cell *)
  Definition GetNewTransferData (h : heap) (p : point) : option (heap * point * bool) :=
    bindO (pt_th p) (fun t =>
      match camb_transfer (tpar (pt_P p)) with
      | Some (tr, d) => let '(h1, a) := alloc h (mkInf (Some tr) (Some (camb_background (hard (pt_P p))))) in
                        Some (h1, set_th (mkTh (Some d) (t_pow t)) (Some a) p, true)
      | None => let '(h1, a) := alloc h (mkInf None None) in Some (h1, set_th t (Some a) p, false)
      end).
  (** Calculator_CAMB.f90:239-294: power spectra from the stored transfer functions *)
  Definition GetNewPowerData (h : heap) (p : point) : option (heap * point * bool) :=
    bindO (pt_th p) (fun t => bindO (deref h (pt_info p)) (fun i => bindO (i_tr i) (fun tr =>
      match camb_power (tpar (pt_P p)) tr with
      | Some w => Some (h, set_th (mkTh (t_der t) (Some w)) (pt_info p) p, true)
      | None => Some (h, set_th (mkTh (t_der t) None) (pt_info p) p, false)
      end))).
  (** Calculator_CAMB.f90:162-176: the background in the cell is overwritten *)
  Definition SetParamsForBackground (h : heap) (p : point) : option heap :=
    bindO (deref h (pt_info p)) (fun i =>
      Some (store h (pt_info p) (mkInf (i_tr i) (Some (camb_background (hard (pt_P p))))))).
  (** GetNewBackgroundData: the above, then Calculator_CAMB.f90:178-195 *)
  Definition GetNewBackgroundData (h : heap) (p : point) : option (heap * point * bool) :=
    bindO (pt_th p) (fun t => bindO (SetParamsForBackground h p) (fun h1 =>
      match camb_thermal (hard (pt_P p)) with
      | Some d => Some (h1, set_th (mkTh (Some d) (t_pow t)) (pt_info p) p, true)
      | None => Some (h1, p, false)
      end)).
  Definition slowChanged (m : list bool) : bool := any (firstn nh m).
  Definition semiSlowChanged (m : list bool) : bool := any (firstn ni (skipn nh m)).
  Definition set_valid (p : point) : point := mkPt (pt_P p) (pt_likes p) (pt_last p) true (pt_th p) (pt_info p).
  (** CalcLike_Cosmology.f90:69-106 *)
  Definition CalculateRequiredTheoryChanges (h : heap) (p : point) (m : list bool) : option (heap * point * bool) :=
    bindO
      (if use_theory then
         bindO (if slowChanged m || (semiSlowChanged m && negb block_semi_fast) then GetNewTransferData h p else Some (h, p, true))
           (fun r => let '(h1, p1, ok) := r in
            if (slowChanged m || semiSlowChanged m) && ok then GetNewPowerData h1 p1 else Some (h1, p1, ok))
       else if slowChanged m then GetNewBackgroundData h p else Some (h, p, true))
      (fun r => let '(h1, p1, ok) := r in Some (h1, set_valid p1, ok)).

  (** calclike.f90:374-387 with GetTheoryForLike, CalcLike_Cosmology.f90:49-66: the likelihoods from the i-th on, with the flags
      do_like and the stored values; [bs] is backgroundSet.  The flag tells if the loop went to its end. *)
  Fixpoint like_loop (bs : bool) (p : point) (m : list bool) (ls : list (bool * like)) (vals : list R) (h : heap)
      : option (heap * list R * bool) :=
    match ls, vals with
    | (d, k) :: ls', v :: vals' =>
        if d && any (both (lk_dep k) m) then
          bindO (if any (firstn nh (lk_dep k)) && negb bs
                 then bindO (SetParamsForBackground h p) (fun h1 => Some (h1, true)) else Some (h, bs))
            (fun r => let '(h1, bs1) := r in
             bindO (pt_th p) (fun t => bindO (deref h1 (pt_info p)) (fun i =>
               let itemLike := lk_val k (pt_P p) t (i_bg i) in
               if Reqb itemLike logZero then Some (h1, v :: vals', false)
               else bindO (like_loop bs1 p m ls' vals' h1) (fun r => let '(h2, vs, ok) := r in Some (h2, itemLike :: vs, ok)))))
        else bindO (like_loop bs p m ls' vals' h) (fun r => let '(h2, vs, ok) := r in Some (h2, v :: vs, ok))
    | _, _ => Some (h, vals, true)
    end.
  Definition set_likes (vs : list R) (p : point) : point :=
    mkPt (pt_P p) vs (pt_last p) (pt_valid p) (pt_th p) (pt_info p).
  (** calclike.f90:356-392 *)
  Definition LogLikeWithTheorySet (do_like : list bool) (slow : bool) (m : list bool) (h : heap) (p : point)
      : option (heap * point * R) :=
    bindO (like_loop slow p m (combine do_like likes) (pt_likes p) h) (fun r => let '(h1, vs, ok) := r in
      Some (h1, set_likes vs p, if ok then sumR vs else logZero)).

  Definition set_last (p : point) : point :=
    mkPt (pt_P p) (pt_likes p) (pt_P p) (pt_valid p) (pt_th p) (pt_info p).
  (** calclike.f90:293-321 *)
  Definition GetLogLikeMain (h : heap) (p : point) : option (heap * point * R) :=
    let '(h0, p0) := SetCurrentPoint h p in
    let l0 := prior0 (pt_P p0) in
    if Reqb l0 logZero then Some (h0, p0, l0) else
    let m := changeMask p0 in
    let p1 := SetNewTheoryResults p0 in
    bindO (CalculateRequiredTheoryChanges h0 p1 m) (fun r => let '(h2, p2, ok) := r in
      if (ok : bool) then
        bindO (LogLikeWithTheorySet (repeat true (length likes)) (slowChanged m) m h2 p2) (fun r => let '(h3, p3, l) := r in
          Some (h3, set_last p3, AddLike l0 l))
      else Some (h2, p2, logZero)).

  (** calclike.f90:139-154 *)
  Definition GetLogLike (h : heap) (p : point) : option (heap * point * R) :=
    let l := bounds (pt_P p) in
    if Reqb l logZero then Some (h, p, l) else
    bindO (GetLogLikeMain h p) (fun r => let '(h1, p1, lm) := r in
      let l1 := AddLikeTemp T l lm in
      if Reqb l1 logZero then Some (h1, p1, l1) else Some (h1, p1, AddLikeTemp T l1 (priors (pt_P p1)))).

  (** GeneralTypes.f90:225-237 *)
  Definition Clear (h : heap) (p keep : point) : option (heap * point) :=
    match pt_info p with
    | Some a =>
        if match pt_info keep with Some b => Nat.eqb a b | None => false end
        then Some (h, mkPt (pt_P p) (pt_likes p) (pt_last p) (pt_valid p) None (pt_info p))
        else bindO (dealloc h a) (fun h1 => Some (h1, mkPt (pt_P p) (pt_likes p) (pt_last p) (pt_valid p) None None))
    | None => Some (h, mkPt (pt_P p) (pt_likes p) (pt_last p) (pt_valid p) None None)
    end.
  Definition set_P (P : list R) (p : point) : point :=
    mkPt P (pt_likes p) (pt_last p) (pt_valid p) (pt_th p) (pt_info p).

  (** *** The sampler *)

  (** MCMC.f90:269-307, 309-335: [accept] is the decision MetropolisAccept takes, [mult] tells if mult>0 and the other conditions of
      MoveDone for writing a point with a likelihood hold. *)
  Definition metropolis_like (P : list R) (accept mult : bool) (s : sampler) : option sampler :=
    bindO (GetLogLike (s_heap s) (set_P P (s_cur s))) (fun r => let '(h1, Trial, Like) := r in
      let accpt := if negb (Reqb Like logZero) then accept else false in
      let ev := s_eval s ++ [(P, Like)] in
      let out := if accpt && mult && negb (Reqb (s_like s) logZero) then s_out s ++ [(s_cur s, s_like s)] else s_out s in
      if accpt then bindO (Clear h1 (s_cur s) Trial) (fun r => Some (mkS (fst r) Trial Like ev out))
      else bindO (Clear h1 Trial (s_cur s)) (fun r => Some (mkS (fst r) (s_cur s) (s_like s) ev out))).

  (** MCMC.f90:389-428: [l] are the proposed changes and decisions; the points are CurStartParams, CurEndParams, TrialStart.  TrialEnd
      is assigned at the start of each turn. *)
  Fixpoint drag_like (l : list (list R * bool)) (h : heap) (cs ce ts : point) (le : R) (ev : list (list R * R))
      : option (heap * point * point * R * list (list R * R)) :=
    match l with
    | [] => Some (h, cs, ce, le, ev)
    | (delta, acc) :: l' =>
        bindO (GetLogLike h (set_P (vadd (pt_P ce) delta) ce)) (fun r => let '(h1, te, EndLike) := r in
          let ev1 := ev ++ [(vadd (pt_P ce) delta, EndLike)] in
          bindO (if negb (Reqb EndLike logZero)
                 then bindO (GetLogLike h1 (set_P (vadd (pt_P cs) delta) cs)) (fun r => let '(h2, ts1, StartLike) := r in
                        Some (h2, ts1, (if negb (Reqb StartLike logZero) then acc else false),
                              ev1 ++ [(vadd (pt_P cs) delta, StartLike)]))
                 else Some (h1, ts, false, ev1))
            (fun r => let '(h2, ts1, accpt, ev2) := r in
             if (accpt : bool) then
               bindO (Clear h2 ce te) (fun r => bindO (Clear (fst r) cs ts1) (fun r => drag_like l' (fst r) ts1 te ts1 EndLike ev2))
             else
               bindO (Clear h2 te ce) (fun r => bindO (Clear (fst r) ts1 cs) (fun r => drag_like l' (fst r) cs ce (snd r) le ev2))))
    end.
  (** MCMC.f90:366-452 *)
  Definition dragging_like (P : list R) (l : list (list R * bool)) (accept mult : bool) (s : sampler) : option sampler :=
    bindO (GetLogLike (s_heap s) (set_P P (s_cur s))) (fun r => let '(h1, te, CurEndLike) := r in
      let ev := s_eval s ++ [(P, CurEndLike)] in
      if Reqb CurEndLike logZero
      then bindO (Clear h1 te (s_cur s)) (fun r => Some (mkS (fst r) (s_cur s) (s_like s) ev (s_out s)))
      else
        bindO (drag_like l h1 (s_cur s) te (mkPt [] [] [] false None None) CurEndLike ev)
          (fun r => let '(h2, _, ce, le, ev2) := r in
           let out := if accept && mult && negb (Reqb (s_like s) logZero) then s_out s ++ [(s_cur s, s_like s)] else s_out s in
           if accept then bindO (Clear h2 (s_cur s) ce) (fun r => Some (mkS (fst r) ce le ev2 out))
           else bindO (Clear h2 ce (s_cur s)) (fun r => Some (mkS (fst r) (s_cur s) (s_like s) ev2 out)))).

  Inductive move := Metropolis (P : list R) (accept mult : bool)
                  | Dragging (P : list R) (l : list (list R * bool)) (accept mult : bool).
  Definition do_move (m : move) (s : sampler) : option sampler :=
    match m with
    | Metropolis P a b => metropolis_like P a b s
    | Dragging P l a b => dragging_like P l a b s
    end.
  Fixpoint do_moves (ms : list move) (s : sampler) : option sampler :=
    match ms with [] => Some s | m :: ms' => bindO (do_move m s) (do_moves ms') end.

  (** *** The minimizer *)

  (** minimize.f90:111-131, one evaluation: the point is kept unless its likelihood is logZero *)
  Definition ffn (P : list R) (h : heap) (mp : point) : option (heap * point * R) :=
    bindO (GetLogLike h (set_P P mp)) (fun r => let '(h1, p, l) := r in
      if Reqb l logZero then bindO (Clear h1 p mp) (fun r => Some (fst r, mp, l))
      else bindO (Clear h1 mp p) (fun r => Some (fst r, p, l))).
  Fixpoint ffns (Ps : list (list R)) (h : heap) (mp : point) (ev : list (list R * R)) : option (heap * point * list (list R * R)) :=
    match Ps with
    | [] => Some (h, mp, ev)
    | P :: Ps' => bindO (ffn P h mp) (fun r => let '(h1, mp1, l) := r in ffns Ps' h1 mp1 (ev ++ [(P, l)]))
    end.
  (** minimize.f90:335-376, one turn of the refinement: MCMC steps from a copy of Params, and if a better point was found ([best])
      Params is moved there *)
  Definition refine (ms : list move) (best : option (list R)) (h : heap) (prm : point) (l : R) : option (heap * point) :=
    bindO (do_moves ms (mkS h prm l [] [])) (fun s =>
      bindO (match best with
             | Some P => bindO (GetLogLike (s_heap s) (set_P P prm)) (fun r => Some (fst r))
             | None => Some (s_heap s, prm)
             end)
        (fun r => let '(h1, prm1) := r in bindO (Clear h1 (s_cur s) prm1) (fun r => Some (fst r, prm1)))).
  Fixpoint refines (rs : list (list move * option (list R))) (h : heap) (prm : point) (l : R) : option (heap * point) :=
    match rs with
    | [] => Some (h, prm)
    | (ms, best) :: rs' => bindO (refine ms best h prm l) (fun r => refines rs' (fst r) (snd r) l)
    end.

  (** *** Importance sampling *)

  (** calclike.f90:333-353: the theory is stored, so SlowChanged is false and all parameters count as changed *)
  Definition GetLogLikePost (do_like : list bool) (h : heap) (p : point) : option (heap * point * R) :=
    let l := bounds (pt_P p) in
    if Reqb l logZero then Some (h, p, l) else
    let '(h0, p0) := SetCurrentPoint h p in
    let l1 := AddLikeTemp T l (prior0 (pt_P p0)) in
    if Reqb l1 logZero then Some (h0, p0, l1) else
    bindO (LogLikeWithTheorySet do_like false (repeat true np) h0 p0) (fun r => let '(h2, p2, lt) := r in
      let l2 := AddLikeTemp T l1 lt in
      if Reqb l2 logZero then Some (h2, p2, l2) else Some (h2, p2, AddLikeTemp T l2 (priors (pt_P p2)))).
End Like.
