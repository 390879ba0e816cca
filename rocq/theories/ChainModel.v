(** Model of the row bookkeeping of WeightedSamples and Chains, python/getdist/chains.py.
    A sample row is a value of any type [R]; weights and -log likelihoods are exact rationals. *)
From Verif Require Import PyStr PyBase ThinModel.
From Coq Require Import QArith Qround.
Local Open Scope nat_scope.

(** Fields of a WeightedSamples object, chains.py 191-247.  [cached]: one of means, mean_loglike,
    diffs, fullcov, correlationMatrix, vars, sddev is set. *)
Record wsam {R : Type} := mkW {
  samples : option (list R); weights : option (list Q); loglikes : option (list Q);
  numrows : nat; norm : Q; mwr : Q; cached : bool; needs_update : bool }.
Arguments wsam : clear implicits.

(** A numpy row selector: a boolean array or an array of row numbers. *)
Inductive sel := Mask (m : list bool) | Index (ix : list nat).

Fixpoint keep {A} (m : list bool) (l : list A) : list A :=
  match m, l with
  | b :: m', x :: l' => if b then x :: keep m' l' else keep m' l'
  | _, _ => []
  end.

(** [array[where]]: a mask of the wrong length and a row number out of range raise IndexError. *)
Definition take {A} (w : sel) (l : list A) : res (list A) :=
  match w with
  | Mask m => if length m =? length l then Ok (keep m l) else Err IndexError
  | Index ix => mapR (fun i => match nth_error l i with Some x => Ok x | None => Err IndexError end) ix
  end.
Definition take_opt {A} (w : sel) (o : option (list A)) : res (option (list A)) :=
  match o with None => Ok None | Some l => bindR (take w l) (fun r => Ok (Some r)) end.

(** np.max / np.min of a non-empty array; ValueError for an empty one. *)
Definition maxQ (l : list Q) : res Q :=
  match l with [] => Err ValueError | x :: l' => Ok (fold_left (fun a b => if Qle_bool a b then b else a) l' x) end.
Definition minQ (l : list Q) : res Q :=
  match l with [] => Err ValueError | x :: l' => Ok (fold_left (fun a b => if Qle_bool b a then b else a) l' x) end.
Definition Qltb (a b : Q) : bool := negb (Qle_bool b a).

(** _weightsChanged, chains.py 309-323. *)
Definition weightsChanged {R} (s : wsam R) : wsam R :=
  match weights s, samples s with
  | Some w, _ => mkW R (samples s) (Some w) (loglikes s) (numrows s) (sumQ w) (mwr s) false true
  | None, Some _ => mkW R (samples s) (Some (repeat 1%Q (numrows s))) (loglikes s) (numrows s)
                        (inject_Z (Z.of_nat (numrows s))) (mwr s) false true
  | None, None => mkW R None None (loglikes s) (numrows s) (norm s) (mwr s) false true
  end.

(** setSamples with samples given and a negative ratio, chains.py 287-301 (two-dimensional arrays
    only; lists of columns and one-dimensional arrays are not modelled). *)
Definition setSamples_raw {R} (s : wsam R) (sm : list R) (w l : option (list Q)) : wsam R :=
  weightsChanged (mkW R (Some sm) w l (length sm) (norm s) (mwr s) (cached s) (needs_update s)).

(** WeightedSamples.filter, chains.py 946-953. *)
Definition ws_filter {R} (s : wsam R) (w : sel) : res (wsam R) :=
  match samples s, weights s with
  | Some sm, Some wt =>
      bindR (take w sm) (fun sm' => bindR (take w wt) (fun wt' =>
      bindR (take_opt w (loglikes s)) (fun ll' => Ok (setSamples_raw s sm' (Some wt') ll'))))
  | _, _ => Err TypeError
  end.

(** The cut of setMinWeightRatio, chains.py 989-999: which rows to keep, if any are to be dropped. *)
Definition ratio_mask (ratio : Q) (w : list Q) : res (option (list bool)) :=
  bindR (maxQ w) (fun mx => bindR (minQ w) (fun mn =>
    Ok (if Qltb mn (mx * ratio)%Q then Some (map (fun x => Qltb (mx * ratio)%Q x) w) else None))).

(** setMinWeightRatio with the [filter] method of the object's class. *)
Definition setMinWeightRatio_with {R} {O} (ws_of : O -> wsam R) (filt : O -> sel -> res O)
    (o : O) (ratio : Q) : res O :=
  match weights (ws_of o) with
  | Some w => if Qle_bool 0 ratio then
                bindR (ratio_mask ratio w) (fun m =>
                  match m with Some m => filt o (Mask m) | None => Ok o end)
              else Ok o
  | None => Ok o
  end.

(** setSamples, chains.py 276-301: [ratio] None means the object's own min_weight_ratio. *)
Definition ws_setSamples {R} (s : wsam R) (sm : list R) (w l : option (list Q)) (ratio : option Q) : res (wsam R) :=
  let r := match ratio with Some r => r | None => mwr s end in
  let s1 := mkW R (Some sm) w l (length sm) (norm s) (mwr s) (cached s) (needs_update s) in
  bindR (if Qle_bool 0 r then setMinWeightRatio_with (fun x => x) ws_filter s1 r else Ok s1)
        (fun s2 => Ok (weightsChanged s2)).

(** __init__ from arrays, chains.py 214-247, with ignore_rows = 0. *)
Definition default_ratio : Q := 1 # (Pos.pow 10 30).
Definition ws_init {R} (sm : list R) (w l : option (list Q)) (ratio : Q) : res (wsam R) :=
  ws_setSamples (mkW R None None None 0 0%Q ratio false true) sm w l None.

(** thin, chains.py 925-933 *)
Definition ws_thin {R} (s : wsam R) (factor : Q) : res (wsam R) :=
  match samples s, weights s with
  | Some sm, Some wt =>
      bindR (thin_indices_single_samples factor wt) (fun ix =>
      bindR (take (Index ix) sm) (fun sm' => bindR (take_opt (Index ix) (loglikes s)) (fun ll' =>
      Ok (setSamples_raw s sm' None ll'))))
  | _, _ => Err TypeError
  end.

(** weighted_thin, chains.py 935-944 *)
Definition ws_weighted_thin {R} (s : wsam R) (factor : Q) : res (wsam R) :=
  match samples s, weights s with
  | Some sm, Some wt =>
      bindR (thin_indices_and_weights factor wt) (fun p =>
      let ix := map fst p in
      bindR (take (Index ix) sm) (fun sm' => bindR (take_opt (Index ix) (loglikes s)) (fun ll' =>
      Ok (setSamples_raw s sm' (Some (map (fun c => inject_Z (Z.of_nat (snd c))) p)) ll'))))
  | _, _ => Err TypeError
  end.

(** Python's round() on a non-negative number: to the nearest integer, halves to even. *)
Definition round_half_even (q : Q) : Z :=
  let f := Qfloor q in
  let d := (q - inject_Z f)%Q in
  if Qltb d (1 # 2) then f
  else if Qltb (1 # 2) d then (f + 1)%Z
  else if Z.even f then f else (f + 1)%Z.

(** number of rows removeBurn drops, chains.py 1024-1027 (for remove >= 0; a negative number would count from the end) *)
Definition burn_rows (n : nat) (remove : Q) : nat :=
  if Qle_bool 1 remove then Z.to_nat (trunc remove)
  else Z.to_nat (round_half_even (inject_Z (Z.of_nat n) * remove)).

(** removeBurn, chains.py 1018-1032, on a WeightedSamples object *)
Definition ws_removeBurn {R} (s : wsam R) (remove : Q) : res (wsam R) :=
  match samples s with
  | Some sm =>
      let ix := burn_rows (numrows s) remove in
      ws_setSamples s (skipn ix sm) (option_map (skipn ix) (weights s)) (option_map (skipn ix) (loglikes s)) None
  | None => Err TypeError
  end.

(** Elementwise reweighting (the shape of reweightAddingLogLikes 955-967 and cool 969-980): weights
    multiplied by [fs], likelihoods replaced by [upd]; arrays of different length do not broadcast. *)
Definition ws_reweight {R} (s : wsam R) (fs : list Q) (upd : list Q -> list Q) : res (wsam R) :=
  match weights s with
  | Some w =>
      if length fs =? length w then
        Ok (weightsChanged (mkW R (samples s) (Some (map (fun p => (fst p * snd p)%Q) (combine w fs)))
                                (option_map upd (loglikes s)) (numrows s) (norm s) (mwr s) (cached s) (needs_update s)))
      else Err ValueError
  | None => Err TypeError
  end.

(** ** Chains *)
(** chains.py 1085-1087: separate chains, and row offsets of the chains once combined *)
Record chn {R : Type} := mkCh { base : wsam R; chains : option (list (wsam R)); offs : option (list nat) }.
Arguments chn : clear implicits.

(** [where[off1:off2]] counted by np.count_nonzero, chains.py 1144-1145 *)
Definition slice {A} (a b : nat) (l : list A) : list A := firstn (b - a) (skipn a l).
Definition count_nonzero (w : sel) (a b : nat) : nat :=
  match w with
  | Mask m => length (filter (fun x => x) (slice a b m))
  | Index ix => length (filter (fun i => negb (i =? 0)) (slice a b ix))
  end.
Fixpoint nat_cumsum (acc : nat) (l : list nat) : list nat :=
  match l with [] => [] | x :: l' => (acc + x) :: nat_cumsum (acc + x) l' end.
(** [zip(offs[:-1], offs[1:])] *)
Definition pairs_of (o : list nat) : list (nat * nat) := combine (removelast o) (tl o).

Definition new_offs (o : list nat) (w : sel) : list nat :=
  nat_cumsum 0 (0 :: map (fun p => count_nonzero w (fst p) (snd p)) (pairs_of o)).

(** Chains.filter, chains.py 1133-1149 *)
Definition ch_filter {R} (c : chn R) (w : sel) : res (chn R) :=
  match chains c with
  | None => bindR (ws_filter (base c) w) (fun b =>
              Ok (mkCh R b None (option_map (fun o => new_offs o w) (offs c))))
  | Some _ => Err ValueError
  end.

(** setSamples on a Chains object: the weight cut calls the overridden filter. *)
Definition ch_setSamples {R} (c : chn R) (sm : list R) (w l : option (list Q)) (ratio : option Q) : res (chn R) :=
  let s := base c in
  let r := match ratio with Some r => r | None => mwr s end in
  let c1 := mkCh R (mkW R (Some sm) w l (length sm) (norm s) (mwr s) (cached s) (needs_update s)) (chains c) (offs c) in
  bindR (if Qle_bool 0 r then setMinWeightRatio_with base ch_filter c1 r else Ok c1)
        (fun c2 => Ok (mkCh R (weightsChanged (base c2)) (chains c2) (offs c2))).

(** thin and removeBurn are inherited, chains.py 925-933 and 1018-1032 *)
Definition ch_thin {R} (c : chn R) (factor : Q) : res (chn R) :=
  bindR (ws_thin (base c) factor) (fun b => Ok (mkCh R b (chains c) (offs c))).
Definition ch_removeBurn {R} (c : chn R) (remove : Q) : res (chn R) :=
  match samples (base c) with
  | Some sm =>
      let ix := burn_rows (numrows (base c)) remove in
      ch_setSamples c (skipn ix sm) (option_map (skipn ix) (weights (base c)))
                    (option_map (skipn ix) (loglikes (base c))) None
  | None => Err TypeError
  end.

(** np.hstack of the chains' arrays, decided by the first chain, chains.py 1448-1449 *)
Definition hstack {A R} (get : wsam R -> option (list A)) (cs : list (wsam R)) : res (option (list A)) :=
  match cs with
  | [] => Err ValueError
  | c :: _ => match get c with
              | None => Ok None
              | Some _ => bindR (mapR (fun c => match get c with Some l => Ok l | None => Err TypeError end) cs)
                                (fun ls => Ok (Some (concat ls)))
              end
  end.

(** makeSingle, chains.py 1438-1453 *)
Definition makeSingle {R} (c : chn R) : res (chn R) :=
  match chains c with
  | None | Some [] => Err ValueError
  | Some cs =>
      bindR (mapR (fun x => match samples x with Some l => Ok l | None => Err AttributeError end) cs) (fun ss =>
      let o := nat_cumsum 0 (0 :: map (@length R) ss) in
      bindR (hstack weights cs) (fun w => bindR (hstack loglikes cs) (fun l =>
      Ok (mkCh R (setSamples_raw (base c) (concat ss) w l) None (Some o)))))
  end.

(** getSeparateChains, chains.py 1455-1472: the new objects use the default minimum weight ratio *)
Definition getSeparateChains {R} (c : chn R) : res (list (wsam R)) :=
  match chains c with
  | Some cs => Ok cs
  | None =>
    match offs c with
    | None => Err (OtherError (L "Samples were not combined from separate chains"))
    | Some o =>
        mapR (fun p =>
          match samples (base c), weights (base c), loglikes (base c) with
          | Some sm, Some w, Some l =>
              ws_init (slice (fst p) (snd p) sm) (Some (slice (fst p) (snd p) w))
                      (Some (slice (fst p) (snd p) l)) default_ratio
          | _, _, _ => Err TypeError
          end) (pairs_of o)
    end
  end.

(** weighted_thin, chains.py 1151-1167 *)
Definition ch_weighted_thin {R} (c : chn R) (factor : Q) : res (chn R) :=
  let none_or_empty := match chains c with None | Some [] => true | _ => false end in
  match none_or_empty, offs c with
  | true, None => bindR (ws_weighted_thin (base c) factor) (fun b => Ok (mkCh R b (chains c) None))
  | _, _ =>
      bindR (getSeparateChains c) (fun cs =>
      bindR (mapR (fun x => ws_weighted_thin x factor) cs) (fun cs' =>
      let c' := mkCh R (base c) (Some cs') (offs c) in
      if none_or_empty then makeSingle c' else Ok c'))
  end.

(** removeBurnFraction, chains.py 1474-1487 *)
Definition removeBurnFraction {R} (c : chn R) (frac : Q) : res (chn R) :=
  match samples (base c) with
  | Some _ => bindR (ch_removeBurn c frac) (fun c' => Ok (mkCh R (base c') None (offs c')))
  | None => match chains c with
            | Some cs => bindR (mapR (fun x => ws_removeBurn x frac) cs)
                               (fun cs' => Ok (mkCh R (base c) (Some cs') (offs c)))
            | None => Err TypeError
            end
  end.
