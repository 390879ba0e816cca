(** Properties C11, C12 (parameter bounds). *)
From Verif Require Import PyStr PyStrFacts PyBase BoundsModel BoundsSpec BoundsProofs.

(** C11: [fmt] is "%15.7E" (one word [tok v] after spaces, at most 16 characters), [parse] is
    float() and [rnd] the rounding done by the 8 significant digits of the format. *)
Theorem C11_bounds_round_trip : forall V (veq : V -> V -> bool) ninf pinf (fmt : V -> str) (parse : str -> option V) (tok : V -> str) (rnd : V -> V),
  (forall v, one_word (fmt v) (tok v)) -> (forall v, length (fmt v) <= 16) ->
  (forall v, tok v <> L "N") -> (forall v, parse (tok v) = Some (rnd v)) ->
  forall b, Forall word (bnames b) -> NoDup (bnames b) ->
    (forall k, In k (dkeys (blower b)) \/ In k (dkeys (bupper b)) -> In k (bnames b)) ->
    exists b', load_bounds veq ninf pinf parse (bounds_text fmt b) = Ok b' /\ bnames b' = bnames b /\
      forall k, getLower b' k = option_map rnd (getLower b k) /\ getUpper b' k = option_map rnd (getUpper b k).
Proof. exact @bounds_round_trip. Qed.
Print Assumptions C11_bounds_round_trip.
(** every object built by setRange calls meets those conditions *)
Theorem C11_reachable : forall V (veq : V -> V -> bool) ninf pinf parse h b',
  Forall (finite_call veq ninf pinf) h -> run veq ninf pinf parse h empty_bounds = Ok b' ->
  NoDup (bnames b') /\ (forall n, In n (bnames b') <-> In n (map c_name h)) /\
  (forall k, In k (dkeys (blower b')) \/ In k (dkeys (bupper b')) -> In k (bnames b')).
Proof. exact @run_wf. Qed.
Print Assumptions C11_reachable.

(** a small concrete instance: numbers 0..3 (0, 3 play the infinities) *)
Definition ex_tok (v : nat) : str := match v with 0 => L "-INF" | 1 => L "1.0000000E+00" | 2 => L "-2.5000000E-01" | _ => L "INF" end.
Definition ex_fmt (v : nat) : str := repeat " "%char (15 - length (ex_tok v)) ++ ex_tok v.
Definition ex_parse (s : str) : option nat :=
  if str_eqb s (ex_tok 0) then Some 0 else if str_eqb s (ex_tok 1) then Some 1
  else if str_eqb s (ex_tok 2) then Some 2 else if str_eqb s (ex_tok 3) then Some 3 else None.
Definition ex_rnd (v : nat) : nat := match v with 0 => 0 | 1 => 1 | 2 => 2 | _ => 3 end.
Example C11_hypotheses_hold :
  (forall v, one_word (ex_fmt v) (ex_tok v)) /\ (forall v, length (ex_fmt v) <= 16) /\
  (forall v, ex_tok v <> L "N") /\ (forall v, ex_parse (ex_tok v) = Some (ex_rnd v)).
Proof.
  assert (C : forall (P : nat -> Prop), P 0 -> P 1 -> P 2 -> (forall n, P (3 + n)) -> forall v, P v)
    by (intros P A B D E [|[|[|n]]]; auto; apply (E n)).
  repeat split.
  - intros v. exists (15 - length (ex_tok v)). split; [reflexivity|].
    revert v. apply C; [..|intros n]; (split; [discriminate|reflexivity]).
  - apply C; [..|intros n]; vm_compute; lia.
  - apply C; [..|intros n]; discriminate.
  - apply C; [..|intros n]; reflexivity.
Qed.
Example C11_example :
  let b := mkB [L "x"; L "a_very_long_parameter_name_indeed"] [(L "x", 1)] [(L "a_very_long_parameter_name_indeed", 2); (L "x", 2)] in
  load_bounds Nat.eqb 0 3 ex_parse (bounds_text ex_fmt b)
  = Ok (mkB (bnames b) [(L "x", 1)] [(L "x", 2); (L "a_very_long_parameter_name_indeed", 2)]).
Proof. vm_compute. reflexivity. Qed.

(** C12: numbers replace what was there before; the reported bounds are the last numbers given. *)
Theorem C12_set_range_numbers_partial : forall V (veq : V -> V -> bool) ninf pinf parse b name lo hi,
  veq lo ninf = false -> veq hi pinf = false ->
  exists b', setRange veq ninf pinf parse b name (BVal lo) (BVal hi) = Ok b' /\
    getLower b' name = Some lo /\ getUpper b' name = Some hi /\
    (forall k, k <> name -> getLower b' k = getLower b k /\ getUpper b' k = getUpper b k) /\
    In name (bnames b') /\ (forall k, k <> name -> In k (bnames b') <-> In k (bnames b)).
Proof. exact @setRange_replaces. Qed.
Print Assumptions C12_set_range_numbers_partial.
Theorem C12_history : forall V (veq : V -> V -> bool) ninf pinf parse h,
  Forall (finite_call veq ninf pinf) h -> forall b, exists b', run veq ninf pinf parse h b = Ok b' /\
    bnames b' = bnames b ++ first_seen (bnames b) (map c_name h) /\
    forall k,
      getLower b' k = match last_given c_lo k h with Some v => Some v | None => getLower b k end /\
      getUpper b' k = match last_given c_hi k h with Some v => Some v | None => getUpper b k end.
Proof. exact @run_spec. Qed.
Print Assumptions C12_history.
Theorem C12_fixed_value : forall V (veq : V -> V -> bool) b name v, fixedValue veq b name = Some v <->
  getLower b name = Some v /\ exists h, getUpper b name = Some h /\ veq h v = true.
Proof. exact @fixedValue_spec. Qed.
Print Assumptions C12_fixed_value.
Theorem C12_fixed_value_dict : forall V (veq : V -> V -> bool) b name, dget name (fixedValueDict veq b) =
  if mem_str name (bnames b) then fixedValue veq b name else None.
Proof. exact @fixedValueDict_spec. Qed.
Print Assumptions C12_fixed_value_dict.
(** FINDING: None (or 'N') does not clear a limit: the earlier one stays. *)
Theorem C12_clear_refuted : forall V (veq : V -> V -> bool) ninf pinf parse b name,
  exists b', setRange veq ninf pinf parse b name BNone BNone = Ok b' /\
    getLower b' name = getLower b name /\ getUpper b' name = getUpper b name.
Proof. exact @setRange_no_clear. Qed.
Print Assumptions C12_clear_refuted.
(** FINDING: neither does an infinite limit: it is not stored and the earlier one stays. *)
Theorem C12_infinite_refuted : forall V (veq : V -> V -> bool) ninf pinf parse b name lo hi, veq lo ninf = true -> veq hi pinf = true ->
  exists b', setRange veq ninf pinf parse b name (BVal lo) (BVal hi) = Ok b' /\
    getLower b' name = getLower b name /\ getUpper b' name = getUpper b name.
Proof. intros V veq ninf pinf parse b name lo hi H1 H2. unfold setRange, limit_of. rewrite H1, H2. cbn [bindR]. eexists. repeat split. Qed.
Print Assumptions C12_infinite_refuted.
(** texts other than 'N' are read as numbers; a text that is none is an error *)
Theorem C12_texts : forall V (veq : V -> V -> bool) ninf pinf parse b name x y, x <> L "N" -> y <> L "N" ->
  match parse x, parse y with
  | Some lo, Some hi => exists b', setRange veq ninf pinf parse b name (BText x) (BText y) = Ok b' /\ getLower b' name = Some lo /\ getUpper b' name = Some hi
  | _, _ => setRange veq ninf pinf parse b name (BText x) (BText y) = Err ValueError
  end.
Proof.
  intros V veq ninf pinf parse b name x y Hx Hy. unfold setRange, limit_of. assert (Ex : str_eqb x (L "N") = false) by (destruct (str_eqb x (L "N")) eqn:E; [apply str_eqb_eq in E; contradiction|reflexivity]).
  assert (Ey : str_eqb y (L "N") = false) by (destruct (str_eqb y (L "N")) eqn:E; [apply str_eqb_eq in E; contradiction|reflexivity]).
  rewrite Ex, Ey.
  destruct (parse x) as [lo|]; [|reflexivity]. destruct (parse y) as [hi|]; [|reflexivity]. cbn [bindR]. eexists. split; [reflexivity|].
  unfold getLower, getUpper. cbn [blower bupper set_opt]. rewrite !dget_dset_same. auto.
Qed.
Print Assumptions C12_texts.
Example C12_example :
  let h := [(L "x", Some 1, Some 2); (L "y", None, Some 1); (L "x", Some 2, None)] in
  Forall (finite_call Nat.eqb 0 3) h /\
  run Nat.eqb 0 3 ex_parse h empty_bounds = Ok (mkB [L "x"; L "y"] [(L "x", 2)] [(L "x", 2); (L "y", 1)]) /\
  fixedValue Nat.eqb (mkB [L "x"; L "y"] [(L "x", 2)] [(L "x", 2); (L "y", 1)]) (L "x") = Some 2.
Proof.
  split; [|vm_compute; auto]. repeat constructor; cbn; intros v; try discriminate; intros [= <-]; reflexivity.
Qed.
