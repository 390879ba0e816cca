(** Model of two tests of convergence in python/getdist/mcsamples.py: split tests, lines 924-946, and correlations between thinned
    steps, lines 1093-1128. Weights and samples of the first are rational, the numbers of the second real. *)
From Coq Require Import Reals ZArith QArith Bool Lia.
From Verif Require Import PyStr PyBase ThinModel ConfModel HistModel RaftModel KdeModel StatModel.
From Coq Require Import List.
Import ListNotations.

(** ** Split tests *)
(** 940: pairs of successive boundaries *)
Definition parts (b : list nat) : list (nat * nat) := combine (removelast b) (tl b).
(** 936-945 for one parameter, one limit and n parts: the square of the number in the table; [var]: the square of sddev[j]; 0 of them is nan *)
Definition split_sq (argsort : list Q -> list nat) (vec ws : list Q) (lim var : Q) (n : nat) : res Q :=
  let frac := getFractionIndices ws (ThinModel.sumQ ws) (length ws) n in                                                             (* 933-934 *)
  bindR (confidence (initParamConfidenceData argsort vec ws 0 None) lim false) (fun confids =>                             (* 937 *)
  bindR (mapR (fun f => bindR (confidence (initParamConfidenceData argsort vec ws (fst f) (Some (snd f))) lim false) (fun c =>
                        Ok ((c - confids) * (c - confids))%Q)) (parts frac)) (fun sq =>                                     (* 940-942 *)
  if Qeq_bool var 0 then Err NotFinite else Ok (ThinModel.sumQ sq / inject_Z (Z.of_nat n) / var)%Q)).                                (* 944 *)

(** ** Correlation steps *)
Local Open Scope R_scope.
(** 1098-1105; indep_thin is 0 before the test of Raftery and Lewis; the quotient is rounded down *)
Definition autocorr_thin (corr_length_thin indep_thin : nat) : nat :=
  if negb (Nat.eqb corr_length_thin 0) then corr_length_thin
  else if Nat.eqb indep_thin 0 then 20%nat
  else if Nat.leb indep_thin 30 then 5%nat
  else ((5 * indep_thin) / 30)%nat.
(** weights of a chain and for every parameter the differences from the mean of the chain *)
Record schain := mkSC { sc_ws : list nat; sc_diffs : list (list R) }.
(** 1118: chain.diffs[j][thin_ix] *)
Definition thinned_diff (c : schain) (j : nat) (ix : list nat) : list R := map (fun i => nth i (nth j (sc_diffs c) []) 0) ix.
(** 1119-1121: one term; with off = thin_rows, numpy divides the empty sum by 0 *)
Definition lag_term (diff : list R) (off : nat) (var : R) : res R :=
  let rows := length diff in
  if Nat.leb rows off then Err NotFinite else
  bindR (rdivE (dot (skipn off diff) (firstn (rows - off) diff)) (INR (rows - off))) (fun x => rdivE x var).
(** 1117-1121 for one chain: rows 1 .. maxoff of the table, one number per parameter *)
Definition chain_table (c : schain) (ix : list nat) (vars : list R) (maxoff : nat) : res (list (list R)) :=
  mapR (fun off => mapR (fun j => lag_term (thinned_diff c j ix) off (nth j vars 0)) (seq 0 (length vars))) (seq 1 maxoff).
Definition add_row (a b : list R) : list R := map (fun p => fst p + snd p) (combine a b).
(** the first rows of the table get the numbers of a chain, others stay *)
Definition add_table (t new : list (list R)) : list (list R) := map (fun p => add_row (fst p) (snd p)) (combine t new) ++ skipn (length new) t.
(** 1113-1121: the loop over chains *)
Fixpoint chains_loop (thin : nat) (vars : list R) (cs : list schain) (maxoff : nat) (t : list (list R)) : res (nat * list (list R)) :=
  match cs with
  | [] => Ok (maxoff, t)
  | c :: r => bindR (thinned (sc_ws c) thin) (fun ix =>
              let maxoff := Nat.min maxoff (length ix / thin) in
              bindR (chain_table c ix vars maxoff) (fun new => chains_loop thin vars r maxoff (add_table t new)))
  end.
(** 1107-1128: the distances of the heading and the table, None if nothing is written; [ws]: weights of all chains *)
Definition corr_steps (corr_length_thin indep_thin corr_length_steps : nat) (ws : list nat) (cs : list schain) (vars : list R) : res (option (list nat * list (list R))) :=
  let thin := autocorr_thin corr_length_thin indep_thin in
  bindR (thinned ws thin) (fun ix =>
  let maxoff := Nat.min corr_length_steps (length ix / (2 * length cs)) in
  if Nat.eqb maxoff 0 then Ok None else
  bindR (chains_loop thin vars cs maxoff (repeat (repeat 0 (length vars)) maxoff)) (fun p =>
  let '(maxoff, t) := p in
  let t := map (map (fun x => x / INR (length cs))) t in
  Ok (Some (map (fun i => ((i + 1) * thin)%nat) (seq 0 maxoff), firstn maxoff t)))).
