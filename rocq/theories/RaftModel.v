(** Model of the convergence test of Raftery and Lewis in python/getdist/mcsamples.py, lines 956-1080.
    Numbers are real, weights are natural numbers; the confidence limits (973 and 1027) are arguments. *)
From Coq Require Import Reals ZArith QArith Lia Lra Bool.
From Verif Require Import PyStr PyBase ThinModel.
From Coq Require Import List.
Import ListNotations.
Local Open Scope R_scope.

(** 981-982 and 1034-1035: 0 where the sample is not below the limit *)
Definition binchain (u : R) (xs : list R) : list nat := map (fun x => if Rle_dec u x then 0%nat else 1%nat) xs.
(** 983-985 and 1036-1038: np.bincount of 4 b[i] + 2 b[i+1] + b[i+2] *)
Definition indexes3 (b : list nat) : list nat := map (fun i => (nth i b 0 * 4 + nth (i + 1) b 0 * 2 + nth (i + 2) b 0)%nat) (seq 0 (length b - 2)).
Definition indexes2 (b : list nat) : list nat := map (fun i => (nth i b 0 * 2 + nth (i + 1) b 0)%nat) (seq 0 (length b - 1)).
Definition table3 := nat -> nat -> nat -> nat.
Definition table2 := nat -> nat -> nat.
Definition bincount3 (b : list nat) : table3 := fun i1 i2 i3 => count_occ Nat.eq_dec (indexes3 b) (i1 * 4 + i2 * 2 + i3)%nat.
Definition bincount2 (b : list nat) : table2 := fun i1 i2 => count_occ Nat.eq_dec (indexes2 b) (i1 * 2 + i2)%nat.
(** a loop over the indices, 992-1002 and 1045-1055 *)
Definition over (l : list nat) (f : nat -> R) : R := fold_left (fun s i => s + f i) l 0.
(** 991-1003 *)
Definition g2_markov (tran : table3) : R :=
  2 * over [0; 1]%nat (fun i1 => over [0; 1]%nat (fun i2 => over [0; 1]%nat (fun i3 =>
    if Nat.eqb (tran i1 i2 i3) 0 then 0 else
    let fitted := INR ((tran i1 i2 0 + tran i1 i2 1) * (tran 0 i2 i3 + tran 1 i2 i3))%nat / INR (tran 0 i2 0 + tran 0 i2 1 + tran 1 i2 0 + tran 1 i2 1)%nat in
    ln (INR (tran i1 i2 i3) / fitted) * INR (tran i1 i2 i3)))).
(** 1044-1056; the return of 1052-1054 is the value None *)
Definition g2_indep (rows : nat) (tran2 : table2) : option R :=
  let fitted i1 i2 := INR ((tran2 i1 0 + tran2 i1 1) * (tran2 0 i2 + tran2 1 i2))%nat / INR (rows - 1) in
  if existsb (fun p => negb (Nat.eqb (tran2 (fst p) (snd p)) 0) && (if Rle_dec (fitted (fst p) (snd p)) 0 then true else if Rle_dec (INR (tran2 (fst p) (snd p))) 0 then true else false))%bool [(0, 0); (0, 1); (1, 0); (1, 1)]%nat then None else
  Some (2 * over [0; 1]%nat (fun i1 => over [0; 1]%nat (fun i2 => if Nat.eqb (tran2 i1 i2) 0 then 0 else ln (INR (tran2 i1 i2) / fitted i1 i2) * INR (tran2 i1 i2)))).

(** One chain: [xs j] are the samples of parameter j, [ws] the weights. *)
Section Chain.
Variable ws : list nat.
Variable xs : nat -> list R.
(** 977-982: the rows that are kept, and the binary chain *)
Definition thinned (f : nat) : res (list nat) := thin_indices_single_samples (inject_Z (Z.of_nat f)) (map (fun n => inject_Z (Z.of_nat n)) ws).
Definition binary (j : nat) (u : R) (ix : list nat) : list nat := binchain u (map (fun i => nth i (xs j) 0) ix).
(** the names that outlive a loop: tran is unbound before its first assignment *)
Record st := mkSt { thin : nat; rows : nat; tran : option table3; nburn : nat; hardest : option nat; hardestend : bool }.
Inductive stop := Failed | Caught (e : exn) | Return.
(** 976-1007: None is a loop that has not ended *)
Fixpoint markov_loop (fuel : nat) (j : nat) (u : R) (s : st) : option (st + stop) :=
  match fuel with
  | O => None
  | S fuel' =>
    match thinned (thin s) with
    | Err e => Some (inr (Caught e))
    | Ok ix =>
      let s1 := mkSt (thin s) (length ix) (tran s) (nburn s) (hardest s) (hardestend s) in
      if Nat.ltb (length ix) 2 then Some (inl s1) else                                                       (* 979-980 *)
      let t := bincount3 (binary j u ix) in
      let s2 := mkSt (thin s) (length ix) (Some t) (nburn s) (hardest s) (hardestend s) in
      if Nat.eqb (length ix) 2 then Some (inr (Caught ValueError)) else                                      (* math.log(0) *)
      if Rlt_dec (g2_markov t - ln (INR (length ix - 2)) * 2) 0 then Some (inl s2)                           (* 1005-1006 *)
      else markov_loop fuel' j u (mkSt (S (thin s)) (length ix) (Some t) (nburn s) (hardest s) (hardestend s))  (* 1007 *)
    end
  end.
(** np.sum(tran[:, a, b]), 1010-1015 *)
Definition sum01 (t : table3) (a b : nat) : nat := (t 0 a b + t 1 a b)%nat.
(** int(x) of a number that is not negative *)
Definition floorN (x : R) : nat := Z.to_nat (up x - 1).
(** 1016-1017: the number of steps, or the error of math.log(0) or of dividing by zero *)
Definition burn_steps (eps alpha beta : R) : exn + R :=
  let probsum := alpha + beta in
  if Req_EM_T probsum 1 then inl ValueError else
  if Req_EM_T (ln (Rabs (1 - probsum))) 0 then inl (OtherError (L "ZeroDivisionError")) else
  inr (ln (probsum * eps / Rmax alpha beta) / ln (Rabs (1 - probsum))).
(** 1014-1015 *)
Definition alpha_of (t : table3) : R := INR (sum01 t 0 1) / INR (sum01 t 0 0 + sum01 t 0 1).
Definition beta_of (t : table3) : R := INR (sum01 t 1 0) / INR (sum01 t 1 0 + sum01 t 1 1).
(** 1010-1021 *)
Definition burn (j : nat) (endb : bool) (s : st) : st + stop :=
  match tran s with
  | None => inr (Caught (OtherError (L "NameError")))
  | Some t =>
    if (Nat.eqb (sum01 t 0 1) 0 || Nat.eqb (sum01 t 1 0) 0)%bool then inr Failed else
    match burn_steps (/ 1000) (alpha_of t) (beta_of t) with
    | inl e => inr (Caught e)
    | inr tmp1 =>
      let m := (floorN (tmp1 + 1) * thin s)%nat in
      if Nat.ltb (nburn s) m then inl (mkSt (thin s) (rows s) (tran s) m (Some j) endb) else inl s
    end
  end.
(** 971-1021: for all parameters and both limits; false is the first of them *)
Variable conf : nat -> bool -> R.
Definition one (fuel j : nat) (endb : bool) (s : st) : option (st + stop) :=
  match markov_loop fuel j (conf j endb) s with Some (inl s1) => Some (burn j endb s1) | r => r end.
Fixpoint params (fuel : nat) (js : list (nat * bool)) (s : st) : option (st + stop) :=
  match js with
  | [] => Some (inl s)
  | (j, endb) :: js' => match one fuel j endb s with Some (inl s1) => params fuel js' s1 | r => r end
  end.
Definition both (n : nat) : list (nat * bool) := flat_map (fun j => [(j, false); (j, true)]) (seq 0 n).
(** 1029-1061: thinning factor and number of rows at the end *)
Fixpoint indep_loop (fuel : nat) (j : nat) (u : R) (f : nat) : option ((nat * nat) + stop) :=
  match fuel with
  | O => None
  | S fuel' =>
    match thinned f with
    | Err e => Some (inr (Caught e))
    | Ok ix =>
      if Nat.ltb (length ix) 2 then Some (inl (f, length ix)) else
      match g2_indep (length ix) (bincount2 (binary j u ix)) with
      | None => Some (inr Return)
      | Some g2 => if Rlt_dec (g2 - ln (INR (length ix - 1))) 0 then Some (inl (f, length ix)) else indep_loop fuel' j u (S f)
      end
    end
  end.
(** 969 *)
Definition maxw : nat := list_max ws.
(** 969-1067 for one chain of n parameters: what is stored in thin_fac, markov_thin and nburn; [conf2] are the limits of all chains, [old] what earlier chains have left.
    None is a loop that has not ended, Some None the return of 1054.
    The burn-in of a chain that fails is not kept. *)
Variable conf2 : nat -> bool -> R.
Record report := mkRep { r_thin : nat; r_markov : nat; r_burn : nat }.
Definition raftery (fuel n : nat) (old : st) : option (option report) :=
  match params fuel (both n) (mkSt maxw (rows old) (tran old) 0 (hardest old) (hardestend old)) with
  | None => None
  | Some (inr _) => Some (Some (mkRep 0 0 0))                                                                (* 1011-1012, 1062-1065 *)
  | Some (inl s) =>
    let h := match hardest s with Some j => j | None => 0%nat end in                                         (* 1026 *)
    match indep_loop fuel h (conf2 h (hardestend s)) (thin s) with
    | None => None
    | Some (inr Return) => Some None
    | Some (inr _) => Some (Some (mkRep 0 (thin s) (nburn s)))
    | Some (inl (f, r)) => Some (Some (mkRep (if Nat.ltb r 2 then 0 else f) (thin s) (nburn s)))             (* 1066-1067 *)
    end
  end.
End Chain.
