(** source/BaseParameters.f90 169-183, 184-203 and source/calclike.f90 111-134: Gaussian priors of parameters and of linear combinations of them.  Numbers are real; arrays are functions of indices from 0 and n is num_params.
    A setting is its list of numbers (list-directed reading of the text is not modelled; means without a setting are undefined in the code, and 0 here), None if it is empty; the parameters of a combination are indices.  None as a result: the program stops. *)
From Coq Require Import Reals Arith.
From Coq Require Import List.
Import ListNotations.
Local Open Scope R_scope.

Definition upd (c : nat -> R) (i : nat) (v : R) : nat -> R := fun j => if Nat.eqb j i then v else c j.
(** BaseParameters.f90 173-182: [vary] tells for which parameters a prior is read *)
Fixpoint read_gauss (is : list nat) (vary : nat -> bool) (incl : bool) (line : nat -> option (list R)) (mean std : nat -> R) : option ((nat -> R) * (nat -> R)) :=
  match is with
  | [] => Some (mean, std)
  | i :: is' => if (vary i || incl)%bool then
                  match line i with
                  | None => read_gauss is' vary incl line mean std
                  | Some (m :: s :: _) => read_gauss is' vary incl line (upd mean i m) (upd std i s)
                  | Some _ => None
                  end
                else read_gauss is' vary incl line mean std
  end.
(** BaseParameters.f90 19-24 *)
Record comb := mkComb { cmean : R; cstd : R; cw : nat -> R }.
(** 193: list-directed reading into Comb%Combination(params(:num_lin)) *)
Fixpoint assign (idx : list nat) (vs : list R) (c : nat -> R) : option (nat -> R) :=
  match idx, vs with [], _ => Some c | i :: idx', v :: vs' => assign idx' vs' (upd c i v) | _ :: _, [] => None end.
(** 187-200 *)
Definition read_comb (idx : list nat) (weights : list R) (prior : option (list R)) : option comb :=
  match assign idx weights (fun _ => 0) with
  | None => None
  | Some w => match prior with None => Some (mkComb 0 0 w) | Some (m :: s :: _) => Some (mkComb m s w) | Some _ => None end
  end.
Definition dot (n : nat) (a b : nat -> R) : R := fold_left (fun acc i => acc + a i * b i) (seq 0 n) 0.
(** calclike.f90 111-134 *)
Definition log_priors (n : nat) (vary : nat -> bool) (incl : bool) (mean std : nat -> R) (combs : list comb) (P : nat -> R) : R :=
  let l1 := fold_left (fun acc i => if ((vary i || incl) && (if Req_EM_T (std i) 0 then false else true))%bool then acc + ((P i - mean i) / std i) ^ 2 else acc) (seq 0 n) 0 in
  let l2 := fold_left (fun acc c => if Req_EM_T (cstd c) 0 then acc else acc + ((dot n (cw c) P - cmean c) / cstd c) ^ 2) combs l1 in
  l2 / 2.
