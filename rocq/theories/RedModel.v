(** Redshifts at which power spectra are computed: source/CosmologyTypes.f90 308-435 (Initialize_PKSettings and InitForSettings).
    Real numbers are exact.  Of a likelihood only the settings that are used here are kept. *)
From Coq Require Import Reals List Bool ZArith Arith.
From Verif Require Import PyBase SortModel.
Import ListNotations.
Local Open Scope R_scope.

(** Lines 86-106 *)
Record lk := mkLk {
  needs_ps : bool;                (* needs_powerspectra *)
  needs_exact : bool;             (* needs_exact_z *)
  exact_z : list R;
  num_z : nat;
  max_z : R;
  needs_sigmaR : bool }.

(** nint and ceiling *)
Definition nint (x : R) : Z := if Rlt_dec x 0 then (- Int_part (- x + 1/2))%Z else Int_part (x + 1/2).
Definition ceiling (x : R) : Z := (- Int_part (- x))%Z.
Definition gt0 (x : R) : bool := if Rlt_dec 0 x then true else false.

(** maxz, dlnz, exact_z and use_LSS *)
Record acc := mkAcc { maxz : R; dlnz : R; exacts : list R; use_LSS : bool }.
(** 321-358, one likelihood; None for Mpistop *)
Definition gather1 (a : acc) (l : lk) : option acc :=
  if needs_ps l then
    if needs_exact l || (0 <? num_z l)%nat || needs_sigmaR l then
      if needs_exact l then Some (mkAcc (maxz a) (dlnz a) (exacts a ++ exact_z l) true)
      else
        let m := Rmax (maxz a) (max_z l) in
        if (2 <? num_z l)%nat && gt0 m then Some (mkAcc m (Rmin (dlnz a) (ln (max_z l + 1) / (INR (num_z l) - 1))) (exacts a) true)
        else if (num_z l <? 2)%nat && gt0 m then None
        else if (1 <? num_z l)%nat && (if Req_EM_T m 0 then true else false) then None
        else Some (mkAcc m (dlnz a) (exacts a) true)
    else Some a
  else Some a.
Fixpoint gather (a : acc) (ls : list lk) : option acc :=
  match ls with [] => Some a | l :: ls' => match gather1 a l with Some a' => gather a' ls' | None => None end end.

(** 367-376: full_z and the step; [start] is full_z before exact values are added *)
Definition steps (a : acc) : Z := ceiling (ln (maxz a + 1) / dlnz a).
Definition step_of (a : acc) : R := if gt0 (maxz a) then ln (maxz a + 1) / IZR (steps a) else dlnz a.
Definition start (a : acc) : list R :=
  0 :: (if gt0 (maxz a) then map (fun i => exp (step_of a * INR i) - 1) (seq 1 (Z.to_nat (steps a) - 1)) ++ [maxz a] else []).
(** 386-398: one exact value; positions count from 1; 393 Add, 395-396 Swap and DeleteItem *)
Definition insert (h : R) (num_range : nat) (st : list R * nat) (z : R) : list R * nat :=
  let '(full, izprev) := st in
  if Req_EM_T z 0 then st else
  let iz := (Z.to_nat (nint (ln (z + 1) / h)) + 1)%nat in
  let iz := if (iz <=? izprev)%nat then (izprev + 1)%nat else iz in
  let added := full ++ [z] in
  (if (iz <=? num_range)%nat then
     match Swap added iz (length added) with Ok b => DeleteItem b (length b) | Err _ => added end
   else added, iz).
(** 379-409 *)
Definition redshifts (a : acc) : option (list R) :=
  match Sort CompareReal (exacts a) with
  | Err _ => None
  | Ok s =>
      let full := fst (fold_left (insert (step_of a) (length (start a))) (RemoveDuplicates CompareReal s) (start a, 1%nat)) in
      let full := if Rlt_dec (last full 0) (maxz a) then full ++ [maxz a] else full in
      Some (if (length full <? 2)%nat then full ++ [0.1] else full)
  end.
(** 308-412: [lss] is get_sigma8; None for a stop, Some None when no spectra are needed *)
Definition Initialize_PKSettings (lss : bool) (z_outputs : list R) (ls : list lk) : option (option (list R)) :=
  match gather (mkAcc 0 30 [] (lss && negb (length z_outputs =? 0)%nat)) ls with
  | None => None
  | Some a => if use_LSS a then
                match redshifts (mkAcc (maxz a) (dlnz a) (exacts a ++ z_outputs) true) with Some zs => Some (Some zs) | None => None end
              else Some None
  end.
(** 423-433: the first redshift within 1e-4, counted from 1; None for MpiStop *)
Fixpoint z_index (zs : list R) (z : R) : option nat :=
  match zs with
  | [] => None
  | y :: zs' => if Rlt_dec 1e-4 (Rabs (z - y)) then option_map S (z_index zs' z) else Some 1%nat
  end.
