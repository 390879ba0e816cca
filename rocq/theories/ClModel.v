(** Which C_l are computed and how they are taken from CAMB: source/CosmologyTypes.f90 250-306 (Initialize_CMBSettings) and
    source/Calculator_CAMB.f90 368-460 (SetPowersFromCAMB).  Real numbers are exact, integers have no bounds; arrays of CAMB are
    functions of a column and L, arrays of C_l functions of L.  Not modelled: printing, and the ratios of tensors to scalars (462-472). *)
From Coq Require Import Reals ZArith Bool List Lia Lra.
Import ListNotations.
Local Open Scope Z_scope.

(** Lines 89-97: cl_lmax of a likelihood with its two sizes, None if it is not allocated; the likelihood is of type CMB.
    Indices count from 1. *)
Record req := mkReq { d1 : nat; d2 : nat; ask : nat -> nat -> Z }.
Record lk := mkLk { lmx : option req; is_CMB : bool }.
Definition any_pos (r : req) : bool := existsb (fun i => existsb (fun j => 0 <? ask r i j) (seq 1 (d2 r))) (seq 1 (d1 r)).
(** 258-282, the first parse *)
Definition numcls1 (ls : list lk) : nat :=
  fold_left (fun n l => match lmx l with Some r => if any_pos r then Nat.max n (d2 r) else n | None => n end) ls O.
(** 270-278: one likelihood in the second parse; None for MpiStop.  The stop of 280 is already in the first parse, and comes before it there. *)
Definition upper (r : req) : bool := existsb (fun a => existsb (fun j => 0 <? ask r a j) (seq (a + 1) (d2 r - a))) (seq 1 (d2 r)).
Definition parse2 (m : nat -> nat -> Z) (l : lk) : option (nat -> nat -> Z) :=
  match lmx l with
  | Some r => if any_pos r then
                if negb (Nat.eqb (d2 r) (d1 r)) || upper r then None
                else Some (fun a b => if (Nat.leb 1 b) && (Nat.leb b a) && (Nat.leb a (d2 r)) then Z.max (m a b) (ask r a b) else m a b)
              else Some m
  | None => if is_CMB l then None else Some m
  end.
Fixpoint parse (m : nat -> nat -> Z) (ls : list lk) : option (nat -> nat -> Z) :=
  match ls with [] => Some m | l :: ls' => match parse2 m l with Some m' => parse m' ls' | None => None end end.
(** 284-294 *)
Definition stored (store : Z) (nonlin : bool) : nat -> nat -> Z := fun a b =>
  if 0 <? store then
    match a, b with
    | 1%nat, 1%nat => store
    | 2%nat, 1%nat => store
    | 2%nat, 2%nat => store
    | 3%nat, 3%nat => if nonlin then store else 0
    | 4%nat, 4%nat => if nonlin then store else 0
    | _, _ => 0
    end
  else 0.
Record cset := mkCs { num : nat; lm : nat -> nat -> Z; use_CMB : bool; use_phi : bool; lmax : Z; lcomp : Z }.
(** maxval over the array; [least] for an array without elements *)
Definition maxval (least : Z) (n : nat) (m : nat -> nat -> Z) : Z :=
  match concat (map (fun i => map (m i) (seq 1 n)) (seq 1 n)) with [] => least | x :: l => fold_left Z.max l x end.
(** 250-306; [store], [lmin] and [lmaxc] are lmin_store_all_cmb, lmin_computed_cl and lmax_computed_cl *)
Definition Initialize_CMBSettings (least store lmin lmaxc : Z) (nonlin : bool) (ls : list lk) : option cset :=
  let n := numcls1 ls in
  let n := if 0 <? store then Nat.max n (if nonlin then 4%nat else 2%nat) else n in
  match parse (stored store nonlin) ls with
  | None => None
  | Some m =>
      let m := fun a b => if 0 <? m a b then Z.max (m a b) lmin else m a b in
      let top := maxval least n m in
      Some (mkCs n m (negb (Nat.eqb n 0)) ((Nat.ltb 3 n) && existsb (fun j => negb (m 4%nat j =? 0)) (seq 1 n)) top (Z.min top lmaxc))
  end.

Local Open Scope R_scope.
(** columns of CAMB's arrays *)
Inductive col := Temp | E | B | Cross | Phi | PhiTemp.
Record state := mkState { lensed : col -> Z -> R; scalar : col -> Z -> R; tensor : col -> Z -> R }.
(** 386-393 *)
Definition indS (i j : nat) : option col := match i, j with 1%nat, 1%nat => Some Temp | 2%nat, 2%nat => Some E | 2%nat, 1%nat => Some Cross | _, _ => None end.
Definition indT (i j : nat) : option col := match i, j with 3%nat, 3%nat => Some B | _, _ => indS i j end.
(** an assignment to CL(a:b) *)
Definition over (a b : Z) (f old : Z -> R) : Z -> R := fun L => if (a <=? L)%Z && (L <=? b)%Z then f L else old L.
Section Powers.
  Variable s : cset.
  Variables lensing tens : bool.        (* CMB_lensing, compute_tensors *)
  Variable ltens : Z.                   (* lmax_tensor *)
  Variable cons : R.                    (* square of the temperature in microkelvin *)
  Variable tmpl : col -> Z -> R.        (* highL_lensedCL_template *)
  (** 398-428: one spectrum; the first result is highL_norm *)
  Definition one (st : state) (norm : R) (i j : nat) (old : Z -> R) : R * (Z -> R) :=
    let lmaxCL := lm s i j in
    let lx := Z.min (lcomp s) lmaxCL in
    if (lx =? 0)%Z then (norm, old) else
    match indT i j with
    | None => (norm, fun _ => 0)
    | Some c =>
        let cl := if lensing then over 2 lx (fun L => cons * lensed st c L) old
                  else match indS i j with Some d => over 2 lx (fun L => cons * scalar st d L) old | None => fun _ => 0 end in
        let '(norm, cl) := if (lcomp s <? lmaxCL)%Z
                           then let n := if Req_EM_T norm 0 then cl lx / tmpl c lx else norm in
                                (n, over (lx + 1) lmaxCL (fun L => n * tmpl c L) cl)
                           else (norm, cl) in
        (norm, if tens then over 2 (Z.min lx ltens) (fun L => cl L + cons * tensor st c L) cl else cl)
    end.
  Definition theory := nat -> nat -> Z -> R.
  Definition set_cl (t : theory) (i j : nat) (c : Z -> R) : theory := fun a b => if Nat.eqb a i && Nat.eqb b j then c else t a b.
  (** do i=1,n; do j=i,1,-1 *)
  Definition pairs (n : nat) : list (nat * nat) := concat (map (fun i => map (fun j => (i, j)) (rev (seq 1 i))) (seq 1 n)).
  Definition fields (st : state) (norm : R) (t : theory) : R * theory :=
    fold_left (fun a q => let '(n, t) := a in let '(n, c) := one st n (fst q) (snd q) (t (fst q) (snd q)) in (n, set_cl t (fst q) (snd q) c))
              (pairs (Nat.min 3 (num s))) (norm, t).
  (** 431-452: the lensing potential; None for MpiStop *)
  Definition potential (st : state) (scale : R) (t : theory) : option theory :=
    if use_phi s then
      let lx := Z.min (lcomp s) (lm s 4 4) in
      let t1 := if (lx =? 0)%Z then Some t else
                if lensing then
                  Some (set_cl t 4 4 (over (lx + 1) (lm s 4 4) (fun _ => 0)
                         (over 2 lx (fun L => scalar st Phi L * ((IZR L + 1) ^ 2 / IZR L ^ 2) / (2 * PI) * scale) (t 4%nat 4%nat))))
                else None in
      match t1 with
      | None => None
      | Some t1 =>
          let lx := Z.min (lcomp s) (lm s 4 1) in
          Some (if (2 <=? lx)%Z then set_cl t1 4 1 (fun _ => scalar st PhiTemp lx / IZR lx ^ 3 * sqrt scale) else t1)
      end
    else Some t.
  (** 455-463 with CAMBP%max_l = lmax_computed_cl + 150 (InitCAMBParams 836-840) *)
  Definition Lrange (a b : Z) : list Z := map (fun k => (a + Z.of_nat k)%Z) (seq 0 (Z.to_nat (b - a + 1))).
  Definition rms_deflect (st : state) : R :=
    if lensing && (2000 <=? lcomp s + 150)%Z then
      sqrt (fold_left (fun a L => a + scalar st Phi L * ((IZR L + 1) ^ 2 / IZR L ^ 2) / (2 * PI) * (IZR L + 1/2) / (IZR L * (IZR L + 1))) (Lrange 2 2000) 0) * 180 / PI * 60
    else 0.
  (** 368-463: highL_norm has an initial value in its declaration (378), so that it is kept from one call to the next *)
  Definition SetPowers (st : state) (scale : R) (norm : R) (t : theory) : option (R * theory) :=
    let '(norm, t) := fields st norm t in option_map (fun t => (norm, t)) (potential st scale t).
  (** one point after another, each with its own theory *)
  Fixpoint points (norm : R) (l : list (state * R * theory)) : list (option theory) :=
    match l with
    | [] => []
    | (st, sc, t) :: l' => match SetPowers st sc norm t with Some (n, t') => Some t' :: points n l' | None => None :: points norm l' end
    end.
End Powers.
