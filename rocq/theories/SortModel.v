(** Lists of the sampler: source/ObjectLists.f90 (Add, DeleteItem, DeleteRange, Thin, QuickSort, Sort, RemoveDuplicates) and
    source/samples.f90 (TSampleList_ConfidVal).
    A list is the Count valid items; positions are counted from 1 as in the source.  Accesses outside 1..Count are errors here
    (the source checks them only in ArrayItem; Items itself is longer, up to Capacity).  Items are values: the source moves
    pointers, so that the pivot P stays the same item when items are swapped, as a value does.  Objects beside the items
    (%Object) are moved with them and are not modelled. *)
From Verif Require Import PyBase.
From Coq Require Import Reals List Bool ZArith Arith Lia.
Import ListNotations.
Local Open Scope list_scope.
Local Open Scope nat_scope.

Section Lists.
  Context {A : Type}.
  (** Items(i), with CheckIndex: ObjectLists.f90 355-361 *)
  Definition get (a : list A) (i : nat) : res A :=
    match i with O => Err IndexError | S k => match nth_error a k with Some x => Ok x | None => Err IndexError end end.
  (** Items(i) = x, for a valid i *)
  Fixpoint put (a : list A) (i : nat) (x : A) : list A :=
    match a, i with
    | y :: r, 1 => x :: r
    | y :: r, S k => y :: put r k x
    | _, _ => a
    end.
  (** Swap: ObjectLists.f90 532-541 *)
  Definition Swap (a : list A) (i j : nat) : res (list A) :=
    bindR (get a i) (fun x => bindR (get a j) (fun y => Ok (put (put a i y) j x))).

  (** Compare gives a negative, zero or positive number. *)
  Variable cmp : A -> A -> Z.

  (** the two scans of QuickSort, ObjectLists.f90 600-606 (556-562 in QuickSortArr, where the items compared are entries of
      arrays) *)
  Fixpoint scan_up (fuel : nat) (a : list A) (p : A) (i : nat) : res nat :=
    match fuel with
    | 0 => Err RecursionError
    | S f => bindR (get a i) (fun x => if (cmp x p <? 0)%Z then scan_up f a p (i + 1) else Ok i)
    end.
  Fixpoint scan_down (fuel : nat) (a : list A) (p : A) (j : nat) : res nat :=
    match fuel with
    | 0 => Err RecursionError
    | S f => bindR (get a j) (fun x => if (0 <? cmp x p)%Z then scan_down f a p (j - 1) else Ok j)
    end.
  (** the inner loop, ObjectLists.f90 599-614: ends with I > J *)
  Fixpoint partition (fuel : nat) (a : list A) (p : A) (i j : nat) : res (list A * nat * nat) :=
    match fuel with
    | 0 => Err RecursionError
    | S f =>
      bindR (scan_up (S (length a)) a p i) (fun i =>
      bindR (scan_down (S (length a)) a p j) (fun j =>
        if i <=? j then
          bindR (Swap a i j) (fun a =>
            if j - 1 <? i + 1 then Ok (a, i + 1, j - 1) else partition f a p (i + 1) (j - 1))
        else Ok (a, i, j)))
    end.
  (** QuickSort, ObjectLists.f90 588-620 (QuickSortArr 543-577): the outer loop goes on with L = I *)
  Fixpoint QuickSort (fuel : nat) (a : list A) (L R : nat) : res (list A) :=
    match fuel with
    | 0 => Err RecursionError
    | S f =>
      bindR (get a ((L + R) / 2)) (fun p =>
      bindR (partition (S (length a)) a p L R) (fun '(a, i, j) =>
      bindR (if L <? j then QuickSort f a L j else Ok a) (fun a =>
        if R <=? i then Ok a else QuickSort f a i R)))
    end.
  (** Sort, SortArr: ObjectLists.f90 622-627, 579-585 *)
  Definition Sort (a : list A) : res (list A) := if 1 <? length a then QuickSort (length a) a 1 (length a) else Ok a.

  (** DeleteItem: ObjectLists.f90 289-299 *)
  Definition DeleteItem (a : list A) (i : nat) : list A := firstn (i - 1) a ++ skipn i a.
  (** DeleteRange: ObjectLists.f90 301-317; the result for 1 <= i1 <= i2+1 <= Count+1.  The items i2+1..Count are moved to i1
      and the Count reduced. *)
  Definition DeleteRange (a : list A) (i1 i2 : nat) : list A :=
    let moved := if i2 <? length a then firstn (i1 - 1) a ++ skipn i2 a else a in
    firstn (length a - (i2 + 1 - i1)) moved.
  (** the slice Items(1:Count:i) *)
  Definition slice (a : list A) (i : nat) : list A :=
    flat_map (fun k => match nth_error a (k * i) with Some x => [x] | None => [] end) (seq 0 ((length a - 1) / i + 1)).
  (** Thin: ObjectLists.f90 508-530: the items kept and the items freed *)
  Definition Thin (a : list A) (i : nat) : list A * list A :=
    if 1 <? length a then
      (slice a i, map snd (filter (fun jx => negb ((fst jx - 1) mod i =? 0)) (combine (seq 1 (length a)) a)))
    else (a, []).
  (** RemoveDuplicates: ObjectLists.f90 638-646: i from Count-1 down to 1 *)
  Definition dup_step (a : list A) (i : nat) : list A :=
    match get a (i + 1), get a i with
    | Ok y, Ok x => if (cmp y x =? 0)%Z then DeleteItem a (i + 1) else a
    | _, _ => a
    end.
  Definition RemoveDuplicates (a : list A) : list A := fold_left dup_step (rev (seq 1 (length a - 1))) a.
End Lists.

(** CompareReal: ObjectLists.f90 709-732, for real numbers *)
Local Open Scope R_scope.
Definition CompareReal (x y : R) : Z := if Rlt_dec (x - y) 0 then (-1)%Z else if Rlt_dec 0 (x - y) then 1%Z else 0%Z.

(** int(x) for x >= 0 *)
Definition int_of (x : R) : nat := Z.to_nat (Int_part x).
(** TSampleList_ConfidVal: samples.f90 70-111, for the samples between ix1 and ix2 as a list of their ix-th entries (at least
    one); lim_at is the part common to Lower (frac = limfrac) and Upper (frac = 1 - limfrac). *)
Definition lim_at (sorted : list R) (frac : R) : res R :=
  let samps := length sorted in
  let pos := (INR samps - 1) * frac + 1 in
  let b := Nat.max (int_of pos) 1 in
  bindR (get sorted b) (fun v =>
    if (b <? samps)%nat && (if Rlt_dec (INR b) pos then true else false) then
      bindR (get sorted (b + 1)) (fun w => Ok (v * (1 - (pos - INR b)) + (pos - INR b) * w))
    else Ok v).
Definition ConfidVal (xs : list R) (limfrac : R) : res (R * R) :=
  bindR (Sort CompareReal xs) (fun s =>
  bindR (lim_at s limfrac) (fun lo => bindR (lim_at s (1 - limfrac)) (fun up => Ok (lo, up)))).
