(** Orders, sorted lists and quantiles. *)
From Coq Require Import Reals List ZArith.
Import ListNotations.

(** a comparison: antisymmetric in its signs and transitive *)
Definition ordering {A} (cmp : A -> A -> Z) : Prop :=
  (forall a b, cmp a b < 0 <-> 0 < cmp b a)%Z /\ (forall a b c, cmp a b <= 0 -> cmp b c <= 0 -> cmp a c <= 0)%Z.
(** every item is not above the later ones *)
Fixpoint in_order {A} (cmp : A -> A -> Z) (l : list A) : Prop :=
  match l with [] => True | x :: r => (forall y, In y r -> (cmp x y <= 0)%Z) /\ in_order cmp r end.
(** every item is below the later ones *)
Fixpoint increasing {A} (cmp : A -> A -> Z) (l : list A) : Prop :=
  match l with [] => True | x :: r => (forall y, In y r -> (cmp x y < 0)%Z) /\ increasing cmp r end.

(** numbers of values below x and up to x *)
Definition n_below (xs : list R) (x : R) : nat := length (filter (fun v => if Rlt_dec v x then true else false) xs).
Definition n_upto (xs : list R) (x : R) : nat := length (filter (fun v => if Rle_dec v x then true else false) xs).
(** linear interpolation between the values of a list at whole numbers *)
Definition interp (s : list R) (t : R) : R :=
  (let k := Z.to_nat (Int_part t) in nth k s 0 * (1 - (t - INR k)) + (t - INR k) * nth (k + 1) s 0)%R.
