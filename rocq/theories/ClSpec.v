(** What is asked of the C_l: by a likelihood, or for storing them *)
From Coq Require Import Reals ZArith Bool List.
From Verif Require Import ClModel.
Import ListNotations.
Local Open Scope Z_scope.

(** a likelihood asks for the spectrum of the fields i and j up to v *)
Definition asks (ls : list lk) (i j : nat) (v : Z) : Prop :=
  exists l r, In l ls /\ lmx l = Some r /\ (1 <= i <= d1 r)%nat /\ (1 <= j <= d2 r)%nat /\ ask r i j = v /\ 0 < v.
(** spectra to be stored: TT, TE, EE, and BB and the potential with non-linear lensing *)
Definition kept (nonlin : bool) (i j : nat) : Prop :=
  In (i, j) [(1, 1); (2, 1); (2, 2)]%nat \/ nonlin = true /\ In (i, j) [(3, 3); (4, 4)]%nat.
(** a likelihood whose requests cannot be used *)
Definition bad (l : lk) : Prop :=
  match lmx l with
  | None => is_CMB l = true
  | Some r => exists i j, (1 <= i <= d1 r)%nat /\ (1 <= j <= d2 r)%nat /\ 0 < ask r i j /\ (d1 r <> d2 r \/ exists a b, (1 <= a < b)%nat /\ (b <= d2 r)%nat /\ 0 < ask r a b)
  end.

Local Open Scope R_scope.
(** the power of CAMB at multipole L in squared microkelvin: lensed, or scalar; without lensing there is no B *)
Definition cmb_power (lensing : bool) (cons : R) (st : state) (c : col) (L : Z) : R :=
  cons * (if lensing then lensed st c L else match c with B => 0 | _ => scalar st c L end).
(** gravitational waves up to their own limit *)
Definition waves (tens : bool) (ltens : Z) (cons : R) (st : state) (c : col) (L : Z) : R :=
  if tens && (L <=? ltens)%Z then cons * tensor st c L else 0.
Definition sum_from {A} (f : A -> R) (l : list A) : R := fold_right (fun x a => f x + a) 0 l.
