(** Numbering of pairs, names of pairs, rows of files, and spectra in windows *)
From Coq Require Import Reals ZArith Ascii Bool List.
From Verif Require Import PyStr BaoModel BaoSpec MapModel.
Import ListNotations.
Local Open Scope R_scope.

(** the number of the pair i, j <= i in a triangle by rows *)
Definition triangle (i j : nat) : nat := (i * (i - 1) / 2 + j)%nat.
(** the k-th item, from 1 *)
Definition at1 {A} (l : list A) (k : nat) (x : A) : Prop := (1 <= k)%nat /\ nth_error l (k - 1) = Some x.
(** names that can be parts of names of pairs *)
Definition clean (s : str) : Prop := s <> [] /\ ~ In "x"%char s.
(** [s] is a name of the pair of two names, in one order or the other *)
Definition names_pair (isnamed : bool) (a b s : str) : Prop := s = pair_name isnamed a b \/ s = pair_name isnamed b a.
(** how many maps are used among the first i *)
Definition used_among (use : list bool) (i : nat) : nat := length (filter (fun b => b) (firstn i use)).
(** the last row of a file for l *)
Definition last_for (rows : list (Z * list R)) (l : Z) (vals : list R) : Prop := exists r1 r2, rows = r1 ++ (l, vals) :: r2 /\ ~ In l (map fst r2).
(** the spectrum that a window is for: fixed, of the theory, or 0 *)
Definition spec_of (w : windows) (theory : nat -> nat -> spectrum) (p : nat * nat) (l : Z) : R :=
  match match fixCls w with Some F => F (fst p) (snd p) | None => None end with
  | Some C => C l
  | None => match theory (fst p) (snd p) with Some C => C l | None => 0 end
  end.
(** sum over multipoles from lo to hi *)
Definition over_l (lo hi : Z) (f : Z -> R) : R := fold_right (fun k t => f (lo + Z.of_nat k)%Z + t) 0 (seq 0 (Z.to_nat (hi - lo + 1))).
(** sum over the windows of the spectra that go to the column [o] *)
Definition windows_to (w : windows) (theory : nat -> nat -> spectrum) (bin : Z) (o : nat) : R :=
  fold_right (fun q t => (if Nat.eqb (snd (snd q)) o then over_l (wlo w) (whi w) (fun l => W w l (fst q) bin * spec_of w theory (fst (snd q)) l) else 0) + t) 0
    (combine (seq 1 (length (cols_in w))) (combine (cols_in w) (cols_out w))).
(** the maps of all windows that are used are there *)
Definition there (w : windows) (nreq : nat) : Prop :=
  Forall (fun q => snd q <> O -> (1 <= fst (fst q) <= nreq)%nat /\ (1 <= snd (fst q) <= nreq)%nat) (combine (cols_in w) (cols_out w)).
