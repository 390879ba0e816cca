(** Model of getdist/covmat.py.  A numpy matrix is a function of the two indices; only indices below
    the size matter (simplification: no out-of-range errors). *)
From Verif Require Export PyBase.
From Coq Require Import QArith Reals.
Local Open Scope nat_scope.

Definition mat A := nat -> nat -> A.

(** covmat.py:12-25 *)
Record covmat A := mkC { cmat : mat A; cnames : list str; csize : nat }.
Arguments mkC {A} _ _ _.
Arguments cmat {A} _.
Arguments cnames {A} _.
Arguments csize {A} _.

(** self.paramNames.index(name) *)
Fixpoint index_from (i : nat) (l : list str) (x : str) : option nat :=
  match l with [] => None | y :: l' => if str_eqb x y then Some i else index_from (S i) l' x end.
Definition index_of (l : list str) (x : str) : option nat := index_from 0 l x.

(** m[:, i] = m[:, i] * s and m[i, :] = m[i, :] * s *)
Definition scale_col {A} (mul : A -> A -> A) (i : nat) (s : A) (m : mat A) : mat A :=
  fun a b => if b =? i then mul (m a b) s else m a b.
Definition scale_row {A} (mul : A -> A -> A) (i : nat) (s : A) (m : mat A) : mat A :=
  fun a b => if a =? i then mul (m a b) s else m a b.

(** covmat.py:51-63 rescaleParameter (exact rationals) *)
Definition rescaleParameter (c : covmat Q) (name : str) (scale : Q) : covmat Q :=
  match index_of (cnames c) name with
  | Some i => mkC (scale_row Qmult i scale (scale_col Qmult i scale (cmat c))) (cnames c) (csize c)
  | None => c
  end.

(** covmat.py:70-74: names of the merged matrix *)
Definition merged_names (p1 p2 : list str) : list str :=
  fold_left (fun acc p => if mem_str p acc then acc else acc ++ [p]) p2 p1.
(** dict(zip(params, range(n))): a repeated name gets its last position *)
Fixpoint index_map (i : nat) (l : list str) (d : dict nat) : dict nat :=
  match l with [] => d | x :: l' => index_map (S i) l' (dset x i d) end.
Definition lookup_ix (d : dict nat) (x : str) : nat := match dget x d with Some i => i | None => 0 end.

(** covmat.py:65-91 mergeCovmatWhereNew.  The constructor CovMat() leaves size = 0 (line 21) and
    nothing updates it. *)
Definition mergeCovmatWhereNew {A} (zero : A) (c1 c2 : covmat A) : covmat A :=
  let names := merged_names (cnames c1) (cnames c2) in
  let map1 := index_map 0 (cnames c1) [] in
  let map2 := index_map 0 (cnames c2) [] in
  mkC (fun i j =>
         let a := nth i names [] in let b := nth j names [] in
         if mem_str a (cnames c1) && mem_str b (cnames c1)
         then cmat c1 (lookup_ix map1 a) (lookup_ix map1 b)
         else if mem_str a (cnames c2) && mem_str b (cnames c2)
         then cmat c2 (lookup_ix map2 a) (lookup_ix map2 b)
         else zero)
      names 0.

(** m[i, :] /= s ; m[:, i] /= s *)
Definition div_row (i : nat) (s : R) (m : mat R) : mat R := fun a b => if a =? i then (m a b / s)%R else m a b.
Definition div_col (i : nat) (s : R) (m : mat R) : mat R := fun a b => if b =? i then (m a b / s)%R else m a b.
(** covmat.py:93-104 correlation *)
Definition correlation (c : covmat R) : mat R :=
  fold_left (fun m i => let s := sqrt (cmat c i i) in div_col i s (div_row i s m)) (seq 0 (csize c)) (cmat c).
(** chains.py:167-182 covToCorr of a matrix of side n; the square roots are taken before the loop *)
Definition covToCorr (n : nat) (cov : mat R) : mat R :=
  fold_left (fun m i => let di := sqrt (cov i i) in
                        if Req_EM_T di 0 then m else div_col i di (div_row i di m))
            (seq 0 n) cov.
