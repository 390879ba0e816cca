(** Model of deleteFixedParams, python/getdist/chains.py 1001-1016 and 1489-1504, and of
    ParamNames.deleteIndices, python/getdist/paramnames.py 338-339.  Values are exact rationals; a
    sample array is a list of rows of equal length.  Re-applying the minimum weight ratio inside
    changeSamples is covered by the row model (ChainModel.v) and left out here. *)
From Verif Require Import PyStr PyBase ThinModel.
From Coq Require Import QArith Qabs.
Local Open Scope nat_scope.

(** np.isclose(a, b) with its default tolerances, chains.py 1010 *)
Definition isclose (a b : Q) : bool := Qle_bool (Qabs (a - b)) ((1 # 100000000) + (1 # 100000) * Qabs b).
(** np.allclose(x, m, rtol=1e-12, atol=0), chains.py 1012 *)
Definition allclose (x : list Q) (m : Q) : bool :=
  forallb (fun a => Qle_bool (Qabs (a - m)) ((1 # 1000000000000) * Qabs m)) x.
(** np.average *)
Definition average (x : list Q) : Q := sumQ x / inject_Z (Z.of_nat (length x)).
Definition column (i : nat) (rows : list (list Q)) : list Q := map (fun r => nth i r 0%Q) rows.

(** the loop 1009-1014; samples[0, i] of an empty array raises IndexError (if there is a column) *)
Definition is_fixed (rows : list (list Q)) (i : nat) : bool :=
  let c := column i rows in
  isclose (nth 0 c 0%Q) (last c 0%Q) && allclose c (average c).
Definition fixed_params (ncols : nat) (rows : list (list Q)) : res (list nat * list Q) :=
  match rows with
  | [] => if ncols =? 0 then Ok ([], []) else Err IndexError
  | _ => let f := filter (is_fixed rows) (seq 0 ncols) in
         Ok (f, map (fun i => average (column i rows)) f)
  end.

(** np.delete(samples, fixed, 1) and paramNames.deleteIndices(fixed) *)
Definition in_ix (i : nat) (ix : list nat) : bool := existsb (Nat.eqb i) ix.
Definition delete_ix {A} (ix : list nat) (l : list A) : list A :=
  map snd (filter (fun p => negb (in_ix (fst p) ix)) (combine (seq 0 (length l)) l)).
Definition delete_cols (ix : list nat) (rows : list (list Q)) : list (list Q) := map (delete_ix ix) rows.

(** Chains.deleteFixedParams: combined samples (first branch) or separate chains (second).
    Result: new sample arrays, new names, and what is passed to ranges.setFixed (1500-1502). *)
Definition delete_fixed_combined {N} (names : list N) (rows : list (list Q)) :
    res (list (list Q) * list N * list (nat * Q)) :=
  bindR (fixed_params (length names) rows) (fun fv =>
    Ok (delete_cols (fst fv) rows, delete_ix (fst fv) names, combine (fst fv) (snd fv))).
Definition delete_fixed_separate {N} (names : list N) (chains : list (list (list Q))) :
    res (list (list (list Q)) * list N * list (nat * Q)) :=
  match chains with
  | [] => Err IndexError                                                   (* self.chains[0] *)
  | c0 :: rest =>
      bindR (fixed_params (length names) c0) (fun fv =>
        Ok (delete_cols (fst fv) c0 :: map (delete_cols (fst fv)) rest,
            delete_ix (fst fv) names, combine (fst fv) (snd fv)))
  end.
