(** Model of sample-counting confidence limits, python/getdist/chains.py 770-823, over exact rationals.
    numpy's argsort (not stable) is an argument: any function returning a sorting permutation. *)
From Verif Require Import PyStr PyBase ThinModel ChainModel.
From Coq Require Import QArith Permutation.
Local Open Scope nat_scope.

(** What argsort promises. *)
Definition is_argsort (argsort : list Q -> list nat) : Prop := forall v,
  Permutation (argsort v) (seq 0 (length v)) /\
  forall a b, a < b < length v -> (nth (nth a (argsort v) 0%nat) v 0 <= nth (nth b (argsort v) 0%nat) v 0)%Q.

(** ParamConfidenceData, chains.py 17 *)
Record conf_data := mkConf { c_vec : list Q; c_norm : Q; c_ix : list nat; c_cum : list Q }.

Fixpoint cumsumQ (acc : Q) (l : list Q) : list Q :=
  match l with [] => [] | w :: l' => (acc + w)%Q :: cumsumQ (acc + w)%Q l' end.

(** [x[start:end]] for 0 <= start; [None] is no upper end *)
Definition pyslice {A} (start : nat) (stop : option nat) (l : list A) : list A :=
  match stop with None => skipn start l | Some e => slice start e l end.

(** initParamConfidenceData, chains.py 781-798 *)
Definition initParamConfidenceData (argsort : list Q -> list nat) (vec weights : list Q)
    (start : nat) (stop : option nat) : conf_data :=
  let v := pyslice start stop vec in                                       (* 793 *)
  let ix := argsort v in                                                   (* 794 *)
  mkConf v (sumQ (pyslice start stop weights)) ix
         (cumsumQ 0 (map (fun i => nth (start + i) weights 0%Q) ix)).      (* 796-798 *)

(** np.searchsorted(a, v) (side='left') on an ascending array: number of leading entries below v *)
Fixpoint searchsorted (a : list Q) (v : Q) : nat :=
  match a with [] => 0 | x :: a' => if Qltb x v then S (searchsorted a' v) else 0 end.

(** confidence, chains.py 813-823; an empty vector raises IndexError *)
Definition confidence (d : conf_data) (limfrac : Q) (upper : bool) : res Q :=
  let target := if upper then (c_norm d * (1 - limfrac))%Q else (c_norm d * limfrac)%Q in
  match c_ix d with
  | [] => Err IndexError
  | _ => let ix := searchsorted (c_cum d) target in
         Ok (nth (nth (Nat.min ix (length (c_ix d) - 1)) (c_ix d) 0) (c_vec d) 0%Q)
  end.

(** twoTailLimits, chains.py 770-779 *)
Definition twoTailLimits (d : conf_data) (conf : Q) : res (Q * Q) :=
  bindR (confidence d ((1 - conf) / 2) false) (fun lo =>
  bindR (confidence d (1 - (1 - conf) / 2) false) (fun hi => Ok (lo, hi))).
