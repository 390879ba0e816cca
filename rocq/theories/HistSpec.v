(** Vocabulary for statements about histograms and combined samples. *)
From Verif Require Import PyStr PyBase ThinModel HistModel.
From Coq Require Import ZArith QArith String Ascii Bool List.
Import ListNotations.
Local Open Scope nat_scope.
Local Open Scope list_scope.

(** total weight of the samples whose index satisfies [p] *)
Definition weight_of {A} (p : A -> bool) (iw : list (A * Q)) : Q := sumQ (map snd (filter (fun x => p (fst x)) iw)).
(** weight of the first k rows *)
Definition upto_row (w : list Q) (k : nat) : Q := sumQ (firstn k w).
(** the share i/n of the total *)
Definition share (w : list Q) (i n : nat) : Q := (inject_Z (Z.of_nat i) / inject_Z (Z.of_nat n) * sumQ w)%Q.
(** the samples of a parameter lie within what the parameter records *)
Definition covers (par : prange) (vec : list Q) : Prop := Forall (fun v => p_min par <= v /\ v <= p_max par)%Q vec.
(** names that can be attributes *)
Definition no_dot (n : str) : Prop := ~ In "."%char n.
Definition plain_set (s : sset) : Prop := NoDup (map s_name (s_pars s)) /\ Forall (fun p => no_dot (s_name p)) (s_pars s).
(** the column of a parameter *)
Definition has_col (s : sset) (n : str) (c : list Q) : Prop := exists p, In p (s_pars s) /\ s_name p = n /\ snd p = c.

(** what writeThinData is documented to write for a row *)
Section Thin.
  Context {F : Type} (fixed sci : F -> str) (one : F) (cooled cool_weight : F -> F) (df : F).
  Definition wanted_row (cool1 : bool) (logl : list F) (rows : list (list F)) (thin : nat) : str :=
    let l := nth thin logl df in
    (if cool1 then fixed one ++ fixed l else sci (cool_weight l) ++ sci (cooled l)) ++ concat (map sci (nth thin rows [])).
End Thin.
