(** Specification vocabulary for the columns of a chain *)
From Coq Require Import Reals String Ascii Bool Arith List.
From Verif Require Import PyStr NamesModel NamesSpec ColModel.
Import ListNotations.
Local Open Scope R_scope.

(** The value that goes with a name *)
Definition value {A} (names : list str) (vals : list A) (n : str) (v : A) : Prop :=
  exists i, nth_error names i = Some n /\ nth_error vals i = Some v.
(** The last value given to a name *)
Definition last_value (pairs : list (str * R)) (n : str) (v : R) : Prop :=
  exists a b, pairs = a ++ (n, v) :: b /\ ~ In n (map fst b).
(** Base parameters come first, all names are different *)
Definition in_order (l : list pn) : Prop :=
  exists b d, l = b ++ d /\ Forall (fun p => der p = false) b /\ Forall (fun p => der p = true) d.
Definition bases (l : list pn) : list pn := filter (fun p => negb (der p)) l.
Definition derivs (l : list pn) : list pn := filter der l.
(** The sum of the likelihoods of a type *)
Definition of_type (t : str) (likes : list like) (vals : list R) : list R :=
  map snd (filter (fun q => str_eqb (lk_type (fst q)) t) (combine likes vals)).

(** What the column of a parameter should hold.  [pairs] are the derived parameters that the theory and the likelihoods give. *)
Definition column (names : list pn) (likes : list like) (P : list R) (pairs : list (str * R)) (vals : list R) (logLike : R)
  (p : pn) (v : R) : Prop :=
  if der p then
    last_value pairs (nm p) v \/
    (exists lk l, In (lk, l) (combine likes vals) /\ nm p = L "chi2_" ++ lk_tag lk /\ v = 2 * l) \/
    (nm p = L "chi2_" ++ L "prior" /\ v = 2 * (logLike - fold_right Rplus 0 vals)) \/
    (exists t, nm p = L "chi2_" ++ t /\ (1 < length (of_type t likes vals))%nat /\ v = 2 * fold_right Rplus 0 (of_type t likes vals))
  else value (names_of names) P (nm p) v.

(** The derived parameters that the likelihoods give, by name, for the arguments [args] *)
Definition like_pairs (likes : list like) (given : list (list R -> list R)) (args : list (list R)) : list (str * R) :=
  flat_map (fun q => combine (names_of (derivs (lk_nuis (fst (fst q))))) (snd (fst q) (snd q))) (combine (combine likes given) args).
(** The parameters of a likelihood are listed base parameters first, each once, and no base parameter is a derived parameter elsewhere *)
Definition fits_like (d : list pn) (likes : list like) (lk : like) : Prop :=
  in_order (lk_nuis lk) /\ NoDup (names_of (lk_nuis lk)) /\
  forall p, In p (lk_nuis lk) -> der p = false ->
    ~ In (nm p) (names_of d) /\ forall lk' q, In lk' likes -> In q (lk_nuis lk') -> der q = true -> nm q <> nm p.
