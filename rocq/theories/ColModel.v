(** Model of the columns of a chain file: the numbering of the parameters of likelihoods and of the output likelihoods,
    source/GeneralTypes.f90 618-737, the values written, 752-796 and 254-274, and the names written (WriteFile of NamesModel.v with
    params_used and add_derived, driver.F90).  Indices are counted from 0.  Real numbers are exact.  The list of likelihoods is the
    one after sorting by speed (630).  Not modelled: labels of the output likelihoods, ranges, printing, limits on numbers. *)
From Coq Require Import Reals String Ascii Bool Arith ZArith List.
From Verif Require Import PyStr NamesModel StatModel LikeModel.
Import ListNotations.
Local Open Scope R_scope.
Local Open Scope list_scope.
Local Open Scope nat_scope.

(** Lines 106-118: nuisance_params, original_index, GetTag(), LikelihoodType *)
Record like := mkL { lk_nuis : list pn; lk_orig : nat; lk_tag : str; lk_type : str }.
Definition allSome {A} (l : list (option A)) : option (list A) :=
  fold_right (fun o r => match o, r with Some a, Some r => Some (a :: r) | _, _ => None end) (Some []) l.

(** Lines 642-648: the indices of the first num_MCMC names *)
Definition nuisance_indices (names nuis : list pn) : option (list nat) :=
  allSome (map (fun p => index names (nm p)) (firstn (num_MCMC nuis) nuis)).
(** Lines 633-653; None for MpiStop *)
Fixpoint add_nuisance (names : list pn) (likes : list like) : option (list pn * list (list nat)) :=
  match likes with
  | [] => Some (names, [])
  | lk :: likes' =>
      bindO (Add false names (lk_nuis lk)) (fun names1 =>
      bindO (nuisance_indices names1 (lk_nuis lk)) (fun ix =>
      bindO (add_nuisance names1 likes') (fun r => Some (fst r, ix :: snd r))))
  end.
(** Lines 654-666: indices among the derived parameters, of the names after the first num_MCMC *)
Definition derived_indices (names nuis : list pn) : option (list nat) :=
  allSome (map (fun p => match index names (nm p) with
                         | Some i => if i <? num_MCMC names then None else Some (i - num_MCMC names)
                         | None => None
                         end) (skipn (num_MCMC nuis) nuis)).
(** Lines 618-669: names, nuisance_indices, derived_indices (empty if not allocated), num_derived_parameters *)
Definition AddNuisanceParameters (names : list pn) (likes : list like) : option (list pn * list (list nat) * list (list nat) * Z) :=
  bindO (add_nuisance names likes) (fun r =>
  bindO (allSome (map (fun lk => derived_indices (fst r) (lk_nuis lk)) likes)) (fun d =>
  Some (fst r, snd r, d, (Z.of_nat (num_derived (fst r)) - Z.of_nat (num_derived names))%Z))).

Definition chi2_name (s : str) : pn := mkN (L "chi2_" ++ s) [] [] true.
Definition no_name : pn := mkN [] [] [] false.
(** Lines 682-709 *)
Definition chi2_names (likes : list like) : list pn :=
  upd (length likes) (chi2_name (L "prior"))
    (fold_left (fun a lk => upd (lk_orig lk) (chi2_name (lk_tag lk)) a) likes (repeat no_name (length likes + 1))).
(** Lines 692-700: the types in the order in which they are found *)
Definition like_types (likes : list like) : list str :=
  fold_left (fun ts lk => match lk_type lk with [] => ts | t => if mem_str t ts then ts else ts ++ [t] end) likes [].
(** Lines 718-726 *)
Definition type_indices (likes : list like) (t : str) : list nat :=
  filter (fun j => match nth_error likes j with Some lk => str_eqb (lk_type lk) t | None => false end) (seq 0 (length likes)).
(** Lines 712, 715: types of more than one likelihood *)
Definition sum_types (likes : list like) : list str := filter (fun t => 1 <? length (type_indices likes t)) (like_types likes).
(** Lines 671-737 *)
Definition AddOutputLikelihoodParams (names : list pn) (likes : list like) : option (list pn) :=
  match likes with
  | [] => Some names
  | _ => bindO (Add true names (chi2_names likes)) (fun names1 => Add true names1 (map chi2_name (sum_types likes)))
  end.

Local Open Scope R_scope.
(** Line 635: the position of each likelihood in the list, by its original index *)
Definition original_order (likes : list like) : list nat :=
  fold_left (fun a q => upd (lk_orig (snd q)) (fst q) a) (combine (seq 0 (length likes)) likes) (repeat O (length likes)).
Definition at_ (l : list R) (ix : list nat) : list R := map (fun i => nth i l 0) ix.
Definition put (ix : list nat) (vals : list R) (l : list R) : list R :=
  fold_left (fun l q => upd (fst q) (snd q) l) (combine ix vals) l.
(** Lines 752-796, with Likelihoods and logLike; [given] are the functions derivedParameters of the likelihoods; [junk] is what newly
    allocated memory holds *)
Definition addLikelihoodDerivedParams (likes : list like) (nix dix : list (list nat)) (new : Z) (given : list (list R -> list R))
  (P : list R) (derived : list R) (Likelihoods : list R) (logLike : R) (junk : R) : list R :=
  let derived := if (0 <=? new)%Z
                 then fold_left (fun d q => put (fst (fst q)) (snd (fst q) (at_ P (snd q))) d) (combine (combine dix given) nix)
                                (derived ++ repeat junk (Z.to_nat new))
                 else derived in
  match likes with
  | [] => derived
  | _ => derived ++ map (fun v => v * 2) (at_ Likelihoods (original_order likes))
           ++ [2 * (logLike - sumR (firstn (length likes) Likelihoods))]
           ++ map (fun t => sumR (at_ Likelihoods (type_indices likes t)) * 2) (sum_types likes)
  end.
(** Lines 254-274 *)
Definition WriteParams (used : list nat) (likes : list like) (nix dix : list (list nat)) (new : Z) (given : list (list R -> list R))
  (P theory_derived Likelihoods : list R) (logLike junk : R) : list R :=
  at_ P used ++ addLikelihoodDerivedParams likes nix dix new given P theory_derived Likelihoods logLike junk.
