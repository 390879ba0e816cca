(** Model of the analysis of principal components, MCSamples.PCA of python/getdist/mcsamples.py 616-810.
    Numbers are real.  A division by zero, which gives nan or inf in numpy, is the error NotFinite, but exponents that are inf are None.  np.linalg.eig, np.linalg.inv (None is LinAlgError) and argsort are arguments.
    Left out: the text around the numbers, labels, writing of files. *)
From Coq Require Import Reals Bool.
From Verif Require Import PyStr PyBase ConvModel KdeModel Kde2Model StatModel LstModel CnvgModel.
From Coq Require Import List.
Import ListNotations.
Local Open Scope R_scope.

(** 620-622: N, L and M of param_map *)
Inductive pmap := PN | PL | PM.
(** 662-671 with _initParam 1321-1322 *)
Definition default_map (x : list R) : pmap :=
  if Rlt_dec (maxR x) 0 then PN else if Rlt_dec (minR x) ((maxR x - minR x) / 10) then PN else PL.
(** 677-684: a logarithm of a number that is not positive is nan or -inf, for which np.linalg.eig and inv raise *)
Definition allb (f : R -> bool) (x : list R) : bool := forallb f x.
Definition positive (y : R) : bool := if Rlt_dec 0 y then true else false.
Definition mapped (m : pmap) (x : list R) : res (list R) :=
  match m with
  | PN => Ok x
  | PL => if allb positive x then Ok (map ln x) else Err LinAlgError
  | PM => if allb positive (map (fun y => -1 * y) x) then Ok (map (fun y => ln (-1 * y)) x) else Err LinAlgError
  end.
(** 673-684: param_map is used for the first np columns *)
Definition map_cols (pm : list pmap) (np : nat) (cs : list (list R)) : res (list (list R)) :=
  mapR (fun ic => if Nat.ltb (fst ic) np then match nth_error pm (fst ic) with None => Err IndexError | Some m => mapped m (snd ic) end else Ok (snd ic)) (combine (seq 0 (length cs)) cs).
(** 674, 678, 682 *)
Definition uses_exp (pm : list pmap) (np : nat) : bool := existsb (fun m => match m with PN => false | _ => true end) (firstn np pm).
(** 689-693: mean, standard deviation and reduced column *)
Definition reduced (w x : list R) : R * R * list R :=
  let m := dot w x / get_norm w in
  let d := map (fun y => y - m) x in
  let sd := sqrt (dot w (map (fun y => y ^ 2) d) / get_norm w) in
  (m, sd, if Req_EM_T sd 0 then d else map (fun y => y / sd) d).
(** 697-701 *)
Definition correlation (w : list R) (z : nat -> list R) : matrix := fun i j =>
  if Nat.eqb i j then 1 else dot w (mul (z (Nat.max i j)) (z (Nat.min i j))) / get_norm w.
(** params.index, 647-652: None is -1 *)
Fixpoint name_index (l : list str) (s : str) : option nat := match l with [] => None | x :: l' => if str_eqb x s then Some 0%nat else option_map S (name_index l' s) end.
(** 735-743: one row of eigenvectors scaled so that one parameter has exponent 1 *)
Definition scale_row (n : nat) (sd : nat -> R) (norm : option nat) (row : nat -> R) : res (nat -> R) :=
  let k := match norm with Some k => k | None => argminR (map (fun j => - Rabs (row j)) (seq 0 n)) end in
  if Req_EM_T (row k) 0 then Err NotFinite else Ok (fun j => row j / row k * sd k).
(** 758-770: what is printed for a parameter: (label/div)^expo, or (label-mean)/expo where None is inf *)
Inductive term := Power (div expo : R) | Shift (mean : R) (expo : option R).
Definition term_of (m : pmap) (mean sd u : R) : res term :=
  match m with
  | PL => if Req_EM_T sd 0 then Err NotFinite else Ok (Power (exp mean) (1 / sd * u))
  | PM => if Req_EM_T sd 0 then Err NotFinite else Ok (Power (- exp mean) (1 / sd * u))
  | PN => if Req_EM_T u 0 then (if Req_EM_T sd 0 then Err NotFinite else Ok (Shift mean None)) else Ok (Shift mean (Some (sd / u)))
  end.
Record pca := mkPca { p_n : nat; p_corr : matrix; p_evals : nat -> R; p_mean : nat -> R; p_sd : nat -> R; p_u : matrix; p_exp : bool; p_comp : nat -> list R;
                      p_terms : nat -> nat -> res term; p_newmean : nat -> R; p_newsd : nat -> R; p_cross : nat -> nat -> res R }.
Section Pca.
Variable eig : nat -> matrix -> list R * matrix.
Variable inv : nat -> matrix -> option matrix.
Variable argsort : list R -> list nat.
(** 708-715 *)
Definition conditioned (n np : nat) (C : matrix) : res matrix :=
  if Nat.eqb n np then Ok C else
  match inv n C with None => Err LinAlgError | Some K => match inv np K with None => Err LinAlgError | Some u => Ok u end end.
(** 654-795 for columns [cs], of which the first [np] are parameters and the others are held fixed *)
Definition analyse (w : list R) (cs : list (list R)) (np : nat) (pm : list pmap) (norm : option nat) : res pca :=
  bindR (map_cols pm np cs) (fun ys =>
  let red j := reduced w (nth j ys []) in
  let mu j := fst (fst (red j)) in let sd j := snd (fst (red j)) in let z j := snd (red j) in
  let C := correlation w z in
  bindR (conditioned (length cs) np C) (fun u0 =>
  let evals := fst (eig np u0) in let V := snd (eig np u0) in                                         (* 718 *)
  let isorted := argsort evals in                                                                     (* 719 *)
  bindR (mapR (fun i => scale_row np sd norm (fun j => V j (nth i isorted 0%nat))) (seq 0 np)) (fun rows =>
  let u i := nth i rows (fun _ => 0) in
  let doexp := uses_exp pm np in
  let comp i := map (fun r => let s := rsum np (fun j => u i j * nth r (z j) 0) in if doexp then exp s else s) (seq 0 (length w)) in  (* 745-749 *)
  let newmean i := mean w (comp i) in                                                                 (* 772 *)
  let newsd i := sqrt (mean w (map (fun y => (y - newmean i) ^ 2) (comp i))) in                       (* 773 *)
  let unit_ i := if Req_EM_T (newsd i) 0 then Err NotFinite else Ok (map (fun y => (y - newmean i) / newsd i) (comp i)) in  (* 785 *)
  Ok (mkPca np C (fun i => nth (nth i isorted 0%nat) evals 0) mu sd u doexp comp
        (fun i j => match nth_error pm j with Some m => term_of m (mu j) (sd j) (u i j) | None => Err IndexError end) newmean newsd
        (fun i j => bindR (unit_ i) (fun a => bindR (unit_ j) (fun b => Ok (mean w (mul a b))))))))).   (* 788-792 *)
(** 640-671: [cols] are the columns by name *)
Definition PCA (cols : str -> option (list R)) (w : list R) (params : list str) (pm : option (list pmap)) (normparam : option str) (cond : list str) : res pca :=
  let params := filter (fun p => match cols p with Some _ => true | None => false end) params in      (* 642 *)
  bindR (mapR (fun p => match cols p with Some c => Ok c | None => Err KeyError end) (params ++ cond)) (fun cs =>
  let np := length params in
  let norm := match normparam with Some p => name_index params p | None => None end in
  analyse w cs np (match pm with Some l => l | None => map default_map (firstn np cs) end) norm).
End Pca.
