(** Model of the likelihood statistics in python/getdist/mcsamples.py, lines 2002-2037, with chains.py 381.
    Numbers are real; columns of samples are lists; [indexes] is what argsort of numpy returns. *)
From Coq Require Import Reals Lia Lra Bool.
From Verif Require Import PyStr PyBase StatModel.
From Coq Require Import List.
Import ListNotations.
Local Open Scope R_scope.

(** np.argmin: the first smallest entry, 2010 *)
Fixpoint argmin_from (best : R) (at_ i : nat) (l : list R) : nat :=
  match l with [] => at_ | x :: l' => if Rlt_dec x best then argmin_from x i (S i) l' else argmin_from best at_ (S i) l' end.
Definition argminR (l : list R) : nat := match l with [] => 0%nat | x :: l' => argmin_from x 0 1 l' end.
(** np.cumsum, 2025 *)
Fixpoint cumsumR (acc : R) (l : list R) : list R := match l with [] => [] | x :: l' => (acc + x) :: cumsumR (acc + x) l' end.
(** np.searchsorted on an array in ascending order, 2026 *)
Fixpoint searchsortedR (c : list R) (t : R) : nat := match c with [] => 0%nat | x :: r => if Rlt_dec x t then S (searchsortedR r t) else 0%nat end.
(** np.min and np.max of an array that may be empty, 2030-2031 *)
Definition minE (l : list R) : res R := match l with [] => Err ValueError | _ => Ok (minR l) end.
Definition maxE (l : list R) : res R := match l with [] => Err ValueError | _ => Ok (maxR l) end.
Definition take (ix : list nat) (l : list R) : list R := map (fun i => nth i l 0) ix.
(** 2027-2032: limits of one parameter *)
Record limits := mkLim { bot1 : R; bot2 : R; top1 : R; top2 : R; bestfit : R }.
Definition par_limits (indexes : list nat) (n1 n2 best : nat) (p : list R) : res limits :=
  let region1 := take (firstn n1 indexes) p in
  let region2 := take (firstn n2 indexes) p in
  bindR (minE region1) (fun b1 => bindR (minE region2) (fun b2 => bindR (maxE region1) (fun t1 => bindR (maxE region2) (fun t2 => Ok (mkLim b1 b2 t1 t2 (nth best p 0)))))).
(** 2009-2037 *)
Record stats := mkStats { logLike_sample : R; logMeanInvLike : option R; meanLogLike : R; logMeanLike : R; complexity : R; ND_cont1 : nat; ND_cont2 : nat; lims : list limits }.
Definition setLikeStats (w L : list R) (ps : list (list R)) (indexes : list nat) (c1 c2 : R) : res stats :=
  match L with
  | [] => Err ValueError                                                                            (* np.argmin of an empty array *)
  | _ =>
    let bestfit_ix := argminR L in                                                                  (* 2010 *)
    let maxlike := nth bestfit_ix L 0 in                                                            (* 2011 *)
    let inv := if Rlt_dec (maxR L - maxlike) 30 then Some (ln (mean w (map (fun x => exp (x - maxlike)) L)) + maxlike) else None in  (* 2013-2016 *)
    let mean_loglike := dot w L / get_norm w in                                                     (* chains.py 381 *)
    let lml := - ln (mean w (map (fun x => exp (- (x - maxlike))) L)) + maxlike in                  (* 2019 *)
    let cx := 2 * (mean_loglike - maxlike) in                                                       (* 2021 *)
    let cumsum := cumsumR 0 (take indexes w) in                                                     (* 2026 *)
    let n1 := searchsortedR cumsum (get_norm w * c1) in
    let n2 := searchsortedR cumsum (get_norm w * c2) in
    bindR (mapR (par_limits indexes n1 n2 bestfit_ix) ps) (fun ls => Ok (mkStats maxlike inv mean_loglike lml cx n1 n2 ls))
  end.
