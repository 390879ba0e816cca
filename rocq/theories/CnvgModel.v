(** Model of autocorrelation lengths and of the Gelman-Rubin tests of weighted samples: python/getdist/chains.py 423-475 and 1396-1436, and the parts
    'CorrLengths' and 'MeanVar' of getConvergeTests, python/getdist/mcsamples.py 861-903.
    Numbers are real numbers.  A division by zero, which gives nan or inf in numpy, is the error NotFinite.
    Left out: the text that is written. *)
From Coq Require Import Reals ZArith List Bool.
From Verif Require Import PyStr PyBase ConvModel KdeModel StatModel.
Import ListNotations.
Local Open Scope R_scope.

(** ** Autocorrelation *)
Definition divAll (l : list R) (x : R) : res (list R) := if Req_EM_T x 0 then Err NotFinite else Ok (map (fun y => y / x) l).
(** chains.py 423-447; n is the number of parameters (self.n), w the weights and p the values of the parameter *)
Definition getAutocorrelation (n : nat) (w p : list R) (maxOff : option nat) (weight_units normalized : bool) : res (list R) :=
  let off := match maxOff with Some k => k | None => (n - 1)%nat end in                                  (* 438-439 *)
  let d := mul (mean_diff w p) w in                                                                     (* 440 *)
  bindR (autoConvolve d (Some (off + 1)%nat) true) (fun corr =>                                         (* 441 *)
  bindR (if normalized then divAll corr (var w p) else Ok corr) (fun corr =>                            (* 442-443 *)
  if weight_units then divAll (map (fun y => y * INR (length d)) corr) (get_norm w) else Ok corr)).     (* 444-447 *)
(** np.argmin of an array of truth values: the first False, or 0 *)
Fixpoint first_false (l : list bool) : option nat :=
  match l with [] => None | b :: l' => if b then option_map S (first_false l') else Some 0%nat end.
Definition argmin (l : list bool) : nat := match first_false l with Some k => k | None => 0%nat end.
Definition above (c : R) (l : list R) : list bool := map (fun x => if Rlt_dec c x then true else false) l.
(** 464-466, mcsamples.py 873-874 *)
Definition corr_length (min_corr : R) (corr : list R) : R :=
  let ix := argmin (above (min_corr * at_ corr 0) corr) in at_ corr 0 + 2 * sumR (slice 1 ix corr).
(** 449-466 *)
Definition getCorrelationLength (n : nat) (w p : list R) (weight_units : bool) (min_corr : R) : res R :=
  bindR (getAutocorrelation n w p (Some (length w / 10)%nat) weight_units true) (fun corr => Ok (corr_length min_corr corr)).
(** 468-475 *)
Definition getEffectiveSamples (n : nat) (w p : list R) (min_corr : R) : res R :=
  bindR (getCorrelationLength n w p true min_corr) (fun N => rdivE (get_norm w) N).

(** ** Several chains *)
(** weights and columns of a chain *)
Record chain := mkChain { cw : list R; cps : list (list R) }.
Definition col (c : chain) (j : nat) : list R := nth j (cps c) [].
(** chains.py 1447-1449: weights and samples of all chains *)
Definition joined (cs : list chain) (j : nat) : list R := flat_map (fun c => col c j) cs.
Definition joined_w (cs : list chain) : list R := flat_map cw cs.
Definition minN (l : list nat) : nat := match l with [] => 0%nat | x :: l' => fold_left Nat.min l' x end.
(** mcsamples.py 866-872 for parameter j of n: the correlation of all chains *)
Definition zeros (k : nat) : list R := repeat 0 k.
Definition addL (a b : list R) : list R := map (fun p => fst p + snd p) (combine a b).
Fixpoint sum_corrs (n maxoff j : nat) (cs : list chain) (corr : list R) : res (list R) :=
  match cs with
  | [] => Ok corr
  | c :: cs' => bindR (getAutocorrelation n (cw c) (col c j) (Some maxoff) true false) (fun r => sum_corrs n maxoff j cs' (addL corr (map (fun y => y * get_norm (cw c)) r)))
  end.
Definition pooled_corr (n : nat) (cs : list chain) (j : nat) : res (list R) :=
  let maxoff := minN (map (fun c => length (cw c) / 10)%nat cs) in
  bindR (sum_corrs n maxoff j cs (zeros (maxoff + 1))) (fun corr => divAll corr (get_norm (joined_w cs) * var (joined_w cs) (joined cs j))).
Definition pooled_length (n : nat) (cs : list chain) (j : nat) : res R := bindR (pooled_corr n cs j) (fun corr => Ok (corr_length (1 / 20) corr)).
(** mcsamples.py 867 and 875: indep_thin *)
Definition longest (n : nat) (cs : list chain) : res R :=
  bindR (mapR (pooled_length n cs) (seq 0 n)) (fun l => Ok (fold_left (fun m N => Rmax N m) l 0)).
(** mcsamples.py 889-902, the square of the number that is printed for parameter j *)
Definition mean_var2 (cs : list chain) (j : nat) : res R :=
  let mu := mean (joined_w cs) (joined cs j) in
  bindR (rdivE (sumR (map (fun c => (mean (cw c) (col c j) - mu) ^ 2) cs)) (INR (length cs) - 1)) (fun between =>
  bindR (rdivE (sumR (map (fun c => dot (cw c) (map (fun x => x ^ 2) (mean_diff (cw c) (col c j)))) cs)) (get_norm (joined_w cs))) (fun inside =>
  rdivE between inside)).

(** ** Gelman-Rubin *)
Definition matrix := nat -> nat -> R.
(** chains.py 1409-1417: means of the squared differences of the means and of the covariances; junk is what is in memory where the covariances are stored *)
Definition meanscov (cs : list chain) : matrix := fun i j =>
  let d c i := mean (cw c) (col c i) - mean (joined_w cs) (joined cs i) in sumR (map (fun c => d c i * d c j) cs) / (INR (length cs) - 1).
Definition meancov (junk : matrix) (cs : list chain) : matrix := fun i j => sumR (map (fun c => cov junk (cw c) (cps c) i j) cs) / INR (length cs).
(** np.dot of square matrices *)
Definition mmul (k : nat) (A B : matrix) : matrix := fun i j => rsum k (fun m => A i m * B m j).
Definition mtrans (A : matrix) : matrix := fun i j => A j i.
Definition minL (l : list R) : R := minR l.
(** 1396-1424 for nparam = k; eigh and eigvalsh are those of numpy *)
Section GR.
Variable eigh : nat -> matrix -> list R * matrix.
Variable eigvalsh : nat -> matrix -> list R.
Definition getGelmanRubinEigenvalues (junk : matrix) (cs : list chain) (k : nat) : res (option (list R)) :=
  if Nat.leb (length cs) 1 then Err NotFinite else
  let '(w, U) := eigh k (meancov junk cs) in
  if Rlt_dec 0 (minL w) then
    let U' := fun i j => U i j / sqrt (nth j w 0) in                                                    (* 1420 *)
    Ok (Some (eigvalsh k (mmul k (mmul k (mtrans U') (meanscov cs)) U')))                               (* 1421-1422 *)
  else Ok None.
(** 1426-1436: None is np.max(None) *)
Definition getGelmanRubin (junk : matrix) (cs : list chain) (k : nat) : res (option R) :=
  bindR (getGelmanRubinEigenvalues junk cs k) (fun D => Ok (option_map maxR D)).
End GR.
