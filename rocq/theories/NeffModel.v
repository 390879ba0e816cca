(** Effective numbers of samples for kernel density estimates and the automatic bandwidth of one parameter: python/getdist/chains.py 477-625,
    python/getdist/mcsamples.py 1140-1195.  Numbers are real; a division by zero, which gives nan or inf in numpy, is the error NotFinite.
    The bandwidth of kde_bandwidth.py is an argument.  Not modelled: texts of warnings. *)
From Coq Require Import Reals ZArith List Bool.
From Verif Require Import PyStr PyBase ConvModel KdeModel Kde2Model StatModel CnvgModel.
Import ListNotations.
Local Open Scope R_scope.

(** ** Correlation of kernels *)
(** np.dot(kernel(d[:-k], d[k:]) * weights[:-k], weights[k:]) for k > 0 *)
Definition pair_term {A} (kern : A -> A -> R) (d : list A) (w : list R) (k : nat) : R :=
  let m := (length d - k)%nat in
  dot (mul (map (fun p => kern (fst p) (snd p)) (combine (firstn m d) (skipn k d))) (firstn m w)) (skipn k w).
(** 510-518, 603-612: mean of the terms of five large distances *)
Definition uncorr_term {A} (kern : A -> A -> R) (d : list A) (w : list R) : R :=
  let n := length d in
  sumR (map (pair_term kern d w) (seq (n / 2) 5)) / sumR (map (fun k => INR n - INR k) (seq (n / 2) 5)).
(** 533-535, 618-620 *)
Definition corr_k {A} (kern : A -> A -> R) (u : R) (d : list A) (w : list R) (k : nat) : R :=
  pair_term kern d w k - (INR (length d) - INR k) * u.
(** 544-551: the loop stops at 10 at the latest *)
Fixpoint find_max (fuel : nat) (corr : nat -> R) (thr : R) (max_k : nat) : nat :=
  match fuel with
  | O => max_k
  | S fuel' => if Nat.ltb 10 max_k then if Rle_dec thr (corr (max_k / 3)%nat) then max_k else find_max fuel' corr thr (max_k / 3) else max_k
  end.
(** 553-557 *)
Definition step_size (max_k : nat) : nat := if Nat.ltb max_k 20 then 1%nat else (max_k / 10)%nat.
(** range(start, stop, step) *)
Definition range (start stop step : nat) : list nat := map (fun i => (start + i * step)%nat) (seq 0 ((stop - start + (step - 1)) / step)).
(** 559-567 *)
Fixpoint cumulate (corr : nat -> R) (thr : R) (step : nat) (ks : list nat) (acc : R) : R :=
  match ks with
  | [] => acc
  | k :: r => let t := corr k in
      if Rlt_dec t thr then acc
      else cumulate corr thr step r (acc + (if Nat.ltb 3 k then t * INR step else t * INR step / 2))
  end.
(** 520-570; [corr0] is the sum of squared weights; the array has maxoff + 1 elements, of which 1 and 2 are set *)
Definition sum_N (corr0 : R) (corr : nat -> R) (min_corr : R) (maxoff : nat) : res R :=
  let thr := min_corr * corr0 in
  if Nat.leb 1 maxoff then
    if Rlt_dec (corr 1%nat) thr then Ok corr0
    else if Nat.leb 2 maxoff then
      if Rlt_dec thr (corr 2%nat) then
        let step := step_size (find_max maxoff corr thr maxoff) in
        Ok (corr0 + 2 * cumulate corr thr step (range 3 (maxoff + 1) step) (corr 1%nat + corr 2%nat))
      else Ok (corr0 + 2 * corr 1%nat)
    else Err IndexError
  else Err IndexError.
(** 508, 600: int() of a positive number *)
Definition int_of (x : R) : nat := Z.to_nat (Int_part x).
Definition sum2 (w : list R) : R := dot w w.
(** 500-501, 586-587 *)
Definition uncorrelated_Neff (w : list R) : res R := rdivE (get_norm w ^ 2) (sum2 w).
(** kernels of 516 and 534 *)
Definition kernel1 (s x y : R) : R := exp (- ((x - y) ^ 2 / s ^ 2) / 4).
Definition kernel1' (s x y : R) : R := exp (- (x - y) ^ 2 / (4 * s ^ 2)).
(** 477-572; [nested]: the sampler is nested or uncorrelated; [n] the number of parameters; of one row numpy multiplies arrays of different size *)
Definition Neff_kde (nested : bool) (n : nat) (w d : list R) (h : R) (scale : option R) (maxoff : option nat) (min_corr : R) : res R :=
  if nested then uncorrelated_Neff w
  else
    let s := (match scale with Some s => if Req_EM_T s 0 then sqrt (var w d) else s | None => sqrt (var w d) end) * h in
    bindR (match maxoff with
           | Some m => Ok m
           | None => bindR (getCorrelationLength n w d false (5 / 100)) (fun len => Ok (int_of (len * (3 / 2)) + 4)%nat)
           end) (fun m =>
    let m := Nat.min m (length d / 10) in
    if Nat.leb (length d) 1 then Err ValueError
    else if Req_EM_T s 0 then Err NotFinite
    else
      let u := uncorr_term (kernel1 s) d w in
      bindR (sum_N (sum2 w) (corr_k (kernel1' s) u d w) min_corr m) (fun N => rdivE (get_norm w ^ 2) N)).

(** ** Two parameters *)
(** 610-611: the quadratic form of the inverse of a covariance, divided by h ** 2 *)
Definition kernel2 (a b c h : R) (x y : R * R) : R :=
  let d1 := fst x - fst y in let d2 := snd x - snd y in
  let det := a * c - b * b in
  exp (- ((c * d1 ^ 2 - 2 * b * d1 * d2 + a * d2 ^ 2) / det / h ^ 2) / 4).
(** 617-624: the first term below the threshold and all others are 0 *)
Fixpoint sum_until (corr : nat -> R) (thr : R) (ks : list nat) : R :=
  match ks with [] => 0 | k :: r => if Rlt_dec (corr k) thr then 0 else corr k + sum_until corr thr r end.
(** 574-625 *)
Definition Neff_kde_2d (nested : bool) (n : nat) (w d1 d2 : list R) (h : R) (maxoff : option nat) (min_corr : R) : res R :=
  if nested then uncorrelated_Neff w
  else
    let c := cov (fun _ _ => 0) w [d1; d2] in
    if Rlt_dec (sqrt (c 0%nat 0%nat * c 1%nat 1%nat) * (999 / 1000)) (Rabs (c 0%nat 1%nat)) then Neff_kde false n w d1 h None None min_corr
    else if Req_EM_T (c 0%nat 0%nat * c 1%nat 1%nat - c 0%nat 1%nat * c 0%nat 1%nat) 0 then Err LinAlgError
    else if Req_EM_T h 0 then Err NotFinite
    else
      bindR (match maxoff with
             | Some m => Ok m
             | None => bindR (getCorrelationLength n w d1 false (5 / 100)) (fun l1 => bindR (getCorrelationLength n w d2 false (5 / 100)) (fun l2 =>
                       Ok (int_of (Rmax l1 l2 * (3 / 2)) + 4)%nat))
             end) (fun m =>
      let m := Nat.min m (length d1 / 10) in
      if Nat.leb (length d1) 1 then Err ValueError
      else
        let k2 := kernel2 (c 0%nat 0%nat) (c 0%nat 1%nat) (c 1%nat 1%nat) h in
        let d := combine d1 d2 in
        let u := uncorr_term k2 d w in
        rdivE (get_norm w ^ 2) (sum2 w + 2 * sum_until (corr_k k2 u d w) (min_corr * sum2 w) (seq 1 m))).

(** ** Bandwidth *)
(** limits of the parameter and of its bins, width sigma_range, name *)
Record parinfo := mkPar { p_min : R; p_max : R; range_min : R; range_max : R; sigma_range : R; p_name : str }.
Definition BandwidthError : exn := OtherError (L "BandwidthError").
(** mcsamples.py 1168-1195; [isj]: gaussian_kde_bandwidth_binned of the bins and the number of samples; [quiet]: no_warning_params; [quiet_chi2]:
    no_warning_chi2_params; [raises]: raise_on_bandwidth_errors; [order]: mult_bias_correction_order of the samples *)
Definition getAutoBandwidth1D (isj : R -> option R) (par : parinfo) (N_eff : R) (quiet : list str) (quiet_chi2 raises : bool) (order : nat)
    (mult_order : option nat) (kernel_order : nat) : res R :=
  let bin_range := Rmax (p_max par) (range_max par) - Rmin (p_min par) (range_min par) in
  let fifth := Rpower N_eff (- 1 / 5) in
  let low := 1 / 100 * fifth * (range_max par - range_min par) / bin_range in
  let fallback :=
    let hnew := 106 / 100 * sigma_range par * fifth / bin_range in
    let warns := negb (existsb (str_eqb (p_name par)) quiet) &&
                 (negb quiet_chi2 || (negb (contains (L "chi2_") (p_name par)) && negb (contains (L "minuslog") (p_name par)))) in
    if warns && raises then Err BandwidthError else Ok hnew in
  bindR (match isj N_eff with
         | None => fallback
         | Some h => if Rlt_dec h low then fallback else Ok h
         end) (fun h =>
  let m := match mult_order with Some m => m | None => order end in
  let m := if Nat.ltb 1 kernel_order then Nat.max m 1 else m in
  if Nat.eqb m 0 then Ok h else Ok (h * Rpower N_eff (1 / 5 - 1 / (4 * INR m + 5)))).
