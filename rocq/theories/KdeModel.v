(** Model of the kernel density estimate of one parameter: python/getdist/mcsamples.py 109-115, 1450-1548 (get1DDensityGridData after binning).
    Numbers are real numbers.  convolve1D is that of ConvModel, called without the cache (C64 shows that it changes nothing).
    A division by zero, which gives nan or inf in numpy, is the error NotFinite.
    Left out: the choice of the bandwidth (an argument), mean likelihoods, logging and the axes of the grid. *)
From Coq Require Import Reals ZArith List Bool.
From Verif Require Import PyStr PyBase ConvModel.
Import ListNotations.
Local Open Scope R_scope.

Definition NotFinite : exn := OtherError (L "nan").
Definition SettingError : exn := OtherError (L "SettingError").
Definition NoSamples : exn := OtherError (L "no samples in bin").
Definition rdivE (a b : R) : res R := if Req_EM_T b 0 then Err NotFinite else Ok (a / b).

(** ** Width of the kernel in bins *)
(** python round(): to the nearest integer, to the even one of two *)
Definition py_round (x : R) : Z :=
  let n := Int_part x in let f := x - IZR n in
  if Rlt_dec f (1 / 2) then n else if Rlt_dec (1 / 2) f then (n + 1)%Z else if Z.even n then n else (n + 1)%Z.
(** 1450-1461: [bandwidth] is that of getAutoBandwidth1D in units of the parameter *)
Definition smooth_1D (smooth_scale bandwidth err paramrange fine_width : R) (num_bins : Z) : R :=
  if Rle_dec smooth_scale 0 then Rmin bandwidth (paramrange / 4) * Rabs smooth_scale / fine_width
  else if Rlt_dec smooth_scale 1 then smooth_scale * err / fine_width
  else smooth_scale * (paramrange / IZR (num_bins - 1)) / fine_width.
(** 1466, 1471: the width in bins that is used, and half the number of bins of the kernel *)
Definition smooth_bins (s : R) (fine_bins : nat) : R := Rmin (Rmax 1 s) (INR (fine_bins / 2)).
Definition winw_1D (s : R) (fine_bins : nat) : Z := Z.min (py_round (5 / 2 * s)) (Z.of_nat fine_bins / 2 - 2).

(** ** Kernel1D: 109-115 *)
Definition kernel_x (w : nat) : list R := map (fun i => IZR (Z.of_nat i - Z.of_nat w)) (seq 0 (2 * w + 1)).
Definition kernel_win (w : nat) (h : R) : list R :=
  let W := map (fun x => exp (- (x / h) ^ 2 / 2)) (kernel_x w) in map (fun y => y / rsum (length W) (at_ W)) W.

(** ** One dimension *)
Definition conv (mode : cmode) (x y : list R) : res (list R) :=
  bindR (convolve1D (mkArr 0 x) (mkArr 1 y) mode 0 None true true) (fun r => match fst r with Some l => Ok l | None => Err TypeError end).
Definition zip (f : R -> R -> R) (a b : list R) : list R := map (fun p => f (fst p) (snd p)) (combine a b).
(** an array in which elements are set: l[i] = v, l[:k] = 0, l[-k:] = 0 (all of it for k = 0) *)
Definition set_at (i : nat) (v : R) (l : list R) : list R := map (fun k => if Nat.eqb k i then v else at_ l k) (seq 0 (length l)).
Definition zero_first (k : nat) (l : list R) : list R := map (fun i => if Nat.ltb i k then 0 else at_ l i) (seq 0 (length l)).
Definition zero_last (k : nat) (l : list R) : list R := map (fun i => if Nat.eqb k 0 || Nat.leb (length l - k) i then 0 else at_ l i) (seq 0 (length l)).
(** 1484-1490 *)
Definition prior_mask (N w : nat) (bot top : bool) : list R :=
  let m := repeat 1 (N + 2 * w) in
  let m := if bot then zero_first w (set_at w (1 / 2) m) else m in
  if top then zero_last w (set_at (N + 2 * w - (w + 1)) (1 / 2) m) else m.
(** 1494-1517 at one point of the grid *)
Definition linear_at (P a0 a1 a2 xP : R) : res R := rdivE (P * a2 - xP * a1) (a0 * a2 - a1 ^ 2).
Definition quadratic_at (P a0 a1 a2 a3 a4 xP x2P : R) : res R :=
  let denom := a4 * a2 * a0 - a4 * a1 ^ 2 - a2 ^ 3 - a3 ^ 2 * a0 + 2 * a1 * a2 * a3 in
  let A := a4 * a2 - a3 ^ 2 in let B := a2 * a3 - a4 * a1 in let C := a3 * a1 - a2 ^ 2 in
  rdivE (P * A + xP * B + x2P * C) denom.
Definition tilted (normed limit corrected : R) : res R := bindR (rdivE corrected normed) (fun q => Ok (normed * exp (Rmin q limit - 1))).
(** 1482-1529 *)
Definition boundary (order : Z) (bot top : bool) (w : nat) (W bins P : list R) : res (list R) :=
  let N := length bins in
  if (bot || top) && (0 <=? order)%Z then
    let mask := prior_mask N w bot top in
    bindR (conv Valid mask W) (fun a0 =>
    let where_ (f : nat -> R -> res R) := mapR (fun i => if Req_EM_T (at_ a0 i * at_ P i) 0 then Ok (at_ P i) else bindR (rdivE (at_ P i) (at_ a0 i)) (f i)) (seq 0 N) in
    if (order =? 0)%Z then where_ (fun _ normed => Ok normed)
    else if (order <=? 2)%Z then
      let xW := zip Rmult W (kernel_x w) in
      bindR (conv Valid mask xW) (fun a1 =>
      bindR (conv Valid mask (zip Rmult xW (kernel_x w))) (fun a2 =>
      bindR (conv Same bins xW) (fun xP =>
      if (order =? 1)%Z then
        where_ (fun i normed => bindR (linear_at (at_ P i) (at_ a0 i) (at_ a1 i) (at_ a2 i) (at_ xP i)) (tilted normed 4))
      else
        bindR (conv Valid mask (zip (fun a x => a * x ^ 2) xW (kernel_x w))) (fun a3 =>
        bindR (conv Valid mask (zip (fun a x => a * x ^ 3) xW (kernel_x w))) (fun a4 =>
        bindR (conv Same bins (zip Rmult xW (kernel_x w))) (fun x2P =>
        where_ (fun i normed => bindR (quadratic_at (at_ P i) (at_ a0 i) (at_ a1 i) (at_ a2 i) (at_ a3 i) (at_ a4 i) (at_ xP i) (at_ x2P i)) (tilted normed 4)))))
      )))
    else Err SettingError)
  else if (order =? 2)%Z then
    let xW2 := zip (fun a x => a * x ^ 2) W (kernel_x w) in
    bindR (conv Same bins xW2) (fun x2P =>
    let a2 := rsum (length xW2) (at_ xW2) in
    let a4 := rsum (length xW2) (fun k => at_ xW2 k * at_ (kernel_x w) k ^ 2) in
    mapR (fun i => bindR (rdivE (at_ P i * a4 - a2 * at_ x2P i) (a4 - a2 ^ 2)) (fun corrected =>
                   if Rlt_dec 0 (at_ P i) then tilted (at_ P i) 2 corrected else Ok (at_ P i))) (seq 0 N))
  else Ok P.
(** 1531-1546 *)
Fixpoint bias_loop (n : nat) (W bins a0 P : list R) : res (list R) :=
  match n with
  | O => Ok P
  | S n' =>
      let fine := map (fun i => at_ bins i / (if Req_EM_T (at_ P i) 0 then 1 else at_ P i)) (seq 0 (length bins)) in
      bindR (conv Same fine W) (fun c =>
      bindR (mapR (fun i => rdivE (at_ P i * at_ c i) (at_ a0 i)) (seq 0 (length P))) (bias_loop n' W bins a0))
  end.
Definition mult_bias (n : nat) (bot top : bool) (W bins P : list R) : res (list R) :=
  match n with
  | O => Ok P
  | _ =>
      let m := repeat 1 (length bins) in
      let m := if bot then set_at 0 (at_ m 0 * (1 / 2)) m else m in
      let m := if top then set_at (length bins - 1) (at_ m (length bins - 1) * (1 / 2)) m else m in
      bindR (conv Same m W) (fun a0 => bias_loop n W bins a0 P)
  end.
(** densities.py 79-86 *)
Fixpoint lmax (l : list R) : R := match l with [] => 0 | [x] => x | x :: r => Rmax x (lmax r) end.
Definition normalize_max (P : list R) : res (list R) := if Req_EM_T (lmax P) 0 then Err NoSamples else Ok (map (fun x => x / lmax P) P).
(** 1472-1548: order is boundary_correction_order, n mult_bias_correction_order *)
Definition kde1_raw (order : Z) (n : nat) (bot top : bool) (w : nat) (h : R) (bins : list R) : res (list R) :=
  let W := kernel_win w h in
  bindR (conv Same bins W) (fun P => bindR (boundary order bot top w W bins P) (mult_bias n bot top W bins)).
Definition kde1 (order : Z) (n : nat) (bot top : bool) (w : nat) (h : R) (bins : list R) : res (list R) :=
  bindR (kde1_raw order n bot top w h bins) normalize_max.
