(** Automatic bandwidths of kernel density estimates: python/getdist/kde_bandwidth.py 47-280 and getAutoBandwidth2D, python/getdist/mcsamples.py 1195-1306.
    Numbers are real.  A power of a number that is not positive is the error NotFinite (numpy: nan, inf or 0).  The cosine transforms, the Fourier transform, fsolve, brentq and
    minimize are arguments.  np.linalg.cholesky is an argument and the inverse of its result is written out.  Not modelled: texts of messages. *)
From Coq Require Import Reals ZArith List Bool.
From Verif Require Import PyStr PyBase ConvModel KdeModel Kde2Model NeffModel.
Import ListNotations.
Local Open Scope R_scope.

Definition pw (x y : R) : res R := if Rlt_dec 0 x then Ok (Rpower x y) else Err NotFinite.
Definition NonConvergence : exn := OtherError (L "zero f in _bandwidth_fixed_point").

(** ** One parameter *)
(** np.prod(np.arange(1, 2 * j, 2)) *)
Definition odds (j : nat) : R := fold_right Rmult 1 (map (fun i => INR (2 * i + 1)) (seq 0 j)).
(** 51-52 *)
Definition const1 (j : nat) : R := (1 + Rpower (1 / 2) (INR j + 1 / 2)) / 3 * odds j / (sqrt PI / sqrt 2).
(** element k of I = np.arange(1, data.size) ** 2 (103, 137) *)
Definition II (k : nat) : R := INR (k + 1) ^ 2.
(** 59-60, 67; [n] is data.size - 1, [a2] the squared coefficients *)
Definition ksum (n : nat) (a2 : nat -> R) (j : nat) (t : R) : R :=
  2 * PI ^ (2 * j) * rsum n (fun k => a2 k * exp (INR j * ln (II k) - II k * (PI ^ 2 * t))).
(** 61-69: with f = 0 the time is inf, and the next f is 0 *)
Fixpoint stages (n : nat) (a2 : nat -> R) (N : R) (js : list nat) (f : R) : res R :=
  match js with
  | [] => Ok f
  | j :: r =>
      if Req_EM_T f 0 then Err NonConvergence
      else bindR (pw (const1 j / N / f) (2 / (3 + 2 * INR j))) (fun t =>
           let f' := ksum n a2 j t in if Req_EM_T f' 0 then Err NonConvergence else stages n a2 N r f')
  end.
(** 55-70 *)
Definition fixed_point (n : nat) (a2 : nat -> R) (N h : R) : res R :=
  if Rle_dec h 0 then Ok (h - 1)
  else bindR (stages n a2 N [6; 5; 4; 3; 2]%nat (ksum n a2 7 (h ^ 2))) (fun f =>
       bindR (pw (2 * N * sqrt PI * f) (- 1 / 5)) (fun r => Ok (h - r))).
(** 73-84: [samples] of at least one element; astype(int) takes the integer part towards zero *)
Definition to_int (x : R) : Z := if Rle_dec 0 x then Int_part x else (- Int_part (- x))%Z.
Fixpoint lmin (l : list R) : R := match l with [] => 0 | [x] => x | x :: r => Rmin x (lmin r) end.
Definition bin_samples (samples : list R) (rmin rmax : option R) (nbins : nat) (edge_fac : R) : res (list Z * R) :=
  match samples with
  | [] => Err ValueError
  | _ =>
      let mx := lmax samples in let mn := lmin samples in let delta := mx - mn in
      let lo := match rmin with Some v => v | None => mn - delta * edge_fac end in
      let hi := match rmax with Some v => v | None => mx + delta * edge_fac end in
      let r := hi - lo in let dx := r / (INR nbins - 1) in
      bindR (mapR (fun x => bindR (rdivE (x - lo) dx) (fun b => Ok (to_int b))) samples) (fun b => Ok (b, r))
  end.
(** 98-131: [fsolve] start xtol and [brentq] low high xtol solve for a zero of [fixed_point] *)
Definition bandwidth_binned (fsolve : R -> R -> res R) (brentq : R -> R -> R -> res R) (N : R) : option R :=
  match pw N (- 1 / 5) with
  | Err _ => None
  | Ok ns =>
      match fsolve (53 / 100 * ns) (53 / 100 * ns / 20) with
      | Err _ => None
      | Ok h => if Rlt_dec h (19 / 1000 * ns) then match brentq (19 / 1000 * ns) (1 / 2) (h / 20) with Ok h' => Some h' | Err _ => Some h end else Some h
      end
  end.

(** ** Two parameters *)
(** 135-137 *)
Definition K2 (j : nat) : R := (- 1) ^ j * odds j / sqrt (2 * PI).
Definition Kodd (j : nat) : R := match j with O => 1 | _ => odds j / 2 ^ (j + 1) / sqrt PI end.
(** 175-179: [n] is the size - 1; x is the second index *)
Definition psi (n : nat) (a2 : nat -> nat -> R) (s0 s1 : nat) (t : R) : R :=
  let w k s := exp (- II k * (PI ^ 2 * t) + ln (II k) * INR s) in
  (- 1) ^ (s0 + s1) * rsum n (fun j => rsum n (fun i => w i s1 * a2 i j) * w j s0) * PI ^ (2 * (s0 + s1)) / 4.
(** 181-189: [d] is the number of orders to 5 *)
Fixpoint f2d (n : nat) (a2 : nat -> nat -> R) (N t : R) (d s0 s1 : nat) : res R :=
  match d with
  | O => Ok (psi n a2 s0 s1 t)
  | S d' =>
      bindR (f2d n a2 N t d' (S s0) s1) (fun u => bindR (f2d n a2 N t d' s0 (S s1)) (fun v =>
      let const := (1 + (1 / 2) ^ (s0 + s1 + 1)) / 3 in
      bindR (rdivE (- 2 * const * K2 s0 * K2 s1 / N) (u + v)) (fun q =>
      bindR (pw q (1 / (2 + INR (s0 + s1)))) (fun time => Ok (psi n a2 s0 s1 time)))))
  end.
Definition func2d (n : nat) (a2 : nat -> nat -> R) (N : R) (s0 s1 : nat) (t : R) : res R := f2d n a2 N t (5 - (s0 + s1)) s0 s1.
(** 170-173 *)
Definition fixed_point_2D (n : nat) (a2 : nat -> nat -> R) (N t : R) : res R :=
  bindR (func2d n a2 N 0 2 t) (fun a => bindR (func2d n a2 N 2 0 t) (fun b => bindR (func2d n a2 N 1 1 t) (fun c =>
  bindR (pw (2 * PI * N * (a + b + 2 * c)) (- 1 / 3)) (fun time => rdivE (t - time) time)))).
(** 202-207: [F] are the squared absolute values of the Fourier transform, [fr] the frequencies np.fft.fftfreq, [m] the size *)
Definition psi_odd (m : nat) (fr : nat -> R) (F : nat -> nat -> R) (s0 s1 : nat) (t : R) : R :=
  let w k s := exp (- fr k ^ 2 * (4 * PI ^ 2 * t)) * fr k ^ s in
  rsum m (fun j => rsum m (fun i => w i s1 * F i j) * w j s0) * (2 * PI) ^ (s0 + s1).
(** 191-200: [d] is the number of steps of two orders to 10; None is nan *)
Fixpoint f2o (m : nat) (fr : nat -> R) (F : nat -> nat -> R) (p00 N t : R) (d s0 s1 : nat) : option R :=
  match d with
  | O => Some (psi_odd m fr F s0 s1 t)
  | S d' =>
      match f2o m fr F p00 N t d' (S (S s0)) s1, f2o m fr F p00 N t d' s0 (S (S s1)) with
      | Some u, Some v =>
          let const := 8 * (1 - / 2 ^ (s0 + s1 + 1)) / 3 in
          match rdivE (const * p00 * Kodd s0 * Kodd s1 / N ^ 2) ((u + v) ^ 2) with
          | Ok q => match pw q (1 / (3 + INR (s0 + s1))) with Ok time => Some (psi_odd m fr F s0 s1 time) | Err _ => None end
          | Err _ => None
          end
      | _, _ => None
      end
  end.
Definition func2d_odd (m : nat) (fr : nat -> R) (F : nat -> nat -> R) (p00 N : R) (s0 s1 : nat) (t : R) : option R := f2o m fr F p00 N t ((10 - (s0 + s1)) / 2) s0 s1.
(** the elements of p that are used *)
Record moments := mkMom { p40 : R; p04 : R; p22 : R; p31 : option R; p13 : option R }.
Definition NotPositive : exn := OtherError (L "bias not positive definite").
(** 209-224; None is nan or inf *)
Definition AMISE (p : moments) (N hx hy c : R) : res (option R) :=
  match p31 p, p13 p with
  | Some q31, Some q13 =>
      let bias := 1 / 4 * (hx ^ 4 * p40 p + hy ^ 4 * p04 p + 2 * hx ^ 2 * hy ^ 2 * p22 p * (2 * c ^ 2 + 1) + 4 * c * hx * hy * (hx ^ 2 * q31 + hy ^ 2 * q13)) in
      if Rlt_dec bias 0 then Err NotPositive
      else if Rlt_dec 0 (1 - c ^ 2) then
        if Req_EM_T (4 * PI * hx * hy * sqrt (1 - c ^ 2) * N) 0 then Ok None else Ok (Some (1 / (4 * PI * hx * hy * sqrt (1 - c ^ 2) * N) + bias))
      else Ok None
  | _, _ => Ok None
  end.
(** < of floats with nan *)
Definition ltn (x y : option R) : bool := match x, y with Some a, Some b => if Rlt_dec a b then true else false | _, _ => false end.
(** 226-242 *)
Definition diag_h (n : nat) (a2 : nat -> nat -> R) (N tstar : R) : res (R * R * R * (R * R)) :=
  bindR (func2d n a2 N 0 2 tstar) (fun p_02 => bindR (func2d n a2 N 2 0 tstar) (fun p_20 => bindR (func2d n a2 N 1 1 tstar) (fun p_11 =>
  bindR (pw p_02 (3 / 4)) (fun u => bindR (pw p_20 (3 / 4)) (fun v =>
  let den := 4 * PI * N * (p_11 + sqrt (p_20 * p_02)) in
  bindR (rdivE u (den * v)) (fun qx => bindR (pw qx (1 / 6)) (fun hx =>
  bindR (rdivE v (den * u)) (fun qy => bindR (pw qy (1 / 6)) (fun hy => Ok (p_02, p_20, p_11, (hx, hy))))))))))).
(** 260-286: [min1] minimizes with the correlation fixed, [min2] with it free; None: an exception or no success *)
Definition choose (p : moments) (N corr hx hy : R) (min1 : R -> R -> option (R * R)) (min2 : R -> R -> R -> option (R * R * R)) : res (R * R * R) :=
  bindR (AMISE p N hx hy 0) (fun A0 =>
  let keep := (hx, hy, 0, A0) in
  let '(hx1, hy1, c1, A1) :=
    if Req_EM_T corr 0 then keep
    else match min1 (hx / sqrt (1 - Rabs corr)) (hy / sqrt (1 - Rabs corr)) with
         | Some (a, b) => match AMISE p N a b corr with Ok A => if ltn A A0 then (a, b, corr, A) else keep | Err _ => keep end
         | None => keep
         end in
  Ok (match min2 hx1 hy1 corr with
      | Some (a, b, c) => match AMISE p N a b c with Ok A => if ltn A (option_map (fun x => x * (9 / 10)) A1) then (a, b, c) else (hx1, hy1, c1) | Err _ => (hx1, hy1, c1) end
      | None => (hx1, hy1, c1)
      end)).
(** 226-286; [odd]: func2d_odd for p00 *)
Definition get_h (n : nat) (a2 : nat -> nat -> R) (N corr tstar : R) (do_corr : bool) (odd : R -> nat -> nat -> R -> option R)
    (min1 : R -> R -> option (R * R)) (min2 : R -> R -> R -> option (R * R * R)) : res (R * R * R) :=
  bindR (diag_h n a2 N tstar) (fun q => let '(p_02, p_20, p_11, (hx, hy)) := q in
  if do_corr then
    bindR (func2d n a2 N 0 0 tstar) (fun p00 =>
    choose (mkMom p_20 p_02 p_11 (odd p00 3%nat 1%nat tstar) (odd p00 1%nat 3%nat tstar)) N corr hx hy min1 min2)
  else Ok (hx, hy, 0)).
(** 151-168: [root] is brentq(self._bandwidth_fixed_point_2D, 0, 0.1) *)
Definition t_star (root : res R) (fallback : option R) : res R :=
  match root with
  | Ok t => match fallback with
            | Some fb => if Req_EM_T fb 0 then Ok t else if Rlt_dec (1 / 100) t then if Rlt_dec (2 * fb) t then Ok fb else Ok t else Ok t
            | None => Ok t
            end
  | Err e => match fallback with Some fb => Ok fb | None => Err e end
  end.

(** ** mcsamples.py 1195-1306 *)
Record par2 := mkPar2 { has_bot : bool; has_top : bool; rmin : R; rmax : R; sigma : R }.
Definition has_limits (p : par2) : bool := has_bot p || has_top p.
(** 1220-1226 *)
Definition choose_Neff (given : option R) (use2D : option bool) (setting : bool) (corr n2 nx ny : R) : R :=
  match given with
  | Some v => v
  | None => if (match use2D with Some b => b | None => setting end) && (if Rlt_dec (Rabs corr) (999 / 1000) then true else false) then n2 else Rmin nx ny
  end.
(** 1240, 1284 *)
Definition cut_corr (corr mc : R) : R := Rmax (Rmin corr mc) (- mc).
Definition is_ValueError (e : exn) : bool := match e with ValueError => true | _ => false end.
(** 1232-1240, 1280-1281, 1294-1295 *)
Definition with_fallback (raises : bool) (px py : par2) (N corr mc : R) (r : res (R * R * R)) : res (R * R * R) :=
  match r with
  | Ok h => Ok h
  | Err e => if is_ValueError e then if raises then Err BandwidthError else Ok (sigma px / Rpower N (1 / 6), sigma py / Rpower N (1 / 6), cut_corr corr mc) else Err e
  end.
(** 1247-1256: whether the parameters are exchanged, and the limits of the first *)
Definition shear_limits (px py : par2) : bool * option R * option R :=
  let lo := if has_bot px then Some (rmin px) else None in let hi := if has_top px then Some (rmax px) else None in
  if has_limits py then (true, if has_bot py then Some (rmin py) else lo, if has_top py then Some (rmax py) else hi) else (false, lo, hi).
(** 1258-1265: the rows r and S of the Cholesky factor (l00, l10, l11) *)
Definition shear_r (l : R * R * R) : R * R := let '(l00, l10, l11) := l in let i00 := 1 / l00 in (- l10 / (l00 * l11) / i00, 1 / l11 / i00).
Definition shear_S (l : R * R * R) : R * R * R := let '(l00, l10, l11) := l in let i00 := 1 / l00 in (l00 * i00, l10 * i00, l11 * i00).
(** 1266-1275: S.dot(...).dot(S.T), and widths and correlation *)
Definition derotate (S : R * R * R) (hx hy c : R) : R * R * R :=
  let '(s00, s10, s11) := S in
  let k00 := s00 * hx ^ 2 * s00 in
  let k01 := s00 * hx ^ 2 * s10 + s00 * (hx * hy * c) * s11 in
  let k11 := (s10 * hx ^ 2 + s11 * (hx * hy * c)) * s10 + (s10 * (hx * hy * c) + s11 * hy ^ 2) * s11 in
  (sqrt k00, sqrt k11, k01 / sqrt (k00 * k11)).
(** 1228-1306; [chol], [xs], [ys]: Cholesky factor of the covariance and samples of x and y; [optS]: the optimizer of the sheared bins; [optD]: that of the given bins;
    both for do_correlation *)
Definition bandwidth2D (chol : bool -> res (R * R * R)) (xs ys : list R) (nb : nat) (optS : bool -> list Z -> list Z -> res (R * R * R)) (optD : bool -> res (R * R * R))
    (raises : bool) (px py : par2) (N corr rangex rangey min_corr mc : R) (order : nat) : res (R * R * R) :=
  let hl := has_limits px || has_limits py in
  let do_correlated := negb (has_limits px) || negb (has_limits py) in
  bindR (if (if Rlt_dec min_corr (Rabs corr) then true else false) && (if Rle_dec (Rabs corr) mc then true else false) && do_correlated then
           let '(sw, lo, hi) := shear_limits px py in
           let u := if sw then ys else xs in let v := if sw then xs else ys in
           bindR (chol sw) (fun l =>
           let '(r0, r1) := shear_r l in
           bindR (bin_samples u lo hi nb (1 / 10)) (fun b1 =>
           bindR (bin_samples (map (fun z => r0 * fst z + r1 * snd z) (combine u v)) None None nb (1 / 10)) (fun b2 =>
           with_fallback raises px py N corr mc (bindR (optS (negb hl) (fst b1) (fst b2)) (fun h =>
             let '(hx, hy, c) := h in let '(kx, ky, kc) := derotate (shear_S l) (hx * snd b1) (hy * snd b2) c in Ok (if sw then (ky, kx, kc) else (kx, ky, kc)))))))
         else if (if Rlt_dec mc (Rabs corr) then true else false) || (negb do_correlated && (if Rlt_dec (8 / 10) corr then true else false)) then
           Ok (sigma px / Rpower N (1 / 6), sigma py / Rpower N (1 / 6), cut_corr corr mc)
         else with_fallback raises px py N corr mc (bindR (optD (negb hl)) (fun h => let '(hx, hy, c) := h in Ok (hx * rangex, hy * rangey, c)))) (fun h =>
  let '(hx, hy, c) := h in
  if Nat.eqb order 0 then Ok (hx, hy, c)
  else let scale := 11 / 10 * Rpower N (1 / 6 - 1 / (2 + 4 * (1 + INR order))) in Ok (hx * scale, hy * scale, c)).
