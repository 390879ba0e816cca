(** Model of the foregrounds of the BICEP, Keck and Planck likelihood, source/CMB_BK_Planck.f90.
    Numbers are real.  None is a value that is not finite (a power or logarithm of a number that is not positive, or a division by zero); reading outside an array is None too.
    Left out: reading of files and settings; the spectra are a function of two maps (1-based, j <= i) and the multipole. *)
From Coq Require Import Reals Bool.
From Verif Require Import PyStr CnvgModel ConvModel.
From Coq Require Import List.
Import ListNotations.
Local Open Scope R_scope.

(** 9-12 *)
Definition T_CMB : R := 272548 / 100000.
Definition planck_h : R := 662606957 / 100000000 / 10 ^ 34.
Definition kB : R := 13806488 / 10000000 / 10 ^ 23.
Definition Ghz_Kelvin : R := planck_h / kB * 10 ^ 9.
(** 14-19: frequencies and responses are the columns of R *)
Record bandpass := mkBand { rows : list (R * R); dnu : list R; th_dust : R; th_sync : R; nu_bar : R }.
Definition nu (rs : list (R * R)) (i : nat) : R := fst (nth i rs (0, 0)).
Definition resp (rs : list (R * R)) (i : nat) : R := snd (nth i rs (0, 0)).
Definition posb (x : R) : bool := if Rlt_dec 0 x then true else false.
Definition nonneg (x : R) : bool := if Rle_dec 0 x then true else false.
Definition zerob (x : R) : bool := if Req_EM_T x 0 then true else false.
(** 82-87 *)
Definition widths (rs : list (R * R)) : list R := let n := length rs in
  map (fun i => if Nat.eqb i 0 then nu rs 1 - nu rs 0 else if Nat.eqb i (n - 1) then nu rs (n - 1) - nu rs (n - 2) else (nu rs (i + 1) - nu rs (i - 1)) / 2) (seq 0 n).
(** 92-99 *)
Definition thermo (x : R) : R := x ^ 4 * exp (Ghz_Kelvin * x / T_CMB) / (exp (Ghz_Kelvin * x / T_CMB) - 1) ^ 2.
(** 72-105 *)
Definition ReadBandpass (fpivot_dust fpivot_sync : R) (rs : list (R * R)) : option bandpass :=
  let n := length rs in
  if Nat.ltb n 2 then None else
  let d := widths rs in
  if negb (forallb (fun r => posb (fst r)) rs && posb fpivot_dust && posb fpivot_sync) then None else
  let th_int := rsum n (fun i => nth i d 0 * resp rs i * nu rs i ^ 4 * exp (Ghz_Kelvin * nu rs i / T_CMB) / (exp (Ghz_Kelvin * nu rs i / T_CMB) - 1) ^ 2) in
  let tot := rsum n (fun i => nth i d 0 * resp rs i) in
  if zerob tot then None else
  Some (mkBand rs d (th_int / thermo fpivot_dust) (th_int / thermo fpivot_sync) (rsum n (fun i => nth i d 0 * nu rs i * resp rs i) / tot)).
(** 131-134, 170-173 *)
Definition th_error (b : bandpass) (err : R) : R :=
  err ^ 4 * exp (Ghz_Kelvin * nu_bar b * (err - 1) / T_CMB) * (exp (Ghz_Kelvin * nu_bar b / T_CMB) - 1) ^ 2 / (exp (Ghz_Kelvin * nu_bar b * err / T_CMB) - 1) ^ 2.
(** 109-146 *)
Definition DustScaling (beta Tdust : R) (b : bandpass) (nu0 err : R) : option R :=
  let rs := rows b in
  if zerob Tdust || zerob (th_dust b) then None else
  let gb_int := rsum (length rs) (fun i => nth i (dnu b) 0 * resp rs i * Rpower (nu rs i) (3 + beta) / (exp (Ghz_Kelvin * nu rs i / Tdust) - 1)) in
  let gb0 := Rpower nu0 (3 + beta) / (exp (Ghz_Kelvin * nu0 / Tdust) - 1) in
  if zerob (err - 1) then Some (gb_int / gb0 / th_dust b * (1 / 1)) else
  if negb (posb err) || zerob (nu_bar b) then None else
  let gb_err := Rpower err (3 + beta) * (exp (Ghz_Kelvin * nu_bar b / Tdust) - 1) / (exp (Ghz_Kelvin * nu_bar b * err / Tdust) - 1) in
  Some (gb_int / gb0 / th_dust b * (gb_err / th_error b err)).
(** 150-183 *)
Definition SyncScaling (beta : R) (b : bandpass) (nu0 err : R) : option R :=
  let rs := rows b in
  if zerob (th_sync b) then None else
  let pl_int := rsum (length rs) (fun i => nth i (dnu b) 0 * resp rs i * Rpower (nu rs i) (2 + beta)) in
  let pl0 := Rpower nu0 (2 + beta) in
  if zerob (err - 1) then Some (pl_int / pl0 / th_sync b * (1 / 1)) else
  if negb (posb err) || zerob (nu_bar b) then None else
  Some (pl_int / pl0 / th_sync b * (Rpower err (2 + beta) / th_error b err)).
(** 59-61, 199-208 *)
Inductive lform := flat | lin | quad | other.
Definition lpivot : R := 80.
Definition scl_ell (f : lform) (l : nat) : R := match f with flat => 1 | lin => INR l / lpivot | quad => (INR l / lpivot) ^ 2 | other => 1 end.
(** 187-227 *)
Definition Decorrelation (Delta nu0 nu1 : R) (pivot : R * R) (l : nat) (f : lform) : option R :=
  if zerob nu1 || negb (posb (nu0 / nu1)) || zerob (snd pivot) || negb (posb (fst pivot / snd pivot)) || zerob (ln (fst pivot / snd pivot)) then None else
  let scl_nu := ln (nu0 / nu1) ^ 2 / ln (fst pivot / snd pivot) ^ 2 in
  if Rlt_dec 1 Delta then (if posb (2 - Delta) then Some (2 - exp (ln (2 - Delta) * scl_nu * scl_ell f l)) else None)
  else if posb Delta then Some (exp (ln Delta * scl_nu * scl_ell f l)) else None.

(** 251-262: the parameters by place *)
Record foregrounds := mkFg { Adust : R; Async : R; alphadust : R; betadust : R; Tdust : R; alphasync : R; betasync : R; dustsync_corr : R;
                             EEtoBB_dust : R; EEtoBB_sync : R; Delta_dust : R; Delta_sync : R }.
Definition par (ps : list R) (k : nat) : R := nth (k - 1) ps 0.
Definition fg_of (ps : list R) : foregrounds := mkFg (par ps 1) (par ps 2) (par ps 3) (par ps 4) (par ps 5) (par ps 6) (par ps 7) (par ps 8) (par ps 9) (par ps 10) (par ps 11) (par ps 12).
(** 266-275; index(s, sub) > 0 is [contains] *)
Definition bandcenter_err (ps : list R) (name : str) : R :=
  if contains (L "95") name then par ps 13 + par ps 14 + 1 else if contains (L "150") name then par ps 13 + par ps 15 + 1 else if contains (L "220") name then par ps 13 + par ps 16 + 1 else 1.
Record maps := mkMaps { m_names : list str; m_bands : list bandpass; fpivot_dust : R; fpivot_sync : R; pivot_dust : R * R; pivot_sync : R * R; form_dust : lform; form_sync : lform }.
Definition no_band : bandpass := mkBand [] [] 0 0 0.
Definition band (m : maps) (i : nat) : bandpass := nth (i - 1) (m_bands m) no_band.
Definition err_of (m : maps) (ps : list R) (i : nat) : R := bandcenter_err ps (nth (i - 1) (m_names m) []).
Definition fdust (m : maps) (ps : list R) (i : nat) : option R := DustScaling (betadust (fg_of ps)) (Tdust (fg_of ps)) (band m i) (fpivot_dust m) (err_of m ps i).   (* 277 *)
Definition fsync (m : maps) (ps : list R) (i : nat) : option R := SyncScaling (betasync (fg_of ps)) (band m i) (fpivot_sync m) (err_of m ps i).                      (* 278 *)
(** 281-286, for l > 0 *)
Definition ell_power (l : nat) (a : R) : R := Rpower (INR l / lpivot) a.
(** 289-290: 1d-5 *)
Definition need_decorr (D : R) : bool := if Rlt_dec (1 / 100000) (Rabs (D - 1)) then true else false.
(** 313-330 *)
Definition deltap (D : R) (m : maps) (ps : list R) (pivot : R * R) (f : lform) (i j l : nat) : option R :=
  if need_decorr D && negb (Nat.eqb i j) then Decorrelation D (nu_bar (band m i) * err_of m ps i) (nu_bar (band m j) * err_of m ps j) pivot l f else Some 1.
(** 2 is E and 3 is B *)
Record spectrum := mkSpec { theory_i : nat; theory_j : nat; cl : nat -> R }.
(** 293-338: the spectrum of maps i and j after foregrounds are added at multipole l *)
Definition AddForegrounds (m : maps) (ps : list R) (Cls : nat -> nat -> spectrum) (i j l : nat) : option R :=
  let C := Cls i j in let p := fg_of ps in
  let ee := Nat.eqb (theory_i C) 2 && Nat.eqb (theory_j C) 2 in
  if ee || (Nat.eqb (theory_i C) 3 && Nat.eqb (theory_j C) 3) then
    match fdust m ps i, fdust m ps j, fsync m ps i, fsync m ps j, deltap (Delta_dust p) m ps (pivot_dust m) (form_dust m) i j l, deltap (Delta_sync p) m ps (pivot_sync m) (form_sync m) i j l with
    | Some di, Some dj, Some si, Some sj, Some Dd, Some Ds =>
      if negb (nonneg (Adust p * Async p)) || (ee && negb (nonneg (EEtoBB_dust p * EEtoBB_sync p))) then None else
      let dust := di * dj * (if ee then EEtoBB_dust p else 1) in
      let sync := si * sj * (if ee then EEtoBB_sync p else 1) in
      let dustsync := (di * sj + si * dj) * (if ee then sqrt (EEtoBB_dust p * EEtoBB_sync p) else 1) in
      Some (cl C l + dust * (Adust p * ell_power l (alphadust p)) * Dd + sync * (Async p * ell_power l (alphasync p)) * Ds
            + dustsync * (dustsync_corr p * sqrt (Adust p * Async p) * ell_power l ((alphadust p + alphasync p) / 2)))
    | _, _, _, _, _, _ => None
    end
  else Some (cl C l).
