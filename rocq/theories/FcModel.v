(** python/makePerfectForecastDataset.py 13-110: a simulated data set from a file of fiducial spectra.  Arithmetic is that of Python 3 with real numbers; %E keeps seven digits, here the numbers are kept exactly.
    Multipoles are natural numbers.  Not modelled: directories, copying of the file of spectra, writing of the settings as text (the key of line 108 ends with a blank, which IniFile removes when it reads: C149_key), the files left behind by an exception. *)
From Coq Require Import Reals ZArith Bool.
From Verif Require Import PyStr PyBase.
From Coq Require Import List.
Import ListNotations.
Local Open Scope R_scope.

(** the noise of the lensing reconstruction is a list or an array of numpy *)
Inductive lensing := AsList (l : list R) | AsArray (l : list R).
(** arguments of 13-16 but for names of files; [a_comment] is the last comment of the file of spectra, [] if there is none *)
Record fargs := mkF { a_T : option R; a_P : option R; a_var : option R; a_fac : R; a_fwhm : option R; a_lmin : nat; a_lmax : option nat; a_fsky : R;
                      a_fields : str; a_lens : option lensing; a_cols : str; a_comment : str }.
(** values of the settings *)
Inductive sval := VS (s : str) | VN (n : nat) | VR (x : R) | VB (b : bool) | VNone.
(** the settings, the first line of the file of noise without '#', and its rows *)
Record fout := mkFo { o_set : list (str * sval); o_head : str; o_rows : list (Z * list R) }.

Definition UnboundLocal : exn := OtherError (L "UnboundLocalError").
Definition numbers (l : lensing) : list R := match l with AsList v => v | AsArray v => v end.
Definition nonzero (x : R) : bool := if Req_EM_T x 0 then false else true.
(** 39: truth of the argument: an array of more than one element has none *)
Definition truth (l : option lensing) : res bool :=
  match l with
  | None => Ok false
  | Some (AsList v) => Ok (match v with [] => false | _ => true end)
  | Some (AsArray []) => Ok false
  | Some (AsArray [x]) => Ok (nonzero x)
  | Some (AsArray _) => Err ValueError
  end.
(** 40 *)
Definition use_CMB (a : fargs) : bool :=
  (match a_T a with Some t => nonzero t | None => false end) || match a_var a with Some _ => true | None => false end.
(** 45-50: columns and first settings *)
Definition columns (a : fargs) : res (str * list (str * sval)) :=
  match a_cols a with
  | [] => match a_comment a with [] => Err (OtherError (L "input CL file must specific names of columns (TT TE EE..)")) | c => Ok (c, []) end
  | c => Ok (c, [(L "cl_hat_order", VS c)])
  end.
(** 53-60: variance and factor of polarization *)
Definition variance (a : fargs) : res (R * R) :=
  match a_var a with
  | None => match a_T a with
            | None => Err ValueError
            | Some t => Ok ((t * PI / 180 / 60) ^ 2, match a_P a with Some p => (p / t) ^ 2 | None => a_fac a end)
            end
  | Some v => match a_T a, a_P a with None, None => Ok (v, a_fac a) | _, _ => Err ValueError end
  end.
(** 61-66: [if 'TT' or 'TE' in cl_data_cols] is always taken, as a text that is not empty is true *)
Definition fields (a : fargs) (cols : str) : res str :=
  match a_fields a with
  | [] => let f := L "T" in
          let f := f ++ L " E" in
          let f := if contains (L "BB") cols then f ++ L " B" else f in
          if contains (L "PP") cols then bindR (truth (a_lens a)) (fun u => Ok (if u then f ++ L " P" else f)) else Ok f
  | f => Ok f
  end.
(** 77-79 *)
Definition sigma2 (fwhm_arcmin : R) : R := let xlc := 180 * sqrt (8 * ln 2) / PI in (fwhm_arcmin / 60 / xlc) ^ 2.
(** 89 *)
Definition NoiseCl (v s2 : R) (l : nat) : R := INR l * (INR l + 1) / 2 / PI * v * exp (INR l * (INR l + 1) * s2).
(** 92: lens_recon_noise[l] *)
Definition lens_at (o : option lensing) (l : nat) : res R :=
  match o with
  | Some w => if Nat.ltb l (length (numbers w)) then Ok (nth l (numbers w) 0) else Err IndexError
  | None => Err TypeError
  end.
(** 88-93: [cmb] holds variance, factor and sigma2; without it NoiseVar is None *)
Definition row (cmb : option (R * R * R)) (o : option lensing) (l : nat) : res (Z * list R) :=
  match cmb with
  | None => Err TypeError
  | Some (v, fac, s2) =>
      let n := NoiseCl v s2 l in
      let noises := [n; fac * n; fac * n] in
      bindR (truth o) (fun u => if u then bindR (lens_at o l) (fun x => Ok (Z.of_nat l, noises ++ [x])) else Ok (Z.of_nat l, noises))
  end.
Definition rows_of (a : fargs) (cmb : option (R * R * R)) : res (list (Z * list R)) :=
  match a_lmax a with
  | None => Err TypeError
  | Some m => mapR (row cmb (a_lens a)) (seq (a_lmin a) (m + 1 - a_lmin a))
  end.
(** 80-84: names of the columns of noise *)
Definition noise_cols (a : fargs) : res str :=
  if use_CMB a then bindR (truth (a_lens a)) (fun u => Ok (L "TT           EE          BB" ++ (if u then L "          PP" else [])))
  else bindR (truth (a_lens a)) (fun u => if u then Ok (L "PP") else Err UnboundLocal).
(** 95-108 *)
Definition settings (a : fargs) (root : str) (first : list (str * sval)) (f : str) : list (str * sval) :=
  first ++
  [(L "fields_use", VS f); (L "fullsky_exact_fksy", VR (a_fsky a)); (L "dataset_format", VS (L "CMBLike2")); (L "like_approx", VS (L "exact"));
   (L "cl_lmin", VN (a_lmin a)); (L "cl_lmax", match a_lmax a with Some m => VN m | None => VNone end); (L "binned", VB false); (L "cl_hat_includes_noise", VB false);
   (L "cl_hat_file", VS (root ++ L ".dat")); (L "cl_noise_file ", VS (root ++ L "_Noise.dat"))].
(** 39-110 *)
Definition make_forecast (a : fargs) (root : str) : res fout :=
  bindR (columns a) (fun cf =>
  if use_CMB a then
    bindR (variance a) (fun vf =>
    bindR (fields a (fst cf)) (fun f =>
    match a_fwhm a with
    | None => Err TypeError
    | Some w =>
        bindR (noise_cols a) (fun h =>
        bindR (rows_of a (Some (fst vf, snd vf, sigma2 w))) (fun r => Ok (mkFo (settings a root (snd cf) f) (L "L " ++ h) r)))
    end))
  else
    bindR (noise_cols a) (fun h =>
    bindR (rows_of a None) (fun r => Ok (mkFo (settings a root (snd cf) (match a_fields a with [] => L "P" | f => f end)) (L "L " ++ h) r)))).
