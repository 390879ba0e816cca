(** Hubble constant and element abundances: source/HST.f90 8-59, source/bbn.f90 11-52, source/ElementAbundances.f90 51-116.
    Numbers are real (constants of single precision have the value that they have in single precision).  A setting that is not there is None.
    The tables of predictions are a function of the name of the file, the column, the density of baryons and the number of extra neutrinos;
    none has been read when the settings are read.  Not modelled: interpolation in the tables (TInterpGrid2D), names longer than 128 characters. *)
From Coq Require Import Reals String Bool.
From Verif Require Import BaoModel.
Local Open Scope R_scope.

(** ** Hubble constant *)
Record hubble := mkHub { angconversion : R; zeff : R; hub_H0 : R; H0_err : R; needs_background : bool }.
(** HST.f90 31-42: settings Hubble_H0, Hubble_H0_err, Hubble_zeff, Hubble_angconversion; default values 9, 15 *)
Definition HST_Add (use_HST : bool) (s_H0 s_err s_zeff s_conv : option R) : out (option hubble) :=
  if negb use_HST then Ok None
  else match s_H0, s_err with
       | Some h, Some e =>
           let z := match s_zeff with Some z => z | None => 4 / 100 end in
           if Rlt_dec 0 z
           then Ok (Some (mkHub (match s_conv with Some c => c | None => 114258 / 10 end) z h e true))
           else Ok (Some (mkHub (114258 / 10) z h e false))
       | _, _ => Stop
       end.
(** 46-59; [D_A] is the angular diameter distance of the calculator, [h0] the Hubble constant of the model *)
Definition HST_theory (t : hubble) (D_A : R -> R) (h0 : R) : R :=
  if Rlt_dec 0 (zeff t) then angconversion t / D_A (zeff t) else h0.
Definition HST_LnLike (t : hubble) (D_A : R -> R) (h0 : R) : R :=
  (HST_theory t D_A h0 - hub_H0 t) ^ 2 / (2 * H0_err t ^ 2).

(** ** Predictions of nucleosynthesis *)
(** bbn.f90 34-36: 1.673575e-27 and 3.9715 in single precision *)
Definition m_H : R := 4344849 / 2596148429267413814265248164610048.
Definition not4 : R := 8328839 / 2097152.
Definition m_He : R := m_H * not4.
(** 29-40 *)
Definition GetYPBBN (Yhe : R) : R := 4 * m_H * Yhe / (m_He - Yhe * (m_He - 4 * m_H)).
(** 11-25: a table is a file and the column of its values *)
Record table := mkTable { data_file : string; data_col : nat }.
Definition standard_file : string := "PArthENoPE_880.2_standard.dat".
Definition BBN_YHe : table := mkTable standard_file 4.
Definition BBN_YpBBN : table := mkTable standard_file 5.
Definition BBN_YpBBN_err : table := mkTable standard_file 6.
Definition BBN_DH : table := mkTable standard_file 7.
Definition BBN_DH_err : table := mkTable standard_file 8.

(** ** Abundances *)
Record settings := mkSet { s_measurement : option string; s_mean : option R; s_error : option R; s_offset : option R;
                           s_effective : option R; s_table : option string }.
(** [source]: what the theory is: the helium fraction of the model, or tables of the value and of its error *)
Inductive prediction := FromModel | FromTables (value error : table).
Record abund := mkAb { ab_source : prediction; ab_mean : R; ab_error : R; ab_offset : R; ab_effective : R }.
(** CosmologyTypes: standard_neutrino_neff *)
Definition neff : R := 3046 / 1000.
(** ElementAbundances.f90 58-72 *)
Definition measured (consistency : bool) (m : option string) : out prediction :=
  match m with
  | None => Stop
  | Some m =>
      if String.eqb m "Yp" then (if consistency then Ok (FromTables BBN_YpBBN BBN_YpBBN_err) else Ok FromModel)
      else if String.eqb m "D/H" then (if consistency then Ok (FromTables BBN_DH BBN_DH_err) else Stop)
      else Stop
  end.
(** 76-87: the tables are replaced; where the table of errors is to be replaced, line 85 names the table of values once more *)
Definition set_file (t : table) (f : string) : table := mkTable f (data_col t).
Definition other_table (name : string) (eff : R) (p : prediction) : prediction :=
  match p with
  | FromModel => FromModel
  | FromTables v e =>
      if negb (String.eqb name "") && negb (String.eqb name (data_file v)) then
        let v1 := set_file v name in
        if Req_EM_T eff 0 then FromTables (set_file v1 name) e else FromTables v1 e
      else FromTables v e
  end.
(** 51-90 *)
Definition Abundance_ReadIni (consistency : bool) (s : settings) : out abund :=
  bind (measured consistency (s_measurement s)) (fun p =>
  match s_mean s, s_error s with
  | Some m, Some e =>
      match p with
      | FromModel => Ok (mkAb FromModel m e 0 0)
      | FromTables _ _ =>
          let off := match s_offset s with Some x => x | None => 0 end in
          let eff := match s_effective s with Some x => x | None => 0 end in
          let name := match s_table s with Some x => x | None => ""%string end in
          Ok (mkAb (other_table name eff p) m e off eff)
      end
  | _, _ => Stop
  end).
(** 92-116; [T] are the tables, [ombh2], [nnu], [yhe] the model *)
Definition theory_error (T : string -> nat -> R -> R -> R) (a : abund) (er : table) (ombh2 nnu : R) : R :=
  if Rlt_dec 0 (ab_effective a) then ab_effective a else T (data_file er) (data_col er) ombh2 (nnu - neff).
Definition Abundance_LnLike (T : string -> nat -> R -> R -> R) (a : abund) (ombh2 nnu yhe : R) : R :=
  match ab_source a with
  | FromModel => (GetYPBBN yhe - ab_mean a) ^ 2 / ab_error a ^ 2 / 2
  | FromTables v er =>
      let theoryval := T (data_file v) (data_col v) ombh2 (nnu - neff) in
      let theoryerr := theory_error T a er ombh2 nnu in
      (theoryval + ab_offset a - ab_mean a) ^ 2 / (2 * (ab_error a ^ 2 + theoryerr ^ 2))
  end.
