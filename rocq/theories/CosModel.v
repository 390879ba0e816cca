(** Parameterizations of cosmology: source/CosmologyParameterizations.f90 (TP_NonBaseParameterPriors 89-112, TP_ParamArrayToTheoryParams 114-186,
    TP_CalcDerivedParams 188-269, SetFast 271-278, SetForH 280-344, BK_* 346-414, AP_* 416-537), source/GeneralTypes.f90 155-162,
    source/Calculator_Cosmology.f90 9-11, source/CosmologyTypes.f90 8-20, 109-122, and the files paramnames/*.paramnames.
    Real numbers are exact.  InitPower has the 8 values that are used (last_power_index); reserved is not kept.
    What the calculator gives (the angle theta, the redshift of reionization) and the tables of nucleosynthesis are arguments. *)
From Coq Require Import Reals List Bool Arith.
From Verif Require Import McmcModel.
Import ListNotations.
Local Open Scope R_scope.

(** CosmologyTypes.f90 109-122; [base] is BaseParams(1:num_theory_params) of GeneralTypes.f90 23 *)
Record cmb := mkC {
  base : list R; initp : list R;
  omb : R; omc : R; omv : R; omnu : R; omk : R; omdm : R; ombh2 : R; omch2 : R; omnuh2 : R; omdmh2 : R;
  zre : R; zre_delta : R; nufrac : R; h : R; H0 : R; tau : R; w : R; wa : R; YHe : R; nnu : R; iso : R; ALens : R; ALensf : R; fdm : R; sterile : R; mnu_std : R }.

(** x**y for y > 0; zero for x <= 0, where Fortran gives zero or no number *)
Definition fpow (x y : R) : R := if Rlt_dec 0 x then Rpower x y else 0.
(** Calculator_Cosmology.f90 9-11 *)
Definition mass_fac : R := 9407 / 100.
Definition std_neff : R := 3046 / 1000.
Definition num_hard : nat := 16.
Definition num_theory : nat := 24.
(** Params%P(i) *)
Definition P (p : list R) (i : nat) : R := nth (i - 1) p 0.

(** 271-278, with index_initpower = 17 and As_index = 1 *)
Definition fast_of (p : list R) : list R := exp (P p 17) :: map (P p) (seq 18 7).
(** GeneralTypes.f90 160 *)
Definition base_of (p : list R) : list R := map (P p) (seq 1 num_theory).

Section Cosmology.
  Variable bbn : bool.                        (* bbn_consistency *)
  Variable degenerate : bool.                 (* neutrino_hierarchy == neutrino_hierarchy_degenerate *)
  Variable BBN_YHe : R -> R -> option R.      (* None: error *)
  Variable Theta : cmb -> R.                  (* CMBToTheta *)
  Variable Zre : cmb -> R.                    (* GetZreFromTau *)
  Variables H0_min H0_max : R.

  (** 301-306 *)
  Definition standard_nu (mnu nnu : R) : R :=
    if (if Rlt_dec std_neff nnu then true else false) || negb degenerate then mnu / mass_fac * fpow (std_neff / 3) (75 / 100)
    else mnu / mass_fac * fpow (nnu / 3) (75 / 100).
  (** 291-334, firsttime; the second result is error /= 0 *)
  Definition first_time (p : list R) (c : cmb) : cmb * bool :=
    let nn := P p 10 in
    let st := P p 7 / mass_fac in
    let nu := standard_nu (P p 6) nn + st in
    let dm := P p 2 + nu in
    let e1 := (if Rlt_dec 0 st then true else false) && (if Rlt_dec nn std_neff then true else false) in
    let y := if bbn then BBN_YHe (P p 1) (nn - std_neff) else Some (P p 11) in
    (mkC (base c) (fast_of p) (omb c) (omc c) (omv c) (omnu c) (P p 5) (omdm c) (P p 1) (P p 2) nu dm
         (zre c) (P p 13) (nu / dm) (h c) (H0 c) (P p 4) (P p 8) (P p 9) (match y with Some v => v | None => YHe c end) nn (P p 12) (P p 14) (P p 15) (P p 16) st (P p 6),
     e1 || match y with Some _ => false | None => true end).
  (** 290, 336-342 *)
  Definition for_h (c : cmb) (H : R) : cmb :=
    let hh := H / 100 in
    let h2 := hh * hh in
    mkC (base c) (initp c) (ombh2 c / h2) (omch2 c / h2) (1 - omk c - ombh2 c / h2 - omdmh2 c / h2) (omnuh2 c / h2) (omk c) (omdmh2 c / h2)
        (ombh2 c) (omch2 c) (omnuh2 c) (omdmh2 c) (zre c) (zre_delta c) (nufrac c) hh H (tau c) (w c) (wa c) (YHe c) (nnu c) (iso c) (ALens c) (ALensf c) (fdm c) (sterile c) (mnu_std c).
  Definition set_base (p : list R) (c : cmb) : cmb :=
    mkC (base_of p) (initp c) (omb c) (omc c) (omv c) (omnu c) (omk c) (omdm c) (ombh2 c) (omch2 c) (omnuh2 c) (omdmh2 c) (zre c) (zre_delta c) (nufrac c) (h c) (H0 c)
        (tau c) (w c) (wa c) (YHe c) (nnu c) (iso c) (ALens c) (ALensf c) (fdm c) (sterile c) (mnu_std c).
  (** 271-278 *)
  Definition SetFast (p : list R) (c : cmb) : cmb :=
    mkC (base c) (fast_of p) (omb c) (omc c) (omv c) (omnu c) (omk c) (omdm c) (ombh2 c) (omch2 c) (omnuh2 c) (omdmh2 c) (zre c) (zre_delta c) (nufrac c) (h c) (H0 c)
        (tau c) (w c) (wa c) (YHe c) (nnu c) (iso c) (ALens c) (ALensf c) (fdm c) (sterile c) (mnu_std c).
  Definition set_zre (c : cmb) (z : R) : cmb :=
    mkC (base c) (initp c) (omb c) (omc c) (omv c) (omnu c) (omk c) (omdm c) (ombh2 c) (omch2 c) (omnuh2 c) (omdmh2 c) z (zre_delta c) (nufrac c) (h c) (H0 c)
        (tau c) (w c) (wa c) (YHe c) (nnu c) (iso c) (ALens c) (ALensf c) (fdm c) (sterile c) (mnu_std c).
  Definition set_H0 (c : cmb) (x : R) : cmb :=
    mkC (base c) (initp c) (omb c) (omc c) (omv c) (omnu c) (omk c) (omdm c) (ombh2 c) (omch2 c) (omnuh2 c) (omdmh2 c) (zre c) (zre_delta c) (nufrac c) (h c) x
        (tau c) (w c) (wa c) (YHe c) (nnu c) (iso c) (ALens c) (ALensf c) (fdm c) (sterile c) (mnu_std c).

  (** 160-171; None: the loop does not end within the fuel *)
  Fixpoint bisect (fuel : nat) (c : cmb) (b t last DA : R) : option cmb :=
    match fuel with
    | O => None
    | S n =>
        let m := (b + t) / 2 in
        let c := for_h c m in
        let d := Theta c in
        let '(b, t) := if Rlt_dec d DA then (m, t) else (b, m) in
        if Rlt_dec (Rabs (d - last)) 1e-7 then Some c else bisect n c b t d DA
    end.
  (** 141-179 without the cache: None no end, otherwise the parameters and whether they are accepted *)
  Definition fresh (fuel : nat) (p : list R) (c : cmb) : option (cmb * bool) :=
    let c := set_base p c in
    let DA := P p 3 / 100 in
    let '(c, error) := first_time p c in
    let cb := for_h c H0_min in
    if error then Some (set_H0 cb 0, false) else
    let D_b := Theta cb in
    let ct := for_h cb H0_max in
    let D_t := Theta ct in
    if (if Rlt_dec DA D_b then true else false) || (if Rlt_dec D_t DA then true else false) then Some (set_H0 ct 0, false)
    else match bisect fuel ct H0_min H0_max (-1) DA with
         | None => None
         | Some c => Some (set_zre c (if Req_EM_T (tau c) 0 then 0 else Zre c), true)
         end.
  (** 117-131: LastCMB and cache *)
  Record store := mkS { slot1 : cmb; slot2 : cmb; at2 : bool }.
  Fixpoint eqb_list (a b : list R) : bool :=
    match a, b with
    | [], [] => true
    | x :: a, y :: b => (if Req_EM_T x y then true else false) && eqb_list a b
    | _, _ => false
    end.
  (** 133: Params%P(1:num_hard) == LastCMB(i)%BaseParams(1:num_hard) *)
  Definition hit (p : list R) (c : cmb) : bool := eqb_list (firstn num_hard (base_of p)) (firstn num_hard (base c)).
  (** 114-186 *)
  Definition TP (fuel : nat) (s : store) (p : list R) (c : cmb) : option (cmb * store) :=
    if hit p (slot1 s) then Some (SetFast p (set_base p (slot1 s)), s)
    else if hit p (slot2 s) then Some (SetFast p (set_base p (slot2 s)), s)
    else match fresh fuel p c with
         | None => None
         | Some (c, true) => Some (c, if at2 s then mkS (slot1 s) c false else mkS c (slot2 s) true)
         | Some (c, false) => Some (c, s)
         end.

  (** 89-112 *)
  Variables H0_mean H0_std zre_mean zre_std min_zre mphys_max : R.
  Definition Rlt_b (x y : R) : bool := if Rlt_dec x y then true else false.
  Definition TP_prior (c : cmb) : R :=
    if Rlt_b (H0 c) H0_min || Rlt_b H0_max (H0 c) then logZero
    else if Rlt_b (zre c) min_zre then logZero
    else if Rlt_b 0 (sterile c) && Rlt_b std_neff (nnu c) && Rlt_b mphys_max (sterile c * mass_fac / fpow (nnu c - std_neff) (75 / 100)) then logZero
    else (if Req_EM_T H0_mean 0 then 0 else ((H0 c - H0_mean) / H0_std) * ((H0 c - H0_mean) / H0_std) / 2)
         + (if Req_EM_T zre_mean 0 then 0 else ((zre c - zre_mean) / zre_std) * ((zre c - zre_mean) / zre_std) / 2).

  (** 447-499 *)
  Definition AP (p : list R) (c : cmb) : cmb :=
    let hh := P p 3 / 100 in
    let h2 := hh * hh in
    let nu := P p 5 / mass_fac * fpow (std_neff / 3) (75 / 100) in
    let b := P p 2 in
    let cc := P p 1 - b - nu / h2 in
    let dmh2 := cc * h2 + nu in
    mkC (base c) (P p 10 * 10 :: map (P p) (seq 11 7)) b cc (1 - P p 4 - b - dmh2 / h2) (nu / h2) (P p 4) (dmh2 / h2) (b * h2) (cc * h2) nu dmh2
        0 (15 / 10) (nu / dmh2) hh (P p 3) 0 (P p 6) (P p 7)
        (if bbn then match BBN_YHe (b * h2) (P p 8 - std_neff) with Some v => v | None => YHe c end else P p 9) (P p 8) 0 1 1 0 0 (P p 5).
  (** 362-397; zre_delta, ALensf, the power spectrum and sum_mnu_standard are left as they are *)
  Definition BK (p : list R) (c : cmb) : cmb :=
    let hh := P p 2 / 100 in
    let h2 := hh * hh in
    let nu := P p 4 / mass_fac * fpow (std_neff / 3) (75 / 100) in
    let b := P p 1 - nu / h2 in
    let dmh2 := 0 * h2 + nu in
    mkC (base c) (initp c) b 0 (1 - P p 3 - b - dmh2 / h2) (nu / h2) (P p 3) (dmh2 / h2) (b * h2) (0 * h2) nu dmh2
        0 (zre_delta c) (nu / dmh2) hh (P p 2) 0 (P p 5) (P p 6) (24 / 100) (P p 7) 0 1 (ALensf c) 0 (sterile c) (mnu_std c).
End Cosmology.
