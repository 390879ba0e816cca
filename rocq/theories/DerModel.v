(** Derived parameters and their names: source/CosmologyParameterizations.f90 188-269 (TP_CalcDerivedParams), 400-412 (BK), 502-533 (AP),
    the names in paramnames/*.paramnames in the order in which TP_Init (73-84), BK_Init and AP_Init read them,
    source/Calculator_CAMB.f90 136-159 (order of derived_parameters), 866-904 (SetCAMBInitPower).
    Real numbers are exact. *)
From Coq Require Import Reals String List Bool Arith.
From Verif Require Import CosModel.
Import ListNotations.
Local Open Scope R_scope.

(** the parts of TCosmoTheoryPredictions and of the settings that are used *)
Record thy := mkTh {
  sigma8 : R; thermo : list R;          (* derived_parameters(1:numderived) *)
  deflect : R; TT : option (list R);    (* Cls(1,1), from L = 1 *)
  growth : R -> R; sigma8z : R -> R;
  t02 : R; tBB : R; tAT : R; t10 : R }.
Record sett := mkSett { s_bbn : bool; s_LSS : bool; s_tens : bool; s_CMB : bool; pivot : R; zs : list R }.
(** CosmologyTypes.f90 44 *)
Definition z_outputs : list R := [15/100; 38/100; 51/100; 61/100; 233/100].

(** paramnames: varied parameters, and those with a star *)
Definition base_cmb : list string := ["omegabh2"; "omegach2"; "theta"; "tau"; "omegak"; "mnu"; "meffsterile"; "w"; "wa"; "nnu"; "yhe"; "alpha1"; "deltazrei"; "Alens"; "Alensf"; "fdm"; "logA"; "ns"; "nrun"; "nrunrun"; "r"; "nt"; "ntrun"; "Aphiphi"]%string.
Definition der_cmb : list string := ["H0"; "omegal"; "omegam"; "omegamh2"; "omeganuh2"; "omegamh3"; "sigma8"; "S8"; "s8omegamp5"; "s8omegamp25"; "s8h5"; "rdragh"; "rmsdeflect"; "zrei"; "A"; "clamp"; "DL40"; "DL220"; "DL810"; "DL1420"; "DL2000"; "ns02"; "yheused"; "YpBBN"]%string.
Definition base_astro : list string := ["omegam"; "omegab"; "H0"; "omegak"; "mnu"; "w"; "wa"; "nnu"; "yhe"; "A"; "ns"; "nrun"; "nrunrun"; "r"; "nt"; "ntrun"; "Aphiphi"]%string.
Definition der_astro : list string := ["omegabh2"; "omegach2"; "omegal"; "omeganuh2"; "logA"; "sigma8"; "S8"; "s8omegamp5"; "s8omegamp25"]%string.
Definition base_bk : list string := ["omegam"; "H0"; "omegak"; "mnu"; "w"; "wa"; "nnu"]%string.
Definition der_bk : list string := ["omegal"]%string.
Definition der_bbn : list string := ["DHBBN"]%string.
Definition der_theory : list string := ["age"; "zstar"; "rstar"; "thetastar"; "DAstar"; "zdrag"; "rdrag"; "kd"; "thetad"; "zeq"; "keq"; "thetaeq"; "thetarseq"; "Hubble015"; "DM015"; "Hubble038"; "DM038"; "Hubble051"; "DM051"; "Hubble061"; "DM061"; "Hubble233"; "DM233"]%string.
Definition der_LSS : list string := ["fsigma8z015"; "sigma8z015"; "fsigma8z038"; "sigma8z038"; "fsigma8z051"; "sigma8z051"; "fsigma8z061"; "sigma8z061"; "fsigma8z233"; "sigma8z233"]%string.
Definition der_tens : list string := ["r02"; "rBB"; "logAT"; "r10"; "AT"; "ctlamp"]%string.
(** 73-77 *)
Definition TP_names (s : sett) : list string :=
  (der_cmb ++ (if s_bbn s then der_bbn else []) ++ der_theory ++ (if s_LSS s then der_LSS else []) ++ (if s_tens s then der_tens else []))%list.

(** 188-269; None: the program stops, or reads behind the end of the spectrum (230) *)
Definition TP_derived (s : sett) (YpBBN : R -> R) (DH : R -> R -> R) (c : cmb) (t : thy) : option (list R) :=
  let om := omdm c + omb c in
  let A := 1e-10 * nth 0 (initp c) 0 * 1e9 in
  let rat := ln (2/1000 / pivot s) in
  match (if s_CMB s then match TT t with
                         | Some cl => if (length cl <? 2000)%nat then None else Some (map (fun l => nth (l - 1) cl 0) [40; 220; 810; 1420; 2000]%nat)
                         | None => Some (repeat 0 5)
                         end
         else Some (repeat 0 5)) with
  | None => None
  | Some dl =>
      let d := ([H0 c; omv c; om; omdmh2 c + ombh2 c; omnuh2 c; (omdmh2 c + ombh2 c) * h c;
                 sigma8 t; sigma8 t * fpow (om / (3/10)) (5/10); sigma8 t * fpow om (5/10); sigma8 t * fpow om (25/100); sigma8 t / fpow (h c) (5/10);
                 nth 6 (thermo t) 0 * H0 c / 100; deflect t; zre c; A; A * exp (- 2 * tau c)]
                ++ dl ++ [nth 1 (initp c) 0 + nth 2 (initp c) 0 * rat + nth 3 (initp c) 0 * (rat * rat) / 2; YHe c; YpBBN (YHe c)]
                ++ (if s_bbn s then [1e5 * DH (ombh2 c) (nnu c - std_neff)] else [])
                ++ thermo t
                ++ (if s_LSS s then concat (map (fun z => [growth t z; sigma8z t z]) (zs s)) else [])
                ++ (if s_tens s then [t02 t; tBB t; ln (Rmax 1e-15 (tAT t) * 1e10); t10 t; tAT t * 1e9; tAT t * 1e9 * exp (- 2 * tau c)] else []))%list in
      if (length d =? length (TP_names s))%nat then Some d else None
  end.
(** Calculator_CAMB.f90 144-157 *)
Definition SetDerived (thermal : list R) (Hub DA : list R) (zo : list R) : list R :=
  (thermal ++ concat (map (fun i => [nth i Hub 0 * 299792458 / 1e3; nth i DA 0 * (1 + nth i zo 0)]) (seq 0 (length zo))))%list.
(** 502-533 *)
Definition AP_derived (c : cmb) (t : thy) : list R :=
  let om := omdm c + omb c in
  [ombh2 c; omch2 c; omv c; omnuh2 c; ln (nth 0 (initp c) 0); sigma8 t; sigma8 t * fpow (om / (3/10)) (5/10); sigma8 t * fpow om (5/10); sigma8 t * fpow om (25/100)].
(** 400-412 *)
Definition BK_derived (c : cmb) : list R := [omv c].

(** TInitialPowerLaw of CAMB, with the fields that are set or that the tensor spectrum has *)
Record ip := mkIp { i_As : R; i_r : R; i_ns : R; i_nrun : R; i_nrunrun : R; i_At : R; i_nt : R; i_ntrun : R; i_ps : R; i_pt : R; rpivot : bool }.
(** Calculator_CAMB.f90 866-904; None: the program stops *)
Definition SetCAMBInitPower (tens consist : bool) (ps pt : R) (v : list R) (i : ip) : option ip :=
  let r := nth 4 v 0 in
  let ns := nth 1 v 0 in
  if (if Rlt_dec 0 r then true else false) && negb tens then None
  else if consist && negb ((if Req_EM_T (nth 5 v 0) 0 then true else false) && (if Req_EM_T (nth 6 v 0) 0 then true else false)) then None
  else Some (mkIp (1e-10 * nth 0 v 0) r ns (nth 2 v 0) (nth 3 v 0)
              (if consist then - r / 8 * (2 - ns - r / 8) else nth 5 v 0) (i_nt i)
              (if consist then r / 8 * (r / 8 + ns - 1) else nth 6 v 0) ps pt
              (if Req_EM_T pt ps then rpivot i else true)).
