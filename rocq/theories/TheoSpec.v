(** What a theory holds for given settings *)
From Coq Require Import Reals List Bool Arith.
From Verif Require Import TheoModel.
Import ListNotations.
Local Open Scope R_scope.

(** a spectrum on the grid x, y *)
Definition on_grid (x y : list R) (o : option pk) : Prop :=
  exists p, o = Some p /\ pk_x p = x /\ pk_y p = y /\ length (pk_z p) = length y /\ Forall (fun r => length r = length x) (pk_z p).
(** the same numbers *)
Definition same_values (o o' : option pk) : Prop :=
  match o, o' with Some p, Some q => pk_x p = pk_x q /\ pk_y p = pk_y q /\ pk_z p = pk_z q | _, _ => False end.
Definition is_log (o : option pk) : Prop := match o with Some p => islog p = true | None => True end.
(** all that is asked for is there, and power spectra are extended already *)
Definition holds {S} (s : settings) (t : theory (S:=S)) : Prop :=
  (forall i j, (1 <= j <= i)%nat -> (i <= num_cls s)%nat -> (0 < lmax s i j)%nat -> exists c, cls t i j = Some c /\ length c = lmax s i j) /\
  (use_matterpower s = true -> exists x y, ln (kmax s) <= last x 0 /\ on_grid x y (MPK t) /\
     (use_nonlinear s = true -> on_grid x y (NL_MPK t)) /\
     (use_Weylpower s = true -> on_grid x y (WEYL t) /\ on_grid x y (CROSS t)) /\
     (use_nonlinear s = true -> use_Weylpower s = true -> on_grid x y (NL_WEYL t) /\ on_grid x y (NL_CROSS t)) /\
     (use_sigmaR s = true -> sigma_R t <> None)) /\
  (use_LSS s = true -> sigma8_z t <> None /\ growth_z t <> None).
(** what comes back from a file with settings [s] *)
Definition scalars_same {S} (t t' : theory (S:=S)) : Prop :=
  derived t' = derived t /\ ratio_02 t' = ratio_02 t /\ ratio_C10 t' = ratio_C10 t /\ ratio_BB t' = ratio_BB t /\ tensor_AT t' = tensor_AT t /\
  rms_deflect t' = rms_deflect t /\ sigma_8 t' = sigma_8 t.
Definition power_same {S} (s : settings) (t t' : theory (S:=S)) : Prop :=
  (use_matterpower s = true -> same_values (MPK t) (MPK t') /\
     (use_nonlinear s = true -> same_values (NL_MPK t) (NL_MPK t')) /\
     (use_Weylpower s = true -> same_values (WEYL t) (WEYL t') /\ same_values (CROSS t) (CROSS t')) /\
     (use_nonlinear s = true -> use_Weylpower s = true -> same_values (NL_WEYL t) (NL_WEYL t') /\ same_values (NL_CROSS t) (NL_CROSS t')) /\
     (use_sigmaR s = true -> sigma_R t' = sigma_R t)) /\
  (use_LSS s = true -> sigma8_z t' = sigma8_z t /\ growth_z t' = growth_z t).
