(** The slow parameters, and the run of a program *)
From Coq Require Import Reals List Bool Arith.
From Verif Require Import CosModel.
Import ListNotations.
Local Open Scope R_scope.

(** all but the values of the chain, the initial power spectrum and the redshift of reionization *)
Definition slow (c : cmb) :=
  ((omb c, omc c, omv c, omnu c, omk c), (omdm c, ombh2 c, omch2 c, omnuh2 c, omdmh2 c), (zre_delta c, nufrac c, h c, H0 c, tau c),
   (w c, wa c, YHe c, nnu c, iso c), (ALens c, ALensf c, fdm c, sterile c, mnu_std c)).
Definition slow_only (f : cmb -> R) : Prop := forall c c', slow c = slow c' -> f c = f c'.
(** some slow parameter is not zero *)
Definition proper (p : list R) : Prop := exists i, (1 <= i <= 16)%nat /\ nth (i - 1) p 0 <> 0.
Fixpoint sequence {A : Type} (l : list (option A)) : option (list A) :=
  match l with
  | [] => Some []
  | Some a :: l => match sequence l with Some r => Some (a :: r) | None => None end
  | None :: _ => None
  end.
(** densities add up *)
Definition closed (c : cmb) : Prop :=
  omv c + omk c + omb c + omdm c = 1 /\ omdm c = omc c + omnu c /\ omdmh2 c = omch2 c + omnuh2 c /\ h c = H0 c / 100 /\
  omb c * (h c) ^ 2 = ombh2 c /\ omc c * (h c) ^ 2 = omch2 c /\ omnu c * (h c) ^ 2 = omnuh2 c /\ omdm c * (h c) ^ 2 = omdmh2 c /\ (omdmh2 c <> 0 -> nufrac c * omdmh2 c = omnuh2 c).
