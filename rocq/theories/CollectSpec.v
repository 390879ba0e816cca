(** Specification of the collection of samples. *)
From Verif Require Import StatModel StatSpec CollectModel.
From Coq Require Import Reals List Bool ZArith.
Import ListNotations.

(** every t-th point, counted from num *)
Fixpoint every_from {A} (t num : nat) (l : list A) : list A :=
  match l with [] => [] | p :: r => if Nat.eqb ((num + 1) mod t) 0 then p :: every_from t (num + 1) r else every_from t (num + 1) r end.
(** number of steps from a point to the next in which the i-th value changes *)
Fixpoint changes {F} (eqb : F -> F -> bool) (d : F) (i : nat) (l : list (list F)) : nat :=
  match l with
  | x :: (y :: _) as r => (if eqb (nth i y d) (nth i x d) then 0 else 1) + changes eqb d i r
  | _ => 0
  end.
(** the checkpoint that is read: the same but for checkpoint_burn *)
Definition reread {F} (burn : Z) (s : state F) : state F :=
  mkSt (k_thin s) (k_burn s) (k_allburn s) (k_fluke s) (k_min s) (k_updates s) (k_freq s) (k_samples s) (k_num s) (k_maxlike s)
    (k_maxparams s) (k_accept s) (k_cov s) burn.

Local Open Scope R_scope.
(** mean and covariance of the samples of all chains taken together *)
Definition all_n (cs : list chain) : R := sumR (map (fun c => INR (fst c)) cs).
Definition all_mean (cs : list chain) (i : nat) : R := sumR (map (fun c => Sm (fst c) (fun k => snd c k i)) cs) / all_n cs.
Definition all_cov (cs : list chain) (i j : nat) : R :=
  sumR (map (fun c => Sm (fst c) (fun k => (snd c k i - all_mean cs i) * (snd c k j - all_mean cs j))) cs) / all_n cs.

(** the result of the last check before the k-th whose covariance could be inverted *)
Definition before (k : nat) (rs : list (option R * bool)) : option R :=
  fold_left (fun a r => match r with Some x => Some x | None => a end) (map fst (firstn k rs)) None.
(** no chain is empty *)
Definition nonempty (cs : list chain) : Prop := forall c, In c cs -> (0 < fst c)%nat.
(** the conditions for stopping at check k *)
Definition good (o : conv_opts) (n : nat) (f : bool) (rs : list (option R * bool)) (k : nat) : Prop :=
  (1 < n)%nat /\ (exists x lim, nth_error rs k = Some (Some x, lim) /\ x < o_stop o /\ (o_limits o = true -> lim = true)) /\
  match before k rs with Some y => y < o_stop o | None => f = true end.
