(** Specifications for the sampler: probabilities of events of independent uniform random numbers, the target distribution,
    reversed paths, run-length encoding and thinning.  Only [MetropolisAccept], [drag_accept] and [drag_step] of the model occur
    (to say which events are meant). *)
From Verif Require Import StatModel StatSpec McmcModel.
From Coq Require Import Reals List Bool ZArith Lia Lra.
Import ListNotations.
Local Open Scope R_scope.
Local Open Scope list_scope.

(** Events of n independent numbers uniform in (0,1) which are boxes [lo,hi) x ... : the probability is the volume. *)
Definition in_box (us : list R) (b : list (R * R)) : Prop := Forall2 (fun u i => fst i <= u < snd i) us b.
Definition volume (b : list (R * R)) : R := fold_right (fun i v => (snd i - fst i) * v) 1 b.
Definition box_ok (b : list (R * R)) : Prop := Forall (fun i => 0 <= fst i <= snd i /\ snd i <= 1) b.
Definition unit_cube (n : nat) (us : list R) : Prop := length us = n /\ Forall (fun u => 0 < u < 1) us.
Definition probability (n : nat) (event : list R -> Prop) (p : R) : Prop :=
  exists b, length b = n /\ box_ok b /\ volume b = p /\ forall us, unit_cube n us -> (event us <-> in_box us b).

(** randexp1() has an exponential distribution: it is minus the logarithm of a uniform number *)
Definition randexp (u : R) : R := - ln u.

(** The target: likelihood exp(-l), zero for LogZero *)
Definition target (l : R) : R := if Req_EM_T l logZero then 0 else exp (- l).

(** the event that a move from likelihood [cur] to [like] is accepted *)
Definition accepts (cur like : R) (us : list R) : Prop :=
  match us with u :: nil => MetropolisAccept like cur (randexp u) = true | _ => False end.

(** ** Paths of the dragging loop: proposals with decisions *)
Definition vneg (a : list R) : list R := map Ropp a.
Definition endpoint (x : list R) (path : list (list R * bool)) : list R :=
  fold_left (fun y (s : list R * bool) => if snd s then vadd y (fst s) else y) path x.
(** the way back: in the other order, with the accepted moves undone *)
Definition undo (s : list R * bool) : list R * bool := (if snd s then vneg (fst s) else fst s, snd s).
Definition back (path : list (list R * bool)) : list (list R * bool) := rev (map undo path).

Section Path.
  Variable LogLike : list R -> R.
  (** the loop makes the decisions of the path when the random numbers are [us] *)
  Fixpoint follows (n i : nat) (path : list (list R * bool)) (us : list R) (d : drag) : Prop :=
    match path, us with
    | [], [] => True
    | (delta, b) :: path', u :: us' =>
        drag_accept LogLike n i delta (randexp u) d = b /\ follows n (S i) path' us' (drag_step LogLike n i delta (randexp u) d)
    | _, _ => False
    end.
End Path.

(** ** Weighted points *)

(** A row of a chain file: point, likelihood, weight. *)
Definition row := (list R * R * Z)%type.
(** the list of points a list of rows stands for *)
Definition expand (rows : list row) : list (list R * R) := flat_map (fun r => let '(p, l, m) := r in repeat (p, l) (Z.to_nat m)) rows.
(** every t-th element: numbers t, 2t, 3t ... *)
Definition every {A} (t : nat) (l : list A) : list A :=
  match l with
  | [] => []
  | a :: _ => map (fun k => nth (k * t + t - 1) l a) (seq 0 (length l / t))
  end.

Section DragEvent.
  Variable LogLike : list R -> R.
  Context {Col : Type}.
  Variable add : Col -> list R -> R -> Z -> option Z -> Col.
  Variable burn_in : Z.
  (** the dragging step from [c] takes the path and the last decision is to move: random numbers [u :: us] for the last decision and
      the turns.  A chain with a positive weight has weight 1 just after a move. *)
  Definition drag_event (c : chain Col) (slow : list R) (path : list (list R * bool)) (ul : list R) : Prop :=
    match ul with
    | [] => False
    | u :: us =>
        follows LogLike (S (length path)) 1 path us
          (mkD (c_par c) (vadd (c_par c) slow) (c_like c) (LogLike (vadd (c_par c) slow)) (c_like c) (LogLike (vadd (c_par c) slow))) /\
        c_mult (dragging LogLike add burn_in slow (combine (map fst path) (map randexp us)) (randexp u) c) = 1%Z
    end.
End DragEvent.

(** The states after each step of a run. *)
Fixpoint states {C D} (step : D -> C -> C) (ds : list D) (c : C) : list C :=
  match ds with [] => [] | d :: ds' => step d c :: states step ds' (step d c) end.
Definition final {C D} (step : D -> C -> C) (ds : list D) (c : C) : C := fold_left (fun c d => step d c) ds c.
(** its point and likelihood *)
Definition here {Col} (c : chain Col) : list R * R := (c_par c, c_like c).
Definition weight (r : row) : Z := snd r.
(** a start of a chain: no weight and no accepted points yet *)
Definition fresh {Col} (LogLike : list R -> R) (c : chain Col) : Prop :=
  c_like c = LogLike (c_par c) /\ c_mult c = 0%Z /\ c_accept c = 0%Z.
