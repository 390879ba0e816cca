(** Vocabulary for the statements about densities. *)
From Verif Require Import PyStr PyBase DensModel.
From Coq Require Import QArith Permutation Sorting.Sorted.
Local Open Scope nat_scope.

(** ** Contours *)
(** cells given as (density, probability mass); mass of the cells whose density satisfies [P] *)
Definition mass (cells : list (Q * Q)) (P : Q -> bool) : Q := sumq (map snd (filter (fun c => P (fst c)) cells)).
Definition total (cells : list (Q * Q)) : Q := sumq (map snd cells).
(** half weights at the edges of each axis (a quarter for an axis of one cell) *)
Fixpoint edge_weight (shape ind : list nat) : Q :=
  match shape, ind with
  | n :: shape', i :: ind' =>
      ((if (i =? 0)%nat then 1 # 2 else 1) * (if (i =? n - 1)%nat then 1 # 2 else 1) * edge_weight shape' ind')%Q
  | _, _ => 1%Q
  end.
Definition is_edge (shape ind : list nat) : bool := existsb (fun p => (fst p =? 0) || (fst p =? snd p - 1)) (combine ind shape).
(** [level] is a contour level for the mass [want]: the cells at or above it hold at least [want], and it lies between two
    neighbouring densities of the grid (no cell's density is strictly between) the upper of which leaves at most [want] above *)
Definition encloses (cells : list (Q * Q)) (want level : Q) : Prop :=
  (want <= mass cells (fun v => Qle_bool level v))%Q /\
  exists lo hi, In lo (map fst cells) /\ In hi (map fst cells) /\ (lo <= level)%Q /\ (level <= hi)%Q /\
    (forall v, In v (map fst cells) -> (v <= lo \/ hi <= v)%Q) /\
    (mass cells (fun v => Qlt_b hi v) <= want)%Q.
(** what argsort guarantees *)
Definition sorts (order : list nat) (vals : list Q) : Prop :=
  Permutation order (seq 0 (length vals)) /\ StronglySorted (fun a b => (nth a vals 0 <= nth b vals 0)%Q) order.

(** ** Integrals *)
(** trapezoidal rule *)
Fixpoint trapz (h : Q) (l : list Q) : Q :=
  match l with
  | a :: ((b :: _) as r) => ((a + b) / 2 * h + trapz h r)%Q
  | _ => 0%Q
  end.
Definition weighted (w : nat -> Q) (l : list Q) : Q := sumq (map (fun p => (w (fst p) * snd p)%Q) (combine (seq 0 (length l)) l)).
Definition half_ends (n i : nat) : Q := if (i =? 0)%nat || (i =? n - 1)%nat then 1 # 2 else 1.
Definition shape_of (rows cols : nat) (P : list (list Q)) : Prop := length P = rows /\ Forall (fun r => length r = cols) P.
(** all cells of an array of the given shape, in C order *)
Fixpoint indices (shape : list nat) : list (list nat) :=
  match shape with [] => [[]] | n :: s => flat_map (fun i => map (cons i) (indices s)) (seq 0 n) end.

(** ** Limits *)
Definition x_at (g : lgrid) (i : nat) : Q := (lg_x0 g + inj i * lg_fine g)%Q.
(** the grid of initLimitGrids: at least two points, positive spacing, the sorted copy and its cumulative sums *)
Definition lg_ok (g : lgrid) : Prop :=
  2 <= length (lg_grid g) /\ (0 < lg_fine g)%Q /\ (lg_xn g == x_at g (length (lg_grid g) - 1))%Q /\
  Permutation (lg_sorted g) (lg_grid g) /\ StronglySorted Qle (lg_sorted g) /\ lg_cumsum g = cumq 0 (lg_sorted g) /\
  Forall (fun v => 0 <= v)%Q (lg_grid g) /\ (0 <= lg_norm g)%Q.
(** the straight line between grid points [i] and [i + 1] takes the value [t] at [x] *)
Definition crosses (g : lgrid) (t x : Q) (i : nat) : Prop :=
  S i < length (lg_grid g) /\ (x_at g i <= x)%Q /\ (x <= x_at g (S i))%Q /\
  (nth i (lg_grid g) 0 + (x - x_at g i) / lg_fine g * (nth (S i) (lg_grid g) 0 - nth i (lg_grid g) 0) == t)%Q.
(** [mn], [mx] delimit the region of density above [t]: all grid points of higher density lie inside; each end is either the
    end of the range, where the density is at least [t], or a place where the density crosses [t] *)
Definition interval_for (g : lgrid) (t : Q) (r : Q * Q * bool * bool) : Prop :=
  let '(mn, mx, bot, top) := r in
  (lg_x0 g <= mn)%Q /\ (mn <= mx)%Q /\ (mx <= lg_xn g)%Q /\
  (forall i, i < length (lg_grid g) -> (t < nth i (lg_grid g) 0)%Q -> (mn <= x_at g i)%Q /\ (x_at g i <= mx)%Q) /\
  (if bot then (t <= nth 0 (lg_grid g) 0)%Q /\ mn = lg_x0 g else (nth 0 (lg_grid g) 0 < t)%Q /\ exists i, crosses g t mn i) /\
  (if top then (t <= last (lg_grid g) 0)%Q /\ mx = lg_xn g else (last (lg_grid g) 0 < t)%Q /\ exists i, crosses g t mx i).
