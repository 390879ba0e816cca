(** Products of Gaussians of linear functions *)
From Coq Require Import Reals Arith.
From Coq Require Import List.
Import ListNotations.
Local Open Scope R_scope.

(** a prior: weights of the parameters that it constrains, its mean and its width *)
Definition prior := (list (nat * R) * R * R)%type.
Fixpoint lin (ws : list (nat * R)) (P : nat -> R) : R := match ws with [] => 0 | (i, w) :: ws' => w * P i + lin ws' P end.
Definition density (p : prior) (P : nat -> R) : R := let '(ws, m, s) := p in exp (- ((lin ws P - m) * (lin ws P - m) / (2 * (s * s)))).
Fixpoint product (ps : list prior) (P : nat -> R) : R := match ps with [] => 1 | p :: ps' => density p P * product ps' P end.
