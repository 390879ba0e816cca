(** Vocabulary for statements about printed numbers: what a positional decimal text means, independently of
    how it was made. *)
From Verif Require Import PyBase PyNum FmtModel.
From Coq Require Import ZArith QArith Qabs String Ascii Bool List.
Import ListNotations.
Local Open Scope nat_scope.
Local Open Scope list_scope.

(** the value of a digit character and of a string of them *)
Definition digit_of (c : ascii) : nat := nat_of_ascii c - 48.
Fixpoint digits_val (s : str) : nat :=
  match s with [] => 0 | c :: s' => digit_of c * 10 ^ List.length s' + digits_val s' end.

(** a text with sign, integer digits and decimal digits; the point is written only before decimals *)
Definition layout (neg : bool) (ip fp : str) : str :=
  (if neg then L "-" else []) ++ ip ++ (match fp with [] => [] | _ => L "." ++ fp end).
Record reads (s : str) (neg : bool) (ip fp : str) : Prop := mkreads {
  rd_text : s = layout neg ip fp;
  rd_ip : ip <> [];
  rd_lead : ip = L "0" \/ (exists c r, ip = c :: r /\ c <> "0"%char);  (* no leading zeros *)
  rd_dig : forall c, In c (ip ++ fp) -> is_digit c }.
(** its absolute value *)
Definition text_abs (ip fp : str) : Q := (inject_Z (Z.of_nat (digits_val (ip ++ fp))) * pow10 (- Z.of_nat (List.length fp)))%Q.

(** the expansion of a number, as Decimal gives it: digits below ten and no leading zero, except that zero has
    the single digit 0 (with no positive exponent, as for floats and their products) *)
Definition nonzero_dec (d : dec) : Prop :=
  (forall x, In x (d_digits d) -> x < 10) /\ exists x r, d_digits d = x :: r /\ x <> 0.
Definition zero_dec (d : dec) : Prop := d_digits d = [0] /\ (d_exp d <= 0)%Z.
Definition wf_dec (d : dec) : Prop := nonzero_dec d \/ zero_dec d.
(** exponent of the leading digit *)
Definition lead (d : dec) : Z := (d_exp d + Z.of_nat (List.length (d_digits d)) - 1)%Z.

(** [y] is [x] rounded to a multiple of [u]: nearest, ties away from zero (for non-negative numbers) *)
Definition rounded_to (u x y : Q) : Prop :=
  (exists m : nat, y == inject_Z (Z.of_nat m) * u /\ 2 * Qabs (y - x) <= u /\ (2 * Qabs (y - x) == u -> x <= y))%Q.
(** [y] has exactly [n] significant figures in units of 10^k *)
Definition has_figures (n : nat) (k : Z) (y : Q) : Prop :=
  exists m : nat, (y == inject_Z (Z.of_nat m) * pow10 k)%Q /\ 10 ^ (n - 1) <= m /\ m < 10 ^ n.
