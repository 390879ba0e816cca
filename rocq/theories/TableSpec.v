(** Vocabulary for statements about result tables. *)
From Verif Require Import PyBase PyNum TableModel.
From Coq Require Import String Ascii Bool List.
Import ListNotations.
Local Open Scope nat_scope.
Local Open Scope list_scope.

(** the entries of column [c], from top to bottom *)
Definition column {A} (rows : list (list A)) (c : nat) : list A :=
  flat_map (fun r => match nth_error r c with Some x => [x] | None => [] end) rows.
(** number of occurrences of a character, and number of cells of a LaTeX row *)
Definition count (c : ascii) (s : str) : nat := count_occ ascii_dec s c.
Definition cells (s : str) : nat := S (count "&"%char s).
(** columns declared by a tabular specification: one for each l or c *)
Definition declared (s : str) : nat := count "l"%char s + count "c"%char s.

(** a formatter whose texts do not contain column characters, except the column separator *)
Record good_fmt (f : fmt) : Prop := mkgood {
  g_sep : count "&"%char (f_colSep f) = 1;
  g_end : count "&"%char (f_endofrow f) = 0;
  g_spacer : count "&"%char (f_spacer f) = 0;
  g_head : count "&"%char (f_header f) = 0 /\ count "&"%char (f_paramText f) = 0;
  g_border : declared (f_border f) = 0;
  g_major : declared (f_major f) = 0;
  g_minor : declared (f_minor f) = 0;
  g_col : declared (f_col f) = 0 }.
(** a result that shows [k] texts (1 or 2) without column separators for the parameter [p]; a missing parameter is
    shown as an empty cell, which is one cell whatever the number of labels *)
Definition shows (k : nat) (r : result) (p : str) : Prop :=
  exists labels values, r = RMarge labels values /\ List.length labels = k /\
    match values p with
    | Some vs => (List.length vs = k) /\ (k = 1 \/ k = 2) /\ forall v, In v vs -> count "&"%char v = 0
    | None => k = 1
    end.
