(** Model of the LaTeX result tables of python/getdist/types.py (TableFormatter and its subclasses, ResultTable).

    A result (MargeStats or BestFit) enters through its column labels and through texValues, which is given here by
    a function from parameter names to the texts to show; texValues itself is modelled in MargeModel. *)
From Verif Require Import PyBase PyNum.
From Coq Require Import ZArith String Ascii Bool List.
Import ListNotations.
Local Open Scope nat_scope.
Local Open Scope list_scope.

(** paramnames.py ParamInfo, the fields a table uses *)
Record tparam := mktp { t_name : str; t_label : str; t_derived : bool }.
(** paramnames.py:120-124 getLabel *)
Definition getLabel (p : tparam) : str := match t_label p with [] => t_name p | l => l end.

(** types.py:166-181: the texts of a formatter.  headerWrapper is " %s": the text before the title is kept.
    [f_lines] are the attributes that getLine finds (a line that is None is not written). *)
Record fmt := mkfmt {
  f_border : str; f_endofrow : str; f_hline : str; f_paramText : str;
  f_major : str; f_minor : str; f_col : str; f_header : str;
  f_noConstraint : str; f_spacer : str; f_colSep : str;
  f_lines : list (str * option str); f_belowTitle : nat -> nat -> str }.

Definition tab_begin : str := L "\begin{tabular} {".
Definition tab_end : str := L "\end{tabular}".

(** text * n *)
Definition times (n : nat) (s : str) : str := concat (repeat s n).

(** types.py:183-186 *)
Definition getLine (f : fmt) (position : str) : option str :=
  match dget position (f_lines f) with Some l => l | None => Some (f_hline f) end.
(** types.py:191-195, the column specification *)
Definition tab_part (f : fmt) (colsPerResult : nat) : str :=
  f_major f ++ times (colsPerResult - 1) (L " c" ++ f_minor f) ++ L " c".
Definition tab_spec (f : fmt) (ncol colsPerResult numResults : nat) : str :=
  let part := tab_part f colsPerResult in
  f_border f ++ L " l " ++ times numResults part ++
  times (ncol - 1) (f_col f ++ L " l " ++ times numResults part) ++ f_border f.
Definition startTable (f : fmt) (ncol colsPerResult numResults : nat) : str :=
  tab_begin ++ tab_spec f ncol colsPerResult numResults ++ L "}".
(** types.py:21-22 *)
Definition texEscapeText (s : str) : str := replace_str (L "_") (L "{\textunderscore}") s.
(** types.py:204-205, 241-242: title over several columns (OpenTableFormatter) *)
Definition titleSubColumn (colsPerResult : nat) (title : str) : str :=
  L " \multicolumn{" ++ show_nat colsPerResult ++ L "}{c}{" ++ L "\bf " ++ texEscapeText title ++ L "}".
(** types.py:207-211 *)
Definition texEquation (txt : str) : str :=
  match txt with
  | [] => txt
  | c :: _ => if ch_eqb c "$"%char then txt else L "$" ++ txt ++ L "$"
  end.
(** types.py:213-226 *)
Definition textAsColumn (f : fmt) (txt : str) (latex separator bold : bool) : str :=
  let wid := List.length txt + (if latex then 2 + (if bold then 11 else 0) else 0) in
  let res := txt ++ times (28 - wid) (f_spacer f) in
  let res := if latex then
               let res := texEquation res in
               if bold then L "{\boldmath" ++ res ++ L "}" else res
             else res in
  if separator then res ++ f_colSep f else res.

(** the default formatter, types.py:166-260 (NoLineTableFormatter) *)
Definition hline : str := L "\hline".
Definition noline : fmt := mkfmt [] (L "\\") [] (L "Parameter") [] [] (L "|") (L " ") (L "---") (L " ") (L " & ")
  [(L "aboveTitles", Some (L "\noalign{\vskip 3pt}" ++ hline ++ L "\noalign{\vskip 1.5pt}" ++ hline ++ L "\noalign{\vskip 5pt}"));
   (L "belowTitles", Some (L "\noalign{\vskip 3pt}" ++ hline));
   (L "aboveHeader", Some []); (L "belowHeader", Some hline);
   (L "belowFinalRow", Some hline); (L "belowBlockRow", Some hline)]
  (fun c n => L "\noalign{\vskip 3pt}\cline{2-" ++ show_nat (c * n + 1) ++ L "}\noalign{\vskip 3pt}").

(** a result: MargeStats.getColumnLabels takes the limit, BestFit.getColumnLabels (types.py:500) takes keyword
    arguments only and the table passes the limit by position *)
Inductive result :=
  | RMarge (labels : list str) (values : str -> option (list str))
  | RBest (values : str -> option (list str)).
Definition getColumnLabels (r : result) : res (list str) :=
  match r with RMarge l _ => Ok l | RBest _ => Err TypeError end.
Definition texValues (r : result) (p : str) : res (option (list str)) :=
  match r with RMarge _ v => Ok (v p) | RBest _ => Err TypeError end.

(** types.py:310-319: the parameters of each row, filled column by column *)
Definition num_rows (n ncol : nat) : nat := n / ncol + (if n mod ncol =? 0 then 0 else 1).
Fixpoint append_at {A} (i : nat) (x : A) (rows : list (list A)) : list (list A) :=
  match rows, i with
  | [], _ => []   (* IndexError in Python; i < numrow always *)
  | r :: rs, 0 => (r ++ [x]) :: rs
  | r :: rs, S k => r :: append_at k x rs
  end.
Definition add_column {A} (dflt : A) (names : list A) (numrow col : nat) (rows : list (list A)) : list (list A) :=
  fold_left (fun rs i => append_at (i - numrow * col) (nth i names dflt) rs)
            (seq (numrow * col) (Nat.min (numrow * (col + 1)) (List.length names) - numrow * col)) rows.
Definition table_rows {A} (dflt : A) (names : list A) (ncol : nat) : res (list (list A)) :=
  if ncol =? 0 then Err ZeroDivisionError else
  let numrow := num_rows (List.length names) ncol in
  Ok (fold_left (fun rs col => add_column dflt names numrow col rs) (seq 1 (ncol - 1))
        (map (fun p => [p]) (firstn numrow names))).

(** types.py:369-380 *)
Definition paramResultTex (f : fmt) (r : result) (p : str) : res str :=
  bindR (texValues r p) (fun values =>
  match values with
  | Some (v0 :: rest) =>
      Ok ((match rest with v1 :: _ => textAsColumn f v1 true true false | [] => [] end) ++
          textAsColumn f v0 (negb (str_eqb v0 (f_noConstraint f))) false false)
  | Some [] => Err IndexError
  | None => bindR (getColumnLabels r) (fun labels => Ok (times (List.length labels) (textAsColumn f [] false false false)))
  end).
(** types.py:366-367 *)
Definition paramResultsTex (f : fmt) (results : list result) (p : str) : res str :=
  bindR (mapR (fun r => paramResultTex f r p) results) (fun l => Ok (join (f_colSep f) l)).
(** types.py:382-383 *)
Definition paramLabelColumn (f : fmt) (p : tparam) : str :=
  textAsColumn f (getLabel p) true true (negb (t_derived p)).
(** types.py:335-339 *)
Definition fullTableRow (f : fmt) (results : list result) (colsPerParam ncol : nat) (row : list tparam) : res str :=
  bindR (mapR (fun p => bindR (paramResultsTex f results (t_name p)) (fun t => Ok (paramLabelColumn f p ++ t))) row) (fun l =>
  let txt := join (f_colSep f) l in
  let txt := if ncol =? List.length row then txt
             else txt ++ times ((1 + colsPerParam) * (ncol - List.length row)) (f_colSep f) in
  Ok (txt ++ f_endofrow f)).
(** types.py:341-345 *)
Definition addLine (f : fmt) (position : str) (lines : list str) : list str :=
  match getLine f position with None => lines | Some l => lines ++ [l] end.
(** types.py:347-355 *)
Definition titlesRow (f : fmt) (ncol colsPerResult : nat) (titles : list str) : str :=
  let cols := titleSubColumn 1 [] :: map (titleSubColumn colsPerResult) titles in
  join (f_colSep f) (concat (repeat cols ncol)) ++ f_endofrow f.
Definition addTitlesRow (f : fmt) (ncol colsPerResult colsPerParam : nat) (titles : list str) (lines : list str) : res (list str) :=
  if colsPerResult =? 0 then Err ZeroDivisionError else
  let lines := addLine f (L "aboveTitles") lines ++ [titlesRow f ncol colsPerResult titles] in
  let below := f_belowTitle f colsPerResult (colsPerParam / colsPerResult) in
  Ok (match below with [] => lines | _ => lines ++ [below] end).
(** types.py:357-364 *)
Definition headerRow (f : fmt) (ncol : nat) (labels : list (list str)) : str :=
  let cols := (f_header f ++ f_paramText f) :: map (fun s => f_header f ++ s) (concat labels) in
  join (f_colSep f) (concat (repeat cols ncol)) ++ f_endofrow f.
Definition addHeaderRow (f : fmt) (ncol : nat) (labels : list (list str)) (lines : list str) : list str :=
  addLine f (L "belowHeader") (addLine f (L "aboveHeader") lines ++ [headerRow f ncol labels]).

(** types.py:325-330: one body row and the line under it *)
Definition body_row (f : fmt) (results : list result) (colsPerParam ncol : nat) (blockEnd : option (list str))
    (row : list tparam) (lines : list str) : res (list str) :=
  bindR (fullTableRow f results colsPerParam ncol row) (fun t =>
  let last := match row, blockEnd with
              | p :: _, Some names => (ncol =? 1) && mem_str (t_name p) names
              | _, _ => false
              end in
  Ok (addLine f (if last then L "belowBlockRow" else L "belowRow") (lines ++ [t]))).
Fixpoint body_rows (f : fmt) (results : list result) (colsPerParam ncol : nat) (blockEnd : option (list str))
    (rows : list (list tparam)) (lines : list str) : res (list str) :=
  match rows with
  | [] => Err IndexError   (* rows[-1] of an empty list *)
  | [row] => bindR (fullTableRow f results colsPerParam ncol row) (fun t => Ok (addLine f (L "belowFinalRow") (lines ++ [t])))
  | row :: rest => bindR (body_row f results colsPerParam ncol blockEnd row lines) (body_rows f results colsPerParam ncol blockEnd rest)
  end.

(** types.py:286-333: the lines of the table.  [params] is tableParamNames after the filter by paramList. *)
Definition ResultTable (f : fmt) (ncol : nat) (results : list result) (params : list tparam)
    (titles : option (list str)) (blockEnd : option (list str)) : res (list str) :=
  match results with
  | [] => Err IndexError
  | r0 :: _ =>
      bindR (getColumnLabels r0) (fun labels0 =>
      let colsPerResult := List.length labels0 in
      let colsPerParam := List.length results * colsPerResult in
      bindR (table_rows (mktp [] [] false) params ncol) (fun rows =>
      let lines := [startTable f ncol colsPerResult (List.length results)] in
      bindR (match titles with None => Ok lines | Some ts => addTitlesRow f ncol colsPerResult colsPerParam ts lines end) (fun lines =>
      bindR (mapR getColumnLabels results) (fun labels =>
      bindR (body_rows f results colsPerParam ncol blockEnd rows (addHeaderRow f ncol labels lines)) (fun lines =>
      Ok (lines ++ [tab_end]))))))
  end.

(** types.py:298-299: the numFormatter argument is stored in the attribute numFormatter of the formatter;
    texValues uses formatter.numberFormatter (types.py:767 and others) *)
Record fmt_attrs {A} := mkattrs { a_numberFormatter : A; a_numFormatter : option A }.
Arguments fmt_attrs : clear implicits.
Definition set_numFormatter {A} (x : fmt_attrs A) (arg : option A) : fmt_attrs A :=
  match arg with Some n => mkattrs A (a_numberFormatter x) (Some n) | None => x end.
Definition used_formatter {A} (x : fmt_attrs A) : A := a_numberFormatter x.
