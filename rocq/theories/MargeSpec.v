(** Vocabulary for statements about marginalised limits. *)
From Verif Require Import PyBase PyNum PyStrFacts BoundsSpec FmtModel FmtSpec MargeModel.
From Coq Require Import ZArith QArith Qabs String Ascii Bool List.
Import ListNotations.
Local Open Scope nat_scope.
Local Open Scope list_scope.

(** the four kinds of limit, and the flags of a limit of that kind *)
Inductive tail := Two | Upper | Lower | Open_.
Definition is_tail {F} (l : plimit F) (t : tail) : Prop :=
  l_two l = match t with Two => true | _ => false end /\
  l_up l = match t with Upper => true | _ => false end /\
  l_low l = match t with Lower => true | _ => false end.

(** [x] is printed as one word that leaves a blank in 15 columns, and read back as [rd x] *)
Definition printable {F} (fmtE : F -> str) (parse : str -> res F) (rd : F -> F) (x : F) : Prop :=
  word (fmtE x) /\ List.length (fmtE x) <= 14 /\ parse (fmtE x) = Ok (rd x).
(** a limit, a parameter and a set of parameters that can be written *)
Definition lim_ok {F} fmtE parse (rd : F -> F) (l : plimit F) : Prop :=
  (exists t, is_tail l t) /\ printable fmtE parse rd (l_lower l) /\ printable fmtE parse rd (l_upper l).
Record par_ok {F} fmtE parse (rd : F -> F) (n : nat) (p : mpar F) : Prop := mkpok {
  po_name : word (m_name p) /\ ~ In "*"%char (m_name p);
  po_mean : printable fmtE parse rd (m_mean p);
  po_err : printable fmtE parse rd (m_err p);
  po_n : List.length (m_limits p) = n;
  po_lims : forall l, In l (m_limits p) -> lim_ok fmtE parse rd l;
  po_label : m_label p <> [] /\ stripped (m_label p) = true /\ no_eol (m_label p) = true }.
(** the levels in the first line *)
Definition level_ok {F} (show : F -> str) (parse : str -> res F) (rd : F -> F) (x : F) : Prop :=
  word (show x) /\ ~ In ":"%char (show x) /\ ~ In ";"%char (show x) /\ parse (show x) = Ok (rd x).

(** the same limit, parameter, with numbers as printed *)
Definition same_lim {F} (rd : F -> F) (l l' : plimit F) : Prop :=
  l_lower l' = rd (l_lower l) /\ l_upper l' = rd (l_upper l) /\ forall t, is_tail l t -> is_tail l' t.
Definition same_par {F} (rd : F -> F) (p p' : mpar F) : Prop :=
  m_name p' = m_name p /\ m_derived p' = m_derived p /\ m_label p' = m_label p /\
  m_mean p' = rd (m_mean p) /\ m_err p' = rd (m_err p) /\ Forall2 (same_lim rd) (m_limits p) (m_limits p').

(** a text that starts neither with < nor with > *)
Definition no_bound (s : str) : Prop := match s with c :: _ => c <> "<"%char /\ c <> ">"%char | [] => True end.

(** the limit given for a level, by kind: at an open end the range ends there; a one-tail limit leaves all of the
    excluded weight beyond the other end; a two-tail limit is the interval of equal tails if the density at its
    two ends is nearly the same, else the interval of largest density *)
Definition limit_for (c : mlcfg) (d : density) (level : Q) (l : plimit Q) : Prop :=
  exists t, is_tail l t /\
  match t with
  | Open_ => l_lower l = r_min c /\ l_upper l = r_max c
  | Upper => l_lower l = r_min c /\ l_upper l = confidence c (1 - level) true
  | Lower => l_lower l = confidence c (1 - level) false /\ l_upper l = r_max c
  | Two =>
      let lo := confidence c ((1 - level) / 2) false in
      let hi := confidence c ((1 - level) / 2) true in
      ((Qabs (d_prob d hi - d_prob d lo) < cred_threshold c)%Q /\ l_lower l = lo /\ l_upper l = hi) \/
      ((cred_threshold c <= Qabs (d_prob d hi - d_prob d lo))%Q /\ l_lower l = fst (fst (fst (d_getLimits d level))) /\
       l_upper l = snd (fst (fst (d_getLimits d level))))
  end.
