(** Specification vocabulary for lists of parameter names *)
From Coq Require Import String Ascii Bool Arith List.
From Verif Require Import PyStr NamesModel.
Import ListNotations.

Definition names_of (l : list pn) : list str := map nm l.
Definition has_kind (d : bool) (l : list pn) (n : str) : Prop := exists p, In p l /\ nm p = n /\ der p = d.
(** The list made of two: parameters that either has as base parameters, those of the first list first, and then the derived ones *)
Definition base_in (l : list pn) (n : str) : bool := existsb (fun p => str_eqb (nm p) n && negb (der p)) l.
Definition named_in (l : list pn) (n : str) : bool := existsb (fun p => str_eqb (nm p) n) l.
Definition merged (a b : list pn) : list pn :=
  filter (fun p => negb (der p)) a ++
  filter (fun p => negb (der p) && negb (base_in a (nm p))) b ++
  filter (fun p => der p && negb (base_in b (nm p))) a ++
  filter (fun p => der p && negb (named_in a (nm p))) b.

(** A word for list-directed input *)
Definition plain (sep : ascii -> bool) (w : str) : Prop :=
  w <> [] /\ Forall (fun c => sep c = false) w /\ ~ In blank w /\ ~ In tab w /\
  match w with c :: w' => c <> "'"%char /\ c <> """"%char /\ (digit c && counted w' = false) | [] => False end.
(** A text without blanks or tabs at either end *)
Definition tight (s : str) : Prop :=
  match s with c :: _ => white c = false | [] => True end /\ match rev s with c :: _ => white c = false | [] => True end.
Definition good_pn (sep : ascii -> bool) (p : pn) : Prop :=
  plain sep (nm p) /\ ~ In star (nm p) /\ (der p = true -> forallb digit (nm p) = false) /\ length (nm p) <= 128 /\
  tight (lab p) /\ ~ In hash (lab p) /\ ~ In tab (lab p) /\ length (lab p) <= 128 /\
  tight (com p) /\ length (com p) <= 128.
Definition no_comment (p : pn) : pn := mkN (nm p) (lab p) [] (der p).

(** A text of words, with blanks or tabs between them *)
Inductive spaced : list str -> str -> Prop :=
| spaced_end s : Forall (fun c => white c = true) s -> spaced [] s
| spaced_word gap w rest ws : Forall (fun c => white c = true) gap -> match rest with c :: _ => white c = true | [] => True end ->
    spaced ws rest -> spaced (w :: ws) (gap ++ w ++ rest).
(** The numbers (counted from 1) that a word stands for: the position of a name, a number, or what is given for an unknown name *)
Definition usable (no_derived : bool) (p : pn) : Prop := no_derived = true -> der p = false.
Definition means (l : list pn) (unknown : option (option nat)) (no_derived : bool) (w : str) (vs : list nat) : Prop :=
  (exists i p, nth_error l i = Some p /\ nm p = w /\ usable no_derived p /\ vs = [S i]) \/
  ((forall p, In p l -> nm p = w -> ~ usable no_derived p) /\
   ((forallb digit w = true /\ vs = [number 0 w]) \/
    (forallb digit w = false /\ (unknown = Some None /\ vs = [] \/ exists v, unknown = Some (Some v) /\ vs = [v])))).
