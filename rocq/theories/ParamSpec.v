(** Specification vocabulary for parameter lists and renames. *)
From Verif Require Import PyStr ParamModel.
From Coq Require Import Relations.

Definition one_line_text (s : str) : Prop := ~ In nl s /\ ~ In cr s.

(** a name without blanks or wildcard characters; a trimmed one-line label without '#' (comment
    mark) and '!' (old escape for a backslash); a trimmed one-line comment *)
Definition good_name (n : str) : Prop :=
  n <> [] /\ forallb (fun c => negb (is_space c)) n = true /\ ~ In "*"%char n /\ ~ In "?"%char n.
Definition good_label (l : str) : Prop :=
  strip l = l /\ one_line_text l /\ ~ In "#"%char l /\ ~ In "!"%char l.
Definition good_comment (c : str) : Prop := strip c = c /\ one_line_text c.
Definition good_param (p : pinfo) : Prop :=
  good_name (pname p) /\ good_label (plabel p) /\ good_comment (pcomment p).

(** what a text file can carry *)
Definition without_renames (p : pinfo) : pinfo := mkP (pname p) (plabel p) (pcomment p) (pderived p) [].

(** two names are listed together in some entry *)
Definition together (dicts : list (dict (list str))) (x y : str) : Prop :=
  exists d k v, In d dicts /\ In (k, v) d /\ In x (k :: v) /\ In y (k :: v).
Definition mentioned (dicts : list (dict (list str))) (x : str) : Prop := together dicts x x.
(** linked by a chain of entries *)
Definition linked (dicts : list (dict (list str))) : str -> str -> Prop := clos_refl_trans _ (together dicts).

(** names by which a parameter answers, and names tried for a request *)
Definition answers (r : dict (list str)) (p : pinfo) (x : str) : Prop :=
  x = pname p \/ In x (prenames p) \/ exists v, dget (pname p) r = Some v /\ In x v.
Definition tried (r : dict (list str)) (name x : str) : Prop :=
  x = name \/ exists v, dget name r = Some v /\ In x v.
(** order-preserving selection *)
Inductive subseq {A} (P : A -> Prop) : list A -> list A -> Prop :=
| sub_nil : subseq P [] []
| sub_keep x l k : P x -> subseq P l k -> subseq P (x :: l) (x :: k)
| sub_drop x l k : ~ P x -> subseq P l k -> subseq P (x :: l) k.
(** dictionary d gives a name to the component of x *)
Definition gives_name (keep1 : bool) (dicts : list (dict (list str))) (d : dict (list str)) (x : str) : Prop :=
  (exists y, In y (dkeys d) /\ linked dicts x y) /\
  (keep1 = true \/ exists z, linked dicts x z /\ ~ In z (dkeys d)).

(** the renames a list of parameters knows *)
Definition known_renames (l : list pinfo) : dict (list str) := map (fun p => (pname p, prenames p)) l.
