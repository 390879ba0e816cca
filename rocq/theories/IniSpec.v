(** Specification vocabulary for the ini-file properties (documents, not implementation). *)
From Verif Require Import PyStr IniModel.

(** What one line of an ini file says (documented syntax: '#' comments, INCLUDE(f), DEFAULT(f),
    key = value; anything else is ignored). *)
Inductive item :=
| IComment (text : str)
| IInclude (f : str)
| IDefault (f : str)
| IDef (key value : str)
| INone.

Definition item_of (line : str) : item :=
  let s := strip line in
  if startswith (L "#") s then IComment (rstrip (skipn 1 s))
  else if startswith (L "INCLUDE(") s then IInclude (paren_arg s)
  else if startswith (L "DEFAULT(") s then IDefault (paren_arg s)
  else match find_ch "="%char s with
       | Some n => IDef (strip (firstn n s)) (strip (skipn (n + 1) s))
       | None => INone
       end.

(** lines before the END marker *)
Fixpoint before_end (ls : list str) : list str :=
  match ls with
  | [] => []
  | l :: ls' => if str_eqb (strip l) (L "END") then [] else l :: before_end ls'
  end.

Definition items (text : str) : list item := map item_of (before_end (text_lines text)).

Definition defs_of (l : list item) : list (str * str) :=
  flat_map (fun it => match it with IDef k v => [(k, v)] | _ => [] end) l.
Definition includes_of (l : list item) : list str :=
  flat_map (fun it => match it with IInclude f => [f] | _ => [] end) l.
Definition defaults_of (l : list item) : list str :=
  flat_map (fun it => match it with IDefault f => [f] | _ => [] end) l.

(** A definition met while reading: is it protected (inside a DEFAULT file)?, its key, its raw text *)
Definition entry := (bool * str * str)%type.

(** [visits fs prot f es]: reading file [f] (inside a DEFAULT when [prot]) meets exactly the
    definitions [es], in document order: own lines, then INCLUDEs, then DEFAULTs. *)
Inductive visits (fs : str -> option str) : bool -> str -> list entry -> Prop :=
| visits_file prot f text e1 e2 :
    fs f = Some text ->
    visits_all fs prot (map (resolve f) (includes_of (items text))) e1 ->
    visits_all fs true (map (resolve f) (defaults_of (items text))) e2 ->
    visits fs prot f (map (fun kv => (prot, fst kv, snd kv)) (defs_of (items text)) ++ e1 ++ e2)
with visits_all (fs : str -> option str) : bool -> list str -> list entry -> Prop :=
| visits_nil prot : visits_all fs prot [] []
| visits_cons prot f fl e1 e2 :
    visits fs prot f e1 -> visits_all fs prot fl e2 ->
    visits_all fs prot (f :: fl) (e1 ++ e2).

Definition e_key (e : entry) : str := snd (fst e).
Definition e_raw (e : entry) : str := snd e.
Definition e_prot (e : entry) : bool := fst (fst e).

(** raw text of the first definition of a key *)
Fixpoint first_def (k : str) (es : list entry) : option str :=
  match es with
  | [] => None
  | e :: es' => if str_eqb k (e_key e) then Some (e_raw e) else first_def k es'
  end.

(** stored value of a raw text *)
Definition stored (env : str -> option str) (expand : bool) (raw v : str) : Prop :=
  if expand then expand_placeholders env raw = Ok v else v = raw.

(** a second definition that is not protected *)
Definition unprotected_dup (es : list entry) : Prop :=
  exists l1 k raw l2, es = l1 ++ (false, k, raw) :: l2 /\ In k (map e_key l1).

(** tokens of a value with placeholders *)
Inductive tok := TChar (c : ascii) | TDollar | TVar (name : str).
Definition tok_text (t : tok) : str :=
  match t with TChar c => [c] | TDollar => L "$$" | TVar n => L "$(" ++ n ++ L ")" end.
Definition tok_ok (t : tok) : Prop :=
  match t with TChar c => c <> "$"%char | TDollar => True | TVar n => ~ In ")"%char n end.
Definition tok_value (env : str -> option str) (t : tok) : str :=
  match t with
  | TChar c => [c]
  | TDollar => L "$"
  | TVar n => match env n with Some v => v | None => [] end
  end.

(** keys, values and file names that fit on one line of an ini file *)
Definition one_line (s : str) : Prop := ~ In nl s /\ ~ In cr s.
Definition representable_key (k : str) : Prop :=
  strip k = k /\ one_line k /\ ~ In "="%char k /\
  startswith (L "#") k = false /\ startswith (L "INCLUDE(") k = false /\
  startswith (L "DEFAULT(") k = false.
Definition representable_value (expand : bool) (v : str) : Prop :=
  strip v = v /\ one_line v /\ (expand = true -> contains (L "$(") v = false).

(** every key and value of [p] can be written on one line *)
Definition representable (expand : bool) (p : dict value) : Prop :=
  forall k v, In (k, v) p -> representable_key k /\ representable_value expand (asIniText v).

Definition is_comment (it : item) : bool := match it with IComment _ => true | _ => false end.
(** no comment line directly before *)
Definition starts_block (pre : list str) : Prop :=
  pre = [] \/ exists p0 l0, pre = p0 ++ [l0] /\ is_comment (item_of l0) = false.
