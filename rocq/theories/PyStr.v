(** Python text values and the few [str] methods used by the modelled code.
    A python [str] is modelled by a list of 8-bit characters (the Latin-1 range of
    unicode); simplification: code points above 255 do not occur. *)
From Coq Require Export Ascii String.
From Coq Require Export Bool Arith ZArith Lia List.
Export ListNotations.
Open Scope list_scope.
Open Scope nat_scope.

Definition str := list ascii.

(** string literal *)
Definition L (x : string) : str := list_ascii_of_string x.
Arguments L : simpl never.

Definition str_eq_dec : forall a b : str, {a = b} + {a <> b} := list_eq_dec ascii_dec.
Definition str_eqb (a b : str) : bool := if str_eq_dec a b then true else false.

Definition ch_eqb (a b : ascii) : bool := Ascii.eqb a b.

(** [str.isspace] for one character: the characters removed by [str.strip()]. *)
Definition is_space (c : ascii) : bool :=
  let n := nat_of_ascii c in
  ((9 <=? n) && (n <=? 13)) || ((28 <=? n) && (n <=? 32)) || (n =? 133) || (n =? 160).

(** [str.lstrip()], [str.rstrip()], [str.strip()] *)
Fixpoint lstrip (s : str) : str :=
  match s with
  | [] => []
  | c :: s' => if is_space c then lstrip s' else s
  end.
Definition rstrip (s : str) : str := rev (lstrip (rev s)).
Definition strip (s : str) : str := rstrip (lstrip s).

(** [str.startswith] *)
Fixpoint startswith (p s : str) : bool :=
  match p, s with
  | [], _ => true
  | a :: p', b :: s' => ch_eqb a b && startswith p' s'
  | _ :: _, [] => false
  end.

Definition endswith (p s : str) : bool := startswith (rev p) (rev s).

(** [str.find(c)] for a single character; [None] is python's -1 *)
Fixpoint find_ch (c : ascii) (s : str) : option nat :=
  match s with
  | [] => None
  | b :: s' => if ch_eqb b c then Some 0 else option_map S (find_ch c s')
  end.

(** [str.rfind(c)] for a single character *)
Fixpoint rfind_ch (c : ascii) (s : str) : option nat :=
  match s with
  | [] => None
  | b :: s' => match rfind_ch c s' with
               | Some n => Some (S n)
               | None => if ch_eqb b c then Some 0 else None
               end
  end.

(** [sub in s] *)
Fixpoint contains (sub s : str) : bool :=
  startswith sub s || match s with [] => false | _ :: s' => contains sub s' end.

(** python slice [s[a:b]] for non-negative bounds *)
Definition slice {A} (a b : nat) (s : list A) : list A := firstn (b - a) (skipn a s).

(** Iterating over a text file opened in text mode with universal newlines:
    the text is cut at \n, \r and \r\n; the terminator is dropped (the code under study
    always strips it); a last unterminated piece is a line unless it is empty. *)
Definition nl : ascii := ascii_of_nat 10.
Definition cr : ascii := ascii_of_nat 13.
Fixpoint text_lines_aux (cur : str) (s : str) : list str :=
  match s with
  | [] => match cur with [] => [] | _ => [rev cur] end
  | c :: s' =>
      if ch_eqb c nl then rev cur :: text_lines_aux [] s'
      else if ch_eqb c cr then
        match s' with
        | d :: s'' => if ch_eqb d nl then rev cur :: text_lines_aux [] s''
                      else rev cur :: text_lines_aux [] s'
        | [] => [rev cur]
        end
      else text_lines_aux (c :: cur) s'
  end.
Definition text_lines (s : str) : list str := text_lines_aux [] s.

(** [sep.join(l)] *)
Fixpoint join (sep : str) (l : list str) : str :=
  match l with
  | [] => []
  | [x] => x
  | x :: l' => x ++ sep ++ join sep l'
  end.

(** [s.split()] : maximal runs of non-space characters *)
Fixpoint split_ws_aux (cur : str) (s : str) : list str :=
  match s with
  | [] => match cur with [] => [] | _ => [rev cur] end
  | c :: s' =>
      if is_space c then
        match cur with [] => split_ws_aux [] s' | _ => rev cur :: split_ws_aux [] s' end
      else split_ws_aux (c :: cur) s'
  end.
Definition split_ws (s : str) : list str := split_ws_aux [] s.

(** [s.split(c)] for one separator character *)
Fixpoint split_ch_aux (c : ascii) (cur : str) (s : str) : list str :=
  match s with
  | [] => [rev cur]
  | b :: s' => if ch_eqb b c then rev cur :: split_ch_aux c [] s'
               else split_ch_aux c (b :: cur) s'
  end.
Definition split_ch (c : ascii) (s : str) : list str := split_ch_aux c [] s.

(** code point order used by [list.sort] on strings *)
Fixpoint str_leb (a b : str) : bool :=
  match a, b with
  | [], _ => true
  | _ :: _, [] => false
  | x :: a', y :: b' =>
      let m := nat_of_ascii x in let n := nat_of_ascii y in
      if m <? n then true else if n <? m then false else str_leb a' b'
  end.

(** insertion sort, the result of python's (stable) [sort] *)
Fixpoint insert_str (x : str) (l : list str) : list str :=
  match l with
  | [] => [x]
  | y :: l' => if str_leb x y then x :: l else y :: insert_str x l'
  end.
Fixpoint sort_str (l : list str) : list str :=
  match l with [] => [] | x :: l' => insert_str x (sort_str l') end.

(** [x in list] for strings *)
Definition mem_str (x : str) (l : list str) : bool := existsb (str_eqb x) l.

(** [list.remove(x)] : removes the first occurrence *)
Fixpoint remove_first (x : str) (l : list str) : list str :=
  match l with
  | [] => []
  | y :: l' => if str_eqb x y then l' else y :: remove_first x l'
  end.

(** insertion-ordered dictionaries keyed by strings *)
Section Dict.
  Context {V : Type}.
  Definition dict := list (str * V).
  Fixpoint dget (k : str) (d : dict) : option V :=
    match d with
    | [] => None
    | (k', v) :: d' => if str_eqb k k' then Some v else dget k d'
    end.
  (** [d[k] = v] keeps the position of an existing key, appends a new one *)
  Fixpoint dset (k : str) (v : V) (d : dict) : dict :=
    match d with
    | [] => [(k, v)]
    | (k', v') :: d' => if str_eqb k k' then (k', v) :: d' else (k', v') :: dset k v d'
    end.
  Definition dhas (k : str) (d : dict) : bool :=
    match dget k d with Some _ => true | None => false end.
  (** [d.pop(k, None)] / [del d[k]] on a present key *)
  Fixpoint ddel (k : str) (d : dict) : dict :=
    match d with
    | [] => []
    | (k', v') :: d' => if str_eqb k k' then d' else (k', v') :: ddel k d'
    end.
  Definition dkeys (d : dict) : list str := map fst d.
  (** [d.update(e)] *)
  Definition dupdate (d e : dict) : dict := fold_left (fun a kv => dset (fst kv) (snd kv) a) e d.
End Dict.
Arguments dict V : clear implicits.
