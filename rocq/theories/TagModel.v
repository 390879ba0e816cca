(** source/settings.f90 224-277, 280-287: settings with tags; source/likelihood.f90 68-94 and source/GeneralTypes.f90 522-531, 739-750: likelihoods that exclude each other.
    A key of the settings is its text without blanks at the end; each key is there once, and Read_String finds its value.  StringStarts and index are those of Fortran; ReplaceDirs (175-189) is a function argument.
    A run that stops is None.  Not modelled: messages, and Read_String's record of the values that were read. *)
From Coq Require Import Ascii Bool Arith.
From Verif Require Import PyStr NamesModel.
From Coq Require Import List.
Import ListNotations.
Local Open Scope nat_scope.

Definition ini := list (str * str).
(** index(s, c): from 1, or 0 *)
Definition index_of (c : ascii) (s : str) : nat := match find_ch c s with Some i => S i | None => 0 end.
(** s == '': blanks at the end do not count *)
Definition is_blank (s : str) : bool := match trim s with [] => true | _ => false end.
(** Read_String of a key *)
Definition Read_String (I : ini) (key : str) : str := match dget key I with Some v => v | None => [] end.
(** 241-242, 269-270: with [filename] the names of directories are filled in *)
Definition value_of (ReplaceDirs : str -> str) (filename : bool) (v : str) : str := if filename && negb (is_blank v) then ReplaceDirs v else v.
(** key(n+1:len(key)-1) *)
Definition inside (n : nat) (key : str) : str := firstn (length key - 1 - n) (skipn n key).
(** 236-246 *)
Fixpoint tag_loop (I : ini) (ReplaceDirs : str -> str) (filename : bool) (tag : str) (keys : ini) : option (list (str * str)) :=
  match keys with
  | [] => Some []
  | (key, v) :: keys' =>
      if startswith tag key && negb (is_blank v) then
        if negb (Nat.eqb (index_of "]"%char key) (length key)) then None
        else if negb (Nat.eqb (index_of ","%char key) 0) then tag_loop I ReplaceDirs filename tag keys'
        else match tag_loop I ReplaceDirs filename tag keys' with
             | Some r => Some ((inside (length tag) key, value_of ReplaceDirs filename (Read_String I key)) :: r)
             | None => None
             end
      else tag_loop I ReplaceDirs filename tag keys'
  end.
(** 224-250 *)
Definition TagValuesForName (I : ini) (ReplaceDirs : str -> str) (filename : bool) (name : str) : option (list (str * str)) :=
  tag_loop I ReplaceDirs filename (trim name ++ ["["%char]) I.
(** 263-274 *)
Fixpoint setting_loop (I : ini) (ReplaceDirs : str -> str) (filename : bool) (stem : str) (keys : ini) : option (list (str * str)) :=
  match keys with
  | [] => Some []
  | (key, v) :: keys' =>
      if startswith stem key then
        if negb (Nat.eqb (index_of "]"%char key) (length key)) then None
        else match setting_loop I ReplaceDirs filename stem keys' with
             | Some r => Some ((inside (length stem) key, value_of ReplaceDirs filename (Read_String I key)) :: r)
             | None => None
             end
      else setting_loop I ReplaceDirs filename stem keys'
  end.
(** 253-277 *)
Definition SettingValuesForTagName (I : ini) (ReplaceDirs : str -> str) (filename : bool) (name tag : str) : option (list (str * str)) :=
  setting_loop I ReplaceDirs filename (trim name ++ ["["%char] ++ trim tag ++ [","%char]) I.
(** 280-287 *)
Definition NamedKey (key name : str) : str := trim key ++ ["["%char] ++ trim name ++ ["]"%char].

(** ** Conflicts *)
(** type and name; the conflicts (type, name) of the likelihood, of its common data, of the common data of that, and so on.  A likelihood without a dataset file has none *)
Record like := mkLike { k_type : str; k_name : str; k_conflicts : list (list (str * str)) }.
(** a == b of Fortran *)
Definition feq (a b : str) : bool := str_eqb (trim a) (trim b).
(** likelihood.f90 78-89 *)
Definition own_ok (full : list like) (cs : list (str * str)) : bool :=
  fold_left (fun ok c => fold_left (fun ok o => if feq (k_type o) (trim (fst c)) && feq (k_name o) (trim (snd c)) then false else ok) full ok) cs true.
(** likelihood.f90 68-94 *)
Fixpoint check_chain (full : list like) (chain : list (list (str * str))) : bool :=
  match chain with
  | [] => true
  | cs :: chain' => let ok := own_ok full cs in match chain' with [] => ok | _ => check_chain full chain' && ok end
  end.
Definition checkConflicts (full : list like) (k : like) : bool := check_chain full (k_conflicts k).
(** GeneralTypes.f90 739-750: the name of the likelihood that stops the run *)
Fixpoint check_loop (full l : list like) : option str :=
  match l with [] => None | k :: l' => if negb (checkConflicts full k) then Some (trim (k_name k)) else check_loop full l' end.
Definition checkAllConflicts (full : list like) : option str := check_loop full full.
