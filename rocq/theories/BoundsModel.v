(** Model of getdist/parampriors.py (class ParamBounds). *)
From Verif Require Export PyBase.

(** Floats are an abstract type [V] with python's [==] ([veq]), the two infinities, the text
    produced by "%15.7E" % v ([fmt]) and the constructor float(text) ([parse]). *)
Section Bounds.
  Context {V : Type} (veq : V -> V -> bool) (ninf pinf : V) (fmt : V -> str) (parse : str -> option V).

  (** one of the two entries of the argument [strings] of setRange *)
  Inductive barg := BNone | BVal (v : V) | BText (s : str).

  (** parampriors.py:15-23 *)
  Record bounds := mkB { bnames : list str; blower : dict V; bupper : dict V }.
  Definition empty_bounds := mkB [] [] [].

  (** parampriors.py:78-79 and 80-81: the limit stored, if any ([inf] is the infinity that means
      "no limit" on that side) *)
  Definition limit_of (inf : V) (a : barg) : res (option V) :=
    match a with
    | BNone => Ok None
    | BVal v => if veq v inf then Ok None else Ok (Some v)
    | BText s => if str_eqb s (L "N") then Ok None
                 else match parse s with Some v => Ok (Some v) | None => Err ValueError end
    end.
  Definition set_opt (k : str) (o : option V) (d : dict V) : dict V :=
    match o with Some v => dset k v d | None => d end.

  (** parampriors.py:76-83 setRange (the state of the object after an exception is not modelled) *)
  Definition setRange (b : bounds) (name : str) (lo hi : barg) : res bounds :=
    bindR (limit_of ninf lo) (fun l =>
    bindR (limit_of pinf hi) (fun h =>
      Ok (mkB (if mem_str name (bnames b) then bnames b else bnames b ++ [name])
              (set_opt name l (blower b)) (set_opt name h (bupper b))))).
  (** parampriors.py:73-74 *)
  Definition setFixed (b : bounds) (name : str) (v : V) : res bounds := setRange b name (BVal v) (BVal v).

  (** parampriors.py:85-99 *)
  Definition getUpper (b : bounds) (name : str) : option V := dget name (bupper b).
  Definition getLower (b : bounds) (name : str) : option V := dget name (blower b).

  (** parampriors.py:101-112 *)
  Definition fixedValue (b : bounds) (name : str) : option V :=
    match dget name (blower b) with
    | Some lower => match dget name (bupper b) with
                    | Some higher => if veq higher lower then Some lower else None
                    | None => None
                    end
    | None => None
    end.
  (** parampriors.py:114-123 *)
  Definition fixedValueDict (b : bounds) : dict V :=
    fold_left (fun r n => match fixedValue b n with Some v => dset n v r | None => r end) (bnames b) [].

  (** "%Ns" % s *)
  Definition pad (n : nat) (s : str) : str := repeat " "%char (n - length s) ++ s.
  Definition lim_text (o : option V) : str := match o with Some v => fmt v | None => L "    N" end.
  (** parampriors.py:44-58 __str__, written by saveToFile 60-67 *)
  Definition bounds_line (b : bounds) (name : str) : str :=
    pad 22 name ++ pad 17 (lim_text (getLower b name)) ++ pad 17 (lim_text (getUpper b name)).
  Definition bounds_text (b : bounds) : str :=
    concat (map (fun n => bounds_line b n ++ [nl]) (bnames b)).

  (** parampriors.py:25-33 loadFromFile of a .ranges/.bounds file: one line *)
  Definition load_line (b : bounds) (line : str) : res bounds :=
    match split_ws line with
    | [a; x; y] => setRange b a (BText x) (BText y)
    | _ => Ok b
    end.
  Definition load_bounds (text : str) : res bounds :=
    fold_left (fun acc line => bindR acc (fun b => load_line b line)) (text_lines text) (Ok empty_bounds).
End Bounds.
Arguments barg : clear implicits.
Arguments bounds : clear implicits.
