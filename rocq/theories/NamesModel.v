(** Model of lists of parameter names in the Fortran code, source/ObjectParamNames.f90 50-91, 111-143, 177-220, 254-267, 299-420.
    Text is a list of 8-bit characters without the blanks at the end (a comparison in Fortran ignores them).  IsWhiteSpace and the
    text file class are in a library that is not in the repository: a blank or a tab, a file is a list of lines.  List-directed input
    of a text item is modelled where the item is a plain word; [sep] says which characters end it (this depends on the compiler;
    blanks and tabs do).  Input of other forms (quotes, null values, repeat counts) has its own outcome. *)
From Coq Require Import String Ascii Bool Arith List.
From Verif Require Import PyStr.
Import ListNotations.

Definition tab : ascii := ascii_of_nat 9.
Definition blank : ascii := " "%char.
Definition star : ascii := "*"%char.
Definition hash : ascii := "#"%char.
Definition white (c : ascii) : bool := ch_eqb c blank || ch_eqb c tab.
Fixpoint adjustl (s : str) : str := match s with c :: s' => if ch_eqb c blank then adjustl s' else s | [] => [] end.
Definition trim (s : str) : str := rev (adjustl (rev s)).
(** Assignment to a variable of n characters *)
Definition store (n : nat) (s : str) : str := trim (firstn n s).
Definition maxlen : nat := 128.   (* line 9 *)

(** Lines 11-19 *)
Record pn := mkN { nm : str; lab : str; com : str; der : bool }.

(** List-directed input of one text item *)
Inductive lread := Word (w : str) | Missing | Other.
Fixpoint until (sep : ascii -> bool) (s : str) : str :=
  match s with c :: s' => if sep c then [] else c :: until sep s' | [] => [] end.
Definition digit (c : ascii) : bool := (48 <=? nat_of_ascii c) && (nat_of_ascii c <=? 57).
Fixpoint counted (s : str) : bool :=
  match s with c :: s' => if digit c then counted s' else ch_eqb c star | [] => false end.
Fixpoint skip_white (s : str) : str := match s with c :: s' => if white c then skip_white s' else s | [] => [] end.
Definition list_read (sep : ascii -> bool) (s : str) : lread :=
  match skip_white s with
  | [] => Missing
  | c :: s' => if sep c || ch_eqb c "'"%char || ch_eqb c """"%char || (digit c && counted s') then Other
               else Word (until sep (c :: s'))
  end.

(** Lines 59-61, 66-68: the last character is not passed over *)
Fixpoint skip1 (s : str) : str :=
  match s with
  | c :: (_ :: _) as s' => if white c then skip1 s' else s
  | _ => s
  end.
(** Lines 70-77: what is before a character, and what is after it *)
Definition cut (c : ascii) (s : str) : str * option str :=
  match find_ch c s with Some k => (firstn k s, Some (skipn (k + 1) s)) | None => (s, None) end.

Inductive parsed := Parsed (p : pn) | Failed | Unmodelled.
(** Lines 50-91 *)
Definition ParseLine (sep : ascii -> bool) (InLine : str) : parsed :=
  let t := skip1 (trim InLine) in
  match list_read sep t with
  | Missing => Failed
  | Other => Unmodelled
  | Word w =>
      let name := store (maxlen * 3) w in
      let label := store (maxlen * 3) (trim (adjustl (skip1 (skipn (length name) t)))) in
      let (label, comment) := cut hash label in
      let label := fst (cut tab label) in
      let name := trim (adjustl name) in
      let d := endswith [star] name in
      let name := if d then removelast name else name in
      Parsed (mkN (store maxlen name) (store maxlen label)
                  (match comment with Some c => store maxlen c | None => [] end) d)
  end.
(** Lines 111-136: blank lines are left out; the first line that does not give a parameter stops the program *)
Fixpoint Init (sep : ascii -> bool) (lines : list str) : option (list pn) :=
  match lines with
  | [] => Some []
  | l :: lines' =>
      match trim l with
      | [] => Init sep lines'
      | _ => match ParseLine sep l, Init sep lines' with Parsed p, Some r => Some (p :: r) | _, _ => None end
      end
  end.
(** Lines 364-385 *)
Definition AsString (want_comment : bool) (p : pn) : str :=
  let line := trim (nm p) ++ (if der p then [star] else []) ++ [tab] ++ trim (lab p) in
  if want_comment && negb (str_eqb (com p) []) then line ++ [tab; hash] ++ trim (com p) else line.
Definition num_derived (l : list pn) : nat := length (filter der l).
Definition num_MCMC (l : list pn) : nat := length l - num_derived l.
(** Lines 387-420, with indices and add_derived; None when an index is out of range (376) *)
Definition WriteFile (l : list pn) (indices : list nat) : option (list str) :=
  fold_right (fun i r => match nth_error l i, r with Some p, Some r => Some (AsString false p :: r) | _, _ => None end)
             (Some []) (indices ++ seq (num_MCMC l) (num_derived l)).
Definition WriteAll (l : list pn) : list str := map (AsString false) l.

(** Lines 254-267, None for -1 *)
Fixpoint index (l : list pn) (n : str) : option nat :=
  match l with
  | [] => None
  | p :: l' => if str_eqb (nm p) n then Some O else option_map S (index l' n)
  end.
Definition isin (l : list pn) (n : str) : bool := match index l n with Some _ => true | None => false end.
(** Lines 197-210: one pass over a list *)
Definition add_pass (d : bool) (acc P : list pn) : list pn :=
  fold_left (fun acc p => if negb (isin acc (nm p)) && Bool.eqb (der p) d then acc ++ [p] else acc) P acc.
(** Lines 177-220 without the ranges; None when the program stops *)
Definition Add (check : bool) (this names : list pn) : option (list pn) :=
  let fresh := filter (fun p => negb (isin this (nm p))) names in
  if check && negb (length fresh =? length names) then None
  else match fresh with
       | [] => Some this
       | _ => let r := add_pass true (add_pass true (add_pass false (add_pass false [] this) names) this) names in
              if length r =? length this + length fresh then Some r else None
       end.
(** The ranges of derived parameters, lines 190 and 217: [AddItems(.., nodups)] adds those that are not there *)
Definition Add_ranges (this names : list pn) (ranges new : list str) : list str :=
  match filter (fun p => negb (isin this (nm p))) names with
  | [] => ranges
  | _ => fold_left (fun r x => if mem_str x r then r else r ++ [x]) new ranges
  end.

(** Lines 299-362: [num] None for -1; [unknown] is unknown_value, None if it is not given.  The result is the list of the values of
    params that are set, None when the program stops.  A word that is not a name and has only digits is a number. *)
Fixpoint number (acc : nat) (s : str) : nat := match s with c :: s' => number (10 * acc + (nat_of_ascii c - 48)) s' | [] => acc end.
Inductive found := Value (v : nat) | Skip | Stop.
Definition one_index (l : list pn) (unknown : option (option nat)) (no_derived : bool) (part : str) : found :=
  let ix := match index l part with
            | Some i => if no_derived && (num_MCMC l <=? i) then None else Some (S i)
            | None => None
            end in
  match ix with
  | Some v => Value v
  | None => if forallb digit part then Value (number 0 part)
            else match unknown with
                 | Some (Some v) => Value v
                 | Some None => Skip
                 | None => Stop
                 end
  end.
Definition unknown_num : nat := 1024.
(** [todo] passes are left; the end of the text leaves the loop with status /= 0 *)
Fixpoint read_loop (sep : ascii -> bool) (l : list pn) (unknown : option (option nat)) (no_derived : bool) (todo : nat) (s : str)
  : option (list nat * bool) :=
  match todo with
  | O => Some ([], false)
  | S todo' =>
      let s := skip_white s in
      match list_read sep s with
      | Missing => Some ([], true)
      | Other => None
      | Word w =>
          let part := store maxlen w in
          match one_index l unknown no_derived part, read_loop sep l unknown no_derived todo' (skipn (length part) s) with
          | Value v, Some (r, e) => Some (v :: r, e)
          | Skip, Some (r, e) => Some (r, e)
          | _, _ => None
          end
      end
  end.
(** The numbers written to params, and num *)
Definition ReadIndices (sep : ascii -> bool) (l : list pn) (InLine : str) (num : option nat) (unknown : option (option nat)) (no_derived : bool)
  : option (list nat * option nat) :=
  match num with
  | Some O => Some ([], Some O)
  | _ =>
      let max_num := match num with Some n => n | None => unknown_num end in
      match read_loop sep l unknown no_derived max_num (trim InLine) with
      | None => None
      | Some (r, ended) =>
          let num' := if max_num =? unknown_num then match r with [] => num | _ => Some (length r) end else num in
          if ended && negb (max_num =? unknown_num) then None else Some (r, num')
      end
  end.
