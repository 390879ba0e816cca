(** Model of getdist/paramnames.py (commit under study), function by function. *)
From Verif Require Export PyBase.

(** line.split(None, 1): first word and the rest with its leading blanks removed *)
Fixpoint word_rest (s : str) : str * str :=
  match s with
  | [] => ([], [])
  | c :: s' => if is_space c then ([], s) else let (w, r) := word_rest s' in (c :: w, r)
  end.
Definition split_none_1 (s : str) : list str :=
  match lstrip s with
  | [] => []
  | s1 => let (w, r) := word_rest s1 in
          match lstrip r with [] => [w] | r1 => [w; r1] end
  end.

(** s.split(c, 1) *)
Definition split_ch_1 (c : ascii) (s : str) : list str :=
  match find_ch c s with
  | Some n => [firstn n s; skipn (n + 1) s]
  | None => [s]
  end.

(** s.strip(c) for one character *)
Fixpoint lstrip_ch (c : ascii) (s : str) : str :=
  match s with b :: s' => if ch_eqb b c then lstrip_ch c s' else s | [] => [] end.
Definition strip_ch (c : ascii) (s : str) : str := rev (lstrip_ch c (rev (lstrip_ch c s))).

(** s.replace(a, b) for single characters *)
Definition replace_ch (a b : ascii) (s : str) : str := map (fun c => if ch_eqb c a then b else c) s.

Definition star : ascii := "*"%char.
Definition hash : ascii := "#"%char.
Definition bang : ascii := "!"%char.
Definition backslash : ascii := "\"%char.
Definition tab : ascii := ascii_of_nat 9.

(** paramnames.py:79-89 ParamInfo fields (filenameLoadedFrom, number: not modelled, never read by
    the modelled functions) *)
Record pinfo := mkP { pname : str; plabel : str; pcomment : str; pderived : bool; prenames : list str }.

Definition in_str (c : ascii) (s : str) : bool := existsb (ch_eqb c) s.

(** paramnames.py:113-118 setName: the new name, or ValueError *)
Definition setName (n : str) : res str :=
  if in_str star n || in_str "?"%char n || in_str " "%char n || in_str tab n then Err ValueError else Ok n.

(** paramnames.py:97-111 setFromString *)
Definition setFromString (self : pinfo) (line : str) : res pinfo :=
  match split_none_1 line with
  | [] => Err IndexError
  | name :: rest =>
      let (name1, der) := if endswith [star] name then (strip_ch star name, true) else (name, pderived self) in
      bindR (setName name1) (fun n =>
        match rest with
        | [] => Ok (mkP n (plabel self) (pcomment self) der (prenames self))
        | items1 :: _ =>
            match split_ch_1 hash items1 with
            | [] => Err IndexError
            | t0 :: ts =>
                Ok (mkP n (replace_ch bang backslash (strip t0))
                        (match ts with [] => [] | t1 :: _ => strip t1 end) der (prenames self))
            end
        end)
  end.

(** paramnames.py:79-89 ParamInfo(line) *)
Definition ParamInfo_line (line : str) : res pinfo :=
  setFromString (mkP [] [] [] false []) line.

(** paramnames.py:79-89 ParamInfo(name=, label=, comment=, derived=, renames=) *)
Definition ParamInfo_new (name label comment : str) (derived : bool) (renames : list str) : res pinfo :=
  bindR (setName name) (fun n =>
    Ok (mkP n (match label with [] => name | _ => label end) comment derived renames)).

(** paramnames.py:137-144 string *)
Definition pstring (wantComments : bool) (p : pinfo) : str :=
  pname p ++ (if pderived p then [star] else []) ++ [tab] ++ plabel p ++
  (if wantComments && negb (str_eqb (pcomment p) []) then [tab; hash] ++ pcomment p else []).

(** paramnames.py:380-384 __str__, written by saveAsText 386-393 *)
Definition plist_text (l : list pinfo) : str := concat (map (fun p => pstring true p ++ [nl]) l).

(** paramnames.py:420-429 loadFromFile for a .paramnames file with the given content *)
Definition load_paramnames (text : str) : res (list pinfo) :=
  mapR ParamInfo_line (filter (fun l => negb (str_eqb l [])) (map strip (text_lines text))).

(** paramnames.py:132-135 setFromStringWithComment *)
Definition setFromStringWithComment (self : pinfo) (item0 item1 : str) : res pinfo :=
  bindR (setFromString self item0) (fun p =>
    if str_eqb item1 (L "NULL") then Ok p
    else Ok (mkP (pname p) (plabel p) item1 (pderived p) (prenames p))).

(** paramnames.py:457-462 saveKeyWords: the two counts and, per parameter, value and comment *)
Definition numDerived (l : list pinfo) : nat := length (filter pderived l).        (* 191-192 *)
Definition numNonDerived (l : list pinfo) : nat := length (filter (fun p => negb (pderived p)) l). (* 212-213 *)
Definition saveKeyWords (l : list pinfo) : nat * nat * list (str * str) :=
  (length l - numDerived l, numDerived l,
   map (fun p => (replace_ch backslash bang (pstring false p), pcomment p)) l).
(** paramnames.py:447-455 loadFromKeyWords, reading entries param_1 .. param_n *)
Fixpoint load_kw (n : nat) (e : list (str * str)) : res (list pinfo) :=
  match n with
  | 0 => Ok []
  | S n' => match e with
            | [] => Err KeyError
            | (v, c) :: e' =>
                bindR (setFromStringWithComment (mkP [] [] [] false []) v c)
                  (fun p => bindR (load_kw n' e') (fun r => Ok (p :: r)))
            end
  end.
Definition loadFromKeyWords (k : nat * nat * list (str * str)) : res (list pinfo) :=
  let '(a, b, e) := k in load_kw (a + b) e.

(** ** lookups *)
(** paramnames.py:247-258 numberOfName ([None]: -1) *)
Fixpoint numberOfName_from (i : nat) (l : list pinfo) (name : str) : option nat :=
  match l with
  | [] => None
  | p :: l' => if str_eqb (pname p) name then Some i else numberOfName_from (S i) l' name
  end.
Definition numberOfName (l : list pinfo) (name : str) : option nat := numberOfName_from 0 l name.
(** paramnames.py:260-261 *)
Definition hasParam (l : list pinfo) (name : str) : bool :=
  match numberOfName l name with Some _ => true | None => false end.

(** renames.get(k, []) for an optional dictionary (None or {}: no renames) *)
Definition renames_get (r : dict (list str)) (k : str) : list str :=
  match dget k r with Some v => v | None => [] end.
(** two name sets intersect *)
Definition meets (a b : list str) : bool := existsb (fun x => mem_str x b) a.

(** paramnames.py:225-245 parWithName; [renames] = [] stands for None or an empty dictionary *)
Fixpoint find_par (l : list pinfo) (given : list str) (r : dict (list str)) : option pinfo :=
  match l with
  | [] => None
  | p :: l' => if meets (pname p :: prenames p ++ renames_get r (pname p)) given then Some p
               else find_par l' given r
  end.
Definition parWithName (l : list pinfo) (name : str) (error : bool) (r : dict (list str)) : res (option pinfo) :=
  match find_par l (name :: renames_get r name) r with
  | Some p => Ok (Some p)
  | None => if error then Err (OtherError name) else Ok None
  end.

(** paramnames.py:289-297 getMatches; [fnm name pattern] is fnmatch.fnmatchcase *)
Definition getMatches (fnm : str -> str -> bool) (l : list pinfo) (pat : str) : list pinfo :=
  filter (fun p => fnm (pname p) pat) l.
(** paramnames.py:263-287 parsWithNames for a list of name strings and one error flag *)
Fixpoint parsWithNames (fnm : str -> str -> bool) (l : list pinfo) (names : list str) (error : bool)
         (r : dict (list str)) : res (list (option pinfo)) :=
  match names with
  | [] => Ok []
  | n :: ns =>
      bindR (if in_str "?"%char n || in_str star n then Ok (map Some (getMatches fnm l n))
             else bindR (parWithName l n error r) (fun p => Ok [p]))
        (fun h => bindR (parsWithNames fnm l ns error r) (fun t => Ok (h ++ t)))
  end.

(** ** selection *)
(** paramnames.py:338-339 deleteIndices *)
Fixpoint delete_from (i : nat) (l : list pinfo) (ix : list nat) : list pinfo :=
  match l with
  | [] => []
  | p :: l' => if existsb (Nat.eqb i) ix then delete_from (S i) l' ix else p :: delete_from (S i) l' ix
  end.
Definition deleteIndices (l : list pinfo) (ix : list nat) : list pinfo := delete_from 0 l ix.
(** paramnames.py:341-350 filteredCopy with a list of names / with another ParamList *)
Definition filteredCopy_names (l : list pinfo) (params : list str) : list pinfo :=
  filter (fun p => mem_str (pname p) params) l.
Definition filteredCopy (l params : list pinfo) : list pinfo :=
  filter (fun p => match find_par params [pname p] [] with Some _ => true | None => false end) l.
(** paramnames.py:352-364 addDerived (derived flag given or defaulted to True) *)
Definition addDerived (l : list pinfo) (name label comment : str) (derived : option bool) (renames : list str)
  : res (list pinfo) :=
  bindR (ParamInfo_new name label comment (match derived with Some b => b | None => true end) renames)
    (fun p => Ok (l ++ [p])).
(** paramnames.py:395-405 *)
Definition getDerivedNames (l : list pinfo) : list str := map pname (filter pderived l).
Definition getRunningNames (l : list pinfo) : list str := map pname (filter (fun p => negb (pderived p)) l).

(** ** renames *)
(** python sets of strings are duplicate-free lists; the element order, which python does not
    define, is irrelevant for the theorems *)
Definition set_of (l : list str) : list str := nodup str_eq_dec l.
Definition set_join (a b : list str) : list str := a ++ filter (fun x => negb (mem_str x a)) b.

(** paramnames.py:41-42: one set per entry of each dictionary *)
Definition rename_sets (dicts : list (dict (list str))) : list (list str) :=
  flat_map (fun d => map (fun kv => set_of (fst kv :: snd kv)) d) dicts.

(** paramnames.py:48-52: first later set meeting the first one is merged into it *)
Fixpoint absorb (s : list str) (rest : list (list str)) : option (list str * list (list str)) :=
  match rest with
  | [] => None
  | t :: rest' => if meets s t then Some (set_join s t, rest')
                  else match absorb s rest' with
                       | Some (u, r) => Some (u, t :: r)
                       | None => None
                       end
  end.
(** paramnames.py:44-56 the while loop; [None]: out of fuel *)
Fixpoint merge_loop (fuel : nat) (sets out : list (list str)) : option (list (list str)) :=
  match sets with
  | [] => Some out
  | s :: rest =>
      match fuel with
      | 0 => None
      | S fuel' =>
          match absorb s rest with
          | Some (u, r) => merge_loop fuel' (u :: r) out
          | None => merge_loop fuel' rest (out ++ [s])
          end
      end
  end.

(** set equality params != p, where p is a subset of params *)
Definition same_set (a b : list str) : bool :=
  forallb (fun x => mem_str x b) a && forallb (fun x => mem_str x a) b.

(** paramnames.py:59-65 for one group: first dictionary with a key in the group. [pick] is the
    element chosen by set.pop() *)
Fixpoint name_group (pick : list str -> str) (keep1 : bool) (dicts : list (dict (list str))) (params : list str)
  : option (str * list str) :=
  match dicts with
  | [] => None
  | d :: ds =>
      let p := filter (fun x => mem_str x params) (dkeys d) in
      if negb (match p with [] => true | _ => false end) && (negb (same_set params p) || keep1)
      then Some (pick p, filter (fun x => negb (str_eqb x (pick p))) params)
      else name_group pick keep1 ds params
  end.
(** paramnames.py:28-66 mergeRenames *)
Definition mergeRenames (pick : list str -> str) (keep1 : bool) (dicts : list (dict (list str)))
  : option (dict (list str)) :=
  let sets := rename_sets dicts in
  match merge_loop (length sets) sets [] with
  | None => None
  | Some out =>
      Some (fold_left (fun m g => match name_group pick keep1 dicts g with
                                  | Some (k, v) => dset k v m
                                  | None => m
                                  end) out [])
  end.

(** paramnames.py:314-320 getRenames(keep_empty=True): a dictionary comprehension (a repeated name
    keeps its position and the last value) *)
Definition getRenames_all (l : list pinfo) : dict (list str) :=
  fold_left (fun d p => dset (pname p) (prenames p) d) l [].
(** self.parWithName(name).renames = rename: the first matching parameter object is updated *)
Fixpoint set_renames (l : list pinfo) (name : str) (v : list str) : list pinfo :=
  match l with
  | [] => []
  | p :: l' => if meets (pname p :: prenames p) [name]
               then mkP (pname p) (plabel p) (pcomment p) (pderived p) v :: l'
               else p :: set_renames l' name v
  end.
(** paramnames.py:322-331 updateRenames *)
Definition updateRenames (pick : list str -> str) (l : list pinfo) (r : dict (list str)) : option (list pinfo) :=
  match mergeRenames pick true [getRenames_all l; r] with
  | None => None
  | Some m =>
      Some (fold_left (fun l' kv => if mem_str (fst kv) (map pname l) then set_renames l' (fst kv) (snd kv) else l')
              m l)
  end.
