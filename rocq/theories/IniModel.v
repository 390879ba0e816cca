(** Model of python/getdist/inifile.py. *)
From Verif Require Import PyStr.

(** Exceptions raised while reading a file. *)
Inductive ini_err :=
| EIO                 (* open() failed *)
| EDup (key : str)    (* IniError, duplicate key, inifile.py:95 *)
| EIndex              (* IndexError of s[index + 1], inifile.py:54 *)
| EValue              (* ValueError of s.index(')'), inifile.py:60 *)
| ERecursion          (* RecursionError: the nesting of readFile calls exceeds the stack *)
| EUndef (key : str)  (* IniError, parameter not defined, inifile.py:180 *)
| EType               (* TypeError: subscripting a non-text value *)
| EBool (key : str).  (* IniError, invalid boolean value, inifile.py:249 *)

Inductive res (A : Type) := Ok (a : A) | Err (e : ini_err).
Arguments Ok {A}. Arguments Err {A}.

Definition bindR {A B} (x : res A) (f : A -> res B) : res B :=
  match x with Ok a => f a | Err e => Err e end.

Definition dollar : ascii := "$"%char.
Definition lpar : ascii := "("%char.
Definition rpar : ascii := ")"%char.

(** inifile.py:51-66, the scanning loop of expand_placeholders; [s], [index], [res] are the
    python variables (pathlen = len(s)). [fuel] bounds the number of iterations; exhausting it
    is reported as [ERecursion] and shown impossible in IniProofs. *)
Fixpoint expand_loop (fuel : nat) (env : str -> option str) (s : str) (index : nat) (acc : str) : res str :=
  match fuel with
  | 0 => Err ERecursion
  | S fuel' =>
      if index <? length s then
        match nth_error s index with
        | None => Err EIndex
        | Some c =>
            if ch_eqb c dollar then
              match nth_error s (index + 1) with
              | None => Err EIndex                                   (* s[index + 1] *)
              | Some c1 =>
                  if ch_eqb c1 dollar then
                    expand_loop fuel' env s (index + 1 + 1) (acc ++ [c])
                  else if ch_eqb c1 lpar then
                    let s2 := skipn (index + 2) s in
                    match find_ch rpar s2 with
                    | None => Err EValue                             (* s.index(')') *)
                    | Some i2 =>
                        let var := firstn i2 s2 in
                        let acc2 := match env var with Some v => acc ++ v | None => acc end in
                        expand_loop fuel' env s2 (i2 + 1) acc2
                    end
                  else expand_loop fuel' env s (index + 1) acc
              end
            else expand_loop fuel' env s (index + 1) (acc ++ [c])
        end
      else Ok acc
  end.

(** inifile.py:44-67 expand_placeholders; [env] is os.environ *)
Definition expand_placeholders (env : str -> option str) (s : str) : res str :=
  if contains [dollar; lpar] s then expand_loop (S (length s)) env s 0 [] else Ok s.

(** values held in IniFile.params: text read from a file, or objects put there by the caller
    ([VObj t]: any object of another type whose str() is [t]) *)
Inductive value := VStr (s : str) | VBool (b : bool) | VObj (t : str).

(** inifile.py:32-38 instance state *)
Record ini := mkIni {
  params : dict value;
  comments : dict (list str);
  readOrder : list str;
  defaults : list str;
  includes : list str;
  original_filename : option str;
  expand_env : bool
}.

Definition empty_ini (expand : bool) : ini := mkIni [] [] [] [] [] None expand.

(** posixpath.isabs, dirname, join as used at inifile.py:111-119 *)
Definition slash : ascii := "/"%char.
Definition isabs (p : str) : bool := startswith [slash] p.
Fixpoint lstrip_slash (s : str) : str :=
  match s with c :: s' => if ch_eqb c slash then lstrip_slash s' else s | [] => [] end.
Definition dirname (p : str) : str :=
  let head := match rfind_ch slash p with Some i => firstn (i + 1) p | None => [] end in
  if forallb (fun c => ch_eqb c slash) head then head else rev (lstrip_slash (rev head)).
Definition path_join (a b : str) : str :=
  if isabs b then b
  else match rev a with
       | [] => b
       | c :: _ => if ch_eqb c slash then a ++ b else a ++ [slash] ++ b
       end.
(** inifile.py:111-114 (and 116-119): location of an included file *)
Definition resolve (filename ffile : str) : str :=
  if isabs ffile then ffile else path_join (dirname filename) ffile.

Definition hash : ascii := "#"%char.
Definition equals : ascii := "="%char.

(** inifile.py:85,87: s[s.find('(') + 1 : s.rfind(')')], rfind = -1 drops the last character *)
Definition paren_arg (s : str) : str :=
  let a := match find_ch lpar s with Some i => i + 1 | None => 0 end in
  let b := match rfind_ch rpar s with Some j => j | None => length s - 1 end in
  slice a b s.

(** state of the line loop: the object plus the local lists fileincludes, filedefaults, comments *)
Record rstate := mkR { r_ini : ini; r_inc : list str; r_def : list str; r_com : list str }.

Definition set_param (i : ini) (key : str) (v : value) (com : list str) : ini :=
  mkIni (dset key v (params i))
        (match com with [] => comments i | _ => dset key com (comments i) end)
        (readOrder i ++ [key]) (defaults i) (includes i) (original_filename i) (expand_env i).

(** inifile.py:78-104, one iteration of the line loop. [None]: END seen, loop left. *)
Definition read_line (env : str -> option str) (if_not_defined : bool) (line : str) (st : rstate)
  : res (option rstate) :=
  let s := strip line in
  let i := r_ini st in
  if str_eqb s (L "END") then Ok None
  else if startswith [hash] s then
    Ok (Some (mkR i (r_inc st) (r_def st) (r_com st ++ [rstrip (skipn 1 s)])))  (* continue *)
  else if startswith (L "INCLUDE(") s then
    Ok (Some (mkR i (r_inc st ++ [paren_arg s]) (r_def st) []))
  else if startswith (L "DEFAULT(") s then
    Ok (Some (mkR i (r_inc st) (r_def st ++ [paren_arg s]) []))
  else
    match find_ch equals s with
    | None => Ok (Some (mkR i (r_inc st) (r_def st) []))   (* blank line or line without '=' *)
    | Some eq =>
        let key := strip (firstn eq s) in
        if dhas key (params i) then
          if if_not_defined then Ok (Some st)               (* continue: comments kept *)
          else Err (EDup key)
        else
          let value0 := strip (skipn (eq + 1) s) in
          bindR (if expand_env i then expand_placeholders env value0 else Ok value0)
            (fun v => Ok (Some (mkR (set_param i key (VStr v) (r_com st)) (r_inc st) (r_def st) [])))
    end.

(** inifile.py:77-104, the loop over the lines of the file *)
Fixpoint read_lines (env : str -> option str) (if_not_defined : bool) (ls : list str) (st : rstate) : res rstate :=
  match ls with
  | [] => Ok st
  | l :: ls' =>
      match read_line env if_not_defined l st with
      | Err e => Err e
      | Ok None => Ok st
      | Ok (Some st') => read_lines env if_not_defined ls' st'
      end
  end.

Definition with_orig (i : ini) (f : str) : ini :=
  mkIni (params i) (comments i) (readOrder i) (defaults i) (includes i) (Some f) (expand_env i).

(** inifile.py:69-121 readFile. [fs] is the readable text of each file; [fuel] is the available
    recursion depth (python raises RecursionError when it is exhausted). *)
Fixpoint readFile (fuel : nat) (fs : str -> option str) (env : str -> option str)
         (filename : str) (keep_includes if_not_defined : bool) (self : ini) : res ini :=
  match fuel with
  | 0 => Err ERecursion
  | S fuel' =>
      let self := with_orig self filename in
      match fs filename with
      | None => Err EIO
      | Some text =>
          bindR (read_lines env if_not_defined (text_lines text) (mkR self [] [] []))
          (fun st =>
             let i := r_ini st in
             if keep_includes then
               Ok (mkIni (params i) (comments i) (readOrder i)
                         (defaults i ++ r_def st) (includes i ++ r_inc st)
                         (original_filename i) (expand_env i))
             else
               bindR
                 (fold_left (fun acc ffile =>
                    bindR acc (readFile fuel' fs env (resolve filename ffile) false if_not_defined))
                    (r_inc st) (Ok i))
                 (fun i1 =>
                    fold_left (fun acc ffile =>
                      bindR acc (readFile fuel' fs env (resolve filename ffile) false true))
                      (r_def st) (Ok i1)))
      end
  end.

(** inifile.py:20-42, IniFile(filename, keep_includes, expand_environment_variables) *)
Definition loadIni (fuel : nat) fs env (filename : str) (keep_includes expand : bool) : res ini :=
  readFile fuel fs env filename keep_includes false (empty_ini expand).

(** inifile.py:145-150 asIniText *)
Definition asIniText (v : value) : str :=
  match v with
  | VStr s => s
  | VBool true => L "T"
  | VBool false => L "F"
  | VObj t => t
  end.

(** inifile.py:161-164: keys in read order, removing each from [keys] *)
Fixpoint ordered_lines (p : dict value) (order keys : list str) : list str * list str :=
  match order with
  | [] => ([], keys)
  | k :: order' =>
      if mem_str k keys then
        let (ls, rest) := ordered_lines p order' (remove_first k keys) in
        (match dget k p with
         | Some v => (k ++ [equals] ++ asIniText v) :: ls
         | None => ls                         (* not reachable: keys come from params *)
         end, rest)
      else ordered_lines p order' keys
  end.

Definition key_line (p : dict value) (k : str) : list str :=
  match dget k p with Some v => [k ++ [equals] ++ asIniText v] | None => [] end.

(** inifile.py:143-168 fileLines *)
Definition fileLines (i : ini) : list str :=
  let keys := sort_str (dkeys (params i)) in
  let (ls, rest) := ordered_lines (params i) (readOrder i) keys in
  map (fun f => L "INCLUDE(" ++ f ++ [rpar]) (includes i)
  ++ map (fun f => L "DEFAULT(" ++ f ++ [rpar]) (defaults i)
  ++ ls ++ flat_map (key_line (params i)) rest.

(** inifile.py:126-127, 129-141: text written by saveFile *)
Definition saveText (i : ini) : str := join [nl] (fileLines i).

(** inifile.py:136-139: file that saveFile(filename) writes to *)
Definition saveTarget (i : ini) (filename : option str) : option str :=
  match filename with Some (_ :: _) => filename | _ => original_filename i end.

(** inifile.py:170-177 *)
Definition delete_keys (i : ini) (keys : list str) : ini :=
  mkIni (fold_left (fun p k => ddel k p) keys (params i)) (comments i) (readOrder i)
        (defaults i) (includes i) (original_filename i) (expand_env i).

(** inifile.py:182-199 *)
Definition hasKey (i : ini) (name : str) : bool := dhas name (params i).
Definition value_is_empty (v : value) : bool := match v with VStr [] => true | _ => false end.
Definition isSet (i : ini) (name : str) (allowEmpty : bool) : bool :=
  match dget name (params i) with
  | Some v => allowEmpty || negb (value_is_empty v)
  | None => false
  end.

(** inifile.py:234-253 bool; [default] is python's None or a boolean *)
Definition ini_bool (i : ini) (name : str) (default : option bool) : res bool :=
  if isSet i name false then
    match dget name (params i) with
    | Some (VBool b) => Ok b
    | Some (VStr (c :: _)) =>
        if ch_eqb c "T"%char then Ok true
        else if ch_eqb c "F"%char then Ok false
        else Err (EBool name)
    | Some (VObj _) => Err EType             (* other objects are not subscriptable *)
    | _ => Err EIndex
    end
  else match default with
       | Some d => Ok d
       | None => Err (EUndef name)
       end.

(** inifile.py:201-214 asType for a type constructor [tp] applied to the stored value
    (the branches for int, float, str; bool is [ini_bool]) *)
Definition asType {T} (i : ini) (name : str) (tp : value -> res T) (default : option T) (allowEmpty : bool) : res T :=
  if isSet i name allowEmpty then
    match dget name (params i) with
    | Some v => tp v
    | None => Err (EUndef name)      (* not reachable: isSet *)
    end
  else match default with
       | Some d => Ok d
       | None => Err (EUndef name)
       end.

(** inifile.py:267-275 string *)
Definition ini_string (i : ini) (name : str) (default : option str) (allowEmpty : bool) : res str :=
  asType i name (fun v => Ok (match v with VStr s => s | VBool true => L "True" | VBool false => L "False" | VObj t => t end))
         default allowEmpty.

(** python bool(w) of a text: False only for the empty text *)
Definition py_bool_of_text (w : str) : bool := match w with [] => false | _ => true end.

(** inifile.py:255-265 bool_list through split (inifile.py:333-353) for a text value:
    [tp(x) for x in s.split()] with tp = bool; absent key: the (list) default *)
Definition bool_list (i : ini) (name : str) (default : list bool) : res (list bool) :=
  match dget name (params i) with
  | Some (VStr s) => Ok (map py_bool_of_text (split_ws s))
  | Some (VBool b) => Ok (map py_bool_of_text (split_ws (if b then L "True" else L "False")))
  | Some (VObj t) => Ok (map py_bool_of_text (split_ws t))   (* list/tuple objects not modelled *)
  | None => Ok default
  end.
