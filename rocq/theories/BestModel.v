(** Model of best-fit files (.minimum): written by source/calclike.f90 (TLikeCalculator_WriteParamsHumanText,
    TTheoryLike_WriteParamsHumanText) and source/GeneralTypes.f90 (WriteLikelihoodContribs), read by
    python/getdist/types.py BestFit.loadFromFile, and changed, with .paramnames files, by python/renameParam.py.

    Numbers.  A number is an element of a type [F]: [ld] is its list-directed text, [fmtE] and [f3] the texts that
    the formats E15.7 and F11.3 put into their fields, [twice] doubles; [parse] and [parse_int] are float(text) and
    int(text).
    Lines are without their newlines. *)
From Verif Require Import PyBase PyNum ParamModel MargeModel ThinModel.
From Coq Require Import ZArith QArith String Ascii Bool List.
Import ListNotations.
Local Open Scope nat_scope.
Local Open Scope list_scope.

Section Write.
  Context {F : Type} (ld fmtE f3 : F -> str) (twice : F -> F).

  (** a Fortran number field of [w] columns: asterisks if the text is too long *)
  Definition field (w : nat) (s : str) : str := if w <? List.length s then repeat "*"%char w else rjust w s.
  (** format A22 of a character variable of 128 characters (ObjectParamNames.f90:9,14): the first 22 of them *)
  Definition a22 (s : str) : str := firstn 22 (ljust 22 s).
  (** trim *)
  Definition ftrim (s : str) : str := rev (lstrip_ch " "%char (rev s)).

  Record fpar := mkfp { f_num : nat; f_val : F; f_name : str; f_label : str; f_varying : bool }.
  (** GeneralTypes.f90: name, tag, type and version of a likelihood, with its value *)
  Record flike := mkfl { k_val : F; k_name : str; k_tag : option str; k_type : str; k_version : str }.

  (** calclike.f90:228-230 and 451-453 *)
  Definition par_row (p : fpar) : str :=
    field 5 (show_nat (f_num p)) ++ field 15 (fmtE (f_val p)) ++ L "   " ++ a22 (f_name p) ++ ftrim (f_label p).
  (** GeneralTypes.f90:573-580 *)
  Definition like_row (l : flike) : str :=
    field 11 (f3 (k_val l)) ++ field 11 (f3 (twice (k_val l))) ++ L "   " ++ ftrim (k_type l) ++ L ": " ++
    match k_tag l with
    | Some t => if str_eqb (ftrim t) (ftrim (k_name l)) then ftrim (k_name l) else t ++ L " = " ++ ftrim (k_name l)
    | None => ftrim (k_name l)
    end ++ match ftrim (k_version l) with [] => [] | v => L " " ++ v end.
  (** calclike.f90:208-236, 445-460; with LogLike *)
  Definition minimum_lines (weight : option F) (loglike : F) (params derived : list fpar) (likes : list flike) : list str :=
    match weight with Some w => [L "  weight    = " ++ ld w] | None => [] end ++
    [L " -log(Like) = " ++ ld loglike; L "  chi-sq    = " ++ ld (twice loglike); L " "] ++
    map par_row (filter f_varying params) ++ [L " "] ++
    map par_row (filter (fun p => negb (f_varying p)) params) ++ [L " "] ++
    map par_row derived ++ [L " "; L " -log(Like)     chi-sq   data"] ++ map like_row likes.
End Write.
Arguments fpar : clear implicits.
Arguments flike : clear implicits.

(** what BestFit keeps: parameters, and the pairs of chiSquareds *)
Record bfpar {F} := mkbf { b_num : nat; b_val : F; b_name : str; b_label : str; b_fixed : bool; b_derived : bool }.
Record chi2 {F} := mkchi { x_kind : str; x_tag : option str; x_name : str; x_chisq : F }.
Record bestfit {F} := mkbest { bf_weight : option F; bf_logLike : F; bf_names : list (@bfpar F); bf_chi2 : list (@chi2 F) }.
Arguments bfpar : clear implicits.
Arguments chi2 : clear implicits.
Arguments bestfit : clear implicits.
Definition blank_line (s : str) : bool := match strip s with [] => true | _ => false end.

Section Read.
  Context {F : Type} (parse : str -> res F) (parse_int : str -> res nat).

  (** types.py:549-552 *)
  Definition read_bpar (isFixed isDerived : bool) (line : str) : res (bfpar F) :=
    match map strip (split_ws_n 3 line) with
    | [num; val; name; label] =>
        bindR (parse_int num) (fun n => bindR (parse val) (fun v => Ok (mkbf F n v name label isFixed isDerived)))
    | _ => Err ValueError
    end.
  (** types.py:530-543 *)
  Definition read_like (line : str) : res (chi2 F) :=
    match map strip (split_ws_n 2 line) with
    | [_; chisq; name] =>
        let '(kind, name) := match map strip (split_ch_1 ":"%char name) with
                             | [a; b] => (a, b)
                             | _ => ([], name)
                             end in
        if in_str "="%char name
        then match map strip (split_ch "="%char name) with
             | [tag; name] => bindR (parse chisq) (fun c => Ok (mkchi F kind (Some tag) name c))
             | _ => Err ValueError
             end
        else bindR (parse chisq) (fun c => Ok (mkchi F kind None name c))
    | _ => Err ValueError
    end.
  (** types.py:520-552: [lines] are those from index ix on *)
  Fixpoint read_lines (want_fixed : bool) (chunks : nat) (isFixed isDerived : bool) (lines : list str) : res (list (bfpar F) * list (chi2 F)) :=
    match lines with
    | [] => Ok ([], [])
    | line :: rest =>
        if blank_line line then
          if S chunks =? 3
          then bindR (mapR read_like (filter (fun l => negb (blank_line l)) (skipn 1 rest))) (fun ks => Ok ([], ks))
          else read_lines want_fixed (S chunks) (negb isFixed) true rest
        else if negb isFixed || want_fixed then
          bindR (read_bpar isFixed isDerived line) (fun p =>
          bindR (read_lines want_fixed chunks isFixed isDerived rest) (fun r => Ok (p :: fst r, snd r)))
        else read_lines want_fixed chunks isFixed isDerived rest
    end.
  (** types.py:509-519 *)
  Definition read_head (weight : option F) (lines : list str) (want_fixed : bool) : res (bestfit F) :=
    match lines with
    | [] => Err IndexError
    | l0 :: rest =>
        let first := split_ch "="%char (strip l0) in
        if negb (str_eqb (strip (hd [] first)) (L "-log(Like)")) then Err (OtherError (L "Error in format"))
        else match first with
             | _ :: v :: _ =>
                 bindR (parse (strip v)) (fun ll =>
                 match rest with
                 | [] => Err IndexError
                 | l1 :: rest1 =>
                     let body := if blank_line l1 then rest1 else skipn 1 rest1 in
                     bindR (read_lines want_fixed 0 false false body) (fun r => Ok (mkbest F weight ll (fst r) (snd r)))
                 end)
             | _ => Err IndexError
             end
    end.
  (** types.py:503-552 *)
  Definition load_best (lines : list str) (want_fixed : bool) : res (bestfit F) :=
    match lines with
    | [] => Err IndexError
    | l0 :: rest =>
        match split_ch "="%char (strip l0) with
        | n :: more =>
            if str_eqb (strip n) (L "weight")
            then match more with
                 | v :: _ => bindR (parse (strip v)) (fun w => read_head (Some w) rest want_fixed)
                 | [] => Err IndexError
                 end
            else read_head None lines want_fixed
        | [] => Err IndexError
        end
    end.
End Read.

(** ** renameParam.py *)

(** old name -> new name and, if given, label *)
Definition mapper := dict (str * option str).
(** renameParam.py:27-32, a line of the map file that is not blank *)
Definition map_line (m : mapper) (line : str) : res mapper :=
  match map strip (split_ws_n 2 line) with
  | [old; new; label] => Ok (dset old (new, Some label) m)
  | _ => Err ValueError
  end.
Fixpoint map_lines (m : mapper) (lines : list str) : res mapper :=
  match lines with
  | [] => Ok m
  | l :: rest => if blank_line l then map_lines m rest else bindR (map_line m l) (fun m => map_lines m rest)
  end.
(** renameParam.py:33-35: zip of the even and the odd entries *)
Fixpoint old_new (m : mapper) (l : list str) : mapper :=
  match l with
  | old :: new :: rest => old_new (dset old (new, None) m) rest
  | _ => m
  end.
(** renameParam.py:18-35: without the option the lists are [] *)
Definition build_mapper (file pairs : list str) : res mapper :=
  if List.length pairs =? 1 then Err (OtherError (L "Must have at least one pair")) else
  bindR (map_lines [] file) (fun m => Ok (old_new m pairs)).

(** labels.parWithName(name) *)
Definition label_of (labels : option (list pinfo)) (name : str) : option str :=
  match labels with
  | None => None
  | Some l => match parWithName l name false [] with Ok (Some p) => Some (plabel p) | _ => None end
  end.
(** renameParam.py:40-54: the parameters, and has *)
Definition rename_par (m : mapper) (labels : option (list pinfo)) (p : pinfo) : pinfo * bool :=
  let '(p1, has) := match dget (pname p) m with
                    | Some (n, lab) => (mkP n (match lab with Some l => l | None => plabel p end) (pcomment p) (pderived p) (prenames p), true)
                    | None => (p, false)
                    end in
  match label_of labels (pname p1) with
  | Some l => (mkP (pname p1) l (pcomment p1) (pderived p1) (prenames p1), true)
  | None => (p1, has)
  end.
Definition rename_names (m : mapper) (labels : option (list pinfo)) (names : list pinfo) : list pinfo * bool :=
  (map (fun p => fst (rename_par m labels p)) names, existsb (fun p => snd (rename_par m labels p)) names).
(** renameParam.py:39-57: the new text of the .paramnames file *)
Definition rename_paramnames (m : mapper) (labels : option (list pinfo)) (confirm : bool) (text : str) : res str :=
  bindR (load_paramnames text) (fun names =>
  let '(names1, has) := rename_names m labels names in
  Ok (if has && confirm then plist_text names1 else text)).

(** re.split('(\S+)', s, maxsplit=k): blanks and words in turn; after k words the rest as it is *)
Fixpoint lead_blanks (s : str) : str :=
  match s with c :: s' => if is_space c then c :: lead_blanks s' else [] | [] => [] end.
Fixpoint re_split (k : nat) (s : str) : list str :=
  match k with
  | 0 => [s]
  | S k' => match lstrip s with
            | [] => [s]
            | s1 => lead_blanks s :: fst (take_word s1) :: re_split k' (snd (take_word s1))
            end
  end.
(** renameParam.py:63-86, one line from the fourth on: [None] is the break *)
Definition rename_line (m : mapper) (labels : option (list pinfo)) (line0 : str) : res (option (str * bool)) :=
  let line := rstrip line0 in
  match re_split 4 line with
  | b0 :: t1 :: tl =>
      if str_eqb t1 (L "-log(Like)") then Ok None else
      match tl with
      | b1 :: t2 :: b2 :: t3 :: b3 :: rest =>
          let name := strip t3 in
          let '(t3', b3', lab, has) :=
            match dget name m with
            | Some (newname, lab) => (newname, repeat " "%char (List.length b3 + List.length name - List.length newname), lab, negb (str_eqb newname name))
            | None => (t3, b3, None, false)
            end in
          let lab := match label_of labels name with Some l => Some l | None => lab end in
          match lab with
          | None => Ok (Some (concat (b0 :: t1 :: b1 :: t2 :: b2 :: t3' :: b3' :: rest), has))
          | Some l => match rest with
                      | [] => Err IndexError
                      | _ => Ok (Some (concat [b0; t1; b1; t2; b2; t3'; b3'; l], has || negb (str_eqb (concat rest) l)))
                      end
          end
      | _ => Ok (Some (line0, false))
      end
  | _ => Ok (Some (line0, false))
  end.
Fixpoint rename_body (m : mapper) (labels : option (list pinfo)) (lines : list str) : res (list str * bool) :=
  match lines with
  | [] => Ok ([], false)
  | l :: rest => bindR (rename_line m labels l) (fun r =>
                 match r with
                 | None => Ok (lines, false)
                 | Some (l', has) => bindR (rename_body m labels rest) (fun q => Ok (l' :: fst q, has || snd q))
                 end)
  end.
(** renameParam.py:60-87: the lines that the program makes, and has *)
Definition rename_lines (m : mapper) (labels : option (list pinfo)) (lines : list str) : res (list str * bool) :=
  bindR (rename_body m labels (skipn 3 lines)) (fun q => Ok (firstn 3 lines ++ fst q, snd q)).
(** renameParam.py:58-90: what the .minimum file has afterwards; open(bestfit) is not writable *)
Definition rename_minimum (m : mapper) (labels : option (list pinfo)) (confirm : bool) (lines : list str) : res (list str) :=
  bindR (rename_lines m labels lines) (fun q => if snd q && confirm then Err IOError else Ok lines).

(** ** copyGridFiles.py:62-91 doCopy, without --dryrun: what the copy of a file contains; [rows] are its lines *)
(** l[z:] *)
Definition slice_from {A} (z : Z) (l : list A) : list A :=
  if (z <? 0)%Z then skipn (List.length l - Z.to_nat (- z)) l else skipn (Z.to_nat z) l.
Definition copied (frac : Q) (hasBurn : bool) (rows : list str) : list str :=
  if negb (Qeq_bool frac 0) && hasBurn then
    match slice_from (trunc (inject_Z (Z.of_nat (List.length rows)) * frac)%Q) rows with
    | [] => rows
    | kept => kept
    end
  else rows.
