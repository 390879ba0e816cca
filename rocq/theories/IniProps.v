(** Properties C01-C06 (ini files). *)
From Verif Require Import PyStr PyStrFacts IniModel IniSpec IniProofs IniLayoutProofs.
From Coq Require Import Permutation.

(** C01: what saveFile writes, a later load reads back: same keys (each once), same texts,
    same INCLUDE and DEFAULT lists. *)
Theorem C01_ini_round_trip : forall expand i f fs env fuel keep,
  NoDup (dkeys (params i)) -> representable expand (params i) ->
  Forall one_line (includes i) -> Forall one_line (defaults i) ->
  fs f = Some (saveText i) -> 1 <= fuel ->
  keep = true \/ (includes i = [] /\ defaults i = []) ->
  exists st, loadIni fuel fs env f keep expand = Ok st /\
    Permutation (dkeys (params st)) (dkeys (params i)) /\
    (forall k, dget k (params st) = option_map (fun v => VStr (asIniText v)) (dget k (params i))) /\
    includes st = includes i /\ defaults st = defaults i.
Proof. exact round_trip. Qed.
Print Assumptions C01_ini_round_trip.

Theorem C01_bool_round_trip : forall expand i f fs env fuel k b d,
  NoDup (dkeys (params i)) -> representable expand (params i) ->
  Forall one_line (includes i) -> Forall one_line (defaults i) ->
  fs f = Some (saveText i) -> 1 <= fuel ->
  dget k (params i) = Some (VBool b) ->
  exists st, loadIni fuel fs env f true expand = Ok st /\ ini_bool st k d = Ok b.
Proof. exact bool_round_trip. Qed.
Print Assumptions C01_bool_round_trip.

Definition ex_ini : ini :=
  mkIni [(L "b", VStr (L "1 = 2")); (L "a a", VBool true); (L "", VObj (L "3.5"))] []
        [L "gone"; L "b"; L "b"] [L "d(1).ini"] [L "common.ini"] None true.
Example C01_hypotheses_hold :
  NoDup (dkeys (params ex_ini)) /\ representable true (params ex_ini) /\
  Forall one_line (includes ex_ini) /\ Forall one_line (defaults ex_ini).
Proof.
  split; [|split; [|split]].
  - repeat constructor; vm_compute; intuition discriminate.
  - intros k v H. vm_compute in H.
    repeat (destruct H as [H|H]; [injection H as <- <-;
      repeat split; try (vm_compute; reflexivity); vm_compute; intuition discriminate|]). destruct H.
  - repeat constructor; vm_compute; intuition discriminate.
  - repeat constructor; vm_compute; intuition discriminate.
Qed.
Example C01_written_lines :
  fileLines ex_ini = [L "INCLUDE(common.ini)"; L "DEFAULT(d(1).ini)"; L "b=1 = 2"; L "=3.5"; L "a a=T"].
Proof. vm_compute. reflexivity. Qed.

(** C02: the value of each key is that of its first definition in document order; keys are
    recorded in the order of first definition; nothing else is stored. *)
Theorem C02_first_definition_wins : forall fuel fs env f expand st,
  loadIni fuel fs env f false expand = Ok st ->
  (exists es, visits fs false f es) /\
  forall es, visits fs false f es ->
    (forall k, match first_def k es with
               | None => dget k (params st) = None
               | Some raw => exists v, dget k (params st) = Some (VStr v) /\ stored env expand raw v
               end) /\
    readOrder st = dkeys (params st).
Proof. exact precedence. Qed.
Print Assumptions C02_first_definition_wins.

(** where a relative or absolute INCLUDE/DEFAULT name is looked up: next to the including file *)
Theorem C02_include_location : forall f g,
  (forall t, g = slash :: t -> resolve f g = g) /\
  (~ In slash f -> resolve f g = g) /\
  (forall d c base, f = d ++ c :: slash :: base -> c <> slash -> ~ In slash base ->
     (forall t, g <> slash :: t) -> resolve f g = d ++ c :: slash :: g).
Proof. exact include_location. Qed.
Print Assumptions C02_include_location.

(** C03: failure with a duplicate-key error exactly when an unprotected definition repeats a key. *)
Theorem C03_duplicate_detection : forall fs env f expand es,
  visits fs false f es ->
  (forall e, In e es -> exists v, stored env expand (e_raw e) v) ->
  exists n, forall fuel, n <= fuel ->
    (unprotected_dup es -> exists k, loadIni fuel fs env f false expand = Err (EDup k)) /\
    (~ unprotected_dup es -> exists st, loadIni fuel fs env f false expand = Ok st).
Proof. exact duplicates. Qed.
Print Assumptions C03_duplicate_detection.

(** a main file with one INCLUDE and one DEFAULT in a sub-directory *)
Definition ex_fs (dup : bool) (f : str) : option str :=
  if str_eqb f (L "/r/main.ini") then Some (join [nl] [L "INCLUDE(sub/inc.ini)"; L "# c"; L " a = 1 "; L "DEFAULT(def.ini)"; L "END"; L "a=9"])
  else if str_eqb f (L "/r/sub/inc.ini") then Some (join [nl] [L "b=2"; if dup then L "a=7" else L ""])
  else if str_eqb f (L "/r/def.ini") then Some (join [nl] [L "a=3"; L "b=4"; L "c=$(HOME)/x"])
  else None.
Definition ex_env (v : str) : option str := if str_eqb v (L "HOME") then Some (L "/h") else None.
Example C02_example :
  match loadIni 5 (ex_fs false) ex_env (L "/r/main.ini") false true with
  | Ok st => params st = [(L "a", VStr (L "1")); (L "b", VStr (L "2")); (L "c", VStr (L "/h/x"))]
  | Err _ => False
  end.
Proof. vm_compute. reflexivity. Qed.
Example C03_example :
  loadIni 5 (ex_fs true) ex_env (L "/r/main.ini") false true = Err (EDup (L "a")).
Proof. vm_compute. reflexivity. Qed.

(** C04: placeholders. *)
Theorem C04_expansion_is_tokenwise : forall env toks, Forall tok_ok toks ->
  contains (L "$(") (concat (map tok_text toks)) = true ->
  expand_placeholders env (concat (map tok_text toks)) = Ok (concat (map (tok_value env) toks)).
Proof. exact expand_toks. Qed.
Print Assumptions C04_expansion_is_tokenwise.
Theorem C04_plain_text_unchanged : forall env s,
  contains (L "$(") s = false -> expand_placeholders env s = Ok s.
Proof. exact expand_plain. Qed.
Print Assumptions C04_plain_text_unchanged.
Theorem C04_always_terminates : forall env s, expand_placeholders env s <> Err ERecursion.
Proof. exact expand_no_recursion. Qed.
Print Assumptions C04_always_terminates.
Example C04_example : let toks := [TChar "a"%char; TDollar; TVar (L "HOME"); TChar "("%char; TVar (L "NOPE")] in
  Forall tok_ok toks /\ contains (L "$(") (concat (map tok_text toks)) = true /\
  expand_placeholders ex_env (L "a$$$(HOME)($(NOPE)") = Ok (L "a$/h(").
Proof. vm_compute. repeat split; repeat constructor; intuition discriminate. Qed.

(** C05: typed getters. *)
Theorem C05_default_used_when_unset : forall T i name (tp : value -> res T) default allowEmpty,
  (dget name (params i) = None \/ (allowEmpty = false /\ dget name (params i) = Some (VStr []))) ->
  asType i name tp default allowEmpty = match default with Some d => Ok d | None => Err (EUndef name) end.
Proof. exact @getter_default. Qed.
Print Assumptions C05_default_used_when_unset.
Theorem C05_set_value_ignores_default : forall T i name (tp : value -> res T) default allowEmpty v,
  dget name (params i) = Some v -> (allowEmpty = true \/ v <> VStr []) ->
  asType i name tp default allowEmpty = tp v.
Proof. exact @getter_set. Qed.
Print Assumptions C05_set_value_ignores_default.
Theorem C05_bool_getter : forall i name default,
  (dget name (params i) = None \/ dget name (params i) = Some (VStr []) ->
     ini_bool i name default = match default with Some d => Ok d | None => Err (EUndef name) end) /\
  (forall c s, dget name (params i) = Some (VStr (c :: s)) ->
     (ini_bool i name default = Ok true <-> c = "T"%char) /\
     (ini_bool i name default = Ok false <-> c = "F"%char) /\
     (c <> "T"%char -> c <> "F"%char -> ini_bool i name default = Err (EBool name))) /\
  (forall b, dget name (params i) = Some (VBool b) -> ini_bool i name default = Ok b).
Proof. exact bool_getter. Qed.
Print Assumptions C05_bool_getter.
(** FINDING: the list getter for booleans does not follow the T/F rule: the word F reads as True. *)
Theorem C05_bool_list_refuted : exists i name, dget name (params i) = Some (VStr (L "T F")) /\
  bool_list i name [] = Ok [true; true].
Proof. exact bool_list_refutation. Qed.
Print Assumptions C05_bool_list_refuted.

(** C06: comments of the main file's keys are the comment block directly above the definition.
    Partial: for one file read with its own lines unprotected; the full statement (including keys
    taken from DEFAULT files) is refuted below. *)
Theorem C06_comments_partial : forall fuel fs env f expand st text pre blk texts line k v post,
  loadIni fuel fs env f true expand = Ok st -> fs f = Some text ->
  before_end (text_lines text) = pre ++ blk ++ line :: post ->
  starts_block pre ->
  Forall2 (fun l t => item_of l = IComment t) blk texts ->
  item_of line = IDef k v ->
  dget k (comments st) = match texts with [] => None | _ => Some texts end.
Proof. exact comments_main. Qed.
Print Assumptions C06_comments_partial.
Example C06_example :
  match loadIni 5 (ex_fs false) ex_env (L "/r/main.ini") true true with
  | Ok st => dget (L "a") (comments st) = Some [L " c"]
  | Err _ => False
  end.
Proof. vm_compute. reflexivity. Qed.
(** FINDING: a comment above an already-defined key of a DEFAULT file is attached to the next new key. *)
Theorem C06_comments_refuted : exists fs st,
  loadIni 5 fs (fun _ => None) (L "m") false true = Ok st /\
  fs (L "d") = Some (join [nl] [L "# about a"; L "a=2"; L "b=3"]) /\
  dget (L "b") (comments st) = Some [L " about a"].
Proof. exact comments_refutation. Qed.
Print Assumptions C06_comments_refuted.

(** C54: saveFile() without a name writes back to the file that was loaded.  Partial: true when
    INCLUDE/DEFAULT lines are kept unexpanded; refuted otherwise. *)
Theorem C54_save_back_partial : forall fuel fs env f expand st,
  loadIni fuel fs env f true expand = Ok st -> saveTarget st None = Some f.
Proof. exact save_target_plain. Qed.
Print Assumptions C54_save_back_partial.
(** FINDING: after loading "m", which has a DEFAULT(d) line, saveFile() overwrites "d". *)
Theorem C54_save_back_refuted : exists fs st,
  loadIni 5 fs (fun _ => None) (L "m") false true = Ok st /\ saveTarget st None = Some (L "d").
Proof. exact save_target_refutation. Qed.
Print Assumptions C54_save_back_refuted.

Theorem C54_named_save : forall i f, f <> [] -> saveTarget i (Some f) = Some f.
Proof. intros i [|c f] H; [contradiction|reflexivity]. Qed.
Print Assumptions C54_named_save.

(** C57: layout of the saved file: INCLUDE lines, DEFAULT lines, then the keys in the order they were first
    read, then the other keys alphabetically; one line per key with its value (booleans as T or F). *)
Theorem C57_layout : forall i, NoDup (dkeys (params i)) -> exists rest ls,
  fileLines i = map (fun f => L "INCLUDE(" ++ f ++ L ")") (includes i) ++ map (fun f => L "DEFAULT(" ++ f ++ L ")") (defaults i) ++ ls /\
  sorted_str rest /\ NoDup rest /\ (forall k, In k rest <-> In k (dkeys (params i)) /\ ~ In k (readOrder i)) /\
  Forall2 (fun k l => exists v t, dget k (params i) = Some v /\ written v t /\ l = k ++ "="%char :: t)
    (filter (fun k => dhas k (params i)) (firsts [] (readOrder i)) ++ rest) ls.
Proof. exact layout. Qed.
Print Assumptions C57_layout.
(** the read order of a loaded file is the order of the first definitions *)
Theorem C57_read_order : forall fuel fs env f expand st es,
  loadIni fuel fs env f false expand = Ok st -> visits fs false f es -> readOrder st = firsts [] (map e_key es).
Proof. exact read_order_of_load. Qed.
Print Assumptions C57_read_order.
Example C57_example : NoDup (dkeys (params ex_ini)) /\
  filter (fun k => dhas k (params ex_ini)) (firsts [] (readOrder ex_ini)) = [L "b"].
Proof. split; [|reflexivity]. repeat constructor; vm_compute; intuition discriminate. Qed.
