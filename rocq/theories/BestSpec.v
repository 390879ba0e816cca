(** Vocabulary for statements about best-fit files, renaming and copies of chains. *)
From Verif Require Import PyBase PyNum PyStrFacts BoundsSpec ParamModel MargeModel MargeSpec BestModel.
From Coq Require Import String Ascii Bool List.
Import ListNotations.
Local Open Scope nat_scope.
Local Open Scope list_scope.

(** ** Files *)

(** a label that one line can end with *)
Definition label_ok (s : str) : Prop := s <> [] /\ stripped s = true.
Section Files.
  Context {F : Type} (ld fmtE f3 : F -> str) (twice : F -> F) (parse : str -> res F) (parse_int : str -> res nat) (rd : F -> F).
  (** numbers in the first lines *)
  Definition ld_ok (x : F) : Prop := parse (strip (ld x)) = Ok (rd x) /\ ~ In "="%char (ld x).
  (** a parameter with a name of less than 22 characters, a label and numbers that fit *)
  Record fpar_ok (p : fpar F) : Prop := mkfpok {
    fo_num : List.length (show_nat (f_num p)) <= 5 /\ parse_int (show_nat (f_num p)) = Ok (f_num p);
    fo_val : printable fmtE parse rd (f_val p);
    fo_name : word (f_name p) /\ List.length (f_name p) < 22;
    fo_label : label_ok (f_label p) }.
  (** a likelihood with names that can be told apart *)
  Record flike_ok (k : flike F) : Prop := mkflok {
    ko_val : word (f3 (k_val k)) /\ List.length (f3 (k_val k)) <= 11;
    ko_chi : word (f3 (twice (k_val k))) /\ List.length (f3 (twice (k_val k))) <= 10 /\ parse (f3 (twice (k_val k))) = Ok (rd (twice (k_val k)));
    ko_type : stripped (k_type k) = true /\ ~ In ":"%char (k_type k);
    ko_name : label_ok (k_name k) /\ ~ In "="%char (k_name k);
    ko_tag : forall t, k_tag k = Some t -> label_ok t /\ ~ In "="%char t;
    ko_version : stripped (k_version k) = true /\ ~ In "="%char (k_version k) }.
  (** what should be read *)
  Definition entry (fixed derived : bool) (p : fpar F) : bfpar F := mkbf F (f_num p) (rd (f_val p)) (f_name p) (f_label p) fixed derived.
  Definition like_entry (k : flike F) : chi2 F :=
    mkchi F (k_type k) (match k_tag k with Some t => if str_eqb t (k_name k) then None else Some t | None => None end)
      (k_name k ++ (match k_version k with [] => [] | v => L " " ++ v end)) (rd (twice (k_val k))).
End Files.

(** ** Renaming *)

Definition renamed (m : mapper) (n : str) : str := match dget n m with Some (n', _) => n' | None => n end.
Definition relabelled (m : mapper) (n label : str) : str := match dget n m with Some (_, Some l) => l | _ => label end.
Definition inverse (m : mapper) : mapper := map (fun e => (fst (snd e), (fst e, None))) m.
(** different old names have different new names, and no name that is kept is a new name *)
Definition one_to_one (m : mapper) : Prop := NoDup (map (fun e => fst (snd e)) m).
Definition no_clash (m : mapper) (names : list str) : Prop := forall n, In n names -> ~ In n (dkeys m) -> ~ In n (map (fun e => fst (snd e)) m).

(** a line of a parameter: four fields, with at least one blank between them *)
Definition blanks (s : str) : Prop := forallb is_space s = true.
Definition gap (s : str) : Prop := s <> [] /\ blanks s.
(** A line of a map file: old name, new name and label with blanks between them. *)
Definition map_row (line o n lab : str) : Prop :=
  exists b0 b1 b2 b3, line = b0 ++ o ++ b1 ++ n ++ b2 ++ lab ++ b3 /\
    blanks b0 /\ word o /\ gap b1 /\ word n /\ gap b2 /\ label_ok lab /\ blanks b3.
Inductive map_file : list str -> list (str * (str * str)) -> Prop :=
| mf_nil : map_file [] []
| mf_blank b lines rows : blanks b -> map_file lines rows -> map_file (b :: lines) rows
| mf_row line lines o n lab rows : map_row line o n lab -> map_file lines rows -> map_file (line :: lines) ((o, (n, lab)) :: rows).
Definition is_row (line b0 num b1 val b2 name b3 label : str) : Prop :=
  line = b0 ++ num ++ b1 ++ val ++ b2 ++ name ++ b3 ++ label /\
  blanks b0 /\ word num /\ gap b1 /\ word val /\ gap b2 /\ word name /\ gap b3 /\ label_ok label.
(** there is room for the new name and a blank *)
Definition row_fits (m : mapper) (line : str) : Prop :=
  exists b0 num b1 val b2 name b3 label, is_row line b0 num b1 val b2 name b3 label /\ num <> L "-log(Like)" /\
    forall n lab, dget name m = Some (n, lab) ->
      word n /\ List.length n < List.length name + List.length b3 /\ (forall l, lab = Some l -> label_ok l).
Definition rename_bf {F} (m : mapper) (p : bfpar F) : bfpar F :=
  mkbf F (b_num p) (b_val p) (renamed m (b_name p)) (relabelled m (b_name p) (b_label p)) (b_fixed p) (b_derived p).
Definition rename_best {F} (m : mapper) (b : bestfit F) : bestfit F :=
  mkbest F (bf_weight b) (bf_logLike b) (map (rename_bf m) (bf_names b)) (bf_chi2 b).
