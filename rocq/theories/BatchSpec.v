(** Vocabulary for the grid properties. *)
From Verif Require Import PyStr PyStrFacts PyBase PyNum BatchModel.
From Coq Require Import QArith.
Local Open Scope nat_scope.

(** names that can be recovered from tags: no underscore, not starting with "post" *)
Definition plain (n : str) : Prop := ~ In "_"%char n.
Definition tag_name (n : str) : Prop := plain n /\ startswith (L "post") n = false.
(** a data tag as it is written: names separated by "_" or by "_post_" *)
Definition tag_text (n0 : str) (rest : list (bool * str)) : str :=
  n0 ++ concat (map (fun pn : bool * str => (if fst pn then L "_post_" else L "_") ++ snd pn) rest).

(** names after substitutions: unlisted names stay, names mapped to nothing (None or the empty text) are dropped *)
Inductive substituted (m : dict (option str)) : list str -> list str -> Prop :=
| su_nil : substituted m [] []
| su_stay n l l' : dget n m = None -> substituted m l l' -> substituted m (n :: l) (n :: l')
| su_drop n l l' : dget n m = Some None \/ dget n m = Some (Some []) -> substituted m l l' -> substituted m (n :: l) l'
| su_repl n v l l' : dget n m = Some (Some v) -> v <> [] -> substituted m l l' -> substituted m (n :: l) (v :: l').

Inductive subseq {A} : list A -> list A -> Prop :=
| sub_nil : subseq [] []
| sub_keep x l l' : subseq l l' -> subseq (x :: l) (x :: l')
| sub_drop x l l' : subseq l l' -> subseq l (x :: l').

(** all importance jobs of a grid, and their identities and names *)
Definition imps (js : list job) : list job := flat_map importanceJobsRecursive js.
Definition idents (js : list job) : list (nat * jinfo) := map (fun j => (uid j, info j)) js.
(** [z] is [x] or an importance job that [x] was derived from *)
Definition from_or_is (z x : job) : Prop := z = x \/ In x (importanceJobsRecursive z).

(** jobs requested by the settings: trees of job descriptions *)
Inductive itree := T (i : jinfo) (ts : list itree).
Fixpoint shape (j : job) : itree := let (_, i, ks) := j in T i (map shape ks).
Definition wanted (p : jinfo) (r : imprun) : bool :=
  i_want r p && forallb (fun n => negb (mem_str n (d_names (j_data p)))) (i_names r).
Definition derived (p : jinfo) (runs : list imprun) : list jinfo :=
  map (fun r => imp_item p (i_names r)) (filter (wanted p) runs).
Definition request (filters : list imprun) (runs : list imprun) (i : jinfo) : itree :=
  T i (map (fun k => T k (map (fun g => T g []) (derived k filters))) (derived i runs)
       ++ map (fun k => T k []) (derived i filters)).
Definition requested (skip : list str) (s : settings) : list itree :=
  flat_map (fun g => map (request (s_filters s) (g_runs g ++ s_runs s))
                         (filter (fun i => negb (mem_str (j_name i) skip)) (group_items g))) (s_groups s)
  ++ map (request (s_filters s) (s_runs s)) (s_items s).
