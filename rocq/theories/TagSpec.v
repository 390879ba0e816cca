(** Keys with tags, and likelihoods that exclude each other *)
From Coq Require Import Ascii List.
From Verif Require Import PyStr.
Import ListNotations.

(** text up to blanks at its end *)
Definition same (a b : str) : Prop := exists t m n, a = t ++ repeat " "%char m /\ b = t ++ repeat " "%char n.
Definition empty (a : str) : Prop := same a [].
(** a name without brackets and commas, and without blanks at the end *)
Definition plain (s : str) : Prop := ~ In "]"%char s /\ ~ In ","%char s.
Definition tight (s : str) : Prop := forall t, s <> t ++ [" "%char].
(** name[tag] and name[tag,setting] *)
Definition tagged (name tag : str) : str := name ++ ["["%char] ++ tag ++ ["]"%char].
Definition tagged2 (name tag setting : str) : str := name ++ ["["%char] ++ tag ++ [","%char] ++ setting ++ ["]"%char].
(** names of directories are filled in for the name of a file *)
Definition filled (ReplaceDirs : str -> str) (filename : bool) (raw v : str) : Prop :=
  (filename = true /\ ~ empty raw /\ v = ReplaceDirs raw) \/ ((filename = false \/ empty raw) /\ v = raw).
