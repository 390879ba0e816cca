(** Specification vocabulary for parameter bounds. *)
From Verif Require Import PyStr PyBase BoundsModel.

(** a call setRange(name, (lo, hi)), with numbers or None *)
Definition call V : Type := (str * option V * option V)%type.
Definition c_name {V} (c : call V) : str := fst (fst c).
Definition c_lo {V} (c : call V) : option V := snd (fst c).
Definition c_hi {V} (c : call V) : option V := snd c.

(** the last number given for [name] on one side, over a history of calls *)
Fixpoint last_given {V} (side : call V -> option V) (name : str) (h : list (call V)) : option V :=
  match h with
  | [] => None
  | c :: h' => match last_given side name h' with
               | Some v => Some v
               | None => if str_eqb (c_name c) name then side c else None
               end
  end.

(** order of first mention *)
Fixpoint first_seen (seen l : list str) : list str :=
  match l with
  | [] => []
  | x :: l' => if mem_str x seen then first_seen seen l' else x :: first_seen (seen ++ [x]) l'
  end.

Definition word (s : str) : Prop := s <> [] /\ forallb (fun c => negb (is_space c)) s = true.

(** text consisting of spaces then one word *)
Definition one_word (s w : str) : Prop := exists k, s = repeat " "%char k ++ w /\ word w.

(** running a history of calls; calls whose numbers are real limits (not the infinity meaning none) *)
Section Calls.
  Context {V : Type} (veq : V -> V -> bool) (ninf pinf : V) (parse : str -> option V).
  Definition arg_of (o : option V) : barg V := match o with Some v => BVal v | None => BNone end.
  Definition run (h : list (call V)) (b : bounds V) : res (bounds V) :=
    fold_left (fun acc c => bindR acc (fun b => setRange veq ninf pinf parse b (c_name c) (arg_of (c_lo c)) (arg_of (c_hi c)))) h (Ok b).
  Definition finite_call (c : call V) : Prop :=
    (forall v, c_lo c = Some v -> veq v ninf = false) /\ (forall v, c_hi c = Some v -> veq v pinf = false).
End Calls.
