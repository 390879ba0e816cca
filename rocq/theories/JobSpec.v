(** Vocabulary for the job queue properties. *)
From Verif Require Import PyStr PyStrFacts PyBase JobModel.
From Coq Require Import ZArith.
Local Open Scope nat_scope.

(** histories of submissions and deletions, and the jobs that are left after one *)
Inductive op := Add (j : job) | Del (id : str).
Definition live_step (live : list job) (o : op) : list job :=
  match o with
  | Add j => live ++ [j]
  | Del id => filter (fun j => negb (str_eqb (jid j) id)) live
  end.
Definition live_after (ops : list op) : list job := fold_left live_step ops [].
(** the same history on the index *)
Definition run (ops : list op) : res index :=
  fold_left (fun r o => bindR r (fun x => match o with Add j => Ok (addJob x j) | Del id => delId x id end))
            ops (Ok empty_index).

(** a job whose id, name and roots are not in use *)
Definition fresh (live : list job) (j : job) : Prop :=
  ~ In (jid j) (map jid live) /\ ~ In (jname j) (map jname live) /\ NoDup (jnames j) /\
  (forall r, In r (jnames j) -> ~ In r (flat_map jnames live)).
Definition all_fresh (ops : list op) : Prop :=
  forall pre j post, ops = pre ++ Add j :: post -> fresh (live_after pre) j.

(** the three views list exactly the jobs of [live] *)
Definition agrees (x : index) (live : list job) : Prop :=
  (forall id j, dget id (settings x) = Some j <-> In j live /\ jid j = id) /\
  (forall n id, dget n (byName x) = Some id <-> exists j, In j live /\ jname j = n /\ jid j = id) /\
  (forall r id, dget r (byRoot x) = Some id <-> exists j, In j live /\ In r (jnames j) /\ jid j = id) /\
  jobSeq x = map jid live.

(** the jobs a selection asks for *)
Definition chosen (toint : str -> option Z) (sl : selection) (j : job) : Prop :=
  In (IdStr (jid j)) (s_ids sl) \/
  (exists rs r, s_roots sl = Some rs /\ In r rs /\ In r (jnames j)) \/
  (exists ns, s_names sl = Some ns /\ In (jname j) ns) \/
  (exists z, id_number toint (jid j) = Ok z /\
     ((exists a b, s_minmax sl = Some (a, b) /\ (a <= z <= b)%Z) \/ (exists m, s_min sl = Some m /\ (m <= z)%Z))).
