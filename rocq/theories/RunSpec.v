(** Vocabulary for job selection and batch submission. *)
From Verif Require Import PyStr PyStrFacts PyBase PyNum RunModel.
From Coq Require Import QArith.
Local Open Scope nat_scope.

(** [gs] is [l] cut into consecutive non-empty groups of [k], only the last of which may be shorter *)
Definition groups_of {A} (k : nat) (l : list A) (gs : list (list A)) : Prop :=
  concat gs = l /\
  forall pre g post, gs = pre ++ g :: post -> g <> [] /\ length g <= k /\ (post <> [] -> length g = k).

(** the meaning of one filter option for a job *)
Definition given (o : option (list str)) (P : list str -> Prop) : Prop := forall l, o = Some l -> P l.
Definition shares (l names : list str) : Prop := exists x, In x l /\ In x names.
Record satisfies (fnmatch : str -> str -> bool) (o : opts) (j : item) : Prop := mkSat {
  sat_noimportance : o_noimportance o = true -> t_imp j = false;
  (* --importance keeps importance jobs only; with data names, those using one of them *)
  sat_importance : given (o_importance o) (fun l => t_imp j = true /\ (l <> [] -> shares l (t_impnames j)));
  sat_importancetag : given (o_importancetag o) (fun l => t_imp j = true -> l <> [] -> In (t_imptag j) l);
  sat_name : given (o_name o) (fun l => exists p, In p l /\ fnmatch (t_name j) p = true);
  sat_param : given (o_param o) (fun l => shares l (t_params j));
  sat_paramtag : given (o_paramtag o) (In (t_paramtag j));
  sat_data : given (o_data o) (fun l => shares l (t_datanames j));
  sat_datatag : given (o_datatag o) (In (t_datatag j));
  sat_musthave : given (o_musthave o) (fun l => incl l (t_datanames j));
  sat_skip_data : given (o_skip_data o) (fun l => ~ shares l (t_datanames j));
  sat_skip_param : given (o_skip_param o) (fun l => ~ shares l (t_params j));
  sat_group : given (o_group o) (fun l => exists g, t_group j = Some g /\ In g l);
  sat_skip_group : given (o_skip_group o) (fun l => forall g, t_group j = Some g -> ~ In g l) }.
(** no two options about the same thing of which the code looks at one only *)
Definition compatible (o : opts) : Prop :=
  (o_datatag o = None \/ (o_data o = None /\ o_skip_data o = None)) /\
  (o_paramtag o = None \/ (o_param o = None /\ o_skip_param o = None)).

(** a main job is not an importance job, the jobs derived from it are *)
Fixpoint well_marked (b : batch) : Prop :=
  let (_, jobs, subs) := b in
  Forall (fun j => t_imp (fst j) = false /\ Forall (fun i => t_imp i = true) (snd j)) jobs /\
  fold_right (fun b p => well_marked b /\ p) True subs.

(** when a job is to be submitted (options of runbatch.py as documented in its help texts) *)
Record to_submit (r : ropts) (j : item) (a : answers) : Prop := mkTo {
  to_notexist : r_notexist r = true -> if isMinimize r then a_minExists a = false else a_exists a = false;
  to_failed : r_minimize_failed r = true -> a_minConverged a = false;
  to_notall : isMinimize r = false -> forall n, r_notall r = Some n -> a_allExist a n = false;
  to_wantmin : isMinimize r = true -> a_wantMinimize a = true;
  to_parentR : ~ (r_parent_converge r == 0)%Q -> t_imp j = true -> p_better a (r_parent_converge r) = true;
  to_R : ~ (r_converge r == 0)%Q -> a_better a (r_converge r) true = false;
  to_checkpoint : forall q, r_checkpoint_run r = Some q -> a_checkpoint a q = true /\ a_notRunning a = true;
  to_parent : t_imp j = true -> isMinimize r = false ->
    (if r_importance_ready r then p_finished a = true else p_exists a = true) /\
    (r_importance_changed r = true -> a_parentChanged a = true) /\
    (r_parent_stopped r = true -> p_notRunning a = true);
  to_exists : r_chain_exists r = true -> a_exists a = true;
  to_nofilter : t_imp j = true -> a_filter a = false }.
