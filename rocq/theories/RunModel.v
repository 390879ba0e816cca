(** Model of the job filters of python/paramgrid/batchjob_args.py and of python/runbatch.py. *)
From Verif Require Import PyStr PyStrFacts PyBase PyNum.
From Coq Require Import QArith.
Local Open Scope nat_scope.

(** ** Jobs as seen by the filters (batchjob.py 215-282) *)
Record item := mkIt {
  t_id : nat;              (* identity of the object *)
  t_name : str; t_params : list str; t_paramtag : str; t_datanames : list str; t_datatag : str;
  t_group : option str;    (* None if not set *)
  t_imp : bool; t_imptag : str; t_impnames : list str }.  (* the last two exist for importance jobs only *)

(** batchJob with its sub-batches; each job with its importanceJobsRecursive list *)
Inductive batch := Bat (skip : list str) (jobs : list (item * list item)) (subs : list batch).
(** batchJob.items, batchjob.py 499-508 *)
Fixpoint items (wantSub wantImp : bool) (b : batch) : list item :=
  let (skip, jobs, subs) := b in
  flat_map (fun j => fst j :: if wantImp then filter (fun i => negb (mem_str (t_name i) skip)) (snd j) else []) jobs
  ++ if wantSub then flat_map (items wantSub wantImp) subs else [].

(** ** Command line filters, batchjob_args.py 34-59 *)
Record opts := mkO {
  o_noimportance : bool; o_importance : option (list str); o_importancetag : option (list str);
  o_name : option (list str); o_param : option (list str); o_paramtag : option (list str);
  o_data : option (list str); o_datatag : option (list str); o_musthave : option (list str);
  o_skip_data : option (list str); o_skip_param : option (list str);
  o_group : option (list str); o_skip_group : option (list str) }.

Definition none_or_empty (o : option (list str)) : bool := match o with None | Some [] => true | _ => false end.
Definition listof (o : option (list str)) : list str := match o with Some l => l | None => [] end.
Definition any_in (l names : list str) : bool := existsb (fun x => mem_str x names) l.

(** 97-101 *)
Definition wantImportance (o : opts) (j : item) : bool :=
  (none_or_empty (o_importancetag o) || mem_str (t_imptag j) (listof (o_importancetag o))) &&
  (none_or_empty (o_importance o) || any_in (listof (o_importance o)) (t_impnames j)).
(** 103-105 *)
Definition jobItemWanted (o : opts) (j : item) : bool :=
  (negb (t_imp j) && match o_importance o with None => true | Some _ => false end) || (t_imp j && wantImportance o j).
(** 107-111; [fnmatch name pattern] is python's fnmatch.fnmatch *)
Definition nameMatches (fnmatch : str -> str -> bool) (o : opts) (j : item) : bool :=
  match o_name o with None => true | Some pats => existsb (fnmatch (t_name j)) pats end.
(** 113-115; `None in [texts]` is False *)
Definition group_in (g : option str) (l : list str) : bool := match g with Some s => mem_str s l | None => false end.
Definition groupMatches (o : opts) (j : item) : bool :=
  (match o_group o with None => true | Some l => group_in (t_group j) l end) &&
  (match o_skip_group o with None => true | Some l => negb (group_in (t_group j) l) end).
(** 117-123 with hasAll, hasName of batchjob.py 140-150 *)
Definition dataMatches (o : opts) (j : item) : bool :=
  if match o_musthave o with Some l => negb (forallb (fun x => mem_str x (t_datanames j)) l) | None => false end then false
  else match o_datatag o with
       | None =>
           if match o_skip_data o with Some l => any_in l (t_datanames j) | None => false end then false
           else match o_data o with None => true | Some l => any_in l (t_datanames j) end
       | Some tags => mem_str (t_datatag j) tags
       end.
(** 125-134 with hasParam of batchjob.py 299-303 *)
Definition no_skipped_param (o : opts) (j : item) : bool :=
  none_or_empty (o_skip_param o) || negb (any_in (listof (o_skip_param o)) (t_params j)).
Definition paramsMatch (o : opts) (j : item) : bool :=
  match o_paramtag o with
  | None =>
      match o_param o with
      | None => no_skipped_param o j
      | Some pats => if any_in pats (t_params j) then no_skipped_param o j else false
      end
  | Some tags => mem_str (t_paramtag j) tags
  end.
(** 136-141; [exists_] is the job's chainExists() *)
Definition filteredBatchItems (fnmatch : str -> str -> bool) (o : opts) (exists_ : item -> bool) (b : batch)
    (wantSubItems chainExist : bool) : list item :=
  filter (fun j => (negb chainExist || exists_ j) &&
                   (jobItemWanted o j && nameMatches fnmatch o j && paramsMatch o j && dataMatches o j && groupMatches o j))
         (items wantSubItems (negb (o_noimportance o)) b).

(** ** runbatch.py *)
Record ropts := mkR {
  r_minimize : bool; r_importance_minimize : bool; r_filters : bool; r_importance_ready : bool; r_importance_changed : bool;
  r_not_queued : bool; r_notexist : bool; r_minimize_failed : bool; r_notall : option nat;
  r_parent_converge : Q; r_converge : Q; r_checkpoint_run : option Q; r_parent_stopped : bool; r_chain_exists : bool;
  r_subitems : bool; r_combine : option str; r_runsPerJob : Z }.

(** 44-60: how the filter options are changed *)
Definition adjust (r : ropts) (o : opts) : opts :=
  let imp1 := if r_importance_minimize r then (match o_importance o with None => Some [] | x => x end) else o_importance o in
  let no1 := o_noimportance o || r_minimize r in
  let '(no2, imp2) :=
    match imp1 with
    | Some _ => (no1, imp1)
    | None => if r_importance_changed r || r_importance_ready r then (no1, Some [])
              else if r_filters r then (no1, Some []) else (true, None)
    end in
  mkO no2 imp2 (o_importancetag o) (o_name o) (o_param o) (o_paramtag o) (o_data o) (o_datatag o) (o_musthave o)
      (o_skip_data o) (o_skip_param o) (o_group o) (o_skip_group o).
Definition variant (r : ropts) : str := if r_minimize r || r_importance_minimize r then L "_minimize" else [].
Definition isMinimize (r : ropts) : bool := r_importance_minimize r || r_minimize r.

(** What the tests of a job answer (batchjob.py 333-429, see BatchModel.v); tests that raise an
    exception are not modelled. *)
Record answers := mkA {
  a_minExists : bool; a_exists : bool; a_minConverged : bool; a_allExist : nat -> bool; a_wantMinimize : bool;
  a_better : Q -> bool -> bool; a_checkpoint : Q -> bool; a_notRunning : bool; a_parentChanged : bool;
  p_better : Q -> bool; p_finished : bool; p_exists : bool; p_notRunning : bool;
  a_filter : bool (* has an importanceFilter *) }.

(** 96-100 *)
Definition cond_exist (r : ropts) (a : answers) : bool :=
  (negb (r_notexist r) || isMinimize r && negb (a_minExists a) || negb (isMinimize r) && negb (a_exists a)) &&
  (negb (r_minimize_failed r) || negb (a_minConverged a)) &&
  (isMinimize r || (match r_notall r with None => true | Some n => negb (a_allExist a n) end)) &&
  (negb (isMinimize r) || a_wantMinimize a).
(** 101-111 *)
Definition cond_state (r : ropts) (imp : bool) (a : answers) : bool :=
  (Qeq_bool (r_parent_converge r) 0 || negb imp || p_better a (r_parent_converge r)) &&
  (Qeq_bool (r_converge r) 0 || negb (a_better a (r_converge r) true)) &&
  (match r_checkpoint_run r with None => true | Some q => a_checkpoint a q && a_notRunning a end) &&
  ((negb imp || isMinimize r
    || (r_importance_ready r && p_finished a || negb (r_importance_ready r) && (r_filters r || p_exists a))
       && (negb (r_importance_changed r) || a_parentChanged a)
       && (negb (r_parent_stopped r) || p_notRunning a))
   && (negb (r_chain_exists r) || a_exists a)).
(** 39-41; [queued] is the list of names in the queue *)
Definition notQueued (r : ropts) (queued : list str) (name : str) : bool :=
  negb (mem_str (if r_minimize r then name ++ L "_minimize" else name) queued).
(** 112-121: what is done with a job: filtered in python, submitted, or nothing *)
Definition submits (r : ropts) (queued : list str) (j : item) (a : answers) : bool :=
  cond_exist r a && cond_state r (t_imp j) a &&
  negb (t_imp j && a_filter a) && negb (r_filters r) && (negb (r_not_queued r) || notQueued r queued (t_name j)).
Definition runs_filter (r : ropts) (j : item) (a : answers) : bool :=
  cond_exist r a && cond_state r (t_imp j) a && (t_imp j && a_filter a) && r_filters r && p_exists a.

(** iniFile(variant), batchjob.py 238-242 *)
Definition iniFile (path : str) (r : ropts) (j : item) : str :=
  path ++ (if t_imp j then L "postIniFiles" else L "iniFiles") ++ L "/" ++ t_name j ++ variant r ++ L ".ini".

(** os.path.basename *)
Definition basename (s : str) : str := last (split_ch "/"%char s) [].
Definition dot_ini : str := L ".ini".

(** a call of jobqueue.submitJob: job name, ini files, sequential *)
Record call := mkCall { c_name : str; c_files : list str; c_seq : bool }.
Definition takeS (n : nat) (s : str) : str := firstn n s.
(** 72-77; [md5] is hashlib.md5(text).hexdigest(), which raises TypeError for a python 3 text *)
Definition jobName (md5 : str -> res str) (files : list str) : res str :=
  let s := join (L "-") (map basename files) in
  if (length files <? 2) || (length s <? 70) then Ok s
  else match files with
       | [] => Ok s
       | f :: _ => bindR (md5 s) (fun h => Ok (takeS 70 (basename f) ++ L "__" ++ takeS 16 h))
       end.
Definition combining (r : ropts) : bool := match r_combine r with Some (_ :: _) => true | _ => false end.
(** 80-92: pending ini files, calls made so far, exception raised *)
Record rstate := mkSt { s_pending : list str; s_calls : list call; s_exn : option exn }.
Definition submitJob (md5 : str -> res str) (r : ropts) (st : rstate) (ini : str) : rstate :=
  match s_exn st with
  | Some _ => st
  | None =>
      let pend := s_pending st ++ [replace_str dot_ini [] ini] in
      if combining r then mkSt pend (s_calls st) None
      else if (r_runsPerJob r <=? Z.of_nat (length pend))%Z then
        match jobName md5 pend with
        | Ok n => mkSt [] (s_calls st ++ [mkCall n pend false]) None
        | Err e => mkSt pend (s_calls st) (Some e)
        end
      else mkSt pend (s_calls st) None
  end.
(** 95-126; given the ini files of the selected jobs *)
Definition submit_all (md5 : str -> res str) (r : ropts) (inis : list str) : list call * option exn :=
  let st := fold_left (submitJob md5 r) inis (mkSt [] [] None) in
  match s_exn st with
  | Some e => (s_calls st, Some e)
  | None =>
      match s_pending st with
      | [] => (s_calls st, None)
      | pend =>
          let sq := match r_combine r with Some _ => true | None => false end in
          (* line 124 prints jobName() when runsPerJob > 1, line 125 calls it unless combining *)
          let shown := if (1 <? r_runsPerJob r)%Z then jobName md5 pend else Ok [] in
          let name := match r_combine r with Some (c :: n) => Ok (c :: n) | _ => jobName md5 pend end in
          match bindR shown (fun _ => name) with
          | Ok n => (s_calls st ++ [mkCall n pend sq], None)
          | Err e => (s_calls st, Some e)
          end
      end
  end.
(** 32-126 *)
Definition runbatch md5 fnmatch (r : ropts) (o : opts) (queued : list str) (ans : item -> answers) (path : str) (b : batch)
    : list call * option exn :=
  submit_all md5 r
    (map (iniFile path r)
         (filter (fun j => submits r queued j (ans j))
                 (filteredBatchItems fnmatch (adjust r o) (fun j => a_exists (ans j)) b (r_subitems r) false))).
