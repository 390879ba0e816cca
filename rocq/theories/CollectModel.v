(** Collection of samples: source/SampleCollector.f90 (checkpoints, burn-in, convergence of chains), with the parts of
    source/ObjectLists.f90 (SaveBinary, ReadBinary), source/MCMC.f90 and source/propose.f90 that save and load their state, and
    the decision about new chains in source/driver.F90 and source/GeneralSetup.f90.
    Binary files are lists of the items written, with their types (the stream classes are not part of the repository); reading
    beyond the end or an item of another type is an error.  Numbers in files are of any type F; in the convergence part they are
    real numbers.  Messages and logs are not modelled. *)
From Verif Require Import PyBase StatModel StatSpec SortModel.
From Coq Require Import Reals List Bool ZArith Arith Lia.
Import ListNotations.
Local Open Scope list_scope.
Local Open Scope nat_scope.

(** ** Checkpoint files *)
Section Files.
  Context {F : Type}.
  Inductive tok := TI (z : Z) | TL (b : bool) | TF (x : F) | TS (s : str).
  (** items of object lists: arrays of single and double precision numbers, integers and logicals, and strings *)
  Inductive item := IReal (l : list F) | IDouble (l : list F) | IInt (l : list Z) | ILog (l : list bool) | IStr (s : str).

  Definition reader (A : Type) := list tok -> res (A * list tok).
  Definition read_int : reader Z := fun f => match f with TI z :: r => Ok (z, r) | _ => Err IOError end.
  Definition read_log : reader bool := fun f => match f with TL b :: r => Ok (b, r) | _ => Err IOError end.
  Definition read_num : reader F := fun f => match f with TF x :: r => Ok (x, r) | _ => Err IOError end.
  Definition read_str : reader str := fun f => match f with TS s :: r => Ok (s, r) | _ => Err IOError end.
  Definition rbind {A B} (x : reader A) (g : A -> reader B) : reader B :=
    fun f => match x f with Ok (a, r) => g a r | Err e => Err e end.
  Definition rret {A} (a : A) : reader A := fun f => Ok (a, f).
  Fixpoint read_n {A} (x : reader A) (n : nat) : reader (list A) :=
    match n with 0 => rret [] | S k => rbind x (fun a => rbind (read_n x k) (fun l => rret (a :: l))) end.

  (** SaveBinary: ObjectLists.f90 414-454; an array is written as its size, the number of its type and the values, a string as
      its length, 5 and the characters *)
  Definition save_item (i : item) : list tok :=
    match i with
    | IReal l => TI (Z.of_nat (length l)) :: TI 1 :: map TF l
    | IDouble l => TI (Z.of_nat (length l)) :: TI 2 :: map TF l
    | IInt l => TI (Z.of_nat (length l)) :: TI 3 :: map TI l
    | ILog l => TI (Z.of_nat (length l)) :: TI 4 :: map TL l
    | IStr s => [TI (Z.of_nat (length s)); TI 5; TS s]
    end.
  Definition SaveBinary (l : list item) : list tok := TI (Z.of_nat (length l)) :: concat (map save_item l).
  (** ReadBinary: ObjectLists.f90 456-506.  A string of another length than sz is not possible in a file written by SaveBinary. *)
  Definition read_item : reader item :=
    rbind read_int (fun sz => rbind read_int (fun k =>
      if (k =? 1)%Z then rbind (read_n read_num (Z.to_nat sz)) (fun l => rret (IReal l))
      else if (k =? 2)%Z then rbind (read_n read_num (Z.to_nat sz)) (fun l => rret (IDouble l))
      else if (k =? 3)%Z then rbind (read_n read_int (Z.to_nat sz)) (fun l => rret (IInt l))
      else if (k =? 4)%Z then rbind (read_n read_log (Z.to_nat sz)) (fun l => rret (ILog l))
      else if (k =? 5)%Z then rbind read_str (fun s => rret (IStr s))
      else fun _ => Err (OtherError (L "unknown object type")))).
  Definition ReadBinary : reader (list item) := rbind read_int (fun n => read_n read_item (Z.to_nat n)).

  (** what a checkpoint has: the fields of TMpiChainCollector, of the sampler and of its proposer *)
  Record state := mkSt { k_thin : Z; k_burn : bool; k_allburn : bool; k_fluke : bool; k_min : Z; k_updates : bool; k_freq : Z;
    k_samples : list item; k_num : Z; k_maxlike : F; k_maxparams : list F; k_accept : Z; k_cov : list F; k_chkburn : Z }.
  (** TMpiChainCollector_SaveState: SampleCollector.f90 139-151; TSamplingAlgorithm_SaveState, TChainSampler_SaveState: MCMC.f90
      107-114, 210-218; TCovmatProposer_SaveState: propose.f90 319-325 *)
  Definition SaveState (s : state) : list tok :=
    [TI 2; TI (k_thin s); TL (k_burn s); TL (k_allburn s); TL (k_fluke s); TI (k_min s); TL (k_updates s); TI (k_freq s)] ++
    SaveBinary (k_samples s) ++ [TI (k_num s); TF (k_maxlike s)] ++ map TF (k_maxparams s) ++ [TI (k_accept s)] ++ map TF (k_cov s).
  (** TMpiChainCollector_ReadState: SampleCollector.f90 153-171, with the LoadState procedures of MCMC.f90 98-105, 199-207 and
      propose.f90 308-316.  np and nc are the sizes of MaxLikeParams and of the covariance matrix, num_slow and freq the current
      values (the latter for version 1), chkfreq is checkpoint_freq. *)
  Definition ReadState (np nc : nat) (num_slow freq chkfreq : Z) : reader state :=
    rbind read_int (fun version =>
      if (2 <? version)%Z then fun _ => Err (OtherError (L "unknown checkpoint format")) else
      rbind read_int (fun thin => rbind read_log (fun burn => rbind read_log (fun allburn => rbind read_log (fun fluke =>
      rbind read_int (fun mn => rbind read_log (fun upd =>
      rbind (if (2 <=? version)%Z then read_int else rret (freq * num_slow)%Z) (fun fr =>
      rbind ReadBinary (fun samples =>
      rbind read_int (fun num => rbind read_num (fun ml => rbind (read_n read_num np) (fun mp =>
      rbind read_int (fun acc => rbind (read_n read_num nc) (fun cov =>
        rret (mkSt thin burn allburn fluke mn upd fr samples num ml mp acc cov (chkfreq / 3)))))))))))))))).
  Definition chk_id : Z := 3252359.
  (** content of the file of WriteCheckpoint, SampleCollector.f90 174-187; ReadCheckpoint 190-202 *)
  Definition checkpoint_file (s : state) : list tok := TI chk_id :: SaveState s.
  Definition ReadCheckpoint (np nc : nat) (num_slow freq chkfreq : Z) (f : list tok) : res state :=
    match read_int f with
    | Ok (id, r) => if (id =? chk_id)%Z then match ReadState np nc num_slow freq chkfreq r with Ok (s, _) => Ok s | Err e => Err e end
                    else Err (OtherError (L "invalid checkpoint files"))
    | Err _ => Err (OtherError (L "invalid checkpoint files"))
    end.

  (** ** Writing, with crashes: the files root.chk and root.chk_tmp, and root.txt *)
  Record disk := mkDisk { d_chk : option (list tok); d_tmp : option (list tok); d_txt : list str }.
  Inductive fop := FCreate | FWrite (t : tok) | FClose | FDelete | FRename.
  Definition do_op (d : disk) (o : fop) : disk :=
    match o with
    | FCreate => mkDisk (d_chk d) (Some []) (d_txt d)
    | FWrite t => mkDisk (d_chk d) (option_map (fun l => l ++ [t]) (d_tmp d)) (d_txt d)
    | FClose => d
    | FDelete => mkDisk None (d_tmp d) (d_txt d)
    | FRename => match d_tmp d with Some l => mkDisk (Some l) None (d_txt d) | None => d end
    end.
  (** WriteCheckpoint: SampleCollector.f90 174-187; a crash leaves the disk as after the first k operations *)
  Definition WriteCheckpoint (s : state) : list fop := FCreate :: map FWrite (checkpoint_file s) ++ [FClose; FDelete; FRename].
  Definition crashed (s : state) (k : nat) (d : disk) : disk := fold_left do_op (firstn k (WriteCheckpoint s)) d.
  (** start of a run with checkpoint = T: driver.F90 121-130 (new_chains), GeneralSetup.f90 124-134: new chains begin an empty
      file root.txt, others read the checkpoint and append *)
  Definition restart (np nc : nat) (num_slow freq chkfreq : Z) (d : disk) : res (option state * list str) :=
    match d_chk d with
    | None => Ok (None, [])
    | Some f => match ReadCheckpoint np nc num_slow freq chkfreq f with Ok s => Ok (Some s, d_txt d) | Err e => Err e end
    end.

  (** ** Burn-in of one chain: TMpiChainCollector_AddNewPoint, SampleCollector.f90 347-405, for a chain that is not yet past
      burn-in.  eqb is the equality of numbers; min_update is the MPI_Min_Sample_Update that is set at the end of burn-in (lines
      391-397). *)
  Variable eqb : F -> F -> bool.
  Record burnin := mkBurn { b_num : nat; b_thin : nat; b_samples : list (list F); b_changes : option (list nat); b_done : bool }.
  (** where (Item(Count) /= Item(Count-1)) param_changes = param_changes + 1 *)
  Fixpoint count_changes (x y : list F) (c : list nat) : list nat :=
    match x, y, c with
    | a :: x', b :: y', n :: c' => (if eqb a b then n else n + 1) :: count_changes x' y' c'
    | _, _, _ => c
    end.
  Definition add_point (np min_update : nat) (p : list F) (b : burnin) : burnin :=
    let num := b_num b + 1 in
    if negb (num mod b_thin b =? 0) then mkBurn num (b_thin b) (b_samples b) (b_changes b) (b_done b)
    else
      let samples := b_samples b ++ [p] in
      if b_done b then mkBurn num (b_thin b) samples (b_changes b) true
      else if 50 + 1 <? length samples then
        let c := match b_changes b with Some c => c | None => repeat 0 np end in
        let c := count_changes p (nth (length samples - 2) samples []) c in
        if forallb (fun n => 50 + 1 <? n) c then
          mkBurn num (b_thin b)
            (if min_update <? length samples then DeleteRange samples 1 (length samples - min_update) else samples) None true
        else mkBurn num (b_thin b) samples (Some c) false
      else mkBurn num (b_thin b) samples (b_changes b) false.
  Definition burn_start (thin : nat) : burnin := mkBurn 0 thin [] None false.
  Definition add_points (np min_update : nat) (ps : list (list F)) (b : burnin) : burnin := fold_left (fun b p => add_point np min_update p b) ps b.
End Files.
Arguments tok : clear implicits.
Arguments item : clear implicits.
Arguments state : clear implicits.
Arguments disk : clear implicits.
Arguments fop : clear implicits.
Arguments burnin : clear implicits.

(** ** Covariance of the chains and convergence: UpdateCovAndCheckConverge, SampleCollector.f90 212-322 *)
Local Open Scope R_scope.
(** the samples used: from Count/2 to Count (lines 235-236) *)
Definition last_half {A} (samples : list A) : list A := skipn (length samples / 2 - 1) samples.
(** a chain as the number of samples used and the values x k i of parameter i in sample k; mean and covariance, lines 235-246 *)
Definition chain := (nat * (nat -> nat -> R))%type.
Definition chain_n (c : chain) : R := INR (fst c).
Definition chain_mean (c : chain) (i : nat) : R := Sm (fst c) (fun k => snd c k i) / chain_n c.
Definition chain_cov (c : chain) (i j : nat) : R :=
  Sm (fst c) (fun k => (snd c k i - chain_mean c i) * (snd c k j - chain_mean c j)) / chain_n c.
Definition chain_of (samples : list (nat -> R)) : chain := let l := last_half samples in (length l, fun k i => nth k l (fun _ => 0) i).
(** lines 255-276; the chains are numbered from 0 *)
Definition pool_norm (cs : list chain) : R := sumR (map chain_n cs).
Definition pool_mean (cs : list chain) (i : nat) : R := sumR (map (fun c => chain_mean c i * chain_n c) cs) / pool_norm cs.
Definition MPICovMat (cs : list chain) (i j : nat) : R := sumR (map (fun c => chain_n c * chain_cov c i j) cs) / pool_norm cs.
Definition mean_cov (cs : list chain) (i j : nat) : R := sumR (map (fun c => chain_cov c i j) cs) / INR (length cs).
Definition meanscov (cs : list chain) (i j : nat) : R :=
  sumR (map (fun c => chain_n c * (chain_mean c i - pool_mean cs i) * (chain_mean c j - pool_mean cs j)) cs) / pool_norm cs *
  (INR (length cs) / (INR (length cs) - 1)).

(** the decisions of one check (lines 276-318): result is the largest eigenvalue R, or None if the covariance is not invertible *)
Record conv_opts := mkCO { o_stop : R; o_limits : bool; o_learn : bool; o_diag : bool; o_maxr : R; o_stopupdate : R }.
Record verdict := mkV { v_stop : bool; v_fluke : bool; v_learn : bool; v_R : R }.
Definition rlt (x y : R) : bool := if Rlt_dec x y then true else false.
Definition check (o : conv_opts) (nchains : nat) (fluke : bool) (limits_ok : bool) (result : option R) : verdict :=
  let r := match result with Some r => r | None => 1000000 end in
  let stop := match result with Some r => rlt r (o_stop o) && fluke && (negb (o_limits o) || limits_ok) | None => false end in
  let fluke' := match result with Some r => rlt r (o_stop o) | None => fluke end in
  if (1 <? nchains)%nat then
    mkV stop fluke' (o_learn o && ((nchains =? 1)%nat || (o_diag o || rlt r (o_maxr o)) && rlt (o_stopupdate o) r)) r
  else mkV false fluke (o_learn o && ((nchains =? 1)%nat || (o_diag o || rlt r (o_maxr o)) && rlt (o_stopupdate o) r)) r.
(** the checks of a run, until it stops: the number of the check that stops it, and the flag *)
Fixpoint checks (o : conv_opts) (nchains : nat) (fluke : bool) (rs : list (option R * bool)) : option nat * bool :=
  match rs with
  | [] => (None, fluke)
  | (r, lim) :: rest =>
    let v := check o nchains fluke lim r in
    if v_stop v then (Some 0%nat, fluke)
    else let '(k, f) := checks o nchains (v_fluke v) rest in (option_map S k, f)
  end.
