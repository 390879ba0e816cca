(** Model of the parameter blocks of the sampler: source/BaseParameters.f90 279-434 (blocks of slow and fast parameters) and
    source/propose.f90 (proposals block by block).  Arrays are lists, numbers of parameters, blocks and indices start from 1 as in
    Fortran (in the matrices of the last part rows and columns start from 0).  Random permutations (randIndices), random rotations
    and step lengths are arguments.  Allocation and feedback are left out. *)
From Verif Require Import StatModel StatSpec McmcModel.
From Coq Require Import Reals List Bool ZArith Arith Lia.
Import ListNotations.
Local Open Scope list_scope.
Local Open Scope nat_scope.

(** ** Blocks of parameters *)

(** BaseParameters.f90:11 *)
Definition tp_slow := 1. Definition tp_semislow := 2. Definition tp_semifast := 3. Definition tp_fast := 4.
(** BaseParameters.f90:13 *)
Definition slow_tp_max := 2.

(** The input: num_params, varying, use_fast_slow, fast_params(1:fast_number), index_data, index_semislow, block_semi_fast,
    block_fast_likelihood_params (the last two are .false. without use_fast_slow, lines 335-337), and new_param_block_start and
    new_params of each likelihood, in the order of DataLikelihoods. *)
Record setup := mkSet {
  s_n : nat; s_varying : nat -> bool; s_use : bool; s_fast : list nat; s_data : nat; s_semislow : Z;
  s_semi : bool; s_bylike : bool; s_likes : list (nat * nat) }.
(** BaseParameters.f90:322-330, without fast_parameters: all parameters from fast_param_index *)
Definition fast_from (index n : nat) : list nat := seq index (n + 1 - index).
(** BaseParameters.f90:150-158 *)
Definition params_used (s : setup) : list nat := filter (s_varying s) (seq 1 (s_n s)).
Definition num_used (s : setup) : nat := length (params_used s).
Definition used (s : setup) (j : nat) : nat := nth (j - 1) (params_used s) 0.
(** BaseParameters.f90:340-357; tp_unused is 0 *)
Definition param_type (s : setup) (i : nat) : nat :=
  if s_varying s i then
    if s_use s && existsb (Nat.eqb i) (s_fast s) then
      if (s_data s <=? i) || negb (s_semi s) then tp_fast else tp_semifast
    else if s_use s && (0 <=? s_semislow s)%Z && (s_semislow s <=? Z.of_nat i)%Z && s_semi s then tp_semislow else tp_slow
  else 0.
(** BaseParameters.f90:366-377: the index at which the inner loop stops for a likelihood *)
Definition first_fast (s : setup) (like : nat * nat) : option nat :=
  find (fun j => (param_type s (used s j) =? tp_fast) && (fst like <=? used s j) && (used s j <? fst like + snd like)) (seq 1 (num_used s - 1)).
(** BaseParameters.f90:359-379 *)
Fixpoint find_breaks (s : setup) (first : bool) (likes : list (nat * nat)) : list nat :=
  match likes with
  | [] => []
  | l :: rest =>
      match first_fast s l with
      | None => find_breaks s first rest
      | Some j => if first then find_breaks s false rest else j :: find_breaks s false rest
      end
  end.
(** BaseParameters.f90:380-381 *)
Definition breaks (s : setup) : list nat := (if s_bylike s then find_breaks s true (s_likes s) else []) ++ [num_used s].
(** BaseParameters.f90:279-293: minval, indexOf (first occurrence), shift of the rest *)
Definition minval (l : list nat) : nat := match l with [] => 0 | a :: r => fold_left Nat.min r a end.
Fixpoint drop_first (a : nat) (l : list nat) : list nat :=
  match l with [] => [] | b :: r => if b =? a then r else b :: drop_first a r end.
Fixpoint order (n : nat) (tmp : list nat) : list nat :=
  match n with 0 => [] | S k => minval tmp :: order k (drop_first (minval tmp) tmp) end.
Definition orderIndices (arr : list nat) : list nat := order (length arr) arr.
(** BaseParameters.f90:392-406 *)
Definition speed_block (s : setup) (speed : nat) : list nat :=
  filter (fun i => param_type s (used s i) =? speed) (seq 1 (num_used s)).
(** BaseParameters.f90:407-420: do i=ix,j *)
Fixpoint fast_blocks (s : setup) (ix : nat) (br : list nat) : list (list nat) :=
  match br with
  | [] => []
  | j :: rest => filter (fun i => param_type s (used s i) =? tp_fast) (seq ix (j + 1 - ix)) :: fast_blocks s (j + 1) rest
  end.
Definition param_blocks (s : setup) : list (list nat) :=
  map (speed_block s) [tp_slow; tp_semislow; tp_semifast] ++ fast_blocks s 1 (orderIndices (breaks s)).
(** the counters of BaseParameters.f90:389-420 *)
Definition num_slow (s : setup) : nat := length (speed_block s tp_slow) + length (speed_block s tp_semislow).
Definition num_fast (s : setup) : nat := length (speed_block s tp_semifast) + length (concat (fast_blocks s 1 (orderIndices (breaks s)))).

(** ** The proposer: propose.f90:137-196 *)

Definition total (blocks : list (list nat)) : nat := length (concat blocks).
(** the used blocks, All%n, Slow%n, Fast%n: 158-173 *)
Definition used_blocks (blocks : list (list nat)) : list (list nat) := filter (fun b => negb (length b =? 0)) blocks.
Definition All_n (blocks : list (list nat)) : nat := total blocks.
Definition Slow_n (blocks : list (list nat)) (slow_block_max : nat) : nat := total (firstn slow_block_max blocks).
Definition Fast_n (blocks : list (list nat)) (slow_block_max : nat) : nat := All_n blocks - Slow_n blocks slow_block_max.
(** this%indices, 176-188 *)
Definition indices (blocks : list (list nat)) : list nat := concat (used_blocks blocks).
(** block_start of each block, and ProposerForIndex *)
Fixpoint starts (ix : nat) (us : list (list nat)) : list nat :=
  match us with [] => [] | b :: r => ix :: starts (ix + length b) r end.
Fixpoint proposer_for (i : nat) (us : list (list nat)) : list nat :=
  match us with [] => [] | b :: r => repeat i (length b) ++ proposer_for (S i) r end.
Definition block_start (blocks : list (list nat)) (i : nat) : nat := nth (i - 1) (starts 1 (used_blocks blocks)) 0.
Definition block_size (blocks : list (list nat)) (i : nat) : nat := length (nth (i - 1) (used_blocks blocks) []).
Definition ProposerForIndex (blocks : list (list nat)) (x : nat) : nat := nth (x - 1) (proposer_for 1 (used_blocks blocks)) 0.
(** used_params_changed and params_changed, 190-196 *)
Definition used_params_changed (blocks : list (list nat)) (i : nat) : list nat := skipn (block_start blocks i - 1) (indices blocks).
Definition params_changed (s : setup) (blocks : list (list nat)) (i : nat) : list nat := map (used s) (used_params_changed blocks i).

(** CyclicIndexRandomizer, propose.f90:78-90; [perm] is the result of randIndices, if it is called *)
Record cycler := mkCy { cy_loop : nat; cy_ind : list nat }.
Definition Next (n : nat) (perm : list nat) (c : cycler) : nat * cycler :=
  let l := cy_loop c mod n + 1 in
  let ind := if l =? 1 then perm else cy_ind c in
  (nth (l - 1) ind 0, mkCy l ind).
(** the calls of Next one after another *)
Fixpoint Nexts (n : nat) (perms : list (list nat)) (c : cycler) : list nat * cycler :=
  match perms with
  | [] => ([], c)
  | p :: r => let '(x, c1) := Next n p c in let '(xs, c2) := Nexts n r c1 in (x :: xs, c2)
  end.
(** GetProposal, propose.f90:247-285: the index in 1..All%n whose block is used *)
Record pstate := mkPS { p_fast_ix : nat; p_all : cycler; p_slow : cycler; p_fast : cycler }.
Record pdraw := mkPD { pd_all : list nat; pd_slow : list nat; pd_fast : list nat }.
Definition pick_fast (ns nf : nat) (d : pdraw) (p : pstate) : nat * pstate :=
  let '(x, c) := Next nf (pd_fast d) (p_fast p) in (ns + x, mkPS (p_fast_ix p) (p_all p) (p_slow p) c).
Definition pick_slow (ns : nat) (d : pdraw) (p : pstate) : nat * pstate :=
  let '(x, c) := Next ns (pd_slow d) (p_slow p) in (x, mkPS (p_fast_ix p) (p_all p) c (p_fast p)).
Definition pick (ns nf oversample : nat) (d : pdraw) (p : pstate) : nat * pstate :=
  if negb (p_fast_ix p =? 0) then
    let '(x, p1) := pick_fast ns nf d p in (x, mkPS (p_fast_ix p1 - 1) (p_all p1) (p_slow p1) (p_fast p1))
  else
    let '(a, ca) := Next (ns + nf) (pd_all d) (p_all p) in
    let p0 := mkPS (p_fast_ix p) ca (p_slow p) (p_fast p) in
    if ns <? a then
      let '(x, p1) := pick_fast ns nf d p0 in (x, mkPS (oversample - 1) (p_all p1) (p_slow p1) (p_fast p1))
    else pick_slow ns d p0.
Fixpoint picks (ns nf oversample : nat) (ds : list pdraw) (p : pstate) : list nat * pstate :=
  match ds with
  | [] => ([], p)
  | d :: r => let '(x, p1) := pick ns nf oversample d p in let '(xs, p2) := picks ns nf oversample r p1 in (x :: xs, p2)
  end.
Definition pstart : pstate := mkPS 0 (mkCy 0 []) (mkCy 0 []) (mkCy 0 []).

(** ** Changes of the parameters *)
Local Open Scope R_scope.

(** position (from 0) of a number in a list *)
Fixpoint position (a : nat) (l : list nat) : option nat :=
  match l with [] => None | b :: r => if Nat.eqb b a then Some 0%nat else option_map S (position a r) end.
(** UpdateParams, propose.f90:128-135: parameters as function of their number; the vector of matmul(mapping_matrix, vec) *)
Definition update (changed : list nat) (d : nat -> R) (P : nat -> R) : nat -> R :=
  fun i => match position i changed with Some j => P i + d j | None => P i end.
Definition matvec (n : nat) (M : nat -> nat -> R) (v : nat -> R) : nat -> R := fun j => sumR (map (fun k => M j k * v k) (seq 0 n)).

Section Proposals.
  Variable blocks : list (list nat).
  Variable chol : nat -> (nat -> nat -> R) -> nat -> nat -> R.   (* Matrix_Cholesky with zeroed=.true. *)
  Variable cov : nat -> nat -> R.                                 (* propose_matrix, by number of used parameter *)
  (** propose.f90:218-225 *)
  Definition psigma (i : nat) : R := sqrt (cov i i).
  Definition corr (i j : nat) : R := cov i j / psigma i / psigma j.
  Definition index_at (p : nat) : nat := nth p (indices blocks) 0%nat.
  Definition Lmat : nat -> nat -> R := chol (All_n blocks) (fun p q => corr (index_at p) (index_at q)).
  (** propose.f90:228-235 *)
  Definition mapping_matrix (i j k : nat) : R :=
    psigma (nth j (used_params_changed blocks i) 0%nat) * Lmat (block_start blocks i - 1 + j) (block_start blocks i - 1 + k).
  (** the change of the parameters with numbers [params_changed] by GetBlockProposal, propose.f90:239-245, 106-117: column [l] of the
      rotation [Rot] (rotations are square of the size of the block) times the step length [r] *)
  Definition block_change (i : nat) (Rot : nat -> nat -> R) (l : nat) (r : R) : nat -> R :=
    matvec (block_size blocks i) (mapping_matrix i) (fun k => Rot k l * r).
  Definition GetBlockProposal (s : setup) (i : nat) (Rot : nat -> nat -> R) (l : nat) (r : R) (P : nat -> R) : nat -> R :=
    update (params_changed s blocks i) (block_change i Rot l r) P.
End Proposals.
