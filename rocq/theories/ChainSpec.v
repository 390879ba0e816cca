(** Vocabulary for rows of weighted samples, independent of how the arrays are updated. *)
From Verif Require Import PyStr PyBase ThinModel ChainModel.
From Coq Require Import QArith.
Local Open Scope nat_scope.

(** One row: its sample, its weight, its -log likelihood. *)
Record row3 {R : Type} := mkR { r_s : R; r_w : Q; r_l : Q }.
Arguments row3 : clear implicits.
Arguments mkR {R}.

(** The three arrays of [s] are the columns of the table [t] ([h]: whether likelihoods are stored). *)
Definition rows {R} (h : bool) (s : wsam R) (t : list (row3 R)) : Prop :=
  samples s = Some (map r_s t) /\ weights s = Some (map r_w t) /\
  loglikes s = (if h then Some (map r_l t) else None) /\ numrows s = length t.

(** No cached statistic is left, and the recorded total weight is that of the rows. *)
Definition fresh {R} (s : wsam R) (t : list (row3 R)) : Prop :=
  cached s = false /\ needs_update s = true /\ (norm s == sumQ (map r_w t))%Q.

(** Rows left by a cut at weight [ratio] times the largest. *)
Definition no_low {R} (ratio : Q) (t : list (row3 R)) : Prop :=
  forall x y, In x t -> In y t -> (r_w y * ratio <= r_w x)%Q.
Definition above {R} (ratio : Q) (t : list (row3 R)) (x : row3 R) : Prop :=
  forall y, In y t -> (r_w y * ratio < r_w x)%Q.
Definition cut_of {R} (ratio : Q) (t t' : list (row3 R)) : Prop :=
  (no_low ratio t -> t' = t) /\
  (~ no_low ratio t -> exists p, t' = filter p t /\ forall x, In x t -> (p x = true <-> above ratio t x)).

(** Ordered selections *)
Inductive subseq {A} : list A -> list A -> Prop :=
| sub_nil : subseq [] []
| sub_keep x l l' : subseq l l' -> subseq (x :: l) (x :: l')
| sub_drop x l l' : subseq l l' -> subseq l (x :: l').

(** Row operations on a WeightedSamples object *)
Inductive op := Filter (w : sel) | Thin (f : Q) | WThin (f : Q) | Burn (q : Q) | MinRatio (q : Q).
Definition do_op {R} (s : wsam R) (o : op) : res (wsam R) :=
  match o with
  | Filter w => ws_filter s w
  | Thin f => ws_thin s f
  | WThin f => ws_weighted_thin s f
  | Burn q => ws_removeBurn s q
  | MinRatio q => setMinWeightRatio_with (fun x => x) ws_filter s q
  end.
Fixpoint do_ops {R} (s : wsam R) (l : list op) : res (wsam R) :=
  match l with [] => Ok s | o :: l' => bindR (do_op s o) (fun s' => do_ops s' l') end.
(** those that neither reorder nor reweight *)
Definition keeps_order (o : op) : bool :=
  match o with Filter (Mask _) | Burn _ | MinRatio _ => true | _ => false end.

(** Combined chains: [parts] are the tables of the separate chains, in order. *)
Definition combined {R} (c : chn R) (parts : list (list (row3 R))) : Prop :=
  rows true (base c) (concat parts) /\ chains c = None /\
  offs c = Some (map (fun k => length (concat (firstn k parts))) (seq 0 (S (length parts)))).

(** Apply one mask over all rows, chain by chain. *)
Fixpoint keep_parts {A} (m : list bool) (parts : list (list A)) : list (list A) :=
  match parts with
  | [] => []
  | p :: parts' => keep (firstn (length p) m) p :: keep_parts (skipn (length p) m) parts'
  end.

(** Sequences of masks and weight cuts on a Chains object, and their effect chain by chain *)
Inductive chop := ChMask (m : list bool) | ChRatio (q : Q).
Definition do_chop {R} (c : chn R) (o : chop) : res (chn R) :=
  match o with
  | ChMask m => ch_filter c (Mask m)
  | ChRatio q => setMinWeightRatio_with base ch_filter c q
  end.
Fixpoint do_chops {R} (c : chn R) (l : list chop) : res (chn R) :=
  match l with [] => Ok c | o :: l' => bindR (do_chop c o) (fun c' => do_chops c' l') end.
Fixpoint keep_all {A} (ms : list (list bool)) (parts : list (list A)) : list (list A) :=
  match ms with [] => parts | m :: ms' => keep_all ms' (keep_parts m parts) end.

(** each mask has one entry per remaining row *)
Fixpoint masks_ok {A} (ms : list (list bool)) (parts : list (list A)) : Prop :=
  match ms with [] => True | m :: ms' => length m = length (concat parts) /\ masks_ok ms' (keep_parts m parts) end.
