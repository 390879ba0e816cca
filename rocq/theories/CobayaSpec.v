(** Vocabulary for statements about cobaya parameter entries. *)
From Verif Require Import PyBase PyNum CobayaModel.
From Coq Require Import ZArith QArith String Ascii Bool List Permutation.
Import ListNotations.
Local Open Scope nat_scope.
Local Open Scope list_scope.

(** what an entry says, read off its keys *)
Definition has_key (k : str) (v : val) : Prop := exists d x, v = VMap d /\ dget k d = Some x.
Definition says_value (v x : val) : Prop :=
  (exists d, v = VMap d /\ dget k_value d = Some x) \/ (v = x /\ (forall d, v <> VMap d) /\ v <> VNone).
(** entries in the forms that cobaya documents, without texts or functions as value *)
Inductive plain_entry : val -> Prop :=
  | pe_none : plain_entry VNone
  | pe_num q : plain_entry (VNum q)
  | pe_prior d p : dget k_prior d = Some p -> dget k_value d = None -> truthy (vget k_derived d VNone) = false -> plain_entry (VMap d)
  | pe_value d q : dget k_value d = Some (VNum q) -> dget k_prior d = None -> truthy (vget k_derived d VNone) = false -> plain_entry (VMap d)
  | pe_derived d : dget k_value d = None -> dget k_prior d = None -> truthy (vget k_derived d (VBool true)) = true -> plain_entry (VMap d).

(** exactly one of three *)
Definition exactly_one (a b c : bool) : Prop :=
  (a = true /\ b = false /\ c = false) \/ (a = false /\ b = true /\ c = false) \/ (a = false /\ b = false /\ c = true).

(** limits taken from loc/scale by scipy: no min and no max *)
Definition by_scale (p : vdict) : Prop := vget (L "min") p VNone = VNone /\ vget (L "max") p VNone = VNone.
(** a prior that get_range reads without touching it *)
Definition quiet_prior (v : val) : Prop :=
  match v with
  | VMap d => match dget k_prior d with
              | Some (VMap p) => by_scale p -> dget (L "dist") p = None
              | Some x => pair_of x = None
              | None => True
              end
  | _ => True
  end.
(** a prior in which scipy is not asked with a named distribution *)
Definition no_dist (v : val) : Prop :=
  match v with
  | VMap d => match dget k_prior d with
              | Some (VMap p) => by_scale p -> dget (L "dist") p = None
              | _ => True
              end
  | _ => True
  end.

(** what nested dictionaries hold under a path of keys; nothing is None *)
Fixpoint path (ks : list str) (v : val) : val :=
  match ks with
  | [] => v
  | k :: rest => match v with VMap d => match dget k d with Some x => path rest x | None => VNone end | _ => VNone end
  end.
(** the names listed by a mapping, a list, or a text *)
Definition names_listed (v : val) : list str :=
  match v with
  | VMap m => map fst m
  | VList l => flat_map (fun x => match x with VStr s => [s] | _ => [] end) l
  | VStr s => map (fun c => [c]) s
  | _ => []
  end.
Definition one_or_listed (v : val) : list str := match v with VStr s => [s] | _ => names_listed v end.
(** the entries of the block post/add/params *)
Definition added (info : vdict) : vdict :=
  match path [L "post"; L "add"; L "params"] (VMap info) with VMap ap => ap | _ => [] end.
(** the parameters of the info *)
Definition own_params (info : vdict) : vdict := match dget (L "params") info with Some (VMap p) => p | _ => [] end.
(** dictionaries have distinct keys *)
Definition good_dict {V} (d : list (str * V)) : Prop := NoDup (map fst d).
Definition good_info (info : vdict) : Prop :=
  good_dict info /\ good_dict (own_params info) /\ good_dict (added info) /\
  forall k e, In (k, VMap e) (added info) -> good_dict e.

(** saved as derived: the entry says so, or says nothing, or is computed from other parameters *)
Inductive says_derived : val -> Prop :=
  | sd_none : says_derived VNone
  | sd_key d x : dget k_derived d = Some x -> truthy x = true -> says_derived (VMap d)
  | sd_bare d : dget k_derived d = None -> dget k_value d = None -> dget k_prior d = None -> says_derived (VMap d)
  | sd_dynamic v x : says_value v x -> dynamic x = true -> (forall d, v = VMap d -> dget k_derived d = None) -> says_derived v.

(** an infinite limit counts as no limit *)
Definition open_end (neg : bool) (v w : val) : Prop := (v = VInf neg /\ w = VNone) \/ (v <> VInf neg /\ w = v).
Definition limit_of (k : str) (d : vdict) (x : val) : Prop := dget k d = Some x \/ (dget k d = None /\ x = VNone).
(** the limits that an entry states *)
Inductive states_range : val -> val -> val -> Prop :=
  | sr_number q : states_range (VNum q) (VNum q) (VNum q)
  | sr_value d q : dget k_value d = Some (VNum q) -> dget k_prior d = None -> truthy (vget k_derived d VNone) = false ->
      states_range (VMap d) (VNum q) (VNum q)
  | sr_list d a b x y : dget k_prior d = Some (VList [a; b]) -> a <> VNone \/ b <> VNone -> open_end true a x -> open_end false b y ->
      states_range (VMap d) x y
  | sr_prior d p a b x y : dget k_prior d = Some (VMap p) -> limit_of (L "min") p a -> limit_of (L "max") p b -> a <> VNone \/ b <> VNone ->
      open_end true a x -> open_end false b y -> states_range (VMap d) x y
  | sr_none : states_range VNone VNone VNone
  | sr_derived d a b x y : dget k_prior d = None -> says_derived (VMap d) -> d <> [] -> limit_of (L "min") d a -> limit_of (L "max") d b ->
      open_end true a x -> open_end false b y -> states_range (VMap d) x y
  | sr_empty : states_range (VMap []) VNone VNone.

(** the names that post removes *)
Definition removed_params (info : vdict) : list str := names_listed (path [L "post"; L "remove"; L "params"] (VMap info)).
(** the entry of a parameter after post-processing *)
Definition final_entry (info : vdict) (k : str) (v : val) : Prop :=
  let own := if mem_str k (removed_params info) then None else dget k (own_params info) in
  match dget k (added info) with
  | None => own = Some v
  | Some e => exists d a, e = VMap a /\ v = VMap d /\
      forall x, dget x d = match dget x a with
                           | Some y => Some y
                           | None => match own with Some (VMap o) => dget x o | _ => None end
                           end
  end.
Definition output_name (k : str) : Prop :=
  k = L "minuslogprior" \/ k = L "chi2" \/ (exists p, k = L "minuslogprior__" ++ p) \/ exists p, k = L "chi2__" ++ p.
Definition label_is (n : str) (e : val) (lab : val) : Prop :=
  match e with VMap d => dget k_latex d = Some lab \/ (dget k_latex d = None /\ lab = VStr n) | _ => lab = VStr n end.
(** a part of a list, in order *)
Inductive part_of {A} : list A -> list A -> Prop :=
  | po_nil : part_of [] []
  | po_keep x a b : part_of a b -> part_of (x :: a) (x :: b)
  | po_drop x a b : part_of a b -> part_of a (x :: b).
(** the lists of priors and likelihoods after post-processing *)
Definition after_post (base : list str) (kind : str) (info : vdict) (l : list str) : Prop :=
  Permutation (one_or_listed (path [L "post"; L "remove"; kind] (VMap info)) ++ l)
    (base ++ names_listed (path [L "post"; L "add"; kind] (VMap info))).
