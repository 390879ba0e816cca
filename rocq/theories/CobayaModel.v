(** Model of python/getdist/cobaya_interface.py: parameter entries of a cobaya info dictionary, and the two readers
    of such dictionaries (ParamNames.loadFromFile, ParamBounds.loadFromFile).

    Values are trees; mappings are insertion-ordered lists.  Functions that change the dictionaries they are given
    return the new dictionary next to their answer.  Simplification: no two entries of the dictionary are the same
    object (YAML aliases are not modelled). *)
From Verif Require Import PyBase PyNum.
From Coq Require Import ZArith QArith String Ascii Bool List.
Import ListNotations.
Local Open Scope nat_scope.
Local Open Scope list_scope.

(** [VFun n] is a callable *)
Inductive val :=
  | VNone | VBool (b : bool) | VNum (q : Q) | VInf (neg : bool) | VStr (s : str) | VFun (n : nat)
  | VList (l : list val) | VMap (m : list (str * val)).
Definition vdict := list (str * val).

Definition k_prior := L "prior".
Definition k_value := L "value".
Definition k_derived := L "derived".
Definition k_latex := L "latex".

(** truth value *)
Definition truthy (v : val) : bool :=
  match v with
  | VNone => false | VBool b => b | VNum q => negb (Qeq_bool q 0) | VInf _ => true
  | VStr s => match s with [] => false | _ => true end | VFun _ => true
  | VList l => match l with [] => false | _ => true end
  | VMap m => match m with [] => false | _ => true end
  end.
(** isinstance(v, str) or callable(v) *)
Definition dynamic (v : val) : bool := match v with VStr _ | VFun _ => true | _ => false end.
Definition is_none (v : val) : bool := match v with VNone => true | _ => false end.
(** d.get(k, None), d.get(k, default) *)
Definition vget (k : str) (d : vdict) (dflt : val) : val := match dget k d with Some v => v | None => dflt end.

(** cobaya_interface.py:231-249; deepcopy gives an equal tree *)
Definition expand_info_param (v : val) : vdict :=
  let d := match v with VNone => [] | VMap m => m | _ => [(k_value, v)] end in
  let d := if negb (dhas k_prior d) && negb (dhas k_value d) && negb (dhas k_derived d)
           then dset k_derived (VBool true) d else d in
  if dynamic (vget k_value d VNone) then dset k_derived (vget k_derived d (VBool true)) d else d.
(** 198-209 *)
Definition fixed_value (v : val) : val := vget k_value (expand_info_param v) VNone.
Definition is_fixed_param (v : val) : bool := negb (is_none (fixed_value v)).
(** 212-214: Number holds of bool, int and float *)
Definition is_derived_param (v : val) : val := vget k_derived (expand_info_param v) (VBool false).
Definition is_number (v : val) : bool := match v with VNum _ | VInf _ | VBool _ => true | _ => false end.
Definition is_parameter_with_range (v : val) : bool :=
  is_none (fixed_value v) || is_number (fixed_value v) || truthy (is_derived_param v).
(** 217-221 *)
Definition is_sampled_param (v : val) : bool := dhas k_prior (expand_info_param v).

Section Range.
  (** float(text); scipy.stats.<dist>.interval(1, keywords) *)
  Context (float_text : str -> option val) (interval : val -> vdict -> res (val * val)).

  (** float(value): texts may be numbers; None, lists, mappings and callables raise TypeError *)
  Definition to_float (v : val) : res val :=
    match v with
    | VNum _ | VInf _ => Ok v
    | VBool b => Ok (VNum (if b then 1 else 0))
    | VStr s => match float_text s with Some x => Ok x | None => Err ValueError end
    | _ => Err TypeError
    end.
  (** a Sequence of length 2, as the two limits *)
  Definition pair_of (v : val) : option (val * val) :=
    match v with
    | VList [a; b] => Some (a, b)
    | VStr [a; b] => Some (VStr [a], VStr [b])
    | _ => None
    end.
  (** 183 and 191: i.get("min", -inf), i.get("max", inf) of (param_info or {}) *)
  Definition min_max (v : val) : res (val * val) :=
    match (if truthy v then v else VMap []) with
    | VMap d => Ok (vget (L "min") d (VInf true), vget (L "max") d (VInf false))
    | _ => Err AttributeError
    end.
  (** 195 *)
  Definition finite_or_none (neg : bool) (v : val) : val :=
    match v with VInf n => if eqb n neg then VNone else v | _ => v end.
  Definition get_range_lims (v : val) : res (val * val) * val :=
    if is_sampled_param v then
      match v with
      | VMap d =>
          let prior := vget k_prior d VNone in
          let go (d : vdict) (p : vdict) : res (val * val) * val :=
            let mn := vget (L "min") p VNone in
            let mx := vget (L "max") p VNone in
            let loc := vget (L "loc") p VNone in
            let sc := vget (L "scale") p VNone in
            if negb (is_none mn) || negb (is_none mx) then (Ok (mn, mx), VMap d)
            else if negb (is_none loc) || negb (is_none sc) then
              let dist := vget (L "dist") p (VStr (L "uniform")) in
              let p' := ddel (L "dist") p in
              (interval dist p', VMap (dset k_prior (VMap p') d))
            else (Err (OtherError (L "UnboundLocalError")), VMap d) in
          match pair_of prior with
          | Some (a, b) => let p := [(L "min", a); (L "max", b)] in go (dset k_prior (VMap p) d) p
          | None => match prior with
                    | VMap p => go d p
                    | _ => (Err ValueError, v)
                    end
          end
      | _ => (Err TypeError, v)   (* not reached: only mappings have a prior *)
      end
    else if truthy (is_derived_param v) then (min_max v, v)
    else match to_float (fixed_value v) with
         | Ok x => (Ok (x, x), v)
         | Err ValueError => (min_max v, v)
         | Err e => (Err e, v)
         end.
  (** 163-195: the answer, and the entry after the call *)
  Definition get_range (v : val) : res (val * val) * val :=
    let r := get_range_lims v in
    (bindR (fst r) (fun l => Ok (finite_or_none true (fst l), finite_or_none false (snd l))), snd r).
End Range.

(** ** 121-159 get_info_params *)

(** list(v), or iteration over v, where texts are expected *)
Definition iter_names (v : val) : res (list str) :=
  match v with
  | VMap m => Ok (map fst m)
  | VStr s => Ok (map (fun c => [c]) s)
  | VList l => mapR (fun x => match x with VStr s => Ok s | _ => Err TypeError end) l
  | _ => Err TypeError
  end.
(** 117-118 str_to_list, applied to (v or []) or followed by "or []" *)
Definition str_to_list (v : val) : val := match v with VStr _ => VList [v] | _ => v end.
Definition or_empty (v : val) : val := if truthy v then v else VList [].
(** v.get(k, default) *)
Definition mget (k : str) (v : val) (dflt : val) : res val :=
  match v with VMap d => Ok (vget k d dflt) | _ => Err AttributeError end.
(** v.items() *)
Definition items_of (v : val) : res vdict := match v with VMap d => Ok d | _ => Err AttributeError end.
(** list.remove for each name *)
Fixpoint remove_all (names : list str) (l : list str) : res (list str) :=
  match names with
  | [] => Ok l
  | x :: rest => if mem_str x l then remove_all rest (remove_first x l) else Err ValueError
  end.

(** 144-147: entries of the new dictionary that come from the info are the same objects, so the update changes
    the info as well.  Simplification: update with something that is not a mapping raises TypeError. *)
Definition add_param (full0 : vdict) (st : vdict * vdict) (kv : str * val) : res (vdict * vdict) :=
  match snd kv with
  | VMap e =>
      match vget (fst kv) (fst st) (VMap []) with
      | VMap d =>
          let d' := VMap (dupdate d e) in
          Ok (dset (fst kv) d' (fst st), if dhas (fst kv) full0 then dset (fst kv) d' (snd st) else snd st)
      | _ => Err AttributeError
      end
  | _ => Err TypeError
  end.
Fixpoint add_params (full0 : vdict) (st : vdict * vdict) (l : vdict) : res (vdict * vdict) :=
  match l with
  | [] => Ok st
  | kv :: rest => bindR (add_param full0 st kv) (fun st => add_params full0 st rest)
  end.

Definition latex (s : str) : val := VMap [(k_latex, VStr s)].
Definition tex_name (s : str) : str := replace_str (L "_") (L "\ ") s.
(** 150-158 *)
Definition add_outputs (priors likes : list str) (full : vdict) : vdict :=
  let full := dset (L "minuslogprior") (latex (L "-\log\pi")) full in
  let full := fold_left (fun f p => dset (L "minuslogprior__" ++ p) (latex (L "-\log\pi_\mathrm{" ++ tex_name p ++ L "}")) f) priors full in
  let full := dset (L "chi2") (latex (L "\chi^2")) full in
  fold_left (fun f p => dset (L "chi2__" ++ p) (latex (L "\chi^2_\mathrm{" ++ tex_name p ++ L "}")) f) likes full.

(** the answer and the info after the call *)
Definition get_info_params (info : vdict) : res (vdict * vdict) :=
  bindR (items_of (vget (L "params") info VNone)) (fun params =>
  bindR (iter_names (or_empty (vget k_prior info VNone))) (fun ps =>
  let priors := L "0" :: ps in
  bindR (iter_names (vget (L "likelihood") info VNone)) (fun likes =>
  let post := vget (L "post") info (VMap []) in
  bindR (mget (L "remove") post (VMap [])) (fun remove =>
  bindR (mget (L "params") remove (VList [])) (fun rp =>
  bindR (iter_names (or_empty rp)) (fun rp =>
  let full0 := fold_left (fun f p => ddel p f) rp params in
  bindR (mget (L "likelihood") remove VNone) (fun rl =>
  bindR (iter_names (str_to_list (or_empty rl))) (fun rl =>
  bindR (remove_all rl likes) (fun likes =>
  bindR (mget k_prior remove VNone) (fun rq =>
  bindR (iter_names (or_empty (str_to_list rq))) (fun rq =>
  bindR (remove_all rq priors) (fun priors =>
  bindR (mget (L "add") post (VMap [])) (fun add =>
  bindR (mget (L "params") add (VMap [])) (fun ap =>
  bindR (items_of ap) (fun ap =>
  bindR (add_params full0 (full0, params) ap) (fun st =>
  bindR (mget (L "likelihood") add (VList [])) (fun al =>
  bindR (iter_names al) (fun al =>
  bindR (mget k_prior add (VList [])) (fun aq =>
  bindR (iter_names aq) (fun aq =>
  Ok (add_outputs (priors ++ aq) (likes ++ al) (fst st), dset (L "params") (VMap (snd st)) info))))))))))))))))))))).

(** 262-265: the parameters are asked for the post block *)
Definition get_burn_removed (info : vdict) : res val :=
  bindR (get_info_params info) (fun r =>
  mget (L "skip") (vget (L "post") (fst r) (VMap [])) (VNum 0)).

(** ** paramnames.py:430-442: names and labels, sampled first *)
Definition label_of (p : str * val) : res (str * val) :=
  match (if truthy (snd p) then snd p else VMap []) with
  | VMap d => Ok (fst p, vget k_latex d (VStr (fst p)))
  | _ => Err AttributeError
  end.
Definition yaml_names (info : vdict) : res (list (str * val * bool)) :=
  bindR (get_info_params info) (fun r =>
  bindR (mapR label_of (filter (fun p => is_sampled_param (snd p)) (fst r))) (fun a =>
  bindR (mapR label_of (filter (fun p => truthy (is_derived_param (snd p))) (fst r))) (fun b =>
  Ok (map (fun x => (x, false)) a ++ map (fun x => (x, true)) b)))).
