(** Model of python/getdist/mcsamples.py: ranges and histograms of samples (_initParam, _binSamples, _make2Dhist),
    getFractionIndices, getCombinedSamplesWithSamples and writeThinData; python/getdist/chains.py setParams.
    Numbers are exact rationals. *)
From Verif Require Import PyStr PyBase ThinModel ConfModel.
From Coq Require Import ZArith QArith Qminmax String Ascii Bool List.
Import ListNotations.
Local Open Scope nat_scope.
Local Open Scope list_scope.

(** ** Ranges *)

(** the fields of a ParamInfo that _initParam and _binSamples use; limmin and limmax are None without a limit *)
Record prange := mkpr { p_min : Q; p_max : Q; range_min : Q; range_max : Q; has_bot : bool; has_top : bool }.

(** a < b *)
Definition Qlt_b (a b : Q) : bool := negb (Qle_bool b a).
(** 1341-1367: [lo] and [hi] are the range from the confidence limits (and the ND contour), [smooth] is smooth_1D,
    [bot] and [top] the limits where has_limits_bot and has_limits_top hold on entry *)
Definition init_range (pmin pmax lo hi smooth : Q) (bot top : option Q) : prange :=
  let '(lo1, hb) := match bot with
                    | Some l => if Qlt_b (2 * smooth) (lo - l)%Q && Qlt_b smooth (pmin - l)%Q then (lo, false) else (l, true)
                    | None => (lo, false)
                    end in
  let '(hi1, ht) := match top with
                    | Some l => if Qlt_b (2 * smooth) (l - hi)%Q && Qlt_b smooth (l - pmax)%Q then (hi, false) else (l, true)
                    | None => (hi, false)
                    end in
  mkpr pmin pmax (if hb then lo1 else (lo1 - smooth * 2)%Q) (if ht then hi1 else (hi1 + smooth * 2)%Q) hb ht.

(** ** Histograms *)

(** 1372-1385; dividing by zero, or a width of zero, gives no numbers.  The answer: indices, width, first and last
    bin centre. *)
Definition bin_edges (par : prange) (borderfrac : Q) : Q * Q :=
  let border := ((range_max par - range_min par) * borderfrac)%Q in
  let b0 := Qmin (p_min par) (range_min par) in
  let b1 := Qmax (p_max par) (range_max par) in
  (if has_bot par then b0 else (b0 - border)%Q, if has_top par then b1 else (b1 + border)%Q).
Definition binSamples (vec : list Q) (par : prange) (bins : nat) (borderfrac : Q) : res (list Z * Q * Q * Q) :=
  let '(binmin, binmax) := bin_edges par borderfrac in
  if bins =? 1 then Err ZeroDivisionError else
  let width := ((binmax - binmin) / inject_Z (Z.of_nat bins - 1))%Q in
  if Qeq_bool width 0 then Err ZeroDivisionError else
  Ok (map (fun v => trunc ((v - binmin) / width + (1 # 2))%Q) vec, width, binmin, binmax).

(** np.bincount(ix, weights, minlength): negative entries raise ValueError *)
Definition bincount (ix : list Z) (weights : list Q) (minlength : nat) : res (list Q) :=
  if existsb (fun i => (i <? 0)%Z) ix then Err ValueError
  else if negb (List.length ix =? List.length weights) then Err ValueError
  else
    let size := Nat.max minlength (fold_right Nat.max 0 (map (fun i => S (Z.to_nat i)) ix)) in
    Ok (map (fun k => sumQ (map snd (filter (fun p => (fst p =? Z.of_nat k)%Z) (combine ix weights)))) (seq 0 size)).
(** a.reshape((rows, cols)) *)
Fixpoint chop {A} (cols rows : nat) (l : list A) : list (list A) :=
  match rows with 0 => [] | S r => firstn cols l :: chop cols r (skipn cols l) end.
Definition reshape {A} (rows cols : nat) (l : list A) : res (list (list A)) :=
  if List.length l =? rows * cols then Ok (chop cols rows l) else Err ValueError.
(** 1597-1602 *)
Definition make2Dhist (ixs iys : list Z) (weights : list Q) (xsize ysize : nat) : res (list (list Q)) :=
  let flat := map (fun p => (fst p + snd p * Z.of_nat xsize)%Z) (combine ixs iys) in
  bindR (bincount flat weights (xsize * ysize)) (reshape ysize xsize).

(** ** 603-614; [norm] is self.norm, [numrows] the number of self.weights *)
Definition getFractionIndices (weights : list Q) (norm : Q) (numrows n : nat) : list nat :=
  map (fun i => searchsorted (cumsumQ 0 weights) (inject_Z (Z.of_nat i) / inject_Z (Z.of_nat n) * norm)%Q) (seq 0 n) ++ [numrows].

(** ** Parameters as attributes *)

(** chains.py:184-188: a ParSamples object; attributes are columns or objects again.
    Simplification: attributes of arrays are not modelled, so that going below an array raises AttributeError. *)
Inductive attr := Col (c : list Q) | Obj (l : list (str * attr)).
(** 1236-1239 and, in the second pass, 1240-1244 *)
Fixpoint set_path (o : list (str * attr)) (path : list str) (value : option (list Q)) {struct path} : res (list (str * attr)) :=
  match path with
  | [] => Ok o
  | [p] => match value with
           | None => Ok o
           | Some c => match dget p o with
                       | Some (Obj l) => Ok (dset p (Obj (dset (L "value") (Col c) l)) o)
                       | _ => Ok (dset p (Col c) o)
                       end
           end
  | p :: rest => match dget p o with
                 | None => bindR (set_path [] rest value) (fun l => Ok (dset p (Obj l) o))
                 | Some (Obj l0) => bindR (set_path l0 rest value) (fun l => Ok (dset p (Obj l) o))
                 | Some (Col _) => Err AttributeError
                 end
  end.
Fixpoint set_names (o : list (str * attr)) (cols : list (str * list Q)) (second : bool) : res (list (str * attr)) :=
  match cols with
  | [] => Ok o
  | (n, c) :: rest => bindR (set_path o (split_ch "."%char n) (if second then Some c else None)) (fun o => set_names o rest second)
  end.
(** 1248-1258: both passes; [cols] are the parameter names with their columns *)
Definition getParams (cols : list (str * list Q)) : res (list (str * attr)) :=
  bindR (set_names [] cols false) (fun o => set_names o cols true).

(** ** 2369-2398 *)

(** what the function uses of a sample set: name, label, derived flag and column of each parameter, weights and
    likelihoods *)
Record sset := mkss { s_pars : list (str * str * bool * list Q); s_weights : list Q; s_logl : option (list Q) }.
Definition s_name (p : str * str * bool * list Q) : str := fst (fst (fst p)).
Definition s_cols (s : sset) : list (str * list Q) := map (fun p => (s_name p, snd p)) (s_pars s).
(** getattr(params, name), concatenated: objects that are not arrays raise ValueError *)
Definition column (o : list (str * attr)) (name : str) : res (list Q) :=
  match dget name o with None => Err AttributeError | Some (Obj _) => Err ValueError | Some (Col c) => Ok c end.
Definition combined_weights (w1 w2 : list Q) (sw : option (Q * Q)) : res (list Q) :=
  match sw with
  | None => Ok (w1 ++ w2)
  | Some (a, b) => if Qeq_bool (sumQ w2) 0 then Err ZeroDivisionError
                   else Ok (map (fun w => w * a)%Q w1 ++ map (fun w => w * b * (sumQ w1 / sumQ w2))%Q w2)
  end.
Definition getCombined (s1 s2 : sset) (sw : option (Q * Q)) : res sset :=
  let common := filter (fun p => mem_str (s_name p) (map s_name (s_pars s1))) (s_pars s2) in
  let logl := match s_logl s1, s_logl s2 with Some a, Some b => Some (a ++ b) | _, _ => None end in
  bindR (combined_weights (s_weights s1) (s_weights s2) sw) (fun w =>
  bindR (getParams (s_cols s1)) (fun p1 =>
  bindR (getParams (s_cols s2)) (fun p2 =>
  bindR (mapR (fun p => bindR (column p1 (s_name p)) (fun a => bindR (column p2 (s_name p)) (fun b => Ok (fst p, a ++ b)))) common) (fun ps =>
  Ok (mkss ps w logl))))).

(** ** 544-572 writeThinData: the fields written, in order *)
Section Thin.
  Context {F : Type} (fixed sci : F -> str) (one : F) (cooled : F -> F) (cool_weight : F -> F).
  (** [cooled l] is l * cool; [cool_weight l] is the exponential on line 563; [cool1] says that cool is 1 *)
  Definition thin_row (cool1 : bool) (logl : list F) (rows : list (list F)) (i thin : nat) : res str :=
    match nth_error logl thin, nth_error rows i with
    | Some l, Some r =>
        Ok (if cool1 then fixed one ++ fixed l ++ concat (map sci r)
            else sci (cool_weight l) ++ sci (cooled l) ++ concat (map sci r))
    | _, _ => Err IndexError
    end.
  Fixpoint thin_rows (cool1 : bool) (logl : list F) (rows : list (list F)) (i : nat) (ix : list nat) : res (list str) :=
    match ix with
    | [] => Ok []
    | thin :: rest => bindR (thin_row cool1 logl rows i thin) (fun t =>
                      bindR (thin_rows cool1 logl rows (S i) rest) (fun ts => Ok (t :: ts)))
    end.
  Definition writeThinData (cool1 : bool) (logl : list F) (rows : list (list F)) (ix : list nat) : res str :=
    bindR (thin_rows cool1 logl rows 0 ix) (fun ts => Ok (concat ts)).
End Thin.
