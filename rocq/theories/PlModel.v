(** Native version of the binned Planck likelihood, and template of the Sunyaev-Zel'dovich effect for WMAP: source/CMB.f90 27-46, 114-146, 172-190, 193-320.
    Numbers are real; arrays are functions of indices from 1 with their sizes, and reading outside of them is a result of its own.  The words of use_cl,
    the contents of files and the inverse of a matrix are arguments.  Not modelled: reading of files, parameter names, printing, the WMAP likelihood itself. *)
From Coq Require Import Reals ZArith String Bool List.
From Verif Require Import BaoModel.
Import ListNotations.
Local Open Scope R_scope.

(** ** Binned likelihood *)
(** 30-33: first multipole and number of bins of each spectrum *)
Record plik := mkPlik { plmin : nat; nbincl : nat -> nat }.
Definition plik_type : plik := mkPlik 30 (fun i => match i with 1%nat => 215 | _ => 199 end)%nat.
(** 36: TT, TE, EE; 267-269: fields of the spectra *)
Definition cl_name (i : nat) : string := match i with 1%nat => "TT" | 2%nat => "TE" | _ => "EE" end.
Definition pair_of (i : nat) : nat * nat := match i with 1%nat => (1, 1) | 2%nat => (2, 1) | _ => (2, 2) end%nat.
(** contents of the files; [ndat], [nblocks], [nweights], [ncov]: sizes *)
Record pfiles := mkFiles { nblocks : nat; f_min : nat -> nat; f_max : nat -> nat; nweights : nat; f_weights : nat -> R; ndat : nat; f_dat : nat -> R;
                           ncov : nat; f_cov : nat -> nat -> R; f_binary : bool }.
(** 207-211 *)
Definition blmin (p : plik) (f : pfiles) (i : nat) : nat := f_min f i + plmin p.
Definition blmax (p : plik) (f : pfiles) (i : nat) : nat := f_max f i + plmin p.
(** 212-218: weights of multipoles from plmin on *)
Definition weight (p : plik) (f : pfiles) (l : nat) : out R :=
  if Nat.leb (plmin p) l && Nat.ltb l (plmin p + nweights f) then Ok (f_weights f (l - plmin p + 1) * (2 * PI) / INR l / (INR l + 1)) else Undef.
(** 220-232: of a binary file the upper triangle *)
Definition the_cov (f : pfiles) (i j : nat) : R := if f_binary f && Nat.ltb j i then f_cov f j i else f_cov f i j.
(** 233 *)
Definition maxbin (p : plik) : nat := Nat.max (nbincl p 1) (Nat.max (nbincl p 2) (nbincl p 3)).
(** 239-244 *)
Definition in_range (p : plik) (f : pfiles) (lo hi : Z) (i : nat) : bool :=
  let twice := Z.of_nat (blmin p f i + blmax p f i) in Z.leb (2 * lo) twice && Z.leb twice (2 * hi).
(** 234-247: line 246 reads the first and the last of them *)
Definition use_bins (p : plik) (f : pfiles) (range : option (Z * Z)) : out (option (list nat)) :=
  match range with
  | None => Ok None
  | Some (lo, hi) =>
      if Nat.leb (maxbin p) (nblocks f) then
        match filter (in_range p f lo hi) (seq 1 (maxbin p)) with
        | [] => Undef
        | u => Ok (Some u)
        end
      else Undef
  end.
(** 253 *)
Definition is_used (use_cl : list string) (i : nat) : bool := existsb (String.eqb (cl_name i)) use_cl.
(** 254-260 *)
Definition bins_of (p : plik) (use_cl : list string) (u : option (list nat)) (i : nat) : list nat :=
  if is_used use_cl i then
    match u with
    | Some l => filter (fun b => Nat.leb b (nbincl p i)) l
    | None => seq 1 (nbincl p i)
    end
  else [].
(** 263, 282: number of bins of the spectra before *)
Fixpoint offset_of (p : plik) (i : nat) : nat := match i with O | 1%nat => 0 | S k => offset_of p k + nbincl p k end.
(** 271-284 *)
Definition used_indices (p : plik) (bins : nat -> list nat) : list nat :=
  flat_map (fun i => map (fun b => (b + offset_of p i)%nat) (bins i)) [1; 2; 3]%nat.
(** 280: maxval of nothing is the most negative number *)
Definition maxval (l : list nat) : Z := match l with [] => (-2147483648)%Z | x :: r => Z.of_nat (fold_left Nat.max r x) end.
(** 275-281: the highest multipole of a pair of fields *)
Definition cl_lmax (p : plik) (f : pfiles) (use_cl : list string) (bins : nat -> list nat) (a b : nat) : Z :=
  match filter (fun i => is_used use_cl i && (Nat.eqb (fst (pair_of i)) a && Nat.eqb (snd (pair_of i)) b)) [1; 2; 3]%nat with
  | i :: _ => maxval (map (blmax p f) (bins i))
  | [] => 0%Z
  end.
Record plread := mkRead { r_bins : nat -> list nat; r_nused : nat; r_lmax : nat -> nat -> Z; r_data : list R; r_invcov : nat -> nat -> R }.
Definition sub_matrix (M : nat -> nat -> R) (ix : list nat) (a b : nat) : R := M (nth (a - 1) ix 0%nat) (nth (b - 1) ix 0%nat).
(** 193-290; [inv]: Matrix_Inverse of a matrix of a size *)
Definition Plik_ReadIni (p : plik) (inv : nat -> (nat -> nat -> R) -> nat -> nat -> R) (f : pfiles) (use_cl : list string) (range : option (Z * Z)) : out plread :=
  bind (use_bins p f range) (fun u =>
    let bins := bins_of p use_cl u in
    let ix := used_indices p bins in
    if forallb (fun i => forallb (fun b => Nat.leb b (nblocks f)) (bins i)) [1; 2; 3]%nat && forallb (fun k => Nat.leb k (ndat f) && Nat.leb k (ncov f)) ix
    then Ok (mkRead bins (length ix) (cl_lmax p f use_cl bins) (map (f_dat f) ix) (inv (length ix) (sub_matrix (the_cov f) ix)))
    else Undef).

Fixpoint all_of {A B} (g : A -> out B) (l : list A) : out (list B) :=
  match l with [] => Ok [] | x :: r => bind (g x) (fun y => bind (all_of g r) (fun ys => Ok (y :: ys))) end.
Definition sum_list (l : list R) : R := fold_left Rplus l 0.
(** 306-307: the product of the spectrum and the weights over a bin *)
Definition bin_power (p : plik) (f : pfiles) (CL : nat -> nat -> nat -> R) (i b : nat) : out R :=
  let ls := seq (blmin p f b) (blmax p f b + 1 - blmin p f b) in
  bind (all_of (weight p f) ls) (fun ws => Ok (sum_list (map (fun lw => CL (fst (pair_of i)) (snd (pair_of i)) (fst lw) * snd lw) (combine ls ws)))).
(** 292-315; [CL]: spectra of the theory, l(l+1)/2pi times C_l; [cal]: calibration, not 0 *)
Definition Plik_LogLike (p : plik) (f : pfiles) (r : plread) (CL : nat -> nat -> nat -> R) (cal : R) : out R :=
  bind (all_of (fun ib => bin_power p f CL (fst ib) (snd ib)) (flat_map (fun i => map (pair i) (r_bins r i)) [1; 2; 3]%nat)) (fun cl =>
  Ok (QuadForm (r_nused r) (r_invcov r) (fun k => nth (k - 1) (r_data r) 0 - nth (k - 1) cl 0 / cal ^ 2) / 2)).

(** ** Template for WMAP *)
(** 129-146: rows of the file in order; multipoles from 2 to the highest of TT *)
Definition ReadSZTemplate (lmax : nat) (rows : list (nat * R)) (scale : R) : nat -> R :=
  fold_left (fun t r => if Nat.leb 2 (fst r) && Nat.leb (fst r) lmax then (fun l => if Nat.eqb l (fst r) then scale * snd r else t l) else t) rows (fun _ => 0).
(** 114-127: [name_given]: cmb_dataset_SZ is not empty; without it there is neither template nor parameter.  One WMAP likelihood is read at most, so
    that the scale has its first value 1 if there is no setting *)
Definition SZ_ReadParams (name_given : bool) (scale : option R) (lmax : nat) (rows : list (nat * R)) : option (nat -> R) :=
  if name_given then Some (ReadSZTemplate lmax rows (match scale with Some s => s | None => 1 end)) else None.
(** 172-190: the spectrum with the template; [wmap] is the likelihood of WMAP of the spectrum: its terms and whether it is valid *)
Definition WMAP_LogLike (wmap : (nat -> R) -> list R * bool) (t : option (nat -> R)) (CLTT : nat -> R) (dp : list R) : out R :=
  match t, dp with
  | Some sz, a :: _ => let r := wmap (fun l => CLTT l + a * sz l) in if snd r then Ok (sum_list (fst r)) else Undef
  | _, _ => Undef
  end.
