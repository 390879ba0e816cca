(** The Python likelihood of bandpowers: python/CMBlikes.py 49-114 (spectra from files), 117-129 (windows), 152-316 (names, columns, files), 324-501 (readIni), 503-533 (ReadCovmat), 572-588 (theory),
    590-625 (calibration and aberration), 643-719 (approximations and chi-squared).  Exceptions are Stop; inf and nan are Undef.  Real numbers are exact.  Lists and arrays of bins, spectra and windows are
    indexed from 0 as there, with -1 for none; rows and columns of matrices are from 1 as in HlModel (elements_to_matrix adds the 1).  Lists that a setting holds are already split into words;
    files are lists of rows, the integer of the first column and the other columns.  np.linalg.eigh, inv and slogdet are arguments.
    Not modelled: plots, prints, the functions that write files, sqrtm (an argument of the data), relative names of files, negative bin_min. *)
From Coq Require Import Reals ZArith Ascii Bool List.
From Verif Require Import PyStr McmcModel BaoModel MapModel HlModel.
Import ListNotations.
Local Open Scope R_scope.

(** list.index *)
Fixpoint py_index (l : list str) (s : str) : out nat :=
  match l with [] => Stop | x :: l' => if str_eqb x s then Ok O else bind (py_index l' s) (fun k => Ok (S k)) end.
Definition py_in (s : str) (l : list str) : bool := existsb (fun x => str_eqb x s) l.
(** 325-335 *)
Record pmaps := mkPm { pnames : list str; phas : bool; pfields : list nat }.
Definition py_read_maps (field_names map_names map_fields : list str) : out pmaps :=
  match map_names with
  | [] => Ok (mkPm field_names false (seq 0 (length field_names)))
  | _ => if Nat.eqb (length map_fields) (length map_names) then bind (mapM (py_index field_names) map_fields) (fun f => Ok (mkPm map_names true f)) else Stop
  end.
(** 337-344 *)
Definition py_use_fields (field_names : list str) (m : pmaps) (fields_use : list str) : out (nat -> bool) :=
  match fields_use with
  | [] => if phas m then Ok (fun _ => true) else Stop
  | _ => bind (mapM (py_index field_names) fields_use) (fun l => Ok (fun f => existsb (Nat.eqb f) l))
  end.
(** 351-355, 369-373 *)
Fixpoint py_switch (m : pmaps) (l : list bool) (items : list str) : out (list bool) :=
  match items with
  | [] => Ok l
  | s :: items' => if py_in s (pnames m) then bind (py_index (pnames m) s) (fun j => py_switch m (set_nth l j) items') else Stop
  end.
(** 346-373: use_map[:] is a view of the same elements if use_map is an array (with maps_use), and a copy if it is a list: use_map, require_map *)
Definition py_select (field_names : list str) (m : pmaps) (fields_use maps_use required : list str) : out (list bool * list bool) :=
  bind (py_use_fields field_names m fields_use) (fun uf =>
  match maps_use with
  | [] => let use := map uf (pfields m) in bind (py_switch m use required) (fun req => Ok (use, req))
  | _ => bind (py_switch m (map (fun _ => false) (pnames m)) maps_use) (fun use => bind (py_switch m use required) (fun req => Ok (req, req)))
  end).
(** 384-403 *)
Fixpoint py_number (use : list bool) (ix : nat) : list Z :=
  match use with [] => [] | true :: l => Z.of_nat ix :: py_number l (S ix) | false :: l => (-1)%Z :: py_number l ix end.
Definition py_index_of (use : list bool) : list Z := py_number use 0.
Fixpoint py_used_names (names : list str) (use : list bool) : list str :=
  match names, use with x :: names', b :: use' => if b then x :: py_used_names names' use' else py_used_names names' use' | _, _ => [] end.
Definition py_count (use : list bool) : nat := length (filter (fun b => b) use).

(** 155-165; the separator is one character *)
Fixpoint py_split (c : ascii) (s : str) : option (str * str) :=
  match s with [] => None | a :: s' => if ch_eqb a c then Some ([], s') else match py_split c s' with Some (u, v) => Some (a :: u, v) | None => None end end.
Definition py_pair (m : pmaps) (s : str) : out (nat * nat) :=
  bind (match s with
        | [a; b] => if phas m then Stop else Ok ([a], [b])
        | _ => match py_split "x" s with Some p => Ok p | None => Stop end
        end) (fun ab => bind (py_index (pnames m) (fst ab)) (fun i => bind (py_index (pnames m) (snd ab)) (fun j => Ok (i, j)))).
(** 167-174 *)
Definition py_used_pair (m : pmaps) (index : list Z) (s : str) : out (Z * Z) :=
  bind (py_pair m s) (fun p =>
  let i1 := nth (fst p) index (-1)%Z in let i2 := nth (snd p) index (-1)%Z in Ok (if (i1 <? i2)%Z then (i2, i1) else (i1, i2))).
(** the pairs of the loops over i and j <= i *)
Definition py_tri (n : nat) : list (nat * nat) := flat_map (fun i => map (fun j => (i, j)) (seq 0 (i + 1))) (seq 0 n).
(** 176-195 *)
Fixpoint py_col_loop (l : list (nat * nat)) (ix : nat) (p : Z * Z) (r : Z) : Z :=
  match l with
  | [] => r
  | (ii, jj) :: l' => py_col_loop l' (S ix) p (if (Z.of_nat ii =? fst p)%Z && (Z.of_nat jj =? snd p)%Z then Z.of_nat ix else r)
  end.
Definition py_col (n : nat) (p : Z * Z) : Z := if (fst p =? -1)%Z || (snd p =? -1)%Z then (-1)%Z else py_col_loop (py_tri n) 0 p (-1).
Definition py_Cl_i_j (m : pmaps) (index : list Z) (items : list str) : out (list (Z * Z)) := mapM (py_used_pair m index) items.
Definition py_cols (m : pmaps) (nmaps : nat) (index : list Z) (items : list str) : out (list Z) := bind (py_Cl_i_j m index items) (fun l => Ok (map (py_col nmaps) l)).
(** 205-214 *)
Definition py_name (has : bool) (a b : str) : str := if has then a ++ ["x"%char] ++ b else a ++ b.
(** 216-233 *)
Fixpoint py_get_cols (has : bool) (used order : list str) (l : list (nat * nat)) (ix : nat) (cols : nat -> Z) : out (nat -> Z) :=
  match l with
  | [] => Ok cols
  | (i, j) :: l' =>
      let a := nth i used [] in let b := nth j used [] in
      let name := py_name has a b in
      let name := if negb (py_in name order) && negb (Nat.eqb i j) then py_name has b a else name in
      if py_in name order then
        if negb (cols ix =? -1)%Z then Stop else bind (py_index order name) (fun k => py_get_cols has used order l' (S ix) (fun a => if Nat.eqb a ix then Z.of_nat k else cols a))
      else py_get_cols has used order l' (S ix) cols
  end.
Definition py_GetColsFromOrder (has : bool) (used order : list str) : out (nat -> Z) := py_get_cols has used order (py_tri (length used)) 0 (fun _ => (-1)%Z).

(** ** Files *)
(** np.loadtxt gives an array with two indices just if there is more than one row and more than one column; the rows must be of the same length *)
Definition two_d (rows : list (Z * list R)) : bool :=
  match rows with
  | (_, v) :: _ :: _ => Nat.ltb 0 (length v) && forallb (fun r => Nat.eqb (length (snd r)) (length v)) rows
  | _ => false
  end.
(** data[i, c] *)
Definition py_at (l : Z) (vals : list R) (c : Z) : out R :=
  if (c =? 0)%Z then Ok (IZR l) else if Nat.ltb (Z.to_nat (c - 1)) (length vals) then Ok (nth (Z.to_nat (c - 1)) vals 0) else Stop.
(** 250-275: the array has a row for each spectrum and a column for each bin or multipole from bin_min *)
Fixpoint py_set_cols (cols : nat -> Z) (ixs : list nat) (k : nat) (l : Z) (vals : list R) (cl : nat -> nat -> R) : out (nat -> nat -> R) :=
  match ixs with
  | [] => Ok cl
  | ix :: ixs' => if (cols ix =? -1)%Z then py_set_cols cols ixs' k l vals cl
                  else bind (py_at l vals (cols ix)) (fun v => py_set_cols cols ixs' k l vals (fun a b => if Nat.eqb a ix && Nat.eqb b k then v else cl a b))
  end.
Fixpoint py_read_rows (binned : bool) (ncl : nat) (cols : nat -> Z) (bmin bmax : Z) (rows : list (Z * list R)) (last : option Z) (cl : nat -> nat -> R) : out (nat -> nat -> R) :=
  match rows with
  | [] => match last with None => Stop | Some L => if (L <? bmax)%Z then Stop else Ok cl end
  | (l, vals) :: rows' =>
      let L := (if binned then l - 1 else l)%Z in
      bind (if (bmin <=? L)%Z && (L <=? bmax)%Z then py_set_cols cols (seq 0 ncl) (Z.to_nat (L - bmin)) l vals cl else Ok cl) (fun cl' => py_read_rows binned ncl cols bmin bmax rows' (Some L) cl')
  end.
Definition py_ReadClArr (binned has : bool) (used order : list str) (bmin bmax : Z) (rows : list (Z * list R)) : out (nat -> nat -> R) :=
  match order with
  | [] => Stop
  | _ => bind (py_GetColsFromOrder has used order) (fun cols =>
         if two_d rows then py_read_rows binned (length used * (length used + 1) / 2) cols bmin bmax rows None (fun _ _ => 0) else Stop)
  end.

(** ** Windows: 277-300 *)
(** window[i,1:] is assigned to an array of [norder] numbers: one number is used for all of them *)
Definition py_assign (norder : nat) (vals : list R) : out (nat -> R) :=
  if Nat.eqb (length vals) norder then Ok (fun k => nth k vals 0) else if Nat.eqb (length vals) 1 then Ok (fun _ => nth 0 vals 0) else Stop.
Fixpoint py_window_rows (lo hi : Z) (norder : nat) (rows : list (Z * list R)) (Wb : nat -> Z -> R) : out (nat -> Z -> R) :=
  match rows with
  | [] => Ok Wb
  | (l, vals) :: rows' =>
      if (lo <=? l)%Z && (l <=? hi)%Z then bind (py_assign norder vals) (fun f => py_window_rows lo hi norder rows' (fun k a => if (a =? l)%Z then f k else Wb k a))
      else py_window_rows lo hi norder rows' Wb
  end.
Definition py_window (lo hi : Z) (norder : nat) (rows : list (Z * list R)) : out (nat -> Z -> R) := if two_d rows then py_window_rows lo hi norder rows (fun _ _ => 0) else Stop.
(** [pW] is the binning matrix of the used bin; [file] has the files of windows by number *)
Record pwindows := mkPw { plo : Z; phi : Z; pnb : nat; pW : nat -> nat -> Z -> R; pin : list (Z * Z); pout : list Z }.
Definition py_readBinWindows (m : pmaps) (use req : list bool) (lo hi : Z) (bmin : Z) (nb : nat) (in_order out_order : list str) (file : Z -> list (Z * list R)) : out pwindows :=
  bind (py_Cl_i_j m (py_index_of req) in_order) (fun ci =>
  bind (py_cols m (py_count use) (py_index_of use) (match out_order with [] => in_order | _ => out_order end)) (fun co =>
  if Nat.eqb (length ci) (length co) then
    bind (mapM (fun b => py_window lo hi (length ci) (file (Z.of_nat b + 1 + bmin)%Z)) (seq 0 nb)) (fun Ws =>
    Ok (mkPw lo hi nb (fun i b l => nth b Ws (fun _ _ => 0) i l) ci co))
  else Stop)).
(** 123-129: the array has a column up to the last that is written; x and y of -1 are the last row and column *)
Definition py_width (outs : list Z) : out nat :=
  match filter (fun x => (0 <=? x)%Z) outs with [] => Stop | l => Ok (Z.to_nat (fold_right Z.max 0%Z l) + 1)%nat end.
Definition py_wrap (n : nat) (x : Z) : out nat := let y := (if x <? 0 then x + Z.of_nat n else x)%Z in if (0 <=? y)%Z && (y <? Z.of_nat n)%Z then Ok (Z.to_nat y) else Stop.
(** [theory] is there for y <= x *)
Definition py_entry (nreq : nat) (theory : nat -> nat -> Z -> R) (p : Z * Z) : out (option (Z -> R)) :=
  bind (py_wrap nreq (fst p)) (fun x => bind (py_wrap nreq (snd p)) (fun y => Ok (if Nat.leb y x then Some (theory x y) else None))).
Fixpoint py_bin_from (w : pwindows) (nreq : nat) (theory : nat -> nat -> Z -> R) (b : nat) (i : nat) (ins : list (Z * Z)) (outs : list Z) (cls : nat -> R) : out (nat -> R) :=
  match ins, outs with
  | p :: ins', o :: outs' =>
      bind (py_entry nreq theory p) (fun cl =>
      py_bin_from w nreq theory b (S i) ins' outs'
        (match cl with
         | Some C => if (0 <=? o)%Z then fun a => if Nat.eqb a (Z.to_nat o) then cls a + sumL (plo w) (phi w) (fun l => pW w i b l * C l) else cls a else cls
         | None => cls
         end))
  | _, _ => Ok cls
  end.
(** number of columns and the row of the bin *)
Definition py_bin (w : pwindows) (nreq : nat) (theory : nat -> nat -> Z -> R) (b : nat) : out (nat * (nat -> R)) :=
  bind (py_width (pout w)) (fun n => bind (py_bin_from w nreq theory b 0 (pin w) (pout w) (fun _ => 0)) (fun c => Ok (n, c))).
(** 572-576: the sum of arrays needs equal numbers of columns, but one column is used for all; [fid] has [ncl] columns *)
Definition py_binned (w : pwindows) (corr : option (pwindows * (nat -> nat -> R))) (ncl nreq : nat) (theory : nat -> nat -> Z -> R) (b : nat) : out (nat * (nat -> R)) :=
  bind (py_bin w nreq theory b) (fun nc =>
  match corr with
  | None => Ok nc
  | Some (w', fid) =>
      bind (py_bin w' nreq theory b) (fun nc' =>
      if Nat.eqb (fst nc) ncl && (Nat.eqb (fst nc') ncl || Nat.eqb (fst nc') 1)
      then Ok (ncl, fun a => snd nc a + (snd nc' (if Nat.eqb (fst nc') 1 then O else a) - fid a b)) else Stop)
  end).

(** ** Matrices: 235-248; the slices of too short an array end in the IndexError of its last element *)
Fixpoint py_fill (l : list (nat * nat)) (ix : nat) (X : nat -> R) (M : nat -> nat -> R) : nat -> nat -> R :=
  match l with [] => M | (i, j) :: l' => py_fill l' (S ix) X (upd2 (upd2 M (S i) (S j) (X ix)) (S j) (S i) (X ix)) end.
Definition py_elements_to_matrix (nmaps : nat) (len : nat) (X : nat -> R) : out matrix :=
  if Nat.ltb len (length (py_tri nmaps)) then Stop else Ok (py_fill (py_tri nmaps) 0 X (fun _ _ => 0)).
Definition py_matrix_to_elements (nmaps : nat) (M : matrix) : list R := map (fun p => M (S (fst p)) (S (snd p))) (py_tri nmaps).

(** ** Covariance: 503-533.  [size] is the number of rows of the file; 0 is the first row *)
Fixpoint py_used_cols (i : nat) (cs : list Z) : list (nat * nat) :=
  match cs with [] => [] | c :: cs' => if (0 <=? c)%Z then (Z.to_nat c, i) :: py_used_cols (S i) cs' else py_used_cols (S i) cs' end.
Definition py_cl_used (cs : list Z) : list nat := map fst (py_used_cols 0 cs).
Definition py_cov_used (cs : list Z) : list nat := map snd (py_used_cols 0 cs).
Definition py_cov_row (bmin num_in : nat) (used : list nat) (r : nat) : nat := ((r / length used + bmin) * num_in + nth (r mod length used) used 0)%nat.
Definition py_covmat (binned : bool) (size bmin nb : nat) (cs : list Z) (scale : R) (full : nat -> nat -> R) : out (nat -> nat -> R) :=
  if binned then
    let row := py_cov_row bmin (length cs) (py_cov_used cs) in
    if forallb (fun r => Nat.ltb (row r) size) (seq 0 (nb * length (py_cov_used cs))) then Ok (fun r c => scale * full (row r) (row c)) else Stop
  else Stop.

(** ** Noise: 435-442, 456-457, 696-697 *)
Definition py_hat_used (a : approx) (includes_noise : bool) (hat noise : R) : R :=
  if match a with Gaussian => includes_noise | _ => true end then
    if negb includes_noise then hat + noise else match a with Gaussian => hat - noise | _ => hat end
  else hat.
Definition py_has_noise (a : approx) (includes_noise : bool) : bool := match a with Gaussian => includes_noise | _ => true end.
Definition py_with_noise (a : approx) (includes_noise : bool) (C noise : R) : R := if py_has_noise a includes_noise then C + noise else C.

(** ** Approximations: 643-668 *)
Definition py_sign (x : R) : R := if Rlt_dec x 0 then -1 else if Rlt_dec 0 x then 1 else 0.
Definition py_g (x : R) : R := py_sign (x - 1) * sqrt (2 * Rmax 0 (x - ln x - 1)).
Definition py_transform (eigh : diagonalizer) (n : nat) (C Chat Cf : matrix) : out matrix :=
  if Nat.eqb n 1 then
    if Req_EM_T (C 1%nat 1%nat) 0 then Undef else
    let rat := Chat 1%nat 1%nat / C 1%nat 1%nat in
    if Rlt_dec 0 rat then Ok (upd2 C 1 1 (py_g rat * Cf 1%nat 1%nat ^ 2)) else Undef
  else
  let '(U, D) := eigh n C in
  if all_pos n D then
    let rot := mm n (mm n (tr U) Chat) U in
    let rot := fun i j => rot i j / sqrt (D i) / sqrt (D j) in
    let rot := mm n U (mm n rot (tr U)) in
    let '(V, E) := eigh n rot in
    if all_pos n E then
      let U2 := mm n Cf V in
      Ok (mm n (fun i j => U2 i j * py_g (E j)) (tr U2))
    else Undef
  else Undef.
Definition py_exact (inv : nat -> matrix -> option matrix) (slogdet : nat -> matrix -> R) (n : nat) (fsky : R) (C Chat : matrix) (L : Z) : out R :=
  if Nat.eqb n 1 then
    if Req_EM_T (C 1%nat 1%nat) 0 then Undef else
    let rat := Chat 1%nat 1%nat / C 1%nat 1%nat in
    if Rlt_dec 0 rat then Ok (IZR (2 * L + 1) * fsky * (rat - 1 - ln rat)) else Undef
  else match inv n C with
       | None => Stop
       | Some Ci => let M := mm n Ci Chat in Ok (IZR (2 * L + 1) * fsky * (sum1 n (fun i => M i i) - INR n - slogdet n M))
       end.

(** ** chi-squared: 670-719.  [theory] gives the matrix of the used bin; [pinc]: cl_hat_includes_noise; the calibration parameter is None if data_params has none *)
Record pdata := mkPd { pn : nat; plike : approx; pinc : bool; pbinned : bool; pbmin : Z; pbins : nat; pnoise : nat -> matrix; phat : nat -> matrix; pcf : nat -> matrix; pused : list nat; pcovinv : matrix; pfsky : R }.
Definition py_noisy (d : pdata) (C : matrix) (b : nat) : matrix := fun i j => py_with_noise (plike d) (pinc d) (C i j) (pnoise d b i j).
Definition py_vector (eigh : diagonalizer) (d : pdata) (C : matrix) (b : nat) : out (list R) :=
  bind (match plike d with
        | HL => py_transform eigh (pn d) (py_noisy d C b) (phat d b) (pcf d b)
        | _ => Ok (fun i j => py_noisy d C b i j - phat d b i j)
        end) (fun C' => Ok (map (fun c => nth c (py_matrix_to_elements (pn d) C') 0) (pused d))).
(** covinv.dot(x).dot(x) *)
Definition py_quad (n : nat) (M : matrix) (x : nat -> R) : R := sum1 n (fun i => sum1 n (fun j => M i j * x j) * x i).
Definition py_chisq (eigh : diagonalizer) (inv : nat -> matrix -> option matrix) (slogdet : nat -> matrix -> R) (d : pdata) (theory : nat -> out matrix) : out R :=
  match plike d with
  | Exact => bind (mapM (fun b => bind (theory b) (fun C => py_exact inv slogdet (pn d) (pfsky d) (py_noisy d C b) (phat d b) (pbmin d + Z.of_nat b))) (seq 0 (pbins d))) (fun l => Ok (fold_right Rplus 0 l))
  | _ => bind (mapM (fun b => bind (theory b) (fun C => py_vector eigh d C b)) (seq 0 (pbins d))) (fun vs =>
         let X := concat vs in Ok (py_quad (length X) (pcovinv d) (fun i => nth (i - 1) X 0)))
  end.
Definition py_chi_squared (eigh : diagonalizer) (inv : nat -> matrix -> option matrix) (slogdet : nat -> matrix -> R) (d : pdata) (theory : nat -> out matrix) (cal : option R) (prior : R) : out R :=
  bind (py_chisq eigh inv slogdet d theory) (fun c =>
  if Rlt_dec 0 prior then match cal with Some x => if Rlt_dec 0 x then Ok (c + (ln x / prior) ^ 2) else Undef | None => Stop end else Ok c).

(** ** Theory for maps: 197-203, 111-114, 578-588.  Arrays of spectra begin at multipole 0 *)
Definition py_theory_ij (f g : nat) : nat * nat := if Nat.leb f g then (f, g) else (g, f).
Definition py_get {A} (cls : nat -> nat -> A) (p : nat * nat) : A := let '(i, j) := p in if Nat.ltb i j then cls j i else cls i j.
(** CL[:] = cls[lmin:lmax+1]: of the right length, or of length 1 *)
Definition py_slice (lmin lmax : Z) (cls : list R) : out (Z -> R) :=
  let len := Nat.min (length cls - Z.to_nat lmin) (Z.to_nat (lmax + 1) - Z.to_nat lmin) in
  if Nat.eqb len (Z.to_nat (lmax - lmin + 1)) then Ok (fun l => nth (Z.to_nat l) cls 0) else if Nat.eqb len 1 then Ok (fun _ => nth (Z.to_nat lmin) cls 0) else Stop.
Definition py_map_theory (fields : nat -> nat) (cls : nat -> nat -> option (list R)) (lmin lmax : Z) (i j : nat) : out (Z -> R) :=
  match py_get cls (py_theory_ij (fields i) (fields j)) with Some c => py_slice lmin lmax c | None => Ok (fun _ => 0) end.
(** 604-625, for one spectrum *)
Definition py_aberration (a : R) (lmin lmax : Z) (D : Z -> R) : out (Z -> R) :=
  if (lmin <=? 0)%Z then Undef else
  let c0 l := D l / IZR (l * (l + 1)) in
  let c1 l := if (lmin <? l)%Z && (l <? lmax)%Z then (c0 (l + 1)%Z - c0 (l - 1)%Z) / 2 else c0 l in
  if (lmax <=? lmin)%Z then Stop else
  let c2 l := if (l =? lmin)%Z then c1 (lmin + 1)%Z else c1 l in
  let c3 l := if (l =? lmax)%Z then c2 (lmax - 1)%Z else c2 l in
  Ok (fun l => D l + a * (c3 l * IZR (l * (l + 1)) * IZR l)).
(** 590-602: the fields are from 0; add_foregrounds does nothing *)
Definition py_adapt (a : R) (cal : option R) (lmin lmax : Z) (f g : nat) (D : Z -> R) : out (Z -> R) :=
  let cmb := Nat.leb f 2 && Nat.leb g 2 in
  bind (if (if Req_EM_T a 0 then false else true) && cmb then py_aberration a lmin lmax D else Ok D) (fun D' =>
  match cal with
  | Some c => if cmb then (if Req_EM_T c 0 then Undef else Ok (fun l => D' l / c ^ 2)) else Ok D'
  | None => Ok D'
  end).

(** ** Spectra from files: 79-106 *)
Record cls_array := mkCls { alo : Z; ahi : Z; arr : nat -> nat -> option (list R) }.
(** the column of a pair of fields, in either order *)
Definition py_column (cols : list str) (f f2 : str) : option nat := match py_index cols (f ++ f2) with Ok k => Some k | _ => match py_index cols (f2 ++ f) with Ok k => Some k | _ => None end end.
(** cls[lmin:lmax+1] = dat[:, ix] in an array of zeros of [len], then its first elements *)
Definition py_place (len : nat) (lmin lmax : Z) (col : list R) (keep : nat) : out (list R) :=
  let n := (Nat.min (Z.to_nat (lmax + 1)) len - Z.to_nat lmin)%nat in
  if Nat.eqb (length col) n then Ok (firstn keep (repeat 0 (Z.to_nat lmin) ++ col ++ repeat 0 (len - (Z.to_nat lmin + n)))) else
  if Nat.eqb (length col) 1 then Ok (firstn keep (repeat 0 (Z.to_nat lmin) ++ repeat (nth 0 col 0) n ++ repeat 0 (len - (Z.to_nat lmin + n)))) else Stop.
Fixpoint py_load_pairs (field_names cols : list str) (dat : nat -> list R) (add_only : bool) (top lmin lmax : Z) (l : list (nat * nat)) (A : nat -> nat -> option (list R)) : out (nat -> nat -> option (list R)) :=
  match l with
  | [] => Ok A
  | (i, j) :: l' =>
      if add_only && match A i j with Some _ => true | None => false end then py_load_pairs field_names cols dat add_only top lmin lmax l' A else
      match py_column cols (nth i field_names []) (nth j field_names []) with
      | None => py_load_pairs field_names cols dat add_only top lmin lmax l' A
      | Some ix => bind (py_place (Z.to_nat (Z.max (top + 1) (lmax + 1))) lmin lmax (dat ix) (Z.to_nat (top + 1))) (fun c =>
                   py_load_pairs field_names cols dat add_only top lmin lmax l' (fun a b => if Nat.eqb a i && Nat.eqb b j then Some c else A a b))
      end
  end.
(** [L] is the column of multipoles, [dat] the columns *)
Definition py_load (field_names cols : list str) (L : list Z) (dat : nat -> list R) (add_only : bool) (A : cls_array) : out cls_array :=
  match L with
  | [] => Stop
  | lmin :: _ =>
      let lmax := last L lmin in
      let lo := if add_only then alo A else lmin in let hi := if add_only then ahi A else lmax in
      bind (py_load_pairs field_names cols dat add_only hi lmin lmax (py_tri (length field_names)) (arr A)) (fun A' => Ok (mkCls lo hi A'))
  end.
