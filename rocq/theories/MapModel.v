(** Maps, spectra, windows and covariance of the likelihoods of bandpowers: source/CMBlikes.f90 134-369 (names and columns), 371-420 (window files), 483-604 (what selects maps), 662-669,
    753-860 (covariance), 918-966 (matrices), 982-996, 1227, 1242-1268 (windows).  Names are lists of characters; the lists that a setting or a comment holds are already split into words.
    Files are lists of rows of numbers.  Real numbers are exact; arrays are functions of indices from 1 (multipoles and bins are integers), and reads outside of them are the result Undef.
    Ini%Read of a library leaves its variable if there is no key.  Not modelled: printing and warnings, MPI, relative names of files, the reading of fix_cl_file (the fixed spectra are an argument). *)
From Coq Require Import Reals ZArith Ascii Bool List.
From Verif Require Import PyStr McmcModel BaoModel.
Import ListNotations.
Local Open Scope R_scope.

(** ObjectLists.f90 921-934: index from 1 of the first equal item *)
Fixpoint index_from (k : nat) (l : list str) (s : str) : option nat :=
  match l with [] => None | x :: l' => if str_eqb x s then Some k else index_from (S k) l' s end.
Definition IndexOf : list str -> str -> option nat := index_from 1.
(** [fields] is the theory field of each map *)
Record maps := mkMaps { names : list str; named : bool; fields : list nat }.
(** CosmologyTypes.f90 23, 72: CMB_CL_Fields *)
Definition CMB_CL_Fields : list ascii := ["T"; "E"; "B"; "P"]%char.
(** 134-144 *)
Fixpoint char_index (k : nat) (l : list ascii) (c : ascii) : out nat :=
  match l with [] => Stop | x :: l' => if ch_eqb x c then Ok k else char_index (S k) l' c end.
Definition TypeIndex : ascii -> out nat := char_index 1 CMB_CL_Fields.
(** TStringList_CharAt of a word, that is never empty *)
Definition first_char (s : str) : out ascii := match s with [] => Undef | c :: _ => Ok c end.
Fixpoint mapM {A B} (f : A -> out B) (l : list A) : out (list B) :=
  match l with [] => Ok [] | x :: l' => bind (f x) (fun y => bind (mapM f l') (fun t => Ok (y :: t))) end.
(** 483-505: without map_names there is a map for each field *)
Definition field_of (s : str) : out nat := bind (first_char s) TypeIndex.
Definition read_maps (map_names map_fields : list str) : out maps :=
  match map_names with
  | [] => Ok (mkMaps (map (fun c => [c]) CMB_CL_Fields) false [1; 2; 3; 4]%nat)
  | _ => if Nat.eqb (length map_fields) (length map_names) then bind (mapM field_of map_fields) (fun f => Ok (mkMaps map_names true f)) else Stop
  end.
(** ** Which maps are used: 507-560 *)
Fixpoint set_nth (l : list bool) (j : nat) : list bool :=
  match l, j with [], _ => [] | _ :: l', O => true :: l' | b :: l', S j' => b :: set_nth l' j' end.
Fixpoint switch_on (m : maps) (l : list bool) (items : list str) : out (list bool) :=
  match items with
  | [] => Ok l
  | s :: items' => match IndexOf (names m) s with Some j => switch_on m (set_nth l (j - 1)) items' | None => Stop end
  end.
Definition use_fields (m : maps) (fields_use : list str) : out (nat -> bool) :=
  match fields_use with
  | [] => if named m then Ok (fun _ => true) else Stop
  | _ => bind (mapM field_of fields_use) (fun l => Ok (fun f => existsb (Nat.eqb f) l))
  end.
Definition select (m : maps) (fields_use maps_use required : list str) : out (list bool * list bool) :=
  bind (use_fields m fields_use) (fun uf =>
  bind (match maps_use with [] => Ok (map uf (fields m)) | _ => switch_on m (map (fun _ => false) (names m)) maps_use end) (fun use =>
  bind (match required with [] => Ok use | _ => switch_on m use required end) (fun req => Ok (use, req)))).
(** 574-594: map_used_index, used_map_order; the same for required maps *)
Fixpoint number_used (use : list bool) (ix : nat) : list nat :=
  match use with [] => [] | true :: l => S ix :: number_used l (S ix) | false :: l => O :: number_used l ix end.
Definition used_index (use : list bool) (i : nat) : nat := nth (i - 1) (number_used use 0) O.
Fixpoint order_from (k : nat) (use : list bool) : list nat :=
  match use with [] => [] | true :: l => k :: order_from (S k) l | false :: l => order_from (S k) l end.
Definition order_used : list bool -> list nat := order_from 1.
Definition used_names (m : maps) (use : list bool) : list str := map (fun i => nth (i - 1) (names m) []) (order_used use).
(** 561-566, 662-669: cl_lmax *)
Definition required_field (m : maps) (req : list bool) (f : nat) : bool := existsb (fun i => Nat.eqb (nth (i - 1) (fields m) O) f) (order_used req).
Definition cl_lmax (m : maps) (req : list bool) (lmax : Z) (i j : nat) : Z :=
  if (Nat.eqb i j && Nat.leb 1 i && Nat.leb i 4 && required_field m req i) || (Nat.eqb i 2 && Nat.eqb j 1 && required_field m req 1 && required_field m req 2) then lmax else 0%Z.

(** ** Names of spectra *)
(** scan of the first x *)
Fixpoint split_x (s : str) : option (str * str) :=
  match s with [] => None | c :: s' => if ch_eqb c "x" then Some ([], s') else match split_x s' with Some (a, b) => Some (c :: a, b) | None => None end end.
(** 195-213 *)
Definition pair_indices (m : maps) (s : str) : out (nat * nat) :=
  bind (if Nat.eqb (length s) 2 then if named m then Stop else Ok (firstn 1 s, skipn 1 s) else match split_x s with Some p => Ok p | None => Stop end) (fun ab =>
  match IndexOf (names m) (fst ab), IndexOf (names m) (snd ab) with Some i, Some j => Ok (i, j) | _, _ => Stop end).
(** 215-231 *)
Definition used_pair (m : maps) (index : nat -> nat) (s : str) : out (nat * nat) :=
  bind (pair_indices m s) (fun p => let i := index (fst p) in let j := index (snd p) in Ok (if Nat.ltb i j then (j, i) else (i, j))).
(** the pairs in the order of the loops over i and j <= i *)
Definition tri (n : nat) : list (nat * nat) := flat_map (fun i => map (fun j => (i, j)) (seq 1 i)) (seq 1 n).
Definition pair_eqb (p q : nat * nat) : bool := Nat.eqb (fst p) (fst q) && Nat.eqb (snd p) (snd q).
(** 245-258: the loops set the column for each pair that is equal *)
Fixpoint number (l : list (nat * nat)) (ix : nat) (p : nat * nat) (r : nat) : nat :=
  match l with [] => r | q :: l' => number l' (S ix) p (if pair_eqb q p then S ix else r) end.
Definition col_of (n : nat) (p : nat * nat) : nat := if Nat.eqb (fst p) 0 || Nat.eqb (snd p) 0 then O else number (tri n) 0 p 0.
(** 234-260, 262-281 *)
Definition Cl_i_j (m : maps) (index : nat -> nat) (items : list str) : out (list (nat * nat)) := mapM (used_pair m index) items.
Definition cols (m : maps) (nmaps : nat) (index : nat -> nat) (items : list str) : out (list nat) := bind (Cl_i_j m index items) (fun l => Ok (map (col_of nmaps) l)).
(** 319-343 *)
Definition pair_name (isnamed : bool) (a b : str) : str := if isnamed then a ++ "x"%char :: b else a ++ b.
(** 345-369: indices from 1, 0 if there is no column *)
Definition col_in (isnamed : bool) (used : list str) (order : list str) (p : nat * nat) : nat :=
  let a := nth (fst p - 1) used [] in let b := nth (snd p - 1) used [] in
  match IndexOf order (pair_name isnamed a b) with
  | Some k => k
  | None => if Nat.eqb (fst p) (snd p) then O else match IndexOf order (pair_name isnamed b a) with Some k => k | None => O end
  end.
Fixpoint get_cols (isnamed : bool) (used order : list str) (l : list (nat * nat)) (ix : nat) (cols : nat -> nat) : out (nat -> nat) :=
  match l with
  | [] => Ok cols
  | p :: l' => match col_in isnamed used order p with
               | O => get_cols isnamed used order l' (S ix) cols
               | k => if Nat.ltb 0 (cols ix) then Stop else get_cols isnamed used order l' (S ix) (upd cols ix k)
               end
  end.
Definition GetColsFromOrder (isnamed : bool) (used : list str) (order : list str) : out (nat -> nat) := get_cols isnamed used order (tri (length used)) 1 (fun _ => O).

(** ** Spectra from files: 146-193 *)
Definition table := nat -> Z -> R.
(** the columns of one row; [vals] are the numbers after the first *)
Fixpoint set_cols (cols : nat -> nat) (ixs : list nat) (l : Z) (vals : list R) (Cl : table) : out table :=
  match ixs with
  | [] => Ok Cl
  | ix :: ixs' => if Nat.eqb (cols ix) 0 then set_cols cols ixs' l vals Cl
                  else bind (lookup (length vals) (fun k => nth (k - 1) vals 0) (cols ix - 1)) (fun v =>
                       set_cols cols ixs' l vals (fun a b => if Nat.eqb a ix && (b =? l)%Z then v else Cl a b))
  end.
Fixpoint read_rows (norder ncl : nat) (cols : nat -> nat) (bmin bmax : Z) (rows : list (Z * list R)) (ll : option Z) (Cl : table) : out table :=
  match rows with
  | [] => match ll with None => Undef | Some l => if (l <? bmax)%Z then Stop else Ok Cl end
  | (l, vals) :: rows' =>
      if Nat.ltb (length vals) norder then Stop else
      bind (if (bmin <=? l)%Z && (l <=? bmax)%Z then set_cols cols (seq 1 ncl) l (firstn norder vals) Cl else Ok Cl) (fun Cl' => read_rows norder ncl cols bmin bmax rows' (Some l) Cl')
  end.
(** [order] with the word for the first column *)
Definition ReadClArr (isnamed : bool) (used : list str) (order : list str) (bmin bmax : Z) (rows : list (Z * list R)) : out table :=
  match order with
  | [] => Stop
  | _ => bind (GetColsFromOrder isnamed used order) (fun cols => read_rows (length order - 1) (length used * (length used + 1) / 2) cols bmin bmax rows None (fun _ _ => 0))
  end.

(** ** Elements and matrices: 918-932, 951-966 *)
Definition upd2 (M : nat -> nat -> R) (i j : nat) (x : R) (a b : nat) : R := if Nat.eqb a i && Nat.eqb b j then x else M a b.
Fixpoint fill (l : list (nat * nat)) (ix : nat) (X : nat -> R) (M : nat -> nat -> R) : nat -> nat -> R :=
  match l with [] => M | (i, j) :: l' => fill l' (S ix) X (let M' := upd2 M i j (X ix) in upd2 M' j i (M' i j)) end.
Definition ElementsToMatrix (n : nat) (X : nat -> R) : nat -> nat -> R := fill (tri n) 1 X (fun _ _ => 0).
Definition MatrixToElements (n : nat) (M : nat -> nat -> R) : list R := map (fun p => M (fst p) (snd p)) (tri n).

(** ** Windows: 371-420, 1242-1268 *)
(** a spectrum that may not be allocated *)
Definition spectrum := option (Z -> R).
Definition sumL (lo hi : Z) (f : Z -> R) : R := sum1 (Z.to_nat (hi - lo + 1)) (fun k => f (lo + Z.of_nat k - 1)%Z).
(** [W] for the multipole, the number of the window and the bin; [fixCls] if allocated *)
Record windows := mkWin { wlo : Z; whi : Z; W : Z -> nat -> Z -> R; cols_in : list (nat * nat); cols_out : list nat; fixCls : option (nat -> nat -> spectrum) }.
Fixpoint bin_from (w : windows) (nreq : nat) (theory : nat -> nat -> spectrum) (bin : Z) (k : nat) (ins : list (nat * nat)) (outs : list nat) (Cls : nat -> R) : out (nat -> R) :=
  match ins, outs with
  | (i, j) :: ins', o :: outs' =>
      if Nat.eqb o 0 then bin_from w nreq theory bin (S k) ins' outs' Cls else
      if Nat.leb 1 i && Nat.leb i nreq && Nat.leb 1 j && Nat.leb j nreq then
        let add C := fun a => if Nat.eqb a o then Cls a + sumL (wlo w) (whi w) (fun l => W w l k bin * C l) else Cls a in
        let Cls' := match match fixCls w with Some F => F i j | None => None end with
                    | Some C => add C
                    | None => match theory i j with Some C => add C | None => Cls end
                    end in
        bin_from w nreq theory bin (S k) ins' outs' Cls'
      else Undef
  | _, _ => Ok Cls
  end.
Definition bin_window (w : windows) (nreq : nat) (theory : nat -> nat -> spectrum) (bin : Z) : out (nat -> R) :=
  bin_from w nreq theory bin 1 (cols_in w) (cols_out w) (fun _ => 0).
(** 982-996 *)
Definition GetBinnedMapCls (w : windows) (corr : option (windows * (nat -> R))) (nmaps nreq : nat) (theory : nat -> nat -> spectrum) (bin : Z) : out (nat -> nat -> R) :=
  bind (bin_window w nreq theory bin) (fun Cls =>
  bind (match corr with None => Ok Cls | Some (w', fid) => bind (bin_window w' nreq theory bin) (fun c => Ok (fun a => Cls a + (c a - fid a))) end) (fun Cls' =>
  Ok (ElementsToMatrix nmaps Cls'))).
(** 399-416: rows of the file of one bin *)
Fixpoint read_window (lo hi : Z) (norder : nat) (rows : list (Z * list R)) (Wb : Z -> nat -> R) : out (Z -> nat -> R) :=
  match rows with
  | [] => Ok Wb
  | (l, vals) :: rows' => if Nat.ltb (length vals) norder then Stop else
      read_window lo hi norder rows' (if (lo <=? l)%Z && (l <=? hi)%Z then fun a k => if (a =? l)%Z then nth (k - 1) vals 0 else Wb a k else Wb)
  end.
Fixpoint read_windows (lo hi : Z) (norder : nat) (files : list (Z * list (Z * list R))) (Wf : Z -> nat -> Z -> R) : out (Z -> nat -> Z -> R) :=
  match files with
  | [] => Ok Wf
  | (b, rows) :: files' => bind (read_window lo hi norder rows (fun _ _ => 0)) (fun Wb => read_windows lo hi norder files' (fun l k b' => if (b' =? b)%Z then Wb l k else Wf l k b'))
  end.
Definition ReadBinWindows (m : maps) (use req : list bool) (lo hi : Z) (in_order out_order : list str) (files : list (Z * list (Z * list R))) : out windows :=
  bind (Cl_i_j m (used_index req) in_order) (fun ci =>
  bind (cols m (length (order_used use)) (used_index use) (match out_order with [] => in_order | _ => out_order end)) (fun co =>
  if Nat.eqb (length ci) (length co) then
    bind (read_windows lo hi (length ci) files (fun _ _ _ => 0)) (fun Wf => Ok (mkWin lo hi Wf ci co None))
  else Stop)).

(** ** Covariance: 753-860 *)
(** cl_use_index and cov_cl_used *)
Fixpoint used_cols (k : nat) (cs : list nat) : list (nat * nat) :=
  match cs with [] => [] | O :: cs' => used_cols (S k) cs' | c :: cs' => (c, k) :: used_cols (S k) cs' end.
Definition cl_use_index (cs : list nat) : list nat := map fst (used_cols 1 cs).
Definition cov_cl_used (cs : list nat) : list nat := map snd (used_cols 1 cs).
(** 762, 769, 801: the variable is initialized where it is declared, so it is saved between calls *)
Definition scale_read (saved : R) (key : option R) : R := match key with Some x => x | None => saved end.
Definition upto (lo hi : Z) : list Z := map (fun k => (lo + Z.of_nat k)%Z) (seq 0 (Z.to_nat (hi - lo + 1))).
Definition quads (lo hi : Z) (n : nat) : list ((Z * nat) * (Z * nat)) := let l := list_prod (upto lo hi) (seq 1 n) in list_prod l l.
(** the position of the k-th used spectrum of a bin *)
Definition place (lo : Z) (n : nat) (b : Z) (k : nat) : nat := (Z.to_nat (b - lo) * n + k)%nat.
(** 789-796 for bins, 811-822 for multipoles: rows of [Cov] are spectra in bins, or multipoles in spectra *)
Definition row_binned (num_in : nat) (used : list nat) (b : Z) (k : nat) : nat := (Z.to_nat (b - 1) * num_in + nth (k - 1) used O)%nat.
Definition row_unbinned (lmin lmax : Z) (used : list nat) (l : Z) (k : nat) : nat := ((nth (k - 1) used O - 1) * Z.to_nat (lmax - lmin + 1) + Z.to_nat (l - lmin + 1))%nat.
Definition set_cov (row : Z -> nat -> nat) (lo hi : Z) (n : nat) (scale : R) (Cov : nat -> nat -> R) : nat -> nat -> R :=
  fold_left (fun M q => upd2 M (place lo n (fst (fst q)) (snd (fst q))) (place lo n (fst (snd q)) (snd (snd q)))
    (scale * Cov (row (fst (fst q)) (snd (fst q))) (row (fst (snd q)) (snd (snd q))))) (quads lo hi n) (fun _ _ => 0).
Definition covmat (binned : bool) (lmin lmax lo hi : Z) (cs : list nat) (scale : R) (Cov : nat -> nat -> R) : nat -> nat -> R :=
  let used := cov_cl_used cs in
  set_cov (if binned then row_binned (length cs) used else row_unbinned lmin lmax used) lo hi (length used) scale Cov.
(** several data sets, one after the other: what covmat_scale is for each of them *)
Fixpoint scales (saved : R) (keys : list (option R)) : list R :=
  match keys with [] => [] | k :: keys' => let s := scale_read saved k in s :: scales s keys' end.
(** 1227: elements of the vector for one bin *)
Definition vec_bin (cs : list nat) (X : list R) : list R := map (fun c => nth (c - 1) X 0) (cl_use_index cs).
