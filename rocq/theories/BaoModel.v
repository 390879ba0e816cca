(** Likelihoods of baryon acoustic oscillations: source/bao.f90 115-432, Hofz_Hunit of source/Calculator_Cosmology.f90 and Matrix_QuadForm,
    Matrix_MulVecSymm of source/Matrix_utils_new.f90 2033-2047, 2134-2174.  Real numbers are exact (constants of single precision have the
    value that they have in single precision); arrays are functions of indices from 1 with their sizes, and reading outside of them or
    reading a variable that was never set is a result of its own.  Not modelled: printing, opening of files, and the splitting of a text into numbers and words. *)
From Coq Require Import Reals Bool List.
From Verif Require Import McmcModel.
Import ListNotations.
Local Open Scope R_scope.

Inductive out (A : Type) := Ok (a : A) | Stop | Undef.
Arguments Ok {A} a. Arguments Stop {A}. Arguments Undef {A}.
Definition bind {A B} (x : out A) (f : A -> out B) : out B := match x with Ok a => f a | Stop => Stop | Undef => Undef end.
Definition lookup {A} (n : nat) (f : nat -> A) (i : nat) : out A := if Nat.leb 1 i && Nat.leb i n then Ok (f i) else Undef.
Definition value_of {A} (x : option A) : out A := match x with Some a => Ok a | None => Undef end.

(** ** Distances *)
(** what the likelihood gets from the calculator: D_v, D_A in Mpc and H in 1/Mpc at a redshift, and f sigma_8 of the theory *)
Record calc := mkCalc { D_v : R -> R; D_A : R -> R; Hofz : R -> R; growth : R -> R }.
Definition const_c : R := 299792458.
(** Calculator_Cosmology.f90, Hofz_Hunit: in km/s/Mpc *)
Definition Hofz_Hunit (k : calc) (z : R) : R := const_c * Hofz k z / 1000.
(** CMB%omv, CMB%omk, CMB%h0 *)
Record cmbp := mkCmbp { omv : R; omk : R; h0 : R }.
(** 239-250 *)
Definition get_rs_drag (fixed_rs rdrag : R) : R := if Rlt_dec 0 fixed_rs then fixed_rs else rdrag.
(** 252-265 *)
Definition Acoustic (k : calc) (P : cmbp) (z : R) : R :=
  let omegam := 1 - omv P - omk P in
  let h := h0 P / 100 in
  let ckm := const_c / 1000 in
  let omh2 := omegam * (h * h) in
  100 * D_v k z * sqrt omh2 / (ckm * z).
(** 30-35 *)
Inductive mtype := bao_Az | bao_DV_over_rs | bao_rs_over_DV | bao_DA_over_rs | F_AP | f_sigma8 | bao_Hz_rs | bao_Hz_rs_103 | dilation | bao_DM_over_rs.
(** 280-302 *)
Definition theory1 (k : calc) (P : cmbp) (rs z : R) (t : mtype) : out R :=
  match t with
  | bao_DV_over_rs => Ok (D_v k z / rs)
  | bao_Hz_rs => Ok (Hofz_Hunit k z * rs)
  | bao_Hz_rs_103 => Ok (Hofz_Hunit k z * rs * (1 / 1000))
  | bao_rs_over_DV => Ok (rs / D_v k z)
  | bao_Az => Ok (Acoustic k P z)
  | bao_DA_over_rs => Ok (D_A k z / rs)
  | bao_DM_over_rs => Ok ((1 + z) * D_A k z / rs)
  | F_AP => Ok ((1 + z) * D_A k z * Hofz k z)
  | f_sigma8 => Ok (growth k z)
  | dilation => Stop
  end.
(** ** Gaussian likelihood *)
(** Matrix_utils_new.f90 2033-2047 with DSYMV('U'): only the upper triangle is read *)
Definition sum1 (n : nat) (f : nat -> R) : R := fold_left (fun s i => s + f i) (seq 1 n) 0.
Definition MulVecSymm (n : nat) (M : nat -> nat -> R) (v : nat -> R) (i : nat) : R := sum1 n (fun j => M (Nat.min i j) (Nat.max i j) * v j).
Definition QuadForm (n : nat) (M : nat -> nat -> R) (v : nat -> R) : R := sum1 n (fun i => v i * MulVecSymm n M v i).
(** what ReadIni leaves: values that were never set are None *)
Record bao := mkBao { num : nat; rescale : R; zs : nat -> R; obs : nat -> option R; err : nat -> option R; typ : nat -> option mtype }.
(** 278-303: the values for the points of a list of indices, in order *)
Fixpoint theories (k : calc) (P : cmbp) (rs : R) (b : bao) (js : list nat) : out (list R) :=
  match js with
  | [] => Ok []
  | j :: js' => bind (value_of (typ b j)) (fun t => bind (theory1 k P rs (zs b j) t) (fun y => bind (value_of (obs b j)) (fun o =>
                bind (theories k P rs b js') (fun l => Ok (y - o :: l)))))
  end.
(** 267-310 *)
Definition BAO_LnLike (k : calc) (P : cmbp) (fixed_rs rdrag : R) (b : bao) (invcov : nat -> nat -> R) : out R :=
  let rs := get_rs_drag fixed_rs rdrag * rescale b in
  bind (theories k P rs b (seq 1 (num b))) (fun d => Ok (QuadForm (num b) invcov (fun i => nth (i - 1) d 0) / 2)).
(** 213-236: the matrix of bao_invcov_file, that of bao_cov_file inverted ([inverse] is Matrix_Inverse), or the errors *)
Inductive covfile := Invcov (M : nat -> nat -> R) | Cov (M : nat -> nat -> R) | NoFile.
Fixpoint all_set {A} (f : nat -> option A) (js : list nat) : bool :=
  match js with [] => true | j :: js' => match f j with Some _ => all_set f js' | None => false end end.
Definition InitProbDist (inverse : (nat -> nat -> R) -> nat -> nat -> R) (c : covfile) (b : bao) : out (nat -> nat -> R) :=
  match c with
  | Invcov M => Ok M
  | Cov M => Ok (inverse M)
  | NoFile => if all_set (err b) (seq 1 (num b)) then
                Ok (fun i j => if Nat.eqb i j then match err b i with Some e => 1 / (e * e) | None => 0 end else 0)
              else Undef
  end.
(** ** Reading the data set *)
(** a word of a line of the file of measurements *)
Inductive word := Num (x : R) | Name (t : option mtype).
(** 174-190: one line; a name that is no type of measurement stops (EnumerationValue) *)
Record point := mkPt { pz : R; pobs : R; perr : option R; ptyp : option mtype }.
Definition read_line (haserror hastype : bool) (l : list word) : out point :=
  match haserror, hastype, l with
  | true, true, Num z :: Num o :: Num e :: _ => Ok (mkPt z o (Some e) None)
  | true, false, Num z :: Num o :: Num e :: Name (Some t) :: _ => Ok (mkPt z o (Some e) (Some t))
  | false, true, Num z :: Num o :: _ => Ok (mkPt z o None None)
  | false, false, Num z :: Num o :: Name (Some t) :: _ => Ok (mkPt z o None (Some t))
  | _, _, _ => Stop
  end.
(** 172-195: as many lines as there are points *)
Fixpoint read_lines (haserror hastype : bool) (n : nat) (ls : list (list word)) : out (list point) :=
  match n, ls with
  | O, _ => Ok []
  | S _, [] => Stop
  | S n', l :: ls' => bind (read_line haserror hastype l) (fun p => bind (read_lines haserror hastype n' ls') (fun ps => Ok (p :: ps)))
  end.
(** the settings: num_bao, rs_rescale, measurement_type (a list of num_bao types, or no key), and either zeff with its numbers and the
    number that Read_Double finds, with the numbers of bao_measurement, or the file of measurements *)
Inductive source := Zeff (zl : list R) (z1 : R) (meas : list R) | DataFile (haserror : bool) (ls : list (list word)).
Record ini := mkIni { inum : nat; irescale : R; itypes : option (list mtype); isource : source }.
Definition entry {A} (l : list A) (i : nat) : option A := match i with O => None | S k => nth_error l k end.
Definition entry0 (l : list R) (i : nat) : R := match entry l i with Some x => x | None => 0 end.
Definition is_dilation (t : mtype) : bool := match t with dilation => true | _ => false end.
Definition types_of (n : nat) (t : option (list mtype)) : nat -> option mtype := fun i => match t with Some l => entry l i | None => None end.
(** 154-167 *)
Definition read_zeff (I : ini) (zl : list R) (z1 : R) (meas : list R) : out bao :=
  let n := inum I in
  let z := fun i => if Nat.leb n (length zl) then entry0 zl i else z1 in
  let ty := types_of n (itypes I) in
  bind (value_of (ty 1%nat)) (fun t1 =>
    if is_dilation t1 then Ok (mkBao n (irescale I) z (fun _ => None) (fun _ => None) ty)
    else if Nat.ltb 1 n then
      if Nat.leb n (length meas) then Ok (mkBao n (irescale I) z (fun i => entry (firstn n meas) i) (fun _ => None) ty) else Stop
    else match meas with
         | o :: e :: _ => Ok (mkBao n (irescale I) z (fun i => entry [o] i) (fun i => entry [e] i) ty)
         | _ => Stop
         end).
(** 169-196 *)
Definition read_file (I : ini) (haserror : bool) (ls : list (list word)) : out bao :=
  let n := inum I in
  let hastype := match itypes I with Some _ => true | None => false end in
  bind (read_lines haserror hastype n ls) (fun ps =>
    let get {A} (f : point -> option A) (i : nat) := match entry ps i with Some p => f p | None => None end in
    Ok (mkBao n (irescale I) (fun i => match entry ps i with Some p => pz p | None => 0 end) (get (fun p => Some (pobs p))) (get perr)
          (if hastype then types_of n (itypes I) else get ptyp))).
(** 115-206, and the redshifts at which f sigma_8 is asked for (200-206) *)
Definition is_fs8 (t : option mtype) : bool := match t with Some f_sigma8 => true | _ => false end.
Definition BAO_ReadIni (I : ini) : out (bao * option (list R)) :=
  bind (match isource I with Zeff zl z1 meas => read_zeff I zl z1 meas | DataFile h ls => read_file I h ls end) (fun b =>
    if existsb (fun i => if Rlt_dec (zs b i) (1 / 10000) then true else false) (seq 1 (num b)) then Stop
    else if all_set (typ b) (seq 1 (num b)) then
      Ok (b, if existsb (fun i => is_fs8 (typ b i)) (seq 1 (num b)) then Some (map (zs b) (seq 1 (num b))) else None)
    else Undef).

(** ** Tables of probability *)
(** 52-59 *)
Record grid := mkGrid { np : nat; nl : nat; perp : nat -> R; plel : nat -> R; prob : nat -> nat -> R }.
Definition upd {A} (f : nat -> A) (i : nat) (x : A) : nat -> A := fun k => if Nat.eqb k i then x else f k.
(** 336-344: the lines go to the points of the grid with the second index running fastest *)
Fixpoint read_rows (ijs : list (nat * nat)) (rows : list (R * R * R)) (g : grid) : out grid :=
  match ijs, rows with
  | [], _ => Ok g
  | _ :: _, [] => Stop
  | (i, j) :: ijs', (t0, t1, t2) :: rows' =>
      read_rows ijs' rows' (mkGrid (np g) (nl g) (upd (perp g) i t0) (upd (plel g) j t1) (upd (prob g) i (upd (prob g i) j t2)))
  end.
Definition pairs (n m : nat) : list (nat * nat) := list_prod (seq 1 n) (seq 1 m).
(** maxval *)
Definition maxprob (g : grid) : R := fold_left Rmax (map (fun ij => prob g (fst ij) (snd ij)) (pairs (np g) (nl g))) (prob g 1%nat 1%nat).
(** 315-353; [g0] holds what the arrays contain when allocated *)
Definition DR1x_InitProbDist (is_square : bool) (npoints npoints_plel : nat) (rows : list (R * R * R)) (g0 : grid) : out grid :=
  let m := if is_square then npoints else npoints_plel in
  bind (read_rows (pairs npoints m) rows (mkGrid npoints m (perp g0) (plel g0) (prob g0))) (fun g =>
    Ok (mkGrid (np g) (nl g) (perp g) (plel g) (fun i j => prob g i j / maxprob g))).
(** 372-377: the loop over the points of an axis; None if it ends without setting ii *)
Fixpoint search (f : nat -> R) (a : R) (is : list nat) : option nat :=
  match is with [] => None | i :: is' => if Rle_dec (a - f i) 0 then Some (i - 1)%nat else search f a is' end.
(** 368-394 *)
Definition DR1x_grid (g : grid) (a b : R) : out R :=
  bind (lookup (np g) (perp g) 1) (fun p1 => bind (lookup (np g) (perp g) (np g - 1)) (fun p2 =>
  bind (lookup (nl g) (plel g) 1) (fun l1 => bind (lookup (nl g) (plel g) (nl g - 1)) (fun l2 =>
  if Rlt_dec a p1 then Ok logZero else if Rlt_dec p2 a then Ok logZero else if Rlt_dec b l1 then Ok logZero else if Rlt_dec l2 b then Ok logZero else
  bind (value_of (search (perp g) a (seq 1 (np g)))) (fun ii => bind (value_of (search (plel g) b (seq 1 (nl g)))) (fun jj =>
  bind (lookup (np g) (perp g) ii) (fun x0 => bind (lookup (np g) (perp g) (ii + 1)) (fun x1 =>
  bind (lookup (nl g) (plel g) jj) (fun y0 => bind (lookup (nl g) (plel g) (jj + 1)) (fun y1 =>
    let p := 1 / ((x1 - x0) * (y1 - y0)) * (prob g ii jj * (x1 - a) * (y1 - b) - prob g (ii + 1)%nat jj * (x0 - a) * (y1 - b)
             - prob g ii (jj + 1)%nat * (x1 - a) * (y0 - b) + prob g (ii + 1)%nat (jj + 1)%nat * (x0 - a) * (y0 - b)) in
    Ok (if Rlt_dec 0 p then - ln p else logZero))))))))))).
(** 143-152: the fiducial values from one of two sets of settings *)
Inductive fiducial := Products (Hrd DA_rd : R) | Separate (rd H DA : R).
Definition Hrd_fid (f : fiducial) : R := match f with Products x _ => x | Separate rd H _ => H * rd end.
Definition DA_rd_fid (f : fiducial) : R := match f with Products _ x => x | Separate rd _ DA => DA / rd end.
(** 355-367 *)
Definition alpha_perp (f : fiducial) (k : calc) (z rs : R) : R := D_A k z / rs / DA_rd_fid f.
Definition alpha_plel (f : fiducial) (k : calc) (z rs : R) : R := Hrd_fid f / (Hofz_Hunit k z * rs).
Definition BAO_DR1x_loglike (f : fiducial) (g : grid) (k : calc) (z fixed_rs rdrag : R) : out R :=
  let rs := get_rs_drag fixed_rs rdrag in DR1x_grid g (alpha_perp f k z rs) (alpha_plel f k z rs).
(** 409-429: the table of the main galaxy sample; 0.001 is a constant of single precision *)
Definition mgs_step : R := 8589935 / 8589934592.
Definition alpha_min : R := 8005 / 10000.
Definition alpha_max : R := 11985 / 10000.
Definition alphamgs (k : calc) (z rs : R) : R := D_v k z / rs / (6389518 / 10000 / (14869 / 100)).
Definition MGS_table (n : nat) (tab : nat -> R) (a : R) : out R :=
  if Rlt_dec alpha_max a then Ok logZero else if Rlt_dec a alpha_min then Ok logZero else
  let ii := Z.to_nat (1 + Int_part ((a - alpha_min) / mgs_step)) in
  bind (lookup n tab ii) (fun p1 => bind (lookup n tab (ii + 1)) (fun p2 => Ok ((p1 + p2) / 2 / 2))).
Definition BAO_MGS_loglike (n : nat) (tab : nat -> R) (k : calc) (z fixed_rs rdrag : R) : out R :=
  MGS_table n tab (alphamgs k z (get_rs_drag fixed_rs rdrag)).
