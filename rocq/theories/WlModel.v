(** Galaxy weak lensing and clustering: source/wl.f90 149-163, 212-286 (reading), 288-302 (multipoles), 306-347 (theory file), 359-376 (LogLike), 378-426 (Bessel functions), 449-464 (make_vector),
    466-692 (calc_theory), 694-728 (cl2corr).  Real numbers are exact; arrays are functions of indices from 1 and an element that was never set is None.  Indices that are not natural numbers are
    taken as 0, which is outside of all arrays.  The distances, power spectra, cubic splines and Bessel functions are arguments.
    Not modelled: reading of words and names of types (library), threads. *)
From Coq Require Import Reals ZArith Bool List.
From Verif Require Import BaoModel.
Import ListNotations.
Local Open Scope R_scope.

(** ** Reading *)
Definition xip : nat := 1. Definition xim : nat := 2. Definition gammat : nat := 3. Definition wtheta : nat := 4.
(** 150-162: redshifts with two more after the end; [n] rows of the file *)
Definition z_ext (n : nat) (z : nat -> R) : out (nat -> R) :=
  if Nat.ltb n 2 then Undef else
  Ok (fun i => if Nat.eqb i (n + 1) then 2 * z n - z (n - 1)%nat else if Nat.eqb i (n + 2) then 3 * z n - 2 * z (n - 1)%nat else z i).
Definition p_ext (n : nat) (p : nat -> R) : nat -> R := fun i => if Nat.eqb i (n + 1) || Nat.eqb i (n + 2) then 0 else p i.
(** 212-226: lines of data_selection are a type (0 if unknown), two bins and a range of theta; the array is of single precision, [sgl] rounds *)
Record sline := mkS { s_type : nat; s_b1 : nat; s_b2 : nat; s_lo : R; s_hi : R }.
Definition selection := nat -> nat -> nat -> R * R.
Definition in_bins (maxbin b1 b2 : nat) : bool := Nat.leb 1 b1 && Nat.leb b1 maxbin && Nat.leb 1 b2 && Nat.leb b2 maxbin.
Fixpoint read_selection (sgl : R -> R) (want : nat -> bool) (maxbin : nat) (ls : list sline) (s : selection) : out selection :=
  match ls with
  | [] => Ok s
  | x :: ls' =>
      if negb (Nat.leb 1 (s_type x) && Nat.leb (s_type x) 4) then Stop
      else if negb (in_bins maxbin (s_b1 x) (s_b2 x)) then Stop
      else read_selection sgl want maxbin ls'
             (if want (s_type x) then fun t a b => if Nat.eqb t (s_type x) && Nat.eqb a (s_b1 x) && Nat.eqb b (s_b2 x) then (sgl (s_lo x), sgl (s_hi x)) else s t a b else s)
  end.
(** 228-275: a measurement has two bins, a bin of theta and a value *)
Record mline := mkM { b1 : nat; b2 : nat; th : nat; dat : R }.
Record item := mkI { i_type : nat; i_b1 : nat; i_b2 : nat; i_th : nat }.
Definition corr := nat -> nat -> nat -> nat -> option R.
Record rd := mkRd { cov_ix : nat; used : list (nat * item); pairs : nat -> list (nat * nat); data_c : corr; first_theta : nat }.
Definition within (r : R * R) (x : R) : bool := (if Rle_dec (fst r) x then true else false) && (if Rle_dec x (snd r) then true else false).
Record setup := mkSetup { maxbin : nat; nth_ : nat; theta : nat -> R; types : list nat; want : nat -> bool; sel : selection }.
(** 241-258: a pair is added if it is not that of the line before, [0,0] before the first line *)
Definition add_pair (ps : list (nat * nat)) (a b : nat) : list (nat * nat) :=
  let '(la, lb) := last ps (O, O) in if Nat.eqb la a && Nat.eqb lb b then ps else ps ++ [(a, b)].
Definition read_line (S : setup) (i tp : nat) (x : mline) (st : rd) : out rd :=
  if negb (Nat.leb 1 (th x) && Nat.leb (th x) (nth_ S)) then Stop else
  let ix := (cov_ix st + 1)%nat in
  let ps := add_pair (pairs st i) (b1 x) (b2 x) in
  if Nat.ltb (maxbin S ^ 2) (length ps) then Undef else
  if negb (in_bins (maxbin S) (b1 x) (b2 x)) then Undef else
  let c := fun t a b k => if Nat.eqb t (th x) && Nat.eqb a (b1 x) && Nat.eqb b (b2 x) && Nat.eqb k i then Some (dat x) else data_c st t a b k in
  let pf := fun k => if Nat.eqb k i then ps else pairs st k in
  if want S tp && within (sel S tp (b1 x) (b2 x)) (theta S (th x)) then
    if Nat.leb (length (types S) * nth_ S * maxbin S ^ 2) (length (used st)) then Undef else
    Ok (mkRd ix (used st ++ [(ix, mkI i (b1 x) (b2 x) (th x))]) pf c (Nat.min (th x) (first_theta st)))
  else Ok (mkRd ix (used st) pf c (first_theta st)).
Fixpoint read_file (S : setup) (i tp : nat) (xs : list mline) (st : rd) : out rd :=
  match xs with [] => Ok st | x :: xs' => bind (read_line S i tp x st) (read_file S i tp xs') end.
Fixpoint read_files (S : setup) (i : nat) (tps : list nat) (file : nat -> list mline) (st : rd) : out rd :=
  match tps with [] => Ok st | tp :: tps' => bind (read_file S i tp (file i) st) (read_files S (i + 1) tps' file) end.
Definition start (S : setup) : rd := mkRd O [] (fun _ => []) (fun _ _ _ _ => None) (nth_ S).
(** 449-464 *)
Fixpoint make_vector (c : corr) (u : list (nat * item)) : out (list R) :=
  match u with
  | [] => Ok []
  | (_, x) :: u' => bind (value_of (c (i_th x) (i_b1 x) (i_b2 x) (i_type x))) (fun v => bind (make_vector c u') (fun t => Ok (v :: t)))
  end.
(** 276-286: [n1], [n2] are the dimensions of the covariance, [inv] inverts *)
Record wl := mkWl { w_rd : rd; invcov : nat -> nat -> R; data_vec : list R; ah_factor : R }.
Definition sub_cov (u : list (nat * item)) (cov : nat -> nat -> R) (i j : nat) : R := cov (fst (nth (i - 1) u (O, mkI 0 0 0 0))) (fst (nth (j - 1) u (O, mkI 0 0 0 0))).
Definition load (S : setup) (file : nat -> list mline) (n1 n2 : nat) (cov : nat -> nat -> R) (inv : nat -> (nat -> nat -> R) -> nat -> nat -> R) (ah : R) : out wl :=
  bind (read_files S 1 (types S) file (start S)) (fun st =>
  if negb (Nat.eqb (cov_ix st) n1 && Nat.eqb (cov_ix st) n2) then Stop else
  bind (make_vector (data_c st) (used st)) (fun v => Ok (mkWl st (inv (length (used st)) (sub_cov (used st) cov)) v ah))).
(** 359-376 *)
Definition LogLike (w : wl) (theory : corr) : out R :=
  bind (make_vector theory (used (w_rd w))) (fun v =>
  Ok (QuadForm (length v) (invcov w) (fun i => nth (i - 1) v 0 - nth (i - 1) (data_vec w) 0) / 2)).
(** 319-340: the columns of the theory file, header (type and pair) and value for one theta *)
Definition header (types : list nat) (pairs : nat -> list (nat * nat)) : list (nat * nat * nat) :=
  concat (map (fun k => map (fun p => (nth (k - 1) types O, fst p, snd p)) (pairs k)) (seq 1 (length types))).
Definition row (types : list nat) (pairs : nat -> list (nat * nat)) (c : corr) (t : nat) : list (option R) :=
  concat (map (fun k => map (fun p => c t (fst p) (snd p) (nth (k - 1) types O)) (pairs k)) (seq 1 (length types))).

(** ** Multipoles *)
(** 290-302: [s] is int(4/acc); the logarithmic part is nint(100*exp(0.1266*i/acc)) *)
Definition nint (x : R) : Z := up (x - / 2).
Definition linear_ls (s : Z) : list Z := let st := Z.max 1 s in map (fun k => (2 + st * Z.of_nat k)%Z) (seq 0 (Z.to_nat ((100 - s - 2) / st + 1))).
Definition log_l (acc : R) (i : nat) : Z := nint (100 * exp (1266 / 10000 * INR i / acc)).
Fixpoint log_ls (fuel : nat) (acc : R) (lmax : Z) (last : Z) (i : nat) : option (list Z) :=
  if (last <? lmax)%Z then match fuel with O => None | S f => option_map (cons (log_l acc i)) (log_ls f acc lmax (log_l acc i) (S i)) end else Some [].
Definition int_acc (acc : R) : Z := Int_part (4 / acc).
Definition ls_cl (fuel : nat) (acc : R) (lmax : Z) : option (list Z) :=
  match linear_ls (int_acc acc) with [] => None | l => option_map (app l) (log_ls fuel acc lmax (List.last l 0%Z) 0) end.
(** 385-406: steps in the values int(exp(i*dlog)), i = 1..n, starting from 1 *)
Fixpoint dells (lst : Z) (es : list Z) : list Z := match es with [] => [] | e :: es' => if (e =? lst)%Z then dells lst es' else (e - lst)%Z :: dells e es' end.
Fixpoint ranges (ell : Z) (ds : list Z) : list (Z * Z) := match ds with [] => [] | d :: ds' => (ell, (ell + d - 1)%Z) :: ranges (ell + d)%Z ds' end.
Definition ells (lmax : Z) (n : nat) : list Z := map (fun i => Int_part (exp (INR i * (ln (IZR lmax) / INR n)))) (seq 1 n).
Definition bessel_ranges (lmax : Z) (n : nat) : list (Z * Z) := ranges 2 (dells 1 (ells lmax n)).
(** ls_bessel: (2*ell+dell-1)/2 *)
Definition mid (r : Z * Z) : R := IZR (2 * fst r + (snd r - fst r + 1) - 1) / 2.
(** 412-426 *)
Fixpoint sum_from (ell : Z) (n : nat) (f : Z -> R) : R := match n with O => 0 | S k => f ell + sum_from (ell + 1) k f end.
Definition jsum (J : R -> R) (x : R) (r : Z * Z) : R := sum_from (fst r) (Z.to_nat (snd r - fst r + 1)) (fun ell => IZR ell * J (IZR ell * x)) / (2 * PI).

(** ** Theory *)
(** 501-511 *)
Record params := mkP { bias : nat -> R; shear : nat -> R; A_IA : R; alpha_IA : R; z0_IA : R; lens_err : nat -> R; source_err : nat -> R }.
Definition split_params (ngal nz : nat) (P : nat -> R) : params :=
  mkP P (fun b => P (ngal + b)%nat) (P (ngal + nz + 1)%nat) (P (ngal + nz + 2)%nat) (P (ngal + nz + 3)%nat) (fun b => P (ngal + nz + 3 + b)%nat) (fun b => P (ngal + nz + 3 + ngal + b)%nat).
(** [nz] redshifts z with distances chi, rates H and growth D; distributions ps and pg of sources and galaxies *)
Record cosmo := mkC { nzp : nat; z : nat -> R; chi : nat -> R; Hz : nat -> R; growth : nat -> R; hh : R; omm : R }.
(** 531-533 *)
Definition dchi (c : cosmo) (i : nat) : R :=
  if Nat.eqb i 1 then (chi c 2 + chi c 1) / 2 else if Nat.eqb i (nzp c) then chi c (nzp c) - chi c (nzp c - 1)%nat else (chi c (i + 1)%nat - chi c (i - 1)%nat) / 2.
(** 546-548, the power as a function of base and exponent *)
Definition alignment (c : cosmo) (P : params) (i : nat) : R := A_IA P * Rpower ((1 + z c i) / (1 + z0_IA P)) (alpha_IA P) * (134 / 10000) / growth c i.
(** 556-574 *)
Definition shifted (c : cosmo) (err : R) (p : R -> R) (i : nat) : R :=
  let x := z c i - err in if Rlt_dec x (z c 1) then 0 else if Rlt_dec (z c (nzp c)) x then 0 else Hz c i * p x.
Definition n_chi (c : cosmo) (P : params) (ps : nat -> R -> R) (b i : nat) : R := shifted c (source_err P b) (ps b) i.
Definition q_gal (c : cosmo) (P : params) (pg : nat -> R -> R) (b i : nat) : R := shifted c (lens_err P b) (pg b) i * bias P b.
(** 578-591; the speed of light in m/s *)
Definition c_ms : R := 299792458.
Definition fac_h (c : cosmo) : R := hh c ^ 2 * (100000 / c_ms) ^ 2.
Definition q_lens (c : cosmo) (n : nat -> R) (i : nat) : R := sum1 (nzp c - i + 1) (fun k => dchi c (i + k - 1)%nat * n (i + k - 1)%nat * (1 - chi c i / chi c (i + k - 1)%nat)).
Definition q_source (c : cosmo) (P : params) (ps : nat -> R -> R) (ia weyl : bool) (b i : nat) : R :=
  let q := q_lens c (n_chi c P ps b) i in
  let q := if ia then q - alignment c P i * n_chi c P ps b i / (chi c i * (1 + z c i) * 3 * fac_h c / 2) else q in
  if weyl then q * chi c i else q * (3 / 2 * omm c * fac_h c) * chi c i * (1 + z c i).
(** 598-674: [pk], [wpk], [mwpk] are the spectra at k/h and z, [kmin] and [kmax] the range of the first *)
Record spectra := mkSp { pk : R -> R -> R; wpk : R -> R -> R; mwpk : R -> R -> R; kmin : R; kmax : R }.
Definition kh (c : cosmo) (l : Z) (j : nat) : R := (IZR l + / 2) / chi c j / hh c.
Definition in_k (s : spectra) (k : R) : bool := (if Rle_dec (kmin s) k then true else false) && (if Rle_dec k (kmax s) then true else false).
Definition weight (c : cosmo) (s : spectra) (P : R -> R -> R) (l : Z) (j : nat) : R :=
  if in_k s (kh c l j) then dchi c j / chi c j ^ 2 * P (kh c l j) (z c j) else 0.
Definition matter (c : cosmo) (s : spectra) (l : Z) (j : nat) : R := weight c s (fun k x => pk s k x / hh c ^ 3) l j.
Definition lensing (c : cosmo) (s : spectra) (weyl : bool) (l : Z) (j : nat) : R := if weyl then weight c s (wpk s) l j else matter c s l j.
Definition cross (c : cosmo) (s : spectra) (weyl : bool) (l : Z) (j : nat) : R := if weyl then - weight c s (mwpk s) l j else matter c s l j.
Definition limber (n : nat) (w qa qb : nat -> R) : R := sum1 n (fun i => w i * (qa i * qb i)).
Record model := mkMod { m_c : cosmo; m_s : spectra; m_P : params; ps : nat -> R -> R; pg : nat -> R -> R; ia : bool; weyl : bool }.
(** all distances must be positive: they are divided by *)
Definition cl_of (m : model) (tp f g : nat) (l : Z) : R :=
  let c := m_c m in let n := nzp c in
  let qs := q_source c (m_P m) (ps m) (ia m) (weyl m) in let qg := q_gal c (m_P m) (pg m) in
  if Nat.eqb tp xip then limber n (lensing c (m_s m) (weyl m) l) (qs f) (qs g)
  else if Nat.eqb tp wtheta then limber n (matter c (m_s m) l) (qg f) (qg g)
  else if Nat.eqb tp gammat then limber n (cross c (m_s m) (weyl m) l) (qg f) (qs g) else 0.
(** 678-728: [spl] is the spline through the values at the multipoles, J0, J2, J4 the Bessel functions *)
Record tools := mkT { spl : list Z -> list R -> R -> R; J0 : R -> R; J2 : R -> R; J4 : R -> R; cls : list Z; rngs : list (Z * Z); rad : nat -> R }.
Definition transform (t : tools) (J : R -> R) (C : Z -> R) (k : nat) : R :=
  fold_right Rplus 0 (map (fun r => spl t (cls t) (map C (cls t)) (mid r) * jsum J (rad t k) r) (rngs t)).
Definition put (c : corr) (first f g k : nat) (v : nat -> R) : corr := fun t a b i => if Nat.leb first t && Nat.eqb a f && Nat.eqb b g && Nat.eqb i k then Some (v t) else c t a b i.
Definition cl2corr (m : model) (t : tools) (first tp k kxim f g : nat) (c : corr) : corr :=
  let C := cl_of m tp f g in
  if Nat.eqb tp xip then
    let fac2 := (1 + shear (m_P m) f) * (1 + shear (m_P m) g) in
    let c1 := put c first f g k (fun x => transform t (J0 t) C x * fac2) in
    if Nat.eqb kxim 0 then c1 else put c1 first f g kxim (fun x => transform t (J4 t) C x * fac2)
  else if Nat.eqb tp gammat then put c first f g k (fun x => transform t (J2 t) C x * (1 + shear (m_P m) g))
  else if Nat.eqb tp wtheta then put c first f g k (fun x => transform t (J0 t) C x) else c.
Fixpoint index_of (x : nat) (l : list nat) (k : nat) : nat := match l with [] => O | y :: l' => if Nat.eqb y x then k else index_of x l' (k + 1) end.
Fixpoint all_types (m : model) (t : tools) (S : setup) (r : rd) (k : nat) (tps : list nat) (c : corr) : corr :=
  match tps with
  | [] => c
  | tp :: tps' =>
      all_types m t S r (k + 1) tps'
        (if Nat.eqb tp xim || negb (want S tp) then c
         else fold_left (fun c p => cl2corr m t (first_theta r) tp k (index_of xim (types S) 1) (fst p) (snd p) c) (pairs r k) c)
  end.
(** 368-370: starts from zero where there is data *)
Definition calc_theory (m : model) (t : tools) (S : setup) (r : rd) : corr :=
  all_types m t S r 1 (types S) (fun x a b i => option_map (fun _ => 0) (data_c r x a b i)).
