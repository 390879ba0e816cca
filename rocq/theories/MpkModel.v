(** Likelihoods of galaxy power spectra: source/mpk.f90 46-56 (scaling), 117-244 (reading), 247-409 (MPK_LnLike), source/wigglez.f90 99-106,
    297-437 (reading), 439-471 (ReadWiggleZMatrices), 473-649 (WiggleZ_LnLike), and Matrix_Inverse of source/Matrix_utils_new.f90 1515-1530 for 2 by 2 matrices.
    Real numbers are exact, but for normV of WiggleZ_LnLike, which is rounded by [sgl].  Arrays are functions of indices from 1; a division by zero and a logarithm of a
    number that is not positive are the result Undef.  The power spectrum, D_V and the inverse of a covariance are arguments.
    Not modelled: printing, conflicts of data sets, Q and minchisq of single precision in wigglez.f90, blank lines in files. *)
From Coq Require Import Reals ZArith Bool List.
From Verif Require Import McmcModel BaoModel SnModel.
Import ListNotations.
Local Open Scope R_scope.

(** mpk.f90 32-35: one region, with the products W.P of 325-326, 360 *)
Record region := mkReg { pts : nat; bands : nat; Pd : nat -> R; Wm : nat -> nat -> R; icov : option (nat -> nat -> R); sdev : nat -> R }.
Definition matvec (n : nat) (M : nat -> nat -> R) (v : nat -> R) (i : nat) : R := sum1 n (fun j => M i j * v j).
Definition wth (g : region) (T : nat -> R) : nat -> R := matvec (bands g) (Wm g) T.
Definition is0 (x : R) : bool := if Req_EM_T x 0 then true else false.
Definition no_sdev (g : region) : bool := existsb (fun i => is0 (sdev g i)) (seq 1 (pts g)).

(** ** Theory: mpk.f90 46-56, 297-313, 355 *)
Definition a_scl (use_scaling : bool) (DV_fid H0 Dv : R) : out R := if use_scaling then rdiv DV_fid (H0 * Dv) else Ok 1.
Definition k_scaled (k0 a : R) (k : nat -> R) (i : nat) : R := Rmax k0 (a * k i).
Definition mpk_lin (Power : R -> R) (a : R) (ks : nat -> R) (i : nat) : R := Power (ks i) / a ^ 3.
Definition with_Q (Ag Q : R) (ks lin : nat -> R) (i : nat) : R := lin i * (1 + Q * ks i ^ 2) / (1 + Ag * ks i).
Definition bad_A (Ag : R) (n : nat) (ks : nat -> R) : bool := existsb (fun i => is0 (1 + Ag * ks i)) (seq 1 n).

(** ** One normalization: mpk.f90 365-376 *)
Definition chisq1 (g : region) (T : nat -> R) : out R :=
  let n := pts g in let w := wth g T in let P := Pd g in
  match icov g with
  | Some C => let covdat := matvec n C P in let covth := matvec n C w in
      let normV := dot n w covth in
      bind (rdiv (dot n w covdat ^ 2) normV) (fun q => bind (rlog normV) (fun l => Ok (dot n P covdat - q + l)))
  | None => if no_sdev g then Undef else
      let iw := fun i => 1 / sdev g i ^ 2 in
      let normV := sum1 n (fun i => w i * w i * iw i) in
      bind (rdiv (sum1 n (fun i => w i * P i * iw i)) normV) (fun tmp => bind (rlog normV) (fun l => Ok (sum1 n (fun i => P i * (P i - w i * tmp) * iw i) + l)))
  end.
(** ** Two normalizations: mpk.f90 319-347; Matrix_Inverse stops if the matrix is not positive *)
Definition tiny : R := / 10 ^ 30.
Definition flat_like (m11 m12 m22 v1 v2 pp : R) : out R :=
  if Rlt_dec (Rabs m11) tiny then Stop else if Rlt_dec (Rabs m22) tiny then Stop else
  let det := m11 * m22 - m12 ^ 2 in
  if Rlt_dec 0 m11 then if Rlt_dec 0 det then
    let i11 := m22 / det in let i12 := - m12 / det in let i22 := m11 / det in
    Ok ((pp - (v1 * (i11 * v1 + i12 * v2) + v2 * (i12 * v1 + i22 * v2)) + ln det) / 2)
  else Stop else Stop.
Definition weigh (g : region) (v : nat -> R) (i : nat) : R := match icov g with Some C => matvec (pts g) C v i | None => v i * (1 / sdev g i ^ 2) end.
Definition flat2 (g : region) (T T2 : nat -> R) : out R :=
  let n := pts g in let w := wth g T in let w2 := wth g T2 in
  if negb (has (icov g)) && no_sdev g then Undef else
  flat_like (dot n (weigh g w) w) (dot n (weigh g w) w2) (dot n (weigh g w2) w2) (dot n (weigh g (Pd g)) w) (dot n (weigh g (Pd g)) w2) (dot n (Pd g) (weigh g (Pd g))).
(** ** Values of Q: mpk.f90 349-397; 0.4 is a constant of single precision *)
Definition dQ : R := 13421773 / 33554432.
Definition iQs : list Z := map (fun k => (Z.of_nat k - 6)%Z) (seq 0 13).
Definition calweight (i : Z) : R := exp (- (IZR i * dQ) ^ 2 / 2).
Fixpoint mapO {A B} (f : A -> out B) (l : list A) : out (list B) :=
  match l with [] => Ok [] | x :: l' => bind (f x) (fun y => bind (mapO f l') (fun t => Ok (y :: t))) end.
Definition rsum : list R -> R := fold_right Rplus 0.
Definition average (cs : list R) : out R :=
  match cs with
  | [] => Undef
  | c :: u => let best := fold_left Rmin u c in
      let x := rsum (map (fun p => exp (- (snd p - best) / 2) * calweight (fst p)) (combine iQs cs)) / rsum (map calweight iQs) in
      if Req_EM_T x 0 then Ok logZero else bind (rlog x) (fun l => Ok (- l + best / 2))
  end.
(** what is marginalized: Q_marge, Q_flat, Ag, Q_mid, Q_sigma.  Without Q_marge the values Q_mid and Q_sigma are read though never set, and have no effect. *)
Inductive prior := NoQ | QFlat (Ag : R) | QGauss (Ag mid sigma : R).
Definition half (c : R) : out R := Ok (c / 2).
Definition MPK_like (p : prior) (g : region) (ks lin : nat -> R) : out R :=
  match p with
  | NoQ => bind (chisq1 g lin) half
  | QFlat Ag => if bad_A Ag (bands g) ks then Undef else
      let T := fun i => lin i / (1 + Ag * ks i) in flat2 g T (fun i => T i * ks i ^ 2)
  | QGauss Ag mid sigma => if bad_A Ag (bands g) ks then Undef else
      let c := fun i => chisq1 g (with_Q Ag (mid + IZR i * sigma * dQ) ks lin) in
      if Req_EM_T sigma 0 then bind (c (-6)%Z) half else bind (mapO c iQs) average
  end.
(** 273-313: [L], [NL] are the spectra, with the least wavenumber, the redshift stored for the data set and the power at k and z *)
Record pkt := mkPk { k_first : R; z_stored : R; PowerAt : R -> R -> R }.
Record mset := mkMset { nonlin : bool; m_scaling : bool; DV_fid : R; exact_z : R; mprior : prior; m_reg : region; m_k : nat -> R }.
Definition theory_of (s : bool) (DVf zx : R) (P : pkt) (H0 : R) (Dv : R -> R) (k : nat -> R) : out ((nat -> R) * (nat -> R)) :=
  bind (a_scl s DVf H0 (Dv zx)) (fun a =>
  if Rlt_dec (1 / 1000) (Rabs (zx - z_stored P)) then Stop else
  if is0 a then Undef else
  let ks := k_scaled (k_first P) a k in Ok (ks, mpk_lin (fun x => PowerAt P x zx) a ks)).
Definition MPK_LnLike (m : mset) (L NL : option pkt) (H0 : R) (Dv : R -> R) : out R :=
  match (if nonlin m then NL else L) with
  | None => Stop
  | Some P => bind (theory_of (m_scaling m) (DV_fid m) (exact_z m) P H0 Dv (m_k m)) (fun t => MPK_like (mprior m) (m_reg m) (fst t) (snd t))
  end.
(** ** Reading: mpk.f90 141-202, 240-242 *)
(** rows of the file of measurements after two lines: value and error, None if a number cannot be read (then nothing is set).
    The status iopb is that of the last READ *)
Fixpoint read_points (n : nat) (rows : list (option (R * R))) (i : nat) (P s : nat -> option R) (ok : option bool) : (nat -> option R) * (nat -> option R) * option bool :=
  match n with
  | O => (P, s, ok)
  | S n' => match rows with
            | Some (p, e) :: rows' => read_points n' rows' (S i) (upd P i (Some p)) (upd s i (Some e)) (Some true)
            | None :: rows' => read_points n' rows' (S i) P s (Some false)
            | [] => read_points n' [] (S i) P s (Some false)
            end
  end.
Definition skip_status (k : nat) (rows : list (option (R * R))) : option bool :=
  match k with O => None | S k' => Some (match nth_error rows k' with Some (Some _) => true | _ => false end) end.
Definition read_measurements (mn mx : nat) (rows : list (option (R * R))) : out ((nat -> option R) * (nat -> option R)) :=
  let n := (mx + 1 - mn)%nat in
  let '(P, s, ok) := read_points n (skipn (mn - 1) rows) 1 (fun i => if Nat.leb 1 i && Nat.leb i n then Some 0 else None) (fun _ => None) (skip_status (mn - 1) rows) in
  match ok with None => Undef | Some true => Ok (P, s) | Some false => Stop end.
(** parts of arrays: 162, 191, 200 *)
Definition in_range (mn mx full : nat) : bool := Nat.leb 1 mn && Nat.leb mx full.
Definition part1 (mn : nat) (v : nat -> R) (i : nat) : R := v (mn + i - 1)%nat.
Definition part2 (mn kmn : nat) (M : nat -> nat -> R) (i j : nat) : R := M (mn + i - 1)%nat (kmn + j - 1)%nat.
Record mini := mkMini { full_p : nat; full_k : nat; mn_p : nat; mx_p : nat; mn_k : nat; mx_k : nat }.
Definition valued (o : option R) : R := match o with Some x => x | None => 0 end.
Definition set_of (o : nat -> option R) (n : nat) : bool := forallb (fun i => has (o i)) (seq 1 n).
Definition MPK_read (I : mini) (kf : nat -> R) (rows : list (option (R * R))) (Wf : nat -> nat -> R) (cov : option (nat -> nat -> R)) (inv : nat -> (nat -> nat -> R) -> nat -> nat -> R) : out (region * (nat -> R)) :=
  if negb (in_range (mn_p I) (mx_p I) (full_p I) && in_range (mn_k I) (mx_k I) (full_k I)) then Undef else
  let n := (mx_p I + 1 - mn_p I)%nat in
  bind (read_measurements (mn_p I) (mx_p I) rows) (fun ps =>
  if negb (has cov || set_of (snd ps) n) then Undef else
  Ok (mkReg n (mx_k I + 1 - mn_k I) (fun i => valued (fst ps i)) (part2 (mn_p I) (mn_k I) Wf) (option_map (fun C => inv n (part2 (mn_p I) (mn_p I) C)) cov) (fun i => valued (snd ps i)), part1 (mn_k I) kf)).

(** ** WiggleZ *)
(** wigglez.f90 316-325: the last of the redshifts that agrees *)
Definition zeval : list R := [22 / 100; 41 / 100; 60 / 100; 78 / 100].
Fixpoint zbin_from (i : nat) (l : list R) (z : R) (r : nat) : nat := match l with [] => r | x :: l' => zbin_from (S i) l' z (if Rle_dec (Rabs (z - x)) (1 / 1000) then i else r) end.
Definition zbin (z : R) : out nat := if Req_EM_T z 0 then Stop else match zbin_from 1 zeval z 0 with O => Stop | i => Ok i end.
(** 99-106, 546: [fit] is the fit to the simulation and [fid] the spectrum of its cosmology for the bin *)
Definition gigglez (use : bool) (fit fid : R -> R) (ks lin : nat -> R) (i : nat) : R := if use then lin i * fit (ks i) / fid (ks i) else lin i.
Definition over_regions (gs : list region) (f : region -> R) : R := rsum (map f gs).
Definition has_cov (g : region) : bool := has (icov g).
Definition w_pp (g : region) : R := dot (pts g) (Pd g) (weigh g (Pd g)).
Definition w_tp (T : nat -> R) (g : region) : R := dot (pts g) (wth g T) (weigh g (Pd g)).
Definition w_tt (T T2 : nat -> R) (g : region) : R := dot (pts g) (weigh g (wth g T)) (wth g T2).
(** 594-626: normV is kept from one value of Q to the next *)
Definition wig_chisq (sgl : R -> R) (gs : list region) (T : nat -> R) (normV : R) : out (R * R) :=
  let N := sgl (normV + over_regions gs (w_tt T T)) in
  bind (rdiv (over_regions gs (w_tp T) ^ 2) N) (fun q => Ok (over_regions gs w_pp - q, N)).
Fixpoint wig_loop (sgl : R -> R) (gs : list region) (T : Z -> nat -> R) (l : list Z) (normV : R) : out (list R) :=
  match l with
  | [] => Ok []
  | i :: l' => bind (wig_chisq sgl gs (T i) normV) (fun cN => bind (wig_loop sgl gs T l' (snd cN)) (fun t => Ok (fst cN :: t)))
  end.
Definition wig_like (sgl : R -> R) (p : prior) (gs : list region) (n : nat) (ks lin : nat -> R) : out R :=
  if negb (forallb has_cov gs) then Undef else
  match p with
  | NoQ => bind (wig_chisq sgl gs lin 0) (fun c => half (fst c))
  | QFlat Ag => if bad_A Ag n ks then Undef else
      let T := fun i => lin i / (1 + Ag * ks i) in let T2 := fun i => T i * ks i ^ 2 in
      flat_like (over_regions gs (w_tt T T)) (over_regions gs (w_tt T T2)) (over_regions gs (w_tt T2 T2)) (over_regions gs (w_tp T)) (over_regions gs (w_tp T2)) (over_regions gs w_pp)
  | QGauss Ag mid sigma => if bad_A Ag n ks then Undef else
      let T := fun i => with_Q Ag (mid + IZR i * sigma * dQ) ks lin in
      if Req_EM_T sigma 0 then bind (wig_chisq sgl gs (T (-6)%Z) 0) (fun c => half (fst c)) else bind (wig_loop sgl gs T iQs 0) average
  end.
(** 344-378, 433-435: lines of the file of measurements; only the first word of a headline is read.  [ok] is the status of the last READ *)
Inductive mline := Head | Row (p : R).
Definition headlines {A} (ls : list A) : out (list A) := match ls with _ :: _ :: l => Ok l | _ => Stop end.
Fixpoint points_of (n : nat) (ls : list mline) (i : nat) (P : nat -> R) (ok : bool) : (nat -> R) * bool * list mline :=
  match n with
  | O => (P, ok, ls)
  | S n' => match ls with
            | Row p :: l => points_of n' l (S i) (upd P i p) true
            | Head :: l => points_of n' l (S i) P false
            | [] => points_of n' [] (S i) P false
            end
  end.
Fixpoint strict (n : nat) (ls : list mline) : out (list mline) :=
  match n with O => Ok ls | S n' => match ls with Row _ :: l => strict n' l | _ => Stop end end.
Definition skip_ok (k : nat) (ls : list mline) (ok : bool) : bool := match k with O => ok | S k' => match nth_error ls k' with Some (Row _) => true | _ => false end end.
Fixpoint wig_points (full mn mx : nat) (active : list bool) (ls : list mline) (ok : bool) : out (list (nat -> R)) :=
  match active with
  | [] => if ok then Ok [] else Stop
  | a :: active' => bind (headlines ls) (fun ls =>
      if a then
        let '(P, ok, ls) := points_of (mx + 1 - mn) (skipn (mn - 1) ls) 1 (fun _ => 0) (skip_ok (mn - 1) ls ok) in
        bind (strict (full - mx) ls) (fun ls => bind (wig_points full mn mx active' ls (if Nat.ltb mx full then true else ok)) (fun t => Ok (P :: t)))
      else bind (strict 50 ls) (fun ls => wig_points full mn mx active' ls true))
  end.
(** 439-471: matrices of all regions, elements never set are None; the file may end anywhere.  Rows with less than n numbers are not modelled *)
Inductive wline := WHead | WRow (xs : list R).
Definition tensor := nat -> nat -> nat -> option R.
Fixpoint wig_rows (r j m n : nat) (ls : list wline) (M : tensor) : out (tensor * option (list wline)) :=
  match m with
  | O => Ok (M, Some ls)
  | S m' => match ls with
            | [] => Ok (M, None)
            | WHead :: _ => Stop
            | WRow xs :: l => if Nat.ltb (length xs) n then Undef else
                wig_rows r (S j) m' n l (fun a b c => if Nat.eqb a r && Nat.eqb b j && Nat.leb 1 c && Nat.leb c n then Some (nth (c - 1) xs 0) else M a b c)
            end
  end.
Fixpoint ReadWiggleZMatrices (regions r m n : nat) (ls : list wline) (M : tensor) : out tensor :=
  match regions with
  | O => Ok M
  | S k => match ls with
           | [] => Ok M
           | _ :: l => bind (wig_rows r 1 m n l M) (fun q => match snd q with None => Ok (fst q) | Some l' => ReadWiggleZMatrices k (S r) m n l' (fst q) end)
           end
  end.
(** the matrices of the active regions: 386-393, 401-411 *)
Fixpoint chosen_regions (active : list bool) (r : nat) : list nat := match active with [] => [] | a :: l => if a then r :: chosen_regions l (S r) else chosen_regions l (S r) end.
Definition region_parts (active : list bool) (mn kmn : nat) (M : tensor) : list (nat -> nat -> option R) := map (fun r i j => M r (mn + i - 1)%nat (kmn + j - 1)%nat) (chosen_regions active 1).
