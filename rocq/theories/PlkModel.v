(** python/planck/CMB_plik.py 84-87, 101-112 (spectra in the order of clik), 157-203 (binned spectra of the maps), 231-236 (chi^2 in Python), 238-276 (coadded spectra), 282-289 (their covariance).
    Numbers are real; arrays are functions of indices from 0 with their sizes, and slices are inside the arrays.  clik, the nuisance components, calibration and the matrix Jt come from libraries and are arguments;
    solve is a function that may fail.  An array of maps is indexed here by the position in the selection self.oo, where the code takes .flat[self.oo]. *)
From Coq Require Import Reals Bool Arith.
From Verif Require Import ConvModel.
From Coq Require Import List.
Import ListNotations.
Local Open Scope R_scope.

(** ** Spectra of the theory *)
(** 87: pairs of fields; 84-86 *)
Definition indices : list (nat * nat) := [(0, 0); (1, 1); (2, 2); (0, 1); (0, 2); (1, 2)]%nat.
Definition llp1 (l : nat) : R := if Nat.eqb l 0 then 1 else INR l * (INR l + 1) / (2 * PI).
(** 101-112 *)
Definition clik_ordering (has : nat -> bool) (get : nat * nat -> nat -> R) : list (nat -> R) :=
  flat_map (fun i => if has i then [fun l => get (nth i indices (0, 0)%nat) l / llp1 l] else []) (seq 0 4) ++ flat_map (fun i => if has i then [fun _ : nat => 0] else []) (seq 4 2).
(** 159-165 *)
Fixpoint unpack (has : nat -> bool) (is : list nat) (j : nat) (mcls : list (nat -> R)) (cls : nat -> nat -> R) : nat -> nat -> R :=
  match is with
  | [] => cls
  | i :: is' => if has i then unpack has is' (S j) mcls (fun a l => if Nat.eqb a i then nth j mcls (fun _ => 0) l else cls a l) else unpack has is' j mcls cls
  end.
(** the bins: first and last multipole from lmin, and the weights; mt, me and mb maps *)
Record binning := mkBin { blmin : nat -> nat; blmax : nat -> nat; bws : nat -> R; lmin_ : nat; mt : nat; me : nat; mb : nat }.
Definition binned (B : binning) (c : nat -> R) (b : nat) : R := rsum (blmax B b + 1 - blmin B b) (fun q => c (lmin_ B + (blmin B b + q))%nat * bws B (blmin B b + q)%nat).
(** rq[b, r0:r1, c0:c1] += v *)
Definition add_block (r0 r1 c0 c1 : nat) (v : R) (rq : nat -> nat -> R) : nat -> nat -> R :=
  fun i j => if Nat.leb r0 i && Nat.ltb i r1 && Nat.leb c0 j && Nat.ltb j c1 then rq i j + v else rq i j.
(** 166-203 *)
Definition cmb_rq (has : nat -> bool) (get : nat * nat -> nat -> R) (B : binning) (b : nat) : nat -> nat -> R :=
  let cls := unpack has (seq 0 6) 0 (clik_ordering has get) (fun _ _ => 0) in
  let v k := binned B (cls k) b in
  let t := mt B in let e := (mt B + me B)%nat in let m := (mb B + mt B + me B)%nat in
  let yes n := negb (Nat.eqb n 0) in
  let rq := fun _ _ : nat => 0 in
  let rq := if yes (mt B) then
      let rq := add_block 0 t 0 t (v 0%nat) rq in
      let rq := if yes (me B) then add_block t e 0 t (v 3%nat) (add_block 0 t t e (v 3%nat) rq) else rq in
      if yes (mb B) then add_block e m 0 t (v 4%nat) (add_block 0 t e m (v 4%nat) rq) else rq
    else rq in
  let rq := if yes (me B) then
      let rq := add_block t e t e (v 1%nat) rq in
      if yes (mb B) then add_block e m t e (v 5%nat) (add_block t e e m (v 5%nat) rq) else rq
    else rq in
  if yes (mb B) then add_block e m e m (v 2%nat) rq else rq.

(** ** Coadded spectra *)
(** n data; N rows of Jt *)
(** 231-236: chi^2 of the differences *)
Definition chi_squared (n : nat) (siginv : nat -> nat -> R) (d : nat -> R) : R := rsum n (fun i => d i * rsum n (fun j => siginv i j * d j)).
(** 239: the rows whose sum is not zero *)
Definition good (n N : nat) (Jt : nat -> nat -> R) : list nat := filter (fun i => if Req_EM_T (rsum n (Jt i)) 0 then false else true) (seq 0 N).
(** 252: np.where(M != 0) of a matrix with a rows *)
Definition nonzeros (a n : nat) (M : nat -> nat -> R) : list (nat * nat) :=
  flat_map (fun i => map (fun j => (i, j)) (filter (fun j => if Req_EM_T (M i j) 0 then false else true) (seq 0 n))) (seq 0 a).
(** 250-256 *)
Definition Jt_siginv (a n : nat) (J siginv : nat -> nat -> R) : nat -> nat -> R :=
  fold_left (fun A p => fun i k => if Nat.eqb i (fst p) then A i k + J (fst p) (snd p) * siginv (snd p) k else A i k) (nonzeros a n J) (fun _ _ => 0).
(** 260-265 *)
Definition Jt_siginv_J (a n : nat) (J siginv : nat -> nat -> R) : nat -> nat -> R :=
  fold_left (fun A p => fun i k => if Nat.eqb i (fst p) then A i k + J (fst p) (snd p) * Jt_siginv a n J siginv k (snd p) else A i k) (nonzeros a n J) (fun _ _ => 0).
(** 271-272: tVec[good] = rVec *)
Fixpoint place (gs : list nat) (k : nat) (r : nat -> R) (p : nat) : R :=
  match gs with [] => 0 | q :: gs' => if Nat.eqb p q then r k else place gs' (S k) r p end.
Definition solver := nat -> (nat -> nat -> R) -> (nat -> R) -> option (nat -> R).
(** 238-276: [g] and [nuis] are the calibration and the sum of the nuisance components, [hat] the data.  None: both solvers fail *)
Definition coadd (pos gen : solver) (n N : nat) (Jt siginv : nat -> nat -> R) (g nuis hat : nat -> R) : option ((nat -> R) * (nat -> nat -> R)) :=
  let gs := good n N Jt in let a := length gs in
  let J := fun i k => Jt (nth i gs 0%nat) k * g k in
  let Yo := fun k => g k * nuis k - hat k in
  let A := Jt_siginv a n J siginv in
  let v := fun i => rsum n (fun k => A i k * Yo k) in
  let M := Jt_siginv_J a n J siginv in
  match (match pos a M v with Some x => Some x | None => gen a M v end) with
  | Some x => Some (place gs 0 (fun i => - x i), M)
  | None => None
  end.
(** 286-288: cov[i,:] *= fac and cov[:,i] *= fac for each i < L *)
Fixpoint scale_cov (is : list nat) (fac : nat -> R) (c : nat -> nat -> R) : nat -> nat -> R :=
  match is with
  | [] => c
  | i :: is' => let c1 := fun a b => if Nat.eqb a i then c a b * fac b else c a b in
                scale_cov is' fac (fun a b => if Nat.eqb b i then c1 a b * fac a else c1 a b)
  end.
(** 284-288: [W] is the inverse of the matrix of [coadd], with a row for each good one; with less than L of them the shapes do not agree (None) *)
Definition coadded_cov (L : nat) (gs : list nat) (fac : nat -> R) (W : nat -> nat -> R) : option (nat -> nat -> R) := if Nat.leb L (length gs) then Some (scale_cov (seq 0 L) fac W) else None.
