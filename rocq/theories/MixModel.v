(** Mixtures of normal distributions: python/getdist/gaussian_mixtures.py 12-323 (MixtureND) and 325-400 (Mixture2D).
    Numbers are real; values that are nan or inf in numpy are the error NotFinite.  np.linalg.inv (None is LinAlgError) and np.linalg.det are
    arguments.  Vectors and matrices are functions of indices from 0.  Parameters are names or indices that are not negative.
    Not modelled: labels, plots, MCSamples of the drawn samples, the number of samples that is drawn in a round (the draws are an argument). *)
From Coq Require Import Reals Bool.
From Verif Require Import PyStr PyBase ConvModel KdeModel Kde2Model StatModel LstModel CnvgModel PcaModel.
From Coq Require Import List.
Import ListNotations.
Local Open Scope R_scope.

Definition vec := nat -> R.
Definition lim := (option R * option R)%type.
Record mixture := mkMix { x_dim : nat; x_means : list vec; x_covs : list matrix; x_invs : list matrix; x_weights : list R; x_dets : list R;
                          x_lims : option (list lim); x_names : list str; x_total_mean : vec; x_total_cov : matrix }.
Inductive pref := ByName (s : str) | ByIndex (i : nat).
(** 209-220 *)
Definition to_indices (X : mixture) (params : option (list pref)) : res (list nat) :=
  match params with
  | None => mapR (fun s => match name_index (x_names X) s with Some i => Ok i | None => Err ValueError end) (x_names X)
  | Some ps => mapR (fun p => match p with ByName s => match name_index (x_names X) s with Some i => Ok i | None => Err ValueError end | ByIndex i => Ok i end) ps
  end.
Definition NoLimits : exn := OtherError (L "limits").
Definition bounded (l : lim) : bool := match l with (None, None) => false | _ => true end.
(** 305-311 *)
Definition checkNoLimits (X : mixture) (keep : list nat) : res unit :=
  match x_lims X with
  | None => Ok tt
  | Some ls => if existsb (fun il => negb (existsb (Nat.eqb (fst il)) keep) && bounded (snd il)) (combine (seq 0 (length ls)) ls) then Err NoLimits else Ok tt
  end.
(** 313-322 *)
Definition getUpper (X : mixture) (name : str) : res (option R) :=
  match x_lims X with
  | None => Ok None
  | Some ls => match name_index (x_names X) name with None => Err ValueError | Some i => match nth_error ls i with Some l => Ok (snd l) | None => Err IndexError end end
  end.
Definition getLower (X : mixture) (name : str) : res (option R) :=
  match x_lims X with
  | None => Ok None
  | Some ls => match name_index (x_names X) name with None => Err ValueError | Some i => match nth_error ls i with Some l => Ok (snd l) | None => Err IndexError end end
  end.
(** 103-124: one component (113-121), then all *)
Definition opt_min (x : R) (o : option R) : R := match o with Some y => Rmin x y | None => x end.
Definition opt_max (x : R) (o : option R) : R := match o with Some y => Rmax x y | None => x end.
Definition widen (sigma_max : R) (i : nat) (l : lim) (acc : option R * option R) (mc : vec * matrix) : option R * option R :=
  let sigma := sqrt (snd mc i i) in
  let xmin := fst mc i - sigma_max * sigma in
  let xmax := fst mc i + sigma_max * sigma in
  let xmax := match fst l with Some mn => Rmax xmax (mn + sigma_max * sigma) | None => xmax end in
  let xmin := match snd l with Some mx => Rmin xmin (mx - sigma_max * sigma) | None => xmin end in
  (Some (opt_min xmin (fst acc)), Some (opt_max xmax (snd acc))).
Definition auto_range (X : mixture) (sigma_max : R) (i : nat) (l : lim) : lim :=
  match l with
  | (Some mn, Some mx) => (Some mn, Some mx)
  | _ => let c := fold_left (widen sigma_max i l) (combine (x_means X) (x_covs X)) (None, None) in
         (match fst l with Some mn => Some mn | None => fst c end, match snd l with Some mx => Some mx | None => snd c end)
  end.
Definition autoRanges (X : mixture) (sigma_max : R) (lims : option (list lim)) : list lim :=
  let ls := match lims with Some l => l | None => match x_lims X with Some l => l | None => repeat (None, None) (x_dim X) end end in
  map (fun il => auto_range X sigma_max (fst il) (snd il)) (combine (seq 0 (length ls)) ls).
(** 126-147: icov.dot(dx).dot(dx) *)
Definition qform (n : nat) (K : matrix) (d : vec) : R := rsum n (fun i => rsum n (fun j => K i j * d j) * d i).
Definition norm_of (n : nat) (dt : R) : R := Rpower (2 * PI) (INR n / 2) * sqrt dt.
Definition zip4 {A B C D} (a : list A) (b : list B) (c : list C) (d : list D) : list (A * B * C * D) := combine (combine (combine a b) c) d.
Definition finite_dets (ds : list R) : bool := forallb (fun x => if Rlt_dec 0 x then true else false) ds.
Definition pdf (X : mixture) (x : vec) : res R :=
  if finite_dets (x_dets X) then
    Ok (sumR (map (fun z => let '(m, K, w, dt) := z in exp (- qform (x_dim X) K (fun i => x i - m i) / 2) / norm_of (x_dim X) dt * w) (zip4 (x_means X) (x_invs X) (x_weights X) (x_dets X))))
  else Err NotFinite.
(** 374-394 *)
Definition pdf2 (X : mixture) (x y : R) : res R :=
  if finite_dets (x_dets X) then
    Ok (sumR (map (fun z => let '(m, K, w, dt) := z in
      let dx := x - m 0%nat in let dy := y - m 1%nat in
      exp (- (dx ^ 2 * K 0%nat 0%nat + 2 * dx * dy * K 0%nat 1%nat + dy ^ 2 * K 1%nat 1%nat) / 2) / norm_of 2 dt * w) (zip4 (x_means X) (x_invs X) (x_weights X) (x_dets X))))
  else Err NotFinite.
(** 149-172; [index] is below the dimension *)
Definition pdf_marged (X : mixture) (index : nat) (x : R) (no_limit_marge : bool) : res R :=
  bindR (if no_limit_marge then Ok tt else checkNoLimits X [index]) (fun _ =>
  if forallb (fun c => if Rlt_dec 0 (c index index) then true else false) (x_covs X) then
    Ok (sumR (map (fun z => let '(m, c, w) := z in
      let dx := x - m index in let v := c index index in exp (- dx ^ 2 / v / 2) / sqrt (2 * PI * v) * w) (combine (combine (x_means X) (x_covs X)) (x_weights X))))
  else Err NotFinite).
(** 174-191: points and values; line 190 does not pass no_limit_marge on *)
Definition linspace (a b : R) (n : nat) : list R := map (fun i => a + INR i * ((b - a) / INR (n - 1))) (seq 0 n).
Definition density1D (X : mixture) (index n : nat) (sigma_max : R) (no_limit_marge : bool) : res (list R * list R) :=
  bindR (if no_limit_marge then Ok tt else checkNoLimits X [index]) (fun _ =>
  match nth_error (autoRanges X sigma_max None) index with
  | Some (Some mn, Some mx) => bindR (mapR (fun x => pdf_marged X index x false) (linspace mn mx n)) (fun like => Ok (linspace mn mx n, like))
  | _ => Err IndexError
  end).
(** 64-70 *)
Definition inside (lims : option (list lim)) (v : vec) : bool :=
  match lims with
  | None => true
  | Some ls => forallb (fun il => (match fst (snd il) with Some mn => if Rle_dec mn (v (fst il)) then true else false | None => true end) &&
                                  (match snd (snd il) with Some mx => if Rle_dec (v (fst il)) mx then true else false | None => true end)) (combine (seq 0 (length ls)) ls)
  end.
(** 49-83: [draws] are the samples of the components of which there are any in a round; [perm]: random_state.permutation; None is a loop that has not ended *)
Definition chosen (perm : list vec -> list vec) (size : nat) (res : list (list vec)) : PyBase.res (list vec) :=
  match res with
  | [] => Err ValueError
  | _ => let samples := concat res in let tot := length samples in
         let samples := if Nat.ltb 1 (length res) then perm samples else samples in
         Ok (if Nat.eqb tot size then samples else firstn (length samples - (tot - size)) samples)
  end.
Fixpoint sim_loop (fuel : nat) (lims : option (list lim)) (perm : list vec -> list vec) (draws : nat -> list (list vec)) (size round : nat) (got : list (list vec)) : option (res (list vec)) :=
  match fuel with
  | O => None
  | S fuel' => let got := got ++ map (filter (inside lims)) (draws round) in
               if Nat.leb size (length (concat got)) then Some (chosen perm size got) else sim_loop fuel' lims perm draws size (S round) got
  end.
Definition sim (fuel : nat) (X : mixture) (perm : list vec -> list vec) (draws : nat -> list (list vec)) (size : nat) : option (res (list vec)) :=
  sim_loop fuel (x_lims X) perm draws size 0 [].

Section Mix.
Variable inv : nat -> matrix -> option matrix.
Variable det : nat -> matrix -> R.
Definition invE (n : nat) (M : matrix) : res matrix := match inv n M with Some K => Ok K | None => Err LinAlgError end.
(** 17-47; the zip of 46 takes one element of the total mean for each component *)
Definition make (dim : nat) (means : list vec) (covs : list matrix) (weights : option (list R)) (lims : option (list lim)) (names : list str) : res mixture :=
  match means with
  | [] => Err IndexError
  | _ =>
    bindR (mapR (invE dim) covs) (fun invs =>
    let ws := match weights with Some w => w | None => repeat (1 / INR (length means)) (length means) end in
    if Rle_dec (sumR ws) 0 then Err ValueError else
    let ws := map (fun w => w / sumR ws) ws in
    if negb (Nat.eqb (length ws) (length means)) then Err ValueError else
    let tm j := dot ws (map (fun m => m j) means) in
    Ok (mkMix dim means covs invs ws (map (det dim) covs) lims names tm
          (fun i j => sumR (map (fun z => let '(m, c, w, t) := z in w * (c i j + (m i - t) * (m j - t))) (zip4 means covs ws (map tm (seq 0 dim)))))))
  end.
(** 346-349: without limits Mixture2D has a list of no limits *)
Definition lims_for (n : nat) (l : option (list lim)) : option (list lim) := match l with Some l => Some l | None => if Nat.eqb n 2 then Some [(None, None); (None, None)] else None end.
Definition pick_vec (ix : list nat) (v : vec) : vec := fun a => v (nth a ix 0%nat).
Definition pick_mat (ix jx : list nat) (M : matrix) : matrix := fun a b => M (nth a ix 0%nat) (nth b jx 0%nat).
(** 222-258; names and limits of an index out of range raise *)
Definition marginalizedMixture (X : mixture) (params : option (list pref)) (no_limit_marge : bool) : res mixture :=
  bindR (to_indices X params) (fun ix =>
  bindR (if no_limit_marge then Ok tt else checkNoLimits X ix) (fun _ =>
  bindR (mapR (fun i => match nth_error (x_names X) i with Some s => Ok s | None => Err IndexError end) ix) (fun names =>
  bindR (match x_lims X with None => Ok None | Some ls => bindR (mapR (fun i => match nth_error ls i with Some l => Ok l | None => Err IndexError end) ix) (fun l => Ok (Some l)) end) (fun lims =>
  make (length ix) (map (pick_vec ix) (x_means X)) (map (pick_mat ix ix) (x_covs X)) (Some (x_weights X)) (lims_for (length ix) lims) names)))).
(** 282-293: mean, covariance and logarithm of the weight of a component *)
Definition conditional (kp fx : list nat) (values : list R) (z : vec * matrix * matrix) : res (vec * matrix * R) :=
  let '(m, cov, K) := z in
  let nk := length kp in let nf := length fx in
  let delta a := nth a values 0 - m (nth a fx 0%nat) in
  bindR (invE nk (pick_mat kp kp K)) (fun S =>
  let m' a := m (nth a kp 0%nat) - rsum nk (fun b => S a b * rsum nf (fun c => pick_mat kp fx K b c * delta c)) in
  bindR (invE nk (pick_mat kp kp cov)) (fun C =>
  let schur a b := pick_mat fx fx cov a b - rsum nk (fun k => pick_mat fx kp cov a k * rsum nk (fun l => C k l * pick_mat kp fx cov l b)) in
  if Rlt_dec 0 (det nf schur) then Ok (m', S, qform nf (pick_mat fx fx K) delta + ln (det nf schur)) else Err NotFinite)).
(** 260-303 *)
Definition conditionalMixture (X : mixture) (fixed : list pref) (values : list R) : res mixture :=
  bindR (to_indices X (Some fixed)) (fun fx =>
  bindR (checkNoLimits X fx) (fun _ =>
  let kp := filter (fun i => negb (existsb (Nat.eqb i) fx)) (seq 0 (x_dim X)) in
  match kp with
  | [] => Err ValueError
  | _ =>
    if negb (Nat.eqb (length values) (length fx)) then Err ValueError else
    bindR (mapR (conditional kp fx values) (combine (combine (x_means X) (x_covs X)) (x_invs X))) (fun cs =>
    let logs := map snd cs in
    let ws := map (fun l => exp (- (l - minR logs) / 2)) logs in
    bindR (mapR (fun i => match nth_error (x_names X) i with Some s => Ok s | None => Err IndexError end) kp) (fun names =>
    make (length kp) (map (fun c => fst (fst c)) cs) (map (fun c => snd (fst c)) cs) (Some ws) None names))
  end)).
End Mix.
