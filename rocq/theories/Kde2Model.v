(** Model of the kernel density estimate of two parameters: python/getdist/mcsamples.py 1568-1586 and 1711-1798 (get2DDensityGridData after binning and choosing rx and ry).
    Numbers are real numbers (so 1e-8 is exactly 10^-8).  convolve2D is that of ConvModel, called without the cache.
    A division by zero, which gives nan or inf in numpy, is the error NotFinite.
    Left out: the choice of the bandwidth (rx and ry are arguments), mean likelihoods, logging and the axes of the grid. *)
From Coq Require Import Reals ZArith List Bool.
From Verif Require Import PyStr PyBase ConvModel KdeModel.
Import ListNotations.
Local Open Scope R_scope.

Definition LinAlgError : exn := OtherError (L "LinAlgError").
(** ** The kernel *)
(** 1711 and 1717: half the number of bins of the kernel, for the larger of rx and ry *)
Definition winw_2D (rx ry : R) : Z := py_round (5 / 2 * Rmax rx ry).
(** 1719: the inverse of [[ry^2, rx ry corr], [rx ry corr, rx^2]]: elements [0, 0], [1, 1] and [1, 0] *)
Definition cinv (rx ry corr : R) : res (R * R * R) :=
  let det := ry ^ 2 * rx ^ 2 - (rx * ry * corr) ^ 2 in
  if Req_EM_T det 0 then Err LinAlgError else Ok (rx ^ 2 / det, ry ^ 2 / det, - (rx * ry * corr) / det).
(** sums over a matrix *)
Definition msum (m : mat) : R := rsum (m_rows m) (fun i => rsum (m_cols m) (m_at m i)).
(** 1720-1722: rows are y, columns are x *)
Definition win2 (w : nat) (c00 c11 c10 : R) : mat :=
  let x1 (i : nat) := IZR (Z.of_nat i - Z.of_nat w) in
  let W := mkMat (2 * w + 1) (2 * w + 1) (fun i j => exp (- (x1 i ^ 2 * c00 + x1 j ^ 2 * c11 + 2 * c10 * x1 i * x1 j) / 2)) in
  mkMat (2 * w + 1) (2 * w + 1) (fun i j => m_at W i j / msum W).

(** ** The mask of the limits: 1568-1586 *)
(** a[:, c] /= 2, a[c, :] /= 2, a[:, :k] = 0, a[:, -k:] = 0 (all of it for k = 0), a[:k:] = 0, a[-k:, :] = 0 *)
Definition half_col (c : nat) (m : mat) : mat := mkMat (m_rows m) (m_cols m) (fun i j => if Nat.eqb j c then m_at m i j / 2 else m_at m i j).
Definition half_row (c : nat) (m : mat) : mat := mkMat (m_rows m) (m_cols m) (fun i j => if Nat.eqb i c then m_at m i j / 2 else m_at m i j).
Definition zero_cols_first (k : nat) (m : mat) : mat := mkMat (m_rows m) (m_cols m) (fun i j => if Nat.ltb j k then 0 else m_at m i j).
Definition zero_cols_last (k : nat) (m : mat) : mat := mkMat (m_rows m) (m_cols m) (fun i j => if Nat.eqb k 0 || Nat.leb (m_cols m - k) j then 0 else m_at m i j).
Definition zero_rows_first (k : nat) (m : mat) : mat := mkMat (m_rows m) (m_cols m) (fun i j => if Nat.ltb i k then 0 else m_at m i j).
Definition zero_rows_last (k : nat) (m : mat) : mat := mkMat (m_rows m) (m_cols m) (fun i j => if Nat.eqb k 0 || Nat.leb (m_rows m - k) i then 0 else m_at m i j).
(** limits of the two parameters *)
Record lims := mkLims { x_bot : bool; x_top : bool; y_bot : bool; y_top : bool }.
Definition has_prior (l : lims) : bool := (x_bot l || x_top l) || (y_bot l || y_top l).
Definition edge_mask (l : lims) (w : nat) (alledge : bool) (m : mat) : mat :=
  let m := if x_bot l then zero_cols_first w (half_col w m) else m in
  let m := if x_top l then zero_cols_last w (half_col (m_cols m - (w + 1)) m) else m in
  let m := if y_bot l then zero_rows_first w (half_row w m) else m in
  let m := if y_top l then zero_rows_last w (half_row (m_rows m - (w + 1)) m) else m in
  if alledge then zero_rows_last w (zero_rows_first w (zero_cols_last w (zero_cols_first w m))) else m.
Definition ones (n m : nat) : mat := mkMat n m (fun _ _ => 1).

(** ** The density *)
Definition conv2 (mode : cmode) (largest : nat) (x y : mat) : res mat :=
  bindR (convolve2D x y mode largest) (fun r => match r with Some m => Ok m | None => Err TypeError end).
(** a matrix of elements that may fail *)
Definition matR (n m : nat) (f : nat -> nat -> res R) : res mat :=
  bindR (mapR (fun i => mapR (f i) (seq 0 m)) (seq 0 n)) (fun l => Ok (mkMat n m (fun i j => nth j (nth i l []) 0))).
(** np.max *)
Definition mmax (m : mat) : R := lmax (flat_map (fun i => map (m_at m i) (seq 0 (m_cols m))) (seq 0 (m_rows m))).
Definition eps8 : R := / 100000000.
(** 1771-1775 at one point of the grid *)
Definition linear2_at (B a00 a10 a01 a20 a02 a11 xP yP : R) : res R :=
  let denom := a20 * a01 ^ 2 + a10 ^ 2 * a02 - a00 * a02 * a20 + a11 ^ 2 * a00 - 2 * a01 * a10 * a11 in
  let A := a11 ^ 2 - a02 * a20 in let Ax := a10 * a02 - a01 * a11 in let Ay := a01 * a20 - a10 * a11 in
  rdivE (B * A + xP * Ax + yP * Ay) denom.
Definition weigh (W : mat) (f : nat -> nat -> R) : mat := mkMat (m_rows W) (m_cols W) (fun i j => m_at W i j * f i j).
(** 1745-1781 *)
Definition boundary2 (order : Z) (l : lims) (w largest : nat) (Win H B : mat) : res mat :=
  if has_prior l && (0 <=? order)%Z then
    let mask := edge_mask l w false (ones (m_rows H + 2 * w) (m_cols H + 2 * w)) in
    bindR (conv2 Valid largest mask Win) (fun a00 =>
    let where_ (f : nat -> nat -> R -> res R) := matR (m_rows H) (m_cols H) (fun i j =>
      if Rlt_dec (mmax B * eps8) (m_at a00 i j * m_at B i j) then bindR (rdivE (m_at B i j) (m_at a00 i j)) (f i j) else Ok (m_at B i j)) in
    if (order =? 1)%Z then
      let index (k : nat) := IZR (Z.of_nat k - Z.of_nat w) in
      let winx := weigh Win (fun _ j => index j) in let winy := weigh Win (fun i _ => index i) in
      bindR (conv2 Valid largest mask winx) (fun a10 =>
      bindR (conv2 Valid largest mask winy) (fun a01 =>
      bindR (conv2 Valid largest mask (weigh winx (fun _ j => index j))) (fun a20 =>
      bindR (conv2 Valid largest mask (weigh winy (fun i _ => index i))) (fun a02 =>
      bindR (conv2 Valid largest mask (weigh winy (fun _ j => index j))) (fun a11 =>
      bindR (conv2 Same largest H winx) (fun xP =>
      bindR (conv2 Same largest H winy) (fun yP =>
      where_ (fun i j normed => bindR (linear2_at (m_at B i j) (m_at a00 i j) (m_at a10 i j) (m_at a01 i j) (m_at a20 i j) (m_at a02 i j) (m_at a11 i j) (m_at xP i j) (m_at yP i j)) (tilted normed 4)))))))))
    else if (order =? 0)%Z then where_ (fun _ _ normed => Ok normed)
    else Err SettingError)
  else Ok B.
(** 1783-1792 *)
Fixpoint bias2_loop (n largest : nat) (Win H a00 B : mat) : res mat :=
  match n with
  | O => Ok B
  | S n' =>
      bindR (matR (m_rows H) (m_cols H) (fun i j => if Rlt_dec (mmax B * eps8) (m_at B i j) then rdivE (m_at H i j) (m_at B i j) else Ok (m_at H i j))) (fun box =>
      bindR (conv2 Same largest box Win) (fun c =>
      bindR (matR (m_rows H) (m_cols H) (fun i j => rdivE (m_at B i j * m_at c i j) (m_at a00 i j))) (bias2_loop n' largest Win H a00)))
  end.
Definition mult_bias2 (n : nat) (l : lims) (w largest : nat) (Win H B : mat) : res mat :=
  match n with
  | O => Ok B
  | _ => bindR (conv2 Valid largest (edge_mask l w true (ones (m_rows H + 2 * w) (m_cols H + 2 * w))) Win) (fun a00 => bias2_loop n largest Win H a00 B)
  end.
(** densities.py 79-86 (in place) *)
Definition normalize2 (B : mat) : res mat := if Req_EM_T (mmax B) 0 then Err NoSamples else Ok (mkMat (m_rows B) (m_cols B) (fun i j => m_at B i j / mmax B)).
(** 1726-1792: order is boundary_correction_order, n mult_bias_correction_order *)
Definition kde2_raw (order : Z) (n : nat) (l : lims) (w : nat) (c00 c11 c10 : R) (H : mat) : res mat :=
  let Win := win2 w c00 c11 c10 in let largest := (m_cols H + 2 * w + m_rows Win)%nat in
  bindR (conv2 Same largest H Win) (fun B => bindR (boundary2 order l w largest Win H B) (mult_bias2 n l w largest Win H)).
Definition kde2 (order : Z) (n : nat) (l : lims) (w : nat) (c00 c11 c10 : R) (H : mat) : res mat := bindR (kde2_raw order n l w c00 c11 c10 H) normalize2.
