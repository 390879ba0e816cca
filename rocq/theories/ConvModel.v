(** Model of the convolutions of python/getdist/convolve.py.  Floating point numbers are modelled by real numbers; the
    transforms np.fft.rfft, np.fft.irfft, fftpack.rfft and fftpack.idct (type 1) and np.convolve are modelled by their documented
    formulas. *)
From Verif Require Import PyStr PyBase DensModel.
From Coq Require Import Reals.
Local Open Scope nat_scope.

Fixpoint rsum (n : nat) (f : nat -> R) : R := match n with O => 0%R | S k => (rsum k f + f k)%R end.
Definition at_ (x : list R) (i : nat) : R := nth i x 0%R.
Definition cplx := (R * R)%type.
Definition cmul (a b : cplx) : cplx := (fst a * fst b - snd a * snd b, fst a * snd b + snd a * fst b)%R.
Definition angle (N j k : nat) : R := (2 * PI * INR j * INR k / INR N)%R.
Definition cis (t : R) : cplx := (cos t, sin t).
(** entry [k] of the discrete Fourier transform of length [N]; [x] is cut or extended by zeros to [N] entries *)
Definition dft_at (N : nat) (x : list R) (k : nat) : cplx :=
  (rsum N (fun j => at_ x j * cos (angle N j k))%R, (- rsum N (fun j => at_ x j * sin (angle N j k)))%R).
(** np.fft.rfft(x, N) *)
Definition rfft (x : list R) (N : nat) : list cplx := map (dft_at N x) (seq 0 (N / 2 + 1)).
Definition cat_ (a : list cplx) (k : nat) : cplx := nth k a (0%R, 0%R).
(** np.fft.irfft(a, n), entry [j]: imaginary parts of the entries 0 and n/2 are not used *)
Definition irfft_at (a : list cplx) (n j : nat) : R :=
  ((fst (cat_ a 0) + (if Nat.even n then fst (cat_ a (n / 2)) * cos (PI * INR j) else 0)
    + 2 * rsum ((n - 1) / 2) (fun k => fst (cmul (cat_ a (S k)) (cis (angle n j (S k)))))) / INR n)%R.
Definition irfft_n (a : list cplx) (n : nat) : res (list R) :=
  if n =? 0 then Err ValueError else Ok (map (irfft_at a n) (seq 0 n)).
(** np.fft.irfft(a): the length defaults to 2 * (len(a) - 1) *)
Definition irfft (a : list cplx) : res (list R) := irfft_n a (2 * (length a - 1)).
(** xfft * yfft; arrays of different lengths do not occur here *)
Definition cprod (a b : list cplx) : list cplx := map (fun p => cmul (fst p) (snd p)) (combine a b).
(** l[i:j] for 0 <= i, j *)
Definition slice {A} (i j : nat) (l : list A) : list A := skipn i (firstn j l).

Inductive cmode := Full | Same | Valid | OtherMode.
(** an array and its id() *)
Record arr := mkArr { a_id : nat; a_val : list R }.
Definition ckey := (nat * nat * nat)%type.
Definition ckey_eqb (a b : ckey) : bool := (fst (fst a) =? fst (fst b)) && (snd (fst a) =? snd (fst b)) && (snd a =? snd b).
Definition cache := list (ckey * list cplx).
Definition cget (k : ckey) (c : cache) : option (list cplx) := option_map snd (find (fun e => ckey_eqb (fst e) k) c).
(** 46-53 and 54-61: the transform of one array, through the cache if there is one and this argument is to be cached *)
Definition cached_rfft (c : option cache) (use : bool) (x : arr) (fsize : nat) : list cplx * option cache :=
  match c with
  | Some m => if use then
                match cget (fsize, length (a_val x), a_id x) m with
                | Some f => (f, c)
                | None => let f := rfft (a_val x) fsize in (f, Some (((fsize, length (a_val x), a_id x), f) :: m))
                end
              else (rfft (a_val x) fsize, c)
  | None => (rfft (a_val x) fsize, c)
  end.
(** 43-68 without given transforms; [None] is returned for another mode (python: None) *)
Definition convolveFFT (x y : arr) (mode : cmode) (largest_size : nat) (c : option cache) (use1 use2 : bool)
    : res (option (list R) * option cache) :=
  let n := length (a_val x) in let m := length (a_val y) in
  let size := n + m - 1 in
  bindR (nearestFFTnumber (Z.of_nat (Nat.max largest_size size))) (fun fz =>
  let fsize := Z.to_nat fz in
  let '(yf, c1) := cached_rfft c use2 y fsize in
  let '(xf, c2) := cached_rfft c1 use1 x fsize in
  bindR (irfft (cprod xf yf)) (fun r =>
  let res := slice 0 size r in
  Ok (match mode with
      | Same => Some (slice ((m - 1) / 2) ((m - 1) / 2 + n) res)
      | Full => Some res
      | Valid => Some (slice (m - 1) n res)
      | OtherMode => None
      end, c2))).

(** np.convolve: full[k] = sum of a[i] v[k - i]; the longer array comes first; 'same' has the length of the longer one and
    'valid' only the complete overlaps *)
Definition conv_full (a v : list R) : list R :=
  map (fun k => rsum (S k) (fun i => at_ a i * at_ v (k - i))%R) (seq 0 (length a + length v - 1)).
Definition np_convolve (x y : list R) (mode : cmode) : res (list R) :=
  let '(a, v) := if length x <? length y then (y, x) else (x, y) in
  let n := length a in let m := length v in
  if m =? 0 then Err ValueError
  else match mode with
       | Full => Ok (conv_full a v)
       | Same => Ok (slice ((m - 1) / 2) ((m - 1) / 2 + n) (conv_full a v))
       | Valid => Ok (slice (m - 1) n (conv_full a v))
       | OtherMode => Err ValueError
       end.
(** 26-30 *)
Definition convolve1D (x y : arr) (mode : cmode) (largest_size : nat) (c : option cache) (use1 use2 : bool)
    : res (option (list R) * option cache) :=
  if 1000 <? Nat.min (length (a_val x)) (length (a_val y)) then convolveFFT x y mode largest_size c use1 use2
  else bindR (np_convolve (a_val x) (a_val y) mode) (fun r => Ok (Some r, c)).

(** ** convolve2D, convolveFFTn 72-109 for two dimensions (without cache and given transforms) *)
(** a matrix: its shape and its entries (numbers beyond the shape are not looked at) *)
Record mat := mkMat { m_rows : nat; m_cols : nat; m_at : nat -> nat -> R }.
Definition in_at (a : mat) (i j : nat) : R := if (i <? m_rows a) && (j <? m_cols a) then m_at a i j else 0%R.
(** np.fft.rfftn(a, (N, M)): real transform along the last axis, complex transform along the first *)
Definition rfft2_at (N M : nat) (a : mat) (k l : nat) : cplx :=
  (rsum N (fun i => rsum M (fun j => in_at a i j * cos (angle N i k + angle M j l)))%R,
   (- rsum N (fun i => rsum M (fun j => in_at a i j * sin (angle N i k + angle M j l))))%R).
(** np.fft.irfftn(f, (N, M)): inverse complex transform along the first axis, ... *)
Definition ifft_rows (N : nat) (f : nat -> nat -> cplx) (i l : nat) : cplx :=
  (rsum N (fun k => fst (cmul (f k l) (cis (angle N i k))) / INR N)%R,
   rsum N (fun k => snd (cmul (f k l) (cis (angle N i k))) / INR N)%R).
(** ... then the real inverse transform along the last *)
Definition irfft2_at (N M : nat) (f : nat -> nat -> cplx) (i j : nat) : R :=
  irfft_at (map (ifft_rows N f i) (seq 0 (M / 2 + 1))) M j.
(** 104-109 for one axis: start of the centred part *)
Definition centered_start (len new : Z) : Z := ((len - new) / 2)%Z.
(** a[i0:i1, j0:j1] with i0, j0 >= 0: shape and entries *)
Definition slice2 (a : mat) (i0 i1 j0 j1 : Z) : mat :=
  mkMat (Z.to_nat (Z.min i1 (Z.of_nat (m_rows a)) - i0)) (Z.to_nat (Z.min j1 (Z.of_nat (m_cols a)) - j0))
        (fun i j => m_at a (Z.to_nat i0 + i) (Z.to_nat j0 + j)).
Definition centered (a : mat) (r c : Z) : mat :=
  let i0 := centered_start (Z.of_nat (m_rows a)) r in
  let j0 := centered_start (Z.of_nat (m_cols a)) c in
  slice2 a i0 (i0 + r) j0 (j0 + c).
Definition convolve2D (x y : mat) (mode : cmode) (largest_size : nat) : res (option mat) :=
  let s0 := m_rows x + m_rows y - 1 in
  let s1 := m_cols x + m_cols y - 1 in
  bindR (nearestFFTnumber (Z.of_nat (Nat.max largest_size s0))) (fun f0 =>
  bindR (nearestFFTnumber (Z.of_nat (Nat.max largest_size s1))) (fun f1 =>
  let N := Z.to_nat f0 in let M := Z.to_nat f1 in
  let prod k l := cmul (rfft2_at N M x k l) (rfft2_at N M y k l) in
  let ret := mkMat s0 s1 (irfft2_at N M prod) in
  Ok (match mode with
      | Full => Some ret
      | Same => Some (centered ret (Z.of_nat (m_rows x)) (Z.of_nat (m_cols x)))
      | Valid => Some (centered ret (Z.of_nat (m_rows x) - Z.of_nat (m_rows y) + 1) (Z.of_nat (m_cols x) - Z.of_nat (m_cols y) + 1))
      | OtherMode => None
      end))).

(** ** autoConvolve and autoCorrelation, 112-143 *)
(** fftpack.rfft(x, s): y(0), Re y(1), Im y(1), ..., and Re y(s/2) if s is even *)
Definition pack_rfft (x : list R) (s : nat) : list R :=
  map (fun i => let z := dft_at s x ((i + 1) / 2) in if Nat.odd i || (i =? 0) then fst z else snd z) (seq 0 s).
(** 135-138: [auto]; xt[1:-2:2] and xt[2:-1:2] pair the entries 2k - 1 and 2k *)
Definition power (xt : list R) : list R :=
  let h := length xt / 2 in
  map (fun k => if k =? h then (last xt 0 * last xt 0)%R
                else if k =? 0 then (at_ xt 0 * at_ xt 0)%R
                else (at_ xt (2 * k - 1) * at_ xt (2 * k - 1) + at_ xt (2 * k) * at_ xt (2 * k))%R) (seq 0 (h + 1)).
(** fftpack.idct(a, type=1) *)
Definition idct1 (a : list R) : list R :=
  let N := length a in
  map (fun k => (at_ a 0 + cos (PI * INR k) * last a 0
                 + 2 * rsum (N - 2) (fun i => at_ a (S i) * cos (PI * INR (S i) * INR k / INR (N - 1))))%R) (seq 0 N).
(** 130-143; [n] is None or 0 for the default.  res /= np.arange(size, size - n, -1) fails if the shapes differ *)
Definition autoConvolve (x : list R) (n : option nat) (normalize : bool) : res (list R) :=
  bindR (nearestFFTnumber (2 * Z.of_nat (length x))) (fun sz =>
  let s := Z.to_nat sz in
  let n' := match n with Some (S k) => S k | _ => length x end in
  let r := map (fun v => v / INR s)%R (firstn n' (idct1 (power (pack_rfft x s)))) in
  if normalize then
    if length r =? n' then Ok (map (fun p => (snd p / (INR (length x) - INR (fst p)))%R) (combine (seq 0 n') r))
    else Err ValueError
  else Ok r).
Definition mean (x : list R) : R := (rsum (length x) (at_ x) / INR (length x))%R.
Definition autoCorrelation (x : list R) (n : option nat) (normalized : bool) (start_index : nat) : res (list R) :=
  bindR (autoConvolve (map (fun v => v - mean x)%R x) n true) (fun r =>
  match r with
  | [] => if normalized then Err IndexError else Ok (skipn start_index r)
  | r0 :: _ => Ok (skipn start_index (if normalized then map (fun v => v / r0)%R r else r))
  end).

(** ** convolveGaussianTrunc, 204-227; [fill] is int(sigma_range * sigma), no cache *)
Definition window (sigma : R) (fill : nat) : list R :=
  let w := map (fun i => exp (- ((INR i - INR fill) / sigma) ^ 2 / 2))%R (seq 0 (2 * fill + 1)) in
  map (fun v => v / rsum (2 * fill + 1) (at_ w))%R w.
(** l[i:-j] for 0 <= i, j: for j = 0 this is l[i:0], which is empty *)
Definition slice_neg {A} (i j : nat) (l : list A) : list A := if j =? 0 then [] else slice i (length l - j) l.
Definition convolveGaussianTrunc (x : list R) (sigma : R) (fill : nat) (mode : cmode) : res (option (list R)) :=
  let actual := length x + 2 * fill in
  bindR (nearestFFTnumber (Z.of_nat actual)) (fun sz =>
  let s := Z.to_nat sz in
  bindR (irfft_n (cprod (rfft x s) (rfft (window sigma fill) s)) s) (fun r0 =>
  let r := slice 0 actual r0 in
  Ok (match mode with
      | Same => Some (slice_neg fill fill r)
      | Full => Some r
      | Valid => Some (slice_neg (2 * fill) (2 * fill) r)
      | OtherMode => None
      end))).
