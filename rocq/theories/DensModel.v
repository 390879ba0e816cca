(** Model of python/getdist/densities.py (contour levels, integrals, normalisation, limits) and of nearestFFTnumber in
    python/getdist/convolve.py.  Floating point numbers are modelled by exact rationals; splines are not modelled
    (the interpolated grid of getLimits is given). *)
From Verif Require Import PyStr PyBase.
From Coq Require Import QArith Qround.
Local Open Scope nat_scope.

Definition sumq (l : list Q) : Q := fold_right Qplus 0%Q l.
Definition Qlt_b (a b : Q) : bool := negb (Qle_bool b a).
Definition DensitiesError (m : string) : exn := OtherError (L m).
(** np.cumsum *)
Fixpoint cumq (acc : Q) (l : list Q) : list Q := match l with [] => [] | x :: r => (acc + x)%Q :: cumq (acc + x)%Q r end.
(** np.searchsorted (left) on a sorted array: number of leading entries below [t] *)
Fixpoint searchsorted (c : list Q) (t : Q) : nat :=
  match c with [] => 0 | x :: r => if Qlt_b x t then S (searchsorted r t) else 0 end.

(** ** getContourLevels, densities.py 18-55 *)
(** an array of any dimension: its cells in C order, each with its index *)
Definition cell := (list nat * Q)%type.
(** 36-37 for one axis *)
Definition halve_axis (shape : list nat) (a : list cell) (d : nat) : list cell :=
  map (fun c => let v1 := if nth d (fst c) 0 =? nth d shape 0 - 1 then (snd c / 2)%Q else snd c in
                (fst c, if nth d (fst c) 0 =? 0 then (v1 / 2)%Q else v1)) a.
Definition half_edges (shape : list nat) (a : list cell) : list cell := fold_left (halve_axis shape) (seq 0 (length shape)) a.
(** 49-54 *)
Definition contour_level (sortgrid : list Q) (t : Q) : res Q :=
  let c := cumq 0 sortgrid in
  let ix := searchsorted c t in
  if ix =? 0 then Err (DensitiesError "Contour level outside plotted ranges")
  else match nth_error c ix, nth_error c (ix - 1), nth_error sortgrid ix, nth_error sortgrid (ix - 1) with
       | Some ci, Some cp, Some si, Some sp => let d := ((ci - t) / (ci - cp))%Q in Ok (si * (1 - d) + d * sp)%Q
       | _, _, _, _ => Err IndexError
       end.
(** [order] is what inbins.reshape(-1).argsort() returns *)
Definition getContourLevels (shape : list nat) (inbins : list cell) (order : list nat) (contours : list Q) (missing : Q) (half_edge : bool)
    : res (list Q) :=
  let abins := map snd (if half_edge then half_edges shape inbins else inbins) in
  let norm := sumq abins in
  let sortgrid := map (fun k => nth k abins 0%Q) order in
  mapR (fun c => contour_level sortgrid ((1 - c) * norm - missing)%Q) contours.

(** ** Integrals *)
(** P[1:-1] *)
Definition inner {A} (l : list A) : list A := removelast (tl l).
(** Density1D.integrate 178-179 *)
Definition integrate1 (spacing : Q) (P : list Q) : res Q :=
  match P with
  | [] => Err IndexError
  | p0 :: _ => Ok (((p0 + last P 0) / 2 + sumq (inner P)) * spacing)%Q
  end.
(** Density2D.integrate 270-274; [P] is the list of rows *)
Definition integrate2 (spacing : Q) (P : list (list Q)) : res Q :=
  match P with
  | [] => Err IndexError
  | [] :: _ => Err IndexError
  | r0 :: _ =>
      let rn := last P [] in
      let col0 r := nth 0 r 0%Q in
      let coln (r : list Q) := last r 0%Q in
      Ok ((sumq (map (fun r => sumq (inner r)) (inner P)) + (col0 r0 + coln r0 + col0 rn + coln rn) / 4
           + (sumq (map col0 (inner P)) + sumq (inner r0) + sumq (map coln (inner P)) + sumq (inner rn)) / 2) * spacing)%Q
  end.
(** DensityND.integrate 331-361; [ndim] there is len(P), the length of the first axis *)
Definition nboundaries (shape ind : list nat) : nat :=
  length (filter (fun i => i =? 0) ind) + length (filter (fun p => fst p =? snd p - 1) (combine ind shape)).
Definition add_at (k : nat) (v : Q) (l : list Q) : res (list Q) :=
  match nth_error l k with
  | Some x => Ok (firstn k l ++ (x + v)%Q :: skipn (S k) l)
  | None => Err IndexError
  end.
Fixpoint pow2 (n : nat) : Q := match n with O => 1%Q | S k => (2 * pow2 k)%Q end.
Definition integrateN (shape : list nat) (P : list cell) : res Q :=
  bindR (fold_left (fun a c => bindR a (add_at (nboundaries shape (fst c)) (snd c))) P (Ok (repeat 0%Q (nth 0 shape 0 + 1)))) (fun mn =>
  Ok (sumq (map (fun p => (snd p / pow2 (fst p))%Q) (combine (seq 0 (length mn)) mn)))).

(** ** GridDensity.normalize 69-90, for a one dimensional density; a vanishing integral (numpy: not a number) is not modelled *)
Inductive norm_by := ByIntegral | ByMax | ByOther.
Definition maxq (l : list Q) : res Q :=
  match l with [] => Err ValueError | x :: r => Ok (fold_left (fun a y => if Qle_bool a y then y else a) r x) end.
Definition normalize (integral : res Q) (flat : list Q) (by_ : norm_by) : res (list Q) :=
  bindR (match by_ with
         | ByIntegral => integral
         | ByMax => bindR (maxq flat) (fun m => if Qeq_bool m 0 then Err (DensitiesError "no samples in bin") else Ok m)
         | ByOther => Err (DensitiesError "Density: unknown normalization")
         end) (fun n => Ok (map (fun v => (v / n)%Q) flat)).

(** ** Density1D.getLimits 205-247 *)
(** the cached grid (184-203) *)
Record lgrid := mkLG { lg_grid : list Q; lg_norm : Q; lg_sorted : list Q; lg_cumsum : list Q; lg_fine : Q; lg_x0 : Q; lg_xn : Q }.
(** 221-226 *)
Definition trial_of (g : lgrid) (p : Q) : res Q :=
  let target := ((1 - p) * lg_norm g)%Q in
  let ix := searchsorted (lg_cumsum g) target in
  match nth_error (lg_sorted g) ix with
  | None => Err IndexError
  | Some s => if 0 <? ix then
                match nth_error (lg_cumsum g) ix, nth_error (lg_cumsum g) (ix - 1), nth_error (lg_sorted g) (ix + 1) with
                | Some c, Some cp, Some s1 => let frac := ((c - target) / (c - cp))%Q in Ok ((1 - frac) * s + frac * s1)%Q
                | _, _, _ => Err IndexError
                end
              else Ok s
  end.
(** np.argmax of a boolean array: first True, 0 if there is none *)
Fixpoint first_true (l : list bool) : option nat := match l with [] => None | b :: r => if b then Some 0 else option_map S (first_true r) end.
Definition argmax_b (l : list bool) : nat := match first_true l with Some i => i | None => 0 end.
Definition inj (n : nat) : Q := inject_Z (Z.of_nat n).
(** 228-243; grid[-1] is the last entry, grid[i + 1] beyond the end fails.  A vanishing denominator, for which numpy gives an
    infinite limit with a warning, is an error here *)
Definition at_py (g : list Q) (i : nat) (back : nat) : Q := (* g[i - back] *) if back <=? i then nth (i - back) g 0%Q else last g 0%Q.
Definition qdiv (a b : Q) : res Q := if Qeq_bool b 0 then Err ZeroDivisionError else Ok (a / b)%Q.
Definition limits_of (g : lgrid) (trial : Q) : res (Q * Q * bool * bool) :=
  let grid := lg_grid g in
  let lim_bot := Qle_bool trial (nth 0 grid 0%Q) in
  let lim_top := Qle_bool trial (last grid 0%Q) in
  bindR (if lim_bot then Ok (lg_x0 g) else
         let i := argmax_b (map (fun v => Qlt_b trial v) grid) in
         bindR (qdiv (nth i grid 0 - trial)%Q (nth i grid 0 - at_py grid i 1)%Q) (fun d =>
         Ok (lg_x0 g + (inj i - d) * lg_fine g)%Q)) (fun mn =>
  bindR (if lim_top then Ok (lg_xn g) else
         let i := length grid - argmax_b (map (fun v => Qlt_b trial v) (rev grid)) - 1 in
         match nth_error grid (i + 1) with
         | None => Err IndexError
         | Some next => bindR (qdiv (nth i grid 0 - trial)%Q (nth i grid 0 - next)%Q) (fun d =>
                        Ok (lg_x0 g + (inj i + d) * lg_fine g)%Q)
         end) (fun mx =>
  Ok (mn, mx, lim_bot, lim_top))).
(** what is asked for: a number, a python list, or a numpy array (only then atleast_1d returns the same object) *)
Inductive parg := PNum (p : Q) | PList (ps : list Q) | PArray (ps : list Q).
Inductive pres := One (r : Q * Q * bool * bool) | Many (l : list (Q * Q * bool * bool)).
Definition getLimits (g : lgrid) (p : parg) : res pres :=
  let one q := bindR (trial_of g q) (limits_of g) in
  match p with
  | PNum q => bindR (one q) (fun r => Ok (One r))
  | PList [] | PArray [] => Ok (Many [])
  | PList (q :: _) => bindR (one q) (fun r => Ok (One r))     (* 244-245 returns in the first turn *)
  | PArray ps => bindR (mapR one ps) (fun l => Ok (Many l))
  end.

(** ** nearestFFTnumber, convolve.py 4-23 *)
Definition fastFFT : list Z := [
     2; 4; 6; 8; 10; 12; 16; 20; 24; 32; 40; 48; 64; 80; 96; 128; 144; 160; 192; 256; 288; 320; 384; 432; 480;
     512; 576; 640; 720; 768; 864; 960; 1024; 1152; 1280; 1440; 1536; 1728; 1920; 2048; 2304; 2560; 2880; 3072;
     3456; 3840; 4096; 4608; 5120; 5760; 6144; 6912; 7680; 8192; 9216; 10240; 11520; 12288; 13824; 15360; 16384;
     18432; 20480; 23040; 24576; 27648; 30720; 32768; 36864; 40960; 46080; 49152; 55296; 61440; 65536; 73728; 81920;
     92160; 98304; 110592; 122880; 131072; 147456; 163840; 184320; 196608; 221184; 245760; 262144; 294912; 327680;
     368640; 393216; 442368; 491520; 524288; 589824; 655360; 737280; 786432; 884736; 983040; 1048576; 1179648;
     1310720; 1474560; 1572864; 1769472; 1966080; 2097152; 2359296; 2621440; 2949120; 3145728; 3538944; 3932160;
     4194304; 4718592; 5242880; 5898240; 6291456; 7077888; 7864320; 8388608; 9437184; 10485760; 11796480; 12582912;
     14155776; 15728640; 16777216; 18874368; 20971520; 23592960; 25165824; 28311552; 31457280; 33554432; 37748736;
     41943040; 47185920; 50331648; 56623104; 62914560; 67108864; 75497472; 83886080; 94371840; 100663296; 113246208;
     125829120; 134217728; 150994944; 167772160; 188743680; 201326592; 226492416; 234881024; 251658240; 268435456;
     301989888; 335544320; 377487360; 402653184; 452984832; 503316480; 536870912; 603979776; 671088640; 754974720;
     805306368; 905969664; 1006632960; 1207959552; 1342177280; 1358954496; 1509949440; 1610612736; 1811939328;
     2013265920]%Z.
(** np.searchsorted by bisection (numpy's binsearch, side='left'); [lo], [hi] as there; fuel: the bounds' distance *)
Fixpoint bisect (fuel : nat) (a : list Z) (x : Z) (lo hi : nat) : nat :=
  match fuel with
  | O => lo
  | S k => if lo <? hi then
             let mid := (lo + hi) / 2 in
             if (nth mid a 0 <? x)%Z then bisect k a x (S mid) hi else bisect k a x lo mid
           else lo
  end.
Definition nearestFFTnumber (x : Z) : res Z :=
  match nth_error fastFFT (bisect (length fastFFT) fastFFT x 0 (length fastFFT)) with
  | Some n => Ok (Z.max x n)
  | None => Err IndexError
  end.
