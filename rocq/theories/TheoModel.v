(** Theory predictions in files: source/CosmoTheory.f90 (PowerAt 58-79, InitExtrap 105-134, ClArray 150-172, ClsAtL 175-200,
    WriteTheory 239-292, AllocateForSettings 294-307, ReadTheory 310-423).
    A file is the list of things that are written.  A read of another kind or size than was written is an error here (None).
    Numbers are exact reals.  The type of splines [S] is left open, with SaveState and LoadState inverse to each other; a spline is one item. *)
From Coq Require Import Reals List Bool Arith.
Import ListNotations.
Local Open Scope R_scope.

Section Theory.
  Context {S : Type}.
  (** 10-17, TInterpGrid2D: for each redshift the list of values *)
  Record pk := mkPk { pk_x : list R; pk_y : list R; pk_z : list (list R); islog : bool }.
  (** CosmologyTypes.f90 31-81, the parts that are used here *)
  Record settings := mkSt {
    num_cls : nat; use_CMB : bool; use_LSS : bool; use_matterpower : bool; use_nonlinear : bool; use_Weylpower : bool; use_sigmaR : bool;
    compute_tensors : bool; get_sigma8 : bool;
    lmax : nat -> nat -> nat;     (* cl_lmax(i,j) *)
    redshifts : list R;           (* power_redshifts *)
    kmax : R }.                   (* extrap_kmax *)
  (** 23-42; [derived] is derived_parameters(1:numderived) *)
  Record theory := mkT {
    derived : list R; cls : nat -> nat -> option (list R);
    ratio_02 : R; ratio_C10 : R; ratio_BB : R; tensor_AT : R; rms_deflect : R; sigma_8 : R;
    MPK : option pk; NL_MPK : option pk; WEYL : option pk; CROSS : option pk; NL_WEYL : option pk; NL_CROSS : option pk;
    sigma_R : option S; sigma8_z : option S; growth_z : option S }.
  Inductive item :=
  | Params (s : settings)           (* TCosmoTheoryParams: all but cl_lmax, power_redshifts and extrap_kmax *)
  | Sized (l : list R)              (* WriteSizedArray *)
  | Lmax (m : nat -> nat -> nat)    (* WriteSizedArray(cl_lmax) *)
  | Int (n : nat)
  | Two (n m : nat)
  | Raw (l : list R)
  | Mat (m : list (list R))
  | Spl (s : S).

  (** 105-134 *)
  Definition InitExtrap (lg : bool) (x y : list R) (z : list (list R)) (extrap_kmax : R) : pk :=
    let logkmax := ln extrap_kmax in
    let nk := length x in
    if Rlt_dec (last x 0) logkmax then
      mkPk (x ++ [logkmax]) y
        (map (fun r => r ++ [nth (nk - 1) r 0 + (nth (nk - 1) r 0 - nth (nk - 2) r 0) / (nth (nk - 1) x 0 - nth (nk - 2) x 0) * (logkmax - nth (nk - 1) x 0)]) z) lg
    else mkPk x y z lg.
  (** 58-79; the interpolation is TInterpGrid2D's *)
  Definition PowerAt (Value : list R -> list R -> list (list R) -> R -> R -> R) (p : pk) (k z : R) : R :=
    let v := Value (pk_x p) (pk_y p) (pk_z p) (ln k) z in if islog p then exp v else v.

  (** do i=1,n; do j=i,1,-1 *)
  Definition pairs (n : nat) : list (nat * nat) := concat (map (fun i => map (fun j => (i, j)) (rev (seq 1 i))) (seq 1 n)).
  (** 294-307 *)
  Definition Allocate (s : settings) : nat -> nat -> option (list R) := fun i j =>
    if (1 <=? j)%nat && (j <=? i)%nat && (i <=? num_cls s)%nat && (0 <? lmax s i j)%nat then Some (repeat 0 (lmax s i j)) else None.
  Definition set_cl (c : nat -> nat -> option (list R)) (i j : nat) (v : list R) := fun a b => if (a =? i)%nat && (b =? j)%nat then Some v else c a b.

  (** 254-260 *)
  Fixpoint write_cls (s : settings) (c : nat -> nat -> option (list R)) (ps : list (nat * nat)) : option (list item) :=
    match ps with
    | [] => Some []
    | (i, j) :: ps' => if (0 <? lmax s i j)%nat then
                         match c i j, write_cls s c ps' with Some l, Some r => Some (Sized l :: r) | _, _ => None end
                       else write_cls s c ps'
    end.
  Definition opt_items (b : bool) (l : list (option item)) : option (list item) :=
    if b then fold_right (fun o acc => match o, acc with Some x, Some r => Some (x :: r) | _, _ => None end) (Some []) l else Some [].
  Definition mat_of (p : option pk) : option item := option_map (fun q => Mat (pk_z q)) p.
  Definition app_items (a b : option (list item)) : option (list item) := match a, b with Some x, Some y => Some (x ++ y) | _, _ => None end.
  (** 246-252 *)
  Definition header (s : settings) : list item :=
    Params s :: (if use_LSS s then [Sized (redshifts s)] else []) ++ (if use_CMB s then [Lmax (lmax s)] else []) ++ [Sized [6]].
  (** 254-291 *)
  Definition write_body (s : settings) (t : theory) : option (list item) :=
    app_items (Some [Int (length (derived t)); Raw (derived t)])
    (app_items (write_cls s (cls t) (pairs (num_cls s)))
    (app_items (Some [Sized [ratio_02 t; ratio_C10 t; ratio_BB t; tensor_AT t; rms_deflect t; sigma_8 t]])
    (app_items (if use_matterpower s then
                  match MPK t with
                  | None => None
                  | Some m => app_items (Some [Two (length (pk_x m)) (length (pk_y m)); Raw (pk_x m); Raw (pk_y m); Mat (pk_z m)])
                     (app_items (opt_items (use_nonlinear s) [mat_of (NL_MPK t)])
                     (app_items (opt_items (use_Weylpower s) [mat_of (WEYL t); mat_of (CROSS t)])
                     (app_items (opt_items (use_nonlinear s && use_Weylpower s) [mat_of (NL_WEYL t); mat_of (NL_CROSS t)])
                                (opt_items (use_sigmaR s) [option_map Spl (sigma_R t)]))))
                  end
                else Some [])
      (opt_items (use_LSS s) [option_map Spl (sigma8_z t); option_map Spl (growth_z t)])))).
  (** 239-292 *)
  Definition WriteTheory (s : settings) (new_chains first : bool) (t : theory) : option (list item) :=
    app_items (Some (if first && new_chains then header s else [])) (write_body s t).

  (** 324-329: the settings of the file; FileSettings is kept between calls *)
  Definition read_header (fs : settings) (f : list item) : option (settings * list item) :=
    match f with
    | Params p :: f =>
        match (if use_LSS p then match f with Sized r :: f => Some (r, f) | _ => None end else Some (redshifts fs, f)) with
        | None => None
        | Some (r, f) =>
            match (if use_CMB p then match f with Lmax m :: f => Some (m, f) | _ => None end else Some (lmax fs, f)) with
            | None => None
            | Some (m, f) =>
                match f with
                | Sized _ :: f => Some (mkSt (num_cls p) (use_CMB p) (use_LSS p) (use_matterpower p) (use_nonlinear p) (use_Weylpower p) (use_sigmaR p)
                                          (compute_tensors p) (get_sigma8 p) m r (kmax fs), f)
                | _ => None
                end
            end
        end
    | _ => None
    end.
  (** 336-349 *)
  Fixpoint read_cls (s fs : settings) (c : nat -> nat -> option (list R)) (ps : list (nat * nat)) (f : list item) :=
    match ps with
    | [] => Some (c, f)
    | (i, j) :: ps' =>
        if (0 <? lmax fs i j)%nat then
          match f with
          | Sized cl :: f =>
              if (num_cls s <? i)%nat then read_cls s fs c ps' f
              else if (0 <? lmax s i j)%nat then
                let sz := Nat.min (lmax fs i j) (lmax s i j) in
                match c i j with
                | Some old => if (sz <=? length cl)%nat then read_cls s fs (set_cl c i j (firstn sz cl ++ skipn sz old)) ps' f else None
                | None => None
                end
              else read_cls s fs c ps' f
          | _ => None
          end
        else read_cls s fs c ps' f
    end.
  Definition read_mat (nk nz : nat) (f : list item) : option (list (list R) * list item) :=
    match f with
    | Mat m :: f => if (length m =? nz)%nat && forallb (fun r => (length r =? nk)%nat) m then Some (m, f) else None
    | _ => None
    end.
  (** 386-409: one matrix into a spectrum, newly allocated (islog is .true.) *)
  Definition read_pk (s : settings) (x y : list R) (b : bool) (old : option pk) (f : list item) : option (option pk * list item) :=
    if b then match read_mat (length x) (length y) f with
              | Some (m, f) => Some (Some (InitExtrap true x y m (kmax s)), f)
              | None => None
              end
    else Some (old, f).
  Definition read_spl (b : bool) (old : option S) (f : list item) : option (option S * list item) :=
    if b then match f with Spl v :: f => Some (Some v, f) | _ => None end else Some (old, f).
  (** 368-370; arrays of different sizes are compared where both have values *)
  Definition differ (a b : list R) : bool := existsb (fun q => if Rlt_dec 1e-6 (Rabs (fst q - snd q)) then true else false) (combine a b).
  (** 366-415 *)
  Definition read_power (s fs : settings) (t : theory) (f : list item) : option (theory * list item) :=
    if use_matterpower fs then
      if use_matterpower s && (differ (redshifts fs) (redshifts s) || (if Req_EM_T (kmax s) (kmax fs) then false else true)) then None else
      match f with
      | Two nk nz :: Raw x :: Raw y :: f =>
          if (length x =? nk)%nat && (length y =? nz)%nat then
            match read_pk s x y true None f with None => None | Some (m, f) =>
            match read_pk s x y (use_nonlinear fs) None f with None => None | Some (n, f) =>
            match read_pk s x y (use_Weylpower fs) None f with None => None | Some (w, f) =>
            match read_pk s x y (use_Weylpower fs) None f with None => None | Some (c, f) =>
            match read_pk s x y (use_nonlinear fs && use_Weylpower fs) None f with None => None | Some (nw, f) =>
            match read_pk s x y (use_nonlinear fs && use_Weylpower fs) None f with None => None | Some (nc, f) =>
            match read_spl (use_sigmaR fs) (sigma_R t) f with None => None | Some (sr, f) =>
              Some (mkT (derived t) (cls t) (ratio_02 t) (ratio_C10 t) (ratio_BB t) (tensor_AT t) (rms_deflect t) (sigma_8 t)
                      m n w c nw nc sr (sigma8_z t) (growth_z t), f)
            end end end end end end end
          else None
      | _ => None
      end
    else Some (t, f).
  (** 310-423; only the present format of files *)
  Definition ReadTheory (s fs : settings) (t0 : theory) (first : bool) (f : list item) : option (theory * settings * list item) :=
    match (if first then read_header fs f else Some (fs, f)) with None => None | Some (fs, f) =>
    match f with
    | Int n :: Raw d :: f =>
        if (length d =? n)%nat then
          match read_cls s fs (Allocate s) (pairs (num_cls fs)) f with None => None | Some (c, f) =>
          match f with
          | Sized [a; b; e; g; h; k] :: f =>
              match read_power s fs (mkT d c a b e g h k (MPK t0) (NL_MPK t0) (WEYL t0) (CROSS t0) (NL_WEYL t0) (NL_CROSS t0) (sigma_R t0) (sigma8_z t0) (growth_z t0)) f with
              | None => None
              | Some (t, f) =>
                  match read_spl (use_LSS fs) (sigma8_z t) f with None => None | Some (sz, f) =>
                  match read_spl (use_LSS fs) (growth_z t) f with None => None | Some (gz, f) =>
                    Some (mkT (derived t) (cls t) (ratio_02 t) (ratio_C10 t) (ratio_BB t) (tensor_AT t) (rms_deflect t) (sigma_8 t)
                            (MPK t) (NL_MPK t) (WEYL t) (CROSS t) (NL_WEYL t) (NL_CROSS t) (sigma_R t) sz gz, fs, f)
                  end end
              end
          | _ => None
          end end
        else None
    | _ => None
    end end.

  (** 150-172: cl(1:outmax); None for MpiStop *)
  Definition ClArray (t : theory) (outmax i j : nat) : option (list R) :=
    let '(ii, jj) := if (i <? j)%nat then (j, i) else (i, j) in
    match cls t ii jj with
    | Some c => let mx := Nat.min outmax (length c) in Some (firstn mx c ++ repeat 0 (outmax - mx))
    | None => None
    end.
  (** 175-200, with n = size(Cls,2) and max_ix_out = imax; L >= 1 *)
  Definition ClsAtL (t : theory) (n imax L : nat) : list R :=
    map (fun p => match cls t (fst p) (snd p) with Some c => if (L <=? length c)%nat then nth (L - 1) c 0 else 0 | None => 0 end) (pairs (Nat.min n imax)).
End Theory.
