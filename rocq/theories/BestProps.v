(** Best-fit files and renaming, and copies of chains: C75, C51, C53. *)
From Verif Require Import PyBase PyNum PyStrFacts BoundsSpec BoundsProofs ThinModel ThinProofs ParamModel ParamSpec ParamProofs ParamProps MargeModel MargeSpec MargeProofs BestModel BestSpec BestProofs.
From Coq Require Import ZArith QArith Qround Lqa String Ascii Bool List Lia.
Import ListNotations.
Local Open Scope nat_scope.
Local Open Scope list_scope.

(** ** C75 *)

(** A best-fit file is read as written, if names have less than 22 characters and all parameters have labels.
    Fixed parameters are marked as derived, though. *)
Theorem C75_roundtrip_partial {F} (ld fmtE f3 : F -> str) twice parse parse_int rd weight ll params derived likes want :
  (forall w, weight = Some w -> ld_ok ld parse rd w) -> ld_ok ld parse rd ll ->
  Forall (fpar_ok fmtE parse parse_int rd) params -> Forall (fpar_ok fmtE parse parse_int rd) derived ->
  Forall (flike_ok f3 twice parse rd) likes ->
  load_best parse parse_int (minimum_lines ld fmtE f3 twice weight ll params derived likes) want =
    Ok (mkbest F (option_map rd weight) (rd ll)
         (map (entry rd false false) (filter f_varying params) ++
          (if want then map (entry rd true true) (filter (fun p => negb (f_varying p)) params) else []) ++
          map (entry rd false true) derived)
         (map (like_entry twice rd) likes)).
Proof.
  intros Hw (Hl1 & Hl2) Hp Hd Hk.
  assert (FF : forall g, Forall (fpar_ok fmtE parse parse_int rd) (filter g params)).
  { intros g. rewrite Forall_forall in *. intros p X. apply filter_In in X. now apply Hp. }
  assert (BODY : read_lines parse parse_int want 0 false false
     (map (par_row fmtE) (filter f_varying params) ++ [L " "] ++ map (par_row fmtE) (filter (fun p => negb (f_varying p)) params) ++ [L " "] ++
      map (par_row fmtE) derived ++ [L " "; L " -log(Like)     chi-sq   data"] ++ map (like_row f3 twice) likes) =
     Ok (map (entry rd false false) (filter f_varying params) ++
          (if want then map (entry rd true true) (filter (fun p => negb (f_varying p)) params) else []) ++
          map (entry rd false true) derived, map (like_entry twice rd) likes)).
  { rewrite (read_rows fmtE parse parse_int rd want 0 false false _ _ (FF _)). cbn [negb orb].
    cbn [app read_lines]. rewrite (blank_line_blanks (L " ") eq_refl). cbn [Nat.eqb].
    rewrite (read_rows fmtE parse parse_int rd want 1 true true _ _ (FF _)). cbn [negb orb].
    cbn [app read_lines]. rewrite (blank_line_blanks (L " ") eq_refl). cbn [Nat.eqb].
    rewrite (read_rows fmtE parse parse_int rd want 2 false true _ _ Hd). cbn [negb orb].
    cbn [app read_lines]. rewrite (blank_line_blanks (L " ") eq_refl). cbn [Nat.eqb skipn].
    rewrite (read_likes f3 twice parse parse_int rd likes Hk). cbn [bindR fst snd]. now rewrite !app_nil_r. }
  assert (HEAD : forall w0, read_head parse parse_int w0 ([L " -log(Like) = " ++ ld ll; L "  chi-sq    = " ++ ld (twice ll); L " "] ++
      map (par_row fmtE) (filter f_varying params) ++ [L " "] ++ map (par_row fmtE) (filter (fun p => negb (f_varying p)) params) ++ [L " "] ++
      map (par_row fmtE) derived ++ [L " "; L " -log(Like)     chi-sq   data"] ++ map (like_row f3 twice) likes) want =
     Ok (mkbest F w0 (rd ll) (map (entry rd false false) (filter f_varying params) ++
          (if want then map (entry rd true true) (filter (fun p => negb (f_varying p)) params) else []) ++
          map (entry rd false true) derived) (map (like_entry twice rd) likes))).
  { intros w0. cbn [app]. unfold read_head.
    destruct (key_value (L " ") (L "-log(Like)") (L " ") (L " " ++ ld ll)) as (k & t & E & K & T);
      [reflexivity|split; [discriminate|reflexivity]|vm_compute; intuition discriminate|reflexivity|intros [X|X]; [discriminate|now apply Hl2]|].
    change (L " -log(Like) = " ++ ld ll) with (L " " ++ L "-log(Like)" ++ L " " ++ "="%char :: L " " ++ ld ll). rewrite E. cbn [hd]. rewrite K, str_eqb_refl. cbn [negb].
    rewrite T, (strip_blanks_l (L " ")), Hl1 by reflexivity. cbn [bindR].
    assert (B1 : blank_line (L "  chi-sq    = " ++ ld (twice ll)) = false).
    { change (L "  chi-sq    = " ++ ld (twice ll)) with (L "  " ++ L "chi-sq" ++ (L "    = " ++ ld (twice ll))). apply blank_line_word. split; [discriminate|reflexivity]. }
    rewrite B1. cbn [skipn]. cbn [app] in BODY. rewrite BODY. reflexivity. }
  unfold minimum_lines. destruct weight as [w|].
  - destruct (Hw w eq_refl) as (W1 & W2). cbn [app option_map]. unfold load_best.
    destruct (key_value (L "  ") (L "weight") (L "    ") (L " " ++ ld w)) as (k & t & E & K & T);
      [reflexivity|split; [discriminate|reflexivity]|vm_compute; intuition discriminate|reflexivity|intros [X|X]; [discriminate|now apply W2]|].
    change (L "  weight    = " ++ ld w) with (L "  " ++ L "weight" ++ L "    " ++ "="%char :: L " " ++ ld w). rewrite E, K, str_eqb_refl.
    rewrite T, (strip_blanks_l (L " ")), W1 by reflexivity. cbn [bindR]. cbn [app] in HEAD. apply HEAD.
  - cbn [app option_map]. unfold load_best.
    destruct (key_value (L " ") (L "-log(Like)") (L " ") (L " " ++ ld ll)) as (k & t & E & K & T);
      [reflexivity|split; [discriminate|reflexivity]|vm_compute; intuition discriminate|reflexivity|intros [X|X]; [discriminate|now apply Hl2]|].
    cbn [app] in HEAD. change (strip (L " -log(Like) = " ++ ld ll)) with (strip (L " " ++ L "-log(Like)" ++ L " " ++ "="%char :: L " " ++ ld ll)).
    rewrite E, K. change (str_eqb (L "-log(Like)") (L "weight")) with false. apply HEAD.
Qed.
Print Assumptions C75_roundtrip_partial.
(** FINDING: a name of 22 characters or more runs into the label: the name read is the beginning of the name with the
    first word of the label, and a label of one word makes the file unreadable. *)
Theorem C75_long_name_refuted {F} (fmtE : F -> str) parse parse_int f d p : word (f_name p) -> 22 <= List.length (f_name p) ->
  List.length (show_nat (f_num p)) <= 5 -> word (fmtE (f_val p)) -> List.length (fmtE (f_val p)) <= 14 -> word (f_label p) ->
  @read_bpar F parse parse_int f d (par_row fmtE p) = Err ValueError.
Proof.
  intros [N1 N2] Hl Hn Hv1 Hv2 Hlab. unfold par_row. rewrite !field_fits, ftrim_stripped by (lia || (apply strip_fix_stripped; now apply strip_word)).
  assert (A : a22 (f_name p) = firstn 22 (f_name p)).
  { unfold a22, ljust. replace (22 - List.length (f_name p)) with 0 by lia. now rewrite app_nil_r. }
  rewrite A. unfold rjust. rewrite <- !app_assoc.
  assert (W : word (firstn 22 (f_name p) ++ f_label p)).
  { split; [destruct (f_name p); discriminate|]. rewrite forallb_app. destruct Hlab as [_ ->]. rewrite andb_true_r.
    apply forallb_forall. intros c Hc. rewrite forallb_forall in N2. apply N2. rewrite <- (firstn_skipn 22 (f_name p)). apply in_app_iff. now left. }
  unfold read_bpar. rewrite split_row; [|apply blanks_repeat|apply show_nat_word|destruct (15 - List.length (fmtE (f_val p))) eqn:E; [lia|reflexivity]].
  rewrite split_row; [|apply blanks_repeat|exact Hv1|reflexivity].
  assert (S : split_ws_n 1 (L "   " ++ firstn 22 (f_name p) ++ f_label p) = [firstn 22 (f_name p) ++ f_label p]).
  { rewrite split_n_blanks by reflexivity. cbn [split_ws_n]. set (w := firstn 22 (f_name p) ++ f_label p) in *.
    rewrite lstrip_no_lead by (destruct W as [Nw Ww]; destruct w; [reflexivity|]; cbn in *; apply andb_true_iff in Ww as [Ww _]; exact Ww).
    destruct w as [|c0 w0] eqn:Ew; [destruct W; contradiction|]. rewrite <- Ew in *.
    assert (T : forall u, forallb (fun c => negb (is_space c)) u = true -> take_word u = (u, [])).
    { induction u as [|x u IH]; intros Hu; [reflexivity|]. cbn in Hu |- *. apply andb_true_iff in Hu as [H1 H2]. destruct (is_space x); [discriminate|]. now rewrite IH. }
    rewrite T by apply W. reflexivity. }
  rewrite S. reflexivity.
Qed.
Print Assumptions C75_long_name_refuted.
(** FINDING: so does a parameter without a label. *)
Theorem C75_no_label_refuted {F} (fmtE : F -> str) parse parse_int f d p : word (f_name p) -> List.length (f_name p) < 22 ->
  List.length (show_nat (f_num p)) <= 5 -> word (fmtE (f_val p)) -> List.length (fmtE (f_val p)) <= 14 -> f_label p = [] ->
  @read_bpar F parse parse_int f d (par_row fmtE p) = Err ValueError.
Proof.
  intros N Hl Hn Hv1 Hv2 Hlab. unfold par_row. rewrite !field_fits, a22_fits, Hlab by lia. change (ftrim []) with (@nil ascii). rewrite app_nil_r.
  unfold rjust, ljust. rewrite <- !app_assoc.
  unfold read_bpar. rewrite split_row; [|apply blanks_repeat|apply show_nat_word|destruct (15 - List.length (fmtE (f_val p))) eqn:E; [lia|reflexivity]].
  rewrite split_row; [|apply blanks_repeat|exact Hv1|reflexivity].
  rewrite split_row; [|reflexivity|exact N|destruct (22 - List.length (f_name p)) eqn:E; [lia|reflexivity]].
  cbn [split_ws_n]. assert (B : lstrip (repeat " "%char (22 - List.length (f_name p))) = []).
  { rewrite <- (app_nil_r (repeat _ _)), lstrip_blanks by apply blanks_repeat. reflexivity. }
  rewrite B. reflexivity.
Qed.
Print Assumptions C75_no_label_refuted.
Definition ex_fp1 : fpar str := mkfp 1 (L "0.2230000E-01") (L "omegabh2") (L "\Omega_b h^2") true.
Definition ex_fp2 : fpar str := mkfp 2 (L "0.0000000E+00") (L "mnu") (L "\Sigma m_\nu") false.
Definition ex_fp3 : fpar str := mkfp 3 (L "0.6700000E+02") (L "H0") (L "H_0") true.
Definition ex_fl : flike str := mkfl (L "5.125") (L "plik") (Some (L "CMBTT")) (L "CMB") (L "v18").
Definition ex_lines : list str := minimum_lines (fun x => L "  " ++ x) (fun x => x) (fun x => x) (fun x => x) None (L "600.5") [ex_fp2; ex_fp1] [ex_fp3] [ex_fl].
Definition p_int (s : str) : res nat := if str_eqb s (L "1") then Ok 1 else if str_eqb s (L "2") then Ok 2 else if str_eqb s (L "3") then Ok 3 else Err ValueError.
Example C75_ex : Forall (fpar_ok (fun x => x) (fun s => Ok s) p_int (fun x => x)) [ex_fp1; ex_fp2; ex_fp3] /\
  flike_ok (fun x => x) (fun x => x) (fun s => Ok s) (fun x => x) ex_fl /\ ld_ok (fun x => L "  " ++ x) (fun s => Ok s) (fun x => x) (L "600.5") /\
  nth 3 ex_lines [] = L "    1  0.2230000E-01   omegabh2              \Omega_b h^2" /\
  last ex_lines [] = L "      5.125      5.125   CMB: CMBTT = plik v18" /\
  load_best (fun s => Ok s) p_int ex_lines false = Ok (mkbest str None (L "600.5")
    [mkbf str 1 (L "0.2230000E-01") (L "omegabh2") (L "\Omega_b h^2") false false; mkbf str 3 (L "0.6700000E+02") (L "H0") (L "H_0") false true]
    [mkchi str (L "CMB") (Some (L "CMBTT")) (L "plik v18") (L "5.125")]).
Proof.
  split.
  { assert (A : forall p, In p [ex_fp1; ex_fp2; ex_fp3] -> fpar_ok (fun x => x) (fun s => Ok s) p_int (fun x => x) p); [|now apply Forall_forall].
    intros p [<-|[<-|[<-|[]]]]; constructor;
      unfold printable, word, label_ok; repeat match goal with |- _ /\ _ => split end; try (vm_compute; lia); try (vm_compute; discriminate); try (vm_compute; reflexivity). }
  split.
  { constructor.
    - split; [split; [discriminate|reflexivity]|vm_compute; lia].
    - split; [split; [discriminate|reflexivity]|]. split; [vm_compute; lia|reflexivity].
    - split; [reflexivity|vm_compute; intuition discriminate].
    - split; [split; [discriminate|reflexivity]|vm_compute; intuition discriminate].
    - intros t [= <-]. split; [split; [discriminate|reflexivity]|vm_compute; intuition discriminate].
    - split; [reflexivity|vm_compute; intuition discriminate]. }
  split; [split; [reflexivity|vm_compute; intuition discriminate]|]. repeat split; vm_compute; reflexivity.
Qed.
(** FINDING: fixed parameters are marked as derived. *)
Theorem C75_fixed_refuted : exists b p, load_best (fun s => Ok s) p_int ex_lines true = Ok b /\ In p (bf_names b) /\
  b_name p = L "mnu" /\ b_fixed p = true /\ b_derived p = true.
Proof. eexists. eexists. split; [vm_compute; reflexivity|]. split; [right; left; reflexivity|]. repeat split; reflexivity. Qed.
Print Assumptions C75_fixed_refuted.

(** ** C51 *)

(** In a .paramnames file every name is replaced at most once, as a whole, and all at the same time. *)
Theorem C51_names m l : 
  map pname (fst (rename_names m None l)) = map (renamed m) (map pname l) /\
  Forall2 (fun p q => plabel q = relabelled m (pname p) (plabel p) /\ pcomment q = pcomment p /\ pderived q = pderived p /\ prenames q = prenames p) l (fst (rename_names m None l)) /\
  (snd (rename_names m None l) = true <-> exists p, In p l /\ In (pname p) (dkeys m)).
Proof.
  unfold rename_names. cbn [fst snd]. split; [|split].
  - rewrite !map_map. apply map_ext. intros p. unfold rename_par, renamed, label_of. destruct (dget (pname p) m) as [[n lab]|]; reflexivity.
  - induction l as [|p l IH]; cbn [map]; constructor; [|exact IH]. unfold rename_par, relabelled, label_of. destruct (dget (pname p) m) as [[n [lab|]]|]; cbn; auto.
  - rewrite existsb_exists. split; intros (p & H1 & H2); exists p; (split; [exact H1|]).
    + unfold rename_par, label_of in H2. destruct (dget (pname p) m) as [e|] eqn:D; [|discriminate]. apply dget_Some_In in D. apply in_map_iff. now exists (pname p, e).
    + unfold rename_par, label_of. destruct (dget (pname p) m) as [[n lab]|] eqn:D; [reflexivity|]. apply dget_None in D. contradiction.
Qed.
Print Assumptions C51_names.
(** swapping two names swaps them *)
Theorem C51_swap a b l : a <> b -> map pname (fst (rename_names [(a, (b, None)); (b, (a, None))] None l)) =
  map (fun n => if str_eq_dec n a then b else if str_eq_dec n b then a else n) (map pname l).
Proof.
  intros N. rewrite (proj1 (C51_names _ l)). apply map_ext. intros n. unfold renamed. cbn [dget].
  unfold str_eqb. destruct (str_eq_dec a n) as [Ea|Ea], (str_eq_dec n a) as [Ea'|Ea']; try congruence.
  destruct (str_eq_dec b n) as [Eb|Eb], (str_eq_dec n b) as [Eb'|Eb']; congruence.
Qed.
Print Assumptions C51_swap.
(** Renaming with a map and then with the inverse map restores the parameters. *)
Theorem C51_inverse_partial m l : NoDup (dkeys m) -> one_to_one m -> (forall o n lab, In (o, (n, lab)) m -> lab = None) ->
  no_clash m (map pname l) -> fst (rename_names (inverse m) None (fst (rename_names m None l))) = l.
Proof.
  intros K O NL NC. unfold rename_names. cbn [fst]. rewrite map_map. rewrite <- (map_id l) at 2. apply map_ext_in. intros p Hp.
  assert (KI : NoDup (dkeys (inverse m))) by (unfold inverse, dkeys; rewrite map_map; exact O).
  unfold rename_par, label_of. destruct (dget (pname p) m) as [[n lab]|] eqn:D; cbn [fst pname plabel pcomment pderived prenames].
  - apply dget_Some_In in D. pose proof (NL _ _ _ D) as NN. subst lab. assert (X : dget n (inverse m) = Some (pname p, None)).
    { apply dget_In_NoDup; [exact KI|]. unfold inverse. apply in_map_iff. now exists (pname p, (n, None)). }
    rewrite X. cbn. now destruct p.
  - apply dget_None in D. assert (X : dget (pname p) (inverse m) = None).
    { apply dget_None. unfold dkeys, inverse. rewrite map_map. cbn [fst]. apply NC; [now apply in_map|exact D]. }
    now rewrite X.
Qed.
Print Assumptions C51_inverse_partial.
(** FINDING: nothing prevents a new name from being that of another parameter; renaming back then changes both. *)
Theorem C51_clash_refuted : exists l1, let m := [(L "a", (L "b", None))] in
  let l := [mkP (L "a") [] [] false []; mkP (L "b") [] [] false []] in
  one_to_one m /\ fst (rename_names m None l) = l1 /\ map pname l1 = [L "b"; L "b"] /\
  map pname (fst (rename_names (inverse m) None l1)) = [L "a"; L "a"].
Proof. eexists. cbn zeta. split; [repeat constructor; intros []|]. repeat split; reflexivity. Qed.
Print Assumptions C51_clash_refuted.
(** The file: with new names that are good names, the file written is read as the renamed parameters. *)
Theorem C51_file m text l : load_paramnames text = Ok l -> Forall good_param l ->
  (forall o n lab, dget o m = Some (n, lab) -> good_name n /\ forall x, lab = Some x -> good_label x) ->
  exists text', rename_paramnames m None true text = Ok text' /\
    exists l', load_paramnames text' = Ok l' /\ map pname l' = map (renamed m) (map pname l).
Proof.
  intros E G Gm. unfold rename_paramnames. rewrite E. cbn [bindR]. destruct (rename_names m None l) as [l1 has] eqn:R. eexists. split; [reflexivity|].
  pose proof (C51_names m l) as (N1 & N2 & N3). rewrite R in *. cbn [fst snd] in *. rewrite andb_true_r. destruct has.
  - assert (G1 : Forall good_param l1).
    { assert (F2 : Forall2 (fun p n => good_param p -> good_name n) l (map (renamed m) (map pname l))).
      { clear -Gm. induction l as [|p l IH]; cbn; constructor; [|exact IH]. intros (Gn & _). unfold renamed. destruct (dget (pname p) m) as [[n lab]|] eqn:D; [apply (Gm _ _ _ D)|exact Gn]. }
      rewrite <- N1 in F2. clear N1 N3 R E. revert l1 N2 F2. induction G as [|p l Gp G IH]; intros l1 N2 F2; inversion N2; subst; constructor.
      - inversion F2; subst. destruct H1 as (A & B & _). destruct Gp as (Gn & Gl & Gc). split; [apply H4; now split|]. split; [|now rewrite B].
        rewrite A. unfold relabelled. destruct (dget (pname p) m) as [[n [lab|]]|] eqn:D; try exact Gl. now apply (Gm _ _ _ D).
      - apply IH; [assumption|]. now inversion F2. }
    exists (map without_renames l1). split; [now apply C07_paramnames_round_trip|]. rewrite <- N1. rewrite map_map. reflexivity.
  - exists l. split; [exact E|]. assert (X : forall p, In p l -> renamed m (pname p) = pname p).
    { intros p Hp. unfold renamed. destruct (dget (pname p) m) eqn:D; [|reflexivity]. exfalso. assert (Y : false = true); [|discriminate].
      apply N3. exists p. split; [exact Hp|]. apply dget_Some_In in D. apply in_map_iff. now exists (pname p, p0). }
    clear -X. induction l as [|p l IH]; [reflexivity|]. cbn. rewrite X by now left. f_equal. apply IH. intros q Hq. apply X. now right.
Qed.
Print Assumptions C51_file.

Definition flat (pairs : list (str * str)) : list str := List.concat (map (fun p => [fst p; snd p]) pairs).
(** The map that the options give: the pairs, of which the last one for a name counts, before the file; a file line gives
    old name, new name and label. *)
Theorem C51_pairs m pairs o :
  (~ In o (map fst pairs) -> dget o (old_new m (flat pairs)) = dget o m) /\
  (forall n before after, pairs = before ++ (o, n) :: after -> ~ In o (map fst after) -> dget o (old_new m (flat pairs)) = Some (n, None)).
Proof.
  assert (A : forall ps m, ~ In o (map fst ps) -> dget o (old_new m (flat ps)) = dget o m).
  { induction ps as [|[a b] ps IH]; intros m0 H; [reflexivity|]. change (flat ((a, b) :: ps)) with (a :: b :: flat ps). cbn [old_new map fst In] in *.
    rewrite IH by tauto. apply dget_dset_other. intros X. apply H. now left. }
  split; [apply A|]. intros n before after -> Ha. revert m. induction before as [|[a b] ps IH]; intros m.
  - change (flat ([] ++ (o, n) :: after)) with (o :: n :: flat after). cbn [old_new]. rewrite A by exact Ha. apply dget_dset_same.
  - change (flat (((a, b) :: ps) ++ (o, n) :: after)) with (a :: b :: flat (ps ++ (o, n) :: after)). cbn [old_new]. apply IH.
Qed.
Print Assumptions C51_pairs.
(** The map file: lines [old new label] in which the label may have blanks, and blank lines between them.  The last line for a
    name counts, and pairs of the command line count before the file. *)
Theorem C51_map_file lines rows pairs :
  map_file lines rows ->
  exists m, build_mapper lines (flat pairs) = Ok m /\
    forall o, (forall n before after, pairs = before ++ (o, n) :: after -> ~ In o (map fst after) -> dget o m = Some (n, None)) /\
              (forall n lab before after, ~ In o (map fst pairs) -> rows = before ++ (o, (n, lab)) :: after -> ~ In o (map fst after) ->
                 dget o m = Some (n, Some lab)) /\
              (~ In o (map fst pairs) -> ~ In o (map fst rows) -> dget o m = None).
Proof.
  intros M.
  assert (LEN : List.length (flat pairs) =? 1 = false).
  { destruct pairs as [|[a b] ps]; [reflexivity|]. apply Nat.eqb_neq. cbn. lia. }
  assert (FILE : forall m0, exists m, map_lines m0 lines = Ok m /\
    forall o, (forall n lab before after, rows = before ++ (o, (n, lab)) :: after -> ~ In o (map fst after) -> dget o m = Some (n, Some lab)) /\
              (~ In o (map fst rows) -> dget o m = dget o m0)).
  { induction M as [|b lines rows B M IH|line lines o n lab rows R M IH]; intros m0.
    - exists m0. split; [reflexivity|]. intros o. split; [|reflexivity]. intros n lab before after E. destruct before; discriminate.
    - destruct (IH m0) as (m & E & P). exists m. split; [|exact P]. cbn [map_lines]. now rewrite (blank_line_blanks b B).
    - destruct (IH (dset o (n, Some lab) m0)) as (m & E & P). exists m. split.
      + destruct R as (b0 & b1 & b2 & b3 & -> & B0 & Wo & G1 & Wn & G2 & Lb & B3). cbn [map_lines].
        rewrite (blank_line_word b0 o _ Wo).
        unfold map_line. rewrite split_row; [|exact B0|exact Wo|now apply gap_lead]. rewrite split_row; [|apply G1|exact Wn|now apply gap_lead].
        rewrite split_n_blanks by apply G2. destruct Lb as (Ne & Sl). rewrite split_n_end.
        2:{ destruct lab; [contradiction|discriminate]. }
        2:{ destruct lab; [contradiction|]. unfold stripped in Sl. apply andb_true_iff in Sl. apply Sl. }
        cbn [map]. rewrite (strip_word o Wo), (strip_word n Wn), (strip_blanks_r b3 lab B3), (strip_stripped lab Sl). cbn [bindR]. exact E.
      + intros o'. destruct (P o') as (P1 & P2). split.
        * intros n' lab' before after E' Ha. destruct before as [|x before].
          -- cbn [app] in E'. injection E' as -> -> -> ->. rewrite P2 by exact Ha. apply dget_dset_same.
          -- cbn [app] in E'. injection E' as _ ->. now apply P1 with (1 := eq_refl).
        * cbn [map fst In]. intros N. rewrite P2 by tauto. apply dget_dset_other. intros X. apply N. now left. }
  destruct (FILE []) as (m & E & P). exists (old_new m (flat pairs)). split; [unfold build_mapper; now rewrite LEN, E|].
  intros o. destruct (C51_pairs m pairs o) as (Q1 & Q2). destruct (P o) as (P1 & P2). split; [exact Q2|]. split.
  - intros n lab before after N E' Ha. rewrite Q1 by exact N. now apply P1 with (1 := E').
  - intros N N'. rewrite Q1 by exact N. now rewrite P2.
Qed.
Print Assumptions C51_map_file.
Example C51_map_file_ex : map_file [L "a b  \alpha B"; []; L " b c x "] [(L "a", (L "b", L "\alpha B")); (L "b", (L "c", L "x"))].
Proof.
  apply mf_row; [|apply mf_blank; [reflexivity|apply mf_row; [|apply mf_nil]]].
  - exists [], (L " "), (L "  "), []. repeat split; try (vm_compute; reflexivity); try (vm_compute; discriminate).
  - exists (L " "), (L " "), (L " "), (L " "). repeat split; try (vm_compute; reflexivity); try (vm_compute; discriminate).
Qed.
(** FINDING: a name without a new name at the end is left out without a message. *)
Theorem C51_odd_refuted pairs o : build_mapper [] (flat pairs ++ [o]) = build_mapper [] (flat pairs) \/ pairs = [].
Proof.
  destruct pairs as [|[a b] ps]; [now right|left]. unfold build_mapper.
  replace (List.length (flat ((a, b) :: ps) ++ [o]) =? 1) with false by (symmetry; apply Nat.eqb_neq; rewrite app_length; cbn; lia).
  replace (List.length (flat ((a, b) :: ps)) =? 1) with false by (symmetry; apply Nat.eqb_neq; cbn; lia). cbn [map_lines bindR]. f_equal.
  generalize (@nil (str * (str * option str))). generalize ((a, b) :: ps). induction l as [|[x y] l IH]; intros m; [reflexivity|].
  change (flat ((x, y) :: l)) with (x :: y :: flat l). cbn [app old_new]. apply IH.
Qed.
Print Assumptions C51_odd_refuted.

(** In a best-fit file the lines that the program makes are read as the old ones with the names and labels replaced, if the
    lines are complete and the new names fit in the place of the old ones. *)
Theorem C51_minimum_partial {F} (parse : str -> res F) parse_int m h0 h1 h2 ch0 b1 ch1 b2 ch2 tail want :
  strip (hd [] (split_ch "="%char (strip h0))) <> L "weight" -> blank_line h1 = false ->
  Forall (row_fits m) ch0 -> blanks b1 -> Forall (row_fits m) ch1 -> blanks b2 -> Forall (row_fits m) ch2 ->
  (tail = [] \/ exists b rest, blanks b /\ tail = b :: L " -log(Like)     chi-sq   data" :: rest) ->
  let lines := [h0; h1; h2] ++ ch0 ++ [b1] ++ ch1 ++ [b2] ++ ch2 ++ tail in
  exists lines' has, rename_lines m None lines = Ok (lines', has) /\
    load_best parse parse_int lines' want = bindR (load_best parse parse_int lines want) (fun b => Ok (rename_best m b)).
Proof.
  intros W H1 C0 B1 C1 B2 C2 T lines.
  assert (BODY : body_renames parse parse_int m 0 (ch0 ++ [b1] ++ ch1 ++ [b2] ++ ch2 ++ tail)).
  { apply body_rows; [exact C0|]. apply body_blank; [exact B1|lia|]. apply body_rows; [exact C1|]. apply body_blank; [exact B2|lia|]. apply body_rows; [exact C2|].
    destruct T as [->|(b & rest & Hb & ->)]; [apply body_end|now apply body_tail]. }
  destruct BODY as (l' & h & E & R). exists ([h0; h1; h2] ++ l'), h. split.
  - unfold rename_lines, lines. cbn [app skipn firstn]. cbn [app] in E. rewrite E. reflexivity.
  - unfold lines. cbn [app]. unfold load_best. cbn [app] in E, R.
    destruct (str_eqb (strip (hd [] (split_ch "="%char (strip h0)))) (L "weight")) eqn:EW; [apply str_eqb_eq in EW; contradiction|].
    unfold read_head. destruct (split_ch "="%char (strip h0)) as [|k vs]; [reflexivity|]. cbn [hd] in EW |- *. rewrite EW. destruct (negb _); [reflexivity|].
    destruct vs as [|v vs]; [reflexivity|].
    destruct (parse (strip v)); [|reflexivity]. cbn [bindR]. rewrite H1. cbn [skipn]. rewrite R.
    destruct (read_lines _ _ _ _ _ _ _) as [[r1 r2]|]; reflexivity.
Qed.
Print Assumptions C51_minimum_partial.
Definition ex_row : str := L "    1  0.2230000E-01   omegabh2              \Omega_b h^2".
Definition ex_ml : mapper := [(L "omegabh2", (L "ombh2", Some (L "\omega_b"))); (L "ombh2", (L "omegabh2", None))].
Example C51_minimum_ex : row_fits ex_ml ex_row /\
  rename_lines ex_ml None (firstn 3 ex_lines ++ [ex_row; L " "; L " "]) =
    Ok (firstn 3 ex_lines ++ [L "    1  0.2230000E-01   ombh2                 \omega_b"; L " "; L " "], true).
Proof.
  split; [|vm_compute; reflexivity].
  exists (L "    "), (L "1"), (L "  "), (L "0.2230000E-01"), (L "   "), (L "omegabh2"), (L "              "), (L "\Omega_b h^2").
  split; [|split; [discriminate|]].
  - unfold is_row, word, gap, label_ok, blanks. repeat match goal with |- _ /\ _ => split end; try (vm_compute; discriminate); vm_compute; reflexivity.
  - intros n lab E. vm_compute in E. injection E as <- <-. split; [split; [discriminate|reflexivity]|]. split; [vm_compute; lia|].
    intros l [= <-]. split; [discriminate|reflexivity].
Qed.
Definition ex_l51 : list pinfo := [mkP (L "a") (L "A") [] false []; mkP (L "b") (L "B") [] true []; mkP (L "c") [] [] false []].
Definition ex_m51 : mapper := [(L "a", (L "b", None)); (L "b", (L "a", None)); (L "z", (L "y", None))].
Example C51_ex : NoDup (dkeys ex_m51) /\ one_to_one ex_m51 /\ no_clash ex_m51 (map pname ex_l51) /\ Forall good_param ex_l51 /\
  load_paramnames (plist_text ex_l51) = Ok ex_l51 /\
  map pname (fst (rename_names ex_m51 None ex_l51)) = [L "b"; L "a"; L "c"] /\
  fst (rename_names (inverse ex_m51) None (fst (rename_names ex_m51 None ex_l51))) = ex_l51 /\
  build_mapper [] (flat [(L "a", L "b"); (L "b", L "a"); (L "z", L "y")]) = Ok ex_m51 /\
  build_mapper [L "a b  \alpha B"; []; L "b c x"] [L "b"; L "d"] = Ok [(L "a", (L "b", Some (L "\alpha B"))); (L "b", (L "d", None))].
Proof.
  split; [repeat constructor; vm_compute; intuition discriminate|]. split; [repeat constructor; vm_compute; intuition discriminate|].
  split; [intros n [<-|[<-|[<-|[]]]] H; vm_compute in H |- *; intuition discriminate|].
  split; [|repeat split; vm_compute; reflexivity].
  repeat constructor; cbn; try discriminate; vm_compute; intuition discriminate.
Qed.
(** FINDING: a name that does not fit is written together with the label: if the label is one word, the line is no longer read. *)
Theorem C51_minimum_long_refuted {F} (parse : str -> res F) parse_int f d m b0 num b1 val b2 name b3 label newname :
  let line := b0 ++ num ++ b1 ++ val ++ b2 ++ name ++ b3 ++ label in
  is_row line b0 num b1 val b2 name b3 label -> word label -> num <> L "-log(Like)" ->
  dget name m = Some (newname, None) -> word newname -> List.length name + List.length b3 <= List.length newname ->
  exists line' has, rename_line m None line = Ok (Some (line', has)) /\ read_bpar parse parse_int f d line' = Err ValueError.
Proof.
  intros line R Wl Nn D Wn Hl. pose proof (row_strip _ _ _ _ _ _ _ _ _ R) as ST. pose proof (row_items _ _ _ _ _ _ _ _ _ R) as IT.
  destruct R as (_ & B0 & Wnum & G1 & Wv & G2 & Wname & G3 & _).
  assert (SN : strip name = name) by now apply strip_word.
  unfold rename_line. rewrite ST, IT. destruct (str_eqb num (L "-log(Like)")) eqn:E; [apply str_eqb_eq in E; contradiction|].
  cbn zeta. rewrite SN, D. cbn [label_of]. eexists. eexists. split; [reflexivity|].
  replace (List.length b3 + List.length name - List.length newname) with 0 by lia. cbn [repeat concat]. rewrite app_nil_r, take_word_app. cbn [app].
  unfold read_bpar. rewrite split_row; [|exact B0|exact Wnum|now apply gap_lead]. rewrite split_row; [|apply G1|exact Wv|now apply gap_lead].
  rewrite one_word; [reflexivity|apply G2|]. destruct Wn as [N1 N2], Wl as [N3 N4]. split; [destruct newname; discriminate||contradiction|].
  rewrite forallb_app, N2. exact N4.
Qed.
Print Assumptions C51_minimum_long_refuted.
(** FINDING: a label for a parameter whose line has none is not added: items[7] is assigned in a list of seven. *)
Theorem C51_minimum_label_refuted m b0 num b1 val b2 name l newname :
  blanks b0 -> word num -> num <> L "-log(Like)" -> gap b1 -> word val -> gap b2 -> word name -> dget name m = Some (newname, Some l) ->
  rename_line m None (b0 ++ num ++ b1 ++ val ++ b2 ++ name) = Err IndexError.
Proof.
  intros B0 Wn Nn G1 Wv G2 Wname D. assert (ST : rstrip (b0 ++ num ++ b1 ++ val ++ b2 ++ name) = b0 ++ num ++ b1 ++ val ++ b2 ++ name).
  { rewrite !app_assoc. apply rstrip_label. now apply word_label. }
  unfold rename_line. rewrite ST. rewrite re_split_row; [|assumption|assumption|now apply gap_lead]. rewrite re_split_row; [|apply G1|assumption|now apply gap_lead].
  assert (X : re_split 2 (b2 ++ name) = [b2; name; []]).
  { cbn [re_split]. rewrite lstrip_blanks by apply G2. assert (NL := label_no_lead _ (word_label _ Wname)). rewrite lstrip_no_lead by exact NL.
    assert (LB := lead_blanks_app b2 name [] (proj2 G2) Wname). rewrite app_nil_r in LB. rewrite LB.
    assert (T := take_whole name (proj2 Wname)). destruct name as [|c nm]; [destruct Wname; contradiction|]. rewrite T. reflexivity. }
  rewrite X. destruct (str_eqb num (L "-log(Like)")) eqn:E; [apply str_eqb_eq in E; contradiction|]. cbn zeta. rewrite strip_word by exact Wname. rewrite D. reflexivity.
Qed.
Print Assumptions C51_minimum_label_refuted.
(** FINDING: the new lines are never written: with --confirm the program stops when a line has changed. *)
Theorem C51_minimum_unwritten_refuted m labels confirm lines :
  rename_minimum m labels confirm lines = Ok lines \/ (exists e, rename_minimum m labels confirm lines = Err e) /\
  (forall lines', rename_lines m labels lines = Ok (lines', true) -> rename_minimum m labels true lines = Err IOError).
Proof.
  unfold rename_minimum. destruct (rename_lines m labels lines) as [[l has]|e]; cbn [bindR snd].
  - destruct (has && confirm) eqn:X; [right|now left]. split; [eauto|]. now intros l' [= _ ->].
  - right. split; [eauto|]. discriminate.
Qed.
Print Assumptions C51_minimum_unwritten_refuted.
(** FINDING: with --labelNames, the .paramnames file has the label of the new name and the .minimum file that of the old name. *)
Theorem C51_labels_differ_refuted : exists labels m has,
  fst (rename_par m (Some labels) (mkP (L "omegabh2") (L "x") [] false [])) = mkP (L "ombh2") (L "new") [] false [] /\
  rename_line m (Some labels) ex_row = Ok (Some (L "    1  0.2230000E-01   ombh2                 old", has)).
Proof.
  exists [mkP (L "ombh2") (L "new") [] false []; mkP (L "omegabh2") (L "old") [] false []], [(L "omegabh2", (L "ombh2", None))], true.
  split; vm_compute; reflexivity.
Qed.
Print Assumptions C51_labels_differ_refuted.
(** FINDING: BestFit also reads files without a chi-sq line; there the first parameter keeps its name. *)
Theorem C51_first_line_refuted m labels h0 h1 row rest lines' has : rename_lines m labels (h0 :: h1 :: row :: rest) = Ok (lines', has) ->
  firstn 3 lines' = [h0; h1; row].
Proof. unfold rename_lines. cbn [skipn firstn]. destruct (rename_body m labels rest) as [q|]; [|discriminate]. now intros [= <- _]. Qed.
Print Assumptions C51_first_line_refuted.

(** ** C53 *)

Lemma trunc_floor q : (0 <= q)%Q -> trunc q = Qfloor q.
Proof. destruct q as [n d]. unfold trunc, Qfloor, Qle. cbn. intros H. apply Z.quot_div_nonneg; lia. Qed.

(** With a burn-in to remove, the copy has the last rows of the chain: a fraction of them, rounded down, is left out. *)
Theorem C53_rows frac rows : (0 < frac)%Q -> (frac < 1)%Q -> let n := List.length rows in let k := n - List.length (copied frac true rows) in
  copied frac true rows = skipn k rows /\ (rows <> [] -> (inject_Z (Z.of_nat k) <= frac * inject_Z (Z.of_nat n) < inject_Z (Z.of_nat k) + 1)%Q).
Proof.
  intros H0 H1. cbn zeta. set (n := List.length rows). unfold copied. replace (Qeq_bool frac 0) with false
    by (symmetry; destruct (Qeq_bool frac 0) eqn:E; [apply Qeq_bool_iff in E; lra|reflexivity]). cbn [negb andb].
  fold n. set (x := (inject_Z (Z.of_nat n) * frac)%Q).
  assert (N0 : (0 <= inject_Z (Z.of_nat n))%Q) by (change 0%Q with (inject_Z 0); rewrite <- Zle_Qle; lia).
  assert (X0 : (0 <= x)%Q) by (apply Qmult_le_0_compat; lra).
  assert (T : trunc x = Qfloor x) by (apply trunc_floor; lra).
  assert (F0 : (0 <= Qfloor x)%Z) by (change 0%Z with (Qfloor 0); now apply Qfloor_resp_le).
  pose proof (Qfloor_le x) as F1. pose proof (Qlt_floor x) as F2. rewrite inject_Z_plus in F2. change (inject_Z 1) with 1%Q in F2.
  rewrite T. unfold slice_from. replace (Qfloor x <? 0)%Z with false by (symmetry; apply Z.ltb_ge; lia).
  set (k := Z.to_nat (Qfloor x)). assert (KZ : Z.of_nat k = Qfloor x) by (unfold k; now rewrite Z2Nat.id).
  assert (L0 : List.length (skipn k rows) = n - k) by (rewrite skipn_length; reflexivity).
  destruct rows as [|r rs].
  { subst n. cbn [List.length] in *. replace (skipn k []) with (@nil str) by (destruct k; reflexivity). cbn. split; [reflexivity|]. now intros []. }
  assert (Kn : k < n).
  { assert (inject_Z (Z.of_nat k) < inject_Z (Z.of_nat n))%Q; [|rewrite <- Zlt_Qlt in H; lia]. rewrite KZ. apply Qle_lt_trans with x; [exact F1|]. unfold x.
    assert (0 < inject_Z (Z.of_nat n))%Q by (change 0%Q with (inject_Z 0); rewrite <- Zlt_Qlt; subst n; cbn [List.length]; lia). nra. }
  destruct (skipn k (r :: rs)) as [|y ys] eqn:E; [change (0 = n - k) in L0; lia|]. rewrite <- E in L0 |- *.
  replace (match skipn k (r :: rs) with [] => r :: rs | kept => kept end) with (skipn k (r :: rs)) by (rewrite E; reflexivity).
  rewrite L0. replace (n - (n - k)) with k by lia. split; [reflexivity|]. intros _. rewrite KZ. assert (C : (frac * inject_Z (Z.of_nat n) == x)%Q) by (unfold x; ring). rewrite C. split; assumption.
Qed.
Print Assumptions C53_rows.
(** Without a fraction, or for a chain whose burn-in has been removed already, the copy has all rows. *)
Theorem C53_whole frac hasBurn rows : (frac == 0)%Q \/ hasBurn = false -> copied frac hasBurn rows = rows.
Proof. unfold copied. intros [H|H]; [|now rewrite H, andb_false_r]. apply Qeq_bool_iff in H. now rewrite H. Qed.
Print Assumptions C53_whole.
Example C53_ex : copied (1 # 3)%Q true (map L ["a"; "b"; "c"; "d"]%string) = map L ["b"; "c"; "d"]%string.
Proof. vm_compute. reflexivity. Qed.
(** FINDING: if nothing should remain, everything is copied. *)
Theorem C53_all_refuted frac rows : (1 <= frac)%Q -> copied frac true rows = rows.
Proof.
  intros H1. unfold copied. replace (Qeq_bool frac 0) with false
    by (symmetry; destruct (Qeq_bool frac 0) eqn:E; [apply Qeq_bool_iff in E; lra|reflexivity]). cbn [negb andb].
  set (n := List.length rows). set (x := (inject_Z (Z.of_nat n) * frac)%Q).
  assert (N0 : (0 <= inject_Z (Z.of_nat n))%Q) by (change 0%Q with (inject_Z 0); rewrite <- Zle_Qle; lia).
  assert (X0 : (inject_Z (Z.of_nat n) <= x)%Q) by (unfold x; nra).
  assert (T : trunc x = Qfloor x) by (apply trunc_floor; lra).
  assert (F : (Z.of_nat n <= Qfloor x)%Z) by (rewrite <- (Qfloor_Z (Z.of_nat n)); now apply Qfloor_resp_le).
  rewrite T. unfold slice_from. replace (Qfloor x <? 0)%Z with false by (symmetry; apply Z.ltb_ge; lia).
  rewrite skipn_all2 by (fold n; lia). reflexivity.
Qed.
Print Assumptions C53_all_refuted.
