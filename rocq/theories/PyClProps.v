(** C130: the Python program reads data of bandpowers as the Fortran program does *)
From Coq Require Import Reals ZArith Ascii String Bool Lia Lra Setoid Arith List.
From Verif Require Import PyStr McmcModel BaoModel BaoSpec BaoProofs SnProofs MapModel MapSpec MapProofs MapProps HlModel HlSpec HlProofs HlProps PyClModel PyClSpec PyClProofs.
Import ListNotations.
Local Open Scope R_scope.

(** C130: names of spectra are understood alike, also those that are refused. *)
Theorem C130_pairs m p use s : same_maps m p -> agree (fun q => ((fst q - 1)%nat, (snd q - 1)%nat)) (pair_indices m s) (py_pair p s) /\ agree from0_pair (used_pair m (used_index use) s) (py_used_pair p (py_index_of use) s).
Proof. intro H. split; [now apply py_pair_agree | now apply py_used_agree]. Qed.
Theorem C130_columns m p use n items : same_maps m p -> agree (map from0) (cols m n (used_index use) items) (py_cols p n (py_index_of use) items).
Proof. apply py_cols_agree. Qed.
Theorem C130_order isnamed used order : exists c pc, GetColsFromOrder isnamed used order = Ok c /\ py_GetColsFromOrder isnamed used order = Ok pc /\ forall k, pc k = from0 (c (S k)).
Proof. apply py_order_agree. Qed.
(** the fields: words of one character *)
Definition TEBP : list str := [L "T"; L "E"; L "B"; L "P"].
Lemma str_eqb_1 a c : str_eqb [a] [c] = ch_eqb a c.
Proof. unfold ch_eqb. destruct (str_eqb_spec [a] [c]) as [E | E]; destruct (Ascii.eqb_spec a c) as [F | F]; try reflexivity; [injection E as E; contradiction | subst; now elim E]. Qed.
Lemma field_agree s : one_char s -> agree (fun k => (k - 1)%nat) (field_of s) (py_index TEBP s) /\ forall k, field_of s = Ok k -> (1 <= k)%nat.
Proof.
  unfold one_char. destruct s as [| c [| d s]]; cbn [length]; try lia. intros _. unfold field_of, first_char, TypeIndex, CMB_CL_Fields, TEBP, L. cbn [bind].
  cbn [list_ascii_of_string py_index char_index]. rewrite !str_eqb_1.
  destruct (ch_eqb "T" c); [split; [reflexivity | intros k E; injection E as <-; lia] |]. destruct (ch_eqb "E" c); [split; [reflexivity | intros k E; injection E as <-; lia] |].
  destruct (ch_eqb "B" c); [split; [reflexivity | intros k E; injection E as <-; lia] |]. destruct (ch_eqb "P" c); [split; [reflexivity | intros k E; injection E as <-; lia] | split; [reflexivity | discriminate]].
Qed.

Lemma mapM_fields l : Forall one_char l -> agree (map (fun k => (k - 1)%nat)) (mapM field_of l) (mapM (py_index TEBP) l) /\ forall t, mapM field_of l = Ok t -> Forall (fun k => (1 <= k)%nat) t.
Proof.
  induction 1 as [| s l S1 F (IH & IP)]; [split; [reflexivity | intros t E; injection E as <-; constructor] |]. cbn [mapM]. destruct (field_agree s S1) as (A & B).
  destruct (field_of s) as [k | |]; unfold agree in A |- *; rewrite A; cbn [bind]; [| split; [reflexivity | discriminate] | split; [reflexivity | discriminate]].
  destruct (mapM field_of l) as [t | |]; unfold agree in IH; rewrite IH; cbn [bind]; (split; [reflexivity |]); [| discriminate | discriminate]. intros t' E. injection E as <-. constructor; [now apply B | now apply IP].
Qed.
(** C130: the same maps and fields. *)
Theorem C130_maps_partial map_names map_fields : Forall one_char map_fields ->
  match read_maps map_names map_fields with Ok m => exists p, py_read_maps TEBP map_names map_fields = Ok p /\ same_maps m p | _ => py_read_maps TEBP map_names map_fields = Stop end.
Proof.
  intro F. unfold read_maps, py_read_maps. destruct map_names as [| n ns].
  - eexists. split; [reflexivity |]. repeat split.
  - destruct (Nat.eqb _ _); [| reflexivity]. destruct (mapM_fields map_fields F) as (A & B). destruct (mapM field_of map_fields) as [t | |]; unfold agree in A; rewrite A; cbn [bind]; [| reflexivity | reflexivity].
    eexists. split; [reflexivity |]. split; [reflexivity |]. split; [reflexivity |]. cbn. rewrite map_map. specialize (B t eq_refl). clear - B. induction B; cbn [map]; [reflexivity |]. f_equal; [lia | assumption].
Qed.
(** What is missing: Fortran looks at the first character of a word only. *)
Theorem C130_word_refuted : exists m, read_maps [L "a"] [L "TE"] = Ok m /\ py_read_maps TEBP [L "a"] [L "TE"] = Stop.
Proof. eexists. split; reflexivity. Qed.

Lemma switch_agree m p : same_maps m p -> forall items l, agree (fun x => x) (switch_on m l items) (py_switch p l items).
Proof.
  intros (EN & _). induction items as [| s items IH]; intro l; [reflexivity |]. cbn [switch_on py_switch]. rewrite py_in_Of, py_index_Of, <- EN. destruct (IndexOf (names m) s) as [j |]; [cbn [bind]; apply IH | reflexivity].
Qed.
Lemma use_agree m p fields_use : same_maps m p -> Forall one_char fields_use ->
  match use_fields m fields_use with Ok uf => exists pf, py_use_fields TEBP p fields_use = Ok pf /\ map uf (fields m) = map pf (pfields p) | _ => py_use_fields TEBP p fields_use = Stop end.
Proof.
  intros (_ & EH & EF) F. unfold use_fields, py_use_fields. rewrite EF, <- EH. destruct fields_use as [| f fs].
  - destruct (named m); [| reflexivity]. eexists. split; [reflexivity |]. rewrite map_map. reflexivity.
  - destruct (mapM_fields _ F) as (A & B). destruct (mapM field_of (f :: fs)) as [t | |]; unfold agree in A; rewrite A; cbn [bind]; [| reflexivity | reflexivity]. eexists. split; [reflexivity |].
    rewrite map_map. apply map_ext. intro a. specialize (B t eq_refl). clear - B. induction B as [| k t K B IH]; [reflexivity |]. cbn [map existsb]. rewrite IH. f_equal. destruct (Nat.eqb_spec (S a) k); destruct (Nat.eqb_spec a (k - 1)); try lia; reflexivity.
Qed.
(** C130: the same maps are used and required, if there is no maps_use or no more are required. *)
Theorem C130_select_partial m p fields_use maps_use required : same_maps m p -> Forall one_char fields_use -> maps_use = [] \/ required = [] ->
  agree (fun x => x) (select m fields_use maps_use required) (py_select TEBP p fields_use maps_use required).
Proof.
  intros SM F H. unfold select, py_select. pose proof (use_agree m p fields_use SM F) as U. destruct (use_fields m fields_use) as [uf | |]; [| rewrite U; reflexivity | rewrite U; reflexivity].
  destruct U as (pf & -> & EU). cbn [bind]. destruct maps_use as [| u us].
  - cbn [bind]. rewrite <- EU. destruct required as [| r rs]; [reflexivity |]. pose proof (switch_agree m p SM (r :: rs) (map uf (fields m))) as A. destruct (switch_on _ _ _); unfold agree in A; rewrite A; reflexivity.
  - destruct H as [| ->]; [discriminate |]. rewrite <- (proj1 SM). pose proof (switch_agree m p SM (u :: us) (map (fun _ => false) (names m))) as A.
    destruct (switch_on _ _ (u :: us)); unfold agree in A; rewrite A; reflexivity.
Qed.
(** FINDING: with maps_use, use_map[:] is a view: the maps that are only required are used too. *)
Theorem C130_view m p fields_use maps_use required use req : same_maps m p -> Forall one_char fields_use -> maps_use <> [] -> select m fields_use maps_use required = Ok (use, req) ->
  py_select TEBP p fields_use maps_use required = Ok (req, req).
Proof.
  intros SM F NU H. unfold select, py_select in *. pose proof (use_agree m p fields_use SM F) as U. destruct (use_fields m fields_use) as [uf | |]; cbn [bind] in H; try discriminate. destruct U as (pf & -> & _). cbn [bind].
  destruct maps_use as [| u us]; [now elim NU |]. rewrite <- (proj1 SM). pose proof (switch_agree m p SM (u :: us) (map (fun _ => false) (names m))) as A. destruct (switch_on _ _ (u :: us)) as [use' | |]; cbn [bind] in H; try discriminate.
  unfold agree in A. rewrite A. cbn [bind]. destruct required as [| r rs]; cbn [bind] in H; [injection H as <- <-; reflexivity |]. pose proof (switch_agree m p SM (r :: rs) use') as A'.
  destruct (switch_on _ _ (r :: rs)) as [req' | |]; cbn [bind] in H; try discriminate. injection H as <- <-. unfold agree in A'. rewrite A'. reflexivity.
Qed.
Theorem C130_view_refuted : exists m p, same_maps m p /\ select m [] [L "b"] [L "a"] = Ok ([false; true], [true; true]) /\ py_select TEBP p [] [L "b"] [L "a"] = Ok ([true; true], [true; true]).
Proof. exists (mkMaps [L "a"; L "b"] true [2; 3]%nat), (mkPm [L "a"; L "b"] true [1; 2]%nat). split; [repeat split |]. split; reflexivity. Qed.

(** C130: files with two rows at least, all of the same length, are read alike: the bins, from 1 in the file, begin with bin_min from 0. *)
Theorem C130_file_partial (binned : bool) isnamed used order bmin bmax k rows Cl : rectangle k rows -> let sh := (if binned then 1 else 0)%Z in
  ReadClArr isnamed used order (bmin + sh) (bmax + sh) rows = Ok Cl -> exists cl, py_ReadClArr binned isnamed used order bmin bmax rows = Ok cl /\ forall a b, cl a b = Cl (S a) (bmin + sh + Z.of_nat b)%Z.
Proof. apply py_file_agree. Qed.
(** C130: a file that is read reaches the last bin or multipole. *)
Lemma read_rows_reach binned ncl cols bmin bmax rows : forall last cl cl', py_read_rows binned ncl cols bmin bmax rows last cl = Ok cl' ->
  (rows = [] /\ exists q, last = Some q /\ (bmax <= q)%Z) \/ exists pre l vals, rows = pre ++ [(l, vals)] /\ (bmax + (if binned then 1 else 0) <= l)%Z.
Proof.
  induction rows as [| [l vals] rows IH]; intros last cl cl' H; cbn [py_read_rows] in H.
  - left. split; [reflexivity |]. destruct last as [q |]; [| discriminate]. destruct (Z.ltb_spec q bmax); [discriminate |]. exists q. split; [reflexivity | assumption].
  - right. cbv zeta in H. match type of H with bind ?x _ = _ => destruct x as [c1 | |]; try discriminate end. cbn [bind] in H. apply IH in H as [(-> & q & E & B) | (pre & l' & v' & -> & B)].
    + injection E as <-. exists [], l, vals. split; [reflexivity |]. destruct binned; lia.
    + exists ((l, vals) :: pre), l', v'. split; [reflexivity | exact B].
Qed.
Theorem C130_reach binned has used order bmin bmax rows cl : py_ReadClArr binned has used order bmin bmax rows = Ok cl -> exists pre l vals, rows = pre ++ [(l, vals)] /\ (bmax + (if binned then 1 else 0) <= l)%Z.
Proof.
  unfold py_ReadClArr. destruct order; [discriminate |]. destruct (py_GetColsFromOrder _ _ _) as [c | |]; try discriminate. cbn [bind]. destruct (two_d rows); [| discriminate]. intro H. apply read_rows_reach in H as [(_ & q & E & _) | H]; [discriminate | exact H].
Qed.
Example C130_ex_reach : exists cl, py_ReadClArr false false [L "P"] [L "L"; L "PP"] 2 3 [(2%Z, [7]); (3%Z, [8])] = Ok cl.
Proof. eexists. reflexivity. Qed.
(** FINDING: a file of one row cannot be read in Python. *)
Theorem C130_row_refuted : exists Cl, ReadClArr false [L "P"] [L "L"; L "PP"] 1 1 [(1%Z, [7])] = Ok Cl /\ Cl 1%nat 1%Z = 7 /\ py_ReadClArr true false [L "P"] [L "L"; L "PP"] 0 0 [(1%Z, [7])] = Stop.
Proof. eexists. split; [reflexivity |]. split; reflexivity. Qed.
(** C130: the same windows, from files with just the columns that are needed. *)
Lemma number_used_le : forall use ix i, (nth i (number_used use ix) 0 <= ix + length (order_from 1 use))%nat.
Proof.
  assert (K : forall use a b, length (order_from a use) = length (order_from b use)) by (induction use as [| [] u IH]; intros a b; cbn [order_from length]; [reflexivity | now rewrite (IH (S a) (S b)) | apply IH]).
  induction use as [| [] u IH]; intros ix i; cbn [number_used order_from length]; [destruct i; cbn; lia | |].
  - destruct i as [| i]; cbn [nth]; [lia |]. specialize (IH (S ix) i). rewrite (K u 1%nat 2%nat) in IH. lia.
  - destruct i as [| i]; cbn [nth]; [lia |]. specialize (IH ix i). rewrite (K u 1%nat 2%nat) in IH. lia.
Qed.
Theorem C130_windows_partial m p use req lo hi bmin nb ins outs file w : same_maps m p ->
  ReadBinWindows m use req lo hi ins outs (map (fun b => (b, file b)) (upto (bmin + 1) (bmin + Z.of_nat nb))) = Ok w ->
  (forall b, (bmin + 1 <= b <= bmin + Z.of_nat nb)%Z -> rectangle (length ins) (file b)) ->
  exists q, py_readBinWindows p use req lo hi bmin nb ins outs file = Ok q /\ same_windows w q (bmin + 1) /\ pnb q = nb /\ Forall (fun x => (snd x <= fst x <= length (order_used req))%nat) (cols_in w).
Proof.
  intros SM H RC. destruct (py_windows_agree m p use req lo hi bmin nb ins outs file w SM H RC) as (q & A & B & C). exists q. repeat (split; [assumption |]).
  apply C123_columns in H. destruct H as (H & _). clear - H. induction H as [| s x ins l H F IH]; constructor; [| exact IH]. unfold used_pair in H. destruct (pair_indices m s) as [(i, j) | |]; cbn [bind fst snd] in H; try discriminate.
  injection H as <-. pose proof (number_used_le req 0 (i - 1)) as A. pose proof (number_used_le req 0 (j - 1)) as B. fold (used_index req i) in A. fold (used_index req j) in B. unfold order_used.
  destruct (Nat.ltb_spec (used_index req i) (used_index req j)); cbn [fst snd]; lia.
Qed.
(** FINDING: one column is used for all the spectra, and a window of one multipole cannot be read. *)
Theorem C130_one_column_refuted : exists W, (forall W0, read_window 2 3 2 [(2%Z, [1]); (3%Z, [5])] W0 = Stop) /\ py_window 2 3 2 [(2%Z, [1]); (3%Z, [5])] = Ok W /\ W 0%nat 3%Z = 5 /\ W 1%nat 3%Z = 5.
Proof. eexists. split; [reflexivity |]. split; [reflexivity |]. split; reflexivity. Qed.
Theorem C130_one_multipole_refuted : (exists W, read_window 2 3 1 [(2%Z, [1])] (fun _ _ => 0) = Ok W) /\ py_window 2 3 1 [(2%Z, [1])] = Stop.
Proof. split; [eexists; reflexivity | reflexivity]. Qed.
(** C130: the same matrix for each bin, if there is a window for the last spectrum and the maps of all windows are required. *)
Theorem C130_binned_partial w p first corr n nreq theory pth b M : same_windows w p first -> (b < pnb p)%nat -> (1 <= n)%nat -> (1 <= nreq)%nat -> (forall i j, (j <= i)%nat -> (i < nreq)%nat -> theory (S i) (S j) = Some (pth i j)) ->
  Forall (fun x => (snd x <= fst x <= nreq)%nat) (cols_in w) -> complete (n * (n + 1) / 2) (cols_out w) ->
  match corr with Some (w', p', F, f) => same_windows w' p' first /\ (b < pnb p')%nat /\ Forall (fun x => (snd x <= fst x <= nreq)%nat) (cols_in w') /\ complete (n * (n + 1) / 2) (cols_out w') /\ forall a, f a b = F (S a) | None => True end ->
  GetBinnedMapCls w (option_map (fun c => (fst (fst (fst c)), snd (fst c))) corr) n nreq theory (first + Z.of_nat b) = Ok M ->
  exists len X, py_binned p (option_map (fun c => (snd (fst (fst c)), snd c)) corr) (n * (n + 1) / 2) nreq pth b = Ok (len, X) /\ py_elements_to_matrix n len X = Ok M.
Proof.
  intros SW B N NR HT SO CO HC H. set (ncl := (n * (n + 1) / 2)%nat) in *. assert (NC : (1 <= ncl)%nat) by (unfold ncl; apply Nat.div_le_lower_bound; nia).
  assert (BIN : forall w p c, same_windows w p first -> (b < pnb p)%nat -> Forall (fun x => (snd x <= fst x <= nreq)%nat) (cols_in w) -> complete ncl (cols_out w) -> bin_window w nreq theory (first + Z.of_nat b) = Ok c ->
    exists X, py_bin p nreq pth b = Ok (ncl, X) /\ forall a, X a = c (S a)).
  { clear - NR HT NC. intros w p c SW B SO CO H. unfold py_bin. pose proof SW as (_ & _ & EI & EO & _). rewrite EO, (py_width_complete ncl _ NC CO), EI. cbn [bind]. unfold bin_window in H.
    destruct (py_bin_from_agree w p first nreq theory pth b SW B NR HT (cols_in w) (cols_out w) 0 (fun _ => 0) (fun _ => 0) c SO ltac:(lia) (fun _ => eq_refl) H) as (X & -> & HX). exists X. split; [reflexivity | exact HX]. }
  unfold GetBinnedMapCls in H. unfold py_binned. destruct (bin_window w nreq theory (first + Z.of_nat b)) as [c | |] eqn:EB; cbn [bind] in H; try discriminate.
  destruct (BIN w p c SW B SO CO EB) as (X & -> & HX). cbn [bind fst snd]. destruct corr as [(((w', p'), F), f) |]; cbn [option_map fst snd] in *.
  - destruct HC as (SW' & B' & SO' & CO' & HF). destruct (bin_window w' nreq theory (first + Z.of_nat b)) as [c' | |] eqn:EB'; cbn [bind] in H; try discriminate. injection H as <-.
    destruct (BIN w' p' c' SW' B' SO' CO' EB') as (X' & -> & HX'). cbn [bind fst snd]. rewrite Nat.eqb_refl. cbn [andb orb]. eexists. eexists. split; [reflexivity |]. apply py_matrix_agree; [unfold ncl; lia |].
    intros k K. fold ncl in K. rewrite HX, HF. destruct (Nat.eqb_spec ncl 1) as [E | E]; [replace k with 0%nat by lia |]; rewrite HX'; reflexivity.
  - injection H as <-. eexists. eexists. split; [reflexivity |]. apply py_matrix_agree; [unfold ncl; lia |]. intros k _. apply HX.
Qed.
(** FINDINGS: without a window for the last spectrum the program stops; a correction of the first spectrum only is added to all; a map that is not required is taken to be the last of the required maps. *)
Definition one_window (ins : list (Z * Z)) (outs : list Z) : pwindows := mkPw 2 2 1 (fun _ _ _ => 1) ins outs.
Theorem C130_last_refuted : exists w M, same_windows w (one_window [(0, 0)%Z] [0%Z]) 1 /\ GetBinnedMapCls w None 2 1 (fun _ _ => Some (fun _ => 5)) 1 = Ok M /\ M 1%nat 1%nat = 5 /\ M 2%nat 2%nat = 0 /\
  forall r, bind (py_binned (one_window [(0, 0)%Z] [0%Z]) None 3 1 (fun _ _ _ => 5) 0) (fun nc => py_elements_to_matrix 2 (fst nc) (snd nc)) <> Ok r.
Proof.
  exists (mkWin 2 2 (fun _ _ _ => 1) [(1, 1)%nat] [1%nat] None). eexists. split; [repeat split |]. split; [reflexivity |]. split; [cbv -[IZR Rplus Rmult]; lra |]. split; [reflexivity |]. intros r. cbn. discriminate.
Qed.
Theorem C130_correction_refuted : exists X, py_binned (one_window [(0, 0)%Z] [2%Z]) (Some (one_window [(0, 0)%Z] [0%Z], fun _ _ => 0)) 3 1 (fun _ _ _ => 5) 0 = Ok (3%nat, X) /\ X 0%nat = 5 /\ X 1%nat = 5.
Proof. eexists. split; [reflexivity |]. split; cbv -[IZR Rplus Rmult Rminus Ropp]; lra. Qed.
Theorem C130_required_refuted : exists X, py_binned (one_window [(0, -1)%Z] [0%Z]) None 1 1 (fun _ _ _ => 5) 0 = Ok (1%nat, X) /\ X 0%nat = 5 /\
  bin_window (mkWin 2 2 (fun _ _ _ => 1) [(1, 0)%nat] [1%nat] None) 1 (fun _ _ => Some (fun _ => 5)) 1 = Undef.
Proof. eexists. split; [reflexivity |]. split; [cbv -[IZR Rplus Rmult]; lra | reflexivity]. Qed.
(** C130: the same block of the covariance, and the same spectra of it. *)
Theorem C130_used cs : cl_use_index cs = map S (py_cl_used (map from0 cs)) /\ cov_cl_used cs = map S (py_cov_used (map from0 cs)).
Proof. split; [apply py_cl_used_agree | apply py_cov_used_agree]. Qed.
Theorem C130_covariance_partial lmin lmax size bmin nb cs scale full P b b' k k' : py_covmat true size bmin nb (map from0 cs) scale full = Ok P -> (b < nb)%nat -> (b' < nb)%nat ->
  let n := length (py_cov_used (map from0 cs)) in (k < n)%nat -> (k' < n)%nat ->
  P (b * n + k)%nat (b' * n + k')%nat =
  covmat true lmin lmax (Z.of_nat bmin + 1) (Z.of_nat bmin + Z.of_nat nb) cs scale (fun i j => full (i - 1)%nat (j - 1)%nat)
    (place (Z.of_nat bmin + 1) n (Z.of_nat bmin + 1 + Z.of_nat b) (S k)) (place (Z.of_nat bmin + 1) n (Z.of_nat bmin + 1 + Z.of_nat b') (S k')).
Proof.
  intros H B B' n K K'. unfold py_covmat in H. destruct (forallb _ _); [| discriminate]. injection H as <-. set (used := py_cov_used (map from0 cs)) in *.
  assert (LN : n = length (cov_cl_used cs)) by (rewrite py_cov_used_agree, map_length; reflexivity). rewrite LN.
  assert (AT : forall q, (q < n)%nat -> at1 (cov_cl_used cs) (S q) (S (nth q used 0%nat))).
  { intros q Q. split; [lia |]. replace (S q - 1)%nat with q by lia. rewrite py_cov_used_agree. apply map_nth_error. now apply nth_error_nth'. }
  rewrite (fun x y z => C123_cov_bins lmin lmax (Z.of_nat bmin + 1) (Z.of_nat bmin + Z.of_nat nb) cs scale (fun i j => full (i - 1)%nat (j - 1)%nat) (Z.of_nat bmin + 1 + Z.of_nat b) (S k) (Z.of_nat bmin + 1 + Z.of_nat b') (S k') _ _ x y z (AT k K) (AT k' K')) by lia. rewrite <- LN.
  assert (ROW : forall b q, (q < n)%nat -> py_cov_row bmin (length (map from0 cs)) used (b * n + q) = ((b + bmin) * length cs + nth q used 0)%nat).
  { intros c q Q. unfold py_cov_row. fold n. rewrite Nat.div_add_l by lia. rewrite (Nat.div_small q n Q), Nat.add_0_r, map_length. rewrite Nat.add_comm with (n := (c * n)%nat), Nat.mod_add by lia. rewrite (Nat.mod_small q n Q). reflexivity. }
  rewrite !ROW by assumption. replace (Z.to_nat (Z.of_nat bmin + 1 + Z.of_nat b) - 1)%nat with (b + bmin)%nat by lia. replace (Z.to_nat (Z.of_nat bmin + 1 + Z.of_nat b') - 1)%nat with (b' + bmin)%nat by lia. do 2 f_equal; lia.
Qed.
Theorem C130_unbinned_refuted size bmin nb cs scale full : py_covmat false size bmin nb cs scale full = Stop.
Proof. reflexivity. Qed.
Example C130_ex : exists p, py_read_maps TEBP [L "a"; L "b"] [L "E"; L "B"] = Ok p /\ py_used_pair p (py_index_of [true; true]) (L "axb") = Ok (1, 0)%Z /\ py_cols p 2 (py_index_of [true; true]) [L "bxb"; L "axb"] = Ok [2; 1]%Z /\
  py_cols p 1 (py_index_of [false; true]) [L "bxb"; L "axb"] = Ok [0; -1]%Z.
Proof. eexists. split; [reflexivity |]. repeat split. Qed.
Print Assumptions C130_pairs. Print Assumptions C130_columns. Print Assumptions C130_order. Print Assumptions C130_maps_partial. Print Assumptions C130_word_refuted. Print Assumptions C130_select_partial. Print Assumptions C130_view.
Print Assumptions C130_view_refuted. Print Assumptions C130_file_partial. Print Assumptions C130_row_refuted. Print Assumptions C130_windows_partial. Print Assumptions C130_one_column_refuted. Print Assumptions C130_one_multipole_refuted.
Print Assumptions C130_binned_partial. Print Assumptions C130_last_refuted. Print Assumptions C130_correction_refuted. Print Assumptions C130_required_refuted. Print Assumptions C130_used. Print Assumptions C130_covariance_partial. Print Assumptions C130_unbinned_refuted.
