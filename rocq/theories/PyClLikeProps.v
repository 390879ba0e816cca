(** The likelihoods of python/CMBlikes.py: chi-squared and the spectra of theory, beside those of CMBlikes.f90. *)
From Coq Require Import Reals ZArith Ascii String Bool Lia Lra Setoid Arith List.
From Verif Require Import PyStr McmcModel BaoModel BaoSpec BaoProofs SnProofs MapModel MapSpec MapProofs MapProps HlModel HlSpec HlProofs HlProps PyClModel PyClSpec PyClProofs.
Import ListNotations.
Local Open Scope R_scope.

(** C131: the transform and the exact likelihood do not depend on the libraries: any decompositions, any inverse. *)
Theorem C131_transform diag eigh n C Chat Cf : diagonalizes diag n -> diagonalizes eigh n -> symmetric n C -> positive n C -> symmetric n Chat -> positive n Chat ->
  exists T T', Transform diag n C Chat Cf = Ok T /\ py_transform eigh n C Chat Cf = Ok T' /\ meq n T T'.
Proof. intros. apply py_transform_agree; try assumption. reflexivity. Qed.
Theorem C131_exact diag chol inv slogdet det n f C Chat l : diagonalizes diag n -> factorizes chol n -> inverts inv n -> is_determinant n det -> logs_det slogdet n det -> symmetric n C -> positive n C -> symmetric n Chat -> positive n Chat ->
  exists c, ExactChiSq diag chol n f C Chat l = Ok c /\ py_exact inv slogdet n f C Chat l = Ok c.
Proof. intros. apply (py_exact_agree diag chol inv slogdet det); try assumption. reflexivity. Qed.
Lemma mapM_map {A B C} (g : A -> B) (f : B -> out C) l : mapM f (map g l) = mapM (fun x => f (g x)) l.
Proof. induction l as [| x l IH]; [reflexivity |]. cbn [map mapM]. rewrite IH. reflexivity. Qed.
Lemma mapM_both {A B} (f g : A -> out B) (Q : B -> Prop) l : (forall x, In x l -> exists y, f x = Ok y /\ g x = Ok y /\ Q y) -> exists ys, mapM f l = Ok ys /\ mapM g l = Ok ys /\ Forall Q ys /\ length ys = length l.
Proof.
  induction l as [| x l IH]; intro H; [exists []; repeat split; constructor |]. destruct (H x (or_introl eq_refl)) as (y & F & G & Y). destruct IH as (ys & E1 & E2 & E3 & E4); [intros z Z; apply H; now right |].
  exists (y :: ys). cbn [mapM]. rewrite F, G. cbn [bind]. rewrite E1, E2. cbn [length]. rewrite E4. repeat split. constructor; assumption.
Qed.
Lemma elements_meq n M M' : meq n M M' -> MatrixToElements n M = MatrixToElements n M'.
Proof. intro E. unfold MatrixToElements. apply map_ext_in. intros (i, j) I. apply tri_In in I. cbn [fst snd]. apply E; lia. Qed.
Lemma py_quad_form n M x : symmetric n M -> QuadForm n M x = py_quad n M x.
Proof.
  intro Sy. rewrite QuadForm_form by exact Sy. rewrite form_times. unfold py_quad. rewrite sum1_total. apply total_ext. intros i _. rewrite sum1_total. ring.
Qed.
Lemma used_length cs : length (cl_use_index cs) = length (filter (fun c => negb (Nat.eqb c 0)) cs).
Proof. unfold cl_use_index. rewrite map_length. apply used_cols_all. Qed.
(** C131: the chi-squared of Python is that of Fortran, for all approximations, if data that are Gaussian come without noise and data that are exact are not binned. *)
Theorem C131_chisq_partial diag chol eigh inv slogdet det d p theory ptheory C C' : same_data d p -> (like d = Gaussian -> pinc p = false) -> (like d = Exact -> binned d = false) ->
  (forall b, (b < pbins p)%nat -> theory (blo d + Z.of_nat b)%Z = Ok (C b) /\ ptheory b = Ok (C' b) /\ meq (nmaps d) (C b) (C' b)) ->
  (like d <> Gaussian -> forall b, (b < pbins p)%nat -> symmetric (nmaps d) (noisy d (C b) (blo d + Z.of_nat b)) /\ positive (nmaps d) (noisy d (C b) (blo d + Z.of_nat b)) /\
     symmetric (nmaps d) (chatM d (blo d + Z.of_nat b)) /\ positive (nmaps d) (chatM d (blo d + Z.of_nat b))) ->
  (like d <> Gaussian -> diagonalizes diag (nmaps d) /\ diagonalizes eigh (nmaps d)) ->
  (like d = Exact -> factorizes chol (nmaps d) /\ inverts inv (nmaps d) /\ is_determinant (nmaps d) det /\ logs_det slogdet (nmaps d) det) ->
  (like d <> Exact -> symmetric (stacked d) (icov d)) ->
  exists c, chisq diag chol d theory = Ok c /\ py_chisq eigh inv slogdet p ptheory = Ok c.
Proof.
  intros SD HG HE HT HP HD HX HS. destruct SD as [En El Eb Ef Es Eno Eh Ec Eu Ei Efs]. unfold chisq, py_chisq, upto. rewrite <- Es, !mapM_map, <- El.
  assert (NM : forall b, (b < pbins p)%nat -> meq (nmaps d) (noisy d (C b) (blo d + Z.of_nat b)) (py_noisy p (C' b) b)).
  { intros b B i j I J. destruct (HT b B) as (_ & _ & EC). unfold noisy, py_noisy, with_noise, py_with_noise, py_has_noise. rewrite <- El, (Eno b B), (EC i j I J). destruct (like d); try reflexivity. rewrite (HG eq_refl). reflexivity. }
  assert (VEC : forall T T', meq (nmaps d) T T' -> vec_bin (clix d) (MatrixToElements (nmaps d) T) = map (fun c => nth c (py_matrix_to_elements (pn p) T') 0) (pused p)).
  { intros T T' ET. unfold vec_bin. rewrite Eu, map_map, py_elements_agree, <- En, (elements_meq _ _ _ ET). apply map_ext. intro c. replace (S c - 1)%nat with c by lia. reflexivity. }
  assert (QUAD : like d <> Exact -> forall l, Forall (fun v : list R => length v = length (cl_use_index (clix d))) l -> length l = pbins p ->
    QuadForm (length (concat l)) (icov d) (fun i => nth (i - 1) (concat l) 0) = py_quad (length (concat l)) (pcovinv p) (fun i => nth (i - 1) (concat l) 0)).
  { intros NE l F LL. rewrite <- Ei. apply py_quad_form. assert (E : length (concat l) = stacked d); [| rewrite E; now apply HS].
    unfold stacked. rewrite <- Es, <- LL, <- used_length. clear - F. induction F as [| v l V F IH]; [reflexivity |]. cbn [concat length]. rewrite app_length, IH, V. lia. }
  destruct (like d) eqn:EL.
  - destruct (mapM_both (fun x => bind (theory (blo d + Z.of_nat x)%Z) (fun C0 => bin_vector diag d C0 (blo d + Z.of_nat x)%Z)) (fun b => bind (ptheory b) (fun C0 => py_vector eigh p C0 b)) (fun v => length v = length (cl_use_index (clix d))) (seq 0 (pbins p))) as (ys & E1 & E2 & F & LL).
    + intros b I. apply in_seq in I. assert (B : (b < pbins p)%nat) by lia. destruct (HT b B) as (-> & -> & _). cbn [bind]. unfold bin_vector, py_vector. rewrite EL, <- El. destruct (HP ltac:(discriminate) b B) as (P1 & P2 & P3 & P4). destruct (HD ltac:(discriminate)) as (D1 & D2).
      rewrite (Eh b B) in *. rewrite (Ec b B). destruct (py_transform_agree diag eigh (nmaps d) _ _ (phat p b) (pcf p b) D1 D2 (NM b B) P1 P2 P3 P4) as (T & T' & -> & HT' & ET). rewrite <- En, HT'. cbn [bind].
      eexists. split; [reflexivity |]. split; [rewrite (VEC T T' ET), <- En; reflexivity |]. unfold vec_bin. apply map_length.
    + rewrite E1, E2. cbn [bind]. eexists. split; [reflexivity |]. rewrite seq_length in LL. rewrite (QUAD ltac:(discriminate) ys F LL). reflexivity.
  - destruct (mapM_both (fun x => bind (theory (blo d + Z.of_nat x)%Z) (fun C0 => bin_vector diag d C0 (blo d + Z.of_nat x)%Z)) (fun b => bind (ptheory b) (fun C0 => py_vector eigh p C0 b)) (fun v => length v = length (cl_use_index (clix d))) (seq 0 (pbins p))) as (ys & E1 & E2 & F & LL).
    + intros b I. apply in_seq in I. assert (B : (b < pbins p)%nat) by lia. destruct (HT b B) as (-> & -> & _). cbn [bind]. unfold bin_vector, py_vector. rewrite EL, <- El. cbn [bind].
      eexists. split; [reflexivity |]. split; [| unfold vec_bin; apply map_length]. f_equal. symmetry. apply VEC. intros i j I' J. rewrite (NM b B i j I' J), (Eh b B). reflexivity.
    + rewrite E1, E2. cbn [bind]. eexists. split; [reflexivity |]. rewrite seq_length in LL. rewrite (QUAD ltac:(discriminate) ys F LL). reflexivity.
  - rewrite (HE eq_refl).
    destruct (mapM_both (fun x => bind (theory (blo d + Z.of_nat x)%Z) (fun C0 => ExactChiSq diag chol (nmaps d) (fsky d) (noisy d C0 (blo d + Z.of_nat x)) (chatM d (blo d + Z.of_nat x)) (blo d + Z.of_nat x)%Z))
      (fun b => bind (ptheory b) (fun C0 => py_exact inv slogdet (pn p) (pfsky p) (py_noisy p C0 b) (phat p b) (pbmin p + Z.of_nat b))) (fun _ => True) (seq 0 (pbins p))) as (ys & E1 & E2 & _).
    + intros b I. apply in_seq in I. assert (B : (b < pbins p)%nat) by lia. destruct (HT b B) as (-> & -> & _). cbn [bind]. destruct (HP ltac:(discriminate) b B) as (P1 & P2 & P3 & P4). destruct (HD ltac:(discriminate)) as (D1 & D2). destruct (HX eq_refl) as (X1 & X2 & X3 & X4).
      rewrite (Eh b B) in *. assert (EB : pbinned p = false) by (rewrite <- Eb; now apply HE). rewrite EB in Ef. rewrite Ef, <- En, <- Efs.
      destruct (py_exact_agree diag chol inv slogdet det (nmaps d) (fsky d) _ _ (phat p b) (blo d + Z.of_nat b) D1 X1 X2 X3 X4 (NM b B) P1 P2 P3 P4) as (c & H1 & H2). exists c. split; [exact H1 |]. split; [exact H2 | exact Logic.I].
    + rewrite E1, E2. cbn [bind]. eexists. split; reflexivity.
Qed.
(** with the prior of the calibration, Fortran has half of it *)
Theorem C131_loglike diag chol eigh inv slogdet d p theory ptheory c x prior : chisq diag chol d theory = Ok c -> py_chisq eigh inv slogdet p ptheory = Ok c -> 0 < x ->
  exists v, py_chi_squared eigh inv slogdet p ptheory (Some x) prior = Ok v /\ LogLike diag chol d theory (Some x) prior = Ok (v / 2).
Proof.
  intros H H' X. unfold LogLike, py_chi_squared. rewrite H, H'. cbn [bind]. destruct (Rlt_dec 0 prior); [destruct (Rlt_dec 0 x); [| contradiction] |]; eexists; split; reflexivity.
Qed.
(** FINDING: a prior without the parameter stops the Python program. *)
Theorem C131_parameter_refuted diag chol eigh inv slogdet d p theory ptheory c prior : chisq diag chol d theory = Ok c -> py_chisq eigh inv slogdet p ptheory = Ok c -> 0 < prior ->
  LogLike diag chol d theory None prior = Ok (c / 2) /\ py_chi_squared eigh inv slogdet p ptheory None prior = Stop.
Proof. intros H H' P. unfold LogLike, py_chi_squared. rewrite H, H'. cbn [bind]. split; [reflexivity |]. destruct (Rlt_dec 0 prior); [reflexivity | contradiction]. Qed.
(** noise: in theory and data, or in none of them *)
Theorem C131_noise_partial a inc C signal noise : a <> Gaussian \/ inc = false -> py_with_noise a inc C noise - py_hat_used a inc (in_file inc signal noise) noise = C - signal /\
  py_hat_used a inc (in_file inc signal noise) noise = hat_used a inc (in_file inc signal noise) noise.
Proof. intro H. unfold py_with_noise, py_has_noise, py_hat_used, hat_used, in_file. destruct a, inc; cbn [negb]; try (destruct H; [congruence | discriminate]); split; ring. Qed.
(** FINDING: Gaussian data with noise: the noise is subtracted from the data and still added to the theory. *)
Theorem C131_noise_refuted C signal noise : py_with_noise Gaussian true C noise - py_hat_used Gaussian true (in_file true signal noise) noise = C - signal + noise.
Proof. unfold py_with_noise, py_hat_used, in_file, py_has_noise. cbn. ring. Qed.
(** FINDING: exact and binned: Fortran stops, and Python takes the number of the bin for the multipole. *)
Theorem C131_binned_refuted : exists d p, same_data d p /\ (forall diag chol theory, chisq diag chol d theory = Stop) /\ forall eigh inv slogdet, py_chisq eigh inv slogdet p (fun _ => Ok (fun _ _ => 1)) = Ok (2 - 1 - ln 2 + 0).
Proof.
  exists (mkData 1 Exact true 1 1 (fun _ _ _ => 0) (fun _ _ _ => 2) (fun _ _ _ => 0) [] (fun _ _ => 0) 1). exists (mkPd 1 Exact false true 0 1 (fun _ _ _ => 0) (fun _ _ _ => 2) (fun _ _ _ => 0) [] (fun _ _ => 0) 1).
  split; [split; reflexivity |]. split; [reflexivity |]. intros. cbn. unfold py_exact. cbn. unfold py_noisy. cbn. destruct (Req_EM_T (1 + 0) 0); [lra |]. destruct (Rlt_dec 0 (2 / (1 + 0))) as [_ | N]; [| exfalso; apply N; lra]. cbn.
  replace (2 / (1 + 0)) with 2 by field. f_equal. ring.
Qed.
(** C131: spectra of the fields of the maps, from arrays that reach the last multipole. *)
Theorem C131_theory_partial fields cls th lmin lmax i j : (0 <= lmin <= lmax)%Z -> (forall f g, (g <= f)%nat -> match cls f g with Some c => (lmax < Z.of_nat (length c))%Z /\ th (S f) (S g) = Some (fun l => nth (Z.to_nat l) c 0) | None => th (S f) (S g) = None end) ->
  exists D, py_map_theory fields cls lmin lmax i j = Ok D /\ forall l, D l = map_theory (fun i => S (fields i)) th i j l.
Proof.
  intros LR H. unfold py_map_theory, map_theory, py_theory_ij, py_get. cbn [Nat.ltb].
  assert (G : forall f g, (g <= f)%nat -> exists D, match cls f g with Some c => py_slice lmin lmax c | None => Ok (fun _ => 0) end = Ok D /\ forall l, D l = match th (S f) (S g) with Some C => C l | None => 0 end).
  { intros f g L. specialize (H f g L). destruct (cls f g) as [c |]; [| rewrite H; eexists; split; reflexivity]. destruct H as (LC & ->). unfold py_slice. replace (Nat.min _ _) with (Z.to_nat (lmax - lmin + 1)) by lia. rewrite Nat.eqb_refl. eexists. split; reflexivity. }
  destruct (Nat.leb_spec (fields i) (fields j)) as [L | L].
  - destruct (Nat.ltb_spec (fields i) (fields j)) as [L2 | L2]; destruct (Nat.ltb_spec (S (fields i)) (S (fields j))); try lia; [now apply G |]. replace (fields j) with (fields i) by lia. now apply G.
  - destruct (Nat.ltb_spec (fields j) (fields i)); [| lia]. destruct (Nat.ltb_spec (S (fields i)) (S (fields j))); [lia |]. apply G. lia.
Qed.
(** shorter arrays stop the program; FINDING: but one that ends at the first multipole is taken to be constant *)
Theorem C131_short lmin lmax c : (0 <= lmin <= lmax)%Z -> (Z.of_nat (length c) <= lmax)%Z -> Z.of_nat (length c) <> (lmin + 1)%Z -> py_slice lmin lmax c = Stop.
Proof. intros L S N. unfold py_slice. destruct (Nat.eqb_spec (Nat.min (length c - Z.to_nat lmin) (Z.to_nat (lmax + 1) - Z.to_nat lmin)) (Z.to_nat (lmax - lmin + 1))); [lia |]. destruct (Nat.eqb_spec (Nat.min (length c - Z.to_nat lmin) (Z.to_nat (lmax + 1) - Z.to_nat lmin)) 1); [lia | reflexivity]. Qed.
Theorem C131_short_refuted : exists D, py_slice 2 2500 [0; 0; 7] = Ok D /\ D 2500%Z = 7.
Proof. eexists. split; [reflexivity |]. reflexivity. Qed.
(** C131: aberration and calibration. *)
Lemma py_aberration_agree a lmin lmax D : (0 < lmin < lmax)%Z -> exists D', py_aberration a lmin lmax D = Ok D' /\ forall l, aberration a lmin lmax D l = Ok (D' l).
Proof.
  intro LL. unfold py_aberration, aberration. destruct (Z.leb_spec lmin 0); [lia |]. destruct (Z.leb_spec lmax lmin); [lia |]. cbn [orb]. eexists. split; [reflexivity |]. intro l. cbv beta zeta. f_equal.
  set (c0 := fun l => D l / IZR (l * (l + 1))). set (cl := fun l => D l / (IZR l * (IZR l + 1))).
  assert (EC : forall l, c0 l = cl l) by (intro k; unfold c0, cl; rewrite mult_IZR, plus_IZR; reflexivity).
  set (d1 := fun l => if ((lmin + 1 <=? l)%Z && (l <=? lmax - 1)%Z)%bool then 1 / 2 * (cl (l + 1)%Z - cl (l - 1)%Z) else cl l).
  set (c1 := fun l => if ((lmin <? l)%Z && (l <? lmax)%Z)%bool then (c0 (l + 1)%Z - c0 (l - 1)%Z) / 2 else c0 l).
  assert (E1 : forall k, c1 k = d1 k).
  { intro k. unfold c1, d1. rewrite !EC. assert (EB : ((lmin <? k)%Z && (k <? lmax)%Z)%bool = ((lmin + 1 <=? k)%Z && (k <=? lmax - 1)%Z)%bool). { destruct (Z.ltb_spec lmin k), (Z.ltb_spec k lmax), (Z.leb_spec (lmin + 1) k), (Z.leb_spec k (lmax - 1)); try lia; reflexivity. }
    rewrite EB. destruct ((lmin + 1 <=? k)%Z && (k <=? lmax - 1)%Z)%bool; field. }
  change (D l + a * (IZR l ^ 2 * (IZR l + 1) * (if (l =? lmax)%Z then if (lmax - 1 =? lmin)%Z then d1 (lmin + 1)%Z else d1 (lmax - 1)%Z else if (l =? lmin)%Z then d1 (lmin + 1)%Z else d1 l)) =
    D l + a * ((if (l =? lmax)%Z then if (lmax - 1 =? lmin)%Z then c1 (lmin + 1)%Z else c1 (lmax - 1)%Z else if (l =? lmin)%Z then c1 (lmin + 1)%Z else c1 l) * IZR (l * (l + 1)) * IZR l)).
  rewrite !E1, mult_IZR, plus_IZR. ring.
Qed.
Theorem C131_adapt a cal lmin lmax f g D : (0 < lmin < lmax)%Z -> cal <> Some 0 -> exists D', py_adapt a cal lmin lmax f g D = Ok D' /\ forall l, adapt a (fun _ _ D => D) cal lmin lmax (S f) (S g) D l = Ok (D' l).
Proof.
  intros LL NC. unfold py_adapt, adapt. change (Nat.leb (S f) 3) with (Nat.leb f 2). change (Nat.leb (S g) 3) with (Nat.leb g 2). set (cmb := (Nat.leb f 2 && Nat.leb g 2)%bool). destruct (py_aberration_agree a lmin lmax D LL) as (D' & H & H').
  destruct (Z.leb_spec lmin 0); [lia |]. destruct (Z.leb_spec lmax lmin); [lia |]. cbn [orb].
  assert (E : exists D1, (if (if Req_EM_T a 0 then false else true) && cmb then py_aberration a lmin lmax D else Ok D) = Ok D1 /\ forall l, D1 l = if (if Req_EM_T a 0 then false else true) && cmb then match aberration a lmin lmax D l with Ok x => x | _ => 0 end else D l).
  { destruct ((if Req_EM_T a 0 then false else true) && cmb); [exists D' | exists D]; (split; [assumption || reflexivity |]); intro l; [now rewrite H' | reflexivity]. }
  destruct E as (D1 & -> & E). cbn [bind].
  assert (F : forall A (calib : R -> A) l, calib (D1 l) = if (if Req_EM_T a 0 then false else true) && cmb then calib (match aberration a lmin lmax D l with Ok x => x | _ => 0 end) else calib (D l)).
  { intros A calib l. rewrite E. destruct ((if Req_EM_T a 0 then false else true) && cmb); reflexivity. }
  destruct cal as [c |].
  - destruct cmb eqn:EC.
    + destruct (Req_EM_T c 0) as [-> |]; [now elim NC |]. eexists. split; [reflexivity |]. intro l. cbv beta. exact (eq_sym (F _ (fun x => Ok (x / c ^ 2)) l)).
    + eexists. split; [reflexivity |]. intro l. exact (eq_sym (F _ (fun x => Ok x) l)).
  - eexists. split; [reflexivity |]. intro l. exact (eq_sym (F _ (fun x => Ok x) l)).
Qed.

(** C132: spectra from a file. *)
Lemma py_index_first l s k : nth_error l k = Some s -> (forall q, (q < k)%nat -> nth_error l q <> Some s) -> py_index l s = Ok k.
Proof.
  revert k. induction l as [| x l IH]; intros k H N; [destruct k; discriminate |]. cbn [py_index]. unfold str_eqb. destruct (str_eq_dec x s) as [-> | E].
  - destruct k; [reflexivity |]. elim (N O); [lia | reflexivity].
  - destruct k as [| k]; [injection H as ->; now elim E |]. rewrite (IH k H); [reflexivity |]. intros q Q. exact (N (S q) ltac:(lia)).
Qed.
Lemma py_index_none l s : ~ In s l -> py_index l s = Stop.
Proof.
  induction l as [| x l IH]; intro N; [reflexivity |]. cbn [py_index]. unfold str_eqb. destruct (str_eq_dec x s) as [-> | E]; [elim N; now left |]. rewrite IH; [reflexivity |]. intro I. apply N. now right.
Qed.
(** the spectrum of a column, from multipole 0 up to [top] *)
Definition spread (top lmin lmax : Z) (col c : list R) : Prop :=
  Z.of_nat (length c) = Z.max 0 (top + 1) /\ forall l, (0 <= l <= top)%Z -> nth (Z.to_nat l) c 0 = if (lmin <=? l)%Z && (l <=? lmax)%Z then nth (Z.to_nat (l - lmin)) col 0 else 0.
Lemma firstn_nth (l : list R) k i d : (i < k)%nat -> nth i (firstn k l) d = nth i l d.
Proof. revert k i. induction l as [| x l IH]; intros [| k] [| i] H; cbn [firstn nth]; try lia; try reflexivity. apply IH. lia. Qed.
Lemma nth_zeros n i : nth i (repeat 0 n) 0 = 0.
Proof. revert i. induction n; intros [| i]; cbn [repeat nth]; auto. Qed.
Lemma place_ok top lmin lmax col : (0 <= lmin <= lmax)%Z -> Z.of_nat (length col) = (lmax - lmin + 1)%Z ->
  exists c, py_place (Z.to_nat (Z.max (top + 1) (lmax + 1))) lmin lmax col (Z.to_nat (top + 1)) = Ok c /\ spread top lmin lmax col c.
Proof.
  intros L E. unfold py_place. set (len := Z.to_nat (Z.max (top + 1) (lmax + 1))). cbv zeta. replace (Nat.min (Z.to_nat (lmax + 1)) len - Z.to_nat lmin)%nat with (length col) by lia. rewrite Nat.eqb_refl. eexists. split; [reflexivity |]. split.
  - rewrite firstn_length, !app_length, !repeat_length. lia.
  - intros l R. rewrite firstn_nth by lia. destruct (Z.leb_spec lmin l); cbn [andb].
    + rewrite app_nth2 by (rewrite repeat_length; lia). rewrite repeat_length. replace (Z.to_nat l - Z.to_nat lmin)%nat with (Z.to_nat (l - lmin)) by lia. destruct (Z.leb_spec l lmax).
      * rewrite app_nth1 by lia. reflexivity.
      * rewrite app_nth2 by lia. apply nth_zeros.
    + rewrite app_nth1 by (rewrite repeat_length; lia). apply nth_zeros.
Qed.
Lemma load_pairs_ok names cols dat add top lmin lmax : (0 <= lmin <= lmax)%Z -> (forall k, Z.of_nat (length (dat k)) = (lmax - lmin + 1)%Z) -> forall l A, NoDup l ->
  exists A', py_load_pairs names cols dat add top lmin lmax l A = Ok A' /\ (forall i j, ~ In (i, j) l -> A' i j = A i j) /\
    forall i j, In (i, j) l -> if add && match A i j with Some _ => true | None => false end then A' i j = A i j else
      match py_column cols (nth i names []) (nth j names []) with None => A' i j = A i j | Some k => exists c, A' i j = Some c /\ spread top lmin lmax (dat k) c end.
Proof.
  intros LL HL. induction l as [| [i j] l IH]; intros A ND; [exists A; repeat split; intros; contradiction |]. inversion ND as [| ? ? NI ND']; subst. cbn [py_load_pairs].
  assert (SKIP : exists A', py_load_pairs names cols dat add top lmin lmax l A = Ok A' /\ A' i j = A i j /\ (forall a b, ~ In (a, b) ((i, j) :: l) -> A' a b = A a b) /\
    forall a b, In (a, b) l -> if add && match A a b with Some _ => true | None => false end then A' a b = A a b else
      match py_column cols (nth a names []) (nth b names []) with None => A' a b = A a b | Some k => exists c, A' a b = Some c /\ spread top lmin lmax (dat k) c end).
  { destruct (IH A ND') as (A' & H & N & Y). exists A'. split; [exact H |]. split; [now apply N |]. split; [intros a b I; apply N; intro; apply I; now right | exact Y]. }
  destruct (add && match A i j with Some _ => true | None => false end) eqn:EA.
  - destruct SKIP as (A' & -> & E & N & Y). exists A'. split; [reflexivity |]. split; [exact N |]. intros a b [I | I]; [injection I as <- <-; rewrite EA; exact E | now apply Y].
  - destruct (py_column cols (nth i names []) (nth j names [])) as [k |] eqn:EC.
    + destruct (place_ok top lmin lmax (dat k) LL (HL k)) as (c & -> & SP). cbn [bind]. destruct (IH (fun a b => if Nat.eqb a i && Nat.eqb b j then Some c else A a b) ND') as (A' & -> & N & Y). exists A'. split; [reflexivity |].
      assert (OTHER : forall a b, (a, b) <> (i, j) -> (Nat.eqb a i && Nat.eqb b j)%bool = false). { intros a b Q. destruct (Nat.eqb_spec a i) as [-> |]; [| reflexivity]. destruct (Nat.eqb_spec b j) as [-> |]; [now elim Q | reflexivity]. }
      split.
      * intros a b I. rewrite N by (intro; apply I; now right). rewrite OTHER; [reflexivity |]. intro Q. apply I. left. now rewrite Q.
      * intros a b [I | I].
        -- injection I as <- <-. rewrite EA, EC. exists c. split; [| exact SP]. rewrite (N i j NI), !Nat.eqb_refl. reflexivity.
        -- specialize (Y a b I). assert (Q : (a, b) <> (i, j)) by (intro Q; rewrite Q in I; contradiction). rewrite (OTHER a b Q) in Y. exact Y.
    + destruct SKIP as (A' & -> & E & N & Y). exists A'. split; [reflexivity |]. split; [exact N |]. intros a b [I | I]; [injection I as <- <-; rewrite EA, EC; exact E | now apply Y].
Qed.
Lemma py_tri_In n i j : In (i, j) (py_tri n) <-> (j <= i < n)%nat.
Proof.
  unfold py_tri. rewrite in_flat_map. split.
  - intros (a & A & B). apply in_map_iff in B as (b & E & B). injection E as <- <-. apply in_seq in A, B. lia.
  - intro H. exists i. split; [apply in_seq; lia |]. apply in_map_iff. exists j. split; [reflexivity | apply in_seq; lia].
Qed.
Lemma py_tri_NoDup n : NoDup (py_tri n).
Proof. apply (NoDup_map_inv (fun p : nat * nat => (S (fst p), S (snd p)))). rewrite <- tri_py. apply tri_NoDup. Qed.
Lemma last_rows lmin n d : last (map (fun k => (lmin + Z.of_nat k)%Z) (seq 0 (S n))) d = (lmin + Z.of_nat n)%Z.
Proof. rewrite seq_S, map_app. cbn [map Nat.add]. apply last_last. Qed.
Lemma load_ok names cols lmin n dat (add : bool) A : (0 <= lmin)%Z -> (forall k, length (dat k) = S n) -> let L := map (fun k => (lmin + Z.of_nat k)%Z) (seq 0 (S n)) in let lmax := (lmin + Z.of_nat n)%Z in
  let top := if add then ahi A else lmax in
  exists A', py_load names cols L dat add A = Ok A' /\ alo A' = (if add then alo A else lmin) /\ ahi A' = top /\ (forall i j, ~ (j <= i < length names)%nat -> arr A' i j = arr A i j) /\
    forall i j, (j <= i < length names)%nat -> if add && match arr A i j with Some _ => true | None => false end then arr A' i j = arr A i j else
      match py_column cols (nth i names []) (nth j names []) with None => arr A' i j = arr A i j | Some k => exists c, arr A' i j = Some c /\ spread top lmin lmax (dat k) c end.
Proof.
  intros L0 HL. cbv zeta. unfold py_load. destruct (map (fun k => (lmin + Z.of_nat k)%Z) (seq 0 (S n))) as [| l0 t] eqn:EL; [discriminate |]. assert (l0 = lmin) by (cbn [seq map] in EL; injection EL as <- _; lia). subst l0.
  rewrite <- EL, last_rows. clear t EL. destruct (load_pairs_ok names cols dat add (if add then ahi A else (lmin + Z.of_nat n)%Z) lmin (lmin + Z.of_nat n)%Z ltac:(lia) ltac:(intro k; rewrite HL; lia) (py_tri (length names)) (arr A) (py_tri_NoDup _)) as (A' & -> & N & Y).
  cbn [bind]. eexists. split; [reflexivity |]. cbn [alo ahi arr]. split; [reflexivity |]. split; [reflexivity |]. split.
  - intros i j I. apply N. intro Q. apply I. now apply py_tri_In.
  - intros i j I. apply Y. now apply py_tri_In.
Qed.
(** [first cols s k]: column k is the first that is named s *)
Definition first_named (cols : list str) (s : str) (k : nat) : Prop := nth_error cols k = Some s /\ forall q, (q < k)%nat -> nth_error cols q <> Some s.
Theorem C132_load_partial names cols lmin n dat A i j : (0 <= lmin)%Z -> (forall k, length (dat k) = S n) -> (j <= i < length names)%nat -> let lmax := (lmin + Z.of_nat n)%Z in
  exists A', py_load names cols (map (fun k => (lmin + Z.of_nat k)%Z) (seq 0 (S n))) dat false A = Ok A' /\ alo A' = lmin /\ ahi A' = lmax /\
    (forall k, first_named cols (nth i names [] ++ nth j names []) k -> exists c, py_get (arr A') (i, j) = Some c /\ py_get (arr A') (j, i) = Some c /\ spread lmax lmin lmax (dat k) c) /\
    (forall k, ~ In (nth i names [] ++ nth j names []) cols -> first_named cols (nth j names [] ++ nth i names []) k -> exists c, py_get (arr A') (i, j) = Some c /\ py_get (arr A') (j, i) = Some c /\ spread lmax lmin lmax (dat k) c) /\
    (~ In (nth i names [] ++ nth j names []) cols -> ~ In (nth j names [] ++ nth i names []) cols -> arr A' i j = arr A i j).
Proof.
  intros L0 HL I lmax. destruct (load_ok names cols lmin n dat false A L0 HL) as (A' & H & H1 & H2 & _ & Y). exists A'. split; [exact H |]. split; [exact H1 |]. split; [exact H2 |]. specialize (Y i j I). cbn [andb] in Y.
  assert (G : py_get (arr A') (i, j) = arr A' i j /\ py_get (arr A') (j, i) = arr A' i j).
  { unfold py_get. destruct (Nat.ltb_spec i j); [lia |]. split; [reflexivity |]. destruct (Nat.ltb_spec j i); [reflexivity |]. now replace j with i by lia. }
  destruct G as (-> & ->). unfold py_column in Y. split; [| split].
  - intros k (F1 & F2). rewrite (py_index_first _ _ _ F1 F2) in Y. destruct Y as (c & -> & SP). exists c. repeat split; apply SP.
  - intros k N (F1 & F2). rewrite (py_index_none _ _ N), (py_index_first _ _ _ F1 F2) in Y. destruct Y as (c & -> & SP). exists c. repeat split; apply SP.
  - intros N N'. rewrite (py_index_none _ _ N), (py_index_none _ _ N') in Y. exact Y.
Qed.
(** a second file adds spectra that the first had not, over the multipoles of the first *)
Theorem C132_add_partial names cols lmin n dat A i j : (0 <= lmin)%Z -> (forall k, length (dat k) = S n) -> (j <= i < length names)%nat -> let lmax := (lmin + Z.of_nat n)%Z in
  exists A', py_load names cols (map (fun k => (lmin + Z.of_nat k)%Z) (seq 0 (S n))) dat true A = Ok A' /\ alo A' = alo A /\ ahi A' = ahi A /\ (forall c, arr A i j = Some c -> arr A' i j = Some c) /\
    (forall k, arr A i j = None -> first_named cols (nth i names [] ++ nth j names []) k \/ ~ In (nth i names [] ++ nth j names []) cols /\ first_named cols (nth j names [] ++ nth i names []) k ->
       exists c, arr A' i j = Some c /\ spread (ahi A) lmin lmax (dat k) c).
Proof.
  intros L0 HL I lmax. destruct (load_ok names cols lmin n dat true A L0 HL) as (A' & H & H1 & H2 & _ & Y). exists A'. split; [exact H |]. split; [exact H1 |]. split; [exact H2 |]. specialize (Y i j I). split.
  - intros c E. rewrite E in Y. cbn [andb] in Y. exact Y.
  - intros k E F. rewrite E in Y. cbn [andb] in Y. unfold py_column in Y. destruct F as [(F1 & F2) | (N & F1 & F2)]; [| rewrite (py_index_none _ _ N) in Y]; rewrite (py_index_first _ _ _ F1 F2) in Y; exact Y.
Qed.
(** a row that is missing stops the program *)
Theorem C132_missing f cols k lmin lmax t dat A : first_named cols (f ++ f) k -> (0 <= lmin <= lmax)%Z -> last t lmin = lmax -> Z.of_nat (length (dat k)) <> (lmax - lmin + 1)%Z -> length (dat k) <> 1%nat -> py_load [f] cols (lmin :: t) dat false A = Stop.
Proof.
  intros (F1 & F2) LL EL N N1. unfold py_load. replace (last (lmin :: t) lmin) with lmax by (rewrite <- EL; destruct t; reflexivity). cbn. unfold py_column. cbn. rewrite (py_index_first _ _ _ F1 F2). unfold py_place.
  destruct (Nat.eqb_spec (length (dat k)) (Nat.min (Z.to_nat (lmax + 1)) (Z.to_nat (Z.max (lmax + 1) (lmax + 1))) - Z.to_nat lmin)); [lia |]. destruct (Nat.eqb_spec (length (dat k)) 1); [contradiction |]. reflexivity.
Qed.
(** FINDING: only the first and the last multipole are looked at: a row that is there twice takes the place of the one that is missing. *)
Theorem C132_rows_refuted : exists A', py_load [L "T"] [L "L"; L "TT"] [2; 2; 4]%Z (fun _ => [10; 20; 40]) false (mkCls 0 0 (fun _ _ => None)) = Ok A' /\ arr A' 0%nat 0%nat = Some [0; 0; 10; 20; 40].
Proof. eexists. split; reflexivity. Qed.
(** one map, in one bin, meets the hypotheses; so does one multipole for the exact likelihood *)
Definition inv1 (n : nat) (M : matrix) : option matrix := Some (fun i j => / M i j).
Definition det1 (M : matrix) : R := M 1%nat 1%nat.
Definition py_one (a : approx) (b : bool) : pdata := mkPd 1 a (match a with Gaussian => false | _ => true end) b (if b then 2 else 3) 1 (fun _ _ _ => 1) (fun _ _ _ => 2) (fun _ => one) [0%nat] one 1.
Example C131_ex : exists c c', chisq diag1 chol1 (one_bin HL) (fun _ => Ok (fun _ _ => 1)) = Ok c /\ py_chisq diag1 inv1 (fun _ M => ln (Rabs (det1 M))) (py_one HL true) (fun _ => Ok (fun _ _ => 1)) = Ok c /\
  chisq diag1 chol1 (mkData 1 Exact false 3 3 (fun _ _ _ => 1) (fun _ _ _ => 2) (fun _ => one) [1%nat] one 1) (fun _ => Ok (fun _ _ => 5)) = Ok c' /\ py_chisq diag1 inv1 (fun _ M => ln (Rabs (det1 M))) (py_one Exact false) (fun _ => Ok (fun _ _ => 5)) = Ok c'.
Proof.
  destruct C125_ex as (G & F & _).
  assert (Po : forall M, 0 < M 1%nat 1%nat -> positive 1 M). { intros M Q v (i & I & NZ). replace i with 1%nat in NZ by lia. unfold form. cbn [total]. assert (0 < v 1%nat * v 1%nat) by (destruct (Rtotal_order (v 1%nat) 0) as [Z | [Z | Z]]; nra). nra. }
  assert (IV : inverts inv1 1). { intros M Sy P. eexists. split; [reflexivity |]. intros i j I J. replace i with 1%nat by lia. replace j with 1%nat by lia. pose proof (positive_11 M P). unfold times, one. cbn [total Nat.eqb]. field. lra. }
  assert (DE : is_determinant 1 det1).
  { split; [intros A B E; apply E; lia |]. split; [intros A B; unfold det1, times; cbn [total]; ring |]. intros A _. unfold det1, tr. cbn. split; ring. }
  assert (SY : forall c : R, symmetric 1 (fun _ _ => c)) by (intros c i j I J; reflexivity).
  destruct (C131_chisq_partial diag1 chol1 diag1 inv1 (fun _ M => ln (Rabs (det1 M))) det1 (one_bin HL) (py_one HL true) (fun _ => Ok (fun _ _ => 1)) (fun _ => Ok (fun _ _ => 1)) (fun _ _ _ => 1) (fun _ _ _ => 1)) as (c & H1 & H2).
  - split; reflexivity.
  - discriminate.
  - discriminate.
  - intros b B. split; [reflexivity |]. split; [reflexivity |]. intros i j I J. reflexivity.
  - intros _ b B. cbn. unfold noisy. cbn. split; [apply SY |]. split; [apply Po; lra |]. split; [apply SY | apply Po; lra].
  - intros _. split; exact G.
  - discriminate.
  - intros _ i j I J. cbn in I, J. replace i with j by lia. reflexivity.
  - destruct (C131_chisq_partial diag1 chol1 diag1 inv1 (fun _ M => ln (Rabs (det1 M))) det1 (mkData 1 Exact false 3 3 (fun _ _ _ => 1) (fun _ _ _ => 2) (fun _ => one) [1%nat] one 1) (py_one Exact false) (fun _ => Ok (fun _ _ => 5)) (fun _ => Ok (fun _ _ => 5)) (fun _ _ _ => 5) (fun _ _ _ => 5)) as (c' & H3 & H4).
    + split; reflexivity.
    + discriminate.
    + reflexivity.
    + intros b B. split; [reflexivity |]. split; [reflexivity |]. intros i j I J. reflexivity.
    + intros _ b B. cbn. unfold noisy. cbn. split; [apply SY |]. split; [apply Po; lra |]. split; [apply SY | apply Po; lra].
    + intros _. split; exact G.
    + intros _. split; [exact F |]. split; [exact IV |]. split; [exact DE |]. intros M _. reflexivity.
    + intro N. now elim N.
    + exists c, c'. repeat split; assumption.
Qed.
(** polarization is added from a second file that begins earlier *)
Example C132_ex : exists A A', py_load [L "T"; L "E"] [L "L"; L "TT"; L "TE"] [2; 3]%Z (fun k => if Nat.eqb k 1 then [5; 6] else [7; 8]) false (mkCls 0 0 (fun _ _ => None)) = Ok A /\ py_get (arr A) (0%nat, 1%nat) = Some [0; 0; 7; 8] /\
  py_load [L "T"; L "E"] [L "L"; L "TT"; L "EE"] [1; 2]%Z (fun k => if Nat.eqb k 1 then [50; 60] else [70; 80]) true A = Ok A' /\ arr A' 1%nat 1%nat = Some [0; 70; 80; 0] /\ arr A' 0%nat 0%nat = Some [0; 0; 5; 6].
Proof. do 2 eexists. split; [reflexivity |]. split; [reflexivity |]. split; [reflexivity |]. split; reflexivity. Qed.

Print Assumptions C131_transform. Print Assumptions C131_exact. Print Assumptions C131_chisq_partial. Print Assumptions C131_loglike. Print Assumptions C131_parameter_refuted. Print Assumptions C131_noise_partial. Print Assumptions C131_noise_refuted.
Print Assumptions C131_binned_refuted. Print Assumptions C131_theory_partial. Print Assumptions C131_short. Print Assumptions C131_short_refuted. Print Assumptions C131_adapt. Print Assumptions C132_load_partial. Print Assumptions C132_add_partial.
Print Assumptions C132_missing. Print Assumptions C132_rows_refuted.
