(** C124: theory for the maps of bandpowers; C125: approximations of the likelihood *)
From Coq Require Import Reals ZArith Bool List Lia Lra Setoid Arith.
From Verif Require Import McmcModel BaoModel BaoSpec BaoProofs SnProofs MapModel MapSpec MapProofs HlModel HlSpec HlProofs.
Import ListNotations.
Local Open Scope R_scope.

(** C124: a pair of maps has the spectrum of the fields of the maps, in either order; maps of the same field are given the same theory. *)
Theorem C124_fields fields th i j l : map_theory fields th i j l = match th (Nat.max (fields i) (fields j)) (Nat.min (fields i) (fields j)) with Some C => C l | None => 0 end.
Proof. unfold map_theory. destruct (Nat.ltb_spec (fields i) (fields j)); [rewrite Nat.max_r, Nat.min_l by lia | rewrite Nat.max_l, Nat.min_r by lia]; reflexivity. Qed.
Theorem C124_symmetric fields th i j l : map_theory fields th i j l = map_theory fields th j i l.
Proof. rewrite !C124_fields, Nat.max_comm, Nat.min_comm. reflexivity. Qed.
Theorem C124_same fields th i j i' j' l : fields i = fields i' -> fields j = fields j' -> map_theory fields th i j l = map_theory fields th i' j' l.
Proof. intros E F. rewrite !C124_fields, E, F. reflexivity. Qed.
(** aberration adds a l dC_l/dl: by central differences between the ends, exactly if C_l is a straight line.  What is missing: two multipoles (refuted below). *)
Theorem C124_aberration_partial a lmin lmax D l : (0 < lmin)%Z -> (lmin < l)%Z -> (l < lmax)%Z ->
  aberration a lmin lmax D l = Ok (D l + a * IZR l * (IZR l * (IZR l + 1)) * ((D (l + 1)%Z / (IZR (l + 1) * (IZR (l + 1) + 1)) - D (l - 1)%Z / (IZR (l - 1) * (IZR (l - 1) + 1))) / 2)).
Proof.
  intros A B C. unfold aberration. destruct (Z.leb_spec lmin 0); [lia |]. destruct (Z.leb_spec lmax lmin); [lia |]. cbn [orb].
  destruct (Z.eqb_spec l lmax); [lia |]. destruct (Z.eqb_spec l lmin); [lia |]. destruct (Z.leb_spec (lmin + 1) l); [| lia]. destruct (Z.leb_spec l (lmax - 1)); [| lia]. cbn [andb]. f_equal.
  generalize (D (l + 1)%Z / (IZR (l + 1) * (IZR (l + 1) + 1))). generalize (D (l - 1)%Z / (IZR (l - 1) * (IZR (l - 1) + 1))). intros. field.
Qed.
Theorem C124_straight_partial a lmin lmax p q l : (0 < lmin)%Z -> (lmin + 2 <= lmax)%Z -> (lmin <= l <= lmax)%Z ->
  aberration a lmin lmax (straight p q) l = Ok ((p + q * IZR l + a * IZR l * q) * (IZR l * (IZR l + 1))).
Proof.
  intros A B C. unfold aberration. destruct (Z.leb_spec lmin 0); [lia |]. destruct (Z.leb_spec lmax lmin); [lia |]. cbn [orb].
  set (cl := fun l : Z => straight p q l / (IZR l * (IZR l + 1))).
  assert (X : forall k, (0 < k)%Z -> cl k = p + q * IZR k). { intros k K. unfold cl, straight. assert (0 < IZR k) by (apply IZR_lt; lia). field. nra. }
  set (d1 := fun l : Z => if (lmin + 1 <=? l)%Z && (l <=? lmax - 1)%Z then 1 / 2 * (cl (l + 1)%Z - cl (l - 1)%Z) else cl l).
  assert (Y : forall k, (lmin + 1 <= k <= lmax - 1)%Z -> d1 k = q).
  { intros k K. unfold d1. destruct (Z.leb_spec (lmin + 1) k); [| lia]. destruct (Z.leb_spec k (lmax - 1)); [| lia]. cbn [andb]. rewrite !X by lia. rewrite plus_IZR, minus_IZR. field. }
  change (Ok (straight p q l + a * (IZR l ^ 2 * (IZR l + 1) * (if (l =? lmax)%Z then if (lmax - 1 =? lmin)%Z then d1 (lmin + 1)%Z else d1 (lmax - 1)%Z else if (l =? lmin)%Z then d1 (lmin + 1)%Z else d1 l))) = Ok ((p + q * IZR l + a * IZR l * q) * (IZR l * (IZR l + 1)))).
  assert (Z : (if (l =? lmax)%Z then if (lmax - 1 =? lmin)%Z then d1 (lmin + 1)%Z else d1 (lmax - 1)%Z else if (l =? lmin)%Z then d1 (lmin + 1)%Z else d1 l) = q).
  { destruct (Z.eqb_spec l lmax); [destruct (Z.eqb_spec (lmax - 1) lmin); apply Y; lia | destruct (Z.eqb_spec l lmin); apply Y; lia]. }
  rewrite Z. f_equal. unfold straight. ring.
Qed.
(** FINDING: with two multipoles the value takes the place of the difference, and a constant C_l is changed; with one the array is left. *)
Theorem C124_two_refuted : exists a, aberration a 2 3 (straight 1 0) 2 <> Ok (straight 1 0 2) /\ aberration a 2 2 (straight 1 0) 2 = Undef.
Proof.
  exists 1. split; [| reflexivity]. unfold aberration. cbn [Z.leb Z.compare Pos.compare Pos.compare_cont orb andb Z.add Z.sub Z.opp Z.pos_sub Pos.pred_double Z.eqb Pos.eqb Pos.add Pos.succ]. unfold straight.
  intro E. injection E as E. simpl in E. lra.
Qed.
(** no aberration, no foregrounds and a calibration of one change nothing; lensing spectra are never changed by aberration or calibration *)
Theorem C124_identity lmin lmax f g D l : adapt 0 (fun _ _ D => D) None lmin lmax f g D l = Ok (D l) /\ adapt 0 (fun _ _ D => D) (Some 1) lmin lmax f g D l = Ok (D l).
Proof.
  unfold adapt. destruct (Req_EM_T 0 0); [| lra]. cbn [andb]. split; [reflexivity |]. destruct (Nat.leb f 3 && Nat.leb g 3); [| reflexivity].
  destruct (Req_EM_T 1 0); [lra |]. f_equal. field.
Qed.
Theorem C124_lensing a cal lmin lmax f g D l : (3 < f \/ 3 < g)%nat -> adapt a (fun _ _ D => D) cal lmin lmax f g D l = Ok (D l).
Proof.
  intro H. unfold adapt. assert (E : (Nat.leb f 3 && Nat.leb g 3 = false)%bool) by (destruct (Nat.leb_spec f 3); [destruct (Nat.leb_spec g 3); [lia | reflexivity] | reflexivity]).
  rewrite E, andb_false_r. destruct cal; reflexivity.
Qed.
(** the calibration divides the spectra of T, E and B, after the foregrounds *)
Theorem C124_calibration fg c lmin lmax f g D l : (f <= 3)%nat -> (g <= 3)%nat -> c <> 0 -> adapt 0 fg (Some c) lmin lmax f g D l = Ok (fg f g D l / c ^ 2).
Proof.
  intros F G C. unfold adapt. destruct (Req_EM_T 0 0); [| lra]. cbn [andb]. rewrite (proj2 (Nat.leb_le f 3) F), (proj2 (Nat.leb_le g 3) G). cbn [andb]. destruct (Req_EM_T c 0); [lra | reflexivity].
Qed.
Theorem C124_order a fg c lmin lmax f g D D' l : (f <= 3)%nat -> (g <= 3)%nat -> c <> 0 -> a <> 0 -> (0 < lmin < lmax)%Z ->
  (forall k, aberration a lmin lmax D k = Ok (D' k)) -> (forall E E', (forall k, E k = E' k) -> fg f g E l = fg f g E' l) ->
  adapt a fg (Some c) lmin lmax f g D l = Ok (fg f g D' l / c ^ 2).
Proof.
  intros F G C A L H X. unfold adapt. destruct (Req_EM_T a 0); [lra |]. rewrite (proj2 (Nat.leb_le f 3) F), (proj2 (Nat.leb_le g 3) G). cbn [andb].
  destruct (Z.leb_spec lmin 0); [lia |]. destruct (Z.leb_spec lmax lmin); [lia |]. cbn [orb]. destruct (Req_EM_T c 0); [lra |]. do 2 f_equal. apply X. intro k. rewrite H. reflexivity.
Qed.
(** the foregrounds of smica are in the spectrum of temperature only, with the sum of the amplitudes at 2000, which is the derived parameter *)
Theorem C124_smica A1 n1 n1run A2 n2 f g D l : (f <> 1 \/ g <> 1)%nat -> smica A1 n1 n1run A2 n2 f g D l = D l.
Proof. intro H. unfold smica. destruct (Nat.eqb_spec f 1); [destruct (Nat.eqb_spec g 1); [lia | reflexivity] | reflexivity]. Qed.
Theorem C124_pivot A1 n1 n1run A2 n2 D : smica A1 n1 n1run A2 n2 1 1 D 2000 = D 2000%Z + A1 + A2.
Proof.
  unfold smica. cbn [Nat.eqb andb]. replace (2000 / 2000) with 1 by field. rewrite ln_1. unfold Rpower. rewrite ln_1.
  replace (n1 * 0 + n1run / 2 * 0 ^ 2) with 0 by ring. replace (n2 * 0) with 0 by ring. rewrite exp_0. ring.
Qed.
Theorem C124_power A1 n1 n1run A2 n2 D l : (0 < l)%Z -> smica A1 n1 n1run A2 n2 1 1 D l = D l + A1 * Rpower (IZR l / 2000) (n1 + n1run / 2 * ln (IZR l / 2000)) + A2 * Rpower (IZR l / 2000) n2.
Proof. intro L. unfold smica. cbn [Nat.eqb andb]. do 2 f_equal. unfold Rpower. do 2 f_equal. ring. Qed.
Theorem C124_derived A1 n1 n1run A2 n2 lmin lmax : (lmin <= 2000 <= lmax)%Z -> smica_derived A1 n1 n1run A2 n2 lmin lmax 1 = Ok (A1 + A2).
Proof.
  intro H. unfold smica_derived. destruct (Z.leb_spec lmin 2000); [| lia]. destruct (Z.leb_spec 2000 lmax); [| lia]. cbn [andb]. f_equal. etransitivity; [apply C124_pivot | cbv beta; ring].
Qed.
(** FINDING: 2000 must be in the range of the multipoles, and the first map must be of temperature *)
Theorem C124_derived_refuted : exists A1 A2, A1 + A2 <> 0 /\ smica_derived A1 0 0 A2 0 2 1500 1 = Undef /\ smica_derived A1 0 0 A2 0 2 2500 2 = Ok 0.
Proof. exists 1, 1. split; [lra |]. split; reflexivity. Qed.
Example C124_ex : map_theory (fun i => i) (fun f g => if Nat.eqb f 2 && Nat.eqb g 1 then Some (fun _ => 7) else None) 1 2 30 = 7 /\ smica 3 0 0 4 0 1 1 (fun _ => 1) 2000 = 8 /\
  aberration 2 2 5 (straight 1 1) 5 = Ok (16 * 30).
Proof.
  split; [reflexivity |]. split; [rewrite C124_pivot; ring |]. rewrite C124_straight_partial by lia. f_equal. ring.
Qed.
Print Assumptions C124_fields. Print Assumptions C124_symmetric. Print Assumptions C124_same. Print Assumptions C124_aberration_partial. Print Assumptions C124_straight_partial. Print Assumptions C124_two_refuted.
Print Assumptions C124_identity. Print Assumptions C124_lensing. Print Assumptions C124_calibration. Print Assumptions C124_order. Print Assumptions C124_smica. Print Assumptions C124_pivot. Print Assumptions C124_power. Print Assumptions C124_derived. Print Assumptions C124_derived_refuted.

(** C125: the transform of Hamimeche and Lewis is C_f^1/2 V g(E) V^T C_f^1/2 for an orthogonal V and the eigenvalues E of the data relative to the theory. *)
Theorem C125_transform diag n C Chat Cf : diagonalizes diag n -> symmetric n C -> positive n C -> symmetric n Chat -> positive n Chat ->
  exists V E T, Transform diag n C Chat Cf = Ok T /\ orthogonal n V /\ relative_to n C Chat E /\ (forall i, (1 <= i <= n)%nat -> 0 < E i) /\
    meq n T (times n Cf (times n V (times n (diagm (fun i => gfun (E i))) (times n (tr V) (tr Cf))))).
Proof.
  intros G A B A' B'. destruct (transform_ok diag n C Chat Cf G A B A' B') as (U & D & V & E & T & H & HC & PD & HR & PE & HT). exists V, E, T. split; [exact H |]. split; [apply HR |].
  split; [now apply (relative_of n C Chat U D V E) |]. split; [exact PE |]. rewrite HT, tr_times, times_assoc. reflexivity.
Qed.
(** g has the sign of E - 1 and its square is 2 (E - ln E - 1) *)
Theorem C125_g x : 0 < x -> gfun x * gfun x = 2 * (x - ln x - 1) /\ (x < 1 -> gfun x < 0) /\ (1 < x -> 0 < gfun x) /\ (gfun x = 0 <-> x = 1).
Proof.
  intro P. split; [now apply gfun_sq |]. split; [now apply gfun_sign |]. split; [now apply gfun_sign |]. split; [now apply gfun_0 | intros ->; apply gfun_1].
Qed.
(** it vanishes just if the theory is the data *)
Theorem C125_zero diag n C Chat Cf X T : diagonalizes diag n -> symmetric n C -> positive n C -> symmetric n Chat -> positive n Chat -> meq n (times n X Cf) one ->
  Transform diag n C Chat Cf = Ok T -> (meq n T (fun _ _ => 0) <-> meq n C Chat).
Proof.
  intros G A B A' B' XE HT0. destruct (transform_ok diag n C Chat Cf G A B A' B') as (U & D & V & E & T' & H & HC & PD & HR & PE & HT). rewrite H in HT0. injection HT0 as <-.
  rewrite <- (R_one n C Chat U D HC PD), (decomposes_E1 n _ V E HR). destruct HR as ((V1 & V2) & _). split; intro Z.
  - intros i I. apply gfun_0; [now apply PE |].
    assert (Q : meq n (diagm (fun i => gfun (E i))) (fun _ _ => 0)).
    { transitivity (times n (tr V) (times n X (times n T' (times n (tr X) V)))).
      - rewrite HT, tr_times, !times_assoc. rewrite <- (times_assoc n (tr Cf) (tr X)). assert (Y : meq n (times n (tr Cf) (tr X)) one) by (rewrite <- tr_times, XE; intros a b _ _; unfold tr, one; rewrite Nat.eqb_sym; reflexivity).
        rewrite Y, times_one_l, V1, times_one_r. rewrite <- (times_assoc n X Cf), XE, times_one_l, <- times_assoc, V1, times_one_l. reflexivity.
      - rewrite Z. assert (Z0 : forall M, meq n (times n (fun _ _ => 0) M) (fun _ _ => 0)) by (intros M a b _ _; unfold times; apply total_0; intros; ring).
        assert (Z1 : forall M, meq n (times n M (fun _ _ => 0)) (fun _ _ => 0)) by (intros M a b _ _; unfold times; apply total_0; intros; ring). rewrite Z0, !Z1. reflexivity. }
    specialize (Q i i I I). unfold diagm in Q. now rewrite Nat.eqb_refl in Q.
  - rewrite HT. intros i j I J. apply total_0. intros k K. rewrite times_diag_l by exact K. rewrite (Z k K), gfun_1. ring.
Qed.
(** with the inverse X of C_f^1/2, the trace of the square of X T X^T is twice the likelihood of a full sky *)
Lemma unrotated n X Cf V g T : meq n (times n X Cf) one -> meq n T (times n (times n Cf V) (times n (diagm g) (tr (times n Cf V)))) -> meq n (times n X (times n T (tr X))) (times n V (times n (diagm g) (tr V))).
Proof.
  intros XE HT. assert (Y : meq n (times n (tr Cf) (tr X)) one) by (rewrite <- tr_times, XE; intros a b _ _; unfold tr, one; rewrite Nat.eqb_sym; reflexivity).
  rewrite HT, tr_times, !times_assoc, Y, times_one_r, <- (times_assoc n X Cf), XE, times_one_l. reflexivity.
Qed.
Lemma trace_cong n V D : orthogonal n V -> trace n (times n V (times n (diagm D) (tr V))) = total D n.
Proof. intros (V1 & V2). rewrite trace_comm. rewrite (trace_ext n _ (diagm D)); [apply trace_diag |]. rewrite times_assoc, V1, times_one_r. reflexivity. Qed.
Lemma g_full n E : (forall i, (1 <= i <= n)%nat -> 0 < E i) -> total (fun i => gfun (E i) * gfun (E i)) n = 2 * full_sky n E.
Proof. intro P. unfold full_sky. rewrite <- total_scale. apply total_ext. intros i I. apply gfun_sq. now apply P. Qed.
Theorem C125_trace diag n C Chat Cf X : diagonalizes diag n -> symmetric n C -> positive n C -> symmetric n Chat -> positive n Chat -> meq n (times n X Cf) one ->
  exists T E, Transform diag n C Chat Cf = Ok T /\ relative_to n C Chat E /\ (forall i, (1 <= i <= n)%nat -> 0 < E i) /\
    trace n (times n (times n X (times n T (tr X))) (times n X (times n T (tr X)))) = 2 * full_sky n E.
Proof.
  intros G A B A' B' XE. destruct (transform_ok diag n C Chat Cf G A B A' B') as (U & D & V & E & T & H & HC & PD & HR & PE & HT). exists T, E. split; [exact H |].
  split; [now apply (relative_of n C Chat U D V E) |]. split; [exact PE |]. rewrite (trace_ext n _ (times n V (times n (diagm (fun i => gfun (E i) * gfun (E i))) (tr V)))).
  - rewrite trace_cong by apply HR. now apply g_full.
  - rewrite (unrotated n X Cf V _ T XE HT). apply sandwich. apply HR.
Qed.
(** ** the exact likelihood *)
Lemma root_ok diag n C : diagonalizes diag n -> symmetric n C -> positive n C -> exists M0 U D, Matrix_Root diag n (fun x => / sqrt x) C = Ok M0 /\ decomposes n C U D /\ (forall i, (1 <= i <= n)%nat -> 0 < D i) /\ meq n M0 (Wm n U D) /\ (U, D) = diag n C.
Proof.
  intros G A B. unfold Matrix_Root. pose proof (G C A) as H. destruct (diag n C) as [U D]. cbn in H. pose proof (eigen_positive _ _ _ _ B H) as P. rewrite (proj2 (all_pos_spec n D) P).
  eexists; exists U, D. split; [reflexivity |]. split; [exact H |]. split; [exact P |]. split; [| reflexivity]. rewrite mm_times. unfold Wm. rewrite <- times_assoc.
  assert (X : meq n (fun i j => U i j * / sqrt (D j)) (times n U (diagm (fun i => / sqrt (D i))))) by (intros i j I J; now rewrite times_diag_r by exact J). rewrite X. reflexivity.
Qed.
Lemma exact_ok diag chol n f C Chat l : diagonalizes diag n -> factorizes chol n -> symmetric n C -> positive n C -> symmetric n Chat -> positive n Chat ->
  exists L U D, decomposes n C U D /\ (forall i, (1 <= i <= n)%nat -> 0 < D i) /\ (U, D) = diag n C /\ meq n (Rm n U D Chat) (times n L (tr L)) /\ lower n L /\ (forall i, (1 <= i <= n)%nat -> 0 < L i i) /\
    ExactChiSq diag chol n f C Chat l = Ok (IZR (2 * l + 1) * f * (trace n (times n L (tr L)) - INR n - 2 * total (fun i => ln (L i i)) n)).
Proof.
  intros G F A B A' B'. destruct (root_ok diag n C G A B) as (M0 & U & D & H & HC & P & E0 & Q). unfold ExactChiSq. rewrite H. cbn [bind].
  assert (EM : meq n (mm n M0 (mm n Chat M0)) (Rm n U D Chat)) by (rewrite mm_times, (mm_times n Chat M0), (Rm_W n U D Chat P), E0; reflexivity).
  destruct (F (mm n M0 (mm n Chat M0))) as (L & HL & EL & LL & LP).
  - apply (symmetric_meq2 n (Rm n U D Chat)); [symmetry; exact EM | now apply (Rm_good n C)].
  - apply (positive_meq n (Rm n U D Chat)); [symmetry; exact EM | now apply (Rm_pos n C)].
  - exists L, U, D. split; [exact HC |]. split; [exact P |]. split; [exact Q |]. split; [rewrite <- EM; exact EL |]. split; [exact LL |]. split; [exact LP |].
    unfold LogDet. rewrite HL. cbn [bind]. rewrite sum1_total. f_equal. f_equal. f_equal. f_equal. unfold Matrix_Trace. rewrite sum1_total. apply trace_ext. exact EL.
Qed.
Lemma product_pos n f : (forall i, (1 <= i <= n)%nat -> 0 < f i) -> 0 < product f n.
Proof. induction n as [| n IH]; intro H; cbn [product]; [lra |]. apply Rmult_lt_0_compat; [apply IH; intros; apply H; lia | apply H; lia]. Qed.
Lemma ln_product n f : (forall i, (1 <= i <= n)%nat -> 0 < f i) -> ln (product f n) = total (fun i => ln (f i)) n.
Proof.
  induction n as [| n IH]; intro H; cbn [product total]; [apply ln_1 |]. rewrite ln_mult; [| apply product_pos; intros; apply H; lia | apply H; lia]. rewrite IH; [reflexivity | intros; apply H; lia].
Qed.
Lemma det_decomposes n det M V E : is_determinant n det -> decomposes n M V E -> det M = product E n.
Proof.
  intros (DE & DM & DT) ((V1 & V2) & EM). rewrite (DE _ _ EM), !DM.
  assert (DD : det (diagm E) = product E n).
  { destruct (DT (diagm E)) as (X & _). { intros i j I J. unfold diagm. destruct (Nat.eqb_spec i j); [lia | reflexivity]. } rewrite X.
    clear. induction n as [| n IH]; cbn [product]; [reflexivity |]. rewrite IH. f_equal. unfold diagm. now rewrite Nat.eqb_refl. }
  assert (D1 : det V * det (tr V) = 1).
  { rewrite <- DM, (DE _ _ V2). destruct (DT one) as (X & _). { intros i j I J. unfold one. destruct (Nat.eqb_spec i j); [lia | reflexivity]. } rewrite X.
    clear. induction n as [| n IH]; cbn [product]; [reflexivity |]. rewrite IH. unfold one. rewrite Nat.eqb_refl. ring. }
  rewrite DD. transitivity (product E n * (det V * det (tr V))); [ring | rewrite D1; ring].
Qed.
Lemma logdet_E n det M L V E : is_determinant n det -> meq n M (times n L (tr L)) -> lower n L -> (forall i, (1 <= i <= n)%nat -> 0 < L i i) -> decomposes n M V E -> (forall i, (1 <= i <= n)%nat -> 0 < E i) ->
  2 * total (fun i => ln (L i i)) n = total (fun i => ln (E i)) n.
Proof.
  intros HD EM LL LP HV PE. pose proof (det_decomposes n det M V E HD HV) as X. destruct HD as (DE & DM & DT). destruct (DT L LL) as (X1 & X2). rewrite (DE _ _ EM), DM, X1, X2 in X.
  rewrite <- (ln_product n E PE), <- X. rewrite ln_mult by (now apply product_pos). rewrite ln_product by exact LP. ring.
Qed.
(** it is the likelihood of a full sky *)
Theorem C125_exact diag chol det n f C Chat l : diagonalizes diag n -> factorizes chol n -> is_determinant n det -> symmetric n C -> positive n C -> symmetric n Chat -> positive n Chat ->
  exists E, relative_to n C Chat E /\ (forall i, (1 <= i <= n)%nat -> 0 < E i) /\ ExactChiSq diag chol n f C Chat l = Ok (IZR (2 * l + 1) * f * full_sky n E).
Proof.
  intros G F HD A B A' B'. destruct (exact_ok diag chol n f C Chat l G F A B A' B') as (L & U & D & HC & PD & Q & EL & LL & LP & H).
  pose proof (G _ (Rm_good n C U D Chat HC PD A')) as HR. set (V := fst _) in HR. set (E := snd _) in HR. pose proof (eigen_positive _ _ _ _ (Rm_pos n C U D Chat HC PD B') HR) as PE.
  exists E. split; [now apply (relative_of n C Chat U D V E) |]. split; [exact PE |]. rewrite H, (logdet_E n det _ L V E HD EL LL LP HR PE). do 2 f_equal.
  rewrite <- (trace_ext n _ _ EL). rewrite (trace_ext n _ _ (proj2 HR)), trace_cong by apply HR. unfold full_sky.
  rewrite (total_ext n (fun i => E i - ln (E i) - 1) (fun i => (E i + (-1) * ln (E i)) + (-1) * 1)) by (intros; ring). rewrite !total_plus, !total_scale.
  assert (X : total (fun _ => 1) n = INR n) by (clear; induction n as [| n IH]; [reflexivity | cbn [total]; rewrite IH, S_INR; ring]). rewrite X. ring.
Qed.
(** ... and, without determinants, never negative, and zero just if the theory is the data *)
Lemma trace_LL n L : trace n (times n L (tr L)) = total (fun i => total (fun k => L i k * L i k) n) n.
Proof. reflexivity. Qed.
Lemma pivot_gap x : 0 < x -> 0 <= x * x - 1 - 2 * ln x /\ (x * x - 1 - 2 * ln x = 0 -> x = 1).
Proof.
  intro P. assert (E : 2 * ln x = ln (x * x)) by (rewrite ln_mult by assumption; ring). rewrite E. assert (PP : 0 < x * x) by nra. destruct (Req_dec (x * x) 1) as [Q | Q].
  - rewrite Q, ln_1. split; [lra |]. intros _. nra.
  - pose proof (ln_bound (x * x) PP Q). split; [lra |]. intro Z. lra.
Qed.
Lemma exact_gap n L : lower n L -> (forall i, (1 <= i <= n)%nat -> 0 < L i i) ->
  0 <= trace n (times n L (tr L)) - INR n - 2 * total (fun i => ln (L i i)) n /\ (trace n (times n L (tr L)) - INR n - 2 * total (fun i => ln (L i i)) n = 0 <-> meq n L one).
Proof.
  intros LL LP. rewrite trace_LL.
  assert (X : INR n = total (fun _ => 1) n) by (clear; induction n as [| n IH]; [reflexivity | cbn [total]; rewrite <- IH, S_INR; ring]).
  set (g := fun i => total (fun k => L i k * L i k) n - 1 - 2 * ln (L i i)).
  assert (T : total (fun i => total (fun k => L i k * L i k) n) n - INR n - 2 * total (fun i => ln (L i i)) n = total g n).
  { rewrite X. unfold g. rewrite (total_ext n (fun i => total (fun k => L i k * L i k) n - 1 - 2 * ln (L i i)) (fun i => (total (fun k => L i k * L i k) n + (-1) * 1) + (-2) * ln (L i i))) by (intros; ring). rewrite !total_plus, !total_scale. ring. }
  assert (RW : forall i, (1 <= i <= n)%nat -> L i i * L i i <= total (fun k => L i k * L i k) n /\ (total (fun k => L i k * L i k) n = L i i * L i i -> forall k, (1 <= k <= n)%nat -> k <> i -> L i k = 0)).
  { intros i I. assert (Y : total (fun k => L i k * L i k) n = L i i * L i i + total (fun k => if Nat.eqb k i then 0 else L i k * L i k) n).
    { transitivity (total (fun k => (if Nat.eqb k i then L i k * L i k else 0) + (if Nat.eqb k i then 0 else L i k * L i k)) n).
      - apply total_ext. intros k K. destruct (Nat.eqb k i); ring.
      - rewrite total_plus. rewrite (total_one n (fun k => if Nat.eqb k i then L i k * L i k else 0) i I); [rewrite Nat.eqb_refl; reflexivity |]. intros k K N. destruct (Nat.eqb_spec k i); [congruence | reflexivity]. }
    assert (NN : forall k, (1 <= k <= n)%nat -> 0 <= (if Nat.eqb k i then 0 else L i k * L i k)) by (intros k K; destruct (Nat.eqb k i); [lra | apply Rle_0_sqr]).
    rewrite Y. split; [pose proof (total_nonneg n _ NN); lra |]. intros E k K N. pose proof (total_zero n _ NN ltac:(lra) k K) as Z. cbv beta in Z. destruct (Nat.eqb_spec k i); [congruence |]. now apply Rsqr_0_uniq. }
  assert (GP : forall i, (1 <= i <= n)%nat -> 0 <= g i).
  { intros i I. unfold g. destruct (RW i I) as (R1 & _). destruct (pivot_gap (L i i) (LP i I)) as (R2 & _). lra. }
  rewrite T. split; [now apply total_nonneg |]. split.
  - intros Z i j I J. pose proof (total_zero n g GP Z i I) as Q. unfold g in Q. destruct (RW i I) as (R1 & R3). destruct (pivot_gap (L i i) (LP i I)) as (R2 & R4). unfold one. destruct (Nat.eqb_spec i j) as [<- | N].
    + apply R4. lra.
    + apply R3; [lra | exact J | congruence].
  - intro E. apply total_0. intros i I. unfold g. rewrite (total_one n _ i I).
    + rewrite (E i i I I). unfold one. rewrite Nat.eqb_refl, ln_1. ring.
    + intros k K N. rewrite (E i k I K). unfold one. destruct (Nat.eqb_spec i k); [congruence | ring].
Qed.
Lemma LL_one n L : lower n L -> (forall i, (1 <= i <= n)%nat -> 0 < L i i) -> meq n (times n L (tr L)) one -> meq n L one.
Proof.
  intros LL LP E. apply (exact_gap n L LL LP). rewrite (trace_ext n _ _ E). 
  assert (X : forall m, (m <= n)%nat -> (forall i j, (1 <= i <= m)%nat -> (1 <= j <= n)%nat -> L i j = one i j)).
  { induction m as [| m IH]; intros M i j I J; [lia |]. destruct (Nat.eq_dec i (Datatypes.S m)) as [-> | N]; [| apply IH; lia].
    assert (Z : forall k, (1 <= k <= m)%nat -> L (Datatypes.S m) k = 0).
    { intros k K. pose proof (E (Datatypes.S m) k ltac:(lia) ltac:(lia)) as Q. unfold times, tr in Q. rewrite (total_one n _ k ltac:(lia)) in Q.
      - rewrite (IH ltac:(lia) k k ltac:(lia) ltac:(lia)) in Q. unfold one in Q. rewrite Nat.eqb_refl in Q. destruct (Nat.eqb_spec (Datatypes.S m) k); [lia | lra].
      - intros h H NE. rewrite (IH ltac:(lia) k h ltac:(lia) ltac:(lia)). unfold one. destruct (Nat.eqb_spec k h); [congruence | ring]. }
    unfold one. destruct (Nat.eqb_spec (Datatypes.S m) j) as [<- | NJ].
    - pose proof (E (Datatypes.S m) (Datatypes.S m) ltac:(lia) ltac:(lia)) as Q. unfold times, tr in Q. rewrite (total_one n _ (Datatypes.S m) ltac:(lia)) in Q.
      + unfold one in Q. rewrite Nat.eqb_refl in Q. pose proof (LP (Datatypes.S m) ltac:(lia)). nra.
      + intros k K NE. destruct (Nat.lt_ge_cases k (Datatypes.S m)); [rewrite Z by lia; ring | rewrite LL by lia; ring].
    - destruct (Nat.lt_ge_cases j (Datatypes.S m)); [apply Z; lia | apply LL; lia]. }
  assert (Y : INR n = trace n one). { rewrite <- (trace_ext n _ _ (diag_one n)), trace_diag. clear. induction n as [| n IH]; [reflexivity | cbn [total]; rewrite <- IH, S_INR; ring]. }
  rewrite Y, total_0; [ring |]. intros i I. rewrite (X n (le_n n) i i I I). unfold one. rewrite Nat.eqb_refl. apply ln_1.
Qed.
Theorem C125_exact_best diag chol n f C Chat l : diagonalizes diag n -> factorizes chol n -> symmetric n C -> positive n C -> symmetric n Chat -> positive n Chat -> (0 <= l)%Z -> 0 < f ->
  exists x, ExactChiSq diag chol n f C Chat l = Ok x /\ 0 <= x /\ (x = 0 <-> meq n C Chat).
Proof.
  intros G F A B A' B' HL Hf. destruct (exact_ok diag chol n f C Chat l G F A B A' B') as (L & U & D & HC & PD & Q & EL & LL & LP & H).
  eexists. split; [exact H |]. destruct (exact_gap n L LL LP) as (GE & GZ). assert (P : 0 < IZR (2 * l + 1) * f) by (apply Rmult_lt_0_compat; [apply IZR_lt; lia | exact Hf]).
  split; [apply Rmult_le_pos; lra |]. rewrite <- (R_one n C Chat U D HC PD), EL. split.
  - intro E. apply Rmult_integral in E. destruct E as [E | E]; [lra |]. apply GZ in E. rewrite E. rewrite times_one_l. intros i j _ _. unfold tr, one. now rewrite Nat.eqb_sym.
  - intro E. rewrite (proj2 GZ (LL_one n L LL LP E)). ring.
Qed.
(** with the covariance of a full sky, the approximation of Hamimeche and Lewis is exact *)
Theorem C125_full_sky diag chol det n f C Chat Cf X l : diagonalizes diag n -> factorizes chol n -> is_determinant n det -> symmetric n C -> positive n C -> symmetric n Chat -> positive n Chat -> meq n (times n X Cf) one ->
  exists T, Transform diag n C Chat Cf = Ok T /\ ExactChiSq diag chol n f C Chat l = Ok (IZR (2 * l + 1) * f / 2 * trace n (times n (times n X (times n T (tr X))) (times n X (times n T (tr X))))).
Proof.
  intros G F HD A B A' B' XE. pose proof (G C A) as HC. set (U := fst (diag n C)) in HC. set (D := snd (diag n C)) in HC.
  destruct (exact_ok diag chol n f C Chat l G F A B A' B') as (L & U' & D' & HC' & PD & Q & EL & LL & LP & H).
  unfold Transform. rewrite <- Q. rewrite (proj2 (all_pos_spec n D') PD). fold (Rm n U' D' Chat). pose proof (G _ (Rm_good n C U' D' Chat HC' PD A')) as HR. destruct (diag n (Rm n U' D' Chat)) as [V E]. cbn in HR.
  pose proof (eigen_positive _ _ _ _ (Rm_pos n C U' D' Chat HC' PD B') HR) as PE. rewrite (proj2 (all_pos_spec n E) PE). eexists. split; [reflexivity |]. set (T := mm n _ _).
  assert (HT : meq n T (times n (times n Cf V) (times n (diagm (fun i => gfun (E i))) (tr (times n Cf V))))).
  { unfold T. assert (Y : meq n (fun i j => mm n Cf V i j * gfun (E j)) (times n (times n Cf V) (diagm (fun i => gfun (E i))))) by (intros i j I J; rewrite times_diag_r by exact J; rewrite (mm_times n Cf V i j I J); reflexivity).
    rewrite mm_times, Y, times_assoc. rewrite (mm_times n Cf V). reflexivity. }
  rewrite (trace_ext n _ (times n V (times n (diagm (fun i => gfun (E i) * gfun (E i))) (tr V)))) by (rewrite (unrotated n X Cf V _ T XE HT); apply sandwich, HR).
  rewrite trace_cong by apply HR. rewrite g_full by exact PE. rewrite H, (logdet_E n det _ L V E HD EL LL LP HR PE). f_equal.
  rewrite <- (trace_ext n _ _ EL). rewrite (trace_ext n _ _ (proj2 HR)), trace_cong by apply HR. unfold full_sky.
  rewrite (total_ext n (fun i => E i - ln (E i) - 1) (fun i => (E i + (-1) * ln (E i)) + (-1) * 1)) by (intros; ring). rewrite !total_plus, !total_scale.
  assert (Y : total (fun _ => 1) n = INR n) by (clear; induction n as [| n IH]; [reflexivity | cbn [total]; rewrite IH, S_INR; ring]). rewrite Y. field.
Qed.
Lemma det_1 : is_determinant 1 (fun A => A 1%nat 1%nat).
Proof.
  split; [intros A B E; apply E; lia |]. split; [intros A B; unfold times; cbn [total]; ring |]. intros L _. cbn [product]. unfold tr. split; ring.
Qed.
Example C125_det_2 : is_determinant 2 (fun A => A 1%nat 1%nat * A 2%nat 2%nat - A 1%nat 2%nat * A 2%nat 1%nat).
Proof.
  split; [intros A B E; rewrite !E by lia; reflexivity |]. split; [intros A B; unfold times; cbn [total]; ring |]. intros L H. unfold tr. cbn [product]. rewrite (H 1%nat 2%nat) by lia. split; ring.
Qed.
Theorem C125_single diag chol f C Chat fid l : diagonalizes diag 1 -> factorizes chol 1 -> 0 < C 1%nat 1%nat -> 0 < Chat 1%nat 1%nat -> 0 < fid ->
  exists T, Transform diag 1 C Chat (fun _ _ => sqrt fid) = Ok T /\ ExactChiSq diag chol 1 f C Chat l = Ok (T 1%nat 1%nat * (IZR (2 * l + 1) * f / (2 * fid ^ 2)) * T 1%nat 1%nat).
Proof.
  intros G F A B P. assert (S1 : forall M, symmetric 1 M) by (intros M i j I J; replace i with j by lia; reflexivity).
  assert (P1 : forall M, 0 < M 1%nat 1%nat -> positive 1 M).
  { intros M Q v (i & I & N). replace i with 1%nat in N by lia. unfold form. cbn [total]. assert (0 < v 1%nat * v 1%nat) by (destruct (Rtotal_order (v 1%nat) 0) as [Z | [Z | Z]]; nra). nra. }
  pose proof (sqrt_lt_R0 _ P) as SP. pose proof (sqrt_def fid ltac:(lra)) as SS.
  destruct (C125_full_sky diag chol _ 1 f C Chat (fun _ _ => sqrt fid) (fun _ _ => / sqrt fid) l G F det_1 (S1 C) (P1 C A) (S1 Chat) (P1 Chat B)) as (T & H & E).
  { intros i j I J. replace i with 1%nat by lia. replace j with 1%nat by lia. unfold times, one. cbn [total Nat.eqb]. field. lra. }
  exists T. split; [exact H |]. rewrite E. f_equal. unfold trace, times, tr. cbn [total]. replace (fid ^ 2) with (sqrt fid * sqrt fid * (sqrt fid * sqrt fid)) by (rewrite SS; ring). field. lra.
Qed.

(** ** chi-squared and likelihood *)
Lemma mapM_ok {A B} (f : A -> out B) (g : A -> B) l : (forall x, In x l -> f x = Ok (g x)) -> mapM f l = Ok (map g l).
Proof. induction l as [| x l IH]; intro H; [reflexivity |]. cbn [mapM map]. rewrite H by (left; reflexivity). cbn [bind]. rewrite IH by (intros; apply H; right; assumption). reflexivity. Qed.
Lemma upto_In lo hi b : In b (upto lo hi) <-> (lo <= b <= hi)%Z.
Proof.
  unfold upto. rewrite in_map_iff. split; [intros (k & <- & K); apply in_seq in K; lia | intro H; exists (Z.to_nat (b - lo)); rewrite in_seq; lia].
Qed.
Lemma used_In cs k c : In c (map fst (used_cols k cs)) <-> In c cs /\ c <> O.
Proof.
  revert k. induction cs as [| a cs IH]; intro k; [cbn; tauto |]. cbn [used_cols]. destruct a as [| a]; cbn [map In fst].
  - rewrite IH. intuition congruence.
  - rewrite IH. intuition congruence.
Qed.
Lemma form_zero n M v : symmetric n M -> positive n M -> 0 <= QuadForm n M v /\ (QuadForm n M v = 0 <-> forall i, (1 <= i <= n)%nat -> v i = 0).
Proof.
  intros Sy P. rewrite (QuadForm_form n M v Sy). destruct (Classical_Prop.classic (exists i, (1 <= i <= n)%nat /\ v i <> 0)) as [Y | N].
  - pose proof (P v Y) as Q. split; [lra |]. split; [lra |]. intro Z. destruct Y as (i & I & NI). exfalso. apply NI, Z, I.
  - assert (Z : forall i, (1 <= i <= n)%nat -> v i = 0). { intros i I. destruct (Req_dec (v i) 0) as [E | E]; [exact E | exfalso; apply N; exists i; split; assumption]. }
    assert (F : form n M v = 0) by (unfold form; apply total_0; intros i I; apply total_0; intros j J; rewrite (Z i I); ring). rewrite F. split; [lra |]. split; [intro; exact Z | reflexivity].
Qed.
Lemma stack_zero (X : list R) : (forall i, (1 <= i <= length X)%nat -> nth (i - 1) X 0 = 0) <-> (forall x, In x X -> x = 0).
Proof.
  split.
  - intros H x I. apply (In_nth X x 0) in I. destruct I as (k & K & <-). specialize (H (Datatypes.S k) ltac:(lia)). now rewrite Nat.sub_succ, Nat.sub_0_r in H.
  - intros H i I. apply H, nth_In. lia.
Qed.
Lemma vec_zero d M : numbers d -> (forall x, In x (vec_bin (clix d) (MatrixToElements (nmaps d) M)) -> x = 0) <-> (forall i j, uses d i j -> M i j = 0).
Proof.
  intro N. unfold vec_bin, cl_use_index, uses.
  assert (Q : forall i j, (1 <= j <= i)%nat -> (i <= nmaps d)%nat -> nth (triangle i j - 1) (MatrixToElements (nmaps d) M) 0 = M i j).
  { intros i j J I. unfold MatrixToElements. apply nth_error_nth. rewrite (map_nth_error _ _ _ (tri_nth _ _ _ J I)). reflexivity. }
  split.
  - intros H i j (J & I & U). rewrite <- (Q i j J I). apply H. apply in_map_iff. exists (triangle i j). split; [reflexivity |]. apply used_In. split; [exact U |]. unfold triangle. lia.
  - intros H x I. apply in_map_iff in I. destruct I as (c & <- & C). apply used_In in C. destruct C as (C & NZ). destruct (N c C) as [-> | (i & j & J & I & ->)]; [congruence |]. rewrite Q by assumption. apply H. auto.
Qed.
Lemma stacked_len d (M : Z -> matrix) : length (concat (map (fun b => vec_bin (clix d) (MatrixToElements (nmaps d) (M b))) (upto (blo d) (bhi d)))) = stacked d.
Proof.
  unfold stacked. assert (E : length (upto (blo d) (bhi d)) = Z.to_nat (bhi d - blo d + 1)) by (unfold upto; rewrite map_length, seq_length; reflexivity). rewrite <- E. generalize (upto (blo d) (bhi d)). intro l.
  induction l as [| b l IH]; [reflexivity |]. cbn [map concat length]. rewrite app_length, IH. unfold vec_bin at 1. rewrite map_length. unfold cl_use_index. rewrite map_length.
  assert (Q : forall cs k, length (used_cols k cs) = length (filter (fun c => negb (Nat.eqb c 0)) cs)). { induction cs as [| a cs IC]; intro k; [reflexivity |]. destruct a; cbn; now rewrite IC. }
  rewrite Q. lia.
Qed.
(** the difference of theory and data, or the transform, is zero for the spectra that are used: chi-squared is a form of what is stacked *)
Theorem C125_gaussian diag chol d theory C : like d = Gaussian -> numbers d -> (forall b, (blo d <= b <= bhi d)%Z -> theory b = Ok (C b)) ->
  symmetric (stacked d) (icov d) -> positive (stacked d) (icov d) ->
  exists x, chisq diag chol d theory = Ok x /\ 0 <= x /\ (x = 0 <-> forall b i j, (blo d <= b <= bhi d)%Z -> uses d i j -> C b i j = chatM d b i j).
Proof.
  intros HL N HT Sy Po. unfold chisq. rewrite HL. rewrite (mapM_ok _ (fun b => vec_bin (clix d) (MatrixToElements (nmaps d) (fun i j => C b i j - chatM d b i j)))).
  2:{ intros b I. apply upto_In in I. rewrite (HT b I). cbn [bind]. unfold bin_vector. rewrite HL. unfold noisy. rewrite HL. reflexivity. }
  cbn [bind]. eexists. split; [reflexivity |]. pose proof (stacked_len d (fun b i j => C b i j - chatM d b i j)) as SL. cbv beta in SL. rewrite <- SL in Sy, Po. destruct (form_zero _ (icov d)
    (fun i => nth (i - 1) (concat (map (fun b => vec_bin (clix d) (MatrixToElements (nmaps d) (fun i j => C b i j - chatM d b i j))) (upto (blo d) (bhi d)))) 0) Sy Po) as (P1 & P2).
  split; [exact P1 |]. rewrite P2, stack_zero. split.
  - intros H b i j B U. assert (Z : forall x, In x (vec_bin (clix d) (MatrixToElements (nmaps d) (fun i j => C b i j - chatM d b i j))) -> x = 0).
    { intros x I. apply H. apply in_concat. eexists. split; [| exact I]. apply in_map_iff. exists b. split; [reflexivity | now apply upto_In]. }
    pose proof (proj1 (vec_zero d _ N) Z i j U) as E. cbv beta in E. lra.
  - intros H x I. apply in_concat in I. destruct I as (v & I & J). apply in_map_iff in I. destruct I as (b & <- & B). apply upto_In in B. apply (proj2 (vec_zero d (fun i j => C b i j - chatM d b i j) N)); [| exact J].
    intros i j U. rewrite (H b i j B U). ring.
Qed.
Theorem C125_hl_best diag chol d theory C X : like d = HL -> numbers d -> diagonalizes diag (nmaps d) -> (forall b, (blo d <= b <= bhi d)%Z -> theory b = Ok (C b)) ->
  (forall b, symmetric (nmaps d) (noisy d (C b) b) /\ positive (nmaps d) (noisy d (C b) b) /\ symmetric (nmaps d) (chatM d b) /\ positive (nmaps d) (chatM d b)) ->
  (forall b, meq (nmaps d) (times (nmaps d) (X b) (cfhalf d b)) one) -> (forall i j, (1 <= j <= i)%nat -> (i <= nmaps d)%nat -> uses d i j) ->
  symmetric (stacked d) (icov d) -> positive (stacked d) (icov d) ->
  exists x, chisq diag chol d theory = Ok x /\ 0 <= x /\ (x = 0 <-> forall b, (blo d <= b <= bhi d)%Z -> meq (nmaps d) (noisy d (C b) b) (chatM d b)).
Proof.
  intros HL N G HT HC HX AU Sy Po. set (n := nmaps d) in *.
  set (T := fun b => match Transform diag n (noisy d (C b) b) (chatM d b) (cfhalf d b) with Ok T => T | _ => fun _ _ => 0 end).
  assert (ET : forall b, Transform diag n (noisy d (C b) b) (chatM d b) (cfhalf d b) = Ok (T b) /\ symmetric n (T b)).
  { intro b. destruct (HC b) as (A & B & A' & B'). destruct (transform_ok diag n _ _ (cfhalf d b) G A B A' B') as (U & D & V & E & T0 & H & _ & _ & _ & _ & HT0). unfold T. rewrite H. split; [reflexivity |].
    apply (symmetric_meq2 n _ T0 (symmetry HT0)). apply symmetric_meq. symmetry. apply cong_tr. }
  assert (EZ : forall b, meq n (T b) (fun _ _ => 0) <-> meq n (noisy d (C b) b) (chatM d b)).
  { intro b. destruct (HC b) as (A & B & A' & B'). apply (C125_zero diag n _ _ (cfhalf d b) (X b)); try assumption; [apply HX | apply ET]. }
  assert (EU : forall b, meq n (T b) (fun _ _ => 0) <-> forall i j, uses d i j -> T b i j = 0).
  { intro b. split; [intros H i j (J & I & _); apply H; fold n in I; lia |]. intros H i j I J. destruct (Nat.le_gt_cases j i) as [L | L].
    - apply H, AU; lia.
    - rewrite (proj2 (ET b) i j I J). apply H, AU; lia. }
  unfold chisq. rewrite HL. rewrite (mapM_ok _ (fun b => vec_bin (clix d) (MatrixToElements n (T b)))).
  2:{ intros b I. apply upto_In in I. rewrite (HT b I). cbn [bind]. unfold bin_vector. rewrite HL. fold n. rewrite (proj1 (ET b)). reflexivity. }
  cbn [bind]. eexists. split; [reflexivity |]. pose proof (stacked_len d T) as SL. fold n in SL. rewrite <- SL in Sy, Po. destruct (form_zero _ (icov d)
    (fun i => nth (i - 1) (concat (map (fun b => vec_bin (clix d) (MatrixToElements n (T b))) (upto (blo d) (bhi d)))) 0) Sy Po) as (P1 & P2).
  split; [exact P1 |]. rewrite P2, stack_zero. split.
  - intros H b B. apply EZ, EU. apply (vec_zero d (T b) N). intros x I. apply H. apply in_concat. eexists. split; [| exact I]. apply in_map_iff. exists b. split; [reflexivity | now apply upto_In].
  - intros H x I. apply in_concat in I. destruct I as (v & I & J). apply in_map_iff in I. destruct I as (b & <- & B). apply upto_In in B. apply (proj2 (vec_zero d (T b) N)); [| exact J]. apply EU, EZ, H, B.
Qed.
(** ** noise, bins and calibration *)
(** theory and data are compared with the same noise, whatever the files hold *)
Theorem C125_noise a inc C signal noise : with_noise a C noise - hat_used a inc (in_file inc signal noise) noise = C - signal.
Proof. unfold with_noise, hat_used, in_file. destruct a, inc; ring. Qed.
Theorem C125_fiducial a inc signal fid noise : a <> Gaussian -> hat_used a inc (in_file inc signal noise) noise = signal + noise /\ fid_used inc (in_file inc fid noise) noise = fid + noise.
Proof. intro N. unfold hat_used, fid_used, in_file. destruct a, inc; try congruence; split; ring. Qed.
(** the exact likelihood is not for bins *)
Theorem C125_binned diag chol d theory cal prior : like d = Exact -> binned d = true -> LogLike diag chol d theory cal prior = Stop.
Proof. intros H B. unfold LogLike, chisq. rewrite H, B. reflexivity. Qed.
(** the prior is Gaussian in the logarithm of the calibration, and not there without the parameter or without a width *)
Theorem C125_prior diag chol d theory prior c x : chisq diag chol d theory = Ok c -> 0 < prior -> 0 < x ->
  LogLike diag chol d theory (Some x) prior = Ok ((c + (ln x / prior) ^ 2) / 2) /\ LogLike diag chol d theory (Some (/ x)) prior = LogLike diag chol d theory (Some x) prior /\ LogLike diag chol d theory (Some 1) prior = Ok (c / 2).
Proof.
  intros H P X. unfold LogLike. rewrite H. cbn [bind]. destruct (Rlt_dec 0 prior); [| lra]. destruct (Rlt_dec 0 x); [| lra]. destruct (Rlt_dec 0 (/ x)) as [_ | N]; [| exfalso; apply N, Rinv_0_lt_compat, X]. destruct (Rlt_dec 0 1); [| lra].
  cbn [bind]. split; [reflexivity |]. split.
  - f_equal. rewrite ln_Rinv by exact X. field. lra.
  - f_equal. rewrite ln_1. field. lra.
Qed.
Theorem C125_no_prior diag chol d theory cal prior c : chisq diag chol d theory = Ok c -> cal = None \/ prior <= 0 -> LogLike diag chol d theory cal prior = Ok (c / 2).
Proof. intros H N. unfold LogLike. rewrite H. cbn [bind]. destruct cal; [| reflexivity]. destruct (Rlt_dec 0 prior); [destruct N; [congruence | lra] | reflexivity]. Qed.
(** one map: the eigenvalue is the ratio, chi-squared of a spectrum twice as high as the theory, and diagonalization is trivial *)
Definition diag1 : diagonalizer := fun _ M => (one, fun i => M i i).
Definition chol1 : cholesky := fun _ M => Some (fun i j => if Nat.eqb i j then sqrt (M i j) else 0).
Example C125_ex : diagonalizes diag1 1 /\ factorizes chol1 1 /\
  ExactChiSq diag1 chol1 1 1 (fun _ _ => 1) (fun _ _ => 2) 2 = Ok (5 * (1 - ln 2)).
Proof.
  assert (G : diagonalizes diag1 1).
  { intros M _. split; [split |]; intros i j I J; replace i with 1%nat by lia; replace j with 1%nat by lia; unfold diag1, times, tr, one, diagm; cbn [total fst snd Nat.eqb]; ring. }
  assert (F : factorizes chol1 1).
  { intros M _ P. assert (P1 : 0 < M 1%nat 1%nat). { assert (Q : 0 < form 1 M (fun _ => 1)) by (apply P; exists 1%nat; split; [lia | lra]). unfold form in Q. cbn [total] in Q. lra. }
    eexists. split; [reflexivity |]. split; [| split].
    - intros i j I J. replace i with 1%nat by lia. replace j with 1%nat by lia. unfold times, tr. cbn [total Nat.eqb]. rewrite sqrt_def by lra. ring.
    - intros i j I J. lia.
    - intros i I. replace i with 1%nat by lia. cbn [Nat.eqb]. now apply sqrt_lt_R0. }
  split; [exact G |]. split; [exact F |].
  destruct (C125_single diag1 chol1 1 (fun _ _ => 1) (fun _ _ => 2) 1 2 G F ltac:(lra) ltac:(lra) ltac:(lra)) as (T & H & E). rewrite E. f_equal.
  unfold Transform in H. cbn [diag1 fst snd] in H.
  destruct (all_pos 1 (fun i => 1)) eqn:A1; [| discriminate]. destruct (all_pos 1 _) eqn:A2 in H; [| discriminate]. injection H as <-.
  unfold mm, tr, sum1, one. cbn. rewrite !sqrt_1.
  match goal with |- context [gfun ?x] => replace x with 2 by field end.
  transitivity (5 / 2 * (gfun 2 * gfun 2)); [field | rewrite gfun_sq by lra; field].
Qed.
(** the data of one map in one bin meet the hypotheses of C125_gaussian and of C125_hl_best *)
Definition one_bin (a : approx) : data := mkData 1 a true 3 3 (fun _ _ _ => 1) (fun _ _ _ => 2) (fun _ => one) [1%nat] one 1.
Example C125_ex_best a : numbers (one_bin a) /\ symmetric (stacked (one_bin a)) (icov (one_bin a)) /\ positive (stacked (one_bin a)) (icov (one_bin a)) /\
  (forall i j, (1 <= j <= i)%nat -> (i <= 1)%nat -> uses (one_bin a) i j) /\ diagonalizes diag1 1 /\ meq 1 (times 1 one one) one /\
  (exists x, chisq diag1 chol1 (one_bin Gaussian) (fun _ => Ok (fun _ _ => 2)) = Ok x /\ x = 0) /\
  (exists x, chisq diag1 chol1 (one_bin HL) (fun _ => Ok (fun _ _ => 1)) = Ok x /\ x = 0).
Proof.
  assert (N : forall a, numbers (one_bin a)) by (intros b c [<- | []]; right; exists 1%nat, 1%nat; repeat split; reflexivity || lia).
  assert (Sy : symmetric 1 one) by (intros i j I J; replace i with j by lia; reflexivity).
  assert (Po : forall M, 0 < M 1%nat 1%nat -> positive 1 M). { intros M Q v (i & I & NZ). replace i with 1%nat in NZ by lia. unfold form. cbn [total]. assert (0 < v 1%nat * v 1%nat) by (destruct (Rtotal_order (v 1%nat) 0) as [Z | [Z | Z]]; nra). nra. }
  assert (P1 : positive 1 one) by (apply Po; unfold one; cbn; lra).
  assert (U : forall a i j, (1 <= j <= i)%nat -> (i <= 1)%nat -> uses (one_bin a) i j). { intros b i j J I. replace i with 1%nat by lia. replace j with 1%nat by lia. repeat split; cbn; lia || (left; reflexivity). }
  destruct C125_ex as (G & _ & _). assert (X : meq 1 (times 1 one one) one) by apply times_one_l.
  split; [apply N |]. split; [exact Sy |]. split; [exact P1 |]. split; [apply U |]. split; [exact G |]. split; [exact X |]. split.
  - destruct (C125_gaussian diag1 chol1 (one_bin Gaussian) (fun _ => Ok (fun _ _ => 2)) (fun _ _ _ => 2) eq_refl (N _) ltac:(reflexivity) Sy P1) as (x & E & _ & Z). exists x. split; [exact E |]. apply Z. reflexivity.
  - destruct (C125_hl_best diag1 chol1 (one_bin HL) (fun _ => Ok (fun _ _ => 1)) (fun _ _ _ => 1) (fun _ => one) eq_refl (N _) G ltac:(reflexivity)) as (x & E & _ & Z); try assumption.
    + intro b. split; [intros i j I J; reflexivity |]. split; [apply Po; cbn; lra |]. split; [intros i j I J; reflexivity | apply Po; cbn; lra].
    + intro b. exact X.
    + apply U.
    + exists x. split; [exact E |]. apply Z. intros b B i j I J. cbn. lra.
Qed.
Print Assumptions C125_transform. Print Assumptions C125_g. Print Assumptions C125_zero. Print Assumptions C125_trace. Print Assumptions C125_exact. Print Assumptions C125_exact_best. Print Assumptions C125_full_sky. Print Assumptions C125_single.
Print Assumptions C125_gaussian. Print Assumptions C125_hl_best. Print Assumptions C125_noise. Print Assumptions C125_fiducial. Print Assumptions C125_binned. Print Assumptions C125_prior. Print Assumptions C125_no_prior.
