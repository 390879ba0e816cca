(** C126: measurements of weak lensing; C127: their theory *)
From Coq Require Import Reals ZArith Bool List Lia Lra Arith.
From Verif Require Import BaoModel BaoSpec BaoProofs SnProofs WlModel WlSpec WlProofs.
Import ListNotations.
Local Open Scope R_scope.

(** C126: the measurements used are those selected by type and angle, in the order of the data, each with its row of the covariance. *)
Theorem C126_used S file st : read_files S 1 (types S) file (start S) = Ok st ->
  exists ch, chosen (fun p => selected S (snd p)) (numbered (listing (types S) file)) ch /\ used st = map (fun p => (fst p, item_of (snd p))) ch.
Proof. intro H. apply good_all in H. apply H. Qed.
Theorem C126_count S file st : read_files S 1 (types S) file (start S) = Ok st -> cov_ix st = length (listing (types S) file).
Proof. intro H. apply good_all in H. apply H. Qed.
(** every pair of bins of a measurement is in the list of pairs of its type, and no other; the first bin of angles is the smallest used *)
Theorem C126_pairs S file st k a b : read_files S 1 (types S) file (start S) = Ok st ->
  (In (a, b) (pairs st k) <-> (1 <= k <= length (types S))%nat /\ exists x, In x (file k) /\ b1 x = a /\ b2 x = b).
Proof.
  intro H. apply good_all in H. destruct H as (_ & _ & _ & G & _). rewrite G. unfold listing. split.
  - intros (tp & x & I & E). apply in_concat in I. destruct I as (l & I & J). apply in_map_iff in I. destruct I as (k' & <- & K). apply in_map_iff in J. destruct J as (x' & Q & J). injection Q as -> _ ->. apply in_seq in K. split; [lia | eauto].
  - intros (K & x & I & E). exists (nth (k - 1) (types S) O), x. split; [| exact E]. apply in_concat. eexists. split; [apply in_map_iff; exists k; split; [reflexivity | apply in_seq; lia] |]. apply in_map_iff. eauto.
Qed.
Theorem C126_first S file st : read_files S 1 (types S) file (start S) = Ok st ->
  (forall u, In u (used st) -> (first_theta st <= i_th (snd u))%nat) /\ (used st <> [] -> exists u, In u (used st) /\ first_theta st = i_th (snd u)).
Proof.
  intro H. apply good_all in H. destruct H as (GL & _ & (ch & C & U) & _ & _ & G1 & G2). split; [exact G1 |]. intro N. destruct G2 as [E | G2]; [| exact G2].
  destruct (used st) as [| u l] eqn:Q; [congruence |]. exists u. split; [now left |]. pose proof (G1 u (or_introl eq_refl)) as L. rewrite E in L |- *. assert (I : In u (map (fun p => (fst p, item_of (snd p))) ch)) by (rewrite <- U; now left).
  apply in_map_iff in I. destruct I as ([k ((i, tp), x)] & <- & I). apply (chosen_In _ _ _ _ C) in I. destruct I as (I & _). apply numbered_In in I. destruct I as (_ & I). apply nth_error_In in I. rewrite Forall_forall in GL. specialize (GL _ I). cbn in *. destruct GL; lia.
Qed.
(** the data vector holds their values if no measurement is given twice (a second line replaces the first, refuted below) *)
Lemma NoDup_key {A B} (f : A -> B) l x y : NoDup (map f l) -> In x l -> In y l -> f x = f y -> x = y.
Proof.
  induction l as [| a l IH]; intros N I J E; [destruct I |]. inversion N as [| ? ? N1 N2]; subst. destruct I as [<- | I], J as [<- | J]; auto.
  - exfalso. apply N1. rewrite E. now apply in_map.
  - exfalso. apply N1. rewrite <- E. now apply in_map.
Qed.
Theorem C126_data_partial S file st : read_files S 1 (types S) file (start S) = Ok st -> NoDup (map key_of (listing (types S) file)) ->
  exists ch, chosen (selected S) (listing (types S) file) ch /\ make_vector (data_c st) (used st) = Ok (map value_at ch).
Proof.
  intros H N. apply good_all in H. set (ms := listing (types S) file) in *. destruct H as (_ & _ & (ch & C & U) & _ & D & _).
  exists (map snd ch). split.
  - clear - C. unfold numbered in C. revert C. generalize 1%nat. intros s C. assert (G : forall (l : list (nat * (nat * nat * mline))) l', chosen (fun p => selected S (snd p)) l l' -> chosen (selected S) (map snd l) (map snd l')) by (induction 1; cbn; constructor; auto).
    apply G in C. assert (E : forall (l : list (nat * nat * mline)) s, map snd (combine (seq s (length l)) l) = l) by (induction l as [| x l IH]; intro k; cbn; [reflexivity | now rewrite IH]). now rewrite E in C.
  - assert (V : forall p, In p ch -> data_c st (i_th (item_of (snd p))) (i_b1 (item_of (snd p))) (i_b2 (item_of (snd p))) (i_type (item_of (snd p))) = Some (value_at (snd p))).
    { intros [k ((i, tp), x)] I. apply (chosen_In _ _ _ _ C) in I. destruct I as (I & _). apply numbered_In in I. destruct I as (_ & I). apply nth_error_In in I. cbn [snd item_of i_th i_b1 i_b2 i_type]. specialize (D (th x) (b1 x) (b2 x) i).
      destruct (data_c st (th x) (b1 x) (b2 x) i) as [v |]; [| exfalso; apply (D _ I); reflexivity]. destruct D as (l1 & l2 & m & E & K & W & _). f_equal. rewrite <- W. f_equal. apply (NoDup_key key_of ms); [exact N | rewrite E; apply in_or_app; right; now left | exact I | exact K]. }
    rewrite U. clear - V. induction ch as [| [k m] ch IH]; [reflexivity |]. cbn [map make_vector fst snd]. pose proof (V (k, m) (or_introl eq_refl)) as E. cbn [snd] in E. rewrite E. cbn [value_of bind]. rewrite IH; [reflexivity |]. intros p I. apply V. now right.
Qed.
(** reading never leaves a used measurement without a value *)
Theorem C126_vector S file st : read_files S 1 (types S) file (start S) = Ok st -> exists v, make_vector (data_c st) (used st) = Ok v /\ length v = length (used st).
Proof.
  intro H. apply good_all in H. destruct H as (_ & _ & (ch & C & U) & _ & D & _).
  exists (map (fun p => match data_c st (i_th (snd p)) (i_b1 (snd p)) (i_b2 (snd p)) (i_type (snd p)) with Some v => v | None => 0 end) (used st)). split; [| apply map_length].
  apply make_vector_map. intros p I. rewrite U in I. apply in_map_iff in I. destruct I as ([k ((i, tp), x)] & <- & I). apply (chosen_In _ _ _ _ C) in I. destruct I as (I & _). apply numbered_In in I. destruct I as (_ & I). apply nth_error_In in I.
  cbn [snd item_of i_th i_b1 i_b2 i_type]. specialize (D (th x) (b1 x) (b2 x) i). destruct (data_c st (th x) (b1 x) (b2 x) i); [reflexivity | exfalso; apply (D _ I); reflexivity].
Qed.
Local Arguments within : simpl never.
Definition sel_all : selection := fun _ _ _ => (0, 100).
Definition S1 : setup := mkSetup 2 3 (fun _ => 50) [xip] (fun _ => true) sel_all.
(** FINDING: a measurement given twice has the value of the last line, with both rows of the covariance *)
Theorem C126_twice_refuted : exists st, read_files S1 1%nat (types S1) (fun _ => [mkM 1 1 1 5; mkM 1 1 1 7]) (start S1) = Ok st /\ make_vector (data_c st) (used st) = Ok [7; 7].
Proof.
  assert (W : within (0, 100) 50 = true) by (apply within_spec; cbn; lra).
  eexists. split.
  - unfold S1. cbn [types read_files read_file]. unfold read_line. unfold sel_all. cbn. rewrite ?W. cbn. rewrite ?W. reflexivity.
  - reflexivity.
Qed.
(** lines with a bin of angles that is not there stop, other bins are not checked *)
Theorem C126_theta S i tp x st : (th x < 1 \/ nth_ S < th x)%nat -> read_line S i tp x st = Stop.
Proof. intro H. unfold read_line. destruct (Nat.leb_spec 1 (th x)), (Nat.leb_spec (th x) (nth_ S)); cbn; try reflexivity; lia. Qed.
Theorem C126_bins_refuted : exists x, b1 x = 3%nat /\ read_line S1 1 xip x (start S1) = Undef.
Proof. exists (mkM 3 1 1 0). split; reflexivity. Qed.
(** selection: the last line for a type that is wanted and a pair; pairs without a line are never used *)
Theorem C126_selection sgl want mb ls s s' t a b : read_selection sgl want mb ls s = Ok s' ->
  (s' t a b = s t a b /\ forall x, In x ls -> want (s_type x) = true -> (s_type x, s_b1 x, s_b2 x) <> (t, a, b)) \/
  (want t = true /\ exists l1 x l2, ls = l1 ++ x :: l2 /\ (s_type x, s_b1 x, s_b2 x) = (t, a, b) /\ s' t a b = (sgl (s_lo x), sgl (s_hi x)) /\ forall y, In y l2 -> (s_type y, s_b1 y, s_b2 y) <> (t, a, b)).
Proof.
  revert s. induction ls as [| x ls IH]; intros s H; cbn [read_selection] in H; [injection H as <-; left; split; [reflexivity | intros y []] |].
  destruct (negb (Nat.leb 1 (s_type x) && Nat.leb (s_type x) 4)); [discriminate |]. destruct (negb (in_bins mb (s_b1 x) (s_b2 x))); [discriminate |]. specialize (IH _ H). destruct IH as [(E & N) | (W & l1 & y & l2 & E & K & V & N)].
  - destruct (want (s_type x)) eqn:W.
    + destruct (Nat.eqb t (s_type x) && Nat.eqb a (s_b1 x) && Nat.eqb b (s_b2 x)) eqn:Q.
      * rewrite !andb_true_iff, !Nat.eqb_eq in Q. destruct Q as ((-> & ->) & ->). right. split; [exact W |]. exists [], x, ls. split; [reflexivity |]. split; [reflexivity |]. split; [exact E |]. intros y I K. apply (N y I); [| exact K]. injection K as -> _ _. exact W.
      * left. split; [exact E |]. intros y [<- | I] Wy; [| now apply N]. intro K. injection K as <- <- <-. rewrite !Nat.eqb_refl in Q. discriminate.
    + left. split; [exact E |]. intros y [<- | I] Wy; [congruence | now apply N].
  - right. split; [exact W |]. exists (x :: l1), y, l2. split; [rewrite E; reflexivity |]. auto.
Qed.
Theorem C126_unselected sgl want mb ls s' : read_selection sgl want mb ls (fun _ _ _ => (-1, -1)) = Ok s' ->
  forall S m, sel S = s' -> (forall t, 0 < theta S t) -> selected S m -> let '(_, tp, x) := m in exists y, In y ls /\ s_type y = tp /\ s_b1 y = b1 x /\ s_b2 y = b2 x /\ sgl (s_lo y) <= theta S (th x) <= sgl (s_hi y).
Proof.
  intros H S [[k tp] x] E P (W & Q). rewrite E in Q. destruct (C126_selection sgl want mb ls _ s' tp (b1 x) (b2 x) H) as [(V & _) | (_ & l1 & y & l2 & L & K & V & _)]; rewrite V in Q; cbn [fst snd] in Q.
  - pose proof (P (th x)). lra.
  - exists y. injection K as K1 K2 K3. split; [rewrite L; apply in_or_app; right; now left |]. auto.
Qed.
(** FINDING: limits are rounded to single precision, so an angle that is the limit may not be used *)
Theorem C126_rounded_refuted sgl x : sgl x <> x -> exists s, read_selection sgl (fun _ => true) 1 [mkS 1 1 1 x x] (fun _ _ _ => (-1, -1)) = Ok s /\ ~ selected (mkSetup 1 1 (fun _ => x) [xip] (fun _ => true) s) (1%nat, xip, mkM 1 1 1 0).
Proof.
  intro N. eexists. split; [reflexivity |]. intros (_ & Q). cbn in Q. apply N. lra.
Qed.
(** the covariance must be that of all measurements; chi-squared is the form of the differences with the inverse of the rows and columns of those used, and zero just if these agree *)
Theorem C126_size S file n1 n2 cov inv ah st : read_files S 1 (types S) file (start S) = Ok st -> (n1 <> length (listing (types S) file) \/ n2 <> length (listing (types S) file)) -> load S file n1 n2 cov inv ah = Stop.
Proof.
  intros H N. unfold load. rewrite H. cbn [bind]. rewrite (C126_count S file st H). destruct (Nat.eqb_spec (length (listing (types S) file)) n1); [destruct (Nat.eqb_spec (length (listing (types S) file)) n2); [lia | reflexivity] | reflexivity].
Qed.
Theorem C126_load S file n cov inv ah w : load S file n n cov inv ah = Ok w -> exists st ch, read_files S 1 (types S) file (start S) = Ok st /\ w_rd w = st /\
  chosen (fun p => selected S (snd p)) (numbered (listing (types S) file)) ch /\ used st = map (fun p => (fst p, item_of (snd p))) ch /\
  invcov w = inv (length ch) (fun i j => cov (fst (nth (i - 1) ch (O, (O, O, mkM 0 0 0 0)))) (fst (nth (j - 1) ch (O, (O, O, mkM 0 0 0 0))))).
Proof.
  unfold load. destruct (read_files S 1 (types S) file (start S)) as [st | |] eqn:H; try discriminate. cbn [bind]. destruct (negb _); [discriminate |]. destruct (make_vector (data_c st) (used st)) as [v | |]; try discriminate. cbn [bind]. intro E. injection E as <-.
  destruct (C126_used S file st H) as (ch & C & U). exists st, ch. split; [reflexivity |]. split; [reflexivity |]. split; [exact C |]. split; [exact U |]. cbn [invcov]. rewrite U, map_length. f_equal. unfold sub_cov.
  assert (E : forall i, fst (nth (i - 1) (map (fun p : nat * (nat * nat * mline) => (fst p, item_of (snd p))) ch) (O, mkI 0 0 0 0)) = fst (nth (i - 1) ch (O, (O, O, mkM 0 0 0 0)))).
  { intro i. change (O, mkI 0 0 0 0) with ((fun p : nat * (nat * nat * mline) => (fst p, item_of (snd p))) (O, (O, O, mkM 0 0 0 0))). rewrite map_nth. reflexivity. }
  apply FunctionalExtensionality.functional_extensionality. intro i. apply FunctionalExtensionality.functional_extensionality. intro j. now rewrite !E.
Qed.
Theorem C126_like w theory v : make_vector theory (used (w_rd w)) = Ok v -> symmetric (length v) (invcov w) -> positive (length v) (invcov w) ->
  exists x, LogLike w theory = Ok x /\ x = form (length v) (invcov w) (fun i => nth (i - 1) v 0 - nth (i - 1) (data_vec w) 0) / 2 /\ 0 <= x /\
    (x = 0 <-> forall i, (1 <= i <= length v)%nat -> nth (i - 1) v 0 = nth (i - 1) (data_vec w) 0).
Proof.
  intros V Sy P. unfold LogLike. rewrite V. cbn [bind]. eexists. split; [reflexivity |]. rewrite QuadForm_form by exact Sy. split; [reflexivity |]. set (d := fun i => nth (i - 1) v 0 - nth (i - 1) (data_vec w) 0).
  destruct (Classical_Prop.classic (exists i, (1 <= i <= length v)%nat /\ d i <> 0)) as [Y | N].
  - pose proof (P d Y). split; [lra |]. split; [lra |]. intro Z. destruct Y as (i & I & NI). exfalso. apply NI. unfold d. rewrite (Z i I). ring.
  - assert (Z : forall i, (1 <= i <= length v)%nat -> d i = 0). { intros i I. destruct (Req_dec (d i) 0) as [E | E]; [exact E | exfalso; apply N; eauto]. }
    assert (F : form (length v) (invcov w) d = 0) by (unfold form; apply total_0; intros i I; apply total_0; intros j J; rewrite (Z i I); ring). rewrite F. split; [lra |]. split; [| lra]. intros _ i I. specialize (Z i I). unfold d in Z. lra.
Qed.
(** FINDING: ah_factor is read and never used *)
Theorem C126_factor_refuted w ah theory : LogLike (mkWl (w_rd w) (invcov w) (data_vec w) ah) theory = LogLike w theory.
Proof. reflexivity. Qed.
(** the theory file has for each type and pair the theory of this type, if the types are given in the order of their numbers *)
Theorem C126_file_partial types pairs c t : types = seq 1 (length types) ->
  row types pairs c t = concat (map (fun k => map (fun p => c t (fst p) (snd p) k) (pairs k)) (seq 1 (length types))) /\
  map (fun h => let '(tp, a, b) := h in c t a b tp) (header types pairs) = row types pairs c t.
Proof.
  intro E. split.
  - unfold row. f_equal. apply map_ext_in. intros k K. apply in_seq in K. rewrite E, seq_nth by lia. replace (1 + (k - 1))%nat with k by lia. reflexivity.
  - unfold header, row. rewrite concat_map, map_map. f_equal. apply map_ext. intro k. rewrite map_map. reflexivity.
Qed.
(** FINDING: the array is numbered by the order in the data, the file is written by the number of the type *)
Theorem C126_file_refuted : exists types pairs (c : corr) t, header types pairs = [(wtheta, 1%nat, 1%nat); (xip, 1%nat, 1%nat)] /\
  c t 1%nat 1%nat 1%nat = Some 10 /\ c t 1%nat 1%nat 2%nat = Some 20 /\ row types pairs c t = [None; Some 10].
Proof.
  exists [wtheta; xip], (fun _ => [(1, 1)%nat]), (fun _ _ _ k => if Nat.eqb k 1 then Some 10 else if Nat.eqb k 2 then Some 20 else None), 1%nat. repeat split.
Qed.
Example C126_ex : exists st, read_files S1 1%nat (types S1) (fun _ => [mkM 1 2 3 5; mkM 1 1 1 7; mkM 1 1 2 9]) (start S1) = Ok st /\ map fst (used st) = [1; 2; 3]%nat /\ make_vector (data_c st) (used st) = Ok [5; 7; 9] /\
  pairs st 1 = [(1, 2); (1, 1)]%nat /\ first_theta st = 1%nat.
Proof.
  assert (W : within (0, 100) 50 = true) by (apply within_spec; cbn; lra).
  eexists. split.
  - unfold S1. cbn [types read_files read_file]. unfold read_line, sel_all. cbn [th nth_ Nat.leb andb negb bind]. cbn. rewrite !W. cbn. rewrite ?W. cbn. rewrite ?W. reflexivity.
  - repeat split.
Qed.
Print Assumptions C126_used. Print Assumptions C126_count. Print Assumptions C126_pairs. Print Assumptions C126_first. Print Assumptions C126_data_partial. Print Assumptions C126_vector. Print Assumptions C126_twice_refuted. Print Assumptions C126_theta.
Print Assumptions C126_bins_refuted. Print Assumptions C126_selection. Print Assumptions C126_unselected. Print Assumptions C126_rounded_refuted. Print Assumptions C126_size. Print Assumptions C126_load. Print Assumptions C126_like.
Print Assumptions C126_factor_refuted. Print Assumptions C126_file_partial. Print Assumptions C126_file_refuted.

(** C127: the parameters are in the order of the file of names: biases, shear calibrations, alignment, shifts of lenses, shifts of sources. *)
Theorem C127_params ngal nz P b : let q := split_params ngal nz P in
  bias q b = P b /\ shear q b = P (ngal + b)%nat /\ A_IA q = P (ngal + nz + 1)%nat /\ alpha_IA q = P (ngal + nz + 2)%nat /\ z0_IA q = P (ngal + nz + 3)%nat /\ lens_err q b = P (ngal + nz + 3 + b)%nat /\ source_err q b = P (2 * ngal + nz + 3 + b)%nat.
Proof. cbn. repeat (split; [reflexivity |]). f_equal. lia. Qed.
(** the redshifts of the file are followed by two more with the last step, where the distributions are zero *)
Theorem C127_redshifts n z z' p : (2 <= n)%nat -> z_ext n z = Ok z' ->
  (forall i, (1 <= i <= n)%nat -> z' i = z i /\ p_ext n p i = p i) /\ z' (n + 1)%nat - z' n = z n - z (n - 1)%nat /\ z' (n + 2)%nat - z' (n + 1)%nat = z n - z (n - 1)%nat /\ p_ext n p (n + 1) = 0 /\ p_ext n p (n + 2) = 0.
Proof.
  intros N H. unfold z_ext in H. destruct (Nat.ltb_spec n 2); [lia |]. injection H as <-. unfold p_ext. split.
  - intros i I. destruct (Nat.eqb_spec i (n + 1)); [lia |]. destruct (Nat.eqb_spec i (n + 2)); [lia |]. split; reflexivity.
  - rewrite !Nat.eqb_refl, orb_true_r. cbn [orb]. destruct (Nat.eqb_spec n (n + 1)); [lia |]. destruct (Nat.eqb_spec n (n + 2)); [lia |]. destruct (Nat.eqb_spec (n + 2) (n + 1)); [lia |]. repeat split; ring.
Qed.
(** the steps of the integral add up to half a step after the last distance *)
Theorem C127_steps c : (2 <= nzp c)%nat -> total (dchi c) (nzp c) = chi c (nzp c) + (chi c (nzp c) - chi c (nzp c - 1)%nat) / 2.
Proof.
  intro N. remember (nzp c) as q eqn:EN. destruct q as [| [| n]]; [lia | lia |]. change (total (dchi c) (S (S n))) with (total (dchi c) (S n) + dchi c (S (S n))).
  assert (L : dchi c (S (S n)) = chi c (S (S n)) - chi c (S n)). { unfold dchi. destruct (Nat.eqb_spec (S (S n)) 1); [lia |]. rewrite <- EN, Nat.eqb_refl. reflexivity. }
  assert (G : forall k, (1 <= k <= S n)%nat -> total (dchi c) k = (chi c (S k) + chi c k) / 2).
  { induction k as [| k IH]; intro K; [lia |]. cbn [total]. destruct k as [| k].
    - unfold dchi. cbn [Nat.eqb total]. lra.
    - rewrite IH by lia. unfold dchi at 1. destruct (Nat.eqb_spec (S (S k)) 1); [lia |]. destruct (Nat.eqb_spec (S (S k)) (nzp c)); [lia |]. replace (S (S k) + 1)%nat with (S (S (S k))) by lia. replace (S (S k) - 1)%nat with (S k) by lia. lra. }
  rewrite (G (S n)) by lia. rewrite L. replace (S (S n) - 1)%nat with (S n) by lia. lra.
Qed.
(** distributions are shifted, and zero outside of the redshifts *)
Theorem C127_shift c err p i : (z c 1 <= z c i - err <= z c (nzp c) -> shifted c err p i = Hz c i * p (z c i - err)) /\ (z c i - err < z c 1 \/ z c (nzp c) < z c i - err -> shifted c err p i = 0).
Proof.
  unfold shifted. split; intro H; destruct (Rlt_dec (z c i - err) (z c 1)); destruct (Rlt_dec (z c (nzp c)) (z c i - err)); try lra; reflexivity.
Qed.
Theorem C127_bias c P pg b i : q_gal c P pg b i = bias P b * shifted c (lens_err P b) (pg b) i.
Proof. unfold q_gal. ring. Qed.
(** the kernel of lensing counts the sources behind, with (chi_s - chi)/chi_s *)
Lemma q_lens_eff c n i : (1 <= i <= nzp c)%nat -> (forall j, (1 <= j <= nzp c)%nat -> chi c j <> 0) -> q_lens c n i = efficiency (nzp c) (chi c) (dchi c) n i.
Proof.
  intros I NZ. unfold q_lens, efficiency. rewrite sum1_total. replace (nzp c) with ((i - 1) + (nzp c - i + 1))%nat at 2 by lia. rewrite (total_split (i - 1)).
  rewrite (total_0 (i - 1)). 2:{ intros k K. destruct (Nat.leb_spec i k); [lia | reflexivity]. }
  rewrite Rplus_0_l. apply total_ext. intros k K. destruct (Nat.leb_spec i (i - 1 + k)); [| lia]. replace (i - 1 + k)%nat with (i + k - 1)%nat by lia. f_equal. field. apply NZ. lia.
Qed.
Theorem C127_kernel c P ps b i : (1 <= i <= nzp c)%nat -> (forall j, (1 <= j <= nzp c)%nat -> chi c j <> 0) ->
  q_source c P ps false false b i = 3 / 2 * omm c * (hh c * 100000 / c_ms) ^ 2 * (1 + z c i) * chi c i * efficiency (nzp c) (chi c) (dchi c) (n_chi c P ps b) i.
Proof.
  intros I NZ. unfold q_source. rewrite q_lens_eff by assumption. unfold fac_h. cbn. unfold Rdiv. ring.
Qed.
Theorem C127_behind n chi dchi src i : (forall j, (i <= j <= n)%nat -> 0 < chi i <= chi j /\ 0 <= dchi j /\ 0 <= src j) -> 0 <= efficiency n chi dchi src i.
Proof.
  intro H. unfold efficiency. assert (G : forall m, (m <= n)%nat -> 0 <= total (fun j => if Nat.leb i j then dchi j * src j * ((chi j - chi i) / chi j) else 0) m); [| apply G; lia].
  induction m as [| m IH]; intro M; cbn [total]; [lra |]. specialize (IH ltac:(lia)). destruct (Nat.leb_spec i (S m)); [| lra]. destruct (H (S m) ltac:(lia)) as ((A & B) & C & D).
  assert (0 <= (chi (S m) - chi i) / chi (S m)) by (apply Rmult_le_pos; [lra | left; apply Rinv_0_lt_compat; lra]). assert (0 <= dchi (S m) * src (S m)) by (now apply Rmult_le_pos). pose proof (Rmult_le_pos _ _ H2 H1). lra.
Qed.
(** intrinsic alignment subtracts the amplitude times the density of matter times the sources *)
Theorem C127_alignment c P ps b i : chi c i <> 0 -> 1 + z c i <> 0 -> hh c <> 0 -> q_source c P ps true false b i = q_source c P ps false false b i - alignment c P i * omm c * n_chi c P ps b i.
Proof.
  intros A B C. unfold q_source. assert (D : fac_h c <> 0). { unfold fac_h, c_ms. apply Rmult_integral_contrapositive_currified; [now apply pow_nonzero | apply pow_nonzero; lra]. } field. auto.
Qed.
Theorem C127_pivot c P i : z c i = z0_IA P -> 0 < 1 + z c i -> alignment c P i = A_IA P * (134 / 10000) / growth c i.
Proof. intros E H. unfold alignment. rewrite <- E. replace ((1 + z c i) / (1 + z c i)) with 1 by (field; lra). unfold Rpower. rewrite ln_1, Rmult_0_r, exp_0, Rmult_1_r. reflexivity. Qed.
(** spectra are those of the Limber approximation, with no power outside of the range of k *)
Definition power (c : cosmo) (s : spectra) (l : Z) (j : nat) (P : R -> R -> R) : R := let k := (IZR l + / 2) / chi c j / hh c in if Rle_dec (kmin s) k then if Rle_dec k (kmax s) then P k (z c j) else 0 else 0.
Lemma weight_power c s P l j : weight c s P l j = dchi c j / chi c j ^ 2 * power c s l j P.
Proof. unfold weight, power, in_k, kh. destruct (Rle_dec (kmin s) _); destruct (Rle_dec _ (kmax s)); cbn [andb]; ring. Qed.
Theorem C127_limber m f g l : weyl m = false -> let c := m_c m in let P j := power c (m_s m) l j (fun k x => pk (m_s m) k x / hh c ^ 3) in
  let qs := q_source c (m_P m) (ps m) (ia m) false in let qg := q_gal c (m_P m) (pg m) in
  cl_of m xip f g l = limber_sum (nzp c) (chi c) (dchi c) P (qs f) (qs g) /\ cl_of m wtheta f g l = limber_sum (nzp c) (chi c) (dchi c) P (qg f) (qg g) /\ cl_of m gammat f g l = limber_sum (nzp c) (chi c) (dchi c) P (qg f) (qs g).
Proof.
  intro W. cbv zeta. unfold cl_of. rewrite W. cbn [Nat.eqb xip wtheta gammat]. unfold limber, limber_sum, lensing, cross, matter.
  split; [| split]; rewrite sum1_total; apply total_ext; intros j J; rewrite weight_power; unfold Rdiv; ring.
Qed.
Theorem C127_symmetric m f g l : cl_of m xip f g l = cl_of m xip g f l /\ cl_of m wtheta f g l = cl_of m wtheta g f l.
Proof. unfold cl_of. cbn [Nat.eqb xip wtheta gammat]. unfold limber. rewrite !sum1_total. split; apply total_ext; intros; ring. Qed.
(** the spectrum of the potential gives the same if it is that of the density times (3/2 omm H0^2 (1+z))^2 *)
Theorem C127_weyl c s P ps pg ia f g l : (forall j, (1 <= j <= nzp c)%nat -> 0 < chi c j /\ 0 < 1 + z c j) -> 0 < hh c -> 0 < omm c ->
  (forall k j, (1 <= j <= nzp c)%nat -> wpk s k (z c j) = (3 / 2 * omm c * fac_h c * (1 + z c j)) ^ 2 * (pk s k (z c j) / hh c ^ 3) /\ mwpk s k (z c j) = - (3 / 2 * omm c * fac_h c * (1 + z c j)) * (pk s k (z c j) / hh c ^ 3)) ->
  forall tp, (tp = xip \/ tp = wtheta \/ tp = gammat) -> cl_of (mkMod c s P ps pg ia true) tp f g l = cl_of (mkMod c s P ps pg ia false) tp f g l.
Proof.
  intros H1 H2 H3 H4 tp T. assert (Q : forall b j, (1 <= j <= nzp c)%nat -> q_source c P ps ia false b j = q_source c P ps ia true b j * (3 / 2 * omm c * fac_h c * (1 + z c j))) by (intros b j J; unfold q_source; destruct ia; ring).
  assert (W1 : forall j, (1 <= j <= nzp c)%nat -> weight c s (wpk s) l j = (3 / 2 * omm c * fac_h c * (1 + z c j)) ^ 2 * matter c s l j).
  { intros j J. unfold matter, weight. destruct (in_k s (kh c l j)); [rewrite (proj1 (H4 _ j J)) |]; ring. }
  assert (W2 : forall j, (1 <= j <= nzp c)%nat -> - weight c s (mwpk s) l j = (3 / 2 * omm c * fac_h c * (1 + z c j)) * matter c s l j).
  { intros j J. unfold matter, weight. destruct (in_k s (kh c l j)); [rewrite (proj2 (H4 _ j J)) |]; ring. }
  unfold cl_of. cbn [m_c m_s m_P WlModel.ps WlModel.pg WlModel.ia weyl]. unfold lensing, cross, limber. destruct T as [-> | [-> | ->]]; cbn [Nat.eqb xip wtheta gammat]; rewrite !sum1_total; apply total_ext; intros j J.
  - rewrite W1, !Q by exact J. ring.
  - reflexivity.
  - rewrite W2, Q by exact J. ring.
Qed.
(** ** correlations *)
(** each multipole from 2 to lmax is in one range, whose middle is where the spectrum is taken *)
Theorem C127_ranges lmax n : (1 <= lmax)%Z -> (1 <= n)%nat -> follow 2 lmax (bessel_ranges lmax n) /\ forall r, In r (bessel_ranges lmax n) -> mid r = (IZR (fst r) + IZR (snd r)) / 2 /\ 2 <= mid r <= IZR lmax.
Proof.
  intros L N. assert (F : follow 2 lmax (bessel_ranges lmax n)). { pose proof (ranges_follow (ells lmax n) 1 (ells_nondec lmax n L N)) as F. rewrite ells_last in F by assumption. exact F. }
  split; [exact F |]. intros r I. pose proof (follow_In _ _ _ r F I) as (A & B). unfold mid. replace (2 * fst r + (snd r - fst r + 1) - 1)%Z with (fst r + snd r)%Z by lia. rewrite plus_IZR. split; [reflexivity |].
  assert (2 <= IZR (fst r)) by (apply IZR_le; lia). assert (IZR (fst r) <= IZR (snd r)) by (apply IZR_le; lia). assert (IZR (snd r) <= IZR lmax) by (apply IZR_le; lia). lra.
Qed.
Theorem C127_transform t J C k : transform t J C k = fold_right Rplus 0 (map (fun r => spl t (cls t) (map C (cls t)) (mid r) * (zsum (fst r) (snd r) (fun ell => IZR ell * J (IZR ell * rad t k)) / (2 * PI))) (rngs t)).
Proof. unfold transform, jsum. f_equal. apply map_ext. intro r. rewrite sum_from_zsum. reflexivity. Qed.
(** for a spectrum that does not change in the ranges it is the sum over all multipoles *)
Theorem C127_constant t J C k x lmax n : (1 <= lmax)%Z -> (1 <= n)%nat -> rngs t = bessel_ranges lmax n -> (forall r, In r (rngs t) -> spl t (cls t) (map C (cls t)) (mid r) = x) ->
  transform t J C k = x * (zsum 2 lmax (fun ell => IZR ell * J (IZR ell * rad t k)) / (2 * PI)).
Proof.
  intros L N E H. rewrite C127_transform. destruct (C127_ranges lmax n L N) as (F & _). rewrite <- E in F. rewrite <- (follow_sum 2 lmax (rngs t) _ F). clear F E.
  induction (rngs t) as [| r l IH]; cbn [map fold_right]; [unfold Rdiv; ring |]. rewrite H by now left. rewrite IH by (intros; apply H; now right). unfold Rdiv. ring.
Qed.
(** what one pair writes *)
Definition written (m : model) (t : tools) (tp k kx i f g x : nat) : option R :=
  if Nat.eqb tp xip then
    if negb (Nat.eqb kx 0) && Nat.eqb i kx then Some (transform t (J4 t) (cl_of m tp f g) x * ((1 + shear (m_P m) f) * (1 + shear (m_P m) g)))
    else if Nat.eqb i k then Some (transform t (J0 t) (cl_of m tp f g) x * ((1 + shear (m_P m) f) * (1 + shear (m_P m) g))) else None
  else if Nat.eqb tp gammat then if Nat.eqb i k then Some (transform t (J2 t) (cl_of m tp f g) x * (1 + shear (m_P m) g)) else None
  else if Nat.eqb tp wtheta then if Nat.eqb i k then Some (transform t (J0 t) (cl_of m tp f g) x) else None else None.
Lemma cl2corr_written m t first tp k kx f g c x a b i :
  cl2corr m t first tp k kx f g c x a b i = if Nat.leb first x && Nat.eqb a f && Nat.eqb b g then match written m t tp k kx i f g x with Some v => Some v | None => c x a b i end else c x a b i.
Proof.
  unfold cl2corr, written, put. destruct (Nat.eqb tp xip).
  - destruct (Nat.eqb kx 0); cbn [negb andb]; destruct (Nat.leb first x && Nat.eqb a f && Nat.eqb b g); cbn [andb]; try reflexivity; try (destruct (Nat.eqb i kx)); destruct (Nat.eqb i k); reflexivity.
  - destruct (Nat.eqb tp gammat); [| destruct (Nat.eqb tp wtheta)]; destruct (Nat.leb first x && Nat.eqb a f && Nat.eqb b g); cbn [andb]; try reflexivity; destruct (Nat.eqb i k); reflexivity.
Qed.
Definition has (ps : list (nat * nat)) (a b : nat) : bool := existsb (fun p => Nat.eqb a (fst p) && Nat.eqb b (snd p)) ps.
Lemma has_In ps a b : has ps a b = true <-> In (a, b) ps.
Proof.
  unfold has. rewrite existsb_exists. split; [intros ([f g] & I & E); cbn in E; rewrite andb_true_iff, !Nat.eqb_eq in E; destruct E; subst; exact I | intro I; exists (a, b); split; [exact I | cbn; now rewrite !Nat.eqb_refl]].
Qed.
Lemma fold_written m t first tp k kx x a b i : forall ps c, fold_left (fun c p => cl2corr m t first tp k kx (fst p) (snd p) c) ps c x a b i =
  if Nat.leb first x && has ps a b then match written m t tp k kx i a b x with Some v => Some v | None => c x a b i end else c x a b i.
Proof.
  induction ps as [| [f g] ps IH]; intro c; cbn [fold_left has existsb fst snd]; [rewrite andb_false_r; reflexivity |]. rewrite IH, cl2corr_written. fold (has ps a b).
  destruct (Nat.leb first x); cbn [andb]; [| reflexivity]. destruct (Nat.eqb_spec a f) as [-> |]; cbn [andb orb]; [| reflexivity]. destruct (Nat.eqb_spec b g) as [-> |]; cbn [andb orb]; [| reflexivity].
  destruct (has ps f g); destruct (written m t tp k kx i f g x); reflexivity.
Qed.
Lemma all_types_app m t S r : forall l1 l2 k c, all_types m t S r k (l1 ++ l2) c = all_types m t S r (k + length l1) l2 (all_types m t S r k l1 c).
Proof. induction l1 as [| tp l1 IH]; intros l2 k c; cbn [app all_types length]; [now rewrite Nat.add_0_r |]. rewrite IH. f_equal. lia. Qed.
Lemma all_types_untouched m t S r x a b i : forall tps k c, (forall j tp, nth_error tps j = Some tp -> tp = xim \/ written m t tp (k + j) (index_of xim (types S) 1) i a b x = None) ->
  all_types m t S r k tps c x a b i = c x a b i.
Proof.
  induction tps as [| tp tps IH]; intros k c H; cbn [all_types]; [reflexivity |]. rewrite IH.
  - destruct (Nat.eqb_spec tp xim) as [| N]; cbn [orb]; [reflexivity |]. destruct (want S tp); cbn [negb]; [| reflexivity]. rewrite fold_written. destruct (H O tp eq_refl) as [E | E]; [congruence |]. rewrite Nat.add_0_r in E. rewrite E.
    destruct (Nat.leb (first_theta r) x && has (pairs r k) a b); reflexivity.
  - intros j tp' E. replace (k + 1 + j)%nat with (k + Datatypes.S j)%nat by lia. apply H. exact E.
Qed.
Lemma index_of_nth x : forall l k0, NoDup l -> forall k, nth_error l k = Some x -> index_of x l k0 = (k0 + k)%nat.
Proof.
  induction l as [| y l IH]; intros k0 N k E; [destruct k; discriminate |]. cbn [index_of]. inversion N as [| ? ? N1 N2]; subst. destruct k as [| k]; cbn in E.
  - injection E as ->. rewrite Nat.eqb_refl. lia.
  - destruct (Nat.eqb_spec y x) as [-> |]; [exfalso; apply N1; now apply nth_error_In in E |]. rewrite (IH (k0 + 1)%nat N2 k E). lia.
Qed.
Lemma index_of_range x : forall l k0, index_of x l k0 = O \/ exists k, nth_error l k = Some x /\ index_of x l k0 = (k0 + k)%nat.
Proof.
  induction l as [| y l IH]; intro k0; [now left |]. cbn [index_of]. destruct (Nat.eqb_spec y x) as [-> |]; [right; exists O; split; [reflexivity | lia] |]. destruct (IH (k0 + 1)%nat) as [E | (k & E & F)]; [now left | right]. exists (Datatypes.S k). split; [exact E | lia].
Qed.
(** the correlations of a type that is used, for the pairs of its measurements, from the first bin of angles *)
Definition expected (m : model) (t : tools) (tp f g x : nat) : R :=
  if Nat.eqb tp xip then (1 + shear (m_P m) f) * (1 + shear (m_P m) g) * transform t (J0 t) (cl_of m xip f g) x
  else if Nat.eqb tp xim then (1 + shear (m_P m) f) * (1 + shear (m_P m) g) * transform t (J4 t) (cl_of m xip f g) x
  else if Nat.eqb tp gammat then (1 + shear (m_P m) g) * transform t (J2 t) (cl_of m gammat f g) x
  else transform t (J0 t) (cl_of m wtheta f g) x.
Theorem C127_corr m t S r tp k f g x : NoDup (types S) -> nth_error (types S) k = Some tp -> (tp = xip \/ tp = gammat \/ tp = wtheta) -> want S tp = true -> In (f, g) (pairs r (k + 1)%nat) -> (first_theta r <= x)%nat ->
  calc_theory m t S r x f g (k + 1)%nat = Some (expected m t tp f g x).
Proof.
  intros N E T W P X. unfold calc_theory. set (c0 := fun x a b i => option_map (fun _ => 0) (data_c r x a b i)). destruct (nth_error_split (types S) k E) as (l1 & l2 & Q & L).
  assert (NX : tp <> xim) by (destruct T as [-> | [-> | ->]]; discriminate).
  assert (KX : index_of xim (types S) 1 <> (k + 1)%nat). { destruct (index_of_range xim (types S) 1) as [Z | (j & J & Z)]; [lia |]. rewrite Z. intro Y. replace j with k in J by lia. congruence. }
  set (kx := index_of xim (types S) 1) in *. rewrite Q at 1. rewrite all_types_app. cbn [all_types]. rewrite all_types_untouched.
  - destruct (Nat.eqb_spec tp xim); [congruence |]. rewrite W. cbn [orb negb]. rewrite fold_written. rewrite (proj2 (Nat.leb_le _ _) X), (proj2 (has_In _ _ _)) by (replace (1 + length l1)%nat with (k + 1)%nat by lia; exact P). cbn [andb]. fold kx.
    unfold written, expected. replace (1 + length l1)%nat with (k + 1)%nat by lia. rewrite Nat.eqb_refl. destruct T as [-> | [-> | ->]]; cbn [Nat.eqb xip xim gammat wtheta].
    + destruct (Nat.eqb_spec (k + 1) kx); [congruence |]. rewrite andb_false_r. f_equal. ring.
    + f_equal. ring.
    + reflexivity.
  - intros j tp' J. destruct (Nat.eq_dec tp' xim) as [Y | NY]; [now left | right]. fold kx. unfold written. destruct (Nat.eqb_spec (k + 1) kx); [congruence |]. destruct (Nat.eqb_spec (k + 1) (1 + length l1 + 1 + j)); [lia |]. rewrite andb_false_r. destruct (Nat.eqb tp' xip), (Nat.eqb tp' gammat), (Nat.eqb tp' wtheta); reflexivity.
Qed.
(** xim comes from the spectrum of xip.  What is missing: xip must be used and have the pair. *)
Theorem C127_xim_partial m t S r k kx f g x : NoDup (types S) -> nth_error (types S) k = Some xip -> nth_error (types S) kx = Some xim -> want S xip = true -> In (f, g) (pairs r (k + 1)%nat) -> (first_theta r <= x)%nat ->
  calc_theory m t S r x f g (kx + 1)%nat = Some (expected m t xim f g x).
Proof.
  intros N E EX W P X. unfold calc_theory. set (c0 := fun x a b i => option_map (fun _ => 0) (data_c r x a b i)). destruct (nth_error_split (types S) k E) as (l1 & l2 & Q & L).
  pose proof (index_of_nth xim (types S) 1 N kx EX) as KX. rewrite Nat.add_comm in KX. rewrite Q at 1. rewrite all_types_app. cbn [all_types]. rewrite all_types_untouched.
  - cbn [Nat.eqb xip xim orb]. change (want S 1) with (want S xip). rewrite W. cbn [negb]. rewrite fold_written. rewrite (proj2 (Nat.leb_le _ _) X), (proj2 (has_In _ _ _)) by (replace (1 + length l1)%nat with (k + 1)%nat by lia; exact P). cbn [andb].
    unfold written, expected. change (index_of 2 (types S) 1) with (index_of xim (types S) 1). rewrite KX, !Nat.eqb_refl. cbn [Nat.eqb xip xim gammat wtheta]. destruct (Nat.eqb_spec (kx + 1) 0); [lia |]. cbn [negb andb]. f_equal. ring.
  - intros j tp' J. destruct (Nat.eq_dec tp' xim) as [Y | NY]; [now left | right]. unfold written. rewrite KX.
    assert (NK : kx <> (1 + length l1 + j)%nat). { intro Y. assert (Z : nth_error (types S) kx = Some tp'). { rewrite Q, nth_error_app2 by lia. replace (kx - length l1)%nat with (Datatypes.S j) by lia. exact J. } congruence. }
    assert (NP : tp' <> xip). { intro Y. subst tp'. assert (Z : nth_error (types S) (1 + length l1 + j) = Some xip). { rewrite Q, nth_error_app2 by lia. replace (1 + length l1 + j - length l1)%nat with (Datatypes.S j) by lia. exact J. }
      assert (B : (k < length (types S))%nat) by (apply nth_error_Some; congruence). rewrite NoDup_nth_error in N. specialize (N k (1 + length l1 + j)%nat B ltac:(congruence)). lia. }
    destruct (Nat.eqb_spec tp' xip); [congruence |]. destruct (Nat.eqb_spec (kx + 1) (1 + length l1 + 1 + j)); [lia |]. destruct (Nat.eqb tp' gammat), (Nat.eqb tp' wtheta); reflexivity.
Qed.
(** FINDING: xim alone has the theory zero, and is compared to the data *)
Theorem C127_xim_refuted m t S r x f g v : types S = [xim] \/ want S xip = false -> data_c r x f g (index_of xim (types S) 1) = Some v -> NoDup (types S) -> calc_theory m t S r x f g (index_of xim (types S) 1) = Some 0.
Proof.
  intros H D N. unfold calc_theory. destruct H as [H | H].
  - rewrite H in *. cbn in *. rewrite D. reflexivity.
  - set (kx := index_of xim (types S) 1) in *. assert (G : forall l k c, (forall j tp, nth_error l j = Some tp -> tp <> xim -> kx <> (k + j)%nat) -> all_types m t S r k l c x f g kx = c x f g kx).
    { induction l as [| tp l IH]; intros k c HK; cbn [all_types]; [reflexivity |]. rewrite IH by (intros j tp' J NX; replace (k + 1 + j)%nat with (k + Datatypes.S j)%nat by lia; now apply (HK (Datatypes.S j) tp')).
      destruct (Nat.eqb_spec tp xim) as [| NX]; cbn [orb]; [reflexivity |]. destruct (want S tp) eqn:W; cbn [negb]; [| reflexivity]. rewrite fold_written. fold kx. pose proof (HK O tp eq_refl NX) as K. rewrite Nat.add_0_r in K.
      unfold written. destruct (Nat.eqb_spec tp xip); [congruence |]. destruct (Nat.eqb_spec kx k); [congruence |]. destruct (Nat.eqb tp gammat), (Nat.eqb tp wtheta), (Nat.leb (first_theta r) x && has (pairs r k) f g); reflexivity. }
    rewrite G; [rewrite D; reflexivity |]. intros j tp J NX E. destruct (index_of_range xim (types S) 1) as [Z | (i & I & Z)]; fold kx in Z; [lia |]. replace i with j in I by lia. congruence.
Qed.
(** the multipoles of the spectra increase and cover 2 to lmax, if acc is at most 4 *)
Theorem C127_multipoles_partial fuel acc lmax ls : / 24 <= acc <= 4 -> (2 <= lmax)%Z -> ls_cl fuel acc lmax = Some ls -> strictly ls /\ (exists l, ls = 2%Z :: l) /\ (lmax <= last ls 0)%Z.
Proof.
  intros (A1 & A2) L H. assert (P : 0 < acc) by lra. unfold ls_cl in H. set (s := int_acc acc) in *.
  assert (Q : 1 <= 4 / acc <= 96). { split; apply (Rmult_le_reg_r acc); try exact P; unfold Rdiv; rewrite Rmult_assoc, Rinv_l by lra; lra. }
  assert (S1 : (1 <= s)%Z). { unfold s, int_acc. replace 1%Z with (Int_part (IZR 1)) by apply Int_part_IZR. apply Int_part_mono. lra. }
  assert (S2 : (s <= 96)%Z). { unfold s, int_acc. replace 96%Z with (Int_part (IZR 96)) by apply Int_part_IZR. apply Int_part_mono. lra. }
  destruct (linear_first s ltac:(lia)) as (l0 & F). destruct (linear_ls s) as [| y l] eqn:LS; [discriminate |]. destruct (log_ls fuel acc lmax (last (y :: l) 0%Z) 0) as [t |] eqn:T; [| discriminate]. cbn [option_map] in H. injection H as <-. injection F as -> ->.
  assert (LL : (last (2%Z :: l0) 0 <= 99)%Z). { assert (I : In (last (2%Z :: l0) 0%Z) (linear_ls s)). { rewrite LS. destruct (exists_last (l := 2%Z :: l0) ltac:(discriminate)) as (u & w & E). rewrite E, last_last. apply in_or_app. right. now left. } apply linear_In in I; lia. }
  destruct (log_ls_strict acc lmax P ltac:(lra) fuel (last (2%Z :: l0) 0%Z) 0%nat t) as (B1 & B2); [rewrite log_l_0; lia | exact T |].
  assert (ST : strictly (2%Z :: l0)) by (rewrite <- LS; apply linear_strict). split; [| split].
  - destruct (exists_last (l := 2%Z :: l0) ltac:(discriminate)) as (u & w & E). change (2%Z :: l0 ++ t) with ((2%Z :: l0) ++ t). rewrite E in *. rewrite last_last in B1. rewrite <- app_assoc. now apply strictly_app.
  - eexists. reflexivity.
  - change (2%Z :: l0 ++ t) with ((2%Z :: l0) ++ t). destruct t as [| w t]; [rewrite app_nil_r; exact B2 |]. assert (G : forall (u : list Z) d e, last (u ++ w :: t) d = last (w :: t) e) by (induction u as [| v u IH]; intros d e; [apply last_any | rewrite <- (IH v e); cbn [app]; apply last_cons]). now rewrite (G _ 0%Z (last (2%Z :: l0) 0%Z)).
Qed.
(** FINDING: with acc > 4 the multipole 100 is there twice, and the spline divides by zero *)
Theorem C127_multipoles_refuted acc lmax fuel ls : 4 < acc -> (100 < lmax)%Z -> ls_cl fuel acc lmax = Some ls -> exists l1 l2, ls = l1 ++ 100%Z :: 100%Z :: l2.
Proof.
  intros A L H. unfold ls_cl in H. assert (S0 : int_acc acc = 0%Z). { unfold int_acc. assert (Q : 0 <= 4 / acc < 1). { split; [apply Rmult_le_pos; [lra | left; apply Rinv_0_lt_compat; lra] |]. apply (Rmult_lt_reg_r acc); [lra |]. unfold Rdiv. rewrite Rmult_assoc, Rinv_l by lra. lra. }
    destruct (base_Int_part (4 / acc)) as (B1 & B2). assert ((Int_part (4 / acc) < 1)%Z) by (apply lt_IZR; lra). assert ((-1 < Int_part (4 / acc))%Z) by (apply lt_IZR; lra). lia. }
  rewrite S0 in H. assert (E : linear_ls 0 = map (fun k => (2 + Z.of_nat k)%Z) (seq 0 98) ++ [100%Z]) by reflexivity. rewrite E in H. destruct (map (fun k => (2 + Z.of_nat k)%Z) (seq 0 98)) as [| y u] eqn:Q; [discriminate |]. cbn [app] in H.
  change (y :: u ++ [100%Z]) with ((y :: u) ++ [100%Z]) in H. rewrite last_last in H. destruct fuel as [| fuel]; cbn [log_ls] in H; (destruct (Z.ltb_spec 100 lmax); [| lia]); [discriminate |]. rewrite log_l_0 in H.
  destruct (log_ls fuel acc lmax 100 1) as [t |]; [| discriminate]. cbn [option_map] in H. injection H as <-. exists (y :: u), t. cbn [app]. rewrite <- app_assoc. reflexivity.
Qed.
Example C127_ex : bessel_ranges 2 1 = [(2, 2)%Z] /\ mid (2, 2)%Z = 2 /\ (exists ls, ls_cl 1 4 100 = Some ls /\ strictly ls /\ last ls 0%Z = 100%Z) /\
  total (dchi (mkC 3 INR INR INR INR 1 1)) 3 = 7 / 2 /\ limber_sum 1 (fun _ => 2) (fun _ => 1) (fun _ => 8) (fun _ => 3) (fun _ => 5) = 30.
Proof.
  split. { unfold bessel_ranges, ells. cbn [seq map]. replace (INR 1 * (ln (IZR 2) / INR 1)) with (ln 2) by (cbn; field). rewrite exp_ln by lra. rewrite Int_part_IZR. reflexivity. }
  split; [unfold mid; cbn; lra |]. split.
  - assert (S1 : int_acc 4 = 1%Z). { unfold int_acc. replace (4 / 4) with (IZR 1) by field. apply Int_part_IZR. }
    assert (E : linear_ls 1 = map (fun k => (2 + Z.of_nat k)%Z) (seq 0 98)) by reflexivity.
    exists (linear_ls 1 ++ [100%Z]). assert (X : ls_cl 1 4 100 = Some (linear_ls 1 ++ [100%Z])). { unfold ls_cl. rewrite S1, E. cbn [map seq]. cbn [last log_ls]. cbn [Z.ltb Z.compare Z.add Z.of_nat Pos.of_succ_nat Pos.succ Pos.add Pos.compare Pos.compare_cont]. rewrite log_l_0. reflexivity. }
    split; [exact X |]. split; [apply (C127_multipoles_partial 1 4 100 _ ltac:(lra) ltac:(lia) X) | apply last_last].
  - split; [| unfold limber_sum; cbn [total]; lra]. rewrite C127_steps by (cbn; lia). cbn. lra.
Qed.
Print Assumptions C127_params. Print Assumptions C127_redshifts. Print Assumptions C127_steps. Print Assumptions C127_shift. Print Assumptions C127_bias. Print Assumptions C127_kernel. Print Assumptions C127_behind. Print Assumptions C127_alignment. Print Assumptions C127_pivot.
Print Assumptions C127_limber. Print Assumptions C127_symmetric. Print Assumptions C127_weyl. Print Assumptions C127_ranges. Print Assumptions C127_transform. Print Assumptions C127_constant. Print Assumptions C127_corr. Print Assumptions C127_xim_partial. Print Assumptions C127_xim_refuted.
Print Assumptions C127_multipoles_partial. Print Assumptions C127_multipoles_refuted.
