(** C139: principal components, mcsamples.py 616-810. *)
From Coq Require Import Reals Lia Lra Bool Permutation.
From Verif Require Import PyStr PyBase ConvModel KdeModel Kde2Model StatModel StatSpec StatProofs CnvgModel CnvgSpec CnvgProofs LstModel LstSpec LstProofs PyStrFacts PcaModel PcaSpec PcaProofs.
From Coq Require Import List.
Import ListNotations.
Local Open Scope R_scope.

Lemma Ok_inj {A} (a b : A) : Ok a = Ok b -> a = b. Proof. congruence. Qed.
Section P.
Variable eig : nat -> matrix -> list R * matrix.
Variable inv : nat -> matrix -> option matrix.
Variable argsort : list R -> list nat.
Variable w : list R.
Variable cs : list (list R).
Variable np : nat.
Variable pm : list pmap.
Variable norm : option nat.
Hypothesis G : good_data w cs.
Hypothesis NP : (np <= length cs)%nat.
Notation X := (var_of cs np pm).
Notation Z j := (unit_dev w (X j)).
Notation run := (analyse eig inv argsort w cs np pm norm).

(** means and standard deviations of the variables *)
Lemma run_inv p : run = Ok p -> exists ys u0,
  map_cols pm np cs = Ok ys /\ conditioned inv (length cs) np (p_corr p) = Ok u0 /\ p_n p = np /\ p_exp p = uses_exp pm np /\
  (forall j, (j < length cs)%nat -> p_mean p j = avg w (X j) /\ p_sd p j = spread w (X j)) /\
  (forall i, p_evals p i = nth (nth i (argsort (fst (eig np u0))) 0%nat) (fst (eig np u0)) 0) /\
  (forall i, (i < np)%nat -> scale_row np (p_sd p) norm (fun j => snd (eig np u0) j (nth i (argsort (fst (eig np u0))) 0%nat)) = Ok (p_u p i)) /\
  (forall i j, p_terms p i j = match nth_error pm j with Some m => term_of m (p_mean p j) (p_sd p j) (p_u p i j) | None => Err IndexError end) /\
  (forall i, length (p_comp p i) = length w /\ p_newmean p i = mean w (p_comp p i) /\ p_newsd p i = sqrt (mean w (map (fun y => (y - p_newmean p i) ^ 2) (p_comp p i)))) /\
  (forall i j, p_newsd p i <> 0 -> p_newsd p j <> 0 -> p_cross p i j = Ok (mean w (mul (map (fun y => (y - p_newmean p i) / p_newsd p i) (p_comp p i)) (map (fun y => (y - p_newmean p j) / p_newsd p j) (p_comp p j))))) /\
  (varies w cs np pm -> (forall i j, (i < length cs)%nat -> (j < length cs)%nat -> p_corr p i j = avg w (fun r => Z i r * Z j r)) /\
    forall i r, (i < np)%nat -> (r < length w)%nat -> nth r (p_comp p i) 0 = (if p_exp p then exp else fun x => x) (Sm np (fun j => p_u p i j * Z j r))).
Proof.
  destruct G as (G1 & G2 & G3). unfold analyse. destruct (map_cols pm np cs) as [ys |] eqn:MC; [| discriminate]. cbn [bindR]. intro H.
  set (C := correlation w (fun j => snd (reduced w (nth j ys [])))) in *. destruct (conditioned inv (length cs) np C) as [u0 |] eqn:CO; [| discriminate H]. cbn [bindR] in H.
  destruct (mapR _ (seq 0 np)) as [rows |] eqn:MR in H; [| discriminate H]. cbn [bindR] in H. apply Ok_inj in H. subst p. exists ys, u0.
  assert (RS : forall j, (j < length cs)%nat -> fst (fst (reduced w (nth j ys []))) = avg w (X j) /\ snd (fst (reduced w (nth j ys []))) = spread w (X j) /\ length (snd (reduced w (nth j ys []))) = length w /\ (spread w (X j) <> 0 -> forall r, (r < length w)%nat -> nth r (snd (reduced w (nth j ys []))) 0 = Z j r)).
  { intros j J. destruct (map_cols_spec w pm np cs ys j G1 MC J) as (A & B & _). now apply reduced_spec. }
  cbn [p_n p_corr p_evals p_mean p_sd p_u p_exp p_comp p_terms p_newmean p_newsd p_cross].
  split; [reflexivity |]. split; [exact CO |]. split; [reflexivity |]. split; [reflexivity |]. split; [intros j J; destruct (RS j J) as (A & B & _); split; assumption |]. split; [reflexivity |].
  split. { intros i I. pose proof (mapR_nth _ _ _ 0%nat (fun _ => 0) i MR) as Q. rewrite seq_length in Q. specialize (Q I). rewrite seq_nth in Q by exact I. cbn [Nat.add] in Q. exact Q. }
  split; [reflexivity |]. split; [intro i; rewrite map_length, seq_length; repeat split |].
  split. { intros i j A B. destruct (Req_EM_T _ 0); [contradiction |]. destruct (Req_EM_T _ 0); [contradiction |]. reflexivity. }
  intro V. split.
  - intros i j I J. unfold C, correlation. destruct (Nat.eqb_spec i j) as [<- | N]; [symmetry; apply avg_unit_sq; auto |].
    assert (K : forall a b, (a < length cs)%nat -> (b < length cs)%nat -> dot w (mul (snd (reduced w (nth a ys []))) (snd (reduced w (nth b ys [])))) / get_norm w = avg w (fun r => Z a r * Z b r)).
    { intros a b A B. destruct (RS a A) as (_ & _ & LA & RA). destruct (RS b B) as (_ & _ & LB & RB). rewrite dot_avg by (rewrite mul_length; congruence). apply avg_ext. intros r I'. rewrite mul_nth by congruence. rewrite RA, RB by (auto; apply V; auto). reflexivity. }
    destruct (Nat.max_spec i j) as [(T & ->) | (T & ->)]; destruct (Nat.min_spec i j) as [(T' & ->) | (T' & ->)]; try lia; rewrite K by assumption; [apply avg_ext; intros; ring | reflexivity].
  - intros i r I IR. rewrite nth_tab by exact IR. assert (E : rsum np (fun j => nth i rows (fun _ => 0) j * nth r (snd (reduced w (nth j ys []))) 0) = Sm np (fun j => nth i rows (fun _ => 0) j * Z j r)).
    { rewrite rsum_Sm. apply Sm_ext. intros j J. f_equal. destruct (RS j ltac:(lia)) as (_ & _ & _ & RA). apply RA; [apply V; lia | exact IR]. }
    cbv beta zeta. rewrite E. destruct (uses_exp pm np); reflexivity.
Qed.

(** C139: mean and standard deviation of each variable, after the logarithms asked for, and the correlations of all of them. *)
Theorem C139_correlations p : varies w cs np pm -> run = Ok p ->
  (forall j, (j < length cs)%nat -> p_mean p j = avg w (X j) /\ p_sd p j = spread w (X j)) /\
  (forall i j, (i < length cs)%nat -> (j < length cs)%nat -> p_corr p i j = avg w (fun r => dev w (X i) r * dev w (X j) r) / (spread w (X i) * spread w (X j)) /\ p_corr p i j = p_corr p j i) /\
  (forall i, (i < length cs)%nat -> p_corr p i i = 1) /\ forall v, 0 <= form (length cs) (p_corr p) v.
Proof.
  intros V H. destruct (run_inv p H) as (ys & u0 & _ & _ & _ & _ & MS & _ & _ & _ & _ & _ & Q). destruct (Q V) as (CC & _). destruct G as (G1 & G2 & G3). split; [exact MS |]. repeat split.
  - rewrite CC by assumption. unfold unit_dev. rewrite (avg_ext w _ (fun r => / (spread w (X i) * spread w (X j)) * (dev w (X i) r * dev w (X j) r))) by (intros; field; split; apply V; assumption). rewrite avg_scal. unfold Rdiv. ring.
  - rewrite !CC by assumption. apply avg_ext. intros; ring.
  - intros i I. rewrite CC by exact I. apply avg_unit_sq; auto.
  - intro v. rewrite (form_avg w (length cs) (fun j => Z j) _ v CC). apply avg_nonneg; auto. intros. rewrite <- Rsqr_pow2. apply Rle_0_sqr.
Qed.
(** C139: the value of a component is the product, or the sum, of the terms that are printed for it. *)
Lemma term_value p ys i j r : map_cols pm np cs = Ok ys -> p_terms p i j = match nth_error pm j with Some m => term_of m (p_mean p j) (p_sd p j) (p_u p i j) | None => Err IndexError end -> (j < np)%nat -> (r < length w)%nat ->
  p_mean p j = avg w (X j) -> p_sd p j = spread w (X j) -> spread w (X j) <> 0 ->
  exists t, p_terms p i j = Ok t /\ factor t (nth r (nth j cs []) 0) = exp (p_u p i j * Z j r) /\ (nth j pm PN = PN -> addend t (nth r (nth j cs []) 0) = p_u p i j * Z j r).
Proof.
  intros MC PT J IR PM_ PS N. destruct G as (G1 & _). destruct (map_cols_spec w pm np cs ys j G1 MC ltac:(lia)) as (_ & _ & M). destruct (M J) as (m & E & MA). rewrite E in PT. assert (EN : nth j pm PN = m) by (now apply nth_error_nth).
  assert (LC : length (nth j cs []) = length w) by (apply G1, nth_In; lia). pose proof (mapped_ok m _ _ MA r ltac:(lia)) as POS.
  assert (XV : X j r = lin m (nth r (nth j cs []) 0)) by (unfold var_of; destruct (Nat.ltb_spec j np); [now rewrite EN | lia]).
  rewrite PT, EN. unfold unit_dev, dev. rewrite XV, PM_, PS. set (x := nth r (nth j cs []) 0) in *. set (s := spread w (X j)) in *. set (mu := avg w (X j)). set (u := p_u p i j).
  destruct m; cbn [term_of lin].
  - destruct (Req_EM_T u 0) as [Z0 | NZ].
    + destruct (Req_EM_T s 0) as [S0 | _]; [contradiction |]. eexists. split; [reflexivity |]. cbn [factor addend]. rewrite Z0, Rmult_0_l, exp_0. split; [reflexivity | intros _; reflexivity].
    + eexists. split; [reflexivity |]. cbn [factor addend]. assert (A : (x - mu) / (s / u) = u * ((x - mu) / s)) by (field; split; assumption). rewrite A. split; reflexivity.
  - destruct (Req_EM_T s 0) as [S0 | _]; [contradiction |]. eexists. split; [reflexivity |]. cbn [factor addend]. split; [| discriminate]. unfold Rpower. f_equal. unfold Rdiv at 2. rewrite ln_mult by (try exact POS; apply Rinv_0_lt_compat, exp_pos). rewrite ln_Rinv, ln_exp by apply exp_pos. field. exact N.
  - destruct (Req_EM_T s 0) as [S0 | _]; [contradiction |]. eexists. split; [reflexivity |]. cbn [factor addend]. split; [| discriminate]. unfold Rpower. f_equal. replace (x / - exp mu) with ((- x) * / exp mu) by (pose proof (exp_pos mu); field; lra). rewrite ln_mult by (try lra; apply Rinv_0_lt_compat, exp_pos). rewrite ln_Rinv, ln_exp by apply exp_pos. field. exact N.
Qed.
Lemma exp_Sm k f : exp (Sm k f) = fold_right Rmult 1 (map (fun j => exp (f j)) (seq 0 k)).
Proof.
  assert (E : forall l, exp (sumR (map f l)) = fold_right Rmult 1 (map (fun j => exp (f j)) l)) by (induction l as [| a l IH]; cbn [map sumR fold_right]; [apply exp_0 |]; rewrite exp_plus; fold (sumR (map f l)); now rewrite IH). apply E.
Qed.
Theorem C139_terms p : varies w cs np pm -> run = Ok p -> forall i r, (i < np)%nat -> (r < length w)%nat -> exists t : nat -> term, (forall j, (j < np)%nat -> p_terms p i j = Ok (t j)) /\
  nth r (p_comp p i) 0 = if p_exp p then fold_right Rmult 1 (map (fun j => factor (t j) (nth r (nth j cs []) 0)) (seq 0 np)) else Sm np (fun j => addend (t j) (nth r (nth j cs []) 0)).
Proof.
  intros V H i r I IR. destruct (run_inv p H) as (ys & u0 & MC & _ & _ & PE & MS & _ & _ & PT & _ & _ & Q). destruct (Q V) as (_ & CV).
  assert (T : forall j, (j < np)%nat -> exists t, p_terms p i j = Ok t /\ factor t (nth r (nth j cs []) 0) = exp (p_u p i j * Z j r) /\ (nth j pm PN = PN -> addend t (nth r (nth j cs []) 0) = p_u p i j * Z j r)).
  { intros j J. destruct (MS j ltac:(lia)) as (A & B). apply (term_value p ys i j r MC (PT i j) J IR A B). apply V. lia. }
  exists (fun j => match p_terms p i j with Ok t => t | Err _ => Shift 0 None end). split.
  - intros j J. destruct (T j J) as (t & E & _). now rewrite E.
  - rewrite (CV i r I IR). destruct (p_exp p) eqn:D.
    + rewrite exp_Sm. f_equal. apply map_ext_in. intros j J. apply in_seq in J. destruct (T j ltac:(lia)) as (t & E & F & _). now rewrite E.
    + apply Sm_ext. intros j J. destruct (T j J) as (t & E & _ & F). rewrite E. symmetry. apply F. symmetry in PE. unfold uses_exp in PE. destruct (nth j pm PN) eqn:EN; [reflexivity | |]; exfalso.
      all: destruct G as (G1 & _); destruct (map_cols_spec w pm np cs ys j G1 MC ltac:(lia)) as (_ & _ & M); destruct (M J) as (m & EM & _); assert (LP : (j < length pm)%nat) by (apply nth_error_Some; congruence).
      all: assert (TR : existsb (fun m => match m with PN => false | _ => true end) (firstn np pm) = true); [| congruence]; apply existsb_exists; exists (nth j pm PN); split; [| now rewrite EN]; rewrite <- (nth_firstn' PN np pm j J) by exact LP; apply nth_In; rewrite firstn_length; lia.
Qed.
(** C139: one parameter of each component has exponent 1: the one asked for, or the one that counts most. *)
Definition chosen (p : pca) (i k : nat) : Prop := p_u p i k = p_sd p k /\ (exists t, p_terms p i k = Ok t /\ has_exponent_one t) /\ (norm = None -> forall j, (j < np)%nat -> Rabs (p_u p i j) <= p_sd p k).
Lemma scale_ok sd row f : scale_row np sd norm row = Ok f -> exists k, row k <> 0 /\ (forall j, f j = row j / row k * sd k) /\ (forall k', norm = Some k' -> k = k') /\ (norm = None -> (0 < np)%nat -> (k < np)%nat /\ forall j, (j < np)%nat -> Rabs (row j) <= Rabs (row k)).
Proof.
  unfold scale_row. set (k := match norm with Some k => k | None => _ end). destruct (Req_EM_T (row k) 0) as [E | E]; [discriminate |]. intro H. injection H as <-. exists k. split; [exact E |]. split; [reflexivity |]. split; [intros k' Q; unfold k; now rewrite Q |].
  intros Q P. unfold k in *. rewrite Q in *. set (l := map (fun j => - Rabs (row j)) (seq 0 np)) in *. assert (LL : length l = np) by (unfold l; now rewrite map_length, seq_length). assert (NE : l <> []) by (intro B; rewrite B in LL; cbn in LL; lia).
  destruct (argminR_spec l NE) as (A & B & _). rewrite LL in A, B. split; [exact A |]. intros j J. specialize (B j J). assert (NT : forall m, (m < np)%nat -> nth m l 0 = - Rabs (row m)) by (intros m Hm; unfold l; now rewrite nth_tab). rewrite !NT in B by assumption. lra.
Qed.
Theorem C139_unit p : varies w cs np pm -> run = Ok p -> (forall k, norm = Some k -> (k < np)%nat) -> forall i, (i < np)%nat -> exists k, (k < np)%nat /\ (forall k', norm = Some k' -> k = k') /\ chosen p i k.
Proof.
  intros V H K i I. destruct (run_inv p H) as (ys & u0 & MC & _ & _ & _ & MS & _ & SR & PT & _ & _ & _). destruct (scale_ok _ _ _ (SR i I)) as (k & NZ & F & K1 & K2). exists k.
  assert (KN : (k < np)%nat) by (destruct norm as [k' |] eqn:E; [rewrite (K1 k' eq_refl); now apply K | now apply (K2 eq_refl); lia]). split; [exact KN |]. split; [exact K1 |]. destruct (MS k ltac:(lia)) as (_ & SD). assert (S0 : p_sd p k <> 0) by (rewrite SD; apply V; lia).
  assert (U : p_u p i k = p_sd p k) by (rewrite F; field; exact NZ). split; [exact U |]. split.
  - rewrite PT, U. destruct (map_cols_spec w pm np cs ys k (proj1 G) MC ltac:(lia)) as (_ & _ & M). destruct (M KN) as (m & E & _). rewrite E. destruct m; cbn [term_of]; destruct (Req_EM_T (p_sd p k) 0) as [|_]; try contradiction; eexists; (split; [reflexivity |]); cbn [has_exponent_one]; [f_equal | |]; field; exact S0.
  - intros E j J. destruct (K2 E ltac:(lia)) as (_ & M). rewrite F, Rabs_mult. assert (P : 0 <= p_sd p k) by (rewrite SD; apply sqrt_pos). rewrite (Rabs_pos_eq _ P). rewrite <- (Rmult_1_l (p_sd p k)) at 2. apply Rmult_le_compat_r; [exact P |]. unfold Rdiv. rewrite Rabs_mult, Rabs_inv. apply Rmult_le_reg_r with (Rabs (snd (eig np u0) k (nth i (argsort (fst (eig np u0))) 0%nat))); [now apply Rabs_pos_lt |]. rewrite Rmult_assoc, Rinv_l by (now apply Rabs_no_R0). rewrite Rmult_1_r, Rmult_1_l. now apply M.
Qed.

(** sums of components that are not exponentials *)
Lemma comp_stats p : varies w cs np pm -> run = Ok p -> p_exp p = false -> forall i, (i < np)%nat -> p_newmean p i = 0 /\ p_newsd p i ^ 2 = avg w (fun r => combi w cs np pm np (p_u p i) r ^ 2) /\
  (forall j, (j < np)%nat -> p_newsd p i <> 0 -> p_newsd p j <> 0 -> p_cross p i j = Ok (avg w (fun r => combi w cs np pm np (p_u p i) r * combi w cs np pm np (p_u p j) r) / (p_newsd p i * p_newsd p j))).
Proof.
  intros V H E. destruct (run_inv p H) as (ys & u0 & _ & _ & _ & _ & _ & _ & _ & _ & ST & CR & Q). destruct (Q V) as (_ & CV). rewrite E in CV. pose proof G as (G1 & G2 & G3).
  assert (M : forall i, (i < np)%nat -> p_newmean p i = 0).
  { intros i I. destruct (ST i) as (L & MM & _). rewrite MM. unfold mean. rewrite dot_avg by exact L. rewrite (avg_ext w _ (fun r => Sm np (fun j => p_u p i j * Z j r))) by (intros; now apply CV). rewrite (avg_Sm w np (fun j r => p_u p i j * Z j r)), (Sm_ext np _ (fun _ => 0)), Sm_zero; [reflexivity |]. intros j J. rewrite avg_scal, avg_unit by exact G3. ring. }
  intros i I. split; [now apply M |]. split.
  - destruct (ST i) as (L & _ & SS). rewrite SS, M by exact I. unfold mean. rewrite dot_avg by (now rewrite map_length). rewrite <- Rsqr_pow2, Rsqr_sqrt.
    + apply avg_ext. intros r IR. rewrite nth_map_in by (now rewrite L). rewrite (CV i r I IR), Rminus_0_r. reflexivity.
    + apply avg_nonneg; auto. intros r IR. rewrite nth_map_in by (now rewrite L). rewrite <- Rsqr_pow2. apply Rle_0_sqr.
  - intros j J Ni Nj. rewrite CR by assumption. f_equal. destruct (ST i) as (Li & _ & _). destruct (ST j) as (Lj & _ & _). unfold mean. rewrite dot_avg by (rewrite mul_length; rewrite !map_length; congruence). rewrite !M by assumption.
    rewrite (avg_ext w _ (fun r => / (p_newsd p i * p_newsd p j) * (combi w cs np pm np (p_u p i) r * combi w cs np pm np (p_u p j) r))); [rewrite avg_scal; unfold Rdiv; ring |]. intros r IR. rewrite mul_nth by (rewrite !map_length; congruence). rewrite !nth_map_in by congruence. rewrite (CV i r I IR), (CV j r J IR). unfold combi. field. split; assumption.
Qed.
Lemma rows_eigen p u0 : conditioned inv (length cs) np (p_corr p) = Ok u0 -> is_sort argsort -> eig_pairs np u0 (fst (eig np u0)) (snd (eig np u0)) ->
  (forall i, (i < np)%nat -> scale_row np (p_sd p) norm (fun j => snd (eig np u0) j (nth i (argsort (fst (eig np u0))) 0%nat)) = Ok (p_u p i)) -> forall i, (i < np)%nat ->
  exists c s, (s < np)%nat /\ s = nth i (argsort (fst (eig np u0))) 0%nat /\ (forall j, p_u p i j = c * snd (eig np u0) j s) /\ Sm np (fun j => p_u p i j ^ 2) = c ^ 2.
Proof.
  intros CO SO EP SR i I. destruct (scale_ok _ _ _ (SR i I)) as (k & NZ & F & _). set (s := nth i (argsort (fst (eig np u0))) 0%nat) in *. destruct EP as (LE & UN & _).
  assert (SN : (s < np)%nat). { destruct (SO (fst (eig np u0))) as (PE & _). rewrite LE in PE. assert (IN : In s (seq 0 np)) by (apply (Permutation_in _ PE), nth_In; rewrite (Permutation_length PE), seq_length; exact I). apply in_seq in IN. lia. }
  exists (p_sd p k / snd (eig np u0) k s), s. split; [exact SN |]. split; [reflexivity |]. assert (U : forall j, p_u p i j = p_sd p k / snd (eig np u0) k s * snd (eig np u0) j s) by (intro j; rewrite F; unfold Rdiv; ring). split; [exact U |].
  rewrite (Sm_ext np _ (fun j => (p_sd p k / snd (eig np u0) k s) ^ 2 * snd (eig np u0) j s ^ 2)) by (intros; rewrite U; ring). rewrite Sm_scal, UN by exact SN. ring.
Qed.
(** C139: without logarithms and fixed parameters, components have mean 0, eigenvalues are their variances in units of the sum of squares, and those with different eigenvalues are not correlated. *)
Theorem C139_components p : varies w cs np pm -> run = Ok p -> is_sort argsort -> is_eig eig np -> np = length cs -> p_exp p = false -> forall i, (i < np)%nat ->
  p_newmean p i = 0 /\ p_newsd p i ^ 2 = p_evals p i * Sm np (fun j => p_u p i j ^ 2) /\
  forall j, (j < np)%nat -> p_newsd p i <> 0 -> p_newsd p j <> 0 -> p_evals p i <> p_evals p j -> p_cross p i j = Ok 0.
Proof.
  intros V H SO IE NN E i I. destruct (run_inv p H) as (ys & u0 & _ & CO & _ & _ & _ & EV & SR & _ & _ & _ & Q). destruct (Q V) as (CC & _). destruct (comp_stats p V H E i I) as (M & S & CR). rewrite <- NN in CC.
  assert (CO' := CO). unfold conditioned in CO'. rewrite <- NN, Nat.eqb_refl in CO'. apply Ok_inj in CO'.
  assert (SY : symmetric np u0) by (rewrite <- CO'; intros a b A B; rewrite !CC by assumption; apply avg_ext; intros; ring). pose proof (IE u0 SY) as EP.
  assert (FA : forall a b, (a < np)%nat -> (b < np)%nat -> avg w (fun r => combi w cs np pm np (p_u p a) r * combi w cs np pm np (p_u p b) r) = pair np u0 (p_u p a) (p_u p b)).
  { intros a b A B. unfold pair, combi. rewrite (avg_ext w _ (fun r => Sm np (fun m => Sm np (fun n => p_u p a m * p_u p b n * (Z m r * Z n r))))).
    - rewrite (avg_Sm w np (fun m r => Sm np (fun n => p_u p a m * p_u p b n * (Z m r * Z n r)))). apply Sm_ext. intros m MM. rewrite (avg_Sm w np (fun n r => p_u p a m * p_u p b n * (Z m r * Z n r))), <- Sm_scal. apply Sm_ext. intros n NN'. rewrite avg_scal, <- CO', CC by assumption. ring.
    - intros r _. rewrite Rmult_comm, <- Sm_scal. apply Sm_ext. intros m MM. rewrite Rmult_comm, <- Sm_scal. apply Sm_ext. intros; ring. }
  destruct (rows_eigen p u0 CO SO EP SR i I) as (c & s & SN & Es & U & SQ). split; [exact M |]. split.
  - rewrite S, SQ, EV, <- Es. rewrite (avg_ext w _ (fun r => combi w cs np pm np (p_u p i) r * combi w cs np pm np (p_u p i) r)) by (intros; ring). rewrite FA by assumption.
    transitivity (pair np u0 (fun m => c * snd (eig np u0) m s) (fun m => c * snd (eig np u0) m s)); [unfold pair; apply Sm_ext; intros a A; rewrite U; f_equal; apply Sm_ext; intros b B; now rewrite U |]. rewrite (pair_scale np u0 c c (fun m => snd (eig np u0) m s) (fun m => snd (eig np u0) m s)), (pair_eigen np u0 _ _ s s SN SN EP). rewrite (Sm_ext np (fun m => snd (eig np u0) m s * snd (eig np u0) m s) (fun m => snd (eig np u0) m s ^ 2)) by (intros; ring). rewrite (proj1 (proj2 EP)) by exact SN. ring.
  - intros j J Ni Nj DE. rewrite (CR j J Ni Nj), FA by assumption. f_equal. destruct (rows_eigen p u0 CO SO EP SR j J) as (c' & s' & SN' & Es' & U' & _). rewrite !EV, <- Es, <- Es' in DE.
    transitivity (c * c' * pair np u0 (fun m => snd (eig np u0) m s) (fun m => snd (eig np u0) m s') / (p_newsd p i * p_newsd p j)).
    + f_equal. rewrite <- pair_scale. unfold pair. apply Sm_ext. intros a A. rewrite U. f_equal. apply Sm_ext. intros b B. now rewrite U'.
    + rewrite (pair_eigen np u0 _ _ s s' SN SN' EP), (eigen_orth np u0 _ _ s s' SY EP SN SN' DE). unfold Rdiv. ring.
Qed.
(** C139: if the eigenvectors are orthogonal, no combination varies less than the first component. *)
Theorem C139_tightest p v : varies w cs np pm -> run = Ok p -> is_sort argsort -> np = length cs -> (0 < np)%nat -> eigen_of np (p_corr p) (fst (eig np (p_corr p))) (snd (eig np (p_corr p))) ->
  p_evals p 0 * Sm np (fun j => v j ^ 2) <= avg w (fun r => combi w cs np pm np v r ^ 2) /\ forall i j, (i <= j < np)%nat -> p_evals p i <= p_evals p j.
Proof.
  intros V H SO NN P0 EO. destruct (run_inv p H) as (ys & u0 & _ & CO & _ & _ & _ & EV & SR & _ & _ & _ & Q). destruct (Q V) as (CC & _). rewrite <- NN in CC. unfold conditioned in CO. rewrite <- NN, Nat.eqb_refl in CO. apply Ok_inj in CO. rewrite CO in *.
  set (e := fst (eig np u0)) in *. destruct (SO e) as (PE & SE). pose proof EO as (LE & OR & _). split.
  - unfold combi. rewrite <- (form_avg w np (fun j => Z j) u0 v) by (intros; rewrite <- CO in *; now apply CC). rewrite (form_eigen np u0 e _ v EO), (norm_into np _ v OR), EV, <- Sm_scal. apply Sm_le. intros j J. apply Rmult_le_compat_r; [rewrite <- Rsqr_pow2; apply Rle_0_sqr |].
    assert (IJ : In j (argsort e)) by (apply (Permutation_in _ (Permutation_sym PE)), in_seq; lia). destruct (In_nth _ _ 0%nat IJ) as (b & B & <-). apply SE. rewrite (Permutation_length PE), seq_length in B. lia.
  - intros i j IJ. rewrite !EV. apply SE. lia.
Qed.
(** C139: with fixed parameters, the eigenvalue is the variance that is left of the component after the best prediction from them. *)
Theorem C139_conditional p : varies w cs np pm -> run = Ok p -> is_sort argsort -> is_eig eig np -> is_inv inv np -> is_inv inv (length cs) -> (np < length cs)%nat -> forall i, (i < np)%nat ->
  let left x := avg w (fun r => combi w cs np pm (length cs) x r ^ 2) in
  (exists x, (forall j, (j < np)%nat -> x j = p_u p i j) /\ left x = p_evals p i * Sm np (fun j => p_u p i j ^ 2)) /\
  forall x, (forall j, (j < np)%nat -> x j = p_u p i j) -> p_evals p i * Sm np (fun j => p_u p i j ^ 2) <= left x.
Proof.
  intros V H SO IE I1 I2 NN i I left. destruct (run_inv p H) as (ys & u0 & _ & CO & _ & _ & _ & EV & SR & _ & _ & _ & Q). destruct (Q V) as (CC & _). destruct (C139_correlations p V H) as (_ & SYM & _ & PSD).
  assert (CO' := CO). unfold conditioned in CO'. destruct (Nat.eqb_spec (length cs) np); [lia |]. destruct (inv (length cs) (p_corr p)) as [K |] eqn:EK; [| discriminate CO']. destruct (inv np K) as [u |] eqn:EU; [| discriminate CO']. apply Ok_inj in CO'. subst u.
  assert (SC : symmetric (length cs) (p_corr p)) by (intros a b A B; now apply SYM). pose proof (I2 _ _ EK) as VK. pose proof (I1 _ _ EU) as VU. pose proof (inverse_sym _ _ _ SC VK) as SK. pose proof (block_sym _ np _ NP SK) as SB. pose proof (inverse_sym _ _ _ SB VU) as SU. pose proof (IE u0 SU) as EP.
  destruct (rows_eigen p u0 CO SO EP SR i I) as (c & s & SN & Es & U & SQ).
  assert (FE : form np u0 (p_u p i) = p_evals p i * Sm np (fun j => p_u p i j ^ 2)).
  { rewrite (form_ext np u0 _ (fun m => c * snd (eig np u0) m s)) by (intros; apply U). rewrite form_pair, (pair_scale np u0 c c (fun m => snd (eig np u0) m s) (fun m => snd (eig np u0) m s)), (pair_eigen np u0 _ _ s s SN SN EP). rewrite (Sm_ext np (fun m => snd (eig np u0) m s * snd (eig np u0) m s) (fun m => snd (eig np u0) m s ^ 2)) by (intros; ring). rewrite (proj1 (proj2 EP)) by exact SN. rewrite EV, <- Es, SQ. ring. }
  destruct (schur (length cs) np (p_corr p) K u0 (p_u p i) NP SC PSD VK VU) as (A & B). rewrite FE in A, B.
  assert (FL : forall x, form (length cs) (p_corr p) x = left x) by (intro x; unfold left, combi; exact (form_avg w (length cs) (fun j => Z j) _ x CC)). split.
  - destruct A as (x & X1 & X2). exists x. split; [exact X1 |]. now rewrite <- FL.
  - intros x XX. rewrite <- FL. now apply B.
Qed.
End P.

(** C139: with names that are known, the columns are those of the parameters and then those held fixed, and the one to have exponent 1 is found by its name. *)
Theorem C139_names eig inv argsort (cols : str -> option (list R)) col w params cond pm k : (forall p, In p (params ++ cond) -> cols p = Some (col p)) -> NoDup params -> (k < length params)%nat ->
  PCA eig inv argsort cols w params (Some pm) (Some (nth k params [])) cond = analyse eig inv argsort w (map col (params ++ cond)) (length params) pm (Some k) /\
  PCA eig inv argsort cols w params (Some pm) None cond = analyse eig inv argsort w (map col (params ++ cond)) (length params) pm None /\
  PCA eig inv argsort cols w params None None cond = analyse eig inv argsort w (map col (params ++ cond)) (length params) (map (fun p => default_map (col p)) params) None.
Proof.
  intros K ND KL. unfold PCA. assert (F : filter (fun p => match cols p with Some _ => true | None => false end) params = params).
  { assert (K' : forall p, In p params -> cols p = Some (col p)) by (intros; apply K, in_or_app; auto). clear - K'. induction params as [| q l IH]; [reflexivity |]. cbn [filter]. rewrite (K' q) by (now left). rewrite IH; [reflexivity |]. intros; apply K'; now right. }
  rewrite F. assert (M : forall l, (forall p, In p l -> cols p = Some (col p)) -> mapR (fun p => match cols p with Some c => Ok c | None => Err KeyError end) l = Ok (map col l)).
  { clear. induction l as [| q l IH]; intro K; [reflexivity |]. cbn [mapR map]. rewrite (K q) by (now left). cbn [bindR]. rewrite IH by (intros; apply K; now right). reflexivity. }
  rewrite (M _ K). cbn [bindR]. split; [| split].
  - f_equal. clear - ND KL. revert k KL. induction params as [| q l IH]; intros k KL; cbn in KL; [lia |]. inversion ND; subst. cbn [name_index]. destruct k; cbn [nth]; [now rewrite str_eqb_refl |]. destruct (str_eqb_spec q (nth k l [])) as [-> |]; [exfalso; apply H1, nth_In; lia |]. now rewrite IH by (auto; lia).
  - reflexivity.
  - rewrite map_app, firstn_app, map_length, Nat.sub_diag, firstn_O, app_nil_r, <- (map_length col params), firstn_all, map_map. reflexivity.
Qed.
(** C139: by default a logarithm is taken of parameters of which no value is more than eleven times another one. *)
Theorem C139_default x : x <> [] -> (default_map x = PL <-> forall a b, In a x -> In b x -> a <= 11 * b) /\ default_map x <> PM /\ (default_map x = PL -> (exists a, In a x /\ a <> 0) -> forall a, In a x -> 0 < a).
Proof.
  intro N. pose proof (maxR_in x N) as IM. pose proof (minR_in x N) as Im. pose proof (maxR_ge x _ Im) as LE. assert (D : default_map x = PL <-> forall a b, In a x -> In b x -> a <= 11 * b).
  { unfold default_map. destruct (Rlt_dec (maxR x) 0) as [A | A]; [split; [discriminate |]; intro H; specialize (H _ _ IM Im); exfalso; lra |]. destruct (Rlt_dec (minR x) ((maxR x - minR x) / 10)) as [B | B].
    - split; [discriminate |]. intro H. specialize (H _ _ IM Im). exfalso; lra.
    - split; [intros _ a b Ia Ib; pose proof (maxR_ge x a Ia); pose proof (minR_le x b Ib); lra | reflexivity]. }
  split; [exact D |]. split; [unfold default_map; destruct (Rlt_dec _ _); [discriminate |]; destruct (Rlt_dec _ _); discriminate |].
  intros P (a & Ia & Na) b Ib. pose proof (proj1 D P) as Q. pose proof (Q a a Ia Ia). pose proof (Q a b Ia Ib). lra.
Qed.
(** C139 refuted: the logarithm of the modulus is not the default for parameters that are negative, and not of all that are positive. *)
Theorem C139_default_refuted : (forall x, x <> [] -> (forall a, In a x -> a < 0) -> default_map x = PN) /\ (forall a b, 0 < a -> 11 * a < b -> default_map [a; b] = PN) /\ (default_map [0; 0] = PL /\ mapped PL [0; 0] = Err LinAlgError).
Proof.
  split; [| split; [| split]].
  - intros x N H. unfold default_map. destruct (Rlt_dec (maxR x) 0) as [| A]; [reflexivity |]. exfalso. apply A, H, maxR_in, N.
  - intros a b A B. unfold default_map, maxR, minR. cbn [fold_left]. rewrite Rmax_right, Rmin_left by lra. destruct (Rlt_dec b 0); [reflexivity |]. destruct (Rlt_dec a ((b - a) / 10)); [reflexivity |]. exfalso; lra.
  - apply (C139_default [0; 0]); [discriminate |]. intros a b [<- | [<- | []]] [<- | [<- | []]]; lra.
  - unfold mapped, allb, positive. cbn [forallb]. destruct (Rlt_dec 0 0); [exfalso; lra | reflexivity].
Qed.
(** C139 refuted: if a name is not known, the transformations of the parameters after it are those asked for one place earlier. *)
Theorem C139_missing_refuted eig inv argsort (cols : str -> option (list R)) w miss params m pm normparam cond : cols miss = None ->
  PCA eig inv argsort cols w (miss :: params) (Some (m :: pm)) normparam cond = PCA eig inv argsort cols w params (Some (m :: pm)) normparam cond.
Proof. intro E. unfold PCA. cbn [filter]. rewrite E. reflexivity. Qed.
(** C139 refuted: the error that is printed does not treat the other parameters as fixed; it is the same as without them. *)
Theorem C139_conditional_refuted eig inv argsort w cs np pm norm p : good_data w cs -> (np <= length cs)%nat -> varies w cs np pm -> analyse eig inv argsort w cs np pm norm = Ok p -> p_exp p = false -> is_sort argsort -> is_eig eig np -> is_inv inv np -> is_inv inv (length cs) -> (np < length cs)%nat ->
  forall i, (i < np)%nat -> p_newsd p i ^ 2 = avg w (fun r => combi w cs np pm np (p_u p i) r ^ 2) /\ p_evals p i * Sm np (fun j => p_u p i j ^ 2) <= p_newsd p i ^ 2.
Proof.
  intros G NP V H E SO IE I1 I2 NN i I. destruct (comp_stats eig inv argsort w cs np pm norm G NP p V H E i I) as (_ & S & _). split; [exact S |]. rewrite S.
  destruct (C139_conditional eig inv argsort w cs np pm norm G NP p V H SO IE I1 I2 NN i I) as (_ & B). specialize (B (fun j => if Nat.ltb j np then p_u p i j else 0)). cbv beta zeta in B.
  rewrite (avg_ext w (fun r => combi w cs np pm np (p_u p i) r ^ 2) (fun r => combi w cs np pm (length cs) (fun j => if Nat.ltb j np then p_u p i j else 0) r ^ 2)).
  - apply B. intros j J. destruct (Nat.ltb_spec j np); [reflexivity | lia].
  - intros r _. f_equal. unfold combi. symmetry. rewrite (Sm_cut np (length cs)); [apply Sm_ext; intros j J; destruct (Nat.ltb_spec j np); [reflexivity | lia] | lia |]. intros j J. destruct (Nat.ltb_spec j np); [lia | ring].
Qed.

(** Functions that do what is said of argsort, inv and eig, for one and two variables. *)
Fixpoint put (e : list R) (i : nat) (l : list nat) : list nat := match l with [] => [i] | j :: l' => if Rle_dec (nth i e 0) (nth j e 0) then i :: l else j :: put e i l' end.
Definition sort_ix (e : list R) : list nat := fold_right (put e) [] (seq 0 (length e)).
Lemma put_perm e i l : Permutation (put e i l) (i :: l).
Proof. induction l as [| j l IH]; cbn [put]; [reflexivity |]. destruct (Rle_dec _ _); [reflexivity |]. rewrite IH. apply perm_swap. Qed.
Definition rising (e : list R) (l : list nat) : Prop := forall a b, (a <= b < length l)%nat -> nth (nth a l 0%nat) e 0 <= nth (nth b l 0%nat) e 0.
Lemma rising_cons e i l : rising e l -> (forall j, In j l -> nth i e 0 <= nth j e 0) -> rising e (i :: l).
Proof. intros S F a b AB. cbn [length] in AB. destruct a, b; cbn [nth]; [apply Rle_refl | apply F, nth_In; lia | lia | apply S; lia]. Qed.
Lemma put_rising e i l : rising e l -> rising e (put e i l).
Proof.
  induction l as [| j l IH]; intro S; cbn [put]; [apply rising_cons; [exact S | intros ? []] |]. assert (S' : rising e l) by (intros a b AB; apply (S (Datatypes.S a) (Datatypes.S b)); cbn [length]; lia).
  assert (F : forall m, In m l -> nth j e 0 <= nth m e 0) by (intros m M; destruct (In_nth _ _ 0%nat M) as (b & B & <-); apply (S 0%nat (Datatypes.S b)); cbn [length]; lia). destruct (Rle_dec (nth i e 0) (nth j e 0)) as [L | L].
  - apply rising_cons; [exact S |]. intros m [<- | M]; [exact L |]. apply Rle_trans with (nth j e 0); auto.
  - apply rising_cons; [now apply IH |]. intros m M. apply (Permutation_in _ (put_perm e i l)) in M. destruct M as [<- | M]; [lra | auto].
Qed.
Lemma sort_ix_ok : is_sort sort_ix.
Proof.
  intro e. assert (K : forall l, Permutation (fold_right (put e) [] l) l /\ rising e (fold_right (put e) [] l)).
  { induction l as [| i l (P & S)]; cbn [fold_right]; [split; [reflexivity |]; intros a b AB; cbn [length] in AB; lia |]. split; [rewrite put_perm; now constructor | now apply put_rising]. }
  destruct (K (seq 0 (length e))) as (P & S). split; [exact P |]. intros a b AB. apply S. fold (sort_ix e). unfold sort_ix. rewrite (Permutation_length P), seq_length. exact AB.
Qed.
Definition inv12 (k : nat) (M : matrix) : option matrix :=
  match k with
  | 1%nat => if Req_EM_T (M 0%nat 0%nat) 0 then None else Some (fun _ _ => / M 0%nat 0%nat)
  | 2%nat => let d := M 0%nat 0%nat * M 1%nat 1%nat - M 0%nat 1%nat * M 1%nat 0%nat in
         if Req_EM_T d 0 then None else Some (fun i j => match i, j with 0%nat, 0%nat => M 1%nat 1%nat / d | 0%nat, _ => - M 0%nat 1%nat / d | _, 0%nat => - M 1%nat 0%nat / d | _, _ => M 0%nat 0%nat / d end)
  | _ => None
  end.
Lemma inv12_ok k : is_inv inv12 k.
Proof.
  intros M K. unfold inv12. destruct k as [| [| [| k]]]; try discriminate.
  - destruct (Req_EM_T (M 0%nat 0%nat) 0) as [| N]; [discriminate |]. intro H. injection H as <-. intros i j I J. assert (i = 0%nat) by lia. assert (j = 0%nat) by lia. subst. rewrite !Sm_S, !Sm_0. unfold delta. cbn [Nat.eqb]. split; field; exact N.
  - cbv zeta. destruct (Req_EM_T _ 0) as [| N]; [discriminate |]. intro H. injection H as <-. intros i j I J. rewrite !Sm_S, !Sm_0. unfold delta. destruct i as [| [| i]]; [| | lia]; (destruct j as [| [| j]]; [| | lia]); cbn [Nat.eqb]; split; field; exact N.
Qed.
Definition eig12 (k : nat) (M : matrix) : list R * matrix :=
  match k with
  | 1%nat => ([M 0%nat 0%nat], fun _ _ => 1)
  | _ => let a := M 0%nat 0%nat in let b := M 0%nat 1%nat in let d := M 1%nat 1%nat in
    if Req_EM_T b 0 then ([a; d], delta) else
    let h := sqrt (((a - d) / 2) ^ 2 + b ^ 2) in let e := [(a + d) / 2 - h; (a + d) / 2 + h] in
    (e, fun i j => (match i with 0%nat => b | _ => nth j e 0 - a end) / sqrt (b ^ 2 + (nth j e 0 - a) ^ 2))
  end.
Lemma eig12_ok k : (0 < k <= 2)%nat -> is_eig eig12 k.
Proof.
  intros KK M SY. unfold eig12. destruct k as [| [| [| k]]]; try lia.
  - cbn [fst snd]. split; [reflexivity |]. split; [intros; rewrite Sm_S, Sm_0; ring |]. intros i j I J. assert (i = 0%nat) by lia. assert (j = 0%nat) by lia. subst. rewrite Sm_S, Sm_0. cbn [nth]. ring.
  - cbv zeta. assert (Q : M 1%nat 0%nat = M 0%nat 1%nat) by (apply SY; lia). destruct (Req_EM_T (M 0%nat 1%nat) 0) as [Z0 | N0]; cbn [fst snd].
    + split; [reflexivity |]. split; [intros j J; rewrite !Sm_S, Sm_0; unfold delta; destruct j as [| [| j]]; [| | lia]; cbn [Nat.eqb]; ring |]. intros i j I J. rewrite !Sm_S, Sm_0. unfold delta. destruct i as [| [| i]]; [| | lia]; (destruct j as [| [| j]]; [| | lia]); cbn [Nat.eqb nth]; rewrite ?Q, ?Z0; ring.
    + set (a := M 0%nat 0%nat) in *. set (b := M 0%nat 1%nat) in *. set (d := M 1%nat 1%nat) in *. set (h := sqrt _). assert (H2 : h * h = ((a - d) / 2) ^ 2 + b ^ 2) by (apply sqrt_sqrt; rewrite <- !Rsqr_pow2; apply Rplus_le_le_0_compat; apply Rle_0_sqr). clearbody h. set (e := [_; _]).
      assert (R : forall j, (j < 2)%nat -> (nth j e 0 - a) * (nth j e 0 - d) = b ^ 2). { intros j J. destruct j as [| [| j]]; [| | lia]; unfold e; cbn [nth]; [replace (((a + d) / 2 - h - a) * ((a + d) / 2 - h - d)) with (h * h - ((a - d) / 2) ^ 2) by field | replace (((a + d) / 2 + h - a) * ((a + d) / 2 + h - d)) with (h * h - ((a - d) / 2) ^ 2) by field]; rewrite H2; ring. }
      assert (P : forall x, 0 < b ^ 2 + x ^ 2). { intro x. rewrite <- !Rsqr_pow2. apply Rplus_lt_le_0_compat; [now apply Rsqr_pos_lt | apply Rle_0_sqr]. }
      split; [reflexivity |]. split.
      * intros j J. rewrite !Sm_S, Sm_0. set (x := nth j e 0 - a). pose proof (sqrt_lt_R0 _ (P x)) as S0. pose proof (sqrt_sqrt _ (Rlt_le _ _ (P x))) as S2. set (q := sqrt (b ^ 2 + x ^ 2)) in *. replace (0 + (b / q) ^ 2 + (x / q) ^ 2) with ((b ^ 2 + x ^ 2) / (q * q)) by (field; lra). rewrite S2. field. specialize (P x). lra.
      * intros i j I J. rewrite !Sm_S, Sm_0. specialize (R j J). set (x := nth j e 0 - a) in *. pose proof (sqrt_lt_R0 _ (P x)) as S0. set (q := sqrt (b ^ 2 + x ^ 2)) in *. assert (EX : nth j e 0 = x + a) by (unfold x; ring). rewrite EX in R |- *. destruct i as [| [| i]]; [| | lia]; fold a b d; rewrite ?Q.
        -- field. lra.
        -- apply Rmult_eq_reg_r with q; [| lra]. replace ((0 + b * (b / q) + d * (x / q)) * q) with (b ^ 2 + d * x) by (field; lra). rewrite <- R. field. lra.
Qed.
Definition ex_w : list R := [3; 1; 1; 3].
Definition ex_x : list R := [1; 1; -1; -1].
Definition ex_c : list R := [1; -1; 1; -1].
Lemma ex_data : good_data ex_w [ex_x; ex_c].
Proof. split; [| split]; [intros c [<- | [<- | []]]; reflexivity | intros x [<- | [<- | [<- | [<- | []]]]]; lra | cbv -[Rplus Rlt IZR]; lra]. Qed.
Lemma ex_red : reduced ex_w ex_x = (0, 1, ex_x) /\ reduced ex_w ex_c = (0, 1, ex_c).
Proof.
  assert (M1 : dot ex_w ex_x / get_norm ex_w = 0) by (cbv -[Rplus Rmult Rdiv IZR]; lra). assert (M2 : dot ex_w ex_c / get_norm ex_w = 0) by (cbv -[Rplus Rmult Rdiv IZR]; lra).
  assert (D : forall x : list R, map (fun y => y - 0) x = x) by (intro x; rewrite <- (map_id x) at 2; apply map_ext; intro; ring). assert (D1 : forall x : list R, map (fun y => y / 1) x = x) by (intro x; rewrite <- (map_id x) at 2; apply map_ext; intro; field).
  assert (S1 : sqrt (dot ex_w (map (fun y => y ^ 2) ex_x) / get_norm ex_w) = 1) by (transitivity (sqrt 1); [f_equal; cbv -[Rplus Rmult Rdiv IZR pow]; lra | exact sqrt_1]). assert (S2 : sqrt (dot ex_w (map (fun y => y ^ 2) ex_c) / get_norm ex_w) = 1) by (transitivity (sqrt 1); [f_equal; cbv -[Rplus Rmult Rdiv IZR pow]; lra | exact sqrt_1]).
  split; unfold reduced; cbv zeta; rewrite ?M1, ?M2, D, ?S1, ?S2, D1; (destruct (Req_EM_T 1 0); [exfalso; lra | reflexivity]).
Qed.
Definition ex_C : matrix := correlation ex_w (fun j => snd (reduced ex_w (nth j [ex_x; ex_c] []))).
Lemma ex_corr : ex_C 0%nat 0%nat = 1 /\ ex_C 1%nat 1%nat = 1 /\ ex_C 0%nat 1%nat = 1 / 2 /\ ex_C 1%nat 0%nat = 1 / 2.
Proof. destruct ex_red as (R1 & R2). unfold ex_C, correlation. cbn [Nat.eqb Nat.max Nat.min nth]. rewrite R1, R2. cbn [snd]. repeat split; cbv -[Rplus Rmult Rdiv IZR]; lra. Qed.
Lemma ex_conditioned : exists u, conditioned inv12 2 1 ex_C = Ok u /\ u 0%nat 0%nat = 3 / 4.
Proof.
  destruct ex_corr as (A & B & C & D). unfold conditioned. cbn [Nat.eqb inv12]. rewrite A, B, C, D. destruct (Req_EM_T (1 * 1 - 1 / 2 * (1 / 2)) 0) as [E | E]; [exfalso; lra |]. cbn [inv12]. destruct (Req_EM_T (1 / (1 * 1 - 1 / 2 * (1 / 2))) 0) as [F | F].
  - exfalso. revert F. replace (1 / (1 * 1 - 1 / 2 * (1 / 2))) with (4 / 3) by field. lra.
  - eexists. split; [reflexivity |]. cbv beta. field.
Qed.
(** x and c have correlation 1/2: with c held fixed the variance of x is 3/4, but the error printed is 1. *)
Example C139_conditional_ex : exists p, analyse eig12 inv12 sort_ix ex_w [ex_x; ex_c] 1 [PN] None = Ok p /\ varies ex_w [ex_x; ex_c] 1 [PN] /\ p_corr p 0%nat 1%nat = 1 / 2 /\ p_evals p 0%nat = 3 / 4 /\ p_exp p = false /\ p_u p 0%nat 0%nat = 1 /\ p_newsd p 0%nat = 1.
Proof.
  destruct ex_red as (R1 & R2). destruct ex_conditioned as (u & CU & U). destruct ex_corr as (_ & _ & C01 & _).
  assert (H : exists p, analyse eig12 inv12 sort_ix ex_w [ex_x; ex_c] 1 [PN] None = Ok p /\ p_corr p 0%nat 1%nat = 1 / 2 /\ p_evals p 0%nat = 3 / 4 /\ p_exp p = false /\ p_u p 0%nat 0%nat = 1 /\ p_sd p 0%nat = 1 /\ p_sd p 1%nat = 1).
  { unfold analyse. cbn [map_cols mapR combine seq length fst snd Nat.ltb Nat.leb nth_error mapped bindR]. fold ex_C. rewrite CU. cbn [bindR seq mapR]. unfold scale_row at 1. cbn [seq map eig12 snd]. destruct (Req_EM_T 1 0) as [B | _]; [exfalso; lra |]. cbn [bindR]. eexists. split; [reflexivity |].
    cbn [p_corr p_evals p_exp p_u p_sd nth]. split; [exact C01 |]. split; [cbn [eig12 fst]; rewrite U; reflexivity |]. split; [reflexivity |]. split; [cbn [p_u nth argminR argmin_from]; rewrite R1; cbn [fst snd]; lra |]. split; [cbn [p_sd nth]; now rewrite R1 | cbn [p_sd nth]; now rewrite R2]. }
  destruct H as (p & H & E1 & E2 & E3 & E4 & E5 & E6). assert (NP : (1 <= length [ex_x; ex_c])%nat) by (cbn; lia). destruct (run_inv eig12 inv12 sort_ix ex_w [ex_x; ex_c] 1 [PN] None ex_data NP p H) as (_ & _ & _ & _ & _ & _ & MS & _ & _ & _ & ST & _).
  assert (V : varies ex_w [ex_x; ex_c] 1 [PN]). { intros j J. rewrite <- (proj2 (MS j J)). cbn [length] in J. destruct j as [| [| j]]; [lra | lra | lia]. }
  exists p. split; [exact H |]. split; [exact V |]. split; [exact E1 |]. split; [exact E2 |]. split; [exact E3 |]. split; [exact E4 |].
  destruct (comp_stats eig12 inv12 sort_ix ex_w [ex_x; ex_c] 1 [PN] None ex_data NP p V H E3 0 ltac:(lia)) as (_ & SQ & _). assert (P : 0 <= p_newsd p 0%nat) by (rewrite (proj2 (proj2 (ST 0%nat))); apply sqrt_pos). pose proof ex_data as (_ & G2 & G3).
  assert (Q : p_newsd p 0%nat ^ 2 = 1). { rewrite SQ. rewrite <- (avg_unit_sq ex_w (var_of [ex_x; ex_c] 1 [PN] 0) G2 G3 (V 0%nat ltac:(cbn; lia))). apply avg_ext. intros r _. unfold combi. rewrite Sm_S, Sm_0, E4. ring. }
  nra.
Qed.
(** both as parameters: the eigenvalues are 1/2 and 3/2 *)
Example C139_components_ex : exists p, analyse eig12 inv12 sort_ix ex_w [ex_x; ex_c] 2 [PN; PN] (Some 0%nat) = Ok p /\ varies ex_w [ex_x; ex_c] 2 [PN; PN] /\ p_exp p = false /\ p_evals p 0%nat = 1 / 2 /\ p_evals p 1%nat = 3 / 2.
Proof.
  destruct ex_red as (R1 & R2). destruct ex_corr as (C0 & C1 & C01 & _).
  assert (H : exists p, analyse eig12 inv12 sort_ix ex_w [ex_x; ex_c] 2 [PN; PN] (Some 0%nat) = Ok p /\ p_exp p = false /\ p_sd p 0%nat = 1 /\ p_sd p 1%nat = 1 /\ p_evals p 0%nat = 1 / 2 /\ p_evals p 1%nat = 3 / 2).
  { unfold analyse. cbn [map_cols mapR combine seq length fst snd Nat.ltb Nat.leb nth_error mapped bindR]. fold ex_C. unfold conditioned. cbn [Nat.eqb bindR]. cbv beta zeta.
    assert (HH : sqrt (((1 - 1) / 2) ^ 2 + (1 / 2) ^ 2) = 1 / 2) by (replace (((1 - 1) / 2) ^ 2 + (1 / 2) ^ 2) with (Rsqr (1 / 2)) by (unfold Rsqr; field); apply sqrt_Rsqr; lra).
    assert (EE : fst (eig12 2 ex_C) = [1 / 2; 3 / 2]). { unfold eig12. rewrite C0, C1, C01. destruct (Req_EM_T (1 / 2) 0); [exfalso; lra |]. cbv zeta. cbn [fst]. rewrite HH. f_equal; [lra | f_equal; lra]. }
    assert (EV : forall j, (j < 2)%nat -> snd (eig12 2 ex_C) 0%nat j <> 0). { intros j J. unfold eig12. rewrite C0, C1, C01. destruct (Req_EM_T (1 / 2) 0); [exfalso; lra |]. cbv zeta. cbn [snd]. intro B. apply Rmult_integral in B. destruct B as [B | B]; [lra |]. revert B. apply Rinv_neq_0_compat. apply Rgt_not_eq, sqrt_lt_R0. rewrite <- (Rsqr_pow2 (_ - _)). pose proof (Rle_0_sqr (nth j [(1 + 1) / 2 - sqrt (((1 - 1) / 2) ^ 2 + (1 / 2) ^ 2); (1 + 1) / 2 + sqrt (((1 - 1) / 2) ^ 2 + (1 / 2) ^ 2)] 0 - 1)). lra. }
    assert (SI : sort_ix [1 / 2; 3 / 2] = [0%nat; 1%nat]). { unfold sort_ix. cbn [length seq fold_right put nth]. destruct (Rle_dec (1 / 2) (3 / 2)); [reflexivity | exfalso; lra]. }
    rewrite EE, SI. cbn [seq mapR]. unfold scale_row at 1. cbn [nth]. destruct (Req_EM_T _ 0) as [B | _]; [exfalso; now apply (EV 0%nat ltac:(lia)) |]. cbn [bindR]. unfold scale_row at 1. cbn [nth]. destruct (Req_EM_T _ 0) as [B | _]; [exfalso; now apply (EV 1%nat ltac:(lia)) |]. cbn [bindR]. eexists. split; [reflexivity |].
    split; [reflexivity |]. split; [cbn [p_sd nth]; now rewrite R1 |]. split; [cbn [p_sd nth]; now rewrite R2 |]. split; reflexivity. }
  destruct H as (p & H & E3 & E5 & E6 & A & B). assert (NP : (2 <= length [ex_x; ex_c])%nat) by (cbn; lia). destruct (run_inv eig12 inv12 sort_ix ex_w [ex_x; ex_c] 2 [PN; PN] (Some 0%nat) ex_data NP p H) as (_ & _ & _ & _ & _ & _ & MS & _).
  exists p. split; [exact H |]. split; [| repeat split; assumption]. intros j J. rewrite <- (proj2 (MS j J)). cbn [length] in J. destruct j as [| [| j]]; [lra | lra | lia].
Qed.
Example C139_default_ex : default_map [2; 3; 5] = PL /\ default_map [-1; 3] = PN.
Proof.
  split; [apply (C139_default [2; 3; 5]); [discriminate |]; intros a b [<- | [<- | [<- | []]]] [<- | [<- | [<- | []]]]; lra |].
  unfold default_map, maxR, minR. cbn [fold_left]. rewrite Rmax_right, Rmin_left by lra. destruct (Rlt_dec 3 0); [reflexivity |]. destruct (Rlt_dec (-1) ((3 - -1) / 10)); [reflexivity | exfalso; lra].
Qed.
Print Assumptions C139_correlations.
Print Assumptions C139_terms.
Print Assumptions C139_unit.
Print Assumptions C139_components.
Print Assumptions C139_tightest.
Print Assumptions C139_conditional.
Print Assumptions C139_names.
Print Assumptions C139_default.
Print Assumptions C139_default_refuted.
Print Assumptions C139_missing_refuted.
Print Assumptions C139_conditional_refuted.
