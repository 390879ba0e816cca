From Coq Require Import Reals String Ascii Bool Arith Lia Lra List.
From Verif Require Import PyStr NamesModel NamesSpec NamesProofs NamesProofs2 NamesProofs3 McmcModel McmcProofs LikeModel PsetProofs SetupModel SetupSpec.
Import ListNotations.
Local Open Scope R_scope.

(** ** Matrices by name *)
Lemma setm_at m i j v a b : setm m i j v a b = if (a =? i)%nat && (b =? j)%nat then v else m a b.
Proof. reflexivity. Qed.
Section Scatter.
Context (cov : list nat) (rows : list (list R)) (a b x0 y0 : nat).
Context (Ux : forall x, nth x cov O = S a -> x = x0) (Uy : forall y, nth y cov O = S b -> y = y0).
Let inner j y xs m := fold_left (fun m x => match nth x cov O with O => m | S i => setm m i j (tmp rows x y) end) xs m.
Lemma inner_at j y xs : forall m, inner j y xs m a b =
  if (b =? j)%nat && existsb (fun x => (nth x cov O =? S a)%nat) xs then tmp rows x0 y else m a b.
Proof.
  unfold inner. induction xs as [| x xs IH]; intro m; cbn [fold_left existsb]; [now rewrite andb_false_r |]. rewrite IH.
  destruct (Nat.eqb_spec b j) as [-> | N]; cbn [andb].
  - destruct (existsb _ xs) eqn:E; cbn [orb]; [now rewrite orb_true_r |]. rewrite orb_false_r.
    destruct (Nat.eqb_spec (nth x cov O) (S a)) as [E1 | E1].
    + rewrite E1. rewrite setm_at, !Nat.eqb_refl. cbn. f_equal. now apply Ux.
    + destruct (nth x cov O) as [| i]; [reflexivity |]. rewrite setm_at. replace (a =? i)%nat with false; [reflexivity |]. symmetry. apply Nat.eqb_neq. lia.
  - destruct (nth x cov O) as [| i]; [reflexivity |]. rewrite setm_at. apply Nat.eqb_neq in N. rewrite N. now rewrite andb_false_r.
Qed.
Lemma outer_at ys : forall m,
  fold_left (fun m y => match nth y cov O with O => m | S j => inner j y (seq 0 (length cov)) m end) ys m a b =
  if existsb (fun y => (nth y cov O =? S b)%nat) ys && existsb (fun x => (nth x cov O =? S a)%nat) (seq 0 (length cov)) then tmp rows x0 y0 else m a b.
Proof.
  induction ys as [| y ys IH]; intro m; cbn [fold_left existsb]; [reflexivity |]. rewrite IH.
  destruct (existsb (fun x => (nth x cov O =? S a)%nat) (seq 0 (length cov))) eqn:EX.
  - rewrite !andb_true_r. destruct (existsb _ ys) eqn:E; cbn [orb]; [now rewrite orb_true_r |]. rewrite orb_false_r.
    destruct (nth y cov O) as [| j] eqn:Ey; [reflexivity |]. rewrite inner_at, EX, andb_true_r. cbn [Nat.eqb]. rewrite Nat.eqb_sym.
    destruct (Nat.eqb_spec j b) as [-> | N]; [| reflexivity]. f_equal. now apply Uy.
  - rewrite !andb_false_r. destruct (nth y cov O) as [| j] eqn:Ey; [reflexivity |]. rewrite inner_at, EX. now rewrite andb_false_r.
Qed.
End Scatter.
Lemma existsb_nth (cov : list nat) v : existsb (fun x => (nth x cov O =? v)%nat) (seq 0 (length cov)) = true <-> exists x, (x < length cov)%nat /\ nth x cov O = v.
Proof.
  rewrite existsb_exists. split.
  - intros (x & I & E). apply in_seq in I. apply Nat.eqb_eq in E. exists x. split; [lia | exact E].
  - intros (x & L & E). exists x. split; [apply in_seq; lia | now apply Nat.eqb_eq].
Qed.
Lemma scatter_hit cov rows a b x0 y0 : (forall x, nth x cov O = S a -> x = x0) -> (forall y, nth y cov O = S b -> y = y0) ->
  nth x0 cov O = S a -> nth y0 cov O = S b -> scatter cov rows a b = tmp rows x0 y0.
Proof.
  intros Ux Uy E1 E2. unfold scatter. rewrite (outer_at cov rows a b x0 y0 Ux Uy).
  assert (H : forall z v, nth z cov O = S v -> existsb (fun x => (nth x cov O =? S v)%nat) (seq 0 (length cov)) = true).
  { intros z v E. apply existsb_nth. exists z. split; [| exact E]. destruct (Nat.lt_ge_cases z (length cov)); [assumption |]. rewrite nth_overflow in E by assumption. discriminate. }
  now rewrite (H _ _ E1), (H _ _ E2).
Qed.
Lemma scatter_miss cov rows a b : (forall x, nth x cov O = S a -> forall x', nth x' cov O = S a -> x' = x) ->
  (forall x, nth x cov O = S b -> forall x', nth x' cov O = S b -> x' = x) ->
  (forall x, nth x cov O <> S a) \/ (forall y, nth y cov O <> S b) -> scatter cov rows a b = 0.
Proof.
  intros Ua Ub H. unfold scatter.
  assert (G : forall v, (forall x, nth x cov O = S v -> forall x', nth x' cov O = S v -> x' = x) -> exists x0, forall x, nth x cov O = S v -> x = x0).
  { intros v U. destruct (existsb (fun x => (nth x cov O =? S v)%nat) (seq 0 (length cov))) eqn:E.
    - apply existsb_nth in E. destruct E as (x & _ & E). exists x. intros x' E'. exact (U x E x' E').
    - exists O. intros x Ex. exfalso. assert (T : existsb (fun x => (nth x cov O =? S v)%nat) (seq 0 (length cov)) = true); [| congruence].
      apply existsb_nth. exists x. split; [| exact Ex]. destruct (Nat.lt_ge_cases x (length cov)); [assumption |]. rewrite nth_overflow in Ex by assumption. discriminate. }
  destruct (G a Ua) as [x0 X]. destruct (G b Ub) as [y0 Y]. rewrite (outer_at cov rows a b x0 y0 X Y).
  destruct (existsb (fun y => (nth y cov O =? S b)%nat) _) eqn:E1; [| reflexivity]. destruct (existsb (fun y => (nth y cov O =? S a)%nat) _) eqn:E2; [| reflexivity].
  exfalso. apply existsb_nth in E1, E2. destruct E1 as (y & _ & E1), E2 as (x & _ & E2). destruct H as [H | H]; [now apply (H x) | now apply (H y)].
Qed.
Lemma read_rows_at num : forall k rows rs, read_rows num k rows = Some rs -> forall x y, (y < k)%nat -> (x < num)%nat -> tmp rs x y = file_matrix rows x y.
Proof.
  induction k as [| k IH]; intros rows rs E x y Hy Hx; [lia |]. cbn in E. destruct rows as [| r rows]; [discriminate |].
  destruct (num <=? length r)%nat eqn:L; [| discriminate]. destruct (read_rows num k rows) as [rs' |] eqn:E'; [| discriminate]. cbn in E. injection E as <-.
  apply Nat.leb_le in L. unfold tmp, file_matrix in *. destruct y as [| y]; cbn [nth].
  - assert (F : forall n (l : list R) i, (i < n)%nat -> nth i (firstn n l) 0 = nth i l 0).
    { clear. induction n as [| n IH]; intros l i H; [lia |]. destruct l as [| v l]; [destruct i; reflexivity |]. destruct i as [| i]; [reflexivity |]. cbn. apply IH. lia. }
    now apply F.
  - apply (IH rows rs' E'); lia.
Qed.
Lemma read_rows_ok num : forall k rows, (k <= length rows)%nat -> Forall (fun r => (num <= length r)%nat) (firstn k rows) -> exists rs, read_rows num k rows = Some rs.
Proof.
  induction k as [| k IH]; intros rows L F; [now exists [] |]. destruct rows as [| r rows]; [cbn in L; lia |]. cbn in F. apply Forall_cons_iff in F. destruct F as [F1 F2].
  cbn. apply Nat.leb_le in F1. rewrite F1. destruct (IH rows) as [rs ->]; [cbn in L; lia | exact F2 |]. cbn. eauto.
Qed.

(** The numbers of the names *)
Definition code (l : list pn) (w : str) : nat :=
  match NamesModel.index l w with Some i => if (num_MCMC l <=? i)%nat then O else S i | None => O end.
Lemma code_means l w : ordered l -> forallb digit w = false -> NoDup (names_of l) -> means l (Some (Some O)) true w [code l w].
Proof.
  intros Od D ND. unfold means, code. pose proof (NamesProofs3.index_first l w) as H. destruct (NamesModel.index l w) as [i |].
  - destruct H as (p & E & En). rewrite (ordered_base l i p Od E). destruct (der p) eqn:Dp.
    + right. split; [| right; split; [exact D | right; now exists O]]. intros q I Eq U. specialize (U eq_refl).
      assert (q = p) by (apply (names_inj l); try assumption; [now apply nth_error_In in E | congruence]). congruence.
    + left. exists i, p. repeat split; try assumption. intros _. exact Dp.
  - right. split; [| right; split; [exact D | right; now exists O]]. intros q I Eq. exfalso. apply H. rewrite <- Eq. now apply in_names.
Qed.
Lemma code_base l i p : ordered l -> NoDup (names_of l) -> nth_error l i = Some p -> der p = false -> forall w, code l w = S i <-> w = nm p.
Proof.
  intros Od ND E D w. unfold code. split.
  - pose proof (NamesProofs3.index_first l w) as H. destruct (NamesModel.index l w) as [k |]; [| discriminate]. destruct (num_MCMC l <=? k)%nat; [discriminate |].
    intro X. injection X as ->. destruct H as (q & Eq & En). congruence.
  - intros ->. rewrite (index_at l i p ND E), (ordered_base l i p Od E), D. reflexivity.
Qed.
Lemma code_le l w : (code l w <= num_MCMC l)%nat.
Proof. unfold code. destruct (NamesModel.index l w) as [i |]; [| lia]. destruct (Nat.leb_spec (num_MCMC l) i); lia. Qed.
Lemma code_nth l ws x i : nth x (map (code l) ws) O = S i -> exists w, nth_error ws x = Some w /\ code l w = S i.
Proof.
  intro E. destruct (nth_error ws x) as [w |] eqn:Ew.
  - exists w. split; [reflexivity |]. rewrite <- E. symmetry. apply nth_error_nth. now rewrite nth_error_map, Ew.
  - apply nth_error_None in Ew. rewrite nth_overflow in E by (now rewrite map_length). discriminate.
Qed.

(** ** The loop over the parameters *)
Lemma Reqb_spec a b : Reqb a b = true <-> a = b.
Proof. unfold Reqb. destruct (Req_EM_T a b); split; congruence. Qed.
Lemma cov_fold varying PWidth m0 k :
  let r := fold_left (cov_step varying PWidth) (seq 0 k) (m0, false) in
  (forall a b, fst r a b =
    if ((a <? k)%nat && negb (varying a)) || ((b <? k)%nat && negb (varying b)) then 0
    else if (a =? b)%nat && (a <? k)%nat && Reqb (m0 a a) 0 then PWidth a * PWidth a else m0 a b) /\
  snd r = existsb (fun i => varying i && Reqb (m0 i i) 0) (seq 0 k).
Proof.
  induction k as [| k IH].
  - cbn. split; [| reflexivity]. intros a b. now rewrite andb_false_r.
  - rewrite seq_S, fold_left_app, existsb_app. cbn [fold_left Nat.add existsb]. cbv zeta in *. destruct IH as [IH1 IH2].
    destruct (fold_left (cov_step varying PWidth) (seq 0 k) (m0, false)) as [m new]. cbn [fst snd] in *. rewrite <- IH2.
    assert (Ek : m k k = m0 k k). { rewrite IH1, Nat.ltb_irrefl. cbn. now rewrite andb_false_r. }
    assert (LT : forall a, (a <? S k)%nat = (a <? k)%nat || (a =? k)%nat).
    { intro a. destruct (Nat.ltb_spec a (S k)), (Nat.ltb_spec a k), (Nat.eqb_spec a k); cbn; lia || reflexivity. }
    assert (KK : (k <? k)%nat = false) by apply Nat.ltb_irrefl.
    unfold cov_step. rewrite Ek. destruct (varying k) eqn:V; cbn [andb]; rewrite ?andb_true_r, ?andb_false_r, ?orb_false_r.
    + destruct (Reqb (m0 k k) 0) eqn:Z; cbn [fst snd]; rewrite ?orb_true_r, ?orb_false_r; (split; [| reflexivity]); intros a b; rewrite ?setm_at, IH1, !LT.
      * destruct (Nat.eqb_spec a k) as [-> | Na]; destruct (Nat.eqb_spec b k) as [-> | Nb]; rewrite ?KK, ?V, ?Nat.eqb_refl, ?Z; cbn [andb orb negb]; try reflexivity;
          rewrite ?orb_false_r, ?andb_true_r, ?andb_false_r; try reflexivity.
        all: try (apply Nat.eqb_neq in Na). all: try (apply Nat.eqb_neq in Nb). all: rewrite ?(Nat.eqb_sym k b), ?Na, ?Nb; cbn [andb orb]; try reflexivity.
      * destruct (Nat.eqb_spec a k) as [-> | Na]; destruct (Nat.eqb_spec b k) as [-> | Nb]; rewrite ?KK, ?V, ?Nat.eqb_refl, ?Z; cbn [andb orb negb]; try reflexivity;
          rewrite ?orb_false_r, ?andb_true_r, ?andb_false_r; try reflexivity.
    + (split; [| reflexivity]). cbn [fst]. intros a b. rewrite IH1, !LT.
      destruct (Nat.eqb_spec a k) as [-> | Na]; destruct (Nat.eqb_spec b k) as [-> | Nb]; rewrite ?KK, ?V, ?Nat.eqb_refl; cbn [andb orb negb]; try reflexivity;
          rewrite ?orb_true_r, ?orb_false_r, ?andb_true_r, ?andb_false_r; try reflexivity.
Qed.

(** ** Quadratic forms *)
Lemma sum_ext {A} (f g : A -> R) l : (forall a, In a l -> f a = g a) -> fold_right Rplus 0 (map f l) = fold_right Rplus 0 (map g l).
Proof. induction l as [| a l IH]; cbn; intro H; [reflexivity |]. rewrite H by now left. rewrite IH; [reflexivity |]. intros b I. apply H. now right. Qed.
Lemma sum_plus {A} (f g : A -> R) l : fold_right Rplus 0 (map (fun a => f a + g a) l) = fold_right Rplus 0 (map f l) + fold_right Rplus 0 (map g l).
Proof. induction l as [| a l IH]; cbn; lra. Qed.
Lemma form2_ext m n l k : (forall p q, In p l -> In q k -> m (fst p) (fst q) = n (fst p) (fst q)) -> form2 m l k = form2 n l k.
Proof. intro H. unfold form2. apply sum_ext. intros p Ip. apply sum_ext. intros q Iq. now rewrite (H p q Ip Iq). Qed.
Lemma form2_plus m n l k : form2 (fun a b => m a b + n a b) l k = form2 m l k + form2 n l k.
Proof.
  unfold form2. rewrite <- sum_plus. apply sum_ext. intros p _. rewrite <- sum_plus. apply sum_ext. intros q _. ring.
Qed.
Definition pull (px : nat -> option nat) (l : list (nat * R)) : list (nat * R) :=
  flat_map (fun p => match px (fst p) with Some x => [(x, snd p)] | None => [] end) l.
Definition pulled (px : nat -> option nat) (F : nat -> nat -> R) : nat -> nat -> R :=
  fun a b => match px a, px b with Some x, Some y => F x y | _, _ => 0 end.
Lemma form_pull px F l : forall k, form2 (pulled px F) l k = form2 F (pull px l) (pull px k).
Proof.
  assert (G : forall p x k, px (fst p) = Some x -> fold_right Rplus 0 (map (fun q => snd p * snd q * pulled px F (fst p) (fst q)) k) =
    fold_right Rplus 0 (map (fun q => snd p * snd q * F x (fst q)) (pull px k))).
  { intros p x k E. induction k as [| q k IH]; [reflexivity |]. cbn [map fold_right pull flat_map]. fold (pull px k). rewrite IH. unfold pulled. rewrite E.
    destruct (px (fst q)) as [y |]; cbn; ring. }
  assert (Z : forall p k, px (fst p) = None -> fold_right Rplus 0 (map (fun q => snd p * snd q * pulled px F (fst p) (fst q)) k) = 0).
  { intros p k E. induction k as [| q k IH]; [reflexivity |]. cbn. rewrite IH. unfold pulled. rewrite E. ring. }
  intro k. induction l as [| p l IH]; [reflexivity |]. unfold form2 in *. cbn [map fold_right pull flat_map]. rewrite map_app.
  destruct (px (fst p)) as [x |] eqn:E.
  - cbn [map app fold_right]. rewrite (G p x k E). f_equal. exact IH.
  - cbn [map app fold_right]. rewrite (Z p k E), Rplus_0_l. exact IH.
Qed.
Lemma form_diag d l : NoDup (map fst l) ->
  form (fun a b => if (a =? b)%nat then d a else 0) l = fold_right Rplus 0 (map (fun p => snd p * snd p * d (fst p)) l).
Proof.
  intro ND. unfold form, form2. apply sum_ext. intros p I.
  assert (Z : forall k, ~ In (fst p) (map fst k) -> fold_right Rplus 0 (map (fun q => snd p * snd q * (if (fst p =? fst q)%nat then d (fst p) else 0)) k) = 0).
  { induction k as [| q k IH]; cbn; [reflexivity |]. intro N. rewrite IH by tauto. replace (fst p =? fst q)%nat with false; [ring |]. symmetry. apply Nat.eqb_neq. intro E. apply N. left. congruence. }
  revert ND I. induction l as [| q l IH]; [intros _ [] |]. cbn [map fold_right]. intros ND. apply NoDup_cons_iff in ND. destruct ND as [N1 N2]. intros [-> | I].
  - rewrite Z by exact N1. rewrite Nat.eqb_refl. ring.
  - rewrite (IH N2 I). replace (fst p =? fst q)%nat with false; [ring |]. symmetry. apply Nat.eqb_neq. intro E. apply N1. rewrite <- E. now apply in_map.
Qed.
Lemma sum_squares d l : (forall a, 0 <= d a) -> 0 <= fold_right Rplus 0 (map (fun p : nat * R => snd p * snd p * d (fst p)) l) /\
  (fold_right Rplus 0 (map (fun p : nat * R => snd p * snd p * d (fst p)) l) = 0 -> forall p, In p l -> d (fst p) <> 0 -> snd p = 0).
Proof.
  intro Hd. induction l as [| p l [IH1 IH2]]; cbn; [split; [lra | tauto] |].
  assert (S : 0 <= snd p * snd p * d (fst p)) by (apply Rmult_le_pos; [apply Rle_0_sqr | apply Hd]). split; [lra |].
  intros E q [-> | I] N.
  - assert (X : snd q * snd q * d (fst q) = 0) by lra. apply Rmult_integral in X. destruct X as [X | X]; [| contradiction]. apply Rmult_integral in X. tauto.
  - apply IH2; try assumption. lra.
Qed.
Lemma pull_vector px n l : (forall a b x, px a = Some x -> px b = Some x -> a = b) -> (forall a x, px a = Some x -> (x < n)%nat) ->
  NoDup (map fst l) -> vector n (pull px l).
Proof.
  intros Inj B ND. split.
  - induction l as [| p l IH]; [constructor |]. cbn [map] in ND. apply NoDup_cons_iff in ND. destruct ND as [N1 N2]. cbn [pull flat_map]. fold (pull px l).
    destruct (px (fst p)) as [x |] eqn:E; [| now apply IH]. cbn. constructor; [| now apply IH]. intro I. apply N1.
    apply in_map_iff in I. destruct I as ((x' & c) & Ex & I). cbn in Ex. subst x'. apply in_flat_map in I. destruct I as (q & Iq & Hq).
    destruct (px (fst q)) as [y |] eqn:Eq; [| destruct Hq]. destruct Hq as [Hq | []]. injection Hq as -> _. rewrite (Inj _ _ _ E Eq). now apply in_map.
  - intros i I. apply in_map_iff in I. destruct I as ((x & c) & <- & I). apply in_flat_map in I. destruct I as (q & Iq & Hq).
    destruct (px (fst q)) as [y |] eqn:Eq; [| destruct Hq]. destruct Hq as [Hq | []]. injection Hq as <- _. cbn. now apply (B (fst q)).
Qed.
Lemma pulled_definite px F d n : (forall a b x, px a = Some x -> px b = Some x -> a = b) -> (forall a x, px a = Some x -> (x < n)%nat) ->
  (forall a, 0 <= d a) -> let m := fun a b => pulled px F a b + (if (a =? b)%nat then d a else 0) in
  (semidefinite n F -> forall k, semidefinite k m) /\
  (definite n F -> (forall a, px a = None -> d a <> 0) -> forall k, definite k m).
Proof.
  intros Inj B D m. split.
  - intros S k l [ND _]. unfold form, m. rewrite form2_plus, form_pull. fold (form F (pull px l)). fold (form (fun a b => if (a =? b)%nat then d a else 0) l).
    rewrite (form_diag d l ND). pose proof (S (pull px l) (pull_vector px n l Inj B ND)). destruct (sum_squares d l D) as [H1 _]. lra.
  - intros S DN k l [ND _]. unfold form, m. rewrite form2_plus, form_pull. fold (form F (pull px l)). fold (form (fun a b => if (a =? b)%nat then d a else 0) l).
    rewrite (form_diag d l ND). destruct (S (pull px l) (pull_vector px n l Inj B ND)) as [S1 S2]. destruct (sum_squares d l D) as [H1 H2]. split; [lra |].
    intros E q I. destruct (px (fst q)) as [x |] eqn:Ex.
    + apply (S2 ltac:(lra) (x, snd q)). apply in_flat_map. exists q. split; [exact I |]. rewrite Ex. now left.
    + apply (H2 ltac:(lra) q I). now apply DN.
Qed.
