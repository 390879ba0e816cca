From Coq Require Import Reals ZArith Bool List Lia Lra.
From Verif Require Import McmcModel BaoModel BaoSpec BaoProofs SnModel SnSpec.
Import ListNotations.
Local Open Scope R_scope.

(** bilinear forms *)
Definition bf (n : nat) (W : nat -> nat -> R) (u v : nat -> R) : R := total (fun i => total (fun j => u i * W i j * v j) n) n.
Lemma total_plus n f g : total (fun i => f i + g i) n = total f n + total g n.
Proof. induction n as [| n IH]; cbn [total]; [ring |]. rewrite IH. ring. Qed.
Lemma total_swap n m f : total (fun i => total (fun j => f i j) m) n = total (fun j => total (fun i => f i j) n) m.
Proof.
  induction n as [| n IH]; cbn [total]; [symmetry; apply total_0; reflexivity |]. rewrite IH, <- total_plus. reflexivity.
Qed.
Lemma bf_sym n W u v : symmetric n W -> bf n W u v = bf n W v u.
Proof. intro S. unfold bf. rewrite total_swap. apply total_ext. intros j J. apply total_ext. intros i I. rewrite (S i j I J). ring. Qed.
Lemma bf_lin_r n W u v v' a b : bf n W u (fun i => a * v i + b * v' i) = a * bf n W u v + b * bf n W u v'.
Proof.
  unfold bf. rewrite <- !total_scale, <- total_plus. apply total_ext. intros i I. rewrite <- !total_scale, <- total_plus. apply total_ext. intros j J. ring.
Qed.
Lemma bf_lin_l n W u u' v a b : bf n W (fun i => a * u i + b * u' i) v = a * bf n W u v + b * bf n W u' v.
Proof.
  unfold bf. rewrite <- !total_scale, <- total_plus. apply total_ext. intros i I. rewrite <- !total_scale, <- total_plus. apply total_ext. intros j J. ring.
Qed.
Lemma bf_ext n W W' u u' v v' : (forall i j, (1 <= i <= n)%nat -> (1 <= j <= n)%nat -> W i j = W' i j) -> (forall i, (1 <= i <= n)%nat -> u i = u' i) -> (forall i, (1 <= i <= n)%nat -> v i = v' i) -> bf n W u v = bf n W' u' v'.
Proof. intros E EU EV. unfold bf. apply total_ext. intros i I. apply total_ext. intros j J. now rewrite E, EU, EV. Qed.
Lemma bf_form n W v : bf n W v v = form n W v. Proof. reflexivity. Qed.
(** (x u + y v + z w) with itself *)
Lemma bf_square2 n W u v a b : symmetric n W -> bf n W (fun i => a * u i + b * v i) (fun i => a * u i + b * v i) = a * a * bf n W u u + 2 * a * b * bf n W u v + b * b * bf n W v v.
Proof. intro S. rewrite bf_lin_l, !bf_lin_r, (bf_sym n W v u S). ring. Qed.

(** the sums of the code as forms *)
Lemma MulVec_total n W v i : symmetric n W -> (1 <= i <= n)%nat -> MulVecSymm n W v i = total (fun j => W i j * v j) n.
Proof.
  intros S I. unfold MulVecSymm. rewrite sum1_total. apply total_ext. intros j J. destruct (Nat.le_gt_cases i j).
  - now rewrite Nat.min_l, Nat.max_r by lia.
  - rewrite Nat.min_r, Nat.max_l by lia. rewrite (S j i) by lia. reflexivity.
Qed.
Lemma dot_bf n W u v : symmetric n W -> dot n u (MulVecSymm n W v) = bf n W u v.
Proof. intro S. unfold dot, bf. rewrite sum1_total. apply total_ext. intros i I. rewrite MulVec_total by assumption. rewrite <- total_scale. apply total_ext. intros. ring. Qed.
Lemma dot_comm n u v : dot n u v = dot n v u.
Proof. unfold dot. rewrite !sum1_total. apply total_ext. intros. ring. Qed.
Lemma total_S_left n f g : total (fun i => total (g i) (S n) + f i) n = total (fun i => total (g i) n) n + total (fun i => g i (S n)) n + total f n.
Proof. rewrite total_plus. cbn [total]. rewrite total_plus. ring. Qed.
Lemma half_sum n W : symmetric n W -> sum1 n (fun i => W i i + 2 * sum1 (i - 1) (fun k => W k i)) = bf n W (fun _ => 1) (fun _ => 1).
Proof.
  rewrite sum1_total. unfold bf. induction n as [| n IH]; intro S; [reflexivity |].
  assert (S' : symmetric n W) by (intros i j I J; apply S; lia). cbn [total]. rewrite (total_plus n (fun i => total (fun j => 1 * W i j * 1) n) (fun i => 1 * W i (Datatypes.S n) * 1)), IH by exact S'. rewrite sum1_total. replace (Datatypes.S n - 1)%nat with n by lia.
  assert (E1 : total (fun i => 1 * W i (Datatypes.S n) * 1) n = total (fun k => W k (Datatypes.S n)) n) by (apply total_ext; intros; ring).
  assert (E2 : total (fun j => 1 * W (Datatypes.S n) j * 1) n = total (fun k => W k (Datatypes.S n)) n) by (apply total_ext; intros j J; rewrite (S j (Datatypes.S n)) by lia; ring).
  rewrite E1, E2. ring.
Qed.
Definition diagm (w : nat -> R) (i j : nat) : R := if Nat.eqb i j then w i else 0.
Lemma diagm_sym n w : symmetric n (diagm w).
Proof. intros i j _ _. unfold diagm. rewrite (Nat.eqb_sym j i). destruct (Nat.eqb_spec i j) as [-> |]; reflexivity. Qed.
Lemma bf_diag n w u v : bf n (diagm w) u v = total (fun i => w i * (u i * v i)) n.
Proof.
  unfold bf. apply total_ext. intros i I. rewrite (total_one n _ i I).
  - unfold diagm. rewrite Nat.eqb_refl. ring.
  - intros j J N. unfold diagm. assert (Nat.eqb i j = false) as -> by (apply Nat.eqb_neq; lia). ring.
Qed.
Definition one : nat -> R := fun _ => 1.
Lemma margs_full_bf n W d two : symmetric n W -> margs_full n W d two =
  match two with
  | Some (A1, A2) => mkM (bf n W d d) (bf n W d A1) (bf n W d A2) (bf n W A1 A2) (bf n W A1 A1) (bf n W A2 A2)
  | None => mkM (bf n W d d) (bf n W d one) 0 0 (bf n W one one) 0
  end.
Proof.
  intro S. unfold margs_full. destruct two as [[A1 A2] |]; f_equal; rewrite ?(dot_comm n (MulVecSymm n W _)), ?dot_bf by exact S; try reflexivity; try (apply bf_sym, S).
  - transitivity (dot n one (MulVecSymm n W d)); [unfold dot; rewrite !sum1_total; apply total_ext; intros; unfold one; ring |]. rewrite dot_bf by exact S. apply bf_sym, S.
  - apply half_sum, S.
Qed.
Lemma margs_diag_bf n w d two : (forall A1 A2, two = Some (A1, A2) -> split_sets n A1 A2) -> margs_diag n w d two =
  match two with
  | Some (A1, A2) => mkM (bf n (diagm w) d d) (bf n (diagm w) d A1) (bf n (diagm w) d A2) (bf n (diagm w) A1 A2) (bf n (diagm w) A1 A1) (bf n (diagm w) A2 A2)
  | None => mkM (bf n (diagm w) d d) (bf n (diagm w) d one) 0 0 (bf n (diagm w) one one) 0
  end.
Proof.
  intro SP. unfold margs_diag. rewrite !bf_diag. destruct two as [[A1 A2] |].
  - destruct (SP A1 A2 eq_refl) as (SP1 & _). rewrite ?bf_diag, !sum1_total. f_equal; try (apply total_ext; intros; ring).
    + symmetry. apply total_0. intros i I. destruct (SP1 i I) as [(-> & ->) | (-> & ->)]; ring.
    + apply total_ext. intros i I. destruct (SP1 i I) as [(-> & _) | (-> & _)]; ring.
    + apply total_ext. intros i I. destruct (SP1 i I) as [(_ & ->) | (_ & ->)]; ring.
  - rewrite ?bf_diag, !sum1_total. f_equal; apply total_ext; intros; unfold one; ring.
Qed.
(** completing squares *)
Lemma chi2_one_square n W r e m : symmetric n W -> bf n W one one <> 0 ->
  chi2_one n W r m = bf n W (fun i => r i - e) (fun i => r i - e) - bf n W (fun i => r i - e) one * bf n W (fun i => r i - e) one / bf n W one one
    + bf n W one one * (m - e - bf n W (fun i => r i - e) one / bf n W one one) ^ 2.
Proof.
  intros S N. unfold chi2_one. rewrite <- bf_form. rewrite (bf_ext n W W _ (fun i => 1 * (r i - e) + (e - m) * one i) _ (fun i => 1 * (r i - e) + (e - m) * one i)); try (intros; unfold one; ring); auto.
  rewrite (bf_square2 n W (fun i => r i - e) one 1 (e - m) S). field. exact N.
Qed.
Lemma bf_square3 n W u v w a b c : symmetric n W -> bf n W (fun i => a * u i + (b * v i + c * w i)) (fun i => a * u i + (b * v i + c * w i)) =
  a * a * bf n W u u + 2 * a * b * bf n W u v + 2 * a * c * bf n W u w + b * b * bf n W v v + 2 * b * c * bf n W v w + c * c * bf n W w w.
Proof.
  intro S. rewrite (bf_ext n W W _ (fun i => a * u i + 1 * (b * v i + c * w i)) _ (fun i => a * u i + 1 * (b * v i + c * w i))); try (intros; ring); auto.
  rewrite bf_square2, bf_square2, bf_lin_r by exact S. ring.
Qed.
Lemma chi2_two_square n W A1 A2 r e m1 m2 : symmetric n W -> (forall i, (1 <= i <= n)%nat -> A1 i + A2 i = 1) ->
  let d := fun i => r i - e in let A := bf n W d d in let B := bf n W d A1 in let C := bf n W d A2 in let D := bf n W A1 A2 in let E := bf n W A1 A1 in let F := bf n W A2 A2 in
  E <> 0 -> F - D * D / E <> 0 ->
  chi2_two n W A1 A2 r m1 m2 = (A - C * C / (F - D * D / E) - B * B * F / (E * (F - D * D / E)) + 2 * B * C * D / (E * (F - D * D / E)))
    + E * ((m1 - e) + D / E * (m2 - e) - B / E) ^ 2 + (F - D * D / E) * ((m2 - e) - (C - D * B / E) / (F - D * D / E)) ^ 2.
Proof.
  intros S SP d A B C D E F NE NG. unfold chi2_two. rewrite <- bf_form.
  rewrite (bf_ext n W W _ (fun i => 1 * d i + ((e - m1) * A1 i + (e - m2) * A2 i)) _ (fun i => 1 * d i + ((e - m1) * A1 i + (e - m2) * A2 i))); auto;
    try (intros i I; unfold d; specialize (SP i I); replace (A2 i) with (1 - A1 i) by lra; ring).
  rewrite (bf_square3 n W d A1 A2 1 (e - m1) (e - m2) S). fold A B C D E F. field. split; [exact NE |]. intro Q. apply NG. replace (F - D * D / E) with ((F * E - D * D) / E) by (field; exact NE). rewrite Q. unfold Rdiv. ring.
Qed.
(** positive forms *)
Lemma positive_one n W : (1 <= n)%nat -> positive n W -> 0 < bf n W one one.
Proof. intros N P. apply (P one). exists 1%nat. split; [lia | unfold one; lra]. Qed.
Lemma positive_two n W A1 A2 : symmetric n W -> positive n W -> split_sets n A1 A2 -> 0 < bf n W A1 A1 /\ 0 < bf n W A2 A2 - bf n W A1 A2 * bf n W A1 A2 / bf n W A1 A1.
Proof.
  intros S P (SP & (i1 & I1 & E1) & (i2 & I2 & E2)). assert (PE : 0 < bf n W A1 A1) by (apply (P A1); exists i1; split; [exact I1 | rewrite E1; lra]). split; [exact PE |].
  set (q := bf n W A1 A2 / bf n W A1 A1). assert (PF : 0 < bf n W (fun i => - q * A1 i + 1 * A2 i) (fun i => - q * A1 i + 1 * A2 i)).
  { apply (P (fun i => - q * A1 i + 1 * A2 i)). exists i2. split; [exact I2 |]. destruct (SP i2 I2) as [(_ & A) | (A & _)]; [lra |]. rewrite A, E2. lra. }
  rewrite bf_square2 in PF by exact S. replace (bf n W A2 A2 - bf n W A1 A2 * bf n W A1 A2 / bf n W A1 A1) with (- q * - q * bf n W A1 A1 + 2 * - q * 1 * bf n W A1 A2 + 1 * 1 * bf n W A2 A2); [exact PF |].
  unfold q. field. lra.
Qed.
Lemma positive_diag n w : (forall i, (1 <= i <= n)%nat -> 0 < w i) -> positive n (diagm w).
Proof.
  intros P v (k & K & N). rewrite <- bf_form, bf_diag.
  assert (G : forall m, (m <= n)%nat -> 0 <= total (fun i => w i * (v i * v i)) m /\ ((k <= m)%nat -> 0 < total (fun i => w i * (v i * v i)) m)).
  { induction m as [| m IH]; intro M; cbn [total]; [split; [lra | lia] |]. destruct IH as (I1 & I2); [lia |]. assert (0 <= w (S m) * (v (S m) * v (S m))) by (apply Rmult_le_pos; [apply Rlt_le, P; lia | apply Rle_0_sqr]).
    split; [lra |]. intro KM. destruct (Nat.eq_dec k (S m)) as [<- | NK]; [| specialize (I2 ltac:(lia)); lra].
    assert (0 < w k * (v k * v k)) by (apply Rmult_lt_0_compat; [apply P; lia | apply (Rsqr_pos_lt _ N)]). lra. }
  apply (G n); lia.
Qed.
(** finish *)
Lemma twopi_pos : 0 < 1 / twopi. Proof. unfold twopi. pose proof PI_RGT_0. apply Rmult_lt_0_compat; [lra | apply Rinv_0_lt_compat; lra]. Qed.
Lemma rlog_pos x : 0 < x -> rlog x = Ok (ln x). Proof. intro. unfold rlog. destruct (Rlt_dec 0 x); [reflexivity | lra]. Qed.
Lemma rdiv_ok x y : y <> 0 -> rdiv x y = Ok (x / y). Proof. intro. unfold rdiv. destruct (Req_EM_T y 0); [contradiction | reflexivity]. Qed.
Lemma finish_one m : 0 < mE m -> finish false m = Ok ((mA m - mB m * mB m / mE m + ln (mE m / twopi)) / 2).
Proof.
  intro E. unfold finish. rewrite rlog_pos by (apply Rmult_lt_0_compat; [exact E | exact twopi_pos]). cbn [bind]. rewrite rdiv_ok by lra. cbn [bind]. f_equal. unfold Rdiv. rewrite Rmult_1_l. ring.
Qed.
Lemma finish_two m : 0 < mE m -> 0 < mF m - mD m * mD m / mE m -> let G := mF m - mD m * mD m / mE m in
  finish true m = Ok ((mA m - mC m * mC m / G - mB m * mB m * mF m / (mE m * G) + 2 * mB m * mC m * mD m / (mE m * G) + (ln (mE m / twopi) + ln (G / twopi))) / 2).
Proof.
  intros E PG G. unfold finish. rewrite rdiv_ok by lra. cbn [bind]. fold G in PG |- *. destruct (Rle_dec G 0); [lra |].
  rewrite !rlog_pos by (apply Rmult_lt_0_compat; [assumption | exact twopi_pos]). cbn [bind]. f_equal. unfold Rdiv. rewrite !Rmult_1_l. ring.
Qed.
Lemma from_upper_sym n W : symmetric n (from_upper W).
Proof. intros i j _ _. unfold from_upper. now rewrite Nat.min_comm, Nat.max_comm. Qed.
Lemma MulVec_from_upper n W v i : MulVecSymm n W v i = MulVecSymm n (from_upper W) v i.
Proof.
  unfold MulVecSymm. rewrite !sum1_total. apply total_ext. intros j _. unfold from_upper. f_equal. f_equal; lia.
Qed.
Lemma dot_ext n u u' v v' : (forall i, u i = u' i) -> (forall i, v i = v' i) -> dot n u v = dot n u' v'.
Proof. intros E E'. unfold dot. rewrite !sum1_total. apply total_ext. intros. now rewrite E, E'. Qed.
Lemma margs_from_upper n W d two : margs_full n W d two = margs_full n (from_upper W) d two.
Proof.
  unfold margs_full. destruct two as [[A1 A2] |]; f_equal; try (apply dot_ext; intro; try reflexivity; apply MulVec_from_upper).
  - rewrite !sum1_total. apply total_ext. intros. apply MulVec_from_upper.
  - rewrite !sum1_total. apply total_ext. intros i I. rewrite !sum1_total. f_equal; [unfold from_upper; now rewrite Nat.min_id, Nat.max_id |]. f_equal. apply total_ext. intros k K.
    unfold from_upper. rewrite Nat.min_l, Nat.max_r by lia. reflexivity.
Qed.
(** the whole likelihood by forms *)
Lemma like_forms inv C n s pre two alpha beta lum W : (1 <= n)%nat -> (forall i, (1 <= i <= n)%nat -> 0 < diag_var alpha beta pre s i) -> weights inv C n s pre alpha beta W ->
  (forall A1 A2, two = Some (A1, A2) -> split_sets n A1 A2) ->
  exists e, let d := fun i => residual alpha beta s lum i - e in symmetric n W /\
  alpha_beta_like inv C n s pre two alpha beta lum = finish (has two)
    match two with
    | Some (A1, A2) => mkM (bf n W d d) (bf n W d A1) (bf n W d A2) (bf n W A1 A2) (bf n W A1 A1) (bf n W A2 A2)
    | None => mkM (bf n W d d) (bf n W d one) 0 0 (bf n W one one) 0
    end.
Proof.
  intros N P WT SP. set (w := fun i => 1 / diag_var alpha beta pre s i). assert (PW : forall i, (1 <= i <= n)%nat -> 0 < w i).
  { intros i I. unfold w. apply Rmult_lt_0_compat; [lra | apply Rinv_0_lt_compat, P, I]. }
  assert (PS : 0 < sum1 n w). { pose proof (positive_one n (diagm w) N (positive_diag n w PW)) as Q. rewrite bf_diag in Q. rewrite sum1_total. erewrite total_ext; [exact Q |]. intros. unfold one. ring. }
  exists (estimated n s lum w). cbn zeta. assert (SY : symmetric n W).
  { destruct WT as [(_ & ->) | (_ & U & _ & ->)]; [apply (diagm_sym n w) | apply from_upper_sym]. }
  split; [exact SY |]. unfold alpha_beta_like. fold w.
  assert (existsb (fun i => if Req_EM_T (diag_var alpha beta pre s i) 0 then true else false) (seq 1 n) = false) as ->.
  { apply not_true_is_false. intro X. apply existsb_exists in X as (i & I & X). apply in_seq in I. specialize (P i ltac:(lia)). destruct (Req_EM_T (diag_var alpha beta pre s i) 0); [lra | discriminate]. }
  destruct (Req_EM_T (sum1 n w) 0); [lra |]. cbn [orb].
  assert (ED : forall i, diffmag alpha beta s lum (estimated n s lum w) i = residual alpha beta s lum i - estimated n s lum w) by (intro i; unfold diffmag, residual; ring).
  set (d := fun i => residual alpha beta s lum i - estimated n s lum w).
  destruct WT as [(-> & EW) | (-> & U & EU & EW)].
  - assert (EW' : W = diagm w) by exact EW. rewrite EW' in *. rewrite margs_diag_bf by exact SP. f_equal.
    destruct two as [[A1 A2] |]; f_equal; apply bf_ext; intros; try reflexivity; apply ED.
  - rewrite EU, margs_from_upper, <- EW, margs_full_bf by exact SY. f_equal. destruct two as [[A1 A2] |]; f_equal; apply bf_ext; intros; try reflexivity; apply ED.
Qed.

(** reading *)
Lemma take_all xs : forall k more acc, (k <= length xs)%nat -> take_items false k (map Num xs ++ more) acc = Some (O, acc ++ firstn k xs, false).
Proof.
  induction xs as [| x xs IH]; intros k more acc K; destruct k as [| k]; cbn [length] in K; try lia; cbn [take_items map app firstn]; rewrite ?app_nil_r; try reflexivity.
  rewrite IH by lia. rewrite <- app_assoc. reflexivity.
Qed.
Lemma take_some xs : forall k acc, (length xs < k)%nat -> take_items false k (map Num xs) acc = Some ((k - length xs)%nat, acc ++ xs, false).
Proof.
  induction xs as [| x xs IH]; intros k acc K; destruct k as [| k]; cbn [length] in K; try lia; cbn [take_items map].
  - rewrite app_nil_r. reflexivity.
  - rewrite IH by lia. rewrite <- app_assoc. reflexivity.
Qed.
Lemma READ_full pre xs more rest k : (k <= length xs)%nat -> READ (pre ++ sn_line xs more :: rest) (length pre) (S k) = Good (firstn k xs) (S (length pre)).
Proof.
  intro K. unfold READ. rewrite skipn_app, skipn_all, Nat.sub_diag. cbn [app skipn read_items words_of sn_line take_items]. rewrite take_all by exact K. reflexivity.
Qed.
(** a line that is too short: the next record begins with a text *)
Definition starts_text (r : rec) : Prop := exists ws, words_of r = Txt :: ws.
Lemma READ_short pre xs rest k : (length xs < k)%nat -> match rest with [] => True | r :: _ => starts_text r end ->
  READ (pre ++ sn_line xs [] :: rest) (length pre) (S k) = match rest with [] => End (S (S (length pre))) | _ => Err (S (S (length pre))) end.
Proof.
  intros K T. unfold READ. rewrite skipn_app, skipn_all, Nat.sub_diag. cbn [app skipn read_items words_of sn_line take_items]. rewrite app_nil_r, take_some by exact K. cbn [app].
  destruct (k - length xs)%nat as [| k'] eqn:EK; [lia |]. destruct rest as [| r rest]; [reflexivity |]. cbn [read_items]. destruct T as (ws & ->). cbn [take_items]. reflexivity.
Qed.
Lemma tells_text k ex f l : tells k ex f l -> match f with [] => True | r :: _ => starts_text r end.
Proof. intro T. destruct T; [exact I | now exists [] | eexists; reflexivity]. Qed.
