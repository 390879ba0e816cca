From Coq Require Import Reals ZArith Bool List Lia Lra.
From Verif Require Import BaoModel BaoSpec BaoProofs SnProofs WlModel WlSpec.
Import ListNotations.
Local Open Scope R_scope.

Lemma within_spec r x : within r x = true <-> fst r <= x <= snd r.
Proof. unfold within. destruct (Rle_dec (fst r) x), (Rle_dec x (snd r)); cbn; split; intro; try lra; try discriminate; reflexivity. Qed.
Lemma in_bins_spec m a b : in_bins m a b = true <-> (1 <= a <= m)%nat /\ (1 <= b <= m)%nat.
Proof. unfold in_bins. rewrite !andb_true_iff, !Nat.leb_le. lia. Qed.
(** what one line does *)
Definition line_ok (S : setup) (x : mline) : Prop := (1 <= th x <= nth_ S)%nat /\ (1 <= b1 x <= maxbin S)%nat /\ (1 <= b2 x <= maxbin S)%nat.
Lemma read_line_ok S i tp x st st' : read_line S i tp x st = Ok st' ->
  line_ok S x /\ cov_ix st' = (cov_ix st + 1)%nat /\
  (forall k, pairs st' k = if Nat.eqb k i then add_pair (pairs st i) (b1 x) (b2 x) else pairs st k) /\
  (forall t a b k, data_c st' t a b k = if Nat.eqb t (th x) && Nat.eqb a (b1 x) && Nat.eqb b (b2 x) && Nat.eqb k i then Some (dat x) else data_c st t a b k) /\
  ((selected S (i, tp, x) /\ used st' = used st ++ [((cov_ix st + 1)%nat, mkI i (b1 x) (b2 x) (th x))] /\ first_theta st' = Nat.min (th x) (first_theta st)) \/
   (~ selected S (i, tp, x) /\ used st' = used st /\ first_theta st' = first_theta st)).
Proof.
  unfold read_line. destruct (Nat.leb_spec 1 (th x)), (Nat.leb_spec (th x) (nth_ S)); cbn [negb andb]; try discriminate.
  destruct (Nat.ltb_spec (maxbin S ^ 2) (length (add_pair (pairs st i) (b1 x) (b2 x)))); [discriminate |].
  destruct (in_bins (maxbin S) (b1 x) (b2 x)) eqn:B; cbn [negb]; [| discriminate]. apply in_bins_spec in B.
  assert (L : line_ok S x) by (unfold line_ok; lia).
  destruct (want S tp) eqn:W; cbn [andb].
  - destruct (within (sel S tp (b1 x) (b2 x)) (theta S (th x))) eqn:I.
    + destruct (Nat.leb_spec (length (types S) * nth_ S * maxbin S ^ 2) (length (used st))); [discriminate |]. intro E. injection E as <-. split; [exact L |]. cbn [cov_ix pairs data_c used first_theta].
      repeat (split; [reflexivity |]). left. split; [split; [exact W | now apply within_spec] |]. split; reflexivity.
    + intro E. injection E as <-. split; [exact L |]. cbn [cov_ix pairs data_c used first_theta]. repeat (split; [reflexivity |]). right. split; [| split; reflexivity].
      intros (_ & Y). apply within_spec in Y. congruence.
  - intro E. injection E as <-. split; [exact L |]. cbn [cov_ix pairs data_c used first_theta]. repeat (split; [reflexivity |]). right. split; [intros (Y & _); congruence | split; reflexivity].
Qed.
(** reading of all lines *)
Definition good (S : setup) (ms : list (nat * nat * mline)) (st : rd) : Prop :=
  Forall (fun m => line_ok S (snd m)) ms /\ cov_ix st = length ms /\
  (exists ch, chosen (fun p => selected S (snd p)) (numbered ms) ch /\ used st = map (fun p => (fst p, item_of (snd p))) ch) /\
  (forall k a b, In (a, b) (pairs st k) <-> exists tp x, In (k, tp, x) ms /\ b1 x = a /\ b2 x = b) /\
  (forall t a b k, match data_c st t a b k with
                   | None => forall m, In m ms -> key_of m <> (k, a, b, t)
                   | Some v => exists l1 l2 m, ms = l1 ++ m :: l2 /\ key_of m = (k, a, b, t) /\ value_at m = v /\ forall m', In m' l2 -> key_of m' <> (k, a, b, t)
                   end) /\
  (forall u, In u (used st) -> (first_theta st <= i_th (snd u))%nat) /\ (first_theta st = nth_ S \/ exists u, In u (used st) /\ first_theta st = i_th (snd u)).
Lemma numbered_app {A} (l : list A) x : numbered (l ++ [x]) = numbered l ++ [((length l + 1)%nat, x)].
Proof.
  unfold numbered. rewrite app_length, seq_app. cbn [length seq]. assert (G : forall (a : list nat) (b : list A) c d, length a = length b -> combine (a ++ c) (b ++ d) = combine a b ++ combine c d).
  { induction a as [| y a IH]; intros b c d E; destruct b; try discriminate; [reflexivity |]. cbn. rewrite IH; [reflexivity | now injection E]. }
  rewrite G by apply seq_length. cbn [combine]. do 3 f_equal. lia.
Qed.
Lemma chosen_app {A} (P : A -> Prop) l l' m m' : chosen P l l' -> chosen P m m' -> chosen P (l ++ m) (l' ++ m').
Proof. induction 1; intro H'; cbn; [exact H' | apply chosen_yes; auto | apply chosen_no; auto]. Qed.
Lemma add_pair_In ps a b x : (1 <= a)%nat -> In x (add_pair ps a b) <-> In x ps \/ x = (a, b).
Proof.
  intro A. unfold add_pair. destruct (last ps (O, O)) as [la lb] eqn:L. destruct (Nat.eqb_spec la a) as [-> | N]; cbn [andb].
  - destruct (Nat.eqb_spec lb b) as [-> | N].
    + split; [auto |]. intros [H | ->]; [exact H |]. destruct ps as [| p ps]; [cbn in L; injection L; lia |].
      destruct (exists_last (l := p :: ps) ltac:(discriminate)) as (l' & y & E). rewrite E in *. rewrite last_last in L. subst y. apply in_or_app. right. now left.
    + rewrite in_app_iff. cbn. split; intros [H | H]; auto. destruct H as [<- | []]. now right.
  - rewrite in_app_iff. cbn. split; intros [H | H]; auto. destruct H as [<- | []]. now right.
Qed.
Lemma good_step S ms st i tp x st' : good S ms st -> read_line S i tp x st = Ok st' -> good S (ms ++ [(i, tp, x)]) st'.
Proof.
  intros (G1 & G2 & (ch & G3 & G4) & G5 & G6 & G7 & G8) H. apply read_line_ok in H. destruct H as (L & C & P & D & U).
  assert (USED : forall u, In u (used st') -> In u (used st) \/ (selected S (i, tp, x) /\ u = ((cov_ix st + 1)%nat, mkI i (b1 x) (b2 x) (th x)))).
  { intros u I. destruct U as [(Y & E & _) | (_ & E & _)]; rewrite E in I; [| auto]. apply in_app_or in I. destruct I as [I | [<- | []]]; auto. }
  unfold good. split; [apply Forall_app; split; [exact G1 | constructor; [exact L | constructor]] |].
  split; [rewrite C, G2, app_length; reflexivity |]. split.
  { rewrite numbered_app. destruct U as [(Y & E & _) | (N & E & _)].
    - exists (ch ++ [((length ms + 1)%nat, (i, tp, x))]). split; [apply chosen_app; [exact G3 |]; apply chosen_yes; [exact Y | constructor] |]. rewrite E, map_app, G4, G2. reflexivity.
    - exists (ch ++ []). split; [apply chosen_app; [exact G3 |]; apply chosen_no; [exact N | constructor] |]. rewrite app_nil_r, E. exact G4. }
  split.
  { intros k a b. rewrite P. destruct (Nat.eqb_spec k i) as [-> | NE].
    - rewrite add_pair_In by (destruct L; lia). rewrite G5. split.
      + intros [(tp' & x' & I & E) | E]; [exists tp', x'; split; [apply in_or_app; auto | exact E] | injection E as -> ->; exists tp, x; split; [apply in_or_app; right; now left | auto]].
      + intros (tp' & x' & I & E1 & E2). apply in_app_or in I. destruct I as [I | [I | []]]; [left; eauto | injection I as <- <-; right; congruence].
    - rewrite G5. split; intros (tp' & x' & I & E); exists tp', x'; (split; [| exact E]).
      + apply in_or_app. auto.
      + apply in_app_or in I. destruct I as [I | [I | []]]; [exact I | injection I as <- _ _; congruence]. }
  split.
  { intros t a b k. rewrite D. destruct (Nat.eqb t (th x) && Nat.eqb a (b1 x) && Nat.eqb b (b2 x) && Nat.eqb k i) eqn:Q.
    - rewrite !andb_true_iff, !Nat.eqb_eq in Q. destruct Q as (((-> & ->) & ->) & ->). exists ms, [], (i, tp, x). split; [reflexivity |]. split; [reflexivity |]. split; [reflexivity |]. intros m' [].
    - assert (NK : key_of (i, tp, x) <> (k, a, b, t)). { intro K. injection K as <- <- <- <-. rewrite !Nat.eqb_refl in Q. discriminate. }
      specialize (G6 t a b k). destruct (data_c st t a b k) as [v |].
      + destruct G6 as (l1 & l2 & m & E & K & V & N). exists l1, (l2 ++ [(i, tp, x)]), m. split; [rewrite E, <- app_assoc; reflexivity |]. split; [exact K |]. split; [exact V |]. intros m' I. apply in_app_or in I. destruct I as [I | [<- | []]]; auto.
      + intros m I. apply in_app_or in I. destruct I as [I | [<- | []]]; auto. }
  split.
  { intros u I. destruct U as [(Y & E & F) | (N & E & F)].
    - rewrite F. rewrite E in I. apply in_app_or in I. destruct I as [I | [<- | []]]; [specialize (G7 u I); lia | cbn; lia].
    - rewrite F. rewrite E in I. now apply G7. }
  destruct U as [(Y & E & F) | (N & E & F)].
  - right. destruct (Nat.le_gt_cases (th x) (first_theta st)) as [LE | GT].
    + exists ((cov_ix st + 1)%nat, mkI i (b1 x) (b2 x) (th x)). split; [rewrite E; apply in_or_app; right; now left |]. rewrite F, Nat.min_l by exact LE. reflexivity.
    + rewrite F, Nat.min_r by lia. destruct G8 as [G8 | (u & I & G8)]; [destruct L; lia |]. exists u. split; [rewrite E; apply in_or_app; auto | exact G8].
  - destruct G8 as [G8 | (u & I & G8)]; [left; congruence | right]. exists u. rewrite E, F. auto.
Qed.
Lemma good_file S i tp xs : forall ms st st', good S ms st -> read_file S i tp xs st = Ok st' -> good S (ms ++ map (fun x => (i, tp, x)) xs) st'.
Proof.
  induction xs as [| x xs IH]; intros ms st st' G H; cbn [read_file map] in *; [injection H as <-; now rewrite app_nil_r |].
  destruct (read_line S i tp x st) as [s1 | |] eqn:E; try discriminate. cbn [bind] in H. specialize (IH _ _ _ (good_step _ _ _ _ _ _ _ G E) H). now rewrite <- app_assoc in IH.
Qed.
Lemma good_files S file tps : forall i ms st st', good S ms st -> read_files S i tps file st = Ok st' ->
  good S (ms ++ concat (map (fun k => map (fun x => (k, nth (k - i) tps O, x)) (file k)) (seq i (length tps)))) st'.
Proof.
  induction tps as [| tp tps IH]; intros i ms st st' G H; cbn [read_files length seq map concat] in *; [injection H as <-; now rewrite app_nil_r |].
  destruct (read_file S i tp (file i) st) as [s1 | |] eqn:E; try discriminate. cbn [bind] in H. specialize (IH _ _ _ _ (good_file _ _ _ _ _ _ _ G E) H). rewrite <- app_assoc in IH.
  rewrite Nat.sub_diag. cbn [nth]. replace (i + 1)%nat with (Datatypes.S i) in IH by lia.
  rewrite (map_ext_in _ (fun k => map (fun x => (k, nth (k - i) (tp :: tps) O, x)) (file k))) in IH; [exact IH |].
  intros k K. apply in_seq in K. replace (k - i)%nat with (Datatypes.S (k - Datatypes.S i)) by lia. reflexivity.
Qed.
Lemma good_start S : good S [] (start S).
Proof.
  unfold good, start. cbn. split; [constructor |]. split; [reflexivity |]. split; [exists []; split; [constructor | reflexivity] |]. split; [intros k a b; split; [intros [] | intros (tp & x & [] & _)] |].
  split; [intros t a b k m [] |]. split; [intros u [] | now left].
Qed.
Lemma good_all S file st : read_files S 1 (types S) file (start S) = Ok st -> good S (listing (types S) file) st.
Proof. intro H. apply (good_files S file (types S) 1 [] (start S) st (good_start S)) in H. exact H. Qed.
Lemma chosen_In {A} (P : A -> Prop) l l' x : chosen P l l' -> (In x l' <-> In x l /\ P x).
Proof.
  induction 1 as [| y l l' Y H IH | y l l' N H IH]; cbn; [tauto | |].
  - rewrite IH. split; [intros [<- | (I & Q)]; auto | intros ([<- | I] & Q); auto].
  - rewrite IH. split; [intros (I & Q); auto | intros ([<- | I] & Q); [contradiction | auto]].
Qed.
Lemma numbered_In {A} (l : list A) k x : In (k, x) (numbered l) <-> (1 <= k)%nat /\ nth_error l (k - 1) = Some x.
Proof.
  unfold numbered. assert (G : forall s (l : list A), In (k, x) (combine (seq s (length l)) l) <-> (s <= k)%nat /\ nth_error l (k - s) = Some x).
  { clear l. intros s l. revert s. induction l as [| y l IH]; intro s; cbn [length seq combine In].
    - split; [intros [] | intros (_ & E); destruct (k - s)%nat; discriminate].
    - rewrite IH. split.
      + intros [E | (K & E)]; [injection E as <- <-; rewrite Nat.sub_diag; auto | split; [lia |]; replace (k - s)%nat with (Datatypes.S (k - Datatypes.S s)) by lia; exact E].
      + intros (K & E). destruct (Nat.eq_dec s k) as [-> | N]; [left; rewrite Nat.sub_diag in E; cbn in E; congruence | right; split; [lia |]]. replace (k - s)%nat with (Datatypes.S (k - Datatypes.S s)) in E by lia. exact E. }
  apply G.
Qed.
Lemma make_vector_map c u f : (forall p, In p u -> c (i_th (snd p)) (i_b1 (snd p)) (i_b2 (snd p)) (i_type (snd p)) = Some (f p)) -> make_vector c u = Ok (map f u).
Proof.
  induction u as [| [k x] u IH]; intro H; [reflexivity |]. cbn [make_vector map]. pose proof (H (k, x) (or_introl eq_refl)) as E. cbn [snd] in E. rewrite E. cbn [value_of bind]. rewrite IH; [reflexivity |]. intros; apply H; now right.
Qed.
Lemma make_vector_len c u v : make_vector c u = Ok v -> length v = length u.
Proof.
  revert v. induction u as [| [k x] u IH]; intros v H; cbn [make_vector] in H; [injection H as <-; reflexivity |].
  destruct (c _ _ _ _); cbn [value_of bind] in H; [| discriminate]. destruct (make_vector c u) as [t | |]; try discriminate. cbn [bind] in H. injection H as <-. cbn. f_equal. now apply IH.
Qed.
(** ** ranges of multipoles *)
Lemma sum_from_total n : forall a f, sum_from a n f = total (fun k => f (a + Z.of_nat k - 1)%Z) n.
Proof.
  induction n as [| n IH]; intros a f; [reflexivity |]. transitivity (f a + total (fun k => f (a + 1 + Z.of_nat k - 1)%Z) n); [cbn [sum_from]; rewrite IH; reflexivity |]. clear IH.
  assert (G : forall m g, g 1%nat + total (fun k => g (Datatypes.S k)) m = total g (Datatypes.S m)). { induction m as [| m IH]; intro g; cbn [total] in *; [ring |]. rewrite <- Rplus_assoc, IH. cbn [total]. ring. }
  rewrite <- (G n (fun k => f (a + Z.of_nat k - 1)%Z)). f_equal; [f_equal; lia |]. apply total_ext. intros k K. f_equal. lia.
Qed.
Lemma sum_from_zsum a b f : sum_from a (Z.to_nat (b - a + 1)) f = zsum a b f. Proof. apply sum_from_total. Qed.
Lemma total_split n m f : total f (n + m) = total f n + total (fun k => f (n + k)%nat) m.
Proof.
  induction m as [| m IH]; [rewrite Nat.add_0_r; cbn; ring |]. rewrite Nat.add_succ_r. cbn [total]. rewrite IH, Nat.add_succ_r. ring.
Qed.
Lemma zsum_split a m b f : (a <= m + 1)%Z -> (m <= b)%Z -> zsum a b f = zsum a m f + zsum (m + 1) b f.
Proof.
  intros A B. unfold zsum. replace (Z.to_nat (b - a + 1)) with (Z.to_nat (m - a + 1) + Z.to_nat (b - (m + 1) + 1))%nat by lia. rewrite total_split. f_equal. apply total_ext. intros k K. f_equal. lia.
Qed.
Lemma follow_le a b l : follow a b l -> (a - 1 <= b)%Z.
Proof. induction 1; lia. Qed.
Lemma follow_sum a b l f : follow a b l -> fold_right Rplus 0 (map (fun r => zsum (fst r) (snd r) f) l) = zsum a b f.
Proof.
  induction 1 as [a | a m b l H F IH]; cbn [map fold_right fst snd].
  - unfold zsum. replace (Z.to_nat (a - 1 - a + 1)) with O by lia. reflexivity.
  - rewrite IH. apply follow_le in F. symmetry. apply zsum_split; lia.
Qed.
Lemma follow_In a b l r : follow a b l -> In r l -> (a <= fst r <= snd r)%Z /\ (snd r <= b)%Z.
Proof.
  induction 1 as [a | a m b l H F IH]; intro I; [destruct I |]. pose proof (follow_le _ _ _ F). destruct I as [<- | I]; cbn [fst snd]; [lia |]. specialize (IH I). lia.
Qed.
Fixpoint nondec (x : Z) (l : list Z) : Prop := match l with [] => True | y :: l' => (x <= y)%Z /\ nondec y l' end.
Lemma last_any (t : list Z) : forall y a b, last (y :: t) a = last (y :: t) b.
Proof. induction t as [| w t IH]; intros y a b; [reflexivity | exact (IH w a b)]. Qed.
Lemma last_cons (e : Z) es d : last (e :: es) d = last es e.
Proof. destruct es as [| y es]; [reflexivity |]. change (last (e :: y :: es) d) with (last (y :: es) d). apply last_any. Qed.
Lemma ranges_follow : forall es lst, nondec lst es -> follow (lst + 1) (last es lst) (ranges (lst + 1) (dells lst es)).
Proof.
  induction es as [| e es IH]; intros lst H; cbn [dells last ranges].
  - replace lst with (lst + 1 - 1)%Z at 2 by lia. constructor.
  - destruct H as (H1 & H2).
    change (match es with [] => e | _ :: _ => last es lst end) with (last (e :: es) lst). rewrite last_cons. destruct (Z.eqb_spec e lst) as [-> | N]; [now apply IH |].
    cbn [ranges]. replace (lst + 1 + (e - lst) - 1)%Z with e by lia. apply follow_cons; [lia |]. replace (lst + 1 + (e - lst))%Z with (e + 1)%Z by lia. now apply IH.
Qed.
Lemma Int_part_mono x y : x <= y -> (Int_part x <= Int_part y)%Z.
Proof.
  intro H. destruct (base_Int_part x) as (A & _). destruct (base_Int_part y) as (_ & B). apply Z.lt_succ_r. apply lt_IZR. rewrite succ_IZR. lra.
Qed.
Lemma Int_part_IZR k : Int_part (IZR k) = k.
Proof. destruct (base_Int_part (IZR k)) as (A & B). assert (C : (Int_part (IZR k) <= k)%Z) by now apply le_IZR. assert (D : (k - 1 < Int_part (IZR k))%Z). { apply lt_IZR. rewrite minus_IZR. lra. } lia. Qed.
Lemma exp_le x y : x <= y -> exp x <= exp y.
Proof. intros [H | ->]; [left; now apply exp_increasing | right; reflexivity]. Qed.
Lemma ells_last lmax n : (1 <= lmax)%Z -> (1 <= n)%nat -> last (ells lmax n) 1%Z = lmax.
Proof.
  intros L N. unfold ells. destruct n as [| n]; [lia |]. rewrite seq_S, map_app. cbn [map]. rewrite last_last. replace (1 + n)%nat with (Datatypes.S n) by lia.
  replace (INR (Datatypes.S n) * (ln (IZR lmax) / INR (Datatypes.S n))) with (ln (IZR lmax)). { rewrite exp_ln; [apply Int_part_IZR | apply IZR_lt; lia]. } field. apply not_0_INR. lia.
Qed.
Lemma ells_nondec lmax n : (1 <= lmax)%Z -> (1 <= n)%nat -> nondec 1 (ells lmax n).
Proof.
  intros L N. unfold ells. set (d := ln (IZR lmax) / INR n). assert (D : 0 <= d).
  { unfold d. assert (0 < INR n) by (apply lt_0_INR; lia). assert (0 <= ln (IZR lmax)). { destruct (Z.eq_dec lmax 1) as [-> | NE]; [rewrite ln_1; lra |]. rewrite <- ln_1. left. apply ln_increasing; [lra | apply IZR_lt; lia]. }
    apply Rmult_le_pos; [assumption | left; now apply Rinv_0_lt_compat]. }
  assert (G : forall m s, nondec (Int_part (exp (INR s * d))) (map (fun i => Int_part (exp (INR i * d))) (seq (Datatypes.S s) m))).
  { induction m as [| m IH]; intro s; cbn [seq map nondec]; [exact I |]. split; [| apply IH]. apply Int_part_mono, exp_le. rewrite S_INR. nra. }
  specialize (G n O). replace (INR 0 * d) with 0 in G by (cbn; ring). rewrite exp_0 in G. change 1 with (IZR 1) in G. rewrite Int_part_IZR in G. exact G.
Qed.
(** ** the multipoles of the spectra *)
Lemma nint_bound x : x - / 2 < IZR (nint x) <= x + / 2.
Proof. unfold nint. destruct (archimed (x - / 2)) as (A & B). lra. Qed.
Lemma log_l_step acc i : 0 < acc -> acc <= 12 -> (log_l acc i < log_l acc (Datatypes.S i))%Z.
Proof.
  intros A B. unfold log_l. set (y := 1266 / 10000 * INR i / acc). set (x := 100 * exp y).
  assert (E : 100 * exp (1266 / 10000 * INR (Datatypes.S i) / acc) = x * exp (1266 / 10000 / acc)). { unfold x, y. rewrite Rmult_assoc, <- exp_plus. do 2 f_equal. rewrite S_INR. field. lra. }
  rewrite E. assert (X : 100 <= x). { unfold x. assert (exp 0 <= exp y). { apply exp_le. unfold y. pose proof (pos_INR i). apply Rmult_le_pos; [nra | left; now apply Rinv_0_lt_compat]. } rewrite exp_0 in H. lra. }
  set (e := 1266 / 10000 / acc). assert (EP : 1 / 100 < e). { unfold e. apply (Rmult_lt_reg_r acc); [exact A |]. unfold Rdiv. rewrite (Rmult_assoc _ (/ acc)), Rinv_l by lra. lra. }
  pose proof (exp_ineq1 e ltac:(lra)) as Q. assert (S1 : x + 1 < x * exp e) by nra.
  pose proof (nint_bound x). pose proof (nint_bound (x * exp e)). apply lt_IZR. lra.
Qed.
Lemma log_l_0 acc : log_l acc 0 = 100%Z.
Proof.
  unfold log_l. replace (1266 / 10000 * INR 0 / acc) with 0 by (cbn; unfold Rdiv; ring). rewrite exp_0, Rmult_1_r. pose proof (nint_bound 100) as (A & B).
  assert ((99 < nint 100)%Z) by (apply lt_IZR; lra). assert ((nint 100 < 101)%Z) by (apply lt_IZR; lra). lia.
Qed.
Lemma strictly_app l x m : strictly (l ++ [x]) -> strictly (x :: m) -> strictly (l ++ x :: m).
Proof.
  induction l as [| a l IH]; intros H1 H2; [exact H2 |]. destruct l as [| b l]; cbn [app] in *; [destruct H1; split; assumption |]. destruct H1 as (H & H1). split; [exact H | now apply IH].
Qed.
Lemma log_ls_strict acc lmax : 0 < acc -> acc <= 12 -> forall fuel lst i l, (lst < log_l acc i)%Z -> log_ls fuel acc lmax lst i = Some l -> strictly (lst :: l) /\ (lmax <= last l lst)%Z.
Proof.
  intros A B. induction fuel as [| f IH]; intros lst i l H E; cbn [log_ls] in E.
  - destruct (Z.ltb_spec lst lmax); [discriminate |]. injection E as <-. cbn. split; [exact I | lia].
  - destruct (Z.ltb_spec lst lmax); [| injection E as <-; cbn; split; [exact I | lia]]. destruct (log_ls f acc lmax (log_l acc i) (Datatypes.S i)) as [t |] eqn:Q; [| discriminate]. injection E as <-.
    destruct (IH _ _ _ (log_l_step acc i A B) Q) as (S1 & S2). split; [split; assumption |]. now rewrite last_cons.
Qed.
Lemma linear_strict s : strictly (linear_ls s).
Proof.
  unfold linear_ls. set (st := Z.max 1 s). assert (P : (1 <= st)%Z) by (unfold st; lia). generalize (Z.to_nat ((100 - s - 2) / st + 1)). intro n. generalize O.
  induction n as [| n IH]; intro k; [exact I |]. cbn [seq map]. specialize (IH (Datatypes.S k)). destruct n as [| n]; [exact I |]. cbn [seq map] in *. split; [nia | exact IH].
Qed.
Lemma linear_In s l : (0 <= s)%Z -> In l (linear_ls s) -> (2 <= l <= 100 - s)%Z.
Proof.
  intros HS I. unfold linear_ls in I. apply in_map_iff in I. destruct I as (k & <- & K). apply in_seq in K. set (st := Z.max 1 s) in *. assert (P : (1 <= st)%Z) by (unfold st; lia).
  assert (Q : (Z.of_nat k <= (100 - s - 2) / st)%Z) by lia. pose proof (Z.mul_div_le (100 - s - 2) st ltac:(lia)). nia.
Qed.
Lemma linear_first s : (s <= 98)%Z -> exists l, linear_ls s = 2%Z :: l.
Proof.
  intro H. unfold linear_ls. set (st := Z.max 1 s). assert (P : (1 <= st)%Z) by (unfold st; lia). assert (Q : (0 <= (100 - s - 2) / st)%Z) by (apply Z.div_pos; lia).
  destruct (Z.to_nat ((100 - s - 2) / st + 1)) as [| n] eqn:E; [lia |]. cbn [seq map]. eexists. f_equal. lia.
Qed.
