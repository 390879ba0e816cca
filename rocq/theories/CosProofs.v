From Coq Require Import Reals List Bool Arith Lia Lra.
From Verif Require Import McmcModel CosModel CosSpec.
Import ListNotations.
Local Open Scope R_scope.

Lemma cmb_ext c c' : slow c = slow c' -> base c = base c' -> initp c = initp c' -> zre c = zre c' -> c = c'.
Proof. destruct c, c'. unfold slow. cbn. intro E. injection E. intros. subst. reflexivity. Qed.
Lemma for_h_twice c a b : for_h (for_h c a) b = for_h c b.
Proof. reflexivity. Qed.
Lemma slow_for_h c c' H : slow c = slow c' -> slow (for_h c H) = slow (for_h c' H).
Proof. destruct c, c'. unfold slow, for_h. cbn. intro E. injection E. intros. subst. reflexivity. Qed.
Lemma slow_zre c z : slow (set_zre c z) = slow c.
Proof. reflexivity. Qed.

Lemma bisect_sim Theta : slow_only Theta -> forall n c1 c2 b t last DA, (forall H, slow (for_h c1 H) = slow (for_h c2 H)) ->
  match bisect Theta n c1 b t last DA, bisect Theta n c2 b t last DA with
  | None, None => True
  | Some r1, Some r2 => slow r1 = slow r2 /\ base r1 = base c1 /\ initp r1 = initp c1 /\ base r2 = base c2 /\ initp r2 = initp c2
  | _, _ => False
  end.
Proof.
  intros HT. induction n as [| n IH]; intros c1 c2 b t last DA H; [exact I |]. cbn [bisect]. rewrite (HT _ _ (H ((b + t) / 2))).
  set (d := Theta (for_h c2 ((b + t) / 2))). destruct (if Rlt_dec d DA then ((b + t) / 2, t) else (b, (b + t) / 2)) as [b' t'].
  destruct (Rlt_dec (Rabs (d - last)) 1e-7); [split; [apply H |]; cbn; auto |].
  specialize (IH (for_h c1 ((b + t) / 2)) (for_h c2 ((b + t) / 2)) b' t' d DA). cbn [base initp for_h] in IH. apply IH. intro K. rewrite !for_h_twice. apply H.
Qed.
Lemma P_hard p p' : firstn num_hard (base_of p) = firstn num_hard (base_of p') -> forall i, (1 <= i <= 16)%nat -> P p i = P p' i.
Proof.
  intros E i Hi. unfold base_of, num_theory, num_hard in E. cbn [seq map firstn] in E. injection E. intros.
  do 17 (destruct i as [| i]; [first [lia | assumption] |]). lia.
Qed.
Lemma eqb_list_true a : forall b, eqb_list a b = true <-> a = b.
Proof.
  induction a as [| x a IH]; intros [| y b]; cbn; split; intro E; try discriminate; try reflexivity.
  - apply andb_prop in E. destruct E as [E1 E2]. destruct (Req_EM_T x y); [| discriminate]. f_equal; [assumption | now apply IH].
  - injection E as -> ->. rewrite (proj2 (IH b) eq_refl). destruct (Req_EM_T y y); [reflexivity | contradiction].
Qed.
Lemma fresh_hit bbn deg BBN Theta Zre Hmin Hmax n p p' c c' r : slow_only Theta -> slow_only Zre ->
  fresh bbn deg BBN Theta Zre Hmin Hmax n p c = Some (r, true) -> firstn num_hard (base_of p) = firstn num_hard (base_of p') ->
  fresh bbn deg BBN Theta Zre Hmin Hmax n p' c' = Some (SetFast p' (set_base p' r), true) /\ base r = base_of p.
Proof.
  intros HT HZ F E. pose proof (P_hard p p' E) as EP. unfold fresh in *.
  destruct (first_time bbn deg BBN p (set_base p c)) as [c1 e1] eqn:F1. destruct (first_time bbn deg BBN p' (set_base p' c')) as [c2 e2] eqn:F2.
  destruct e1; [discriminate |].
  assert (K : e2 = false /\ (forall H, slow (for_h c1 H) = slow (for_h c2 H)) /\ base c1 = base_of p /\ base c2 = base_of p' /\ initp c2 = fast_of p' /\ initp c1 = fast_of p).
  { unfold first_time in F1, F2. rewrite !(EP 1%nat), !(EP 2%nat), !(EP 4%nat), !(EP 5%nat), !(EP 6%nat), !(EP 7%nat), !(EP 8%nat), !(EP 9%nat), !(EP 10%nat), !(EP 11%nat), !(EP 12%nat), !(EP 13%nat), !(EP 14%nat), !(EP 15%nat), !(EP 16%nat) in F1 by lia.
    destruct (if bbn then BBN (P p' 1) (P p' 10 - std_neff) else Some (P p' 11)) as [y |]; [| injection F1 as _ F1; rewrite orb_true_r in F1; discriminate].
    apply pair_equal_spec in F1. destruct F1 as [F1 F1e]. apply pair_equal_spec in F2. destruct F2 as [F2 F2e].
    split; [rewrite <- F2e; exact F1e |]. subst c1 c2. split; [intro H; reflexivity |]. repeat split; reflexivity. }
  destruct K as (-> & K1 & K2 & K3 & K4 & K5). rewrite <- (EP 3%nat) by lia.
  rewrite <- (HT _ _ (K1 Hmin)). rewrite !for_h_twice in *. rewrite <- (HT _ _ (K1 Hmax)).
  destruct ((if Rlt_dec (P p 3 / 100) (Theta (for_h c1 Hmin)) then true else false) || (if Rlt_dec (Theta (for_h c1 Hmax)) (P p 3 / 100) then true else false)); [discriminate |].
  pose proof (bisect_sim Theta HT n (for_h c1 Hmax) (for_h c2 Hmax) Hmin Hmax (-1) (P p 3 / 100)) as B. 
  destruct (bisect Theta n (for_h c1 Hmax) Hmin Hmax (-1) (P p 3 / 100)) as [r1 |]; [| discriminate].
  destruct (bisect Theta n (for_h c2 Hmax) Hmin Hmax (-1) (P p 3 / 100)) as [r2 |]; [| exfalso; apply B; intro H; rewrite !for_h_twice; apply K1].
  destruct B as (B1 & B2 & B3 & B4 & B5); [intro H; rewrite !for_h_twice; apply K1 |]. injection F as <-.
  split; [| cbn; rewrite B2; exact K2]. f_equal. f_equal. apply cmb_ext; cbn.
  - rewrite slow_zre, <- B1. reflexivity.
  - rewrite B4. exact K3.
  - rewrite B5. exact K4.
  - rewrite (HZ _ _ B1). assert (T : tau r1 = tau r2) by (unfold slow in B1; injection B1; auto). now rewrite T.
Qed.

Section Bisection.
  Variables (Theta : cmb -> R) (c0 : cmb).
  Let D (H : R) := Theta (for_h c0 H).
  Lemma bisect_inv : forall n c b t last DA r, (forall H, for_h c H = for_h c0 H) -> bisect Theta n c b t last DA = Some r -> b <= t -> D b <= DA <= D t ->
    last = D b \/ last = D t ->
    exists b' t' e, r = for_h c0 ((b' + t') / 2) /\ b <= b' /\ b' <= t' /\ t' <= t /\ D b' <= DA <= D t' /\ Rabs (D ((b' + t') / 2) - D e) < 1e-7 /\ (e = b' \/ e = t').
  Proof.
    induction n as [| n IH]; intros c b t last DA r Hc E L I HL; [discriminate |]. cbn [bisect] in E. rewrite Hc in E. fold (D ((b + t) / 2)) in E.
    set (d := D ((b + t) / 2)) in *.
    assert (EX : Rabs (d - last) < 1e-7 -> exists b' t' e, for_h c0 ((b + t) / 2) = for_h c0 ((b' + t') / 2) /\ b <= b' /\ b' <= t' /\ t' <= t /\ D b' <= DA <= D t' /\ Rabs (D ((b' + t') / 2) - D e) < 1e-7 /\ (e = b' \/ e = t')).
    { intro V. destruct HL as [-> | ->]; [exists b, t, b | exists b, t, t]; repeat split; try lra; try exact V; auto. }
    destruct (Rlt_dec d DA) as [Q | Q]; (destruct (Rlt_dec (Rabs (d - last)) 1e-7) as [V | V]; [injection E as <-; auto |]).
    - destruct (IH _ ((b + t) / 2) t d DA r (fun H => for_h_twice _ _ _) E) as (b' & t' & e & R1 & R2 & R3 & R4 & R5 & R6 & R7); [lra | fold d; lra | left; reflexivity |].
      exists b', t', e. repeat split; try lra; auto.
    - destruct (IH _ b ((b + t) / 2) d DA r (fun H => for_h_twice _ _ _) E) as (b' & t' & e & R1 & R2 & R3 & R4 & R5 & R6 & R7); [lra | fold d; lra | right; reflexivity |].
      exists b', t', e. repeat split; try lra; auto.
  Qed.
  Lemma bisect_start n c b t DA r : (forall H, for_h c H = for_h c0 H) -> bisect Theta n c b t (-1) DA = Some r -> b <= t -> D b <= DA <= D t -> (forall H, b <= H <= t -> 0 <= D H) ->
    exists b' t' e, r = for_h c0 ((b' + t') / 2) /\ b <= b' /\ b' <= t' /\ t' <= t /\ D b' <= DA <= D t' /\ Rabs (D ((b' + t') / 2) - D e) < 1e-7 /\ (e = b' \/ e = t').
  Proof.
    intros Hc E L I PD. destruct n as [| n]; [discriminate |]. cbn [bisect] in E. rewrite Hc in E. fold (D ((b + t) / 2)) in E. set (d := D ((b + t) / 2)) in *.
    assert (0 <= d) by (apply PD; lra). destruct (Rlt_dec (Rabs (d - -1)) 1e-7) as [V | V]; [rewrite Rabs_pos_eq in V by lra; lra |].
    destruct (Rlt_dec d DA) as [Q | Q].
    - destruct (bisect_inv n _ ((b + t) / 2) t d DA r (fun H => for_h_twice _ _ _) E) as (b' & t' & e & R1 & R2 & R3 & R4 & R5 & R6 & R7); [lra | fold d; lra | left; reflexivity |].
      exists b', t', e. repeat split; try lra; auto.
    - destruct (bisect_inv n _ b ((b + t) / 2) d DA r (fun H => for_h_twice _ _ _) E) as (b' & t' & e & R1 & R2 & R3 & R4 & R5 & R6 & R7); [lra | fold d; lra | right; reflexivity |].
      exists b', t', e. repeat split; try lra; auto.
  Qed.
  Lemma bisect_ends K lo hi : 0 <= K -> (forall x y, lo <= x <= y -> y <= hi -> Rabs (D y - D x) <= K * (y - x)) ->
    forall n c b t last DA, (forall H, for_h c H = for_h c0 H) -> lo <= b -> b <= t -> t <= hi -> K * (t - b) < 1e-7 * 2 ^ n -> last = D b \/ last = D t ->
    bisect Theta (S n) c b t last DA <> None.
  Proof.
    intros HK HD. induction n as [| n IH]; intros c b t last DA Hc L1 L2 L3 HW HL.
    - cbn [bisect]. rewrite Hc. fold (D ((b + t) / 2)). set (d := D ((b + t) / 2)).
      assert (V : Rabs (d - last) < 1e-7).
      { destruct HL as [-> | ->].
        - pose proof (HD b ((b + t) / 2)) as Q. fold d in Q. assert (Rabs (d - D b) <= K * ((b + t) / 2 - b)) by (apply Q; lra). nra.
        - pose proof (HD ((b + t) / 2) t) as Q. fold d in Q. assert (Rabs (D t - d) <= K * (t - (b + t) / 2)) by (apply Q; lra). rewrite Rabs_minus_sym. nra. }
      destruct (Rlt_dec d DA), (Rlt_dec (Rabs (d - last)) 1e-7); try discriminate; contradiction.
    - remember (S n) as k. cbn [bisect]. subst k. rewrite Hc. fold (D ((b + t) / 2)). set (d := D ((b + t) / 2)).
      assert (P2 : 1e-7 * 2 ^ S n = 2 * (1e-7 * 2 ^ n)) by (cbn [pow]; ring). rewrite P2 in HW.
      destruct (Rlt_dec d DA); (destruct (Rlt_dec (Rabs (d - last)) 1e-7); [discriminate |]); apply IH; try lra; try (intro; apply for_h_twice); try (left; reflexivity); try (right; reflexivity); nra.
  Qed.
  Lemma bisect_total K b t DA c : 0 <= K -> b <= t -> (forall x y, b <= x <= y -> y <= t -> Rabs (D y - D x) <= K * (y - x)) -> (forall H, for_h c H = for_h c0 H) ->
    exists n, forall m, (n <= m)%nat -> bisect Theta m c b t (-1) DA <> None.
  Proof.
    intros HK L HD Hc. destruct (Pow_x_infinity 2) with (b := (K * (t - b) + 1) * 10 ^ 7) as (n & Hn); [rewrite Rabs_pos_eq; lra |].
    assert (W : forall k, (n <= k)%nat -> K * (t - b) < 1e-7 * 2 ^ k).
    { intros k Hk. specialize (Hn k Hk). rewrite Rabs_pos_eq in Hn by (apply pow_le; lra). lra. }
    exists (S (S n)). intros m Hm. destruct m as [| m]; [lia |]. destruct m as [| m]; [lia |]. specialize (W m ltac:(lia)).
    remember (S m) as k. cbn [bisect]. subst k. rewrite Hc. fold (D ((b + t) / 2)). set (d := D ((b + t) / 2)). assert (0 < 2 ^ m) by (apply pow_lt; lra).
    destruct (Rlt_dec d DA); (destruct (Rlt_dec (Rabs (d - -1)) 1e-7); [discriminate |]); apply bisect_ends with (K := K) (lo := b) (hi := t); try lra; try exact HD; try (intro; apply for_h_twice); try (left; reflexivity); try (right; reflexivity); nra.
  Qed.
End Bisection.
