From Coq Require Import Reals List Bool ZArith Arith Lia Lra.
From Verif Require Import PyBase SortModel SortSpec SortProofs RedModel RedSpec.
Import ListNotations.
Local Open Scope R_scope.

Lemma rising_app a b : rising (a ++ b) <-> rising a /\ rising b /\ forall x y, In x a -> In y b -> x < y.
Proof.
  induction a as [| u a IH]; cbn; [intuition |]. rewrite IH. split.
  - intros (H1 & H2 & H3 & H4). repeat split; auto.
    + intros y I. apply H1, in_or_app. now left.
    + intros x y [<- | Ix] Iy; [apply H1, in_or_app; now right | now apply H4].
  - intros ((H1 & H2) & H3 & H4). repeat split; auto. intros y I. apply in_app_or in I. destruct I as [I | I]; auto.
Qed.
Lemma get_at {A} (p s : list A) y : get (p ++ y :: s) (length p + 1) = Ok y.
Proof. rewrite Nat.add_1_r. cbn. rewrite nth_error_app2, Nat.sub_diag by lia. reflexivity. Qed.
Lemma put_at {A} (p s : list A) x y : put (p ++ y :: s) (length p + 1) x = p ++ x :: s.
Proof. induction p as [| a p IH]; [reflexivity |]. cbn [length app]. replace (S (length p) + 1)%nat with (S (S (length p))) by lia. cbn [put]. rewrite <- IH. f_equal. f_equal. lia. Qed.
Lemma swap_last {A} (p s : list A) y z : exists b, Swap (p ++ y :: s ++ [z]) (length p + 1) (length (p ++ y :: s ++ [z])) = Ok b /\ DeleteItem b (length b) = p ++ z :: s.
Proof.
  exists ((p ++ z :: s) ++ [y]). assert (E : p ++ y :: s ++ [z] = (p ++ y :: s) ++ [z]) by (now rewrite <- app_assoc).
  assert (LE : length (p ++ y :: s ++ [z]) = (length (p ++ y :: s) + 1)%nat) by (rewrite E, app_length; reflexivity). rewrite LE.
  assert (G : get (p ++ y :: s ++ [z]) (length (p ++ y :: s) + 1) = Ok z) by (rewrite E; apply get_at).
  unfold Swap. rewrite get_at. cbn [bindR]. rewrite G. cbn [bindR]. rewrite put_at. split.
  - f_equal. replace (p ++ z :: s ++ [z]) with ((p ++ z :: s) ++ [z]) by (now rewrite <- app_assoc).
    replace (length (p ++ y :: s) + 1)%nat with (length (p ++ z :: s) + 1)%nat by (rewrite !app_length; cbn; lia). now rewrite put_at.
  - unfold DeleteItem. rewrite app_length. cbn [length]. replace (length (p ++ z :: s) + 1 - 1)%nat with (length (p ++ z :: s)) by lia.
    rewrite firstn_app, Nat.sub_diag, firstn_all. cbn [firstn]. rewrite skipn_all2 by (rewrite app_length; cbn; lia). now rewrite !app_nil_r.
Qed.
Lemma nint_at x : 0 <= x -> (0 <= nint x)%Z /\ IZR (nint x) <= x + 1/2 < IZR (nint x) + 1.
Proof.
  intro H. unfold nint. destruct (Rlt_dec x 0); [lra |]. destruct (base_Int_part (x + 1/2)) as [B1 B2]. split; [| lra].
  assert (-1 < IZR (Int_part (x + 1/2))) by lra. apply lt_IZR in H0. lia.
Qed.

Lemma skipn_twice {A} : forall a b (l : list A), skipn a (skipn b l) = skipn (a + b) l.
Proof. intros a b. induction b as [| b IH]; intro l; [now rewrite Nat.add_0_r |]. rewrite Nat.add_succ_r. destruct l; [now rewrite !skipn_nil |]. cbn. apply IH. Qed.
Section Grid.
  Variables (h : R) (grid : list R).
  Let N := length grid.
  Let x z := ln (z + 1) / h.
  Hypothesis Hh : 0 < h.
  Hypothesis Hgrid : forall j g, nth_error grid j = Some g -> 0 <= g /\ x g = INR j.

  Lemma x_lt a b : 0 <= a -> 0 <= b -> x a < x b -> a < b.
  Proof.
    intros Ha Hb H. unfold x in H. apply Rmult_lt_reg_r in H; [| now apply Rinv_0_lt_compat]. apply ln_lt_inv in H; lra.
  Qed.
  Lemma x_pos a : 0 <= a -> 0 <= x a.
  Proof.
    intro H. unfold x. apply Rmult_le_pos; [| left; now apply Rinv_0_lt_compat].
    destruct (Req_dec a 0) as [-> | Ne]; [rewrite Rplus_0_l, ln_1; lra |]. rewrite <- ln_1. left. apply ln_increasing; lra.
  Qed.
  Lemma x_at a : 0 <= a -> INR (Z.to_nat (nint (x a))) - 1/2 <= x a < INR (Z.to_nat (nint (x a))) + 1/2.
  Proof.
    intro H. destruct (nint_at (x a) (x_pos a H)) as [P B]. rewrite INR_IZR_INZ, Z2Nat.id by exact P. lra.
  Qed.
  Lemma grid_in k y : In y (skipn k grid) -> 0 <= y /\ INR k <= x y.
  Proof.
    intro I. apply In_nth_error in I. destruct I as [j E].
    assert (E2 : nth_error grid (k + j) = Some y).
    { rewrite <- E. clear. revert grid. induction k as [| k IH]; intro g; [reflexivity |]. destruct g; cbn; [now destruct j |]. apply IH. }
    destruct (Hgrid _ _ E2) as [P X]. split; [exact P |]. rewrite X, plus_INR. pose proof (pos_INR j). lra.
  Qed.
  Lemma grid_part k n y : In y (firstn n (skipn k grid)) -> 0 <= y /\ INR k <= x y /\ x y <= INR k + INR n - 1.
  Proof.
    intro I. apply In_nth_error in I. destruct I as [j E].
    assert (Lj : (j < n)%nat) by (assert (j < length (firstn n (skipn k grid)))%nat by (apply nth_error_Some; congruence); rewrite firstn_length in *; lia).
    assert (E2 : nth_error grid (k + j) = Some y).
    { rewrite <- E. clear - Lj. assert (F : forall (l : list R) n j, (j < n)%nat -> nth_error (firstn n l) j = nth_error l j).
      { intro l. induction l as [| a l IH]; intros m i L; destruct m; try lia; cbn; [now destruct i |]. destruct i; [reflexivity |]. cbn. apply IH. lia. }
      rewrite F by exact Lj. clear. revert grid. induction k as [| k IH]; intro g; [reflexivity |]. destruct g; cbn; [now destruct j |]. apply IH. }
    destruct (Hgrid _ _ E2) as [P X]. split; [exact P |]. rewrite X, plus_INR. pose proof (pos_INR j).
    assert (INR j + 1 <= INR n) by (rewrite <- S_INR; apply le_INR; lia). lra.
  Qed.
  Lemma grid_rising : forall k, rising (skipn k grid).
  Proof.
    intro k. assert (G : forall l, (forall i j a b, nth_error l i = Some a -> nth_error l j = Some b -> (i < j)%nat -> a < b) -> rising l).
    { induction l as [| a l IH]; intros H; cbn; [exact I |]. split.
      - intros y Iy. apply In_nth_error in Iy. destruct Iy as [j E]. apply (H 0%nat (S j)); [reflexivity | exact E | lia].
      - apply IH. intros i j u v E1 E2 L. apply (H (S i) (S j)); [exact E1 | exact E2 | lia]. }
    apply G. intros i j a b E1 E2 L.
    assert (SK : forall (l : list R) k i, nth_error (skipn k l) i = nth_error l (k + i)).
    { clear. intros l k. revert l. induction k as [| k IH]; intros l i; [reflexivity |]. destruct l; cbn; [now destruct i |]. apply IH. }
    rewrite SK in E1, E2. destruct (Hgrid _ _ E1) as [P1 X1]. destruct (Hgrid _ _ E2) as [P2 X2]. apply x_lt; try assumption. rewrite X1, X2. apply lt_INR. lia.
  Qed.

  Definition inv (done rest : list R) (st : list R * nat) : Prop :=
    let '(F, p) := st in exists A, F = A ++ skipn p grid /\ rising A /\ (1 <= p)%nat /\ ((p <= N)%nat -> length A = p) /\ hd_error A = Some 0 /\
      (forall a, In a A -> 0 <= a /\ x a < INR p - 1/2) /\ (forall z, In z done -> In z A) /\ (forall a z, In a A -> In z rest -> z <> 0 -> a < z).

  Lemma insert_inv done z rest st : inv done (z :: rest) st -> 0 <= z -> rising (z :: rest) -> inv (done ++ [z]) rest (insert h N st z).
  Proof.
    destruct st as [F p]. intros (A & EF & RA & P1 & LA & HD & BA & DA & UA) Hz RS. unfold insert.
    assert (I0 : In 0 A) by (destruct A; [discriminate |]; injection HD as ->; now left).
    destruct (Req_EM_T z 0) as [-> | Nz].
    { exists A. split; [exact EF |]. split; [exact RA |]. split; [exact P1 |]. split; [exact LA |]. split; [exact HD |]. split; [exact BA |]. split.
      - intros w I. apply in_app_or in I. destruct I as [I | [<- | []]]; [now apply DA | exact I0].
      - intros a w Ia Iw. apply UA; [exact Ia | now right]. }
    fold (x z). set (k := (Z.to_nat (nint (x z)) + 1)%nat). set (iz := if (k <=? p)%nat then (p + 1)%nat else k).
    pose proof (x_at z Hz) as XZ. assert (Ek : INR k = INR (Z.to_nat (nint (x z))) + 1) by (unfold k; rewrite plus_INR; reflexivity).
    assert (Lz : (p < iz)%nat /\ (k <= iz)%nat) by (unfold iz; destruct (Nat.leb_spec k p); lia). destruct Lz as [Lp Lk].
    assert (Bz : x z < INR iz - 1/2) by (apply le_INR in Lk; lra).
    assert (Gz : (p + 1 < iz)%nat -> INR iz - 3/2 <= x z). { intro L. unfold iz in *. destruct (Nat.leb_spec k p); [lia |]. lra. }
    assert (Az : forall a, In a A -> a < z) by (intros a Ia; apply UA; [exact Ia | now left | exact Nz]).
    destruct RS as [RS1 RS2].
    destruct (Nat.leb_spec iz N) as [LN | LN].
    - assert (LS : length (skipn p grid) = (N - p)%nat) by apply skipn_length.
      set (B := firstn (iz - 1 - p) (skipn p grid)).
      assert (LB : length B = (iz - 1 - p)%nat) by (unfold B; rewrite firstn_length; lia).
      assert (ES : exists y, skipn p grid = B ++ y :: skipn iz grid).
      { rewrite <- (firstn_skipn (iz - 1 - p) (skipn p grid)). fold B. assert (SS : skipn (iz - 1 - p) (skipn p grid) = skipn (iz - 1) grid).
        { rewrite skipn_twice. f_equal. lia. }
        rewrite SS. destruct (skipn (iz - 1) grid) as [| y r] eqn:E.
        - exfalso. assert (length (skipn (iz - 1) grid) = 0%nat) by (now rewrite E). rewrite skipn_length in H. fold N in H. lia.
        - exists y. f_equal. f_equal. replace iz with (1 + (iz - 1))%nat by lia. rewrite <- skipn_twice, E. reflexivity. }
      destruct ES as [y ES]. destruct (swap_last (A ++ B) (skipn iz grid) y z) as (b & E1 & E2).
      assert (EA : F ++ [z] = (A ++ B) ++ y :: skipn iz grid ++ [z]) by (rewrite EF, ES, <- !app_assoc; reflexivity).
      assert (EI : iz = (length (A ++ B) + 1)%nat) by (rewrite app_length, LB, LA; lia).
      rewrite EA. rewrite <- EI in E1. rewrite E1, E2. exists ((A ++ B) ++ [z]).
      assert (BB : forall y', In y' B -> 0 <= y' /\ (forall a, In a A -> a < y') /\ y' < z /\ x y' < INR iz - 1/2).
      { intros y' I. unfold B in I. assert (LI : (p + 1 < iz)%nat). { destruct (Nat.eq_dec (iz - 1 - p) 0) as [e | ne]; [rewrite e in I; destruct I | lia]. }
        specialize (Gz LI). apply grid_part in I. destruct I as (Q1 & Q2 & Q3).
        assert (IN : INR (iz - 1 - p) = INR iz - 1 - INR p) by (rewrite !minus_INR by lia; reflexivity). rewrite IN in Q3. split; [exact Q1 |]. split; [| split].
        - intros a Ia. destruct (BA a Ia) as [a0 a1]. apply x_lt; try assumption. lra.
        - apply x_lt; try assumption. lra.
        - lra. }
      split; [rewrite <- !app_assoc; reflexivity |]. split.
      { rewrite rising_app. split; [rewrite rising_app; split; [exact RA |]; split |].
        - unfold B. pose proof (grid_rising p) as G. rewrite <- (firstn_skipn (iz - 1 - p) (skipn p grid)) in G. apply rising_app in G. apply G.
        - intros a y' Ia Iy. now apply (BB y' Iy).
        - split; [cbn; split; [intros q [] | exact I] |]. intros u v Iu [<- | []]. apply in_app_or in Iu. destruct Iu as [Iu | Iu]; [now apply Az | now apply (BB u Iu)]. }
      split; [lia |]. split; [intros _; rewrite app_length; cbn [length]; lia |]. split; [destruct A; [discriminate |]; exact HD |]. split.
      { intros a Ia. apply in_app_or in Ia. destruct Ia as [Ia | [<- | []]]; [| now split]. apply in_app_or in Ia. destruct Ia as [Ia | Ia]; [| split; apply (BB a Ia)].
        destruct (BA a Ia) as [a0 a1]. split; [exact a0 |]. apply lt_INR in Lp. lra. }
      split.
      { intros w I. apply in_or_app. apply in_app_or in I. destruct I as [I | [<- | []]]; [left; apply in_or_app; left; now apply DA | right; now left]. }
      intros a w Ia Iw Nw. assert (Zw : z < w) by now apply RS1. apply in_app_or in Ia. destruct Ia as [Ia | [<- | []]]; [| exact Zw].
      apply in_app_or in Ia. destruct Ia as [Ia | Ia]; [apply Rlt_trans with z; [now apply Az | exact Zw] |]. destruct (BB a Ia) as (_ & _ & Q & _). lra.
    - exists (F ++ [z]).
      assert (SN : skipn iz grid = []) by (apply skipn_all2; fold N; lia). rewrite SN, app_nil_r. split; [reflexivity |].
      assert (FF : forall u, In u F -> 0 <= u /\ u < z /\ x u < INR iz - 1/2).
      { intros u Iu. rewrite EF in Iu. apply in_app_or in Iu. destruct Iu as [Iu | Iu].
        - destruct (BA u Iu) as [u0 u1]. split; [exact u0 |]. split; [now apply Az |]. apply lt_INR in Lp. lra.
        - destruct (le_lt_dec N p) as [l | l]; [rewrite skipn_all2 in Iu by (fold N; lia); destruct Iu |].
          assert (LI : (p + 1 < iz)%nat) by lia. specialize (Gz LI).
          assert (Q : 0 <= u /\ x u <= INR N - 1). { rewrite <- (firstn_all (skipn p grid)) in Iu. apply grid_part in Iu. destruct Iu as (Q1 & _ & Q3). split; [exact Q1 |].
            rewrite skipn_length in Q3. fold N in Q3. rewrite minus_INR in Q3 by lia. lra. }
          destruct Q as [Q1 Q2]. assert (INR N + 1 <= INR iz) by (rewrite <- S_INR; apply le_INR; lia).
          assert (u < z) by (apply x_lt; try assumption; lra). split; [exact Q1 |]. split; [exact H0 |]. lra. }
      split.
      { rewrite rising_app. split.
        - rewrite EF, rising_app. split; [exact RA |]. split; [apply grid_rising |]. intros a y Ia Iy. destruct (BA a Ia) as [a0 a1]. apply grid_in in Iy. destruct Iy as [y0 y1]. apply x_lt; try assumption. lra.
        - split; [cbn; split; [intros q [] | exact I] |]. intros u v Iu [<- | []]. now apply FF. }
      split; [lia |]. split; [intros; lia |]. split; [rewrite EF; destruct A; [discriminate |]; exact HD |]. split.
      { intros a Ia. apply in_app_or in Ia. destruct Ia as [Ia | [<- | []]]; [split; apply (FF a Ia) | now split]. }
      split.
      { intros w I. apply in_or_app. apply in_app_or in I. destruct I as [I | [<- | []]]; [left; rewrite EF; apply in_or_app; left; now apply DA | right; now left]. }
      intros a w Ia Iw Nw. assert (Zw : z < w) by now apply RS1. apply in_app_or in Ia. destruct Ia as [Ia | [<- | []]]; [| exact Zw]. destruct (FF a Ia) as (_ & Q & _). lra.
  Qed.
  Lemma insert_all : forall rest done st, inv done rest st -> (forall z, In z rest -> 0 <= z) -> rising rest -> inv (done ++ rest) [] (fold_left (insert h N) rest st).
  Proof.
    induction rest as [| z rest IH]; intros done st Hi Hp Hr; [now rewrite app_nil_r |]. cbn [fold_left].
    replace (done ++ z :: rest) with ((done ++ [z]) ++ rest) by (now rewrite <- app_assoc). apply IH.
    - apply insert_inv; [exact Hi | apply Hp; now left | exact Hr].
    - intros w I. apply Hp. now right.
    - apply Hr.
  Qed.
  Lemma insert_start zs : nth_error grid 0 = Some 0 -> (forall z, In z zs -> 0 <= z) -> rising zs ->
    let F := fst (fold_left (insert h N) zs (grid, 1%nat)) in
    rising F /\ hd_error F = Some 0 /\ (forall z, In z zs -> In z F) /\ (forall z, In z F -> 0 <= z).
  Proof.
    intros E0 Hp Hr. pose proof (insert_all zs [] (grid, 1%nat)) as IA. cbn [app] in IA.
    destruct (fold_left (insert h N) zs (grid, 1%nat)) as [F p]. cbn [fst]. destruct IA as (A & EF & RA & P1 & LA & HD & BA & DA & UA); try assumption.
    { exists [0]. destruct grid as [| g grid']; [discriminate |]. injection E0 as ->. split; [reflexivity |]. split; [cbn; split; [intros q [] | exact I] |]. split; [lia |]. split; [reflexivity |].
      split; [reflexivity |]. split; [| split].
      - intros a [<- | []]. split; [lra |]. unfold x. rewrite Rplus_0_l, ln_1. cbn. unfold Rdiv. rewrite Rmult_0_l. lra.
      - intros z [].
      - intros a z [<- | []] Iz Nz. destruct (Hp z Iz); [assumption | congruence]. }
    subst F. split; [| split; [| split]].
    - rewrite rising_app. split; [exact RA |]. split; [apply grid_rising |]. intros a y Ia Iy. destruct (BA a Ia) as [a0 a1]. apply grid_in in Iy. destruct Iy as [y0 y1]. apply x_lt; try assumption. lra.
    - destruct A; [discriminate |]. exact HD.
    - intros z I. apply in_or_app. left. now apply DA.
    - intros z I. apply in_app_or in I. destruct I as [I | I]; [now apply BA | now apply (grid_in p)].
  Qed.
End Grid.
