From Coq Require Import Reals ZArith Ascii Bool List Lia Lra Arith.
From Verif Require Import PyStr BaoModel BaoSpec BaoProofs MapModel MapSpec.
Import ListNotations.
Local Open Scope nat_scope.

Lemma tri_S n : tri (S n) = tri n ++ map (fun j => (S n, j)) (seq 1 (S n)).
Proof. unfold tri. transitivity (flat_map (fun i => map (fun j => (i, j)) (seq 1 i)) (seq 1 n ++ [S n])); [f_equal; apply seq_S |]. rewrite flat_map_app. cbn [flat_map]. rewrite app_nil_r. reflexivity. Qed.
Lemma tri_len n : 2 * length (tri n) = n * (n + 1).
Proof. induction n as [| n IH]; [reflexivity |]. rewrite tri_S, app_length, map_length, seq_length. lia. Qed.
Lemma tri_ncl n : length (tri n) = n * (n + 1) / 2.
Proof. rewrite <- tri_len, (Nat.mul_comm 2), Nat.div_mul by lia. reflexivity. Qed.
Lemma tri_In n i j : In (i, j) (tri n) <-> 1 <= j <= i /\ i <= n.
Proof.
  unfold tri. rewrite in_flat_map. split.
  - intros (a & A & B). apply in_map_iff in B as (b & E & B). injection E as <- <-. apply in_seq in A, B. lia.
  - intros (A & B). exists i. split; [apply in_seq; lia |]. apply in_map_iff. exists j. split; [reflexivity |]. apply in_seq. lia.
Qed.
Lemma triangle_tri i j : 1 <= i -> triangle i j = length (tri (i - 1)) + j.
Proof. intro I. unfold triangle. rewrite tri_ncl. replace (i - 1 + 1) with i by lia. now rewrite (Nat.mul_comm i). Qed.
Lemma tri_nth n i j : 1 <= j <= i -> i <= n -> nth_error (tri n) (triangle i j - 1) = Some (i, j).
Proof.
  intros J. revert i j J. induction n as [| n IH]; intros i j J I; [lia |]. rewrite tri_S.
  assert (LE : forall a b, a <= b -> length (tri a) <= length (tri b)). { intros a b L. pose proof (tri_len a). pose proof (tri_len b). nia. }
  destruct (Nat.eq_dec i (S n)) as [-> | N].
  - rewrite triangle_tri by lia. replace (S n - 1) with n by lia. rewrite nth_error_app2 by lia. replace (length (tri n) + j - 1 - length (tri n)) with (j - 1) by lia.
    rewrite (map_nth_error (fun j => (S n, j)) (j - 1) (seq 1 (S n)) (d := j)); [reflexivity |]. rewrite (nth_error_nth' (seq 1 (S n)) O) by (rewrite seq_length; lia). rewrite seq_nth by lia. f_equal. lia.
  - rewrite nth_error_app1; [apply IH; lia |]. rewrite triangle_tri by lia. pose proof (LE i n ltac:(lia)). pose proof (tri_len (i - 1)). pose proof (tri_len i). nia.
Qed.
Lemma tri_NoDup n : NoDup (tri n).
Proof.
  apply NoDup_nth_error. intros a b A E. destruct (nth_error (tri n) a) as [[i j] |] eqn:EA; [| apply nth_error_None in EA; lia].
  assert (G : forall c, nth_error (tri n) c = Some (i, j) -> c = triangle i j - 1).
  { clear A E EA a b. revert i j. induction n as [| n IH]; intros i j c E; [destruct c; discriminate |]. rewrite tri_S in E. destruct (Nat.ltb_spec c (length (tri n))) as [L | L].
    - rewrite nth_error_app1 in E by exact L. now apply IH.
    - rewrite nth_error_app2 in E by exact L. assert (B : c - length (tri n) < S n) by (replace (S n) with (length (map (fun j : nat => (S n, j)) (seq 1 (S n)))) by (rewrite map_length, seq_length; reflexivity); apply nth_error_Some; congruence).
      rewrite (map_nth_error (fun j => (S n, j)) _ (seq 1 (S n)) (d := S (c - length (tri n)))) in E.
      + injection E as <- <-. rewrite triangle_tri by lia. replace (S n - 1) with n by lia. lia.
      + rewrite (nth_error_nth' (seq 1 (S n)) O) by (rewrite seq_length; lia). rewrite seq_nth by lia. reflexivity. }
  rewrite (G a EA). symmetry. apply G. congruence.
Qed.
Lemma triangle_range n i j : 1 <= j <= i -> i <= n -> 1 <= triangle i j <= n * (n + 1) / 2.
Proof.
  intros J I. rewrite <- tri_ncl. split; [unfold triangle; lia |]. assert (triangle i j - 1 < length (tri n)) by (apply nth_error_Some; rewrite tri_nth by assumption; discriminate). lia.
Qed.
Lemma pair_eqb_spec p q : reflect (p = q) (pair_eqb p q).
Proof. destruct p as [a b], q as [c d]. unfold pair_eqb. cbn [fst snd]. destruct (Nat.eqb_spec a c), (Nat.eqb_spec b d); subst; constructor; congruence. Qed.
Lemma number_out : forall l ix p r, ~ In p l -> number l ix p r = r.
Proof.
  induction l as [| q l IH]; intros ix p r N; [reflexivity |]. cbn [number]. rewrite IH by (intro X; apply N; now right). destruct (pair_eqb_spec q p) as [-> |]; [exfalso; apply N; now left | reflexivity].
Qed.
Lemma number_in : forall l k ix p r, NoDup l -> nth_error l k = Some p -> number l ix p r = S (ix + k).
Proof.
  induction l as [| q l IH]; intros k ix p r ND E; [destruct k; discriminate |]. inversion ND; subst. cbn [number]. destruct k as [| k]; cbn [nth_error] in E.
  - injection E as ->. rewrite number_out by assumption. destruct (pair_eqb_spec p p); [lia | contradiction].
  - rewrite (IH k) by assumption. lia.
Qed.
Lemma str_eqb_spec a b : reflect (a = b) (str_eqb a b).
Proof. unfold str_eqb. destruct (str_eq_dec a b); constructor; assumption. Qed.
Lemma index_spec : forall l k s, match index_from k l s with
  | Some n => k <= n /\ nth_error l (n - k) = Some s /\ forall m, m < n - k -> nth_error l m <> Some s
  | None => ~ In s l end.
Proof.
  induction l as [| x l IH]; intros k s; cbn [index_from]; [intros [] |]. destruct (str_eqb_spec x s) as [-> | N].
  - rewrite Nat.sub_diag. split; [lia |]. split; [reflexivity | lia].
  - specialize (IH (S k) s). destruct (index_from (S k) l s) as [n |].
    + destruct IH as (A & B & C). split; [lia |]. replace (n - k) with (S (n - S k)) by lia. split; [exact B |]. intros [| m] M; cbn [nth_error]; [congruence | apply C; lia].
    + intros [X | X]; [congruence | contradiction].
Qed.
Lemma IndexOf_first l s k : at1 l k s -> (forall m, 1 <= m < k -> ~ at1 l m s) -> IndexOf l s = Some k.
Proof.
  intros (A & B) F. pose proof (index_spec l 1 s) as H. unfold IndexOf. destruct (index_from 1 l s) as [n |].
  - destruct H as (H1 & H2 & H3). f_equal. destruct (lt_eq_lt_dec n k) as [[L | E] | G]; [| exact E |].
    + exfalso. apply (F n); [lia |]. split; [lia | exact H2].
    + exfalso. apply (H3 (k - 1)); [lia | exact B].
  - exfalso. apply H. eapply nth_error_In. exact B.
Qed.
Lemma IndexOf_some l s k : IndexOf l s = Some k -> at1 l k s /\ forall m, 1 <= m < k -> ~ at1 l m s.
Proof.
  intro E. pose proof (index_spec l 1 s) as H. unfold IndexOf in E. rewrite E in H. destruct H as (A & B & C). split; [split; assumption |]. intros m M (_ & X). apply (C (m - 1)); [lia | exact X].
Qed.
Lemma IndexOf_none l s : IndexOf l s = None <-> ~ In s l.
Proof.
  pose proof (index_spec l 1 s) as H. unfold IndexOf. destruct (index_from 1 l s) as [n |]; split; intro X; try discriminate; auto.
  destruct H as (_ & H & _). exfalso. apply X. eapply nth_error_In. exact H.
Qed.
Lemma IndexOf_NoDup l s k : NoDup l -> at1 l k s -> IndexOf l s = Some k.
Proof.
  intros ND A. apply IndexOf_first; [exact A |]. intros m M (B & C). destruct A as (A1 & A2). rewrite NoDup_nth_error in ND. assert (m - 1 = k - 1); [| lia]. apply ND; [apply nth_error_Some; congruence | congruence].
Qed.
(** names *)
Lemma split_x_app a b : ~ In "x"%char a -> split_x (a ++ "x"%char :: b) = Some (a, b).
Proof.
  induction a as [| c a IH]; intro N; [reflexivity |]. cbn [app split_x]. unfold ch_eqb. destruct (Ascii.eqb_spec c "x") as [-> |]; [exfalso; apply N; now left |]. rewrite IH; [reflexivity |]. intro X. apply N. now right.
Qed.
(** numbering of used maps *)
Lemma number_used_nth : forall use ix i, nth i (number_used use ix) 0 = if nth i use false then ix + used_among use (S i) else 0.
Proof.
  unfold used_among. induction use as [| b use IH]; intros ix i; [destruct i; reflexivity |]. destruct b, i as [| i]; cbn [number_used nth]; cbn [firstn filter length]; rewrite ?IH; try reflexivity; cbn [firstn filter length].
  - rewrite Nat.add_1_r. reflexivity.
  - destruct (nth i use false); [| reflexivity]. destruct use; cbn [firstn filter length]; lia.
Qed.
Lemma order_from_spec : forall use k n i, nth_error (order_from k use) n = Some i <-> k <= i /\ nth (i - k) use false = true /\ used_among use (i - k) = n.
Proof.
  unfold used_among. induction use as [| b use IH]; intros k n i.
  - cbn [order_from]. split; [destruct n; discriminate |]. intros (_ & A & _). destruct (i - k); discriminate.
  - assert (Q : i = k \/ i < k \/ k < i) by lia. destruct b; cbn [order_from].
    + destruct n as [| n]; cbn [nth_error].
      * split.
        -- intro E. injection E as <-. rewrite Nat.sub_diag. auto.
        -- intros (A & B & C). destruct Q as [-> | [Q | Q]]; [reflexivity | lia |]. replace (i - k) with (S (i - S k)) in C by lia. cbn in C. discriminate.
      * rewrite IH. destruct Q as [-> | [Q | Q]].
        -- rewrite Nat.sub_diag. split; [lia |]. intros (_ & _ & C). discriminate.
        -- lia.
        -- replace (i - k) with (S (i - S k)) by lia. cbn [firstn filter length nth]. split; intros (A & B & C); repeat split; auto; lia.
    + rewrite IH. destruct Q as [-> | [Q | Q]].
      * rewrite Nat.sub_diag. split; [lia |]. intros (_ & B & _). discriminate.
      * lia.
      * replace (i - k) with (S (i - S k)) by lia. cbn [firstn filter length nth]. split; intros (A & B & C); repeat split; auto; lia.
Qed.
Lemma used_among_S use i : nth i use false = true -> used_among use (S i) = S (used_among use i).
Proof.
  unfold used_among. revert i. induction use as [| b use IH]; intros i E; [destruct i; discriminate |]. destruct i as [| i]; cbn [nth] in E.
  - subst b. reflexivity.
  - specialize (IH i E). cbn [firstn filter] in *. destruct b; cbn [length]; now rewrite IH.
Qed.
(** elements and matrices *)
Local Open Scope R_scope.
Lemma fill_other : forall l ix X M a b, ~ In (a, b) l -> ~ In (b, a) l -> fill l ix X M a b = M a b.
Proof.
  induction l as [| [i j] l IH]; intros ix X M a b N1 N2; [reflexivity |]. cbn [fill]. rewrite IH; [| intro Q; apply N1; now right | intro Q; apply N2; now right].
  cbv zeta. assert (Q1 : upd2 M i j (X ix) a b = M a b).
  { unfold upd2. destruct (Nat.eqb_spec a i) as [-> |], (Nat.eqb_spec b j) as [-> |]; try reflexivity. exfalso. apply N1. now left. }
  unfold upd2 at 1. destruct (Nat.eqb_spec a j) as [-> |], (Nat.eqb_spec b i) as [-> |]; try exact Q1. exfalso. apply N2. now left.
Qed.
Lemma fill_in : forall l k ix X M i j, NoDup l -> (forall a b, In (a, b) l -> (b <= a)%nat) -> nth_error l k = Some (i, j) -> fill l ix X M i j = X (ix + k)%nat /\ fill l ix X M j i = X (ix + k)%nat.
Proof.
  induction l as [| [a b] l IH]; intros k ix X M i j ND LE E; [destruct k; discriminate |]. inversion ND as [| ? ? NI ND']; subst. cbn [fill]. destruct k as [| k]; cbn [nth_error] in E.
  - injection E as -> ->. rewrite Nat.add_0_r.
    assert (NJ : ~ In (j, i) l). { intro Q. pose proof (LE i j (or_introl eq_refl)). pose proof (LE j i (or_intror Q)). assert (i = j) by lia. subst. contradiction. }
    rewrite !fill_other by assumption. unfold upd2. rewrite !Nat.eqb_refl. cbn [andb]. destruct (Nat.eqb_spec i j) as [-> |]; cbn [andb]; rewrite ?Nat.eqb_refl; cbn [andb]; auto.
  - replace (ix + S k)%nat with (S ix + k)%nat by lia. apply IH; auto. intros u v Q. apply LE. now right.
Qed.
Lemma matrix_element n X i j : (1 <= j <= i)%nat -> (i <= n)%nat -> ElementsToMatrix n X i j = X (triangle i j) /\ ElementsToMatrix n X j i = X (triangle i j).
Proof.
  intros J I. unfold ElementsToMatrix. replace (triangle i j) with (1 + (triangle i j - 1))%nat by (unfold triangle; lia).
  apply fill_in; [apply tri_NoDup | intros a b Q; apply tri_In in Q; lia | apply tri_nth; assumption].
Qed.
(** columns of a file *)
Lemma get_cols_ok isnamed used order : forall l ix cols, (forall k, (ix <= k)%nat -> cols k = O) ->
  exists c, get_cols isnamed used order l ix cols = Ok c /\ (forall k p, nth_error l k = Some p -> c (ix + k)%nat = col_in isnamed used order p) /\ (forall k, (k < ix)%nat \/ (ix + length l <= k)%nat -> c k = cols k).
Proof.
  induction l as [| p l IH]; intros ix cols Z; cbn [get_cols].
  - exists cols. split; [reflexivity |]. split; [intros [|]; discriminate | reflexivity].
  - assert (G : exists c, get_cols isnamed used order l (S ix) (upd cols ix (col_in isnamed used order p)) = Ok c /\ (forall k q, nth_error (p :: l) k = Some q -> c (ix + k)%nat = col_in isnamed used order q) /\
      (forall k, (k < ix)%nat \/ (ix + length (p :: l) <= k)%nat -> c k = cols k)).
    { destruct (IH (S ix) (upd cols ix (col_in isnamed used order p))) as (c & E & A & B).
      { intros k K. rewrite upd_other by lia. apply Z. lia. }
      exists c. split; [exact E |]. split.
      - intros [| k] q Q; cbn [nth_error] in Q.
        + injection Q as <-. rewrite Nat.add_0_r, B by lia. apply upd_same.
        + replace (ix + S k)%nat with (S ix + k)%nat by lia. now apply A.
      - intros k K. cbn [length] in K. rewrite B by lia. apply upd_other. lia. }
    destruct (col_in isnamed used order p) as [| k] eqn:EC.
    + destruct (IH (S ix) cols) as (c & E & A & B); [intros k K; apply Z; lia |]. exists c. split; [exact E |]. split.
      * intros [| k] q Q; cbn [nth_error] in Q; [injection Q as <-; rewrite Nat.add_0_r, B, EC by lia; apply Z; lia | replace (ix + S k)%nat with (S ix + k)%nat by lia; now apply A].
      * intros k K. cbn [length] in K. apply B. lia.
    + rewrite Z by lia. cbn [Nat.ltb Nat.leb]. exact G.
Qed.
(** rows *)
Lemma set_cols_ok cols l vals : forall ixs Cl, NoDup ixs -> (forall ix, In ix ixs -> (cols ix <> O -> 2 <= cols ix <= S (length vals))%nat) ->
  exists Cl', set_cols cols ixs l vals Cl = Ok Cl' /\ (forall a b, Cl' a b = if existsb (Nat.eqb a) ixs && negb (Nat.eqb (cols a) 0) && (b =? l)%Z then nth (cols a - 2) vals 0 else Cl a b).
Proof.
  induction ixs as [| ix ixs IH]; intros Cl ND H; cbn [set_cols]; [exists Cl; split; [reflexivity |]; reflexivity |]. inversion ND as [| ? ? NI ND']; subst.
  destruct (Nat.eqb_spec (cols ix) 0) as [E0 | N0].
  - destruct (IH Cl ND' ltac:(intros; apply H; [now right | assumption])) as (Cl' & E & F). exists Cl'. split; [exact E |]. intros a b. rewrite F. cbn [existsb]. destruct (Nat.eqb_spec a ix) as [-> |]; [| reflexivity].
    rewrite E0. cbn [Nat.eqb negb andb]. rewrite !andb_false_r. reflexivity.
  - pose proof (H ix (or_introl eq_refl) N0). rewrite lookup_in by lia. cbn [bind]. destruct (IH (fun a b => if Nat.eqb a ix && (b =? l)%Z then nth (cols ix - 1 - 1) vals 0 else Cl a b) ND' ltac:(intros; apply H; [now right | assumption])) as (Cl' & E & F).
    exists Cl'. split; [exact E |]. intros a b. rewrite F. cbn [existsb]. destruct (Nat.eqb_spec a ix) as [-> |]; [| reflexivity].
    assert (existsb (Nat.eqb ix) ixs = false) as ->. { destruct (existsb (Nat.eqb ix) ixs) eqn:Q; [| reflexivity]. apply existsb_exists in Q as (y & Y & Q). apply Nat.eqb_eq in Q. subst. contradiction. }
    cbn [andb orb]. destruct (Nat.eqb_spec (cols ix) 0); [contradiction |]. cbn [negb andb]. replace (cols ix - 1 - 1)%nat with (cols ix - 2)%nat by lia. reflexivity.
Qed.
