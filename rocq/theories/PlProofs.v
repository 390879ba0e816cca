(** Lemmas about the binned Planck likelihood. *)
From Coq Require Import Reals ZArith String Bool List Lra Lia Sorted.
From Verif Require Import BaoModel BaoSpec BaoProofs SnProofs PlModel PlSpec.
Import ListNotations.
Local Open Scope R_scope.

(** ** Lists *)
Lemma all_of_Forall2 {A B} (g : A -> out B) l ys : all_of g l = Ok ys -> Forall2 (fun x y => g x = Ok y) l ys.
Proof.
  revert ys. induction l as [|x r IH]; intros ys E; cbn [all_of] in E.
  - assert (ys = []) by congruence. subst. constructor.
  - destruct (g x) as [y| |] eqn:G; try discriminate. cbn [bind] in E. destruct (all_of g r) as [zs| |] eqn:Q; try discriminate. cbn [bind] in E.
    assert (ys = y :: zs) by congruence. subst. constructor; auto.
Qed.
Lemma all_of_Ok {A B} (g : A -> out B) l : (forall x, In x l -> exists y, g x = Ok y) -> exists ys, all_of g l = Ok ys.
Proof.
  induction l as [|x r IH]; intros H; [exists []; reflexivity|]. destruct (H x (or_introl eq_refl)) as [y E].
  destruct IH as [ys Q]; [intros; apply H; right; assumption|]. exists (y :: ys). cbn [all_of]. rewrite E. cbn [bind]. rewrite Q. reflexivity.
Qed.
Lemma Forall2_nth2 {A B} (P : A -> B -> Prop) l m a b : Forall2 P l m -> length l = length m /\ forall k, (k < length l)%nat -> P (nth k l a) (nth k m b).
Proof.
  induction 1 as [|x y l m H F [L I]]; cbn [length]; [split; [reflexivity | intros; lia]|].
  split; [lia|]. intros [|k] K; [exact H|]. apply I. lia.
Qed.
Lemma seq_sorted n a : StronglySorted lt (seq a n).
Proof.
  revert a. induction n as [|n IH]; intros a; cbn [seq]; [constructor|]. constructor; [apply IH|].
  apply Forall_forall. intros x X. apply in_seq in X. lia.
Qed.
Lemma filter_sorted (g : nat -> bool) l : StronglySorted lt l -> StronglySorted lt (filter g l).
Proof.
  induction 1 as [|x l S IH F]; cbn [filter]; [constructor|]. destruct (g x); [|exact IH]. constructor; [exact IH|].
  apply Forall_forall. intros y Y. apply filter_In in Y. rewrite Forall_forall in F. apply F. tauto.
Qed.
Lemma fold_max l x : (x <= fold_left Nat.max l x)%nat /\ (forall y, In y l -> (y <= fold_left Nat.max l x)%nat) /\ (In (fold_left Nat.max l x) (x :: l)).
Proof.
  revert x. induction l as [|z l IH]; intros x; cbn [fold_left]; [split; [lia|]; split; [intros y []|left; reflexivity]|].
  destruct (IH (Nat.max x z)) as [A [B C]]. split; [lia|]. split.
  - intros y [->|Y]; [lia | apply B; exact Y].
  - destruct C as [C|C]; [|right; right; exact C]. rewrite <- C. destruct (Nat.max_spec x z) as [[_ ->]|[_ ->]]; [right; left; reflexivity | left; reflexivity].
Qed.
Lemma maxval_spec l : l <> [] -> (forall y, In y l -> (Z.of_nat y <= maxval l)%Z) /\ exists y, In y l /\ maxval l = Z.of_nat y.
Proof.
  destruct l as [|x r]; [congruence|]. intros _. cbn [maxval]. destruct (fold_max r x) as [A [B C]]. split.
  - intros y [->|Y]; [lia | pose proof (B y Y); lia].
  - exists (fold_left Nat.max r x). split; [exact C | reflexivity].
Qed.

(** ** Matrices *)
Lemma total_kron n f i : (1 <= i <= n)%nat -> total (fun k => f k * (if Nat.eqb i k then 1 else 0)) n = f i.
Proof.
  intros I. rewrite (total_one n _ i I).
  - rewrite Nat.eqb_refl. ring.
  - intros k K N. destruct (Nat.eqb_spec i k); [congruence | ring].
Qed.
Lemma inverse_sym n A B : symmetric n A -> inverse_of n A B -> symmetric n B.
Proof.
  intros Sy I i j Hi Hj.
  transitivity (total (fun k => B i k * (if Nat.eqb j k then 1 else 0)) n); [symmetry; apply total_kron; exact Hj|].
  transitivity (total (fun k => total (fun m => B i k * A k m * B j m) n) n).
  - apply total_ext. intros k K. rewrite <- (proj2 (I j k Hj K)), <- total_scale. apply total_ext. intros m M. rewrite (Sy k m K M). ring.
  - rewrite total_swap. transitivity (total (fun m => B j m * (if Nat.eqb i m then 1 else 0)) n); [|apply total_kron; exact Hi].
    apply total_ext. intros m M. rewrite <- (proj2 (I i m Hi M)), <- total_scale. apply total_ext. intros k K. ring.
Qed.
Lemma form_two n W u : form n W u = total (fun i => u i * total (fun j => W i j * u j) n) n.
Proof. unfold form. apply total_ext. intros i I. rewrite <- total_scale. apply total_ext. intros; ring. Qed.
Lemma total_minus n f g : total (fun i => f i - g i) n = total f n - total g n.
Proof.
  replace (total f n - total g n) with (total f n + -1 * total g n) by ring. rewrite <- total_scale, <- total_plus. apply total_ext. intros; ring.
Qed.
Section Sub.
  Variables (n m : nat) (C K U : nat -> nat -> R) (io : nat -> nat) (x : nat -> R).
  Hypothesis io_range : forall a, (1 <= a <= m)%nat -> (1 <= io a <= n)%nat.
  Hypothesis cov : covariance n C.
  Hypothesis invC : inverse_of n C K.
  Hypothesis invS : inverse_of m (fun a b => C (io a) (io b)) U.
  Let t (a : nat) : R := total (fun b => U a b * x (io b)) m.
  Let e (i : nat) : R := total (fun a => if Nat.eqb (io a) i then t a else 0) m.
  Let z (i : nat) : R := total (fun j => K i j * x j) n.
  Lemma sum_e f : total (fun i => f i * e i) n = total (fun a => f (io a) * t a) m.
  Proof.
    unfold e. transitivity (total (fun i => total (fun a => f i * (if Nat.eqb (io a) i then t a else 0)) m) n).
    - apply total_ext. intros i I. rewrite total_scale. reflexivity.
    - rewrite total_swap. apply total_ext. intros a A. rewrite (total_one n _ (io a) (io_range a A)).
      + rewrite Nat.eqb_refl. reflexivity.
      + intros i I N. destruct (Nat.eqb_spec (io a) i); [congruence | ring].
  Qed.
  Lemma Cz i : (1 <= i <= n)%nat -> total (fun j => C i j * z j) n = x i.
  Proof.
    intros I. unfold z. transitivity (total (fun j => total (fun k => C i j * K j k * x k) n) n).
    - apply total_ext. intros j J. rewrite <- total_scale. apply total_ext. intros; ring.
    - rewrite total_swap. transitivity (total (fun k => x k * (if Nat.eqb i k then 1 else 0)) n); [|apply total_kron; exact I].
      apply total_ext. intros k Hk. rewrite <- (proj1 (invC i k I Hk)), <- total_scale. apply total_ext. intros; ring.
  Qed.
  Lemma Ce i : (1 <= i <= n)%nat -> total (fun j => C i j * e j) n = total (fun b => C i (io b) * t b) m.
  Proof. intros I. rewrite sum_e. reflexivity. Qed.
  Lemma St a : (1 <= a <= m)%nat -> total (fun b => C (io a) (io b) * t b) m = x (io a).
  Proof.
    intros A. unfold t. transitivity (total (fun b => total (fun c => C (io a) (io b) * U b c * x (io c)) m) m).
    - apply total_ext. intros b B. rewrite <- total_scale. apply total_ext. intros; ring.
    - rewrite total_swap. transitivity (total (fun c => x (io c) * (if Nat.eqb a c then 1 else 0)) m); [|apply (total_kron m (fun c => x (io c))); exact A].
      apply total_ext. intros c Hc. rewrite <- (proj1 (invS a c A Hc)), <- total_scale. apply total_ext. intros; ring.
  Qed.
  Lemma ee : total (fun i => e i * total (fun j => C i j * e j) n) n = form m U (fun a => x (io a)).
  Proof.
    transitivity (total (fun i => (total (fun j => C i j * e j) n) * e i) n); [apply total_ext; intros; ring|].
    rewrite sum_e. rewrite form_two. apply total_ext. intros a A. rewrite Ce by (apply io_range; exact A). rewrite St by exact A. reflexivity.
  Qed.
  Lemma ex : total (fun i => x i * e i) n = form m U (fun a => x (io a)).
  Proof. rewrite sum_e, form_two. reflexivity. Qed.
  Lemma sub_le : form m U (fun a => x (io a)) <= form n K x.
  Proof.
    pose proof (proj2 cov (fun i => z i - e i)) as P. rewrite form_two in P.
    assert (Q : total (fun i => (z i - e i) * total (fun j => C i j * (z j - e j)) n) n = form n K x - form m U (fun a => x (io a))).
    { transitivity (total (fun i => ((z i * x i - x i * e i) - z i * total (fun j => C i j * e j) n) + e i * total (fun j => C i j * e j) n) n).
      - apply total_ext. intros i I.
        replace (total (fun j => C i j * (z j - e j)) n) with (x i - total (fun j => C i j * e j) n); [ring|].
        rewrite <- (Cz i I), <- total_minus. apply total_ext. intros; ring.
      - rewrite total_plus, ee. rewrite (total_minus n (fun i => z i * x i - x i * e i)), total_minus, ex.
        replace (total (fun i => z i * total (fun j => C i j * e j) n) n) with (form m U (fun a => x (io a))).
        + replace (total (fun i => z i * x i) n) with (form n K x); [ring|]. rewrite form_two. apply total_ext. intros i I. unfold z. ring.
        + rewrite <- ex. transitivity (total (fun i => total (fun j => C i j * z j) n * e i) n); [apply total_ext; intros i I; rewrite (Cz i I); reflexivity|].
          transitivity (total (fun i => total (fun j => C i j * z j * e i) n) n).
          { apply total_ext. intros i I. rewrite Rmult_comm, <- total_scale. apply total_ext. intros; ring. }
          rewrite total_swap. apply total_ext. intros i I. rewrite <- total_scale. apply total_ext. intros j J. rewrite (proj1 cov i j I J). ring. }
    rewrite Q in P. lra.
  Qed.
  Lemma sub_attained : exists y, (forall a, (1 <= a <= m)%nat -> y (io a) = x (io a)) /\ form n K y = form m U (fun a => x (io a)).
  Proof.
    exists (fun i => total (fun j => C i j * e j) n). split.
    - intros a A. rewrite Ce by (apply io_range; exact A). apply St. exact A.
    - rewrite form_two, <- ee. apply total_ext. intros i I. rewrite (Rmult_comm (e i)). f_equal.
      transitivity (total (fun j => total (fun k => K i j * C j k * e k) n) n).
      + apply total_ext. intros j J. rewrite <- total_scale. apply total_ext. intros; ring.
      + rewrite total_swap. transitivity (total (fun k => e k * (if Nat.eqb i k then 1 else 0)) n); [|apply total_kron; exact I].
        apply total_ext. intros k Hk. rewrite <- (proj2 (invC i k I Hk)), <- total_scale. apply total_ext. intros; ring.
  Qed.
End Sub.

(** ** Bins *)
Lemma fold_plus l a : fold_left Rplus l a = a + fold_left Rplus l 0.
Proof.
  revert a. induction l as [|x l IH]; intros a; cbn [fold_left]; [ring|]. rewrite (IH (a + x)), (IH (0 + x)). ring.
Qed.
Lemma sum_list_cons x l : sum_list (x :: l) = x + sum_list l.
Proof. unfold sum_list. cbn [fold_left]. rewrite fold_plus. ring. Qed.
Lemma bin_power_band p f CL i b x : bin_power p f CL i b = Ok x ->
  x = band (fun l => f_weights f (l - plmin p + 1)) (C_of (CL (fst (pair_of i)) (snd (pair_of i)))) (blmin p f b) (blmax p f b + 1 - blmin p f b).
Proof.
  unfold bin_power. generalize (blmin p f b) (blmax p f b + 1 - blmin p f b)%nat. intros s n E.
  destruct (all_of (weight p f) (seq s n)) as [ws| |] eqn:Q; try discriminate. cbn [bind] in E. 
  assert (X : x = sum_list (map (fun lw => CL (fst (pair_of i)) (snd (pair_of i)) (fst lw) * snd lw) (combine (seq s n) ws))) by congruence.
  rewrite X. clear E X. apply all_of_Forall2 in Q. revert s ws Q. induction n as [|n IH]; intros s ws Q; cbn [seq] in *.
  - reflexivity.
  - inversion Q as [|? w ? ws' W F]; subst. cbn [combine map]. rewrite sum_list_cons. cbn [band fst snd]. rewrite (IH _ _ F). f_equal.
    unfold weight in W. destruct (_ && _)%bool in W; [|discriminate].
    assert (Ew : w = f_weights f (s - plmin p + 1) * (2 * PI) / INR s / (INR s + 1)) by congruence. rewrite Ew.
    unfold C_of, Rdiv. rewrite Rinv_mult. ring.
Qed.
Lemma weights_Ok p f s n : (n <> 0 -> plmin p <= s /\ s + n <= plmin p + nweights f)%nat -> exists ws, all_of (weight p f) (seq s n) = Ok ws.
Proof.
  intros A. apply all_of_Ok. intros l L. apply in_seq in L. unfold weight.
  destruct (Nat.leb_spec (plmin p) l); [|lia]. destruct (Nat.ltb_spec l (plmin p + nweights f)); [|lia]. cbn [andb]. eauto.
Qed.
