(** Lemmas on the test of Raftery and Lewis. *)
From Coq Require Import Reals ZArith QArith Lia Lra Bool.
From Verif Require Import PyStr PyBase ThinModel ThinSpec ThinProofs RaftModel RaftSpec.
From Coq Require Import List.
Import ListNotations.
Local Open Scope R_scope.

(** ** Likelihoods *)
Lemma xl_add n m p : xl (n + m) p = xl n p + xl m p.
Proof.
  unfold xl. destruct n as [| n]; [cbn [Nat.eqb plus]; ring |]. destruct m as [| m]; [rewrite Nat.add_0_r; cbn [Nat.eqb]; ring |]. replace (S n + S m)%nat with (S (n + S m)) by lia. cbn [Nat.eqb]. change (S (n + S m)) with (S n + S m)%nat. rewrite plus_INR. ring.
Qed.
Lemma INR_S_pos n : 0 < INR (S n).
Proof. apply lt_0_INR. lia. Qed.
Lemma ln_le_sub x : 0 < x -> ln x <= x - 1.
Proof. intro P. destruct (Req_dec x 1) as [-> | N]; [rewrite ln_1; lra |]. left. assert (E : exp (ln x) = x) by (now apply exp_ln). pose proof (exp_ineq1 (ln x)) as Q. assert (LN : ln x <> 0) by (intro Z; rewrite Z, exp_0 in E; congruence). specialize (Q LN). lra. Qed.
Lemma gibbs_term n N q : (0 < N)%nat -> 0 <= q -> (n <> 0%nat -> 0 < q) -> xl n q - xl n (INR n / INR N) <= q * INR N - INR n.
Proof.
  intros PN Q H. unfold xl. destruct n as [| n]; cbn [Nat.eqb].
  - change (INR 0) with 0. assert (0 <= q * INR N) by (apply Rmult_le_pos; [exact Q | apply pos_INR]). lra.
  - specialize (H ltac:(lia)). pose proof (INR_S_pos n) as PS. assert (PR : 0 < INR N) by now apply lt_0_INR. set (a := INR (S n)) in *. set (b := INR N) in *.
    assert (AB : 0 < a / b) by now apply Rdiv_lt_0_compat. assert (E : ln q - ln (a / b) = ln (q * b / a)) by (replace (q * b / a) with (q * / (a / b)) by (field; lra); rewrite ln_mult by (trivial; now apply Rinv_0_lt_compat); rewrite ln_Rinv by exact AB; ring).
    replace (a * ln q - a * ln (a / b)) with (a * (ln q - ln (a / b))) by ring. rewrite E. assert (P : 0 < q * b / a) by (apply Rdiv_lt_0_compat; [now apply Rmult_lt_0_compat | exact PS]). pose proof (ln_le_sub _ P) as LE. apply Rle_trans with (a * (q * b / a - 1)); [apply Rmult_le_compat_l; lra |]. right. field. lra.
Qed.
(** the relative frequencies, one half each for nothing *)
Definition freq (n m : nat) : R := if Nat.eqb (n + m) 0 then 1 / 2 else INR n / INR (n + m).
Lemma gibbs n m (r : nat -> R) : law r -> (n <> 0%nat -> 0 < r 0%nat) -> (m <> 0%nat -> 0 < r 1%nat) -> xl n (r 0%nat) + xl m (r 1%nat) <= xl n (freq n m) + xl m (freq m n).
Proof.
  intros (A & B & S1) H0 H1. unfold freq. rewrite (Nat.add_comm m n). destruct (Nat.eqb_spec (n + m) 0) as [Z | Z].
  - assert (n = 0)%nat as -> by lia. assert (m = 0)%nat as -> by lia. unfold xl. cbn [Nat.eqb]. lra.
  - assert (P : (0 < n + m)%nat) by lia. pose proof (gibbs_term n (n + m) (r 0%nat) P A H0). pose proof (gibbs_term m (n + m) (r 1%nat) P B H1). rewrite plus_INR in *. unfold two in S1. assert (r 0%nat * (INR n + INR m) + r 1%nat * (INR n + INR m) = INR n + INR m) by (rewrite <- Rmult_plus_distr_r, S1; ring). lra.
Qed.
Lemma freq_law n m : 0 <= freq n m /\ 0 <= freq m n /\ freq n m + freq m n = 1.
Proof.
  unfold freq. rewrite (Nat.add_comm m n). destruct (Nat.eqb_spec (n + m) 0) as [Z | Z]; [lra |]. assert (P : 0 < INR (n + m)) by (apply lt_0_INR; lia). pose proof (pos_INR n). pose proof (pos_INR m). split; [apply Rmult_le_pos; [lra | left; now apply Rinv_0_lt_compat] |]. split; [apply Rmult_le_pos; [lra | left; now apply Rinv_0_lt_compat] |]. rewrite plus_INR in *. field. lra.
Qed.
Lemma freq_pos n m : n <> 0%nat -> 0 < freq n m.
Proof. intro H. unfold freq. destruct (Nat.eqb_spec (n + m) 0); [lra |]. apply Rdiv_lt_0_compat; apply lt_0_INR; lia. Qed.
Definition other (z : nat) : nat := (1 - z)%nat.
Lemma bit_cases z : (z <= 1)%nat -> z = 0%nat \/ z = 1%nat.
Proof. lia. Qed.
Definition best2 (t : table3) x y z : R := freq (t x y z) (t x y (other z)).
Definition best1 (t : table3) y z : R := freq (t 0%nat y z + t 1%nat y z) (t 0%nat y (other z) + t 1%nat y (other z)).
Lemma best2_law t : law2 t (best2 t).
Proof.
  intros x y X Y. split.
  - destruct (freq_law (t x y 0%nat) (t x y 1%nat)) as (A & B & C). unfold law, two, best2. cbn. auto.
  - intros z Z N. now apply freq_pos.
Qed.
Lemma best1_law t : law1 t (best1 t).
Proof.
  intros y Y. split.
  - destruct (freq_law (t 0%nat y 0%nat + t 1%nat y 0%nat) (t 0%nat y 1%nat + t 1%nat y 1%nat)) as (A & B & C). unfold law, two, best1. cbn. auto.
  - intros x z X Z N. apply freq_pos. destruct (bit_cases x X) as [-> | ->]; lia.
Qed.
Lemma best2_best t q : law2 t q -> LL2 t q <= LL2 t (best2 t).
Proof.
  intro L. unfold LL2, two. assert (G : forall x y, (x <= 1)%nat -> (y <= 1)%nat -> xl (t x y 0%nat) (q x y 0%nat) + xl (t x y 1%nat) (q x y 1%nat) <= xl (t x y 0%nat) (best2 t x y 0%nat) + xl (t x y 1%nat) (best2 t x y 1%nat)). { intros x y X Y. destruct (L x y X Y) as (LA & P). unfold best2. cbn [other Nat.sub]. apply gibbs; auto. }
  pose proof (G 0%nat 0%nat ltac:(lia) ltac:(lia)). pose proof (G 0%nat 1%nat ltac:(lia) ltac:(lia)). pose proof (G 1%nat 0%nat ltac:(lia) ltac:(lia)). pose proof (G 1%nat 1%nat ltac:(lia) ltac:(lia)). lra.
Qed.
Lemma best1_best t p : law1 t p -> LL1 t p <= LL1 t (best1 t).
Proof.
  intro L. unfold LL1, two. assert (G : forall y, (y <= 1)%nat -> (xl (t 0%nat y 0%nat) (p y 0%nat) + xl (t 1%nat y 0%nat) (p y 0%nat)) + (xl (t 0%nat y 1%nat) (p y 1%nat) + xl (t 1%nat y 1%nat) (p y 1%nat)) <= (xl (t 0%nat y 0%nat) (best1 t y 0%nat) + xl (t 1%nat y 0%nat) (best1 t y 0%nat)) + (xl (t 0%nat y 1%nat) (best1 t y 1%nat) + xl (t 1%nat y 1%nat) (best1 t y 1%nat))).
  { intros y Y. rewrite <- !xl_add. destruct (L y Y) as (LA & P). unfold best1. cbn [other Nat.sub]. apply gibbs; [exact LA | |]; intro N; [destruct (t 0%nat y 0%nat) eqn:E; [apply (P 1%nat 0%nat); lia | apply (P 0%nat 0%nat); lia] | destruct (t 0%nat y 1%nat) eqn:E; [apply (P 1%nat 1%nat); lia | apply (P 0%nat 1%nat); lia]]. }
  pose proof (G 0%nat ltac:(lia)). pose proof (G 1%nat ltac:(lia)). lra.
Qed.
Lemma over_two f : over [0; 1]%nat f = two f.
Proof. unfold over, two. cbn [fold_left]. lra. Qed.
Lemma two_ext f g : f 0%nat = g 0%nat -> f 1%nat = g 1%nat -> two f = two g.
Proof. intros A B. unfold two. now rewrite A, B. Qed.
(** ln of a ratio of relative frequencies *)
Lemma ratio_xl n a b c p q : (n <> 0 -> 0 < a /\ 0 < b /\ 0 < c)%nat -> (n <> 0%nat -> p = INR n / INR a) -> (n <> 0%nat -> q = INR b / INR c) ->
  (if Nat.eqb n 0 then 0 else ln (INR n / (INR (a * b) / INR c)) * INR n) = xl n p - xl n q.
Proof.
  intros P EP EQ. unfold xl. destruct n as [| n]; cbn [Nat.eqb]; [ring |]. destruct (P ltac:(lia)) as (PA & PB & PC). rewrite (EP ltac:(lia)), (EQ ltac:(lia)). pose proof (INR_S_pos n). apply lt_0_INR in PA. apply lt_0_INR in PB. apply lt_0_INR in PC. rewrite mult_INR. set (k := INR (S n)) in *.
  replace (k / (INR a * INR b / INR c)) with (k / INR a * / (INR b / INR c)) by (field; lra). rewrite ln_mult; [| now apply Rdiv_lt_0_compat | apply Rinv_0_lt_compat; now apply Rdiv_lt_0_compat]. rewrite ln_Rinv by (now apply Rdiv_lt_0_compat). ring.
Qed.
Lemma freq_some n m : n <> 0%nat -> freq n m = INR n / INR (n + m).
Proof. intro N. unfold freq. destruct (Nat.eqb_spec (n + m) 0); [lia | reflexivity]. Qed.
Lemma g2_markov_gain t : g2_markov t = 2 * (LL2 t (best2 t) - LL1 t (best1 t)).
Proof.
  unfold g2_markov. f_equal. rewrite over_two. unfold LL2, LL1. transitivity (two (fun x => two (fun y => two (fun z => xl (t x y z) (best2 t x y z) - xl (t x y z) (best1 t y z))))); [| unfold two; ring].
  assert (G : forall x y z, (x <= 1)%nat -> (y <= 1)%nat -> (z <= 1)%nat -> (if Nat.eqb (t x y z) 0 then 0 else ln (INR (t x y z) / (INR ((t x y 0 + t x y 1) * (t 0 y z + t 1 y z))%nat / INR (t 0 y 0 + t 0 y 1 + t 1 y 0 + t 1 y 1)%nat)) * INR (t x y z)) = xl (t x y z) (best2 t x y z) - xl (t x y z) (best1 t y z)).
  { intros x y z X Y Z. apply ratio_xl; intro N; destruct (bit_cases x X) as [-> | ->]; destruct (bit_cases z Z) as [-> | ->]; cbn [other Nat.sub]; unfold best2, best1; cbn [other Nat.sub]; try lia; rewrite freq_some by lia; do 2 f_equal; lia. }
  apply two_ext; rewrite over_two; apply two_ext; rewrite over_two; apply two_ext; cbv zeta; apply G; lia.
Qed.
Lemma LL1_LL2 t p : law1 t p -> LL1 t p = LL2 t (fun _ y z => p y z) /\ law2 t (fun _ y z => p y z).
Proof. intro L. split; [reflexivity |]. intros x y X Y. destruct (L y Y) as (A & B). split; [exact A |]. intros z Z N. now apply (B x z). Qed.
Definition kbest1 (t : table2) x y : R := freq (t x y) (t x (other y)).
Definition kbest0 (t : table2) y : R := freq (t 0%nat y + t 1%nat y) (t 0%nat (other y) + t 1%nat (other y)).
Lemma kbest1_law t : klaw1 t (kbest1 t).
Proof.
  intros x X. split.
  - destruct (freq_law (t x 0%nat) (t x 1%nat)) as (A & B & C). unfold law, two, kbest1. cbn. auto.
  - intros y Y N. now apply freq_pos.
Qed.
Lemma kbest0_law t : klaw0 t (kbest0 t).
Proof.
  split.
  - destruct (freq_law (t 0%nat 0%nat + t 1%nat 0%nat) (t 0%nat 1%nat + t 1%nat 1%nat)) as (A & B & C). unfold law, two, kbest0. cbn. auto.
  - intros x y X Y N. apply freq_pos. destruct (bit_cases x X) as [-> | ->]; lia.
Qed.
Lemma kbest1_best t p : klaw1 t p -> KK1 t p <= KK1 t (kbest1 t).
Proof.
  intro L. unfold KK1, two. assert (G : forall x, (x <= 1)%nat -> xl (t x 0%nat) (p x 0%nat) + xl (t x 1%nat) (p x 1%nat) <= xl (t x 0%nat) (kbest1 t x 0%nat) + xl (t x 1%nat) (kbest1 t x 1%nat)). { intros x X. destruct (L x X) as (LA & P). unfold kbest1. cbn [other Nat.sub]. apply gibbs; auto. }
  pose proof (G 0%nat ltac:(lia)). pose proof (G 1%nat ltac:(lia)). lra.
Qed.
Lemma kbest0_best t r : klaw0 t r -> KK0 t r <= KK0 t (kbest0 t).
Proof.
  intros (LA & P). unfold KK0, two. assert (G : (xl (t 0%nat 0%nat) (r 0%nat) + xl (t 1%nat 0%nat) (r 0%nat)) + (xl (t 0%nat 1%nat) (r 1%nat) + xl (t 1%nat 1%nat) (r 1%nat)) <= (xl (t 0%nat 0%nat) (kbest0 t 0%nat) + xl (t 1%nat 0%nat) (kbest0 t 0%nat)) + (xl (t 0%nat 1%nat) (kbest0 t 1%nat) + xl (t 1%nat 1%nat) (kbest0 t 1%nat))).
  { rewrite <- !xl_add. unfold kbest0. cbn [other Nat.sub]. apply gibbs; [exact LA | |]; intro N; [destruct (t 0%nat 0%nat) eqn:E; [apply (P 1%nat 0%nat); lia | apply (P 0%nat 0%nat); lia] | destruct (t 0%nat 1%nat) eqn:E; [apply (P 1%nat 1%nat); lia | apply (P 0%nat 1%nat); lia]]. }
  lra.
Qed.
Lemma g2_indep_gain t rows : (1 < rows)%nat -> (t 0 0 + t 0 1 + t 1 0 + t 1 1 = rows - 1)%nat -> g2_indep rows t = Some (2 * (KK1 t (kbest1 t) - KK0 t (kbest0 t))).
Proof.
  intros LR TOT. unfold g2_indep. cbv zeta. match goal with |- (if ?c then _ else _) = _ => destruct c eqn:E end.
  - exfalso. apply existsb_exists in E. destruct E as ((x, y) & I & E). cbn [fst snd] in E. apply andb_prop in E. destruct E as (N & E). apply negb_true_iff, Nat.eqb_neq in N. assert (PR : 0 < INR (rows - 1)) by (apply lt_0_INR; lia). destruct (Rle_dec (INR ((t x 0 + t x 1) * (t 0 y + t 1 y))%nat / INR (rows - 1)) 0) as [Q | _].
    + assert (0 < INR ((t x 0 + t x 1) * (t 0 y + t 1 y))%nat / INR (rows - 1)); [| lra]. apply Rdiv_lt_0_compat; [| exact PR]. apply lt_0_INR. cbn [In] in I. apply Nat.mul_pos_pos; destruct I as [I | [I | [I | [I | []]]]]; injection I as <- <-; lia.
    + destruct (Rle_dec (INR (t x y)) 0) as [Q | _]; [| discriminate E]. assert (0 < INR (t x y)) by (apply lt_0_INR; lia). lra.
  - do 2 f_equal. rewrite over_two. unfold KK1, KK0. transitivity (two (fun x => two (fun y => xl (t x y) (kbest1 t x y) - xl (t x y) (kbest0 t y)))); [| unfold two; ring].
    assert (G : forall x y, (x <= 1)%nat -> (y <= 1)%nat -> (if Nat.eqb (t x y) 0 then 0 else ln (INR (t x y) / (INR ((t x 0 + t x 1) * (t 0 y + t 1 y))%nat / INR (rows - 1))) * INR (t x y)) = xl (t x y) (kbest1 t x y) - xl (t x y) (kbest0 t y)).
    { intros x y X Y. apply ratio_xl; intro N; destruct (bit_cases x X) as [-> | ->]; destruct (bit_cases y Y) as [-> | ->]; unfold kbest1, kbest0; cbn [other Nat.sub]; try lia; rewrite freq_some by lia; do 2 f_equal; lia. }
    apply two_ext; rewrite over_two; apply two_ext; apply G; lia.
Qed.
(** ** Counts *)
Lemma count_filter (f : nat -> nat) v l : count_occ Nat.eq_dec (map f l) v = length (filter (fun i => Nat.eqb (f i) v) l).
Proof. induction l as [| a l IH]; [reflexivity |]. cbn [map count_occ filter]. destruct (Nat.eq_dec (f a) v) as [E | E]; [apply Nat.eqb_eq in E | apply Nat.eqb_neq in E]; rewrite E; cbn [length]; now rewrite IH. Qed.
Lemma bit_nth b i : bits b -> (nth i b 0 <= 1)%nat.
Proof. intro B. destruct (Nat.lt_ge_cases i (length b)); [apply B, nth_In; assumption | rewrite nth_overflow by assumption; lia]. Qed.
Lemma filter_ext_len {A} (f g : A -> bool) l : (forall x, In x l -> f x = g x) -> length (filter f l) = length (filter g l).
Proof. intro H. f_equal. now apply filter_ext_in. Qed.
Lemma bincount3_occurs b x y z : bits b -> (x <= 1)%nat -> (y <= 1)%nat -> (z <= 1)%nat -> bincount3 b x y z = occurs3 b x y z.
Proof.
  intros B X Y Z. unfold bincount3, occurs3, indexes3. rewrite count_filter. apply filter_ext_len. intros i _. rewrite (Nat.add_1_r i). replace (i + 2)%nat with (S (S i)) by lia. pose proof (bit_nth b i B). pose proof (bit_nth b (S i) B). pose proof (bit_nth b (S (S i)) B).
  destruct (Nat.eqb_spec (nth i b 0%nat) x), (Nat.eqb_spec (nth (S i) b 0%nat) y), (Nat.eqb_spec (nth (S (S i)) b 0%nat) z); cbn [andb]; apply Nat.eqb_eq || apply Nat.eqb_neq; lia.
Qed.
Lemma bincount2_occurs b x y : bits b -> (x <= 1)%nat -> (y <= 1)%nat -> bincount2 b x y = occurs2 b x y.
Proof.
  intros B X Y. unfold bincount2, occurs2, indexes2. rewrite count_filter. apply filter_ext_len. intros i _. rewrite (Nat.add_1_r i). pose proof (bit_nth b i B). pose proof (bit_nth b (S i) B).
  destruct (Nat.eqb_spec (nth i b 0%nat) x), (Nat.eqb_spec (nth (S i) b 0%nat) y); cbn [andb]; apply Nat.eqb_eq || apply Nat.eqb_neq; lia.
Qed.
Lemma filter_split {A} (f g : A -> bool) l : length (filter f l) = (length (filter (fun x => f x && g x) l) + length (filter (fun x => f x && negb (g x)) l))%nat.
Proof. induction l as [| a l IH]; [reflexivity |]. cbn [filter]. destruct (f a), (g a); cbn [andb negb length]; lia. Qed.
Lemma total2 b : bits b -> (bincount2 b 0 0 + bincount2 b 0 1 + bincount2 b 1 0 + bincount2 b 1 1 = length b - 1)%nat.
Proof.
  intro B. unfold bincount2. assert (G : forall l, (forall x, In x l -> x <= 3)%nat -> (count_occ Nat.eq_dec l 0 + count_occ Nat.eq_dec l 1 + count_occ Nat.eq_dec l 2 + count_occ Nat.eq_dec l 3 = length l)%nat).
  { induction l as [| a l IH]; intro H; [reflexivity |]. pose proof (H a (or_introl eq_refl)). specialize (IH (fun x I => H x (or_intror I))). cbn [count_occ length]. assert (C : a = 0%nat \/ a = 1%nat \/ a = 2%nat \/ a = 3%nat) by lia. destruct C as [-> | [-> | [-> | ->]]]; cbn; lia. }
  cbn [Nat.mul plus]. rewrite G; [unfold indexes2; now rewrite map_length, seq_length |]. intros x I. apply in_map_iff in I. destruct I as (i & <- & _). pose proof (bit_nth b i B). pose proof (bit_nth b (i + 1) B). lia.
Qed.
Lemma binchain_bits u xs : bits (binchain u xs).
Proof. intros x I. apply in_map_iff in I. destruct I as (y & <- & _). destruct (Rle_dec u y); lia. Qed.
(** ** Convergence of the two-state chain *)
Lemma evolve_eq a b p n : 0 < a + b -> evolve a b p n - b / (a + b) = (1 - (a + b)) ^ n * (p - b / (a + b)).
Proof. intro P. induction n as [| n IH]; cbn [evolve pow]; [ring |]. rewrite Rmult_assoc, <- IH. field. lra. Qed.
Lemma floorN_spec x : 0 <= x -> INR (floorN x) <= x < INR (floorN x) + 1.
Proof.
  intro P. unfold floorN. destruct (archimed x) as (A & B). assert (0 < up x)%Z by (apply lt_IZR; lra). rewrite INR_IZR_INZ, Z2Nat.id by lia. rewrite minus_IZR. lra.
Qed.
Lemma ln_pow_lt l n c : 0 < l -> 0 < c -> l ^ n < c <-> INR n * ln l < ln c.
Proof.
  intros L C. rewrite <- ln_pow by exact L. split; [apply ln_increasing; now apply pow_lt |]. intro H. now apply ln_lt_inv; [apply pow_lt | |].
Qed.
(** ** Thinning *)
Lemma list_max_ge l x : In x l -> (x <= list_max l)%nat.
Proof. intro I. assert (F : Forall (fun k => k <= list_max l)%nat l) by (now apply list_max_le). rewrite Forall_forall in F. now apply F. Qed.
Lemma list_sum_units ns : length (units ns) = list_sum ns.
Proof. rewrite units_eq. apply units_from_length. Qed.
Lemma burn_ok eps a b t : 0 < a <= 1 -> 0 < b <= 1 -> 0 < eps < 1 / 2 -> burn_steps eps a b = inr t -> (forall n, settled eps a b n <-> t < INR n) /\ 0 < t.
Proof.
  intros A B E. unfold burn_steps. cbv zeta. destruct (Req_EM_T (a + b) 1) as [| N1]; [discriminate |]. destruct (Req_EM_T (ln (Rabs (1 - (a + b)))) 0) as [| N2]; [discriminate |]. intro H. assert (ET : t = ln ((a + b) * eps / Rmax a b) / ln (Rabs (1 - (a + b)))) by congruence. clear H.
  set (l := Rabs (1 - (a + b))) in *. assert (L0 : 0 < l) by (apply Rabs_pos_lt; lra). assert (L1 : l < 1). { assert (l <= 1) by (unfold l, Rabs; destruct (Rcase_abs (1 - (a + b))); lra). assert (l <> 1) by (intro Z; apply N2; rewrite Z; apply ln_1). lra. } assert (LN : ln l < 0) by (rewrite <- ln_1; now apply ln_increasing).
  set (M := Rmax a b) in *. assert (MA : a <= M) by apply Rmax_l. assert (MB : b <= M) by apply Rmax_r. assert (MC : M = a \/ M = b) by (unfold M, Rmax; destruct (Rle_dec a b); auto). set (c := (a + b) * eps / M) in *. assert (C0 : 0 < c) by (apply Rdiv_lt_0_compat; [apply Rmult_lt_0_compat; lra | lra]).
  assert (C1 : c < 1). { apply Rmult_lt_reg_r with M; [lra |]. unfold c, Rdiv. rewrite Rmult_assoc, Rinv_l by lra. nra. } assert (LC : ln c < 0) by (rewrite <- ln_1; now apply ln_increasing).
  assert (TE : t * ln l = ln c) by (rewrite ET; field; lra). assert (T0 : 0 < t) by (destruct (Rlt_dec 0 t); [assumption | exfalso; nra]).
  split; [| exact T0]. assert (K : forall n, l ^ n < c <-> t < INR n). { intro n. rewrite (ln_pow_lt l n c L0 C0), <- TE. split; intro H; nra. }
  assert (EQ : forall p n, Rabs (evolve a b p n - b / (a + b)) = l ^ n * Rabs (p - b / (a + b))) by (intros p n; rewrite evolve_eq by lra; rewrite Rabs_mult, <- RPow_abs; reflexivity).
  assert (P0 : Rabs (0 - b / (a + b)) = b / (a + b)) by (rewrite Rminus_0_l, Rabs_Ropp; apply Rabs_pos_eq; left; apply Rdiv_lt_0_compat; lra). assert (P1 : Rabs (1 - b / (a + b)) = a / (a + b)) by (replace (1 - b / (a + b)) with (a / (a + b)) by (field; lra); apply Rabs_pos_eq; left; apply Rdiv_lt_0_compat; lra).
  assert (CM : c * (M / (a + b)) = eps) by (unfold c; field; lra). assert (MP : 0 < M / (a + b)) by (apply Rdiv_lt_0_compat; lra).
  intro n. rewrite <- K. assert (LP : 0 < l ^ n) by now apply pow_lt. split.
  - intro ST. apply Rmult_lt_reg_r with (M / (a + b)); [exact MP |]. rewrite CM. destruct MC as [-> | ->].
    + rewrite <- P1, <- EQ. apply ST. lra.
    + rewrite <- P0, <- EQ. apply ST. lra.
  - intros H p P. rewrite EQ. apply Rle_lt_trans with (l ^ n * (M / (a + b))); [| rewrite <- CM; now apply Rmult_lt_compat_r]. apply Rmult_le_compat_l; [lra |]. assert (I : 0 < / (a + b)) by (apply Rinv_0_lt_compat; lra). unfold Rdiv. apply Rabs_le. assert (0 <= b * / (a + b)) by nra. assert (EB : 1 = (a + b) * / (a + b)) by (field; lra). assert (b * / (a + b) <= M * / (a + b)) by (apply Rmult_le_compat_r; lra). assert (a * / (a + b) <= M * / (a + b)) by (apply Rmult_le_compat_r; lra). split; lra.
Qed.
Lemma burn_floor eps a b t : 0 < a <= 1 -> 0 < b <= 1 -> 0 < eps < 1 / 2 -> burn_steps eps a b = inr t -> (1 <= floorN (t + 1))%nat /\ (forall n, (floorN (t + 1) <= n)%nat -> settled eps a b n) /\ ~ settled eps a b (floorN (t + 1) - 1).
Proof.
  intros A B E H. destruct (burn_ok eps a b t A B E H) as (K & T). destruct (floorN_spec (t + 1) ltac:(lra)) as (F1 & F2). set (m := floorN (t + 1)) in *. assert (M1 : (1 <= m)%nat) by (destruct m; [cbn in F2; lra | lia]). split; [exact M1 |]. split.
  - intros n N. apply K. apply le_INR in N. lra.
  - rewrite K. rewrite minus_INR by exact M1. change (INR 1) with 1. lra.
Qed.
(** the model's tables and those of the specification agree on bits *)
Lemma gain2_ext t t' g : (forall x y z, (x <= 1)%nat -> (y <= 1)%nat -> (z <= 1)%nat -> t x y z = t' x y z) -> gain2 t g -> gain2 t' g.
Proof.
  intro H. assert (L2 : forall q, LL2 t q = LL2 t' q) by (intro q; unfold LL2, two; rewrite !H by lia; reflexivity). assert (L1 : forall p, LL1 t p = LL1 t' p) by (intro p; unfold LL1, two; rewrite !H by lia; reflexivity).
  assert (W2 : forall q, law2 t q <-> law2 t' q) by (intro q; unfold law2; split; intros W x y X Y; destruct (W x y X Y) as (A & B); split; trivial; intros z Z N; apply B; trivial; [rewrite H | rewrite <- H]; trivial). assert (W1 : forall p, law1 t p <-> law1 t' p) by (intro p; unfold law1; split; intros W y Y; destruct (W y Y) as (A & B); split; trivial; intros x z X Z N; apply (B x); trivial; [rewrite H | rewrite <- H]; trivial).
  intros (q & p & A & B & C & D & E). exists q, p. rewrite <- W2, <- W1, <- L2, <- L1. split; [exact A |]. split; [exact B |]. split; [intros q' Q; rewrite <- !L2; apply C; now apply W2 |]. split; [intros p' P; rewrite <- !L1; apply D; now apply W1 | exact E].
Qed.
Lemma gain1_ext t t' g : (forall x y, (x <= 1)%nat -> (y <= 1)%nat -> t x y = t' x y) -> gain1 t g -> gain1 t' g.
Proof.
  intro H. assert (L1 : forall p, KK1 t p = KK1 t' p) by (intro p; unfold KK1, two; rewrite !H by lia; reflexivity). assert (L0 : forall r, KK0 t r = KK0 t' r) by (intro r; unfold KK0, two; rewrite !H by lia; reflexivity).
  assert (W1 : forall p, klaw1 t p <-> klaw1 t' p) by (intro p; unfold klaw1; split; intros W x X; destruct (W x X) as (A & B); split; trivial; intros y Y N; apply B; trivial; [rewrite H | rewrite <- H]; trivial). assert (W0 : forall r, klaw0 t r <-> klaw0 t' r) by (intro r; unfold klaw0; split; intros (A & B); split; trivial; intros x y X Y N; apply (B x); trivial; [rewrite H | rewrite <- H]; trivial).
  intros (q & p & A & B & C & D & E). exists q, p. rewrite <- W1, <- W0, <- L1, <- L0. split; [exact A |]. split; [exact B |]. split; [intros q' Q; rewrite <- !L1; apply C; now apply W1 |]. split; [intros p' P; rewrite <- !L0; apply D; now apply W0 | exact E].
Qed.
Lemma gain2_unique t g h : gain2 t g -> gain2 t h -> g = h.
Proof. intros (q & p & A & B & C & D & E) (q' & p' & A' & B' & C' & D' & E'). specialize (C q' A'). specialize (C' q A). specialize (D p' B'). specialize (D' p B). lra. Qed.
Lemma gain1_unique t g h : gain1 t g -> gain1 t h -> g = h.
Proof. intros (q & p & A & B & C & D & E) (q' & p' & A' & B' & C' & D' & E'). specialize (C q' A'). specialize (C' q A). specialize (D p' B'). specialize (D' p B). lra. Qed.
Lemma g2_markov_is t : gain2 t (g2_markov t).
Proof. exists (best2 t), (best1 t). split; [apply best2_law |]. split; [apply best1_law |]. split; [apply best2_best |]. split; [apply best1_best | apply g2_markov_gain]. Qed.
Lemma binary_flags xs j u ix : binary xs j u ix = flags (xs j) u ix.
Proof. unfold binary, binchain, flags. rewrite map_map. apply map_ext. intro i. unfold below. destruct (Rle_dec u (nth i (xs j) 0)), (Rlt_dec (nth i (xs j) 0) u); reflexivity || lra. Qed.
Lemma flags_bits xs u ix : bits (flags xs u ix).
Proof. intros x I. apply in_map_iff in I. destruct I as (i & <- & _). unfold below. destruct (Rlt_dec (nth i xs 0) u); lia. Qed.
