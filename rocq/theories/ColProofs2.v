From Coq Require Import Reals String Ascii Bool Arith ZArith Lia Lra List Permutation.
From Verif Require Import PyStr NamesModel NamesSpec NamesProofs StatModel LikeModel PsetProofs ColModel ColSpec ColProofs.
Import ListNotations.
Local Open Scope R_scope.
Local Open Scope list_scope.
Local Open Scope nat_scope.

Lemma NoDup_left {A} (a b : list A) : NoDup (a ++ b) -> NoDup a.
Proof. induction b as [| x b IH]; [now rewrite app_nil_r |]. intro H. apply IH. now apply NoDup_remove_1 in H. Qed.
Lemma NoDup_right {A} (a b : list A) : NoDup (a ++ b) -> NoDup b.
Proof. induction a as [| x a IH]; [easy |]. intro H. apply IH. now apply NoDup_cons_iff in H. Qed.
Definition pairs_ok (N : list str) (ps : list (nat * R)) (np : list (str * R)) : Prop :=
  Forall2 (fun a b => nth_error N (fst a) = Some (fst b) /\ snd a = snd b) ps np.
Lemma find_app {A} f (a b : list A) : find f (a ++ b) = match find f a with Some x => Some x | None => find f b end.
Proof. induction a as [| x a IH]; cbn; [reflexivity |]. destruct (f x); [reflexivity | exact IH]. Qed.
Lemma find_last N ps np k n : NoDup N -> nth_error N k = Some n -> pairs_ok N ps np ->
  match find (fun q => fst q =? k) (rev ps) with Some q => last_value np n (snd q) | None => ~ In n (map fst np) end.
Proof.
  intros ND E H. induction H as [| a b ps np [Ha Hb] _ IH]; [intros [] |]. cbn [rev map]. rewrite find_app. cbn [find].
  destruct (find _ (rev ps)) as [q |].
  - destruct IH as (x & y & -> & NI). exists (b :: x), y. now split.
  - destruct (Nat.eqb_spec (fst a) k) as [X | X].
    + exists [], np. rewrite Hb, X in *. split; [| exact IH]. cbn. f_equal. destruct b as [bn bv]. cbn in *. congruence.
    + cbn. intros [Y | Y]; [| contradiction]. apply X. rewrite NoDup_nth_error in ND. apply ND; [apply nth_error_Some; congruence |]. congruence.
Qed.
Lemma last_combine N vals k n v : NoDup N -> nth_error N k = Some n -> nth_error vals k = Some v ->
  last_value (combine N vals) n v.
Proof.
  revert N vals. induction k as [| k IH]; intros [| m N] [| u vals] ND E1 E2; try discriminate.
  - cbn in E1, E2. injection E1 as ->. injection E2 as ->. exists [], (combine N vals). split; [reflexivity |].
    apply NoDup_cons_iff in ND. destruct ND as [ND _]. intro I. apply ND. apply in_map_iff in I. destruct I as ((x & y) & <- & I). now apply in_combine_l in I.
  - apply NoDup_cons_iff in ND. destruct ND as [_ ND]. destruct (IH N vals ND E1 E2) as (a & b & E & NI).
    exists ((m, u) :: a), b. cbn. now rewrite E.
Qed.
Lemma last_app a b n v : last_value a n v -> ~ In n (map fst b) -> last_value (a ++ b) n v.
Proof.
  intros (x & y & -> & NI) H. exists x, (y ++ b). rewrite <- app_assoc. split; [reflexivity |]. rewrite map_app, in_app_iff. tauto.
Qed.
Lemma last_app_r a b n v : last_value b n v -> last_value (a ++ b) n v.
Proof. intros (x & y & -> & NI). exists (a ++ x), y. now rewrite <- app_assoc. Qed.

(** The derived parameters of theory and likelihoods *)
Lemma all_puts (dix : list (list nat)) : forall given nix P init,
  fold_left (fun d q => put (fst (fst q)) (snd (fst q) (at_ P (snd q))) d) (combine (combine dix given) nix) init =
  fold_left (fun l q => upd (fst q) (snd q) l)
    (flat_map (fun q => combine (fst (fst q)) (snd (fst q) (at_ P (snd q)))) (combine (combine dix given) nix)) init.
Proof.
  induction dix as [| ix dix IH]; intros [| g given] [| jx nix] P init; try reflexivity. cbn [combine fold_left flat_map fst snd].
  rewrite IH, fold_left_app. reflexivity.
Qed.
Lemma pairs_combine N l ix vals : Forall2 (fun p k => nth_error N k = Some (nm p)) l ix ->
  pairs_ok N (combine ix vals) (combine (names_of l) vals).
Proof.
  intro H. revert vals. induction H as [| p k l ix E _ IH]; intros [| v vals]; try constructor; cbn; [now split | apply IH].
Qed.
Lemma pairs_app N a b c d : pairs_ok N a b -> pairs_ok N c d -> pairs_ok N (a ++ c) (b ++ d).
Proof. apply Forall2_app. Qed.
Lemma pairs_likes N P likes : forall dix given nix,
  Forall2 (fun lk ix => Forall2 (fun p k => nth_error N k = Some (nm p)) (derivs (lk_nuis lk)) ix) likes dix ->
  length nix = length likes ->
  pairs_ok N (flat_map (fun q => combine (fst (fst q)) (snd (fst q) (at_ P (snd q)))) (combine (combine dix given) nix))
             (like_pairs likes given (map (at_ P) nix)).
Proof.
  unfold like_pairs. induction likes as [| lk likes IH]; intros dix given nix H L; inversion H; subst; [constructor |].
  destruct nix as [| jx nix]; [discriminate |]. destruct given as [| g given]; [constructor |]. cbn [combine map flat_map fst snd].
  apply pairs_app; [now apply pairs_combine |]. apply IH; [assumption | now injection L].
Qed.
Lemma derived_values d D' th junk ps np : NoDup (names_of (d ++ D')) -> length th = length d ->
  pairs_ok (names_of (d ++ D')) ps np -> (forall p, In p D' -> In (nm p) (map fst np)) ->
  Forall2 (fun p v => last_value (combine (names_of d) th ++ np) (nm p) v) (d ++ D')
    (fold_left (fun l q => upd (fst q) (snd q) l) ps (th ++ repeat junk (length D'))).
Proof.
  intros ND LT H HD. set (res := fold_left _ _ _).
  assert (LR : length res = length (d ++ D')).
  { unfold res. rewrite put_seq_len, !app_length, repeat_length. lia. }
  assert (G : forall k p, nth_error (d ++ D') k = Some p -> exists v, nth_error res k = Some v /\ last_value (combine (names_of d) th ++ np) (nm p) v).
  { intros k p E. assert (LK : k < length (d ++ D')) by (apply nth_error_Some; congruence).
    assert (EN : nth_error (names_of (d ++ D')) k = Some (nm p)) by (unfold names_of; rewrite nth_error_map, E; reflexivity).
    pose proof (find_last _ ps np k (nm p) ND EN H) as F. unfold res. rewrite put_seq by (rewrite app_length, repeat_length, LT; rewrite app_length in LK; lia).
    destruct (find _ (rev ps)) as [q |].
    - exists (snd q). split; [reflexivity | now apply last_app_r].
    - destruct (Nat.lt_ge_cases k (length d)) as [C | C].
      + destruct (nth_error th k) as [v |] eqn:Ev; [| apply nth_error_None in Ev; lia]. exists v.
        rewrite nth_error_app1 by lia. split; [exact Ev |]. apply last_app; [| exact F]. apply (last_combine _ _ k).
        * rewrite names_app in ND. now apply NoDup_left in ND.
        * rewrite names_app, nth_error_app1 in EN; [exact EN | unfold names_of; rewrite map_length; lia].
        * exact Ev.
      + exfalso. apply F. apply HD. rewrite nth_error_app2 in E by exact C. now apply nth_error_In in E. }
  revert LR G. generalize (combine (names_of d) th ++ np). generalize (d ++ D'). clearbody res. clear. intros l pr.
  revert res. induction l as [| p l IH]; intros [| v res] LR G; try discriminate; constructor.
  - destruct (G 0 p eq_refl) as (v' & E & Hv). cbn in E. injection E as <-. exact Hv.
  - apply IH; [now injection LR |]. intros k q E. exact (G (S k) q E).
Qed.

(** ** Output likelihoods *)
Lemma fold_map {A B C} (f : C -> B -> C) (g : A -> B) l : forall c, fold_left (fun c a => f c (g a)) l c = fold_left f (map g l) c.
Proof. induction l as [| a l IH]; intro c; cbn; [reflexivity | apply IH]. Qed.
Lemma find_NoDup {A} (ps : list (nat * A)) k v : NoDup (map fst ps) -> In (k, v) ps -> find (fun q => fst q =? k) (rev ps) = Some (k, v).
Proof.
  induction ps as [| [k' v'] ps IH]; cbn; [tauto |]. intros ND [E | I]; apply NoDup_cons_iff in ND; destruct ND as [N1 N2]; rewrite find_app.
  - injection E as -> ->. destruct (find _ (rev ps)) as [q |] eqn:F.
    + exfalso. apply find_some in F. destruct F as [F1 F2]. apply Nat.eqb_eq in F2. apply N1. rewrite <- F2. apply in_map. now apply in_rev.
    + cbn. now rewrite Nat.eqb_refl.
  - now rewrite (IH N2 I).
Qed.
Lemma by_orig {A} (f : like -> A) likes d0 m : Permutation (map lk_orig likes) (seq 0 (length likes)) -> length likes <= m ->
  forall k, k < length likes -> exists lk, In lk likes /\ lk_orig lk = k /\
    nth_error (fold_left (fun a lk => upd (lk_orig lk) (f lk) a) likes (repeat d0 m)) k = Some (f lk).
Proof.
  intros PM LM k Hk. assert (I : In k (map lk_orig likes)) by (apply (Permutation_in _ (Permutation_sym PM)), in_seq; lia).
  apply in_map_iff in I. destruct I as (lk & E & I). exists lk. split; [exact I |]. split; [exact E |].
  pose proof (fold_map (fun a (q : nat * A) => upd (fst q) (snd q) a) (fun lk => (lk_orig lk, f lk)) likes (repeat d0 m)) as FM. cbn [fst snd] in FM.
  rewrite FM. rewrite put_seq by (rewrite repeat_length; lia).
  rewrite (find_NoDup _ k (f lk)); [reflexivity | |].
  - rewrite map_map. cbn. apply (Permutation_NoDup (Permutation_sym PM)), seq_NoDup.
  - apply in_map_iff. exists lk. now rewrite E.
Qed.
Lemma fold_upd_len {A} (f : like -> A) likes : forall l, length (fold_left (fun a lk => upd (lk_orig lk) (f lk) a) likes l) = length l.
Proof. induction likes as [| lk likes IH]; intro l; cbn; [reflexivity |]. now rewrite IH, upd_len. Qed.
Lemma order_at likes : Permutation (map lk_orig likes) (seq 0 (length likes)) -> length (original_order likes) = length likes /\
  forall k, k < length likes -> exists lk j, nth_error likes j = Some lk /\ lk_orig lk = k /\ nth_error (original_order likes) k = Some j.
Proof.
  intro PM. unfold original_order.
  pose proof (fold_map (fun a (q : nat * nat) => upd (fst q) (snd q) a) (fun q : nat * like => (lk_orig (snd q), fst q)) (combine (seq 0 (length likes)) likes)
    (repeat 0 (length likes))) as FM. cbn [fst snd] in FM. rewrite FM. clear FM.
  split; [now rewrite put_seq_len, repeat_length |]. intros k Hk.
  assert (I : In k (map lk_orig likes)) by (apply (Permutation_in _ (Permutation_sym PM)), in_seq; lia).
  apply in_map_iff in I. destruct I as (lk & E & I). apply In_nth_error in I. destruct I as [j I]. exists lk, j. split; [exact I |]. split; [exact E |].
  rewrite put_seq by (now rewrite repeat_length). rewrite (find_NoDup _ k j); [reflexivity | |].
  - rewrite map_map. cbn. replace (map (fun x => lk_orig (snd x)) (combine (seq 0 (length likes)) likes)) with (map lk_orig likes).
    + apply (Permutation_NoDup (Permutation_sym PM)), seq_NoDup.
    + clear. assert (G : forall s, map (fun x => lk_orig (snd x)) (combine (seq s (length likes)) likes) = map lk_orig likes).
      { induction likes as [| lk likes IH]; intro s; cbn; [reflexivity | now rewrite IH]. }
      now rewrite G.
  - apply in_map_iff. exists (j, lk). cbn. split; [now rewrite E |].
    assert (G : forall s l i, nth_error l i = Some lk -> In (s + i, lk) (combine (seq s (length l)) l)).
    { clear. intros s l. revert s. induction l as [| a l IH]; intros s [| i] H; try discriminate; cbn in *.
      - injection H as ->. left. now rewrite Nat.add_0_r.
      - right. replace (s + S i) with (S s + i) by lia. now apply IH. }
    exact (G 0 likes j I).
Qed.
Lemma chi2_at likes : Permutation (map lk_orig likes) (seq 0 (length likes)) ->
  length (chi2_names likes) = length likes + 1 /\
  (forall k, k < length likes -> exists lk, In lk likes /\ lk_orig lk = k /\ nth_error (chi2_names likes) k = Some (chi2_name (lk_tag lk))) /\
  nth_error (chi2_names likes) (length likes) = Some (chi2_name (L "prior")).
Proof.
  intro PM. unfold chi2_names. set (f := fun lk => chi2_name (lk_tag lk)).
  assert (EL : length (fold_left (fun a lk => upd (lk_orig lk) (f lk) a) likes (repeat no_name (length likes + 1))) = length likes + 1)
    by (rewrite fold_upd_len, repeat_length; reflexivity).
  change (fun a lk => upd (lk_orig lk) (chi2_name (lk_tag lk)) a) with (fun a lk => upd (lk_orig lk) (f lk) a).
  split; [now rewrite upd_len | split].
  - intros k Hk. destruct (by_orig f likes no_name (length likes + 1) PM) with (k := k) as (lk & I & E & EN); [lia | exact Hk |].
    exists lk. split; [exact I |]. split; [exact E |]. rewrite nth_upd. replace (k =? length likes) with false by (symmetry; apply Nat.eqb_neq; lia). exact EN.
  - rewrite nth_upd, Nat.eqb_refl. destruct (nth_error _ (length likes)) eqn:E; [reflexivity |]. apply nth_error_None in E. lia.
Qed.
Lemma chi2_der likes : Permutation (map lk_orig likes) (seq 0 (length likes)) -> der_list (chi2_names likes).
Proof.
  intro PM. destruct (chi2_at likes PM) as (EL & A1 & A2). apply Forall_forall. intros p I. apply In_nth_error in I. destruct I as [k I].
  assert (k < length likes + 1) by (rewrite <- EL; apply nth_error_Some; congruence).
  destruct (Nat.eq_dec k (length likes)) as [-> | X]; [rewrite A2 in I; injection I as <-; reflexivity |].
  destruct (A1 k) as (lk & _ & _ & E); [lia |]. rewrite E in I. injection I as <-. reflexivity.
Qed.

Lemma at_type t : forall likes vals, length vals = length likes -> at_ vals (type_indices likes t) = of_type t likes vals.
Proof.
  unfold at_, type_indices, of_type. induction likes as [| lk likes IH]; intros [| v vals] E; try discriminate; [reflexivity |].
  cbn [length seq filter nth_error combine map fst].
  assert (ES : filter (fun j => match nth_error (lk :: likes) j with Some l => str_eqb (lk_type l) t | None => false end) (seq 1 (length likes)) =
    map S (filter (fun j => match nth_error likes j with Some l => str_eqb (lk_type l) t | None => false end) (seq 0 (length likes)))).
  { rewrite <- seq_shift. generalize (seq 0 (length likes)). intro l. induction l as [| a l IHl]; [reflexivity |]. cbn [map filter nth_error].
    destruct (match nth_error likes a with Some l => _ | None => _ end); cbn [map]; now rewrite IHl. }
  rewrite ES. specialize (IH vals ltac:(now injection E)). 
  destruct (str_eqb (lk_type lk) t); cbn [map nth snd]; rewrite map_map; cbn [nth]; [f_equal |]; exact IH.
Qed.
Lemma type_count t likes vals : length vals = length likes -> length (type_indices likes t) = length (of_type t likes vals).
Proof. intro E. rewrite <- at_type by exact E. unfold at_. now rewrite map_length. Qed.

(** Adding derived names that must be new *)
Lemma Add_NoDup a b r : Add false a b = Some r -> (forall p, In p b -> ~ In (nm p) (names_of a)) -> NoDup (names_of b).
Proof.
  unfold Add. cbn [andb]. intros E H.
  assert (EF : filter (fun p => negb (isin a (nm p))) b = b).
  { apply filter_all, Forall_forall. intros p I. apply negb_true_iff, isin_false. now apply H. }
  rewrite EF in E. destruct b as [| p b]; [constructor |]. set (B := p :: b) in *.
  change (add_pass true (add_pass true (add_pass false (add_pass false [] a) B) a) B) with (four a B) in E.
  destruct (Nat.eqb_spec (length (four a B)) (length a + length B)) as [EL | EL]; [| discriminate]. clear E.
  assert (ND : NoDup (names_of a ++ names_of B)).
  { apply (@NoDup_incl_NoDup _ (names_of (four a B))).
    - apply four_NoDup.
    - rewrite app_length. unfold names_of. rewrite !map_length. lia.
    - intros n I. apply four_incl in I. now apply in_or_app. }
  now apply NoDup_right in ND.
Qed.
Lemma Add_derived b d new r : base_list b -> der_list d -> NoDup (names_of (b ++ d)) -> der_list new -> Add true (b ++ d) new = Some r ->
  r = b ++ (d ++ new) /\ NoDup (names_of r) /\ der_list (d ++ new).
Proof.
  intros B D ND DN E. apply Add_check in E. destruct E as [E H]. pose proof (Add_NoDup _ _ _ E H) as N2.
  destruct (Add_shape b d new B D ND N2) as (E1 & E2 & _ & E4).
  { intros p I X. rewrite (proj1 (Forall_forall _ _) DN p I) in X. discriminate. }
  assert (X1 : newB (b ++ d) new = []).
  { unfold newB. apply filter_none, Forall_forall. intros p I. now rewrite (proj1 (Forall_forall _ _) DN p I). }
  assert (X2 : newD (b ++ d) new = new).
  { unfold newD. apply filter_all, Forall_forall. intros p I. rewrite (proj1 (Forall_forall _ _) DN p I). cbn. apply negb_true_iff.
    destruct (named_in (b ++ d) (nm p)) eqn:X; [| reflexivity]. apply named_In in X. now apply H in I. }
  rewrite X1, X2, app_nil_r in *. rewrite E1 in E. injection E as <-. now split.
Qed.
Lemma types_der likes : der_list (map chi2_name (sum_types likes)).
Proof. unfold der_list. rewrite Forall_map. apply Forall_forall. reflexivity. Qed.

Lemma WriteFile_cols b d used : base_list b -> der_list d -> Forall (fun i => i < length b) used ->
  WriteFile (b ++ d) used = Some (map (AsString false) (map (fun i => nth i b no_name) used ++ d)).
Proof.
  intros B D F. unfold WriteFile. destruct (num_split b d B D) as [-> ->].
  induction F as [| i used Hi _ IH].
  - cbn [app map]. assert (G : forall c, fold_right (fun i r => match nth_error (c ++ d) i, r with Some p, Some r => Some (AsString false p :: r) | _, _ => None end)
      (Some []) (seq (length c) (length d)) = Some (map (AsString false) d)).
    { clear. induction d as [| p d IH]; intro c; [reflexivity |]. cbn [length seq fold_right map].
      rewrite nth_error_app2, Nat.sub_diag by lia. cbn [nth_error]. specialize (IH (c ++ [p])). rewrite app_length in IH. cbn [length] in IH.
      rewrite Nat.add_1_r, <- app_assoc in IH. cbn [app] in IH. now rewrite IH. }
    now apply G.
  - cbn [app map fold_right]. rewrite IH. rewrite nth_error_app1 by exact Hi. rewrite (nth_error_nth' b no_name Hi). reflexivity.
Qed.

Lemma F2_nth {A B} (Q : A -> B -> Prop) l : forall r, length r = length l ->
  (forall k a b, nth_error l k = Some a -> nth_error r k = Some b -> Q a b) -> Forall2 Q l r.
Proof.
  induction l as [| a l IH]; intros [| b r] E H; try discriminate; constructor.
  - now apply (H 0).
  - apply IH; [now injection E |]. intros k x y. apply (H (S k)).
Qed.
Lemma F2_len {A B} (Q : A -> B -> Prop) l r : Forall2 Q l r -> length l = length r.
Proof. induction 1; cbn; congruence. Qed.
Lemma at_values names P l ix : length (names_of names) <= length P -> Forall2 (fun p k => nth_error (names_of names) k = Some (nm p)) l ix ->
  Forall2 (fun p v => value (names_of names) P (nm p) v) l (at_ P ix).
Proof.
  intros LP H. unfold at_. induction H as [| p k l ix E _ IH]; constructor; [| exact IH]. exists k. split; [exact E |].
  apply nth_error_nth'. assert (k < length (names_of names)) by (apply nth_error_Some; congruence). lia.
Qed.
Lemma value_mono {A} a b (P : list A) n v : value a P n v -> value (a ++ b) P n v.
Proof. intros (i & E & F). exists i. split; [| exact F]. rewrite nth_error_app1; [exact E |]. apply nth_error_Some. congruence. Qed.

Theorem columns_hold T likes names1 nix dix new names2 used given P th vals logLike junk :
  in_order T -> NoDup (names_of T) -> Forall (fits_like (derivs T) likes) likes ->
  Permutation (map lk_orig likes) (seq 0 (length likes)) ->
  AddNuisanceParameters T likes = Some (names1, nix, dix, new) -> AddOutputLikelihoodParams names1 likes = Some names2 ->
  length th = length (derivs T) -> length vals = length likes -> length given = length likes ->
  Forall2 (fun lk (g : list R -> list R) => forall x, length (g x) = length (derivs (lk_nuis lk))) likes given ->
  Forall (fun i => i < num_MCMC names2) used -> num_MCMC names2 <= length P ->
  exists args cols,
    Forall2 (fun lk a => Forall2 (fun p v => value (names_of names2) P (nm p) v) (bases (lk_nuis lk)) a) likes args /\
    WriteFile names2 used = Some (map (AsString false) cols) /\
    Forall2 (column names2 likes P (combine (names_of (derivs T)) th ++ like_pairs likes given args) vals logLike)
      cols (WriteParams used likes nix dix new given P th vals logLike junk) /\
    cols = map (fun i => nth i names2 no_name) used ++ derivs names2 /\ in_order names2 /\ NoDup (names_of names2).
Proof.
  intros (b & d & -> & B & D) ND F PM EA EO LT LV LG FG FU LP.
  assert (Bb : base_list b) by exact B. assert (Dd : der_list d) by exact D. clear B D.
  destruct (bases_split b d Bb Dd) as [_ ED]. rewrite ED in *.
  unfold AddNuisanceParameters in EA. destruct (add_nuisance (b ++ d) likes) as [[n1 nix1] |] eqn:EN; [| discriminate]. cbn [bindO fst snd] in EA.
  destruct (allSome _) as [dix1 |] eqn:EDX; [| discriminate]. cbn [bindO] in EA. injection EA as -> -> -> <-.
  destruct (add_all likes likes b d names1 nix (fun _ H => H) Bb Dd ND F EN) as (B' & D' & -> & B1 & D1 & ND1 & FN & HD).
  set (b1 := b ++ B') in *. set (d1 := d ++ D') in *.
  assert (NEW : Z.to_nat (Z.of_nat (num_derived (b1 ++ d1)) - Z.of_nat (num_derived (b ++ d))) = length D' /\
    (0 <=? Z.of_nat (num_derived (b1 ++ d1)) - Z.of_nat (num_derived (b ++ d)))%Z = true).
  { rewrite (proj2 (num_split b1 d1 B1 D1)), (proj2 (num_split b d Bb Dd)). unfold d1. rewrite app_length. split; [lia |]. apply Z.leb_le. lia. }
  destruct NEW as [NEW NEW2].
  (* the indices of derived parameters *)
  assert (FD : Forall2 (fun lk ix => Forall2 (fun p k => nth_error (names_of d1) k = Some (nm p)) (derivs (lk_nuis lk)) ix) likes dix).
  { apply allSome_F2 in EDX. clear - EDX F B1 D1. revert F. generalize likes at 1. intros all F. induction EDX as [| lk ix l r E _ IH]; [constructor |].
    constructor; [| apply IH; now apply Forall_inv_tail in F]. apply Forall_inv in F. destruct F as (O & _). now apply (derived_at b1 d1). }
  assert (LN : length nix = length likes) by (symmetry; now apply F2_len in FN).
  (* output likelihoods *)
  assert (OUT : exists C, names2 = b1 ++ (d1 ++ C) /\ der_list (d1 ++ C) /\ NoDup (names_of names2) /\
    C = match likes with [] => [] | _ => chi2_names likes ++ map chi2_name (sum_types likes) end).
  { unfold AddOutputLikelihoodParams in EO. destruct likes as [| lk0 likes0]; [injection EO as <-; exists []; rewrite app_nil_r; now repeat split |].
    set (likes := lk0 :: likes0) in *. destruct (Add true (b1 ++ d1) (chi2_names likes)) as [m |] eqn:E1; [| discriminate]. cbn [bindO] in EO.
    destruct (Add_derived b1 d1 _ m B1 D1 ND1 (chi2_der likes PM) E1) as (-> & N2 & D2).
    destruct (Add_derived b1 (d1 ++ chi2_names likes) _ names2 B1 D2 N2 (types_der likes) EO) as (-> & N3 & D3).
    exists (chi2_names likes ++ map chi2_name (sum_types likes)). rewrite <- !app_assoc in *. now repeat split. }
  destruct OUT as (C & EQ2 & DC & ND2 & EC). clear EO.
  assert (NM2 : num_MCMC names2 = length b1) by (rewrite EQ2; now apply num_split). rewrite NM2 in *.
  exists (map (at_ P) nix), (map (fun i => nth i b1 no_name) used ++ (d1 ++ C)). split; [| split; [| split; [| split; [| split]]]].
  - clear - FN LP EQ2. induction FN as [| lk ix l r E _ IH]; constructor; [| exact IH].
    assert (G : Forall2 (fun p v => value (names_of b1) P (nm p) v) (bases (lk_nuis lk)) (at_ P ix)).
    { apply at_values; [unfold names_of; now rewrite map_length | exact E]. }
    clear - G EQ2. induction G as [| p v l r V _ IH]; constructor; [| exact IH]. rewrite EQ2, names_app. now apply value_mono.
  - rewrite EQ2. now apply WriteFile_cols.
  - unfold WriteParams. apply Forall2_app.
    + (* the parameters *)
      unfold at_. clear - FU LP EQ2 B1. induction FU as [| i u Hi _ IH]; constructor; [| exact IH].
      assert (I : nth_error b1 i = Some (nth i b1 no_name)) by (now apply nth_error_nth'). unfold column.
      rewrite (proj1 (Forall_forall _ _) B1 _ (nth_error_In _ _ I)). exists i. split; [| apply nth_error_nth'; lia].
      rewrite EQ2, names_app, nth_error_app1 by (unfold names_of; now rewrite map_length). unfold names_of. now rewrite nth_error_map, I.
    + unfold addLikelihoodDerivedParams. rewrite NEW2, NEW, all_puts.
      set (np := like_pairs likes given (map (at_ P) nix)).
      assert (G1 : Forall2 (column names2 likes P (combine (names_of d) th ++ np) vals logLike) d1
        (fold_left (fun l q => upd (fst q) (snd q) l)
          (flat_map (fun q => combine (fst (fst q)) (snd (fst q) (at_ P (snd q)))) (combine (combine dix given) nix)) (th ++ repeat junk (length D')))).
      { assert (G0 : Forall2 (fun p v => last_value (combine (names_of d) th ++ np) (nm p) v) d1
          (fold_left (fun l q => upd (fst q) (snd q) l)
            (flat_map (fun q => combine (fst (fst q)) (snd (fst q) (at_ P (snd q)))) (combine (combine dix given) nix)) (th ++ repeat junk (length D')))).
        { apply derived_values.
          - rewrite names_app in ND1. now apply NoDup_right in ND1.
          - exact LT.
          - now apply pairs_likes.
          - intros p I. destruct (HD p I) as (lk & I1 & I2). unfold np, like_pairs.
            assert (LN' : length (map (at_ P) nix) = length likes) by (now rewrite map_length). clear - FG LN' I1 I2. revert LN' I1. generalize (map (at_ P) nix). intros args.
            revert args. induction FG as [| l g likes given Hg _ IH]; intros [| a args] LN' I1; try discriminate; [destruct I1 |].
            cbn [combine flat_map fst snd]. rewrite map_app, in_app_iff. destruct I1 as [-> | I1]; [left | right; apply IH; [now injection LN' | exact I1]].
            assert (EM : map fst (combine (names_of (derivs (lk_nuis lk))) (g a)) = names_of (derivs (lk_nuis lk))).
            { assert (LL : length (g a) = length (names_of (derivs (lk_nuis lk)))) by (unfold names_of; now rewrite map_length). clear - LL.
              revert LL. generalize (g a). generalize (names_of (derivs (lk_nuis lk))). intro l. induction l as [| x l IH]; intros [| y r] E; try discriminate; [reflexivity |].
              cbn. f_equal. apply IH. now injection E. }
            rewrite EM. now apply in_names. }
        clear - G0 D1. clearbody d1. induction G0 as [| p v l r V _ IH]; [constructor |].
        constructor; [| apply IH; now apply Forall_inv_tail in D1]. unfold column. rewrite (Forall_inv D1). now left. }
      destruct likes as [| lk0 likes0]; [rewrite EC, (app_nil_r d1); exact G1 |]. set (likes := lk0 :: likes0) in *.
      apply Forall2_app; [exact G1 |]. rewrite EC. clear EC G1 EQ2. clearbody likes. rewrite app_assoc. apply Forall2_app.
      * (* each likelihood and the prior *)
        destruct (chi2_at likes PM) as (CL & C1 & C2). destruct (order_at likes PM) as (OL & O1). pose proof (chi2_der likes PM) as CD.
        apply F2_nth; [rewrite app_length, map_length; unfold at_; rewrite map_length, OL, CL; reflexivity |].
        intros k p v E1 E2. unfold column. rewrite (proj1 (Forall_forall _ _) CD p (nth_error_In _ _ E1)). right.
        assert (K : k < length likes + 1) by (rewrite <- CL; apply nth_error_Some; congruence).
        destruct (Nat.eq_dec k (length likes)) as [-> | X].
        -- right; left. rewrite C2 in E1. injection E1 as <-. split; [reflexivity |].
           rewrite nth_error_app2 in E2 by (rewrite map_length; unfold at_; rewrite map_length; lia). rewrite map_length in E2. unfold at_ in E2.
           rewrite map_length, OL, Nat.sub_diag in E2. cbn [nth_error] in E2. injection E2 as <-. rewrite firstn_all2 by lia.
           reflexivity.
        -- left. destruct (C1 k) as (lk & I & O & EC1); [lia |]. rewrite EC1 in E1. injection E1 as <-.
           destruct (O1 k) as (lk' & j & Ij & O' & Eo); [lia |].
           assert (lk' = lk) as ->.
           { assert (NDo : NoDup (map lk_orig likes)) by (apply (Permutation_NoDup (Permutation_sym PM)), seq_NoDup).
             apply In_nth_error in I. destruct I as [j' Ij']. assert (j' = j) as ->.
             { rewrite NoDup_nth_error in NDo. apply NDo; [rewrite map_length; apply nth_error_Some; congruence |]. rewrite !nth_error_map, Ij, Ij'. cbn. congruence. }
             congruence. }
           assert (Hj : j < length vals) by (rewrite LV; apply nth_error_Some; congruence).
           destruct (nth_error vals j) as [l |] eqn:El; [| apply nth_error_None in El; lia]. exists lk, l. split; [| split; [reflexivity |]].
           ++ clear - Ij El. revert vals j Ij El. generalize likes. intro ls. induction ls as [| x ls IH]; intros [| y vs] [| j] A Bq; try discriminate; cbn in *.
              ** left. congruence.
              ** right. now apply (IH vs j).
           ++ rewrite nth_error_app1 in E2 by (rewrite map_length; unfold at_; rewrite map_length; lia). unfold at_ in E2.
              rewrite !nth_error_map, Eo in E2. cbn [option_map] in E2. injection E2 as <-. rewrite (nth_error_nth _ _ 0%R El). apply Rmult_comm.
      * (* the types *)
        apply F2_nth; [now rewrite !map_length |]. intros k p v E1 E2. rewrite nth_error_map in E1, E2. destruct (nth_error (sum_types likes) k) as [t |] eqn:Et; [| discriminate].
        cbn in E1, E2. injection E1 as <-. injection E2 as <-. unfold column. cbn [der chi2_name]. right. right. right. exists t. split; [reflexivity |].
        apply nth_error_In in Et. apply filter_In in Et. destruct Et as [_ Et]. apply Nat.ltb_lt in Et. rewrite (type_count t likes vals LV) in Et. split; [exact Et |].
        rewrite (at_type t likes vals LV), Rmult_comm. reflexivity.
  - rewrite EQ2. f_equal; [| destruct (bases_split b1 (d1 ++ C) B1 DC) as [_ ->]; reflexivity].
    apply map_ext_in. intros i I. rewrite Forall_forall in FU. symmetry. apply app_nth1. now apply FU.
  - exists b1, (d1 ++ C). now repeat split.
  - exact ND2.
Qed.
