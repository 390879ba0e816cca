(** Proofs about the limits of one dimensional densities. *)
From Verif Require Import PyStr PyBase DensModel DensSpec DensProofs.
From Coq Require Import QArith Qround Lqa Permutation Sorting.Sorted Psatz.
Local Open Scope nat_scope.

Lemma first_true_spec l : match first_true l with
  | Some i => i < length l /\ nth i l false = true /\ forall j, j < i -> nth j l false = false
  | None => forall j, nth j l false = false
  end.
Proof.
  induction l as [|b l IH]; cbn [first_true]; [intros [|j]; reflexivity|]. destruct b.
  - split; [cbn; lia|]. split; [reflexivity|lia].
  - destruct (first_true l) as [i|]; cbn [option_map].
    + destruct IH as [L [T F]]. split; [cbn; lia|]. split; [exact T|]. intros [|j] H; [reflexivity|]. apply F. lia.
    + intros [|j]; [reflexivity|apply IH].
Qed.
Lemma nth_above t l i : i < length l -> nth i (map (fun v => Qlt_b t v) l) false = Qlt_b t (nth i l 0%Q).
Proof. intros H. rewrite (nth_indep _ _ (Qlt_b t 0%Q)) by now rewrite map_length. apply (map_nth (fun v => Qlt_b t v)). Qed.
Lemma first_above t l : (exists i, i < length l /\ (t < nth i l 0)%Q) ->
  let i := argmax_b (map (fun v => Qlt_b t v) l) in i < length l /\ (t < nth i l 0)%Q /\ forall j, j < i -> (nth j l 0 <= t)%Q.
Proof.
  intros [k [Lk Hk]]. cbn zeta. pose proof (first_true_spec (map (fun v => Qlt_b t v) l)) as F. unfold argmax_b. destruct (first_true _) as [i|].
  - rewrite map_length in F. destruct F as [L [T F]]. split; [exact L|]. rewrite nth_above in T by exact L. split; [now apply Qlt_b_iff|].
    intros j H. specialize (F j H). rewrite nth_above in F by lia. now apply Qlt_b_false.
  - exfalso. specialize (F k). rewrite nth_above in F by exact Lk. apply Qlt_b_false in F. lra.
Qed.
Lemma last_above t l : (exists i, i < length l /\ (t < nth i l 0)%Q) ->
  let i := length l - argmax_b (map (fun v => Qlt_b t v) (rev l)) - 1 in i < length l /\ (t < nth i l 0)%Q /\ forall j, i < j < length l -> (nth j l 0 <= t)%Q.
Proof.
  intros [k [Lk Hk]]. destruct (first_above t (rev l)) as [L [T F]].
  - exists (length l - S k). rewrite rev_length. split; [lia|]. rewrite rev_nth by lia. now replace (length l - S (length l - S k)) with k by lia.
  - rewrite rev_length in L. cbn zeta. set (i := argmax_b _) in *. split; [lia|]. rewrite rev_nth in T by exact L. 
    replace (length l - i - 1) with (length l - S i) by lia. split; [exact T|]. intros j H. specialize (F (length l - S j) ltac:(lia)).
    rewrite rev_nth in F by lia. now replace (length l - S (length l - S j)) with j in F by lia.
Qed.
Lemma inj_S i : (inj (S i) == inj i + 1)%Q.
Proof. unfold inj. rewrite Nat2Z.inj_succ, <- Z.add_1_r, inject_Z_plus. reflexivity. Qed.
Lemma inj_le i j : i <= j -> (inj i <= inj j)%Q.
Proof. intros H. unfold inj. rewrite <- Zle_Qle. lia. Qed.
Lemma x_at_mono g i j : (0 < lg_fine g)%Q -> i <= j -> (x_at g i <= x_at g j)%Q.
Proof. intros F H. unfold x_at. pose proof (inj_le i j H). assert (inj i * lg_fine g <= inj j * lg_fine g)%Q by (apply Qmult_le_compat_r; lra). lra. Qed.
Lemma qdiv_ok a b : ~ (b == 0)%Q -> qdiv a b = Ok (a / b)%Q.
Proof. intros H. unfold qdiv. destruct (Qeq_bool b 0) eqn:E; [|reflexivity]. apply Qeq_bool_iff in E. contradiction. Qed.
Lemma frac_bounds a t b : (b <= t)%Q -> (t < a)%Q -> (0 < (a - t) / (a - b))%Q /\ ((a - t) / (a - b) <= 1)%Q /\ ((a - t) / (a - b) * (a - b) == a - t)%Q.
Proof.
  intros H1 H2. assert (P : (0 < a - b)%Q) by lra. split; [apply Qlt_shift_div_l; [exact P|lra]|]. split; [apply Qle_shift_div_r; [exact P|lra]|].
  field. lra.
Qed.
Lemma limits_interval g t : lg_ok g -> (exists v, In v (lg_grid g) /\ (t < v)%Q) -> exists r, limits_of g t = Ok r /\ interval_for g t r.
Proof.
  intros [L [Fp [Xn _]]] [v [Iv Hv]]. set (n := length (lg_grid g)) in *.
  assert (Ex : exists i, i < length (lg_grid g) /\ (t < nth i (lg_grid g) 0)%Q).
  { apply In_nth with (d := 0%Q) in Iv. destruct Iv as [i [Hi E]]. exists i. split; [exact Hi|]. now rewrite E. }
  destruct (first_above t (lg_grid g) Ex) as [Li [Ti Fi]]. destruct (last_above t (lg_grid g) Ex) as [Lj [Tj Fj]].
  unfold limits_of. cbn zeta in *. set (i := argmax_b (map (fun v => Qlt_b t v) (lg_grid g))) in *.
  set (j := length (lg_grid g) - argmax_b (map (fun v => Qlt_b t v) (rev (lg_grid g))) - 1) in *.
  assert (Eln : last (lg_grid g) 0%Q = nth (n - 1) (lg_grid g) 0%Q).
  { unfold n. clear. induction (lg_grid g) as [|a l IH]; [reflexivity|]. destruct l as [|b l]; [reflexivity|]. change (last (a :: b :: l) 0%Q) with (last (b :: l) 0%Q).
    rewrite IH. cbn [length]. replace (S (S (length l)) - 1) with (S (S (length l) - 1)) by lia. reflexivity. }
  (* lower end *)
  assert (Bot : exists mn, (if Qle_bool t (nth 0 (lg_grid g) 0%Q) then Ok (lg_x0 g) else
      bindR (qdiv (nth i (lg_grid g) 0 - t)%Q (nth i (lg_grid g) 0 - at_py (lg_grid g) i 1)%Q) (fun d => Ok (lg_x0 g + (inj i - d) * lg_fine g)%Q)) = Ok mn /\
      (lg_x0 g <= mn)%Q /\ (mn <= x_at g i)%Q /\
      (if Qle_bool t (nth 0 (lg_grid g) 0%Q) then (t <= nth 0 (lg_grid g) 0)%Q /\ mn = lg_x0 g else (nth 0 (lg_grid g) 0 < t)%Q /\ exists i, crosses g t mn i)).
  { destruct (Qle_bool t (nth 0 (lg_grid g) 0%Q)) eqn:E.
    - apply Qle_bool_iff in E. exists (lg_x0 g). split; [reflexivity|]. split; [lra|]. split; [|now split].
      pose proof (x_at_mono g 0 i Fp ltac:(lia)) as M. unfold x_at at 1 in M. change (inj 0) with 0%Q in M. lra.
    - assert (E' : (nth 0 (lg_grid g) 0 < t)%Q) by (apply Qlt_b_iff; unfold Qlt_b; now rewrite E).
      destruct i as [|k] eqn:Ei; [lra|]. unfold at_py. change (1 <=? S k) with true. cbn [Nat.sub]. rewrite Nat.sub_0_r.
      assert (Gk : (nth k (lg_grid g) 0 <= t)%Q) by (apply Fi; lia).
      destruct (frac_bounds _ _ _ Gk Ti) as [D1 [D2 D3]]. rewrite qdiv_ok by lra. cbn [bindR].
      set (d := ((nth (S k) (lg_grid g) 0 - t) / (nth (S k) (lg_grid g) 0 - nth k (lg_grid g) 0))%Q) in *.
      eexists. split; [reflexivity|].
      assert (R1 : (x_at g k <= lg_x0 g + (inj (S k) - d) * lg_fine g)%Q) by (unfold x_at; rewrite inj_S; nra).
      assert (R2 : (lg_x0 g + (inj (S k) - d) * lg_fine g <= x_at g (S k))%Q) by (unfold x_at; nra).
      split; [|split; [exact R2|split; [exact E'|exists k; split; [exact Li|split; [exact R1|split; [exact R2|]]]]]].
      + pose proof (x_at_mono g 0 k Fp ltac:(lia)) as M. unfold x_at at 1 in M. change (inj 0) with 0%Q in M. lra.
      + assert (X : ((lg_x0 g + (inj (S k) - d) * lg_fine g - x_at g k) / lg_fine g == 1 - d)%Q) by (unfold x_at; rewrite inj_S; field; lra).
        rewrite X. lra. }
  assert (Top : exists mx, (if Qle_bool t (last (lg_grid g) 0%Q) then Ok (lg_xn g) else
      match nth_error (lg_grid g) (j + 1) with
      | None => Err IndexError
      | Some next => bindR (qdiv (nth j (lg_grid g) 0 - t)%Q (nth j (lg_grid g) 0 - next)%Q) (fun d => Ok (lg_x0 g + (inj j + d) * lg_fine g)%Q)
      end) = Ok mx /\ (x_at g j <= mx)%Q /\ (mx <= lg_xn g)%Q /\
      (if Qle_bool t (last (lg_grid g) 0%Q) then (t <= last (lg_grid g) 0)%Q /\ mx = lg_xn g else (last (lg_grid g) 0 < t)%Q /\ exists i, crosses g t mx i)).
  { destruct (Qle_bool t (last (lg_grid g) 0%Q)) eqn:E.
    - apply Qle_bool_iff in E. exists (lg_xn g). split; [reflexivity|]. split; [|split; [lra|now split]].
      rewrite Xn. apply x_at_mono; [exact Fp|unfold n; lia].
    - assert (E' : (last (lg_grid g) 0 < t)%Q) by (apply Qlt_b_iff; unfold Qlt_b; now rewrite E).
      assert (Lj2 : j + 1 < n). { destruct (Nat.eq_dec j (n - 1)) as [C|C]; [rewrite Eln, <- C in E'; lra|unfold n in *; lia]. }
      rewrite (nth_error_nth' _ 0%Q) by exact Lj2. replace (j + 1) with (S j) in * by lia.
      assert (Gk : (nth (S j) (lg_grid g) 0 <= t)%Q) by (apply Fj; unfold n in *; lia).
      destruct (frac_bounds _ _ _ Gk Tj) as [D1 [D2 D3]]. rewrite qdiv_ok by lra. cbn [bindR].
      set (d := ((nth j (lg_grid g) 0 - t) / (nth j (lg_grid g) 0 - nth (S j) (lg_grid g) 0))%Q) in *.
      eexists. split; [reflexivity|].
      assert (R1 : (x_at g j <= lg_x0 g + (inj j + d) * lg_fine g)%Q) by (unfold x_at; nra).
      assert (R2 : (lg_x0 g + (inj j + d) * lg_fine g <= x_at g (S j))%Q) by (unfold x_at; rewrite inj_S; nra).
      split; [exact R1|]. split; [rewrite Xn; pose proof (x_at_mono g (S j) (n - 1) Fp ltac:(lia)); lra|]. split; [exact E'|].
      exists j. split; [exact Lj2|]. split; [exact R1|]. split; [exact R2|].
      assert (X : ((lg_x0 g + (inj j + d) * lg_fine g - x_at g j) / lg_fine g == d)%Q) by (unfold x_at; field; lra).
      rewrite X. lra. }
  destruct Bot as [mn [E1 [B1 [B2 B3]]]]. destruct Top as [mx [E2 [T1 [T2 T3]]]]. 
  eexists. split; [rewrite E1; cbn [bindR]; rewrite E2; cbn [bindR]; reflexivity|].
  cbn [interval_for]. split; [exact B1|].
  assert (Hij : i <= j). { destruct (Nat.le_gt_cases i j) as [C|C]; [exact C|]. specialize (Fi j C). lra. }
  split; [pose proof (x_at_mono g i j Fp Hij); lra|]. split; [exact T2|]. split; [|split; [exact B3|exact T3]].
  intros k Lk Hk. split.
  - assert (i <= k). { destruct (Nat.le_gt_cases i k) as [C|C]; [exact C|]. specialize (Fi k C). lra. }
    pose proof (x_at_mono g i k Fp H). lra.
  - assert (k <= j). { destruct (Nat.le_gt_cases k j) as [C|C]; [exact C|]. specialize (Fj k ltac:(lia)). lra. }
    pose proof (x_at_mono g k j Fp H). lra.
Qed.
(** the density level used *)
Definition diag (l : list Q) : list (Q * Q) := map (fun v => (v, v)) l.
Lemma diag_snd l : map snd (diag l) = l.
Proof. unfold diag. rewrite map_map. apply map_id. Qed.
Lemma mass_bound (l : list Q) P : Forall (fun v => 0 <= v)%Q l -> (0 <= mass (diag l) P)%Q /\ (mass (diag l) P <= sumq l)%Q.
Proof.
  intros F. assert (G : Forall (fun c => 0 <= snd c)%Q (diag l)) by (apply Forall_forall; intros c I; apply in_map_iff in I; destruct I as [v [<- I]]; rewrite Forall_forall in F; now apply F).
  split; [now apply mass_nonneg|]. rewrite <- (diag_snd l) at 2. now apply mass_le_total.
Qed.
Lemma trial_level g p t : lg_ok g -> (p <= 1)%Q -> trial_of g p = Ok t ->
  (mass (diag (lg_grid g)) (fun v => Qlt_b t v) <= sumq (lg_grid g) - (1 - p) * lg_norm g)%Q /\
  exists lo, In lo (lg_grid g) /\ (lo <= t)%Q /\ (forall v, In v (lg_grid g) -> (v <= lo \/ t <= v)%Q) /\
    (sumq (lg_grid g) - (1 - p) * lg_norm g <= mass (diag (lg_grid g)) (fun v => Qle_bool lo v))%Q.
Proof.
  intros [_ [_ [_ [Pm [S [Ec [Nn Nm]]]]]]] Hp. unfold trial_of. rewrite Ec. set (target := ((1 - p) * lg_norm g)%Q). set (c := cumq 0 (lg_sorted g)).
  set (ix := searchsorted c target). destruct (nth_error (lg_sorted g) ix) as [s|] eqn:Es; [|discriminate]. intros H.
  apply nth_error_split in Es. destruct Es as [A [B [E La]]].
  assert (NnS : Forall (fun v => 0 <= v)%Q (lg_sorted g)) by (eapply Permutation_Forall; [apply Permutation_sym; exact Pm|exact Nn]).
  assert (Tpos : (0 <= target)%Q) by (unfold target; nra).
  assert (Li : ix < length (lg_sorted g)) by (rewrite E, app_length; cbn; lia).
  destruct (cum_nth (lg_sorted g) 0 ix Li) as [ci [C1 C2]]. fold c in C1.
  assert (F1 : (ci == sumq A + s)%Q).
  { rewrite C2, E. replace (Datatypes.S ix) with (length A + 1) by lia. rewrite firstn_app_2. cbn [firstn]. rewrite sumq_app, !sumq_cons. cbn. lra. }
  assert (G2 : (target <= ci)%Q) by (apply (ss_at c target); exact C1).
  assert (G1 : (sumq A <= target)%Q).
  { destruct A as [|a0 A0] eqn:EA; [exact Tpos|]. rewrite <- EA in *. assert (Hix : 0 < ix) by (rewrite <- La, EA; cbn; lia).
    destruct (cum_nth (lg_sorted g) 0 (ix - 1) ltac:(lia)) as [cp [D1 D2]]. fold c in D1.
    assert (cp < target)%Q by (apply (ss_below c target (ix - 1)); [fold ix; lia|exact D1]).
    rewrite E in D2. replace (Datatypes.S (ix - 1)) with (length A + 0) in D2 by lia. rewrite firstn_app_2 in D2. cbn [firstn] in D2. rewrite app_nil_r in D2. lra. }
  assert (St : (s <= t)%Q /\ forall v, In v B -> (t <= v)%Q).
  { assert (SB : forall v, In v B -> (s <= v)%Q) by (intros v I; rewrite E in S; apply (ssorted_app Qle (A ++ [s]) B); [rewrite <- app_assoc; exact S|apply in_or_app; right; now left|exact I]).
    destruct (0 <? ix) eqn:Z; [|injection H as <-; split; [lra|exact SB]]. apply Nat.ltb_lt in Z.
    rewrite C1 in H. destruct (cum_nth (lg_sorted g) 0 (ix - 1) ltac:(lia)) as [cp [D1 D2]]. fold c in D1. rewrite D1 in H.
    destruct (nth_error (lg_sorted g) (ix + 1)) as [s1|] eqn:E1; [|discriminate]. injection H as <-.
    assert (EB : exists B', B = s1 :: B').
    { rewrite E, nth_error_app2 in E1 by lia. replace (ix + 1 - length A) with 1 in E1 by lia. cbn in E1. destruct B as [|z B']; [discriminate|]. injection E1 as ->. now exists B'. }
    destruct EB as [B' ->]. assert (cp < target)%Q by (apply (ss_below c target (ix - 1)); [fold ix; lia|exact D1]).
    assert (Hs : (s <= s1)%Q) by (apply SB; now left).
    assert (Pc : (0 < ci - cp)%Q) by lra.
    assert (f0 : (0 <= (ci - target) / (ci - cp))%Q) by (apply Qle_shift_div_l; [exact Pc|lra]).
    assert (f1 : ((ci - target) / (ci - cp) <= 1)%Q) by (apply Qle_shift_div_r; [exact Pc|lra]).
    set (f := ((ci - target) / (ci - cp))%Q) in *. split; [nra|].
    intros v I. assert (s1 <= v)%Q.
    { destruct I as [<-|I]; [lra|]. rewrite E in S. apply (ssorted_app Qle (A ++ [s; s1]) B'); [rewrite <- app_assoc; exact S|apply in_or_app; right; right; now left|exact I]. }
    nra. }
  destruct St as [St SB].
  assert (SA : forall a, In a (A ++ [s]) -> (a <= s)%Q).
  { intros a I. apply in_app_or in I. destruct I as [I|[<-|[]]]; [|lra]. rewrite E in S. apply (ssorted_app Qle A (s :: B) S); [exact I|now left]. }
  assert (NB : Forall (fun v => 0 <= v)%Q B /\ Forall (fun v => 0 <= v)%Q A).
  { rewrite E in NnS. apply Forall_app in NnS. destruct NnS as [NA NB]. inversion NB; subst. now split. }
  destruct NB as [NB NA].
  assert (Pd : Permutation (diag (lg_grid g)) (diag A ++ diag (s :: B))).
  { unfold diag. rewrite <- map_app, <- E. apply Permutation_map. now apply Permutation_sym. }
  assert (Tot : (sumq (lg_grid g) == sumq A + s + sumq B)%Q).
  { rewrite <- (sumq_perm _ _ Pm), E, sumq_app, sumq_cons. lra. }
  assert (Ms : (0 <= s)%Q) by (rewrite Forall_forall in NnS; apply NnS; rewrite E; apply in_or_app; right; now left).
  split.
  - rewrite (mass_perm _ _ _ Pd), mass_app. assert (mass (diag A) (fun v => Qlt_b t v) == 0)%Q as ->.
    { apply mass_none. apply Forall_forall. intros x I. apply in_map_iff in I. destruct I as [a [<- I]]. cbn [fst]. apply Qlt_b_false. specialize (SA a (in_or_app _ _ _ (or_introl I))). lra. }
    unfold mass at 1. cbn [diag map filter fst]. assert (Qlt_b t s = false) as -> by (apply Qlt_b_false; lra).
    fold (diag B). fold (mass (diag B) (fun v => Qlt_b t v)). destruct (mass_bound B (fun v => Qlt_b t v) NB). fold target. lra.
  - exists s. split; [eapply Permutation_in; [exact Pm|]; rewrite E; apply in_or_app; right; now left|]. split; [exact St|]. split.
    + intros v I. apply (Permutation_in v (Permutation_sym Pm)) in I. rewrite E in I. change (s :: B) with ([s] ++ B) in I. rewrite app_assoc in I.
      apply in_app_or in I. destruct I as [I|I]; [left; now apply SA|right; now apply SB].
    + rewrite (mass_perm _ _ _ Pd), mass_app. destruct (mass_bound A (fun v => Qle_bool s v) NA) as [M0 _].
      assert (mass (diag (s :: B)) (fun v => Qle_bool s v) == s + sumq B)%Q as ->.
      { rewrite mass_all.
        - unfold total. rewrite diag_snd, sumq_cons. reflexivity.
        - apply Forall_forall. intros x I. apply in_map_iff in I. destruct I as [b [<- I]]. cbn [fst]. apply Qle_bool_iff. destruct I as [<-|I]; [lra|]. specialize (SB b I). lra. }
      fold target. lra.
Qed.
