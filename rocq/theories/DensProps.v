(** Properties C38, C39, C40, C62, C63: densities. *)
From Verif Require Import PyStr PyBase DensModel DensSpec DensProofs DensProofs2.
From Coq Require Import QArith Lqa Permutation Sorting.Sorted.
Local Open Scope nat_scope.

(** ** C38: contour levels *)
Definition cells_of (inbins abins : list cell) : list (Q * Q) := combine (map snd inbins) (map snd abins).
Lemma C38_general inbins abins order contours missing :
  length abins = length inbins -> Forall2 (fun a b => snd a == snd b)%Q inbins abins ->
  sorts order (map snd inbins) -> Forall (fun c => 0 <= snd c)%Q inbins ->
  forall levels, mapR (fun c => contour_level (map (fun k => nth k (map snd abins) 0%Q) order) ((1 - c) * sumq (map snd abins) - missing)%Q) contours = Ok levels ->
  Forall2 (fun c l => encloses (cells_of inbins abins) (c * total (cells_of inbins abins) + missing)%Q l) contours levels.
Proof.
  intros Le Eq So Nn. set (cells := cells_of inbins abins).
  assert (Ef : map fst cells = map snd inbins).
  { unfold cells, cells_of. clear -Le. revert abins Le. induction inbins as [|a l IH]; intros [|b m] H; try discriminate; [reflexivity|]. cbn. f_equal. apply IH. now injection H. }
  assert (Es : map snd cells = map snd abins).
  { unfold cells, cells_of. clear -Le. revert abins Le. induction inbins as [|a l IH]; intros [|b m] H; try discriminate; [reflexivity|]. cbn. f_equal. apply IH. now injection H. }
  destruct (sorts_cells order (map snd inbins) cells Ef So) as [P S].
  set (sc := map (fun k => nth k cells (0, 0)%Q) order) in *.
  assert (Em : map (fun k => nth k (map snd abins) 0%Q) order = map snd sc).
  { unfold sc. rewrite map_map. apply map_ext. intros k. rewrite <- Es. apply (map_nth snd cells (0, 0)%Q k). }
  assert (Dg : Forall (fun c => fst c == snd c)%Q cells /\ Forall (fun c => 0 <= snd c)%Q cells).
  { unfold cells, cells_of. clear -Eq Nn. induction Eq as [|a b l m H E IH]; [split; constructor|]. inversion Nn; subst. destruct (IH ltac:(assumption)) as [I1 I2].
    cbn. split; constructor; cbn; try assumption. lra. }
  destruct Dg as [Dg Pg].
  assert (Dg' : Forall (fun c => fst c == snd c)%Q sc) by (eapply Permutation_Forall; [apply Permutation_sym; exact P|exact Dg]).
  assert (Pg' : Forall (fun c => 0 <= snd c)%Q sc) by (eapply Permutation_Forall; [apply Permutation_sym; exact P|exact Pg]).
  rewrite Em. induction contours as [|c cs IH]; intros levels H; cbn [mapR] in H.
  - injection H as <-. constructor.
  - destruct (contour_level _ _) as [l|e] eqn:E; [|discriminate]. cbn [bindR] in H. destruct (mapR _ cs) as [ls|e] eqn:E2; [|discriminate]. injection H as <-.
    constructor; [|now apply IH]. 
    pose proof (level_encloses sc _ l S Pg' Dg' E) as [X1 [lo [hi [I1 [I2 [B1 [B2 [B3 X2]]]]]]]].
    assert (Tt : (total sc == total cells)%Q) by (unfold total; apply sumq_perm; now apply Permutation_map).
    assert (Ta : (total cells == sumq (map snd abins))%Q) by (unfold total; rewrite Es; reflexivity).
    assert (Tc : (c * total cells == c * sumq (map snd abins))%Q) by (rewrite Ta; reflexivity).
    split; [rewrite <- (mass_perm _ _ _ P); lra|]. exists lo, hi.
    assert (Pf : Permutation (map fst sc) (map fst cells)) by now apply Permutation_map.
    split; [eapply Permutation_in; eassumption|]. split; [eapply Permutation_in; eassumption|]. split; [exact B1|]. split; [exact B2|]. split.
    + intros v I. apply B3. eapply Permutation_in; [apply Permutation_sym; exact Pf|exact I].
    + rewrite <- (mass_perm _ _ _ P). lra.
Qed.
(** without half weights, for an array of any shape: every level returned encloses the mass asked for *)
Theorem C38_levels_enclose_partial shape inbins order contours missing levels :
  sorts order (map snd inbins) -> Forall (fun c => 0 <= snd c)%Q inbins ->
  getContourLevels shape inbins order contours missing false = Ok levels ->
  Forall2 (fun c l => encloses (diag (map snd inbins)) (c * sumq (map snd inbins) + missing)%Q l) contours levels.
Proof.
  intros So Nn H. unfold getContourLevels in H. 
  assert (E : cells_of inbins inbins = diag (map snd inbins)).
  { unfold cells_of, diag. clear. induction (map snd inbins) as [|a l IH]; [reflexivity|]. cbn. now rewrite IH. }
  pose proof (C38_general inbins inbins order contours missing eq_refl) as G. rewrite E in G.
  unfold total in G. rewrite diag_snd in G.
  apply G; [clear; induction inbins; constructor; [reflexivity|assumption]|exact So|exact Nn|exact H].
Qed.
(** with half weights, when the density vanishes on the edges of the array *)
Theorem C38_levels_half_edge_partial shape inbins order contours missing levels :
  sorts order (map snd inbins) -> Forall (fun c => 0 <= snd c)%Q inbins -> Forall (fun c => length (fst c) = length shape) inbins ->
  Forall (fun c => is_edge shape (fst c) = true -> snd c == 0)%Q inbins ->
  getContourLevels shape inbins order contours missing true = Ok levels ->
  Forall2 (fun c l => encloses (cells_of inbins (half_edges shape inbins)) (c * total (cells_of inbins (half_edges shape inbins)) + missing)%Q l) contours levels.
Proof.
  intros So Nn Ln Ez H. unfold getContourLevels in H. pose proof (half_edges_weight shape inbins Ln) as W.
  assert (Q : Forall2 (fun a b => snd a == snd b)%Q inbins (half_edges shape inbins)).
  { clear So Nn H. revert Ez Ln. induction W as [|c c' l l' [_ Hw] W IH]; intros Ez Ln; [constructor|]. inversion Ez as [|? ? Hz Ez']; subst. inversion Ln as [|? ? Hl Ln']; subst.
    constructor; [|now apply IH]. rewrite Hw. destruct (is_edge shape (fst c)) eqn:E.
    - rewrite (Hz eq_refl). lra.
    - assert (N : forall sh ind, is_edge sh ind = false -> (edge_weight sh ind == 1)%Q).
      { induction sh as [|n sh IHs]; intros [|i ind] N; try reflexivity. unfold is_edge in N. cbn [combine existsb fst snd] in N. apply orb_false_iff in N.
        destruct N as [N1 N2]. apply orb_false_iff in N1. destruct N1 as [N1 N3]. cbn [edge_weight]. rewrite N1, N3, IHs by exact N2. reflexivity. }
      rewrite N by exact E. lra. }
  apply (C38_general inbins (half_edges shape inbins) order contours missing).
  - clear -W. induction W; [reflexivity|]. cbn. now rewrite IHW.
  - exact Q.
  - exact So.
  - exact Nn.
  - exact H.
Qed.
(** levels are ordered opposite to the masses *)
Theorem C38_levels_antitone_partial shape inbins order contours missing levels i j ci cj li lj :
  sorts order (map snd inbins) -> Forall (fun c => 0 <= snd c)%Q inbins ->
  getContourLevels shape inbins order contours missing false = Ok levels ->
  nth_error contours i = Some ci -> nth_error contours j = Some cj -> nth_error levels i = Some li -> nth_error levels j = Some lj ->
  (ci <= cj)%Q -> (lj <= li)%Q.
Proof.
  intros [P S] Nn H Hi Hj Li Lj Hc. unfold getContourLevels in H. set (sg := map (fun k => nth k (map snd inbins) 0%Q) order) in *.
  assert (G : forall cs ls, mapR (fun c => contour_level sg ((1 - c) * sumq (map snd inbins) - missing)%Q) cs = Ok ls -> forall k c l,
     nth_error cs k = Some c -> nth_error ls k = Some l -> contour_level sg ((1 - c) * sumq (map snd inbins) - missing)%Q = Ok l).
  { clear. induction cs as [|c cs IH]; intros ls H k c' l Ec El; [destruct k; discriminate|]. cbn [mapR] in H. destruct (contour_level sg _) as [l0|] eqn:E; [|discriminate].
    cbn [bindR] in H. destruct (mapR _ cs) as [ls'|] eqn:E2; [|discriminate]. injection H as <-. destruct k as [|k].
    - injection Ec as <-. injection El as <-. exact E.
    - exact (IH ls' eq_refl k c' l Ec El). }
  apply (level_mono sg ((1 - cj) * sumq (map snd inbins) - missing)%Q ((1 - ci) * sumq (map snd inbins) - missing)%Q).
  - unfold sg. clear -S. induction S as [|a l S IH F]; [constructor|]. cbn [map]. constructor; [exact IH|]. apply Forall_forall. intros q I. apply in_map_iff in I.
    destruct I as [k [<- I]]. rewrite Forall_forall in F. now apply F.
  - assert (0 <= sumq (map snd inbins))%Q; [|nra]. apply sumq_nonneg. apply Forall_forall. intros q I. apply in_map_iff in I. destruct I as [c [<- I]]. rewrite Forall_forall in Nn. now apply Nn.
  - now apply (G contours levels H j cj).
  - now apply (G contours levels H i ci).
Qed.
(** errors: the level is refused exactly when the mass outside does not exceed that of the first cell, and nothing else fails when the mass outside is positive and inside the total *)
Theorem C38_errors (sortgrid : list Q) t : (t <= sumq sortgrid)%Q -> sortgrid <> [] ->
  (exists l, contour_level sortgrid t = Ok l) \/
  (contour_level sortgrid t = Err (DensitiesError "Contour level outside plotted ranges") /\ (t <= nth 0 sortgrid 0)%Q).
Proof.
  intros Ht Ne. unfold contour_level. set (c := cumq 0 sortgrid). set (ix := searchsorted c t). destruct (ix =? 0) eqn:E0.
  - right. split; [reflexivity|]. apply Nat.eqb_eq in E0. destruct sortgrid as [|x r]; [congruence|]. cbn [nth].
    destruct (cum_nth (x :: r) 0 0 ltac:(cbn; lia)) as [c0 [E1 E2]]. fold c in E1. assert (t <= c0)%Q by (apply (ss_at c t); fold ix; rewrite E0; exact E1).
    cbn in E2. lra.
  - left. apply Nat.eqb_neq in E0. assert (Hl : ix < length sortgrid).
    { destruct (Nat.lt_ge_cases ix (length sortgrid)) as [H|H]; [exact H|]. exfalso. pose proof (ss_le c t) as L. unfold c in L at 2. rewrite cum_length in L. fold ix in L.
      assert (E : ix = length c) by (unfold c; rewrite cum_length; lia). 
      assert (Hn : length sortgrid > 0) by (destruct sortgrid; [congruence|cbn; lia]).
      destruct (cum_nth sortgrid 0 (length sortgrid - 1) ltac:(lia)) as [cl [E1 E2]]. fold c in E1.
      assert (cl < t)%Q by (apply (ss_end c t); [exact E|eapply nth_error_In; exact E1]).
      replace (S (length sortgrid - 1)) with (length sortgrid) in E2 by lia. rewrite firstn_all in E2. lra. }
    destruct (cum_nth sortgrid 0 ix Hl) as [ci [E1 _]]. destruct (cum_nth sortgrid 0 (ix - 1) ltac:(lia)) as [cp [E2 _]]. fold c in E1, E2. rewrite E1, E2.
    destruct (nth_error sortgrid ix) as [si|] eqn:E3; [|apply nth_error_None in E3; lia]. destruct (nth_error sortgrid (ix - 1)) as [sp|] eqn:E4; [|apply nth_error_None in E4; lia].
    eexists. reflexivity.
Qed.
(** FINDING: with half weights (the default) the level interpolates the halved values of edge cells.  Densities 1, 3, 4 on a
    line have masses 1/2, 3, 2; the level for a fifth (1.1 of 5.5) is 2.55, above which lie the cells 3 and 4 with mass 5;
    and the level for 0.37 is higher than the one for 0.2 *)
Theorem C38_refuted : exists shape inbins order levels l1 l2,
  sorts order (map snd inbins) /\ Forall (fun c => 0 <= snd c)%Q inbins /\
  getContourLevels shape inbins order [(2 # 10); (37 # 100)]%Q 0 true = Ok levels /\ levels = [l1; l2] /\
  ~ encloses (cells_of inbins (half_edges shape inbins)) ((2 # 10) * total (cells_of inbins (half_edges shape inbins)) + 0)%Q l1 /\ (l1 < l2)%Q.
Proof.
  exists [3], [([0], 1%Q); ([1], 3%Q); ([2], 4%Q)], [0; 1; 2]. do 3 eexists.
  split; [split; [apply Permutation_refl|repeat (constructor; [|try (repeat constructor; cbn; unfold Qle; cbn; lia)]); constructor]|].
  split; [repeat constructor; cbn; unfold Qle; cbn; lia|]. split; [vm_compute; reflexivity|]. split; [reflexivity|]. split.
  - intros [_ [lo [hi [I1 [I2 [B1 [B2 [B3 B4]]]]]]]]. 
    cbn [cells_of map snd half_edges seq fold_left length halve_axis fst nth Nat.sub Nat.eqb combine] in *.
    destruct I2 as [<-|[<-|[<-|[]]]].
    + vm_compute in B2. congruence.
    + vm_compute in B4. congruence.
    + destruct (B3 3%Q) as [C|C]; [right; now left| |vm_compute in C; congruence].
      destruct I1 as [<-|[<-|[<-|[]]]]; vm_compute in B1, C; congruence.
  - reflexivity.
Qed.
Example C38_ex : let inbins := [([0; 0], 1%Q); ([0; 1], 2%Q); ([1; 0], 4%Q); ([1; 1], 3%Q)] in
  exists l1 l2, getContourLevels [2; 2] inbins [0; 1; 3; 2] [(1 # 2); (8 # 10)]%Q 0 false = Ok [l1; l2] /\ (l1 == 8 # 3)%Q /\ (l2 == 3 # 2)%Q /\ sorts [0; 1; 3; 2] (map snd inbins).
Proof.
  do 2 eexists. split; [vm_compute; reflexivity|]. split; [reflexivity|]. split; [reflexivity|]. split.
  - cbn. repeat constructor.
  - repeat (constructor; [|try (repeat constructor; cbn; unfold Qle; cbn; lia)]). constructor.
Qed.
Example C38_ex_half : exists l, getContourLevels [5] [([0], 0%Q); ([1], 1%Q); ([2], 3%Q); ([3], 2%Q); ([4], 0%Q)] [0; 4; 1; 3; 2] [1 # 2]%Q 0 true = Ok [l] /\ (l == 2)%Q.
Proof. eexists. split; [vm_compute; reflexivity|reflexivity]. Qed.

(** ** C39: integration and normalisation *)
Theorem C39_trapezoid h P : 2 <= length P -> exists v, integrate1 h P = Ok v /\ (v == trapz h P)%Q.
Proof. apply integrate1_trapz. Qed.
Theorem C39_trapezoid_2d h P rows cols : shape_of rows cols P -> 2 <= rows -> 2 <= cols ->
  exists v, integrate2 h P = Ok v /\ (v == trapz h (map (trapz 1) P))%Q /\
    (v == h * weighted (half_ends rows) (map (fun r => weighted (half_ends cols) r) P))%Q.
Proof.
  intros [<- F] Hr Hc. destruct (integrate2_trapz h P cols Hr Hc F) as [v [E V]]. exists v. split; [exact E|]. split; [exact V|].
  assert (G : forall (A : list (list Q)) k n, Forall (fun r => length r = cols) A ->
    (sumq (map (fun p => half_ends n (fst p) * snd p) (combine (seq k (length A)) (map (trapz 1) A))) ==
     sumq (map (fun p => half_ends n (fst p) * snd p) (combine (seq k (length A)) (map (fun r => weighted (half_ends cols) r) A))))%Q).
  { clear -Hc. induction A as [|r A IH]; intros k n F; [reflexivity|]. inversion F as [|? ? Hr F']; subst. cbn [length seq map combine fst snd]. rewrite !sumq_cons.
    rewrite IH by exact F'. rewrite trapz_weighted by lia. lra. }
  rewrite V, trapz_weighted by now rewrite map_length. rewrite map_length. apply Qmult_comp; [reflexivity|].
  specialize (G P 0 (length P) F). unfold weighted at 1. rewrite map_length, G. unfold weighted at 2. rewrite map_length. reflexivity.
Qed.
Theorem C39_normalize_integral h P q : 2 <= length P ->
  normalize (integrate1 h P) P ByIntegral = Ok q -> ~ (trapz h P == 0)%Q ->
  (exists v, integrate1 h q = Ok v /\ (v == 1)%Q) /\ q = map (fun v => (v / match integrate1 h P with Ok n => n | Err _ => 1 end)%Q) P.
Proof.
  intros L. destruct (integrate1_trapz h P L) as [n [E V]]. rewrite E. intros H N. injection H as <-. split; [|reflexivity].
  destruct (integrate1_trapz h (map (fun v => (v / n)%Q) P)) as [v [E2 V2]]; [now rewrite map_length|]. exists v. split; [exact E2|].
  assert (Nn : ~ (n == 0)%Q) by (rewrite V; exact N). rewrite V2, trapz_scale by exact Nn. rewrite <- V. field. exact Nn.
Qed.
Theorem C39_normalize_integral_2d h P q rows cols : shape_of rows cols P -> 2 <= rows -> 2 <= cols ->
  normalize (integrate2 h P) (concat P) ByIntegral = Ok q -> ~ (trapz h (map (trapz 1) P) == 0)%Q ->
  exists P', concat P' = q /\ shape_of rows cols P' /\ exists v, integrate2 h P' = Ok v /\ (v == 1)%Q.
Proof.
  intros [<- F] Hr Hc. destruct (integrate2_trapz h P cols Hr Hc F) as [n [E V]]. rewrite E. intros H N. injection H as <-.
  exists (map (map (fun v => (v / n)%Q)) P). split; [symmetry; apply concat_map|].
  assert (F' : Forall (fun r => length r = cols) (map (map (fun v => (v / n)%Q)) P)).
  { apply Forall_forall. intros r I. apply in_map_iff in I. destruct I as [r0 [<- I]]. rewrite map_length. rewrite Forall_forall in F. now apply F. }
  split; [split; [apply map_length|exact F']|].
  destruct (integrate2_trapz h (map (map (fun v => (v / n)%Q)) P) cols) as [v [E2 V2]]; [now rewrite map_length|exact Hc|exact F'|].
  exists v. split; [exact E2|]. assert (Nn : ~ (n == 0)%Q) by (rewrite V; exact N). rewrite V2, map_map.
  rewrite (trapz_ext h _ (map (fun v => v / n)%Q (map (trapz 1) P))).
  - rewrite trapz_scale by exact Nn. rewrite <- V. field. exact Nn.
  - rewrite map_map. clear -Nn. induction P as [|r P IH]; [constructor|]. cbn [map]. constructor; [now apply trapz_scale|exact IH].
Qed.
Theorem C39_normalize_max flat q i : normalize i flat ByMax = Ok q -> (exists v, In v flat /\ (0 < v)%Q) ->
  (forall y, In y q -> (y <= 1)%Q) /\ (exists y, In y q /\ (y == 1)%Q) /\ exists m, In m flat /\ (forall v, In v flat -> v <= m)%Q /\ q = map (fun v => (v / m)%Q) flat.
Proof.
  unfold normalize. destruct (maxq flat) as [m|e] eqn:E; [|discriminate]. cbn [bindR]. destruct (Qeq_bool m 0) eqn:Z; [discriminate|]. cbn [bindR].
  intros H [v [I V]]. injection H as <-. destruct (maxq_spec _ _ E) as [Im B]. assert (Pm : (0 < m)%Q) by (specialize (B v I); lra).
  split; [|split].
  - intros y Iy. apply in_map_iff in Iy. destruct Iy as [w [<- Iw]]. apply Qle_shift_div_r; [exact Pm|]. specialize (B w Iw). lra.
  - exists (m / m)%Q. split; [apply in_map_iff; now exists m|]. field. lra.
  - exists m. split; [exact Im|]. split; [exact B|reflexivity].
Qed.
Theorem C39_normalize_empty flat i m : maxq flat = Ok m -> (m == 0)%Q -> normalize i flat ByMax = Err (DensitiesError "no samples in bin").
Proof. intros E Z. unfold normalize. rewrite E. cbn [bindR]. apply Qeq_bool_iff in Z. now rewrite Z. Qed.
Example C39_ex : exists v, integrate1 (1 # 2) [1; 2; 5; 4]%Q = Ok v /\ (v == 19 # 4)%Q /\
  exists q, normalize (integrate1 (1 # 2) [1; 2; 5; 4]%Q) [1; 2; 5; 4]%Q ByIntegral = Ok q.
Proof. eexists. split; [reflexivity|]. split; [reflexivity|]. eexists. reflexivity. Qed.
Example C39_ex_2d : exists v, integrate2 2 [[1; 2; 3]; [4; 5; 6]; [7; 8; 9]]%Q = Ok v /\ (v == 40)%Q.
Proof. eexists. split; [vm_compute; reflexivity|reflexivity]. Qed.
Example C39_ex_max : exists q, normalize (Err IndexError) [1; 4; 2]%Q ByMax = Ok q /\ nth 1 q 0%Q == 1.
Proof. eexists. split; [vm_compute; reflexivity|reflexivity]. Qed.

(** ** C40: FFT sizes *)
Theorem C40_smallest x n : nearestFFTnumber x = Ok n -> In n fastFFT /\ (x <= n)%Z /\ forall m, In m fastFFT -> (x <= m)%Z -> (n <= m)%Z.
Proof.
  unfold nearestFFTnumber. pose proof (ss_weaken _ fastFFT_sorted) as S.
  destruct (bisect_spec fastFFT x S (length fastFFT) 0 (length fastFFT)) as [B [R1 R2]]; try lia.
  set (r := bisect _ _ _ _ _) in *. destruct (nth_error fastFFT r) as [k|] eqn:E; [|discriminate]. intros H. injection H as <-.
  assert (Lr : r < length fastFFT) by (apply nth_error_Some; congruence). assert (Ek : nth r fastFFT 0%Z = k) by (apply nth_error_nth; exact E).
  assert (Hk : (x <= k)%Z) by (rewrite <- Ek; apply R2; lia). rewrite Z.max_r by exact Hk. split; [eapply nth_error_In; exact E|]. split; [exact Hk|].
  intros m I Hm. apply In_nth with (d := 0%Z) in I. destruct I as [i [Li Ei]]. destruct (Nat.lt_ge_cases i r) as [C|C]; [specialize (R1 i C); lia|].
  rewrite <- Ek, <- Ei. clearbody r. clear -S C Li. revert r i C Li. induction S as [|y l S IH F]; intros r i C Li; [cbn in Li; lia|]. destruct r as [|r], i as [|i]; cbn [nth]; try lia.
  - rewrite Forall_forall in F. apply F. apply nth_In. cbn in Li. lia.
  - apply IH; cbn in Li; lia.
Qed.
Theorem C40_defined x : (exists n, nearestFFTnumber x = Ok n) <-> (x <= 2013265920)%Z.
Proof.
  unfold nearestFFTnumber. pose proof (ss_weaken _ fastFFT_sorted) as S.
  destruct (bisect_spec fastFFT x S (length fastFFT) 0 (length fastFFT)) as [B [R1 R2]]; try lia.
  set (r := bisect _ _ _ _ _) in *. assert (Ll : nth (length fastFFT - 1) fastFFT 0%Z = 2013265920%Z) by reflexivity. assert (Lp : 0 < length fastFFT) by (cbn; lia).
  destruct (nth_error fastFFT r) as [k|] eqn:E.
  - split; [intros _|intros _; eexists; reflexivity]. assert (Lr : r < length fastFFT) by (apply nth_error_Some; congruence). rewrite <- Ll. apply R2. lia.
  - split; [intros [n H]; discriminate|]. intros H. exfalso. apply nth_error_None in E. specialize (R1 (length fastFFT - 1) ltac:(lia)). lia.
Qed.
Lemma near_cases x : (exists n, nearestFFTnumber x = Ok n) \/ nearestFFTnumber x = Err IndexError.
Proof.
  unfold nearestFFTnumber. generalize (bisect (length fastFFT) fastFFT x 0 (length fastFFT)). intros r.
  destruct (nth_error fastFFT r); [left; eexists; reflexivity|right; reflexivity].
Qed.
Theorem C40_beyond x : (2013265920 < x)%Z -> nearestFFTnumber x = Err IndexError.
Proof. intros H. destruct (near_cases x) as [C|C]; [|exact C]. apply (proj1 (C40_defined x)) in C. exfalso. clear -C H. lia. Qed.
(** every size is even (the inverse real transform's default output length relies on it) *)
Theorem C40_even x n : nearestFFTnumber x = Ok n -> Z.even n = true.
Proof.
  intros H. apply C40_smallest in H. destruct H as [I _]. assert (A : forallb Z.even fastFFT = true) by (vm_compute; reflexivity). rewrite forallb_forall in A. now apply A.
Qed.
(** FINDING: not every size is of the form 2^a 3^b 5^c, as the comment in the source says *)
Theorem C40_form_refuted : exists n, In n fastFFT /\ (7 | n)%Z.
Proof.
  exists 234881024%Z. split; [|exists 33554432%Z; reflexivity]. 
  assert (A : existsb (Z.eqb 234881024) fastFFT = true) by (vm_compute; reflexivity). apply existsb_exists in A. destruct A as [y [I E]]. apply Z.eqb_eq in E. now subst y.
Qed.
Example C40_ex : nearestFFTnumber 1000 = Ok 1024%Z /\ nearestFFTnumber 1024 = Ok 1024%Z /\ nearestFFTnumber 1025 = Ok 1152%Z.
Proof. vm_compute. auto. Qed.

(** ** C62: limits of a one dimensional density *)
(** the interval of a density level exceeded somewhere on the grid *)
Theorem C62_interval_partial g t : lg_ok g -> (exists v, In v (lg_grid g) /\ (t < v)%Q) -> exists r, limits_of g t = Ok r /\ interval_for g t r.
Proof. apply limits_interval. Qed.
(** the level used for probability [p]: the points above it hold no more than asked for, the points from the grid value below it on hold at least as much *)
Theorem C62_level_partial g p t : lg_ok g -> (p <= 1)%Q -> trial_of g p = Ok t ->
  (mass (diag (lg_grid g)) (fun v => Qlt_b t v) <= sumq (lg_grid g) - (1 - p) * lg_norm g)%Q /\
  exists lo, In lo (lg_grid g) /\ (lo <= t)%Q /\ (forall v, In v (lg_grid g) -> (v <= lo \/ t <= v)%Q) /\
    (sumq (lg_grid g) - (1 - p) * lg_norm g <= mass (diag (lg_grid g)) (fun v => Qle_bool lo v))%Q.
Proof. apply trial_level. Qed.
(** an array of probabilities gives the list of the single results *)
Theorem C62_array g ps : ps <> [] ->
  getLimits g (PArray ps) = bindR (mapR (fun p => bindR (trial_of g p) (limits_of g)) ps) (fun l => Ok (Many l)) /\
  forall p, getLimits g (PNum p) = bindR (bindR (trial_of g p) (limits_of g)) (fun r => Ok (One r)).
Proof. destruct ps as [|p ps]; [congruence|]. split; reflexivity. Qed.
Definition sample_grid (l sorted : list Q) : lgrid :=
  mkLG l (sumq l - (nth 0 l 0 + last l 0) / 2)%Q sorted (cumq 0 sorted) 1%Q 0%Q (inj (length l - 1)).
(** FINDING: a list of probabilities, the documented argument, gives only the first interval *)
Theorem C62_list_refuted : forall g p ps r, getLimits g (PNum p) = Ok r -> getLimits g (PList (p :: ps)) = Ok r.
Proof. intros g p ps r H. exact H. Qed.
(** FINDING: the level is interpolated towards the next higher grid value instead of the next lower one, so a smaller probability
    can give a wider interval ... *)
Theorem C62_monotone_refuted : exists g p1 p2 a1 b1 a2 b2 x1 y1 x2 y2, lg_ok g /\ (p1 < p2)%Q /\
  getLimits g (PNum p1) = Ok (One (a1, b1, x1, y1)) /\ getLimits g (PNum p2) = Ok (One (a2, b2, x2, y2)) /\ (a1 < a2)%Q /\ (b2 < b1)%Q.
Proof.
  exists (sample_grid [0; 2; 5; 3; 0] [0; 0; 2; 3; 5])%Q, (55 # 100)%Q, (75 # 100)%Q. do 8 eexists.
  split; [|split; [reflexivity|split; [vm_compute; reflexivity|split; [vm_compute; reflexivity|split; reflexivity]]]].
  split; [cbn; lia|]. split; [reflexivity|]. split; [reflexivity|]. split.
  - cbn. apply perm_skip. apply Permutation_trans with ([0; 2; 5; 3]%Q); [apply perm_skip, perm_skip, perm_swap|].
    apply (Permutation_cons_append [2; 5; 3]%Q 0%Q).
  - split; [repeat (constructor; [|try (repeat constructor; cbn; unfold Qle; cbn; lia)]); constructor|]. split; [reflexivity|].
    split; [repeat constructor; cbn; unfold Qle; cbn; lia|]. cbn. unfold Qle. cbn. lia.
Qed.
(** ... and a small enough probability fails *)
Theorem C62_small_refuted : getLimits (sample_grid [0; 2; 5; 3; 0] [0; 0; 2; 3; 5])%Q (PNum (4 # 10)) = Err IndexError.
Proof. vm_compute. reflexivity. Qed.
(** FINDING: two equal highest values: no grid point exceeds the level, and the search fails *)
Theorem C62_tie_refuted : getLimits (sample_grid [0; 1; 1; (1 # 4)] [0; (1 # 4); 1; 1])%Q (PNum (6 # 10)) = Err IndexError.
Proof. vm_compute. reflexivity. Qed.
Example C62_ex : exists a b, getLimits (sample_grid [0; 2; 5; 3; 0] [0; 0; 2; 3; 5])%Q (PNum (7 # 10)) = Ok (One (a, b, false, false)) /\ (0 < a)%Q /\ (a < 2)%Q /\ (2 < b)%Q.
Proof. do 2 eexists. split; [vm_compute; reflexivity|]. repeat split. Qed.

(** ** C63: integral of an n dimensional density *)
(** when the first axis is at least as long as the number of dimensions: half weight per edge *)
Theorem C63_weights_partial shape P : Forall (fun n => 2 <= n) shape -> length shape <= nth 0 shape 0 -> Forall (fun c => length (fst c) = length shape) P ->
  exists v, integrateN shape P = Ok v /\ (v == sumq (map (fun c => edge_weight shape (fst c) * snd c) P))%Q.
Proof. apply integrateN_weights. Qed.
(** FINDING: the number of dimensions is taken from the length of the first axis: a 2 x 2 x 2 array fails *)
Theorem C63_small_axis_refuted : exists shape P, Forall (fun n => 2 <= n) shape /\ map fst P = indices shape /\ integrateN shape P = Err IndexError.
Proof. exists [2; 2; 2], (map (fun i => (i, 1%Q)) (indices [2; 2; 2])). split; [repeat constructor|]. split; [reflexivity|]. vm_compute. reflexivity. Qed.
(** FINDING: the spacing of the grid is left out, unlike in one and two dimensions *)
Theorem C63_spacing_refuted : exists h P, exists v2 vN, integrate2 h P = Ok v2 /\
  integrateN [2; 2] (combine (indices [2; 2]) (concat P)) = Ok vN /\ ~ (v2 == vN)%Q.
Proof. exists 3%Q, [[1; 2]; [3; 4]]%Q. do 2 eexists. split; [vm_compute; reflexivity|]. split; [vm_compute; reflexivity|]. vm_compute. discriminate. Qed.
Example C63_ex : exists v, integrateN [3; 2; 2] (map (fun i => (i, inj (nth 0 i 0 + 1))) (indices [3; 2; 2])) = Ok v /\ (v == 4)%Q.
Proof. eexists. split; [vm_compute; reflexivity|reflexivity]. Qed.

Print Assumptions C38_levels_enclose_partial.
Print Assumptions C38_levels_half_edge_partial.
Print Assumptions C38_levels_antitone_partial.
Print Assumptions C38_errors.
Print Assumptions C38_refuted.
Print Assumptions C39_trapezoid.
Print Assumptions C39_trapezoid_2d.
Print Assumptions C39_normalize_integral.
Print Assumptions C39_normalize_integral_2d.
Print Assumptions C39_normalize_max.
Print Assumptions C39_normalize_empty.
Print Assumptions C40_smallest.
Print Assumptions C40_defined.
Print Assumptions C40_beyond.
Print Assumptions C40_even.
Print Assumptions C40_form_refuted.
Print Assumptions C62_interval_partial.
Print Assumptions C62_level_partial.
Print Assumptions C62_array.
Print Assumptions C62_list_refuted.
Print Assumptions C62_monotone_refuted.
Print Assumptions C62_small_refuted.
Print Assumptions C62_tie_refuted.
Print Assumptions C63_weights_partial.
Print Assumptions C63_small_axis_refuted.
Print Assumptions C63_spacing_refuted.
