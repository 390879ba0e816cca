(** C141: likelihoods of the Hubble constant and of element abundances. *)
From Coq Require Import Reals String Bool Lra Lia Psatz.
From Verif Require Import BaoModel AbModel AbSpec.
Local Open Scope R_scope.

Lemma normal_pos : forall mu s x, 0 < s -> 0 < normal mu s x.
Proof.
  intros mu s x S. unfold normal. apply Rdiv_lt_0_compat; [apply exp_pos|].
  apply Rmult_lt_0_compat; [exact S|]. apply sqrt_lt_R0. pose proof PI_RGT_0. lra.
Qed.
Lemma normal_ratio : forall mu s x y, 0 < s -> normal mu s x / normal mu s y = exp (- ((x - mu) ^ 2 / (2 * s ^ 2))) / exp (- ((y - mu) ^ 2 / (2 * s ^ 2))).
Proof.
  intros mu s x y S. unfold normal.
  assert (Q : 0 < sqrt (2 * PI)) by (apply sqrt_lt_R0; pose proof PI_RGT_0; lra).
  pose proof (exp_pos (- ((y - mu) ^ 2 / (2 * s ^ 2)))). field. repeat split; lra.
Qed.
Lemma normal_peak : forall mu s x, 0 < s -> normal mu s x / normal mu s mu = exp (- ((x - mu) ^ 2 / (2 * s ^ 2))).
Proof.
  intros mu s x S. rewrite normal_ratio by exact S.
  replace (- ((mu - mu) ^ 2 / (2 * s ^ 2))) with 0 by (field; lra). rewrite exp_0. field.
Qed.

(** ** Hubble constant *)
(** the likelihood is normal in the Hubble constant that belongs to the distance; in a model in which distances go as c/H0 times a function of
    redshift, and with the conversion of a model of the same function, it is that of the Hubble constant of the model; without redshift always *)
Theorem C141_hubble : forall sH se sz sc t D h0, HST_Add true (Some sH) (Some se) sz sc = Ok (Some t) -> 0 < se ->
  (exp (- HST_LnLike t D h0) = normal sH se (HST_theory t D h0) / normal sH se sH) /\
  (forall f, 0 < f -> 0 < h0 -> 0 < zeff t -> D (zeff t) = f / h0 -> HST_theory t D h0 = angconversion t / f * h0) /\
  (forall f, 0 < f -> 0 < h0 -> 0 < zeff t -> D (zeff t) = f / h0 -> angconversion t = f -> HST_theory t D h0 = h0) /\
  (zeff t <= 0 -> HST_theory t D h0 = h0) /\
  (needs_background t = true <-> 0 < zeff t) /\
  (zeff t = match sz with Some z => z | None => 4 / 100 end) /\
  (0 < zeff t -> angconversion t = match sc with Some c => c | None => 114258 / 10 end).
Proof.
  intros sH se sz sc t D h0 E S.
  assert (K : t = mkHub (if Rlt_dec 0 (match sz with Some z => z | None => 4 / 100 end)
                         then match sc with Some c => c | None => 114258 / 10 end else 114258 / 10)
                        (match sz with Some z => z | None => 4 / 100 end) sH se
                        (if Rlt_dec 0 (match sz with Some z => z | None => 4 / 100 end) then true else false)).
  { unfold HST_Add in E. cbn [negb] in E. destruct (Rlt_dec 0 (match sz with Some z => z | None => 4 / 100 end)); congruence. }
  clear E. set (z := match sz with Some z => z | None => 4 / 100 end) in *. set (c := match sc with Some c => c | None => 114258 / 10 end) in *.
  clearbody z c. subst t.
  assert (P : forall f, 0 < f -> 0 < h0 -> 0 < z -> D z = f / h0 ->
    HST_theory (mkHub (if Rlt_dec 0 z then c else 114258 / 10) z sH se (if Rlt_dec 0 z then true else false)) D h0 = (if Rlt_dec 0 z then c else 114258 / 10) / f * h0).
  { intros f F H Z E. unfold HST_theory. cbn [zeff angconversion]. rewrite E. destruct (Rlt_dec 0 z) as [|n]; [|contradiction]. field. lra. }
  split; [|split; [|split; [|split; [|split; [|split]]]]].
  - rewrite normal_peak by exact S. reflexivity.
  - exact P.
  - intros f F H Z E A. cbn [angconversion zeff] in A, E, Z. rewrite (P f F H Z E), A. field. lra.
  - cbn [zeff]. intros Z. unfold HST_theory. cbn [zeff]. destruct (Rlt_dec 0 z); [lra | reflexivity].
  - cbn. destruct (Rlt_dec 0 z); split; intros; try lra; try reflexivity; discriminate.
  - reflexivity.
  - cbn [zeff angconversion]. intros Z. destruct (Rlt_dec 0 z); [reflexivity | contradiction].
Qed.
Print Assumptions C141_hubble.
(** 70 +- 1 measured at redshift 0; the model has 72 *)
Example C141_hubble_ex : exists t, HST_Add true (Some 70) (Some 1) (Some 0) None = Ok (Some t) /\ HST_LnLike t (fun _ => 0) 72 = 2.
Proof.
  unfold HST_Add. cbn [negb]. destruct (Rlt_dec 0 0) as [X|X]; [lra|]. eexists. split; [reflexivity|].
  unfold HST_LnLike, HST_theory. cbn [zeff hub_H0 H0_err]. destruct (Rlt_dec 0 0); [lra|]. lra.
Qed.
(** no likelihood unless it is asked for, and none without the measured value and its error *)
Theorem C141_hubble_settings : forall use sH se sz sc,
  (use = false -> HST_Add use sH se sz sc = Ok None) /\
  (use = true -> (HST_Add use sH se sz sc = Stop <-> sH = None \/ se = None)) /\
  (use = true -> HST_Add use sH se sz sc <> Ok None).
Proof.
  intros use sH se sz sc. split; [intros ->; reflexivity|].
  assert (K : use = true -> (sH = None \/ se = None) /\ HST_Add use sH se sz sc = Stop \/
              (exists h e t, sH = Some h /\ se = Some e /\ HST_Add use sH se sz sc = Ok (Some t))).
  { intros ->. unfold HST_Add. cbn [negb]. destruct sH as [h|], se as [e|]; try (left; split; [auto | reflexivity]).
    right. destruct (Rlt_dec 0 _); eauto 8. }
  split; intros U; destruct (K U) as [[N E]|[h [e [t [A [B E]]]]]]; rewrite E.
  - split; auto.
  - split; [discriminate|]. intros [X|X]; congruence.
  - discriminate.
  - discriminate.
Qed.
Print Assumptions C141_hubble_settings.
Example C141_hubble_settings_ex : HST_Add true None (Some 1) None None = Stop /\ HST_Add false None None None None = Ok None.
Proof. split; reflexivity. Qed.

(** ** Helium *)
Lemma m_H_pos : 0 < m_H. Proof. unfold m_H. apply Rdiv_lt_0_compat; lra. Qed.
Lemma not4_bounds : 397 / 100 < not4 < 398 / 100. Proof. unfold not4. lra. Qed.
(** the fraction by nucleons of a mix is computed from its fraction by mass; none and all stay none and all; the conversion grows *)
Theorem C141_helium :
  (forall nH nHe, 0 <= nH -> 0 <= nHe -> 0 < nH + nHe -> GetYPBBN (by_mass m_H m_He nH nHe) = by_nucleons nH nHe) /\
  GetYPBBN 0 = 0 /\ GetYPBBN 1 = 1 /\
  (forall x y, 0 <= x -> x < y -> y <= 1 -> GetYPBBN x < GetYPBBN y) /\
  (forall x, 0 < x -> x < 1 -> x < GetYPBBN x < 1) /\
  3971499 / 1000000 < m_He / m_H < 3971501 / 1000000.
Proof.
  pose proof m_H_pos as P. pose proof not4_bounds as [A B].
  assert (G : forall x, GetYPBBN x = 4 * x / (not4 - x * (not4 - 4))).
  { intros x. unfold GetYPBBN, m_He. destruct (Req_dec (not4 - x * (not4 - 4)) 0) as [Z|N].
    - replace (m_H * not4 - x * (m_H * not4 - 4 * m_H)) with (m_H * (not4 - x * (not4 - 4))) by ring.
      rewrite Z, Rmult_0_r. unfold Rdiv. rewrite RinvN0 || rewrite Rinv_0. ring.
    - assert (N2 : m_H * not4 - x * (m_H * not4 - 4 * m_H) <> 0).
      { replace (m_H * not4 - x * (m_H * not4 - 4 * m_H)) with (m_H * (not4 - x * (not4 - 4))) by ring.
        apply Rmult_integral_contrapositive_currified; [lra | exact N]. }
      field. split; assumption. }
  assert (D : forall x, 0 <= x <= 1 -> 0 < not4 - x * (not4 - 4)) by (intros; nra).
  split; [|split; [|split; [|split; [|split]]]].
  - intros nH nHe H1 H2 H3. rewrite G. unfold by_mass, by_nucleons, m_He.
    assert (Q : 0 < nH + not4 * nHe) by nra.
    assert (Q4 : 0 < nH + 4 * nHe) by nra.
    assert (E : m_H * not4 * nHe / (m_H * nH + m_H * not4 * nHe) = not4 * nHe / (nH + not4 * nHe)).
    { replace (m_H * nH + m_H * not4 * nHe) with (m_H * (nH + not4 * nHe)) by ring. field. split; lra. }
    rewrite E. replace (not4 - not4 * nHe / (nH + not4 * nHe) * (not4 - 4)) with (not4 * (nH + 4 * nHe) / (nH + not4 * nHe)) by (field; lra).
    field. repeat split; lra.
  - rewrite G. unfold Rdiv. ring.
  - rewrite G. field. lra.
  - intros x y X XY Y. rewrite !G. pose proof (D x ltac:(lra)) as Dx. pose proof (D y ltac:(lra)) as Dy.
    apply Rmult_lt_reg_r with ((not4 - x * (not4 - 4)) * (not4 - y * (not4 - 4))); [apply Rmult_lt_0_compat; assumption|].
    replace (4 * x / (not4 - x * (not4 - 4)) * ((not4 - x * (not4 - 4)) * (not4 - y * (not4 - 4)))) with (4 * x * (not4 - y * (not4 - 4))) by (field; lra).
    replace (4 * y / (not4 - y * (not4 - 4)) * ((not4 - x * (not4 - 4)) * (not4 - y * (not4 - 4)))) with (4 * y * (not4 - x * (not4 - 4))) by (field; lra).
    nra.
  - intros x X1 X2. rewrite G. pose proof (D x ltac:(lra)) as Dx. split.
    + apply Rmult_lt_reg_r with (not4 - x * (not4 - 4)); [exact Dx|]. unfold Rdiv. rewrite Rmult_assoc, Rinv_l by lra.
      assert (0 < x * (1 - x) * (4 - not4)) by (apply Rmult_lt_0_compat; [apply Rmult_lt_0_compat|]; lra). nra.
    + apply Rmult_lt_reg_r with (not4 - x * (not4 - 4)); [exact Dx|]. unfold Rdiv. rewrite Rmult_assoc, Rinv_l by lra. nra.
  - unfold m_He. replace (m_H * not4 / m_H) with not4 by (field; lra). unfold not4. lra.
Qed.
Print Assumptions C141_helium.
(** twelve atoms of hydrogen, one of helium: a quarter by nucleons *)
Example C141_helium_ex : GetYPBBN (by_mass m_H m_He 12 1) = 1 / 4.
Proof. rewrite (proj1 C141_helium) by lra. unfold by_nucleons. lra. Qed.

(** ** Abundances *)
(** which measurements there are, and which columns of which table they use; without consistency with nucleosynthesis only helium can be used *)
Theorem C141_measurements : forall cons s,
  (forall a, Abundance_ReadIni cons s = Ok a ->
     exists m mean err, s_measurement s = Some m /\ s_mean s = Some mean /\ s_error s = Some err /\ ab_mean a = mean /\ ab_error a = err /\
     ((cons = false /\ m = "Yp"%string /\ ab_source a = FromModel) \/
      (cons = true /\ exists v e, ab_source a = FromTables v e /\ columns m (data_col v) (data_col e) /\
         data_file v = (match s_table s with None => standard_file | Some n => if String.eqb n "" then standard_file else n end) /\
         ab_offset a = (match s_offset s with Some x => x | None => 0 end) /\ ab_effective a = (match s_effective s with Some x => x | None => 0 end)))) /\
  (Abundance_ReadIni cons s = Stop <->
     s_measurement s = None \/ s_mean s = None \/ s_error s = None \/
     (exists m, s_measurement s = Some m /\ m <> "Yp"%string /\ m <> "D/H"%string) \/ (cons = false /\ s_measurement s <> Some "Yp"%string)).
Proof.
  intros cons [sm me er of ef tb]. unfold Abundance_ReadIni, measured. cbn [s_measurement s_mean s_error s_offset s_effective s_table].
  assert (T : forall v e eff col ecol, v = mkTable standard_file col -> e = mkTable standard_file ecol ->
    exists v' e', other_table (match tb with Some x => x | None => ""%string end) eff (FromTables v e) = FromTables v' e' /\
      data_col v' = col /\ data_col e' = ecol /\
      data_file v' = (match tb with None => standard_file | Some n => if String.eqb n "" then standard_file else n end)).
  { intros v e eff col ecol -> ->. unfold other_table. cbn [data_file].
    destruct tb as [n|]; [|cbn; eauto 8].
    destruct (String.eqb_spec n "") as [->|N1]; [cbn; eauto 8|].
    destruct (String.eqb_spec n standard_file) as [->|N2]; cbn [negb andb]; [eauto 8|].
    destruct (Req_EM_T eff 0); cbn; eauto 8. }
  split.
  - intros a E. destruct sm as [m|]; [|discriminate].
    destruct (String.eqb_spec m "Yp") as [->|N1]; [|destruct (String.eqb_spec m "D/H") as [->|N2]; [|discriminate]];
    destruct cons; cbn [bind] in E; try discriminate; destruct me as [mu|], er as [e|]; try discriminate.
    + destruct (T BBN_YpBBN BBN_YpBBN_err (match ef with Some x => x | None => 0 end) 5%nat 6%nat eq_refl eq_refl) as [v [e' [Q [A [B C]]]]].
      cbv zeta in E. rewrite Q in E. assert (Ea : a = mkAb (FromTables v e') mu e (match of with Some x => x | None => 0 end) (match ef with Some x => x | None => 0 end)) by congruence.
      subst a. exists "Yp"%string, mu, e. repeat (split; [reflexivity|]). right. split; [reflexivity|]. exists v, e'. split; [reflexivity|].
      split; [rewrite A, B; constructor|]. split; [exact C|]. split; reflexivity.
    + assert (Ea : a = mkAb FromModel mu e 0 0) by congruence. subst a. exists "Yp"%string, mu, e. repeat (split; [reflexivity|]). left. repeat split.
    + destruct (T BBN_DH BBN_DH_err (match ef with Some x => x | None => 0 end) 7%nat 8%nat eq_refl eq_refl) as [v [e' [Q [A [B C]]]]].
      cbv zeta in E. rewrite Q in E. assert (Ea : a = mkAb (FromTables v e') mu e (match of with Some x => x | None => 0 end) (match ef with Some x => x | None => 0 end)) by congruence.
      subst a. exists "D/H"%string, mu, e. repeat (split; [reflexivity|]). right. split; [reflexivity|]. exists v, e'. split; [reflexivity|].
      split; [rewrite A, B; constructor|]. split; [exact C|]. split; reflexivity.
  - destruct sm as [m|]; [|cbn; tauto].
    destruct (String.eqb_spec m "Yp") as [->|N1]; [|destruct (String.eqb_spec m "D/H") as [->|N2]].
    + destruct cons; cbn [bind]; destruct me as [mu|], er as [e|]; (split; [intros X; try discriminate; tauto | ]);
      intros [X|[X|[X|[[m [X [Y Z]]]|[X Y]]]]]; try discriminate; try congruence; reflexivity.
    + destruct cons; cbn [bind].
      * destruct me as [mu|], er as [e|]; (split; [intros X; try discriminate; tauto | ]);
        intros [X|[X|[X|[[m [X [Y Z]]]|[X Y]]]]]; try discriminate; try congruence; reflexivity.
      * split; [intros _ | reflexivity]. right. right. right. right. split; [reflexivity|]. discriminate.
    + cbn [bind]. split; [intros _ | reflexivity]. right. right. right. left. eauto.
Qed.
Print Assumptions C141_measurements.
Definition deuterium : settings := mkSet (Some "D/H"%string) (Some 2527) (Some 30) None (Some 30) (Some "PArthENoPE_880.2_marcucci.dat"%string).
Example C141_measurements_ex :
  (exists v e, match Abundance_ReadIni true deuterium with Ok a => ab_source a | _ => FromModel end = FromTables v e /\ data_col v = 7%nat /\
     data_file v = "PArthENoPE_880.2_marcucci.dat"%string) /\
  Abundance_ReadIni false deuterium = Stop.
Proof.
  split; [|reflexivity].
  destruct (C141_measurements true deuterium) as [A B].
  destruct (Abundance_ReadIni true deuterium) as [a| |] eqn:E.
  - destruct (A a eq_refl) as [m [mu [er [M [_ [_ [_ [_ [[X _]|[_ [v [e [S [C [F _]]]]]]]]]]]]]]]; [discriminate|].
    assert (m = "D/H"%string) by (cbn in M; congruence). subst m. exists v, e. split; [exact S|]. split; [inversion C; reflexivity | exact F].
  - destruct (proj1 B eq_refl) as [X|[X|[X|[[m [X [Y Z]]]|[X _]]]]]; try discriminate X; cbn in X; congruence.
  - exfalso. clear A B. unfold Abundance_ReadIni in E. cbn [measured deuterium s_measurement bind s_mean s_error] in E. discriminate E.
Qed.

(** the likelihood is normal about the measured mean; the variances of the measurement and of the prediction add; the offset is added to the
    prediction; the prediction is taken at the density of baryons and the extra neutrinos of the model *)
Theorem C141_gaussian : forall T a ombh2 nnu yhe, 0 < ab_error a ->
  match ab_source a with
  | FromModel => exp (- Abundance_LnLike T a ombh2 nnu yhe) = normal (ab_mean a) (ab_error a) (GetYPBBN yhe) / normal (ab_mean a) (ab_error a) (ab_mean a)
  | FromTables v e =>
      forall te, te = (if Rlt_dec 0 (ab_effective a) then ab_effective a else T (data_file e) (data_col e) ombh2 (nnu - 3046 / 1000)) ->
      let total := sqrt (ab_error a ^ 2 + te ^ 2) in
      exp (- Abundance_LnLike T a ombh2 nnu yhe) =
      normal (ab_mean a) total (T (data_file v) (data_col v) ombh2 (nnu - 3046 / 1000) + ab_offset a) / normal (ab_mean a) total (ab_mean a)
  end.
Proof.
  intros T a o n y S. destruct (ab_source a) as [|v e] eqn:E.
  - rewrite normal_peak by exact S. unfold Abundance_LnLike. rewrite E. f_equal. f_equal. field. lra.
  - intros te ->. cbv zeta. set (te := if Rlt_dec 0 (ab_effective a) then ab_effective a else T (data_file e) (data_col e) o (n - 3046 / 1000)).
    assert (Q : 0 < ab_error a ^ 2 + te ^ 2) by nra.
    rewrite normal_peak by (apply sqrt_lt_R0; exact Q).
    unfold Abundance_LnLike. rewrite E. cbv zeta. change (theory_error T a e o n) with te. change neff with (3046 / 1000).
    rewrite pow2_sqrt by lra. reflexivity.
Qed.
Print Assumptions C141_gaussian.
(** measured 3, predicted 1 + 2/2 with errors 3/5 and 4/5 *)
Definition ex_abund : abund := mkAb (FromTables BBN_DH BBN_DH_err) 3 (3 / 5) (1 / 2) (4 / 5).
Example C141_gaussian_ex : Abundance_LnLike (fun _ c x y => if Nat.eqb c 7 then x / 2 + y else 0) ex_abund 1 (1 / 2 + 3046 / 1000) 0 = 9 / 8.
Proof.
  unfold Abundance_LnLike, ex_abund, theory_error, neff. cbn [ab_source ab_effective ab_error ab_offset ab_mean data_col BBN_DH Nat.eqb].
  destruct (Rlt_dec 0 (4 / 5)); [lra | lra].
Qed.

(** with an error that does not change between models, exp(-LnLike) has the ratios of the normal densities, so that the
    normalization that is left out does not matter *)
Theorem C141_ratios : forall T a v e ombh2 nnu yhe ombh2' nnu' yhe', 0 < ab_error a -> ab_source a = FromTables v e ->
  theory_error T a e ombh2 nnu = theory_error T a e ombh2' nnu' ->
  let total := sqrt (ab_error a ^ 2 + theory_error T a e ombh2 nnu ^ 2) in
  let x := T (data_file v) (data_col v) ombh2 (nnu - 3046 / 1000) + ab_offset a in
  let x' := T (data_file v) (data_col v) ombh2' (nnu' - 3046 / 1000) + ab_offset a in
  exp (- Abundance_LnLike T a ombh2 nnu yhe) / exp (- Abundance_LnLike T a ombh2' nnu' yhe') = normal (ab_mean a) total x / normal (ab_mean a) total x'.
Proof.
  intros T a v e o n y o' n' y' S E H. cbv zeta.
  pose proof (C141_gaussian T a o n y S) as G. pose proof (C141_gaussian T a o' n' y' S) as G'. rewrite E in G, G'.
  rewrite (G _ eq_refl), (G' _ eq_refl). cbv zeta. fold neff.
  change (if Rlt_dec 0 (ab_effective a) then ab_effective a else T (data_file e) (data_col e) o (n - neff)) with (theory_error T a e o n).
  change (if Rlt_dec 0 (ab_effective a) then ab_effective a else T (data_file e) (data_col e) o' (n' - neff)) with (theory_error T a e o' n').
  rewrite <- H. set (t := sqrt (ab_error a ^ 2 + theory_error T a e o n ^ 2)).
  assert (P : 0 < t) by (apply sqrt_lt_R0; nra).
  pose proof (normal_pos (ab_mean a) t (ab_mean a) P). pose proof (normal_pos (ab_mean a) t (T (data_file v) (data_col v) o' (n' - neff) + ab_offset a) P).
  field. split; lra.
Qed.
Print Assumptions C141_ratios.
Example C141_ratios_ex : theory_error (fun _ _ _ _ => 7) ex_abund BBN_DH_err 1 3 = theory_error (fun _ _ _ _ => 7) ex_abund BBN_DH_err 2 4.
Proof. unfold theory_error, ex_abund. cbn [ab_effective]. destruct (Rlt_dec 0 (4 / 5)); [reflexivity | lra]. Qed.

(** FINDING: if errors are taken from a table, they change between models, but the normalization is left out all the same: two models whose
    predictions agree with the measurement exactly, but with different errors, are equally likely *)
Theorem C141_norm_refuted : exists T a o n y o' n' y' v e,
  0 < ab_error a /\ ab_source a = FromTables v e /\
  let s := sqrt (ab_error a ^ 2 + theory_error T a e o n ^ 2) in let s' := sqrt (ab_error a ^ 2 + theory_error T a e o' n' ^ 2) in
  let x := T (data_file v) (data_col v) o (n - 3046 / 1000) + ab_offset a in let x' := T (data_file v) (data_col v) o' (n' - 3046 / 1000) + ab_offset a in
  Abundance_LnLike T a o n y = Abundance_LnLike T a o' n' y' /\ normal (ab_mean a) s x < normal (ab_mean a) s' x'.
Proof.
  exists (fun _ c o _ => if Nat.eqb c 8 then o else 0), (mkAb (FromTables BBN_DH BBN_DH_err) 0 3 0 0), 4, 3, 0, 0, 3, 0, BBN_DH, BBN_DH_err.
  split; [cbn; lra|]. split; [reflexivity|]. cbv zeta.
  unfold Abundance_LnLike, theory_error. cbn [ab_source ab_effective ab_error ab_offset ab_mean data_col BBN_DH BBN_DH_err Nat.eqb].
  destruct (Rlt_dec 0 0) as [X|X]; [lra|].
  replace (3 ^ 2 + 4 ^ 2) with (5 * 5) by ring. replace (3 ^ 2 + 0 ^ 2) with (3 * 3) by ring. rewrite !sqrt_square by lra.
  split; [field|].
  unfold normal. replace (- ((0 + 0 - 0) ^ 2 / (2 * 5 ^ 2))) with 0 by field. replace (- ((0 + 0 - 0) ^ 2 / (2 * 3 ^ 2))) with 0 by field. rewrite exp_0.
  assert (Q : 0 < sqrt (2 * PI)) by (apply sqrt_lt_R0; pose proof PI_RGT_0; lra).
  unfold Rdiv. rewrite !Rmult_1_l. apply Rinv_lt_contravar; [|lra]. nra.
Qed.
Print Assumptions C141_norm_refuted.

(** FINDING: with another table and no effective error, errors should come from that table, but still come from the standard one *)
Theorem C141_table_refuted : exists s a v e, Abundance_ReadIni true s = Ok a /\ ab_source a = FromTables v e /\ ab_effective a = 0 /\
  s_table s = Some (data_file v) /\ data_file v <> standard_file /\ data_file e = standard_file.
Proof.
  exists (mkSet (Some "D/H"%string) (Some 2527) (Some 30) None None (Some "PArthENoPE_880.2_marcucci.dat"%string)).
  unfold Abundance_ReadIni. cbn [measured s_measurement s_mean s_error s_offset s_effective s_table bind String.eqb Ascii.eqb Bool.eqb].
  unfold other_table. cbn [data_file BBN_DH]. change (negb (String.eqb "PArthENoPE_880.2_marcucci.dat" "") && negb (String.eqb "PArthENoPE_880.2_marcucci.dat" standard_file))%bool with true.
  destruct (Req_EM_T 0 0) as [X|X]; [|lra].
  eexists _, _, _. split; [reflexivity|]. split; [reflexivity|]. split; [reflexivity|]. split; [reflexivity|]. split; [discriminate | reflexivity].
Qed.
Print Assumptions C141_table_refuted.
(** what holds: the errors always come from the standard table *)
Theorem C141_error_table : forall s a v e, Abundance_ReadIni true s = Ok a -> ab_source a = FromTables v e -> data_file e = standard_file.
Proof.
  intros s a v e E S. unfold Abundance_ReadIni, measured in E. destruct (s_measurement s) as [m|]; [|discriminate].
  assert (K : forall n eff v0 e0, data_file e0 = standard_file -> forall v1 e1, other_table n eff (FromTables v0 e0) = FromTables v1 e1 -> data_file e1 = standard_file).
  { intros n eff v0 e0 H v1 e1 Q. unfold other_table in Q. destruct (_ && _)%bool; [destruct (Req_EM_T eff 0)|]; congruence. }
  destruct (String.eqb m "Yp"); [|destruct (String.eqb m "D/H"); [|discriminate]]; cbn [bind] in E; destruct (s_mean s), (s_error s); try discriminate; cbv zeta in E;
  match type of E with Ok ?x = _ => assert (Z : a = x) by congruence end; rewrite Z in S; cbn [ab_source] in S;
  (eapply K; [|exact S]); reflexivity.
Qed.
Print Assumptions C141_error_table.
Example C141_error_table_ex : exists a v e, Abundance_ReadIni true deuterium = Ok a /\ ab_source a = FromTables v e.
Proof.
  destruct (C141_measurements_ex) as [[v [e [A _]]] _]. destruct (Abundance_ReadIni true deuterium) as [a| |]; [exists a, v, e; auto | discriminate | discriminate].
Qed.
