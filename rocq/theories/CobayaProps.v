(** Cobaya parameter entries: C45, C46, C72, C73, C74. *)
From Verif Require Import PyBase PyNum PyStrFacts CobayaModel CobayaSpec CobayaProofs.
From Coq Require Import ZArith QArith String Ascii Bool List Permutation Lia.
Import ListNotations.
Local Open Scope nat_scope.
Local Open Scope list_scope.

(** ** C45: classes of entries *)

Theorem C45_idempotent v : expand_info_param (VMap (expand_info_param v)) = expand_info_param v.
Proof. apply expand_idem. Qed.
Print Assumptions C45_idempotent.
Theorem C45_class v :
  is_fixed_param (VMap (expand_info_param v)) = is_fixed_param v /\
  is_sampled_param (VMap (expand_info_param v)) = is_sampled_param v /\
  is_derived_param (VMap (expand_info_param v)) = is_derived_param v.
Proof. unfold is_fixed_param, fixed_value, is_sampled_param, is_derived_param. now rewrite expand_idem. Qed.
Print Assumptions C45_class.
Theorem C45_sampled v : is_sampled_param v = true <-> has_key k_prior v.
Proof.
  unfold is_sampled_param, dhas. rewrite expand_prior. unfold has_key. split.
  - destruct v as [| | | | | | |d]; try discriminate. destruct (dget k_prior d) as [x|] eqn:E; [|discriminate]. eauto.
  - intros (d & x & -> & ->). reflexivity.
Qed.
Print Assumptions C45_sampled.
Theorem C45_fixed v : is_fixed_param v = true <-> exists x, says_value v x /\ x <> VNone.
Proof.
  unfold is_fixed_param, fixed_value, vget. rewrite expand_value. unfold says_value. split.
  - destruct v as [| | | | | | |d]; try discriminate; intros H; try (eexists; split; [right; repeat split; try reflexivity; discriminate|discriminate]).
    destruct (dget k_value d) as [x|] eqn:E; [|discriminate]. exists x. split; [left; eauto|]. now intros ->.
  - intros (x & [(d & -> & E)|(-> & N1 & N2)] & N).
    + rewrite E. destruct x; try reflexivity. congruence.
    + destruct x; try reflexivity; [congruence|]. exfalso. now eapply N1.
Qed.
Print Assumptions C45_fixed.
Theorem C45_derived v : truthy (is_derived_param v) = true <-> says_derived v.
Proof.
  unfold is_derived_param, vget. rewrite expand_derived. split.
  - destruct v as [|b|q|n|s|n|l|d]; try discriminate; intros H.
    + constructor.
    + apply (sd_dynamic _ (VStr s)); [right; repeat split; discriminate|reflexivity|discriminate].
    + apply (sd_dynamic _ (VFun n)); [right; repeat split; discriminate|reflexivity|discriminate].
    + destruct (dget k_derived d) as [x|] eqn:D; [now apply (sd_key d x)|].
      unfold dhas, vget in H. destruct (dget k_value d) as [y|] eqn:V.
      * cbn [negb] in H. rewrite andb_false_r in H. cbn [orb] in H. destruct (dynamic y) eqn:Dy; [|discriminate].
        apply (sd_dynamic _ y); [left; eauto|exact Dy|]. now intros ? [= <-].
      * destruct (dget k_prior d) eqn:P; [discriminate|]. now constructor.
  - intros [|d x D T|d D V P|w x [(d & -> & V)|(-> & N1 & N2)] Dy Nd].
    + reflexivity.
    + now rewrite D.
    + rewrite D. unfold dhas. now rewrite V, P.
    + rewrite (Nd d eq_refl). unfold vget. rewrite V, Dy, orb_true_r. reflexivity.
    + destruct x; try discriminate; reflexivity.
Qed.
Print Assumptions C45_derived.
(** missing: entries whose value is a text or a function, or with contradictory keys *)
Theorem C45_exactly_one_partial v : plain_entry v -> exactly_one (is_fixed_param v) (is_sampled_param v) (truthy (is_derived_param v)).
Proof.
  unfold is_fixed_param, fixed_value, is_sampled_param, is_derived_param, dhas, exactly_one. unfold vget at 1 2 3 4 5 6.
  rewrite expand_value, expand_prior, expand_derived.
  intros [|q|d p P V D|d q V P D|d V P D].
  - right; right. repeat split.
  - left. repeat split.
  - rewrite P, V. right; left. repeat split. unfold vget in D. destruct (dget k_derived d); [exact D|].
    unfold dhas. rewrite P. unfold vget. rewrite V. reflexivity.
  - rewrite P, V. left. repeat split. unfold vget in D. destruct (dget k_derived d); [exact D|].
    unfold dhas. rewrite P, V. unfold vget. rewrite V. reflexivity.
  - rewrite P, V. right; right. repeat split. unfold vget in D. destruct (dget k_derived d); [exact D|].
    unfold dhas. rewrite P, V. reflexivity.
Qed.
Print Assumptions C45_exactly_one_partial.
(** FINDING: an entry computed from other parameters is fixed and derived at once *)
Theorem C45_dynamic_refuted s : is_fixed_param (VStr s) = true /\ truthy (is_derived_param (VStr s)) = true /\ is_sampled_param (VStr s) = false.
Proof. repeat split. Qed.
Print Assumptions C45_dynamic_refuted.
Example C45_ex : plain_entry (VMap [(k_prior, VList [VNum 0; VNum 1]); (k_latex, VStr (L "x"))]) /\
  plain_entry (VMap [(k_latex, VStr (L "x"))]) /\
  expand_info_param (VMap [(k_latex, VStr (L "x"))]) = [(k_latex, VStr (L "x")); (k_derived, VBool true)] /\
  says_derived (VStr (L "lambda x: x")).
Proof.
  repeat split; try reflexivity.
  - now eapply pe_prior.
  - now apply pe_derived.
  - eapply (sd_dynamic _ (VStr _)); [right; repeat split; discriminate|reflexivity|discriminate].
Qed.

(** ** C46: reading changes nothing *)
Section Range.
  Context (float_text : str -> option val) (interval : val -> vdict -> res (val * val)).
  Notation get_range := (get_range float_text interval).
  Lemma vget_some d x : dget k_prior d = Some x -> vget k_prior d VNone = x.
  Proof. unfold vget. now intros ->. Qed.
  Lemma sampled_dget d x : dget k_prior d = Some x -> is_sampled_param (VMap d) = true.
  Proof. intros H. unfold is_sampled_param, dhas. now rewrite expand_prior, H. Qed.
  Lemma not_sampled v : (forall d, v = VMap d -> dget k_prior d = None) -> is_sampled_param v = false.
  Proof. intros H. unfold is_sampled_param, dhas. rewrite expand_prior. destruct v; try reflexivity. now rewrite H. Qed.

  (** missing: priors written as a list, and named distributions, which are rewritten *)
  Theorem C46_range_partial v : quiet_prior v -> snd (get_range v) = v.
  Proof.
    intros H. unfold CobayaModel.get_range, get_range_lims. cbn [snd]. destruct (is_sampled_param v) eqn:S.
    - apply C45_sampled in S as (d & x & -> & E). rewrite (vget_some d _ E). cbn [quiet_prior] in H. rewrite E in H.
      destruct x as [| | | |s| |l|p]; try reflexivity; try (now rewrite H). cbn [pair_of].
      unfold by_scale in H. unfold vget. unfold vget in H.
      destruct (dget (L "min") p) as [mn|]; destruct (dget (L "max") p) as [mx|];
        repeat (match goal with |- context [is_none ?v] => is_var v; destruct v; cbn [is_none negb orb]; try reflexivity end).
      all: cbn [is_none negb orb]; rewrite (H (conj eq_refl eq_refl)), (ddel_id _ _ (H (conj eq_refl eq_refl)));
        destruct (negb _ || negb _); cbn [snd]; [|reflexivity]; now rewrite dset_id.
    - destruct (truthy _); [reflexivity|]. destruct (to_float _ _) as [|[]]; reflexivity.
  Qed.
  Theorem C46_range_repeat_partial v : no_dist v -> get_range (snd (get_range v)) = get_range v.
  Proof.
    intros H. destruct (is_sampled_param v) eqn:S.
    - pose proof S as S'. apply C45_sampled in S' as (d & x & -> & E).
      destruct (pair_of x) as [[a b]|] eqn:P.
      + set (p := [(L "min", a); (L "max", b)]). set (d1 := dset k_prior (VMap p) d).
        assert (Q1 : snd (get_range (VMap d)) = VMap d1).
        { unfold CobayaModel.get_range, get_range_lims. cbn [snd]. rewrite S, (vget_some d _ E), P. fold p. fold d1.
          unfold vget. cbn [dget]. cbn. destruct a; destruct b; reflexivity. }
        rewrite Q1. unfold CobayaModel.get_range, get_range_lims. rewrite S.
        assert (S1 : is_sampled_param (VMap d1) = true) by (apply (sampled_dget _ (VMap p)); unfold d1; now rewrite dget_dset_same).
        rewrite S1. rewrite (vget_some d _ E), P, (vget_some d1 (VMap p)) by (unfold d1; apply dget_dset_same). cbn [pair_of].
        fold p. fold d1. reflexivity.
      + destruct x as [| | | |s| |l|p]; try (rewrite (C46_range_partial (VMap d)); [reflexivity|cbn; rewrite E; assumption || exact P]).
        rewrite (C46_range_partial (VMap d)); [reflexivity|]. cbn in H |- *. rewrite E in *. exact H.
    - rewrite (C46_range_partial v); [reflexivity|]. destruct v as [| | | | | | |d]; try exact I. cbn.
      unfold is_sampled_param, dhas in S. rewrite expand_prior in S. destruct (dget k_prior d); [discriminate|exact I].
  Qed.
  (** FINDING: the list of a prior is replaced by a dictionary *)
  Theorem C46_prior_refuted : exists v, plain_entry v /\ snd (get_range v) <> v.
  Proof.
    exists (VMap [(k_prior, VList [VNum 0; VNum 1])]). split; [now eapply pe_prior|]. vm_compute. discriminate.
  Qed.

  (** ** C72: ranges read from entries *)
  Lemma open_end_eq neg a x : open_end neg a x -> finite_or_none neg a = x.
  Proof.
    intros [(-> & ->)|(N & ->)]; cbn; [now rewrite eqb_reflx|]. destruct a; try reflexivity. cbn. destruct (eqb neg0 neg) eqn:E; [|reflexivity].
    apply eqb_prop in E. congruence.
  Qed.
  Lemma limit_vget k d x : limit_of k d x -> vget k d VNone = x.
  Proof. unfold vget. intros [->|(-> & ->)]; reflexivity. Qed.
  Lemma limit_inf k neg d a x : limit_of k d a -> open_end neg a x -> finite_or_none neg (vget k d (VInf neg)) = x.
  Proof.
    unfold vget. intros [->|(-> & ->)] H; [now apply open_end_eq|]. cbn. rewrite eqb_reflx. destruct H as [(H & _)|(_ & ->)]; [discriminate|reflexivity].
  Qed.
  Theorem C72_range v x y : states_range v x y -> fst (get_range v) = Ok (x, y).
  Proof.
    unfold CobayaModel.get_range, get_range_lims.
    intros [q|d q V P D|d a b x' y' P N A B|d p a b x' y' P La Lb N A B| |d a b x' y' P D Ne La Lb A B|]; cbn [fst].
    - reflexivity.
    - rewrite (not_sampled (VMap d)) by (now intros ? [= <-]).
      assert (T : truthy (is_derived_param (VMap d)) = false).
      { unfold is_derived_param, vget. rewrite expand_derived. unfold vget in D. destruct (dget k_derived d); [exact D|].
        unfold dhas, vget. now rewrite P, V. }
      rewrite T. unfold fixed_value, vget. rewrite expand_value, V. reflexivity.
    - rewrite (sampled_dget d _ P), (vget_some d _ P). cbn [pair_of].
      assert (Q1 : negb (is_none a) || negb (is_none b) = true) by (destruct a, b; try reflexivity; destruct N; congruence).
      unfold vget at 1 2 3 4. cbn [dget]. change (str_eqb (L "min") (L "min")) with true. change (str_eqb (L "max") (L "min")) with false.
      change (str_eqb (L "max") (L "max")) with true. cbn iota. rewrite Q1. cbn [fst snd bindR].
      now rewrite (open_end_eq _ _ _ A), (open_end_eq _ _ _ B).
    - rewrite (sampled_dget d _ P), (vget_some d _ P). cbn [pair_of].
      rewrite (limit_vget _ _ _ La), (limit_vget _ _ _ Lb).
      assert (Q1 : negb (is_none a) || negb (is_none b) = true) by (destruct a, b; try reflexivity; destruct N; congruence).
      rewrite Q1. cbn [fst snd bindR]. now rewrite (open_end_eq _ _ _ A), (open_end_eq _ _ _ B).
    - reflexivity.
    - rewrite (not_sampled (VMap d)) by (now intros ? [= <-]). rewrite (proj2 (C45_derived (VMap d)) D).
      unfold min_max. assert (T : truthy (VMap d) = true) by (destruct d; [congruence|reflexivity]). rewrite T. cbn [fst snd bindR].
      now rewrite (limit_inf _ _ _ _ _ La A), (limit_inf _ _ _ _ _ Lb B).
    - reflexivity.
  Qed.
  (** FINDING: a text as entry counts as having a range, and asking for the range fails *)
  Theorem C72_text_refuted s : s <> [] -> is_parameter_with_range (VStr s) = true /\ fst (get_range (VStr s)) = Err AttributeError.
  Proof. intros N. split; [reflexivity|]. destruct s; [congruence|]. reflexivity. Qed.
  (** FINDING: a prior that gives only the distribution has a range by the test, and asking for it fails *)
  Theorem C72_dist_refuted s : is_parameter_with_range (VMap [(k_prior, VMap [(L "dist", VStr s)])]) = true /\
    fst (get_range (VMap [(k_prior, VMap [(L "dist", VStr s)])])) = Err (OtherError (L "UnboundLocalError")).
  Proof. split; reflexivity. Qed.
End Range.
Print Assumptions C46_range_partial.
Print Assumptions C46_range_repeat_partial.
Print Assumptions C46_prior_refuted.
Print Assumptions C72_range.
Print Assumptions C72_text_refuted.
Print Assumptions C72_dist_refuted.
(** FINDING: the distribution is forgotten, so that the second answer is that of a uniform prior *)
Theorem C46_dist_refuted : exists float_text interval v r1 r2,
  get_range float_text interval v = (Ok r1, snd (get_range float_text interval v)) /\
  fst (get_range float_text interval (snd (get_range float_text interval v))) = Ok r2 /\ r1 <> r2.
Proof.
  exists (fun _ => None), (fun dist p => match dist with VStr d => if str_eqb d (L "uniform") then Ok (VNum 0, VNum 1) else Ok (VInf true, VInf false) | _ => Err TypeError end).
  exists (VMap [(k_prior, VMap [(L "dist", VStr (L "norm")); (L "loc", VNum 0); (L "scale", VNum 1)])]), (VNone, VNone), (VNum 0, VNum 1).
  vm_compute. repeat split. discriminate.
Qed.
Print Assumptions C46_dist_refuted.
Example C46_ex : no_dist (VMap [(k_prior, VList [VNum 0; VNum 1])]) /\
  quiet_prior (VMap [(k_prior, VMap [(L "dist", VStr (L "norm")); (L "min", VNum 0)])]).
Proof. split; [exact I|]. vm_compute. intros (H & _). discriminate. Qed.
Example C72_ex : states_range (VMap [(k_prior, VMap [(L "min", VInf true); (L "max", VNum 2)])]) VNone (VNum 2) /\
  states_range (VMap [(k_latex, VStr (L "y")); (L "min", VNum 0)]) (VNum 0) VNone.
Proof.
  split.
  - eapply sr_prior; [reflexivity|left; reflexivity|left; reflexivity|left; discriminate|left; split; reflexivity|right; split; [discriminate|reflexivity]].
  - eapply sr_derived; [reflexivity|now apply sd_bare|discriminate|left; reflexivity|right; split; reflexivity|right; split; [discriminate|reflexivity]|right; split; [discriminate|reflexivity]].
Qed.

(** ** post-processed infos *)

Theorem C46_params_repeat info r info' : good_info info -> get_info_params info = Ok (r, info') -> get_info_params info' = Ok (r, info').
Proof.
  intros (Ni & Np & Na & Ne) H. destruct (info_parts _ _ _ H) as ([params st priors likes D A _ _ R I Ag] & _).
  unfold good_dict, own_params in Np. rewrite D in Np. cbn zeta in A.
  destruct (add_again (removed_params info) (added info) params st Np Na Ne A) as (A2 & _).
  rewrite I at 1. rewrite (Ag (snd st) st A2), R. do 2 f_equal. rewrite I. apply dset_id. apply dget_dset_same.
Qed.
Print Assumptions C46_params_repeat.
(** what may change: the entries of existing parameters that post adds to *)
Theorem C46_params_frame info r info' : good_info info -> get_info_params info = Ok (r, info') ->
  (forall k, k <> L "params" -> dget k info' = dget k info) /\ dkeys info' = dkeys info /\
  dkeys (own_params info') = dkeys (own_params info) /\
  (forall k, ~ In k (dkeys (added info)) -> dget k (own_params info') = dget k (own_params info)).
Proof.
  intros (Ni & Np & Na & Ne) H. destruct (info_parts _ _ _ H) as ([params st priors likes D A _ _ R I Ag] & _).
  unfold good_dict, own_params in Np. rewrite D in Np. cbn zeta in A.
  assert (O : own_params info' = snd st) by (unfold own_params; now rewrite I, dget_dset_same).
  assert (O' : own_params info = params) by (unfold own_params; now rewrite D).
  repeat split.
  - intros k N. rewrite I. now apply dget_dset_other.
  - rewrite I, dkeys_dset. unfold dhas. now rewrite D.
  - rewrite O, O'. now apply (add_again (removed_params info) (added info) params st Np Na Ne A).
  - intros k N. rewrite O, O'. destruct (add_params_spec _ _ _ _ _ Na A) as (_ & _ & G & _). rewrite G.
    apply dget_None in N. now rewrite N.
Qed.
Print Assumptions C46_params_frame.
(** missing: infos whose post block adds to existing parameters *)
Theorem C46_params_partial info r info' : good_info info -> (forall k, In k (dkeys (added info)) -> ~ In k (dkeys (own_params info))) ->
  get_info_params info = Ok (r, info') -> info' = info.
Proof.
  intros G N H. pose proof (C46_params_frame _ _ _ G H) as (F1 & F2 & F3 & F4). destruct G as (Ni & Np & Na & Ne).
  destruct (info_parts _ _ _ H) as ([params st priors likes D A _ _ R I Ag] & _).
  assert (O : own_params info' = own_params info).
  { apply dict_ext; [exact F3|rewrite F3; exact Np|]. intros k. destruct (in_dec (list_eq_dec Ascii.ascii_dec) k (dkeys (added info))) as [Hk|Hk]; [|now apply F4].
    transitivity (@None val); [apply dget_None; rewrite F3; now apply N|symmetry; apply dget_None; now apply N]. }
  assert (O' : own_params info' = snd st) by (unfold own_params; now rewrite I, dget_dset_same).
  rewrite I. apply dset_id. rewrite D. f_equal. f_equal. rewrite <- O', O. unfold own_params. now rewrite D.
Qed.
Print Assumptions C46_params_partial.
Definition post_info : vdict :=
  [(L "params", VMap [(L "x", VMap [(k_prior, VList [VNum 0; VNum 1])]); (L "y", VNum 3); (L "z", VNone)]);
   (L "likelihood", VMap [(L "one", VNone); (L "two_b", VNone)]);
   (L "post", VMap [(L "remove", VMap [(L "params", VList [VStr (L "z")]); (L "likelihood", VStr (L "one"))]);
                    (L "add", VMap [(L "params", VMap [(L "x", VMap [(k_latex, VStr (L "X"))]); (L "w", VMap [(k_derived, VBool true)])]);
                                    (L "likelihood", VMap [(L "new", VNone)])]);
                    (L "skip", VNum (3#10))])].
Lemma post_info_good : good_info post_info.
Proof.
  unfold good_info, good_dict. repeat split.
  - vm_compute. repeat constructor; vm_compute; intuition discriminate.
  - vm_compute. repeat constructor; vm_compute; intuition discriminate.
  - vm_compute. repeat constructor; vm_compute; intuition discriminate.
  - intros k e H. vm_compute in H. destruct H as [H|[H|[]]]; injection H as <- <-; repeat constructor; vm_compute; intuition discriminate.
Qed.
(** FINDING: what post adds to a parameter is written into the info itself *)
Theorem C46_params_refuted : exists info r info', good_info info /\ get_info_params info = Ok (r, info') /\ info' <> info.
Proof.
  exists post_info. eexists. eexists. split; [apply post_info_good|]. split; [vm_compute; reflexivity|]. vm_compute. discriminate.
Qed.
Print Assumptions C46_params_refuted.
Definition quiet_info : vdict :=
  [(L "params", VMap [(L "x", VMap [(k_prior, VList [VNum 0; VNum 1])]); (L "y", VNum 3)]); (L "likelihood", VMap [(L "one", VNone)]);
   (L "post", VMap [(L "add", VMap [(L "params", VMap [(L "w", VMap [(k_derived, VBool true)])])])])].
Example C46_params_ex : good_info quiet_info /\ (forall k, In k (dkeys (added quiet_info)) -> ~ In k (dkeys (own_params quiet_info))) /\
  exists r, get_info_params quiet_info = Ok (r, quiet_info) /\ List.length r = 7.
Proof.
  split; [|split].
  - unfold good_info, good_dict. repeat split.
    + vm_compute. repeat constructor; vm_compute; intuition discriminate.
    + vm_compute. repeat constructor; vm_compute; intuition discriminate.
    + vm_compute. repeat constructor; vm_compute; intuition discriminate.
    + intros k e H. vm_compute in H. destruct H as [H|[]]; injection H as <- <-; repeat constructor; vm_compute; intuition discriminate.
  - intros k H. vm_compute in H. destruct H as [<-|[]]. vm_compute. intuition discriminate.
  - eexists. split; vm_compute; reflexivity.
Qed.

(** ** C73: names from a cobaya info *)

Theorem C73_entry info r info' k : good_info info -> get_info_params info = Ok (r, info') -> ~ output_name k ->
  (forall v, dget k r = Some v -> final_entry info k v) /\
  (dget k r = None -> ~ In k (dkeys (added info)) /\ (In k (removed_params info) \/ ~ In k (dkeys (own_params info)))).
Proof.
  intros (Ni & Np & Na & Ne) H O. destruct (info_parts _ _ _ H) as ([params st priors likes D A _ _ R I Ag] & _).
  assert (O' : own_params info = params) by (unfold own_params; now rewrite D).
  unfold good_dict in Np. rewrite O' in Np. cbn zeta in A.
  destruct (add_params_spec _ _ _ _ _ Na A) as (C & G & _). rewrite R, outputs_other by exact O. rewrite G.
  rewrite fold_ddel_get by exact Np. unfold final_entry. rewrite O'. destruct (dget k (added info)) as [e|] eqn:E.
  - destruct (C k e (dget_Some_In _ _ _ E)) as ((a & ->) & Hd). split; [|discriminate].
    intros v [= <-]. pose proof (Ne k a (dget_Some_In _ _ _ E)) as Nk.
    assert (X : forall d0, exists d a0, VMap a = VMap a0 /\ VMap (dupdate d0 a) = VMap d /\ forall x, dget x d = match dget x a0 with Some y => Some y | None => dget x d0 end).
    { intros d0. exists (dupdate d0 a), a. repeat split. intros x. rewrite dget_dupdate by exact Nk. destruct (dget x a); reflexivity. }
    rewrite fold_ddel_get in Hd by exact Np. unfold upd. destruct (mem_str k (removed_params info)); [exact (X [])|].
    destruct Hd as [->|(d & ->)]; [exact (X [])|exact (X d)].
  - split; [intros v Hv; exact Hv|]. intros Hn. apply dget_None in E. split; [exact E|].
    destruct (mem_str k (removed_params info)) eqn:M; [left; now apply mem_str_In|right; now apply dget_None].
Qed.
Print Assumptions C73_entry.
Theorem C73_order info r info' : good_info info -> get_info_params info = Ok (r, info') ->
  let kept := filter (fun k => negb (mem_str k (removed_params info))) (dkeys (own_params info)) in
  exists outs, dkeys r = kept ++ filter (fun k => negb (mem_str k kept)) (dkeys (added info)) ++ outs /\
    Forall output_name outs /\ NoDup (dkeys r).
Proof.
  intros (Ni & Np & Na & Ne) H kept. destruct (info_parts _ _ _ H) as ([params st priors likes D A _ _ R I Ag] & _).
  assert (O' : own_params info = params) by (unfold own_params; now rewrite D).
  unfold good_dict in Np. unfold kept in *. clear kept. rewrite O' in *. cbn zeta in A.
  destruct (add_params_spec _ _ _ _ _ Na A) as (_ & _ & _ & K & _).
  rewrite fold_ddel_keys, fold_remove_filter in K by exact Np.
  set (kept := filter (fun k => negb (mem_str k (removed_params info))) (dkeys params)) in *.
  assert (HK : forall k, dhas k (fold_left (fun f p => ddel p f) (removed_params info) params) = mem_str k kept).
  { intros k. destruct (mem_str k kept) eqn:M.
    - apply dhas_In. rewrite fold_ddel_keys, fold_remove_filter by exact Np. now apply mem_str_In.
    - apply dhas_false. rewrite fold_ddel_keys, fold_remove_filter by exact Np. now apply mem_str_false. }
  rewrite (filter_ext _ (fun k => negb (mem_str k kept))) in K by (intros; now rewrite HK).
  destruct (outputs_keys priors likes (fst st)) as (outs & E & F). exists outs. rewrite R, E, K, <- app_assoc. split; [reflexivity|]. split; [exact F|].
  rewrite app_assoc, <- K, <- E. apply outputs_NoDup. rewrite K.
  assert (ND : forall (a b : list str), NoDup a -> NoDup b -> (forall x, In x b -> ~ In x a) -> NoDup (a ++ b)).
  { induction a as [|x a IH]; intros b A' B D'; [exact B|]. inversion A'; subst. cbn. constructor.
    - rewrite in_app_iff. intros [X|X]; [contradiction|]. apply (D' x X). now left.
    - apply IH; auto. intros y Hy Hy'. apply (D' y Hy). now right. }
  apply ND; [now apply NoDup_filter|now apply NoDup_filter|]. intros x Hx. apply filter_In in Hx as [_ Hx]. apply negb_true_iff in Hx. now apply mem_str_false in Hx.
Qed.
Print Assumptions C73_order.
Theorem C73_outputs info r info' : get_info_params info = Ok (r, info') ->
  dget (L "minuslogprior") r = Some (VMap [(k_latex, VStr (L "-\log\pi"))]) /\
  dget (L "chi2") r = Some (VMap [(k_latex, VStr (L "\chi^2"))]) /\
  (exists priors, after_post (L "0" :: names_listed (path [k_prior] (VMap info))) k_prior info priors /\
     forall p, In p priors -> exists t, dget (L "minuslogprior__" ++ p) r = Some (VMap [(k_latex, VStr t)])) /\
  (path [L "post"; L "remove"; L "likelihood"] (VMap info) <> VStr [] ->
   exists likes, after_post (names_listed (path [L "likelihood"] (VMap info))) (L "likelihood") info likes /\
     forall p, In p likes -> exists t, dget (L "chi2__" ++ p) r = Some (VMap [(k_latex, VStr t)])).
Proof.
  intros H. destruct (info_parts _ _ _ H) as ([params st priors likes D A P K R I Ag] & _).
  destruct (outputs_values priors likes (fst st)) as (V1 & V2 & V3 & V4). rewrite <- R in *. repeat split; [exact V1|exact V2|exists priors|].
  - split; [exact P|]. intros p Hp. eexists. now apply V3.
  - intros N. exists likes. split; [now apply K|]. intros p Hp. eexists. now apply V4.
Qed.
Print Assumptions C73_outputs.
Theorem C73_names info r info' l : get_info_params info = Ok (r, info') -> yaml_names info = Ok l ->
  exists a b, l = map (fun x => (x, false)) a ++ map (fun x => (x, true)) b /\
    part_of (map fst a) (dkeys r) /\ part_of (map fst b) (dkeys r) /\
    (forall n lab, In (n, lab) a <-> exists e, In (n, e) r /\ has_key k_prior e /\ label_is n e lab) /\
    (forall n lab, In (n, lab) b <-> exists e, In (n, e) r /\ says_derived e /\ label_is n e lab).
Proof.
  intros H Y. unfold yaml_names in Y. rewrite H in Y. cbn [bindR fst] in Y.
  apply bindR_ok in Y as (a & Ha & Y). apply bindR_ok in Y as (b & Hb & Y). injection Y as <-. exists a, b.
  destruct (labels_spec _ _ Ha) as (Ka & Sa). destruct (labels_spec _ _ Hb) as (Kb & Sb). split; [reflexivity|]. split; [|split; [|split]].
  - rewrite Ka. apply part_of_map, part_of_filter.
  - rewrite Kb. apply part_of_map, part_of_filter.
  - intros n lab. rewrite Sa. split; intros (e & E & X).
    + apply filter_In in E as (E & S). exists e. rewrite <- C45_sampled. auto.
    + exists e. destruct X as (X & Y). split; [|exact Y]. apply filter_In. split; [exact E|]. now apply C45_sampled.
  - intros n lab. rewrite Sb. split; intros (e & E & X).
    + apply filter_In in E as (E & S). exists e. rewrite <- C45_derived. auto.
    + exists e. destruct X as (X & Y). split; [|exact Y]. apply filter_In. split; [exact E|]. now apply C45_derived.
Qed.
Print Assumptions C73_names.
Example C73_ex : good_info post_info /\ option_map (map (fun x => (string_of_list_ascii (fst (fst x)), snd x))) (match yaml_names post_info with Ok l => Some l | Err _ => None end) =
  Some [("x", false); ("w", true); ("minuslogprior", true); ("minuslogprior__0", true); ("chi2", true); ("chi2__two_b", true); ("chi2__new", true)]%string.
Proof. split; [apply post_info_good|]. vm_compute. reflexivity. Qed.

(** ** C74: burn-in already removed *)

(** missing: infos that record a skipped fraction *)
Theorem C74_default_partial info r info' : good_info info -> get_info_params info = Ok (r, info') ->
  path [L "post"; L "skip"] (VMap info) = VNone -> ~ In (L "post") (dkeys (own_params info) ++ dkeys (added info)) ->
  get_burn_removed info = Ok (VNum 0).
Proof.
  intros G H _ N. unfold get_burn_removed. rewrite H. cbn [bindR fst].
  destruct (C73_order _ _ _ G H) as (outs & E & F & _).
  assert (X : dget (L "post") r = None).
  { apply dget_None. rewrite E. intros Hin. apply N. apply in_app_iff in Hin as [Hin|Hin]; [apply filter_In in Hin as [Hin _]; apply in_app_iff; now left|].
    apply in_app_iff in Hin as [Hin|Hin]; [apply filter_In in Hin as [Hin _]; apply in_app_iff; now right|].
    rewrite Forall_forall in F. specialize (F _ Hin). destruct F as [F|[F|[(p & F)|(p & F)]]]; discriminate. }
  unfold vget. rewrite X. reflexivity.
Qed.
Print Assumptions C74_default_partial.
(** FINDING: the parameters are asked for the post block, so that the answer is 0 whatever was skipped *)
Theorem C74_skip_refuted : exists info q, path [L "post"; L "skip"] (VMap info) = VNum q /\ ~ (q == 0)%Q /\ get_burn_removed info = Ok (VNum 0).
Proof. exists post_info, (3#10). split; [reflexivity|]. split; [discriminate|]. vm_compute. reflexivity. Qed.
Print Assumptions C74_skip_refuted.
Example C74_ex : good_info quiet_info /\ path [L "post"; L "skip"] (VMap quiet_info) = VNone /\ ~ In (L "post") (dkeys (own_params quiet_info) ++ dkeys (added quiet_info)).
Proof. split; [apply C46_params_ex|]. split; [reflexivity|]. vm_compute. intuition discriminate. Qed.
