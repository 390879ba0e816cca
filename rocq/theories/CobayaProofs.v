(** Facts about cobaya info dictionaries. *)
From Verif Require Import PyBase PyNum PyStrFacts CobayaModel CobayaSpec.
From Coq Require Import ZArith QArith String Ascii Bool List Permutation Lia.
Import ListNotations.
Local Open Scope nat_scope.
Local Open Scope list_scope.

(** ** dictionaries *)
Lemma dset_id {V} k (v : V) d : dget k d = Some v -> dset k v d = d.
Proof.
  induction d as [|[k' v'] d IH]; [discriminate|]. cbn. destruct (str_eqb_spec k k') as [->|N]; [now intros [= ->]|].
  intros H. now rewrite IH.
Qed.
Lemma ddel_id {V} k (d : list (str * V)) : dget k d = None -> ddel k d = d.
Proof.
  induction d as [|[k' v'] d IH]; [reflexivity|]. cbn. destruct (str_eqb_spec k k') as [->|N]; [discriminate|].
  intros H. now rewrite IH.
Qed.
Lemma dkeys_dset {V} k (v : V) d : dkeys (dset k v d) = if dhas k d then dkeys d else dkeys d ++ [k].
Proof.
  unfold dhas. induction d as [|[k' v'] d IH]; [reflexivity|]. cbn. destruct (str_eqb_spec k k') as [->|N]; [reflexivity|].
  cbn. change (map fst (dset k v d)) with (dkeys (dset k v d)). rewrite IH. destruct (dget k d); reflexivity.
Qed.
Lemma dkeys_ddel {V} k (d : list (str * V)) : dkeys (ddel k d) = remove_first k (dkeys d).
Proof.
  induction d as [|[k' v'] d IH]; [reflexivity|]. cbn. destruct (str_eqb k k'); [reflexivity|]. cbn. f_equal. exact IH.
Qed.
Lemma dict_ext {V} (a b : list (str * V)) : dkeys a = dkeys b -> NoDup (dkeys a) -> (forall k, dget k a = dget k b) -> a = b.
Proof.
  revert b. induction a as [|[k v] a IH]; intros [|[k' v'] b] E N G; try discriminate; [reflexivity|].
  cbn in E. injection E as Ek E. subst k'. inversion N as [|? ? Nk N']; subst. f_equal.
  - specialize (G k). cbn in G. rewrite str_eqb_refl in G. congruence.
  - apply IH; [exact E|exact N'|]. intros x. specialize (G x). cbn in G. destruct (str_eqb_spec x k) as [Ex|]; [|exact G].
    rewrite Ex. clear Ex G.
    transitivity (@None V); [now apply dget_None|]. symmetry. apply dget_None. unfold dkeys in E |- *. rewrite <- E. exact Nk.
Qed.
Lemma dupdate_id (d e : vdict) : NoDup (dkeys e) -> (forall k v, dget k e = Some v -> dget k d = Some v) -> dupdate d e = d.
Proof.
  unfold dupdate. induction e as [|[k v] e IH]; intros N H; [reflexivity|]. cbn [fold_left fst snd]. inversion N as [|? ? Nk N']; subst.
  rewrite dset_id.
  - apply IH; [exact N'|]. intros k' v' H'. apply H. cbn. destruct (str_eqb_spec k' k) as [->|]; [|exact H'].
    exfalso. apply Nk. apply dhas_In. unfold dhas. now rewrite H'.
  - apply H. cbn. now rewrite str_eqb_refl.
Qed.
Lemma dupdate_twice (d e : vdict) : NoDup (dkeys e) -> dupdate (dupdate d e) e = dupdate d e.
Proof. intros N. apply dupdate_id; [exact N|]. intros k v H. rewrite dget_dupdate by exact N. now rewrite H. Qed.

(** ** expansion *)
Lemma expand_map v : exists d, expand_info_param v = d /\
  (dhas k_prior d = true \/ dhas k_value d = true \/ dhas k_derived d = true) /\
  (dynamic (vget k_value d VNone) = true -> dhas k_derived d = true).
Proof.
  eexists. split; [reflexivity|]. unfold expand_info_param. set (d0 := match v with VNone => [] | VMap m => m | _ => [(k_value, v)] end).
  set (d1 := if _ && _ && _ then dset k_derived (VBool true) d0 else d0).
  assert (H1 : dhas k_prior d1 = true \/ dhas k_value d1 = true \/ dhas k_derived d1 = true).
  { unfold d1. destruct (dhas k_prior d0) eqn:A; [left; exact A|]. destruct (dhas k_value d0) eqn:B; [right; left; exact B|].
    destruct (dhas k_derived d0) eqn:C; [right; right; exact C|]. cbn [negb andb]. right; right. unfold dhas. now rewrite dget_dset_same. }
  clearbody d1. destruct (dynamic (vget k_value d1 VNone)) eqn:D.
  - split; [|intros _; unfold dhas; now rewrite dget_dset_same].
    right; right. unfold dhas. now rewrite dget_dset_same.
  - split; [exact H1|]. congruence.
Qed.
Lemma expand_idem v : expand_info_param (VMap (expand_info_param v)) = expand_info_param v.
Proof.
  destruct (expand_map v) as (d & -> & H & Hd). unfold expand_info_param.
  assert (E : negb (dhas k_prior d) && negb (dhas k_value d) && negb (dhas k_derived d) = false).
  { destruct H as [H|[H|H]]; rewrite H; cbn; rewrite ?andb_false_r; reflexivity. }
  rewrite E. destruct (dynamic (vget k_value d VNone)) eqn:D; [|reflexivity]. specialize (Hd eq_refl). unfold dhas in Hd.
  unfold vget at 1. destruct (dget k_derived d) eqn:G; [|discriminate]. now apply dset_id.
Qed.
(** keys after expansion *)
Lemma expand_prior v : dget k_prior (expand_info_param v) = match v with VMap d => dget k_prior d | _ => None end.
Proof.
  unfold expand_info_param. set (d0 := match v with VNone => [] | VMap m => m | _ => [(k_value, v)] end).
  set (d1 := if _ && _ && _ then dset k_derived (VBool true) d0 else d0).
  assert (E : dget k_prior d1 = dget k_prior d0) by (unfold d1; destruct (_ && _ && _); [now apply dget_dset_other|reflexivity]).
  clearbody d1. assert (E2 : dget k_prior (if dynamic (vget k_value d1 VNone) then dset k_derived (vget k_derived d1 (VBool true)) d1 else d1) = dget k_prior d1).
  { destruct (dynamic _); [now apply dget_dset_other|reflexivity]. }
  refine (eq_trans E2 (eq_trans E _)). unfold d0. destruct v; reflexivity.
Qed.
Lemma expand_value v : dget k_value (expand_info_param v) = match v with VNone => None | VMap d => dget k_value d | _ => Some v end.
Proof.
  unfold expand_info_param. set (d0 := match v with VNone => [] | VMap m => m | _ => [(k_value, v)] end).
  set (d1 := if _ && _ && _ then dset k_derived (VBool true) d0 else d0).
  assert (E : dget k_value d1 = dget k_value d0) by (unfold d1; destruct (_ && _ && _); [now apply dget_dset_other|reflexivity]).
  clearbody d1. assert (E2 : dget k_value (if dynamic (vget k_value d1 VNone) then dset k_derived (vget k_derived d1 (VBool true)) d1 else d1) = dget k_value d1).
  { destruct (dynamic _); [now apply dget_dset_other|reflexivity]. }
  refine (eq_trans E2 (eq_trans E _)). unfold d0. destruct v; reflexivity.
Qed.
Lemma expand_derived v : dget k_derived (expand_info_param v) =
  match v with
  | VNone => Some (VBool true)
  | VMap d => match dget k_derived d with
              | Some x => Some x
              | None => if (negb (dhas k_prior d) && negb (dhas k_value d)) || dynamic (vget k_value d VNone) then Some (VBool true) else None
              end
  | _ => if dynamic v then Some (VBool true) else None
  end.
Proof.
  unfold expand_info_param. set (d0 := match v with VNone => [] | VMap m => m | _ => [(k_value, v)] end).
  destruct (match v with VMap _ => true | _ => false end) eqn:M.
  - destruct v as [| | | | | | |d]; try discriminate. clear M. subst d0.
    cbn zeta. unfold dhas, vget. destruct (dget k_prior d) eqn:A; destruct (dget k_value d) as [x|] eqn:B; destruct (dget k_derived d) eqn:C; cbn [negb andb orb];
      repeat (rewrite ?A, ?B, ?C, ?dget_dset_same, ?(dget_dset_other _ k_derived) by discriminate; cbn [dynamic]; try reflexivity);
      destruct (dynamic x); rewrite ?dget_dset_same; auto.
  - destruct v; try discriminate; reflexivity.
Qed.

(** ** get_info_params *)
Lemma fold_ddel_get rp (d : vdict) k : NoDup (dkeys d) -> dget k (fold_left (fun f p => ddel p f) rp d) = if mem_str k rp then None else dget k d.
Proof.
  revert d. induction rp as [|p rp IH]; intros d N; [reflexivity|]. cbn [fold_left]. rewrite IH by now apply NoDup_ddel.
  rewrite dget_ddel by exact N. unfold mem_str. cbn [existsb]. fold (mem_str k rp). destruct (str_eqb k p), (mem_str k rp); reflexivity.
Qed.
Lemma fold_ddel_keys rp (d : vdict) : dkeys (fold_left (fun f p => ddel p f) rp d) = fold_left (fun l p => remove_first p l) rp (dkeys d).
Proof. revert d. induction rp as [|p rp IH]; intros d; [reflexivity|]. cbn [fold_left]. now rewrite IH, dkeys_ddel. Qed.
Lemma fold_ddel_NoDup rp (d : vdict) : NoDup (dkeys d) -> NoDup (dkeys (fold_left (fun f p => ddel p f) rp d)).
Proof. revert d. induction rp as [|p rp IH]; intros d N; [exact N|]. cbn [fold_left]. apply IH. now apply NoDup_ddel. Qed.

(** the result of the additions *)
Definition upd (old : option val) (e : vdict) : val :=
  match old with Some (VMap d) => VMap (dupdate d e) | _ => VMap (dupdate [] e) end.
Definition can_add (F : vdict) (ap : vdict) : Prop :=
  forall k x, In (k, x) ap -> (exists e, x = VMap e) /\ (dget k F = None \/ exists d, dget k F = Some (VMap d)).
Lemma add_params_spec F0 ap : forall F P st, NoDup (dkeys ap) -> add_params F0 (F, P) ap = Ok st ->
  can_add F ap /\
  (forall k, dget k (fst st) = match dget k ap with Some (VMap e) => Some (upd (dget k F) e) | _ => dget k F end) /\
  (forall k, dget k (snd st) = match dget k ap with Some (VMap e) => if dhas k F0 then Some (upd (dget k F) e) else dget k P | _ => dget k P end) /\
  dkeys (fst st) = dkeys F ++ filter (fun k => negb (dhas k F)) (dkeys ap) /\
  ((forall k, dhas k F0 = true -> In k (dkeys P)) -> dkeys (snd st) = dkeys P).
Proof.
  induction ap as [|[k x] ap IH]; intros F P st N H; cbn [add_params] in H.
  - injection H as <-. split; [intros k x []|]. cbn. repeat split; auto. now rewrite app_nil_r.
  - inversion N as [|? ? Nk N']; subst. unfold add_param in H. cbn [fst snd] in H. destruct x as [| | | | | | |e]; try discriminate.
    assert (E : exists d, vget k F (VMap []) = VMap d).
    { destruct (vget k F (VMap [])); try discriminate. eauto. }
    destruct E as (d & E). rewrite E in H. cbn [bindR] in H.
    assert (U : upd (dget k F) e = VMap (dupdate d e)).
    { unfold vget in E. unfold upd. destruct (dget k F) as [y|]; [subst y|injection E as <-]; reflexivity. }
    rewrite <- U in H. set (u := upd (dget k F) e) in *.
    destruct (IH _ _ _ N' H) as (C & G1 & G2 & K1 & K2).
    assert (Nap : dget k ap = None) by (apply dget_None; exact Nk).
    split; [|split; [|split; [|split]]].
    + intros k' x' [[= <- <-]|Hin].
      * split; [eauto|]. unfold vget in E. destruct (dget k F) as [y|]; [right; exists d; now subst y|now left].
      * destruct (C k' x' Hin) as (C1 & C2). split; [exact C1|]. rewrite dget_dset_other in C2; [exact C2|].
        intros ->. apply Nk. change k with (fst (k, x')). now apply in_map.
    + intros k'. rewrite G1. rewrite !dget_dset. cbn [dget]. destruct (str_eqb_spec k' k) as [->|]; [now rewrite Nap|reflexivity].
    + intros k'. rewrite G2. cbn [dget]. destruct (str_eqb_spec k' k) as [->|Nk'].
      * rewrite Nap. destruct (dhas k F0); [now rewrite dget_dset_same|reflexivity].
      * rewrite dget_dset_other by exact Nk'. destruct (dget k' ap) as [[| | | | | | |e']|]; try (destruct (dhas k F0); [now apply dget_dset_other|reflexivity]).
        destruct (dhas k' F0); [reflexivity|]. destruct (dhas k F0); [now apply dget_dset_other|reflexivity].
    + rewrite K1. rewrite dkeys_dset. cbn [dkeys map fst filter].
      assert (Ff : forall l, ~ In k l -> filter (fun k0 => negb (dhas k0 (dset k u F))) l = filter (fun k0 => negb (dhas k0 F)) l).
      { intros l Hl. apply filter_ext_in. intros a Ha. unfold dhas. rewrite dget_dset_other; [reflexivity|]. intros ->. contradiction. }
      unfold dkeys in Ff, Nk |- *. rewrite Ff by exact Nk. destruct (dhas k F); cbn [negb]; [reflexivity|]. now rewrite <- app_assoc.
    + intros Hp. rewrite K2.
      * destruct (dhas k F0) eqn:D; [|reflexivity]. rewrite dkeys_dset.
        assert (X : dhas k P = true) by (apply dhas_In; now apply Hp). now rewrite X.
      * intros k' Hk'. specialize (Hp k' Hk'). destruct (dhas k F0); [|exact Hp]. apply dkeys_dset_In. now right.
Qed.
Lemma add_params_ok F0 ap : forall F P, NoDup (dkeys ap) -> can_add F ap -> exists st, add_params F0 (F, P) ap = Ok st.
Proof.
  induction ap as [|[k x] ap IH]; intros F P N C; cbn [add_params]; [eauto|]. inversion N as [|? ? Nk N']; subst.
  destruct (C k x (or_introl eq_refl)) as ((e & ->) & Hd). unfold add_param. cbn [fst snd].
  assert (E : exists d, vget k F (VMap []) = VMap d) by (unfold vget; destruct Hd as [->|(d & ->)]; eauto).
  destruct E as (d & ->). cbn [bindR]. apply IH; [exact N'|].
  intros k' x' Hin. destruct (C k' x' (or_intror Hin)) as (C1 & C2). split; [exact C1|].
  rewrite dget_dset_other; [exact C2|]. intros ->. apply Nk. change k with (fst (k, x')). now apply in_map.
Qed.
Lemma upd_twice old e : NoDup (dkeys e) -> upd (Some (upd old e)) e = upd old e.
Proof.
  intros N. unfold upd. destruct old as [[| | | | | | |d]|]; now rewrite dupdate_twice.
Qed.

(** adding twice, from the changed parameters *)
Lemma add_again rp ap params st : NoDup (dkeys params) -> NoDup (dkeys ap) -> (forall k e, In (k, VMap e) ap -> NoDup (dkeys e)) ->
  let F0 := fold_left (fun f p => ddel p f) rp params in
  add_params F0 (F0, params) ap = Ok st ->
  let F1 := fold_left (fun f p => ddel p f) rp (snd st) in
  add_params F1 (F1, snd st) ap = Ok st /\ dkeys (snd st) = dkeys params.
Proof.
  intros Np Na Ne F0 H F1. destruct (add_params_spec F0 ap F0 params st Na H) as (C & G1 & G2 & K1 & K2).
  assert (NF0 : NoDup (dkeys F0)) by now apply fold_ddel_NoDup.
  assert (Hsub : forall k, dhas k F0 = true -> In k (dkeys params)).
  { intros k Hk. apply dhas_In. unfold dhas in *. unfold F0 in Hk. rewrite fold_ddel_get in Hk by exact Np. destruct (mem_str k rp); [discriminate|exact Hk]. }
  specialize (K2 Hsub). assert (NP : NoDup (dkeys (snd st))) by now rewrite K2.
  assert (KF : dkeys F1 = dkeys F0) by (unfold F1, F0; now rewrite !fold_ddel_keys, K2).
  assert (NF1 : NoDup (dkeys F1)) by now rewrite KF.
  assert (HF : forall k, dhas k F1 = dhas k F0).
  { intros k. destruct (dhas k F0) eqn:E; [apply dhas_In; rewrite KF; now apply dhas_In|apply dhas_false; rewrite KF; now apply dhas_false]. }
  assert (GF : forall k, dget k F1 = if dhas k F0 then match dget k ap with Some (VMap e) => Some (upd (dget k F0) e) | _ => dget k F0 end else None).
  { intros k. destruct (dhas k F0) eqn:E.
    - unfold F1. rewrite fold_ddel_get by exact NP. assert (M : mem_str k rp = false).
      { unfold dhas, F0 in E. rewrite fold_ddel_get in E by exact Np. destruct (mem_str k rp); [discriminate|reflexivity]. }
      rewrite M, G2, E. unfold F0. rewrite !fold_ddel_get by exact Np. rewrite M. reflexivity.
    - specialize (HF k). rewrite E in HF. unfold dhas in HF. destruct (dget k F1); [discriminate|reflexivity]. }
  assert (C' : can_add F1 ap).
  { intros k x Hin. destruct (C k x Hin) as ((e & ->) & D). split; [eauto|]. rewrite GF. destruct (dhas k F0); [|now left].
    rewrite (dget_In_NoDup k (VMap e) ap Na Hin). right. unfold upd. destruct D as [->|(d & ->)]; eauto. }
  destruct (add_params_ok F1 ap F1 (snd st) Na C') as (st' & E). destruct (add_params_spec F1 ap F1 (snd st) st' Na E) as (_ & G1' & G2' & K1' & K2').
  assert (HU : forall k e, dget k ap = Some (VMap e) -> upd (dget k F1) e = upd (dget k F0) e).
  { intros k e He. rewrite GF, He. destruct (dhas k F0) eqn:D.
    - apply upd_twice. eapply Ne, dget_Some_In, He.
    - unfold dhas in D. destruct (dget k F0); [discriminate|reflexivity]. }
  assert (S1 : fst st' = fst st).
  { apply dict_ext.
    - rewrite K1', K1, KF. f_equal. apply filter_ext. intros k. now rewrite HF.
    - rewrite K1', KF. clear -NF0 Na NF1 HF. rewrite (filter_ext _ (fun k => negb (dhas k F0))) by (intros; now rewrite HF).
      assert (ND : forall (a b : list str), NoDup a -> NoDup b -> (forall x, In x b -> ~ In x a) -> NoDup (a ++ b)).
      { induction a as [|x a IH]; intros b A B D; [exact B|]. inversion A; subst. cbn. constructor.
        - rewrite in_app_iff. intros [X|X]; [contradiction|]. apply (D x X). now left.
        - apply IH; auto. intros y Hy Hy'. apply (D y Hy). now right. }
      apply ND; [exact NF0|now apply NoDup_filter|]. intros x Hx. apply filter_In in Hx as [_ Hx]. apply negb_true_iff in Hx. now apply dhas_false in Hx.
    - intros k. rewrite G1', G1. destruct (dget k ap) as [[| | | | | | |e]|] eqn:A;
        try (rewrite GF, A; unfold dhas; destruct (dget k F0); reflexivity). now rewrite HU. }
  assert (S2 : snd st' = snd st).
  { apply dict_ext.
    - apply K2'. intros k Hk. rewrite K2. apply Hsub. now rewrite <- HF.
    - rewrite K2'; [exact NP|]. intros k Hk. rewrite K2. apply Hsub. now rewrite <- HF.
    - intros k. rewrite G2'. destruct (dget k ap) as [[| | | | | | |e]|] eqn:A; try reflexivity.
      rewrite HF. destruct (dhas k F0) eqn:D; [|reflexivity]. rewrite HU by exact A. rewrite G2, A, D. reflexivity. }
  split; [|exact K2]. refine (eq_trans E _). f_equal. rewrite (surjective_pairing st'), (surjective_pairing st), S1, S2. reflexivity.
Qed.

(** ** the parts of get_info_params *)
Lemma bindR_ok {A B} (m : res A) (k : A -> res B) y : bindR m k = Ok y -> exists x, m = Ok x /\ k x = Ok y.
Proof. destruct m; [|discriminate]. cbn. eauto. Qed.
Lemma iter_listed v l : iter_names v = Ok l -> l = names_listed v.
Proof.
  destruct v as [| | | |s| |x|m]; try discriminate; intros H; try (injection H as <-; reflexivity).
  cbn in *. revert l H. induction x as [|y x IH]; intros l H; [now injection H as <-|]. cbn in H.
  apply bindR_ok in H as (a & Ha & H). apply bindR_ok in H as (r & Hr & H). injection H as <-. destruct y; try discriminate.
  injection Ha as <-. cbn. f_equal. now apply IH.
Qed.
Lemma falsy_listed v : truthy v = false -> names_listed v = [].
Proof. destruct v as [|[]| | |[]| |[]|[]]; cbn; try reflexivity; try discriminate. Qed.
Lemma or_empty_listed v : names_listed (or_empty v) = names_listed v.
Proof. unfold or_empty. destruct (truthy v) eqn:T; [reflexivity|]. now rewrite (falsy_listed v T). Qed.
Lemma to_list_listed v : names_listed (str_to_list v) = one_or_listed v.
Proof. destruct v; reflexivity. Qed.
Lemma remove_first_perm x l : In x l -> Permutation (x :: remove_first x l) l.
Proof.
  induction l as [|y l IH]; [intros []|]. cbn. destruct (str_eqb_spec x y) as [->|N]; [reflexivity|]. intros [E|H]; [congruence|].
  rewrite perm_swap. now rewrite IH.
Qed.
Lemma remove_all_perm rm : forall l l', remove_all rm l = Ok l' -> Permutation (rm ++ l') l.
Proof.
  induction rm as [|x rm IH]; intros l l' H; cbn in H; [now injection H as <-|]. destruct (mem_str x l) eqn:M; [|discriminate].
  cbn. rewrite (IH _ _ H). apply remove_first_perm. now apply mem_str_In.
Qed.
(** nested lookups with defaults, as get(a, {}).get(b, {}).get(c, default) *)
Lemma path3 a b c info m df x : mget b (vget a info (VMap [])) (VMap []) = Ok m -> mget c m df = Ok x ->
  x = path [a; b; c] (VMap info) \/ (path [a; b; c] (VMap info) = VNone /\ x = df).
Proof.
  intros Hb Hc. unfold mget, vget in *. cbn [path]. destruct (dget a info) as [y|].
  - destruct y as [| | | | | | |d]; try discriminate. injection Hb as <-. destruct (dget b d) as [z|]; [|injection Hc as <-; now right].
    destruct z as [| | | | | | |d0]; try discriminate. injection Hc as <-. destruct (dget c d0); [now left|now right].
  - injection Hb as <-. injection Hc as <-. now right.
Qed.
Record parts (info r info' : vdict) := {
  pt_params : vdict; pt_st : vdict * vdict; pt_priors : list str; pt_likes : list str;
  pt_dget : dget (L "params") info = Some (VMap pt_params);
  pt_add : let F := fold_left (fun f p => ddel p f) (removed_params info) pt_params in add_params F (F, pt_params) (added info) = Ok pt_st;
  pt_P : after_post (L "0" :: names_listed (path [k_prior] (VMap info))) k_prior info pt_priors;
  pt_L : path [L "post"; L "remove"; L "likelihood"] (VMap info) <> VStr [] -> after_post (names_listed (path [L "likelihood"] (VMap info))) (L "likelihood") info pt_likes;
  pt_r : r = add_outputs pt_priors pt_likes (fst pt_st);
  pt_info : info' = dset (L "params") (VMap (snd pt_st)) info;
  pt_again : forall P2 st2, (let F := fold_left (fun f p => ddel p f) (removed_params info) P2 in add_params F (F, P2) (added info) = Ok st2) ->
    get_info_params (dset (L "params") (VMap P2) info) = Ok (add_outputs pt_priors pt_likes (fst st2), dset (L "params") (VMap (snd st2)) (dset (L "params") (VMap P2) info)) }.
Lemma info_parts info r info' : get_info_params info = Ok (r, info') -> exists x : parts info r info', True.
Proof.
  unfold get_info_params at 1. intros H.
  apply bindR_ok in H as (params & Hparams & H). apply bindR_ok in H as (ps & Hps & H). cbn zeta in H.
  apply bindR_ok in H as (likes & Hlikes & H). apply bindR_ok in H as (remove & Hremove & H).
  apply bindR_ok in H as (rp & Hrp & H). apply bindR_ok in H as (rp' & Hrp' & H). apply bindR_ok in H as (rl & Hrl & H).
  apply bindR_ok in H as (rl' & Hrl' & H). apply bindR_ok in H as (likes' & Hlikes' & H). apply bindR_ok in H as (rq & Hrq & H).
  apply bindR_ok in H as (rq' & Hrq' & H). apply bindR_ok in H as (priors & Hpriors & H). apply bindR_ok in H as (add & Hadd & H).
  apply bindR_ok in H as (ap & Hap & H). apply bindR_ok in H as (ap' & Hap' & H). apply bindR_ok in H as (st & Hst & H).
  apply bindR_ok in H as (al & Hal & H). apply bindR_ok in H as (al' & Hal' & H). apply bindR_ok in H as (aq & Haq & H).
  apply bindR_ok in H as (aq' & Haq' & H). injection H as Hr Hi.
  assert (Erp : rp' = removed_params info).
  { rewrite (iter_listed _ _ Hrp'), or_empty_listed. unfold removed_params. destruct (path3 _ _ _ _ _ _ _ Hremove Hrp) as [->|(-> & ->)]; reflexivity. }
  assert (Eap : ap' = added info).
  { unfold added. destruct (path3 _ _ _ _ _ _ _ Hadd Hap) as [<-|(-> & ->)].
    - destruct ap; try discriminate. now injection Hap' as <-.
    - now injection Hap' as <-. }
  unshelve eexists; [|exact I].
  refine {| pt_params := params; pt_st := st; pt_priors := priors ++ aq'; pt_likes := likes' ++ al' |}.
  - unfold vget in Hparams. destruct (dget (L "params") info) as [[]|]; try discriminate. now injection Hparams as <-.
  - cbn zeta. rewrite <- Erp, <- Eap. exact Hst.
  - unfold after_post. rewrite app_assoc.
    assert (E1 : names_listed (path [L "post"; L "add"; k_prior] (VMap info)) = aq').
    { rewrite (iter_listed _ _ Haq'). destruct (path3 _ _ _ _ _ _ _ Hadd Haq) as [<-|(-> & ->)]; reflexivity. }
    rewrite E1. apply Permutation_app_tail.
    assert (E2 : one_or_listed (path [L "post"; L "remove"; k_prior] (VMap info)) = rq').
    { rewrite (iter_listed _ _ Hrq'), or_empty_listed, to_list_listed. destruct (path3 _ _ _ _ _ _ _ Hremove Hrq) as [<-|(-> & ->)]; reflexivity. }
    rewrite E2, (remove_all_perm _ _ _ Hpriors). rewrite (iter_listed _ _ Hps), or_empty_listed. cbn [path]. unfold vget.
    destruct (dget k_prior info); reflexivity.
  - intros Nq. unfold after_post. rewrite app_assoc.
    assert (E1 : names_listed (path [L "post"; L "add"; L "likelihood"] (VMap info)) = al').
    { rewrite (iter_listed _ _ Hal'). destruct (path3 _ _ _ _ _ _ _ Hadd Hal) as [<-|(-> & ->)]; reflexivity. }
    rewrite E1. apply Permutation_app_tail.
    assert (E2 : one_or_listed (path [L "post"; L "remove"; L "likelihood"] (VMap info)) = rl').
    { rewrite (iter_listed _ _ Hrl'), to_list_listed.
      destruct (path3 _ _ _ _ _ _ _ Hremove Hrl) as [E|(-> & ->)]; [|reflexivity]. rewrite <- E in *.
      destruct rl as [|[]|q| |[|]| |[]|[]]; try reflexivity; [|congruence]. unfold or_empty. destruct (truthy (VNum q)); reflexivity. }
    rewrite E2, (remove_all_perm _ _ _ Hlikes'). rewrite (iter_listed _ _ Hlikes). cbn [path]. unfold vget.
    destruct (dget (L "likelihood") info); reflexivity.
  - now symmetry.
  - now symmetry.
  - intros P2 st2 H2. cbn zeta in H2. rewrite <- Erp, <- Eap in H2. set (info2 := dset (L "params") (VMap P2) info).
    assert (V : forall k df, str_eqb k (L "params") = false -> vget k info2 df = vget k info df).
    { intros k df Nk. unfold vget, info2. rewrite dget_dset, Nk. reflexivity. }
    assert (V0 : forall df, vget (L "params") info2 df = VMap P2).
    { intros df. unfold vget, info2. now rewrite dget_dset_same. }
    unfold get_info_params. rewrite V0. cbn [items_of bindR].
    rewrite !V by reflexivity. rewrite Hps. cbn [bindR]. cbn zeta. rewrite Hlikes. cbn [bindR]. rewrite Hremove. cbn [bindR].
    rewrite Hrp. cbn [bindR]. rewrite Hrp'. cbn [bindR]. rewrite Hrl. cbn [bindR]. rewrite Hrl'. cbn [bindR]. rewrite Hlikes'. cbn [bindR].
    rewrite Hrq. cbn [bindR]. rewrite Hrq'. cbn [bindR]. rewrite Hpriors. cbn [bindR]. rewrite Hadd. cbn [bindR]. rewrite Hap. cbn [bindR].
    rewrite Hap'. cbn [bindR]. refine (eq_trans (f_equal (fun m => bindR m _) H2) _). cbn [bindR]. rewrite Hal. cbn [bindR]. rewrite Hal'. cbn [bindR]. rewrite Haq. cbn [bindR].
    rewrite Haq'. cbn [bindR]. reflexivity.
Qed.

(** ** the entries for priors and likelihoods *)
Lemma fold_dset_other pre (g : str -> val) k l : forall d, (forall p, k <> pre ++ p) -> dget k (fold_left (fun f p => dset (pre ++ p) (g p) f) l d) = dget k d.
Proof.
  induction l as [|p l IH]; intros d H; [reflexivity|]. cbn [fold_left]. rewrite IH by exact H. now apply dget_dset_other.
Qed.
Lemma fold_dset_in pre (g : str -> val) p l : forall d, In p l \/ dget (pre ++ p) d = Some (g p) ->
  dget (pre ++ p) (fold_left (fun f p => dset (pre ++ p) (g p) f) l d) = Some (g p).
Proof.
  induction l as [|q l IH]; intros d H; cbn [fold_left]; [now destruct H as [[]|H]|]. apply IH.
  rewrite dget_dset. destruct (str_eqb_spec (pre ++ p) (pre ++ q)) as [E|N].
  - apply app_inv_head in E as ->. now right.
  - destruct H as [[->|H]|H]; [congruence|now left|now right].
Qed.
Lemma dset_keys_out (P : str -> Prop) k (v : val) d : P k -> exists outs, dkeys (dset k v d) = dkeys d ++ outs /\ Forall P outs.
Proof.
  intros H. rewrite dkeys_dset. destruct (dhas k d); [exists []; rewrite app_nil_r; auto|exists [k]; auto].
Qed.
Lemma fold_dset_keys (P : str -> Prop) pre (g : str -> val) l : (forall p, P (pre ++ p)) -> forall d, exists outs,
  dkeys (fold_left (fun f p => dset (pre ++ p) (g p) f) l d) = dkeys d ++ outs /\ Forall P outs.
Proof.
  intros HP. induction l as [|q l IH]; intros d; cbn [fold_left]; [exists []; rewrite app_nil_r; auto|].
  destruct (IH (dset (pre ++ q) (g q) d)) as (o & E & F). destruct (dset_keys_out P (pre ++ q) (g q) d (HP q)) as (o' & E' & F').
  exists (o' ++ o). rewrite E, E', app_assoc. split; [reflexivity|now apply Forall_app].
Qed.
Lemma fold_dset_NoDup pre (g : str -> val) l : forall d, NoDup (dkeys d) -> NoDup (dkeys (fold_left (fun f p => dset (pre ++ p) (g p) f) l d)).
Proof. induction l as [|q l IH]; intros d H; [exact H|]. cbn [fold_left]. apply IH. now apply NoDup_dset. Qed.
Lemma outputs_other k priors likes d : ~ output_name k -> dget k (add_outputs priors likes d) = dget k d.
Proof.
  intros H. unfold output_name in H. unfold add_outputs. rewrite fold_dset_other by (intros p E; apply H; eauto).
  rewrite dget_dset_other by (intros E; apply H; auto). rewrite fold_dset_other by (intros p E; apply H; eauto).
  apply dget_dset_other. intros E; apply H; auto.
Qed.
Lemma outputs_keys priors likes d : exists outs, dkeys (add_outputs priors likes d) = dkeys d ++ outs /\ Forall output_name outs.
Proof.
  unfold add_outputs, output_name.
  match goal with |- context [dkeys (fold_left ?f likes ?x)] => destruct (fold_dset_keys output_name (L "chi2__") (fun p => latex (L "\chi^2_\mathrm{" ++ tex_name p ++ L "}")) likes ltac:(intros; unfold output_name; eauto 6) x) as (o1 & -> & F1) end.
  match goal with |- context [dkeys (dset (L "chi2") ?v ?x)] => destruct (dset_keys_out output_name (L "chi2") v x ltac:(unfold output_name; auto)) as (o2 & -> & F2) end.
  match goal with |- context [dkeys (fold_left ?f priors ?x)] => destruct (fold_dset_keys output_name (L "minuslogprior__") (fun p => latex (L "-\log\pi_\mathrm{" ++ tex_name p ++ L "}")) priors ltac:(intros; unfold output_name; eauto 6) x) as (o3 & -> & F3) end.
  match goal with |- context [dkeys (dset (L "minuslogprior") ?v ?x)] => destruct (dset_keys_out output_name (L "minuslogprior") v x ltac:(unfold output_name; auto)) as (o4 & -> & F4) end.
  exists (o4 ++ o3 ++ o2 ++ o1). rewrite <- !app_assoc. split; [reflexivity|]. repeat (apply Forall_app; split; [assumption|]); assumption.
Qed.
Lemma outputs_NoDup priors likes d : NoDup (dkeys d) -> NoDup (dkeys (add_outputs priors likes d)).
Proof. intros H. unfold add_outputs. apply fold_dset_NoDup, NoDup_dset, fold_dset_NoDup, NoDup_dset, H. Qed.
Lemma outputs_values priors likes d : let r := add_outputs priors likes d in
  dget (L "minuslogprior") r = Some (latex (L "-\log\pi")) /\ dget (L "chi2") r = Some (latex (L "\chi^2")) /\
  (forall p, In p priors -> dget (L "minuslogprior__" ++ p) r = Some (latex (L "-\log\pi_\mathrm{" ++ tex_name p ++ L "}"))) /\
  (forall p, In p likes -> dget (L "chi2__" ++ p) r = Some (latex (L "\chi^2_\mathrm{" ++ tex_name p ++ L "}"))).
Proof.
  cbn zeta. unfold add_outputs. repeat split.
  - rewrite fold_dset_other by discriminate. rewrite dget_dset_other by discriminate. rewrite fold_dset_other by discriminate. apply dget_dset_same.
  - rewrite fold_dset_other by discriminate. apply dget_dset_same.
  - intros p Hp. rewrite fold_dset_other by discriminate. rewrite dget_dset_other by discriminate.
    apply (fold_dset_in (L "minuslogprior__") (fun p => latex (L "-\log\pi_\mathrm{" ++ tex_name p ++ L "}"))). now left.
  - intros p Hp. apply (fold_dset_in (L "chi2__") (fun p => latex (L "\chi^2_\mathrm{" ++ tex_name p ++ L "}"))). now left.
Qed.
Lemma remove_first_filter x (l : list str) : NoDup l -> remove_first x l = filter (fun k => negb (str_eqb k x)) l.
Proof.
  induction l as [|y l IH]; intros N; [reflexivity|]. inversion N as [|? ? Ny N']; subst. cbn [remove_first filter].
  rewrite (str_eqb_sym y x). destruct (str_eqb_spec x y) as [->|Nx]; cbn [negb]; [|now rewrite IH].
  clear IH N N'. induction l as [|z l IH]; [reflexivity|]. cbn [filter]. destruct (str_eqb_spec z y) as [->|]; [exfalso; apply Ny; now left|].
  cbn [negb]. f_equal. apply IH. intros H. apply Ny. now right.
Qed.
Lemma fold_remove_filter rp : forall l : list str, NoDup l -> fold_left (fun l p => remove_first p l) rp l = filter (fun k => negb (mem_str k rp)) l.
Proof.
  induction rp as [|p rp IH]; intros l N; cbn [fold_left].
  - induction l as [|x l IHl]; [reflexivity|]. inversion N; subst. cbn. f_equal. auto.
  - rewrite remove_first_filter by exact N. rewrite IH by now apply NoDup_filter. clear. induction l as [|x l IH]; [reflexivity|].
    cbn [filter]. unfold mem_str in *. cbn [existsb]. destruct (str_eqb x p); cbn [negb orb]; [exact IH|]. cbn [filter].
    destruct (existsb (str_eqb x) rp); cbn [negb]; [exact IH|]. now rewrite IH.
Qed.
Lemma part_of_filter {A} (f : A -> bool) l : part_of (filter f l) l.
Proof. induction l as [|x l IH]; cbn; [constructor|]. destruct (f x); now constructor. Qed.
Lemma part_of_map {A B} (f : A -> B) a b : part_of a b -> part_of (map f a) (map f b).
Proof. induction 1; cbn; now constructor. Qed.
Lemma labels_spec l a : mapR label_of l = Ok a -> map fst a = map fst l /\
  (forall n lab, In (n, lab) a <-> exists e, In (n, e) l /\ label_is n e lab).
Proof.
  revert a. induction l as [|[n0 e0] l IH]; intros a H; cbn in H.
  - injection H as <-. split; [reflexivity|]. intros n lab. split; [intros []|intros (e & [] & _)].
  - apply bindR_ok in H as (x & Hx & H). apply bindR_ok in H as (rest & Hr & H). injection H as <-. destruct (IH rest Hr) as (K & S).
    assert (X : fst x = n0 /\ forall lab, snd x = lab <-> label_is n0 e0 lab).
    { unfold label_of in Hx. cbn [fst snd] in Hx. destruct (truthy e0) eqn:T.
      - destruct e0 as [| | | | | | |d]; try discriminate. injection Hx as <-. split; [reflexivity|]. intros lab. cbn. unfold vget. destruct (dget k_latex d).
        + split; [intros <-; now left|intros [[= <-]|(H & _)]; [reflexivity|discriminate]].
        + split; [intros <-; now right|intros [H|(_ & ->)]; [discriminate|reflexivity]].
      - injection Hx as <-. split; [reflexivity|]. intros lab. cbn. destruct e0 as [| | | | | | |d]; cbn; try (split; congruence).
        destruct d; [|discriminate]. cbn. split; [intros <-; now right|intros [H|(_ & ->)]; [discriminate|reflexivity]]. }
    destruct X as (X1 & X2). split; [cbn; now rewrite X1, K|]. intros n lab. split.
    + intros [E|H].
      * exists e0. subst x. cbn [fst snd] in X1, X2. subst n. split; [now left|now apply X2].
      * apply S in H as (e & H1 & H2). exists e. split; [now right|exact H2].
    + intros (e & [[= <- <-]|H] & Hl).
      * left. apply X2 in Hl. rewrite (surjective_pairing x). now subst.
      * right. apply S. eauto.
Qed.
