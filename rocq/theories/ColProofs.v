From Coq Require Import Reals String Ascii Bool Arith ZArith Lia List Permutation.
From Verif Require Import PyStr NamesModel NamesSpec NamesProofs StatModel LikeModel PsetProofs ColModel ColSpec.
Import ListNotations.
Local Open Scope R_scope.
Local Open Scope list_scope.
Local Open Scope nat_scope.

Lemma allSome_F2 {A B} (f : A -> option B) l : forall r, allSome (map f l) = Some r -> Forall2 (fun a b => f a = Some b) l r.
Proof.
  induction l as [| a l IH]; cbn; intros r E; [injection E as <-; constructor |].
  destruct (f a) as [b |] eqn:Ea; [| discriminate]. destruct (fold_right _ _ _) as [r' |] eqn:Er; [| discriminate]. injection E as <-.
  constructor; [exact Ea | now apply IH].
Qed.
Lemma index_nth l n : forall i, NamesModel.index l n = Some i -> nth_error (names_of l) i = Some n.
Proof.
  induction l as [| p l IH]; cbn; intros i E; [discriminate |]. destruct (str_eqb (nm p) n) eqn:En.
  - injection E as <-. cbn. apply str_eqb_true in En. now subst.
  - destruct (NamesModel.index l n) as [j |]; [| discriminate]. injection E as <-. cbn. now apply IH.
Qed.
Lemma index_app_l a b n i : NamesModel.index a n = Some i -> NamesModel.index (a ++ b) n = Some i.
Proof.
  revert i. induction a as [| p a IH]; cbn; intros i E; [discriminate |]. destruct (str_eqb (nm p) n); [exact E |].
  destruct (NamesModel.index a n) as [j |]; [| discriminate]. injection E as <-. now rewrite (IH j eq_refl).
Qed.
Lemma index_some l n : In n (names_of l) -> exists i, NamesModel.index l n = Some i /\ i < length l.
Proof.
  intro I. apply isin_In in I. unfold isin in I. destruct (NamesModel.index l n) as [i |] eqn:E; [| discriminate]. exists i. split; [reflexivity |].
  apply index_nth in E. assert (nth_error (names_of l) i <> None) by congruence. apply nth_error_Some in H. unfold names_of in H. now rewrite map_length in H.
Qed.

(** ** Adding the parameters of a likelihood *)
Definition newB (names nuis : list pn) : list pn := filter (fun p => negb (der p) && negb (base_in names (nm p))) nuis.
Definition newD (names nuis : list pn) : list pn := filter (fun p => der p && negb (named_in names (nm p))) nuis.
Definition base_list (b : list pn) : Prop := Forall (fun p => der p = false) b.
Definition der_list (d : list pn) : Prop := Forall (fun p => der p = true) d.
Lemma filter_all {A} f (l : list A) : Forall (fun a => f a = true) l -> filter f l = l.
Proof. induction 1 as [| a l H _ IH]; cbn; [reflexivity | now rewrite H, IH]. Qed.
Lemma filter_none {A} f (l : list A) : Forall (fun a => f a = false) l -> filter f l = [].
Proof. induction 1 as [| a l H _ IH]; cbn; [reflexivity | now rewrite H, IH]. Qed.
Lemma bases_split b d : base_list b -> der_list d -> bases (b ++ d) = b /\ derivs (b ++ d) = d.
Proof.
  intros B D. unfold bases, derivs. rewrite !filter_app. split.
  - rewrite filter_all, filter_none, app_nil_r; [reflexivity | |].
    + eapply Forall_impl; [| exact D]. cbn. intros p ->. reflexivity.
    + eapply Forall_impl; [| exact B]. cbn. intros p ->. reflexivity.
  - rewrite filter_none, filter_all; [reflexivity | |]; [exact D | exact B].
Qed.
Lemma num_split b d : base_list b -> der_list d -> num_MCMC (b ++ d) = length b /\ num_derived (b ++ d) = length d.
Proof.
  intros B D. unfold num_MCMC, num_derived. fold (derivs (b ++ d)). destruct (bases_split b d B D) as [_ ->]. rewrite app_length. lia.
Qed.
Lemma in_base b d n : base_list b -> der_list d -> base_in (b ++ d) n = true <-> In n (names_of b).
Proof.
  intros B D. rewrite base_In. unfold has_kind. split.
  - intros (p & I & E1 & E2). apply in_app_iff in I. destruct I as [I | I]; [subst; now apply in_names |].
    rewrite (proj1 (Forall_forall _ _) D p I) in E2. discriminate.
  - intro I. apply in_map_iff in I. destruct I as (p & E & I). exists p. split; [apply in_or_app; now left |]. split; [exact E |].
    exact (proj1 (Forall_forall _ _) B p I).
Qed.
Lemma newB_base names nuis : base_list (newB names nuis).
Proof. apply Forall_forall. intros p I. apply filter_In in I. destruct I as [_ I]. apply andb_true_iff in I. now apply negb_true_iff. Qed.
Lemma newD_der names nuis : der_list (newD names nuis).
Proof. apply Forall_forall. intros p I. apply filter_In in I. destruct I as [_ I]. now apply andb_true_iff in I. Qed.

Lemma Add_shape b d nuis : base_list b -> der_list d -> NoDup (names_of (b ++ d)) -> NoDup (names_of nuis) ->
  (forall p, In p nuis -> der p = false -> ~ In (nm p) (names_of d)) ->
  Add false (b ++ d) nuis = Some ((b ++ newB (b ++ d) nuis) ++ (d ++ newD (b ++ d) nuis)) /\
  NoDup (names_of ((b ++ newB (b ++ d) nuis) ++ (d ++ newD (b ++ d) nuis))) /\
  base_list (b ++ newB (b ++ d) nuis) /\ der_list (d ++ newD (b ++ d) nuis).
Proof.
  intros B D N1 N2 H.
  assert (M : merged (b ++ d) nuis = (b ++ newB (b ++ d) nuis) ++ (d ++ newD (b ++ d) nuis)).
  { unfold merged. fold (bases (b ++ d)). destruct (bases_split b d B D) as [-> _]. fold (newB (b ++ d) nuis). fold (newD (b ++ d) nuis).
    rewrite filter_app, filter_none, filter_all; [cbn [app]; now rewrite <- !app_assoc | |].
    - apply Forall_forall. intros p I. rewrite (proj1 (Forall_forall _ _) D p I). cbn. apply negb_true_iff.
      destruct (base_in nuis (nm p)) eqn:E; [| reflexivity]. apply base_In in E. destruct E as (q & Q1 & Q2 & Q3). exfalso.
      apply (H q Q1 Q3). rewrite Q2. now apply in_names.
    - eapply Forall_impl; [| exact B]. cbn. intros p ->. reflexivity. }
  rewrite <- M. split; [| split; [| split]].
  - unfold Add. cbn [andb].
    assert (EL : length (merged (b ++ d) nuis) = length (b ++ d) + length (filter (fun p => negb (isin (b ++ d) (nm p))) nuis)) by (now apply merged_length).
    remember (filter (fun p => negb (isin (b ++ d) (nm p))) nuis) as F eqn:EF. destruct F as [| f F'].
    + rewrite M. assert (Z : forall f, (forall p, In p nuis -> f p = true -> isin (b ++ d) (nm p) = false) -> filter f nuis = []).
      { intros g G. destruct (filter g nuis) as [| q r] eqn:E; [reflexivity |]. exfalso.
        assert (I : In q (filter g nuis)) by (rewrite E; now left). apply filter_In in I. destruct I as [I1 I2].
        assert (I : In q (filter (fun p => negb (isin (b ++ d) (nm p))) nuis)). { apply filter_In. split; [exact I1 |]. now rewrite G. }
        rewrite <- EF in I. destruct I. }
      unfold newB, newD. rewrite !Z; [now rewrite !app_nil_r | |]; intros p I E.
      * apply andb_true_iff in E. destruct E as [_ E]. apply negb_true_iff in E. apply isin_false. intro J. apply named_In in J. congruence.
      * apply andb_true_iff in E. destruct E as [E1 E2]. apply negb_true_iff in E1, E2. apply isin_false. rewrite names_app, in_app_iff.
        intros [J | J]; [| now apply (H p I E1)]. apply (in_base b d _ B D) in J. congruence.
    + change (add_pass true (add_pass true (add_pass false (add_pass false [] (b ++ d)) nuis) (b ++ d)) nuis) with (four (b ++ d) nuis).
      rewrite four_merged by assumption. rewrite EL, Nat.eqb_refl. reflexivity.
  - rewrite <- four_merged by assumption. apply four_NoDup.
  - apply Forall_app. split; [exact B | apply newB_base].
  - apply Forall_app. split; [exact D | apply newD_der].
Qed.
Lemma Add_check names nuis r : Add true names nuis = Some r -> Add false names nuis = Some r /\ forall p, In p nuis -> ~ In (nm p) (names_of names).
Proof.
  unfold Add. cbn [andb]. set (F := filter (fun p => negb (isin names (nm p))) nuis).
  destruct (Nat.eqb_spec (length F) (length nuis)) as [E | E]; [| discriminate]. cbn [negb]. intro H. split; [exact H |].
  intros p I. assert (G : forall l, length (filter (fun p => negb (isin names (nm p))) l) = length l -> In p l -> ~ In (nm p) (names_of names)).
  { clear. induction l as [| q l IH]; cbn; [tauto |]. intros E [-> | I].
    - destruct (isin names (nm p)) eqn:X; [cbn in E | now apply isin_false in X].
      assert (length (filter (fun p => negb (isin names (nm p))) l) <= length l); [| lia].
      clear. induction l as [| a l IH]; cbn; [lia |]. destruct (negb _); cbn; lia.
    - destruct (isin names (nm q)); cbn in E; [| injection E; intro; now apply IH].
      assert (length (filter (fun p => negb (isin names (nm p))) l) <= length l); [| lia].
      clear. induction l as [| a l IH]; cbn; [lia |]. destruct (negb _); cbn; lia. }
  now apply (G nuis).
Qed.

(** ** All likelihoods *)
Lemma nuis_split l : in_order l -> firstn (num_MCMC l) l = bases l /\ skipn (num_MCMC l) l = derivs l /\ l = bases l ++ derivs l.
Proof.
  intros (b & d & -> & B & D). destruct (num_split b d B D) as [-> _]. destruct (bases_split b d B D) as [-> ->].
  rewrite firstn_app, firstn_all, Nat.sub_diag, skipn_app, skipn_all, Nat.sub_diag. cbn. now rewrite app_nil_r.
Qed.

Lemma add_all likes0 likes : forall b d names nix, (forall lk, In lk likes -> In lk likes0) ->
  base_list b -> der_list d -> NoDup (names_of (b ++ d)) ->
  Forall (fits_like d likes0) likes -> add_nuisance (b ++ d) likes = Some (names, nix) ->
  exists B' D', names = (b ++ B') ++ (d ++ D') /\ base_list (b ++ B') /\ der_list (d ++ D') /\ NoDup (names_of names) /\
    Forall2 (fun lk ix => Forall2 (fun p k => nth_error (names_of (b ++ B')) k = Some (nm p)) (bases (lk_nuis lk)) ix) likes nix /\
    (forall p, In p D' -> exists lk, In lk likes /\ In p (derivs (lk_nuis lk))).
Proof.
  induction likes as [| lk likes IH]; intros b d names nix S B D ND F E; cbn [add_nuisance] in E.
  - injection E as <- <-. exists [], []. rewrite !app_nil_r. repeat split; try assumption; [constructor | intros p []].
  - pose proof (Forall_inv F) as G. apply Forall_inv_tail in F. destruct G as (O & N2 & G).
    destruct (Add_shape b d (lk_nuis lk) B D ND N2) as (E1 & ND1 & B1 & D1).
    { intros p I Dp. now destruct (G p I Dp). }
    rewrite E1 in E. cbn [bindO] in E. set (b1 := b ++ newB (b ++ d) (lk_nuis lk)) in *. set (d1 := d ++ newD (b ++ d) (lk_nuis lk)) in *.
    unfold nuisance_indices in E. destruct (nuis_split _ O) as (S1 & _ & _). rewrite S1 in E.
    destruct (allSome _) as [ix |] eqn:EI; [| discriminate]. cbn [bindO] in E.
    destruct (add_nuisance (b1 ++ d1) likes) as [[names' nix'] |] eqn:ER; [| discriminate]. cbn [bindO fst snd] in E. injection E as <- <-.
    apply allSome_F2 in EI.
    destruct (IH b1 d1 names' nix') as (B' & D' & -> & B2 & D2 & ND2 & F2 & H2); try assumption.
    { intros l I. apply S. now right. }
    { apply Forall_forall. intros l I. rewrite Forall_forall in F. destruct (F l I) as (O' & N' & G'). split; [exact O' |]. split; [exact N' |].
      intros p J Dp. destruct (G' p J Dp) as [G1 G2]. split; [| exact G2]. unfold d1. rewrite names_app, in_app_iff. intros [K | K]; [contradiction |].
      apply in_map_iff in K. destruct K as (q & K1 & K2). pose proof (proj1 (Forall_forall _ _) (newD_der (b ++ d) (lk_nuis lk)) q K2) as K3.
      apply filter_In in K2. destruct K2 as [K2 _]. apply (G2 lk q); try assumption. apply S. now left. }
    exists (newB (b ++ d) (lk_nuis lk) ++ B'), (newD (b ++ d) (lk_nuis lk) ++ D').
    unfold b1, d1 in *. rewrite <- !app_assoc in *. split; [reflexivity |]. split; [exact B2 |]. split; [exact D2 |]. split; [exact ND2 |]. split.
    + constructor; [| exact F2]. clear F2.
      assert (IB : forall p, In p (bases (lk_nuis lk)) -> exists k, NamesModel.index (b ++ newB (b ++ d) (lk_nuis lk)) (nm p) = Some k).
      { intros p I. apply filter_In in I. destruct I as [I Dp]. apply negb_true_iff in Dp.
        destruct (base_in (b ++ d) (nm p)) eqn:Eb.
        - apply (in_base b d _ B D) in Eb. destruct (index_some b (nm p) Eb) as (k & Ek & _). exists k. now apply index_app_l.
        - destruct (index_some (b ++ newB (b ++ d) (lk_nuis lk)) (nm p)) as (k & Ek & _); [| now exists k].
          rewrite names_app, in_app_iff. right. apply in_names. apply filter_In. split; [exact I |]. now rewrite Dp, Eb. }
      revert EI IB. generalize (bases (lk_nuis lk)). intros l EI IB. induction EI as [| p k l ix Ep _ IHl]; constructor.
      * destruct (IB p (or_introl eq_refl)) as (k' & Ek). rewrite app_assoc in Ep. rewrite (index_app_l _ _ _ _ Ek) in Ep. injection Ep as ->.
        apply index_nth in Ek. rewrite app_assoc, names_app. rewrite nth_error_app1; [exact Ek |]. apply nth_error_Some. congruence.
      * apply IHl. intros q I. apply IB. now right.
    + intros p I. apply in_app_iff in I. destruct I as [I | I].
      * exists lk. split; [now left |]. apply filter_In in I. destruct I as [I J]. apply filter_In. split; [exact I |]. now apply andb_true_iff in J.
      * destruct (H2 p I) as (l & J1 & J2). exists l. split; [now right | exact J2].
Qed.
Lemma derived_at b d nuis dix : base_list b -> der_list d -> in_order nuis -> derived_indices (b ++ d) nuis = Some dix ->
  Forall2 (fun p k => nth_error (names_of d) k = Some (nm p)) (derivs nuis) dix.
Proof.
  intros B D O E. unfold derived_indices in E. destruct (nuis_split nuis O) as (_ & S2 & _). rewrite S2 in E. apply allSome_F2 in E.
  destruct (num_split b d B D) as [EN _]. rewrite EN in E. clear S2. induction E as [| p k l r Ep _ IH]; [constructor | constructor; [| exact IH]].
  destruct (NamesModel.index (b ++ d) (nm p)) as [i |] eqn:Ei; [| discriminate]. destruct (Nat.ltb_spec i (length b)); [discriminate |].
  injection Ep as <-. apply index_nth in Ei. rewrite names_app, nth_error_app2 in Ei by (unfold names_of; now rewrite map_length).
  unfold names_of at 2 in Ei. now rewrite map_length in Ei.
Qed.

(** ** Values *)
Lemma put_seq {A} (ps : list (nat * A)) : forall l k, k < length l ->
  nth_error (fold_left (fun l q => upd (fst q) (snd q) l) ps l) k = 
  match find (fun q => fst q =? k) (rev ps) with Some q => Some (snd q) | None => nth_error l k end.
Proof.
  induction ps as [| q ps IH]; intros l k Hk; [reflexivity |]. cbn [fold_left rev]. rewrite IH by (now rewrite upd_len).
  assert (FA : forall a, find (fun q => fst q =? k) (a ++ [q]) = match find (fun q => fst q =? k) a with Some x => Some x | None => if fst q =? k then Some q else None end).
  { induction a as [| x a IHa]; cbn; [reflexivity |]. destruct (fst x =? k); [reflexivity | exact IHa]. }
  rewrite FA. destruct (find _ (rev ps)); [reflexivity |]. rewrite nth_upd, (Nat.eqb_sym k). destruct (fst q =? k); [| reflexivity].
  destruct (nth_error l k) eqn:E; [reflexivity |]. apply nth_error_None in E. lia.
Qed.
Lemma put_seq_len {A} (ps : list (nat * A)) : forall l, length (fold_left (fun l q => upd (fst q) (snd q) l) ps l) = length l.
Proof. induction ps as [| q ps IH]; intro l; cbn; [reflexivity |]. now rewrite IH, upd_len. Qed.
