(** Proofs about combining chains and splitting them again. *)
From Verif Require Import PyStr PyBase ThinModel ChainModel ChainSpec ChainProofs.
From Coq Require Import QArith.
Local Open Scope nat_scope.

Fixpoint prs (a : nat) (lens : list nat) : list (nat * nat) :=
  match lens with [] => [] | n :: r => (a, a + n) :: prs (a + n) r end.

Lemma pairs_cumsum lens : forall a, pairs_of (a :: nat_cumsum a lens) = prs a lens.
Proof.
  induction lens as [|n r IH]; intros a; [reflexivity|].
  specialize (IH (a + n)). unfold pairs_of in *. cbn [nat_cumsum tl] in *.
  change (removelast (a :: a + n :: nat_cumsum (a + n) r)) with (a :: removelast (a + n :: nat_cumsum (a + n) r)).
  cbn [combine prs]. now rewrite IH.
Qed.

Lemma offs_spec {A} (parts : list (list A)) :
  map (fun k => length (concat (firstn k parts))) (seq 0 (S (length parts))) = nat_cumsum 0 (0 :: map (@length A) parts).
Proof.
  assert (G : forall (parts : list (list A)) a,
    map (fun k => a + length (concat (firstn k parts))) (seq 0 (S (length parts))) = a :: nat_cumsum a (map (@length A) parts)).
  { clear. induction parts as [|p parts IH]; intros a; [cbn; f_equal; lia|].
    cbn [length]. rewrite <- cons_seq. cbn [map firstn concat length]. rewrite Nat.add_0_r. f_equal.
    cbn [nat_cumsum]. rewrite <- IH, <- seq_shift, map_map. apply map_ext. intros k. cbn [firstn concat].
    rewrite app_length. lia. }
  specialize (G parts 0). cbn [Nat.add] in G. rewrite G. reflexivity.
Qed.

Lemma pairs_offs {A} (parts : list (list A)) :
  pairs_of (map (fun k => length (concat (firstn k parts))) (seq 0 (S (length parts)))) = prs 0 (map (@length A) parts).
Proof. rewrite offs_spec. change (nat_cumsum 0 (0 :: ?l)) with (0 :: nat_cumsum 0 l). apply pairs_cumsum. Qed.

Lemma slice_map {A B} (f : A -> B) a b l : slice a b (map f l) = map f (slice a b l).
Proof. unfold slice. now rewrite skipn_map, firstn_map. Qed.

Lemma slice_app {A} (pre x post : list A) : slice (length pre) (length pre + length x) (pre ++ x ++ post) = x.
Proof.
  unfold slice. rewrite skipn_app, skipn_all, Nat.sub_diag. cbn.
  replace (length pre + length x - length pre) with (length x) by lia.
  rewrite firstn_app, firstn_all, Nat.sub_diag. cbn. apply app_nil_r.
Qed.

Lemma mapR_ext {A B} (f g : A -> res B) l : (forall x, In x l -> f x = g x) -> mapR f l = mapR g l.
Proof.
  induction l as [|x l IH]; cbn; intros H; [reflexivity|]. rewrite H, IH by auto. reflexivity.
Qed.

Lemma mapR_slices {A B} (F : list A -> res B) (parts : list (list A)) : forall pre,
  mapR (fun p => F (slice (fst p) (snd p) (pre ++ concat parts))) (prs (length pre) (map (@length A) parts)) = mapR F parts.
Proof.
  induction parts as [|p parts IH]; intros pre; [reflexivity|].
  cbn [map prs mapR fst snd concat]. rewrite slice_app.
  destruct (F p) as [y|e]; [|reflexivity].
  specialize (IH (pre ++ p)). rewrite app_length in IH.
  rewrite <- app_assoc in IH. rewrite IH. reflexivity.
Qed.

Definition reinit {R} (p : list (row3 R)) : res (wsam R) :=
  ws_init (map r_s p) (Some (map r_w p)) (Some (map r_l p)) default_ratio.

Lemma separate_eq {R} (c : chn R) parts : combined c parts -> getSeparateChains c = mapR reinit parts.
Proof.
  intros [[H1 [H2 [H3 H4]]] [Hc Ho]]. unfold getSeparateChains. rewrite Hc, Ho, pairs_offs.
  rewrite <- (mapR_slices reinit parts []). cbn [app length].
  apply mapR_ext. intros [a b] _. rewrite H1, H2, H3. cbn [fst snd]. unfold reinit. now rewrite !slice_map.
Qed.

Lemma default_ratio_pos : (0 <= default_ratio)%Q.
Proof. unfold default_ratio. discriminate. Qed.

Lemma reinit_spec {R} (p : list (row3 R)) : p <> [] ->
  exists s t, reinit p = Ok s /\ rows true s t /\ fresh s t /\ cut_of default_ratio p t /\ subseq t p.
Proof.
  intros Hne. unfold reinit, ws_init.
  destruct (setSamples_rows (mkW R None None None 0 0%Q default_ratio false true) true p None)
    as [s [t [S1 [S2 [S3 [S4 [S5 S6]]]]]]]; [auto|].
  cbn [mwr] in S6, S4. assert (E : Qle_bool 0 default_ratio = true) by (apply Qle_bool_iff, default_ratio_pos).
  rewrite E in S6. exists s, t. auto.
Qed.

Lemma reinit_empty {R} : @reinit R [] = Err ValueError.
Proof. reflexivity. Qed.

Lemma mapR_Forall2 {A B} (f : A -> res B) (P : A -> B -> Prop) l :
  (forall x, In x l -> exists y, f x = Ok y /\ P x y) -> exists r, mapR f l = Ok r /\ Forall2 P l r.
Proof.
  induction l as [|x l IH]; cbn; intros H; [eauto|].
  destruct (H x (or_introl eq_refl)) as [y [-> Hy]]. destruct IH as [r [-> Hr]]; [auto|]. eauto.
Qed.

Lemma separate_spec {R} (c : chn R) parts : combined c parts -> (forall p, In p parts -> p <> []) ->
  exists ss, getSeparateChains c = Ok ss /\
    Forall2 (fun p s => exists t, rows true s t /\ fresh s t /\ cut_of default_ratio p t /\ subseq t p) parts ss.
Proof.
  intros Hc Hne. rewrite (separate_eq c parts Hc). apply mapR_Forall2.
  intros p Hp. destruct (reinit_spec p (Hne p Hp)) as [s [t [E [H1 [H2 [H3 H4]]]]]]. eauto 10.
Qed.

Lemma separate_exact {R} (c : chn R) parts : combined c parts ->
  (forall p, In p parts -> p <> [] /\ no_low default_ratio p) ->
  exists ss, getSeparateChains c = Ok ss /\ Forall2 (fun p s => rows true s p) parts ss.
Proof.
  intros Hc Hp. destruct (separate_spec c parts Hc (fun p H => proj1 (Hp p H))) as [ss [E F]].
  exists ss. split; [exact E|]. clear E Hc.
  induction F as [|p s parts ss [t [H1 [_ [[H3 _] _]]]] F IH]; constructor.
  - rewrite <- (H3 (proj2 (Hp p (or_introl eq_refl)))). exact H1.
  - apply IH. intros q Hq. apply Hp. cbn; auto.
Qed.

Lemma separate_empty {R} (c : chn R) parts : combined c parts -> In [] parts ->
  exists e, getSeparateChains c = Err e.
Proof.
  intros Hc Hin. rewrite (separate_eq c parts Hc). clear Hc.
  induction parts as [|p parts IH]; [destruct Hin|]. cbn [mapR].
  destruct (reinit p) as [y|e] eqn:E; [|eauto].
  destruct Hin as [->|Hin]; [discriminate|]. destruct (IH Hin) as [e ->]. eauto.
Qed.

(** makeSingle *)
Lemma mapR_get {A B} (f : A -> res B) (g : A -> B) l : (forall x, In x l -> f x = Ok (g x)) -> mapR f l = Ok (map g l).
Proof.
  induction l as [|x l IH]; cbn; intros H; [reflexivity|]. now rewrite H, IH by auto.
Qed.

Lemma makeSingle_spec {R} (c : chn R) ss parts : chains c = Some ss -> ss <> [] ->
  Forall2 (fun s p => rows true s p) ss parts ->
  exists c', makeSingle c = Ok c' /\ combined c' parts /\ fresh (base c') (concat parts) /\ mwr (base c') = mwr (base c).
Proof.
  intros Hc Hne F. unfold makeSingle. rewrite Hc. destruct ss as [|s0 ss]; [congruence|].
  assert (E1 : mapR (fun x => match samples x with Some l => Ok l | None => Err AttributeError end) (s0 :: ss)
               = Ok (map (map r_s) parts)).
  { clear Hc Hne. induction F as [|s p ss' ps [H1 _] F IH]; [reflexivity|]. cbn [mapR map]. now rewrite H1, IH. }
  assert (E2 : forall A (get : wsam R -> option (list A)) f,
     (forall s p, rows true s p -> get s = Some (map f p)) ->
     mapR (fun c => match get c with Some l => Ok l | None => Err TypeError end) (s0 :: ss) = Ok (map (map f) parts)).
  { intros A get f Hg. clear Hc Hne E1. induction F as [|s p ss' ps H F IH]; [reflexivity|].
    cbn [mapR map]. now rewrite (Hg _ _ H), IH. }
  rewrite E1. cbn [bindR].
  assert (E3 : forall A (get : wsam R -> option (list A)) f,
     (forall s p, rows true s p -> get s = Some (map f p)) -> hstack get (s0 :: ss) = Ok (Some (map f (concat parts)))).
  { intros A get f Hg. unfold hstack. inversion F as [|? p ? ps H F']; subst. rewrite (Hg _ _ H).
    rewrite (E2 A get f Hg). cbn [bindR]. rewrite concat_map. reflexivity. }
  rewrite (E3 Q weights r_w) by (intros s p [_ [H _]]; exact H). cbn [bindR].
  rewrite (E3 Q loglikes r_l) by (intros s p [_ [_ [H _]]]; exact H). cbn [bindR].
  rewrite <- concat_map. destruct (raw_rows (base c) true (concat parts)) as [W1 [W2 W3]].
  eexists; split; [reflexivity|]. split; [|split; [exact W2|exact W3]].
  split; [exact W1|split; [reflexivity|]]. cbn [offs]. rewrite offs_spec, map_map.
  f_equal. f_equal. f_equal. apply map_ext. intros p. apply map_length.
Qed.

(** filters *)
Lemma keep_app {A} : forall m1 (l1 : list A) m2 l2, length m1 = length l1 -> keep (m1 ++ m2) (l1 ++ l2) = keep m1 l1 ++ keep m2 l2.
Proof.
  induction m1 as [|b m IH]; intros [|x l] m2 l2 H; cbn in *; try discriminate; [reflexivity|].
  destruct b; cbn; rewrite IH by lia; reflexivity.
Qed.

Lemma keep_concat {A} (parts : list (list A)) : forall m, length m = length (concat parts) ->
  keep m (concat parts) = concat (keep_parts m parts).
Proof.
  induction parts as [|p parts IH]; intros m H; cbn in *; [destruct m; [reflexivity|discriminate]|].
  rewrite app_length in H. rewrite <- (firstn_skipn (length p) m) at 1.
  rewrite keep_app by (rewrite firstn_length; lia). rewrite IH by (rewrite skipn_length; lia). reflexivity.
Qed.

Lemma filter_keep_length {A} : forall m (l : list A), length m = length l ->
  length (filter (fun x => x) m) = length (keep m l).
Proof.
  induction m as [|b m IH]; intros [|x l] H; cbn in *; try discriminate; [reflexivity|].
  destruct b; cbn; rewrite (IH l) by lia; reflexivity.
Qed.

Lemma counts_spec {A} (parts : list (list A)) : forall pre m, length m = length (concat parts) ->
  map (fun p => length (filter (fun x => x) (slice (fst p) (snd p) (pre ++ m)))) (prs (length pre) (map (@length A) parts))
  = map (@length A) (keep_parts m parts).
Proof.
  induction parts as [|p parts IH]; intros pre m H; [reflexivity|].
  cbn [concat] in H. rewrite app_length in H. cbn [map prs keep_parts fst snd].
  assert (Hf : length (firstn (length p) m) = length p) by (rewrite firstn_length; lia).
  assert (E : slice (length pre) (length pre + length p) (pre ++ m) = firstn (length p) m).
  { rewrite <- (firstn_skipn (length p) m) at 1. rewrite <- Hf at 1. apply slice_app. }
  rewrite E, (filter_keep_length _ p) by exact Hf. f_equal.
  rewrite <- (IH (pre ++ firstn (length p) m)) by (rewrite skipn_length; lia).
  rewrite app_length, Hf. rewrite <- app_assoc, firstn_skipn. reflexivity.
Qed.

Lemma keep_parts_length {A} (parts : list (list A)) : forall m, length (keep_parts m parts) = length parts.
Proof. induction parts; intros m; cbn; auto. Qed.

Lemma ch_filter_mask {R} (c : chn R) parts m : combined c parts -> length m = length (concat parts) ->
  exists c', ch_filter c (Mask m) = Ok c' /\ combined c' (keep_parts m parts) /\
             fresh (base c') (concat (keep_parts m parts)) /\ mwr (base c') = mwr (base c).
Proof.
  intros [Hrow [Hc Ho]] Hm. unfold ch_filter. rewrite Hc.
  pose proof (filter_rows (base c) true (concat parts) (Mask m) Hrow) as F. cbn [take] in F.
  rewrite Hm, Nat.eqb_refl in F. destruct F as [b [F1 [F2 [F3 F4]]]]. rewrite F1. cbn [bindR].
  rewrite keep_concat in F2, F3 by auto.
  eexists; split; [reflexivity|]. split; [|split; [exact F3|exact F4]].
  split; [exact F2|split; [reflexivity|]]. cbn [offs]. rewrite Ho. cbn [option_map]. f_equal.
  rewrite (offs_spec (keep_parts m parts)). unfold new_offs. rewrite pairs_offs. f_equal. f_equal.
  exact (counts_spec parts [] m Hm).
Qed.

Lemma ch_filter_bad_length {R} (c : chn R) parts m : combined c parts -> length m <> length (concat parts) ->
  exists e, ch_filter c (Mask m) = Err e.
Proof.
  intros [Hrow [Hc Ho]] Hm. unfold ch_filter. rewrite Hc.
  pose proof (filter_rows (base c) true (concat parts) (Mask m) Hrow) as F. cbn [take] in F.
  apply Nat.eqb_neq in Hm. rewrite Hm in F. destruct F as [e ->]. cbn. eauto.
Qed.

(** the weight cut on combined chains *)
Lemma ch_ratio {R} (c : chn R) parts q : combined c parts -> concat parts <> [] -> (0 <= q)%Q ->
  exists c' m, setMinWeightRatio_with base ch_filter c q = Ok c' /\ combined c' (keep_parts m parts) /\
    length m = length (concat parts) /\ cut_of q (concat parts) (concat (keep_parts m parts)).
Proof.
  intros Hcom Hne Hq. pose proof Hcom as [[H1 [H2 [H3 H4]]] [Hc Ho]]. unfold setMinWeightRatio_with.
  rewrite H2. assert (E : Qle_bool 0 q = true) by now apply Qle_bool_iff. rewrite E.
  destruct (ratio_mask_spec (concat parts) q Hne Hq) as [m [Em [Hcut Hl]]]. rewrite Em. cbn [bindR].
  destruct m as [m|].
  - destruct (ch_filter_mask c parts m Hcom Hl) as [c' [F1 [F2 _]]].
    exists c', m. split; [exact F1|split; [exact F2|split; [exact Hl|]]]. now rewrite <- keep_concat.
  - exists c, (map (fun _ => true) (concat parts)).
    assert (Hall : forall (parts : list (list (row3 R))), keep_parts (map (fun _ => true) (concat parts)) parts = parts).
    { clear. assert (K : forall l : list (row3 R), keep (map (fun _ => true) l) l = l) by (induction l; cbn; congruence).
      induction parts as [|p parts IH]; [reflexivity|]. cbn [concat keep_parts]. rewrite map_app.
      rewrite firstn_app, map_length, Nat.sub_diag. cbn [firstn]. rewrite app_nil_r.
      rewrite <- (map_length (fun _ => true) p) at 1. rewrite firstn_all, K. f_equal.
      rewrite skipn_app, map_length, Nat.sub_diag. rewrite <- (map_length (fun _ => true) p) at 1.
      rewrite skipn_all. exact IH. }
    rewrite Hall. split; [reflexivity|split; [exact Hcom|split; [now rewrite map_length|exact Hcut]]].
Qed.

(** sequences of masks and weight cuts *)
Lemma chops_spec {R} l : forall (c : chn R) parts c', combined c parts -> do_chops c l = Ok c' ->
  exists ms, combined c' (keep_all ms parts).
Proof.
  induction l as [|o l IH]; cbn; intros c parts c' Hc H.
  - injection H as <-. exists []. exact Hc.
  - destruct (do_chop c o) as [c1|] eqn:E; [|discriminate]. cbn [bindR] in H.
    assert (Hm : exists ms, combined c1 (keep_all ms parts)).
    { destruct o as [m|q]; cbn [do_chop] in E.
      - destruct (Nat.eq_dec (length m) (length (concat parts))) as [Hl|Hl].
        + destruct (ch_filter_mask c parts m Hc Hl) as [c2 [F1 [F2 _]]]. rewrite F1 in E. injection E as <-.
          exists [m]. exact F2.
        + destruct (ch_filter_bad_length c parts m Hc Hl) as [e F]. congruence.
      - destruct (Qle_bool 0 q) eqn:Eq.
        + destruct (concat parts) as [|x t] eqn:Ep.
          * exfalso. pose proof Hc as [[_ [Hw _]] _]. unfold setMinWeightRatio_with in E. rewrite Hw, Ep, Eq in E. discriminate.
          * destruct (ch_ratio c parts q Hc) as [c2 [m [F1 [F2 _]]]]; [congruence|now apply Qle_bool_iff|].
            rewrite F1 in E. injection E as <-. exists [m]. exact F2.
        + unfold setMinWeightRatio_with in E. rewrite Eq in E.
          assert (c1 = c) by (destruct (weights (base c)); congruence). subst. exists []. exact Hc. }
    destruct Hm as [ms Hm]. destruct (IH c1 _ c' Hm H) as [ms' H'].
    exists (ms ++ ms'). assert (Ea : forall ms ms' (p : list (list (row3 R))), keep_all (ms ++ ms') p = keep_all ms' (keep_all ms p)).
    { clear. induction ms; cbn; auto. }
    rewrite Ea. exact H'.
Qed.

Lemma masks_spec {R} ms : forall (c : chn R) parts,
  combined c parts ->
  masks_ok ms parts ->
  exists c', do_chops c (map ChMask ms) = Ok c' /\ combined c' (keep_all ms parts).
Proof.
  induction ms as [|m ms IH]; cbn; intros c parts Hc H; [eauto|]. destruct H as [Hl H].
  destruct (ch_filter_mask c parts m Hc Hl) as [c1 [F1 [F2 _]]]. rewrite F1. cbn [bindR]. apply IH; auto.
Qed.

Lemma keep_all_subseq {A} ms : forall parts : list (list A), Forall2 subseq (keep_all ms parts) parts.
Proof.
  induction ms as [|m ms IH]; intros parts; cbn.
  - induction parts; constructor; auto using subseq_refl.
  - specialize (IH (keep_parts m parts)).
    assert (G : forall (parts : list (list A)) m, Forall2 subseq (keep_parts m parts) parts).
    { clear. induction parts as [|p parts IH]; intros m; cbn; constructor; auto. apply keep_subseq. }
    specialize (G parts m). revert IH G. generalize (keep_all ms (keep_parts m parts)) (keep_parts m parts). clear.
    intros a b H. revert parts. induction H; intros parts G; inversion G; subst; constructor; auto.
    eapply subseq_trans; eauto.
Qed.

(** weighted thinning keeps the chains apart *)
Lemma mapR_inv2 {A B} (f : A -> res B) l r : mapR f l = Ok r -> Forall2 (fun x y => f x = Ok y) l r.
Proof.
  revert r. induction l as [|x l IH]; cbn; intros r H; [injection H as <-; constructor|].
  destruct (f x) eqn:E; [|discriminate]. destruct (mapR f l) eqn:E2; [|discriminate]. injection H as <-.
  constructor; auto.
Qed.

Lemma wthin_chains {R} (c c' : chn R) parts f : combined c parts -> (forall p, In p parts -> p <> []) ->
  ch_weighted_thin c f = Ok c' ->
  exists ss ss' parts', getSeparateChains c = Ok ss /\ combined c' parts' /\
    Forall2 (fun s s' => ws_weighted_thin s f = Ok s') ss ss' /\
    Forall2 (fun s' p' => rows true s' p') ss' parts' /\
    Forall2 (fun p p' => incl (map rl p') (map rl p)) parts parts'.
Proof.
  intros Hc Hne H. pose proof Hc as [_ [Hn Ho]]. unfold ch_weighted_thin in H. rewrite Hn, Ho in H.
  destruct (separate_spec c parts Hc Hne) as [ss [Es Fs]]. rewrite Es in H. cbn [bindR] in H.
  destruct (mapR (fun x => ws_weighted_thin x f) ss) as [ss'|] eqn:Em; [|discriminate]. cbn [bindR] in H.
  apply mapR_inv2 in Em.
  assert (Hp : exists parts', Forall2 (fun s' p' => rows true s' p') ss' parts' /\
              Forall2 (fun p p' => incl (map rl p') (map rl p)) parts parts').
  { clear - Fs Em. revert parts Fs. induction Em as [|s s' ss ss' E Em IH]; intros parts Fs; inversion Fs; subst.
    - exists []. auto.
    - destruct (IH _ H3) as [ps [P1 P2]]. destruct H2 as [t [T1 [T2 T3]]].
      destruct (wthin_rows s true t f s' T1 E) as [q [t0 [_ [Q2 [Q3 _]]]]].
      eexists (_ :: ps). split; constructor; eauto.
      rewrite map_map. intros y Hy. apply in_map_iff in Hy. destruct Hy as [[z k] [<- Hz]].
      apply in_combine_l in Hz. apply in_map_iff. exists z. split; [reflexivity|].
      apply (take_In _ _ _ Q2) in Hz.
      apply (subseq_incl _ _ (proj2 T3)). exact Hz. }
  destruct Hp as [parts' [P1 P2]].
  destruct ss' as [|s0' ss0'].
  { unfold makeSingle in H. cbn in H. discriminate. }
  destruct (makeSingle_spec (mkCh R (base c) (Some (s0' :: ss0')) (Some (map (fun k => length (concat (firstn k parts))) (seq 0 (S (length parts))))))
              (s0' :: ss0') parts' eq_refl ltac:(discriminate) P1) as [c2 [M1 [M2 _]]].
  rewrite M1 in H. injection H as <-. exists ss, (s0' :: ss0'), parts'. auto.
Qed.
