(** Properties C18, C19, C20 (rows of weighted samples and chains). *)
From Verif Require Import PyStr PyBase ThinModel ThinSpec ThinProofs ChainModel ChainSpec ChainProofs ChainProofs2.
From Coq Require Import QArith.
Local Open Scope nat_scope.

Definition ex_ws (t : list (row3 nat)) : wsam nat :=
  mkW nat (Some (map r_s t)) (Some (map r_w t)) (Some (map r_l t)) (length t) (sumQ (map r_w t)) default_ratio false true.
Definition ex_a : list (row3 nat) := [mkR 10 1%Q 5%Q; mkR 11 1%Q 4%Q; mkR 12 1%Q 3%Q; mkR 13 1%Q 2%Q].
Definition ex_b : list (row3 nat) := [mkR 20 1%Q 7%Q; mkR 21 1%Q 6%Q; mkR 22 1%Q 8%Q; mkR 23 1%Q 9%Q].
Definition ex_ch : chn nat :=
  mkCh nat (mkW nat None None None 0 0%Q default_ratio false true) (Some [ex_ws ex_a; ex_ws ex_b]) None.
Definition ex_single : chn nat :=
  match makeSingle ex_ch with Ok c => c | Err _ => ex_ch end.

(** C18 *)
Theorem C18_make_single : forall R (c : chn R) ss parts, chains c = Some ss -> ss <> [] ->
  Forall2 (fun s p => rows true s p) ss parts ->
  exists c', makeSingle c = Ok c' /\ combined c' parts /\ fresh (base c') (concat parts) /\ mwr (base c') = mwr (base c).
Proof. exact @makeSingle_spec. Qed.
Print Assumptions C18_make_single.
Theorem C18_split_again : forall R (c c' : chn R) ss parts, chains c = Some ss ->
  Forall2 (fun s p => rows true s p) ss parts ->
  (forall p, In p parts -> p <> [] /\ no_low default_ratio p) ->
  makeSingle c = Ok c' ->
  exists ss', getSeparateChains c' = Ok ss' /\ Forall2 (fun p s => rows true s p) parts ss'.
Proof.
  intros R c c' ss parts Hc F Hp H.
  assert (Hne : ss <> []) by (intros ->; unfold makeSingle in H; rewrite Hc in H; discriminate).
  destruct (makeSingle_spec c ss parts Hc Hne F) as [c2 [M1 [M2 _]]]. rewrite M1 in H. injection H as <-.
  now apply separate_exact.
Qed.
Print Assumptions C18_split_again.
(** with rows below the default minimum weight ratio, those rows (only) are cut *)
Theorem C18_split_again_cut : forall R (c c' : chn R) ss parts, chains c = Some ss ->
  Forall2 (fun s p => rows true s p) ss parts -> (forall p, In p parts -> p <> []) ->
  makeSingle c = Ok c' ->
  exists ss', getSeparateChains c' = Ok ss' /\
    Forall2 (fun p s => exists t, rows true s t /\ fresh s t /\ cut_of default_ratio p t /\ subseq t p) parts ss'.
Proof.
  intros R c c' ss parts Hc F Hp H.
  assert (Hne : ss <> []) by (intros ->; unfold makeSingle in H; rewrite Hc in H; discriminate).
  destruct (makeSingle_spec c ss parts Hc Hne F) as [c2 [M1 [M2 _]]]. rewrite M1 in H. injection H as <-.
  now apply separate_spec.
Qed.
Print Assumptions C18_split_again_cut.
(** FINDING: combined samples without likelihoods cannot be split again. *)
Theorem C18_no_loglikes_refuted : forall R (c : chn R) sm w o a b rest,
  samples (base c) = Some sm -> weights (base c) = Some w -> loglikes (base c) = None ->
  chains c = None -> offs c = Some o -> o = a :: b :: rest ->
  getSeparateChains c = Err TypeError.
Proof.
  intros R c sm w o a b rest H1 H2 H3 H4 H5 ->. unfold getSeparateChains. rewrite H4, H5.
  assert (E : exists l, pairs_of (a :: b :: rest) = (a, b) :: l).
  { unfold pairs_of. cbn [tl removelast]. destruct rest; cbn [combine]; eauto. }
  destruct E as [l ->]. cbn [mapR]. rewrite H1, H2, H3. reflexivity.
Qed.
Print Assumptions C18_no_loglikes_refuted.
Example C18_example : Forall2 (fun s p => rows true s p) [ex_ws ex_a; ex_ws ex_b] [ex_a; ex_b] /\
  (forall p, In p [ex_a; ex_b] -> p <> [] /\ no_low default_ratio p) /\
  samples (base ex_single) = Some [10; 11; 12; 13; 20; 21; 22; 23] /\ offs ex_single = Some [0; 4; 8].
Proof.
  split; [|split; [|vm_compute; auto]].
  - repeat constructor.
  - intros p [<-|[<-|[]]]; (split; [discriminate|]); intros x y Hx Hy; cbn in Hx, Hy;
    repeat (destruct Hx as [<-|Hx]; [|]); try destruct Hx;
    repeat (destruct Hy as [<-|Hy]; [|]); try destruct Hy; vm_compute; discriminate.
Qed.

(** C19: boolean filters and weight cuts keep the chains apart. *)
Theorem C19_filters : forall R (c : chn R) parts ms, combined c parts -> masks_ok ms parts ->
  exists c', do_chops c (map ChMask ms) = Ok c' /\ combined c' (keep_all ms parts).
Proof. intros R c parts ms H1 H2. now apply masks_spec. Qed.
Print Assumptions C19_filters.
Theorem C19_filters_and_cuts : forall R (c c' : chn R) parts l, combined c parts -> do_chops c l = Ok c' ->
  exists ms, combined c' (keep_all ms parts) /\ Forall2 subseq (keep_all ms parts) parts.
Proof.
  intros R c c' parts l H1 H2. destruct (chops_spec l c parts c' H1 H2) as [ms H].
  exists ms. split; [exact H|apply keep_all_subseq].
Qed.
Print Assumptions C19_filters_and_cuts.
Theorem C19_survivors_returned : forall R (c c' : chn R) parts ms, combined c parts -> masks_ok ms parts ->
  do_chops c (map ChMask ms) = Ok c' ->
  (forall p, In p (keep_all ms parts) -> p <> [] /\ no_low default_ratio p) ->
  exists ss, getSeparateChains c' = Ok ss /\ Forall2 (fun p s => rows true s p) (keep_all ms parts) ss.
Proof.
  intros R c c' parts ms H1 H2 H3 H4. destruct (masks_spec ms c parts H1 H2) as [c2 [E1 E2]].
  rewrite E1 in H3. injection H3 as <-. now apply separate_exact.
Qed.
Print Assumptions C19_survivors_returned.
Theorem C19_weight_cut : forall R (c : chn R) parts q, combined c parts -> concat parts <> [] -> (0 <= q)%Q ->
  exists c' m, setMinWeightRatio_with base ch_filter c q = Ok c' /\ combined c' (keep_parts m parts) /\
    length m = length (concat parts) /\ cut_of q (concat parts) (concat (keep_parts m parts)).
Proof. exact @ch_ratio. Qed.
Print Assumptions C19_weight_cut.
Theorem C19_weighted_thin : forall R (c c' : chn R) parts f, combined c parts -> (forall p, In p parts -> p <> []) ->
  ch_weighted_thin c f = Ok c' ->
  exists ss ss' parts', getSeparateChains c = Ok ss /\ combined c' parts' /\
    Forall2 (fun s s' => ws_weighted_thin s f = Ok s') ss ss' /\
    Forall2 (fun s' p' => rows true s' p') ss' parts' /\
    Forall2 (fun p p' => incl (map rl p') (map rl p)) parts parts'.
Proof. exact @wthin_chains. Qed.
Print Assumptions C19_weighted_thin.
(** FINDING: a filter that leaves one chain without rows makes the split fail. *)
Theorem C19_empty_chain_refuted : forall R (c : chn R) parts, combined c parts -> In [] parts ->
  exists e, getSeparateChains c = Err e.
Proof. exact @separate_empty. Qed.
Print Assumptions C19_empty_chain_refuted.
Lemma ex_combined : combined ex_single [ex_a; ex_b].
Proof. vm_compute. repeat split. Qed.
Definition first_chain_rows (c : chn nat) : option (list nat) :=
  match getSeparateChains c with Ok (s :: _) => samples s | _ => None end.
(** FINDING: thinning and burn-in removal leave the old offsets in place: rows of the second chain
    end up in the first. *)
Theorem C19_thin_refuted : exists c', combined ex_single [ex_a; ex_b] /\ ch_thin ex_single 2 = Ok c' /\
  first_chain_rows c' = Some [10; 11; 13; 21].
Proof. eexists. split; [exact ex_combined|]. split; vm_compute; reflexivity. Qed.
Print Assumptions C19_thin_refuted.
Theorem C19_burn_refuted : exists c', combined ex_single [ex_a; ex_b] /\ removeBurnFraction ex_single (1 # 4) = Ok c' /\
  first_chain_rows c' = Some [12; 13; 20; 21].
Proof. eexists. split; [exact ex_combined|]. split; vm_compute; reflexivity. Qed.
Print Assumptions C19_burn_refuted.
(** FINDING: with a list of row numbers (documented as allowed) instead of a boolean array the new
    offsets are wrong: keeping every row still loses the last one. *)
Theorem C19_index_filter_refuted : exists c', combined ex_single [ex_a; ex_b] /\
  ch_filter ex_single (Index [0; 1; 2; 3; 4; 5; 6; 7]) = Ok c' /\
  samples (base c') = samples (base ex_single) /\ offs c' = Some [0; 3; 7] /\
  first_chain_rows c' = Some [10; 11; 12].
Proof. eexists. split; [exact ex_combined|]. split; [|split; [|split]]; vm_compute; reflexivity. Qed.
Print Assumptions C19_index_filter_refuted.
Example C19_example : let m := [true; false; true; true; false; false; true; false] in
  combined ex_single [ex_a; ex_b] /\ masks_ok [m] [ex_a; ex_b] /\
  exists c', ch_filter ex_single (Mask m) = Ok c' /\ offs c' = Some [0; 3; 4] /\ first_chain_rows c' = Some [10; 12; 13].
Proof.
  intros m. split; [exact ex_combined|split; [cbn; auto|]]. eexists. split; [|split]; vm_compute; reflexivity.
Qed.

(** C20 *)
Theorem C20_filter : forall R (s : wsam R) h t w t', rows h s t -> take w t = Ok t' ->
  exists s', ws_filter s w = Ok s' /\ rows h s' t' /\ fresh s' t'.
Proof.
  intros R s h t w t' H E. pose proof (filter_rows s h t w H) as F. rewrite E in F.
  destruct F as [s' [F1 [F2 [F3 _]]]]. eauto.
Qed.
Print Assumptions C20_filter.
Theorem C20_thin : forall R (s : wsam R) h t f s', rows h s t -> ws_thin s f = Ok s' ->
  exists ix t0, thin_indices_single_samples f (map r_w t) = Ok ix /\ take (Index ix) t = Ok t0 /\
    rows h s' (map (fun x => mkR (r_s x) 1%Q (r_l x)) t0) /\ cached s' = false /\ mwr s' = mwr s.
Proof. exact @thin_rows. Qed.
Print Assumptions C20_thin.
Theorem C20_burn : forall R (s : wsam R) h t q, rows h s t -> (0 <= mwr s)%Q ->
  let k := burn_rows (length t) q in
  (k < length t -> exists s' t', ws_removeBurn s q = Ok s' /\ rows h s' t' /\ fresh s' t' /\ mwr s' = mwr s /\
     subseq t' (skipn k t) /\ cut_of (mwr s) (skipn k t) t') /\
  (length t <= k -> ws_removeBurn s q = Err ValueError).
Proof. exact @burn_rows_spec. Qed.
Print Assumptions C20_burn.
(** how many rows: the whole part of [q] if it is at least one, else the nearest integer to the fraction, halves to even *)
Theorem C20_burn_rows : forall n q, (0 <= q)%Q ->
  let k := inject_Z (Z.of_nat (burn_rows n q)) in
  ((1 <= q)%Q -> (k <= q)%Q /\ (q < k + 1)%Q) /\
  ((q < 1)%Q -> let x := (inject_Z (Z.of_nat n) * q)%Q in
     (x - (1 # 2) <= k)%Q /\ (k <= x + (1 # 2))%Q /\
     ((x - (1 # 2) == k)%Q \/ (k == x + (1 # 2))%Q -> Nat.even (burn_rows n q) = true)).
Proof. exact burn_rows_count. Qed.
Print Assumptions C20_burn_rows.
Example C20_burn_rows_example : burn_rows 10 (5 # 2) = 2 /\ burn_rows 5 (1 # 2) = 2 /\ burn_rows 7 (1 # 2) = 4 /\ burn_rows 10 (3 # 10) = 3.
Proof. vm_compute. tauto. Qed.
Theorem C20_reweight : forall R (s : wsam R) h t fs upd, rows h s t -> length fs = length t ->
  (forall l, length (upd l) = length l) ->
  exists s', ws_reweight s fs upd = Ok s' /\ fresh s' (map (fun p => mkR (r_s (fst p)) (r_w (fst p) * snd p)%Q (r_l (fst p))) (combine t fs)) /\
    samples s' = Some (map r_s t) /\ weights s' = Some (map (fun p => r_w (fst p) * snd p)%Q (combine t fs)) /\
    loglikes s' = (if h then Some (upd (map r_l t)) else None).
Proof. exact @reweight_rows. Qed.
Print Assumptions C20_reweight.
Theorem C20_any_sequence : forall R l (s : wsam R) h t s', rows h s t -> (0 <= mwr s)%Q -> do_ops s l = Ok s' ->
  exists t', rows h s' t' /\ incl (map rl t') (map rl t) /\ (forallb keeps_order l = true -> subseq t' t).
Proof. intros R l s h t s'. exact (ops_rows l s h t s'). Qed.
Print Assumptions C20_any_sequence.
Example C20_example : rows true (ex_ws ex_a) ex_a /\
  exists s', do_ops (ex_ws ex_a) [Burn (1 # 4); Filter (Mask [true; false; true]); Thin 1] = Ok s' /\
  samples s' = Some [11; 13] /\ loglikes s' = Some [4; 2]%Q /\ weights s' = Some [1; 1]%Q.
Proof. split; [repeat split|]. eexists. split; [|split; [|split]]; vm_compute; reflexivity. Qed.
