From Verif Require Import PyStr PyStrFacts PyBase BoundsModel BoundsSpec.

Lemma dget_set_opt {V} k k0 (o : option V) d :
  dget k (set_opt k0 o d) = match o with Some v => if str_eqb k k0 then Some v else dget k d | None => dget k d end.
Proof. destruct o; cbn [set_opt]; [apply dget_dset|reflexivity]. Qed.

(** words separated by blanks *)
Lemma split_ws_aux_word cur w s : forallb (fun c => negb (is_space c)) w = true ->
  split_ws_aux cur (w ++ s) = split_ws_aux (rev w ++ cur) s.
Proof.
  revert cur; induction w as [|c w IH]; intros cur H; [reflexivity|]. simpl in H. apply andb_true_iff in H as [H1 H2].
  cbn [app split_ws_aux]. destruct (is_space c); [discriminate|]. rewrite IH by exact H2. cbn [rev]. now rewrite <- app_assoc.
Qed.
Lemma split_ws_blanks b s : forallb is_space b = true -> split_ws (b ++ s) = split_ws s.
Proof.
  unfold split_ws. induction b as [|c b IH]; intros H; [reflexivity|]. simpl in H. apply andb_true_iff in H as [H1 H2].
  cbn [app split_ws_aux]. rewrite H1. now apply IH.
Qed.
Lemma rev_nonempty {A} (w : list A) : w <> [] -> exists x r, rev w = x :: r.
Proof.
  intros H. destruct (rev w) as [|x r] eqn:E; [|eauto].
  apply (f_equal (@rev A)) in E. rewrite rev_involutive in E. contradiction.
Qed.
Lemma split_ws_word_blank w c s : word w -> is_space c = true -> split_ws (w ++ c :: s) = w :: split_ws s.
Proof.
  intros [N H] Hc. unfold split_ws. rewrite split_ws_aux_word by exact H. rewrite app_nil_r.
  cbn [split_ws_aux]. rewrite Hc. destruct (rev_nonempty w N) as (x & r & E). rewrite E, <- E, rev_involutive. reflexivity.
Qed.
Lemma split_ws_word w : word w -> split_ws w = [w].
Proof.
  intros [N H]. unfold split_ws. rewrite <- (app_nil_r w) at 1. rewrite split_ws_aux_word by exact H. rewrite app_nil_r.
  cbn [split_ws_aux]. destruct (rev_nonempty w N) as (x & r & E). rewrite E, <- E, rev_involutive. reflexivity.
Qed.
Lemma forallb_repeat_space n : forallb is_space (repeat " "%char n) = true.
Proof. induction n; [reflexivity|]. exact IHn. Qed.
Lemma pad_split n s t : split_ws (pad n s ++ t) = split_ws (s ++ t).
Proof. unfold pad. rewrite <- app_assoc. apply split_ws_blanks, forallb_repeat_space. Qed.
Lemma pad_lead n s : length s < n -> exists t, pad n s = " "%char :: t.
Proof.
  intros H. unfold pad. destruct (n - length s) as [|k] eqn:E; [lia|]. cbn [repeat app]. eauto.
Qed.

Lemma one_word_blanks s w : one_word s w -> exists b, s = b ++ w /\ forallb is_space b = true /\ word w.
Proof. intros (k & -> & Hw). exists (repeat " "%char k). split; [reflexivity|]. split; [apply forallb_repeat_space|exact Hw]. Qed.
Lemma one_word_split s w t c : one_word s w -> is_space c = true -> split_ws (s ++ c :: t) = w :: split_ws t.
Proof.
  intros H Hc. apply one_word_blanks in H as (b & -> & Hb & Hw). rewrite <- app_assoc, split_ws_blanks by exact Hb. now apply split_ws_word_blank.
Qed.
Lemma one_word_split_end s w : one_word s w -> split_ws s = [w].
Proof. intros H. apply one_word_blanks in H as (b & -> & Hb & Hw). rewrite split_ws_blanks by exact Hb. now apply split_ws_word. Qed.

Section B.
  Context {V : Type} (veq : V -> V -> bool) (ninf pinf : V) (fmt : V -> str) (parse : str -> option V).
  Context (tok : V -> str) (rnd : V -> V).
  Hypothesis fmt_word : forall v, one_word (fmt v) (tok v).
  Hypothesis fmt_len : forall v, length (fmt v) <= 16.
  Hypothesis fmt_N : forall v, tok v <> L "N".
  Hypothesis fmt_parse : forall v, parse (tok v) = Some (rnd v).

  Notation setRange := (setRange veq ninf pinf parse).

  Definition lim_tok (o : option V) : str := match o with Some v => tok v | None => L "N" end.
  Lemma lim_one_word o : one_word (lim_text fmt o) (lim_tok o).
  Proof.
    destruct o as [v|]; [apply fmt_word|]. exists 4. repeat split; try reflexivity. discriminate.
  Qed.
  Lemma lim_len o : length (lim_text fmt o) < 17.
  Proof. destruct o as [v|]; [pose proof (fmt_len v); simpl; lia|vm_compute; lia]. Qed.

  Lemma bounds_line_split b n : word n ->
    split_ws (bounds_line fmt b n) = [n; lim_tok (getLower b n); lim_tok (getUpper b n)].
  Proof.
    intros Hn. unfold bounds_line. rewrite pad_split.
    destruct (pad_lead 17 (lim_text fmt (getLower b n)) (lim_len _)) as (t1 & E1).
    destruct (pad_lead 17 (lim_text fmt (getUpper b n)) (lim_len _)) as (t2 & E2).
    rewrite E1. cbn [app]. rewrite split_ws_word_blank by (auto; reflexivity). f_equal.
    assert (P1 : one_word (pad 17 (lim_text fmt (getLower b n))) (lim_tok (getLower b n))).
    { destruct (lim_one_word (getLower b n)) as (k & E & Hw).
      exists (17 - length (lim_text fmt (getLower b n)) + k). unfold pad. rewrite E at 2. rewrite app_assoc, repeat_app.
      repeat split; apply Hw. }
    rewrite E1 in P1.
    rewrite E2.
    assert (Q : split_ws ((" "%char :: t1) ++ " "%char :: t2) = lim_tok (getLower b n) :: split_ws t2)
      by (apply one_word_split; [exact P1|reflexivity]).
    cbn [app] in Q. change (" "%char :: t1 ++ " "%char :: t2) with ([" "%char] ++ (t1 ++ " "%char :: t2)) in Q.
    rewrite split_ws_blanks in Q by reflexivity. rewrite Q. f_equal.
    replace (split_ws t2) with (split_ws (pad 17 (lim_text fmt (getUpper b n)))).
    - rewrite <- (app_nil_r (pad 17 _)), pad_split, app_nil_r. apply one_word_split_end, lim_one_word.
    - rewrite E2. change (" "%char :: t2) with ([" "%char] ++ t2). now rewrite split_ws_blanks.
  Qed.

  Lemma limit_lim_tok inf o : limit_of veq parse inf (BText (lim_tok o)) = Ok (option_map rnd o).
  Proof.
    destruct o as [v|]; cbn [limit_of lim_tok option_map]; [|reflexivity].
    destruct (str_eqb_spec (tok v) (L "N")) as [E|N]; [destruct (fmt_N v E)|]. now rewrite fmt_parse.
  Qed.

  Lemma load_lines b : forall ns acc, Forall word ns -> NoDup (bnames acc ++ ns) ->
    fold_left (fun a line => bindR a (fun x => load_line veq ninf pinf parse x line)) (map (bounds_line fmt b) ns) (Ok acc)
    = Ok (mkB (bnames acc ++ ns)
              (fold_left (fun d n => set_opt n (option_map rnd (getLower b n)) d) ns (blower acc))
              (fold_left (fun d n => set_opt n (option_map rnd (getUpper b n)) d) ns (bupper acc))).
  Proof.
    induction ns as [|n ns IH]; intros acc Hw ND; cbn [map fold_left].
    - rewrite app_nil_r. now destruct acc.
    - inversion Hw as [|? ? W1 W2]; subst. cbn [bindR]. unfold load_line at 2.
      rewrite bounds_line_split by exact W1. unfold BoundsModel.setRange. rewrite !limit_lim_tok. cbn [bindR].
      assert (Nn : ~ In n (bnames acc)) by (apply NoDup_remove_2 in ND; rewrite in_app_iff in ND; tauto).
      apply mem_str_false in Nn. rewrite Nn.
      rewrite IH; [|exact W2|cbn [bnames]; rewrite <- app_assoc; exact ND].
      cbn [bnames blower bupper]. now rewrite <- app_assoc.
  Qed.
  Lemma fold_set_opt (g : str -> option V) ns d k :
    dget k (fold_left (fun d n => set_opt n (g n) d) ns d) =
      if mem_str k ns then match g k with Some v => Some v | None => dget k d end else dget k d.
  Proof.
    revert d; induction ns as [|n ns IH]; intros d; cbn [fold_left mem_str existsb]; [reflexivity|].
    rewrite IH, dget_set_opt. fold (mem_str k ns).
    destruct (str_eqb_spec k n) as [->|N]; cbn [orb].
    - destruct (g n); destruct (mem_str n ns); reflexivity.
    - destruct (g n); reflexivity.
  Qed.

  Lemma bounds_line_no_eol b n : word n -> no_eol (bounds_line fmt b n) = true.
  Proof.
    intros Hw.
    assert (S : forall k, no_eol (repeat " "%char k) = true) by (induction k; [reflexivity|exact IHk]).
    assert (W : forall w, word w -> no_eol w = true).
    { intros w [_ H]. unfold no_eol. rewrite forallb_forall in *. intros c Hc. specialize (H c Hc).
      destruct (ch_eqb_spec c nl); [subst; discriminate|]. destruct (ch_eqb_spec c cr); [subst; discriminate|reflexivity]. }
    unfold bounds_line, pad. rewrite !no_eol_app, !S, (W n Hw). cbn [andb].
    assert (FL : forall o, no_eol (lim_text fmt o) = true).
    { intros o. destruct (lim_one_word o) as (k & -> & Hw'). now rewrite no_eol_app, S, W. }
    now rewrite !FL.
  Qed.

  Lemma bounds_round_trip b : Forall word (bnames b) -> NoDup (bnames b) ->
    (forall k, In k (dkeys (blower b)) \/ In k (dkeys (bupper b)) -> In k (bnames b)) ->
    exists b', load_bounds veq ninf pinf parse (bounds_text fmt b) = Ok b' /\ bnames b' = bnames b /\
      forall k, getLower b' k = option_map rnd (getLower b k) /\ getUpper b' k = option_map rnd (getUpper b k).
  Proof.
    intros Hw ND Hk. unfold load_bounds, bounds_text.
    replace (concat (map (fun n => bounds_line fmt b n ++ [nl]) (bnames b)))
      with (concat (map (fun x => x ++ [nl]) (map (bounds_line fmt b) (bnames b)))) by now rewrite map_map.
    rewrite text_lines_nl.
    2:{ apply forallb_forall. intros x Hx. apply in_map_iff in Hx as (n & <- & Hn).
        apply bounds_line_no_eol. rewrite Forall_forall in Hw. auto. }
    rewrite load_lines by assumption. eexists. split; [reflexivity|]. split; [reflexivity|].
    intros k. unfold getLower, getUpper. cbn [blower bupper empty_bounds].
    rewrite (fold_set_opt (fun n => option_map rnd (dget n (blower b)))), (fold_set_opt (fun n => option_map rnd (dget n (bupper b)))).
    cbn [dget].
    destruct (mem_str k (bnames b)) eqn:E.
    - split; [destruct (dget k (blower b))|destruct (dget k (bupper b))]; reflexivity.
    - apply mem_str_false in E.
      rewrite (proj2 (dget_None k (blower b))), (proj2 (dget_None k (bupper b))); auto.
  Qed.

  (** ** histories of setRange calls with numbers or None *)
  Notation run := (run veq ninf pinf parse).
  Notation finite_call := (finite_call veq ninf pinf).
  Lemma limit_arg inf o : (forall v, o = Some v -> veq v inf = false) -> limit_of veq parse inf (arg_of o) = Ok o.
  Proof. intros H. destruct o as [v|]; [|reflexivity]. cbn. now rewrite H. Qed.
  Lemma setRange_call b c : finite_call c ->
    setRange b (c_name c) (arg_of (c_lo c)) (arg_of (c_hi c)) =
    Ok (mkB (if mem_str (c_name c) (bnames b) then bnames b else bnames b ++ [c_name c])
            (set_opt (c_name c) (c_lo c) (blower b)) (set_opt (c_name c) (c_hi c) (bupper b))).
  Proof. intros [A B]. unfold BoundsModel.setRange. rewrite !limit_arg by assumption. reflexivity. Qed.
  Lemma run_spec h : Forall finite_call h -> forall b, exists b', run h b = Ok b' /\
    bnames b' = bnames b ++ first_seen (bnames b) (map c_name h) /\
    forall k,
      getLower b' k = match last_given c_lo k h with Some v => Some v | None => getLower b k end /\
      getUpper b' k = match last_given c_hi k h with Some v => Some v | None => getUpper b k end.
  Proof.
    induction 1 as [|c h Hc Hh IH]; intros b.
    - exists b. split; [reflexivity|]. split; [now rewrite app_nil_r|]. intros k; auto.
    - unfold run. cbn [fold_left bindR]. rewrite setRange_call by exact Hc.
      edestruct IH as (b' & E & N & G). exists b'. split; [exact E|]. split.
      + rewrite N. cbn [bnames map first_seen]. destruct (mem_str (c_name c) (bnames b)); [reflexivity|].
        now rewrite <- app_assoc.
      + intros k. destruct (G k) as [G1 G2]. rewrite G1, G2. unfold getLower, getUpper. cbn [blower bupper last_given].
        rewrite !dget_set_opt. rewrite (str_eqb_sym k (c_name c)).
        split; [destruct (last_given c_lo k h)|destruct (last_given c_hi k h)]; try reflexivity.
        * destruct (str_eqb (c_name c) k), (c_lo c); reflexivity.
        * destruct (str_eqb (c_name c) k), (c_hi c); reflexivity.
  Qed.
  Lemma first_seen_In l : forall seen x, In x (first_seen seen l) <-> In x l /\ ~ In x seen.
  Proof.
    induction l as [|y l IH]; intros seen x; cbn [first_seen]; [simpl; tauto|].
    destruct (mem_str y seen) eqn:E.
    - apply mem_str_In in E. rewrite IH. cbn [In]. split; [tauto|]. intros [[->|H] N]; tauto.
    - apply mem_str_false in E. cbn [In]. rewrite IH, in_app_iff. cbn [In].
      destruct (str_eq_dec y x) as [->|N]; [tauto|]. tauto.
  Qed.
  Lemma first_seen_NoDup l : forall seen, NoDup (first_seen seen l).
  Proof.
    induction l as [|y l IH]; intros seen; cbn [first_seen]; [constructor|].
    destruct (mem_str y seen) eqn:E; [apply IH|]. constructor; [|apply IH].
    rewrite first_seen_In, in_app_iff. cbn [In]. tauto.
  Qed.
  (** bounds built by calls satisfy the hypotheses of the round trip *)
  Lemma last_given_name side k (h : list (call V)) v : last_given side k h = Some v -> In k (map c_name h).
  Proof.
    induction h as [|c h IH]; cbn [last_given map]; [discriminate|].
    destruct (last_given side k h); [intros [= ->]; right; auto|].
    destruct (str_eqb_spec (c_name c) k); [now left|discriminate].
  Qed.
  Lemma run_wf h b' : Forall finite_call h -> run h empty_bounds = Ok b' ->
    NoDup (bnames b') /\ (forall n, In n (bnames b') <-> In n (map c_name h)) /\
    (forall k, In k (dkeys (blower b')) \/ In k (dkeys (bupper b')) -> In k (bnames b')).
  Proof.
    intros Hf E. destruct (run_spec h Hf empty_bounds) as (b2 & E2 & N & G). rewrite E in E2. injection E2 as <-.
    cbn [bnames empty_bounds app] in N. rewrite N. split; [apply first_seen_NoDup|].
    assert (I : forall n, In n (first_seen [] (map c_name h)) <-> In n (map c_name h)).
    { intros n. rewrite first_seen_In. simpl. tauto. }
    split; [exact I|]. intros k Hk. apply I. destruct (G k) as [G1 G2]. unfold getLower, getUpper in *. cbn in G1, G2.
    destruct Hk as [Hk|Hk]; apply dhas_In in Hk; unfold dhas in Hk.
    - rewrite G1 in Hk. destruct (last_given c_lo k h) eqn:El; [|discriminate]. eapply last_given_name; eauto.
    - rewrite G2 in Hk. destruct (last_given c_hi k h) eqn:El; [|discriminate]. eapply last_given_name; eauto.
  Qed.

  Lemma setRange_replaces b name lo hi :
    veq lo ninf = false -> veq hi pinf = false ->
    exists b', setRange b name (BVal lo) (BVal hi) = Ok b' /\
      getLower b' name = Some lo /\ getUpper b' name = Some hi /\
      (forall k, k <> name -> getLower b' k = getLower b k /\ getUpper b' k = getUpper b k) /\
      In name (bnames b') /\ (forall k, k <> name -> In k (bnames b') <-> In k (bnames b)).
  Proof.
    intros A B. unfold BoundsModel.setRange. cbn [limit_of]. rewrite A, B. cbn [bindR]. eexists. split; [reflexivity|].
    unfold getLower, getUpper. cbn [blower bupper bnames set_opt].
    split; [apply dget_dset_same|]. split; [apply dget_dset_same|]. split.
    - intros k N. now rewrite !dget_dset_other by exact N.
    - destruct (mem_str name (bnames b)) eqn:E.
      + apply mem_str_In in E. split; [exact E|tauto].
      + split; [apply in_or_app; right; now left|]. intros k N. rewrite in_app_iff. cbn [In]. split; [intros [?|[?|[]]]; congruence|tauto].
  Qed.

  Lemma fixedValue_spec b name v : fixedValue veq b name = Some v <->
    getLower b name = Some v /\ exists h, getUpper b name = Some h /\ veq h v = true.
  Proof.
    unfold fixedValue, getLower, getUpper. destruct (dget name (blower b)) as [l|]; [|split; [discriminate|intros [[=] _]]].
    destruct (dget name (bupper b)) as [h|].
    - destruct (veq h l) eqn:E.
      + split; [intros [= <-]; eauto|]. intros [[= <-] _]. reflexivity.
      + split; [discriminate|]. intros [[= <-] (h' & [= <-] & E')]. congruence.
    - split; [discriminate|]. intros [_ (h & [=] & _)].
  Qed.
  Lemma fixedValueDict_spec b name : dget name (fixedValueDict veq b) =
    if mem_str name (bnames b) then fixedValue veq b name else None.
  Proof.
    unfold fixedValueDict.
    assert (G : forall ns d, dget name (fold_left (fun r n => match fixedValue veq b n with Some v => dset n v r | None => r end) ns d)
      = if mem_str name ns then match fixedValue veq b name with Some v => Some v | None => dget name d end else dget name d).
    { induction ns as [|n ns IH]; intros d; cbn [fold_left mem_str existsb]; [reflexivity|]. fold (mem_str name ns).
      rewrite IH. destruct (str_eqb_spec name n) as [E|N]; cbn [orb].
      - subst n. destruct (fixedValue veq b name) as [v|]; [rewrite dget_dset_same|]; destruct (mem_str name ns); reflexivity.
      - destruct (fixedValue veq b n); [rewrite dget_dset_other by exact N|]; reflexivity. }
    rewrite G. cbn [dget]. destruct (mem_str name (bnames b)); [destruct (fixedValue veq b name); reflexivity|reflexivity].
  Qed.
  (** a limit cannot be cleared *)
  Lemma setRange_no_clear b name : exists b', setRange b name BNone BNone = Ok b' /\
    getLower b' name = getLower b name /\ getUpper b' name = getUpper b name.
  Proof. eexists. split; [reflexivity|]. split; reflexivity. Qed.
End B.
