(** Properties of marginalised statistics: C44 (limits in files and tables) and C71 (limits of each level). *)
From Verif Require Import PyBase PyNum PyStrFacts BoundsSpec FmtModel FmtSpec FmtProps MargeModel MargeSpec MargeProofs.
From Coq Require Import ZArith QArith Qabs String Ascii Bool List Lia.
Import ListNotations.
Local Open Scope nat_scope.
Local Open Scope list_scope.

(** ** C44 *)

(** The text tag determines the kind of limit, in both directions. *)
Theorem C44_tag {F} (lo hi : F) (l : plimit F) t : is_tail l t -> is_tail (ParamLimit lo hi (limitTag l)) t /\
  (forall (l' : plimit F) t', is_tail l' t' -> limitTag l' = limitTag l -> t' = t) /\
  (forall (l' : plimit F) t', is_tail l' t' -> limitType l' = limitType l -> t' = t).
Proof.
  intros H. split; [now apply (tag_is_tail l _ t lo hi eq_refl)|]. destruct H as (A & B & C).
  split; intros l' t' (A' & B' & C'); unfold limitTag, limitType; rewrite A, B, C, A', B', C'; destruct t, t'; try reflexivity; discriminate.
Qed.
Print Assumptions C44_tag.

(** A file written by MargeStats is read back with the same levels, parameters, kinds of limits and labels, and the
    numbers as printed; if every number leaves a blank in its 15 columns and every parameter has a label. *)
Theorem C44_roundtrip_partial {F} (fmtE show : F -> str) (parse : str -> res F) (rd : F -> F) (M : mstats F) :
  ms_names M <> [] -> ms_limits M <> [] ->
  (forall x, In x (ms_limits M) -> level_ok show parse rd x) ->
  (forall p, In p (ms_names M) -> par_ok fmtE parse rd (List.length (ms_limits M)) p) ->
  exists text M', margeText fmtE show M = Ok text /\ loadFromFile parse text = Ok M' /\
    ms_limits M' = map rd (ms_limits M) /\ Forall2 (same_par rd) (ms_names M) (ms_names M').
Proof.
  intros Hp Hl Lv Pv. unfold margeText, name_width. destruct (ms_names M) as [|p0 ps] eqn:En; [contradiction|].
  rewrite <- En in *. cbn [bindR]. set (w := _ + 1). destruct (read_pars_ok fmtE parse rd w _ _ Pv) as (ps' & E & S).
  exists (concat (map (fun l => l ++ [nl]) (margeLines fmtE show M w))), (mkms F (map rd (ms_limits M)) ps').
  split; [reflexivity|]. cbn [ms_limits ms_names]. split; [|now split].
  assert (Ej : no_eol (join (L "; ") (map show (ms_limits M))) = true).
  { clear -Lv. induction (ms_limits M) as [|x xs IH]; [reflexivity|]. destruct (Lv x (or_introl eq_refl)) as (W & _).
    destruct xs as [|y xs]; [cbn; now apply word_no_eol|].
    change (join (L "; ") (map show (x :: y :: xs))) with (show x ++ L "; " ++ join (L "; ") (map show (y :: xs))).
    rewrite !no_eol_app, IH, word_no_eol by (try exact W; intros; apply Lv; now right). reflexivity. }
  unfold loadFromFile. rewrite text_lines_nl.
  - unfold margeLines at 1. cbn [skipn].
    change (L "Marginalized limits: " ++ join (L "; ") (map show (ms_limits M)))
      with (L "Marginalized limits" ++ [":"%char] ++ L " " ++ join (L "; ") (map show (ms_limits M))).
    rewrite split_ch_app by (vm_compute; intuition discriminate).
    assert (Nc : ~ In ":"%char (L " " ++ join (L "; ") (map show (ms_limits M)))).
    { rewrite in_app_iff. intros [X|X]; [vm_compute in X; intuition discriminate|]. revert X. clear -Lv. induction (ms_limits M) as [|x xs IH]; [intros []|].
      destruct (Lv x (or_introl eq_refl)) as (_ & N & _). destruct xs as [|y xs]; [exact N|].
      change (join (L "; ") (map show (x :: y :: xs))) with (show x ++ L "; " ++ join (L "; ") (map show (y :: xs))).
      rewrite !in_app_iff. intros [X|[X|X]]; [contradiction|vm_compute in X; intuition discriminate|]. apply IH; [|exact X]. intros; apply Lv; now right. }
    rewrite split_ch_notin by exact Nc.
    rewrite (levels_split fmtE show parse rd _ Hl Lv (L " ") eq_refl) by (vm_compute; intuition discriminate). cbn [bindR].
    rewrite map_length, E. reflexivity.
  - unfold margeLines. cbn [forallb]. rewrite no_eol_app, Ej. cbn [andb].
    assert (Eh : forall n, no_eol (headerLine w n) = true).
    { intros n. unfold headerLine. rewrite !no_eol_app, !no_eol_ljust by reflexivity. cbn [andb].
      rewrite no_eol_concat; [reflexivity|]. intros x Hx. apply in_map_iff in Hx as (j & <- & _).
      assert (D : no_eol (show_nat (j + 1)) = true).
      { apply forallb_forall. intros c Hc. apply show_nat_digits in Hc. unfold is_digit in Hc.
        destruct (ch_eqb_spec c nl) as [->|]; [vm_compute in Hc; lia|]. destruct (ch_eqb_spec c cr) as [->|]; [vm_compute in Hc; lia|]. reflexivity. }
      rewrite !no_eol_app, !no_eol_ljust by (rewrite no_eol_app, D; reflexivity). reflexivity. }
    rewrite Eh. apply forallb_forall. intros x Hx. apply in_map_iff in Hx as (p & <- & Hx). eapply par_line_no_eol, Pv, Hx.
Qed.
Print Assumptions C44_roundtrip_partial.

(** numbers for examples: a number is its own text; at most 15 columns are read *)
Definition txt_parse (s : str) : res str := if (0 <? List.length s) && (List.length s <=? 15) then Ok s else Err ValueError.
Definition exlim (lo hi tag : string) : plimit str := ParamLimit (L lo) (L hi) (L tag).
Definition ex_ms : mstats str := mkms str [L "0.68"; L "0.95"]
  [mkmpar str (L "omegabh2") false (L "2.2300000E-02") (L "1.5000000E-04")
     [exlim "2.2150000E-02" "2.2450000E-02" "two"; exlim "2.2000000E-02" "2.2600000E-02" "two"] (L "\Omega_b h^2");
   mkmpar str (L "mnu") true (L "1.0000000E-01") (L "-5.000000E-02")
     [exlim "0.0000000E+00" "1.2000000E-01" ">"; exlim "0.0000000E+00" "5.0000000E+00" "none"] (L "\Sigma m_\nu")].
(** FINDING: a parameter without a label is read with the tag of its last limit as label. *)
Theorem C44_label_refuted : exists text M', let M := mkms str [L "0.68"]
    [mkmpar str (L "a") false (L "1.0") (L "2.0") [exlim "0.5" "1.5" "two"] []] in
  margeText (fun x => x) (fun x => x) M = Ok text /\ loadFromFile txt_parse text = Ok M' /\ map m_label (ms_names M') = [L "two"].
Proof. eexists _, _. cbn zeta. split; [reflexivity|]. split; reflexivity. Qed.
Print Assumptions C44_label_refuted.
(** FINDING: a negative number with an exponent of three digits fills all 15 columns, and the file cannot be read. *)
Theorem C44_wide_refuted : exists text, let M := mkms str [L "0.68"]
    [mkmpar str (L "a") false (L "1.0000000E-101") (L "1.0000000E-101") [exlim "-2.0000000E-101" "-1.0000000E-101" "two"] (L "a")] in
  margeText (fun x => x) (fun x => x) M = Ok text /\ loadFromFile txt_parse text = Err ValueError.
Proof. eexists. cbn zeta. split; [reflexivity|]. reflexivity. Qed.
Print Assumptions C44_wide_refuted.
Example C44_ex : ms_names ex_ms <> [] /\
  (forall x, In x (ms_limits ex_ms) -> level_ok (fun x => x) txt_parse (fun x => x) x) /\
  (forall p, In p (ms_names ex_ms) -> par_ok (fun x => x) txt_parse (fun x => x) (List.length (ms_limits ex_ms)) p) /\
  exists text, margeText (fun x => x) (fun x => x) ex_ms = Ok text /\ loadFromFile txt_parse text = Ok ex_ms /\
    nth 4 (text_lines text) [] = L "mnu*        1.0000000E-01  -5.000000E-02  0.0000000E+00  1.2000000E-01  >      0.0000000E+00  5.0000000E+00  none    \Sigma m_\nu".
Proof.
  split; [discriminate|]. split; [|split].
  - intros x [<-|[<-|[]]]; (split; [split; [discriminate|reflexivity]|]; split; [vm_compute; intuition discriminate|]; split; [vm_compute; intuition discriminate|reflexivity]).
  - intros p [<-|[<-|[]]].
    + constructor.
      * split; [split; [discriminate|reflexivity]|vm_compute; intuition discriminate].
      * split; [split; [discriminate|reflexivity]|]. split; [vm_compute; lia|reflexivity].
      * split; [split; [discriminate|reflexivity]|]. split; [vm_compute; lia|reflexivity].
      * reflexivity.
      * intros l [<-|[<-|[]]]; (split; [exists Two; repeat split; reflexivity|]);
        (split; (split; [split; [discriminate|reflexivity]|]; split; [vm_compute; lia|reflexivity])).
      * split; [discriminate|]. split; reflexivity.
    + constructor.
      * split; [split; [discriminate|reflexivity]|vm_compute; intuition discriminate].
      * split; [split; [discriminate|reflexivity]|]. split; [vm_compute; lia|reflexivity].
      * split; [split; [discriminate|reflexivity]|]. split; [vm_compute; lia|reflexivity].
      * reflexivity.
      * intros l [<-|[<-|[]]]; (split; [first [exists Upper; repeat split; reflexivity|exists Open_; repeat split; reflexivity]|]);
        (split; (split; [split; [discriminate|reflexivity]|]; split; [vm_compute; lia|reflexivity])).
      * split; [discriminate|]. split; reflexivity.
  - eexists. split; [reflexivity|]. split; vm_compute; reflexivity.
Qed.

(** *** table entries *)
Lemma show_nat_start n k : 1 <= k -> exists c s, firstn k (show_nat n) = c :: s /\ is_digit c.
Proof.
  intros H. pose proof (show_nat_nonempty n). destruct (show_nat n) as [|c s] eqn:E; [contradiction|].
  destruct k; [lia|]. exists c, (firstn k s). split; [reflexivity|]. apply (show_nat_digits n). rewrite E. now left.
Qed.
Lemma digit_no_bound c s : is_digit c -> no_bound (c :: s).
Proof. intros H. split; intros ->; unfold is_digit in H; vm_compute in H; lia. Qed.
Lemma figs_no_bound d sf : 1 <= sf -> no_bound (figs_text d sf).
Proof.
  intros H. unfold figs_text. match goal with |- context [show_nat ?r] => set (res := r) end.
  destruct (show_nat_start res sf H) as (c & s & E & D). rewrite E.
  match goal with |- context [if (?a <=? ?b)%Z then _ else _] => set (sh := b) end.
  destruct (as_sign d); [now split|].
  destruct (_ <=? sh)%Z; [now apply digit_no_bound|]. destruct (Z.leb_spec 0 sh); [|now split].
  unfold insert_at. replace (Z.to_nat (sh + 1)) with (S (Z.to_nat sh)) by lia. now apply digit_no_bound.
Qed.
Lemma fixed_no_bound n d : no_bound (fixed_point n d).
Proof.
  unfold fixed_point. set (t := show_nat _). destruct (d_neg d); [now split|].
  assert (T : exists c s, repeat "0"%char (S n - List.length t) ++ t = c :: s /\ is_digit c).
  { destruct (S n - List.length t) as [|k]; [|eexists _, _; split; [reflexivity|unfold is_digit; vm_compute; lia]].
    destruct (show_nat_start (Z.to_nat (round_even (dec_abs d * pow10 (Z.of_nat n))%Q)) 1 (le_n _)) as (c & s & E & D). fold t in E.
    destruct t as [|c' t']; [discriminate|]. injection E as <- _. eexists _, _. split; [reflexivity|exact D]. }
  destruct T as (c & s & E & D). destruct (n =? 0); [rewrite E; now apply digit_no_bound|]. unfold insert_at.
  assert (Len : n < List.length (repeat "0"%char (S n - List.length t) ++ t)) by (rewrite app_length, repeat_length; lia).
  rewrite E in *. cbn [List.length] in *. destruct (S (List.length s) - n) as [|k] eqn:K; [lia|]. now apply digit_no_bound.
Qed.
Lemma fewer_no_bound v maxdp sf res : no_bound res -> no_bound (snd (fewer v maxdp sf res)).
Proof.
  revert res. induction sf as [|sf IH]; intros res H; cbn [fewer]; (destruct (maxdp <? decimal_places res); [|exact H]).
  - exact H.
  - destruct sf as [|sf].
    + cbn [snd]. unfold fixed_nozero. destruct (text_zero _); apply fixed_no_bound.
    + apply IH, figs_no_bound. lia.
Qed.
Lemma more_no_bound fuel v dp sf res r : no_bound res -> more fuel v dp sf res = Some r -> no_bound r.
Proof.
  revert sf res. induction fuel as [|k IH]; intros sf res H E; [discriminate|]. cbn [more] in E.
  destruct (decimal_places res <? dp); [|injection E as <-; exact H]. eapply IH; [|exact E]. apply figs_no_bound. lia.
Qed.
Lemma align_no_bound fuel v a b sf ef want r p m : align fuel v a b sf ef want = Ok (r, p, m) -> no_bound r.
Proof.
  unfold align. destruct (formatNumber (Fin a) _ want); [|discriminate]. destruct (formatNumber (Fin b) _ want); [|discriminate]. cbn [bindR].
  destruct (formatNumber (Fin v) (Z.of_nat sf) false) as [s|] eqn:Es; [|discriminate]. cbn [bindR].
  assert (S : no_bound s).
  { unfold formatNumber, numberFigs in Es. destruct (Z.leb_spec (Z.of_nat sf) 0); [discriminate|]. cbn in Es. injection Es as <-.
    apply figs_no_bound. lia. }
  destruct (more _ _ _ _ _) as [r'|] eqn:Em; [|discriminate]. intros [= <- _ _]. eapply more_no_bound; [|exact Em]. now apply fewer_no_bound.
Qed.
Lemma names_no_bound fuel nf v a b want r p m : namesigFigs fuel nf v a b want = Ok (r, p, m) -> no_bound r.
Proof. unfold namesigFigs. destruct (choose_sf _ _ _) as [x|]; [|discriminate]. apply align_no_bound. Qed.
Lemma names_sci_no_bound fuel scale fl nf v a b want r p m e : namesigFigs_sci fuel scale fl nf v a b want = Ok (r, p, m, e) -> no_bound r.
Proof.
  unfold namesigFigs_sci. destruct (choose_sf _ _ _) as [x|]; [|discriminate]. cbn [bindR].
  destruct (formatNumber_sci _ _ _) as [se|]; [|discriminate]. cbn [bindR]. destruct (snd se =? 0)%Z.
  - destruct (align _ _ _ _ _ _ _) as [[[r' p'] m']|] eqn:E; [|discriminate]. intros [= <- _ _ _]. eapply align_no_bound, E.
  - match goal with |- bindR ?x _ = _ -> _ => destruct x as [v'|]; [|discriminate] end. cbn [bindR].
    match goal with |- bindR ?x _ = _ -> _ => destruct x as [a'|]; [|discriminate] end. cbn [bindR].
    match goal with |- bindR ?x _ = _ -> _ => destruct x as [b'|]; [|discriminate] end. cbn [bindR].
    destruct (align _ _ _ _ _ _ _) as [[[r' p'] m']|] eqn:E; [|discriminate]. intros [= <- _ _ _]. eapply align_no_bound, E.
Qed.
Lemma no_bound_app a b : a <> [] -> no_bound a -> no_bound (a ++ b).
Proof. destruct a; [contradiction|auto]. Qed.
Lemma no_bound_app2 a b c r : no_bound a -> b = c :: r -> no_bound b -> no_bound (a ++ b).
Proof. destruct a; [intros _ _ H; exact H|auto]. Qed.

(** The entry for a parameter (other than chi2 parameters, whose entry is mean and sigma): the upper bound after <
    for an upper limit, the lower bound after > for a lower limit, the text of no constraint if both ends are
    open, and an entry without < or > for a two-tail limit. *)
Theorem C44_table c p limit best entry rest lim t :
  margeTexValues c (Some p) limit best = Ok (Some (entry :: rest)) ->
  1 <= limit -> nth_error (m_limits p) (limit - 1) = Some lim -> is_tail lim t -> startswith (L "chi2") (m_name p) = false ->
  match t with
  | Upper => exists s e, numberFigs_sci (c_scale c) (Fin (l_upper lim)) 3 = Ok (s, e) /\
               entry = L "< " ++ s ++ (if (e =? 0)%Z then [] else times_ten_power e)
  | Lower => exists s e, numberFigs_sci (c_scale c) (Fin (l_lower lim)) 3 = Ok (s, e) /\
               entry = L "> " ++ s ++ (if (e =? 0)%Z then [] else times_ten_power e)
  | Open_ => entry = c_none c
  | Two => no_bound entry
  end.
Proof.
  intros H Hl Hn (A & B & C) Hc. unfold margeTexValues in H. destruct limit as [|k]; [lia|]. replace (S k - 1) with k in Hn by lia.
  cbn [get_limit] in H. rewrite Hn in H. cbn [bindR] in H. destruct (lim_entry c p (S k) lim) as [r|] eqn:E; [|discriminate].
  assert (Er : r = entry).
  { cbn [bindR] in H. destruct best; [|now injection H]. destruct (namesigFigs_sci _ _ _ _ _ _ _ _) as [[[[x1 x2] x3] x4]|]; [|discriminate]. now injection H. }
  subst r. clear H. unfold lim_entry in E. rewrite Hc, A, B, C in E. destruct t.
  - destruct (plusMinusLimit _ _ _ _) as [sep|]; [|discriminate]. cbn [bindR] in E.
    assert (G : forall (X : res (str * Z)), (forall s e, X = Ok (s, e) -> no_bound s) ->
       bindR X (fun re => let '(res, e) := re in Ok (if (e =? 0)%Z then res else L "\left(\," ++ res ++ L "\,\right)" ++ times_ten_power e)) = Ok entry -> no_bound entry).
    { intros X HX EX. destruct X as [[s e]|]; [|discriminate]. cbn [bindR] in EX. injection EX as <-. destruct (e =? 0)%Z; [now apply (HX s e)|now split]. }
    apply G in E; [exact E|]. intros s e Es. destruct sep.
    + destruct (namesigFigs_sci _ _ _ _ _ _ _ _) as [[[[x1 x2] x3] x4]|] eqn:En; [|discriminate]. cbn [bindR] in Es. injection Es as <- _.
      eapply no_bound_app2; [eapply names_sci_no_bound, En|reflexivity|now split].
    + destruct (namesigFigs_sci _ _ _ _ _ _ _ _) as [[[[x1 x2] x3] x4]|] eqn:En; [|discriminate]. cbn [bindR] in Es. injection Es as <- _.
      eapply no_bound_app2; [eapply names_sci_no_bound, En|reflexivity|now split].
  - unfold formatNumber_sci in E. destruct (numberFigs_sci _ _ _) as [[s e]|]; [|discriminate]. cbn [bindR fst snd] in E. injection E as <-.
    exists s, e. split; [reflexivity|]. unfold with_power. destruct (e =? 0)%Z; [now rewrite app_nil_r|reflexivity].
  - unfold formatNumber_sci in E. destruct (numberFigs_sci _ _ _) as [[s e]|]; [|discriminate]. cbn [bindR fst snd] in E. injection E as <-.
    exists s, e. split; [reflexivity|]. unfold with_power. destruct (e =? 0)%Z; [now rewrite app_nil_r|reflexivity].
  - now injection E.
Qed.
Print Assumptions C44_table.
(** An entry that starts with < or > belongs to an upper or a lower limit (of any parameter). *)
Theorem C44_table_tail c p limit best entry rest lim t :
  margeTexValues c (Some p) limit best = Ok (Some (entry :: rest)) ->
  1 <= limit -> nth_error (m_limits p) (limit - 1) = Some lim -> is_tail lim t -> no_bound (c_none c) ->
  (startswith (L "<") entry = true -> t = Upper) /\ (startswith (L ">") entry = true -> t = Lower).
Proof.
  intros H Hl Hn Ht Hc. assert (NB : no_bound entry -> (startswith (L "<") entry = true -> t = Upper) /\ (startswith (L ">") entry = true -> t = Lower)).
  { destruct entry as [|x s]; [split; discriminate|]. intros [N1 N2].
    split; intros S; exfalso; apply startswith_true in S as (r & S); injection S as S _; auto. }
  destruct (startswith (L "chi2") (m_name p)) eqn:E.
  - apply NB. unfold margeTexValues in H. destruct limit as [|k]; [lia|]. replace (S k - 1) with k in Hn by lia.
    cbn [get_limit] in H. rewrite Hn in H. cbn [bindR] in H. destruct (lim_entry c p (S k) lim) as [r|] eqn:E1; [|discriminate].
    assert (Er : r = entry).
    { cbn [bindR] in H. destruct best; [|now injection H]. destruct (namesigFigs_sci _ _ _ _ _ _ _ _) as [[[[x1 x2] x3] x4]|]; [|discriminate]. now injection H. }
    subst r. unfold lim_entry in E1. rewrite E in E1. destruct (namesigFigs _ _ _ _ _ _) as [[[r s] m]|] eqn:En; [|discriminate].
    cbn [bindR] in E1. apply names_no_bound in En. assert (Ee : forall x : str, Ok x = Ok entry -> no_bound x -> no_bound entry) by (intros x [= <-]; auto).
    apply Ee in E1; [exact E1|]. destruct (S k =? 1); (eapply no_bound_app2; [exact En|reflexivity|now split]).
  - pose proof (C44_table c p limit best entry rest lim t H Hl Hn Ht E) as K. destruct t.
    + now apply NB.
    + destruct K as (s & e & _ & ->). split; [reflexivity|discriminate].
    + destruct K as (s & e & _ & ->). split; [discriminate|reflexivity].
    + subst entry. now apply NB.
Qed.
Print Assumptions C44_table_tail.
(** The number after < (or >) is the bound rounded to three figures. *)
Theorem C44_table_value c p limit best entry rest lim t b :
  margeTexValues c (Some p) limit best = Ok (Some (entry :: rest)) ->
  1 <= limit -> nth_error (m_limits p) (limit - 1) = Some lim -> is_tail lim t -> startswith (L "chi2") (m_name p) = false ->
  (t = Upper /\ b = l_upper lim) \/ (t = Lower /\ b = l_lower lim) -> nonzero_dec b -> (Z.abs (lead b) <= 4)%Z ->
  exists sign s ip fp, (sign = "<"%char <-> t = Upper) /\ entry = sign :: " "%char :: s /\ reads s (d_neg b) ip fp /\
    rounded_to (pow10 (lead b - 2)) (dec_abs b) (text_abs ip fp).
Proof.
  intros H Hl Hn Ht Hc Hb W Hld. pose proof (C44_table _ _ _ _ _ _ _ _ H Hl Hn Ht Hc) as K.
  destruct (C42_rounds b 3 W ltac:(lia)) as (s & ip & fp & k & E & R & Ro & _). replace (lead b - 3 + 1)%Z with (lead b - 2)%Z in Ro by lia.
  assert (G : forall s' e, numberFigs_sci (c_scale c) (Fin b) 3 = Ok (s', e) -> s' = s /\ e = 0%Z).
  { intros s' e X. destruct (C68_exponent _ _ _ _ _ X) as [(_ & -> & X1)|(X1 & _)]; [|lia]. rewrite E in X1. injection X1 as <-. auto. }
  destruct Hb as [[-> ->]|[-> ->]]; destruct K as (s' & e & X & ->); destruct (G _ _ X) as [-> ->]; cbn [Z.eqb]; rewrite app_nil_r.
  - exists "<"%char, s, ip, fp. split; [split; reflexivity|]. split; [reflexivity|]. now split.
  - exists ">"%char, s, ip, fp. split; [split; discriminate|]. split; [reflexivity|]. now split.
Qed.
Print Assumptions C44_table_value.
(** A two-tail limit is shown with the distances of its ends from the mean, the upper one first, unless it is the
    first limit and the distances are the same up to the tolerance: then with the deviation. *)
Theorem C44_table_two c p limit best entry rest lim :
  margeTexValues c (Some p) limit best = Ok (Some (entry :: rest)) ->
  1 <= limit -> nth_error (m_limits p) (limit - 1) = Some lim -> is_tail lim Two -> startswith (L "chi2") (m_name p) = false ->
  let up := (dec_val (l_upper lim) - dec_val (m_mean p))%Q in
  let lo := (dec_val (l_lower lim) - dec_val (m_mean p))%Q in
  let same := limit = 1 /\ (Qabs (Qabs (up / lo) - 1) <= c_tol c)%Q in
  exists v plus minus e body, entry = (if (e =? 0)%Z then body else L "\left(\," ++ body ++ L "\,\right)" ++ times_ten_power e) /\
    ((~ same /\ body = v ++ L "^{" ++ plus ++ L "}_{" ++ minus ++ L "}" /\
      namesigFigs_sci (c_fuel c) (c_scale c) (c_fl c) (c_nf c) (m_mean p) (c_fl c up) (c_fl c lo) true = Ok (v, plus, minus, e)) \/
     (same /\ body = v ++ L "\pm " ++ plus /\
      namesigFigs_sci (c_fuel c) (c_scale c) (c_fl c) (c_nf c) (m_mean p) (m_err p) (m_err p) false = Ok (v, plus, minus, e))).
Proof.
  intros H Hl Hn (A & B & C) Hc. cbn zeta. unfold margeTexValues in H. destruct limit as [|k]; [lia|]. replace (S k - 1) with k in Hn by lia.
  cbn [get_limit] in H. rewrite Hn in H. cbn [bindR] in H. destruct (lim_entry c p (S k) lim) as [r|] eqn:E; [|discriminate].
  assert (Er : r = entry).
  { cbn [bindR] in H. destruct best; [|now injection H]. destruct (namesigFigs_sci _ _ _ _ _ _ _ _) as [[[[x1 x2] x3] x4]|]; [|discriminate]. now injection H. }
  subst r. clear H. unfold lim_entry in E. rewrite Hc, A in E.
  set (up := (dec_val (l_upper lim) - _)%Q) in *. set (lo := (dec_val (l_lower lim) - _)%Q) in *.
  assert (PM : forall b, plusMinusLimit (c_tol c) (Z.of_nat (S k)) up lo = Ok b -> if b then ~ (S k = 1 /\ (Qabs (Qabs (up / lo) - 1) <= c_tol c)%Q) else S k = 1 /\ (Qabs (Qabs (up / lo) - 1) <= c_tol c)%Q).
  { intros b. unfold plusMinusLimit. destruct (Z.eqb_spec (Z.of_nat (S k)) 1) as [K|K]; cbn [negb]; [|intros [= <-]; intros (K1 & _); lia].
    destruct (Qeq_bool lo 0); [discriminate|]. intros [= <-]. unfold Qgt_b. destruct (Qle_bool _ (c_tol c)) eqn:Q; cbn [negb].
    - apply Qle_bool_iff in Q. split; [lia|exact Q].
    - intros (_ & Q2). apply Qle_bool_iff in Q2. discriminate (eq_trans (eq_sym Q2) Q). }
  destruct (plusMinusLimit _ _ _ _) as [sep|]; [|discriminate]. specialize (PM sep eq_refl). cbn [bindR] in E. destruct sep.
  - destruct (namesigFigs_sci _ _ _ _ _ _ _ _) as [[[[x1 x2] x3] x4]|] eqn:En; [|discriminate]. cbn [bindR] in E. injection E as <-.
    exists x1, x2, x3, x4. eexists. split; [reflexivity|]. left. auto.
  - destruct (namesigFigs_sci _ _ _ _ _ _ _ _) as [[[[x1 x2] x3] x4]|] eqn:En; [|discriminate]. cbn [bindR] in E. injection E as <-.
    exists x1, x2, x3, x4. eexists. split; [reflexivity|]. right. auto.
Qed.
Print Assumptions C44_table_two.
(** Limit number 0 is the last one, if there are two or more. *)
Theorem C44_last c p best ls lim : m_limits p = ls ++ [lim] -> 1 <= List.length ls -> 
  margeTexValues c (Some p) 0 best = margeTexValues c (Some p) (S (List.length ls)) best.
Proof.
  intros E N. unfold margeTexValues. cbn [get_limit]. rewrite E, rev_app_distr, nth_error_app2, Nat.sub_diag by lia. cbn [rev app nth_error bindR].
  f_equal. unfold lim_entry, plusMinusLimit. destruct ls as [|x ls]; [cbn in N; lia|]. cbn [List.length].
  change (Z.of_nat 0) with 0%Z. replace (Z.of_nat (S (S (List.length ls))) =? 1)%Z with false by (symmetry; apply Z.eqb_neq; lia). reflexivity.
Qed.
Print Assumptions C44_last.
(** A limit number past the limits raises, and a parameter that is not known has no entry. *)
Theorem C44_missing c p limit best : (1 <= limit -> List.length (m_limits p) < limit -> margeTexValues c (Some p) limit best = Err IndexError) /\
  margeTexValues c None limit best = Ok None.
Proof.
  split; [|reflexivity]. intros H1 H2. destruct limit as [|k]; [lia|]. unfold margeTexValues. cbn [get_limit].
  now rewrite (proj2 (nth_error_None (m_limits p) k) ltac:(lia)).
Qed.
Print Assumptions C44_missing.
(** The second entry is the best fit, with the figures that a tenth of the width of the limit asks for. *)
Theorem C44_best c p limit b entries lim : margeTexValues c (Some p) limit (Some b) = Ok (Some entries) ->
  1 <= limit -> nth_error (m_limits p) (limit - 1) = Some lim ->
  exists entry s x y e, entries = [entry; s ++ (if (e =? 0)%Z then [] else times_ten_power e)] /\
    (let tenth := ((dec_val (l_upper lim) - dec_val (l_lower lim)) / 10)%Q in
     namesigFigs_sci (c_fuel c) (c_scale c) (c_fl c) (c_nf c) b (c_fl c tenth) (c_fl c (- tenth)%Q) true = Ok (s, x, y, e)) /\
    margeTexValues c (Some p) limit None = Ok (Some [entry]).
Proof.
  intros H H1 Hn. destruct limit as [|k]; [lia|]. replace (S k - 1) with k in Hn by lia. unfold margeTexValues in *. cbn [get_limit] in *. rewrite Hn in *.
  cbn [bindR] in *. destruct (lim_entry c p (S k) lim) as [r|]; [|discriminate]. cbn [bindR] in *. cbn zeta.
  destruct (namesigFigs_sci _ _ _ _ _ _ _ _) as [[[[x1 x2] x3] x4]|]; [|discriminate]. cbn [bindR] in H. injection H as <-.
  exists r, x1, x2, x3, x4. split; [|auto]. unfold with_power. destruct (x4 =? 0)%Z; [now rewrite app_nil_r|reflexivity].
Qed.
Print Assumptions C44_best.
Definition ex_cfg : texcfg := mkcfg 10 scale_exact (fun _ => dzero) default_nf (1 # 10) (L "---").
Definition ex_par : mpar dec := mkmpar dec (L "mnu") true (mkdec false [1; 1] (-1)) (mkdec false [5] (-2))
  [ParamLimit dzero (mkdec false [1; 2; 3; 4; 5] (-5)) (L ">"); ParamLimit (mkdec true [2; 3; 4; 5; 6] 4) dzero (L "<");
   ParamLimit dzero dzero (L "none")] (L "m").
Example C44_table_ex :
  margeTexValues ex_cfg (Some ex_par) 1 None = Ok (Some [L "< 0.123"]) /\
  margeTexValues ex_cfg (Some ex_par) 2 None = Ok (Some [L "> -2.35\cdot 10^{8}"]) /\
  margeTexValues ex_cfg (Some ex_par) 3 None = Ok (Some [L "---"]).
Proof. repeat split; reflexivity. Qed.

Definition ex_fl (q : Q) : dec :=
  if Qeq_bool q (1 # 5) then mkdec false [2] (-1) else if Qeq_bool q (-1 # 10) then mkdec true [1] (-1)
  else if Qeq_bool q (3 # 100) then mkdec false [3] (-2) else if Qeq_bool q (-3 # 100) then mkdec true [3] (-2)
  else if Qle_bool 1 q then mkdec false [1; 2] (-1) else dzero.
Definition ex_cfg2 : texcfg := mkcfg 10 scale_exact ex_fl default_nf (1 # 10) (L "---").
Definition ex_par2 : mpar dec := mkmpar dec (L "h") false (mkdec false [1] 0) (mkdec false [5] (-2))
  [ParamLimit (mkdec false [9] (-1)) (mkdec false [1; 2] (-1)) (L "two"); ParamLimit (mkdec false [9] (-1)) (mkdec false [1; 2] (-1)) (L "two")] (L "h").
Example C44_table_two_ex :
  margeTexValues ex_cfg2 (Some ex_par2) 1 (Some (mkdec false [1; 0; 1; 2; 3; 4] (-5))) = Ok (Some [L "1.00^{+0.20}_{-0.10}"; L "1.012"]) /\
  margeTexValues ex_cfg2 (Some ex_par2) 0 None = Ok (Some [L "1.00^{+0.20}_{-0.10}"]).
Proof. split; reflexivity. Qed.

(** ** C71 *)

(** One limit for each level, of the form that belongs to its kind. *)
Theorem C71_limits c d fracs contours ls : setMargeLimits c d fracs contours = Ok ls -> Forall2 (limit_for c d) contours ls.
Proof.
  unfold setMargeLimits. generalize 0 as ix. revert ls. induction contours as [|x xs IH]; intros ls ix H; cbn [contour_limits] in H.
  - injection H as <-. constructor.
  - destruct (contour_limit c d fracs ix x) as [l|] eqn:E; [|discriminate]. cbn [bindR] in H.
    destruct (contour_limits c d fracs (S ix) xs) as [ls'|] eqn:E2; [|discriminate]. injection H as <-. constructor; [|eapply IH, E2].
    clear E2 IH. unfold contour_limit in E. destruct (above_frac (h_bot c) _ _ _ _) as [b0|]; [|discriminate]. cbn [bindR] in E.
    destruct (above_frac (h_top c) _ _ _ _) as [t0|]; [|discriminate]. cbn [bindR] in E.
    destruct (b0 && t0); [injection E as <-; exists Open_; repeat split; reflexivity|].
    unfold limit_for. destruct (d_getLimits d x) as [[[lo hi] bot] top]. destruct bot, top; cbn [negb andb] in E.
    + injection E as <-. exists Open_. repeat split; reflexivity.
    + injection E as <-. exists Upper. repeat split; reflexivity.
    + injection E as <-. exists Lower. repeat split; reflexivity.
    + exists Two. cbn [fst snd]. destruct (Qle_bool (cred_threshold c) _) eqn:Q; cbn [negb] in E; injection E as <-.
      * split; [repeat split; reflexivity|]. right. apply Qle_bool_iff in Q. split; [exact Q|]. split; reflexivity.
      * split; [repeat split; reflexivity|]. left. split; [|split; reflexivity]. apply Qnot_le_lt. intros K. apply Qle_bool_iff in K. congruence.
Qed.
Print Assumptions C71_limits.
(** Limits are found whenever there are as many fractions as levels. *)
Theorem C71_defined c d fracs contours : List.length contours <= List.length fracs -> exists ls, setMargeLimits c d fracs contours = Ok ls.
Proof.
  unfold setMargeLimits. intros H. assert (G : forall ix, ix + List.length contours <= List.length fracs -> exists ls, contour_limits c d fracs ix contours = Ok ls).
  { clear H. induction contours as [|x xs IH]; intros ix H; [eexists; reflexivity|]. cbn [List.length contour_limits] in *.
    destruct (IH (S ix) ltac:(lia)) as (ls & E). rewrite E.
    assert (AF : forall h f v, exists b, above_frac h f v fracs ix = Ok b).
    { intros h f v. unfold above_frac. destruct (h && negb f); [|eauto]. destruct (nth_error fracs ix) eqn:N; [eauto|]. apply nth_error_None in N. lia. }
    unfold contour_limit. destruct (AF (h_bot c) (force_twotail c) (d_first d)) as (b & ->). cbn [bindR].
    destruct (AF (h_top c) (force_twotail c) (d_last d)) as (t & ->). cbn [bindR]. destruct (b && t); [cbn [bindR]; eauto|].
    destruct (d_getLimits d x) as [[[lo hi] bot] top]. match goal with |- context [if ?q then (_, _) else _] => destruct q end; cbn [bindR]; eauto. }
  apply G. exact H.
Qed.
Print Assumptions C71_defined.
(** With force_twotail, or without prior bounds nearby, limits are two-tailed if the density is below the level's
    threshold at both ends of its grid. *)
Theorem C71_two_partial c d fracs contours ls : setMargeLimits c d fracs contours = Ok ls ->
  (forall x, In x contours -> snd (fst (d_getLimits d x)) = false /\ snd (d_getLimits d x) = false) ->
  force_twotail c = true \/ h_bot c = false \/ h_top c = false ->
  forall l, In l ls -> is_tail l Two.
Proof.
  unfold setMargeLimits. generalize 0 as ix. revert ls. induction contours as [|x xs IH]; intros ls ix H G F l Hl; cbn [contour_limits] in H.
  - injection H as <-. destruct Hl.
  - destruct (contour_limit c d fracs ix x) as [l0|] eqn:E; [|discriminate]. cbn [bindR] in H.
    destruct (contour_limits c d fracs (S ix) xs) as [ls'|] eqn:E2; [|discriminate]. injection H as <-.
    destruct Hl as [<-|Hl]; [|eapply IH; [exact E2| |exact F|exact Hl]; intros; apply G; now right].
    unfold contour_limit in E. destruct (above_frac (h_bot c) _ _ _ _) as [b0|] eqn:B0; [|discriminate]. cbn [bindR] in E.
    destruct (above_frac (h_top c) _ _ _ _) as [t0|] eqn:T0; [|discriminate]. cbn [bindR] in E.
    assert (b0 && t0 = false).
    { unfold above_frac in *. destruct F as [F|[F|F]]; rewrite F in *; rewrite ?andb_false_r in *; cbn [negb andb] in *;
      rewrite ?andb_false_r in *; repeat match goal with X : Ok false = Ok _ |- _ => injection X as <- end; try reflexivity; apply andb_false_r. }
    rewrite H in E. destruct (G x (or_introl eq_refl)) as [G1 G2]. destruct (d_getLimits d x) as [[[lo hi] bot] top]. cbn [fst snd] in *. subst bot top.
    cbn [negb andb] in E. match type of E with context [if ?q then (_, _) else _] => destruct q end; injection E as <-; repeat split; reflexivity.
Qed.
Print Assumptions C71_two_partial.
(** The kind of each limit: open at both ends if there are prior bounds at both and the density exceeds the
    fraction of that level at both, and else what the grid says about the two ends. *)
Theorem C71_kind c d fracs contours ls i x f l : setMargeLimits c d fracs contours = Ok ls ->
  nth_error contours i = Some x -> nth_error fracs i = Some f -> nth_error ls i = Some l ->
  let high := h_bot c = true /\ h_top c = true /\ force_twotail c = false /\ (f < d_first d)%Q /\ (f < d_last d)%Q in
  (high -> is_tail l Open_) /\
  (~ high -> is_tail l (match snd (fst (d_getLimits d x)), snd (d_getLimits d x) with
                        | true, true => Open_ | true, false => Upper | false, true => Lower | false, false => Two end)).
Proof.
  intros H Hx Hf Hl. cbn zeta. assert (G : forall cs k ls j, contour_limits c d fracs k cs = Ok ls -> nth_error cs j = Some x ->
    nth_error ls j = Some l -> contour_limit c d fracs (k + j) x = Ok l).
  { clear. induction cs as [|y cs IH]; intros k ls [|j] H Hx Hl; try discriminate; cbn [contour_limits] in H;
    destruct (contour_limit c d fracs k y) as [l0|] eqn:E; try discriminate; cbn [bindR] in H;
    destruct (contour_limits c d fracs (S k) cs) as [ls'|] eqn:E2; try discriminate; injection H as <-; cbn [nth_error] in *.
    - injection Hx as ->. injection Hl as ->. now rewrite Nat.add_0_r.
    - rewrite <- Nat.add_succ_comm. now apply (IH (S k) ls'). }
  pose proof (G contours 0 ls i H Hx Hl) as E. cbn [Nat.add] in E. clear G H Hx Hl.
  assert (AF : forall h v, exists b, above_frac h (force_twotail c) v fracs i = Ok b /\ (b = true <-> h = true /\ force_twotail c = false /\ (f < v)%Q)).
  { intros h v. unfold above_frac. rewrite Hf. destruct h, (force_twotail c); cbn [negb andb]; eexists; (split; [reflexivity|]);
    try (split; [discriminate|intros (? & ? & _); discriminate]).
    destruct (Qle_bool v f) eqn:Q; cbn [negb]; split; try discriminate; try reflexivity.
    - intros (_ & _ & Q2). apply Qle_bool_iff in Q. exfalso. apply (Qlt_not_le _ _ Q2 Q).
    - intros _. split; [reflexivity|]. split; [reflexivity|]. apply Qnot_le_lt. intros Q2. apply Qle_bool_iff in Q2. congruence. }
  unfold contour_limit in E. destruct (AF (h_bot c) (d_first d)) as (b & Eb & B). destruct (AF (h_top c) (d_last d)) as (t & Et & T).
  rewrite Eb, Et in E. cbn [bindR] in E. destruct b, t; cbn [andb] in E.
  1: { injection E as <-. split; [intros _; repeat split; reflexivity|]. intros N. exfalso. apply N. destruct (proj1 B eq_refl) as (? & ? & ?), (proj1 T eq_refl) as (? & ? & ?). auto. }
  all: split; [intros (H1 & H2 & H3 & H4 & H5); exfalso; first [discriminate (proj2 B (conj H1 (conj H3 H4))) | discriminate (proj2 T (conj H2 (conj H3 H5)))]|intros _].
  all: destruct (d_getLimits d x) as [[[lo hi] bot] top]; cbn [fst snd]; destruct bot, top; cbn [negb andb] in E;
    try (match type of E with context [if ?q then (_, _) else _] => destruct q end); injection E as <-; repeat split; reflexivity.
Qed.
Print Assumptions C71_kind.
(** FINDING: force_twotail does not force two-tailed limits: the ends found by getLimits overrule it. *)
Definition half_density : density := mkdens 1 0 (fun x => if Qle_bool 0 x && Qle_bool x 1 then 1 - x else 0)%Q (fun _ => (0, 1 # 2, true, false)%Q).
Theorem C71_force_refuted : exists ls, setMargeLimits (mkml true false 0 1 true (1 # 20) (fun _ _ => 1 # 2)%Q) half_density [1 # 10] [68 # 100] = Ok ls /\
  force_twotail (mkml true false 0 1 true (1 # 20) (fun _ _ => 1 # 2)%Q) = true /\ exists l, ls = [l] /\ is_tail l Upper.
Proof. eexists. split; [reflexivity|]. split; [reflexivity|]. eexists. split; [reflexivity|]. repeat split; reflexivity. Qed.
Print Assumptions C71_force_refuted.
(** FINDING: a limit can be one-tailed at an end without prior bound, and whatever max_frac_twotail is. *)
Theorem C71_prior_refuted conf frac : exists l, is_tail l Upper /\
  setMargeLimits (mkml false false 0 1 false (1 # 20) conf) half_density [frac] [68 # 100] = Ok [l] /\
  setMargeLimits (mkml true false 0 1 false (1 # 20) conf) half_density [frac] [68 # 100] = Ok [l].
Proof.
  exists (ParamLimit 0%Q (conf (1 - (68 # 100))%Q true) (L ">")). split; [repeat split; reflexivity|]. split; [reflexivity|].
  unfold setMargeLimits, contour_limits, contour_limit, above_frac. cbn [h_bot h_top force_twotail negb andb nth_error d_first half_density].
  destruct (Qle_bool _ frac); reflexivity.
Qed.
Print Assumptions C71_prior_refuted.
Example C71_ex : exists l1 l2, setMargeLimits (mkml true true 0 10 false (1 # 20) (fun f up => if up then 10 - f else f)%Q)
    (mkdens (1 # 2) (1 # 5) (fun _ => 1 # 2)%Q (fun _ => (2, 8, false, false)%Q)) [1 # 10; 1 # 4] [68 # 100; 95 # 100] = Ok [l1; l2] /\
  is_tail l1 Open_ /\ l_upper l1 = 10%Q /\ is_tail l2 Two /\ (l_lower l2 == 1 # 40)%Q.
Proof. eexists _, _. split; [reflexivity|]. repeat split; reflexivity. Qed.
