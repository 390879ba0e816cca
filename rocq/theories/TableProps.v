(** Properties of result tables: C43 (placement of the parameters) and C70 (well-formed tabular). *)
From Verif Require Import PyBase PyNum PyStrFacts TableModel TableSpec TableProofs.
From Coq Require Import String Ascii Bool List Lia.
Import ListNotations.
Local Open Scope nat_scope.
Local Open Scope list_scope.

(** ** C43 *)

(** Reading the table column by column gives the parameters in order, each once; no row has more entries than
    there are columns, and none is empty. *)
Theorem C43_columns {A} (d : A) names ncol rows : table_rows d names ncol = Ok rows ->
  flat_map (column rows) (seq 0 ncol) = names /\
  forall r, In r rows -> 1 <= List.length r <= ncol.
Proof.
  intros H. destruct (table_rows_nth d names ncol rows H) as (N & L1 & N1).
  destruct (num_rows_bounds (List.length names) ncol N) as (B1 & B2 & B3 & B4). set (nr := num_rows (List.length names) ncol) in *.
  split.
  - rewrite (flat_map_ext_in _ (fun c => firstn nr (skipn (nr * c) names))).
    + rewrite blocks. apply firstn_all2. lia.
    + intros c Hc. apply in_seq in Hc. unfold column. rewrite flat_map_nth, L1.
      rewrite (flat_map_ext_in _ (fun r => match nth_error names (nr * c + r) with Some x => [x] | None => [] end)).
      * apply block.
      * intros r Hr. apply in_seq in Hr. rewrite N1 by lia. rewrite cell_nth. destruct (Nat.ltb_spec c ncol); [reflexivity|lia].
  - intros r Hr. apply (In_nth _ _ []) in Hr as (i & Hi & <-). rewrite N1 by exact Hi.
    assert (E0 : nth_error (cell_list d names nr ncol i) 0 <> None).
    { rewrite cell_nth. destruct (Nat.ltb_spec 0 ncol); [|lia]. apply nth_error_Some. lia. }
    apply nth_error_Some in E0. split; [lia|].
    unfold cell_list. rewrite map_length. etransitivity; [apply filter_len|]. rewrite seq_length. lia.
Qed.
Print Assumptions C43_columns.

(** Entry (r, c) is parameter c * rows + r. *)
Theorem C43_cell {A} (d : A) names ncol rows r c : table_rows d names ncol = Ok rows ->
  r < List.length rows -> c < ncol -> nth_error (nth r rows []) c = nth_error names (List.length rows * c + r).
Proof.
  intros H Hr Hc. destruct (table_rows_nth d names ncol rows H) as (N & L1 & N1). rewrite N1 by exact Hr. rewrite cell_nth, L1.
  destruct (Nat.ltb_spec c ncol); [reflexivity|lia].
Qed.
Print Assumptions C43_cell.

(** The table is as low as it can be, all columns before the end of the list are full, and at most one column is
    partly filled; columns after it are empty. *)
Theorem C43_lengths {A} (d : A) names ncol rows c : table_rows d names ncol = Ok rows -> c < ncol ->
  List.length names <= List.length rows * ncol /\ (names <> [] -> (List.length rows - 1) * ncol < List.length names) /\
  List.length (column rows c) = Nat.min (List.length rows) (List.length names - List.length rows * c).
Proof.
  intros H Hc. destruct (table_rows_nth d names ncol rows H) as (N & L1 & N1).
  destruct (num_rows_bounds (List.length names) ncol N) as (B1 & B2 & B3 & B4). rewrite <- L1 in *.
  split; [exact B1|]. split; [intros E; apply B3; destruct names; [contradiction|discriminate]|].
  unfold column. rewrite flat_map_nth.
  rewrite (flat_map_ext_in _ (fun r => match nth_error names (List.length rows * c + r) with Some x => [x] | None => [] end)).
  - rewrite block, firstn_length, skipn_length. reflexivity.
  - intros r Hr. apply in_seq in Hr. rewrite N1 by lia. rewrite cell_nth. destruct (Nat.ltb_spec c ncol); [reflexivity|lia].
Qed.
Print Assumptions C43_lengths.
(** When the columns before the last one can be filled, only the last one is shorter. *)
Theorem C43_last_shorter_partial {A} (d : A) names ncol rows c : table_rows d names ncol = Ok rows ->
  List.length rows * (ncol - 1) <= List.length names -> c + 1 < ncol -> List.length (column rows c) = List.length rows.
Proof.
  intros H Hf Hc. destruct (C43_lengths d names ncol rows c H ltac:(lia)) as (_ & _ & ->). nia.
Qed.
Print Assumptions C43_last_shorter_partial.
(** FINDING: five parameters in four columns give columns of 2, 2, 1 and 0 entries. *)
Theorem C43_last_shorter_refuted : exists rows, table_rows 0 [1; 2; 3; 4; 5] 4 = Ok rows /\
  map (fun c => List.length (column rows c)) [0; 1; 2; 3] = [2; 2; 1; 0].
Proof. eexists. split; reflexivity. Qed.
Print Assumptions C43_last_shorter_refuted.
(** no columns: division by zero; no parameters: the last row does not exist *)
Theorem C43_defined {A} (d : A) names ncol : (exists rows, table_rows d names ncol = Ok rows) <-> ncol <> 0.
Proof.
  unfold table_rows. destruct (Nat.eqb_spec ncol 0); split; intros H; [destruct H; discriminate|contradiction|exact n|eauto].
Qed.
Print Assumptions C43_defined.
Example C43_ex : table_rows 0 [1; 2; 3; 4; 5; 6; 7] 3 = Ok [[1; 4; 7]; [2; 5]; [3; 6]].
Proof. reflexivity. Qed.

(** ** C70 *)

Lemma tab_declared f ncol cpr nres : good_fmt f -> ncol <> 0 -> cpr <> 0 ->
  declared (tab_spec f ncol cpr nres) = ncol * (1 + nres * cpr).
Proof.
  intros G Hn Hc. unfold tab_spec. set (part := tab_part f cpr).
  assert (P : declared part = cpr).
  { unfold part, tab_part. rewrite !declared_app, declared_times, declared_app, (g_major f G), (g_minor f G).
    change (declared (L " c")) with 1. lia. }
  rewrite !declared_app, !declared_times, !declared_app, declared_times, (g_border f G), (g_col f G), P.
  change (declared (L " l ")) with 1. nia.
Qed.
Lemma header_cells f ncol labels : good_fmt f -> ncol <> 0 -> (forall l s, In l labels -> In s l -> count "&"%char s = 0) ->
  cells (headerRow f ncol labels) = ncol * (1 + List.length (concat labels)).
Proof.
  intros G Hn Hl. unfold cells, headerRow. set (cols := _ :: _).
  assert (Hc : forall s, In s (concat (repeat cols ncol)) -> count "&"%char s = 0).
  { intros s Hs. apply in_concat in Hs as (x & Hx & Hs). apply repeat_spec in Hx. subst x. destruct Hs as [<-|Hs].
    - rewrite count_app. destruct (g_head f G). lia.
    - apply in_map_iff in Hs as (t & <- & Ht). apply in_concat in Ht as (l & Hl1 & Hl2). rewrite count_app, (Hl l t Hl1 Hl2).
      destruct (g_head f G). lia. }
  rewrite count_app, (g_end f G). assert (Ne : concat (repeat cols ncol) <> []) by (destruct ncol; [contradiction|discriminate]).
  pose proof (count_join "&"%char (f_colSep f) _ Ne) as J. rewrite (list_sum_const _ 1) in J.
  - rewrite (g_sep f G) in J. pose proof (repeat_length_concat cols ncol) as Len. unfold str in J, Len.
    rewrite Len in J. assert (Lc : List.length cols = 1 + List.length (concat labels)) by (unfold cols; cbn [List.length]; now rewrite map_length).
    unfold str in *. rewrite Lc in J. lia.
  - intros s Hs. rewrite (Hc s Hs), (g_sep f G). reflexivity.
Qed.
Lemma result_cells f k r p : good_fmt f -> shows k r p -> exists t, paramResultTex f r p = Ok t /\ count "&"%char t + 1 = k.
Proof.
  intros G (labels & values & -> & Hl & Hv). unfold paramResultTex. cbn [texValues bindR getColumnLabels].
  destruct (values p) as [vs|].
  - destruct Hv as (Lv & Hk & Hc). destruct vs as [|v0 rest]; [cbn in Lv; lia|]. eexists. split; [reflexivity|]. rewrite count_app.
    rewrite (count_textAsColumn f v0) by (try exact G; apply Hc; now left).
    destruct rest as [|v1 rest].
    + cbn in Lv |- *. lia.
    + rewrite (count_textAsColumn f v1) by (try exact G; apply Hc; right; now left). cbn [List.length] in Lv. destruct rest; cbn in Lv; lia.
  - subst k. eexists. split; [reflexivity|]. rewrite count_times, (count_textAsColumn f []) by (try exact G; reflexivity). lia.
Qed.

(** The column specification, the header row and every row of parameters have the same number of cells, if every
    result has the same number k of labels and shows k texts for every parameter (and nothing contains an &). *)
Theorem C70_rectangular_partial f ncol results k row labels :
  good_fmt f -> results <> [] -> k <> 0 -> row <> [] -> List.length row <= ncol ->
  mapR getColumnLabels results = Ok labels -> (forall l s, In l labels -> In s l -> count "&"%char s = 0) ->
  (forall r p, In r results -> In p row -> shows k r (t_name p)) ->
  (forall p, In p row -> count "&"%char (getLabel p) = 0) ->
  exists t, fullTableRow f results (List.length results * k) ncol row = Ok t /\
    cells t = declared (tab_spec f ncol k (List.length results)) /\
    cells (headerRow f ncol labels) = declared (tab_spec f ncol k (List.length results)).
Proof.
  intros G Hr Hk Hw Hlen Hlab Hlc Hs Hg. assert (Hn : ncol <> 0) by (destruct row; [contradiction|cbn in Hlen; lia]).
  set (R := List.length results).
  (* one parameter *)
  assert (One : forall p, In p row -> exists t, bindR (paramResultsTex f results (t_name p)) (fun t => Ok (paramLabelColumn f p ++ t)) = Ok t
                /\ count "&"%char t = R * k).
  { intros p Hp. unfold paramResultsTex.
    assert (M : exists l, mapR (fun r => paramResultTex f r (t_name p)) results = Ok l /\ List.length l = R /\
                 (forall t, In t l -> count "&"%char t + 1 = k)).
    { unfold R. clear Hr Hlab. revert Hs. induction results as [|r rs IH]; intros Hs; [exists []; split; [reflexivity|]; split; [reflexivity|intros t []]|].
      destruct (result_cells f k r (t_name p) G (Hs r p (or_introl eq_refl) Hp)) as (t & E & C).
      destruct IH as (l & El & Ll & Cl); [intros r' p' H1 H2; apply Hs; [now right|exact H2]|].
      exists (t :: l). cbn [mapR]. rewrite E, El. split; [reflexivity|]. split; [cbn; now rewrite Ll|].
      intros t' [<-|Ht]; [exact C|now apply Cl]. }
    destruct M as (l & -> & Ll & Cl). cbn [bindR]. eexists. split; [reflexivity|]. rewrite count_app.
    unfold paramLabelColumn. rewrite count_textAsColumn by (try exact G; now apply Hg).
    assert (Nl : l <> []) by (intros ->; cbn in Ll; destruct results; [contradiction|discriminate Ll]).
    pose proof (count_join "&"%char (f_colSep f) l Nl) as J. rewrite (list_sum_const _ k) in J.
    - rewrite (g_sep f G), Ll in J. lia.
    - intros t Ht. rewrite (g_sep f G). now apply Cl. }
  assert (M : exists l, mapR (fun p => bindR (paramResultsTex f results (t_name p)) (fun t => Ok (paramLabelColumn f p ++ t))) row = Ok l /\
     List.length l = List.length row /\ (forall t, In t l -> count "&"%char t = R * k)).
  { clear Hw Hlen Hs Hg. induction row as [|p row IH]; [exists []; split; [reflexivity|]; split; [reflexivity|intros t []]|].
    destruct (One p (or_introl eq_refl)) as (t & E & C). destruct IH as (l & El & Ll & Cl); [intros q Hq; apply One; now right|].
    exists (t :: l). cbn [mapR]. rewrite E, El. split; [reflexivity|]. split; [cbn; now rewrite Ll|].
    intros t' [<-|Ht]; [exact C|now apply Cl]. }
  destruct M as (l & El & Ll & Cl). unfold fullTableRow. rewrite El. cbn [bindR]. eexists. split; [reflexivity|].
  rewrite tab_declared by (try exact G; assumption). split.
  - unfold cells. rewrite count_app, (g_end f G).
    assert (Nl : l <> []) by (intros ->; cbn in Ll; destruct row; [contradiction|discriminate Ll]).
    pose proof (count_join "&"%char (f_colSep f) l Nl) as J. rewrite (list_sum_const _ (R * k + 1)) in J.
    + rewrite (g_sep f G) in J. unfold str in J, Ll. rewrite Ll in J. destruct (Nat.eqb_spec ncol (List.length row)) as [E|E].
      * rewrite E. fold R. nia.
      * rewrite count_app, count_times, (g_sep f G). fold R.
        assert (D : ncol = List.length row + (ncol - List.length row)) by lia. set (z := ncol - List.length row) in *. rewrite D. nia.
    + intros t Ht. rewrite (g_sep f G), (Cl t Ht). reflexivity.
  - rewrite header_cells by assumption. f_equal. f_equal.
    assert (Hlk : forall x, In x labels -> List.length x = k).
    { clear -Hlab Hs Hw. destruct row as [|p row]; [contradiction|]. revert labels Hlab Hs.
      induction results as [|r rs IH]; intros labels Hlab Hs; cbn [mapR] in Hlab.
      - injection Hlab as <-. intros x [].
      - destruct (Hs r p (or_introl eq_refl) (or_introl eq_refl)) as (lb & vl & -> & E & _). cbn [getColumnLabels] in Hlab.
        destruct (mapR getColumnLabels rs) as [ls|]; [|discriminate]. injection Hlab as <-. intros x [<-|Hx]; [exact E|].
        apply (IH ls eq_refl); [intros r' p' H1 H2; apply Hs; [now right|exact H2]|exact Hx]. }
    assert (Hll : List.length labels = R).
    { unfold R. clear -Hlab. revert labels Hlab. induction results as [|r rs IH]; intros labels Hlab; cbn [mapR] in Hlab.
      - injection Hlab as <-. reflexivity.
      - destruct (getColumnLabels r); [|discriminate]. destruct (mapR getColumnLabels rs); [|discriminate]. injection Hlab as <-. cbn. f_equal. now apply IH. }
    rewrite <- Hll. clear -Hlk. induction labels as [|x ls IH]; [reflexivity|]. cbn [concat]. rewrite app_length, (Hlk x) by now left.
    rewrite IH by (intros; apply Hlk; now right). cbn. lia.
Qed.
Print Assumptions C70_rectangular_partial.

(** FINDING: a parameter missing from a result that also shows best fits leaves a row one cell short. *)
Definition two_labels : result := RMarge [L "Best fit"; L "95\% limits"] (fun p => if str_eqb p (L "a") then Some [L "1"; L "2"] else None).
Theorem C70_missing_refuted : exists t,
  fullTableRow noline [two_labels] 2 1 [mktp (L "b") (L "b") false] = Ok t /\
  cells t = 2 /\ declared (tab_spec noline 1 2 1) = 3.
Proof. eexists. split; [reflexivity|]. split; reflexivity. Qed.
Print Assumptions C70_missing_refuted.
(** FINDING: a table of BestFit results is never made: getColumnLabels and texValues of BestFit take keyword
    arguments only. *)
Theorem C70_bestfit_refuted f ncol v rest params titles blockEnd :
  ResultTable f ncol (RBest v :: rest) params titles blockEnd = Err TypeError.
Proof. reflexivity. Qed.
Print Assumptions C70_bestfit_refuted.
(** FINDING: the numFormatter argument is never used. *)
Theorem C70_numformatter_refuted {A} (x : fmt_attrs A) arg : used_formatter (set_numFormatter x arg) = used_formatter x.
Proof. destruct arg; reflexivity. Qed.
Print Assumptions C70_numformatter_refuted.

(** The body of a table is the text of each row, in order, each followed by the line under it. *)
Theorem C70_body f ncol r0 results params titles blockEnd lines :
  ResultTable f ncol (r0 :: results) params titles blockEnd = Ok lines ->
  exists labels0 rows pre texts, getColumnLabels r0 = Ok labels0 /\ table_rows (mktp [] [] false) params ncol = Ok rows /\
    mapR (fullTableRow f (r0 :: results) (List.length (r0 :: results) * List.length labels0) ncol) rows = Ok texts /\
    lines = pre ++ concat (map (fun tp => fst tp :: match getLine f (snd tp) with Some l => [l] | None => [] end)
              (combine texts (map (fun r => match r, blockEnd with
                                            | p :: _, Some names => if (ncol =? 1) && mem_str (t_name p) names then L "belowBlockRow" else L "belowRow"
                                            | _, _ => L "belowRow" end) (removelast rows) ++ [L "belowFinalRow"]))) ++ [tab_end].
Proof.
  unfold ResultTable. destruct (getColumnLabels r0) as [labels0|] eqn:E0; [|discriminate]. cbn [bindR].
  destruct (table_rows _ params ncol) as [rows|] eqn:Er; [|discriminate]. cbn [bindR].
  set (R := r0 :: results). set (cpp := List.length R * List.length labels0).
  match goal with |- bindR ?x _ = _ -> _ => destruct x as [l1|] end; [|discriminate]. cbn [bindR].
  destruct (mapR getColumnLabels R) as [labels|]; [|discriminate]. cbn [bindR].
  set (pre := addHeaderRow f ncol labels l1). intros H.
  assert (G : forall pre lines', body_rows f R cpp ncol blockEnd rows pre = Ok lines' -> exists texts,
     mapR (fullTableRow f R cpp ncol) rows = Ok texts /\
     lines' = pre ++ concat (map (fun tp => fst tp :: match getLine f (snd tp) with Some l => [l] | None => [] end)
              (combine texts (map (fun r => match r, blockEnd with
                                            | p :: _, Some names => if (ncol =? 1) && mem_str (t_name p) names then L "belowBlockRow" else L "belowRow"
                                            | _, _ => L "belowRow" end) (removelast rows) ++ [L "belowFinalRow"])))).
  { clear. intros pre lines'. revert pre. induction rows as [|row rows IH]; intros pre H; [discriminate|].
    assert (AL : forall pos ls t, addLine f pos (ls ++ [t]) = ls ++ (t :: match getLine f pos with Some l => [l] | None => [] end)).
    { intros pos ls t. unfold addLine. destruct (getLine f pos); [now rewrite <- app_assoc|reflexivity]. }
    destruct rows as [|row2 rows].
    - cbn [body_rows] in H. cbn [mapR]. destruct (fullTableRow f R cpp ncol row) as [t|]; [|discriminate]. cbn [bindR] in H.
      injection H as <-. exists [t]. split; [reflexivity|]. cbn [removelast map app combine concat fst snd]. rewrite AL, app_nil_r. reflexivity.
    - change (body_rows f R cpp ncol blockEnd (row :: row2 :: rows) pre) with
        (bindR (body_row f R cpp ncol blockEnd row pre) (body_rows f R cpp ncol blockEnd (row2 :: rows))) in H.
      unfold body_row in H. change (mapR (fullTableRow f R cpp ncol) (row :: row2 :: rows)) with
        (match fullTableRow f R cpp ncol row with Err e => Err e | Ok y => match mapR (fullTableRow f R cpp ncol) (row2 :: rows) with Err e => Err e | Ok r => Ok (y :: r) end end).
      destruct (fullTableRow f R cpp ncol row) as [t|]; [|discriminate]. cbn [bindR] in H.
      apply IH in H as (texts & Et & ->). rewrite Et. exists (t :: texts). split; [reflexivity|].
      change (removelast (row :: row2 :: rows)) with (row :: removelast (row2 :: rows)). cbn [map app combine concat fst snd].
      rewrite AL, <- !app_assoc. f_equal. f_equal.
      destruct row as [|p row]; [reflexivity|]. destruct blockEnd as [names|]; [|reflexivity].
      destruct ((ncol =? 1) && mem_str (t_name p) names); reflexivity. }
  destruct (body_rows f R cpp ncol blockEnd rows pre) as [ls|] eqn:Eb; [|discriminate]. cbn [bindR] in H. injection H as <-.
  destruct (G pre ls Eb) as (texts & Et & ->). exists labels0, rows, pre, texts. split; [reflexivity|]. split; [reflexivity|].
  split; [exact Et|]. now rewrite <- app_assoc.
Qed.
Print Assumptions C70_body.

Definition one_label : result := RMarge [L "95\% limits"] (fun p => if str_eqb p (L "a") then Some [L "1.2\pm 0.1"] else None).
Lemma noline_good : good_fmt noline.
Proof. split; try reflexivity. split; reflexivity. Qed.
Example C70_ex : good_fmt noline /\ (forall p, shows 1 one_label p) /\ shows 2 two_labels (L "a") /\
  ResultTable noline 2 [one_label] [mktp (L "a") (L "\alpha") false; mktp (L "b") [] true; mktp (L "c") (L "c") true] None None =
  Ok [L "\begin{tabular} { l  c| l  c}"; []; L " Parameter &  95\% limits &  Parameter &  95\% limits\\"; hline;
      L "{\boldmath$\alpha         $} & $1.2\pm 0.1                $ & $c                         $ &                             \\"; [];
      L "$b                         $ &                              &  & \\"; hline; tab_end].
Proof.
  split; [exact noline_good|]. split; [|split].
  - intros p. exists [L "95\% limits"], (fun p => if str_eqb p (L "a") then Some [L "1.2\pm 0.1"] else None).
    split; [reflexivity|]. split; [reflexivity|]. cbv beta. destruct (str_eqb p (L "a")); [|reflexivity].
    split; [reflexivity|]. split; [now left|]. intros v [<-|[]]. reflexivity.
  - eexists _, _. split; [reflexivity|]. split; [reflexivity|]. cbv beta. cbn. split; [reflexivity|]. split; [now right|].
    intros v [<-|[<-|[]]]; reflexivity.
  - vm_compute. reflexivity.
Qed.
