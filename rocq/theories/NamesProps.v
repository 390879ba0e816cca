(** C104, C105 and C107: lists of parameter names (source/ObjectParamNames.f90) *)
From Coq Require Import String Ascii Bool Arith Lia List.
From Verif Require Import PyStr PyStrFacts ParamModel ParamSpec ParamProofs NamesModel NamesSpec NamesProofs NamesProofs2 NamesProofs3 ColProofs ColProofs2.
Import ListNotations.

(** ** C104: the names of two lists put together *)
Lemma merged_kinds a b : NoDup (names_of a) -> NoDup (names_of b) ->
  ordered (merged a b) /\
  (forall n, has_kind false (merged a b) n <-> has_kind false a n \/ has_kind false b n).
Proof.
  intros Na Nb. unfold merged. rewrite app_assoc. split.
  - exists (filter (fun p => negb (der p)) a ++ filter (fun p => negb (der p) && negb (base_in a (nm p))) b),
      (filter (fun p => der p && negb (base_in b (nm p))) a ++ filter (fun p => der p && negb (named_in a (nm p))) b).
    split; [reflexivity |]. split; apply Forall_app; split; apply Forall_forall; intros p I; apply filter_In in I; destruct I as [_ I]; destruct (der p); cbn in I; congruence.
  - intro n. split.
    + intros (p & I & E & D). rewrite !in_app_iff, !filter_In in I. destruct I as [[[I _] | [I _]] | [[_ I] | [_ I]]].
      * left. now exists p.
      * right. now exists p.
      * now rewrite D in I.
      * now rewrite D in I.
    + intros [(p & I & E & D) | (p & I & E & D)].
      * exists p. rewrite !in_app_iff, !filter_In, D. repeat split; try assumption. tauto.
      * destruct (base_in a n) eqn:Ba.
        -- apply base_In in Ba. destruct Ba as (q & Iq & Eq & Dq). exists q. rewrite !in_app_iff, !filter_In, Dq. repeat split; try assumption. tauto.
        -- exists p. rewrite !in_app_iff, !filter_In, D, E, Ba. repeat split; try assumption. tauto.
Qed.
Lemma Add_merged a b : NoDup (names_of a) -> NoDup (names_of b) -> (exists p, In p b /\ ~ In (nm p) (names_of a)) ->
  Add false a b = Some (merged a b).
Proof.
  intros Na Nb (p & I & N). unfold Add. cbn [andb]. set (F := filter (fun p => negb (isin a (nm p))) b).
  assert (IF : In p F) by (apply filter_In; split; [exact I | now apply negb_true_iff, isin_false]).
  change (add_pass true (add_pass true (add_pass false (add_pass false [] a) b) a) b) with (four a b).
  rewrite (four_merged a b Na Nb), (merged_length a b Na Nb). fold F. rewrite Nat.eqb_refl. destruct F; [destruct IF | reflexivity].
Qed.
(** Partial: says nothing when the second list has no new name *)
Theorem C104_merge_partial : forall a b, NoDup (names_of a) -> NoDup (names_of b) -> (exists p, In p b /\ ~ In (nm p) (names_of a)) ->
  exists r, Add false a b = Some r /\
    NoDup (names_of r) /\ (forall n, In n (names_of r) <-> In n (names_of a) \/ In n (names_of b)) /\
    (forall p, In p r -> In p a \/ In p b) /\
    ordered r /\ (forall n, has_kind false r n <-> has_kind false a n \/ has_kind false b n) /\
    exists rest, r = filter (fun p => negb (der p)) a ++ rest.
Proof.
  intros a b Na Nb H. exists (merged a b). split; [now apply Add_merged |]. destruct (merged_kinds a b Na Nb) as [O K].
  split; [rewrite <- (four_merged a b Na Nb); apply four_NoDup |]. split; [apply merged_names |]. split.
  - intros p I. unfold merged in I. rewrite !in_app_iff, !filter_In in I. tauto.
  - split; [exact O |]. split; [exact K |]. unfold merged. eauto.
Qed.
(** A name that is in both stops the program when this is asked for; nothing else does *)
Theorem C104_check : forall a b, NoDup (names_of a) -> NoDup (names_of b) ->
  (Add true a b = None <-> exists n, In n (names_of a) /\ In n (names_of b)).
Proof.
  intros a b Na Nb. split.
  - intro E. unfold Add in E. set (F := filter (fun p => negb (isin a (nm p))) b) in *.
    destruct (forallb (fun p => negb (isin a (nm p))) b) eqn:A.
    + exfalso. assert (EF : F = b) by (apply filter_all, Forall_forall; now apply forallb_forall). rewrite EF, Nat.eqb_refl in E. cbn [andb negb] in E.
      destruct b as [| p b]; [discriminate |]. set (B := p :: b) in *.
      change (add_pass true (add_pass true (add_pass false (add_pass false [] a) B) a) B) with (four a B) in E.
      rewrite (four_merged a B Na Nb), (merged_length a B Na Nb) in E. fold F in E. rewrite EF, Nat.eqb_refl in E. discriminate.
    + assert (X : exists p, In p b /\ negb (isin a (nm p)) = false).
      { clear - A. induction b as [| p b IH]; [discriminate |]. cbn in A. apply andb_false_iff in A. destruct A as [A | A].
        - exists p. split; [now left | exact A].
        - destruct (IH A) as (q & I & Q). exists q. split; [now right | exact Q]. }
      destruct X as (p & I & Q). exists (nm p). split; [apply isin_In; now apply negb_false_iff in Q | now apply in_names].
  - intros (n & Ia & Ib). destruct (Add true a b) as [r |] eqn:E; [| reflexivity]. apply Add_check in E. destruct E as [_ H].
    apply in_map_iff in Ib. destruct Ib as (p & <- & Ib). now apply H in Ib.
Qed.
(** A new name that is listed twice stops the program *)
Theorem C104_twice : forall check a b r, Add check a b = Some r ->
  NoDup (names_of (filter (fun p => negb (isin a (nm p))) b)).
Proof.
  intros check a b r E. unfold Add in E. destruct (_ && _); [discriminate |]. set (F := filter (fun p => negb (isin a (nm p))) b) in *.
  destruct F as [| p f] eqn:EF; [constructor |]. rewrite <- EF in *.
  change (add_pass true (add_pass true (add_pass false (add_pass false [] a) b) a) b) with (four a b) in E.
  destruct (Nat.eqb_spec (length (four a b)) (length a + length F)) as [EL | EL]; [| discriminate].
  assert (ND : NoDup (names_of a ++ names_of F)).
  { apply (@NoDup_incl_NoDup _ (names_of (four a b))).
    - apply four_NoDup.
    - rewrite app_length. unfold names_of. rewrite !map_length. lia.
    - intros n I. apply four_incl in I. apply in_or_app. destruct I as [I | I]; [now left |].
      destruct (isin a n) eqn:Ia; [left; now apply isin_In |]. right. apply in_map_iff in I. destruct I as (q & <- & I).
      apply in_map_iff. exists q. split; [reflexivity |]. apply filter_In. split; [exact I |]. now rewrite Ia. }
  now apply NoDup_right in ND.
Qed.
(** FINDING: when the second list has no new name it is not looked at (line 189), so that a parameter that is derived in the first list
    and a base parameter of the second stays derived; one new name makes it a base parameter. *)
Definition ex_a : list pn := [mkN (L "x") (L "x") [] false; mkN (L "y") (L "y") [] true].
Definition ex_b : list pn := [mkN (L "y") (L "y") [] false].
Definition ex_c : list pn := [mkN (L "y") (L "y") [] false; mkN (L "z") (L "z") [] false].
Theorem C104_early_refuted :
  Add false ex_a ex_b = Some ex_a /\ has_kind false ex_b (L "y") /\ ~ has_kind false ex_a (L "y") /\
  exists r, Add false ex_a ex_c = Some r /\ has_kind false r (L "y").
Proof.
  split; [reflexivity |]. split; [exists (mkN (L "y") (L "y") [] false); cbn; tauto |]. split.
  - intros (p & [<- | [<- | []]] & E & D); discriminate.
  - eexists. split; [reflexivity |]. exists (mkN (L "y") (L "y") [] false). split; [cbn; right; left; reflexivity | split; reflexivity].
Qed.
(** FINDING: in that case the ranges of its derived parameters are lost as well *)
Theorem C104_ranges_refuted :
  Add_ranges ex_a ex_b [] [L "y"] = [] /\ Add_ranges ex_a ex_c [] [L "y"] = [L "y"].
Proof. now split. Qed.
Example C104_ex : NoDup (names_of ex_a) /\ NoDup (names_of ex_c) /\ (exists p, In p ex_c /\ ~ In (nm p) (names_of ex_a)) /\
  option_map names_of (Add false ex_a ex_c) = Some [L "x"; L "y"; L "z"] /\ Add true ex_a ex_c = None.
Proof.
  split; [repeat constructor; cbn; intuition discriminate |]. split; [repeat constructor; cbn; intuition discriminate |]. split; [| now split].
  exists (mkN (L "z") (L "z") [] false). split; [cbn; tauto | cbn; intuition discriminate].
Qed.
Print Assumptions C104_merge_partial.
Print Assumptions C104_check.
Print Assumptions C104_twice.

(** ** C105: files of parameter names *)
(** Partial: names that list-directed input can read, up to 128 characters *)
Theorem C105_fortran_partial : forall sep want_comment l, sep blank = true -> sep tab = true -> sep star = false -> Forall (good_pn sep) l ->
  Init sep (map (AsString want_comment) l) = Some (map (fun p => if want_comment then p else no_comment p) l).
Proof. exact Init_AsString. Qed.
Definition to_py (p : pn) : pinfo := mkP (nm p) (lab p) (com p) (der p) [].
Definition of_py (p : pinfo) : pn := mkN (pname p) (plabel p) (pcomment p) (pderived p).
Lemma pstring_AsString p : trim (pname p) = pname p -> trim (plabel p) = plabel p -> trim (pcomment p) = pcomment p ->
  pstring true p = AsString true (of_py p).
Proof.
  intros E1 E2 E3. unfold pstring, AsString, of_py. cbn [nm lab com der]. rewrite E1, E2, E3. cbn [andb].
  destruct (negb (str_eqb (pcomment p) [])); rewrite ?app_nil_r, <- ?app_assoc; reflexivity.
Qed.
(** A file written by the Python code is read by the Fortran code *)
Theorem C105_from_python_partial : forall sep l, sep blank = true -> sep tab = true -> sep star = false -> Forall (fun p => good_pn sep (of_py p)) l ->
  Init sep (map (pstring true) l) = Some (map of_py l).
Proof.
  intros sep l S1 S2 S3 F.
  assert (E : map (pstring true) l = map (AsString true) (map of_py l)).
  { rewrite map_map. apply map_ext_in. intros p I. rewrite Forall_forall in F. destruct (F p I) as (P & _ & _ & _ & T1 & _ & _ & _ & T2 & _).
    apply pstring_AsString; [apply trim_no_blank; apply P | now apply trim_tight | now apply trim_tight]. }
  rewrite E, (Init_AsString sep true (map of_py l) S1 S2 S3) by (now apply Forall_map). f_equal. apply map_id.
Qed.
(** A file written by the Fortran code is read by the Python code *)
Theorem C105_to_python_partial : forall l, Forall (fun p => good_param (to_py p) /\ trim (nm p) = nm p /\ tight (lab p)) l ->
  load_paramnames (concat (map (fun s => s ++ [nl]) (map (AsString false) l))) = Ok (map (fun p => to_py (no_comment p)) l).
Proof.
  intros l F. transitivity (load_paramnames (plist_text (map (fun p => to_py (no_comment p)) l))).
  - f_equal. unfold plist_text. rewrite !map_map. f_equal. apply map_ext_in. intros p I. rewrite Forall_forall in F. destruct (F p I) as (G & T & TL).
    f_equal. unfold AsString, pstring, to_py, no_comment. cbn [pname plabel pcomment pderived nm lab com der andb]. cbn [str_eqb negb].
    rewrite T, (trim_tight _ TL). destruct (str_eqb [] []) eqn:E; [| now rewrite str_eqb_same in E]. cbn [negb]. now rewrite ?app_nil_r.
  - rewrite paramnames_round_trip.
    + f_equal. rewrite map_map. reflexivity.
    + rewrite Forall_map. revert F. apply Forall_impl. intros p ((G1 & G2 & _) & _). split; [exact G1 |]. split; [exact G2 |].
      split; [reflexivity |]. split; intros [].
Qed.
(** FINDING: characters that end an item of list-directed input cut the name and become part of the label; the Python code takes any
    name without blanks. *)
Definition sep_std (c : ascii) : bool := white c || existsb (ch_eqb c) (L ",/;").
Theorem C105_comma_refuted :
  Init sep_std (map (pstring true) [mkP (L "a,b") (L "A") [] false []]) = Some [mkN (L "a") (L ",b") [] false] /\
  load_paramnames (plist_text [mkP (L "a,b") (L "A") [] false []]) = Ok [mkP (L "a,b") (L "A") [] false []].
Proof. split; vm_compute; reflexivity. Qed.
Definition ex_names : list pn := [mkN (L "omegabh2") (L "\Omega_b h^2") [] false; mkN (L "H0") (L "H_0") (L "km/s/Mpc") true].
Lemma ex_names_good : Forall (good_pn sep_std) ex_names.
Proof.
  repeat constructor; cbn; try discriminate; try lia; vm_compute; intuition discriminate.
Qed.
Example C105_ex : Forall (good_pn sep_std) ex_names /\ Forall (fun p => good_pn sep_std (of_py p)) (map to_py ex_names) /\
  Forall (fun p => good_param (to_py p) /\ trim (nm p) = nm p /\ tight (lab p)) ex_names /\
  map (AsString true) ex_names = [L "omegabh2" ++ tab :: L "\Omega_b h^2"; L "H0*" ++ tab :: L "H_0" ++ tab :: L "#km/s/Mpc"].
Proof.
  split; [exact ex_names_good |]. split; [apply Forall_map; exact ex_names_good |]. split; [| reflexivity].
  repeat constructor; cbn; try discriminate; vm_compute; intuition discriminate.
Qed.
Print Assumptions C105_fortran_partial.
Print Assumptions C105_from_python_partial.
Print Assumptions C105_to_python_partial.

(** ** C107: reading parameter numbers *)
(** Partial: up to 1024 plain words when their number is not given *)
Theorem C107_words_partial : forall sep l unknown no_derived ws vss s,
  sep blank = true -> sep tab = true -> NoDup (names_of l) -> (no_derived = true -> ordered l) ->
  Forall (good_word sep) ws -> Forall2 (means l unknown no_derived) ws vss -> spaced ws s -> length ws <= 1024 ->
  ReadIndices sep l s None unknown no_derived = Some (concat vss, match concat vss with [] => None | vs => Some (length vs) end).
Proof.
  intros sep l unknown nd ws vss s S1 S2 ND O F M S LE. unfold ReadIndices.
  rewrite (read_words sep l unknown nd S1 S2 ND O ws vss (trim s) unknown_num F M); [| apply spaced_trim; [now apply (good_nonblank sep) | exact S] | exact LE].
  rewrite Nat.eqb_refl. cbn [negb]. rewrite andb_false_r. now destruct (concat vss).
Qed.
(** With a given number of words *)
Theorem C107_number_partial : forall sep l unknown no_derived ws vss more s,
  sep blank = true -> sep tab = true -> NoDup (names_of l) -> (no_derived = true -> ordered l) ->
  Forall (good_word sep) (ws ++ more) -> Forall2 (means l unknown no_derived) ws vss -> spaced (ws ++ more) s -> length ws <> 1024 ->
  ReadIndices sep l s (Some (length ws)) unknown no_derived = Some (concat vss, Some (length ws)).
Proof.
  intros sep l unknown nd ws vss more s S1 S2 ND O F M S NE. unfold ReadIndices. destruct (length ws) as [| n] eqn:En.
  - destruct ws; [| discriminate]. inversion M. reflexivity.
  - rewrite <- En in *. pose proof (good_nonblank sep _ F) as FW. apply Forall_app in F. destruct F as [F _].
    rewrite (read_prefix sep l unknown nd S1 S2 ND O ws vss more (trim s) F M) by (now apply spaced_trim).
    cbn [andb]. destruct (Nat.eqb_spec (length ws) unknown_num) as [X | X]; [contradiction | reflexivity].
Qed.
(** Too few words stop the program *)
Theorem C107_few : forall sep l unknown no_derived ws vss s n,
  sep blank = true -> sep tab = true -> NoDup (names_of l) -> (no_derived = true -> ordered l) ->
  Forall (good_word sep) ws -> Forall2 (means l unknown no_derived) ws vss -> spaced ws s -> length ws < n -> n <> 1024 ->
  ReadIndices sep l s (Some n) unknown no_derived = None.
Proof.
  intros sep l unknown nd ws vss s n S1 S2 ND O F M Sp LT NE. unfold ReadIndices. destruct n as [| n]; [lia |].
  rewrite (read_words sep l unknown nd S1 S2 ND O ws vss (trim s) (S n) F M); [| apply spaced_trim; [now apply (good_nonblank sep) | exact Sp] | lia].
  destruct (Nat.eqb_spec (S n) (length ws)); [lia |]. destruct (Nat.eqb_spec (S n) unknown_num) as [X | X]; [contradiction |]. reflexivity.
Qed.
(** FINDING: SetFastSlowParams (BaseParameters.f90 318-319) asks for as many numbers as there are parameters, so a setting
    fast_parameters that names fewer of them stops the program *)
Theorem C107_fast_refuted : forall sep l ws vss s num_params,
  sep blank = true -> sep tab = true -> NoDup (names_of l) -> Forall (good_word sep) ws -> Forall2 (means l None false) ws vss -> spaced ws s ->
  length ws < num_params -> num_params <> 1024 -> ReadIndices sep l s (Some num_params) None false = None.
Proof. intros sep l ws vss s n S1 S2 ND F M Sp LT NE. apply (C107_few sep l None false ws vss s n S1 S2 ND); try assumption. discriminate. Qed.
Definition ex_l : list pn := [mkN (L "a") [] [] false; mkN (L "b") [] [] false; mkN (L "c") [] [] true].
(** An unknown name stops the program unless a value is given for it *)
Theorem C107_unknown : forall l no_derived w, ~ In w (names_of l) -> forallb digit w = false ->
  one_index l None no_derived w = Stop.
Proof.
  intros l nd w N D. unfold one_index. pose proof (index_first l w) as H. destruct (NamesModel.index l w) as [i |].
  - destruct H as (p & E & <-). exfalso. apply N. apply in_names. now apply nth_error_In in E.
  - now rewrite D.
Qed.
(** FINDING: numbers are not compared with the length of the list, also with no_derived *)
Theorem C107_range_refuted :
  ReadIndices sep_std ex_l (L "a 7") None None false = Some ([1; 7], Some 2) /\
  ReadIndices sep_std ex_l (L "a 3 0") None (Some (Some 0)) true = Some ([1; 3; 0], Some 3) /\ length ex_l < 7.
Proof. split; [vm_compute; reflexivity |]. split; [vm_compute; reflexivity | cbn; lia]. Qed.
(** FINDING: words beyond the number wanted are passed over without a message *)
Theorem C107_surplus_refuted :
  ReadIndices sep_std ex_l (L "a b nonsense") (Some 2) None false = Some ([1; 2], Some 2).
Proof. vm_compute. reflexivity. Qed.
(** FINDING: with unknown_value = -1 a name that is not known uses up one of the words wanted: the last element of params is not set *)
Theorem C107_skip_refuted :
  ReadIndices sep_std ex_l (L "nonsense a b") (Some 2) (Some None) false = Some ([1], Some 2).
Proof. vm_compute. reflexivity. Qed.
(** FINDING: when there is no word, a number of -1 stays -1 *)
Theorem C107_empty_refuted : forall sep l unknown no_derived, ReadIndices sep l [] None unknown no_derived = Some ([], None).
Proof. reflexivity. Qed.
Example C107_ex :
  Forall (good_word sep_std) [L "b"; L "d"; L "c"] /\ Forall2 (means ex_l (Some (Some 0)) true) [L "b"; L "d"; L "c"] [[2]; [0]; [0]] /\
  spaced [L "b"; L "d"; L "c"] (L "  b d" ++ tab :: L "c ") /\ ordered ex_l /\ NoDup (names_of ex_l) /\
  ReadIndices sep_std ex_l (L "  b d" ++ tab :: L "c ") None (Some (Some 0)) true = Some ([2; 0; 0], Some 3).
Proof.
  split; [repeat constructor; cbn; try discriminate; try lia; vm_compute; intuition discriminate |]. split.
  - constructor; [| constructor; [| constructor; [| constructor]]].
    + left. exists 1, (mkN (L "b") [] [] false). now repeat split.
    + right. split; [intros p [<- | [<- | [<- | []]]] E; discriminate |]. right. split; [reflexivity |]. right. now exists 0.
    + right. split.
      * intros p [<- | [<- | [<- | []]]] E; try discriminate. intro U. now specialize (U eq_refl).
      * right. split; [reflexivity |]. right. now exists 0.
  - split.
    + apply (spaced_word (L "  ") (L "b") (L " d" ++ tab :: L "c ")); [repeat constructor | reflexivity |].
      apply (spaced_word (L " ") (L "d") (tab :: L "c ")); [repeat constructor | reflexivity |].
      apply (spaced_word [tab] (L "c") (L " ")); [repeat constructor | reflexivity |]. constructor. repeat constructor.
    + split; [| split; [repeat constructor; cbn; intuition discriminate | vm_compute; reflexivity]].
      exists [mkN (L "a") [] [] false; mkN (L "b") [] [] false], [mkN (L "c") [] [] true]. split; [reflexivity |]. split; repeat constructor.
Qed.
Print Assumptions C107_words_partial.
Print Assumptions C107_number_partial.
Print Assumptions C107_few.
Print Assumptions C107_unknown.
