(** C57: layout of a saved ini file. *)
From Verif Require Import PyStr PyStrFacts IniModel IniSpec IniProofs.
From Coq Require Import Permutation.

(** first occurrences, in order *)
Fixpoint firsts (seen l : list str) : list str :=
  match l with
  | [] => []
  | x :: l' => if mem_str x seen then firsts seen l' else x :: firsts (x :: seen) l'
  end.
(** how a value is written: text as it is, booleans as T or F *)
Definition written (v : value) (t : str) : Prop :=
  match v with
  | VStr s => t = s
  | VBool b => t = [if b then "T"%char else "F"%char]
  | VObj s => t = s
  end.

Lemma mem_str_false x l : mem_str x l = false <-> ~ In x l.
Proof. rewrite <- mem_str_In. destruct (mem_str x l); split; congruence. Qed.
Lemma remove_first_In x l y : NoDup l -> (In y (remove_first x l) <-> In y l /\ y <> x).
Proof.
  induction l as [|z l IH]; intros N; cbn [remove_first]; [cbn; tauto|]. inversion N; subst.
  destruct (str_eqb_spec x z) as [->|Nz].
  - cbn. split; [intros H; split; [auto|]; intros ->; contradiction|]. intros [[->|H] C]; [congruence|auto].
  - cbn. rewrite IH by auto. split; [intros [->|[H C]]; auto|]. intros [[->|H] C]; auto.
Qed.
Lemma remove_first_NoDup x l : NoDup l -> NoDup (remove_first x l).
Proof.
  induction l as [|z l IH]; intros N; cbn [remove_first]; [auto|]. inversion N; subst.
  destruct (str_eqb_spec x z); [auto|]. constructor; [|auto]. rewrite remove_first_In by auto. tauto.
Qed.
Lemma remove_first_sorted x l : sorted_str l -> sorted_str (remove_first x l).
Proof.
  induction 1 as [|z l H S IH]; cbn [remove_first]; [constructor|]. destruct (str_eqb_spec x z); [exact S|].
  constructor; [|exact IH]. intros y Hy. apply H. clear - Hy.
  induction l as [|w l IH]; cbn in *; [exact Hy|]. destruct (str_eqb x w); cbn in *; [auto|]. destruct Hy; auto.
Qed.

Lemma ordered_lines_layout p order : forall keys seen, NoDup keys -> sorted_str keys ->
  (forall k, In k keys -> exists v, dget k p = Some v) -> (forall k, In k seen -> ~ In k keys) ->
  let (ls, rest) := ordered_lines p order keys in
  ls = flat_map (key_line p) (filter (fun k => mem_str k keys) (firsts seen order)) /\
  sorted_str rest /\ NoDup rest /\ (forall k, In k rest <-> In k keys /\ ~ In k order).
Proof.
  induction order as [|k order IH]; intros keys seen N S Hk Hs; cbn [ordered_lines firsts].
  - split; [auto|]. split; [auto|]. split; [auto|]. cbn. tauto.
  - destruct (mem_str k keys) eqn:M.
    + apply mem_str_In in M.
      specialize (IH (remove_first k keys) (k :: seen) (remove_first_NoDup k _ N) (remove_first_sorted k _ S)).
      destruct (ordered_lines p order (remove_first k keys)) as [ls rest].
      destruct IH as (IE & IS & IN & II).
      { intros k0 H0. apply remove_first_In in H0; [|exact N]. now apply Hk. }
      { intros k0 [<-|H0] C; apply remove_first_In in C; auto; [tauto|]. apply (Hs k0 H0), C. }
      assert (Ms : mem_str k seen = false) by (apply mem_str_false; intros C; exact (Hs k C M)).
      rewrite Ms. cbn [filter]. assert (Mk : mem_str k keys = true) by now apply mem_str_In. rewrite Mk. cbn [flat_map].
      destruct (Hk k M) as [v Hv]. rewrite Hv. unfold key_line at 1. rewrite Hv. cbn [app]. split; [|split; [exact IS|split; [exact IN|]]].
      * f_equal. rewrite IE. f_equal.
        assert (F : forall l, (forall y, In y l -> y <> k) -> filter (fun k0 => mem_str k0 (remove_first k keys)) l = filter (fun k0 => mem_str k0 keys) l).
        { intros l Hl. apply filter_ext_in. intros y Hy. apply eq_true_iff_eq. rewrite !mem_str_In, remove_first_In by exact N.
          specialize (Hl y Hy). tauto. }
        apply F. clear. intros y Hy ->. revert Hy.
        assert (G : forall l s, In k s -> ~ In k (firsts s l)).
        { induction l as [|z l IH]; intros s Hs; cbn [firsts]; [auto|]. destruct (mem_str z s) eqn:E; [auto|].
          intros [->|C]; [apply mem_str_false in E; contradiction|]. revert C. apply IH. now right. }
        apply G. now left.
      * intros k0. rewrite II, remove_first_In by exact N. cbn. split.
        -- intros [[A B] C]. split; [exact A|]. intros [D|D]; [now apply B|contradiction].
        -- intros [A B]. split; [split; [exact A|]|]; intros C; apply B; auto.
    + apply mem_str_false in M. destruct (mem_str k seen) eqn:Ms.
      * specialize (IH keys seen N S Hk Hs). destruct (ordered_lines p order keys) as [ls rest].
        destruct IH as (IE & IS & IN & II). split; [auto|]. split; [auto|]. split; [auto|]. intros k0. rewrite II. cbn.
        split; [|tauto]. intros [A B]. split; [exact A|]. intros [->|C]; tauto.
      * specialize (IH keys (k :: seen) N S Hk). destruct (ordered_lines p order keys) as [ls rest].
        destruct IH as (IE & IS & IN & II). { intros k0 [<-|H0]; auto. }
        cbn [filter]. assert (Mk : mem_str k keys = false) by now apply mem_str_false. rewrite Mk. split; [auto|]. split; [auto|]. split; [auto|]. intros k0. rewrite II. cbn.
        split; [|tauto]. intros [A B]. split; [exact A|]. intros [->|C]; tauto.
Qed.

Lemma key_lines_written p ks : (forall k, In k ks -> exists v, dget k p = Some v) ->
  Forall2 (fun k l => exists v t, dget k p = Some v /\ written v t /\ l = k ++ "="%char :: t) ks (flat_map (key_line p) ks).
Proof.
  induction ks as [|k ks IH]; intros H; cbn [flat_map]; [constructor|]. destruct (H k) as [v Hv]; [now left|].
  unfold key_line at 1. rewrite Hv. cbn [app]. constructor.
  - exists v, (asIniText v). split; [exact Hv|]. split; [|reflexivity]. destruct v as [s|[|]|s]; reflexivity.
  - apply IH. intros k0 H0. apply H. now right.
Qed.

Lemma layout i : NoDup (dkeys (params i)) -> exists rest ls,
  fileLines i = map (fun f => L "INCLUDE(" ++ f ++ L ")") (includes i) ++ map (fun f => L "DEFAULT(" ++ f ++ L ")") (defaults i) ++ ls /\
  sorted_str rest /\ NoDup rest /\ (forall k, In k rest <-> In k (dkeys (params i)) /\ ~ In k (readOrder i)) /\
  Forall2 (fun k l => exists v t, dget k (params i) = Some v /\ written v t /\ l = k ++ "="%char :: t)
    (filter (fun k => dhas k (params i)) (firsts [] (readOrder i)) ++ rest) ls.
Proof.
  intros N. unfold fileLines.
  pose proof (ordered_lines_layout (params i) (readOrder i) (sort_str (dkeys (params i))) []) as H.
  assert (I : forall k, In k (sort_str (dkeys (params i))) <-> In k (dkeys (params i))).
  { intros k. split; apply Permutation_in; [apply sort_perm|apply Permutation_sym, sort_perm]. }
  assert (HH : forall k, In k (dkeys (params i)) -> exists v, dget k (params i) = Some v).
  { intros k Hk. destruct (dget k (params i)) eqn:E; [eauto|]. apply dget_None in E; contradiction. }
  specialize (H (Permutation_NoDup (Permutation_sym (sort_perm _)) N) (sort_sorted _)).
  assert (X1 : forall k, In k (sort_str (dkeys (params i))) -> exists v, dget k (params i) = Some v) by (intros k Hk; apply HH, I, Hk).
  specialize (H X1 (fun k C => match C with end)).
  destruct (ordered_lines _ _ _) as [ls rest]. destruct H as (E & S & Nr & R).
  exists rest, (ls ++ flat_map (key_line (params i)) rest). split; [reflexivity|]. split; [exact S|]. split; [exact Nr|]. split.
  - intros k. rewrite R, I. reflexivity.
  - apply Forall2_app.
    + rewrite E. assert (F : filter (fun k => mem_str k (sort_str (dkeys (params i)))) (firsts [] (readOrder i)) = filter (fun k => dhas k (params i)) (firsts [] (readOrder i))).
      { apply filter_ext. intros k. apply eq_true_iff_eq. rewrite mem_str_In, I. now rewrite dhas_In. }
      rewrite F. apply key_lines_written. intros k Hk. apply filter_In in Hk. apply HH. now apply dhas_In.
    + apply key_lines_written. intros k Hk. apply X1. apply R, Hk.
Qed.
Lemma first_keys_firsts es : forall seen, first_keys seen es = firsts seen (map e_key es).
Proof. induction es as [|e es IH]; intros seen; cbn; [auto|]. destruct (mem_str (e_key e) seen); now rewrite IH. Qed.
Lemma read_order_of_load fuel fs env f expand st es :
  loadIni fuel fs env f false expand = Ok st -> visits fs false f es -> readOrder st = firsts [] (map e_key es).
Proof.
  unfold loadIni; intros H V. pose proof (proj1 (readFile_visits_ok fs env) _ _ _ V _ _ _ H) as A.
  unfold core_of in A at 1 2. cbn [params readOrder expand_env empty_ini] in A.
  destruct (apply_entries_order _ _ _ _ _ _ _ _ A) as (-> & _). cbn. apply first_keys_firsts.
Qed.
