(** Proofs about the ini-file model. *)
From Verif Require Import PyStr PyStrFacts IniModel IniSpec.
From Coq Require Import Permutation.

(** ** expansion of placeholders *)

Lemma contains_nil_false sub : sub <> [] -> contains sub [] = false.
Proof. destruct sub; simpl; congruence. Qed.

Lemma skipn_app_exact {A} (a b : list A) : skipn (length a) (a ++ b) = b.
Proof. induction a; simpl; auto. Qed.
Lemma firstn_app_exact {A} (a b : list A) : firstn (length a) (a ++ b) = a.
Proof. induction a as [|x a IH]; simpl; [now destruct b|]. now rewrite IH. Qed.
Lemma nth_error_app_exact {A} (a : list A) x b : nth_error (a ++ x :: b) (length a) = Some x.
Proof. induction a; simpl; auto. Qed.
Lemma nth_error_app_exact1 {A} (a : list A) x y b : nth_error (a ++ x :: y :: b) (length a + 1) = Some y.
Proof. induction a; simpl; auto. Qed.

(** the loop, started at the end of an already consumed prefix [pre] *)
Lemma expand_loop_toks env toks : Forall tok_ok toks -> forall fuel pre acc,
  length (concat (map tok_text toks)) < fuel ->
  expand_loop fuel env (pre ++ concat (map tok_text toks)) (length pre) acc
  = Ok (acc ++ concat (map (tok_value env) toks)).
Proof.
  induction 1 as [|t toks Ht Hts IH]; intros fuel pre acc Hf; simpl.
  - rewrite !app_nil_r. destruct fuel as [|fuel]; [simpl in Hf; lia|]. simpl.
    now rewrite Nat.ltb_irrefl.
  - destruct fuel as [|fuel]; [simpl in Hf; lia|].
    simpl in Hf. rewrite app_length in Hf.
    set (rest := concat (map tok_text toks)) in *.
    destruct t as [c| |n]; cbn [tok_text tok_value] in *.
    + cbn [expand_loop app].
      assert (length pre <? length (pre ++ c :: rest) = true) as ->
        by (apply Nat.ltb_lt; rewrite app_length; simpl; lia).
      rewrite nth_error_app_exact.
      assert (ch_eqb c dollar = false) as -> by (apply ch_eqb_neq; exact Ht).
      replace (pre ++ c :: rest) with ((pre ++ [c]) ++ rest) by (now rewrite <- app_assoc).
      replace (length pre + 1) with (length (pre ++ [c])) by (now rewrite app_length).
      rewrite IH by (simpl in Hf; lia). now rewrite <- app_assoc.
    + change (L "$$") with [dollar; dollar] in *. change (L "$") with [dollar].
      cbn [expand_loop app].
      assert (length pre <? length (pre ++ dollar :: dollar :: rest) = true) as ->
        by (apply Nat.ltb_lt; rewrite app_length; simpl; lia).
      rewrite nth_error_app_exact, nth_error_app_exact1, ch_eqb_refl.
      replace (pre ++ dollar :: dollar :: rest) with ((pre ++ [dollar; dollar]) ++ rest)
        by (now rewrite <- app_assoc).
      replace (length pre + 1 + 1) with (length (pre ++ [dollar; dollar])) by (rewrite app_length; simpl; lia).
      rewrite IH by (simpl in Hf; lia). now rewrite <- app_assoc.
    + change (L "$(") with [dollar; lpar] in *. change (L ")") with [rpar] in *.
      replace (pre ++ ([dollar; lpar] ++ n ++ [rpar]) ++ rest)
        with (pre ++ dollar :: lpar :: (n ++ rpar :: rest))
        by (simpl; now rewrite <- app_assoc).
      cbn [expand_loop].
      assert (length pre <? length (pre ++ dollar :: lpar :: (n ++ rpar :: rest)) = true) as ->
        by (apply Nat.ltb_lt; rewrite app_length; simpl; lia).
      rewrite nth_error_app_exact, nth_error_app_exact1, ch_eqb_refl.
      change (ch_eqb lpar dollar) with false. cbv iota. rewrite ch_eqb_refl.
      assert (skipn (length pre + 2) (pre ++ dollar :: lpar :: (n ++ rpar :: rest)) = n ++ rpar :: rest) as ->.
      { replace (pre ++ dollar :: lpar :: (n ++ rpar :: rest)) with ((pre ++ [dollar; lpar]) ++ (n ++ rpar :: rest))
          by (now rewrite <- app_assoc).
        replace (length pre + 2) with (length (pre ++ [dollar; lpar])) by (now rewrite app_length).
        apply skipn_app_exact. }
      rewrite find_ch_app_notin by exact Ht.
      rewrite firstn_app_exact.
      replace (n ++ rpar :: rest) with ((n ++ [rpar]) ++ rest) by (now rewrite <- app_assoc).
      replace (length n + 1) with (length (n ++ [rpar])) by (now rewrite app_length).
      rewrite IH by (simpl in Hf; lia).
      destruct (env n); [now rewrite <- app_assoc | reflexivity].
Qed.

Lemma expand_toks env toks : Forall tok_ok toks ->
  contains (L "$(") (concat (map tok_text toks)) = true ->
  expand_placeholders env (concat (map tok_text toks)) = Ok (concat (map (tok_value env) toks)).
Proof.
  intros H C. unfold expand_placeholders. change [dollar; lpar] with (L "$("). rewrite C.
  pose proof (expand_loop_toks env toks H (S (length (concat (map tok_text toks)))) [] []) as E.
  simpl app in E. simpl length in E. rewrite E; [reflexivity | lia].
Qed.

Lemma expand_plain env s : contains (L "$(") s = false -> expand_placeholders env s = Ok s.
Proof. intros C. unfold expand_placeholders. change [dollar; lpar] with (L "$("). now rewrite C. Qed.

(** the fuel given by expand_placeholders is always enough *)
Lemma expand_loop_fuel env fuel : forall s index acc, length s - index < fuel ->
  expand_loop fuel env s index acc <> Err ERecursion.
Proof.
  induction fuel as [|fuel IH]; intros s index acc H; [lia|]. cbn [expand_loop].
  destruct (Nat.ltb_spec index (length s)) as [Hlt|Hge]; [|discriminate].
  destruct (nth_error s index) as [c|]; [|discriminate].
  destruct (ch_eqb c dollar).
  - destruct (nth_error s (index + 1)) as [c1|]; [|discriminate].
    destruct (ch_eqb c1 dollar); [apply IH; lia|].
    destruct (ch_eqb c1 lpar); [|apply IH; lia].
    destruct (find_ch rpar (skipn (index + 2) s)) as [i2|]; [|discriminate].
    apply IH. rewrite skipn_length. lia.
  - apply IH; lia.
Qed.
Lemma expand_no_recursion env s : expand_placeholders env s <> Err ERecursion.
Proof.
  unfold expand_placeholders. destruct (contains _ s); [|discriminate].
  apply expand_loop_fuel. lia.
Qed.
(** errors of expansion are only index / value errors *)
Lemma expand_loop_err env fuel : forall s index acc e, expand_loop fuel env s index acc = Err e ->
  e = ERecursion \/ e = EIndex \/ e = EValue.
Proof.
  induction fuel as [|fuel IH]; intros s index acc e; cbn [expand_loop]; [intros [= <-]; auto|].
  destruct (index <? length s); [|discriminate].
  destruct (nth_error s index) as [c|]; [|intros [= <-]; auto].
  destruct (ch_eqb c dollar); [|apply IH].
  destruct (nth_error s (index + 1)) as [c1|]; [|intros [= <-]; auto].
  destruct (ch_eqb c1 dollar); [apply IH|].
  destruct (ch_eqb c1 lpar); [|apply IH].
  destruct (find_ch rpar (skipn (index + 2) s)) as [i2|]; [apply IH|intros [= <-]; auto].
Qed.

(** ** reading a tree of files *)

Definition core := (dict value * list str * bool)%type.
Definition core_of (i : ini) : core := (params i, readOrder i, expand_env i).

Definition apply_entry (env : str -> option str) (e : entry) (c : core) : res core :=
  let '(p, o, x) := c in
  if dhas (e_key e) p then if e_prot e then Ok c else Err (EDup (e_key e))
  else bindR (if x then expand_placeholders env (e_raw e) else Ok (e_raw e))
         (fun v => Ok (dset (e_key e) (VStr v) p, o ++ [e_key e], x)).

Fixpoint apply_entries env (es : list entry) (c : core) : res core :=
  match es with [] => Ok c | e :: es' => bindR (apply_entry env e c) (apply_entries env es') end.

Lemma apply_entries_app env e1 e2 c :
  apply_entries env (e1 ++ e2) c = bindR (apply_entries env e1 c) (apply_entries env e2).
Proof.
  revert c; induction e1 as [|e e1 IH]; intros c; simpl; [reflexivity|].
  destruct (apply_entry env e c); simpl; auto.
Qed.

Definition mapR {A B} (f : A -> B) (x : res A) : res B := match x with Ok a => Ok (f a) | Err e => Err e end.

Definition tagged (prot : bool) (l : list (str * str)) : list entry :=
  map (fun kv => (prot, fst kv, snd kv)) l.

Lemma read_line_spec env prot line st : strip line <> L "END" ->
  read_line env prot line st =
  match item_of line with
  | IComment t => Ok (Some (mkR (r_ini st) (r_inc st) (r_def st) (r_com st ++ [t])))
  | IInclude f => Ok (Some (mkR (r_ini st) (r_inc st ++ [f]) (r_def st) []))
  | IDefault f => Ok (Some (mkR (r_ini st) (r_inc st) (r_def st ++ [f]) []))
  | INone => Ok (Some (mkR (r_ini st) (r_inc st) (r_def st) []))
  | IDef k v =>
      if dhas k (params (r_ini st)) then
        if prot then Ok (Some st) else Err (EDup k)
      else bindR (if expand_env (r_ini st) then expand_placeholders env v else Ok v)
             (fun v' => Ok (Some (mkR (set_param (r_ini st) k (VStr v') (r_com st)) (r_inc st) (r_def st) [])))
  end.
Proof.
  intros NE. unfold read_line, item_of. cbv zeta.
  apply str_eqb_neq in NE. rewrite NE.
  change (L "#") with [hash]. change "="%char with equals.
  destruct (startswith [hash] (strip line)); [reflexivity|].
  destruct (startswith (L "INCLUDE(") (strip line)); [reflexivity|].
  destruct (startswith (L "DEFAULT(") (strip line)); [reflexivity|].
  destruct (find_ch equals (strip line)); reflexivity.
Qed.

Lemma read_lines_spec env prot ls : forall st,
  mapR (fun s => (core_of (r_ini s), r_inc s, r_def s)) (read_lines env prot ls st) =
  let its := map item_of (before_end ls) in
  mapR (fun c => (c, r_inc st ++ includes_of its, r_def st ++ defaults_of its))
       (apply_entries env (tagged prot (defs_of its)) (core_of (r_ini st))).
Proof.
  induction ls as [|l ls IH]; intros st; cbn [read_lines before_end].
  - simpl. now rewrite !app_nil_r.
  - destruct (str_eqb_spec (strip l) (L "END")) as [E|NE].
    + unfold read_line. rewrite E. simpl. now rewrite !app_nil_r.
    + rewrite read_line_spec by exact NE. cbn [map]. 
      destruct (item_of l) as [t|f|f|k v|] eqn:Hi.
      * rewrite IH. reflexivity.
      * rewrite IH. cbn. now rewrite <- app_assoc.
      * rewrite IH. cbn. now rewrite <- app_assoc.
      * cbn [defs_of flat_map app tagged map apply_entries apply_entry core_of e_key e_raw e_prot fst snd].
        change (flat_map _ (map item_of (before_end ls))) with (defs_of (map item_of (before_end ls))).
        change (map _ (defs_of ?x)) with (tagged prot (defs_of x)).
        destruct (dhas k (params (r_ini st))) eqn:Hk.
        -- destruct prot; [|reflexivity]. rewrite IH. cbn. reflexivity.
        -- destruct (if expand_env (r_ini st) then expand_placeholders env v else Ok v) as [v'|e]; cbn [bindR];
             [|reflexivity].
           rewrite IH. cbn [r_ini r_inc r_def]. reflexivity.
      * rewrite IH. reflexivity.
Qed.

Lemma core_with_orig i f : core_of (with_orig i f) = core_of i.
Proof. reflexivity. Qed.

Lemma fold_err {A} (g : A -> ini -> res ini) l e :
  fold_left (fun acc x => bindR acc (g x)) l (Err e) = Err e.
Proof. induction l; simpl; auto. Qed.

Scheme visits_ind2 := Minimality for visits Sort Prop
  with visits_all_ind2 := Minimality for visits_all Sort Prop.
Combined Scheme visits_mut from visits_ind2, visits_all_ind2.

Definition read_all fuel fs env prot (fl : list str) (acc : res ini) : res ini :=
  fold_left (fun acc f => bindR acc (readFile fuel fs env f false prot)) fl acc.

Lemma read_all_map fuel fs env prot f fl acc :
  fold_left (fun acc ffile => bindR acc (readFile fuel fs env (resolve f ffile) false prot)) fl acc
  = read_all fuel fs env prot (map (resolve f) fl) acc.
Proof. unfold read_all. revert acc; induction fl; intros acc; simpl; auto. Qed.

Lemma readFile_unfold fuel fs env f prot self text : fs f = Some text ->
  readFile (S fuel) fs env f false prot self =
  bindR (read_lines env prot (text_lines text) (mkR (with_orig self f) [] [] []))
   (fun st => bindR (read_all fuel fs env prot (map (resolve f) (r_inc st)) (Ok (r_ini st)))
                    (fun i1 => read_all fuel fs env true (map (resolve f) (r_def st)) (Ok i1))).
Proof.
  intros Hf. cbn [readFile]. rewrite Hf.
  destruct (read_lines _ _ _ _) as [st|e]; cbn [bindR]; [|reflexivity].
  rewrite read_all_map. destruct (read_all _ _ _ _ _ _); cbn [bindR]; [|reflexivity].
  now rewrite read_all_map.
Qed.

(** deep enough recursion: reading is the fold of the visited entries *)
Lemma readFile_visits fs env :
  (forall prot f es, visits fs prot f es -> exists n, forall fuel self, n <= fuel ->
     mapR core_of (readFile fuel fs env f false prot self) = apply_entries env es (core_of self)) /\
  (forall prot fl es, visits_all fs prot fl es -> exists n, forall fuel self, n <= fuel ->
     mapR core_of (read_all fuel fs env prot fl (Ok self)) = apply_entries env es (core_of self)).
Proof.
  apply visits_mut.
  - intros prot f text e1 e2 Hf _ (n1 & H1) _ (n2 & H2).
    exists (S (max n1 n2)). intros fuel self Hfuel. destruct fuel as [|fuel]; [lia|].
    rewrite (readFile_unfold _ _ _ _ _ _ _ Hf).
    pose proof (read_lines_spec env prot (text_lines text) (mkR (with_orig self f) [] [] [])) as RL.
    cbv zeta in RL. fold (items text) in RL. cbn [r_ini r_inc r_def app] in RL.
    rewrite core_with_orig in RL.
    rewrite apply_entries_app. fold (tagged prot (defs_of (items text))).
    destruct (read_lines env prot (text_lines text) _) as [st|e]; cbn [mapR bindR] in RL |- *;
      destruct (apply_entries env (tagged prot (defs_of (items text))) (core_of self)) as [c|e'];
      cbn [mapR] in RL; try discriminate; [|injection RL as ->; reflexivity].
    injection RL as E1 E2 E3. subst c. cbn [bindR]. rewrite apply_entries_app, E2, E3.
    rewrite <- (H1 fuel (r_ini st)) by lia.
    destruct (read_all fuel fs env prot _ (Ok (r_ini st))) as [i1|e]; cbn [mapR bindR]; [|reflexivity].
    rewrite <- (H2 fuel i1) by lia. reflexivity.
  - intros prot. exists 0. intros; reflexivity.
  - intros prot f fl e1 e2 _ (n1 & H1) _ (n2 & H2).
    exists (max n1 n2). intros fuel self Hfuel.
    unfold read_all. cbn [fold_left bindR].
    rewrite apply_entries_app, <- (H1 fuel self) by lia.
    destruct (readFile fuel fs env f false prot self) as [i1|e]; cbn [mapR bindR].
    + rewrite <- (H2 fuel i1) by lia. reflexivity.
    + now rewrite fold_err.
Qed.

(** a successful read is the fold of the visited entries, at any depth *)
Lemma readFile_visits_ok fs env :
  (forall prot f es, visits fs prot f es -> forall fuel self st,
     readFile fuel fs env f false prot self = Ok st -> apply_entries env es (core_of self) = Ok (core_of st)) /\
  (forall prot fl es, visits_all fs prot fl es -> forall fuel self st,
     read_all fuel fs env prot fl (Ok self) = Ok st -> apply_entries env es (core_of self) = Ok (core_of st)).
Proof.
  apply visits_mut.
  - intros prot f text e1 e2 Hf _ H1 _ H2 fuel self st Hr.
    destruct fuel as [|fuel]; [discriminate|].
    rewrite (readFile_unfold _ _ _ _ _ _ _ Hf) in Hr.
    pose proof (read_lines_spec env prot (text_lines text) (mkR (with_orig self f) [] [] [])) as RL.
    cbv zeta in RL. fold (items text) in RL. cbn [r_ini r_inc r_def app] in RL.
    rewrite core_with_orig in RL.
    destruct (read_lines env prot (text_lines text) _) as [st0|e]; [|discriminate].
    cbn [mapR bindR] in RL, Hr.
    rewrite apply_entries_app. fold (tagged prot (defs_of (items text))).
    destruct (apply_entries env (tagged prot (defs_of (items text))) (core_of self)) as [c|e'];
      [|discriminate]. cbn [mapR] in RL. injection RL as E1 E2 E3. subst c. cbn [bindR].
    rewrite E2, E3 in Hr. rewrite apply_entries_app.
    destruct (read_all fuel fs env prot _ (Ok (r_ini st0))) as [i1|] eqn:R1; [|discriminate].
    cbn [bindR] in Hr. rewrite (H1 _ _ _ R1). cbn [bindR]. eauto.
  - intros prot fuel self st [= <-]. reflexivity.
  - intros prot f fl e1 e2 _ H1 _ H2 fuel self st Hr.
    unfold read_all in Hr. cbn [fold_left bindR] in Hr.
    destruct (readFile fuel fs env f false prot self) as [i1|e] eqn:R1.
    + rewrite apply_entries_app, (H1 _ _ _ R1). cbn [bindR]. eapply H2. exact Hr.
    + rewrite fold_err in Hr. discriminate.
Qed.

(** a successful read visits a finite document *)
Lemma readFile_ok_visits fs env fuel : forall prot f self st,
  readFile fuel fs env f false prot self = Ok st -> exists es, visits fs prot f es.
Proof.
  induction fuel as [|fuel IH]; intros prot f self st Hr; [discriminate|].
  destruct (fs f) as [text|] eqn:Hf; [|cbn [readFile] in Hr; rewrite Hf in Hr; discriminate].
  rewrite (readFile_unfold _ _ _ _ _ _ _ Hf) in Hr.
  pose proof (read_lines_spec env prot (text_lines text) (mkR (with_orig self f) [] [] [])) as RL.
  cbv zeta in RL. fold (items text) in RL. cbn [r_ini r_inc r_def app] in RL.
  destruct (read_lines env prot (text_lines text) _) as [st0|e]; [|discriminate].
  cbn [mapR bindR] in RL, Hr.
  destruct (apply_entries env _ _) as [c|e']; [|discriminate].
  cbn [mapR] in RL. injection RL as E1 E2 E3. rewrite E2, E3 in Hr.
  assert (A : forall p fl i i', read_all fuel fs env p fl (Ok i) = Ok i' -> exists es, visits_all fs p fl es).
  { intros p fl; induction fl as [|g fl IHl]; intros i i' HH; [exists []; constructor|].
    unfold read_all in HH. cbn [fold_left bindR] in HH.
    destruct (readFile fuel fs env g false p i) as [i1|e] eqn:R1; [|rewrite fold_err in HH; discriminate].
    destruct (IH _ _ _ _ R1) as (es1 & V1). destruct (IHl _ _ HH) as (es2 & V2).
    exists (es1 ++ es2). now constructor. }
  destruct (read_all fuel fs env prot _ (Ok (r_ini st0))) as [i1|] eqn:R1; [|discriminate].
  cbn [bindR] in Hr.
  destruct (A _ _ _ _ R1) as (e1 & V1). destruct (A _ _ _ _ Hr) as (e2 & V2).
  eexists. econstructor; eauto.
Qed.

(** ** consequences for the folded dictionary *)

Fixpoint first_keys (seen : list str) (es : list entry) : list str :=
  match es with
  | [] => []
  | e :: es' => if mem_str (e_key e) seen then first_keys seen es'
                else e_key e :: first_keys (e_key e :: seen) es'
  end.

Lemma apply_entries_get env es : forall p o x p' o' x',
  apply_entries env es (p, o, x) = Ok (p', o', x') ->
  x' = x /\
  forall k, match dget k p with
            | Some v => dget k p' = Some v
            | None => match first_def k es with
                      | None => dget k p' = None
                      | Some raw => exists v, dget k p' = Some (VStr v) /\ stored env x raw v
                      end
            end.
Proof.
  induction es as [|e es IH]; intros p o x p' o' x'.
  - intros [= <- <- <-]. split; [reflexivity|]. intros k. simpl. destruct (dget k p); reflexivity.
  - cbn [apply_entries apply_entry]. unfold dhas.
    destruct (dget (e_key e) p) as [v0|] eqn:G.
    + destruct (e_prot e); cbn [bindR]; [|discriminate]. intros H.
      destruct (IH _ _ _ _ _ _ H) as (-> & Hk). split; [reflexivity|]. intros k. specialize (Hk k).
      cbn [first_def]. destruct (str_eqb_spec k (e_key e)) as [->|N]; [rewrite G in *; exact Hk | exact Hk].
    + destruct (if x then expand_placeholders env (e_raw e) else Ok (e_raw e)) as [v|er] eqn:Ev;
        cbn [bindR]; [|discriminate]. intros H.
      destruct (IH _ _ _ _ _ _ H) as (-> & Hk). split; [reflexivity|]. intros k. specialize (Hk k).
      rewrite dget_dset in Hk. cbn [first_def].
      destruct (str_eqb_spec k (e_key e)) as [Ek|N]; [|exact Hk].
      rewrite Ek in *. rewrite G. exists v. split; [exact Hk|]. unfold stored. destruct x; [exact Ev|]. now injection Ev.
Qed.

Lemma apply_entries_order env es : forall p o x p' o' x',
  apply_entries env es (p, o, x) = Ok (p', o', x') ->
  o' = o ++ first_keys (dkeys p) es /\ dkeys p' = dkeys p ++ first_keys (dkeys p) es.
Proof.
  induction es as [|e es IH]; intros p o x p' o' x'.
  - intros [= <- <- <-]. simpl. now rewrite !app_nil_r.
  - cbn [apply_entries apply_entry first_keys].
    assert (FK : forall s1 s2 l, (forall k, In k s1 <-> In k s2) -> first_keys s1 l = first_keys s2 l).
    { intros s1 s2 l; revert s1 s2; induction l as [|a l IHl]; intros s1 s2 Hs; [reflexivity|]. cbn [first_keys].
      assert (mem_str (e_key a) s1 = mem_str (e_key a) s2) as ->.
      { destruct (mem_str (e_key a) s2) eqn:E2.
        - apply mem_str_In, Hs, mem_str_In, E2.
        - apply mem_str_false. apply mem_str_false in E2. now rewrite Hs. }
      destruct (mem_str (e_key a) s2); [now apply IHl|]. f_equal. apply IHl.
      intros k; simpl; now rewrite Hs. }
    destruct (dhas (e_key e) p) eqn:G.
    + destruct (e_prot e); cbn [bindR]; [|discriminate]. intros H.
      apply dhas_In in G. apply mem_str_In in G. rewrite G. eapply IH; exact H.
    + destruct (if x then expand_placeholders env (e_raw e) else Ok (e_raw e)) as [v|er];
        cbn [bindR]; [|discriminate]. intros H.
      apply dhas_false in G. rewrite (proj2 (mem_str_false _ _)) by exact G.
      destruct (IH _ _ _ _ _ _ H) as (-> & ->).
      rewrite dset_new by exact G. unfold dkeys at 3. rewrite map_app. cbn [map fst].
      rewrite <- !app_assoc. cbn [app].
      rewrite (FK (dkeys (p ++ [(e_key e, VStr v)])) (e_key e :: dkeys p)).
      * split; reflexivity.
      * intros k. unfold dkeys. rewrite map_app, in_app_iff. simpl. tauto.
Qed.

(** dictionary of the first [n] definitions, for error analysis *)
Lemma apply_entries_dup env es : forall p o x,
  (forall e, In e es -> exists v, stored env x (e_raw e) v) ->
  (exists l1 k raw l2, es = l1 ++ (false, k, raw) :: l2 /\ (In k (map e_key l1) \/ In k (dkeys p))) ->
  exists k, apply_entries env es (p, o, x) = Err (EDup k).
Proof.
  induction es as [|e es IH]; intros p o x Hx (l1 & k & raw & l2 & E & Hk).
  - destruct l1; discriminate.
  - cbn [apply_entries apply_entry].
    assert (Hx' : forall e0, In e0 es -> exists v, stored env x (e_raw e0) v) by (intros; apply Hx; now right).
    destruct l1 as [|a l1].
    + simpl in E. injection E as -> ->. simpl in Hk. destruct Hk as [[]|Hk].
      change (e_key (false, k, raw)) with k. change (e_prot (false, k, raw)) with false.
      apply dhas_In in Hk. rewrite Hk. cbn [bindR]. eauto.
    + simpl in E. injection E as -> ->.
      destruct (dhas (e_key a) p) eqn:G.
      * destruct (e_prot a); cbn [bindR]; [|eauto].
        apply IH; [exact Hx'|]. exists l1, k, raw, l2. split; [reflexivity|].
        destruct Hk as [[<-|Hk]|Hk]; [right; now apply dhas_In | now left | now right].
      * destruct (Hx a (or_introl eq_refl)) as (v & Sv).
        assert ((if x then expand_placeholders env (e_raw a) else Ok (e_raw a)) = Ok v) as ->.
        { unfold stored in Sv. destruct x; [exact Sv | now subst]. }
        cbn [bindR]. apply IH; [exact Hx'|]. exists l1, k, raw, l2. split; [reflexivity|].
        rewrite dkeys_dset_In.
        destruct Hk as [[<-|Hk]|Hk]; [right; now left | now left | right; now right].
Qed.

Lemma apply_entries_nodup env es : forall p o x,
  (forall e, In e es -> exists v, stored env x (e_raw e) v) ->
  (forall l1 k raw l2, es = l1 ++ (false, k, raw) :: l2 -> ~ In k (map e_key l1) /\ ~ In k (dkeys p)) ->
  exists c, apply_entries env es (p, o, x) = Ok c.
Proof.
  induction es as [|e es IH]; intros p o x Hx Hn; [simpl; eauto|].
  cbn [apply_entries apply_entry].
  assert (Hx' : forall e0, In e0 es -> exists v, stored env x (e_raw e0) v) by (intros; apply Hx; now right).
  destruct (dhas (e_key e) p) eqn:G.
  - destruct e as [[[] k] raw]; cbn [e_prot e_key e_raw fst snd] in *; cbn [bindR].
    + apply IH; [exact Hx'|]. intros l1 k1 raw1 l2 E.
      destruct (Hn ((true, k, raw) :: l1) k1 raw1 l2 ltac:(simpl; now rewrite E)) as [H1 H2].
      simpl in H1. tauto.
    + destruct (Hn [] k raw es eq_refl) as [_ H]. apply dhas_In in G. contradiction.
  - destruct (Hx e (or_introl eq_refl)) as (v & Sv).
    assert ((if x then expand_placeholders env (e_raw e) else Ok (e_raw e)) = Ok v) as ->.
    { unfold stored in Sv. destruct x; [exact Sv | now subst]. }
    cbn [bindR]. apply IH; [exact Hx'|]. intros l1 k1 raw1 l2 E.
    destruct (Hn (e :: l1) k1 raw1 l2 ltac:(simpl; now rewrite E)) as [H1 H2].
    simpl in H1. rewrite dkeys_dset_In. split; [tauto|]. intros [->|H]; [|tauto].
    apply H1; now left.
Qed.

Lemma precedence fuel fs env f expand st :
  loadIni fuel fs env f false expand = Ok st ->
  (exists es, visits fs false f es) /\
  forall es, visits fs false f es ->
    (forall k, match first_def k es with
               | None => dget k (params st) = None
               | Some raw => exists v, dget k (params st) = Some (VStr v) /\ stored env expand raw v
               end) /\
    readOrder st = dkeys (params st).
Proof.
  unfold loadIni; intros H. split; [eapply readFile_ok_visits; exact H|].
  intros es V. pose proof (proj1 (readFile_visits_ok fs env) _ _ _ V _ _ _ H) as A.
  unfold core_of in A at 1 2. cbn [params readOrder expand_env empty_ini] in A.
  destruct (apply_entries_get _ _ _ _ _ _ _ _ A) as (_ & G). split.
  - intros k. specialize (G k). exact G.
  - destruct (apply_entries_order _ _ _ _ _ _ _ _ A) as (-> & ->). reflexivity.
Qed.

Lemma duplicates fs env f expand es :
  visits fs false f es ->
  (forall e, In e es -> exists v, stored env expand (e_raw e) v) ->
  exists n, forall fuel, n <= fuel ->
    (unprotected_dup es -> exists k, loadIni fuel fs env f false expand = Err (EDup k)) /\
    (~ unprotected_dup es -> exists st, loadIni fuel fs env f false expand = Ok st).
Proof.
  intros V Hx. destruct (proj1 (readFile_visits fs env) _ _ _ V) as (n & Hn).
  exists n. intros fuel Hf. specialize (Hn fuel (empty_ini expand) Hf).
  unfold loadIni. unfold core_of in Hn at 2. cbn [params readOrder expand_env empty_ini] in Hn.
  split.
  - intros (l1 & k & raw & l2 & E & Hk).
    destruct (apply_entries_dup env es [] [] expand Hx) as (k' & Ek); [exists l1, k, raw, l2; auto|].
    rewrite Ek in Hn. destruct (readFile _ _ _ _ _ _ _); [discriminate|]. injection Hn as ->. eauto.
  - intros Nd. destruct (apply_entries_nodup env es [] [] expand Hx) as (c & Ec).
    { intros l1 k raw l2 E. split; [|simpl; tauto]. intros Hk. apply Nd. now exists l1, k, raw, l2. }
    rewrite Ec in Hn. destruct (readFile _ _ _ _ _ _ _); [eauto|discriminate].
Qed.

(** ** save and load *)

Lemma L_app_hash_no (k v : str) :
  ~ In "="%char k -> forall p, ~ In "="%char p -> startswith p k = false ->
  startswith p (k ++ equals :: v) = false.
Proof.
  intros Hk p Hp H. destruct (startswith p (k ++ equals :: v)) eqn:E; [|reflexivity].
  exfalso. revert k Hk H E. induction p as [|c p IH]; intros k Hk H E; [discriminate|].
  destruct k as [|a k].
  - simpl in E. apply andb_true_iff in E as [E _]. apply ch_eqb_eq in E. subst. apply Hp. now left.
  - simpl in E, H. destruct (ch_eqb c a); [|discriminate]. simpl in E, H.
    apply (IH (fun h => Hp (or_intror h)) k); auto. intros h; apply Hk; now right.
Qed.

Lemma strip_eq_stripped s : strip s = s -> stripped s = true.
Proof. intros <-. apply stripped_strip. Qed.

Lemma stripped_key_line k v : strip k = k -> strip v = v -> stripped (k ++ equals :: v) = true.
Proof.
  intros Hk Hv. apply strip_eq_stripped in Hk, Hv. unfold stripped in *.
  apply andb_true_iff in Hk as [Hk _], Hv as [_ Hv]. apply andb_true_iff. split.
  - destruct k; [reflexivity | exact Hk].
  - rewrite rev_app_distr. simpl rev. destruct (rev v) as [|c r] eqn:E; simpl; [reflexivity|].
    simpl in Hv. exact Hv.
Qed.

Lemma item_key_line k v : representable_key k -> strip v = v ->
  item_of (k ++ [equals] ++ v) = IDef k v /\ strip (k ++ [equals] ++ v) <> L "END".
Proof.
  intros (Sk & _ & Hk & H1 & H2 & H3) Sv. cbn [app].
  assert (S : strip (k ++ equals :: v) = k ++ equals :: v) by (apply strip_stripped, stripped_key_line; auto).
  split.
  - unfold item_of. cbv zeta. rewrite S.
    rewrite (L_app_hash_no k v Hk (L "#")) by (auto; simpl; intuition congruence).
    rewrite (L_app_hash_no k v Hk (L "INCLUDE(")) by (auto; simpl; intuition congruence).
    rewrite (L_app_hash_no k v Hk (L "DEFAULT(")) by (auto; simpl; intuition congruence).
    change "="%char with equals. rewrite find_ch_app_notin by exact Hk.
    rewrite firstn_app_exact, Sk.
    replace (length k + 1) with (length (k ++ [equals])) by (now rewrite app_length).
    replace (k ++ equals :: v) with ((k ++ [equals]) ++ v) by (now rewrite <- app_assoc).
    now rewrite skipn_app_exact, Sv.
  - rewrite S. intros E. assert (In equals (L "END")) as HH by (rewrite <- E; apply in_or_app; right; now left).
    simpl in HH. intuition discriminate.
Qed.

Lemma startswith_self_app p s : startswith p (p ++ s) = true.
Proof. apply startswith_app. Qed.

Lemma paren_slice (p f : str) : slice (length p) (length (p ++ f)) ((p ++ f) ++ [rpar]) = f.
Proof.
  unfold slice. rewrite app_length, <- app_assoc, skipn_app_exact.
  replace (length p + length f - length p) with (length f) by lia. apply firstn_app_exact.
Qed.

Lemma item_include_line f :
  item_of (L "INCLUDE(" ++ f ++ [rpar]) = IInclude f /\ strip (L "INCLUDE(" ++ f ++ [rpar]) <> L "END".
Proof.
  assert (S : strip (L "INCLUDE(" ++ f ++ [rpar]) = L "INCLUDE(" ++ f ++ [rpar]).
  { apply strip_stripped. unfold stripped. apply andb_true_iff. split; [reflexivity|].
    rewrite app_assoc, rev_app_distr. reflexivity. }
  split; [|rewrite S; simpl; discriminate].
  unfold item_of. cbv zeta. rewrite S.
  assert (startswith (L "#") (L "INCLUDE(" ++ f ++ [rpar]) = false) as -> by reflexivity.
  rewrite startswith_app. unfold paren_arg.
  assert (find_ch lpar (L "INCLUDE(" ++ f ++ [rpar]) = Some 7) as -> by reflexivity.
  rewrite app_assoc. rewrite (rfind_ch_app rpar (L "INCLUDE(" ++ f) []) by (simpl; tauto).
  change (7 + 1) with (length (L "INCLUDE(")). now rewrite paren_slice.
Qed.
Lemma item_default_line f :
  item_of (L "DEFAULT(" ++ f ++ [rpar]) = IDefault f /\ strip (L "DEFAULT(" ++ f ++ [rpar]) <> L "END".
Proof.
  assert (S : strip (L "DEFAULT(" ++ f ++ [rpar]) = L "DEFAULT(" ++ f ++ [rpar]).
  { apply strip_stripped. unfold stripped. apply andb_true_iff. split; [reflexivity|].
    rewrite app_assoc, rev_app_distr. reflexivity. }
  split; [|rewrite S; simpl; discriminate].
  unfold item_of. cbv zeta. rewrite S.
  assert (startswith (L "#") (L "DEFAULT(" ++ f ++ [rpar]) = false) as -> by reflexivity.
  assert (startswith (L "INCLUDE(") (L "DEFAULT(" ++ f ++ [rpar]) = false) as -> by reflexivity.
  rewrite startswith_app. unfold paren_arg.
  assert (find_ch lpar (L "DEFAULT(" ++ f ++ [rpar]) = Some 7) as -> by reflexivity.
  rewrite app_assoc. rewrite (rfind_ch_app rpar (L "DEFAULT(" ++ f) []) by (simpl; tauto).
  change (7 + 1) with (length (L "DEFAULT(")). now rewrite paren_slice.
Qed.

(** the lines for the keys are one line per key of a permutation of the keys *)
Lemma ordered_lines_spec p order : forall keys,
  (forall k, In k keys -> exists v, dget k p = Some v) ->
  let (ls, rest) := ordered_lines p order keys in
  exists taken, Permutation keys (taken ++ rest) /\ ls = flat_map (key_line p) taken.
Proof.
  induction order as [|k order IH]; intros keys Hk; cbn [ordered_lines].
  - exists []. split; reflexivity.
  - destruct (mem_str k keys) eqn:M.
    + apply mem_str_In in M.
      pose proof (remove_first_perm k keys M) as PM.
      assert (Hk' : forall k0, In k0 (remove_first k keys) -> exists v, dget k0 p = Some v).
      { intros k0 H0. apply Hk. eapply Permutation_in; [apply Permutation_sym, PM|now right]. }
      specialize (IH (remove_first k keys) Hk').
      destruct (ordered_lines p order (remove_first k keys)) as [ls rest].
      destruct IH as (taken & P & E). destruct (Hk k M) as (v & Hv). rewrite Hv.
      exists (k :: taken). split.
      * rewrite PM. cbn [app]. now constructor.
      * cbn [flat_map]. unfold key_line at 1. rewrite Hv, E. reflexivity.
    + apply IH, Hk.
Qed.

Lemma fileLines_spec i :
  exists ks, Permutation ks (dkeys (params i)) /\
    fileLines i = map (fun f => L "INCLUDE(" ++ f ++ [rpar]) (includes i)
                  ++ map (fun f => L "DEFAULT(" ++ f ++ [rpar]) (defaults i)
                  ++ flat_map (key_line (params i)) ks.
Proof.
  unfold fileLines.
  pose proof (ordered_lines_spec (params i) (readOrder i) (sort_str (dkeys (params i)))) as H.
  assert (HH : forall k, In k (sort_str (dkeys (params i))) -> exists v, dget k (params i) = Some v).
  { intros k Hk. apply (Permutation_in _ (sort_perm _)) in Hk.
    destruct (dget k (params i)) eqn:E; [eauto|]. apply dget_None in E; contradiction. }
  specialize (H HH). destruct (ordered_lines _ _ _) as [ls rest].
  destruct H as (taken & P & ->). exists (taken ++ rest). split.
  - rewrite <- P. apply sort_perm.
  - now rewrite flat_map_app.
Qed.

Lemma one_line_no_eol s : one_line s -> no_eol s = true.
Proof.
  intros [H1 H2]. apply forallb_forall. intros c Hc. apply andb_true_iff; split; apply negb_true_iff, ch_eqb_neq;
  intros ->; contradiction.
Qed.
Lemma no_eol_app a b : no_eol (a ++ b) = no_eol a && no_eol b.
Proof. unfold no_eol. apply forallb_app. Qed.

Lemma drop_last_nonempty (l : list str) : Forall (fun x => x <> []) l -> drop_last_empty l = l.
Proof.
  intros H. unfold drop_last_empty. destruct (rev l) as [|a r] eqn:E; [reflexivity|].
  assert (In a l) as Ha by (apply in_rev; rewrite E; now left).
  rewrite Forall_forall in H. specialize (H a Ha). destruct a; congruence.
Qed.

Lemma before_end_id (ls : list str) : Forall (fun l => strip l <> L "END") ls -> before_end ls = ls.
Proof.
  induction 1 as [|l ls H1 H2 IH]; cbn [before_end]; [reflexivity|].
  apply str_eqb_neq in H1. now rewrite H1, IH.
Qed.

Definition defs_for (p : dict value) (ks : list str) : list (str * str) :=
  flat_map (fun k => match dget k p with Some v => [(k, asIniText v)] | None => [] end) ks.

Lemma saved_items expand i :
  representable expand (params i) ->
  Forall one_line (includes i) -> Forall one_line (defaults i) ->
  exists ks, Permutation ks (dkeys (params i)) /\
    items (saveText i) = map IInclude (includes i) ++ map IDefault (defaults i)
                 ++ map (fun kv => IDef (fst kv) (snd kv)) (defs_for (params i) ks).
Proof.
  intros R Hi Hd. destruct (fileLines_spec i) as (ks & P & E). exists ks. split; [exact P|].
  unfold items, saveText.
  assert (Rk : forall k v, dget k (params i) = Some v -> representable_key k /\ representable_value expand (asIniText v)).
  { intros k v H. apply R. now apply dget_Some_In. }
  assert (A : Forall (fun l => no_eol l = true /\ l <> [] /\ strip l <> L "END") (fileLines i)).
  { rewrite E. rewrite !Forall_app. repeat split.
    - apply Forall_map. eapply Forall_impl; [|exact Hi]. intros g Hg. split; [|split].
      + rewrite !no_eol_app. apply one_line_no_eol in Hg. now rewrite Hg.
      + discriminate.
      + apply item_include_line.
    - apply Forall_map. eapply Forall_impl; [|exact Hd]. intros g Hg. split; [|split].
      + rewrite !no_eol_app. apply one_line_no_eol in Hg. now rewrite Hg.
      + discriminate.
      + apply item_default_line.
    - apply Forall_flat_map, Forall_forall. intros k _. unfold key_line.
      destruct (dget k (params i)) as [v|] eqn:G; [|constructor]. constructor; [|constructor].
      destruct (Rk k v G) as [HK HV]. split; [|split].
      + destruct HK as (_ & HK & _). destruct HV as (_ & HV & _).
        rewrite !no_eol_app. apply one_line_no_eol in HK, HV. now rewrite HK, HV.
      + destruct k; discriminate.
      + apply item_key_line; [exact HK | apply HV]. }
  rewrite text_lines_join, drop_last_nonempty, before_end_id.
  - rewrite E, !map_app, !map_map. f_equal; [|f_equal].
    + apply map_ext. intros g. apply item_include_line.
    + apply map_ext. intros g. apply item_default_line.
    + clear E P A. induction ks as [|k ks IH]; [reflexivity|].
      cbn [flat_map defs_for]. rewrite !map_app. f_equal; [|exact IH].
      unfold key_line. destruct (dget k (params i)) as [v|] eqn:G; [|reflexivity].
      cbn [map fst snd]. f_equal. destruct (Rk k v G) as [HK HV].
      apply item_key_line; [exact HK | apply HV].
  - eapply Forall_impl; [|exact A]. cbv beta. intros l (A1 & A2 & A3); assumption.
  - eapply Forall_impl; [|exact A]. cbv beta. intros l (A1 & A2 & A3); assumption.
  - apply forallb_forall. intros l Hl. rewrite Forall_forall in A. now destruct (A l Hl).
Qed.

Lemma includes_of_saved inc def d :
  includes_of (map IInclude inc ++ map IDefault def ++ map (fun kv : str * str => IDef (fst kv) (snd kv)) d) = inc.
Proof.
  unfold includes_of. rewrite !flat_map_app.
  assert (forall l, flat_map (fun it => match it with IInclude f => [f] | _ => [] end) (map IInclude l) = l) as ->
    by (induction l; simpl; congruence).
  assert (forall l, flat_map (fun it => match it with IInclude f => [f] | _ => [] end) (map IDefault l) = []) as ->
    by (induction l; simpl; congruence).
  assert (forall l : list (str * str), flat_map (fun it => match it with IInclude f => [f] | _ => [] end)
            (map (fun kv => IDef (fst kv) (snd kv)) l) = []) as -> by (induction l; simpl; congruence).
  apply app_nil_r.
Qed.
Lemma defaults_of_saved inc def d :
  defaults_of (map IInclude inc ++ map IDefault def ++ map (fun kv : str * str => IDef (fst kv) (snd kv)) d) = def.
Proof.
  unfold defaults_of. rewrite !flat_map_app.
  assert (forall l, flat_map (fun it => match it with IDefault f => [f] | _ => [] end) (map IInclude l) = []) as ->
    by (induction l; simpl; congruence).
  assert (forall l, flat_map (fun it => match it with IDefault f => [f] | _ => [] end) (map IDefault l) = l) as ->
    by (induction l; simpl; congruence).
  assert (forall l : list (str * str), flat_map (fun it => match it with IDefault f => [f] | _ => [] end)
            (map (fun kv => IDef (fst kv) (snd kv)) l) = []) as -> by (induction l; simpl; congruence).
  apply app_nil_r.
Qed.
Lemma defs_of_saved inc def d :
  defs_of (map IInclude inc ++ map IDefault def ++ map (fun kv : str * str => IDef (fst kv) (snd kv)) d) = d.
Proof.
  unfold defs_of. rewrite !flat_map_app.
  assert (forall l, flat_map (fun it => match it with IDef k v => [(k, v)] | _ => [] end) (map IInclude l) = []) as ->
    by (induction l; simpl; congruence).
  assert (forall l, flat_map (fun it => match it with IDef k v => [(k, v)] | _ => [] end) (map IDefault l) = []) as ->
    by (induction l; simpl; congruence).
  simpl. induction d as [|[a b] d IH]; simpl; congruence.
Qed.

Lemma apply_entries_fresh env x (d : list (str * str)) : forall p o,
  NoDup (map fst d) -> (forall k, In k (map fst d) -> ~ In k (dkeys p)) ->
  (forall k v, In (k, v) d -> x = true -> contains (L "$(") v = false) ->
  apply_entries env (tagged false d) (p, o, x)
  = Ok (p ++ map (fun kv => (fst kv, VStr (snd kv))) d, o ++ map fst d, x).
Proof.
  induction d as [|[k v] d IH]; intros p o ND Hn Hv; simpl.
  - now rewrite !app_nil_r.
  - unfold e_key, e_prot, e_raw; cbn [fst snd].
    assert (~ In k (dkeys p)) as Hk by (apply Hn; now left).
    rewrite (proj2 (dhas_false k p)) by exact Hk.
    assert ((if x then expand_placeholders env v else Ok v) = Ok v) as ->.
    { destruct x; [|reflexivity]. apply expand_plain. eapply Hv; [now left | reflexivity]. }
    cbn [bindR]. rewrite dset_new by exact Hk. inversion ND as [|? ? N1 N2]; subst.
    fold (tagged false d). rewrite IH.
    + now rewrite <- !app_assoc.
    + exact N2.
    + intros k0 H0. unfold dkeys. rewrite map_app, in_app_iff. simpl. intros [H|[<-|[]]].
      * eapply Hn; [right; exact H0 | exact H].
      * contradiction.
    + intros k0 v0 H0. apply (Hv k0 v0). now right.
Qed.

Lemma defs_for_keys p ks : (forall k, In k ks -> In k (dkeys p)) -> map fst (defs_for p ks) = ks.
Proof.
  induction ks as [|k ks IH]; intros H; [reflexivity|]. cbn [defs_for flat_map].
  rewrite map_app. fold (defs_for p ks). rewrite IH by (intros; apply H; now right).
  destruct (dget k p) eqn:E; [reflexivity|]. apply dget_None in E. exfalso; apply E, H; now left.
Qed.
Lemma defs_for_In p ks k v : In (k, v) (defs_for p ks) -> exists w, dget k p = Some w /\ v = asIniText w.
Proof.
  unfold defs_for. rewrite in_flat_map. intros (k0 & _ & H).
  destruct (dget k0 p) as [w|] eqn:E; [|destruct H]. destruct H as [H|[]]. injection H as <- <-. eauto.
Qed.
Lemma dget_defs_for p ks k : (forall k, In k (dkeys p) -> In k ks) ->
  dget k (map (fun kv => (fst kv, VStr (snd kv))) (defs_for p ks)) = option_map (fun v => VStr (asIniText v)) (dget k p).
Proof.
  intros H. destruct (dget k p) as [v|] eqn:E; simpl.
  - assert (In k ks) as Hk by (apply H, dhas_In; unfold dhas; now rewrite E).
    clear H. induction ks as [|k0 ks IH]; [destruct Hk|].
    cbn [defs_for flat_map]. fold (defs_for p ks). rewrite map_app, dget_app.
    destruct (str_eqb_spec k k0) as [->|N].
    + rewrite E. simpl. now rewrite str_eqb_refl.
    + destruct Hk as [?|Hk]; [congruence|].
      destruct (dget k0 p); simpl; [|auto]. apply str_eqb_neq in N. rewrite N. auto.
  - apply dget_None. unfold dkeys. rewrite map_map. simpl.
    intros Hk. apply in_map_iff in Hk as ([k1 v1] & <- & H1).
    apply defs_for_In in H1 as (w & Hw & _). simpl in E. congruence.
Qed.

Lemma round_trip expand i f fs env fuel keep :
  NoDup (dkeys (params i)) -> representable expand (params i) ->
  Forall one_line (includes i) -> Forall one_line (defaults i) ->
  fs f = Some (saveText i) -> 1 <= fuel ->
  keep = true \/ (includes i = [] /\ defaults i = []) ->
  exists st, loadIni fuel fs env f keep expand = Ok st /\
    Permutation (dkeys (params st)) (dkeys (params i)) /\
    (forall k, dget k (params st) = option_map (fun v => VStr (asIniText v)) (dget k (params i))) /\
    includes st = includes i /\ defaults st = defaults i.
Proof.
  intros ND R Hi Hd Hf Hfuel Hkeep.
  destruct (saved_items expand i R Hi Hd) as (ks & P & EI).
  destruct fuel as [|fuel]; [lia|]. unfold loadIni. cbn [readFile]. rewrite Hf.
  pose proof (read_lines_spec env false (text_lines (saveText i)) (mkR (with_orig (empty_ini expand) f) [] [] [])) as RL.
  cbv zeta in RL. fold (items (saveText i)) in RL. rewrite EI in RL.
  rewrite defs_of_saved, includes_of_saved, defaults_of_saved in RL.
  cbn [r_ini r_inc r_def app] in RL. unfold core_of at 2 in RL. cbn [params readOrder expand_env with_orig empty_ini] in RL.
  assert (Hks : map fst (defs_for (params i) ks) = ks).
  { apply defs_for_keys. intros k Hk. eapply Permutation_in; [exact P | exact Hk]. }
  rewrite apply_entries_fresh in RL; cycle 1.
  { rewrite Hks. eapply Permutation_NoDup; [apply Permutation_sym, P | exact ND]. }
  { simpl; tauto. }
  { intros k v Hkv Hx. apply defs_for_In in Hkv as (w & Hw & ->).
    apply dget_Some_In in Hw. destruct (R _ _ Hw) as [_ (_ & _ & HV)]. now apply HV. }
  cbn [mapR app] in RL.
  destruct (read_lines _ _ _ _) as [st|e] eqn:RLs; [|discriminate].
  cbn [mapR] in RL. injection RL as E1 E2 E3 E4 E5. cbn [bindR].
  assert (Inc : includes (r_ini st) = [] /\ defaults (r_ini st) = []).
  { clear -RLs.
    assert (forall ls s0 s1, read_lines env false ls s0 = Ok s1 ->
              includes (r_ini s1) = includes (r_ini s0) /\ defaults (r_ini s1) = defaults (r_ini s0)) as H.
    { induction ls as [|l ls IH]; intros s0 s1; cbn [read_lines]; [intros [= <-]; auto|].
      destruct (str_eqb_spec (strip l) (L "END")) as [E|NE].
      - unfold read_line. rewrite E. simpl. intros [= <-]; auto.
      - rewrite read_line_spec by exact NE. destruct (item_of l).
        + intros H. apply IH in H. exact H.
        + intros H. apply IH in H. exact H.
        + intros H. apply IH in H. exact H.
        + destruct (dhas _ _); [discriminate|].
          destruct (if expand_env (r_ini s0) then _ else _); cbn [bindR]; [|discriminate].
          intros H. apply IH in H. exact H.
        + intros H. apply IH in H. exact H. }
    apply H in RLs. exact RLs. }
  destruct Inc as [I1 I2].
  assert (KP : Permutation (dkeys (params (r_ini st))) (dkeys (params i))).
  { rewrite E1. unfold dkeys at 1. rewrite map_map. cbn [fst]. rewrite <- P. rewrite <- Hks at 2. reflexivity. }
  assert (KG : forall k, dget k (params (r_ini st)) = option_map (fun v => VStr (asIniText v)) (dget k (params i))).
  { intros k. rewrite E1. apply dget_defs_for. intros k0 H0.
    eapply Permutation_in; [apply Permutation_sym, P | exact H0]. }
  destruct keep.
  - eexists. split; [reflexivity|]. cbn [params includes defaults].
    rewrite E4, E5, I1, I2. auto.
  - destruct Hkeep as [?|[Hi0 Hd0]]; [discriminate|].
    rewrite E4, E5, Hi0, Hd0. cbn [fold_left bindR].
    eexists. split; [reflexivity|]. rewrite I1, I2. auto.
Qed.

(** ** comments *)


Lemma read_lines_before_end env prot ls : forall st,
  read_lines env prot ls st = read_lines env prot (before_end ls) st.
Proof.
  induction ls as [|l ls IH]; intros st; cbn [read_lines before_end]; [reflexivity|].
  destruct (str_eqb_spec (strip l) (L "END")) as [E|NE].
  - unfold read_line. rewrite E. reflexivity.
  - cbn [read_lines]. destruct (read_line env prot l st) as [[s1|]|e]; auto.
Qed.
Lemma before_end_noend ls : Forall (fun l => strip l <> L "END") (before_end ls).
Proof.
  induction ls as [|l ls IH]; cbn [before_end]; [constructor|].
  destruct (str_eqb_spec (strip l) (L "END")); [constructor|]. now constructor.
Qed.
Lemma read_lines_app env prot a b : Forall (fun l => strip l <> L "END") a -> forall st,
  read_lines env prot (a ++ b) st = bindR (read_lines env prot a st) (read_lines env prot b).
Proof.
  induction 1 as [|l a NE Ha IH]; intros st; [reflexivity|].
  cbn [app read_lines].
  rewrite (read_line_spec env prot l st NE).
  destruct (item_of l); try apply IH.
  destruct (dhas key (params (r_ini st))); [destruct prot; [apply IH|reflexivity]|].
  destruct (if expand_env (r_ini st) then _ else _); cbn [bindR]; [apply IH|reflexivity].
Qed.

Definition com_inv (i : ini) : Prop := forall k, In k (dkeys (comments i)) -> In k (dkeys (params i)).

Lemma read_line_com env l st st' : strip l <> L "END" ->
  read_line env false l st = Ok (Some st') -> com_inv (r_ini st) ->
  com_inv (r_ini st') /\
  (forall k, dhas k (params (r_ini st)) = true ->
     dhas k (params (r_ini st')) = true /\ dget k (comments (r_ini st')) = dget k (comments (r_ini st))) /\
  (is_comment (item_of l) = false -> r_com st' = []).
Proof.
  intros NE H CI. rewrite read_line_spec in H by exact NE.
  destruct (item_of l) as [t|f|f|k v|] eqn:Ei; try (injection H as <-; cbn; repeat split; auto; discriminate).
  destruct (dhas k (params (r_ini st))) eqn:G; [discriminate|].
  destruct (if expand_env (r_ini st) then _ else _) as [v'|]; cbn [bindR] in H; [|discriminate].
  injection H as <-. cbn [r_ini r_com set_param params comments]. apply dhas_false in G.
  split; [|split; [|reflexivity]].
  - intros k0 Hk0. cbn [params set_param]. rewrite dkeys_dset_In.
    cbn [comments set_param] in Hk0. destruct (r_com st); [right; now apply CI|].
    apply dkeys_dset_In in Hk0 as [->|Hk0]; [now left | right; now apply CI].
  - intros k0 Hk0. assert (k0 <> k) as N by (intros ->; apply dhas_In in Hk0; contradiction).
    split.
    + unfold dhas in *. rewrite dget_dset_other; auto.
    + destruct (r_com st); [reflexivity|]. now rewrite dget_dset_other.
Qed.

Lemma read_lines_com env ls : Forall (fun l => strip l <> L "END") ls -> forall st st',
  read_lines env false ls st = Ok st' -> com_inv (r_ini st) ->
  com_inv (r_ini st') /\
  (forall k, dhas k (params (r_ini st)) = true ->
     dhas k (params (r_ini st')) = true /\ dget k (comments (r_ini st')) = dget k (comments (r_ini st))).
Proof.
  induction 1 as [|l ls NE Hls IH]; intros st st'; cbn [read_lines].
  - intros [= <-]; auto.
  - destruct (read_line env false l st) as [[s1|]|e] eqn:E; try discriminate.
    + intros H CI. destruct (read_line_com _ _ _ _ NE E CI) as (CI1 & K1 & _).
      destruct (IH _ _ H CI1) as (CI2 & K2). split; [exact CI2|].
      intros k Hk. destruct (K1 k Hk) as (A1 & A2). destruct (K2 k A1) as (B1 & B2). split; congruence.
    + rewrite read_line_spec in E by exact NE. destruct (item_of l); try discriminate.
      destruct (dhas _ _); [discriminate|]. destruct (if expand_env (r_ini st) then _ else _); discriminate.
Qed.

Lemma read_lines_comment_block env blk texts : Forall (fun l => strip l <> L "END") blk ->
  Forall2 (fun l t => item_of l = IComment t) blk texts -> forall st,
  read_lines env false blk st = Ok (mkR (r_ini st) (r_inc st) (r_def st) (r_com st ++ texts)).
Proof.
  intros NE H; induction H as [|l t blk texts Hl H IH]; intros st; cbn [read_lines].
  - rewrite app_nil_r. now destruct st.
  - inversion NE as [|? ? N1 N2]; subst. rewrite read_line_spec by exact N1. rewrite Hl.
    rewrite IH by exact N2. cbn. now rewrite <- app_assoc.
Qed.


Lemma comments_main fuel fs env f expand st text pre blk texts line k v post :
  loadIni fuel fs env f true expand = Ok st -> fs f = Some text ->
  before_end (text_lines text) = pre ++ blk ++ line :: post ->
  starts_block pre ->
  Forall2 (fun l t => item_of l = IComment t) blk texts ->
  item_of line = IDef k v ->
  dget k (comments st) = match texts with [] => None | _ => Some texts end.
Proof.
  unfold loadIni. destruct fuel as [|fuel]; [discriminate|]. cbn [readFile].
  intros H Hf E SB HB HL. rewrite Hf in H.
  destruct (read_lines _ _ _ _) as [s|e] eqn:RL; [|discriminate]. cbn [bindR] in H.
  injection H as <-. cbn [comments].
  pose proof (before_end_noend (text_lines text)) as NE.
  rewrite read_lines_before_end, E in RL. rewrite E in NE.
  apply Forall_app in NE as [NE1 NE2]. apply Forall_app in NE2 as [NE2 NE3].
  inversion NE3 as [|? ? NE3a NE3b]; subst.
  rewrite read_lines_app in RL by exact NE1.
  destruct (read_lines env false pre _) as [s1|e] eqn:R1; [|discriminate]. cbn [bindR] in RL.
  rewrite read_lines_app in RL by exact NE2.
  rewrite (read_lines_comment_block env blk texts NE2 HB) in RL. cbn [bindR read_lines] in RL.
  destruct (read_lines_com _ _ NE1 _ _ R1) as (CI1 & _); [intros k0 []|].
  assert (RC : r_com s1 = []).
  { destruct SB as [->|(p0 & l0 & -> & Hl0)].
    - injection R1 as <-. reflexivity.
    - apply Forall_app in NE1 as [NA NB]. rewrite read_lines_app in R1 by exact NA.
      destruct (read_lines env false p0 _) as [s0|e] eqn:R0; [|discriminate]. cbn [bindR read_lines] in R1.
      destruct (read_lines_com _ _ NA _ _ R0) as (CI0 & _); [intros k0 []|].
      inversion NB as [|? ? NB1 _]; subst.
      destruct (read_line env false l0 s0) as [[s2|]|e] eqn:E0; [| |discriminate].
      + injection R1 as ->. eapply read_line_com in E0; [|exact NB1|exact CI0]. apply E0, Hl0.
      + rewrite read_line_spec in E0 by exact NB1. destruct (item_of l0); try discriminate.
        destruct (dhas _ _); [discriminate|]. destruct (if expand_env (r_ini s0) then _ else _); discriminate. }
  rewrite RC in RL. cbn [app] in RL.
  rewrite read_line_spec in RL by exact NE3a. rewrite HL in RL. cbn [r_ini r_com r_inc r_def] in RL.
  destruct (dhas k (params (r_ini s1))) eqn:G; [discriminate|].
  destruct (if expand_env (r_ini s1) then _ else _) as [v'|]; cbn [bindR] in RL; [|discriminate].
  apply read_lines_com in RL; [|exact NE3b|].
  - destruct RL as (_ & K). specialize (K k). cbn [r_ini set_param params comments] in K.
    destruct K as (_ & ->); [unfold dhas; now rewrite dget_dset_same|].
    destruct texts as [|t ts].
    + apply dget_None. intros Hin. apply CI1 in Hin. apply dhas_false in G. contradiction.
    + apply dget_dset_same.
  - cbn [r_ini]. intros k0 Hk0. cbn [set_param params comments] in *. rewrite dkeys_dset_In.
    destruct texts as [|t ts]; [right; now apply CI1|].
    apply dkeys_dset_In in Hk0 as [->|Hk0]; [now left | right; now apply CI1].
Qed.

Lemma bool_round_trip expand i f fs env fuel k b d :
  NoDup (dkeys (params i)) -> representable expand (params i) ->
  Forall one_line (includes i) -> Forall one_line (defaults i) ->
  fs f = Some (saveText i) -> 1 <= fuel ->
  dget k (params i) = Some (VBool b) ->
  exists st, loadIni fuel fs env f true expand = Ok st /\ ini_bool st k d = Ok b.
Proof.
  intros ND R Hi Hd Hf Hfuel Hk.
  destruct (round_trip expand i f fs env fuel true ND R Hi Hd Hf Hfuel (or_introl eq_refl)) as (st & E & _ & G & _).
  exists st. split; [exact E|]. unfold ini_bool, isSet. rewrite G, Hk. destruct b; reflexivity.
Qed.

(** ** typed getters *)
Lemma isSet_spec i name allowEmpty : isSet i name allowEmpty = true <->
  exists v, dget name (params i) = Some v /\ (allowEmpty = true \/ v <> VStr []).
Proof.
  unfold isSet. destruct (dget name (params i)) as [v|].
  - rewrite orb_true_iff, negb_true_iff. split.
    + intros H; exists v; split; [reflexivity|]. destruct H as [H|H]; [now left|right].
      intros ->; discriminate.
    + intros (w & [= <-] & [H|H]); [now left|right]. destruct v as [[|]| |]; simpl; congruence.
  - split; [discriminate|]. intros (v & H & _); discriminate.
Qed.
Lemma isSet_false i name allowEmpty : isSet i name allowEmpty = false <->
  dget name (params i) = None \/ (allowEmpty = false /\ dget name (params i) = Some (VStr [])).
Proof.
  unfold isSet. destruct (dget name (params i)) as [v|]; [|tauto].
  destruct allowEmpty; simpl; [split; [discriminate|intros [?|[? _]]; discriminate]|].
  destruct v as [[|c s]|b|t]; simpl; split; auto; try discriminate; intros [?|[_ ?]]; discriminate.
Qed.

Lemma getter_default {T} i name (tp : value -> res T) default allowEmpty :
  (dget name (params i) = None \/ (allowEmpty = false /\ dget name (params i) = Some (VStr []))) ->
  asType i name tp default allowEmpty = match default with Some d => Ok d | None => Err (EUndef name) end.
Proof. intros H. apply isSet_false in H. unfold asType. now rewrite H. Qed.
Lemma getter_set {T} i name (tp : value -> res T) default allowEmpty v :
  dget name (params i) = Some v -> (allowEmpty = true \/ v <> VStr []) ->
  asType i name tp default allowEmpty = tp v.
Proof.
  intros H Hv. unfold asType. rewrite (proj2 (isSet_spec i name allowEmpty)) by eauto. now rewrite H.
Qed.
Lemma bool_getter i name default :
  (dget name (params i) = None \/ dget name (params i) = Some (VStr []) ->
     ini_bool i name default = match default with Some d => Ok d | None => Err (EUndef name) end) /\
  (forall c s, dget name (params i) = Some (VStr (c :: s)) ->
     (ini_bool i name default = Ok true <-> c = "T"%char) /\
     (ini_bool i name default = Ok false <-> c = "F"%char) /\
     (c <> "T"%char -> c <> "F"%char -> ini_bool i name default = Err (EBool name))) /\
  (forall b, dget name (params i) = Some (VBool b) -> ini_bool i name default = Ok b).
Proof.
  split; [|split].
  - intros H. unfold ini_bool. rewrite (proj2 (isSet_false i name false)); [reflexivity|tauto].
  - intros c s H. unfold ini_bool. rewrite (proj2 (isSet_spec i name false)) by (exists (VStr (c :: s)); split; [exact H|right; discriminate]).
    rewrite H. destruct (ch_eqb_spec c "T"%char) as [->|N1].
    + repeat split; auto; try discriminate; congruence.
    + destruct (ch_eqb_spec c "F"%char) as [->|N2]; repeat split; auto; try discriminate; congruence.
  - intros b H. unfold ini_bool. rewrite (proj2 (isSet_spec i name false)) by (exists (VBool b); split; [exact H|right; discriminate]).
    now rewrite H.
Qed.

Lemma bool_list_refutation : exists i name, dget name (params i) = Some (VStr (L "T F")) /\
  bool_list i name [] = Ok [true; true].
Proof.
  exists (mkIni [(L "x", VStr (L "T F"))] [] [] [] [] None true), (L "x"). vm_compute. split; reflexivity.
Qed.

Definition leak_fs (f : str) : option str :=
  if str_eqb f (L "m") then Some (join [nl] [L "a=1"; L "DEFAULT(d)"])
  else if str_eqb f (L "d") then Some (join [nl] [L "# about a"; L "a=2"; L "b=3"])
  else None.
Lemma comments_refutation : exists fs st,
  loadIni 5 fs (fun _ => None) (L "m") false true = Ok st /\
  fs (L "d") = Some (join [nl] [L "# about a"; L "a=2"; L "b=3"]) /\
  dget (L "b") (comments st) = Some [L " about a"].
Proof. exists leak_fs. eexists. split; [vm_compute; reflexivity|]. split; vm_compute; reflexivity. Qed.

(** ** location of included files *)
Lemma rfind_ch_none c b : ~ In c b -> rfind_ch c b = None.
Proof.
  induction b as [|x b IH]; [reflexivity|]. simpl. intros H. rewrite IH by tauto.
  destruct (ch_eqb_spec x c); [exfalso; tauto|reflexivity].
Qed.
Lemma isabs_head s : isabs s = true -> exists t, s = slash :: t.
Proof.
  unfold isabs. destruct s as [|c s]; cbn [startswith]; [discriminate|].
  rewrite andb_true_iff. intros [H _]. destruct (ch_eqb_spec slash c); [subst; eauto|discriminate].
Qed.

Lemma resolve_abs f t : resolve f (slash :: t) = slash :: t.
Proof. reflexivity. Qed.
Lemma resolve_bare f g : ~ In slash f -> resolve f g = g.
Proof.
  intros H. unfold resolve, dirname. rewrite rfind_ch_none by exact H. simpl.
  unfold path_join. destruct (isabs g); reflexivity.
Qed.
Lemma resolve_same_dir d c base g :
  c <> slash -> ~ In slash base -> (forall t, g <> slash :: t) ->
  resolve (d ++ c :: slash :: base) g = d ++ c :: slash :: g.
Proof.
  intros Hc Hb Hg. unfold resolve.
  destruct (isabs g) eqn:E. { apply isabs_head in E. destruct E as [t ->]. now destruct (Hg t). }
  unfold dirname.
  replace (d ++ c :: slash :: base) with ((d ++ [c]) ++ slash :: base) by now rewrite <- app_assoc.
  rewrite rfind_ch_app by exact Hb.
  assert (F : firstn (length (d ++ [c]) + 1) ((d ++ [c]) ++ slash :: base) = d ++ [c; slash]).
  { rewrite firstn_app, firstn_all2 by lia.
    replace (length (d ++ [c]) + 1 - length (d ++ [c])) with 1 by lia. simpl. now rewrite <- app_assoc. }
  rewrite F.
  assert (forallb (fun c0 => ch_eqb c0 slash) (d ++ [c; slash]) = false) as ->.
  { rewrite forallb_app. simpl. destruct (ch_eqb_spec c slash); [contradiction|]. now rewrite andb_false_r. }
  rewrite rev_app_distr. simpl. destruct (ch_eqb_spec c slash); [contradiction|].
  simpl. rewrite rev_involutive.
  unfold path_join. rewrite E, rev_app_distr. simpl. destruct (ch_eqb_spec c slash); [contradiction|].
  now rewrite <- app_assoc.
Qed.
Lemma include_location f g :
  (forall t, g = slash :: t -> resolve f g = g) /\ (~ In slash f -> resolve f g = g) /\ (forall d c base, f = d ++ c :: slash :: base -> c <> slash -> ~ In slash base ->
     (forall t, g <> slash :: t) -> resolve f g = d ++ c :: slash :: g).
Proof.
  split; [intros t ->; apply resolve_abs|]. split; [apply resolve_bare|].
  intros d c base ->; apply resolve_same_dir.
Qed.

(** ** where saveFile() without a name writes *)
Lemma save_target_plain fuel fs env f expand st :
  loadIni fuel fs env f true expand = Ok st -> saveTarget st None = Some f.
Proof.
  unfold loadIni. destruct fuel; [discriminate|]. simpl.
  destruct (fs f) as [text|]; [|discriminate].
  intros H. unfold bindR in H.
  destruct (read_lines env false (text_lines text) _) as [r|] eqn:E; [|discriminate].
  injection H as <-. simpl.
  assert (K : forall ls s s', read_lines env false ls s = Ok s' ->
            original_filename (r_ini s') = original_filename (r_ini s)).
  { clear. induction ls as [|l ls IH]; intros s s'; simpl; [now intros [= <-]|].
    destruct (read_line env false l s) as [[s1|]|] eqn:E; [|now intros [= <-]|discriminate].
    intros H. apply IH in H. rewrite H. revert E. unfold read_line.
    destruct (str_eqb _ _); [discriminate|].
    destruct (startswith _ _); [now intros [= <-]|].
    destruct (startswith _ _); [now intros [= <-]|].
    destruct (startswith _ _); [now intros [= <-]|].
    destruct (find_ch _ _); [|now intros [= <-]].
    destruct (dhas _ _); [discriminate|].
    unfold bindR. destruct (if expand_env (r_ini s) then _ else _); [|discriminate]. now intros [= <-]. }
  apply K in E. rewrite E. reflexivity.
Qed.
Lemma save_target_refutation : exists fs st,
  loadIni 5 fs (fun _ => None) (L "m") false true = Ok st /\ saveTarget st None = Some (L "d").
Proof. exists leak_fs. eexists. split; vm_compute; reflexivity. Qed.
