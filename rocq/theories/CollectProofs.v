(** Proofs for the collection of samples. *)
From Coq Require Import Reals List Bool ZArith Arith Lia Lra Permutation.
From Verif Require Import PyBase StatModel StatSpec StatProofs SortModel SortProofs CollectModel CollectSpec.
Import ListNotations.
Local Open Scope list_scope.
Local Open Scope nat_scope.

(** ** Readers *)
Section Readers.
  Context {F : Type}.
  (** reads what was written, and leaves the rest *)
  Definition reads {A} (x : @reader F A) (w : list (tok F)) (a : A) : Prop := forall r, x (w ++ r) = Ok (a, r).
  (** looks only at what it reads *)
  Definition local {A} (x : @reader F A) : Prop := forall f a r, x f = Ok (a, r) -> forall q, x (f ++ q) = Ok (a, r ++ q).
  Lemma reads_bind {A B} (x : reader A) (g : A -> reader B) u v a b : reads x u a -> reads (g a) v b -> reads (rbind x g) (u ++ v) b.
  Proof. intros H1 H2 r. unfold rbind. rewrite <- app_assoc, H1. apply H2. Qed.
  Lemma reads_ret {A} (a : A) : reads (rret a) [] a.
  Proof. intros r. reflexivity. Qed.
  Lemma reads_bind_ret {A B} (x : reader A) (g : A -> B) u a : reads x u a -> reads (rbind x (fun a => rret (g a))) u (g a).
  Proof. intros H r. unfold rbind. rewrite H. reflexivity. Qed.
  Lemma reads_n {A} (x : reader A) (w : A -> list (tok F)) l : (forall a, In a l -> reads x (w a) a) -> reads (read_n x (length l)) (concat (map w l)) l.
  Proof.
    induction l as [|a l IH]; intros H; [apply reads_ret|]. cbn [length read_n map concat]. apply (reads_bind x _ (w a) _ a); [apply H; now left|].
    apply reads_bind_ret. apply IH. intros b Hb. apply H. now right.
  Qed.
  Lemma reads_map {A} (x : reader A) (c : A -> tok F) l : (forall a r, x (c a :: r) = Ok (a, r)) -> reads (read_n x (length l)) (map c l) l.
  Proof.
    intros H. replace (map c l) with (concat (map (fun a => [c a]) l)); [apply reads_n; intros a _ r; apply H|].
    induction l as [|a l IH]; [reflexivity|]. cbn [map concat app]. now rewrite IH.
  Qed.
  Lemma read_item_ok i : reads read_item (save_item i) i.
  Proof.
    unfold read_item. destruct i as [l|l|l|l|s]; cbn [save_item].
    - apply (reads_bind read_int _ [TI (Z.of_nat (length l))] (TI 1 :: map TF l) (Z.of_nat (length l))); [intros r; reflexivity|]. apply (reads_bind read_int _ [TI 1] (map TF l) 1%Z); [intros r; reflexivity|]. cbn [Z.eqb Pos.eqb]. apply reads_bind_ret. rewrite Nat2Z.id. now apply reads_map.
    - apply (reads_bind read_int _ [TI (Z.of_nat (length l))] (TI 2 :: map TF l) (Z.of_nat (length l))); [intros r; reflexivity|]. apply (reads_bind read_int _ [TI 2] (map TF l) 2%Z); [intros r; reflexivity|]. cbn [Z.eqb Pos.eqb]. apply reads_bind_ret. rewrite Nat2Z.id. now apply reads_map.
    - apply (reads_bind read_int _ [TI (Z.of_nat (length l))] (TI 3 :: map TI l) (Z.of_nat (length l))); [intros r; reflexivity|]. apply (reads_bind read_int _ [TI 3] (map TI l) 3%Z); [intros r; reflexivity|]. cbn [Z.eqb Pos.eqb]. apply reads_bind_ret. rewrite Nat2Z.id. now apply reads_map.
    - apply (reads_bind read_int _ [TI (Z.of_nat (length l))] (TI 4 :: map TL l) (Z.of_nat (length l))); [intros r; reflexivity|]. apply (reads_bind read_int _ [TI 4] (map TL l) 4%Z); [intros r; reflexivity|]. cbn [Z.eqb Pos.eqb]. apply reads_bind_ret. rewrite Nat2Z.id. now apply reads_map.
    - intros r. reflexivity.
  Qed.
  Lemma ReadBinary_ok l : reads ReadBinary (SaveBinary l) l.
  Proof.
    unfold ReadBinary, SaveBinary. apply (reads_bind read_int _ [TI (Z.of_nat (length l))] (concat (map save_item l)) (Z.of_nat (length l))); [intros r; reflexivity|].
    rewrite Nat2Z.id. apply reads_n. intros i _. apply read_item_ok.
  Qed.
  Lemma ReadState_ok s np nc ns fr cf : length (k_maxparams s) = np -> length (k_cov s) = nc ->
    reads (ReadState np nc ns fr cf) (SaveState s) (reread (cf / 3) s).
  Proof.
    intros <- <- r. unfold ReadState, SaveState. cbn [app]. unfold rbind at 1. cbn [read_int]. cbn [Z.ltb Z.leb Z.compare Pos.compare Pos.compare_cont].
    do 7 (unfold rbind at 1; cbn [read_int read_log]). unfold rbind at 1. rewrite <- !app_assoc, ReadBinary_ok. cbn [app].
    do 2 (unfold rbind at 1; cbn [read_int read_num]). unfold rbind at 1. rewrite <- app_assoc.
    rewrite (reads_map read_num TF (k_maxparams s)) by reflexivity. cbn [app]. unfold rbind at 1. cbn [read_int]. unfold rbind at 1.
    rewrite (reads_map read_num TF (k_cov s)) by reflexivity. reflexivity.
  Qed.

  Lemma local_bind {A B} (x : reader A) (g : A -> reader B) : local x -> (forall a, local (g a)) -> local (rbind x g).
  Proof. intros H1 H2 f b r. unfold rbind. destruct (x f) as [(a, r1)|] eqn:E; [|discriminate]. intros G q. rewrite (H1 _ _ _ E). now apply H2. Qed.
  Lemma local_ret {A} (a : A) : local (rret a).
  Proof. intros f b r [= <- <-] q. reflexivity. Qed.
  Lemma local_err {A} e : local (fun _ => @Err (A * list (tok F)) e).
  Proof. intros f a r H. discriminate. Qed.
  Lemma local_int : local read_int.
  Proof. intros [|[z|b|x|s] f] a r; cbn; try discriminate. intros [= <- <-] q. reflexivity. Qed.
  Lemma local_log : local read_log.
  Proof. intros [|[z|b|x|s] f] a r; cbn; try discriminate. intros [= <- <-] q. reflexivity. Qed.
  Lemma local_num : local read_num.
  Proof. intros [|[z|b|x|s] f] a r; cbn; try discriminate. intros [= <- <-] q. reflexivity. Qed.
  Lemma local_str : local read_str.
  Proof. intros [|[z|b|x|s] f] a r; cbn; try discriminate. intros [= <- <-] q. reflexivity. Qed.
  Lemma local_n {A} (x : reader A) n : local x -> local (read_n x n).
  Proof. intros H. induction n as [|n IH]; [apply local_ret|]. cbn [read_n]. apply local_bind; [exact H|]. intros a. apply local_bind; [exact IH|]. intros l. apply local_ret. Qed.
  Lemma local_item : local read_item.
  Proof.
    unfold read_item. apply local_bind; [apply local_int|]. intros sz. apply local_bind; [apply local_int|]. intros k.
    repeat (destruct (_ =? _)%Z; [apply local_bind; [first [apply local_n; first [apply local_num|apply local_int|apply local_log]|apply local_str]|intros; apply local_ret]|]). apply local_err.
  Qed.
  Lemma local_state np nc ns fr cf : local (ReadState np nc ns fr cf).
  Proof.
    unfold ReadState. apply local_bind; [apply local_int|]. intros v. destruct (2 <? v)%Z; [apply local_err|].
    repeat first [apply local_ret | apply local_bind; [first [apply local_int|apply local_log|apply local_num|apply local_n; first [apply local_num|apply local_item]|destruct (2 <=? v)%Z; [apply local_int|apply local_ret]|unfold ReadBinary; apply local_bind; [apply local_int|intros; apply local_n, local_item]]|intros ?]].
  Qed.
  Lemma truncated_state np nc ns fr cf (s : state F) k st r : length (k_maxparams s) = np -> length (k_cov s) = nc -> k < length (SaveState s) ->
    ReadState np nc ns fr cf (firstn k (SaveState s)) = Ok (st, r) -> False.
  Proof.
    intros H1 H2 Hk E. pose proof (local_state np nc ns fr cf _ _ _ E (skipn k (SaveState s))) as X. rewrite firstn_skipn in X.
    pose proof (ReadState_ok s np nc ns fr cf H1 H2 []) as Y. rewrite app_nil_r in Y. rewrite Y in X. injection X as _ X. symmetry in X. apply app_eq_nil in X. destruct X as (_ & X).
    apply (f_equal (@length _)) in X. rewrite skipn_length in X. cbn [length] in X. lia.
  Qed.

  (** crashes *)
  Lemma write_ops (l : list (tok F)) d t0 : d_tmp d = Some t0 -> fold_left do_op (map FWrite l) d = mkDisk (d_chk d) (Some (t0 ++ l)) (d_txt d).
  Proof.
    revert d t0. induction l as [|t l IH]; intros d t0 H; cbn [map fold_left]; [rewrite app_nil_r, <- H; now destruct d|]. rewrite (IH _ (t0 ++ [t])).
    - cbn. now rewrite <- app_assoc.
    - cbn. rewrite H. reflexivity.
  Qed.
  Lemma crash_cases (s : state F) k d : let f := checkpoint_file s in let n := length f in
    crashed s k d = (if k =? 0 then d else if k <=? n + 2 then mkDisk (d_chk d) (Some (firstn (k - 1) f)) (d_txt d)
      else if k =? n + 3 then mkDisk None (Some f) (d_txt d) else mkDisk (Some f) None (d_txt d)).
  Proof.
    intros f n. unfold crashed, WriteCheckpoint. fold f. destruct k as [|k]; [reflexivity|]. cbn [firstn fold_left]. change (S k =? 0) with false. cbn iota. replace (S k - 1) with k by lia.
    rewrite firstn_app, map_length. fold n. rewrite fold_left_app, firstn_map, (write_ops _ _ []) by reflexivity. cbn [app d_chk d_txt do_op].
    destruct (Nat.leb_spec (S k) (n + 2)) as [H|H].
    - destruct (k - n) as [|[|m]] eqn:E; [reflexivity|reflexivity|lia].
    - rewrite (@firstn_all2 _ k f) by (fold n; lia). destruct (Nat.eqb_spec (S k) (n + 3)) as [H2|H2].
      + replace (k - n) with 2 by lia. reflexivity.
      + rewrite (@firstn_all2 _ (k - n)) by (cbn [length]; lia). reflexivity.
  Qed.
End Readers.

(** ** Burn-in *)
Section Burn.
  Context {F : Type} (eqb : F -> F -> bool) (d0 : F) (np mn thin : nat).
  Lemma every_from_app {A} t n (l1 l2 : list A) : every_from t n (l1 ++ l2) = every_from t n l1 ++ every_from t (n + length l1) l2.
  Proof.
    revert n. induction l1 as [|p l1 IH]; intros n; [cbn; now rewrite Nat.add_0_r|]. cbn [every_from app length]. rewrite IH. replace (n + 1 + length l1) with (n + S (length l1)) by lia. destruct (_ =? 0); reflexivity.
  Qed.
  Lemma every_from_in {A} t n (l : list A) x : In x (every_from t n l) -> In x l.
  Proof. revert n. induction l as [|p l IH]; intros n; [auto|]. cbn [every_from]. destruct (_ =? 0); [intros [->|H]; [now left|right; now apply (IH (n + 1))]|intros H; right; now apply (IH (n + 1))]. Qed.
  Lemma count_length x y c : length (count_changes eqb x y c) = length c.
  Proof. revert y c. induction x as [|a x IH]; intros [|b y] [|n c]; cbn [count_changes length]; auto. Qed.
  Lemma count_nth x y c i : length x = length c -> length y = length c -> i < length c ->
    nth i (count_changes eqb x y c) 0 = nth i c 0 + (if eqb (nth i x d0) (nth i y d0) then 0 else 1).
  Proof.
    revert y c i. induction x as [|a x IH]; intros [|b y] [|n c] i H1 H2 Hi; cbn [length] in *; try lia. cbn [count_changes]. destruct i as [|i]; cbn [nth].
    - destruct (eqb a b); lia.
    - apply IH; lia.
  Qed.
  Lemma changes_snoc i (l : list (list F)) y : l <> [] -> changes eqb d0 i (l ++ [y]) = changes eqb d0 i l + (if eqb (nth i y d0) (nth i (last l []) d0) then 0 else 1).
  Proof.
    induction l as [|x l IH]; intros H; [contradiction|]. destruct l as [|z l]; [cbn; lia|].
    assert (E : changes eqb d0 i (x :: (z :: l) ++ [y]) = (if eqb (nth i z d0) (nth i x d0) then 0 else 1) + changes eqb d0 i ((z :: l) ++ [y])) by reflexivity.
    cbn [app] in E |- *. rewrite E. cbn [app] in IH. rewrite IH by discriminate. change (changes eqb d0 i (x :: z :: l)) with ((if eqb (nth i z d0) (nth i x d0) then 0 else 1) + changes eqb d0 i (z :: l)).
    change (last (x :: z :: l) []) with (last (z :: l) []). lia.
  Qed.
  Lemma changes_mono i l y : changes eqb d0 i l <= changes eqb d0 i (l ++ [y]).
  Proof. destruct l as [|x l]; [cbn; lia|]. rewrite changes_snoc by discriminate. lia. Qed.
  Lemma changes_skip i n l : changes eqb d0 i (skipn n l) <= changes eqb d0 i l.
  Proof.
    revert l. induction n as [|n IH]; intros l; [now rewrite skipn_O|]. destruct l as [|x l]; [now cbn|]. cbn [skipn]. specialize (IH l).
    assert (changes eqb d0 i l <= changes eqb d0 i (x :: l)) by (destruct l as [|y l]; [cbn; lia|change (changes eqb d0 i (x :: y :: l)) with ((if eqb (nth i y d0) (nth i x d0) then 0 else 1) + changes eqb d0 i (y :: l)); lia]). lia.
  Qed.
  Definition enough (ev : list (list F)) : Prop := 51 < length ev /\ forall i, i < np -> 51 < changes eqb d0 i (skipn 50 ev).
  Definition inv (ps : list (list F)) (b : burnin F) : Prop := let ev := every_from thin 0 ps in
    b_num b = length ps /\ b_thin b = thin /\
    (if b_done b then enough ev /\ (exists n, b_samples b = skipn n ev /\ n <= length ev /\ (0 < n -> mn <= length (b_samples b)))
     else b_samples b = ev /\ ~ enough ev /\
       match b_changes b with Some c => 51 < length ev /\ length c = np /\ (forall i, i < np -> nth i c 0 = changes eqb d0 i (skipn 50 ev)) | None => length ev <= 51 end).
  Lemma enough_mono ev p : enough ev -> enough (ev ++ [p]).
  Proof.
    intros (H1 & H2). split; [rewrite app_length; lia|]. intros i Hi. rewrite skipn_app. replace (50 - length ev) with 0 by lia. change (skipn 0 [p]) with [p]. specialize (H2 i Hi). pose proof (changes_mono i (skipn 50 ev) p). lia.
  Qed.
  Lemma inv_step ps p b : (forall q, In q ps -> length q = np) -> length p = np -> inv ps b -> inv (ps ++ [p]) (add_point eqb np mn p b).
  Proof.
    intros HL Hp (I1 & I2 & I3). unfold add_point. rewrite I1, I2.
    assert (EV : every_from thin 0 (ps ++ [p]) = every_from thin 0 ps ++ (if (length ps + 1) mod thin =? 0 then [p] else [])).
    { rewrite every_from_app. cbn [every_from Nat.add]. destruct (_ =? 0); reflexivity. }
    unfold inv. rewrite EV, (app_length ps [p]). destruct ((length ps + 1) mod thin =? 0) eqn:C; cbn [negb].
    2:{ cbn [b_num b_thin b_done b_samples b_changes length]. rewrite !app_nil_r. split; [lia|]. split; [reflexivity|]. exact I3. }
    set (ev := every_from thin 0 ps) in *. destruct (b_done b) eqn:D.
    - cbn [b_num b_thin b_done b_samples b_changes length]. split; [lia|]. split; [reflexivity|]. destruct I3 as (J1 & n & J2 & J3 & J4). split; [now apply enough_mono|].
      exists n. rewrite J2. rewrite skipn_app. replace (n - length ev) with 0 by lia. split; [reflexivity|]. rewrite !app_length. split; [lia|]. rewrite J2 in J4. intros Hn. specialize (J4 Hn). lia.
    - destruct I3 as (J1 & J0 & J2). rewrite J1. destruct (50 + 1 <? length (ev ++ [p])) eqn:T.
      2:{ apply Nat.ltb_ge in T. cbn [b_num b_thin b_done b_samples b_changes length]. split; [lia|]. split; [reflexivity|]. split; [reflexivity|]. split; [intros (X & _); lia|].
          destruct (b_changes b) as [c|]; [|exact T]. destruct J2 as (K0 & _). rewrite app_length in T. lia. }
      apply Nat.ltb_lt in T. rewrite app_length in T. cbn [length] in T.
      assert (NE : ev <> []) by (intros Z; rewrite Z in T; cbn in T; lia).
      assert (LP : nth (length (ev ++ [p]) - 2) (ev ++ [p]) [] = last ev []).
      { rewrite app_length. cbn [length]. replace (length ev + 1 - 2) with (length ev - 1) by lia. rewrite app_nth1 by lia. destruct (exists_last NE) as (l & z & Ez). rewrite Ez, last_last, app_length. cbn [length]. replace (length l + 1 - 1) with (length l) by lia. now rewrite nth_middle. }
      rewrite LP. set (c0 := match b_changes b with Some c => c | None => repeat 0 np end).
      assert (C0 : length c0 = np /\ forall i, i < np -> nth i c0 0 = changes eqb d0 i (skipn 50 ev)).
      { unfold c0. destruct (b_changes b) as [c|]; [exact (proj2 J2)|]. split; [apply repeat_length|]. intros i Hi. rewrite nth_repeat.
        assert (LS : length (skipn 50 ev) = 1) by (rewrite skipn_length; lia). destruct (skipn 50 ev) as [|x [|y l]]; cbn in LS; try lia. reflexivity. }
      destruct C0 as (C1 & C2). assert (LL : length (last ev []) = np).
      { destruct (exists_last NE) as (l & z & Ez). rewrite Ez, last_last. apply HL. apply (every_from_in thin 0). fold ev. rewrite Ez. apply in_app_iff. right. now left. }
      set (c := count_changes eqb p (last ev []) c0).
      assert (SK : skipn 50 (ev ++ [p]) = skipn 50 ev ++ [p]) by (rewrite skipn_app; replace (50 - length ev) with 0 by lia; reflexivity).
      assert (SL : last (skipn 50 ev) [] = last ev []).
      { destruct (exists_last NE) as (l & z & Ez). rewrite Ez in *. rewrite app_length in T. cbn [length] in T. rewrite skipn_app. replace (50 - length l) with 0 by lia. change (skipn 0 [z]) with [z]. now rewrite !last_last. }
      assert (SN : skipn 50 ev <> []) by (intros Z; apply (f_equal (@length _)) in Z; rewrite skipn_length in Z; cbn [length] in Z; lia).
      assert (CN : forall i, i < np -> nth i c 0 = changes eqb d0 i (skipn 50 (ev ++ [p]))).
      { intros i Hi. unfold c. rewrite count_nth by congruence. rewrite SK, changes_snoc, SL by exact SN. now rewrite C2. }
      assert (CL : length c = np) by (unfold c; rewrite count_length; exact C1).
      destruct (forallb _ c) eqn:A; cbn [b_num b_thin b_done b_samples b_changes length].
      + split; [lia|]. split; [reflexivity|]. split.
        * split; [rewrite app_length; cbn [length]; lia|]. intros i Hi. specialize (CN i Hi). rewrite forallb_forall in A. assert (Hc : i < length c) by (rewrite CL; exact Hi). specialize (A (nth i c 0) (nth_In c 0 Hc)). apply Nat.ltb_lt in A. lia.
        * rewrite app_length. cbn [length]. destruct (Nat.ltb_spec mn (length ev + 1)) as [M|M].
          { exists (length ev + 1 - mn). split; [|split; [lia|]].
            - pose proof (DeleteRange_app [] (firstn (length ev + 1 - mn) (ev ++ [p])) (skipn (length ev + 1 - mn) (ev ++ [p]))) as X. cbn [app length Nat.add] in X. rewrite firstn_skipn in X.
              rewrite firstn_length, app_length in X. cbn [length] in X. rewrite Nat.min_l in X by lia. exact X.
            - intros _. pose proof (DeleteRange_app [] (firstn (length ev + 1 - mn) (ev ++ [p])) (skipn (length ev + 1 - mn) (ev ++ [p]))) as X. cbn [app length Nat.add] in X. rewrite firstn_skipn in X.
              rewrite firstn_length, app_length in X. cbn [length] in X. rewrite Nat.min_l in X by lia. rewrite X, skipn_length, app_length. cbn [length]. lia. }
          { exists 0. split; [reflexivity|]. split; [lia|]. lia. }
      + split; [lia|]. split; [reflexivity|]. split; [reflexivity|]. split; [|split; [rewrite app_length; cbn [length]; lia|split; [exact CL|exact CN]]].
        intros (_ & G). apply not_true_iff_false in A. apply A. apply forallb_forall. intros n Hn. apply (In_nth _ _ 0) in Hn. destruct Hn as (i & Hi & <-). rewrite CL in Hi. apply Nat.ltb_lt. rewrite CN by exact Hi. now apply G.
  Qed.
  Lemma inv_run ps : (forall q, In q ps -> length q = np) -> inv ps (add_points eqb np mn ps (burn_start thin)).
  Proof.
    unfold add_points. induction ps as [|p ps IH] using rev_ind; intros H; [repeat split; [intros (X & _); cbn in X; lia|cbn; lia]|]. rewrite fold_left_app. cbn [fold_left]. apply inv_step.
    - intros q Hq. apply H. apply in_app_iff. now left.
    - apply H. apply in_app_iff. right. now left.
    - apply IH. intros q Hq. apply H. apply in_app_iff. now left.
  Qed.
End Burn.

(** ** Covariances *)
Local Open Scope R_scope.
Lemma sumR_map_ext {A} (f g : A -> R) l : (forall x, In x l -> f x = g x) -> sumR (map f l) = sumR (map g l).
Proof. induction l as [|x l IH]; intros H; [reflexivity|]. cbn. rewrite H by now left. f_equal. apply IH. intros y Hy. apply H. now right. Qed.
Lemma sumR_map_plus {A} (f g : A -> R) l : sumR (map (fun x => f x + g x) l) = sumR (map f l) + sumR (map g l).
Proof. induction l as [|x l IH]; cbn; [ring|]. unfold sumR in IH. rewrite IH. ring. Qed.
Lemma sumR_map_scal {A} a (f : A -> R) l : sumR (map (fun x => a * f x) l) = a * sumR (map f l).
Proof. induction l as [|x l IH]; cbn; [ring|]. unfold sumR in IH. rewrite IH. ring. Qed.
Lemma sumR_map_nonneg {A} (f : A -> R) l : (forall x, In x l -> 0 <= f x) -> 0 <= sumR (map f l).
Proof. induction l as [|x l IH]; intros H; cbn; [lra|]. pose proof (H x (or_introl eq_refl)). specialize (IH (fun y Hy => H y (or_intror Hy))). unfold sumR in IH. lra. Qed.
Lemma Sm_const n a : Sm n (fun _ => a) = INR n * a.
Proof. induction n as [|n IH]; [rewrite Sm_0; cbn; ring|]. rewrite Sm_S, IH, S_INR. ring. Qed.
Lemma chain_mean_sum c i : (0 < fst c)%nat -> chain_mean c i * chain_n c = Sm (fst c) (fun k => snd c k i).
Proof. intros H. unfold chain_mean, chain_n. field. apply not_0_INR. lia. Qed.
Lemma chain_dev c i : (0 < fst c)%nat -> Sm (fst c) (fun k => snd c k i - chain_mean c i) = 0.
Proof.
  intros H. rewrite (Sm_ext _ _ (fun k => snd c k i + (-1) * chain_mean c i)) by (intros; ring). rewrite Sm_plus, <- chain_mean_sum by exact H. rewrite Sm_const. unfold chain_n. ring.
Qed.
Lemma chain_split c i j a b : (0 < fst c)%nat ->
  Sm (fst c) (fun k => (snd c k i - a) * (snd c k j - b)) = chain_n c * chain_cov c i j + chain_n c * (chain_mean c i - a) * (chain_mean c j - b).
Proof.
  intros H. rewrite (Sm_ext _ _ (fun k => ((snd c k i - chain_mean c i) * (snd c k j - chain_mean c j) + (chain_mean c j - b) * (snd c k i - chain_mean c i)) +
    ((chain_mean c i - a) * (snd c k j - chain_mean c j) + (chain_mean c i - a) * (chain_mean c j - b)))) by (intros; ring).
  rewrite Sm_plus, (Sm_plus _ (fun k => (snd c k i - chain_mean c i) * _)), (Sm_plus _ (fun k => (chain_mean c i - a) * (snd c k j - chain_mean c j))), !Sm_scal, !chain_dev, Sm_const by exact H.
  unfold chain_cov. unfold chain_n. field. apply not_0_INR. lia.
Qed.

Lemma pool_norm_pos cs : cs <> [] -> nonempty cs -> 0 < pool_norm cs.
Proof.
  intros H1 H2. destruct cs as [|c cs]; [contradiction|]. unfold pool_norm. cbn. assert (0 < chain_n c) by (apply lt_0_INR, H2; now left).
  assert (0 <= sumR (map chain_n cs)) by (apply sumR_map_nonneg; intros; apply pos_INR). unfold sumR in H0. lra.
Qed.
Lemma pool_mean_all cs i : nonempty cs -> pool_mean cs i = all_mean cs i.
Proof. intros H. unfold pool_mean, all_mean, all_n, pool_norm, chain_n. f_equal. apply sumR_map_ext. intros c Hc. apply (chain_mean_sum c i). now apply H. Qed.
Lemma all_cov_split cs i j : (1 < length cs)%nat -> nonempty cs ->
  all_cov cs i j = MPICovMat cs i j + (INR (length cs) - 1) / INR (length cs) * meanscov cs i j.
Proof.
  intros HL H. assert (cs <> []) by (destruct cs; [cbn in HL; lia|discriminate]). pose proof (pool_norm_pos cs H0 H) as HP.
  assert (H1 : 1 < INR (length cs)) by (apply (lt_INR 1); exact HL).
  unfold all_cov, MPICovMat, meanscov. change (all_n cs) with (pool_norm cs).
  rewrite (sumR_map_ext _ (fun c => chain_n c * chain_cov c i j + chain_n c * (chain_mean c i - pool_mean cs i) * (chain_mean c j - pool_mean cs j))).
  - rewrite sumR_map_plus. field. lra.
  - intros c Hc. rewrite !pool_mean_all by exact H. apply chain_split. now apply H.
Qed.
Lemma chain_cov_sym c i j : chain_cov c i j = chain_cov c j i.
Proof. unfold chain_cov. f_equal. apply Sm_ext. intros; ring. Qed.
Lemma cov_sym cs i j : MPICovMat cs i j = MPICovMat cs j i.
Proof. unfold MPICovMat. f_equal. apply sumR_map_ext. intros c _. now rewrite chain_cov_sym. Qed.
Lemma chain_form c n (v : nat -> R) : (0 < fst c)%nat ->
  Sm n (fun i => Sm n (fun j => v i * v j * (chain_n c * chain_cov c i j))) = Sm (fst c) (fun k => Sm n (fun i => v i * (snd c k i - chain_mean c i)) * Sm n (fun i => v i * (snd c k i - chain_mean c i))).
Proof.
  intros H. assert (E : forall i j, chain_n c * chain_cov c i j = Sm (fst c) (fun k => (snd c k i - chain_mean c i) * (snd c k j - chain_mean c j))).
  { intros i j. unfold chain_cov, chain_n. field. apply not_0_INR. lia. }
  rewrite (Sm_ext n _ (fun i => Sm (fst c) (fun k => Sm n (fun j => v i * (snd c k i - chain_mean c i) * (v j * (snd c k j - chain_mean c j)))))).
  - rewrite Sm_swap. apply Sm_ext. intros k _. rewrite (Sm_ext n _ (fun i => Sm n (fun j => v j * (snd c k j - chain_mean c j)) * (v i * (snd c k i - chain_mean c i)))).
    + rewrite Sm_scal. reflexivity.
    + intros i _. rewrite Sm_scal. ring.
  - intros i _. rewrite Sm_swap. apply Sm_ext. intros j _. rewrite E, <- Sm_scal. apply Sm_ext. intros; ring.
Qed.
Lemma Sm_nonneg' n f : (forall i, (i < n)%nat -> 0 <= f i) -> 0 <= Sm n f.
Proof. induction n as [|n IH]; intros H; [rewrite Sm_0; lra|]. rewrite Sm_S. pose proof (H n ltac:(lia)). specialize (IH ltac:(intros; apply H; lia)). lra. Qed.
Lemma Sm_sumR {A} n (f : nat -> A -> R) l : Sm n (fun i => sumR (map (f i) l)) = sumR (map (fun a => Sm n (fun i => f i a)) l).
Proof. induction l as [|a l IH]; cbn [map]; [unfold sumR; cbn; rewrite Sm_const; ring|]. unfold sumR in *. cbn [fold_right]. rewrite Sm_plus, IH. reflexivity. Qed.
Lemma cov_psd cs n v : cs <> [] -> nonempty cs -> 0 <= Sm n (fun i => Sm n (fun j => v i * v j * MPICovMat cs i j)).
Proof.
  intros H0 H. pose proof (pool_norm_pos cs H0 H) as HP. unfold MPICovMat.
  rewrite (Sm_ext n _ (fun i => / pool_norm cs * sumR (map (fun c => Sm n (fun j => v i * v j * (chain_n c * chain_cov c i j))) cs))).
  - rewrite Sm_scal. apply Rmult_le_pos; [left; now apply Rinv_0_lt_compat|]. rewrite Sm_sumR. apply sumR_map_nonneg. intros c Hc. rewrite chain_form by now apply H.
    apply Sm_nonneg'. intros k _. apply Rle_0_sqr.
  - intros i _. rewrite <- Sm_sumR, <- Sm_scal. apply Sm_ext. intros j _. rewrite sumR_map_scal. field. lra.
Qed.

Lemma cov_below cs : (1 < length cs)%nat -> nonempty cs -> forall n v,
  Sm n (fun i => Sm n (fun j => v i * v j * MPICovMat cs i j)) <= Sm n (fun i => Sm n (fun j => v i * v j * all_cov cs i j)).
Proof.
  intros HL H n v. assert (H0 : cs <> []) by (destruct cs; [cbn in HL; lia|discriminate]). pose proof (pool_norm_pos cs H0 H) as HP.
  assert (H1 : 1 < INR (length cs)) by (apply (lt_INR 1); exact HL).
  rewrite (Sm_ext n (fun i => Sm n (fun j => v i * v j * all_cov cs i j)) (fun i => Sm n (fun j => v i * v j * MPICovMat cs i j) +
    / pool_norm cs * sumR (map (fun c => Sm n (fun j => chain_n c * (v i * (chain_mean c i - pool_mean cs i)) * (v j * (chain_mean c j - pool_mean cs j)))) cs))).
  - rewrite Sm_plus. enough (0 <= Sm n (fun i => / pool_norm cs * sumR (map (fun c => Sm n (fun j => chain_n c * (v i * (chain_mean c i - pool_mean cs i)) * (v j * (chain_mean c j - pool_mean cs j)))) cs))) by lra.
    rewrite Sm_scal. apply Rmult_le_pos; [left; now apply Rinv_0_lt_compat|]. rewrite Sm_sumR. apply sumR_map_nonneg. intros c Hc.
    rewrite (Sm_ext n _ (fun i => (chain_n c * Sm n (fun j => v j * (chain_mean c j - pool_mean cs j))) * (v i * (chain_mean c i - pool_mean cs i)))).
    + rewrite Sm_scal. set (z := Sm n _). replace (chain_n c * z * z) with (chain_n c * (z * z)) by ring. apply Rmult_le_pos; [apply pos_INR|apply Rle_0_sqr].
    + intros i _. rewrite Sm_scal. ring.
  - intros i _. rewrite <- Sm_sumR, <- Sm_scal, <- Sm_plus. apply Sm_ext. intros j _. rewrite all_cov_split by assumption. unfold meanscov.
    rewrite (sumR_map_ext (fun c => chain_n c * (v i * (chain_mean c i - pool_mean cs i)) * (v j * (chain_mean c j - pool_mean cs j))) (fun c => (v i * v j) * (chain_n c * (chain_mean c i - pool_mean cs i) * (chain_mean c j - pool_mean cs j)))) by (intros; ring).
    rewrite sumR_map_scal. field. lra.
Qed.

(** ** Convergence *)
Lemma rlt_true x y : rlt x y = true <-> x < y.
Proof. unfold rlt. destruct (Rlt_dec x y); split; auto; discriminate. Qed.
Lemma check_stop o n f lim r : v_stop (check o n f lim r) = true -> (1 < n)%nat /\ f = true /\ (o_limits o = true -> lim = true) /\ exists x, r = Some x /\ x < o_stop o.
Proof.
  unfold check. destruct (Nat.ltb_spec 1 n) as [H|H]; cbn; [|discriminate]. destruct r as [x|]; [|discriminate]. rewrite !andb_true_iff, orb_true_iff, negb_true_iff, rlt_true.
  intros ((H1 & H2) & H3). split; [exact H|]. split; [exact H2|]. split; [destruct H3 as [H3|H3]; [rewrite H3; discriminate|auto]|]. now exists x.
Qed.

Lemma check_good o n f lim r rest : v_stop (check o n f lim r) = true <-> good o n f ((r, lim) :: rest) 0.
Proof.
  split.
  - intros H. apply check_stop in H. destruct H as (H1 & H2 & H3 & x & -> & H4). split; [exact H1|]. split; [exists x, lim; auto|exact H2].
  - intros (H1 & (x & lm & H2 & H3 & H4) & H5). cbn in H2. injection H2 as -> ->. cbn in H5. subst f. unfold check. apply Nat.ltb_lt in H1. rewrite H1. cbn.
    rewrite (proj2 (rlt_true _ _) H3). cbn. destruct (o_limits o); [cbn; now apply H4|reflexivity].
Qed.
Lemma before_S r lim rest k : before (S k) ((r, lim) :: rest) = match before k rest with Some y => Some y | None => r end.
Proof.
  unfold before. cbn [firstn map fst]. set (l := map fst (firstn k rest)). clearbody l. cbn [fold_left]. generalize r. clear.
  assert (G : forall l (a : option R), fold_left (fun a r => match r with Some x => Some x | None => a end) l a = match fold_left (fun a r => match r with Some x => Some x | None => a end) l None with Some y => Some y | None => a end).
  { clear. induction l as [|x l IH]; intros a; [reflexivity|]. cbn [fold_left]. rewrite IH, (IH (match x with Some _ => _ | None => None end)). destruct (fold_left _ l None), x; reflexivity. }
  intros r. rewrite G. destruct r; reflexivity.
Qed.
Lemma good_S o n f r lim rest k : good o n f ((r, lim) :: rest) (S k) <-> good o n (v_fluke (check o n f lim r)) rest k.
Proof.
  unfold good. cbn [nth_error]. rewrite before_S. split; intros (H1 & H2 & H3); (split; [exact H1|]; split; [exact H2|]); unfold check in *; pose proof H1 as H1'; apply Nat.ltb_lt in H1'; rewrite H1' in *; cbn in *.
  - destruct (before k rest) as [y|]; [exact H3|]. destruct r as [x|]; [now apply rlt_true|exact H3].
  - destruct (before k rest) as [y|]; [exact H3|]. destruct r as [x|]; [now apply rlt_true|exact H3].
Qed.
Lemma checks_least o n f rs k : fst (checks o n f rs) = Some k <-> good o n f rs k /\ forall j, (j < k)%nat -> ~ good o n f rs j.
Proof.
  revert f k. induction rs as [|(r, lim) rest IH]; intros f k.
  - cbn. split; [discriminate|]. intros ((_ & (x & l & H & _) & _) & _). destruct k; discriminate.
  - cbn [checks]. destruct (v_stop (check o n f lim r)) eqn:E.
    + cbn [fst]. pose proof (proj1 (check_good o n f lim r rest) E) as G. split.
      * intros [= <-]. split; [exact G|]. intros j Hj. lia.
      * intros (_ & H). destruct k as [|k]; [reflexivity|]. exfalso. apply (H 0%nat); [lia|exact G].
    + assert (G : ~ good o n f ((r, lim) :: rest) 0) by (intros G; apply check_good in G; congruence).
      specialize (IH (v_fluke (check o n f lim r))). destruct (checks o n (v_fluke (check o n f lim r)) rest) as (k', f'). cbn [fst] in *. split.
      * destruct k' as [k'|]; [|discriminate]. cbn. intros [= <-]. destruct (proj1 (IH k') eq_refl) as (A & B). split; [now apply good_S|]. intros [|j] Hj; [exact G|]. rewrite good_S. apply B. lia.
      * intros (A & B). destruct k as [|k]; [contradiction|]. rewrite good_S in A. assert (C : k' = Some k). { apply IH. split; [exact A|]. intros j Hj H. apply (B (S j)); [lia|]. now apply good_S. } rewrite C. reflexivity.
Qed.

Lemma before_in rs k x : before k rs = Some x -> exists j, (j < k)%nat /\ nth_error (map fst rs) j = Some (Some x).
Proof.
  revert k. induction rs as [|(r, lim) rest IH]; intros k; [unfold before; rewrite firstn_nil; discriminate|]. destruct k as [|k]; [discriminate|]. rewrite before_S.
  destruct (before k rest) as [y|] eqn:E; [|intros ->; exists 0%nat; split; [lia|reflexivity]]. intros [= <-]. destruct (IH k E) as (j & Hj & Hx). exists (S j). split; [lia|exact Hx].
Qed.
