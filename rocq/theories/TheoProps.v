(** C111: theory predictions in files *)
From Coq Require Import Reals List Bool Arith Lia Lra.
From Verif Require Import TheoModel TheoSpec TheoProofs.
Import ListNotations.
Local Open Scope R_scope.

(** C111: a theory can be written whenever it holds what its settings ask for, and is read by a program with any settings [s]:
    exactly its items are taken from the file; numbers, power spectra and splines come back;
    each C_l asked for has the length asked for, with the values of the file and zeros behind them. *)
Theorem C111_settings {S} (s sF : settings) (t t0 : theory (S:=S)) : holds sF t -> kmax s = kmax sF ->
  (use_matterpower s = true -> use_matterpower sF = true -> differ (redshifts sF) (redshifts s) = false) ->
  exists f, write_body sF t = Some f /\ forall rest, exists t', ReadTheory s sF t0 false (f ++ rest) = Some (t', sF, rest) /\ scalars_same t t' /\ power_same sF t t' /\
   (forall i j, (1 <= j <= i)%nat -> (i <= num_cls s)%nat -> (0 < lmax s i j)%nat ->
      exists c, cls t' i j = Some c /\ length c = lmax s i j /\
        (forall l, (i <= num_cls sF)%nat -> (0 < lmax sF i j)%nat -> cls t i j = Some l -> forall k, (k < lmax s i j)%nat -> nth k c 0 = nth k l 0) /\
        (~ ((i <= num_cls sF)%nat /\ (0 < lmax sF i j)%nat) -> c = repeat 0 (lmax s i j))) /\
   (forall i j, ~ ((1 <= j <= i)%nat /\ (i <= num_cls s)%nat /\ (0 < lmax s i j)%nat) -> cls t' i j = None).
Proof.
  intros H HK HR. destruct (write_total sF t H) as (f & W). exists f. split; [exact W |]. intro rest.
  destruct (read_body s sF t t0 f rest H HK HR W) as (t' & E1 & E2 & E3 & E4 & E5 & _). exists t'. auto.
Qed.
Print Assumptions C111_settings.

Lemma differ_same l : differ l l = false.
Proof.
  unfold differ. induction l as [| x l IH]; [reflexivity |]. cbn [combine existsb fst snd]. rewrite IH. destruct (Rlt_dec 1e-6 (Rabs (x - x))) as [H | H]; [| reflexivity].
  rewrite Rminus_diag_eq, Rabs_R0 in H by reflexivity. lra.
Qed.
(** what is the same after a file with the same settings *)
Definition back {S} (s : settings) (t t' : theory (S:=S)) : Prop :=
  scalars_same t t' /\ power_same s t t' /\ (forall i j, (1 <= j <= i)%nat -> (i <= num_cls s)%nat -> (0 < lmax s i j)%nat -> cls t' i j = cls t i j).
Lemma body_back {S} (s : settings) (t t0 : theory (S:=S)) f rest : holds s t -> write_body s t = Some f ->
  exists t', ReadTheory s s t0 false (f ++ rest) = Some (t', s, rest) /\ back s t t'.
Proof.
  intros H W. destruct (read_body s s t t0 f rest H eq_refl (fun _ _ => differ_same _) W) as (t' & E1 & E2 & E3 & E4 & E5 & _). exists t'. split; [exact E1 |].
  split; [exact E2 |]. split; [exact E5 |]. intros i j Q1 Q2 Q3. destruct (E3 i j Q1 Q2 Q3) as (c & Ec & Lc & Vc & _). rewrite Ec.
  destruct (proj1 H i j Q1 Q2 Q3) as (l & El & Ll). rewrite El. f_equal. apply (nth_ext c l 0 0); [congruence |]. intros k Hk. apply Vc; try assumption. congruence.
Qed.
(** reading n theories *)
Fixpoint read_many {S} (s fs : settings) (t0 : theory (S:=S)) (first : bool) (n : nat) (f : list (item (S:=S))) : option (list (theory (S:=S)) * list (item (S:=S))) :=
  match n with
  | O => Some ([], f)
  | Datatypes.S n => match ReadTheory s fs t0 first f with
                     | None => None
                     | Some (t, fs, f) => match read_many s fs t0 false n f with Some (ts, f) => Some (t :: ts, f) | None => None end
                     end
  end.
Fixpoint write_many {S} (s : settings) (first : bool) (ts : list (theory (S:=S))) : option (list (item (S:=S))) :=
  match ts with [] => Some [] | t :: ts => app_items (WriteTheory s true first t) (write_many s false ts) end.
Lemma many_bodies {S} (s : settings) (t0 : theory (S:=S)) : forall ts, Forall (holds s) ts ->
  exists f, write_many s false ts = Some f /\ forall rest, exists ts', read_many s s t0 false (length ts) (f ++ rest) = Some (ts', rest) /\ Forall2 (back s) ts ts'.
Proof.
  induction ts as [| t ts IH]; intro H.
  - exists []. split; [reflexivity |]. intro rest. exists []. split; [reflexivity | constructor].
  - inversion H as [| ? ? H1 H2]; subst. destruct (IH H2) as (f & W & R). destruct (write_total s t H1) as (g & G). cbn [write_many]. unfold WriteTheory. cbn [andb]. rewrite G, W.
    exists (g ++ f). split; [reflexivity |]. intro rest. destruct (body_back s t t0 g (f ++ rest) H1 G) as (t' & E & B). cbn [length read_many]. rewrite <- app_assoc, E.
    destruct (R rest) as (ts' & E2 & F). rewrite E2. exists (t' :: ts'). split; [reflexivity | now constructor].
Qed.
(** C111: a file with the header and any number of theories, such as the .data file of a chain, gives back all of them in order. *)
Theorem C111_sequence {S} (s fs : settings) (t0 : theory (S:=S)) t ts rest : Forall (holds s) (t :: ts) -> kmax fs = kmax s -> use_CMB s = true -> use_LSS s = true ->
  exists f, write_many s true (t :: ts) = Some f /\ exists ts', read_many s fs t0 true (length (t :: ts)) (f ++ rest) = Some (ts', rest) /\ Forall2 (back s) (t :: ts) ts'.
Proof.
  intros H HK HC HL. inversion H as [| ? ? H1 H2]; subst. destruct (write_total s t H1) as (g & G). destruct (many_bodies s t0 ts H2) as (f & W & R).
  cbn [write_many]. unfold WriteTheory. cbn [andb]. rewrite G, W. cbn [app_items]. eexists. split; [reflexivity |].
  destruct (body_back s t t0 g (f ++ rest) H1 G) as (t' & E & B). destruct (R rest) as (ts' & E2 & F).
  exists (t' :: ts'). split; [| now constructor]. cbn [length read_many]. rewrite <- !app_assoc. unfold header. rewrite HL, HC. 
  assert (Q : ReadTheory s fs t0 true ((Params s :: [Sized (redshifts s)] ++ [Lmax (lmax s)] ++ [Sized [6]]) ++ g ++ f ++ rest) = ReadTheory s s t0 false (g ++ f ++ rest)).
  { unfold ReadTheory at 1. unfold read_header. cbn [app]. rewrite HL, HC, HK.
    replace (mkSt (num_cls s) true true (use_matterpower s) (use_nonlinear s) (use_Weylpower s) (use_sigmaR s) (compute_tensors s) (get_sigma8 s) (lmax s) (redshifts s) (kmax s)) with s; [reflexivity |].
    destruct s; cbn in *. now subst. }
  rewrite Q, E, E2. reflexivity.
Qed.
Print Assumptions C111_sequence.

(** C111: a spectrum of logarithms gives the same power at every wavenumber and redshift when it was read from a file. *)
Theorem C111_power_partial {S} (s sF : settings) (t t0 : theory (S:=S)) f rest t' : holds sF t -> kmax s = kmax sF ->
  (use_matterpower s = true -> use_matterpower sF = true -> differ (redshifts sF) (redshifts s) = false) ->
  write_body sF t = Some f -> ReadTheory s sF t0 false (f ++ rest) = Some (t', sF, rest) -> use_matterpower sF = true ->
  forall V k z, let same o o' := exists p q, o = Some p /\ o' = Some q /\ (islog p = true -> PowerAt V p k z = PowerAt V q k z) in
  same (MPK t) (MPK t') /\ (use_nonlinear sF = true -> same (NL_MPK t) (NL_MPK t')) /\
  (use_Weylpower sF = true -> same (WEYL t) (WEYL t') /\ same (CROSS t) (CROSS t')) /\
  (use_nonlinear sF = true -> use_Weylpower sF = true -> same (NL_WEYL t) (NL_WEYL t') /\ same (NL_CROSS t) (NL_CROSS t')).
Proof.
  intros H HK HR W E M V k z same. destruct (read_body s sF t t0 f rest H HK HR W) as (t1 & E1 & _ & _ & _ & [E5 _] & E6).
  assert (t1 = t') as -> by congruence. specialize (E5 M). specialize (E6 M).
  assert (G : forall o o', same_values o o' -> is_log o' -> same o o').
  { intros [p |] [q |] SV IL; cbn in *; try contradiction. exists p, q. split; [reflexivity |]. split; [reflexivity |]. intro LP. destruct SV as (S1 & S2 & S3).
    unfold PowerAt. now rewrite LP, IL, S1, S2, S3. }
  destruct E5 as (A1 & A2 & A3 & A4 & _), E6 as (B1 & B2 & B3 & B4).
  split; [apply G; assumption |]. split; [intro h; apply G; auto |]. split.
  - intro h. specialize (A3 h). specialize (B3 h). split; apply G; tauto.
  - intros h1 h2. specialize (A4 h1 h2). specialize (B4 h1 h2). split; apply G; tauto.
Qed.
Print Assumptions C111_power_partial.

(** an example: TT and EE, matter, Weyl and cross power on a grid of two wavenumbers *)
Definition st1 : settings := mkSt 2 true true true false true false false false (fun i j => if (i =? j)%nat then 3%nat else 0%nat) [0] 1.
Definition one : pk := mkPk [0; 1] [0] [[2; 3]] true.
Definition th1 : theory (S:=nat) :=
  mkT [1; 2] (fun i j => if (i =? j)%nat then Some [1; 2; INR i] else None) 0 0 0 0 0 (8/10) (Some one) None (Some one) (Some (mkPk [0; 1] [0] [[2; 3]] false)) None None None (Some 1%nat) (Some 2%nat).
Lemma holds1 : holds st1 th1.
Proof.
  split; [| split].
  - intros i j H1 H2 H3. cbn in *. destruct (i =? j)%nat; [eexists; split; [reflexivity | reflexivity] | lia].
  - intros _. exists [0; 1], [0]. cbn [kmax st1 last]. rewrite ln_1. split; [lra |].
    split; [exists one; cbn; repeat split; repeat constructor |]. split; [discriminate |].
    split; [intros _; split; [exists one; cbn; repeat split; repeat constructor | eexists; split; [reflexivity |]; cbn; repeat split; repeat constructor] |].
    split; discriminate.
  - intros _. split; discriminate.
Qed.
(** Finding (CosmoTheory.f90 386-409): whether a spectrum holds logarithms is not in the file, and a spectrum that is read counts as logarithms.
    The cross power of matter and Weyl potential is stored as it is (Calculator_CAMB.f90 539, 620), so after the file it is the exponential of what it was. *)
Theorem C111_islog_refuted : exists (s : settings) (t t0 : theory (S:=nat)), holds s t /\ exists f t' p q, write_body s t = Some f /\ ReadTheory s s t0 false f = Some (t', s, []) /\
  CROSS t = Some p /\ CROSS t' = Some q /\ forall V k z, PowerAt V q k z = exp (PowerAt V p k z) /\ PowerAt V q k z <> PowerAt V p k z.
Proof.
  exists st1, th1, th1. split; [exact holds1 |]. destruct (write_total st1 th1 holds1) as (f & W). exists f.
  destruct (read_body st1 st1 th1 th1 f [] holds1 eq_refl (fun _ _ => differ_same _) W) as (t' & E1 & _ & _ & _ & [E5 _] & E6).
  rewrite app_nil_r in E1. specialize (E5 eq_refl). specialize (E6 eq_refl). destruct E5 as (_ & _ & A & _), E6 as (_ & _ & B & _).
  destruct (A eq_refl) as [_ A2]. destruct (B eq_refl) as [_ B2]. cbn [CROSS th1] in A2. destruct (CROSS t') as [q |] eqn:EQ; [| contradiction].
  exists t'. eexists. exists q. split; [exact W |]. split; [exact E1 |]. split; [reflexivity |]. split; [exact EQ |]. intros V k z. destruct A2 as (A3 & A4 & A5). cbn in A3, A4, A5, B2.
  unfold PowerAt. rewrite B2, <- A3, <- A4, <- A5. cbn. split; [reflexivity |]. pose proof (exp_ineq1_le (V [0; 1] [0] [[2; 3]] (ln k) z)). lra.
Qed.
Print Assumptions C111_islog_refuted.
(** Finding (CosmoTheory.f90 368): redshifts of different number pass the comparison if they agree where both have values. *)
Theorem C111_redshifts_refuted : forall r l, differ r (r ++ l) = false /\ differ (r ++ l) r = false.
Proof.
  induction r as [| x r IH]; intro l.
  - split; [reflexivity |]. now destruct l.
  - specialize (IH l). unfold differ in *. cbn [app combine existsb fst snd]. destruct IH as [-> ->].
    destruct (Rlt_dec 1e-6 (Rabs (x - x))) as [H | H]; [| auto]. rewrite Rminus_diag_eq, Rabs_R0 in H by reflexivity. lra.
Qed.
Print Assumptions C111_redshifts_refuted.

(** C111: the array of a spectrum is the same for both orders of the fields, has the length asked for, and is zero behind the values there are. *)
Theorem C111_array {S} (t : theory (S:=S)) n i j : ClArray t n i j = ClArray t n j i /\
  (forall c, (j <= i)%nat -> cls t i j = Some c -> exists a, ClArray t n i j = Some a /\ length a = n /\ forall k, (k < n)%nat -> nth k a 0 = nth k c 0) /\
  ((j <= i)%nat -> cls t i j = None -> ClArray t n i j = None).
Proof.
  split; [| split].
  - unfold ClArray. destruct (Nat.ltb_spec i j), (Nat.ltb_spec j i); try lia; try reflexivity. assert (i = j) as -> by lia. reflexivity.
  - intros c L E. unfold ClArray. destruct (Nat.ltb_spec i j); [lia |]. rewrite E. eexists. split; [reflexivity |].
    split; [rewrite app_length, firstn_length, repeat_length; lia |]. intros k Hk.
    destruct (Nat.lt_ge_cases k (length c)) as [Q | Q].
    + rewrite app_nth1 by (rewrite firstn_length; lia). rewrite <- (firstn_skipn (Nat.min n (length c)) c) at 3. rewrite app_nth1; [reflexivity | rewrite firstn_length; lia].
    + rewrite (nth_overflow c) by lia. rewrite app_nth2 by (rewrite firstn_length; lia). apply nth_repeat.
  - intros L E. unfold ClArray. destruct (Nat.ltb_spec i j); [lia |]. now rewrite E.
Qed.
Print Assumptions C111_array.
(** place of the pair (i, j) in a list of spectra: all with smaller i first, then j from i down *)
Definition place (i j : nat) : nat := (i * (i - 1) / 2 + (i - j))%nat.
Lemma len_pairs n : length (pairs n) = (n * (n + 1) / 2)%nat.
Proof.
  induction n as [| n IH]; [reflexivity |]. unfold pairs in *. rewrite seq_S, map_app, concat_app, app_length, IH. cbn [map concat]. rewrite app_nil_r, map_length, rev_length, seq_length.
  replace (Datatypes.S n * (Datatypes.S n + 1))%nat with (n * (n + 1) + (1 + n) * 2)%nat by lia. rewrite Nat.div_add by lia. lia.
Qed.
Lemma nth_pairs n i j : (1 <= j <= i)%nat -> (i <= n)%nat -> nth (place i j) (pairs n) (0, 0)%nat = (i, j) /\ (place i j < length (pairs n))%nat.
Proof.
  intros H1 H2. induction n as [| n IH]; [lia |].
  assert (EP : pairs (Datatypes.S n) = pairs n ++ map (fun b => (Datatypes.S n, b)) (rev (seq 1 (Datatypes.S n)))).
  { unfold pairs. rewrite seq_S at 1. rewrite map_app, concat_app. cbn [map concat Nat.add]. now rewrite app_nil_r. }
  rewrite EP, app_length, map_length, rev_length, seq_length. destruct (Nat.eq_dec i (Datatypes.S n)) as [-> | N].
  - assert (PL : place (Datatypes.S n) j = (length (pairs n) + (Datatypes.S n - j))%nat).
    { rewrite len_pairs. unfold place. f_equal. f_equal. lia. }
    rewrite PL. split; [| lia]. rewrite app_nth2_plus.
    rewrite (nth_indep _ _ ((fun b => (Datatypes.S n, b)) 0%nat)) by (rewrite map_length, rev_length, seq_length; lia).
    rewrite (map_nth (fun b => (Datatypes.S n, b))). f_equal. rewrite rev_nth by (rewrite seq_length; lia). rewrite seq_length, seq_nth by lia. lia.
  - destruct IH as [E L]; [lia |]. split; [rewrite app_nth1 by exact L; exact E | lia].
Qed.
(** C111: the spectra at one multipole come in the order TT EE TE BB BE BT ... (place i j), each with the value at that multipole, or zero. *)
Theorem C111_at_l {S} (t : theory (S:=S)) n m L : (1 <= L)%nat -> length (ClsAtL t n m L) = (Nat.min n m * (Nat.min n m + 1) / 2)%nat /\
  forall i j, (1 <= j <= i)%nat -> (i <= n)%nat -> (i <= m)%nat ->
    nth (place i j) (ClsAtL t n m L) 0 = match cls t i j with Some c => nth (L - 1) c 0 | None => 0 end.
Proof.
  intro HL. unfold ClsAtL. split; [now rewrite map_length, len_pairs |]. intros i j H1 H2 H3. destruct (nth_pairs (Nat.min n m) i j H1) as [E B]; [lia |].
  set (F := fun p : nat * nat => match cls t (fst p) (snd p) with Some c => if (L <=? length c)%nat then nth (L - 1) c 0 else 0 | None => 0 end).
  rewrite (nth_indep _ 0 (F (0, 0)%nat)) by (rewrite map_length; exact B). rewrite (map_nth F), E. unfold F. cbn [fst snd].
  destruct (cls t i j) as [c |]; [| reflexivity]. destruct (Nat.leb_spec L (length c)); [reflexivity |]. symmetry. apply nth_overflow. lia.
Qed.
Print Assumptions C111_at_l.
(** a theory for TT and EE written and read twice; a program with longer TT and with BB gets zeros for what is not there *)
Example C111_ex : Forall (holds st1) [th1; th1] /\ (exists f, write_many st1 true [th1; th1] = Some f /\ length f = 30%nat) /\
  (exists t', ReadTheory (mkSt 3 true true false false false false false false (fun i j => if (i =? j)%nat then 4%nat else 0%nat) [0] 1) st1 th1 false
                [Int 2; Raw [1; 2]; Sized [1; 2; 1]; Sized [1; 2; 2]; Sized [0; 0; 0; 0; 0; 8/10]] = None /\
     ReadTheory (mkSt 3 true true false false false false false false (fun i j => if (i =? j)%nat then 4%nat else 0%nat) [0] 1)
        (mkSt 2 true false false false false false false false (fun i j => if (i =? j)%nat then 3%nat else 0%nat) [0] 1) th1 false
                [Int 2; Raw [1; 2]; Sized [1; 2; 1]; Sized [1; 2; 2]; Sized [0; 0; 0; 0; 0; 8/10]] = Some t' /\
     cls (fst (fst t')) 2 2 = Some [1; 2; 2; 0] /\ cls (fst (fst t')) 3 3 = Some [0; 0; 0; 0]) /\
  map (fun p => place (fst p) (snd p)) [(1, 1); (2, 2); (2, 1); (3, 3); (3, 2); (3, 1); (4, 4)]%nat = [0; 1; 2; 3; 4; 5; 6]%nat.
Proof.
  split; [constructor; [exact holds1 | constructor; [exact holds1 | constructor]] |]. split; [| split].
  - eexists. split; [reflexivity |]. reflexivity.
  - eexists. split; [reflexivity |]. split; [reflexivity |]. split; reflexivity.
  - reflexivity.
Qed.
(** C111: beyond the last wavenumber the logarithm of the spectrum goes on along the straight line of the last two points. *)
Theorem C111_extension lg x y z k : (2 <= length x)%nat -> nth (length x - 1) x 0 <> nth (length x - 2) x 0 -> let p := InitExtrap lg x y z k in
  pk_y p = y /\ islog p = lg /\ (ln k <= last x 0 -> pk_x p = x /\ pk_z p = z) /\
  (last x 0 < ln k -> pk_x p = x ++ [ln k] /\ Forall2 (fun r r' => exists v, r' = r ++ [v] /\
     exists a b, (forall i, (i < 2)%nat -> let n := (length x - 1 - i)%nat in nth n r 0 = a + b * nth n x 0) /\ v = a + b * ln k) z (pk_z p)).
Proof.
  intros L N. cbv zeta. unfold InitExtrap. destruct (Rlt_dec (last x 0) (ln k)) as [Q | Q]; cbn [pk_x pk_y pk_z islog]; (split; [reflexivity |]); (split; [reflexivity |]); split; try (intro; lra); try tauto.
  intros _. split; [reflexivity |]. induction z as [| r z IH]; cbn [map]; constructor; [| exact IH]. eexists. split; [reflexivity |].
  set (x1 := nth (length x - 1) x 0) in *. set (x2 := nth (length x - 2) x 0) in *. set (r1 := nth (length x - 1) r 0). set (r2 := nth (length x - 2) r 0).
  exists (r1 - (r1 - r2) / (x1 - x2) * x1), ((r1 - r2) / (x1 - x2)). split; [| ring]. intros i I. destruct i as [| [| i]]; [| | lia].
  - rewrite Nat.sub_0_r. fold x1 r1. ring.
  - replace (length x - 1 - 1)%nat with (length x - 2)%nat by lia. fold x2 r2. field. lra.
Qed.
Example C111_ex2 : exists a, InitExtrap true [0; 1] [0] [[3; 5]] (exp 4) = mkPk [0; 1; a] [0] [[3; 5; 11]] true /\ a = 4.
Proof.
  unfold InitExtrap. cbn [last length nth Nat.sub map app]. rewrite ln_exp. destruct (Rlt_dec 1 4); [| lra]. exists 4. split; [| reflexivity]. repeat f_equal. lra.
Qed.
Print Assumptions C111_extension.
