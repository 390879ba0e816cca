(** Facts about printed numbers. *)
From Verif Require Import PyBase PyNum PyStrFacts FmtModel FmtSpec.
From Coq Require Import ZArith QArith Qabs Qround Qpower String Ascii Bool List Lia Lqa.
From Coq Require Decimal DecimalString DecimalNat DecimalFacts.
Import DecimalString DecimalNat.
Import ListNotations.
Local Open Scope nat_scope.
Local Open Scope list_scope.

(** ** digit strings *)
Lemma digits_val_app a b : digits_val (a ++ b) = digits_val a * 10 ^ List.length b + digits_val b.
Proof.
  induction a as [|c a IH]; [reflexivity|]. cbn [app digits_val]. rewrite IH, app_length, Nat.pow_add_r. ring.
Qed.
Lemma digit_lt c : is_digit c -> digit_of c < 10.
Proof. unfold is_digit, digit_of. lia. Qed.
Lemma digits_val_lt s : (forall c, In c s -> is_digit c) -> digits_val s < 10 ^ List.length s.
Proof.
  induction s as [|c s IH]; intros H; [cbn; lia|]. cbn [digits_val List.length Nat.pow].
  pose proof (digit_lt c (H c (or_introl eq_refl))). specialize (IH (fun c' h => H c' (or_intror h))). nia.
Qed.
Lemma digits_val_zeros n : digits_val (repeat "0"%char n) = 0.
Proof. induction n; [reflexivity|]. cbn [repeat digits_val]. rewrite IHn. reflexivity. Qed.
Lemma zeros_digits n c : In c (repeat "0"%char n) -> is_digit c.
Proof. intros H. apply repeat_spec in H. subst c. unfold is_digit. cbn. lia. Qed.
Lemma digit_zero c : is_digit c -> digit_of c = 0 -> c = "0"%char.
Proof.
  unfold is_digit, digit_of. intros H E. assert (nat_of_ascii c = 48) by lia.
  rewrite <- (ascii_nat_embedding c), H0. reflexivity.
Qed.

Lemma digits_val_fold s a :
  fold_left (fun x y => 10 * x + y) (map digit_of s) a = a * 10 ^ List.length s + digits_val s.
Proof.
  revert a. induction s as [|c s IH]; intros a; [cbn; lia|]. cbn [map fold_left digits_val List.length Nat.pow].
  rewrite IH. ring.
Qed.
Lemma uint_val u : forall a,
  Nat.of_uint_acc u a = fold_left (fun x y => 10 * x + y) (map digit_of (L (NilEmpty.string_of_uint u))) a.
Proof.
  induction u; intros a; cbn [Nat.of_uint_acc NilEmpty.string_of_uint]; unfold L in *;
    cbn [list_ascii_of_string map fold_left]; [reflexivity|..];
    rewrite IHu; f_equal; rewrite Nat.tail_mul_spec;
    match goal with |- _ = _ + digit_of ?c => let v := eval vm_compute in (digit_of c) in change (digit_of c) with v end;
    unfold Nat.of_num_uint; cbn; lia.
Qed.
Lemma show_nat_val n : digits_val (show_nat n) = n.
Proof.
  unfold show_nat. pose proof (Unsigned.of_to n) as E. unfold Nat.of_uint in E. rewrite uint_val in E.
  rewrite digits_val_fold in E. cbn in E. exact E.
Qed.
Lemma show_nat_lead n c r : show_nat n = c :: r -> n <> 0 -> c <> "0"%char.
Proof.
  unfold show_nat. intros E N C. subst c.
  pose proof (Unsigned.to_of (Nat.to_uint n)) as H. rewrite Unsigned.of_to in H.
  destruct (Nat.to_uint n) eqn:U; try (unfold L in E; cbn in E; discriminate E).
  unfold Decimal.unorm in H. destruct (Decimal.nzhead (Decimal.D0 u)) eqn:Z; try discriminate H.
  - apply N. pose proof (Unsigned.of_to n) as E2. rewrite U, H in E2. cbn in E2. now symmetry.
  - exact (DecimalFacts.nzhead_nonzero _ _ Z).
Qed.
Lemma show_nat_len n k : 10 ^ k <= n -> n < 10 ^ S k -> List.length (show_nat n) = S k.
Proof.
  intros A B. pose proof (show_nat_val n) as V. pose proof (show_nat_nonempty n) as NE.
  destruct (show_nat n) as [|c r] eqn:E; [contradiction|].
  assert (N0 : n <> 0) by (pose proof (Nat.pow_nonzero 10 k); lia).
  pose proof (show_nat_lead _ _ _ E N0) as Hc.
  assert (D : forall x, In x (c :: r) -> is_digit x) by (intros x Hx; rewrite <- E in Hx; now apply show_nat_digits in Hx).
  pose proof (digits_val_lt r (fun x h => D x (or_intror h))) as U.
  assert (L1 : 1 <= digit_of c).
  { destruct (digit_of c) eqn:E0; [|lia]. exfalso. apply Hc. apply digit_zero; [apply D; now left|exact E0]. }
  pose proof (digit_lt c (D c (or_introl eq_refl))) as L2.
  cbn [digits_val] in V. cbn [List.length]. f_equal.
  assert (P1 : 10 ^ List.length r <= n) by nia. assert (P2 : n < 10 ^ S (List.length r)) by (cbn [Nat.pow]; nia).
  destruct (Nat.lt_trichotomy (List.length r) k) as [Q|[Q|Q]]; [|exact Q|]; exfalso.
  - assert (10 ^ S (List.length r) <= 10 ^ k) by (apply Nat.pow_le_mono_r; lia). lia.
  - assert (10 ^ S k <= 10 ^ List.length r) by (apply Nat.pow_le_mono_r; lia). lia.
Qed.

(** ** digit lists *)
Lemma int_of_app a b : int_of (a ++ b) = int_of a * 10 ^ List.length b + int_of b.
Proof.
  unfold int_of. rewrite fold_left_app. generalize (fold_left (fun a x => 10 * a + x) a 0). intros n. clear a.
  revert n. induction b as [|x b IH]; intros n; [cbn; lia|].
  cbn [fold_left List.length Nat.pow]. rewrite IH, (IH (10 * 0 + x)). ring.
Qed.
Lemma int_of_cons x l : int_of (x :: l) = x * 10 ^ List.length l + int_of l.
Proof. change (x :: l) with ([x] ++ l). rewrite int_of_app. reflexivity. Qed.
Lemma int_of_lt l : (forall x, In x l -> x < 10) -> int_of l < 10 ^ List.length l.
Proof.
  induction l as [|x l IH]; intros H; [cbn; lia|]. rewrite int_of_cons. cbn [List.length Nat.pow].
  specialize (H x (or_introl eq_refl)) as Hx. specialize (IH (fun y h => H y (or_intror h))). nia.
Qed.
Lemma int_of_ge x l : x <> 0 -> 10 ^ List.length l <= int_of (x :: l).
Proof. intros H. rewrite int_of_cons. nia. Qed.
Lemma int_of_zeros n : int_of (repeat 0 n) = 0.
Proof. induction n; [reflexivity|]. cbn [repeat]. rewrite int_of_cons, IHn. lia. Qed.

(** ** powers of ten *)
Lemma pow10_pos e : (0 < pow10 e)%Q.
Proof. apply Qpower_0_lt. reflexivity. Qed.
Lemma pow10_add a b : (pow10 (a + b) == pow10 a * pow10 b)%Q.
Proof. apply Qpower_plus. discriminate. Qed.
Lemma pow10_nat n : (pow10 (Z.of_nat n) == inject_Z (Z.of_nat (10 ^ n)))%Q.
Proof.
  induction n; [reflexivity|]. rewrite Nat2Z.inj_succ, <- Z.add_1_l, pow10_add, IHn.
  cbn [Nat.pow]. rewrite Nat2Z.inj_mul, inject_Z_mult. reflexivity.
Qed.

(** ** where the decimal point goes (types.py:70-80) *)
Definition place (sf : nat) (shift : Z) (text : str) : str :=
  if (Z.of_nat sf - 1 <=? shift)%Z then text ++ repeat "0"%char (Z.to_nat (shift - Z.of_nat sf + 1))
  else if (0 <=? shift)%Z then insert_at (Z.to_nat (shift + 1)) (L ".") text
  else L "0." ++ repeat "0"%char (Z.to_nat (- shift - 1)) ++ text.
Lemma place_spec (sf : nat) shift t :
  List.length t = sf -> 1 <= sf -> (forall c, In c t -> is_digit c) ->
  (exists c r, t = c :: r /\ c <> "0"%char) ->
  exists ip fp,
    (forall neg : bool, reads ((if neg then L "-" else []) ++ place sf shift t) neg ip fp) /\
    (text_abs ip fp == inject_Z (Z.of_nat (digits_val t)) * pow10 (shift - Z.of_nat sf + 1))%Q /\
    List.length fp = Z.to_nat (Z.of_nat sf - 1 - shift).
Proof.
  intros Hl H1 Hd Hh. unfold place.
  destruct (Z.leb_spec (Z.of_nat sf - 1) shift) as [A|A]; [|destruct (Z.leb_spec 0 shift) as [B|B]].
  - exists (t ++ repeat "0"%char (Z.to_nat (shift - Z.of_nat sf + 1))), []. split; [|split].
    + intros neg. split.
      * unfold layout. now rewrite app_nil_r.
      * destruct Hh as (c & r & -> & _). discriminate.
      * right. destruct Hh as (c & r & -> & Hc). exists c. eexists. split; [reflexivity|exact Hc].
      * intros c. rewrite app_nil_r, in_app_iff. intros [H|H]; [now apply Hd|now apply zeros_digits in H].
    + unfold text_abs. rewrite app_nil_r, digits_val_app, digits_val_zeros, repeat_length, Nat.add_0_r.
      cbn [List.length]. rewrite Nat2Z.inj_mul, inject_Z_mult, <- pow10_nat, Z2Nat.id by lia.
      cbn [Z.of_nat Z.opp]. setoid_replace (pow10 0) with 1%Q by reflexivity. ring.
    + cbn [List.length]. lia.
  - set (n := Z.to_nat (shift + 1)). assert (Hn : 1 <= n < sf) by (unfold n; lia).
    exists (firstn n t), (skipn n t). assert (Ls : List.length (skipn n t) = sf - n) by (rewrite skipn_length; lia).
    split; [|split].
    + intros neg. split.
      * unfold layout, insert_at. destruct (skipn n t) eqn:E; [cbn in Ls; lia|]. reflexivity.
      * destruct Hh as (c & r & -> & _). destruct n; [lia|]. discriminate.
      * right. destruct Hh as (c & r & -> & Hc). destruct n; [lia|]. exists c. eexists. split; [reflexivity|exact Hc].
      * intros c. rewrite firstn_skipn. apply Hd.
    + unfold text_abs. rewrite firstn_skipn, Ls.
      replace (- Z.of_nat (sf - n))%Z with (shift - Z.of_nat sf + 1)%Z by (unfold n in *; lia). reflexivity.
    + rewrite Ls. unfold n. lia.
  - exists (L "0"), (repeat "0"%char (Z.to_nat (- shift - 1)) ++ t). split; [|split].
    + intros neg. split.
      * unfold layout. destruct (repeat "0"%char (Z.to_nat (- shift - 1)) ++ t) eqn:E.
        { apply app_eq_nil in E as [_ ->]. cbn in Hl. lia. }
        rewrite <- E. reflexivity.
      * discriminate.
      * now left.
      * intros c H. apply in_app_or in H as [[<-|[]]|H]; [unfold is_digit; cbn; lia|].
        apply in_app_or in H as [H|H]; [now apply zeros_digits in H|now apply Hd].
    + unfold text_abs. rewrite !digits_val_app, digits_val_zeros, !app_length, repeat_length, Hl.
      change (digits_val (L "0")) with 0. rewrite !Nat.mul_0_l, !Nat.add_0_l.
      replace (- Z.of_nat (Z.to_nat (- shift - 1) + sf))%Z with (shift - Z.of_nat sf + 1)%Z by lia. reflexivity.
    + rewrite app_length, repeat_length, Hl. lia.
Qed.

(** ** rounding the digits (types.py:58-66) *)
Definition ext (d : dec) (sf : nat) : list nat := d_digits d ++ repeat 0 (sf - List.length (d_digits d)).
Definition trunc (d : dec) (sf : nat) : nat := int_of (firstn sf (ext d sf)).
Definition up (d : dec) (sf : nat) : bool := (sf <? List.length (ext d sf)) && (5 <=? nth sf (ext d sf) 0).
Definition rnd (d : dec) (sf : nat) : nat := if up d sf then trunc d sf + 1 else trunc d sf.
Definition carry (d : dec) (sf : nat) : bool := rnd d sf =? 10 ^ sf.

Lemma figs_text_place d sf :
  figs_text (Fin d) sf =
  (if d_neg d then L "-" else []) ++
  place sf (lead d + Z.of_nat (List.length (show_nat (rnd d sf))) - Z.of_nat sf) (firstn sf (show_nat (rnd d sf))).
Proof.
  unfold figs_text, as_digits, as_sign, adjusted. fold (ext d sf). fold (trunc d sf).
  change ((sf <? List.length (ext d sf)) && (5 <=? nth sf (ext d sf) 0)) with (up d sf). fold (rnd d sf). fold (lead d).
  fold (place sf (lead d + Z.of_nat (List.length (show_nat (rnd d sf))) - Z.of_nat sf) (firstn sf (show_nat (rnd d sf)))).
  destruct (d_neg d); reflexivity.
Qed.

Lemma ext_len d sf : sf <= List.length (ext d sf).
Proof. unfold ext. rewrite app_length, repeat_length. lia. Qed.
Lemma ext_digits d sf : nonzero_dec d -> forall x, In x (ext d sf) -> x < 10.
Proof.
  intros [H _] x. unfold ext. rewrite in_app_iff. intros [E|E]; [now apply H|apply repeat_spec in E; lia].
Qed.
Lemma trunc_bounds d sf : nonzero_dec d -> 1 <= sf -> 10 ^ (sf - 1) <= trunc d sf < 10 ^ sf.
Proof.
  intros W H1. unfold trunc. pose proof (ext_len d sf) as Le. pose proof (ext_digits d sf W) as De.
  assert (Lf : List.length (firstn sf (ext d sf)) = sf) by (rewrite firstn_length; lia).
  split.
  - destruct W as [_ (x & r & E & Hx)]. unfold ext in *. rewrite E in *. cbn [app] in *.
    destruct sf as [|n]; [lia|]. cbn [firstn] in *. cbn [List.length] in Lf. injection Lf as Lf.
    replace (S n - 1) with n by lia. rewrite <- Lf at 1. now apply int_of_ge.
  - apply Nat.lt_le_trans with (10 ^ List.length (firstn sf (ext d sf))); [|rewrite Lf; lia]. apply int_of_lt. intros x Hx. apply De. rewrite <- (firstn_skipn sf (ext d sf)). apply in_or_app. now left.
Qed.
Lemma rnd_bounds d sf : nonzero_dec d -> 1 <= sf -> 10 ^ (sf - 1) <= rnd d sf <= 10 ^ sf.
Proof. intros W H. pose proof (trunc_bounds d sf W H). unfold rnd. destruct (up d sf); lia. Qed.

(** the remaining digits against one half *)
Lemma ext_value d sf : (dec_abs d == inject_Z (Z.of_nat (int_of (ext d sf))) * pow10 (lead d + 1 - Z.of_nat (List.length (ext d sf))))%Q.
Proof.
  unfold dec_abs, ext. rewrite int_of_app, int_of_zeros, app_length, repeat_length, Nat.add_0_r.
  rewrite Nat2Z.inj_mul, inject_Z_mult, <- pow10_nat, <- Qmult_assoc, <- pow10_add. unfold lead.
  apply Qmult_comp; [reflexivity|]. replace (Z.of_nat _ + _)%Z with (d_exp d) by lia. reflexivity.
Qed.
Lemma rest_half l : (forall x, In x l -> x < 10) -> l <> [] ->
  (if 5 <=? nth 0 l 0 then 10 ^ List.length l <= 2 * int_of l else 2 * int_of l < 10 ^ List.length l).
Proof.
  intros H N. destruct l as [|x r]; [contradiction|]. cbn [nth]. rewrite int_of_cons. cbn [List.length Nat.pow].
  pose proof (int_of_lt r (fun y h => H y (or_intror h))). destruct (Nat.leb_spec 5 x); nia.
Qed.
Lemma rnd_rounds d sf : nonzero_dec d -> 1 <= sf ->
  rounded_to (pow10 (lead d - Z.of_nat sf + 1)) (dec_abs d) (inject_Z (Z.of_nat (rnd d sf)) * pow10 (lead d - Z.of_nat sf + 1)).
Proof.
  intros W H1. set (u := pow10 (lead d - Z.of_nat sf + 1)). exists (rnd d sf). split; [reflexivity|].
  pose proof (ext_len d sf) as Le. set (l := skipn sf (ext d sf)).
  assert (Ll : List.length l = List.length (ext d sf) - sf) by (unfold l; apply skipn_length).
  set (n := List.length l) in *.
  assert (V : int_of (ext d sf) = trunc d sf * 10 ^ n + int_of l).
  { rewrite <- (firstn_skipn sf (ext d sf)) at 1. rewrite int_of_app. reflexivity. }
  set (w := pow10 (- Z.of_nat n)).
  assert (Hw : (inject_Z (Z.of_nat (10 ^ n)) * w == 1)%Q).
  { unfold w. rewrite <- pow10_nat, <- pow10_add. replace (Z.of_nat n + - Z.of_nat n)%Z with 0%Z by lia. reflexivity. }
  assert (Ev : (dec_abs d == (inject_Z (Z.of_nat (trunc d sf)) + inject_Z (Z.of_nat (int_of l)) * w) * u)%Q).
  { rewrite (ext_value d sf), V.
    replace (lead d + 1 - Z.of_nat (List.length (ext d sf)))%Z with (- Z.of_nat n + (lead d - Z.of_nat sf + 1))%Z by lia.
    rewrite pow10_add, Nat2Z.inj_add, Nat2Z.inj_mul, inject_Z_plus, inject_Z_mult. fold u. fold w.
    rewrite <- (Qmult_1_r (inject_Z (Z.of_nat (trunc d sf)))) at 2. rewrite <- Hw. ring. }
  assert (Pw : (0 < w)%Q) by apply pow10_pos. assert (Pu : (0 < u)%Q) by apply pow10_pos.
  assert (Dl : forall x, In x l -> x < 10).
  { intros x Hx. apply (ext_digits d sf W). rewrite <- (firstn_skipn sf (ext d sf)). apply in_or_app. now right. }
  set (f := (inject_Z (Z.of_nat (int_of l)) * w)%Q) in *.
  assert (F0 : (0 <= f)%Q).
  { unfold f. apply Qmult_le_0_compat; [|lra]. change 0%Q with (inject_Z 0). rewrite <- Zle_Qle. lia. }
  assert (Fn : forall a b : nat, a <= b -> (inject_Z (Z.of_nat a) * w <= inject_Z (Z.of_nat b) * w)%Q).
  { intros a b Hab. apply Qmult_le_compat_r; [|lra]. rewrite <- Zle_Qle. lia. }
  assert (F1 : (f <= 1)%Q).
  { rewrite <- Hw. apply Fn. pose proof (int_of_lt l Dl). fold n in H. lia. }
  assert (Hup : if up d sf then (1 <= 2 * f)%Q else (2 * f < 1)%Q).
  { unfold up. destruct (Nat.ltb_spec sf (List.length (ext d sf))) as [A|A].
    - cbn [andb]. assert (Nl : l <> []) by (intros C; unfold n in Ll; rewrite C in Ll; cbn in Ll; lia).
      pose proof (rest_half l Dl Nl) as R. fold n in R.
      replace (nth sf (ext d sf) 0) with (nth 0 l 0) by (unfold l; rewrite <- (firstn_skipn sf (ext d sf)) at 2; rewrite app_nth2; rewrite firstn_length, Nat.min_l by lia; [now rewrite Nat.sub_diag|lia]).
      destruct (5 <=? nth 0 l 0).
      + apply Fn in R. rewrite Hw in R. unfold f. rewrite Nat2Z.inj_mul, inject_Z_mult in R. change (inject_Z (Z.of_nat 2)) with 2%Q in R. lra.
      + apply Nat.le_succ_l in R. assert (R' : 2 * int_of l + 1 <= 10 ^ n) by lia. apply Fn in R'. rewrite Hw in R'.
        rewrite Nat2Z.inj_add, Nat2Z.inj_mul, inject_Z_plus, inject_Z_mult in R'. change (inject_Z (Z.of_nat 2)) with 2%Q in R'.
        change (inject_Z (Z.of_nat 1)) with 1%Q in R'. unfold f. lra.
    - cbn [andb]. assert (l = []) by (destruct l; [reflexivity|cbn in Ll; unfold n in Ll; cbn in Ll; lia]).
      unfold f. rewrite H. change (inject_Z (Z.of_nat (int_of []))) with 0%Q. lra. }
  assert (Dr : (inject_Z (Z.of_nat (rnd d sf)) * u - dec_abs d == ((if up d sf then 1 else 0) - f) * u)%Q).
  { rewrite Ev. unfold rnd. destruct (up d sf).
    - rewrite Nat2Z.inj_add, inject_Z_plus. change (inject_Z (Z.of_nat 1)) with 1%Q. ring.
    - ring. }
  assert (Fu0 : (0 <= f * u)%Q) by (apply Qmult_le_0_compat; lra).
  destruct (up d sf).
  - assert (P : (0 <= (1 - f) * u)%Q) by (apply Qmult_le_0_compat; lra).
    assert (P2 : (u <= 2 * f * u)%Q) by nra.
    rewrite Dr, Qabs_pos by exact P. split; [lra|]. intros _. lra.
  - assert (P2 : (2 * f * u < 1 * u)%Q) by (apply Qmult_lt_r; lra).
    rewrite Dr, Qabs_neg by lra. split; [lra|]. intros E. exfalso. lra.
Qed.

(** ** the printed text of a non-zero number *)
Lemma figs_spec d sf : nonzero_dec d -> 1 <= sf ->
  exists ip fp, reads (figs_text (Fin d) sf) (d_neg d) ip fp /\
    has_figures sf (lead d + (if carry d sf then 1 else 0) - Z.of_nat sf + 1) (text_abs ip fp) /\
    (text_abs ip fp == inject_Z (Z.of_nat (rnd d sf)) * pow10 (lead d - Z.of_nat sf + 1))%Q /\
    List.length fp = Z.to_nat (Z.of_nat sf - 1 - lead d - (if carry d sf then 1 else 0)).
Proof.
  intros W H1. rewrite figs_text_place. pose proof (rnd_bounds d sf W H1) as B.
  set (R := rnd d sf) in *. set (txt := show_nat R).
  assert (D : forall c, In c txt -> is_digit c) by (intros c; apply show_nat_digits).
  pose proof (show_nat_val R) as V. fold txt in V.
  assert (P0 : 10 ^ (sf - 1) <> 0) by (apply Nat.pow_nonzero; lia).
  assert (Ps : 10 ^ sf = 10 * 10 ^ (sf - 1)) by (destruct sf; [lia|]; replace (S sf - 1) with sf by lia; reflexivity).
  assert (Hh : exists c r, txt = c :: r /\ c <> "0"%char).
  { destruct txt as [|c r] eqn:E; [exfalso; now apply (show_nat_nonempty R)|]. exists c, r. split; [reflexivity|].
    apply (show_nat_lead R c r); [exact E|lia]. }
  assert (Key : let t := firstn sf txt in List.length t = sf /\
     10 ^ (sf - 1) <= digits_val t < 10 ^ sf /\
     List.length txt = sf + (if carry d sf then 1 else 0) /\ R = digits_val t * 10 ^ (if carry d sf then 1 else 0)).
  { unfold carry. fold R. destruct (Nat.eqb_spec R (10 ^ sf)) as [E|E]; cbn zeta.
    - assert (Lt : List.length txt = S sf).
      { apply show_nat_len; [lia|]. cbn [Nat.pow]. pose proof (Nat.pow_nonzero 10 sf). lia. }
      rewrite firstn_length. split; [lia|].
      pose proof (firstn_skipn sf txt) as FS. assert (Lk : List.length (skipn sf txt) = 1) by (rewrite skipn_length; lia).
      destruct (skipn sf txt) as [|c [|c2 r2]] eqn:Ek; try discriminate Lk.
      assert (Dc : digit_of c < 10) by (apply digit_lt, D; rewrite <- FS; apply in_or_app; right; now left).
      rewrite <- FS in V. rewrite digits_val_app in V. cbn [digits_val List.length] in V.
      rewrite Nat.pow_0_r, Nat.pow_1_r, Nat.mul_1_r, Nat.add_0_r in V. split; [|split; [lia|]]; rewrite ?Nat.pow_1_r; lia.
    - assert (Lt : List.length txt = S (sf - 1)) by (apply show_nat_len; replace (S (sf - 1)) with sf by lia; lia).
      rewrite firstn_all2 by lia. split; [lia|]. rewrite V, Nat.pow_0_r. split; [lia|split; lia]. }
  cbn zeta in Key. destruct Key as (Kl & Kb & Kt & Kr). set (t := firstn sf txt) in *.
  assert (Dt : forall c, In c t -> is_digit c).
  { intros c Hc. apply D. rewrite <- (firstn_skipn sf txt). apply in_or_app. now left. }
  assert (Ht : exists c r, t = c :: r /\ c <> "0"%char).
  { destruct Hh as (c & r & E & Hc). unfold t. rewrite E. destruct sf; [lia|]. exists c. eexists. split; [reflexivity|exact Hc]. }
  destruct (place_spec sf (lead d + Z.of_nat (List.length txt) - Z.of_nat sf) t Kl H1 Dt Ht) as (ip & fp & Rd & Va & Lf).
  exists ip, fp. split; [apply Rd|].
  assert (Sh : (lead d + Z.of_nat (List.length txt) - Z.of_nat sf = lead d + (if carry d sf then 1 else 0))%Z)
    by (rewrite Kt; destruct (carry d sf); lia).
  rewrite Sh in Va, Lf. split; [|split].
  - exists (digits_val t). split; [exact Va|lia].
  - rewrite Va, Kr, Nat2Z.inj_mul, inject_Z_mult, <- pow10_nat, <- Qmult_assoc, <- pow10_add.
    apply Qmult_comp; [reflexivity|]. destruct (carry d sf); cbn [Z.of_nat Pos.of_succ_nat];
      match goal with |- (pow10 ?a == pow10 ?b)%Q => replace a with b by lia; reflexivity end.
  - rewrite Lf. destruct (carry d sf); lia.
Qed.

(** ** zero *)
Lemma figs_zero d sf : zero_dec d -> 1 <= sf ->
  reads (figs_text (Fin d) sf) (d_neg d) (L "0") (repeat "0"%char (Z.to_nat (Z.of_nat sf - 1 - lead d))).
Proof.
  intros [E He] H1. rewrite figs_text_place. unfold lead. rewrite E. cbn [List.length].
  assert (R : rnd d sf = 0).
  { assert (X : ext d sf = repeat 0 sf).
    { unfold ext. rewrite E. cbn [List.length app]. destruct sf; [lia|]. cbn [repeat]. now rewrite Nat.sub_succ, Nat.sub_0_r. }
    unfold rnd, up, trunc. rewrite X, repeat_length, Nat.ltb_irrefl. cbn [andb].
    rewrite firstn_all2 by (rewrite repeat_length; lia). apply int_of_zeros. }
  rewrite R. change (show_nat 0) with (L "0"). change (List.length (L "0")) with 1.
  replace (firstn sf (L "0")) with (L "0") by (destruct sf; [lia|destruct sf; reflexivity]).
  set (n := Z.to_nat (Z.of_nat sf - 1 - (d_exp d + Z.of_nat 1 - 1))).
  assert (Pl : place sf (d_exp d + Z.of_nat 1 - 1 + Z.of_nat 1 - Z.of_nat sf) (L "0") =
               L "0" ++ match repeat "0"%char n with [] => [] | _ => L "." ++ repeat "0"%char n end).
  { unfold place. destruct (Z.leb_spec (Z.of_nat sf - 1) (d_exp d + Z.of_nat 1 - 1 + Z.of_nat 1 - Z.of_nat sf)) as [A|A].
    - replace (Z.to_nat _) with 0 by lia. replace n with 0 by (unfold n; lia). reflexivity.
    - destruct (Z.leb_spec 0 (d_exp d + Z.of_nat 1 - 1 + Z.of_nat 1 - Z.of_nat sf)) as [B|B]; [lia|].
      replace n with (Z.to_nat (- (d_exp d + Z.of_nat 1 - 1 + Z.of_nat 1 - Z.of_nat sf) - 1) + 1) by (unfold n; lia).
      rewrite repeat_app. destruct (repeat "0"%char (Z.to_nat (- (d_exp d + Z.of_nat 1 - 1 + Z.of_nat 1 - Z.of_nat sf) - 1)) ++ repeat "0"%char 1) eqn:C;
        [apply app_eq_nil in C as [_ C]; discriminate C|]. rewrite <- C. reflexivity. }
  split.
  - unfold layout. rewrite Pl. reflexivity.
  - discriminate.
  - now left.
  - intros c H. apply in_app_or in H as [[<-|[]]|H]; [unfold is_digit; cbn; lia|now apply zeros_digits in H].
Qed.
