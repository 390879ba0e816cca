(** Properties of the Python version of plik (C151) *)
From Coq Require Import Reals Lra Lia Bool Arith.
From Verif Require Import ConvModel ConvProofs PlkModel PlkSpec.
From Coq Require Import List.
Import ListNotations.
Local Open Scope R_scope.

(** ** Binned spectra of the maps *)
Lemma unpack_val has get k l : (k < 6)%nat -> unpack has (seq 0 6) 0 (clik_ordering has get) (fun _ _ => 0) k l =
  if has k then (if Nat.ltb k 4 then get (nth k indices (0, 0)%nat) l / llp1 l else 0) else 0.
Proof.
  intro H. unfold clik_ordering. cbn [seq flat_map]. cbn [unpack].
  destruct (has 0%nat) eqn:H0, (has 1%nat) eqn:H1, (has 2%nat) eqn:H2, (has 3%nat) eqn:H3, (has 4%nat) eqn:H4, (has 5%nat) eqn:H5;
    do 6 (destruct k as [| k]; [rewrite ?H0, ?H1, ?H2, ?H3, ?H4, ?H5; reflexivity |]); lia.
Qed.
Lemma spectrum_val has get f g l : (f < 3)%nat -> (g < 3)%nat -> unpack has (seq 0 6) 0 (clik_ordering has get) (fun _ _ => 0) (spectrum f g) l = theory_cl has get f g l.
Proof.
  intros F G. rewrite unpack_val; [| do 3 (destruct f as [| f]; [do 3 (destruct g as [| g]; [cbn; lia |]); lia |]); lia]. unfold theory_cl, llp1. cbv zeta.
  do 3 (destruct f as [| f]; [do 3 (destruct g as [| g]; [reflexivity |]); lia |]); lia.
Qed.
Lemma binned_ext B c d b : (forall l, c l = d l) -> binned B c b = binned B d b.
Proof. intro H. unfold binned. apply rsum_ext. intros. now rewrite H. Qed.
Lemma add_block_val r0 r1 c0 c1 v rq i j : add_block r0 r1 c0 c1 v rq i j = rq i j + (if (Nat.leb r0 i && Nat.ltb i r1 && (Nat.leb c0 j && Nat.ltb j c1))%bool then v else 0).
Proof. unfold add_block. rewrite <- andb_assoc. destruct (_ && _)%bool; ring. Qed.
(** each element of the matrix of a bin is the binned spectrum of the fields of its two maps *)
Theorem C151_rq has get B b i j : (i < mt B + me B + mb B)%nat -> (j < mt B + me B + mb B)%nat ->
  cmb_rq has get B b i j = rsum (blmax B b + 1 - blmin B b) (fun q => theory_cl has get (field (mt B) (me B) i) (field (mt B) (me B) j) (lmin_ B + (blmin B b + q)) * bws B (blmin B b + q)%nat).
Proof.
  intros I J. unfold cmb_rq. cbv zeta. set (cls := unpack has (seq 0 6) 0 (clik_ordering has get) (fun _ _ => 0)).
  transitivity (binned B (cls (spectrum (field (mt B) (me B) i) (field (mt B) (me B) j))) b).
  2: { unfold binned. apply rsum_ext. intros q Q. f_equal. apply spectrum_val; unfold field; destruct (Nat.ltb _ _); try lia; destruct (Nat.ltb _ _); lia. }
  assert (V : exists v, forall k, v k = binned B (cls k) b) by (exists (fun k => binned B (cls k) b); reflexivity). destruct V as (v & V). rewrite <- !V. clearbody cls. clear V.
  destruct B as [bl bx bw lm t e m]. cbn [mt me mb] in *. unfold field.
  assert (CL : forall k, (k < t + e + m)%nat -> exists p0 p1 p2, (Nat.leb 0 k && Nat.ltb k t)%bool = p0 /\ (Nat.leb t k && Nat.ltb k (t + e))%bool = p1 /\ (Nat.leb (t + e) k && Nat.ltb k (m + t + e))%bool = p2 /\
    ((t <> 0%nat /\ Nat.ltb k t = true /\ p0 = true /\ p1 = false /\ p2 = false) \/ (e <> 0%nat /\ Nat.ltb k t = false /\ Nat.ltb k (t + e) = true /\ p0 = false /\ p1 = true /\ p2 = false) \/ (m <> 0%nat /\ Nat.ltb k t = false /\ Nat.ltb k (t + e) = false /\ p0 = false /\ p1 = false /\ p2 = true))).
  { intros k K. do 3 eexists. do 3 (split; [reflexivity |]). destruct (Nat.leb_spec 0 k); [| lia]. destruct (Nat.ltb_spec k t), (Nat.leb_spec t k), (Nat.ltb_spec k (t + e)), (Nat.leb_spec (t + e) k), (Nat.ltb_spec k (m + t + e)); try lia; cbn [andb];
      ((left; repeat split; lia) || (right; left; repeat split; lia) || (right; right; repeat split; lia)). }
  destruct (CL i I) as (p0 & p1 & p2 & Pi0 & Pi1 & Pi2 & Ci). destruct (CL j J) as (q0 & q1 & q2 & Pj0 & Pj1 & Pj2 & Cj). clear CL.
  destruct Ci as [(N1 & F1 & -> & -> & ->) | [(N1 & F1 & F2 & -> & -> & ->) | (N1 & F1 & F2 & -> & -> & ->)]]; destruct Cj as [(N2 & G1 & -> & -> & ->) | [(N2 & G1 & G2 & -> & -> & ->) | (N2 & G1 & G2 & -> & -> & ->)]];
    rewrite ?F1, ?F2, ?G1, ?G2; apply Nat.eqb_neq in N1; apply Nat.eqb_neq in N2; rewrite ?N1, ?N2;
    repeat (match goal with |- context [Nat.eqb ?a 0] => destruct (Nat.eqb a 0) end); cbn [negb]; cbv iota; rewrite ?add_block_val;
    rewrite ?Pi0, ?Pi1, ?Pi2; cbn [andb]; rewrite ?Pj0, ?Pj1, ?Pj2; cbn [spectrum Nat.min Nat.max]; ring.
Qed.
Lemma flat_map_used {A} (has : nat -> bool) (G : nat -> A) is : flat_map (fun i => if has i then [G i] else []) is = map G (filter has is).
Proof. induction is as [| i is IH]; [reflexivity |]. cbn [flat_map filter]. rewrite IH. destruct (has i); reflexivity. Qed.
(** there is one spectrum for each one that clik uses, in its order *)
Theorem C151_order has get : let used := filter has (seq 0 6) in length (clik_ordering has get) = length used /\
  forall k l, (k < length used)%nat -> let i := nth k used 0%nat in nth k (clik_ordering has get) (fun _ => 1) l =
    if Nat.ltb i 4 then get (nth i [(0, 0); (1, 1); (2, 2); (0, 1)]%nat (0, 0)%nat) l / (if Nat.eqb l 0 then 1 else INR l * (INR l + 1) / (2 * PI)) else 0.
Proof.
  cbv zeta. set (F := fun (i l : nat) => if Nat.ltb i 4 then get (nth i indices (0, 0)%nat) l / llp1 l else 0). 
  assert (E : clik_ordering has get = map F (filter has (seq 0 6))).
  { change (seq 0 6) with (seq 0 4 ++ seq 4 2). rewrite filter_app, map_app. unfold clik_ordering. f_equal; rewrite flat_map_used; apply map_ext_in; intros i I; apply filter_In in I; destruct I as (I & _); apply in_seq in I; unfold F; destruct (Nat.ltb_spec i 4); try lia; reflexivity. }
  rewrite E, map_length. split; [reflexivity |]. intros k l K. rewrite (nth_indep _ _ (F 0%nat)) by (rewrite map_length; exact K). rewrite map_nth. unfold F. destruct (Nat.ltb_spec (nth k (filter has (seq 0 6)) 0%nat) 4) as [L | L]; [| reflexivity].
  unfold llp1. f_equal. f_equal. unfold indices. destruct (nth k (filter has (seq 0 6)) 0%nat) as [| [| [| [| q]]]]; try reflexivity. lia.
Qed.
Theorem C151_rq_symmetric has get B b i j : (i < mt B + me B + mb B)%nat -> (j < mt B + me B + mb B)%nat -> cmb_rq has get B b i j = cmb_rq has get B b j i.
Proof.
  intros I J. rewrite !C151_rq by assumption. apply rsum_ext. intros q Q. f_equal. unfold theory_cl. cbv zeta. unfold spectrum. now rewrite (Nat.min_comm (field (mt B) (me B) j)), (Nat.max_comm (field (mt B) (me B) j)).
Qed.

(** ** Sums *)
Fixpoint lsum {A} (f : A -> R) (l : list A) : R := match l with [] => 0 | x :: l' => f x + lsum f l' end.
Lemma lsum_app {A} (f : A -> R) l m : lsum f (l ++ m) = lsum f l + lsum f m.
Proof. induction l as [| x l IH]; cbn [lsum app]; [ring | rewrite IH; ring]. Qed.
Lemma lsum_flat {A B} (f : B -> R) (g : A -> list B) l : lsum f (flat_map g l) = lsum (fun x => lsum f (g x)) l.
Proof. induction l as [| x l IH]; cbn [flat_map lsum]; [reflexivity |]. now rewrite lsum_app, IH. Qed.
Lemma lsum_map {A B} (f : B -> R) (g : A -> B) l : lsum f (map g l) = lsum (fun x => f (g x)) l.
Proof. induction l as [| x l IH]; cbn [map lsum]; [reflexivity |]. now rewrite IH. Qed.
Lemma lsum_filter {A} (f : A -> R) p l : lsum f (filter p l) = lsum (fun x => if p x then f x else 0) l.
Proof. induction l as [| x l IH]; cbn [filter lsum]; [reflexivity |]. destruct (p x); cbn [lsum]; rewrite IH; ring. Qed.
Lemma lsum_ext {A} (f g : A -> R) l : (forall x, In x l -> f x = g x) -> lsum f l = lsum g l.
Proof. induction l as [| x l IH]; intro H; cbn [lsum]; [reflexivity |]. rewrite H by now left. rewrite IH by (intros y Y; apply H; now right). reflexivity. Qed.
Lemma lsum_seq f n : lsum f (seq 0 n) = rsum n f.
Proof. induction n as [| n IH]; [reflexivity |]. rewrite seq_S, lsum_app, IH. cbn [lsum rsum]. rewrite Nat.add_0_l. ring. Qed.
Lemma lsum_nth f l : lsum f l = rsum (length l) (fun i => f (nth i l 0%nat)).
Proof. induction l as [| x l IH]; [reflexivity |]. cbn [lsum length]. rewrite rsum_head. cbn [nth]. now rewrite IH. Qed.
Lemma fold_rows (w : nat * nat -> nat -> R) : forall ps A i k, fold_left (fun A p => fun i k => if Nat.eqb i (fst p) then A i k + w p k else A i k) ps A i k = A i k + lsum (fun p => if Nat.eqb i (fst p) then w p k else 0) ps.
Proof. induction ps as [| p ps IH]; intros A i k; cbn [fold_left lsum]; [ring |]. rewrite IH. destruct (Nat.eqb i (fst p)); ring. Qed.
Lemma sum_nonzeros a n (J w : nat -> nat -> R) i : (i < a)%nat -> lsum (fun p => if Nat.eqb i (fst p) then J (fst p) (snd p) * w (fst p) (snd p) else 0) (nonzeros a n J) = rsum n (fun j => J i j * w i j).
Proof.
  intro I. unfold nonzeros. rewrite lsum_flat, lsum_seq. rewrite (rsum_single a _ i I).
  - rewrite lsum_map, lsum_filter, lsum_seq. apply rsum_ext. intros j _. cbn [fst snd]. rewrite Nat.eqb_refl. destruct (Req_EM_T (J i j) 0) as [E | E]; [rewrite E; ring | reflexivity].
  - intros q Q NE. rewrite lsum_map, lsum_filter, lsum_seq. apply rsum_zero. intros j _. cbn [fst snd]. destruct (Nat.eqb_spec i q); [congruence |]. now destruct (Req_EM_T (J q j) 0).
Qed.
Lemma Jt_siginv_val a n J S i k : (i < a)%nat -> Jt_siginv a n J S i k = rsum n (fun j => J i j * S j k).
Proof. intro I. unfold Jt_siginv. rewrite (fold_rows (fun p k => J (fst p) (snd p) * S (snd p) k)). rewrite Rplus_0_l. apply (sum_nonzeros a n J (fun _ j => S j k) i I). Qed.
Lemma Jt_siginv_J_val a n J S i k : (i < a)%nat -> (k < a)%nat -> Jt_siginv_J a n J S i k = rsum n (fun p => J i p * rsum n (fun q => J k q * S q p)).
Proof.
  intros I K. unfold Jt_siginv_J. rewrite (fold_rows (fun p k => J (fst p) (snd p) * Jt_siginv a n J S k (snd p))). rewrite Rplus_0_l. rewrite (sum_nonzeros a n J (fun _ j => Jt_siginv a n J S k j) i I).
  apply rsum_ext. intros p _. now rewrite Jt_siginv_val.
Qed.
(** the loops over the elements that are not zero are the products of the matrices *)
Theorem C151_products a n J S i k : symm n S -> (i < a)%nat -> (k < a)%nat ->
  Jt_siginv_J a n J S i k = rsum n (fun p => rsum n (fun q => J i p * S p q * J k q)) /\ Jt_siginv_J a n J S i k = Jt_siginv_J a n J S k i.
Proof.
  intros SY I K. assert (G : forall i k, (i < a)%nat -> (k < a)%nat -> Jt_siginv_J a n J S i k = rsum n (fun p => rsum n (fun q => J i p * S p q * J k q))).
  { intros. rewrite Jt_siginv_J_val by assumption. apply rsum_ext. intros p P. rewrite <- rsum_scal. apply rsum_ext. intros q Q. rewrite (SY q p) by assumption. ring. }
  split; [now apply G |]. rewrite !G by assumption. rewrite rsum_swap. apply rsum_ext. intros q Q. apply rsum_ext. intros p P. rewrite (SY p q) by assumption. ring.
Qed.
Lemma chi_quad n S d : chi_squared n S d = quad n S d.
Proof. unfold chi_squared, quad. apply rsum_ext. intros i _. rewrite <- rsum_scal. apply rsum_ext. intros j _. ring. Qed.

(** ** Rows *)
Lemma good_in n N Jt i : In i (good n N Jt) <-> (i < N)%nat /\ rsum n (Jt i) <> 0.
Proof. unfold good. rewrite filter_In, in_seq. destruct (Req_EM_T (rsum n (Jt i)) 0); intuition (try lia; congruence). Qed.
Lemma good_nodup n N Jt : NoDup (good n N Jt).
Proof. apply NoDup_filter, seq_NoDup. Qed.
Lemma zero_row n (r : nat -> R) : (forall k, (k < n)%nat -> 0 <= r k) -> rsum n r = 0 -> forall k, (k < n)%nat -> r k = 0.
Proof.
  induction n as [| n IH]; intros P E k K; [lia |]. cbn [rsum] in E. assert (A : 0 <= rsum n r). { clear - P. induction n as [| n IH]; cbn [rsum]; [lra |]. pose proof (P n ltac:(lia)). specialize (IH (fun k K => P k (Nat.lt_lt_succ_r _ _ K))). lra. }
  pose proof (P n ltac:(lia)) as B. destruct (Nat.eq_dec k n) as [-> | D]; [lra |]. apply IH; [intros q Q; apply P; lia | lra | lia].
Qed.
Lemma sum_good n N Jt t k : (forall i p, 0 <= Jt i p) -> (k < n)%nat -> rsum N (fun i => Jt i k * t i) = rsum (length (good n N Jt)) (fun i => Jt (nth i (good n N Jt) 0%nat) k * t (nth i (good n N Jt) 0%nat)).
Proof.
  intros P K. rewrite <- (lsum_nth (fun i => Jt i k * t i)). unfold good. rewrite lsum_filter, lsum_seq. apply rsum_ext. intros i I. destruct (Req_EM_T (rsum n (Jt i)) 0) as [E | E]; [| reflexivity].
  rewrite (zero_row n (Jt i) (fun q _ => P i q) E k K). ring.
Qed.
Lemma place_nth : forall gs k r i, NoDup gs -> (i < length gs)%nat -> place gs k r (nth i gs 0%nat) = r (k + i)%nat.
Proof.
  induction gs as [| q gs IH]; intros k r i N I; [cbn in I; lia |]. inversion N as [| ? ? A B]; subst. destruct i as [| i]; cbn [nth place].
  - rewrite Nat.eqb_refl. now rewrite Nat.add_0_r.
  - cbn [length] in I. destruct (Nat.eqb_spec (nth i gs 0%nat) q) as [E | E]; [elim A; rewrite <- E; apply nth_In; lia |]. rewrite IH by (assumption || lia). f_equal. lia.
Qed.
Lemma place_out : forall gs k r p, ~ In p gs -> place gs k r p = 0.
Proof. induction gs as [| q gs IH]; intros k r p N; cbn [place]; [reflexivity |]. destruct (Nat.eqb_spec p q) as [-> | D]; [elim N; now left |]. apply IH. intro K. apply N. now right. Qed.

(** ** Least squares *)
Lemma quad_plus n S u v : symm n S -> quad n S (fun k => u k + v k) = quad n S u + quad n S v + 2 * rsum n (fun i => v i * rsum n (fun j => S i j * u j)).
Proof.
  intro SY. unfold quad. assert (E : rsum n (fun i => rsum n (fun j => u i * S i j * v j)) = rsum n (fun i => v i * rsum n (fun j => S i j * u j))).
  { rewrite rsum_swap. apply rsum_ext. intros i I. rewrite <- rsum_scal. apply rsum_ext. intros j J. rewrite (SY j i) by assumption. ring. }
  assert (F : rsum n (fun i => rsum n (fun j => v i * S i j * u j)) = rsum n (fun i => v i * rsum n (fun j => S i j * u j))).
  { apply rsum_ext. intros i I. rewrite <- rsum_scal. apply rsum_ext. intros j J. ring. }
  transitivity (rsum n (fun i => (rsum n (fun j => u i * S i j * u j) + rsum n (fun j => v i * S i j * v j)) + (rsum n (fun j => u i * S i j * v j) + rsum n (fun j => v i * S i j * u j)))).
  - apply rsum_ext. intros i I. rewrite <- !rsum_plus. apply rsum_ext. intros j J. ring.
  - rewrite !rsum_plus, E, F. ring.
Qed.
(** chi^2 of any spectra u is that of the coadded spectra and the square of the difference with the matrix that is returned *)
Theorem C151_coadd pos gen n N Jt S g nuis hat t M : solves pos -> solves gen -> symm n S -> (forall i p, 0 <= Jt i p) -> coadd pos gen n N Jt S g nuis hat = Some (t, M) ->
  let gs := good n N Jt in
  forall u, chi_squared n S (residual N Jt g nuis hat u) = chi_squared n S (residual N Jt g nuis hat t) + quad (length gs) M (fun i => u (nth i gs 0%nat) - t (nth i gs 0%nat)).
Proof.
  intros SP SG SY JP H gs u. unfold coadd in H. cbv zeta in H. fold gs in H. set (a := length gs) in *. set (J := fun i k => Jt (nth i gs 0%nat) k * g k) in *.
  set (Yo := fun k => g k * nuis k - hat k) in *. set (v := fun i => rsum n (fun k => Jt_siginv a n J S i k * Yo k)) in *. change (fun i => rsum n (fun k => Jt_siginv a n J S i k * (g k * nuis k - hat k))) with v in H.
  assert (X : exists x, (forall i, (i < a)%nat -> rsum a (fun j => Jt_siginv_J a n J S i j * x j) = v i) /\ t = place gs 0 (fun i => - x i) /\ M = Jt_siginv_J a n J S).
  { destruct (pos a (Jt_siginv_J a n J S) v) as [x |] eqn:E1.
    - injection H as <- <-. exists x. split; [now apply SP | split; reflexivity].
    - destruct (gen a (Jt_siginv_J a n J S) v) as [x |] eqn:E2; [| discriminate]. injection H as <- <-. exists x. split; [now apply SG | split; reflexivity]. }
  destruct X as (x & NE & Et & ->). clear H.
  assert (RES : forall w k, (k < n)%nat -> residual N Jt g nuis hat w k = rsum a (fun i => J i k * w (nth i gs 0%nat)) + Yo k).
  { intros w k K. unfold residual. rewrite (sum_good n N Jt w k JP K). fold gs. fold a. unfold Yo, J. rewrite Rmult_plus_distr_l, <- rsum_scal. unfold Rminus. rewrite Rplus_assoc. f_equal. apply rsum_ext. intros i _. ring. }
  assert (TV : forall i, (i < a)%nat -> t (nth i gs 0%nat) = - x i). { intros i I. rewrite Et. rewrite place_nth; [reflexivity | apply good_nodup | exact I]. }
  set (e := fun i => u (nth i gs 0%nat) - t (nth i gs 0%nat)). rewrite !chi_quad.
  assert (Q : quad n S (residual N Jt g nuis hat u) = quad n S (fun k => residual N Jt g nuis hat t k + rsum a (fun i => J i k * e i))).
  { unfold quad. assert (P : forall k, (k < n)%nat -> residual N Jt g nuis hat u k = residual N Jt g nuis hat t k + rsum a (fun i => J i k * e i)).
    { intros k K. rewrite !RES by assumption. rewrite <- (rsum_minus a) || idtac. unfold e. transitivity (rsum a (fun i => J i k * t (nth i gs 0%nat) + J i k * (u (nth i gs 0%nat) - t (nth i gs 0%nat))) + Yo k).
      - f_equal. apply rsum_ext. intros i _. ring.
      - rewrite rsum_plus. ring. }
    apply rsum_ext. intros i I. apply rsum_ext. intros j K. now rewrite !P by assumption. }
  rewrite Q, (quad_plus n S _ _ SY).
  (* the cross term *)
  assert (C : rsum n (fun k => rsum a (fun i => J i k * e i) * rsum n (fun m => S k m * residual N Jt g nuis hat t m)) = 0).
  { transitivity (rsum a (fun i => e i * rsum n (fun k => J i k * rsum n (fun m => S k m * residual N Jt g nuis hat t m)))).
    - transitivity (rsum n (fun k => rsum a (fun i => e i * (J i k * rsum n (fun m => S k m * residual N Jt g nuis hat t m))))).
      + apply rsum_ext. intros k K. rewrite <- rsum_scal_r. apply rsum_ext. intros i I. ring.
      + rewrite rsum_swap. apply rsum_ext. intros i I. apply rsum_scal.
    - apply rsum_zero. intros i I. assert (Z : rsum n (fun k => J i k * rsum n (fun m => S k m * residual N Jt g nuis hat t m)) = 0); [| rewrite Z; ring].
      assert (A1 : rsum n (fun k => J i k * rsum n (fun m => S k m * residual N Jt g nuis hat t m)) = rsum n (fun m => Jt_siginv a n J S i m * residual N Jt g nuis hat t m)).
      { transitivity (rsum n (fun k => rsum n (fun m => J i k * S k m * residual N Jt g nuis hat t m))).
        - apply rsum_ext. intros k K. rewrite <- rsum_scal. apply rsum_ext. intros m Mm. ring.
        - rewrite rsum_swap. apply rsum_ext. intros m Mm. rewrite (Jt_siginv_val a n J S i m I), <- rsum_scal_r. reflexivity. }
      rewrite A1. transitivity (rsum n (fun m => Jt_siginv a n J S i m * rsum a (fun j => J j m * t (nth j gs 0%nat)) + Jt_siginv a n J S i m * Yo m)).
      { apply rsum_ext. intros m Mm. rewrite RES by assumption. ring. }
      rewrite rsum_plus. fold (v i). rewrite <- (NE i I).
      assert (A2 : rsum n (fun m => Jt_siginv a n J S i m * rsum a (fun j => J j m * t (nth j gs 0%nat))) = - rsum a (fun j => Jt_siginv_J a n J S i j * x j)).
      { rewrite <- rsum_opp. transitivity (rsum n (fun m => rsum a (fun j => Jt_siginv a n J S i m * J j m * t (nth j gs 0%nat)))).
        - apply rsum_ext. intros m Mm. rewrite <- rsum_scal. apply rsum_ext. intros j Jj. ring.
        - rewrite rsum_swap. apply rsum_ext. intros j Jj. rewrite (TV j Jj). rewrite rsum_scal_r. rewrite (proj2 (C151_products a n J S i j SY I Jj)), (Jt_siginv_J_val a n J S j i Jj I).
          replace (rsum n (fun m => Jt_siginv a n J S i m * J j m)) with (rsum n (fun p => J j p * rsum n (fun q => J i q * S q p))); [ring |]. apply rsum_ext. intros p P. rewrite (Jt_siginv_val a n J S i p I). ring. }
      rewrite A2. ring. }
  rewrite C. assert (D : quad n S (fun k => rsum a (fun i => J i k * e i)) = quad a (Jt_siginv_J a n J S) e); [| rewrite D; ring].
  unfold quad. transitivity (rsum n (fun p => rsum n (fun q => rsum a (fun i => rsum a (fun k => e i * (J i p * S p q * J k q) * e k))))).
  - apply rsum_ext. intros p P. apply rsum_ext. intros q Qq. rewrite Rmult_assoc, (Rmult_comm (rsum a _)), Rmult_assoc. rewrite (rsum_mult a a). rewrite <- rsum_scal. rewrite rsum_swap. apply rsum_ext. intros i I. rewrite <- ?rsum_scal. apply rsum_ext. intros k K. ring.
  - transitivity (rsum a (fun i => rsum a (fun k => rsum n (fun p => rsum n (fun q => e i * (J i p * S p q * J k q) * e k))))).
    + rewrite (rsum_ext n _ (fun p => rsum a (fun i => rsum n (fun q => rsum a (fun k => e i * (J i p * S p q * J k q) * e k))))) by (intros; apply rsum_swap). rewrite rsum_swap. apply rsum_ext. intros i I.
      rewrite (rsum_ext n _ (fun p => rsum a (fun k => rsum n (fun q => e i * (J i p * S p q * J k q) * e k)))) by (intros; apply rsum_swap). apply rsum_swap.
    + apply rsum_ext. intros i I. apply rsum_ext. intros k K. rewrite (proj1 (C151_products a n J S i k SY I K)). rewrite <- rsum_scal, <- rsum_scal_r. apply rsum_ext. intros p P. rewrite <- rsum_scal, <- rsum_scal_r. reflexivity.
Qed.
(** so the coadded spectra have the least chi^2 of all spectra *)
Theorem C151_least pos gen n N Jt S g nuis hat t M : solves pos -> solves gen -> symm n S -> posdef n S -> (forall i p, 0 <= Jt i p) -> coadd pos gen n N Jt S g nuis hat = Some (t, M) ->
  forall u, chi_squared n S (residual N Jt g nuis hat t) <= chi_squared n S (residual N Jt g nuis hat u).
Proof.
  intros SP SG SY PD JP H u. rewrite (C151_coadd pos gen n N Jt S g nuis hat t M SP SG SY JP H u).
  (* the matrix that is returned has no negative square: it is J^T S J *)
  assert (E : M = Jt_siginv_J (length (good n N Jt)) n (fun i k => Jt (nth i (good n N Jt) 0%nat) k * g k) S).
  { unfold coadd in H. cbv zeta in H. destruct (match pos _ _ _ with Some x => Some x | None => _ end); [injection H as _ <-; reflexivity | discriminate]. }
  set (gs := good n N Jt) in *. set (J := fun i k => Jt (nth i gs 0%nat) k * g k) in *. set (e := fun i => u (nth i gs 0%nat) - t (nth i gs 0%nat)). set (a := length gs) in *. rewrite E.
  assert (D : quad n S (fun k => rsum a (fun i => J i k * e i)) = quad a (Jt_siginv_J a n J S) e).
  { unfold quad. transitivity (rsum n (fun p => rsum n (fun q => rsum a (fun i => rsum a (fun k => e i * (J i p * S p q * J k q) * e k))))).
    - apply rsum_ext. intros p P. apply rsum_ext. intros q Qq. rewrite Rmult_assoc, (Rmult_comm (rsum a _)), Rmult_assoc. rewrite (rsum_mult a a). rewrite <- rsum_scal. rewrite rsum_swap. apply rsum_ext. intros i I. rewrite <- ?rsum_scal. apply rsum_ext. intros k K. ring.
    - transitivity (rsum a (fun i => rsum a (fun k => rsum n (fun p => rsum n (fun q => e i * (J i p * S p q * J k q) * e k))))).
      + rewrite (rsum_ext n _ (fun p => rsum a (fun i => rsum n (fun q => rsum a (fun k => e i * (J i p * S p q * J k q) * e k))))) by (intros; apply rsum_swap). rewrite rsum_swap. apply rsum_ext. intros i I.
        rewrite (rsum_ext n _ (fun p => rsum a (fun k => rsum n (fun q => e i * (J i p * S p q * J k q) * e k)))) by (intros; apply rsum_swap). apply rsum_swap.
      + apply rsum_ext. intros i I. apply rsum_ext. intros k K. rewrite (proj1 (C151_products a n J S i k SY I K)). rewrite <- rsum_scal, <- rsum_scal_r. apply rsum_ext. intros p P. rewrite <- rsum_scal, <- rsum_scal_r. reflexivity. }
  pose proof (PD (fun k => rsum a (fun i => J i k * e i))) as PDe. rewrite D in PDe. lra.
Qed.
(** spectra that are in no data are zero *)
Theorem C151_unused pos gen n N Jt S g nuis hat t M i : coadd pos gen n N Jt S g nuis hat = Some (t, M) -> rsum n (Jt i) = 0 -> t i = 0.
Proof.
  unfold coadd. cbv zeta. destruct (match pos _ _ _ with Some x => Some x | None => _ end); [| discriminate]. intros H Z. injection H as <- _. apply place_out. rewrite good_in. intros (_ & K). contradiction.
Qed.
(** ** Covariance *)
Lemma scale_val fac : forall is c a b, NoDup is -> scale_cov is fac c a b = c a b * (if existsb (Nat.eqb a) is then fac b else 1) * (if existsb (Nat.eqb b) is then fac a else 1).
Proof.
  induction is as [| i is IH]; intros c a b N; cbn [scale_cov existsb]; [ring |]. inversion N as [| ? ? A B]; subst. cbv zeta. rewrite IH by assumption.
  assert (X : existsb (Nat.eqb i) is = false). { apply not_true_is_false. intro E. apply existsb_exists in E as (q & Q & E). apply Nat.eqb_eq in E. subst. contradiction. }
  destruct (Nat.eqb_spec a i) as [-> | D], (Nat.eqb_spec b i) as [-> | F]; cbn [orb]; rewrite ?X; ring.
Qed.
(** each element is multiplied by the factors of its row and its column *)
Theorem C151_cov L gs fac W c i j : coadded_cov L gs fac W = Some c -> (i < L)%nat -> (j < L)%nat -> c i j = fac i * W i j * fac j.
Proof.
  unfold coadded_cov. destruct (Nat.leb L (length gs)); [| discriminate]. intros H I J. injection H as <-. rewrite scale_val by apply seq_NoDup.
  assert (E : forall a n, (a < n)%nat -> existsb (Nat.eqb a) (seq 0 n) = true) by (intros a n H; apply existsb_exists; exists a; split; [apply in_seq; lia | apply Nat.eqb_refl]).
  rewrite !E by assumption. ring.
Qed.
(** FINDING: rows of the inverse are those of the spectra that are in the data, but they are taken for the first L spectra: with L = 1 and a first spectrum that is not in the data the variance of the second is returned, with the factor of the first *)
Theorem C151_rows_refuted : exists n N Jt, let gs := good n N Jt in gs = [1%nat] /\ forall fac W, exists c, coadded_cov 1 gs fac W = Some c /\ c 0%nat 0%nat = fac 0%nat * W 0%nat 0%nat * fac 0%nat.
Proof.
  exists 1%nat, 2%nat, (fun i _ => if Nat.eqb i 1 then 1 else 0). cbv zeta.
  assert (G : good 1 2 (fun i _ => if Nat.eqb i 1 then 1 else 0) = [1%nat]).
  { unfold good. cbn [seq filter]. cbn [rsum Nat.eqb]. destruct (Req_EM_T (0 + 0) 0) as [_ | E]; [| elim E; ring]. destruct (Req_EM_T (0 + 1) 0) as [E | _]; [lra | reflexivity]. }
  rewrite G. split; [reflexivity |]. intros fac W. eexists. split; [reflexivity |]. apply (C151_cov 1 [1%nat] fac W); [reflexivity | lia | lia].
Qed.
(** FINDING: with one spectrum and a multipole that is in no data there is no covariance *)
Theorem C151_shape_refuted L gs fac W : (length gs < L)%nat -> coadded_cov L gs fac W = None.
Proof. intro H. unfold coadded_cov. destruct (Nat.leb_spec L (length gs)); [lia | reflexivity]. Qed.

(** ** Examples *)
(** two data of one spectrum, of variances 1 and 1: the mean *)
Definition ex_solve : solver := fun a M v => match a with 1%nat => if Req_EM_T (M 0%nat 0%nat) 0 then None else Some (fun _ => v 0%nat / M 0%nat 0%nat) | _ => None end.
Lemma ex_solves : solves ex_solve.
Proof.
  intros a M v x H i I. unfold ex_solve in H. destruct a as [| [| a]]; try discriminate. destruct (Req_EM_T (M 0%nat 0%nat) 0) as [E | E]; [discriminate |]. injection H as <-. replace i with 0%nat by lia. cbn [rsum]. field. exact E.
Qed.
Definition ex_S (i j : nat) : R := if Nat.eqb i j then 1 else 0.
Example C151_ex_coadd : symm 2 ex_S /\ posdef 2 ex_S /\ exists t M, coadd ex_solve (fun _ _ _ => None) 2 1 (fun _ _ => 1) ex_S (fun _ => 1) (fun _ => 0) (fun k => if Nat.eqb k 0 then 3 else 5) = Some (t, M) /\ t 0%nat = 4 /\ M 0%nat 0%nat = 2.
Proof.
  split; [intros i j _ _; unfold ex_S; now rewrite Nat.eqb_sym |]. split.
  { intro d. unfold quad. cbn [rsum]. unfold ex_S. cbn [Nat.eqb]. pose proof (Rle_0_sqr (d 0%nat)) as A. pose proof (Rle_0_sqr (d 1%nat)) as B. unfold Rsqr in A, B. lra. }
  assert (G : good 2 1 (fun _ _ => 1) = [0%nat]) by (unfold good; cbn [seq filter rsum]; destruct (Req_EM_T (0 + 1 + 1) 0); [lra | reflexivity]).
  unfold coadd. cbv zeta. rewrite G. cbn [length nth]. unfold ex_solve at 1.
  assert (E : Jt_siginv_J 1 2 (fun _ _ => 1 * 1) ex_S 0 0 = 2) by (rewrite Jt_siginv_J_val by lia; cbn [rsum]; unfold ex_S; cbn [Nat.eqb]; ring).
  rewrite E. destruct (Req_EM_T 2 0) as [K | _]; [lra |]. do 2 eexists. split; [reflexivity |]. split; [| exact E]. cbn [place Nat.eqb]. cbn [rsum]. rewrite !Jt_siginv_val by lia. cbn [rsum]. unfold ex_S. cbn [Nat.eqb]. lra.
Qed.
(** one map of T and one of E *)
Example C151_ex_rq has get : has 3%nat = true -> cmb_rq has get (mkBin (fun _ => 0%nat) (fun _ => 0%nat) (fun _ => 1) 2 1 1 0) 0 1 0 = get (0, 1)%nat 2%nat / (2 * (2 + 1) / (2 * PI)).
Proof.
  intro H. rewrite C151_rq by (cbn; lia). cbn [blmax blmin Nat.add Nat.sub rsum]. unfold theory_cl, field. cbn [mt me Nat.ltb Nat.leb Nat.add spectrum Nat.min Nat.max lmin_ bws Nat.eqb]. rewrite H. replace (INR 2) with 2 by (cbn; ring). ring.
Qed.
Print Assumptions C151_rq.
Print Assumptions C151_coadd.
Print Assumptions C151_cov.
