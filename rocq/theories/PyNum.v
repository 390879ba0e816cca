(** str(n) for natural numbers, and str.replace. *)
From Verif Require Import PyStr PyStrFacts.
From Coq Require Decimal DecimalString DecimalNat DecimalFacts String Ascii.
Import DecimalString DecimalNat String Ascii List ListNotations.
Local Open Scope list_scope.

Definition show_nat (n : nat) : str := L (NilEmpty.string_of_uint (Nat.to_uint n)).

Lemma L_inj a b : L a = L b -> a = b.
Proof.
  unfold L. intros H. apply (f_equal string_of_list_ascii) in H. now rewrite !string_of_list_ascii_of_string in H.
Qed.
Lemma show_nat_inj m n : show_nat m = show_nat n -> m = n.
Proof.
  unfold show_nat. intros H. apply L_inj in H.
  apply Unsigned.to_uint_inj. apply (f_equal NilEmpty.uint_of_string) in H. rewrite !NilEmpty.usu in H. congruence.
Qed.
Definition is_digit (c : ascii) : Prop := 48 <= nat_of_ascii c <= 57.
Lemma show_nat_digits n c : In c (show_nat n) -> is_digit c.
Proof.
  unfold show_nat, L. generalize (Nat.to_uint n). intros u. unfold is_digit.
  induction u; cbn [NilEmpty.string_of_uint list_ascii_of_string In]; [intros []|..];
    (intros [<-|H]; [cbn; lia|auto]).
Qed.
Lemma show_nat_nonempty n : show_nat n <> [].
Proof.
  unfold show_nat. intros H. change [] with (L EmptyString) in H. apply L_inj in H.
  apply (f_equal NilEmpty.uint_of_string) in H. rewrite NilEmpty.usu in H. cbn in H. injection H as H.
  pose proof (Unsigned.of_to n) as E. rewrite H in E. cbn in E. subst n. discriminate.
Qed.

(** s.replace(old, new) for non-empty [old]: leftmost occurrences, not overlapping *)
Fixpoint replace_aux (old new : str) (skip : nat) (s : str) : str :=
  match s with
  | [] => []
  | c :: s' =>
      match skip with
      | S k => replace_aux old new k s'
      | O => if startswith old s then new ++ replace_aux old new (List.length old - 1) s' else c :: replace_aux old new 0 s'
      end
  end.
Definition replace_str (old new s : str) : str := replace_aux old new 0 s.

Lemma replace_aux_skip old new a b : replace_aux old new (List.length a) (a ++ b) = replace_aux old new 0 b.
Proof. induction a as [|c a IH]; cbn; [reflexivity|exact IH]. Qed.
Lemma replace_hit old new s : old <> [] -> replace_str old new (old ++ s) = new ++ replace_str old new s.
Proof.
  intros H. destruct old as [|c old]; [contradiction|]. unfold replace_str. cbn [app replace_aux].
  pose proof (startswith_app (c :: old) s) as E. cbn [app] in E. rewrite E.
  cbn [List.length]. rewrite Nat.sub_0_r || replace (S (List.length old) - 1) with (List.length old) by lia. now rewrite replace_aux_skip.
Qed.
Lemma replace_miss old new c s : startswith old (c :: s) = false -> replace_str old new (c :: s) = c :: replace_str old new s.
Proof. intros H. unfold replace_str. cbn [replace_aux]. now rewrite H. Qed.
(** characters that cannot start [old] are kept *)
Lemma replace_pass o old new a s : ~ In o a -> replace_str (o :: old) new (a ++ s) = a ++ replace_str (o :: old) new s.
Proof.
  induction a as [|c a IH]; intros H; [reflexivity|]. cbn [app]. rewrite replace_miss.
  - rewrite IH; [reflexivity|]. intros C. apply H. now right.
  - cbn [startswith]. destruct (ch_eqb_spec o c) as [->|N]; [exfalso; apply H; now left|reflexivity].
Qed.
