(** Python results: a value or a raised exception. *)
From Verif Require Export PyStr.

Inductive exn := IndexError | KeyError | ValueError | IOError | TypeError | AttributeError
               | RecursionError | ZeroDivisionError | OtherError (msg : str).

Inductive res (A : Type) := Ok (a : A) | Err (e : exn).
Arguments Ok {A} _.
Arguments Err {A} _.
Definition bindR {A B} (x : res A) (f : A -> res B) : res B :=
  match x with Ok a => f a | Err e => Err e end.

(** list comprehension whose body may raise: the first exception wins *)
Fixpoint mapR {A B} (f : A -> res B) (l : list A) : res (list B) :=
  match l with
  | [] => Ok []
  | x :: l' => match f x with
               | Err e => Err e
               | Ok y => match mapR f l' with Err e => Err e | Ok r => Ok (y :: r) end
               end
  end.

Lemma mapR_map {A B C} (f : A -> res B) (g : C -> A) (h : C -> B) l :
  (forall x, In x l -> f (g x) = Ok (h x)) -> mapR f (map g l) = Ok (map h l).
Proof.
  induction l as [|x l IH]; simpl; intros H; [reflexivity|].
  rewrite H by auto. rewrite IH by auto. reflexivity.
Qed.
