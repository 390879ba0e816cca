From Coq Require Import Reals String List Bool.
From Verif Require Import McmcModel.
Import ListNotations.
Local Open Scope R_scope.
(** The value that goes with a name *)
Definition has_value {A} (names : list string) (vals : list A) (n : string) (v : A) : Prop :=
  exists i, nth_error names i = Some n /\ nth_error vals i = Some v.
(** The -log(posterior) for the values of all likelihoods at temperature T: [logZero] if anything is impossible *)
Definition posterior (T bound prior0 prior : R) (vals : list R) : R :=
  bound + prior0 / T + fold_right Rplus 0 vals / T + prior / T.
