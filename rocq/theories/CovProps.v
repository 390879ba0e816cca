(** Properties C13, C14, C15 (covariance matrices). *)
From Verif Require Import PyStr PyBase CovModel CovProofs.
From Coq Require Import QArith Reals Lra.
Local Open Scope nat_scope.

(** C13: rescaling one parameter. *)
Theorem C13_rescale_entries : forall (c : covmat Q) name s k,
  NoDup (cnames c) -> nth_error (cnames c) k = Some name ->
  let c' := rescaleParameter c name s in
  cnames c' = cnames c /\ csize c' = csize c /\
  (cmat c' k k == cmat c k k * (s * s))%Q /\
  (forall j, j <> k -> (cmat c' k j == cmat c k j * s)%Q /\ (cmat c' j k == cmat c j k * s)%Q) /\
  (forall i j, i <> k -> j <> k -> cmat c' i j = cmat c i j).
Proof. exact rescale_entries. Qed.
Print Assumptions C13_rescale_entries.
Theorem C13_unknown_name_ignored : forall (c : covmat Q) name s,
  ~ In name (cnames c) -> rescaleParameter c name s = c.
Proof. exact rescale_other. Qed.
Print Assumptions C13_unknown_name_ignored.
Theorem C13_stays_symmetric : forall (c : covmat Q) name s,
  (forall i j, cmat c i j == cmat c j i)%Q ->
  forall i j, (cmat (rescaleParameter c name s) i j == cmat (rescaleParameter c name s) j i)%Q.
Proof. exact rescale_symmetric. Qed.
Print Assumptions C13_stays_symmetric.
Theorem C13_inverse_restores : forall (c : covmat Q) name s, ~ (s == 0)%Q ->
  forall i j, (cmat (rescaleParameter (rescaleParameter c name s) name (/ s)) i j == cmat c i j)%Q.
Proof. exact rescale_inverse. Qed.
Print Assumptions C13_inverse_restores.
Definition ex_cov : covmat Q :=
  mkC (fun i j => if i =? j then 4%Q else 1%Q) [L "a"; L "b"; L "c"] 3.
Example C13_example : NoDup (cnames ex_cov) /\ nth_error (cnames ex_cov) 1 = Some (L "b") /\
  let c' := rescaleParameter ex_cov (L "b") (3 # 2) in
  (cmat c' 1%nat 1%nat == 9 /\ cmat c' 0%nat 1%nat == 3 # 2 /\ cmat c' 0%nat 0%nat == 4 /\ cmat c' 0%nat 2%nat == 1)%Q.
Proof.
  split; [|split; [reflexivity|vm_compute; auto]]. repeat constructor; vm_compute; intuition discriminate.
Qed.

(** C14: merging. *)
Theorem C14_merged_names : forall A (zero : A) c1 c2, NoDup (cnames c1) -> exists new,
  cnames (mergeCovmatWhereNew zero c1 c2) = cnames c1 ++ new /\ NoDup (cnames c1 ++ new) /\
  (forall x, In x new <-> In x (cnames c2) /\ ~ In x (cnames c1)).
Proof. exact @merge_names. Qed.
Print Assumptions C14_merged_names.
Theorem C14_merged_entries : forall A (zero : A) c1 c2 i j a b,
  NoDup (cnames c1) -> NoDup (cnames c2) ->
  let c := mergeCovmatWhereNew zero c1 c2 in
  nth_error (cnames c) i = Some a -> nth_error (cnames c) j = Some b ->
  (forall i1 j1, nth_error (cnames c1) i1 = Some a -> nth_error (cnames c1) j1 = Some b -> cmat c i j = cmat c1 i1 j1) /\
  (forall i2 j2, ~ (In a (cnames c1) /\ In b (cnames c1)) ->
     nth_error (cnames c2) i2 = Some a -> nth_error (cnames c2) j2 = Some b -> cmat c i j = cmat c2 i2 j2) /\
  (~ (In a (cnames c1) /\ In b (cnames c1)) -> ~ (In a (cnames c2) /\ In b (cnames c2)) -> cmat c i j = zero).
Proof. exact @merge_entries. Qed.
Print Assumptions C14_merged_entries.
Theorem C14_merged_symmetric : forall A (zero : A) c1 c2,
  (forall i j, cmat c1 i j = cmat c1 j i) -> (forall i j, cmat c2 i j = cmat c2 j i) ->
  forall i j, cmat (mergeCovmatWhereNew zero c1 c2) i j = cmat (mergeCovmatWhereNew zero c1 c2) j i.
Proof. exact @merge_symmetric. Qed.
Print Assumptions C14_merged_symmetric.
Example C14_example :
  let c2 := mkC (fun i j => 10 * i + j) [L "d"; L "b"; L "e"] 3 in
  let c1 := mkC (fun i j => 100 + 10 * i + j) [L "a"; L "b"] 2 in
  let c := mergeCovmatWhereNew 0 c1 c2 in
  NoDup (cnames c1) /\ NoDup (cnames c2) /\ cnames c = [L "a"; L "b"; L "d"; L "e"] /\
  map (fun i => map (cmat c i) [0; 1; 2; 3]) [0; 1; 2; 3]
  = [[100; 101; 0; 0]; [110; 111; 10; 12]; [0; 1; 0; 2]; [0; 21; 20; 22]].
Proof.
  split; [|split; [|vm_compute; auto]]; repeat constructor; vm_compute; intuition discriminate.
Qed.

(** C15: correlation matrices. *)
Local Open Scope R_scope.
Theorem C15_correlation_entries : forall (c : covmat R) i j,
  (forall k, (k < csize c)%nat -> cmat c k k > 0) -> (i < csize c)%nat -> (j < csize c)%nat ->
  correlation c i j = cmat c i j / (sqrt (cmat c i i) * sqrt (cmat c j j)).
Proof. exact correlation_entries. Qed.
Print Assumptions C15_correlation_entries.
Theorem C15_unit_diagonal : forall (c : covmat R) i,
  (forall k, (k < csize c)%nat -> cmat c k k > 0) -> (i < csize c)%nat -> correlation c i i = 1.
Proof. exact correlation_unit. Qed.
Print Assumptions C15_unit_diagonal.
Theorem C15_symmetric : forall (c : covmat R) i j,
  (forall k, (k < csize c)%nat -> cmat c k k > 0) -> (forall a b, cmat c a b = cmat c b a) ->
  (i < csize c)%nat -> (j < csize c)%nat -> correlation c i j = correlation c j i.
Proof. exact correlation_sym. Qed.
Print Assumptions C15_symmetric.
(** the same for chains (covToCorr), where directions of zero variance are left undivided *)
Theorem C15_cov_to_corr : forall n (M : mat R) i j, (i < n)%nat -> (j < n)%nat ->
  (M i i > 0 -> M j j > 0 -> covToCorr n M i j = M i j / (sqrt (M i i) * sqrt (M j j))) /\
  (M i i = 0 -> M j j > 0 -> covToCorr n M i j = M i j / sqrt (M j j)) /\
  (M i i = 0 -> M j j = 0 -> covToCorr n M i j = M i j).
Proof. exact covToCorr_entries. Qed.
Print Assumptions C15_cov_to_corr.
(** FINDING: a merged matrix has size 0, so its "correlation" is the unnormalised covariance. *)
Theorem C15_merged_refuted : forall (c1 c2 : covmat R) i j,
  correlation (mergeCovmatWhereNew 0%R c1 c2) i j = cmat (mergeCovmatWhereNew 0%R c1 c2) i j.
Proof. exact correlation_merged. Qed.
Print Assumptions C15_merged_refuted.
Example C15_example : let c := mkC (fun i j => if (i =? j)%nat then 4 else 1) [L "a"; L "b"] 2 in
  (forall k, (k < csize c)%nat -> cmat c k k > 0) /\ correlation c 0%nat 1%nat = 1 / 4.
Proof.
  intros c. assert (H : forall k, (k < csize c)%nat -> cmat c k k > 0).
  { intros k _. cbn. rewrite Nat.eqb_refl. lra. }
  split; [exact H|]. rewrite correlation_entries; [|exact H|cbn; lia|cbn; lia]. cbn.
  replace 4 with (2 * 2) by lra. rewrite sqrt_square by lra. lra.
Qed.
