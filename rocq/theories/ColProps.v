(** C106: the columns of a chain file go with the names in the .paramnames file *)
From Coq Require Import Reals String Ascii Bool Arith ZArith Lia Lra List Permutation.
From Verif Require Import PyStr PyStrFacts NamesModel NamesSpec NamesProofs StatModel LikeModel ColModel ColSpec ColProofs ColProofs2.
Import ListNotations.
Local Open Scope R_scope.
Local Open Scope list_scope.
Local Open Scope nat_scope.

(** Partial: under [fits_like]; see the findings below *)
Theorem C106_columns_partial : forall T likes names1 nix dix new names2 used given P th vals logLike junk,
  in_order T -> NoDup (names_of T) -> Forall (fits_like (derivs T) likes) likes ->
  Permutation (map lk_orig likes) (seq 0 (length likes)) ->
  AddNuisanceParameters T likes = Some (names1, nix, dix, new) -> AddOutputLikelihoodParams names1 likes = Some names2 ->
  length th = length (derivs T) -> length vals = length likes -> length given = length likes ->
  Forall2 (fun lk (g : list R -> list R) => forall x, length (g x) = length (derivs (lk_nuis lk))) likes given ->
  Forall (fun i => i < num_MCMC names2) used -> num_MCMC names2 <= length P ->
  exists args cols,
    Forall2 (fun lk a => Forall2 (fun p v => value (names_of names2) P (nm p) v) (bases (lk_nuis lk)) a) likes args /\
    WriteFile names2 used = Some (map (AsString false) cols) /\
    Forall2 (column names2 likes P (combine (names_of (derivs T)) th ++ like_pairs likes given args) vals logLike)
      cols (WriteParams used likes nix dix new given P th vals logLike junk) /\
    cols = map (fun i => nth i names2 no_name) used ++ derivs names2 /\ in_order names2 /\ NoDup (names_of names2).
Proof. exact columns_hold. Qed.

(** The numbers of the theory parameters do not change when those of likelihoods are added *)
Theorem C106_theory_partial : forall T likes names1 nix dix new,
  in_order T -> NoDup (names_of T) -> Forall (fits_like (derivs T) likes) likes ->
  AddNuisanceParameters T likes = Some (names1, nix, dix, new) ->
  exists B D, names1 = (bases T ++ B) ++ (derivs T ++ D) /\ in_order names1 /\ NoDup (names_of names1) /\
    (forall p, In p D -> exists lk, In lk likes /\ In p (derivs (lk_nuis lk))) /\ new = Z.of_nat (length D).
Proof.
  intros T likes names1 nix dix new (b & d & -> & Bb & Dd) ND F EA. destruct (bases_split b d Bb Dd) as [-> ED]. rewrite ED in *.
  unfold AddNuisanceParameters in EA. destruct (add_nuisance (b ++ d) likes) as [[n1 nix1] |] eqn:EN; [| discriminate]. cbn [bindO fst snd] in EA.
  destruct (allSome _) as [dix1 |] eqn:EDX; [| discriminate]. cbn [bindO] in EA. injection EA as -> -> -> <-.
  destruct (add_all likes likes b d names1 nix (fun _ H => H) Bb Dd ND F EN) as (B' & D' & -> & B1 & D1 & ND1 & _ & HD).
  exists B', D'. split; [reflexivity |]. split; [exists (b ++ B'), (d ++ D'); now repeat split |]. split; [exact ND1 |]. split; [exact HD |].
  rewrite (proj2 (num_split _ _ B1 D1)), (proj2 (num_split _ _ Bb Dd)), app_length. lia.
Qed.

(** FINDING: the likelihoods take the first num_MCMC names of their file as their base parameters (line 643), but the file need not list
    them first: a derived parameter before a base one is then read as a base parameter, and the other way round. *)
Definition bp (s : string) : pn := mkN (L s) [] [] false.
Definition dp (s : string) : pn := mkN (L s) [] [] true.
Definition ex_T : list pn := [bp "a"; dp "A"].
Definition ex_mixed : list like := [mkL [dp "N"; bp "n"] 0 (L "x") []].
Theorem C106_order_refuted :
  (exists r, add_nuisance ex_T ex_mixed = Some r /\ names_of (fst r) = [L "a"; L "n"; L "A"; L "N"] /\ snd r = [[3]]) /\
  AddNuisanceParameters ex_T ex_mixed = None.
Proof. split; [eexists; split; [vm_compute; reflexivity | now split] | vm_compute; reflexivity]. Qed.
(** FINDING: a base parameter of a likelihood that is a derived parameter of the theory becomes a base parameter, so the number of
    derived parameters falls; the values that the theory gives are not moved, and the columns are those of other names. *)
Definition ex_shift : list like := [mkL [bp "B"; bp "n"] 0 (L "x") []].
Definition ex_T3 : list pn := [bp "a"; dp "B"; dp "C"].
Theorem C106_shift_refuted :
  exists names1 names2,
    AddNuisanceParameters ex_T3 ex_shift = Some (names1, [[1; 2]], [[]], (-1)%Z) /\ AddOutputLikelihoodParams names1 ex_shift = Some names2 /\
    names_of names2 = [L "a"; L "B"; L "n"; L "C"; L "chi2_x"; L "chi2_prior"] /\
    (length (WriteParams [0; 1; 2] ex_shift [[1; 2]] [[]] (-1)%Z [fun _ => []] [1; 2; 3]%R [4; 5]%R [0]%R 0%R 0%R) = 7 /\
     forall r, nth 3 (WriteParams [0; 1; 2] ex_shift [[1; 2]] [[]] (-1)%Z [fun _ => []] [1; 2; 3]%R [4; 5]%R [0]%R 0%R 0%R) r = 4%R).
Proof. eexists. eexists. split; [vm_compute; reflexivity |]. split; [vm_compute; reflexivity |]. split; [reflexivity |]. split; [cbn; reflexivity |].
  intro r. cbn. reflexivity. Qed.
(** FINDING: the column chi2_prior is taken from the logLike that is written, in which everything is divided by the temperature
    (calclike.f90 91), and the likelihoods not divided by it: with temperature t it holds the prior plus a multiple of the likelihoods. *)
Theorem C106_temperature_refuted : forall prior like t junk, (t <> 0)%R ->
  nth 1 (WriteParams [] [mkL [] 0 (L "x") []] [[]] [[]] 0%Z [fun _ => []] [] [] [like] ((prior + like) / t)%R junk) 0%R =
  (2 * (prior / t + like * (1 / t - 1)))%R.
Proof. intros prior like t junk H. cbn. unfold sumR. cbn. field. exact H. Qed.

Definition ex_likes : list like :=
  [mkL [bp "n1"; dp "D1"] 1 (L "x") (L "T"); mkL [bp "n2"; bp "n1"] 0 (L "y") (L "T")].
Definition ex_given : list (list R -> list R) := [fun a => [hd 0 a + 10]%R; fun _ => []].
Example C106_ex :
  in_order ex_T /\ NoDup (names_of ex_T) /\ Forall (fits_like (derivs ex_T) ex_likes) ex_likes /\
  Permutation (map lk_orig ex_likes) (seq 0 (length ex_likes)) /\
  exists names1 names2, AddNuisanceParameters ex_T ex_likes = Some (names1, [[1]; [2; 1]], [[1]; []], 1%Z) /\
    AddOutputLikelihoodParams names1 ex_likes = Some names2 /\
    WriteFile names2 [0; 2] = Some (map (AsString false) [bp "a"; bp "n2"; dp "A"; dp "D1"; dp "chi2_y"; dp "chi2_x"; dp "chi2_prior"; dp "chi2_T"]) /\
    Forall2 (fun lk (g : list R -> list R) => forall x, length (g x) = length (derivs (lk_nuis lk))) ex_likes ex_given /\
    num_MCMC names2 = 3 /\
    WriteParams [0; 2] ex_likes [[1]; [2; 1]] [[1]; []] 1%Z ex_given [1; 2; 3]%R [4]%R [5; 6]%R 20%R 0%R =
      [1; 3; 4; 2 + 10; 6 * 2; 5 * 2; 2 * (20 - (5 + (6 + 0))); (5 + (6 + 0)) * 2]%R.
Proof.
  split; [exists [bp "a"], [dp "A"]; repeat constructor |]. split; [repeat constructor; cbn; intuition discriminate |]. split.
  - repeat constructor; cbn.
    + exists [bp "n1"], [dp "D1"]. repeat constructor.
    + intuition discriminate.
    + intuition discriminate.
    + destruct H as [<- | [<- | []]]; [cbn; intuition discriminate | discriminate].
    + intros lk' q [<- | [<- | []]]; cbn; intros [<- | [<- | []]]; try discriminate; destruct H as [<- | [<- | []]]; cbn; try discriminate.
    + exists [bp "n2"; bp "n1"], []. repeat constructor.
    + intuition discriminate.
    + intuition discriminate.
    + destruct H as [<- | [<- | []]]; cbn; intuition discriminate.
    + intros lk' q [<- | [<- | []]]; cbn; intros [<- | [<- | []]]; try discriminate; destruct H as [<- | [<- | []]]; cbn; try discriminate.
  - split; [apply perm_swap |]. eexists. eexists. split; [vm_compute; reflexivity |]. split; [vm_compute; reflexivity |]. split; [vm_compute; reflexivity |].
    split; [repeat constructor |]. split; [vm_compute; reflexivity |]. cbn. reflexivity.
Qed.
Print Assumptions C106_columns_partial.
Print Assumptions C106_theory_partial.
Print Assumptions C106_temperature_refuted.
