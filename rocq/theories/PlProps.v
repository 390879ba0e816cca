(** C142: binned Planck likelihood and template for WMAP. *)
From Coq Require Import Reals ZArith String Bool List Lra Lia Sorted Psatz.
From Verif Require Import BaoModel BaoSpec BaoProofs SnProofs PlModel PlSpec PlProofs.
Import ListNotations.
Local Open Scope R_scope.

Lemma nth_map_at {A B} (g : A -> B) l d d' k : (k < length l)%nat -> nth k (map g l) d = g (nth k l d').
Proof. intros K. rewrite (nth_indep _ d (g d')) by (rewrite map_length; exact K). apply map_nth. Qed.

Section P.
  Variables (p : plik) (inv : nat -> (nat -> nat -> R) -> nat -> nat -> R) (f : pfiles) (use_cl : list string) (range : option (Z * Z)).

  Lemma read_inv r : Plik_ReadIni p inv f use_cl range = Ok r -> exists u, use_bins p f range = Ok u /\
    let bins := bins_of p use_cl u in let ix := used_indices p bins in
    r = mkRead bins (length ix) (cl_lmax p f use_cl bins) (map (f_dat f) ix) (inv (length ix) (sub_matrix (the_cov f) ix)) /\
    (forall k, In k ix -> (k <= ndat f)%nat /\ (k <= ncov f)%nat) /\ (forall i b, (1 <= i <= 3)%nat -> In b (bins i) -> (b <= nblocks f)%nat).
  Proof.
    unfold Plik_ReadIni. intros E. destruct (use_bins p f range) as [u| |]; try discriminate. cbn [bind] in E. exists u. split; [reflexivity|].
    cbv zeta in E |- *. destruct (_ && _)%bool eqn:Q in E; [|discriminate]. apply andb_true_iff in Q. destruct Q as [Q1 Q2].
    split; [congruence|]. split.
    - intros k K. rewrite forallb_forall in Q2. specialize (Q2 k K). apply andb_true_iff in Q2. rewrite !Nat.leb_le in Q2. exact Q2.
    - intros i b I B. rewrite forallb_forall in Q1. assert (In i [1; 2; 3]%nat) by (cbn; lia). specialize (Q1 i H). rewrite forallb_forall in Q1.
      apply Nat.leb_le. apply Q1. exact B.
  Qed.
  Lemma used_spec i : (1 <= i <= 3)%nat -> is_used use_cl i = true <-> exists name a b, spectrum i name a b /\ In name use_cl.
  Proof.
    intros I. unfold is_used. rewrite existsb_exists. split.
    - intros [x [X E]]. apply String.eqb_eq in E. subst x. exists (cl_name i).
      assert (i = 1 \/ i = 2 \/ i = 3)%nat as [-> | [-> | ->]] by lia; cbn in *; [exists 1%nat, 1%nat | exists 2%nat, 1%nat | exists 2%nat, 2%nat];
      (split; [unfold spectrum; auto | exact X]).
    - intros [name [a [b [S X]]]]. exists name. split; [exact X|]. apply String.eqb_eq.
      destruct S as [S | [S | S]]; assert (i = fst (fst (fst (i, name, a, b)))) by reflexivity; rewrite S in *; cbn in H; subst i; cbn; congruence.
  Qed.
  Lemma range_spec lo hi b : in_range p f lo hi b = true <-> IZR lo <= (INR (blmin p f b) + INR (blmax p f b)) / 2 <= IZR hi.
  Proof.
    unfold in_range. cbv zeta. rewrite andb_true_iff, !Z.leb_le.
    assert (E : INR (blmin p f b) + INR (blmax p f b) = IZR (Z.of_nat (blmin p f b + blmax p f b))) by (rewrite <- plus_INR; apply INR_IZR_INZ).
    rewrite E. generalize (Z.of_nat (blmin p f b + blmax p f b)). intros t.
    split; intros [A B].
    - apply IZR_le in A, B. rewrite mult_IZR in A, B. lra.
    - split; apply le_IZR; rewrite mult_IZR; lra.
  Qed.
  Lemma bins_spec u i b : use_bins p f range = Ok u -> (1 <= i <= 3)%nat -> In b (bins_of p use_cl u i) <->
    is_used use_cl i = true /\ (1 <= b <= nbincl p i)%nat /\ (forall lo hi, range = Some (lo, hi) -> in_range p f lo hi b = true).
  Proof.
    intros E I. assert (M : (nbincl p i <= maxbin p)%nat).
    { unfold maxbin. assert (i = 1 \/ i = 2 \/ i = 3)%nat as [-> | [-> | ->]] by lia; lia. }
    unfold bins_of. destruct (is_used use_cl i); [|split; [intros [] | intros [X _]; discriminate]].
    unfold use_bins in E. destruct range as [[lo hi]|].
    - destruct (Nat.leb _ _) in E; [|discriminate].
      assert (X : u = Some (filter (in_range p f lo hi) (seq 1 (maxbin p)))) by (destruct (filter (in_range p f lo hi) (seq 1 (maxbin p))); congruence).
      subst u. rewrite !filter_In, in_seq, Nat.leb_le. split.
      + intros [[A B] D]. split; [reflexivity|]. split; [lia|]. intros lo' hi' Q. assert (lo' = lo /\ hi' = hi) as [-> ->] by (split; congruence). exact B.
      + intros [_ [A B]]. split; [|lia]. split; [lia|]. apply B. reflexivity.
    - assert (X : u = None) by congruence. subst u. rewrite in_seq. split; [intros A; split; [reflexivity|]; split; [lia | discriminate] | lia].
  Qed.

  (** the bins of the spectra that are named, from the first on, with their centres in the range if there is one; each once and in order *)
  Theorem C142_selected : forall r, Plik_ReadIni p inv f use_cl range = Ok r ->
    (forall i b, (1 <= i <= 3)%nat -> In b (r_bins r i) <->
       (exists name a c, spectrum i name a c /\ In name use_cl) /\ (1 <= b <= nbincl p i)%nat /\
       (forall lo hi, range = Some (lo, hi) -> IZR lo <= (INR (f_min f b + plmin p) + INR (f_max f b + plmin p)) / 2 <= IZR hi)) /\
    (forall i, StronglySorted lt (r_bins r i)) /\
    r_nused r = (length (r_bins r 1%nat) + length (r_bins r 2%nat) + length (r_bins r 3%nat))%nat.
  Proof.
    intros r E. destruct (read_inv r E) as [u [U [-> _]]]. cbn [r_bins r_nused]. split; [|split].
    - intros i b I. rewrite (bins_spec u i b U I), (used_spec i I). split; intros [A [B C]]; (split; [exact A|]; split; [exact B|]); intros lo hi Q.
      + apply range_spec. apply C. exact Q.
      + apply range_spec. apply C. exact Q.
    - intros i. unfold bins_of. destruct (is_used use_cl i); [|constructor]. unfold use_bins in U. destruct range as [[lo hi]|].
      + destruct (Nat.leb _ _) in U; [|discriminate].
        assert (X : u = Some (filter (in_range p f lo hi) (seq 1 (maxbin p)))) by (destruct (filter (in_range p f lo hi) (seq 1 (maxbin p))); congruence).
        subst u. apply filter_sorted, filter_sorted, seq_sorted.
      + assert (X : u = None) by congruence. subst u. apply seq_sorted.
    - unfold used_indices. cbn [flat_map]. rewrite !app_length, !map_length. cbn [length]. lia.
  Qed.

  Definition points (r : plread) : list (nat * nat) := flat_map (fun i => map (pair i) (r_bins r i)) [1; 2; 3]%nat.
  (** the data of a bin of a spectrum come after those of all bins, used or not, of the spectra before *)
  Theorem C142_data : forall r, Plik_ReadIni p inv f use_cl range = Ok r ->
    length (points r) = r_nused r /\ length (r_data r) = r_nused r /\
    forall k, (k < r_nused r)%nat -> let i := fst (nth k (points r) (0, 0)%nat) in let b := snd (nth k (points r) (0, 0)%nat) in
      let index := (b + match i with 1 => 0 | 2 => nbincl p 1 | _ => nbincl p 1 + nbincl p 2 end)%nat in
      In b (r_bins r i) /\ (1 <= i <= 3)%nat /\ nth k (r_data r) 0 = f_dat f index /\ (index <= ndat f)%nat.
  Proof.
    intros r E. destruct (read_inv r E) as [u [U [-> [I J]]]]. unfold points. cbn [r_bins r_nused r_data].
    set (bins := bins_of p use_cl u) in *.
    set (pts := flat_map (fun i => map (pair i) (bins i)) [1; 2; 3]%nat).
    assert (X : used_indices p bins = map (fun ib => (snd ib + offset_of p (fst ib))%nat) pts).
    { unfold used_indices, pts. cbn [flat_map]. rewrite !map_app, !map_map. reflexivity. }
    assert (L : length pts = length (used_indices p bins)) by (rewrite X, map_length; reflexivity).
    split; [exact L|]. split; [apply map_length|]. intros k K. cbv zeta.
    assert (P : In (nth k pts (0, 0)%nat) pts) by (apply nth_In; lia).
    set (q := nth k pts (0, 0)%nat) in *.
    assert (Q : (1 <= fst q <= 3)%nat /\ In (snd q) (bins (fst q))).
    { unfold pts in P. apply in_flat_map in P. destruct P as [i [Hi P]]. apply in_map_iff in P. destruct P as [b [<- B]]. cbn [fst snd].
      split; [cbn in Hi; lia | exact B]. }
    assert (O : offset_of p (fst q) = match fst q with 1 => 0 | 2 => nbincl p 1 | _ => nbincl p 1 + nbincl p 2 end%nat).
    { destruct Q as [Q _]. assert (fst q = 1 \/ fst q = 2 \/ fst q = 3)%nat as [-> | [-> | ->]] by lia; cbn; lia. }
    rewrite <- O. split; [tauto|]. split; [tauto|]. split.
    - rewrite X, map_map. apply (nth_map_at (fun ib => f_dat f (snd ib + offset_of p (fst ib)))). lia.
    - apply I. rewrite X. apply in_map_iff. exists q. split; [reflexivity | exact P].
  Qed.

  (** the highest multipole asked for of a spectrum is the highest one of its bins *)
  Theorem C142_lmax : forall r, Plik_ReadIni p inv f use_cl range = Ok r -> forall i name a b, spectrum i name a b ->
    (r_bins r i <> [] -> (forall c, In c (r_bins r i) -> (Z.of_nat (f_max f c + plmin p) <= r_lmax r a b)%Z) /\
       exists c, In c (r_bins r i) /\ r_lmax r a b = Z.of_nat (f_max f c + plmin p)) /\
    (~ In name use_cl -> r_lmax r a b = 0%Z).
  Proof.
    intros r E i name a b S. destruct (read_inv r E) as [u [U [-> _]]]. cbn [r_bins r_lmax].
    assert (I : (1 <= i <= 3)%nat) by (destruct S as [S | [S | S]]; assert (i = fst (fst (fst (i, name, a, b)))) by reflexivity; rewrite S in *; cbn in *; lia).
    assert (L : cl_lmax p f use_cl (bins_of p use_cl u) a b = if is_used use_cl i then maxval (map (blmax p f) (bins_of p use_cl u i)) else 0%Z).
    { unfold cl_lmax. destruct S as [S | [S | S]]; (assert (i = fst (fst (fst (i, name, a, b)))) as Hi by reflexivity; assert (a = snd (fst (i, name, a, b))) as Ha by reflexivity;
      assert (b = snd (i, name, a, b)) as Hb by reflexivity; rewrite S in Hi, Ha, Hb; cbn in Hi, Ha, Hb; subst i a b; cbn [filter pair_of fst snd Nat.eqb andb];
      rewrite !andb_false_r, ?andb_true_r; cbn [filter]; destruct (is_used use_cl _); reflexivity). }
    rewrite L. split.
    - intros N. destruct (is_used use_cl i) eqn:Q; [|exfalso; apply N; unfold bins_of; rewrite Q; reflexivity].
      destruct (maxval_spec (map (blmax p f) (bins_of p use_cl u i))) as [A [y [Y B]]]; [destruct (bins_of p use_cl u i); [congruence | discriminate]|].
      split.
      + intros c C. apply (A (blmax p f c)). apply in_map. exact C.
      + apply in_map_iff in Y. destruct Y as [c [<- C]]. exists c. split; [exact C | exact B].
    - intros N. destruct (is_used use_cl i) eqn:Q; [|reflexivity]. exfalso. apply N. apply (used_spec i I) in Q. destruct Q as [n [a' [b' [S' X]]]].
      assert (n = name); [|subst; exact X].
      destruct S as [S | [S | S]], S' as [S' | [S' | S']]; congruence.
  Qed.

  (** the likelihood is that of a normal distribution: with the inverse of the covariance of the used bins, of the difference of the data and of the
      sums over the bins of C_l with the weights, divided by the square of the calibration *)
  Theorem C142_loglike : forall r, Plik_ReadIni p inv f use_cl range = Ok r -> forall CL cal,
    let w l := f_weights f (l - plmin p + 1) in
    let power k := let i := fst (nth k (points r) (0, 0)%nat) in let b := snd (nth k (points r) (0, 0)%nat) in
      let ab := match i with 1 => (1, 1) | 2 => (2, 1) | _ => (2, 2) end%nat in
      band w (C_of (CL (fst ab) (snd ab))) (f_min f b + plmin p) (f_max f b + 1 - f_min f b) in
    let d k := nth (k - 1) (r_data r) 0 - power (k - 1)%nat / cal ^ 2 in
    (forall x, symmetric (r_nused r) (r_invcov r) -> Plik_LogLike p f r CL cal = Ok x -> x = form (r_nused r) (r_invcov r) d / 2) /\
    ((forall b, (1 <= b <= nblocks f)%nat -> (f_max f b < nweights f)%nat) -> exists x, Plik_LogLike p f r CL cal = Ok x).
  Proof.
    intros r E CL cal. cbv zeta. destruct (C142_data r E) as [LP [LD D]]. destruct (C142_selected r E) as [Se _]. destruct (read_inv r E) as [u [U [R [_ NB]]]].
    split.
    - intros x Sy H. unfold Plik_LogLike in H. fold (points r) in H.
      destruct (all_of (fun ib => bin_power p f CL (fst ib) (snd ib)) (points r)) as [cl| |] eqn:Q; try discriminate. cbn [bind] in H.
      assert (X : x = QuadForm (r_nused r) (r_invcov r) (fun k => nth (k - 1) (r_data r) 0 - nth (k - 1) cl 0 / cal ^ 2) / 2) by congruence. rewrite X.
      rewrite QuadForm_form by exact Sy. f_equal. apply form_ext; [reflexivity|]. intros k K.
      apply all_of_Forall2 in Q. destruct (Forall2_nth2 _ _ _ (0, 0)%nat 0 Q) as [L N]. specialize (N (k - 1)%nat ltac:(lia)).
      apply bin_power_band in N. rewrite N. clear N. f_equal. f_equal.
      destruct (D (k - 1)%nat ltac:(lia)) as [_ [I _]].
      set (q := nth (k - 1) (points r) (0, 0)%nat) in *.
      replace (blmax p f (snd q) + 1 - blmin p f (snd q))%nat with (f_max f (snd q) + 1 - f_min f (snd q))%nat by (unfold blmin, blmax; lia).
      unfold pair_of, blmin. assert (fst q = 1 \/ fst q = 2 \/ fst q = 3)%nat as [-> | [-> | ->]] by lia; reflexivity.
    - intros W. unfold Plik_LogLike. fold (points r).
      destruct (all_of_Ok (fun ib => bin_power p f CL (fst ib) (snd ib)) (points r)) as [ys Y].
      + intros q P. apply (In_nth _ _ (0, 0)%nat) in P. destruct P as [k [K <-]]. destruct (D k ltac:(lia)) as [B [I _]].
        set (q := nth k (points r) (0, 0)%nat) in *. unfold bin_power.
        assert (M : (1 <= snd q <= nblocks f)%nat).
        { split; [apply (Se (fst q) (snd q) I) in B; lia|]. apply (NB (fst q) (snd q) I). rewrite R in B. exact B. }
        specialize (W (snd q) M).
        destruct (weights_Ok p f (blmin p f (snd q)) (blmax p f (snd q) + 1 - blmin p f (snd q))) as [ws V].
        * unfold blmin, blmax. lia.
        * rewrite V. cbn [bind]. eauto.
      + rewrite Y. cbn [bind]. eauto.
  Qed.

  (** to leave bins out is to take the best values that they could have had: the sum of squares of the used bins is the least one of all bins
      together, whatever the data of the others are *)
  Theorem C142_marginal : forall r, Plik_ReadIni p inv f use_cl range = Ok r ->
    let index k := let i := fst (nth (k - 1) (points r) (0, 0)%nat) in let b := snd (nth (k - 1) (points r) (0, 0)%nat) in
      (b + match i with 1 => 0 | 2 => nbincl p 1 | _ => nbincl p 1 + nbincl p 2 end)%nat in
    let C := the_cov f in
    (forall n A B, inverse_of n A B -> inverse_of n A (inv n A)) ->
    (exists B, inverse_of (r_nused r) (fun a b => C (index a) (index b)) B) ->
    forall K, covariance (ncov f) C -> inverse_of (ncov f) C K -> forall x : nat -> R,
    symmetric (r_nused r) (r_invcov r) /\
    form (r_nused r) (r_invcov r) (fun a => x (index a)) <= form (ncov f) K x /\
    exists y, (forall a, (1 <= a <= r_nused r)%nat -> y (index a) = x (index a)) /\ form (ncov f) K y = form (r_nused r) (r_invcov r) (fun a => x (index a)).
  Proof.
    intros r E. cbv zeta. intros HI [B HB] K Co HK x.
    destruct (C142_data r E) as [LP [LD D]]. destruct (C142_selected r E) as [Se _]. destruct (read_inv r E) as [u [U [R [NI _]]]].
    set (index := fun k => (snd (nth (k - 1) (points r) (0, 0)%nat) + match fst (nth (k - 1) (points r) (0, 0)%nat) with 1 => 0 | 2 => nbincl p 1 | _ => nbincl p 1 + nbincl p 2 end)%nat).
    set (ix := used_indices p (bins_of p use_cl u)) in *.
    assert (M : r_nused r = length ix) by (rewrite R; reflexivity).
    assert (X : ix = map (fun ib => (snd ib + offset_of p (fst ib))%nat) (points r)).
    { rewrite R. unfold ix, used_indices, points. cbn [flat_map r_bins]. rewrite !map_app, !map_map. reflexivity. }
    assert (N : forall a, (1 <= a <= r_nused r)%nat -> nth (a - 1) ix 0%nat = index a).
    { intros a A. rewrite X. rewrite (nth_map_at (fun ib => (snd ib + offset_of p (fst ib))%nat) _ _ (0, 0)%nat) by lia. unfold index. destruct (D (a - 1)%nat ltac:(lia)) as [_ [I _]]. set (q := nth (a - 1) (points r) (0, 0)%nat) in *.
      f_equal. assert (fst q = 1 \/ fst q = 2 \/ fst q = 3)%nat as [-> | [-> | ->]] by lia; cbn; lia. }
    assert (IR : forall a, (1 <= a <= r_nused r)%nat -> (1 <= index a <= ncov f)%nat).
    { intros a A. split.
      - destruct (D (a - 1)%nat ltac:(lia)) as [In1 [I _]]. apply (Se _ _ I) in In1. unfold index. lia.
      - rewrite <- (N a A). apply NI. apply nth_In. lia. }
    assert (IU : inverse_of (r_nused r) (fun a b => the_cov f (index a) (index b)) (r_invcov r)).
    { assert (Q : inverse_of (length ix) (sub_matrix (the_cov f) ix) (inv (length ix) (sub_matrix (the_cov f) ix))).
      { apply HI with B. rewrite <- M. intros i j I J. destruct (HB i j I J) as [H1 H2]. split; [rewrite <- H1 | rewrite <- H2];
        apply total_ext; intros k Hk; unfold sub_matrix; rewrite ?(N i I), ?(N k Hk), ?(N j J); reflexivity. }
      assert (RU : r_invcov r = inv (length ix) (sub_matrix (the_cov f) ix)) by (rewrite R; reflexivity). rewrite RU.
      rewrite <- M in Q |- *. intros i j I J. destruct (Q i j I J) as [H1 H2]. split; [rewrite <- H1 | rewrite <- H2];
        apply total_ext; intros k Hk; unfold sub_matrix; rewrite ?(N i I), ?(N k Hk), ?(N j J); reflexivity. }
    split; [|split].
    - apply (inverse_sym _ (fun a b => the_cov f (index a) (index b))); [|exact IU]. intros a b A Hb. apply (proj1 Co); apply IR; assumption.
    - exact (sub_le (ncov f) (r_nused r) (the_cov f) K (r_invcov r) index x IR Co HK IU).
    - exact (sub_attained (ncov f) (r_nused r) (the_cov f) K (r_invcov r) index x IR HK IU).
  Qed.

  (** of a binary file the upper triangle is used, so that the matrix is symmetric; a symmetric matrix is not changed *)
  Theorem C142_covariance : forall n,
    (f_binary f = true -> symmetric n (the_cov f) /\ forall i j, (i <= j)%nat -> the_cov f i j = f_cov f i j) /\
    (symmetric n (f_cov f) -> forall i j, (1 <= i <= n)%nat -> (1 <= j <= n)%nat -> the_cov f i j = f_cov f i j).
  Proof.
    intros n. unfold the_cov. split.
    - intros ->. cbn [andb]. split.
      + intros i j _ _. destruct (Nat.ltb_spec j i), (Nat.ltb_spec i j); try reflexivity; [lia|]. assert (i = j) by lia. subst. reflexivity.
      + intros i j L. destruct (Nat.ltb_spec j i); [lia | reflexivity].
    - intros Sy i j I J. destruct (_ && _)%bool; [apply Sy; assumption | reflexivity].
  Qed.

  (** FINDING: if no bin has its centre in the range, bins before the first are read *)
  Theorem C142_empty_refuted : forall lo hi, range = Some (lo, hi) ->
    (forall b, (1 <= b <= maxbin p)%nat -> ~ IZR lo <= (INR (blmin p f b) + INR (blmax p f b)) / 2 <= IZR hi) -> Plik_ReadIni p inv f use_cl range = Undef.
  Proof.
    intros lo hi -> H. unfold Plik_ReadIni, use_bins. destruct (Nat.leb _ _); [|reflexivity].
    destruct (filter (in_range p f lo hi) (seq 1 (maxbin p))) as [|b l] eqn:Q; [reflexivity|]. exfalso.
    assert (I : In b (filter (in_range p f lo hi) (seq 1 (maxbin p)))) by (rewrite Q; left; reflexivity).
    apply filter_In in I. destruct I as [I J]. apply in_seq in I. apply (H b); [lia|]. apply range_spec. exact J.
  Qed.
  (** FINDING: if a spectrum is used and has no bin in the range, though another has, the highest multipole that is asked for is not 0 but the most
      negative number *)
  Theorem C142_lmax_refuted : forall r, Plik_ReadIni p inv f use_cl range = Ok r -> forall i name a b, spectrum i name a b ->
    In name use_cl -> r_bins r i = [] -> r_lmax r a b = (-2147483648)%Z.
  Proof.
    intros r E i name a b S X N. destruct (read_inv r E) as [u [U [R _]]]. rewrite R in N |- *. cbn [r_bins r_lmax] in *.
    assert (I : (1 <= i <= 3)%nat) by (destruct S as [S | [S | S]]; assert (i = fst (fst (fst (i, name, a, b)))) by reflexivity; rewrite S in *; cbn in *; lia).
    assert (Q : is_used use_cl i = true) by (apply (used_spec i I); exists name, a, b; split; assumption).
    unfold cl_lmax. destruct S as [S | [S | S]]; (assert (i = fst (fst (fst (i, name, a, b)))) as Hi by reflexivity; assert (a = snd (fst (i, name, a, b))) as Ha by reflexivity;
      assert (b = snd (i, name, a, b)) as Hb by reflexivity; rewrite S in Hi, Ha, Hb; cbn in Hi, Ha, Hb; subst i a b; cbn [filter pair_of fst snd Nat.eqb andb];
      rewrite !andb_false_r, ?andb_true_r; cbn [filter]; rewrite Q, N; reflexivity).
  Qed.
End P.
Print Assumptions C142_selected.
Print Assumptions C142_data.
Print Assumptions C142_lmax.
Print Assumptions C142_loglike.
Print Assumptions C142_marginal.
Print Assumptions C142_covariance.
Print Assumptions C142_empty_refuted.
Print Assumptions C142_lmax_refuted.

(** the bins of the release: 215 of TT, 199 of TE and of EE, 613 together, from multipole 30 *)
Theorem C142_release : forall inv f use_cl r, Plik_ReadIni plik_type inv f use_cl None = Ok r ->
  (forall n, In n ["TT"; "TE"; "EE"]%string -> In n use_cl) ->
  r_nused r = 613%nat /\ forall b, blmin plik_type f b = (30 + f_min f b)%nat.
Proof.
  intros inv f use_cl r E A. split; [|intros; unfold blmin; cbn [plmin plik_type]; lia].
  destruct (C142_selected _ _ _ _ _ r E) as [_ [_ ->]]. destruct (read_inv _ _ _ _ _ r E) as [u [U [-> _]]]. cbn [r_bins].
  cbn [use_bins] in U. assert (u = None) by congruence. subst u.
  assert (Q : forall i, (1 <= i <= 3)%nat -> is_used use_cl i = true).
  { intros i I. unfold is_used. apply existsb_exists. exists (cl_name i). split; [apply A; assert (i = 1 \/ i = 2 \/ i = 3)%nat as [-> | [-> | ->]] by lia; cbn; tauto | apply String.eqb_refl]. }
  unfold bins_of. rewrite !Q by lia. rewrite !seq_length. reflexivity.
Qed.
Print Assumptions C142_release.

(** two bins of TT, one of TE and EE; the second bin of TT is out of range *)
Definition ex_p : plik := mkPlik 2 (fun i => match i with 1%nat => 2 | _ => 1 end)%nat.
Definition ex_f : pfiles := mkFiles 2 (fun b => 2 * (b - 1))%nat (fun b => 2 * b - 1)%nat 4 (fun _ => 1) 4 (fun k => INR k) 4 (fun i j => if Nat.eqb i j then 1 else 0) true.
Definition ex_inv (n : nat) (A : nat -> nat -> R) : nat -> nat -> R := A.
Example C142_ex : exists r, Plik_ReadIni ex_p ex_inv ex_f ["EE"; "TT"]%string (Some (1, 3)%Z) = Ok r /\
  r_bins r 1%nat = [1%nat] /\ r_bins r 2%nat = [] /\ r_bins r 3%nat = [1%nat] /\ r_data r = [INR 1; INR 4] /\ r_lmax r 1 1 = 3%Z /\ r_lmax r 2 1 = 0%Z /\
  Plik_LogLike ex_p ex_f r (fun _ _ l => INR l * (INR l + 1) / (2 * PI)) 1 = Ok (5 / 2).
Proof.
  eexists. split; [reflexivity|]. split; [reflexivity|]. split; [reflexivity|]. split; [reflexivity|]. split; [reflexivity|].
  split; [reflexivity|]. split; [reflexivity|]. unfold Plik_LogLike.
  assert (B : forall i, bin_power ex_p ex_f (fun _ _ l => INR l * (INR l + 1) / (2 * PI)) i 1 = Ok 2).
  { intros i. unfold bin_power. change (blmin ex_p ex_f 1) with 2%nat. change (blmax ex_p ex_f 1 + 1 - 2)%nat with 2%nat. cbn [seq all_of].
    unfold weight. cbn [plmin nweights ex_p ex_f Nat.leb Nat.ltb Nat.add andb bind f_weights combine map fst snd].
    rewrite !sum_list_cons. f_equal. unfold sum_list. cbn [fold_left]. pose proof PI_neq0.
    replace (INR 2) with 2 by (cbn; ring). replace (INR 3) with 3 by (cbn; ring). field. exact H. }
  match goal with |- bind (all_of ?g ?l) _ = _ => change l with [(1, 1); (3, 1)]%nat end.
  cbn [all_of fst snd]. rewrite !B. cbn [bind]. f_equal.
  match goal with |- QuadForm ?n _ _ / 2 = _ => change n with 2%nat end.
  unfold QuadForm, MulVecSymm, sum1. cbn [seq fold_left Nat.sub Nat.min Nat.max nth r_invcov r_data ex_inv].
  match goal with |- context [nth 0 ?l 0] => change l with [INR 1; INR 4] end. 
  unfold sub_matrix, the_cov. cbn. lra.
Qed.

(** ** Template for WMAP *)
(** the template is the scale times the last value of the file for the multipole, or 0 *)
Theorem C142_template : forall lmax rows scale l,
  (forall before after v, rows = before ++ (l, v) :: after -> (forall q, In q after -> fst q <> l) -> (2 <= l <= lmax)%nat ->
     ReadSZTemplate lmax rows scale l = scale * v) /\
  (((l < 2)%nat \/ (lmax < l)%nat \/ (forall q, In q rows -> fst q <> l)) -> ReadSZTemplate lmax rows scale l = 0).
Proof.
  intros lmax rows scale l. unfold ReadSZTemplate.
  set (step := fun (t : nat -> R) (r : nat * R) => if (Nat.leb 2 (fst r) && Nat.leb (fst r) lmax)%bool then (fun l => if Nat.eqb l (fst r) then scale * snd r else t l) else t).
  assert (K : forall rs t, (l < 2 \/ lmax < l \/ (forall q, In q rs -> fst q <> l))%nat -> fold_left step rs t l = t l).
  { induction rs as [|q rs IH]; intros t H; cbn [fold_left]; [reflexivity|]. rewrite IH.
    - unfold step. destruct (Nat.leb_spec 2 (fst q)), (Nat.leb_spec (fst q) lmax); cbn [andb]; try reflexivity.
      destruct (Nat.eqb_spec l (fst q)) as [E|N]; [|reflexivity]. exfalso. destruct H as [H|[H|H]]; [lia | lia |]. apply (H q); [left; reflexivity | lia].
    - destruct H as [H|[H|H]]; [left; exact H | right; left; exact H | right; right]. intros x X. apply H. right. exact X. }
  split.
  - intros before after v -> A L. rewrite fold_left_app. cbn [fold_left]. rewrite K by (right; right; exact A).
    unfold step at 1. cbn [fst snd]. destruct (Nat.leb_spec 2 l); [|lia]. destruct (Nat.leb_spec l lmax); [|lia]. cbn [andb]. rewrite Nat.eqb_refl. reflexivity.
  - intros H. apply K. exact H.
Qed.
Print Assumptions C142_template.
Example C142_template_ex : ReadSZTemplate 10 [(1%nat, 5); (2%nat, 3); (2%nat, 4)] 2 2 = 8 /\ ReadSZTemplate 10 [(1%nat, 5); (2%nat, 3)] 2 1 = 0.
Proof. unfold ReadSZTemplate. cbn. split; lra. Qed.
(** the template with its amplitude is added to the spectrum that the WMAP likelihood gets *)
Theorem C142_wmap : forall wmap scale lmax rows CLTT a dp x,
  WMAP_LogLike wmap (SZ_ReadParams true scale lmax rows) CLTT (a :: dp) = Ok x ->
  exists terms, wmap (fun l => CLTT l + a * ReadSZTemplate lmax rows (match scale with Some s => s | None => 1 end) l) = (terms, true) /\ x = fold_right Rplus 0 terms.
Proof.
  intros wmap scale lmax rows CLTT a dp x E. unfold SZ_ReadParams, WMAP_LogLike in E. cbv zeta in E.
  destruct (wmap _) as [t ok]. cbn [fst snd] in E. exists t. destruct ok; [|discriminate]. split; [reflexivity|].
  assert (X : x = sum_list t) by congruence. rewrite X. clear. induction t as [|y t IH]; [reflexivity|]. rewrite sum_list_cons, IH. reflexivity.
Qed.
Print Assumptions C142_wmap.
Example C142_wmap_ex : WMAP_LogLike (fun s => ([s 2%nat; 1], true)) (SZ_ReadParams true None 10 [(2%nat, 3)]) (fun _ => 1) [2] = Ok 8.
Proof. unfold WMAP_LogLike, SZ_ReadParams, ReadSZTemplate. cbn. f_equal. unfold sum_list. cbn. lra. Qed.
(** FINDING: WMAP without a template, and a failure of its likelihood, have no defined result *)
Theorem C142_wmap_refuted : forall wmap scale lmax rows CLTT a dp,
  WMAP_LogLike wmap (SZ_ReadParams false scale lmax rows) CLTT dp = Undef /\
  ((forall s, snd (wmap s) = false) -> WMAP_LogLike wmap (SZ_ReadParams true scale lmax rows) CLTT (a :: dp) = Undef).
Proof.
  intros. split; [reflexivity|]. intros H. unfold WMAP_LogLike, SZ_ReadParams. cbv zeta. rewrite H. reflexivity.
Qed.
Print Assumptions C142_wmap_refuted.
(** the findings happen: no bin centre below multipole 0; TE without bins in a range that TT has *)
Example C142_empty_ex : Plik_ReadIni ex_p ex_inv ex_f ["TT"]%string (Some (-5, -1)%Z) = Undef.
Proof. reflexivity. Qed.
Example C142_lmax_ex : exists r, Plik_ReadIni ex_p ex_inv ex_f ["TT"; "TE"]%string (Some (4, 9)%Z) = Ok r /\ r_bins r 1%nat = [2%nat] /\ r_bins r 2%nat = [] /\
  r_lmax r 2 1 = (-2147483648)%Z.
Proof. eexists. split; [reflexivity|]. split; [reflexivity|]. split; reflexivity. Qed.
(** the hypotheses of C142_marginal can be met *)
Example C142_marginal_ex : covariance 4 (the_cov ex_f) /\ inverse_of 4 (the_cov ex_f) (the_cov ex_f).
Proof.
  assert (Q : forall i j, the_cov ex_f i j = if Nat.eqb i j then 1 else 0).
  { intros i j. unfold the_cov, ex_f. cbn [f_binary f_cov andb]. destruct (Nat.ltb_spec j i); [|reflexivity]. destruct (Nat.eqb_spec j i), (Nat.eqb_spec i j); try reflexivity; lia. }
  split; [split|].
  - intros i j _ _. rewrite !Q. destruct (Nat.eqb_spec i j), (Nat.eqb_spec j i); try reflexivity; lia.
  - intros v. unfold form. cbn [total]. rewrite !Q. cbn [Nat.eqb]. nra.
  - intros i j I J. split; (transitivity (total (fun k => the_cov ex_f k j * (if Nat.eqb i k then 1 else 0)) 4);
      [apply total_ext; intros k K; rewrite !Q; ring | rewrite total_kron by exact I; apply Q]).
Qed.
