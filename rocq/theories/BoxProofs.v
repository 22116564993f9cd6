(** Proofs about the boxes. *)
From Coq Require Import List Arith ZArith Bool Lia Reals Lra.
From Flocq Require Import Core BinarySingleNaN.
From Verif Require Import Base Fl FlFacts Rng RandProofs GlobalProofs Box.
Import ListNotations.
Open Scope Z_scope.

(** * Lists *)
Lemma set_at_length {A} (v : list A) i x : length (set_at v i x) = length v.
Proof. revert i. induction v as [|y v IH]; intros [|i]; cbn; congruence. Qed.
Lemma set_at_same {A} (v : list A) i x : (i < length v)%nat -> nth_error (set_at v i x) i = Some x.
Proof. revert i. induction v as [|y v IH]; intros [|i] H; cbn in *; try lia; auto. apply IH. lia. Qed.
Lemma set_at_other {A} (v : list A) i j x : j <> i -> nth_error (set_at v i x) j = nth_error v j.
Proof.
  revert i j. induction v as [|y v IH]; intros [|i] [|j] H; cbn in *; try congruence; auto.
Qed.
Lemma get_at_in {A} (v : list A) i : 0 <= i < Z.of_nat (length v) ->
  exists x, get_at v i = Ok x /\ nth_error v (Z.to_nat i) = Some x.
Proof.
  intros H. unfold get_at. destruct (Z.ltb_spec i 0); [lia|].
  destruct (nth_error v (Z.to_nat i)) as [x|] eqn:E; [eauto|]. apply nth_error_None in E. lia.
Qed.

(** * Clamping *)
Definition proj (lo hi x y : double) : Prop :=
  fle lo y = true /\ fle y hi = true /\
  (fle lo x = true -> fle x hi = true -> y = x) /\ (flt x lo = true -> y = lo) /\ (flt hi x = true -> y = hi).
Lemma clampD_proj lo hi x : fle lo hi = true -> nonnan x -> proj lo hi x (clampD lo hi x).
Proof.
  intros H Nx. destruct (fle_true _ _ _ _ H) as (Nlo & Nhi & Hv). unfold clampD, dmin, dmax.
  destruct (flt hi x) eqn:E1.
  - assert (flt hi lo = false) as -> by (apply fle_lt_false; exact H).
    split; [exact H|]. split; [apply fle_refl; exact Nhi|].
    split; [intros _ C; pose proof (fle_lt_false _ _ _ _ C); congruence|].
    split; [intros C|reflexivity].
    apply flt_le in C. apply flt_true in E1. apply fle_true in C. lra.
  - assert (L : fle x hi = true) by (apply flt_false_le; assumption).
    destruct (flt x lo) eqn:E2.
    + split; [apply fle_refl; exact Nlo|]. split; [exact H|].
      split; [intros C; pose proof (fle_lt_false _ _ _ _ C); congruence|]. split; [reflexivity|congruence].
    + split; [apply flt_false_le; assumption|]. split; [exact L|]. split; [reflexivity|]. split; congruence.
Qed.
Lemma clampD_nan lo hi x : is_nan x = true -> clampD lo hi x = x.
Proof. intros N. unfold clampD, dmin, dmax. rewrite (flt_nan_r _ _ hi x N), (flt_nan_l _ _ x lo N). reflexivity. Qed.

Section D.
Variable b : dbox.
Lemma constrainD_nth v : forall k i x, nth_error v i = Some x ->
  nth_error (constrainD b v k) i = Some (clampD (minD b (k + i)) (maxD b (k + i)) x).
Proof.
  induction v as [|y v IH]; intros k [|i] x H; cbn in *; try discriminate.
  - inversion H; subst. rewrite Nat.add_0_r. reflexivity.
  - rewrite (IH (S k) i x H). rewrite Nat.add_succ_r. reflexivity.
Qed.
Lemma constrainD_length v : forall k, length (constrainD b v k) = length v.
Proof. induction v; intros; cbn; auto. Qed.

Lemma initD_spec R n : forall k g, rng_ok R ->
  (forall i, (k <= i < k + n)%nat -> fin (minD b i) /\ fin (maxD b i) /\ fle (minD b i) (maxD b i) = true /\ fin (fsub (maxD b i) (minD b i))) ->
  length (fst (initD R b n k g)) = n /\
  forall i x, nth_error (fst (initD R b n k g)) i = Some x ->
    fin x /\ fle (minD b (k + i)) x = true /\ fle x (maxD b (k + i)) = true.
Proof.
  induction n as [|n IH]; intros k g HR H; cbn.
  - split; [reflexivity|]. intros [|i] x E; discriminate.
  - destruct (randD_range R (minD b k) (maxD b k) g) as [x g1] eqn:E1.
    assert (Hx : fin x /\ fle (minD b k) x = true /\ fle x (maxD b k) = true).
    { destruct (H k ltac:(lia)) as (F1 & F2 & L & F3).
      pose proof (randD_range_ok R (minD b k) (maxD b k) g HR F1 F2 L F3) as Q. rewrite E1 in Q. exact Q. }
    destruct (initD R b n (S k) g1) as [t g2] eqn:E2. cbn.
    destruct (IH (S k) g1 HR) as (L & Q); [intros i Hi; apply H; lia|]. rewrite E2 in L, Q. cbn in L, Q.
    split; [congruence|]. intros [|i] y E; cbn in E.
    + inversion E; subst. rewrite Nat.add_0_r. exact Hx.
    + rewrite Nat.add_succ_r. apply (Q i y E).
Qed.

Lemma moveD_spec v idx s : 0 <= idx < Z.of_nat (length v) ->
  exists x, nth_error v (Z.to_nat idx) = Some x /\
    moveD b v idx s = Ok (set_at v (Z.to_nat idx) (clampD (minD b (Z.to_nat idx)) (maxD b (Z.to_nat idx)) (fadd x s))).
Proof.
  intros H. destruct (get_at_in v idx H) as (x & E & E'). exists x. split; [exact E'|].
  unfold moveD. rewrite E. reflexivity.
Qed.
End D.

Lemma fadd_fin_nonnan (x s : double) : nonnan x -> fin s -> nonnan (fadd x s).
Proof.
  intros Nx Fs. unfold nonnan, fin, fadd in *. destruct x as [sx|sx| |sx mx ex Hx]; try discriminate;
  destruct s as [ss|ss| |ss ms es Hs]; try discriminate; try (destruct sx, ss; reflexivity); try reflexivity.
  unfold Bplus.
  match goal with |- is_nan (binary_normalize _ _ _ _ _ ?a ?e ?z) = false =>
    exact (is_nan_binary_normalize 53 1024 _ _ mode_NE a e z) end.
Qed.
Lemma m1_val : fin (d_of_Z (-1)) /\ B2R (d_of_Z (-1)) = (-1)%R.
Proof. destruct (d_of_Z_exact (-1)) as (A & B); [easy|]. split; [exact A|rewrite B; reflexivity]. Qed.

Lemma unit_sym_draw R g : rng_ok R ->
  let r := fst (randD_range R (d_of_Z (-1)) d1 g) in fin r /\ (-1 <= B2R r <= 1)%R.
Proof.
  intros HR r. destruct m1_val as (Fm & Vm).
  assert (L : fle (d_of_Z (-1)) d1 = true) by (vm_compute; reflexivity).
  assert (F2 : fin (fsub d1 (d_of_Z (-1)))) by (vm_compute; reflexivity).
  destruct (randD_range_ok R (d_of_Z (-1)) d1 g HR Fm d1_fin L F2) as (Fr & A & B).
  split; [exact Fr|]. apply fle_true in A. apply fle_true in B. destruct A as (_&_&A). destruct B as (_&_&B).
  fold r in Fr, A, B.
  rewrite (fval_fin _ _ _ Fm), (fval_fin _ _ _ Fr) in A. rewrite (fval_fin _ _ _ Fr), (fval_fin _ _ _ d1_fin) in B.
  rewrite Vm in A. rewrite d1_val in B. lra.
Qed.

(** r * delta for r in [-1,1] is finite and between -delta and delta. *)
Lemma scaled_step (r d : double) : fin r -> (-1 <= B2R r <= 1)%R -> fin d -> fle d0 d = true ->
  fin (fmul r d) /\ fle (fopp d) (fmul r d) = true /\ fle (fmul r d) d = true.
Proof.
  intros Fr Hr Fd Pd. apply fle_true in Pd. destruct Pd as (_ & _ & Pd).
  rewrite (fval_fin _ _ _ Fd) in Pd. change (fval d0) with 0%R in Pd.
  assert (B : (Rabs (B2R r * B2R d) <= B2R d)%R).
  { rewrite Rabs_mult, (Rabs_pos_eq (B2R d)) by lra. assert (Rabs (B2R r) <= 1)%R by (apply Rabs_le; lra). nra. }
  assert (C : (Rabs (drnd (B2R r * B2R d)) <= B2R d)%R).
  { apply rnd_abs_gen; try exact _. - apply generic_format_B2R. - exact B. }
  destruct (fmul_fin _ _ _ _ r d Fr Fd) as (F & V).
  { eapply Rle_lt_trans; [exact C|]. pose proof (dval_lt_emax d) as Q. rewrite Rabs_pos_eq in Q by lra. exact Q. }
  apply Rabs_le_inv in C. split; [exact F|].
  assert (Fo : fin (fopp d)) by (apply fopp_fin; exact Fd).
  split; apply fle_iff; try (apply fin_nonnan; assumption).
  - rewrite (fval_fin _ _ _ Fo), (fval_fin _ _ _ F), V, fopp_B2R. lra.
  - rewrite (fval_fin _ _ _ Fd), (fval_fin _ _ _ F), V. lra.
Qed.

(** * Integers *)
Lemma conv_id t z : in_ity t z = true -> 0 < ibits t -> conv t z = z.
Proof.
  unfold in_ity, conv, imin, imax. intros H Hb. apply andb_prop in H. destruct H as (H1 & H2).
  apply Z.leb_le in H1. apply Z.leb_le in H2.
  assert (P : 2 ^ ibits t = 2 * 2 ^ (ibits t - 1)) by (rewrite <- Z.pow_succ_r by lia; f_equal; lia).
  destruct (isgn t); rewrite Z.mod_small; lia.
Qed.
Lemma conv_range t z : 0 < ibits t -> in_ity t (conv t z) = true.
Proof.
  intros Hb. unfold in_ity, conv, imin, imax.
  assert (P : 2 ^ ibits t = 2 * 2 ^ (ibits t - 1)) by (rewrite <- Z.pow_succ_r by lia; f_equal; lia).
  pose proof (Z.mod_pos_bound (z - (if isgn t then - 2 ^ (ibits t - 1) else 0)) (2 ^ ibits t) ltac:(apply Z.pow_pos_nonneg; lia)).
  apply andb_true_intro. destruct (isgn t); split; apply Z.leb_le; lia.
Qed.
Lemma promoted_wider t z : 0 < ibits t -> in_ity t z = true -> in_ity (promoted t) z = true.
Proof.
  intros Hb H. unfold promoted. destruct (Z.ltb_spec (ibits t) 32); [|exact H].
  unfold in_ity, imin, imax in *. apply andb_prop in H. destruct H as (H1 & H2).
  apply Z.leb_le in H1. apply Z.leb_le in H2. cbn [isgn ibits int32].
  assert (2 ^ ibits t <= 2 ^ 31) by (apply Z.pow_le_mono_r; lia).
  assert (2 ^ (ibits t - 1) <= 2 ^ 31) by (apply Z.pow_le_mono_r; lia).
  change (2 ^ (32 - 1)) with (2 ^ 31). apply andb_true_intro.
  destruct (isgn t); split; apply Z.leb_le; lia.
Qed.
Lemma promoted_bits t : 0 < ibits t -> 0 < ibits (promoted t).
Proof. unfold promoted. destruct (ibits t <? 32); cbn; lia. Qed.
Lemma arith_in t z : 0 < ibits t -> in_ity t z = true -> arith t z = Ok z.
Proof. intros Hb H. unfold arith. destruct (isgn t); [rewrite H; reflexivity|rewrite conv_id by assumption; reflexivity]. Qed.

Lemma in_ity_iff t z : in_ity t z = true <-> imin t <= z <= imax t.
Proof. unfold in_ity. rewrite andb_true_iff, !Z.leb_le. reflexivity. Qed.
Lemma imin_le0 t : 0 < ibits t -> imin t <= 0.
Proof. intros. unfold imin. destruct (isgn t); [|lia]. pose proof (Z.pow_nonneg 2 (ibits t - 1)). lia. Qed.

Lemma randIdxT_ok R t lo hi1 g : rng_ok R -> 0 < ibits t <= 64 -> in_ity t lo = true -> in_ity t hi1 = true ->
  1 <= hi1 - lo <= imax t ->
  exists r, randIdxT R t lo hi1 g = Ok r /\ lo <= fst r < hi1 /\ r = randIdx2 R lo hi1 g.
Proof.
  intros HR Hb Hlo Hhi Hn. unfold randIdxT.
  assert (E1 : in_ity t (hi1 - lo) = true) by (apply in_ity_iff; pose proof (imin_le0 t ltac:(lia)); lia).
  rewrite arith_in by (try apply promoted_bits; try apply promoted_wider; try lia; exact E1). cbn [bind].
  assert (U : imax t <= 18446744073709551616).
  { unfold imax. assert (2 ^ ibits t <= 2 ^ 64) by (apply Z.pow_le_mono_r; lia).
    assert (2 ^ (ibits t - 1) <= 2 ^ 64) by (apply Z.pow_le_mono_r; lia). change (2 ^ 64) with 18446744073709551616 in *.
    destruct (isgn t); lia. }
  pose proof (randIdx2_range R lo hi1 g HR ltac:(lia)) as Q. unfold randIdx2 in *.
  destruct (randf01 R g) as [f g'] eqn:Ef. cbn [fst] in *.
  set (k := Btrunc (fmul (f_of_Z (hi1 - lo)) f)) in *.
  assert (in_ity t k = true) as -> by (apply in_ity_iff; pose proof (imin_le0 t ltac:(lia)); lia).
  assert (E2 : in_ity t (k + lo) = true) by (apply in_ity_iff; apply in_ity_iff in Hlo, Hhi; lia).
  rewrite arith_in by (try apply promoted_bits; try apply promoted_wider; try lia; exact E2). cbn [bind].
  rewrite conv_id by (try exact E2; lia). eexists. split; [reflexivity|]. cbn. split; [exact Q|reflexivity].
Qed.

Lemma initI_spec R t b n : forall k g, rng_ok R -> 0 < ibits t <= 64 ->
  (forall i, (k <= i < k + n)%nat -> imin t <= minI b i <= maxI b i /\ maxI b i < imax t /\ maxI b i - minI b i < imax t) ->
  exists v g', initI R t b n k g = Ok (v, g') /\ length v = n /\
    forall i x, nth_error v i = Some x -> minI b (k + i) <= x <= maxI b (k + i).
Proof.
  induction n as [|n IH]; intros k g HR Hb H; cbn [initI].
  - exists [], g. split; [reflexivity|]. split; [reflexivity|]. intros [|i] x E; discriminate.
  - destruct (H k ltac:(lia)) as (H1 & H2 & H3).
    assert (I1 : in_ity t (1 + maxI b k) = true) by (apply in_ity_iff; lia).
    rewrite arith_in by (try apply promoted_bits; try apply promoted_wider; try lia; exact I1). cbn [bind].
    rewrite conv_id by (try exact I1; lia).
    destruct (randIdxT_ok R t (minI b k) (1 + maxI b k) g HR Hb) as ([x g1] & E & Q & _); try lia.
    { apply in_ity_iff; lia. } { exact I1. }
    rewrite E. cbn [bind]. cbn [fst] in Q.
    destruct (IH (S k) g1 HR Hb) as (v & g2 & E2 & L & Q2); [intros; apply H; lia|].
    rewrite E2. cbn [bind]. exists (x :: v), g2. split; [reflexivity|]. split; [cbn; congruence|].
    intros [|i] y Ey; cbn in Ey.
    + inversion Ey; subst. rewrite Nat.add_0_r. lia.
    + rewrite Nat.add_succ_r. apply (Q2 i y Ey).
Qed.

Lemma constrainI_nth b v : forall k i x, nth_error v i = Some x ->
  nth_error (constrainI b v k) i = Some (clampI (minI b (k + i)) (maxI b (k + i)) x).
Proof.
  induction v as [|y v IH]; intros k [|i] x H; cbn in *; try discriminate.
  - inversion H; subst. rewrite Nat.add_0_r. reflexivity.
  - rewrite (IH (S k) i x H). rewrite Nat.add_succ_r. reflexivity.
Qed.
Lemma constrainI_length b v : forall k, length (constrainI b v k) = length v.
Proof. induction v; intros; cbn; auto. Qed.

Lemma initB_length R n : forall g, length (fst (initB R n g)) = n.
Proof.
  induction n as [|n IH]; intros g; cbn; [reflexivity|].
  destruct (randIdx R 2 g) as [k g1]. specialize (IH g1). destruct (initB R n g1). cbn in *. congruence.
Qed.
