(** Proofs about the boxes of floats. *)
From Coq Require Import List Arith ZArith Bool Lia Reals Lra.
From Flocq Require Import Core BinarySingleNaN.
From Verif Require Import Base Fl FlFacts Rng RandProofs GlobalProofs Box BoxProofs BoxF.
Import ListNotations.
Open Scope Z_scope.

Notation frnd := (round radix2 (SpecFloat.fexp 24 128) ZnearestE).

(** * Conversions *)
Lemma to_double_fin (x : float) : fin x -> fin (to_double x) /\ B2R (to_double x) = B2R x.
Proof.
  intros Fx. destruct x as [s|s| |s m e Hb]; try discriminate Fx; [split; reflexivity|].
  set (x := B754_finite s m e Hb : float). assert (Gx : generic_format radix2 (SpecFloat.fexp 53 1024) (B2R x)).
  { pose proof (generic_format_B2R 24 128 x) as Q. change (SpecFloat.fexp 24 128) with (FLT_exp (-149) 24) in Q.
    apply FLT_format_generic in Q; [|exact _]. destruct Q as [f E Hm He]. rewrite E. unfold F2R. apply gen_IZR_bpow; try exact _; [|].
    - change (2 ^ 53) with 9007199254740992. change (Zpower radix2 24) with 16777216 in Hm. lia.
    - change (SpecFloat.emin 53 1024) with (-1074). lia. }
  pose proof (binary_normalize_correct 53 1024 _ _ mode_NE (cond_Zopp s (Zpos m)) e s) as C. cbv zeta in C.
  change (F2R {| Fnum := cond_Zopp s (Z.pos m); Fexp := e |}) with (B2R x) in C.
  rewrite (round_generic _ _ _ _ Gx) in C. rewrite Rlt_bool_true in C.
  - destruct C as (C1 & C2 & _). split; [exact C2|exact C1].
  - eapply Rlt_le_trans; [apply (fin_lt_emax 24 128)|]. apply bpow_le. lia.
Qed.
Lemma to_float_fin (x : double) : fin x -> (Rabs (frnd (B2R x)) < bpow radix2 128)%R ->
  fin (to_float x) /\ B2R (to_float x) = frnd (B2R x).
Proof.
  intros Fx L. destruct x as [s|s| |s m e Hb]; try discriminate Fx.
  - split; [reflexivity|]. cbn [to_float B2R]. symmetry. apply (rnd_0 24 128).
  - set (x := B754_finite s m e Hb : double) in *.
    pose proof (binary_normalize_correct 24 128 _ _ mode_NE (cond_Zopp s (Zpos m)) e s) as C. cbv zeta in C.
    change (F2R {| Fnum := cond_Zopp s (Z.pos m); Fexp := e |}) with (B2R x) in C.
    rewrite Rlt_bool_true in C by exact L. destruct C as (C1 & C2 & _). split; [exact C2|exact C1].
Qed.
Lemma to_float_nonnan (x : double) : nonnan x -> nonnan (to_float x).
Proof.
  intros N. destruct x as [s|s| |s m e Hb]; try reflexivity; [discriminate N|]. unfold nonnan. cbn [to_float].
  apply (is_nan_binary_normalize 24 128 _ _ mode_NE).
Qed.
Lemma to_double_nonnan (x : float) : nonnan x -> nonnan (to_double x).
Proof.
  intros N. destruct x as [s|s| |s m e Hb]; try reflexivity; [discriminate N|]. unfold nonnan. cbn [to_double].
  apply (is_nan_binary_normalize 53 1024 _ _ mode_NE).
Qed.
(** A double between two floats is converted to a float between them. *)
Lemma to_float_between (lo hi : float) (x : double) : fin lo -> fin hi -> fin x ->
  (B2R lo <= B2R x <= B2R hi)%R -> fin (to_float x) /\ (B2R lo <= B2R (to_float x) <= B2R hi)%R.
Proof.
  intros Fl Fh Fx (L1 & L2).
  pose proof (@rnd_bound_fl' 24 128 _ _ lo L1) as A. pose proof (@rnd_bound_fl 24 128 _ _ hi L2) as B.
  destruct (to_float_fin x Fx) as (F & V).
  - pose proof (fin_lt_emax 24 128 lo) as E1. pose proof (fin_lt_emax 24 128 hi) as E2.
    apply Rabs_lt_inv in E1. apply Rabs_lt_inv in E2. apply Rabs_lt. revert E1 E2 A B. generalize (bpow radix2 128). intros q (? & ?) (? & ?) A B. split; lra.
  - split; [exact F|]. rewrite V. split; [exact A|exact B].
Qed.
Lemma fle_Rf (x y : float) : fin x -> fin y -> (fle x y = true <-> (B2R x <= B2R y)%R).
Proof.
  intros Fx Fy. rewrite fle_iff by (apply fin_nonnan; assumption). rewrite (@fval_fin 24 128 x Fx), (@fval_fin 24 128 y Fy). tauto.
Qed.
Lemma fle_Rd (x y : double) : fin x -> fin y -> (fle x y = true <-> (B2R x <= B2R y)%R).
Proof.
  intros Fx Fy. rewrite fle_iff by (apply fin_nonnan; assumption). rewrite (@fval_fin 53 1024 x Fx), (@fval_fin 53 1024 y Fy). tauto.
Qed.

(** * Drawing *)
Lemma float_range_fin (lo hi : float) : fin lo -> fin hi -> fin (fsub (to_double hi) (to_double lo)).
Proof.
  intros Fl Fh. destruct (to_double_fin lo Fl) as (F1 & V1). destruct (to_double_fin hi Fh) as (F2 & V2).
  apply (fsub_fin 53 1024 _ _ _ _ F2 F1). rewrite V1, V2.
  pose proof (fin_lt_emax 24 128 lo) as E1. pose proof (fin_lt_emax 24 128 hi) as E2.
  apply Rle_lt_trans with (bpow radix2 129); [|apply bpow_lt; lia].
  apply rnd_abs_gen; try exact _; [apply gen_bpow; try exact _; vm_compute; discriminate|].
  change 129 with (1 + 128). rewrite bpow_plus. change (bpow radix2 1) with 2%R.
  apply Rabs_lt_inv in E1. apply Rabs_lt_inv in E2. apply Rabs_le. revert E1 E2. generalize (bpow radix2 128). intros; lra.
Qed.
Lemma drawF_ok R (lo hi : float) g : rng_ok R -> fin lo -> fin hi -> fle lo hi = true ->
  fin (fst (drawF R lo hi g)) /\ fle lo (fst (drawF R lo hi g)) = true /\ fle (fst (drawF R lo hi g)) hi = true.
Proof.
  intros HR Fl Fh L. destruct (to_double_fin lo Fl) as (F1 & V1). destruct (to_double_fin hi Fh) as (F2 & V2).
  assert (L' : fle (to_double lo) (to_double hi) = true) by (apply fle_Rd; [exact F1|exact F2|]; rewrite V1, V2; apply fle_Rf; assumption).
  pose proof (randD_range_ok R (to_double lo) (to_double hi) g HR F1 F2 L' (float_range_fin lo hi Fl Fh)) as (Fx & A & B).
  unfold drawF. destruct (randD_range R (to_double lo) (to_double hi) g) as [x g']. cbn [fst] in *.
  apply fle_Rd in A; [|assumption..]. apply fle_Rd in B; [|assumption..]. rewrite V1 in A. rewrite V2 in B.
  destruct (to_float_between lo hi x Fl Fh Fx (conj A B)) as (F & C1 & C2). split; [exact F|]. split; apply fle_Rf; assumption.
Qed.
Lemma initF_spec R b n : forall k g, rng_ok R ->
  (forall i, (k <= i < k + n)%nat -> fin (minF b i) /\ fin (maxF b i) /\ fle (minF b i) (maxF b i) = true) ->
  length (fst (initF R b n k g)) = n /\
  forall i x, nth_error (fst (initF R b n k g)) i = Some x ->
    fin x /\ fle (minF b (k + i)) x = true /\ fle x (maxF b (k + i)) = true.
Proof.
  induction n as [|n IH]; intros k g HR H; cbn.
  - split; [reflexivity|]. intros [|i] x E; discriminate.
  - destruct (drawF R (minF b k) (maxF b k) g) as [x g1] eqn:E1.
    assert (Hx : fin x /\ fle (minF b k) x = true /\ fle x (maxF b k) = true).
    { destruct (H k ltac:(lia)) as (F1 & F2 & L). pose proof (drawF_ok R (minF b k) (maxF b k) g HR F1 F2 L) as Q. rewrite E1 in Q. exact Q. }
    destruct (initF R b n (S k) g1) as [t g2] eqn:E2. cbn.
    destruct (IH (S k) g1 HR) as (L & Q); [intros i Hi; apply H; lia|]. rewrite E2 in L, Q. cbn in L, Q.
    split; [congruence|]. intros [|i] y E; cbn in E.
    + inversion E; subst. rewrite Nat.add_0_r. exact Hx.
    + rewrite Nat.add_succ_r. apply (Q i y E).
Qed.

(** * Clamping *)
Definition projF (lo hi x y : float) : Prop :=
  fle lo y = true /\ fle y hi = true /\
  (fle lo x = true -> fle x hi = true -> y = x) /\ (flt x lo = true -> y = lo) /\ (flt hi x = true -> y = hi).
Lemma clampF_proj lo hi x : fle lo hi = true -> nonnan x -> projF lo hi x (clampF lo hi x).
Proof.
  intros H Nx. destruct (fle_true _ _ _ _ H) as (Nlo & Nhi & Hv). unfold clampF, fmin, fmax.
  destruct (flt hi x) eqn:E1.
  - assert (flt hi lo = false) as -> by (apply fle_lt_false; exact H).
    split; [exact H|]. split; [apply fle_refl; exact Nhi|].
    split; [intros _ C; pose proof (fle_lt_false _ _ _ _ C); congruence|].
    split; [intros C|reflexivity].
    apply flt_le in C. apply flt_true in E1. apply fle_true in C. lra.
  - assert (L : fle x hi = true) by (apply flt_false_le; assumption).
    destruct (flt x lo) eqn:E2.
    + split; [apply fle_refl; exact Nlo|]. split; [exact H|].
      split; [intros C; pose proof (fle_lt_false _ _ _ _ C); congruence|]. split; [reflexivity|congruence].
    + split; [apply flt_false_le; assumption|]. split; [exact L|]. split; [reflexivity|]. split; congruence.
Qed.
Lemma clampF_nan lo hi x : is_nan x = true -> clampF lo hi x = x.
Proof. intros N. unfold clampF, fmin, fmax. rewrite (flt_nan_r _ _ hi x N), (flt_nan_l _ _ x lo N). reflexivity. Qed.
Lemma constrainF_nth b v : forall k i x, nth_error v i = Some x ->
  nth_error (constrainF b v k) i = Some (clampF (minF b (k + i)) (maxF b (k + i)) x).
Proof.
  induction v as [|y v IH]; intros k [|i] x H; cbn in *; try discriminate.
  - inversion H; subst. rewrite Nat.add_0_r. reflexivity.
  - rewrite (IH (S k) i x H). rewrite Nat.add_succ_r. reflexivity.
Qed.
Lemma constrainF_length b v : forall k, length (constrainF b v k) = length v.
Proof. induction v; intros; cbn; auto. Qed.
Lemma moveF_spec b v idx s : 0 <= idx < Z.of_nat (length v) ->
  exists x, nth_error v (Z.to_nat idx) = Some x /\
    moveF b v idx s = Ok (set_at v (Z.to_nat idx) (clampF (minF b (Z.to_nat idx)) (maxF b (Z.to_nat idx)) (fadd x s))).
Proof.
  intros H. destruct (get_at_in v idx H) as (x & E & E'). exists x. split; [exact E'|].
  unfold moveF. rewrite E. reflexivity.
Qed.

(** * Steps *)
Lemma fadd_fin_nonnanF (x s : float) : nonnan x -> fin s -> nonnan (fadd x s).
Proof.
  intros Nx Fs. unfold nonnan, fin, fadd in *. destruct x as [sx|sx| |sx mx ex Hx]; try discriminate;
  destruct s as [ss|ss| |ss ms es Hs]; try discriminate; try (destruct sx, ss; reflexivity); try reflexivity.
  unfold Bplus.
  match goal with |- is_nan (binary_normalize _ _ _ _ _ ?a ?e ?z) = false =>
    exact (is_nan_binary_normalize 24 128 _ _ mode_NE a e z) end.
Qed.
Lemma f1_val : fin f1 /\ B2R f1 = 1%R.
Proof. destruct (@fofZ_exact 24 128 _ _ 1 0) as (A & B); [easy|easy|easy|]. split; [exact A|]. unfold f1, f_of_Z. rewrite B. cbn. lra. Qed.
Lemma fm1_val : fin (f_of_Z (-1)) /\ B2R (f_of_Z (-1)) = (-1)%R.
Proof. destruct (@fofZ_exact 24 128 _ _ (-1) 0) as (A & B); [easy|easy|easy|]. split; [exact A|]. unfold f_of_Z. rewrite B. cbn. lra. Qed.
Lemma unit_sym_drawF R g : rng_ok R ->
  let r := to_float (fst (randD_range R (d_of_Z (-1)) d1 g)) in fin r /\ (-1 <= B2R r <= 1)%R.
Proof.
  intros HR r. destruct (unit_sym_draw R g HR) as (Fr & B). destruct f1_val as (F1 & V1). destruct fm1_val as (F2 & V2).
  destruct (to_float_between (f_of_Z (-1)) f1 (fst (randD_range R (d_of_Z (-1)) d1 g)) F2 F1 Fr) as (F & C); [rewrite V1, V2; exact B|].
  split; [exact F|]. rewrite V1, V2 in C. exact C.
Qed.
Lemma scaled_stepF (r d : float) : fin r -> (-1 <= B2R r <= 1)%R -> fin d -> fle f0 d = true ->
  fin (fmul r d) /\ fle (fopp d) (fmul r d) = true /\ fle (fmul r d) d = true.
Proof.
  intros Fr Hr Fd Pd. apply fle_Rf in Pd; [|reflexivity|exact Fd]. change (B2R f0) with 0%R in Pd.
  assert (B : (Rabs (B2R r * B2R d) <= B2R d)%R).
  { rewrite Rabs_mult, (Rabs_pos_eq (B2R d)) by lra. assert (Rabs (B2R r) <= 1)%R by (apply Rabs_le; lra). nra. }
  assert (C : (Rabs (frnd (B2R r * B2R d)) <= B2R d)%R).
  { apply rnd_abs_gen; try exact _. - apply generic_format_B2R. - exact B. }
  destruct (fmul_fin 24 128 _ _ r d Fr Fd) as (F & V).
  { eapply Rle_lt_trans; [exact C|]. pose proof (fin_lt_emax 24 128 d) as Q. rewrite Rabs_pos_eq in Q by lra. exact Q. }
  apply Rabs_le_inv in C. split; [exact F|].
  assert (Fo : fin (fopp d)) by (apply fopp_fin; exact Fd).
  split; apply fle_Rf; try assumption; rewrite V; [rewrite fopp_B2R|]; lra.
Qed.
