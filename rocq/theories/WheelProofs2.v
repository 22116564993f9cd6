(** Proofs for C65 / C66: monotonicity of the float operations including
    overflow, and the error of the walk. *)
From Coq Require Import List Arith ZArith Reals Bool Lia Lra Permutation Sorted.
From Flocq Require Import Core BinarySingleNaN Plus_error Relative.
From Verif Require Import Base Fl FlFacts Rng StdOps ListFacts WheelSpec.
Import ListNotations.
Open Scope R_scope.

Definition E1024 : R := bpow radix2 1024.
Lemma E1024_eq : E1024 = bpow radix2 1024. Proof. reflexivity. Qed.
Lemma E1024_pos : 0 < E1024. Proof. apply bpow_gt_0. Qed.
Global Opaque E1024.
Definition clip (z : R) : R := Rmax (- E1024) (Rmin E1024 z).
Lemma clip_mono a b : a <= b -> clip a <= clip b.
Proof. intros H. unfold clip. apply Rle_max_compat_l, Rle_min_compat_l, H. Qed.
Lemma clip_in z : Rabs z < E1024 -> clip z = z.
Proof. intros H. apply Rabs_lt_inv in H. unfold clip. rewrite Rmin_right, Rmax_right; lra. Qed.
Lemma clip_hi z : E1024 <= z -> clip z = E1024.
Proof. intros H. pose proof E1024_pos. unfold clip. rewrite Rmin_left, Rmax_right; lra. Qed.
Lemma clip_lo z : z <= - E1024 -> clip z = - E1024.
Proof. intros H. pose proof E1024_pos. unfold clip. rewrite Rmin_right, Rmax_left; lra. Qed.

Lemma Bsign_neg (x : double) : Bsign x = true -> B2R x <= 0.
Proof. destruct x as [s|s| |s m e H]; cbn [Bsign B2R]; intros; try lra. subst. apply F2R_le_0. cbn. lia. Qed.
Lemma Bsign_pos (x : double) : Bsign x = false -> 0 <= B2R x.
Proof. destruct x as [s|s| |s m e H]; cbn [Bsign B2R]; intros; try lra. subst. apply F2R_ge_0. cbn. lia. Qed.

Lemma fval_of_overflow (z : double) (s : bool) : B2SF z = SpecFloat.S754_infinity s -> nonnan z /\ fval z = if s then - E1024 else E1024.
Proof. destruct z; cbn [B2SF]; try discriminate. intros H. inversion H; subst. split; [reflexivity|]. rewrite E1024_eq. reflexivity. Qed.
Lemma overflow_value (z : R) (s : bool) : E1024 <= Rabs z -> (if s then z <= 0 else 0 <= z) -> (if s then - E1024 else E1024) = clip z.
Proof.
  intros H Hs. pose proof E1024_pos. destruct s.
  - rewrite Rabs_left1 in H by exact Hs. rewrite clip_lo; lra.
  - rewrite Rabs_pos_eq in H by exact Hs. rewrite clip_hi; lra.
Qed.
Lemma fsub_fval (x y : double) : fin x -> fin y ->
  nonnan (fsub x y) /\ fval (fsub x y) = clip (drnd (B2R x - B2R y)).
Proof.
  intros Fx Fy. split; [apply fsub_fin_nonnan; [apply fin_nonnan, Fx|exact Fy]|].
  pose proof (Bminus_correct 53 1024 _ _ mode_NE x y Fx Fy) as C. cbn [round_mode] in C.
  rewrite <- E1024_eq in C. destruct (Rlt_bool_spec (Rabs (drnd (B2R x - B2R y))) E1024) as [L|L].
  - destruct C as (C1 & C2 & _). unfold fsub. rewrite (fval_fin _ _ _ C2), C1, clip_in by exact L. reflexivity.
  - destruct C as (C1 & C2). apply fval_of_overflow in C1. destruct C1 as (_ & C1). unfold fsub. rewrite C1. apply overflow_value; [exact L|].
    destruct (Bsign x) eqn:Sx; symmetry in C2.
    + apply Bsign_neg in Sx. assert (Bsign y = false) as Sy by (destruct (Bsign y); easy). apply Bsign_pos in Sy.
      apply drnd_le0. lra.
    + apply Bsign_pos in Sx. assert (Bsign y = true) as Sy by (destruct (Bsign y); easy). apply Bsign_neg in Sy.
      apply drnd_ge0. lra.
Qed.
Lemma fmul_fval (x y : double) : fin x -> fin y ->
  nonnan (fmul x y) /\ fval (fmul x y) = clip (drnd (B2R x * B2R y)).
Proof.
  intros Fx Fy. pose proof (Bmult_correct 53 1024 _ _ mode_NE x y) as C. cbn [round_mode] in C.
  rewrite <- E1024_eq in C. destruct (Rlt_bool_spec (Rabs (drnd (B2R x * B2R y))) E1024) as [L|L].
  - destruct C as (C1 & C2 & _). rewrite Fx, Fy in C2. unfold fmul. split; [apply fin_nonnan; exact C2|].
    rewrite (fval_fin _ _ _ C2), C1, clip_in by exact L. reflexivity.
  - apply fval_of_overflow in C. destruct C as (C0 & C1). split; [exact C0|]. unfold fmul. rewrite C1. apply overflow_value; [exact L|].
    destruct (Bsign x) eqn:Sx; destruct (Bsign y) eqn:Sy; cbn [xorb];
      first [apply Bsign_neg in Sx|apply Bsign_pos in Sx]; first [apply Bsign_neg in Sy|apply Bsign_pos in Sy];
      first [apply drnd_le0; nra|apply drnd_ge0; nra].
Qed.
Lemma drnd_mono x y : x <= y -> drnd x <= drnd y.
Proof. apply (rnd_le 53 1024 _). Qed.
Lemma fsub_mono_l (x y z : double) : fin x -> fin y -> fin z -> B2R x <= B2R y -> fle (fsub x z) (fsub y z) = true.
Proof.
  intros Fx Fy Fz H. destruct (fsub_fval x z Fx Fz) as (N1 & E1). destruct (fsub_fval y z Fy Fz) as (N2 & E2).
  apply fle_iff; [exact N1|exact N2|]. rewrite E1, E2. apply clip_mono, drnd_mono. lra.
Qed.
Lemma fmul_mono_r (a x y : double) : fin a -> fin x -> fin y -> 0 <= B2R a -> B2R x <= B2R y -> fle (fmul a x) (fmul a y) = true.
Proof.
  intros Fa Fx Fy Ha H. destruct (fmul_fval a x Fa Fx) as (N1 & E1). destruct (fmul_fval a y Fa Fy) as (N2 & E2).
  apply fle_iff; [exact N1|exact N2|]. rewrite E1, E2. apply clip_mono, drnd_mono. nra.
Qed.
Lemma fmul_anti_r (a x y : double) : fin a -> fin x -> fin y -> B2R a <= 0 -> B2R x <= B2R y -> fle (fmul a y) (fmul a x) = true.
Proof.
  intros Fa Fx Fy Ha H. destruct (fmul_fval a x Fa Fx) as (N1 & E1). destruct (fmul_fval a y Fa Fy) as (N2 & E2).
  apply fle_iff; [exact N2|exact N1|]. rewrite E1, E2. apply clip_mono, drnd_mono. nra.
Qed.

(** A float subtraction has relative error at most 2^-53, subnormals included. *)
Lemma fsub_err (x y : double) : Rabs (drnd (B2R x - B2R y) - (B2R x - B2R y)) <= bpow radix2 (-53) * Rabs (B2R x - B2R y).
Proof.
  destruct (Rle_or_lt (bpow radix2 (-1022)) (Rabs (B2R x - B2R y))) as [L|L].
  - pose proof (relative_error_N_FLT radix2 (-1074) 53 eq_refl (fun z => negb (Z.even z)) (B2R x - B2R y)) as H.
    specialize (H L). eapply Rle_trans; [exact H|]. apply Req_le. f_equal.
    change (/ 2) with (bpow radix2 (-1)). rewrite <- bpow_plus. reflexivity.
  - assert (G : generic_format radix2 (SpecFloat.fexp 53 1024) (B2R x + B2R (fopp y))).
    { apply (FLT_format_plus_small radix2 (-1074) 53); [apply generic_format_B2R|apply generic_format_B2R|].
      rewrite fopp_B2R. change (53 + -1074)%Z with (-1021)%Z.
      left. eapply Rlt_trans; [exact L|]. apply bpow_lt. lia. }
    rewrite fopp_B2R in G. change (B2R x + - B2R y) with (B2R x - B2R y) in G.
    rewrite round_generic by (try typeclasses eauto; exact G). unfold Rminus at 1. rewrite Rplus_opp_r, Rabs_R0.
    apply Rmult_le_pos; [apply bpow_ge_0|apply Rabs_pos].
Qed.

Lemma upto_S ws k w : nth_error ws k = Some w -> upto (S k) ws = upto k ws + B2R w.
Proof.
  revert k. induction ws as [|x ws IH]; intros [|k]; cbn [nth_error]; try discriminate; intros H.
  - inversion H; subst. unfold upto, Rsum. cbn. lra.
  - specialize (IH k H). unfold upto, Rsum in *. cbn [firstn map fold_right] in *. lra.
Qed.
Lemma after_S ws : forall r k w, nth_error ws k = Some w -> after r ws (S k) = fsub (after r ws k) w.
Proof.
  induction ws as [|x ws IH]; intros r [|k] w; cbn [nth_error]; try discriminate; intros H.
  - inversion H; subst. reflexivity.
  - unfold after in *. cbn [firstn fold_left] in *. apply (IH _ k w H).
Qed.
Section Walk.
Variables (r : double) (ws : list double) (i : nat).
Hypotheses (Fr : fin r) (Hr : 0 <= B2R r) (Hw : forall w, In w ws -> fin w /\ 0 <= B2R w) (Hit : hits r ws i).
Lemma walk_err k : (k <= i)%nat ->
  fin (after r ws k) /\ 0 <= B2R (after r ws k) <= B2R r /\
  Rabs (B2R (after r ws k) - (B2R r - upto k ws)) <= INR k * (bpow radix2 (-53) * B2R r).
Proof.
  destruct Hit as (L & Hb & _). induction k as [|k IH]; intros Hk.
  - change (after r ws 0) with r. split; [exact Fr|]. split; [lra|]. unfold upto, Rsum. cbn [firstn map fold_right INR].
    replace (B2R r - (B2R r - 0)) with 0 by ring. rewrite Rabs_R0. lra.
  - destruct (IH ltac:(lia)) as (Fa & Ba & Ea).
    destruct (nth_error ws k) as [w|] eqn:N; [|apply nth_error_None in N; lia].
    destruct (Hw w (nth_error_In _ _ N)) as (Fw & Pw).
    rewrite (after_S _ _ _ _ N), (upto_S _ _ _ N). specialize (Hb (S k) ltac:(lia)). rewrite (after_S _ _ _ _ N) in Hb.
    destruct (fsub_fval (after r ws k) w Fa Fw) as (Nn & Ev).
    apply fle_false_lt in Hb; [|exact Nn|reflexivity]. apply flt_true in Hb. destruct Hb as (_ & _ & Hb).
    change (fval d0) with 0 in Hb.
    set (a := B2R (after r ws k)) in *.
    assert (Pz : 0 < drnd (a - B2R w)).
    { destruct (Rle_or_lt (drnd (a - B2R w)) 0) as [C|C]; [|exact C]. exfalso. rewrite Ev in Hb.
      apply clip_mono in C. assert (Z0 : clip 0 = 0) by (apply clip_in; rewrite Rabs_R0; apply E1024_pos). lra. }
    assert (Pd : 0 < a - B2R w).
    { destruct (Rle_or_lt (a - B2R w) 0) as [C|C]; [|exact C]. exfalso. apply drnd_le0 in C. lra. }
    assert (Le : drnd (a - B2R w) <= a) by (apply (rnd_bound_fl 53 1024 _ _ (after r ws k)); fold a; lra).
    destruct (fsub_fin 53 1024 _ _ (after r ws k) w Fa Fw) as (F2 & E2).
    { fold a. rewrite Rabs_pos_eq by lra. pose proof (dval_lt_emax (after r ws k)) as Q. fold a in Q. rewrite Rabs_pos_eq in Q by lra. lra. }
    split; [exact F2|]. rewrite E2. fold a. split; [lra|].
    pose proof (fsub_err (after r ws k) w) as Er. fold a in Er. rewrite (Rabs_pos_eq (a - B2R w)) in Er by lra.
    rewrite S_INR.
    replace (drnd (a - B2R w) - (B2R r - (upto k ws + B2R w)))
      with ((drnd (a - B2R w) - (a - B2R w)) + (a - (B2R r - upto k ws))) by ring.
    eapply Rle_trans; [apply Rabs_triang|]. pose proof (bpow_gt_0 radix2 (-53)). nra.
Qed.
Lemma hit_interval :
  upto i ws <= B2R r + INR i * (bpow radix2 (-53) * B2R r) /\
  B2R r - INR i * (bpow radix2 (-53) * B2R r) <= upto (S i) ws.
Proof.
  destruct (walk_err i (Nat.le_refl i)) as (Fa & Ba & Ea). apply Rabs_le_inv in Ea. split; [lra|].
  destruct Hit as (L & _ & Ha).
  destruct (nth_error ws i) as [w|] eqn:N; [|apply nth_error_None in N; lia].
  destruct (Hw w (nth_error_In _ _ N)) as (Fw & Pw).
  rewrite (after_S _ _ _ _ N) in Ha. rewrite (upto_S _ _ _ N).
  destruct (fsub_fval (after r ws i) w Fa Fw) as (Nn & Ev). apply fle_true in Ha. destruct Ha as (_ & _ & Ha).
  change (fval d0) with 0 in Ha. rewrite Ev in Ha.
  assert (a_le : B2R (after r ws i) <= B2R w).
  { destruct (Rle_or_lt (B2R (after r ws i)) (B2R w)) as [C|C]; [exact C|]. exfalso.
    assert (P : 0 < drnd (B2R (after r ws i) - B2R w)).
    { pose proof (fsub_err (after r ws i) w) as Er. rewrite (Rabs_pos_eq (B2R (after r ws i) - B2R w)) in Er by lra.
      apply Rabs_le_inv in Er. assert (Q : bpow radix2 (-53) <= / 2) by (change (/ 2) with (bpow radix2 (-1)); apply bpow_le; lia). nra. }
    assert (P2 : 0 < clip (drnd (B2R (after r ws i) - B2R w))); [|lra].
    unfold clip. apply Rlt_le_trans with (Rmin E1024 (drnd (B2R (after r ws i) - B2R w))); [|apply Rmax_r].
    apply Rmin_glb_lt; [apply E1024_pos|exact P]. }
  lra.
Qed.
End Walk.
