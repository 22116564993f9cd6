(** The default arithmetic crossover is monotone in both parents, so it keeps an
    interval exactly if it keeps its two ends. *)
From Coq Require Import List Arith ZArith Reals Bool Lia Lra.
From Flocq Require Import Core BinarySingleNaN.
From Verif Require Import Base Fl FlFacts Rng Box GlobalM Defaults WheelProofs2 SOGAObjProofs.
Import ListNotations.
Open Scope R_scope.

Lemma fadd_fval (x y : double) : fin x -> fin y ->
  nonnan (fadd x y) /\ fval (fadd x y) = clip (drnd (B2R x + B2R y)).
Proof.
  intros Fx Fy.
  pose proof (Bplus_correct 53 1024 _ _ mode_NE x y Fx Fy) as C. cbn [round_mode] in C.
  rewrite <- E1024_eq in C. destruct (Rlt_bool_spec (Rabs (drnd (B2R x + B2R y))) E1024) as [L|L].
  - destruct C as (C1 & C2 & _). unfold fadd. split; [apply fin_nonnan; exact C2|]. rewrite (fval_fin _ _ _ C2), C1, clip_in by exact L. reflexivity.
  - destruct C as (C1 & C2). apply fval_of_overflow in C1. destruct C1 as (C0 & C1). unfold fadd. split; [exact C0|]. rewrite C1. apply overflow_value; [exact L|].
    destruct (Bsign x) eqn:Sx; symmetry in C2.
    + apply Bsign_neg in Sx. apply Bsign_neg in C2. apply drnd_le0. lra.
    + apply Bsign_pos in Sx. apply Bsign_pos in C2. apply drnd_ge0. lra.
Qed.
Lemma drnd_id (x : double) : drnd (B2R x) = B2R x.
Proof. apply round_generic; [typeclasses eauto|apply generic_format_B2R]. Qed.

Section Blend.
Context (r : double) (Fr : fin r) (Hr : 0 <= B2R r <= 1).
Lemma one_minus : fin (fsub d1 r) /\ 0 <= B2R (fsub d1 r) <= 1.
Proof.
  destruct (fsub_bounded d1 r 1 0) as (F & _ & V); try lia; try apply d1_fin; try exact Fr.
  { rewrite d1_val. cbn. rewrite Rabs_pos_eq; lra. }
  split; [exact F|]. rewrite V, d1_val. split; [apply drnd_ge0|apply drnd_le1]; lra.
Qed.
Lemma scaled (s x : double) : fin s -> 0 <= B2R s <= 1 -> fin x -> fin (fmul s x) /\ B2R (fmul s x) = drnd (B2R s * B2R x).
Proof.
  intros Fs Hs Fx. pose proof (Bmult_correct 53 1024 _ _ mode_NE s x) as C. cbn [round_mode] in C.
  rewrite Rlt_bool_true in C.
  - destruct C as (C1 & C2 & _). rewrite Fs, Fx in C2. split; [exact C2|exact C1].
  - apply Rle_lt_trans with (Rabs (B2R x)); [|apply dval_lt_emax].
    apply (abs_round_le_generic radix2 _ ZnearestE).
    + apply generic_format_abs, generic_format_B2R.
    + rewrite Rabs_mult. pose proof (Rabs_pos (B2R x)). rewrite (Rabs_pos_eq (B2R s)) by lra. nra.
Qed.
Definition blendR (x y : R) : R := clip (drnd (drnd (B2R r * x) + drnd (B2R (fsub d1 r) * y))).
Lemma blend_fval (x y : double) : fin x -> fin y -> nonnan (blend r x y) /\ fval (blend r x y) = blendR (B2R x) (B2R y).
Proof.
  intros Fx Fy. destruct one_minus as (Fm & Hm). destruct (scaled r x Fr Hr Fx) as (F1 & V1). destruct (scaled _ y Fm Hm Fy) as (F2 & V2).
  unfold blend. destruct (fadd_fval _ _ F1 F2) as (N & V). split; [exact N|]. rewrite V, V1, V2. reflexivity.
Qed.
Lemma blendR_mono x y x' y' : x <= x' -> y <= y' -> blendR x y <= blendR x' y'.
Proof.
  intros Hx Hy. destruct one_minus as (Fm & Hm). unfold blendR. apply clip_mono, drnd_mono, Rplus_le_compat; apply drnd_mono; nra.
Qed.
Lemma between_fin (lo hi x : double) : fin lo -> fin hi -> fle lo x = true -> fle x hi = true -> fin x.
Proof.
  intros Fl Fh H1 H2. apply fle_true in H1. apply fle_true in H2. destruct H1 as (_ & N & V1). destruct H2 as (_ & _ & V2).
  destruct x as [s|s| |s m e Hb]; try reflexivity; try discriminate N.
  exfalso. pose proof (dval_lt_emax lo) as L1. pose proof (dval_lt_emax hi) as L2.
  rewrite (fval_fin _ _ _ Fl) in V1. rewrite (fval_fin _ _ _ Fh) in V2. apply Rabs_lt_inv in L1. apply Rabs_lt_inv in L2.
  cbn [fval] in V1, V2. destruct s; lra.
Qed.
Lemma blend_between (lo hi x y : double) : fin lo -> fin hi ->
  fle lo (blend r lo lo) = true -> fle (blend r hi hi) hi = true ->
  fle lo x = true -> fle x hi = true -> fle lo y = true -> fle y hi = true ->
  fle lo (blend r x y) = true /\ fle (blend r x y) hi = true.
Proof.
  intros Fl Fh A1 A2 X1 X2 Y1 Y2.
  pose proof (between_fin lo hi x Fl Fh X1 X2) as Fx. pose proof (between_fin lo hi y Fl Fh Y1 Y2) as Fy.
  apply fle_true in A1, A2, X1, X2, Y1, Y2. destruct A1 as (_ & _ & A1), A2 as (_ & _ & A2), X1 as (_ & _ & X1), X2 as (_ & _ & X2), Y1 as (_ & _ & Y1), Y2 as (_ & _ & Y2).
  destruct (blend_fval x y Fx Fy) as (N & V). destruct (blend_fval lo lo Fl Fl) as (_ & Vl). destruct (blend_fval hi hi Fh Fh) as (_ & Vh).
  rewrite Vl in A1. rewrite Vh in A2. rewrite (fval_fin _ _ _ Fl) in *. rewrite (fval_fin _ _ _ Fh) in *. rewrite (fval_fin _ _ _ Fx) in *. rewrite (fval_fin _ _ _ Fy) in *.
  split; (apply fle_iff; [try exact N; apply fin_nonnan; assumption|try exact N; apply fin_nonnan; assumption|]); rewrite V, ?(fval_fin _ _ _ Fl), ?(fval_fin _ _ _ Fh).
  - eapply Rle_trans; [exact A1|]. apply blendR_mono; assumption.
  - eapply Rle_trans; [|exact A2]. apply blendR_mono; assumption.
Qed.
End Blend.
