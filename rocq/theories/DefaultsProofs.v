(** Proofs about the default operators. *)
From Coq Require Import List Arith ZArith Bool Lia Reals Lra.
From Flocq Require Import Core BinarySingleNaN Relative.
From Verif Require Import Base Fl FlFacts Rng RandProofs GlobalProofs Box BoxProofs GlobalM Defaults.
Import ListNotations.
Open Scope R_scope.

(** * Rounding errors *)
Definition uu : R := bpow radix2 (-53).
Definition ee : R := bpow radix2 (-1075).
Lemma uu_bound : 0 < uu <= / 4096.
Proof.
  unfold uu. split; [apply bpow_gt_0|]. apply Rle_trans with (bpow radix2 (-12)); [apply bpow_le; lia|cbn; lra].
Qed.
Lemma ee_bound : 0 < ee <= uu.
Proof. unfold ee, uu. split; [apply bpow_gt_0|apply bpow_le; lia]. Qed.

Lemma drnd_err x : Rabs (drnd x - x) <= uu * Rabs x + ee.
Proof.
  destruct (error_N_FLT radix2 (-1074) 53 ltac:(lia) (fun n => negb (Z.even n)) x) as (e & h & He & Hh & _ & E).
  assert (E' : drnd x = x * (1 + e) + h) by exact E. rewrite E'.
  replace (x * (1 + e) + h - x) with (x * e + h) by ring.
  eapply Rle_trans; [apply Rabs_triang|]. rewrite Rabs_mult.
  replace (/ 2 * bpow radix2 (- (53) + 1)) with uu in He.
  2:{ unfold uu. change (/ 2) with (bpow radix2 (-1)). rewrite <- bpow_plus. reflexivity. }
  replace (/ 2 * bpow radix2 (-1074)) with ee in Hh.
  2:{ unfold ee. change (/ 2) with (bpow radix2 (-1)). rewrite <- bpow_plus. reflexivity. }
  pose proof (Rabs_pos x). nra.
Qed.
#[global] Opaque uu ee.

Lemma drnd_abs_le x (m : R) : 0 <= m -> Rabs x <= m -> Rabs (drnd x) <= m + uu * m + ee.
Proof.
  intros Hm H. pose proof (drnd_err x) as E. pose proof uu_bound.
  replace (drnd x) with ((drnd x - x) + x) by ring.
  eapply Rle_trans; [apply Rabs_triang|]. nra.
Qed.

Lemma big_lt : bpow radix2 1000 * 8 < bpow radix2 1024.
Proof. change 8 with (bpow radix2 3). rewrite <- bpow_plus. apply bpow_lt. lia. Qed.
Lemma big_ge : 1 <= bpow radix2 1000.
Proof. change 1 with (bpow radix2 0). apply bpow_le. lia. Qed.

(** The blend of two coordinates is the convex combination up to rounding. *)
Lemma blend_err (r x y : double) (m : R) :
  fin r -> fin x -> fin y -> 0 < B2R r < 1 -> Rabs (B2R x) <= m -> Rabs (B2R y) <= m -> m <= bpow radix2 1000 ->
  fin (blend r x y) /\
  Rabs (B2R (blend r x y) - (B2R r * B2R x + (1 - B2R r) * B2R y)) <= 8 * uu * m + 4 * ee.
Proof.
  intros Fr Fx Fy Hr Hx Hy Hm. pose proof uu_bound as U. pose proof ee_bound as Eb.
  assert (Hm0 : 0 <= m) by (pose proof (Rabs_pos (B2R x)); lra).
  pose proof big_lt as BL. pose proof big_ge as BG. revert BL BG Hm.
  generalize (bpow radix2 1000). intros BB. generalize dval_lt_emax. intros DV BL BG Hm.
  unfold blend.
  (* q = 1 - r *)
  assert (Q0 : Rabs (B2R d1 - B2R r) <= 1) by (rewrite d1_val; apply Rabs_le; lra).
  destruct (fsub_fin _ _ _ _ d1 r d1_fin Fr) as (Fq & Vq).
  { eapply Rle_lt_trans; [apply (drnd_abs_le _ 1); [lra|exact Q0]|]. nra. }
  pose proof (drnd_err (B2R d1 - B2R r)) as Eq0. fold (drnd (B2R d1 - B2R r)) in Vq. rewrite <- Vq in Eq0.
  assert (Eq1 : Rabs (B2R (fsub d1 r) - (1 - B2R r)) <= 2 * uu).
  { rewrite d1_val in Eq0, Q0. revert Eq0. generalize (Rabs (1 - B2R r)) (Rabs_pos (1 - B2R r)) Q0. intros. nra. }
  set (q := B2R (fsub d1 r)) in *. clear Eq0 Vq.
  (* r*x *)
  assert (P1 : Rabs (B2R r * B2R x) <= m) by (rewrite Rabs_mult, (Rabs_pos_eq (B2R r)) by lra; pose proof (Rabs_pos (B2R x)); nra).
  destruct (fmul_fin _ _ _ _ r x Fr Fx) as (F1 & V1).
  { eapply Rle_lt_trans; [apply (drnd_abs_le _ m); [lra|exact P1]|]. nra. }
  pose proof (drnd_err (B2R r * B2R x)) as E1. fold (drnd (B2R r * B2R x)) in V1. rewrite <- V1 in E1. clear V1.
  (* q*y *)
  assert (Hq : Rabs q <= 1 + 2 * uu).
  { apply Rabs_le_inv in Eq1. apply Rabs_le. lra. }
  assert (P2 : Rabs (q * B2R y) <= 2 * m).
  { rewrite Rabs_mult. pose proof (Rabs_pos (B2R y)). pose proof (Rabs_pos q). nra. }
  destruct (fmul_fin _ _ _ _ (fsub d1 r) y Fq Fy) as (F2 & V2).
  { fold q. eapply Rle_lt_trans; [apply (drnd_abs_le _ (2 * m)); [lra|exact P2]|]. nra. }
  fold q in V2. pose proof (drnd_err (q * B2R y)) as E2. fold (drnd (q * B2R y)) in V2. rewrite <- V2 in E2. clear V2.
  set (a := B2R (fmul r x)) in *. set (b := B2R (fmul (fsub d1 r) y)) in *.
  (* the sum *)
  assert (A1 : Rabs (a - B2R r * B2R x) <= uu * m + ee) by (revert E1 P1; generalize (Rabs (B2R r * B2R x)); intros; nra).
  assert (Dq : Rabs (q * B2R y - (1 - B2R r) * B2R y) <= 2 * uu * m).
  { replace (q * B2R y - (1 - B2R r) * B2R y) with ((q - (1 - B2R r)) * B2R y) by ring. rewrite Rabs_mult.
    apply Rle_trans with (2 * uu * Rabs (B2R y)); [apply Rmult_le_compat_r; [apply Rabs_pos|exact Eq1]|].
    apply Rmult_le_compat_l; lra. }
  assert (B0 : Rabs (q * B2R y) <= (1 + 2 * uu) * m).
  { rewrite Rabs_mult. apply Rmult_le_compat; try apply Rabs_pos; assumption. }
  assert (B1 : Rabs (b - q * B2R y) <= 2 * uu * m + ee).
  { assert (uu * Rabs (q * B2R y) <= uu * (2 * m)) by (apply Rmult_le_compat_l; lra). lra. }
  assert (C0 : Rabs (B2R r * B2R x + (1 - B2R r) * B2R y) <= m).
  { apply Rabs_le. apply Rabs_le_inv in Hx. apply Rabs_le_inv in Hy. nra. }
  assert (S0 : Rabs (a + b - (B2R r * B2R x + (1 - B2R r) * B2R y)) <= 5 * uu * m + 2 * ee).
  { replace (a + b - (B2R r * B2R x + (1 - B2R r) * B2R y))
      with ((a - B2R r * B2R x) + ((b - q * B2R y) + (q * B2R y - (1 - B2R r) * B2R y))) by ring.
    eapply Rle_trans; [apply Rabs_triang|]. eapply Rle_trans; [apply Rplus_le_compat_l, Rabs_triang|]. lra. }
  assert (SA : Rabs (a + b) <= 2 * m + 2 * ee).
  { replace (a + b) with ((a + b - (B2R r * B2R x + (1 - B2R r) * B2R y)) + (B2R r * B2R x + (1 - B2R r) * B2R y)) by ring.
    eapply Rle_trans; [apply Rabs_triang|]. assert (5 * uu * m <= m) by nra. lra. }
  destruct (fadd_fin _ _ _ _ (fmul r x) (fmul (fsub d1 r) y) F1 F2) as (F3 & V3).
  { fold a b. eapply Rle_lt_trans; [apply (drnd_abs_le _ (2 * m + 2 * ee)); [lra|exact SA]|]. nra. }
  split; [exact F3|]. fold a b in V3. fold (drnd (a + b)) in V3. rewrite V3.
  pose proof (drnd_err (a + b)) as E3.
  replace (drnd (a + b) - (B2R r * B2R x + (1 - B2R r) * B2R y))
    with ((drnd (a + b) - (a + b)) + (a + b - (B2R r * B2R x + (1 - B2R r) * B2R y))) by ring.
  eapply Rle_trans; [apply Rabs_triang|].
  assert (uu * Rabs (a + b) <= uu * (2 * m + 2 * ee)) by (apply Rmult_le_compat_l; lra).
  assert (uu * (2 * ee) <= ee) by nra. nra.
Qed.

(** * Discrete operators *)
Open Scope nat_scope.
Lemma swap_nth {A} (p1 p2 : list A) k i : length p1 = length p2 -> k <= length p1 ->
  nth_error (firstn k p1 ++ skipn k p2) i = if i <? k then nth_error p1 i else nth_error p2 i.
Proof.
  intros L Hk. destruct (Nat.ltb_spec i k).
  - rewrite nth_error_app1 by (rewrite firstn_length; lia).
    rewrite <- (firstn_skipn k p1) at 2. rewrite nth_error_app1 by (rewrite firstn_length; lia). reflexivity.
  - rewrite nth_error_app2 by (rewrite firstn_length; lia). rewrite firstn_length, Nat.min_l by lia.
    rewrite <- (firstn_skipn k p2) at 2. rewrite nth_error_app2 by (rewrite firstn_length; lia).
    rewrite firstn_length, Nat.min_l by lia. reflexivity.
Qed.

Lemma rand_loci_spec {A} R r (p1 : list A) : forall p2 g, length p1 = length p2 ->
  let c := fst (rand_loci R r p1 p2 g) in
  length (fst c) = length p1 /\ length (snd c) = length p1 /\
  forall i x y, nth_error p1 i = Some x -> nth_error p2 i = Some y ->
    (nth_error (fst c) i = Some x \/ nth_error (fst c) i = Some y) /\
    (nth_error (snd c) i = Some x \/ nth_error (snd c) i = Some y).
Proof.
  induction p1 as [|x p1 IH]; intros [|y p2] g L; cbn in L; try discriminate; cbn.
  - repeat split; intros; destruct i; discriminate.
  - destruct (rand01 R g) as [e1 g1]. destruct (rand01 R g1) as [e2 g2].
    specialize (IH p2 g2 ltac:(lia)). destruct (rand_loci R r p1 p2 g2) as [[c1 c2] g3]. cbn in *.
    destruct IH as (L1 & L2 & Q). split; [congruence|]. split; [congruence|].
    intros [|i] a b Ha Hb; cbn in *; [|apply Q; assumption].
    inversion Ha; inversion Hb; subst. destruct (flt e1 r), (flt e2 r); auto.
Qed.
