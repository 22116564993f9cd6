(** Facts about Global/Randoms.hpp. *)
From Coq Require Import ZArith Reals Bool Lia Lra.
From Flocq Require Import Core BinarySingleNaN.
From Verif Require Import Base Fl FlFacts Rng.
Open Scope R_scope.

Notation fx := (SpecFloat.fexp 24 128).
#[local] Instance vfx : Valid_exp fx := fexp_correct 24 128 _.
#[local] Instance mfx : Monotone_exp fx.
Proof. unfold fx. apply FLT_exp_monotone. Qed.

Lemma fx_eq : fx = FLT_exp (-149) 24. Proof. reflexivity. Qed.

(** A draw of randF(). *)
Lemma unit_drawf (f : float) : fle f0 f = true -> flt f f1 = true ->
  fin f /\ 0 <= B2R f <= 1 - bpow radix2 (-24).
Proof.
  intros H1 H2. apply fle_true in H1. apply flt_true in H2.
  destruct H1 as (_ & N & L1). destruct H2 as (_ & _ & L2).
  assert (F1 : fin f1 /\ B2R f1 = 1).
  { destruct (@fofZ_exact 24 128 _ _ 1 0) as (A & B); [easy|easy|easy|].
    split; [exact A|]. unfold f1, f_of_Z. rewrite B. cbn. ring. }
  destruct F1 as (F1 & V1).
  change (fval f0) with 0 in L1. rewrite (fval_fin _ _ f1 F1), V1 in L2.
  assert (F : fin f).
  { destruct f as [s|[|]| |s m e Hb]; try reflexivity; exfalso.
    - cbn [fval] in L1. pose proof (bpow_gt_0 radix2 128) as HB. revert L1 HB. generalize (bpow radix2 128). intros; lra.
    - cbn [fval] in L2. assert (HB : bpow radix2 0 <= bpow radix2 128) by (apply bpow_le; easy).
      change (bpow radix2 0) with 1 in HB. revert L2 HB. generalize (bpow radix2 128). intros; lra.
    - discriminate. }
  split; [exact F|]. rewrite (fval_fin _ _ f F) in *. split; [exact L1|].
  assert (P : B2R f <= pred radix2 fx 1).
  { apply pred_ge_gt; [apply vfx|apply generic_format_B2R| |exact L2].
    change 1 with (bpow radix2 0). apply generic_format_bpow. easy. }
  replace (pred radix2 fx 1) with (1 - bpow radix2 (-24)) in P; [exact P|].
  symmetry. change 1 with (bpow radix2 0) at 1. rewrite pred_bpow. reflexivity.
Qed.

Lemma pred_half (x : R) : generic_format radix2 fx x -> 1 <= x ->
  x - pred radix2 fx x < x * bpow radix2 (-23).
Proof.
  intros Gx Hx. set (u := pred radix2 fx x).
  assert (Gu : generic_format radix2 fx u) by (apply generic_format_pred; [apply vfx|exact Gx]).
  assert (Su : succ radix2 fx u = x) by (apply succ_pred; [apply vfx|exact Gx]).
  assert (Hu : bpow radix2 (-1) <= u).
  { apply pred_ge_gt; [apply vfx|apply generic_format_bpow; easy|exact Gx|].
    cbn. lra. }
  assert (Hb : bpow radix2 (-1) = / 2) by (cbn; lra).
  rewrite succ_eq_pos in Su by lra.
  assert (Lu : ulp radix2 fx u <= Rabs u * bpow radix2 (1 - 24)).
  { apply (ulp_FLT_le radix2 (-149) 24). rewrite Rabs_pos_eq by lra.
    apply Rle_trans with (bpow radix2 (-1)); [apply bpow_le; easy|exact Hu]. }
  rewrite Rabs_pos_eq in Lu by lra. change (1 - 24)%Z with (-23)%Z in Lu.
  pose proof (bpow_gt_0 radix2 (-23)) as B.
  assert (0 < ulp radix2 fx u).
  { destruct (Rle_lt_or_eq_dec 0 (ulp radix2 fx u)) as [L|L]; [apply ulp_ge_0|exact L|].
    exfalso. assert (pred radix2 fx x < x) by (apply pred_lt_id; lra). fold u in H. lra. }
  nra.
Qed.

Lemma trunc_lt (y : float) (n : Z) : fin y -> 0 <= B2R y < IZR n -> (0 <= Btrunc y < n)%Z.
Proof.
  intros F (H1 & H2). assert (E0 : Btrunc y = Ztrunc (B2R y)).
  { apply eq_IZR. rewrite (Btrunc_correct 24 128 _). apply round_FIX_IZR. }
  rewrite E0.
  assert (E : Ztrunc (B2R y) = Zfloor (B2R y)) by (apply Ztrunc_floor; exact H1).
  rewrite E. split; [apply Zfloor_lub; exact H1|].
  apply lt_IZR. apply Rle_lt_trans with (B2R y); [apply Zfloor_lb|exact H2].
Qed.

(** float(size) * draw always truncates to an index below size. *)
Lemma idx_bound (f : float) (n : Z) : fle f0 f = true -> flt f f1 = true ->
  (1 <= n <= 18446744073709551616)%Z ->
  (0 <= Btrunc (fmul f (f_of_Z n)) < n)%Z /\ (0 <= Btrunc (fmul (f_of_Z n) f) < n)%Z.
Proof.
  intros H1 H2 Hn. destruct (unit_drawf f H1 H2) as (Ff & Lf).
  set (x := frnd (IZR n)).
  assert (G64 : generic_format radix2 fx (bpow radix2 64)) by (apply generic_format_bpow; easy).
  assert (G1 : generic_format radix2 fx 1) by (change 1 with (bpow radix2 0); apply generic_format_bpow; easy).
  assert (Nb : 1 <= IZR n <= bpow radix2 64).
  { split; [apply IZR_le; lia|]. change (bpow radix2 64) with (IZR 18446744073709551616). apply IZR_le. lia. }
  assert (Xb : 1 <= x <= bpow radix2 64).
  { split; [apply (rnd_gen' 24 128 _)|apply (rnd_gen 24 128 _)]; tauto. }
  assert (BL : bpow radix2 64 < bpow radix2 128) by (apply bpow_lt; easy).
  assert (Fx : fin (f_of_Z n) /\ B2R (f_of_Z n) = x).
  { unfold x. destruct (fofZ_fin 24 128 _ _ n 0) as (A & B).
    - cbn [bpow]. rewrite Rmult_1_r. change (Rabs x < bpow radix2 128). rewrite Rabs_pos_eq by lra. lra.
    - split; [exact A|]. unfold f_of_Z. rewrite B. cbn [bpow]. rewrite Rmult_1_r. reflexivity. }
  destruct Fx as (Fx & Vx).
  assert (Gx : generic_format radix2 fx x) by (unfold x; apply generic_format_round; [apply vfx|typeclasses eauto]).
  set (u := pred radix2 fx x).
  assert (Gu : generic_format radix2 fx u) by (apply generic_format_pred; [apply vfx|exact Gx]).
  assert (Su : succ radix2 fx u = x) by (apply succ_pred; [apply vfx|exact Gx]).
  pose proof (pred_half x Gx (proj1 Xb)) as PH. fold u in PH.
  assert (Lu : u < IZR n).
  { destruct (Rlt_le_dec u (IZR n)) as [L|L]; [exact L|exfalso].
    assert (x <= u) by (apply (rnd_gen 24 128 _); assumption).
    assert (pred radix2 fx x < x) by (apply pred_lt_id; lra). fold u in H0. lra. }
  assert (Hp : frnd (B2R f * x) <= u).
  { apply round_N_le_midp; [apply vfx|exact Gu|]. rewrite Su.
    assert (E : bpow radix2 (-23) = 2 * bpow radix2 (-24)) by (cbn; lra).
    pose proof (bpow_gt_0 radix2 (-24)) as BB. rewrite E in PH.
    assert (B2R f * x <= (1 - bpow radix2 (-24)) * x) by (apply Rmult_le_compat_r; lra). nra. }
  assert (Hp0 : 0 <= frnd (B2R f * x)).
  { apply (rnd_gen' 24 128 _); [apply generic_format_0|]. apply Rmult_le_pos; lra. }
  assert (Hab : Rabs (frnd (B2R f * x)) < bpow radix2 128).
  { rewrite Rabs_pos_eq by exact Hp0. lra. }
  split.
  - destruct (fmul_fin 24 128 _ _ f (f_of_Z n) Ff Fx) as (A & B); [rewrite Vx; exact Hab|].
    apply trunc_lt; [exact A|]. rewrite B, Vx. lra.
  - destruct (fmul_fin 24 128 _ _ (f_of_Z n) f Fx Ff) as (A & B); [rewrite Vx, Rmult_comm; exact Hab|].
    apply trunc_lt; [exact A|]. rewrite B, Vx, (Rmult_comm x). lra.
Qed.

Lemma randIdx_range R n g : rng_ok R -> (1 <= n <= 18446744073709551616)%Z ->
  (0 <= fst (randIdx R n g) < n)%Z.
Proof.
  intros (_ & H & _) Hn. specialize (H g). unfold randIdx. destruct (randf01 R g) as [f g']. cbn [fst] in *.
  apply idx_bound; tauto.
Qed.
Lemma randIdx2_range R lo hi g : rng_ok R -> (1 <= hi - lo <= 18446744073709551616)%Z ->
  (lo <= fst (randIdx2 R lo hi g) < hi)%Z.
Proof.
  intros (_ & H & _) Hn. specialize (H g). unfold randIdx2. destruct (randf01 R g) as [f g']. cbn [fst] in *.
  pose proof (idx_bound f (hi - lo) (proj1 H) (proj2 H) Hn). lia.
Qed.
