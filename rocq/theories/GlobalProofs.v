(** Facts about Global/Randoms.hpp (double ranges), LogisticChaos.hpp,
    HeuMaths.hpp and TemplateFloat.hpp. *)
From Coq Require Import List ZArith Reals Bool Lia Lra.
From Flocq Require Import Core BinarySingleNaN Relative Plus_error.
From Verif Require Import Base Fl FlFacts Rng GlobalM GlobalSpec.
Import ListNotations.
Open Scope R_scope.

Notation dx := (SpecFloat.fexp 53 1024).
#[local] Instance vdx : Valid_exp dx := fexp_correct 53 1024 _.
#[local] Instance mdx : Monotone_exp dx.
Proof. unfold dx. apply FLT_exp_monotone. Qed.

Lemma fsub_fin_inv (x y : double) : fin x -> fin y -> fin (fsub x y) -> B2R (fsub x y) = drnd (B2R x - B2R y).
Proof.
  intros Fx Fy Fs. pose proof (Bminus_correct 53 1024 _ _ mode_NE x y Fx Fy) as C. cbn [round_mode] in C.
  destruct (Rlt_bool _ _); [apply C|]. exfalso. destruct C as (C & _). unfold fsub, fin in Fs.
  destruct (Bminus mode_NE x y); try discriminate.
Qed.

(** A draw of randD(), sharply. *)
Lemma unit_draw' (d : double) : fle d0 d = true -> flt d d1 = true -> fin d /\ 0 <= B2R d <= 1 - bpow radix2 (-53).
Proof.
  intros H1 H2. destruct (unit_draw d H1 H2) as (F & L). split; [exact F|]. split; [lra|].
  assert (P : B2R d <= pred radix2 dx 1).
  { apply pred_ge_gt; [apply vdx|apply generic_format_B2R| |lra]. change 1 with (bpow radix2 0). apply generic_format_bpow. easy. }
  replace (pred radix2 dx 1) with (1 - bpow radix2 (-53)) in P; [exact P|].
  symmetry. change 1 with (bpow radix2 0) at 1. rewrite pred_bpow. reflexivity.
Qed.

Lemma dpred_half (x : R) : generic_format radix2 dx x -> bpow radix2 (-1021) <= x ->
  x - pred radix2 dx x < x * bpow radix2 (-52).
Proof.
  intros Gx Hx. set (u := pred radix2 dx x).
  pose proof (bpow_gt_0 radix2 (-1021)) as P0. pose proof (bpow_gt_0 radix2 (-1022)) as P1.
  assert (Gu : generic_format radix2 dx u) by (apply generic_format_pred; [apply vdx|exact Gx]).
  assert (Su : succ radix2 dx u = x) by (apply succ_pred; [apply vdx|exact Gx]).
  assert (Hu : bpow radix2 (-1022) <= u).
  { apply pred_ge_gt; [apply vdx|apply generic_format_bpow; easy|exact Gx|].
    eapply Rlt_le_trans; [|exact Hx]. apply bpow_lt. easy. }
  rewrite succ_eq_pos in Su by lra.
  assert (Lu : ulp radix2 dx u <= Rabs u * bpow radix2 (1 - 53)).
  { apply (ulp_FLT_le radix2 (-1074) 53). rewrite Rabs_pos_eq by lra. exact Hu. }
  rewrite Rabs_pos_eq in Lu by lra. change (1 - 53)%Z with (-52)%Z in Lu.
  pose proof (bpow_gt_0 radix2 (-52)) as B.
  assert (U : 0 < ulp radix2 dx u).
  { destruct (Rle_lt_or_eq_dec 0 (ulp radix2 dx u)) as [L|L]; [apply ulp_ge_0|exact L|].
    exfalso. assert (pred radix2 dx x < x) by (apply pred_lt_id; lra). fold u in H. lra. }
  nra.
Qed.

(** The product of a rounded difference and a draw does not overshoot. *)
Lemma scaled_le (a b d : R) : generic_format radix2 dx a -> generic_format radix2 dx b -> a <= b ->
  0 <= d <= 1 - bpow radix2 (-53) -> 0 <= drnd (drnd (b - a) * d) <= b - a.
Proof.
  intros Ga Gb Hab Hd. set (s := drnd (b - a)).
  pose proof (bpow_gt_0 radix2 (-53)) as B53.
  assert (S0 : 0 <= s) by (apply drnd_ge0; lra).
  split; [apply drnd_ge0; nra|].
  destruct (Rle_lt_dec (b - a) (bpow radix2 (-1021))) as [Hs|Hs].
  - assert (E : s = b - a).
    { apply round_generic; [typeclasses eauto|]. unfold Rminus.
      apply (FLT_format_plus_small radix2 (-1074) 53).
      - exact Gb.
      - apply generic_format_opp, Ga.
      - change (53 + -1074)%Z with (-1021)%Z. rewrite Rabs_pos_eq by lra. exact Hs. }
    rewrite <- E. apply (rnd_gen 53 1024 _); [unfold s; apply generic_format_round; typeclasses eauto|]. nra.
  - assert (Gs : generic_format radix2 dx s) by (apply generic_format_round; typeclasses eauto).
    assert (Ls : bpow radix2 (-1021) <= s).
    { apply (rnd_gen' 53 1024 _); [apply generic_format_bpow; easy|lra]. }
    pose proof (dpred_half s Gs Ls) as PH. set (u := pred radix2 dx s) in *.
    assert (P0 : 0 < s) by (pose proof (bpow_gt_0 radix2 (-1021)); lra).
    assert (Lu : u < s) by (apply pred_lt_id; lra).
    assert (Gu : generic_format radix2 dx u) by (apply generic_format_pred; [apply vdx|exact Gs]).
    assert (Su : succ radix2 dx u = s) by (apply succ_pred; [apply vdx|exact Gs]).
    apply Rle_trans with u.
    + apply round_N_le_midp; [apply vdx|exact Gu|]. rewrite Su.
      assert (E : bpow radix2 (-52) = 2 * bpow radix2 (-53)) by (cbn; lra). rewrite E in PH.
      assert (s * d <= s * (1 - bpow radix2 (-53))) by (apply Rmult_le_compat_l; lra). nra.
    + destruct (Rle_lt_dec u (b - a)) as [L|L]; [exact L|exfalso].
      assert (s <= u) by (apply (rnd_gen 53 1024 _); [exact Gu|lra]). lra.
Qed.

(** randD(min,max): always inside the closed interval. *)
Lemma affineD_range (lo hi d : double) : fin lo -> fin hi -> B2R lo <= B2R hi -> fin (fsub hi lo) ->
  fle d0 d = true -> flt d d1 = true ->
  fin (affineD lo hi d) /\ B2R lo <= B2R (affineD lo hi d) <= B2R hi.
Proof.
  intros Fl Fh L Fs D0 D1. destruct (unit_draw' d D0 D1) as (Fd & Ld).
  pose proof (fsub_fin_inv hi lo Fh Fl Fs) as Es.
  destruct (scaled_le (B2R lo) (B2R hi) (B2R d)) as (P0 & P1); [apply generic_format_B2R|apply generic_format_B2R|exact L|exact Ld|].
  pose proof (bpow_gt_0 radix2 (-53)) as B53.
  assert (S0 : 0 <= drnd (B2R hi - B2R lo)) by (apply drnd_ge0; lra).
  unfold affineD.
  destruct (fmul_fin 53 1024 _ _ (fsub hi lo) d Fs Fd) as (Fp & Ep).
  { rewrite Es, Rabs_pos_eq by exact P0. apply Rle_lt_trans with (drnd (B2R hi - B2R lo)).
    - apply (rnd_gen 53 1024 _); [apply generic_format_round; typeclasses eauto|]. nra.
    - rewrite <- Es. apply Rle_lt_trans with (Rabs (B2R (fsub hi lo))); [apply Rle_abs|apply dval_lt_emax]. }
  rewrite Es in Ep.
  set (p := drnd (drnd (B2R hi - B2R lo) * B2R d)) in *.
  assert (Lo : B2R lo <= drnd (p + B2R lo)) by (apply (rnd_bound_fl' 53 1024 _); lra).
  assert (Hi : drnd (p + B2R lo) <= B2R hi) by (apply (rnd_bound_fl 53 1024 _); lra).
  destruct (fadd_fin 53 1024 _ _ (fmul (fsub hi lo) d) lo Fp Fl) as (Fr & Er).
  { rewrite Ep. pose proof (dval_lt_emax lo) as A1. pose proof (dval_lt_emax hi) as A2.
    apply Rabs_lt_inv in A1. apply Rabs_lt_inv in A2. apply Rabs_lt. revert A1 A2. generalize (bpow radix2 1024). intros; lra. }
  split; [exact Fr|]. rewrite Er, Ep. split; assumption.
Qed.

Lemma fin_between (lo hi x : double) : fin lo -> fin hi -> fin x -> B2R lo <= B2R x <= B2R hi ->
  fle lo x = true /\ fle x hi = true.
Proof.
  intros Fl Fh Fx (A & B). split; apply fle_iff; try (apply fin_nonnan; assumption).
  - rewrite (fval_fin _ _ lo Fl), (fval_fin _ _ x Fx). exact A.
  - rewrite (fval_fin _ _ hi Fh), (fval_fin _ _ x Fx). exact B.
Qed.

Lemma randD_range_ok R lo hi g : rng_ok R -> fin lo -> fin hi -> fle lo hi = true -> fin (fsub hi lo) ->
  fin (fst (randD_range R lo hi g)) /\
  fle lo (fst (randD_range R lo hi g)) = true /\ fle (fst (randD_range R lo hi g)) hi = true.
Proof.
  intros (HR & _) Fl Fh L Fs. unfold randD_range. specialize (HR g). destruct (rand01 R g) as [d g']. cbn [fst] in *.
  apply fle_true in L. rewrite (fval_fin _ _ lo Fl), (fval_fin _ _ hi Fh) in L.
  destruct (affineD_range lo hi d Fl Fh (proj2 (proj2 L)) Fs (proj1 HR) (proj2 HR)) as (F & B).
  split; [exact F|]. apply fin_between; assumption.
Qed.

(** * LogisticChaos *)
Lemma miu_fin : fin miu. Proof. apply d_of_Z_exact. easy. Qed.
Lemma miu_val : B2R miu = 4. Proof. apply (d_of_Z_exact 4). easy. Qed.

Lemma in01_iff x : in01 x <-> fin x /\ 0 <= B2R x <= 1.
Proof.
  split.
  - intros (H1 & H2). apply fle_true in H1. apply fle_true in H2. destruct H1 as (_ & N & L1). destruct H2 as (_ & _ & L2).
    rewrite (fval_fin _ _ d1 d1_fin), d1_val in L2. rewrite (fval_fin _ _ d0 d0_fin), d0_val in L1.
    assert (F : fin x).
    { destruct x as [s|[|]| |s m e Hb]; try reflexivity; exfalso.
      - cbn [fval] in L1. pose proof (bpow_gt_0 radix2 1024) as HB. revert L1 HB. generalize (bpow radix2 1024). intros; lra.
      - cbn [fval] in L2. assert (HB : bpow radix2 1 <= bpow radix2 1024) by (apply bpow_le; easy).
        change (bpow radix2 1) with 2 in HB. revert L2 HB. generalize (bpow radix2 1024). intros; lra.
      - discriminate. }
    split; [exact F|]. rewrite (fval_fin _ _ x F) in *. lra.
  - intros (F & L1 & L2). apply (fin_between d0 d1 x); [exact d0_fin|exact d1_fin|exact F|]. rewrite d0_val, d1_val. lra.
Qed.

(** 1 - x is computed with relative error at most 2^-53. *)
Lemma one_minus (x : double) : in01 x ->
  fin (fsub d1 x) /\ B2R (fsub d1 x) = drnd (1 - B2R x) /\
  0 <= B2R (fsub d1 x) <= 1 /\ B2R (fsub d1 x) <= (1 - B2R x) * (1 + bpow radix2 (-53)).
Proof.
  intros H. apply in01_iff in H. destruct H as (F & L).
  assert (R0 : 0 <= drnd (1 - B2R x)) by (apply drnd_ge0; lra).
  assert (R1 : drnd (1 - B2R x) <= 1) by (apply drnd_le1; lra).
  destruct (fsub_fin 53 1024 _ _ d1 x d1_fin F) as (A & B).
  { rewrite d1_val, Rabs_pos_eq by exact R0. eapply Rle_lt_trans; [exact R1|]. change 1 with (bpow radix2 0). apply bpow_lt. easy. }
  rewrite d1_val in B. rewrite B. split; [exact A|]. split; [reflexivity|]. split; [lra|].
  destruct (Req_dec (B2R x) 1) as [E|NE].
  - rewrite E, Rminus_diag_eq by reflexivity. rewrite round_0 by typeclasses eauto. lra.
  - assert (P : B2R x <= pred radix2 dx 1).
    { apply pred_ge_gt; [apply vdx|apply generic_format_B2R| |lra]. change 1 with (bpow radix2 0). apply generic_format_bpow. easy. }
    replace (pred radix2 dx 1) with (1 - bpow radix2 (-53)) in P
      by (symmetry; change 1 with (bpow radix2 0) at 1; rewrite pred_bpow; reflexivity).
    assert (E : Rabs (drnd (1 - B2R x) - (1 - B2R x)) <= / 2 * bpow radix2 (- (53) + 1) * Rabs (1 - B2R x)).
    { apply (relative_error_N_FLT radix2 (-1074) 53 ltac:(easy) (fun z => negb (Z.even z))).
      change (-1074 + 53 - 1)%Z with (-1022)%Z. rewrite Rabs_pos_eq by lra.
      apply Rle_trans with (bpow radix2 (-53)); [apply bpow_le; easy|lra]. }
    rewrite (Rabs_pos_eq (1 - B2R x)) in E by lra.
    replace (/ 2 * bpow radix2 (- (53) + 1)) with (bpow radix2 (-53)) in E by (cbn; lra).
    apply Rabs_le_inv in E. nra.
Qed.

Lemma quad (x : R) : x * (1 - x) * 4 <= 1.
Proof. pose proof (Rle_0_sqr (2 * x - 1)) as H. unfold Rsqr in H. lra. Qed.

(** Scaling by 4 is exact on [0,1]. *)
Lemma scale4 (x : double) : in01 x -> fin (fmul miu x) /\ B2R (fmul miu x) = 4 * B2R x.
Proof.
  intros H. apply in01_iff in H. destruct H as (F & L).
  assert (G : generic_format radix2 dx (4 * B2R x)).
  { replace (4 * B2R x) with (B2R x * bpow radix2 2) by (cbn; lra).
    assert (Gx : generic_format radix2 (FLT_exp (-1074) 53) (B2R x)) by apply (generic_format_B2R 53 1024).
    apply FLT_format_generic in Gx; [|easy]. destruct Gx as [f E1 E2 E3].
    apply generic_format_FLT. exists (Float radix2 (Fnum f) (Fexp f + 2)).
    - rewrite E1. unfold F2R. cbn [Fnum Fexp]. rewrite bpow_plus. ring.
    - exact E2.
    - cbn [Fexp]. unfold SpecFloat.emin. lia. }
  assert (E : drnd (B2R miu * B2R x) = 4 * B2R x) by (rewrite miu_val; apply round_generic; [typeclasses eauto|exact G]).
  rewrite <- E. apply (fmul_fin 53 1024 _ _ miu x miu_fin F). rewrite E, Rabs_pos_eq by lra.
  apply Rle_lt_trans with (bpow radix2 2); [cbn; lra|]. apply bpow_lt. easy.
Qed.

Lemma chaos_value (x : double) : in01 x ->
  fin (chaos_next x) /\ B2R (chaos_next x) = drnd (B2R x * (4 * B2R (fsub d1 x))) /\ 0 <= B2R (chaos_next x) <= 1.
Proof.
  intros H. pose proof H as H0. apply in01_iff in H0. destruct H0 as (F & L).
  destruct (one_minus x H) as (F1 & E1 & B1 & R1).
  assert (I1 : in01 (fsub d1 x)) by (apply in01_iff; split; assumption).
  destruct (scale4 (fsub d1 x) I1) as (F2 & E2).
  pose proof (quad (B2R x)) as Q.
  assert (N0 : 0 <= B2R x * (4 * B2R (fsub d1 x))) by (apply Rmult_le_pos; lra).
  assert (Lp : drnd (B2R x * (4 * B2R (fsub d1 x))) <= 1).
  { apply round_N_le_midp; [apply vdx|change 1 with (bpow radix2 0); apply generic_format_bpow; easy|].
    assert (Su : succ radix2 dx 1 = 1 + bpow radix2 (-52)).
    { rewrite succ_eq_pos by lra. f_equal. change 1 with (bpow radix2 0). rewrite ulp_bpow. reflexivity. }
    rewrite Su. assert (EE : bpow radix2 (-52) = 2 * bpow radix2 (-53)) by (cbn; lra).
    pose proof (bpow_gt_0 radix2 (-53)) as P53. rewrite EE.
    destruct (Req_dec (B2R x) (/2)) as [Hh|Hh].
    { rewrite E1, Hh. replace (drnd (1 - / 2)) with (/2); [lra|]. symmetry. replace (1 - /2) with (bpow radix2 (-1)) by (cbn; lra).
      rewrite round_generic; [cbn; lra|typeclasses eauto|apply generic_format_bpow; easy]. }
    assert (Q' : B2R x * (1 - B2R x) * 4 < 1).
    { assert (0 < (2 * B2R x - 1) * (2 * B2R x - 1)) by (apply Rsqr_pos_lt; lra). lra. }
    apply Rle_lt_trans with (B2R x * (4 * ((1 - B2R x) * (1 + bpow radix2 (-53))))).
    - apply Rmult_le_compat_l; lra.
    - replace (B2R x * (4 * ((1 - B2R x) * (1 + bpow radix2 (-53))))) with (B2R x * (1 - B2R x) * 4 * (1 + bpow radix2 (-53))) by ring. nra. }
  destruct (fmul_fin 53 1024 _ _ x (fmul miu (fsub d1 x)) F F2) as (A & B).
  { rewrite E2, Rabs_pos_eq by (apply drnd_ge0, N0). eapply Rle_lt_trans; [exact Lp|]. change 1 with (bpow radix2 0). apply bpow_lt. easy. }
  unfold chaos_next. rewrite B, E2. split; [exact A|]. split; [reflexivity|]. split; [apply drnd_ge0, N0|exact Lp].
Qed.

Lemma chaos_in01 x : in01 x -> in01 (chaos_next x).
Proof. intros H. apply in01_iff. destruct (chaos_value x H) as (A & _ & B). split; assumption. Qed.

Lemma sign_nonneg_fin (x : double) : fin x -> 0 < B2R x -> Bsign x = false.
Proof.
  destruct x as [s|s| |s m e Hb]; intros F L; try discriminate; cbn in *.
  - lra.
  - destruct s; [|reflexivity]. exfalso. assert (F2R (Float radix2 (Z.neg m) e) < 0) by (apply F2R_lt_0; reflexivity). cbn in *. lra.
Qed.
Lemma Bsign_fmul (x y : double) : is_nan (fmul x y) = false -> Bsign (fmul x y) = xorb (Bsign x) (Bsign y).
Proof.
  intros N. destruct x as [sx|sx| |sx mx ex Hx], y as [sy|sy| |sy my ey Hy]; try discriminate; try reflexivity.
  pose proof (Bmult_correct 53 1024 _ _ mode_NE (B754_finite sx mx ex Hx) (B754_finite sy my ey Hy)) as C.
  destruct (Rlt_bool _ _).
  - destruct C as (_ & _ & C). apply C. exact N.
  - unfold fmul in *. cbn [Bsign] in C. revert C N. generalize (Bmult mode_NE (B754_finite sx mx ex Hx) (B754_finite sy my ey Hy)).
    intros r C N. cbn [Bsign]. destruct r; cbn in *; try discriminate; unfold binary_overflow in C; cbn in C; injection C; intros; subst; try reflexivity.
Qed.

(** Both ways of writing the step give the same double. *)
Lemma chaos_same (x : double) : in01 x -> chaos_seq_next x = chaos_next x.
Proof.
  intros H. pose proof H as H0. apply in01_iff in H0. destruct H0 as (F & L).
  destruct (one_minus x H) as (F1 & E1 & B1 & _).
  assert (I1 : in01 (fsub d1 x)) by (apply in01_iff; split; assumption).
  destruct (scale4 x H) as (F2 & E2). destruct (scale4 (fsub d1 x) I1) as (F3 & E3).
  destruct (chaos_value x H) as (A & B & C).
  destruct (fmul_fin 53 1024 _ _ (fmul miu x) (fsub d1 x) F2 F1) as (A' & B').
  { rewrite E2. replace (4 * B2R x * B2R (fsub d1 x)) with (B2R x * (4 * B2R (fsub d1 x))) by ring.
    rewrite <- B, Rabs_pos_eq by apply C. eapply Rle_lt_trans; [apply C|]. change 1 with (bpow radix2 0). apply bpow_lt. easy. }
  apply B2R_Bsign_inj; [exact A'|exact A| |].
  - unfold chaos_seq_next. rewrite B', B, E2. f_equal. ring.
  - unfold chaos_seq_next, chaos_next. rewrite !Bsign_fmul; try (apply fin_nonnan; assumption).
    destruct (Bsign miu), (Bsign x), (Bsign (fsub d1 x)); reflexivity.
Qed.

Lemma chaos_fill_same n : forall x, in01 x -> chaos_fill n x = map (fun k => chaos_iterate k x) (seq 1 n).
Proof.
  induction n as [|n IH]; intros x H; [reflexivity|]. cbn [chaos_fill seq map]. cbv zeta. rewrite chaos_same by exact H.
  cbn [chaos_iterate]. f_equal. rewrite IH by (apply chaos_in01, H). rewrite <- (seq_shift n 1), map_map. apply map_ext. intros k. reflexivity.
Qed.
Lemma chaos_make_same n x : in01 x ->
  chaos_makeSequence n x = (map (fun k => chaos_iterate k x) (seq 1 n), chaos_iterate n x).
Proof.
  intros H. destruct n as [|n]; [reflexivity|]. cbn [chaos_makeSequence]. cbv zeta.
  assert (E : chaos_next x :: chaos_fill n (chaos_next x) = map (fun k => chaos_iterate k x) (seq 1 (S n))).
  { cbn [seq map chaos_iterate]. f_equal. rewrite chaos_fill_same by (apply chaos_in01, H).
    rewrite <- (seq_shift n 1), map_map. apply map_ext. intros k. reflexivity. }
  rewrite E. f_equal. rewrite seq_S, map_app. cbn [map]. rewrite last_last. reflexivity.
Qed.
Lemma chaos_iterate_in01 n : forall x, in01 x -> in01 (chaos_iterate n x).
Proof. induction n as [|n IH]; intros x H; [exact H|]. apply IH, chaos_in01, H. Qed.

(** * Factorials and binomials *)
Open Scope Z_scope.
Lemma zfact_pos n : 1 <= zfact n.
Proof. induction n as [|n IH]; cbn [zfact]; [lia|]. nia. Qed.
Lemma fractorial_mod n : fractorial n = wrap64 (zfact n).
Proof.
  induction n as [|n IH]; [reflexivity|]. destruct n as [|n]; [reflexivity|].
  cbn [fractorial]. change (match n with O => 1 | S _ => wrap64 (Z.of_nat (S n) * fractorial n) end) with (fractorial (S n)).
  rewrite IH. cbn [zfact]. unfold wrap64. rewrite Zmult_mod_idemp_r. reflexivity.
Qed.
Lemma zfact_mono a b : (a <= b)%nat -> zfact a <= zfact b.
Proof. induction 1 as [|b H IH]; [lia|]. cbn [zfact]. pose proof (zfact_pos b). nia. Qed.
Lemma zfact_20 n : zfact n < two64 <-> (n <= 20)%nat.
Proof.
  split; intros H.
  - destruct (Nat.le_gt_cases n 20) as [L|L]; [exact L|exfalso].
    assert (A : zfact 21 <= zfact n) by (apply zfact_mono; lia).
    assert (B : two64 <= zfact 21) by (vm_compute; discriminate). lia.
  - apply Z.le_lt_trans with (zfact 20); [apply zfact_mono, H|reflexivity].
Qed.
Lemma binom_0 n k : (n < k)%nat -> binom n k = 0.
Proof.
  revert k. induction n as [|n IH]; intros [|k] H; cbn [binom]; try lia. rewrite !IH by lia. reflexivity.
Qed.
Lemma binom_fact n : forall k, (k <= n)%nat -> binom n k * zfact k * zfact (n - k) = zfact n.
Proof.
  induction n as [|n IH]; intros [|k] H.
  - reflexivity.
  - lia.
  - cbn [binom zfact Nat.sub]. lia.
  - cbn [binom]. rewrite Nat.sub_succ.
    assert (A := IH k ltac:(lia)). destruct (Nat.eq_dec k n) as [->|N].
    + rewrite (binom_0 n (S n)) by lia. rewrite Nat.sub_diag in *. cbn [zfact] in *. nia.
    + assert (B := IH (S k) ltac:(lia)). replace (n - k)%nat with (S (n - S k)) in * by lia.
      cbn [zfact] in *.
      replace (Z.of_nat (S n)) with (Z.of_nat (S k) + Z.of_nat (S (n - S k))) by lia.
      rewrite Z.mul_add_distr_r. transitivity (Z.of_nat (S k) * (binom n k * zfact k * (Z.of_nat (S (n - S k)) * zfact (n - S k))) +
        Z.of_nat (S (n - S k)) * (binom n (S k) * (Z.of_nat (S k) * zfact k) * zfact (n - S k))); [ring|].
      rewrite A, B. ring.
Qed.
Lemma binom_quot n k : (k <= n)%nat -> zfact n / (zfact k * zfact (n - k)) = binom n k.
Proof.
  intros H. symmetry. apply Z.div_unique_exact; [pose proof (zfact_pos k); pose proof (zfact_pos (n - k)); nia|].
  rewrite <- (binom_fact n k H). ring.
Qed.
Lemma binom_sym n k : (k <= n)%nat -> binom n (n - k) = binom n k.
Proof.
  intros H. rewrite <- (binom_quot n k H), <- (binom_quot n (n - k)) by lia.
  replace (n - (n - k))%nat with k by lia. rewrite (Z.mul_comm (zfact (n - k))). reflexivity.
Qed.

Lemma NchooseK_direct fuel n k : (n <= 20)%nat -> (2 * k <= n)%nat ->
  NchooseK fuel (Z.of_nat n) (Z.of_nat k) = Ok (binom n k).
Proof.
  intros Hn Hk.
  assert (E : forall f, NchooseK f (Z.of_nat n) (Z.of_nat k) =
     if Z.of_nat n <? wrap64 (Z.of_nat k * 2) then
       match f with O => Fuel | S f' => NchooseK f' (Z.of_nat n) (wrap64 (Z.of_nat n - Z.of_nat k)) end
     else let den := wrap64 (fractorial (Z.to_nat (Z.of_nat k)) * fractorial (Z.to_nat (wrap64 (Z.of_nat n - Z.of_nat k)))) in
       if den =? 0 then UB else Ok (fractorial (Z.to_nat (Z.of_nat n)) / den)) by (intros [|f]; reflexivity).
  rewrite E. rewrite wrap64_small by (unfold two64; lia).
  destruct (Z.ltb_spec (Z.of_nat n) (Z.of_nat k * 2)) as [L|L]; [lia|]. cbv zeta.
  rewrite (wrap64_small (Z.of_nat n - Z.of_nat k)) by (unfold two64; lia).
  replace (Z.of_nat n - Z.of_nat k) with (Z.of_nat (n - k)) by lia. rewrite !Nat2Z.id, !fractorial_mod.
  assert (Hz : forall m, (m <= 20)%nat -> wrap64 (zfact m) = zfact m).
  { intros m Hm. apply wrap64_small. split; [pose proof (zfact_pos m); lia|apply zfact_20, Hm]. }
  rewrite !Hz by lia.
  assert (D : zfact k * zfact (n - k) <= zfact n).
  { rewrite <- (binom_fact n k) by lia. pose proof (zfact_pos k). pose proof (zfact_pos (n - k)).
    assert (1 <= binom n k). { destruct (Z_le_gt_dec 1 (binom n k)) as [?|C]; [assumption|exfalso].
      pose proof (binom_fact n k ltac:(lia)) as B. pose proof (zfact_pos n).
      assert (0 < zfact k * zfact (n - k)) by nia. assert (binom n k * (zfact k * zfact (n - k)) <= 0) by nia. lia. }
    assert (0 < zfact k * zfact (n - k)) by nia. nia. }
  assert (P : 0 < zfact k * zfact (n - k)) by (pose proof (zfact_pos k); pose proof (zfact_pos (n - k)); nia).
  assert (T : zfact n < two64) by (apply zfact_20, Hn).
  rewrite (wrap64_small (zfact k * zfact (n - k))) by lia.
  destruct (Z.eqb_spec (zfact k * zfact (n - k)) 0); [lia|]. f_equal. apply binom_quot. lia.
Qed.
Lemma NchooseK_exact n k : (n <= 20)%nat -> (k <= n)%nat ->
  NchooseK 1 (Z.of_nat n) (Z.of_nat k) = Ok (binom n k).
Proof.
  intros Hn Hk. destruct (Nat.le_gt_cases (2 * k) n) as [L|L]; [apply NchooseK_direct; assumption|].
  change (NchooseK 1 (Z.of_nat n) (Z.of_nat k)) with
    (if Z.of_nat n <? wrap64 (Z.of_nat k * 2) then NchooseK 0 (Z.of_nat n) (wrap64 (Z.of_nat n - Z.of_nat k))
     else let den := wrap64 (fractorial (Z.to_nat (Z.of_nat k)) * fractorial (Z.to_nat (wrap64 (Z.of_nat n - Z.of_nat k)))) in
       if den =? 0 then UB else Ok (fractorial (Z.to_nat (Z.of_nat n)) / den)).
  rewrite (wrap64_small (Z.of_nat k * 2)) by (unfold two64; lia).
  destruct (Z.ltb_spec (Z.of_nat n) (Z.of_nat k * 2)) as [L'|L']; [|lia].
  rewrite wrap64_small by (unfold two64; lia). replace (Z.of_nat n - Z.of_nat k) with (Z.of_nat (n - k)) by lia.
  rewrite <- (binom_sym n k Hk). apply (NchooseK_direct 0); lia.
Qed.
Lemma NchooseK_loops fuel : forall N K, 0 <= N < K -> 2 * K < two64 ->
  NchooseK fuel N K = Fuel /\ NchooseK fuel N (wrap64 (N - K)) = Fuel.
Proof.
  intros N K H1 H2.
  assert (W : wrap64 (N - K) = N - K + two64).
  { unfold wrap64. symmetry. apply (Z.mod_unique _ _ (-1)); unfold two64 in *; lia. }
  assert (C1 : N <? wrap64 (K * 2) = true) by (apply Z.ltb_lt; rewrite wrap64_small; lia).
  assert (C2 : N <? wrap64 (wrap64 (N - K) * 2) = true).
  { apply Z.ltb_lt. rewrite W.
    replace (wrap64 ((N - K + two64) * 2)) with (2 * (N - K) + two64); [lia|].
    unfold wrap64. apply (Z.mod_unique _ _ 1); unfold two64 in *; lia. }
  assert (W2 : wrap64 (N - wrap64 (N - K)) = K).
  { rewrite W. unfold wrap64. symmetry. apply (Z.mod_unique _ _ (-1)); unfold two64 in *; lia. }
  induction fuel as [|fuel (IH1 & IH2)]; cbn [NchooseK]; rewrite C1, C2; [split; reflexivity|].
  split; [exact IH2|]. rewrite W2. exact IH1.
Qed.

(** * min, max *)
Section MM.
Context {T : Type} (ge le : T -> T -> bool) (ok : T -> Prop).
Context (tot : forall a b, ok a -> ok b -> le a b = true \/ le b a = true)
        (tr : forall a b c, le a b = true -> le b c = true -> le a c = true)
        (gele : forall a b, ge a b = le b a).
Lemma min_fold args : forall a, ok a -> Forall ok args ->
  let r := fold_left (imp_min2 ge) args a in
  In r (a :: args) /\ ok r /\ le r a = true /\ forall x, In x args -> le r x = true.
Proof.
  induction args as [|b args IH]; intros a Ha Hargs; cbn [fold_left].
  - split; [left; reflexivity|]. split; [exact Ha|]. split; [destruct (tot a a Ha Ha); assumption|contradiction].
  - inversion Hargs as [|? ? Hb Hr]; subst. specialize (IH (imp_min2 ge a b)).
    assert (Hm : ok (imp_min2 ge a b)) by (unfold imp_min2; destruct (ge a b); assumption).
    destruct (IH Hm Hr) as (I & O & L & A). cbv zeta.
    assert (La : le (imp_min2 ge a b) a = true /\ le (imp_min2 ge a b) b = true).
    { unfold imp_min2. destruct (ge a b) eqn:E; rewrite gele in E.
      - split; [exact E|destruct (tot b b Hb Hb); assumption].
      - split; [destruct (tot a a Ha Ha); assumption|]. destruct (tot a b Ha Hb); [assumption|congruence]. }
    split; [|split; [exact O|split]].
    + destruct I as [I|I]; [|right; right; exact I]. rewrite <- I. unfold imp_min2. destruct (ge a b); cbn; auto.
    + eapply tr; [exact L|apply La].
    + intros x [<-|Hx]; [eapply tr; [exact L|apply La]|apply A, Hx].
Qed.
Lemma max_fold args : forall a, ok a -> Forall ok args ->
  let r := fold_left (imp_max2 le) args a in
  In r (a :: args) /\ ok r /\ le a r = true /\ forall x, In x args -> le x r = true.
Proof.
  induction args as [|b args IH]; intros a Ha Hargs; cbn [fold_left].
  - split; [left; reflexivity|]. split; [exact Ha|]. split; [destruct (tot a a Ha Ha); assumption|contradiction].
  - inversion Hargs as [|? ? Hb Hr]; subst. specialize (IH (imp_max2 le a b)).
    assert (Hm : ok (imp_max2 le a b)) by (unfold imp_max2; destruct (le a b); assumption).
    destruct (IH Hm Hr) as (I & O & L & A). cbv zeta.
    assert (La : le a (imp_max2 le a b) = true /\ le b (imp_max2 le a b) = true).
    { unfold imp_max2. destruct (le a b) eqn:E.
      - split; [exact E|destruct (tot b b Hb Hb); assumption].
      - split; [destruct (tot a a Ha Ha); assumption|]. destruct (tot a b Ha Hb); [congruence|assumption]. }
    split; [|split; [exact O|split]].
    + destruct I as [I|I]; [|right; right; exact I]. rewrite <- I. unfold imp_max2. destruct (le a b); cbn; auto.
    + eapply tr; [apply La|exact L].
    + intros x [<-|Hx]; [eapply tr; [apply La|exact L]|apply A, Hx].
Qed.
End MM.

Lemma minmax_min_spec vs : forall v, In (minmax_min v vs) (v :: vs) /\ forall x, In x (v :: vs) -> minmax_min v vs <= x.
Proof.
  induction vs as [|w vs IH]; intros v.
  - cbn. split; [auto|]. intros x [<-|[]]. lia.
  - destruct vs as [|u vs].
    + cbn. destruct (Z.ltb_spec w v); (split; [auto|]); intros x [<-|[<-|[]]]; lia.
    + change (minmax_min v (w :: u :: vs)) with (if v <? minmax_min w (u :: vs) then v else minmax_min w (u :: vs)).
      destruct (IH w) as (I & L). destruct (Z.ltb_spec v (minmax_min w (u :: vs))) as [H|H].
      * split; [left; reflexivity|]. intros x [<-|Hx]; [lia|]. specialize (L x Hx). lia.
      * split; [right; exact I|]. intros x [<-|Hx]; [lia|]. exact (L x Hx).
Qed.
Lemma minmax_max_spec vs : forall v, In (minmax_max v vs) (v :: vs) /\ forall x, In x (v :: vs) -> x <= minmax_max v vs.
Proof.
  induction vs as [|w vs IH]; intros v.
  - cbn. split; [auto|]. intros x [<-|[]]. lia.
  - destruct vs as [|u vs].
    + cbn. destruct (Z.ltb_spec v w); (split; [auto|]); intros x [<-|[<-|[]]]; lia.
    + change (minmax_max v (w :: u :: vs)) with (if minmax_max w (u :: vs) <? v then v else minmax_max w (u :: vs)).
      destruct (IH w) as (I & L). destruct (Z.ltb_spec (minmax_max w (u :: vs)) v) as [H|H].
      * split; [left; reflexivity|]. intros x [<-|Hx]; [lia|]. specialize (L x Hx). lia.
      * split; [right; exact I|]. intros x [<-|Hx]; [lia|]. exact (L x Hx).
Qed.
