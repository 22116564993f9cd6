(** The shares of 50 electrons among at most 5 layers, for any exp and any
    summation order that are right to within a thousandth. *)
From Coq Require Import List Arith ZArith Bool Reals Lia Lra Permutation.
From Flocq Require Import Core BinarySingleNaN.
From Verif Require Import Base Fl FlFacts Rng StdOps Box BlendProofs AOS AOSSpec ProgAOSSpec.
Import ListNotations.
Open Scope R_scope.

(** * Real exponentials *)
Lemma exp_pow (n : nat) y : exp (INR n * y) = exp y ^ n.
Proof. induction n as [|n IH]; [rewrite Rmult_0_l, exp_0; reflexivity|]. rewrite S_INR, Rmult_plus_distr_r, Rmult_1_l, exp_plus, IH. cbn [pow]. ring. Qed.
Definition D64 : Z := (65536 ^ 64)%Z.
Definition lower (k : Z) : Z := ((65536 - k) ^ 64 * 2 ^ 30 / D64)%Z.
Definition upper (k : Z) : Z := (D64 * 2 ^ 30 / (65536 + k) ^ 64 + 1)%Z.
Lemma ge_1 x : 1 + x <= exp x.
Proof. destruct (Req_dec x 0) as [-> |N]; [rewrite exp_0; lra|]. left. apply exp_ineq1, N. Qed.
Lemma scaled k : exp (- (IZR k / 1024)) = exp (- (IZR k / 65536)) ^ 64.
Proof. rewrite <- exp_pow. f_equal. rewrite INR_IZR_INZ. change (Z.of_nat 64) with 64%Z. lra. Qed.
Lemma ratio_pow (a : Z) (n : nat) : (IZR a / 65536) ^ n = IZR (a ^ Z.of_nat n) / IZR (65536 ^ Z.of_nat n).
Proof. unfold Rdiv. rewrite Rpow_mult_distr, pow_IZR, pow_inv, pow_IZR. reflexivity. Qed.
(** A quotient of integers, rounded down or up. *)
Lemma quot_lower (N M : Z) : (0 < M)%Z -> IZR (N * 2 ^ 30 / M) / 1073741824 <= IZR N / IZR M.
Proof.
  intros HM. pose proof (IZR_lt _ _ HM) as MP. pose proof (IZR_le _ _ (Z.mul_div_le (N * 2 ^ 30) M HM)) as Q. rewrite !mult_IZR in Q. change (IZR (2 ^ 30)) with 1073741824 in Q.
  generalize dependent (IZR (N * 2 ^ 30 / M)). generalize dependent (IZR M). generalize (IZR N). intros n m MP q Q. apply Rmult_le_reg_r with m; [exact MP|]. unfold Rdiv. rewrite (Rmult_assoc n), Rinv_l by lra. lra.
Qed.
Lemma quot_upper (N M : Z) : (0 < M)%Z -> IZR N / IZR M <= IZR (N * 2 ^ 30 / M + 1) / 1073741824.
Proof.
  intros HM. pose proof (IZR_lt _ _ HM) as MP. pose proof (IZR_lt _ _ (Z.mul_succ_div_gt (N * 2 ^ 30) M HM)) as Q. unfold Z.succ in Q. rewrite !mult_IZR in Q. change (IZR (2 ^ 30)) with 1073741824 in Q.
  generalize dependent (IZR (N * 2 ^ 30 / M + 1)). generalize dependent (IZR M). generalize (IZR N). intros n m MP q Q. apply Rmult_le_reg_r with m; [exact MP|]. unfold Rdiv. rewrite (Rmult_assoc n), Rinv_l by lra. lra.
Qed.
Lemma exp_lower k : (0 <= k <= 65536)%Z -> IZR (lower k) / 1073741824 <= exp (- (IZR k / 1024)).
Proof.
  intros Hk. rewrite scaled. apply Rle_trans with ((IZR (65536 - k) / 65536) ^ 64).
  - rewrite (ratio_pow _ 64). apply (quot_lower ((65536 - k) ^ 64) D64). reflexivity.
  - apply pow_incr. rewrite minus_IZR. assert (0 <= IZR k <= 65536) by (split; apply IZR_le; lia). split; [lra|].
    apply Rle_trans with (1 + - (IZR k / 65536)); [lra|apply ge_1].
Qed.
Lemma exp_upper k : (0 <= k <= 65536)%Z -> exp (- (IZR k / 1024)) <= IZR (upper k) / 1073741824.
Proof.
  intros Hk. assert (B : 0 <= IZR k <= 65536) by (split; apply IZR_le; lia). rewrite exp_Ropp.
  assert (Q : (IZR (65536 + k) / 65536) ^ 64 <= exp (IZR k / 1024)).
  { replace (IZR k / 1024) with (INR 64 * (IZR k / 65536)) by (rewrite INR_IZR_INZ; change (Z.of_nat 64) with 64%Z; lra). rewrite exp_pow. apply pow_incr. rewrite plus_IZR. split; [lra|].
    apply Rle_trans with (1 + IZR k / 65536); [lra|apply ge_1]. }
  rewrite (ratio_pow _ 64) in Q. 
  assert (MP : (0 < (65536 + k) ^ Z.of_nat 64)%Z) by (apply Z.pow_pos_nonneg; lia). assert (DP : (0 < 65536 ^ Z.of_nat 64)%Z) by reflexivity.
  apply Rle_trans with (2 := quot_upper D64 ((65536 + k) ^ 64) MP).
  change D64 with (65536 ^ Z.of_nat 64)%Z. change ((65536 + k) ^ 64)%Z with ((65536 + k) ^ Z.of_nat 64)%Z.
  revert Q MP DP. generalize ((65536 + k) ^ Z.of_nat 64)%Z as M, (65536 ^ Z.of_nat 64)%Z as D. intros M D Q MP DP. apply IZR_lt in MP, DP.
  apply Rle_trans with (/ (IZR M / IZR D)); [|right; field; lra]. apply Rinv_le; [|exact Q]. apply Rmult_lt_0_compat; [exact MP|apply Rinv_0_lt_compat, DP].
Qed.
Lemma exp_between x j k : (0 <= j <= 65536)%Z -> (0 <= k <= 65536)%Z -> - (IZR k / 1024) <= x <= - (IZR j / 1024) ->
  IZR (lower k) / 1073741824 <= exp x <= IZR (upper j) / 1073741824.
Proof.
  intros Hj Hk (A & B). split.
  - apply Rle_trans with (1 := exp_lower k Hk). destruct A as [A| <-]; [left; apply exp_increasing, A|right; reflexivity].
  - apply Rle_trans with (2 := exp_upper j Hj). destruct B as [B| ->]; [left; apply exp_increasing, B|right; reflexivity].
Qed.

(** * Rounding between dyadic numbers *)
Definition dy (m e : Z) : R := IZR m * bpow radix2 e.
Lemma round_between (lo hi : double) y : B2R lo <= y <= B2R hi -> B2R lo <= drnd y <= B2R hi.
Proof.
  intros (A & B). rewrite <- (drnd_id lo), <- (drnd_id hi). split; apply round_le; try typeclasses eauto; assumption.
Qed.
Lemma abs_between (lo hi : double) y : B2R lo <= y <= B2R hi -> Rabs y < bpow radix2 1024.
Proof.
  intros (A & B). pose proof (abs_B2R_lt_emax 53 1024 lo) as L1. pose proof (abs_B2R_lt_emax 53 1024 hi) as L2.
  apply Rabs_lt_inv in L1. apply Rabs_lt_inv in L2. apply Rabs_lt. lra.
Qed.
Lemma fmul_between (x y lo hi : double) : fin x -> fin y -> B2R lo <= B2R x * B2R y <= B2R hi ->
  fin (fmul x y) /\ B2R lo <= B2R (fmul x y) <= B2R hi.
Proof.
  intros Fx Fy H. pose proof (round_between lo hi _ H) as Q. pose proof (abs_between lo hi _ Q) as A.
  pose proof (Bmult_correct 53 1024 _ _ mode_NE x y) as C. cbn [round_mode] in C. rewrite Rlt_bool_true in C by exact A.
  destruct C as (V & F & _). unfold fmul. rewrite V. split; [|exact Q]. unfold fin. rewrite F. unfold fin in Fx, Fy. rewrite Fx, Fy. reflexivity.
Qed.
Lemma fdiv_between (x y lo hi : double) : fin x -> fin y -> 0 < B2R y -> B2R lo * B2R y <= B2R x <= B2R hi * B2R y ->
  fin (fdiv x y) /\ B2R lo <= B2R (fdiv x y) <= B2R hi.
Proof.
  intros Fx Fy Py H.
  assert (K : B2R lo <= B2R x / B2R y <= B2R hi).
  { split; apply Rmult_le_reg_r with (B2R y); try exact Py; unfold Rdiv; rewrite Rmult_assoc, Rinv_l by lra; lra. }
  pose proof (round_between lo hi _ K) as Q. pose proof (abs_between lo hi _ Q) as A.
  pose proof (Bdiv_correct 53 1024 _ _ mode_NE x y ltac:(lra)) as C. cbn [round_mode] in C. rewrite Rlt_bool_true in C by exact A.
  destruct C as (V & F & _). unfold fdiv. rewrite V. split; [|exact Q]. unfold fin. rewrite F. exact Fx.
Qed.
Definition gr (m : Z) : double := fofZ m (-40).
Lemma gr_val m : (Z.abs m <= 9007199254740992)%Z -> fin (gr m) /\ B2R (gr m) = IZR m / 1099511627776.
Proof.
  intros H. destruct (@fofZ_exact 53 1024 _ _ m (-40)) as (F & V); [exact H|easy|easy|]. split; [exact F|]. unfold gr. rewrite V. reflexivity.
Qed.
(** x is a finite number between m / 2^40 and n / 2^40. *)
Definition inr (x : double) (m n : Z) : Prop := fin x /\ IZR m / 1099511627776 <= B2R x <= IZR n / 1099511627776.
Lemma fmul_inr (x y : double) m n : (Z.abs m <= 9007199254740992)%Z -> (Z.abs n <= 9007199254740992)%Z -> fin x -> fin y ->
  IZR m / 1099511627776 <= B2R x * B2R y <= IZR n / 1099511627776 -> inr (fmul x y) m n.
Proof.
  intros Hm Hn Fx Fy H. destruct (gr_val m Hm) as (_ & Vm). destruct (gr_val n Hn) as (_ & Vn). unfold inr. rewrite <- Vm, <- Vn in *. apply fmul_between; assumption.
Qed.
Lemma fdiv_inr (x y : double) m n : (Z.abs m <= 9007199254740992)%Z -> (Z.abs n <= 9007199254740992)%Z -> fin x -> fin y -> 0 < B2R y ->
  IZR m / 1099511627776 * B2R y <= B2R x <= IZR n / 1099511627776 * B2R y -> inr (fdiv x y) m n.
Proof.
  intros Hm Hn Fx Fy Py H. destruct (gr_val m Hm) as (_ & Vm). destruct (gr_val n Hn) as (_ & Vn). unfold inr. rewrite <- Vm, <- Vn in *. apply fdiv_between; assumption.
Qed.
(** Bounds of a concrete number, by computation. *)
Lemma inr_test (x : double) m n : (Z.abs m <= 9007199254740992)%Z -> (Z.abs n <= 9007199254740992)%Z -> fle (gr m) x = true -> fle x (gr n) = true -> inr x m n.
Proof.
  intros Hm Hn A B. destruct (gr_val m Hm) as (Fm & Vm). destruct (gr_val n Hn) as (Fn & Vn). pose proof (between_fin _ _ x Fm Fn A B) as Fx.
  apply fle_true in A. apply fle_true in B. destruct A as (_ & _ & A), B as (_ & _ & B). rewrite (fval_fin _ _ _ Fm), (fval_fin _ _ _ Fx) in A. rewrite (fval_fin _ _ _ Fn), (fval_fin _ _ _ Fx) in B.
  rewrite Vm in A. rewrite Vn in B. split; [exact Fx|lra].
Qed.

(** * Rounding to an integer *)
Lemma round_int_ok (x : double) : fin x -> 0 <= B2R x <= 50.5 ->
  exists k, round_int x = Ok k /\ (0 <= k <= 51)%Z /\ forall j : Z, IZR j - / 2 <= B2R x -> (j <= k)%Z.
Proof.
  intros F H. pose proof (Bnearbyint_correct 53 1024 _ mode_NA x) as (V & Fn & _). cbn [round_mode] in V.
  pose proof (Btrunc_correct 53 1024 _ (Bnearbyint mode_NA x)) as T. rewrite V in T. rewrite round_FIX_IZR in T.
  assert (E0 : round radix2 (FIX_exp 0) (Znearest (Zle_bool 0)) (B2R x) = IZR (Znearest (Zle_bool 0) (B2R x))).
  { unfold round, scaled_mantissa, cexp, FIX_exp, F2R. cbn [Fnum Fexp Z.opp bpow]. rewrite Rmult_1_r, Rmult_1_r. reflexivity. }
  rewrite E0 in T. rewrite Ztrunc_IZR in T. apply eq_IZR in T. set (k := Znearest (Zle_bool 0) (B2R x)) in *.
  assert (K : (0 <= k <= 51)%Z /\ forall j : Z, IZR j - / 2 <= B2R x -> (j <= k)%Z).
  { assert (C : forall j : Z, IZR j - / 2 <= B2R x -> (j <= k)%Z).
    { intros j Hj. destruct (Z_lt_le_dec k j) as [L|L]; [|exact L]. exfalso. 
      pose proof (Znearest_half (Zle_bool 0) (B2R x)) as Hh. fold k in Hh. apply Rabs_le_inv in Hh.
      assert (IZR k + 1 <= IZR j) by (rewrite <- (plus_IZR k 1); apply IZR_le; lia).
      assert (B2R x - IZR k = / 2) by lra. assert (IZR j = IZR k + 1) by lra.
      assert (j = k + 1)%Z by (apply eq_IZR; rewrite plus_IZR; lra). subst j.
      assert (Hx : B2R x = IZR k + / 2) by lra. assert (Kp : (0 <= k)%Z). { apply le_IZR. destruct (Z_lt_le_dec k 0) as [N|N]; [|apply IZR_le, N]. assert (IZR k <= -1) by (apply IZR_le; lia). lra. }
      unfold k, Znearest in Kp, Hx |- *. 
      assert (Fk : Zfloor (B2R x) = k) by (apply Zfloor_imp; rewrite plus_IZR; lra).
      assert (Q : Znearest (Zle_bool 0) (B2R x) = (k + 1)%Z).
      { unfold Znearest. rewrite Fk. rewrite Rcompare_Eq by lra. rewrite (Zle_bool_true 0 k) by (subst k; exact Kp). rewrite Zceil_floor_neq; [rewrite Fk; reflexivity|]. rewrite Fk. lra. }
      fold k in Q. lia. }
    split; [|exact C]. split; [apply C; lra|].
    pose proof (Znearest_half (Zle_bool 0) (B2R x)) as Hh. fold k in Hh. apply Rabs_le_inv in Hh. apply le_IZR. lra. }
  exists k. split; [|exact K]. unfold round_int. rewrite F, T. destruct K as (K & _).
  rewrite (proj2 (Z.leb_le _ _)) by lia. rewrite (proj2 (Z.ltb_lt _ _)) by lia. reflexivity.
Qed.

(** * One share of 50 *)
Lemma share_fine (w S : double) (q : Z) : fin w -> fin S -> 0 < B2R S -> (0 <= q <= 1048576)%Z -> IZR q / 1048576 * B2R S <= B2R w <= 1.005 * B2R S ->
  exists k, round_int (fmul (fdiv w S) (d_of_Z 50)) = Ok k /\ (0 <= k <= 51)%Z /\ forall j : Z, IZR j - / 2 <= 50 * (IZR q / 1048576) -> (j <= k)%Z.
Proof.
  intros Fw FS PS Hq H. assert (Q0 : 0 <= IZR q) by (apply IZR_le; lia).
  assert (D : inr (fdiv w S) (q * 1048576) (1110506744053)).
  { apply fdiv_inr; [lia|lia|exact Fw|exact FS|exact PS|]. rewrite mult_IZR. split; lra. }
  destruct D as (Fd & D). rewrite mult_IZR in D. destruct (d_of_Z_exact 50 ltac:(lia)) as (F50 & V50).
  assert (M : inr (fmul (fdiv w S) (d_of_Z 50)) (50 * (q * 1048576)) 55525337202688).
  { apply fmul_inr; [lia|lia|exact Fd|exact F50|]. rewrite V50, !mult_IZR. split; lra. }
  destruct M as (Fm & M). rewrite !mult_IZR in M.
  destruct (round_int_ok (fmul (fdiv w S) (d_of_Z 50)) Fm) as (k & Ek & K & J); [split; lra|].
  exists k. split; [exact Ek|]. split; [exact K|]. intros j Hj. apply J. lra.
Qed.

Section Fit.
Context {R : rng_ops} (E : env R) (HE : exp_fair (libm_exp E)) (HS : sum_fair (vsum E)).
Definition weight (t : Z) (i : nat) : double := gaussianCurve (libm_exp E) (d_of_Z (Z.of_nat i + 1)) d0 (fdiv (d_of_Z t) (d_of_Z 6)).
Definition height (t : Z) : double :=
  fdiv d1 (fmul (fdiv (d_of_Z t) (d_of_Z 6)) (Bsqrt mode_NE (fmul (d_of_Z 2) (fofZ 7074237752028440 (-51))))).
Definition place (t : Z) (i : nat) : double :=
  fdiv (fopp (fmul (fsub (d_of_Z (Z.of_nat i + 1)) d0) (fsub (d_of_Z (Z.of_nat i + 1)) d0))) (fmul (d_of_Z 2) (fmul (fdiv (d_of_Z t) (d_of_Z 6)) (fdiv (d_of_Z t) (d_of_Z 6)))).
Lemma weight_at t i : weight t i = fmul (height t) (libm_exp E (place t i)).
Proof. reflexivity. Qed.

(** A weight: the height is between c / 2^40 and (c + 1) / 2^40, the place between
    -k / 1024 and -j / 1024. *)
Lemma weight_in t i c j k m n : inr (height t) c (c + 1) -> inr (place t i) (- (k * 1073741824)) (- (j * 1073741824)) ->
  (0 <= j <= 20480)%Z -> (0 <= k <= 20480)%Z -> (0 <= c <= 5497558138880)%Z ->
  (0 <= m)%Z -> (n <= 9007199254740992)%Z ->
  (m * 1000 * 2 ^ 30 <= c * lower k * 999)%Z -> ((c + 1) * upper j * 1001 <= n * 1000 * 2 ^ 30)%Z -> inr (weight t i) m n.
Proof using HE.
  intros (Fh & Hh) (Fp & Hp) Hj Hk Hc Hm Hn Lo Up. rewrite weight_at. rewrite !opp_IZR, !mult_IZR in Hp.
  assert (0 <= IZR j <= 20480) by (split; apply IZR_le; lia). assert (0 <= IZR k <= 20480) by (split; apply IZR_le; lia).
  destruct (HE (place t i) Fp ltac:(lra)) as (Fe & He). apply Rabs_le_inv in He.
  pose proof (exp_between (B2R (place t i)) j k ltac:(lia) ltac:(lia) ltac:(lra)) as X.
  assert (L0 : 0 <= IZR (lower k)) by (apply IZR_le; unfold lower, D64; apply Z.div_pos; [|lia]; apply Z.mul_nonneg_nonneg; [apply Z.pow_nonneg; lia|lia]).
  assert (U0 : 0 <= IZR (upper j)).
  { apply IZR_le. unfold upper, D64. assert (0 <= 65536 ^ 64 * 2 ^ 30 / (65536 + j) ^ 64)%Z; [|lia]. apply Z.div_pos; [lia|apply Z.pow_pos_nonneg; lia]. }
  apply IZR_le in Lo, Up. rewrite !mult_IZR in Lo, Up. rewrite plus_IZR in Up, Hh. change (IZR (2 ^ 30)) with 1073741824 in *.
  assert (C0 : 0 <= IZR c) by (apply IZR_le; lia).
  set (l := IZR (lower k)) in *. set (u := IZR (upper j)) in *. set (x := B2R (libm_exp E (place t i))) in *. set (h := B2R (height t)) in *. set (ex := exp (B2R (place t i))) in *.
  assert (X1 : l / 1073741824 * (999 / 1000) <= x <= u / 1073741824 * (1001 / 1000)) by lra.
  assert (Hn0 : (0 <= n)%Z).
  { apply le_IZR. assert (0 <= (IZR c + 1) * u * 1001). { apply Rmult_le_pos; [|lra]. apply Rmult_le_pos; lra. } lra. }
  assert (Mn : (m <= n)%Z).
  { apply le_IZR. assert (IZR c * l * 999 <= (IZR c + 1) * u * 1001); [|lra].
    assert (l <= u) by lra. assert (IZR c * l <= (IZR c + 1) * u) by (apply Rmult_le_compat; lra).
    assert (0 <= IZR c * l) by (apply Rmult_le_pos; lra). lra. }
  apply fmul_inr; [lia|lia|exact Fh|exact Fe|]. fold h x. split.
  - apply Rle_trans with (IZR c / 1099511627776 * (l / 1073741824 * (999 / 1000))); [lra|]. apply Rmult_le_compat; lra.
  - apply Rle_trans with ((IZR c + 1) / 1099511627776 * (u / 1073741824 * (1001 / 1000))); [|lra]. apply Rmult_le_compat; lra.
Qed.

(** The only layer of one: all weights are positive. *)
Lemma one_weight : inr (weight 1 0) 1 1099511627776.
Proof using HE.
  assert (Hh : inr (height 1) 2631850056677 2631850056678) by (apply inr_test; [lia|lia|vm_compute; reflexivity|vm_compute; reflexivity]).
  assert (Hp : inr (place 1 0) (- (18433 * 1073741824)) (- (18431 * 1073741824))) by (apply inr_test; [lia|lia|vm_compute; reflexivity|vm_compute; reflexivity]).
  destruct Hh as (Fh & Hh). destruct Hp as (Fp & Hp). rewrite weight_at. rewrite !opp_IZR, !mult_IZR in Hp. 
  destruct (HE (place 1 0) Fp ltac:(lra)) as (Fe & He). apply Rabs_le_inv in He.
  set (x := B2R (libm_exp E (place 1 0))) in *. set (h := B2R (height 1)) in *. set (p := B2R (place 1 0)) in *.
  assert (X : 1 / 3 ^ 19 <= exp p <= 1 / 100).
  { split.
    - apply Rle_trans with (exp (- (19))); [|left; apply exp_increasing; lra]. rewrite exp_Ropp. unfold Rdiv. rewrite Rmult_1_l. apply Rinv_le; [apply exp_pos|].
      replace 19 with (INR 19 * 1) by (cbn [INR]; lra). rewrite exp_pow. apply pow_incr. split; [left; apply exp_pos|apply exp_le_3].
    - pose proof (exp_between p 18431 18433 ltac:(lia) ltac:(lia) ltac:(lra)) as (_ & U). replace (upper 18431) with 139%Z in U by (vm_compute; reflexivity). lra. }
  assert (X1 : 1 / 3 ^ 19 * (999 / 1000) <= x <= 1 / 50) by lra.
  assert (P3 : 3 ^ 19 = 1162261467) by (cbn; lra). rewrite P3 in X1.
  apply fmul_inr; [lia|lia|exact Fh|exact Fe|]. fold h x. split.
  - apply Rle_trans with (2 * (1 / 1162261467 * (999 / 1000))); [lra|]. apply Rmult_le_compat; lra.
  - apply Rle_trans with (3 * (1 / 50)); [|lra]. apply Rmult_le_compat; lra.
Qed.

Lemma sum_in (l : list double) : (length l <= 5)%nat -> (forall x, In x l -> fin x /\ 0 <= B2R x <= 10) -> 0 < real_sum l ->
  fin (vsum E l) /\ 999 / 1000 * real_sum l <= B2R (vsum E l) <= 1001 / 1000 * real_sum l /\ 0 < B2R (vsum E l).
Proof using HS. intros H1 H2 P. destruct (HS l H1 H2) as (F & A). apply Rabs_le_inv in A. split; [exact F|]. lra. Qed.
Lemma real_sum_cons x l : real_sum (x :: l) = B2R x + real_sum l.
Proof. reflexivity. Qed.
Lemma fits_1 : fits E 1 50.
Proof using HE HS.
  pose proof one_weight as (F0 & W0).
  unfold fits, shares. change (map _ (seq 0 (Z.to_nat 1))) with (map (fun w => fmul (fdiv w (vsum E [weight 1 0])) (d_of_Z 50)) [weight 1 0]).
  assert (SS : fin (vsum E [weight 1 0]) /\ 999 / 1000 * real_sum [weight 1 0] <= B2R (vsum E [weight 1 0]) <= 1001 / 1000 * real_sum [weight 1 0] /\ 0 < B2R (vsum E [weight 1 0])).
  { apply sum_in; [cbn; lia| |rewrite !real_sum_cons; cbn [real_sum map fold_right]; lra]. intros x [<- |[]]; (split; [assumption|lra]). }
  rewrite !real_sum_cons in SS. unfold real_sum in SS. cbn [map fold_right] in SS.
  revert F0 W0 SS. generalize (weight 1 0) as w0. intros w0 F0 W0 (FS & SB & SP).
  revert FS SB SP. generalize (vsum E [w0]) as S. intros S FS SB SP. cbn [map].
  destruct (share_fine w0 S 1038091 F0 FS SP ltac:(lia)) as (k0 & E0 & K0 & J0); [lra|].
  specialize (J0 50%Z ltac:(lra)).
  exists [k0]%Z. split; [repeat (constructor; [assumption|]); constructor|]. clear - K0 J0.
  split; [intros k [<- |[]]; lia|]. split.
  { intros i. unfold total_upto. destruct i as [|i]; [cbn; lia|]. rewrite firstn_all2 by (cbn [length]; lia). cbn; lia. }
  split; [cbn; lia|]. split; [lia|]. cbn [length seq map ends ends_after last]. unfold total_upto. cbn [firstn fold_right]. lia.
Qed.
Lemma fits_2 : fits E 2 50.
Proof using HE HS.
  assert (Hh : inr (height 2) 1315925028338 (1315925028338 + 1)) by (apply inr_test; [lia|lia|vm_compute; reflexivity|vm_compute; reflexivity]).
  assert (W0 : inr (weight 2 0) 12356852803 17036613304).
  { apply (weight_in 2 0 1315925028338 4607 4609); [exact Hh|apply inr_test; [lia|lia|vm_compute; reflexivity|vm_compute; reflexivity]|lia|lia|lia|lia|lia|vm_compute; discriminate|vm_compute; discriminate]. }
  destruct W0 as (F0 & W0).
  assert (W1 : inr (weight 2 1) 0 170522).
  { apply (weight_in 2 1 1315925028338 18431 18433); [exact Hh|apply inr_test; [lia|lia|vm_compute; reflexivity|vm_compute; reflexivity]|lia|lia|lia|lia|lia|vm_compute; discriminate|vm_compute; discriminate]. }
  destruct W1 as (F1 & W1).
  clear Hh.
  unfold fits, shares. change (map _ (seq 0 (Z.to_nat 2))) with (map (fun w => fmul (fdiv w (vsum E [weight 2 0;weight 2 1])) (d_of_Z 50)) [weight 2 0;weight 2 1]).
  assert (SS : fin (vsum E [weight 2 0;weight 2 1]) /\ 999 / 1000 * real_sum [weight 2 0;weight 2 1] <= B2R (vsum E [weight 2 0;weight 2 1]) <= 1001 / 1000 * real_sum [weight 2 0;weight 2 1] /\ 0 < B2R (vsum E [weight 2 0;weight 2 1])).
  { apply sum_in; [cbn; lia| |rewrite !real_sum_cons; cbn [real_sum map fold_right]; lra]. intros x [<- |[<- |[]]]; (split; [assumption|lra]). }
  rewrite !real_sum_cons in SS. unfold real_sum in SS. cbn [map fold_right] in SS.
  revert F0 W0 F1 W1 SS. generalize (weight 2 0) as w0, (weight 2 1) as w1. intros w0 w1 F0 W0 F1 W1 (FS & SB & SP).
  revert FS SB SP. generalize (vsum E [w0;w1]) as S. intros S FS SB SP. cbn [map].
  destruct (share_fine w0 S 1017119 F0 FS SP ltac:(lia)) as (k0 & E0 & K0 & J0); [lra|].
  specialize (J0 49%Z ltac:(lra)).
  destruct (share_fine w1 S 0 F1 FS SP ltac:(lia)) as (k1 & E1 & K1 & J1); [lra|].
  clear J1.
  exists [k0;k1]%Z. split; [repeat (constructor; [assumption|]); constructor|]. clear - K0 K1 J0.
  split; [intros k [<- |[<- |[]]]; lia|]. split.
  { intros i. unfold total_upto. destruct i as [|i]; [cbn; lia|]. destruct i as [|i]; [cbn; lia|]. rewrite firstn_all2 by (cbn [length]; lia). cbn; lia. }
  split; [cbn; lia|]. split; [lia|]. cbn [length seq map ends ends_after last]. unfold total_upto. cbn [firstn fold_right]. lia.
Qed.
Lemma fits_3 : fits E 3 50.
Proof using HE HS.
  assert (Hh : inr (height 3) 877283352225 (877283352225 + 1)) by (apply inr_test; [lia|lia|vm_compute; reflexivity|vm_compute; reflexivity]).
  assert (W0 : inr (weight 3 0) 114767089710 122656818301).
  { apply (weight_in 3 0 877283352225 2047 2049); [exact Hh|apply inr_test; [lia|lia|vm_compute; reflexivity|vm_compute; reflexivity]|lia|lia|lia|lia|lia|vm_compute; discriminate|vm_compute; discriminate]. }
  destruct W0 as (F0 & W0).
  assert (W1 : inr (weight 3 1) 170111815 467939892).
  { apply (weight_in 3 1 877283352225 8191 8193); [exact Hh|apply inr_test; [lia|lia|vm_compute; reflexivity|vm_compute; reflexivity]|lia|lia|lia|lia|lia|vm_compute; discriminate|vm_compute; discriminate]. }
  destruct W1 as (F1 & W1).
  assert (W2 : inr (weight 3 2) 0 113682).
  { apply (weight_in 3 2 877283352225 18431 18433); [exact Hh|apply inr_test; [lia|lia|vm_compute; reflexivity|vm_compute; reflexivity]|lia|lia|lia|lia|lia|vm_compute; discriminate|vm_compute; discriminate]. }
  destruct W2 as (F2 & W2).
  clear Hh.
  unfold fits, shares. change (map _ (seq 0 (Z.to_nat 3))) with (map (fun w => fmul (fdiv w (vsum E [weight 3 0;weight 3 1;weight 3 2])) (d_of_Z 50)) [weight 3 0;weight 3 1;weight 3 2]).
  assert (SS : fin (vsum E [weight 3 0;weight 3 1;weight 3 2]) /\ 999 / 1000 * real_sum [weight 3 0;weight 3 1;weight 3 2] <= B2R (vsum E [weight 3 0;weight 3 1;weight 3 2]) <= 1001 / 1000 * real_sum [weight 3 0;weight 3 1;weight 3 2] /\ 0 < B2R (vsum E [weight 3 0;weight 3 1;weight 3 2])).
  { apply sum_in; [cbn; lia| |rewrite !real_sum_cons; cbn [real_sum map fold_right]; lra]. intros x [<- |[<- |[<- |[]]]]; (split; [assumption|lra]). }
  rewrite !real_sum_cons in SS. unfold real_sum in SS. cbn [map fold_right] in SS.
  revert F0 W0 F1 W1 F2 W2 SS. generalize (weight 3 0) as w0, (weight 3 1) as w1, (weight 3 2) as w2. intros w0 w1 w2 F0 W0 F1 W1 F2 W2 (FS & SB & SP).
  revert FS SB SP. generalize (vsum E [w0;w1;w2]) as S. intros S FS SB SP. cbn [map].
  destruct (share_fine w0 S 996148 F0 FS SP ltac:(lia)) as (k0 & E0 & K0 & J0); [lra|].
  specialize (J0 48%Z ltac:(lra)).
  destruct (share_fine w1 S 0 F1 FS SP ltac:(lia)) as (k1 & E1 & K1 & J1); [lra|].
  clear J1.
  destruct (share_fine w2 S 0 F2 FS SP ltac:(lia)) as (k2 & E2 & K2 & J2); [lra|].
  clear J2.
  exists [k0;k1;k2]%Z. split; [repeat (constructor; [assumption|]); constructor|]. clear - K0 K1 K2 J0.
  split; [intros k [<- |[<- |[<- |[]]]]; lia|]. split.
  { intros i. unfold total_upto. destruct i as [|i]; [cbn; lia|]. destruct i as [|i]; [cbn; lia|]. destruct i as [|i]; [cbn; lia|]. rewrite firstn_all2 by (cbn [length]; lia). cbn; lia. }
  split; [cbn; lia|]. split; [lia|]. cbn [length seq map ends ends_after last]. unfold total_upto. cbn [firstn fold_right]. lia.
Qed.
Lemma fits_4 : fits E 4 50.
Proof using HE HS.
  assert (Hh : inr (height 4) 657962514169 (657962514169 + 1)) by (apply inr_test; [lia|lia|vm_compute; reflexivity|vm_compute; reflexivity]).
  assert (W0 : inr (weight 4 0) 211061233669 216130089401).
  { apply (weight_in 4 0 657962514169 1151 1153); [exact Hh|apply inr_test; [lia|lia|vm_compute; reflexivity|vm_compute; reflexivity]|lia|lia|lia|lia|lia|vm_compute; discriminate|vm_compute; discriminate]. }
  destruct W0 as (F0 & W0).
  assert (W1 : inr (weight 4 1) 6178426401 8518306652).
  { apply (weight_in 4 1 657962514169 4607 4609); [exact Hh|apply inr_test; [lia|lia|vm_compute; reflexivity|vm_compute; reflexivity]|lia|lia|lia|lia|lia|vm_compute; discriminate|vm_compute; discriminate]. }
  destruct W1 as (F1 & W1).
  assert (W2 : inr (weight 4 2) 10728148 54547992).
  { apply (weight_in 4 2 657962514169 10367 10369); [exact Hh|apply inr_test; [lia|lia|vm_compute; reflexivity|vm_compute; reflexivity]|lia|lia|lia|lia|lia|vm_compute; discriminate|vm_compute; discriminate]. }
  destruct W2 as (F2 & W2).
  assert (W3 : inr (weight 4 3) 0 85261).
  { apply (weight_in 4 3 657962514169 18431 18433); [exact Hh|apply inr_test; [lia|lia|vm_compute; reflexivity|vm_compute; reflexivity]|lia|lia|lia|lia|lia|vm_compute; discriminate|vm_compute; discriminate]. }
  destruct W3 as (F3 & W3).
  clear Hh.
  unfold fits, shares. change (map _ (seq 0 (Z.to_nat 4))) with (map (fun w => fmul (fdiv w (vsum E [weight 4 0;weight 4 1;weight 4 2;weight 4 3])) (d_of_Z 50)) [weight 4 0;weight 4 1;weight 4 2;weight 4 3]).
  assert (SS : fin (vsum E [weight 4 0;weight 4 1;weight 4 2;weight 4 3]) /\ 999 / 1000 * real_sum [weight 4 0;weight 4 1;weight 4 2;weight 4 3] <= B2R (vsum E [weight 4 0;weight 4 1;weight 4 2;weight 4 3]) <= 1001 / 1000 * real_sum [weight 4 0;weight 4 1;weight 4 2;weight 4 3] /\ 0 < B2R (vsum E [weight 4 0;weight 4 1;weight 4 2;weight 4 3])).
  { apply sum_in; [cbn; lia| |rewrite !real_sum_cons; cbn [real_sum map fold_right]; lra]. intros x [<- |[<- |[<- |[<- |[]]]]]; (split; [assumption|lra]). }
  rewrite !real_sum_cons in SS. unfold real_sum in SS. cbn [map fold_right] in SS.
  revert F0 W0 F1 W1 F2 W2 F3 W3 SS. generalize (weight 4 0) as w0, (weight 4 1) as w1, (weight 4 2) as w2, (weight 4 3) as w3. intros w0 w1 w2 w3 F0 W0 F1 W1 F2 W2 F3 W3 (FS & SB & SP).
  revert FS SB SP. generalize (vsum E [w0;w1;w2;w3]) as S. intros S FS SB SP. cbn [map].
  destruct (share_fine w0 S 975176 F0 FS SP ltac:(lia)) as (k0 & E0 & K0 & J0); [lra|].
  specialize (J0 47%Z ltac:(lra)).
  destruct (share_fine w1 S 0 F1 FS SP ltac:(lia)) as (k1 & E1 & K1 & J1); [lra|].
  clear J1.
  destruct (share_fine w2 S 0 F2 FS SP ltac:(lia)) as (k2 & E2 & K2 & J2); [lra|].
  clear J2.
  destruct (share_fine w3 S 0 F3 FS SP ltac:(lia)) as (k3 & E3 & K3 & J3); [lra|].
  clear J3.
  exists [k0;k1;k2;k3]%Z. split; [repeat (constructor; [assumption|]); constructor|]. clear - K0 K1 K2 K3 J0.
  split; [intros k [<- |[<- |[<- |[<- |[]]]]]; lia|]. split.
  { intros i. unfold total_upto. destruct i as [|i]; [cbn; lia|]. destruct i as [|i]; [cbn; lia|]. destruct i as [|i]; [cbn; lia|]. destruct i as [|i]; [cbn; lia|]. rewrite firstn_all2 by (cbn [length]; lia). cbn; lia. }
  split; [cbn; lia|]. split; [lia|]. cbn [length seq map ends ends_after last]. unfold total_upto. cbn [firstn fold_right]. lia.
Qed.
Lemma fits_5 : fits E 5 50.
Proof using HE HS.
  assert (Hh : inr (height 5) 526370011335 (526370011335 + 1)) by (apply inr_test; [lia|lia|vm_compute; reflexivity|vm_compute; reflexivity]).
  assert (W0 : inr (weight 5 0) 254732033628 257570684627).
  { apply (weight_in 5 0 526370011335 737 738); [exact Hh|apply inr_test; [lia|lia|vm_compute; reflexivity|vm_compute; reflexivity]|lia|lia|lia|lia|lia|vm_compute; discriminate|vm_compute; discriminate]. }
  destruct W0 as (F0 & W0).
  assert (W1 : inr (weight 5 1) 27585546797 31501507123).
  { apply (weight_in 5 1 526370011335 2949 2950); [exact Hh|apply inr_test; [lia|lia|vm_compute; reflexivity|vm_compute; reflexivity]|lia|lia|lia|lia|lia|vm_compute; discriminate|vm_compute; discriminate]. }
  destruct W1 as (F1 & W1).
  assert (W2 : inr (weight 5 2) 566917387 1099579660).
  { apply (weight_in 5 2 526370011335 6635 6636); [exact Hh|apply inr_test; [lia|lia|vm_compute; reflexivity|vm_compute; reflexivity]|lia|lia|lia|lia|lia|vm_compute; discriminate|vm_compute; discriminate]. }
  destruct W2 as (F2 & W2).
  assert (W3 : inr (weight 5 3) 1601907 13227102).
  { apply (weight_in 5 3 526370011335 11796 11797); [exact Hh|apply inr_test; [lia|lia|vm_compute; reflexivity|vm_compute; reflexivity]|lia|lia|lia|lia|lia|vm_compute; discriminate|vm_compute; discriminate]. }
  destruct W3 as (F3 & W3).
  assert (W4 : inr (weight 5 4) 0 68209).
  { apply (weight_in 5 4 526370011335 18431 18433); [exact Hh|apply inr_test; [lia|lia|vm_compute; reflexivity|vm_compute; reflexivity]|lia|lia|lia|lia|lia|vm_compute; discriminate|vm_compute; discriminate]. }
  destruct W4 as (F4 & W4).
  clear Hh.
  unfold fits, shares. change (map _ (seq 0 (Z.to_nat 5))) with (map (fun w => fmul (fdiv w (vsum E [weight 5 0;weight 5 1;weight 5 2;weight 5 3;weight 5 4])) (d_of_Z 50)) [weight 5 0;weight 5 1;weight 5 2;weight 5 3;weight 5 4]).
  assert (SS : fin (vsum E [weight 5 0;weight 5 1;weight 5 2;weight 5 3;weight 5 4]) /\ 999 / 1000 * real_sum [weight 5 0;weight 5 1;weight 5 2;weight 5 3;weight 5 4] <= B2R (vsum E [weight 5 0;weight 5 1;weight 5 2;weight 5 3;weight 5 4]) <= 1001 / 1000 * real_sum [weight 5 0;weight 5 1;weight 5 2;weight 5 3;weight 5 4] /\ 0 < B2R (vsum E [weight 5 0;weight 5 1;weight 5 2;weight 5 3;weight 5 4])).
  { apply sum_in; [cbn; lia| |rewrite !real_sum_cons; cbn [real_sum map fold_right]; lra]. intros x [<- |[<- |[<- |[<- |[<- |[]]]]]]; (split; [assumption|lra]). }
  rewrite !real_sum_cons in SS. unfold real_sum in SS. cbn [map fold_right] in SS.
  revert F0 W0 F1 W1 F2 W2 F3 W3 F4 W4 SS. generalize (weight 5 0) as w0, (weight 5 1) as w1, (weight 5 2) as w2, (weight 5 3) as w3, (weight 5 4) as w4. intros w0 w1 w2 w3 w4 F0 W0 F1 W1 F2 W2 F3 W3 F4 W4 (FS & SB & SP).
  revert FS SB SP. generalize (vsum E [w0;w1;w2;w3;w4]) as S. intros S FS SB SP. cbn [map].
  destruct (share_fine w0 S 912262 F0 FS SP ltac:(lia)) as (k0 & E0 & K0 & J0); [lra|].
  specialize (J0 44%Z ltac:(lra)).
  destruct (share_fine w1 S 52429 F1 FS SP ltac:(lia)) as (k1 & E1 & K1 & J1); [lra|].
  specialize (J1 3%Z ltac:(lra)).
  destruct (share_fine w2 S 0 F2 FS SP ltac:(lia)) as (k2 & E2 & K2 & J2); [lra|].
  clear J2.
  destruct (share_fine w3 S 0 F3 FS SP ltac:(lia)) as (k3 & E3 & K3 & J3); [lra|].
  clear J3.
  destruct (share_fine w4 S 0 F4 FS SP ltac:(lia)) as (k4 & E4 & K4 & J4); [lra|].
  clear J4.
  exists [k0;k1;k2;k3;k4]%Z. split; [repeat (constructor; [assumption|]); constructor|]. clear - K0 K1 K2 K3 K4 J0 J1.
  split; [intros k [<- |[<- |[<- |[<- |[<- |[]]]]]]; lia|]. split.
  { intros i. unfold total_upto. destruct i as [|i]; [cbn; lia|]. destruct i as [|i]; [cbn; lia|]. destruct i as [|i]; [cbn; lia|]. destruct i as [|i]; [cbn; lia|]. destruct i as [|i]; [cbn; lia|]. rewrite firstn_all2 by (cbn [length]; lia). cbn; lia. }
  split; [cbn; lia|]. split; [lia|]. cbn [length seq map ends ends_after last]. unfold total_upto. cbn [firstn fold_right]. lia.
Qed.
Lemma fits_50 t : (1 <= t <= 5)%Z -> fits E t 50.
Proof using HE HS.
  intros Ht. assert (C : (t = 1 \/ t = 2 \/ t = 3 \/ t = 4 \/ t = 5)%Z) by lia.
  destruct C as [-> |[-> |[-> |[-> | ->]]]]; [apply fits_1|apply fits_2|apply fits_3|apply fits_4|apply fits_5].
Qed.
End Fit.
