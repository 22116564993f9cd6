(** The encoding loops of [BinCode]. *)
From Coq Require Import List Arith ZArith Bool Reals Lia Lra.
From Flocq Require Import Core BinarySingleNaN.
From Verif Require Import Base Fl FlFacts BinCode BinCodeProofs.
Open Scope Z_scope.

Section Gen.
Context {prec emax : Z} {Hp : FLX.Prec_gt_0 prec} {Hx : Prec_lt_emax prec emax}.
Notation flo := (binary_float prec emax).
Notation num := (fofZ (prec := prec) (emax := emax)).
Notation emin := (3 - emax - prec).
Variables (mw ew : Z) (fuel : nat).
Hypothesis Hmw : prec = mw + 1.
Hypothesis Hmw_range : 10 <= mw <= 52.
Hypothesis Hew : emax = 2 ^ (ew - 1).
Hypothesis Hew_range : 2 <= ew.
Hypothesis Hemax : prec + 11 < emax.
Hypothesis Hfuel : (Z.to_nat emax + 20 <= fuel)%nat.
(** Three roundings that are not exact, checked for each format. *)
Hypothesis H257 : val (fmul (num 257 0) (num (2 ^ mw - 1) emin)) (dy (257 * 2 ^ mw - 256) emin).
Hypothesis Htie : val (fdiv (num (2 ^ prec - 1) emin) (num 2 0)) (dy (2 ^ mw) emin).
Hypothesis Hneg : fmul (fsub (num (2 ^ prec - 1) (- prec)) (num 1 0)) (num 1 (2 - emax)) = B754_zero true.

Let PP := pow_prec mw Hmw Hmw_range.
Let PE := pow_ew ew Hew Hew_range.

Lemma zero_val : val (num 0 0) 0.
Proof. rewrite <- (dy_0 0). apply (lit_val mw); try assumption; lia. Qed.
Lemma abs_pos (x : flo) a : (0 <= a)%R -> val x a -> absVal x = x /\ signCode mw ew x = 0.
Proof.
  intros Ha V. unfold absVal, signCode. rewrite (le_ex _ _ _ _ zero_val V). rewrite Rle_bool_true by exact Ha. split; reflexivity.
Qed.
Lemma abs_neg (x : flo) a : (0 < a)%R -> val x (- a) -> val (absVal x) a /\ signCode mw ew x = 2 ^ (mw + ew).
Proof.
  intros Ha V. unfold absVal, signCode. rewrite (le_ex _ _ _ _ zero_val V). rewrite Rle_bool_false by lra.
  split; [|reflexivity]. replace a with (- - a)%R by ring. apply opp_ex, V.
Qed.
Lemma mag_pos E M : 0 <= E -> 0 <= M -> (0 <= mag (prec := prec) (emax := emax) mw E M)%R.
Proof.
  intros HE HM. unfold mag. destruct (Z.eqb_spec E 0).
  - unfold dy. apply Rmult_le_pos; [apply IZR_le; lia|apply bpow_ge_0].
  - left. apply dy_pos. destruct PP. lia.
Qed.
Lemma mag_nz E M : 0 <= E -> 0 <= M -> E <> 0 \/ M <> 0 -> (0 < mag (prec := prec) (emax := emax) mw E M)%R.
Proof.
  intros HE HM N. unfold mag. destruct (Z.eqb_spec E 0); apply dy_pos; destruct PP; lia.
Qed.

Lemma seper_ok : decode mw ew fuel (2 ^ mw - 1) = Ok (num (2 ^ mw - 1) emin).
Proof.
  destruct PP as (P & Q).
  assert (R : 0 <= 2 ^ mw - 1 < 2 ^ (mw + ew + 1)).
  { split; [lia|]. apply Z.lt_le_trans with (2 ^ mw); [lia|]. apply Z.pow_le_mono_r; lia. }
  assert (D : (2 ^ mw - 1) / 2 ^ mw = 0) by (apply Z.div_small; lia).
  destruct (decode_finite mw ew Hmw Hmw_range Hew Hew_range Hemax (2 ^ mw - 1) R fuel Hfuel) as (r & -> & V).
  - rewrite D, Z.mod_0_l by (apply Z.pow_nonzero; lia). lia.
  - rewrite D, Z.mod_0_l in V by (apply Z.pow_nonzero; lia). rewrite Z.mod_small in V by lia.
    destruct (Z.leb_spec (2 ^ (mw + ew)) (2 ^ mw - 1)) as [L|L].
    + assert (2 ^ mw <= 2 ^ (mw + ew)) by (apply Z.pow_le_mono_r; lia). lia.
    + f_equal. apply (val_inj _ _ (dy (2 ^ mw - 1) emin)).
      * apply Rgt_not_eq. apply dy_pos. lia.
      * exact V.
      * apply num_ex. apply dy_fmt; lia.
Qed.
Notation seper := (num (2 ^ mw - 1) emin).
Lemma seper_val : val seper (dy (2 ^ mw - 1) emin).
Proof. apply num_ex. destruct PP. apply dy_fmt; lia. Qed.

Lemma unit_of m E : 1 <= E -> dy m (emin + (E - 1)) = dy (m * 2 ^ (E - 1)) emin.
Proof. intros. rewrite dy_shift by lia. reflexivity. Qed.

Lemma loop256 m : 2 ^ mw <= m < 2 ^ prec -> forall fu y E k, E <= 8 * Z.of_nat fu -> 1 <= E <= 2 * emax - 2 ->
  val y (dy m (emin + (E - 1))) ->
  exists y' j, while fu (fun s : flo * Z => flt (fmul (num 257 0) seper) (fst s)) (fun s => (fdiv (fst s) (num 256 0), snd s + 8)) (y, k)
    = Ok (y', k + 8 * j) /\ 0 <= j /\ 1 <= E - 8 * j <= 9 /\ val y' (dy m (emin + (E - 8 * j - 1))).
Proof.
  intros Hm. destruct PP as (P & Q).
  assert (T : forall y E, 1 <= E -> val y (dy m (emin + (E - 1))) ->
    flt (fmul (num 257 0) seper) y = (257 * 2 ^ mw - 256 <? m * 2 ^ (E - 1))).
  { intros y E HE V. rewrite unit_of in V by exact HE. rewrite (lt_ex _ _ _ _ H257 V). apply dy_lt. }
  induction fu as [|fu IH]; intros y E k Hf HE V; [lia|].
  cbn [while fst snd]. rewrite (T y E) by (try lia; exact V).
  destruct (Z.ltb_spec (257 * 2 ^ mw - 256) (m * 2 ^ (E - 1))) as [L|L].
  - assert (9 <= E).
    { destruct (Z_le_dec 9 E); [assumption|]. exfalso.
      assert (2 ^ (E - 1) <= 2 ^ 7) by (apply Z.pow_le_mono_r; lia). change (2 ^ 7) with 128 in H.
      assert (m * 2 ^ (E - 1) <= m * 128) by (apply Z.mul_le_mono_nonneg_l; lia). lia. }
    destruct (IH (fdiv y (num 256 0)) (E - 8) (k + 8)) as (y' & j & W & J & B & V'); [lia|lia| |].
    + change (num 256 0) with (num (2 ^ 8) 0). replace (emin + (E - 8 - 1)) with (emin + (E - 1) - 8) by lia.
      apply (div_pow mw Hmw Hmw_range Hemax); [lia|exact V|]. apply dy_fmt; lia.
    + exists y', (j + 1). split; [rewrite W; do 2 f_equal; lia|]. split; [lia|]. split; [lia|].
      replace (E - 8 * (j + 1) - 1) with (E - 8 - 8 * j - 1) by lia. exact V'.
  - exists y, 0. rewrite Z.mul_0_r, Z.add_0_r, Z.sub_0_r. split; [reflexivity|]. split; [lia|]. split; [|exact V].
    split; [lia|]. destruct (Z_le_dec E 9); [assumption|]. exfalso.
    assert (2 ^ 9 <= 2 ^ (E - 1)) by (apply Z.pow_le_mono_r; lia). change (2 ^ 9) with 512 in H.
    assert (m * 512 <= m * 2 ^ (E - 1)) by (apply Z.mul_le_mono_nonneg_l; lia). lia.
Qed.
Lemma half_num2 : val (num 2 0) (dy 2 0).
Proof. apply (lit_val mw); try assumption; lia. Qed.
Lemma loop2 m : 2 ^ mw <= m < 2 ^ prec -> forall fu y E k, (Z.to_nat E + 2 <= fu)%nat -> 1 <= E <= 2 * emax - 2 ->
  val y (dy m (emin + (E - 1))) ->
  exists y', while fu (fun s : flo * Z => flt seper (fst s)) (fun s => (fdiv (fst s) (num 2 0), snd s + 1)) (y, k)
    = Ok (y', k + E + (if m =? 2 ^ prec - 1 then 1 else 0)).
Proof.
  intros Hm. destruct PP as (P & Q).
  assert (T : forall y E, 1 <= E -> val y (dy m (emin + (E - 1))) -> flt seper y = true).
  { intros y E HE V. rewrite unit_of in V by exact HE. rewrite (lt_ex _ _ _ _ seper_val V). rewrite dy_lt. apply Z.ltb_lt.
    assert (1 <= 2 ^ (E - 1)) by (change 1 with (2 ^ 0) at 1; apply Z.pow_le_mono_r; lia).
    assert (m * 1 <= m * 2 ^ (E - 1)) by (apply Z.mul_le_mono_nonneg_l; lia). lia. }
  induction fu as [|fu IH]; intros y E k Hf HE V; [lia|].
  cbn [while fst snd]. rewrite (T y E) by (try lia; exact V).
  destruct (Z.eq_dec E 1) as [->|N].
  - replace (emin + (1 - 1)) with emin in V by lia. destruct fu as [|fu]; [lia|]. destruct fu as [|fu]; [lia|].
    destruct (Z.eqb_spec m (2 ^ prec - 1)) as [Em|Nm].
    + assert (y = num (2 ^ prec - 1) emin) as ->.
      { apply (val_inj _ _ (dy m emin)); [apply Rgt_not_eq, dy_pos; lia|exact V|]. rewrite Em.
        apply num_ex. apply dy_fmt; lia. }
      cbn [while fst snd]. rewrite (lt_ex _ _ _ _ seper_val Htie), dy_lt.
      destruct (Z.ltb_spec (2 ^ mw - 1) (2 ^ mw)) as [_|]; [|lia].
      assert (V2 : val (fdiv (fdiv (num (2 ^ prec - 1) emin) (num 2 0)) (num 2 0)) (dy (2 ^ (mw - 1)) emin)).
      { replace (dy (2 ^ (mw - 1)) emin) with (dy 1 (emin + mw - 1)).
        - apply (div_pow mw Hmw Hmw_range Hemax _ 1 (emin + mw) 1); [lia| |].
          + rewrite <- dy_shift, Z.mul_1_l by lia. exact Htie.
          + apply (pow_fmt mw); try assumption; lia.
        - rewrite <- (Z.mul_1_l (2 ^ (mw - 1))), dy_shift by lia. f_equal. lia. }
      rewrite (lt_ex _ _ _ _ seper_val V2), dy_lt.
      assert (2 ^ mw = 2 * 2 ^ (mw - 1)) by (rewrite <- Z.pow_succ_r by lia; f_equal; lia).
      destruct (Z.ltb_spec (2 ^ mw - 1) (2 ^ (mw - 1))) as [|_]; [lia|].
      eexists. do 2 f_equal.
    + assert (B : flt seper (fdiv y (num 2 0)) = false).
      { destruct half_num2 as (F2 & E2). destruct V as (Fy & Ey). destruct seper_val as (Fs & Es).
        assert (Rd : (B2R y / B2R (num 2 0) = dy m (emin - 1))%R).
        { rewrite Ey, E2. change 2 with (2 ^ 1) at 1. rewrite dy_div by lia. f_equal. lia. }
        assert (U : (dy m (emin - 1) <= dy (2 ^ mw - 1) emin)%R).
        { replace (dy (2 ^ mw - 1) emin) with (dy ((2 ^ mw - 1) * 2 ^ 1) (emin - 1)).
          - unfold dy. apply Rmult_le_compat_r; [apply bpow_ge_0|]. apply IZR_le. lia.
          - rewrite dy_shift by lia. f_equal. lia. }
        assert (U0 : (0 < dy m (emin - 1))%R) by (apply dy_pos; lia).
        assert (Gs : generic_format radix2 (SpecFloat.fexp prec emax) (dy (2 ^ mw - 1) emin)).
        { apply fmt_gen. apply dy_fmt; lia. }
        pose proof (rnd_gen prec emax _ _ _ Gs U) as Ub.
        pose proof (rnd_gen' prec emax _ _ 0%R (generic_format_0 _ _) (Rlt_le _ _ U0)) as Lb.
        destruct (fdiv_fin prec emax _ _ y (num 2 0) Fy) as (Fq & Eq).
        - rewrite E2. apply Rgt_not_eq, dy_pos. lia.
        - rewrite Rd, Rabs_pos_eq by exact Lb. apply Rle_lt_trans with (1 := Ub).
          rewrite <- (Rabs_pos_eq (dy _ _)) by (left; apply dy_pos; lia). apply fmt_lt. apply dy_fmt; lia.
        - rewrite (lt_ex _ _ _ _ seper_val (conj Fq eq_refl)). apply Rlt_bool_false. rewrite Eq, Rd. exact Ub. }
      cbn [while fst snd]. rewrite B. eexists. do 2 f_equal. lia.
  - destruct (IH (fdiv y (num 2 0)) (E - 1) (k + 1)) as (y' & W); [lia|lia| |].
    + replace (emin + (E - 1 - 1)) with (emin + (E - 1) - 1) by lia.
      apply (div_pow mw Hmw Hmw_range Hemax _ _ _ 1); [lia|exact V|]. apply dy_fmt; lia.
    + exists y'. rewrite W. do 2 f_equal. lia.
Qed.

Notation mg := (mag (prec := prec) (emax := emax) mw).
Definition ones (E M : Z) : bool := (0 <? E) && (M =? 2 ^ mw - 1).

Lemma exponentVal_ok x y E M : absVal x = y -> 0 <= E < 2 * emax - 1 -> 0 <= M < 2 ^ mw -> val y (mg E M) ->
  exponentVal mw ew fuel x = Ok (E + (if ones E M then 1 else 0)).
Proof.
  intros A HE HM V. destruct PP as (P & Q). unfold exponentVal. rewrite seper_ok. cbn [bind]. rewrite A.
  unfold mag in V. unfold ones. destruct (Z.eqb_spec E 0) as [E0|E0].
  - subst E. cbn [andb Z.ltb Z.compare].
    assert (C1 : flt (fmul (num 257 0) seper) y = false).
    { rewrite (lt_ex _ _ _ _ H257 V), dy_lt. apply Z.ltb_ge. lia. }
    assert (C2 : flt seper y = false).
    { rewrite (lt_ex _ _ _ _ seper_val V), dy_lt. apply Z.ltb_ge. lia. }
    destruct fuel as [|fu]; [lia|]. cbn [while fst snd]. rewrite C1. cbn [bind while fst snd]. rewrite C2. reflexivity.
  - destruct (loop256 (2 ^ mw + M) ltac:(lia) fuel y E 0) as (y1 & j & W1 & J & B & V1); [|lia|exact V|].
    { clear H257 Htie Hneg. lia. }
    rewrite W1. cbn [bind].
    destruct (loop2 (2 ^ mw + M) ltac:(lia) fuel y1 (E - 8 * j) (0 + 8 * j)) as (y2 & W2); [lia|lia|exact V1|].
    rewrite W2. cbn [bind snd]. f_equal.
    destruct (Z.ltb_spec 0 E) as [_|]; [|lia]. cbn [andb].
    destruct (Z.eqb_spec (2 ^ mw + M) (2 ^ prec - 1)); destruct (Z.eqb_spec M (2 ^ mw - 1)); lia.
Qed.

Lemma abs_self x a : (0 <= a)%R -> val (x : flo) a -> absVal x = x.
Proof. intros Ha V. apply (abs_pos x a Ha V). Qed.

Lemma absVal0_ok x y E M : absVal x = y -> 0 <= E < 2 * emax - 1 -> 0 <= M < 2 ^ mw -> val y (mg E M) ->
  exists z, absValWithExponentCode0 mw ew fuel x = Ok z /\ val z (dy (if ones E M then 0 else M) emin).
Proof.
  intros A HE HM V. destruct PP as (P & Q). unfold absValWithExponentCode0. rewrite A.
  rewrite (exponentVal_ok y y E M (abs_self y _ (mag_pos E M ltac:(lia) ltac:(lia)) V) HE HM V). cbn [bind].
  unfold mag in V. unfold ones. destruct (Z.eqb_spec E 0) as [E0|E0].
  - subst E. cbn [andb Z.ltb Z.compare Z.add Z.eqb]. exists y. split; [reflexivity|exact V].
  - destruct (Z.ltb_spec 0 E) as [_|]; [|lia]. cbn [andb].
    destruct (Z.eqb_spec M (2 ^ mw - 1)) as [EM|NM].
    + destruct (Z.eqb_spec (E + 1) 0) as [|_]; [lia|].
      destruct (expOf2_ok mw Hmw Hmw_range Hemax fuel (emax - 1 - (E + 1)) Hfuel ltac:(lia)) as (p & -> & Vp). cbn [bind].
      destruct (expOf2_ok mw Hmw Hmw_range Hemax fuel (- (emax - 2)) Hfuel ltac:(lia)) as (q & -> & Vq). cbn [bind].
      assert (D : (dy (2 ^ mw + M) (emin + (E - 1)) * dy 1 (emax - 1 - (E + 1)) = dy (2 ^ prec - 1) (- prec))%R).
      { rewrite dy_mul. f_equal; lia. }
      assert (Vm : val (fmul y p) (dy (2 ^ prec - 1) (- prec))).
      { rewrite <- D. apply mul_ex; [exact V|exact Vp|]. rewrite D. apply dy_fmt; lia. }
      assert (fmul y p = num (2 ^ prec - 1) (- prec)) as ->.
      { apply (val_inj _ _ (dy (2 ^ prec - 1) (- prec))); [apply Rgt_not_eq, dy_pos; lia|exact Vm|].
        apply num_ex. apply dy_fmt; lia. }
      assert (q = num 1 (2 - emax)) as ->.
      { apply (val_inj _ _ (dy 1 (2 - emax))); [apply Rgt_not_eq, dy_pos; lia| |].
        - replace (2 - emax) with (- (emax - 2)) by lia. exact Vq.
        - apply num_ex. apply (pow_fmt mw); try assumption; lia. }
      rewrite Hneg. exists (B754_zero true). split; [reflexivity|]. rewrite dy_0. split; reflexivity.
    + rewrite Z.add_0_r. destruct (Z.eqb_spec E 0) as [|_]; [lia|].
      destruct (expOf2_ok mw Hmw Hmw_range Hemax fuel (emax - 1 - E) Hfuel ltac:(lia)) as (p & -> & Vp). cbn [bind].
      destruct (expOf2_ok mw Hmw Hmw_range Hemax fuel (- (emax - 2)) Hfuel ltac:(lia)) as (q & -> & Vq). cbn [bind].
      assert (D : (dy (2 ^ mw + M) (emin + (E - 1)) * dy 1 (emax - 1 - E) = dy (2 ^ mw + M) (- mw))%R).
      { rewrite dy_mul. f_equal; lia. }
      assert (Vm : val (fmul y p) (dy (2 ^ mw + M) (- mw))).
      { rewrite <- D. apply mul_ex; [exact V|exact Vp|]. rewrite D. apply dy_fmt; lia. }
      assert (V1 : val (num 1 0) (dy (2 ^ mw) (- mw))).
      { rewrite <- (Z.mul_1_l (2 ^ mw)), dy_shift by lia. replace (- mw + mw) with 0 by lia. apply (lit_val mw); try assumption; lia. }
      assert (Vs : val (fsub (fmul y p) (num 1 0)) (dy M (- mw))).
      { replace M with (2 ^ mw + M - 2 ^ mw) at 1 by lia. rewrite <- dy_sub. apply sub_ex; [exact Vm|exact V1|].
        rewrite dy_sub. apply dy_fmt; lia. }
      assert (D2 : (dy M (- mw) * dy 1 (- (emax - 2)) = dy M emin)%R).
      { rewrite dy_mul. f_equal; lia. }
      exists (fmul (fsub (fmul y p) (num 1 0)) q). split; [reflexivity|].
      rewrite <- D2. apply mul_ex; [exact Vs|exact Vq|]. rewrite D2. apply dy_fmt; lia.
Qed.

Lemma bits_ok (cmp : flo) : val cmp (dy (2 ^ (mw - 1)) emin) ->
  forall n y Y r, (Z.of_nat n <= mw) -> 0 <= Y < 2 ^ mw -> val y (dy Y emin) -> 0 <= r -> r mod 2 ^ Z.of_nat n = 0 ->
  forall mask, (n <> O -> mask = 2 ^ (Z.of_nat n - 1)) ->
  mantissa_bits n cmp y mask r = r + Y / 2 ^ (mw - Z.of_nat n).
Proof.
  intros Vc. destruct PP as (P & Q).
  assert (P2 : 2 ^ mw = 2 * 2 ^ (mw - 1)) by (rewrite <- Z.pow_succ_r by lia; f_equal; lia).
  induction n as [|n IH]; intros y Y r Hn HY V Hr Hd mask Hmask.
  - cbn [mantissa_bits]. change (Z.of_nat 0) with 0. rewrite Z.sub_0_r, Z.div_small by exact HY. lia.
  - cbn [mantissa_bits]. specialize (Hmask ltac:(discriminate)). rewrite Nat2Z.inj_succ in *. unfold Z.succ in *.
    replace (Z.of_nat n + 1 - 1) with (Z.of_nat n) in Hmask by lia. subst mask.
    assert (Pn : 0 < 2 ^ Z.of_nat n) by (apply Z.pow_pos_nonneg; lia).
    assert (Pd : 0 < 2 ^ (mw - (Z.of_nat n + 1))) by (apply Z.pow_pos_nonneg; lia).
    assert (Pd2 : 2 ^ (mw - Z.of_nat n) = 2 * 2 ^ (mw - (Z.of_nat n + 1))) by (rewrite <- Z.pow_succ_r by lia; f_equal; lia).
    assert (Pm : 2 ^ (mw - 1) = 2 ^ Z.of_nat n * 2 ^ (mw - (Z.of_nat n + 1))) by (rewrite <- Z.pow_add_r by lia; f_equal; lia).
    assert (Mk : n <> O -> Z.shiftr (2 ^ Z.of_nat n) 1 = 2 ^ (Z.of_nat n - 1)).
    { intros N. rewrite Z.shiftr_div_pow2 by lia. change (2 ^ 1) with 2.
      assert (2 ^ Z.of_nat n = 2 ^ (Z.of_nat n - 1) * 2) by (rewrite Z.mul_comm, <- Z.pow_succ_r by lia; f_equal; lia).
      rewrite H, Z.div_mul by lia. reflexivity. }
    rewrite (le_ex _ _ _ _ Vc V), dy_le.
    assert (Dbl : forall z Z0, val z (dy Z0 emin) -> 0 <= Z0 < 2 ^ (mw - 1) -> val (fmul z (num 2 0)) (dy (Z0 * 2) emin)).
    { intros z Z0 Vz Hz. change (Z0 * 2) with (Z0 * 2 ^ 1). rewrite dy_shift by lia.
      apply (mul_pow mw Hmw Hmw_range Hemax _ _ _ 1); [lia|exact Vz|]. apply dy_fmt; lia. }
    assert (Rn : r mod 2 ^ Z.of_nat n = 0).
    { rewrite Z.pow_add_r in Hd by lia. apply Z.mod_divide in Hd; [|lia]. destruct Hd as (t & ->).
      apply Z.mod_divide; [lia|]. exists (t * 2 ^ 1). lia. }
    destruct (Z.leb_spec (2 ^ (mw - 1)) Y) as [L|L].
    + rewrite (IH _ ((Y - 2 ^ (mw - 1)) * 2) (Z.lor r (2 ^ Z.of_nat n))); try lia.
      * rewrite (lor_add r _ (Z.of_nat n + 1)); [|lia|rewrite Z.pow_add_r by lia; lia|exact Hd].
        rewrite Pd2. rewrite (Z.mul_comm 2). rewrite Z.div_mul_cancel_r by lia.
        replace Y with (Y - 2 ^ (mw - 1) + 2 ^ Z.of_nat n * 2 ^ (mw - (Z.of_nat n + 1))) at 2 by lia.
        rewrite Z.div_add by lia. lia.
      * apply Dbl; [|lia]. rewrite <- dy_sub. apply sub_ex; [exact V|exact Vc|]. rewrite dy_sub. apply dy_fmt; lia.
      * apply Z.lor_nonneg. lia.
      * rewrite (lor_add r _ (Z.of_nat n + 1)); [|lia|rewrite Z.pow_add_r by lia; lia|exact Hd].
        rewrite <- (Z.mul_1_l (2 ^ Z.of_nat n)) at 1. rewrite Z.mod_add by lia. exact Rn.
    + rewrite (IH _ (Y * 2) r); try lia.
      * rewrite Pd2. rewrite (Z.mul_comm 2). rewrite Z.div_mul_cancel_r by lia. reflexivity.
      * apply Dbl; [exact V|lia].
Qed.

Lemma mantissaCode_ok x y E M : absVal x = y -> 0 <= E < 2 * emax - 1 -> 0 <= M < 2 ^ mw -> val y (mg E M) ->
  mantissaCode mw ew fuel x = Ok (if ones E M then 0 else M).
Proof.
  intros A HE HM V. destruct PP as (P & Q). unfold mantissaCode.
  destruct (absVal0_ok x y E M A HE HM V) as (z & -> & Vz). cbn [bind].
  destruct (expOf2_ok mw Hmw Hmw_range Hemax fuel (- (emax - 1)) Hfuel ltac:(lia)) as (q & -> & Vq). cbn [bind].
  assert (Vc : val q (dy (2 ^ (mw - 1)) emin)).
  { rewrite <- (Z.mul_1_l (2 ^ (mw - 1))), dy_shift by lia. replace (emin + (mw - 1)) with (- (emax - 1)) by lia. exact Vq. }
  f_equal. rewrite (bits_ok q Vc _ z (if ones E M then 0 else M) 0); try lia.
  - rewrite Z2Nat.id, Z.sub_diag by lia. change (2 ^ 0) with 1. rewrite Z.div_1_r. lia.
  - destruct (ones E M); lia.
  - exact Vz.
  - apply Z.mod_0_l. rewrite Z2Nat.id by lia. lia.
  - intros _. rewrite Z2Nat.id by lia. reflexivity.
Qed.

Lemma encode_finite pinf ninf x E M (neg : bool) : 0 <= E < 2 * emax - 1 -> 0 <= M < 2 ^ mw ->
  (if neg then val x (- mg E M) /\ (E <> 0 \/ M <> 0) else val x (mg E M)) ->
  encode mw ew fuel pinf ninf x =
    Ok ((if neg then 2 ^ (mw + ew) else 0) + (E * 2 ^ mw + M) + (if ones E M then 1 else 0)).
Proof.
  intros HE HM HV. destruct PP as (P & Q).
  assert (exists y, absVal x = y /\ val y (mg E M) /\ signCode mw ew x = (if neg then 2 ^ (mw + ew) else 0) /\ fin x) as (y & A & V & S & F).
  { destruct neg.
    - destruct HV as (V & N). destruct (abs_neg x (mg E M)) as (V' & S); [apply mag_nz; lia|exact V|].
      exists (absVal x). repeat split; try assumption; apply V' || apply V.
    - destruct (abs_pos x (mg E M)) as (A & S); [apply mag_pos; lia|exact HV|].
      exists x. split; [exact A|]. split; [exact HV|]. split; [exact S|apply HV]. }
  unfold encode. assert (Zf : fin (num 0 0)) by apply zero_val.
  assert (T : fle (num 0 0) x || fle x (num 0 0) = true).
  { rewrite !fle_spec by (apply fin_nonnan; assumption). 
    destruct (Rle_bool_spec (fval (num 0 0)) (fval x)) as [|L]; [reflexivity|].
    rewrite (Rle_bool_true (fval x)) by lra. reflexivity. }
  rewrite T. cbn [negb]. rewrite A.
  assert (I : fle (B754_infinity false) y = false).
  { destruct V as (Fy & _). rewrite fle_spec by (try reflexivity; apply fin_nonnan; exact Fy).
    apply Rle_bool_false. rewrite (fval_fin prec emax y Fy). change (fval (B754_infinity false)) with (bpow radix2 emax).
    apply Rle_lt_trans with (1 := Rle_abs _). apply fin_lt_emax. }
  rewrite I. unfold exponentCode. rewrite (exponentVal_ok x y E M A HE HM V). cbn [bind].
  rewrite (mantissaCode_ok x y E M A HE HM V). cbn [bind]. f_equal. rewrite S.
  assert (Pe : 0 < 2 ^ ew) by (apply Z.pow_pos_nonneg; lia).
  set (e := E + (if ones E M then 1 else 0)). set (m := if ones E M then 0 else M).
  assert (He : 0 <= e < 2 ^ ew) by (unfold e; rewrite PE; destruct (ones E M); lia).
  assert (Hm : 0 <= m < 2 ^ mw) by (unfold m; destruct (ones E M); lia).
  assert (Re : 0 <= e * 2 ^ mw < 2 ^ (mw + ew)).
  { rewrite Z.add_comm, Z.pow_add_r by lia. split; [apply Z.mul_nonneg_nonneg; lia|]. apply Z.mul_lt_mono_pos_r; lia. }
  rewrite Z.shiftl_mul_pow2 by lia. rewrite Z.mod_small.
  2:{ split; [lia|]. apply Z.lt_le_trans with (2 ^ (mw + ew)); [lia|]. apply Z.pow_le_mono_r; lia. }
  rewrite (lor_add _ (e * 2 ^ mw) (mw + ew)); [|lia|exact Re|].
  2:{ destruct neg; [apply Z.mod_same; lia|apply Z.mod_0_l; lia]. }
  rewrite (lor_add _ m mw); [|lia|exact Hm|].
  2:{ rewrite Z.mod_add by lia. destruct neg; [|apply Z.mod_0_l; lia].
      rewrite Z.add_comm, Z.pow_add_r by lia. apply Z.mod_mul. lia. }
  unfold e, m. unfold ones. destruct (Z.ltb_spec 0 E); destruct (Z.eqb_spec M (2 ^ mw - 1)); cbn [andb]; lia.
Qed.
End Gen.
