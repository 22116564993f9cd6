(** Exactness of the decoding and encoding loops of [BinCode]. *)
From Coq Require Import List Arith ZArith Bool Reals Lia Lra.
From Flocq Require Import Core BinarySingleNaN.
From Verif Require Import Base Fl FlFacts BinCode.
Open Scope Z_scope.

Lemma while_ind {A} (P : nat -> A -> Prop) c (f : A -> A) :
  (forall n a, P (S n) a -> c a = true /\ P n (f a)) -> (forall a, P O a -> c a = false) ->
  forall n fuel a, (n <= fuel)%nat -> P n a -> exists b, while fuel c f a = Ok b /\ P O b.
Proof.
  intros HS H0. induction n as [|n IH]; intros fuel a Hf HP.
  - exists a. split; [|exact HP]. destruct fuel; cbn [while]; rewrite (H0 _ HP); reflexivity.
  - destruct fuel as [|fuel]; [lia|]. destruct (HS _ _ HP) as (C & HP'). cbn [while]. rewrite C.
    apply IH; [lia|exact HP'].
Qed.

(** Bits. *)
Lemma land_pow2_zero c i : 0 <= i -> (Z.land c (2 ^ i) =? 0) = negb (Z.testbit c i).
Proof.
  intros Hi. destruct (Z.testbit c i) eqn:T; cbn [negb].
  - apply Z.eqb_neq. intros E. assert (B : Z.testbit (Z.land c (2 ^ i)) i = true).
    { rewrite Z.land_spec, T, Z.pow2_bits_true by exact Hi. reflexivity. }
    rewrite E, Z.bits_0 in B. discriminate B.
  - apply Z.eqb_eq. apply Z.bits_inj'. intros n Hn. rewrite Z.land_spec, Z.bits_0.
    destruct (Z.eq_dec n i) as [->|Ne]; [rewrite T; reflexivity|].
    rewrite Z.pow2_bits_false by lia. apply andb_false_r.
Qed.
Lemma mod_pow2_step c k : 0 <= k ->
  c mod 2 ^ (k + 1) = (if Z.testbit c k then 2 ^ k else 0) + c mod 2 ^ k.
Proof.
  intros Hk. rewrite Z.pow_add_r by lia. change (2 ^ 1) with 2.
  rewrite Z.rem_mul_r by (try lia; apply Z.pow_nonzero; lia).
  rewrite <- Z.bit0_mod. rewrite <- Z.shiftr_div_pow2 by exact Hk. rewrite Z.shiftr_spec by lia. rewrite Z.add_0_l.
  destruct (Z.testbit c k); cbn [Z.b2z]; lia.
Qed.
Lemma lor_add a b n : 0 <= n -> 0 <= b < 2 ^ n -> a mod 2 ^ n = 0 -> Z.lor a b = a + b.
Proof.
  intros Hn Hb Ha. assert (L : Z.land a b = 0).
  { apply Z.bits_inj'. intros i Hi. rewrite Z.land_spec, Z.bits_0.
    destruct (Z_lt_dec i n) as [Lt|Ge].
    - assert (T : Z.testbit (a mod 2 ^ n) i = false) by (rewrite Ha; apply Z.bits_0).
      rewrite Z.mod_pow2_bits_low in T by lia. rewrite T. reflexivity.
    - assert (T : Z.testbit b i = false).
      { destruct (Z.eq_dec b 0) as [->|]; [apply Z.bits_0|]. apply Z.bits_above_log2; [lia|].
        apply Z.lt_le_trans with n; [|lia]. apply Z.log2_lt_pow2; lia. }
      rewrite T. apply andb_false_r. }
  rewrite Z.add_nocarry_lxor by exact L. symmetry. apply Z.lxor_lor. exact L.
Qed.

Section Gen.
Context {prec emax : Z} {Hp : FLX.Prec_gt_0 prec} {Hx : Prec_lt_emax prec emax}.
Notation flo := (binary_float prec emax).
Notation num := (fofZ (prec := prec) (emax := emax)).
Notation emin := (3 - emax - prec).

Definition val (x : flo) (r : R) : Prop := fin x /\ B2R x = r.
Definition fmt (r : R) : Prop :=
  exists m e, Z.abs m < 2 ^ prec /\ emin <= e <= emax - prec /\ r = (IZR m * bpow radix2 e)%R.

Lemma fmt_gen r : fmt r -> generic_format radix2 (SpecFloat.fexp prec emax) r.
Proof.
  intros (m & e & Hm & He & ->). apply gen_IZR_bpow; [exact Hp|lia|].
  unfold SpecFloat.emin. lia.
Qed.
Lemma fmt_lt r : fmt r -> (Rabs r < bpow radix2 emax)%R.
Proof.
  intros (m & e & Hm & He & ->).
  rewrite Rabs_mult, (Rabs_pos_eq (bpow radix2 e)) by apply bpow_ge_0.
  apply Rlt_le_trans with (bpow radix2 prec * bpow radix2 e)%R.
  - apply Rmult_lt_compat_r; [apply bpow_gt_0|]. rewrite <- abs_IZR.
    rewrite <- (IZR_Zpower radix2) by (pose proof Hp; unfold FLX.Prec_gt_0 in *; lia). apply IZR_lt. exact Hm.
  - rewrite <- bpow_plus. apply bpow_le. lia.
Qed.
Lemma fmt_rnd r : fmt r -> Generic_fmt.round radix2 (SpecFloat.fexp prec emax) ZnearestE r = r.
Proof. intros H. apply round_generic; [typeclasses eauto|]. apply fmt_gen, H. Qed.

Lemma mul_ex x y a b : val x a -> val y b -> fmt (a * b) -> val (fmul x y) (a * b).
Proof.
  intros (Fx & Ex) (Fy & Ey) H. destruct (fmul_fin prec emax _ _ x y Fx Fy) as (F & E).
  - rewrite Ex, Ey, fmt_rnd by exact H. apply fmt_lt, H.
  - split; [exact F|]. rewrite E, Ex, Ey. apply fmt_rnd, H.
Qed.
Lemma div_ex x y a b : val x a -> val y b -> b <> 0%R -> fmt (a / b) -> val (fdiv x y) (a / b).
Proof.
  intros (Fx & Ex) (Fy & Ey) Nb H. destruct (fdiv_fin prec emax _ _ x y Fx) as (F & E).
  - rewrite Ey. exact Nb.
  - rewrite Ex, Ey, fmt_rnd by exact H. apply fmt_lt, H.
  - split; [exact F|]. rewrite E, Ex, Ey. apply fmt_rnd, H.
Qed.
Lemma add_ex x y a b : val x a -> val y b -> fmt (a + b) -> val (fadd x y) (a + b).
Proof.
  intros (Fx & Ex) (Fy & Ey) H. destruct (fadd_fin prec emax _ _ x y Fx Fy) as (F & E).
  - rewrite Ex, Ey, fmt_rnd by exact H. apply fmt_lt, H.
  - split; [exact F|]. rewrite E, Ex, Ey. apply fmt_rnd, H.
Qed.
Lemma sub_ex x y a b : val x a -> val y b -> fmt (a - b) -> val (fsub x y) (a - b).
Proof.
  intros (Fx & Ex) (Fy & Ey) H. destruct (fsub_fin prec emax _ _ x y Fx Fy) as (F & E).
  - rewrite Ex, Ey, fmt_rnd by exact H. apply fmt_lt, H.
  - split; [exact F|]. rewrite E, Ex, Ey. apply fmt_rnd, H.
Qed.
Lemma num_ex m e : fmt (IZR m * bpow radix2 e) -> val (num m e) (IZR m * bpow radix2 e).
Proof.
  intros H. destruct (fofZ_fin prec emax _ _ m e) as (F & E).
  - rewrite fmt_rnd by exact H. apply fmt_lt, H.
  - split; [exact F|]. rewrite E. apply fmt_rnd, H.
Qed.
Lemma lt_ex x y a b : val x a -> val y b -> flt x y = Rlt_bool a b.
Proof.
  intros (Fx & Ex) (Fy & Ey). rewrite flt_spec by (apply fin_nonnan; assumption).
  rewrite !fval_fin by assumption. rewrite Ex, Ey. reflexivity.
Qed.
Lemma le_ex x y a b : val x a -> val y b -> fle x y = Rle_bool a b.
Proof.
  intros (Fx & Ex) (Fy & Ey). rewrite fle_spec by (apply fin_nonnan; assumption).
  rewrite !fval_fin by assumption. rewrite Ex, Ey. reflexivity.
Qed.
Lemma opp_ex x a : val x a -> val (fopp x) (- a).
Proof. intros (Fx & Ex). split; [apply fopp_fin, Fx|]. rewrite fopp_B2R, Ex. reflexivity. Qed.
Lemma val_inj x y a : a <> 0%R -> val x a -> val y a -> x = y.
Proof.
  intros Na (Fx & Ex) (Fy & Ey). apply B2R_inj.
  - destruct x; cbn in *; try reflexivity; try discriminate; congruence.
  - destruct y; cbn in *; try reflexivity; try discriminate; congruence.
  - congruence.
Qed.

(** Multiples of a power of two. *)
Definition dy (m e : Z) : R := (IZR m * bpow radix2 e)%R.
Lemma dy_fmt m e : Z.abs m < 2 ^ prec -> emin <= e <= emax - prec -> fmt (dy m e).
Proof. intros A B. exists m, e. repeat split; try tauto; lia. Qed.
Lemma dy_lt m n e : Rlt_bool (dy m e) (dy n e) = (m <? n).
Proof.
  unfold dy. pose proof (bpow_gt_0 radix2 e) as P.
  destruct (Z.ltb_spec m n) as [L|L].
  - apply Rlt_bool_true. apply Rmult_lt_compat_r; [exact P|]. apply IZR_lt, L.
  - apply Rlt_bool_false. apply Rmult_le_compat_r; [lra|]. apply IZR_le, L.
Qed.
Lemma dy_le m n e : Rle_bool (dy m e) (dy n e) = (m <=? n).
Proof.
  unfold dy. pose proof (bpow_gt_0 radix2 e) as P.
  destruct (Z.leb_spec m n) as [L|L].
  - apply Rle_bool_true. apply Rmult_le_compat_r; [lra|]. apply IZR_le, L.
  - apply Rle_bool_false. apply Rmult_lt_compat_r; [exact P|]. apply IZR_lt, L.
Qed.
Lemma dy_shift m e k : 0 <= k -> dy (m * 2 ^ k) e = dy m (e + k).
Proof.
  intros Hk. unfold dy. rewrite mult_IZR, bpow_plus.
  rewrite <- (IZR_Zpower radix2 k Hk). change (radix2 ^ k) with (2 ^ k). ring.
Qed.
Lemma dy_mul m n e f : (dy m e * dy n f = dy (m * n) (e + f))%R.
Proof. unfold dy. rewrite mult_IZR, bpow_plus. ring. Qed.
Lemma dy_div m e k f : 0 <= k -> (dy m e / dy (2 ^ k) f = dy m (e - k - f))%R.
Proof.
  intros Hk. unfold dy. change (2 ^ k) with (radix2 ^ k). rewrite (IZR_Zpower radix2 k Hk).
  unfold Zminus. rewrite !bpow_plus, !bpow_opp. pose proof (bpow_gt_0 radix2 k). pose proof (bpow_gt_0 radix2 f). field. lra.
Qed.
Lemma dy_add m n e : (dy m e + dy n e = dy (m + n) e)%R.
Proof. unfold dy. rewrite plus_IZR. ring. Qed.
Lemma dy_sub m n e : (dy m e - dy n e = dy (m - n) e)%R.
Proof. unfold dy. rewrite minus_IZR. ring. Qed.
Lemma dy_pos m e : 0 < m -> (0 < dy m e)%R.
Proof. intros H. apply Rmult_lt_0_compat; [apply IZR_lt, H|apply bpow_gt_0]. Qed.
Lemma dy_0 e : dy 0 e = 0%R.
Proof. unfold dy. ring. Qed.

Section Loops.
Variables (mw ew : Z).
Hypothesis Hmw : prec = mw + 1.
Hypothesis Hmw_range : 10 <= mw <= 52.
Hypothesis Hew : emax = 2 ^ (ew - 1).
Hypothesis Hew_range : 2 <= ew.
Hypothesis Hemax : prec + 11 < emax.

Lemma pow_prec : 2 ^ prec = 2 * 2 ^ mw /\ 1024 <= 2 ^ mw.
Proof using Hmw Hmw_range.
  clear Hew Hew_range Hemax.
  split.
  - rewrite Hmw. rewrite Z.pow_add_r by lia. lia.
  - change 1024 with (2 ^ 10). apply Z.pow_le_mono_r; lia.
Qed.
Lemma lit_val m : Z.abs m < 1025 -> val (num m 0) (dy m 0).
Proof using Hmw Hmw_range Hemax.
  clear Hew Hew_range.
  intros H. apply num_ex. apply dy_fmt; [|lia]. destruct pow_prec as (P & Q). lia.
Qed.
Lemma pow_fmt N : emin <= N < emax -> fmt (dy 1 N).
Proof using Hmw Hmw_range Hemax.
  clear Hew Hew_range.
  intros H. destruct pow_prec as (P & Q). destruct (Z_le_dec N (emax - prec)) as [L|L].
  - apply dy_fmt; lia.
  - replace (dy 1 N) with (dy (1 * 2 ^ (N - (emax - prec))) (emax - prec)).
    + apply dy_fmt; [|lia]. rewrite Z.mul_1_l. rewrite Z.abs_eq by (apply Z.pow_nonneg; lia).
      apply Z.pow_lt_mono_r; lia.
    + rewrite dy_shift by lia. f_equal. lia.
Qed.

Lemma mul_pow x m e k : 0 <= k <= 10 -> val x (dy m e) -> fmt (dy m (e + k)) ->
  val (fmul x (num (2 ^ k) 0)) (dy m (e + k)).
Proof using Hmw Hmw_range Hemax.
  clear Hew Hew_range.
  intros Hk Vx F. assert (K : 2 ^ k <= 1024) by (change 1024 with (2 ^ 10); apply Z.pow_le_mono_r; lia).
  assert (K0 : 0 < 2 ^ k) by (apply Z.pow_pos_nonneg; lia).
  assert (E : (dy m e * dy (2 ^ k) 0 = dy m (e + k))%R).
  { rewrite dy_mul. rewrite dy_shift by lia. f_equal. lia. }
  rewrite <- E. apply mul_ex; [exact Vx|apply lit_val; lia|rewrite E; exact F].
Qed.
Lemma div_pow x m e k : 0 <= k <= 10 -> val x (dy m e) -> fmt (dy m (e - k)) ->
  val (fdiv x (num (2 ^ k) 0)) (dy m (e - k)).
Proof using Hmw Hmw_range Hemax.
  clear Hew Hew_range.
  intros Hk Vx F. assert (K : 2 ^ k <= 1024) by (change 1024 with (2 ^ 10); apply Z.pow_le_mono_r; lia).
  assert (K0 : 0 < 2 ^ k) by (apply Z.pow_pos_nonneg; lia).
  assert (E : (dy m e / dy (2 ^ k) 0 = dy m (e - k))%R).
  { rewrite dy_div by lia. f_equal. lia. }
  rewrite <- E. apply div_ex; [exact Vx|apply lit_val; lia| |rewrite E; exact F].
  pose proof (dy_pos (2 ^ k) 0 K0). lra.
Qed.

(** A loop [while (N > t) { x *= 2^k; N -= k }] and the one that divides. *)
Lemma scale_up k t (Hk : 1 <= k <= 10) (Ht : 0 <= t) (m : Z) :
  forall fu x N e, (Z.to_nat N <= fu)%nat -> val x (dy m e) ->
  (forall j, 0 <= j <= Z.max N 0 -> fmt (dy m (e + j))) ->
  k <= t + 1 ->
  exists y N', while fu (fun s : flo * Z => t <? snd s) (fun s => (fmul (fst s) (num (2 ^ k) 0), snd s - k)) (x, N) = Ok (y, N')
    /\ (N <= t -> N' = N) /\ (t < N -> 0 <= N' <= t) /\ val y (dy m (e + (N - N'))).
Proof using Hmw Hmw_range Hemax.
  clear Hew Hew_range.
  induction fu as [|fu IH]; intros x N e Hf Vx F Hkt.
  - cbn [while snd fst]. destruct (Z.ltb_spec t N); [lia|].
    exists x, N. split; [reflexivity|]. split; [reflexivity|]. split; [lia|].
    replace (e + (N - N)) with e by lia. exact Vx.
  - cbn [while snd fst]. destruct (Z.ltb_spec t N) as [L|L].
    + destruct (IH (fmul x (num (2 ^ k) 0)) (N - k) (e + k)) as (y & N' & W & A & B & V).
      * lia.
      * apply mul_pow; [lia|exact Vx|]. apply F. lia.
      * intros j Hj. rewrite <- Z.add_assoc. apply F. lia.
      * exact Hkt.
      * exists y, N'. split; [exact W|]. split; [lia|]. split.
        { intros _. destruct (Z_le_dec (N - k) t) as [Q|Q]; [rewrite A by lia; lia|apply B; lia]. }
        replace (e + (N - N')) with (e + k + (N - k - N')) by lia. exact V.
    + exists x, N. split; [reflexivity|]. split; [reflexivity|]. split; [lia|].
      replace (e + (N - N)) with e by lia. exact Vx.
Qed.
Lemma scale_down k t (Hk : 1 <= k <= 10) (Ht : t <= 0) (m : Z) :
  forall fu x N e, (Z.to_nat (- N) <= fu)%nat -> val x (dy m e) ->
  (forall j, Z.min N 0 <= j <= 0 -> fmt (dy m (e + j))) ->
  k <= - t + 1 ->
  exists y N', while fu (fun s : flo * Z => snd s <? t) (fun s => (fdiv (fst s) (num (2 ^ k) 0), snd s + k)) (x, N) = Ok (y, N')
    /\ (t <= N -> N' = N) /\ (N < t -> t <= N' <= 0) /\ val y (dy m (e + (N - N'))).
Proof using Hmw Hmw_range Hemax.
  clear Hew Hew_range.
  induction fu as [|fu IH]; intros x N e Hf Vx F Hkt.
  - cbn [while snd fst]. destruct (Z.ltb_spec N t); [lia|].
    exists x, N. split; [reflexivity|]. split; [reflexivity|]. split; [lia|].
    replace (e + (N - N)) with e by lia. exact Vx.
  - cbn [while snd fst]. destruct (Z.ltb_spec N t) as [L|L].
    + destruct (IH (fdiv x (num (2 ^ k) 0)) (N + k) (e - k)) as (y & N' & W & A & B & V).
      * lia.
      * apply div_pow; [lia|exact Vx|]. replace (e - k) with (e + - k) by lia. apply F. lia.
      * intros j Hj. replace (e - k + j) with (e + (j - k)) by lia. apply F. lia.
      * exact Hkt.
      * exists y, N'. split; [exact W|]. split; [lia|]. split.
        { intros _. destruct (Z_le_dec t (N + k)) as [Q|Q]; [rewrite A by lia; lia|apply B; lia]. }
        replace (e + (N - N')) with (e - k + (N + k - N')) by lia. exact V.
    + exists x, N. split; [reflexivity|]. split; [reflexivity|]. split; [lia|].
      replace (e + (N - N)) with e by lia. exact Vx.
Qed.

Lemma expOf2_ok fuel N : (Z.to_nat emax + 20 <= fuel)%nat -> - emax <= N < emax ->
  exists p : flo, expOf2 fuel N = Ok p /\ val p (dy 1 N).
Proof using Hmw Hmw_range Hemax.
  clear Hew Hew_range.
  intros Hf HN. unfold expOf2.
  assert (Pf : forall j, - emax <= j < emax -> fmt (dy 1 j)) by (intros; apply pow_fmt; lia).
  destruct (scale_up 10 11 ltac:(lia) ltac:(lia) 1 fuel (num 1 0) N 0) as (y1 & N1 & W1 & A1 & B1 & V1);
    [lia|apply lit_val; lia|intros j Hj; apply Pf; lia|lia|].
  change (num 1024 0) with (num (2 ^ 10) 0). rewrite W1. cbn [bind].
  destruct (scale_up 1 0 ltac:(lia) ltac:(lia) 1 fuel y1 N1 (0 + (N - N1))) as (y2 & N2 & W2 & A2 & B2 & V2);
    [lia|exact V1|intros j Hj; apply Pf; lia|lia|].
  change (num 2 0) with (num (2 ^ 1) 0). rewrite W2. cbn [bind].
  destruct (scale_down 10 (-11) ltac:(lia) ltac:(lia) 1 fuel y2 N2 (0 + (N - N1) + (N1 - N2))) as (y3 & N3 & W3 & A3 & B3 & V3);
    [lia|exact V2|intros j Hj; apply Pf; lia|lia|].
  rewrite W3. cbn [bind].
  destruct (scale_down 1 0 ltac:(lia) ltac:(lia) 1 fuel y3 N3 (0 + (N - N1) + (N1 - N2) + (N2 - N3))) as (y4 & N4 & W4 & A4 & B4 & V4);
    [lia|exact V3|intros j Hj; apply Pf; lia|lia|].
  rewrite W4. cbn [bind fst]. exists y4. split; [reflexivity|].
  replace N with (0 + (N - N1) + (N1 - N2) + (N2 - N3) + (N3 - N4)) by lia. exact V4.
Qed.

Lemma mantissa_sum_0 n c (r d : flo) : mantissa_sum n c 0 r d = r.
Proof.
  revert r d. induction n as [|n IH]; intros r d; cbn [mantissa_sum]; [reflexivity|].
  rewrite Z.land_0_r. cbn [Z.eqb]. apply IH.
Qed.
Lemma mantissa_sum_ok c : forall k n r d H, Z.of_nat k <= mw -> (k <= n)%nat -> 0 <= H -> H + 2 ^ Z.of_nat k <= 2 ^ prec ->
  val r (dy H (- mw)) -> val d (dy 1 (Z.of_nat k - 1 - mw)) ->
  val (mantissa_sum n c (match k with O => 0 | S k' => 2 ^ Z.of_nat k' end) r d : flo) (dy (H + c mod 2 ^ Z.of_nat k) (- mw)).
Proof using Hmw Hmw_range Hemax.
  clear Hew Hew_range.
  induction k as [|k IH]; intros n r d H Hk Hn H0 HH Vr Vd.
  - rewrite mantissa_sum_0. change (2 ^ Z.of_nat 0) with 1. rewrite Z.mod_1_r, Z.add_0_r. exact Vr.
  - destruct n as [|n]; [lia|]. cbn [mantissa_sum].
    rewrite Nat2Z.inj_succ in *. unfold Z.succ in *.
    assert (P0 : 0 < 2 ^ Z.of_nat k) by (apply Z.pow_pos_nonneg; lia).
    rewrite Z.pow_add_r in HH by lia. change (2 ^ 1) with 2 in HH.
    replace (Z.shiftr (2 ^ Z.of_nat k) 1) with (match k with O => 0 | S k' => 2 ^ Z.of_nat k' end).
    2:{ destruct k as [|k']; [reflexivity|]. rewrite Z.shiftr_div_pow2 by lia. rewrite Nat2Z.inj_succ.
        unfold Z.succ. rewrite Z.pow_add_r by lia. rewrite Z.div_mul; [reflexivity|lia]. }
    rewrite land_pow2_zero by lia. rewrite mod_pow2_step by lia.
    assert (Vd' : val (fdiv d (num 2 0)) (dy 1 (Z.of_nat k - 1 - mw))).
    { replace (Z.of_nat k - 1 - mw) with (Z.of_nat k + 1 - 1 - mw - 1) by lia.
      apply (div_pow d 1 _ 1); [lia|exact Vd|]. apply pow_fmt. lia. }
    destruct (Z.testbit c (Z.of_nat k)); cbn [negb].
    + replace (H + (2 ^ Z.of_nat k + c mod 2 ^ Z.of_nat k)) with (H + 2 ^ Z.of_nat k + c mod 2 ^ Z.of_nat k) by lia.
      apply IH; try lia; [|exact Vd'].
      assert (D : dy 1 (Z.of_nat k + 1 - 1 - mw) = dy (2 ^ Z.of_nat k) (- mw)).
      { rewrite <- (Z.mul_1_l (2 ^ _)), dy_shift by lia. f_equal. lia. }
      rewrite D in Vd. rewrite <- dy_add. apply add_ex; [exact Vr|exact Vd|].
      rewrite dy_add. apply dy_fmt; lia.
    + rewrite Z.add_0_l. apply IH; try lia; [exact Vr|exact Vd'].
Qed.

(** The value of the decoded magnitude, for a finite code. *)
Definition mag (E M : Z) : R := if E =? 0 then dy M emin else dy (2 ^ mw + M) (emin + (E - 1)).

Lemma pow_ew : 2 ^ ew = 2 * emax.
Proof using Hew Hew_range.
  clear Hemax. rewrite Hew. replace ew with (1 + (ew - 1)) at 1 by lia. rewrite Z.pow_add_r by lia. lia.
Qed.
Lemma mag_fmt E M : 0 <= E < 2 * emax - 1 -> 0 <= M < 2 ^ mw -> fmt (mag E M).
Proof using Hmw Hmw_range Hemax.
  clear Hew Hew_range. intros HE HM. destruct pow_prec as (P & Q). unfold mag.
  destruct (Z.eqb_spec E 0); apply dy_fmt; lia.
Qed.

Section Code.
Variable c : Z.
Hypothesis Hc : 0 <= c < 2 ^ (mw + ew + 1).
Notation E := ((c / 2 ^ mw) mod 2 ^ ew).
Notation M := (c mod 2 ^ mw).

Lemma shifted_ones a b : 0 <= a -> 0 <= b -> forall i, 0 <= i ->
  Z.testbit (Z.shiftl (2 ^ a - 1) b) i = (b <=? i) && (i <? b + a).
Proof.
  intros Ha Hb i Hi. destruct (Z.leb_spec b i) as [L|L]; cbn [andb].
  - rewrite Z.shiftl_spec_high by lia. replace (2 ^ a - 1) with (Z.ones a) by (rewrite Z.ones_equiv; lia).
    destruct (Z.ltb_spec i (b + a)).
    + apply Z.ones_spec_low. lia.
    + apply Z.ones_spec_high. lia.
  - apply Z.shiftl_spec_low. lia.
Qed.
Lemma exp_field : Z.land c (Z.shiftl (2 ^ ew - 1) mw) = E * 2 ^ mw.
Proof.
  rewrite <- Z.shiftl_mul_pow2 by lia.
  apply Z.bits_inj'. intros i Hi. rewrite Z.land_spec, shifted_ones by lia.
  destruct (Z.leb_spec mw i) as [L|L]; cbn [andb].
  - rewrite Z.shiftl_spec_high by lia. destruct (Z.ltb_spec i (mw + ew)).
    + rewrite Z.mod_pow2_bits_low by lia. rewrite <- Z.shiftr_div_pow2 by lia. rewrite Z.shiftr_spec by lia.
      rewrite andb_true_r. f_equal. lia.
    + rewrite Z.mod_pow2_bits_high by lia. apply andb_false_r.
  - rewrite Z.shiftl_spec_low by lia. apply andb_false_r.
Qed.
Lemma man_field : Z.land (2 ^ mw - 1) c = M.
Proof.
  rewrite Z.land_comm. replace (2 ^ mw - 1) with (Z.ones mw) by (rewrite Z.ones_equiv; lia).
  apply Z.land_ones. lia.
Qed.
Lemma abs_field : Z.ldiff c (2 ^ (mw + ew)) = E * 2 ^ mw + M.
Proof.
  assert (S : E * 2 ^ mw + M = c mod 2 ^ (mw + ew)).
  { rewrite Z.pow_add_r by lia. rewrite Z.rem_mul_r; [lia| |]; try apply Z.pow_nonzero; try (apply Z.pow_pos_nonneg); lia. }
  rewrite S. apply Z.bits_inj'. intros i Hi. rewrite Z.ldiff_spec.
  destruct (Z_lt_dec i (mw + ew)).
  - rewrite Z.pow2_bits_false by lia. rewrite Z.mod_pow2_bits_low by lia. apply andb_true_r.
  - rewrite Z.mod_pow2_bits_high by lia. destruct (Z.eq_dec i (mw + ew)) as [->|].
    + rewrite Z.pow2_bits_true by lia. apply andb_false_r.
    + destruct (Z.eq_dec c 0) as [->|]; [rewrite Z.bits_0; reflexivity|].
      rewrite Z.bits_above_log2; [reflexivity|lia|]. apply Z.lt_le_trans with (mw + ew + 1); [|lia].
      apply Z.log2_lt_pow2; lia.
Qed.
Lemma code_split : c = (if 2 ^ (mw + ew) <=? c then 2 ^ (mw + ew) else 0) + (E * 2 ^ mw + M).
Proof.
  assert (S : E * 2 ^ mw + M = c mod 2 ^ (mw + ew)).
  { rewrite Z.pow_add_r by lia. rewrite Z.rem_mul_r; [lia| |]; try apply Z.pow_nonzero; try (apply Z.pow_pos_nonneg); lia. }
  rewrite S. rewrite Z.pow_add_r in Hc by lia. change (2 ^ 1) with 2 in Hc.
  assert (0 < 2 ^ (mw + ew)) by (apply Z.pow_pos_nonneg; lia).
  destruct (Z.leb_spec (2 ^ (mw + ew)) c).
  - replace (c mod 2 ^ (mw + ew)) with (c - 2 ^ (mw + ew)); [lia|].
    apply (Z.mod_unique c (2 ^ (mw + ew)) 1); lia.
  - rewrite Z.mod_small; lia.
Qed.
Lemma sign_field : (Z.land c (2 ^ (mw + ew)) =? 0) = negb (2 ^ (mw + ew) <=? c).
Proof.
  rewrite land_pow2_zero by lia. f_equal. rewrite Z.pow_add_r in Hc by lia. change (2 ^ 1) with 2 in Hc.
  assert (0 < 2 ^ (mw + ew)) by (apply Z.pow_pos_nonneg; lia).
  rewrite <- (Z.add_0_l (mw + ew)) at 1. rewrite <- Z.shiftr_spec by lia.
  rewrite Z.shiftr_div_pow2 by lia. rewrite <- Z.bit0_odd || idtac.
  destruct (Z.leb_spec (2 ^ (mw + ew)) c).
  - replace (c / 2 ^ (mw + ew)) with 1; [reflexivity|].
    apply (Z.div_unique c (2 ^ (mw + ew)) 1 (c - 2 ^ (mw + ew))); lia.
  - rewrite Z.div_small by lia. reflexivity.
Qed.
Lemma E_range : 0 <= E < 2 * emax.
Proof. rewrite <- pow_ew. apply Z.mod_pos_bound. apply Z.pow_pos_nonneg; lia. Qed.
Lemma M_range : 0 <= M < 2 ^ mw.
Proof. apply Z.mod_pos_bound. apply Z.pow_pos_nonneg; lia. Qed.

Lemma decode_finite fuel : (Z.to_nat emax + 20 <= fuel)%nat -> E < 2 * emax - 1 ->
  exists r : flo, decode mw ew fuel c = Ok (if 2 ^ (mw + ew) <=? c then fopp r else r) /\ val r (mag E M).
Proof.
  intros Hf HE. pose proof M_range as RM. pose proof E_range as RE. destruct pow_prec as (P & Q).
  assert (PM : 0 < 2 ^ mw) by (apply Z.pow_pos_nonneg; lia).
  unfold decode. rewrite (Z.land_comm (Z.shiftl _ _) c), exp_field, man_field, abs_field, sign_field.
  rewrite Z.shiftl_mul_pow2 by lia. replace (2 ^ ew - 1) with (2 * emax - 1) by (rewrite pow_ew; reflexivity).
  destruct (Z.eqb_spec (E * 2 ^ mw) ((2 * emax - 1) * 2 ^ mw)) as [EQ|_].
  { apply Z.mul_reg_r in EQ; lia. }
  cbn [andb].
  destruct (Z.leb_spec ((2 * emax - 1) * 2 ^ mw) (E * 2 ^ mw + M)) as [L|_].
  { assert (E * 2 ^ mw + M < (E + 1) * 2 ^ mw) by lia.
    assert ((E + 1) * 2 ^ mw <= (2 * emax - 1) * 2 ^ mw) by (apply Z.mul_le_mono_nonneg_r; lia). lia. }
  rewrite Z.shiftr_div_pow2, Z.div_mul by lia.
  set (r0 := if E =? 0 then num 0 0 else fadd (num 0 0) (num 1 0)).
  assert (V0 : val r0 (dy (if E =? 0 then 0 else 2 ^ mw) (- mw))).
  { unfold r0. destruct (E =? 0).
    - rewrite dy_0, <- (dy_0 0). apply lit_val. lia.
    - rewrite <- (Z.mul_1_l (2 ^ mw)), dy_shift by lia. replace (- mw + mw) with 0 by lia.
      assert (D : (dy 0 0 + dy 1 0 = dy 1 0)%R) by (rewrite dy_0; ring).
      rewrite <- D. apply add_ex; [apply lit_val; lia|apply lit_val; lia|]. rewrite D. apply pow_fmt. lia. }
  pose proof (mantissa_sum_ok c (Z.to_nat mw) 52 r0 (num 1 (-1)) (if E =? 0 then 0 else 2 ^ mw)) as S.
  rewrite Z2Nat.id in S by lia.
  assert (V1 : val (mantissa_sum 52 c (2 ^ (mw - 1)) r0 (num 1 (-1))) (dy ((if E =? 0 then 0 else 2 ^ mw) + M) (- mw))).
  { replace (2 ^ (mw - 1)) with (match Z.to_nat mw with O => 0 | S k' => 2 ^ Z.of_nat k' end).
    - apply S; try lia; try (destruct (E =? 0); lia).
      + exact V0.
      + replace (mw - 1 - mw) with (-1) by lia. apply num_ex. apply pow_fmt. lia.
    - destruct (Z.to_nat mw) eqn:N; [lia|]. f_equal. lia. }
  clear S. set (r1 := mantissa_sum 52 c (2 ^ (mw - 1)) r0 (num 1 (-1))) in *. clearbody r1. clear r0 V0.
  unfold mag. destruct (Z.eqb_spec E 0) as [E0|N0].
  - rewrite Z.add_0_l in V1. destruct (expOf2_ok fuel (emax - 2) Hf ltac:(lia)) as (p & -> & Vp). cbn [bind].
    exists (fdiv r1 p). split; [destruct (2 ^ (mw + ew) <=? c); reflexivity|].
    change 1 with (2 ^ 0) in Vp. assert (D : (dy M (- mw) / dy (2 ^ 0) (emax - 2) = dy M emin)%R).
    { rewrite dy_div by lia. f_equal. lia. }
    rewrite <- D. apply div_ex; [exact V1|exact Vp| |rewrite D; apply dy_fmt; lia].
    pose proof (dy_pos (2 ^ 0) (emax - 2)). cbn in H. specialize (H ltac:(lia)). change (2 ^ 0) with 1. lra.
  - assert (Ff : forall e, emin <= e <= emax - prec -> fmt (dy (2 ^ mw + M) e)) by (intros; apply dy_fmt; lia).
    change (num 2 0) with (num (2 ^ 1) 0).
    destruct (scale_up 1 0 ltac:(lia) ltac:(lia) (2 ^ mw + M) fuel r1 (E - (emax - 1)) (- mw)) as (y1 & N1 & W1 & A1 & B1 & X1);
      [lia|exact V1|intros j Hj; apply Ff; lia|lia|].
    rewrite W1. cbn [bind].
    destruct (scale_down 1 0 ltac:(lia) ltac:(lia) (2 ^ mw + M) fuel y1 N1 (- mw + (E - (emax - 1) - N1))) as (y2 & N2 & W2 & A2 & B2 & X2);
      [lia|exact X1|intros j Hj; apply Ff; lia|lia|].
    rewrite W2. cbn [bind fst]. exists y2. split; [destruct (2 ^ (mw + ew) <=? c); reflexivity|].
    replace (emin + (E - 1)) with (- mw + (E - (emax - 1) - N1) + (N1 - N2)) by lia. exact X2.
Qed.

Lemma decode_special fuel : E = 2 * emax - 1 ->
  decode mw ew fuel c = Ok (if M =? 0 then B754_infinity (2 ^ (mw + ew) <=? c) else B754_nan).
Proof.
  intros HE. pose proof M_range as RM. pose proof code_split as CS.
  unfold decode. rewrite (Z.land_comm (Z.shiftl _ _) c), exp_field, man_field, abs_field.
  rewrite Z.shiftl_mul_pow2 by lia. replace (2 ^ ew - 1) with (2 * emax - 1) by (rewrite pow_ew; reflexivity). rewrite HE, Z.eqb_refl. cbn [andb].
  destruct (Z.eqb_spec M 0) as [M0|M0]; cbn [negb]; [|reflexivity].
  destruct (Z.leb_spec ((2 * emax - 1) * 2 ^ mw) ((2 * emax - 1) * 2 ^ mw + M)) as [_|]; [|lia].
  do 2 f_equal. rewrite <- HE. assert (0 < 2 ^ (mw + ew)) by (apply Z.pow_pos_nonneg; lia).
  destruct (2 ^ (mw + ew) <=? c); destruct (Z.eqb_spec (E * 2 ^ mw + M) c); cbn [negb]; try reflexivity; lia.
Qed.
End Code.
End Loops.
End Gen.
