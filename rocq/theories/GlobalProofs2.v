(** Facts about TemplateFloat.hpp. *)
From Coq Require Import List ZArith Reals Bool Lia Lra.
From Flocq Require Import Core BinarySingleNaN Relative.
From Verif Require Import Base Fl FlFacts GlobalM GlobalSpec GlobalProofs.
Import ListNotations.
Open Scope Z_scope.

(** * Bit fields *)
Lemma land_shiftl_low x b n : 0 <= n -> 0 <= b < 2 ^ n -> Z.land (Z.shiftl x n) b = 0.
Proof.
  intros Hn Hb. apply Z.bits_inj'. intros i Hi. rewrite Z.land_spec, Z.bits_0.
  destruct (Z.lt_ge_cases i n) as [L|L].
  - rewrite Z.shiftl_spec_low by exact L. reflexivity.
  - replace (Z.testbit b i) with false; [apply andb_false_r|]. symmetry.
    destruct (Z.eq_dec b 0) as [->|N]; [apply Z.bits_0|].
    apply Z.bits_above_log2; [lia|]. apply Z.lt_le_trans with n; [|exact L].
    apply Z.log2_lt_pow2; lia.
Qed.
Lemma lor_shiftl x b n : 0 <= n -> 0 <= b < 2 ^ n -> Z.lor (Z.shiftl x n) b = x * 2 ^ n + b.
Proof.
  intros Hn Hb. pose proof (land_shiftl_low x b n Hn Hb) as H.
  rewrite <- Z.lxor_lor by exact H. rewrite <- Z.add_nocarry_lxor by exact H.
  rewrite Z.shiftl_mul_pow2 by exact Hn. reflexivity.
Qed.
Lemma lor_low x b n : 0 <= n -> 0 <= b < 2 ^ n -> Z.lor (x * 2 ^ n) b = x * 2 ^ n + b.
Proof. intros. rewrite <- (lor_shiftl x b n), Z.shiftl_mul_pow2 by assumption. reflexivity. Qed.

(** * DivCode *)
Lemma DivEncode_eq a b : -2147483648 <= a < 2147483648 -> 0 <= b < 4294967296 ->
  DivEncode a b = (a mod 4294967296) * 4294967296 + b.
Proof.
  intros Ha Hb. unfold DivEncode, to_u64, wrap64.
  replace (Z.modulo (Z.shiftl (a mod two64) 32) two64) with (Z.shiftl (a mod 4294967296) 32).
  - rewrite lor_shiftl by (cbn; lia). reflexivity.
  - rewrite !Z.shiftl_mul_pow2 by lia. change (2 ^ 32) with 4294967296.
    change two64 with (4294967296 * 4294967296) at 2. rewrite Z.mul_mod_distr_r by lia. f_equal.
    unfold two64. change 18446744073709551616 with (4294967296 * 4294967296).
    rewrite Z.rem_mul_r by lia. rewrite (Z.mul_comm 4294967296), Z.mod_add by lia. rewrite Z.mod_mod by lia. reflexivity.
Qed.
Lemma Div_round a b : -2147483648 <= a < 2147483648 -> 0 <= b < 4294967296 ->
  0 <= DivEncode a b < two64 /\ DivNumerator (DivEncode a b) = a /\ DivDenominator (DivEncode a b) = b.
Proof.
  intros Ha Hb. rewrite DivEncode_eq by assumption.
  pose proof (Z.mod_pos_bound a 4294967296 ltac:(lia)) as M.
  split; [unfold two64; nia|]. split.
  - unfold DivNumerator. rewrite Z.shiftr_div_pow2 by lia. change (2 ^ 32) with 4294967296.
    rewrite Z.div_add_l, Z.div_small by lia. rewrite Z.add_0_r. unfold to_int.
    rewrite Zplus_mod_idemp_l. rewrite Z.mod_small; lia.
  - unfold DivDenominator. change 4294967295 with (Z.ones 32). rewrite Z.land_ones by lia.
    change (2 ^ 32) with 4294967296. rewrite Z.add_comm, Z.mod_add by lia. apply Z.mod_small. lia.
Qed.
Lemma Div_surj dc : 0 <= dc < two64 ->
  -2147483648 <= DivNumerator dc < 2147483648 /\ 0 <= DivDenominator dc < 4294967296 /\
  DivEncode (DivNumerator dc) (DivDenominator dc) = dc.
Proof.
  intros H.
  assert (A : -2147483648 <= DivNumerator dc < 2147483648).
  { unfold DivNumerator, to_int. pose proof (Z.mod_pos_bound (Z.shiftr dc 32 + 2147483648) 4294967296 ltac:(lia)). lia. }
  assert (B : 0 <= DivDenominator dc < 4294967296).
  { unfold DivDenominator. change 4294967295 with (Z.ones 32). rewrite Z.land_ones by lia. apply Z.mod_pos_bound. lia. }
  split; [exact A|]. split; [exact B|]. rewrite DivEncode_eq by assumption.
  unfold DivDenominator. change 4294967295 with (Z.ones 32). rewrite Z.land_ones by lia. change (2 ^ 32) with 4294967296.
  replace (DivNumerator dc mod 4294967296) with (dc / 4294967296); [pose proof (Z.div_mod dc 4294967296 ltac:(lia)); lia|].
  unfold DivNumerator, to_int. rewrite Z.shiftr_div_pow2 by lia. change (2 ^ 32) with 4294967296.
  rewrite Zminus_mod_idemp_l. replace (dc / 4294967296 + 2147483648 - 2147483648) with (dc / 4294967296) by lia.
  symmetry. apply Z.mod_small. unfold two64 in H. split; [apply Z.div_pos; lia|apply Z.div_lt_upper_bound; lia].
Qed.
Lemma DivReal_round a b : -2147483648 <= a < 2147483648 -> 1 <= b < 4294967296 ->
  fin (DivReal (DivEncode a b)) /\ B2R (DivReal (DivEncode a b)) = drnd (IZR a / IZR b).
Proof.
  intros Ha Hb. destruct (Div_round a b Ha ltac:(lia)) as (_ & E1 & E2).
  unfold DivReal. rewrite E1, E2.
  destruct (d_of_Z_exact a ltac:(lia)) as (Fa & Va). destruct (d_of_Z_exact b ltac:(lia)) as (Fb & Vb).
  assert (Pb : (1 <= IZR b)%R) by (apply IZR_le; lia).
  assert (Q : (Rabs (IZR a / IZR b) <= IZR 2147483648 * bpow radix2 0)%R).
  { unfold Rdiv. rewrite Rabs_mult, Rabs_inv, (Rabs_pos_eq (IZR b)) by lra. cbn [bpow]. rewrite Rmult_1_r.
    rewrite <- abs_IZR. apply Rle_trans with (IZR (Z.abs a) * 1)%R.
    - apply Rmult_le_compat_l; [apply IZR_le; lia|]. rewrite <- Rinv_1. apply Rinv_le_contravar; lra.
    - rewrite Rmult_1_r. apply IZR_le. lia. }
  destruct (fdiv_fin 53 1024 _ _ (d_of_Z a) (d_of_Z b) Fa) as (F & V).
  - rewrite Vb. lra.
  - rewrite Va, Vb. apply Rle_lt_trans with (IZR 2147483648 * bpow radix2 0)%R; [|apply mbound_lt_emax; lia].
    apply drnd_abs_bound; [lia|lia|exact Q].
  - split; [exact F|]. rewrite V, Va, Vb. reflexivity.
Qed.

(** * PowCode: the three fields *)
Lemma amplify_spec fuel : forall v, 0 < v < 10 * pow_threshold -> pow_threshold <= v * 10 ^ Z.of_nat fuel ->
  exists k, 0 <= k <= Z.of_nat fuel /\ amplify fuel v = v * 10 ^ k /\ pow_threshold <= amplify fuel v < 10 * pow_threshold /\
    (k = 0 \/ v * 10 ^ (k - 1) < pow_threshold).
Proof.
  unfold pow_threshold.
  induction fuel as [|fuel IH]; intros v Hv H; cbn [amplify]; destruct (Z.eqb_spec v 0) as [E|E]; try lia.
  - change (10 ^ Z.of_nat 0) with 1 in H. exists 0. rewrite Z.pow_0_r. lia.
  - unfold pow_threshold. destruct (Z.ltb_spec v 10000000000000000) as [L|L].
    + rewrite wrap64_small by (unfold two64; lia).
      replace (10 ^ Z.of_nat (S fuel)) with (10 * 10 ^ Z.of_nat fuel) in H
        by (rewrite Nat2Z.inj_succ, Z.pow_succ_r by lia; reflexivity).
      destruct (IH (10 * v) ltac:(lia) ltac:(lia)) as (k & Hk & A & B & C).
      exists (k + 1). rewrite A in *. rewrite Z.pow_add_r by lia. change (10 ^ 1) with 10.
      split; [lia|]. split; [ring|]. split; [exact B|]. right. replace (k + 1 - 1) with k by lia.
      destruct (Z.eq_dec k 0) as [->|K0]; [rewrite Z.pow_0_r; lia|]. destruct C as [C|C]; [lia|].
      replace (10 ^ k) with (10 * 10 ^ (k - 1)); [lia|]. rewrite <- Z.pow_succ_r by lia. f_equal. lia.
    + exists 0. rewrite Z.pow_0_r. lia.
Qed.
#[local] Opaque amplify.
Lemma amplify_17 v : 0 < v < 10 * pow_threshold ->
  exists k, 0 <= k <= 16 /\ amplify 17 v = v * 10 ^ k /\ pow_threshold <= amplify 17 v < 10 * pow_threshold.
Proof.
  intros H. destruct (amplify_spec 17 v H) as (k & A & B & C & D).
  - unfold pow_threshold in *. change (10 ^ Z.of_nat 17) with 100000000000000000. lia.
  - exists k. split; [|tauto]. destruct D as [->|D]; [lia|].
    destruct (Z.le_gt_cases k 16) as [L|L]; [lia|]. replace k with 17 in D by lia.
    change (10 ^ (17 - 1)) with 10000000000000000 in D. unfold pow_threshold in *. lia.
Qed.

Lemma Some_eq {A} (x y : A) : Some x = Some y -> x = y. Proof. congruence. Qed.
Lemma PowEncode_fields s p c : PowEncode s p = Some c -> -9223372036854775808 < s < 9223372036854775808 ->
  let r := amplify 17 (Z.abs s) in
  -255 <= p <= 255 /\ Z.abs s < 10 * pow_threshold /\
  (0 <= r < 2 ^ 54 -> c = Z.b2z (s <? 0) * 2 ^ 63 + r * 2 ^ 9 + Z.b2z (p <? 0) * 2 ^ 8 + Z.abs p).
Proof.
  unfold PowEncode. intros H Hs. 
  assert (AV : to_u64 (if s <? 0 then - s else s) = Z.abs s).
  { unfold to_u64. destruct (Z.ltb_spec s 0); rewrite wrap64_small by (unfold two64; lia); lia. }
  rewrite AV in H. destruct (Z.ltb_spec (Z.abs s / 10) pow_threshold) as [L|L]; [|discriminate].
  destruct (Z.leb_spec p 255) as [P1|P1]; [|discriminate]. destruct (Z.leb_spec (-255) p) as [P2|P2]; [|discriminate].
  cbn [andb] in H. apply Some_eq in H. rewrite <- H. clear H. cbv zeta. split; [lia|].
  assert (LS : Z.abs s < 10 * pow_threshold).
  { unfold pow_threshold in *. pose proof (Z.div_mod (Z.abs s) 10 ltac:(lia)). pose proof (Z.mod_pos_bound (Z.abs s) 10 ltac:(lia)). lia. }
  split; [exact LS|]. intros Hr. set (r := amplify 17 (Z.abs s)) in *.
  assert (AP : (if p <? 0 then - p else p) mod 256 = Z.abs p).
  { destruct (Z.ltb_spec p 0); rewrite Z.mod_small by lia; lia. }
  rewrite AP.
  assert (HP : 0 <= Z.abs p < 2 ^ 8) by (cbn; lia).
  rewrite (lor_shiftl _ (Z.abs p) 8 ltac:(lia) HP).
  assert (W : wrap64 (Z.shiftl r 9) = Z.shiftl r 9).
  { apply wrap64_small. rewrite Z.shiftl_mul_pow2 by lia. change (2 ^ 54) with 18014398509481984 in Hr. unfold two64. change (2 ^ 9) with 512. lia. }
  rewrite W. rewrite (lor_shiftl _ (Z.shiftl r 9) 63).
  - set (lo := Z.b2z (p <? 0) * 2 ^ 8 + Z.abs p).
    assert (HL : 0 <= lo < 2 ^ 9). { unfold lo. change (2 ^ 8) with 256 in *. change (2 ^ 9) with 512. destruct (p <? 0); cbn [Z.b2z]; lia. }
    rewrite Z.shiftl_mul_pow2 by lia.
    replace (Z.b2z (s <? 0) * 2 ^ 63 + r * 2 ^ 9) with ((Z.b2z (s <? 0) * 2 ^ 54 + r) * 2 ^ 9)
      by (change (2 ^ 63) with (2 ^ 54 * 2 ^ 9); ring).
    rewrite (lor_low _ lo 9 ltac:(lia) HL). unfold lo. ring.
  - lia.
  - rewrite Z.shiftl_mul_pow2 by lia. change (2 ^ 63) with (2 ^ 54 * 2 ^ 9). change (2 ^ 9) with 512. change (2 ^ 54) with 18014398509481984 in *. lia.
Qed.

Lemma PowSigMask_eq : PowSigMask = Z.shiftl (Z.ones 54) 9. Proof. reflexivity. Qed.
Lemma Pow_decode_fields (sg pg : bool) r q : 0 <= r < 2 ^ 54 -> 0 <= q < 2 ^ 8 ->
  let c := Z.b2z sg * 2 ^ 63 + r * 2 ^ 9 + Z.b2z pg * 2 ^ 8 + q in
  PowNegative c = sg /\ PowSig c = (if sg then - r else r) /\ PowPow c = (if pg then - q else q).
Proof.
  intros Hr Hq c.
  assert (B63 : Z.testbit c 63 = sg).
  { rewrite Z.testbit_eqb by lia.
    replace (c / 2 ^ 63) with (Z.b2z sg).
    - destruct sg; reflexivity.
    - apply (Z.div_unique _ _ _ (r * 2 ^ 9 + Z.b2z pg * 2 ^ 8 + q)); [|unfold c; ring].
      left. change (2 ^ 63) with (2 ^ 54 * 2 ^ 9). change (2 ^ 9) with 512. change (2 ^ 8) with 256 in *. change (2 ^ 54) with 18014398509481984 in *.
      destruct pg; cbn [Z.b2z]; lia. }
  assert (B8 : Z.testbit c 8 = pg).
  { rewrite Z.testbit_eqb by lia.
    replace (c / 2 ^ 8) with ((Z.b2z sg * 2 ^ 54 + r) * 2 + Z.b2z pg).
    - rewrite Z.add_comm, Z.mod_add by lia. destruct pg; reflexivity.
    - apply (Z.div_unique _ _ _ q); [left; exact Hq|unfold c; ring]. }
  assert (NZ : forall n, 0 <= n -> negb (Z.land (Z.shiftl 1 n) c =? 0) = Z.testbit c n).
  { intros n Hn. destruct (Z.testbit c n) eqn:E.
    - destruct (Z.eqb_spec (Z.land (Z.shiftl 1 n) c) 0) as [C|C]; [|reflexivity].
      assert (X : Z.testbit (Z.land (Z.shiftl 1 n) c) n = true).
      { rewrite Z.land_spec, Z.shiftl_spec by lia. rewrite Z.sub_diag, E. reflexivity. }
      rewrite C, Z.bits_0 in X. discriminate.
    - replace (Z.land (Z.shiftl 1 n) c) with 0; [reflexivity|]. symmetry. apply Z.bits_inj'. intros i Hi.
      rewrite Z.bits_0, Z.land_spec. destruct (Z.eq_dec i n) as [->|D]; [rewrite E; apply andb_false_r|].
      rewrite Z.shiftl_spec by lia. destruct (Z.testbit 1 (i - n)) eqn:T; [|reflexivity]. exfalso.
      destruct (Z.lt_ge_cases (i - n) 0) as [L|L]; [rewrite Z.testbit_neg_r in T by lia; discriminate|].
      rewrite Z.bits_above_log2 in T; [discriminate|lia|]. cbn. lia. }
  assert (N : PowNegative c = sg) by (unfold PowNegative; rewrite NZ by lia; exact B63).
  split; [exact N|]. split.
  - unfold PowSig. rewrite N. cbv zeta.
    replace (Z.shiftr (Z.land c PowSigMask) 9) with r; [reflexivity|]. symmetry.
    rewrite PowSigMask_eq, Z.shiftr_land, Z.shiftr_shiftl_l, Z.sub_diag, Z.shiftl_0_r by lia.
    rewrite Z.land_ones by lia. rewrite Z.shiftr_div_pow2 by lia.
    replace (c / 2 ^ 9) with (Z.b2z sg * 2 ^ 54 + r).
    + rewrite Z.add_comm, Z.mod_add by (cbn; lia). apply Z.mod_small, Hr.
    + apply (Z.div_unique _ _ _ (Z.b2z pg * 2 ^ 8 + q)); [|unfold c; change (2 ^ 63) with (2 ^ 54 * 2 ^ 9); ring].
      left. change (2 ^ 8) with 256 in *. change (2 ^ 9) with 512. destruct pg; cbn [Z.b2z]; lia.
  - unfold PowPow. rewrite NZ by lia. rewrite B8. cbv zeta.
    replace (Z.land 255 c) with q; [reflexivity|]. symmetry. rewrite Z.land_comm. change 255 with (Z.ones 8).
    rewrite Z.land_ones by lia. unfold c.
    replace (Z.b2z sg * 2 ^ 63 + r * 2 ^ 9 + Z.b2z pg * 2 ^ 8 + q) with (q + (Z.b2z sg * 2 ^ 55 + r * 2 + Z.b2z pg) * 2 ^ 8)
      by (change (2 ^ 63) with (2 ^ 55 * 2 ^ 8); change (2 ^ 9) with (2 * 2 ^ 8); ring).
    rewrite Z.mod_add by lia. apply Z.mod_small, Hq.
Qed.
Lemma Pow_round s p c : PowEncode s p = Some c -> -9223372036854775808 < s < 9223372036854775808 ->
  amplify 17 (Z.abs s) < 2 ^ 54 ->
  PowSig c = Z.sgn s * amplify 17 (Z.abs s) /\ PowPow c = p.
Proof.
  intros E Hs Hr. destruct (PowEncode_fields s p c E Hs) as (Hp & Hs' & Hc).
  assert (R0 : 0 <= amplify 17 (Z.abs s) /\ (s = 0 -> amplify 17 (Z.abs s) = 0)).
  { destruct (Z.eq_dec s 0) as [->|N]; [change (amplify 17 (Z.abs 0)) with 0; lia|].
    destruct (amplify_17 (Z.abs s) ltac:(lia)) as (k & _ & _ & B). unfold pow_threshold in B. lia. }
  rewrite (Hc ltac:(lia)). destruct R0 as (R0 & R1).
  pose proof (Pow_decode_fields (s <? 0) (p <? 0) (amplify 17 (Z.abs s)) (Z.abs p) ltac:(lia) ltac:(cbn; lia)) as D.
  cbv zeta in D. destruct D as (_ & D1 & D2). rewrite D1, D2. split.
  - destruct (Z.ltb_spec s 0).
    + replace (Z.sgn s) with (-1) by lia. ring.
    + destruct (Z.eq_dec s 0) as [->|N]; [reflexivity|]. replace (Z.sgn s) with 1 by lia. ring.
  - destruct (Z.ltb_spec p 0); lia.
Qed.

(** Every accepted code, also when the significand field overflows. *)
Lemma spill r : 0 <= r -> wrap64 (Z.shiftl r 9) = Z.b2z (Z.testbit r 54) * 2 ^ 63 + (r mod 2 ^ 54) * 2 ^ 9.
Proof.
  intros H. unfold wrap64, two64. rewrite Z.shiftl_mul_pow2 by lia.
  change 18446744073709551616 with (2 ^ 55 * 2 ^ 9). rewrite Z.mul_mod_distr_r by (vm_compute; discriminate).
  change (2 ^ 63) with (2 ^ 54 * 2 ^ 9). rewrite Z.mul_assoc, <- Z.mul_add_distr_r. f_equal.
  change (2 ^ 55) with (2 ^ 54 * 2). rewrite Z.rem_mul_r by (vm_compute; congruence).
  rewrite Z.testbit_spec' by lia. ring.
Qed.
Lemma PowEncode_all s p c : PowEncode s p = Some c -> -9223372036854775808 < s < 9223372036854775808 ->
  let r := amplify 17 (Z.abs s) in
  PowNegative c = ((s <? 0) || Z.testbit r 54)%bool /\ Z.abs (PowSig c) = r mod 2 ^ 54 /\ PowPow c = p /\
  (PowNegative c = true -> PowSig c <= 0) /\ (PowNegative c = false -> 0 <= PowSig c).
Proof.
  intros H Hs. destruct (PowEncode_fields s p c H Hs) as (Hp & Hs' & _).
  assert (R0 : 0 <= amplify 17 (Z.abs s)).
  { destruct (Z.eq_dec s 0) as [->|N]; [change (amplify 17 (Z.abs 0)) with 0; lia|].
    destruct (amplify_17 (Z.abs s) ltac:(lia)) as (k & _ & _ & B). unfold pow_threshold in B. lia. }
  revert H. unfold PowEncode. intros H.
  assert (AV : to_u64 (if s <? 0 then - s else s) = Z.abs s).
  { unfold to_u64. destruct (Z.ltb_spec s 0); rewrite wrap64_small by (unfold two64; lia); lia. }
  rewrite AV in H. destruct (Z.ltb_spec (Z.abs s / 10) pow_threshold) as [L|L]; [|discriminate H].
  destruct (Z.leb_spec p 255) as [P1|P1]; [|discriminate H]. destruct (Z.leb_spec (-255) p) as [P2|P2]; [|discriminate H].
  cbn [andb] in H. apply Some_eq in H. cbv zeta in H. cbv zeta. set (r := amplify 17 (Z.abs s)) in *.
  assert (AP : (if p <? 0 then - p else p) mod 256 = Z.abs p).
  { destruct (Z.ltb_spec p 0); rewrite Z.mod_small by lia; lia. }
  rewrite AP in H.
  assert (HP : 0 <= Z.abs p < 2 ^ 8) by (cbn; lia).
  rewrite (lor_shiftl _ (Z.abs p) 8 ltac:(lia) HP) in H.
  pose proof (Z.mod_pos_bound r (2 ^ 54) eq_refl) as MB.
  assert (U : Z.lor (Z.shiftl (Z.b2z (s <? 0)) 63) (wrap64 (Z.shiftl r 9)) =
              (Z.b2z ((s <? 0) || Z.testbit r 54) * 2 ^ 54 + r mod 2 ^ 54) * 2 ^ 9).
  { rewrite spill by exact R0.
    assert (M2 : 0 <= r mod 2 ^ 54 * 2 ^ 9 < 2 ^ 63).
    { change (2 ^ 63) with (2 ^ 54 * 2 ^ 9). change (2 ^ 9) with 512. change (2 ^ 54) with 18014398509481984 in *. lia. }
    rewrite <- (lor_low (Z.b2z (Z.testbit r 54)) (r mod 2 ^ 54 * 2 ^ 9) 63 ltac:(lia) M2), Z.lor_assoc.
    rewrite <- (Z.shiftl_mul_pow2 (Z.b2z (Z.testbit r 54))) by lia. rewrite <- Z.shiftl_lor.
    replace (Z.lor (Z.b2z (s <? 0)) (Z.b2z (Z.testbit r 54))) with (Z.b2z ((s <? 0) || Z.testbit r 54)) by (destruct (s <? 0), (Z.testbit r 54); reflexivity).
    rewrite Z.shiftl_mul_pow2 by lia. rewrite (lor_low _ (r mod 2 ^ 54 * 2 ^ 9) 63 ltac:(lia) M2). change (2 ^ 63) with (2 ^ 54 * 2 ^ 9). ring. }
  rewrite U in H.
  assert (HL : 0 <= Z.b2z (p <? 0) * 2 ^ 8 + Z.abs p < 2 ^ 9).
  { change (2 ^ 8) with 256 in *. change (2 ^ 9) with 512. destruct (p <? 0); cbn [Z.b2z]; lia. }
  rewrite (lor_low _ _ 9 ltac:(lia) HL) in H.
  pose proof (Pow_decode_fields ((s <? 0) || Z.testbit r 54) (p <? 0) (r mod 2 ^ 54) (Z.abs p) MB HP) as D. cbv zeta in D.
  replace c with (Z.b2z ((s <? 0) || Z.testbit r 54) * 2 ^ 63 + r mod 2 ^ 54 * 2 ^ 9 + Z.b2z (p <? 0) * 2 ^ 8 + Z.abs p)
    by (rewrite <- H; change (2 ^ 63) with (2 ^ 54 * 2 ^ 9); ring).
  destruct D as (D1 & D2 & D3). rewrite D1, D2, D3. split; [reflexivity|].
  split; [destruct (_ || _); lia|]. split; [destruct (Z.ltb_spec p 0); lia|].
  split; intros E; rewrite E; lia.
Qed.
