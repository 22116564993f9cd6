(** C45-C51: random numbers, chaos sequence, small mathematics, compile-time
    floating-point codes (Global/*.hpp).  Specifications are in GlobalSpec.v. *)
From Coq Require Import List Arith ZArith Reals Bool Lia Lra.
From Flocq Require Import Core BinarySingleNaN.
From Verif Require Import Base Fl FlFacts Rng RandProofs GlobalM GlobalSpec GlobalProofs GlobalProofs2 GlobalProofs3.
Import ListNotations.
Open Scope Z_scope.

Definition int32 (z : Z) : Prop := -2147483648 <= z < 2147483648.
Definition uint32 (z : Z) : Prop := 0 <= z < 4294967296.
Definition uint64 (z : Z) : Prop := 0 <= z < two64.

(** * C45 *)
(** Encoding is a bijection between (int32, uint32) pairs and 64-bit codes, with
    decoding as inverse. *)
Theorem C45_divcode_bijection :
  (forall a b, int32 a -> uint32 b ->
     uint64 (DivEncode a b) /\ DivNumerator (DivEncode a b) = a /\ DivDenominator (DivEncode a b) = b) /\
  (forall dc, uint64 dc -> int32 (DivNumerator dc) /\ uint32 (DivDenominator dc) /\
     DivEncode (DivNumerator dc) (DivDenominator dc) = dc) /\
  (forall a b a' b', int32 a -> uint32 b -> int32 a' -> uint32 b' -> DivEncode a b = DivEncode a' b' -> a = a' /\ b = b').
Proof.
  split; [exact Div_round|]. split; [exact Div_surj|]. intros a b a' b' Ha Hb Ha' Hb' E.
  destruct (Div_round a b Ha Hb) as (_ & E1 & E2). destruct (Div_round a' b' Ha' Hb') as (_ & E1' & E2'). split; congruence.
Qed.
Print Assumptions C45_divcode_bijection.

(** The decoded number is the quotient, rounded to nearest even. *)
Theorem C45_divcode_value :
  forall a b, int32 a -> 1 <= b < 4294967296 ->
    fin (DivReal (DivEncode a b)) /\
    B2R (DivReal (DivEncode a b)) =
      Generic_fmt.round radix2 (SpecFloat.fexp 53 1024) ZnearestE (IZR a / IZR b).
Proof. exact DivReal_round. Qed.
Print Assumptions C45_divcode_value.

(** The predefined codes DivCode_Half, DivCode_Sqrt2, DivCode_one_div_Sqrt2 (lines 45, 55, 56). *)
Theorem C45_divcode_constants :
  DivEncode 1 2 = 4294967298 /\
  (Rabs (Rsqr (B2R (DivReal 1464156825348615605)) - 2) <= bpow radix2 (-50))%R /\
  (Rabs (Rsqr (B2R (DivReal 566232695896337324)) * 2 - 1) <= bpow radix2 (-50))%R.
Proof.
  split; [reflexivity|].
  assert (V : forall dc, (exists m e, B2SF (DivReal dc) = SpecFloat.S754_finite false m e) ->
     exists m e, B2SF (DivReal dc) = SpecFloat.S754_finite false m e /\ B2R (DivReal dc) = F2R (Float radix2 (Zpos m) e)).
  { intros dc (m & e & H). exists m, e. split; [exact H|]. destruct (DivReal dc) as [s|s| |s m' e' Hb]; try discriminate.
    cbn in H. injection H as -> -> ->. reflexivity. }
  split.
  - destruct (V 1464156825348615605) as (m & e & H & ->).
    { eexists _, _. vm_compute. reflexivity. }
    assert (X : (exists m' e', B2SF (DivReal 1464156825348615605) = SpecFloat.S754_finite false m' e' /\
       m' = 6369051672525773%positive /\ e' = -52)) by (eexists _, _; vm_compute; repeat split; reflexivity).
    destruct X as (m' & e' & H' & -> & ->). rewrite H in H'. injection H' as -> ->.
    unfold F2R, Rsqr. cbn [Fnum Fexp]. cbn. apply Rabs_le. lra.
  - destruct (V 566232695896337324) as (m & e & H & ->).
    { eexists _, _. vm_compute. reflexivity. }
    assert (X : (exists m' e', B2SF (DivReal 566232695896337324) = SpecFloat.S754_finite false m' e' /\
       m' = 6369051672525773%positive /\ e' = -53)) by (eexists _, _; vm_compute; repeat split; reflexivity).
    destruct X as (m' & e' & H' & -> & ->). rewrite H in H'. injection H' as -> ->.
    unfold F2R, Rsqr. cbn [Fnum Fexp]. cbn. apply Rabs_le. lra.
Qed.
Print Assumptions C45_divcode_constants.
Example C45_example : int32 (-7) /\ 1 <= 3 < 4294967296 /\ DivEncode (-7) 3 = 18446744043644780547.
Proof. unfold int32. repeat split; try lia. Qed.

(** * C46 *)
Lemma amplify_unique s k : s <> 0 -> Z.abs s < 10 * pow_threshold -> 0 <= k -> 10 ^ 16 <= Z.abs s * 10 ^ k < 10 ^ 17 ->
  amplify 17 (Z.abs s) = Z.abs s * 10 ^ k.
Proof.
  intros N Hs' Hk Hr. destruct (amplify_17 (Z.abs s) ltac:(lia)) as (k' & Hk' & A & B).
  change (10 ^ 16) with 10000000000000000 in Hr. change (10 ^ 17) with 100000000000000000 in Hr. unfold pow_threshold in B.
  assert (EK : k = k'); [|rewrite EK; exact A].
  rewrite A in B. destruct (Z.lt_trichotomy k k') as [L|[L|L]]; [|exact L|].
  - exfalso. replace k' with ((k' - k - 1) + 1 + k) in B by lia. rewrite !Z.pow_add_r in B by lia. change (10 ^ 1) with 10 in B.
    pose proof (Z.pow_pos_nonneg 10 (k' - k - 1) ltac:(lia) ltac:(lia)).
    assert (Z.abs s * 10 ^ k * 10 <= Z.abs s * (10 ^ (k' - k - 1) * 10 * 10 ^ k)) by nia. lia.
  - exfalso. replace k with ((k - k' - 1) + 1 + k') in Hr by lia. rewrite !Z.pow_add_r in Hr by lia. change (10 ^ 1) with 10 in Hr.
    pose proof (Z.pow_pos_nonneg 10 (k - k' - 1) ltac:(lia) ltac:(lia)).
    assert (Z.abs s * 10 ^ k' * 10 <= Z.abs s * (10 ^ (k - k' - 1) * 10 * 10 ^ k')) by nia. lia.
Qed.
(** PowEncode<s,p> stands for d.ddd * 10^p where d.ddd are the decimal digits of
    s, i.e. s * 10^(k-16) with k chosen so that 10^16 <= |s| * 10^k < 10^17.  When
    |s| * 10^k < 2^54 the fields are recovered exactly and the decoded double has
    relative error at most 2^-42. *)
Theorem C46_powcode_value :
  forall s p c k, PowEncode s p = Some c -> -9223372036854775808 < s < 9223372036854775808 ->
    0 <= k -> 10 ^ 16 <= Z.abs s * 10 ^ k < 2 ^ 54 ->
    PowSig c = s * 10 ^ k /\ PowPow c = p /\
    fin (PowReal c) /\
    let exact := (IZR s * powerRZ 10 (k - 16) * powerRZ 10 p)%R in
    (Rabs (B2R (PowReal c) - exact) <= bpow radix2 (-42) * Rabs exact)%R.
Proof.
  intros s p c k E Hs Hk Hr. destruct (PowEncode_fields s p c E Hs) as (Hp & Hs' & _).
  assert (N : s <> 0) by (intros ->; cbn in Hr; lia).
  destruct (amplify_17 (Z.abs s) ltac:(lia)) as (k' & Hk' & A & B).
  change (10 ^ 16) with 10000000000000000 in Hr. change (2 ^ 54) with 18014398509481984 in Hr. unfold pow_threshold in B.
  assert (EK : k = k').
  { rewrite A in B. destruct (Z.lt_trichotomy k k') as [L|[L|L]]; [|exact L|].
    - exfalso. replace k' with ((k' - k - 1) + 1 + k) in B by lia. rewrite !Z.pow_add_r in B by lia. change (10 ^ 1) with 10 in B.
      pose proof (Z.pow_pos_nonneg 10 (k' - k - 1) ltac:(lia) ltac:(lia)).
      assert (Z.abs s * 10 ^ k * 10 <= Z.abs s * (10 ^ (k' - k - 1) * 10 * 10 ^ k)) by nia. lia.
    - exfalso. replace k with ((k - k' - 1) + 1 + k') in Hr by lia. rewrite !Z.pow_add_r in Hr by lia. change (10 ^ 1) with 10 in Hr.
      pose proof (Z.pow_pos_nonneg 10 (k - k' - 1) ltac:(lia) ltac:(lia)).
      assert (Z.abs s * 10 ^ k' * 10 <= Z.abs s * (10 ^ (k - k' - 1) * 10 * 10 ^ k')) by nia. lia. }
  subst k'. destruct (Pow_round s p c E Hs) as (S1 & S2).
  { rewrite A. change (2 ^ 54) with 18014398509481984. lia. }
  assert (S3 : PowSig c = s * 10 ^ k).
  { rewrite S1, A, Z.mul_assoc. f_equal. lia. }
  split; [exact S3|]. split; [exact S2|].
  assert (AB : Z.abs (s * 10 ^ k) = Z.abs s * 10 ^ k).
  { rewrite Z.abs_mul. f_equal. apply Z.abs_eq. apply Z.pow_nonneg. lia. }
  destruct (PowReal_rel c (s * 10 ^ k) ltac:(lia) S3 ltac:(lia)) as (F & Rl). split; [exact F|]. cbv zeta.
  apply (rel_err 513 _ _ (le_n _)) in Rl. rewrite S2 in Rl.
  replace (IZR s * powerRZ 10 (k - 16) * powerRZ 10 p)%R with (IZR (s * 10 ^ k) / 10000000000000000 * powerRZ 10 p)%R; [exact Rl|].
  f_equal. rewrite mult_IZR. unfold Rdiv. rewrite Rmult_assoc. f_equal.
  change (k - 16) with (k + -16). rewrite powerRZ_add by lra. f_equal.
  - rewrite <- (Z2Nat.id k) by lia. rewrite <- pow_powerRZ, pow_IZR. reflexivity.
  - change (powerRZ 10 (-16)) with (/ 10 ^ 16)%R. rewrite pow_IZR. reflexivity.
Qed.
Print Assumptions C46_powcode_value.

(** Exactly |significand| < 10^17 and |power| <= 255 are accepted. *)
Theorem C46_accepted :
  forall s p, -9223372036854775808 < s < 9223372036854775808 ->
    (PowEncode s p <> None <-> Z.abs s < 10 ^ 17 /\ -255 <= p <= 255).
Proof.
  intros s p Hs. split.
  - intros H. destruct (PowEncode s p) as [c|] eqn:E; [|congruence]. destruct (PowEncode_fields s p c E Hs) as (Hp & Hs' & _).
    unfold pow_threshold in Hs'. change (10 ^ 17) with 100000000000000000. lia.
  - change (10 ^ 17) with 100000000000000000. intros (H1 & H2). unfold PowEncode.
    assert (AV : to_u64 (if s <? 0 then - s else s) = Z.abs s).
    { unfold to_u64. destruct (Z.ltb_spec s 0); rewrite wrap64_small by (unfold two64; lia); lia. }
    rewrite AV. destruct (Z.ltb_spec (Z.abs s / 10) pow_threshold) as [L|L].
    + destruct (Z.leb_spec p 255); [|lia]. destruct (Z.leb_spec (-255) p); [|lia]. discriminate.
    + unfold pow_threshold in L. pose proof (Z.div_mod (Z.abs s) 10 ltac:(lia)). pose proof (Z.mod_pos_bound (Z.abs s) 10 ltac:(lia)). lia.
Qed.
Print Assumptions C46_accepted.

(** The decoded fields of every accepted nonzero significand: the power is always
    recovered; the significand's magnitude modulo 2^54; and it reads as negative
    also when bit 54 of the amplified significand is set. *)
Theorem C46_powcode_fields :
  forall s p c k, PowEncode s p = Some c -> -9223372036854775808 < s < 9223372036854775808 ->
    0 <= k -> 10 ^ 16 <= Z.abs s * 10 ^ k < 10 ^ 17 ->
    PowPow c = p /\ Z.abs (PowSig c) = (Z.abs s * 10 ^ k) mod 2 ^ 54 /\
    (PowSig c <= 0 \/ 0 <= PowSig c /\ 0 < s /\ Z.testbit (Z.abs s * 10 ^ k) 54 = false) /\
    (s < 0 \/ Z.testbit (Z.abs s * 10 ^ k) 54 = true -> PowSig c <= 0).
Proof.
  intros s p c k E Hs Hk Hr.
  assert (N : s <> 0) by (intros ->; cbn in Hr; lia).
  destruct (PowEncode_fields s p c E Hs) as (Hp & Hs' & _).
  rewrite <- (amplify_unique s k N Hs' Hk Hr).
  destruct (PowEncode_all s p c E Hs) as (A & B & C & D & F). split; [exact C|]. split; [exact B|].
  rewrite A in D, F. destruct (Z.ltb_spec s 0) as [L|L]; cbn [orb] in *.
  - split; [left; auto|auto].
  - destruct (Z.testbit (amplify 17 (Z.abs s)) 54) eqn:T; [split; [left; auto|auto]|].
    split; [right; split; [auto|split; [lia|reflexivity]]|intros [Q|Q]; [lia|discriminate Q]].
Qed.
Print Assumptions C46_powcode_fields.

(** So the round trip succeeds exactly when the amplified significand is below 2^54. *)
Theorem C46_powcode_roundtrip_iff :
  forall s p c k, PowEncode s p = Some c -> -9223372036854775808 < s < 9223372036854775808 ->
    0 <= k -> 10 ^ 16 <= Z.abs s * 10 ^ k < 10 ^ 17 ->
    (PowSig c = s * 10 ^ k <-> Z.abs s * 10 ^ k < 2 ^ 54).
Proof.
  intros s p c k E Hs Hk Hr. pose proof (Z.pow_pos_nonneg 10 k ltac:(lia) Hk) as PP. split.
  - intros H. destruct (C46_powcode_fields s p c k E Hs Hk Hr) as (_ & A & _).
    rewrite H, Z.abs_mul, (Z.abs_eq (10 ^ k)) in A by lia.
    pose proof (Z.mod_pos_bound (Z.abs s * 10 ^ k) (2 ^ 54) eq_refl). lia.
  - intros H. exact (proj1 (C46_powcode_value s p c k E Hs Hk (conj (proj1 Hr) H))).
Qed.
Print Assumptions C46_powcode_roundtrip_iff.

(** Significand 0 decodes to 0. *)
Theorem C46_zero : forall p, -255 <= p <= 255 ->
  exists c, PowEncode 0 p = Some c /\ PowSig c = 0 /\ PowPow c = p /\ fin (PowReal c) /\ B2R (PowReal c) = 0%R.
Proof.
  intros p Hp. destruct (PowEncode 0 p) as [c|] eqn:E.
  - exists c. split; [reflexivity|]. destruct (PowEncode_all 0 p c E ltac:(lia)) as (_ & B & C & _).
    assert (Z0 : PowSig c = 0) by (change (amplify 17 (Z.abs 0) mod 2 ^ 54) with 0 in B; lia).
    split; [exact Z0|]. split; [exact C|]. unfold PowReal. rewrite Z0, C. cbv zeta.
    match goal with |- fin (fmul _ ?x) /\ _ => assert (Fx : fin x) end.
    { destruct (Z.ltb_spec 0 p); [apply OneE_up; lia|apply OneE_dn; lia]. }
    revert Fx. match goal with |- fin ?x -> _ => generalize x end. intros x Fx.
    destruct x as [[]|[]| |[] ? ? ?]; try discriminate Fx; split; reflexivity.
  - exfalso. apply (proj2 (C46_accepted 0 p ltac:(lia))); [cbn; lia|exact E].
Qed.
Print Assumptions C46_zero.

(** Otherwise the 54-bit field overflows: PowEncode<2,0> decodes with significand
    2e16 - 2^54 and the overflowing bit becomes the sign: 2 decodes to about -0.2. *)
Theorem C46_powcode_overflow_refuted :
  exists c, PowEncode 2 0 = Some c /\ PowPow c = 0 /\ PowSig c <> 2 * 10 ^ 16 /\
            PowNegative c = true /\ flt (PowReal c) d0 = true.
Proof.
  eexists. split; [vm_compute; reflexivity|]. split; [reflexivity|]. split; [vm_compute; discriminate|]. split; reflexivity.
Qed.
Print Assumptions C46_powcode_overflow_refuted.

(** The example of the documentation, PowEncode<1919810,-20> == PowEncode<191981,-20>,
    holds as an equation of codes; the codes do not decode to 1.91981e-20. *)
Theorem C46_doc_example :
  PowEncode 1919810 (-20) = PowEncode 191981 (-20) /\
  exists c, PowEncode 1919810 (-20) = Some c /\ PowSig c <> 191981 * 10 ^ 11.
Proof.
  split; [vm_compute; reflexivity|]. eexists. split; [vm_compute; reflexivity|]. vm_compute. discriminate.
Qed.
Print Assumptions C46_doc_example.
Example C46_example : exists c, PowEncode (-123456) 16 = Some c /\ 10 ^ 16 <= Z.abs (-123456) * 10 ^ 11 < 2 ^ 54.
Proof. eexists. split; [vm_compute; reflexivity|]. cbn. lia. Qed.

(** * C47 *)
Theorem C47_factorial : forall n, fractorial n = zfact n mod two64.
Proof. exact fractorial_mod. Qed.
Print Assumptions C47_factorial.
Theorem C47_factorial_exact : forall n, fractorial n = zfact n <-> (n <= 20)%nat.
Proof.
  intros n. rewrite fractorial_mod. split; intros H.
  - apply zfact_20. rewrite <- H. apply wrap64_range.
  - apply wrap64_small. split; [pose proof (zfact_pos n); lia|apply zfact_20, H].
Qed.
Print Assumptions C47_factorial_exact.
Theorem C47_NchooseK_exact :
  forall n k, (n <= 20)%nat -> (k <= n)%nat -> exists fuel, NchooseK fuel (Z.of_nat n) (Z.of_nat k) = Ok (binom n k).
Proof. intros n k Hn Hk. exists 1%nat. apply NchooseK_exact; assumption. Qed.
Print Assumptions C47_NchooseK_exact.
(** From N = 21 on the quotient is wrong although the coefficient itself fits. *)
Theorem C47_NchooseK_refuted :
  binom 21 2 = 210 /\ NchooseK 1 21 2 <> Ok 210 /\
  (forall fuel N K, 0 <= N < K -> 2 * K < two64 -> NchooseK fuel N K = Fuel).
Proof.
  split; [reflexivity|]. split; [vm_compute; discriminate|]. intros fuel N K H1 H2. apply NchooseK_loops; assumption.
Qed.
Print Assumptions C47_NchooseK_refuted.

(** * C48 *)
(** heu::min / heu::max over doubles without NaN ... *)
Theorem C48_minmax_double :
  forall (a b : double) args, nonnan a -> nonnan b -> Forall nonnan args ->
    is_least (fun x y => fle x y = true) (heu_min (fun x y => fle y x) a b args) (a :: b :: args) /\
    is_least (fun x y => fle y x = true) (heu_max fle a b args) (a :: b :: args).
Proof.
  intros a b args Ha Hb Hargs.
  assert (TOT : forall x y : double, nonnan x -> nonnan y -> fle x y = true \/ fle y x = true).
  { intros x y Hx Hy. destruct (fle x y) eqn:E; [left; reflexivity|right]. apply flt_le. apply fle_false_lt; assumption. }
  pose proof (min_fold (fun x y : double => fle y x) fle nonnan TOT (fle_trans 53 1024) (fun _ _ => eq_refl) (b :: args) a Ha) as M.
  pose proof (max_fold (@fle 53 1024) nonnan TOT (fle_trans 53 1024) (b :: args) a Ha) as X.
  destruct M as (M1 & _ & M2 & M3); [constructor; assumption|]. destruct X as (X1 & _ & X2 & X3); [constructor; assumption|].
  cbn [fold_left] in *. unfold heu_min, heu_max. split; split.
  - exact M1.
  - intros x [<-|Hx]; [exact M2|exact (M3 x Hx)].
  - exact X1.
  - intros x [<-|Hx]; [exact X2|exact (X3 x Hx)].
Qed.
Print Assumptions C48_minmax_double.
(** ... over integers ... *)
Theorem C48_minmax_integer :
  forall (a b : Z) args,
    is_least Z.le (heu_min Z.geb a b args) (a :: b :: args) /\
    is_least Z.ge (heu_max Z.leb a b args) (a :: b :: args).
Proof.
  intros a b args.
  assert (TR : forall x y z, x <=? y = true -> y <=? z = true -> x <=? z = true) by (intros; apply Z.leb_le in H, H0; apply Z.leb_le; lia).
  assert (TOT : forall x y, True -> True -> x <=? y = true \/ y <=? x = true) by (intros; rewrite !Z.leb_le; lia).
  assert (GL : forall x y, x >=? y = (y <=? x)) by (intros; apply Z.geb_leb).
  assert (AL : Forall (fun _ : Z => True) (b :: args)) by (apply Forall_forall; auto).
  destruct (min_fold Z.geb Z.leb (fun _ => True) TOT TR GL (b :: args) a I AL) as (M1 & _ & M2 & M3).
  destruct (max_fold Z.leb (fun _ => True) TOT TR (b :: args) a I AL) as (X1 & _ & X2 & X3).
  cbn [fold_left] in *. unfold heu_min, heu_max. split; split.
  - exact M1.
  - intros x [<-|Hx]; apply Z.leb_le; [exact M2|exact (M3 x Hx)].
  - exact X1.
  - intros x [<-|Hx]; apply Z.le_ge, Z.leb_le; [exact X2|exact (X3 x Hx)].
Qed.
Print Assumptions C48_minmax_integer.
(** ... and min_v / max_v at compile time. *)
Theorem C48_minmax_constexpr :
  forall v vs, is_least Z.le (minmax_min v vs) (v :: vs) /\ is_least Z.ge (minmax_max v vs) (v :: vs).
Proof.
  intros v vs. destruct (minmax_min_spec vs v) as (A & B). destruct (minmax_max_spec vs v) as (C & D).
  split; split; try assumption. intros x Hx. apply Z.le_ge, D, Hx.
Qed.
Print Assumptions C48_minmax_constexpr.
(** With a NaN among the arguments the result need not be least. *)
Theorem C48_nan_refuted :
  exists x, In x [dnan; d1] /\ fle (heu_min (fun x y => fle y x) dnan d1 []) x = false.
Proof. exists d1. split; [right; left; reflexivity|reflexivity]. Qed.
Print Assumptions C48_nan_refuted.
Example C48_example : nonnan d1 /\ heu_min Z.geb 3 1 [2] = 1 /\ heu_max Z.leb 3 1 [2; 7; 4] = 7 /\ minmax_min 3 [1; 2] = 1.
Proof. repeat split. Qed.

(** * C49 *)
Theorem C49_randD_closed :
  forall (R : rng_ops) (lo hi : double) (g : G R),
    rng_ok R -> fin lo -> fin hi -> fle lo hi = true -> fin (fsub hi lo) ->
    let x := fst (randD_range R lo hi g) in
    fin x /\ fle lo x = true /\ fle x hi = true.
Proof. intros. apply randD_range_ok; assumption. Qed.
Print Assumptions C49_randD_closed.
(** The documented half-open interval [min,max): with the largest draw below 1,
    randD(1,2) is 2. *)
Definition almost1 : double := fofZ 9007199254740991 (-53).
Theorem C49_randD_half_open_refuted :
  rng_ok (constant_rng almost1 f0) /\ feq (fst (randD_range (constant_rng almost1 f0) d1 (d_of_Z 2) tt)) (d_of_Z 2) = true.
Proof.
  split; [|vm_compute; reflexivity]. split; [|split].
  - intros g. split; vm_compute; reflexivity.
  - intros g. split; vm_compute; reflexivity.
  - intros A l g. apply Permutation.Permutation_refl.
Qed.
Print Assumptions C49_randD_half_open_refuted.
(** The hypothesis that max - min is finite is needed: over the whole range of
    double the result is infinite. *)
Definition dblmax : double := fofZ 9007199254740991 971.
Theorem C49_randD_overflow_refuted :
  fin dblmax /\ fin (fopp dblmax) /\ fle (fopp dblmax) dblmax = true /\
  feq (fst (randD_range (constant_rng almost1 f0) (fopp dblmax) dblmax tt)) dinf = true.
Proof. repeat split; vm_compute; reflexivity. Qed.
Print Assumptions C49_randD_overflow_refuted.
Example C49_example : fin d0 /\ fin d1 /\ fle d0 d1 = true /\ fin (fsub d1 d0).
Proof. repeat split; vm_compute; reflexivity. Qed.

(** * C50 *)
Theorem C50_randIdx : forall (R : rng_ops) (n : Z) (g : G R),
  rng_ok R -> 1 <= n <= two64 -> 0 <= fst (randIdx R n g) < n.
Proof. exact randIdx_range. Qed.
Print Assumptions C50_randIdx.
Theorem C50_randIdx_range : forall (R : rng_ops) (lo hi : Z) (g : G R),
  rng_ok R -> 1 <= hi - lo <= two64 -> lo <= fst (randIdx2 R lo hi g) < hi.
Proof. exact randIdx2_range. Qed.
Print Assumptions C50_randIdx_range.
Example C50_example : rng_ok replay /\ fst (randIdx replay 10 [255]) = 9 /\ fst (randIdx2 replay (-3) 4 [128]) = 0.
Proof.
  split; [|split; reflexivity]. assert (D : forall z, fle d0 (fofZ (z mod 256) (-8)) = true /\ flt (fofZ (z mod 256) (-8) : double) d1 = true).
  { intros z. pose proof (Z.mod_pos_bound z 256 ltac:(lia)) as B.
    destruct (@fofZ_exact 53 1024 _ _ (z mod 256) (-8)) as (F & V); [cbn; lia|cbn; lia|cbn; lia|].
    assert (0 <= IZR (z mod 256) <= 255)%R by (split; apply IZR_le; lia).
    assert (bpow radix2 (-8) = / 256)%R by reflexivity.
    split; [apply fle_iff|apply flt_iff]; try apply fin_nonnan, F; try reflexivity.
    - rewrite (fval_fin _ _ _ F), V, H0. change (fval d0) with 0%R. nra.
    - rewrite (fval_fin _ _ _ F), V, H0, (fval_fin _ _ d1 d1_fin), d1_val. lra. }
  assert (Df : forall z, fle f0 (fofZ (z mod 256) (-8)) = true /\ flt (fofZ (z mod 256) (-8) : float) f1 = true).
  { intros z. pose proof (Z.mod_pos_bound z 256 ltac:(lia)) as B.
    destruct (@fofZ_exact 24 128 _ _ (z mod 256) (-8)) as (F & V); [cbn; lia|cbn; lia|cbn; lia|].
    destruct (@fofZ_exact 24 128 _ _ 1 0) as (F1 & V1); [easy|easy|easy|].
    assert (0 <= IZR (z mod 256) <= 255)%R by (split; apply IZR_le; lia).
    assert (bpow radix2 (-8) = / 256)%R by reflexivity.
    split; [apply fle_iff|apply flt_iff]; try apply fin_nonnan, F; try reflexivity.
    - rewrite (fval_fin _ _ _ F), V, H0. change (fval f0) with 0%R. nra.
    - rewrite (fval_fin _ _ _ F), V, H0. unfold f1, f_of_Z. rewrite (fval_fin _ _ _ F1), V1. cbn. lra. }
  split; [|split].
  - intros [|z g]; [split; vm_compute; reflexivity|apply D].
  - intros [|z g]; [split; vm_compute; reflexivity|apply Df].
  - intros A l g. apply Permutation.Permutation_refl.
Qed.

(** * C51 *)
Theorem C51_chaos_stays_in_unit_interval :
  forall x n, in01 x -> in01 (chaos_iterate n x) /\ Forall in01 (fst (chaos_makeSequence n x)) /\ in01 (snd (chaos_makeSequence n x)).
Proof.
  intros x n H. rewrite chaos_make_same by exact H. cbn [fst snd].
  split; [apply chaos_iterate_in01, H|]. split; [|apply chaos_iterate_in01, H].
  apply Forall_forall. intros y Hy. apply in_map_iff in Hy. destruct Hy as (k & <- & _). apply chaos_iterate_in01, H.
Qed.
Print Assumptions C51_chaos_stays_in_unit_interval.
(** Bulk generation gives bit for bit what single steps give: the i-th number
    written is the value after i+1 calls, and the generator ends in the state
    after n calls. *)
Theorem C51_bulk_equals_single_steps :
  forall x n, in01 x ->
    chaos_makeSequence n x = (map (fun i => chaos_iterate (S i) x) (seq 0 n), chaos_iterate n x) /\
    (forall m, chaos_iterate (n + m) x = chaos_iterate m (chaos_iterate n x)) /\
    chaos_iterate (S n) x = chaos_next (chaos_iterate n x).
Proof.
  intros x n H. split; [|split].
  - rewrite chaos_make_same by exact H. rewrite <- (seq_shift n 0), map_map. reflexivity.
  - revert x H. induction n as [|n IH]; intros x H m; [reflexivity|]. cbn [Nat.add chaos_iterate]. apply IH, chaos_in01, H.
  - revert x H. induction n as [|n IH]; intros x H; [reflexivity|].
    change (chaos_iterate (S (S n)) x) with (chaos_iterate (S n) (chaos_next x)). rewrite IH by (apply chaos_in01, H). reflexivity.
Qed.
Print Assumptions C51_bulk_equals_single_steps.
(** The chaos can die: from 1/2 it reaches 0 in two steps and stays there. *)
Theorem C51_fixpoint : forall n, in01 (fofZ 1 (-1)) /\ feq (chaos_iterate (S (S n)) (fofZ 1 (-1))) d0 = true.
Proof.
  intros n. split; [split; vm_compute; reflexivity|].
  assert (E : chaos_next (chaos_next (fofZ 1 (-1))) = d0).
  { apply B2SF_inj. vm_compute. reflexivity. }
  change (chaos_iterate (S (S n)) (fofZ 1 (-1))) with (chaos_iterate n (chaos_next (chaos_next (fofZ 1 (-1))))). rewrite E.
  assert (F : chaos_next d0 = d0) by (apply B2SF_inj; vm_compute; reflexivity).
  induction n as [|n IH]; [reflexivity|]. cbn [chaos_iterate]. rewrite F. exact IH.
Qed.
Print Assumptions C51_fixpoint.

(** * C68: sign *)
Theorem C68_sign :
  forall x : double, fin x ->
    ((B2R x > 0)%R <-> heu_sign x = 1) /\ ((B2R x < 0)%R <-> heu_sign x = -1) /\ (B2R x = 0%R <-> heu_sign x = 0).
Proof.
  intros x F. unfold heu_sign.
  assert (N : nonnan x) by (apply fin_nonnan, F). assert (N0 : nonnan d0) by reflexivity.
  assert (V0 : fval d0 = 0%R) by reflexivity.
  pose proof (fval_fin _ _ x F) as Vx.
  destruct (flt d0 x) eqn:E1.
  - apply flt_true in E1. destruct E1 as (_ & _ & E1). rewrite Vx, V0 in E1. repeat split; intros; try reflexivity; try discriminate; lra.
  - apply flt_false_le in E1; try assumption. apply fle_true in E1. destruct E1 as (_ & _ & E1). rewrite Vx, V0 in E1.
    destruct (flt x d0) eqn:E2.
    + apply flt_true in E2. destruct E2 as (_ & _ & E2). rewrite Vx, V0 in E2. repeat split; intros; try reflexivity; try discriminate; lra.
    + apply flt_false_le in E2; try assumption. apply fle_true in E2. destruct E2 as (_ & _ & E2). rewrite Vx, V0 in E2.
      repeat split; intros; try reflexivity; try discriminate; lra.
Qed.
Print Assumptions C68_sign.
(** Not a number counts as zero, infinities by their sign. *)
Theorem C68_sign_special :
  heu_sign B754_nan = 0 /\ heu_sign (B754_infinity false) = 1 /\ heu_sign (B754_infinity true) = -1.
Proof. repeat split; vm_compute; reflexivity. Qed.
Print Assumptions C68_sign_special.
Example C68_example : heu_sign (d_of_Z (-7)) = -1 /\ heu_sign (fofZ 1 (-1074)) = 1 /\ heu_sign (fopp d0) = 0.
Proof. repeat split; vm_compute; reflexivity. Qed.
