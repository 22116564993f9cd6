(** C41-C44: the compile-time conversion between floating-point numbers and
    their bit patterns.  The specification is Flocq's formalisation of the
    interchange formats of IEEE 754 ([b64_of_bits], [b32_of_bits]). *)
From Coq Require Import List Arith ZArith Bool Reals Lia Lra.
From Flocq Require Import Core BinarySingleNaN.
From Flocq Require Import Bits.
From Flocq Require Binary.
From Verif Require Import Base Fl FlFacts BinCode BinCodeProofs BinCodeProofs2 BinCodeProofs3.
Open Scope Z_scope.

(** The number with a given 64-bit (32-bit) pattern; all NaNs are one value. *)
Definition ieee64 (c : Z) : double := Binary.B2BSN 53 1024 (b64_of_bits c).
Definition ieee32 (c : Z) : float := Binary.B2BSN 24 128 (b32_of_bits c).
(** The fields of a code. *)
Definition exponent64 (c : Z) : Z := (c / 2 ^ 52) mod 2 ^ 11.
Definition mantissa64 (c : Z) : Z := c mod 2 ^ 52.
Definition exponent32 (c : Z) : Z := (c / 2 ^ 23) mod 2 ^ 8.
Definition mantissa32 (c : Z) : Z := c mod 2 ^ 23.

Lemma ieee64_SF c : B2SF (ieee64 c) = Binary.FF2SF (binary_float_of_bits_aux 52 11 c).
Proof. unfold ieee64. rewrite Binary.B2SF_B2BSN. unfold b64_of_bits, binary_float_of_bits. apply Binary.B2SF_FF2B. Qed.
Lemma ieee32_SF c : B2SF (ieee32 c) = Binary.FF2SF (binary_float_of_bits_aux 23 8 c).
Proof. unfold ieee32. rewrite Binary.B2SF_B2BSN. unfold b32_of_bits, binary_float_of_bits. apply Binary.B2SF_FF2B. Qed.

Lemma code_zero mw ew c : 0 <= mw -> 0 <= ew -> 0 <= c < 2 ^ (mw + ew + 1) -> (c / 2 ^ mw) mod 2 ^ ew = 0 -> c mod 2 ^ mw = 0 ->
  c = 0 \/ c = 2 ^ (mw + ew).
Proof.
  intros H1 H2 Hc HE HM. assert (0 < 2 ^ mw) by (apply Z.pow_pos_nonneg; lia). assert (0 < 2 ^ ew) by (apply Z.pow_pos_nonneg; lia).
  apply Z.mod_divide in HM; [|lia]. destruct HM as (t & ->). rewrite Z.div_mul in HE by lia.
  apply Z.mod_divide in HE; [|lia]. destruct HE as (u & ->).
  rewrite !Z.pow_add_r in * by lia. change (2 ^ 1) with 2 in Hc.
  replace (u * 2 ^ ew * 2 ^ mw) with (u * (2 ^ mw * 2 ^ ew)) in * by ring.
  assert (0 < 2 ^ mw * 2 ^ ew) by (apply Z.mul_pos_pos; lia). set (k := 2 ^ mw * 2 ^ ew) in *. clearbody k.
  assert (u = 0 \/ u = 1) as [-> | ->] by nia; [left|right]; lia.
Qed.

(** ** C41: decoding 64-bit codes.  For each code, decode gives the number with
    this bit pattern. *)
Theorem C41_decode64 fuel c : (1100 <= fuel)%nat -> 0 <= c < 2 ^ 64 -> decode64 fuel c = Ok (ieee64 c).
Proof.
  intros Hf Hc. unfold decode64.
  apply (decode_is 52 11 eq_refl ltac:(lia) eq_refl ltac:(lia) ltac:(lia) c Hc (ieee64 c) (ieee64_SF c)).
  - change (Z.to_nat 1024) with 1024%nat || idtac. lia.
  - intros HE HM. apply (decode_mono 52 11 1100); [exact Hf|].
    destruct (code_zero 52 11 c) as [-> | ->]; try assumption; try lia; vm_compute; reflexivity.
Qed.
Print Assumptions C41_decode64.
(** Rounds actually needed: a code of 1.5 and the smallest subnormal. *)
Example C41_example : (decode64 1100 (Z.shiftl 1023 52 + 2 ^ 51) = Ok (ieee64 (Z.shiftl 1023 52 + 2 ^ 51))
  /\ B2R (ieee64 (Z.shiftl 1023 52 + 2 ^ 51)) = 1.5%R) /\ (decode64 1100 1 = Ok (ieee64 1) /\ B2SF (ieee64 1) = SpecFloat.S754_finite false 1 (-1074)).
Proof.
  split; split.
  - apply C41_decode64; [lia|]. split; [discriminate|reflexivity].
  - rewrite <- (SF2R_B2SF 53 1024). replace (B2SF _) with (SpecFloat.S754_finite false (3 * 2 ^ 51) (-52)) by (vm_compute; reflexivity).
    cbn [SF2R]. unfold F2R. cbn. lra.
  - apply C41_decode64; [lia|]. split; [discriminate|reflexivity].
  - vm_compute. reflexivity.
Qed.

(** ** C42: decoding 32-bit codes. *)
Theorem C42_decode32 fuel c : (1100 <= fuel)%nat -> 0 <= c < 2 ^ 32 -> decode32 fuel c = Ok (ieee32 c).
Proof.
  intros Hf Hc. unfold decode32.
  apply (decode_is 23 8 eq_refl ltac:(lia) eq_refl ltac:(lia) ltac:(lia) c Hc (ieee32 c) (ieee32_SF c)).
  - lia.
  - intros HE HM. apply (decode_mono 23 8 1100); [exact Hf|].
    destruct (code_zero 23 8 c) as [-> | ->]; try assumption; try lia; vm_compute; reflexivity.
Qed.
Print Assumptions C42_decode32.
Example C42_example : decode32 1100 (Z.shiftl 127 23 + 2 ^ 22) = Ok (ieee32 (Z.shiftl 127 23 + 2 ^ 22))
  /\ B2R (ieee32 (Z.shiftl 127 23 + 2 ^ 22)) = 1.5%R.
Proof.
  split; [apply C42_decode32; [lia|split; [discriminate|reflexivity]]|].
  rewrite <- (SF2R_B2SF 24 128). replace (B2SF _) with (SpecFloat.S754_finite false (3 * 2 ^ 22) (-23)) by (vm_compute; reflexivity).
  cbn [SF2R]. unfold F2R. cbn. lra.
Qed.

(** ** C43: encoding doubles. *)
(** Every double is the number of some code. *)
Theorem C43_all_doubles (x : double) : exists c, 0 <= c < 2 ^ 64 /\ ieee64 c = x.
Proof.
  set (y := Binary.BSN2B 53 1024 default_nan_pl64 x). exists (bits_of_b64 y). split.
  - apply (bits_of_binary_float_range 52 11 eq_refl eq_refl).
  - unfold ieee64. unfold b64_of_bits, bits_of_b64.
    rewrite (binary_float_of_bits_of_binary_float 52 11 eq_refl eq_refl eq_refl). apply Binary.B2BSN_BSN2B.
Qed.
Theorem C44_all_floats (x : float) : exists c, 0 <= c < 2 ^ 32 /\ ieee32 c = x.
Proof.
  set (y := Binary.BSN2B 24 128 default_nan_pl32 x). exists (bits_of_b32 y). split.
  - apply (bits_of_binary_float_range 23 8 eq_refl eq_refl).
  - unfold ieee32. unfold b32_of_bits, bits_of_b32.
    rewrite (binary_float_of_bits_of_binary_float 23 8 eq_refl eq_refl eq_refl). apply Binary.B2BSN_BSN2B.
Qed.

(** The three inexact roundings, for each format. *)
Lemma val_SF {prec emax} (x : binary_float prec emax) p e : B2SF x = SpecFloat.S754_finite false p e -> val x (dy (Zpos p) e).
Proof.
  intros Q. destruct x as [| | |s' p' e' B]; try discriminate Q. cbn [B2SF] in Q. injection Q as -> -> ->. split; reflexivity.
Qed.
Lemma dy_shift' m n e k : 0 <= k -> m * 2 ^ k = n -> dy m (e + k) = dy n e.
Proof. intros Hk <-. symmetry. apply dy_shift, Hk. Qed.
Lemma H257_64 : val (fmul (fofZ 257 0) (fofZ (2 ^ 52 - 1) (3 - 1024 - 53)) : double) (dy (257 * 2 ^ 52 - 256) (3 - 1024 - 53)).
Proof. rewrite <- (dy_shift' (257 * 2 ^ 44 - 1) _ _ 8) by (reflexivity || discriminate). apply val_SF. vm_compute. reflexivity. Qed.
Lemma Htie_64 : val (fdiv (fofZ (2 ^ 53 - 1) (3 - 1024 - 53)) (fofZ 2 0) : double) (dy (2 ^ 52) (3 - 1024 - 53)).
Proof. apply val_SF. vm_compute. reflexivity. Qed.
Lemma Hneg_64 : fmul (fsub (fofZ (2 ^ 53 - 1) (- 53)) (fofZ 1 0)) (fofZ 1 (2 - 1024)) = (B754_zero true : double).
Proof. vm_compute. reflexivity. Qed.
Lemma H257_32 : val (fmul (fofZ 257 0) (fofZ (2 ^ 23 - 1) (3 - 128 - 24)) : float) (dy (257 * 2 ^ 23 - 256) (3 - 128 - 24)).
Proof. rewrite <- (dy_shift' (257 * 2 ^ 15 - 1) _ _ 8) by (reflexivity || discriminate). apply val_SF. vm_compute. reflexivity. Qed.
Lemma Htie_32 : val (fdiv (fofZ (2 ^ 24 - 1) (3 - 128 - 24)) (fofZ 2 0) : float) (dy (2 ^ 23) (3 - 128 - 24)).
Proof. apply val_SF. vm_compute. reflexivity. Qed.
Lemma Hneg_32 : fmul (fsub (fofZ (2 ^ 24 - 1) (- 24)) (fofZ 1 0)) (fofZ 1 (2 - 128)) = (B754_zero true : float).
Proof. vm_compute. reflexivity. Qed.

(** Finite codes, except the negative zero. *)
Lemma encode64_finite fuel c : (1100 <= fuel)%nat -> 0 <= c < 2 ^ 64 -> exponent64 c < 2047 -> c <> 2 ^ 63 ->
  encode64 fuel (ieee64 c) = Ok (c + if (0 <? exponent64 c) && (mantissa64 c =? 2 ^ 52 - 1) then 1 else 0).
Proof.
  intros Hf Hc HE NZ. unfold encode64.
  destruct (@x_finite 53 1024 52 11 eq_refl ltac:(lia) eq_refl ltac:(lia) ltac:(lia) c (ieee64 c) (ieee64_SF c) ltac:(exact HE)) as (V & _).
  pose proof (code_split 52 11 ltac:(lia) ltac:(lia) c Hc) as CS.
  assert (RE : 0 <= exponent64 c) by (apply Z.mod_pos_bound; reflexivity).
  assert (RM : 0 <= mantissa64 c < 2 ^ 52) by (apply Z.mod_pos_bound; reflexivity).
  rewrite (@encode_finite 53 1024 _ _ 52 11 fuel eq_refl ltac:(lia) eq_refl ltac:(lia) ltac:(lia) ltac:(lia) H257_64 Htie_64 Hneg_64
    _ _ (ieee64 c) (exponent64 c) (mantissa64 c) (2 ^ (52 + 11) <=? c)).
  - f_equal. unfold ones. f_equal. symmetry. exact CS.
  - lia.
  - exact RM.
  - change (2 ^ (52 + 11)) with (2 ^ 63) in *. destruct (Z.leb_spec (2 ^ 63) c) as [L|L]; [|exact V].
    split; [exact V|]. destruct (Z.eq_dec (exponent64 c) 0) as [Z0|]; [|left; assumption]. right. intros Z1.
    unfold exponent64 in Z0. unfold mantissa64 in Z1. rewrite Z0, Z1 in CS. lia.
Qed.
Lemma encode32_finite fuel c : (1100 <= fuel)%nat -> 0 <= c < 2 ^ 32 -> exponent32 c < 255 -> c <> 2 ^ 31 ->
  encode32 fuel (ieee32 c) = Ok (c + if (0 <? exponent32 c) && (mantissa32 c =? 2 ^ 23 - 1) then 1 else 0).
Proof.
  intros Hf Hc HE NZ. unfold encode32.
  destruct (@x_finite 24 128 23 8 eq_refl ltac:(lia) eq_refl ltac:(lia) ltac:(lia) c (ieee32 c) (ieee32_SF c) ltac:(exact HE)) as (V & _).
  pose proof (code_split 23 8 ltac:(lia) ltac:(lia) c Hc) as CS.
  assert (RE : 0 <= exponent32 c) by (apply Z.mod_pos_bound; reflexivity).
  assert (RM : 0 <= mantissa32 c < 2 ^ 23) by (apply Z.mod_pos_bound; reflexivity).
  rewrite (@encode_finite 24 128 _ _ 23 8 fuel eq_refl ltac:(lia) eq_refl ltac:(lia) ltac:(lia) ltac:(lia) H257_32 Htie_32 Hneg_32
    _ _ (ieee32 c) (exponent32 c) (mantissa32 c) (2 ^ (23 + 8) <=? c)).
  - f_equal. unfold ones. f_equal. symmetry. exact CS.
  - lia.
  - exact RM.
  - change (2 ^ (23 + 8)) with (2 ^ 31) in *. destruct (Z.leb_spec (2 ^ 31) c) as [L|L]; [|exact V].
    split; [exact V|]. destruct (Z.eq_dec (exponent32 c) 0) as [Z0|]; [|left; assumption]. right. intros Z1.
    unfold exponent32 in Z0. unfold mantissa32 in Z1. rewrite Z0, Z1 in CS. lia.
Qed.

(** The codes that [encode] treats wrongly: the negative zero, and the normal
    numbers whose mantissa bits are all ones (the predecessors of the powers of
    two, and the largest finite number). *)
Definition wrong64 (c : Z) : Prop := c = 2 ^ 63 \/ (1 <= exponent64 c <= 2046 /\ mantissa64 c = 2 ^ 52 - 1).
Definition nan64 (c : Z) : Prop := exponent64 c = 2047 /\ mantissa64 c <> 0.

(** For all other doubles the result is the IEEE bit pattern, and decode gives
    the number back. *)
Theorem C43_encode64 fuel c : (1100 <= fuel)%nat -> 0 <= c < 2 ^ 64 -> ~ nan64 c -> ~ wrong64 c ->
  encode64 fuel (ieee64 c) = Ok c /\ decode64 fuel c = Ok (ieee64 c).
Proof.
  intros Hf Hc NN NW. split; [|apply C41_decode64; assumption].
  assert (RE : 0 <= exponent64 c < 2 ^ 11) by (apply Z.mod_pos_bound; reflexivity). change (2 ^ 11) with 2048 in RE.
  destruct (Z.eq_dec (exponent64 c) 2047) as [ES|].
  - assert (M0 : mantissa64 c = 0).
    { destruct (Z.eq_dec (mantissa64 c) 0); [assumption|]. exfalso. apply NN. split; assumption. }
    rewrite (@x_special 53 1024 52 11 eq_refl ltac:(lia) eq_refl ltac:(lia) c (ieee64 c) (ieee64_SF c) ltac:(exact ES)).
    fold (mantissa64 c). rewrite M0. cbn [Z.eqb].
    pose proof (code_split 52 11 ltac:(lia) ltac:(lia) c Hc) as CS. fold (exponent64 c) in CS. fold (mantissa64 c) in CS. rewrite M0, ES in CS.
    change (2 ^ (52 + 11)) with (2 ^ 63) in *. destruct (2 ^ 63 <=? c); rewrite CS; vm_compute; reflexivity.
  - rewrite encode64_finite; try assumption; [| lia | intros W; apply NW; left; exact W].
    f_equal. destruct (Z.ltb_spec 0 (exponent64 c)); destruct (Z.eqb_spec (mantissa64 c) (2 ^ 52 - 1)); cbn [andb]; try lia.
    exfalso. apply NW. right. split; [lia|assumption].
Qed.
Print Assumptions C43_encode64.
(** Stated for numbers: a double that is not NaN, and has a code other than the wrong ones, survives encode and decode. *)
Theorem C43_round_trip fuel (x : double) : (1100 <= fuel)%nat -> is_nan x = false ->
  (forall c, 0 <= c < 2 ^ 64 -> wrong64 c -> x <> ieee64 c) ->
  exists c, encode64 fuel x = Ok c /\ 0 <= c < 2 ^ 64 /\ ieee64 c = x /\ decode64 fuel c = Ok x.
Proof.
  intros Hf NN NW. destruct (C43_all_doubles x) as (c & Hc & <-). exists c.
  destruct (C43_encode64 fuel c Hf Hc) as (A & B).
  - intros (ES & M0). 
    rewrite (@x_special 53 1024 52 11 eq_refl ltac:(lia) eq_refl ltac:(lia) c (ieee64 c) (ieee64_SF c) ltac:(exact ES)) in NN.
    fold (mantissa64 c) in NN. destruct (Z.eqb_spec (mantissa64 c) 0) as [|_]; [contradiction|discriminate NN].
  - intros W. exact (NW c Hc W eq_refl).
  - tauto.
Qed.
Print Assumptions C43_round_trip.
(** One third, which is not among the wrong ones. *)
Definition third : Z := 4599676419421066581.
Example C43_example : 0 <= third < 2 ^ 64 /\ ~ nan64 third /\ ~ wrong64 third /\ encode64 1100 (ieee64 third) = Ok third.
Proof.
  assert (R : 0 <= third < 2 ^ 64) by (split; [discriminate|reflexivity]).
  assert (N : ~ nan64 third) by (intros (A & _); vm_compute in A; discriminate A).
  assert (W : ~ wrong64 third) by (intros [A|(_ & A)]; vm_compute in A; discriminate A).
  split; [exact R|]. split; [exact N|]. split; [exact W|]. exact (proj1 (C43_encode64 1100 third ltac:(lia) R N W)).
Qed.
(** The claim for every double is false: a normal number with an all-ones
    mantissa is encoded as its successor, ... *)
Theorem C43_all_ones_refuted fuel c : (1100 <= fuel)%nat -> 0 <= c < 2 ^ 64 ->
  1 <= exponent64 c <= 2046 -> mantissa64 c = 2 ^ 52 - 1 -> encode64 fuel (ieee64 c) = Ok (c + 1).
Proof.
  intros Hf Hc HE HM. rewrite encode64_finite; try assumption; try lia.
  - rewrite HM. destruct (Z.ltb_spec 0 (exponent64 c)); [|lia]. reflexivity.
  - intros ->. vm_compute in HM. discriminate HM.
Qed.
Print Assumptions C43_all_ones_refuted.
(** ... so that the number just below one comes back as one and the largest
    finite double as infinity; and the negative zero loses its sign. *)
Theorem C43_decode_encode_refuted : 
  (encode64 1100 (ieee64 (Z.shiftl 1023 52 - 1)) = Ok (Z.shiftl 1023 52) /\ ieee64 (Z.shiftl 1023 52) = d1) /\
  (encode64 1100 (ieee64 (Z.shiftl 2047 52 - 1)) = Ok (Z.shiftl 2047 52) /\ ieee64 (Z.shiftl 2047 52) = B754_infinity false) /\
  (forall fuel, (1100 <= fuel)%nat -> encode64 fuel (B754_zero true) = Ok 0 /\ ieee64 0 = B754_zero false /\ ieee64 (2 ^ 63) = B754_zero true).
Proof.
  split; [split|split; [split|]].
  - rewrite (C43_all_ones_refuted 1100); [reflexivity|lia|split; [discriminate|reflexivity]|split; discriminate|reflexivity].
  - apply B2SF_inj. vm_compute. reflexivity.
  - rewrite (C43_all_ones_refuted 1100); [reflexivity|lia|split; [discriminate|reflexivity]|split; discriminate|reflexivity].
  - apply B2SF_inj. vm_compute. reflexivity.
  - intros fuel Hf. split.
    + unfold encode64.
      rewrite (@encode_finite 53 1024 _ _ 52 11 fuel eq_refl ltac:(lia) eq_refl ltac:(lia) ltac:(lia) ltac:(lia) H257_64 Htie_64 Hneg_64
        _ _ (B754_zero true) 0 0 false); [reflexivity|lia|split; [discriminate|reflexivity]|].
      split; [reflexivity|]. unfold mag, dy. cbn [Z.eqb B2R]. ring.
    + split; apply B2SF_inj; vm_compute; reflexivity.
Qed.
Print Assumptions C43_decode_encode_refuted.
Theorem C43_nan fuel c : 0 <= c < 2 ^ 64 -> nan64 c -> encode64 fuel (ieee64 c) = Ok (Z.lor (Z.shiftl 2047 52) (2 ^ 51)).
Proof.
  intros Hc (ES & M0).
  rewrite (@x_special 53 1024 52 11 eq_refl ltac:(lia) eq_refl ltac:(lia) c (ieee64 c) (ieee64_SF c) ltac:(exact ES)).
  fold (mantissa64 c). destruct (Z.eqb_spec (mantissa64 c) 0) as [|_]; [contradiction|]. reflexivity.
Qed.
Print Assumptions C43_nan.

(** ** C44: encoding floats; additionally the positive infinity is wrong. *)
Definition wrong32 (c : Z) : Prop :=
  c = 2 ^ 31 \/ (1 <= exponent32 c <= 254 /\ mantissa32 c = 2 ^ 23 - 1) \/ c = Z.shiftl 255 23.
Definition nan32 (c : Z) : Prop := exponent32 c = 255 /\ mantissa32 c <> 0.
Theorem C44_encode32 fuel c : (1100 <= fuel)%nat -> 0 <= c < 2 ^ 32 -> ~ nan32 c -> ~ wrong32 c ->
  encode32 fuel (ieee32 c) = Ok c /\ decode32 fuel c = Ok (ieee32 c).
Proof.
  intros Hf Hc NN NW. split; [|apply C42_decode32; assumption].
  assert (RE : 0 <= exponent32 c < 2 ^ 8) by (apply Z.mod_pos_bound; reflexivity). change (2 ^ 8) with 256 in RE.
  destruct (Z.eq_dec (exponent32 c) 255) as [ES|].
  - assert (M0 : mantissa32 c = 0).
    { destruct (Z.eq_dec (mantissa32 c) 0); [assumption|]. exfalso. apply NN. split; assumption. }
    rewrite (@x_special 24 128 23 8 eq_refl ltac:(lia) eq_refl ltac:(lia) c (ieee32 c) (ieee32_SF c) ltac:(exact ES)).
    fold (mantissa32 c). rewrite M0. cbn [Z.eqb].
    pose proof (code_split 23 8 ltac:(lia) ltac:(lia) c Hc) as CS. fold (exponent32 c) in CS. fold (mantissa32 c) in CS. rewrite M0, ES in CS.
    change (2 ^ (23 + 8)) with (2 ^ 31) in *. destruct (2 ^ 31 <=? c).
    + rewrite CS; vm_compute; reflexivity.
    + exfalso. apply NW. right. right. rewrite CS. reflexivity.
  - rewrite encode32_finite; try assumption; [| lia | intros W; apply NW; left; exact W].
    f_equal. destruct (Z.ltb_spec 0 (exponent32 c)); destruct (Z.eqb_spec (mantissa32 c) (2 ^ 23 - 1)); cbn [andb]; try lia.
    exfalso. apply NW. right. left. split; [lia|assumption].
Qed.
Print Assumptions C44_encode32.
Theorem C44_round_trip fuel (x : float) : (1100 <= fuel)%nat -> is_nan x = false ->
  (forall c, 0 <= c < 2 ^ 32 -> wrong32 c -> x <> ieee32 c) ->
  exists c, encode32 fuel x = Ok c /\ 0 <= c < 2 ^ 32 /\ ieee32 c = x /\ decode32 fuel c = Ok x.
Proof.
  intros Hf NN NW. destruct (C44_all_floats x) as (c & Hc & <-). exists c.
  destruct (C44_encode32 fuel c Hf Hc) as (A & B).
  - intros (ES & M0).
    rewrite (@x_special 24 128 23 8 eq_refl ltac:(lia) eq_refl ltac:(lia) c (ieee32 c) (ieee32_SF c) ltac:(exact ES)) in NN.
    fold (mantissa32 c) in NN. destruct (Z.eqb_spec (mantissa32 c) 0) as [|_]; [contradiction|discriminate NN].
  - intros W. exact (NW c Hc W eq_refl).
  - tauto.
Qed.
Print Assumptions C44_round_trip.
Definition third32 : Z := 1051372203.
Example C44_example : 0 <= third32 < 2 ^ 32 /\ ~ nan32 third32 /\ ~ wrong32 third32 /\ encode32 1100 (ieee32 third32) = Ok third32.
Proof.
  assert (R : 0 <= third32 < 2 ^ 32) by (split; [discriminate|reflexivity]).
  assert (N : ~ nan32 third32) by (intros (A & _); vm_compute in A; discriminate A).
  assert (W : ~ wrong32 third32) by (intros [A|[(_ & A)|A]]; vm_compute in A; discriminate A).
  split; [exact R|]. split; [exact N|]. split; [exact W|]. exact (proj1 (C44_encode32 1100 third32 ltac:(lia) R N W)).
Qed.
Theorem C44_all_ones_refuted fuel c : (1100 <= fuel)%nat -> 0 <= c < 2 ^ 32 ->
  1 <= exponent32 c <= 254 -> mantissa32 c = 2 ^ 23 - 1 -> encode32 fuel (ieee32 c) = Ok (c + 1).
Proof.
  intros Hf Hc HE HM. rewrite encode32_finite; try assumption; try lia.
  - rewrite HM. destruct (Z.ltb_spec 0 (exponent32 c)); [|lia]. reflexivity.
  - intros ->. vm_compute in HM. discriminate HM.
Qed.
Print Assumptions C44_all_ones_refuted.
(** The float +infinity is encoded as the code of -infinity. *)
Theorem C44_infinity_refuted fuel :
  exists c, encode32 fuel (B754_infinity false) = Ok c /\ encode32 fuel (B754_infinity true) = Ok c /\ ieee32 c = B754_infinity true.
Proof.
  exists (2 ^ 31 + Z.shiftl 255 23). split; [vm_compute; reflexivity|]. split; [vm_compute; reflexivity|].
  apply B2SF_inj. vm_compute. reflexivity.
Qed.
Print Assumptions C44_infinity_refuted.
Theorem C44_nan fuel c : 0 <= c < 2 ^ 32 -> nan32 c -> encode32 fuel (ieee32 c) = Ok (Z.lor (Z.shiftl 255 23) (2 ^ 22)).
Proof.
  intros Hc (ES & M0).
  rewrite (@x_special 24 128 23 8 eq_refl ltac:(lia) eq_refl ltac:(lia) c (ieee32 c) (ieee32_SF c) ltac:(exact ES)).
  fold (mantissa32 c). destruct (Z.eqb_spec (mantissa32 c) 0) as [|_]; [contradiction|]. reflexivity.
Qed.
Print Assumptions C44_nan.
