(** The bit patterns of the standard (Flocq's [binary_float_of_bits_aux]) and
    the values of the codes. *)
From Coq Require Import List Arith ZArith Bool Reals Lia Lra.
From Flocq Require Import Core BinarySingleNaN.
From Flocq Require Import Bits.
From Flocq Require Binary.
From Verif Require Import Base Fl FlFacts BinCode BinCodeProofs BinCodeProofs2.
Open Scope Z_scope.

(** More fuel changes nothing. *)
Lemma while_mono {A} c (f : A -> A) n : forall m a b, (n <= m)%nat -> while n c f a = Ok b -> while m c f a = Ok b.
Proof.
  induction n as [|n IH]; intros m a b H W.
  - destruct m; cbn [while] in *; destruct (c a); try discriminate W; exact W.
  - destruct m as [|m]; [lia|]. cbn [while] in *. destruct (c a); [|exact W]. apply IH; [lia|exact W].
Qed.
Lemma bind_mono {A B} (r r' : res A) (k k' : A -> res B) b : (forall a, r = Ok a -> r' = Ok a) ->
  (forall a, k a = Ok b -> k' a = Ok b) -> bind r k = Ok b -> bind r' k' = Ok b.
Proof.
  intros H1 H2 H. destruct r as [a| | |]; cbn [bind] in H; try discriminate H. rewrite (H1 a eq_refl). cbn [bind]. apply H2, H.
Qed.
Lemma expOf2_mono {prec emax} {Hp : FLX.Prec_gt_0 prec} {Hx : Prec_lt_emax prec emax} n m N (b : binary_float prec emax) :
  (n <= m)%nat -> expOf2 n N = Ok b -> expOf2 m N = Ok b.
Proof.
  intros H. unfold expOf2. repeat (apply bind_mono; [intros ? W; apply (while_mono _ _ n); [exact H|exact W]|intros ?]).
  intros K; exact K.
Qed.
Lemma decode_mono {prec emax} {Hp : FLX.Prec_gt_0 prec} {Hx : Prec_lt_emax prec emax} mw ew n m c (b : binary_float prec emax) :
  (n <= m)%nat -> decode mw ew n c = Ok b -> decode mw ew m c = Ok b.
Proof.
  intros H. unfold decode.
  match goal with |- (if ?t then _ else _) = _ -> _ => destruct t; [intros K; exact K|] end.
  match goal with |- (if ?t then _ else _) = _ -> _ => destruct t; [intros K; exact K|] end.
  apply bind_mono; [|intros a K; exact K]. intros a.
  match goal with |- (if ?t then _ else _) = _ -> _ => destruct t end.
  - apply bind_mono; [intros p; apply expOf2_mono, H|intros p K; exact K].
  - repeat (apply bind_mono; [intros ? W; apply (while_mono _ _ n); [exact H|exact W]|intros ?]). intros K; exact K.
Qed.

Section Gen.
Context {prec emax : Z} {Hp : FLX.Prec_gt_0 prec} {Hx : Prec_lt_emax prec emax}.
Notation flo := (binary_float prec emax).
Variables (mw ew : Z).
Hypothesis Hmw : prec = mw + 1.
Hypothesis Hmw_range : 10 <= mw <= 52.
Hypothesis Hew : emax = 2 ^ (ew - 1).
Hypothesis Hew_range : 2 <= ew.
Hypothesis Hemax : prec + 11 < emax.
Variable c : Z.
Hypothesis Hc : 0 <= c < 2 ^ (mw + ew + 1).
Variable x : flo.
Hypothesis HX : B2SF x = Binary.FF2SF (binary_float_of_bits_aux mw ew c).
Notation E := ((c / 2 ^ mw) mod 2 ^ ew).
Notation M := (c mod 2 ^ mw).
Notation neg := (2 ^ (mw + ew) <=? c).

Lemma aux_cases : binary_float_of_bits_aux mw ew c =
  if E =? 0 then match M with Z0 => Binary.F754_zero neg | Zpos p => Binary.F754_finite neg p (3 - emax - prec)
                            | Zneg _ => Binary.F754_nan false xH end
  else if E =? 2 * emax - 1 then match M with Z0 => Binary.F754_infinity neg | Zpos p => Binary.F754_nan neg p
                            | Zneg _ => Binary.F754_nan false xH end
  else match M + 2 ^ mw with Zpos p => Binary.F754_finite neg p (E + (3 - emax - prec) - 1)
                            | _ => Binary.F754_nan false xH end.
Proof.
  pose proof (pow_ew ew Hew Hew_range) as PE.
  unfold binary_float_of_bits_aux, split_bits. rewrite !Zeq_is_eq_bool_ || idtac.
  unfold SpecFloat.emin. rewrite <- Hew, <- Hmw.
  replace (2 ^ ew - 1) with (2 * emax - 1) by (rewrite PE; reflexivity).
  rewrite (Z.pow_add_r 2 mw ew) by lia.
  assert (ZE : forall a b, Zeq_bool a b = (a =? b)).
  { intros a b. destruct (Z.eqb_spec a b) as [->|N]; [apply Zeq_is_eq_bool; reflexivity|].
    destruct (Zeq_bool a b) eqn:Q; [|reflexivity]. apply Zeq_is_eq_bool in Q. contradiction. }
  rewrite !ZE. reflexivity.
Qed.

Lemma x_finite : E < 2 * emax - 1 ->
  val x (if neg then (- mag (prec := prec) (emax := emax) mw E M)%R else mag (prec := prec) (emax := emax) mw E M) /\ Bsign x = neg.
Proof.
  intros HE. rewrite aux_cases in HX.
  pose proof (M_range mw ew Hmw_range c) as RM.
  assert (PM : 0 < 2 ^ mw) by (apply Z.pow_pos_nonneg; lia).
  assert (FR : forall (s : bool) (p : positive) e, B2SF x = SpecFloat.S754_finite s p e ->
    val x (if s then (- dy (Zpos p) e)%R else dy (Zpos p) e) /\ Bsign x = s).
  { intros s p e Q. destruct x as [| | |s' p' e' B]; try discriminate Q. cbn [B2SF] in Q. injection Q as -> -> ->.
    split; [|reflexivity]. split; [reflexivity|]. cbn [B2R]. unfold F2R, dy. cbn [Fnum Fexp].
    destruct s; cbn [cond_Zopp]; [|reflexivity]. change (Zneg p) with (- Zpos p). rewrite opp_IZR. ring. }
  unfold mag. destruct (Z.eqb_spec E 0) as [E0|E0].
  - destruct M as [|p|p] eqn:EM; [| |lia].
    + cbn [Binary.FF2SF] in HX. destruct x as [s| | |]; try discriminate HX. cbn [B2SF] in HX. injection HX as ->.
      split; [|reflexivity]. rewrite dy_0. split; [reflexivity|]. destruct neg; cbn [B2R]; ring.
    + apply FR. exact HX.
  - destruct (Z.eqb_spec E (2 * emax - 1)) as [|_]; [lia|].
    destruct (M + 2 ^ mw) as [|p|p] eqn:EM; [lia| |lia].
    destruct (FR _ _ _ HX) as (A & B). split; [|exact B].
    replace (2 ^ mw + M) with (Zpos p) by lia.
    replace (3 - emax - prec + (E - 1)) with (E + (3 - emax - prec) - 1) by lia. exact A.
Qed.
Lemma x_special : E = 2 * emax - 1 -> x = if M =? 0 then B754_infinity neg else B754_nan.
Proof.
  intros HE. rewrite aux_cases in HX. pose proof (M_range mw ew Hmw_range c) as RM.
  destruct (Z.eqb_spec E 0) as [|_]; [lia|]. destruct (Z.eqb_spec E (2 * emax - 1)) as [_|]; [|lia].
  destruct M as [|p|p]; [| |lia]; cbn [Z.eqb]; destruct x; try discriminate HX; try reflexivity.
  cbn [Binary.FF2SF B2SF] in HX. injection HX as ->. reflexivity.
Qed.

Lemma decode_is fuel : (Z.to_nat emax + 20 <= fuel)%nat -> (E = 0 -> M = 0 -> decode mw ew fuel c = Ok x) ->
  decode mw ew fuel c = Ok x.
Proof.
  intros Hf HZ. pose proof (E_range ew Hew Hew_range c) as RE || pose proof (E_range mw ew Hew Hew_range c) as RE.
  pose proof (M_range mw ew Hmw_range c) as RM.
  destruct (Z.eq_dec E (2 * emax - 1)) as [ES|NS].
  - rewrite (decode_special mw ew Hmw_range Hew Hew_range c Hc fuel ES), (x_special ES). reflexivity.
  - destruct (Z.eq_dec E 0) as [E0|E0]; [destruct (Z.eq_dec M 0) as [M0|M0]; [apply HZ; assumption|]|].
    all: destruct (decode_finite mw ew Hmw Hmw_range Hew Hew_range Hemax c Hc fuel Hf ltac:(lia)) as (r & -> & V);
      destruct (x_finite ltac:(lia)) as (Vx & _); f_equal;
      assert (N : (0 < mag (prec := prec) (emax := emax) mw E M)%R)
        by (apply (mag_nz mw ew fuel Hmw Hmw_range Hew_range Hf); lia);
      destruct neg;
      [apply (val_inj _ _ (- mag (prec := prec) (emax := emax) mw E M)%R); [lra|apply opp_ex, V|exact Vx]
      |apply (val_inj _ _ (mag (prec := prec) (emax := emax) mw E M)); [lra|exact V|exact Vx]].
Qed.
End Gen.
