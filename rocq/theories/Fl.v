(** IEEE-754 arithmetic used by the C++ code: binary64 ([double]) and
    binary32 ([float]), round to nearest even, computable. *)
From Coq Require Import ZArith Reals Bool Lia Lra.
From Flocq Require Import Core BinarySingleNaN.
From Flocq Require Import Relative.
Open Scope Z_scope.

#[global] Instance Hprec53 : FLX.Prec_gt_0 53. Proof. reflexivity. Qed.
#[global] Instance Hmax1024 : Prec_lt_emax 53 1024. Proof. reflexivity. Qed.
#[global] Instance Hprec24 : FLX.Prec_gt_0 24. Proof. reflexivity. Qed.
#[global] Instance Hmax128 : Prec_lt_emax 24 128. Proof. reflexivity. Qed.

(** * Generic part *)
Section Gen.
Variables prec emax : Z.
Context (Hprec : FLX.Prec_gt_0 prec) (Hmax : Prec_lt_emax prec emax).
Notation fl := (binary_float prec emax).
Local Notation emin := (SpecFloat.emin prec emax).
Local Notation fexp := (SpecFloat.fexp prec emax).

Definition fadd (x y : fl) : fl := Bplus mode_NE x y.
Definition fsub (x y : fl) : fl := Bminus mode_NE x y.
Definition fmul (x y : fl) : fl := Bmult mode_NE x y.
Definition fdiv (x y : fl) : fl := Bdiv mode_NE x y.
Definition fopp (x : fl) : fl := Bopp x.
Definition flt (x y : fl) : bool := Bltb x y.
Definition fle (x y : fl) : bool := Bleb x y.
Definition feq (x y : fl) : bool := Beqb x y.
Definition finf (s : bool) : fl := B754_infinity s.
(** Nearest float to [m * 2^e] (integer to floating conversions, literals). *)
Definition fofZ (m e : Z) : fl := binary_normalize prec emax _ _ mode_NE m e false.

(** Real value, the infinities being placed just outside the finite range. *)
Definition fval (x : fl) : R :=
  match x with
  | B754_infinity s => if s then (- bpow radix2 emax)%R else bpow radix2 emax
  | _ => B2R x
  end.

Definition nonnan (x : fl) : Prop := is_nan x = false.
Definition fin (x : fl) : Prop := is_finite x = true.

Lemma fin_nonnan x : fin x -> nonnan x.
Proof. destruct x; cbn; unfold fin, nonnan; cbn; congruence. Qed.

Lemma fval_fin x : fin x -> fval x = B2R x.
Proof. destruct x; unfold fin; cbn; congruence. Qed.

Lemma fin_lt_emax (x : fl) : (Rabs (B2R x) < bpow radix2 emax)%R.
Proof. apply abs_B2R_lt_emax. Qed.

Lemma flt_spec x y : nonnan x -> nonnan y ->
  flt x y = Rlt_bool (fval x) (fval y).
Proof.
  intros Hx Hy. unfold flt.
  pose proof (bpow_gt_0 radix2 emax) as P.
  pose proof (fin_lt_emax x) as Bx. pose proof (fin_lt_emax y) as By.
  apply Rabs_lt_inv in Bx. apply Rabs_lt_inv in By.
  destruct (is_finite x) eqn:Fx; destruct (is_finite y) eqn:Fy.
  - rewrite Bltb_correct by assumption.
    rewrite !fval_fin by assumption. reflexivity.
  - destruct y as [|sy| |]; try discriminate. cbn [fval].
    rewrite (fval_fin x Fx).
    destruct x as [sx|sx| |sx mx ex Hm']; try discriminate; destruct sy;
      try destruct sx; unfold Bltb; cbn [B2SF SpecFloat.SFltb SpecFloat.SFcompare];
      symmetry; first [apply Rlt_bool_true; lra | apply Rlt_bool_false; lra].
  - destruct x as [|sx| |]; try discriminate. cbn [fval].
    rewrite (fval_fin y Fy).
    destruct y as [sy|sy| |sy my ey Hm']; try discriminate; destruct sx;
      try destruct sy; unfold Bltb; cbn [B2SF SpecFloat.SFltb SpecFloat.SFcompare];
      symmetry; first [apply Rlt_bool_true; lra | apply Rlt_bool_false; lra].
  - destruct x as [|sx| |]; try discriminate.
    destruct y as [|sy| |]; try discriminate.
    cbn [fval]. destruct sx, sy; unfold Bltb; cbn [B2SF SpecFloat.SFltb SpecFloat.SFcompare];
      symmetry; first [apply Rlt_bool_true; lra | apply Rlt_bool_false; lra].
Qed.

Lemma fle_spec x y : nonnan x -> nonnan y ->
  fle x y = Rle_bool (fval x) (fval y).
Proof.
  intros Hx Hy. unfold fle.
  pose proof (bpow_gt_0 radix2 emax) as P.
  pose proof (fin_lt_emax x) as Bx. pose proof (fin_lt_emax y) as By.
  apply Rabs_lt_inv in Bx. apply Rabs_lt_inv in By.
  destruct (is_finite x) eqn:Fx; destruct (is_finite y) eqn:Fy.
  - rewrite Bleb_correct by assumption.
    rewrite !fval_fin by assumption. reflexivity.
  - destruct y as [|sy| |]; try discriminate. cbn [fval].
    rewrite (fval_fin x Fx).
    destruct x as [sx|sx| |sx mx ex Hm']; try discriminate; destruct sy;
      try destruct sx; unfold Bleb; cbn [B2SF SpecFloat.SFleb SpecFloat.SFcompare];
      symmetry; first [apply Rle_bool_true; lra | apply Rle_bool_false; lra].
  - destruct x as [|sx| |]; try discriminate. cbn [fval].
    rewrite (fval_fin y Fy).
    destruct y as [sy|sy| |sy my ey Hm']; try discriminate; destruct sx;
      try destruct sy; unfold Bleb; cbn [B2SF SpecFloat.SFleb SpecFloat.SFcompare];
      symmetry; first [apply Rle_bool_true; lra | apply Rle_bool_false; lra].
  - destruct x as [|sx| |]; try discriminate.
    destruct y as [|sy| |]; try discriminate.
    cbn [fval]. destruct sx, sy; unfold Bleb; cbn [B2SF SpecFloat.SFleb SpecFloat.SFcompare];
      symmetry; first [apply Rle_bool_true; lra | apply Rle_bool_false; lra].
Qed.

Lemma flt_nan_l x y : is_nan x = true -> flt x y = false.
Proof. destruct x; cbn; try discriminate. destruct y; reflexivity. Qed.
Lemma flt_nan_r x y : is_nan y = true -> flt x y = false.
Proof. destruct y; cbn; try discriminate. destruct x as [|[]| |]; reflexivity. Qed.
Lemma fle_nan_l x y : is_nan x = true -> fle x y = false.
Proof. destruct x; cbn; try discriminate. destruct y; reflexivity. Qed.
Lemma fle_nan_r x y : is_nan y = true -> fle x y = false.
Proof. destruct y; cbn; try discriminate. destruct x as [|[]| |]; reflexivity. Qed.

Lemma flt_true x y : flt x y = true ->
  nonnan x /\ nonnan y /\ (fval x < fval y)%R.
Proof.
  intros H. destruct (is_nan x) eqn:Nx; [rewrite flt_nan_l in H by assumption; discriminate|].
  destruct (is_nan y) eqn:Ny; [rewrite flt_nan_r in H by assumption; discriminate|].
  rewrite flt_spec in H by assumption. split; [exact Nx|split; [exact Ny|]].
  destruct (Rlt_bool_spec (fval x) (fval y)); [assumption|discriminate].
Qed.

Lemma fle_true x y : fle x y = true ->
  nonnan x /\ nonnan y /\ (fval x <= fval y)%R.
Proof.
  intros H. destruct (is_nan x) eqn:Nx; [rewrite fle_nan_l in H by assumption; discriminate|].
  destruct (is_nan y) eqn:Ny; [rewrite fle_nan_r in H by assumption; discriminate|].
  rewrite fle_spec in H by assumption. split; [exact Nx|split; [exact Ny|]].
  destruct (Rle_bool_spec (fval x) (fval y)); [assumption|discriminate].
Qed.

Lemma flt_iff x y : nonnan x -> nonnan y -> (flt x y = true <-> (fval x < fval y)%R).
Proof.
  intros Hx Hy. rewrite flt_spec by assumption.
  destruct (Rlt_bool_spec (fval x) (fval y)); split; intros; try lra; try discriminate; reflexivity.
Qed.
Lemma fle_iff x y : nonnan x -> nonnan y -> (fle x y = true <-> (fval x <= fval y)%R).
Proof.
  intros Hx Hy. rewrite fle_spec by assumption.
  destruct (Rle_bool_spec (fval x) (fval y)); split; intros; try lra; try discriminate; reflexivity.
Qed.

Lemma flt_irrefl x : flt x x = false.
Proof. destruct (flt x x) eqn:E; [|reflexivity]. apply flt_true in E. lra. Qed.
Lemma flt_trans x y z : flt x y = true -> flt y z = true -> flt x z = true.
Proof.
  intros H1 H2. apply flt_true in H1. apply flt_true in H2.
  destruct H1 as (?&?&?). destruct H2 as (?&?&?). apply flt_iff; try assumption. lra.
Qed.
Lemma flt_asym x y : flt x y = true -> flt y x = false.
Proof.
  intros H1. destruct (flt y x) eqn:E; [|reflexivity].
  apply flt_true in H1. apply flt_true in E. lra.
Qed.
Lemma fle_refl x : nonnan x -> fle x x = true.
Proof. intros. apply fle_iff; try assumption. lra. Qed.
Lemma fle_trans x y z : fle x y = true -> fle y z = true -> fle x z = true.
Proof.
  intros H1 H2. apply fle_true in H1. apply fle_true in H2.
  destruct H1 as (?&?&?). destruct H2 as (?&?&?). apply fle_iff; try assumption. lra.
Qed.
Lemma flt_le x y : flt x y = true -> fle x y = true.
Proof. intros H. apply flt_true in H. destruct H as (?&?&?). apply fle_iff; try assumption. lra. Qed.
Lemma flt_false_le x y : nonnan x -> nonnan y -> flt x y = false -> fle y x = true.
Proof.
  intros Hx Hy H. apply fle_iff; try assumption.
  destruct (Rlt_le_dec (fval x) (fval y)) as [L|L]; [|exact L].
  apply flt_iff in L; congruence.
Qed.
Lemma fle_false_lt x y : nonnan x -> nonnan y -> fle x y = false -> flt y x = true.
Proof.
  intros Hx Hy H. apply flt_iff; try assumption.
  destruct (Rle_lt_dec (fval x) (fval y)) as [L|L]; [|exact L].
  apply fle_iff in L; congruence.
Qed.
Lemma fle_lt_false x y : fle x y = true -> flt y x = false.
Proof.
  intros H. destruct (flt y x) eqn:E; [|reflexivity].
  apply fle_true in H. apply flt_true in E. lra.
Qed.

(** ** Rounding facts *)
Local Notation rnd := (Generic_fmt.round radix2 fexp ZnearestE).

#[local] Instance vexp : Valid_exp fexp := fexp_correct prec emax _.

Lemma rnd_le x y : (x <= y)%R -> (rnd x <= rnd y)%R.
Proof. intros. apply round_le; try typeclasses eauto. assumption. Qed.

Lemma rnd_fl (x : fl) : rnd (B2R x) = B2R x.
Proof. apply round_generic; [typeclasses eauto|apply generic_format_B2R]. Qed.

Lemma rnd_0 : rnd 0 = 0%R.
Proof. apply round_0. typeclasses eauto. Qed.

(** An addition whose rounded result is in range is finite and correctly rounded. *)
Lemma fadd_fin x y : fin x -> fin y ->
  (Rabs (rnd (B2R x + B2R y)) < bpow radix2 emax)%R ->
  fin (fadd x y) /\ B2R (fadd x y) = rnd (B2R x + B2R y).
Proof.
  intros Fx Fy H. pose proof (Bplus_correct prec emax _ _ mode_NE x y Fx Fy) as C.
  cbn [round_mode] in C. rewrite Rlt_bool_true in C by exact H.
  destruct C as (A & B & _). split; assumption.
Qed.
Lemma fsub_fin x y : fin x -> fin y ->
  (Rabs (rnd (B2R x - B2R y)) < bpow radix2 emax)%R ->
  fin (fsub x y) /\ B2R (fsub x y) = rnd (B2R x - B2R y).
Proof.
  intros Fx Fy H. pose proof (Bminus_correct prec emax _ _ mode_NE x y Fx Fy) as C.
  cbn [round_mode] in C. rewrite Rlt_bool_true in C by exact H.
  destruct C as (A & B & _). split; assumption.
Qed.
Lemma fmul_fin x y : fin x -> fin y ->
  (Rabs (rnd (B2R x * B2R y)) < bpow radix2 emax)%R ->
  fin (fmul x y) /\ B2R (fmul x y) = rnd (B2R x * B2R y).
Proof.
  intros Fx Fy H. pose proof (Bmult_correct prec emax _ _ mode_NE x y) as C.
  cbn [round_mode] in C. rewrite Rlt_bool_true in C by exact H.
  destruct C as (A & B & _). rewrite Fx, Fy in B. split; assumption.
Qed.
Lemma fdiv_fin (x y : fl) : fin x -> B2R y <> 0%R ->
  (Rabs (rnd (B2R x / B2R y)) < bpow radix2 emax)%R ->
  fin (fdiv x y) /\ B2R (fdiv x y) = rnd (B2R x / B2R y).
Proof.
  intros Fx Ny H. pose proof (Bdiv_correct prec emax _ _ mode_NE x y Ny) as C.
  cbn [round_mode] in C. rewrite Rlt_bool_true in C by exact H.
  destruct C as (A & B & _). rewrite Fx in B. split; assumption.
Qed.

(** Bounds transfer through rounding when the bound is itself a float. *)
Lemma rnd_bound_fl x (b : fl) : (x <= B2R b)%R -> (rnd x <= B2R b)%R.
Proof. intros H. rewrite <- (rnd_fl b). apply rnd_le, H. Qed.
Lemma rnd_bound_fl' x (b : fl) : (B2R b <= x)%R -> (B2R b <= rnd x)%R.
Proof. intros H. rewrite <- (rnd_fl b). apply rnd_le, H. Qed.

Lemma rnd_gen x y : generic_format radix2 fexp y -> (x <= y)%R -> (rnd x <= y)%R.
Proof. intros G H. rewrite <- (round_generic radix2 fexp ZnearestE y G). apply rnd_le, H. Qed.
Lemma rnd_gen' x y : generic_format radix2 fexp y -> (y <= x)%R -> (y <= rnd x)%R.
Proof. intros G H. rewrite <- (round_generic radix2 fexp ZnearestE y G). apply rnd_le, H. Qed.

Lemma rnd_abs_gen x y : generic_format radix2 fexp y -> (Rabs x <= y)%R -> (Rabs (rnd x) <= y)%R.
Proof.
  intros G H. apply Rabs_le. apply Rabs_le_inv in H. split.
  - apply rnd_gen'; [apply generic_format_opp, G | lra].
  - apply rnd_gen; [exact G | lra].
Qed.

(** Integers times a power of two with few bits are representable. *)
Lemma gen_IZR_bpow m e : (Z.abs m <= 2 ^ prec) -> emin <= e ->
  generic_format radix2 fexp (IZR m * bpow radix2 e).
Proof.
  intros Hm He. pose proof Hprec as HP. unfold FLX.Prec_gt_0 in HP.
  destruct (Z.eq_dec (Z.abs m) (2 ^ prec)) as [E|E].
  - assert (m = 2 ^ prec \/ m = - 2 ^ prec) as [E1|E1] by lia; rewrite E1; clear E1 E.
    + replace (IZR (2 ^ prec)) with (bpow radix2 prec) by (rewrite (IZR_Zpower radix2); [reflexivity|lia]).
      rewrite <- bpow_plus. apply generic_format_bpow. unfold fexp, SpecFloat.fexp. lia.
    + rewrite opp_IZR, Ropp_mult_distr_l_reverse. apply generic_format_opp.
      replace (IZR (2 ^ prec)) with (bpow radix2 prec) by (rewrite (IZR_Zpower radix2); [reflexivity|lia]).
      rewrite <- bpow_plus. apply generic_format_bpow. unfold fexp, SpecFloat.fexp. lia.
  - apply generic_format_FLT. exists (Float radix2 m e); cbn; try assumption.
    + reflexivity.
    + lia.
Qed.

Lemma gen_bpow e : emin <= e -> generic_format radix2 fexp (bpow radix2 e).
Proof.
  intros He. replace (bpow radix2 e) with (IZR 1 * bpow radix2 e)%R by (cbn; ring).
  apply gen_IZR_bpow; [|exact He].
  pose proof Hprec as HP. unfold FLX.Prec_gt_0 in HP.
  change (Z.abs 1) with (2 ^ 0). apply Z.pow_le_mono_r; lia.
Qed.

Lemma fopp_B2R (x : fl) : B2R (fopp x) = (- B2R x)%R.
Proof. apply B2R_Bopp. Qed.
Lemma fopp_fin x : fin (fopp x) <-> fin x.
Proof. unfold fin, fopp. rewrite is_finite_Bopp. reflexivity. Qed.
Lemma fopp_nonnan x : nonnan (fopp x) <-> nonnan x.
Proof. unfold nonnan, fopp. rewrite is_nan_Bopp. reflexivity. Qed.
Lemma fopp_fval x : fval (fopp x) = (- fval x)%R.
Proof. destruct x as [[]|[]| |[] ? ? ?]; cbn -[bpow]; rewrite ?Ropp_involutive, ?Ropp_0; try reflexivity;
  rewrite <- F2R_Zopp; reflexivity. Qed.

(** Correctness of integer conversion. *)
Lemma fofZ_fin m e : (Rabs (rnd (IZR m * bpow radix2 e)) < bpow radix2 emax)%R ->
  fin (fofZ m e) /\ B2R (fofZ m e) = rnd (IZR m * bpow radix2 e).
Proof.
  intros H. pose proof (binary_normalize_correct prec emax _ _ mode_NE m e false) as C.
  cbv zeta in C. unfold F2R in C. cbn [Fnum Fexp round_mode] in C.
  rewrite Rlt_bool_true in C by exact H. destruct C as (A & B & _). split; assumption.
Qed.

End Gen.

Arguments fadd {prec emax Hprec Hmax}.
Arguments fsub {prec emax Hprec Hmax}.
Arguments fmul {prec emax Hprec Hmax}.
Arguments fdiv {prec emax Hprec Hmax}.
Arguments fofZ {prec emax Hprec Hmax}.
Arguments fopp {prec emax}.
Arguments flt {prec emax}.
Arguments fle {prec emax}.
Arguments feq {prec emax}.
Arguments finf {prec emax}.
Arguments fval {prec emax}.
Arguments nonnan {prec emax}.
Arguments fin {prec emax}.

(** * The two concrete types *)
Notation double := (binary_float 53 1024).
Notation float := (binary_float 24 128).

Definition d_of_Z (m : Z) : double := fofZ m 0.
Definition f_of_Z (m : Z) : float := fofZ m 0.
Definition dinf : double := finf false.
Definition dninf : double := finf true.
Definition dnan : double := B754_nan.
Definition d0 : double := B754_zero false.
Definition d1 : double := d_of_Z 1.
