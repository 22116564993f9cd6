(** Facts about the concrete types [double] and [float]. *)
From Coq Require Import ZArith Reals Bool Lia Lra.
From Flocq Require Import Core BinarySingleNaN.
From Verif Require Import Fl.
Open Scope R_scope.

Section Gen.
Context {prec emax : Z} {Hprec : FLX.Prec_gt_0 prec} {Hmax : Prec_lt_emax prec emax}.
Notation flo := (binary_float prec emax).
Notation emin := (SpecFloat.emin prec emax).
Notation fexp := (SpecFloat.fexp prec emax).
Notation rnd := (Generic_fmt.round radix2 fexp ZnearestE).

Lemma Hemin0 : (emin <= 0)%Z.
Proof.
  pose proof Hprec as H1. pose proof Hmax as H2. unfold FLX.Prec_gt_0, Prec_lt_emax, SpecFloat.emin in *. lia.
Qed.

(** Small integers are exact. *)
Lemma fofZ_exact m e : (Z.abs m <= 2 ^ prec)%Z -> (emin <= e)%Z -> (e + prec < emax)%Z ->
  fin (fofZ m e : flo) /\ B2R (fofZ m e : flo) = IZR m * bpow radix2 e.
Proof.
  intros Hm He Hx. pose proof Hprec as HP. unfold FLX.Prec_gt_0 in HP.
  assert (E : rnd (IZR m * bpow radix2 e) = IZR m * bpow radix2 e).
  { apply round_generic; [typeclasses eauto|]. apply gen_IZR_bpow; assumption. }
  rewrite <- E. apply fofZ_fin. rewrite E.
  rewrite Rabs_mult, (Rabs_pos_eq (bpow radix2 e)) by apply bpow_ge_0.
  apply Rle_lt_trans with (bpow radix2 prec * bpow radix2 e).
  - apply Rmult_le_compat_r; [apply bpow_ge_0|]. rewrite <- abs_IZR.
    rewrite <- (IZR_Zpower radix2) by lia. apply IZR_le. exact Hm.
  - rewrite <- bpow_plus. apply bpow_lt. lia.
Qed.
End Gen.

Notation drnd := (Generic_fmt.round radix2 (SpecFloat.fexp 53 1024) ZnearestE).
Notation frnd := (Generic_fmt.round radix2 (SpecFloat.fexp 24 128) ZnearestE).

Lemma d_of_Z_exact z : (Z.abs z <= 9007199254740992)%Z ->
  fin (d_of_Z z) /\ B2R (d_of_Z z) = IZR z.
Proof.
  intros H. destruct (@fofZ_exact 53 1024 _ _ z 0) as (A & B); [exact H|easy|easy|].
  split; [exact A|]. unfold d_of_Z. rewrite B. cbn. ring.
Qed.
Lemma d1_fin : fin d1. Proof. apply d_of_Z_exact. easy. Qed.
Lemma d1_val : B2R d1 = 1. Proof. apply (d_of_Z_exact 1). easy. Qed.
Lemma d0_fin : fin d0. Proof. reflexivity. Qed.
Lemma d0_val : B2R d0 = 0. Proof. reflexivity. Qed.

(** What a draw in [0,1) is. *)
Lemma unit_draw d : fle d0 d = true -> flt d d1 = true -> fin d /\ 0 <= B2R d < 1.
Proof.
  intros H1 H2. apply fle_true in H1. apply flt_true in H2.
  destruct H1 as (_ & N & L1). destruct H2 as (_ & _ & L2).
  change (fval d0) with 0 in L1. rewrite (fval_fin _ _ d1 d1_fin), d1_val in L2.
  assert (F : fin d).
  { destruct d as [s|[|]| |s m e Hb]; try reflexivity; exfalso.
    - cbn [fval] in L1. pose proof (bpow_gt_0 radix2 1024) as HB. revert L1 HB. generalize (bpow radix2 1024). intros; lra.
    - cbn [fval] in L2. assert (HB : bpow radix2 0 <= bpow radix2 1024) by (apply bpow_le; easy).
      change (bpow radix2 0) with 1 in HB. revert L2 HB. generalize (bpow radix2 1024). intros; lra.
    - discriminate. }
  split; [exact F|]. rewrite (fval_fin _ _ d F) in *. lra.
Qed.

Lemma dval_lt_emax (x : double) : Rabs (B2R x) < bpow radix2 1024.
Proof. apply abs_B2R_lt_emax. Qed.

(** |x| <= m * 2^e bounds survive rounding as long as m <= 2^53. *)
Lemma drnd_abs_bound x m e : (0 <= m <= 9007199254740992)%Z -> (-1074 <= e)%Z ->
  Rabs x <= IZR m * bpow radix2 e -> Rabs (drnd x) <= IZR m * bpow radix2 e.
Proof.
  intros Hm He H. apply (rnd_abs_gen 53 1024 _); [|exact H].
  apply (gen_IZR_bpow 53 1024 _); [|exact He]. rewrite Z.abs_eq by lia. exact (proj2 Hm).
Qed.
Lemma mbound_lt_emax m e : (0 <= m <= 9007199254740992)%Z -> (e + 53 < 1024)%Z ->
  IZR m * bpow radix2 e < bpow radix2 1024.
Proof.
  intros Hm He. apply Rle_lt_trans with (bpow radix2 53 * bpow radix2 e).
  - apply Rmult_le_compat_r; [apply bpow_ge_0|]. change (bpow radix2 53) with 9007199254740992.
    apply IZR_le. lia.
  - rewrite <- bpow_plus. apply bpow_lt. lia.
Qed.
Lemma fadd_bounded (x y : double) m e : (0 <= m <= 9007199254740992)%Z -> (-1074 <= e)%Z -> (e + 53 < 1024)%Z ->
  fin x -> fin y -> Rabs (B2R x + B2R y) <= IZR m * bpow radix2 e ->
  fin (fadd x y) /\ Rabs (B2R (fadd x y)) <= IZR m * bpow radix2 e /\ B2R (fadd x y) = drnd (B2R x + B2R y).
Proof.
  intros Hm He He2 Fx Fy H. pose proof (drnd_abs_bound _ m e Hm He H) as B.
  destruct (fadd_fin 53 1024 _ _ x y Fx Fy) as (F & E).
  - eapply Rle_lt_trans; [exact B|]. apply mbound_lt_emax; assumption.
  - split; [exact F|]. rewrite E. split; [exact B|reflexivity].
Qed.
Lemma fsub_bounded (x y : double) m e : (0 <= m <= 9007199254740992)%Z -> (-1074 <= e)%Z -> (e + 53 < 1024)%Z ->
  fin x -> fin y -> Rabs (B2R x - B2R y) <= IZR m * bpow radix2 e ->
  fin (fsub x y) /\ Rabs (B2R (fsub x y)) <= IZR m * bpow radix2 e /\ B2R (fsub x y) = drnd (B2R x - B2R y).
Proof.
  intros Hm He He2 Fx Fy H. pose proof (drnd_abs_bound _ m e Hm He H) as B.
  destruct (fsub_fin 53 1024 _ _ x y Fx Fy) as (F & E).
  - eapply Rle_lt_trans; [exact B|]. apply mbound_lt_emax; assumption.
  - split; [exact F|]. rewrite E. split; [exact B|reflexivity].
Qed.
Lemma fmul_bounded (x y : double) m e : (0 <= m <= 9007199254740992)%Z -> (-1074 <= e)%Z -> (e + 53 < 1024)%Z ->
  fin x -> fin y -> Rabs (B2R x * B2R y) <= IZR m * bpow radix2 e ->
  fin (fmul x y) /\ Rabs (B2R (fmul x y)) <= IZR m * bpow radix2 e /\ B2R (fmul x y) = drnd (B2R x * B2R y).
Proof.
  intros Hm He He2 Fx Fy H. pose proof (drnd_abs_bound _ m e Hm He H) as B.
  destruct (fmul_fin 53 1024 _ _ x y Fx Fy) as (F & E).
  - eapply Rle_lt_trans; [exact B|]. apply mbound_lt_emax; assumption.
  - split; [exact F|]. rewrite E. split; [exact B|reflexivity].
Qed.

(** Subtracting a finite number from a non-NaN never yields NaN. *)
Lemma fsub_fin_nonnan {prec emax} {Hp : FLX.Prec_gt_0 prec} {Hm : Prec_lt_emax prec emax}
  (x y : binary_float prec emax) : nonnan x -> fin y -> nonnan (fsub x y).
Proof.
  intros Nx Fy. destruct (is_finite x) eqn:Fx.
  - pose proof (Bminus_correct prec emax _ _ mode_NE x y Fx Fy) as C. unfold fsub, nonnan.
    destruct (Rlt_bool _ _).
    + destruct C as (_ & B & _). destruct (Bminus mode_NE x y); try discriminate; reflexivity.
    + destruct C as (B & _). destruct (Bminus mode_NE x y); try reflexivity. 
      exfalso. cbn in B. discriminate.
  - destruct x as [|s| |]; try discriminate. unfold nonnan, fsub.
    destruct y as [sy|sy| |sy my ey Hy]; try discriminate; destruct s; reflexivity.
Qed.

(** The bound used for weights: sums of up to 2^53 terms below it stay finite. *)
Definition B900 : R := bpow radix2 900.
Lemma B900_eq : B900 = bpow radix2 900. Proof. reflexivity. Qed.
Lemma B900_pos : 0 < B900. Proof. apply bpow_gt_0. Qed.
Global Opaque B900.

Section B.
Variables (x y : double) (m : Z).
Hypotheses (Hm : (0 <= m <= 9007199254740992)%Z) (Fx : fin x) (Fy : fin y).
Lemma fadd_900 : Rabs (B2R x + B2R y) <= IZR m * B900 ->
  fin (fadd x y) /\ Rabs (B2R (fadd x y)) <= IZR m * B900 /\ B2R (fadd x y) = drnd (B2R x + B2R y).
Proof. rewrite B900_eq. apply fadd_bounded; easy. Qed.
Lemma fsub_900 : Rabs (B2R x - B2R y) <= IZR m * B900 ->
  fin (fsub x y) /\ Rabs (B2R (fsub x y)) <= IZR m * B900 /\ B2R (fsub x y) = drnd (B2R x - B2R y).
Proof. rewrite B900_eq. apply fsub_bounded; easy. Qed.
Lemma fmul_900 : Rabs (B2R x * B2R y) <= IZR m * B900 ->
  fin (fmul x y) /\ Rabs (B2R (fmul x y)) <= IZR m * B900 /\ B2R (fmul x y) = drnd (B2R x * B2R y).
Proof. rewrite B900_eq. apply fmul_bounded; easy. Qed.
Lemma fdiv_900 : B2R y <> 0 -> Rabs (B2R x / B2R y) <= IZR m * B900 ->
  fin (fdiv x y) /\ Rabs (B2R (fdiv x y)) <= IZR m * B900 /\ B2R (fdiv x y) = drnd (B2R x / B2R y).
Proof.
  rewrite B900_eq. intros Ny H. pose proof (drnd_abs_bound _ m 900 Hm ltac:(easy) H) as B.
  destruct (fdiv_fin 53 1024 _ _ x y Fx Ny) as (F & E).
  - eapply Rle_lt_trans; [exact B|]. apply mbound_lt_emax; easy.
  - split; [exact F|]. rewrite E. split; [exact B|reflexivity].
Qed.
End B.
Lemma B900_1 : 1 <= B900.
Proof. rewrite B900_eq. change 1 with (bpow radix2 0). apply bpow_le. easy. Qed.
Lemma drnd_ge0 x : 0 <= x -> 0 <= drnd x.
Proof. intros. apply (rnd_gen' 53 1024 _); [apply generic_format_0|assumption]. Qed.
Lemma drnd_le1 x : x <= 1 -> drnd x <= 1.
Proof. intros. apply (rnd_gen 53 1024 _); [|assumption]. change 1 with (bpow radix2 0). apply generic_format_bpow. easy. Qed.
Lemma drnd_le0 x : x <= 0 -> drnd x <= 0.
Proof. intros. apply (rnd_gen 53 1024 _); [apply generic_format_0|assumption]. Qed.
