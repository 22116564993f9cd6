(** Boxes and default genetic operators: C38-C40, C58-C60, C63, C64. *)
From Coq Require Import List Arith ZArith Bool Lia Reals Lra Permutation.
From Flocq Require Import Core BinarySingleNaN.
From Verif Require Import Base Fl FlFacts Rng RandProofs GlobalProofs Box BoxProofs StdOps GABase SOGA MOGA
  GlobalM Defaults DefaultsProofs VarInv.
Import ListNotations.
Open Scope Z_scope.

(** * Specification *)
(** The bounds of the first dimensions() coordinates make sense. *)
Definition proper (b : dbox) : Prop :=
  0 <= dimD b /\ forall i, Z.of_nat i < dimD b -> fle (minD b i) (maxD b i) = true.
Definition in_box (b : dbox) (v : list double) : Prop :=
  Z.of_nat (length v) = dimD b /\
  forall i x, nth_error v i = Some x -> fle (minD b i) x = true /\ fle x (maxD b i) = true.
Definition in_ibox (b : ibox) (v : list Z) : Prop :=
  Z.of_nat (length v) = dimI b /\ forall i x, nth_error v i = Some x -> minI b i <= x <= maxI b i.
(** [y] is the point of [lo,hi] nearest to [x]. *)
Definition nearest (lo hi x y : double) : Prop :=
  fle lo y = true /\ fle y hi = true /\
  (fle lo x = true -> fle x hi = true -> y = x) /\ (flt x lo = true -> y = lo) /\ (flt hi x = true -> y = hi).
(** [v'] is [v] except perhaps at [i]. *)
Definition only_at {A} (i : nat) (v v' : list A) : Prop :=
  length v' = length v /\ forall j, j <> i -> nth_error v' j = nth_error v j.

(** * C38 *)
Theorem C38_applyConstraint : forall (b : dbox) (v : list double),
  proper b -> Z.of_nat (length v) = dimD b ->
  exists v', applyConstraintD b v = Ok v' /\ length v' = length v /\
    forall i x, nth_error v i = Some x -> exists y, nth_error v' i = Some y /\
      (is_nan x = true -> y = x) /\ (is_nan x = false -> nearest (minD b i) (maxD b i) x y).
Proof.
  intros b v (Hd & Hp) HL. unfold applyConstraintD. rewrite HL, Z.eqb_refl. exists (constrainD b v 0).
  split; [reflexivity|]. split; [apply constrainD_length|]. intros i x E.
  exists (clampD (minD b i) (maxD b i) x). split; [exact (constrainD_nth b v 0 i x E)|].
  split; [apply clampD_nan|]. intros N. apply clampD_proj; [|exact N]. apply Hp.
  assert (i < length v)%nat by (apply nth_error_Some; congruence). lia.
Qed.
Print Assumptions C38_applyConstraint.

(** One coordinate only. *)
Theorem C38_applyConstraint_at : forall (b : dbox) (v : list double) (idx : Z),
  proper b -> Z.of_nat (length v) = dimD b -> 0 <= idx < dimD b ->
  exists v', applyConstraintD_at b v idx = Ok v' /\ only_at (Z.to_nat idx) v v' /\
    forall x, nth_error v (Z.to_nat idx) = Some x -> exists y, nth_error v' (Z.to_nat idx) = Some y /\
      (is_nan x = true -> y = x) /\ (is_nan x = false -> nearest (minD b (Z.to_nat idx)) (maxD b (Z.to_nat idx)) x y).
Proof.
  intros b v idx (Hd & Hp) HL Hi. unfold applyConstraintD_at. rewrite HL, Z.eqb_refl.
  destruct (Z.ltb_spec idx 0); [lia|]. destruct (Z.leb_spec (dimD b) idx); [lia|]. cbn [negb orb].
  destruct (get_at_in v idx ltac:(lia)) as (x & E & E'). rewrite E. cbn [bind]. eexists. split; [reflexivity|].
  split; [split; [apply set_at_length|intros; apply set_at_other; assumption]|].
  intros x' Ex. assert (x' = x) as -> by congruence.
  eexists. split; [apply set_at_same; lia|]. split; [apply clampD_nan|].
  intros N. apply clampD_proj; [|exact N]. apply Hp. lia.
Qed.
Print Assumptions C38_applyConstraint_at.

(** Applying it again changes nothing; a variable in the box is not touched. *)
Theorem C38_idempotent : forall (b : dbox) (v v' : list double),
  proper b -> applyConstraintD b v = Ok v' -> applyConstraintD b v' = Ok v'.
Proof.
  intros b v v' Hp H. assert (HL : Z.of_nat (length v) = dimD b).
  { unfold applyConstraintD in H. destruct (Z.eqb_spec (Z.of_nat (length v)) (dimD b)); [assumption|discriminate]. }
  destruct (C38_applyConstraint b v Hp HL) as (w & E & L & Q). assert (w = v') as -> by congruence.
  destruct (C38_applyConstraint b v' Hp ltac:(rewrite L; exact HL)) as (w & E2 & L2 & Q2). rewrite E2. f_equal.
  apply nth_error_ext. intros i. destruct (nth_error v' i) as [y|] eqn:Ey.
  - destruct (Q2 i y Ey) as (z & Ez & A & B). rewrite Ez. f_equal.
    destruct (is_nan y) eqn:N; [auto|]. destruct (B eq_refl) as (_ & _ & C & _).
    assert (Hi : (i < length v)%nat) by (rewrite <- L; apply nth_error_Some; congruence).
    destruct (nth_error v i) as [x|] eqn:Ex; [|apply nth_error_None in Ex; lia].
    destruct (Q i x Ex) as (y' & Ey' & A1 & B1). assert (y' = y) as -> by congruence.
    destruct (is_nan x) eqn:Nx; [rewrite (A1 eq_refl) in N; congruence|].
    destruct (B1 eq_refl) as (C1 & C2 & _). apply C; assumption.
  - apply nth_error_None. rewrite L2. apply nth_error_None. exact Ey.
Qed.
Print Assumptions C38_idempotent.
Theorem C38_inside_unchanged : forall (b : dbox) (v : list double),
  proper b -> in_box b v -> applyConstraintD b v = Ok v.
Proof.
  intros b v Hp (HL & Hin). destruct (C38_applyConstraint b v Hp HL) as (w & E & L & Q). rewrite E. f_equal.
  apply nth_error_ext. intros i. destruct (nth_error v i) as [y|] eqn:Ey.
  - destruct (Q i y Ey) as (z & Ez & A & B). rewrite Ez. f_equal. destruct (Hin i y Ey) as (H1 & H2).
    destruct (is_nan y) eqn:N; [auto|]. destruct (B eq_refl) as (_ & _ & C & _). auto.
  - apply nth_error_None. rewrite L. apply nth_error_None. exact Ey.
Qed.
Print Assumptions C38_inside_unchanged.
(** Integer boxes. *)
Theorem C38_applyConstraint_int : forall (b : ibox) (v : list Z),
  (forall i, Z.of_nat i < dimI b -> minI b i <= maxI b i) -> Z.of_nat (length v) = dimI b ->
  exists v', applyConstraintI b v = Ok v' /\ in_ibox b v' /\
    forall i x y, nth_error v i = Some x -> nth_error v' i = Some y ->
      (minI b i <= x <= maxI b i -> y = x) /\ (x < minI b i -> y = minI b i) /\ (maxI b i < x -> y = maxI b i).
Proof.
  intros b v Hp HL. unfold applyConstraintI. rewrite HL, Z.eqb_refl. exists (constrainI b v 0).
  split; [reflexivity|].
  assert (N : forall i x y, nth_error v i = Some x -> nth_error (constrainI b v 0) i = Some y ->
     y = clampI (minI b i) (maxI b i) x /\ minI b i <= maxI b i).
  { intros i x y Hx Hy. rewrite (constrainI_nth b v 0 i x Hx) in Hy. cbn [Nat.add] in Hy.
    split; [congruence|]. apply Hp. assert (i < length v)%nat by (apply nth_error_Some; congruence). lia. }
  split; [split|].
  - rewrite constrainI_length. exact HL.
  - intros i y Hy. assert (Hi : (i < length v)%nat) by (rewrite <- (constrainI_length b v 0); apply nth_error_Some; congruence).
    destruct (nth_error v i) as [x|] eqn:Ex; [|apply nth_error_None in Ex; lia].
    destruct (N i x y Ex Hy) as (-> & H). unfold clampI. lia.
  - intros i x y Hx Hy. destruct (N i x y Hx Hy) as (-> & H). unfold clampI. lia.
Qed.
Print Assumptions C38_applyConstraint_int.
Definition unit_box : dbox := square_dbox 2 d0 d1 (fofZ 1 (-2)).
Example C38_example : proper unit_box /\
  (exists v', applyConstraintD unit_box [d_of_Z 7; fofZ 1 (-1)] = Ok v' /\
     forallb (fun p => feq (fst p) (snd p)) (combine v' [d1; fofZ 1 (-1)]) = true).
Proof.
  split; [split; [cbn; lia|intros i _; vm_compute; reflexivity]|]. eexists. split; [reflexivity|vm_compute; reflexivity].
Qed.

(** * C39 *)
Theorem C39_initialize_continuous : forall (R : rng_ops) (b : dbox) (g : G R),
  rng_ok R -> 0 <= dimD b ->
  (forall i, Z.of_nat i < dimD b -> fin (minD b i) /\ fin (maxD b i) /\ fle (minD b i) (maxD b i) = true /\
                                    fin (fsub (maxD b i) (minD b i))) ->
  in_box b (fst (initializeD R b g)).
Proof.
  intros R b g HR Hd Hb. unfold initializeD.
  destruct (initD_spec b R (Z.to_nat (dimD b)) 0 g HR) as (L & Q).
  { intros i Hi. apply Hb. lia. }
  split; [rewrite L; lia|]. intros i x E. apply (Q i x E).
Qed.
Print Assumptions C39_initialize_continuous.
Theorem C39_initialize_int : forall (R : rng_ops) (t : ity) (b : ibox) (g : G R),
  rng_ok R -> 0 < ibits t <= 64 -> 0 <= dimI b ->
  (forall i, Z.of_nat i < dimI b -> imin t <= minI b i <= maxI b i /\ maxI b i < imax t /\ maxI b i - minI b i < imax t) ->
  exists v g', initializeI R t b g = Ok (v, g') /\ in_ibox b v.
Proof.
  intros R t b g HR Ht Hd Hb. unfold initializeI.
  destruct (initI_spec R t b (Z.to_nat (dimI b)) 0 g HR Ht) as (v & g' & E & L & Q).
  { intros i Hi. apply Hb. lia. }
  exists v, g'. split; [exact E|]. split; [rewrite L; lia|]. intros i x Ex. apply (Q i x Ex).
Qed.
Print Assumptions C39_initialize_int.
Theorem C39_initialize_bool : forall (R : rng_ops) (dims : Z) (g : G R),
  0 <= dims -> Z.of_nat (length (fst (initializeB R dims g))) = dims.
Proof. intros. unfold initializeB. rewrite initB_length. lia. Qed.
Print Assumptions C39_initialize_bool.

(** The hypotheses on the integer type are needed: with the largest int as
    upper bound, or a range wider than the type, the program is undefined. *)
Theorem C39_int_overflow_refuted : forall (R : rng_ops) (g : G R),
  initializeI R int32 (mkIBox 1 (fun _ => 0) (fun _ => 2147483647)) g = UB /\
  initializeI R int32 (mkIBox 1 (fun _ => -2147483648) (fun _ => 2147483646)) g = UB.
Proof. intros. split; reflexivity. Qed.
Print Assumptions C39_int_overflow_refuted.
(** Not every value of a wide range can be drawn: over uint32_t values from 0 to
    2^32-2 the last 255 never occur, whatever the generator returns. *)
Definition uint32 : ity := mkIty 32 false.
Lemma wide_top (f : float) : fle f0 f = true -> flt f f1 = true ->
  Btrunc (fmul (f_of_Z 4294967295) f) <= 4294967040.
Proof.
  intros H0 H1. destruct (unit_drawf f H0 H1) as (Ff & V0 & V1).
  assert (E : B2SF (f_of_Z 4294967295 : float) = SpecFloat.S754_finite false 8388608 9) by (vm_compute; reflexivity).
  assert (Fb : fin (f_of_Z 4294967295 : float)) by (vm_compute; reflexivity).
  assert (Vb : B2R (f_of_Z 4294967295 : float) = bpow radix2 32).
  { rewrite <- SF2R_B2SF, E. cbn. unfold F2R. cbn. lra. }
  generalize dependent (f_of_Z 4294967295 : float). intros big _ Fb Vb.
  assert (B1 : (B2R big * B2R f <= IZR 4294967040)%R).
  { rewrite Vb. change (bpow radix2 32) with 4294967296%R. change (bpow radix2 (-24)) with (/ 16777216)%R in V1. lra. }
  assert (Fmt : generic_format radix2 (SpecFloat.fexp 24 128) (IZR 4294967040)).
  { change 4294967040 with (16777215 * 256). rewrite mult_IZR. change (IZR 256) with (bpow radix2 8).
    apply gen_IZR_bpow; try exact _; vm_compute; discriminate. }
  pose proof (rnd_gen 24 128 _ _ _ Fmt B1) as B2.
  destruct (fmul_fin _ _ _ _ big f Fb Ff) as (Fm & Vm).
  { rewrite Rabs_pos_eq.
    - eapply Rle_lt_trans; [exact B2|]. apply Rlt_le_trans with (bpow radix2 32); [cbn; lra|apply bpow_le; lia].
    - apply rnd_gen'; try exact _; [apply generic_format_0|]. rewrite Vb. change (bpow radix2 32) with 4294967296%R. lra. }
  assert (E0 : Btrunc (fmul big f) = Ztrunc (B2R (fmul big f))).
  { apply eq_IZR. rewrite (Btrunc_correct 24 128 _). apply round_FIX_IZR. }
  rewrite E0, Vm. rewrite <- (Ztrunc_IZR 4294967040). apply Ztrunc_le. exact B2.
Qed.
Theorem C39_wide_range_top_unreachable_refuted : forall (R : rng_ops) (g : G R), rng_ok R ->
  exists x g', initializeI R uint32 (mkIBox 1 (fun _ => 0) (fun _ => 4294967294)) g = Ok ([x], g') /\ x <= 4294967040.
Proof.
  intros R g HR.
  destruct (C39_initialize_int R uint32 (mkIBox 1 (fun _ => 0) (fun _ => 4294967294)) g HR) as (v & g' & E & L & Q);
    [cbn; lia|cbn; lia|intros i _; cbn; lia|].
  destruct v as [|x [|y v]]; cbn in L; try lia. exists x, g'. split; [exact E|].
  unfold initializeI in E. change (Z.to_nat (dimI (mkIBox 1 (fun _ => 0) (fun _ => 4294967294)))) with 1%nat in E.
  cbn [initI minI maxI] in E. change (arith (promoted uint32) (1 + 4294967294)) with (Ok 4294967295) in E. cbn [bind] in E.
  change (conv uint32 4294967295) with 4294967295 in E. unfold randIdxT in E.
  change (arith (promoted uint32) (4294967295 - 0)) with (Ok 4294967295) in E. cbn [bind] in E.
  destruct HR as (_ & HF & _). specialize (HF g). destruct (randf01 R g) as [f g1]. cbn [fst] in HF.
  pose proof (wide_top f (proj1 HF) (proj2 HF)) as W.
  destruct (in_ity uint32 (Btrunc (fmul (f_of_Z 4294967295) f))) eqn:I; [|discriminate].
  rewrite Z.add_0_r in E. rewrite arith_in in E by (try exact I; cbn; lia). cbn [bind] in E.
  rewrite conv_id in E by (try exact I; cbn; lia). cbn [bind] in E.
  assert (x = Btrunc (fmul (f_of_Z 4294967295) f)) by congruence. lia.
Qed.
Print Assumptions C39_wide_range_top_unreachable_refuted.
(** The box setters: setRange and setDelta accept exactly min < max and
    delta > 0, and the box then has these bounds in every dimension. *)
Theorem C39_set_range : forall (n : Z) (lo hi delta : double),
  (flt lo hi = true /\ flt d0 delta = true ->
     exists b, set_square n lo hi delta = Some b /\ dimD b = n /\
       (forall i, minD b i = lo /\ maxD b i = hi /\ deltaD b i = delta) /\ (0 <= n -> proper b)) /\
  (~ (flt lo hi = true /\ flt d0 delta = true) -> set_square n lo hi delta = None).
Proof.
  intros n lo hi delta. unfold set_square. split.
  - intros (A & B). rewrite A, B. cbn [andb]. exists (square_dbox n lo hi delta). split; [reflexivity|]. split; [reflexivity|].
    split; [intros i; repeat split|]. intros Hn. split; [exact Hn|]. intros i _. cbn [square_dbox minD maxD].
    apply flt_true in A. destruct A as (N1 & N2 & L). apply fle_iff; auto. lra.
  - intros H. destruct (flt lo hi), (flt d0 delta); cbn [andb]; try reflexivity. exfalso. auto.
Qed.
Print Assumptions C39_set_range.
(** The default initialiser without a box: [n] coordinates between the bounds. *)
Theorem C39_default_initialiser : forall (R : rng_ops) (n : nat) (lo hi : double) (g : G R),
  rng_ok R -> fin lo -> fin hi -> fle lo hi = true -> fin (fsub hi lo) ->
  length (fst (iFunNd R n lo hi g)) = n /\
  forall x, In x (fst (iFunNd R n lo hi g)) -> fle lo x = true /\ fle x hi = true.
Proof.
  intros R n lo hi g HR Fl Fh L Fs. revert g. induction n as [|n IH]; intros g; cbn [iFunNd]; [split; [reflexivity|intros x []]|].
  pose proof (randD_range_ok R lo hi g HR Fl Fh L Fs) as (_ & A & B). destruct (randD_range R lo hi g) as [x g1]. cbn [fst] in A, B.
  specialize (IH g1). destruct (iFunNd R n lo hi g1) as [t g2]. cbn [fst] in *. destruct IH as (I1 & I2).
  split; [cbn; lia|]. intros y [<-|Hy]; auto.
Qed.
Print Assumptions C39_default_initialiser.
Example C39_example : (forall i : nat, fin (minD unit_box i) /\ fin (maxD unit_box i) /\
   fle (minD unit_box i) (maxD unit_box i) = true /\ fin (fsub (maxD unit_box i) (minD unit_box i))) /\
  (exists g', initializeI replay int32 (mkIBox 3 (fun _ => -2) (fun _ => 5)) [255; 0; 128] = Ok ([5; -2; 2], g')).
Proof. split; [intros i; repeat split; vm_compute; reflexivity|]. eexists. vm_compute. reflexivity. Qed.

(** * C40 *)
(** Continuous boxes: one coordinate moves by at most delta, then is brought
    back into the box. *)
Theorem C40_applyDelta_continuous : forall (R : rng_ops) (b : dbox) (v : list double) (g : G R),
  rng_ok R -> proper b -> 1 <= dimD b <= two64 -> in_box b v ->
  (forall i, Z.of_nat i < dimD b -> fin (deltaD b i) /\ fle d0 (deltaD b i) = true) ->
  exists v' g', applyDeltaD R b v g = Ok (v', g') /\ in_box b v' /\
    exists i x y s, only_at i v v' /\ nth_error v i = Some x /\ nth_error v' i = Some y /\
      fle (fopp (deltaD b i)) s = true /\ fle s (deltaD b i) = true /\
      nearest (minD b i) (maxD b i) (fadd x s) y.
Proof.
  intros R b v g HR (Hd & Hp) Hdim (HL & Hin) Hdel. unfold applyDeltaD. rewrite HL, Z.eqb_refl. cbn [negb].
  pose proof (randIdx_range R (dimD b) g HR Hdim) as HI.
  destruct (randIdx R (dimD b) g) as [idx g1]. cbn [fst] in HI.
  pose proof (unit_sym_draw R g1 HR) as HU.
  destruct (randD_range R (d_of_Z (-1)) d1 g1) as [r g2]. cbn [fst] in HU. destruct HU as (Fr & Hr).
  set (i := Z.to_nat idx). destruct (Hdel i ltac:(unfold i; lia)) as (Fdel & Pdel).
  destruct (scaled_step r (deltaD b i) Fr Hr Fdel Pdel) as (Fs & S1 & S2).
  destruct (moveD_spec b v idx (fmul r (deltaD b i)) ltac:(lia)) as (x & Ex & ->). cbn [bind].
  fold i in Ex |- *. eexists _, _. split; [reflexivity|].
  destruct (Hin i x Ex) as (X1 & X2).
  assert (Nx : nonnan x) by (apply fle_true in X2; tauto).
  pose proof (clampD_proj (minD b i) (maxD b i) (fadd x (fmul r (deltaD b i))) (Hp i ltac:(unfold i; lia)) (fadd_fin_nonnan _ _ Nx Fs)) as PJ.
  split.
  - split; [rewrite set_at_length; exact HL|]. intros j y Ey.
    destruct (Nat.eq_dec j i) as [->|Hj].
    + rewrite set_at_same in Ey by (unfold i; lia). inversion Ey; subst y. split; apply PJ.
    + rewrite set_at_other in Ey by exact Hj. apply Hin, Ey.
  - exists i, x. eexists _, (fmul r (deltaD b i)).
    split; [split; [apply set_at_length|intros; apply set_at_other; assumption]|].
    split; [exact Ex|]. split; [apply set_at_same; unfold i; lia|]. split; [exact S1|]. split; [exact S2|exact PJ].
Qed.
Print Assumptions C40_applyDelta_continuous.

(** Discrete boxes over doubles -- and the compile-time continuous boxes, whose
    delta is ignored: the step is +1 or -1 whatever delta is. *)
Theorem C40_applyDelta_discrete_double : forall (R : rng_ops) (b : dbox) (v : list double) (g : G R),
  rng_ok R -> proper b -> 1 <= dimD b <= two64 -> in_box b v ->
  exists v' g', applyStepD R b v g = Ok (v', g') /\ in_box b v' /\
    exists i x y s, only_at i v v' /\ nth_error v i = Some x /\ nth_error v' i = Some y /\
      (s = d1 \/ s = d_of_Z (-1)) /\ nearest (minD b i) (maxD b i) (fadd x s) y.
Proof.
  intros R b v g HR (Hd & Hp) Hdim (HL & Hin). unfold applyStepD. rewrite HL, Z.eqb_refl. cbn [negb].
  pose proof (randIdx2_range R 0 (dimD b) g HR ltac:(unfold two64 in *; lia)) as HI.
  destruct (randIdx2 R 0 (dimD b) g) as [idx g1]. cbn [fst] in HI.
  destruct (randIdx R 2 g1) as [k g2]. set (s := if k =? 0 then d1 else d_of_Z (-1)).
  assert (Hs : s = d1 \/ s = d_of_Z (-1)) by (unfold s; destruct (k =? 0); auto).
  assert (Fs : fin s) by (destruct Hs as [-> | ->]; [apply d1_fin|apply m1_val]).
  set (i := Z.to_nat idx).
  destruct (moveD_spec b v idx s ltac:(lia)) as (x & Ex & ->). cbn [bind].
  fold i in Ex |- *. eexists _, _. split; [reflexivity|].
  destruct (Hin i x Ex) as (X1 & X2).
  assert (Nx : nonnan x) by (apply fle_true in X2; tauto).
  pose proof (clampD_proj (minD b i) (maxD b i) (fadd x s) (Hp i ltac:(unfold i; lia)) (fadd_fin_nonnan _ _ Nx Fs)) as PJ.
  split.
  - split; [rewrite set_at_length; exact HL|]. intros j y Ey.
    destruct (Nat.eq_dec j i) as [->|Hj].
    + rewrite set_at_same in Ey by (unfold i; lia). inversion Ey; subst y. split; apply PJ.
    + rewrite set_at_other in Ey by exact Hj. apply Hin, Ey.
  - exists i, x. eexists _, s.
    split; [split; [apply set_at_length|intros; apply set_at_other; assumption]|].
    split; [exact Ex|]. split; [apply set_at_same; unfold i; lia|]. split; [exact Hs|exact PJ].
Qed.
Print Assumptions C40_applyDelta_discrete_double.
(** ... so in the unit box with delta 1/4 a step jumps from 1/2 to a bound. *)
Theorem C40_fixed_continuous_ignores_delta_refuted :
  exists v' g', applyStepD replay unit_box [fofZ 1 (-1); fofZ 1 (-1)] [0; 0] = Ok (v', g') /\
    forallb (fun p => feq (fst p) (snd p)) (combine v' [d1; fofZ 1 (-1)]) = true /\
    flt (deltaD unit_box 0) (fsub d1 (fofZ 1 (-1))) = true.
Proof. eexists _, _. split; [reflexivity|]. split; vm_compute; reflexivity. Qed.
Print Assumptions C40_fixed_continuous_ignores_delta_refuted.

(** Integer boxes strictly inside the range of the type: one coordinate moves by
    one, or stays at the bound. *)
Theorem C40_applyDelta_int : forall (R : rng_ops) (t : ity) (b : ibox) (v : list Z) (g : G R),
  rng_ok R -> 0 < ibits t -> 1 <= dimI b <= two64 -> in_ibox b v ->
  (forall i, Z.of_nat i < dimI b -> imin t < minI b i /\ maxI b i < imax t) ->
  exists v' g', applyDeltaI R t b v g = Ok (v', g') /\ in_ibox b v' /\
    exists i x y, only_at i v v' /\ nth_error v i = Some x /\ nth_error v' i = Some y /\
      (y = x + 1 \/ y = x - 1 \/ (y = x /\ (x = minI b i \/ x = maxI b i))).
Proof.
  intros R t b v g HR Ht Hdim (HL & Hin) Hb. unfold applyDeltaI. rewrite HL, Z.eqb_refl. cbn [negb].
  pose proof (randIdx2_range R 0 (dimI b) g HR ltac:(unfold two64 in *; lia)) as HI.
  destruct (randIdx2 R 0 (dimI b) g) as [idx g1]. cbn [fst] in HI.
  destruct (randIdx R 2 g1) as [k g2]. set (s := if k =? 0 then 1 else -1).
  assert (Hs : s = 1 \/ s = -1) by (unfold s; destruct (k =? 0); auto).
  destruct (get_at_in v idx ltac:(lia)) as (x & -> & Ex). cbn [bind].
  set (i := Z.to_nat idx) in *. pose proof (Hin i x Ex) as Hx. destruct (Hb i ltac:(unfold i; lia)) as (B1 & B2).
  assert (I : in_ity t (x + s) = true) by (apply in_ity_iff; lia).
  rewrite arith_in by (try apply promoted_bits; try apply promoted_wider; try lia; exact I). cbn [bind].
  rewrite conv_id by (try exact I; lia). eexists _, _. split; [reflexivity|]. split.
  - split; [rewrite set_at_length; exact HL|]. intros j y Ey.
    destruct (Nat.eq_dec j i) as [->|Hj].
    + rewrite set_at_same in Ey by (unfold i; lia). inversion Ey; subst y. unfold clampI. lia.
    + rewrite set_at_other in Ey by exact Hj. apply Hin, Ey.
  - exists i, x. eexists. split; [split; [apply set_at_length|intros; apply set_at_other; assumption]|].
    split; [exact Ex|]. split; [apply set_at_same; unfold i; lia|]. unfold clampI. lia.
Qed.
Print Assumptions C40_applyDelta_int.
(** At the ends of the type it is different: unsigned 0 jumps to the upper bound,
    the largest int overflows, and the largest 16-bit value jumps to the lower bound. *)
Theorem C40_type_limits_refuted :
  (exists g', applyDeltaI replay uint32 (mkIBox 1 (fun _ => 0) (fun _ => 100)) [0] [0; 128] = Ok ([100], g')) /\
  applyDeltaI replay int32 (mkIBox 1 (fun _ => 0) (fun _ => 2147483647)) [2147483647] [0; 0] = UB /\
  (exists g', applyDeltaI replay (mkIty 16 true) (mkIBox 1 (fun _ => 5) (fun _ => 32767)) [32767] [0; 0] = Ok ([5], g')).
Proof.
  split; [eexists; vm_compute; reflexivity|split; [vm_compute; reflexivity|eexists; vm_compute; reflexivity]].
Qed.
Print Assumptions C40_type_limits_refuted.
(** Boolean boxes: exactly one coordinate is flipped. *)
Theorem C40_applyDelta_bool : forall (R : rng_ops) (dims : Z) (v : list bool) (g : G R),
  rng_ok R -> 1 <= dims <= two64 -> Z.of_nat (length v) = dims ->
  exists v' g' i x, applyDeltaB R dims v g = Ok (v', g') /\
    only_at i v v' /\ nth_error v i = Some x /\ nth_error v' i = Some (negb x).
Proof.
  intros R dims v g HR Hd HL. unfold applyDeltaB. rewrite HL, Z.eqb_refl. cbn [negb].
  pose proof (randIdx2_range R 0 dims g HR ltac:(unfold two64 in *; lia)) as HI.
  destruct (randIdx2 R 0 dims g) as [idx g1]. cbn [fst] in HI.
  destruct (get_at_in v idx ltac:(lia)) as (x & -> & Ex). cbn [bind].
  eexists _, _, (Z.to_nat idx), x. split; [reflexivity|].
  split; [split; [apply set_at_length|intros; apply set_at_other; assumption]|].
  split; [exact Ex|]. apply set_at_same. lia.
Qed.
Print Assumptions C40_applyDelta_bool.
Lemma replay_ok : rng_ok replay.
Proof.
  assert (D : forall z, fle d0 (fofZ (z mod 256) (-8)) = true /\ flt (fofZ (z mod 256) (-8) : double) d1 = true).
  { intros z. pose proof (Z.mod_pos_bound z 256 ltac:(lia)) as B.
    destruct (@fofZ_exact 53 1024 _ _ (z mod 256) (-8)) as (F & V); [cbn; lia|cbn; lia|cbn; lia|].
    assert (0 <= IZR (z mod 256) <= 255)%R by (split; apply IZR_le; lia).
    assert (bpow radix2 (-8) = / 256)%R by reflexivity.
    split; [apply fle_iff|apply flt_iff]; try apply fin_nonnan, F; try reflexivity.
    - rewrite (fval_fin _ _ _ F), V, H0. change (fval d0) with 0%R. nra.
    - rewrite (fval_fin _ _ _ F), V, H0, (fval_fin _ _ _ d1_fin), d1_val. nra. }
  assert (E : forall z, fle f0 (fofZ (z mod 256) (-8)) = true /\ flt (fofZ (z mod 256) (-8) : float) f1 = true).
  { intros z. pose proof (Z.mod_pos_bound z 256 ltac:(lia)) as B.
    destruct (@fofZ_exact 24 128 _ _ (z mod 256) (-8)) as (F & V); [cbn; lia|cbn; lia|cbn; lia|].
    destruct (@fofZ_exact 24 128 _ _ 1 0) as (F1 & V1); [cbn; lia|cbn; lia|cbn; lia|].
    assert (0 <= IZR (z mod 256) <= 255)%R by (split; apply IZR_le; lia).
    assert (bpow radix2 (-8) = / 256)%R by reflexivity.
    split; [apply fle_iff|apply flt_iff]; try apply fin_nonnan, F; try reflexivity.
    - rewrite (fval_fin _ _ _ F), V, H0. change (fval f0) with 0%R. nra.
    - rewrite (fval_fin _ _ _ F), V, H0. unfold f1, f_of_Z. rewrite (fval_fin _ _ _ F1), V1. cbn [bpow]. nra. }
  split; [|split].
  - intros [|z l]; cbn [replay rand01 fst]; [split; vm_compute; reflexivity|apply D].
  - intros [|z l]; cbn [replay randf01 fst]; [split; vm_compute; reflexivity|apply E].
  - intros A l g. apply Permutation_refl.
Qed.
Example C40_example : rng_ok replay /\ proper unit_box /\ in_box unit_box [d0; d1] /\
  (exists v' g', applyDeltaD replay unit_box [d0; d1] [128; 0] = Ok (v', g') /\
     forallb (fun p => feq (fst p) (snd p)) (combine v' [d0; fofZ 3 (-2)]) = true).
Proof.
  split; [exact replay_ok|]. split; [split; [cbn; lia|intros i _; vm_compute; reflexivity]|]. split.
  - split; [reflexivity|]. intros [|[|i]] x H; cbn in H; try (destruct i; discriminate);
      inversion H; subst; split; vm_compute; reflexivity.
  - eexists _, _. split; [reflexivity|vm_compute; reflexivity].
Qed.

(** * C58 *)
(** Every child coordinate is the convex combination of the parents' up to
    rounding: error at most 2^-50 of the larger parent magnitude. *)
Theorem C58_arithmetic_crossover : forall (r : double) (p1 p2 : list double),
  fin r -> (0 < B2R r < 1)%R -> length p1 = length p2 ->
  exists c1 c2, cFunNd r p1 p2 = Ok (c1, c2) /\ length c1 = length p1 /\ length c2 = length p1 /\
    forall i x y (m lo hi : R), nth_error p1 i = Some x -> nth_error p2 i = Some y -> fin x -> fin y ->
      (Rabs (B2R x) <= m)%R -> (Rabs (B2R y) <= m)%R -> (m <= bpow radix2 1000)%R ->
      (lo <= B2R x <= hi)%R -> (lo <= B2R y <= hi)%R ->
      exists u w, nth_error c1 i = Some u /\ nth_error c2 i = Some w /\ fin u /\ fin w /\
        let e := (bpow radix2 (-50) * m + bpow radix2 (-1073))%R in
        (Rabs (B2R u - (B2R r * B2R x + (1 - B2R r) * B2R y)) <= e)%R /\
        (Rabs (B2R w - (B2R r * B2R y + (1 - B2R r) * B2R x)) <= e)%R /\
        (lo - e <= B2R u <= hi + e)%R /\ (lo - e <= B2R w <= hi + e)%R /\
        (Rabs ((B2R u + B2R w) - (B2R x + B2R y)) <= 2 * e)%R.
Proof.
  intros r p1 p2 Fr Hr HL. unfold cFunNd. rewrite HL, Nat.eqb_refl. eexists _, _. split; [reflexivity|].
  split; [rewrite map_length, combine_length; lia|]. split; [rewrite map_length, combine_length; lia|].
  intros i x y m lo hi Ex Ey Fx Fy Mx My Hm Hx Hy.
  assert (Ec : nth_error (combine p1 p2) i = Some (x, y)).
  { clear -Ex Ey. revert p2 i Ex Ey. induction p1 as [|a p1 IH]; intros [|b p2] [|i] Ex Ey; cbn in *; try discriminate.
    - congruence. - apply IH; assumption. }
  destruct (blend_err r x y m Fr Fx Fy Hr Mx My Hm) as (F1 & E1).
  destruct (blend_err r y x m Fr Fy Fx Hr My Mx Hm) as (F2 & E2).
  exists (blend r x y), (blend r y x).
  split; [rewrite (map_nth_error _ _ _ Ec); reflexivity|]. split; [rewrite (map_nth_error _ _ _ Ec); reflexivity|].
  split; [exact F1|]. split; [exact F2|].
  replace (8 * uu)%R with (bpow radix2 (-50)) in E1, E2.
  2:{ change 8%R with (bpow radix2 3). Transparent uu. unfold uu. rewrite <- bpow_plus. reflexivity. }
  replace (4 * ee)%R with (bpow radix2 (-1073)) in E1, E2.
  2:{ change 4%R with (bpow radix2 2). Transparent ee. unfold ee. rewrite <- bpow_plus. reflexivity. }
  revert E1 E2. generalize (bpow radix2 (-50) * m + bpow radix2 (-1073))%R. intros e E1 E2. cbv zeta.
  split; [exact E1|]. split; [exact E2|]. apply Rabs_le_inv in E1. apply Rabs_le_inv in E2.
  split; [nra|]. split; [nra|]. apply Rabs_le. lra.
Qed.
Print Assumptions C58_arithmetic_crossover.
(** Exactly between the parents it is not: with the default ratio 1/5 both
    children of two parents at 3 are greater than 3, so the default crossover
    can leave the box. *)
Theorem C58_leaves_box_refuted :
  exists c1 c2, cFunNd default_r [d_of_Z 3] [d_of_Z 3] = Ok ([c1], [c2]) /\
    flt (d_of_Z 3) c1 = true /\ flt (d_of_Z 3) c2 = true.
Proof. eexists _, _. split; [reflexivity|]. split; vm_compute; reflexivity. Qed.
Print Assumptions C58_leaves_box_refuted.
Lemma default_r_ok : fin default_r /\ (0 < B2R default_r < 1)%R.
Proof.
  split; [vm_compute; reflexivity|].
  assert (F : fin default_r) by (vm_compute; reflexivity).
  assert (A : flt d0 default_r = true) by (vm_compute; reflexivity).
  assert (B : flt default_r d1 = true) by (vm_compute; reflexivity).
  apply flt_true in A. apply flt_true in B. destruct A as (_&_&A). destruct B as (_&_&B).
  rewrite (fval_fin _ _ _ F) in A, B. rewrite (fval_fin _ _ _ d1_fin), d1_val in B. change (fval d0) with 0%R in A. lra.
Qed.
Example C58_example : (fin default_r /\ (0 < B2R default_r < 1)%R) /\ fin (d_of_Z 3) /\ (Rabs (B2R (d_of_Z 3)) <= 3)%R /\ (3 <= bpow radix2 1000)%R.
Proof.
  split; [exact default_r_ok|]. destruct (d_of_Z_exact 3) as (A & B); [lia|]. split; [exact A|]. rewrite B. split.
  - apply Rabs_le. lra.
  - apply Rle_trans with (bpow radix2 2); [cbn; lra|apply bpow_le; lia].
Qed.

(** * C59 *)
(** Single-point crossover: both children take their first k coordinates from
    one parent and the others from the other parent. *)
Theorem C59_swap_crossover : forall (A : Type) (R : rng_ops) (p1 p2 : list A) (g : G R),
  rng_ok R -> length p1 = length p2 -> 1 <= Z.of_nat (length p1) <= two64 ->
  exists c1 c2 g' k, cFunSwapNs R p1 p2 g = Ok ((c1, c2), g') /\ (k < length p1)%nat /\
    length c1 = length p1 /\ length c2 = length p1 /\
    forall i, nth_error c1 i = nth_error (if (i <? k)%nat then p1 else p2) i /\
              nth_error c2 i = nth_error (if (i <? k)%nat then p2 else p1) i.
Proof.
  intros A R p1 p2 g HR HL HN. unfold cFunSwapNs. rewrite HL, Nat.eqb_refl.
  pose proof (randIdx_range R (Z.of_nat (length p1)) g HR HN) as HI. rewrite HL in HI.
  destruct (randIdx R (Z.of_nat (length p2)) g) as [idx g']. cbn [fst] in HI.
  eexists _, _, _, (Z.to_nat idx). split; [reflexivity|]. split; [lia|].
  split; [rewrite app_length, firstn_length, skipn_length; lia|].
  split; [rewrite app_length, firstn_length, skipn_length; lia|].
  intros i. rewrite !swap_nth by lia. destruct (i <? Z.to_nat idx)%nat; split; reflexivity.
Qed.
Print Assumptions C59_swap_crossover.
(** Uniform crossover: every coordinate of a child comes from the same
    coordinate of one of the parents. *)
Theorem C59_uniform_crossover : forall (A : Type) (R : rng_ops) (r : double) (p1 p2 : list A) (g : G R),
  length p1 = length p2 ->
  exists c1 c2 g', cFunRandNs R r p1 p2 g = Ok ((c1, c2), g') /\ length c1 = length p1 /\ length c2 = length p1 /\
    forall i x y, nth_error p1 i = Some x -> nth_error p2 i = Some y ->
      (nth_error c1 i = Some x \/ nth_error c1 i = Some y) /\ (nth_error c2 i = Some x \/ nth_error c2 i = Some y).
Proof.
  intros A R r p1 p2 g HL. unfold cFunRandNs. rewrite HL, Nat.eqb_refl.
  pose proof (rand_loci_spec R r p1 p2 g HL) as Q.
  destruct (rand_loci R r p1 p2 g) as [[c1 c2] g']. cbn [fst snd] in Q. exists c1, c2, g'.
  destruct Q as (Q1 & Q2 & Q3). split; [reflexivity|]. split; [congruence|]. split; [congruence|exact Q3].
Qed.
Print Assumptions C59_uniform_crossover.
(** ... but the pair of values need not be kept: the two children draw
    separately, and both can take the value of the first parent, so the second
    parent's value is lost. *)
Theorem C59_uniform_loses_alleles_refuted :
  exists g', cFunRandNs replay div_half [1; 2] [10; 20] [0; 255; 255; 0] = Ok (([1; 20], [1; 20]), g').
Proof. eexists. vm_compute. reflexivity. Qed.
Print Assumptions C59_uniform_loses_alleles_refuted.
(** The run-time-size version ignores the probability it is given. *)
Theorem C59_uniform_dynamic_ignores_probability_refuted :
  forall (A : Type) (R : rng_ops) (p q : double) (p1 p2 : list A) (g : G R),
    cFunRandXs R p p1 p2 g = cFunRandXs R q p1 p2 g /\ cFunRandXs R p p1 p2 g = cFunRandNs R div_half p1 p2 g.
Proof. intros. split; reflexivity. Qed.
Print Assumptions C59_uniform_dynamic_ignores_probability_refuted.
Example C59_example : rng_ok replay /\
  exists g', cFunSwapNs replay [1; 2; 3; 4] [10; 20; 30; 40] [128] = Ok (([1; 2; 30; 40], [10; 20; 3; 4]), g').
Proof. split; [exact replay_ok|]. eexists. vm_compute. reflexivity. Qed.

(** * C60 *)
Theorem C60_default_mutation : forall (R : rng_ops) (b : dbox) (v : list double) (g : G R),
  rng_ok R -> proper b -> 1 <= dimD b <= two64 -> in_box b v ->
  (forall i, Z.of_nat i < dimD b -> fin (deltaD b i) /\ fle d0 (deltaD b i) = true) ->
  exists v' g', mFun_box R b v g = Ok (v', g') /\ in_box b v' /\ exists i, only_at i v v'.
Proof.
  intros R b v g HR Hp Hd Hin Hdel.
  destruct (C40_applyDelta_continuous R b v g HR Hp Hd Hin Hdel) as (v' & g' & E & I & i & x & y & s & O & _).
  exists v', g'. split; [exact E|]. split; [exact I|]. exists i. exact O.
Qed.
Print Assumptions C60_default_mutation.

(** * C63 *)
(** Whatever holds for initial variables and is kept by crossover and mutation
    holds for every individual when a run ends. *)
Theorem C63_variable_invariant_soga :
  forall (V : Type) (R : rng_ops) (std : std_ops) (greater : bool) (opt : ga_option) (sp : sel_params)
         (fs : user_funs V double (G R)) (junk : double) (v0 : V) (m : method) sel_fuel rec_on vec_max fuel
         (s : ga V double nat (G R)) (s' : ga V double nat (G R)) (P : V -> Prop),
    rng_ok R -> std_ok std ->
    (forall g, P (fst (iFun fs g))) ->
    (forall a b g, P a -> P b -> P (fst (fst (cFun fs a b g))) /\ P (snd (fst (cFun fs a b g)))) ->
    (forall a g, P a -> P (fst (mFun fs a g))) ->
    run R fs opt junk (soga_hooks R std greater opt sp m sel_fuel) rec_on vec_max fuel
        (mkGA (soga_initializePop R opt fs junk v0 (ga_core s)) (generation s) (record s)) = Ok s' ->
    forall x, In x (pop (ga_core s')) -> P (gvar x).
Proof.
  intros V R std greater opt sp fs junk v0 m sel_fuel rec_on vec_max fuel s s' P HR Hstd HI HC HM E.
  refine (run_P R fs opt junk _ P rec_on vec_max fuel HR (conj HC HM) _ _ s' _ E).
  - intros c c' H. exact (select_from R std greater opt sp m sel_fuel c c' Hstd H).
  - cbn [ga_core]. exact (initialize_P R fs opt junk P v0 (ga_core s) HI).
Qed.
Print Assumptions C63_variable_invariant_soga.
Theorem C63_variable_invariant_nsga2 :
  forall (V : Type) (R : rng_ops) (std : std_ops) (M : nat) (greater : bool) (opt : ga_option)
         (fs : user_funs V (list double) (G R)) (junk : list double) (v0 : V) rec_on vec_max fuel
         (s s' : ga V (list double) (list nat) (G R)) (P : V -> Prop),
    rng_ok R ->
    (forall g, P (fst (iFun fs g))) ->
    (forall a b g, P a -> P b -> P (fst (fst (cFun fs a b g))) /\ P (snd (fst (cFun fs a b g)))) ->
    (forall a g, P a -> P (fst (mFun fs a g))) ->
    run R fs opt junk (nsga2_hooks R std M greater opt) rec_on vec_max fuel
        (mkGA (initializePop R fs opt junk v0 (ga_core s)) (generation s) (record s)) = Ok s' ->
    forall x, In x (pop (ga_core s')) -> P (gvar x).
Proof.
  intros V R std M greater opt fs junk v0 rec_on vec_max fuel s s' P HR HI HC HM E.
  refine (run_P R fs opt junk _ P rec_on vec_max fuel HR (conj HC HM) _ _ s' _ E).
  - intros c c' H x Hx. exists x. split; [exact (nsga2_incl R std M greater opt c c' H x Hx)|reflexivity].
  - cbn [ga_core]. exact (initialize_P R fs opt junk P v0 (ga_core s) HI).
Qed.
Print Assumptions C63_variable_invariant_nsga2.

(** * C64 *)
(** The default operators with a continuous box: box initialisation, swap or
    uniform crossover, box mutation. [ok_or] only totalises: on variables in the
    box the operators are always defined (C59, C60). *)
Definition ok_or {A} (r : res A) (d : A) : A := match r with Ok a => a | _ => d end.
Inductive xover := Swap | Uniform (r : double).
Definition box_funs (R : rng_ops) (b : dbox) (x : xover) (fit : list double -> double) : user_funs (list double) double (G R) :=
  mkFuns (fun g => iFun_box R b g) fit
    (fun p q g => match x with
                  | Swap => ok_or (cFunSwapNs R p q g) ((p, q), g)
                  | Uniform r => ok_or (cFunRandNs R r p q g) ((p, q), g)
                  end)
    (fun v g => ok_or (mFun_box R b v g) (v, g)).
Lemma mix_in_box b (p q c : list double) : in_box b p -> in_box b q -> length c = length p ->
  (forall i x y, nth_error p i = Some x -> nth_error q i = Some y -> nth_error c i = Some x \/ nth_error c i = Some y) ->
  in_box b c.
Proof.
  intros (Lp & Hp) (Lq & Hq) L H. split; [rewrite L; exact Lp|]. intros i z Ez.
  assert (Hi : (i < length c)%nat) by (apply nth_error_Some; congruence).
  destruct (nth_error p i) as [x|] eqn:Ex; [|apply nth_error_None in Ex; lia].
  destruct (nth_error q i) as [y|] eqn:Ey; [|apply nth_error_None in Ey; lia].
  destruct (H i x y Ex Ey) as [E|E]; assert (z = _) as -> by (rewrite Ez in E; injection E; intros Q; exact Q);
    [apply (Hp i x Ex)|apply (Hq i y Ey)].
Qed.
Theorem C64_run_stays_in_box :
  forall (R : rng_ops) (std : std_ops) (greater : bool) (opt : ga_option) (sp : sel_params)
         (b : dbox) (x : xover) (fit : list double -> double) (junk : double) (v0 : list double)
         (m : method) sel_fuel rec_on vec_max fuel (s s' : ga (list double) double nat (G R)),
    rng_ok R -> std_ok std -> 1 <= dimD b <= two64 ->
    (forall i, Z.of_nat i < dimD b -> fin (minD b i) /\ fin (maxD b i) /\ fle (minD b i) (maxD b i) = true /\
       fin (fsub (maxD b i) (minD b i)) /\ fin (deltaD b i) /\ fle d0 (deltaD b i) = true) ->
    run R (box_funs R b x fit) opt junk (soga_hooks R std greater opt sp m sel_fuel) rec_on vec_max fuel
        (mkGA (soga_initializePop R opt (box_funs R b x fit) junk v0 (ga_core s)) (generation s) (record s)) = Ok s' ->
    forall i, In i (pop (ga_core s')) -> in_box b (gvar i).
Proof.
  intros R std greater opt sp b x fit junk v0 m sel_fuel rec_on vec_max fuel s s' HR Hstd Hd Hb E.
  assert (Hp : proper b) by (split; [lia|]; intros i Hi; apply Hb, Hi).
  refine (C63_variable_invariant_soga _ R std greater opt sp (box_funs R b x fit) junk v0 m sel_fuel rec_on vec_max fuel s s'
            (in_box b) HR Hstd _ _ _ E).
  - intros g. cbn [iFun box_funs]. apply C39_initialize_continuous; [exact HR|lia|]. intros i Hi.
    destruct (Hb i Hi) as (A1 & A2 & A3 & A4 & _). auto.
  - intros p q g Hp' Hq'. assert (L : length p = length q) by (destruct Hp' as (A & _), Hq' as (B & _); lia).
    cbn [cFun box_funs]. destruct x as [|r].
    + destruct (C59_swap_crossover double R p q g HR L) as (c1 & c2 & g' & k & -> & _ & L1 & L2 & Q).
      { destruct Hp' as (A & _). lia. }
      cbn [ok_or fst snd]. split; apply (mix_in_box b p q); try assumption; intros i u w Hu Hw; destruct (Q i) as (Q1 & Q2).
      * destruct (i <? k)%nat; rewrite Q1; auto.
      * destruct (i <? k)%nat; rewrite Q2; auto.
    + destruct (C59_uniform_crossover double R r p q g L) as (c1 & c2 & g' & -> & L1 & L2 & Q).
      cbn [ok_or fst snd]. split; apply (mix_in_box b p q); try assumption; intros i u w Hu Hw; apply (Q i u w Hu Hw).
  - intros v g Hv. cbn [mFun box_funs].
    destruct (C60_default_mutation R b v g HR Hp Hd Hv) as (v' & g' & -> & I & _).
    { intros i Hi. destruct (Hb i Hi) as (_ & _ & _ & _ & A & B). auto. }
    exact I.
Qed.
Print Assumptions C64_run_stays_in_box.

(** A concrete run: five individuals in the unit square, three generations. *)
Definition run_opt : ga_option := mkOpt 5 10 3 (fofZ 1 (-1)) (fofZ 1 (-2)).
Definition run_params : sel_params := mkParams 3 d0 d1 d1 d1 1 (fun _ y => y) (fun x => x).
Definition start : ga (list double) double nat (G replay) := mkGA (mkCore [] 0 0 0%nat [200; 10; 50; 99; 3; 160; 77; 240]) 0 [].
Example C63_C64_example :
  (match run replay (box_funs replay unit_box Swap (fun v => hd d0 v)) run_opt d0 (soga_hooks replay std_inst true run_opt run_params Truncation 0)
      true 1000 10 (mkGA (soga_initializePop replay run_opt (box_funs replay unit_box Swap (fun v => hd d0 v)) d0 [] (ga_core start)) 0 []) with
   | Ok s' => Z.of_nat (length (pop (ga_core s'))) =? 5
   | _ => false end) = true /\
  (forall i : nat, fin (minD unit_box i) /\ fin (maxD unit_box i) /\ fle (minD unit_box i) (maxD unit_box i) = true /\
       fin (fsub (maxD unit_box i) (minD unit_box i)) /\ fin (deltaD unit_box i) /\ fle d0 (deltaD unit_box i) = true).
Proof. split; [vm_compute; reflexivity|]. intros i; repeat split; vm_compute; reflexivity. Qed.
