(** C91: boxes whose coefficients are floats. *)
From Coq Require Import List Arith ZArith Bool Lia Reals Lra.
From Flocq Require Import Core BinarySingleNaN.
From Verif Require Import Props_Box Base Fl FlFacts Rng RandProofs GlobalProofs Box BoxProofs BoxF BoxFProofs.
Import ListNotations.
Open Scope Z_scope.

(** * Specification *)
Definition proper_f (b : fbox) : Prop :=
  0 <= dimF b /\ forall i, Z.of_nat i < dimF b -> fle (minF b i) (maxF b i) = true.
Definition in_fbox (b : fbox) (v : list float) : Prop :=
  Z.of_nat (length v) = dimF b /\
  forall i x, nth_error v i = Some x -> fle (minF b i) x = true /\ fle x (maxF b i) = true.
(** [y] is the point of [lo,hi] nearest to [x]. *)
Definition nearest_f (lo hi x y : float) : Prop :=
  fle lo y = true /\ fle y hi = true /\
  (fle lo x = true -> fle x hi = true -> y = x) /\ (flt x lo = true -> y = lo) /\ (flt hi x = true -> y = hi).

(** Conversions: every float is a double; a double is converted to the nearest
    float (even in a tie). *)
Theorem C91_conversions : forall (x : float) (y : double),
  (fin x -> fin (to_double x) /\ B2R (to_double x) = B2R x) /\
  (fin y -> (Rabs (round radix2 (FLT_exp (-149) 24) ZnearestE (B2R y)) < bpow radix2 128)%R ->
     fin (to_float y) /\ B2R (to_float y) = round radix2 (FLT_exp (-149) 24) ZnearestE (B2R y)).
Proof. intros x y. split; [apply to_double_fin|apply to_float_fin]. Qed.
Print Assumptions C91_conversions.

(** Whatever finite bounds: initialize() ends inside the box.  (A range too wide
    for doubles, as in C80, does not exist.) *)
Theorem C91_initialize : forall (R : rng_ops) (b : fbox) (g : G R),
  rng_ok R -> proper_f b -> (forall i, Z.of_nat i < dimF b -> fin (minF b i) /\ fin (maxF b i)) ->
  in_fbox b (fst (initializeF R b g)).
Proof.
  intros R b g HR (Hd & Hp) Hb. unfold initializeF.
  destruct (initF_spec R b (Z.to_nat (dimF b)) 0 g HR) as (L & Q).
  { intros i Hi. destruct (Hb i ltac:(lia)) as (F1 & F2). split; [exact F1|]. split; [exact F2|]. apply Hp. lia. }
  split; [rewrite L; lia|]. intros i x E. apply (Q i x E).
Qed.
Print Assumptions C91_initialize.

Theorem C91_applyConstraint : forall (b : fbox) (v : list float),
  proper_f b -> Z.of_nat (length v) = dimF b ->
  exists v', applyConstraintF b v = Ok v' /\ length v' = length v /\
    forall i x, nth_error v i = Some x -> exists y, nth_error v' i = Some y /\
      (is_nan x = true -> y = x) /\ (is_nan x = false -> nearest_f (minF b i) (maxF b i) x y).
Proof.
  intros b v (Hd & Hp) HL. unfold applyConstraintF. rewrite HL, Z.eqb_refl. exists (constrainF b v 0).
  split; [reflexivity|]. split; [apply constrainF_length|]. intros i x E.
  exists (clampF (minF b i) (maxF b i) x). split; [exact (constrainF_nth b v 0 i x E)|].
  split; [apply clampF_nan|]. intros N. apply clampF_proj; [|exact N]. apply Hp.
  assert (i < length v)%nat by (apply nth_error_Some; congruence). lia.
Qed.
Print Assumptions C91_applyConstraint.

(** The setters of the square box. *)
Theorem C91_set_range : forall (n : Z) (lo hi delta : float),
  (flt lo hi = true /\ flt f0 delta = true ->
     exists b, set_square_f n lo hi delta = Some b /\ dimF b = n /\
       (forall i, minF b i = lo /\ maxF b i = hi /\ deltaF b i = delta) /\ (0 <= n -> proper_f b)) /\
  (~ (flt lo hi = true /\ flt f0 delta = true) -> set_square_f n lo hi delta = None).
Proof.
  intros n lo hi delta. unfold set_square_f. split.
  - intros (A & B). rewrite A, B. cbn [andb]. exists (square_fbox n lo hi delta). split; [reflexivity|]. split; [reflexivity|].
    split; [intros i; repeat split|]. intros Hn. split; [exact Hn|]. intros i _. cbn [square_fbox minF maxF]. apply flt_le, A.
  - intros H. destruct (flt lo hi), (flt f0 delta); cbn [andb]; try reflexivity. exfalso. auto.
Qed.
Print Assumptions C91_set_range.

Lemma moved (b : fbox) (v : list float) idx s : proper_f b -> in_fbox b v -> 0 <= idx < dimF b -> fin s ->
  exists v' x y, moveF b v idx s = Ok v' /\ in_fbox b v' /\ only_at (Z.to_nat idx) v v' /\
    nth_error v (Z.to_nat idx) = Some x /\ nth_error v' (Z.to_nat idx) = Some y /\
    nearest_f (minF b (Z.to_nat idx)) (maxF b (Z.to_nat idx)) (fadd x s) y.
Proof.
  intros (Hd & Hp) (HL & Hin) Hi Fs. destruct (moveF_spec b v idx s ltac:(lia)) as (x & Ex & E). set (i := Z.to_nat idx) in *.
  destruct (Hin i x Ex) as (X1 & X2). assert (Nx : nonnan x) by (apply fle_true in X2; tauto).
  pose proof (clampF_proj (minF b i) (maxF b i) (fadd x s) (Hp i ltac:(unfold i; lia)) (fadd_fin_nonnanF _ _ Nx Fs)) as PJ.
  eexists _, x, _. split; [exact E|]. split.
  - split; [rewrite set_at_length; exact HL|]. intros j y Ey. destruct (Nat.eq_dec j i) as [->|Hj].
    + rewrite set_at_same in Ey by (unfold i; lia). inversion Ey; subst y. split; apply PJ.
    + rewrite set_at_other in Ey by exact Hj. apply Hin, Ey.
  - split; [split; [apply set_at_length|intros; apply set_at_other; assumption]|].
    split; [exact Ex|]. split; [apply set_at_same; unfold i; lia|exact PJ].
Qed.

(** applyDelta() of a continuous box: one coordinate moves by at most delta and
    is brought back into the box. *)
Theorem C91_applyDelta : forall (R : rng_ops) (b : fbox) (v : list float) (g : G R),
  rng_ok R -> proper_f b -> 1 <= dimF b <= two64 -> in_fbox b v ->
  (forall i, Z.of_nat i < dimF b -> fin (deltaF b i) /\ fle f0 (deltaF b i) = true) ->
  exists v' g', applyDeltaF R b v g = Ok (v', g') /\ in_fbox b v' /\
    exists i x y s, only_at i v v' /\ nth_error v i = Some x /\ nth_error v' i = Some y /\
      fle (fopp (deltaF b i)) s = true /\ fle s (deltaF b i) = true /\
      nearest_f (minF b i) (maxF b i) (fadd x s) y.
Proof.
  intros R b v g HR Pb Hdim Hv Hdel. pose proof Hv as (HL & _). unfold applyDeltaF. rewrite HL, Z.eqb_refl. cbn [negb].
  pose proof (randIdx_range R (dimF b) g HR Hdim) as HI.
  destruct (randIdx R (dimF b) g) as [idx g1]. cbn [fst] in HI.
  pose proof (unit_sym_drawF R g1 HR) as HU. destruct (randD_range R (d_of_Z (-1)) d1 g1) as [r g2]. cbn [fst] in HU. destruct HU as (Fr & Hr).
  destruct (Hdel (Z.to_nat idx) ltac:(lia)) as (Fdel & Pdel).
  destruct (scaled_stepF (to_float r) (deltaF b (Z.to_nat idx)) Fr Hr Fdel Pdel) as (Fs & S1 & S2).
  destruct (moved b v idx (fmul (to_float r) (deltaF b (Z.to_nat idx))) Pb Hv ltac:(lia) Fs) as (v' & x & y & -> & I & O & Ex & Ey & N). cbn [bind].
  exists v', g2. split; [reflexivity|]. split; [exact I|]. exists (Z.to_nat idx), x, y, (fmul (to_float r) (deltaF b (Z.to_nat idx))).
  split; [exact O|]. split; [exact Ex|]. split; [exact Ey|]. split; [exact S1|]. split; [exact S2|exact N].
Qed.
Print Assumptions C91_applyDelta.

(** applyDelta() of discrete boxes over floats and of the compile-time
    continuous boxes: the step is +1 or -1. *)
Theorem C91_applyDelta_discrete : forall (R : rng_ops) (b : fbox) (v : list float) (g : G R),
  rng_ok R -> proper_f b -> 1 <= dimF b <= two64 -> in_fbox b v ->
  exists v' g', applyStepF R b v g = Ok (v', g') /\ in_fbox b v' /\
    exists i x y s, only_at i v v' /\ nth_error v i = Some x /\ nth_error v' i = Some y /\
      (s = f1 \/ s = f_of_Z (-1)) /\ nearest_f (minF b i) (maxF b i) (fadd x s) y.
Proof.
  intros R b v g HR Pb Hdim Hv. pose proof Hv as (HL & _). unfold applyStepF. rewrite HL, Z.eqb_refl. cbn [negb].
  pose proof (randIdx2_range R 0 (dimF b) g HR ltac:(unfold two64 in *; lia)) as HI.
  destruct (randIdx2 R 0 (dimF b) g) as [idx g1]. cbn [fst] in HI.
  destruct (randIdx R 2 g1) as [k g2]. set (s := if k =? 0 then f1 else f_of_Z (-1)).
  assert (Hs : s = f1 \/ s = f_of_Z (-1)) by (unfold s; destruct (k =? 0); auto).
  assert (Fs : fin s) by (destruct Hs as [-> | ->]; [apply f1_val|apply fm1_val]).
  destruct (moved b v idx s Pb Hv ltac:(lia) Fs) as (v' & x & y & -> & I & O & Ex & Ey & N). cbn [bind].
  exists v', g2. split; [reflexivity|]. split; [exact I|]. exists (Z.to_nat idx), x, y, s.
  split; [exact O|]. split; [exact Ex|]. split; [exact Ey|]. split; [exact Hs|exact N].
Qed.
Print Assumptions C91_applyDelta_discrete.

(** Refuted: such a step moves a coordinate that has room.  From 2^24 on the
    floats are 2 apart, and 2^24 + 1 is 2^24 again. *)
Definition big_box : fbox := square_fbox 1 (fofZ 1 0) (fofZ 1 30) (fofZ 1 0).
Theorem C91_discrete_step_lost_refuted : proper_f big_box /\ in_fbox big_box [fofZ 1 24] /\
  exists v' g', applyStepF replay big_box [fofZ 1 24] [0; 0] = Ok (v', g') /\
    forallb (fun p => feq (fst p) (snd p)) (combine v' [fofZ 1 24]) = true /\ length v' = 1%nat /\
    flt (fofZ 1 24) (maxF big_box 0) = true.
Proof.
  split; [split; [cbn; lia|intros i _; vm_compute; reflexivity]|].
  split; [split; [reflexivity|]; intros [|[|i]] x E; cbn in E; try discriminate E; injection E as <-; split; vm_compute; reflexivity|].
  eexists _, _. split; [reflexivity|]. split; [vm_compute; reflexivity|]. split; [reflexivity|vm_compute; reflexivity].
Qed.
Print Assumptions C91_discrete_step_lost_refuted.

(** Refuted: values below max, as randD's documentation says.  With bounds 0 and 1
    the largest draws of randD() (here 1 - 2^-30) become the float 1. *)
Definition high_rng : rng_ops := constant_rng (fofZ 1073741823 (-30)) f0.
Theorem C91_upper_bound_drawn_refuted : rng_ok high_rng /\
  let b := square_fbox 1 (fofZ 0 0) (fofZ 1 0) (fofZ 1 0) in
  forallb (fun x => feq x (maxF b 0)) (fst (initializeF high_rng b tt)) = true /\ length (fst (initializeF high_rng b tt)) = 1%nat.
Proof.
  split.
  - split; [intros g; split; vm_compute; reflexivity|]. split; [intros g; split; vm_compute; reflexivity|].
    intros A l g. cbn. apply Permutation.Permutation_refl.
  - cbv zeta. split; [vm_compute; reflexivity|reflexivity].
Qed.
Print Assumptions C91_upper_bound_drawn_refuted.

(** The infinite box over floats: coefficient i is the i-th normal draw times
    sigma plus mu, in double precision, converted to float. *)
Fixpoint nth_draw {G} (norm : G -> double * G) (g : G) (i : nat) : double :=
  match i with O => fst (norm g) | S j => nth_draw norm (snd (norm g)) j end.
Theorem C91_gaussian_initialize : forall (R : rng_ops) (norm : G R -> double * G R) (n : Z) (mu sigma : float) (g : G R), 0 <= n ->
  let v := fst (g_initializeF R norm n mu sigma g) in
  Z.of_nat (length v) = n /\
  forall i x, nth_error v i = Some x -> x = to_float (fadd (fmul (nth_draw norm g i) (to_double sigma)) (to_double mu)).
Proof.
  intros R norm n mu sigma g Hn v. unfold v, g_initializeF. replace n with (Z.of_nat (Z.to_nat n)) at 2 by lia. generalize (Z.to_nat n). clear Hn v. intros m.
  revert g. induction m as [|m IH]; intros g; cbn [gaussF]; [split; [reflexivity|intros [|i] x E; discriminate E]|].
  destruct (norm g) as [d g1] eqn:En. specialize (IH g1). destruct (gaussF R norm mu sigma m g1) as [t g2]. cbn [fst] in *. destruct IH as (L & Q).
  split; [cbn [length]; lia|]. intros [|i] x E; cbn [nth_error nth_draw] in *; rewrite En; cbn [fst snd].
  - injection E as <-. reflexivity.
  - apply Q, E.
Qed.
Print Assumptions C91_gaussian_initialize.
Theorem C91_gaussian_applyDelta : forall (R : rng_ops) (n : Z) (delta : float) (v : list float) (g : G R),
  rng_ok R -> 1 <= n <= two64 -> Z.of_nat (length v) = n -> fin delta -> fle f0 delta = true ->
  exists v' g', g_applyDeltaF R n delta v g = Ok (v', g') /\
    exists i x y (s : double), only_at i v v' /\ nth_error v i = Some x /\ nth_error v' i = Some y /\
      fin s /\ (Rabs (B2R s) <= B2R delta)%R /\ y = to_float (fadd (to_double x) s).
Proof.
  intros R n delta v g HR Hn HL Fd Pd. unfold g_applyDeltaF. rewrite HL, Z.eqb_refl. cbn [negb].
  pose proof (randIdx_range R n g HR Hn) as HI. destruct (randIdx R n g) as [idx g1]. cbn [fst] in HI.
  pose proof (unit_sym_draw R g1 HR) as HU. destruct (randD_range R (d_of_Z (-1)) d1 g1) as [r g2]. cbn [fst] in HU. destruct HU as (Fr & Hr).
  destruct (get_at_in v idx ltac:(lia)) as (x & E & Ex). rewrite E. cbn [bind].
  destruct (to_double_fin delta Fd) as (Fd2 & Vd). apply fle_Rf in Pd; [|reflexivity|exact Fd]. change (B2R f0) with 0%R in Pd.
  destruct (scaled_step r (to_double delta) Fr Hr Fd2) as (Fs & S1 & S2); [apply fle_Rd; [reflexivity|exact Fd2|]; rewrite Vd; exact Pd|].
  eexists _, _. split; [reflexivity|]. exists (Z.to_nat idx), x. eexists _, (fmul r (to_double delta)).
  split; [split; [apply set_at_length|intros; apply set_at_other; assumption]|]. split; [exact Ex|]. split; [apply set_at_same; lia|].
  split; [exact Fs|]. split; [|reflexivity].
  apply fle_Rd in S1; [|apply fopp_fin; exact Fd2|exact Fs]. apply fle_Rd in S2; [|exact Fs|exact Fd2].
  rewrite fopp_B2R, Vd in S1. rewrite Vd in S2. apply Rabs_le. split; assumption.
Qed.
Print Assumptions C91_gaussian_applyDelta.

(** The widest box of floats meets the hypotheses, and the operations compute. *)
Definition widest : fbox := square_fbox 2 (fofZ (-16777215) 104) (fofZ 16777215 104) (fofZ 1 (-2)).
Example ex_C91 : proper_f widest /\ (forall i, Z.of_nat i < dimF widest -> fin (minF widest i) /\ fin (maxF widest i)) /\
  in_fbox widest [fofZ 1 0; fofZ 3 5] /\ (forall i : nat, fin (deltaF widest i) /\ fle f0 (deltaF widest i) = true) /\
  (match applyDeltaF replay widest [fofZ 1 0; fofZ 3 5] [0; 255] with
   | Ok (v, _) => forallb (fun p => feq (fst p) (snd p)) (combine v [fofZ 639 (-9); fofZ 3 5]) | _ => false end) = true.
Proof.
  split; [split; [cbn; lia|intros i _; vm_compute; reflexivity]|]. split; [intros i _; split; vm_compute; reflexivity|].
  split; [split; [reflexivity|]; intros [|[|[|i]]] x E; cbn in E; try discriminate E; injection E as <-; split; vm_compute; reflexivity|].
  split; [intros i; split; vm_compute; reflexivity|]. vm_compute. reflexivity.
Qed.
