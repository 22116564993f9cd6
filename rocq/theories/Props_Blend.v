(** C93: when the default arithmetic crossover keeps a box.  (C58 bounds the error
    of one child; here is the exact answer for a box.) *)
From Coq Require Import List Arith ZArith Reals Bool Lia Lra.
From Flocq Require Import Core BinarySingleNaN.
From Flocq Require Import Mult_error.
From Verif Require Import Props_Box.
From Verif Require Import Base Fl FlFacts Rng Box GlobalM Defaults WheelProofs2 SOGAObjProofs BlendProofs.
Import ListNotations.
Open Scope Z_scope.

(** The crossover with ratio [r] keeps the box: two parents inside give two
    children inside. *)
Definition keeps_box (r : double) (b : dbox) : Prop :=
  forall p q, in_box b p -> in_box b q -> exists c1 c2, cFunNd r p q = Ok (c1, c2) /\ in_box b c1 /\ in_box b c2.
(** The two extreme corners of a box. *)
Definition lowest (b : dbox) : list double := map (minD b) (seq 0 (Z.to_nat (dimD b))).
Definition highest (b : dbox) : list double := map (maxD b) (seq 0 (Z.to_nat (dimD b))).
(** Crossing a point with itself stays in the box. *)
Definition selfed_inside (r : double) (b : dbox) (p : list double) : Prop :=
  exists c1 c2, cFunNd r p p = Ok (c1, c2) /\ in_box b c1 /\ in_box b c2.

Lemma nth_corner (f : nat -> double) n i : nth_error (map f (seq 0 n)) i = if (i <? n)%nat then Some (f i) else None.
Proof.
  destruct (Nat.ltb_spec i n).
  - apply map_nth_error. rewrite (nth_error_nth' _ 0%nat) by (rewrite seq_length; lia). rewrite seq_nth by lia. reflexivity.
  - apply nth_error_None. rewrite map_length, seq_length. lia.
Qed.
Lemma corner_in b : proper b -> (forall i, Z.of_nat i < dimD b -> fin (minD b i) /\ fin (maxD b i)) -> in_box b (lowest b) /\ in_box b (highest b).
Proof.
  intros (D & P) F.
  assert (Le : forall x : double, fin x -> fle x x = true) by (intros x Fx; apply fle_iff; try (apply fin_nonnan; exact Fx); apply Rle_refl).
  split; (split; [unfold lowest, highest; rewrite map_length, seq_length; lia|]); intros i x E; unfold lowest, highest in E; rewrite nth_corner in E;
    destruct (Nat.ltb_spec i (Z.to_nat (dimD b))) as [L|]; try discriminate E; injection E as <-; destruct (F i ltac:(lia)) as (F1 & F2);
    pose proof (P i ltac:(lia)) as Q; split; try assumption; apply Le; assumption.
Qed.
Lemma nth_blend r (p q : list double) i z : nth_error (map (fun xy => blend r (fst xy) (snd xy)) (combine p q)) i = Some z ->
  exists x y, nth_error p i = Some x /\ nth_error q i = Some y /\ z = blend r x y.
Proof.
  revert q i. induction p as [|x p IH]; intros [|y q] [|i] E; cbn in E; try discriminate E.
  - exists x, y. repeat split. congruence.
  - exact (IH _ _ E).
Qed.
Lemma nth_blend' r (p q : list double) i z : nth_error (map (fun xy => blend r (snd xy) (fst xy)) (combine p q)) i = Some z ->
  exists x y, nth_error p i = Some x /\ nth_error q i = Some y /\ z = blend r y x.
Proof.
  revert q i. induction p as [|x p IH]; intros [|y q] [|i] E; cbn in E; try discriminate E.
  - exists x, y. repeat split. congruence.
  - exact (IH _ _ E).
Qed.

(** A box with finite bounds is kept exactly if its two extreme corners, each
    crossed with itself, stay inside. *)
Theorem C93_box_kept_iff_corners : forall (r : double) (b : dbox),
  fin r -> (0 <= B2R r <= 1)%R -> proper b -> (forall i, Z.of_nat i < dimD b -> fin (minD b i) /\ fin (maxD b i)) ->
  (keeps_box r b <-> selfed_inside r b (lowest b) /\ selfed_inside r b (highest b)).
Proof.
  intros r b Fr Hr P F. destruct (corner_in b P F) as (C1 & C2). split.
  { intros K. split; [apply (K _ _ C1 C1)|apply (K _ _ C2 C2)]. }
  intros ((a1 & a2 & Ea & Ia & _) & (h1 & h2 & Eh & Ih & _)).
  assert (Ends : forall i, Z.of_nat i < dimD b -> fle (minD b i) (blend r (minD b i) (minD b i)) = true /\ fle (blend r (maxD b i) (maxD b i)) (maxD b i) = true).
  { intros i Hi. unfold cFunNd in Ea, Eh. rewrite Nat.eqb_refl in Ea, Eh. injection Ea as Ea _. injection Eh as Eh _.
    assert (Self : forall f : nat -> double, nth_error (map (fun xy => blend r (fst xy) (snd xy)) (combine (map f (seq 0 (Z.to_nat (dimD b)))) (map f (seq 0 (Z.to_nat (dimD b)))))) i
      = Some (blend r (f i) (f i))).
    { intros f. refine (map_nth_error (fun xy : double * double => blend r (fst xy) (snd xy)) i _ (d := (f i, f i)) _).
      pose proof (nth_corner f (Z.to_nat (dimD b)) i) as N. destruct (Nat.ltb_spec i (Z.to_nat (dimD b))) as [_|]; [|lia].
      clear -N. revert N. generalize (map f (seq 0 (Z.to_nat (dimD b)))). intros l. revert i. 
      assert (G : forall l i (z : double), nth_error l i = Some z -> nth_error (combine l l) i = Some (z, z)).
      { clear. induction l as [|x l IH]; intros [|i] z E; cbn in *; try discriminate E; [congruence|apply IH; exact E]. }
      intros i N. apply G. exact N. }
    split.
    - apply (proj2 Ia i). rewrite <- Ea. apply Self.
    - apply (proj2 Ih i). rewrite <- Eh. apply Self. }
  intros p q (Lp & Hp) (Lq & Hq). unfold cFunNd. replace (length p =? length q)%nat with true by (symmetry; apply Nat.eqb_eq; lia).
  eexists _, _. split; [reflexivity|].
  assert (In1 : forall i x y, nth_error p i = Some x -> nth_error q i = Some y ->
    (fle (minD b i) (blend r x y) = true /\ fle (blend r x y) (maxD b i) = true) /\ (fle (minD b i) (blend r y x) = true /\ fle (blend r y x) (maxD b i) = true)).
  { intros i x y Ex Ey. assert (Hi : Z.of_nat i < dimD b) by (rewrite <- Lp; apply inj_lt; apply nth_error_Some; congruence).
    destruct (F i Hi) as (F1 & F2). destruct (Ends i Hi) as (E1 & E2). destruct (Hp i x Ex), (Hq i y Ey).
    split; apply (blend_between r Fr Hr); assumption. }
  split; (split; [rewrite map_length, combine_length; lia|]); intros i z Ez.
  - apply nth_blend in Ez. destruct Ez as (x & y & Ex & Ey & ->). apply (In1 i x y Ex Ey).
  - apply nth_blend' in Ez. destruct Ez as (x & y & Ex & Ey & ->). apply (In1 i x y Ex Ey).
Qed.
Print Assumptions C93_box_kept_iff_corners.

(** With the ratio 1/2 that is every box whose bounds are zero or of magnitude at
    least 2^-1021. *)
Lemma half_facts : fin div_half /\ B2R div_half = (1 / 2)%R /\ B2R (fsub d1 div_half) = (1 / 2)%R.
Proof.
  split; [vm_compute; reflexivity|].
  assert (E1 : B2SF div_half = SpecFloat.S754_finite false 4503599627370496 (-53)) by (vm_compute; reflexivity).
  assert (E2 : B2SF (fsub d1 div_half) = SpecFloat.S754_finite false 4503599627370496 (-53)) by (vm_compute; reflexivity).
  assert (V : F2R (Float radix2 4503599627370496 (-53)) = (1 / 2)%R).
  { change (F2R (Float radix2 4503599627370496 (-53))) with (IZR (2 ^ 52) * bpow radix2 (-53))%R.
    change (IZR (2 ^ 52)) with (bpow radix2 52). rewrite <- bpow_plus. change (52 + -53)%Z with (-1)%Z. cbn. lra. }
  split; rewrite <- SF2R_B2SF, ?E1, ?E2; exact V.
Qed.

Lemma half_exact (x : double) : fin x -> (B2R x = 0 \/ bpow radix2 (-1021) <= Rabs (B2R x))%R -> drnd (/ 2 * B2R x) = (/ 2 * B2R x)%R.
Proof.
  intros Fx [-> |H]; [rewrite Rmult_0_r; apply round_0; typeclasses eauto|].
  apply round_generic; [typeclasses eauto|]. rewrite Rmult_comm. change (/ 2)%R with (bpow radix2 (-1)).
  apply mult_bpow_exact_FLT; [apply generic_format_B2R|]. pose proof (mag_ge_bpow radix2 (B2R x) (-1020) H). change (SpecFloat.emin 53 1024) with (-1074). lia.
Qed.
Lemma half_self (x : double) : fin x -> (B2R x = 0 \/ bpow radix2 (-1021) <= Rabs (B2R x))%R ->
  fle x (blend div_half x x) = true /\ fle (blend div_half x x) x = true.
Proof.
  intros Fx Hx. destruct half_facts as (Fr & V1 & V2).
  destruct (blend_fval div_half Fr ltac:(rewrite V1; lra) x x Fx Fx) as (N & V). unfold blendR in V. rewrite V1, V2 in V.
  replace (1 / 2)%R with (/ 2)%R in V by lra. rewrite (half_exact x Fx Hx) in V. replace (/ 2 * B2R x + / 2 * B2R x)%R with (B2R x) in V by lra.
  rewrite drnd_id, clip_in in V by apply dval_lt_emax.
  split; (apply fle_iff; [try exact N; apply fin_nonnan; exact Fx|try exact N; apply fin_nonnan; exact Fx|]); rewrite V, (fval_fin _ _ _ Fx); apply Rle_refl.
Qed.
Lemma selfed_by_ends r b f : 0 <= dimD b ->
  (forall i, Z.of_nat i < dimD b -> fle (minD b i) (blend r (f i) (f i)) = true /\ fle (blend r (f i) (f i)) (maxD b i) = true) ->
  selfed_inside r b (map f (seq 0 (Z.to_nat (dimD b)))).
Proof.
  intros D H. unfold selfed_inside, cFunNd. rewrite Nat.eqb_refl. eexists _, _. split; [reflexivity|].
  split; (split; [rewrite map_length, combine_length, map_length, seq_length; lia|]); intros i z Ez.
  - apply nth_blend in Ez. destruct Ez as (x & y & Ex & Ey & ->). rewrite nth_corner in Ex, Ey. destruct (Nat.ltb_spec i (Z.to_nat (dimD b))); [|discriminate Ex].
    injection Ex as <-. injection Ey as <-. apply H. lia.
  - apply nth_blend' in Ez. destruct Ez as (x & y & Ex & Ey & ->). rewrite nth_corner in Ex, Ey. destruct (Nat.ltb_spec i (Z.to_nat (dimD b))); [|discriminate Ex].
    injection Ex as <-. injection Ey as <-. apply H. lia.
Qed.
Definition not_tiny (x : double) : Prop := (B2R x = 0 \/ bpow radix2 (-1021) <= Rabs (B2R x))%R.
Theorem C93_half_keeps_every_box : forall b : dbox,
  proper b -> (forall i, Z.of_nat i < dimD b -> fin (minD b i) /\ fin (maxD b i) /\ not_tiny (minD b i) /\ not_tiny (maxD b i)) -> keeps_box div_half b.
Proof.
  intros b P F. destruct half_facts as (Fr & V1 & _). apply C93_box_kept_iff_corners; try assumption; [rewrite V1; lra|intros i Hi; split; apply (F i Hi)|].
  pose proof (proj1 P) as D. 
  assert (T : forall x y z : double, fle x y = true -> fle y z = true -> fle x z = true).
  { intros x y z H1 H2. apply fle_true in H1, H2. apply fle_iff; try tauto. destruct H1 as (_ & _ & H1), H2 as (_ & _ & H2). lra. }
  split; apply selfed_by_ends; try exact D; intros i Hi; destruct (F i Hi) as (F1 & F2 & T1 & T2); pose proof (proj2 P i Hi) as L.
  - destruct (half_self _ F1 T1) as (A1 & A2). split; [exact A1|exact (T _ _ _ A2 L)].
  - destruct (half_self _ F2 T2) as (A1 & A2). split; [exact (T _ _ _ L A1)|exact A2].
Qed.
Print Assumptions C93_half_keeps_every_box.
(** Below that it is not so: crossing the smallest positive number with itself
    gives zero. *)
Theorem C93_half_tiny_refuted : ~ keeps_box div_half (square_dbox 1 (fofZ 1 (-1074)) d1 d1).
Proof.
  intros K. destruct (K [fofZ 1 (-1074)] [fofZ 1 (-1074)]) as (c1 & c2 & E & (_ & I1) & _).
  1, 2: split; [reflexivity|]; intros [|i] x E; cbn in E; [injection E as <-; split; vm_compute; reflexivity|destruct i; discriminate E].
  unfold cFunNd in E. cbn [length Nat.eqb combine map fst snd] in E. injection E as <- _.
  specialize (I1 0%nat _ eq_refl). destruct I1 as (I1 & _). revert I1. vm_compute. discriminate.
Qed.
Print Assumptions C93_half_tiny_refuted.

(** The ratio 1/5 that is used when none is given: the box [-5,5] of the shipped
    Ackley and Rastrigin examples is kept, the unit box is kept, [0,3] (the second
    coordinate of the shipped Binh and Korn example) is not. *)
Lemma square_kept (r : double) n (lo hi d : double) : fin r -> (0 <= B2R r <= 1)%R -> 0 <= n -> fin lo -> fin hi -> fle lo hi = true ->
  fle lo (blend r lo lo) = true -> fle (blend r lo lo) hi = true -> fle lo (blend r hi hi) = true -> fle (blend r hi hi) hi = true ->
  keeps_box r (square_dbox n lo hi d).
Proof.
  intros Fr Hr Hn Fl Fh L A1 A2 A3 A4. apply C93_box_kept_iff_corners; try assumption; [split; [exact Hn|intros i _; exact L]|intros i _; split; assumption|].
  split; apply selfed_by_ends; try exact Hn; intros i _; split; assumption.
Qed.
Theorem C93_default_ratio_keeps : forall (n : Z) (d : double), 0 <= n ->
  keeps_box default_r (square_dbox n (d_of_Z (-5)) (d_of_Z 5) d) /\ keeps_box default_r (square_dbox n d0 d1 d).
Proof.
  intros n d Hn. destruct default_r_ok as (Fr & Hr).
  split; apply square_kept; try assumption; try lra; vm_compute; reflexivity.
Qed.
Print Assumptions C93_default_ratio_keeps.
Theorem C93_default_ratio_leaves_refuted : forall (n : Z) (d : double), 1 <= n -> ~ keeps_box default_r (square_dbox n d0 (d_of_Z 3) d).
Proof.
  intros n d Hn K. destruct default_r_ok as (Fr & Hr).
  assert (P : proper (square_dbox n d0 (d_of_Z 3) d)) by (split; [cbn; lia|intros i _; vm_compute; reflexivity]).
  apply C93_box_kept_iff_corners in K; try assumption; try lra; [|intros i _; split; vm_compute; reflexivity].
  destruct K as (_ & c1 & c2 & E & (_ & I1) & _). unfold cFunNd in E. rewrite Nat.eqb_refl in E. injection E as <- _.
  assert (I2 := I1 0%nat (blend default_r (d_of_Z 3) (d_of_Z 3))). clear I1.
  assert (B : fle (blend default_r (d_of_Z 3) (d_of_Z 3)) (d_of_Z 3) = true).
  { apply I2. unfold highest. cbn [dimD square_dbox maxD]. destruct (Z.to_nat n) eqn:En; [lia|]. reflexivity. }
  revert B. vm_compute. discriminate.
Qed.
Print Assumptions C93_default_ratio_leaves_refuted.
Example ex_C93 : proper (square_dbox 2 (d_of_Z (-5)) (d_of_Z 5) (fofZ 1 (-4))) /\ (fin default_r /\ (0 < B2R default_r < 1)%R) /\
  in_box (square_dbox 2 (d_of_Z (-5)) (d_of_Z 5) (fofZ 1 (-4))) [d_of_Z (-5); d_of_Z 4] /\ not_tiny (d_of_Z 5) /\
  keeps_box div_half (square_dbox 2 (d_of_Z (-5)) (d_of_Z 5) (fofZ 1 (-4))).
Proof.
  assert (P : proper (square_dbox 2 (d_of_Z (-5)) (d_of_Z 5) (fofZ 1 (-4)))) by (split; [cbn; lia|intros i _; vm_compute; reflexivity]).
  assert (T : forall z, z = 5 \/ z = -5 -> fin (d_of_Z z) /\ not_tiny (d_of_Z z)).
  { intros z Hz. destruct (d_of_Z_exact z ltac:(lia)) as (F & V). split; [exact F|]. right. rewrite V. apply Rle_trans with (bpow radix2 0); [apply bpow_le; lia|].
    rewrite <- abs_IZR. change (bpow radix2 0) with (IZR 1). apply IZR_le. destruct Hz; subst; cbn; lia. }
  split; [exact P|]. split; [exact default_r_ok|]. split; [|split; [apply T; left; reflexivity|]].
  - split; [reflexivity|]. intros [|[|i]] x E; cbn [nth_error] in E; [| |destruct i; discriminate E]; injection E as <-; split; vm_compute; reflexivity.
  - apply C93_half_keeps_every_box; [exact P|]. intros i _. cbn [minD maxD square_dbox].
    destruct (T 5 ltac:(auto)), (T (-5) ltac:(auto)). repeat split; assumption.
Qed.
