(** Proofs for C65 / C66: the weights of each method, and the whole selection. *)
From Coq Require Import List Arith ZArith Reals Bool Lia Lra Permutation Sorted.
From Flocq Require Import Core BinarySingleNaN.
From Verif Require Import Base Fl FlFacts Rng GlobalProofs StdOps ListFacts GABase GAOpsProofs SOGA SOGAProofs SOGAProofs2 SOGAProofs3 SOGAProofs4 SOGAProofs5 WheelSpec WheelProofs WheelProofs2.
Import ListNotations.
Open Scope Z_scope.

Section P.
Context {V : Type} (R : rng_ops) (std : std_ops) (greater : bool) (opt : ga_option) (sp : sel_params).
Notation core' := (core V double nat (G R)).
Notation gene' := (gene V double).
Notation K' := (K opt).

(** Monotone: the better of two competitors does not get the smaller weight. *)
Definition mono (p : list gene') (es : list (nat * double)) : Prop :=
  forall x y wx wy, In x p -> In y p -> In (gid x, wx) es -> In (gid y, wy) es ->
    isBetter greater (gfit x) (gfit y) = true -> fle wy wx = true.

Lemma isB_B2R (x y : gene') : fin (gfit x) -> fin (gfit y) -> isBetter greater (gfit x) (gfit y) = true ->
  (B2R (signed greater y) < B2R (signed greater x))%R.
Proof.
  intros Fx Fy H. unfold isBetter in H. unfold signed. destruct greater.
  - apply flt_true in H. destruct H as (_ & _ & H). rewrite !fval_fin in H by assumption. exact H.
  - apply flt_true in H. destruct H as (_ & _ & H). rewrite !fval_fin in H by assumption. rewrite !fopp_B2R. lra.
Qed.
Lemma signed_fin (x : gene') : fin (gfit x) -> fin (signed greater x).
Proof. intros F. unfold signed. destruct greater; [exact F|apply fopp_fin, F]. Qed.

Lemma in_shift m (p : list gene') i w : In (i, w) (shift_by m (weights_of greater p)) ->
  exists x, In x p /\ gid x = i /\ w = fsub (signed greater x) m.
Proof.
  unfold shift_by, weights_of. rewrite map_map. intros H. apply in_map_iff in H. destruct H as (x & E & Hx).
  cbn in E. inversion E; subst. eauto.
Qed.
Lemma same_gene (p : list gene') x y : NoDup (map gid p) -> In x p -> In y p -> gid x = gid y -> x = y.
Proof. intros N. apply NoDup_map_inj. exact N. Qed.

Lemma shift_mono (p q : list gene') : NoDup (map gid q) -> incl p q -> (forall x, In x q -> fin (gfit x)) ->
  mono q (shift_by (min_of (weights_of greater p)) (weights_of greater p)) /\
  forall e, In e (shift_by (min_of (weights_of greater p)) (weights_of greater p)) -> fle d0 (snd e) = true.
Proof.
  intros N I F. destruct p as [|p0 p1] eqn:Ep.
  { split; [intros x y wx wy _ _ []|intros e []]. }
  assert (WF : forall w, In w (weights_of greater p) -> fin (snd w)).
  { intros w Hw. unfold weights_of in Hw. apply in_map_iff in Hw. destruct Hw as (x & <- & Hx). apply signed_fin, F, I. subst p. exact Hx. }
  assert (WN : weights_of greater p <> []) by (subst p; discriminate). rewrite <- Ep in *.
  destruct (min_of_spec _ WN WF) as (Fm & _ & Lm). set (m := min_of _) in *. split.
  - intros x y wx wy Hx Hy Hix Hiy B. apply in_shift in Hix. apply in_shift in Hiy.
    destruct Hix as (x' & Hx' & Ex & ->). destruct Hiy as (y' & Hy' & Ey & ->).
    rewrite (same_gene q x' x N) by auto. rewrite (same_gene q y' y N) by auto.
    apply fsub_mono_l; [apply signed_fin, F, Hy|apply signed_fin, F, Hx|exact Fm|].
    left. apply isB_B2R; auto.
  - intros [i w] He. apply in_shift in He. destruct He as (x & Hx & _ & ->). cbn [snd].
    assert (Fx : fin (signed greater x)) by (apply signed_fin, F, I, Hx).
    destruct (fsub_fval (signed greater x) m Fx Fm) as (Nn & Ev). apply fle_iff; [reflexivity|exact Nn|].
    rewrite Ev. change (fval d0) with 0%R. replace 0%R with (clip 0) by (apply clip_in; rewrite Rabs_R0; apply E1024_pos).
    apply clip_mono, drnd_ge0. specialize (Lm (gid x, signed greater x)). cbn [snd] in Lm.
    assert (In (gid x, signed greater x) (weights_of greater p)) by (unfold weights_of; apply (in_map (fun x => (gid x, signed greater x))), Hx).
    specialize (Lm H). lra.
Qed.

(** Weights by rank. *)
Lemma in_ranked (f : nat -> double) (l : list gene') i w : 
  In (i, w) (map (fun '(idx, x) => (gid x, f idx)) (combine (seq 0 (length l)) l)) ->
  exists k x, nth_error l k = Some x /\ gid x = i /\ w = f k.
Proof.
  intros H. apply in_map_iff in H. destruct H as ([k x] & E & H). inversion E; subst.
  exists k, x. split; [|auto].
  assert (G : forall n, In (k, x) (combine (seq n (length l)) l) -> exists j, k = (n + j)%nat /\ nth_error l j = Some x).
  { clear. induction l as [|y l IH]; intros n H; cbn in H; [contradiction|].
    destruct H as [H|H]; [inversion H; subst; exists O; split; [lia|reflexivity]|].
    destruct (IH (S n) H) as (j & -> & Hj). exists (S j). split; [lia|exact Hj]. }
  destruct (G O H) as (j & -> & Hj). exact Hj.
Qed.
Lemma sorted_order (l : list gene') i j x y : sorted_by (geneBetter greater) l ->
  nth_error l i = Some x -> nth_error l j = Some y -> geneBetter greater x y = true -> (i < j)%nat.
Proof.
  intros S Hi Hj B. destruct (lt_dec i j) as [L|L]; [exact L|exfalso].
  destruct (Nat.eq_dec i j) as [->|Ne].
  - assert (x = y) by congruence. subst. unfold geneBetter in B. rewrite isB_irrefl in B. discriminate.
  - apply nth_error_split in Hj. destruct Hj as (a & b & -> & <-).
    change (y :: b) with ([y] ++ b) in S. apply sorted_app in S. destruct S as (_ & S & _). apply sorted_app in S. destruct S as (_ & _ & S).
    rewrite nth_error_app2 in Hi by lia. replace (i - length a)%nat with (Datatypes.S (i - length a - 1)) in Hi by lia.
    cbn [nth_error] in Hi. apply nth_error_In in Hi. rewrite (S y x) in B; [discriminate|left; reflexivity|exact Hi].
Qed.
Lemma ranked_mono (f : nat -> double) (l p : list gene') : NoDup (map gid p) -> Permutation p l -> sorted_by (geneBetter greater) l ->
  (forall i j, (i <= j < length l)%nat -> fle (f j) (f i) = true) ->
  mono p (map (fun '(idx, x) => (gid x, f idx)) (combine (seq 0 (length l)) l)).
Proof.
  intros N P S Hf x y wx wy Hx Hy Hix Hiy B. apply in_ranked in Hix. apply in_ranked in Hiy.
  destruct Hix as (i & x' & Ni & Ex & ->). destruct Hiy as (j & y' & Nj & Ey & ->).
  assert (Hx' : In x' p) by (apply (Permutation_in _ (Permutation_sym P)); eapply nth_error_In; exact Ni).
  assert (Hy' : In y' p) by (apply (Permutation_in _ (Permutation_sym P)); eapply nth_error_In; exact Nj).
  rewrite (same_gene p x' x N) in Ni by auto. rewrite (same_gene p y' y N) in Nj by auto.
  pose proof (sorted_order l i j x y S Ni Nj B). apply Hf.
  assert (j < length l)%nat by (apply nth_error_Some; congruence). lia.
Qed.
Lemma ranked_nonneg (f : nat -> double) (l : list gene') : (forall i, (i < length l)%nat -> fle d0 (f i) = true) ->
  forall e, In e (map (fun '(idx, x) => (gid x, f idx)) (combine (seq 0 (length l)) l)) -> fle d0 (snd e) = true.
Proof.
  intros H [i w] He. apply in_ranked in He. destruct He as (k & x & Nk & _ & ->). apply H. apply nth_error_Some. congruence.
Qed.

Definition lin_w (n : Z) (idx : nat) : double :=
  fdiv (fadd (fmul (linWorst sp) (d_of_Z n))
         (fdiv (fmul (fsub (fmul (linBest sp) (d_of_Z n)) (fmul (linWorst sp) (d_of_Z n))) (d_of_Z (n - Z.of_nat idx - 1))) (d_of_Z (n - 1))))
       (d_of_Z n).
Lemma bd_div_val x y a : bd x a -> fin y -> (1 <= B2R y)%R -> -1074 <= a <= 900 -> bd (fdiv x y) a /\ B2R (fdiv x y) = drnd (B2R x / B2R y).
Proof.
  intros Bx Fy Hy Ha. split; [apply bd_div; assumption|]. destruct Bx as (Fx & Bx).
  apply (fdiv_fin 53 1024 _ _ x y Fx ltac:(lra)).
  eapply Rle_lt_trans; [apply (drnd_abs_bound _ 1 a)|]; try lia.
  - rewrite bpow_one. unfold Rdiv. rewrite Rabs_mult, Rabs_inv, (Rabs_pos_eq (B2R y)) by lra.
    pose proof (Rabs_pos (B2R x)). assert (0 < / B2R y <= 1)%R.
    { split; [apply Rinv_0_lt_compat; lra|]. rewrite <- Rinv_1. apply Rinv_le; lra. }
    nra.
  - rewrite bpow_one. apply bpow_lt. lia.
Qed.
Lemma bd_mul_val x y a b : bd x a -> bd y b -> -1074 <= a + b <= 900 -> bd (fmul x y) (a + b) /\ B2R (fmul x y) = drnd (B2R x * B2R y).
Proof.
  intros Hx Hy H. split; [apply bd_mul; assumption|]. destruct Hx as (Fx & Bx), Hy as (Fy & By).
  apply (fmul_bounded x y 1 (a + b)); try easy; try lia.
  rewrite bpow_one, Rabs_mult, bpow_plus. apply Rmult_le_compat; try apply Rabs_pos; assumption.
Qed.
Lemma bpow_S a : (bpow radix2 (a + 1) = bpow radix2 a + bpow radix2 a)%R.
Proof. rewrite bpow_plus. change (bpow radix2 1) with 2%R. ring. Qed.
Lemma bd_add_val x y a : bd x a -> bd y a -> -1074 <= a <= 899 -> bd (fadd x y) (a + 1) /\ B2R (fadd x y) = drnd (B2R x + B2R y).
Proof.
  intros Hx Hy H. split; [apply bd_sum; assumption|]. destruct Hx as (Fx & Bx), Hy as (Fy & By).
  apply (fadd_bounded x y 1 (a + 1)); try easy; try lia.
  rewrite bpow_one, bpow_S. eapply Rle_trans; [apply Rabs_triang|]. lra.
Qed.
Lemma bd_sub_val x y a : bd x a -> bd y a -> -1074 <= a <= 899 -> bd (fsub x y) (a + 1) /\ B2R (fsub x y) = drnd (B2R x - B2R y).
Proof.
  intros Hx Hy H. split; [apply bd_sum; assumption|]. destruct Hx as (Fx & Bx), Hy as (Fy & By).
  apply (fsub_bounded x y 1 (a + 1)); try easy; try lia.
  rewrite bpow_one, bpow_S. eapply Rle_trans; [apply Rabs_triang|]. rewrite Rabs_Ropp. lra.
Qed.
Lemma lin_val n : 2 <= n < 2147483648 -> unit01 (linWorst sp) -> unit01 (linBest sp) -> (B2R (linWorst sp) <= B2R (linBest sp))%R ->
  exists a d, (0 <= a)%R /\ (0 <= d)%R /\ forall idx, Z.of_nat idx < n ->
    fin (lin_w n idx) /\ B2R (lin_w n idx) = drnd (drnd (a + drnd (drnd (d * IZR (n - Z.of_nat idx - 1)) / IZR (n - 1))) / IZR n).
Proof.
  intros Hn UW UB LE. destruct (bd_nat n) as (Bn & Vn); [lia|]. destruct (bd_nat (n - 1)) as (Bn1 & Vn1); [lia|].
  destruct (bd_mul_val _ _ 0 31 (unit_bd _ UW) Bn ltac:(lia)) as (P1 & V1).
  destruct (bd_mul_val _ _ 0 31 (unit_bd _ UB) Bn ltac:(lia)) as (P2 & V2). change (0 + 31) with 31 in *.
  destruct (bd_sub_val _ _ 31 P2 P1 ltac:(lia)) as (P3 & V3). change (31 + 1) with 32 in *.
  assert (Nn : (2 <= IZR n)%R) by (apply IZR_le; lia).
  exists (B2R (fmul (linWorst sp) (d_of_Z n))), (B2R (fsub (fmul (linBest sp) (d_of_Z n)) (fmul (linWorst sp) (d_of_Z n)))).
  split. { rewrite V1, Vn. apply drnd_ge0. destruct UW as (_ & UW). nra. }
  split. { rewrite V3. apply drnd_ge0. rewrite V1, V2, Vn. assert (drnd (B2R (linWorst sp) * IZR n) <= drnd (B2R (linBest sp) * IZR n))%R by (apply drnd_mono; nra). lra. }
  intros idx Hi. destruct (bd_nat (n - Z.of_nat idx - 1)) as (Bi & Vi); [lia|].
  destruct (bd_mul_val _ _ 32 31 P3 Bi ltac:(lia)) as (P4 & V4). change (32 + 31) with 63 in *.
  destruct (bd_div_val _ _ 63 P4 (proj1 Bn1)) as (P5 & V5); [rewrite Vn1; apply IZR_le; lia|lia|].
  destruct (bd_add_val _ _ 63 (bd_le _ 31 63 P1 ltac:(lia)) P5 ltac:(lia)) as (P6 & V6). change (63 + 1) with 64 in *.
  destruct (bd_div_val _ _ 64 P6 (proj1 Bn)) as (P7 & V7); [rewrite Vn; lra|lia|].
  unfold lin_w. split; [apply P7|]. rewrite V7, V6, V5, V4, Vi, Vn1, Vn. reflexivity.
Qed.
Lemma fle_B2R (x y : double) : fin x -> fin y -> (B2R x <= B2R y)%R -> fle x y = true.
Proof. intros Fx Fy H. apply fle_iff; try (apply fin_nonnan; assumption). rewrite !fval_fin by assumption. exact H. Qed.
Lemma lin_mono n : 2 <= n < 2147483648 -> unit01 (linWorst sp) -> unit01 (linBest sp) -> (B2R (linWorst sp) <= B2R (linBest sp))%R ->
  (forall i j, (i <= j)%nat -> Z.of_nat j < n -> fle (lin_w n j) (lin_w n i) = true) /\
  (forall i, Z.of_nat i < n -> fle d0 (lin_w n i) = true).
Proof.
  intros Hn UW UB LE. destruct (lin_val n Hn UW UB LE) as (a & d & Ha & Hd & Hv).
  assert (I1 : (0 < / IZR (n - 1))%R) by (apply Rinv_0_lt_compat, IZR_lt; lia).
  assert (I2 : (0 < / IZR n)%R) by (apply Rinv_0_lt_compat, IZR_lt; lia). split.
  - intros i j Hij Hj. destruct (Hv i ltac:(lia)) as (Fi & Ei). destruct (Hv j Hj) as (Fj & Ej).
    apply fle_B2R; [exact Fj|exact Fi|]. rewrite Ei, Ej. apply drnd_mono. unfold Rdiv.
    apply Rmult_le_compat_r; [lra|]. apply drnd_mono. apply Rplus_le_compat_l. apply drnd_mono.
    apply Rmult_le_compat_r; [lra|]. apply drnd_mono. apply Rmult_le_compat_l; [exact Hd|]. apply IZR_le. lia.
  - intros i Hi. destruct (Hv i Hi) as (Fi & Ei). apply fle_B2R; [reflexivity|exact Fi|]. rewrite Ei. cbn [B2R d0].
    apply drnd_ge0. apply Rmult_le_pos; [|lra]. apply drnd_ge0. apply Rplus_le_le_0_compat; [exact Ha|]. apply drnd_ge0.
    apply Rmult_le_pos; [|lra]. apply drnd_ge0. apply Rmult_le_pos; [exact Hd|]. apply IZR_le. lia.
Qed.

Definition exp_w (n : Z) (idx : nat) : double :=
  fmul (fdiv (fsub (expBase sp) d1) (fsub (libm_pow sp (expBase sp) (d_of_Z n)) d1)) (libm_pow sp (expBase sp) (d_of_Z (Z.of_nat idx))).
Lemma exp_mono n : 1 <= n < 2147483648 -> pow_ok (libm_pow sp) -> pow_decreasing (libm_pow sp) -> unit01 (expBase sp) -> (B2R (expBase sp) < 1)%R ->
  (forall i j, (i <= j)%nat -> Z.of_nat j < n -> fle (exp_w n j) (exp_w n i) = true) /\
  (forall i, Z.of_nat i < n -> fle d0 (exp_w n i) = true).
Proof.
  intros Hn HP HD UC LC.
  destruct (HP (expBase sp) n UC) as (U1 & L1); [lia|]. specialize (L1 ltac:(lia)).
  destruct (sub_one_neg _ UC LC) as (A1 & A2 & A3). destruct (sub_one_neg _ U1 ltac:(lra)) as (C1 & C2 & C3).
  set (q := fdiv (fsub (expBase sp) d1) (fsub (libm_pow sp (expBase sp) (d_of_Z n)) d1)).
  assert (Q : unit01 q).
  { assert (M : (B2R (fsub (libm_pow sp (expBase sp) (d_of_Z n)) d1) <= B2R (fsub (expBase sp) d1))%R) by (rewrite A3, C3; apply drnd_mono; lra).
    unfold q. set (a := fsub (expBase sp) d1) in *. set (b := fsub (libm_pow sp _ _) d1) in *.
    assert (Q : (0 <= B2R a / B2R b <= 1)%R).
    { replace (B2R a / B2R b)%R with ((- B2R a) * / (- B2R b))%R by (field; lra).
      assert (0 < / - B2R b)%R by (apply Rinv_0_lt_compat; lra).
      split; [apply Rmult_le_pos; lra|]. apply (Rmult_le_reg_r (- B2R b)); [lra|]. rewrite Rmult_assoc, Rinv_l; lra. }
    assert (Q2 : (0 <= drnd (B2R a / B2R b) <= 1)%R) by (split; [apply drnd_ge0|apply drnd_le1]; lra).
    destruct (fdiv_fin 53 1024 _ _ a b A1 ltac:(lra)) as (F & E).
    + rewrite Rabs_pos_eq by apply Q2. apply Rle_lt_trans with 1%R; [apply Q2|]. change 1%R with (bpow radix2 0). apply bpow_lt. easy.
    + split; [exact F|]. rewrite E. exact Q2. }
  unfold exp_w. fold q. clearbody q. destruct Q as (Fq & Bq). split.
  - intros i j Hij Hj. destruct (HP (expBase sp) (Z.of_nat i) UC) as ((Fi & Bi) & _); [lia|].
    destruct (HP (expBase sp) (Z.of_nat j) UC) as ((Fj & Bj) & _); [lia|].
    apply fmul_mono_r; try assumption; [lra|]. apply HD; [apply UC|apply UC|lia|lia].
  - intros i Hi. destruct (HP (expBase sp) (Z.of_nat i) UC) as ((Fi & Bi) & _); [lia|].
    destruct (fmul_fval q (libm_pow sp (expBase sp) (d_of_Z (Z.of_nat i))) Fq Fi) as (Nn & Ev).
    apply fle_iff; [reflexivity|exact Nn|]. rewrite Ev. change (fval d0) with 0%R.
    replace 0%R with (clip 0) by (apply clip_in; rewrite Rabs_R0; apply E1024_pos). apply clip_mono, drnd_ge0. nra.
Qed.

Lemma in_boltz (p : list gene') i w : In (i, w) (boltz_weights sp p) ->
  exists x, In x p /\ gid x = i /\ w = libm_exp sp (fmul (boltzStrength sp) (gfit x)).
Proof. unfold boltz_weights. intros H. apply in_map_iff in H. destruct H as (x & E & Hx). inversion E; subst. eauto. Qed.
Lemma boltz_mono (p : list gene') : NoDup (map gid p) -> (forall x, In x p -> fin (gfit x)) -> fin (boltzStrength sp) ->
  (if greater then 0 <= B2R (boltzStrength sp) else B2R (boltzStrength sp) <= 0)%R -> exp_increasing (libm_exp sp) ->
  mono p (boltz_weights sp p).
Proof.
  intros N F Fb Sb HE x y wx wy Hx Hy Hix Hiy B. apply in_boltz in Hix. apply in_boltz in Hiy.
  destruct Hix as (x' & Hx' & Ex & ->). destruct Hiy as (y' & Hy' & Ey & ->).
  rewrite (same_gene p x' x N) by auto. rewrite (same_gene p y' y N) by auto. apply HE.
  apply isB_B2R in B; auto. unfold signed in B. destruct greater.
  - apply fmul_mono_r; auto. lra.
  - rewrite !fopp_B2R in B. apply fmul_anti_r; auto. lra.
Qed.
Lemma boltz_anti (p : list gene') : NoDup (map gid p) -> (forall x, In x p -> fin (gfit x)) -> fin (boltzStrength sp) ->
  (if greater then B2R (boltzStrength sp) <= 0 else 0 <= B2R (boltzStrength sp))%R -> exp_increasing (libm_exp sp) ->
  forall x y wx wy, In x p -> In y p -> In (gid x, wx) (boltz_weights sp p) -> In (gid y, wy) (boltz_weights sp p) ->
    isBetter greater (gfit x) (gfit y) = true -> fle wx wy = true.
Proof.
  intros N F Fb Sb HE x y wx wy Hx Hy Hix Hiy B. apply in_boltz in Hix. apply in_boltz in Hiy.
  destruct Hix as (x' & Hx' & Ex & ->). destruct Hiy as (y' & Hy' & Ey & ->).
  rewrite (same_gene p x' x N) by auto. rewrite (same_gene p y' y N) by auto. apply HE.
  apply isB_B2R in B; auto. unfold signed in B. destruct greater.
  - apply fmul_anti_r; auto. lra.
  - rewrite !fopp_B2R in B. apply fmul_mono_r; auto. lra.
Qed.

(** ** Whole selections *)
Lemma decided m (c c' : core') es0 es g ws prev nb p' : wf c ->
  Permutation (map fst es0) (map gid (pop c)) -> sublist es es0 ->
  contest R (wheel_of m es0) (lots_of R m) es0 (range_of m es0) (gen_rng c) ws es ->
  applyErasement (pop c) es = Ok p' -> updateFail2 R greater c p' g nb prev = Ok c' ->
  decided_by_wheel R m c c' es0.
Proof.
  intros (N & _) P S C E U. exists ws, es. split; [exact C|]. pose proof (contest_perm R _ _ _ _ _ _ _ C) as Pc. split; [exact Pc|].
  apply updateFail2_spec in U. destruct U as (b & _ & -> & _).
  assert (N0 : NoDup (map fst es0)) by (eapply Permutation_NoDup; [apply Permutation_sym, P|exact N]).
  apply (survive R c p' es0 ws es); try assumption. intros i Hi. eapply Permutation_in; eassumption.
Qed.
Lemma finish2_inv (c c' : core') es g prev : finish2 R greater c es g prev = Ok c' ->
  exists p', applyErasement (pop c) es = Ok p' /\ updateFail2 R greater c p' g (findCurrentBestGene greater p') prev = Ok c'.
Proof. unfold finish2. intros H. apply bind_Ok in H. exact H. Qed.

Section Big.
Variables (fuel : nat) (c c' : core').
Hypotheses (Hstd : std_ok std) (Hw : wf c) (Hs : sizes_ok R opt c) (Big : K' < Z.of_nat (length (pop c))).

Lemma roulette_decided : sel_roulette R greater opt fuel c = Ok c' ->
  decided_by_wheel R RouletteWheel c c' (shift_by (min_of (weights_of greater (pop c))) (weights_of greater (pop c))).
Proof.
  intros H. unfold sel_roulette in H. cbv zeta in H. rewrite (eliminate_int R opt c Hs) in H. unfold popSize in H.
  apply bind_Ok in H. destruct H as (prev & Hp & H).
  destruct (Z.leb_spec (Z.of_nat (length (pop c)) - K') 0) as [L|L]; [lia|].
  set (es0 := shift_by _ _) in *. apply bind_Ok in H. destruct H as ([es g] & H1 & H2).
  pose proof (roulette_loop_sub _ _ _ _ _ _ _ _ H1) as (S & _). apply roulette_contest in H1. destruct H1 as (ws & C).
  apply finish2_inv in H2. destruct H2 as (p' & E & U).
  eapply decided; try eassumption. unfold es0. rewrite fst_shift, fst_weights. reflexivity.
Qed.
Lemma spin_decided m es0 target es g prev : spin_loop R fuel target es0 (range_of m es0) (gen_rng c) = Ok (es, g) ->
  finish2 R greater c es g prev = Ok c' -> Permutation (map fst es0) (map gid (pop c)) -> wheel_of m es0 = (fun _ => true) ->
  decided_by_wheel R m c c' es0.
Proof.
  intros H1 H2 P E. pose proof (spin_loop_sub _ _ _ _ _ _ _ _ H1) as (S & _). apply (spin_loop_contest R (lots_of R m)) in H1.
  destruct H1 as (ws & C). apply finish2_inv in H2. destruct H2 as (p' & E2 & U). rewrite <- E in C. eapply decided; eassumption.
Qed.
Lemma probability_decided : sel_probability R greater opt sp fuel c = Ok c' ->
  decided_by_wheel R Probability c c' (prob_weights greater opt sp (pop c)).
Proof.
  intros H. unfold sel_probability in H. cbv zeta in H. destruct (sizes_int R opt c Hs) as (E1 & E2). rewrite E1, E2 in H. unfold popSize in H.
  apply bind_Ok in H. destruct H as (prev & Hp & H).
  destruct (Z.leb_spec (Z.of_nat (length (pop c)) - K') 0) as [L|L]; [lia|].
  apply bind_Ok in H. destruct H as ([es g] & H1 & H2).
  eapply spin_decided; try eassumption; [|reflexivity]. rewrite fst_prob. reflexivity.
Qed.
Lemma boltzmann_decided : sel_boltzmann R greater opt sp fuel c = Ok c' ->
  decided_by_wheel R Boltzmann c c' (boltz_weights sp (pop c)).
Proof.
  intros H. unfold sel_boltzmann in H. cbv zeta in H. destruct (sizes_int R opt c Hs) as (E1 & E2). rewrite E1, E2 in H. unfold popSize in H.
  apply bind_Ok in H. destruct H as (prev & Hp & H).
  destruct (Z.leb_spec (Z.of_nat (length (pop c)) - K') 0) as [L|L]; [lia|].
  apply bind_Ok in H. destruct H as ([es g] & H1 & H2).
  eapply spin_decided; try eassumption; [|reflexivity]. unfold boltz_weights. rewrite map_map. reflexivity.
Qed.
Definition ranked_by (f : Z -> nat -> double) (es : list (nat * double)) : Prop :=
  exists l, Permutation (pop c) l /\ sorted_by (geneBetter greater) l /\
    es = map (fun '(idx, x) => (gid x, f (Z.of_nat (length l)) idx)) (combine (seq 0 (length l)) l).
Lemma linear_decided : sel_linear R std greater opt sp fuel c = Ok c' ->
  exists es, decided_by_wheel R LinearRank c c' es /\ ranked_by lin_w es.
Proof.
  intros H. unfold sel_linear in H. destruct (sizes_int R opt c Hs) as (E1 & E2). rewrite E1, E2 in H. unfold popSize in H.
  apply bind_Ok in H. destruct H as (prev & Hp & H).
  destruct (Z.leb_spec (Z.of_nat (length (pop c))) K') as [L|L]; [lia|].
  apply bind_Ok in H. destruct H as (sorted & Hso & H). apply sort_pop_inv in Hso; [|exact Hstd]. destruct Hso as (P & So & _).
  apply bind_Ok in H. destruct H as ([es g] & H1 & H2). exists (linear_weights sp sorted). split.
  - eapply spin_decided; try eassumption; [|reflexivity]. unfold linear_weights. rewrite fst_combine_seq. apply Permutation_map, Permutation_sym, P.
  - exists sorted. split; [exact P|]. split; [exact So|reflexivity].
Qed.
Lemma exponential_decided : sel_exponential R std greater opt sp fuel c = Ok c' ->
  exists es, decided_by_wheel R ExponentialRank c c' es /\ ranked_by exp_w es.
Proof.
  intros H. unfold sel_exponential in H. destruct (sizes_int R opt c Hs) as (E1 & E2). rewrite E1, E2 in H. unfold popSize in H.
  apply bind_Ok in H. destruct H as (prev & Hp & H).
  destruct (Z.leb_spec (Z.of_nat (length (pop c))) K') as [L|L]; [lia|].
  apply bind_Ok in H. destruct H as (sorted & Hso & H). apply sort_pop_inv in Hso; [|exact Hstd]. destruct Hso as (P & So & _).
  apply bind_Ok in H. destruct H as ([es g] & H1 & H2). exists (exp_weights sp sorted). split.
  - eapply spin_decided; try eassumption; [|reflexivity]. unfold exp_weights. rewrite fst_combine_seq. apply Permutation_map, Permutation_sym, P.
  - exists sorted. split; [exact P|]. split; [exact So|reflexivity].
Qed.
(** EliteReserved: the [eliteNum] best do not compete. *)
Lemma elite_decided : sel_elite R std greater opt sp fuel c = Ok c' ->
  exists elites rest, Permutation (pop c) (elites ++ rest) /\
    Z.of_nat (length elites) = Z.min (eliteNum sp) (Z.of_nat (length (pop c))) /\
    (forall x y, In x elites -> In y rest -> isBetter greater (gfit y) (gfit x) = false) /\
    decided_by_wheel R EliteReserved c c' (shift_by (min_of (weights_of greater rest)) (weights_of greater rest)).
Proof.
  intros H. pose proof Hw as (N & _). unfold sel_elite in H. cbv zeta in H. destruct (sizes_int R opt c Hs) as (E1 & E2). rewrite E1, E2 in H. unfold popSize in H.
  destruct (Z.leb_spec (Z.of_nat (length (pop c)) - K') 0) as [L|L]; [lia|].
  apply bind_Ok in H. destruct H as (sorted & Hso & H). apply sort_pop_inv in Hso; [|exact Hstd]. destruct Hso as (P & So & _).
  destruct (Z.ltb_spec (eliteNum sp) 0) as [Ln|Ln]; [discriminate|]. set (e := Z.to_nat (eliteNum sp)) in *.
  rewrite <- (firstn_skipn e sorted) in So. apply sorted_app in So. destruct So as (_ & _ & So).
  exists (firstn e sorted), (skipn e sorted). split; [rewrite firstn_skipn; exact P|].
  split. { rewrite firstn_length, <- (Permutation_length P). unfold e. lia. }
  split; [exact So|].
  set (es0 := shift_by _ _) in *. apply bind_Ok in H. destruct H as ([es g] & H1 & H2).
  assert (Fes : map fst es0 = map gid (skipn e sorted)) by (unfold es0; rewrite fst_shift, fst_weights; reflexivity).
  assert (Nso : NoDup (map gid sorted)) by (eapply Permutation_NoDup; [apply Permutation_map, P|exact N]).
  assert (SC : sublist es es0 /\ exists ws, contest R (wheel_of EliteReserved es0) (lots_of R EliteReserved) es0 (range_of EliteReserved es0) (gen_rng c) ws es).
  { cbn [wheel_of lots_of range_of]. change (total es0) with (sum_of es0). destruct (fle (sum_of es0) d0).
    - split; [eapply elite_equal_sub; exact H1|]. eapply elite_contest. exact H1.
    - split; [eapply spin_loop_sub; exact H1|]. eapply spin_loop_contest. exact H1. }
  destruct SC as (S & ws & C). unfold finish1 in H2. apply bind_Ok in H2. destruct H2 as (p' & E & U).
  unfold updateFail1 in U. apply bind_Ok in U. destruct U as (old & _ & U). apply updateFail2_spec in U. destruct U as (b & _ & Ep & _).
  exists ws, es. split; [exact C|]. pose proof (contest_perm R _ _ _ _ _ _ _ C) as Pc. split; [exact Pc|]. rewrite Ep.
  apply (survive R c p' es0 ws es); try assumption.
  - rewrite Fes. eapply sublist_NoDup; [apply sublist_map, sublist_skipn|exact Nso].
  - rewrite Fes. intros i Hi. apply in_map_iff in Hi. destruct Hi as (x & <- & Hx). apply in_map.
    eapply Permutation_in; [apply Permutation_sym, P|]. eapply sublist_in; [apply sublist_skipn|exact Hx].
Qed.
End Big.

(** ** StochasticUniversal *)
Lemma su_keeps (interval : double) es : forall counter k, fin interval -> (0 <= B2R interval)%R ->
  0 <= k -> k + Z.of_nat (length es) < 9007199254740992 ->
  fin counter -> (0 <= B2R counter <= IZR k * B900)%R -> (forall e, In e es -> fin (snd e) /\ (0 <= B2R (snd e) <= B900)%R) ->
  NoDup (map fst es) ->
  forall e, In e es -> fle interval (snd e) = true -> ~ In (fst e) (map fst (su_pave interval counter es)).
Proof.
  induction es as [|a es IH]; intros counter k Fi Pi Hk HkL Fc Pc Hw N e He Hl; [destruct He|]. cbn [su_pave]. cbn [length] in HkL.
  destruct (Hw a (or_introl eq_refl)) as (Fa & Ba). inversion N as [|? ? Na Nt]; subst.
  destruct (fadd_900 counter (snd a) (k + 1)) as (A1 & A2 & A3); [lia|exact Fc|exact Fa|rewrite plus_IZR, Rabs_pos_eq; lra|].
  assert (G : (B2R (snd a) <= B2R (fadd counter (snd a)))%R) by (rewrite A3; apply (rnd_bound_fl' 53 1024 _ _ (snd a)); lra).
  apply Rabs_le_inv in A2.
  assert (Sub : forall cc x, In x (map fst (su_pave interval cc es)) -> In x (map fst es)).
  { intros cc x Hx. eapply sublist_in; [apply sublist_map, su_pave_sub|exact Hx]. }
  destruct (fle interval (fadd counter (snd a))) eqn:E.
  - destruct He as [<-|He]; [intros C; apply Na, (Sub _ _ C)|].
    apply fle_true in E. destruct E as (_ & _ & E). rewrite !fval_fin in E by assumption.
    destruct (fsub_900 (fadd counter (snd a)) interval (k + 1)) as (D1 & D2 & D3); [lia|exact A1|exact Fi|rewrite Rabs_pos_eq; lra|].
    apply Rabs_le_inv in D2.
    apply (IH _ (k + 1)); auto; [lia|lia| |intros x Hx; apply Hw; right; exact Hx].
    split; [|lra]. rewrite D3. apply drnd_ge0. lra.
  - cbn [map]. intros [C|C].
    + destruct He as [<-|He]; [|apply Na; rewrite C; apply in_map, He].
      apply fle_true in Hl. destruct Hl as (_ & _ & Hl). rewrite !fval_fin in Hl by assumption.
      rewrite fle_B2R in E by (assumption || lra). discriminate.
    + destruct He as [<-|He]; [apply Na, (Sub _ _ C)|]. revert C. apply (IH _ (k + 1)); auto; [lia|lia| |intros x Hx; apply Hw; right; exact Hx].
      split; lra.
Qed.

Lemma stochastic_keeps (c c' : core') : rng_ok R -> wf c -> sizes_ok R opt c -> 1 <= K' -> mild R c ->
  sel_stochastic R greater opt c = Ok c' ->
  let es := shift_by (min_of (weights_of greater (pop c))) (weights_of greater (pop c)) in
  forall x, In x (pop c) -> fle (fdiv (sum_of es) (d_of_Z K')) (fsub (signed greater x) (min_of (weights_of greater (pop c)))) = true ->
    In x (pop c').
Proof.
  intros HR Hw Hs HK HM H es x Hx HL. pose proof Hw as (N & _). unfold sel_stochastic in H. cbv zeta in H.
  apply bind_Ok in H. destruct H as (prev & Hp & H).
  destruct (sizes_int R opt c Hs) as (E1 & E2). rewrite E1, E2 in H. unfold popSize in H.
  assert (PN : pop c <> []) by (intros C; rewrite C in Hx; destruct Hx).
  destruct (Z.leb_spec (Z.of_nat (length (pop c)) - K') 0) as [L|L].
  { unfold updateFail1 in H. apply bind_Ok in H. destruct H as (old & _ & H). apply updateFail2_spec in H. destruct H as (b & _ & -> & _). exact Hx. }
  fold es in H.
  assert (W : forall e, In e es -> fin (snd e) /\ (0 <= B2R (snd e) <= B900)%R) by (apply shifted_weights; assumption).
  assert (Le : length es = length (pop c)) by (unfold es, shift_by, weights_of; rewrite !map_length; reflexivity).
  assert (Fes : map fst es = map gid (pop c)) by (unfold es; rewrite fst_shift, fst_weights; reflexivity).
  assert (Key : forall es' g', sublist es' es -> ~ In (gid x) (map fst es') -> finish2 R greater c es' g' prev = Ok c' -> In x (pop c')).
  { intros es' g' S Ni Hf. apply finish2_inv in Hf. destruct Hf as (p' & E & U). apply updateFail2_spec in U. destruct U as (b & _ & -> & _).
    unfold applyErasement in E. destruct (erasure_survivors_sub (pop c) (map fst es) (map fst es') N) as (q & Eq & _ & _ & Iq).
    - apply sublist_map, S.
    - rewrite Fes. exact N.
    - rewrite Fes. apply incl_refl.
    - rewrite Eq in E. inversion E; subst. apply Iq. split; assumption. }
  destruct (fle (sum_of es) d0) eqn:Es.
  - pose proof (su_equal_all R opt (Z.of_nat (length (pop c))) es HR) as Ha.
    assert (E : fst (su_equal R opt (Z.of_nat (length (pop c))) es (gen_rng c)) = []) by (destruct Hs; apply Ha; lia).
    destruct (su_equal R opt (Z.of_nat (length (pop c))) es (gen_rng c)) as [es' g']. cbn [fst] in E. subst es'.
    eapply Key; [apply sublist_nil| |exact H]. intros [].
  - destruct (sum_ge R c (length (pop c)) (le_n _) es W) as (SF & S0 & SG); [rewrite Le; apply Hs|].
    destruct (bd_nat K') as (BK & VK); [destruct Hs; lia|].
    assert (K1 : (1 <= IZR K')%R) by (apply IZR_le; lia).
    assert (SB : (Rabs (B2R (sum_of es)) <= IZR (Z.of_nat (length es)) * B900)%R) by (apply sum_tame; [apply nonneg_tame, W|rewrite Le; destruct Hs; lia]).
    rewrite Rabs_pos_eq in SB by exact S0.
    set (interval := fdiv (sum_of es) (d_of_Z K')) in *.
    assert (IVr : (0 <= B2R (sum_of es) / B2R (d_of_Z K') <= B2R (sum_of es))%R).
    { rewrite VK. split; [apply Rmult_le_pos; [exact S0|left; apply Rinv_0_lt_compat; lra]|].
      apply (Rmult_le_reg_r (IZR K')); [lra|]. unfold Rdiv. rewrite Rmult_assoc, Rinv_l by lra. nra. }
    destruct (fdiv_900 (sum_of es) (d_of_Z K') (Z.of_nat (length es))) as (FI & BI & VI); [rewrite Le; destruct Hs; lia|exact SF|rewrite VK; lra|rewrite Rabs_pos_eq by apply IVr; lra|].
    fold interval in FI, BI, VI.
    assert (PI : (0 <= B2R interval <= B2R (sum_of es))%R).
    { rewrite VI. split; [apply drnd_ge0, IVr|apply (rnd_bound_fl 53 1024 _ _ (sum_of es)), IVr]. }
    pose proof (randD_range_ok R d0 interval (gen_rng c) HR eq_refl FI) as HD.
    destruct (randD_range R d0 interval (gen_rng c)) as [beg g'] eqn:Er. cbn [fst] in HD.
    assert (Fs : fin (fsub interval d0)).
    { apply (fsub_900 interval d0 (Z.of_nat (length es))); [rewrite Le; destruct Hs; lia|exact FI|reflexivity|]. cbn [B2R d0]. rewrite Rminus_0_r, Rabs_pos_eq; lra. }
    destruct HD as (Fb & B1 & B2); [apply fle_B2R; [reflexivity|exact FI|apply PI]|exact Fs|].
    apply fle_true in B1. destruct B1 as (_ & _ & B1). apply fle_true in B2. destruct B2 as (_ & _ & B2).
    rewrite !fval_fin in B1, B2 by (assumption || reflexivity). cbn [B2R d0] in B1.
    eapply Key; [eapply sublist_trans; [apply sublist_firstn|apply su_pave_sub]| |exact H].
    assert (Hin : In (gid x, fsub (signed greater x) (min_of (weights_of greater (pop c)))) es).
    { unfold es, shift_by, weights_of. rewrite map_map. cbn [fst snd]. apply (in_map (fun x => (gid x, fsub (signed greater x) _))), Hx. }
    assert (Nk : ~ In (gid x) (map fst (su_pave interval beg es))).
    { assert (NF : NoDup (map fst es)) by (rewrite Fes; exact N).
      assert (LL : Z.of_nat (length es) + Z.of_nat (length es) < 9007199254740992) by (rewrite Le; destruct Hs; lia).
      apply (su_keeps interval es beg (Z.of_nat (length es)) FI (proj1 PI) (Zle_0_nat _) LL Fb ltac:(split; lra) W NF _ Hin HL). }
    intros C. apply Nk. eapply sublist_in; [apply sublist_map, sublist_firstn|exact C].
Qed.
End P.
