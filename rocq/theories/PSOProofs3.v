(** PSO: boxes over histories, velocity magnitudes, attraction, totality. *)
From Coq Require Import List Arith ZArith Bool Lia Reals Lra.
From Flocq Require Import Core BinarySingleNaN.
From Verif Require Import Base Fl FlFacts Rng GlobalProofs Box BoxProofs MOGAProofs3 PSO PSOSpec PSOProofs PSOProofs2.
Import ListNotations.
Open Scope Z_scope.

Section H.
Context (R : rng_ops) (greater : bool) (opt : pso_option) (b : vbox).
Context (iFun : G R -> (list double * list double) * G R) (fFun : list double -> double).
Notation hist := (history R greater opt b iFun fFun).
Notation swarm' := (swarm (G R)).
Hypothesis Hb : vproper b.
Hypothesis Hi : forall g, pos_in b (fst (fst (iFun g))) /\ Z.of_nat (length (snd (fst (iFun g)))) = v_dim b.

Definition inb (x : particle) : Prop :=
  pos_in b (position (here x)) /\ pos_in b (position (pBest x)) /\ Z.of_nat (length (velocity x)) = v_dim b.

Lemma scan_from ps : forall cur, scan_best greater cur ps = cur \/
  exists x, In x ps /\ scan_best greater cur ps = pBest (update_pBest greater x).
Proof.
  induction ps as [|x ps IH]; intros cur; cbn [scan_best]; [auto|].
  destruct (IH (if better greater (fitness (pBest (update_pBest greater x))) (fitness cur)
                then pBest (update_pBest greater x) else cur)) as [E|(y & Hy & E)]; rewrite E.
  - destruct (better _ _ _); [right; exists x; split; [left; reflexivity|reflexivity]|left; reflexivity].
  - right. exists y. split; [right; exact Hy|reflexivity].
Qed.
Lemma gBest_from (s s' : swarm') : updatePGBest R greater s = Ok s' ->
  gBest s' = gBest s \/ exists x, In x (particles s') /\ gBest s' = pBest x.
Proof.
  intros H. destruct (updatePGBest_inv _ _ _ _ H) as (E & Ne). unfold updatePGBest in H.
  destruct (particles s) as [|x ps] eqn:Ep; [congruence|]. clear Ne. rewrite <- Ep in H, E.
  destruct (better _ _ _) in H; [|left; inversion H; reflexivity].
  right. destruct (scan_from (particles s) (pBest (update_pBest greater x))) as [S|(y & Hy & S)].
  - exists (update_pBest greater x). split; [rewrite E; apply in_map; rewrite Ep; left; reflexivity|].
    rewrite <- S. inversion H; reflexivity.
  - exists (update_pBest greater y). split; [rewrite E; apply in_map; exact Hy|]. rewrite <- S. inversion H; reflexivity.
Qed.
Lemma inb_update x : inb x -> inb (update_pBest greater (evaluate fFun x)).
Proof.
  intros (A & B & C). unfold inb. rewrite ub_pos, ub_vel, ub_pBest. split; [exact A|]. split; [|exact C].
  destruct (better _ _ _); [exact A|exact B].
Qed.
Lemma hist_inb h s : hist h s -> Forall inb (particles s) /\ pos_in b (position (gBest s)).
Proof.
  intros H. induction H as [g s H|h s s' Hh IH H|h s s' Hh IH H|h s Hh IH].
  - destruct (initializeSwarm_inv _ _ _ _ _ _ H) as (E & _ & x0 & t & Ep & Eg).
    assert (P : Forall inb (particles s)).
    { rewrite E. apply init_swarm_P. intros g0 p v g' Ei. specialize (Hi g0). rewrite Ei in Hi. cbn [fst snd] in Hi.
      split; [apply Hi|split; [apply Hi|apply Hi]]. }
    split; [exact P|]. rewrite Eg. rewrite Ep in P. inversion P as [|? ? P1]. apply P1.
  - destruct IH as (I1 & I2). destruct (round_particles _ _ _ _ _ H) as (E & _).
    assert (P : Forall inb (particles s')).
    { rewrite E. apply Forall_map. eapply Forall_impl; [|exact I1]. intros x. apply inb_update. }
    split; [exact P|]. destruct (gBest_from _ _ H) as [->|(x & Hx & ->)]; [exact I2|].
    rewrite Forall_forall in P. apply (P x Hx).
  - destruct IH as (I1 & I2). destruct (updatePopulation_inv _ _ _ _ _ H) as (Eg & _ & F). rewrite Eg. split; [|exact I2].
    clear -F I1 Hb. induction F as [|x y ps ps' (g0 & g1 & Hm) F IHF]; constructor.
    + inversion I1 as [|? ? (A & B & C)]; subst. pose proof (move_inv _ _ _ _ _ _ _ Hm) as (_ & _ & _ & L4 & _ & L6 & _).
      destruct (move_pos _ _ _ _ _ _ _ Hb Hm C) as (P1 & P2). split; [exact P1|]. split; [rewrite L6; exact B|]. lia.
    + apply IHF. inversion I1; assumption.
  - exact IH.
Qed.
Lemma hist_vel h s : (forall g, vel_in_or_nan b (snd (fst (iFun g)))) -> hist h s ->
  Forall (fun x => vel_in_or_nan b (velocity x)) (particles s).
Proof.
  intros Hv H. induction H as [g s H|h s s' Hh IH H|h s s' Hh IH H|h s Hh IH].
  - destruct (initializeSwarm_inv _ _ _ _ _ _ H) as (E & _). rewrite E. apply init_swarm_P.
    intros g0 p v g' Ei. specialize (Hv g0). rewrite Ei in Hv. exact Hv.
  - destruct (round_particles _ _ _ _ _ H) as (E & _). rewrite E. apply Forall_map. eapply Forall_impl; [|exact IH].
    intros x. rewrite ub_vel. auto.
  - destruct (hist_inb _ _ Hh) as (I1 & _). destruct (updatePopulation_inv _ _ _ _ _ H) as (_ & _ & F).
    clear -F I1 Hb. induction F as [|x y ps ps' (g0 & g1 & Hm) F IHF]; constructor.
    + inversion I1 as [|? ? (A & B & C)]; subst. apply (move_pos _ _ _ _ _ _ _ Hb Hm C).
    + apply IHF. inversion I1; assumption.
  - exact IH.
Qed.
End H.

(** * Velocity magnitudes *)
Lemma B400_eq : B400 = bpow radix2 400. Proof. reflexivity. Qed.
Lemma B400_1 : (1 <= B400)%R. Proof. unfold B400. change 1%R with (bpow radix2 0). apply bpow_le. lia. Qed.
Lemma B400_900 : (B400 * (2 * B400) <= B900)%R.
Proof.
  rewrite B900_eq. unfold B400. change 2%R with (bpow radix2 1). rewrite <- !bpow_plus. apply bpow_le. lia.
Qed.
Global Opaque B400.

Lemma abs_mul_le x y a c : (Rabs x <= a)%R -> (Rabs y <= c)%R -> (Rabs (x * y) <= a * c)%R.
Proof. intros A C. rewrite Rabs_mult. apply Rmult_le_compat; try apply Rabs_pos; assumption. Qed.
Lemma B900_gen m : (0 <= m <= 9007199254740992)%Z -> generic_format radix2 (SpecFloat.fexp 53 1024) (IZR m * B900).
Proof. intros H. rewrite B900_eq. apply gen_IZR_bpow; [exact _| |]; cbn; lia. Qed.
Lemma B400_gen2 : generic_format radix2 (SpecFloat.fexp 53 1024) (2 * B400).
Proof. change 2%R with (IZR 2). rewrite B400_eq. apply gen_IZR_bpow; [exact _| |]; cbn; lia. Qed.
Lemma B400_gen1 : generic_format radix2 (SpecFloat.fexp 53 1024) B400.
Proof. rewrite B400_eq. apply gen_bpow; [exact _|cbn; lia]. Qed.
Lemma B400_pos2 : (2 * B400 <= 1 * B900)%R.
Proof. pose proof B400_900. pose proof B400_1. nra. Qed.

Lemma small_draw (l d : double) : small l -> fle d0 d = true -> flt d d1 = true -> small (fmul l d).
Proof.
  intros (F & B) D0 D1. destruct (unit_draw d D0 D1) as (Fd & Ld).
  assert (M : (Rabs (B2R l * B2R d) <= B400)%R).
  { replace B400 with (B400 * 1)%R by lra. apply abs_mul_le; [exact B|]. apply Rabs_le. lra. }
  destruct (fmul_900 l d 1 ltac:(lia) F Fd) as (Fm & _ & E); [pose proof B400_pos2; pose proof B400_1; lra|].
  split; [exact Fm|]. rewrite E. apply (rnd_abs_gen 53 1024 _); [exact B400_gen1|exact M].
Qed.
Lemma small_vel (w a c v pb gb x : double) : small w -> small a -> small c -> small v -> small pb -> small gb -> small x ->
  nonnan (vel_coef w a c v pb gb x).
Proof.
  intros (Fw & Bw) (Fa & Ba) (Fc & Bc) (Fv & Bv) (Fp & Bp) (Fg & Bg) (Fx & Bx).
  pose proof B400_900 as K. pose proof B400_1 as K1. pose proof B400_pos2 as K2. pose proof B900_pos as K9.
  assert (D : forall y : double, fin y -> (Rabs (B2R y) <= B400)%R -> fin (fsub y x) /\ (Rabs (B2R (fsub y x)) <= 2 * B400)%R).
  { intros y Fy By. assert (M : (Rabs (B2R y - B2R x) <= 2 * B400)%R).
    { eapply Rle_trans; [apply Rabs_triang|]. rewrite Rabs_Ropp. lra. }
    destruct (fsub_900 y x 1 ltac:(lia) Fy Fx ltac:(lra)) as (F & _ & E). split; [exact F|]. rewrite E.
    apply (rnd_abs_gen 53 1024 _); [exact B400_gen2|exact M]. }
  destruct (D pb Fp Bp) as (Fd1 & Bd1). destruct (D gb Fg Bg) as (Fd2 & Bd2).
  assert (M : forall y z : double, fin y -> (Rabs (B2R y) <= B400)%R -> fin z -> (Rabs (B2R z) <= 2 * B400)%R ->
     fin (fmul y z) /\ (Rabs (B2R (fmul y z)) <= 1 * B900)%R).
  { intros y z Fy By Fz Bz. destruct (fmul_900 y z 1 ltac:(lia) Fy Fz) as (F & B & _); [|auto].
    pose proof (abs_mul_le _ _ _ _ By Bz). lra. }
  unfold vel_coef.
  destruct (M w v Fw Bw Fv ltac:(lra)) as (F1 & B1).
  destruct (M a (fsub pb x) Fa Ba Fd1 Bd1) as (F2 & B2).
  destruct (M c (fsub gb x) Fc Bc Fd2 Bd2) as (F3 & B3).
  destruct (fadd_900 (fmul w v) (fmul a (fsub pb x)) 2 ltac:(lia) F1 F2) as (F4 & B4 & _).
  { eapply Rle_trans; [apply Rabs_triang|]. lra. }
  destruct (fadd_900 _ (fmul c (fsub gb x)) 3 ltac:(lia) F4 F3) as (F5 & _).
  { eapply Rle_trans; [apply Rabs_triang|]. lra. }
  apply fin_nonnan, F5.
Qed.
Lemma small_between (lo hi x : double) : small lo -> small hi -> fle lo x = true -> fle x hi = true -> small x.
Proof.
  intros (Fl & Bl) (Fh & Bh) L H. destruct (fle_true _ _ _ _ L) as (_ & Nx & V1). destruct (fle_true _ _ _ _ H) as (_ & _ & V2).
  rewrite (fval_fin _ _ lo Fl) in V1. rewrite (fval_fin _ _ hi Fh) in V2.
  assert (K : (B400 < bpow radix2 1024)%R). { rewrite B400_eq. apply bpow_lt. lia. }
  apply Rabs_le_inv in Bl, Bh.
  assert (Fx : fin x).
  { destruct x as [s|s| |s m e Hx]; try reflexivity; [|discriminate]. exfalso.
    destruct s; cbn [fval] in V1, V2; revert K V1 V2; generalize (bpow radix2 1024); intros; lra. }
  split; [exact Fx|]. rewrite (fval_fin _ _ x Fx) in V1, V2. apply Rabs_le. lra.
Qed.

Section V.
Context (R : rng_ops) (greater : bool) (opt : pso_option) (b : vbox).
Context (iFun : G R -> (list double * list double) * G R) (fFun : list double -> double).
Notation hist := (history R greater opt b iFun fFun).
Notation swarm' := (swarm (G R)).
Hypothesis HR : rng_ok R.
Hypothesis Hb : vproper b.
Hypothesis Ho : small (inertiaFactor opt) /\ small (learnFactorP opt) /\ small (learnFactorG opt).
Hypothesis Hs : forall i, Z.of_nat i < v_dim b -> small (v_lo b i) /\ small (v_hi b i) /\ small (v_max b i).
Hypothesis Hi : forall g, pos_in b (fst (fst (iFun g))) /\ vel_in b (snd (fst (iFun g))).

Lemma Hi' : forall g, pos_in b (fst (fst (iFun g))) /\ Z.of_nat (length (snd (fst (iFun g)))) = v_dim b.
Proof. intros g. destruct (Hi g) as (A & B). split; [exact A|apply B]. Qed.
Lemma nth_dim (l : list double) i x : Z.of_nat (length l) = v_dim b -> nth_error l i = Some x -> Z.of_nat i < v_dim b.
Proof. intros L E. assert (i < length l)%nat by (apply nth_error_Some; congruence). lia. Qed.
Lemma hist_vel_small h s : hist h s -> Forall (fun x => vel_in b (velocity x)) (particles s).
Proof.
  intros H. induction H as [g s H|h s s' Hh IH H|h s s' Hh IH H|h s Hh IH].
  - destruct (initializeSwarm_inv _ _ _ _ _ _ H) as (E & _). rewrite E. apply init_swarm_P.
    intros g0 p v g' Ei. destruct (Hi g0) as (_ & Hv). rewrite Ei in Hv. exact Hv.
  - destruct (round_particles _ _ _ _ _ H) as (E & _). rewrite E. apply Forall_map. eapply Forall_impl; [|exact IH].
    intros x. rewrite ub_vel. auto.
  - destruct (hist_inb R greater opt b iFun fFun Hb Hi' _ _ Hh) as (I1 & IG). destruct (updatePopulation_inv _ _ _ _ _ H) as (_ & _ & F).
    clear H Hh. induction F as [|x y ps ps' (g0 & g1 & Hm) F IHF]; constructor.
    + inversion I1 as [|? ? (A & B & C)]; subst. inversion IH as [|? ? V]; subst.
      pose proof (move_inv _ _ _ _ _ _ _ Hm) as (L1 & L2 & L3 & L4 & _ & _ & _ & Q).
      split; [lia|]. intros i z Ez. destruct (nth_len _ (velocity x) i z L4 Ez) as (v & Ev).
      destruct (nth_len _ (position (pBest x)) i v (eq_sym L1) Ev) as (pb & Epb).
      destruct (nth_len _ (position (gBest s)) i v (eq_sym L2) Ev) as (gb & Eg).
      destruct (nth_len _ (position (here x)) i v (eq_sym L3) Ev) as (p & Ep).
      destruct (Q i v pb gb p Ev Epb Eg Ep) as (E & _). rewrite E in Ez. inversion Ez; subst z.
      assert (Hd : Z.of_nat i < v_dim b) by (eapply nth_dim; [exact C|exact Ev]).
      destruct Hb as (_ & Hb'). destruct (Hb' i Hd) as (_ & _ & _ & _ & Hv). destruct (Hs i Hd) as (S1 & S2 & S3).
      apply clampVel_in; [exact Hv|].
      destruct Ho as (O1 & O2 & O3). destruct HR as (HR1 & _).
      destruct V as (_ & V). destruct (V i v Ev) as (V1 & V2).
      destruct A as (_ & A). destruct (A i p Ep). destruct B as (_ & B). destruct (B i pb Epb). destruct IG as (_ & IG). destruct (IG i gb Eg).
      apply small_vel; try assumption.
      * apply small_draw; [exact O2|apply HR1..].
      * apply small_draw; [exact O3|apply HR1..].
      * apply (small_between (fopp (v_max b i)) (v_max b i)); try assumption. destruct S3 as (F3 & B3).
        split; [apply fopp_fin; exact F3|]. rewrite fopp_B2R, Rabs_Ropp. exact B3.
      * apply (small_between (v_lo b i) (v_hi b i)); assumption.
      * apply (small_between (v_lo b i) (v_hi b i)); assumption.
      * apply (small_between (v_lo b i) (v_hi b i)); assumption.
    + apply IHF; [inversion IH; assumption|inversion I1; assumption].
  - exact IH.
Qed.
End V.

(** * Default initialisation *)
Section D.
Context (R : rng_ops) (b : vbox).
Lemma init_pos_spec n : forall k g, rng_ok R ->
  (forall i, (k <= i < k + n)%nat -> fin (v_lo b i) /\ fin (v_hi b i) /\ fle (v_lo b i) (v_hi b i) = true /\ fin (fsub (v_hi b i) (v_lo b i))) ->
  length (fst (init_pos R b n k g)) = n /\
  forall i x, nth_error (fst (init_pos R b n k g)) i = Some x -> fle (v_lo b (k + i)) x = true /\ fle x (v_hi b (k + i)) = true.
Proof.
  induction n as [|n IH]; intros k g HR H; cbn [init_pos].
  - split; [reflexivity|]. intros [|i] x E; discriminate.
  - destruct (H k ltac:(lia)) as (A & B & C & D). pose proof (randD_range_ok R (v_lo b k) (v_hi b k) g HR A B C D) as P.
    destruct (randD_range R (v_lo b k) (v_hi b k) g) as [x g1]. cbn [fst] in P.
    destruct (IH (S k) g1 HR ltac:(intros i Hi; apply H; lia)) as (L & Q).
    destruct (init_pos R b n (S k) g1) as [t g2]. cbn [fst] in *. split; [cbn; lia|].
    intros [|i] y E; cbn in E.
    + inversion E; subst y. rewrite Nat.add_0_r. split; apply P.
    + specialize (Q i y E). replace (k + S i)%nat with (S k + i)%nat by lia. exact Q.
Qed.
Lemma default_ok g : rng_ok R -> vproper b ->
  pos_in b (fst (fst (defaultInitialize R b g))) /\ vel_in b (snd (fst (defaultInitialize R b g))) /\
  snd (fst (defaultInitialize R b g)) = repeat d0 (Z.to_nat (v_dim b)).
Proof.
  intros HR (Hd & Hb). unfold defaultInitialize.
  destruct (init_pos_spec (Z.to_nat (v_dim b)) 0 g HR) as (L & Q).
  { intros i Hi. destruct (Hb i ltac:(lia)) as (A & B & C & D & _). auto using flt_le. }
  destruct (init_pos R b (Z.to_nat (v_dim b)) 0 g) as [p g']. cbn [fst snd] in *.
  split; [split; [lia|exact Q]|]. split; [|reflexivity]. split; [rewrite repeat_length; lia|].
  intros i x E. assert (Hl : (i < Z.to_nat (v_dim b))%nat) by (rewrite <- (repeat_length d0 (Z.to_nat (v_dim b))); apply nth_error_Some; congruence).
  assert (x = d0) by (apply nth_error_In, repeat_spec in E; exact E). subst x.
  destruct (Hb i ltac:(lia)) as (_ & _ & _ & _ & V). destruct (opp_le _ V) as (_ & N & N').
  destruct (flt_true _ _ _ _ V) as (_ & _ & Lv). change (fval d0) with 0%R in Lv.
  split; [|apply flt_le; exact V]. apply fle_iff; [exact N'|reflexivity|]. rewrite fopp_fval. change (fval d0) with 0%R. lra.
Qed.
End D.

(** * Totality *)
Section T.
Context (R : rng_ops) (greater : bool) (opt : pso_option) (b : vbox).
Context (iFun : G R -> (list double * list double) * G R) (fFun : list double -> double).
Context (rec_on : bool) (vec_max : Z).
Notation hist := (history R greater opt b iFun fFun).
Notation swarm' := (swarm (G R)).
Hypothesis Hb : vproper b.
Hypothesis Hi : forall g, pos_in b (fst (fst (iFun g))) /\ Z.of_nat (length (snd (fst (iFun g)))) = v_dim b.
Lemma move_all_total gb ps : pos_in b (position gb) -> Forall (inb b) ps -> forall g, exists r, move_all R opt b gb ps g = Ok r.
Proof.
  intros Hg H. induction H as [|x ps (A & B & C) H IH]; intros g; cbn [move_all]; [eauto|].
  destruct (rand01 R g) as [lp g1]. destruct (rand01 R g1) as [lg g2].
  destruct (move_total opt b gb lp lg x) as (y & ->).
  { destruct B. lia. } { destruct Hg. lia. } { destruct A. lia. }
  cbn [bind]. destruct (IH g2) as (r & ->). cbn [bind]. eauto.
Qed.
Lemma hist_nonempty h s : hist h s -> particles s <> [].
Proof.
  intros H. induction H as [g s H|h s s' Hh IH H|h s s' Hh IH H|h s Hh IH].
  - destruct (initializeSwarm_inv _ _ _ _ _ _ H) as (_ & _ & x & t & E & _). congruence.
  - destruct (round_particles _ _ _ _ _ H) as (E & N). rewrite E. destruct (particles s); [congruence|discriminate].
  - destruct (updatePopulation_inv _ _ _ _ _ H) as (_ & _ & F). inversion F; congruence.
  - exact IH.
Qed.
Lemma round_total h s : hist h s -> exists s', updatePGBest R greater (computeAll R fFun s) = Ok s'.
Proof.
  intros H. apply hist_nonempty in H. unfold updatePGBest. cbn [computeAll particles].
  destruct (particles s); [congruence|]. cbn [map]. eauto.
Qed.
Lemma updatePopulation_total h s : hist h s -> exists s', updatePopulation R opt b s = Ok s'.
Proof.
  intros H. destruct (hist_inb R greater opt b iFun fFun Hb Hi _ _ H) as (I1 & I2). unfold updatePopulation.
  destruct (move_all_total _ _ I2 I1 (p_rng s)) as (r & ->). cbn [bind]. eauto.
Qed.
Lemma loop_ok fuel : forall h s, hist h (p_swarm s) -> pso_loop R greater opt b fFun rec_on fuel s <> UB /\
  pso_loop R greater opt b fFun rec_on fuel s <> Abort.
Proof.
  induction fuel as [|n IH]; intros h s H; cbn [pso_loop]; [split; discriminate|].
  destruct (round_total _ _ H) as (c & Ec). rewrite Ec. cbn [bind]. cbv zeta.
  assert (Hc : hist (positions R (p_swarm s) :: h) c) by (eapply h_round; eassumption).
  destruct (_ || _); [split; discriminate|].
  destruct (updatePopulation_total _ _ Hc) as (m & Em). rewrite Em. cbn [bind].
  apply (IH (positions R (p_swarm s) :: h)). cbn [p_swarm]. eapply h_move; eassumption.
Qed.
End T.

(** * Attraction *)
Lemma small_vel_val (w a c v pb gb x : double) : small w -> small a -> small c -> small v -> small pb -> small gb -> small x ->
  let r := vel_coef w a c v pb gb x in
  fin r /\ (Rabs (B2R r) <= 3 * B900)%R /\  B2R r = drnd (drnd (drnd (B2R w * B2R v) + drnd (B2R a * drnd (B2R pb - B2R x))) + drnd (B2R c * drnd (B2R gb - B2R x))).
Proof.
  intros (Fw & Bw) (Fa & Ba) (Fc & Bc) (Fv & Bv) (Fp & Bp) (Fg & Bg) (Fx & Bx).
  pose proof B400_900 as K. pose proof B400_1 as K1. pose proof B400_pos2 as K2. pose proof B900_pos as K9.
  assert (D : forall y : double, fin y -> (Rabs (B2R y) <= B400)%R ->
     fin (fsub y x) /\ (Rabs (B2R (fsub y x)) <= 2 * B400)%R /\ B2R (fsub y x) = drnd (B2R y - B2R x)).
  { intros y Fy By. assert (M : (Rabs (B2R y - B2R x) <= 2 * B400)%R).
    { eapply Rle_trans; [apply Rabs_triang|]. rewrite Rabs_Ropp. lra. }
    destruct (fsub_900 y x 1 ltac:(lia) Fy Fx ltac:(lra)) as (F & _ & E). split; [exact F|]. rewrite E. split; [|reflexivity].
    apply (rnd_abs_gen 53 1024 _); [exact B400_gen2|exact M]. }
  destruct (D pb Fp Bp) as (Fd1 & Bd1 & Ed1). destruct (D gb Fg Bg) as (Fd2 & Bd2 & Ed2).
  assert (M : forall y z : double, fin y -> (Rabs (B2R y) <= B400)%R -> fin z -> (Rabs (B2R z) <= 2 * B400)%R ->
     fin (fmul y z) /\ (Rabs (B2R (fmul y z)) <= 1 * B900)%R /\ B2R (fmul y z) = drnd (B2R y * B2R z)).
  { intros y z Fy By Fz Bz. apply (fmul_900 y z 1 ltac:(lia) Fy Fz).
    pose proof (abs_mul_le _ _ _ _ By Bz). lra. }
  unfold vel_coef. cbv zeta.
  destruct (M w v Fw Bw Fv ltac:(lra)) as (F1 & B1 & E1).
  destruct (M a (fsub pb x) Fa Ba Fd1 Bd1) as (F2 & B2 & E2).
  destruct (M c (fsub gb x) Fc Bc Fd2 Bd2) as (F3 & B3 & E3).
  destruct (fadd_900 (fmul w v) (fmul a (fsub pb x)) 2 ltac:(lia) F1 F2) as (F4 & B4 & E4).
  { eapply Rle_trans; [apply Rabs_triang|]. lra. }
  destruct (fadd_900 _ (fmul c (fsub gb x)) 3 ltac:(lia) F4 F3) as (F5 & B5 & E5).
  { eapply Rle_trans; [apply Rabs_triang|]. lra. }
  split; [exact F5|]. split; [exact B5|]. rewrite E5, E4, E3, E2, E1, Ed1, Ed2. reflexivity.
Qed.
Lemma vel_up (w a c v pb gb x : double) : small w -> small a -> small c -> small v -> small pb -> small gb -> small x ->
  (0 <= B2R w)%R -> (0 <= B2R a)%R -> (0 <= B2R c)%R -> (0 <= B2R v)%R -> (B2R x <= B2R pb)%R -> (B2R x <= B2R gb)%R ->
  (0 <= B2R (vel_coef w a c v pb gb x))%R.
Proof.
  intros Sw Sa Sc Sv Sp Sg Sx Hw Ha Hc Hv Hp Hg.
  destruct (small_vel_val w a c v pb gb x Sw Sa Sc Sv Sp Sg Sx) as (_ & _ & ->).
  assert (P : forall s t, (0 <= s)%R -> (0 <= t)%R -> (0 <= drnd (s * t))%R).
  { intros s t Hs Ht. apply drnd_ge0. apply Rmult_le_pos; assumption. }
  pose proof (P _ _ Hw Hv). pose proof (P _ _ Ha (drnd_ge0 (B2R pb - B2R x) ltac:(lra))).
  pose proof (P _ _ Hc (drnd_ge0 (B2R gb - B2R x) ltac:(lra))).
  apply drnd_ge0. apply Rplus_le_le_0_compat; [|assumption]. apply drnd_ge0. lra.
Qed.
Lemma vel_down (w a c v pb gb x : double) : small w -> small a -> small c -> small v -> small pb -> small gb -> small x ->
  (0 <= B2R w)%R -> (0 <= B2R a)%R -> (0 <= B2R c)%R -> (B2R v <= 0)%R -> (B2R pb <= B2R x)%R -> (B2R gb <= B2R x)%R ->
  (B2R (vel_coef w a c v pb gb x) <= 0)%R.
Proof.
  intros Sw Sa Sc Sv Sp Sg Sx Hw Ha Hc Hv Hp Hg.
  destruct (small_vel_val w a c v pb gb x Sw Sa Sc Sv Sp Sg Sx) as (_ & _ & ->).
  assert (P : forall s t, (0 <= s)%R -> (t <= 0)%R -> (drnd (s * t) <= 0)%R).
  { intros s t Hs Ht. apply drnd_le0. nra. }
  pose proof (P _ _ Hw Hv). pose proof (P _ _ Ha (drnd_le0 (B2R pb - B2R x) ltac:(lra))).
  pose proof (P _ _ Hc (drnd_le0 (B2R gb - B2R x) ltac:(lra))).
  apply drnd_le0. pose proof (drnd_le0 (drnd (B2R w * B2R v) + drnd (B2R a * drnd (B2R pb - B2R x))) ltac:(lra)). lra.
Qed.
(** clamping to [-vm, vm] keeps the sign and the value is small *)
Lemma clampVel_sign (vm x : double) : small vm -> flt d0 vm = true -> fin x ->
  small (clampVel vm x) /\ ((0 <= B2R x)%R -> (0 <= B2R (clampVel vm x))%R) /\ ((B2R x <= 0)%R -> (B2R (clampVel vm x) <= 0)%R).
Proof.
  intros (Fm & Bm) Hv Fx. destruct (flt_true _ _ _ _ Hv) as (_ & Nm & Lv). change (fval d0) with 0%R in Lv.
  rewrite (fval_fin _ _ vm Fm) in Lv.
  assert (So : small (fopp vm)). { split; [apply fopp_fin; exact Fm|]. rewrite fopp_B2R, Rabs_Ropp. exact Bm. }
  destruct (clampVel_in vm x Hv (fin_nonnan _ _ _ Fx)) as (A & B).
  split; [apply (small_between (fopp vm) vm); [exact So|split; assumption|exact A|exact B]|].
  unfold clampVel, dmin, dmax.
  destruct (flt vm x) eqn:E1.
  - destruct (flt_true _ _ _ _ E1) as (_ & _ & L1). rewrite (fval_fin _ _ vm Fm), (fval_fin _ _ x Fx) in L1.
    rewrite (fle_lt_false _ _ (fopp vm) vm) by apply (opp_le vm Hv). split; intros; lra.
  - destruct (flt x (fopp vm)) eqn:E2.
    + destruct (flt_true _ _ _ _ E2) as (_ & _ & L2). rewrite (fval_fin _ _ x Fx), fopp_fval, (fval_fin _ _ vm Fm) in L2.
      rewrite fopp_B2R. split; intros; lra.
    + split; auto.
Qed.
(** adding a step and clamping to the box moves in the direction of the step *)
Lemma step_dir (lo hi x v : double) : small lo -> small hi -> flt lo hi = true -> fle lo x = true -> fle x hi = true -> small v ->
  let y := clampPos lo hi (fadd x v) in
  small y /\ ((0 <= B2R v)%R -> (B2R x <= B2R y)%R) /\ ((B2R v <= 0)%R -> (B2R y <= B2R x)%R).
Proof.
  intros Sl Sh Hlh Hl Hh Sv y. assert (Sx : small x) by (apply (small_between lo hi); assumption).
  destruct (clampPos_in lo hi (fadd x v) (flt_le _ _ _ _ Hlh)) as (Y1 & Y2). fold y in Y1, Y2.
  assert (Sy : small y) by (apply (small_between lo hi); assumption). split; [exact Sy|].
  pose proof B400_pos2 as K2. pose proof B400_1 as K1. pose proof B900_pos as K9.
  destruct Sl as (Fl & Bl). destruct Sh as (Fh & Bh). destruct Sx as (Fx & Bx). destruct Sv as (Fv & Bv).
  destruct (fadd_900 x v 1 ltac:(lia) Fx Fv) as (Fa & _ & Ea).
  { eapply Rle_trans; [apply Rabs_triang|]. lra. }
  destruct (fle_true _ _ _ _ Hl) as (_ & _ & V1). destruct (fle_true _ _ _ _ Hh) as (_ & _ & V2).
  rewrite (fval_fin _ _ lo Fl), (fval_fin _ _ x Fx) in V1. rewrite (fval_fin _ _ hi Fh), (fval_fin _ _ x Fx) in V2.
  assert (D : (0 <= B2R v)%R -> (B2R x <= B2R (fadd x v))%R).
  { intros P. rewrite Ea. apply (rnd_gen' 53 1024 _); [apply generic_format_B2R|lra]. }
  assert (D' : (B2R v <= 0)%R -> (B2R (fadd x v) <= B2R x)%R).
  { intros P. rewrite Ea. apply (rnd_gen 53 1024 _); [apply generic_format_B2R|lra]. }
  unfold y, clampPos, dmin, dmax.
  destruct (flt (fadd x v) hi) eqn:E1.
  - destruct (flt lo (fadd x v)) eqn:E2; [split; assumption|].
    apply flt_false_le in E2; [|apply fin_nonnan; assumption..]. apply fle_true in E2. destruct E2 as (_ & _ & E2).
    rewrite (fval_fin _ _ lo Fl), (fval_fin _ _ _ Fa) in E2. split; intros P; [specialize (D P); lra|lra].
  - apply flt_false_le in E1; [|apply fin_nonnan; assumption..]. apply fle_true in E1. destruct E1 as (_ & _ & E1).
    rewrite (fval_fin _ _ hi Fh), (fval_fin _ _ _ Fa) in E1. rewrite Hlh. split; intros P; [lra|specialize (D' P); lra].
Qed.
