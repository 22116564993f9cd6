(** Proofs about the PSO model. *)
From Coq Require Import List Arith ZArith Bool Lia Reals Lra.
From Flocq Require Import Core BinarySingleNaN.
From Verif Require Import Base Fl FlFacts Rng GlobalProofs Box BoxProofs MOGAProofs3 PSO PSOSpec.
Import ListNotations.
Open Scope Z_scope.

(** * Clamping *)
Lemma clampPos_in lo hi x : fle lo hi = true ->
  fle lo (clampPos lo hi x) = true /\ fle (clampPos lo hi x) hi = true.
Proof.
  intros H. destruct (fle_true _ _ _ _ H) as (Nlo & Nhi & _). unfold clampPos, dmin, dmax.
  destruct (flt x hi) eqn:E1.
  - destruct (flt_true _ _ _ _ E1) as (Nx & _ & _).
    destruct (flt lo x) eqn:E2.
    + split; apply flt_le; assumption.
    + split; [apply fle_refl; exact Nlo|exact H].
  - destruct (flt lo hi) eqn:E2; split; try exact H; apply fle_refl; assumption.
Qed.
Lemma clampPos_nan lo hi x : flt lo hi = true -> is_nan x = true -> clampPos lo hi x = hi.
Proof. intros H N. unfold clampPos, dmin, dmax. rewrite (flt_nan_l _ _ x hi N), H. reflexivity. Qed.
Lemma clampPos_proj lo hi x : flt lo hi = true -> nonnan x ->
  fle lo (clampPos lo hi x) = true /\ fle (clampPos lo hi x) hi = true /\
  (flt lo x = true -> flt x hi = true -> clampPos lo hi x = x) /\
  (fle x lo = true -> clampPos lo hi x = lo) /\ (fle hi x = true -> clampPos lo hi x = hi).
Proof.
  intros H Nx. split; [apply clampPos_in, flt_le, H|]. split; [apply clampPos_in, flt_le, H|].
  unfold clampPos, dmin, dmax. split; [intros A B; rewrite B, A; reflexivity|].
  split; intros A.
  - destruct (flt_true _ _ _ _ H) as (Nl & Nh & Lh). destruct (fle_true _ _ _ _ A) as (_ & _ & Lx).
    assert (flt x hi = true) as -> by (apply flt_iff; [assumption..|lra]).
    rewrite (fle_lt_false _ _ x lo A). reflexivity.
  - rewrite (fle_lt_false _ _ hi x A), H. reflexivity.
Qed.
Lemma opp_le (vm : double) : flt d0 vm = true -> fle (fopp vm) vm = true /\ nonnan vm /\ nonnan (fopp vm).
Proof.
  intros H. destruct (flt_true _ _ _ _ H) as (_ & N & L). change (fval d0) with 0%R in L.
  assert (N' : nonnan (fopp vm)) by (apply fopp_nonnan; exact N).
  split; [|split; assumption]. apply fle_iff; [assumption..|]. rewrite fopp_fval. lra.
Qed.
Lemma clampVel_clampD vm x : clampVel vm x = clampD (fopp vm) vm x.
Proof. reflexivity. Qed.
Lemma clampVel_in vm x : flt d0 vm = true -> nonnan x ->
  fle (fopp vm) (clampVel vm x) = true /\ fle (clampVel vm x) vm = true.
Proof.
  intros H N. rewrite clampVel_clampD.
  destruct (clampD_proj (fopp vm) vm x (proj1 (opp_le vm H)) N) as (A & B & _). auto.
Qed.
Lemma clampVel_cases vm x : flt d0 vm = true ->
  is_nan (clampVel vm x) = true \/ (fle (fopp vm) (clampVel vm x) = true /\ fle (clampVel vm x) vm = true).
Proof.
  intros H. destruct (is_nan x) eqn:E.
  - left. rewrite clampVel_clampD, clampD_nan; assumption.
  - right. apply clampVel_in; assumption.
Qed.

(** * Lists *)
Lemma mapi_length {A B} (f : nat -> A -> B) l : forall k, length (mapi f k l) = length l.
Proof. induction l as [|x l IH]; intros k; cbn; [reflexivity|]. rewrite IH. reflexivity. Qed.
Lemma mapi_nth {A B} (f : nat -> A -> B) l : forall k i,
  nth_error (mapi f k l) i = option_map (f (k + i)%nat) (nth_error l i).
Proof.
  induction l as [|x l IH]; intros k [|i]; cbn; try reflexivity.
  - rewrite Nat.add_0_r. reflexivity.
  - rewrite IH. f_equal. f_equal. lia.
Qed.
Lemma map2_length {A B C} (f : A -> B -> C) a b : length a = length b -> length (map2 f a b) = length a.
Proof. intros H. unfold map2. rewrite map_length, combine_length. lia. Qed.
Lemma map2_nth {A B C} (f : A -> B -> C) a : forall b i x y,
  nth_error a i = Some x -> nth_error b i = Some y -> nth_error (map2 f a b) i = Some (f x y).
Proof.
  unfold map2. induction a as [|x0 a IH]; intros [|y0 b] [|i] x y Hx Hy; cbn in *; try discriminate.
  - congruence.
  - apply IH; assumption.
Qed.
Lemma vel_raw_length w a c n : forall v pb gb x, length v = n -> length pb = n -> length gb = n -> length x = n ->
  length (vel_raw w a c v pb gb x) = n.
Proof.
  induction n as [|n IH]; intros [|v1 v] [|p1 pb] [|g1 gb] [|x1 x] H1 H2 H3 H4; cbn in *; try discriminate; [reflexivity|].
  rewrite IH; congruence.
Qed.
Lemma vel_raw_nth w a c : forall v pb gb x i v1 p1 g1 x1,
  nth_error v i = Some v1 -> nth_error pb i = Some p1 -> nth_error gb i = Some g1 -> nth_error x i = Some x1 ->
  nth_error (vel_raw w a c v pb gb x) i = Some (vel_coef w a c v1 p1 g1 x1).
Proof.
  induction v as [|v0 v IH]; intros [|p0 pb] [|g0 gb] [|x0 x] [|i] v1 p1 g1 x1 H1 H2 H3 H4; cbn in *; try discriminate.
  - congruence.
  - eapply IH; eassumption.
Qed.
Lemma nth_len {A B} (l : list A) (l' : list B) i x : length l = length l' -> nth_error l i = Some x -> exists y, nth_error l' i = Some y.
Proof.
  intros H E. destruct (nth_error l' i) as [y|] eqn:E'; [eauto|]. apply nth_error_None in E'.
  assert (i < length l)%nat by (apply nth_error_Some; congruence). lia.
Qed.

(** * One particle *)
Section M.
Context (opt : pso_option) (b : vbox).
Notation a_of l := (fmul (learnFactorP opt) l).
Notation c_of l := (fmul (learnFactorG opt) l).
Lemma move_inv gb lp lg x y : move_particle opt b gb lp lg x = Ok y ->
  let n := length (velocity x) in
  length (position (pBest x)) = n /\ length (position gb) = n /\ length (position (here x)) = n /\
  length (velocity y) = n /\ length (position (here y)) = n /\
  pBest y = pBest x /\ fitness (here y) = fitness (here x) /\
  forall i v pb g p, nth_error (velocity x) i = Some v -> nth_error (position (pBest x)) i = Some pb ->
    nth_error (position gb) i = Some g -> nth_error (position (here x)) i = Some p ->
    let v' := clampVel (v_max b i) (vel_coef (inertiaFactor opt) (a_of lp) (c_of lg) v pb g p) in
    nth_error (velocity y) i = Some v' /\
    nth_error (position (here y)) i = Some (clampPos (v_lo b i) (v_hi b i) (fadd p v')).
Proof.
  intros H n. unfold move_particle in H.
  destruct ((length (position (pBest x)) =? length (velocity x))%nat) eqn:E1; cbn [andb] in H; [|discriminate].
  destruct ((length (position gb) =? length (velocity x))%nat) eqn:E2; cbn [andb] in H; [|discriminate].
  destruct ((length (position (here x)) =? length (velocity x))%nat) eqn:E3; [|discriminate].
  apply Nat.eqb_eq in E1, E2, E3. fold n in E1, E2, E3.
  set (raw := vel_raw _ _ _ _ _ _ _) in H.
  assert (Lr : length raw = n) by (apply vel_raw_length; auto).
  assert (Lv : length (constrainVel b raw) = n) by (unfold constrainVel; rewrite mapi_length; exact Lr).
  unfold vop in H. rewrite Lv, E3, Nat.eqb_refl in H. cbn [bind] in H.
  assert (Y : y = mkParticle (mkPoint (constrainPos b (map2 (fun x d => fadd x d) (position (here x)) (constrainVel b raw)))
                                (fitness (here x))) (constrainVel b raw) (pBest x)) by congruence.
  clear H. subst y. cbn [velocity here position pBest fitness].
  split; [exact E1|]. split; [exact E2|]. split; [exact E3|]. split; [exact Lv|].
  split; [unfold constrainPos; rewrite mapi_length, map2_length; congruence|].
  split; [reflexivity|]. split; [reflexivity|].
  intros i v pb g p Hv Hpb Hg Hp. cbv zeta.
  assert (V : nth_error (constrainVel b raw) i = Some (clampVel (v_max b i) (vel_coef (inertiaFactor opt) (a_of lp) (c_of lg) v pb g p))).
  { unfold constrainVel. rewrite mapi_nth. unfold raw. rewrite (vel_raw_nth _ _ _ _ _ _ _ i v pb g p Hv Hpb Hg Hp). reflexivity. }
  split; [exact V|]. unfold constrainPos. rewrite mapi_nth.
  rewrite (map2_nth _ _ _ i p _ Hp V). reflexivity.
Qed.
Lemma move_total gb lp lg x : length (position (pBest x)) = length (velocity x) ->
  length (position gb) = length (velocity x) -> length (position (here x)) = length (velocity x) ->
  exists y, move_particle opt b gb lp lg x = Ok y.
Proof.
  intros E1 E2 E3. unfold move_particle. rewrite E1, E2, E3, Nat.eqb_refl. cbn [andb].
  unfold vop. unfold constrainVel. rewrite mapi_length.
  rewrite (vel_raw_length _ _ _ (length (velocity x))) by auto. rewrite E3, Nat.eqb_refl. cbn [bind]. eauto.
Qed.
(** positions end up inside whatever the velocity is *)
Lemma move_pos gb lp lg x y : vproper b -> move_particle opt b gb lp lg x = Ok y ->
  Z.of_nat (length (velocity x)) = v_dim b ->
  pos_in b (position (here y)) /\ vel_in_or_nan b (velocity y).
Proof.
  intros (Hd & Hb) H HL. pose proof (move_inv _ _ _ _ _ H) as (L1 & L2 & L3 & L4 & L5 & _ & _ & Q).
  assert (K : forall i, (i < length (velocity x))%nat ->
     exists v', nth_error (velocity y) i = Some (clampVel (v_max b i) v') /\
       nth_error (position (here y)) i = Some (clampPos (v_lo b i) (v_hi b i)
          (fadd (nth i (position (here x)) d0) (clampVel (v_max b i) v')))).
  { intros i Hi. destruct (nth_error (velocity x) i) as [v|] eqn:Ev; [|apply nth_error_None in Ev; lia].
    destruct (nth_len _ (position (pBest x)) i v (eq_sym L1) Ev) as (pb & Epb).
    destruct (nth_len _ (position gb) i v (eq_sym L2) Ev) as (g & Eg).
    destruct (nth_len _ (position (here x)) i v (eq_sym L3) Ev) as (p & Ep).
    destruct (Q i v pb g p Ev Epb Eg Ep) as (A & B). rewrite (nth_error_nth _ _ d0 Ep). eauto. }
  split; (split; [lia|]); intros i z E.
  - assert (Hi : (i < length (velocity x))%nat) by (rewrite <- L5; apply nth_error_Some; congruence).
    destruct (K i Hi) as (v' & _ & E'). rewrite E' in E. inversion E; subst z.
    destruct (Hb i ltac:(lia)) as (_ & _ & L & _). apply clampPos_in, flt_le, L.
  - assert (Hi : (i < length (velocity x))%nat) by (rewrite <- L4; apply nth_error_Some; congruence).
    destruct (K i Hi) as (v' & E' & _). rewrite E' in E. inversion E; subst z.
    apply clampVel_cases. apply (Hb i). lia.
Qed.
End M.

(** * Histories *)
Section H.
Context (R : rng_ops) (greater : bool) (opt : pso_option) (b : vbox).
Context (iFun : G R -> (list double * list double) * G R) (fFun : list double -> double).
Notation hist := (history R greater opt b iFun fFun).
Notation swarm' := (swarm (G R)).

Lemma move_all_inv gb ps : forall g r, move_all R opt b gb ps g = Ok r ->
  Forall2 (fun x y => exists g0 g1, move_particle opt b gb (fst (rand01 R g0)) (fst (rand01 R g1)) x = Ok y) ps (fst r).
Proof.
  induction ps as [|x ps IH]; intros g r H; cbn [move_all] in H.
  - inversion H; subst. constructor.
  - destruct (rand01 R g) as [lp g1] eqn:E1. destruct (rand01 R g1) as [lg g2] eqn:E2.
    apply bind_Ok in H. destruct H as (y & Hy & H). apply bind_Ok in H. destruct H as (r' & Hr & H).
    inversion H; subst r. cbn [fst]. constructor; [|apply (IH g2); exact Hr].
    exists g, g1. rewrite E1, E2. exact Hy.
Qed.
Lemma updatePopulation_inv (s s' : swarm') : updatePopulation R opt b s = Ok s' ->
  gBest s' = gBest s /\ p_fails s' = p_fails s /\
  Forall2 (fun x y => exists g0 g1, move_particle opt b (gBest s) (fst (rand01 R g0)) (fst (rand01 R g1)) x = Ok y)
    (particles s) (particles s').
Proof.
  intros H. unfold updatePopulation in H. apply bind_Ok in H. destruct H as (r & Hr & H). inversion H; subst s'.
  cbn. split; [reflexivity|]. split; [reflexivity|]. apply (move_all_inv _ _ _ _ Hr).
Qed.
Lemma updatePGBest_inv (s s' : swarm') : updatePGBest R greater s = Ok s' ->
  particles s' = map (update_pBest greater) (particles s) /\ particles s <> [].
Proof.
  unfold updatePGBest. destruct (particles s) as [|x ps]; [discriminate|]. intros H.
  split; [|discriminate]. destruct (better _ _ _) in H; inversion H; reflexivity.
Qed.
Lemma round_particles (s s' : swarm') : updatePGBest R greater (computeAll R fFun s) = Ok s' ->
  particles s' = map (fun x => update_pBest greater (evaluate fFun x)) (particles s) /\ particles s <> [].
Proof.
  intros H. apply updatePGBest_inv in H. cbn [computeAll particles] in H. destruct H as (H & N).
  rewrite map_map in H. split; [exact H|]. intros C. apply N. rewrite C. reflexivity.
Qed.
Lemma ub_pos x : position (here (update_pBest greater (evaluate fFun x))) = position (here x).
Proof. unfold update_pBest. destruct (better _ _ _); reflexivity. Qed.
Lemma ub_vel x : velocity (update_pBest greater (evaluate fFun x)) = velocity x.
Proof. unfold update_pBest. destruct (better _ _ _); reflexivity. Qed.
Lemma ub_fit x : fitness (here (update_pBest greater (evaluate fFun x))) = fFun (position (here x)).
Proof. unfold update_pBest. destruct (better _ _ _); reflexivity. Qed.
Lemma ub_pBest x : pBest (update_pBest greater (evaluate fFun x)) =
  (if better greater (fFun (position (here x))) (fitness (pBest x))
   then mkPoint (position (here x)) (fFun (position (here x))) else pBest x).
Proof. unfold update_pBest, evaluate. cbn [here pBest fitness]. destruct (better _ _ _); reflexivity. Qed.

(** generic: a predicate on particles kept by every event *)
Lemma init_swarm_P (P : particle -> Prop) :
  (forall g p v g', iFun g = ((p, v), g') -> P (mkParticle (mkPoint p (fFun p)) v (mkPoint p (fFun p)))) ->
  forall n g, Forall P (fst (init_swarm R iFun fFun n g)).
Proof.
  intros H n. induction n as [|n IH]; intros g; cbn; [constructor|].
  destruct (iFun g) as [[p v] g1] eqn:E. pose proof (IH g1) as I. destruct (init_swarm R iFun fFun n g1) as [t g2]. cbn [fst] in *.
  constructor; [eapply H; exact E|exact I].
Qed.
Lemma initializeSwarm_inv g (s : swarm') : initializeSwarm R opt iFun fFun g = Ok s ->
  particles s = fst (init_swarm R iFun fFun (Z.to_nat (p_populationSize opt)) g) /\
  p_fails s = 0 /\ exists x t, particles s = x :: t /\ gBest s = here x.
Proof.
  unfold initializeSwarm. destruct (init_swarm _ _ _ _ _) as [ps g'] eqn:E. destruct ps as [|x t]; [discriminate|].
  intros H. inversion H; subst s. cbn. split; [reflexivity|]. split; [reflexivity|]. eauto.
Qed.
Lemma hist_P (P : particle -> Prop) :
  (forall g p v g', iFun g = ((p, v), g') -> P (mkParticle (mkPoint p (fFun p)) v (mkPoint p (fFun p)))) ->
  (forall x, P x -> P (update_pBest greater (evaluate fFun x))) ->
  (forall h s, hist h s -> Forall P (particles s) -> forall x y g0 g1, In x (particles s) -> P x ->
     move_particle opt b (gBest s) (fst (rand01 R g0)) (fst (rand01 R g1)) x = Ok y -> P y) ->
  forall h s, hist h s -> Forall P (particles s).
Proof.
  intros H1 H2 H3 h s H. induction H as [g s H|h s s' Hh IH H|h s s' Hh IH H|h s Hh IH].
  - destruct (initializeSwarm_inv _ _ H) as (E & _). rewrite E. apply init_swarm_P. exact H1.
  - destruct (round_particles _ _ H) as (E & _). rewrite E. apply Forall_map. eapply Forall_impl; [|exact IH]. intros x. apply H2.
  - destruct (updatePopulation_inv _ _ H) as (_ & _ & F).
    assert (K : forall x y g0 g1, In x (particles s) -> P x ->
      move_particle opt b (gBest s) (fst (rand01 R g0)) (fst (rand01 R g1)) x = Ok y -> P y) by exact (H3 h s Hh IH).
    clear H H3 Hh. revert IH K. induction F as [|x y ps ps' (g0 & g1 & Hm) F IHF]; intros IH K; constructor.
    + eapply K; [left; reflexivity|inversion IH; assumption|exact Hm].
    + apply IHF; [inversion IH; assumption|]. intros u v ga gb Hi. apply K. right. exact Hi.
  - exact IH.
Qed.
End H.
