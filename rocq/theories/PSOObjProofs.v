(** Proofs about PSO objects. *)
From Coq Require Import List Arith ZArith Reals Bool Lia Lra.
From Flocq Require Import Core BinarySingleNaN.
From Verif Require Import Base Fl Rng Box PSO PSOSpec PSOProofs PSOProofs2 PSOProofs3 PSOObj PSOObjSpec.
Import ListNotations.
Open Scope Z_scope.

Lemma written_iff f n : written f n = true <-> known_upto f n.
Proof.
  unfold written, known_upto. rewrite forallb_forall. split; intros H i Hi.
  - specialize (H i ltac:(apply in_seq; lia)). destruct (f i); [discriminate|discriminate H].
  - apply in_seq in Hi. specialize (H i ltac:(lia)). destruct (f i); [reflexivity|contradiction].
Qed.
Lemma width_le x ps : In x ps -> (length (velocity x) <= width ps)%nat.
Proof.
  induction ps as [|y ps IH]; [intros []|]. intros [->|H]; unfold width in *; cbn [map fold_right]; [lia|]. specialize (IH H). lia.
Qed.
Lemma width_in ps : ps <> [] -> exists x, In x ps /\ length (velocity x) = width ps.
Proof.
  induction ps as [|y ps IH]; [congruence|]. intros _. destruct ps as [|z ps].
  - exists y. split; [left; reflexivity|]. cbn. lia.
  - destruct IH as (x & Hx & E); [discriminate|].
    destruct (Nat.le_gt_cases (width (z :: ps)) (length (velocity y))) as [L|L].
    + exists y. split; [left; reflexivity|]. unfold width in *. cbn [map fold_right] in *. lia.
    + exists x. split; [right; exact Hx|]. unfold width in *. cbn [map fold_right] in *. lia.
Qed.

Section P.
Context (R : rng_ops).
Notation swarm' := (swarm (G R)).

(** ** One size for the whole swarm *)
Definition sized (n : nat) (x : particle) : Prop :=
  length (position (here x)) = n /\ length (velocity x) = n /\ length (position (pBest x)) = n.
Definition uniform (n : nat) (s : swarm') : Prop :=
  Forall (sized n) (particles s) /\ length (position (gBest s)) = n /\ particles s <> [].

Lemma sized_update n greater f x : sized n x -> sized n (update_pBest greater (evaluate f x)).
Proof.
  intros (a & b & c). unfold sized. rewrite ub_pos, ub_vel, ub_pBest. split; [exact a|]. split; [exact b|].
  destruct (better _ _ _); [exact a|exact c].
Qed.
Lemma uniform_init opt iFun f g s n : (forall g, length (fst (fst (iFun g))) = n /\ length (snd (fst (iFun g))) = n) ->
  initializeSwarm R opt iFun f g = Ok s -> uniform n s.
Proof.
  intros Hn H. destruct (initializeSwarm_inv _ _ _ _ _ _ H) as (E & _ & x & t & Ep & Eg).
  assert (P : Forall (sized n) (particles s)).
  { rewrite E. apply init_swarm_P. intros g0 p v g' Ei. specialize (Hn g0). rewrite Ei in Hn. cbn in Hn.
    destruct Hn. split; [|split]; assumption. }
  split; [exact P|]. split; [|congruence]. rewrite Eg. rewrite Ep in P. apply (Forall_inv P).
Qed.
Lemma uniform_round greater f s s' n : uniform n s -> updatePGBest R greater (computeAll R f s) = Ok s' -> uniform n s'.
Proof.
  intros (u1 & u2 & u3) H. destruct (round_particles _ _ _ _ _ H) as (E & N).
  assert (P : Forall (sized n) (particles s')).
  { rewrite E. apply Forall_map. eapply Forall_impl; [|exact u1]. intros x. apply sized_update. }
  split; [exact P|]. split; [|rewrite E; destruct (particles s); [congruence|discriminate]].
  destruct (gBest_from _ _ _ _ H) as [-> |(x & Hx & ->)]; [exact u2|].
  rewrite Forall_forall in P. apply (P x Hx).
Qed.
Lemma round_exists greater f s n : uniform n s -> exists s', updatePGBest R greater (computeAll R f s) = Ok s'.
Proof.
  intros (_ & _ & u3). unfold updatePGBest. cbn [computeAll particles]. destruct (particles s); [congruence|]. cbn [map]. eauto.
Qed.
Lemma uniform_move opt b s s' n : uniform n s -> updatePopulation R opt b s = Ok s' -> uniform n s'.
Proof.
  intros (u1 & u2 & u3) H. destruct (updatePopulation_inv _ _ _ _ _ H) as (Eg & _ & F).
  split; [|split; [rewrite Eg; exact u2|inversion F; congruence]].
  clear u3 H. induction F as [|x y ps ps' (g0 & g1 & Hm) F IH]; constructor.
  - destruct (Forall_inv u1) as (q1 & q2 & q3). destruct (move_inv _ _ _ _ _ _ _ Hm) as (M1 & M2 & M3 & M4 & M5 & M6 & _).
    unfold sized. rewrite M6. split; [lia|]. split; lia.
  - apply IH. inversion u1; assumption.
Qed.
Lemma move_exists opt b s n : uniform n s -> exists s', updatePopulation R opt b s = Ok s'.
Proof.
  intros (u1 & u2 & _). unfold updatePopulation.
  assert (K : forall ps g, Forall (sized n) ps -> exists r, move_all R opt b (gBest s) ps g = Ok r).
  { induction ps as [|x ps IH]; intros g F; cbn [move_all]; [eauto|]. destruct (Forall_inv F) as (q1 & q2 & q3). pose proof (Forall_inv_tail F) as F'.
    destruct (rand01 R g) as [lp g1]. destruct (rand01 R g1) as [lg g2].
    destruct (move_total opt b (gBest s) lp lg x) as (y & ->); [lia..|]. cbn [bind].
    destruct (IH g2 F') as (r & ->). cbn [bind]. eauto. }
  destruct (K (particles s) (p_rng s) u1) as (r & ->). cbn [bind]. eauto.
Qed.

(** ** The run loop *)
Section Loop.
Context (greater : bool) (opt : pso_option) (b : vbox) (f : list double -> double) (rec_on : bool) (vec_max : Z).
Notation loop := (pso_loop R greater opt b f rec_on).
Lemma loop_returns fuel n : forall s, uniform n (p_swarm s) ->
  0 <= p_maxGeneration opt < two64 - 1 -> 0 <= p_generation s <= p_maxGeneration opt ->
  p_maxGeneration opt - p_generation s < Z.of_nat fuel -> exists s', loop fuel s = Ok s'.
Proof.
  induction fuel as [|m IH]; intros s U HM Hg Hf; [lia|]. cbn [pso_loop].
  destruct (round_exists greater f _ _ U) as (c & Ec). rewrite Ec. cbn [bind]. cbv zeta.
  rewrite (wrap64_small (p_generation s + 1)) by (unfold two64 in *; lia).
  destruct (Z.ltb_spec (p_maxGeneration opt) (p_generation s + 1)) as [L|L]; cbn [orb]; [eauto|].
  destruct (_ && _); [eauto|]. pose proof (uniform_round _ _ _ _ _ U Ec) as U'.
  destruct (move_exists opt b c n U') as (d & Ed). rewrite Ed. cbn [bind].
  apply IH; cbn [p_swarm p_generation]; [eapply uniform_move; eassumption|exact HM|lia|lia].
Qed.
Lemma loop_uniform fuel n : forall s s', uniform n (p_swarm s) -> loop fuel s = Ok s' -> uniform n (p_swarm s').
Proof.
  induction fuel as [|m IH]; intros s s' U H; [discriminate|]. cbn [pso_loop] in H.
  apply bind_Ok in H. destruct H as (c & Ec & H). cbv zeta in H. pose proof (uniform_round _ _ _ _ _ U Ec) as U'.
  destruct (_ || _) in H; [inversion H; subst; exact U'|].
  apply bind_Ok in H. destruct H as (d & Ed & H). eapply IH; [|exact H]. cbn [p_swarm]. eapply uniform_move; eassumption.
Qed.
Lemma run_returns n s : uniform n (p_swarm s) -> 0 <= p_maxGeneration opt < two64 - 1 -> p_maxGeneration opt + 1 <= vec_max ->
  exists s', pso_run R greater opt b f rec_on vec_max (S (Z.to_nat (p_maxGeneration opt))) s = Ok s'.
Proof.
  intros U HM HV. unfold pso_run. rewrite wrap64_small by (unfold two64 in *; lia).
  destruct (Z.ltb_spec vec_max (p_maxGeneration opt + 1)); [lia|]. rewrite andb_false_r.
  apply (loop_returns _ n); cbn [p_swarm p_generation]; [exact U|exact HM|lia|lia].
Qed.
Lemma run_uniform fuel n s s' : uniform n (p_swarm s) -> pso_run R greater opt b f rec_on vec_max fuel s = Ok s' -> uniform n (p_swarm s').
Proof.
  intros U H. unfold pso_run in H. destruct (rec_on && _); [discriminate|].
  eapply loop_uniform; [|exact H]. exact U.
Qed.
Lemma run_nonempty fuel s s' : pso_run R greater opt b f rec_on vec_max fuel s = Ok s' -> particles (p_swarm s) <> [].
Proof.
  intros H. unfold pso_run in H. destruct (rec_on && _); [discriminate|]. destruct fuel as [|m]; [discriminate|].
  cbn [pso_loop] in H. apply bind_Ok in H. destruct H as (c & Ec & _). cbn [p_swarm] in Ec. apply round_particles in Ec. apply Ec.
Qed.
End Loop.

(** ** What has been evaluated *)
Section Ev.
Context (greater : bool) (f : list double -> double).
Notation ev := (evaluated R greater f).
Notation HI' := (HI R greater f).
Lemma evaluated_inv h s : ev h s -> (forall row q, In row h -> In q row -> nonnan (f q)) -> HI' h s.
Proof.
  intros H. induction H as [opt iFun g s H|h s s' Hh IH H|opt b h s s' Hh IH H|h s n g Hh IH]; intros N.
  - apply (history_inv R greater opt (mkVBox 0 (fun _ => d0) (fun _ => d0) (fun _ => d0)) iFun f); [eapply h_init; exact H|exact N].
  - assert (N' : forall row q, In row h -> In q row -> nonnan (f q)) by (intros row q Hr; apply N; right; exact Hr).
    destruct (IH N') as (I1 & I2 & I3 & I4 & I5). clear IH N'.
    destruct (round_particles _ _ _ _ _ H) as (E & _).
    assert (Nnan : forall i q, evald (positions R s :: h) i q -> nonnan (f q)).
    { intros i q (row & Hr & Eq). apply (N row q Hr (nth_error_In _ _ Eq)). }
    assert (K : forall i x, nth_error (particles s') i = Some x ->
       valid f (pBest x) /\ evald (positions R s :: h) i (position (pBest x)) /\
       forall q, evald (positions R s :: h) i q -> (score greater (f q) <= score greater (fitness (pBest x)))%R).
    { intros i y Ey. rewrite E, nth_error_map in Ey. destruct (nth_error (particles s) i) as [x|] eqn:Ex; [|discriminate].
      cbn in Ey. inversion Ey; subst y. rewrite ub_pBest.
      destruct (I1 i x Ex) as (J1 & J2 & J3). set (p := position (here x)).
      assert (Ep : nth_error (positions R s) i = Some p) by (rewrite nth_positions, Ex; reflexivity).
      assert (Np : nonnan (f p)) by (apply (Nnan i), evald_cons; left; exact Ep).
      assert (Nb : nonnan (fitness (pBest x))) by (rewrite J1; apply (Nnan i), evald_cons; right; exact J2).
      destruct (better greater (f p) (fitness (pBest x))) eqn:B; cbn [position fitness].
      - apply better_iff in B; [|assumption..]. split; [reflexivity|]. split; [apply evald_cons; left; exact Ep|].
        intros q Hq. apply evald_cons in Hq. destruct Hq as [Hq|Hq].
        + rewrite Ep in Hq. inversion Hq; subst q. lra.
        + specialize (J3 q Hq). lra.
      - apply better_false in B; [|assumption..]. split; [exact J1|]. split; [apply evald_cons; right; exact J2|].
        intros q Hq. apply evald_cons in Hq. destruct Hq as [Hq|Hq].
        + rewrite Ep in Hq. inversion Hq; subst q. exact B.
        + apply J3. exact Hq. }
    assert (Ng : nonnan (fitness (gBest s))).
    { rewrite I2. destruct I3 as (i & I3). apply (Nnan i), evald_cons. right. exact I3. }
    destruct (updatePGBest_spec R greater _ _ H Ng) as (G1 & G2 & G3 & G4).
    { intros z Hz. cbn [computeAll particles] in Hz. apply in_map_iff in Hz. destruct Hz as (x & <- & Hx).
      apply (In_nth_error _ _) in Hx. destruct Hx as (i & Hx).
      assert (Ey : nth_error (particles s') i = Some (update_pBest greater (evaluate f x))) by (rewrite E, nth_error_map, Hx; reflexivity).
      destruct (K i _ Ey) as (V & W & _). rewrite V. apply (Nnan i). exact W. }
    cbn [computeAll gBest] in G2, G3.
    assert (Ls : length (particles s') = length (particles s)) by (rewrite E; apply map_length).
    split; [exact K|]. split; [|split; [|split]].
    + destruct G3 as [->|(x & Hx & ->)]; [exact I2|]. apply In_nth_error in Hx. destruct Hx as (i & Hx). apply (K i x Hx).
    + destruct G3 as [->|(x & Hx & ->)].
      * destruct I3 as (i & I3). exists i. apply evald_cons. right. exact I3.
      * apply In_nth_error in Hx. destruct Hx as (i & Hx). exists i. apply (K i x Hx).
    + rewrite Ls. intros row [<-|Hr]; [unfold positions; apply map_length|apply I4; exact Hr].
    + intros _ i q Hq. assert (Hi : (i < length (particles s'))%nat).
      { destruct Hq as (row & Hr & Eq). assert (H0 : (i < length row)%nat) by (apply nth_error_Some; congruence).
        rewrite Ls. destruct Hr as [<-|Hr]; [unfold positions in H0; rewrite map_length in H0; exact H0|].
        rewrite <- (I4 row Hr). exact H0. }
      destruct (nth_error (particles s') i) as [x|] eqn:Ex; [|apply nth_error_None in Ex; lia].
      destruct (K i x Ex) as (_ & _ & J). specialize (J q Hq). specialize (G4 x (nth_error_In _ _ Ex)). lra.
  - destruct (IH N) as (I1 & I2 & I3 & I4 & I5). destruct (updatePopulation_inv _ _ _ _ _ H) as (Eg & _ & F).
    assert (L : length (particles s') = length (particles s)) by (symmetry; eapply Forall2_len; exact F).
    assert (B : forall i y, nth_error (particles s') i = Some y -> exists x, nth_error (particles s) i = Some x /\ pBest y = pBest x).
    { clear -F. induction F as [|x y ps ps' (g0 & g1 & Hm) F IHF]; intros [|i] z Hz; cbn in *; try discriminate.
      - inversion Hz; subst z. exists x. split; [reflexivity|]. apply (move_inv _ _ _ _ _ _ _ Hm).
      - apply IHF. exact Hz. }
    split; [|rewrite Eg, L; split; [exact I2|split; [exact I3|split; [exact I4|exact I5]]]].
    intros i y Ey. destruct (B i y Ey) as (x & Ex & ->). apply I1. exact Ex.
  - exact (IH N).
Qed.
Lemma ev_len h s : ev h s -> (1 <= length h)%nat.
Proof. intros H. induction H; cbn; lia. Qed.
Lemma ev_size h s : ev h s -> forall row, In row h -> length row = length (particles s).
Proof.
  intros H. induction H as [opt iFun g s H|h s s' Hh IH H|opt b h s s' Hh IH H|h s n g Hh IH]; intros row Hr.
  - destruct Hr as [<-|[]]. unfold positions. apply map_length.
  - destruct (round_particles _ _ _ _ _ H) as (E & _). rewrite E, map_length.
    destruct Hr as [<-|Hr]; [unfold positions; apply map_length|auto].
  - destruct (updatePopulation_inv _ _ _ _ _ H) as (_ & _ & F). rewrite <- (Forall2_len _ _ _ F). auto.
  - cbn [particles]. auto.
Qed.
Lemma ev_loop opt b rec_on fuel : forall h s s', ev h (p_swarm s) -> pso_loop R greater opt b f rec_on fuel s = Ok s' ->
  exists h', ev (h' ++ h) (p_swarm s') /\ (1 <= length h')%nat.
Proof.
  induction fuel as [|m IH]; intros h s s' E H; [discriminate|]. cbn [pso_loop] in H.
  apply bind_Ok in H. destruct H as (c & Ec & H). cbv zeta in H.
  pose proof (ev_round _ _ _ _ _ _ E Ec) as E'.
  destruct (_ || _) in H.
  - inversion H; subst s'. exists [positions R (p_swarm s)]. split; [exact E'|cbn; lia].
  - apply bind_Ok in H. destruct H as (d & Ed & H).
    pose proof (ev_move _ _ _ opt b _ _ _ E' Ed) as Em.
    match type of H with pso_loop _ _ _ _ _ _ _ ?st = _ => destruct (IH (positions R (p_swarm s) :: h) st s' Em H) as (h' & H1 & H2) end.
    exists (h' ++ [positions R (p_swarm s)]). rewrite <- app_assoc. split; [exact H1|]. rewrite app_length. lia.
Qed.
Lemma ev_run opt b rec_on vec_max fuel h s s' : ev h (p_swarm s) -> pso_run R greater opt b f rec_on vec_max fuel s = Ok s' ->
  exists h', ev (h' ++ h) (p_swarm s') /\ (1 <= length h')%nat.
Proof.
  intros E H. unfold pso_run in H. destruct (rec_on && _); [discriminate|]. eapply ev_loop; [|exact H].
  cbn [p_swarm]. apply ev_other. exact E.
Qed.
End Ev.

(** ** Where the particles are *)
Lemma loop_inbox greater opt b f rec_on fuel : forall s s',
  (forall i, Z.of_nat i < v_dim b -> fle (v_lo b i) (v_hi b i) = true /\ flt d0 (v_max b i) = true) ->
  pso_loop R greater opt b f rec_on fuel s = Ok s' ->
  (forall n, uniform n (p_swarm s) -> Z.of_nat n = v_dim b) -> 
  (exists n, uniform n (p_swarm s)) ->
  (Forall (fun x => pos_in b (position (here x)) /\ vel_in_or_nan b (velocity x)) (particles (p_swarm s)) \/
   (p_generation s = 0 /\ 1 <= p_maxGeneration opt < two64 - 1 /\ p_fails (p_swarm s) = 0)) ->
  Forall (fun x => pos_in b (position (here x)) /\ vel_in_or_nan b (velocity x)) (particles (p_swarm s')).
Proof.
  induction fuel as [|m IH]; intros s s' Hb H Hn (n & U) Q; [discriminate|]. cbn [pso_loop] in H.
  apply bind_Ok in H. destruct H as (c & Ec & H). cbv zeta in H.
  pose proof (uniform_round _ _ _ _ _ U Ec) as U'. specialize (Hn n U).
  destruct (round_particles _ _ _ _ _ Ec) as (Ep & _).
  assert (Qc : Forall (fun x => pos_in b (position (here x)) /\ vel_in_or_nan b (velocity x)) (particles (p_swarm s)) ->
    Forall (fun x => pos_in b (position (here x)) /\ vel_in_or_nan b (velocity x)) (particles c)).
  { intros F. rewrite Ep. apply Forall_map. eapply Forall_impl; [|exact F]. intros x. cbn beta. rewrite ub_pos, ub_vel. auto. }
  destruct (_ || _) eqn:St in H.
  - inversion H; subst s'. cbn [p_swarm]. destruct Q as [Q|(Q1 & Q2 & Q3)]; [exact (Qc Q)|exfalso].
    rewrite Q1, wrap64_small in St by (unfold two64; lia). cbn [Z.add] in St.
    apply orb_true_iff in St. destruct St as [St|St]; [apply Z.ltb_lt in St; lia|].
    apply andb_true_iff in St. destruct St as (S1 & S2). apply Z.ltb_lt in S1, S2.
    assert (F : p_fails c = 0 \/ p_fails c = 1).
    { unfold updatePGBest in Ec. destruct (particles _); [discriminate|]. cbv zeta in Ec.
      destruct (better _ _ _) in Ec; inversion Ec; cbn [p_fails]; [auto|]. right. cbn [computeAll p_fails]. rewrite Q3. reflexivity. }
    lia.
  - apply bind_Ok in H. destruct H as (d & Ed & H).
    pose proof (uniform_move _ _ _ _ _ U' Ed) as Ud.
    eapply IH; [exact Hb|exact H| | |left]; cbn [p_swarm p_generation].
    + intros n' U2. destruct Ud as (u1 & u2 & u3). destruct U2 as (w1 & w2 & w3).
      assert (n' = n) by congruence. lia.
    + eauto.
    + destruct (updatePopulation_inv _ _ _ _ _ Ed) as (Eg & _ & F). destruct U' as (u1 & u2 & _).
      clear -F u1 u2 Hb Hn. induction F as [|x y ps ps' (g0 & g1 & Hm) F IHF]; constructor.
      * destruct (Forall_inv u1) as (q1 & q2 & q3).
        destruct (move_inv _ _ _ _ _ _ _ Hm) as (M1 & M2 & M3 & M4 & M5 & _ & _ & Q).
        assert (G : forall i, (i < n)%nat -> exists v pb g p, nth_error (velocity x) i = Some v /\ nth_error (position (pBest x)) i = Some pb /\
          nth_error (position (gBest c)) i = Some g /\ nth_error (position (here x)) i = Some p).
        { intros i Hi.
          assert (X : forall l : list double, length l = n -> exists z, nth_error l i = Some z).
          { intros l Hl. destruct (nth_error l i) eqn:E; [eauto|]. apply nth_error_None in E. lia. }
          destruct (X (velocity x) q2) as (v & ?). destruct (X (position (pBest x)) q3) as (pb & ?).
          destruct (X (position (gBest c)) u2) as (g & ?). destruct (X (position (here x)) q1) as (p & ?). eauto 10. }
        assert (Lt : forall (l : list double) i z, length l = n -> nth_error l i = Some z -> (i < n)%nat).
        { intros l i z Hl Hz. rewrite <- Hl. apply nth_error_Some. congruence. }
        split; (split; [lia|]); intros i z Hz.
        -- assert (Hi : (i < n)%nat) by (eapply Lt; [|exact Hz]; lia).
           destruct (G i Hi) as (v & pb & g & p & N1 & N2 & N3 & N4). destruct (Q i v pb g p N1 N2 N3 N4) as (_ & Qp).
           rewrite Qp in Hz. inversion Hz. apply clampPos_in. apply Hb. lia.
        -- assert (Hi : (i < n)%nat) by (eapply Lt; [|exact Hz]; lia).
           destruct (G i Hi) as (v & pb & g & p & N1 & N2 & N3 & N4). destruct (Q i v pb g p N1 N2 N3 N4) as (Qv & _).
           rewrite Qv in Hz. inversion Hz. apply clampVel_cases. apply Hb. lia.
      * apply IHF. inversion u1; assumption.
Qed.
End P.

(** ** Objects *)
Section Obj.
Context {A : Type} (R : rng_ops) (k : kind) (greater rec_on : bool) (vec_max : Z).
Notation obj' := (@obj A R).
Notation step' := (@step A R k greater rec_on vec_max).
Notation drive' := (@drive A R k greater rec_on vec_max).
Notation lawful' := (@lawful A R k vec_max).
Notation history' := (@lawful_history A R k greater rec_on vec_max).

Definition swarm_of (o : obj') : swarm (G R) := p_swarm (o_pso R o).
Definition oinv (o : obj') : Prop := o_inited R o = true -> exists n, uniform R n (swarm_of o).

(** How each call changes the swarm. *)
Lemma step_swarm (o o' : obj') c : step' o c = Ok o' ->
  match c with
  | InitializePop _ => exists opt i f, o_f R o = Some f /\ opt = o_opt R o /\
      initializeSwarm R opt i (f (o_args R o)) (p_rng (swarm_of o)) = Ok (swarm_of o') /\ p_generation (o_pso R o') = 0 /\
      o_inited R o' = true /\ o_f R o' = o_f R o /\ o_args R o' = o_args R o /\ o_opt R o' = o_opt R o /\ o_mem R o' = o_mem R o /\
      match o_i R o with
      | IDefault _ => exists n, dims k (o_mem R o) = Ok n /\ i = defaultInitialize R (box_of (o_mem R o) n)
      | IFixed _ j | IPointer _ (IUser _ j) => i = j (o_args R o)
      | _ => False end
  | Run _ => exists f n, o_f R o = Some f /\ n = width (particles (swarm_of o)) /\
      pso_run R greater (o_opt R o) (box_of (o_mem R o) (Z.of_nat n)) (f (o_args R o)) rec_on vec_max
        (S (Z.to_nat (p_maxGeneration (o_opt R o)))) (o_pso R o) = Ok (o_pso R o') /\
      o_inited R o' = true /\ o_f R o' = o_f R o /\ o_args R o' = o_args R o /\ o_opt R o' = o_opt R o /\ o_mem R o' = o_mem R o
  | _ => particles (swarm_of o') = particles (swarm_of o) /\ gBest (swarm_of o') = gBest (swarm_of o) /\ o_inited R o' = o_inited R o /\
         (exists g, swarm_of o' = mkSwarm (particles (swarm_of o)) (gBest (swarm_of o)) (p_fails (swarm_of o)) g)
  end.
Proof.
  intros H. assert (E : swarm_of o = mkSwarm (particles (swarm_of o)) (gBest (swarm_of o)) (p_fails (swarm_of o)) (p_rng (swarm_of o))) by (destruct (swarm_of o); reflexivity).
  destruct c as [b|p|p|f|a|g| |]; cbn [step] in H.
  - apply bind_Ok in H. destruct H as (m & _ & H). inversion H; subst o'. unfold swarm_of in *. cbn [o_pso o_inited]. repeat (split; [reflexivity|]). eauto.
  - inversion H; subst o'. unfold swarm_of in *. cbn [o_pso o_inited]. repeat (split; [reflexivity|]). eauto.
  - inversion H; subst o'. unfold swarm_of in *. cbn [o_pso o_inited]. repeat (split; [reflexivity|]). eauto.
  - inversion H; subst o'. unfold swarm_of in *. cbn [o_pso o_inited]. repeat (split; [reflexivity|]). eauto.
  - inversion H; subst o'. unfold swarm_of in *. cbn [o_pso o_inited]. repeat (split; [reflexivity|]). eauto.
  - inversion H; subst o'. unfold swarm_of in *. cbn [o_pso o_inited p_swarm particles gBest]. repeat (split; [reflexivity|]). eauto.
  - unfold do_init in H. cbv zeta in H. destruct (_ =? 0); [discriminate|].
    assert (K : forall i, match o_f R o with
        | Some f => do s <- pso_initializePop R (o_opt R o) i (f (o_args R o)) (o_pso R o);
                    Ok (mkObj R (o_opt R o) (o_mem R o) (o_i R o) (o_f R o) (o_args R o) s true)
        | None => UB end = Ok o' ->
        exists f, o_f R o = Some f /\ initializeSwarm R (o_opt R o) i (f (o_args R o)) (p_rng (swarm_of o)) = Ok (swarm_of o') /\ p_generation (o_pso R o') = 0 /\
          o_inited R o' = true /\ o_f R o' = o_f R o /\ o_args R o' = o_args R o /\ o_opt R o' = o_opt R o /\ o_mem R o' = o_mem R o).
    { intros i X. destruct (o_f R o) as [f|]; [|discriminate]. exists f. split; [reflexivity|].
      apply bind_Ok in X. destruct X as (s & Hs & X). unfold pso_initializePop in Hs. apply bind_Ok in Hs. destruct Hs as (c & Hc & Hs).
      inversion Hs; subst s. inversion X; subst o'. unfold swarm_of in *. cbn. repeat split; assumption. }
    destruct (o_i R o) as [|i|[| |i]] eqn:Ei; try discriminate.
    + apply bind_Ok in H. destruct H as (n & D & H). destruct (_ && _); [|discriminate].
      destruct (K _ H) as (f & K1 & K2 & K3 & K4 & K5 & K6 & K7 & K8). exists (o_opt R o), (defaultInitialize R (box_of (o_mem R o) n)), f. repeat (split; [assumption || reflexivity|]). eauto.
    + destruct (K _ H) as (f & K1 & K2 & K3 & K4 & K5 & K6 & K7 & K8). exists (o_opt R o), (i (o_args R o)), f. repeat (split; [assumption || reflexivity|]). reflexivity.
    + destruct (K _ H) as (f & K1 & K2 & K3 & K4 & K5 & K6 & K7 & K8). exists (o_opt R o), (i (o_args R o)), f. repeat (split; [assumption || reflexivity|]). reflexivity.
  - unfold do_run in H. cbv zeta in H. destruct (o_f R o) as [f|]; [|discriminate]. destruct (_ || _); [|discriminate].
    apply bind_Ok in H. destruct H as (s & Hs & H). inversion H; subst o'. exists f, (width (particles (swarm_of o))).
    split; [reflexivity|]. split; [reflexivity|]. split; [exact Hs|]. cbn. repeat split.
Qed.

Lemma init_pos_length b n : forall j g, length (fst (init_pos R b n j g)) = n.
Proof.
  induction n as [|n IH]; intros j g; cbn [init_pos]; [reflexivity|].
  destruct (randD_range R _ _ g) as [x g1]. specialize (IH (S j) g1). destruct (init_pos R b n (S j) g1) as [t g2]. cbn [fst length] in *. lia.
Qed.
Lemma default_length b g : length (fst (fst (defaultInitialize R b g))) = Z.to_nat (v_dim b) /\ length (snd (fst (defaultInitialize R b g))) = Z.to_nat (v_dim b).
Proof.
  unfold defaultInitialize. pose proof (init_pos_length b (Z.to_nat (v_dim b)) 0 g) as L. destruct (init_pos _ _ _ _ _) as [p g']. cbn [fst snd] in *.
  split; [exact L|apply repeat_length].
Qed.

Lemma step_oinv (o o' : obj') c : oinv o -> lawful' o c -> step' o c = Ok o' -> oinv o'.
Proof.
  intros I L H. pose proof (step_swarm _ _ _ H) as K.
  assert (Same : particles (swarm_of o') = particles (swarm_of o) -> gBest (swarm_of o') = gBest (swarm_of o) -> o_inited R o' = o_inited R o -> oinv o').
  { intros E1 E2 E3 Hi. rewrite E3 in Hi. destruct (I Hi) as (n & U). exists n. unfold uniform in *. rewrite E1, E2. exact U. }
  destruct c as [b|p|p|f|a|g| |]; try (destruct K as (K1 & K2 & K3 & _); apply Same; assumption).
  - intros _. destruct K as (opt & i & f & _ & _ & Hs & _ & _ & _ & _ & _ & _ & Hi). cbn [lawful] in L. destruct L as (_ & _ & L).
    destruct (o_i R o) as [|j|[| |j]]; try contradiction.
    + destruct Hi as (n & _ & ->). exists (Z.to_nat n). eapply uniform_init; [|exact Hs]. intros g. apply (default_length (box_of (o_mem R o) n)).
    + destruct L as (n & L). exists n. subst i. eapply uniform_init; [|exact Hs]. exact L.
    + destruct L as (n & L). exists n. subst i. eapply uniform_init; [|exact Hs]. exact L.
  - intros _. destruct K as (f & n & _ & _ & Hr & _). destruct L as (Hi & _). destruct (I Hi) as (m & U). exists m. eapply run_uniform; [exact U|exact Hr].
Qed.
Lemma step_returns (o : obj') c : oinv o -> lawful' o c -> exists o', step' o c = Ok o'.
Proof.
  intros I L. destruct c as [b|p|p|f|a|g| |]; cbn [step]; cbn [lawful] in L; try (eexists; reflexivity).
  - assert (K : (exists m, apply_box (o_mem R o) b = Ok m) \/ apply_box (o_mem R o) b = Abort).
    { destruct b; cbn [apply_box]; repeat match goal with |- context [if ?x then _ else _] => destruct x end; eauto. }
    destruct K as [(m & ->)|K]; [|contradiction]. cbn [bind]. eauto.
  - destruct L as (Lp & Lf & L). unfold do_init. cbv zeta. destruct (Z.eqb_spec (p_populationSize (o_opt R o)) 0); [lia|].
    destruct (o_f R o) as [f|]; [|contradiction].
    assert (K : forall i, exists s, pso_initializePop R (o_opt R o) i (f (o_args R o)) (o_pso R o) = Ok s).
    { intros i. unfold pso_initializePop, initializeSwarm.
      destruct (Z.to_nat (p_populationSize (o_opt R o))) as [|m] eqn:Em; [lia|]. cbn [init_swarm].
      destruct (i _) as [[p v] g1]. destruct (init_swarm _ _ _ m g1) as [t g2]. cbn [bind]. eauto. }
    destruct (o_i R o) as [|j|[| |j]]; try contradiction.
    + destruct L as (m & D & L1 & L2). rewrite D. cbn [bind]. apply written_iff in L1, L2. rewrite L1, L2. cbn [andb].
      destruct (K (defaultInitialize R (box_of (o_mem R o) m))) as (s & ->). cbn [bind]. eauto.
    + destruct (K (j (o_args R o))) as (s & ->). cbn [bind]. eauto.
    + destruct (K (j (o_args R o))) as (s & ->). cbn [bind]. eauto.
  - destruct L as (Hi & Lf & Lg & Lv & Lb). destruct (I Hi) as (n & U). unfold do_run. cbv zeta.
    destruct (o_f R o) as [f|]; [|contradiction].
    assert (W : (p_maxGeneration (o_opt R o) =? 0) || (written (m_lo (o_mem R o)) (width (particles (swarm_of o))) &&
       written (m_hi (o_mem R o)) (width (particles (swarm_of o))) && written (m_vm (o_mem R o)) (width (particles (swarm_of o)))) = true).
    { destruct (Z.eqb_spec (p_maxGeneration (o_opt R o)) 0) as [|N]; [reflexivity|]. cbn [orb].
      destruct (width_in (particles (swarm_of o)) (proj2 (proj2 U))) as (x & Hx & <-).
      destruct (Lb ltac:(lia) x Hx) as (B1 & B2 & B3). apply written_iff in B1, B2, B3. rewrite B1, B2, B3. reflexivity. }
    unfold swarm_of in W. rewrite W.
    destruct (run_returns R greater (o_opt R o) (box_of (o_mem R o) (Z.of_nat (width (particles (p_swarm (o_pso R o)))))) (f (o_args R o)) rec_on vec_max n (o_pso R o) U Lg Lv) as (s & ->).
    cbn [bind]. eauto.
Qed.
Lemma history_returns h : forall (o : obj'), oinv o -> history' o h -> exists o', drive' o h = Ok o' /\ oinv o'.
Proof.
  induction h as [|c h IH]; intros o I L; cbn [drive]; [eauto|]. destruct L as (L1 & L2).
  destruct (step_returns o c I L1) as (o1 & E). rewrite E. cbn [bind]. apply IH; [eapply step_oinv; eassumption|apply L2; exact E].
Qed.
Lemma drive_app (h1 h2 : list (@call A R)) : forall o, drive' o (h1 ++ h2) = do o1 <- drive' o h1; drive' o1 h2.
Proof. induction h1 as [|c h1 IH]; intros o; cbn [app drive bind]; [reflexivity|]. destruct (step' o c); cbn [bind]; auto. Qed.
Lemma history_app h1 h2 : forall o, history' o (h1 ++ h2) -> history' o h1 /\ forall o1, drive' o h1 = Ok o1 -> history' o1 h2.
Proof.
  induction h1 as [|c h1 IH]; intros o L; cbn [app] in L; [split; [exact Logic.I|]; intros o1 E; inversion E; subst; exact L|].
  destruct L as (L1 & L2). split.
  - split; [exact L1|]. intros o' E. apply (IH o' (L2 o' E)).
  - intros o1 E. cbn [drive] in E. apply bind_Ok in E. destruct E as (o' & E1 & E2). apply (proj2 (IH o' (L2 o' E1)) o1 E2).
Qed.
End Obj.
