(** PSO: best points over histories; the run loop. *)
From Coq Require Import List Arith ZArith Bool Lia Reals Lra.
From Flocq Require Import Core BinarySingleNaN.
From Verif Require Import Base Fl FlFacts Rng Box PSO PSOSpec PSOProofs.
Import ListNotations.
Open Scope Z_scope.

Definition score (greater : bool) (x : double) : R := if greater then fval x else (- fval x)%R.
Lemma better_iff g x y : nonnan x -> nonnan y -> (better g x y = true <-> (score g y < score g x)%R).
Proof.
  intros Nx Ny. unfold better, score. destruct g.
  - apply flt_iff; assumption.
  - rewrite flt_iff by assumption. split; lra.
Qed.
Lemma better_false g x y : nonnan x -> nonnan y -> (better g x y = false <-> (score g x <= score g y)%R).
Proof.
  intros Nx Ny. pose proof (better_iff g x y Nx Ny) as B. split; intros H.
  - apply Rnot_lt_le. intros C. apply B in C. congruence.
  - destruct (better g x y); [|reflexivity]. assert (score g y < score g x)%R by (apply B; reflexivity). lra.
Qed.
Lemma better_irrefl g x : better g x x = false.
Proof. unfold better. destruct g; apply flt_irrefl. Qed.

Section H.
Context (R : rng_ops) (greater : bool) (opt : pso_option) (b : vbox).
Context (iFun : G R -> (list double * list double) * G R) (fFun : list double -> double).
Notation hist := (history R greater opt b iFun fFun).
Notation swarm' := (swarm (G R)).
Notation bet := (better greater).
Notation sc := (score greater).

Lemma scan_spec ps : forall cur, nonnan (fitness cur) ->
  (forall x, In x ps -> nonnan (fitness (pBest (update_pBest greater x)))) ->
  let r := scan_best greater cur ps in
  (r = cur \/ exists x, In x ps /\ r = pBest (update_pBest greater x)) /\
  nonnan (fitness r) /\ (sc (fitness cur) <= sc (fitness r))%R /\
  forall x, In x ps -> (sc (fitness (pBest (update_pBest greater x))) <= sc (fitness r))%R.
Proof.
  induction ps as [|x ps IH]; intros cur Nc N; cbn [scan_best].
  - split; [auto|]. split; [exact Nc|]. split; [lra|]. intros x [].
  - set (pb := pBest (update_pBest greater x)).
    assert (Npb : nonnan (fitness pb)) by (apply N; left; reflexivity).
    set (cur' := if bet (fitness pb) (fitness cur) then pb else cur).
    assert (C : nonnan (fitness cur') /\ (sc (fitness cur) <= sc (fitness cur'))%R /\ (sc (fitness pb) <= sc (fitness cur'))%R
                /\ (cur' = cur \/ cur' = pb)).
    { unfold cur'. destruct (bet (fitness pb) (fitness cur)) eqn:E.
      - apply better_iff in E; [|assumption..]. split; [exact Npb|]. split; [lra|]. split; [lra|]. auto.
      - apply better_false in E; [|assumption..]. split; [exact Nc|]. split; [lra|]. split; [lra|]. auto. }
    destruct C as (Nc' & C1 & C2 & C3).
    destruct (IH cur' Nc' (fun y Hy => N y (or_intror Hy))) as (I1 & I2 & I3 & I4). cbv zeta.
    split.
    { destruct I1 as [->|(y & Hy & ->)].
      - destruct C3 as [->| ->]; [left; reflexivity|]. right. exists x. split; [left; reflexivity|reflexivity].
      - right. exists y. split; [right; exact Hy|reflexivity]. }
    split; [exact I2|]. split; [lra|]. intros y [<-|Hy]; [fold pb; lra|apply I4; exact Hy].
Qed.

Lemma updatePGBest_spec (s s' : swarm') : updatePGBest R greater s = Ok s' ->
  nonnan (fitness (gBest s)) -> (forall x, In x (particles s) -> nonnan (fitness (pBest (update_pBest greater x)))) ->
  nonnan (fitness (gBest s')) /\ (sc (fitness (gBest s)) <= sc (fitness (gBest s')))%R /\
  (gBest s' = gBest s \/ exists x, In x (particles s') /\ gBest s' = pBest x) /\
  (forall x, In x (particles s') -> (sc (fitness (pBest x)) <= sc (fitness (gBest s')))%R).
Proof.
  intros H Ng N. destruct (updatePGBest_inv _ _ _ _ H) as (E & Ne). unfold updatePGBest in H.
  destruct (particles s) as [|x ps] eqn:Ep; [congruence|]. clear Ne. rewrite <- Ep in H.
  assert (N0 : nonnan (fitness (pBest (update_pBest greater x)))) by (apply N; left; reflexivity).
  rewrite <- Ep in N, E. destruct (scan_spec (particles s) _ N0 N) as (S1 & S2 & S3 & S4).
  set (cur := scan_best greater (pBest (update_pBest greater x)) (particles s)) in *.
  assert (S1' : exists y, In y (particles s') /\ cur = pBest y).
  { rewrite E. destruct S1 as [S1|(y & Hy & S1)]; rewrite S1.
    - exists (update_pBest greater x). split; [|reflexivity]. apply in_map. rewrite Ep. left. reflexivity.
    - exists (update_pBest greater y). split; [|reflexivity]. apply in_map. exact Hy. }
  assert (S4' : forall y, In y (particles s') -> (sc (fitness (pBest y)) <= sc (fitness cur))%R).
  { intros y Hy. rewrite E in Hy. apply in_map_iff in Hy. destruct Hy as (z & <- & Hz). apply S4. exact Hz. }
  destruct (bet (fitness cur) (fitness (gBest s))) eqn:B.
  - assert (Eg : gBest s' = cur) by (inversion H; reflexivity). rewrite Eg. apply better_iff in B; [|assumption..].
    split; [exact S2|]. split; [lra|]. split; [right; exact S1'|exact S4'].
  - assert (Eg : gBest s' = gBest s) by (inversion H; reflexivity). rewrite Eg. apply better_false in B; [|assumption..].
    split; [exact Ng|]. split; [lra|]. split; [left; reflexivity|]. intros y Hy. specialize (S4' y Hy). lra.
Qed.

(** ** The history invariant *)
Definition evald (h : list (list (list double))) (i : nat) (q : list double) : Prop :=
  exists row, In row h /\ nth_error row i = Some q.
Definition valid (pt : point) : Prop := fitness pt = fFun (position pt).
Definition HI (h : list (list (list double))) (s : swarm') : Prop :=
  (forall i x, nth_error (particles s) i = Some x ->
     valid (pBest x) /\ evald h i (position (pBest x)) /\
     forall q, evald h i q -> (sc (fFun q) <= sc (fitness (pBest x)))%R) /\
  valid (gBest s) /\ (exists i, evald h i (position (gBest s))) /\
  (forall row, In row h -> length row = length (particles s)) /\
  ((2 <= length h)%nat -> forall i q, evald h i q -> (sc (fFun q) <= sc (fitness (gBest s)))%R).

Lemma nth_positions (s : swarm') i : nth_error (positions R s) i = option_map (fun x => position (here x)) (nth_error (particles s) i).
Proof. unfold positions. apply nth_error_map. Qed.
Lemma evald_cons row h i q : evald (row :: h) i q <-> nth_error row i = Some q \/ evald h i q.
Proof.
  unfold evald. split.
  - intros (r & [<-|Hr] & E); [left; exact E|right; eauto].
  - intros [E|(r & Hr & E)]; [exists row; split; [left; reflexivity|exact E]|exists r; split; [right; exact Hr|exact E]].
Qed.

Lemma history_inv h s : hist h s -> (forall row q, In row h -> In q row -> nonnan (fFun q)) -> HI h s.
Proof.
  intros H. induction H as [g s H|h s s' Hh IH H|h s s' Hh IH H|h s Hh IH]; intros N.
  - destruct (initializeSwarm_inv _ _ _ _ _ _ H) as (E & _ & x0 & t & Ep & Eg).
    assert (P : forall x, In x (particles s) -> pBest x = here x /\ valid (here x)).
    { apply Forall_forall. rewrite E. apply (init_swarm_P R iFun fFun (fun x => pBest x = here x /\ valid (here x))).
      intros; split; reflexivity. }
    split; [|split; [|split; [|split]]].
    + intros i x Ex. destruct (P x (nth_error_In _ _ Ex)) as (P1 & P2). rewrite P1.
      assert (Er : nth_error (positions R s) i = Some (position (here x))) by (rewrite nth_positions, Ex; reflexivity).
      split; [exact P2|]. split; [exists (positions R s); split; [left; reflexivity|exact Er]|].
      intros q (row & [<-|[]] & Eq). rewrite Er in Eq. inversion Eq; subst q. unfold valid in P2. rewrite P2. lra.
    + rewrite Eg. apply P. rewrite Ep. left. reflexivity.
    + exists 0%nat, (positions R s). split; [left; reflexivity|]. rewrite nth_positions, Ep, Eg. reflexivity.
    + intros row [<-|[]]. unfold positions. apply map_length.
    + intros C. cbn in C. lia.
  - assert (N' : forall row q, In row h -> In q row -> nonnan (fFun q)) by (intros row q Hr; apply N; right; exact Hr).
    destruct (IH N') as (I1 & I2 & I3 & I4 & I5). clear IH N'.
    destruct (round_particles _ _ _ _ _ H) as (E & _).
    assert (Nnan : forall i q, evald (positions R s :: h) i q -> nonnan (fFun q)).
    { intros i q (row & Hr & Eq). apply (N row q Hr (nth_error_In _ _ Eq)). }
    assert (K : forall i x, nth_error (particles s') i = Some x ->
       valid (pBest x) /\ evald (positions R s :: h) i (position (pBest x)) /\
       forall q, evald (positions R s :: h) i q -> (sc (fFun q) <= sc (fitness (pBest x)))%R).
    { intros i y Ey. rewrite E, nth_error_map in Ey. destruct (nth_error (particles s) i) as [x|] eqn:Ex; [|discriminate].
      cbn in Ey. inversion Ey; subst y. rewrite ub_pBest.
      destruct (I1 i x Ex) as (J1 & J2 & J3). set (p := position (here x)).
      assert (Ep : nth_error (positions R s) i = Some p) by (rewrite nth_positions, Ex; reflexivity).
      assert (Np : nonnan (fFun p)) by (apply (Nnan i), evald_cons; left; exact Ep).
      assert (Nb : nonnan (fitness (pBest x))) by (rewrite J1; apply (Nnan i), evald_cons; right; exact J2).
      destruct (bet (fFun p) (fitness (pBest x))) eqn:B; cbn [position fitness].
      - apply better_iff in B; [|assumption..]. split; [reflexivity|]. split; [apply evald_cons; left; exact Ep|].
        intros q Hq. apply evald_cons in Hq. destruct Hq as [Hq|Hq].
        + rewrite Ep in Hq. inversion Hq; subst q. lra.
        + specialize (J3 q Hq). lra.
      - apply better_false in B; [|assumption..]. split; [exact J1|]. split; [apply evald_cons; right; exact J2|].
        intros q Hq. apply evald_cons in Hq. destruct Hq as [Hq|Hq].
        + rewrite Ep in Hq. inversion Hq; subst q. exact B.
        + apply J3. exact Hq. }
    assert (Ng : nonnan (fitness (gBest s))).
    { rewrite I2. destruct I3 as (i & I3). apply (Nnan i), evald_cons. right. exact I3. }
    destruct (updatePGBest_spec _ _ H Ng) as (G1 & G2 & G3 & G4).
    { intros z Hz. cbn [computeAll particles] in Hz. apply in_map_iff in Hz. destruct Hz as (x & <- & Hx).
      apply (In_nth_error _ _) in Hx. destruct Hx as (i & Hx).
      assert (Ey : nth_error (particles s') i = Some (update_pBest greater (evaluate fFun x))) by (rewrite E, nth_error_map, Hx; reflexivity).
      destruct (K i _ Ey) as (V & W & _). rewrite V. apply (Nnan i). exact W. }
    cbn [computeAll gBest] in G2, G3.
    assert (Ls : length (particles s') = length (particles s)) by (rewrite E; apply map_length).
    split; [exact K|]. split; [|split; [|split]].
    + destruct G3 as [->|(x & Hx & ->)]; [exact I2|]. apply In_nth_error in Hx. destruct Hx as (i & Hx). apply (K i x Hx).
    + destruct G3 as [->|(x & Hx & ->)].
      * destruct I3 as (i & I3). exists i. apply evald_cons. right. exact I3.
      * apply In_nth_error in Hx. destruct Hx as (i & Hx). exists i. apply (K i x Hx).
    + rewrite Ls. intros row [<-|Hr]; [unfold positions; apply map_length|apply I4; exact Hr].
    + intros _ i q Hq. assert (Hi : (i < length (particles s'))%nat).
      { destruct Hq as (row & Hr & Eq). assert (i < length row)%nat by (apply nth_error_Some; congruence).
        rewrite Ls. destruct Hr as [<-|Hr]; [unfold positions in H0; rewrite map_length in H0; exact H0|].
        rewrite <- (I4 row Hr). exact H0. }
      destruct (nth_error (particles s') i) as [x|] eqn:Ex; [|apply nth_error_None in Ex; lia].
      destruct (K i x Ex) as (_ & _ & J). specialize (J q Hq). specialize (G4 x (nth_error_In _ _ Ex)). lra.
  - destruct (IH N) as (I1 & I2 & I3 & I4 & I5). destruct (updatePopulation_inv _ _ _ _ _ H) as (Eg & _ & F).
    assert (L : length (particles s') = length (particles s)) by (symmetry; eapply Forall2_len; exact F).
    assert (B : forall i y, nth_error (particles s') i = Some y -> exists x, nth_error (particles s) i = Some x /\ pBest y = pBest x).
    { clear -F. induction F as [|x y ps ps' (g0 & g1 & Hm) F IHF]; intros [|i] z Hz; cbn in *; try discriminate.
      - inversion Hz; subst z. exists x. split; [reflexivity|]. apply (move_inv _ _ _ _ _ _ _ Hm).
      - apply IHF. exact Hz. }
    split; [|rewrite Eg, L; split; [exact I2|split; [exact I3|split; [exact I4|exact I5]]]].
    intros i y Ey. destruct (B i y Ey) as (x & Ex & ->). apply I1. exact Ex.
  - exact (IH N).
Qed.

(** after a history that evaluated the swarm in at least one round *)
Lemma rounds_two h s : hist h s -> (1 <= length h)%nat.
Proof. intros H. induction H; cbn; lia. Qed.

(** ** The run loop *)
Context (rec_on : bool) (vec_max : Z).
Notation loop := (pso_loop R greater opt b fFun rec_on).
Notation rds := (p_rounds R greater opt b fFun).
Notation stops := (p_stops R opt).
Lemma pstop_dec t (c : swarm') :
  (p_maxGeneration opt <? t) || ((0 <? p_maxFailTimes opt) && (p_maxFailTimes opt <? p_fails c)) = true <-> stops t c.
Proof. unfold p_stops. rewrite orb_true_iff, andb_true_iff, !Z.ltb_lt. reflexivity. Qed.

Lemma pso_loop_sound fuel : forall s s',
  0 <= p_maxGeneration opt < two64 - 1 -> 0 <= p_generation s <= p_maxGeneration opt ->
  loop fuel s = Ok s' ->
  exists cs c, rds (p_swarm s) (cs ++ [c]) /\
    (forall i x, nth_error cs i = Some x -> ~ stops (p_generation s + Z.of_nat i + 1) x) /\
    stops (p_generation s + Z.of_nat (length cs) + 1) c /\
    p_swarm s' = c /\ p_generation s' = p_generation s + Z.of_nat (length cs) /\
    p_generation s' <= p_maxGeneration opt /\
    p_record s' = p_record s ++ (if rec_on then map (fun x => fitness (gBest x)) (cs ++ [c]) else []).
Proof.
  induction fuel as [|n IH]; intros s s' HM Hg H; cbn [pso_loop] in H; [discriminate|].
  rewrite (wrap64_small (p_generation s + 1)) in H by (unfold two64 in *; lia).
  apply bind_Ok in H. destruct H as (c & Ec & H). cbv zeta in H.
  destruct (_ || _) eqn:Es in H.
  - apply pstop_dec in Es. inversion H; subst s'; clear H. exists [], c.
    cbn [app p_rounds length Z.of_nat p_swarm p_generation p_record].
    rewrite wrap64_small by (unfold two64 in *; lia).
    split; [auto|]. split; [intros [|i] x C; discriminate|].
    split; [replace (p_generation s + 0 + 1) with (p_generation s + 1) by lia; exact Es|].
    split; [reflexivity|]. split; [lia|]. split; [lia|]. destruct rec_on; [reflexivity|rewrite app_nil_r; reflexivity].
  - assert (Ns : ~ stops (p_generation s + 1) c) by (intros C; apply pstop_dec in C; congruence).
    apply bind_Ok in H. destruct H as (c' & Em & H).
    assert (p_generation s + 1 <= p_maxGeneration opt) by (unfold p_stops in Ns; lia).
    apply IH in H; [|exact HM|cbn; lia]. cbn [p_swarm p_generation p_record] in H.
    destruct H as (cs & d & Hr & Hn & Hs & E1 & E2 & E3 & E4). exists (c :: cs), d.
    split. { change ((c :: cs) ++ [d]) with (c :: (cs ++ [d])). cbn [p_rounds]. split; [exact Ec|].
             destruct (cs ++ [d]) eqn:El; [destruct cs; discriminate|]. exists c'. split; [exact Em|]. exact Hr. }
    split. { intros [|i] x Hx.
             - cbn in Hx. inversion Hx; subst x. replace (p_generation s + Z.of_nat 0 + 1) with (p_generation s + 1) by lia. exact Ns.
             - cbn in Hx. apply Hn in Hx. replace (p_generation s + Z.of_nat (S i) + 1) with (p_generation s + 1 + Z.of_nat i + 1) by lia. exact Hx. }
    split. { replace (p_generation s + Z.of_nat (length (c :: cs)) + 1) with (p_generation s + 1 + Z.of_nat (length cs) + 1)
               by (cbn [length]; lia). exact Hs. }
    split; [exact E1|]. split; [cbn [length]; lia|]. split; [exact E3|].
    rewrite E4. destruct rec_on; [rewrite <- app_assoc; reflexivity|rewrite app_nil_r; reflexivity].
Qed.

Lemma pso_loop_complete cs : forall s c,
  0 <= p_maxGeneration opt < two64 - 1 -> 0 <= p_generation s <= p_maxGeneration opt ->
  rds (p_swarm s) (cs ++ [c]) ->
  (forall i x, nth_error cs i = Some x -> ~ stops (p_generation s + Z.of_nat i + 1) x) ->
  stops (p_generation s + Z.of_nat (length cs) + 1) c ->
  exists s', loop (S (length cs)) s = Ok s'.
Proof.
  induction cs as [|d cs IH]; intros s c HM Hg Hr Hn Hs.
  - cbn [app p_rounds] in Hr. destruct Hr as (Ec & _). cbn [length Z.of_nat pso_loop].
    rewrite Ec. cbn [bind]. rewrite (wrap64_small (p_generation s + 1)) by (unfold two64 in *; lia).
    cbn [length Z.of_nat] in Hs. replace (p_generation s + 0 + 1) with (p_generation s + 1) in Hs by lia.
    apply pstop_dec in Hs. cbv zeta. rewrite Hs. eauto.
  - change ((d :: cs) ++ [c]) with (d :: (cs ++ [c])) in Hr. cbn [p_rounds] in Hr. destruct Hr as (Ec & Hr).
    assert (exists m, updatePopulation R opt b d = Ok m /\ rds m (cs ++ [c])) as (m & Em & Hr').
    { destruct (cs ++ [c]) eqn:El; [destruct cs; discriminate|]. exact Hr. }
    remember (S (length (d :: cs))) as k. cbn [length] in Heqk. subst k.
    cbn [pso_loop]. rewrite Ec. cbn [bind].
    rewrite (wrap64_small (p_generation s + 1)) by (unfold two64 in *; lia). cbv zeta.
    pose proof (Hn 0%nat d eq_refl) as N0. replace (p_generation s + Z.of_nat 0 + 1) with (p_generation s + 1) in N0 by lia.
    destruct (_ || _) eqn:Es; [apply pstop_dec in Es; contradiction|].
    rewrite Em. cbn [bind].
    assert (p_generation s + 1 <= p_maxGeneration opt) by (unfold p_stops in N0; lia).
    apply (IH _ c); cbn [p_swarm p_generation]; try assumption; try lia.
    + intros i x Hx. specialize (Hn (S i) x Hx). replace (p_generation s + Z.of_nat (S i) + 1) with (p_generation s + 1 + Z.of_nat i + 1) in Hn by lia. exact Hn.
    + cbn [length] in Hs. replace (p_generation s + Z.of_nat (S (length cs)) + 1) with (p_generation s + 1 + Z.of_nat (length cs) + 1) in Hs by lia. exact Hs.
Qed.
Lemma loop_mono fuel : forall s s' k, loop fuel s = Ok s' -> loop (fuel + k) s = Ok s'.
Proof.
  induction fuel as [|n IH]; intros s s' k H; [discriminate|]. cbn [pso_loop plus] in *.
  apply bind_Ok in H. destruct H as (c & -> & H). cbn [bind]. cbv zeta in *.
  destruct (_ || _); [exact H|]. apply bind_Ok in H. destruct H as (c' & -> & H). cbn [bind]. apply IH. exact H.
Qed.
Lemma loop_nofuel fuel : forall s, 0 <= p_maxGeneration opt < two64 - 1 -> 0 <= p_generation s <= p_maxGeneration opt ->
  p_maxGeneration opt - p_generation s < Z.of_nat fuel -> loop fuel s <> Fuel.
Proof.
  induction fuel as [|n IH]; intros s HM Hg Hf; [lia|]. cbn [pso_loop].
  rewrite (wrap64_small (p_generation s + 1)) by (unfold two64 in *; lia).
  unfold updatePGBest. destruct (particles (computeAll R fFun (p_swarm s))); [discriminate|]. cbn [bind]. cbv zeta.
  match goal with |- context [p_fails ?c] => set (cc := c) end.
  destruct (_ || _) eqn:Es; [discriminate|].
  destruct (updatePopulation R opt b cc) as [m| | |] eqn:Em; cbn [bind]; try discriminate.
  - assert (p_generation s + 1 <= p_maxGeneration opt).
    { destruct (Z.ltb_spec (p_maxGeneration opt) (p_generation s + 1)); [discriminate|lia]. }
    apply IH; cbn [p_generation]; try assumption; lia.
  - exfalso. clear -Em. unfold updatePopulation in Em.
    assert (K : forall gb ps g, move_all R opt b gb ps g <> Fuel).
    { intros gb ps. induction ps as [|y ps IH]; intros g; cbn [move_all]; [discriminate|].
      destruct (rand01 R g) as [lp g1]. destruct (rand01 R g1) as [lg g2].
      unfold move_particle. destruct (_ && _); [|discriminate]. unfold vop. destruct (_ =? _)%nat; [|discriminate]. cbn [bind].
      specialize (IH g2). destruct (move_all R opt b gb ps g2); cbn [bind]; congruence. }
    specialize (K (gBest cc) (particles cc) (p_rng cc)). destruct (move_all _ _ _ _ _ _); cbn [bind] in Em; congruence.
Qed.

(** ** Histories and runs *)
Lemma rounds_history cs : forall h s, hist h s -> rds s cs ->
  forall k c, nth_error cs k = Some c -> exists h', hist h' c /\ (length h' = length h + S k)%nat /\
     exists d, h' = d ++ h.
Proof.
  induction cs as [|c cs IH]; intros h s Hh Hr [|k] x Hk; cbn in Hk; try discriminate.
  - inversion Hk; subst x. destruct Hr as (E & _). exists (positions R s :: h).
    split; [eapply h_round; eassumption|]. split; [cbn; lia|]. exists [positions R s]. reflexivity.
  - cbn [p_rounds] in Hr. destruct Hr as (E & Hr). destruct cs as [|c2 cs]; [destruct k; discriminate|].
    destruct Hr as (m & Em & Hr).
    assert (Hm : hist (positions R s :: h) m) by (eapply h_move; [eapply h_round; eassumption|exact Em]).
    destruct (IH _ _ Hm Hr k x Hk) as (h' & A & B & d & D). exists h'. split; [exact A|].
    split; [rewrite B; cbn; lia|]. exists (d ++ [positions R s]). rewrite <- app_assoc. exact D.
Qed.
Lemma run_history fuel s s' h : 0 <= p_maxGeneration opt < two64 - 1 ->
  pso_run R greater opt b fFun rec_on vec_max fuel s = Ok s' -> hist h (p_swarm s) ->
  exists h', hist h' (p_swarm s') /\ (length h < length h')%nat.
Proof.
  intros HM H Hh. unfold pso_run in H. destruct (rec_on && _); [discriminate|].
  apply pso_loop_sound in H; [|exact HM|cbn; lia]. destruct H as (cs & c & Hr & _ & _ & <- & _).
  cbn [p_swarm] in Hr. assert (Hh' := h_restart _ _ _ _ _ _ h _ Hh).
  destruct (rounds_history _ _ _ Hh' Hr (length cs) (p_swarm s')) as (h' & A & B & _).
  { rewrite nth_error_app2, Nat.sub_diag by lia. reflexivity. }
  exists h'. split; [exact A|lia].
Qed.
End H.
