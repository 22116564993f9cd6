(** Proofs for Props_PSORegion.v. *)
From Coq Require Import List Arith ZArith Reals Bool Lia Lra.
From Flocq Require Import Core BinarySingleNaN.
From Verif Require Import Base Fl FlFacts Rng Box PSO PSOSpec PSOProofs PSOProofs2 PSOProofs3 PSOObj PSOObjSpec PSOObjProofs PSORegionSpec.
Import ListNotations.
Open Scope Z_scope.

Section Loop.
Context (R : rng_ops) (greater : bool) (f : list double -> double) (P : list double -> Prop).
Notation ev := (evaluated R greater f).
Notation swarm' := (swarm (G R)).
Definition rows_in (h : list (list (list double))) : Prop := forall row q, In row h -> In q row -> P q.
Definition now_in (s : swarm') : Prop := forall q, In q (positions R s) -> P q.

Lemma rows_cons s h : now_in s -> rows_in h -> rows_in (positions R s :: h).
Proof. intros H1 H2 row q [<-|Hr]; [apply H1|apply H2; exact Hr]. Qed.
Lemma now_round s s' : updatePGBest R greater (computeAll R f s) = Ok s' -> now_in s -> now_in s'.
Proof.
  intros H N q Hq. destruct (round_particles _ _ _ _ _ H) as (E & _). unfold positions in Hq. rewrite E, map_map in Hq.
  apply in_map_iff in Hq. destruct Hq as (x & <- & Hx). rewrite ub_pos. apply N. unfold positions. apply in_map_iff. eauto.
Qed.
Lemma move_pos_in opt b n s s' : (forall i, (i < n)%nat -> fle (v_lo b i) (v_hi b i) = true) ->
  uniform R n s -> updatePopulation R opt b s = Ok s' ->
  forall q, In q (positions R s') -> length q = n /\ forall i x, nth_error q i = Some x -> fle (v_lo b i) x = true /\ fle x (v_hi b i) = true.
Proof.
  intros Hb (u1 & u2 & _) H q Hq. destruct (updatePopulation_inv _ _ _ _ _ H) as (_ & _ & F).
  unfold positions in Hq. apply in_map_iff in Hq. destruct Hq as (y & <- & Hy).
  assert (K : exists x g0 g1, In x (particles s) /\ move_particle opt b (gBest s) g0 g1 x = Ok y).
  { clear -F Hy. induction F as [|x z ps ps' (g0 & g1 & Hm) F IH]; [destruct Hy|]. destruct Hy as [<-|Hy].
    - exists x, (fst (rand01 R g0)), (fst (rand01 R g1)). split; [left; reflexivity|exact Hm].
    - destruct (IH Hy) as (x' & a & c & Hx & E). exists x', a, c. split; [right; exact Hx|exact E]. }
  destruct K as (x & g0 & g1 & Hx & Hm). rewrite Forall_forall in u1. destruct (u1 x Hx) as (q1 & q2 & q3).
  destruct (move_inv _ _ _ _ _ _ _ Hm) as (M1 & M2 & M3 & M4 & M5 & _ & _ & Q). split; [lia|].
  intros i z Hz. assert (Hi : (i < n)%nat) by (rewrite <- q2, <- M5; apply nth_error_Some; congruence).
  assert (X : forall l : list double, length l = n -> exists w, nth_error l i = Some w).
  { intros l Hl. destruct (nth_error l i) eqn:E; [eauto|]. apply nth_error_None in E. lia. }
  destruct (X (velocity x) q2) as (v & N1). destruct (X (position (pBest x)) q3) as (pb & N2).
  destruct (X (position (gBest s)) u2) as (g & N3). destruct (X (position (here x)) q1) as (p & N4).
  destruct (Q i v pb g p N1 N2 N3 N4) as (_ & Qp). rewrite Qp in Hz. inversion Hz. apply clampPos_in. apply Hb. exact Hi.
Qed.

Lemma ev_loop_in opt b rec_on n fuel : (forall i, (i < n)%nat -> fle (v_lo b i) (v_hi b i) = true) ->
  (forall p, length p = n -> (forall i x, nth_error p i = Some x -> fle (v_lo b i) x = true /\ fle x (v_hi b i) = true) -> P p) ->
  forall h s s', ev h (p_swarm s) -> rows_in h -> now_in (p_swarm s) -> uniform R n (p_swarm s) ->
  pso_loop R greater opt b f rec_on fuel s = Ok s' ->
  exists h', ev (h' ++ h) (p_swarm s') /\ (1 <= length h')%nat /\ rows_in (h' ++ h) /\ now_in (p_swarm s').
Proof.
  intros Hb HP. induction fuel as [|m IH]; intros h s s' E Rh Ns U H; [discriminate|]. cbn [pso_loop] in H.
  apply bind_Ok in H. destruct H as (c & Ec & H). cbv zeta in H.
  pose proof (ev_round _ _ _ _ _ _ E Ec) as E'. pose proof (rows_cons _ _ Ns Rh) as Rh'. pose proof (now_round _ _ Ec Ns) as Nc.
  pose proof (uniform_round _ _ _ _ _ _ U Ec) as Uc.
  destruct (_ || _) in H.
  - inversion H; subst s'. exists [positions R (p_swarm s)]. split; [exact E'|]. split; [cbn; lia|]. split; [exact Rh'|exact Nc].
  - apply bind_Ok in H. destruct H as (d & Ed & H).
    pose proof (ev_move _ _ _ opt b _ _ _ E' Ed) as Em. pose proof (uniform_move _ _ _ _ _ _ Uc Ed) as Ud.
    assert (Nd : now_in d). { intros q Hq. destruct (move_pos_in opt b n c d Hb Uc Ed q Hq) as (X1 & X2). apply HP; assumption. }
    match type of H with pso_loop _ _ _ _ _ _ _ ?st = _ => destruct (IH (positions R (p_swarm s) :: h) st s' Em Rh' Nd Ud H) as (h' & H1 & H2 & H3 & H4) end.
    exists (h' ++ [positions R (p_swarm s)]). rewrite <- app_assoc. split; [exact H1|]. split; [rewrite app_length; lia|]. split; [exact H3|exact H4].
Qed.
(** Without moves (maxGeneration = 0) the box does not matter. *)
Lemma ev_loop_0 opt b rec_on fuel h s s' : p_maxGeneration opt = 0 -> p_generation s = 0 ->
  ev h (p_swarm s) -> rows_in h -> now_in (p_swarm s) -> pso_loop R greater opt b f rec_on fuel s = Ok s' ->
  exists h', ev (h' ++ h) (p_swarm s') /\ (1 <= length h')%nat /\ rows_in (h' ++ h) /\ now_in (p_swarm s').
Proof.
  intros Hm Hg E Rh Ns H. destruct fuel as [|m]; [discriminate|]. cbn [pso_loop] in H.
  apply bind_Ok in H. destruct H as (c & Ec & H). cbv zeta in H. rewrite Hm, Hg in H. change (0 <? wrap64 (0 + 1)) with true in H. cbn [orb] in H.
  inversion H; subst s'. exists [positions R (p_swarm s)]. split; [exact (ev_round _ _ _ _ _ _ E Ec)|]. split; [cbn; lia|].
  split; [apply rows_cons; assumption|eapply now_round; eassumption].
Qed.
End Loop.

Section Obj.
Context {A : Type} (R : rng_ops) (k : kind) (greater rec_on : bool) (vec_max : Z) (P : list double -> Prop).
Notation obj' := (@obj A R).
Notation step' := (@step A R k greater rec_on vec_max).
Notation drive' := (@drive A R k greater rec_on vec_max).
Notation lawful' := (@lawful A R k vec_max).
Notation history' := (@lawful_history A R k greater rec_on vec_max).
Notation rows_in' := (rows_in P).
Notation now_in' := (now_in R P).

Lemma init_now (o o' : obj') : starts_in R k P o -> step' o (InitializePop R) = Ok o' -> now_in' (swarm_of R o').
Proof.
  intros S0 H. destruct (step_swarm _ _ _ _ _ _ _ _ H) as (opt & i & f & _ & _ & Hs & _ & _ & _ & _ & _ & _ & Hi).
  assert (K : forall g, P (fst (fst (i g)))).
  { unfold starts_in in S0. destruct (o_i R o) as [|j|[| |j]]; try contradiction.
    - destruct Hi as (n & D & ->). intros g. apply S0. exact D.
    - subst i. exact S0.
    - subst i. exact S0. }
  destruct (initializeSwarm_inv _ _ _ _ _ _ Hs) as (E & _).
  assert (F : Forall (fun x => P (position (here x))) (particles (swarm_of R o'))).
  { rewrite E. apply init_swarm_P. intros g p v g' Ei. specialize (K g). rewrite Ei in K. exact K. }
  rewrite Forall_forall in F. intros q Hq. unfold positions in Hq. apply in_map_iff in Hq. destruct Hq as (x & <- & Hx). apply F, Hx.
Qed.
Lemma run_in (o o' : obj') ff rows : oinv R o -> lawful' o (Run R) -> moves_in R P o -> step' o (Run R) = Ok o' -> o_f R o = Some ff ->
  evaluated R greater (ff (o_args R o)) rows (swarm_of R o) -> rows_in' rows -> now_in' (swarm_of R o) ->
  exists h', evaluated R greater (ff (o_args R o)) (h' ++ rows) (swarm_of R o') /\ (1 <= length h')%nat /\ rows_in' (h' ++ rows) /\ now_in' (swarm_of R o').
Proof.
  intros I (Hi & _ & Lg & Lv & Lb) Mv H Ef Ev Rr Nr. destruct (I Hi) as (n & U).
  destruct (step_swarm _ _ _ _ _ _ _ _ H) as (f & w & Ef' & Ew & Hr & _). rewrite Ef in Ef'. inversion Ef'; subst f. clear Ef'.
  assert (Wn : w = n). { destruct (width_in (particles (swarm_of R o)) (proj2 (proj2 U))) as (y & Hy & Ey).
    pose proof (proj1 U) as F. rewrite Forall_forall in F. destruct (F y Hy) as (_ & F2 & _). congruence. }
  subst w. rewrite Wn in *. clear Wn. unfold pso_run in Hr. destruct (rec_on && _); [discriminate|].
  destruct (Z.eq_dec (p_maxGeneration (o_opt R o)) 0) as [Z0|N0].
  - eapply ev_loop_0; [exact Z0| | | | |exact Hr]; [reflexivity|cbn [p_swarm]; apply ev_other; exact Ev|exact Rr|exact Nr].
  - destruct U as (U1 & U2 & U3). destruct (particles (swarm_of R o)) as [|y ps] eqn:Ep; [congruence|].
    assert (Hy : In y (get_population R o)) by (unfold get_population, swarm_of in *; rewrite Ep; left; reflexivity).
    destruct (Forall_inv U1) as (_ & F2 & _). destruct (Mv ltac:(lia) y Hy) as (O1 & O2). destruct (Lb ltac:(lia) y Hy) as (B1 & B2 & _).
    rewrite F2 in *. assert (Kn : forall j, (j < n)%nat -> exists lo hi, m_lo (o_mem R o) j = Some lo /\ m_hi (o_mem R o) j = Some hi).
    { intros j Hj. specialize (B1 j Hj). specialize (B2 j Hj). destruct (m_lo (o_mem R o) j); [|contradiction]. destruct (m_hi (o_mem R o) j); [|contradiction]. eauto. }
    eapply (ev_loop_in R greater (ff (o_args R o)) P (o_opt R o) _ rec_on n); [| | | | | |exact Hr].
    + intros j Hj. destruct (Kn j Hj) as (lo & hi & E1 & E2). cbn [box_of v_lo v_hi]. rewrite E1, E2. exact (O1 j lo hi Hj E1 E2).
    + intros p Lp Hp. apply O2; [exact Lp|]. intros j x Hx. assert (Hj : (j < n)%nat) by (rewrite <- Lp; apply nth_error_Some; congruence).
      destruct (Kn j Hj) as (lo & hi & E1 & E2). exists lo, hi. specialize (Hp j x Hx). cbn [box_of v_lo v_hi] in Hp. rewrite E1, E2 in Hp. cbn [value] in Hp. tauto.
    + cbn [p_swarm]. apply ev_other. exact Ev.
    + exact Rr.
    + exact Nr.
    + cbn [p_swarm]. split; [cbn [particles]; unfold swarm_of in Ep; rewrite Ep; exact U1|split; [exact U2|cbn [particles]; unfold swarm_of in Ep; rewrite Ep; discriminate]].
Qed.

Definition quiet (h : list (@call A R)) : Prop :=
  Forall (fun c => match c with SetFFun _ _ | SetArgs _ _ | InitializePop _ => False | _ => True end) h.
Lemma drive_in h2 : forall (oa o : obj') ff rows, quiet h2 -> oinv R oa -> history' oa h2 -> stays R k greater rec_on vec_max P oa h2 ->
  drive' oa h2 = Ok o -> o_f R oa = Some ff -> o_inited R oa = true ->
  evaluated R greater (ff (o_args R oa)) rows (swarm_of R oa) -> rows_in' rows -> now_in' (swarm_of R oa) ->
  o_f R o = Some ff /\ o_args R o = o_args R oa /\ o_inited R o = true /\
  exists rows', evaluated R greater (ff (o_args R oa)) rows' (swarm_of R o) /\ rows_in' rows' /\ now_in' (swarm_of R o) /\ (exists new, rows' = new ++ rows) /\
    (In (Run R) h2 -> (length rows < length rows')%nat).
Proof.
  induction h2 as [|c h2 IH]; intros oa o ff rows F I L Sy H Ef Hi Ev Rr Nr; cbn [drive] in H.
  - inversion H; subst oa. split; [exact Ef|]. split; [reflexivity|]. split; [exact Hi|]. exists rows. split; [exact Ev|]. split; [exact Rr|]. split; [exact Nr|]. split; [exists []; reflexivity|intros []].
  - apply bind_Ok in H. destruct H as (ob & Hb & H). pose proof (step_swarm _ _ _ _ _ _ _ _ Hb) as K.
    pose proof (Forall_inv F) as Fc. apply Forall_inv_tail in F. destruct L as (L1 & L2). destruct Sy as (S1 & S2).
    pose proof (step_oinv _ _ _ _ _ _ _ _ I L1 Hb) as Ib. specialize (L2 ob Hb). specialize (S2 ob Hb).
    assert (Same : c <> Run R -> o_f R ob = Some ff -> o_args R ob = o_args R oa -> o_inited R ob = o_inited R oa ->
      (exists g, swarm_of R ob = mkSwarm (particles (swarm_of R oa)) (gBest (swarm_of R oa)) (p_fails (swarm_of R oa)) g) ->
      o_f R o = Some ff /\ o_args R o = o_args R oa /\ o_inited R o = true /\
      exists rows', evaluated R greater (ff (o_args R oa)) rows' (swarm_of R o) /\ rows_in' rows' /\ now_in' (swarm_of R o) /\ (exists new, rows' = new ++ rows) /\
        (In (Run R) (c :: h2) -> (length rows < length rows')%nat)).
    { intros Nc Ef' Ea' Hi' (g & Eg). destruct (IH ob o ff rows F Ib L2 S2 H Ef' ltac:(congruence)) as (X1 & X2 & X3 & r & X4 & X5 & X6 & X7 & X8).
      { rewrite Ea', Eg. apply ev_other. exact Ev. }
      { exact Rr. }
      { rewrite Eg. exact Nr. }
      rewrite Ea' in *. repeat (split; [assumption|]). exists r. repeat (split; [assumption|]). intros [C|C]; [congruence|auto]. }
    destruct c as [bc|p|p|f1|a1|g1| |]; cbn [step] in Hb; try contradiction.
    + destruct K as (_ & _ & Ki & Kg). apply bind_Ok in Hb. destruct Hb as (m & _ & Hb). apply Same; [discriminate| | |exact Ki|exact Kg]; inversion Hb; subst ob; first [assumption|reflexivity].
    + destruct K as (_ & _ & Ki & Kg). apply Same; [discriminate| | |exact Ki|exact Kg]; inversion Hb; subst ob; first [assumption|reflexivity].
    + destruct K as (_ & _ & Ki & Kg). apply Same; [discriminate| | |exact Ki|exact Kg]; inversion Hb; subst ob; first [assumption|reflexivity].
    + destruct K as (_ & _ & Ki & Kg). apply Same; [discriminate| | |exact Ki|exact Kg]; inversion Hb; subst ob; first [assumption|reflexivity].
    + clear Same. destruct (run_in oa ob ff rows I L1 S1 Hb Ef Ev Rr Nr) as (r' & Ev' & Lr & Rr' & Nr').
      destruct K as (f1 & n & _ & _ & _ & Ki & K1 & K2 & _).
      destruct (IH ob o ff (r' ++ rows) F Ib L2 S2 H ltac:(congruence) Ki) as (X1 & X2 & X3 & r & X4 & X5 & X6 & X7 & X8); [rewrite K2; exact Ev'|exact Rr'|exact Nr'|].
      rewrite K2 in *. repeat (split; [assumption|]). exists r. repeat (split; [assumption|]). destruct X7 as (new & ->). split; [exists (new ++ r'); rewrite app_assoc; reflexivity|]. intros _. rewrite !app_length. lia.
Qed.
Lemma stays_app h1 h2 : forall o o1, stays R k greater rec_on vec_max P o (h1 ++ h2) -> drive' o h1 = Ok o1 -> stays R k greater rec_on vec_max P o1 h2.
Proof.
  induction h1 as [|c h1 IH]; intros o o1 S0 H; cbn [app drive] in *; [inversion H; subst; exact S0|].
  apply bind_Ok in H. destruct H as (oa & Ha & H). destruct S0 as (_ & S0). exact (IH oa o1 (S0 oa Ha) H).
Qed.

(** Why a run stops. *)
Lemma rounds_fails opt b fFun cs : forall (s0 : swarm (G R)) c, p_rounds R greater opt b fFun s0 (cs ++ [c]) ->
  0 <= p_fails s0 -> p_fails s0 + Z.of_nat (length cs) + 1 < two64 -> 0 <= p_fails c <= p_fails s0 + Z.of_nat (length cs) + 1.
Proof.
  assert (One : forall s c, updatePGBest R greater (computeAll R fFun s) = Ok c -> 0 <= p_fails s < two64 - 1 -> 0 <= p_fails c <= p_fails s + 1).
  { intros s c H Hs. unfold updatePGBest in H. destruct (particles _); [discriminate|]. cbv zeta in H.
    destruct (better _ _ _) in H; inversion H; cbn [p_fails computeAll]; [lia|]. rewrite wrap64_small by lia. lia. }
  induction cs as [|d cs IH]; intros s0 c H H0 Hb; cbn [app] in H.
  - destruct H as (H & _). cbn [length] in *. specialize (One _ _ H ltac:(lia)). lia.
  - cbn [p_rounds] in H. destruct H as (Hd & H).
    assert (X : exists m, updatePopulation R opt b d = Ok m /\ p_rounds R greater opt b fFun m (cs ++ [c])).
    { destruct (cs ++ [c]) eqn:El; [destruct cs; discriminate|exact H]. }
    destruct X as (m & Em & Hm). destruct (updatePopulation_inv _ _ _ _ _ Em) as (_ & Ef & _).
    specialize (One _ _ Hd ltac:(cbn [length] in Hb; lia)). cbn [length] in *.
    specialize (IH m c Hm). rewrite Ef in IH. lia.
Qed.
Lemma run_stop (o o' : obj') : lawful' o (Run R) -> step' o (Run R) = Ok o' ->
  let n := p_generation (o_pso R o') in let t := p_fails (p_swarm (o_pso R o')) in
  0 <= n <= p_maxGeneration (o_opt R o) /\ 0 <= t <= n + 1 /\
  (n = p_maxGeneration (o_opt R o) \/ 0 < p_maxFailTimes (o_opt R o) < t).
Proof.
  intros (_ & _ & Lg & Lv & _) H n t. destruct (step_swarm _ _ _ _ _ _ _ _ H) as (f & w & _ & _ & Hr & _).
  unfold pso_run in Hr. destruct (rec_on && _); [discriminate|].
  apply pso_loop_sound in Hr; [|exact Lg|cbn [p_generation]; lia]. destruct Hr as (cs & c & A1 & _ & A3 & A4 & A5 & A6 & _).
  cbn [p_swarm p_generation] in A1, A3, A5. pose proof (rounds_fails _ _ _ cs _ c A1) as Q. cbn [p_fails] in Q.
  subst n t. rewrite A4. split; [lia|]. specialize (Q ltac:(lia) ltac:(unfold two64 in *; lia)). split; [lia|].
  destruct A3 as [A3|A3]; [left; lia|right; lia].
Qed.
End Obj.

(** A box that is not touched after initializePop(). *)
Section Box.
Context {A : Type} (R : rng_ops) (k : kind) (greater rec_on : bool) (vec_max : Z) (P : list double -> Prop).
Notation step' := (@step A R k greater rec_on vec_max).
Definition no_box (h : list (@call A R)) : Prop := Forall (fun c => match c with BoxCall _ _ => False | _ => True end) h.
Lemma step_uniform (o o' : @obj A R) c n : match c with InitializePop _ => False | _ => True end -> uniform R n (swarm_of R o) -> step' o c = Ok o' -> uniform R n (swarm_of R o').
Proof.
  intros Hc U H. pose proof (step_swarm _ _ _ _ _ _ _ _ H) as K.
  assert (Same : particles (swarm_of R o') = particles (swarm_of R o) -> gBest (swarm_of R o') = gBest (swarm_of R o) -> uniform R n (swarm_of R o')).
  { intros E1 E2. unfold uniform in *. rewrite E1, E2. exact U. }
  destruct c as [b|p|p|f|a|g| |]; try contradiction; try (destruct K as (K1 & K2 & _); apply Same; assumption).
  destruct K as (f & w & _ & _ & Hr & _). eapply run_uniform; [exact U|exact Hr].
Qed.
Lemma step_mem (o o' : @obj A R) c : match c with BoxCall _ _ => False | _ => True end -> step' o c = Ok o' -> o_mem R o' = o_mem R o.
Proof.
  intros Hc H. pose proof (step_swarm _ _ _ _ _ _ _ _ H) as K.
  destruct c as [b|p|p|f|a|g| |]; try contradiction; cbn [step] in H; try (inversion H; subst o'; reflexivity).
  - destruct K as (? & ? & ? & _ & _ & _ & _ & _ & _ & _ & _ & K & _). exact K.
  - destruct K as (? & ? & _ & _ & _ & _ & _ & _ & _ & K). exact K.
Qed.
Lemma box_stays n m h : quiet R h -> no_box h -> ordered m n -> (forall p, length p = n -> within m p -> P p) ->
  forall o, o_mem R o = m -> uniform R n (swarm_of R o) -> stays R k greater rec_on vec_max P o h.
Proof.
  intros Q N Or Hp. induction h as [|c h IH]; intros o Em U; cbn [stays]; [exact Logic.I|].
  pose proof (Forall_inv Q) as Qc. pose proof (Forall_inv N) as Nc. apply Forall_inv_tail in Q, N. split.
  - destruct c; try exact Logic.I; [contradiction|]. intros _ x Hx. destruct U as (U & _). rewrite Forall_forall in U. destruct (U x Hx) as (_ & E & _).
    rewrite Em, E. split; assumption.
  - intros o' H. apply (IH Q N).
    + rewrite <- Em. eapply step_mem; [|exact H]. exact Nc.
    + eapply step_uniform; [|exact U|exact H]. destruct c; try exact Logic.I; contradiction.
Qed.
Lemma drive_mem h : forall (o o' : @obj A R), no_box h -> @drive A R k greater rec_on vec_max o h = Ok o' -> o_mem R o' = o_mem R o.
Proof.
  induction h as [|c h IH]; intros o o' N H; cbn [drive] in H; [inversion H; reflexivity|]. apply bind_Ok in H. destruct H as (o1 & H1 & H).
  pose proof (Forall_inv N) as Nc. apply Forall_inv_tail in N. rewrite (IH _ _ N H). eapply step_mem; [exact Nc|exact H1].
Qed.
End Box.
