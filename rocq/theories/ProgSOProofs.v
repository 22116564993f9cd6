(** Proofs for ProgSO.v: programs that set a SOGA object up, initialise it and run it. *)
From Coq Require Import List Arith ZArith Bool Lia Reals Lra.
From Flocq Require Import Core BinarySingleNaN.
From Verif Require Import GAOpsProofs SOGAProofs SOGAProofs3 SOGAProofs5 SOGAProofs6 SOGAProofs7 RegionSOGA Props_Region Props_SOGAObj Props_SOGA.
From Verif Require Import Base Fl FlFacts Rng StdOps GABase SOGA SOGAObj SOGAObjSpec SOGAObjProofs RegionSpec.
Import ListNotations.
Open Scope Z_scope.

(** * Why a run stops *)
Section Loop.
Context {V : Type} (R : rng_ops) (std : std_ops) (greater : bool) (opt : ga_option) (sp : sel_params).
Context (fs : user_funs V double (G R)) (junk : double) (m : method) (fuel : nat).
Notation K' := (K opt).
Notation hk := (soga_hooks R std greater opt sp m fuel).
Variables (Q : V -> double -> Prop) (B : Z).
Hypothesis (HR : rng_ok R) (Hstd : std_ok std) (HK : 1 <= K') (HB : 4 * K' <= B < 2147483648)
  (Ht : 0 <= tournamentSize sp) (M1 : m <> StochasticUniversal) (M2 : m = EliteReserved -> eliteNum sp <= K')
  (Hf : forall v, Q v (fFun fs v)).
Lemma round_fails (c0 c : core V double nat (G R)) : ready R Q B c0 -> evaluate_and_select R fs hk c0 = Ok c ->
  0 <= fails c0 < two64 - 1 -> 0 <= fails c <= fails c0 + 1.
Proof.
  intros (Hw & Hb & Hq & Hl) H H0. unfold evaluate_and_select in H. cbn [hk_select soga_hooks] in H.
  assert (Hs : sizes_ok R opt (computeAllFitness R fs c0)) by (apply comp_small; split; lia).
  destruct (C12_failTimes_step V R std greater opt sp m fuel (computeAllFitness R fs c0) c HR Hstd (compute_wf R fs c0 Hw) Hs Ht H) as (old & b & _ & _ & E).
  cbn [computeAllFitness fails] in E. rewrite E. destruct (isBetter greater b old); [lia|]. rewrite wrap64_small by lia. lia.
Qed.
Lemma loop_stop rec_on n : 0 <= maxGenerations opt < two64 - 1 -> forall s s' : ga V double nat (G R),
  ready R Q B (ga_core s) -> 0 <= generation s <= maxGenerations opt -> 0 <= fails (ga_core s) <= generation s ->
  ga_loop R fs opt junk hk rec_on n s = Ok s' ->
  0 <= fails (ga_core s') <= generation s' + 1 /\
  (generation s' = maxGenerations opt \/ 0 < maxFailTimes opt < fails (ga_core s')).
Proof.
  intros HM. induction n as [|n IH]; intros s s' Hi Hg Hfl H; cbn [ga_loop] in H; [discriminate|].
  apply bind_Ok in H. destruct H as (c & Hc & H).
  destruct (round_done R std greater opt sp fs m fuel Q B HR Hstd HK HB Ht M1 M2 Hf _ _ Hi Hc) as (D & _).
  pose proof (round_fails _ _ Hi Hc ltac:(unfold two64 in *; lia)) as Fc.
  apply bind_Ok in H. destruct H as (r & Hr & H). rewrite wrap64_small in H by (unfold two64 in *; lia).
  destruct (_ || _) eqn:Es.
  - apply Ok_inj in H; subst s'. cbn [ga_core generation]. rewrite wrap64_small by (unfold two64 in *; lia). split; [lia|].
    apply orb_true_iff in Es. destruct Es as [Es|Es]; [left; apply Z.ltb_lt in Es; lia|right].
    apply andb_true_iff in Es. destruct Es as (E1 & E2). apply Z.ltb_lt in E1, E2. lia.
  - apply orb_false_iff in Es. destruct Es as (Es & _). apply Z.ltb_ge in Es.
    destruct (breed_ready R greater opt fs junk Q B HR c D) as (Rb & _).
    destruct (breed_keeps R opt fs junk c HR (proj1 D)) as (_ & Fb & _).
    apply (IH (mkGA (breed R fs opt junk c) (generation s + 1) r) s' Rb); [cbn [generation]; lia| |exact H].
    cbn [ga_core generation]. rewrite Fb. lia.
Qed.
End Loop.

Section Program.
Context {V A : Type} (R : rng_ops) (std : std_ops) (mode : option method) (greater rec_on : bool)
  (pw : double -> double -> double) (ex : double -> double) (junk : double) (v0 : V) (vec_max : Z) (sel_fuel : nat) (B : Z) (inside : V -> bool).
Notation drive' := (@drive V A R std mode greater rec_on pw ex junk v0 vec_max sel_fuel).
Notation step' := (@step V A R std mode greater rec_on pw ex junk v0 vec_max sel_fuel).
Notation start := (fresh R mode greater).
Notation ok_history Q := (lawful_history_in (V := V) (A := A) R std mode greater rec_on pw ex junk v0 vec_max sel_fuel B inside (Q mode)).
Hypothesis (HR : rng_ok R) (Hstd : std_ok std) (HB : 0 <= B < 2147483648).
Notation nn := (fun (_ : V) (x : double) => nonnan x).

Lemma run_stop (o o' : @obj V A R) : inv R B nn o -> lawful R mode vec_max B (size_safe mode) o (Run R) -> step' o (Run R) = Ok o' ->
  0 <= fails (o_core R o') <= o_gen R o' + 1 /\
  (o_gen R o' = maxGenerations (s_opt (o_set R o)) \/ 0 < maxFailTimes (s_opt (o_set R o)) < fails (o_core R o')).
Proof.
  intros (Hr & Hw & Hq & Hl & Hb) L H. pose proof L as (Li & _ & _ & (f0 & Ef0 & Hf0) & K1 & K4 & HM & Hv & Ht & _ & Hp).
  destruct (do_run_eq R std mode greater rec_on pw ex junk v0 vec_max sel_fuel B (size_safe mode) o L) as (f & c & m & Ef & _ & _ & E).
  rewrite E in H. apply bind_Ok in H. destruct H as (s & Hs & H). apply Ok_inj in H; subst o'; clear E.
  cbn [o_core o_gen].
  unfold run_state, run in Hs. replace (vec_max <? _) with false in Hs by (symmetry; apply Z.ltb_ge; exact Hv). rewrite andb_false_r in Hs.
  destruct Hp as (S1 & S2).
  assert (Hf : forall v, nonnan (fFun (user_of R v0 o f c m) v)).
  { intros v. cbn [user_of fFun]. replace f with f0 by congruence. apply Hf0. }
  exact (loop_stop R std greater (s_opt (o_set R o)) (params_of pw ex junk (o_set R o)) (user_of R v0 o f c m) junk (method_of mode (o_set R o)) sel_fuel nn B
    HR Hstd K1 ltac:(unfold K; lia) ltac:(cbn; destruct Hr; lia) S1 S2 Hf rec_on _ HM
    (mkGA (mkCore (pop (o_core R o)) (next (o_core R o)) 0 (ext (o_core R o)) (gen_rng (o_core R o))) 0 (if rec_on then [] else o_rec R o)) s
    (conj (conj (proj1 Hw) (proj2 Hw)) (conj (Hb Li) (conj Hq Hl))) ltac:(cbn; lia) ltac:(cbn; lia) Hs).
Qed.
Lemma stop_reason (ct : @slots V A R) (a : A) (g : G R) h o0 o :
  ok_history size_safe (start ct a g) (h ++ [Run R]) -> drive' (start ct a g) h = Ok o0 -> drive' o0 [Run R] = Ok o ->
  exists n k, get_generation R o = Ok n /\ get_failTimes R o = Ok k /\ 0 <= k <= n + 1 /\
    (n = maxGenerations (s_opt (o_set R o0)) \/ 0 < maxFailTimes (s_opt (o_set R o0)) < k).
Proof.
  intros L H1 H2. destruct (transfer V A R std mode greater rec_on pw ex junk v0 vec_max sel_fuel B inside size_safe ct a g (h ++ [Run R]) HR Hstd L) as (L' & E).
  rewrite map_app in L', E. cbn [map guard_call] in L', E.
  rewrite !drive_app, H1 in E. cbn [bind] in E. rewrite H2 in E. cbn [map_res bind] in E.
  apply lawful_app in L'. destruct L' as (L1 & L2). apply bind_Ok in E. destruct E as (o1 & D1 & E).
  specialize (L2 _ D1). destruct L2 as (L2 & _).
  assert (Lh : forall h1 h2 o, ok_history size_safe o (h1 ++ h2) -> ok_history size_safe o h1).
  { clear. induction h1 as [|c h1 IH]; intros h2 o L; [exact Logic.I|]. destruct L as (L1 & L2). split; [exact L1|]. intros o' E. exact (IH _ _ (L2 o' E)). }
  destruct (transfer V A R std mode greater rec_on pw ex junk v0 vec_max sel_fuel B inside size_safe ct a g h HR Hstd (Lh _ _ _ L)) as (_ & E1).
  rewrite H1, D1 in E1. cbn [map_res bind] in E1. apply Ok_inj in E1. symmetry in E1. subst o1.
  cbn [drive] in E. apply bind_Ok in E. destruct E as (o' & E & E'). apply Ok_inj in E'. subst o'.
  pose proof (fresh_inv R mode greater B nn (guard_slots R inside ct) a g ltac:(lia)) as I0.
  pose proof (drive_inv R std mode greater rec_on pw ex junk v0 vec_max sel_fuel B HR Hstd ltac:(lia) (size_safe mode) _ _ _ (fun s Hs => Hs) I0 L1 D1) as I1.
  destruct (run_stop _ _ I1 L2 E) as (P1 & P2). cbn [guard_obj o_core o_gen o_set] in P1, P2.
  assert (Rn : o_ran R o = true).
  { cbn [drive] in H2. apply bind_Ok in H2. destruct H2 as (o' & H2 & Eo). apply Ok_inj in Eo. subst o'. clear - H2. cbn [step] in H2. unfold do_run in H2.
    destruct (negb _); [discriminate H2|]. destruct (f_f _ _); [|discriminate H2]. destruct (f_c _ _); [|discriminate H2]. destruct (f_m _ _); [|discriminate H2].
    cbv zeta in H2.
    assert (T : forall rs, (do s0 <- rs; Ok (mkObj R (o_set R o0) (o_slots R o0) (o_args R o0) (ga_core s0) (generation s0) (record s0) true true)) = Ok o -> o_ran R o = true).
    { intros rs T. apply bind_Ok in T. destruct T as (s & _ & T). apply Ok_inj in T. subst o. reflexivity. }
    destruct (method_of mode (o_set R o0)); try (exact (T _ H2)). destruct (s_strength _); [exact (T _ H2)|discriminate H2]. }
  unfold get_generation, get_failTimes. rewrite Rn. exists (o_gen R o), (fails (o_core R o)). auto.
Qed.

(** * A program: setters, initializePop(), run() *)
Definition plain_call (c : @call V A R) : Prop :=
  match c with
  | Setting _ s => (forall st, exists s', apply_setting st s = Ok s') /\ not_poke s
  | InitializePop _ | Run _ | OtherDraws _ _ => False
  | _ => True
  end.
Lemma plain_lawful (Q : option method -> settings -> Prop) h : Forall plain_call h -> forall o, ok_history Q o h.
Proof.
  induction 1 as [|c h P H IH]; intros o; [exact Logic.I|]. split; [|intros o' _; apply IH].
  destruct c; cbn in P |- *; try contradiction; try exact Logic.I. destruct P as (P1 & P2). split; [apply P1|exact P2].
Qed.
Lemma plain_core h : Forall plain_call h -> forall o o', drive' o h = Ok o' -> o_core R o' = o_core R o.
Proof.
  induction 1 as [|c h P H IH]; intros o o' E; cbn [drive] in E; [apply Ok_inj in E; subst; reflexivity|].
  apply bind_Ok in E. destruct E as (o1 & E1 & E). rewrite (IH _ _ E).
  destruct c; cbn [plain_call step] in P, E1; try contradiction; try (apply Ok_inj in E1; subst o1; reflexivity).
  apply bind_Ok in E1. destruct E1 as (s' & _ & E1). apply Ok_inj in E1. subst o1. reflexivity.
Qed.
Lemma in_history_app (Q : option method -> settings -> Prop) h1 h2 o : ok_history Q o h1 -> (forall o', drive' o h1 = Ok o' -> ok_history Q o' h2) -> ok_history Q o (h1 ++ h2).
Proof.
  revert o. induction h1 as [|c h1 IH]; intros o L1 L2; [apply L2; reflexivity|]. destruct L1 as (La & Lb). split; [exact La|].
  intros o' E. apply (IH o' (Lb o' E)). intros o2 E2. apply L2. cbn [drive]. rewrite E. exact E2.
Qed.
Lemma init_frame (o o2 : @obj V A R) i : wf (o_core R o) -> f_i R (o_slots R o) = Some i -> 0 <= populationSize (s_opt (o_set R o)) ->
  step' o (InitializePop R) = Ok o2 ->
  o_set R o2 = o_set R o /\ o_slots R o2 = o_slots R o /\ o_args R o2 = o_args R o /\ o_inited R o2 = true /\
  Z.of_nat (length (get_population R o2)) = populationSize (s_opt (o_set R o)).
Proof.
  intros W Ei Hp E. cbn [step] in E. unfold do_init in E. cbv zeta in E. rewrite Ei in E. apply Ok_inj in E. subst o2.
  cbn [o_set o_slots o_args o_inited get_population o_core]. repeat (split; [reflexivity|]).
  unfold get_population. cbn [o_core]. unfold soga_initializePop. cbn [pop].
  match goal with |- context [initializePop R ?fs ?opt ?j ?v ?c] => destruct (initialize_spec_lemma R fs opt j v c W) as (L & _ & _); cbv zeta in L; rewrite L end.
  apply Z2Nat.id, Hp.
Qed.
(** What the setters leave behind. *)
Definition set_up (ct : @slots V A R) (a : A) (g : G R) (pre : list (@call V A R)) i f c m (st : settings) (a1 : A) : Prop :=
  exists o1, drive' (start ct a g) pre = Ok o1 /\ o_slots R o1 = mkSlots R (Some i) (Some f) (Some c) (Some m) /\ o_set R o1 = st /\ o_args R o1 = a1.
Definition good_settings (st : settings) : Prop :=
  1 <= populationSize (s_opt st) /\ 4 * populationSize (s_opt st) <= B /\
  0 <= maxGenerations (s_opt st) < two64 - 1 /\ maxGenerations (s_opt st) + 1 <= vec_max /\
  (method_of mode st = Tournament -> s_tour st < populationSize (s_opt st)) /\
  (method_of mode st = Boltzmann -> s_strength st <> None).
Definition stays_inside (i : A -> G R -> V * G R) (f : A -> V -> double) (c : A -> V -> V -> G R -> (V * V) * G R) (m : A -> V -> G R -> V * G R) (a1 : A) : Prop :=
  (forall v, inside v = true -> nonnan (f a1 v)) /\ init_inside R inside (i a1) /\ cross_inside R inside (c a1) /\ mutate_inside R inside (m a1).
Lemma wf_fresh ct a g : wf (o_core R (start (ct : @slots V A R) (a : A) g)).
Proof. split; [constructor|intros x []]. Qed.
Lemma program_lawful (Q : option method -> settings -> Prop) ct a g pre i f c m st a1 : Forall plain_call pre -> set_up ct a g pre i f c m st a1 -> good_settings st -> stays_inside i f c m a1 -> Q mode st ->
  ok_history Q (start ct a g) (pre ++ [InitializePop R; Run R]).
Proof.
  intros Hp (o1 & H1 & S1 & S2 & S3) (G1 & G2 & G3 & G4 & G5 & G6) (I1 & I2 & I3 & I4) HQ.
  apply in_history_app; [apply plain_lawful, Hp|]. intros o' E. assert (o' = o1) by congruence. subst o'. clear E.
  split.
  - cbn [lawful_in lawful]. rewrite S1, S2, S3. cbn [f_i]. split; [split; [discriminate|lia]|]. intros i' Ei. injection Ei as <-. exact I2.
  - intros o2 E2. split; [|intros; exact Logic.I].
    assert (W : wf (o_core R o1)) by (rewrite (plain_core _ Hp _ _ H1); apply wf_fresh).
    destruct (init_frame o1 o2 i W) as (F1 & F2 & F3 & F4 & _); [rewrite S1; reflexivity|rewrite S2; lia|exact E2|].
    cbn [lawful_in]. rewrite F1, F2, F3, S1, S2, S3. split; [exact F4|]. split; [exists f, c, m; repeat (split; [reflexivity|]); auto|].
    rewrite wrap64_small by lia. auto 10.
Qed.
Lemma program_returns ct a g pre i f c m st a1 : Forall plain_call pre -> set_up ct a g pre i f c m st a1 -> good_settings st -> stays_inside i f c m a1 ->
  pow_ok pw -> B <= Z.of_nat sel_fuel -> ending_method mode st -> exists o, drive' (start ct a g) (pre ++ [InitializePop R; Run R]) = Ok o.
Proof.
  intros. apply (C92_soga_returns V A R std mode greater rec_on pw ex junk v0 vec_max sel_fuel B inside ct a g); try assumption.
  eapply program_lawful; eassumption.
Qed.
Lemma program_defined ct a g pre i f c m st a1 : Forall plain_call pre -> set_up ct a g pre i f c m st a1 -> good_settings st -> stays_inside i f c m a1 ->
  plain_method mode st -> drive' (start ct a g) (pre ++ [InitializePop R; Run R]) <> UB /\ drive' (start ct a g) (pre ++ [InitializePop R; Run R]) <> Abort.
Proof.
  intros. apply (C92_soga_defined V A R std mode greater rec_on pw ex junk v0 vec_max sel_fuel B inside ct a g); try assumption.
  eapply program_lawful; eassumption.
Qed.
Lemma program_after ct a g pre i f c m st a1 o : Forall plain_call pre -> set_up ct a g pre i f c m st a1 -> good_settings st -> stays_inside i f c m a1 -> size_safe mode st ->
  drive' (start ct a g) (pre ++ [InitializePop R; Run R]) = Ok o ->
  Z.of_nat (length (get_population R o)) = populationSize (s_opt st) /\
  (forall x, In x (get_population R o) -> inside (gvar x) = true /\ (gcomp x = true -> gfit x = f a1 (gvar x))) /\
  exists v n k, get_result R o = Ok v /\ get_bestFitness R o = Ok (f a1 v) /\ inside v = true /\
    (forall y, In y (get_population R o) -> isBetter greater (gfit y) (f a1 v) = false) /\
    get_generation R o = Ok n /\ get_failTimes R o = Ok k /\ 0 <= n <= maxGenerations (s_opt st) /\ 0 <= k <= n + 1 /\
    (n = maxGenerations (s_opt st) \/ 0 < maxFailTimes (s_opt st) < k) /\ (rec_on = true -> Z.of_nat (length (o_rec R o)) = n + 1).
Proof.
  intros Hp Hs Hg Hi HQ H. pose proof (program_lawful size_safe ct a g pre i f c m st a1 Hp Hs Hg Hi HQ) as L.
  destruct Hs as (o1 & H1 & S1 & S2 & S3). destruct Hg as (G1 & _).
  assert (H' : drive' (start ct a g) ((pre ++ [InitializePop R]) ++ [Run R]) = Ok o) by (rewrite <- app_assoc; exact H). rewrite drive_app in H'. apply bind_Ok in H'. destruct H' as (o2 & D2 & D).
  assert (L2 : ok_history size_safe (start ct a g) ((pre ++ [InitializePop R]) ++ [Run R])) by (rewrite <- app_assoc; exact L).
  pose proof D2 as E2. rewrite drive_app, H1 in E2. cbn [bind drive] in E2. apply bind_Ok in E2. destruct E2 as (o2' & E2 & Eo). apply Ok_inj in Eo. subst o2'.
  assert (W : wf (o_core R o1)) by (rewrite (plain_core _ Hp _ _ H1); apply wf_fresh).
  destruct (init_frame o1 o2 i W) as (F1 & F2 & F3 & F4 & F5); [rewrite S1; reflexivity|rewrite S2; lia|exact E2|].
  destruct (C92_soga_after_run V A R std mode greater rec_on pw ex junk v0 vec_max sel_fuel B inside ct a g _ o2 o HR Hstd HB L2 D2 D) as ((x & n & k & A1 & A2 & A3 & A4 & A5 & A6 & A7 & A8) & Sz).
  destruct (stop_reason ct a g _ o2 o L2 D2 D) as (n' & k' & N1 & N2 & N3 & N4).
  assert (n' = n) by congruence. assert (k' = k) by congruence. subst n' k'. rewrite F1, S2 in *.
  destruct (C92_soga_stays_inside V A R std mode greater rec_on pw ex junk v0 vec_max sel_fuel B inside size_safe ct a g _ o HR Hstd L H) as (St & _).
  assert (Cur : forall y, In y (get_population R o) -> gcomp y = true -> gfit y = f a1 (gvar y)).
  { assert (Kf : f_f R (o_slots R o) = Some f /\ o_args R o = a1).
    { cbn [drive] in D. apply bind_Ok in D. destruct D as (o' & D & Eo). apply Ok_inj in Eo. subst o'.
      destruct (step_same R std mode greater rec_on pw ex junk v0 vec_max sel_fuel o2 o (Run R) Logic.I D) as (T1 & T2). rewrite T1, T2, F2, F3, S1, S3. split; reflexivity. }
    destruct Kf as (K1 & K2). rewrite <- K2.
    apply (C92_soga_fitness_is_current V A R std mode greater rec_on pw ex junk v0 vec_max sel_fuel B inside ct a g pre [Run R] o f HR Hstd HB L); [repeat constructor|exact H|exact K1]. }
  split; [apply Sz; lia|]. split; [intros y Hy; split; [apply St, Hy|apply Cur, Hy]|].
  assert (Ex : gfit x = f a1 (gvar x)).
  { unfold get_bestFitness in A2. unfold get_result in A3. apply bind_Ok in A2. destruct A2 as (b & Eb & A2). rewrite Eb in A3. cbn [bind] in A3.
    destruct (gcomp b) eqn:Cb; [|discriminate A2]. apply Ok_inj in A2, A3. rewrite A2, A3. apply Cur; [|exact Cb].
    unfold get_best in Eb. destruct (o_inited R o); [|discriminate Eb]. apply lookup_ok in Eb. apply Eb. }
  exists (gvar x), n, k. rewrite Ex in A2, A4. split; [exact A3|]. split; [exact A2|]. split; [apply St, A1|]. auto 10.
Qed.
End Program.
