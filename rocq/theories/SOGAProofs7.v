(** Single-objective selection over whole histories: what holds after every
    round, failTimes as a function of the history, monotone best fitness. *)
From Coq Require Import List Arith ZArith Reals Bool Lia Lra Permutation.
From Flocq Require Import Core BinarySingleNaN.
From Verif Require Import Base Fl FlFacts Rng RandProofs StdOps ListFacts GABase GABaseProofs GAOpsProofs SOGA SOGAProofs SOGAProofs2 SOGAProofs3 SOGAProofs4 SOGAProofs5 SOGAProofs6.
Import ListNotations.
Open Scope Z_scope.

Section P.
Context {V : Type} (R : rng_ops) (std : std_ops) (greater : bool) (opt : ga_option) (sp : sel_params).
Notation core' := (core V double nat (G R)).
Notation gene' := (gene V double).
Notation isB := (isBetter greater).
Notation K' := (K opt).

(** Every member of the new population is a copy of a member of the old one. *)
Definition from_old (c c' : core') : Prop :=
  forall x, In x (pop c') -> exists y, In y (pop c) /\ content x = content y.

Lemma sublist_from_old (c c' : core') : sublist (pop c') (pop c) -> from_old c c'.
Proof. intros S x Hx. exists x. split; [eapply sublist_in; eauto|reflexivity]. Qed.

Lemma selects_to_wf (c c' : core') n : wf c -> selects_to R greater c c' n -> wf c' /\ from_old c c'.
Proof.
  intros (N & Hn) ((S & _ & E) & _). split; [split|apply sublist_from_old, S].
  - eapply sublist_NoDup; [apply sublist_map, S|exact N].
  - intros x Hx. rewrite E. apply Hn. eapply sublist_in; eauto.
Qed.

(** The size every method aims for. *)
Definition exact_size (m : method) (c : core') : Z :=
  match m with
  | EliteReserved => elite_size R opt sp c
  | _ => min_size R opt c
  end.

Lemma select_spec m fuel (c c' : core') : rng_ok R -> std_ok std -> wf c -> sizes_ok R opt c ->
  0 <= tournamentSize sp ->
  select R std greater opt sp m fuel c = Ok c' ->
  wf c' /\ from_old c c' /\ best_reported R greater c' /\ fail_counted R greater c c' /\
  (m <> Tournament -> sublist (pop c') (pop c)) /\
  (m <> StochasticUniversal -> Z.of_nat (length (pop c')) = exact_size m c).
Proof.
  intros HR Hstd Hw Hs Hts H.
  assert (Gen : forall n, (m <> StochasticUniversal -> n = exact_size m c) -> selects_to R greater c c' n -> 
    wf c' /\ from_old c c' /\ best_reported R greater c' /\ fail_counted R greater c c' /\
    (m <> Tournament -> sublist (pop c') (pop c)) /\ (m <> StochasticUniversal -> Z.of_nat (length (pop c')) = exact_size m c)).
  { intros n En S. destruct (selects_to_wf c c' n Hw S) as (A & B). destruct S as ((S1 & S2 & _) & S3 & S4).
    split; [exact A|]. split; [exact B|]. split; [exact S3|]. split; [exact S4|]. split; [intros _; exact S1|].
    intros Hm. rewrite S2. apply En, Hm. }
  destruct m; cbn [select] in H.
  - eapply Gen; [intros; reflexivity|]. eapply roulette_spec; eauto.
  - (* Tournament *)
    pose proof H as H0. unfold sel_tournament in H0. destruct (sizes_int R opt c Hs) as (E1 & E2). rewrite E2, E1 in H0.
    destruct (Z.ltb_spec (tournamentSize sp) K') as [Lt|Lt]; cbn [negb] in H0; [|discriminate].
    destruct (bestFitness R c) as [f| | |] eqn:Ef; cbn [bind] in H0; try discriminate.
    unfold popSize in H0. destruct (Z.leb_spec (Z.of_nat (length (pop c))) K') as [L|L].
    + eapply Gen; [intros; reflexivity|]. eapply early2; [apply Hw| |exact Ef|exact H0]. unfold exact_size, min_size. lia.
    + clear H0. assert (Hb : best_valid R c).
      { apply bestFitness_inv in Ef. destruct Ef as (o & (Ho & Hi) & _). unfold best_valid. rewrite <- Hi. apply in_map, Ho. }
      destruct (tournament_ok R std greater opt sp c HR Hstd Hw Hb Hs) as (c2 & ws & E & Lw & Fw & Pm & Wf & B & Fc); [lia|exact L|].
      rewrite E in H. inversion H; subst c2. split; [exact Wf|]. split.
      { intros x Hx. apply (in_map content) in Hx. apply (Permutation_in _ (Permutation_sym Pm)) in Hx.
        apply in_map_iff in Hx. destruct Hx as (w & Ew & Hw'). exists w. split; [|congruence].
        rewrite Forall_forall in Fw. destruct (Fw w Hw') as (cs & _ & I & _ & Hc & _). apply I, Hc. }
      split; [exact B|]. split; [exact Fc|]. split; [congruence|]. intros _.
      apply Permutation_length in Pm. rewrite !map_length in Pm. rewrite <- Pm, Lw. unfold exact_size, min_size. destruct Hs; lia.
  - eapply Gen; [intros; reflexivity|]. eapply truncation_spec; eauto. destruct Hs; lia.
  - eapply Gen; [intros; reflexivity|]. eapply montecarlo_spec; eauto.
  - eapply Gen; [intros; reflexivity|]. eapply probability_spec; eauto.
  - eapply Gen; [intros; reflexivity|]. eapply linear_spec; eauto.
  - eapply Gen; [intros; reflexivity|]. eapply exponential_spec; eauto.
  - eapply Gen; [intros; reflexivity|]. eapply boltzmann_spec; eauto.
  - apply stochastic_spec in H; try assumption. destruct H as (n & [(S & _)|(S & _)]); apply (Gen n); try congruence; exact S.
  - eapply Gen; [intros; reflexivity|]. eapply elite_spec; eauto.
Qed.

(** ** One round inside run() *)
Context (fs : user_funs V double (G R)) (junk : double) (m : method) (fuel : nat).
Notation hk := (soga_hooks R std greater opt sp m fuel).
Notation comp := (computeAllFitness R fs).
Notation brd := (breed R fs opt junk).

Definition small (c : core') : Prop := 0 <= K' < 2147483648 /\ Z.of_nat (length (pop c)) < 2147483648.

Lemma comp_small (c : core') : small c -> sizes_ok R opt (comp c).
Proof. intros (A & B). split; [exact A|]. cbn [pop computeAllFitness]. rewrite map_length. exact B. Qed.

Lemma breed_keeps (c : core') : rng_ok R -> wf c -> wf (brd c) /\ fails (brd c) = fails c /\ ext (brd c) = ext c /\
  exists kids, pop (brd c) = pop c ++ kids.
Proof.
  intros HR Hw. unfold breed.
  destruct (crossover_spec_lemma R fs opt junk c HR Hw) as (ps & ks & E1 & _ & _ & _ & _ & _ & W1 & F1 & X1).
  destruct (mutate_spec_lemma R fs opt junk (crossover R fs opt junk c) W1) as (kids & E2 & _ & _ & W2 & F2 & X2).
  split; [exact W2|]. split; [congruence|]. split; [congruence|]. exists (flat ks ++ kids). rewrite E2, E1, app_assoc. reflexivity.
Qed.

Lemma comp_computed (c : core') x : In x (pop (comp c)) -> gcomp x = true.
Proof.
  cbn [pop computeAllFitness]. intros H. apply in_map_iff in H. destruct H as (y & <- & _).
  unfold evaluated. destruct (gcomp y) eqn:E; [exact E|reflexivity].
Qed.

Lemma best_carries (c : core') b : rng_ok R -> wf c -> is_best_gene R c b -> gcomp b = true ->
  is_best_gene R (comp (brd c)) b.
Proof.
  intros HR Hw (Hb & Hid) Hc. destruct (breed_keeps c HR Hw) as (_ & _ & X & kids & E).
  split; [|cbn [ext computeAllFitness]; congruence]. cbn [pop computeAllFitness]. rewrite E, map_app. apply in_or_app. left.
  apply in_map_iff. exists b. split; [unfold evaluated; rewrite Hc; reflexivity|exact Hb].
Qed.

Lemma best_gene_fitness (c : core') b : wf c -> is_best_gene R c b -> bestFitness R c = Ok (gfit b).
Proof. intros (N & _) (Hb & Hid). unfold bestFitness. rewrite <- Hid, lookup_in by assumption. reflexivity. Qed.

Lemma round_step (c0 c : core') : rng_ok R -> std_ok std -> 0 <= tournamentSize sp -> wf c0 -> small c0 ->
  evaluate_and_select R fs hk c0 = Ok c ->
  exists old b, bestFitness R (comp c0) = Ok old /\ bestFitness R c = Ok b /\
    fails c = (if isB b old then 0 else wrap64 (fails c0 + 1)) /\
    wf c /\ wf (brd c) /\ fails (brd c) = fails c /\ bestFitness R (comp (brd c)) = Ok b.
Proof.
  intros HR Hstd Hts Hw Hsm H. unfold evaluate_and_select in H. cbn [hk_select soga_hooks] in H.
  pose proof (compute_wf R fs c0 Hw) as Hwc.
  destruct (select_spec m fuel (comp c0) c HR Hstd Hwc (comp_small c0 Hsm) Hts H) as (Wc & Fo & _ & (old & b & Ho & Hb & Hf) & _).
  destruct (breed_keeps c HR Wc) as (Wb & Fb & _).
  assert (Cb : gcomp b = true).
  { destruct (Fo b (proj1 Hb)) as (y & Hy & E). apply comp_computed in Hy. unfold content in E. congruence. }
  exists (gfit old), (gfit b). split; [apply best_gene_fitness; assumption|]. split; [apply best_gene_fitness; assumption|].
  split; [exact Hf|]. split; [exact Wc|]. split; [exact Wb|]. split; [exact Fb|].
  apply best_gene_fitness; [apply compute_wf, Wb|]. apply best_carries; assumption.
Qed.

(** ** failTimes over a history *)
(** [before c0 cs] are the states that enter the rounds: the initial one and
    the bred states. *)
Definition before (c0 : core') (cs : list core') : list core' := c0 :: map brd (removelast cs).

(** [bests p bs]: the best fitness before the first round, then after each. *)
Definition improves (bests : list double) (k : nat) : Prop :=
  exists a b, nth_error bests k = Some a /\ nth_error bests (S k) = Some b /\ isB b a = true.

Lemma history cs : forall c0, rng_ok R -> std_ok std -> 0 <= tournamentSize sp -> wf c0 ->
  Forall small (c0 :: map brd cs) ->
  rounds R fs opt junk hk c0 cs -> cs <> [] ->
  exists p bs, bestFitness R (comp c0) = Ok p /\ Forall2 (fun c b => bestFitness R c = Ok b) cs bs /\
    (forall k c, nth_error cs k = Some c ->
       exists a b, nth_error (p :: bs) k = Some a /\ nth_error bs k = Some b /\
         fails c = (if isB b a then 0 else
                    wrap64 ((match k with O => fails c0 | S j => match nth_error cs j with Some c1 => fails c1 | None => 0 end end) + 1))).
Proof.
  induction cs as [|c cs IH]; intros c0 HR Hstd Hts Hw Hsm Hr Hne; [congruence|].
  cbn [rounds] in Hr. destruct Hr as (H1 & H2). inversion Hsm as [|? ? Hs1 Hs2]; subst. cbn [map] in Hs2.
  destruct (round_step c0 c HR Hstd Hts Hw Hs1 H1) as (p & b & Bp & Bb & Hf & Wc & Wb & Fb & Bn).
  destruct cs as [|c1 cs].
  - exists p, [b]. split; [exact Bp|]. split; [repeat constructor; exact Bb|].
    intros [|k] x Hk; [|destruct k; discriminate]. cbn in Hk. inversion Hk; subst x.
    exists p, b. repeat split. exact Hf.
  - destruct (IH (brd c) HR Hstd Hts Wb Hs2 H2 ltac:(discriminate)) as (p' & bs & Bp' & F2 & Hk).
    assert (p' = b) by congruence. subst p'.
    exists p, (b :: bs). split; [exact Bp|]. split; [constructor; assumption|].
    intros [|k] x Hx.
    + cbn in Hx. inversion Hx; subst x. exists p, b. repeat split. exact Hf.
    + cbn [nth_error] in Hx. destruct (Hk k x Hx) as (a & b' & Ha & Hb' & Hfx).
      exists a, b'. split; [exact Ha|]. split; [exact Hb'|]. rewrite Hfx. destruct k as [|k]; [|reflexivity].
      cbn [nth_error]. rewrite Fb. reflexivity.
Qed.

Lemma fails_history c0 cs : rng_ok R -> std_ok std -> 0 <= tournamentSize sp -> wf c0 ->
  Forall small (c0 :: map brd cs) -> fails c0 = 0 -> Z.of_nat (length cs) < two64 ->
  rounds R fs opt junk hk c0 cs -> cs <> [] ->
  exists p bs, bestFitness R (comp c0) = Ok p /\ Forall2 (fun c b => bestFitness R c = Ok b) cs bs /\
    forall j c i, nth_error cs j = Some c -> (i <= S j)%nat ->
      (forall k, (i <= k <= j)%nat -> ~ improves (p :: bs) k) ->
      (i = O \/ improves (p :: bs) (i - 1)) ->
      fails c = Z.of_nat (S j - i).
Proof.
  intros HR Hstd Hts Hw Hsm H0 HL Hr Hne.
  destruct (history cs c0 HR Hstd Hts Hw Hsm Hr Hne) as (p & bs & Bp & F2 & Hk).
  exists p, bs. split; [exact Bp|]. split; [exact F2|].
  induction j as [|j IH]; intros c i Hc Hi Hno Himp.
  - destruct (Hk 0%nat c Hc) as (a & b & Ha & Hb & Hf). rewrite H0 in Hf. cbn [nth_error] in Ha.
    destruct i as [|[|i]]; [| |lia].
    + assert (E : isB b a = false).
      { destruct (isB b a) eqn:E; [|reflexivity]. exfalso. apply (Hno 0%nat); [lia|]. exists a, b. auto. }
      rewrite E in Hf. exact Hf.
    + destruct Himp as [C|(a' & b' & Ha' & Hb' & E)]; [discriminate|]. cbn in Ha, Hb, Ha', Hb'.
      assert (a' = a) by congruence. assert (b' = b) by congruence. subst. rewrite E in Hf. exact Hf.
  - destruct (Hk (S j) c Hc) as (a & b & Ha & Hb & Hf).
    assert (Hlen : (S j < length cs)%nat) by (apply nth_error_Some; congruence).
    destruct (nth_error cs j) as [c1|] eqn:E1; [|apply nth_error_None in E1; lia].
    destruct (Nat.eq_dec i (S (S j))) as [->|Ne].
    + destruct Himp as [C|(a' & b' & Ha' & Hb' & E)]; [discriminate|].
      replace (S (S j) - 1)%nat with (S j) in * by lia. change (nth_error (p :: bs) (S (S j))) with (nth_error bs (S j)) in Hb'.
      assert (a' = a) by congruence. assert (b' = b) by congruence. subst. rewrite E in Hf. rewrite Hf. rewrite Nat.sub_diag. reflexivity.
    + assert (E : isB b a = false).
      { destruct (isB b a) eqn:E; [|reflexivity]. exfalso. apply (Hno (S j)); [lia|]. exists a, b. auto. }
      rewrite E in Hf. rewrite Hf. rewrite (IH c1 i eq_refl ltac:(lia)).
      * rewrite wrap64_small by lia. lia.
      * intros k Hk'. apply Hno. lia.
      * exact Himp.
Qed.

(** ** Monotone best fitness *)
Definition all_nonnan (c : core') : Prop := forall x, In x (pop c) -> gcomp x = true -> nonnan (gfit x).

Lemma comp_nonnan (c : core') : (forall v, nonnan (fFun fs v)) -> all_nonnan c ->
  forall x, In x (pop (comp c)) -> nonnan (gfit x).
Proof.
  intros Hf Hc x Hx. cbn [pop computeAllFitness] in Hx. apply in_map_iff in Hx. destruct Hx as (y & <- & Hy).
  unfold evaluated. destruct (gcomp y) eqn:E; [apply Hc; assumption|apply Hf].
Qed.

Lemma select_elitist (c c' : core') : std_ok std -> wf c -> sizes_ok R opt c ->
  m = Truncation \/ (m = EliteReserved /\ 1 <= eliteNum sp) ->
  (forall x, In x (pop c) -> nonnan (gfit x)) ->
  select R std greater opt sp m fuel c = Ok c' -> elitist R greater c c'.
Proof.
  intros Hstd Hw Hs [->|(-> & He)] NN H; cbn [select] in H.
  - eapply truncation_spec in H; try assumption; [apply H|destruct Hs; lia].
  - eapply elite_spec in H; try eassumption. apply H; assumption.
Qed.

Lemma breed_unevaluated (c : core') x : rng_ok R -> wf c -> In x (pop (brd c)) -> In x (pop c) \/ gcomp x = false.
Proof.
  intros HR Hw Hx. unfold breed in Hx.
  destruct (crossover_spec_lemma R fs opt junk c HR Hw) as (ps & ks & E1 & _ & _ & _ & Fk & _ & W1 & _).
  destruct (mutate_spec_lemma R fs opt junk (crossover R fs opt junk c) W1) as (kids & E2 & Fm & _).
  rewrite E2, E1 in Hx. apply in_app_or in Hx. destruct Hx as [Hx|Hx].
  - apply in_app_or in Hx. destruct Hx as [Hx|Hx]; [left; exact Hx|right].
    clear -Fk Hx. induction Fk as [|[a b] [k l] ps ks Hkl F IH]; cbn in Hx; [contradiction|].
    destruct Hkl as (g & _ & C1 & C2). destruct Hx as [<-|[<-|Hx]]; cbn in *; auto.
  - right. clear -Fm Hx. induction Fm as [|a k l ks Hkl F IH]; cbn in Hx; [contradiction|].
    destruct Hkl as (g & _ & C). destruct Hx as [<-|Hx]; auto.
Qed.

(** The state that enters round number [i] (from 0). *)
Definition entering (c0 : core') (cs : list core') (i : nat) (c : core') : Prop :=
  match i with O => c = c0 | S j => exists c1, nth_error cs j = Some c1 /\ c = brd c1 end.

Lemma best_so_far cs : forall c0, rng_ok R -> std_ok std -> 0 <= tournamentSize sp -> wf c0 ->
  m = Truncation \/ (m = EliteReserved /\ 1 <= eliteNum sp) ->
  Forall small (c0 :: map brd cs) -> (forall v, nonnan (fFun fs v)) -> all_nonnan c0 ->
  rounds R fs opt junk hk c0 cs ->
  forall i j ci x cj b, (i <= j)%nat -> entering c0 cs i ci -> In x (pop (comp ci)) ->
    nth_error cs j = Some cj -> bestFitness R cj = Ok b -> nonnan b /\ nonnan (gfit x) /\ isB (gfit x) b = false.
Proof.
  induction cs as [|c cs IH]; intros c0 HR Hstd Hts Hw Hm Hsm Hnn Hc0 Hr i j ci x cj b Hij Hent Hx Hj Hb.
  { destruct j; discriminate. }
  cbn [rounds] in Hr. destruct Hr as (H1 & H2). inversion Hsm as [|? ? Hs1 Hs2]; subst. cbn [map] in Hs2.
  pose proof (compute_wf R fs c0 Hw) as Hwc. pose proof (comp_small c0 Hs1) as Hss.
  pose proof (comp_nonnan c0 Hnn Hc0) as NN.
  assert (Hel : elitist R greater (comp c0) c).
  { eapply select_elitist; try eassumption. }
  destruct (select_spec m fuel (comp c0) c HR Hstd Hwc Hss Hts H1) as (Wc & Fo & (b0 & Hb0 & _) & _).
  assert (Nc : forall y, In y (pop c) -> nonnan (gfit y)).
  { intros y Hy. destruct (Fo y Hy) as (z & Hz & E). unfold content in E. replace (gfit y) with (gfit z) by congruence. apply NN, Hz. }
  assert (Cc : forall y, In y (pop c) -> gcomp y = true).
  { intros y Hy. destruct (Fo y Hy) as (z & Hz & E). apply comp_computed in Hz. unfold content in E. congruence. }
  destruct (breed_keeps c HR Wc) as (Wb & _).
  assert (Hcb : all_nonnan (brd c)).
  { intros y Hy Hcy. destruct (breed_unevaluated c y HR Wc Hy) as [Hin|Hf]; [apply Nc, Hin|congruence]. }
  destruct j as [|j].
  - cbn in Hj. inversion Hj; subst cj. replace i with O in Hent by lia. cbn in Hent. subst ci.
    rewrite (best_gene_fitness c b0 Wc Hb0) in Hb. inversion Hb; subst b.
    split; [apply Nc, Hb0|]. split; [apply NN, Hx|]. apply Hel; assumption.
  - cbn [nth_error] in Hj. specialize (IH (brd c) HR Hstd Hts Wb Hm Hs2 Hnn Hcb H2).
    destruct i as [|i].
    + cbn in Hent. subst ci.
      destruct (IH O j (brd c) b0 cj b ltac:(lia) eq_refl (proj1 (best_carries c b0 HR Wc Hb0 (Cc b0 (proj1 Hb0)))) Hj Hb) as (Nb & Nb0 & NB).
      split; [exact Nb|]. split; [apply NN, Hx|].
      destruct (isB (gfit x) b) eqn:E; [|reflexivity]. exfalso.
      destruct (isB_weak greater (gfit x) b (gfit b0) (NN x Hx) Nb Nb0 E) as [C|C]; [|congruence].
      rewrite (Hel x b0 Hx Hb0) in C. discriminate.
    + apply (IH i j ci x cj b); try assumption; [lia|]. cbn [entering nth_error] in Hent.
      destruct Hent as (c1 & Hn & ->). destruct i as [|i]; cbn in Hn |- *; [congruence|eauto].
Qed.
End P.
