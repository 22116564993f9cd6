(** Whole runs of the single-objective solver: no undefined behaviour from
    initializePop() to the end of run(), for every method that remembers the
    previous best fitness before removing individuals. *)
From Coq Require Import List Arith ZArith Reals Bool Lia Lra Permutation.
From Flocq Require Import Core BinarySingleNaN.
From Verif Require Import Base Fl FlFacts Rng RandProofs StdOps ListFacts GABase GABaseProofs GAOpsProofs SOGA SOGAProofs SOGAProofs2 SOGAProofs3 SOGAProofs4 SOGAProofs5 SOGAProofs6 SOGAProofs7.
Import ListNotations.
Open Scope Z_scope.

Section P.
Context {V : Type} (R : rng_ops) (std : std_ops) (greater : bool) (opt : ga_option) (sp : sel_params).
Context (fs : user_funs V double (G R)) (junk : double) (m : method) (fuel : nat).
Notation core' := (core V double nat (G R)).
Notation gene' := (gene V double).
Notation isB := (isBetter greater).
Notation K' := (K opt).
Notation hk := (soga_hooks R std greater opt sp m fuel).
Notation brd := (breed R fs opt junk).
Notation comp := (computeAllFitness R fs).

Definition safe_method : Prop := m <> Truncation /\ m <> EliteReserved.
(** Tournament asserts tournamentSize < populationSize (SOGASelecters.hpp:213). *)
Definition params_ok : Prop := 0 <= tournamentSize sp < K'.

Lemma select_defined (c : core') : rng_ok R -> std_ok std -> wf c -> best_valid R c -> 1 <= K' -> sizes_ok R opt c ->
  params_ok -> (forall x, In x (pop c) -> nonnan (gfit x)) -> safe_method ->
  defined (select R std greater opt sp m fuel c).
Proof.
  intros HR Hstd Hw Hb HK Hs Ht NN (M1 & M2). destruct m; cbn [select]; try congruence.
  - apply roulette_defined; assumption.
  - destruct (Z.ltb_spec K' (Z.of_nat (length (pop c)))) as [L|L].
    + destruct (tournament_ok R std greater opt sp c HR Hstd Hw Hb Hs Ht L) as (c' & _ & -> & _). apply defined_ok.
    + unfold sel_tournament. destruct (sizes_int R opt c Hs) as (E1 & E2). rewrite E1, E2. unfold popSize.
      destruct (bestFitness_ok R c Hw Hb) as (pf & ->). cbn [bind].
      destruct Ht as (_ & Ht). apply Z.ltb_lt in Ht. rewrite Ht. cbn [negb].
      apply Z.leb_le in L. rewrite L. apply early2_defined; assumption.
  - destruct (montecarlo_ok R greater opt c Hw Hb HK Hs HR) as (c' & ->). apply defined_ok.
  - apply probability_defined; assumption.
  - apply linear_defined; assumption.
  - apply exponential_defined; assumption.
  - apply boltzmann_defined; assumption.
  - destruct (stochastic_ok R greater opt c Hw Hb HK Hs HR) as (c' & ->). apply defined_ok.
Qed.

Lemma flat_len {A} (l : list (A * A)) : length (flat l) = (2 * length l)%nat.
Proof. induction l as [|[a b] l IH]; cbn; [reflexivity|]. unfold flat in IH. rewrite IH. lia. Qed.
Lemma filter_le {A} (f : A -> bool) l : (length (filter f l) <= length l)%nat.
Proof. induction l as [|a l IH]; cbn; [lia|]. destruct (f a); cbn; lia. Qed.
Lemma drawn_le {A} q (p : list A) ds : (length (drawn q p ds) <= length p)%nat.
Proof.
  unfold drawn. rewrite map_length. etransitivity; [apply filter_le|]. rewrite combine_length. lia.
Qed.

(** Breeding at most quadruples the population. *)
Lemma breed_size (c : core') : rng_ok R -> wf c -> (length (pop (brd c)) <= 4 * length (pop c))%nat.
Proof.
  intros HR Hw. unfold breed.
  destruct (crossover_spec_lemma R fs opt junk c HR Hw) as (ps & ks & E1 & L1 & _ & _ & F1 & _ & W1 & _).
  destruct (mutate_spec_lemma R fs opt junk (crossover R fs opt junk c) W1) as (kids & E2 & F2 & _).
  assert (A : (length (pop (crossover R fs opt junk c)) <= 2 * length (pop c))%nat).
  { rewrite E1, app_length, flat_len. apply Forall2_len in F1. rewrite <- F1, L1.
    pose proof (drawn_le (crossoverProb opt) (pop c) (fst (draws R (length (pop c)) (gen_rng c)))) as D.
    pose proof (Nat.div_mod (length (drawn (crossoverProb opt) (pop c) (fst (draws R (length (pop c)) (gen_rng c))))) 2 ltac:(lia)). lia. }
  rewrite E2, app_length. apply Forall2_len in F2. rewrite <- F2.
  pose proof (drawn_le (mutateProb opt) (pop (crossover R fs opt junk c)) (fst (draws R (length (pop (crossover R fs opt junk c))) (gen_rng (crossover R fs opt junk c))))). lia.
Qed.

Definition inv (c : core') : Prop :=
  wf c /\ best_valid R c /\ all_nonnan R c /\ Z.of_nat (length (pop c)) <= 4 * K'.

Lemma comp_best (c : core') : best_valid R c -> best_valid R (comp c).
Proof.
  unfold best_valid. cbn [pop ext computeAllFitness]. rewrite map_map.
  rewrite (map_ext (fun x => gid (evaluated R fs x)) gid); [auto|].
  intros x. unfold evaluated. destruct (gcomp x); reflexivity.
Qed.

Lemma inv_round (c0 c : core') : rng_ok R -> std_ok std -> 1 <= K' -> 4 * K' < 2147483648 -> 0 <= tournamentSize sp ->
  m <> StochasticUniversal -> m <> EliteReserved -> (forall v, nonnan (fFun fs v)) ->
  inv c0 -> evaluate_and_select R fs hk c0 = Ok c -> inv (brd c) /\ bestFitness R c <> UB /\ bestFitness R c <> Abort /\ bestFitness R c <> Fuel.
Proof.
  intros HR Hstd HK HK4 Ht HSU HEl Hf (Hw & Hb & Hnn & Hl) H.
  assert (Hs : sizes_ok R opt (comp c0)) by (apply comp_small; split; lia).
  unfold evaluate_and_select in H. cbn [hk_select soga_hooks] in H.
  pose proof (compute_wf R fs c0 Hw) as Hwc.
  destruct (select_spec R std greater opt sp m fuel (comp c0) c HR Hstd Hwc Hs Ht H) as (Wc & Fo & (b & (Bin & Bid) & _) & _ & _ & Sz).
  specialize (Sz HSU). destruct (breed_keeps R opt fs junk c HR Wc) as (Wb & _ & X & kids & E).
  split; [split; [exact Wb|split; [|split]]|].
  - unfold best_valid. rewrite X, E, map_app. apply in_or_app. left. rewrite <- Bid. apply in_map, Bin.
  - intros x Hx Hc. destruct (breed_unevaluated R opt fs junk c x HR Wc Hx) as [Hx'|Hx']; [|congruence].
    destruct (Fo x Hx') as (y & Hy & Ey). assert (gfit x = gfit y) as -> by (unfold content in Ey; congruence).
    exact (comp_nonnan R fs c0 Hf Hnn y Hy).
  - pose proof (breed_size c HR Wc).
    assert (Z.of_nat (length (pop c)) <= K').
    { rewrite Sz. unfold exact_size, min_size. destruct m; try congruence; lia. }
    lia.
  - destruct (bestFitness_ok R c Wc) as (f & ->); [|repeat split; discriminate].
    unfold best_valid. rewrite <- Bid. apply in_map, Bin.
Qed.

Lemma loop_defined rec_on n : rng_ok R -> std_ok std -> 1 <= K' -> 4 * K' < 2147483648 -> params_ok ->
  safe_method -> m <> StochasticUniversal -> (forall v, nonnan (fFun fs v)) ->
  forall s : ga V double nat (G R), inv (ga_core s) -> defined (ga_loop R fs opt junk hk rec_on n s).
Proof.
  intros HR Hstd HK HK4 Ht Hm HSU Hf. induction n as [|n IH]; intros s Hi; cbn [ga_loop]; [apply defined_fuel|].
  pose proof Hi as (Hw & Hb & Hnn & Hl).
  assert (Hs : sizes_ok R opt (comp (ga_core s))) by (apply comp_small; split; lia).
  apply defined_bind.
  { unfold evaluate_and_select. cbn [hk_select soga_hooks].
    apply select_defined; try assumption; [apply compute_wf, Hw|apply comp_best, Hb|].
    apply comp_nonnan; assumption. }
  intros c Hc. destruct (inv_round _ _ HR Hstd HK HK4 (proj1 Ht) HSU (proj2 Hm) Hf Hi Hc) as (Hi' & Hd).
  apply defined_bind.
  { destruct rec_on; [|apply defined_ok]. apply defined_bind; [|intros; apply defined_ok].
    cbn [hk_best soga_hooks]. split; apply Hd. }
  intros r _. destruct (_ || _); [apply defined_ok|]. apply IH. exact Hi'.
Qed.

Lemma init_inv v0 (c : core') : 1 <= K' -> wf c ->
  inv (soga_initializePop R opt fs junk v0 c).
Proof.
  intros HK Hw. unfold soga_initializePop.
  destruct (initialize_spec_lemma R fs opt junk v0 c Hw) as (L & W & U).
  set (c1 := initializePop R fs opt junk v0 c) in *. unfold inv, wf, best_valid, all_nonnan. cbn [pop next ext].
  destruct W as (W1 & W2). split; [split; assumption|]. split; [|split].
  - destruct (pop c1) as [|x p] eqn:E; [|left; reflexivity]. cbn in L. unfold K in HK. lia.
  - intros x Hx Hc. destruct (U x Hx) as (U1 & _). congruence.
  - rewrite L. unfold K in *. lia.
Qed.
(** Parameter ranges enforced by the setters (SOGASelecters.hpp:471-475, 567-571). *)
Definition always_returns : Prop :=
  match m with
  | Tournament | MonteCarlo => True
  | LinearRank => unit01 (linWorst sp) /\ unit01 (linBest sp)
  | ExponentialRank => pow_ok (libm_pow sp) /\ unit01 (expBase sp) /\ (B2R (expBase sp) < 1)%R
  | _ => False
  end.

Lemma select_returns (c : core') : rng_ok R -> std_ok std -> wf c -> best_valid R c -> 1 <= K' -> sizes_ok R opt c ->
  params_ok -> (forall x, In x (pop c) -> nonnan (gfit x)) -> always_returns -> (length (pop c) <= fuel)%nat ->
  exists c', select R std greater opt sp m fuel c = Ok c'.
Proof.
  intros HR Hstd Hw Hb HK Hs Ht NN A Hf. unfold always_returns in A. destruct m; try contradiction; cbn [select].
  - destruct (Z.ltb_spec K' (Z.of_nat (length (pop c)))) as [L|L].
    + destruct (tournament_ok R std greater opt sp c HR Hstd Hw Hb Hs Ht L) as (c' & _ & -> & _). eauto.
    + unfold sel_tournament. destruct (sizes_int R opt c Hs) as (E1 & E2). rewrite E1, E2. unfold popSize.
      destruct (bestFitness_ok R c Hw Hb) as (pf & ->). cbn [bind].
      destruct Ht as (_ & Ht). apply Z.ltb_lt in Ht. rewrite Ht. cbn [negb].
      apply Z.leb_le in L. rewrite L. apply updateFail2_ok.
      pose proof (pop_nonempty R c Hb). intros C. rewrite C in *. cbn in *. lia.
  - exact (montecarlo_ok R greater opt c Hw Hb HK Hs HR).
  - destruct A. apply linear_ok; assumption.
  - destruct A as (? & ? & ?). apply exponential_ok; assumption.
Qed.

Lemma loop_returns rec_on n : rng_ok R -> std_ok std -> 1 <= K' -> 4 * K' < 2147483648 -> params_ok ->
  always_returns -> (forall v, nonnan (fFun fs v)) -> 4 * K' <= Z.of_nat fuel -> maxGenerations opt < two64 - 1 ->
  forall s : ga V double nat (G R), inv (ga_core s) -> 0 <= generation s <= maxGenerations opt ->
  maxGenerations opt < generation s + Z.of_nat n ->
  exists s', ga_loop R fs opt junk hk rec_on n s = Ok s'.
Proof.
  intros HR Hstd HK HK4 Ht Hm Hf Hfu HM.
  assert (N1 : m <> StochasticUniversal) by (intros C; unfold always_returns in Hm; rewrite C in Hm; exact Hm).
  assert (N2 : m <> EliteReserved) by (intros C; unfold always_returns in Hm; rewrite C in Hm; exact Hm).
  induction n as [|n IH]; intros s Hi Hg Hn; [lia|]. cbn [ga_loop].
  pose proof Hi as (Hw & Hb & Hnn & Hl).
  assert (Hs : sizes_ok R opt (comp (ga_core s))) by (apply comp_small; split; lia).
  unfold evaluate_and_select at 1. cbn [hk_select soga_hooks].
  destruct (select_returns (comp (ga_core s))) as (c & Hc); try assumption;
    [apply compute_wf, Hw|apply comp_best, Hb|apply comp_nonnan; assumption|
     cbn [pop computeAllFitness]; rewrite map_length; lia|].
  rewrite Hc. cbn [bind].
  destruct (inv_round _ c HR Hstd HK HK4 (proj1 Ht) N1 N2 Hf Hi Hc) as (Hi' & Hd).
  destruct (if rec_on then _ else _) as [r| | |] eqn:E.
  2-4: exfalso; destruct rec_on; [|discriminate]; cbn [hk_best soga_hooks] in E;
       destruct (bestFitness R c) eqn:EE; cbn [bind] in E; try discriminate; intuition congruence.
  cbn [bind]. rewrite wrap64_small by (unfold two64 in *; lia).
  destruct (Z.ltb_spec (maxGenerations opt) (generation s + 1)) as [L|L]; cbn [orb]; [eauto|].
  destruct (_ && _); [eauto|]. apply IH; cbn [ga_core generation]; [exact Hi'|lia|lia].
Qed.
End P.
