(** C07-C16: single-objective selection (SOGA.hpp, SOGASelecters.hpp).

    Vocabulary of the statements:
    [wf c]            node addresses of the population are distinct and allocated
    [best_valid R c]  the remembered best individual is in the population
    [sizes_ok]        populationSize and the population size fit in an int
    [sublist a b]     a is b with some elements left out (order kept)
    [nonnan], [fin]   a floating-point number is not NaN / is finite
    [isBetter greater a b]  a is strictly better than b (C++ operator> or <)
    [rng_ok], [std_ok]      contracts of the standard library *)
From Coq Require Import List Arith ZArith Reals Bool Lia Lra Permutation.
From Flocq Require Import Core BinarySingleNaN.
From Verif Require Import Base Fl FlFacts Rng RandProofs StdOps ListFacts GABase GABaseProofs GAOpsProofs SOGA SOGAProofs SOGAProofs2 SOGAProofs3 SOGAProofs4 SOGAProofs5 SOGAProofs6 SOGAProofs7 SOGAProofs8 SOGAProofs9.
Import ListNotations.
Open Scope Z_scope.

Definition N_of {V GG} (c : core V double nat GG) : Z := Z.of_nat (length (pop c)).

(** * C07 *)
Theorem C07_truncation_keeps_best :
  forall (V : Type) (R : rng_ops) (std : std_ops) (greater : bool) (opt : ga_option) (sp : sel_params) fuel
         (c c' : core V double nat (G R)),
    std_ok std -> wf c -> 0 <= populationSize opt ->
    select R std greater opt sp Truncation fuel c = Ok c' ->
    sublist (pop c') (pop c) /\
    N_of c' = Z.min (populationSize opt) (N_of c) /\
    (forall removed kept, In removed (pop c) -> ~ In removed (pop c') -> In kept (pop c') ->
       isBetter greater (gfit removed) (gfit kept) = false).
Proof.
  intros V R std greater opt sp fuel c c' Hstd Hw HK H. cbn [select] in H.
  apply truncation_spec in H; try assumption. destruct H as (((S & L & _) & _) & Hk & _).
  split; [exact S|]. split; [exact L|exact Hk].
Qed.
Print Assumptions C07_truncation_keeps_best.

(** Truncation does nothing else than this: with comparable fitness values the
    survivors are determined as above, and the selection succeeds exactly when
    the remembered best individual is one of them. *)
Theorem C07_truncation_outcome :
  forall (V : Type) (R : rng_ops) (std : std_ops) (greater : bool) (opt : ga_option) (sp : sel_params) fuel
         (c : core V double nat (G R)),
    std_ok std -> wf c -> 1 <= populationSize opt -> pop c <> [] ->
    (forall x, In x (pop c) -> nonnan (gfit x)) ->
    exists kept, sublist kept (pop c) /\
      Z.of_nat (length kept) = Z.min (populationSize opt) (N_of c) /\
      (forall x y, In x (pop c) -> ~ In x kept -> In y kept -> isBetter greater (gfit x) (gfit y) = false) /\
      (In (ext c) (map gid kept) -> exists c', select R std greater opt sp Truncation fuel c = Ok c' /\ pop c' = kept) /\
      (~ In (ext c) (map gid kept) -> select R std greater opt sp Truncation fuel c = UB).
Proof.
  intros V R std greater opt sp fuel c Hstd Hw HK HN NN. cbn [select].
  destruct (truncation_outcome R std greater opt c Hstd Hw HK HN NN) as (kept & S & L & Hk & B).
  exists kept. split; [exact S|]. split; [exact L|]. split; [exact Hk|].
  destruct (inb (map gid kept) (ext c)) eqn:E.
  - split; [intros _; exact B|]. intros C. exfalso. apply C. apply inb_true, E.
  - split; [|intros _; exact B]. intros C. apply inb_true in C. congruence.
Qed.
Print Assumptions C07_truncation_outcome.

(** * C08 *)
(** Over a whole run: the best fitness reported after round j is at least as
    good as the fitness of every individual evaluated in any round i <= j. *)
Theorem C08_best_so_far :
  forall (V : Type) (R : rng_ops) (std : std_ops) (greater : bool) (opt : ga_option) (sp : sel_params)
         (fs : user_funs V double (G R)) (junk : double) (m : method) fuel
         (cs : list (core V double nat (G R))) (c0 : core V double nat (G R)),
    rng_ok R -> std_ok std -> 0 <= tournamentSize sp -> wf c0 ->
    m = Truncation \/ (m = EliteReserved /\ 1 <= eliteNum sp) ->
    Forall (small R opt) (c0 :: map (breed R fs opt junk) cs) ->
    (forall v, nonnan (fFun fs v)) -> all_nonnan R c0 ->
    rounds R fs opt junk (soga_hooks R std greater opt sp m fuel) c0 cs ->
    forall i j ci x cj b, (i <= j)%nat ->
      entering R opt fs junk c0 cs i ci -> In x (pop (computeAllFitness R fs ci)) ->
      nth_error cs j = Some cj -> bestFitness R cj = Ok b ->
      isBetter greater (gfit x) b = false.
Proof.
  intros V R std greater opt sp fs junk m fuel cs c0 HR Hstd Ht Hw Hm Hs Hf Hn Hr i j ci x cj b H1 H2 H3 H4 H5.
  exact (proj2 (proj2 (best_so_far R std greater opt sp fs junk m fuel cs c0 HR Hstd Ht Hw Hm Hs Hf Hn Hr i j ci x cj b H1 H2 H3 H4 H5))).
Qed.
Print Assumptions C08_best_so_far.

(** One selection step, same claim. *)
Theorem C08_selection_elitist :
  forall (V : Type) (R : rng_ops) (std : std_ops) (greater : bool) (opt : ga_option) (sp : sel_params) m fuel
         (c c' : core V double nat (G R)),
    std_ok std -> wf c -> sizes_ok R opt c ->
    m = Truncation \/ (m = EliteReserved /\ 1 <= eliteNum sp) ->
    (forall x, In x (pop c) -> nonnan (gfit x)) ->
    select R std greater opt sp m fuel c = Ok c' ->
    exists b, bestFitness R c' = Ok b /\ forall x, In x (pop c) -> isBetter greater (gfit x) b = false.
Proof.
  intros V R std greater opt sp m fuel c c' Hstd Hw Hs Hm NN H.
  pose proof (select_elitist R std greater opt sp m fuel c c' Hstd Hw Hs Hm NN H) as E.
  assert (B : selects_to R greater c c' (N_of c')).
  { destruct Hm as [->|(-> & He)]; cbn [select] in H.
    - eapply truncation_spec in H; try assumption; [|destruct Hs; lia]. destruct H as (((S & L & X) & B) & _).
      split; [split; [exact S|split; [reflexivity|exact X]]|exact B].
    - eapply elite_spec in H; try eassumption. destruct H as (((S & L & X) & B) & _).
      split; [split; [exact S|split; [reflexivity|exact X]]|exact B]. }
  destruct (selects_to_wf R greater c c' _ Hw B) as (Wc & _). destruct B as (_ & (b & Hb & _) & _).
  exists (gfit b). split; [apply best_gene_fitness; assumption|]. intros x Hx. exact (E x b Hx Hb).
Qed.
Print Assumptions C08_selection_elitist.

(** Not so for the random selections: the best of three individuals is lost. *)
Definition fits {GG} (g : GG) (fs : list Z) : core Z double nat GG :=
  mkCore (map (fun '(i, f) => mkGene i 0 true (d_of_Z f)) (combine (seq 0 (length fs)) fs)) (length fs) 0 0%nat g.
Definition opt_k (k : Z) : ga_option :=
  {| populationSize := k; maxFailTimes := 0; maxGenerations := 5; crossoverProb := d0; mutateProb := d1 |}.
Definition plain : sel_params :=
  {| tournamentSize := 2; linWorst := d0; linBest := d1; expBase := fofZ 1 (-1); boltzStrength := d1; eliteNum := 1;
     libm_pow := fun _ _ => d0; libm_exp := fun _ => d1 |}.
Lemma by_test {A} (r : res A) (p : A -> bool) : (match r with Ok a => p a | _ => false end) = true ->
  exists a, r = Ok a /\ p a = true.
Proof. destruct r; try discriminate. eauto. Qed.
Theorem C08_random_methods_lose_best_refuted :
  forall m, m = RouletteWheel \/ m = MonteCarlo ->
  exists (g : G replay) c',
    select replay std_inst true (opt_k 1) plain m 10 (fits g [1; 25; 9]) = Ok c' /\
    exists x b, In x (pop (fits g [1; 25; 9])) /\ bestFitness replay c' = Ok b /\ isBetter true (gfit x) b = true.
Proof.
  intros m Hm.
  assert (T : exists c', select replay std_inst true (opt_k 1) plain m 10 (fits ([0; 0; 0] : G replay) [1; 25; 9]) = Ok c' /\
      (match bestFitness replay c' with Ok b => isBetter true (d_of_Z 25) b | _ => false end) = true).
  { apply by_test. destruct Hm as [-> | ->]; vm_compute; reflexivity. }
  destruct T as (c' & E & T). exists ([0; 0; 0] : G replay), c'. split; [exact E|].
  destruct (bestFitness replay c') as [b| | |]; try discriminate.
  exists (mkGene 1%nat 0 true (d_of_Z 25)), b. split; [right; left; reflexivity|]. split; [reflexivity|exact T].
Qed.
Print Assumptions C08_random_methods_lose_best_refuted.

(** * C09 *)
(** Exactly populationSize individuals survive, for every method except
    StochasticUniversal (at least populationSize) and EliteReserved with more
    elites than populationSize. *)
Theorem C09_population_size :
  forall (V : Type) (R : rng_ops) (std : std_ops) (greater : bool) (opt : ga_option) (sp : sel_params) m fuel
         (c c' : core V double nat (G R)),
    rng_ok R -> std_ok std -> wf c -> sizes_ok R opt c -> 0 <= tournamentSize sp ->
    populationSize opt <= N_of c ->
    select R std greater opt sp m fuel c = Ok c' ->
    (m <> StochasticUniversal -> (m = EliteReserved -> eliteNum sp <= populationSize opt) -> N_of c' = populationSize opt) /\
    (m = StochasticUniversal -> populationSize opt <= N_of c' <= N_of c).
Proof.
  intros V R std greater opt sp m fuel c c' HR Hstd Hw Hs Ht HN H.
  pose proof (select_spec R std greater opt sp m fuel c c' HR Hstd Hw Hs Ht H) as (_ & _ & _ & _ & _ & Sz).
  split.
  - intros M1 M2. unfold N_of in *. rewrite (Sz M1). unfold exact_size, elite_size, min_size, K in *.
    destruct m; try (apply Z.min_l; exact HN).
    specialize (M2 eq_refl). destruct (Z.leb_spec (Z.of_nat (length (pop c))) (populationSize opt)); lia.
  - intros ->. cbn [select] in H. apply stochastic_at_least in H; try assumption. unfold N_of, min_size, K in *. lia.
Qed.
Print Assumptions C09_population_size.

(** Smaller populations are left as they are. *)
Theorem C09_small_population_untouched :
  forall (V : Type) (R : rng_ops) (std : std_ops) (greater : bool) (opt : ga_option) (sp : sel_params) m fuel
         (c c' : core V double nat (G R)),
    rng_ok R -> std_ok std -> wf c -> sizes_ok R opt c -> 0 <= tournamentSize sp ->
    N_of c <= populationSize opt ->
    select R std greater opt sp m fuel c = Ok c' -> N_of c' = N_of c.
Proof.
  intros V R std greater opt sp m fuel c c' HR Hstd Hw Hs Ht HN H.
  pose proof (select_spec R std greater opt sp m fuel c c' HR Hstd Hw Hs Ht H) as (_ & _ & _ & _ & _ & Sz).
  unfold N_of in *.
  assert (D : m = StochasticUniversal \/ m <> StochasticUniversal) by (destruct m; auto; right; discriminate).
  destruct D as [->|M1].
  - cbn [select] in H. apply stochastic_at_least in H; try assumption. unfold min_size, K in *. lia.
  - rewrite (Sz M1). unfold exact_size, elite_size, min_size, K in *.
    destruct m; try lia. destruct (Z.leb_spec (Z.of_nat (length (pop c))) (populationSize opt)); lia.
Qed.
Print Assumptions C09_small_population_untouched.

(** StochasticUniversal removes nobody when all fitness values are equal,
    whatever the random stream, so the population keeps growing. *)
Theorem C09_stochastic_universal_equal_refuted :
  forall (V : Type) (R : rng_ops) (std : std_ops) (greater : bool) (opt : ga_option) (sp : sel_params) fuel
         (c : core V double nat (G R)) f,
    rng_ok R -> wf c -> best_valid R c -> 1 <= populationSize opt -> sizes_ok R opt c ->
    fin f -> (forall x, In x (pop c) -> gfit x = f) ->
    exists c', select R std greater opt sp StochasticUniversal fuel c = Ok c' /\ pop c' = pop c.
Proof.
  intros V R std greater opt sp fuel c f HR Hw Hb HK Hs Ff HE. cbn [select].
  exact (stochastic_equal_keeps_all R greater opt c f HR Hw Hb HK Hs Ff HE).
Qed.
Print Assumptions C09_stochastic_universal_equal_refuted.

(** ... and with unequal values rounding can leave one too many. *)
Definition top_rng : rng_ops := constant_rng (fofZ 9007199254740991 (-53)) (fofZ 16777215 (-24)).
Lemma constant_rng_ok d f : fle d0 d = true -> flt d d1 = true -> fle f0 f = true -> flt f f1 = true -> rng_ok (constant_rng d f).
Proof. intros. repeat split; intros; cbn; try assumption. apply Permutation_refl. Qed.
Lemma top_rng_ok : rng_ok top_rng.
Proof. apply constant_rng_ok; vm_compute; reflexivity. Qed.
Theorem C09_stochastic_universal_one_too_many_refuted :
  rng_ok top_rng /\
  exists c', select top_rng std_inst true (opt_k 1) plain StochasticUniversal 0 (fits (tt : G top_rng) [1; 25; 9]) = Ok c' /\
             N_of c' = 2.
Proof.
  split; [exact top_rng_ok|].
  assert (T : exists c', select top_rng std_inst true (opt_k 1) plain StochasticUniversal 0 (fits (tt : G top_rng) [1; 25; 9]) = Ok c' /\
             (N_of c' =? 2) = true) by (apply by_test; vm_compute; reflexivity).
  destruct T as (c' & E & T). exists c'. split; [exact E|apply Z.eqb_eq, T].
Qed.
Print Assumptions C09_stochastic_universal_one_too_many_refuted.

(** EliteReserved with eliteNum = 3 > populationSize = 2 leaves three. *)
Theorem C09_elite_exceeds_refuted :
  exists c', select replay std_inst true (opt_k 2)
     {| tournamentSize := 2; linWorst := d0; linBest := d1; expBase := d0; boltzStrength := d1; eliteNum := 3;
        libm_pow := fun _ _ => d0; libm_exp := fun _ => d1 |} EliteReserved 10 (fits ([] : G replay) [5; 4; 3; 2; 1]) = Ok c' /\
     N_of c' = 3.
Proof.
  match goal with |- exists c', ?r = Ok c' /\ _ =>
    assert (T : exists c', r = Ok c' /\ (N_of c' =? 3) = true) by (apply by_test; vm_compute; reflexivity) end.
  destruct T as (c' & E & T). exists c'. split; [exact E|apply Z.eqb_eq, T].
Qed.
Print Assumptions C09_elite_exceeds_refuted.

(** * C10 *)
Theorem C10_no_invention :
  forall (V : Type) (R : rng_ops) (std : std_ops) (greater : bool) (opt : ga_option) (sp : sel_params) m fuel
         (c c' : core V double nat (G R)),
    rng_ok R -> std_ok std -> wf c -> sizes_ok R opt c -> 0 <= tournamentSize sp ->
    select R std greater opt sp m fuel c = Ok c' ->
    (m <> Tournament -> sublist (pop c') (pop c)) /\
    (forall x, In x (pop c') -> exists y, In y (pop c) /\ gvar x = gvar y /\ gfit x = gfit y /\ gcomp x = gcomp y) /\
    wf c'.
Proof.
  intros V R std greater opt sp m fuel c c' HR Hstd Hw Hs Ht H.
  pose proof (select_spec R std greater opt sp m fuel c c' HR Hstd Hw Hs Ht H) as (W & Fo & _ & _ & S & _).
  split; [exact S|]. split; [|exact W]. intros x Hx. destruct (Fo x Hx) as (y & Hy & E). exists y.
  unfold content in E. split; [exact Hy|]. repeat split; congruence.
Qed.
Print Assumptions C10_no_invention.

(** * C11 *)
Theorem C11_best_is_best_survivor :
  forall (V : Type) (R : rng_ops) (std : std_ops) (greater : bool) (opt : ga_option) (sp : sel_params) m fuel
         (c c' : core V double nat (G R)),
    rng_ok R -> std_ok std -> wf c -> sizes_ok R opt c -> 0 <= tournamentSize sp ->
    select R std greater opt sp m fuel c = Ok c' ->
    exists b, In b (pop c') /\ gid b = ext c' /\ bestFitness R c' = Ok (gfit b) /\
      forall x, In x (pop c') -> isBetter greater (gfit x) (gfit b) = false.
Proof.
  intros V R std greater opt sp m fuel c c' HR Hstd Hw Hs Ht H.
  pose proof (select_spec R std greater opt sp m fuel c c' HR Hstd Hw Hs Ht H) as (W & _ & (b & (Hb & Hid) & Hbest) & _).
  exists b. split; [exact Hb|]. split; [exact Hid|]. split; [|exact Hbest].
  apply best_gene_fitness; [exact W|split; assumption].
Qed.
Print Assumptions C11_best_is_best_survivor.

(** * C12 *)
(** [p] is the fitness of the remembered best individual before the first
    round (the first individual, after initializePop), [bs] the best fitness
    after rounds 1, 2, ...; failTimes() after round j+1 is the number of rounds
    since the last one whose best fitness strictly improved on the one before. *)
Theorem C12_failTimes_counts_stagnation :
  forall (V : Type) (R : rng_ops) (std : std_ops) (greater : bool) (opt : ga_option) (sp : sel_params)
         (fs : user_funs V double (G R)) (junk : double) (m : method) fuel
         (c0 : core V double nat (G R)) (cs : list (core V double nat (G R))),
    rng_ok R -> std_ok std -> 0 <= tournamentSize sp -> wf c0 ->
    Forall (small R opt) (c0 :: map (breed R fs opt junk) cs) ->
    fails c0 = 0 -> Z.of_nat (length cs) < two64 ->
    rounds R fs opt junk (soga_hooks R std greater opt sp m fuel) c0 cs -> cs <> [] ->
    exists p bs,
      bestFitness R (computeAllFitness R fs c0) = Ok p /\
      Forall2 (fun c b => bestFitness R c = Ok b) cs bs /\
      forall j c i, nth_error cs j = Some c -> (i <= S j)%nat ->
        (forall k, (i <= k <= j)%nat -> ~ improves greater (p :: bs) k) ->
        (i = O \/ improves greater (p :: bs) (i - 1)) ->
        fails c = Z.of_nat (S j - i).
Proof. intros V R std greater opt sp fs junk m fuel c0 cs. apply fails_history. Qed.
Print Assumptions C12_failTimes_counts_stagnation.

(** One step, the same claim. *)
Theorem C12_failTimes_step :
  forall (V : Type) (R : rng_ops) (std : std_ops) (greater : bool) (opt : ga_option) (sp : sel_params) m fuel
         (c c' : core V double nat (G R)),
    rng_ok R -> std_ok std -> wf c -> sizes_ok R opt c -> 0 <= tournamentSize sp ->
    select R std greater opt sp m fuel c = Ok c' ->
    exists old b, bestFitness R c = Ok old /\ bestFitness R c' = Ok b /\
      fails c' = (if isBetter greater b old then 0 else wrap64 (fails c + 1)).
Proof.
  intros V R std greater opt sp m fuel c c' HR Hstd Hw Hs Ht H.
  pose proof (select_spec R std greater opt sp m fuel c c' HR Hstd Hw Hs Ht H) as (W & _ & _ & (old & b & Ho & Hb & E) & _).
  exists (gfit old), (gfit b). split; [apply best_gene_fitness; assumption|]. split; [apply best_gene_fitness; assumption|exact E].
Qed.
Print Assumptions C12_failTimes_step.

(** * C13 *)
(** One selection, every method but Truncation and EliteReserved: nothing
    removed is read. *)
Theorem C13_select_defined :
  forall (V : Type) (R : rng_ops) (std : std_ops) (greater : bool) (opt : ga_option) (sp : sel_params) m fuel
         (c : core V double nat (G R)),
    rng_ok R -> std_ok std -> wf c -> best_valid R c -> 1 <= populationSize opt -> sizes_ok R opt c ->
    0 <= tournamentSize sp < populationSize opt ->
    (forall x, In x (pop c) -> nonnan (gfit x)) -> m <> Truncation -> m <> EliteReserved ->
    select R std greater opt sp m fuel c <> UB /\ select R std greater opt sp m fuel c <> Abort.
Proof.
  intros V R std greater opt sp m fuel c HR Hstd Hw Hb HK Hs Ht NN M1 M2.
  apply select_defined; try assumption. split; assumption.
Qed.
Print Assumptions C13_select_defined.

(** Truncation: when fewer than populationSize others are at least as good as
    the remembered best one, the selection is fine ... *)
Theorem C13_truncation_defined :
  forall (V : Type) (R : rng_ops) (std : std_ops) (greater : bool) (opt : ga_option) (sp : sel_params) fuel
         (c : core V double nat (G R)) old,
    std_ok std -> wf c -> 1 <= populationSize opt -> In old (pop c) -> gid old = ext c ->
    (forall x, In x (pop c) -> nonnan (gfit x)) ->
    Z.of_nat (length (filter (fun x => negb (Nat.eqb (gid x) (gid old)) && negb (isBetter greater (gfit old) (gfit x))) (pop c)))
      < populationSize opt ->
    exists c', select R std greater opt sp Truncation fuel c = Ok c' /\ In old (pop c').
Proof.
  intros V R std greater opt sp fuel c old Hstd Hw HK H1 H2 NN H. cbn [select].
  apply truncation_ok_if; try assumption. split; assumption.
Qed.
Print Assumptions C13_truncation_defined.

(** ... and whenever populationSize individuals are strictly better than it, it
    reads the removed individual. *)
Theorem C13_truncation_dangling_refuted :
  forall (V : Type) (R : rng_ops) (std : std_ops) (greater : bool) (opt : ga_option) (sp : sel_params) fuel
         (c : core V double nat (G R)) old,
    std_ok std -> wf c -> 1 <= populationSize opt -> In old (pop c) -> gid old = ext c ->
    (forall x, In x (pop c) -> nonnan (gfit x)) ->
    populationSize opt <= Z.of_nat (length (filter (fun x => isBetter greater (gfit x) (gfit old)) (pop c))) ->
    select R std greater opt sp Truncation fuel c = UB.
Proof.
  intros V R std greater opt sp fuel c old Hstd Hw HK H1 H2 NN H. cbn [select].
  eapply truncation_UB_if; try eassumption. split; assumption.
Qed.
Print Assumptions C13_truncation_dangling_refuted.

(** A whole run reaching it: two individuals of fitness 5, every mutant one
    better; both methods read a removed individual in the second round. *)
Definition down : user_funs Z double (G half_rng) := {|
  iFun := fun g => (5, g); fFun := d_of_Z; cFun := fun a b g => ((a, b), g); mFun := fun a g => (a - 1, g) |}.
Theorem C13_run_dangling_refuted :
  forall m, m = Truncation \/ m = EliteReserved ->
  rng_ok half_rng /\
  run half_rng down (opt_k 2) d0 (soga_hooks half_rng std_inst false (opt_k 2) plain m 100) false 1000 10
      (mkGA (soga_initializePop half_rng (opt_k 2) down d0 0 (mkCore [] 0%nat 0 0%nat (tt : G half_rng))) 0 []) = UB.
Proof. intros m Hm. split; [apply half_rng_ok|]. destruct Hm as [-> | ->]; vm_compute; reflexivity. Qed.
Print Assumptions C13_run_dangling_refuted.

(** * C14 *)
(** Whatever the random stream, every selection of these methods ends, after at
    most one turn of the wheel per individual. *)
Theorem C14_selection_terminates :
  forall (V : Type) (R : rng_ops) (std : std_ops) (greater : bool) (opt : ga_option) (sp : sel_params) m fuel
         (c : core V double nat (G R)),
    rng_ok R -> std_ok std -> wf c -> best_valid R c -> 1 <= populationSize opt -> sizes_ok R opt c ->
    0 <= tournamentSize sp < populationSize opt ->
    (forall x, In x (pop c) -> nonnan (gfit x)) -> (length (pop c) <= fuel)%nat ->
    match m with
    | Tournament | MonteCarlo | StochasticUniversal => True
    | LinearRank => unit01 (linWorst sp) /\ unit01 (linBest sp)
    | ExponentialRank => pow_ok (libm_pow sp) /\ unit01 (expBase sp) /\ (B2R (expBase sp) < 1)%R
    | Probability => pow_ok (libm_pow sp) /\ mild R c
    | Boltzmann => forall x, In x (pop c) -> bd (libm_exp sp (fmul (boltzStrength sp) (gfit x))) 900
    | RouletteWheel | EliteReserved | Truncation => False
    end ->
    exists c', select R std greater opt sp m fuel c = Ok c'.
Proof.
  intros V R std greater opt sp m fuel c HR Hstd Hw Hb HK Hs Ht NN Hf A.
  assert (Q : always_returns sp m -> exists c', select R std greater opt sp m fuel c = Ok c').
  { intros Q. apply select_returns; assumption. }
  destruct m; try contradiction; try (apply Q; exact A); cbn [select].
  - destruct A. apply probability_ok; assumption.
  - apply boltzmann_ok; assumption.
  - apply stochastic_ok; assumption.
Qed.
Print Assumptions C14_selection_terminates.

(** RouletteWheel: it ends within N*B turns when among any B consecutive float
    draws there is one that truncates to index 0 (the equal-fitness phase waits
    for one), fitness magnitudes at most 2^899. *)
Theorem C14_roulette_terminates :
  forall (V : Type) (R : rng_ops) (std : std_ops) (greater : bool) (opt : ga_option) (sp : sel_params) fuel B
         (c : core V double nat (G R)),
    rng_ok R -> fair R B -> wf c -> best_valid R c -> 1 <= populationSize opt -> sizes_ok R opt c ->
    mild R c -> (length (pop c) * B <= fuel)%nat ->
    exists c', select R std greater opt sp RouletteWheel fuel c = Ok c'.
Proof. intros. cbn [select]. eapply roulette_ok; eassumption. Qed.
Print Assumptions C14_roulette_terminates.

(** RouletteWheel on equal fitness values: for a stream whose floats never
    truncate to index 0 it never ends. *)
Theorem C14_roulette_equal_hangs_refuted :
  exists R, rng_ok R /\
  forall (V : Type) (std : std_ops) (greater : bool) (opt : ga_option) (sp : sel_params) (c : core V double nat (G R)) f,
    wf c -> best_valid R c -> 1 <= populationSize opt -> sizes_ok R opt c ->
    fin f -> (forall x, In x (pop c) -> gfit x = f) -> populationSize opt < N_of c ->
    forall fuel, select R std greater opt sp RouletteWheel fuel c = Fuel.
Proof.
  exists half_rng. split; [apply half_rng_ok|]. intros V std greater opt sp c f Hw Hb HK Hs Ff HE HN fuel. cbn [select].
  exact (roulette_equal_hangs greater opt fuel c f Hw Hb HK Hs Ff HE HN).
Qed.
Print Assumptions C14_roulette_equal_hangs_refuted.

(** RouletteWheel on the finite fitness values 2^1023 and -2^1023 (their
    difference overflows): it never ends, whatever the random stream. *)
Definition big : double := fofZ 1 1023.
Definition huge {GG} (g : GG) : core Z double nat GG :=
  mkCore [mkGene 0%nat 0 true (fopp big); mkGene 1%nat 0 true big] 2%nat 0 0%nat g.
Theorem C14_roulette_overflow_hangs_refuted :
  fin big /\ forall (R : rng_ops) (std : std_ops) (sp : sel_params) (g : G R), rng_ok R ->
    forall fuel, select R std true (opt_k 1) sp RouletteWheel fuel (huge g) = Fuel.
Proof.
  split; [vm_compute; reflexivity|]. intros R std sp g HR fuel. cbn [select]. unfold sel_roulette.
  replace (bestFitness R (huge g)) with (Ok (fopp big)) by reflexivity. cbn [bind].
  change (to_int _ <=? 0) with false. cbv iota.
  change (to_int _) with 1. unfold huge at 1.
  set (es := shift_by _ _).
  assert (Ees : es = [(0%nat, d0); (1%nat, dinf)]) by reflexivity.
  assert (Es : sum_of es = dinf) by (rewrite Ees; reflexivity).
  assert (L : forall n g, roulette_loop R n 1 es (sum_of es) g = Fuel).
  { rewrite Es. induction n as [|n IH]; intros g'; cbn [roulette_loop]; rewrite Ees at 1; [reflexivity|].
    cbn [length]. change (Z.of_nat 2 <=? 1) with false. cbv iota. change (flt d0 dinf) with true. cbv iota.
    assert (S : exists g2, spin R es dinf g' = Ok (es, dinf, g2)).
    { unfold spin, randD_range. destruct (proj1 HR g') as (D0 & D1).
      destruct (rand01 R g') as [d g2]. cbn [fst] in D0, D1. exists g2.
      assert (W : exists rf, walk es (affineD d0 dinf d) = (None, rf) /\ flt d0 rf = false).
      { rewrite Ees. destruct d as [sd|sd| |sd md ed Hd].
        - exists dnan. split; [destruct sd|]; vm_compute; reflexivity.
        - destruct sd; vm_compute in D0, D1; discriminate.
        - vm_compute in D0. discriminate.
        - destruct sd; [vm_compute in D0; discriminate|].
          exists dnan. split; vm_compute; reflexivity. }
      destruct W as (rf & -> & ->). reflexivity. }
    destruct S as (g2 & ->). cbn [bind]. apply IH. }
  rewrite L. reflexivity.
Qed.
Print Assumptions C14_roulette_overflow_hangs_refuted.

(** EliteReserved on equal fitness values: same stream, never ends. *)
Theorem C14_elite_equal_hangs_refuted :
  rng_ok half_rng /\
  forall fuel, select half_rng std_inst true (opt_k 2) plain EliteReserved fuel
     (fits (tt : G half_rng) [7; 7; 7; 7; 7]) = Fuel.
Proof.
  split; [apply half_rng_ok|]. intros fuel. cbn [select]. unfold sel_elite.
  change (to_int (popSize half_rng (fits (tt : G half_rng) [7; 7; 7; 7; 7])) - to_int (K (opt_k 2))) with 3.
  change (3 <=? 0) with false. cbv iota. cbv zeta.
  change (sort_pop std_inst true (pop (fits (tt : G half_rng) [7; 7; 7; 7; 7])))
    with (Ok (pop (fits (tt : G half_rng) [7; 7; 7; 7; 7]))). cbn [bind].
  change (eliteNum plain <? 0) with false. cbv iota.
  set (es := shift_by _ _).
  assert (Le : length es = 4%nat) by reflexivity.
  change (fle (sum_of es) d0) with true. cbv iota.
  assert (L : forall n, elite_equal half_rng n 3 es tt = Fuel).
  { induction n as [|n IH]; cbn [elite_equal]; rewrite Le; change (Z.of_nat 4 <=? 3) with false; cbv iota; [reflexivity|].
    rewrite elite_first_half by lia. exact IH. }
  change (gen_rng _) with tt. rewrite L. reflexivity.
Qed.
Print Assumptions C14_elite_equal_hangs_refuted.

(** * C15 *)
(** Each of the populationSize tournaments picks tournamentSize distinct
    individuals, its winner is beaten by none of them, and the new population
    is exactly (up to order) one copy per winner. *)
Theorem C15_tournament :
  forall (V : Type) (R : rng_ops) (std : std_ops) (greater : bool) (opt : ga_option) (sp : sel_params) fuel
         (c : core V double nat (G R)),
    rng_ok R -> std_ok std -> wf c -> best_valid R c -> sizes_ok R opt c ->
    2 <= tournamentSize sp < populationSize opt -> populationSize opt < N_of c ->
    exists c' winners, select R std greater opt sp Tournament fuel c = Ok c' /\
      Z.of_nat (length winners) = populationSize opt /\
      Forall (fun w => exists contestants,
                NoDup (map gid contestants) /\ incl contestants (pop c) /\
                Z.of_nat (length contestants) = tournamentSize sp /\ In w contestants /\
                forall x, In x contestants -> isBetter greater (gfit x) (gfit w) = false) winners /\
      Permutation (map (fun x => (gvar x, gcomp x, gfit x)) winners)
                  (map (fun x => (gvar x, gcomp x, gfit x)) (pop c')).
Proof.
  intros V R std greater opt sp fuel c HR Hstd Hw Hb Hs Ht HN. cbn [select].
  destruct (tournament_ok R std greater opt sp c HR Hstd Hw Hb Hs ltac:(unfold K; lia) HN) as (c' & ws & E & L & F & P & _).
  exists c', ws. split; [exact E|]. split. { rewrite L, Z2Nat.id; [reflexivity|unfold K; lia]. }
  split; [|exact P]. eapply Forall_impl; [|exact F]. intros w (cs & N & I & Ln & Iw & B). exists cs.
  split; [exact N|]. split; [exact I|]. split; [|split; assumption]. rewrite Ln. lia.
Qed.
Print Assumptions C15_tournament.

(** The assertion in front of it: tournamentSize must be below populationSize. *)
Theorem C15_tournament_asserts :
  forall (V : Type) (R : rng_ops) (std : std_ops) (greater : bool) (opt : ga_option) (sp : sel_params) fuel
         (c : core V double nat (G R)),
    sizes_ok R opt c -> populationSize opt <= tournamentSize sp ->
    select R std greater opt sp Tournament fuel c = Abort.
Proof.
  intros V R std greater opt sp fuel c Hs Ht. cbn [select]. unfold sel_tournament.
  destruct (sizes_int R opt c Hs) as (_ & E). rewrite E. unfold K in *.
  destruct (Z.ltb_spec (tournamentSize sp) (populationSize opt)); [lia|reflexivity].
Qed.
Print Assumptions C15_tournament_asserts.

(** * C16 *)
Theorem C16_runtime_selects_chosen_method :
  forall (V : Type) (R : rng_ops) (std : std_ops) (greater : bool) (opt : ga_option) (sp : sel_params) m fuel
         (c : core V double nat (G R)),
    select_runtime R std greater opt sp m fuel c = select R std greater opt sp m fuel c.
Proof. intros. destruct m; reflexivity. Qed.
Print Assumptions C16_runtime_selects_chosen_method.

(** * Non-vacuity: concrete selections meeting the hypotheses *)
Lemma fits_ok {GG} (g : GG) l : wf (fits g l).
Proof.
  assert (Q : forall n l, map gid (map (fun '(i, f) => mkGene (V:=Z) i 0 true (d_of_Z f)) (combine (seq n (length l)) l)) = seq n (length l)).
  { intros n l0. revert n. induction l0 as [|z l0 IH]; intros n; cbn; [reflexivity|]. f_equal. apply IH. }
  split; cbn [pop next fits].
  - rewrite Q. apply seq_NoDup.
  - intros x Hx. apply (in_map gid) in Hx. rewrite Q in Hx. apply in_seq in Hx. lia.
Qed.
Definition outcome {GG} (r : res (core Z double nat GG)) : option (list nat * Z * nat) :=
  match r with Ok c => Some (map gid (pop c), fails c, ext c) | _ => None end.
(** addresses of the survivors, failTimes(), address of the best one *)
Example ex_truncation : outcome (select replay std_inst true (opt_k 2) plain Truncation 0 (fits ([] : G replay) [8; 1; 9; 3]))
  = Some ([0; 2]%nat, 0, 2%nat).
Proof. vm_compute. reflexivity. Qed.
Example ex_truncation_hyps : wf (fits ([] : G replay) [8; 1; 9; 3]) /\ std_ok std_inst /\
  sizes_ok replay (opt_k 2) (fits ([] : G replay) [8; 1; 9; 3]).
Proof. split; [apply fits_ok|]. split; [apply std_inst_ok|]. split; vm_compute; split; congruence || reflexivity. Qed.
Example ex_all_methods :
  map (fun m => outcome (select replay std_inst true (opt_k 3)
        {| tournamentSize := 2; linWorst := d0; linBest := fofZ 1 (-1); expBase := fofZ 1 (-1); boltzStrength := fofZ 1 (-3); eliteNum := 1;
           libm_pow := fun x _ => x; libm_exp := fun x => x |}
        m 20 (fits ([10; 120; 200; 90; 77; 10; 240; 33] : G replay) [1; 2; 9; 4; 5]))) method_order
  = [ Some ([1; 2; 4]%nat, 0, 2%nat); Some ([1; 2; 4]%nat, 0, 2%nat); None; Some ([2; 3; 4]%nat, 0, 2%nat);
      Some ([1; 3; 4]%nat, 0, 4%nat); Some ([2; 3; 4]%nat, 0, 2%nat); Some ([2; 3; 4]%nat, 0, 2%nat);
      Some ([0; 2; 4]%nat, 0, 2%nat); Some ([2; 3; 4]%nat, 0, 2%nat); None ].
Proof. vm_compute. reflexivity. Qed.
