(** C65, C66: selection by weighted draws (SOGASelecters.hpp).
    The vocabulary is in WheelSpec.v. *)
From Coq Require Import List Arith ZArith Reals Bool Lia Lra Permutation Sorted.
From Flocq Require Import Core BinarySingleNaN.
From Verif Require Import Base Fl FlFacts Rng RandProofs StdOps ListFacts GABase GAOpsProofs SOGA SOGAProofs SOGAProofs2 SOGAProofs3 SOGAProofs4 SOGAProofs5 WheelSpec WheelProofs WheelProofs2 WheelProofs3.
From Verif Require Props_SOGA Props_Box.
Import ListNotations.
Open Scope Z_scope.

(** * C66: what the draws decide *)
Lemma sorted_nth {V} greater (l : list (gene V double)) i j x y : (forall z, In z l -> nonnan (gfit z)) -> sorted_by (geneBetter greater) l ->
  (i <= j)%nat -> nth_error l i = Some x -> nth_error l j = Some y -> isBetter greater (gfit y) (gfit x) = false.
Proof.
  intros NN S L Hi Hj. destruct (isBetter greater (gfit y) (gfit x)) eqn:E; [|reflexivity].
  pose proof (sorted_order greater l j i y x S Hj Hi E). lia.
Qed.
Lemma by_rank_of {V} R greater (c : core V double nat (G R)) f es : ranked_by R greater c f es ->
  by_rank greater (f (Z.of_nat (length (pop c)))) (pop c) es.
Proof.
  intros (l & P & S & ->). exists l. split; [exact P|]. split.
  - intros i j x y L Hi Hj. destruct (isBetter greater (gfit y) (gfit x)) eqn:E; [|reflexivity].
    pose proof (sorted_order greater l j i y x S Hj Hi E). lia.
  - rewrite (Permutation_length P). apply map_ext. intros [i x]. reflexivity.
Qed.
Lemma ranked_all {V} R greater (c : core V double nat (G R)) f es : ranked_by R greater c f es -> all_compete (pop c) es.
Proof. intros (l & P & S & ->). unfold all_compete. rewrite fst_combine_seq. apply Permutation_map, Permutation_sym, P. Qed.
Lemma above_worst_of {V} greater (p : list (gene V double)) : p <> [] -> (forall x, In x p -> fin (gfit x)) ->
  above_worst greater p (shift_by (min_of (weights_of greater p)) (weights_of greater p)).
Proof.
  intros Hn F.
  assert (WF : forall w, In w (weights_of greater p) -> fin (snd w)).
  { intros w Hw. unfold weights_of in Hw. apply in_map_iff in Hw. destruct Hw as (x & <- & Hx). apply signed_fin, F, Hx. }
  destruct (min_of_spec (weights_of greater p)) as (Fm & (w & Hw & E) & L); [destruct p; [congruence|discriminate]|exact WF|].
  exists (min_of (weights_of greater p)). split.
  - unfold weights_of in Hw. apply in_map_iff in Hw. destruct Hw as (y & <- & Hy). exists y. split; [exact Hy|exact E].
  - split.
    + intros y Hy. apply fle_B2R; [exact Fm|apply (signed_fin greater y), F, Hy|].
      apply (L (gid y, signed greater y)). unfold weights_of. apply (in_map (fun x => (gid x, signed greater x))), Hy.
    + unfold shift_by, weights_of. rewrite map_map. reflexivity.
Qed.
Lemma all_shift {V} greater (p : list (gene V double)) m : all_compete p (shift_by m (weights_of greater p)).
Proof. unfold all_compete. rewrite fst_shift, fst_weights. reflexivity. Qed.

(** Whenever more individuals are there than populationSize, the survivors of
    RouletteWheel, LinearRank, ExponentialRank and Boltzmann are exactly the
    winners of a contest on the documented weights, in which each draw r makes
    the first individual win at which r minus the weights so far is used up. *)
Theorem C66_roulette_draws :
  forall (V : Type) (R : rng_ops) (std : std_ops) (greater : bool) (opt : ga_option) (sp : sel_params) fuel
         (c c' : core V double nat (G R)),
    wf c -> sizes_ok R opt c -> populationSize opt < Z.of_nat (length (pop c)) ->
    (forall x, In x (pop c) -> fin (gfit x)) ->
    select R std greater opt sp RouletteWheel fuel c = Ok c' ->
    exists es, above_worst greater (pop c) es /\ all_compete (pop c) es /\ decided_by_wheel R RouletteWheel c c' es.
Proof.
  intros V R std greater opt sp fuel c c' Hw Hs Big F H. cbn [select] in H. eexists. split; [|split; [|eapply roulette_decided; eassumption]].
  - apply above_worst_of; [|exact F]. intros C. rewrite C in Big. destruct Hs as (Hs & _). unfold K in Hs. cbn in Big. lia.
  - apply all_shift.
Qed.
Print Assumptions C66_roulette_draws.
Theorem C66_rank_draws :
  forall (V : Type) (R : rng_ops) (std : std_ops) (greater : bool) (opt : ga_option) (sp : sel_params) m fuel
         (c c' : core V double nat (G R)),
    std_ok std -> wf c -> sizes_ok R opt c -> populationSize opt < Z.of_nat (length (pop c)) ->
    m = LinearRank \/ m = ExponentialRank ->
    select R std greater opt sp m fuel c = Ok c' ->
    exists es,
      by_rank greater (match m with
                       | LinearRank => linear_weight (linWorst sp) (linBest sp) (Z.of_nat (length (pop c)))
                       | _ => exponential_weight (libm_pow sp) (expBase sp) (Z.of_nat (length (pop c)))
                       end) (pop c) es /\
      all_compete (pop c) es /\ decided_by_wheel R m c c' es.
Proof.
  intros V R std greater opt sp m fuel c c' Hstd Hw Hs Big [->| ->] H; cbn [select] in H.
  - eapply linear_decided in H; try eassumption. destruct H as (es & D & Rk). exists es.
    split; [exact (by_rank_of R greater c _ es Rk)|]. split; [eapply ranked_all, Rk|exact D].
  - eapply exponential_decided in H; try eassumption. destruct H as (es & D & Rk). exists es.
    split; [exact (by_rank_of R greater c _ es Rk)|]. split; [eapply ranked_all, Rk|exact D].
Qed.
Print Assumptions C66_rank_draws.
Theorem C66_boltzmann_draws :
  forall (V : Type) (R : rng_ops) (std : std_ops) (greater : bool) (opt : ga_option) (sp : sel_params) fuel
         (c c' : core V double nat (G R)),
    wf c -> sizes_ok R opt c -> populationSize opt < Z.of_nat (length (pop c)) ->
    select R std greater opt sp Boltzmann fuel c = Ok c' ->
    decided_by_wheel R Boltzmann c c'
      (map (fun x => (gid x, libm_exp sp (fmul (boltzStrength sp) (gfit x)))) (pop c)).
Proof. intros V R std greater opt sp fuel c c' Hw Hs Big H. eapply boltzmann_decided; eassumption. Qed.
Print Assumptions C66_boltzmann_draws.
(** EliteReserved: the eliteNum best ones stay without competing. *)
Theorem C66_elite_draws :
  forall (V : Type) (R : rng_ops) (std : std_ops) (greater : bool) (opt : ga_option) (sp : sel_params) fuel
         (c c' : core V double nat (G R)),
    std_ok std -> wf c -> sizes_ok R opt c -> populationSize opt < Z.of_nat (length (pop c)) ->
    (forall x, In x (pop c) -> fin (gfit x)) ->
    select R std greater opt sp EliteReserved fuel c = Ok c' ->
    exists elites rest es, Permutation (pop c) (elites ++ rest) /\
      Z.of_nat (length elites) = Z.min (eliteNum sp) (Z.of_nat (length (pop c))) /\
      (forall x y, In x elites -> In y rest -> isBetter greater (gfit y) (gfit x) = false) /\
      (rest <> [] -> above_worst greater rest es) /\ all_compete rest es /\
      decided_by_wheel R EliteReserved c c' es.
Proof.
  intros V R std greater opt sp fuel c c' Hstd Hw Hs Big F H. cbn [select] in H.
  eapply elite_decided in H; try eassumption. destruct H as (el & rest & P & L & B & D). exists el, rest. eexists.
  split; [exact P|]. split; [exact L|]. split; [exact B|]. split; [|split; [|exact D]].
  - intros Hn. apply above_worst_of; [exact Hn|]. intros x Hx. apply F.
    apply (Permutation_in _ (Permutation_sym P)), in_or_app. right. exact Hx.
  - apply all_shift.
Qed.
Print Assumptions C66_elite_draws.
(** Probability: the weights are 1e100 p^K (1-p)^(N-K), p the share of the total. *)
Lemma above_worst_of' {V} greater (p : list (gene V double)) : p <> [] -> (forall x, In x p -> fin (gfit x)) ->
  above_worst greater p (shift_by (min_of' (weights_of greater p)) (weights_of greater p)).
Proof.
  intros Hn F.
  assert (WF : forall w, In w (weights_of greater p) -> fin (snd w)).
  { intros w Hw. unfold weights_of in Hw. apply in_map_iff in Hw. destruct Hw as (x & <- & Hx). apply signed_fin, F, Hx. }
  destruct (min_of'_spec (weights_of greater p)) as (Fm & (w & Hw & E) & L); [destruct p; [congruence|discriminate]|exact WF|].
  exists (min_of' (weights_of greater p)). split.
  - unfold weights_of in Hw. apply in_map_iff in Hw. destruct Hw as (y & <- & Hy). exists y. split; [exact Hy|exact E].
  - split.
    + intros y Hy. apply fle_B2R; [exact Fm|apply (signed_fin greater y), F, Hy|].
      apply (L (gid y, signed greater y)). unfold weights_of. apply (in_map (fun x => (gid x, signed greater x))), Hy.
    + unfold shift_by, weights_of. rewrite map_map. reflexivity.
Qed.
Theorem C66_probability_draws :
  forall (V : Type) (R : rng_ops) (std : std_ops) (greater : bool) (opt : ga_option) (sp : sel_params) fuel
         (c c' : core V double nat (G R)),
    wf c -> sizes_ok R opt c -> populationSize opt < Z.of_nat (length (pop c)) ->
    (forall x, In x (pop c) -> fin (gfit x)) ->
    select R std greater opt sp Probability fuel c = Ok c' ->
    exists sh es, above_worst greater (pop c) sh /\
      es = map (fun e => (fst e, binomial_weight (libm_pow sp) (Z.of_nat (length (pop c))) (populationSize opt)
                                   (share_of sh (snd e)))) sh /\
      all_compete (pop c) es /\ decided_by_wheel R Probability c c' es.
Proof.
  intros V R std greater opt sp fuel c c' Hw Hs Big F H. cbn [select] in H.
  pose proof (sizes_int R opt c Hs) as (E1 & E2).
  exists (shift_by (min_of' (weights_of greater (pop c))) (weights_of greater (pop c))), (prob_weights greater opt sp (pop c)).
  split; [|split; [|split; [|eapply probability_decided; eassumption]]].
  - apply above_worst_of'; [|exact F]. intros C. rewrite C in Big. destruct Hs as (Hs & _). unfold K in Hs. cbn in Big. lia.
  - unfold prob_weights, share_of. change (@total) with (@sum_of).
    set (sh := shift_by _ _). assert (Ls : length sh = length (pop c)).
    { unfold sh, shift_by, weights_of. rewrite !map_length. reflexivity. }
    rewrite Ls. unfold popSize in E1. rewrite E1, E2. unfold K.
    destruct (fle (sum_of sh) d0); rewrite map_map; apply map_ext; intros e; reflexivity.
  - unfold all_compete. rewrite fst_prob. reflexivity.
Qed.
Print Assumptions C66_probability_draws.

(** In real numbers: the draw r that stands for position i lies, up to the
    rounding error of i subtractions, between the sums of the first i and the
    first i+1 weights. *)
Theorem C66_draw_in_interval :
  forall (r : double) (ws : list double) i,
    fin r -> (0 <= B2R r)%R -> (forall w, In w ws -> fin w /\ (0 <= B2R w)%R) -> hits r ws i ->
    (upto i ws - INR i * (bpow radix2 (-53) * B2R r) <= B2R r <= upto (S i) ws + INR i * (bpow radix2 (-53) * B2R r))%R.
Proof. intros r ws i Fr Hr Hw H. pose proof (hit_interval r ws i Fr Hr Hw H). lra. Qed.
Print Assumptions C66_draw_in_interval.
(** The winner is determined by the draw. *)
Theorem C66_draw_decides :
  forall r ws i j, stands_for r ws i -> stands_for r ws j -> i = j.
Proof.
  assert (G : forall r ws i j, hits r ws i -> hits r ws j -> (i <= j)%nat).
  { intros r ws i j (L1 & B1 & A1) (L2 & B2 & A2). destruct (le_dec i j) as [L|L]; [exact L|exfalso].
    specialize (B1 (S j) ltac:(lia)). congruence. }
  intros r ws i j [Hi|(Mi & Fi & Li)] [Hj|(Mj & Fj & Lj)]; [|exfalso|exfalso|lia].
  - apply Nat.le_antisymm; eapply G; eassumption.
  - destruct Hi as (L & _ & A). specialize (Mj (S i) ltac:(lia)). congruence.
  - destruct Hj as (L & _ & A). specialize (Mi (S j) ltac:(lia)). congruence.
Qed.
Print Assumptions C66_draw_decides.

(** Stochastic universal sampling: whoever's weight reaches total/populationSize
    survives, whatever is drawn. *)
Theorem C66_stochastic_universal_guarantee :
  forall (V : Type) (R : rng_ops) (std : std_ops) (greater : bool) (opt : ga_option) (sp : sel_params) fuel
         (c c' : core V double nat (G R)),
    rng_ok R -> wf c -> sizes_ok R opt c -> 1 <= populationSize opt ->
    (forall x, In x (pop c) -> fin (gfit x) /\ (Rabs (B2R (gfit x)) <= bpow radix2 900 / 2)%R) ->
    select R std greater opt sp StochasticUniversal fuel c = Ok c' ->
    pop c <> [] ->
    exists es, above_worst greater (pop c) es /\
      forall x w, In x (pop c) -> In (gid x, w) es ->
        fle (fdiv (total es) (d_of_Z (populationSize opt))) w = true -> In x (pop c').
Proof.
  intros V R std greater opt sp fuel c c' HR Hw Hs HK HM H Hn. cbn [select] in H.
  assert (Mi : mild R c) by (intros x Hx; rewrite B900_eq; apply HM, Hx).
  pose proof (stochastic_keeps R greater opt c c' HR Hw Hs HK Mi H) as SK. cbv zeta in SK.
  eexists. split; [apply above_worst_of; [exact Hn|intros x Hx; apply HM, Hx]|].
  intros x w Hx Hin HL. apply in_shift in Hin. destruct Hin as (x' & Hx' & E & ->).
  rewrite (same_gene (pop c) x' x (proj1 Hw)) in HL by auto. exact (SK x Hx HL).
Qed.
Print Assumptions C66_stochastic_universal_guarantee.

(** * C65: a better individual never gets the smaller weight *)
Definition sound_params {V} (R : rng_ops) (greater : bool) (sp : sel_params) (c : core V double nat (G R)) (m : method) : Prop :=
  match m with
  | RouletteWheel => forall x, In x (pop c) -> fin (gfit x)
  | LinearRank => unit01 (linWorst sp) /\ unit01 (linBest sp) /\ (B2R (linWorst sp) <= B2R (linBest sp))%R
  | ExponentialRank => pow_ok (libm_pow sp) /\ pow_decreasing (libm_pow sp) /\ unit01 (expBase sp) /\ (B2R (expBase sp) < 1)%R
  | Boltzmann => (forall x, In x (pop c) -> fin (gfit x)) /\ fin (boltzStrength sp) /\ exp_increasing (libm_exp sp) /\
                 (forall x, nonnan x -> fle d0 (libm_exp sp x) = true) /\
                 (if greater then 0 <= B2R (boltzStrength sp) else B2R (boltzStrength sp) <= 0)%R
  | _ => False
  end.
Theorem C65_better_gets_no_smaller_weight :
  forall (V : Type) (R : rng_ops) (std : std_ops) (greater : bool) (opt : ga_option) (sp : sel_params) m fuel
         (c c' : core V double nat (G R)),
    std_ok std -> wf c -> sizes_ok R opt c -> 1 <= populationSize opt < Z.of_nat (length (pop c)) ->
    sound_params R greater sp c m ->
    select R std greater opt sp m fuel c = Ok c' ->
    exists es, all_compete (pop c) es /\ decided_by_wheel R m c c' es /\
      (forall e, In e es -> fle d0 (snd e) = true) /\
      (forall x y wx wy, In x (pop c) -> In y (pop c) -> In (gid x, wx) es -> In (gid y, wy) es ->
         isBetter greater (gfit x) (gfit y) = true -> fle wy wx = true).
Proof.
  intros V R std greater opt sp m fuel c c' Hstd Hw Hs Big Hp H. pose proof Hw as (N & _).
  assert (HN : Z.of_nat (length (pop c)) < 2147483648) by apply Hs.
  destruct m; try contradiction Hp; cbn [select] in H.
  - eapply roulette_decided in H; try eassumption; [|apply Big]. eexists. split; [|split; [exact H|]]; [apply all_shift|].
    destruct (shift_mono greater (pop c) (pop c) N (incl_refl _) Hp) as (M & P). split; [exact P|exact M].
  - eapply linear_decided in H; try eassumption; [|apply Big]. destruct H as (es & D & Rk). exists es. split; [eapply ranked_all, Rk|].
    split; [exact D|]. destruct Rk as (l & P & S & ->). destruct Hp as (UW & UB & LE).
    pose proof (Permutation_length P) as Ll.
    destruct (lin_mono sp (Z.of_nat (length l))) as (M1 & M2); try assumption; [rewrite <- Ll; lia|]. split.
    + apply ranked_nonneg. intros i Hi. apply M2. lia.
    + apply (ranked_mono greater _ l (pop c)); try assumption. intros i j Hij. apply M1; lia.
  - eapply exponential_decided in H; try eassumption; [|apply Big]. destruct H as (es & D & Rk). exists es. split; [eapply ranked_all, Rk|].
    split; [exact D|]. destruct Rk as (l & P & S & ->). destruct Hp as (H1 & H2 & H3 & H4).
    pose proof (Permutation_length P) as Ll.
    destruct (exp_mono sp (Z.of_nat (length l))) as (M1 & M2); try assumption; [rewrite <- Ll; lia|]. split.
    + apply ranked_nonneg. intros i Hi. apply M2. lia.
    + apply (ranked_mono greater _ l (pop c)); try assumption. intros i j Hij. apply M1; lia.
  - destruct Hp as (F & Fb & EI & E0 & Sg). eapply boltzmann_decided in H; try eassumption; [|apply Big]. eexists. split; [|split; [exact H|]].
    + unfold all_compete, boltz_weights. rewrite map_map. reflexivity.
    + split.
      * intros [i w] He. apply in_boltz in He. destruct He as (x & Hx & _ & ->). apply E0. apply fmul_fval; [exact Fb|apply F, Hx].
      * apply boltz_mono; assumption.
Qed.
Print Assumptions C65_better_gets_no_smaller_weight.

(** EliteReserved: the same among the individuals that compete. *)
Theorem C65_elite_better_gets_no_smaller_weight :
  forall (V : Type) (R : rng_ops) (std : std_ops) (greater : bool) (opt : ga_option) (sp : sel_params) fuel
         (c c' : core V double nat (G R)),
    std_ok std -> wf c -> sizes_ok R opt c -> populationSize opt < Z.of_nat (length (pop c)) ->
    (forall x, In x (pop c) -> fin (gfit x)) ->
    select R std greater opt sp EliteReserved fuel c = Ok c' ->
    exists elites rest es, Permutation (pop c) (elites ++ rest) /\
      Z.of_nat (length elites) = Z.min (eliteNum sp) (Z.of_nat (length (pop c))) /\
      (forall x y, In x elites -> In y rest -> isBetter greater (gfit y) (gfit x) = false) /\
      all_compete rest es /\ decided_by_wheel R EliteReserved c c' es /\
      (forall e, In e es -> fle d0 (snd e) = true) /\
      (forall x y wx wy, In x rest -> In y rest -> In (gid x, wx) es -> In (gid y, wy) es ->
         isBetter greater (gfit x) (gfit y) = true -> fle wy wx = true).
Proof.
  intros V R std greater opt sp fuel c c' Hstd Hw Hs Big F H. cbn [select] in H. pose proof Hw as (N & _).
  eapply elite_decided in H; try eassumption. destruct H as (el & rest & P & L & B & D). exists el, rest. eexists.
  split; [exact P|]. split; [exact L|]. split; [exact B|]. split; [|split; [exact D|]]; [apply all_shift|].
  assert (Nr : NoDup (map gid rest)).
  { apply (Permutation_NoDup (Permutation_map gid P)) in N. rewrite map_app in N. apply NoDup_app_r in N. exact N. }
  assert (Fr : forall x, In x rest -> fin (gfit x)).
  { intros x Hx. apply F. apply (Permutation_in _ (Permutation_sym P)), in_or_app. right. exact Hx. }
  destruct (shift_mono greater rest rest Nr (incl_refl _) Fr) as (M & Pn). split; [exact Pn|exact M].
Qed.
Print Assumptions C65_elite_better_gets_no_smaller_weight.

(** Boltzmann does not look at the direction: with a positive strength and
    FITNESS_LESS_BETTER (or a negative one and FITNESS_GREATER_BETTER) it is the
    worse individual that never gets the smaller weight. *)
Theorem C65_boltzmann_wrong_direction_refuted :
  forall (V : Type) (R : rng_ops) (std : std_ops) (greater : bool) (opt : ga_option) (sp : sel_params) fuel
         (c c' : core V double nat (G R)),
    wf c -> sizes_ok R opt c -> populationSize opt < Z.of_nat (length (pop c)) ->
    (forall x, In x (pop c) -> fin (gfit x)) -> fin (boltzStrength sp) -> exp_increasing (libm_exp sp) ->
    (if greater then B2R (boltzStrength sp) <= 0 else 0 <= B2R (boltzStrength sp))%R ->
    select R std greater opt sp Boltzmann fuel c = Ok c' ->
    exists es, all_compete (pop c) es /\ decided_by_wheel R Boltzmann c c' es /\
      (forall x y wx wy, In x (pop c) -> In y (pop c) -> In (gid x, wx) es -> In (gid y, wy) es ->
         isBetter greater (gfit x) (gfit y) = true -> fle wx wy = true).
Proof.
  intros V R std greater opt sp fuel c c' Hw Hs Big F Fb EI Sg H. pose proof Hw as (N & _). cbn [select] in H.
  eapply boltzmann_decided in H; try eassumption. eexists. split; [|split; [exact H|]].
  - unfold all_compete, boltz_weights. rewrite map_map. reflexivity.
  - apply boltz_anti; assumption.
Qed.
Print Assumptions C65_boltzmann_wrong_direction_refuted.

(** Probability does not favour the better ones: with shares 0, 0, 1 and one
    survivor the weights are 0, 0 and 0 (1^1 times 0^2), and the best of the
    three is eliminated whatever is drawn. *)
Definition pow_by_mult (x y : double) : double := Nat.iter (Z.to_nat (Btrunc y)) (fmul x) d1.
Definition multiplying : sel_params :=
  {| tournamentSize := 2; linWorst := d0; linBest := d1; expBase := fofZ 1 (-1); boltzStrength := d1; eliteNum := 1;
     libm_pow := pow_by_mult; libm_exp := fun _ => d1 |}.
Import Props_SOGA.
Lemma zero_val (r : double) : fin r -> fle d0 r = true -> fle r d0 = true -> exists s, r = B754_zero s.
Proof.
  intros F L1 L2. apply fle_true in L1. apply fle_true in L2. destruct L1 as (_ & _ & L1), L2 as (_ & _ & L2).
  rewrite !fval_fin in L1, L2 by (exact F || reflexivity). change (B2R d0) with 0%R in *.
  destruct r as [s|s| |s m e H]; try discriminate F; [eauto|exfalso].
  assert (E : B2R (B754_finite s m e H) = 0%R) by lra. cbn [B2R] in E. apply eq_0_F2R in E. destruct s; discriminate E.
Qed.
Theorem C65_probability_refuted :
  forall (R : rng_ops) (g : G R), rng_ok R ->
    exists c', select R std_inst true (opt_k 1) multiplying Probability 5 (fits g [0; 0; 1]) = Ok c' /\
      (exists x, pop c' = [x] /\ gfit x = d0) /\
      exists y, In y (pop (fits g [0; 0; 1])) /\ isBetter true (gfit y) d0 = true.
Proof.
  intros R g HR. cbn [select]. unfold sel_probability.
  change (to_int (popSize R (fits g [0; 0; 1])) - to_int (K (opt_k 1))) with 2.
  change (bestFitness R (fits g [0; 0; 1])) with (@Ok double d0). cbn [bind]. cbv zeta.
  replace (prob_weights true (opt_k 1) multiplying (pop (fits g [0; 0; 1]))) with [(0%nat, d0); (1%nat, d0); (2%nat, d0)]
    by (vm_compute; reflexivity).
  replace (sum_of [(0%nat, d0); (1%nat, d0); (2%nat, d0)]) with d0 by (vm_compute; reflexivity).
  destruct (GlobalProofs.randD_range_ok R d0 d0 (gen_rng (fits g [0; 0; 1])) HR) as (Fr & L1 & L2);
    [vm_compute; reflexivity|vm_compute; reflexivity|vm_compute; reflexivity|vm_compute; reflexivity|].
  cbn [spin_loop length]. change (Z.of_nat 3 <=? 2) with false. cbv iota. unfold spin.
  destruct (randD_range R d0 d0 _) as [r g'] eqn:Er. cbn [fst] in *.
  destruct (zero_val r Fr L1 L2) as (s & ->).
  assert (W : walk [(0%nat, d0); (1%nat, d0); (2%nat, d0)] (B754_zero s) = (Some (d0, [(1%nat, d0); (2%nat, d0)]), fsub (B754_zero s) d0))
    by (destruct s; vm_compute; reflexivity).
  rewrite W. cbn [bind length]. change (Z.of_nat 2 <=? 2) with true. cbn [bind]. unfold finish2.
  change (applyErasement (pop (fits g [0; 0; 1])) [(1%nat, d0); (2%nat, d0)]) with (Ok [mkGene 0%nat 0 true (d_of_Z 0)]).
  cbn [bind]. eexists. split; [reflexivity|]. split.
  - eexists. split; [reflexivity|]. vm_compute. reflexivity.
  - exists (mkGene 2%nat 0 true (d_of_Z 1)). split; [right; right; left; reflexivity|vm_compute; reflexivity].
Qed.
Print Assumptions C65_probability_refuted.

(** * A case that meets the hypotheses of C65 and C66 *)
Definition step_exp (x : double) : double := if fle x d0 then fofZ 1 (-1) else d1.
Definition sample : sel_params :=
  {| tournamentSize := 2; linWorst := d0; linBest := fofZ 1 (-1); expBase := fofZ 1 (-1); boltzStrength := fofZ 1 (-3); eliteNum := 1;
     libm_pow := fun x _ => x; libm_exp := step_exp |}.
Definition five : core Z double nat (G replay) := fits ([10; 120; 200; 90; 77; 10; 240; 33] : G replay) [1; 2; 9; 4; 5].
Lemma five_fin : forall x, In x (pop five) -> fin (gfit x).
Proof. intros x [<-|[<-|[<-|[<-|[<-|[]]]]]]; vm_compute; reflexivity. Qed.
Lemma half_val : B2R (fofZ 1 (-1) : double) = (/ 2)%R.
Proof.
  destruct (fofZ_exact 1 (-1) (prec := 53) (emax := 1024)) as (_ & E); try lia; [cbn; lia|]. rewrite E. cbn. lra.
Qed.
Example C66_hypotheses : std_ok std_inst /\ wf five /\ sizes_ok replay (opt_k 3) five /\
  1 <= populationSize (opt_k 3) < Z.of_nat (length (pop five)) /\ (forall x, In x (pop five) -> fin (gfit x)) /\
  Forall (fun m => exists c', select replay std_inst true (opt_k 3) sample m 20 five = Ok c' /\ (length (pop c') <= 3)%nat)
    [RouletteWheel; LinearRank; ExponentialRank; Boltzmann; Probability; StochasticUniversal].
Proof.
  split; [apply std_inst_ok|]. split; [apply fits_ok|]. split; [split; vm_compute; split; congruence || reflexivity|].
  split; [vm_compute; split; congruence || reflexivity|]. split; [apply five_fin|].
  repeat (apply Forall_cons; [match goal with |- exists c', ?r = Ok c' /\ _ =>
    destruct (by_test r (fun c' => Nat.leb (length (pop c')) 3)) as (c' & E & L); [vm_compute; reflexivity|];
    exists c'; split; [exact E|apply Nat.leb_le, L] end|]).
  apply Forall_nil.
Qed.
Lemma step_exp_mono : exp_increasing step_exp.
Proof.
  intros x y L. unfold step_exp. destruct (fle y d0) eqn:Ey.
  - assert (fle x d0 = true) as ->; [|vm_compute; reflexivity].
    apply fle_true in L. destruct L as (A & B & L). apply fle_true in Ey. destruct Ey as (_ & C & Ey).
    apply fle_iff; [exact A|exact C|]. lra.
  - destruct (fle x d0); vm_compute; reflexivity.
Qed.
Example C65_hypotheses :
  Forall (fun m => sound_params replay true sample five m) [RouletteWheel; LinearRank; ExponentialRank; Boltzmann].
Proof.
  pose proof half_val as Hv. assert (U0 : unit01 d0) by (split; [reflexivity|cbn; lra]).
  assert (U : unit01 (fofZ 1 (-1) : double)) by (split; [vm_compute; reflexivity|rewrite Hv; lra]).
  repeat apply Forall_cons; try apply Forall_nil.
  - exact five_fin.
  - cbn [sound_params sample linWorst linBest]. split; [exact U0|]. split; [exact U|]. rewrite Hv. cbn. lra.
  - cbn [sound_params sample libm_pow expBase]. split; [|split; [|split; [exact U|rewrite Hv; lra]]].
    + intros x n Hx Hn. split; [exact Hx|]. intros _. lra.
    + intros x a b Fx Hx Ha Hb. lra.
  - cbn [sound_params sample libm_exp boltzStrength]. split; [exact five_fin|]. split; [vm_compute; reflexivity|].
    split; [exact step_exp_mono|]. split.
    + intros x _. unfold step_exp. destruct (fle x d0); vm_compute; reflexivity.
    + destruct (fofZ_exact 1 (-3) (prec := 53) (emax := 1024)) as (_ & E); try lia; [cbn; lia|]. rewrite E. cbn. lra.
Qed.
Example C66_elite_hypotheses :
  let c := fits ([10; 120; 200; 90; 77; 10; 240; 33] : G replay) [9; 2; 1; 4; 5] in
  exists c', select replay std_inst true (opt_k 3) sample EliteReserved 20 c = Ok c' /\ map gid (pop c') = [0; 3; 4]%nat.
Proof.
  cbv zeta.
  match goal with |- exists c', ?r = Ok c' /\ _ =>
    destruct (by_test r (fun c' => if list_eq_dec Nat.eq_dec (map gid (pop c')) [0; 3; 4]%nat then true else false)) as (c' & E & L);
    [vm_compute; reflexivity|] end.
  exists c'. split; [exact E|]. destruct (list_eq_dec _ _ _); [assumption|discriminate].
Qed.
