(** C09, C13, C14 continued: StochasticUniversal's size, EliteReserved's outcome,
    whole runs of every selection method.  Vocabulary as in Props_SOGA.v. *)
From Coq Require Import List Arith ZArith Reals Bool Lia Lra Permutation.
From Flocq Require Import Core BinarySingleNaN.
From Verif Require Import Props_Box Props_SOGA Base Fl FlFacts Rng RandProofs StdOps ListFacts GABase GABaseProofs GAOpsProofs SOGA SOGAProofs SOGAProofs2 SOGAProofs3 SOGAProofs4 SOGAProofs5 SOGAProofs6 SOGAProofs7 SOGAProofs8 SOGAProofs9 SOGAProofs10 SOGAProofs11 SOGAProofs12.
Import ListNotations.
Open Scope Z_scope.

(** A finite fitness value of magnitude at most 2^899. *)
Definition modest (x : double) : Prop := fin x /\ (Rabs (B2R x) <= bpow radix2 899)%R.
Lemma modest_mild x : modest x -> fin x /\ (Rabs (B2R x) <= B900 / 2)%R.
Proof.
  intros (F & H). split; [exact F|]. apply Rle_trans with (1 := H). apply Req_le. rewrite B900_eq.
  replace (bpow radix2 900) with (bpow radix2 899 * bpow radix2 1)%R by (rewrite <- bpow_plus; reflexivity).
  change (bpow radix2 1) with 2%R. field.
Qed.

(** * C09 *)
(** StochasticUniversal leaves populationSize individuals or one more, whatever
    the random stream, when two fitness values differ by at least 2^-900 (and
    the sizes are within what a double resolves). *)
Theorem C09_stochastic_universal_at_most_one_extra :
  forall (V : Type) (R : rng_ops) (std : std_ops) (greater : bool) (opt : ga_option) (sp : sel_params) fuel
         (c c' : core V double nat (G R)),
    rng_ok R -> wf c -> 1 <= populationSize opt -> sizes_ok R opt c ->
    (forall x, In x (pop c) -> modest (gfit x)) ->
    (exists x y, In x (pop c) /\ In y (pop c) /\ (bpow radix2 (-900) <= B2R (gfit x) - B2R (gfit y))%R) ->
    (populationSize opt + 2) * (3 * N_of c + 1) < 2 ^ 53 ->
    populationSize opt <= N_of c ->
    select R std greater opt sp StochasticUniversal fuel c = Ok c' ->
    N_of c' = populationSize opt \/ N_of c' = populationSize opt + 1.
Proof.
  intros V R std greater opt sp fuel c c' HR Hw HK Hs HM HS Hsm HN H. cbn [select] in H.
  assert (B : populationSize opt <= N_of c' <= populationSize opt + 1); [|lia].
  apply (stochastic_upper R greater opt c c'); try assumption. intros x Hx. apply modest_mild, HM, Hx.
Qed.
Print Assumptions C09_stochastic_universal_at_most_one_extra.
Example ex_C09_one_extra :
  let c := fits (tt : G top_rng) [1; 25; 9] in
  wf c /\ sizes_ok top_rng (opt_k 1) c /\ (populationSize (opt_k 1) + 2) * (3 * N_of c + 1) < 2 ^ 53 /\
  (forall x, In x (pop c) -> modest (gfit x)) /\
  (exists x y, In x (pop c) /\ In y (pop c) /\ (bpow radix2 (-900) <= B2R (gfit x) - B2R (gfit y))%R).
Proof.
  cbv zeta. split; [apply fits_ok|]. split; [split; vm_compute; split; congruence || reflexivity|]. split; [vm_compute; reflexivity|].
  assert (Q : forall z, Z.abs z <= 100 -> modest (d_of_Z z)).
  { intros z Hz. destruct (d_of_Z_exact z) as (F & E); [lia|]. split; [exact F|]. rewrite E, <- abs_IZR.
    apply Rle_trans with (bpow radix2 7); [change (bpow radix2 7) with (IZR 128); apply IZR_le; lia|apply bpow_le; lia]. }
  split.
  - cbn [pop fits combine seq length map]. intros x Hx. repeat (destruct Hx as [<-|Hx]; [cbn [gfit]; apply Q; lia|]). contradiction.
  - cbn [pop fits combine seq length map]. do 2 eexists. split; [right; left; reflexivity|]. split; [left; reflexivity|]. cbn [gfit].
    destruct (d_of_Z_exact 25) as (_ & ->); [lia|]. destruct (d_of_Z_exact 1) as (_ & ->); [lia|].
    apply Rle_trans with (bpow radix2 0); [apply bpow_le; lia|cbn; lra].
Qed.

(** Fitness values that differ only by the smallest positive double: dividing
    the total by populationSize gives 0 and nobody is removed. *)
Definition tiny : double := fofZ 1 (-1074).
Definition close_pop {GG} (g : GG) : core Z double nat GG :=
  mkCore [mkGene 0%nat 0 true d0; mkGene 1%nat 0 true d0; mkGene 2%nat 0 true d0; mkGene 3%nat 0 true d0; mkGene 4%nat 0 true tiny] 5%nat 0 0%nat g.
Theorem C09_stochastic_universal_tiny_spread_refuted :
  exists c', select half_rng std_inst true (opt_k 2) plain StochasticUniversal 0 (close_pop (tt : G half_rng)) = Ok c' /\ N_of c' = 5.
Proof.
  match goal with |- exists c', ?r = Ok c' /\ _ =>
    assert (T : exists c', r = Ok c' /\ (N_of c' =? 5) = true) by (apply by_test; vm_compute; reflexivity) end.
  destruct T as (c' & E & T). exists c'. split; [exact E|apply Z.eqb_eq, T].
Qed.
Print Assumptions C09_stochastic_universal_tiny_spread_refuted.

(** EliteReserved leaves populationSize individuals or all the elites,
    whichever are more. *)
Theorem C09_elite_size :
  forall (V : Type) (R : rng_ops) (std : std_ops) (greater : bool) (opt : ga_option) (sp : sel_params) fuel
         (c c' : core V double nat (G R)),
    rng_ok R -> std_ok std -> wf c -> sizes_ok R opt c -> 0 <= tournamentSize sp -> 0 <= eliteNum sp ->
    populationSize opt < N_of c ->
    select R std greater opt sp EliteReserved fuel c = Ok c' ->
    N_of c' = Z.max (populationSize opt) (Z.min (eliteNum sp) (N_of c)).
Proof.
  intros V R std greater opt sp fuel c c' HR Hstd Hw Hs Ht He HN H.
  pose proof (select_spec R std greater opt sp EliteReserved fuel c c' HR Hstd Hw Hs Ht H) as (_ & _ & _ & _ & _ & Sz).
  specialize (Sz ltac:(discriminate)). unfold exact_size, elite_size, min_size, K, N_of in *. rewrite Sz. cbv zeta.
  destruct (Z.leb_spec (Z.of_nat (length (pop c))) (populationSize opt)); lia.
Qed.
Print Assumptions C09_elite_size.

(** * C13 *)
(** EliteReserved: either it needs more turns of the wheel, or some individuals
    [kept] are left, among them eliteNum individuals none of which is worse
    than anybody outside that group; it then reads a removed individual exactly
    when the remembered best one is not among them. *)
Theorem C13_elite_outcome :
  forall (V : Type) (R : rng_ops) (std : std_ops) (greater : bool) (opt : ga_option) (sp : sel_params) fuel
         (c : core V double nat (G R)),
    std_ok std -> wf c -> best_valid R c -> sizes_ok R opt c -> 1 <= populationSize opt -> 0 <= eliteNum sp ->
    (forall x, In x (pop c) -> nonnan (gfit x)) ->
    select R std greater opt sp EliteReserved fuel c = Fuel \/
    exists kept elites, sublist kept (pop c) /\ NoDup (map gid elites) /\ incl elites kept /\
      Z.of_nat (length elites) = Z.min (eliteNum sp) (N_of c) /\
      (forall x y, In x (pop c) -> ~ In x elites -> In y elites -> isBetter greater (gfit x) (gfit y) = false) /\
      (populationSize opt < N_of c -> Z.of_nat (length kept) = Z.max (populationSize opt) (Z.min (eliteNum sp) (N_of c))) /\
      ((In (ext c) (map gid kept) /\ exists c', select R std greater opt sp EliteReserved fuel c = Ok c' /\ pop c' = kept) \/
       (~ In (ext c) (map gid kept) /\ select R std greater opt sp EliteReserved fuel c = UB)).
Proof.
  intros V R std greater opt sp fuel c Hstd Hw Hb Hs HK He NN. cbn [select].
  destruct (elite_outcome R std greater opt sp fuel c Hstd Hw Hb Hs He NN HK) as [F|(kept & (S & L & el & E1 & E2 & E3 & E4) & O)]; [left; exact F|].
  right. exists kept, el. split; [exact S|]. split; [exact E1|]. split; [exact E2|]. split; [exact E3|]. split; [exact E4|]. split.
  - intros Hlt. unfold elite_size, K in L. fold (N_of c) in L. rewrite L. cbv zeta. destruct (Z.leb_spec (N_of c) (populationSize opt)); [lia|reflexivity].
  - destruct (inb (map gid kept) (ext c)) eqn:E; [left; split; [apply inb_true, E|exact O]|right; split; [apply inb_false, E|exact O]].
Qed.
Print Assumptions C13_elite_outcome.

(** Fewer than eliteNum others at least as good as the remembered best one:
    no removed individual is read, whatever the stream. *)
Theorem C13_elite_defined :
  forall (V : Type) (R : rng_ops) (std : std_ops) (greater : bool) (opt : ga_option) (sp : sel_params) fuel
         (c : core V double nat (G R)) old,
    std_ok std -> wf c -> sizes_ok R opt c -> 1 <= populationSize opt -> In old (pop c) -> gid old = ext c ->
    (forall x, In x (pop c) -> nonnan (gfit x)) ->
    Z.of_nat (length (filter (fun x => negb (Nat.eqb (gid x) (gid old)) && negb (isBetter greater (gfit old) (gfit x))) (pop c)))
      < eliteNum sp ->
    select R std greater opt sp EliteReserved fuel c = Fuel \/
    exists c', select R std greater opt sp EliteReserved fuel c = Ok c' /\ In old (pop c').
Proof.
  intros V R std greater opt sp fuel c old Hstd Hw Hs HK H1 H2 NN Cnt. cbn [select].
  assert (Hb : best_valid R c) by (unfold best_valid; rewrite <- H2; apply in_map, H1).
  destruct (elite_outcome R std greater opt sp fuel c Hstd Hw Hb Hs ltac:(lia) NN HK) as [F|(kept & Kp & O)]; [left; exact F|right].
  pose proof (elite_keeps_old R greater opt sp c old kept Kp (proj1 Hw) H1 Cnt) as In1.
  assert (E : inb (map gid kept) (ext c) = true) by (apply inb_true; rewrite <- H2; apply in_map, In1).
  rewrite E in O. destruct O as (c' & E1 & E2). exists c'. split; [exact E1|]. rewrite E2. exact In1.
Qed.
Print Assumptions C13_elite_defined.

(** With populationSize or more elites nothing is left to chance: eliteNum
    strictly better individuals make it read the removed old best. *)
Theorem C13_elite_dangling_refuted :
  forall (V : Type) (R : rng_ops) (std : std_ops) (greater : bool) (opt : ga_option) (sp : sel_params) fuel
         (c : core V double nat (G R)) old,
    std_ok std -> wf c -> sizes_ok R opt c -> 1 <= populationSize opt <= eliteNum sp ->
    In old (pop c) -> gid old = ext c -> (forall x, In x (pop c) -> nonnan (gfit x)) ->
    eliteNum sp <= Z.of_nat (length (filter (fun x => isBetter greater (gfit x) (gfit old)) (pop c))) ->
    select R std greater opt sp EliteReserved fuel c = UB.
Proof.
  intros V R std greater opt sp fuel c old Hstd Hw Hs HK H1 H2 NN Cnt. cbn [select].
  eapply elite_UB_if; try eassumption; try apply HK. split; assumption.
Qed.
Print Assumptions C13_elite_dangling_refuted.

Definition elites (n : Z) : sel_params :=
  {| tournamentSize := 2; linWorst := d0; linBest := d1; expBase := d0; boltzStrength := d1; eliteNum := n;
     libm_pow := fun _ _ => d0; libm_exp := fun _ => d1 |}.
(** Both outcomes occur: the first individual is the remembered best one. *)
Example ex_C13_elite_ok : outcome (select replay std_inst true (opt_k 2) (elites 2) EliteReserved 9 (fits ([] : G replay) [8; 1; 9; 3]))
  = Some ([0; 2]%nat, 0, 2%nat).
Proof. vm_compute. reflexivity. Qed.
Example ex_C13_elite_ub : select replay std_inst true (opt_k 2) (elites 2) EliteReserved 9 (fits ([] : G replay) [5; 1; 9; 8]) = UB.
Proof. vm_compute. reflexivity. Qed.
Example ex_C13_elite_count : length (filter (fun x => isBetter true (gfit x) (d_of_Z 5)) (pop (fits ([] : G replay) [5; 1; 9; 8]))) = 2%nat.
Proof. vm_compute. reflexivity. Qed.

(** * Whole runs *)
Section Runs.
Context (V : Type) (R : rng_ops) (std : std_ops) (greater : bool) (opt : ga_option) (sp : sel_params).
Context (fs : user_funs V double (G R)) (junk : double) (v0 : V) (m : method) (sel_fuel : nat).
Notation Qf := (fun x : double => exists v, x = fFun fs v).
Definition pop_bound (g : Z) : Z := match m with StochasticUniversal => populationSize opt * 4 ^ g | _ => 4 * populationSize opt end.

Lemma bound_step g (d d' : core V double nat (G R)) : rng_ok R -> std_ok std -> 1 <= populationSize opt -> 4 * populationSize opt < 2147483648 ->
  0 <= tournamentSize sp -> (m = EliteReserved -> eliteNum sp <= populationSize opt) ->
  0 <= g -> pop_bound g < 2147483648 ->
  wf d -> Z.of_nat (length (pop d)) <= pop_bound g -> select R std greater opt sp m sel_fuel d = Ok d' ->
  4 * Z.of_nat (length (pop d')) <= pop_bound (g + 1).
Proof.
  intros HR Hstd HK HK4 Ht He Hg HB Hw Hl H.
  assert (D : m = StochasticUniversal \/ m <> StochasticUniversal) by (destruct m; auto; right; discriminate).
  destruct D as [E|E].
  - unfold pop_bound in *. rewrite E in *. cbn [select] in H.
    assert (Hs : sizes_ok R opt d) by (split; unfold K; lia).
    apply stochastic_at_least in H; try assumption. rewrite Z.pow_add_r by lia. change (4 ^ 1) with 4. lia.
  - assert (E4 : forall g, pop_bound g = 4 * populationSize opt) by (intros g0; unfold pop_bound; destruct m; congruence).
    rewrite E4 in *. eapply size_bound; try eassumption.
Qed.

Lemma bound_ok : 1 <= populationSize opt -> 4 * populationSize opt < 2147483648 -> 0 <= maxGenerations opt ->
  (m = StochasticUniversal -> populationSize opt * 4 ^ maxGenerations opt < 2147483648) ->
  populationSize opt <= pop_bound 0 /\ forall g, 0 <= g <= maxGenerations opt -> pop_bound g < 2147483648.
Proof.
  intros HK HK4 HM HS. unfold pop_bound. split; [destruct m; try lia|].
  intros g Hg. destruct m; try lia. specialize (HS eq_refl).
  assert (4 ^ g <= 4 ^ maxGenerations opt) by (apply Z.pow_le_mono_r; lia). nia.
Qed.
End Runs.

(** From initializePop() through run(): no undefined behaviour and no failed
    assertion, for every method but Truncation and EliteReserved. *)
Theorem C13_run_defined :
  forall (V : Type) (R : rng_ops) (std : std_ops) (greater : bool) (opt : ga_option) (sp : sel_params)
         (fs : user_funs V double (G R)) (junk : double) (v0 : V) (m : method) sel_fuel rec_on vec_max fuel
         (s : ga V double nat (G R)),
    rng_ok R -> std_ok std -> wf (ga_core s) ->
    1 <= populationSize opt -> 4 * populationSize opt < 2147483648 -> 0 <= maxGenerations opt < two64 - 1 ->
    0 <= tournamentSize sp < populationSize opt ->
    m <> Truncation -> m <> EliteReserved ->
    (m = StochasticUniversal -> populationSize opt * 4 ^ maxGenerations opt < 2147483648) ->
    (forall v, nonnan (fFun fs v)) -> wrap64 (maxGenerations opt + 1) <= vec_max ->
    let s0 := mkGA (soga_initializePop R opt fs junk v0 (ga_core s)) (generation s) (record s) in
    let r := run R fs opt junk (soga_hooks R std greater opt sp m sel_fuel) rec_on vec_max fuel s0 in
    r <> UB /\ r <> Abort.
Proof.
  intros V R std greater opt sp fs junk v0 m sel_fuel rec_on vec_max fuel s HR Hstd Hw HK HK4 HM Ht M1 M2 HS Hf Hv s0 r.
  destruct (bound_ok opt m HK HK4 (proj1 HM) HS) as (B0 & BG).
  assert (A : forall k, k <> BadFuel -> bad_of r <> Some k).
  { intros k Hk. unfold r, s0.
    apply (run_avoids R std greater opt sp fs junk m sel_fuel nonnan (pop_bound opt m)); try assumption.
    - unfold K; lia.
    - apply Ht.
    - intros g d Hg (E1 & E2 & E3 & E4) C.
      assert (Hs : sizes_ok R opt d) by (specialize (BG g Hg); split; unfold K; lia).
      destruct (select_defined R std greater opt sp m sel_fuel d HR Hstd E1 E2 HK Hs Ht E3 (conj M1 M2)) as (U1 & U2).
      destruct (select R std greater opt sp m sel_fuel d); cbn in C; congruence.
    - intros g d d' Hg (E1 & E2 & E3 & E4) H. eapply (bound_step V R std greater opt sp m sel_fuel g d d'); try eassumption; try lia.
      + congruence.
      + apply BG, Hg.
    - intros C. congruence. }
  split; intros C; [apply (A BadUB)|apply (A BadAbort)]; try discriminate; rewrite C; reflexivity.
Qed.
Print Assumptions C13_run_defined.

(** * C14 *)
(** EliteReserved ends within N*B turns when among any B consecutive draws of
    randD() one is at most 1/size. *)
Theorem C14_elite_terminates :
  forall (V : Type) (R : rng_ops) (std : std_ops) (greater : bool) (opt : ga_option) (sp : sel_params) fuel B
         (c : core V double nat (G R)),
    rng_ok R -> fair_d R B -> std_ok std -> wf c -> 1 <= populationSize opt -> sizes_ok R opt c ->
    (forall x, In x (pop c) -> modest (gfit x)) -> (length (pop c) * B <= fuel)%nat ->
    select R std greater opt sp EliteReserved fuel c <> Fuel.
Proof.
  intros. cbn [select]. eapply elite_not_fuel; try eassumption. intros x Hx. apply modest_mild. auto.
Qed.
Print Assumptions C14_elite_terminates.

(** Truncation has no random loop: it always ends. *)
Theorem C14_truncation_terminates :
  forall (V : Type) (R : rng_ops) (std : std_ops) (greater : bool) (opt : ga_option) (sp : sel_params) fuel
         (c : core V double nat (G R)),
    std_ok std -> wf c -> 1 <= populationSize opt -> pop c <> [] -> (forall x, In x (pop c) -> nonnan (gfit x)) ->
    select R std greater opt sp Truncation fuel c <> Fuel /\ select R std greater opt sp Truncation fuel c <> Abort.
Proof.
  intros V R std greater opt sp fuel c Hstd Hw HK PN NN. cbn [select].
  destruct (truncation_outcome R std greater opt c Hstd Hw HK PN NN) as (kept & _ & _ & _ & O).
  destruct (inb _ _); [destruct O as (c' & -> & _)|rewrite O]; split; discriminate.
Qed.
Print Assumptions C14_truncation_terminates.

(** A whole run returns.  Whatever the stream for Tournament, MonteCarlo,
    Probability, LinearRank, ExponentialRank, Boltzmann and StochasticUniversal;
    for streams that regularly give an index 0 for RouletteWheel. *)
Theorem C14_run_returns :
  forall (V : Type) (R : rng_ops) (std : std_ops) (greater : bool) (opt : ga_option) (sp : sel_params)
         (fs : user_funs V double (G R)) (junk : double) (v0 : V) (m : method) sel_fuel rec_on vec_max
         (s : ga V double nat (G R)),
    rng_ok R -> std_ok std -> wf (ga_core s) ->
    1 <= populationSize opt -> 4 * populationSize opt < 2147483648 ->
    0 <= tournamentSize sp < populationSize opt -> 0 <= maxGenerations opt < two64 - 1 ->
    (forall v, nonnan (fFun fs v)) -> wrap64 (maxGenerations opt + 1) <= vec_max ->
    4 * populationSize opt <= Z.of_nat sel_fuel ->
    match m with
    | Tournament | MonteCarlo => True
    | LinearRank => unit01 (linWorst sp) /\ unit01 (linBest sp)
    | ExponentialRank => pow_ok (libm_pow sp) /\ unit01 (expBase sp) /\ (B2R (expBase sp) < 1)%R
    | Probability => pow_ok (libm_pow sp) /\ forall v, modest (fFun fs v)
    | Boltzmann => forall v, let w := libm_exp sp (fmul (boltzStrength sp) (fFun fs v)) in
                             fin w /\ (Rabs (B2R w) <= bpow radix2 900)%R
    | StochasticUniversal => populationSize opt * 4 ^ maxGenerations opt < 2147483648
    | RouletteWheel => (forall v, modest (fFun fs v)) /\
                       exists B, fair R B /\ 4 * populationSize opt * Z.of_nat B <= Z.of_nat sel_fuel
    | Truncation | EliteReserved => False
    end ->
    let s0 := mkGA (soga_initializePop R opt fs junk v0 (ga_core s)) (generation s) (record s) in
    exists s', run R fs opt junk (soga_hooks R std greater opt sp m sel_fuel) rec_on vec_max
                   (S (Z.to_nat (maxGenerations opt))) s0 = Ok s'.
Proof.
  intros V R std greater opt sp fs junk v0 m sel_fuel rec_on vec_max s HR Hstd Hw HK HK4 Ht HM Hf Hv Hfu A s0.
  assert (HS : m = StochasticUniversal -> populationSize opt * 4 ^ maxGenerations opt < 2147483648) by (intros ->; exact A).
  assert (M1 : m <> EliteReserved) by (intros ->; exact A).
  destruct (bound_ok opt m HK HK4 (proj1 HM) HS) as (B0 & BG).
  pose (Q := fun x : double => exists v, x = fFun fs v).
  assert (Sel : forall g (d : core V double nat (G R)), 0 <= g <= maxGenerations opt -> entersG R Q (pop_bound opt m) g d ->
    exists d', select R std greater opt sp m sel_fuel d = Ok d').
  { intros g d Hg (E1 & E2 & E3 & E4).
    assert (Hs : sizes_ok R opt d) by (specialize (BG g Hg); split; unfold K; lia).
    assert (NN : forall x, In x (pop d) -> nonnan (gfit x)) by (intros x Hx; destruct (E3 x Hx) as (v & ->); apply Hf).
    assert (Md : (forall v, modest (fFun fs v)) -> mild R d) by (intros H x Hx; destruct (E3 x Hx) as (v & ->); apply modest_mild, H).
    assert (Fu : m <> StochasticUniversal -> (length (pop d) <= sel_fuel)%nat) by (unfold pop_bound in E4; intros ?; destruct m; try congruence; lia).
    destruct m; try contradiction; cbn [select].
    - destruct A as (A1 & B & A2 & A3). eapply roulette_ok; try eassumption; [apply Md, A1|].
      unfold pop_bound in E4. apply Nat2Z.inj_le. rewrite Nat2Z.inj_mul. nia.
    - apply (select_returns R std greater opt sp Tournament sel_fuel d); try assumption; try exact I. apply Fu; discriminate.
    - apply (select_returns R std greater opt sp MonteCarlo sel_fuel d); try assumption; try exact I. apply Fu; discriminate.
    - destruct A as (A1 & A2). apply probability_ok; try assumption; [apply Fu; discriminate|apply Md, A2].
    - apply (select_returns R std greater opt sp LinearRank sel_fuel d); try assumption; try exact A. apply Fu; discriminate.
    - apply (select_returns R std greater opt sp ExponentialRank sel_fuel d); try assumption; try exact A. apply Fu; discriminate.
    - apply boltzmann_ok; try assumption; [apply Fu; discriminate|]. intros x Hx. destruct (E3 x Hx) as (v & ->). apply (A v).
    - apply stochastic_ok; assumption. }
  apply not_bad; unfold s0;
    (apply (run_avoids R std greater opt sp fs junk m sel_fuel Q (pop_bound opt m)); try assumption;
     [unfold K; lia|apply Ht|intros v; exists v; reflexivity
     |intros g d Hg He C; destruct (Sel g d Hg He) as (d' & E); rewrite E in C; discriminate
     |intros g d d' Hg (E1 & E2 & E3 & E4) H; eapply (bound_step V R std greater opt sp m sel_fuel g d d'); try eassumption; try lia; [congruence|apply BG, Hg]
     |intros; lia || discriminate]).
Qed.
Print Assumptions C14_run_returns.

(** Truncation and EliteReserved: a run ends too -- either returning, or by
    reading a removed individual (C13). *)
Theorem C14_elitist_run_ends :
  forall (V : Type) (R : rng_ops) (std : std_ops) (greater : bool) (opt : ga_option) (sp : sel_params)
         (fs : user_funs V double (G R)) (junk : double) (v0 : V) (m : method) sel_fuel rec_on vec_max
         (s : ga V double nat (G R)),
    rng_ok R -> std_ok std -> wf (ga_core s) ->
    1 <= populationSize opt -> 4 * populationSize opt < 2147483648 ->
    0 <= tournamentSize sp -> 0 <= maxGenerations opt < two64 - 1 ->
    (forall v, nonnan (fFun fs v)) -> wrap64 (maxGenerations opt + 1) <= vec_max ->
    m = Truncation \/
    (m = EliteReserved /\ 0 <= eliteNum sp <= populationSize opt /\ (forall v, modest (fFun fs v)) /\
     exists B, fair_d R B /\ 4 * populationSize opt * Z.of_nat B <= Z.of_nat sel_fuel) ->
    let s0 := mkGA (soga_initializePop R opt fs junk v0 (ga_core s)) (generation s) (record s) in
    let r := run R fs opt junk (soga_hooks R std greater opt sp m sel_fuel) rec_on vec_max
                   (S (Z.to_nat (maxGenerations opt))) s0 in
    r <> Fuel /\ r <> Abort.
Proof.
  intros V R std greater opt sp fs junk v0 m sel_fuel rec_on vec_max s HR Hstd Hw HK HK4 Ht HM Hf Hv A s0 r.
  assert (HS : m = StochasticUniversal -> populationSize opt * 4 ^ maxGenerations opt < 2147483648).
  { intros E. exfalso. destruct A as [A|(A & _)]; congruence. }
  assert (He : m = EliteReserved -> eliteNum sp <= populationSize opt).
  { intros E. destruct A as [A|(_ & A & _)]; [congruence|apply A]. }
  destruct (bound_ok opt m HK HK4 (proj1 HM) HS) as (B0 & BG).
  pose (Q := fun x : double => exists v, x = fFun fs v).
  assert (Sel : forall g (d : core V double nat (G R)), 0 <= g <= maxGenerations opt -> entersG R Q (pop_bound opt m) g d ->
    select R std greater opt sp m sel_fuel d = UB \/ exists d', select R std greater opt sp m sel_fuel d = Ok d').
  { intros g d Hg (E1 & E2 & E3 & E4).
    assert (Hs : sizes_ok R opt d) by (specialize (BG g Hg); split; unfold K; lia).
    assert (NN : forall x, In x (pop d) -> nonnan (gfit x)) by (intros x Hx; destruct (E3 x Hx) as (v & ->); apply Hf).
    destruct A as [-> |(-> & He1 & Md & B & FB & Bf)]; cbn [select].
    - assert (PN : pop d <> []) by (intros C; unfold best_valid in E2; rewrite C in E2; exact E2).
      destruct (truncation_outcome R std greater opt d Hstd E1 HK PN NN) as (kept & _ & _ & _ & O).
      destruct (inb _ _); [right; destruct O as (d' & -> & _); eauto|left; exact O].
    - destruct (elite_outcome R std greater opt sp sel_fuel d Hstd E1 E2 Hs ltac:(lia) NN HK) as [F|(kept & _ & O)].
      + exfalso. eapply (elite_not_fuel R std greater opt sp B sel_fuel d); try eassumption.
        * intros x Hx; destruct (E3 x Hx) as (v & ->); apply modest_mild, Md.
        * unfold pop_bound in E4. apply Nat2Z.inj_le. rewrite Nat2Z.inj_mul. nia.
      + destruct (inb _ _); [right; destruct O as (d' & -> & _); eauto|left; exact O]. }
  assert (W : forall k, k <> BadUB -> bad_of r <> Some k).
  { intros k Hk. unfold r, s0.
    apply (run_avoids R std greater opt sp fs junk m sel_fuel Q (pop_bound opt m)); try assumption;
     [unfold K; lia|intros v; exists v; reflexivity
     |intros g d Hg Hn C; destruct (Sel g d Hg Hn) as [E|(d' & E)]; rewrite E in C; cbn in C; congruence
     |intros g d d' Hg (E1 & E2 & E3 & E4) H; eapply (bound_step V R std greater opt sp m sel_fuel g d d'); try eassumption; try lia; apply BG, Hg
     |intros; lia || discriminate]. }
  split; intros C; [apply (W BadFuel)|apply (W BadAbort)]; try discriminate; rewrite C; reflexivity.
Qed.
Print Assumptions C14_elitist_run_ends.

(** RouletteWheel never ends, whatever the stream, when two finite fitness
    values are so far apart that their difference overflows. *)
Theorem C14_roulette_range_overflow_hangs_refuted :
  forall (V : Type) (R : rng_ops) (std : std_ops) (greater : bool) (opt : ga_option) (sp : sel_params)
         (c : core V double nat (G R)),
    rng_ok R -> wf c -> best_valid R c -> 1 <= populationSize opt < N_of c -> sizes_ok R opt c ->
    (forall x, In x (pop c) -> fin (gfit x)) ->
    (exists x y, In x (pop c) /\ In y (pop c) /\ (bpow radix2 1024 <= B2R (gfit x) - B2R (gfit y))%R) ->
    forall fuel, select R std greater opt sp RouletteWheel fuel c = Fuel.
Proof. intros. cbn [select]. apply roulette_stuck; assumption. Qed.
Print Assumptions C14_roulette_range_overflow_hangs_refuted.

(** Boltzmann never ends, whatever the stream, once exp(strength * fitness)
    overflows for one individual (for the default strength and the usual exp:
    a fitness above 709). *)
Theorem C14_boltzmann_overflow_hangs_refuted :
  forall (V : Type) (R : rng_ops) (std : std_ops) (greater : bool) (opt : ga_option) (sp : sel_params)
         (c : core V double nat (G R)),
    rng_ok R -> wf c -> best_valid R c -> 1 <= populationSize opt < N_of c -> sizes_ok R opt c ->
    let weight x := libm_exp sp (fmul (boltzStrength sp) (gfit x)) in
    (forall x, In x (pop c) -> weight x = dinf \/ (fin (weight x) /\ (0 <= B2R (weight x))%R)) ->
    (exists x, In x (pop c) /\ weight x = dinf) ->
    forall fuel, select R std greater opt sp Boltzmann fuel c = Fuel.
Proof. intros. cbn [select]. apply boltzmann_stuck; assumption. Qed.
Print Assumptions C14_boltzmann_overflow_hangs_refuted.

(** Both situations are reachable with ordinary settings: two individuals of
    fitness 2^1023 and -2^1023, or a fitness whose exponential overflows. *)
Lemma big_value (x : double) : B2SF x = SpecFloat.S754_finite false 4503599627370496 971 -> B2R x = bpow radix2 1023.
Proof.
  intros E. rewrite <- SF2R_B2SF, E. cbn [SF2R SpecFloat.cond_Zopp]. unfold F2R. cbn [Fnum Fexp cond_Zopp].
  change (Z.pos 4503599627370496) with (radix_val radix2 ^ 52). rewrite (IZR_Zpower radix2 52) by lia. rewrite <- bpow_plus. reflexivity.
Qed.
Lemma small_value (x : double) : B2SF x = SpecFloat.S754_finite true 4503599627370496 971 -> B2R x = (- bpow radix2 1023)%R.
Proof.
  intros E. rewrite <- SF2R_B2SF, E. cbn [SF2R SpecFloat.cond_Zopp]. unfold F2R. cbn [Fnum Fexp cond_Zopp].
  change (Z.neg 4503599627370496) with (Z.opp (Z.pos 4503599627370496)). rewrite opp_IZR. change (Z.pos 4503599627370496) with (radix_val radix2 ^ 52). rewrite (IZR_Zpower radix2 52) by lia.
  rewrite Ropp_mult_distr_l_reverse, <- bpow_plus. reflexivity.
Qed.
Example ex_C14_overflow_roulette : forall fuel g, select replay std_inst true (opt_k 1) plain RouletteWheel fuel (huge (g : G replay)) = Fuel.
Proof.
  intros fuel g. apply C14_roulette_range_overflow_hangs_refuted.
  - apply replay_ok.
  - split; cbn [pop huge map gid next].
    + repeat constructor; cbn; intuition congruence.
    + intros x [<-|[<-|[]]]; cbn; lia.
  - left. reflexivity.
  - split; vm_compute; congruence || reflexivity.
  - split; vm_compute; split; congruence || reflexivity.
  - cbn [pop huge]. intros x [<-|[<-|[]]]; vm_compute; reflexivity.
  - do 2 eexists. split; [right; left; reflexivity|]. split; [left; reflexivity|]. cbn [gfit].
    match goal with |- (_ <= B2R ?a - B2R ?b)%R =>
      rewrite (big_value a) by (vm_compute; reflexivity); rewrite (small_value b) by (vm_compute; reflexivity) end.
    change 1024 with (1 + 1023). rewrite bpow_plus. change (bpow radix2 1) with 2%R. generalize (bpow radix2 1023). intros; lra.
Qed.
Example ex_C14_overflow_boltzmann : forall fuel g,
  select replay std_inst true (opt_k 1) (mkParams 3 d0 d1 d1 d1 1 (fun _ _ => d1) (fun _ => dinf)) Boltzmann fuel (huge (g : G replay)) = Fuel.
Proof.
  intros fuel g. apply C14_boltzmann_overflow_hangs_refuted.
  - apply replay_ok.
  - split; cbn [pop huge map gid next].
    + repeat constructor; cbn; intuition congruence.
    + intros x [<-|[<-|[]]]; cbn; lia.
  - left. reflexivity.
  - split; vm_compute; congruence || reflexivity.
  - split; vm_compute; split; congruence || reflexivity.
  - intros x _. left. reflexivity.
  - eexists. split; [left; reflexivity|]. reflexivity.
Qed.

(** The fairness hypotheses are met by a generator that alternates between 0
    and 3/4, and whole runs from an empty solver return with it. *)
Definition blink : rng_ops := {|
  G := bool;
  rand01 := fun b => (if b then d0 else fofZ 3 (-2), negb b);
  randf01 := fun b => (if b then f0 else fofZ 3 (-2), negb b);
  shuffle := fun A l g => (l, g)
|}.
Example ex_C14_fair : rng_ok blink /\ fair blink 2 /\ fair_d blink 2.
Proof.
  split; [|split].
  - split; [intros [|]; split; vm_compute; reflexivity|]. split; [intros [|]; split; vm_compute; reflexivity|].
    intros A l g. cbn. apply Permutation_refl.
  - intros g size Hs. exists (if g then 0%nat else 1%nat). split; [destruct g; lia|].
    assert (E : forall s, idx_of f0 s = 0) by (intros s; unfold idx_of; destruct (f_of_Z s) as [[]|[]| |[] ? ? ?]; reflexivity).
    destruct g; cbn; apply E.
  - intros g size Hs. exists (if g then 0%nat else 1%nat). split; [destruct g; lia|].
    assert (E : forall x : double, fin x -> fle (fmul d0 x) d1 = true).
    { intros [[]|[]| |[] ? ? ?] F; try discriminate F; reflexivity. }
    destruct g; cbn; apply E; apply d_of_Z_exact; lia.
Qed.
(** fitness = the gene's value, every mutation adds 1, every cross-over sums *)
Definition climb : user_funs Z double (G blink) := {|
  iFun := fun g => (5, negb g); fFun := fun z => d_of_Z (z mod 1000); cFun := fun a b g => ((a + b, b), g); mFun := fun a g => (a + 1, g) |}.
Lemma climb_modest v : modest (fFun climb v).
Proof.
  cbn [fFun climb]. pose proof (Z.mod_pos_bound v 1000 ltac:(lia)) as B. destruct (d_of_Z_exact (v mod 1000)) as (F & E); [lia|].
  split; [exact F|]. rewrite E, <- abs_IZR. apply Rle_trans with (bpow radix2 10); [change (bpow radix2 10) with (IZR 1024); apply IZR_le; lia|apply bpow_le; lia].
Qed.
Definition blank : ga Z double nat (G blink) := mkGA (mkCore [] 0%nat 0 0%nat (true : G blink)) 0 [].
Example ex_C14_run_returns : forall m, In m [Tournament; MonteCarlo; LinearRank; RouletteWheel; StochasticUniversal] ->
  exists s', run blink climb (opt_k 3) d0 (soga_hooks blink std_inst true (opt_k 3) plain m 24) false 100
                 (S (Z.to_nat (maxGenerations (opt_k 3))))
                 (mkGA (soga_initializePop blink (opt_k 3) climb d0 0 (ga_core blank)) (generation blank) (record blank)) = Ok s'.
Proof.
  intros m Hm. apply C14_run_returns.
  - apply ex_C14_fair.
  - apply std_inst_ok.
  - split; cbn; [constructor|contradiction].
  - cbn; lia.
  - cbn; lia.
  - cbn; lia.
  - cbn; unfold two64; lia.
  - intros v. destruct (climb_modest v) as (F & _). destruct (fFun climb v); try discriminate F; reflexivity.
  - vm_compute; congruence.
  - cbn; lia.
  - cbn in Hm. destruct Hm as [<-|[<-|[<-|[<-|[<-|[]]]]]]; try exact I.
    + split; (split; [vm_compute; reflexivity|]).
      * cbn. lra.
      * destruct (d_of_Z_exact 1) as (_ & E); [lia|]. cbn [linBest plain]. change d1 with (d_of_Z 1). rewrite E. lra.
    + split; [apply climb_modest|]. exists 2%nat. split; [apply ex_C14_fair|cbn; lia].
    + vm_compute. reflexivity.
Qed.
Example ex_C14_elitist : forall m, m = Truncation \/ m = EliteReserved ->
  let r := run blink climb (opt_k 3) d0 (soga_hooks blink std_inst true (opt_k 3) plain m 24) false 100
                 (S (Z.to_nat (maxGenerations (opt_k 3))))
                 (mkGA (soga_initializePop blink (opt_k 3) climb d0 0 (ga_core blank)) (generation blank) (record blank)) in
  r <> Fuel /\ r <> Abort.
Proof.
  intros m Hm. apply C14_elitist_run_ends.
  - apply ex_C14_fair.
  - apply std_inst_ok.
  - split; cbn; [constructor|contradiction].
  - cbn; lia.
  - cbn; lia.
  - cbn; lia.
  - cbn; unfold two64; lia.
  - intros v. destruct (climb_modest v) as (F & _). destruct (fFun climb v); try discriminate F; reflexivity.
  - vm_compute; congruence.
  - destruct Hm as [->| ->]; [left; reflexivity|right]. split; [reflexivity|]. split; [cbn; lia|]. split; [apply climb_modest|].
    exists 2%nat. split; [apply ex_C14_fair|cbn; lia].
Qed.
