(** C01-C06: the genetic-algorithm skeleton (GABase.hpp).
    Specification vocabulary: [stops], [rounds], [stops_at_last], [recorded]
    (GABaseProofs.v), [draws], [drawn], [flat], [wf], [child_of], [mutant_of]
    (GAOpsProofs.v). *)
From Coq Require Import List Arith ZArith Bool Lia Permutation.
From Flocq Require Import BinarySingleNaN.
From Verif Require Import Base Fl Rng GABase GABaseProofs GAOpsProofs.
Import ListNotations.
Open Scope Z_scope.

(** * C01 *)

(** Whatever the selection and breeding do (as long as they return), run()
    finishes within maxGenerations + 1 rounds... *)
Theorem C01_run_terminates :
  forall (V F X : Type) (R : rng_ops) (fs : user_funs V F (G R)) (opt : ga_option)
         (junk : F) (hk : hooks V F X (G R)) (rec_on : bool) (vec_max : Z) (s : ga V F X (G R)),
    (forall c, hk_select hk c <> Fuel) -> (forall c, hk_best hk c <> Fuel) ->
    0 <= maxGenerations opt < two64 - 1 ->
    run R fs opt junk hk rec_on vec_max (S (Z.to_nat (maxGenerations opt))) s <> Fuel.
Proof.
  intros V F X R fs opt junk hk rec_on vec_max s H1 H2 HM. unfold run.
  destruct (rec_on && _); [discriminate|].
  apply loop_terminates; cbn [generation]; try assumption; lia.
Qed.
Print Assumptions C01_run_terminates.

(** ... and then generation() <= maxGenerations. *)
Theorem C01_generation_bound :
  forall (V F X : Type) (R : rng_ops) (fs : user_funs V F (G R)) (opt : ga_option)
         (junk : F) (hk : hooks V F X (G R)) (rec_on : bool) (vec_max : Z) fuel (s s' : ga V F X (G R)),
    0 <= maxGenerations opt < two64 - 1 ->
    run R fs opt junk hk rec_on vec_max fuel s = Ok s' ->
    0 <= generation s' <= maxGenerations opt.
Proof.
  intros V F X R fs opt junk hk rec_on vec_max fuel s s' HM. unfold run.
  destruct (rec_on && _); [discriminate|]. intros H. apply loop_sound in H; cbn [generation]; try assumption; try lia.
  destruct H as (cs & _ & _ & Hne & _ & Hg & Hle & _). cbn [generation] in Hg.
  destruct cs; [congruence|]. cbn [length] in Hg. lia.
Qed.
Print Assumptions C01_generation_bound.

(** With maxGenerations = SIZE_MAX and no fail limit the counter wraps: run()
    is still running after any number of rounds. *)
Theorem C01_never_stops_at_size_max_refuted :
  forall (V F X : Type) (R : rng_ops) (fs : user_funs V F (G R)) (opt : ga_option)
         (junk : F) (hk : hooks V F X (G R)) (rec_on : bool) (vec_max : Z) fuel (s : ga V F X (G R)),
    (forall c, exists c', hk_select hk c = Ok c') -> (forall c, exists b, hk_best hk c = Ok b) ->
    maxGenerations opt = two64 - 1 -> maxFailTimes opt = 0 -> 0 <= vec_max ->
    run R fs opt junk hk rec_on vec_max fuel s = Fuel.
Proof.
  intros V F X R fs opt junk hk rec_on vec_max fuel s H1 H2 HM HF Hv. unfold run.
  replace (vec_max <? wrap64 (maxGenerations opt + 1)) with false.
  2:{ rewrite HM. symmetry. apply Z.ltb_ge. exact Hv. }
  rewrite andb_false_r. apply loop_wraps; assumption.
Qed.
Print Assumptions C01_never_stops_at_size_max_refuted.

(** * C02, C03 *)

(** run() returns exactly when there is a sequence of rounds of which the last,
    and only the last, meets the stop rule; breeding happens between rounds and
    not after the last; generation() is the number of rounds minus one. *)
Theorem C02_stop_rule_exact :
  forall (V F X : Type) (R : rng_ops) (fs : user_funs V F (G R)) (opt : ga_option)
         (junk : F) (hk : hooks V F X (G R)) (vec_max : Z) (s : ga V F X (G R)) (s' : ga V F X (G R)),
    0 <= maxGenerations opt < two64 - 1 ->
    ((exists fuel, run R fs opt junk hk false vec_max fuel s = Ok s') <->
     (exists cs last_c,
        rounds R fs opt junk hk (mkCore (pop (ga_core s)) (next (ga_core s)) 0 (ext (ga_core s)) (gen_rng (ga_core s)))
               (cs ++ [last_c]) /\
        (forall i c, nth_error cs i = Some c -> ~ stops R opt (Z.of_nat i + 1) c) /\
        stops R opt (Z.of_nat (length cs) + 1) last_c /\
        s' = mkGA last_c (Z.of_nat (length cs)) (record s))).
Proof.
  intros V F X R fs opt junk hk vec_max s s' HM.
  assert (Split : forall t (cs : list (core V F X (G R))), stops_at_last R opt t cs ->
     exists cs' c, cs = cs' ++ [c] /\ stops R opt (t + Z.of_nat (length cs')) c /\
       forall i x, nth_error cs' i = Some x -> ~ stops R opt (t + Z.of_nat i) x).
  { intros t cs. revert t. induction cs as [|c [|c2 cs] IH]; intros t H; [contradiction| |].
    - exists [], c. cbn [length]. rewrite Z.add_0_r. split; [reflexivity|]. split; [exact H|].
      intros [|i] x C; discriminate.
    - destruct H as (N & H). apply IH in H. destruct H as (cs' & c' & E & Hs & Hn).
      exists (c :: cs'), c'. split; [cbn; rewrite <- E; reflexivity|].
      split. { replace (t + Z.of_nat (length (c :: cs'))) with (t + 1 + Z.of_nat (length cs')) by (cbn [length]; lia). exact Hs. }
      intros [|i] x Hx. { inversion Hx; subst. rewrite Z.add_0_r. exact N. }
      replace (t + Z.of_nat (S i)) with (t + 1 + Z.of_nat i) by lia. apply Hn. exact Hx. }
  assert (Join : forall (cs : list (core V F X (G R))) t c, stops R opt (t + Z.of_nat (length cs)) c ->
     (forall i x, nth_error cs i = Some x -> ~ stops R opt (t + Z.of_nat i) x) ->
     stops_at_last R opt t (cs ++ [c])).
  { induction cs as [|x cs IH]; intros t c Hs Hn; cbn [app].
    - cbn [length] in Hs. rewrite Z.add_0_r in Hs. exact Hs.
    - assert (H' : stops_at_last R opt (t + 1) (cs ++ [c])).
      { apply IH.
        - replace (t + 1 + Z.of_nat (length cs)) with (t + Z.of_nat (length (x :: cs))) by (cbn [length]; lia). exact Hs.
        - intros i y Hy. replace (t + 1 + Z.of_nat i) with (t + Z.of_nat (S i)) by lia. apply Hn. exact Hy. }
      assert (N : ~ stops R opt t x). { specialize (Hn 0%nat x eq_refl). rewrite Z.add_0_r in Hn. exact Hn. }
      destruct (cs ++ [c]) eqn:E; [destruct cs; discriminate|]. split; assumption. }
  unfold run; cbn [andb]. split.
  - intros (fuel & H). apply loop_sound in H; cbn [generation]; try assumption; try lia.
    destruct H as (cs & Hr & Hs & Hne & Hl & Hg & Hle & Hrec). cbn [ga_core generation record] in *.
    apply Split in Hs. destruct Hs as (cs' & c & -> & Hst & Hn). exists cs', c.
    split; [exact Hr|]. split. { intros i x Hx. rewrite Z.add_comm. apply Hn. exact Hx. }
    split. { rewrite Z.add_comm. exact Hst. }
    rewrite last_last in Hl. rewrite app_length in Hg. cbn [length] in Hg.
    destruct s' as [c' g' r']. cbn [ga_core generation record] in *. subst. f_equal. lia.
  - intros (cs & c & Hr & Hn & Hst & ->).
    assert (Hs : stops_at_last R opt 1 (cs ++ [c])).
    { apply Join; [rewrite Z.add_comm; exact Hst|]. intros i x Hx. rewrite Z.add_comm. apply Hn. exact Hx. }
    set (s0 := mkGA _ 0 (record s)).
    destruct (loop_complete R fs opt junk hk false (cs ++ [c]) s0 []) as (s1 & H1);
      [exact HM|unfold s0; cbn [generation]; lia|exact Hr|exact Hs|discriminate|].
    exists (length (cs ++ [c])). rewrite H1. pose proof H1 as H2.
    apply loop_sound in H2; [|exact HM|unfold s0; cbn [generation]; lia].
    destruct H2 as (cs2 & Hr2 & Hs2 & Hne & Hl & Hg & _ & Hrec).
    assert (E : cs2 = cs ++ [c]).
    { clear -Hr Hr2 Hs Hs2. unfold s0 in Hr2, Hs2. cbn [ga_core generation] in *. change (0 + 1) with 1 in Hs2.
      revert Hr Hr2 Hs Hs2. generalize (cs ++ [c]). generalize 1. generalize (mkCore (pop (ga_core s)) (next (ga_core s)) 0 (ext (ga_core s)) (gen_rng (ga_core s))).
      induction cs2 as [|a cs2 IH]; intros c0 t [|b l]; cbn [rounds stops_at_last]; try contradiction.
      intros (E1 & R1) (E2 & R2) S1 S2. assert (a = b) by congruence. subst b. f_equal.
      destruct l as [|b l]; destruct cs2 as [|a2 cs2]; try reflexivity.
      - destruct S2 as (N & _). contradiction.
      - destruct S1 as (N & _). contradiction.
      - eapply IH; [exact R1|exact R2|exact (proj2 S1)|exact (proj2 S2)]. }
    subst cs2. rewrite last_last in Hl. rewrite app_length in Hg. cbn [length s0 generation record] in Hg, Hrec.
    f_equal. destruct s1 as [c1 g1 r1]. cbn [ga_core generation record] in *. subst. f_equal. lia.
Qed.
Print Assumptions C02_stop_rule_exact.

(** With recording on, run() keeps exactly one entry per round, the i-th being
    the best fitness right after the i-th selection; nothing of an earlier run
    is left, and there are generation()+1 entries. *)
Theorem C03_record_per_round :
  forall (V F X : Type) (R : rng_ops) (fs : user_funs V F (G R)) (opt : ga_option)
         (junk : F) (hk : hooks V F X (G R)) (vec_max : Z) fuel (s s' : ga V F X (G R)),
    0 <= maxGenerations opt < two64 - 1 ->
    run R fs opt junk hk true vec_max fuel s = Ok s' ->
    exists cs,
      rounds R fs opt junk hk (mkCore (pop (ga_core s)) (next (ga_core s)) 0 (ext (ga_core s)) (gen_rng (ga_core s))) cs /\
      Forall2 (fun c b => hk_best hk c = Ok b) cs (record s') /\
      Z.of_nat (length (record s')) = generation s' + 1 /\
      ga_core s' = last cs (ga_core s').
Proof.
  intros V F X R fs opt junk hk vec_max fuel s s' HM. unfold run.
  destruct (true && _); [discriminate|]. intros H. apply loop_sound in H; cbn [generation]; try assumption; try lia.
  destruct H as (cs & Hr & _ & Hne & Hl & Hg & _ & bs & Hbs & Hf). cbn [ga_core generation record app] in *.
  exists cs. rewrite Hbs. split; [exact Hr|]. split; [exact Hf|].
  split. { rewrite Hg. apply Forall2_len in Hf. lia. }
  rewrite Hl. destruct cs as [|c cs]; [congruence|]. clear. revert c. induction cs as [|d cs IH]; intros c; [reflexivity|].
  exact (IH d).
Qed.
Print Assumptions C03_record_per_round.

(** * C04 *)

(** Sequential evaluation: every individual ends up evaluated with its own
    genes, an individual already evaluated is untouched, nothing else changes. *)
Theorem C04_sequential_evaluation :
  forall (V F X : Type) (R : rng_ops) (fs : user_funs V F (G R)) (c : core V F X (G R)),
    Forall2 (fun x y => gid y = gid x /\ gvar y = gvar x /\ gcomp y = true /\
                        (gcomp x = true -> y = x) /\
                        (gcomp x = false -> gfit y = fFun fs (gvar x)))
            (pop c) (pop (computeAllFitness R fs c)).
Proof.
  intros. cbn. induction (pop c) as [|x p IH]; cbn; constructor; [|exact IH].
  unfold evaluated. destruct (gcomp x) eqn:E; cbn; repeat split; try congruence; intros; congruence.
Qed.
Print Assumptions C04_sequential_evaluation.

(** Parallel evaluation: for every interleaving in which each task does both of
    its writes the final population equals the sequential result, and the
    fitness function ran exactly once for each individual that needed it. *)
Theorem C04_schedule_independent :
  forall (V F : Type) (R : rng_ops) (fs : user_funs V F (G R)) (p : list (gene V F)) (events : list nat),
    (forall i x, nth_error p i = Some x -> gcomp x = false ->
                 (2 <= count_occ Nat.eq_dec events i)%nat) ->
    p_pop (exec R fs p events) = map (evaluated R fs) p /\
    NoDup (log (exec R fs p events)) /\
    (forall i, In i (log (exec R fs p events)) <-> exists x, nth_error p i = Some x /\ gcomp x = false).
Proof. intros V F R fs p events H. apply exec_result. exact H. Qed.
Print Assumptions C04_schedule_independent.

(** * C05, C06 *)
Theorem C05_crossover :
  forall (V F X : Type) (R : rng_ops) (fs : user_funs V F (G R)) (opt : ga_option) (junk : F)
         (c : core V F X (G R)),
    rng_ok R -> wf c ->
    let c' := crossover R fs opt junk c in
    let chosen := drawn (crossoverProb opt) (pop c) (fst (draws R (length (pop c)) (gen_rng c))) in
    exists pairs kpairs : list (gene V F * gene V F),
      pop c' = pop c ++ flat kpairs /\
      length pairs = Nat.div (length chosen) 2 /\
      (forall x, In x (flat pairs) -> In x chosen) /\
      NoDup (map gid (flat pairs)) /\
      Forall2 (child_of R fs) pairs kpairs /\
      (forall x, In x (flat kpairs) -> (next c <= gid x)%nat) /\
      wf c' /\ fails c' = fails c /\ ext c' = ext c.
Proof. intros V F X R fs opt junk c HR Hw. exact (crossover_spec_lemma R fs opt junk c HR Hw). Qed.
Print Assumptions C05_crossover.

Theorem C06_mutation :
  forall (V F X : Type) (R : rng_ops) (fs : user_funs V F (G R)) (opt : ga_option) (junk : F)
         (c : core V F X (G R)),
    wf c ->
    let c' := mutate R fs opt junk c in
    exists kids,
      pop c' = pop c ++ kids /\
      Forall2 (mutant_of R fs)
        (drawn (mutateProb opt) (pop c) (fst (draws R (length (pop c)) (gen_rng c)))) kids /\
      (forall x, In x kids -> (next c <= gid x)%nat) /\
      wf c' /\ fails c' = fails c /\ ext c' = ext c.
Proof. intros V F X R fs opt junk c Hw. exact (mutate_spec_lemma R fs opt junk c Hw). Qed.
Print Assumptions C06_mutation.

(** initializePop: exactly populationSize fresh, unevaluated individuals. *)
Theorem C06_initialize :
  forall (V F X : Type) (R : rng_ops) (fs : user_funs V F (G R)) (opt : ga_option) (junk : F) (v0 : V)
         (c : core V F X (G R)),
    wf c ->
    let c' := initializePop R fs opt junk v0 c in
    length (pop c') = Z.to_nat (populationSize opt) /\ wf c' /\
    (forall x, In x (pop c') -> gcomp x = false /\ exists g, gvar x = fst (iFun fs g)).
Proof. intros V F X R fs opt junk v0 c Hw. exact (initialize_spec_lemma R fs opt junk v0 c Hw). Qed.
Print Assumptions C06_initialize.

(** * Non-vacuity *)
Definition ex_funs : user_funs Z Z (list Z) := {|
  iFun := fun g => (hd 0 g, tl g); fFun := fun v => v * v;
  cFun := fun a b g => ((a + b, a - b), g); mFun := fun a g => (a + hd 0 g, tl g) |}.
Definition ex_hooks : hooks Z Z unit (list Z) := {|
  hk_select := fun c => Ok (mkCore (firstn 3 (pop c)) (next c) (fails c + 1) (ext c) (gen_rng c));
  hk_best := fun c => match pop c with [] => UB | x :: _ => Ok (gfit x) end |}.
Definition ex_opt : ga_option := {| populationSize := 3; maxFailTimes := 0; maxGenerations := 4;
   crossoverProb := d1; mutateProb := fofZ 1 (-1) |}.
Definition ex_core : core Z Z unit (list Z) :=
  initializePop replay ex_funs ex_opt 0 0 (mkCore [] 0%nat 0 tt [5; 6; 7; 10; 200; 30; 255; 3; 100; 100; 1; 90; 77]).

Example ex_core_wf : wf ex_core /\ length (pop ex_core) = 3%nat.
Proof.
  split; [|reflexivity]. split.
  - vm_compute. repeat constructor; cbn; intuition discriminate.
  - intros x H. vm_compute in H. destruct H as [<-|[<-|[<-|[]]]]; vm_compute; lia.
Qed.
Example ex_run : exists s, run replay ex_funs ex_opt 0 ex_hooks true 1000 5 (mkGA ex_core 0 [99]) = Ok s /\
  generation s = 4 /\ record s = [25; 25; 25; 25; 25].
Proof. eexists. split; [vm_compute; reflexivity|]. split; reflexivity. Qed.
Example ex_crossover : map gvar (pop (crossover replay ex_funs ex_opt 0 ex_core)) = [5; 6; 7; 11; 1].
Proof. vm_compute. reflexivity. Qed.
Example ex_schedule :
  p_pop (exec replay ex_funs (pop ex_core) [2; 0; 2; 1; 0; 1]%nat) = map (evaluated replay ex_funs) (pop ex_core) /\
  log (exec replay ex_funs (pop ex_core) [2; 0; 2; 1; 0; 1]%nat) = [2; 0; 1]%nat.
Proof. split; vm_compute; reflexivity. Qed.
