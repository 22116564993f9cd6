(** C105: copying, assigning and destroying SOGA solvers.
    SolverCopy.v models a program that holds any number of solvers of one type. *)
From Coq Require Import List Arith ZArith Bool Lia Permutation.
From Flocq Require Import BinarySingleNaN.
From Verif Require Props_SOGA.
From Verif Require Import Props_Box Props_SOGAObj Base Fl Rng StdOps ListFacts GABase GAOpsProofs SOGA SOGAProofs SOGAProofs6 SOGAObj SolverCopy SolverCopyProofs.
Import ListNotations.
Open Scope nat_scope.

Section C105.
Context {V A : Type} (R : rng_ops) (std : std_ops) (mode : option method) (greater rec_on : bool).
Context (pw : double -> double -> double) (ex : double -> double) (junk : double) (v0 : V) (vec_max : Z) (sel_fuel : nat).
Notation gene' := (gene V double).
Notation obj' := (obj (V := V) (A := A) R).
Notation world' := (world (V := V) (A := A) R).
Notation wstep' := (wstep R std mode greater rec_on pw ex junk v0 vec_max sel_fuel).
Notation wdrive' := (wdrive R std mode greater rec_on pw ex junk v0 vec_max sel_fuel).
Notation alone := (step R std mode greater rec_on pw ex junk v0 vec_max sel_fuel).

(** ** Specification *)
(** A state some program reaches. *)
Definition reached (w : world') : Prop := exists g h, wdrive' (start R g) h = Ok w.
(** What can be asked of solver [i]. *)
Definition same_answers (w : world') (i : nat) (w' : world') (j : nat) : Prop :=
  bestGene_of R w' j = bestGene_of R w i /\ result_of R w' j = result_of R w i /\ bestFitness_of R w' j = bestFitness_of R w i.
Definition same_members (o o' : obj') : Prop :=
  o_set R o' = o_set R o /\ o_slots R o' = o_slots R o /\ o_args R o' = o_args R o /\ o_gen R o' = o_gen R o /\ o_rec R o' = o_rec R o /\
  fails (o_core R o') = fails (o_core R o) /\ o_inited R o' = o_inited R o /\ o_ran R o' = o_ran R o /\
  map content (get_population R o') = map content (get_population R o).
(** The individual bestGene() refers to is one of the solver's own population. *)
Definition own_best (o : obj') : Prop := o_inited R o = true /\ exists x, In x (get_population R o) /\ gid x = ext (o_core R o).
(** No node of one population is a node of the other. *)
Definition separate (o o' : obj') : Prop := forall x y, In x (get_population R o) -> In y (get_population R o') -> gid x <> gid y.
Definition leaves (k : nat) (h : list (event (V := V) (A := A) R)) : Prop := forallb (fun e => negb (about R k e)) h = true.

Lemma answers_of (w : world') i (w' : world') j : bestGene_of R w' j = bestGene_of R w i -> same_answers w i w' j.
Proof. intros H. split; [exact H|]. unfold result_of, bestFitness_of. rewrite H. auto. Qed.
Lemma reached_inv (w : world') : rng_ok R -> std_ok std -> reached w -> winv R w.
Proof. intros HR Hs (g & h & H). exact (proj1 (wdrive_inv R std mode greater rec_on pw ex junk v0 vec_max sel_fuel h HR Hs _ _ (start_inv R g) H)). Qed.
Lemma object_nth (w : world') i o : object R w i = Ok o <-> nth_error (w_objs R w) i = Some (Some o).
Proof. unfold object. destruct (nth_error (w_objs R w) i) as [[x|]|]; split; congruence. Qed.
Lemma own_iff (o : obj') : own_best o <-> o_inited R o = true /\ owns R (o_core R o).
Proof.
  unfold own_best, owns, get_population. split; intros (H1 & H2); (split; [exact H1|]).
  - destruct H2 as (x & Hx & <-). apply in_map, Hx.
  - apply in_map_iff in H2. destruct H2 as (x & E & Hx). exists x. auto.
Qed.

(** ** The copy *)
(** A copy has the same settings, functions, arguments, counters and record, and a
    population of equal individuals in nodes of its own; it gives the same answers as
    the original.  No other solver notices. *)
Theorem C105_copy : rng_ok R -> std_ok std -> forall (w : world') i o, reached w -> object R w i = Ok o ->
  let k := length (w_objs R w) in
  exists w' o', wstep' w (CopyOf R i) = Ok w' /\ object R w' k = Ok o' /\ same_members o o' /\ same_answers w i w' k /\
    (forall j oj, object R w j = Ok oj -> object R w' j = Ok oj /\ same_answers w j w' j /\ separate oj o').
Proof.
  intros HR Hs w i o Hr Ho k. pose proof (reached_inv w HR Hs Hr) as I. apply object_nth in Ho.
  assert (Ew : wstep' w (CopyOf R i) = Ok (mkW R (w_objs R w ++ [Some (copy_obj R (w_next R w) (w_rng R w) o)]) (w_next R w + length (pop (o_core R o)))%nat (w_rng R w))).
  { cbn [wstep]. rewrite Ho. reflexivity. }
  destruct (wstep_inv R std mode greater rec_on pw ex junk v0 vec_max sel_fuel _ _ _ HR Hs I Ew) as (I' & _ & _).
  set (w' := mkW R _ _ _) in *. set (o' := copy_obj R (w_next R w) (w_rng R w) o) in *.
  assert (Ek : nth_error (w_objs R w') k = Some (Some o')). { cbn [w' w_objs]. rewrite nth_error_app2 by lia. unfold k. rewrite Nat.sub_diag. reflexivity. }
  assert (Fr : forall e, e < w_next R w -> lookup (all R (w_objs R w')) e = lookup (all R (w_objs R w)) e).
  { intros e He. cbn [w' w_objs]. rewrite all_snoc. apply lookup_app_fresh. cbn [live_pop o' copy_obj o_core pop]. rewrite copies_ids. intros C. apply in_seq in C. lia. }
  exists w', o'. split; [exact Ew|]. split; [apply object_nth, Ek|]. split; [|split].
  - repeat split. cbn. apply copies_content.
  - apply answers_of. rewrite (bestGene_all R w' k o' I' Ek), (bestGene_all R w i o I Ho). cbn [o' copy_obj o_inited o_core ext].
    destruct (o_inited R o) eqn:E; [|reflexivity]. apply Fr. destruct I as (_ & _ & I3). eapply I3; eassumption.
  - intros j oj Hj. apply object_nth in Hj. pose proof (lt_nth _ _ _ Hj) as Lj.
    assert (Ej : nth_error (w_objs R w') j = Some (Some oj)) by (cbn [w' w_objs]; rewrite nth_error_app1 by exact Lj; exact Hj).
    split; [apply object_nth, Ej|]. split.
    + apply answers_of. rewrite (bestGene_all R w' j oj I' Ej), (bestGene_all R w j oj I Hj). destruct (o_inited R oj) eqn:E; [|reflexivity].
      apply Fr. destruct I as (_ & _ & I3). eapply I3; eassumption.
    + intros x y Hx Hy E. destruct (own_wf R w j oj (w_next R w) (proj1 I) (proj1 (proj2 I)) Hj) as (_ & L). specialize (L x Hx).
      apply (in_map gid) in Hy. cbn [get_population o' copy_obj o_core pop] in Hy. rewrite copies_ids in Hy. apply in_seq in Hy. lia.
Qed.

(** Assignment replaces every member as well; the assigned solver keeps its own
    nodes, the others are left alone except that an iterator into the overwritten
    population now sees the new contents. *)
Theorem C105_assign : rng_ok R -> std_ok std -> forall (w : world') i j d s, reached w -> i <> j -> object R w i = Ok d -> object R w j = Ok s -> own_best s ->
  exists w' d', wstep' w (AssignTo R i j) = Ok w' /\ object R w' i = Ok d' /\ same_members s d' /\ same_answers w j w' i /\
    (forall k o, k <> i -> object R w k = Ok o -> object R w' k = Ok o /\ separate o d').
Proof.
  intros HR Hs w i j d s Hr Hij Hd Hj Ob. pose proof (reached_inv w HR Hs Hr) as I. apply object_nth in Hd. apply object_nth in Hj.
  set (d' := assign_obj R (w_next R w) (w_rng R w) d s).
  assert (Ew : wstep' w (AssignTo R i j) = Ok (mkW R (put R (w_objs R w) i (Some d')) (w_next R w + length (pop (o_core R s)))%nat (w_rng R w))).
  { cbn [wstep]. rewrite Hd, Hj. destruct (Nat.eqb_spec i j); [contradiction|]. reflexivity. }
  destruct (wstep_inv R std mode greater rec_on pw ex junk v0 vec_max sel_fuel _ _ _ HR Hs I Ew) as (I' & _ & _). set (w' := mkW R _ _ _) in *.
  assert (Ed : nth_error (w_objs R w') i = Some (Some d')) by (apply upd_nth; eapply lt_nth, Hd).
  assert (Ej : nth_error (w_objs R w') j = Some (Some s)) by (cbn [w' w_objs put]; unfold put; rewrite upd_nth_ne by exact Hij; exact Hj).
  apply own_iff in Ob. destruct Ob as (In1 & Ow).
  exists w', d'. split; [exact Ew|]. split; [apply object_nth, Ed|]. split; [|split].
  - repeat split. cbn. apply assign_content.
  - apply answers_of. rewrite (bestGene_all R w' i d' I' Ed). cbn [d' assign_obj o_inited o_core ext]. rewrite In1.
    rewrite <- (peek_all R w' j s (ext (o_core R s)) (proj1 I') Ej). unfold bestGene_of, object. rewrite Hj. cbn [bind]. rewrite In1. rewrite !peek_found by exact Ow. reflexivity.
  - intros k o Hk Ho. apply object_nth in Ho. assert (Ek : nth_error (w_objs R w') k = Some (Some o)) by (cbn [w' w_objs]; unfold put; rewrite upd_nth_ne by congruence; exact Ho).
    split; [apply object_nth, Ek|]. intros x y Hx Hy E. pose proof (Permutation_map gid (all_split R _ _ _ Ed)) as P. rewrite map_app in P.
    eapply Permutation_NoDup in P; [|exact (proj1 I')]. revert P. cbn [live_pop]. intros P.
    assert (Hx' : In (gid x) (map gid (others R (w_objs R w') i))).
    { apply in_map. unfold others. clear -Ek Hk Hx. apply nth_error_split in Ek. destruct Ek as (a & b & Eq & La). rewrite Eq.
      destruct (Nat.lt_ge_cases k i) as [L|L]; apply in_or_app; [left|right]; apply in_flat_map; exists (Some o); (split; [|exact Hx]).
      - rewrite firstn_app. apply in_or_app. right. destruct (i - length a) eqn:E; [lia|]. left. reflexivity.
      - rewrite skipn_app. apply in_or_app. right. destruct (S i - length a) eqn:E; [left; reflexivity|lia]. }
    apply (in_map gid) in Hy. clear -P Hx' Hy E. unfold get_population in Hy. rewrite <- E in Hy. induction (map gid (pop (o_core R d'))) as [|z l IH]; [destruct Hy|]. cbn in P. inversion P as [|? ? P1 P2]; subst.
    destruct Hy as [->|Hy]; [apply P1, in_or_app; right; exact Hx'|exact (IH Hy P2)].
Qed.

(** ** A solver whose best individual is its own is independent of the others *)
(** Whatever happens to other solvers -- calls, copies, assignments, destruction --
    its members and answers stay. *)
Theorem C105_own_best_is_independent : forall (w w' : world') i o h, object R w i = Ok o -> own_best o -> leaves i h -> wdrive' w h = Ok w' ->
  object R w' i = Ok o /\ same_answers w i w' i.
Proof.
  intros w w' i o h Ho Ob Hl H. apply object_nth in Ho. apply own_iff in Ob. destruct Ob as (In1 & Ow).
  assert (E : nth_error (w_objs R w') i = Some (Some o)) by (rewrite (wdrive_other R std mode greater rec_on pw ex junk v0 vec_max sel_fuel h i Hl w w' (lt_nth _ _ _ Ho) H); exact Ho).
  split; [apply object_nth, E|]. apply answers_of. unfold bestGene_of, object. rewrite Ho, E. cbn [bind]. rewrite In1, !peek_found by exact Ow. reflexivity.
Qed.
(** ... and every call on it does what it does in a program with no other solver. *)
Theorem C105_own_best_as_alone : rng_ok R -> std_ok std -> forall (w : world') i o c, reached w -> object R w i = Ok o -> (o_inited R o = true -> own_best o) ->
  let o1 := load R (w_next R w) (w_rng R w) o in
  match alone o1 c with
  | Ok o2 => exists w', wstep' w (Call R i c) = Ok w' /\ object R w' i = Ok o2
  | bad => wstep' w (Call R i c) = match bad with Ok _ => UB | UB => UB | Abort => Abort | Fuel => Fuel end
  end.
Proof.
  intros HR Hs w i o c Hr Ho Hob o1. pose proof (reached_inv w HR Hs Hr) as I. apply object_nth in Ho.
  destruct (own_wf R w i o (w_next R w) (proj1 I) (proj1 (proj2 I)) Ho) as (Nd & Ld).
  assert (E : step_w R std mode greater rec_on pw ex junk v0 vec_max sel_fuel (others R (w_objs R w) i) o1 c = alone o1 c).
  { destruct c; try reflexivity. cbn [step_w step]. unfold do_run_w, do_run. change (o_inited R o1) with (o_inited R o). destruct (o_inited R o) eqn:Ei; [|reflexivity]. cbn [negb].
    destruct (f_f R (o_slots R o1)) as [f|]; [|reflexivity]. destruct (f_c R (o_slots R o1)) as [cf|]; [|reflexivity]. destruct (f_m R (o_slots R o1)) as [mf|]; [|reflexivity].
    assert (Q : forall mt, run R (user_of R v0 o1 f cf mf) (s_opt (o_set R o1)) junk (hooks_w R std greater sel_fuel (others R (w_objs R w) i) (s_opt (o_set R o1)) (params_of pw ex junk (o_set R o1)) mt) rec_on vec_max (S (Z.to_nat (maxGenerations (s_opt (o_set R o1))))) (mkGA (o_core R o1) (o_gen R o1) (o_rec R o1)) =
                          run R (user_of R v0 o1 f cf mf) (s_opt (o_set R o1)) junk (soga_hooks R std greater (s_opt (o_set R o1)) (params_of pw ex junk (o_set R o1)) mt sel_fuel) rec_on vec_max (S (Z.to_nat (maxGenerations (s_opt (o_set R o1))))) (mkGA (o_core R o1) (o_gen R o1) (o_rec R o1))).
    { intros mt. unfold run. cbn [ga_core]. destruct (rec_on && _); [reflexivity|].
      assert (Ap : forall j, In j (map gid (others R (w_objs R w) i)) -> ~ In j (map gid (pop (o_core R o))) /\ j < w_next R w).
      { pose proof (Permutation_map gid (all_split R _ _ _ Ho)) as P. rewrite map_app in P. cbn [live_pop] in P. intros j Hj. split.
        - pose proof (Permutation_NoDup P (proj1 I)) as N. clear -N Hj. induction (map gid (pop (o_core R o))) as [|z l IH]; intros C; [destruct C|]. cbn in N. inversion N as [|? ? N1 N2]; subst.
          destruct C as [->|C]; [apply N1, in_or_app; right; exact Hj|exact (IH N2 C)].
        - apply (proj1 (proj2 I)). eapply Permutation_in; [apply Permutation_sym, P|]. apply in_or_app; right; exact Hj. }
      apply loop_alone; cbn [ga_core pop next ext]; [exact HR|exact Hs|split; [exact Nd|exact Ld]|exact Ap|].
      intros C. apply Ap in C. destruct C as (C & _). apply C. apply own_iff in Hob; [exact (proj2 Hob)|reflexivity]. }
    destruct (method_of mode (o_set R o1)), (s_strength (o_set R o1)); try reflexivity; rewrite Q; reflexivity. }
  cbn [wstep]. rewrite Ho. fold o1. rewrite E. destruct (alone o1 c) as [o2| | |]; cbn [bind]; try reflexivity.
  eexists. split; [reflexivity|]. apply object_nth. cbn [w_objs]. apply upd_nth. eapply lt_nth, Ho.
Qed.
(** initializePop() with a positive population size, and run(), make the best
    individual the solver's own -- also of a copy. *)
Theorem C105_init_and_run_own : rng_ok R -> std_ok std -> forall (w w' : world') i o c, reached w -> object R w i = Ok o ->
  (c = InitializePop R /\ (1 <= populationSize (s_opt (o_set R o)))%Z \/ c = Run R) -> wstep' w (Call R i c) = Ok w' ->
  exists o', object R w' i = Ok o' /\ own_best o'.
Proof.
  intros HR Hs w w' i o c Hr Ho Hc H. pose proof (reached_inv w HR Hs Hr) as I. apply object_nth in Ho. cbn [wstep] in H. rewrite Ho in H.
  apply bind_Ok in H. destruct H as (o' & H1 & H). inversion H; subst w'; clear H.
  assert (W : wf (o_core R (load R (w_next R w) (w_rng R w) o))) by (destruct (own_wf R w i o (w_next R w) (proj1 I) (proj1 (proj2 I)) Ho); split; assumption).
  exists o'. split; [apply object_nth; cbn [w_objs]; apply upd_nth; eapply lt_nth, Ho|]. apply own_iff. destruct Hc as [(-> & Hn)| ->].
  - cbn [step_w step] in H1. unfold do_init in H1. cbn [load fields with_core o_slots o_set] in H1. destruct (f_i R (o_slots R o)) as [fi|].
    + inversion H1; subst o'. split; [reflexivity|]. cbn [o_core]. apply (init_grows R junk v0 _ _ _ W). exact Hn.
    + destruct (Z.eqb_spec (populationSize (s_opt (o_set R o))) 0); [lia|discriminate H1].
  - apply run_w_owns in H1; [|exact HR|exact Hs|exact W]. split; apply H1.
Qed.

(** ** A copy of such a solver is not independent: refuted *)
(** The best individual of the copy is the original's node, not one of its own. *)
Theorem C105_copy_shares_best_refuted : rng_ok R -> std_ok std -> forall (w w' : world') i o, reached w -> object R w i = Ok o -> own_best o ->
  wstep' w (CopyOf R i) = Ok w' ->
  exists o', object R w' (length (w_objs R w)) = Ok o' /\ ~ own_best o' /\
    exists x, In x (get_population R o) /\ bestGene_of R w' (length (w_objs R w)) = Ok x.
Proof.
  intros HR Hs w w' i o Hr Ho Ob H. destruct (C105_copy HR Hs w i o Hr Ho) as (w1 & o' & E & Ho' & Sm & Sa & Oth). rewrite E in H. inversion H; subst w1; clear H.
  exists o'. split; [exact Ho'|]. destruct (Oth i o Ho) as (_ & _ & Sep). destruct Ob as (In1 & (x & Hx & Ex)).
  assert (Ee : ext (o_core R o') = ext (o_core R o)).
  { cbn [wstep] in E. apply object_nth in Ho. rewrite Ho in E. inversion E; subst w'. apply object_nth in Ho'. cbn [w_objs] in Ho'. rewrite nth_error_app2, Nat.sub_diag in Ho' by lia. inversion Ho'. reflexivity. }
  split. { intros (_ & (y & Hy & Ey)). apply (Sep x y Hx Hy). congruence. }
  exists x. split; [exact Hx|]. destruct Sa as (-> & _). pose proof (reached_inv w HR Hs Hr) as I. unfold bestGene_of, object. apply object_nth in Ho. rewrite Ho. cbn [bind]. rewrite In1, peek_found by (rewrite <- Ex; apply in_map, Hx).
  rewrite <- Ex. apply lookup_in; [|exact Hx]. destruct (own_wf R w i o (w_next R w) (proj1 I) (proj1 (proj2 I)) Ho) as (N & _). exact N.
Qed.
(** Once the original is destroyed (a temporary, an element of a std::vector that
    grew, a local returned by copy), bestGene(), result() and bestFitness() of the
    copy are undefined and run() on it completes in no case, until the copy is
    initialised or assigned to. *)
Theorem C105_copy_outlives_source_refuted : rng_ok R -> std_ok std -> forall (w w1 w2 w3 : world') i o h, reached w -> object R w i = Ok o -> own_best o ->
  let k := length (w_objs R w) in
  wstep' w (CopyOf R i) = Ok w1 -> wstep' w1 (Destroy R i) = Ok w2 -> leaves k h -> wdrive' w2 h = Ok w3 ->
  bestGene_of R w3 k = UB /\ result_of R w3 k = UB /\ bestFitness_of R w3 k = UB /\ forall w4, wstep' w3 (Call R k (Run R)) <> Ok w4.
Proof.
  intros HR Hs w w1 w2 w3 i o h Hr Ho Ob k H1 H2 Hl H3. pose proof (reached_inv w HR Hs Hr) as I.
  destruct (C105_copy HR Hs w i o Hr Ho) as (w1' & o' & E & Ho' & Sm & _). rewrite E in H1. inversion H1; subst w1'; clear H1. fold k in Ho'.
  assert (Ee : ext (o_core R o') = ext (o_core R o)).
  { cbn [wstep] in E. apply object_nth in Ho. rewrite Ho in E. inversion E; subst w1. apply object_nth in Ho'. cbn [w_objs] in Ho'. unfold k in Ho'. rewrite nth_error_app2, Nat.sub_diag in Ho' by lia. inversion Ho'. reflexivity. }
  destruct (wstep_inv R std mode greater rec_on pw ex junk v0 vec_max sel_fuel _ _ _ HR Hs I E) as (I1 & _ & _).
  destruct (wstep_inv R std mode greater rec_on pw ex junk v0 vec_max sel_fuel _ _ _ HR Hs I1 H2) as (I2 & N2 & _).
  destruct (wdrive_inv R std mode greater rec_on pw ex junk v0 vec_max sel_fuel h HR Hs _ _ I2 H3) as (I3 & _ & A3).
  apply own_iff in Ob. destruct Ob as (In1 & Ow). pose proof (proj1 (object_nth _ _ _) Ho) as Hn. pose proof (proj1 (object_nth _ _ _) Ho') as Hk.
  assert (Lk : i < k) by (eapply lt_nth, Hn).
  (* the original is still there in w1 *)
  assert (Hi1 : nth_error (w_objs R w1) i = Some (Some o)). { cbn [wstep] in E. rewrite Hn in E. inversion E. cbn [w_objs]. rewrite nth_error_app1 by exact Lk. exact Hn. }
  assert (Gone : ~ In (ext (o_core R o)) (all_ids R w2)).
  { cbn [wstep] in H2. rewrite Hi1 in H2. inversion H2; subst w2. unfold all_ids. cbn [w_objs]. intros C. eapply Permutation_in in C; [|apply Permutation_map, (all_put R _ _ _ None Hi1)].
    cbn [live_pop app] in C. pose proof (Permutation_map gid (all_split R _ _ _ Hi1)) as P. rewrite map_app in P. cbn [live_pop] in P. pose proof (Permutation_NoDup P (proj1 I1)) as N.
    unfold owns in Ow. clear -N Ow C. induction (map gid (pop (o_core R o))) as [|z l IH]; [destruct Ow|]. cbn in N. inversion N as [|? ? N1 N2']; subst.
    destruct Ow as [->|Ow]; [apply N1, in_or_app; right; exact C|exact (IH Ow N2')]. }
  assert (Hk2 : nth_error (w_objs R w2) k = Some (Some o')).
  { rewrite <- Hk. apply (wstep_other R std mode greater rec_on pw ex junk v0 vec_max sel_fuel w1 w2 (Destroy R i) k); [cbn; apply Nat.eqb_neq; lia|eapply lt_nth, Hk|exact H2]. }
  assert (Hk3 : nth_error (w_objs R w3) k = Some (Some o')). { rewrite (wdrive_other R std mode greater rec_on pw ex junk v0 vec_max sel_fuel h k Hl w2 w3 (lt_nth _ _ _ Hk2) H3). exact Hk2. }
  assert (In' : o_inited R o' = true) by (destruct Sm as (_ & _ & _ & _ & _ & _ & Q & _); congruence).
  assert (Lt : ext (o_core R o) < w_next R w2). { rewrite <- Ee. destruct I2 as (_ & _ & I2). exact (I2 k o' Hk2 In'). }
  assert (Gone3 : ~ In (ext (o_core R o')) (all_ids R w3)). { rewrite Ee. intros C. destruct (A3 _ C) as [C'|C']; [contradiction|lia]. }
  assert (B : bestGene_of R w3 k = UB). { rewrite (bestGene_all R w3 k o' I3 Hk3), In'. apply lookup_UB. exact Gone3. }
  split; [exact B|]. unfold result_of, bestFitness_of. rewrite B. split; [reflexivity|]. split; [reflexivity|].
  intros w4 C. cbn [wstep step_w] in C. rewrite Hk3 in C. apply bind_Ok in C. destruct C as (o4 & C & _). unfold do_run_w in C. destruct (negb _); [discriminate C|].
  pose proof (Permutation_map gid (all_split R _ _ _ Hk3)) as P. rewrite map_app in P. cbn [live_pop] in P.
  assert (G1 : ~ In (ext (o_core R o')) (map gid (pop (o_core R o')))) by (intros Q; apply Gone3; eapply Permutation_in; [apply Permutation_sym, P|]; apply in_or_app; left; exact Q).
  assert (G2 : ~ In (ext (o_core R o')) (map gid (others R (w_objs R w3) k))) by (intros Q; apply Gone3; eapply Permutation_in; [apply Permutation_sym, P|]; apply in_or_app; right; exact Q).
  destruct (f_f R _) as [f|]; [|discriminate C]. destruct (f_c R _) as [cf|]; [|discriminate C]. destruct (f_m R _) as [mf|]; [|discriminate C].
  assert (Q : exists fs mt s', ga_loop R fs (s_opt (o_set R o')) junk (hooks_w R std greater sel_fuel (others R (w_objs R w3) k) (s_opt (o_set R o')) (params_of pw ex junk (o_set R o')) mt) rec_on (S (Z.to_nat (maxGenerations (s_opt (o_set R o')))))
               (mkGA (mkCore (pop (o_core R o')) (w_next R w3) 0 (ext (o_core R o')) (w_rng R w3)) 0 (if rec_on then [] else o_rec R o')) = Ok s').
  { change (o_set R (load R (w_next R w3) (w_rng R w3) o')) with (o_set R o') in C. destruct (method_of mode (o_set R o')), (s_strength (o_set R o')); try discriminate C; apply bind_Ok in C; destruct C as (s & Q & _); unfold run in Q; cbn [ga_core] in Q; (destruct (rec_on && _); [discriminate Q|]); eexists _, _, s; exact Q. }
  destruct Q as (fs & mt & s' & Q). revert Q. apply loop_UB; cbn [ga_core ext pop]; assumption.
Qed.
(** While the original lives, its new values show through the copy: after the
    original's initializePop() (its best being its first individual), result() of the
    copy is the original's new first individual. *)
Theorem C105_copy_follows_source_refuted : rng_ok R -> std_ok std -> forall (w w1 w2 : world') i o x0 rest, reached w -> object R w i = Ok o ->
  o_inited R o = true -> get_population R o = x0 :: rest -> ext (o_core R o) = gid x0 -> (1 <= populationSize (s_opt (o_set R o)))%Z ->
  let k := length (w_objs R w) in
  wstep' w (CopyOf R i) = Ok w1 -> wstep' w1 (Call R i (InitializePop R)) = Ok w2 ->
  same_answers w2 i w2 k /\ exists o2 y t, object R w2 i = Ok o2 /\ get_population R o2 = y :: t /\ bestGene_of R w2 k = Ok y.
Proof.
  intros HR Hs w w1 w2 i o x0 rest Hr Ho In1 Ep Ee Hn k H1 H2. pose proof (reached_inv w HR Hs Hr) as I.
  destruct (wstep_inv R std mode greater rec_on pw ex junk v0 vec_max sel_fuel _ _ _ HR Hs I H1) as (I1 & _ & _).
  destruct (wstep_inv R std mode greater rec_on pw ex junk v0 vec_max sel_fuel _ _ _ HR Hs I1 H2) as (I2 & _ & _).
  apply object_nth in Ho. pose proof (lt_nth _ _ _ Ho) as Lk. cbn [wstep] in H1. rewrite Ho in H1. inversion H1; subst w1; clear H1.
  set (oc := copy_obj R (w_next R w) (w_rng R w) o) in *.
  assert (Ek : nth_error (w_objs R w ++ [Some oc]) k = Some (Some oc)) by (rewrite nth_error_app2 by (unfold k; lia); unfold k; rewrite Nat.sub_diag; reflexivity).
  assert (Ei : nth_error (w_objs R w ++ [Some oc]) i = Some (Some o)) by (rewrite nth_error_app1 by exact Lk; exact Ho).
  cbn [wstep w_objs w_next w_rng] in H2. rewrite Ei in H2. apply bind_Ok in H2. destruct H2 as (o2 & H2 & H3). inversion H3; subst w2; clear H3 I1. set (w2 := mkW R (put R _ _ _) _ _) in *.
  assert (Ei2 : nth_error (w_objs R w2) i = Some (Some o2)) by (apply upd_nth; eapply lt_nth, Ei).
  assert (Ek2 : nth_error (w_objs R w2) k = Some (Some oc)) by (cbn [w2 w_objs]; unfold put; rewrite upd_nth_ne by (unfold k; lia); exact Ek).
  assert (Q : exists y t, pop (o_core R o2) = y :: t /\ gid y = gid x0 /\ ext (o_core R o2) = gid y /\ o_inited R o2 = true).
  { cbn [step_w step] in H2. unfold do_init in H2. cbn [load fields with_core o_slots o_set] in H2. destruct (f_i R (o_slots R o)) as [fi|]; [|destruct (Z.eqb_spec (populationSize (s_opt (o_set R o))) 0); [lia|discriminate H2]].
    inversion H2; subst o2; clear H2. cbn [o_core o_inited]. unfold soga_initializePop, initializePop. cbn [load fields with_core o_core pop next gen_rng fails ext].
    unfold get_population in Ep. rewrite Ep. destruct (Z.to_nat (populationSize (s_opt (o_set R o)))) as [|m] eqn:Em; [lia|]. cbn [firstn app length].
    cbn [init_vars]. destruct (iFun _ (w_rng R w)) as [v g1]. match goal with |- context [init_vars ?a ?b ?c ?d] => destruct (init_vars a b c d) as [t' g2] end.
    cbn [pop ext]. eexists _, _. split; [reflexivity|]. cbn. auto. }
  destruct Q as (y & t & Q1 & Q2 & Q3 & Q4).
  assert (Bi : bestGene_of R w2 i = lookup (all R (w_objs R w2)) (gid x0)) by (rewrite (bestGene_all R w2 i o2 I2 Ei2), Q4, Q3, Q2; reflexivity).
  assert (Bk : bestGene_of R w2 k = lookup (all R (w_objs R w2)) (gid x0)). { rewrite (bestGene_all R w2 k oc I2 Ek2). cbn [oc copy_obj o_inited o_core ext]. rewrite In1, Ee. reflexivity. }
  split; [apply answers_of; congruence|]. exists o2, y, t. split; [apply object_nth, Ei2|]. split; [exact Q1|].
  rewrite Bk, <- Q2. apply lookup_in; [exact (proj1 I2)|]. eapply Permutation_in; [apply Permutation_sym, (all_split R _ _ _ Ei2)|]. apply in_or_app; left. cbn [live_pop]. rewrite Q1. left; reflexivity.
Qed.
End C105.
Print Assumptions C105_copy.
Print Assumptions C105_assign.
Print Assumptions C105_own_best_is_independent.
Print Assumptions C105_own_best_as_alone.
Print Assumptions C105_init_and_run_own.
Print Assumptions C105_copy_shares_best_refuted.
Print Assumptions C105_copy_outlives_source_refuted.
Print Assumptions C105_copy_follows_source_refuted.

(** ** The hypotheses are met *)
Notation drive_w w h := (@wdrive Z Z replay std_inst None true true (fun _ _ => d0) (fun _ => d1) d0 0%Z 1000%Z 100 w h).
Definition cfg : list (@call Z Z replay) :=
  [ SetIFun replay (Some draw_init); SetFFun replay (Some prod_fit); SetCFun replay (Some swap_cross); SetMFun replay (Some bump_mut);
    Setting replay (SetOption (mkOpt 4 3 4 (fofZ 1 (-1)) (fofZ 1 (-2)))); Setting replay (SetSelectMethod (Some MonteCarlo)) ].
(** A solver is configured, initialised, run and copied; the copy is asked, then the
    original initialised again. *)
Definition two_solvers : list (@event Z Z replay) :=
  Construct replay no_slots 1%Z :: map (Call replay 0) (cfg ++ [InitializePop replay; Run replay; InitializePop replay]).
Definition feed : G replay := map Z.of_nat (seq 3 60).
Definition ok_or {T} (r : res T) (f : T -> bool) : bool := match r with Ok x => f x | _ => false end.
Example ex_C105_reached : rng_ok replay /\ std_ok std_inst /\
  ok_or (drive_w (start replay feed) two_solvers) (fun w => ok_or (object replay w 0) (fun o =>
    o_inited replay o && (length (get_population replay o) =? 4)%nat && match get_population replay o with x :: _ => (ext (o_core replay o) =? gid x)%nat | [] => false end)) = true.
Proof. split; [apply replay_ok|]. split; [apply std_inst_ok|]. vm_compute. reflexivity. Qed.
(** Then: copy; the copy answers; initialise the original: the copy's result() has
    changed; destroy it: the copy's result() is undefined, run() is undefined;
    initialise the copy: it answers and runs. *)
Example ex_C105_story :
  ok_or (drive_w (start replay feed) two_solvers) (fun w => ok_or (result_of replay w 0) (fun r =>
    ok_or (drive_w w [CopyOf replay 0]) (fun w1 => ok_or (result_of replay w1 1) (fun r1 => (r =? r1)%Z &&
      ok_or (drive_w w1 [Call replay 0 (InitializePop replay)]) (fun w2 => ok_or (result_of replay w2 1) (fun r2 => negb (r2 =? r1)%Z)) &&
      ok_or (drive_w w1 [Call replay 1 (Run replay); Destroy replay 0]) (fun w2 => ok_or (result_of replay w2 1) (fun _ => true)) &&
      ok_or (drive_w w1 [Destroy replay 0]) (fun w2 =>
        match result_of replay w2 1 with UB => true | _ => false end &&
        match drive_w w2 [Call replay 1 (Run replay)] with UB => true | _ => false end &&
        ok_or (drive_w w2 [Call replay 1 (InitializePop replay); Call replay 1 (Run replay)]) (fun w3 => ok_or (result_of replay w3 1) (fun _ => true)))))) ) = true.
Proof. vm_compute. reflexivity. Qed.
