(** C106: copying, assigning and destroying NSGA2 and NSGA3 solvers.
    MOGACopy.v models a program that holds any number of solvers of one type. *)
From Coq Require Import List Arith ZArith Bool Lia Permutation.
From Flocq Require Import BinarySingleNaN.
From Verif Require Props_SOGA.
From Verif Require Import Props_Box Props_MOGA Props_NSGA3 Props_MOGAObj.
From Verif Require Import Base Fl Rng StdOps ListFacts GABase GAOpsProofs MOGA MOGASpec NSGA3 MOGAObj MOGAObjSpec MOGAObjProofs MOGACopy MOGACopyProofs.
Import ListNotations.
Open Scope nat_scope.

Section C106.
Context {V A : Type} (R : rng_ops) (std : std_ops) (lin : lin_ops) (M : nat) (k : kind) (rec_on : bool).
Context (junk : list double) (v0 : V) (vec_max : Z).
Notation gene' := (gene V (list double)).
Notation obj' := (mobj (V := V) (A := A) R).
Notation world' := (world (V := V) (A := A) R).
Notation alone := (step R std lin M k rec_on junk v0 vec_max).
Notation wstep' := (wstep R std lin M k rec_on junk v0 vec_max).
Notation wdrive' := (wdrive R std lin M k rec_on junk v0 vec_max).

(** ** Specification *)
(** A state some program reaches (population sizes are unsigned 32-bit numbers). *)
Definition reached (w : world') : Prop := exists g h, Forall (typed_event R) h /\ wdrive' (start R g) h = Ok w.
Definition same_members (o o' : obj') : Prop :=
  mo_opt R o' = mo_opt R o /\ mo_slots R o' = mo_slots R o /\ mo_args R o' = mo_args R o /\ mo_prec R o' = mo_prec R o /\ mo_prec2 R o' = mo_prec2 R o /\
  get_referencePoints R o' = get_referencePoints R o /\ mo_gen R o' = mo_gen R o /\ get_record R o' = get_record R o /\
  fails (mo_core R o') = fails (mo_core R o) /\ mo_ran R o' = mo_ran R o /\ get_pfGenes R o' = get_pfGenes R o /\
  map content (get_population R o') = map content (get_population R o).
(** The individuals pfGenes() points to are the solver's own. *)
Definition own_front (o : obj') : Prop := forall i, In i (get_pfGenes R o) -> exists x, In x (get_population R o) /\ gid x = i.
(** No node of one population is a node of the other. *)
Definition separate (o o' : obj') : Prop := forall x y, In x (get_population R o) -> In y (get_population R o') -> gid x <> gid y.
(** Events that are not about solver [i]. *)
Definition leaves (i : nat) (h : list (event (V := V) (A := A) R)) : Prop := Forall (typed_event R) h /\ forallb (fun e => negb (about R i e)) h = true.

Lemma reached_inv (w : world') : rng_ok R -> std_ok std -> reached w -> winv R w.
Proof. intros HR Hs (g & h & T & H). exact (proj1 (wdrive_inv R std lin M k rec_on junk v0 vec_max h HR Hs _ _ (start_inv R g) T H)). Qed.
Lemma object_nth (w : world') i o : object R w i = Ok o <-> nth_error (w_objs R w) i = Some (Some o).
Proof. unfold object. destruct (nth_error (w_objs R w) i) as [[x|]|]; split; congruence. Qed.
Lemma own_iff (o : obj') : own_front o <-> owns R (mo_core R o).
Proof.
  unfold own_front, owns, incl, get_population, get_pfGenes. split; intros H i Hi; specialize (H i Hi).
  - destruct H as (x & Hx & <-). apply in_map, Hx.
  - apply in_map_iff in H. destruct H as (x & E & Hx). exists x. auto.
Qed.
Lemma front_frame (w w' : world') i j o o' : nth_error (w_objs R w) i = Some (Some o) -> nth_error (w_objs R w') j = Some (Some o') -> ext (mo_core R o') = ext (mo_core R o) ->
  (forall e, In e (ext (mo_core R o)) -> find (fun x => Nat.eqb (gid x) e) (heap R w') = find (fun x => Nat.eqb (gid x) e) (heap R w)) ->
  paretoFront_of R w' j = paretoFront_of R w i.
Proof. intros Hi Hj E H. unfold paretoFront_of, object. rewrite Hi, Hj. cbn [bind]. rewrite E. apply derefs_ext. exact H. Qed.
Lemma find_app_none (l l' : list gene') e : ~ In e (map gid l') -> find (fun x => Nat.eqb (gid x) e) (l ++ l') = find (fun x => Nat.eqb (gid x) e) l.
Proof. intros H. induction l as [|x l IH]; cbn; [apply find_none_ids, H|]. destruct (gid x =? e)%nat; [reflexivity|exact IH]. Qed.

(** ** The copy *)
(** A copy has the same settings, functions, arguments, reference points, counters
    and record, a population of equal individuals in nodes of its own, and reports the
    same front.  No other solver notices. *)
Theorem C106_copy : rng_ok R -> std_ok std -> forall (w : world') i o, reached w -> object R w i = Ok o ->
  let n := length (w_objs R w) in
  exists w' o', wstep' w (CopyOf R i) = Ok w' /\ object R w' n = Ok o' /\ same_members o o' /\ paretoFront_of R w' n = paretoFront_of R w i /\
    (forall j oj, object R w j = Ok oj -> object R w' j = Ok oj /\ paretoFront_of R w' j = paretoFront_of R w j /\ separate oj o').
Proof.
  intros HR Hs w i o Hr Ho n. pose proof (reached_inv w HR Hs Hr) as I. apply object_nth in Ho.
  set (o' := assign_obj R (w_next R w) (w_rng R w) [] o). set (w' := mkW R (w_objs R w ++ [Some o']) (w_next R w + length (pop (mo_core R o))) (w_rng R w)).
  assert (Ew : wstep' w (CopyOf R i) = Ok w') by (cbn [wstep]; rewrite Ho; reflexivity).
  assert (En : nth_error (w_objs R w') n = Some (Some o')). { cbn [w' w_objs]. rewrite nth_error_app2 by lia. unfold n. rewrite Nat.sub_diag. reflexivity. }
  assert (Fr : forall e, e < w_next R w -> find (fun x => Nat.eqb (gid x) e) (heap R w') = find (fun x => Nat.eqb (gid x) e) (heap R w)).
  { intros e He. unfold heap. cbn [w' w_objs]. rewrite flat_map_app. cbn [flat_map live_pop o' assign_obj with_core mo_core pop]. rewrite app_nil_r. apply find_app_none. rewrite copy_ids. intros C. apply in_seq in C. lia. }
  pose proof I as (_ & _ & I3).
  exists w', o'. split; [exact Ew|]. split; [apply object_nth, En|]. split; [|split].
  - repeat split. cbn. apply assign_content.
  - apply (front_frame w w' i n o o' Ho En eq_refl). intros e He. apply Fr. exact (proj2 (proj2 (I3 i o Ho)) e He).
  - intros j oj Hj. apply object_nth in Hj. pose proof (lt_nth _ _ _ Hj) as Lj.
    assert (Ej : nth_error (w_objs R w') j = Some (Some oj)) by (cbn [w' w_objs]; rewrite nth_error_app1 by exact Lj; exact Hj).
    split; [apply object_nth, Ej|]. split.
    + apply (front_frame w w' j j oj oj Hj Ej eq_refl). intros e He. apply Fr. exact (proj2 (proj2 (I3 j oj Hj)) e He).
    + intros x y Hx Hy E. destruct (own_wf R w j oj I Hj) as (_ & L & _). specialize (L x Hx).
      apply (in_map gid) in Hy. cbn [get_population o' assign_obj with_core mo_core pop] in Hy. rewrite copy_ids in Hy. apply in_seq in Hy. lia.
Qed.

(** Assignment replaces every member as well; the assigned solver keeps its own nodes
    and reports the source's front.  The members of the others are left alone. *)
Theorem C106_assign : rng_ok R -> std_ok std -> forall (w : world') i j d s, reached w -> i <> j -> object R w i = Ok d -> object R w j = Ok s -> own_front s ->
  exists w' d', wstep' w (AssignTo R i j) = Ok w' /\ object R w' i = Ok d' /\ same_members s d' /\ paretoFront_of R w' i = paretoFront_of R w j /\
    (forall l o, l <> i -> object R w l = Ok o -> object R w' l = Ok o /\ separate o d').
Proof.
  intros HR Hs w i j d s Hr Hij Hd Hj Ob. pose proof (reached_inv w HR Hs Hr) as I. apply object_nth in Hd. apply object_nth in Hj.
  set (d' := assign_obj R (w_next R w) (w_rng R w) (map gid (pop (mo_core R d))) s).
  assert (Ew : wstep' w (AssignTo R i j) = Ok (mkW R (upd (w_objs R w) i (Some d')) (w_next R w + length (pop (mo_core R s))) (w_rng R w))).
  { cbn [wstep]. rewrite Hd, Hj. destruct (Nat.eqb_spec i j); [contradiction|]. reflexivity. }
  destruct (wstep_inv R std lin M k rec_on junk v0 vec_max _ _ (AssignTo R i j) HR Hs I Logic.I Ew) as (I' & _ & _). set (w' := mkW R _ _ _) in *.
  assert (Ed : nth_error (w_objs R w') i = Some (Some d')) by (apply upd_nth; eapply lt_nth, Hd).
  assert (Ej : nth_error (w_objs R w') j = Some (Some s)) by (cbn [w' w_objs]; rewrite upd_nth_ne by exact Hij; exact Hj).
  apply own_iff in Ob.
  exists w', d'. split; [exact Ew|]. split; [apply object_nth, Ed|]. split; [|split].
  - repeat split. cbn. apply assign_content.
  - transitivity (paretoFront_of R w' j); [apply (front_frame w' w' j i s d' Ej Ed eq_refl); reflexivity|].
    rewrite (front_own R w' j s I' Ej Ob), (front_own R w j s I Hj Ob). reflexivity.
  - intros l o Hl Ho. apply object_nth in Ho. assert (El : nth_error (w_objs R w') l = Some (Some o)) by (cbn [w' w_objs]; rewrite upd_nth_ne by congruence; exact Ho).
    split; [apply object_nth, El|]. intros x y Hx Hy. exact (objs_apart R w' l i o d' x y I' Hl El Ed Hx Hy).
Qed.

(** ** A solver whose front is its own is independent of the others *)
(** Whatever happens to other solvers -- calls, copies, assignments, destruction --
    its members and its front stay. *)
Theorem C106_own_front_is_independent : rng_ok R -> std_ok std -> forall (w w' : world') i o h, reached w -> object R w i = Ok o -> own_front o -> leaves i h -> wdrive' w h = Ok w' ->
  object R w' i = Ok o /\ paretoFront_of R w' i = paretoFront_of R w i /\ paretoFront_of R w i = get_paretoFront R o.
Proof.
  intros HR Hs w w' i o h Hr Ho Ob (T & Hl) H. pose proof (reached_inv w HR Hs Hr) as I. apply object_nth in Ho. apply own_iff in Ob.
  assert (E : nth_error (w_objs R w') i = Some (Some o)) by (rewrite (wdrive_other R std lin M k rec_on junk v0 vec_max h i Hl w w' (lt_nth _ _ _ Ho) H); exact Ho).
  destruct (wdrive_inv R std lin M k rec_on junk v0 vec_max h HR Hs _ _ I T H) as (I' & _ & _).
  split; [apply object_nth, E|]. rewrite (front_own R w' i o I' E Ob), (front_own R w i o I Ho Ob). auto.
Qed.
(** run() and initializePop() give every solver -- also a copy whose original is gone --
    a front of its own; after run() it is exactly the nondominated part of its own
    population, after initializePop() it is empty. *)
Theorem C106_init_and_run_own : rng_ok R -> std_ok std -> forall (w w' : world') i o c, reached w -> object R w i = Ok o ->
  (c = InitializePop R \/ c = Run R) -> wstep' w (Call R i c) = Ok w' ->
  exists o' front, object R w' i = Ok o' /\ own_front o' /\ paretoFront_of R w' i = Ok (map gfit front) /\ NoDup front /\
    (c = InitializePop R -> front = []) /\
    (c = Run R -> forall x, In x front <-> nondominated_in M (greater_of k) (get_population R o') x).
Proof.
  intros HR Hs w w' i o c Hr Ho Hc H. pose proof (reached_inv w HR Hs Hr) as I. apply object_nth in Ho.
  assert (T : typed R c) by (destruct Hc as [-> | ->]; exact Logic.I).
  destruct (wstep_inv R std lin M k rec_on junk v0 vec_max _ _ (Call R i c) HR Hs I T H) as (I' & _ & _).
  cbn [wstep] in H. rewrite Ho in H. apply bind_Ok in H. destruct H as (o' & H1 & H). apply Ok_inj in H. subst w'.
  destruct (load_wf R w i o I Ho) as (W1 & O1).
  destruct (step_grows R std lin M k rec_on junk v0 vec_max _ _ c HR Hs T W1 O1 H1) as (Gr & _ & Ow & Ex). set (w' := mkW R _ _ _) in *.
  assert (E : nth_error (w_objs R w') i = Some (Some o')) by (apply upd_nth; eapply lt_nth, Ho).
  assert (Ob : owns R (mo_core R o')) by (apply Ow; tauto). rewrite (front_own R w' i o' I' E Ob). destruct Hc as [-> | ->].
  - exists o', []. split; [apply object_nth, E|]. split; [apply own_iff, Ob|].
    pose proof (init_eq R std lin M k rec_on junk v0 vec_max _ o' H1) as (ws & g & fi & _ & _ & Eo).
    assert (Ee : ext (mo_core R o') = []) by (rewrite Eo; unfold initializePop; cbn [mo_core]; destruct (init_vars _ _ _ _); reflexivity).
    unfold get_paretoFront, paretoFront. rewrite Ee. split; [reflexivity|]. split; [constructor|]. split; [reflexivity|]. intros D; discriminate D.
  - destruct (exact_report R M k (mo_core R o') (proj1 Gr) (Ex eq_refl)) as (front & E1 & E2 & _ & E4).
    exists o', front. split; [apply object_nth, E|]. split; [apply own_iff, Ob|]. split; [exact E1|]. split; [exact E2|]. split; [intros D; discriminate D|intros _; exact E4].
Qed.
(** run() does not look at the old front: on a copy with pointers into a destroyed
    solver it does what it does on a solver on its own with the same members and an
    empty front. *)
Definition without_front (o : obj') : obj' := with_core R o (mkCore (pop (mo_core R o)) (next (mo_core R o)) (fails (mo_core R o)) [] (gen_rng (mo_core R o))).
Theorem C106_run_ignores_old_front : forall (w : world') i o, object R w i = Ok o ->
  match alone (load R (w_next R w) (w_rng R w) (without_front o)) (Run R) with
  | Ok o2 => exists w', wstep' w (Call R i (Run R)) = Ok w' /\ object R w' i = Ok o2
  | UB => wstep' w (Call R i (Run R)) = UB
  | Abort => wstep' w (Call R i (Run R)) = Abort
  | Fuel => wstep' w (Call R i (Run R)) = Fuel
  end.
Proof.
  intros w i o Ho. apply object_nth in Ho.
  assert (E : alone (load R (w_next R w) (w_rng R w) (without_front o)) (Run R) = alone (load R (w_next R w) (w_rng R w) o) (Run R)).
  { cbn [step]. unfold do_run. cbn [load with_core without_front mo_slots mo_opt mo_args mo_refs mo_gen mo_rec mo_prec mo_prec2 mo_core].
    destruct (f_f R (mo_slots R o)) as [f|]; [|reflexivity]. destruct (f_c R (mo_slots R o)) as [cf|]; [|reflexivity]. destruct (f_m R (mo_slots R o)) as [mf|]; [|reflexivity].
    f_equal. unfold run. cbn [ga_core generation record pop next fails ext gen_rng]. destruct (rec_on && _); [reflexivity|].
    pose proof (loop_blind R (user_of R v0 (load R (w_next R w) (w_rng R w) o) f cf mf) (mo_opt R o) junk std lin M k (mo_refs R o) rec_on (S (Z.to_nat (maxGenerations (mo_opt R o))))
      (mkCore (pop (mo_core R o)) (w_next R w) 0%Z (ext (mo_core R o)) (w_rng R w)) []) as Q. apply Q. }
  rewrite E. cbn [wstep]. rewrite Ho. clear E. match goal with |- context [bind ?r _] => destruct r as [o2| | |] end; cbn [bind]; try reflexivity.
  eexists. split; [reflexivity|]. apply object_nth. cbn [w_objs]. apply upd_nth. eapply lt_nth, Ho.
Qed.

(** ** A copy with a front is not independent: refuted *)
(** Every individual in the copy's front is a node of the original, none its own. *)
Theorem C106_copy_shares_front_refuted : rng_ok R -> std_ok std -> forall (w w' : world') i o e, reached w -> object R w i = Ok o -> own_front o -> In e (get_pfGenes R o) ->
  wstep' w (CopyOf R i) = Ok w' ->
  exists o', object R w' (length (w_objs R w)) = Ok o' /\ In e (get_pfGenes R o') /\ ~ own_front o' /\
    (exists x, In x (get_population R o) /\ gid x = e) /\ forall y, In y (get_population R o') -> gid y <> e.
Proof.
  intros HR Hs w w' i o e Hr Ho Ob He H. destruct (C106_copy HR Hs w i o Hr Ho) as (w1 & o' & E & Ho' & Sm & _ & Oth). rewrite E in H. inversion H; subst w1; clear H.
  destruct Sm as (_ & _ & _ & _ & _ & _ & _ & _ & _ & _ & Ee & _). destruct (Oth i o Ho) as (_ & _ & Sep). destruct (Ob e He) as (x & Hx & Ex).
  exists o'. split; [exact Ho'|]. split; [rewrite Ee; exact He|].
  assert (No : forall y, In y (get_population R o') -> gid y <> e) by (intros y Hy C; apply (Sep x y Hx Hy); congruence).
  split; [|split; [exists x; auto|exact No]]. intros C. destruct (C e ltac:(rewrite Ee; exact He)) as (y & Hy & Ey). exact (No y Hy Ey).
Qed.
(** Once the original is destroyed (a temporary, an element of a std::vector that grew,
    a local returned by copy), paretoFront() of the copy is undefined until the copy is
    initialised, run or assigned to. *)
Theorem C106_copy_outlives_source_refuted : rng_ok R -> std_ok std -> forall (w w1 w2 w3 : world') i o h, reached w -> object R w i = Ok o -> own_front o -> get_pfGenes R o <> [] ->
  let n := length (w_objs R w) in
  wstep' w (CopyOf R i) = Ok w1 -> wstep' w1 (Destroy R i) = Ok w2 -> leaves n h -> wdrive' w2 h = Ok w3 ->
  paretoFront_of R w3 n = UB.
Proof.
  intros HR Hs w w1 w2 w3 i o h Hr Ho Ob Ne n H1 H2 (T & Hl) H3. pose proof (reached_inv w HR Hs Hr) as I.
  destruct (get_pfGenes R o) as [|e es] eqn:Ep; [contradiction|]. clear Ne.
  destruct (C106_copy HR Hs w i o Hr Ho) as (w1' & o' & E & Ho' & Sm & _ & Oth). rewrite E in H1. inversion H1; subst w1'; clear H1. fold n in Ho'.
  destruct Sm as (_ & _ & _ & _ & _ & _ & _ & _ & _ & _ & Ee & _). destruct (Oth i o Ho) as (Hi1 & _). apply object_nth in Hi1. apply object_nth in Ho'. apply object_nth in Ho.
  destruct (wstep_inv R std lin M k rec_on junk v0 vec_max _ _ (CopyOf R i) HR Hs I Logic.I E) as (I1 & _ & _).
  destruct (wstep_inv R std lin M k rec_on junk v0 vec_max _ _ (Destroy R i) HR Hs I1 Logic.I H2) as (I2 & _ & _).
  destruct (wdrive_inv R std lin M k rec_on junk v0 vec_max h HR Hs _ _ I2 T H3) as (_ & _ & A3).
  assert (Ln : i < n) by (eapply lt_nth, Ho).
  assert (Hn2 : nth_error (w_objs R w2) n = Some (Some o')).
  { rewrite <- Ho'. apply (wstep_other R std lin M k rec_on junk v0 vec_max w1 w2 (Destroy R i) n); [cbn; apply Nat.eqb_neq; lia|eapply lt_nth, Ho'|exact H2]. }
  assert (Hn3 : nth_error (w_objs R w3) n = Some (Some o')) by (rewrite (wdrive_other R std lin M k rec_on junk v0 vec_max h n Hl w2 w3 (lt_nth _ _ _ Hn2) H3); exact Hn2).
  assert (Gone : ~ In e (map gid (heap R w2))).
  { cbn [wstep] in H2. rewrite Hi1 in H2. apply Ok_inj in H2. subst w2. unfold heap. cbn [w_objs]. destruct (flat_split (live_pop R) _ _ _ Hi1) as (r & P1 & P2). specialize (P2 None). cbn [live_pop app] in P1, P2.
    intros C. apply (Permutation_map gid) in P2. eapply Permutation_in in C; [|exact P2]. apply (Permutation_map gid) in P1. rewrite map_app in P1. pose proof (Permutation_NoDup P1 (proj1 I1)) as N.
    apply (NoDup_apart _ _ e N); [|exact C]. destruct (Ob e) as (x & Hx & <-); [rewrite Ep; left; reflexivity|apply in_map, Hx]. }
  assert (Lt : e < w_next R w2). { destruct I2 as (_ & _ & I2). apply (proj2 (proj2 (I2 n o' Hn2))). change (In e (get_pfGenes R o')). rewrite Ee, Ep. left; reflexivity. }
  unfold paretoFront_of, object. rewrite Hn3. cbn [bind]. apply derefs_gone with e; [change (In e (get_pfGenes R o')); rewrite Ee, Ep; left; reflexivity|].
  intros C. destruct (A3 e C) as [C'|C']; [contradiction|lia].
Qed.
End C106.
Print Assumptions C106_copy.
Print Assumptions C106_assign.
Print Assumptions C106_own_front_is_independent.
Print Assumptions C106_init_and_run_own.
Print Assumptions C106_run_ignores_old_front.
Print Assumptions C106_copy_shares_front_refuted.
Print Assumptions C106_copy_outlives_source_refuted.

(** ** The hypotheses are met *)
Notation drive_w k w h := (@wdrive Z Z replay std_inst lin_inst 2 k true [] 0%Z 1000%Z w h).
(** A solver is configured, initialised and run. *)
Definition one_solver : list (@event Z Z replay) :=
  Construct replay mo_slots4 2%Z ::
  map (Call replay 0) [ SetOption replay mo_opt6; SetPrecision replay 4; SetArgs replay 3%Z; InitializePop replay; Run replay ].
Definition ok_or {T} (r : res T) (f : T -> bool) : bool := match r with Ok x => f x | _ => false end.
Definition is_ub {T} (r : res T) : bool := match r with UB => true | _ => false end.
Lemma one_typed : Forall (typed_event replay) one_solver.
Proof. repeat constructor; discriminate. Qed.
Definition kinds : list kind := [NSGA2 false; NSGA2 true; NSGA3_single; NSGA3_double].
Example ex_C106_reached : rng_ok replay /\ std_ok std_inst /\ Forall (typed_event replay) one_solver /\
  forallb (fun k => ok_or (drive_w k (start replay mo_draws) one_solver) (fun w => ok_or (object replay w 0) (fun o =>
    negb (length (get_pfGenes replay o) =? 0) && forallb (fun e => existsb (fun x => gid x =? e) (get_population replay o)) (get_pfGenes replay o)))) kinds = true.
Proof. split; [apply replay_ok|]. split; [apply std_inst_ok|]. split; [apply one_typed|]. vm_compute. reflexivity. Qed.
(** Then: copy; the copy reports the same front; destroy the original: the copy's front
    is undefined, but run() on the copy works and gives it a front; so does
    initializePop() (an empty one). *)
Example ex_C106_story :
  forallb (fun k => ok_or (drive_w k (start replay mo_draws) one_solver) (fun w => ok_or (paretoFront_of replay w 0) (fun f =>
    ok_or (drive_w k w [CopyOf replay 0]) (fun w1 => ok_or (paretoFront_of replay w1 1) (fun f1 => (length f =? length f1) &&
      ok_or (drive_w k w1 [Destroy replay 0]) (fun w2 => is_ub (paretoFront_of replay w2 1) &&
        ok_or (drive_w k w2 [Call replay 1 (Run replay)]) (fun w3 => ok_or (paretoFront_of replay w3 1) (fun f3 => negb (length f3 =? 0))) &&
        ok_or (drive_w k w2 [Call replay 1 (InitializePop replay)]) (fun w3 => ok_or (paretoFront_of replay w3 1) (fun f3 => length f3 =? 0)))))))) kinds = true.
Proof. vm_compute. reflexivity. Qed.
(** While the original lives, what is done to it shows through the copy: a second run()
    of the original erases nodes the copy's front points to, so that paretoFront() of
    the copy, which nobody touched, becomes undefined. *)
Theorem C106_copy_follows_source_refuted : forall k, In k kinds -> exists w1 w2 f o,
  (exists g h, Forall (typed_event replay) h /\ drive_w k (start replay g) h = Ok w1) /\ object replay w1 1 = Ok o /\ paretoFront_of replay w1 1 = Ok f /\
  drive_w k w1 [Call replay 0 (Run replay)] = Ok w2 /\
  object replay w2 1 = Ok o /\ paretoFront_of replay w2 1 = UB.
Proof.
  assert (T : forall k, In k kinds -> ok_or (drive_w k (start replay mo_draws) (one_solver ++ [CopyOf replay 0])) (fun w1 => ok_or (object replay w1 1) (fun _ => ok_or (paretoFront_of replay w1 1) (fun _ =>
    ok_or (drive_w k w1 [Call replay 0 (Run replay)]) (fun w2 => is_ub (paretoFront_of replay w2 1))))) = true).
  { intros k H. repeat (destruct H as [<-|H]; [vm_compute; reflexivity|]). destruct H. }
  intros k Hk. specialize (T k Hk). destruct (drive_w k (start replay mo_draws) (one_solver ++ [CopyOf replay 0])) as [w1| | |] eqn:E1; try discriminate T. cbn [ok_or] in T.
  destruct (object replay w1 1) as [o| | |] eqn:Eo; try discriminate T. cbn [ok_or] in T. destruct (paretoFront_of replay w1 1) as [f| | |] eqn:Ef; try discriminate T. cbn [ok_or] in T.
  destruct (drive_w k w1 _) as [w2| | |] eqn:E2; try discriminate T. cbn [ok_or] in T. exists w1, w2, f, o.
  split; [exists mo_draws, (one_solver ++ [CopyOf replay 0]); split; [apply Forall_app; split; [apply one_typed|repeat constructor]|exact E1]|].
  split; [exact Eo|]. split; [exact Ef|]. split; [exact E2|]. split.
  - apply object_nth. apply object_nth in Eo. rewrite <- Eo. eapply wdrive_other; [|eapply lt_nth, Eo|exact E2]. reflexivity.
  - destruct (paretoFront_of replay w2 1); try discriminate T. reflexivity.
Qed.
Print Assumptions C106_copy_follows_source_refuted.
