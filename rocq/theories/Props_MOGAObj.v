(** C88-C89: an NSGA2 or NSGA3 object under every history of calls.
    MOGAObj.v models the object and the calls; MOGAObjSpec.v says which calls a
    user may make; [nondominated_in], [objective], [NotWorse] are in MOGASpec.v,
    [splits], [lattice_point], [inner_point] in NSGA3Spec.v. *)
From Coq Require Import List Arith ZArith Reals Bool Lia Lra.
From Flocq Require Import Core BinarySingleNaN.
From Verif Require Props_SOGA.
From Verif Require Import VarInv Props_Box Props_MOGA Props_NSGA3.
From Verif Require Import Base Fl FlFacts Rng StdOps ListFacts GABase GABaseProofs GAOpsProofs MOGA MOGASpec NSGA3 NSGA3Spec MOGAObj MOGAObjSpec MOGAObjProofs.
Import ListNotations.
Open Scope Z_scope.

Lemma last_cons {X} (l : list X) x d : last (x :: l) d = last l x.
Proof. revert x d. induction l as [|y l IH]; intros x d; [reflexivity|]. cbn [last]. destruct l; [reflexivity|]. apply IH. Qed.

(** * C88: settings, functions, reference points *)
Section C88.
Context (V A : Type) (R : rng_ops) (std : std_ops) (lin : lin_ops) (M : nat) (k : kind) (rec_on : bool)
  (junk : list double) (v0 : V) (vec_max : Z).
Notation step' := (@step V A R std lin M k rec_on junk v0 vec_max).
Notation drive' := (@drive V A R std lin M k rec_on junk v0 vec_max).
Notation lawful_history' := (@lawful_history V A R std lin M k rec_on junk v0 vec_max).
Definition chosen {X} (f : @call V A R -> option X) (h : list (@call V A R)) : list X :=
  flat_map (fun c => match f c with Some x => [x] | None => [] end) h.
Definition c_opt (c : @call V A R) := match c with SetOption _ o => Some o | _ => None end.
Definition c_i (c : @call V A R) := match c with SetIFun _ f => Some f | _ => None end.
Definition c_f (c : @call V A R) := match c with SetFFun _ f => Some f | _ => None end.
Definition c_c (c : @call V A R) := match c with SetCFun _ f => Some f | _ => None end.
Definition c_m (c : @call V A R) := match c with SetMFun _ f => Some f | _ => None end.
Definition c_args (c : @call V A R) := match c with SetArgs _ a => Some a | _ => None end.
Definition c_prec (c : @call V A R) := match c with SetPrecision _ p => Some (Some p) | _ => None end.
Definition c_prec2 (c : @call V A R) := match c with SetPrecisions _ i e => Some (i, e) | _ => None end.

(** The option, every function, the arguments and the precisions are the last
    ones given, whatever else was called in between, runs included. *)
Theorem C88_last_value_wins : forall h (o o' : @mobj V A R), drive' o h = Ok o' ->
  mo_opt R o' = last (chosen c_opt h) (mo_opt R o) /\
  f_i R (mo_slots R o') = last (chosen c_i h) (f_i R (mo_slots R o)) /\
  f_f R (mo_slots R o') = last (chosen c_f h) (f_f R (mo_slots R o)) /\
  f_c R (mo_slots R o') = last (chosen c_c h) (f_c R (mo_slots R o)) /\
  f_m R (mo_slots R o') = last (chosen c_m h) (f_m R (mo_slots R o)) /\
  mo_args R o' = last (chosen c_args h) (mo_args R o) /\
  mo_prec R o' = last (chosen c_prec h) (mo_prec R o) /\
  get_precisions R o' = last (chosen c_prec2 h) (get_precisions R o).
Proof.
  induction h as [|c h IH]; intros o o' H; cbn [drive] in H; [inversion H; subst; repeat split|].
  apply bind_Ok in H. destruct H as (o1 & H1 & H). specialize (IH _ _ H). clear H.
  destruct c as [op|fi|ff|fc|fm|a|p|i e|g| |];
    cbn [chosen flat_map c_opt c_i c_f c_c c_m c_args c_prec c_prec2 app]; rewrite ?last_cons;
    [injection H1 as H1; subst o1; exact IH..| |injection H1 as H1; subst o1; exact IH| |].
  - cbn [step] in H1. apply bind_Ok in H1. destruct H1 as (q & Hq & H1). injection H1 as H1. subst o1. unfold setPrecisions in Hq.
    destruct (_ && _); [|discriminate Hq]. injection Hq as Hq. subst q. exact IH.
  - apply init_eq in H1; destruct H1 as (ws & g & i & _ & _ & ->). exact IH.
  - apply run_eq in H1; destruct H1 as (f & c & m & s & _ & _ & _ & _ & ->). exact IH.
Qed.

(** A solver whose functions are template arguments behaves exactly like one
    that is given the same functions before anything else. *)
Theorem C88_compile_time_equals_run_time : forall i f c m (a : A) (g : G R) h,
  drive' (fresh R (mkSlots R None None None None) a g)
         (SetIFun R (Some i) :: SetFFun R (Some f) :: SetCFun R (Some c) :: SetMFun R (Some m) :: h) =
  drive' (fresh R (mkSlots R (Some i) (Some f) (Some c) (Some m)) a g) h.
Proof. reflexivity. Qed.

(** What a new solver reports. *)
Theorem C88_new_solver : forall (ct : @slots V A R) (a : A) (g : G R), let o := fresh R ct a g in
  populationSize (mo_opt R o) = 100 /\ maxFailTimes (mo_opt R o) = 50 /\ maxGenerations (mo_opt R o) = 300 /\
  get_population R o = [] /\ get_paretoFront R o = Ok [] /\ get_pfGenes R o = [] /\ get_referencePoints R o = [] /\
  get_precisions R o = (3, 4)%nat /\ get_precision R o = UB.
Proof. intros. repeat split. Qed.

(** Queries and calls that come too early are undefined: the counters before
    run(), bestFitness() before the population is evaluated, run() before
    initializePop(), and initializePop() of a single-layer NSGA3 whose precision
    was never set (the member is uninitialised). *)
Theorem C88_too_early_is_undefined : forall (ct : @slots V A R) (a : A) (g : G R) h o,
  rng_ok R -> std_ok std -> Forall (typed R) h -> drive' (fresh R ct a g) h = Ok o ->
  (~ In (Run R) h -> get_generation R o = UB /\ get_failTimes R o = UB /\ get_bestFitness R M k o = UB) /\
  (~ In (InitializePop R) h -> 1 <= populationSize (mo_opt R o) -> step' o (Run R) = UB \/ step' o (Run R) = Abort) /\
  (k = NSGA3_single -> chosen c_prec h = [] -> step' o (InitializePop R) = UB).
Proof.
  intros ct a g h o HR Hstd Ht H. split; [|split].
  - intros N.
    assert (Q : forall h (o0 : @mobj V A R), drive' o0 h = Ok o -> ~ In (Run R) h ->
      mo_ran R o0 = false -> (forall x, In x (pop (mo_core R o0)) -> gcomp x = false) ->
      mo_ran R o = false /\ (forall x, In x (pop (mo_core R o)) -> gcomp x = false)).
    { clear -R. induction h as [|c h IH]; intros o0 H N E F; cbn [drive] in H; [inversion H; subst; split; assumption|].
      apply bind_Ok in H. destruct H as (o1 & H1 & H).
      assert (X : mo_ran R o1 = false /\ (forall x, In x (pop (mo_core R o1)) -> gcomp x = false)).
      { destruct c as [op|fi|ff|fc|fm|a|p|i e|g| |]; try (cbn [step] in H1; inversion H1; subst; split; assumption).
        - cbn [step] in H1. apply bind_Ok in H1. destruct H1 as (q & _ & H1). inversion H1; subst; split; assumption.
        - apply init_eq in H1. destruct H1 as (ws & g & i & _ & _ & ->). cbn [mo_ran mo_core]. split; [exact E|].
          intros x Hx. unfold initializePop in Hx. cbn [pop gen_rng next] in Hx.
          match type of Hx with context [init_vars ?R' ?fs ?l ?gg] => pose proof (init_vars_ids R' fs l gg) as (_ & _ & U); destruct (init_vars R' fs l gg) as (p', g') end.
          cbn [pop] in Hx. cbn [fst] in U. apply (U x Hx).
        - exfalso. apply N. left. reflexivity. }
      destruct X as (X1 & X2). apply (IH o1 H); [|exact X1|exact X2]. intros C. apply N. right. exact C. }
    destruct (Q h _ H N eq_refl ltac:(intros x [])) as (Q1 & Q2).
    unfold get_generation, get_failTimes, get_bestFitness. rewrite Q1. split; [reflexivity|]. split; [reflexivity|].
    destruct (pop (mo_core R o)) as [|x p] eqn:Ep.
    + cbn [forallb]. unfold mo_bestFitness. rewrite Ep. reflexivity.
    + cbn [forallb]. rewrite (Q2 x (or_introl eq_refl)). reflexivity.
  - intros N K1.
    assert (F0 : forall c : core V (list double) (list nat) (G R), forall fs op ws n ro, pop c = [] -> 1 <= populationSize op -> 
      forall ge re, run R fs op junk (hooks_of R std lin M k op ws) ro vec_max (S n) (mkGA c ge re) = UB \/
                    run R fs op junk (hooks_of R std lin M k op ws) ro vec_max (S n) (mkGA c ge re) = Abort).
    { intros c fs op ws n ro E Kp ge re. unfold run. cbn [ga_core]. destruct (ro && _); [right; reflexivity|]. left.
      cbn [ga_loop ga_core]. unfold evaluate_and_select. cbn [hk_select hooks_of]. rewrite sel_few; try exact Hstd; [reflexivity| |].
      - unfold computeAllFitness. cbn [pop]. rewrite E. split; [constructor|intros x []].
      - unfold computeAllFitness. cbn [pop]. rewrite E. cbn. lia. }
    assert (F : forall o1, pop (mo_core R o1) = [] -> 1 <= populationSize (mo_opt R o1) -> step' o1 (Run R) = UB \/ step' o1 (Run R) = Abort).
    { intros o1 E Kp. cbn [step]. unfold do_run. destruct (f_f R (mo_slots R o1)) as [f|]; [|left; reflexivity].
      destruct (f_c R (mo_slots R o1)) as [c|]; [|left; reflexivity]. destruct (f_m R (mo_slots R o1)) as [m|]; [|left; reflexivity].
      match goal with |- (do s <- ?r; _) = UB \/ _ => assert (X : r = UB \/ r = Abort) by (apply F0; assumption); destruct X as [-> | ->] end; [left|right]; reflexivity. }
    apply F; [|exact K1].
    assert (Q : forall h (o0 : @mobj V A R), inv R (fun _ _ => True) o0 -> Forall (typed R) h -> drive' o0 h = Ok o -> ~ In (InitializePop R) h -> pop (mo_core R o0) = [] ->
      pop (mo_core R o) = []).
    { clear H N K1 h Ht. induction h as [|c h IH]; intros o0 I T H N E; cbn [drive] in H; [inversion H; subst; exact E|].
      apply bind_Ok in H. destruct H as (o1 & H1 & H).
      assert (I1 : inv R (fun _ _ => True) o1) by (eapply step_inv; [exact HR|exact Hstd|exact I|exact (Forall_inv T)|intros; exact Logic.I|exact H1]).
      apply (IH o1 I1 (Forall_inv_tail T) H); [intros C; apply N; right; exact C|].
      destruct c as [op|fi|ff|fc|fm|a'|p|i e|g'| |];
        [injection H1 as H1; subst o1; exact E..| |injection H1 as H1; subst o1; exact E| |].
      - cbn [step] in H1. apply bind_Ok in H1. destruct H1 as (q & _ & H1). injection H1 as H1. subst o1. exact E.
      - exfalso; apply N; left; reflexivity.
      - destruct (run_inv R std lin M k rec_on junk v0 vec_max HR Hstd (fun _ _ => True) o0 o1 I ltac:(intros; exact Logic.I) H1) as (_ & (_ & _ & _ & _ & Sz) & _).
        destruct (Z.eq_dec (populationSize (mo_opt R o0)) 0) as [Z0|Z0]; [rewrite Z0 in Sz; destruct (pop (mo_core R o1)); [reflexivity|cbn in Sz; lia]|].
        destruct I as (_ & _ & _ & (S1 & _) & _). destruct (F o0 E ltac:(lia)) as [X|X]; rewrite X in H1; discriminate H1. }
    apply (Q h _ (fresh_inv R _ ct a g) Ht H N eq_refl).
  - intros Ek C. destruct (C88_last_value_wins h _ _ H) as (_ & _ & _ & _ & _ & _ & P & _). rewrite C in P. cbn [last fresh mo_prec] in P.
    cbn [step]. unfold do_init, make_refs. rewrite Ek, P. reflexivity.
Qed.

Lemma refs_kept h : forall o o' : @mobj V A R, ~ In (InitializePop R) h -> drive' o h = Ok o' -> mo_refs R o' = mo_refs R o.
Proof.
  induction h as [|c h IH]; intros o o' N H; cbn [drive] in H; [inversion H; subst; reflexivity|].
  apply bind_Ok in H. destruct H as (o1 & H1 & H). rewrite (IH o1 o'); [|intros C; apply N; right; exact C|exact H].
  destruct c as [op|fi|ff|fc|fm|a'|p|i e|g'| |];
    [injection H1 as H1; subst o1; reflexivity..| |injection H1 as H1; subst o1; reflexivity| |].
  - cbn [step] in H1. apply bind_Ok in H1. destruct H1 as (q & _ & H1). injection H1 as H1. subst o1. reflexivity.
  - exfalso; apply N; left; reflexivity.
  - apply run_eq in H1; destruct H1 as (f & c & m & s & _ & _ & _ & _ & ->). reflexivity.
Qed.

(** referencePoints() are, from initializePop() until the next one, the lattice of
    the precision in effect at initializePop(): later setters and runs do not
    change them. *)
Theorem C88_reference_points : forall (o o1 o2 : @mobj V A R) h,
  rng_ok R -> (1 <= M)%nat -> precision_ok R M k o ->
  step' o (InitializePop R) = Ok o1 -> drive' o1 h = Ok o2 -> ~ In (InitializePop R) h ->
  match k with
  | NSGA2 _ => True
  | NSGA3_single => exists p ks, get_precision R o = Ok p /\
      NoDup ks /\ (forall s, In s ks <-> splits M p s) /\ Forall2 (lattice_point p) ks (get_referencePoints R o2)
  | NSGA3_double => exists inner outer ki ko, get_referencePoints R o2 = inner ++ outer /\
      (NoDup ki /\ (forall s, In s ki <-> splits M (fst (get_precisions R o)) s) /\ Forall2 (inner_point (fst (get_precisions R o))) ki inner) /\
      (NoDup ko /\ (forall s, In s ko <-> splits M (snd (get_precisions R o)) s) /\ Forall2 (lattice_point (snd (get_precisions R o))) ko outer)
  end.
Proof.
  intros o o1 o2 h HR HM P H1 H2 N. unfold get_referencePoints, get_precision, get_precisions. rewrite (refs_kept h o1 o2 N H2).
  apply init_eq in H1. destruct H1 as (ws & g & i & Hr & _ & ->). cbn [mo_refs]. unfold precision_ok, make_refs in *. destruct k; [exact Logic.I| |].
  - destruct P as (p & Ep & P1 & P2). rewrite Ep in *. destruct (C25_single_layer R M p (gen_rng (mo_core R o)) HR HM P1 P2) as (ws' & g' & ks & E & B).
    rewrite E in Hr. injection Hr as <- _. exists p, ks. split; [reflexivity|exact B].
  - destruct (mo_prec2 R o) as (pi, pe). cbn [fst snd] in *. destruct P as ((P1 & P2) & P3 & P4).
    destruct (C25_double_layer R M pi pe (gen_rng (mo_core R o)) HM P1 P3 P2 P4) as (inn & out & g' & ki & ko & E & B1 & B2 & B3 & B4 & B5 & B6).
    rewrite E in Hr. injection Hr as <- _. exists inn, out, ki, ko. split; [reflexivity|]. split; [exact (conj B1 (conj B2 B3))|exact (conj B4 (conj B5 B6))].
Qed.

(** Right after initializePop(), referencePointCount() is the number of reference points. *)
Theorem C88_reference_count : forall o o1 : @mobj V A R,
  rng_ok R -> (1 <= M)%nat -> is_nsga3 k = true -> precision_ok R M k o -> step' o (InitializePop R) = Ok o1 ->
  get_referencePointCount R M k o1 = Ok (Z.of_nat (length (get_referencePoints R o1))).
Proof.
  intros o o1 HR HM Ek P H1. apply init_eq in H1. destruct H1 as (ws & g & i & Hr & _ & ->).
  unfold get_referencePointCount, get_referencePoints. cbn [mo_refs mo_prec mo_prec2]. unfold precision_ok, make_refs in *. destruct k; [discriminate Ek| |].
  - destruct P as (p & Ep & P1 & P2). rewrite Ep in *.
    destruct (C26_count_of_stored_points R M p p p (gen_rng (mo_core R o)) HR HM P2 P2 P2) as ((ws' & g' & E & C) & _). rewrite E in Hr. injection Hr as <- _. exact C.
  - destruct (mo_prec2 R o) as (pi, pe). cbn [fst snd] in *. destruct P as ((P1 & P2) & P3 & P4).
    destruct (C26_count_of_stored_points R M pi pi pe (gen_rng (mo_core R o)) HR HM P2 P2 P4) as (_ & (ws' & g' & E & C & _)). rewrite E in Hr. injection Hr as <- _. exact C.
Qed.
End C88.
Print Assumptions C88_last_value_wins.
Print Assumptions C88_compile_time_equals_run_time.
Print Assumptions C88_new_solver.
Print Assumptions C88_too_early_is_undefined.
Print Assumptions C88_reference_points.
Print Assumptions C88_reference_count.

(** ... but not later: setting the precision after initializePop() changes
    referencePointCount() at once and referencePoints() only at the next
    initializePop(). *)
Theorem C88_reference_count_stale_refuted :
  forall (V A : Type) (R : rng_ops) std lin rec_on junk (v0 : V) vec_max (ct : @slots V A R) (a : A) (g : G R),
  rng_ok R -> f_i R ct <> None ->
  let h := [SetPrecision R 3; InitializePop R; SetPrecision R 5] in
  lawful_history R std lin 2 NSGA3_single rec_on junk v0 vec_max (fresh R ct a g) h /\
  exists o, drive R std lin 2 NSGA3_single rec_on junk v0 vec_max (fresh R ct a g) h = Ok o /\
    get_referencePointCount R 2 NSGA3_single o = Ok 6 /\ length (get_referencePoints R o) = 4%nat.
Proof.
  intros V A R std lin rec_on junk v0 vec_max ct a g HR Hi h. subst h. split.
  - split; [exact Logic.I|]. intros o1 E1. injection E1 as <-. split.
    + split; [exact Hi|]. split; [cbn; lia|]. exists 3%nat. split; [reflexivity|]. lia.
    + intros o2 _. split; [exact Logic.I|]. intros o3 _. exact Logic.I.
  - cbn [drive bind step]. unfold do_init, make_refs. cbn [set_prec mo_prec mo_core fresh gen_rng mo_slots].
    destruct (C26_count_of_stored_points R 2 3 3 3 g HR ltac:(lia) ltac:(lia) ltac:(lia) ltac:(lia)) as ((ws & g' & E & C) & _).
    rewrite E. cbn [bind]. destruct (f_i R ct) as [i|] eqn:Ei; [|congruence]. eexists. split; [reflexivity|].
    unfold get_referencePointCount, get_referencePoints. cbn [set_prec mo_prec mo_refs]. split; [vm_compute; reflexivity|].
    replace (pointCount 2 3) with (Ok 4) in C by (vm_compute; reflexivity). injection C as C. lia.
Qed.
Print Assumptions C88_reference_count_stale_refuted.

(** * C89: what a history leaves *)
Lemma nondominated_exists {V} M gr (p : list (gene V (list double))) : p <> [] -> exists x, nondominated_in M gr p x.
Proof.
  assert (Q : forall n (q : list (gene V (list double))), length q = n -> forall x, In x p -> (forall y, In y p -> dominates M gr y x -> In y q) -> exists z, nondominated_in M gr p z).
  { induction n as [|n IH]; intros q L x Hx Hq.
    - exists x. split; [exact Hx|]. intros y Hy D. specialize (Hq y Hy D). destruct q; [exact Hq|discriminate L].
    - destruct (existsb (fun y => isStrongDominate M gr (gfit y) (gfit x)) p) eqn:E.
      + apply existsb_exists in E. destruct E as (y & Hy & D). apply MOGAProofs.dominate_iff in D.
        pose proof (Hq y Hy D) as Iy. apply in_split in Iy. destruct Iy as (q1 & q2 & ->).
        apply (IH (q1 ++ q2)) with (x := y); [rewrite app_length in *; cbn in L; lia|exact Hy|].
        intros z Hz Dz. pose proof (Hq z Hz (MOGAProofs.Dominates_trans M gr _ _ _ Dz D)) as Iz.
        apply in_app_iff in Iz. apply in_app_iff. destruct Iz as [Iz|[<-|Iz]]; [left; exact Iz| |right; exact Iz].
        destruct (MOGAProofs.Dominates_irrefl M gr _ Dz).
      + exists x. split; [exact Hx|]. intros y Hy D. apply MOGAProofs.dominate_iff in D.
        assert (T : existsb (fun y => isStrongDominate M gr (gfit y) (gfit x)) p = true) by (apply existsb_exists; eauto). congruence. }
  destruct p as [|x p']; [congruence|]. intros _. apply (Q _ (x :: p') eq_refl x (or_introl eq_refl)). intros y Hy _. exact Hy.
Qed.

Section C89.
Context (V A : Type) (R : rng_ops) (std : std_ops) (lin : lin_ops) (M : nat) (k : kind) (rec_on : bool)
  (junk : list double) (v0 : V) (vec_max : Z).
Notation step' := (@step V A R std lin M k rec_on junk v0 vec_max).
Notation drive' := (@drive V A R std lin M k rec_on junk v0 vec_max).
Notation lawful_history' := (@lawful_history V A R std lin M k rec_on junk v0 vec_max).
Hypothesis (HR : rng_ok R) (Hstd : std_ok std).

(** Every lawful history returns: no call is undefined, aborts or loops for ever. *)
Theorem C89_lawful_history_returns : (1 <= M)%nat -> forall (ct : @slots V A R) (a : A) (g : G R) h,
  lawful_history' (fresh R ct a g) h -> exists o, drive' (fresh R ct a g) h = Ok o.
Proof.
  intros HM ct a g h L. destruct (drive_lawful R std lin M k rec_on junk v0 vec_max HR Hstd h HM (fresh R ct a g)) as (o & E & _); [apply fresh_inv| |exact L|eauto].
  intros _ C. destruct (C eq_refl).
Qed.

(** paretoFront() can be called after any history: it lists individuals of the
    current population, in the order of pfGenes(). *)
Theorem C89_front_always_readable : forall (ct : @slots V A R) (a : A) (g : G R) h o,
  Forall (typed R) h -> drive' (fresh R ct a g) h = Ok o ->
  exists front, get_paretoFront R o = Ok (map gfit front) /\ map gid front = get_pfGenes R o /\ incl front (get_population R o).
Proof.
  intros ct a g h o T H. destruct (drive_typed R std lin M k rec_on junk v0 vec_max HR Hstd h _ _ (fresh_inv R _ ct a g) T H) as ((N & _) & _ & D & _).
  exact (front_deref _ _ N D).
Qed.

(** After run(), and until the next initializePop() or run(): populationSize
    evaluated individuals, every generation done, no failed generation counted, and
    paretoFront() exactly the nondominated individuals of the population, each
    once; there is at least one. *)
Theorem C89_after_run : (1 <= M)%nat -> forall (ct : @slots V A R) (a : A) (g : G R) h1 h2 o,
  lawful_history' (fresh R ct a g) (h1 ++ Run R :: h2) -> Forall (setter R) h2 ->
  drive' (fresh R ct a g) (h1 ++ Run R :: h2) = Ok o ->
  exists o1, drive' (fresh R ct a g) h1 = Ok o1 /\
    Z.of_nat (length (get_population R o)) = populationSize (mo_opt R o1) /\
    (forall x, In x (get_population R o) -> gcomp x = true) /\
    get_generation R o = Ok (maxGenerations (mo_opt R o1)) /\ get_failTimes R o = Ok 0 /\
    (rec_on = true -> Z.of_nat (length (get_record R o)) = maxGenerations (mo_opt R o1) + 1) /\
    exists front, get_paretoFront R o = Ok (map gfit front) /\ map gid front = get_pfGenes R o /\ NoDup front /\ front <> [] /\
      forall x, In x front <-> nondominated_in M (greater_of k) (get_population R o) x.
Proof.
  intros HM ct a g h1 h2 o L S2 H. apply lawful_app in L. destruct L as (L1 & L2). rewrite drive_app in H.
  apply bind_Ok in H. destruct H as (o1 & H1 & H). exists o1. split; [exact H1|]. specialize (L2 o1 H1). cbn [drive] in H. apply bind_Ok in H. destruct H as (o2 & Hr & H).
  destruct L2 as (Lr & _).
  destruct (drive_inv R std lin M k rec_on junk v0 vec_max HR Hstd h1 HM _ _ (fresh_inv R _ ct a g) ltac:(intros _ C; destruct (C eq_refl)) L1 H1) as (I1 & _).
  destruct (run_post R std lin M k rec_on junk v0 vec_max HR Hstd o1 o2 I1 Lr Hr) as ((W & Cq & F0 & Ef & Sz) & Gn & Rn & Rc).
  destruct (setters_frame R std lin M k rec_on junk v0 vec_max h2 o2 o S2 H) as (B1 & B2 & B3 & B4 & B5 & B6 & B7).
  unfold get_population, get_generation, get_failTimes, get_record, get_paretoFront, get_pfGenes. rewrite B1, B2, B3, B5, B6, B7, Rn, Gn, F0.
  split; [exact Sz|]. split; [intros x Hx; apply (Cq x Hx)|]. split; [reflexivity|]. split; [reflexivity|]. split; [exact Rc|].
  destruct (exact_report R M k _ W Ef) as (front & E1 & E2 & E3 & E4). exists front. split.
  - unfold paretoFront in *. rewrite B1, B2. exact E1.
  - split; [exact E3|]. split; [exact E2|]. split; [|exact E4].
    destruct (nondominated_exists M (greater_of k) (pop (mo_core R o2))) as (x & Hx).
    + intros C. rewrite C in Sz. destruct Lr as (_ & _ & _ & Hk & _). cbn in Sz. lia.
    + apply E4 in Hx. intros ->. exact Hx.
Qed.

(** bestFitness() after run(): in every objective the best value of the population
    (NSGA2; for NSGA3, whose objective values may be anything, if none is NaN). *)
Theorem C89_best_fitness_is_ideal_point : (1 <= M)%nat -> forall (ct : @slots V A R) (a : A) (g : G R) h1 h2 o,
  lawful_history' (fresh R ct a g) (h1 ++ Run R :: h2) -> Forall (setter R) h2 ->
  drive' (fresh R ct a g) (h1 ++ Run R :: h2) = Ok o ->
  (is_nsga3 k = true -> forall x i, In x (get_population R o) -> (i < M)%nat -> nonnan (objective (gfit x) i)) ->
  exists b, get_bestFitness R M k o = Ok b /\ length b = M /\
    forall i, (i < M)%nat ->
      (exists x, In x (get_population R o) /\ objective b i = objective (gfit x) i) /\
      (forall x, In x (get_population R o) -> NotWorse (greater_of k) (objective b i) (objective (gfit x) i)).
Proof.
  intros HM ct a g h1 h2 o L S2 H NN.
  destruct (C89_after_run HM ct a g h1 h2 o L S2 H) as (o1 & H1 & Sz & Cp & _).
  pose proof (drive_inv R std lin M k rec_on junk v0 vec_max HR Hstd (h1 ++ Run R :: h2) HM _ _ (fresh_inv R _ ct a g) ltac:(intros _ C; destruct (C eq_refl)) L H) as ((_ & Gd & _) & _).
  apply lawful_app in L. destruct L as (L1 & L2). destruct (L2 o1 H1) as ((_ & _ & _ & Hk & _) & _). clear L1 L2.
  unfold get_bestFitness. replace (forallb gcomp (pop (mo_core R o))) with true by (symmetry; apply forallb_forall; exact Cp).
  apply C24_best_fitness_is_ideal_point.
  - intros C. unfold get_population in Sz. rewrite C in Sz. cbn in Sz. lia.
  - intros x i Hx Hi. destruct (is_nsga3 k) eqn:Ek; [apply NN; auto|]. apply fin_nonnan. apply (Gd x Hx (Cp x Hx) Ek i Hi).
Qed.

(** After initializePop(): populationSize individuals, none evaluated, empty front. *)
Theorem C89_after_initialise : forall (ct : @slots V A R) (a : A) (g : G R) h1 h2 o,
  Forall (typed R) h1 -> Forall (setter R) h2 -> drive' (fresh R ct a g) (h1 ++ InitializePop R :: h2) = Ok o ->
  exists o1, drive' (fresh R ct a g) h1 = Ok o1 /\
    Z.of_nat (length (get_population R o)) = populationSize (mo_opt R o1) /\
    (forall x, In x (get_population R o) -> gcomp x = false) /\ get_paretoFront R o = Ok [] /\ get_pfGenes R o = [].
Proof.
  intros ct a g h1 h2 o T S2 H. rewrite drive_app in H.
  apply bind_Ok in H. destruct H as (o1 & H1 & H). exists o1. split; [exact H1|]. cbn [drive] in H. apply bind_Ok in H. destruct H as (o2 & Hi & H).
  pose proof (drive_typed R std lin M k rec_on junk v0 vec_max HR Hstd h1 _ _ (fresh_inv R _ ct a g) T H1) as I1.
  destruct (init_inv R std lin M k rec_on junk v0 vec_max (fun _ _ => True) _ o1 o2 I1 Hi) as (_ & Sz & Cp & E & _).
  destruct (setters_frame R std lin M k rec_on junk v0 vec_max h2 o2 o S2 H) as (B1 & B2 & _).
  unfold get_population, get_paretoFront, get_pfGenes, paretoFront in *. rewrite B1, B2, E. destruct I1 as (_ & _ & _ & (Sk & _) & _).
  split; [rewrite Sz; apply Z2Nat.id; exact Sk|]. split; [exact Cp|]. split; reflexivity.
Qed.

(** As long as the fitness function and the arguments stay what they were at
    initializePop(), every evaluated individual carries the fitness of the current
    function at its variable. *)
Theorem C89_fitness_is_current : forall (ct : @slots V A R) (a : A) (g : G R) h1 h2 o,
  Forall (typed R) (h1 ++ h2) -> Forall (keeps_fitness R) h2 ->
  drive' (fresh R ct a g) (h1 ++ InitializePop R :: h2) = Ok o ->
  forall f x, f_f R (mo_slots R o) = Some f -> In x (get_population R o) -> gcomp x = true -> gfit x = f (mo_args R o) (gvar x).
Proof.
  intros ct a g h1 h2 o T Kh H. apply Forall_app in T. destruct T as (T1 & T2). rewrite drive_app in H.
  apply bind_Ok in H. destruct H as (o1 & H1 & H). cbn [drive] in H. apply bind_Ok in H. destruct H as (o2 & Hi & H).
  pose proof (drive_typed R std lin M k rec_on junk v0 vec_max HR Hstd h1 _ _ (fresh_inv R _ ct a g) T1 H1) as I1.
  destruct (init_inv R std lin M k rec_on junk v0 vec_max (fun v d => forall f, f_f R (mo_slots R o2) = Some f -> d = f (mo_args R o2) v) _ o1 o2 I1 Hi) as (I2 & _).
  destruct (drive_current R std lin M k rec_on junk v0 vec_max HR Hstd (f_f R (mo_slots R o2)) (mo_args R o2) h2 T2 Kh o2 o eq_refl eq_refl I2 H) as (E1 & E2 & (_ & Gd & _)).
  intros f x Ef Hx Cx. rewrite E2. apply (Gd x Hx Cx). congruence.
Qed.

(** Asking for more individuals than there are, without initializePop(), makes run() undefined. *)
Theorem C89_raising_population_undefined : forall (ct : @slots V A R) (a : A) (g : G R) h o,
  Forall (typed R) h -> drive' (fresh R ct a g) h = Ok o ->
  Z.of_nat (length (get_population R o)) < populationSize (mo_opt R o) ->
  rec_on = false \/ maxGenerations (mo_opt R o) + 1 <= Z.min vec_max (two64 - 1) -> 0 <= maxGenerations (mo_opt R o) -> step' o (Run R) = UB.
Proof.
  intros ct a g h o T H Lt Hv HG. pose proof (drive_typed R std lin M k rec_on junk v0 vec_max HR Hstd h _ _ (fresh_inv R _ ct a g) T H) as (W & _).
  cbn [step]. unfold do_run. destruct (f_f R (mo_slots R o)) as [f|]; [|reflexivity].
  destruct (f_c R (mo_slots R o)) as [c|]; [|reflexivity]. destruct (f_m R (mo_slots R o)) as [m|]; [|reflexivity].
  unfold run. replace (rec_on && _) with false.
  - cbn [ga_loop ga_core]. unfold evaluate_and_select. cbn [hk_select hooks_of]. rewrite sel_few; [reflexivity|exact Hstd| |].
    + apply compute_wf. exact W.
    + unfold computeAllFitness. cbn [pop]. rewrite map_length. exact Lt.
  - symmetry. destruct rec_on; [|reflexivity]. cbn [andb]. apply Z.ltb_ge. destruct Hv as [Hv|Hv]; [discriminate Hv|]. rewrite wrap64_small; lia.
Qed.

(** If every function ever supplied keeps variables in a region, every variable of
    the population is in the region, after any history. *)
Definition keeps (P : V -> Prop) (i : option (A -> G R -> V * G R)) (c : option (A -> V -> V -> G R -> (V * V) * G R)) (m : option (A -> V -> G R -> V * G R)) : Prop :=
  (forall f a g, i = Some f -> P (fst (f a g))) /\
  (forall f a x y g, c = Some f -> P x -> P y -> P (fst (fst (f a x y g))) /\ P (snd (fst (f a x y g)))) /\
  (forall f a x g, m = Some f -> P x -> P (fst (f a x g))).
Definition call_keeps (P : V -> Prop) (c : @call V A R) : Prop :=
  match c with SetIFun _ f => keeps P f None None | SetCFun _ f => keeps P None f None | SetMFun _ f => keeps P None None f | _ => True end.
Theorem C89_variables_stay_in_region : forall (P : V -> Prop) (ct : @slots V A R) (a : A) (g : G R) h o,
  keeps P (f_i R ct) (f_c R ct) (f_m R ct) -> Forall (call_keeps P) h -> drive' (fresh R ct a g) h = Ok o ->
  forall x, In x (get_population R o) -> P (gvar x).
Proof.
  intros P ct a g h o Kc Kh H.
  assert (Q : forall h (o0 : @mobj V A R), Forall (call_keeps P) h -> drive' o0 h = Ok o ->
    keeps P (f_i R (mo_slots R o0)) (f_c R (mo_slots R o0)) (f_m R (mo_slots R o0)) -> (forall x, In x (pop (mo_core R o0)) -> P (gvar x)) ->
    forall x, In x (pop (mo_core R o)) -> P (gvar x)).
  { clear -HR. induction h as [|c h IH]; intros o0 Kh H Ko Po; cbn [drive] in H; [inversion H; subst; exact Po|].
    apply bind_Ok in H. destruct H as (o1 & H1 & H). pose proof (Forall_inv Kh) as K1. pose proof Ko as (KI & KC & KM).
    assert (X : keeps P (f_i R (mo_slots R o1)) (f_c R (mo_slots R o1)) (f_m R (mo_slots R o1)) /\ (forall x, In x (pop (mo_core R o1)) -> P (gvar x))).
    { destruct c as [op|fi|ff|fc|fm|a'|p|i e|g'| |]; cbn [call_keeps] in K1.
      1: injection H1 as H1; subst o1; split; assumption.
      1: injection H1 as H1; subst o1; split; [|exact Po]; cbn; split; [apply K1|split; assumption].
      1: injection H1 as H1; subst o1; split; assumption.
      1: injection H1 as H1; subst o1; split; [|exact Po]; cbn; split; [assumption|split; [apply K1|assumption]].
      1: injection H1 as H1; subst o1; split; [|exact Po]; cbn; split; [assumption|split; [assumption|apply K1]].
      1: injection H1 as H1; subst o1; split; assumption.
      1: injection H1 as H1; subst o1; split; assumption.
      2: injection H1 as H1; subst o1; split; assumption.
      - cbn [step] in H1. apply bind_Ok in H1. destruct H1 as (q & _ & H1). injection H1 as H1. subst o1. split; assumption.
      - apply init_eq in H1. destruct H1 as (ws & g & i & _ & Hi & ->). cbn [mo_slots mo_core]. split; [exact Ko|]. destruct Hi as [Hi|(_ & Hk & _)].
        + apply initialize_P. intros g1. cbn [iFun init_funs]. apply (KI i _ _ Hi).
        + intros x Hx. exfalso. revert Hx. unfold initializePop. rewrite Hk. cbn. intros [].
      - apply run_eq in H1. destruct H1 as (f & c & m & s & Ef & Ec & Em & Hr & ->). cbn [mo_slots mo_core]. split; [exact Ko|].
        refine (run_P R _ _ junk _ P rec_on vec_max _ HR _ _ _ s _ Hr).
        + split; [intros x y g' Hx Hy; apply (KC c _ x y g' Ec Hx Hy)|intros x g' Hx; apply (KM m _ x g' Em Hx)].
        + intros c0 c' Hs x Hx. exists x. split; [|reflexivity]. cbn [hk_select hooks_of] in Hs. unfold select_of in Hs. destruct k.
          * exact (VarInv.nsga2_incl R std M greater (mo_opt R o0) c0 c' Hs x Hx).
          * exact (proj2 (nsga3_frame V R std lin M _ _ _ c0 c' Hs) x Hx).
          * exact (proj2 (nsga3_frame V R std lin M _ _ _ c0 c' Hs) x Hx).
        + exact Po. }
    destruct X as (X1 & X2). exact (IH o1 (Forall_inv_tail Kh) H X1 X2). }
  apply (Q h _ Kh H Kc). intros x [].
Qed.
End C89.
Print Assumptions C89_lawful_history_returns.
Print Assumptions C89_front_always_readable.
Print Assumptions C89_after_run.
Print Assumptions C89_best_fitness_is_ideal_point.
Print Assumptions C89_after_initialise.
Print Assumptions C89_fitness_is_current.
Print Assumptions C89_raising_population_undefined.
Print Assumptions C89_variables_stay_in_region.

(** * Examples: lawful histories, and what they leave *)
Definition mo_init (a : Z) (g : G replay) : Z * G replay := let (n, g') := randIdx replay 1000 g in (n, g').
Definition mo_fit (a v : Z) : list double := [d_of_Z ((a * v) mod 16); d_of_Z ((v * v) mod 11)].
Definition mo_cross (a x y : Z) (g : G replay) : (Z * Z) * G replay := ((x + 1, y + a), g).
Definition mo_mut (a x : Z) (g : G replay) : Z * G replay := (x + 3 * a, g).
Definition mo_slots4 : @slots Z Z replay := mkSlots replay (Some mo_init) (Some mo_fit) (Some mo_cross) (Some mo_mut).
Definition mo_opt6 : ga_option := mkOpt 6 3 4 (fofZ 1 (-1)) (fofZ 1 (-2)).
Definition mo_opt4 : ga_option := mkOpt 4 3 2 (fofZ 1 (-1)) d1.
Definition mo_opt3 : ga_option := mkOpt 3 3 0 (fofZ 1 (-1)) d1.
Lemma mo_fit_tame a v : tame_value 2 (mo_fit a v).
Proof.
  intros o Ho. assert (H : exists z, objective (mo_fit a v) o = d_of_Z z /\ 0 <= z < 16).
  { destruct o as [|[|o]]; [| |lia]; cbn [mo_fit objective nth]; eexists; (split; [reflexivity|]).
    - apply Z.mod_pos_bound. lia.
    - pose proof (Z.mod_pos_bound (v * v) 11). lia. }
  destruct H as (z & E & Hz). unfold objective, mo_fit in *. rewrite E. destruct (d_of_Z_exact z ltac:(lia)) as (F & B). split; [exact F|].
  rewrite B, Rabs_pos_eq by (apply IZR_le; lia). apply Rle_trans with (IZR 16); [apply IZR_le; lia|].
  change (IZR 16) with (bpow radix2 4). apply bpow_le. lia.
Qed.

Section Demo.
Variable k : kind.
Notation step_k := (@step Z Z replay std_inst lin_inst 2 k true [] 0 1000).
Notation drive_k := (@drive Z Z replay std_inst lin_inst 2 k true [] 0 1000).
Notation lawful_k := (@lawful_history Z Z replay std_inst lin_inst 2 k true [] 0 1000).
Definition known (o : @mobj Z Z replay) (op : ga_option) (a : Z) (p : option nat) (q : nat * nat) (n : nat) : Prop :=
  inv replay (QT 2 k) o /\ mo_opt replay o = op /\ mo_slots replay o = mo_slots4 /\ mo_args replay o = a /\
  mo_prec replay o = p /\ mo_prec2 replay o = q /\ length (get_population replay o) = n.
Lemma known_init o op a p q n h : known o op a p q n -> 1 <= populationSize op -> precision_ok replay 2 k o ->
  (forall o', known o' op a p q (Z.to_nat (populationSize op)) -> lawful_k o' h) -> lawful_k o (InitializePop replay :: h).
Proof.
  intros (I & E1 & E2 & E3 & E4 & E5 & E6) H P N. split.
  - split; [rewrite E2; discriminate|]. rewrite E1. split; assumption.
  - intros o' S'. apply N. destruct (init_inv replay std_inst lin_inst 2 k true [] 0 1000 (QT 2 k) _ o o' I S') as (I' & Sz & _).
    pose proof (init_eq replay std_inst lin_inst 2 k true [] 0 1000 o o' S') as (ws & g & i & _ & _ & Eo).
    rewrite E1 in Sz. split; [exact I'|]. split; [rewrite Eo; exact E1|]. split; [rewrite Eo; exact E2|].
    split; [rewrite Eo; exact E3|]. split; [rewrite Eo; exact E4|]. split; [rewrite Eo; exact E5|exact Sz].
Qed.
Lemma known_run o op a p q n h : known o op a p q n -> 1 <= populationSize op <= Z.of_nat n -> 0 <= maxGenerations op < 1000 ->
  (forall o', known o' op a p q (Z.to_nat (populationSize op)) -> lawful_k o' h) -> lawful_k o (Run replay :: h).
Proof.
  intros (I & E1 & E2 & E3 & E4 & E5 & E6) H HG N.
  assert (L : lawful replay 2 k true 1000 o (Run replay)).
  { split; [rewrite E2; discriminate|]. split; [rewrite E2; discriminate|]. split.
    - exists mo_fit. split; [rewrite E2; reflexivity|]. intros _ v. apply mo_fit_tame.
    - rewrite E1, E6. split; [exact H|]. unfold two64. split; [lia|]. intros _. lia. }
  split; [exact L|]. intros o' S'. apply N.
  destruct (run_post replay std_inst lin_inst 2 k true [] 0 1000 replay_ok std_inst_ok o o' I L S') as ((_ & _ & _ & _ & Sz) & _).
  destruct (run_inv replay std_inst lin_inst 2 k true [] 0 1000 replay_ok std_inst_ok (QT 2 k) o o' I) as (I' & _).
  { intros f v Ef. apply (lawful_QT replay 2 k true 1000 o (Run replay) L f v Ef eq_refl). }
  { exact S'. }
  pose proof (run_eq replay std_inst lin_inst 2 k true [] 0 1000 o o' S') as (f & c & m & s & _ & _ & _ & _ & Eo).
  rewrite E1 in Sz. split; [exact I'|]. split; [rewrite Eo; exact E1|]. split; [rewrite Eo; exact E2|].
  split; [rewrite Eo; exact E3|]. split; [rewrite Eo; exact E4|]. split; [rewrite Eo; exact E5|]. unfold get_population. lia.
Qed.
Lemma known_option o op a p q n op' h : known o op a p q n -> size_ok op' ->
  (forall o', known o' op' a p q n -> lawful_k o' h) -> lawful_k o (SetOption replay op' :: h).
Proof.
  intros ((W & Gd & D & Sk & Lr) & E1 & E2 & E3 & E4 & E5 & E6) H N. split; [exact H|]. intros o' S'. apply N. cbn [step] in S'. injection S' as <-.
  split; [exact (conj W (conj Gd (conj D (conj H Lr))))|]. split; [reflexivity|]. repeat (split; [assumption|]). exact E6.
Qed.
Lemma known_args o op a p q n a' h : known o op a p q n ->
  (forall o', known o' op a' p q n -> lawful_k o' h) -> lawful_k o (SetArgs replay a' :: h).
Proof.
  intros (I & E1 & E2 & E3 & E4 & E5 & E6) N. split; [exact Logic.I|]. intros o' S'. apply N. cbn [step] in S'. injection S' as <-.
  split; [exact I|]. split; [assumption|]. split; [assumption|]. split; [reflexivity|]. repeat (split; [assumption|]). exact E6.
Qed.
Lemma known_prec o op a p q n p' h : known o op a p q n ->
  (forall o', known o' op a (Some p') q n -> lawful_k o' h) -> lawful_k o (SetPrecision replay p' :: h).
Proof.
  intros (I & E1 & E2 & E3 & E4 & E5 & E6) N. split; [exact Logic.I|]. intros o' S'. apply N. cbn [step] in S'. injection S' as <-.
  split; [exact I|]. do 3 (split; [assumption|]). split; [reflexivity|]. split; assumption.
Qed.
Definition mo_history : list (@call Z Z replay) :=
  [ SetOption replay mo_opt6; SetPrecision replay 4; SetArgs replay 3; InitializePop replay; Run replay; SetArgs replay 5; SetOption replay mo_opt4; Run replay;
    SetArgs replay 6; SetOption replay mo_opt3; Run replay ].
Lemma mo_demo_lawful g : lawful_k (fresh replay mo_slots4 2 g) mo_history.
Proof.
  assert (K0 : known (fresh replay mo_slots4 2 g) default_option 2 None (3, 4)%nat 0) by (split; [apply fresh_inv|repeat split]).
  apply (known_option _ _ _ _ _ _ _ _ K0); [split; discriminate|]. intros o1 K1.
  apply (known_prec _ _ _ _ _ _ _ _ K1). intros o2 K2.
  apply (known_args _ _ _ _ _ _ _ _ K2). intros o3 K3.
  apply (known_init _ _ _ _ _ _ _ K3); [cbn; lia| |].
  { destruct K3 as (_ & _ & _ & _ & P1 & P2 & _). unfold precision_ok. rewrite P2. destruct k; cbn [fst snd]; [exact Logic.I|exists 4%nat; split; [exact P1|lia]|lia]. }
  intros o4 K4. apply (known_run _ _ _ _ _ _ _ K4); [cbn; lia|cbn; lia|]. intros o5 K5.
  apply (known_args _ _ _ _ _ _ _ _ K5). intros o6 K6.
  apply (known_option _ _ _ _ _ _ _ _ K6); [split; discriminate|]. intros o7 K7.
  apply (known_run _ _ _ _ _ _ _ K7); [cbn; lia|cbn; lia|]. intros o8 K8.
  apply (known_args _ _ _ _ _ _ _ _ K8). intros o9 K9.
  apply (known_option _ _ _ _ _ _ _ _ K9); [split; discriminate|]. intros o10 K10.
  apply (known_run _ _ _ _ _ _ _ K10); [cbn; lia|cbn; lia|]. intros o11 _. exact Logic.I.
Qed.
End Demo.
Example ex_C89_lawful : rng_ok replay /\ std_ok std_inst /\ forall k g,
  @lawful_history Z Z replay std_inst lin_inst 2 k true [] 0 1000 (fresh replay mo_slots4 2 g) mo_history.
Proof. split; [exact replay_ok|]. split; [exact std_inst_ok|]. intros k g. apply mo_demo_lawful. Qed.

Definition mo_draws : list Z := map (fun i => Z.of_nat (i * i * 37 + 11 * i + 5)) (seq 1 60).
Notation drive_mo k h := (@drive Z Z replay std_inst lin_inst 2 k true [] 0 1000 (fresh replay mo_slots4 2 mo_draws) h).
Definition mo_check (k : kind) (n gens refs : nat) (o : @mobj Z Z replay) : bool :=
  (length (get_population replay o) =? n)%nat && (length (get_record replay o) =? gens + 1)%nat && (length (get_referencePoints replay o) =? refs)%nat &&
  match get_generation replay o, get_failTimes replay o, get_paretoFront replay o with
  | Ok ge, Ok fl, Ok fr => (ge =? Z.of_nat gens) && (fl =? 0) && negb (length fr =? 0)%nat
  | _, _, _ => false end.
Example ex_C89_runs : forall k refs, (k, refs) = (NSGA2 false, 0%nat) \/ (k, refs) = (NSGA2 true, 0%nat) \/ (k, refs) = (NSGA3_single, 5%nat) \/ (k, refs) = (NSGA3_double, 9%nat) ->
  exists o, drive_mo k mo_history = Ok o /\ mo_check k 3 0 refs o = true.
Proof. intros k refs [E|[E|[E|E]]]; injection E as -> ->; apply Props_SOGA.by_test; vm_compute; reflexivity. Qed.
Example ex_C89_region : keeps Z Z replay (fun v => 0 <= v < 1000) (f_i replay mo_slots4)
  (Some (fun _ x y g => ((y, x), g))) (Some (fun _ x g => (999 - x, g))).
Proof.
  split; [|split].
  - intros f a g E. cbn in E. injection E as <-. unfold mo_init.
    pose proof (RandProofs.randIdx_range replay 1000 g replay_ok ltac:(lia)) as H. destruct (randIdx replay 1000 g) as (n, g'). exact H.
  - intros f a x y g E Hx Hy. injection E as <-. split; assumption.
  - intros f a x g E Hx. injection E as <-. change (0 <= 999 - x < 1000). lia.
Qed.
Example ex_C89_raise : exists o, drive_mo (NSGA2 false) (mo_history ++ [SetOption replay mo_opt6]) = Ok o /\
  (Z.of_nat (length (get_population replay o)) <? populationSize (mo_opt replay o)) = true.
Proof. apply Props_SOGA.by_test. vm_compute. reflexivity. Qed.

(** Changing the arguments (or the fitness function) after a run and running again
    without initializePop() keeps the old fitness values: a lawful history that ends
    in run() can leave individuals whose fitness is not that of the current function. *)
Definition stale_one (o : @mobj Z Z replay) : bool :=
  match f_f replay (mo_slots replay o) with
  | Some f => existsb (fun x => gcomp x && negb (forallb (fun p : double * double => feq (fst p) (snd p)) (combine (gfit x) (f (mo_args replay o) (gvar x))))) (get_population replay o)
  | None => false end.
Theorem C89_stale_fitness_refuted : forall k, k = NSGA2 false \/ k = NSGA3_single ->
  exists h (o : @mobj Z Z replay) f x,
  @lawful_history Z Z replay std_inst lin_inst 2 k true [] 0 1000 (fresh replay mo_slots4 2 mo_draws) h /\
  drive_mo k h = Ok o /\ (exists h', h = h' ++ [Run replay]) /\
  f_f replay (mo_slots replay o) = Some f /\ In x (get_population replay o) /\ gcomp x = true /\ gfit x <> f (mo_args replay o) (gvar x).
Proof.
  intros k Hk. assert (T : exists o, drive_mo k mo_history = Ok o /\ stale_one o = true).
  { destruct Hk as [-> | ->]; apply Props_SOGA.by_test; vm_compute; reflexivity. }
  destruct T as (o & E & T). exists mo_history, o. unfold stale_one in T. destruct (f_f replay (mo_slots replay o)) as [f|] eqn:Ef; [|discriminate T].
  apply existsb_exists in T. destruct T as (x & Hx & T). apply andb_true_iff in T. destruct T as (Cx & T). apply negb_true_iff in T.
  exists f, x. split; [apply mo_demo_lawful|]. split; [exact E|]. split; [exists (removelast mo_history); reflexivity|]. split; [reflexivity|].
  split; [exact Hx|]. split; [exact Cx|]. intros Q.
  assert (Ff : f = mo_fit).
  { destruct (C88_last_value_wins Z Z replay std_inst lin_inst 2 k true [] 0 1000 mo_history _ _ E) as (_ & _ & X & _). cbn in X. congruence. }
  subst f. rewrite Q in T. unfold mo_fit in T. cbn [combine forallb fst snd] in T.
  assert (W : forall z, 0 <= z < 16 -> feq (d_of_Z z : double) (d_of_Z z) = true).
  { intros z Hz. assert (C : z = 0 \/ z = 1 \/ z = 2 \/ z = 3 \/ z = 4 \/ z = 5 \/ z = 6 \/ z = 7 \/ z = 8 \/ z = 9 \/ z = 10 \/ z = 11 \/ z = 12 \/ z = 13 \/ z = 14 \/ z = 15) by lia.
    repeat (destruct C as [-> |C]; [vm_compute; reflexivity|]). subst z. vm_compute. reflexivity. }
  rewrite !W in T; [discriminate T| |]; [pose proof (Z.mod_pos_bound (gvar x * gvar x) 11); lia|apply Z.mod_pos_bound; lia].
Qed.
Print Assumptions C89_stale_fitness_refuted.
