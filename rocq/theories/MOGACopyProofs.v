(** Proofs about several NSGA2 or NSGA3 objects in one program. *)
From Coq Require Import List Arith ZArith Bool Lia Permutation.
From Flocq Require Import BinarySingleNaN.
From Verif Require SolverCopyProofs.
From Verif Require Import Base Fl Rng StdOps ListFacts GABase GAOpsProofs MOGA MOGASpec MOGAProofs2 MOGAProofs5 NSGA3 NSGA3Proofs3 MOGAObj MOGAObjSpec MOGAObjProofs MOGACopy.
Import ListNotations.
Open Scope nat_scope.

Lemma upd_nth {T} (l : list T) i x : i < length l -> nth_error (upd l i x) i = Some x.
Proof. apply SolverCopyProofs.upd_nth. Qed.
Lemma upd_nth_ne {T} (l : list T) i j x : i <> j -> nth_error (upd l i x) j = nth_error l j.
Proof. apply SolverCopyProofs.upd_nth_ne. Qed.
Lemma lt_nth {T} (l : list T) i x : nth_error l i = Some x -> i < length l.
Proof. intros H. apply nth_error_Some. congruence. Qed.
Lemma flat_split {S T} (f : S -> list T) (l : list S) i x : nth_error l i = Some x ->
  exists r, Permutation (flat_map f l) (f x ++ r) /\ forall y, Permutation (flat_map f (upd l i y)) (f y ++ r).
Proof.
  revert i. induction l as [|z l IH]; intros [|i] H; cbn in H; try discriminate H.
  - inversion H; subst. exists (flat_map f l). split; [|intros y]; apply Permutation_refl.
  - destruct (IH i H) as (r & P1 & P2). exists (f z ++ r). cbn [flat_map upd]. split.
    + rewrite P1, !app_assoc. apply Permutation_app_tail, Permutation_app_comm.
    + intros y. rewrite P2, !app_assoc. apply Permutation_app_tail, Permutation_app_comm.
Qed.
Lemma NoDup_disj (a b : list nat) : NoDup a -> NoDup b -> (forall x, In x a -> ~ In x b) -> NoDup (a ++ b).
Proof. apply SolverCopyProofs.NoDup_disj. Qed.
Lemma NoDup_apart {T} (a b : list T) x : NoDup (a ++ b) -> In x a -> ~ In x b.
Proof.
  induction a as [|z a IH]; intros N H C; [destruct H|]. cbn in N. inversion N as [|? ? N1 N2]; subst.
  destruct H as [->|H]; [apply N1, in_or_app; right; exact C|exact (IH N2 H C)].
Qed.
Section Nodes.
Context {V F : Type}.
Notation gene' := (gene V F).
Definition content (x : gene') := (gvar x, gcomp x, gfit x).
Lemma assign_ids (src : list gene') : forall ids n, map gid (assign_nodes ids n src) = firstn (length src) ids ++ seq n (length src - length ids).
Proof.
  induction src as [|x src IH]; intros [|k ids] n; cbn [assign_nodes map length firstn Nat.sub seq app gid]; try reflexivity; rewrite IH.
  - rewrite firstn_nil. cbn. rewrite Nat.sub_0_r. reflexivity.
  - reflexivity.
Qed.
Lemma copy_ids (src : list gene') n : map gid (assign_nodes [] n src) = seq n (length src).
Proof. rewrite assign_ids, firstn_nil. cbn. rewrite Nat.sub_0_r. reflexivity. Qed.
Lemma assign_content (src : list gene') : forall ids n, map content (assign_nodes ids n src) = map content src.
Proof. induction src as [|x src IH]; intros [|k ids] n; cbn [assign_nodes map]; try reflexivity; (rewrite IH; reflexivity). Qed.
End Nodes.

(** * One object *)
Section One.
Context {V : Type} (R : rng_ops).
Notation core' := (core V (list double) (list nat) (G R)).
Notation ids c := (map gid (pop c)).
(** New nodes come from the allocator. *)
Definition grows (c c' : core') : Prop :=
  wf c' /\ next c <= next c' /\ forall i, In i (ids c') -> In i (ids c) \/ next c <= i.
Definition owns (c : core') : Prop := incl (ext c) (ids c).
Lemma grows_refl (c : core') : wf c -> grows c c.
Proof. intros W. split; [exact W|]. split; [lia|]. intros i H. left. exact H. Qed.
Lemma grows_trans (a b c : core') : grows a b -> grows b c -> grows a c.
Proof.
  intros (W1 & N1 & I1) (W2 & N2 & I2). split; [exact W2|]. split; [lia|].
  intros i H. destruct (I2 i H) as [H'|H']; [|right; lia]. apply I1, H'.
Qed.
Lemma sub_grows (c c' : core') : wf c' -> sublist (pop c') (pop c) -> next c' = next c -> grows c c'.
Proof.
  intros W S E. split; [exact W|]. split; [lia|]. intros i H. left. eapply sublist_in; [apply sublist_map, S|exact H].
Qed.

Context (fs : user_funs V (list double) (G R)) (opt : ga_option) (junk : list double).
Lemma compute_ids (c : core') : ids (computeAllFitness R fs c) = ids c.
Proof. cbn [computeAllFitness pop]. rewrite map_map. apply map_ext. intros x. unfold evaluated. destruct (gcomp x); reflexivity. Qed.
Lemma mate_next (q : list (gene V (list double))) : forall n g, n <= snd (fst (mate R fs junk q n g)).
Proof.
  enough (H : forall k (q : list (gene V (list double))), length q <= k -> forall n g, n <= snd (fst (mate R fs junk q n g))) by (intros n g; eapply H; reflexivity).
  induction k as [|k IH]; intros [|a [|b t]] L n g; cbn [length] in L; try lia; cbn [mate fst snd]; try lia.
  destruct (cFun fs (gvar a) (gvar b) g) as [[v1 v2] g1]. specialize (IH t ltac:(lia) (n + 2) g1).
  destruct (mate R fs junk t (n + 2) g1) as [[rest n'] g2]. cbn [fst snd] in *. lia.
Qed.
Lemma mutants_next (q : list (gene V (list double))) : forall n g, n <= snd (fst (mutants R fs junk q n g)).
Proof.
  induction q as [|a q IH]; intros n g; cbn [mutants]; [cbn; lia|]. destruct (mFun fs (gvar a) g) as [v g1].
  specialize (IH (S n) g1). destruct (mutants R fs junk q (S n) g1) as [[rest n'] g2]. cbn [fst snd] in *. lia.
Qed.
Lemma compute_grows (c : core') : wf c -> grows c (computeAllFitness R fs c).
Proof.
  intros W. split; [apply compute_wf, W|]. split; [cbn; lia|]. intros i H. left. rewrite compute_ids in H. exact H.
Qed.
Lemma breed_grows (c : core') : rng_ok R -> wf c -> grows c (breed R fs opt junk c).
Proof.
  intros HR W. unfold breed.
  destruct (crossover_spec_lemma R fs opt junk c HR W) as (ps & ks & Ep & _ & _ & _ & _ & Fr & W1 & _ & E1).
  destruct (mutate_spec_lemma R fs opt junk (crossover R fs opt junk c) W1) as (kids & Eq & _ & Fr2 & W2 & _ & E2).
  assert (N1 : next c <= next (crossover R fs opt junk c)).
  { unfold crossover. destruct (choose R (crossoverProb opt) (pop c) (gen_rng c)) as [q0 g1]. destruct (shuffle R q0 g1) as [q1 g2].
    set (q := rev _). pose proof (mate_next q (next c) g2) as H. destruct (mate R fs junk q (next c) g2) as [[k n'] g3]. exact H. }
  assert (N2 : next (crossover R fs opt junk c) <= next (mutate R fs opt junk (crossover R fs opt junk c))).
  { generalize (crossover R fs opt junk c). intros c1. unfold mutate. destruct (choose R (mutateProb opt) (pop c1) (gen_rng c1)) as [q g1].
    pose proof (mutants_next q (next c1) g1) as H. destruct (mutants R fs junk q (next c1) g1) as [[k n'] g3]. exact H. }
  eapply grows_trans.
  - split; [exact W1|]. split; [exact N1|]. intros i Hi. rewrite Ep, map_app in Hi. apply in_app_or in Hi. destruct Hi as [Hi|Hi]; [left; exact Hi|].
    apply in_map_iff in Hi. destruct Hi as (x & <- & Hx). right. apply Fr, Hx.
  - split; [exact W2|]. split; [exact N2|]. intros i Hi. rewrite Eq, map_app in Hi. apply in_app_or in Hi. destruct Hi as [Hi|Hi]; [left; exact Hi|].
    apply in_map_iff in Hi. destruct Hi as (x & <- & Hx). right. apply Fr2, Hx.
Qed.
Lemma init_grows v0 (c : core') : wf c -> let c' := initializePop R fs opt junk v0 c in grows c c' /\ ext c' = ext c.
Proof.
  intros W. cbv zeta. pose proof (initialize_spec_lemma R fs opt junk v0 c W) as (L & W1 & _). cbv zeta in L, W1.
  split; [split; [exact W1|]|unfold initializePop; destruct (init_vars _ _ _ _); reflexivity].
  unfold initializePop. set (n := Z.to_nat _). set (kept := firstn n (pop c)). set (extra := map _ (seq _ _)).
  pose proof (init_vars_ids R fs (kept ++ extra) (gen_rng c)) as (H1 & _). destruct (init_vars R fs (kept ++ extra) (gen_rng c)) as [p g]. cbn [fst pop next] in *.
  split; [lia|]. intros i Hi. rewrite H1, map_app in Hi. apply in_app_or in Hi. destruct Hi as [Hi|Hi].
  - left. eapply sublist_in; [apply sublist_map, sublist_firstn|exact Hi].
  - right. unfold extra in Hi. rewrite map_map in Hi. cbn in Hi. rewrite map_id in Hi. apply in_seq in Hi. lia.
Qed.

Context (std : std_ops) (lin : lin_ops) (M : nat) (k : kind) (ws : list (list double)).
Hypothesis (HR : rng_ok R) (Hstd : std_ok std) (HK : size_ok opt) (Lw : (Z.of_nat (length ws) <= 18446744073709551616)%Z).
Notation sel := (select_of (V := V) R std lin M k opt ws).
Notation hk := (hooks_of (V := V) R std lin M k opt ws).
Lemma sel_grows (c c' : core') : wf c -> sel c = Ok c' -> grows c c' /\ owns c' /\ exact_front R M k c'.
Proof.
  intros W H. destruct (sel_spec R std lin M k opt ws HR Hstd HK Lw c c' W H) as (_ & A2 & A3 & _ & A5).
  assert (E : next c' = next c).
  { unfold select_of in H. unfold size_ok in HK. destruct k.
    - destruct (nsga2_incl R std M greater opt Hstd c c' W ltac:(lia) H) as (_ & _ & _ & _ & E & _). exact E.
    - destruct (nsga3_incl R std lin M opt HR Hstd _ ws c c' W HK Lw H) as (_ & _ & _ & _ & E). exact E.
    - destruct (nsga3_incl R std lin M opt HR Hstd _ ws c c' W HK Lw H) as (_ & _ & _ & _ & E). exact E. }
  split; [apply sub_grows; assumption|]. split; [|exact A5]. intros i Hi. apply (proj2 A5) in Hi. destruct Hi as (x & (Hx & _) & <-). apply in_map, Hx.
Qed.
(** The old front is never read. *)
Definition refront (e : list nat) (c : core') : core' := mkCore (pop c) (next c) (fails c) e (gen_rng c).
Lemma sel_blind (c : core') e : sel (refront e c) = sel c.
Proof.
  assert (N3 : forall fuel, nsga3_select R std lin M opt fuel ws (refront e c) = nsga3_select R std lin M opt fuel ws c).
  { intros fuel. unfold nsga3_select. cbn [refront pop next fails ext gen_rng]. destruct (divideLayers std M false (pop c)) as [sp [|L0 ls]]; [reflexivity|].
    cbv zeta. destruct (Z.leb_spec (Z.of_nat (length L0)) (populationSize opt)); [reflexivity|].
    replace (populationSize opt <? Z.of_nat (length L0))%Z with true by (symmetry; apply Z.ltb_lt; lia). reflexivity. }
  unfold select_of. destruct k; [|apply N3|apply N3].
  unfold nsga2_select. cbn [refront pop next fails ext gen_rng]. destruct (divideLayers std M greater (pop c)) as [sp [|L0 ls]]; [reflexivity|].
  cbv zeta. destruct (Z.leb_spec (Z.of_nat (length L0)) (populationSize opt)); [reflexivity|].
  try replace (populationSize opt <? Z.of_nat (length L0))%Z with true by (symmetry; apply Z.ltb_lt; lia). reflexivity.
Qed.
Lemma loop_grows rec_on fuel : forall s s' : ga V (list double) (list nat) (G R), wf (ga_core s) ->
  ga_loop R fs opt junk hk rec_on fuel s = Ok s' -> grows (ga_core s) (ga_core s') /\ owns (ga_core s') /\ exact_front R M k (ga_core s').
Proof.
  induction fuel as [|n IH]; intros s s' W H; [discriminate H|]. cbn [ga_loop] in H. cbv zeta in H.
  apply bind_Ok in H. destruct H as (c1 & H1 & H). unfold evaluate_and_select in H1. cbn [hk_select hooks_of] in H1.
  pose proof (compute_grows _ W) as G0. apply sel_grows in H1; [|exact (proj1 G0)]. destruct H1 as (G1 & O1).
  pose proof (grows_trans _ _ _ G0 G1) as G2. apply bind_Ok in H. destruct H as (r & _ & H).
  destruct (_ || _); [inversion H; subst; cbn [ga_core]; auto|].
  pose proof (breed_grows c1 HR (proj1 G1)) as G3. apply IH in H; cbn [ga_core] in *; [|exact (proj1 G3)].
  destruct H as (G4 & O4). split; [|exact O4]. eapply grows_trans; [exact G2|]. eapply grows_trans; [exact G3|exact G4].
Qed.
Lemma loop_blind rec_on fuel (c : core') e gn r :
  ga_loop R fs opt junk hk rec_on fuel (mkGA (refront e c) gn r) = ga_loop R fs opt junk hk rec_on fuel (mkGA c gn r).
Proof.
  destruct fuel as [|n]; [reflexivity|]. cbn [ga_loop ga_core generation record]. unfold evaluate_and_select. cbn [hk_select hooks_of].
  change (computeAllFitness R fs (refront e c)) with (refront e (computeAllFitness R fs c)). rewrite sel_blind. reflexivity.
Qed.
End One.

(** * Several objects *)
Section World.
Context {V A : Type} (R : rng_ops) (std : std_ops) (lin : lin_ops) (M : nat) (k : kind) (rec_on : bool).
Context (junk : list double) (v0 : V) (vec_max : Z).
Notation core' := (core V (list double) (list nat) (G R)).
Notation gene' := (gene V (list double)).
Notation obj' := (mobj (V := V) (A := A) R).
Notation world' := (world (V := V) (A := A) R).
Notation step' := (step R std lin M k rec_on junk v0 vec_max).
Notation wstep' := (wstep R std lin M k rec_on junk v0 vec_max).
Notation wdrive' := (wdrive R std lin M k rec_on junk v0 vec_max).
Notation lp := (live_pop R).
Notation heap_ids w := (map gid (heap R w)).

Definition obj_ok (n : nat) (o : obj') : Prop :=
  size_ok (mo_opt R o) /\ (Z.of_nat (length (mo_refs R o)) <= 18446744073709551616)%Z /\ forall i, In i (ext (mo_core R o)) -> i < n.
(** All nodes of all objects are different, and no pointer holds an address the
    allocator has yet to give. *)
Definition winv (w : world') : Prop :=
  NoDup (heap_ids w) /\ (forall i, In i (heap_ids w) -> i < w_next R w) /\
  (forall j o, nth_error (w_objs R w) j = Some (Some o) -> obj_ok (w_next R w) o).
Definition typed_event (e : event (V := V) (A := A) R) : Prop := match e with Call _ _ c => typed R c | _ => True end.

Lemma obj_ok_le n m o : n <= m -> obj_ok n o -> obj_ok m o.
Proof. intros L (H1 & H2 & H3). split; [exact H1|]. split; [exact H2|]. intros i Hi. specialize (H3 i Hi). lia. Qed.

Lemma put_inv (w : world') i x y n :
  NoDup (heap_ids w) -> (forall j, In j (heap_ids w) -> j < w_next R w) ->
  nth_error (w_objs R w) i = Some x -> NoDup (map gid (lp y)) ->
  (forall j, In j (map gid (lp y)) -> In j (map gid (lp x)) \/ w_next R w <= j) ->
  (forall j, In j (map gid (lp y)) -> j < n) -> w_next R w <= n ->
  let ids' := map gid (flat_map lp (upd (w_objs R w) i y)) in
  NoDup ids' /\ (forall j, In j ids' -> j < n) /\ (forall j, In j ids' -> In j (heap_ids w) \/ w_next R w <= j).
Proof.
  intros N L Hx Ny I Ln Hn. cbv zeta. destruct (flat_split lp _ _ _ Hx) as (r & P1 & P2). specialize (P2 y).
  apply (Permutation_map gid) in P1. apply (Permutation_map gid) in P2. rewrite map_app in P1, P2. unfold heap in *.
  pose proof (Permutation_NoDup P1 N) as N1. pose proof (NoDup_app_r _ _ N1) as No.
  assert (Lo : forall j, In j (map gid r) -> j < w_next R w).
  { intros j Hj. apply L. eapply Permutation_in; [apply Permutation_sym, P1|]. apply in_or_app. right; exact Hj. }
  split; [|split].
  - eapply Permutation_NoDup; [apply Permutation_sym, P2|]. apply NoDup_disj; [exact Ny|exact No|].
    intros j Hj C. destruct (I j Hj) as [Hj'|Hj']; [exact (NoDup_apart _ _ _ N1 Hj' C)|apply Lo in C; lia].
  - intros j Hj. eapply Permutation_in in Hj; [|exact P2]. apply in_app_or in Hj. destruct Hj as [Hj|Hj]; [auto|apply Lo in Hj; lia].
  - intros j Hj. eapply Permutation_in in Hj; [|exact P2]. apply in_app_or in Hj. destruct Hj as [Hj|Hj].
    + destruct (I j Hj) as [Hj'|Hj']; [left|right; exact Hj']. eapply Permutation_in; [apply Permutation_sym, P1|]. apply in_or_app; left; exact Hj'.
    + left. eapply Permutation_in; [apply Permutation_sym, P1|]. apply in_or_app; right; exact Hj.
Qed.
Lemma own_wf (w : world') i o : winv w -> nth_error (w_objs R w) i = Some (Some o) ->
  NoDup (map gid (pop (mo_core R o))) /\ (forall x, In x (pop (mo_core R o)) -> gid x < w_next R w) /\ incl (pop (mo_core R o)) (heap R w).
Proof.
  intros (N & L & _) H. destruct (flat_split lp _ _ _ H) as (r & P & _). cbn [live_pop] in P.
  assert (I : incl (pop (mo_core R o)) (heap R w)) by (intros x Hx; eapply Permutation_in; [apply Permutation_sym, P|]; apply in_or_app; left; exact Hx).
  split; [|split; [|exact I]].
  - apply (Permutation_map gid) in P. eapply Permutation_NoDup in N; [|exact P]. rewrite map_app in N. apply NoDup_app_l in N. exact N.
  - intros x Hx. apply L, in_map, I, Hx.
Qed.

Lemma and_assoc_l (P Q S : Prop) : (P /\ Q /\ S) <-> ((P /\ Q) /\ S).
Proof. tauto. Qed.
Lemma Ok_inj {T} (x y : T) : Ok x = Ok y -> x = y.
Proof. congruence. Qed.
(** What a call may do to the addresses. *)
Lemma step_grows (o o' : obj') c : rng_ok R -> std_ok std -> typed R c -> wf (mo_core R o) -> obj_ok (next (mo_core R o)) o -> step' o c = Ok o' ->
  grows R (mo_core R o) (mo_core R o') /\ obj_ok (next (mo_core R o')) o' /\
  (c = Run R \/ c = InitializePop R -> owns R (mo_core R o')) /\ (c = Run R -> exact_front R M k (mo_core R o')).
Proof.
  intros HR Hs T W (K1 & K2 & K3) H. pose proof (grows_refl R _ W) as Gr.
  assert (Set_ : forall op, size_ok op -> mo_opt R o' = op -> mo_refs R o' = mo_refs R o -> ext (mo_core R o') = ext (mo_core R o) -> grows R (mo_core R o) (mo_core R o') ->
    grows R (mo_core R o) (mo_core R o') /\ obj_ok (next (mo_core R o')) o').
  { intros op Ho E1 E2 E3 Hg. split; [exact Hg|]. split; [congruence|]. split; [congruence|]. rewrite E3. intros i Hi. specialize (K3 i Hi). destruct Hg as (_ & Hg & _). lia. }
  destruct c as [op|fi|ff|fc|fm|a|p|i e|g| |]; cbn [typed] in T.
  all: try (cbn [step] in H; apply Ok_inj in H; subst o'; rewrite and_assoc_l; split; [apply (Set_ _ T eq_refl eq_refl eq_refl Gr)|split; [intros [D|D]; discriminate D|intros D; discriminate D]]; fail).
  all: try (cbn [step] in H; apply Ok_inj in H; subst o'; rewrite and_assoc_l; split; [apply (Set_ _ K1 eq_refl eq_refl eq_refl Gr)|split; [intros [D|D]; discriminate D|intros D; discriminate D]]; fail).
  - cbn [step] in H. apply bind_Ok in H. destruct H as (q & _ & H). apply Ok_inj in H. subst o'. rewrite and_assoc_l.
    split; [apply (Set_ _ K1 eq_refl eq_refl eq_refl Gr)|split; [intros [D|D]; discriminate D|intros D; discriminate D]].
  - pose proof (init_eq R std lin M k rec_on junk v0 vec_max o o' H) as (ws & g & i & Hr & _ & ->). cbn [mo_core mo_opt mo_refs].
    set (c1 := mkCore _ _ _ _ _). assert (W1 : wf c1) by exact W.
    destruct (init_grows R (init_funs R junk (i (mo_args R o))) (mo_opt R o) junk v0 c1 W1) as (Gi & Ei). cbv zeta in Gi, Ei.
    set (c2 := initializePop _ _ _ _ _ c1) in *.
    split; [exact Gi|]. unfold obj_ok, owns. cbn [mo_core mo_opt mo_refs]. rewrite Ei. cbn [c1 ext].
    split; [split; [exact K1|split; [eapply (refs_length R M k); eassumption|intros ? []]]|]. split; [intros _ ? []|intros D; discriminate D].
  - apply run_eq in H. destruct H as (f & c & m & s & _ & _ & _ & Hr & ->). cbn [mo_core mo_opt mo_refs].
    unfold run in Hr. destruct (rec_on && _); [discriminate Hr|]. apply loop_grows in Hr; [|exact HR|exact Hs|exact K1|exact K2|exact W].
    cbn [ga_core] in Hr. destruct Hr as (Gl & Ol & El). split; [exact Gl|]. split; [|split; [intros _; exact Ol|intros _; exact El]].
    split; [exact K1|]. split; [exact K2|]. intros i Hi. apply Ol in Hi. apply in_map_iff in Hi. destruct Hi as (x & <- & Hx). apply (proj1 Gl), Hx.
Qed.
Lemma load_wf (w : world') i o : winv w -> nth_error (w_objs R w) i = Some (Some o) ->
  wf (mo_core R (load R (w_next R w) (w_rng R w) o)) /\ obj_ok (w_next R w) (load R (w_next R w) (w_rng R w) o).
Proof.
  intros I H. destruct (own_wf w i o I H) as (N & L & _). split; [split; [exact N|exact L]|]. exact (proj2 (proj2 I) i o H).
Qed.

Lemma wstep_inv (w w' : world') e : rng_ok R -> std_ok std -> winv w -> typed_event e -> wstep' w e = Ok w' ->
  winv w' /\ w_next R w <= w_next R w' /\ (forall j, In j (heap_ids w') -> In j (heap_ids w) \/ w_next R w <= j).
Proof.
  intros HR Hs I T H. pose proof I as (N & L & E).
  assert (Snoc : forall o' n g, w_next R w <= n -> obj_ok n o' -> NoDup (map gid (pop (mo_core R o'))) ->
    (forall j, In j (map gid (pop (mo_core R o'))) -> w_next R w <= j < n) -> w' = mkW R (w_objs R w ++ [Some o']) n g ->
    winv w' /\ w_next R w <= w_next R w' /\ (forall j, In j (heap_ids w') -> In j (heap_ids w) \/ w_next R w <= j)).
  { intros o' n g Hn Ok' No Lo ->. unfold winv, heap in *. cbn [w_objs w_next]. rewrite flat_map_app, map_app. cbn [flat_map live_pop]. rewrite app_nil_r. split; [split; [|split]|split; [exact Hn|]].
    - apply NoDup_disj; [exact N|exact No|]. intros x Hx C. apply L in Hx. apply Lo in C. lia.
    - intros x Hx. apply in_app_or in Hx. destruct Hx as [Hx|Hx]; [apply L in Hx; lia|apply Lo in Hx; lia].
    - intros j o Hj. destruct (Nat.lt_ge_cases j (length (w_objs R w))); [rewrite nth_error_app1 in Hj by assumption; eapply obj_ok_le; [exact Hn|eapply E, Hj]|].
      rewrite nth_error_app2 in Hj by assumption. destruct (j - length (w_objs R w)) as [|[|?]]; cbn in Hj; try discriminate Hj. inversion Hj; subst o. exact Ok'.
    - intros x Hx. apply in_app_or in Hx. destruct Hx as [Hx|Hx]; [left; exact Hx|right; apply Lo in Hx; lia]. }
  assert (Upd : forall i x y n g, nth_error (w_objs R w) i = Some x -> NoDup (map gid (lp y)) ->
    (forall j, In j (map gid (lp y)) -> In j (map gid (lp x)) \/ w_next R w <= j) -> (forall j, In j (map gid (lp y)) -> j < n) -> w_next R w <= n ->
    (forall o', y = Some o' -> obj_ok n o') -> w' = mkW R (upd (w_objs R w) i y) n g ->
    winv w' /\ w_next R w <= w_next R w' /\ (forall j, In j (heap_ids w') -> In j (heap_ids w) \/ w_next R w <= j)).
  { intros i x y n g Hx Ny Iy Ly Hn Oy ->. destruct (put_inv w i x y n N L Hx Ny Iy Ly Hn) as (P1 & P2 & P3). unfold winv, heap. cbn [w_objs w_next].
    split; [split; [exact P1|split; [exact P2|]]|split; [exact Hn|exact P3]]. intros j o Hj. destruct (Nat.eq_dec i j) as [<-|Hne].
    - rewrite upd_nth in Hj by (eapply lt_nth, Hx). inversion Hj. auto.
    - rewrite upd_nth_ne in Hj by exact Hne. eapply obj_ok_le; [exact Hn|eapply E, Hj]. }
  destruct e as [ct a|i|i j|i|i c]; cbn [wstep] in H.
  - apply Ok_inj in H. rename H into Hw. eapply (Snoc (fresh R ct a (w_rng R w)) (w_next R w)); [lia| |constructor|intros ? []|symmetry; exact Hw].
    split; [split; discriminate|]. split; [discriminate|intros ? []].
  - destruct (nth_error (w_objs R w) i) as [[o|]|] eqn:Ei; try discriminate H. apply Ok_inj in H; rename H into Hw. pose proof (E i o Ei) as (O1 & O2 & O3).
    eapply (Snoc (assign_obj R (w_next R w) (w_rng R w) [] o) (w_next R w + length (pop (mo_core R o)))); [lia| | | |symmetry; exact Hw].
    + split; [exact O1|]. split; [exact O2|]. cbn. intros x Hx. specialize (O3 x Hx). lia.
    + cbn [assign_obj with_core mo_core pop]. rewrite copy_ids. apply seq_NoDup.
    + cbn [assign_obj with_core mo_core pop]. rewrite copy_ids. intros x Hx. apply in_seq in Hx. lia.
  - destruct (nth_error (w_objs R w) i) as [[d|]|] eqn:Ei; try discriminate H. destruct (nth_error (w_objs R w) j) as [[s|]|] eqn:Ej; try discriminate H.
    destruct (Nat.eqb_spec i j) as [->|Hij]; apply Ok_inj in H; rename H into Hw.
    { subst w'. split; [exact I|]. split; [lia|auto]. }
    pose proof (E j s Ej) as (O1 & O2 & O3). destruct (own_wf w i d I Ei) as (Nd & Ld & _).
    eapply (Upd i (Some d)); [exact Ei| | | | | |symmetry; exact Hw]; cbn [live_pop assign_obj with_core mo_core pop]; rewrite ?assign_ids.
    + apply NoDup_disj; [eapply sublist_NoDup; [apply sublist_firstn|exact Nd]|apply seq_NoDup|].
      intros x Hx C. eapply sublist_in in Hx; [|apply sublist_firstn]. apply in_map_iff in Hx. destruct Hx as (y & <- & Hy). apply Ld in Hy. apply in_seq in C. lia.
    + intros x Hx. apply in_app_or in Hx. destruct Hx as [Hx|Hx]; [left; eapply sublist_in in Hx; [exact Hx|apply sublist_firstn]|right; apply in_seq in Hx; lia].
    + intros x Hx. apply in_app_or in Hx. destruct Hx as [Hx|Hx].
      * eapply sublist_in in Hx; [|apply sublist_firstn]. apply in_map_iff in Hx. destruct Hx as (y & <- & Hy). apply Ld in Hy. lia.
      * apply in_seq in Hx. lia.
    + lia.
    + intros o' Ho. inversion Ho; subst o'. split; [exact O1|]. split; [exact O2|]. cbn. intros x Hx. specialize (O3 x Hx). lia.
  - destruct (nth_error (w_objs R w) i) as [[o|]|] eqn:Ei; try discriminate H. apply Ok_inj in H; rename H into Hw.
    eapply (Upd i (Some o) None (w_next R w)); [exact Ei|constructor|intros ? []|intros ? []|lia|discriminate|symmetry; exact Hw].
  - destruct (nth_error (w_objs R w) i) as [[o|]|] eqn:Ei; try discriminate H. apply bind_Ok in H. destruct H as (o' & H1 & H). apply Ok_inj in H; rename H into Hw.
    destruct (load_wf w i o I Ei) as (W1 & O1). apply step_grows in H1; [|exact HR|exact Hs|exact T|exact W1|exact O1].
    destruct H1 as (((Nd' & Ld') & Hn & Hi) & O2 & _). cbn [load with_core mo_core next pop] in Hn, Hi.
    eapply (Upd i (Some o) (Some o')); [exact Ei|exact Nd'|exact Hi| |exact Hn| |symmetry; exact Hw].
    + cbn [live_pop]. intros x Hx. apply in_map_iff in Hx. destruct Hx as (y & <- & Hy). apply Ld' in Hy. exact Hy.
    + intros o2 Ho. inversion Ho; subst o2. exact O2.
Qed.
Lemma start_inv g : winv (start R g).
Proof. split; [constructor|]. split; [intros i []|]. intros [|j] o H; discriminate H. Qed.
Lemma wdrive_inv h : rng_ok R -> std_ok std -> forall w w', winv w -> Forall typed_event h -> wdrive' w h = Ok w' ->
  winv w' /\ w_next R w <= w_next R w' /\ (forall j, In j (heap_ids w') -> In j (heap_ids w) \/ w_next R w <= j).
Proof.
  intros HR Hs. induction h as [|e h IH]; intros w w' I T H; cbn [wdrive] in H; [inversion H; subst; auto|].
  apply bind_Ok in H. destruct H as (w1 & H1 & H2). destruct (wstep_inv w w1 e HR Hs I (Forall_inv T) H1) as (I1 & N1 & A1).
  destruct (IH w1 w' I1 (Forall_inv_tail T) H2) as (I2 & N2 & A2).
  split; [exact I2|]. split; [lia|]. intros j Hj. destruct (A2 j Hj) as [Hj'|Hj']; [apply A1, Hj'|right; lia].
Qed.

(** ** Events that are not about object [i] *)
Definition about (i : nat) (e : event (V := V) (A := A) R) : bool :=
  match e with
  | Construct _ _ _ | CopyOf _ _ => false
  | AssignTo _ j _ | Destroy _ j | Call _ j _ => (j =? i)%nat
  end.
Lemma wstep_other (w w' : world') e i : about i e = false -> i < length (w_objs R w) -> wstep' w e = Ok w' ->
  nth_error (w_objs R w') i = nth_error (w_objs R w) i /\ length (w_objs R w) <= length (w_objs R w').
Proof.
  intros Ha Hk H. destruct e as [ct a|j|j l|j|j c]; cbn [wstep about] in *.
  - inversion H; subst w'. cbn [w_objs]. rewrite nth_error_app1 by exact Hk. rewrite app_length. split; [reflexivity|lia].
  - destruct (nth_error (w_objs R w) j) as [[o|]|]; try discriminate H. inversion H; subst w'. cbn [w_objs]. rewrite nth_error_app1 by exact Hk. rewrite app_length. split; [reflexivity|lia].
  - destruct (nth_error (w_objs R w) j) as [[d|]|]; try discriminate H. destruct (nth_error (w_objs R w) l) as [[s|]|]; try discriminate H.
    apply Nat.eqb_neq in Ha. destruct (Nat.eqb j l); inversion H; subst w'; [auto|]. cbn [w_objs]. rewrite upd_nth_ne by exact Ha. rewrite SolverCopyProofs.upd_len. auto.
  - destruct (nth_error (w_objs R w) j) as [[o|]|]; try discriminate H. apply Nat.eqb_neq in Ha. inversion H; subst w'. cbn [w_objs]. rewrite upd_nth_ne by exact Ha. rewrite SolverCopyProofs.upd_len. auto.
  - destruct (nth_error (w_objs R w) j) as [[o|]|]; try discriminate H. apply Nat.eqb_neq in Ha. apply bind_Ok in H. destruct H as (o' & _ & H).
    inversion H; subst w'. cbn [w_objs]. rewrite upd_nth_ne by exact Ha. rewrite SolverCopyProofs.upd_len. auto.
Qed.
Lemma wdrive_other h i : forallb (fun e => negb (about i e)) h = true -> forall w w', i < length (w_objs R w) -> wdrive' w h = Ok w' ->
  nth_error (w_objs R w') i = nth_error (w_objs R w) i.
Proof.
  induction h as [|e h IH]; intros Hh w w' Hk H; cbn [wdrive forallb] in *; [inversion H; reflexivity|].
  apply andb_prop in Hh. destruct Hh as (He & Hh). apply negb_true_iff in He. apply bind_Ok in H. destruct H as (w1 & H1 & H2).
  destruct (wstep_other w w1 e i He Hk H1) as (E1 & L1). rewrite <- E1. apply IH; [exact Hh|lia|exact H2].
Qed.

(** Two objects have no node in common. *)
Lemma objs_apart (w : world') i j oi oj x y : winv w -> i <> j -> nth_error (w_objs R w) i = Some (Some oi) -> nth_error (w_objs R w) j = Some (Some oj) ->
  In x (pop (mo_core R oi)) -> In y (pop (mo_core R oj)) -> gid x <> gid y.
Proof.
  intros (N & _) Hij Hi Hj Hx Hy E. destruct (flat_split lp _ _ _ Hi) as (r & P1 & P2). specialize (P2 None). cbn [live_pop app] in P1, P2.
  apply (Permutation_map gid) in P1. rewrite map_app in P1. pose proof (Permutation_NoDup P1 N) as N1.
  apply (NoDup_apart _ _ (gid x) N1); [apply in_map, Hx|]. rewrite E. apply in_map. eapply Permutation_in; [exact P2|].
  apply in_flat_map. exists (Some oj). split; [|exact Hy]. apply nth_error_In with j. rewrite upd_nth_ne by exact Hij. exact Hj.
Qed.

(** ** Reading addresses *)
Lemma find_none_ids (l : list gene') e : ~ In e (map gid l) -> find (fun x => Nat.eqb (gid x) e) l = None.
Proof.
  intros H. destruct (find _ l) as [x|] eqn:E; [|reflexivity]. apply find_some in E. destruct E as (E1 & E2). apply Nat.eqb_eq in E2.
  exfalso. apply H. rewrite <- E2. apply in_map, E1.
Qed.
Lemma find_here (l : list gene') x : NoDup (map gid l) -> In x l -> find (fun y => Nat.eqb (gid y) (gid x)) l = Some x.
Proof.
  induction l as [|y l IH]; intros N H; [destruct H|]. cbn in *. inversion N as [|? ? N1 N2]; subst. destruct H as [->|H]; [rewrite Nat.eqb_refl; reflexivity|].
  destruct (Nat.eqb_spec (gid y) (gid x)) as [E|_]; [exfalso; apply N1; rewrite E; apply in_map, H|exact (IH N2 H)].
Qed.
(** Two heaps that agree at the addresses. *)
Lemma derefs_ext (l l' : list gene') ids : (forall i, In i ids -> find (fun x => Nat.eqb (gid x) i) l = find (fun x => Nat.eqb (gid x) i) l') -> derefs l ids = derefs l' ids.
Proof.
  induction ids as [|i ids IH]; intros H; [reflexivity|]. cbn [derefs]. rewrite (H i (or_introl eq_refl)). destruct (find _ l'); [|reflexivity].
  rewrite IH; [reflexivity|]. intros j Hj. apply H. right; exact Hj.
Qed.
Lemma derefs_gone (l : list gene') ids i : In i ids -> ~ In i (map gid l) -> derefs l ids = UB.
Proof.
  induction ids as [|j ids IH]; intros H C; [destruct H|]. cbn [derefs]. destruct H as [->|H]; [rewrite find_none_ids by exact C; reflexivity|].
  destruct (find _ l); [|reflexivity]. rewrite IH by assumption. reflexivity.
Qed.
(** The own nodes suffice. *)
Lemma front_own (w : world') i o : winv w -> nth_error (w_objs R w) i = Some (Some o) -> owns R (mo_core R o) ->
  paretoFront_of R w i = get_paretoFront R o.
Proof.
  intros I H Ow. unfold paretoFront_of, object. rewrite H. cbn [bind]. apply derefs_ext. intros j Hj. apply Ow in Hj. apply in_map_iff in Hj. destruct Hj as (x & <- & Hx).
  destruct (own_wf w i o I H) as (N & _ & Ic). rewrite !find_here; [reflexivity|exact N|exact Hx|exact (proj1 I)|apply Ic, Hx].
Qed.
End World.
