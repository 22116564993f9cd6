(** Proofs about several AOS objects in one program. *)
From Coq Require Import List Arith ZArith Bool Lia Permutation.
From Flocq Require Import BinarySingleNaN.
From Verif Require SolverCopyProofs MOGACopyProofs.
From Verif Require Import Base Fl Rng StdOps ListFacts Box GABase AOS AOSSpec AOSProofs AOSProofs2 AOSSafe AOSObj AOSObjProofs AOSCopy.
Import ListNotations.
Open Scope nat_scope.

Notation flat_split := MOGACopyProofs.flat_split.
Notation NoDup_apart := MOGACopyProofs.NoDup_apart.
Notation NoDup_disj := MOGACopyProofs.NoDup_disj.
Notation lt_nth := MOGACopyProofs.lt_nth.
Notation upd_nth := MOGACopyProofs.upd_nth.
Notation upd_nth_ne := MOGACopyProofs.upd_nth_ne.
Notation Ok_inj := MOGACopyProofs.Ok_inj.

(** * Copies of the electrons *)
Definition content (x : electron) := (estate x, energy x, ecomp x).
Lemma assign_ids (src : list electron) : forall ids n, map eid (assign_nodes ids n src) = firstn (length src) ids ++ seq n (length src - length ids).
Proof.
  induction src as [|x src IH]; intros [|k ids] n; cbn [assign_nodes map length firstn Nat.sub seq app eid]; try reflexivity; rewrite IH.
  - rewrite firstn_nil. cbn. rewrite Nat.sub_0_r. reflexivity.
  - reflexivity.
Qed.
Lemma copy_ids (src : list electron) n : map eid (assign_nodes [] n src) = seq n (length src).
Proof. rewrite assign_ids, firstn_nil. cbn. rewrite Nat.sub_0_r. reflexivity. Qed.
Lemma assign_content (src : list electron) : forall ids n, map content (assign_nodes ids n src) = map content src.
Proof. induction src as [|x src IH]; intros [|k ids] n; cbn [assign_nodes map]; try reflexivity; (rewrite IH; reflexivity). Qed.

(** * One object *)
Section One.
Context {R : rng_ops}.
Notation aos' := (aos (G R)).
Notation ids s := (map eid (electrons s)).
(** New nodes come from the allocator; what is pointed to is known. *)
Definition reaches (s s' : aos') : Prop :=
  named R s' /\ e_next s <= e_next s' /\ forall i, In i (ids s') -> In i (ids s) \/ e_next s <= i.
Definition own_layers (s : aos') : Prop := forall l p, In l (layers s) -> In p (members l) -> In p (ids s).
Definition settled (st : Prop) (s s' : aos') : Prop :=
  reaches s s' /\ own_layers s' /\ atomBest s' < e_next s' /\ (st -> In (atomBest s') (ids s')).
Lemma reaches_refl s : named R s -> reaches s s.
Proof. intros N. split; [exact N|]. split; [lia|auto]. Qed.
Lemma reaches_trans a b c : reaches a b -> reaches b c -> reaches a c.
Proof.
  intros (_ & N1 & I1) (W2 & N2 & I2). split; [exact W2|]. split; [lia|].
  intros i H. destruct (I2 i H) as [H'|H']; [apply I1, H'|right; lia].
Qed.
Lemma settled_after st a b c : reaches a b -> settled st b c -> settled st a c.
Proof. intros H (H1 & H2). split; [eapply reaches_trans; eassumption|exact H2]. Qed.

Context (E : env R) (opt : aos_option).
Hypothesis Hstd : std_ok (std E).
Notation st := (stable_at_front (std E)).
Lemma settle_settled s s' : named R s -> settle E opt s = Ok s' -> settled st s s'.
Proof.
  intros (N & L) H. destruct (named_settle R E opt s s' Hstd (conj N L) H) as (N' & _ & En).
  destruct (settle_kept E Hstd opt s s' N H) as (S1 & _).
  destruct (settle_facts E Hstd opt s s' N H) as (first & rest & sm & prev & best & sorted & t & ls & Hes & _ & Ib & _ & _ & NN & Pm & _ & _ & _ & Hl & Hel & _ & Hla & _ & Ha & _).
  assert (J : forall i, In i (map eid (evaluated E s)) -> In i (ids s)) by (intros i Hi; unfold evaluated in Hi; rewrite map_evaluate_id in Hi; exact Hi).
  split; [|split; [|split]].
  - split; [exact N'|]. split; [lia|]. intros i Hi. left. apply J. eapply sublist_in; [apply sublist_map, S1|exact Hi].
  - intros l p Hlx Hp. rewrite Hla in Hlx. apply in_map_iff in Hlx. destruct Hlx as (m & <- & Hm). cbn [members] in Hp.
    pose proof (make_layers_concat E _ _ _ Hl) as C. assert (I : In p (concat ls)) by (apply in_concat; exists m; auto). rewrite C in I.
    pose proof (survivors_perm (electronNum opt) sorted _ (nodup_evaluated E s N) Pm) as SP. rewrite <- Hel in SP.
    eapply Permutation_in; [apply Permutation_map, Permutation_sym, SP|exact I].
  - rewrite Ha, En. apply (in_map eid) in Ib. apply J in Ib. apply in_map_iff in Ib. destruct Ib as (x & <- & Hx). apply L, Hx.
  - intros Hst. destruct (settle_top E Hstd opt s s' Hst N H) as (b & Hb & Ib' & _). unfold bestElectron in Hb. apply deref_In in Hb. destruct Hb as (_ & <-). apply in_map, Ib'.
Qed.
Lemma excite_reaches s s' : named R s -> excite E opt s = Ok s' -> reaches s s'.
Proof.
  intros (N & L) H. destruct (excite_ids E opt s s' N L H) as (N2 & L2 & M2 & new & E2 & F2). split; [split; assumption|]. split; [exact M2|].
  intros i Hi. rewrite E2, map_app in Hi. apply in_app_or in Hi. destruct Hi as [Hi|Hi]; [left; exact Hi|]. right.
  apply in_map_iff in Hi. destruct Hi as (x & <- & Hx). apply F2, Hx.
Qed.
Lemma run_settled fuel : forall s s', named R s -> aos_run E opt fuel s = Ok s' -> settled st s s'.
Proof.
  induction fuel as [|n IH]; intros s s' N H; [discriminate H|]. cbn [aos_run] in H. apply bind_Ok in H. destruct H as (s1 & H1 & H).
  pose proof (settle_settled s s1 N H1) as S1. destruct (shouldTerminate opt s1); [apply Ok_inj in H; subst s'; exact S1|].
  apply bind_Ok in H. destruct H as (s2 & H2 & H). destruct S1 as (R1 & _). pose proof (excite_reaches s1 s2 (proj1 R1) H2) as R2.
  eapply settled_after; [exact R1|]. eapply settled_after; [exact R2|]. apply IH; [exact (proj1 R2)|exact H].
Qed.

(** ** The first round with another solver's best *)
Definition aim (p : nat) (s : aos') : aos' :=
  mkAOS (electrons s) (e_next s) (layers s) (b_state s) (b_energy s) p (a_gen s) (a_stop s) (a_record s) (a_rng s).
Definition restop (k : Z) (s : aos') : aos' :=
  mkAOS (electrons s) (e_next s) (layers s) (b_state s) (b_energy s) (atomBest s) (a_gen s) k (a_record s) (a_rng s).
Lemma settle_from_aim prev s s' : settle_from E opt prev s = Ok s' ->
  exists e t p s1 k, electrons s = e :: t /\ prev = Ok p /\ settle E opt (aim (eid e) s) = Ok s1 /\ s' = restop k s1.
Proof.
  unfold settle_from. intros H. apply bind_Ok in H. destruct H as (s1 & H1 & H). apply bind_Ok in H. destruct H as (s2 & H2 & H3).
  unfold computeAtom_from in H1. change (electrons (compute E s)) with (map (evaluate E) (electrons s)) in H1.
  destruct (electrons s) as [|e t] eqn:Es; [discriminate H1|]. cbn [map] in H1. fold (map (evaluate E) (e :: t)) in H1.
  apply bind_Ok in H1. destruct H1 as (sm & Hsm & H1). apply bind_Ok in H1. destruct H1 as (p & Hp & H1). apply Ok_inj in H1.
  exists e, t, p. unfold settle, computeAtom.
  change (electrons (compute E (aim (eid e) s))) with (map (evaluate E) (electrons s)). rewrite Es. cbn [map]. rewrite Hsm. cbn [bind].
  change (atomBest (compute E (aim (eid e) s))) with (eid e).
  assert (D : deref (evaluate E e :: map (evaluate E) t) (eid e) = Ok (evaluate E e)) by (unfold deref; cbn [find]; rewrite evaluate_id, Nat.eqb_refl; reflexivity).
  rewrite D. cbn [bind]. set (x := mkAOS _ _ _ _ _ _ _ _ _ _).
  assert (Ex : s1 = restop (a_stop s1) x) by (rewrite <- H1; reflexivity). clearbody x. clear H1. rewrite Ex in H2. generalize (a_stop s1) as k, H2. clear H2 Ex. intros k H2.
  assert (H2' : exists y, record_best E x = Ok y /\ s2 = restop k y).
  { unfold record_best in *. destruct (rec_on E); [|apply Ok_inj in H2; exists x; split; [reflexivity|symmetry; exact H2]].
    apply bind_Ok in H2. destruct H2 as (b & Hb & H2). cbn [restop electrons atomBest] in Hb. rewrite Hb. cbn [bind]. eexists. split; [reflexivity|]. apply Ok_inj in H2. subst s2. reflexivity. }
  destruct H2' as (y & Hy & ->). rewrite Hy. cbn [bind].
  assert (H3' : exists z, selectAndMakeLayers E opt y = Ok z /\ s' = restop k z).
  { unfold selectAndMakeLayers in *. cbn [restop electrons a_rng] in H3. destruct (existsb _ _); [discriminate H3|]. destruct (randIdx2 R 1 _ (a_rng y)) as [c g].
    apply bind_Ok in H3. destruct H3 as (ls & Hls & H3). rewrite Hls. cbn [bind]. eexists. split; [reflexivity|]. apply Ok_inj in H3. subst s'. reflexivity. }
  destruct H3' as (z & Hz & ->). exists z, k. auto.
Qed.
Lemma settle_from_settled prev s s' : named R s -> settle_from E opt prev s = Ok s' -> settled st s s'.
Proof.
  intros N H. apply settle_from_aim in H. destruct H as (e & t & p & s1 & k & _ & _ & H & ->).
  pose proof (settle_settled (aim (eid e) s) s1 N H) as S. exact S.
Qed.
(** Without the old best there is no first round. *)
Lemma settle_from_gone s : electrons s <> [] -> (forall e e', In e (electrons s) -> In e' (electrons s) -> length (estate e) = length (estate e')) -> settle_from E opt UB s = UB.
Proof.
  intros Ne U. unfold settle_from, computeAtom_from. change (electrons (compute E s)) with (map (evaluate E) (electrons s)).
  destruct (electrons s) as [|e t]; [contradiction|]. cbn [map]. fold (map (evaluate E) (e :: t)).
  assert (H : forall es acc, (forall x, In x es -> length acc = length (estate x)) -> exists sm, sum_states E acc es = Ok sm).
  { induction es as [|x es IH]; intros acc Ha; cbn [sum_states]; [eauto|]. unfold vec. rewrite (Ha x (or_introl eq_refl)), Nat.eqb_refl. cbn [bind]. apply IH.
    intros y Hy. assert (Z2 : forall f a b, length a = length b -> length (zip2 f a b) = length a).
    { clear. intros f a. induction a as [|u a IH]; intros [|v b] H; cbn in *; try discriminate; [reflexivity|]. rewrite IH by lia. reflexivity. }
    rewrite Z2 by (apply Ha; left; reflexivity). apply Ha. right; exact Hy. }
  destruct (H (evaluate E e :: map (evaluate E) t) (map (fun _ => d0) (estate (evaluate E e)))) as (sm & Hsm).
  { intros x Hx. rewrite map_length, evaluate_state. change (In x (map (evaluate E) (e :: t))) in Hx. apply in_map_iff in Hx. destruct Hx as (y & <- & Hy). rewrite evaluate_state. apply U; [left; reflexivity|exact Hy]. }
  rewrite Hsm. reflexivity.
Qed.
End One.

(** * Several objects *)
Section World.
Context {A : Type} (R : rng_ops) (E0 : env R) (norm : G R -> double * G R).
Notation obj' := (@obj A R).
Notation world' := (world (A := A) R).
Notation wstep' := (wstep R E0 norm).
Notation wdrive' := (wdrive R E0 norm).
Notation lp := (live R).
Notation es o := (electrons (o_aos R o)).
Notation heap_ids w := (map eid (heap R w)).

Definition obj_ok (n : nat) (o : obj') : Prop :=
  (o_inited R o = true -> atomBest (o_aos R o) < n) /\ forall l p, In l (layers (o_aos R o)) -> In p (members l) -> p < n.
(** All electrons of all objects are different, and no pointer holds an address the
    allocator has yet to give. *)
Definition winv (w : world') : Prop :=
  NoDup (heap_ids w) /\ (forall i, In i (heap_ids w) -> i < w_next R w) /\
  (forall j o, nth_error (w_objs R w) j = Some (Some o) -> obj_ok (w_next R w) o).
Lemma obj_ok_le n m o : n <= m -> obj_ok n o -> obj_ok m o.
Proof. intros L (H1 & H2). split; [intros Hi; specialize (H1 Hi); lia|]. intros l p Hl Hp. specialize (H2 l p Hl Hp). lia. Qed.

Lemma put_inv (w : world') i x y n :
  NoDup (heap_ids w) -> (forall j, In j (heap_ids w) -> j < w_next R w) ->
  nth_error (w_objs R w) i = Some x -> NoDup (map eid (lp y)) ->
  (forall j, In j (map eid (lp y)) -> In j (map eid (lp x)) \/ w_next R w <= j) ->
  (forall j, In j (map eid (lp y)) -> j < n) -> w_next R w <= n ->
  let ids' := map eid (flat_map lp (upd (w_objs R w) i y)) in
  NoDup ids' /\ (forall j, In j ids' -> j < n) /\ (forall j, In j ids' -> In j (heap_ids w) \/ w_next R w <= j).
Proof.
  intros N L Hx Ny I Ln Hn. cbv zeta. destruct (flat_split lp _ _ _ Hx) as (r & P1 & P2). specialize (P2 y).
  apply (Permutation_map eid) in P1. apply (Permutation_map eid) in P2. rewrite map_app in P1, P2. unfold heap in *.
  pose proof (Permutation_NoDup P1 N) as N1. pose proof (NoDup_app_r _ _ N1) as No.
  assert (Lo : forall j, In j (map eid r) -> j < w_next R w).
  { intros j Hj. apply L. eapply Permutation_in; [apply Permutation_sym, P1|]. apply in_or_app. right; exact Hj. }
  split; [|split].
  - eapply Permutation_NoDup; [apply Permutation_sym, P2|]. apply NoDup_disj; [exact Ny|exact No|].
    intros j Hj C. destruct (I j Hj) as [Hj'|Hj']; [exact (NoDup_apart _ _ _ N1 Hj' C)|apply Lo in C; lia].
  - intros j Hj. eapply Permutation_in in Hj; [|exact P2]. apply in_app_or in Hj. destruct Hj as [Hj|Hj]; [auto|apply Lo in Hj; lia].
  - intros j Hj. eapply Permutation_in in Hj; [|exact P2]. apply in_app_or in Hj. destruct Hj as [Hj|Hj].
    + destruct (I j Hj) as [Hj'|Hj']; [left|right; exact Hj']. eapply Permutation_in; [apply Permutation_sym, P1|]. apply in_or_app; left; exact Hj'.
    + left. eapply Permutation_in; [apply Permutation_sym, P1|]. apply in_or_app; right; exact Hj.
Qed.
Lemma own_named (w : world') i o : winv w -> nth_error (w_objs R w) i = Some (Some o) ->
  NoDup (map eid (es o)) /\ (forall x, In x (es o) -> eid x < w_next R w) /\ incl (es o) (heap R w).
Proof.
  intros (N & L & _) H. destruct (flat_split lp _ _ _ H) as (r & P & _). cbn [live] in P.
  assert (I : incl (es o) (heap R w)) by (intros x Hx; eapply Permutation_in; [apply Permutation_sym, P|]; apply in_or_app; left; exact Hx).
  split; [|split; [|exact I]].
  - apply (Permutation_map eid) in P. eapply Permutation_NoDup in N; [|exact P]. rewrite map_app in N. apply NoDup_app_l in N. exact N.
  - intros x Hx. apply L, in_map, I, Hx.
Qed.

Definition own_best (o : obj') : Prop := In (atomBest (o_aos R o)) (map eid (es o)).
(** What a call may do to the addresses. *)
Lemma call_reaches (w : world') (o o' : obj') c : std_ok (std E0) -> named R (o_aos R (load R (w_next R w) (w_rng R w) o)) -> obj_ok (w_next R w) o -> wcall R E0 norm w o c = Ok o' ->
  reaches (o_aos R (load R (w_next R w) (w_rng R w) o)) (o_aos R o') /\ obj_ok (e_next (o_aos R o')) o' /\
  (c = Run R \/ c = InitializePop R -> own_layers (o_aos R o')) /\ (c = InitializePop R \/ c = Run R /\ stable_at_front (std E0) -> own_best o') /\
  (c = InitializePop R -> o_inited R o' = true /\ layers (o_aos R o') = [] /\ forall i, In i (map eid (es o')) -> w_next R w <= i).
Proof.
  intros Hs N (K1 & K2) H. set (o1 := load R (w_next R w) (w_rng R w) o) in *.
  assert (Set_ : o_inited R o' = o_inited R o1 -> electrons (o_aos R o') = electrons (o_aos R o1) -> e_next (o_aos R o') = e_next (o_aos R o1) ->
    atomBest (o_aos R o') = atomBest (o_aos R o1) -> layers (o_aos R o') = layers (o_aos R o1) -> reaches (o_aos R o1) (o_aos R o') /\ obj_ok (e_next (o_aos R o')) o').
  { intros E1 E2 E3 E4 E5. split.
    - unfold reaches, named in *. rewrite E2, E3. split; [exact N|]. split; [lia|auto].
    - unfold obj_ok. rewrite E1, E3, E4, E5. split; [exact K1|exact K2]. }
  destruct c as [bc|p|p|ff|a1|g1| |]; cbn [wcall] in H; fold o1 in H.
  1-6: cbn [step] in H; try (apply bind_Ok in H; destruct H as (m1 & _ & H)); apply Ok_inj in H; subst o';
    destruct (Set_ eq_refl eq_refl eq_refl eq_refl eq_refl) as (S1 & S2); split; [exact S1|split; [exact S2|]];
    split; [intros [D|D]; discriminate D|split; [intros [D|(D & _)]; discriminate D|intros D; discriminate D]].
  - destruct (inited R E0 norm o1 o' H) as (i & s & Hi & -> & _). pose proof (init_fine R _ _ _ _ Hi) as (Nd & L & _ & (b & Hb) & _). cbn [o_aos].
    assert (La : layers s = []). { unfold aos_initializePop in Hi. destruct (negb _); [discriminate Hi|]. destruct (init_electrons _ _ _ _) as [ee g]. destruct ee; [discriminate Hi|]. apply Ok_inj in Hi. subst s. reflexivity. }
    assert (En : e_next (o_aos R o1) <= e_next s). { unfold bestElectron in Hb. apply deref_In in Hb. destruct Hb as (Hb & _). apply L in Hb. lia. }
    unfold bestElectron in Hb. apply deref_In in Hb. destruct Hb as (Ib & Eb).
    split; [|split; [|split; [|split]]].
    + split; [split; [exact Nd|intros e He; apply L, He]|]. split; [exact En|]. intros j Hj. right. apply in_map_iff in Hj. destruct Hj as (x & <- & Hx). apply L, Hx.
    + split; cbn [o_inited o_aos]; [intros _; rewrite <- Eb; apply L, Ib|]. rewrite La. intros l q [].
    + intros _ l q Hl. rewrite La in Hl. destruct Hl.
    + intros _. unfold own_best. cbn [o_aos]. rewrite <- Eb. apply in_map, Ib.
    + intros _. split; [reflexivity|]. split; [exact La|]. intros j Hj. apply in_map_iff in Hj. destruct Hj as (x & <- & Hx). apply L in Hx. exact (proj2 Hx).
  - unfold run_from in H. cbv zeta in H. destruct (_ && existsb _ _); [discriminate H|]. apply bind_Ok in H. destruct H as (s1 & H1 & H).
    apply (settle_from_settled (env_in R E0 o1) (o_opt R o1) Hs) in H1; [|exact N].
    assert (F : forall s', settled (stable_at_front (std E0)) (o_aos R o1) s' -> o' = mkObj R (o_opt R o1) (o_box R o1) (o_i R o1) (o_f R o1) (o_args R o1) s' (o_inited R o1) true ->
      reaches (o_aos R o1) (o_aos R o') /\ obj_ok (e_next (o_aos R o')) o' /\ ((Run R : call (A := A) R) = Run R \/ (Run R : call (A := A) R) = InitializePop R -> own_layers (o_aos R o')) /\
      ((Run R : call (A := A) R) = InitializePop R \/ (Run R : call (A := A) R) = Run R /\ stable_at_front (std E0) -> own_best o') /\
      ((Run R : call (A := A) R) = InitializePop R -> o_inited R o' = true /\ layers (o_aos R o') = [] /\ forall i, In i (map eid (es o')) -> w_next R w <= i)).
    { intros s' (S1 & S2 & S3 & S4) ->. cbn [o_aos]. split; [exact S1|]. split; [|split; [intros _; exact S2|split; [intros [D|(_ & D)]; [discriminate D|exact (S4 D)]|intros D; discriminate D]]].
      split; cbn [o_inited o_aos]; [intros _; exact S3|]. intros l q Hl Hq. specialize (S2 l q Hl Hq). apply in_map_iff in S2. destruct S2 as (x & <- & Hx). apply (proj1 S1), Hx. }
    destruct (shouldTerminate _ s1); [apply Ok_inj in H; apply (F s1 H1); symmetry; exact H|].
    apply bind_Ok in H. destruct H as (b & _ & H). apply bind_Ok in H. destruct H as (s2 & H2 & H). destruct (match o_f R o1 with None => _ | Some _ => _ end); [discriminate H|].
    apply bind_Ok in H. destruct H as (s3 & H3 & H). apply Ok_inj in H. apply (F s3); [|symmetry; exact H].
    destruct H1 as (R1 & _). pose proof (excite_reaches (env_with R E0 b (no_init R) (fun_in R o1)) (o_opt R o1) s1 s2 (proj1 R1) H2) as R2.
    eapply settled_after; [exact R1|]. eapply settled_after; [exact R2|].
    exact (run_settled (env_with R E0 b (no_init R) (fun_in R o1)) (o_opt R o1) Hs _ s2 s3 (proj1 R2) H3).
Qed.
Lemma load_named (w : world') i o : winv w -> nth_error (w_objs R w) i = Some (Some o) -> named R (o_aos R (load R (w_next R w) (w_rng R w) o)) /\ obj_ok (w_next R w) o.
Proof. intros I H. destruct (own_named w i o I H) as (N & L & _). split; [split; [exact N|exact L]|]. exact (proj2 (proj2 I) i o H). Qed.

(** Move assignment frees the electrons of the destination and nothing else. *)
Lemma move_to_heap (w : world') i j d s : i <> j -> nth_error (w_objs R w) i = Some (Some d) -> nth_error (w_objs R w) j = Some (Some s) ->
  exists r, Permutation (heap R w) (es s ++ es d ++ r) /\ Permutation (flat_map lp (upd (upd (w_objs R w) j None) i (Some s))) (es s ++ r).
Proof.
  intros Hij Hi Hj. destruct (flat_split lp _ _ _ Hj) as (r1 & P1 & P2). cbn [live] in P1. specialize (P2 None). cbn [live app] in P2.
  assert (Hi' : nth_error (upd (w_objs R w) j None) i = Some (Some d)) by (rewrite upd_nth_ne by congruence; exact Hi).
  destruct (flat_split lp _ _ _ Hi') as (r2 & P3 & P4). cbn [live] in P3. specialize (P4 (Some s)). cbn [live] in P4.
  exists r2. split; [|exact P4]. unfold heap. rewrite P1. apply Permutation_app_head. rewrite <- P3. symmetry. exact P2.
Qed.
(** A swap frees nothing. *)
Lemma swap_heap (w : world') i j a b : nth_error (w_objs R w) i = Some (Some a) -> nth_error (w_objs R w) j = Some (Some b) ->
  Permutation (flat_map lp (upd (upd (w_objs R w) i (Some b)) j (Some a))) (heap R w).
Proof.
  intros Hi Hj. unfold heap. destruct (Nat.eq_dec i j) as [<-|Hij].
  - assert (a = b) by congruence. subst b. destruct (flat_split lp _ _ _ Hi) as (r1 & P1 & P2).
    assert (Hi' : nth_error (upd (w_objs R w) i (Some a)) i = Some (Some a)) by (apply upd_nth; eapply lt_nth, Hi).
    destruct (flat_split lp _ _ _ Hi') as (r2 & P3 & P4). rewrite (P4 (Some a)), <- P3, (P2 (Some a)), P1. reflexivity.
  - destruct (flat_split lp _ _ _ Hi) as (r1 & P1 & P2).
    assert (Hj' : nth_error (upd (w_objs R w) i None) j = Some (Some b)) by (rewrite upd_nth_ne by exact Hij; exact Hj).
    assert (Hj2 : nth_error (upd (w_objs R w) i (Some b)) j = Some (Some b)) by (rewrite upd_nth_ne by exact Hij; exact Hj).
    destruct (flat_split lp _ _ _ Hj') as (r2 & P3 & P4). destruct (flat_split lp _ _ _ Hj2) as (r3 & P5 & P6).
    pose proof (P2 None) as Q1. cbn [live app] in Q1. rewrite P3 in Q1. (* es b ++ r2 ~ r1 *)
    pose proof (P2 (Some b)) as Q2. rewrite P5 in Q2. apply Permutation_app_inv_l in Q2. (* r3 ~ r1 *)
    rewrite (P6 (Some a)), P1, Q2. reflexivity.
Qed.
Lemma wstep_inv (w w' : world') e : std_ok (std E0) -> winv w -> wstep' w e = Ok w' ->
  winv w' /\ w_next R w <= w_next R w' /\ (forall j, In j (heap_ids w') -> In j (heap_ids w) \/ w_next R w <= j).
Proof.
  intros Hs I H. pose proof I as (N & L & E).
  assert (Snoc : forall o' n g, w_next R w <= n -> obj_ok n o' -> NoDup (map eid (es o')) ->
    (forall j, In j (map eid (es o')) -> w_next R w <= j < n) -> w' = mkW R (w_objs R w ++ [Some o']) n g ->
    winv w' /\ w_next R w <= w_next R w' /\ (forall j, In j (heap_ids w') -> In j (heap_ids w) \/ w_next R w <= j)).
  { intros o' n g Hn Ok' No Lo ->. unfold winv, heap in *. cbn [w_objs w_next]. rewrite flat_map_app, map_app. cbn [flat_map live]. rewrite app_nil_r. split; [split; [|split]|split; [exact Hn|]].
    - apply NoDup_disj; [exact N|exact No|]. intros x Hx C. apply L in Hx. apply Lo in C. lia.
    - intros x Hx. apply in_app_or in Hx. destruct Hx as [Hx|Hx]; [apply L in Hx; lia|apply Lo in Hx; lia].
    - intros j o Hj. destruct (Nat.lt_ge_cases j (length (w_objs R w))); [rewrite nth_error_app1 in Hj by assumption; eapply obj_ok_le; [exact Hn|eapply E, Hj]|].
      rewrite nth_error_app2 in Hj by assumption. destruct (j - length (w_objs R w)) as [|[|?]]; cbn in Hj; try discriminate Hj. inversion Hj; subst o. exact Ok'.
    - intros x Hx. apply in_app_or in Hx. destruct Hx as [Hx|Hx]; [left; exact Hx|right; apply Lo in Hx; lia]. }
  assert (Upd : forall i x y n g, nth_error (w_objs R w) i = Some x -> NoDup (map eid (lp y)) ->
    (forall j, In j (map eid (lp y)) -> In j (map eid (lp x)) \/ w_next R w <= j) -> (forall j, In j (map eid (lp y)) -> j < n) -> w_next R w <= n ->
    (forall o', y = Some o' -> obj_ok n o') -> w' = mkW R (upd (w_objs R w) i y) n g ->
    winv w' /\ w_next R w <= w_next R w' /\ (forall j, In j (heap_ids w') -> In j (heap_ids w) \/ w_next R w <= j)).
  { intros i x y n g Hx Ny Iy Ly Hn Oy ->. destruct (put_inv w i x y n N L Hx Ny Iy Ly Hn) as (P1 & P2 & P3). unfold winv, heap. cbn [w_objs w_next].
    split; [split; [exact P1|split; [exact P2|]]|split; [exact Hn|exact P3]]. intros j o Hj. destruct (Nat.eq_dec i j) as [<-|Hne].
    - rewrite upd_nth in Hj by (eapply lt_nth, Hx). inversion Hj. auto.
    - rewrite upd_nth_ne in Hj by exact Hne. eapply obj_ok_le; [exact Hn|eapply E, Hj]. }
  destruct e as [b fi f a|i|i|i j|i j|i j|i|i c]; cbn [wstep] in H.
  - apply Ok_inj in H. eapply (Snoc (fresh R E0 b fi f a (w_rng R w)) (w_next R w)); [lia| |constructor|intros ? []|symmetry; exact H].
    split; [intros D; discriminate D|intros l p []].
  - destruct (nth_error (w_objs R w) i) as [[o|]|] eqn:Ei; try discriminate H. apply Ok_inj in H. pose proof (E i o Ei) as O.
    eapply (Snoc (assign_obj R (w_next R w) (w_rng R w) [] o) (w_next R w + length (es o))); [lia| | | |symmetry; exact H].
    + apply (obj_ok_le (w_next R w)); [lia|exact O].
    + cbn [assign_obj with_aos with_electrons o_aos electrons]. rewrite copy_ids. apply seq_NoDup.
    + cbn [assign_obj with_aos with_electrons o_aos electrons]. rewrite copy_ids. intros x Hx. apply in_seq in Hx. lia.
  - destruct (nth_error (w_objs R w) i) as [[o|]|] eqn:Ei; try discriminate H. apply Ok_inj in H. subst w'.
    assert (P : Permutation (heap R (mkW R (upd (w_objs R w) i None ++ [Some o]) (w_next R w) (w_rng R w))) (heap R w)).
    { unfold heap. cbn [w_objs]. rewrite flat_map_app. cbn [flat_map live]. rewrite app_nil_r. destruct (flat_split lp _ _ _ Ei) as (r & P1 & P2). rewrite (P2 None), P1. cbn [live app]. apply Permutation_app_comm. }
    pose proof (Permutation_map eid P) as Pe. split; [split; [|split]|split; [cbn; lia|]].
    + eapply Permutation_NoDup; [apply Permutation_sym, Pe|exact N].
    + intros x Hx. apply L. eapply Permutation_in; [exact Pe|exact Hx].
    + cbn [w_objs w_next]. intros j q Hj. pose proof (lt_nth _ _ _ Ei) as Li. destruct (Nat.lt_ge_cases j (length (w_objs R w))) as [Hl|Hl].
      * rewrite nth_error_app1 in Hj by (rewrite SolverCopyProofs.upd_len; exact Hl). destruct (Nat.eq_dec i j) as [<-|Hne]; [rewrite upd_nth in Hj by exact Hl; discriminate Hj|].
        rewrite upd_nth_ne in Hj by exact Hne. exact (E j q Hj).
      * rewrite nth_error_app2 in Hj by (rewrite SolverCopyProofs.upd_len; exact Hl). destruct (j - _) as [|[|?]]; cbn in Hj; try discriminate Hj. inversion Hj; subst q. exact (E i o Ei).
    + intros x Hx. left. eapply Permutation_in; [exact Pe|exact Hx].
  - destruct (nth_error (w_objs R w) i) as [[d|]|] eqn:Ei; try discriminate H. destruct (nth_error (w_objs R w) j) as [[s|]|] eqn:Ej; try discriminate H.
    destruct (Nat.eqb_spec i j) as [->|Hij]; apply Ok_inj in H.
    { subst w'. split; [exact I|]. split; [lia|auto]. }
    pose proof (E j s Ej) as O. destruct (own_named w i d I Ei) as (Nd & Ld & _).
    eapply (Upd i (Some d)); [exact Ei| | | | | |symmetry; exact H]; cbn [live assign_obj with_aos with_electrons o_aos electrons]; rewrite ?assign_ids.
    + apply NoDup_disj; [eapply sublist_NoDup; [apply sublist_firstn|exact Nd]|apply seq_NoDup|].
      intros x Hx C. eapply sublist_in in Hx; [|apply sublist_firstn]. apply in_map_iff in Hx. destruct Hx as (y & <- & Hy). apply Ld in Hy. apply in_seq in C. lia.
    + intros x Hx. apply in_app_or in Hx. destruct Hx as [Hx|Hx]; [left; eapply sublist_in in Hx; [exact Hx|apply sublist_firstn]|right; apply in_seq in Hx; lia].
    + intros x Hx. apply in_app_or in Hx. destruct Hx as [Hx|Hx].
      * eapply sublist_in in Hx; [|apply sublist_firstn]. apply in_map_iff in Hx. destruct Hx as (y & <- & Hy). apply Ld in Hy. lia.
      * apply in_seq in Hx. lia.
    + lia.
    + intros o' Ho. inversion Ho; subst o'. apply (obj_ok_le (w_next R w)); [lia|exact O].
  - destruct (nth_error (w_objs R w) i) as [[d|]|] eqn:Ei; try discriminate H. destruct (nth_error (w_objs R w) j) as [[s|]|] eqn:Ej; try discriminate H.
    destruct (Nat.eqb_spec i j) as [Hij|Hij]; [discriminate H|]. apply Ok_inj in H. subst w'.
    destruct (move_to_heap w i j d s Hij Ei Ej) as (r & P1 & P2). apply (Permutation_map eid) in P1. apply (Permutation_map eid) in P2. rewrite map_app, map_app in P1. rewrite map_app in P2.
    set (w' := mkW R _ _ _) in *. pose proof (Permutation_NoDup P1 N) as N1.
    assert (Sub : forall x, In x (heap_ids w') -> In x (heap_ids w)).
    { intros x Hx. eapply Permutation_in in Hx; [|exact P2]. eapply Permutation_in; [apply Permutation_sym, P1|]. apply in_app_or in Hx. apply in_or_app. destruct Hx as [Hx|Hx]; [left; exact Hx|right; apply in_or_app; right; exact Hx]. }
    split; [split; [|split]|split; [cbn; lia|]].
    + eapply Permutation_NoDup; [apply Permutation_sym, P2|]. apply NoDup_disj; [exact (NoDup_app_l _ _ N1)|exact (NoDup_app_r _ _ (NoDup_app_r _ _ N1))|].
      intros x Hx C. apply (NoDup_apart _ _ x N1 Hx). apply in_or_app. right; exact C.
    + intros x Hx. apply L, Sub, Hx.
    + cbn [w' w_objs w_next]. intros l q Hl. destruct (Nat.eq_dec i l) as [<-|Hne].
      * rewrite upd_nth in Hl by (rewrite SolverCopyProofs.upd_len; eapply lt_nth, Ei). inversion Hl; subst q. exact (E j s Ej).
      * rewrite upd_nth_ne in Hl by exact Hne. destruct (Nat.eq_dec j l) as [<-|Hnj]; [rewrite upd_nth in Hl by (eapply lt_nth, Ej); discriminate Hl|].
        rewrite upd_nth_ne in Hl by exact Hnj. exact (E l q Hl).
    + intros x Hx. left. apply Sub, Hx.
  - destruct (nth_error (w_objs R w) i) as [[a|]|] eqn:Ei; try discriminate H. destruct (nth_error (w_objs R w) j) as [[b|]|] eqn:Ej; try discriminate H.
    apply Ok_inj in H. subst w'. pose proof (Permutation_map eid (swap_heap w i j a b Ei Ej)) as P. set (w' := mkW R _ _ _) in *. change (flat_map _ _) with (heap R w') in P.
    split; [split; [|split]|split; [cbn; lia|]].
    + eapply Permutation_NoDup; [apply Permutation_sym, P|exact N].
    + intros x Hx. apply L. eapply Permutation_in; [exact P|exact Hx].
    + cbn [w' w_objs w_next]. intros l q Hl. destruct (Nat.eq_dec j l) as [<-|Hne].
      * rewrite upd_nth in Hl by (rewrite SolverCopyProofs.upd_len; eapply lt_nth, Ej). inversion Hl; subst q. exact (E i a Ei).
      * rewrite upd_nth_ne in Hl by exact Hne. destruct (Nat.eq_dec i l) as [<-|Hni]; [rewrite upd_nth in Hl by (eapply lt_nth, Ei); inversion Hl; subst q; exact (E j b Ej)|].
        rewrite upd_nth_ne in Hl by exact Hni. exact (E l q Hl).
    + intros x Hx. left. eapply Permutation_in; [exact P|exact Hx].
  - destruct (nth_error (w_objs R w) i) as [[o|]|] eqn:Ei; try discriminate H. apply Ok_inj in H.
    eapply (Upd i (Some o) None (w_next R w)); [exact Ei|constructor|intros ? []|intros ? []|lia|discriminate|symmetry; exact H].
  - destruct (nth_error (w_objs R w) i) as [[o|]|] eqn:Ei; try discriminate H. apply bind_Ok in H. destruct H as (o' & H1 & H). apply Ok_inj in H.
    destruct (load_named w i o I Ei) as (W1 & O1). apply call_reaches in H1; [|exact Hs|exact W1|exact O1].
    destruct H1 as (((Nd' & Ld') & Hn & Hi) & O2 & _). cbn [load with_aos with_electrons o_aos electrons e_next] in Hn, Hi.
    eapply (Upd i (Some o) (Some o')); [exact Ei|exact Nd'|exact Hi| |exact Hn| |symmetry; exact H].
    + cbn [live]. intros x Hx. apply in_map_iff in Hx. destruct Hx as (y & <- & Hy). apply Ld' in Hy. exact Hy.
    + intros o2 Ho. inversion Ho; subst o2. exact O2.
Qed.
Lemma start_inv g : winv (start R g).
Proof. split; [constructor|]. split; [intros i []|]. intros [|j] o H; discriminate H. Qed.
Lemma wdrive_inv h : std_ok (std E0) -> forall w w', winv w -> wdrive' w h = Ok w' ->
  winv w' /\ w_next R w <= w_next R w' /\ (forall j, In j (heap_ids w') -> In j (heap_ids w) \/ w_next R w <= j).
Proof.
  intros Hs. induction h as [|e h IH]; intros w w' I H; cbn [wdrive] in H; [apply Ok_inj in H; subst; auto|].
  apply bind_Ok in H. destruct H as (w1 & H1 & H2). destruct (wstep_inv w w1 e Hs I H1) as (I1 & N1 & A1).
  destruct (IH w1 w' I1 H2) as (I2 & N2 & A2).
  split; [exact I2|]. split; [lia|]. intros j Hj. destruct (A2 j Hj) as [Hj'|Hj']; [apply A1, Hj'|right; lia].
Qed.

(** ** Events that are not about object [i] *)
Definition about (i : nat) (e : event (A := A) R) : bool :=
  match e with
  | Construct _ _ _ _ _ | CopyOf _ _ => false
  | MoveOf _ j | AssignTo _ j _ | Destroy _ j | Call _ j _ => (j =? i)%nat
  | MoveTo _ j k | Swap _ j k => (j =? i)%nat || (k =? i)%nat
  end.
Lemma wstep_other (w w' : world') e i : about i e = false -> i < length (w_objs R w) -> wstep' w e = Ok w' ->
  nth_error (w_objs R w') i = nth_error (w_objs R w) i /\ length (w_objs R w) <= length (w_objs R w').
Proof.
  intros Ha Hk H. destruct e as [b fi f a|j|j|j l|j l|j l|j|j c]; cbn [wstep about] in *.
  - apply Ok_inj in H; subst w'. cbn [w_objs]. rewrite nth_error_app1 by exact Hk. rewrite app_length. split; [reflexivity|lia].
  - destruct (nth_error (w_objs R w) j) as [[o|]|]; try discriminate H. apply Ok_inj in H; subst w'. cbn [w_objs]. rewrite nth_error_app1 by exact Hk. rewrite app_length. split; [reflexivity|lia].
  - destruct (nth_error (w_objs R w) j) as [[o|]|]; try discriminate H. apply Ok_inj in H; subst w'. apply Nat.eqb_neq in Ha. cbn [w_objs]. rewrite nth_error_app1, upd_nth_ne by (rewrite ?SolverCopyProofs.upd_len; assumption).
    rewrite app_length, SolverCopyProofs.upd_len. split; [reflexivity|lia].
  - destruct (nth_error (w_objs R w) j) as [[d|]|]; try discriminate H. destruct (nth_error (w_objs R w) l) as [[s|]|]; try discriminate H.
    apply Nat.eqb_neq in Ha. destruct (Nat.eqb j l); apply Ok_inj in H; subst w'; [auto|]. cbn [w_objs]. rewrite upd_nth_ne by exact Ha. rewrite SolverCopyProofs.upd_len. auto.
  - destruct (nth_error (w_objs R w) j) as [[d|]|]; try discriminate H. destruct (nth_error (w_objs R w) l) as [[s|]|]; try discriminate H.
    apply orb_false_elim in Ha. destruct Ha as (Ha & Hb). apply Nat.eqb_neq in Ha. apply Nat.eqb_neq in Hb. destruct (Nat.eqb j l); [discriminate H|]. apply Ok_inj in H; subst w'.
    cbn [w_objs]. rewrite !upd_nth_ne by assumption. rewrite !SolverCopyProofs.upd_len. auto.
  - destruct (nth_error (w_objs R w) j) as [[d|]|]; try discriminate H. destruct (nth_error (w_objs R w) l) as [[s|]|]; try discriminate H.
    apply orb_false_elim in Ha. destruct Ha as (Ha & Hb). apply Nat.eqb_neq in Ha. apply Nat.eqb_neq in Hb. apply Ok_inj in H; subst w'.
    cbn [w_objs]. rewrite !upd_nth_ne by assumption. rewrite !SolverCopyProofs.upd_len. auto.
  - destruct (nth_error (w_objs R w) j) as [[o|]|]; try discriminate H. apply Nat.eqb_neq in Ha. apply Ok_inj in H; subst w'. cbn [w_objs]. rewrite upd_nth_ne by exact Ha. rewrite SolverCopyProofs.upd_len. auto.
  - destruct (nth_error (w_objs R w) j) as [[o|]|]; try discriminate H. apply Nat.eqb_neq in Ha. apply bind_Ok in H. destruct H as (o' & _ & H).
    apply Ok_inj in H; subst w'. cbn [w_objs]. rewrite upd_nth_ne by exact Ha. rewrite SolverCopyProofs.upd_len. auto.
Qed.
Lemma wdrive_other h i : forallb (fun e => negb (about i e)) h = true -> forall w w', i < length (w_objs R w) -> wdrive' w h = Ok w' ->
  nth_error (w_objs R w') i = nth_error (w_objs R w) i.
Proof.
  induction h as [|e h IH]; intros Hh w w' Hk H; cbn [wdrive forallb] in *; [apply Ok_inj in H; subst; reflexivity|].
  apply andb_prop in Hh. destruct Hh as (He & Hh). apply negb_true_iff in He. apply bind_Ok in H. destruct H as (w1 & H1 & H2).
  destruct (wstep_other w w1 e i He Hk H1) as (E1 & L1). rewrite <- E1. apply IH; [exact Hh|lia|exact H2].
Qed.

(** Two objects have no electron in common. *)
Lemma objs_apart (w : world') i j oi oj x y : winv w -> i <> j -> nth_error (w_objs R w) i = Some (Some oi) -> nth_error (w_objs R w) j = Some (Some oj) ->
  In x (es oi) -> In y (es oj) -> eid x <> eid y.
Proof.
  intros (N & _) Hij Hi Hj Hx Hy E. destruct (flat_split lp _ _ _ Hi) as (r & P1 & P2). specialize (P2 None). cbn [live app] in P1, P2.
  apply (Permutation_map eid) in P1. rewrite map_app in P1. pose proof (Permutation_NoDup P1 N) as N1.
  apply (NoDup_apart _ _ (eid x) N1); [apply in_map, Hx|]. rewrite E. apply in_map. eapply Permutation_in; [exact P2|].
  apply in_flat_map. exists (Some oj). split; [|exact Hy]. apply nth_error_In with j. rewrite upd_nth_ne by exact Hij. exact Hj.
Qed.

(** ** Reading addresses *)
(** The own electrons suffice. *)
Lemma read_own (w : world') i o p : winv w -> nth_error (w_objs R w) i = Some (Some o) -> In p (map eid (es o)) -> deref (heap R w) p = deref (es o) p.
Proof.
  intros I H Hp. apply in_map_iff in Hp. destruct Hp as (x & <- & Hx). destruct (own_named w i o I H) as (N & _ & Ic).
  rewrite (deref_ok _ _ N Hx). apply deref_ok; [exact (proj1 I)|apply Ic, Hx].
Qed.
Lemma mapM_ext {S T} (f g : S -> res T) l : (forall x, In x l -> f x = g x) -> mapM f l = mapM g l.
Proof. induction l as [|x l IH]; intros H; cbn [mapM]; [reflexivity|]. rewrite (H x (or_introl eq_refl)), IH; [reflexivity|]. intros y Hy. apply H. right; exact Hy. Qed.
(** Two heaps that agree wherever the solver points. *)
Lemma queries_frame (w w' : world') i j o o' : nth_error (w_objs R w) i = Some (Some o) -> nth_error (w_objs R w') j = Some (Some o') ->
  atomBest (o_aos R o') = atomBest (o_aos R o) -> layers (o_aos R o') = layers (o_aos R o) -> o_inited R o' = o_inited R o ->
  (forall p, ((o_inited R o = true /\ p = atomBest (o_aos R o)) \/ exists l, In l (layers (o_aos R o)) /\ In p (members l)) -> deref (heap R w') p = deref (heap R w) p) ->
  bestElectron_of R w' j = bestElectron_of R w i /\ layers_of R w' j = layers_of R w i.
Proof.
  intros Hi Hj E1 E2 E3 H. unfold bestElectron_of, layers_of, object. rewrite Hi, Hj. cbn [bind]. rewrite E1, E2, E3. split.
  - destruct (o_inited R o) eqn:Ei; [|reflexivity]. apply H. left. auto.
  - apply mapM_ext. intros l Hl. apply mapM_ext. intros p Hp. apply H. right. exists l. auto.
Qed.
End World.
