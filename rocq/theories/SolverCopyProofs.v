(** Proofs about several SOGA objects in one program. *)
From Coq Require Import List Arith ZArith Bool Lia Permutation FunctionalExtensionality.
From Flocq Require Import BinarySingleNaN.
From Verif Require Import Base Fl Rng StdOps ListFacts GABase GAOpsProofs SOGA SOGAProofs SOGAProofs2 SOGAProofs6 SOGAObj SolverCopy.
Import ListNotations.
Open Scope nat_scope.

Section S.
Context {V : Type} (R : rng_ops) (std : std_ops) (greater : bool) (opt : ga_option) (sp : sel_params).
Notation core' := (core V double nat (G R)).
Notation gene' := (gene V double).
Notation ids c := (map gid (pop c)).

(** New nodes come from the allocator. *)
Definition grows (c c' : core') : Prop :=
  wf c' /\ next c <= next c' /\ forall i, In i (ids c') -> In i (ids c) \/ next c <= i.
Definition owns (c : core') : Prop := In (ext c) (ids c).

Lemma grows_refl (c : core') : wf c -> grows c c.
Proof. intros W. split; [exact W|]. split; [lia|]. intros i H. left. exact H. Qed.
Lemma grows_trans (a b c : core') : grows a b -> grows b c -> grows a c.
Proof.
  intros (W1 & N1 & I1) (W2 & N2 & I2). split; [exact W2|]. split; [lia|].
  intros i H. destruct (I2 i H) as [H'|H']; [|right; lia]. apply I1, H'.
Qed.

Lemma erase1_sub (p : list gene') : forall i p', erase1 p i = Ok p' -> sublist p' p.
Proof.
  induction p as [|x p IH]; intros i p' H; cbn [erase1] in H; [discriminate H|].
  destruct (Nat.eqb (gid x) i); [inversion H; subst; apply sub_skip, sublist_refl|].
  apply bind_Ok in H. destruct H as (t & H1 & H2). inversion H2; subst. apply sub_keep. eapply IH, H1.
Qed.
Lemma erase_all_sub is : forall (p p' : list gene'), erase_all p is = Ok p' -> sublist p' p.
Proof.
  induction is as [|i is IH]; intros p p' H; cbn [erase_all] in H; [inversion H; subst; apply sublist_refl|].
  apply bind_Ok in H. destruct H as (q & H1 & H2). eapply sublist_trans; [eapply IH, H2|eapply erase1_sub, H1].
Qed.
Lemma trunc_erase_K (q : list gene') : forall p p', trunc_erase opt p q = Ok p' -> (0 <= K opt)%Z.
Proof.
  induction q as [|w q IH]; intros p p' H; cbn [trunc_erase] in H; destruct (Z.ltb_spec (K opt) (Z.of_nat (length p))); try lia; [discriminate H|].
  apply bind_Ok in H. destruct H as (p1 & H1 & H2). eapply IH, H2.
Qed.

Lemma sub_grows (c c' : core') : wf c -> sublist (pop c') (pop c) -> next c' = next c -> grows c c'.
Proof.
  intros (N & L) S E. split; [split|].
  - eapply sublist_NoDup; [apply sublist_map, S|exact N].
  - intros x Hx. rewrite E. apply L. eapply sublist_in; eassumption.
  - split; [lia|]. intros i H. left. eapply sublist_in; [apply sublist_map, S|exact H].
Qed.
Lemma end2 (c c' : core') p g prev : wf c -> sublist p (pop c) ->
  updateFail2 R greater c p g (findCurrentBestGene greater p) prev = Ok c' -> grows c c' /\ owns c'.
Proof.
  intros W S H. apply updateFail2_spec in H. destruct H as (b & Hb & Hp & Hn & He & _ & _).
  apply find_best_spec in Hb. destruct Hb as (Ib & _). split; [apply sub_grows; [exact W|congruence|exact Hn]|].
  unfold owns. rewrite He, Hp. apply in_map, Ib.
Qed.
Lemma end1 rd (c c' : core') p g : wf c -> sublist p (pop c) ->
  updateFail1_via R greater rd c p g (findCurrentBestGene greater p) = Ok c' -> grows c c' /\ owns c'.
Proof.
  intros W S H. unfold updateFail1_via in H. apply bind_Ok in H. destruct H as (old & _ & H). eapply end2; eassumption.
Qed.
Lemma fin2 (c c' : core') es g prev : wf c -> finish2 R greater c es g prev = Ok c' -> grows c c' /\ owns c'.
Proof.
  intros W H. unfold finish2, applyErasement in H. apply bind_Ok in H. destruct H as (p' & H1 & H2).
  eapply end2; [exact W|eapply erase_all_sub, H1|exact H2].
Qed.
Lemma fin1 rd (c c' : core') es g : wf c -> finish1_via R greater rd c es g = Ok c' -> grows c c' /\ owns c'.
Proof.
  intros W H. unfold finish1_via, applyErasement in H. apply bind_Ok in H. destruct H as (p' & H1 & H2).
  eapply end1; [exact W|eapply erase_all_sub, H1|exact H2].
Qed.

Lemma select_via_grows rd m fuel (c c' : core') : std_ok std -> wf c ->
  select_via R std greater opt sp rd m fuel c = Ok c' -> grows c c' /\ owns c'.
Proof.
  intros Hstd W H. pose proof (sublist_refl (pop c)) as Sr. destruct m; cbn [select_via] in H.
  - unfold roulette_via in H. apply bind_Ok in H. destruct H as (prev & _ & H).
    destruct (_ <=? 0)%Z; [eapply end2; eassumption|]. apply bind_Ok in H. destruct H as ((es & g) & _ & H). eapply fin2; eassumption.
  - unfold tournament_via in H. destruct (negb _); [discriminate H|]. apply bind_Ok in H. destruct H as (prev & _ & H).
    destruct (_ <=? _)%Z; [eapply end2; eassumption|]. destruct (shuffle R (pop c) (gen_rng c)) as [space g1].
    apply bind_Ok in H. destruct H as ((ws & g2) & _ & H). apply bind_Ok in H. destruct H as (c1 & H1 & H2).
    set (kept := filter _ (pop c)) in *. set (extra := flat_map _ _) in *.
    apply updateFail2_spec in H1. destruct H1 as (b & Hb & Hp & _ & He & _ & _). apply find_best_spec in Hb. destruct Hb as (Ib & _).
    assert (Sk : sublist kept (pop c)) by apply sublist_filter. destruct W as (N & L).
    inversion H2; subst c'; clear H2. unfold owns, grows, wf. cbn [pop ext next]. rewrite Hp, He, map_app, copies_ids.
    split; [|apply in_or_app; left; apply in_map, Ib]. split; [split|split; [lia|]].
    + apply nodup_app_seq; [eapply sublist_NoDup; [apply sublist_map, Sk|exact N]|]. intros x Hx. apply L. eapply sublist_in; eassumption.
    + intros x Hx. apply in_app_or in Hx. destruct Hx as [Hx|Hx]; [specialize (L x (sublist_in _ _ _ Sk Hx)); lia|].
      apply (in_map gid) in Hx. rewrite copies_ids in Hx. apply in_seq in Hx. lia.
    + intros i Hi. apply in_app_or in Hi. destruct Hi as [Hi|Hi]; [left; eapply sublist_in; [apply sublist_map, Sk|exact Hi]|right; apply in_seq in Hi; lia].
  - unfold truncation_via in H. apply bind_Ok in H. destruct H as (sorted & Hs & H). apply bind_Ok in H. destruct H as (p' & Ht & H).
    pose proof (trunc_erase_K _ _ _ Ht) as HK. destruct (truncation_core R std greater opt c sorted p' Hstd W HK Hs Ht) as (a & b & Es & La & Ia & Sp & _).
    destruct (firstn (length p') sorted) as [|x l] eqn:Ef; [discriminate H|]. unfold updateFail1_via in H. apply bind_Ok in H. destruct H as (old & _ & H).
    apply updateFail2_spec in H. destruct H as (b' & Hb & Hp & Hn & He & _ & _). inversion Hb; subst b'.
    split; [apply sub_grows; [exact W|congruence|exact Hn]|]. unfold owns. rewrite He, Hp. apply in_map, Ia.
    rewrite Es, <- La, firstn_app, firstn_all, Nat.sub_diag, firstn_O, app_nil_r in Ef. rewrite Ef. left; reflexivity.
  - unfold montecarlo_via in H. apply bind_Ok in H. destruct H as (prev & _ & H).
    destruct (_ <=? _)%Z; [eapply end2; eassumption|]. destruct (shuffle R (ids c) (gen_rng c)) as [its g1].
    apply bind_Ok in H. destruct H as (p' & H1 & H). eapply end2; [exact W|eapply erase_all_sub, H1|exact H].
  - unfold probability_via in H. apply bind_Ok in H. destruct H as (prev & _ & H).
    destruct (_ <=? 0)%Z; [eapply end2; eassumption|]. apply bind_Ok in H. destruct H as ((es & g) & _ & H). eapply fin2; eassumption.
  - unfold linear_via in H. apply bind_Ok in H. destruct H as (prev & _ & H).
    destruct (_ <=? _)%Z; [eapply end1; eassumption|]. apply bind_Ok in H. destruct H as (so & _ & H). apply bind_Ok in H. destruct H as ((es & g) & _ & H). eapply fin2; eassumption.
  - unfold exponential_via in H. apply bind_Ok in H. destruct H as (prev & _ & H).
    destruct (_ <=? _)%Z; [eapply end1; eassumption|]. apply bind_Ok in H. destruct H as (so & _ & H). apply bind_Ok in H. destruct H as ((es & g) & _ & H). eapply fin2; eassumption.
  - unfold boltzmann_via in H. apply bind_Ok in H. destruct H as (prev & _ & H).
    destruct (_ <=? 0)%Z; [eapply end1; eassumption|]. apply bind_Ok in H. destruct H as ((es & g) & _ & H). eapply fin2; eassumption.
  - unfold stochastic_via in H. apply bind_Ok in H. destruct H as (prev & _ & H).
    destruct (_ <=? 0)%Z; [eapply end1; eassumption|]. destruct (fle _ d0).
    + destruct (su_equal R opt _ _ (gen_rng c)) as [es g]. eapply fin2; eassumption.
    + destruct (randD_range R d0 _ (gen_rng c)) as [be g]. eapply fin2; eassumption.
  - unfold elite_via in H. destruct (_ <=? 0)%Z; [eapply end1; eassumption|]. apply bind_Ok in H. destruct H as (so & _ & H).
    destruct (_ <? 0)%Z; [discriminate H|]. apply bind_Ok in H. destruct H as ((es & g) & _ & H). eapply fin1; eassumption.
Qed.

(** Reading only the own nodes is what SOGA.v models. *)
Lemma select_via_own m fuel (c : core') :
  select_via R std greater opt sp (fun p => lookup p (ext c)) m fuel c = select R std greater opt sp m fuel c.
Proof. destruct m; reflexivity. Qed.
(** With a best that cannot be read, no selection completes. *)
Lemma select_via_UB rd m fuel (c c' : core') : (forall p, sublist p (pop c) -> rd p = UB) ->
  select_via R std greater opt sp rd m fuel c <> Ok c'.
Proof.
  intros H E. assert (B : bestFitness_via R rd c = UB) by (unfold bestFitness_via; rewrite (H _ (sublist_refl _)); reflexivity).
  assert (U : forall p g nb, sublist p (pop c) -> updateFail1_via R greater rd c p g nb = UB) by (intros p g nb S; unfold updateFail1_via; rewrite (H _ S); reflexivity).
  destruct m; cbn [select_via] in E.
  1: unfold roulette_via in E. 2: unfold tournament_via in E. 3: unfold truncation_via in E. 4: unfold montecarlo_via in E. 5: unfold probability_via in E.
  6: unfold linear_via in E. 7: unfold exponential_via in E. 8: unfold boltzmann_via in E. 9: unfold stochastic_via in E. 10: unfold elite_via in E.
  all: try (rewrite B in E; cbn [bind] in E; discriminate E).
  - destruct (negb _); [discriminate E|]. rewrite B in E. discriminate E.
  - apply bind_Ok in E. destruct E as (so & _ & E). apply bind_Ok in E. destruct E as (p' & Ht & E). destruct (firstn _ _); [discriminate E|].
    rewrite U in E; [discriminate E|]. clear -Ht. revert Ht. generalize (pop c). induction (rev so) as [|w q IH]; intros p H; cbn [trunc_erase] in H.
    + destruct (_ <? _)%Z; [discriminate H|]. inversion H; subst. apply sublist_refl.
    + destruct (_ <? _)%Z; [|inversion H; subst; apply sublist_refl]. apply bind_Ok in H. destruct H as (p1 & H1 & H2).
      eapply sublist_trans; [apply IH, H2|eapply erase1_sub, H1].
  - destruct (_ <=? 0)%Z; [rewrite U in E by apply sublist_refl; discriminate E|]. apply bind_Ok in E. destruct E as (so & _ & E).
    destruct (_ <? 0)%Z; [discriminate E|]. apply bind_Ok in E. destruct E as ((es & g) & _ & E). unfold finish1_via, applyErasement in E.
    apply bind_Ok in E. destruct E as (p' & H1 & E). rewrite U in E; [discriminate E|]. eapply erase_all_sub, H1.
Qed.
End S.

(** * The loop *)
Section Loop.
Context {V : Type} (R : rng_ops) (std : std_ops) (greater : bool) (opt : ga_option) (sp : sel_params) (sel_fuel : nat).
Context (fs : user_funs V double (G R)) (junk : double) (rec_on : bool) (vec_max : Z) (m : method).
Notation core' := (core V double nat (G R)).
Notation gene' := (gene V double).
Notation ids c := (map gid (pop c)).
Context (F : list gene').
Notation hw := (hooks_w R std greater sel_fuel F opt sp m).

Lemma compute_ids (c : core') : ids (computeAllFitness R fs c) = ids c.
Proof. cbn [computeAllFitness pop]. rewrite map_map. apply map_ext. intros x. unfold evaluated. destruct (gcomp x); reflexivity. Qed.
Lemma mate_next (q : list gene') : forall n g, n <= snd (fst (mate R fs junk q n g)).
Proof.
  enough (H : forall k (q : list gene'), length q <= k -> forall n g, n <= snd (fst (mate R fs junk q n g))) by (intros n g; eapply H; reflexivity).
  induction k as [|k IH]; intros [|a [|b t]] L n g; cbn [length] in L; try lia; cbn [mate fst snd]; try lia.
  destruct (cFun fs (gvar a) (gvar b) g) as [[v1 v2] g1]. specialize (IH t ltac:(lia) (n + 2) g1).
  destruct (mate R fs junk t (n + 2) g1) as [[rest n'] g2]. cbn [fst snd] in *. lia.
Qed.
Lemma mutants_next (q : list gene') : forall n g, n <= snd (fst (mutants R fs junk q n g)).
Proof.
  induction q as [|a q IH]; intros n g; cbn [mutants]; [cbn; lia|]. destruct (mFun fs (gvar a) g) as [v g1].
  specialize (IH (S n) g1). destruct (mutants R fs junk q (S n) g1) as [[rest n'] g2]. cbn [fst snd] in *. lia.
Qed.
Lemma compute_grows (c : core') : wf c -> grows R c (computeAllFitness R fs c).
Proof.
  intros W. split; [apply compute_wf, W|]. split; [cbn; lia|]. intros i H. left. rewrite compute_ids in H. exact H.
Qed.
Lemma breed_grows (c : core') : rng_ok R -> wf c -> grows R c (breed R fs opt junk c) /\ ext (breed R fs opt junk c) = ext c.
Proof.
  intros HR W. unfold breed.
  destruct (crossover_spec_lemma R fs opt junk c HR W) as (ps & ks & Ep & _ & _ & _ & _ & Fr & W1 & _ & E1).
  destruct (mutate_spec_lemma R fs opt junk (crossover R fs opt junk c) W1) as (kids & Eq & _ & Fr2 & W2 & _ & E2).
  assert (N1 : next c <= next (crossover R fs opt junk c)).
  { unfold crossover. destruct (choose R (crossoverProb opt) (pop c) (gen_rng c)) as [q0 g1]. destruct (shuffle R q0 g1) as [q1 g2].
    set (q := rev _). pose proof (mate_next q (next c) g2) as H. destruct (mate R fs junk q (next c) g2) as [[k n'] g3]. exact H. }
  assert (N2 : next (crossover R fs opt junk c) <= next (mutate R fs opt junk (crossover R fs opt junk c))).
  { generalize (crossover R fs opt junk c). intros c1. unfold mutate. destruct (choose R (mutateProb opt) (pop c1) (gen_rng c1)) as [q g1].
    pose proof (mutants_next q (next c1) g1) as H. destruct (mutants R fs junk q (next c1) g1) as [[k n'] g3]. exact H. }
  split; [|rewrite E2; exact E1]. eapply grows_trans.
  - split; [exact W1|]. split; [exact N1|]. intros i Hi. rewrite Ep, map_app in Hi. apply in_app_or in Hi. destruct Hi as [Hi|Hi]; [left; exact Hi|].
    apply in_map_iff in Hi. destruct Hi as (x & <- & Hx). right. apply Fr, Hx.
  - split; [exact W2|]. split; [exact N2|]. intros i Hi. rewrite Eq, map_app in Hi. apply in_app_or in Hi. destruct Hi as [Hi|Hi]; [left; exact Hi|].
    apply in_map_iff in Hi. destruct Hi as (x & <- & Hx). right. apply Fr2, Hx.
Qed.

Lemma loop_grows fuel : rng_ok R -> std_ok std -> forall s s' : ga V double nat (G R), wf (ga_core s) ->
  ga_loop R fs opt junk hw rec_on fuel s = Ok s' -> grows R (ga_core s) (ga_core s') /\ owns R (ga_core s').
Proof.
  intros HR Hstd. induction fuel as [|n IH]; intros s s' W H; [discriminate H|]. cbn [ga_loop] in H. cbv zeta in H.
  apply bind_Ok in H. destruct H as (c1 & H1 & H). unfold evaluate_and_select, hooks_w in H1. cbn [hk_select] in H1.
  pose proof (compute_grows _ W) as G0. apply select_via_grows in H1; [|exact Hstd|exact (proj1 G0)]. destruct H1 as (G1 & O1).
  pose proof (grows_trans R _ _ _ G0 G1) as G2. apply bind_Ok in H. destruct H as (r & _ & H).
  destruct (_ || _); [inversion H; subst; cbn [ga_core]; auto|].
  destruct (breed_grows c1 HR (proj1 G1)) as (G3 & _). apply IH in H; cbn [ga_core] in *; [|exact (proj1 G3)].
  destruct H as (G4 & O4). split; [|exact O4]. eapply grows_trans; [exact G2|]. eapply grows_trans; [exact G3|exact G4].
Qed.

(** An address none of the other objects has is looked up among the own. *)
Lemma find_none_ids (l : list gene') e : ~ In e (map gid l) -> find (fun x => Nat.eqb (gid x) e) l = None.
Proof.
  intros H. destruct (find _ l) as [x|] eqn:E; [|reflexivity]. apply find_some in E. destruct E as (E1 & E2). apply Nat.eqb_eq in E2.
  exfalso. apply H. rewrite <- E2. apply in_map, E1.
Qed.
Lemma find_app_g {T} (f : T -> bool) a b : find f (a ++ b) = match find f a with Some x => Some x | None => find f b end.
Proof. induction a as [|x a IH]; cbn; [reflexivity|]. destruct (f x); [reflexivity|exact IH]. Qed.
Lemma peek_own (p : list gene') e : ~ In e (map gid F) -> peek F e p = lookup p e.
Proof.
  intros H. unfold peek, lookup. rewrite find_app_g, (find_none_ids F e H). destruct (find _ p); reflexivity.
Qed.
Lemma peek_found (p F' : list gene') e : In e (map gid p) -> peek F' e p = lookup p e.
Proof.
  intros H. unfold peek, lookup. rewrite find_app_g. destruct (find _ p) as [x|] eqn:E; [reflexivity|].
  exfalso. apply in_map_iff in H. destruct H as (x & E1 & E2). apply (find_none _ _ E) in E2. rewrite E1, Nat.eqb_refl in E2. discriminate E2.
Qed.

Definition apart (c : core') : Prop := (forall i, In i (map gid F) -> ~ In i (ids c) /\ i < next c).
Lemma apart_grows (c c' : core') : apart c -> grows R c c' -> apart c'.
Proof.
  intros H (_ & N & I) i Hi. destruct (H i Hi) as (H1 & H2). split; [|lia]. intros C. destruct (I i C); [contradiction|lia].
Qed.

Lemma loop_alone fuel : rng_ok R -> std_ok std -> forall s : ga V double nat (G R), wf (ga_core s) -> apart (ga_core s) ->
  ~ In (ext (ga_core s)) (map gid F) ->
  ga_loop R fs opt junk hw rec_on fuel s = ga_loop R fs opt junk (soga_hooks R std greater opt sp m sel_fuel) rec_on fuel s.
Proof.
  intros HR Hstd. induction fuel as [|n IH]; intros s W Ap He; [reflexivity|]. cbn [ga_loop]. cbv zeta.
  unfold evaluate_and_select, hooks_w, soga_hooks. cbn [hk_select hk_best]. set (c0 := computeAllFitness R fs (ga_core s)).
  assert (E : (fun p => peek F (ext c0) p) = (fun p => lookup p (ext c0))) by (apply functional_extensionality; intros p; apply peek_own; exact He).
  change (peek F (ext c0)) with (fun p => peek F (ext c0) p). rewrite E, select_via_own. clear E.
  destruct (select R std greater opt sp m sel_fuel c0) as [c1| | |] eqn:Es; cbn [bind]; try reflexivity.
  rewrite <- select_via_own in Es. pose proof (compute_grows _ W) as G0. apply select_via_grows in Es; [|exact Hstd|exact (proj1 G0)]. destruct Es as (G1 & O1).
  pose proof (apart_grows _ _ (apart_grows _ _ Ap G0) G1) as Ap1.
  assert (He1 : ~ In (ext c1) (map gid F)). { intros C. destruct (Ap1 _ C) as (C1 & _). apply C1, O1. }
  assert (B : bestFitness_via R (peek F (ext c1)) c1 = bestFitness R c1). { unfold bestFitness_via, bestFitness. rewrite peek_own by exact He1. reflexivity. }
  rewrite B. destruct (if rec_on then _ else _) as [r| | |]; cbn [bind]; try reflexivity.
  destruct (_ || _); [reflexivity|]. destruct (breed_grows c1 HR (proj1 G1)) as (G3 & E3).
  apply IH; cbn [ga_core]; [exact (proj1 G3)|eapply apart_grows; eassumption|rewrite E3; exact He1].
Qed.

(** No generation completes with a best that is nowhere. *)
Lemma loop_UB fuel : forall (s s' : ga V double nat (G R)),
  ~ In (ext (ga_core s)) (ids (ga_core s)) -> ~ In (ext (ga_core s)) (map gid F) ->
  ga_loop R fs opt junk hw rec_on fuel s <> Ok s'.
Proof.
  intros s s' H1 H2 H. destruct fuel as [|n]; [discriminate H|]. cbn [ga_loop] in H. cbv zeta in H.
  apply bind_Ok in H. destruct H as (c1 & H & _). unfold evaluate_and_select, hooks_w in H. cbn [hk_select] in H. revert H.
  apply select_via_UB. intros p S. rewrite peek_own by exact H2. apply lookup_UB. intros C. apply H1.
  change (ext (computeAllFitness R fs (ga_core s))) with (ext (ga_core s)) in C. rewrite <- compute_ids. eapply sublist_in; [apply sublist_map, S|exact C].
Qed.
End Loop.

(** * Several objects *)
Section World.
Context {V A : Type} (R : rng_ops) (std : std_ops) (mode : option method) (greater rec_on : bool).
Context (pw : double -> double -> double) (ex : double -> double) (junk : double) (v0 : V) (vec_max : Z) (sel_fuel : nat).
Notation core' := (core V double nat (G R)).
Notation gene' := (gene V double).
Notation obj' := (obj (V := V) (A := A) R).
Notation wstep' := (wstep R std mode greater rec_on pw ex junk v0 vec_max sel_fuel).
Notation wdrive' := (wdrive R std mode greater rec_on pw ex junk v0 vec_max sel_fuel).
Notation step_w' := (step_w R std mode greater rec_on pw ex junk v0 vec_max sel_fuel).
Notation lp := (live_pop R).
Notation world' := (world (V := V) (A := A) R).

Definition all (l : list (option obj')) : list gene' := flat_map lp l.
Definition all_ids (w : world') : list nat := map gid (all (w_objs R w)).
(** All nodes of all objects are different, and the iterators are no address
    the allocator has yet to give. *)
Definition winv (w : world') : Prop :=
  NoDup (all_ids w) /\ (forall i, In i (all_ids w) -> i < w_next R w) /\
  (forall k o, nth_error (w_objs R w) k = Some (Some o) -> o_inited R o = true -> ext (o_core R o) < w_next R w).

Lemma upd_nth {T} (l : list T) : forall i x, i < length l -> nth_error (upd l i x) i = Some x.
Proof. induction l as [|y l IH]; intros [|i] x H; cbn in *; try lia; [reflexivity|]. apply IH. lia. Qed.
Lemma upd_nth_ne {T} (l : list T) : forall i j x, i <> j -> nth_error (upd l i x) j = nth_error l j.
Proof. induction l as [|y l IH]; intros [|i] [|j] x H; cbn; try reflexivity; try lia. apply IH. lia. Qed.
Lemma upd_len {T} (l : list T) : forall i x, length (upd l i x) = length l.
Proof. induction l as [|y l IH]; intros [|i] x; cbn; try reflexivity. f_equal. apply IH. Qed.
Lemma upd_firstn {T} (l : list T) : forall i x, firstn i (upd l i x) = firstn i l.
Proof. induction l as [|y l IH]; intros [|i] x; cbn; try reflexivity. f_equal. apply IH. Qed.
Lemma upd_skipn {T} (l : list T) : forall i x, skipn (S i) (upd l i x) = skipn (S i) l.
Proof. induction l as [|y l IH]; intros [|i] x; cbn [upd]; try reflexivity. exact (IH i x). Qed.
Lemma others_put (l : list (option obj')) i x : others R (put R l i x) i = others R l i.
Proof. unfold others, put. rewrite upd_firstn, upd_skipn. reflexivity. Qed.
Lemma all_split (l : list (option obj')) i x : nth_error l i = Some x -> Permutation (all l) (lp x ++ others R l i).
Proof.
  intros H. apply nth_error_split in H. destruct H as (a & b & -> & <-). unfold all, others.
  rewrite firstn_app, firstn_all, Nat.sub_diag, firstn_O, app_nil_r.
  replace (skipn (S (length a)) (a ++ x :: b)) with b.
  2:{ clear. induction a as [|y a IH]; [reflexivity|exact IH]. }
  rewrite flat_map_app. cbn [flat_map]. rewrite !app_assoc. apply Permutation_app_tail, Permutation_app_comm.
Qed.
Lemma lt_nth {T} (l : list T) i x : nth_error l i = Some x -> i < length l.
Proof. intros H. apply nth_error_Some. congruence. Qed.
Lemma all_put (l : list (option obj')) i x y : nth_error l i = Some x -> Permutation (all (put R l i y)) (lp y ++ others R l i).
Proof.
  intros H. rewrite <- (others_put l i y). apply all_split. apply upd_nth. eapply lt_nth, H.
Qed.
Lemma all_snoc (l : list (option obj')) x : all (l ++ [x]) = all l ++ lp x.
Proof. unfold all. rewrite flat_map_app. cbn. rewrite app_nil_r. reflexivity. Qed.

Lemma NoDup_disj (a b : list nat) : NoDup a -> NoDup b -> (forall x, In x a -> ~ In x b) -> NoDup (a ++ b).
Proof.
  induction a as [|x a IH]; intros Ha Hb H; [exact Hb|]. cbn. inversion Ha; subst. constructor.
  - intros C. apply in_app_or in C. destruct C as [C|C]; [contradiction|]. apply (H x (or_introl eq_refl) C).
  - apply IH; auto. intros y Hy. apply H. right; exact Hy.
Qed.

(** Replacing the nodes of one object by kept and new ones. *)
Lemma put_inv (w : world') i x y n :
  NoDup (all_ids w) -> (forall j, In j (all_ids w) -> j < w_next R w) ->
  nth_error (w_objs R w) i = Some x -> NoDup (map gid (lp y)) ->
  (forall j, In j (map gid (lp y)) -> In j (map gid (lp x)) \/ w_next R w <= j) ->
  (forall j, In j (map gid (lp y)) -> j < n) -> w_next R w <= n ->
  let ids' := map gid (all (put R (w_objs R w) i y)) in
  NoDup ids' /\ (forall j, In j ids' -> j < n) /\ (forall j, In j ids' -> In j (all_ids w) \/ w_next R w <= j).
Proof.
  intros N L Hx Ny I Ln Hn. cbv zeta.
  pose proof (Permutation_map gid (all_split _ _ _ Hx)) as P1. pose proof (Permutation_map gid (all_put _ _ _ y Hx)) as P2.
  rewrite map_app in P1, P2. unfold all_ids in *.
  assert (N1 : NoDup (map gid (lp x) ++ map gid (others R (w_objs R w) i))) by (eapply Permutation_NoDup; [exact P1|exact N]).
  assert (No : NoDup (map gid (others R (w_objs R w) i))) by (clear -N1; induction (map gid (lp x)) as [|z l IH]; [exact N1|inversion N1; auto]).
  assert (Lo : forall j, In j (map gid (others R (w_objs R w) i)) -> j < w_next R w).
  { intros j Hj. apply L. eapply Permutation_in; [apply Permutation_sym, P1|]. apply in_or_app. right; exact Hj. }
  assert (D : forall j, In j (map gid (lp x)) -> ~ In j (map gid (others R (w_objs R w) i))).
  { clear -N1. intros j. induction (map gid (lp x)) as [|z l IH]; intros H C; [destruct H|]. cbn in N1. inversion N1 as [|? ? N2 N3]; subst.
    destruct H as [->|H]; [apply N2, in_or_app; right; exact C|exact (IH N3 H C)]. }
  split; [|split].
  - eapply Permutation_NoDup; [apply Permutation_sym, P2|]. apply NoDup_disj; [exact Ny|exact No|].
    intros j Hj C. destruct (I j Hj) as [Hj'|Hj']; [exact (D j Hj' C)|apply Lo in C; lia].
  - intros j Hj. eapply Permutation_in in Hj; [|exact P2]. apply in_app_or in Hj. destruct Hj as [Hj|Hj]; [auto|apply Lo in Hj; lia].
  - intros j Hj. eapply Permutation_in in Hj; [|exact P2]. apply in_app_or in Hj. destruct Hj as [Hj|Hj].
    + destruct (I j Hj) as [Hj'|Hj']; [left|right; exact Hj']. eapply Permutation_in; [apply Permutation_sym, P1|]. apply in_or_app; left; exact Hj'.
    + left. eapply Permutation_in; [apply Permutation_sym, P1|]. apply in_or_app; right; exact Hj.
Qed.

Lemma init_grows fs opt (c : core') : wf c ->
  let c' := soga_initializePop R opt fs junk v0 c in
  grows R c c' /\ (owns R c' \/ ext c' = next c') /\ ((1 <= populationSize opt)%Z -> owns R c').
Proof.
  intros W. cbv zeta. pose proof (initialize_spec_lemma R fs opt junk v0 c W) as (L & W1 & _). cbv zeta in L, W1.
  unfold soga_initializePop. cbv zeta. set (c1 := initializePop R fs opt junk v0 c) in *.
  assert (G1 : next c <= next c1 /\ forall i, In i (map gid (pop c1)) -> In i (map gid (pop c)) \/ next c <= i).
  { unfold c1, initializePop. set (n := Z.to_nat _). set (kept := firstn n (pop c)). set (extra := map _ (seq _ _)).
    pose proof (init_vars_ids R fs (kept ++ extra) (gen_rng c)) as (H1 & _). destruct (init_vars R fs (kept ++ extra) (gen_rng c)) as [p g]. cbn [fst pop next] in *.
    split; [lia|]. intros i Hi. rewrite H1, map_app in Hi. apply in_app_or in Hi. destruct Hi as [Hi|Hi].
    - left. eapply sublist_in; [apply sublist_map, sublist_firstn|exact Hi].
    - right. unfold extra in Hi. rewrite map_map in Hi. cbn in Hi. rewrite map_id in Hi. apply in_seq in Hi. lia. }
  split; [split; [exact W1|exact G1]|]. unfold owns. cbn [ext pop next]. destruct (pop c1) as [|x p] eqn:E.
  - split; [right; reflexivity|]. intros H. cbn in L. lia.
  - split; [left|intros _]; left; reflexivity.
Qed.

Lemma step_w_grows F (o o' : obj') c : rng_ok R -> std_ok std -> wf (o_core R o) -> step_w' F o c = Ok o' ->
  grows R (o_core R o) (o_core R o') /\
  (o_inited R o' = true -> owns R (o_core R o') \/ ext (o_core R o') = next (o_core R o') \/ (o_inited R o = true /\ ext (o_core R o') = ext (o_core R o))).
Proof.
  intros HR Hstd W H. pose proof (grows_refl R _ W) as Gr. destruct c; cbn [step_w step] in H.
  - apply bind_Ok in H. destruct H as (s & _ & H). inversion H; subst. cbn. split; [exact Gr|auto].
  - inversion H; subst. cbn. split; [exact Gr|auto].
  - inversion H; subst. cbn. split; [exact Gr|auto].
  - inversion H; subst. cbn. split; [exact Gr|auto].
  - inversion H; subst. cbn. split; [exact Gr|auto].
  - inversion H; subst. cbn. split; [exact Gr|auto].
  - inversion H; subst. cbn. split; [exact Gr|auto].
  - unfold do_init in H. destruct (f_i R (o_slots R o)) as [fi|].
    + inversion H; subst o'. cbn [o_core o_inited]. destruct (init_grows (mkFuns (fi (o_args R o)) (fun _ => junk) (fun a b g => ((a, b), g)) (fun a g => (a, g))) (s_opt (o_set R o)) _ W) as (H1 & H2 & _). split; [exact H1|]. intros _. tauto.
    + destruct (_ =? 0)%Z; [|discriminate H]. inversion H; subst o'. cbn [o_core o_inited].
      destruct (init_grows (mkFuns (no_init R v0) (fun _ => junk) (fun a b g => ((a, b), g)) (fun a g => (a, g))) (s_opt (o_set R o)) _ W) as (H1 & H2 & _). split; [exact H1|]. intros _. tauto.
  - unfold do_run_w in H. destruct (negb _); [discriminate H|]. destruct (f_f R (o_slots R o)) as [f|]; [|discriminate H].
    destruct (f_c R (o_slots R o)) as [cf|]; [|discriminate H]. destruct (f_m R (o_slots R o)) as [mf|]; [|discriminate H].
    assert (Q : exists mt s, run R (user_of R v0 o f cf mf) (s_opt (o_set R o)) junk (hooks_w R std greater sel_fuel F (s_opt (o_set R o)) (params_of pw ex junk (o_set R o)) mt) rec_on vec_max (S (Z.to_nat (maxGenerations (s_opt (o_set R o))))) (mkGA (o_core R o) (o_gen R o) (o_rec R o)) = Ok s /\
              o' = mkObj R (o_set R o) (o_slots R o) (o_args R o) (ga_core s) (generation s) (record s) true true).
    { destruct (method_of mode (o_set R o)), (s_strength (o_set R o)); try discriminate H; apply bind_Ok in H; destruct H as (s & H1 & H2); eexists _, s; (split; [exact H1|congruence]). }
    destruct Q as (mt & s & Q & ->). cbn [o_core o_inited]. unfold run in Q. cbn [ga_core] in Q. destruct (rec_on && _); [discriminate Q|].
    apply loop_grows in Q; [|exact HR|exact Hstd|exact W]. cbn [ga_core] in Q. destruct Q as (Q1 & Q2). split; [exact Q1|]. intros _. left. exact Q2.
Qed.

Lemma run_w_owns F (o o' : obj') : rng_ok R -> std_ok std -> wf (o_core R o) -> step_w' F o (Run R) = Ok o' -> owns R (o_core R o') /\ o_inited R o' = true.
Proof.
  intros HR Hstd W H. cbn [step_w] in H. 
  unfold do_run_w in H. destruct (negb _); [discriminate H|]. destruct (f_f R (o_slots R o)) as [f|]; [|discriminate H].
  destruct (f_c R (o_slots R o)) as [cf|]; [|discriminate H]. destruct (f_m R (o_slots R o)) as [mf|]; [|discriminate H].
  destruct (method_of mode (o_set R o)), (s_strength (o_set R o)); try discriminate H; apply bind_Ok in H; destruct H as (s & Q & H); inversion H; subst o'; cbn [o_core o_inited];
    (split; [|reflexivity]); unfold run in Q; cbn [ga_core] in Q; (destruct (rec_on && _); [discriminate Q|]);
    (apply loop_grows in Q; [exact (proj2 Q)|exact HR|exact Hstd|exact W]).
Qed.

Lemma assign_ids (src : list gene') : forall ids n, map gid (assign_nodes ids n src) = firstn (length src) ids ++ seq n (length src - length ids).
Proof.
  induction src as [|x src IH]; intros [|k ids] n; cbn [assign_nodes map length firstn Nat.sub seq app gid]; try reflexivity; rewrite IH.
  - rewrite firstn_nil. cbn. rewrite Nat.sub_0_r. reflexivity.
  - reflexivity.
Qed.
Lemma assign_content (src : list gene') : forall ids n, map content (assign_nodes ids n src) = map content src.
Proof. induction src as [|x src IH]; intros [|k ids] n; cbn [assign_nodes map]; try reflexivity; (rewrite IH; reflexivity). Qed.

Lemma own_wf (w : world') i o n : NoDup (all_ids w) -> (forall j, In j (all_ids w) -> j < n) ->
  nth_error (w_objs R w) i = Some (Some o) -> NoDup (map gid (pop (o_core R o))) /\ forall x, In x (pop (o_core R o)) -> gid x < n.
Proof.
  intros N L H. pose proof (Permutation_map gid (all_split _ _ _ H)) as P. rewrite map_app in P. cbn [live_pop] in P.
  split; [eapply Permutation_NoDup in N; [|exact P]; apply NoDup_app_l in N; exact N|].
  intros x Hx. apply L. eapply Permutation_in; [apply Permutation_sym, P|]. apply in_or_app. left. apply in_map, Hx.
Qed.

(** What one event may do to the addresses. *)
Lemma wstep_inv (w w' : world') e : rng_ok R -> std_ok std -> winv w -> wstep' w e = Ok w' ->
  winv w' /\ w_next R w <= w_next R w' /\ (forall j, In j (all_ids w') -> In j (all_ids w) \/ w_next R w <= j).
Proof.
  intros HR Hstd (N & L & E) H. destruct e as [ct a|i|i j|i|i c]; cbn [wstep] in H.
  - inversion H; subst w'. unfold winv, all_ids. cbn [w_objs w_next]. rewrite all_snoc. cbn [live_pop fresh o_core pop]. rewrite app_nil_r.
    split; [|split; [lia|auto]]. split; [exact N|]. split; [exact L|]. intros k o Hk Hi.
    destruct (Nat.lt_ge_cases k (length (w_objs R w))); [rewrite nth_error_app1 in Hk by assumption; eauto|].
    rewrite nth_error_app2 in Hk by assumption. destruct (k - length (w_objs R w)) as [|[|?]]; cbn in Hk; try discriminate Hk. inversion Hk; subst o. discriminate Hi.
  - destruct (nth_error (w_objs R w) i) as [[o|]|] eqn:Ei; try discriminate H. inversion H; subst w'. clear H. unfold winv, all_ids in *. cbn [w_objs w_next].
    rewrite all_snoc. cbn [live_pop copy_obj o_core pop]. rewrite map_app, copies_ids. split; [split; [|split]|split; [lia|]].
    + apply NoDup_disj; [exact N|apply seq_NoDup|]. intros x Hx C. apply L in Hx. apply in_seq in C. lia.
    + intros x Hx. apply in_app_or in Hx. destruct Hx as [Hx|Hx]; [apply L in Hx; lia|apply in_seq in Hx; lia].
    + intros k o' Hk Hi. destruct (Nat.lt_ge_cases k (length (w_objs R w))); [rewrite nth_error_app1 in Hk by assumption; specialize (E k o' Hk Hi); lia|].
      rewrite nth_error_app2 in Hk by assumption. destruct (k - length (w_objs R w)) as [|[|?]]; cbn in Hk; try discriminate Hk. inversion Hk; subst o'. cbn in *. specialize (E i o Ei Hi). lia.
    + intros x Hx. apply in_app_or in Hx. destruct Hx as [Hx|Hx]; [left; exact Hx|right; apply in_seq in Hx; lia].
  - destruct (nth_error (w_objs R w) i) as [[d|]|] eqn:Ei; try discriminate H. destruct (nth_error (w_objs R w) j) as [[s|]|] eqn:Ej; try discriminate H.
    destruct (Nat.eqb_spec i j) as [->|Hij]; inversion H; subst w'; clear H.
    { split; [split; [exact N|split; [exact L|exact E]]|]. split; [lia|auto]. }
    set (n := length (pop (o_core R s))) in *. destruct (own_wf w i d _ N L Ei) as (Nd & Ld).
    destruct (put_inv w i (Some d) (Some (assign_obj R (w_next R w) (w_rng R w) d s)) (w_next R w + n) N L Ei) as (P1 & P2 & P3).
    + cbn [live_pop assign_obj o_core pop]. rewrite assign_ids. apply NoDup_disj; [eapply sublist_NoDup; [apply sublist_firstn|exact Nd]|apply seq_NoDup|].
      intros x Hx C. eapply sublist_in in Hx; [|apply sublist_firstn]. apply in_map_iff in Hx. destruct Hx as (y & <- & Hy). apply Ld in Hy. apply in_seq in C. lia.
    + cbn [live_pop assign_obj o_core pop]. rewrite assign_ids. intros x Hx. apply in_app_or in Hx. destruct Hx as [Hx|Hx]; [left; eapply sublist_in in Hx; [exact Hx|apply sublist_firstn]|right; apply in_seq in Hx; lia].
    + cbn [live_pop assign_obj o_core pop]. rewrite assign_ids. fold n. intros x Hx. apply in_app_or in Hx. destruct Hx as [Hx|Hx].
      * eapply sublist_in in Hx; [|apply sublist_firstn]. apply in_map_iff in Hx. destruct Hx as (y & <- & Hy). apply Ld in Hy. lia.
      * apply in_seq in Hx. lia.
    + lia.
    + unfold winv, all_ids. cbn [w_objs w_next]. split; [split; [exact P1|split; [exact P2|]]|split; [lia|exact P3]].
      intros k o' Hk Hi. unfold put in Hk. destruct (Nat.eq_dec i k) as [<-|Hne].
      * rewrite upd_nth in Hk by (eapply lt_nth, Ei). inversion Hk; subst o'. cbn in *. specialize (E j s Ej Hi). lia.
      * rewrite upd_nth_ne in Hk by exact Hne. specialize (E k o' Hk Hi). lia.
  - destruct (nth_error (w_objs R w) i) as [[o|]|] eqn:Ei; try discriminate H. inversion H; subst w'; clear H.
    destruct (put_inv w i (Some o) None (w_next R w) N L Ei) as (P1 & P2 & P3); [constructor|intros x []|intros x []|lia|].
    unfold winv, all_ids. cbn [w_objs w_next]. split; [split; [exact P1|split; [exact P2|]]|split; [lia|exact P3]].
    intros k o' Hk Hi. unfold put in Hk. destruct (Nat.eq_dec i k) as [<-|Hne]; [rewrite upd_nth in Hk by (eapply lt_nth, Ei); discriminate Hk|].
    rewrite upd_nth_ne in Hk by exact Hne. exact (E k o' Hk Hi).
  - destruct (nth_error (w_objs R w) i) as [[o|]|] eqn:Ei; try discriminate H. apply bind_Ok in H. destruct H as (o' & H1 & H). inversion H; subst w'; clear H.
    destruct (own_wf w i o _ N L Ei) as (Nd & Ld). apply step_w_grows in H1; [|exact HR|exact Hstd|split; [exact Nd|exact Ld]].
    destruct H1 as (((Nd' & Ld') & Hn & Hi) & He). cbn [load fields with_core o_core next pop ext o_inited] in *.
    destruct (put_inv w i (Some o) (Some o') (S (next (o_core R o'))) N L Ei) as (P1 & P2 & P3).
    + exact Nd'.
    + exact Hi.
    + intros x Hx. cbn [live_pop] in Hx. apply in_map_iff in Hx. destruct Hx as (y & <- & Hy). apply Ld' in Hy. lia.
    + lia.
    + unfold winv, all_ids. cbn [w_objs w_next]. split; [split; [exact P1|split; [exact P2|]]|split; [lia|exact P3]].
      intros k o2 Hk Hin. unfold put in Hk. destruct (Nat.eq_dec i k) as [<-|Hne].
      * rewrite upd_nth in Hk by (eapply lt_nth, Ei). inversion Hk; subst o2. destruct (He Hin) as [Ho|[Ho|(Ho1 & Ho2)]].
        -- unfold owns in Ho. apply in_map_iff in Ho. destruct Ho as (y & <- & Hy). apply Ld' in Hy. lia.
        -- lia.
        -- rewrite Ho2. specialize (E i o Ei Ho1). lia.
      * rewrite upd_nth_ne in Hk by exact Hne. specialize (E k o2 Hk Hin). lia.
Qed.
Lemma start_inv g : winv (start R g).
Proof. split; [constructor|]. split; [intros i []|]. intros [|k] o H; discriminate H. Qed.
Lemma wdrive_inv h : rng_ok R -> std_ok std -> forall w w', winv w -> wdrive' w h = Ok w' ->
  winv w' /\ w_next R w <= w_next R w' /\ (forall j, In j (all_ids w') -> In j (all_ids w) \/ w_next R w <= j).
Proof.
  intros HR Hstd. induction h as [|e h IH]; intros w w' I H; cbn [wdrive] in H; [inversion H; subst; auto|].
  apply bind_Ok in H. destruct H as (w1 & H1 & H2). destruct (wstep_inv w w1 e HR Hstd I H1) as (I1 & N1 & A1). destruct (IH w1 w' I1 H2) as (I2 & N2 & A2).
  split; [exact I2|]. split; [lia|]. intros j Hj. destruct (A2 j Hj) as [Hj'|Hj']; [apply A1, Hj'|right; lia].
Qed.

(** ** Events that are not about object [k] *)
Definition about (k : nat) (e : event (V := V) (A := A) R) : bool :=
  match e with
  | Construct _ _ _ | CopyOf _ _ => false
  | AssignTo _ i _ | Destroy _ i | Call _ i _ => (i =? k)%nat
  end.
Lemma wstep_other (w w' : world') e k : about k e = false -> k < length (w_objs R w) -> wstep' w e = Ok w' ->
  nth_error (w_objs R w') k = nth_error (w_objs R w) k /\ length (w_objs R w) <= length (w_objs R w').
Proof.
  intros Ha Hk H. destruct e as [ct a|i|i j|i|i c]; cbn [wstep about] in *.
  - inversion H; subst w'. cbn [w_objs]. rewrite nth_error_app1 by exact Hk. rewrite app_length. split; [reflexivity|lia].
  - destruct (nth_error (w_objs R w) i) as [[o|]|]; try discriminate H. inversion H; subst w'. cbn [w_objs]. rewrite nth_error_app1 by exact Hk. rewrite app_length. split; [reflexivity|lia].
  - destruct (nth_error (w_objs R w) i) as [[d|]|]; try discriminate H. destruct (nth_error (w_objs R w) j) as [[s|]|]; try discriminate H.
    apply Nat.eqb_neq in Ha. destruct (Nat.eqb i j); inversion H; subst w'; [auto|]. cbn [w_objs]. unfold put. rewrite upd_nth_ne by exact Ha. rewrite upd_len. auto.
  - destruct (nth_error (w_objs R w) i) as [[o|]|]; try discriminate H. apply Nat.eqb_neq in Ha. inversion H; subst w'. cbn [w_objs]. unfold put. rewrite upd_nth_ne by exact Ha. rewrite upd_len. auto.
  - destruct (nth_error (w_objs R w) i) as [[o|]|]; try discriminate H. apply Nat.eqb_neq in Ha. apply bind_Ok in H. destruct H as (o' & _ & H).
    inversion H; subst w'. cbn [w_objs]. unfold put. rewrite upd_nth_ne by exact Ha. rewrite upd_len. auto.
Qed.
Lemma wdrive_other h k : forallb (fun e => negb (about k e)) h = true -> forall w w', k < length (w_objs R w) -> wdrive' w h = Ok w' ->
  nth_error (w_objs R w') k = nth_error (w_objs R w) k.
Proof.
  induction h as [|e h IH]; intros Hh w w' Hk H; cbn [wdrive forallb] in *; [inversion H; reflexivity|].
  apply andb_prop in Hh. destruct Hh as (He & Hh). apply negb_true_iff in He. apply bind_Ok in H. destruct H as (w1 & H1 & H2).
  destruct (wstep_other w w1 e k He Hk H1) as (E1 & L1). rewrite <- E1. apply IH; [exact Hh|lia|exact H2].
Qed.

(** ** Reading an address *)
Lemma lookup_perm (l l' : list gene') e : NoDup (map gid l) -> Permutation l l' -> lookup l e = lookup l' e.
Proof.
  intros N P. assert (N' : NoDup (map gid l')) by (eapply Permutation_NoDup; [apply Permutation_map, P|exact N]).
  destruct (lookup_cases l e) as [(x & E)|E].
  - rewrite E. apply lookup_ok in E. destruct E as (E1 & <-). symmetry. apply lookup_in; [exact N'|]. eapply Permutation_in; eassumption.
  - rewrite E. symmetry. apply lookup_UB. apply lookup_UB in E. intros C. apply E. eapply Permutation_in; [apply Permutation_sym, Permutation_map, P|exact C].
Qed.
Lemma peek_all (w : world') i o e : NoDup (all_ids w) -> nth_error (w_objs R w) i = Some (Some o) ->
  peek (others R (w_objs R w) i) e (pop (o_core R o)) = lookup (all (w_objs R w)) e.
Proof.
  intros N H. unfold peek. symmetry. apply lookup_perm; [exact N|]. exact (all_split _ _ _ H).
Qed.
Lemma bestGene_all (w : world') i o : winv w -> nth_error (w_objs R w) i = Some (Some o) ->
  bestGene_of R w i = if o_inited R o then lookup (all (w_objs R w)) (ext (o_core R o)) else UB.
Proof.
  intros (N & _) H. unfold bestGene_of, object. rewrite H. cbn [bind]. rewrite (peek_all w i o _ N H). reflexivity.
Qed.
Lemma lookup_app_fresh (l l' : list gene') e : ~ In e (map gid l') -> lookup (l ++ l') e = lookup l e.
Proof. intros H. apply (peek_own l' l e H). Qed.
End World.
