(** Proofs about crossover, mutation and initialisation (GABase.hpp). *)
From Coq Require Import List Arith ZArith Bool Lia Permutation.
From Flocq Require Import BinarySingleNaN.
From Verif Require Import Base Fl Rng GABase.
Import ListNotations.
Open Scope nat_scope.

(** [n] consecutive draws of randD(). *)
Fixpoint draws (R : rng_ops) (n : nat) (g : G R) : list double * G R :=
  match n with
  | O => ([], g)
  | S m => let (d, g1) := rand01 R g in
           let (l, g2) := draws R m g1 in (d :: l, g2)
  end.

(** The individuals whose own draw is <= [prob], in order. *)
Definition drawn {A} (prob : double) (p : list A) (ds : list double) : list A :=
  map fst (filter (fun xd => fle (snd xd) prob) (combine p ds)).

(** Flattening a list of pairs. *)
Definition flat {A} (l : list (A * A)) : list A :=
  flat_map (fun ab => [fst ab; snd ab]) l.

(** Node addresses are distinct and below the allocation pointer. *)
Definition wf {V F X GG} (c : core V F X GG) : Prop :=
  NoDup (map gid (pop c)) /\ forall x, In x (pop c) -> gid x < next c.

Lemma nodup_app_seq {A} (f : A -> nat) (l : list A) n k :
  NoDup (map f l) -> (forall x, In x l -> f x < n) -> NoDup (map f l ++ seq n k).
Proof.
  induction l as [|y l IH]; intros ND Hlt; [apply seq_NoDup|].
  cbn in *. inversion ND; subst. constructor.
  - rewrite in_app_iff, in_seq. specialize (Hlt y (or_introl eq_refl)). intuition lia.
  - apply IH; [assumption|]. intros; apply Hlt; auto.
Qed.

Section P.
Context {V F X : Type} (R : rng_ops) (fs : user_funs V F (G R)) (opt : ga_option).
Notation core' := (core V F X (G R)).
Notation gene' := (gene V F).
Context (junk : F).

Lemma draws_length n : forall g, length (fst (draws R n g)) = n.
Proof.
  induction n as [|n IH]; intros g; cbn; [reflexivity|].
  destruct (rand01 R g) as [d g1]. specialize (IH g1). destruct (draws R n g1). cbn in *. lia.
Qed.

Lemma choose_drawn prob (p : list gene') : forall g,
  choose R prob p g = (drawn prob p (fst (draws R (length p) g)), snd (draws R (length p) g)).
Proof.
  unfold drawn. induction p as [|x p IH]; intros g; cbn; [reflexivity|].
  destruct (rand01 R g) as [d g1]. rewrite IH. destruct (draws R (length p) g1) as [ds g2].
  cbn. destruct (fle d prob); reflexivity.
Qed.

Lemma drawn_sub {A} prob (p : list A) ds x : In x (drawn prob p ds) -> In x p.
Proof.
  unfold drawn. intros H. apply in_map_iff in H. destruct H as ((y & d) & <- & H).
  apply filter_In in H. destruct H as (H & _). eapply in_combine_l. exact H.
Qed.

Lemma drawn_nodup {A B} (f : A -> B) prob (p : list A) : forall ds,
  NoDup (map f p) -> NoDup (map f (drawn prob p ds)).
Proof.
  unfold drawn. induction p as [|x p IH]; intros ds H; [constructor|].
  destruct ds as [|d ds]; [constructor|]. cbn in H. inversion H as [|? ? N H']; subst.
  cbn [combine filter]. destruct (fle _ prob); [|apply IH; exact H'].
  cbn. constructor; [|apply IH; exact H']. intros C. apply N.
  apply in_map_iff in C. destruct C as (y & <- & C). apply in_map. eapply drawn_sub. exact C.
Qed.

Lemma drawn_length_le {A} prob (p : list A) ds : length (drawn prob p ds) <= length p.
Proof.
  unfold drawn. rewrite map_length. revert ds; induction p as [|x p IH]; intros [|d ds]; cbn; try lia.
  destruct (fle d prob); cbn; specialize (IH ds); lia.
Qed.

(** What [mate] does to an even queue. *)
Definition child_of (ab kl : gene' * gene') : Prop :=
  exists g, fst (cFun fs (gvar (fst ab)) (gvar (snd ab)) g) = (gvar (fst kl), gvar (snd kl)) /\
    gcomp (fst kl) = false /\ gcomp (snd kl) = false.

Lemma mate_spec k : forall (q : list gene') n g kids n' g',
  length q = 2 * k -> mate R fs junk q n g = (kids, n', g') ->
  exists pairs kpairs, q = flat pairs /\ kids = flat kpairs /\ length pairs = k /\
    Forall2 child_of pairs kpairs /\ n' = n + 2 * k /\ map gid kids = seq n (2 * k).
Proof.
  induction k as [|k IH]; intros q n g kids n' g' Hq Hm.
  - destruct q; [|cbn in Hq; lia]. cbn in Hm. inversion Hm; subst. exists [], []. cbn.
    repeat split; auto.
  - destruct q as [|a [|b t]]; [cbn in Hq; lia|cbn in Hq; lia|].
    cbn [mate] in Hm. destruct (cFun fs (gvar a) (gvar b) g) as [[v1 v2] g1] eqn:Ec.
    destruct (mate R fs junk t (n + 2) g1) as [[rest n2] g2] eqn:Em.
    inversion Hm; subst; clear Hm.
    apply IH in Em; [|cbn in Hq; lia].
    destruct Em as (pairs & kpairs & -> & -> & Hl & Hf & -> & Hs).
    exists ((a, b) :: pairs), ((mkGene n v1 false junk, mkGene (n + 1) v2 false junk) :: kpairs).
    split; [reflexivity|]. split; [reflexivity|]. split; [cbn; lia|].
    split. { constructor; [|exact Hf]. exists g. cbn [fst snd gvar gcomp]. rewrite Ec. auto. }
    split; [lia|].
    cbn [flat flat_map fst snd app map gid]. fold (@flat gene'). rewrite Hs.
    replace (2 * S k) with (S (S (2 * k))) by lia. cbn [seq].
    replace (n + 1) with (S n) by lia. replace (n + 2) with (S (S n)) by lia. reflexivity.
Qed.

Lemma removelast_prefix {A} (l : list A) : exists t, l = removelast l ++ t /\ length t <= 1 /\ (l <> [] -> length t = 1).
Proof.
  destruct l as [|x l]; [exists []; cbn; repeat split; auto; congruence|].
  exists [last (x :: l) x]. split; [apply app_removelast_last; discriminate|]. cbn; auto.
Qed.

Theorem crossover_spec_lemma (c : core') : rng_ok R -> wf c ->
  let c' := crossover R fs opt junk c in
  let n := length (drawn (crossoverProb opt) (pop c) (fst (draws R (length (pop c)) (gen_rng c)))) in
  exists pairs kpairs : list (gene' * gene'),
    pop c' = pop c ++ flat kpairs /\
    length pairs = Nat.div n 2 /\
    (forall x, In x (flat pairs) ->
       In x (drawn (crossoverProb opt) (pop c) (fst (draws R (length (pop c)) (gen_rng c))))) /\
    NoDup (map gid (flat pairs)) /\
    Forall2 child_of pairs kpairs /\
    (forall x, In x (flat kpairs) -> next c <= gid x) /\
    wf c' /\ fails c' = fails c /\ ext c' = ext c.
Proof.
  intros HR Hwf. unfold crossover. rewrite choose_drawn.
  set (ds := draws R (length (pop c)) (gen_rng c)).
  set (q0 := drawn (crossoverProb opt) (pop c) (fst ds)).
  destruct (shuffle R q0 (snd ds)) as [q1 g2] eqn:Es.
  assert (P1 : Permutation q0 q1).
  { replace q1 with (fst (shuffle R q0 (snd ds))) by (rewrite Es; reflexivity). apply HR. }
  set (q2 := if Nat.odd (length q1) then removelast q1 else q1).
  assert (H2 : length q2 = 2 * Nat.div (length q0) 2 /\ exists t, q1 = q2 ++ t).
  { rewrite (Permutation_length P1). unfold q2. destruct (Nat.odd (length q1)) eqn:Eo.
    - destruct (removelast_prefix q1) as (t & Ht & _ & Hl).
      assert (q1 <> []) by (intros ->; discriminate). specialize (Hl H).
      assert (L : length q1 = length (removelast q1) + 1).
      { rewrite Ht at 1. rewrite app_length. lia. }
      split; [|eauto]. apply Nat.odd_spec in Eo. destruct Eo as (m & Em).
      assert (D : length q1 / 2 = m) by (symmetry; apply (Nat.div_unique _ 2 m 1); lia). lia.
    - split; [|exists []; rewrite app_nil_r; reflexivity].
      assert (Ev : Nat.even (length q1) = true) by (rewrite <- Nat.negb_odd, Eo; reflexivity).
      apply Nat.even_spec in Ev. destruct Ev as (m & Em).
      assert (D : length q1 / 2 = m) by (symmetry; apply (Nat.div_unique _ 2 m 0); lia). lia. }
  destruct H2 as (L2 & t & Ht).
  destruct (mate R fs junk (rev q2) (next c) g2) as [[kids n'] g3] eqn:Em.
  apply (mate_spec (length q0 / 2)) in Em; [|rewrite rev_length; exact L2].
  destruct Em as (pairs & kpairs & Hq & Hk & Hl & Hf & Hn & Hids).
  exists pairs, kpairs. cbn [set_pop pop fails ext next]. rewrite Hk.
  assert (Sub : forall x, In x (flat pairs) -> In x q0).
  { intros x Hx. rewrite <- Hq in Hx. apply in_rev in Hx.
    eapply Permutation_in; [apply Permutation_sym, P1|]. rewrite Ht. apply in_or_app. auto. }
  destruct Hwf as (ND & Hlt).
  split; [reflexivity|]. split; [exact Hl|].
  split; [exact Sub|].
  split. { rewrite <- Hq. rewrite map_rev. apply NoDup_rev.
           assert (N : NoDup (map gid q1)).
           { eapply Permutation_NoDup; [apply Permutation_map, P1|]. apply drawn_nodup, ND. }
           rewrite Ht, map_app in N. apply NoDup_app_l in N. exact N. }
  split; [exact Hf|].
  rewrite Hk in Hids.
  assert (Fresh : forall x, In x (flat kpairs) -> next c <= gid x < n').
  { intros x Hx. apply (in_map gid) in Hx. rewrite Hids in Hx. apply in_seq in Hx. lia. }
  split; [intros x Hx; apply Fresh in Hx; lia|].
  split; [|split; reflexivity].
  unfold wf, set_pop; split; cbn [pop next].
  - rewrite map_app. rewrite Hids. apply nodup_app_seq; assumption.
  - intros x Hx. apply in_app_or in Hx. destruct Hx as [Hx|Hx].
    + apply Hlt in Hx. lia.
    + apply Fresh in Hx. lia.
Qed.

Definition mutant_of (src kid : gene') : Prop :=
  exists g, fst (mFun fs (gvar src) g) = gvar kid /\ gcomp kid = false.

Lemma mutants_spec (q : list gene') : forall n g kids n' g',
  mutants R fs junk q n g = (kids, n', g') ->
  Forall2 mutant_of q kids /\ n' = n + length q /\ map gid kids = seq n (length q).
Proof.
  induction q as [|a q IH]; intros n g kids n' g' H; cbn [mutants] in H.
  - inversion H; subst. cbn. repeat split; auto; lia.
  - destruct (mFun fs (gvar a) g) as [v g1] eqn:Ev.
    destruct (mutants R fs junk q (S n) g1) as [[rest n2] g2] eqn:Em.
    inversion H; subst; clear H. apply IH in Em. destruct Em as (Hf & -> & Hs).
    split. { constructor; [|exact Hf]. exists g. rewrite Ev. auto. }
    split; [cbn; lia|]. cbn. rewrite Hs. reflexivity.
Qed.

Theorem mutate_spec_lemma (c : core') : wf c ->
  let c' := mutate R fs opt junk c in
  exists kids,
    pop c' = pop c ++ kids /\
    Forall2 mutant_of
      (drawn (mutateProb opt) (pop c) (fst (draws R (length (pop c)) (gen_rng c)))) kids /\
    (forall x, In x kids -> next c <= gid x) /\
    wf c' /\ fails c' = fails c /\ ext c' = ext c.
Proof.
  intros Hwf. unfold mutate. rewrite choose_drawn.
  set (ds := draws R (length (pop c)) (gen_rng c)).
  set (q := drawn (mutateProb opt) (pop c) (fst ds)).
  destruct (mutants R fs junk q (next c) (snd ds)) as [[kids n'] g2] eqn:Em.
  apply mutants_spec in Em. destruct Em as (Hf & -> & Hs). exists kids.
  destruct Hwf as (ND & Hlt).
  cbn [set_pop pop fails ext next]. split; [reflexivity|]. split; [exact Hf|].
  assert (Fresh : forall x, In x kids -> next c <= gid x < next c + length q).
  { intros x Hx. apply (in_map gid) in Hx. rewrite Hs in Hx. apply in_seq in Hx. lia. }
  split; [intros x Hx; apply Fresh in Hx; lia|].
  split; [|split; reflexivity].
  unfold wf, set_pop; split; cbn [pop next].
  - rewrite map_app. rewrite Hs. apply nodup_app_seq; assumption.
  - intros x Hx. apply in_app_or in Hx. destruct Hx as [Hx|Hx].
    + apply Hlt in Hx. lia.
    + apply Fresh in Hx. lia.
Qed.

Lemma compute_wf (c : core') : wf c -> wf (computeAllFitness R fs c).
Proof.
  intros (ND & Hlt). unfold wf, computeAllFitness; cbn [pop next].
  assert (E : map gid (map (evaluated R fs) (pop c)) = map gid (pop c)).
  { rewrite map_map. apply map_ext. intros x. unfold evaluated. destruct (gcomp x); reflexivity. }
  split; [rewrite E; exact ND|].
  intros x Hx. apply (in_map gid) in Hx. rewrite E in Hx. apply in_map_iff in Hx.
  destruct Hx as (y & <- & Hy). apply Hlt, Hy.
Qed.

Lemma init_vars_ids (p : list gene') : forall g,
  map gid (fst (init_vars R fs p g)) = map gid p /\ length (fst (init_vars R fs p g)) = length p /\
  (forall x, In x (fst (init_vars R fs p g)) -> gcomp x = false /\ exists g', gvar x = fst (iFun fs g')).
Proof.
  induction p as [|x p IH]; intros g; cbn; [repeat split; auto; contradiction|].
  destruct (iFun fs g) as [v g1] eqn:Ei. specialize (IH g1).
  destruct (init_vars R fs p g1) as [t g2]. cbn in *. destruct IH as (H1 & H2 & H3).
  split; [congruence|]. split; [congruence|].
  intros y [<-|Hy]; [|auto]. cbn. split; [reflexivity|]. exists g. rewrite Ei. reflexivity.
Qed.

Theorem initialize_spec_lemma (v0 : V) (c : core') : wf c ->
  let c' := initializePop R fs opt junk v0 c in
  length (pop c') = Z.to_nat (populationSize opt) /\ wf c' /\
  (forall x, In x (pop c') -> gcomp x = false /\ exists g, gvar x = fst (iFun fs g)).
Proof.
  intros (ND & Hlt). unfold initializePop.
  set (n := Z.to_nat (populationSize opt)). set (kept := firstn n (pop c)).
  set (extra := map _ _).
  pose proof (init_vars_ids (kept ++ extra) (gen_rng c)) as (H1 & H2 & H3).
  destruct (init_vars R fs (kept ++ extra) (gen_rng c)) as [p g]. cbn [fst pop next] in *.
  assert (E : map gid extra = seq (next c) (n - length kept)).
  { unfold extra. rewrite map_map. cbn. apply map_id. }
  split; [|split; [|exact H3]].
  - rewrite H2, app_length. unfold extra. rewrite map_length, seq_length.
    unfold kept. rewrite firstn_length. lia.
  - assert (Kl : forall x, In x kept -> gid x < next c).
    { intros x Hx. apply Hlt. unfold kept in Hx. rewrite <- (firstn_skipn n (pop c)).
      apply in_or_app. auto. }
    assert (KN : NoDup (map gid kept)).
    { rewrite <- (firstn_skipn n (pop c)) in ND. rewrite map_app in ND.
      apply NoDup_app_l in ND. exact ND. }
    split; cbn [pop next].
    + rewrite H1, map_app, E. apply nodup_app_seq; assumption.
    + intros x Hx. apply (in_map gid) in Hx. rewrite H1, map_app, E in Hx.
      apply in_app_or in Hx. destruct Hx as [Hx|Hx].
      * apply in_map_iff in Hx. destruct Hx as (y & <- & Hy). apply Kl in Hy. lia.
      * apply in_seq in Hx. lia.
Qed.

End P.
