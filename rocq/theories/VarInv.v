(** Decision variables over a whole run: whatever the initialisation function
    establishes and crossover and mutation preserve holds for every individual
    at the end, because selections only keep or copy. *)
From Coq Require Import List Arith ZArith Bool Lia Permutation.
From Flocq Require Import BinarySingleNaN.
From Verif Require Import Base Fl Rng StdOps GABase SOGA MOGA.
Import ListNotations.
Open Scope Z_scope.

Section G.
Context {V F X : Type} (R : rng_ops) (fs : user_funs V F (G R)) (opt : ga_option) (junk : F).
Notation core' := (core V F X (G R)).
Notation gene' := (gene V F).
Context (hk : hooks V F X (G R)) (P : V -> Prop).
Definition allP (l : list gene') : Prop := forall x, In x l -> P (gvar x).

Definition closed_ops : Prop :=
  (forall a b g, P a -> P b -> P (fst (fst (cFun fs a b g))) /\ P (snd (fst (cFun fs a b g)))) /\
  (forall a g, P a -> P (fst (mFun fs a g))).

Lemma allP_app l l' : allP (l ++ l') <-> allP l /\ allP l'.
Proof.
  unfold allP. split.
  - intros H. split; intros x Hx; apply H, in_or_app; auto.
  - intros (A & B) x Hx. apply in_app_or in Hx. destruct Hx; auto.
Qed.
Lemma choose_incl prob (p : list gene') : forall g x, In x (fst (choose R prob p g)) -> In x p.
Proof.
  induction p as [|y p IH]; intros g x H; cbn in *; [contradiction|].
  destruct (rand01 R g) as [d g1]. specialize (IH g1 x). destruct (choose R prob p g1) as [q g2]. cbn in *.
  destruct (fle d prob); cbn in H; tauto.
Qed.
Lemma mate_P n : forall (q : list gene') k g, (length q <= n)%nat -> closed_ops -> allP q -> allP (fst (fst (mate R fs junk q k g))).
Proof.
  induction n as [|n IH]; intros q k g L HC H.
  - destruct q; [intros x []|cbn in L; lia].
  - destruct q as [|a [|b t]]; [intros x []|intros x []|].
    cbn [mate]. assert (Pa : P (gvar a)) by (apply H; left; reflexivity).
    assert (Pb : P (gvar b)) by (apply H; right; left; reflexivity).
    destruct (proj1 HC (gvar a) (gvar b) g Pa Pb) as (P1 & P2).
    destruct (cFun fs (gvar a) (gvar b) g) as [[v1 v2] g1]. cbn [fst snd] in P1, P2.
    assert (Ht : allP (fst (fst (mate R fs junk t (k + 2) g1)))).
    { apply IH; [cbn in L; lia|exact HC|]. intros x Hx. apply H. right; right; exact Hx. }
    destruct (mate R fs junk t (k + 2) g1) as [[rest n'] g2]. cbn [fst] in *.
    intros x [<-|[<-|Hx]]; cbn; auto.
Qed.
Lemma removelast_in {A} (l : list A) x : In x (removelast l) -> In x l.
Proof.
  induction l as [|y l IH]; [auto|]. destruct l as [|z l]; [intros []|].
  intros [H|H]; [left; exact H|right; apply IH, H].
Qed.
Lemma crossover_P (c : core') : rng_ok R -> closed_ops -> allP (pop c) -> allP (pop (crossover R fs opt junk c)).
Proof.
  intros HR HC H. unfold crossover.
  pose proof (choose_incl (crossoverProb opt) (pop c) (gen_rng c)) as I.
  destruct (choose R (crossoverProb opt) (pop c) (gen_rng c)) as [q0 g1]. cbn [fst] in I.
  destruct HR as (_ & _ & Hsh). specialize (Hsh _ q0 g1). destruct (shuffle R q0 g1) as [q1 g2]. cbn [fst] in Hsh.
  set (q2 := if Nat.odd (length q1) then removelast q1 else q1).
  assert (I2 : forall x, In x q2 -> In x (pop c)).
  { intros x Hx. apply I. eapply Permutation_in; [apply Permutation_sym, Hsh|]. unfold q2 in Hx.
    destruct (Nat.odd (length q1)); [apply removelast_in|]; exact Hx. }
  pose proof (mate_P (length (rev q2)) (rev q2) (next c) g2 (le_n _) HC) as M.
  destruct (mate R fs junk (rev q2) (next c) g2) as [[kids n'] g3]. cbn [pop set_pop fst] in *.
  apply allP_app. split; [exact H|]. apply M. intros x Hx. apply H, I2, in_rev. exact Hx.
Qed.
Lemma mutants_P (q : list gene') : forall k g, closed_ops -> allP q -> allP (fst (fst (mutants R fs junk q k g))).
Proof.
  induction q as [|a t IH]; intros k g HC H; [intros x []|]. cbn [mutants].
  pose proof (proj2 HC (gvar a) g (H a (or_introl eq_refl))) as P1.
  destruct (mFun fs (gvar a) g) as [v g1]. cbn [fst] in P1.
  assert (Ht : allP (fst (fst (mutants R fs junk t (S k) g1)))).
  { apply IH; [exact HC|]. intros x Hx. apply H. right. exact Hx. }
  destruct (mutants R fs junk t (S k) g1) as [[rest n'] g2]. cbn [fst] in *.
  intros x [<-|Hx]; cbn; auto.
Qed.
Lemma breed_P (c : core') : rng_ok R -> closed_ops -> allP (pop c) -> allP (pop (breed R fs opt junk c)).
Proof.
  intros HR HC H. unfold breed, mutate. pose proof (crossover_P c HR HC H) as H1.
  set (c1 := crossover R fs opt junk c) in *.
  pose proof (choose_incl (mutateProb opt) (pop c1) (gen_rng c1)) as I.
  destruct (choose R (mutateProb opt) (pop c1) (gen_rng c1)) as [q g1]. cbn [fst] in I.
  pose proof (mutants_P q (next c1) g1 HC) as M.
  destruct (mutants R fs junk q (next c1) g1) as [[kids n'] g2]. cbn [pop set_pop fst] in *.
  apply allP_app. split; [exact H1|]. apply M. intros x Hx. apply H1, I, Hx.
Qed.

Definition keeps_vars : Prop :=
  forall c c', hk_select hk c = Ok c' -> forall x, In x (pop c') -> exists y, In y (pop c) /\ gvar x = gvar y.

Lemma es_P (c c' : core') : keeps_vars -> allP (pop c) -> evaluate_and_select R fs hk c = Ok c' -> allP (pop c').
Proof.
  intros HK H E x Hx. destruct (HK _ _ E x Hx) as (y & Hy & ->). cbn [pop computeAllFitness] in Hy.
  apply in_map_iff in Hy. destruct Hy as (z & <- & Hz). unfold evaluated. destruct (gcomp z); apply (H z Hz).
Qed.
Lemma loop_P rec_on n : rng_ok R -> closed_ops -> keeps_vars -> forall s s' : ga V F X (G R),
  allP (pop (ga_core s)) -> ga_loop R fs opt junk hk rec_on n s = Ok s' -> allP (pop (ga_core s')).
Proof.
  intros HR HC HK. induction n as [|n IH]; intros s s' H E; cbn [ga_loop] in E; [discriminate|].
  apply bind_Ok in E. destruct E as (c & Ec & E). apply bind_Ok in E. destruct E as (r & _ & E).
  pose proof (es_P _ _ HK H Ec) as H1. destruct (_ || _).
  - assert (ga_core s' = c) as -> by (inversion E; reflexivity). exact H1.
  - eapply IH; [|exact E]. cbn [ga_core]. apply breed_P; assumption.
Qed.
Lemma run_P rec_on vec_max n : rng_ok R -> closed_ops -> keeps_vars -> forall s s' : ga V F X (G R),
  allP (pop (ga_core s)) -> run R fs opt junk hk rec_on vec_max n s = Ok s' -> allP (pop (ga_core s')).
Proof.
  intros HR HC HK s s' H E. unfold run in E. destruct (_ && _); [discriminate|].
  refine (loop_P rec_on n HR HC HK _ s' _ E). exact H.
Qed.
Lemma init_vars_P (p : list gene') : forall g, (forall g, P (fst (iFun fs g))) -> allP (fst (init_vars R fs p g)).
Proof.
  induction p as [|y p IH]; intros g HI; [intros x []|]. cbn [init_vars].
  pose proof (HI g) as P1. destruct (iFun fs g) as [v g1]. specialize (IH g1 HI).
  destruct (init_vars R fs p g1) as [t g2]. cbn [fst] in *. intros x [<-|Hx]; cbn; auto.
Qed.
Lemma initialize_P v0 (c : core') : (forall g, P (fst (iFun fs g))) -> allP (pop (initializePop R fs opt junk v0 c)).
Proof.
  intros HI. unfold initializePop.
  match goal with |- context [init_vars R fs ?p ?g] => pose proof (init_vars_P p g HI) as H; destruct (init_vars R fs p g) as [q g'] end.
  exact H.
Qed.
End G.

(** ** Selections only keep or copy. *)
Section S.
Context {V : Type} (R : rng_ops) (std : std_ops) (greater : bool) (opt : ga_option) (sp : sel_params).
Notation core' := (core V double nat (G R)).
Notation gene' := (gene V double).

Lemma erase1_incl (p : list gene') : forall id p', erase1 p id = Ok p' -> incl p' p.
Proof.
  induction p as [|x p IH]; intros id p' H; cbn in H; [discriminate|].
  destruct (Nat.eqb (gid x) id); [inversion H; apply incl_tl, incl_refl|].
  apply bind_Ok in H. destruct H as (t & Et & H). inversion H; subst.
  intros y [<-|Hy]; [left; reflexivity|right; apply (IH _ _ Et), Hy].
Qed.
Lemma erase_all_incl ids : forall (p p' : list gene'), erase_all p ids = Ok p' -> incl p' p.
Proof.
  induction ids as [|i ids IH]; intros p p' H; cbn in H; [inversion H; apply incl_refl|].
  apply bind_Ok in H. destruct H as (q & Eq & H). eapply incl_tran; [exact (IH _ _ H)|exact (erase1_incl _ _ _ Eq)].
Qed.
Lemma trunc_incl w : forall (p p' : list gene'), trunc_erase opt p w = Ok p' -> incl p' p.
Proof.
  induction w as [|x w IH]; intros p p' H; cbn in H; destruct (K opt <? _); try discriminate;
    try (inversion H; apply incl_refl).
  apply bind_Ok in H. destruct H as (q & Eq & H). eapply incl_tran; [exact (IH _ _ H)|exact (erase1_incl _ _ _ Eq)].
Qed.
Lemma upd2_pop (c : core') p g nb prev c' : updateFail2 R greater c p g nb prev = Ok c' -> pop c' = p.
Proof. unfold updateFail2. destruct nb; intros H; [inversion H; reflexivity|discriminate]. Qed.
Lemma upd1_pop (c : core') p g nb c' : updateFail1 R greater c p g nb = Ok c' -> pop c' = p.
Proof. unfold updateFail1. intros H. apply bind_Ok in H. destruct H as (o & _ & H). eapply upd2_pop, H. Qed.
Lemma fin2_incl (c : core') e g prev c' : finish2 R greater c e g prev = Ok c' -> incl (pop c') (pop c).
Proof.
  unfold finish2. intros H. apply bind_Ok in H. destruct H as (p & Ep & H). rewrite (upd2_pop _ _ _ _ _ _ H).
  exact (erase_all_incl _ _ _ Ep).
Qed.
Lemma fin1_incl (c : core') e g c' : finish1 R greater c e g = Ok c' -> incl (pop c') (pop c).
Proof.
  unfold finish1. intros H. apply bind_Ok in H. destruct H as (p & Ep & H). rewrite (upd1_pop _ _ _ _ _ H).
  exact (erase_all_incl _ _ _ Ep).
Qed.

Definition from (c c' : core') : Prop := forall x, In x (pop c') -> exists y, In y (pop c) /\ gvar x = gvar y.
Lemma incl_from (c c' : core') : incl (pop c') (pop c) -> from c c'.
Proof. intros I x Hx. exists x. split; [apply I, Hx|reflexivity]. Qed.
Lemma same_from (c c' : core') : pop c' = pop c -> from c c'.
Proof. intros E. apply incl_from. rewrite E. apply incl_refl. Qed.
Lemma copies_in (l : list gene') : forall n x, In x (copies_with n l) -> exists y, In y l /\ gvar x = gvar y.
Proof.
  induction l as [|y l IH]; intros n x H; cbn in H; [contradiction|].
  destruct H as [<-|H]; [exists y; split; [left; reflexivity|reflexivity]|].
  destruct (IH _ _ H) as (z & Hz & E). exists z. split; [right; exact Hz|exact E].
Qed.

Ltac stepb H := let a := fresh "a" in let E := fresh "E" in apply bind_Ok in H; destruct H as (a & E & H).
Lemma select_from m fuel (c c' : core') : std_ok std -> select R std greater opt sp m fuel c = Ok c' -> from c c'.
Proof.
  intros Hstd H. destruct m; cbn [select] in H.
  - unfold sel_roulette in H. stepb H. destruct (_ <=? 0); [apply same_from; exact (upd2_pop _ _ _ _ _ _ H)|].
    apply bind_Ok in H. destruct H as ((es & g) & _ & H). apply incl_from. exact (fin2_incl _ _ _ _ _ H).
  - unfold sel_tournament in H. destruct (negb _); [discriminate|]. stepb H.
    destruct (_ <=? _); [apply same_from; exact (upd2_pop _ _ _ _ _ _ H)|].
    destruct (shuffle R (pop c) (gen_rng c)) as [space g1]. apply bind_Ok in H. destruct H as ((ws & g2) & _ & H).
    stepb H. inversion H; subst. cbn [pop]. unfold from. cbn [pop]. rewrite (upd2_pop _ _ _ _ _ _ E0).
    intros x Hx. apply in_app_or in Hx. destruct Hx as [Hx|Hx].
    + apply filter_In in Hx. exists x. tauto.
    + apply copies_in in Hx. destruct Hx as (y & Hy & Ey). exists y. split; [|exact Ey].
      apply in_flat_map in Hy. destruct Hy as (z & Hz & Hy). apply repeat_spec in Hy. subst z.
      destruct Hstd as (_ & HU).
      assert (Hz' : In y (filter (fun x => negb (times_selected ws x =? 0)%nat) (pop c))).
      { eapply Permutation_in; [apply Permutation_sym|exact Hz]. apply HU. }
      apply filter_In in Hz'. tauto.
  - unfold sel_truncation in H. stepb H. stepb H. destruct (firstn _ _); [discriminate|].
    apply incl_from. rewrite (upd1_pop _ _ _ _ _ H). exact (trunc_incl _ _ _ E0).
  - unfold sel_montecarlo in H. stepb H. destruct (_ <=? _); [apply same_from; exact (upd2_pop _ _ _ _ _ _ H)|].
    destruct (shuffle R _ _) as [its g1]. stepb H. apply incl_from. rewrite (upd2_pop _ _ _ _ _ _ H).
    exact (erase_all_incl _ _ _ E0).
  - unfold sel_probability in H. stepb H. destruct (_ <=? 0); [apply same_from; exact (upd2_pop _ _ _ _ _ _ H)|].
    apply bind_Ok in H. destruct H as ((es & g) & _ & H). apply incl_from. exact (fin2_incl _ _ _ _ _ H).
  - unfold sel_linear in H. stepb H. destruct (_ <=? _); [apply same_from; exact (upd1_pop _ _ _ _ _ H)|].
    stepb H. apply bind_Ok in H. destruct H as ((es & g) & _ & H). apply incl_from. exact (fin2_incl _ _ _ _ _ H).
  - unfold sel_exponential in H. stepb H. destruct (_ <=? _); [apply same_from; exact (upd1_pop _ _ _ _ _ H)|].
    stepb H. apply bind_Ok in H. destruct H as ((es & g) & _ & H). apply incl_from. exact (fin2_incl _ _ _ _ _ H).
  - unfold sel_boltzmann in H. stepb H. destruct (_ <=? 0); [apply same_from; exact (upd1_pop _ _ _ _ _ H)|].
    apply bind_Ok in H. destruct H as ((es & g) & _ & H). apply incl_from. exact (fin2_incl _ _ _ _ _ H).
  - unfold sel_stochastic in H. stepb H. destruct (_ <=? 0); [apply same_from; exact (upd1_pop _ _ _ _ _ H)|].
    destruct (fle _ d0).
    + destruct (su_equal _ _ _ _ _) as [es g]. apply incl_from. exact (fin2_incl _ _ _ _ _ H).
    + destruct (randD_range R d0 _ _) as [beg g]. apply incl_from. exact (fin2_incl _ _ _ _ _ H).
  - unfold sel_elite in H. destruct (_ <=? 0); [apply same_from; exact (upd1_pop _ _ _ _ _ H)|].
    stepb H. destruct (_ <? 0); [discriminate|].
    apply bind_Ok in H. destruct H as ((es & g) & _ & H). apply incl_from. exact (fin1_incl _ _ _ _ H).
Qed.
End S.

Lemma m_erase1_incl {V F} (p : list (gene V F)) : forall id p', m_erase1 p id = Ok p' -> incl p' p.
Proof.
  induction p as [|x p IH]; intros id p' H; cbn in H; [discriminate|].
  destruct (Nat.eqb (gid x) id); [inversion H; apply incl_tl, incl_refl|].
  apply bind_Ok in H. destruct H as (t & Et & H). inversion H; subst.
  intros y [<-|Hy]; [left; reflexivity|right; apply (IH _ _ Et), Hy].
Qed.
Lemma m_erase_all_incl {V F} ids : forall (p p' : list (gene V F)), m_erase_all p ids = Ok p' -> incl p' p.
Proof.
  induction ids as [|i ids IH]; intros p p' H; cbn in H; [inversion H; apply incl_refl|].
  apply bind_Ok in H. destruct H as (q & Eq & H). eapply incl_tran; [exact (IH _ _ H)|exact (m_erase1_incl _ _ _ Eq)].
Qed.
Lemma nsga2_incl {V} R std M greater opt (c c' : core V fitv (list nat) (G R)) :
  nsga2_select R std M greater opt c = Ok c' -> incl (pop c') (pop c).
Proof.
  unfold nsga2_select. destruct (divideLayers std M greater (pop c)) as [space layers]. destruct layers; [discriminate|].
  intros H. apply bind_Ok in H. destruct H as (((sel & rest) & need) & _ & H).
  apply bind_Ok in H. destruct H as ((sp & sl) & _ & H). apply bind_Ok in H. destruct H as (p & Ep & H).
  inversion H; subst. cbn [pop]. exact (m_erase_all_incl _ _ _ Ep).
Qed.
