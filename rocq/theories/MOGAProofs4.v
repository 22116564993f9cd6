(** Whole runs of multi-objective solvers (any selection that keeps exactly
    populationSize individuals and never touches the failure counter). *)
From Coq Require Import List Arith ZArith Bool Lia Permutation.
From Flocq Require Import BinarySingleNaN.
From Verif Require Import Base Fl Rng GABase GABaseProofs GAOpsProofs.
Import ListNotations.
Open Scope Z_scope.

Section G.
Context {V F X : Type} (R : rng_ops) (fs : user_funs V F (G R)) (opt : ga_option).
Notation core' := (core V F X (G R)).
Notation gene' := (gene V F).
Context (junk : F) (hk : hooks V F X (G R)).
Notation es := (evaluate_and_select R fs hk).
Notation brd := (breed R fs opt junk).
Notation comp := (computeAllFitness R fs).

Lemma breed_fails (c : core') : fails (brd c) = fails c.
Proof.
  unfold breed, mutate, crossover.
  repeat match goal with |- context [let (_, _) := ?e in _] => destruct e end.
  cbn [fails set_pop pop]. 
  repeat match goal with |- context [let (_, _) := ?e in _] => destruct e end. reflexivity.
Qed.

(** Selection that never changes the failure counter: run() stops at maxGenerations only. *)
Lemma no_fail_stop cs : (forall c c', hk_select hk c = Ok c' -> fails c' = fails c) -> 0 <= maxGenerations opt ->
  forall c0 t, fails c0 = 0 -> rounds R fs opt junk hk c0 cs -> stops_at_last R opt t cs -> t <= maxGenerations opt + 1 ->
  t + Z.of_nat (length cs) - 1 = maxGenerations opt + 1 /\ Forall (fun c => fails c = 0) cs.
Proof.
  intros HF HM. induction cs as [|c cs IH]; intros c0 t H0 Hr Hs Ht; [contradiction|].
  cbn [rounds] in Hr. destruct Hr as (E & Hr).
  assert (F0 : fails c = 0) by (rewrite (HF _ _ E); exact H0).
  destruct cs as [|c1 cs].
  - cbn [stops_at_last] in Hs. split; [|constructor; [exact F0|constructor]].
    destruct Hs as [Hs|Hs]; [cbn; lia|]. lia.
  - change (stops_at_last R opt t (c :: c1 :: cs)) with (~ stops R opt t c /\ stops_at_last R opt (t + 1) (c1 :: cs)) in Hs.
    destruct Hs as (Hn & Hs).
    assert (t <= maxGenerations opt) by (destruct (Z.lt_ge_cases (maxGenerations opt) t); [exfalso; apply Hn; left; assumption|assumption]).
    destruct (IH (brd c) (t + 1)) as (A & B); try assumption; [rewrite breed_fails; exact F0|lia|].
    split; [cbn [length] in *; lia|]. constructor; assumption.
Qed.

Lemma breed_more (c : core') : rng_ok R -> wf c -> wf (brd c) /\ (exists kids, pop (brd c) = pop c ++ kids) /\
  forall x, In x (pop (brd c)) -> In x (pop c) \/ gcomp x = false.
Proof.
  intros HR Hw. unfold breed.
  destruct (crossover_spec_lemma R fs opt junk c HR Hw) as (ps & ks & E1 & _ & _ & _ & Fk & _ & W1 & F1 & X1).
  destruct (mutate_spec_lemma R fs opt junk (crossover R fs opt junk c) W1) as (kids & E2 & Fm & _ & W2 & F2 & X2).
  split; [exact W2|]. split; [exists (flat ks ++ kids); rewrite E2, E1, app_assoc; reflexivity|].
  intros x Hx. rewrite E2, E1 in Hx. apply in_app_or in Hx. destruct Hx as [Hx|Hx].
  - apply in_app_or in Hx. destruct Hx as [Hx|Hx]; [left; exact Hx|right].
    clear -Fk Hx. induction Fk as [|[a b] [k l] ps ks Hkl F9 IH]; cbn in Hx; [contradiction|].
    destruct Hkl as (g & _ & C1 & C2). destruct Hx as [<-|[<-|Hx]]; cbn in *; auto.
  - right. clear -Fm Hx. induction Fm as [|a k l ks Hkl F9 IH]; cbn in Hx; [contradiction|].
    destruct Hkl as (g & _ & C). destruct Hx as [<-|Hx]; auto.
Qed.

Context (Q : F -> Prop).
(** States entering a round. *)
Definition mo_inv (c : core') : Prop :=
  wf c /\ populationSize opt <= Z.of_nat (length (pop c)) /\ forall x, In x (pop c) -> gcomp x = true -> Q (gfit x).
Definition mo_good : Prop :=
  forall c, wf c -> populationSize opt <= Z.of_nat (length (pop c)) -> (forall x, In x (pop c) -> Q (gfit x)) ->
    exists c' b, hk_select hk c = Ok c' /\ hk_best hk c' = Ok b /\ wf c' /\
      Z.of_nat (length (pop c')) = populationSize opt /\ incl (pop c') (pop c) /\ fails c' = fails c.

Lemma mo_round (c : core') : rng_ok R -> mo_good -> (forall v, Q (fFun fs v)) -> mo_inv c ->
  exists c' b, es c = Ok c' /\ hk_best hk c' = Ok b /\ mo_inv (brd c') /\ fails c' = fails c /\
    Z.of_nat (length (pop c')) = populationSize opt.
Proof.
  intros HR HG HQ (Hw & HK & HC).
  destruct (HG (comp c)) as (c' & b & E & Eb & W & L & I & F0).
  - apply compute_wf, Hw.
  - cbn [pop computeAllFitness]. rewrite map_length. exact HK.
  - intros x Hx. cbn [pop computeAllFitness] in Hx. apply in_map_iff in Hx. destruct Hx as (y & <- & Hy).
    unfold evaluated. destruct (gcomp y) eqn:E; [exact (HC y Hy E)|apply HQ].
  - exists c', b. split; [exact E|]. split; [exact Eb|]. split; [|split; [exact F0|exact L]].
    destruct (breed_more c' HR W) as (W2 & (kids & E2) & U). split; [exact W2|]. split.
    + rewrite E2, app_length. lia.
    + intros x Hx Hc. destruct (U x Hx) as [Hx'|Hx']; [|congruence]. apply I in Hx'.
      cbn [pop computeAllFitness] in Hx'. apply in_map_iff in Hx'. destruct Hx' as (y & <- & Hy).
      unfold evaluated in *. destruct (gcomp y) eqn:Ey; [exact (HC y Hy Ey)|apply HQ].
Qed.
Lemma mo_loop rec_on n : rng_ok R -> mo_good -> (forall v, Q (fFun fs v)) -> maxGenerations opt < two64 - 1 ->
  forall s : ga V F X (G R), mo_inv (ga_core s) -> fails (ga_core s) = 0 ->
    0 <= generation s <= maxGenerations opt -> maxGenerations opt < generation s + Z.of_nat n ->
  exists s', ga_loop R fs opt junk hk rec_on n s = Ok s' /\ generation s' = maxGenerations opt /\
    fails (ga_core s') = 0 /\ Z.of_nat (length (pop (ga_core s'))) = populationSize opt.
Proof.
  intros HR HG HQ HM. induction n as [|n IH]; intros s Hi H0 Hg Hn; [lia|]. cbn [ga_loop].
  destruct (mo_round (ga_core s) HR HG HQ Hi) as (c & b & E & Eb & Hi' & F0 & L). rewrite E. cbn [bind].
  assert (Er : exists r, (if rec_on then do b <- hk_best hk c; Ok (record s ++ [b]) else Ok (record s)) = Ok r).
  { destruct rec_on; [rewrite Eb; cbn [bind]|]; eauto. }
  destruct Er as (r & Er). rewrite Er. cbn [bind]. rewrite wrap64_small by (unfold two64 in *; lia).
  destruct (Z.ltb_spec (maxGenerations opt) (generation s + 1)) as [G1|G1]; cbn [orb].
  - eexists. split; [reflexivity|]. cbn [generation ga_core]. rewrite wrap64_small by (unfold two64 in *; lia).
    split; [lia|]. split; [congruence|exact L].
  - replace (maxFailTimes opt <? fails c) with (maxFailTimes opt <? 0) by (f_equal; congruence).
    destruct (Z.ltb_spec 0 (maxFailTimes opt)); destruct (Z.ltb_spec (maxFailTimes opt) 0); cbn [andb]; try lia;
      (apply IH; cbn [ga_core generation]; [exact Hi'|rewrite breed_fails; congruence|lia|lia]).
Qed.
Lemma mo_run rec_on vec_max v0 (c : core') g r : rng_ok R -> mo_good -> (forall v, Q (fFun fs v)) ->
  0 <= maxGenerations opt < two64 - 1 -> 0 <= populationSize opt -> wf c ->
  (rec_on = true -> maxGenerations opt < vec_max) ->
  exists s', run R fs opt junk hk rec_on vec_max (S (Z.to_nat (maxGenerations opt)))
               (mkGA (initializePop R fs opt junk v0 c) g r) = Ok s' /\
    generation s' = maxGenerations opt /\ fails (ga_core s') = 0 /\
    Z.of_nat (length (pop (ga_core s'))) = populationSize opt.
Proof.
  intros HR HG HQ HM HK Hw Hv. unfold run.
  replace (rec_on && _) with false.
  2:{ destruct rec_on; [|reflexivity]. cbn [andb]. specialize (Hv eq_refl). symmetry. apply Z.ltb_ge.
      rewrite wrap64_small by (unfold two64 in *; lia). lia. }
  cbv zeta. destruct (initialize_spec_lemma R fs opt junk v0 c Hw) as (L & W & U).
  apply mo_loop; try assumption; cbn [ga_core generation fails]; try lia; try reflexivity.
  unfold mo_inv, wf. cbn [pop next]. destruct W as (W1 & W2). split; [split; assumption|]. split; [rewrite L; lia|].
  intros x Hx Hc. destruct (U x Hx) as (U1 & _). congruence.
Qed.
End G.
