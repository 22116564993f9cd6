(** A program that sets up a swarm with the built-in initialisation in a square
    box, initialises and runs it. *)
From Coq Require Import List Arith ZArith Bool Lia Reals.
From Flocq Require Import Core BinarySingleNaN.
From Verif Require Import Props_PSO Props_PSOObj Props_PSORegion Base Fl FlFacts Rng Box PSO PSOSpec PSOProofs PSOObj PSOObjSpec PSOObjProofs PSORegionSpec PSORegionProofs.
Import ListNotations.
Open Scope Z_scope.

Section Prog.
Context {A : Type} (R : rng_ops) (HR : rng_ok R) (k : kind) (greater rec_on : bool) (vec_max : Z) (junk : point).
Notation obj' := (@obj A R).
Notation call' := (@call A R).
Notation step' := (@step A R k greater rec_on vec_max).
Notation drive' := (@drive A R k greater rec_on vec_max).
Notation start := (@fresh A R junk).
Notation history' := (@lawful_history A R k greater rec_on vec_max).
Definition setter (c : call') : Prop := match c with InitializePop _ | Run _ | SetIFun _ _ => False | _ => True end.
Lemma setters_lawful h : forall (o o' : obj'), Forall setter h -> drive' o h = Ok o' -> history' o h.
Proof.
  induction h as [|c h IH]; intros o o' F H; cbn [lawful_history drive] in *; [exact Logic.I|].
  apply bind_Ok in H. destruct H as (o1 & H1 & H). pose proof (Forall_inv F) as Fc. apply Forall_inv_tail in F. split.
  - destruct c; try exact Logic.I; try contradiction. cbn [step lawful] in *. apply bind_Ok in H1. destruct H1 as (m & E & _). congruence.
  - intros o2 H2. assert (o2 = o1) by (apply Ok_inj; congruence). subst o2. exact (IH o1 o' F H).
Qed.
Lemma history_join h1 h2 : forall (o : obj'), history' o h1 -> (forall o1, drive' o h1 = Ok o1 -> history' o1 h2) -> history' o (h1 ++ h2).
Proof.
  induction h1 as [|c h1 IH]; intros o L K; cbn [app lawful_history drive] in *; [apply K; reflexivity|].
  destruct L as (L1 & L2). split; [exact L1|]. intros o1 H1. apply IH; [apply L2, H1|]. intros o2 H2. apply K. rewrite H1. exact H2.
Qed.

Context (f0 : option (A -> list double -> double)) (a0 : A) (g : G R) (h : list call').
Context (opt : pso_option) (d : option Z) (rc : option (Z * Z)) (lo hi vm : double) (ff : A -> list double -> double) (a : A) (n : Z).
Definition ready : obj' := mkObj R opt (mkMem d rc (all lo) (all hi) (all vm)) (IDefault R) (Some ff) a (mkPSO (mkSwarm [] junk 0 g) 0 []) false.
Hypothesis Hs : Forall setter h.
Hypothesis Hd : drive' (start (IDefault R) f0 a0 g) h = Ok ready.
Hypothesis Hn : dims k (mkMem d rc (all lo) (all hi) (all vm)) = Ok n.
Hypothesis Hn0 : 0 <= n.
Hypothesis Hbox : fin lo /\ fin hi /\ flt lo hi = true /\ fin (fsub hi lo) /\ flt d0 vm = true.
Hypothesis Hp : 1 <= p_populationSize opt.
Hypothesis Hg : 0 <= p_maxGeneration opt < two64 - 1.
Hypothesis Hv : p_maxGeneration opt + 1 <= vec_max.
Definition cube (p : list double) : Prop := Z.of_nat (length p) = n /\ forall x, In x p -> fle lo x = true /\ fle x hi = true.
Hypothesis Hf : forall q, cube q -> nonnan (ff a q).

Lemma known_all (x : double) m : known_upto (all x) m.
Proof. intros i _. discriminate. Qed.
Lemma prog_lawful : history' (start (IDefault R) f0 a0 g) (h ++ [InitializePop R; Run R]).
Proof.
  apply history_join; [eapply setters_lawful; [exact Hs|exact Hd]|]. intros o1 H1. assert (o1 = ready) by (apply Ok_inj; congruence). subst o1. clear H1.
  unfold ready. cbn [lawful_history lawful o_opt o_f o_i o_mem]. split.
  - split; [exact Hp|]. split; [discriminate|]. exists n. split; [exact Hn|]. cbn [m_lo m_hi]. split; apply known_all.
  - intros o2 H2. split; [|intros; exact Logic.I]. destruct (step_swarm _ _ _ _ _ _ _ _ H2) as (op & j & f1 & Ef & -> & _ & _ & Hi & Ef1 & _ & Eo & Em & _).
    rewrite Hi, Eo, Em, Ef1. cbn [o_opt o_mem o_f m_lo m_hi m_vm] in *. split; [reflexivity|]. split; [discriminate|]. split; [exact Hg|]. split; [exact Hv|].
    intros _ x _. cbv zeta. split; [|split]; apply known_all.
Qed.
Lemma within_cube q : Z.of_nat (length q) = n -> within (mkMem d rc (all lo) (all hi) (all vm)) q -> cube q.
Proof.
  intros L W. split; [exact L|]. intros x Hx. destruct (In_nth_error _ _ Hx) as (j & Ej). destruct (W j x Ej) as (l & u & E1 & E2 & B).
  cbn [m_lo m_hi] in E1, E2. unfold all in E1, E2. injection E1 as <-. injection E2 as <-. exact B.
Qed.
Lemma swarm_program : exists o1 o rows b ng t,
  drive' (start (IDefault R) f0 a0 g) (h ++ [InitializePop R]) = Ok o1 /\ drive' o1 [Run R] = Ok o /\
  drive' (start (IDefault R) f0 a0 g) (h ++ [InitializePop R; Run R]) = Ok o /\
  o_args R o1 = a /\ Z.of_nat (length (get_population R o1)) = p_populationSize opt /\ Z.of_nat (length (get_population R o)) = p_populationSize opt /\
  evaluated R greater (ff a) rows (p_swarm (o_pso R o)) /\ (forall row q, In row rows -> In q row -> cube q) /\
  (forall x, In x (get_population R o1) -> exists row, In row rows /\ In (position (here x)) row) /\
  (forall x, In x (get_population R o) -> cube (position (here x)) /\ cube (position (pBest x)) /\ fitness (pBest x) = ff a (position (pBest x))) /\
  get_globalBest R o = Ok b /\ get_bestFitness R o = Ok (fitness b) /\ fitness b = ff a (position b) /\ cube (position b) /\
  (exists row, In row rows /\ In (position b) row) /\
  (forall row q, In row rows -> In q row -> better greater (ff a q) (fitness b) = false) /\
  get_generation R o = Ok ng /\ get_failTimes R o = Ok t /\ 0 <= ng <= p_maxGeneration opt /\ 0 <= t <= ng + 1 /\
  (ng = p_maxGeneration opt \/ 0 < p_maxFailTimes opt < t) /\
  (rec_on = true -> Z.of_nat (length (get_record R o)) = ng + 1).
Proof.
  pose proof prog_lawful as L.
  destruct (C85_lawful_history_returns A R k greater rec_on vec_max junk (IDefault R) f0 a0 g _ L) as (o & Ho).
  assert (Hso : drive' ready (InitializePop R :: [Run R]) = Ok o) by (rewrite drive_app, Hd in Ho; exact Ho).
  assert (H1 : exists o1, drive' ready [InitializePop R] = Ok o1 /\ drive' o1 [Run R] = Ok o).
  { change (InitializePop (A := A) R :: [Run R]) with ([InitializePop (A := A) R] ++ [Run R]) in Hso. rewrite drive_app in Hso. apply bind_Ok in Hso. exact Hso. }
  destruct H1 as (o1 & H1 & H2).
  assert (Hh : Forall (fun c : call' => match c with SetIFun _ _ => False | _ => True end) h) by (eapply Forall_impl; [|exact Hs]; intros [| | | | | | |] Hc; try exact Logic.I; contradiction).
  assert (Sp : same_problem A R [Run R]) by (repeat constructor).
  assert (Vp : vproper (box_of (o_mem R ready) n)).
  { split; [exact Hn0|]. intros i _. unfold ready, all. cbn [box_of v_lo v_hi v_max o_mem m_lo m_hi m_vm value]. exact Hbox. }
  destruct (C97_only_in_box A R k greater rec_on vec_max junk f0 a0 g h [Run R] ready o n HR L Sp ltac:(repeat constructor) Hh Hd Hso Hn Vp) as (St & Em).
  destruct (C97_only_inside A R k greater rec_on vec_max junk _ (IDefault R) f0 a0 g h [Run R] ready o L Sp Hd Hso St) as (f1 & rows & Ef & Ev & Rw & Pn & Pi & Rest).
  assert (Eo : o_f R o = Some ff /\ o_args R o = a /\ o_args R o1 = a).
  { cbn [drive] in H1, H2. apply bind_Ok in H1. destruct H1 as (p1 & H1 & E1). apply Ok_inj in E1. subst p1. apply bind_Ok in H2. destruct H2 as (p2 & H2 & E2). apply Ok_inj in E2. subst p2.
    destruct (step_swarm _ _ _ _ _ _ _ _ H1) as (op & j & f2 & Ef2 & _ & _ & _ & _ & Ef3 & Ea3 & _). destruct (step_swarm _ _ _ _ _ _ _ _ H2) as (f4 & n4 & Ef4 & _ & _ & _ & Ef5 & Ea5 & _).
    unfold ready in *. cbn [o_f o_args] in *. split; [congruence|]. split; congruence. }
  destruct Eo as (Eo1 & Eo2 & Eo3). rewrite Eo1 in Ef. injection Ef as <-. rewrite Eo2 in *.
  assert (Cb : forall q, Z.of_nat (length q) = n /\ within (o_mem R o) q -> cube q) by (intros q (Q1 & Q2); rewrite Em in Q2; apply within_cube; assumption).
  destruct (Rest (fun q Hq => Hf q (Cb q Hq))) as (b & B1 & B2 & B3 & B4 & B5 & B6 & B7). clear Rest. destruct (B7 (or_introl eq_refl)) as (_ & B8 & _).
  change (InitializePop (A := A) R :: [Run R]) with ([InitializePop (A := A) R] ++ [Run R]) in L, Ho. rewrite app_assoc in L, Ho.
  assert (H1' : drive' (start (IDefault R) f0 a0 g) (h ++ [InitializePop R]) = Ok o1) by (rewrite drive_app, Hd; exact H1).
  destruct (C97_stop_reason A R k greater rec_on vec_max junk _ _ _ _ _ o1 o L H1' H2) as (ng & t & S1 & S2 & S3 & S4 & S5).
  destruct (C85_after_run A R k greater rec_on vec_max junk _ _ _ _ _ o L Ho) as (ng' & t' & b' & R1 & _ & _ & _ & R5).
  assert (ng' = ng) by (apply Ok_inj; congruence). subst ng'.
  assert (Eop : o_opt R o1 = opt).
  { cbn [drive] in H1. apply bind_Ok in H1. destruct H1 as (p1 & H1 & E1). apply Ok_inj in E1. subst p1. destruct (step_swarm _ _ _ _ _ _ _ _ H1) as (op & j & f2 & _ & _ & _ & _ & _ & _ & _ & Eop & _). rewrite Eop. reflexivity. }
  rewrite Eop in *.
  assert (Ec : last (collect (c_opt A R) h) default_pso_option = opt).
  { destruct (C84_last_value_wins A R k greater rec_on vec_max h _ _ Hd) as (E & _). cbn [fresh o_opt] in E. rewrite <- E. reflexivity. }
  exists o1, o, rows, b, ng, t. split; [exact H1'|]. split; [exact H2|]. split; [rewrite <- app_assoc in Ho; exact Ho|]. split; [exact Eo3|].
  split. { rewrite <- Ec. apply (C85_population_size A R k greater rec_on vec_max junk _ _ _ _ h [] o1 H1'); [intros []|rewrite Ec; lia]. }
  split. { rewrite <- Ec. rewrite <- app_assoc in Ho. apply (C85_population_size A R k greater rec_on vec_max junk _ _ _ _ h [Run R] o Ho); [intros [C|[]]; discriminate C|rewrite Ec; lia]. }
  split; [exact Ev|]. split; [intros row q Hr Hq; apply Cb, (Rw row q Hr Hq)|]. split; [intros x Hx; exact (Pi o1 x H1 Hx)|].
  split. { intros x Hx. destruct (B6 x Hx) as (C1 & C2). split; [apply Cb, Pn, Hx|]. split; [apply Cb, C1|exact C2]. }
  split; [exact B1|]. split; [exact B2|]. split; [exact B3|]. split; [apply Cb, B4|]. split; [exact B5|]. split; [exact B8|].
  split; [exact S1|]. split; [exact S2|]. split; [exact S3|]. split; [exact S4|]. split; [exact S5|]. intros Hr. apply R5, Hr.
Qed.
End Prog.
