(** C97: a PSO object evaluates its fitness function only at positions that
    initializePop() makes or that lie between the bounds, so whatever is asked of
    the function is asked there only; and why a run stops. *)
From Coq Require Import List Arith ZArith Reals Bool Lia Lra.
From Flocq Require Import Core BinarySingleNaN.
From Verif Require Props_SOGA ProgMOProofs2 ProgSOProofs2.
From Verif Require Import SOGAProofs5 Props_Box Props_PSO Props_PSOObj Base Fl FlFacts Rng Box PSO PSOSpec PSOProofs PSOProofs2 PSOProofs3 PSOObj PSOObjSpec PSOObjProofs PSORegionSpec PSORegionProofs.
Import ListNotations.
Open Scope Z_scope.

Lemma Ok_inj {X} (a b : X) : Ok a = Ok b -> a = b.
Proof. congruence. Qed.
Section C97.
Context (A : Type) (R : rng_ops) (k : kind) (greater rec_on : bool) (vec_max : Z) (junk : point).
Notation drive' := (@drive A R k greater rec_on vec_max).
Notation start := (@fresh A R junk).
Notation ok_history := (@lawful_history A R k greater rec_on vec_max).
(** Neither the fitness function nor the arguments change, no new initializePop(). *)
Definition same_problem (h : list (@call A R)) : Prop :=
  Forall (fun c => match c with SetFFun _ _ | SetArgs _ _ | InitializePop _ => False | _ => True end) h.

(** [P] is any region such that initializePop() makes positions in it and, at
    each run(), the positions between the bounds belong to it.  The fitness
    function [ff] has then been evaluated in [P] only, every particle, its best
    position and globalBest() are in [P], and if [ff] is never NaN in [P] all
    that C85 says of the best values holds, whatever [ff] does outside. *)
Theorem C97_only_inside : forall (P : list double -> Prop) i f (a : A) (g : G R) h1 h2 o0 o,
  ok_history (start i f a g) (h1 ++ InitializePop R :: h2) -> same_problem h2 ->
  drive' (start i f a g) h1 = Ok o0 -> drive' o0 (InitializePop R :: h2) = Ok o ->
  stays R k greater rec_on vec_max P o0 (InitializePop R :: h2) ->
  exists ff rows, o_f R o = Some ff /\ evaluated R greater (ff (o_args R o)) rows (p_swarm (o_pso R o)) /\
    (forall row q, In row rows -> In q row -> P q) /\ (forall x, In x (get_population R o) -> P (position (here x))) /\
    (forall o1 x, drive' o0 [InitializePop R] = Ok o1 -> In x (get_population R o1) -> exists row, In row rows /\ In (position (here x)) row) /\
    ((forall q, P q -> nonnan (ff (o_args R o) q)) ->
     exists b, get_globalBest R o = Ok b /\ get_bestFitness R o = Ok (fitness b) /\ fitness b = ff (o_args R o) (position b) /\ P (position b) /\
       (exists row, In row rows /\ In (position b) row) /\
       (forall x, In x (get_population R o) -> P (position (pBest x)) /\ fitness (pBest x) = ff (o_args R o) (position (pBest x))) /\
       (In (Run R) h2 -> (2 <= length rows)%nat /\
          (forall row q, In row rows -> In q row -> better greater (ff (o_args R o) q) (fitness b) = false) /\
          (forall x, In x (get_population R o) -> better greater (fitness (pBest x)) (fitness b) = false))).
Proof.
  intros P i f a g h1 h2 o0 o L F H0 H Sy. destruct (history_app R k greater rec_on vec_max h1 _ _ L) as (L0 & L1). specialize (L1 o0 H0).
  destruct (history_returns R k greater rec_on vec_max h1 _ (start_inv A R junk i f a g) L0) as (o0' & H0' & I0).
  assert (o0' = o0) by congruence. subst o0'. clear H0'. destruct L1 as (Li & L1). destruct Sy as (Si & Sy).
  cbn [drive] in H. apply bind_Ok in H. destruct H as (o1 & H1 & H).
  pose proof (init_now R k greater rec_on vec_max P o0 o1 Si H1) as N1. pose proof (step_oinv _ _ _ _ _ _ _ _ I0 Li H1) as I1.
  destruct (step_swarm _ _ _ _ _ _ _ _ H1) as (opt & j & ff & Ef & -> & Hs & _ & Hi & Ef1 & Ea1 & _).
  destruct (drive_in R k greater rec_on vec_max P h2 o1 o ff [positions R (swarm_of R o1)] F I1 (L1 o1 H1) (Sy o1 H1) H) as (X1 & X2 & X3 & r & X4 & X5 & X6 & X7 & X8).
  { congruence. } { exact Hi. } { rewrite Ea1. eapply ev_init. exact Hs. }
  { intros row q [<-|[]] Hq. apply N1, Hq. } { exact N1. }
  exists ff, r. rewrite X2. split; [exact X1|]. split; [exact X4|]. split; [exact X5|].
  split. { intros x Hx. apply X6. unfold positions. apply in_map_iff. exists x. split; [reflexivity|exact Hx]. }
  split. { intros oi x Hoi Hx. cbn [drive] in Hoi. rewrite H1 in Hoi. cbn [bind] in Hoi. apply Ok_inj in Hoi. subst oi. destruct X7 as (new & ->).
           exists (positions R (swarm_of R o1)). split; [apply in_or_app; right; left; reflexivity|]. unfold positions. apply in_map_iff. exists x. split; [reflexivity|exact Hx]. }
  intros Nn. pose proof (evaluated_inv R greater _ _ _ X4 (fun row q Hr Hq => Nn q (X5 row q Hr Hq))) as (J1 & J2 & (i0 & row0 & Hr0 & E0) & _ & J5).
  pose proof (nth_error_In _ _ E0) as M0. pose proof (X5 row0 _ Hr0 M0) as Pb. fold (swarm_of R o) in *.
  exists (gBest (swarm_of R o)). unfold get_globalBest, get_bestFitness, get_globalBest, get_population. fold (swarm_of R o). rewrite X3. cbn [bind].
  split; [reflexivity|]. split; [reflexivity|]. split; [exact J2|]. split; [exact Pb|]. split; [exists row0; split; [exact Hr0|exact M0]|].
  split. { intros x Hx. destruct (In_nth_error _ _ Hx) as (n & En). destruct (J1 n x En) as (V & (row & Hr & Eq) & _). split; [|exact V].
           apply (X5 row _ Hr). eapply nth_error_In. exact Eq. }
  intros Hrun. specialize (X8 Hrun). cbn [length] in X8. split; [lia|].
  assert (Z : forall row q, In row r -> In q row -> better greater (ff (o_args R o1) q) (fitness (gBest (swarm_of R o))) = false).
  { intros row q Hr Hq. destruct (In_nth_error _ _ Hq) as (n & En). apply better_false; [apply Nn, (X5 row q Hr Hq)|rewrite J2; apply Nn, Pb|].
    apply (J5 ltac:(lia) n). exists row. auto. }
  split; [exact Z|]. intros x Hx. destruct (In_nth_error _ _ Hx) as (n & En). destruct (J1 n x En) as (V & (row & Hr & Eq) & _). rewrite V.
  apply (Z row); [exact Hr|eapply nth_error_In; exact Eq].
Qed.

(** In particular, with the built-in initialisation and a proper box that is not
    touched after initializePop(), [P] is the box. *)
Theorem C97_only_in_box : forall f (a : A) (g : G R) h1 h2 o0 o n, rng_ok R ->
  ok_history (start (IDefault R) f a g) (h1 ++ InitializePop R :: h2) -> same_problem h2 ->
  Forall (fun c => match c with BoxCall _ _ => False | _ => True end) h2 ->
  Forall (fun c => match c with SetIFun _ _ => False | _ => True end) h1 ->
  drive' (start (IDefault R) f a g) h1 = Ok o0 -> drive' o0 (InitializePop R :: h2) = Ok o ->
  dims k (o_mem R o0) = Ok n -> vproper (box_of (o_mem R o0) n) ->
  stays R k greater rec_on vec_max (fun p => Z.of_nat (length p) = n /\ within (o_mem R o) p) o0 (InitializePop R :: h2) /\ o_mem R o = o_mem R o0.
Proof.
  intros f a g h1 h2 o0 o n HR L F Nb Ni H0 H D Vp. destruct (history_app R k greater rec_on vec_max h1 _ _ L) as (L0 & L1). specialize (L1 o0 H0).
  destruct (history_returns R k greater rec_on vec_max h1 _ (start_inv A R junk _ f a g) L0) as (o0' & H0' & I0).
  assert (o0' = o0) by congruence. subst o0'. clear H0'. destruct L1 as ((_ & _ & Li) & L1).
  assert (Ei : o_i R o0 = IDefault R).
  { destruct (C84_last_value_wins A R k greater rec_on vec_max h1 _ _ H0) as (_ & Ei & _). rewrite Ei. clear -Ni.
    assert (E : collect (c_i A R) h1 = []); [|rewrite E; reflexivity].
    induction Ni as [|c h1 Hc Ni IH]; [reflexivity|]. unfold collect in *. cbn [flat_map]. rewrite IH. destruct c; cbn in *; try reflexivity; contradiction. }
  rewrite Ei in Li. destruct Li as (n' & D' & K1 & K2). assert (n' = n) by congruence. subst n'.
  assert (Em : o_mem R o = o_mem R o0).
  { cbn [drive] in H. apply bind_Ok in H. destruct H as (o1 & H1 & H). rewrite (drive_mem R k greater rec_on vec_max h2 o1 o Nb H).
    eapply step_mem; [|exact H1]. exact Logic.I. }
  rewrite Em. destruct Vp as (V0 & V1). cbn [box_of v_dim v_lo v_hi v_max] in V0, V1.
  assert (Kn : forall j, (j < Z.to_nat n)%nat -> exists lo hi, m_lo (o_mem R o0) j = Some lo /\ m_hi (o_mem R o0) j = Some hi).
  { intros j Hj. specialize (K1 j Hj). specialize (K2 j Hj). destruct (m_lo (o_mem R o0) j); [|contradiction]. destruct (m_hi (o_mem R o0) j); [|contradiction]. eauto. }
  split; [|reflexivity]. cbn [stays]. split.
  - unfold starts_in. rewrite Ei. intros n' g0 D2. assert (n' = n) by congruence. subst n'.
    destruct (default_ok R (box_of (o_mem R o0) n) g0 HR (conj V0 V1)) as ((P1 & P2) & _). cbn [box_of v_dim v_lo v_hi] in P1, P2.
    split; [exact P1|]. intros j x Hx. specialize (P2 j x Hx).
    match type of Hx with nth_error ?l _ = _ => assert (Hj : (j < length l)%nat) by (apply nth_error_Some; congruence) end.
    destruct (Kn j ltac:(lia)) as (lo & hi & E1 & E2). rewrite E1, E2 in P2. cbn [value] in P2. exists lo, hi. tauto.
  - intros o1 H1. destruct (step_swarm _ _ _ _ _ _ _ _ H1) as (opt & j & ff & Ef & -> & Hs & _ & Hi & Ef1 & Ea1 & _ & Em1 & Hd).
    rewrite Ei in Hd. destruct Hd as (n' & D2 & ->). assert (n' = n) by congruence. subst n'.
    apply (box_stays R k greater rec_on vec_max _ (Z.to_nat n) (o_mem R o0) h2 F Nb).
    + intros j lo hi Hj E1 E2. destruct (V1 j ltac:(lia)) as (_ & _ & V & _). rewrite E1, E2 in V. apply flt_le, V.
    + intros p Lp W. split; [lia|exact W].
    + exact Em1.
    + eapply uniform_init; [|exact Hs]. intros g0. apply (default_length R (box_of (o_mem R o0) n)).
Qed.

(** After any history of allowed calls that ends with run(): either all
    maxGeneration generations were done, or maxFailTimes is not 0 and failTimes()
    exceeds it. *)
Theorem C97_stop_reason : forall i f (a : A) (g : G R) h o0 o,
  ok_history (start i f a g) (h ++ [Run R]) -> drive' (start i f a g) h = Ok o0 -> drive' o0 [Run R] = Ok o ->
  exists n t, get_generation R o = Ok n /\ get_failTimes R o = Ok t /\ 0 <= n <= p_maxGeneration (o_opt R o0) /\ 0 <= t <= n + 1 /\
    (n = p_maxGeneration (o_opt R o0) \/ 0 < p_maxFailTimes (o_opt R o0) < t).
Proof.
  intros i f a g h o0 o L H0 H. destruct (history_app R k greater rec_on vec_max h _ _ L) as (_ & L1). destruct (L1 o0 H0) as (Lr & _).
  cbn [drive] in H. apply bind_Ok in H. destruct H as (o1 & H1 & H). inversion H; subst o1. clear H.
  destruct (step_swarm _ _ _ _ _ _ _ _ H1) as (ff & n & _ & _ & _ & Hi & _).
  exists (p_generation (o_pso R o)), (p_fails (p_swarm (o_pso R o))). unfold get_generation, get_failTimes. rewrite Hi.
  split; [reflexivity|]. split; [reflexivity|]. apply (run_stop R k greater rec_on vec_max o0 o Lr H1).
Qed.
(** A run whose maxFailTimes is 0 or at least maxGeneration does them all. *)
Theorem C97_runs_to_the_end : forall i f (a : A) (g : G R) h o0 o,
  ok_history (start i f a g) (h ++ [Run R]) -> drive' (start i f a g) h = Ok o0 -> drive' o0 [Run R] = Ok o ->
  p_maxFailTimes (o_opt R o0) = 0 \/ p_maxGeneration (o_opt R o0) <= p_maxFailTimes (o_opt R o0) ->
  get_generation R o = Ok (p_maxGeneration (o_opt R o0)).
Proof.
  intros i f a g h o0 o L H0 H C. destruct (C97_stop_reason i f a g h o0 o L H0 H) as (n & t & En & Et & Hn & Ht & [E|E]); rewrite En; f_equal; lia.
Qed.
End C97.
Print Assumptions C97_only_inside.
Print Assumptions C97_only_in_box.
Print Assumptions C97_stop_reason.
Print Assumptions C97_runs_to_the_end.

(** A history to which all of this applies, for every stream; its fitness function
    is NaN outside of the box (at NaN). *)
Definition setup_calls (lo hi vm : double) opt f a : list (@call Z replay) :=
  [ BoxCall replay (SetPVRange lo hi vm); BoxCall replay (SetDimensions 2); SetOption replay opt; SetArgs replay a; SetFFun replay (Some f) ].
Definition setup_obj (lo hi vm : double) opt f a g : @obj Z replay :=
  mkObj replay opt (mkMem (Some 2) None (all lo) (all hi) (all vm)) (IDefault replay) (Some f) a (mkPSO (mkSwarm [] nowhere 0 g) 0 []) false.
Lemma setup_drive lo hi vm opt f a g : flt lo hi = true -> flt d0 vm = true -> drive_demo (begin g) (setup_calls lo hi vm opt f a) = Ok (setup_obj lo hi vm opt f a g).
Proof. intros F1 F2. unfold setup_calls. cbn [drive step fresh o_mem apply_box]. rewrite F1, F2. reflexivity. Qed.
Lemma part1_eq : part1 ++ [] = setup_calls d0 d1 (fofZ 1 (-3)) opt_a scale_fit 1 ++ InitializePop replay :: [Run replay].
Proof. unfold part1, setup_calls. cbn [app]. reflexivity. Qed.
Lemma scale_ok (x y : double) : fle d0 x = true -> fle x d1 = true -> nonnan (scale_fit 1 [x; y]).
Proof.
  intros B1 B2. destruct (ProgSOProofs2.unit_bd _ (conj B1 B2)) as (Fx & U). unfold scale_fit. cbn [hd]. destruct (d_of_Z_exact 1 ltac:(lia)) as (F1 & V1).
  apply fin_nonnan. apply (bd_mul (d_of_Z 1) x 0 0); [| |lia]; (split; [assumption|]); cbn [bpow]; rewrite Rabs_pos_eq; lra.
Qed.
Lemma setup_within lo hi vm opt f a g x : within (o_mem replay (setup_obj lo hi vm opt f a g)) x -> forall j y, nth_error x j = Some y -> fle lo y = true /\ fle y hi = true.
Proof.
  intros W j y E. destruct (W j y E) as (lo' & hi' & E1 & E2 & B1 & B2). unfold setup_obj, all in E1, E2. cbn [o_mem m_lo m_hi] in E1, E2.
  injection E1 as <-. injection E2 as <-. split; assumption.
Qed.
Lemma setup_proper lo hi vm opt f a g : fin lo -> fin hi -> flt lo hi = true -> fin (fsub hi lo) -> flt d0 vm = true -> vproper (box_of (o_mem replay (setup_obj lo hi vm opt f a g)) 2).
Proof. intros. split; [cbn; lia|]. intros i _. unfold setup_obj, all. cbn [box_of v_lo v_hi v_max o_mem m_lo m_hi m_vm value]. repeat split; assumption. Qed.
Example ex_C97 : forall g, let o0 := setup_obj d0 d1 (fofZ 1 (-3)) opt_a scale_fit 1 g in let h1 := setup_calls d0 d1 (fofZ 1 (-3)) opt_a scale_fit 1 in
  drive_demo (begin g) h1 = Ok o0 /\ lawful_demo (h1 ++ InitializePop replay :: [Run replay]) (begin g) /\ same_problem Z replay [Run replay] /\
  dims SqVec (o_mem replay o0) = Ok 2 /\ vproper (box_of (o_mem replay o0) 2) /\
  (forall q, Z.of_nat (length q) = 2 /\ within (o_mem replay o0) q -> nonnan (scale_fit 1 q)) /\ is_nan (scale_fit 1 [dnan]) = true.
Proof.
  intros g o0 h1. split; [apply setup_drive; vm_compute; reflexivity|].
  split. { unfold h1. rewrite <- part1_eq. apply demo_start. intros; exact Logic.I. }
  split; [repeat constructor|]. split; [reflexivity|]. split; [apply setup_proper; vm_compute; reflexivity|]. split; [|vm_compute; reflexivity].
  intros [|x [|y [|]]] (E & W); try (exfalso; cbn [length] in E; lia). pose proof (setup_within _ _ _ _ _ _ _ _ W 0%nat x eq_refl) as (B1 & B2). apply scale_ok; assumption.
Qed.
