(** C90: NSGA2 never loses the best value of an objective, if the population is
    large enough.  Vocabulary in MOGASpec.v. *)
From Coq Require Import List Arith ZArith Reals Bool Lia Lra Permutation.
From Flocq Require Import Core BinarySingleNaN.
From Verif Require Props_SOGA.
From Verif Require Import Props_Box Props_MOGA.
From Verif Require Import Base Fl FlFacts Rng StdOps ListFacts GABase GABaseProofs GAOpsProofs MOGA MOGASpec MOGAProofs MOGAProofs2 MOGAProofs3 MOGAProofs4 MOGAProofs5 MOGAProofs6.
Import ListNotations.
Open Scope Z_scope.

Section Spec.
Context {V : Type} (M : nat) (greater : bool).
(** [x] has the best value of objective [o] in [p]. *)
Definition best_at (o : nat) (p : list (gene V (list double))) (x : gene V (list double)) : Prop :=
  In x p /\ forall y, In y p -> NotWorse greater (objective (gfit x) o) (objective (gfit y) o).
(** Individuals that share the best value of objective [o] do not differ in the others. *)
Definition ties_are_copies (o : nat) (p : list (gene V (list double))) : Prop :=
  forall x y j, best_at o p x -> best_at o p y -> (j < M)%nat -> ~ Better greater (objective (gfit x) j) (objective (gfit y) j).
End Spec.

Lemma order_best {V} M greater (p s : list (gene V (list double))) o : p <> [] -> (o < M)%nat -> (forall x, In x p -> tame M x) ->
  Permutation p s -> ascending o s -> exists e f, (hd f s = e \/ last s f = e) /\ In f s /\ best_at greater o p e.
Proof.
  intros NE Ho Ht P A. assert (Ps : forall x, In x s <-> In x p) by (intros x; split; apply Permutation_in; [symmetry|]; exact P).
  destruct s as [|f s']; [apply Permutation_sym, Permutation_nil in P; contradiction|]. set (s := f :: s') in *.
  assert (Hts : forall y, In y s -> tame M y) by (intros y Hy; apply Ht, Ps, Hy).
  assert (If : In f s) by (left; reflexivity).
  exists (if greater then last s f else f), f. split; [destruct greater; auto|]. split; [exact If|].
  assert (Il : nth_error s (length s - 1) = Some (last s f)) by (apply last_nth; discriminate).
  assert (Fv : forall y, In y s -> fin (objective (gfit y) o)) by (intros y Hy; apply (Hts y Hy o Ho)).
  assert (Q : forall u w, In u s -> In w s -> (B2R (objective (gfit u) o) <= B2R (objective (gfit w) o))%R -> fle (objective (gfit u) o) (objective (gfit w) o) = true).
  { intros u w Hu Hw L. apply fle_iff; [apply fin_nonnan, Fv; assumption..|]. rewrite !(@fval_fin 53 1024) by (apply Fv; assumption). exact L. }
  split.
  - apply Ps. destruct greater; [eapply nth_error_In; exact Il|exact If].
  - intros y Hy. apply Ps in Hy. pose proof Hy as Hy'. apply In_nth_error in Hy. destruct Hy as (i & Hi).
    assert (Li : (i < length s)%nat) by (apply nth_error_Some; congruence).
    unfold NotWorse. destruct greater; apply Q; try assumption; try (eapply nth_error_In; exact Il).
    + apply (asc_R M o s i (length s - 1) y (last s f) A Ho Hts); [lia|exact Hi|exact Il].
    + apply (asc_R M o s 0 i f y A Ho Hts); [lia|reflexivity|exact Hi].
Qed.

(** One selection: with a populationSize of at least twice the number of
    objectives, some individual with the best value of an objective survives,
    unless individuals sharing that value differ otherwise. *)
Theorem C90_best_of_each_objective_survives :
  forall (V : Type) (R : rng_ops) (std : std_ops) (M : nat) (greater : bool) (opt : ga_option)
         (c c' : core V (list double) (list nat) (G R)) o,
    std_ok std -> wf c -> (forall x, In x (pop c) -> tame M x) -> 2 * Z.of_nat M <= populationSize opt ->
    nsga2_select R std M greater opt c = Ok c' -> (o < M)%nat -> ties_are_copies M greater o (pop c) ->
    exists x, In x (pop c') /\ best_at greater o (pop c) x.
Proof.
  intros V R std M greater opt c c' o Hstd Hw Ht HK H Ho Tie.
  destruct (nsga2_incl R std M greater opt Hstd c c' Hw ltac:(lia) H) as (Sz & Sub & Wc & _).
  assert (NE : pop c <> []) by (intros E; rewrite E in Sub; destruct (pop c') as [|y t] eqn:Ec; [cbn in Sz; lia|destruct (sublist_in _ _ y Sub (or_introl eq_refl))]).
  assert (NE' : exists y, In y (pop c')) by (destruct (pop c') as [|y t]; [cbn in Sz; lia|exists y; left; reflexivity]).
  assert (Nd : forall e, best_at greater o (pop c) e -> dominatedNum M greater (pop c) e = 0%nat).
  { intros e (He & Be). apply (nondom_zero M greater (pop c) e (proj1 Hw)). split; [exact He|]. intros y Hy (D1 & j & Hj & D2).
    apply (Tie y e j); [|split; assumption|exact Hj|exact D2]. split; [exact Hy|]. intros z Hz. eapply NotWorse_trans; [apply D1, Ho|apply Be, Hz]. }
  destruct (nsga2_priority R std M greater opt Hstd c c' Hw ltac:(lia) H) as [Q|(orders & OO & Q)].
  - (* only whole layers are taken *)
    assert (B : exists e, best_at greater o (pop c) e).
    { 
      destruct (C24_best_fitness_is_ideal_point V R M greater c NE) as (b & _ & _ & Hb).
      { intros x i Hx Hi. apply fin_nonnan, (Ht x Hx i Hi). }
      destruct (Hb o Ho) as ((x & Hx & E) & Bx). exists x. split; [exact Hx|]. intros y Hy. rewrite <- E. apply Bx, Hy. }
    destruct B as (e & Be). exists e. split; [|exact Be].
    destruct (in_dec Nat.eq_dec (gid e) (map gid (pop c'))) as [I|I].
    + apply in_map_iff in I. destruct I as (z & E & Hz). replace e with z; [exact Hz|]. apply (NoDup_map_inj gid (pop c)); [apply Hw|eapply sublist_in; eassumption|apply Be|exact E].
    + exfalso. destruct NE' as (y & Hy). specialize (Q e y (proj1 Be) ltac:(intros C; apply I, in_map, C) Hy). rewrite (Nd e Be) in Q. lia.
  - destruct OO as (L & O). assert (Es : exists s, nth_error orders o = Some s) by (destruct (nth_error orders o) eqn:E; [eauto|apply nth_error_None in E; lia]).
    destruct Es as (s & Hs). destruct (O o s Hs) as (P & A).
    destruct (order_best M greater (pop c) s o NE Ho Ht P A) as (e & f & He & Hf & Be). exists e. split; [|exact Be].
    destruct (in_dec Nat.eq_dec (gid e) (map gid (pop c'))) as [I|I].
    { apply in_map_iff in I. destruct I as (z & E & Hz). replace e with z; [exact Hz|]. apply (NoDup_map_inj gid (pop c)); [apply Hw|eapply sublist_in; eassumption|apply Be|exact E]. }
    exfalso. assert (Ns : NoDup (map gid s)) by (eapply Permutation_NoDup; [apply Permutation_map, P|apply Hw]).
    assert (Hes : In e s) by (eapply Permutation_in; [exact P|apply Be]).
    assert (Ce : crowding orders e = dinf).
    { apply (crowding_from_end M orders 0 e d0 o s); [lia| |exact Hs|apply (neighbours_ends s Ns e f Hes); exact He].
      intros s0 y H0 Hy. apply In_nth_error in H0. destruct H0 as (q & H0). destruct (O q s0 H0) as (P0 & _). apply Ht. eapply Permutation_in; [apply Permutation_sym, P0|exact Hy]. }
    assert (Inc : incl (e :: pop c') (ends orders)).
    { intros y [<-|Hy].
      - apply (infinite_end M (pop c)); [apply Hw|exact Ht|split; assumption|apply Be|]. rewrite Ce. reflexivity.
      - destruct (Q e y (proj1 Be) ltac:(intros C; apply I, in_map, C) Hy) as [Q'|(_ & Q')]; [rewrite (Nd e Be) in Q'; lia|].
        rewrite Ce in Q'. apply (infinite_end M (pop c)); [apply Hw|exact Ht|split; assumption|eapply sublist_in; eassumption|exact Q']. }
    assert (ND : NoDup (e :: pop c')) by (constructor; [intros C; apply I, in_map, C|apply nodup_of_map, Wc]).
    pose proof (NoDup_incl_length ND Inc) as Len. pose proof (ends_length orders) as El. rewrite L in El. cbn [length] in Len. lia.
Qed.
Print Assumptions C90_best_of_each_objective_survives.

(** So the ideal point bestFitness() stays what it was before the selection. *)
Theorem C90_selection_keeps_ideal_point :
  forall (V : Type) (R : rng_ops) (std : std_ops) (M : nat) (greater : bool) (opt : ga_option)
         (c c' : core V (list double) (list nat) (G R)),
    std_ok std -> wf c -> (forall x, In x (pop c) -> tame M x) -> (1 <= M)%nat -> 2 * Z.of_nat M <= populationSize opt ->
    nsga2_select R std M greater opt c = Ok c' -> (forall o, (o < M)%nat -> ties_are_copies M greater o (pop c)) ->
    exists b b', mo_bestFitness R M greater c = Ok b /\ mo_bestFitness R M greater c' = Ok b' /\
      forall o, (o < M)%nat -> NotWorse greater (objective b' o) (objective b o) /\ NotWorse greater (objective b o) (objective b' o).
Proof.
  intros V R std M greater opt c c' Hstd Hw Ht HM HK H Tie.
  destruct (nsga2_incl R std M greater opt Hstd c c' Hw ltac:(lia) H) as (Sz & Sub & Wc & _).
  assert (NE' : pop c' <> []) by (intros E; rewrite E in Sz; cbn in Sz; lia).
  assert (NE : pop c <> []) by (intros E; rewrite E in Sub; destruct (pop c') as [|y t]; [congruence|destruct (sublist_in _ _ y Sub (or_introl eq_refl))]).
  destruct (C24_best_fitness_is_ideal_point V R M greater c NE) as (b & Eb & _ & Hb); [intros x i Hx Hi; apply fin_nonnan, (Ht x Hx i Hi)|].
  destruct (C24_best_fitness_is_ideal_point V R M greater c' NE') as (b' & Eb' & _ & Hb'); [intros x i Hx Hi; apply fin_nonnan, (Ht x (sublist_in _ _ x Sub Hx) i Hi)|].
  exists b, b'. split; [exact Eb|]. split; [exact Eb'|]. intros o Ho.
  destruct (C90_best_of_each_objective_survives V R std M greater opt c c' o Hstd Hw Ht HK H Ho (Tie o Ho)) as (x & Hx & (_ & Bx)).
  destruct (Hb o Ho) as ((y & Hy & Ey) & By). destruct (Hb' o Ho) as ((z & Hz & Ez) & Bz). split.
  - eapply NotWorse_trans; [apply Bz, Hx|]. rewrite Ey. apply Bx, Hy.
  - rewrite Ez. apply By. eapply sublist_in; eassumption.
Qed.
Print Assumptions C90_selection_keeps_ideal_point.

(** A whole run: the recorded ideal points never get worse in any objective, if
    the fitness function's objectives determine each other (equal in one, equal in
    all: true conflict, as in one-parameter trade-offs). *)
Definition one_determines_all {V} (M : nat) (greater : bool) (f : V -> list double) : Prop :=
  forall u v o j, (o < M)%nat -> (j < M)%nat ->
    ~ Better greater (objective (f u) o) (objective (f v) o) -> ~ Better greater (objective (f v) o) (objective (f u) o) ->
    ~ Better greater (objective (f u) j) (objective (f v) j).
Theorem C90_ideal_point_never_worsens :
  forall (V : Type) (R : rng_ops) (std : std_ops) (M : nat) (greater : bool) (opt : ga_option)
         (fs : user_funs V (list double) (G R)) (junk : list double) (v0 : V) (vec_max : Z) fuel
         (c : core V (list double) (list nat) (G R)) g r s',
    rng_ok R -> std_ok std -> wf c -> 2 * Z.of_nat M <= populationSize opt ->
    (forall v, tame_fit M (fFun fs v)) -> one_determines_all M greater (fFun fs) ->
    run R fs opt junk (nsga2_hooks R std M greater opt) true vec_max fuel (mkGA (initializePop R fs opt junk v0 c) g r) = Ok s' ->
    forall i j a b o, (i < j)%nat -> nth_error (record s') i = Some a -> nth_error (record s') j = Some b -> (o < M)%nat ->
      NotWorse greater (objective b o) (objective a o).
Proof.
  intros V R std M greater opt fs junk v0 vec_max fuel c g r s' HR Hstd Hw HK HT HD H.
  set (mono := fun l : list (list double) => forall i j a b o, (i < j)%nat -> nth_error l i = Some a -> nth_error l j = Some b -> (o < M)%nat -> NotWorse greater (objective b o) (objective a o)).
  set (good := fun s : ga V (list double) (list nat) (G R) => wf (ga_core s) /\
    (forall x, In x (pop (ga_core s)) -> gcomp x = true -> gfit x = fFun fs (gvar x)) /\ mono (record s) /\
    forall a o, In a (record s) -> (o < M)%nat -> exists x, In x (pop (ga_core s)) /\ gcomp x = true /\ NotWorse greater (objective (gfit x) o) (objective a o)).
  assert (L : forall n s s', good s -> ga_loop R fs opt junk (nsga2_hooks R std M greater opt) true n s = Ok s' -> mono (record s')).
  { induction n as [|n IH]; intros s s1 (W & Gf & Mo & Cov) E; cbn [ga_loop] in E; [discriminate|].
    apply bind_Ok in E. destruct E as (c1 & E1 & E). apply bind_Ok in E. destruct E as (rc & Er & E).
    apply bind_Ok in Er. destruct Er as (bf & Eb & Er). injection Er as Er. subst rc. cbn [hk_best nsga2_hooks] in Eb.
    unfold evaluate_and_select in E1. cbn [hk_select nsga2_hooks] in E1. set (c0 := computeAllFitness R fs (ga_core s)) in *.
    assert (W0 : wf c0) by (apply compute_wf; exact W).
    assert (G0 : forall x, In x (pop c0) -> gcomp x = true /\ gfit x = fFun fs (gvar x)).
    { intros x Hx. unfold c0, computeAllFitness in Hx. cbn [pop] in Hx. apply in_map_iff in Hx. destruct Hx as (y & <- & Hy).
      unfold evaluated. destruct (gcomp y) eqn:Ey; [split; [exact Ey|apply Gf; assumption]|split; reflexivity]. }
    assert (T0 : forall x, In x (pop c0) -> tame M x) by (intros x Hx o Ho; destruct (G0 x Hx) as (_ & Q); rewrite Q; exact (HT (gvar x) o Ho)).
    assert (Tie : forall o, (o < M)%nat -> ties_are_copies M greater o (pop c0)).
    { intros o Ho x y j (Hx & Bx) (Hy & By) Hj. destruct (G0 x Hx) as (_ & Qx). destruct (G0 y Hy) as (_ & Qy). rewrite Qx, Qy.
      assert (NB : forall p q, NotWorse greater (objective (fFun fs p) o) (objective (fFun fs q) o) -> ~ Better greater (objective (fFun fs q) o) (objective (fFun fs p) o)).
      { intros p q N B. apply (Better_irrefl greater (objective (fFun fs q) o)). eapply Better_NotWorse_trans; [exact B|exact N]. }
      apply (HD _ _ o j Ho Hj); apply NB; [rewrite <- Qx, <- Qy; apply By, Hx|rewrite <- Qx, <- Qy; apply Bx, Hy]. }
    destruct (nsga2_incl R std M greater opt Hstd c0 c1 W0 ltac:(lia) E1) as (Sz & Sub & W1 & _).
    assert (Cov1 : forall a o, In a (record s ++ [bf]) -> (o < M)%nat -> exists x, In x (pop c1) /\ gcomp x = true /\ NotWorse greater (objective (gfit x) o) (objective a o)).
    { intros a o Ha Ho. apply in_app_iff in Ha. destruct Ha as [Ha|[<-|[]]].
      - destruct (Cov a o Ha Ho) as (x & Hx & Cx & Nx).
        assert (Hx0 : In x (pop c0)). { unfold c0, computeAllFitness. cbn [pop]. apply in_map_iff. exists x. split; [unfold evaluated; rewrite Cx; reflexivity|exact Hx]. }
        destruct (C90_best_of_each_objective_survives V R std M greater opt c0 c1 o Hstd W0 T0 HK E1 Ho (Tie o Ho)) as (z & Hz & (Hz0 & Bz)).
        exists z. split; [exact Hz|]. split; [apply G0, Hz0|]. eapply NotWorse_trans; [apply Bz, Hx0|exact Nx].
      - destruct (C24_best_fitness_is_ideal_point V R M greater c1) as (b & Eb' & _ & Hb).
        { intros C. rewrite C in Sz. cbn in Sz. lia. }
        { intros x i Hx Hi. apply fin_nonnan, (T0 x (sublist_in _ _ x Sub Hx) i Hi). }
        rewrite Eb in Eb'. injection Eb' as <-. destruct (Hb o Ho) as ((x & Hx & Ex) & Bx). exists x. split; [exact Hx|]. split; [apply G0; eapply sublist_in; eassumption|].
        rewrite Ex. unfold NotWorse. assert (N : nonnan (objective (gfit x) o)) by (apply fin_nonnan, (T0 x (sublist_in _ _ x Sub Hx) o Ho)). destruct greater; apply fle_refl, N. }
    assert (Mo1 : mono (record s ++ [bf])).
    { intros i j a b o Lij Ha Hb Ho. destruct (Nat.lt_ge_cases j (length (record s))) as [Lj|Lj].
      - rewrite nth_error_app1 in Ha, Hb by lia. exact (Mo i j a b o Lij Ha Hb Ho).
      - assert (Ej : j = length (record s)). { assert (j < length (record s ++ [bf]))%nat by (apply nth_error_Some; congruence). rewrite app_length in *. cbn in *. lia. }
        subst j. rewrite nth_error_app1 in Ha by lia. rewrite nth_error_app2, Nat.sub_diag in Hb by lia. cbn in Hb. injection Hb as <-.
        destruct (Cov1 a o ltac:(apply in_app_iff; left; eapply nth_error_In; exact Ha) Ho) as (x & Hx & _ & Nx).
        destruct (C24_best_fitness_is_ideal_point V R M greater c1) as (b & Eb' & _ & Hb).
        { intros C. rewrite C in Hx. exact Hx. }
        { intros y k Hy Hk. apply fin_nonnan, (T0 y (sublist_in _ _ y Sub Hy) k Hk). }
        rewrite Eb in Eb'. injection Eb' as <-. eapply NotWorse_trans; [apply (Hb o Ho), Hx|exact Nx]. }
    destruct (_ || _).
    - injection E as <-. exact Mo1.
    - refine (IH _ s1 _ E). destruct (breed_more R fs opt junk c1 HR W1) as (Wb & (kids & Ek) & U). split; [exact Wb|]. cbn [ga_core record]. split; [|split; [exact Mo1|]].
      + intros x Hx Cx. destruct (U x Hx) as [Hx'|Hx']; [|congruence]. apply G0. eapply sublist_in; eassumption.
      + intros a o Ha Ho. destruct (Cov1 a o Ha Ho) as (x & Hx & Cx & Nx). exists x. split; [rewrite Ek; apply in_app_iff; left; exact Hx|]. split; assumption. }
  unfold run in H. destruct (true && _); [discriminate|]. refine (L fuel _ s' _ H).
  destruct (initialize_spec_lemma R fs opt junk v0 c Hw) as (_ & W & U).
  split; [exact W|]. split; [|split; [intros [|i] j a b o _ Ha; discriminate Ha|intros a o []]].
  intros x Hx Cx. destruct (U x Hx) as (C & _). congruence.
Qed.
Print Assumptions C90_ideal_point_never_worsens.

(** * Examples and limits *)
(** A lawful setting: one-parameter trade-off v, 100 - v. *)
Definition trade (v : Z) : list double := [d_of_Z (v mod 64); d_of_Z (64 - v mod 64)].
Lemma trade_vals v o : (o < 2)%nat -> exists z, objective (trade v) o = d_of_Z z /\ z = (if (o =? 0)%nat then v mod 64 else 64 - v mod 64) /\ 0 <= z <= 64.
Proof.
  intros Ho. pose proof (Z.mod_pos_bound v 64 ltac:(lia)). destruct o as [|[|o]]; [| |lia]; cbn [trade objective nth Nat.eqb]; eexists; (split; [reflexivity|]); split; [reflexivity|lia|reflexivity|lia].
Qed.
Lemma dZ_lt a b : 0 <= a <= 64 -> 0 <= b <= 64 -> (flt (d_of_Z a : double) (d_of_Z b) = true <-> a < b).
Proof.
  intros Ha Hb. destruct (d_of_Z_exact a ltac:(lia)) as (Fa & Ea). destruct (d_of_Z_exact b ltac:(lia)) as (Fb & Eb).
  rewrite flt_iff by (apply fin_nonnan; assumption). rewrite !(@fval_fin 53 1024) by assumption. rewrite Ea, Eb. split; [apply lt_IZR|apply IZR_lt].
Qed.
Example ex_C90_hypotheses : (forall v, tame_fit 2 (trade v)) /\ one_determines_all 2 false trade.
Proof.
  split.
  - intros v o Ho. destruct (trade_vals v o Ho) as (z & E & _ & Hz). rewrite E. destruct (d_of_Z_exact z ltac:(lia)) as (F & B). split; [exact F|].
    rewrite B, Rabs_pos_eq by (apply IZR_le; lia). apply Rle_trans with (IZR 64); [apply IZR_le; lia|]. change (IZR 64) with (bpow radix2 6). apply bpow_le. lia.
  - intros u v o j Ho Hj N1 N2. unfold Better in *. destruct (trade_vals u o Ho) as (a & Ea & Va & Ra). destruct (trade_vals v o Ho) as (b & Eb & Vb & Rb).
    destruct (trade_vals u j Hj) as (a' & Ea' & Va' & Ra'). destruct (trade_vals v j Hj) as (b' & Eb' & Vb' & Rb').
    rewrite Ea, Eb in *. rewrite Ea', Eb' in *. rewrite dZ_lt in * by assumption. destruct (o =? 0)%nat, (j =? 0)%nat; lia.
Qed.

(** Limits.  A smaller population may lose the best value of an objective (here:
    one individual kept, two objectives) ... *)
Definition lost (greater : bool) (o : nat) (p q : list (gene nat (list double))) : bool :=
  forallb (fun x => negb (forallb (fun y => if greater then fle (objective (gfit y) o) (objective (gfit x) o) else fle (objective (gfit x) o) (objective (gfit y) o)) p)) q.
Lemma lost_ok greater o p q : lost greater o p q = true -> ~ exists x, In x q /\ best_at greater o p x.
Proof.
  intros H (x & Hx & (_ & B)). unfold lost in H. rewrite forallb_forall in H. specialize (H x Hx). apply negb_true_iff in H.
  match type of H with ?e = _ => assert (T : e = true) by (apply forallb_forall; intros y Hy; specialize (B y Hy); unfold NotWorse in B; destruct greater; exact B) end. congruence.
Qed.
Theorem C90_small_population_refuted :
  exists (c c' : core nat (list double) (list nat) (G replay)) o,
    wf c /\ (forall x, In x (pop c) -> tame 2 x) /\ nsga2_select replay std_inst 2 false (opt_n 1) c = Ok c' /\ (o < 2)%nat /\
    ties_are_copies 2 false o (pop c) /\ ~ exists x, In x (pop c') /\ best_at false o (pop c) x.
Proof.
  assert (T : exists c', nsga2_select replay std_inst 2 false (opt_n 1) sample = Ok c' /\ lost false 1 (pop sample) (pop c') = true) by (apply Props_SOGA.by_test; vm_compute; reflexivity).
  destruct T as (c' & E & T). exists sample, c', 1%nat. split; [exact ex_sample_wf|]. split; [exact ex_sample_tame|]. split; [exact E|]. split; [lia|]. split; [|apply lost_ok, T].
  assert (U : forall x, best_at false 1 (pop sample) x -> gid x = 1%nat).
  { intros x (Hx & B). specialize (B (ind 1 [4;0]) ltac:(right; left; reflexivity)). unfold NotWorse in B. cbn in Hx.
    destruct Hx as [<-|[<-|[<-|[<-|[<-|[]]]]]]; try reflexivity; exfalso; revert B; vm_compute; discriminate. }
  intros x y j Bx By Hj. replace y with x; [apply Better_irrefl|].
  apply (NoDup_map_inj gid (pop sample)); [apply ex_sample_wf|apply Bx|apply By|]. rewrite (U x Bx), (U y By). reflexivity.
Qed.
Print Assumptions C90_small_population_refuted.
(** ... and so may a large one (four kept, two objectives) if individuals tie. *)
Definition tied : list (gene nat (list double)) :=
  [ind 0 [1000;0]; ind 1 [1000;900]; ind 2 [999;901]; ind 3 [900;920]; ind 4 [800;940]; ind 5 [700;960]; ind 6 [600;980]; ind 7 [500;1000]; ind 8 [400;899]].
Theorem C90_ties_refuted :
  exists (c c' : core nat (list double) (list nat) (G replay)) o,
    wf c /\ (forall x, In x (pop c) -> tame 2 x) /\ nsga2_select replay std_inst 2 true (opt_n 4) c = Ok c' /\ (o < 2)%nat /\
    ~ exists x, In x (pop c') /\ best_at true o (pop c) x.
Proof.
  set (c := mkCore tied 9 0 ([] : list nat) ([] : G replay)).
  assert (T : exists c', nsga2_select replay std_inst 2 true (opt_n 4) c = Ok c' /\ lost true 0 (pop c) (pop c') = true) by (apply Props_SOGA.by_test; vm_compute; reflexivity).
  destruct T as (c' & E & T). exists c, c', 0%nat. split; [|split; [|split; [exact E|split; [lia|apply lost_ok, T]]]].
  - split; [repeat constructor; cbn; intuition lia|]. cbn. intros x H. intuition subst; cbn; lia.
  - intros x H o Ho.
    assert (Q : forall z, 0 <= z <= 1000 -> fin (d_of_Z z) /\ (Rabs (B2R (d_of_Z z)) <= bpow radix2 1000)%R).
    { intros z Hz. destruct (FlFacts.d_of_Z_exact z) as (A & B); [lia|]. split; [exact A|]. rewrite B.
      rewrite Rabs_pos_eq by (apply IZR_le; lia). apply Rle_trans with (bpow radix2 10); [change (bpow radix2 10) with 1024%R; apply IZR_le; lia|]. apply bpow_le. lia. }
    destruct o as [|[|o]]; [| |lia]; cbn in H; intuition subst; apply Q; lia.
Qed.
Print Assumptions C90_ties_refuted.
(** The recorded ideal points of an actual run. *)
Definition trade_funs : user_funs Z (list double) (G replay) :=
  mkFuns (fun g => randIdx replay 64 g) trade (fun a b g => ((a + 1, b + 5), g)) (fun a g => (3 * a + 1, g)).
Example ex_C90_run : exists s', run replay trade_funs (mkOpt 4 9 5 (fofZ 1 (-1)) (fofZ 1 (-1))) [] (nsga2_hooks replay std_inst 2 false (mkOpt 4 9 5 (fofZ 1 (-1)) (fofZ 1 (-1)))) true 1000 6
    (mkGA (initializePop replay trade_funs (mkOpt 4 9 5 (fofZ 1 (-1)) (fofZ 1 (-1))) ([] : list double) 0 (mkCore ([] : list (gene Z (list double))) 0 0 ([] : list nat) (map Z.of_nat (seq 7 200) : G replay))) 0 []) = Ok s' /\
  (length (record s') =? 6)%nat = true.
Proof. apply Props_SOGA.by_test. vm_compute. reflexivity. Qed.
