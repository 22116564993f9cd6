(** C98: the particle swarm example programs that come with the library. *)
From Coq Require Import List Arith ZArith Reals Bool Lia Lra Permutation.
From Flocq Require Import Core BinarySingleNaN.
From Verif Require Import Props_Box Props_ProgMO ProgSOProofs2 ProgSOSpec BoxObjProofs.
From Verif Require Import Base Fl FlFacts Rng StdOps Box BoxF Bench ProgMO PSO PSOSpec PSOObj PSOObjSpec ProgPSO ProgPSOSpec ProgPSOProofs ProgPSOProofs2.
Import ListNotations.
Open Scope Z_scope.

Section C98.
Context (R : rng_ops) (HR : rng_ok R) (std : std_ops) (Hstd : std_ok std) (L : libm) (vec_max : Z) (junk : point).

(** * test/PSO_RastriginFun.cpp *)
Notation run_ras g := (drive R (SqFixed 20) false true vec_max (ras_start R L junk g) (ras_main R)).
Lemma ras_setup (lo hi vm : double) opt (f : unit -> list double -> double) (g : G R) : flt lo hi = true -> flt d0 vm = true ->
  drive R (SqFixed 20) false true vec_max (fresh R junk (IDefault R) (Some f) tt g)
    [ BoxCall R (SetRange lo hi); BoxCall R (PokeMax hi); BoxCall R (SetMaxVelocity vm); SetOption R opt ] =
  Ok (ready R junk g opt None None lo hi vm f tt).
Proof. intros F1 F2. cbn [drive step fresh o_mem apply_box]. rewrite F1. cbn [bind drive step o_mem apply_box]. rewrite F2. reflexivity. Qed.
Definition in_ras_cube (v : list double) : Prop := in_cube 20 (literal (-512) 2) (literal 512 2) v.
Lemma ras_box : fin (literal (-512) 2) /\ fin (literal 512 2) /\ flt (literal (-512) 2) (literal 512 2) = true /\ fin (fsub (literal 512 2) (literal (-512) 2)) /\ flt d0 (literal 1 1) = true.
Proof. repeat split; vm_compute; reflexivity. Qed.
Lemma cube_in (n : nat) lo hi v : cube lo hi (Z.of_nat n) v <-> in_cube n lo hi v.
Proof. unfold cube, in_cube. rewrite Nat2Z.inj_iff. reflexivity. Qed.
(** It finishes after 1000 generations with 400 particles, all inside the box
    [-5.12, 5.12]^20 and never evaluated elsewhere; what it prints as the result is
    the value of the Rastrigin function at globalBest(), a finite number that is
    not negative, and at no position that was ever evaluated, initial ones
    included, the function is lower. *)
Theorem C98_rastrigin : forall g, cos_safe L -> 1001 <= vec_max ->
  exists o rows b, run_ras g = Ok o /\
    length (get_population R o) = 400%nat /\
    (forall x, In x (get_population R o) -> in_ras_cube (position (here x)) /\ in_ras_cube (position (pBest x)) /\
       fitness (pBest x) = rastrigin (Dops L) (position (pBest x))) /\
    evaluated R false (rastrigin (Dops L)) rows (p_swarm (o_pso R o)) /\
    (forall row q, In row rows -> In q row -> in_ras_cube q) /\
    get_generation R o = Ok 1000 /\ length (get_record R o) = 1001%nat /\
    get_globalBest R o = Ok b /\ in_ras_cube (position b) /\ get_bestFitness R o = Ok (rastrigin (Dops L) (position b)) /\
    fin (rastrigin (Dops L) (position b)) /\ flt (rastrigin (Dops L) (position b)) d0 = false /\
    (exists row, In row rows /\ In (position b) row) /\
    (forall row q, In row rows -> In q row -> flt (rastrigin (Dops L) q) (rastrigin (Dops L) (position b)) = false).
Proof.
  intros g Hc Hv. destruct ras_box as (B1 & B2 & B3 & B4 & B5).
  assert (E : ras_main R = [ BoxCall R (SetRange (literal (-512) 2) (literal 512 2)); BoxCall R (PokeMax (literal 512 2)); BoxCall R (SetMaxVelocity (literal 1 1)); SetOption R ras_opt ] ++ [InitializePop R; Run R]) by reflexivity.
  rewrite E. clear E. unfold ras_start. unfold in_ras_cube. 
  assert (Po : p_populationSize ras_opt = 400 /\ p_maxGeneration ras_opt = 1000 /\ p_maxFailTimes ras_opt = two64 - 1) by (repeat split). destruct Po as (P1 & P2 & P3).
  assert (Fi : forall v : list double, in_cube 20 (literal (-512) 2) (literal 512 2) v -> fin (rastrigin (Dops L) v) /\ flt (rastrigin (Dops L) v) d0 = false).
  { intros v (Lv & U). apply (rastrigin_ok L Hc 20 v ltac:(lia) Lv U). }
  revert B1 B2 B3 B4 B5 P1 P2 P3 Fi. generalize (literal (-512) 2) as lo, (literal 512 2) as hi, (literal 1 1) as vm, ras_opt as opt. intros lo hi vm opt B1 B2 B3 B4 B5 P1 P2 P3 Fi.
  destruct (swarm_program R HR (SqFixed 20) false true vec_max junk (Some (ras_f L)) tt g
    [ BoxCall R (SetRange lo hi); BoxCall R (PokeMax hi); BoxCall R (SetMaxVelocity vm); SetOption R opt ] opt None None lo hi vm (ras_f L) tt 20)
    as (o1 & o & rows & b & ng & t & _ & _ & Ho & _ & _ & Sz & Ev & Rw & _ & Pop & Gb & Bf & Eb & Cb & Rb & Best & Gn & Ft & N1 & T1 & St & Rec).
  - repeat constructor.
  - apply ras_setup; assumption.
  - reflexivity.
  - lia.
  - repeat (split; [assumption|]). assumption.
  - lia.
  - rewrite P2. unfold two64. lia.
  - lia.
  - intros q Hq. apply (cube_in 20) in Hq. apply fin_nonnan. apply Fi, Hq.
  - assert (En : ng = 1000) by (unfold two64 in *; lia). subst ng. pose proof (proj1 (cube_in 20 lo hi _) Cb) as Cb'. destruct (Fi _ Cb') as (F1 & F2). rewrite Eb in *. unfold ras_f in *.
    exists o, rows, b. split; [exact Ho|]. split; [clear -Sz P1; lia|].
    split. { intros x Hx. destruct (Pop x Hx) as (X1 & X2 & X3). split; [apply (cube_in 20), X1|]. split; [apply (cube_in 20), X2|exact X3]. }
    split; [exact Ev|]. split; [intros row q Hr Hq; apply (cube_in 20), (Rw row q Hr Hq)|]. split; [exact Gn|]. split; [specialize (Rec eq_refl); clear -Rec; lia|].
    split; [exact Gb|]. split; [exact Cb'|]. split; [exact Bf|]. split; [exact F1|]. split; [exact F2|]. split; [exact Rb|exact Best].
Qed.

(** * test/PSO_TSP.cpp *)
Lemma ptsp_setup_ok (d lo hi vm : _) opt (f : list (list double) -> list double -> double) (D D0 : list (list double)) (g : G R) :
  0 < d -> flt lo hi = true -> flt d0 vm = true ->
  drive R SqVec false true vec_max (fresh R junk (IDefault R) None D0 g)
    [ BoxCall R (SetDimensions d); BoxCall R (SetRange lo hi); BoxCall R (SetMaxVelocity vm); SetFFun R (Some f); SetOption R opt; SetArgs R D ] =
  Ok (ready R junk g opt (Some d) None lo hi vm f D).
Proof.
  intros F0 F1 F2. cbn [drive step fresh o_mem apply_box]. rewrite (proj2 (Z.ltb_lt _ _) F0). cbn [bind drive step o_mem apply_box]. rewrite F1.
  cbn [bind drive step o_mem apply_box]. rewrite F2. reflexivity.
Qed.
Lemma unit_box : fin d0 /\ fin d1 /\ flt d0 d1 = true /\ fin (fsub d1 d0) /\ flt d0 (fofZ 1 (-1)) = true.
Proof. repeat split; vm_compute; reflexivity. Qed.
(** For every number N of points from 1 to 42949672 and all points in the square
    [-1,1]^2 it finishes, with 100 particles in the unit cube.  Both numbers it
    prints are lengths of tours described by keys of the unit cube: the first
    [ini] of the first particle's initial position, the second [best] of
    globalBest(); the second is never larger than the first, nor than the length
    for any position evaluated.  It stops after 50 N generations or after more
    than 5 N failures in a row. *)
Theorem C98_tsp : forall (N : nat) (pts : list fpoint) g, (1 <= N)%nat -> Z.of_nat N <= 42949672 -> length pts = N -> Forall square_point pts ->
  50 * Z.of_nat N + 1 <= vec_max ->
  exists ini best o rows b x0 tour0 tour n t,
    ptsp_main R std vec_max junk (Z.of_nat N) pts g = Ok (ini, o) /\
    length (get_population R o) = 100%nat /\ (forall x, In x (get_population R o) -> in_cube N d0 d1 (position (here x))) /\
    in_cube N d0 d1 x0 /\ tour_up x0 tour0 /\ ini = fpath_length pts tour0 /\
    get_globalBest R o = Ok b /\ in_cube N d0 d1 (position b) /\ tour_up (position b) tour /\
    get_bestFitness R o = Ok best /\ best = fpath_length pts tour /\ fin best /\ (0 <= B2R best <= 8 * INR (N - 1))%R /\
    flt ini best = false /\
    evaluated R false (ptsp_f std (dmat pts)) rows (p_swarm (o_pso R o)) /\
    (forall row q, In row rows -> In q row -> in_cube N d0 d1 q /\ exists l, ptsp_fitness std (dmat pts) q = Ok l /\ flt l best = false) /\
    get_generation R o = Ok n /\ get_failTimes R o = Ok t /\ 0 <= n <= 50 * Z.of_nat N /\ (n = 50 * Z.of_nat N \/ 5 * Z.of_nat N < t) /\
    Z.of_nat (length (get_record R o)) = n + 1.
Proof.
  intros N pts g N1 N2 Lp U Hv. destruct unit_box as (B1 & B2 & B3 & B4 & B5).
  assert (Fit : forall q, in_cube N d0 d1 q -> exists order, tour_up q order /\ ptsp_fitness std (dmat pts) q = Ok (fpath_length pts order) /\
    ptsp_f std (dmat pts) q = fpath_length pts order /\ fin (fpath_length pts order) /\ (0 <= B2R (fpath_length pts order) <= 8 * INR (N - 1))%R).
  { intros q (Lq & Uq). destruct (ptsp_fitness_ok std Hstd pts q ltac:(congruence)) as (order & T & E & F & B); [|exact U|rewrite Lp; lia|].
    - intros k Hk. apply fin_nonnan. apply (unit_bd k). exact (Uq k Hk).
    - exists order. split; [exact T|]. split; [exact E|]. split; [unfold ptsp_f; rewrite E; reflexivity|]. split; [exact F|]. rewrite Lp in B. rewrite INR_IZR_INZ. exact B. }
  unfold ptsp_main. rewrite (proj2 (Z.ltb_ge _ _)) by lia. rewrite (int32_ok (50 * Z.of_nat N)) by lia. cbn [bind].
  unfold ptsp_setup, ptsp_start.
  assert (Po : p_populationSize (ptsp_opt (50 * Z.of_nat N)) = 100 /\ p_maxGeneration (ptsp_opt (50 * Z.of_nat N)) = 50 * Z.of_nat N /\ p_maxFailTimes (ptsp_opt (50 * Z.of_nat N)) = 5 * Z.of_nat N).
  { split; [reflexivity|]. split; [reflexivity|]. unfold ptsp_opt. cbn [p_maxFailTimes]. replace (50 * Z.of_nat N) with (5 * Z.of_nat N * 10) by lia. apply Z.div_mul. lia. }
  destruct Po as (P1 & P2 & P3).
  revert B5 P1 P2 P3. generalize (ptsp_opt (50 * Z.of_nat N)) as opt, (fofZ 1 (-1) : double) as vm. intros opt vm B5 P1 P2 P3.
  destruct (swarm_program R HR SqVec false true vec_max junk None [] g
    [ BoxCall R (SetDimensions (Z.of_nat N)); BoxCall R (SetRange d0 d1); BoxCall R (SetMaxVelocity vm); SetFFun R (Some (ptsp_f std)); SetOption R opt; SetArgs R (dmat pts) ]
    opt (Some (Z.of_nat N)) None d0 d1 vm (ptsp_f std) (dmat pts) (Z.of_nat N))
    as (o1 & o & rows & b & ng & t & H1 & H2 & _ & Ea & S1 & Sz & Ev & Rw & Ri & Pop & Gb & Bf & Eb & Cb & Rb & Best & Gn & Ft & G1 & T1 & St & Rec).
  - repeat constructor.
  - apply ptsp_setup_ok; [lia|assumption..].
  - reflexivity.
  - lia.
  - repeat (split; [assumption|]). assumption.
  - lia.
  - rewrite P2. unfold two64. lia.
  - rewrite P2. lia.
  - intros q Hq. apply cube_in in Hq. destruct (Fit q Hq) as (order & _ & _ & E & F & _). rewrite E. apply fin_nonnan, F.
  - apply cube_in in Cb. destruct (Fit _ Cb) as (tour & T & Et & Ef & F & B).
    rewrite H1. cbn [bind]. destruct (get_population R o1) as [|x ps] eqn:Ep; [exfalso; rewrite P1 in S1; cbn [length] in S1; clear -S1; lia|].
    destruct (Ri x (or_introl eq_refl)) as (row0 & R1 & R2). pose proof (proj1 (cube_in N d0 d1 _) (Rw _ _ R1 R2)) as Cx. destruct (Fit _ Cx) as (tour0 & T0 & E0 & Ef0 & F0 & _).
    rewrite Ea, E0. cbn [bind]. rewrite H2. cbn [bind].
    assert (Nb : forall row q, In row rows -> In q row -> flt (ptsp_f std (dmat pts) q) (fpath_length pts tour) = false).
    { intros row q Hr Hq. specialize (Best row q Hr Hq). rewrite Eb, Ef in Best. exact Best. }
    exists (fpath_length pts tour0), (fpath_length pts tour), o, rows, b, (position (here x)), tour0, tour, ng, t.
    split; [reflexivity|]. split; [clear -Sz P1; lia|]. split; [intros y Hy; apply cube_in, (Pop y Hy)|]. split; [exact Cx|]. split; [exact T0|]. split; [reflexivity|].
    split; [exact Gb|]. split; [exact Cb|]. split; [exact T|]. split; [rewrite Bf, Eb, Ef; reflexivity|]. split; [reflexivity|]. split; [exact F|]. split; [exact B|].
    split; [rewrite <- Ef0; exact (Nb row0 _ R1 R2)|]. split; [exact Ev|].
    split. { intros row q Hr Hq. pose proof (proj1 (cube_in N d0 d1 _) (Rw _ _ Hr Hq)) as Cq. split; [exact Cq|]. destruct (Fit _ Cq) as (tq & _ & Eq & Efq & _).
             exists (fpath_length pts tq). split; [exact Eq|]. rewrite <- Efq. exact (Nb row q Hr Hq). }
    rewrite P2, P3 in *. split; [exact Gn|]. split; [exact Ft|]. split; [exact G1|]. split; [clear -St; lia|]. exact (Rec eq_refl).
Qed.
(** Other numbers: no points, or fewer, fail an assertion; from 42949673 points on
    the number of generations overflows an int. *)
Theorem C98_tsp_other_sizes : forall (N : Z) (pts : list fpoint) g,
  (N <= 0 -> ptsp_main R std vec_max junk N pts g = Abort) /\
  (42949672 < N -> ptsp_main R std vec_max junk N pts g = UB).
Proof.
  intros N pts g. unfold ptsp_main. split.
  - intros H. destruct (Z.ltb_spec N 0) as [C|C]; [reflexivity|]. assert (N = 0) by lia. subst N. reflexivity.
  - intros H. rewrite (proj2 (Z.ltb_ge _ _)) by lia. assert (E : arith int32 (50 * N) = UB).
    { unfold arith, in_ity, imin, imax, int32. cbn [isgn ibits]. change (2 ^ (32 - 1)) with 2147483648. rewrite (proj2 (Z.leb_gt (50 * N) _)) by lia. rewrite andb_false_r. reflexivity. }
    rewrite E. reflexivity.
Qed.
End C98.
Print Assumptions C98_rastrigin.
Print Assumptions C98_tsp.
Print Assumptions C98_tsp_other_sizes.

(** Refuted: that the tour visits the points in the order of the keys.  Keys are
    compared as floats, so two different keys of the unit interval may count as
    equal; then the later key can be visited first. *)
Theorem C98_order_of_keys_refuted : exists (std : std_ops) (x : list double) order i j a b ka kb,
  std_ok std /\ in_cube 2 d0 d1 x /\ ptsp_order std 2 x = Ok order /\ (i < j)%nat /\ nth_error order i = Some a /\ nth_error order j = Some b /\
  nth_error x a = Some ka /\ nth_error x b = Some kb /\ flt kb ka = true.
Proof.
  exists std_inst, [fofZ 1073741825 (-31); fofZ 1 (-1)], [0%nat; 1%nat], 0%nat, 1%nat, 0%nat, 1%nat, (fofZ 1073741825 (-31)), (fofZ 1 (-1)).
  split; [exact std_inst_ok|]. split; [split; [reflexivity|]; intros x [<-|[<-|[]]]; split; vm_compute; reflexivity|].
  split; [vm_compute; reflexivity|]. split; [lia|]. repeat (split; [reflexivity|]). vm_compute. reflexivity.
Qed.
Print Assumptions C98_order_of_keys_refuted.

(** The assumptions can be met. *)
Example ex_C98 : rng_ok replay /\ std_ok std_inst /\ cos_safe tiny_libm /\
  Forall square_point [(f0, f1); (f_of_Z (-1), f0); (f1, f1)] /\ in_cube 3 d0 d1 [d0; fofZ 1 (-1); d1].
Proof.
  split; [exact replay_ok|]. split; [exact std_inst_ok|]. split; [intros x; cbn [tiny_libm l_cos]; split; [reflexivity|right; split; [reflexivity|cbn; rewrite Rabs_R0; lra]]|].
  split; [repeat constructor; vm_compute; reflexivity|]. split; [reflexivity|]. intros x [<-|[<-|[<-|[]]]]; split; vm_compute; reflexivity.
Qed.
(** A tour, walked: the keys 0, 0.5, 1 visit the points in order; 2 + 5. *)
Example ex_C98_tour : match ptsp_fitness std_inst (dmat [(f0, f1); (f_of_Z (-1), f0); (f1, f1)]) [d0; fofZ 1 (-1); d1] with Ok x => feq x (d_of_Z 7) | _ => false end = true.
Proof. vm_compute. reflexivity. Qed.
