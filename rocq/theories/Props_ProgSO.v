(** C96: the single-objective genetic example programs that come with the library,
    and when a run stops. *)
From Coq Require Import List Arith ZArith Bool Lia Reals Lra Permutation.
From Flocq Require Import Core BinarySingleNaN.
From Verif Require Import Props_SOGAObj Props_Region Props_Blend Props_Box Props_BoxObj BoxObjProofs WheelProofs2 WheelProofs3 SOGAProofs5 RandProofs GlobalProofs BoxProofs BlendProofs ProgMOProofs ProgMOProofs2 Props_ProgMO ProgSOProofs ProgSOProofs2.
From Verif Require BoxObj.
From Verif Require Import Base Fl FlFacts Rng StdOps GABase SOGA Box Defaults GlobalM Bench SOGAObj SOGAObjSpec RegionSpec ProgMO ProgSO ProgSOSpec.
Import ListNotations.
Open Scope Z_scope.

(** * When a run stops *)
Section Stop.
Context (V A : Type) (R : rng_ops) (std : std_ops) (mode : option method) (greater rec_on : bool)
  (pw : double -> double -> double) (ex : double -> double) (junk : double) (v0 : V) (vec_max : Z) (sel_fuel : nat) (B : Z) (inside : V -> bool).
Notation drive' := (@drive V A R std mode greater rec_on pw ex junk v0 vec_max sel_fuel).
Notation start := (fresh R mode greater).
Notation ok_history Q := (lawful_history_in (V := V) (A := A) R std mode greater rec_on pw ex junk v0 vec_max sel_fuel B inside (Q mode)).
(** After any history of allowed calls that ends with run(): either all
    maxGenerations generations were done, or maxFailTimes is not 0 and failTimes()
    exceeds it. *)
Theorem C96_stop_reason : forall (ct : @slots V A R) (a : A) (g : G R) h o0 o,
  rng_ok R -> std_ok std -> 0 <= B < 2147483648 -> ok_history size_safe (start ct a g) (h ++ [Run R]) ->
  drive' (start ct a g) h = Ok o0 -> drive' o0 [Run R] = Ok o ->
  exists n k, get_generation R o = Ok n /\ get_failTimes R o = Ok k /\ 0 <= k <= n + 1 /\
    (n = maxGenerations (s_opt (o_set R o0)) \/ 0 < maxFailTimes (s_opt (o_set R o0)) < k).
Proof. intros. eapply stop_reason; eassumption. Qed.
(** "If maxFailTimes is equal or greater than maxGenerations, the solver will
    definitely run for [maxGenerations] generations" (and if it is 0). *)
Theorem C96_runs_to_the_end : forall (ct : @slots V A R) (a : A) (g : G R) h o0 o,
  rng_ok R -> std_ok std -> 0 <= B < 2147483648 -> ok_history size_safe (start ct a g) (h ++ [Run R]) ->
  drive' (start ct a g) h = Ok o0 -> drive' o0 [Run R] = Ok o ->
  maxFailTimes (s_opt (o_set R o0)) = 0 \/ maxGenerations (s_opt (o_set R o0)) <= maxFailTimes (s_opt (o_set R o0)) ->
  get_generation R o = Ok (maxGenerations (s_opt (o_set R o0))).
Proof.
  intros ct a g h o0 o HR Hs HB L H1 H2 C.
  destruct (C96_stop_reason ct a g h o0 o HR Hs HB L H1 H2) as (n & k & En & Ek & Hk & [E|E]); [rewrite En, E; reflexivity|].
  destruct (C92_soga_after_run V A R std mode greater rec_on pw ex junk v0 vec_max sel_fuel B inside ct a g h o0 o HR Hs HB L H1 H2) as ((x & n' & k' & _ & _ & _ & _ & En' & Hn & _) & _).
  assert (n' = n) by congruence. subst n'. rewrite En. f_equal. lia.
Qed.
End Stop.
Print Assumptions C96_stop_reason.
Print Assumptions C96_runs_to_the_end.

(** * test/SOGA_TSP.cpp *)
(** The fitness of a vector of keys is the length of a tour of the points along
    which the keys fall; between 0 and 2 per leg. *)
Theorem C96_tsp_fitness : forall std (pts : list point) (x : list double), std_ok std ->
  length x = length pts -> (forall k, In k x -> nonnan k) -> Forall unit_point pts -> Z.of_nat (length pts) <= 4294967296 ->
  exists order, tour_of x order /\ tsp_fitness std pts x = Ok (path_length pts order) /\
    fin (path_length pts order) /\ (0 <= B2R (path_length pts order) <= 2 * IZR (Z.of_nat (length pts - 1)))%R.
Proof. intros std pts x Hs. apply tsp_fitness_ok, Hs. Qed.
(** What the program prints first: the points in the order drawn, walked
    backwards, whatever std::sort does. *)
Theorem C96_tsp_default_path : forall std (pts : list point), std_ok std -> Z.of_nat (length pts) <= 4294967296 -> Forall unit_point pts ->
  tsp_fitness std pts (natural (length pts)) = Ok (path_length pts (rev (seq 0 (length pts)))).
Proof.
  intros std pts Hs Hn U. destruct (tsp_fitness_ok std Hs pts (natural (length pts))) as (order & T & E & _); try assumption.
  - unfold natural. rewrite map_length, seq_length. reflexivity.
  - intros k Hk. unfold natural in Hk. apply in_map_iff in Hk. destruct Hk as (i & <- & Hi). apply in_seq in Hi. apply fin_nonnan. apply (nat_key (length pts) i); lia.
  - rewrite E. rewrite (natural_tour _ _ Hn T). reflexivity.
Qed.
(** Mutation: one key moved by at most 0.01 and clamped to [0,1], or a flip. *)
Theorem C96_tsp_mutation : forall R crand (src : list double) (g : G R), rng_ok R -> (2 <= length src)%nat -> Forall unit_value src ->
  exists x g', tsp_mutate R crand src g = Ok (x, g') /\ length x = length src /\ Forall unit_value x /\
    ((exists i v r, nth_error src i = Some v /\ fle (literal (-1) 2) r = true /\ fle r (literal 1 2) = true /\ x = set_at src i (clampD d0 d1 (fadd v r))) \/
     (exists b e, (b < e)%nat /\ (e < length src)%nat /\ (forall j, nth_error x j = nth_error src (flip_index b e j)) /\ Permutation src x)).
Proof. intros. apply tsp_mutate_ok; assumption. Qed.
(** The flip of an odd number of keys reverses them, ... *)
Theorem C96_tsp_flip_odd : forall b e (x : list double), (b < e)%nat -> (e < length x)%nat -> Nat.odd (e - b + 1) = true ->
  exists y, flip_loop (length x + 2) b e 0 x = Ok y /\ length y = length x /\ forall j, nth_error y j = nth_error x (reversed b e j).
Proof.
  intros b e x Hb He Ho. destruct (flip_ok b e x Hb He) as (y & Ey & Ly & Hy). exists y. split; [exact Ey|]. split; [exact Ly|].
  intros j. rewrite Hy. f_equal. apply Nat.odd_spec in Ho. destruct Ho as (h & Ho).
  unfold flip_index, reversed. destruct ((j <? b) || (e <? j))%nat; [reflexivity|].
  destruct (Nat.eqb_spec (2 * j + 1) (b + e)); [lia|]. destruct (Nat.eqb_spec (2 * j) (b + e + 1)); [lia|]. reflexivity.
Qed.
(** ... that of an even number leaves the two in the middle where they were, and of
    two keys leaves everything as it was. *)
Theorem C96_tsp_flip_even_refuted :
  (exists b e (x y : list double), (b < e)%nat /\ (e < length x)%nat /\ flip_loop (length x + 2) b e 0 x = Ok y /\ exists j, nth_error y j <> nth_error x (reversed b e j)) /\
  forall b (x : list double), (S b < length x)%nat -> flip_loop (length x + 2) b (S b) 0 x = Ok x.
Proof.
  split.
  - exists 0%nat, 1%nat, [d0; d1], [d0; d1]. split; [lia|]. split; [cbn; lia|]. split; [reflexivity|]. exists 0%nat. discriminate.
  - intros b x H. destruct (flip_ok b (S b) x ltac:(lia) H) as (y & Ey & Ly & Hy). rewrite Ey. f_equal. apply nth_error_ext. intros j. rewrite Hy. f_equal.
    destruct (flip_cases b (S b) j) as [(_ & E)|[(_ & _ & E)|(H1 & H2 & H3 & E)]]; rewrite E; lia.
Qed.
(** With fewer than two points the mutation is undefined. *)
Theorem C96_tsp_one_point_refuted : forall R crand (g : G R), tsp_mutate R crand [] g = UB /\
  forall v, flt (fst (rand01 R g)) (fofZ 1 (-1)) = false -> tsp_mutate R crand [v] g = UB.
Proof.
  intros R crand g. unfold tsp_mutate. destruct (rand01 R g) as [u g1]. cbn [length fst]. split; [destruct (flt u (fofZ 1 (-1))); reflexivity|].
  intros v E. rewrite E. reflexivity.
Qed.
Print Assumptions C96_tsp_fitness.
Print Assumptions C96_tsp_default_path.
Print Assumptions C96_tsp_mutation.
Print Assumptions C96_tsp_flip_odd.
Print Assumptions C96_tsp_flip_even_refuted.
Print Assumptions C96_tsp_one_point_refuted.

Section Progs.
Context (R : rng_ops) (std : std_ops) (L : libm) (crand : G R -> Z * G R) (pw : double -> double -> double) (ex : double -> double).
Context (junk : double) (v0 : list double) (vec_max : Z) (sel_fuel : nat).
Context (HR : rng_ok R) (Hstd : std_ok std).
Definition none : forall A, @slots (list double) A R := fun A => mkSlots R None None None None.
Lemma points_unit n g : length (fst (tsp_points R n g)) = n /\ Forall unit_point (fst (tsp_points R n g)).
Proof.
  revert g. induction n as [|n IH]; intros g; cbn [tsp_points]; [split; [reflexivity|constructor]|].
  pose proof (proj1 HR g) as (A1 & A2). destruct (rand01 R g) as [x g1]. pose proof (proj1 HR g1) as (B1 & B2). destruct (rand01 R g1) as [y g2].
  specialize (IH g2). destruct (tsp_points R n g2) as [t g3]. cbn [fst length] in *. destruct IH as (I1 & I2). split; [lia|]. constructor; [|exact I2].
  split; split; cbn [fst snd]; try assumption; apply flt_fle'; assumption.
Qed.
Lemma drive_tsp mode greater rec_on A (o : @obj (list double) A R) (b : A) i f c m op :
  @drive (list double) A R std mode greater rec_on pw ex junk v0 vec_max sel_fuel o
    [ SetIFun R (Some i); SetMFun R (Some m); SetFFun R (Some f); SetCFun R (Some c); Setting R (SetOption op); SetArgs R b ] =
  Ok (mkObj R (let s := o_set R o in mkSet op (s_method s) (s_tour s) (s_worst s) (s_best s) (s_base s) (s_strength s) (s_elite s)) (mkSlots R (Some i) (Some f) (Some c) (Some m)) b
        (o_core R o) (o_gen R o) (o_rec R o) (o_inited R o) (o_ran R o)).
Proof. destruct o. reflexivity. Qed.
Lemma set_up_tsp mode greater rec_on A (a b : A) (g : G R) i f c m op :
  set_up R std mode greater rec_on pw ex junk v0 vec_max sel_fuel (none A) a g
    [ SetIFun R (Some i); SetMFun R (Some m); SetFFun R (Some f); SetCFun R (Some c); Setting R (SetOption op); SetArgs R b ] i f c m
    (let s := fresh_settings mode greater in mkSet op (s_method s) (s_tour s) (s_worst s) (s_best s) (s_base s) (s_strength s) (s_elite s)) b.
Proof. eexists. split; [apply drive_tsp|]. split; [reflexivity|]. split; reflexivity. Qed.
Lemma unit_cube n v : inside_box (square_dbox (Z.of_nat n) d0 d1 d1) v = true <-> length v = n /\ Forall unit_value v.
Proof. rewrite cube_box. unfold in_cube. rewrite Forall_forall. reflexivity. Qed.
Lemma tsp_inside (pts : list point) : (2 <= length pts)%nat -> Z.of_nat (length pts) <= 4294967295 -> Forall unit_point pts ->
  stays_inside R (inside_box (square_dbox (Z.of_nat (length pts)) d0 d1 d1)) (tsp_i R) (tsp_f std) (tsp_c R) (tsp_m R crand) pts.
Proof.
  intros Hn Hm U. split; [|split; [|split]].
  - intros v Hv. apply unit_cube in Hv. destruct Hv as (Lv & Hv). unfold tsp_f.
    destruct (tsp_fitness_ok std Hstd pts v Lv) as (order & _ & E & F & _); try assumption; [|lia|rewrite E; apply fin_nonnan, F].
    intros k Hk. apply fin_nonnan. apply unit_bd. rewrite Forall_forall in Hv. apply Hv, Hk.
  - intros g. apply unit_cube. destruct (draws01_in R HR (length pts) g) as (D1 & D2). split; [exact D1|]. apply Forall_forall. exact D2.
  - apply cross_total. destruct one_val as (F1 & V1). apply C93_half_keeps_every_box.
    + split; [cbn; lia|]. intros i _. vm_compute. reflexivity.
    + intros i _. cbn [minD maxD square_dbox]. split; [reflexivity|]. split; [exact F1|]. split; [left; reflexivity|right]. rewrite V1, Rabs_R1.
      change 1%R with (bpow radix2 0). apply bpow_le. lia.
  - intros v g Hv. apply unit_cube in Hv. destruct Hv as (Lv & Hv). unfold tsp_m.
    destruct (tsp_mutate_ok R HR crand v g) as (x & g' & E & Lx & Ux & _); [lia|exact Hv|]. rewrite E. apply unit_cube. split; [cbn; congruence|exact Ux].
Qed.
(** The whole program, for every number of points from 2 on: it finishes after
    30 n generations (modulo 2^32); the keys it hands out lie in [0,1], and the
    fitness it prints is the length of a tour that these keys describe; nobody in
    the population has a shorter one. *)
Theorem C96_tsp : forall (n : nat) (g : G R), (2 <= n)%nat -> Z.of_nat n <= 4294967295 -> pow_ok pw -> 4294967296 <= vec_max -> (400 <= sel_fuel)%nat ->
  let pts := fst (tsp_points R n g) in
  exists o v order,
    @drive (list double) (list point) R std (Some Tournament) false false pw ex junk v0 vec_max sel_fuel
      (fresh R (Some Tournament) false (none (list point)) [] (snd (tsp_points R n g))) (tsp_main R std crand pts (Z.of_nat n)) = Ok o /\
    get_generation R o = Ok ((30 * Z.of_nat n) mod 4294967296) /\ Z.of_nat (length (get_population R o)) = 100 /\
    get_result R o = Ok v /\ length v = n /\ Forall unit_value v /\
    tour_of v order /\ get_bestFitness R o = Ok (path_length pts order) /\ fin (path_length pts order) /\
    forall y, In y (get_population R o) -> flt (gfit y) (path_length pts order) = false.
Proof.
  intros n g Hn Hm Hp Hv Hf. cbv zeta. destruct (points_unit n g) as (Lp & Up). set (pts := fst (tsp_points R n g)) in *. clearbody pts.
  set (M := (30 * Z.of_nat n) mod 4294967296). pose proof (Z.mod_pos_bound (30 * Z.of_nat n) 4294967296 ltac:(lia)) as HM. fold M in HM.
  assert (Hi : stays_inside R (inside_box (square_dbox (Z.of_nat (length pts)) d0 d1 d1)) (tsp_i R) (tsp_f std) (tsp_c R) (tsp_m R crand) pts) by (apply tsp_inside; try assumption; lia).
  set (pre := [ SetIFun R (Some (tsp_i R)); SetMFun R (Some (tsp_m R crand)); SetFFun R (Some (tsp_f std)); SetCFun R (Some (tsp_c R)); Setting R (SetOption (tsp_opt (Z.of_nat n))); SetArgs R pts ]).
  pose proof (set_up_tsp (Some Tournament) false false (list point) [] pts (snd (tsp_points R n g)) (tsp_i R) (tsp_f std) (tsp_c R) (tsp_m R crand) (tsp_opt (Z.of_nat n))) as Su. fold pre in Su.
  set (st := let s := fresh_settings (Some Tournament) false in mkSet (tsp_opt (Z.of_nat n)) (s_method s) (s_tour s) (s_worst s) (s_best s) (s_base s) (s_strength s) (s_elite s)) in Su.
  assert (E1 : populationSize (s_opt st) = 100) by reflexivity. assert (E2 : maxGenerations (s_opt st) = M) by reflexivity. assert (E3 : maxFailTimes (s_opt st) = M) by reflexivity.
  assert (E4 : s_tour st = 3) by reflexivity.
  assert (Gs : good_settings (Some Tournament) vec_max 400 st).
  { unfold good_settings. rewrite E1, E2, E4. unfold two64. split; [lia|]. split; [lia|]. split; [lia|]. split; [lia|]. split; [lia|discriminate]. }
  assert (Pl : Forall (plain_call R) pre).
  { repeat constructor; try exact I. intros s. eexists. reflexivity. }
  assert (Ss : size_safe (Some Tournament) st) by (split; discriminate).
  clearbody st.
  destruct (program_returns R std (Some Tournament) false false pw ex junk v0 vec_max sel_fuel 400 (inside_box (square_dbox (Z.of_nat (length pts)) d0 d1 d1)) HR Hstd ltac:(lia)
    (none (list point)) [] (snd (tsp_points R n g)) pre _ _ _ _ st pts Pl Su Gs Hi Hp ltac:(lia) Logic.I) as (o & Ho).
  destruct (program_after R std (Some Tournament) false false pw ex junk v0 vec_max sel_fuel 400 (inside_box (square_dbox (Z.of_nat (length pts)) d0 d1 d1)) HR Hstd ltac:(lia)
    (none (list point)) [] (snd (tsp_points R n g)) pre _ _ _ _ st pts o Pl Su Gs Hi Ss Ho) as (Sz & _ & v & ng & k & R1 & R2 & R3 & R4 & R5 & R6 & R7 & R8 & R9 & _).
  apply unit_cube in R3. destruct R3 as (Lv & Uv).
  destruct (tsp_fitness_ok std Hstd pts v Lv) as (order & T & Ef & Ff & _); try assumption; try lia.
  { intros x Hx. apply fin_nonnan. apply unit_bd. rewrite Forall_forall in Uv. apply Uv, Hx. }
  assert (Fv : tsp_f std pts v = path_length pts order) by (unfold tsp_f; rewrite Ef; reflexivity). rewrite Fv in *.
  exists o, v, order. split; [exact Ho|]. split; [rewrite R5; f_equal; lia|]. split; [congruence|]. split; [exact R1|]. split; [congruence|]. split; [exact Uv|]. split; [exact T|].
  split; [exact R2|]. split; [exact Ff|]. exact R4.
Qed.
(** Above 143165576 points the number of generations wraps around. *)
Theorem C96_tsp_wraps_refuted : maxGenerations (tsp_opt 143165577) = 14 /\ forall n, 0 <= n <= 143165576 -> maxGenerations (tsp_opt n) = 30 * n.
Proof. split; [reflexivity|]. intros n Hn. cbn [tsp_opt maxGenerations]. apply Z.mod_small. lia. Qed.

(** * test/SOGA_Ackley.cpp *)
Lemma ack_drive : BoxObj.bdrive ack_kind (BoxObj.fresh ack_kind) ack_calls = Ok ack_box.
Proof.
  unfold ack_box. assert (T : match BoxObj.bdrive ack_kind (BoxObj.fresh ack_kind) ack_calls with Ok _ => true | _ => false end = true) by (vm_compute; reflexivity).
  destruct (BoxObj.bdrive ack_kind (BoxObj.fresh ack_kind) ack_calls) as [b| | |]; try discriminate T. reflexivity.
Qed.
Definition ack_dbox : dbox := square_dbox (2 * 1) (d_of_Z (-5)) (d_of_Z 5) (literal 5 2).
Lemma ack_works : works R ack_kind ack_box ack_dbox /\ moves R ack_kind ack_box ack_dbox.
Proof.
  destruct (C80_square_box R ack_kind ack_calls ack_box (d_of_Z (-5)) (d_of_Z 5) 2 1 HR eq_refl eq_refl ack_drive) as (_ & W & M).
  - split; [reflexivity|]. exists [], [BoxObj.SetDelta (literal 5 2)]. split; [reflexivity|]. intros x [<-|[]]. reflexivity.
  - left. split; [reflexivity|]. lia.
  - lia.
  - split; [apply W|]. apply M. split; [reflexivity|]. exists [BoxObj.SetRange (d_of_Z (-5)) (d_of_Z 5)], []. split; [reflexivity|]. intros x [].
Qed.
Lemma ack_inside (Hc : cos_sane L) (He : exp_sane4 L) : stays_inside R (inside_box ack_dbox) (ack_i R) (ack_f L) (ack_c R) (ack_m R) ack_box.
Proof.
  destruct ack_works as ((W & _) & M). split; [|split; [|split]].
  - intros v Hv. apply inside_iff in Hv. unfold ack_f. destruct (ackley_fin L Hc He (literal 5 2) v Hv) as (f & E & F). rewrite E. apply fin_nonnan, F.
  - intros g. destruct (W g) as (v & g' & E & I1); [|unfold ack_i; rewrite E; apply inside_iff, I1].
    intros i _. cbn [ack_dbox square_dbox minD maxD]. repeat split; vm_compute; reflexivity.
  - apply cross_total. apply C93_default_ratio_keeps. lia.
  - intros v g Hv. apply inside_iff in Hv. unfold ack_m. destruct (M v g Hv) as (v' & g' & E & I1 & _); [|rewrite E; apply inside_iff, I1].
    intros i _. cbn [ack_dbox square_dbox deltaD]. vm_compute. reflexivity.
Qed.
Lemma drive_ack A (o : @obj (list double) A R) (b : A) f op mt w bst base str tour el :
  flt w bst = true -> fle d0 w && fle d0 bst = true -> fle w d1 && fle bst d1 = true -> fle d0 base = true -> flt base d1 = true -> tour >=? 2 = true -> el >=? 1 = true ->
  @drive (list double) A R std None false true pw ex junk v0 vec_max sel_fuel o
    [ Setting R (SetSelectMethod (Some mt)); Setting R (SetTournamentSize tour); Setting R (SetLinearSelectProbability w bst);
      Setting R (SetExponetialSelectBase base); Setting R (SetBoltzmannSelectStrength str); Setting R (SetEliteNum el); Setting R (SetOption op); SetArgs R b; SetFFun R (Some f) ] =
  Ok (mkObj R (mkSet op mt tour w bst base (Some str) el) (mkSlots R (f_i R (o_slots R o)) (Some f) (f_c R (o_slots R o)) (f_m R (o_slots R o))) b
        (o_core R o) (o_gen R o) (o_rec R o) (o_inited R o) (o_ran R o)).
Proof.
  intros H1 H2 H3 H4 H5 H6 H7. destruct o as [st sl ar co ge re ini ra]. destruct st as [op0 m0 t0 w0 b0 e0 str0 el0].
  assert (St : forall s s' h st st', apply_setting st s = Ok s' -> s' = st' ->
    @drive (list double) A R std None false true pw ex junk v0 vec_max sel_fuel (mkObj R st sl ar co ge re ini ra) (Setting R s :: h) =
    @drive (list double) A R std None false true pw ex junk v0 vec_max sel_fuel (mkObj R st' sl ar co ge re ini ra) h).
  { intros s s' h st st' E <-. cbn [drive step o_set]. rewrite E. reflexivity. }
  rewrite (St _ (mkSet op0 mt t0 w0 b0 e0 str0 el0) _ _ (mkSet op0 mt t0 w0 b0 e0 str0 el0)); [|reflexivity|reflexivity].
  rewrite (St _ (mkSet op0 mt tour w0 b0 e0 str0 el0) _ _ (mkSet op0 mt tour w0 b0 e0 str0 el0)); [|cbn [apply_setting]; rewrite H6; reflexivity|reflexivity].
  rewrite (St _ (mkSet op0 mt tour w bst e0 str0 el0) _ _ (mkSet op0 mt tour w bst e0 str0 el0)); [|cbn [apply_setting]; rewrite H1, H2, H3; reflexivity|reflexivity].
  rewrite (St _ (mkSet op0 mt tour w bst base str0 el0) _ _ (mkSet op0 mt tour w bst base str0 el0)); [|cbn [apply_setting]; rewrite H4, H5; reflexivity|reflexivity].
  rewrite (St _ (mkSet op0 mt tour w bst base (Some str) el0) _ _ (mkSet op0 mt tour w bst base (Some str) el0)); [|reflexivity|reflexivity].
  rewrite (St _ (mkSet op0 mt tour w bst base (Some str) el) _ _ (mkSet op0 mt tour w bst base (Some str) el)); [|cbn [apply_setting]; rewrite H7; reflexivity|reflexivity].
  rewrite (St _ (mkSet op mt tour w bst base (Some str) el) _ _ (mkSet op mt tour w bst base (Some str) el)); [|reflexivity|reflexivity].
  reflexivity.
Qed.
Lemma set_up_ack A (a b : A) (g : G R) i f c m op mt w bst base str tour el :
  flt w bst = true -> fle d0 w && fle d0 bst = true -> fle w d1 && fle bst d1 = true -> fle d0 base = true -> flt base d1 = true -> tour >=? 2 = true -> el >=? 1 = true ->
  let pre := [ Setting R (SetSelectMethod (Some mt)); Setting R (SetTournamentSize tour); Setting R (SetLinearSelectProbability w bst);
      Setting R (SetExponetialSelectBase base); Setting R (SetBoltzmannSelectStrength str); Setting R (SetEliteNum el); Setting R (SetOption op); SetArgs R b; SetFFun R (Some f) ] in
  set_up R std None false true pw ex junk v0 vec_max sel_fuel (mkSlots R (Some i) None (Some c) (Some m)) a g pre i f c m (mkSet op mt tour w bst base (Some str) el) b /\
  Forall (@plain_call (list double) A R) pre.
Proof.
  intros H1 H2 H3 H4 H5 H6 H7. cbv zeta. split.
  - eexists. split; [apply drive_ack; assumption|]. split; [reflexivity|]. split; reflexivity.
  - repeat (apply Forall_cons; [cbn [plain_call]; first [exact Logic.I | split; [|exact Logic.I]; intros st; cbn [apply_setting]; rewrite ?H1, ?H2, ?H3, ?H4, ?H5, ?H6, ?H7; cbn [negb]; eexists; reflexivity]|]). apply Forall_nil.
Qed.
(** What the setters of the program leave behind. *)
Definition ack_settings (m : method) : settings := mkSet ack_opt m 3 (literal 2 1) (literal 8 1) (literal 8 1) (Some (d_of_Z (-10))) 3.
Definition ack_pre (m : method) : list (@call (list double) BoxObj.box R) :=
  [ Setting R (SetSelectMethod (Some m)); Setting R (SetTournamentSize 3); Setting R (SetLinearSelectProbability (literal 2 1) (literal 8 1));
    Setting R (SetExponetialSelectBase (literal 8 1)); Setting R (SetBoltzmannSelectStrength (d_of_Z (-10))); Setting R (SetEliteNum 3);
    Setting R (SetOption ack_opt); SetArgs R ack_box; SetFFun R (Some (ack_f L)) ].
Lemma ack_up m b0 g :
  set_up R std None false true pw ex junk v0 vec_max sel_fuel (ack_slots R) b0 g (ack_pre m) (ack_i R) (ack_f L) (ack_c R) (ack_m R) (ack_settings m) ack_box /\
  Forall (@plain_call (list double) BoxObj.box R) (ack_pre m).
Proof.
  unfold ack_settings, ack_pre, ack_slots. generalize ack_opt as op, ack_box as bx. generalize (ack_i R), (ack_f L), (ack_c R), (ack_m R). intros i f c mm op bx.
  apply set_up_ack; vm_compute; reflexivity.
Qed.
Lemma ack_good m : 101 <= vec_max -> good_settings None vec_max 200 (ack_settings m).
Proof.
  intros Hv. assert (E1 : populationSize (s_opt (ack_settings m)) = 50) by reflexivity. assert (E2 : maxGenerations (s_opt (ack_settings m)) = 100) by reflexivity.
  assert (E3 : s_tour (ack_settings m) = 3) by reflexivity. unfold good_settings. rewrite E1, E2, E3. unfold two64.
  split; [lia|]. split; [lia|]. split; [lia|]. split; [lia|]. split; [lia|discriminate].
Qed.
Definition in_square5 (v : list double) : Prop := in_cube 2 (d_of_Z (-5)) (d_of_Z 5) v.
Lemma ack_box_iff v : inside_box ack_dbox v = true <-> in_square5 v.
Proof. exact (cube_box 2 (d_of_Z (-5)) (d_of_Z 5) (literal 5 2) v). Qed.
Notation run_ackley m b0 g := (@drive (list double) BoxObj.box R std None false true pw ex junk v0 vec_max sel_fuel (fresh R None false (ack_slots R) b0 g) (ack_main R L m)).
Lemma ack_main_eq m : ack_main R L (Some m) = ack_pre m ++ [InitializePop R; Run R].
Proof. reflexivity. Qed.
(** Whenever the program finishes, by any method but stochastic universal sampling
    (which leaves populations of other sizes, C48): 50 individuals in the square,
    no one better than the result printed, whose fitness is what is printed; at
    most 100 generations, fewer only after more than 50 failures in a row. *)
Theorem C96_ackley : forall (m : method) (b0 : BoxObj.box) (g : G R) o, cos_sane L -> exp_sane4 L -> 101 <= vec_max -> m <> StochasticUniversal ->
  run_ackley (Some m) b0 g = Ok o ->
  Z.of_nat (length (get_population R o)) = 50 /\
  (forall x, In x (get_population R o) -> in_square5 (gvar x)) /\
  exists v f n k, get_result R o = Ok v /\ in_square5 v /\ ackley (Dops L) v = Ok f /\ fin f /\ get_bestFitness R o = Ok f /\
    (forall y, In y (get_population R o) -> flt (gfit y) f = false) /\
    get_generation R o = Ok n /\ get_failTimes R o = Ok k /\ 0 <= n <= 100 /\ (n = 100 \/ 50 < k) /\ k <= n + 1 /\ Z.of_nat (length (o_rec R o)) = n + 1.
Proof.
  intros m b0 g o Hc He Hv Hm H. rewrite ack_main_eq in H. destruct (ack_up m b0 g) as (Su & Pl).
  assert (Ss : size_safe None (ack_settings m)).
  { split; [exact Hm|]. intros _. assert (E1 : populationSize (s_opt (ack_settings m)) = 50) by reflexivity. assert (E2 : s_elite (ack_settings m) = 3) by reflexivity. rewrite E1, E2. lia. }
  destruct (program_after R std None false true pw ex junk v0 vec_max sel_fuel 200 (inside_box ack_dbox) HR Hstd ltac:(lia)
    (ack_slots R) b0 g (ack_pre m) _ _ _ _ _ _ o Pl Su (ack_good m Hv) (ack_inside Hc He) Ss H) as (Sz & In1 & v & n & k & R1 & R2 & R3 & R4 & R5 & R6 & R7 & R8 & R9 & R10).
  split; [exact Sz|]. split; [intros x Hx; apply ack_box_iff, In1, Hx|].
  destruct (ackley_fin L Hc He (literal 5 2) v (proj1 (inside_iff _ _) R3)) as (f & Ef & Ff).
  assert (Fv : ack_f L ack_box v = f) by (unfold ack_f; rewrite Ef; reflexivity). rewrite Fv in R2, R4.
  apply ack_box_iff in R3.
  exists v, f, n, k. split; [exact R1|]. split; [exact R3|]. split; [exact Ef|]. split; [exact Ff|]. split; [exact R2|]. split; [exact R4|]. split; [exact R5|]. split; [exact R6|].
  assert (E2 : maxGenerations (s_opt (ack_settings m)) = 100) by reflexivity. assert (E3 : maxFailTimes (s_opt (ack_settings m)) = 50) by reflexivity. rewrite E2 in *. rewrite E3 in *.
  split; [exact R7|]. split; [destruct R9 as [R9|R9]; [left; exact R9|right; lia]|]. split; [lia|]. apply R10. reflexivity.
Qed.
(** By tournament, roulette wheel, linear or exponential rank it always finishes; by
    those, random, probability or Boltzmann selection it is never undefined. *)
Theorem C96_ackley_returns : forall (m : method) (b0 : BoxObj.box) (g : G R), cos_sane L -> exp_sane4 L -> 101 <= vec_max ->
  (m = Tournament \/ m = MonteCarlo \/ m = LinearRank \/ m = ExponentialRank -> pow_ok pw -> (200 <= sel_fuel)%nat -> exists o, run_ackley (Some m) b0 g = Ok o) /\
  (m <> StochasticUniversal -> m <> Truncation -> m <> EliteReserved -> run_ackley (Some m) b0 g <> UB /\ run_ackley (Some m) b0 g <> Abort).
Proof.
  intros m b0 g Hc He Hv. rewrite ack_main_eq. destruct (ack_up m b0 g) as (Su & Pl). split.
  - intros Hm Hp Hf. apply (program_returns R std None false true pw ex junk v0 vec_max sel_fuel 200 (inside_box ack_dbox) HR Hstd ltac:(lia)
      (ack_slots R) b0 g (ack_pre m) _ _ _ _ _ _ Pl Su (ack_good m Hv) (ack_inside Hc He) Hp ltac:(lia)).
    unfold ending_method. cbn. destruct Hm as [->|[->|[->| ->]]]; exact Logic.I.
  - intros M1 M2 M3. apply (program_defined R std None false true pw ex junk v0 vec_max sel_fuel 200 (inside_box ack_dbox) HR Hstd ltac:(lia)
      (ack_slots R) b0 g (ack_pre m) _ _ _ _ _ _ Pl Su (ack_good m Hv) (ack_inside Hc He)).
    repeat split; assumption.
Qed.
(** A number that stands for no method ends the program. *)
Theorem C96_ackley_bad_choice : forall b0 g, run_ackley None b0 g = Abort.
Proof. reflexivity. Qed.
(** The functions that the two programs hand over are defined on everything that
    the algorithm can pass to them. *)
Theorem C96_functions_defined : forall (g : G R), cos_sane L -> exp_sane4 L ->
  (defined (BoxObj.bdrive ack_kind (BoxObj.fresh ack_kind) ack_calls) /\ defined (BoxObj.initialize R ack_kind ack_box g)) /\
  (forall p q, in_square5 p -> in_square5 q ->
     defined (cFunNd default_r p q) /\ defined (BoxObj.applyDelta R ack_kind ack_box p g) /\ defined (ackley (Dops L) p)) /\
  (forall pts p q, (2 <= length pts)%nat -> Z.of_nat (length pts) <= 4294967295 -> Forall unit_point pts ->
     length p = length pts -> length q = length pts -> Forall unit_value p -> Forall unit_value q ->
     defined (cFunNd div_half p q) /\ defined (tsp_mutate R crand p g) /\ defined (tsp_fitness std pts p)).
Proof.
  intros g Hc He. assert (X : forall r p q, length p = length q -> defined (cFunNd r p q)).
  { intros r p q E. unfold cFunNd. rewrite (proj2 (Nat.eqb_eq _ _) E). eexists. reflexivity. }
  destruct ack_works as ((W & _) & M). split; [|split].
  - split; [eexists; exact ack_drive|]. destruct (W g) as (v & g' & E & _); [|eexists; exact E].
    intros i _. cbn [ack_dbox square_dbox minD maxD]. repeat split; vm_compute; reflexivity.
  - intros p q Hp Hq. split; [apply X; destruct Hp as (Lp & _), Hq as (Lq & _); congruence|]. apply ack_box_iff, inside_iff in Hp. split.
    + destruct (M p g Hp) as (v' & g' & E & _); [|eexists; exact E]. intros i _. cbn [ack_dbox square_dbox deltaD]. vm_compute. reflexivity.
    + destruct (ackley_fin L Hc He (literal 5 2) p Hp) as (f & E & _). eexists. exact E.
  - intros pts p q Hn Hm U Lp Lq Up Uq. split; [apply X; congruence|]. split.
    + destruct (tsp_mutate_ok R HR crand p g) as (x & g' & E & _); [lia|exact Up|]. eexists. exact E.
    + destruct (tsp_fitness_ok std Hstd pts p Lp) as (order & _ & E & _); try assumption; [|lia|eexists; exact E].
      intros k Hk. apply fin_nonnan. apply unit_bd. rewrite Forall_forall in Up. apply Up, Hk.
Qed.
End Progs.
Print Assumptions C96_tsp.
Print Assumptions C96_tsp_wraps_refuted.
Print Assumptions C96_ackley.
Print Assumptions C96_ackley_returns.
Print Assumptions C96_ackley_bad_choice.
Print Assumptions C96_functions_defined.

(** The assumptions can be met. *)
Example ex_C96 : rng_ok replay /\ std_ok std_inst /\ pow_ok (fun _ _ => d0) /\ cos_sane tiny_libm /\ exp_sane4 tiny_libm /\
  Forall unit_point [(d0, d1); (fofZ 1 (-1), d0); (d1, d1)] /\ Forall unit_value [d0; fofZ 1 (-1); d1] /\ in_square5 [d_of_Z (-5); d_of_Z 4].
Proof.
  destruct one_val as (F1 & V1). split; [exact replay_ok|]. split; [exact std_inst_ok|]. split; [exact (proj1 (proj2 (proj2 ex_C79_lawful)))|].
  split; [intros x _; cbn; split; [reflexivity|]; rewrite Rabs_R0; lra|]. split; [intros x _ _; cbn [tiny_libm l_exp]; rewrite V1; split; [exact F1|lra]|].
  split; [repeat constructor; vm_compute; reflexivity|]. split; [repeat constructor; vm_compute; reflexivity|].
  split; [reflexivity|]. intros x [<-|[<-|[]]]; split; vm_compute; reflexivity.
Qed.
(** A tour, walked: keys 0, 0.5, 1 visit the third point first. *)
Example ex_C96_tour : match tsp_fitness std_inst [(d0, d1); (fofZ 1 (-1), d0); (d1, d1)] [d0; fofZ 1 (-1); d1] with Ok x => feq x (fofZ 5 (-1)) | _ => false end = true.
Proof. vm_compute. reflexivity. Qed.
(** A history to which [C96_stop_reason] applies. *)
Example ex_C96_stop : forall g, lawful_history_in (V := Z) (A := Z) replay std_inst None true true (fun _ _ => d0) (fun _ => d1) d0 0 1000 100 100 digit (size_safe None)
  (fresh replay None true digit_slots 1 g) ([ Setting replay (SetOption digit_opt); Setting replay (SetSelectMethod (Some LinearRank)); InitializePop replay ] ++ [Run replay]).
Proof. intros g. exact (proj2 (proj2 ex_C92_soga_lawful g)). Qed.
