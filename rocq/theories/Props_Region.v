(** C92: fitness functions that are only meant for a region.  RegionSpec.v and
    RegionSpecM.v say what the user must respect: at initializePop() and run() the
    operators in force (with the arguments in force) stay in the region, and there
    the fitness is a number (for NSGA2: of moderate size).  Nothing is asked of the
    fitness elsewhere. *)
From Coq Require Import List Arith ZArith Bool Lia Reals.
From Flocq Require Import Core BinarySingleNaN.
From Verif Require Props_SOGAObj Props_MOGAObj SOGAObj SOGAObjSpec SOGAObjProofs RegionSpec RegionSOGA MOGAObj MOGAObjSpec MOGAObjProofs RegionSpecM RegionMOGA.
From Verif Require Import Base Fl FlFacts Rng StdOps GABase SOGA SOGAProofs SOGAProofs3 SOGAProofs5 MOGA MOGASpec NSGA3 Defaults Props_NSGA3.
Import ListNotations.
Open Scope Z_scope.

Section SOGA.
Import SOGAObj SOGAObjSpec SOGAObjProofs RegionSpec RegionSOGA Props_SOGAObj.
Context (V A : Type) (R : rng_ops) (std : std_ops) (mode : option method) (greater rec_on : bool)
  (pw : double -> double -> double) (ex : double -> double) (junk : double) (v0 : V) (vec_max : Z) (sel_fuel : nat) (B : Z) (inside : V -> bool).
Notation drive' := (@drive V A R std mode greater rec_on pw ex junk v0 vec_max sel_fuel).
Notation start := (fresh R mode greater).
Notation ok_history Q := (lawful_history_in (V := V) (A := A) R std mode greater rec_on pw ex junk v0 vec_max sel_fuel B inside (Q mode)).

(** As C79, for fitness functions on a region. *)
Theorem C92_soga_stays_inside : forall (Q : option method -> settings -> Prop) (ct : @slots V A R) (a : A) (g : G R) h o,
  rng_ok R -> std_ok std -> ok_history Q (start ct a g) h -> drive' (start ct a g) h = Ok o ->
  (forall x, In x (get_population R o) -> inside (gvar x) = true) /\ (forall v, get_result R o = Ok v -> inside v = true).
Proof.
  intros Q ct a g h o HR Hstd L H.
  assert (All : forall x, In x (get_population R o) -> inside (gvar x) = true).
  { exact (drive_good R std mode greater rec_on pw ex junk v0 vec_max sel_fuel B inside (Q mode) h HR Hstd _ o (fresh_good R mode greater inside ct a g) L H). }
  split; [exact All|]. intros v Hv. unfold get_result in Hv. apply bind_Ok in Hv. destruct Hv as (x & Hx & Hv). injection Hv as <-.
  unfold get_best in Hx. destruct (o_inited R o); [|discriminate Hx]. apply All. apply lookup_ok in Hx. apply Hx.
Qed.
Lemma transfer Q ct a g h : rng_ok R -> std_ok std -> ok_history Q (start ct a g) h ->
  lawful_history R std mode greater rec_on pw ex junk v0 vec_max sel_fuel B (Q mode) (start (guard_slots R inside ct) a g) (map (guard_call R inside) h) /\
  drive' (start (guard_slots R inside ct) a g) (map (guard_call R inside) h) = map_res (guard_obj R inside) (drive' (start ct a g) h).
Proof.
  intros HR Hstd L. split.
  - exact (history_guard R std mode greater rec_on pw ex junk v0 vec_max sel_fuel B inside (Q mode) h HR Hstd _ (fresh_good R mode greater inside ct a g) L).
  - exact (drive_guard R std mode greater rec_on pw ex junk v0 vec_max sel_fuel B inside (Q mode) h HR Hstd _ (fresh_good R mode greater inside ct a g) L).
Qed.
Theorem C92_soga_defined : forall (ct : @slots V A R) (a : A) (g : G R) h,
  rng_ok R -> std_ok std -> 0 <= B < 2147483648 -> ok_history plain_method (start ct a g) h ->
  drive' (start ct a g) h <> UB /\ drive' (start ct a g) h <> Abort.
Proof.
  intros ct a g h HR Hstd HB L. destruct (transfer plain_method ct a g h HR Hstd L) as (L' & E).
  destruct (C79_lawful_history_defined V A R std mode greater rec_on pw ex junk v0 vec_max sel_fuel B _ a g _ HR Hstd HB L') as (N1 & N2).
  rewrite E in N1, N2. unfold map_res in N1, N2. split; intros C; rewrite C in *; cbn [bind] in *; congruence.
Qed.
Theorem C92_soga_returns : forall (ct : @slots V A R) (a : A) (g : G R) h,
  rng_ok R -> std_ok std -> 0 <= B < 2147483648 -> pow_ok pw -> B <= Z.of_nat sel_fuel -> ok_history ending_method (start ct a g) h ->
  exists o, drive' (start ct a g) h = Ok o.
Proof.
  intros ct a g h HR Hstd HB Hp Hf L. destruct (transfer ending_method ct a g h HR Hstd L) as (L' & E).
  destruct (C79_lawful_history_returns V A R std mode greater rec_on pw ex junk v0 vec_max sel_fuel B _ a g _ HR Hstd HB Hp Hf L') as (o & N).
  rewrite E in N. unfold map_res in N. apply bind_Ok in N. destruct N as (o' & N & _). eauto.
Qed.
Theorem C92_soga_after_run : forall (ct : @slots V A R) (a : A) (g : G R) h o0 o,
  rng_ok R -> std_ok std -> 0 <= B < 2147483648 -> ok_history size_safe (start ct a g) (h ++ [Run R]) ->
  drive' (start ct a g) h = Ok o0 -> drive' o0 [Run R] = Ok o ->
  (exists x n k, In x (get_population R o) /\ get_bestFitness R o = Ok (gfit x) /\ get_result R o = Ok (gvar x) /\
     (forall y, In y (get_population R o) -> isBetter greater (gfit y) (gfit x) = false) /\
     get_generation R o = Ok n /\ 0 <= n <= maxGenerations (s_opt (o_set R o0)) /\ get_failTimes R o = Ok k /\
     (rec_on = true -> Z.of_nat (length (o_rec R o)) = n + 1)) /\
  (populationSize (s_opt (o_set R o0)) <= Z.of_nat (length (get_population R o0)) ->
   Z.of_nat (length (get_population R o)) = populationSize (s_opt (o_set R o0))).
Proof.
  intros ct a g h o0 o HR Hstd HB L H1 H2. destruct (transfer size_safe ct a g (h ++ [Run R]) HR Hstd L) as (L' & E).
  assert (Lh : forall h1 h2 o, ok_history size_safe o (h1 ++ h2) -> ok_history size_safe o h1).
  { clear. induction h1 as [|c h1 IH]; intros h2 o L; [exact I|]. destruct L as (L1 & L2). split; [exact L1|]. intros o' E. exact (IH _ _ (L2 o' E)). }
  destruct (transfer size_safe ct a g h HR Hstd (Lh _ _ _ L)) as (_ & E1).
  rewrite map_app in L', E. rewrite H1 in E1.
  pose proof (C79_after_run V A R std mode greater rec_on pw ex junk v0 vec_max sel_fuel B _ a g _ (guard_obj R inside o0) (guard_obj R inside o) HR Hstd HB L' E1) as N.
  apply N. clear N. rewrite !drive_app, H1, E1 in E. cbn [bind map_res] in E. rewrite H2 in E. exact E.
Qed.
Theorem C92_soga_fitness_is_current : forall (ct : @slots V A R) (a : A) (g : G R) h1 h2 o f,
  rng_ok R -> std_ok std -> 0 <= B < 2147483648 ->
  ok_history size_safe (start ct a g) (h1 ++ InitializePop R :: h2) ->
  Forall (fun c => match c with SetFFun _ _ | SetArgs _ _ => False | _ => True end) h2 ->
  drive' (start ct a g) (h1 ++ InitializePop R :: h2) = Ok o -> f_f R (o_slots R o) = Some f ->
  forall x, In x (get_population R o) -> gcomp x = true -> gfit x = f (o_args R o) (gvar x).
Proof.
  intros ct a g h1 h2 o f HR Hstd HB L Kh H Ef x Hx Cx. destruct (transfer size_safe ct a g _ HR Hstd L) as (L' & E).
  pose proof (proj1 (C92_soga_stays_inside size_safe ct a g _ o HR Hstd L H) x Hx) as In1.
  rewrite map_app in L', E. cbn [map guard_call] in L', E. rewrite H in E. cbn [map_res bind] in E.
  rewrite (C79_fitness_is_current V A R std mode greater rec_on pw ex junk v0 vec_max sel_fuel B _ a g _ _ _ (guard inside f) HR Hstd HB L') with (2 := E).
  - unfold guard. rewrite In1. reflexivity.
  - apply Forall_map. refine (Forall_impl _ _ Kh). intros [] Q; exact Q.
  - cbn [guard_obj guard_slots o_slots f_f]. rewrite Ef. reflexivity.
  - exact Hx.
  - exact Cx.
Qed.
End SOGA.
Print Assumptions C92_soga_stays_inside.
Print Assumptions C92_soga_defined.
Print Assumptions C92_soga_returns.
Print Assumptions C92_soga_after_run.
Print Assumptions C92_soga_fitness_is_current.

Section NSGA.
Import MOGAObj MOGAObjSpec MOGAObjProofs RegionSpecM RegionMOGA Props_MOGAObj.
Context (V A : Type) (R : rng_ops) (std : std_ops) (lin : lin_ops) (M : nat) (k : kind) (rec_on : bool)
  (junk : list double) (v0 : V) (vec_max : Z) (inside : V -> bool).
Notation drive' := (@drive V A R std lin M k rec_on junk v0 vec_max).
Notation ok_history := (@lawful_history_in V A R std lin M k rec_on junk v0 vec_max inside).
Hypothesis (HR : rng_ok R) (Hstd : std_ok std).

Theorem C92_nsga_stays_inside : forall (ct : @slots V A R) (a : A) (g : G R) h o,
  ok_history (fresh R ct a g) h -> drive' (fresh R ct a g) h = Ok o -> forall x, In x (get_population R o) -> inside (gvar x) = true.
Proof.
  intros ct a g h o L H. exact (drive_good R std lin M k rec_on junk v0 vec_max inside h HR _ o (fresh_good R inside ct a g) L H).
Qed.
Lemma transferM ct a g h : ok_history (fresh R ct a g) h ->
  lawful_history R std lin M k rec_on junk v0 vec_max (fresh R (guard_slots R M inside ct) a g) (map (guard_call R M inside) h) /\
  drive' (fresh R (guard_slots R M inside ct) a g) (map (guard_call R M inside) h) = map_res (guard_obj R M inside) (drive' (fresh R ct a g) h).
Proof.
  intros L. split.
  - exact (history_guard R std lin M k rec_on junk v0 vec_max inside h HR _ (fresh_good R inside ct a g) L).
  - exact (drive_guard R std lin M k rec_on junk v0 vec_max inside h HR _ (fresh_good R inside ct a g) L).
Qed.
Theorem C92_nsga_returns : (1 <= M)%nat -> forall (ct : @slots V A R) (a : A) (g : G R) h,
  ok_history (fresh R ct a g) h -> exists o, drive' (fresh R ct a g) h = Ok o.
Proof.
  intros HM ct a g h L. destruct (transferM ct a g h L) as (L' & E).
  destruct (C89_lawful_history_returns V A R std lin M k rec_on junk v0 vec_max HR Hstd HM _ a g _ L') as (o & N).
  rewrite E in N. unfold map_res in N. apply bind_Ok in N. destruct N as (o' & N & _). eauto.
Qed.
Lemma setter_guard h : Forall (setter R) h -> Forall (@setter V A R) (map (guard_call R M inside) h).
Proof. intros H. apply Forall_map. refine (Forall_impl _ _ H). intros [] Q; exact Q. Qed.
Lemma prefix_in h1 h2 o : ok_history o (h1 ++ h2) -> ok_history o h1.
Proof.
  revert o. induction h1 as [|c h1 IH]; intros o L; [exact I|]. destruct L as (L1 & L2). split; [exact L1|]. intros o' E. exact (IH _ (L2 o' E)).
Qed.
Theorem C92_nsga_after_run : (1 <= M)%nat -> forall (ct : @slots V A R) (a : A) (g : G R) h1 h2 o,
  ok_history (fresh R ct a g) (h1 ++ Run R :: h2) -> Forall (setter R) h2 ->
  drive' (fresh R ct a g) (h1 ++ Run R :: h2) = Ok o ->
  exists o1, drive' (fresh R ct a g) h1 = Ok o1 /\
    Z.of_nat (length (get_population R o)) = populationSize (mo_opt R o1) /\
    (forall x, In x (get_population R o) -> gcomp x = true) /\
    get_generation R o = Ok (maxGenerations (mo_opt R o1)) /\ get_failTimes R o = Ok 0 /\
    (rec_on = true -> Z.of_nat (length (get_record R o)) = maxGenerations (mo_opt R o1) + 1) /\
    exists front, get_paretoFront R o = Ok (map gfit front) /\ map gid front = get_pfGenes R o /\ NoDup front /\ front <> [] /\
      forall x, In x front <-> nondominated_in M (greater_of k) (get_population R o) x.
Proof.
  intros HM ct a g h1 h2 o L S2 H. destruct (transferM ct a g _ L) as (L' & E). destruct (transferM ct a g _ (prefix_in _ _ _ L)) as (_ & E1).
  rewrite map_app in L', E. cbn [map guard_call] in L', E. rewrite H in E. cbn [map_res bind] in E.
  destruct (C89_after_run V A R std lin M k rec_on junk v0 vec_max HR Hstd HM _ a g _ _ _ L' (setter_guard _ S2) E) as (o2 & H2 & Rest).
  rewrite E1 in H2. unfold map_res in H2. apply bind_Ok in H2. destruct H2 as (o1 & H1 & H2). injection H2 as <-.
  exists o1. split; [exact H1|exact Rest].
Qed.
End NSGA.
Print Assumptions C92_nsga_stays_inside.
Print Assumptions C92_nsga_returns.
Print Assumptions C92_nsga_after_run.

(** * Examples: a fitness that is NaN outside 0..9 (so C79 and C89 do not apply),
    operators that stay inside, and a run. *)
Section Ex.
Import SOGAObj SOGAObjSpec RegionSpec Props_SOGAObj.
Lemma Ok_inj {X} (a b : X) : Ok a = Ok b -> b = a.
Proof. congruence. Qed.
Definition digit (v : Z) : bool := (0 <=? v) && (v <? 10).
Definition digit_init (a : Z) (g : G Rng.replay) : Z * G Rng.replay := let (n, g') := randIdx Rng.replay 1000 g in (n mod 10, g').
Definition digit_fit (a v : Z) : double := if digit v then d_of_Z ((v * v + a) mod 64) else dnan.
Definition digit_cross (a x y : Z) (g : G Rng.replay) : (Z * Z) * G Rng.replay := (((x + y) / 2, Z.max x y), g).
Definition digit_mut (a x : Z) (g : G Rng.replay) : Z * G Rng.replay := (9 - x, g).
Definition digit_slots : slots Rng.replay (V := Z) (A := Z) := mkSlots Rng.replay (Some digit_init) (Some digit_fit) (Some digit_cross) (Some digit_mut).
Definition digit_opt : ga_option := mkOpt 6 3 4 (fofZ 1 (-1)) (fofZ 1 (-2)).
Definition digit_history : list (@call Z Z Rng.replay) :=
  [ Setting Rng.replay (SetOption digit_opt); Setting Rng.replay (SetSelectMethod (Some LinearRank)); InitializePop Rng.replay; Run Rng.replay ].
Lemma digit_iff v : digit v = true <-> 0 <= v < 10.
Proof. unfold digit. rewrite andb_true_iff, Z.leb_le, Z.ltb_lt. reflexivity. Qed.
Lemma digit_init_in a : init_inside Rng.replay digit (digit_init a).
Proof.
  intros g. unfold digit_init. destruct (randIdx Rng.replay 1000 g) as (n, g'). apply digit_iff, Z.mod_pos_bound. lia.
Qed.
Lemma digit_cross_in a : cross_inside Rng.replay digit (digit_cross a).
Proof.
  intros x y g Hx Hy. apply digit_iff in Hx, Hy. unfold digit_cross. cbn [fst snd]. split; apply digit_iff; [|lia].
  pose proof (Z.div_le_mono (x + y) 18 2 ltac:(lia) ltac:(lia)). pose proof (Z.div_pos (x + y) 2 ltac:(lia) ltac:(lia)). change (18 / 2) with 9 in *. lia.
Qed.
Lemma digit_mut_in a : mutate_inside Rng.replay digit (digit_mut a).
Proof. intros x g Hx. apply digit_iff in Hx. apply digit_iff. unfold digit_mut. cbn [fst]. lia. Qed.
Lemma digit_fit_num a v : digit v = true -> nonnan (digit_fit a v).
Proof.
  intros H. unfold digit_fit. rewrite H. apply fin_nonnan.
  pose proof (Z.mod_pos_bound (v * v + a) 64 ltac:(lia)) as Q. destruct (d_of_Z_exact ((v * v + a) mod 64)) as (F & _); [lia|exact F].
Qed.
Notation digit_lawful Q h o := (lawful_history_in (V := Z) (A := Z) Rng.replay std_inst None true true (fun _ _ => d0) (fun _ => d1) d0 0 1000 100 100 digit (Q None) o h).
Example ex_C92_soga_lawful : ~ (forall v, nonnan (digit_fit 1 v)) /\ forall g,
  digit_lawful ending_method digit_history (fresh Rng.replay None true digit_slots 1 g) /\
  digit_lawful size_safe digit_history (fresh Rng.replay None true digit_slots 1 g).
Proof.
  split; [intros N; specialize (N 10); discriminate N|]. intros g.
  assert (K : forall Q : option method -> settings -> Prop, (forall s, s_method s = LinearRank -> Q None s) -> digit_lawful Q digit_history (fresh Rng.replay None true digit_slots 1 g)).
  { intros Q HQ. unfold digit_history. cbn [lawful_history_in].
    split; [split; [eexists; reflexivity|exact I]|]. intros o1 E1. cbn [step apply_setting bind] in E1. apply Ok_inj in E1; subst o1.
    split; [split; [eexists; reflexivity|exact I]|]. intros o2 E2. cbn [step apply_setting bind] in E2. apply Ok_inj in E2; subst o2.
    split; [split; [split; [discriminate|cbn; lia]|]|].
    { intros i Ei. cbn in Ei. injection Ei as <-. apply digit_init_in. }
    intros o3 E3.
    pose proof (demo_frame _ _ _ (or_introl eq_refl) E3) as (F1 & F2 & F3 & F4). cbn [o_set o_slots o_args] in F1, F2, F3.
    split; [|intros; exact I]. cbn [lawful_in]. rewrite F1, F2, F3, F4. split; [reflexivity|]. split.
    { exists digit_fit, digit_cross, digit_mut. repeat (split; [reflexivity|]). split; [intros v; apply digit_fit_num|]. split; [apply digit_cross_in|apply digit_mut_in]. }
    clear E3 F1 F2 F3 F4. change (populationSize (s_opt _)) with 6. change (maxGenerations (s_opt _)) with 4. rewrite wrap64_small by (unfold two64; lia). unfold two64.
    split; [lia|]. split; [lia|]. split; [lia|]. split; [lia|]. split; [intros C; discriminate C|]. split; [intros C; discriminate C|]. apply HQ. reflexivity. }
  split; apply K; intros s Hs; unfold ending_method, size_safe, method_of; rewrite Hs; repeat split; try discriminate; exact I.
Qed.
Example ex_C92_soga_runs : exists o,
  @drive Z Z Rng.replay std_inst None true true (fun _ _ => d0) (fun _ => d1) d0 0 1000 100
    (fresh Rng.replay None true digit_slots 1 (map Z.of_nat (seq 3 60))) digit_history = Ok o /\
  (match get_bestFitness Rng.replay o, get_result Rng.replay o with
   | Ok b, Ok v => feq b (digit_fit 1 v) && digit v && (Z.of_nat (length (get_population Rng.replay o)) =? 6)
   | _, _ => false end) = true.
Proof. apply Props_SOGA.by_test. vm_compute. reflexivity. Qed.
End Ex.

Section ExM.
Import MOGAObj MOGAObjSpec MOGAObjProofs RegionSpec RegionSpecM Props_MOGAObj.
Definition digit_fit2 (a v : Z) : list double := if digit v then [d_of_Z ((v * v + a) mod 16); d_of_Z (9 - v)] else [dnan; dnan].
Definition digit_slots2 : @slots Z Z Rng.replay := mkSlots Rng.replay (Some digit_init) (Some digit_fit2) (Some digit_cross) (Some digit_mut).
Definition digit_history2 : list (@call Z Z Rng.replay) := [ SetOption Rng.replay digit_opt; InitializePop Rng.replay; Run Rng.replay ].
Lemma digit_fit2_tame a v : digit v = true -> tame_value 2 (digit_fit2 a v).
Proof.
  intros Hv o Ho. unfold digit_fit2. rewrite Hv. apply digit_iff in Hv.
  assert (H : exists z, objective [d_of_Z ((v * v + a) mod 16); d_of_Z (9 - v)] o = d_of_Z z /\ 0 <= z < 16).
  { destruct o as [|[|o]]; [| |lia]; cbn [objective nth]; [exists ((v * v + a) mod 16)|exists (9 - v)]; (split; [reflexivity|]); [apply Z.mod_pos_bound; lia|lia]. }
  destruct H as (z & E & Hz). rewrite E. destruct (d_of_Z_exact z ltac:(lia)) as (F & B). split; [exact F|].
  rewrite B, Rabs_pos_eq by (apply IZR_le; lia). apply Rle_trans with (IZR 16); [apply IZR_le; lia|].
  change (IZR 16) with (bpow radix2 4). apply bpow_le. lia.
Qed.
Example ex_C92_nsga_lawful : ~ (forall v, tame_value 2 (digit_fit2 1 v)) /\ forall greater g,
  @lawful_history_in Z Z Rng.replay std_inst lin_inst 2 (NSGA2 greater) true [] 0 1000 digit (fresh Rng.replay digit_slots2 1 g) digit_history2.
Proof.
  split; [intros N; specialize (N 10 0%nat ltac:(lia)); destruct N as (N & _); discriminate N|]. intros greater g. unfold digit_history2. cbn [lawful_history_in].
  split; [split; discriminate|]. intros o1 E1. cbn [step] in E1. apply Ok_inj in E1; subst o1.
  split; [split; [split; [discriminate|split; [cbn; lia|exact I]]|]|].
  { intros i Ei. cbn in Ei. injection Ei as <-. apply digit_init_in. }
  intros o2 E2.
  assert (I0 : inv Rng.replay (QT 2 (NSGA2 greater)) (mkMObj Rng.replay digit_opt digit_slots2 1 None (3, 4)%nat [] (mo_core Rng.replay (fresh Rng.replay digit_slots2 1 g)) 0 [] false)).
  { destruct (fresh_inv Rng.replay (QT 2 (NSGA2 greater)) digit_slots2 1 g) as (W & Gd & D & Sk & Lr).
    split; [exact W|]. split; [exact Gd|]. split; [exact D|]. split; [split; discriminate|exact Lr]. }
  destruct (init_inv Rng.replay std_inst lin_inst 2 (NSGA2 greater) true [] 0 1000 (QT 2 (NSGA2 greater)) _ _ _ I0 E2) as (_ & Sz & _).
  destruct (init_eq Rng.replay std_inst lin_inst 2 (NSGA2 greater) true [] 0 1000 _ _ E2) as (ws & g' & i & _ & _ & Eo).
  assert (F1 : mo_opt Rng.replay o2 = digit_opt) by (rewrite Eo; reflexivity).
  assert (F2 : mo_slots Rng.replay o2 = digit_slots2) by (rewrite Eo; reflexivity).
  assert (F3 : mo_args Rng.replay o2 = 1) by (rewrite Eo; reflexivity).
  split; [|intros; exact I]. cbn [lawful_in]. rewrite F1, F2, F3, Sz. split.
  { exists digit_fit2, digit_cross, digit_mut. repeat (split; [reflexivity|]). split; [intros _ v; apply digit_fit2_tame|]. split; [apply digit_cross_in|apply digit_mut_in]. }
  cbn [mo_opt digit_opt populationSize maxGenerations]. unfold two64. split; [lia|]. split; [lia|]. intros _. lia.
Qed.
Example ex_C92_nsga_runs : exists o,
  @drive Z Z Rng.replay std_inst lin_inst 2 (NSGA2 false) true [] 0 1000
    (fresh Rng.replay digit_slots2 1 (map (fun i => Z.of_nat (i * i * 37 + 5)) (seq 3 60))) digit_history2 = Ok o /\
  forallb (fun x => digit (gvar x)) (get_population Rng.replay o) && (length (get_population Rng.replay o) =? 6)%nat && (length (get_record Rng.replay o) =? 5)%nat = true.
Proof. apply Props_SOGA.by_test. vm_compute. reflexivity. Qed.
End ExM.
