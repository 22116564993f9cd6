(** C95: the multi-objective example programs that come with the library. *)
From Coq Require Import List Arith ZArith Bool Lia Reals Lra.
From Flocq Require Import Core BinarySingleNaN.
From Verif Require Import Props_NSGA3 Props_Region Props_MOGAObj Props_Blend Props_Box Props_BoxObj BoxObjProofs WheelProofs2 SOGAProofs5 RandProofs GlobalProofs BoxProofs BlendProofs ProgMOProofs ProgMOProofs2.
From Verif Require BoxObj.
From Verif Require Import Base Fl FlFacts Rng StdOps GABase Box Defaults GlobalM Bench MOGASpec NSGA3 MOGAObj MOGAObjSpec RegionSpec RegionSpecM ProgMO ProgMOSpec.
Import ListNotations.
Open Scope Z_scope.

(** What a finished multi-objective program hands out: [n] individuals after [gens]
    generations, everyone inside a region and with the fitness of its own
    variables, and as the Pareto front exactly the non-dominated individuals. *)
Definition good_result {A} {R : rng_ops} (M : nat) (k : kind) (o : @mobj (list double) A R) (n gens : Z) (region : list double -> Prop) (f : list double -> list double) : Prop :=
  Z.of_nat (length (get_population R o)) = n /\ get_generation R o = Ok gens /\
  (forall x, In x (get_population R o) -> region (gvar x) /\ gfit x = f (gvar x)) /\
  exists front, get_paretoFront R o = Ok (map gfit front) /\ map gid front = get_pfGenes R o /\ NoDup front /\ front <> [] /\
    forall x, In x front <-> nondominated_in M (greater_of k) (get_population R o) x.
Definition in_cube (n : nat) (lo hi : double) (v : list double) : Prop := length v = n /\ forall x, In x v -> fle lo x = true /\ fle x hi = true.

Section Progs.
Context (R : rng_ops) (std : std_ops) (lin : lin_ops) (L : libm) (junk : list double) (v0 : list double) (vec_max : Z).
Context (HR : rng_ok R) (Hstd : std_ok std).

Lemma cube_box n lo hi d v : inside_box (square_dbox (Z.of_nat n) lo hi d) v = true <-> in_cube n lo hi v.
Proof. rewrite inside_iff, in_square. unfold in_cube. rewrite Nat2Z.inj_iff. reflexivity. Qed.
Lemma cross_total r b : keeps_box r b -> cross_inside R (inside_box b) (fun p q (g : G R) => (total (cFunNd r p q) (p, q), g)).
Proof. intros K p q g Hp Hq. destruct (cross_in R r b K g p q Hp Hq) as (c1 & c2 & E & I1 & I2). rewrite E. split; [exact I1|exact I2]. Qed.
Lemma nudge_total scale lo hi n d : fin scale -> (Rabs (B2R scale) <= 1)%R -> fin lo -> fin hi -> fle lo hi = true -> 1 <= n <= 4294967296 ->
  mutate_inside R (inside_box (square_dbox n lo hi d)) (fun v (g : G R) => total (nudge R scale lo hi v n g) (v, g)).
Proof.
  intros A B C D E F v g Hv. apply inside_iff in Hv. destruct (nudge_in R HR scale lo hi n d v g A B C D E F Hv) as (v' & g' & En & I1). rewrite En. apply inside_iff. exact I1.
Qed.
Lemma small_scale (s : double) : fle d0 s = true -> fle s d1 = true -> fin s /\ (Rabs (B2R s) <= 1)%R.
Proof. intros A B. destruct one_val as (F & V). destruct (box_nn d0 d1 s 0 eq_refl F A B) as (X & _); [cbn; lra|rewrite V; cbn; lra|]. exact X. Qed.
Lemma fin_of (x : double) n : 0 <= n <= 2147483648 -> fle d0 x = true -> fle x (d_of_Z n) = true -> fin x.
Proof. intros H A B. destruct (bd_nat n H) as ((F & _) & _). exact (between_fin d0 (d_of_Z n) x eq_refl F A B). Qed.
Lemma ratio_ok (r : double) : fle d0 r = true -> fle r d1 = true -> fin r /\ (0 <= B2R r <= 1)%R.
Proof.
  intros A B. destruct one_val as (F & V). destruct (box_nn d0 d1 r 0 eq_refl F A B) as ((Fr & X) & P); [cbn; lra|rewrite V; cbn; lra|].
  split; [exact Fr|]. split; [exact P|]. rewrite Rabs_pos_eq in X by exact P. exact X.
Qed.

(** test/NSGA2_ZDT3.cpp.  Whatever the generator draws and the compiler chooses, the
    program finishes; it ends after 2000 generations with 200 individuals inside
    [0,1]^30, each with the value of its own variables, a record of 2001 entries,
    and prints exactly the non-dominated values. *)
Theorem C95_zdt3 : forall g, sin_sane L -> 2000 < vec_max ->
  exists o, @drive (list double) unit R std lin 2 (NSGA2 false) true junk v0 vec_max (fresh R (no_funs R) tt g) (zdt3_main R L) = Ok o /\
    good_result 2 (NSGA2 false) o 200 2000 (in_cube 30 d0 d1) (zdt3_f L) /\ length (get_record R o) = 2001%nat.
Proof.
  intros g Hs Hm. set (B := square_dbox 30 d0 d1 d1).
  pose proof (ratio_ok (DivReal (DivEncode 1 2)) ltac:(vm_compute; reflexivity) ltac:(vm_compute; reflexivity)) as (Fr & Hr).
  destruct one_val as (F1 & V1).
  destruct (program_result' unit R std lin 2 (NSGA2 false) true junk v0 vec_max (inside_box B) (no_funs R) tt g
    [ SetIFun R (Some (zdt3_i R)); SetMFun R (Some (zdt3_m R)); SetFFun R (Some (fun _ => zdt3_f L)); SetCFun R (Some (zdt3_c R)); SetOption R zdt3_opt ]
    (zdt3_i R) (fun _ => zdt3_f L) (zdt3_c R) (zdt3_m R) zdt3_opt tt HR Hstd) as (o & Ho & P1 & P2 & P3 & P4 & P5).
  - lia.
  - repeat constructor; cbn; lia.
  - destruct (set_up_imfc unit R std lin 2 (NSGA2 false) true junk v0 vec_max tt g (zdt3_i R) (fun _ => zdt3_f L) (zdt3_c R) (zdt3_m R) zdt3_opt) as (o1 & E1 & E2 & E3 & E4 & _). exists o1. split; [exact E1|]. split; [exact E2|]. split; [exact E3|]. split; [exact E4|exact I].
  - cbn. lia.
  - cbn. unfold two64. lia.
  - intros _. cbn. lia.
  - intros _ v Hv. apply inside_iff in Hv. exact (zdt3_tame L Hs d1 v Hv).
  - intros gg. apply (cube_box 30). exact (draws01_in R HR 30 gg).
  - apply cross_total. apply square_kept; try assumption; try lia; try reflexivity; vm_compute; reflexivity.
  - destruct (small_scale (literal 5 3)) as (Fs & Bs); [vm_compute; reflexivity|vm_compute; reflexivity|].
    apply nudge_total; try assumption; try lia; try reflexivity; vm_compute; reflexivity.
  - exists o. split; [exact Ho|]. split; [|specialize (P3 eq_refl); cbn in P3; lia].
    split; [exact P1|]. split; [exact P2|]. split; [|exact P5].
    intros x Hx. destruct (P4 x Hx) as (I1 & I2). split; [apply (cube_box 30 d0 d1 d1), I1|exact I2].
Qed.

(** test/NSGA2_Kursawe.cpp. *)
Theorem C95_kursawe : forall g, sin_sane L -> exp_sane L -> pow_sane L ->
  exists o, @drive (list double) unit R std lin 2 (NSGA2 false) false junk v0 vec_max (fresh R (no_funs R) tt g) (kursawe_main R L) = Ok o /\
    good_result 2 (NSGA2 false) o 600 2000 (in_cube 3 (d_of_Z (-5)) (d_of_Z 5)) (kursawe_f L tt).
Proof.
  intros g Hs He Hp. set (B := square_dbox 3 (d_of_Z (-5)) (d_of_Z 5) d1).
  pose proof (ratio_ok (literal 2 1) ltac:(vm_compute; reflexivity) ltac:(vm_compute; reflexivity)) as (Fr & Hr).
  destruct (bd_nat 5 ltac:(lia)) as ((F5 & _) & _). destruct (d_of_Z_exact (-5) ltac:(lia)) as (Fm & _).
  destruct (program_result' unit R std lin 2 (NSGA2 false) false junk v0 vec_max (inside_box B) (no_funs R) tt g
    [ SetIFun R (Some (kursawe_i R)); SetMFun R (Some (kursawe_m R)); SetFFun R (Some (kursawe_f L)); SetCFun R (Some (kursawe_c R)); SetOption R kursawe_opt ]
    (kursawe_i R) (kursawe_f L) (kursawe_c R) (kursawe_m R) kursawe_opt tt HR Hstd) as (o & Ho & P1 & P2 & P3 & P4 & P5).
  - lia.
  - repeat constructor; cbn; lia.
  - destruct (set_up_imfc unit R std lin 2 (NSGA2 false) false junk v0 vec_max tt g (kursawe_i R) (kursawe_f L) (kursawe_c R) (kursawe_m R) kursawe_opt) as (o1 & E1 & E2 & E3 & E4 & _). exists o1. split; [exact E1|]. split; [exact E2|]. split; [exact E3|]. split; [exact E4|exact I].
  - cbn. lia.
  - cbn. unfold two64. lia.
  - discriminate.
  - intros _ v Hv. apply inside_iff in Hv. exact (kursawe_tame L Hs He Hp d1 v Hv).
  - intros gg. apply (cube_box 3). apply (C39_default_initialiser R 3 _ _ gg HR Fm F5); vm_compute; reflexivity.
  - apply cross_total. apply square_kept; try assumption; try lia; try reflexivity; vm_compute; reflexivity.
  - destruct (small_scale (literal 1 1)) as (Fs & Bs); [vm_compute; reflexivity|vm_compute; reflexivity|].
    apply nudge_total; try assumption; try lia; try reflexivity; vm_compute; reflexivity.
  - exists o. split; [exact Ho|]. split; [exact P1|]. split; [exact P2|]. split; [|exact P5].
    intros x Hx. destruct (P4 x Hx) as (I1 & I2). split; [apply (cube_box 3 (d_of_Z (-5)) (d_of_Z 5) d1), I1|exact I2].
Qed.

(** test/NSGA2_Binh_And_Korn.cpp: the box. *)
Definition bk_lo := BoxObj.mkVar 2 1 [d0; d0].
Definition bk_hi := BoxObj.mkVar 2 1 [d_of_Z 5; d_of_Z 3].
Definition bk_delta := BoxObj.mkVar 2 1 [literal 5 2; literal 3 2].
Notation bk_rect := (rect_dbox bk_lo bk_hi bk_delta).
Lemma bk_drive : BoxObj.bdrive bk_kind (BoxObj.fresh bk_kind) bk_calls = Ok bk_box.
Proof.
  unfold bk_box. assert (T : match BoxObj.bdrive bk_kind (BoxObj.fresh bk_kind) bk_calls with Ok _ => true | _ => false end = true) by (vm_compute; reflexivity).
  destruct (BoxObj.bdrive bk_kind (BoxObj.fresh bk_kind) bk_calls) as [b| | |]; try discriminate T. reflexivity.
Qed.
Lemma bk_range : last_call t_rangeV bk_calls (BoxObj.SetRangeV bk_lo bk_hi).
Proof. split; [reflexivity|]. exists [], [BoxObj.SetDeltaV bk_delta]. split; [reflexivity|]. intros x [<-|[]]. reflexivity. Qed.
Lemma bk_last_delta : last_call t_deltaV bk_calls (BoxObj.SetDeltaV bk_delta).
Proof. split; [reflexivity|]. exists [BoxObj.SetRangeV bk_lo bk_hi], []. split; [reflexivity|]. intros x []. Qed.
Lemma bk_typed : forallb (BoxObj.has_call bk_kind) bk_calls = true. Proof. reflexivity. Qed.
Lemma bk_delta_is v g : BoxObj.applyDelta R bk_kind bk_box v g = applyDeltaD R bk_rect v g.
Proof.
  destruct (rect_range bk_kind eq_refl bk_calls bk_box bk_typed bk_drive bk_lo bk_hi bk_range) as (E1 & E2 & _).
  destruct (rect_delta bk_kind eq_refl bk_calls bk_box bk_typed bk_drive bk_delta bk_last_delta) as (E3 & _).
  apply applyDelta_same; try exact HR.
  - reflexivity.
  - intros i Hi. cbn [rect_dbox dimD bk_lo BoxObj.vdata length] in Hi. unfold BoxObj.min_at. cbn [bk_kind BoxObj.sq]. rewrite E1. apply read_arr. cbn. lia.
  - intros i Hi. cbn [rect_dbox dimD bk_lo BoxObj.vdata length] in Hi. unfold BoxObj.max_at. cbn [bk_kind BoxObj.sq]. rewrite E2. apply read_arr. cbn. lia.
  - cbn. unfold two64. lia.
  - intros i Hi. cbn [rect_dbox dimD bk_lo BoxObj.vdata length] in Hi. unfold BoxObj.delta_at. cbn [bk_kind BoxObj.sq]. rewrite E3. apply read_arr. cbn. lia.
Qed.
Lemma rect_in_region v : in_box bk_rect v -> in_box bk_region v.
Proof.
  intros (Lv & Hv). split; [exact Lv|]. intros i x E. destruct (Hv i x E) as (A & B). assert (i < length v)%nat by (apply nth_error_Some; congruence). cbn in Lv.
  destruct i as [|[|i]]; [split; [exact A|exact B]| |lia]. split; [exact A|]. apply fle_trans with (d_of_Z 3); [exact B|vm_compute; reflexivity].
Qed.
Lemma bk_init_in : init_inside R (inside_box bk_region) (bk_i R bk_box).
Proof.
  intros g. destruct (C80_rectangle_box R bk_kind bk_calls bk_box bk_lo bk_hi HR eq_refl bk_typed bk_drive bk_range eq_refl eq_refl) as (W & _).
  { intros i Hi. cbn in Hi. destruct i as [|[|i]]; [| |lia]; vm_compute; reflexivity. }
  destruct (W bk_delta) as (W1 & _). destruct (W1 g) as (v & g' & E & I1).
  { intros i Hi. cbn in Hi. destruct i as [|[|i]]; [| |lia]; (split; [|split]); vm_compute; reflexivity. }
  unfold bk_i. rewrite E. apply inside_iff, rect_in_region, I1.
Qed.
Lemma box_kept (r : double) b : fin r -> (0 <= B2R r <= 1)%R -> 0 <= dimD b ->
  (forall i, fin (minD b i) /\ fin (maxD b i) /\ fle (minD b i) (maxD b i) = true /\
    fle (minD b i) (blend r (minD b i) (minD b i)) = true /\ fle (blend r (minD b i) (minD b i)) (maxD b i) = true /\
    fle (minD b i) (blend r (maxD b i) (maxD b i)) = true /\ fle (blend r (maxD b i) (maxD b i)) (maxD b i) = true) -> keeps_box r b.
Proof.
  intros Fr Hr Hd C. apply C93_box_kept_iff_corners; try assumption; [split; [exact Hd|intros i _; apply C]|intros i _; split; apply C|].
  split; apply selfed_by_ends; try exact Hd; intros i _; split; apply C.
Qed.
Lemma bk_cross_in : cross_inside R (inside_box bk_region) (bk_c R bk_box).
Proof.
  apply cross_total. destruct default_r_ok as (Fr & Hr1 & Hr2). apply box_kept; [exact Fr|split; [apply Rlt_le, Hr1|apply Rlt_le, Hr2]|discriminate|].
  intros [|i]; repeat split; vm_compute; reflexivity.
Qed.
Lemma bk_mutate_in : mutate_inside R (inside_box bk_region) (bk_m R bk_box).
Proof.
  intros v g Hv. apply inside_iff in Hv. pose proof Hv as (Lv & Hx). unfold bk_m. rewrite bk_delta_is. unfold applyDeltaD.
  replace (Z.of_nat (length v) =? dimD bk_rect) with true by (symmetry; apply Z.eqb_eq; exact Lv). cbn [negb].
  pose proof (randIdx_range R (dimD bk_rect) g HR ltac:(cbn; lia)) as Hi. destruct (randIdx R (dimD bk_rect) g) as [idx g1]. cbn [fst] in Hi.
  pose proof (unit_sym_draw R g1 HR) as Hr. cbv zeta in Hr. destruct (randD_range R (d_of_Z (-1)) d1 g1) as [r g2]. cbn [fst] in Hr. destruct Hr as (Fr & Br).
  cbn [rect_dbox dimD bk_lo BoxObj.vdata length] in Hi. unfold moveD.
  destruct (get_at_in v idx) as (x & Gx & Ex). { cbn in Lv. lia. }
  rewrite Gx. cbn [bind total fst]. apply inside_iff.
  assert (Fd : fin (deltaD bk_rect (Z.to_nat idx)) /\ (Rabs (B2R (deltaD bk_rect (Z.to_nat idx))) <= 1)%R).
  { assert (Hc : Z.to_nat idx = 0%nat \/ Z.to_nat idx = 1%nat) by lia. destruct Hc as [-> | ->]; cbn [rect_dbox deltaD bk_delta BoxObj.vdata nth]; apply small_scale; vm_compute; reflexivity. }
  assert (Fm : fin (fmul r (deltaD bk_rect (Z.to_nat idx)))).
  { destruct (bd_mul r (deltaD bk_rect (Z.to_nat idx)) 0 0) as (F & _); [split; [exact Fr|cbn [bpow]; apply Rabs_le; lra]|exact Fd|lia|exact F]. }
  assert (Fx : fin x).
  { destruct (bk_coords v Hv) as (x0 & y0 & -> & (F0 & _) & (F1 & _)). destruct (Z.to_nat idx) as [|[|n]]; cbn in Ex; [injection Ex as <-; exact F0|injection Ex as <-; exact F1|destruct n; discriminate Ex]. }
  assert (Hl : fle (minD bk_rect (Z.to_nat idx)) (maxD bk_rect (Z.to_nat idx)) = true).
  { assert (Hc : Z.to_nat idx = 0%nat \/ Z.to_nat idx = 1%nat) by lia. destruct Hc as [-> | ->]; vm_compute; reflexivity. }
  destruct (clampD_proj _ _ (fadd x (fmul r (deltaD bk_rect (Z.to_nat idx)))) Hl (fadd_fin_nonnan _ _ (fin_nonnan _ _ _ Fx) Fm)) as (P1 & P2 & _).
  assert (Hc : Z.to_nat idx = 0%nat \/ Z.to_nat idx = 1%nat) by lia.
  apply set_in_box; [exact Hv| |].
  - destruct Hc as [E|E]; rewrite E in *; exact P1.
  - destruct Hc as [E|E]; rewrite E in *; [exact P2|]. apply fle_trans with (2 := ltac:(vm_compute; reflexivity) : fle (d_of_Z 3) above3 = true). exact P2.
Qed.
(** Everybody ends up in [0,5] x [0, 3 + 2^-51]: the second coordinate can exceed
    the box that was set by one step of double precision (see the refutation). *)
Definition in_bk_region (v : list double) : Prop :=
  exists x y, v = [x; y] /\ fle d0 x = true /\ fle x (d_of_Z 5) = true /\ fle d0 y = true /\ fle y above3 = true.
Lemma bk_region_iff v : in_box bk_region v <-> in_bk_region v.
Proof.
  split.
  - intros (Lv & Hv). cbn [bk_region dimD] in Lv. destruct v as [|x [|y [|? ?]]]; try discriminate Lv; [|cbn [length] in Lv; lia].
    destruct (Hv 0%nat x eq_refl) as (A & B). destruct (Hv 1%nat y eq_refl) as (C & D). exists x, y. repeat split; assumption.
  - intros (x & y & -> & A & B & C & D). split; [reflexivity|]. intros [|[|[|i]]] z E; cbn in E; try discriminate E; injection E as <-; split; assumption.
Qed.
Theorem C95_binh_korn : forall g (a : BoxObj.box),
  exists o, @drive (list double) BoxObj.box R std lin 2 (NSGA2 false) false junk v0 vec_max (fresh R (bk_slots R) a g) (bk_main R L) = Ok o /\
    good_result 2 (NSGA2 false) o 200 100 in_bk_region (bk_f L bk_box).
Proof.
  intros g a.
  destruct (program_result' BoxObj.box R std lin 2 (NSGA2 false) false junk v0 vec_max (inside_box bk_region) (bk_slots R) a g
    [ SetOption R bk_opt; SetArgs R bk_box; SetFFun R (Some (bk_f L)) ]
    (bk_i R) (bk_f L) (bk_c R) (bk_m R) bk_opt bk_box HR Hstd) as (o & Ho & P1 & P2 & _ & P4 & P5).
  - lia.
  - repeat constructor; cbn; lia.
  - destruct (set_up_ofa BoxObj.box R std lin 2 (NSGA2 false) false junk v0 vec_max a g (bk_i R) (bk_f L) (bk_c R) (bk_m R) bk_opt bk_box) as (o1 & E1 & E2 & E3 & E4 & _). exists o1. split; [exact E1|]. split; [exact E2|]. split; [exact E3|]. split; [exact E4|exact I].
  - cbn. lia.
  - cbn. unfold two64. lia.
  - discriminate.
  - intros _ v Hv. apply inside_iff in Hv. exact (bk_tame L bk_box v Hv).
  - exact bk_init_in.
  - exact bk_cross_in.
  - exact bk_mutate_in.
  - exists o. split; [exact Ho|]. split; [exact P1|]. split; [exact P2|]. split; [|exact P5].
    intros x Hx. destruct (P4 x Hx) as (I1 & I2). split; [apply bk_region_iff, inside_iff, I1|exact I2].
Qed.

(** test/NSGA3_DTLZ7.cpp, for every number of generations and every population size
    that can be typed in; nothing is assumed of the C library. *)
Theorem C95_dtlz7 : forall g gens pops, 1 <= pops <= 4294967295 -> 0 <= gens < two64 - 1 ->
  exists o, @drive (list double) unit R std lin 3 NSGA3_single false junk v0 vec_max (fresh R (no_funs R) tt g) (dtlz7_main R L gens pops) = Ok o /\
    good_result 3 NSGA3_single o pops gens (in_cube 30 d0 d1) (dtlz7_f L tt).
Proof.
  intros g gens pops Hp Hg. set (B := square_dbox 30 d0 d1 d1). destruct one_val as (F1 & V1).
  pose proof (ratio_ok (DivReal (DivEncode 1 10)) ltac:(vm_compute; reflexivity) ltac:(vm_compute; reflexivity)) as (Fr & Hr).
  destruct (program_result' unit R std lin 3 NSGA3_single false junk v0 vec_max (inside_box B) (no_funs R) tt g
    [ SetIFun R (Some (dtlz7_i R)); SetFFun R (Some (dtlz7_f L)); SetCFun R (Some (dtlz7_c R)); SetMFun R (Some (dtlz7_m R));
      SetOption R (dtlz7_opt gens pops); SetPrecision R 12 ]
    (dtlz7_i R) (dtlz7_f L) (dtlz7_c R) (dtlz7_m R) (dtlz7_opt gens pops) tt HR Hstd) as (o & Ho & P1 & P2 & _ & P4 & P5).
  - lia.
  - repeat constructor; cbn; lia.
  - destruct (set_up_precision unit R std lin 3 false junk v0 vec_max tt g (dtlz7_i R) (dtlz7_f L) (dtlz7_c R) (dtlz7_m R) (dtlz7_opt gens pops) 12) as (o1 & E1 & E2 & E3 & E4 & E5).
    exists o1. split; [exact E1|]. split; [exact E2|]. split; [exact E3|]. split; [exact E4|]. exists 12%nat. split; [exact E5|lia].
  - exact Hp.
  - exact Hg.
  - discriminate.
  - discriminate.
  - intros gg. apply (cube_box 30).
    assert (E0 : fle d0 (DivReal (DivEncode 0 1)) = true) by (vm_compute; reflexivity). assert (E1 : fle (DivReal (DivEncode 1 1)) d1 = true) by (vm_compute; reflexivity).
    destruct (C39_default_initialiser R 30 (DivReal (DivEncode 0 1)) (DivReal (DivEncode 1 1)) gg HR
      ltac:(vm_compute; reflexivity) ltac:(vm_compute; reflexivity) ltac:(vm_compute; reflexivity) ltac:(vm_compute; reflexivity)) as (A & C).
    split; [exact A|]. intros x Hx. destruct (C x Hx) as (X & Y). split; [apply fle_trans with (1 := E0); exact X|apply fle_trans with (2 := E1); exact Y].
  - apply cross_total. apply square_kept; try assumption; try lia; try reflexivity; vm_compute; reflexivity.
  - destruct (small_scale (literal 4 1)) as (Fs & Bs); [vm_compute; reflexivity|vm_compute; reflexivity|].
    apply nudge_total; try assumption; try lia; try reflexivity; vm_compute; reflexivity.
  - exists o. split; [exact Ho|]. split; [exact P1|]. split; [exact P2|]. split; [|exact P5].
    intros x Hx. destruct (P4 x Hx) as (I1 & I2). split; [apply (cube_box 30 d0 d1 d1), I1|exact I2].
Qed.

(** None of the functions the programs install fails inside its region: the
    fallback values of the model are never used. *)
Definition defined {X} (r : res X) : Prop := exists x, r = Ok x.
Theorem C95_functions_defined : forall g,
  (forall p q, in_cube 30 d0 d1 p -> in_cube 30 d0 d1 q ->
     defined (cFunNd (DivReal (DivEncode 1 2)) p q) /\ defined (nudge R (literal 5 3) d0 d1 p 30 g) /\
     defined (cFunNd (DivReal (DivEncode 1 10)) p q) /\ defined (nudge R (literal 4 1) d0 d1 p 30 g) /\ defined (dtlz7 (Dops L) true p [dnan; dnan; dnan])) /\
  (forall p q, in_cube 3 (d_of_Z (-5)) (d_of_Z 5) p -> in_cube 3 (d_of_Z (-5)) (d_of_Z 5) q ->
     defined (cFunNd (literal 2 1) p q) /\ defined (nudge R (literal 1 1) (d_of_Z (-5)) (d_of_Z 5) p 3 g) /\ defined (kursawe_std (Dops L) p)) /\
  (forall p q, in_bk_region p -> in_bk_region q ->
     defined (BoxObj.bdrive bk_kind (BoxObj.fresh bk_kind) bk_calls) /\ defined (BoxObj.initialize R bk_kind bk_box g) /\
     defined (cFunNd default_r p q) /\ defined (BoxObj.applyDelta R bk_kind bk_box p g) /\ defined (binhKorn (Dops L) false p [dnan; dnan])).
Proof.
  intros g. destruct one_val as (F1 & _). destruct (bd_nat 5 ltac:(lia)) as ((F5 & _) & _). destruct (d_of_Z_exact (-5) ltac:(lia)) as (Fm & _).
  assert (X : forall r p q, length p = length q -> defined (cFunNd r p q)).
  { intros r p q E. unfold cFunNd. rewrite (proj2 (Nat.eqb_eq _ _) E). eexists. reflexivity. }
  split; [|split].
  - intros p q (Lp & Hp) (Lq & Hq). assert (E : length p = length q) by congruence. assert (Bp : in_box (square_dbox 30 d0 d1 d1) p) by (apply in_square; split; [lia|exact Hp]).
    split; [apply X, E|]. split.
    { destruct (small_scale (literal 5 3)) as (Fs & Bs); [vm_compute; reflexivity|vm_compute; reflexivity|].
      destruct (nudge_in R HR (literal 5 3) d0 d1 30 d1 p g Fs Bs eq_refl F1 ltac:(vm_compute; reflexivity) ltac:(lia) Bp) as (v' & g' & En & _). eexists. exact En. }
    split; [apply X, E|]. split.
    { destruct (small_scale (literal 4 1)) as (Fs & Bs); [vm_compute; reflexivity|vm_compute; reflexivity|].
      destruct (nudge_in R HR (literal 4 1) d0 d1 30 d1 p g Fs Bs eq_refl F1 ltac:(vm_compute; reflexivity) ltac:(lia) Bp) as (v' & g' & En & _). eexists. exact En. }
    unfold dtlz7, dtlz. assert (Lp2 : @length (num (Dops L)) p = 30%nat) by exact Lp. rewrite Lp2. cbn [length Nat.leb]. eexists. reflexivity.
  - intros p q (Lp & Hp) (Lq & Hq). assert (E : length p = length q) by congruence. assert (Bp : in_box (square_dbox 3 (d_of_Z (-5)) (d_of_Z 5) d1) p) by (apply in_square; split; [lia|exact Hp]).
    split; [apply X, E|]. split; [|exact (kursawe_defined L d1 p Bp)].
    destruct (small_scale (literal 1 1)) as (Fs & Bs); [vm_compute; reflexivity|vm_compute; reflexivity|].
    destruct (nudge_in R HR (literal 1 1) (d_of_Z (-5)) (d_of_Z 5) 3 d1 p g Fs Bs Fm F5 ltac:(vm_compute; reflexivity) ltac:(lia) Bp) as (v' & g' & En & _). eexists. exact En.
  - intros p q Hp Hq. apply bk_region_iff in Hp, Hq.
    split; [eexists; exact bk_drive|]. split.
    { destruct (C80_rectangle_box R bk_kind bk_calls bk_box bk_lo bk_hi HR eq_refl bk_typed bk_drive bk_range eq_refl eq_refl) as (W & _).
      { intros i Hi. cbn in Hi. destruct i as [|[|i]]; [| |lia]; vm_compute; reflexivity. }
      destruct (W bk_delta) as (W1 & _). destruct (W1 g) as (v & g' & E & _).
      { intros i Hi. cbn in Hi. destruct i as [|[|i]]; [| |lia]; (split; [|split]); vm_compute; reflexivity. }
      eexists. exact E. }
    split; [apply X; destruct Hp as (Lp & _), Hq as (Lq & _); cbn in Lp, Lq; lia|]. split; [|exact (bk_defined L p Hp)].
    rewrite bk_delta_is. unfold applyDeltaD. pose proof Hp as (Lp & _).
    replace (Z.of_nat (length p) =? dimD bk_rect) with true by (symmetry; apply Z.eqb_eq; exact Lp). cbn [negb].
    pose proof (randIdx_range R (dimD bk_rect) g HR ltac:(cbn; lia)) as Hi. destruct (randIdx R (dimD bk_rect) g) as [idx g1]. cbn [fst] in Hi.
    destruct (randD_range R (d_of_Z (-1)) d1 g1) as [r g2]. unfold moveD. destruct (get_at_in p idx) as (x & Gx & _); [cbn in Lp, Hi; lia|].
    rewrite Gx. eexists. reflexivity.
Qed.
(** The box that Binh_And_Korn sets is not respected: two individuals at y = 3 have
    children at y = 3 + 2^-51. *)
Theorem C95_binh_korn_box_refuted : exists p, in_box bk_rect p /\ forall g, ~ in_box bk_rect (fst (fst (bk_c R bk_box p p g))) /\
  exists x, nth_error (fst (fst (bk_c R bk_box p p g))) 1 = Some x /\ feq x above3 = true.
Proof.
  exists [d_of_Z 5; d_of_Z 3]. split.
  - split; [reflexivity|]. intros [|[|[|i]]] z E; cbn [nth_error] in E; try discriminate E; injection E as <-; split; vm_compute; reflexivity.
  - intros g. change (fst (fst (bk_c R bk_box [d_of_Z 5; d_of_Z 3] [d_of_Z 5; d_of_Z 3] g))) with [blend default_r (d_of_Z 5) (d_of_Z 5); blend default_r (d_of_Z 3) (d_of_Z 3)].
    split.
    + intros (_ & H). destruct (H 1%nat _ eq_refl) as (_ & H1).
      assert (T : fle (blend default_r (d_of_Z 3) (d_of_Z 3)) (d_of_Z 3) = false) by (vm_compute; reflexivity).
      cbn [rect_dbox maxD bk_hi BoxObj.vdata nth] in H1. rewrite T in H1. discriminate H1.
    + eexists. split; [reflexivity|]. vm_compute. reflexivity.
Qed.
End Progs.
Print Assumptions C95_zdt3.
Print Assumptions C95_kursawe.
Print Assumptions C95_binh_korn.
Print Assumptions C95_dtlz7.
Print Assumptions C95_functions_defined.
Print Assumptions C95_binh_korn_box_refuted.

(** A C library that satisfies the assumptions, and points of the regions. *)
Definition tiny_libm : libm := mkLibm (fun _ => d0) (fun _ => d0) (fun _ => d1) (fun _ _ => d1) (fun _ => d0).
Example ex_C95 : rng_ok replay /\ std_ok std_inst /\ sin_sane tiny_libm /\ exp_sane tiny_libm /\ pow_sane tiny_libm /\
  in_cube 30 d0 d1 (repeat d1 30) /\ in_cube 3 (d_of_Z (-5)) (d_of_Z 5) [d_of_Z (-5); d_of_Z 4; d0] /\ in_bk_region [d1; d_of_Z 3].
Proof.
  destruct one_val as (F1 & V1). split; [exact replay_ok|]. split; [exact std_inst_ok|].
  split; [intros x _; cbn; split; [reflexivity|]; rewrite Rabs_R0; lra|]. split; [intros x _ _; cbn [tiny_libm l_exp]; rewrite V1; split; [exact F1|lra]|].
  split; [intros x _ _; cbn [tiny_libm l_pow]; rewrite V1; split; [exact F1|lra]|].
  split; [split; [reflexivity|]; intros x Hx; apply repeat_spec in Hx; subst x; split; vm_compute; reflexivity|].
  split; [split; [reflexivity|]; intros x [<-|[<-|[<-|[]]]]; split; vm_compute; reflexivity|].
  exists d1, (d_of_Z 3). repeat split; vm_compute; reflexivity.
Qed.
