(** C74, C75, C76: the multi-objective benchmark functions. *)
From Coq Require Import List Arith ZArith Reals Lra Lia Bool Psatz.
From Verif Require Import Base ListFacts BenchSpec Bench BenchR BenchN BenchMO BenchDTLZ BenchDTLZ2.
Import ListNotations.
Open Scope R_scope.

(** The definitions of BenchSpec.v agree with those used in the proofs. *)
Lemma Forall2_nth (a b : list R) : Forall2 Rle a b <-> length a = length b /\ forall i, (i < length a)%nat -> nth i a 0 <= nth i b 0.
Proof.
  split.
  - induction 1 as [|x y a b H F (L & N)]; [split; [reflexivity|intros i Hi; cbn in Hi; lia]|]. split; [cbn; lia|]. intros [|i] Hi; cbn in *; [exact H|apply N; lia].
  - revert b. induction a as [|x a IH]; intros [|y b] (L & N); try discriminate L; constructor; [apply (N 0%nat); cbn; lia|].
    apply IH. split; [cbn in L; lia|]. intros i Hi. apply (N (S i)). cbn. lia.
Qed.
Lemma dominates_iff a b : dominates a b <-> dominatesR a b.
Proof.
  unfold dominates, dominatesR. rewrite Forall2_nth. split.
  - intros (L & N & i & Hi & ST). split; [split; assumption|]. intros ->. lra.
  - intros ((L & N) & D). split; [exact L|]. split; [exact N|]. revert b L N D. induction a as [|x a IH]; intros [|y b] L N D; try discriminate L; [congruence|].
    destruct (Rle_lt_or_eq_dec x y (N 0%nat ltac:(cbn; lia))) as [LT|EQ]; [exists 0%nat; split; [cbn; lia|exact LT]|]. subst y.
    destruct (IH b) as (i & Hi & ST); [cbn in L; lia|intros i Hi; apply (N (S i)); cbn; lia|congruence|]. exists (S i). split; [cbn; lia|exact ST].
Qed.
Lemma pareto_iff {X} (f : X -> res (list R)) D D' x : (forall y, D y <-> D' y) -> (pareto_optimal f D x <-> paretoR f D' x).
Proof.
  intros E. unfold pareto_optimal, paretoR. rewrite E. split; intros (H & a & Ha & N); split; [exact H| |exact H|]; exists a; split; try exact Ha; intros y b Dy Hb.
  - rewrite <- dominates_iff. apply (N y); [apply E, Dy|exact Hb].
  - rewrite dominates_iff. apply (N y); [apply E, Dy|exact Hb].
Qed.
Lemma cube_iff N x : unit_cube N x <-> cube N x.
Proof.
  unfold unit_cube, cube. split; intros (L & H); split; try exact L.
  - apply Forall_forall. intros v Hv. apply (In_nth _ _ 0) in Hv. destruct Hv as (i & Hi & <-). apply H. lia.
  - intros i Hi. rewrite Forall_forall in H. apply H, nth_In. lia.
Qed.
Lemma norm1 l : norm 1 l = total l.
Proof. unfold norm, total, sumR. induction l as [|x l IH]; [reflexivity|]. cbn [map fold_right]. rewrite IH. ring. Qed.
Lemma norm2 l : norm 2 l = total_sq l.
Proof. unfold norm, total_sq, sumR. induction l as [|x l IH]; [reflexivity|]. cbn [map fold_right]. rewrite IH. ring. Qed.

(** ** C74 *)
(** Schaffer's first problem: the Pareto set is [0,2]. *)
Theorem C74_schaffer1_front : forall x,
  schaffer1_mo Rops [x] = Ok [x^2; (x - 2)^2] /\ (pareto_optimal (fun t => schaffer1_mo Rops [t]) (fun _ => True) x <-> 0 <= x <= 2).
Proof.
  intros x. split; [rewrite schaffer1_R; f_equal; f_equal; [ring|f_equal; ring]|].
  rewrite <- schaffer1_front. apply pareto_iff. tauto.
Qed.
(** Schaffer's second problem: [1,2) and [4,5] as published; in the code the order
    of the tests makes it [5, infinity). *)
Definition schaffer2_published (x : R) : list R :=
  [if Rle_dec x 1 then - x else if Rle_dec x 3 then x - 2 else if Rle_dec x 4 then 4 - x else x - 4; (x - 5)^2].
Theorem C74_schaffer2_front_refuted : forall x,
  (pareto_optimal (fun t => Ok (schaffer2_published t)) (fun _ => True) x <-> (1 <= x < 2 \/ 4 <= x <= 5)) /\
  (pareto_optimal (fun t => schaffer2_mo Rops [t]) (fun _ => True) x <-> 5 <= x).
Proof.
  intros x. split.
  - rewrite <- schaffer2_pub_front. rewrite (pareto_iff _ _ (fun _ => True)) by tauto.
    assert (E : forall t, schaffer2_published t = schaffer2_pub t) by (intros t; unfold schaffer2_published, schaffer2_pub; f_equal; f_equal; ring).
    unfold paretoR. rewrite E. split; intros (_ & a & Ha & N); (split; [exact I|]); exists a; (split; [exact Ha|]); intros y b Dy Hb; apply (N y b Dy); congruence.
  - rewrite <- schaffer2_mo_front. apply pareto_iff. tauto.
Qed.
(** Binh-Korn and Chankong-Haimes: the published values where the constraints
    hold; elsewhere a penalty, so that no forbidden point of the documented domain
    dominates an allowed one. *)
Definition bk_allowed (x y : R) : Prop := (x - 5)^2 + y^2 <= 25 /\ 77/10 <= (x - 8)^2 + (y + 3)^2.
Theorem C74_binh_korn : forall f x y,
  (bk_allowed x y -> binhKorn Rops true [x; y] f = Ok [4*x^2 + 4*y^2; (x - 5)^2 + (y - 5)^2]) /\
  (forall x' y' a b, 0 <= x <= 5 -> 0 <= y <= 3 -> 0 <= x' <= 5 -> 0 <= y' <= 3 -> ~ bk_allowed x y -> bk_allowed x' y' ->
     binhKorn Rops true [x; y] f = Ok a -> binhKorn Rops true [x'; y'] f = Ok b -> ~ dominates a b).
Proof.
  assert (E : forall x y, bk_allowed x y <-> feasible2 bk1 bk2 x y) by (intros x y; unfold bk_allowed, feasible2, bk1, bk2; lra).
  intros f x y. split.
  - intros H. rewrite binh_R, binh_feasible by (apply E, H). f_equal. f_equal; [ring|f_equal; ring].
  - intros x' y' a b X Y X' Y' N F Ha Hb. rewrite binh_R in Ha, Hb. injection Ha as <-. injection Hb as <-. rewrite dominates_iff.
    apply binh_infeasible; try assumption; [rewrite <- E; exact N|apply E, F].
Qed.
Definition ch_allowed (x y : R) : Prop := x^2 + y^2 <= 225 /\ x - 3*y + 10 <= 0.
Theorem C74_chankong_haimes : forall f x y,
  (ch_allowed x y -> changkongHaimes Rops true [x; y] f = Ok [2 + (x - 2)^2 + (y - 1)^2; 9*x - (y - 1)^2]) /\
  (forall x' y' a b, -20 <= x <= 20 -> -20 <= y <= 20 -> -20 <= x' <= 20 -> -20 <= y' <= 20 -> ~ ch_allowed x y -> ch_allowed x' y' ->
     changkongHaimes Rops true [x; y] f = Ok a -> changkongHaimes Rops true [x'; y'] f = Ok b -> ~ dominates a b).
Proof.
  assert (E : forall x y, ch_allowed x y <-> feasible2 ch1 ch2 x y) by (intros x y; unfold ch_allowed, feasible2, ch1, ch2; lra).
  intros f x y. split.
  - intros H. rewrite chang_R, chang_feasible by (apply E, H). f_equal. f_equal; [ring|f_equal; ring].
  - intros x' y' a b X Y X' Y' N F Ha Hb. rewrite chang_R in Ha, Hb. injection Ha as <-. injection Hb as <-. rewrite dominates_iff.
    apply chang_infeasible; try assumption; [rewrite <- E; exact N|apply E, F].
Qed.
(** Poloni: the formula, with the published trigonometric constants to 16 digits. *)
Theorem C74_poloni : forall f x y, exists A1 A2,
  poloni Rops true [x; y] f = Ok [1 + (A1 - (5/10 * sin x - 2 * cos x + sin y - 15/10 * cos y))^2 + (A2 - (15/10 * sin x - cos x + 2 * sin y - 5/10 * cos y))^2;
                                  (x + 3)^2 + (y + 1)^2] /\
  A1 = 8736485623140641 / 10000000000000000 /\ A2 = 2748572443268640 / 1000000000000000.
Proof.
  intros f x y. do 2 eexists. split; [|split; reflexivity]. unfold poloni, two_mo, resized, square. rr. cbn [orb]. f_equal. f_equal; [field|f_equal; field].
Qed.
(** Viennet: the second objective has 2x where 3x is meant; it stays above 15, which
    the published function attains. *)
Definition viennet_published2 (x y : R) : R := (3*x - 2*y + 4)^2 / 8 + (x - y + 1)^2 / 27 + 15.
Theorem C74_viennet_refuted :
  (forall fo x y, exists f1 f2 f3, viennet Rops true [x; y] fo = Ok [f1; f2; f3] /\ 15 < f2) /\ viennet_published2 (-2) (-1) = 15.
Proof.
  split; [|unfold viennet_published2; field]. intros fo x y. rewrite viennet_R. destruct (viennet_bounds x y) as (f1 & f2 & f3 & E & _ & A & _).
  exists f1, f2, f3. rewrite E. split; [reflexivity|exact A].
Qed.
Theorem C74_viennet_other_objectives : forall fo x y, exists f2,
  viennet Rops true [x; y] fo = Ok [(x^2 + y^2)/2 + sin (x^2 + y^2); f2; 1/(x^2 + y^2 + 1) - 11/10 * exp (- (x^2 + y^2))] /\
  0 <= (x^2 + y^2)/2 + sin (x^2 + y^2) /\ - 1/10 <= 1/(x^2 + y^2 + 1) - 11/10 * exp (- (x^2 + y^2)).
Proof.
  intros fo x y. replace (x^2 + y^2) with (x*x + y*y) by ring. destruct (viennet_bounds x y) as (f1 & f2 & f3 & E & A & _ & B). exists f2. rewrite viennet_R. split.
  - f_equal. unfold viennetR in E |- *. injection E as _ <- _. reflexivity.
  - unfold viennetR in E. injection E as <- _ <-. split; assumption.
Qed.
(** Kursawe with std containers depends on the first two variables only, and reads
    past the end of a single one. *)
Theorem C74_kursawe_refuted : forall Q x y t t', kursawe_std Q (x :: y :: t) = kursawe_std Q (x :: y :: t') /\ kursawe_std Q [x] = UB.
Proof. intros. split; reflexivity. Qed.
(** With a Var_t of fixed size a dynamic fitness is not resized: writing to an empty
    one is out of bounds. *)
Theorem C74_fitness_not_resized_refuted : forall Q x y,
  binhKorn Q false [x; y] [] = UB /\ changkongHaimes Q false [x; y] [] = UB /\ poloni Q false [x; y] [] = UB /\ viennet Q false [x; y] [] = UB.
Proof. intros. repeat split; reflexivity. Qed.
Example C74_example : bk_allowed 1 1 /\ ~ bk_allowed 0 1 /\ ch_allowed (-5) 5 /\ ~ ch_allowed 0 0 /\ dominates [1; 2] [1; 3].
Proof.
  unfold bk_allowed, ch_allowed. repeat split; try lra.
  - cbn. intros i Hi. destruct i as [|[|i]]; cbn; try lra; lia.
  - exists 1%nat. cbn. split; [lia|lra].
Qed.
Print Assumptions C74_schaffer1_front. Print Assumptions C74_schaffer2_front_refuted. Print Assumptions C74_binh_korn. Print Assumptions C74_chankong_haimes.
Print Assumptions C74_poloni. Print Assumptions C74_viennet_refuted. Print Assumptions C74_viennet_other_objectives. Print Assumptions C74_kursawe_refuted.
Print Assumptions C74_fitness_not_resized_refuted.

(** ** C75: DTLZ1 to DTLZ7 *)
(** N variables, M objectives, the last N-M+1 variables give the distance g. *)
Definition tail_of (M : nat) (x : list R) : list R := skipn (M - 1) x.
Definition g_multi (xs : list R) : R := 100 * total (map (fun x => (x - 1/2)^2 + (1 - cos (20*PI*(x - 1/2)))) xs).
Definition g_plain (xs : list R) : R := total (map (fun x => (x - 1/2)^2) xs).
Lemma g_multi_eq xs : rastrigin_g xs = g_multi xs.
Proof. unfold rastrigin_g, g_multi. change total with sumR. f_equal. apply sumR_map_ext. intros. ring. Qed.
Lemma g_plain_eq xs : sphere_g xs = g_plain xs.
Proof. unfold sphere_g, g_plain. change total with sumR. apply sumR_map_ext. intros. ring. Qed.
(** A problem whose value has "size" (1+g)*c, all objectives non-negative on the unit
    cube, whose Pareto set in the cube is {the last variables are all 1/2}. *)
Definition dtlz_problem (F : list R -> res (list R)) (N M : nat) (size : list R -> R) (g : list R -> R) (value : R -> R) : Prop :=
  (forall x, length x = N -> exists f, F x = Ok f /\ length f = M /\ size f = value (g (tail_of M x))) /\
  (forall x f, unit_cube N x -> F x = Ok f -> Forall (Rle 0) f) /\
  (forall x, unit_cube N x -> (pareto_optimal F (unit_cube N) x <-> tail_of M x = repeat (1/2) (N - M + 1))).
Lemma problem_intro F N M k c la fi g g' size value :
  (0 < k)%nat /\ (1 <= M <= N)%nat -> 0 < c ->
  (forall x : list R, length x = N -> F x = Ok (cascade Rops la fi (c * (1 + g (skipn (M - 1) x))) (firstn (M - 1) x) [])) ->
  (forall xs, 0 <= g xs /\ (g xs = 0 <-> xs = repeat (1/2) (length xs))) -> (forall y, la y ^ k + fi y ^ k = 1) ->
  (forall y, 0 <= y <= 1 -> 0 <= la y /\ 0 <= fi y) -> (forall l, norm k l = size l) -> (forall xs, g xs = g' xs) -> (forall t, (c * (1 + t)) ^ k = value t) ->
  dtlz_problem F N M size g' value.
Proof.
  intros KM C FE G P1 P0 SZ GE V. split; [|split].
  - intros x L. destruct (front_value F N M k c la fi g KM FE P1 x L) as (f & E & LF & NF). exists f. split; [exact E|]. split; [exact LF|].
    rewrite <- SZ, NF, V. unfold tail_of. rewrite GE. reflexivity.
  - intros x f D. apply cube_iff in D. exact (front_nonneg F N M c la fi g C FE G P0 x f D).
  - intros x D. apply cube_iff in D. replace (N - M + 1)%nat with (N - (M - 1))%nat by lia. unfold tail_of.
    rewrite <- (front_set F N M k c la fi g KM C FE G P1 P0 x D). apply pareto_iff, cube_iff.
Qed.
Theorem C75_dtlz1 : forall eig N M, (1 <= M <= N)%nat ->
  dtlz_problem (fun x => dtlz1 Rops eig x M) N M total g_multi (fun g => (1 + g) / 2).
Proof.
  intros eig N M H. apply (problem_intro _ N M 1 (1/2) la1 (fun y => y) rastrigin_g); [lia|lra|exact (dtlz1_eq eig N M H)|exact rastrigin_g_min|exact P1_1|exact P0_1|exact norm1|exact g_multi_eq|].
  intros t. rewrite pow_1. field.
Qed.
Theorem C75_dtlz2 : forall eig N M, (1 <= M <= N)%nat ->
  dtlz_problem (fun x => dtlz2 Rops eig x M) N M total_sq g_plain (fun g => (1 + g)^2).
Proof.
  intros eig N M H. apply (problem_intro _ N M 2 1 (la2 1) (fi2 1) sphere_g); [lia|lra|exact (dtlz2_eq eig N M H)|exact sphere_g_min|exact (P1_2 1)|exact (P0_2 1)|exact norm2|exact g_plain_eq|].
  intros t. ring.
Qed.
Theorem C75_dtlz3 : forall eig N M, (1 <= M <= N)%nat ->
  dtlz_problem (fun x => dtlz3 Rops eig x M) N M total_sq g_multi (fun g => (1 + g)^2).
Proof.
  intros eig N M H. apply (problem_intro _ N M 2 1 (la2 1) (fi2 1) rastrigin_g); [lia|lra|exact (dtlz3_eq eig N M H)|exact rastrigin_g_min|exact (P1_2 1)|exact (P0_2 1)|exact norm2|exact g_multi_eq|].
  intros t. ring.
Qed.
Theorem C75_dtlz4 : forall alpha eig N M, (1 <= M <= N)%nat ->
  dtlz_problem (fun x => dtlz4 Rops alpha eig x M) N M total_sq g_plain (fun g => (1 + g)^2).
Proof.
  intros a eig N M H. apply (problem_intro _ N M 2 1 (la2 a) (fi2 a) sphere_g); [lia|lra|exact (dtlz4_eq eig N M H a)|exact sphere_g_min|exact (P1_2 a)|exact (P0_2 a)|exact norm2|exact g_plain_eq|].
  intros t. ring.
Qed.
(** The individual objectives, for two and three of them. *)
Theorem C75_objectives : forall eig x0 x1 xs, (1 <= length xs)%nat ->
  (let g := g_multi xs in dtlz1 Rops eig (x0 :: xs) 2 = Ok [1/2 * (1 + g) * x0; 1/2 * (1 + g) * (1 - x0)]) /\
  (let g := g_multi xs in dtlz1 Rops eig (x0 :: x1 :: xs) 3 = Ok [1/2 * (1 + g) * x0 * x1; 1/2 * (1 + g) * x0 * (1 - x1); 1/2 * (1 + g) * (1 - x0)]) /\
  (let g := g_plain xs in dtlz2 Rops eig (x0 :: x1 :: xs) 3 =
     Ok [(1 + g) * cos (PI/2 * x0) * cos (PI/2 * x1); (1 + g) * cos (PI/2 * x0) * sin (PI/2 * x1); (1 + g) * sin (PI/2 * x0)]) /\
  (let g := g_multi xs in dtlz3 Rops eig (x0 :: x1 :: xs) 3 =
     Ok [(1 + g) * cos (PI/2 * x0) * cos (PI/2 * x1); (1 + g) * cos (PI/2 * x0) * sin (PI/2 * x1); (1 + g) * sin (PI/2 * x0)]) /\
  (forall alpha, let g := g_plain xs in dtlz4 Rops alpha eig (x0 :: x1 :: xs) 3 =
     Ok [(1 + g) * cos (PI/2 * x0^alpha) * cos (PI/2 * x1^alpha); (1 + g) * cos (PI/2 * x0^alpha) * sin (PI/2 * x1^alpha); (1 + g) * sin (PI/2 * x0^alpha)]).
Proof.
  intros eig x0 x1 xs H. cbv zeta. repeat split; intros.
  - rewrite (dtlz1_eq eig (S (length xs)) 2) by (cbn; lia). cbn [Nat.sub skipn firstn cascade]. rewrite g_multi_eq. rr. reflexivity.
  - rewrite (dtlz1_eq eig (S (S (length xs))) 3) by (cbn; lia). cbn [Nat.sub skipn firstn cascade]. rewrite g_multi_eq. rr. reflexivity.
  - rewrite (dtlz2_eq eig (S (S (length xs))) 3) by (cbn; lia). cbn [Nat.sub skipn firstn cascade]. rewrite g_plain_eq. rr. unfold la2, fi2. rewrite !lit0, !pow_1, !Rmult_1_l. reflexivity.
  - rewrite (dtlz3_eq eig (S (S (length xs))) 3) by (cbn; lia). cbn [Nat.sub skipn firstn cascade]. rewrite g_multi_eq. rr. unfold la2, fi2. rewrite !lit0, !pow_1, !Rmult_1_l. reflexivity.
  - rewrite (dtlz4_eq eig (S (S (length xs))) 3) by (cbn; lia). cbn [Nat.sub skipn firstn cascade]. rewrite g_plain_eq. rr. unfold la2, fi2. rewrite !lit0, !Rmult_1_l. reflexivity.
Qed.
(** DTLZ5 and DTLZ6: the objectives lie on the sphere of radius 1 + g ... *)
Theorem C75_dtlz56_sphere : forall (x : list R) M, (2 <= M <= length x)%nat ->
  (exists f, dtlz5 Rops x M = Ok f /\ length f = M /\ total_sq f = (1 + g_plain (tail_of M x))^2) /\
  (exists f, dtlz6 Rops x M = Ok f /\ length f = M /\ total_sq f = (1 + total (map (fun y => Rpow y (1/10)) (tail_of M x)))^2).
Proof.
  intros x M H. split.
  - destruct (dtlz5_norm x M H) as (f & E & L & V). exists f. split; [exact E|]. split; [exact L|]. rewrite <- norm2, V, g_plain_eq. reflexivity.
  - destruct (dtlz6_norm x M H) as (f & E & L & V). exists f. split; [exact E|]. split; [exact L|]. rewrite <- norm2, V. reflexivity.
Qed.
(** ... but the angles have a factor pi/2 too many, so that an objective is negative
    (the published ones are not). *)
Theorem C75_dtlz56_nonnegative_refuted : forall x0 xs, (1 <= length xs)%nat -> 2/PI < x0 <= 1 ->
  (exists f0 f1, dtlz5 Rops (x0 :: xs) 2 = Ok [f0; f1] /\ f0 < 0) /\ (exists f0 f1, dtlz6 Rops (x0 :: xs) 2 = Ok [f0; f1] /\ f0 < 0).
Proof.
  intros x0 xs H X. pose proof (cos_neg x0 X) as N. split.
  - unfold dtlz5. rewrite dtlz56_two by exact H. rewrite g_sphere_R. do 2 eexists. split; [reflexivity|]. pose proof (proj1 (sphere_g_min (xm Rops (x0 :: xs) 2))). nra.
  - unfold dtlz6. rewrite dtlz56_two by exact H. do 2 eexists. split; [reflexivity|]. rr. replace (1 / 10 ^ 1) with (1/10) by field.
    pose proof (root_g_nonneg (xm Rops (x0 :: xs) 2)) as P. unfold root_g, sumR in P. nra.
Qed.
(** DTLZ7 with Eigen arrays: the published objectives; every optimal point of the
    unit cube has its last variables all zero. *)
Theorem C75_dtlz7 : forall N (x f : list R), let M := length f in (1 <= M <= N)%nat -> unit_cube N x ->
  let g := 1 + 9 / INR (N - M + 1) * total (tail_of M x) in
  let fs := firstn (M - 1) x in
  exists fM, dtlz7 Rops true x f = Ok (fs ++ [fM]) /\
    fM = (1 + g) * INR M - total (map (fun fi => fi * (1 + sin (3*PI*fi))) fs) /\ 2 <= fM /\
    (pareto_optimal (fun t => dtlz7 Rops true t f) (unit_cube N) x -> tail_of M x = repeat 0 (N - M + 1)).
Proof.
  intros N x f M H D g fs. apply cube_iff in D. destruct D as (L & C). unfold tail_of in *.
  assert (E : g = g7 (skipn (M - 1) x)).
  { unfold g, g7, tail_of. change total with sumR. rewrite skipn_length, L. replace (N - M + 1)%nat with (N - (M - 1))%nat by lia. reflexivity. }
  eexists. split; [apply dtlz7_eigen; [fold M; rewrite L; exact H|exact C]|]. fold M fs. split; [unfold last7; rewrite <- E; reflexivity|]. split.
  - apply last7_low; [apply Forall_first, C|unfold fs; rewrite firstn_length; lia|lia|apply g7_pos, Forall_skip, C].
  - replace (N - M + 1)%nat with (N - (M - 1))%nat by lia. intros P. apply (dtlz7_front N M f x H eq_refl). revert P. apply pareto_iff, cube_iff.
Qed.
(** With std containers the objective number M-1 is left as it was before the call:
    the result is not a function of the variables. *)
Theorem C75_dtlz7_std_refuted : forall (x f : list R), (2 <= length f <= length x)%nat ->
  exists r, dtlz7 Rops false x f = Ok r /\ nth_error r (length f - 2) = nth_error f (length f - 2).
Proof. exact dtlz7_std_stale. Qed.
Example C75_example : unit_cube 3 [1/2; 1/2; 1/2] /\ unit_cube 3 [1; 0; 1/2] /\ 2/PI < 1 /\ tail_of 2 [1; 0; 1/2] = [0; 1/2].
Proof.
  split; [split; [reflexivity|]; intros i Hi; destruct i as [|[|[|i]]]; cbn; try lra; lia|].
  split; [split; [reflexivity|]; intros i Hi; destruct i as [|[|[|i]]]; cbn; try lra; lia|]. split; [|reflexivity].
  pose proof PI_gt_3. apply (Rmult_lt_reg_r PI); [lra|]. unfold Rdiv. rewrite Rmult_assoc, Rinv_l by lra. lra.
Qed.
Print Assumptions C75_dtlz1. Print Assumptions C75_dtlz2. Print Assumptions C75_dtlz3. Print Assumptions C75_dtlz4. Print Assumptions C75_objectives.
Print Assumptions C75_dtlz56_sphere. Print Assumptions C75_dtlz56_nonnegative_refuted. Print Assumptions C75_dtlz7. Print Assumptions C75_dtlz7_std_refuted.

(** ** C76: DTLZ8 and DTLZ9 *)
(** The j-th objective is the mean of its block of variables (published formula,
    the last index being N-1), and a violated constraint adds a penalty above 1000. *)
Definition block_mean (x : list R) (M j : nat) : R :=
  let N := length x in
  let a := (j * N / M)%nat in let b := Nat.min ((j + 1) * N / M) (N - 1) in
  total (map (fun i => nth i x 0) (seq a (S b - a))) / INR (N / M).
Lemma block_mean_eq x M j : rawR x M j = block_mean x M j. Proof. reflexivity. Qed.
Theorem C76_dtlz8 : forall (x : list R) M, (1 <= M < length x)%nat ->
  let m := block_mean x M in
  let c j := m (M - 1)%nat + 4 * m j - 1 in
  let c' i k := 2 * m (M - 1)%nat + (m i + m k) - 1 in
  exists r, dtlz8 Rops x M = Ok r /\ length r = M /\
    (forall j, (j < M - 1)%nat -> 0 <= c j -> nth j r 0 = m j) /\
    (forall j, (j < M - 1)%nat -> c j < 0 -> nth j r 0 = m j + (1000 - c j)) /\
    ((forall i k, (i < k < M - 1)%nat -> 0 <= c' i k) -> nth (M - 1) r 0 = m (M - 1)%nat) /\
    (forall i k, (i < k < M - 1)%nat -> c' i k < 0 -> m (M - 1)%nat + (1000 - c' i k) <= nth (M - 1) r 0).
Proof.
  intros x M H m c c'. destruct (dtlz8_R x M H) as (r & E & L & A & B & C). exists r. split; [exact E|]. split; [exact L|]. unfold c8, c8_last in *.
  split; [|split; [|split; [exact B|exact C]]]; intros j J Cj; specialize (A j J); rewrite A; unfold c, m in Cj |- *; change (block_mean x M) with (rawR x M) in *; destruct (Rlt_dec _ _); try lra; reflexivity.
Qed.
(** In any arithmetic: no read out of range. *)
Theorem C76_dtlz8_safe : forall Q (x : list (num Q)) M, (1 <= M < length x)%nat -> exists r, dtlz8 Q x M = Ok r /\ length r = M.
Proof. exact dtlz8_ok. Qed.
(** DTLZ9 always reads past the end of the variables. *)
Theorem C76_dtlz9_refuted : forall Q (x : list (num Q)) M, (1 <= M < length x)%nat -> dtlz9 Q x M = UB.
Proof. exact dtlz9_ub. Qed.
Example C76_example : block_mean [1; 2; 3; 4] 2 0 = 3 /\ block_mean [1; 2; 3; 4] 2 1 = 7/2.
Proof. unfold block_mean, total. cbn. split; field. Qed.
Print Assumptions C76_dtlz8. Print Assumptions C76_dtlz8_safe. Print Assumptions C76_dtlz9_refuted.
