(** C61, C72, C73: the single-objective benchmark functions. *)
From Coq Require Import List Arith ZArith Reals Lra Lia Bool Psatz.
From Flocq Require Import Core BinarySingleNaN.
From Verif Require Import Base Fl FlFacts Rng BenchSpec Bench BenchR BenchN BenchD.
Import ListNotations.
Open Scope R_scope.

Lemma min2_intro f F m p q : formula2 f F -> (forall x y, m <= F x y /\ (F x y = m <-> x = p /\ y = q)) -> is_min f pairs_only m (fun v => v = [p; q]).
Proof.
  intros HF H. split; [exists [p; q]; split; reflexivity|]. intros v L. destruct v as [|x [|y [|z v]]]; try discriminate L.
  exists (F x y). split; [apply HF|]. split; [apply H|]. rewrite (proj2 (H x y)). split; [intros (-> & ->); reflexivity|intros E; injection E; auto].
Qed.

(** ** C61: two variables *)
(** The minimum is the documented one, and attained only there. *)
Theorem C61_documented_minima :
  is_min (beale Rops) pairs_only 0 (fun v => v = [3; 1/2]) /\
  is_min (booth Rops) pairs_only 0 (fun v => v = [1; 3]) /\
  is_min (bukin Rops) pairs_only 0 (fun v => v = [-10; 1]) /\
  is_min (matyas Rops) pairs_only 0 (fun v => v = [0; 0]) /\
  is_min (levy Rops) pairs_only 0 (fun v => v = [1; 1]) /\
  is_min (threeHumpCamel Rops) pairs_only 0 (fun v => v = [0; 0]) /\
  is_min (easom Rops) pairs_only (-1) (fun v => v = [PI; PI]) /\
  is_min (ackley Rops) pairs_only 0 (fun v => v = [0; 0]) /\
  is_min (himmelblau Rops) pairs_only 0 (fun v => exists x y, v = [x; y] /\ x^2 + y = 11 /\ x + y^2 = 7) /\
  himmelblau Rops [3; 2] = Ok 0.
Proof.
  split; [exact (min2_intro _ _ _ _ _ beale_R beale_min)|].
  split; [exact (min2_intro _ _ _ _ _ booth_R booth_min)|].
  split; [exact (min2_intro _ _ _ _ _ bukin_R bukin_min)|].
  split; [exact (min2_intro _ _ _ _ _ matyas_R matyas_min)|].
  split; [exact (min2_intro _ _ _ _ _ levy_R levy_min)|].
  split; [exact (min2_intro _ _ _ _ _ camel_R camel_min)|].
  split; [exact (min2_intro _ _ _ _ _ easom_R easom_min)|].
  split; [exact (min2_intro _ _ _ _ _ ackley_R (ackley_min _))|].
  split.
  - split; [exists [3; 2]; split; [reflexivity|]; exists 3, 2; split; [reflexivity|]; lra|].
    intros v L. destruct v as [|x [|y [|z v]]]; try discriminate L. exists (himmelblauR x y). split; [apply himmelblau_R|].
    destruct (himmelblau_min x y) as (A & _ & B). split; [exact A|]. rewrite B. split.
    + intros (H1 & H2). exists x, y. split; [reflexivity|]. lra.
    + intros (x' & y' & E & H1 & H2). injection E as -> ->. lra.
  - rewrite himmelblau_R. f_equal. exact (proj1 (proj2 (himmelblau_min 3 2))).
Qed.
(** McCormick's function: -sqrt 3 / 2 - pi / 3 = -1.9132..., over x >= -1.5, y >= -3. *)
Theorem C61_mccormick :
  (forall x y, -3/2 <= x -> -3 <= y -> exists f, mcCormick Rops [x; y] = Ok f /\ - (sqrt 3 / 2) - PI / 3 <= f) /\
  mcCormick Rops [1/2 - PI/3; - 1/2 - PI/3] = Ok (- (sqrt 3 / 2) - PI / 3) /\ -3/2 <= 1/2 - PI/3 <= 4 /\ -3 <= - 1/2 - PI/3 <= 4.
Proof.
  split; [intros x y X Y; eexists; split; [apply mccormick_R|apply mccormick_min; assumption]|].
  destruct mccormick_at as (A & B & C). replace (1/2 - PI/3 - 1) with (- 1/2 - PI/3) in * by lra.
  split; [|split; assumption]. rewrite mccormick_R. f_equal. exact A.
Qed.
(** The fourth Schaffer function: bounded, and close to its lower bound at the documented kind of point. *)
Theorem C61_schaffer4 :
  (forall x y, exists f, schaffer4 Rops [x; y] = Ok f /\ cos 1 ^ 2 <= f <= 1) /\
  schaffer4 Rops [0; sqrt (PI/2)] = Ok (1/2 + (cos 1 ^ 2 - 1/2) / (1 + PI/2000) ^ 2).
Proof.
  assert (E : cos 1 ^ 2 = cos 1 * cos 1) by ring. rewrite E. split.
  - intros x y. eexists. split; [apply schaffer4_R|apply schaffer4_bounds].
  - rewrite schaffer4_R, schaffer4_at. f_equal. f_equal. f_equal. ring.
Qed.
(** The formula computed, for those whose minimum has no closed form here. *)
Theorem C61_formulas :
  formula2 (crossInTray Rops) (fun x y => - (1/10000) * Rpow (1 + Rabs (sin x * sin y * exp (Rabs (100 - sqrt (x*x + y*y) / PI)))) (1/10)) /\
  formula2 (eggHolder Rops) (fun x y => - (y + 47) * sin (sqrt (Rabs (x/2 + (y + 47)))) - x * sin (sqrt (Rabs (x - (y + 47))))) /\
  formula2 (mcCormick Rops) (fun x y => sin (x + y) + (x - y)^2 - 3/2*x + 5/2*y + 1) /\
  formula2 (schaffer4 Rops) (fun x y => 1/2 + (cos (sin (Rabs (x*x - y*y)))^2 - 1/2) / (1 + (x*x + y*y)/1000)^2).
Proof.
  unfold formula2. repeat split; intros x y.
  - rewrite tray_R. unfold trayR. f_equal. field.
  - unfold eggHolder, two. rr. replace (47 / 10 ^ 0) with 47 by field. replace (2 / 10 ^ 0) with 2 by field. reflexivity.
  - rewrite mccormick_R. unfold mccormickR. f_equal. ring.
  - rewrite schaffer4_R. unfold schaffer4R, denR. f_equal. f_equal. f_equal; ring.
Qed.
(** Exactly two variables are required. *)
Theorem C61_two_variables : forall v : list R, length v <> 2%nat ->
  Forall (fun f => f v = Abort) [ackley Rops; beale Rops; goldsteinPrice Rops; booth Rops; bukin Rops; matyas Rops; levy Rops; himmelblau Rops;
    threeHumpCamel Rops; easom Rops; crossInTray Rops; eggHolder Rops; holderTable Rops; mcCormick Rops; schaffer2 Rops; schaffer4 Rops].
Proof. intros v H. repeat constructor; destruct v as [|x [|y [|z v]]]; cbn in *; reflexivity || lia. Qed.
(** Ackley's function is evaluated with 2/pi in place of 2 pi (M_2_PI). *)
Definition ackley_published (x y : R) : R :=
  - (20 * exp (- (sqrt ((x*x + y*y)/2)) / 5)) - exp ((cos (2*PI*x) + cos (2*PI*y))/2) + 20 + exp 1.
Theorem C61_ackley_formula_refuted : exists f, ackley Rops [1; 0] = Ok f /\ ackley_published 1 0 < f.
Proof. eexists. split; [apply ackley_R|]. exact ackley_differs. Qed.
(** The Goldstein-Price function has 12 x where 12 x^2 is meant: at the documented
    minimum (0,-1) its value is 12 instead of 3, and elsewhere it is negative. *)
Definition goldstein_published (x y : R) : R :=
  (1 + (x + y + 1)^2 * (19 - 14*x + 3*x^2 - 14*y + 6*x*y + 3*y^2)) * (30 + (2*x - 3*y)^2 * (18 - 32*x + 12*x^2 + 48*y - 36*x*y + 27*y^2)).
Theorem C61_goldstein_refuted :
  goldsteinPrice Rops [0; -1] = Ok 12 /\ goldstein_published 0 (-1) = 3 /\ goldsteinPrice Rops [2; 0] = Ok (-9016).
Proof.
  destruct goldstein_vals as (A & B & C). rewrite !goldstein_R, A, C. split; [reflexivity|]. split; [|reflexivity]. unfold goldstein_published. lra.
Qed.
(** The second Schaffer function squares the whole of sin(x^2 - y^2) - 1/2: never
    below 1/2, and 3/4 at the documented minimum (0,0), where 0 is meant. *)
Theorem C61_schaffer2_refuted :
  (forall x y, exists f, schaffer2 Rops [x; y] = Ok f /\ 1/2 <= f) /\ schaffer2 Rops [0; 0] = Ok (3/4).
Proof.
  split; [intros x y; eexists; split; [apply schaffer2_R|apply schaffer2_low]|]. rewrite schaffer2_R. f_equal. apply (schaffer2_low 0 0).
Qed.
(** Holder's table function takes the root of x^2 - y^2 (x^2 + y^2 is meant): NaN
    whenever that is negative, whatever the C library computes elsewhere. *)
Theorem C61_holder_refuted : forall (L : libm) (x y : double), l_exp L B754_nan = B754_nan ->
  flt (fsub (fmul x x) (fmul y y)) d0 = true -> holderTable (Dops L) [x; y] = Ok B754_nan.
Proof. exact d_holder. Qed.
Example C61_holder_example : flt (fsub (fmul d0 d0) (fmul (d_of_Z 1) (d_of_Z 1))) d0 = true.
Proof. vm_compute. reflexivity. Qed.
Example C61_example : booth Rops [1; 3] = Ok 0 /\ booth Rops [0; 0] = Ok 74.
Proof. rewrite !booth_R. unfold boothR. split; f_equal; lra. Qed.
Print Assumptions C61_documented_minima. Print Assumptions C61_mccormick. Print Assumptions C61_schaffer4. Print Assumptions C61_formulas.
Print Assumptions C61_two_variables. Print Assumptions C61_ackley_formula_refuted. Print Assumptions C61_goldstein_refuted.
Print Assumptions C61_schaffer2_refuted. Print Assumptions C61_holder_refuted.

(** ** C72: any number of variables *)
Theorem C72_documented_minima : forall n eig,
  is_min (fun v => Ok (rastrigin Rops v)) (fun v => length v = n) 0 (fun v => v = repeat 0 n) /\
  is_min (fun v => Ok (sphere Rops eig v)) (fun v => length v = n) 0 (fun v => v = repeat 0 n) /\
  ((1 < n)%nat -> is_min (rosenbrock Rops eig) (fun v => length v = n) 0 (fun v => v = repeat 1 n)).
Proof.
  intros n eig. split; [|split].
  - split; [exists (repeat 0 n); split; [apply repeat_length|reflexivity]|]. intros v L. eexists. split; [reflexivity|]. rewrite rastrigin_R.
    destruct (sum_terms _ 0 v rast_term) as (A & B). rewrite L in B. split; [exact A|exact B].
  - split; [exists (repeat 0 n); split; [apply repeat_length|reflexivity]|]. intros v L. eexists. split; [reflexivity|]. rewrite sphere_R.
    destruct (sum_terms _ 0 v sq_term) as (A & B). rewrite L in B. split; [exact A|exact B].
  - intros N. split; [exists (repeat 1 n); split; [apply repeat_length|reflexivity]|]. intros v L. exists (rosenR v). split; [apply rosenbrock_R; intros ->; cbn in L; lia|].
    destruct (rosen_min v) as (A & B). rewrite L in B. split; [exact A|apply B, N].
Qed.
(** Styblinski-Tang: with std containers the published function, whose minimum is
    about -39.16617 n at (-2.9035, ..., -2.9035). *)
Theorem C72_styblinski_tang : forall v : list R,
  styblinskiTang Rops false v = total (map (fun x => x^4 - 16*x^2 + 5*x) v) / 2 /\
  - (391662/10000) * INR (length v) <= styblinskiTang Rops false v /\
  (forall n, styblinskiTang Rops false (repeat (-29035/10000) n) <= - (391661/10000) * INR n).
Proof.
  intros v. rewrite (proj1 (tang_R v)). split.
  - f_equal. unfold tangR. change total with sumR. apply sumR_map_ext. intros x. ring.
  - pose proof (tang_min v). split; [lra|]. intros n. rewrite (proj1 (tang_R _)). pose proof (tang_at n). lra.
Qed.
(** With Eigen arrays its value is twice that. *)
Theorem C72_styblinski_tang_eigen_refuted : forall v : list R, styblinskiTang Rops true v = 2 * styblinskiTang Rops false v.
Proof. intros v. destruct (tang_R v) as (-> & ->). change (tangR v = 2 * (tangR v / 2)). field. Qed.
(** Rosenbrock's function lacks the square of x_i: it is not the published function. *)
Definition rosenbrock_published2 (x y : R) : R := 100 * (y - x^2)^2 + (1 - x)^2.
Theorem C72_rosenbrock_formula_refuted : forall eig,
  (forall x y, rosenbrock Rops eig [x; y] = Ok (100 * (y - x)^2 + (1 - x)^2)) /\ rosenbrock_published2 2 4 = 1 /\ rosenbrock Rops eig [2; 4] = Ok 401.
Proof.
  intros eig. assert (E : forall x y, rosenbrock Rops eig [x; y] = Ok (100 * (y - x)^2 + (1 - x)^2)).
  { intros x y. rewrite rosenbrock_R by discriminate. unfold rosenR, sumR. cbn [pairs map fold_right fst snd]. f_equal. ring. }
  split; [exact E|]. split; [unfold rosenbrock_published2; lra|]. rewrite E. f_equal. lra.
Qed.
(** No variables: reads past the end (std), failed assertion (Eigen). *)
Theorem C72_rosenbrock_empty_refuted : forall Q, rosenbrock Q false [] = UB /\ rosenbrock Q true [] = Abort.
Proof. intros Q. split; reflexivity. Qed.
Example C72_example : sphere Rops true [1; 2] = 5 /\ rosenbrock Rops false [1; 1; 1] = Ok 0 /\ rastrigin Rops [1; 1] = 2.
Proof.
  split; [rewrite sphere_R; unfold sumR; cbn; lra|]. split; [rewrite rosenbrock_R by discriminate; f_equal; apply (rosen_min [1;1;1]); [cbn; lia|reflexivity]|].
  rewrite rastrigin_R. unfold sumR. cbn [map fold_right]. replace (2 * PI * 1) with (2 * PI) by ring. rewrite cos_2PI. change (num Rops) with R. ring.
Qed.
Print Assumptions C72_documented_minima. Print Assumptions C72_styblinski_tang. Print Assumptions C72_styblinski_tang_eigen_refuted.
Print Assumptions C72_rosenbrock_formula_refuted. Print Assumptions C72_rosenbrock_empty_refuted.

(** ** C73: in double precision *)
(** No rounding error, overflow or NaN makes the computed value negative, for any
    arguments and whatever the C library's sine computes. *)
Definition never_negative (r : res double) : Prop := exists f, r = Ok f /\ flt f d0 = false.
Theorem C73_never_negative : forall (L : libm) (x y : double) (v : list double),
  never_negative (beale (Dops L) [x; y]) /\ never_negative (booth (Dops L) [x; y]) /\ never_negative (himmelblau (Dops L) [x; y]) /\
  never_negative (bukin (Dops L) [x; y]) /\ never_negative (levy (Dops L) [x; y]) /\
  never_negative (Ok (sphere (Dops L) false v)) /\ never_negative (rosenbrock (Dops L) false (x :: v)).
Proof.
  intros L x y v. assert (H : forall r, (exists f, r = Ok f /\ pos f) -> never_negative r) by (intros r (f & E & P); exists f; split; [exact E|apply pos_not_neg, P]).
  repeat split; apply H.
  - apply beale_pos. - apply booth_pos. - apply himmelblau_pos. - apply bukin_pos. - apply levy_pos.
  - eexists. split; [reflexivity|apply sphere_pos]. - apply rosenbrock_pos. discriminate.
Qed.
(** Rastrigin: the same, if the C library's cosine lies in [-1,1] or is NaN and
    there are less than 9e14 variables. *)
Theorem C73_rastrigin_never_negative : forall (L : libm) (v : list double),
  (forall x, is_nan (l_cos L x) = true \/ is_finite (l_cos L x) = true /\ Rabs (B2R (l_cos L x)) <= 1) ->
  (Z.of_nat (length v) <= 900719925474099)%Z -> never_negative (Ok (rastrigin (Dops L) v)).
Proof. intros L v H B. eexists. split; [reflexivity|]. apply rastrigin_low; [exact H|lia]. Qed.
(** At the documented minimum the computed value is exactly zero. *)
Theorem C73_zero_at_minimum : forall (L : libm) n,
  booth (Dops L) [d_of_Z 1; d_of_Z 3] = Ok d0 /\ beale (Dops L) [d_of_Z 3; fofZ 1 (-1)] = Ok d0 /\
  himmelblau (Dops L) [d_of_Z 3; d_of_Z 2] = Ok d0 /\ bukin (Dops L) [d_of_Z (-10); d_of_Z 1] = Ok d0 /\ matyas (Dops L) [d0; d0] = Ok d0 /\
  sphere (Dops L) false (repeat d0 n) = d0 /\ rosenbrock (Dops L) false (repeat (d_of_Z 1) (S n)) = Ok d0.
Proof.
  intros L n. split; [apply d_booth|]. split; [apply d_beale|]. split; [apply d_himmelblau|]. split; [apply d_bukin|]. split; [apply d_matyas|].
  split; [apply d_sphere|apply d_rosenbrock].
Qed.
(** A C library with these properties, and a value which is negative: the
    statement distinguishes. *)
Example C73_example : (forall x, let c := l_cos (mkLibm (fun x => x) (fun _ => d_of_Z 1) (fun x => x) (fun x _ => x) (fun _ => d0)) x in
    is_nan c = true \/ is_finite c = true /\ Rabs (B2R c) <= 1) /\ ~ never_negative (Ok (d_of_Z (-1))).
Proof.
  split.
  - intros x c. right. destruct (d_of_Z_exact 1 ltac:(easy)) as (F & V). split; [exact F|]. unfold c. cbn [l_cos]. rewrite V. rewrite Rabs_pos_eq; lra.
  - intros (f & E & N). injection E as <-. revert N. vm_compute. discriminate.
Qed.
Print Assumptions C73_never_negative. Print Assumptions C73_rastrigin_never_negative. Print Assumptions C73_zero_at_minimum.
