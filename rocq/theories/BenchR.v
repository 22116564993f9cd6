(** The benchmark functions over the real numbers: two variables. *)
From Coq Require Import List Arith ZArith Reals Lra Lia Bool Psatz.
From Verif Require Import Base Bench.
Import ListNotations.
Open Scope R_scope.

Ltac rr := cbn [num lit add sub mul div opp nabs nsqrt nsin ncos nexp powi powq nlt nle m_pi m_e m_2_pi  vsum Rops].
Ltac rrin H := cbn [num lit add sub mul div opp nabs nsqrt nsin ncos nexp powi powq nlt nle m_pi m_e m_2_pi  vsum Rops] in H.

Lemma sq_nonneg (a : R) : 0 <= a * a. Proof. nra. Qed.
Lemma two_sq0 a b : a * a + b * b = 0 -> a = 0 /\ b = 0.
Proof. intros H. pose proof (sq_nonneg a). pose proof (sq_nonneg b). split; nra. Qed.
Lemma three_sq0 a b c : a * a + b * b + c * c = 0 -> a = 0 /\ b = 0 /\ c = 0.
Proof. intros H. pose proof (sq_nonneg a). pose proof (sq_nonneg b). pose proof (sq_nonneg c). repeat split; nra. Qed.
Lemma sq0 a : a * a = 0 -> a = 0. Proof. intros H. nra. Qed.

(** What [r] is the smallest value of [f] on [D], and that exactly the points of [P] have it. *)
Definition bealeR x y := (3/2 - x + x*y) * (3/2 - x + x*y) + (9/4 - x + x*y*y) * (9/4 - x + x*y*y) + (21/8 - x + x*y*y*y) * (21/8 - x + x*y*y*y).
Lemma beale_R x y : beale Rops [x; y] = Ok (bealeR x y).
Proof. unfold beale, two, bealeR, square. rr. f_equal. field. Qed.
Lemma beale_min x y : 0 <= bealeR x y /\ (bealeR x y = 0 <-> x = 3 /\ y = 1/2).
Proof.
  unfold bealeR. split.
  { pose proof (sq_nonneg (3/2 - x + x*y)). pose proof (sq_nonneg (9/4 - x + x*y*y)). pose proof (sq_nonneg (21/8 - x + x*y*y*y)). lra. }
  split.
  - intros H. apply three_sq0 in H. destruct H as (A & B & C).
    assert (x <> 0) by (intros ->; lra).
    assert (Hx : x * (1 - y) = 3/2) by lra. assert (Hy : (x * (1 - y)) * (1 + y) = 9/4) by lra. rewrite Hx in Hy. assert (y = 1/2) by lra. subst y. split; lra.
  - intros (-> & ->). field.
Qed.
Definition boothR x y := (x + 2*y - 7) * (x + 2*y - 7) + (2*x + y - 5) * (2*x + y - 5).
Lemma booth_R x y : booth Rops [x; y] = Ok (boothR x y).
Proof. unfold booth, two, boothR, square. rr. f_equal. field. Qed.
Lemma booth_min x y : 0 <= boothR x y /\ (boothR x y = 0 <-> x = 1 /\ y = 3).
Proof.
  unfold boothR. pose proof (sq_nonneg (x + 2*y - 7)). pose proof (sq_nonneg (2*x + y - 5)). split; [lra|]. split; [|intros (-> & ->); field]. intros Z. apply two_sq0 in Z. lra.
Qed.
Definition bukinR x y := 100 * sqrt (Rabs (y - x*x/100)) + Rabs (x + 10) / 100.
Lemma bukin_R x y : bukin Rops [x; y] = Ok (bukinR x y).
Proof. unfold bukin, two, bukinR. rr. f_equal. replace (y - 1 / 10 ^ 2 * x * x) with (y - x * x / 100) by field. replace (x + 10 / 10 ^ 0) with (x + 10) by field. field. Qed.
Lemma bukin_min x y : 0 <= bukinR x y /\ (bukinR x y = 0 <-> x = -10 /\ y = 1).
Proof.
  unfold bukinR. pose proof (sqrt_pos (Rabs (y - x*x/100))). pose proof (Rabs_pos (x + 10)). split; [lra|]. split.
  - intros Q. assert (A : Rabs (x + 10) = 0) by lra. assert (B : sqrt (Rabs (y - x*x/100)) = 0) by lra.
    apply sqrt_eq_0 in B; [|apply Rabs_pos]. assert (x + 10 = 0) by (unfold Rabs in A; destruct (Rcase_abs (x + 10)); lra).
    assert (y - x*x/100 = 0) by (unfold Rabs in B; destruct (Rcase_abs (y - x*x/100)); lra).
    assert (x = -10) by lra. subst x. split; lra.
  - intros (-> & ->). replace (1 - -10 * -10 / 100) with 0 by field. replace (-10 + 10) with 0 by lra. rewrite Rabs_R0, sqrt_0. field.
Qed.
Definition matyasR x y := 26/100 * (x*x + y*y) - 48/100 * (x*y).
Lemma matyas_R x y : matyas Rops [x; y] = Ok (matyasR x y).
Proof. unfold matyas, two, matyasR. rr. f_equal. field. Qed.
Lemma matyas_min x y : 0 <= matyasR x y /\ (matyasR x y = 0 <-> x = 0 /\ y = 0).
Proof.
  unfold matyasR.
  assert (Q : 26/100 * (x*x + y*y) - 48/100 * (x*y) = 1/50 * (x*x + y*y) + 24/100 * ((x - y)*(x - y))) by field.
  rewrite Q. pose proof (sq_nonneg x). pose proof (sq_nonneg y). pose proof (sq_nonneg (x - y)). split; [lra|].
  split; [|intros (-> & ->); field]. intros Z. split; apply sq0; lra.
Qed.
Definition levyR x y := sin (3*PI*x) * sin (3*PI*x) + (x-1)*(x-1) * (1 + sin (3*PI*y) * sin (3*PI*y)) + (y-1)*(y-1) * (1 + sin (2*PI*y) * sin (2*PI*y)).
Lemma levy_R x y : levy Rops [x; y] = Ok (levyR x y).
Proof.
  unfold levy, two, levyR, square. rr. replace (3 / 10 ^ 0) with 3 by field. replace (2 / 10 ^ 0) with 2 by field. replace (1 / 10 ^ 0) with 1 by field. reflexivity.
Qed.
Lemma sin_kpi n : sin (INR n * PI) = 0.
Proof.
  induction n as [|n IH]; [rewrite Rmult_0_l; apply sin_0|]. rewrite S_INR, Rmult_plus_distr_r, Rmult_1_l, neg_sin, IH. lra.
Qed.
Lemma levy_min x y : 0 <= levyR x y /\ (levyR x y = 0 <-> x = 1 /\ y = 1).
Proof.
  unfold levyR. set (a := sin (3*PI*x)). set (b := sin (3*PI*y)). set (c := sin (2*PI*y)).
  pose proof (sq_nonneg a) as A. pose proof (sq_nonneg (x-1)) as X. pose proof (sq_nonneg (y-1)) as Y.
  pose proof (sq_nonneg b) as B. pose proof (sq_nonneg c) as C.
  assert (XB : (x-1)*(x-1) <= (x-1)*(x-1)*(1+b*b)) by nra. assert (YC : (y-1)*(y-1) <= (y-1)*(y-1)*(1+c*c)) by nra.
  split; [lra|]. split.
  - intros Z. assert (x - 1 = 0) by (apply sq0; lra). assert (y - 1 = 0) by (apply sq0; lra). lra.
  - intros (-> & ->). unfold a. replace (3*PI*1) with (INR 3 * PI) by (cbn; ring). rewrite sin_kpi. ring.
Qed.
Definition himmelblauR x y := (x*x + y - 11) * (x*x + y - 11) + (x + y*y - 7) * (x + y*y - 7).
Lemma himmelblau_R x y : himmelblau Rops [x; y] = Ok (himmelblauR x y).
Proof. unfold himmelblau, two, himmelblauR, square. rr. f_equal. field. Qed.
Lemma himmelblau_min x y : 0 <= himmelblauR x y /\ himmelblauR 3 2 = 0 /\ (himmelblauR x y = 0 <-> x*x + y = 11 /\ x + y*y = 7).
Proof.
  unfold himmelblauR. pose proof (sq_nonneg (x*x + y - 11)). pose proof (sq_nonneg (x + y*y - 7)). split; [lra|]. split; [field|]. split.
  - intros Z. apply two_sq0 in Z. lra.
  - intros (A & B). replace (x*x + y - 11) with 0 by lra. replace (x + y*y - 7) with 0 by lra. ring.
Qed.
Definition camelR x y := 2*(x*x) - 105/100 * (x*x*x*x) + x*x*x*x*x*x/6 + x*y + y*y.
Lemma camel_R x y : threeHumpCamel Rops [x; y] = Ok (camelR x y).
Proof. unfold threeHumpCamel, two, camelR. rr. f_equal. field. Qed.
Lemma camel_min x y : 0 <= camelR x y /\ (camelR x y = 0 <-> x = 0 /\ y = 0).
Proof.
  set (t := x * x). assert (T : 0 <= t) by apply sq_nonneg.
  assert (Q : camelR x y = (y + x/2)*(y + x/2) + t * (7/4 - 105/100 * t + t*t/6)) by (unfold camelR, t; field).
  assert (B : 1/20 <= 7/4 - 105/100 * t + t*t/6).
  { replace (7/4 - 105/100 * t + t*t/6) with ((t - 315/100)*(t - 315/100)/6 + (7/4 - 315*315/60000)) by field. pose proof (sq_nonneg (t - 315/100)). lra. }
  rewrite Q. pose proof (sq_nonneg (y + x/2)) as A. assert (C : 1/20 * t <= t * (7/4 - 105/100 * t + t*t/6)) by nra. split; [lra|]. split.
  - intros Z. assert (x = 0) by (apply sq0; fold t; lra). assert (y + x/2 = 0) by (apply sq0; lra). lra.
  - intros (-> & ->). unfold t. field.
Qed.
Definition easomR x y := - (cos x * cos y * exp (- ((x-PI)*(x-PI) + (y-PI)*(y-PI)))).
Lemma easom_R x y : easom Rops [x; y] = Ok (easomR x y).
Proof.
  unfold easom, two, easomR, square. rr. f_equal.
  replace (- ((x-PI)*(x-PI)) - (y-PI)*(y-PI)) with (- ((x-PI)*(x-PI) + (y-PI)*(y-PI))) by ring. ring.
Qed.
Lemma exp_le_1 t : t <= 0 -> exp t <= 1.
Proof. intros [H| ->]; [left; rewrite <- exp_0; apply exp_increasing, H|rewrite exp_0; lra]. Qed.
Lemma prod_bound a b : -1 <= a <= 1 -> -1 <= b <= 1 -> -1 <= a * b <= 1. Proof. intros; nra. Qed.
Lemma easom_min x y : -1 <= easomR x y /\ (easomR x y = -1 <-> x = PI /\ y = PI).
Proof.
  unfold easomR. set (s := (x-PI)*(x-PI) + (y-PI)*(y-PI)).
  assert (Hs : 0 <= s) by (unfold s; pose proof (sq_nonneg (x-PI)); pose proof (sq_nonneg (y-PI)); lra).
  pose proof (prod_bound _ _ (COS_bound x) (COS_bound y)) as P. set (c := cos x * cos y) in *.
  pose proof (exp_pos (- s)) as E0. pose proof (exp_le_1 (- s) ltac:(lra)) as E1. set (e := exp (- s)) in *. split; [nra|]. split.
  - intros Z. assert (Q : c * e = 1) by lra. assert (e = 1) by nra.
    assert (s = 0). { destruct Hs as [Hs|Hs]; [|lra]. exfalso. assert (exp (- s) < 1) by (rewrite <- exp_0; apply exp_increasing; lra). fold e in H0. lra. }
    unfold s in H0. apply two_sq0 in H0. lra.
  - intros (-> & ->). unfold c, e, s. replace (- ((PI-PI)*(PI-PI) + (PI-PI)*(PI-PI))) with 0 by ring. rewrite exp_0, cos_PI. ring.
Qed.
(** ackley, for any frequency. *)
Definition ackleyR w x y := - (20 * exp (- (sqrt ((x*x + y*y)/2)) / 5)) - exp ((cos (w*x) + cos (w*y))/2) + 20 + exp 1.
Lemma ackley_R x y : ackley Rops [x; y] = Ok (ackleyR (2/PI) x y).
Proof.
  unfold ackley, two, ackleyR. rr. f_equal. replace (5 / 10 ^ 1 * (x * x + y * y)) with ((x*x + y*y)/2) by field.
  replace (-2 / 10 ^ 1 * sqrt ((x*x + y*y)/2)) with (- (sqrt ((x*x + y*y)/2)) / 5) by field.
  replace (5 / 10 ^ 1 * (cos (2 / PI * x) + cos (2 / PI * y))) with ((cos (2 / PI * x) + cos (2 / PI * y)) / 2) by field. field.
Qed.
Lemma exp_le a b : a <= b -> exp a <= exp b.
Proof. intros [H| ->]; [left; apply exp_increasing, H|lra]. Qed.
Lemma ackley_min w x y : 0 <= ackleyR w x y /\ (ackleyR w x y = 0 <-> x = 0 /\ y = 0).
Proof.
  unfold ackleyR. set (r := sqrt ((x*x + y*y)/2)). pose proof (sqrt_pos ((x*x + y*y)/2)) as R0. fold r in R0.
  pose proof (COS_bound (w*x)) as C1. pose proof (COS_bound (w*y)) as C2.
  pose proof (exp_le ((cos (w*x) + cos (w*y))/2) 1 ltac:(lra)) as E1. pose proof (exp_le_1 (- r / 5) ltac:(lra)) as E2. split; [lra|]. split.
  - intros Z. assert (Q : exp (- r / 5) = 1) by lra. assert (r = 0).
    { destruct R0 as [R0|R0]; [|lra]. exfalso. assert (exp (- r / 5) < exp 0) by (apply exp_increasing; lra). rewrite exp_0 in H. lra. }
    unfold r in H. pose proof (sq_nonneg x). pose proof (sq_nonneg y). apply sqrt_eq_0 in H; [|lra]. apply two_sq0. lra.
  - intros (-> & ->). unfold r. replace ((0*0+0*0)/2) with 0 by field. rewrite sqrt_0, !Rmult_0_r, cos_0. replace ((1+1)/2) with 1 by field.
    replace (- 0 / 5) with 0 by field. rewrite exp_0. lra.
Qed.
(** 2/PI in place of 2 PI makes a difference, even at a point with integer coordinates. *)
Lemma cos_2pi_k n : cos (2 * PI * INR n) = 1.
Proof. induction n as [|n IH]; [cbn; rewrite Rmult_0_r; apply cos_0|]. rewrite S_INR. replace (2*PI*(INR n + 1)) with (2*PI*INR n + 2*PI) by ring. rewrite cos_plus, cos_2PI, sin_2PI, IH. ring. Qed.
Lemma cos_lt_1 t : 0 < t <= PI -> cos t < 1.
Proof. intros H. rewrite <- cos_0. apply cos_decreasing_1; lra. Qed.
Lemma two_pi_small : 0 < 2 / PI <= PI.
Proof.
  pose proof PI2_1. assert (0 < 2 / PI) by (apply Rdiv_lt_0_compat; lra). split; [assumption|].
  apply Rmult_le_reg_r with PI; [lra|]. replace (2 / PI * PI) with 2 by (field; lra). nra.
Qed.
Lemma ackley_differs : ackleyR (2*PI) 1 0 < ackleyR (2/PI) 1 0.
Proof.
  unfold ackleyR. rewrite !Rmult_0_r, !Rmult_1_r, cos_0, cos_2PI. pose proof (cos_lt_1 _ two_pi_small).
  assert (exp ((cos (2/PI) + 1)/2) < exp ((1+1)/2)) by (apply exp_increasing; lra). lra.
Qed.
Definition goldsteinR x y :=
  (1 + (x+y+1)*(x+y+1) * (19 - 14*x + 3*(x*x) - 14*y + 6*(x*y) + 3*(y*y))) *
  (30 + (2*x-3*y)*(2*x-3*y) * (18 - 32*x + 12*x + 47*y - 36*(x*y) + 27*(y*y))).
Lemma goldstein_R x y : goldsteinPrice Rops [x; y] = Ok (goldsteinR x y).
Proof. unfold goldsteinPrice, two, goldsteinR, square. rr. f_equal. field. Qed.
(** The published function; its minimum is 3. *)
Definition goldsteinPub x y :=
  (1 + (x+y+1)*(x+y+1) * (19 - 14*x + 3*(x*x) - 14*y + 6*(x*y) + 3*(y*y))) *
  (30 + (2*x-3*y)*(2*x-3*y) * (18 - 32*x + 12*(x*x) + 48*y - 36*(x*y) + 27*(y*y))).
Lemma goldstein_vals : goldsteinR 0 (-1) = 12 /\ goldsteinPub 0 (-1) = 3 /\ goldsteinR 2 0 = -9016.
Proof. unfold goldsteinR, goldsteinPub. repeat split; field. Qed.
(** McCormick on the documented domain. *)
Definition mccormickR x y := sin (x+y) + (x-y)*(x-y) - 3/2*x + 5/2*y + 1.
Lemma mccormick_R x y : mcCormick Rops [x; y] = Ok (mccormickR x y).
Proof. unfold mcCormick, two, mccormickR, square. rr. f_equal. field. Qed.
Lemma sin_le_id t : 0 <= t -> sin t <= t.
Proof. intros [H| <-]; [left; apply sin_lt_x, H|rewrite sin_0; lra]. Qed.
Lemma sqrt3_bounds : 17/10 < sqrt 3.
Proof. rewrite <- (sqrt_square (17/10)) by lra. apply sqrt_lt_1; lra. Qed.
Lemma sin_low a : 0 <= a <= 4 -> a - a*a*a/6 <= sin a.
Proof.
  intros H. destruct (pre_sin_bound a 0 ltac:(lra) ltac:(lra)) as (L & _). refine (Rle_trans _ _ _ _ L). right.
  unfold sin_approx, sin_term. cbn. field.
Qed.
Lemma sin_low7 a : 0 <= a <= 4 -> a - a^3/6 + a^5/120 - a^7/5040 <= sin a.
Proof.
  intros H. destruct (pre_sin_bound a 1 ltac:(lra) ltac:(lra)) as (L & _). refine (Rle_trans _ _ _ _ L). right.
  unfold sin_approx, sin_term. cbn [sum_f_R0 Nat.mul Nat.add].
  change (fact 1) with 1%nat. change (fact 3) with 6%nat. change (fact 5) with 120%nat. change (fact 7) with (Z.to_nat 5040).
  rewrite !INR_IZR_INZ. rewrite Z2Nat.id by lia. cbn [Z.of_nat Pos.of_succ_nat Pos.succ]. field.
Qed.
Lemma PI_gt_3 : 3 < PI.
Proof.
  destruct (Rlt_le_dec 3 PI) as [H|H]; [exact H|]. exfalso. pose proof PI2_1.
  pose proof (sin_low7 3 ltac:(lra)) as A. pose proof (sin_le_0 3 ltac:(lra) ltac:(lra)) as B. lra.
Qed.
Lemma bend t : 0 <= t <= 5/2 -> t - sin t <= sqrt 3 * (1 - cos t).
Proof.
  intros H. set (s := t / 2). assert (T : t = 2 * s) by (unfold s; field).
  pose proof (sin_low t ltac:(lra)) as A. pose proof (sin_low s ltac:(lra)) as B.
  assert (C : 1 - cos t = 2 * (sin s * sin s)) by (rewrite T, cos_2a_sin; ring).
  assert (P : 0 <= s - s*s*s/6) by nra. assert (D : (s - s*s*s/6)*(s - s*s*s/6) <= sin s * sin s) by nra.
  pose proof sqrt3_bounds as Q. rewrite C.
  apply Rle_trans with (t*t*t/6); [lra|].
  apply Rle_trans with (17/10 * (2 * ((s - s*s*s/6)*(s - s*s*s/6)))); [|nra].
  rewrite T. assert (U : 2/3 * s <= 17/10 * ((1 - s*s/6)*(1 - s*s/6))).
  { assert (V : 0 <= s <= 5/4) by lra. assert (W : s*s <= 25/16) by nra.
    assert (X : 71/96 <= 1 - s*s/6) by lra. assert (Y : 71/96*(71/96) <= (1 - s*s/6)*(1 - s*s/6)) by nra. lra. }
  replace (2*s*(2*s)*(2*s)/6) with (2*(s*s) * (2/3*s)) by field.
  replace (17/10 * (2 * ((s - s*s*s/6)*(s - s*s*s/6)))) with (2*(s*s) * (17/10 * ((1 - s*s/6)*(1 - s*s/6)))) by field.
  apply Rmult_le_compat_l; [nra|exact U].
Qed.
Lemma bent u : -9/2 <= u -> - (sqrt 3 / 2) - PI / 3 <= sin u + u / 2.
Proof.
  intros H. set (w := u + 2 * PI / 3). assert (Hu : u = w - 2 * (PI / 3)) by (unfold w; field).
  assert (S : sin u = - (1/2) * sin w - sqrt 3 / 2 * cos w).
  { rewrite Hu, sin_minus. replace (2 * (PI/3)) with (PI - PI/3) by field. rewrite cos_minus, sin_minus, cos_PI, sin_PI, cos_PI3, sin_PI3. field. }
  assert (G : sin u + u/2 - (- (sqrt 3 / 2) - PI / 3) = 1/2 * (w - sin w) + sqrt 3 / 2 * (1 - cos w)) by (rewrite S, Hu at 1; field).
  assert (0 <= 1/2 * (w - sin w) + sqrt 3 / 2 * (1 - cos w)); [|lra].
  pose proof sqrt3_bounds. pose proof (COS_bound w) as Cw. destruct (Rle_lt_dec 0 w) as [W|W].
  - pose proof (sin_le_id w W). nra.
  - pose proof PI_gt_3. pose proof (bend (- w) ltac:(unfold w in *; lra)) as B. rewrite sin_neg, cos_neg in B. lra.
Qed.
Lemma mccormick_min x y : -3/2 <= x -> -3 <= y -> - (sqrt 3 / 2) - PI / 3 <= mccormickR x y.
Proof.
  intros Hx Hy. pose proof (bent (x + y) ltac:(lra)) as B. unfold mccormickR.
  replace (sin (x+y) + (x-y)*(x-y) - 3/2*x + 5/2*y + 1) with (sin (x+y) + (x+y)/2 + ((x-y) - 1)*((x-y) - 1)) by field.
  pose proof (sq_nonneg (x - y - 1)). lra.
Qed.
Lemma mccormick_at : let x := 1/2 - PI/3 in mccormickR x (x - 1) = - (sqrt 3 / 2) - PI / 3 /\ -3/2 <= x <= 4 /\ -3 <= x - 1 <= 4.
Proof.
  intros x. unfold mccormickR, x. replace (1/2 - PI/3 + (1/2 - PI/3 - 1)) with (- (2 * (PI/3))) by field.
  rewrite sin_neg. replace (2 * (PI/3)) with (PI - PI/3) by field. rewrite sin_minus, cos_PI, sin_PI, sin_PI3.
  pose proof PI_gt_3. pose proof PI_4. split; [field|lra].
Qed.
(** schaffer2 and schaffer4. *)
Definition denR x y := (1 + (x*x + y*y)/1000) * (1 + (x*x + y*y)/1000).
Lemma den_ge_1 x y : 1 <= denR x y.
Proof. unfold denR. pose proof (sq_nonneg x). pose proof (sq_nonneg y). nra. Qed.
Definition schaffer2R x y := 1/2 + (sin (x*x - y*y) - 1/2) * (sin (x*x - y*y) - 1/2) / denR x y.
Lemma schaffer2_R x y : schaffer2 Rops [x; y] = Ok (schaffer2R x y).
Proof.
  pose proof (den_ge_1 x y) as D. unfold schaffer2, two, schaffer2R, square. rr. f_equal. replace (5 / 10 ^ 1) with (1/2) by field.
  replace (1 / 10 ^ 0 + 1 / 10 ^ 3 * (x * x + y * y)) with (1 + (x*x + y*y)/1000) by field. reflexivity.
Qed.
Lemma schaffer2_low x y : 1/2 <= schaffer2R x y /\ schaffer2R 0 0 = 3/4.
Proof.
  unfold schaffer2R. pose proof (den_ge_1 x y) as D. split.
  - assert (0 <= (sin (x*x - y*y) - 1/2) * (sin (x*x - y*y) - 1/2) / denR x y); [|lra]. apply Rmult_le_pos; [apply sq_nonneg|left; apply Rinv_0_lt_compat; lra].
  - unfold denR. replace (0*0-0*0) with 0 by ring. rewrite sin_0. field.
Qed.
Definition schaffer4R x y := 1/2 + (cos (sin (Rabs (x*x - y*y))) * cos (sin (Rabs (x*x - y*y))) - 1/2) / denR x y.
Lemma schaffer4_R x y : schaffer4 Rops [x; y] = Ok (schaffer4R x y).
Proof.
  unfold schaffer4, two, schaffer4R, square. rr. f_equal. replace (5 / 10 ^ 1) with (1/2) by field.
  replace (1 / 10 ^ 0 + 1 / 10 ^ 3 * (x * x + y * y)) with (1 + (x*x + y*y)/1000) by field. reflexivity.
Qed.
Lemma cos_sin_ge t : cos 1 <= cos (sin t).
Proof.
  pose proof (SIN_bound t) as B. pose proof PI_gt_3. assert (H1 : forall s, 0 <= s <= 1 -> cos 1 <= cos s).
  { intros s Hs. destruct (Req_dec s 1) as [->|N]; [lra|]. left. apply cos_decreasing_1; lra. }
  destruct (Rle_lt_dec 0 (sin t)) as [P|P]; [apply H1; lra|]. rewrite <- (cos_neg (sin t)). apply H1. lra.
Qed.
Lemma cos1 : 0 < cos 1.
Proof. pose proof PI_gt_3. apply cos_gt_0; lra. Qed.
Lemma half_div (q d lo hi : R) : 1 <= d -> lo <= q <= hi -> lo <= 1/2 <= hi -> lo <= 1/2 + (q - 1/2) / d <= hi.
Proof.
  intros D Q L. assert (I : 0 < / d <= 1).
  { split; [apply Rinv_0_lt_compat; lra|]. rewrite <- Rinv_1. apply Rinv_le_contravar; lra. }
  unfold Rdiv at 2 3. nra.
Qed.
Lemma cos1_half : cos 1 * cos 1 <= 1/2.
Proof.
  pose proof PI_gt_3. pose proof PI_4. assert (cos 1 <= cos (PI/4)) by (destruct (Req_dec 1 (PI/4)) as [<-|N]; [lra|]; left; apply cos_decreasing_1; lra).
  assert (C : cos (PI/4) * cos (PI/4) = 1/2). { rewrite cos_PI4. unfold Rdiv. rewrite !Rmult_1_l. rewrite <- Rinv_mult. rewrite sqrt_sqrt by lra. reflexivity. }
  pose proof cos1. nra.
Qed.
Lemma schaffer4_bounds x y : cos 1 * cos 1 <= schaffer4R x y <= 1.
Proof.
  apply half_div; [apply den_ge_1| |pose proof cos1_half; lra].
  pose proof (cos_sin_ge (Rabs (x*x - y*y))). pose proof (COS_bound (sin (Rabs (x*x - y*y)))). pose proof cos1. nra.
Qed.
(** ... and comes within 0.0017 of the lower bound. *)
Lemma schaffer4_at : schaffer4R 0 (sqrt (PI/2)) = 1/2 + (cos 1 * cos 1 - 1/2) / ((1 + PI/2000)*(1 + PI/2000)).
Proof.
  pose proof PI_gt_3. unfold schaffer4R, denR. rewrite sqrt_sqrt by lra. replace (0*0 - PI/2) with (- (PI/2)) by ring.
  rewrite Rabs_Ropp, Rabs_pos_eq by lra. rewrite sin_PI2. do 3 f_equal; field.
Qed.
(** crossInTray, eggHolder. *)
Definition trayR x y := - Rpow (1 + Rabs (sin x * sin y * exp (Rabs (100 - sqrt (x*x + y*y) / PI)))) (1/10) / 10000.
Lemma tray_R x y : crossInTray Rops [x; y] = Ok (trayR x y).
Proof.
  unfold crossInTray, two, trayR. rr. f_equal. replace (100 / 10 ^ 0) with 100 by field. replace (1 / 10 ^ 0) with 1 by field.
  replace (1 / 10 ^ 1) with (1/10) by field. field.
Qed.
Lemma tray_sym x y : trayR (- x) y = trayR x y /\ trayR x (- y) = trayR x y /\ trayR y x = trayR x y.
Proof.
  unfold trayR. repeat split.
  - rewrite sin_neg. replace (- sin x * sin y * exp (Rabs (100 - sqrt (- x * - x + y * y) / PI))) with (- (sin x * sin y * exp (Rabs (100 - sqrt (x * x + y * y) / PI)))).
    + rewrite Rabs_Ropp. reflexivity.
    + replace (- x * - x) with (x * x) by ring. ring.
  - rewrite sin_neg. replace (sin x * - sin y * exp (Rabs (100 - sqrt (x * x + - y * - y) / PI))) with (- (sin x * sin y * exp (Rabs (100 - sqrt (x * x + y * y) / PI)))).
    + rewrite Rabs_Ropp. reflexivity.
    + replace (- y * - y) with (y * y) by ring. ring.
  - rewrite (Rplus_comm (y*y)), (Rmult_comm (sin y)). reflexivity.
Qed.
