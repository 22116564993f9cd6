(** The multi-objective benchmark functions over the real numbers. *)
From Coq Require Import List Arith ZArith Reals Lra Lia Bool Psatz.
From Verif Require Import Base ListFacts Bench BenchR BenchN.
Import ListNotations.
Open Scope R_scope.

(** [a] dominates [b] (smaller is better), and optimality in that sense. *)
Definition dominatesR (a b : list R) : Prop := Forall2 Rle a b /\ a <> b.
Definition paretoR {X} (f : X -> res (list R)) (D : X -> Prop) (x : X) : Prop :=
  D x /\ exists a, f x = Ok a /\ forall y b, D y -> f y = Ok b -> ~ dominatesR b a.

Lemma dom2 a b c d : dominatesR [a; b] [c; d] <-> a <= c /\ b <= d /\ (a < c \/ b < d).
Proof.
  unfold dominatesR. split.
  - intros (F & N). inversion F as [|? ? ? ? H1 F1]; subst. inversion F1 as [|? ? ? ? H2 F2]; subst. split; [exact H1|]. split; [exact H2|].
    destruct (Rle_lt_or_eq_dec _ _ H1) as [L|Q]; [auto|]. destruct (Rle_lt_or_eq_dec _ _ H2) as [L|Q']; [auto|]. subst. congruence.
  - intros (A & B & C). split; [constructor; [exact A|constructor; [exact B|constructor]]|]. intros Q. injection Q as -> ->. lra.
Qed.

(** Schaffer's first function *)
Lemma schaffer1_R x : schaffer1_mo Rops [x] = Ok [x*x; (x - 2)*(x - 2)].
Proof. unfold schaffer1_mo, one, square. rr. replace (2 / 10 ^ 0) with 2 by field. reflexivity. Qed.
Lemma schaffer1_front x : paretoR (fun t => schaffer1_mo Rops [t]) (fun _ => True) x <-> 0 <= x <= 2.
Proof.
  unfold paretoR. split.
  - intros (_ & a & Ha & N). rewrite schaffer1_R in Ha. injection Ha as <-. destruct (Rlt_le_dec x 0) as [L|L].
    + exfalso. apply (N 0 _ I (schaffer1_R 0)). apply dom2. repeat split; nra.
    + destruct (Rle_lt_dec x 2) as [L2|L2]; [lra|]. exfalso. apply (N 2 _ I (schaffer1_R 2)). apply dom2. repeat split; nra.
  - intros H. split; [exact I|]. eexists. split; [apply schaffer1_R|]. intros y b _ Hb. rewrite schaffer1_R in Hb. injection Hb as <-.
    rewrite dom2. intros (A & B & C).
    assert (y <= x) by nra. assert (x - 2 <= 0) by lra. assert (x <= y) by nra. assert (x = y) by lra. subst. lra.
Qed.
(** Schaffer's second function: the branches of the code ... *)
Lemma schaffer2_mo_R x : schaffer2_mo Rops [x] = Ok [if Rle_dec x 1 then - x else 4 - x; (x - 5)*(x - 5)].
Proof.
  unfold schaffer2_mo, one, square. rr. replace (5 / 10 ^ 0) with 5 by field. replace (4 / 10 ^ 0) with 4 by field. replace (1 / 10 ^ 0) with 1 by field.
  replace (-3 / 10 ^ 0) with (-3) by field. unfold Rleb. destruct (Rle_dec x 1); [reflexivity|]. destruct (Rle_dec x (-3)); [lra|].
  destruct (Rle_dec x 4); reflexivity.
Qed.
(** ... and the published ones. *)
Definition schaffer2_pub (x : R) : list R :=
  [if Rle_dec x 1 then - x else if Rle_dec x 3 then x - 2 else if Rle_dec x 4 then 4 - x else x - 4; (x - 5)*(x - 5)].
Ltac cases := repeat match goal with
  | |- context[Rle_dec ?a ?b] => destruct (Rle_dec a b)
  | H : context[Rle_dec ?a ?b] |- _ => destruct (Rle_dec a b)
  end.
Lemma schaffer2_pub_front x : paretoR (fun t => Ok (schaffer2_pub t)) (fun _ => True) x <-> (1 <= x < 2 \/ 4 <= x <= 5).
Proof.
  unfold paretoR, schaffer2_pub. split.
  - intros (_ & a & Ha & N). injection Ha as <-. assert (N' : forall y, ~ dominatesR (schaffer2_pub y) (schaffer2_pub x)) by (intros y; apply (N y _ I eq_refl)). clear N.
    unfold schaffer2_pub in N'. setoid_rewrite dom2 in N'.
    destruct (Rlt_le_dec x 1) as [L|L]; [exfalso; apply (N' 1); cases; try lra; repeat split; nra|].
    destruct (Rlt_le_dec x 2) as [L2|L2]; [lra|].
    destruct (Rlt_le_dec x 4) as [L4|L4]; [exfalso; apply (N' 4); cases; try lra; repeat split; nra|].
    destruct (Rle_lt_dec x 5) as [L5|L5]; [lra|]. exfalso. apply (N' 5). cases; try lra; repeat split; nra.
  - intros H. split; [exact I|]. eexists. split; [reflexivity|]. intros y b _ Hb. injection Hb as <-. rewrite dom2. intros (A & B & C).
    assert (Q : x <= y <= 10 - x) by (split; nra). assert (N : x <> y) by (intros ->; lra). clear B C. cases; lra.
Qed.
Lemma schaffer2_mo_front x : paretoR (fun t => schaffer2_mo Rops [t]) (fun _ => True) x <-> 5 <= x.
Proof.
  unfold paretoR. split.
  - intros (_ & a & Ha & N). rewrite schaffer2_mo_R in Ha. injection Ha as <-.
    destruct (Rle_lt_dec 5 x) as [L|L]; [exact L|]. exfalso. apply (N 5 _ I (schaffer2_mo_R 5)). apply dom2. cases; try lra; repeat split; nra.
  - intros H. split; [exact I|]. eexists. split; [apply schaffer2_mo_R|]. intros y b _ Hb. rewrite schaffer2_mo_R in Hb. injection Hb as <-.
    rewrite dom2. intros (A & B & C).
    assert (Q : 10 - x <= y <= x) by (split; nra). assert (N : x <> y) by (intros ->; lra). clear B C. cases; lra.
Qed.

(** BinhKorn, ChangkongHaimes: penalties *)
Definition penR (g f : R) : R := if Rlt_dec 0 g then f + (100000 + g) else f.
Lemma pen_R g f : penalise Rops g f = penR g f.
Proof. unfold penalise, penR. rr. unfold Rltb. replace (0 / 10 ^ 0) with 0 by field. replace (100000 / 10 ^ 0) with 100000 by field. destruct (Rlt_dec 0 g); reflexivity. Qed.
Definition bk1 x y := (x-5)*(x-5) + y*y - 25.
Definition bk2 x y := 77/10 - (x-8)*(x-8) - (y+3)*(y+3).
Definition binhR x y := [penR (bk1 x y) (4*(x*x) + 4*(y*y)); penR (bk2 x y) ((x-5)*(x-5) + (y-5)*(y-5))].
Lemma binh_R f x y : binhKorn Rops true [x; y] f = Ok (binhR x y).
Proof.
  unfold binhKorn, two_mo, resized, binhR, bk1, bk2. rewrite !pen_R. unfold square. rr. cbn [orb]. do 2 f_equal; [|do 2 f_equal]; try f_equal; field.
Qed.
Definition ch1 x y := x*x + y*y - 225.
Definition ch2 x y := x - 3*y + 10.
Definition changR x y := [penR (ch1 x y) (2 + (x-2)*(x-2) + (y-1)*(y-1)); penR (ch2 x y) (9*x - (y-1)*(y-1))].
Lemma chang_R f x y : changkongHaimes Rops true [x; y] f = Ok (changR x y).
Proof.
  unfold changkongHaimes, two_mo, resized, changR, ch1, ch2. rewrite !pen_R. unfold square. rr. cbn [orb]. do 2 f_equal; [|do 2 f_equal]; try f_equal; field.
Qed.
Lemma pen_feasible g f : g <= 0 -> penR g f = f.
Proof. unfold penR. destruct (Rlt_dec 0 g); [lra|reflexivity]. Qed.
Lemma pen_infeasible g f : 0 < g -> f + 100000 < penR g f.
Proof. unfold penR. destruct (Rlt_dec 0 g); lra. Qed.
Lemma pen_ge g f : f <= penR g f.
Proof. unfold penR. destruct (Rlt_dec 0 g); lra. Qed.
Lemma no_infeasible_dominates g1 g2 a b c d lo1 hi1 lo2 hi2 :
  (0 < g1 \/ 0 < g2) -> lo1 <= a -> lo2 <= b -> c <= hi1 -> d <= hi2 -> hi1 <= lo1 + 100000 -> hi2 <= lo2 + 100000 ->
  ~ dominatesR [penR g1 a; penR g2 b] [c; d].
Proof.
  intros G A B C D L1 L2. rewrite dom2. intros (X & Y & _). destruct G as [G|G].
  - pose proof (pen_infeasible g1 a G). lra.
  - pose proof (pen_infeasible g2 b G). lra.
Qed.
Definition feasible2 (g1 g2 : R -> R -> R) x y : Prop := g1 x y <= 0 /\ g2 x y <= 0.
Lemma not_feasible g1 g2 x y : ~ feasible2 g1 g2 x y -> 0 < g1 x y \/ 0 < g2 x y.
Proof. unfold feasible2. intros H. destruct (Rlt_le_dec 0 (g1 x y)); [auto|]. destruct (Rlt_le_dec 0 (g2 x y)); [auto|]. exfalso. auto. Qed.
Lemma sq_le a b : Rabs a <= b -> a * a <= b * b.
Proof. intros H. pose proof (Rabs_pos a). replace (a * a) with (Rabs a * Rabs a) by (unfold Rabs; destruct (Rcase_abs a); ring). nra. Qed.
Lemma binh_feasible x y : feasible2 bk1 bk2 x y -> binhR x y = [4*(x*x) + 4*(y*y); (x-5)*(x-5) + (y-5)*(y-5)].
Proof. intros (A & B). unfold binhR. rewrite !pen_feasible by assumption. reflexivity. Qed.
Lemma binh_infeasible x y x' y' : 0 <= x <= 5 -> 0 <= y <= 3 -> 0 <= x' <= 5 -> 0 <= y' <= 3 ->
  ~ feasible2 bk1 bk2 x y -> feasible2 bk1 bk2 x' y' -> ~ dominatesR (binhR x y) (binhR x' y').
Proof.
  intros X Y X' Y' N F. rewrite (binh_feasible x' y' F). unfold binhR.
  apply (no_infeasible_dominates _ _ _ _ _ _ 0 136 0 50); try lra; [apply not_feasible, N|..]; nra.
Qed.
Lemma chang_feasible x y : feasible2 ch1 ch2 x y -> changR x y = [2 + (x-2)*(x-2) + (y-1)*(y-1); 9*x - (y-1)*(y-1)].
Proof. intros (A & B). unfold changR. rewrite !pen_feasible by assumption. reflexivity. Qed.
Lemma chang_infeasible x y x' y' : -20 <= x <= 20 -> -20 <= y <= 20 -> -20 <= x' <= 20 -> -20 <= y' <= 20 ->
  ~ feasible2 ch1 ch2 x y -> feasible2 ch1 ch2 x' y' -> ~ dominatesR (changR x y) (changR x' y').
Proof.
  intros X Y X' Y' N F. rewrite (chang_feasible x' y' F). unfold changR.
  assert (S : forall a b, -20 <= b <= 20 -> 0 <= a <= 2 -> (b - a)*(b - a) <= 22*22) by (intros a b Hb Ha; apply sq_le; apply Rabs_le; lra).
  pose proof (S 2 x X ltac:(lra)). pose proof (S 1 y Y ltac:(lra)). pose proof (S 2 x' X' ltac:(lra)). pose proof (S 1 y' Y' ltac:(lra)).
  pose proof (sq_nonneg (x-2)). pose proof (sq_nonneg (y-1)). pose proof (sq_nonneg (x'-2)). pose proof (sq_nonneg (y'-1)).
  apply (no_infeasible_dominates _ _ _ _ _ _ 0 1000 (-1000) 200); try lra. apply not_feasible, N.
Qed.

(** Poloni, viennet *)
Lemma poloni_R fo x y : exists a b, poloni Rops true [x; y] fo = Ok [1 + a*a + b*b; (x+3)*(x+3) + (y+1)*(y+1)].
Proof.
  eexists. eexists. unfold poloni, two_mo, resized, square. rr. cbn [orb]. replace (1 / 10 ^ 0) with 1 by field.
  replace (3 / 10 ^ 0) with 3 by field. reflexivity.
Qed.
Definition viennetR x y := let s := x*x + y*y in
  [s/2 + sin s; (2*x - 2*y + 4)*(2*x - 2*y + 4)/8 + (x - y + 1)*(x - y + 1)/27 + 15; 1/(s + 1) - 11/10 * exp (- s)].
Definition viennetPub x y := let s := x*x + y*y in
  [s/2 + sin s; (3*x - 2*y + 4)*(3*x - 2*y + 4)/8 + (x - y + 1)*(x - y + 1)/27 + 15; 1/(s + 1) - 11/10 * exp (- s)].
Lemma viennet_R fo x y : viennet Rops true [x; y] fo = Ok (viennetR x y).
Proof.
  unfold viennet, two_mo, resized, viennetR, square. rr. cbn [orb]. replace (1 / 10 ^ 0) with 1 by field. replace (2 / 10 ^ 0) with 2 by field.
  replace (4 / 10 ^ 0) with 4 by field. replace (8 / 10 ^ 0) with 8 by field. replace (27 / 10 ^ 0) with 27 by field.
  replace (15 / 10 ^ 0) with 15 by field. replace (11 / 10 ^ 1) with (11/10) by field. reflexivity.
Qed.
Lemma exp_neg_le s : 0 <= s -> exp (- s) <= 1/(s + 1).
Proof.
  intros H. assert (E : 1 + s <= exp s) by (destruct H as [H| <-]; [left; apply exp_ineq1; lra|rewrite exp_0; lra]).
  rewrite exp_Ropp. unfold Rdiv. rewrite Rmult_1_l. apply Rinv_le_contravar; lra.
Qed.
Lemma half_plus_sin s : 0 <= s -> 0 <= s/2 + sin s.
Proof.
  intros H. destruct (Rle_lt_dec s PI) as [L|L].
  - pose proof (sin_ge_0 s H L). lra.
  - pose proof (SIN_bound s). pose proof PI_gt_3. lra.
Qed.
Lemma viennet_bounds x y : exists f1 f2 f3, viennetR x y = [f1; f2; f3] /\ 0 <= f1 /\ 15 < f2 /\ -1/10 <= f3.
Proof.
  do 3 eexists. split; [reflexivity|]. set (s := x*x + y*y). assert (S : 0 <= s) by (unfold s; pose proof (sq_nonneg x); pose proof (sq_nonneg y); lra).
  split; [apply half_plus_sin, S|]. split.
  - set (d := x - y). replace (2*x - 2*y + 4) with (2*d + 4) by (unfold d; ring). replace (x - y + 1) with (d + 1) by (unfold d; ring).
    pose proof (sq_nonneg (d + 2)). pose proof (sq_nonneg (d + 1)). pose proof (sq_nonneg (2*d + 3)). nra.
  - pose proof (exp_neg_le s S). pose proof (exp_le_1 (- s) ltac:(lra)). pose proof (exp_pos (- s)). lra.
Qed.
