(** The DTLZ problems over the real numbers. *)
From Coq Require Import List Arith ZArith Reals Lra Lia Bool Psatz.
From Verif Require Import Base ListFacts Bench BenchR BenchN BenchMO.
Import ListNotations.
Open Scope R_scope.

(** The sum of the k-th powers. *)
Definition norm (k : nat) (f : list R) : R := sumR (map (fun v => v ^ k) f).
Lemma norm_cons k x f : norm k (x :: f) = x ^ k + norm k f.
Proof. reflexivity. Qed.
Lemma norm_nonneg k f : Forall (Rle 0) f -> 0 <= norm k f.
Proof.
  intros H. apply sumR_nonneg. intros y Hy. apply in_map_iff in Hy. destruct Hy as (x & <- & Hx). rewrite Forall_forall in H. apply pow_le, H, Hx.
Qed.
Lemma norm_scale k c f : norm k (map (Rmult c) f) = c ^ k * norm k f.
Proof.
  unfold norm. rewrite map_map. rewrite <- (sumR_map_scal (fun v => v ^ k)). apply sumR_map_ext. intros x. apply Rpow_mult_distr.
Qed.
Lemma pow_lt_strict k x y : (0 < k)%nat -> 0 <= x < y -> x ^ k < y ^ k.
Proof.
  intros K (X & L). destruct k as [|k]; [lia|]. clear K. induction k as [|k IH]; [cbn; lra|].
  change (x * x ^ S k < y * y ^ S k). apply Rmult_le_0_lt_compat; [exact X|apply pow_le, X|exact L|exact IH].
Qed.
Lemma norm_mono k a : forall b, (0 < k)%nat -> Forall (Rle 0) a -> Forall2 Rle a b -> norm k a <= norm k b.
Proof.
  induction a as [|x a IH]; intros b K P F; inversion F as [|? y ? b' H1 F1]; subst; [lra|].
  inversion P as [|? ? P1 P2]; subst. rewrite !norm_cons. specialize (IH _ K P2 F1).
  assert (x ^ k <= y ^ k) by (apply pow_incr; lra). lra.
Qed.
Lemma norm_strict k a : forall b, (0 < k)%nat -> Forall (Rle 0) a -> dominatesR a b -> norm k a < norm k b.
Proof.
  induction a as [|x a IH]; intros b K P (F & N); inversion F as [|? y ? b' H1 F1]; subst; [congruence|].
  inversion P as [|? ? P1 P2]; subst. rewrite !norm_cons. destruct (Rle_lt_or_eq_dec _ _ H1) as [L|Q].
  - pose proof (pow_lt_strict k x y K ltac:(lra)). pose proof (norm_mono k a b' K P2 F1). lra.
  - subst y. assert (norm k a < norm k b'); [|lra]. apply IH; [exact K|exact P2|]. split; [exact F1|]. congruence.
Qed.

(** The cascade of products. *)
Section Cascade.
Context (la fi : R -> R).
Notation cas := (cascade Rops la fi).
Lemma cascade_length ys : forall (p : R) (f : list R), length (cas p ys f) = (length ys + S (length f))%nat.
Proof. induction ys as [|y ys IH]; intros p f; cbn [cascade length]; change (num Rops) with R; [lia|]. rewrite IH. cbn [length]. change (num Rops) with R. lia. Qed.
Lemma cascade_norm k (H : forall y, la y ^ k + fi y ^ k = 1) ys : forall (p : R) (f : list R), norm k (cas p ys f) = p ^ k + norm k f.
Proof.
  induction ys as [|y ys IH]; intros p f; cbn [cascade]; [reflexivity|]. rewrite IH, norm_cons. rr. rewrite !Rpow_mult_distr.
  specialize (H y). replace (p ^ k * fi y ^ k + (p ^ k * la y ^ k + norm k f)) with (p ^ k * (la y ^ k + fi y ^ k) + norm k f) by ring. rewrite H. ring.
Qed.
Lemma cascade_nonneg ys : forall (p : R) (f : list R), 0 <= p -> Forall (Rle 0) f -> Forall (fun y => 0 <= la y /\ 0 <= fi y) ys -> Forall (Rle 0) (cas p ys f).
Proof.
  induction ys as [|y ys IH]; intros p f P F Y; cbn [cascade]; [constructor; assumption|]. inversion Y as [|? ? (Y1 & Y2) Y3]; subst.
  apply IH; [|constructor; [|exact F]|exact Y3]; rr; apply Rmult_le_pos; assumption.
Qed.
Lemma cascade_scale (c : R) ys : forall (p : R) (f : list R), cas (c * p) ys (map (Rmult c) f) = map (Rmult c) (cas p ys f).
Proof.
  induction ys as [|y ys IH]; intros p f; cbn [cascade]; [reflexivity|]. rr. rewrite <- IH. cbn [map].
  replace (c * p * fi y) with (c * (p * fi y)) by ring. replace (c * p * la y) with (c * (p * la y)) by ring. reflexivity.
Qed.
Lemma cascade_scale1 (c : R) ys : cas c ys [] = map (Rmult c) (cas 1 ys []).
Proof. rewrite <- cascade_scale. cbn [map]. rewrite Rmult_1_r. reflexivity. Qed.
End Cascade.
Lemma cascade_ext la fi la' fi' (HL : forall y : R, la y = la' y) (HF : forall y : R, fi y = fi' y) ys : forall (p : R) (f : list R),
  cascade Rops la fi p ys f = cascade Rops la' fi' p ys f.
Proof. induction ys as [|y ys IH]; intros p f; cbn [cascade]; [reflexivity|]. rewrite HL, HF. apply IH. Qed.

(** The functions g. *)
Lemma half : 5 / 10 ^ 1 = 1/2.
Proof. field. Qed.
Definition rastrigin_g (xs : list R) : R := 100 * sumR (map (fun x => (x - 1/2)*(x - 1/2) + (1 - cos (20*PI*(x - 1/2)))) xs).
Definition sphere_g (xs : list R) : R := sumR (map (fun x => (x - 1/2)*(x - 1/2)) xs).
Lemma xm_length (x : list R) M : (1 <= M <= length x)%nat -> Z.of_nat (length (xm Rops x M)) = (Z.of_nat (length x) - Z.of_nat M + 1)%Z.
Proof. intros H. unfold xm. change (@skipn (num Rops)) with (@skipn R). rewrite skipn_length. lia. Qed.
Lemma g_rastrigin_R eig (x : list R) M : (1 <= M <= length x)%nat -> g_rastrigin Rops eig x M = rastrigin_g (xm Rops x M).
Proof.
  intros H. pose proof (xm_length x M H) as E. unfold g_rastrigin. rr. change (@length (num Rops) x) with (@length R x).
  rewrite <- E, <- INR_IZR_INZ. set (xs := xm Rops x M). change (num Rops) with R in xs. unfold rastrigin_g.
  rewrite (sumR_map_ext (fun x => (x - 1/2)*(x - 1/2) + (1 - cos (20*PI*(x - 1/2)))) (fun x => 1 + ((x - 1/2)*(x - 1/2) - cos (20*PI*(x - 1/2))))) by (intros; ring).
  rewrite (sumR_map_plus (fun _ => 1)), sumR_map_const, half.
  replace (20 / 10 ^ 0) with 20 by field. replace (100 / 10 ^ 0) with 100 by field. destruct eig.
  - unfold sumR. change (num Rops) with R. cbn [pow]. field_simplify_eq. ring.
  - change (num Rops) with R. rewrite (fold_left_sum (fun xi => 100 * ((xi - 1/2) * (xi - 1/2) - cos (20*PI*(xi - 1/2)))) xs), sumR_map_scal.
    cbn [pow]. field.
Qed.
Lemma g_sphere_R eig (x : list R) M : g_sphere Rops eig x M = sphere_g (xm Rops x M).
Proof.
  unfold g_sphere, sphere_g, square. rr. rewrite half. set (xs := xm Rops x M). change (num Rops) with R in xs. destruct eig; [reflexivity|].
  change (num Rops) with R. rewrite (fold_left_sum (fun xi => (xi - 1/2)*(xi - 1/2)) xs). cbn [pow]. field.
Qed.
Lemma rastrigin_g_min xs : 0 <= rastrigin_g xs /\ (rastrigin_g xs = 0 <-> xs = repeat (1/2) (length xs)).
Proof.
  destruct (sum_terms (fun x => (x - 1/2)*(x - 1/2) + (1 - cos (20*PI*(x - 1/2)))) (1/2) xs) as (A & B).
  - intros x. pose proof (sq_nonneg (x - 1/2)). pose proof (COS_bound (20*PI*(x - 1/2))). split; [lra|]. split.
    + intros Z. assert (x - 1/2 = 0) by (apply sq0; lra). lra.
    + intros ->. replace (1/2 - 1/2) with 0 by ring. rewrite !Rmult_0_r, cos_0. ring.
  - unfold rastrigin_g. split; [lra|]. rewrite <- B. lra.
Qed.
Lemma sphere_g_min xs : 0 <= sphere_g xs /\ (sphere_g xs = 0 <-> xs = repeat (1/2) (length xs)).
Proof.
  apply sum_terms. intros x. split; [apply sq_nonneg|]. split; [intros Z; assert (x - 1/2 = 0) by (apply sq0; lra); lra|]. intros ->. ring.
Qed.

(** The unit cube, and the optimal points: those with the last variables all one half. *)
Definition cube (N : nat) (x : list R) : Prop := length x = N /\ Forall (fun v => 0 <= v <= 1) x.
Section Front.
Context (F : list R -> res (list R)) (N M k : nat) (c : R) (la fi : R -> R) (g : list R -> R).
Hypothesis KM : (0 < k)%nat /\ (1 <= M <= N)%nat.
Hypothesis C : 0 < c.
Hypothesis FE : forall x : list R, length x = N ->
  F x = Ok (cascade Rops la fi (c * (1 + g (skipn (M - 1) x))) (firstn (M - 1) x) []).
Hypothesis G : forall xs, 0 <= g xs /\ (g xs = 0 <-> xs = repeat (1/2) (length xs)).
Hypothesis P1 : forall y, la y ^ k + fi y ^ k = 1.
Hypothesis P0 : forall y, 0 <= y <= 1 -> 0 <= la y /\ 0 <= fi y.
Lemma front_value x : length x = N -> exists f, F x = Ok f /\ length f = M /\ norm k f = (c * (1 + g (skipn (M - 1) x))) ^ k.
Proof.
  intros L. eexists. split; [apply FE, L|]. split.
  - rewrite cascade_length. cbn [length]. rewrite firstn_length. change (num Rops) with R in *. rewrite Nat.min_l; lia.
  - rewrite (cascade_norm _ _ _ P1). unfold norm, sumR. cbn [map fold_right]. ring.
Qed.
Lemma head_cube x : cube N x -> Forall (fun y => 0 <= la y /\ 0 <= fi y) (firstn (M - 1) x).
Proof.
  intros (_ & H). apply Forall_forall. intros y Hy. apply P0. rewrite Forall_forall in H. apply H.
  rewrite <- (firstn_skipn (M - 1) x). apply in_or_app. left. exact Hy.
Qed.
Lemma front_nonneg x f : cube N x -> F x = Ok f -> Forall (Rle 0) f.
Proof.
  intros D E. rewrite FE in E by apply D. injection E as <-. apply cascade_nonneg; [|constructor|apply head_cube, D].
  destruct (G (skipn (M - 1) x)) as (G0 & _). apply Rmult_le_pos; lra.
Qed.
Lemma front_set x : cube N x -> (paretoR F (cube N) x <-> skipn (M - 1) x = repeat (1/2) (N - (M - 1))).
Proof.
  intros D. pose proof D as (L & B). assert (LS : length (skipn (M - 1) x) = (N - (M - 1))%nat) by (rewrite skipn_length; lia).
  split.
  - intros (_ & a & Ha & NP). pose proof (G (skipn (M - 1) x)) as (G0 & G1). rewrite LS in G1. apply G1.
    destruct G0 as [G0|G0]; [exfalso|auto].
    set (x' := firstn (M - 1) x ++ repeat (1/2) (N - (M - 1))).
    assert (LF : length (firstn (M - 1) x) = (M - 1)%nat) by (rewrite firstn_length; lia).
    assert (D' : cube N x').
    { split; [unfold x'; rewrite app_length, repeat_length, LF; lia|]. unfold x'. apply Forall_app. split.
      - apply Forall_forall. intros y Hy. rewrite Forall_forall in B. apply B. rewrite <- (firstn_skipn (M - 1) x). apply in_or_app. left. exact Hy.
      - apply Forall_forall. intros y Hy. apply repeat_spec in Hy. subst. lra. }
    assert (HF : firstn (M - 1) x' = firstn (M - 1) x).
    { unfold x'. rewrite firstn_app, LF, Nat.sub_diag. cbn [firstn]. rewrite app_nil_r, <- LF at 1. rewrite LF.
      rewrite firstn_firstn, Nat.min_id. reflexivity. }
    assert (HS : skipn (M - 1) x' = repeat (1/2) (N - (M - 1))).
    { unfold x'. rewrite skipn_app, LF, Nat.sub_diag. cbn [skipn]. rewrite skipn_all2 by lia. reflexivity. }
    pose proof (FE x' (proj1 D')) as E'. rewrite HF, HS in E'.
    assert (g (repeat (1/2) (N - (M - 1))) = 0) as Z by (apply G; rewrite repeat_length; reflexivity).
    rewrite Z in E'. apply (NP x' _ D' E'). clear NP. rewrite (FE x L) in Ha. injection Ha as <-.
    set (gx := g (skipn (M - 1) x)) in *. set (ys := firstn (M - 1) x) in *.
    split.
    + rewrite (cascade_scale1 _ _ (c * (1 + 0))), (cascade_scale1 _ _ (c * (1 + gx))).
      assert (Q : Forall (Rle 0) (cascade Rops la fi 1 ys [])) by (apply cascade_nonneg; [lra|constructor|apply head_cube, D]).
      revert Q. generalize (cascade Rops la fi 1 ys []). change (num Rops) with R. intros l Q. induction Q as [|v l V Q IH]; cbn [map]; constructor; [|exact IH].
      apply Rmult_le_compat_r; [exact V|]. nra.
    + intros Q. apply (f_equal (norm k)) in Q. rewrite !(cascade_norm _ _ _ P1) in Q.
      assert ((c * (1 + 0)) ^ k < (c * (1 + gx)) ^ k) by (apply pow_lt_strict; [apply KM|split; [nra|]; apply Rmult_lt_compat_l; lra]). apply Rplus_eq_reg_r in Q. rewrite Q in H. exact (Rlt_irrefl _ H).
  - intros E. split; [exact D|]. destruct (front_value x L) as (a & Ea & La & Na). exists a. split; [exact Ea|].
    intros y b Dy Eb Dom. pose proof (front_nonneg y b Dy Eb) as Pb. pose proof (norm_strict k b a (proj1 KM) Pb Dom) as ST.
    destruct (front_value y (proj1 Dy)) as (b' & Eb' & _ & Nb). rewrite Eb in Eb'. injection Eb' as <-.
    rewrite Na, Nb in ST. rewrite E in ST. assert (Z : g (repeat (1/2) (N - (M - 1))) = 0) by (apply G; rewrite repeat_length; reflexivity).
    rewrite Z in ST. pose proof (proj1 (G (skipn (M - 1) y))) as GY.
    assert ((c * (1 + 0)) ^ k <= (c * (1 + g (skipn (M - 1) y))) ^ k) by (apply pow_incr; split; nra). lra.
Qed.
End Front.

(** DTLZ1 to DTLZ4. *)
Lemma dtlz_ok (x : list R) M r : (M <= length x)%nat -> dtlz Rops x M r = r.
Proof. intros H. unfold dtlz. change (@length (num Rops) x) with (@length R x). destruct (Nat.leb_spec M (length x)); [reflexivity|lia]. Qed.
Lemma unfold_ok M la fi (p : R) ys : (1 <= M)%nat -> unfold_front Rops M la fi p ys = Ok (cascade Rops la fi p ys []).
Proof. intros H. destruct M; [lia|reflexivity]. Qed.
Lemma sin_cos_pow a : sin a ^ 2 + cos a ^ 2 = 1.
Proof. pose proof (sin2_cos2 a) as H. unfold Rsqr in H. cbn [pow]. lra. Qed.
Lemma quarter y : 0 <= y <= 1 -> 0 <= sin (PI/2 * y) /\ 0 <= cos (PI/2 * y).
Proof. intros H. pose proof PI_RGT_0. split; [apply sin_ge_0|apply cos_ge_0]; nra. Qed.
Lemma lit0 m : IZR m / 10 ^ 0 = IZR m.
Proof. field. Qed.
Definition la1 (y : R) : R := 1 - y.
Definition la2 (a : nat) (y : R) : R := sin (PI / (2 / 10 ^ 0) * y ^ a).
Definition fi2 (a : nat) (y : R) : R := cos (PI / (2 / 10 ^ 0) * y ^ a).
Section D1.
Context (eig : bool) (N M : nat).
Hypothesis H : (1 <= M <= N)%nat.
Lemma dtlz1_eq (x : list R) : length x = N ->
  dtlz1 Rops eig x M = Ok (cascade Rops la1 (fun y => y) (1/2 * (1 + rastrigin_g (skipn (M - 1) x))) (firstn (M - 1) x) []).
Proof.
  intros L. unfold dtlz1. rewrite dtlz_ok by lia. rewrite unfold_ok by lia. rewrite g_rastrigin_R by lia. unfold head, xm. rr.
  rewrite half, !lit0. reflexivity.
Qed.
Lemma dtlz2_eq (x : list R) : length x = N ->
  dtlz2 Rops eig x M = Ok (cascade Rops (la2 1) (fi2 1) (1 * (1 + sphere_g (skipn (M - 1) x))) (firstn (M - 1) x) []).
Proof.
  intros L. unfold dtlz2. rewrite dtlz_ok by lia. rewrite unfold_ok by lia. rewrite g_sphere_R. unfold head, xm. rr.
  rewrite Rmult_1_l, (lit0 1). unfold la2, fi2. f_equal. apply cascade_ext; intros y; rewrite pow_1; reflexivity.
Qed.
Lemma dtlz3_eq (x : list R) : length x = N ->
  dtlz3 Rops eig x M = Ok (cascade Rops (la2 1) (fi2 1) (1 * (1 + rastrigin_g (skipn (M - 1) x))) (firstn (M - 1) x) []).
Proof.
  intros L. unfold dtlz3. rewrite dtlz_ok by lia. rewrite unfold_ok by lia. rewrite g_rastrigin_R by lia. unfold head, xm. rr.
  rewrite Rmult_1_l, (lit0 1). unfold la2, fi2. f_equal. apply cascade_ext; intros y; rewrite pow_1; reflexivity.
Qed.
Lemma dtlz4_eq a (x : list R) : length x = N ->
  dtlz4 Rops a eig x M = Ok (cascade Rops (la2 a) (fi2 a) (1 * (1 + sphere_g (skipn (M - 1) x))) (firstn (M - 1) x) []).
Proof.
  intros L. unfold dtlz4. rewrite dtlz_ok by lia. rewrite unfold_ok by lia. rewrite g_sphere_R. unfold head, xm. rr.
  rewrite Rmult_1_l, (lit0 1). reflexivity.
Qed.
End D1.
Lemma P1_1 y : la1 y ^ 1 + y ^ 1 = 1.
Proof. unfold la1. ring. Qed.
Lemma P0_1 y : 0 <= y <= 1 -> 0 <= la1 y /\ 0 <= y.
Proof. unfold la1. lra. Qed.
Lemma P1_2 a y : la2 a y ^ 2 + fi2 a y ^ 2 = 1.
Proof. apply sin_cos_pow. Qed.
Lemma P0_2 a y : 0 <= y <= 1 -> 0 <= la2 a y /\ 0 <= fi2 a y.
Proof.
  intros H. unfold la2, fi2. rewrite lit0. apply quarter. split; [apply pow_le, H|]. rewrite <- (pow1 a). apply pow_incr, H.
Qed.

(** DTLZ5, DTLZ6. *)
Definition root_g (xs : list R) : R := sumR (map (fun y => Rpow y (1/10)) xs).
Lemma dtlz56_norm (g : R) (x : list R) M : (2 <= M <= length x)%nat ->
  exists f, dtlz56 Rops g x M = Ok f /\ length f = M /\ norm 2 f = (1 + g) ^ 2.
Proof.
  intros H. destruct M as [|[|M]]; [lia|lia|]. unfold dtlz56. rewrite dtlz_ok by lia. rewrite unfold_ok by lia. eexists. split; [reflexivity|].
  rewrite cascade_length. split.
  - cbn [length]. assert (LT : forall (gr : R) ys i, length (thetas Rops gr i ys) = length ys).
    { intros gr ys. induction ys as [|y ys IH]; intros i; [reflexivity|]. cbn [thetas length]. f_equal. apply IH. }
    rewrite LT. unfold head. change (num Rops) with R. rewrite firstn_length. lia.
  - rewrite cascade_norm by (intros; rr; apply sin_cos_pow). unfold norm, sumR. cbn [map fold_right]. rr. rewrite lit0. ring.
Qed.
Lemma dtlz5_norm (x : list R) M : (2 <= M <= length x)%nat ->
  exists f, dtlz5 Rops x M = Ok f /\ length f = M /\ norm 2 f = (1 + sphere_g (skipn (M - 1) x)) ^ 2.
Proof.
  intros H. unfold dtlz5. rewrite g_sphere_R. exact (dtlz56_norm _ x M H).
Qed.
Lemma dtlz6_norm (x : list R) M : (2 <= M <= length x)%nat ->
  exists f, dtlz6 Rops x M = Ok f /\ length f = M /\ norm 2 f = (1 + root_g (skipn (M - 1) x)) ^ 2.
Proof.
  intros H. unfold dtlz6. rr. replace (1 / 10 ^ 1) with (1/10) by field. exact (dtlz56_norm _ x M H).
Qed.
Lemma Rpow_nonneg y e : 0 <= Rpow y e.
Proof. unfold Rpow. destruct (Rlt_dec 0 y); [left; apply exp_pos|lra]. Qed.
Lemma root_g_nonneg xs : 0 <= root_g xs.
Proof. apply sumR_nonneg. intros y Hy. apply in_map_iff in Hy. destruct Hy as (x & <- & _). apply Rpow_nonneg. Qed.
(** The two objectives are (1+g) cos(pi^2/4 x0) and (1+g) sin(pi^2/4 x0): the first is negative for x0 > 2/pi. *)
Lemma dtlz56_two (g x0 : R) xs : (1 <= length xs)%nat -> dtlz56 Rops g (x0 :: xs) 2 = Ok [(1 + g) * cos (PI*PI/4 * x0); (1 + g) * sin (PI*PI/4 * x0)].
Proof.
  intros H. unfold dtlz56. rewrite dtlz_ok by (cbn [length]; lia). rewrite unfold_ok by lia. unfold head. cbn [Nat.sub firstn thetas theta cascade]. rr.
  rewrite !lit0. replace (PI / 2 * PI / 2 * x0) with (PI*PI/4 * x0) by field. reflexivity.
Qed.
Lemma cos_neg x0 : 2/PI < x0 <= 1 -> cos (PI*PI/4 * x0) < 0.
Proof.
  intros (A & B). pose proof PI_gt_3. pose proof PI_4. assert (E : 2/PI * PI = 2) by (field; lra).
  apply cos_lt_0.
  - replace (PI/2) with (PI * (2/PI*PI) / 4) by (rewrite E; field). assert (0 < PI*PI/4*(x0 - 2/PI)) by (apply Rmult_lt_0_compat; nra). nra.
  - assert (PI*PI/4*x0 <= PI*PI/4*1) by (apply Rmult_le_compat_l; nra). nra.
Qed.

(** DTLZ7. *)
Definition g7 (xs : list R) : R := 1 + 9 / INR (length xs) * sumR xs.
Lemma h7_R (g : R) (fs : list R) : 1 + g <> 0 -> h7 Rops g fs * (1 + g) = - sumR (map (fun f => f * (1 + sin (3*PI*f))) fs).
Proof.
  intros G. unfold h7. rr. rewrite !lit0. assert (E : forall (fs : list R) s,
    fold_left (fun h fi => h - fi / (1 + g) * (1 + sin (3*PI*fi))) fs s * (1 + g) = s * (1 + g) - sumR (map (fun f => f * (1 + sin (3*PI*f))) fs)).
  { intros l. induction l as [|f l IH]; intros s; [cbn; ring|]. cbn [fold_left]. rewrite IH. unfold sumR. cbn [map fold_right]. field. exact G. }
  rewrite (E fs 0). ring.
Qed.
Lemma INR_pos n : (1 <= n)%nat -> 0 < INR n.
Proof. intros H. apply lt_0_INR. lia. Qed.
Definition last7 (fs : list R) (M : nat) (g : R) : R := (1 + g) * INR M - sumR (map (fun f => f * (1 + sin (3*PI*f))) fs).
Lemma last7_eq (fs : list R) M (g : R) : 1 + g <> 0 ->
  (1 + g) * (h7 Rops g fs + INR M) = last7 fs M g.
Proof. intros G. unfold last7. rewrite Rmult_plus_distr_l. rewrite (Rmult_comm _ (h7 Rops g fs)), h7_R by exact G. ring. Qed.
Lemma g7_pos xs : Forall (fun v => 0 <= v <= 1) xs -> 1 <= g7 xs.
Proof.
  intros H. unfold g7. assert (0 <= sumR xs) by (apply sumR_nonneg; intros y Hy; rewrite Forall_forall in H; apply H, Hy).
  destruct xs as [|y xs]; [cbn; lra|]. pose proof (INR_pos (length (y :: xs)) ltac:(cbn; lia)) as I. assert (0 <= 9 / INR (length (y :: xs)) * sumR (y :: xs)); [|lra].
  apply Rmult_le_pos; [|assumption]. unfold Rdiv. apply Rmult_le_pos; [lra|]. left. apply Rinv_0_lt_compat, I.
Qed.
Lemma Forall_skip {A} (P : A -> Prop) n (l : list A) : Forall P l -> Forall P (skipn n l).
Proof. intros H. apply Forall_forall. intros y Hy. rewrite Forall_forall in H. apply H. rewrite <- (firstn_skipn n l). apply in_or_app. right. exact Hy. Qed.
Lemma Forall_first {A} (P : A -> Prop) n (l : list A) : Forall P l -> Forall P (firstn n l).
Proof. intros H. apply Forall_forall. intros y Hy. rewrite Forall_forall in H. apply H. rewrite <- (firstn_skipn n l). apply in_or_app. left. exact Hy. Qed.
Lemma dtlz7_eigen (x f : list R) : (1 <= length f <= length x)%nat -> Forall (fun v => 0 <= v <= 1) x ->
  dtlz7 Rops true x f = Ok (firstn (length f - 1) x ++ [last7 (firstn (length f - 1) x) (length f) (g7 (skipn (length f - 1) x))]).
Proof.
  intros H C. unfold dtlz7. change (num Rops) with R. rewrite dtlz_ok by lia. destruct (length f) as [|M] eqn:LF; [lia|].
  assert (E : add Rops (lit Rops 1 0) (mul Rops (div Rops (lit Rops 9 0) (lit Rops (Z.of_nat (length x) - Z.of_nat (S M) + 1) 0)) (vsum Rops (xm Rops x (S M)))) = g7 (skipn (S M - 1) x)).
  { unfold g7, xm. rr. rewrite !lit0. rewrite INR_IZR_INZ, skipn_length.
    replace (Z.of_nat (length x) - Z.of_nat (S M) + 1)%Z with (Z.of_nat (length x - (S M - 1))) by lia. reflexivity. }
  rewrite E. f_equal. f_equal. f_equal. unfold head. change (num Rops) with R. set (fs := firstn (S M - 1) x). pose proof (g7_pos (skipn (S M - 1) x) (Forall_skip _ _ _ C)) as G.
  rewrite <- last7_eq by lra. rr. rewrite !lit0, INR_IZR_INZ. reflexivity.
Qed.
(** f_M >= 2 on the unit cube, with every f_i in [0,1]: the front lies at finite height. *)
Lemma last7_low (fs : list R) M g : Forall (fun v => 0 <= v <= 1) fs -> length fs = (M - 1)%nat -> (1 <= M)%nat -> 1 <= g -> 2 <= last7 fs M g.
Proof.
  intros C L HM G. assert (S : sumR (map (fun f => f * (1 + sin (3*PI*f))) fs) <= 2 * INR (length fs)).
  { replace (2 * INR (length fs)) with (sumR (map (fun _ : R => 2) fs)) by (rewrite sumR_map_const; ring). apply sumR_map_le. intros f Hf.
    rewrite Forall_forall in C. specialize (C f Hf). pose proof (SIN_bound (3*PI*f)). nra. }
  unfold last7. rewrite L in S. rewrite minus_INR in S by lia. cbn [INR] in S. pose proof (INR_pos M HM). nra.
Qed.
(** An optimal point has its last variables all zero. *)
Lemma dtlz7_front N M (f0 x : list R) : (1 <= M <= N)%nat -> length f0 = M ->
  paretoR (fun t : list R => dtlz7 Rops true t f0) (cube N) x -> skipn (M - 1) x = repeat 0 (N - (M - 1)).
Proof.
  intros H L0 ((L & C) & a & Ha & NP). rewrite dtlz7_eigen in Ha by (rewrite ?L0, ?L; assumption || lia). rewrite L0 in Ha. injection Ha as <-.
  set (xs := skipn (M - 1) x) in *. assert (CX : Forall (fun v => 0 <= v <= 1) xs) by (apply Forall_skip, C).
  assert (PX : forall y, In y xs -> 0 <= y) by (intros y Hy; rewrite Forall_forall in CX; apply CX, Hy).
  assert (LX : length xs = (N - (M - 1))%nat) by (unfold xs; rewrite skipn_length, L; reflexivity).
  destruct (Rle_lt_or_eq_dec 0 (sumR xs) (sumR_nonneg xs PX)) as [S|S].
  - exfalso. set (x' := firstn (M - 1) x ++ repeat 0 (N - (M - 1))).
    assert (LF : length (firstn (M - 1) x) = (M - 1)%nat) by (rewrite firstn_length, L; lia).
    assert (D' : cube N x').
    { split; [unfold x'; rewrite app_length, repeat_length, LF; lia|]. unfold x'. apply Forall_app. split; [apply Forall_first, C|].
      apply Forall_forall. intros y Hy. apply repeat_spec in Hy. subst. lra. }
    assert (HF : firstn (M - 1) x' = firstn (M - 1) x) by (unfold x'; rewrite firstn_app, LF, Nat.sub_diag; cbn [firstn]; rewrite app_nil_r, firstn_firstn, Nat.min_id; reflexivity).
    assert (HS : skipn (M - 1) x' = repeat 0 (N - (M - 1))) by (unfold x'; rewrite skipn_app, LF, Nat.sub_diag; cbn [skipn]; rewrite skipn_all2 by lia; reflexivity).
    pose proof (dtlz7_eigen x' f0 ltac:(rewrite L0, (proj1 D'); lia) (proj2 D')) as E'. rewrite L0, HF, HS in E'. apply (NP x' _ D' E').
    assert (Z : sumR (repeat 0 (N - (M - 1))) = 0) by (clear; induction (N - (M - 1))%nat as [|n IH]; [reflexivity|]; unfold sumR in *; cbn [repeat fold_right]; lra).
    assert (GL : g7 (repeat 0 (N - (M - 1))) < g7 xs).
    { unfold g7. rewrite Z, Rmult_0_r. assert (0 < 9 / INR (length xs) * sumR xs); [|lra]. apply Rmult_lt_0_compat; [|exact S].
      apply Rdiv_lt_0_compat; [lra|]. apply INR_pos. lia. }
    assert (LL : last7 (firstn (M - 1) x) M (g7 (repeat 0 (N - (M - 1)))) < last7 (firstn (M - 1) x) M (g7 xs)).
    { unfold last7. pose proof (INR_pos M ltac:(lia)). nra. }
    split.
    + apply Forall2_app; [|constructor; [lra|constructor]]. generalize (firstn (M - 1) x). intros l. induction l; constructor; [lra|assumption].
    + intros Q. apply app_inv_head in Q. injection Q as Q. lra.
  - symmetry in S. rewrite <- LX. pose proof (proj1 (sumR_zero xs PX) S) as Z. clearbody xs. clear - Z. induction xs as [|y xs IH]; [reflexivity|].
    cbn [length repeat]. rewrite (Z y (or_introl eq_refl)). f_equal. apply IH. intros v Hv. apply Z. right. exact Hv.
Qed.
(** The std version leaves f[M-2] as it was. *)
Lemma dtlz7_std_stale (x f : list R) : (2 <= length f <= length x)%nat ->
  exists r, dtlz7 Rops false x f = Ok r /\ nth_error r (length f - 2) = nth_error f (length f - 2).
Proof.
  intros H. unfold dtlz7. change (num Rops) with R. rewrite dtlz_ok by lia. destruct (length f) as [|M] eqn:LF; [lia|]. eexists. split; [reflexivity|].
  assert (L1 : length (firstn (S M - 2) x) = (S M - 2)%nat) by (rewrite firstn_length; lia).
  destruct (nth_error f (S M - 2)) as [v|] eqn:E; [|apply nth_error_None in E; lia].
  apply nth_error_split in E. destruct E as (a & b & -> & LA).
  rewrite nth_error_app1; [|rewrite app_length, L1, firstn_length, skipn_length, app_length; cbn [length]; lia].
  rewrite nth_error_app2 by lia. rewrite L1, Nat.sub_diag. rewrite skipn_app, skipn_all2, LA, Nat.sub_diag by lia. cbn [skipn app].
  replace (S M - 1 - (S M - 2))%nat with 1%nat by lia. reflexivity.
Qed.
