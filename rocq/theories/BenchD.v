(** The benchmark functions in double precision: signs, whatever the library computes. *)
From Coq Require Import List Arith ZArith Reals Lra Lia Bool Psatz.
From Flocq Require Import Core BinarySingleNaN.
From Verif Require Import Base Fl FlFacts Rng Bench.
Import ListNotations.
Open Scope R_scope.

(** A double which is not negative: a NaN, or one whose sign bit is clear. *)
Definition pos (x : double) : Prop := is_nan x = true \/ Bsign x = false.
Lemma pos_not_neg x : pos x -> flt x d0 = false.
Proof.
  unfold pos, flt, Bltb. intros [H|H]; destruct x as [s|s| |s m e Hm]; cbn in H |- *; try reflexivity; try discriminate H; subst; reflexivity.
Qed.
Lemma sign_ge (x : double) : is_finite x = true -> Bsign x = false -> 0 <= B2R x.
Proof.
  intros F H. destruct x as [s|s| |s m e Hm]; try discriminate F; cbn in H |- *; [lra|]. subst s. apply F2R_ge_0. cbn. lia.
Qed.
Lemma pos_overflow m : forall x : double, B2SF x = binary_overflow 53 1024 m false -> m = mode_NE -> pos x.
Proof. intros x E ->. right. destruct x as [s|s| |s p e Hm]; cbn in E; try discriminate E. injection E as ->. reflexivity. Qed.
Lemma pos_add x y : pos x -> pos y -> pos (fadd x y).
Proof.
  intros X Y. unfold fadd. destruct (is_nan x) eqn:NX; [left; destruct x, y; try discriminate NX; reflexivity|].
  destruct (is_nan y) eqn:NY; [left; destruct x, y; try discriminate NY; reflexivity|].
  destruct X as [X|X]; [congruence|]. destruct Y as [Y|Y]; [congruence|].
  destruct (is_finite x) eqn:FX; [destruct (is_finite y) eqn:FY|].
  - pose proof (Bplus_correct 53 1024 _ _ mode_NE x y FX FY) as C. destruct (Rlt_bool _ _).
    + destruct C as (_ & _ & C). right. rewrite C, X, Y. pose proof (sign_ge x FX X). pose proof (sign_ge y FY Y).
      destruct (Rcompare_spec (B2R x + B2R y) 0); [lra|reflexivity|reflexivity].
    + destruct C as (C & _). rewrite X in C. exact (pos_overflow _ _ C eq_refl).
  - right. destruct x, y; try discriminate; cbn in *; congruence.
  - right. destruct x as [s|s| |s m e Hm]; try discriminate. destruct y as [s'|s'| |s' m' e' Hm']; try discriminate; cbn in X, Y; subst; reflexivity.
Qed.
Lemma pos_mul_gen x y : (is_nan x = true \/ is_nan y = true \/ xorb (Bsign x) (Bsign y) = false) -> pos (fmul x y).
Proof.
  intros H. unfold fmul. destruct (is_nan x) eqn:NX; [left; destruct x, y; try discriminate NX; reflexivity|].
  destruct (is_nan y) eqn:NY; [left; destruct x, y; try discriminate NY; reflexivity|]. destruct H as [H|[H|H]]; try discriminate H.
  pose proof (Bmult_correct 53 1024 _ _ mode_NE x y) as C. destruct (Rlt_bool _ _).
  - destruct C as (_ & _ & C). destruct (is_nan (Bmult mode_NE x y)) eqn:NM; [left; exact NM|]. right. rewrite C by reflexivity. exact H.
  - rewrite H in C. exact (pos_overflow _ _ C eq_refl).
Qed.
Lemma pos_sq x : pos (fmul x x).
Proof. apply pos_mul_gen. right. right. apply xorb_nilpotent. Qed.
Lemma pos_mul x y : pos x -> pos y -> pos (fmul x y).
Proof. intros [X|X] Y; apply pos_mul_gen; [auto|]. destruct Y as [Y|Y]; [auto|]. rewrite X, Y. auto. Qed.
Lemma pos_abs (x : double) : pos (Babs x).
Proof. destruct x; [right|right|left|right]; reflexivity. Qed.
Lemma pos_sqrt (x : double) : pos x -> pos (Bsqrt mode_NE x).
Proof.
  intros [H|H]; [destruct x; try discriminate H; left; reflexivity|]. destruct (Bsqrt_correct 53 1024 _ _ mode_NE x) as (_ & _ & C).
  destruct (is_nan (Bsqrt mode_NE x)) eqn:N; [left; exact N|]. right. rewrite C by reflexivity. exact H.
Qed.
Lemma pos_fold {A} (f : A -> double) l : (forall x, pos (f x)) -> forall s, pos s -> pos (fold_left (fun s x => fadd s (f x)) l s).
Proof. intros H. induction l as [|x l IH]; intros s P; [exact P|]. cbn [fold_left]. apply IH, pos_add; [exact P|apply H]. Qed.

(** At least [z], or a NaN. *)
Definition atl (z : R) (x : double) : Prop := is_nan x = true \/ x = B754_infinity false \/ (fin x /\ z <= B2R x).
Lemma atl_pos x : atl 0 x -> flt x d0 = false.
Proof.
  intros [H|[->|(F & H)]]; [apply pos_not_neg; left; exact H|reflexivity|]. unfold flt. rewrite Bltb_correct by (exact F || reflexivity).
  rewrite Rlt_bool_false; [reflexivity|exact H].
Qed.
Lemma drnd_int z : (Z.abs z <= 9007199254740992)%Z -> drnd (IZR z) = IZR z.
Proof. intros H. destruct (d_of_Z_exact z H) as (_ & <-). apply round_generic; [typeclasses eauto|]. apply generic_format_B2R. Qed.
Lemma drnd_mono x y : x <= y -> drnd x <= drnd y.
Proof. intros H. apply round_le; [apply (fexp_correct 53 1024); reflexivity|typeclasses eauto|exact H]. Qed.
Lemma over_inf (x : double) m : m = mode_NE -> B2SF x = binary_overflow 53 1024 m false -> x = B754_infinity false.
Proof. intros -> E. destruct x as [s|s| |s p e Hm]; cbn in E; try discriminate E. injection E as ->. reflexivity. Qed.
Lemma atl_add a b (x y : double) : (0 <= a)%Z -> (Z.abs (a + b) <= 9007199254740992)%Z -> atl (IZR a) x -> atl (IZR b) y -> atl (IZR (a + b)) (fadd x y).
Proof.
  intros A AB X Y. unfold fadd. destruct X as [X|[->|(FX & X)]]; [left; destruct x, y; try discriminate X; reflexivity| |].
  - destruct Y as [Y|[->|(FY & Y)]]; [left; destruct y; try discriminate Y; reflexivity|right; left; reflexivity|].
    right. left. destruct y; try discriminate FY; reflexivity.
  - destruct Y as [Y|[->|(FY & Y)]]; [left; destruct x, y; try discriminate Y; reflexivity|right; left; destruct x; try discriminate FX; reflexivity|].
    right. pose proof (Bplus_correct 53 1024 _ _ mode_NE x y FX FY) as C. cbn [round_mode] in C. destruct (Rlt_bool_spec (Rabs (drnd (B2R x + B2R y))) (bpow radix2 1024)) as [LT|GE].
    + right. destruct C as (C & F & _). split; [exact F|]. rewrite C. rewrite <- (drnd_int _ AB). apply drnd_mono. rewrite plus_IZR. lra.
    + left. destruct C as (C & SG). destruct (Bsign x) eqn:SX; [|exact (over_inf _ _ eq_refl C)]. exfalso.
      assert (B2R x <= 0) by (destruct x as [s|s| |s p e Hm]; cbn in SX |- *; try lra; subst s; apply F2R_le_0; cbn; lia).
      assert (0 <= IZR a) by (apply IZR_le; exact A). replace (B2R x) with 0 in GE by lra. rewrite Rplus_0_l in GE.
      rewrite round_generic in GE; [|typeclasses eauto|apply generic_format_B2R]. pose proof (dval_lt_emax y). lra.
Qed.
Lemma atl_sub10 (q w : double) : pos q -> (is_nan w = true \/ fin w /\ Rabs (B2R w) <= 10) -> atl (-10) (fsub q w).
Proof.
  intros Q W. unfold fsub. destruct W as [W|(FW & W)]; [left; destruct q, w; try discriminate W; reflexivity|].
  destruct Q as [Q|Q]; [left; destruct q, w; try discriminate Q; reflexivity|]. destruct (is_finite q) eqn:FQ.
  - right. pose proof (sign_ge q FQ Q). apply Rabs_le_inv in W. pose proof (Bminus_correct 53 1024 _ _ mode_NE q w FQ FW) as C. cbn [round_mode] in C.
    destruct (Rlt_bool_spec (Rabs (drnd (B2R q - B2R w))) (bpow radix2 1024)) as [LT|GE].
    + right. destruct C as (C & F & _). split; [exact F|]. rewrite C. rewrite <- (drnd_int (-10)) by easy. apply drnd_mono. lra.
    + left. destruct C as (C & SG). rewrite Q in C. exact (over_inf _ _ eq_refl C).
  - destruct q as [s|s| |s p e Hm]; try discriminate FQ; [|left; destruct w; reflexivity]. cbn in Q. subst s. right. left. destruct w; try discriminate FW; reflexivity.
Qed.
Lemma d10 : fin (fdiv (d_of_Z 10) (d_of_Z (10 ^ Z.of_nat 0))) /\ B2R (fdiv (d_of_Z 10) (d_of_Z (10 ^ Z.of_nat 0))) = 10.
Proof.
  assert (E : fdiv (d_of_Z 10) (d_of_Z (10 ^ Z.of_nat 0)) = d_of_Z 10) by (apply B2SF_inj; vm_compute; reflexivity). rewrite E. apply (d_of_Z_exact 10). easy.
Qed.
Ltac dd := cbn [num lit add sub mul div opp nabs nsqrt nsin ncos nexp powi powq nlt nle m_pi m_e m_2_pi vsum Dops].
Section L.
Context (L : libm).
Notation D := (Dops L).
Lemma lit_pos m k : (fdiv (d_of_Z m) (d_of_Z (10 ^ Z.of_nat k))) = lit D m k. Proof. reflexivity. Qed.
Ltac litp := right; vm_compute; reflexivity.
Ltac posn := repeat first [apply pos_add | apply pos_sq | apply pos_abs | apply pos_sqrt | apply pos_mul | litp].
Lemma beale_pos x y : exists f, beale D [x; y] = Ok f /\ pos f.
Proof. eexists. split; [reflexivity|]. unfold square. dd. posn. Qed.
Lemma booth_pos x y : exists f, booth D [x; y] = Ok f /\ pos f.
Proof. eexists. split; [reflexivity|]. unfold square. dd. posn. Qed.
Lemma himmelblau_pos x y : exists f, himmelblau D [x; y] = Ok f /\ pos f.
Proof. eexists. split; [reflexivity|]. unfold square. dd. posn. Qed.
Lemma bukin_pos x y : exists f, bukin D [x; y] = Ok f /\ pos f.
Proof. eexists. split; [reflexivity|]. dd. posn. Qed.
Lemma levy_pos x y : exists f, levy D [x; y] = Ok f /\ pos f.
Proof. eexists. split; [reflexivity|]. unfold square. dd. posn. Qed.
Lemma sphere_pos v : pos (sphere D false v).
Proof. unfold sphere. dd. apply (pos_fold (fun i : double => fmul i i)); [apply pos_sq|litp]. Qed.
Lemma rosenbrock_pos v : v <> [] -> exists f, rosenbrock D false v = Ok f /\ pos f.
Proof.
  intros H. destruct v as [|a v]; [congruence|]. eexists. split; [reflexivity|]. unfold square. dd.
  apply (pos_fold (fun p : double * double => fadd (fmul _ (fmul (fsub (snd p) (fst p)) (fsub (snd p) (fst p)))) (fmul (fsub _ (fst p)) (fsub _ (fst p))))); [|litp].
  intros p. posn.
Qed.
(** The C library's cosine lies in [-1,1] or is not a number. *)
Definition cos_ok : Prop := forall x, is_nan (l_cos L x) = true \/ fin (l_cos L x) /\ Rabs (B2R (l_cos L x)) <= 1.
Lemma rast_term_low (H : cos_ok) (x w : double) : atl (-10) (fsub (fmul x x) (fmul (lit D 10 0) (l_cos L w))).
Proof.
  apply atl_sub10; [apply pos_sq|]. unfold fmul. destruct (H w) as [N|(F & B)]; [left; destruct (lit D 10 0), (l_cos L w); try discriminate N; reflexivity|].
  right. destruct d10 as (F10 & V10). destruct (fmul_bounded (lit D 10 0) (l_cos L w) 10 0) as (A & C & _); try easy.
  - change (lit D 10 0) with (fdiv (d_of_Z 10) (d_of_Z (10 ^ Z.of_nat 0))). rewrite V10, Rabs_mult, (Rabs_pos_eq 10) by lra. cbn [bpow]. pose proof (Rabs_pos (B2R (l_cos L w))). lra.
  - split; [exact A|]. cbn [bpow] in C. unfold fmul in C. lra.
Qed.
Lemma rast_fold (H : cos_ok) (h : double -> double) v : forall (n : nat) s, (length v <= n)%nat -> (10 * Z.of_nat n <= 9007199254740992)%Z -> atl (IZR (10 * Z.of_nat n)) s ->
  atl (IZR (10 * (Z.of_nat n - Z.of_nat (length v)))) (fold_left (fun s x => fadd s (fsub (fmul x x) (fmul (lit D 10 0) (l_cos L (h x))))) v s).
Proof.
  induction v as [|x v IH]; intros n s LN B A; cbn [length fold_left]; [replace (Z.of_nat n - Z.of_nat 0)%Z with (Z.of_nat n) by lia; exact A|].
  cbn [length] in LN. destruct n as [|n]; [lia|].
  replace (Z.of_nat (S n) - Z.of_nat (S (length v)))%Z with (Z.of_nat n - Z.of_nat (length v))%Z by lia. apply IH; [lia|lia|].
  replace (10 * Z.of_nat n)%Z with (10 * Z.of_nat (S n) + -10)%Z by lia. apply atl_add; [lia|lia|exact A|]. apply rast_term_low, H.
Qed.
Lemma rastrigin_low (v : list double) : cos_ok -> (10 * Z.of_nat (length v) <= 9007199254740992)%Z -> flt (rastrigin D v) d0 = false.
Proof.
  intros H B. apply atl_pos. replace 0 with (IZR (10 * (Z.of_nat (length v) - Z.of_nat (length v)))) by (rewrite Z.sub_diag; reflexivity).
  unfold rastrigin, square. dd.
  apply (rast_fold H (fun x => fmul (fmul (fofZ 884279719003555 (-48)) (fdiv (d_of_Z 2) (d_of_Z (10 ^ Z.of_nat 0)))) x)); [lia|exact B|].
  right. right. destruct d10 as (F10 & V10).
  assert (E : B2R (fdiv (d_of_Z (Z.of_nat (length v))) (d_of_Z (10 ^ Z.of_nat 0))) = IZR (Z.of_nat (length v)) /\ fin (fdiv (d_of_Z (Z.of_nat (length v))) (d_of_Z (10 ^ Z.of_nat 0)))).
  { destruct (d_of_Z_exact (Z.of_nat (length v)) ltac:(lia)) as (F & V). destruct (d_of_Z_exact (10 ^ Z.of_nat 0) ltac:(easy)) as (F1 & V1).
    destruct (fdiv_fin 53 1024 _ _ (d_of_Z (Z.of_nat (length v))) (d_of_Z (10 ^ Z.of_nat 0)) F) as (A & C).
    - rewrite V1. cbn. lra.
    - rewrite V, V1. cbn [Z.of_nat Z.pow]. unfold Rdiv. rewrite Rinv_1, Rmult_1_r. rewrite drnd_int by lia. rewrite <- V. apply dval_lt_emax.
    - split; [|exact A]. rewrite C, V, V1. cbn [Z.of_nat Z.pow]. unfold Rdiv. rewrite Rinv_1, Rmult_1_r. apply drnd_int. lia. }
  destruct E as (E & FE). destruct (fmul_fin 53 1024 _ _ _ _ F10 FE) as (A & C).
  - rewrite V10, E, <- mult_IZR, drnd_int by lia. rewrite <- (proj2 (d_of_Z_exact (10 * Z.of_nat (length v)) ltac:(lia))). apply dval_lt_emax.
  - split; [exact A|]. rewrite C, V10, E, <- mult_IZR, drnd_int by lia. apply Rle_refl.
Qed.
(** Values at the documented minima, computed exactly. *)
Lemma d_booth : booth D [d_of_Z 1; d_of_Z 3] = Ok d0. Proof. vm_compute. reflexivity. Qed.
Lemma d_beale : beale D [d_of_Z 3; fofZ 1 (-1)] = Ok d0. Proof. vm_compute. reflexivity. Qed.
Lemma d_himmelblau : himmelblau D [d_of_Z 3; d_of_Z 2] = Ok d0. Proof. vm_compute. reflexivity. Qed.
Lemma d_bukin : bukin D [d_of_Z (-10); d_of_Z 1] = Ok d0. Proof. vm_compute. reflexivity. Qed.
Lemma d_matyas : matyas D [d0; d0] = Ok d0. Proof. vm_compute. reflexivity. Qed.
Lemma d_sphere n : sphere D false (repeat d0 n) = d0.
Proof.
  unfold sphere. dd. replace (fdiv (d_of_Z 0) (d_of_Z (10 ^ Z.of_nat 0))) with d0 by (apply B2SF_inj; vm_compute; reflexivity).
  induction n as [|n IH]; [reflexivity|]. cbn [repeat fold_left]. replace (fadd d0 (fmul d0 d0)) with d0 by (apply B2SF_inj; vm_compute; reflexivity). exact IH.
Qed.
Lemma d_rosenbrock n : rosenbrock D false (repeat (d_of_Z 1) (S n)) = Ok d0.
Proof.
  unfold rosenbrock, square. dd. cbn [repeat]. f_equal. replace (fdiv (d_of_Z 0) (d_of_Z (10 ^ Z.of_nat 0))) with d0 by (apply B2SF_inj; vm_compute; reflexivity).
  set (o := d_of_Z 1). induction n as [|n IH]; [reflexivity|]. cbn [repeat]. cbn [pairs fold_left fst snd] in *.
  match goal with |- fold_left _ _ ?s = _ => replace s with d0 by (apply B2SF_inj; vm_compute; reflexivity) end. exact IH.
Qed.
(** Holder's table function takes the square root of x*x - y*y. *)
Lemma sqrt_neg_nan (z : double) : flt z d0 = true -> is_nan (Bsqrt mode_NE z) = true.
Proof. unfold flt, Bltb. intros H. destruct z as [[|]|[|]| |[|] m e Hm]; cbn in H; try discriminate H; reflexivity. Qed.
Lemma nan_arg (f : double -> double -> double) : (forall y, is_nan (f B754_nan y) = true) -> forall x y, is_nan x = true -> is_nan (f x y) = true.
Proof. intros H x y N. destruct x; try discriminate N. apply H. Qed.
Lemma is_nan_eq (x : double) : is_nan x = true -> x = B754_nan.
Proof. destruct x; cbn; congruence. Qed.
Lemma d_holder (x y : double) : l_exp L B754_nan = B754_nan -> flt (fsub (fmul x x) (fmul y y)) d0 = true -> holderTable D [x; y] = Ok B754_nan.
Proof.
  intros E H. unfold holderTable, two. dd. apply sqrt_neg_nan, is_nan_eq in H. rewrite H. f_equal.
  match goal with |- context [fdiv B754_nan ?a] => change (fdiv B754_nan a) with (@B754_nan 53 1024) end.
  match goal with |- context [fsub ?a B754_nan] => replace (fsub a B754_nan) with (@B754_nan 53 1024) by (destruct a; reflexivity) end.
  cbn [Babs]. rewrite E. match goal with |- context [fmul ?a B754_nan] => replace (fmul a B754_nan) with (@B754_nan 53 1024) by (destruct a; reflexivity) end. reflexivity.
Qed.
End L.
