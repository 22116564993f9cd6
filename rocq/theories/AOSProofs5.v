(** AOS: states stay in the box; nothing fails. *)
From Coq Require Import List Arith ZArith Reals Bool Lia Lra Permutation Sorted.
From Flocq Require Import Core BinarySingleNaN.
From Verif Require Import Base Fl FlFacts Rng RandProofs GlobalProofs StdOps ListFacts Box BoxProofs AOS AOSSpec AOSProofs AOSProofs2 AOSProofs3 AOSProofs4.
From Verif Require Import Props_Box.
Import ListNotations.
Open Scope Z_scope.

Notation B800 := (bpow radix2 800).
Definition M854 : R := bpow radix2 854.
Lemma M854_pos : (0 < M854)%R. Proof. apply bpow_gt_0. Qed.
Lemma M854_eq : M854 = (18014398509481984 * B800)%R.
Proof. unfold M854. change 18014398509481984%R with (IZR (radix2 ^ 54)). rewrite IZR_Zpower by lia. rewrite <- bpow_plus. reflexivity. Qed.
Lemma M854_900 : (M854 <= B900)%R.
Proof. rewrite B900_eq. unfold M854. apply bpow_le. lia. Qed.
(** Adding something small to a number of at most 2^854 does not get beyond. *)
Lemma absorb_up (y : R) : (y <= M854 + B800)%R -> (drnd y <= M854)%R.
Proof.
  intros H. apply Rle_trans with (drnd (M854 + B800)); [apply round_le; [apply fexp_correct; reflexivity|apply valid_rnd_N|exact H]|].
  apply round_N_le_midp; [apply fexp_correct; reflexivity| |].
  - unfold M854. apply generic_format_bpow. unfold SpecFloat.fexp, SpecFloat.emin. lia.
  - rewrite succ_eq_pos by (apply Rlt_le, M854_pos). 
    assert (Q : ulp radix2 (SpecFloat.fexp 53 1024) M854 = bpow radix2 802) by (unfold M854; rewrite ulp_bpow; reflexivity). rewrite Q.
    replace (bpow radix2 802) with (4 * B800)%R by (change 4%R with (bpow radix2 2); rewrite <- bpow_plus; reflexivity).
    assert (0 < B800)%R by apply bpow_gt_0. lra.
Qed.
Lemma absorb (x y : double) : fin x -> fin y -> (Rabs (B2R x) <= M854)%R -> (Rabs (B2R y) <= B800)%R ->
  fin (fadd x y) /\ (Rabs (B2R (fadd x y)) <= M854)%R.
Proof.
  intros Fx Fy Bx By. apply Rabs_le_inv in Bx, By.
  assert (Q : (Rabs (drnd (B2R x + B2R y)) <= M854)%R).
  { apply Rabs_le. split; [|apply absorb_up; lra].
    assert (drnd (- (B2R x + B2R y)) <= M854)%R by (apply absorb_up; lra).
    rewrite round_NE_opp in H. lra. }
  assert (B : (Rabs (B2R x + B2R y) <= 2 * B900)%R).
  { pose proof M854_900. assert (B800 <= B900)%R by (rewrite B900_eq; apply bpow_le; lia). apply Rabs_le. lra. }
  destruct (fadd_900 x y 2 ltac:(easy) Fx Fy B) as (F & _ & V). split; [exact F|]. rewrite V. exact Q.
Qed.
(** Dividing by a number of things. *)
Lemma count_val n : 1 <= n -> is_nan (d_of_Z n) = false /\ (fin (d_of_Z n) -> (1 <= B2R (d_of_Z n))%R).
Proof.
  intros H. pose proof (binary_normalize_correct 53 1024 _ _ mode_NE n 0 false) as C. cbv zeta in C. unfold d_of_Z, fofZ.
  set (v := binary_normalize 53 1024 Hprec53 Hmax1024 mode_NE n 0 false) in *. destruct (Rlt_bool _ _).
  - destruct C as (A & F & _). split; [apply fin_nonnan; exact F|]. intros _. rewrite A. cbn [round_mode].
    unfold F2R. cbn [Fnum Fexp]. rewrite Rmult_1_r.
    apply (rnd_gen' 53 1024 _); [change 1%R with (bpow radix2 0); apply generic_format_bpow; easy|]. apply IZR_le. exact H.
  - clearbody v. destruct v as [s|s| |s m e Hb]; [discriminate C| | |].
    + split; [reflexivity|]. discriminate.
    + discriminate C.
    + exfalso. revert C. unfold binary_overflow. cbn. destruct (Rlt_bool _ _); cbn; discriminate.
Qed.
Lemma fdiv_count (x : double) n : 1 <= n -> fin x -> (Rabs (B2R x) <= M854)%R ->
  fin (fdiv x (d_of_Z n)) /\ (Rabs (B2R (fdiv x (d_of_Z n))) <= M854)%R.
Proof.
  intros Hn Fx Bx. destruct (count_val n Hn) as (N & V). destruct (is_finite (d_of_Z n)) eqn:F.
  - specialize (V F). assert (Q : (Rabs (B2R x / B2R (d_of_Z n)) <= M854)%R).
    { unfold Rdiv. rewrite Rabs_mult, (Rabs_pos_eq (/ _)) by (apply Rlt_le, Rinv_0_lt_compat; lra).
      apply Rle_trans with (Rabs (B2R x) * 1)%R; [|lra]. apply Rmult_le_compat_l; [apply Rabs_pos|].
      rewrite <- Rinv_1. apply Rinv_le; lra. }
    destruct (fdiv_900 x (d_of_Z n) 1 ltac:(easy) Fx) as (A & _ & B); [lra|pose proof M854_900; lra|].
    split; [exact A|]. rewrite B. apply (rnd_abs_gen 53 1024 _); [|exact Q].
    unfold M854. apply generic_format_bpow. unfold SpecFloat.fexp, SpecFloat.emin. lia.
  - destruct (d_of_Z n) as [s|s| |s m e Hb]; try discriminate.
    destruct x as [sx|sx| |sx mx ex Hx]; try discriminate; cbn; (split; [reflexivity|]); rewrite Rabs_R0; apply Rlt_le, M854_pos.
Qed.

Section P.
Context {R : rng_ops} (E : env R).
Notation aos' := (aos (G R)).
Notation b := (box E).

(** ** Vectors *)
Definition med (v : list double) : Prop := Forall (fun x => fin x /\ (Rabs (B2R x) <= M854)%R) v.
Definition low (v : list double) : Prop := Forall (fun x => fin x /\ (Rabs (B2R x) <= B800)%R) v.
Lemma low_med v : low v -> med v.
Proof. apply Forall_impl. intros x (F & B). split; [exact F|]. apply Rle_trans with (1 := B). unfold M854. apply bpow_le. lia. Qed.
Lemma vec_ok f x y : length x = length y -> vec E f x y = Ok (zip2 f x y).
Proof. intros H. unfold vec. rewrite H, Nat.eqb_refl. reflexivity. Qed.
Lemma vec_Ok f x y z : vec E f x y = Ok z -> length x = length y /\ z = zip2 f x y.
Proof.
  unfold vec, mismatch. destruct (Nat.eqb_spec (length x) (length y)) as [L|L]; [|destruct (eigen E); discriminate].
  intros H. injection H as <-. auto.
Qed.
Lemma zip2_length f x : forall y, length x = length y -> length (zip2 f x y) = length x.
Proof. induction x as [|a x IH]; intros [|c y] H; cbn in *; try discriminate; [reflexivity|]. rewrite IH by lia. reflexivity. Qed.
Lemma zip2_all (P Q S : double -> Prop) f x : (forall a c, P a -> Q c -> S (f a c)) -> forall y, Forall P x -> Forall Q y -> Forall S (zip2 f x y).
Proof.
  intros H. induction x as [|a x IH]; intros [|c y] Px Py; cbn; constructor; inversion Px; inversion Py; subst; auto.
Qed.
Lemma sum_states_Ok es : forall acc st, sum_states E acc es = Ok st -> length st = length acc /\ forall e, In e es -> length (estate e) = length acc.
Proof.
  induction es as [|e t IH]; intros acc st H; cbn in H; [injection H as <-; split; [reflexivity|intros e []]|].
  apply bind_Ok in H. destruct H as (a & Ha & H). apply vec_Ok in Ha. destruct Ha as (L & ->). apply IH in H. destruct H as (A & B).
  rewrite zip2_length in * by exact L. split; [exact A|]. intros x [<-|Hx]; auto.
Qed.
Lemma sum_states_total es : forall acc, (forall e, In e es -> length (estate e) = length acc) -> exists st, sum_states E acc es = Ok st.
Proof.
  induction es as [|e t IH]; intros acc H; cbn; [eauto|]. rewrite vec_ok by (symmetry; apply H; left; reflexivity). cbn [bind].
  apply IH. intros x Hx. rewrite zip2_length; [apply H; right; exact Hx|symmetry; apply H; left; reflexivity].
Qed.
Lemma sum_states_med es : forall acc st, sum_states E acc es = Ok st -> med acc -> (forall e, In e es -> low (estate e)) -> med st.
Proof.
  induction es as [|e t IH]; intros acc st H Ma Le; cbn in H; [injection H as <-; exact Ma|].
  apply bind_Ok in H. destruct H as (a & Ha & H). apply vec_Ok in Ha. destruct Ha as (L & ->). eapply IH; [exact H| |].
  - apply (zip2_all _ _ _ _ _ (fun x y Hx Hy => absorb x y (proj1 Hx) (proj1 Hy) (proj2 Hx) (proj2 Hy))); [exact Ma|apply Le; left; reflexivity].
  - intros x Hx. apply Le. right. exact Hx.
Qed.
Lemma mean_med st n : 1 <= n -> med st -> med (map (fun x => fdiv x (d_of_Z n)) st).
Proof.
  intros Hn H. apply Forall_forall. intros y Hy. apply in_map_iff in Hy. destruct Hy as (x & <- & Hx).
  unfold med in H. rewrite Forall_forall in H. destruct (H x Hx) as (F & B). apply fdiv_count; assumption.
Qed.

(** ** The box *)
Hypothesis (HM : moderate E) (HR : rng_ok R) (HD : eigen_draws E).

Lemma in_box_low v : in_box b v -> low v.
Proof.
  intros (L & H). apply Forall_forall. intros x Hx. destruct (In_nth_error _ _ Hx) as (i & Hi).
  assert (Z.of_nat i < dimD b) by (rewrite <- L; assert (i < length v)%nat by (apply nth_error_Some; congruence); lia).
  destruct HM as (_ & M). destruct (M i H0) as (F1 & B1 & F2 & B2 & _). destruct (H i x Hi) as (L1 & L2).
  apply fle_true in L1, L2. destruct L1 as (_ & N & L1), L2 as (_ & _ & L2). rewrite (fval_fin _ _ _ F1) in L1. rewrite (fval_fin _ _ _ F2) in L2.
  assert (F : fin x).
  { pose proof (dval_lt_emax (minD b i)) as X1. pose proof (dval_lt_emax (maxD b i)) as X2. apply Rabs_lt_inv in X1, X2.
    destruct x as [s|s| |s m e Hb]; try reflexivity; try discriminate. exfalso. unfold fval in L1, L2. revert L1 L2 X1 X2.
    generalize (bpow radix2 1024). intros u L1 L2 X1 X2. destruct s; lra. }
  split; [exact F|]. rewrite (fval_fin _ _ _ F) in L1, L2. apply Rabs_le. apply Rabs_le_inv in B1, B2. lra.
Qed.
Lemma constrained v v' : (forall x, In x v -> nonnan x) -> applyConstraintD b v = Ok v' -> in_box b v'.
Proof.
  intros N H. unfold applyConstraintD in H. destruct (Z.eqb_spec (Z.of_nat (length v)) (dimD b)) as [L|]; [|discriminate]. injection H as <-.
  split; [rewrite constrainD_length; exact L|]. intros i y Hy.
  destruct (nth_error v i) as [x|] eqn:Hx.
  - pose proof (constrainD_nth b v 0 i x Hx) as C. cbn [Nat.add] in C. rewrite C in Hy. injection Hy as <-.
    assert (Z.of_nat i < dimD b) by (rewrite <- L; assert (i < length v)%nat by (apply nth_error_Some; congruence); lia).
    destruct HM as (_ & M). destruct (M i H) as (_ & _ & _ & _ & P & _).
    destruct (clampD_proj (minD b i) (maxD b i) x P (N x (nth_error_In _ _ Hx))) as (A & B & _). auto.
  - exfalso. apply nth_error_None in Hx. assert (i < length (constrainD b v 0))%nat by (apply nth_error_Some; congruence).
    rewrite constrainD_length in H. lia.
Qed.
Lemma fins_nonnan v : Forall fin v -> forall x : double, In x v -> nonnan x.
Proof. intros H x Hx. rewrite Forall_forall in H. apply fin_nonnan, H, Hx. Qed.

(** ** New states *)
Definition unit01 (x : double) : Prop := fin x /\ (0 <= B2R x < 1)%R.
Lemma rand_vec_unit n : forall g, Forall unit01 (fst (rand_vec (R := R) n g)) /\ length (fst (rand_vec (R := R) n g)) = n.
Proof.
  induction n as [|n IH]; intros g; cbn; [split; [constructor|reflexivity]|].
  destruct HR as (H1 & _). specialize (H1 g). destruct (rand01 R g) as [x g1]. specialize (IH g1). destruct (rand_vec n g1) as [t g2]. cbn in *.
  destruct IH as (A & B). split; [|lia]. constructor; [|exact A]. apply unit_draw; apply H1.
Qed.
Lemma mul_unit (a x : double) m : (0 <= m <= 9007199254740992) -> unit01 a -> fin x -> (Rabs (B2R x) <= IZR m * B900)%R ->
  fin (fmul a x) /\ (Rabs (B2R (fmul a x)) <= IZR m * B900)%R.
Proof.
  intros Hm (Fa & Ba) Fx Bx. destruct (fmul_900 a x m Hm Fa Fx) as (F & B & _); [|auto].
  rewrite Rabs_mult. rewrite (Rabs_pos_eq (B2R a)) by lra. pose proof (Rabs_pos (B2R x)). apply Rle_trans with (2 := Bx).
  rewrite <- (Rmult_1_l (Rabs (B2R x))) at 2. apply Rmult_le_compat_r; lra.
Qed.
Definition wide (m : Z) (x : double) : Prop := fin x /\ (Rabs (B2R x) <= IZR m * B900)%R.
Lemma med_wide v : med v -> Forall (wide 1) v.
Proof. apply Forall_impl. intros x (F & B). split; [exact F|]. pose proof M854_900. lra. Qed.
Lemma pull_spec alpha beta gamma best mean p : pull E alpha beta gamma best mean = Ok p ->
  Forall unit01 alpha -> Forall unit01 beta -> Forall unit01 gamma -> med best -> med mean ->
  Forall (wide 2) p /\ length p = length alpha.
Proof.
  unfold pull. intros H Ua Ub Ug Mb Mm. apply bind_Ok in H. destruct H as (x & Hx & H). apply bind_Ok in H. destruct H as (y & Hy & H).
  apply bind_Ok in H. destruct H as (d & Hd & H). apply vec_Ok in Hx, Hy, Hd, H.
  destruct Hx as (L1 & ->), Hy as (L2 & ->), Hd as (L3 & ->), H as (L4 & ->). apply med_wide in Mb, Mm. split; [|apply zip2_length, L4].
  apply (zip2_all unit01 (wide 2)); [|exact Ua|].
  - intros a c Ha (Fc & Bc). apply mul_unit; auto. lia.
  - apply (zip2_all (wide 1) (wide 1)).
    + intros a c (Fa & Ba) (Fc & Bc). destruct (fsub_900 a c 2 ltac:(easy) Fa Fc) as (F & B & _); [|split; auto].
      apply Rabs_le. apply Rabs_le_inv in Ba, Bc. lra.
    + apply (zip2_all unit01 (wide 1)); auto. intros a c Ha (Fc & Bc). apply mul_unit; auto. lia.
    + apply (zip2_all unit01 (wide 1)); auto. intros a c Ha (Fc & Bc). apply mul_unit; auto. lia.
Qed.
Lemma pull_total alpha beta gamma best mean n : length alpha = n -> length beta = n -> length gamma = n -> length best = n -> length mean = n ->
  exists p, pull E alpha beta gamma best mean = Ok p.
Proof.
  intros A B C D F. unfold pull. rewrite vec_ok by congruence. cbn [bind]. rewrite vec_ok by congruence. cbn [bind].
  assert (L1 : length (zip2 fmul beta best) = n) by (rewrite zip2_length; congruence).
  assert (L2 : length (zip2 fmul gamma mean) = n) by (rewrite zip2_length; congruence).
  rewrite vec_ok by congruence. cbn [bind]. rewrite vec_ok; [eauto|]. rewrite zip2_length; congruence.
Qed.
Lemma div_wide (x : double) n m : (0 <= m <= 9007199254740992) -> 1 <= n -> wide m x -> wide m (fdiv x (d_of_Z n)).
Proof.
  intros Hm Hn (Fx & Bx). destruct (count_val n Hn) as (N & V). destruct (is_finite (d_of_Z n)) eqn:F.
  - specialize (V F). destruct (fdiv_900 x (d_of_Z n) m Hm Fx) as (A & B & _); [lra| |split; assumption].
    unfold Rdiv. rewrite Rabs_mult, (Rabs_pos_eq (/ _)) by (apply Rlt_le, Rinv_0_lt_compat; lra).
    apply Rle_trans with (Rabs (B2R x) * 1)%R; [|lra]. apply Rmult_le_compat_l; [apply Rabs_pos|]. rewrite <- Rinv_1. apply Rinv_le; lra.
  - assert (0 <= IZR m * B900)%R by (apply Rmult_le_pos; [apply IZR_le; lia|apply Rlt_le, B900_pos]).
    destruct (d_of_Z n) as [s|s| |s mm e Hb]; try discriminate.
    destruct x as [sx|sx| |sx mx ex Hx]; try discriminate; (split; [reflexivity|]); cbn; rewrite Rabs_R0; assumption.
Qed.
Definition boxed (s : aos') : Prop := forall e, In e (electrons s) -> in_box b (estate e).
Lemma add_wide v p w : vec E fadd v p = Ok w -> low v -> Forall (wide 2) p -> Forall fin w /\ length w = length v.
Proof.
  intros H Lv Wp. apply vec_Ok in H. destruct H as (L & ->). split; [|apply zip2_length, L].
  apply (zip2_all (fun x => wide 1 x) (wide 2)); [| |exact Wp].
  - intros x y (Fx & Bx) (Fy & By). destruct (fadd_900 x y 3 ltac:(easy) Fx Fy) as (F & _); [|exact F].
    apply Rabs_le. apply Rabs_le_inv in Bx, By. lra.
  - apply med_wide, low_med, Lv.
Qed.
Lemma photon_box s parent l li g v g' : photon E s parent l li g = Ok (v, g') -> boxed s -> In parent (electrons s) ->
  med (b_state s) -> med (l_state l) -> in_box b v.
Proof.
  unfold photon. intros H Hb Hp Ms Ml. set (n := if eigen E then _ else _) in *.
  pose proof (rand_vec_unit n g) as (Ua & La). destruct (rand_vec n g) as [alpha g1].
  pose proof (rand_vec_unit n g1) as (Ub & Lb). destruct (rand_vec n g1) as [beta g2].
  pose proof (rand_vec_unit n g2) as (Ug & Lg). destruct (rand_vec n g2) as [gamma g3]. cbn [fst] in *.
  apply bind_Ok in H. destruct H as (step & Hs & H). apply bind_Ok in H. destruct H as (w & Hw & H).
  apply bind_Ok in H. destruct H as (v' & Hv & H). injection H as <- _.
  assert (W : Forall (wide 2) step).
  { destruct (e_better E (energy parent) (l_energy l)).
    - destruct (nth_error (members l) (l_best l)) as [p|]; [|discriminate]. apply bind_Ok in Hs. destruct Hs as (lb & Hlb & Hs).
      apply deref_In in Hlb. destruct Hlb as (Ilb & _). eapply pull_spec; eauto. apply low_med, in_box_low, Hb, Ilb.
    - apply bind_Ok in Hs. destruct Hs as (ab & Hab & Hs). apply bind_Ok in Hs. destruct Hs as (p & Hpl & Hs). injection Hs as <-.
      apply deref_In in Hab. destruct Hab as (Iab & _).
      destruct (pull_spec _ _ _ _ _ _ Hpl Ua Ub Ug (low_med _ (in_box_low _ (Hb _ Iab))) Ms) as (W & _).
      apply Forall_forall. intros y Hy. apply in_map_iff in Hy. destruct Hy as (x & <- & Hx). rewrite Forall_forall in W.
      apply div_wide; [lia|lia|auto]. }
  destruct (add_wide _ _ _ Hw (in_box_low _ (Hb _ Hp)) W) as (Fw & _). eapply constrained; [|exact Hv]. apply fins_nonnan, Fw.
Qed.
Lemma moves_fin v : forall i g, (Z.of_nat (length v) + Z.of_nat i <= dimD b) -> low v ->
  Forall fin (fst (eigen_moves E v i g)) /\ Forall fin (fst (std_moves E v i g)) /\
  length (fst (eigen_moves E v i g)) = length v /\ length (fst (std_moves E v i g)) = length v.
Proof.
  induction v as [|y t IH]; intros i g Hi Lv; cbn [eigen_moves std_moves]; [repeat split; constructor|].
  inversion Lv as [|? ? (Fy & By) Lt]; subst. cbn [length] in Hi. destruct HM as (_ & M). destruct (M i ltac:(lia)) as (_ & _ & _ & _ & _ & Fd & Bd).
  assert (B800_900 : (B800 <= B900)%R) by (rewrite B900_eq; apply bpow_le; lia).
  pose proof (HD g) as (Fr & Br). destruct (eigen_random E g) as [r g1] eqn:Er. cbn [fst] in Fr, Br.
  destruct (IH (S i) g1 ltac:(lia) Lt) as (I1 & _ & I3 & _). destruct (eigen_moves E t (S i) g1) as [t1 g2]. cbn [fst] in *.
  unfold randD_range. destruct HR as (H1 & _). pose proof (H1 g) as (D1 & D2). destruct (rand01 R g) as [d g1'] eqn:Ed. cbn [fst] in D1, D2.
  destruct (unit_draw d D1 D2) as (Fdd & Bdd).
  destruct (IH (S i) g1' ltac:(lia) Lt) as (_ & I2 & _ & I4). destruct (std_moves E t (S i) g1') as [t1' g2']. cbn [fst] in *.
  split; [|split; [|split; [cbn; lia|cbn; lia]]].
  - constructor; [|exact I1].
    destruct (fmul_900 (deltaD b i) r 1 ltac:(easy) Fd Fr) as (F1 & X1 & _).
    { rewrite Rabs_mult. assert (Rabs (B2R r) <= 1)%R by (apply Rabs_le; lra). pose proof (Rabs_pos (B2R r)). pose proof (Rabs_pos (B2R (deltaD b i))).
      apply Rle_trans with (Rabs (B2R (deltaD b i)) * 1)%R; [apply Rmult_le_compat_l; assumption|]. lra. }
    destruct (fadd_900 y (fmul (deltaD b i) r) 2 ltac:(easy) Fy F1) as (F2 & _); [|exact F2].
    apply Rabs_le. apply Rabs_le_inv in By, X1. lra.
  - constructor; [|exact I2]. unfold affineD.
    assert (Fo : fin (fopp (deltaD b i))) by (apply fopp_fin, Fd). pose proof (fopp_B2R _ _ (deltaD b i)) as Vo.
    destruct (fsub_900 (deltaD b i) (fopp (deltaD b i)) 2 ltac:(easy) Fd Fo) as (F1 & X1 & _).
    { rewrite Vo. apply Rabs_le. apply Rabs_le_inv in Bd. lra. }
    assert (U : unit01 d) by (split; assumption).
    assert (F2 : fin (fmul (fsub (deltaD b i) (fopp (deltaD b i))) d) /\ (Rabs (B2R (fmul (fsub (deltaD b i) (fopp (deltaD b i))) d)) <= 2 * B900)%R).
    { destruct (fmul_900 (fsub (deltaD b i) (fopp (deltaD b i))) d 2 ltac:(easy) F1 Fdd) as (A & B & _); [|auto].
      rewrite Rabs_mult. rewrite (Rabs_pos_eq (B2R d)) by lra. pose proof (Rabs_pos (B2R (fsub (deltaD b i) (fopp (deltaD b i))))).
      apply Rle_trans with (2 := X1). rewrite <- (Rmult_1_r (Rabs _)) at 2. apply Rmult_le_compat_l; lra. }
    destruct F2 as (F2 & X2).
    destruct (fadd_900 _ (fopp (deltaD b i)) 3 ltac:(easy) F2 Fo) as (F3 & X3 & _).
    { rewrite Vo. apply Rabs_le. apply Rabs_le_inv in Bd, X2. lra. }
    destruct (fadd_900 y _ 4 ltac:(easy) Fy F3) as (F4 & _); [|exact F4].
    apply Rabs_le. apply Rabs_le_inv in By, X3. lra.
Qed.
Lemma non_photon_box parent g v g' : non_photon E parent g = Ok (v, g') -> in_box b (estate parent) -> in_box b v.
Proof.
  unfold non_photon. intros H Hb. pose proof (moves_fin (estate parent) 0 g) as M. pose proof (proj1 Hb) as L.
  specialize (M ltac:(lia) (in_box_low _ Hb)). destruct M as (M1 & M2 & _).
  destruct (eigen E).
  - destruct (eigen_moves E (estate parent) 0 g) as [w g1]. apply bind_Ok in H. destruct H as (v' & Hv & H). injection H as <- _.
    eapply constrained; [|exact Hv]. apply fins_nonnan, M1.
  - destruct (std_moves E (estate parent) 0 g) as [w g1]. apply bind_Ok in H. destruct H as (v' & Hv & H). injection H as <- _.
    eapply constrained; [|exact Hv]. apply fins_nonnan, M2.
Qed.
Lemma spawn_box opt s l li p s' : spawn E opt s l li p = Ok s' -> boxed s -> med (b_state s) -> med (l_state l) -> boxed s'.
Proof.
  unfold spawn. intros H Hb Ms Ml. apply bind_Ok in H. destruct H as (parent & Hp & H). destruct (rand01 R (a_rng s)) as [d g1].
  apply bind_Ok in H. destruct H as ([v g2] & Hv & H). injection H as <-. apply deref_In in Hp. destruct Hp as (Ip & _).
  intros e He. cbn [electrons] in He. apply in_app_or in He. destruct He as [He|[<-|[]]]; [apply Hb, He|]. cbn [estate].
  destruct (fle (photonRate opt) d); [eapply photon_box; eauto|eapply non_photon_box; eauto].
Qed.
Lemma spawn_layer_box opt l li ps : forall s s', spawn_layer E opt s l li ps = Ok s' -> boxed s -> med (b_state s) -> med (l_state l) -> boxed s'.
Proof.
  induction ps as [|p ps IH]; intros s s' H Hb Ms Ml; cbn in H; [injection H as <-; exact Hb|].
  apply bind_Ok in H. destruct H as (s1 & H1 & H). eapply IH; [exact H|eapply spawn_box; eauto| |exact Ml].
  apply spawn_spec in H1. destruct H1 as (? & ? & _ & _ & _ & -> & _). exact Ms.
Qed.
Lemma spawn_layers_box opt ls : forall li s s', spawn_layers E opt s li ls = Ok s' -> boxed s -> med (b_state s) ->
  Forall (fun l => med (l_state l)) ls -> boxed s'.
Proof.
  induction ls as [|l ls IH]; intros li s s' H Hb Ms Ml; cbn in H; [injection H as <-; exact Hb|].
  apply bind_Ok in H. destruct H as (s1 & H1 & H). inversion Ml; subst. eapply IH; [exact H|eapply spawn_layer_box; eauto| |assumption].
  apply spawn_layer_grows in H1. destruct H1 as (_ & _ & _ & -> & _). exact Ms.
Qed.
Lemma computeLayer_med es l l' : computeLayer E es l = Ok l' -> (forall e, In e es -> low (estate e)) -> med (l_state l').
Proof.
  unfold computeLayer. intros H Lo. apply bind_Ok in H. destruct H as (ms & Hm & H). destruct ms as [|e t]; [discriminate|].
  assert (Hn : 1 <= Z.of_nat (length (e :: t))) by (cbn [length]; lia). revert Hn H. generalize (Z.of_nat (length (e :: t))). intros n Hn H.
  apply bind_Ok in H. destruct H as (st & Hs & H). injection H as <-. cbn [l_state].
  assert (I : forall x, In x (e :: t) -> In x es).
  { intros x Hx. apply mapM_ok in Hm. clear -Hm Hx. revert x Hx. induction Hm as [|p y ps ys Hp _ IH]; intros x Hx; [destruct Hx|].
    destruct Hx as [<-|Hx]; [apply deref_In in Hp; apply Hp|auto]. }
  apply mean_med; [exact Hn|]. eapply sum_states_med; [exact Hs| |].
  - apply low_med, Lo, I. left. reflexivity.
  - intros x Hx. apply Lo, I. right. exact Hx.
Qed.
Lemma excite_box opt s s' : excite E opt s = Ok s' -> boxed s -> med (b_state s) -> boxed s'.
Proof.
  unfold excite. intros H Hb Ms. apply bind_Ok in H. destruct H as (s1 & H1 & H). apply bind_Ok in H. destruct H as (s2 & H2 & H).
  injection H as <-. apply computeLayers_spec in H1. destruct H1 as (ls & Hm & ->). unfold updateElectrons in H2.
  eapply (spawn_layers_box _ _ _ _ _ H2); [exact Hb|exact Ms|]. cbn [layers]. apply mapM_ok in Hm.
  clear H2. induction Hm as [|l l' ll ll' Hl _ IH]; [constructor|]. constructor; [|exact IH]. eapply computeLayer_med; [exact Hl|].
  intros e He. apply in_box_low, Hb, He.
Qed.
Lemma settle_box opt s s' : std_ok (std E) -> good E s -> settle E opt s = Ok s' -> boxed s -> boxed s' /\ med (b_state s').
Proof.
  intros Hstd Hg H Hb. assert (Hb1 : forall e, In e (evaluated E s) -> in_box b (estate e)).
  { intros e He. unfold evaluated in He. apply in_map_iff in He. destruct He as (x & <- & Hx). rewrite evaluate_state. apply Hb, Hx. }
  split; [intros e He; apply Hb1, (settle_computed E opt s s' Hstd Hg H e He)|].
  apply settle_full in H; auto. destruct H as (first & rest & st & prev & best & sorted & t & ls & H). cbv zeta in H.
  fold (evaluated E s) in H. destruct H as (Hes & _ & _ & Hst & _ & _ & _ & _ & _ & _ & _ & _ & _ & _ & _ & -> & _).
  apply mean_med; [rewrite Hes; cbn; lia|]. eapply sum_states_med; [exact Hst| |].
  - apply Forall_forall. intros x Hx. apply in_map_iff in Hx. destruct Hx as (_ & <- & _). split; [reflexivity|].
    cbn. rewrite Rabs_R0. apply Rlt_le, M854_pos.
  - intros e He. apply in_box_low, Hb1, He.
Qed.
Lemma init_box opt s s' : (forall g, in_box b (fst (iFun E g))) -> aos_initializePop E opt s = Ok s' -> boxed s'.
Proof.
  intros Hi H. unfold aos_initializePop in H. destruct (negb _); [discriminate|].
  assert (Q : forall n id g e, In e (fst (init_electrons E n id g)) -> in_box b (estate e)).
  { induction n as [|n IH]; intros id g e He; cbn in He; [destruct He|]. pose proof (Hi g). destruct (iFun E g) as [v g1]. specialize (IH (S id) g1 e).
    destruct (init_electrons E n (S id) g1) as [t g2]. cbn in *. destruct He as [<-|He]; auto. }
  specialize (Q (Z.to_nat (electronNum opt)) (e_next s) (a_rng s)). destruct (init_electrons E _ _ _) as [es g]. cbn [fst] in Q.
  destruct es as [|e es]; [discriminate|]. injection H as <-. exact Q.
Qed.
Lemma before_box s : std_ok (std E) -> (forall g, in_box b (fst (iFun E g))) -> before_round E s -> boxed s.
Proof.
  intros Hstd Hi H. induction H as [opt s s' H|opt s s1 s2 B IH H1 _ H2|opt s s1 B IH H1 _].
  - eapply init_box; eauto.
  - destruct (settle_box _ _ _ Hstd (before_good E s Hstd B) H1 IH) as (A & C). eapply excite_box; eauto.
  - apply (settle_box _ _ _ Hstd (before_good E s Hstd B) H1 IH).
Qed.
End P.
