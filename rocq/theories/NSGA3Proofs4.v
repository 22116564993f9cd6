(** The inner layer of reference points; normalisation. *)
From Coq Require Import List Arith ZArith Reals Bool Lia Lra Permutation.
From Flocq Require Import Core BinarySingleNaN.
From Verif Require Import Base Fl FlFacts Rng StdOps ListFacts GABase MOGA MOGASpec MOGAProofs MOGAProofs5 GlobalM GlobalSpec NSGA3 NSGA3Spec NSGA3Proofs NSGA3Proofs2 NSGA3Proofs3.
Import ListNotations.
Open Scope R_scope.

(** * The inner layer *)
Lemma coords_unit p : (1 <= Z.of_nat p <= 9007199254740992)%Z -> forall k a, (a + list_sum k = p)%nat ->
  Forall (fun d => fin d /\ 0 <= B2R d <= 1) (coords p a k).
Proof.
  intros Hp. induction k as [|x t IH]; intros a H; [constructor|]. cbn [list_sum fold_right] in H. change (fold_right Nat.add 0%nat t) with (list_sum t) in H.
  cbn [coords]. destruct t as [|y t].
  - constructor; [|constructor]. destruct (frac_ok p Hp a ltac:(lia)) as (F & _ & U).
    destruct (fsub_bounded d1 (frac p a) 1 0) as (F2 & _ & E2); try lia; [exact d1_fin|exact F| |].
    { rewrite d1_val. cbn. rewrite Rabs_pos_eq by lra. lra. }
    split; [exact F2|]. rewrite E2, d1_val. split; [apply drnd_ge0; lra|apply drnd_le1; lra].
  - constructor; [|apply IH; lia]. destruct (frac_ok p Hp x ltac:(lia)) as (F & _ & U). auto.
Qed.
Lemma isqrt2_ok : fin inv_sqrt2 /\ Rabs (B2R inv_sqrt2 - / sqrt 2) <= bpow radix2 (-54) /\ 0 <= B2R inv_sqrt2 <= 1.
Proof.
  destruct (@fofZ_exact 53 1024 _ _ 6369051672525773 (-53)) as (F & E); try (vm_compute; intuition discriminate).
  split; [exact F|]. unfold inv_sqrt2. rewrite E. clear E F.
  assert (S2 : 0 < / sqrt 2) by (apply Rinv_0_lt_compat, sqrt_lt_R0; lra).
  assert (S3 : / sqrt 2 * / sqrt 2 = / 2).
  { rewrite <- Rinv_mult. f_equal. apply sqrt_sqrt. lra. }
  set (s := / sqrt 2) in *. clearbody s.
  change (bpow radix2 (-53)) with (/ 9007199254740992). change (bpow radix2 (-54)) with (/ 18014398509481984).
  split; [|lra]. apply Rabs_le. split.
  - assert (X : s <= 6369051672525773 * / 9007199254740992 + / 18014398509481984); [|lra]. apply Rsqr_incr_0_var; [|lra]. unfold Rsqr. lra.
  - assert (X : 6369051672525773 * / 9007199254740992 - / 18014398509481984 <= s); [|lra]. apply Rsqr_incr_0_var; [|lra]. unfold Rsqr. lra.
Qed.
Lemma inner_ok p k x : lattice_point p k x -> Forall (fun d => fin d /\ 0 <= B2R d <= 1) x ->
  Forall (fun ki => 0 <= INR ki / INR p <= 1) k -> inner_point p k (map (fun d => fmul d inv_sqrt2) x).
Proof.
  intros L. induction L as [|ki d k x (F & E) L IH]; intros U W; [constructor|]. cbn [map].
  inversion U as [|? ? (_ & U1) U2]; subst. inversion W as [|? ? W1 W2]; subst. constructor; [|apply IH; assumption].
  destruct isqrt2_ok as (Fc & Ec & Uc).
  set (c := inv_sqrt2) in *. clearbody c.
  assert (P01 : 0 <= B2R d * B2R c <= 1) by nra.
  destruct (fmul_fin 53 1024 _ _ d c F Fc) as (Fm & Em).
  { change (round radix2 (SpecFloat.fexp 53 1024) (Znearest (fun z => negb (Z.even z))) (B2R d * B2R c)) with (drnd (B2R d * B2R c)).
    eapply Rle_lt_trans with 1; [|change 1 with (bpow radix2 0); apply bpow_lt; lia].
    rewrite Rabs_pos_eq by (apply drnd_ge0, P01). apply drnd_le1, P01. }
  split; [exact Fm|]. rewrite Em. pose proof (unit_err (B2R d * B2R c) P01) as E3.
  assert (B52 : bpow radix2 (-52) = 4 * bpow radix2 (-54)).
  { change (-52)%Z with (2 + -54)%Z. rewrite bpow_plus. reflexivity. }
  rewrite B52. rewrite half54 in E. pose proof (bpow_gt_0 radix2 (-54)) as B0. revert E3 E Ec B0. generalize (bpow radix2 (-54)). intros b E3 E Ec B0.
  set (r := drnd (B2R d * B2R c)) in *. clearbody r. set (q := INR ki / INR p) in *. clearbody q. set (s := / sqrt 2) in *.
  set (u := B2R d) in *. clearbody u. set (v := B2R c) in *. clearbody v.
  change (q / sqrt 2) with (q * s). clearbody s.
  replace (r - q * s) with ((r - u * v) + ((u - q) * v + q * (v - s))) by ring.
  eapply Rle_trans; [apply Rabs_triang|]. replace (4 * b) with (b + (2 * b * 1 + 1 * b)) by ring. apply Rplus_le_compat; [exact E3|].
  eapply Rle_trans; [apply Rabs_triang|]. rewrite !Rabs_mult, (Rabs_pos_eq v), (Rabs_pos_eq q) by lra.
  apply Rplus_le_compat; apply Rmult_le_compat; try apply Rabs_pos; lra.
Qed.

(** * Normalisation *)
Section N.
Context {V : Type} (lin : lin_ops) (M : nat).
Notation gene' := (gene V fitv).
Lemma ideal_ok (order : list gene') i : (i < M)%nat -> order <> [] ->
  (forall x, In x order -> fin (objective (gfit x) i)) ->
  (exists x, In x order /\ objective (idealPoint M order) i = objective (gfit x) i) /\
  (forall x, In x order -> fle (objective (idealPoint M order) i) (objective (gfit x) i) = true).
Proof.
  intros Hi NE HF.
  assert (Er : objective (repeat pinfD M) i = dinf).
  { unfold objective. apply (repeat_spec M). apply nth_In. rewrite repeat_length. exact Hi. }
  destruct (ideal_fold M false order (repeat pinfD M) i Hi) as (A & _ & B & C).
  { intros x Hx. apply fin_nonnan, HF, Hx. }
  { rewrite Er. reflexivity. }
  fold (idealPoint M order) in A, B, C.
  assert (D : forall x, In x order -> fle (objective (idealPoint M order) i) (objective (gfit x) i) = true).
  { intros x Hx. specialize (C x Hx). apply flt_false_le; [apply fin_nonnan, HF, Hx|exact B|]. unfold Better in C.
    destruct (flt _ _); [exfalso; apply C; reflexivity|reflexivity]. }
  split; [|exact D]. destruct A as [A|A]; [|exact A]. exfalso. rewrite Er in A. destruct order as [|x l]; [congruence|].
  specialize (HF x (or_introl eq_refl)). specialize (D x (or_introl eq_refl)). rewrite A in D.
  revert D HF. destruct (objective (gfit x) i) as [[]| [] | |]; cbn; intros; discriminate.
Qed.
Lemma extreme_ok o (order : list gene') : forall start, (forall x, In x (start :: order) -> fin (objective (gfit x) o)) ->
  In (extreme o start order) (start :: order) /\
  forall x, In x (start :: order) -> fle (objective (gfit x) o) (objective (gfit (extreme o start order)) o) = true.
Proof.
  unfold extreme. induction order as [|y order IH]; intros start HF; cbn [fold_left].
  - split; [left; reflexivity|]. intros x [<-|[]]. apply fle_iff; try apply Rle_refl; apply fin_nonnan, HF; left; reflexivity.
  - change (obj (gfit start) o) with (objective (gfit start) o). change (obj (gfit y) o) with (objective (gfit y) o).
    set (s := if flt (objective (gfit start) o) (objective (gfit y) o) then y else start).
    assert (Fs : fin (objective (gfit start) o)) by (apply HF; left; reflexivity).
    assert (Fy : fin (objective (gfit y) o)) by (apply HF; right; left; reflexivity).
    assert (S1 : In s (start :: y :: order)) by (unfold s; destruct (flt _ _); cbn; auto).
    assert (S2 : fle (objective (gfit start) o) (objective (gfit s) o) = true /\ fle (objective (gfit y) o) (objective (gfit s) o) = true).
    { unfold s. destruct (flt (objective (gfit start) o) (objective (gfit y) o)) eqn:E.
      - split; [|apply fle_iff; try apply Rle_refl; apply fin_nonnan, Fy]. apply flt_iff in E; try (apply fin_nonnan; assumption).
        apply fle_iff; try (apply fin_nonnan; assumption). lra.
      - split; [apply fle_iff; try apply Rle_refl; apply fin_nonnan, Fs|]. apply flt_false_le; try (apply fin_nonnan; assumption). exact E. }
    destruct (IH s) as (A & B).
    { intros x [<-|Hx]; [apply HF, S1|apply HF; right; right; exact Hx]. }
    split.
    + destruct A as [A|A]; [rewrite <- A; exact S1|right; right; exact A].
    + assert (Fe : fin (objective (gfit (fold_left (fun e x => if flt (obj (gfit e) o) (obj (gfit x) o) then x else e) order s)) o)).
      { apply HF. destruct A as [A|A]; [rewrite <- A; exact S1|right; right; exact A]. }
      assert (Fs' : fin (objective (gfit s) o)) by (apply HF, S1).
      pose proof (B s (or_introl eq_refl)) as Bs. apply fle_iff in Bs; try (apply fin_nonnan; assumption).
      destruct S2 as (S2 & S3). apply fle_iff in S2; try (apply fin_nonnan; assumption). apply fle_iff in S3; try (apply fin_nonnan; assumption).
      intros x [<-|[<-|Hx]]; [| |apply B; right; exact Hx]; apply fle_iff; try (apply fin_nonnan; assumption); lra.
Qed.
Lemma nth_map_seq {B} (f : nat -> B) d o : (o < M)%nat -> nth o (map f (seq 0 M)) d = f o.
Proof.
  intros H. rewrite (nth_indep _ d (f 0%nat)) by (rewrite map_length, seq_length; exact H).
  rewrite (map_nth f (seq 0 M) 0%nat o). rewrite seq_nth by exact H. reflexivity.
Qed.
Lemma fdiv_nan : fdiv d1 dnan = dnan. Proof. reflexivity. Qed.
Lemma translated_ok start (order : list gene') x o : (o < M)%nat ->
  objective (translated lin M start order x) o =
  fdiv (fsub (objective (gfit x) o) (objective (idealPoint M order) o))
       (if fle (fabs (determinant lin (extremePoints M start order))) eps10
        then fsub (objective (gfit (extreme o start order)) o) (objective (idealPoint M order) o)
        else fdiv d1 (objective (inv_ones lin (extremePoints M start order)) o)).
Proof.
  intros Ho. unfold translated. rewrite !cwise_obj by exact Ho. f_equal. unfold intercepts, objective.
  destruct (fle _ eps10).
  - rewrite nth_map_seq by exact Ho. unfold extremePoints. rewrite nth_map_seq by exact Ho. apply (cwise_obj M fsub); exact Ho.
  - rewrite <- fdiv_nan at 1. apply map_nth.
Qed.

(** A constant objective. *)
Lemma fsub_self (v : double) : fin v -> exists s, fsub v v = B754_zero s.
Proof.
  intros F. destruct (fsub_fin 53 1024 _ _ v v F F) as (A & B).
  { rewrite Rminus_diag_eq by reflexivity. rewrite (rnd_0 53 1024), Rabs_R0. apply bpow_gt_0. }
  rewrite Rminus_diag_eq in B by reflexivity. rewrite (rnd_0 53 1024) in B.
  destruct (fsub v v) as [s|s| |s m e H]; try discriminate A; [exists s; reflexivity|]. exfalso. cbn in B.
  apply eq_0_F2R in B. destruct s; discriminate B.
Qed.
Lemma constant_nan start (order : list gene') x o v : (o < M)%nat -> order <> [] -> fin v ->
  (forall y, In y (x :: start :: order) -> objective (gfit y) o = v) ->
  fle (fabs (determinant lin (extremePoints M start order))) eps10 = true ->
  is_nan (objective (translated lin M start order x) o) = true.
Proof.
  intros Ho NE F Hv HD. rewrite translated_ok by exact Ho. rewrite HD.
  destruct (ideal_ok order o Ho NE) as ((y & Hy & Ei) & _).
  { intros z Hz. rewrite Hv by (right; right; exact Hz). exact F. }
  destruct (extreme_ok o order start) as (A & _).
  { intros z Hz. rewrite Hv by (right; exact Hz). exact F. }
  rewrite Ei, !Hv by (cbn; auto). destruct (fsub_self v F) as (s & ->). destruct s; reflexivity.
Qed.
End N.
Lemma nan_mul (a b : double) : is_nan b = true -> is_nan (fmul a b) = true.
Proof. destruct a, b; try discriminate; reflexivity. Qed.
Lemma nan_div (a b : double) : is_nan a = true -> is_nan (fdiv a b) = true.
Proof. destruct a; try discriminate; reflexivity. Qed.
Lemma nan_sub (a b : double) : is_nan a = true -> is_nan (fsub a b) = true.
Proof. destruct a; try discriminate; reflexivity. Qed.
Lemma minScan_nan l : forall bi best i, (forall x, In x l -> is_nan (x : double) = true) -> fst (minScan flt bi best i l) = bi.
Proof.
  induction l as [|x l IH]; intros bi best i H; cbn [minScan]; [reflexivity|].
  assert (E : flt x best = false). { specialize (H x (or_introl eq_refl)). destruct x; try discriminate H. reflexivity. }
  rewrite E. apply IH. intros y Hy. apply H. right. exact Hy.
Qed.
(** Reductions that propagate NaN. *)
Definition nan_through (lin : lin_ops) (M : nat) : Prop :=
  (forall w s o, length w = M -> length s = M -> (o < M)%nat -> is_nan (nth o s dnan) = true -> is_nan (dotp lin w s) = true) /\
  (forall v x, In x v -> is_nan x = true -> is_nan (sqnorm lin v) = true).
Lemma nearest_nan lin M ws s o : nan_through lin M -> (o < M)%nat -> length s = M -> is_nan (nth o s dnan) = true -> ws <> [] ->
  (forall w, In w ws -> length w = M) -> exists d, nearest lin ws s = Ok (0%nat, d).
Proof.
  intros (H1 & H2) Ho Ls Hn NE HL. unfold nearest, findNearest. destruct ws as [|w0 ws]; [congruence|]. cbn [map].
  assert (Q : forall w, length w = M -> is_nan (lineDistance fmul fdiv fsub (dotp lin) (sqnorm lin) w s) = true).
  { intros w Lw. unfold lineDistance. cbv zeta. destruct w as [|a w]; [cbn in Lw; lia|]. destruct s as [|b s]; [cbn in Ls; lia|].
    eapply H2; [left; reflexivity|]. apply nan_sub, nan_div, nan_mul. eapply H1; eassumption. }
  pose proof (minScan_nan (map (fun w => lineDistance fmul fdiv fsub (dotp lin) (sqnorm lin) w s) ws) 0
     (lineDistance fmul fdiv fsub (dotp lin) (sqnorm lin) w0 s) 1) as E.
  destruct (minScan flt 0 _ 1 _) as [j d]. exists d. cbn [fst] in E. rewrite E; [reflexivity|].
  intros x Hx. apply in_map_iff in Hx. destruct Hx as (w & <- & Hw). apply Q, HL. right. exact Hw.
Qed.
