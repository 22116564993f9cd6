(** Accuracy of PowDecode (TemplateFloat.hpp:141-235). *)
From Coq Require Import List ZArith Reals Bool Lia Lra.
From Flocq Require Import Core BinarySingleNaN Relative.
From Verif Require Import Base Fl FlFacts GlobalM GlobalSpec GlobalProofs GlobalProofs2.
Open Scope R_scope.

Definition u53 : R := bpow radix2 (-53).
Lemma u53_bound : 0 < u53 <= / 4096.
Proof.
  unfold u53. split; [apply bpow_gt_0|]. apply Rle_trans with (bpow radix2 (-12)); [apply bpow_le; lia|cbn; lra].
Qed.
#[global] Opaque u53.
(** [x] is [y] up to [k] rounding errors. *)
Definition rel (k : nat) (x y : R) : Prop := exists t, x = y * t /\ (1 - u53) ^ k <= t <= (1 + u53) ^ k.

Lemma pow_up k : (k <= 1024)%nat -> (1 + u53) ^ k <= 1 + 2 * INR k * u53.
Proof.
  pose proof u53_bound as U. intros H. induction k as [|k IH]; [cbn; lra|].
  cbn [pow]. specialize (IH ltac:(lia)). rewrite S_INR.
  assert (K : INR k <= 1024). { replace 1024 with (INR 1024) by (rewrite INR_IZR_INZ; reflexivity). apply le_INR. lia. }
  pose proof (pos_INR k).
  assert (P : 2 * INR k * u53 <= / 2). { apply Rle_trans with (2 * 1024 * / 4096); [|lra]. apply Rmult_le_compat; lra. }
  apply Rle_trans with ((1 + u53) * (1 + 2 * INR k * u53)); [apply Rmult_le_compat_l; lra|].
  assert (Q : u53 * (2 * INR k * u53) <= u53 * / 2) by (apply Rmult_le_compat_l; lra). lra.
Qed.
Lemma pow_dn k : 1 - INR k * u53 <= (1 - u53) ^ k.
Proof.
  pose proof u53_bound as U. induction k as [|k IH]; [cbn; lra|]. cbn [pow]. rewrite S_INR.
  pose proof (pos_INR k). assert (0 <= u53 * u53 * INR k) by (apply Rmult_le_pos; [apply Rmult_le_pos|]; lra).
  assert (A : (1 - u53) * (1 - INR k * u53) <= (1 - u53) * (1 - u53) ^ k) by (apply Rmult_le_compat_l; lra). lra.
Qed.
Lemma rel_range k t : (k <= 1024)%nat -> (1 - u53) ^ k <= t <= (1 + u53) ^ k -> / 2 <= t <= 2.
Proof.
  intros Hk (A & B). pose proof (pow_up k Hk) as P. pose proof (pow_dn k) as Q. pose proof u53_bound as U.
  assert (K : INR k <= 1024). { replace 1024 with (INR 1024) by (rewrite INR_IZR_INZ; reflexivity). apply le_INR. lia. }
  pose proof (pos_INR k).
  assert (INR k * u53 <= 1024 * / 4096) by (apply Rmult_le_compat; lra). lra.
Qed.
Lemma rel_0 x : rel 0 x x. Proof. exists 1. cbn. lra. Qed.
Lemma rel_mul j k x y x' y' : rel j x x' -> rel k y y' -> rel (j + k) (x * y) (x' * y').
Proof.
  intros (s & -> & S1 & S2) (t & -> & T1 & T2). pose proof u53_bound as U. exists (s * t). split; [ring|].
  rewrite !pow_add.
  assert (0 <= (1 - u53) ^ j) by (apply pow_le; lra). assert (0 <= (1 - u53) ^ k) by (apply pow_le; lra).
  split; apply Rmult_le_compat; lra.
Qed.
Lemma rel_one x e : Rabs e <= u53 -> rel 1 (x * (1 + e)) x.
Proof. intros H. apply Rabs_le_inv in H. exists (1 + e). cbn. lra. Qed.
Lemma rel_trans j k x y z : rel j x y -> rel k y z -> rel (j + k) x z.
Proof.
  intros (s & -> & S1 & S2) (t & -> & T1 & T2). pose proof u53_bound as U. exists (t * s). split; [ring|].
  rewrite (Nat.add_comm j k), !pow_add.
  assert (0 <= (1 - u53) ^ j) by (apply pow_le; lra). assert (0 <= (1 - u53) ^ k) by (apply pow_le; lra).
  split; apply Rmult_le_compat; lra.
Qed.
Lemma rel_opp k x y : rel k x y -> rel k (- x) (- y).
Proof. intros (t & -> & H). exists t. split; [ring|exact H]. Qed.

Lemma rel_weaken j k x y : (j <= k)%nat -> rel j x y -> rel k x y.
Proof.
  intros H (t & -> & A & B). pose proof u53_bound as U. exists t. split; [reflexivity|].
  replace k with ((k - j) + j)%nat by lia. rewrite !pow_add. split.
  - apply Rle_trans with (2 := A). rewrite <- (Rmult_1_l ((1 - u53) ^ j)) at 2. apply Rmult_le_compat_r; [apply pow_le; lra|].
    apply Rle_trans with (1 ^ (k - j)); [apply pow_incr; lra|rewrite pow1; lra].
  - apply Rle_trans with (1 := B). rewrite <- (Rmult_1_l ((1 + u53) ^ j)) at 1. apply Rmult_le_compat_r; [apply pow_le; lra|].
    apply pow_R1_Rle. lra.
Qed.

Definition Bmid (x : R) : Prop := bpow radix2 (-1000) <= Rabs x <= bpow radix2 1000.
Lemma rnd_rel x : Bmid x -> rel 1 (drnd x) x.
Proof.
  intros (H & _).
  destruct (relative_error_N_FLT_ex radix2 (-1074) 53 eq_refl (fun z => negb (Z.even z)) x) as (e & He & E).
  - apply Rle_trans with (2 := H). apply bpow_le. lia.
  - change (FLT_exp (-1074) 53) with (SpecFloat.fexp 53 1024) in E. rewrite E. apply rel_one.
    apply Rle_trans with (1 := He). Transparent u53. unfold u53. Opaque u53.
    replace (/ 2) with (bpow radix2 (-1)) by (cbn; lra). rewrite <- bpow_plus. apply bpow_le. lia.
Qed.
Lemma rnd_mid x : Bmid x -> Rabs (drnd x) < bpow radix2 1024.
Proof.
  intros (_ & H). apply Rle_lt_trans with (bpow radix2 1000); [|apply bpow_lt; lia].
  apply (rnd_abs_gen 53 1024 _); [apply (gen_bpow 53 1024 _); cbn; lia|exact H].
Qed.
Lemma fmul_rel (x y : double) : fin x -> fin y -> Bmid (B2R x * B2R y) ->
  fin (fmul x y) /\ rel 1 (B2R (fmul x y)) (B2R x * B2R y).
Proof.
  intros Fx Fy H. destruct (fmul_fin 53 1024 _ _ x y Fx Fy (rnd_mid _ H)) as (F & E).
  split; [exact F|]. rewrite E. apply rnd_rel, H.
Qed.
Lemma fdiv_rel (x y : double) : fin x -> B2R y <> 0 -> Bmid (B2R x / B2R y) ->
  fin (fdiv x y) /\ rel 1 (B2R (fdiv x y)) (B2R x / B2R y).
Proof.
  intros Fx Fy H. destruct (fdiv_fin 53 1024 _ _ x y Fx Fy (rnd_mid _ H)) as (F & E).
  split; [exact F|]. rewrite E. apply rnd_rel, H.
Qed.

(** A value within a factor two of something between 2^-900 and 2^900. *)
Lemma mid_rel k x y : (k <= 1024)%nat -> rel k x y -> bpow radix2 (-900) <= Rabs y <= bpow radix2 900 -> Bmid x.
Proof.
  intros Hk (t & -> & H) (A & B). pose proof (rel_range k t Hk H) as T. unfold Bmid.
  rewrite Rabs_mult, (Rabs_pos_eq t) by lra.
  assert (E1 : bpow radix2 (-1000) <= bpow radix2 (-900) * / 2).
  { replace (/ 2) with (bpow radix2 (-1)) by (cbn; lra). rewrite <- bpow_plus. apply bpow_le. lia. }
  assert (E2 : bpow radix2 900 * 2 <= bpow radix2 1000).
  { replace 2 with (bpow radix2 1) by (cbn; lra). rewrite <- bpow_plus. apply bpow_le. lia. }
  pose proof (bpow_gt_0 radix2 (-900)) as P.
  split.
  - apply Rle_trans with (1 := E1). apply Rmult_le_compat; lra.
  - apply Rle_trans with (2 := E2). apply Rmult_le_compat; try lra.
Qed.

Lemma ten_pow n : (n <= 255)%nat -> 1 <= 10 ^ n <= bpow radix2 850.
Proof.
  intros H. split; [apply pow_R1_Rle; lra|]. apply Rle_trans with (10 ^ 255); [apply Rle_pow; [lra|exact H]|].
  rewrite pow_IZR. rewrite <- (IZR_Zpower radix2) by lia. apply IZR_le.
  apply Z.leb_le. vm_compute. reflexivity.
Qed.
Lemma mid_of_pow (m : R) n : (n <= 255)%nat -> / 10 <= m <= 10 ->
  (bpow radix2 (-900) <= Rabs (m * 10 ^ n) <= bpow radix2 900) /\
  (bpow radix2 (-900) <= Rabs (m * / 10 ^ n) <= bpow radix2 900).
Proof.
  intros H Hm. destruct (ten_pow n H) as (A & B).
  assert (E1 : bpow radix2 (-900) <= / 10 * bpow radix2 (-850)).
  { apply Rle_trans with (bpow radix2 (-4) * bpow radix2 (-850)); [rewrite <- bpow_plus; apply bpow_le; lia|].
    apply Rmult_le_compat_r; [apply bpow_ge_0|]. cbn; lra. }
  assert (E2 : 10 * bpow radix2 850 <= bpow radix2 900).
  { apply Rle_trans with (bpow radix2 4 * bpow radix2 850); [|rewrite <- bpow_plus; apply bpow_le; lia].
    apply Rmult_le_compat_r; [apply bpow_ge_0|]. cbn; lra. }
  assert (E3 : bpow radix2 (-850) <= / 10 ^ n).
  { change (-850)%Z with (- (850))%Z. rewrite bpow_opp. apply Rinv_le_contravar; lra. }
  assert (E4 : / 10 ^ n <= 1) by (rewrite <- Rinv_1; apply Rinv_le_contravar; lra).
  assert (E5 : bpow radix2 (-900) <= / 10).
  { apply Rle_trans with (bpow radix2 (-4)); [apply bpow_le; lia|cbn; lra]. }
  assert (E6 : 10 <= bpow radix2 900).
  { apply Rle_trans with (bpow radix2 4); [cbn; lra|apply bpow_le; lia]. }
  assert (P1 : 0 < 10 ^ n) by lra. assert (P2 : 0 < / 10 ^ n) by (apply Rinv_0_lt_compat, P1).
  pose proof (bpow_gt_0 radix2 (-850)) as P3.
  rewrite !Rabs_mult, (Rabs_pos_eq m), (Rabs_pos_eq (10 ^ n)), (Rabs_pos_eq (/ 10 ^ n)) by lra.
  split; split.
  - apply Rle_trans with (1 := E5). rewrite <- (Rmult_1_r (/ 10)). apply Rmult_le_compat; lra.
  - apply Rle_trans with (2 := E2). apply Rmult_le_compat; lra.
  - apply Rle_trans with (1 := E1). apply Rmult_le_compat; lra.
  - apply Rle_trans with (2 := E6). rewrite <- (Rmult_1_r 10) at 2. apply Rmult_le_compat; lra.
Qed.

Lemma ten_fin : fin (d_of_Z 10) /\ B2R (d_of_Z 10) = 10. Proof. apply d_of_Z_exact. lia. Qed.
Lemma tenth_rel : fin tenth /\ rel 1 (B2R tenth) (/ 10).
Proof.
  destruct (d_of_Z_exact 1 ltac:(lia)) as (F1 & V1). destruct ten_fin as (F10 & V10). unfold tenth.
  replace (/ 10) with (B2R (d_of_Z 1) / B2R (d_of_Z 10)) by (rewrite V1, V10; lra).
  apply fdiv_rel; [exact F1|rewrite V10; lra|]. rewrite V1, V10. unfold Rdiv. rewrite Rmult_1_l.
  apply (mid_rel 0 _ _ ltac:(lia) (rel_0 _)).
  destruct (mid_of_pow (/ 10) 0 ltac:(lia) ltac:(lra)) as (H & _). rewrite pow_O, Rmult_1_r in H. exact H.
Qed.
Lemma OneE_up n : (n <= 255)%nat -> fin (OneE (d_of_Z 10) n) /\ rel n (B2R (OneE (d_of_Z 10) n)) (10 ^ n).
Proof.
  destruct ten_fin as (F10 & V10).
  induction n as [|n IH]; intros H; cbn [OneE].
  - split; [apply d1_fin|]. rewrite d1_val. apply rel_0.
  - destruct (IH ltac:(lia)) as (F & Rl).
    assert (R1 : rel n (B2R (d_of_Z 10) * B2R (OneE (d_of_Z 10) n)) (10 ^ S n)).
    { change (10 ^ S n) with (10 * 10 ^ n). rewrite V10. apply (rel_mul 0 n); [apply rel_0|exact Rl]. }
    destruct (fmul_rel (d_of_Z 10) (OneE (d_of_Z 10) n) F10 F) as (A & B).
    + apply (mid_rel n _ _ ltac:(lia) R1). destruct (mid_of_pow 1 (S n) H ltac:(lra)) as (M & _). rewrite Rmult_1_l in M. exact M.
    + split; [exact A|]. apply (rel_trans 1 n _ _ _ B R1).
Qed.
Lemma OneE_dn n : (n <= 255)%nat -> fin (OneE tenth n) /\ rel (2 * n) (B2R (OneE tenth n)) (/ 10 ^ n).
Proof.
  destruct tenth_rel as (F10 & V10).
  induction n as [|n IH]; intros H; cbn [OneE].
  - split; [apply d1_fin|]. rewrite d1_val. cbn [pow]. rewrite Rinv_1. apply rel_0.
  - destruct (IH ltac:(lia)) as (F & Rl).
    assert (R1 : rel (1 + 2 * n) (B2R tenth * B2R (OneE tenth n)) (/ 10 ^ S n)).
    { replace (/ 10 ^ S n) with (/ 10 * / 10 ^ n).
      - apply rel_mul; assumption.
      - change (10 ^ S n) with (10 * 10 ^ n). rewrite Rinv_mult. reflexivity. }
    destruct (fmul_rel tenth (OneE tenth n) F10 F) as (A & B).
    + apply (mid_rel (1 + 2 * n) _ _ ltac:(lia) R1). destruct (mid_of_pow 1 (S n) H ltac:(lra)) as (_ & M). rewrite Rmult_1_l in M. exact M.
    + split; [exact A|]. replace (2 * S n)%nat with (1 + (1 + 2 * n))%nat by lia. apply (rel_trans _ _ _ _ _ B R1).
Qed.

Lemma e16_fin : fin (d_of_Z 10000000000000000) /\ B2R (d_of_Z 10000000000000000) = 10000000000000000.
Proof.
  assert (E : IZR 10000000000000000 = IZR 152587890625 * bpow radix2 16) by (cbn; lra).
  assert (G : drnd (IZR 10000000000000000 * bpow radix2 0) = 10000000000000000).
  { cbn [bpow]. rewrite Rmult_1_r, E. apply round_generic; [typeclasses eauto|]. apply (gen_IZR_bpow 53 1024 _); cbn; lia. }
  destruct (fofZ_fin 53 1024 _ _ 10000000000000000 0) as (A & B).
  - rewrite G. rewrite Rabs_pos_eq by lra. change 10000000000000000 with (IZR 10000000000000000). rewrite <- (Rmult_1_r (IZR _)). change 1 with (bpow radix2 0).
    apply Rle_lt_trans with (bpow radix2 60); [|apply bpow_lt; lia]. cbn. lra.
  - split; [exact A|]. unfold d_of_Z. rewrite B. exact G.
Qed.

Lemma PowReal_rel c (r : Z) : (10000000000000000 <= Z.abs r < 18014398509481984)%Z -> PowSig c = r -> (-255 <= PowPow c <= 255)%Z ->
  fin (PowReal c) /\
  rel 513 (B2R (PowReal c)) (IZR r / 10000000000000000 * powerRZ 10 (PowPow c)).
Proof.
  intros Hr E Hp. destruct e16_fin as (F16 & V16).
  assert (Rr : 10000000000000000 <= Rabs (IZR r) <= 18014398509481984).
  { rewrite <- abs_IZR. split; apply IZR_le; lia. }
  (* the integer significand *)
  assert (M0 : Bmid (IZR r)).
  { split.
    - apply Rle_trans with (bpow radix2 0); [apply bpow_le; lia|cbn; lra].
    - apply Rle_trans with (bpow radix2 54); [cbn; lra|apply bpow_le; lia]. }
  assert (S : fin (d_of_Z r) /\ rel 1 (B2R (d_of_Z r)) (IZR r)).
  { destruct (fofZ_fin 53 1024 _ _ r 0) as (A & B).
    - cbn [bpow]. rewrite Rmult_1_r. apply rnd_mid, M0.
    - split; [exact A|]. unfold d_of_Z. rewrite B. cbn [bpow]. rewrite Rmult_1_r. apply rnd_rel, M0. }
  destruct S as (Fs & Rs).
  set (q := IZR r / 10000000000000000).
  assert (Hq : 1 <= Rabs q <= 2).
  { unfold q, Rdiv. rewrite Rabs_mult, (Rabs_pos_eq (/ _)) by lra. lra. }
  assert (R1 : rel 1 (B2R (d_of_Z r) / B2R (d_of_Z 10000000000000000)) q).
  { rewrite V16. unfold q, Rdiv. apply (rel_mul 1 0); [exact Rs|apply rel_0]. }
  destruct (fdiv_rel (d_of_Z r) (d_of_Z 10000000000000000) Fs) as (Fd & Rd).
  { rewrite V16. lra. }
  { apply (mid_rel 1 _ _ ltac:(lia) R1). split.
    - apply Rle_trans with (bpow radix2 0); [apply bpow_le; lia|cbn; lra].
    - apply Rle_trans with (bpow radix2 1); [cbn; lra|apply bpow_le; lia]. }
  assert (R2 : rel 2 (B2R (fdiv (d_of_Z r) (d_of_Z 10000000000000000))) q) by (apply (rel_trans 1 1 _ _ _ Rd R1)).
  assert (P : exists n, (n <= 255)%nat /\
     (powerRZ 10 (PowPow c) = 10 ^ n \/ powerRZ 10 (PowPow c) = / 10 ^ n) /\
     let part := if (0 <? PowPow c)%Z then OneE (d_of_Z 10) (Z.to_nat (PowPow c)) else OneE tenth (Z.to_nat (- PowPow c)) in
     fin part /\ exists k, (k <= 510)%nat /\ rel k (B2R part) (powerRZ 10 (PowPow c))).
  { destruct (Z.ltb_spec 0 (PowPow c)) as [L|L].
    - exists (Z.to_nat (PowPow c)). split; [lia|]. assert (EP : powerRZ 10 (PowPow c) = 10 ^ Z.to_nat (PowPow c)).
      { rewrite pow_powerRZ, Z2Nat.id by lia. reflexivity. }
      split; [left; exact EP|]. cbv zeta. destruct (OneE_up (Z.to_nat (PowPow c)) ltac:(lia)) as (A & B).
      split; [exact A|]. rewrite EP. exists (Z.to_nat (PowPow c)). split; [lia|exact B].
    - exists (Z.to_nat (- PowPow c)). split; [lia|]. assert (EP : powerRZ 10 (PowPow c) = / 10 ^ Z.to_nat (- PowPow c)).
      { rewrite pow_powerRZ, Z2Nat.id by lia. rewrite <- powerRZ_neg', Z.opp_involutive. reflexivity. }
      split; [right; exact EP|]. cbv zeta. destruct (OneE_dn (Z.to_nat (- PowPow c)) ltac:(lia)) as (A & B).
      split; [exact A|]. rewrite EP. exists (2 * Z.to_nat (- PowPow c))%nat. split; [lia|exact B]. }
  destruct P as (n & Hn & EP & Fp & k & Hk & Rp). cbv zeta in Fp, Rp.
  unfold PowReal. rewrite E. cbv zeta. set (part := if (0 <? PowPow c)%Z then _ else _) in *.
  assert (R3 := rel_mul _ _ _ _ _ _ R2 Rp).
  assert (Mid : bpow radix2 (-900) <= Rabs (q * powerRZ 10 (PowPow c)) <= bpow radix2 900).
  { rewrite Rabs_mult, <- (Rabs_Rabsolu q), <- Rabs_mult.
    assert (Hq' : / 10 <= Rabs q <= 10) by (clear - Hq; lra).
    destruct (mid_of_pow (Rabs q) n Hn Hq') as (X & Y). destruct EP as [-> | ->]; assumption. }
  destruct (fmul_rel _ part Fd Fp (mid_rel (2 + k) _ _ ltac:(lia) R3 Mid)) as (A & B).
  split; [exact A|]. pose proof (rel_trans _ _ _ _ _ B R3) as R4. clear - R4 Hk.
  assert (H : (1 + (2 + k) <= 513)%nat) by lia. apply (rel_weaken _ _ _ _ H R4).
Qed.

Lemma rel_err k x y : (k <= 513)%nat -> rel k x y -> Rabs (x - y) <= bpow radix2 (-42) * Rabs y.
Proof.
  intros Hk (t & -> & A & B). replace (y * t - y) with ((t - 1) * y) by ring. rewrite Rabs_mult.
  apply Rmult_le_compat_r; [apply Rabs_pos|].
  assert (Hk2 : (k <= 1024)%nat) by lia.
  pose proof (pow_up k Hk2) as P. pose proof (pow_dn k) as Q. pose proof u53_bound as U.
  assert (I : 0 <= INR k <= 513).
  { rewrite INR_IZR_INZ. split; apply IZR_le; lia. }
  assert (E : 2048 * u53 = bpow radix2 (-42)).
  { Transparent u53. unfold u53. Opaque u53. 
    replace 2048 with (bpow radix2 11) by (cbn; lra). rewrite <- bpow_plus. reflexivity. }
  assert (J : 0 <= INR k * u53 <= 513 * u53) by (split; [apply Rmult_le_pos|apply Rmult_le_compat_r]; lra).
  rewrite <- E. apply Rabs_le. lra.
Qed.
