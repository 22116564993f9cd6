(** StochasticUniversal with unequal fitness values: at most one survivor more
    than populationSize. *)
From Coq Require Import List Arith ZArith Reals Bool Lia Lra Permutation.
From Flocq Require Import Core BinarySingleNaN Relative.
From Verif Require Import Base Fl FlFacts Rng RandProofs StdOps ListFacts WheelProofs2 GABase GABaseProofs GAOpsProofs SOGA SOGAProofs SOGAProofs2 SOGAProofs3 SOGAProofs4 SOGAProofs5 SOGAProofs6 SOGAProofs7 SOGAProofs8.
Import ListNotations.
Open Scope R_scope.

Definition uu : R := bpow radix2 (-53).
Lemma uu_eq : uu = bpow radix2 (-53). Proof. reflexivity. Qed.
Lemma uu_val : uu = / 9007199254740992.
Proof. unfold uu. cbn. reflexivity. Qed.
Lemma uu_pos : 0 < uu < / 4.
Proof. rewrite uu_val. lra. Qed.
Global Opaque uu.

Lemma add_err (x y : double) : 0 <= B2R x + B2R y ->
  (B2R x + B2R y) * (1 - uu) <= drnd (B2R x + B2R y) <= (B2R x + B2R y) * (1 + uu).
Proof.
  intros H. pose proof (fsub_err x (fopp y)) as E. rewrite fopp_B2R in E.
  replace (B2R x - - B2R y) with (B2R x + B2R y) in E by ring. rewrite (Rabs_pos_eq (B2R x + B2R y)) in E by exact H.
  rewrite <- uu_eq in E. apply Rabs_le_inv in E. lra.
Qed.
Lemma sub_err (x y : double) : 0 <= B2R x - B2R y -> 
  (B2R x - B2R y) * (1 - uu) <= drnd (B2R x - B2R y) <= (B2R x - B2R y) * (1 + uu).
Proof.
  intros H. pose proof (fsub_err x y) as E. rewrite (Rabs_pos_eq (B2R x - B2R y)) in E by exact H.
  rewrite <- uu_eq in E. apply Rabs_le_inv in E. lra.
Qed.

Definition total (es : list (nat * double)) : R := fold_right Rplus 0 (map (fun e => B2R (snd e)) es).
Definition weight_ok (e : nat * double) : Prop := fin (snd e) /\ 0 <= B2R (snd e) <= B900.

Lemma total_nonneg (es : list (nat * double)) : (forall e, In e es -> weight_ok e) -> 0 <= total es.
Proof.
  induction es as [|z l IHl]; intros Hl; [apply Rle_refl|]. pose proof (Hl z (or_introl eq_refl)) as (_ & Q).
  specialize (IHl (fun q Hq => Hl q (or_intror Hq))). change (total (z :: l)) with (B2R (snd z) + total l). lra.
Qed.
Lemma pow_grow n : 1 <= (1 + uu) ^ n.
Proof. apply pow_R1_Rle. pose proof uu_pos. lra. Qed.

(** The paving: weights seen, times an accumulated error, pay for the firings. *)
Lemma su_pave_count (interval : double) : fin interval -> 0 <= B2R interval ->
  forall es (c : double) (m : Z), (forall e, In e es -> weight_ok e) -> fin c ->
  (0 <= m)%Z -> (m + Z.of_nat (length es) < 9007199254740992)%Z -> 0 <= B2R c <= IZR m * B900 ->
  INR (length es - length (su_pave interval c es)) * B2R interval <= (B2R c + total es) * (1 + uu) ^ (2 * length es).
Proof.
  intros Fi Hi. induction es as [|e es IH]; intros c m We Fc Hm Hml Hc.
  { cbn. lra. }
  destruct (We e (or_introl eq_refl)) as (Fe & Be). pose proof uu_pos as U. pose proof B900_pos as BP.
  cbn [length] in Hml.
  destruct (fadd_900 c (snd e) (m + 1)) as (A1 & A2 & A3); try assumption; [lia| |].
  { rewrite plus_IZR, Rabs_pos_eq; lra. }
  pose proof (add_err c (snd e) ltac:(lra)) as (E1 & E2). rewrite <- A3 in E1, E2.
  assert (P0 : 0 <= B2R (fadd c (snd e))).
  { apply Rle_trans with (2 := E1). apply Rmult_le_pos; lra. }
  assert (B1 : B2R (fadd c (snd e)) <= IZR (m + 1) * B900) by (rewrite Rabs_pos_eq in A2 by exact P0; exact A2).
  assert (T : total (e :: es) = B2R (snd e) + total es) by reflexivity.
  assert (Tp : 0 <= total es).
  { apply total_nonneg. intros z Hz. apply We. right. exact Hz. }
  set (n := length es) in *.
  assert (Lp : forall i c0, (length (su_pave i c0 es) <= n)%nat) by (intros; apply sublist_length, su_pave_sub).
  pose proof (pow_grow (2 * n)) as G1.
  assert (Gs : (1 + uu) ^ (2 * length (e :: es)) = (1 + uu) * (1 + uu) * (1 + uu) ^ (2 * n)).
  { cbn [length]. fold n. replace (2 * S n)%nat with (2 + 2 * n)%nat by lia. rewrite pow_add. ring. }
  rewrite Gs, T. cbn [su_pave]. cbv zeta.
  destruct (fle interval (fadd c (snd e))) eqn:Ef.
  - apply fle_true in Ef. destruct Ef as (_ & _ & Ef). rewrite !fval_fin in Ef by assumption.
    destruct (fsub_900 (fadd c (snd e)) interval (m + 1)) as (S1 & S2 & S3); try assumption; [lia| |].
    { rewrite Rabs_pos_eq; lra. }
    assert (Ei : 0 <= B2R (fadd c (snd e)) - B2R interval) by (apply Rle_0_minus; exact Ef).
    pose proof (sub_err (fadd c (snd e)) interval Ei) as (D1 & D2). rewrite <- S3 in D1, D2.
    assert (Q0 : 0 <= B2R (fsub (fadd c (snd e)) interval)).
    { apply Rle_trans with (2 := D1). apply Rmult_le_pos; lra. }
    rewrite Rabs_pos_eq in S2 by exact Q0.
    specialize (IH (fsub (fadd c (snd e)) interval) (m + 1)%Z (fun z Hz => We z (or_intror Hz)) S1 ltac:(lia) ltac:(lia) (conj Q0 S2)).
    set (c2 := fsub (fadd c (snd e)) interval) in *. set (f := su_pave interval c2 es) in *.
    replace (length (e :: es) - length f)%nat with (S (n - length f)) by (cbn [length]; specialize (Lp interval c2); fold f in Lp; fold n; lia).
    rewrite S_INR, Rmult_plus_distr_r, Rmult_1_l.
    set (G := (1 + uu) ^ (2 * n)) in *. set (F := INR (n - length f) * B2R interval) in *.
    assert (H1 : B2R c2 <= (B2R c + B2R (snd e)) * (1 + uu) * (1 + uu) - B2R interval).
    { apply Rle_trans with (1 := D2).
      assert ((B2R (fadd c (snd e)) - B2R interval) * (1 + uu) <= ((B2R c + B2R (snd e)) * (1 + uu) - B2R interval) * (1 + uu)) by (apply Rmult_le_compat_r; lra).
      assert (0 <= B2R interval * uu) by (apply Rmult_le_pos; lra). lra. }
    apply Rle_trans with ((B2R c2 + total es) * G + B2R interval * G).
    { assert (B2R interval * 1 <= B2R interval * G) by (apply Rmult_le_compat_l; lra). lra. }
    rewrite <- Rmult_plus_distr_r. apply Rle_trans with (((B2R c + B2R (snd e)) * (1 + uu) * (1 + uu) + total es * ((1 + uu) * (1 + uu))) * G); [|apply Req_le; ring].
    apply Rmult_le_compat_r; [lra|].
    assert (total es * 1 <= total es * ((1 + uu) * (1 + uu))) by (apply Rmult_le_compat_l; nra). lra.
  - specialize (IH (fadd c (snd e)) (m + 1)%Z (fun z Hz => We z (or_intror Hz)) A1 ltac:(lia) ltac:(lia) (conj P0 B1)).
    set (c2 := fadd c (snd e)) in *. set (f := su_pave interval c2 es) in *. cbn [length]. fold n.
    replace (S n - S (length f))%nat with (n - length f)%nat by lia.
    apply Rle_trans with (1 := IH). set (G := (1 + uu) ^ (2 * n)) in *.
    apply Rle_trans with (((B2R c + B2R (snd e)) * (1 + uu) * (1 + uu) + total es * ((1 + uu) * (1 + uu))) * G); [|apply Req_le; ring].
    apply Rmult_le_compat_r; [lra|].
    assert (total es * 1 <= total es * ((1 + uu) * (1 + uu))) by (apply Rmult_le_compat_l; nra).
    assert ((B2R c + B2R (snd e)) * (1 + uu) * 1 <= (B2R c + B2R (snd e)) * (1 + uu) * (1 + uu)) by (apply Rmult_le_compat_l; [apply Rmult_le_pos; lra|lra]).
    lra.
Qed.

(** The computed sum is not much below the real one. *)
Lemma sum_low (es : list (nat * double)) : (forall e, In e es -> weight_ok e) -> (Z.of_nat (length es) < 2147483648)%Z ->
  fin (sum_of es) /\ 0 <= B2R (sum_of es) <= IZR (Z.of_nat (length es)) * B900 /\
  total es * (1 - uu) ^ length es <= B2R (sum_of es).
Proof.
  intros W L. pose proof uu_pos as U. pose proof B900_pos as BP.
  assert (Gen : forall l (s : double) k, (forall e, In e l -> weight_ok e) -> fin s ->
    (0 <= k)%Z -> (k + Z.of_nat (length l) < 9007199254740992)%Z -> 0 <= B2R s <= IZR k * B900 ->
    let r := fold_left (fun s0 e => fadd s0 (snd e)) l s in
    fin r /\ 0 <= B2R r <= IZR (k + Z.of_nat (length l)) * B900 /\ (B2R s + total l) * (1 - uu) ^ length l <= B2R r).
  { induction l as [|e l IH]; intros s k Hl Fs Hk HkL Hsb; cbn [fold_left length].
    - cbv zeta. split; [exact Fs|]. rewrite Z.add_0_r. split; [exact Hsb|]. change (total []) with 0. cbn [pow]. rewrite Rplus_0_r, Rmult_1_r. apply Rle_refl.
    - destruct (Hl e (or_introl eq_refl)) as (Fe & Be). cbn [length] in HkL.
      destruct (fadd_900 s (snd e) (k + 1)) as (A1 & A2 & A3); [lia|exact Fs|exact Fe| |].
      { rewrite plus_IZR, Rabs_pos_eq; lra. }
      pose proof (add_err s (snd e) ltac:(lra)) as (E1 & E2). rewrite <- A3 in E1, E2.
      assert (P0 : 0 <= B2R (fadd s (snd e))) by (apply Rle_trans with (2 := E1); apply Rmult_le_pos; lra).
      rewrite Rabs_pos_eq in A2 by exact P0.
      destruct (IH (fadd s (snd e)) (k + 1)%Z (fun x Hx => Hl x (or_intror Hx)) A1 ltac:(lia) ltac:(lia) (conj P0 A2)) as (I1 & I2 & I3).
      cbv zeta in *. split; [exact I1|]. split; [replace (k + Z.of_nat (S (length l)))%Z with (k + 1 + Z.of_nat (length l))%Z by lia; exact I2|].
      apply Rle_trans with (2 := I3). cbn [pow]. change (total (e :: l)) with (B2R (snd e) + total l).
      rewrite <- Rmult_assoc. apply Rmult_le_compat_r; [apply pow_le; lra|].
      assert (Tp : 0 <= total l).
      { apply total_nonneg. intros z Hz. apply Hl. right. exact Hz. }
      assert (0 <= total l * uu) by (apply Rmult_le_pos; lra). lra. }
  destruct (Gen es d0 0%Z W) as (A & B & C); [reflexivity|lia|lia|cbn [B2R d0]; lra|]. cbv zeta in *.
  split; [exact A|]. split; [exact B|]. change (B2R d0) with 0 in C. rewrite Rplus_0_l in C. exact C.
Qed.

Lemma pow_low n : 1 - INR n * uu <= (1 - uu) ^ n.
Proof.
  pose proof uu_pos as U. induction n as [|n IH]; [cbn; lra|]. rewrite S_INR. cbn [pow].
  assert ((1 - INR n * uu) * (1 - uu) <= (1 - uu) * (1 - uu) ^ n) by (rewrite Rmult_comm; apply Rmult_le_compat_l; lra).
  assert (0 <= INR n * uu * uu). { pose proof (pos_INR n). apply Rmult_le_pos; [apply Rmult_le_pos|]; lra. }
  lra.
Qed.

(** The arithmetic: K+2 firings would need more than the weights can pay. *)
Lemma count_bound (F K n : nat) (I s T beg : R) : (1 <= K)%nat ->
  0 < I -> 0 <= beg <= I -> 0 <= T -> T * (1 - uu) ^ n <= s -> s * (1 - uu) <= INR K * I ->
  INR F * I <= (beg + T) * (1 + uu) ^ (2 * n) -> INR (K + 2) * INR (3 * n + 1) * uu < 1 ->
  (F <= K + 1)%nat.
Proof.
  intros HK HI Hb HT Hs HsI HF Hsm. pose proof uu_pos as U.
  destruct (le_lt_dec F (K + 1)) as [L|L]; [exact L|exfalso].
  assert (Fk : INR (K + 2) <= INR F) by (apply le_INR; lia).
  set (a := (1 - uu) ^ n) in *.
  assert (Ha : 0 < a) by (apply pow_lt; lra). assert (Ha1 : a <= 1).
  { unfold a. apply Rle_trans with (1 ^ n); [apply pow_incr; lra|rewrite pow1; lra]. }
  (* (1+u)^(2n) a^2 <= 1 *)
  assert (Hg : (1 + uu) ^ (2 * n) * (a * a) <= 1).
  { unfold a. rewrite <- pow_add. replace (n + n)%nat with (2 * n)%nat by lia. rewrite <- Rpow_mult_distr.
    apply Rle_trans with (1 ^ (2 * n)); [apply pow_incr; split; nra|rewrite pow1; lra]. }
  set (g := (1 + uu) ^ (2 * n)) in *. assert (Hg1 : 1 <= g) by apply pow_grow.
  (* T a (1-u) <= K I *)
  assert (T1 : T * a * (1 - uu) <= INR K * I).
  { apply Rle_trans with (2 := HsI). apply Rmult_le_compat_r; lra. }
  assert (Q1 : INR F * I * (a * a * a * (1 - uu)) <= (beg + T) * g * (a * a * a * (1 - uu))).
  { apply Rmult_le_compat_r; [|exact HF]. repeat apply Rmult_le_pos; lra. }
  assert (Q2 : (beg + T) * g * (a * a * a * (1 - uu)) <= (beg + T) * (a * (1 - uu))).
  { replace ((beg + T) * g * (a * a * a * (1 - uu))) with ((beg + T) * (a * (1 - uu)) * (g * (a * a))) by ring.
    rewrite <- (Rmult_1_r ((beg + T) * (a * (1 - uu)))) at 2. apply Rmult_le_compat_l; [|exact Hg].
    apply Rmult_le_pos; [lra|]. apply Rmult_le_pos; lra. }
  assert (Q3 : (beg + T) * (a * (1 - uu)) <= INR (K + 1) * I).
  { rewrite plus_INR. cbn [INR]. rewrite Rmult_plus_distr_r. assert (beg * (a * (1 - uu)) <= I * 1).
    { apply Rmult_le_compat; try lra; [apply Rmult_le_pos; lra|]. nra. } lra. }
  set (b := a * a * a * (1 - uu)) in *.
  assert (Hb3 : 1 - INR (3 * n + 1) * uu <= b).
  { apply Rle_trans with (1 := pow_low (3 * n + 1)). unfold b, a. rewrite pow_add. replace (3 * n)%nat with (n + n + n)%nat by lia.
    rewrite !pow_add. cbn [pow]. apply Req_le. ring. }
  assert (Hbp : 0 < b) by (unfold b; repeat apply Rmult_lt_0_compat; lra).
  assert (Q4 : INR (K + 2) * I * b <= INR (K + 1) * I).
  { apply Rle_trans with (INR F * I * b); [apply Rmult_le_compat_r; [lra|]; apply Rmult_le_compat_r; lra|lra]. }
  assert (Q5 : INR (K + 2) * b <= INR (K + 1)).
  { apply Rmult_le_reg_r with I; [exact HI|]. lra. }
  assert (Q6 : INR (K + 2) * (1 - INR (3 * n + 1) * uu) <= INR (K + 2) * b) by (apply Rmult_le_compat_l; [apply pos_INR|exact Hb3]).
  replace (INR (K + 2)) with (INR (K + 1) + 1) in * by (rewrite !plus_INR; cbn [INR]; ring). lra.
Qed.

Lemma beg_range (I d : double) m : (0 <= m <= 9007199254740992)%Z -> fin I -> 0 <= B2R I <= IZR m * B900 ->
  fle d0 d = true -> flt d d1 = true ->
  fin (affineD d0 I d) /\ 0 <= B2R (affineD d0 I d) <= B2R I.
Proof.
  intros Hm FI HI D0 D1. destruct (unit_draw d D0 D1) as (Fd & Bd). unfold affineD.
  destruct (fsub_900 I d0 m) as (A1 & _ & A3); try assumption; [reflexivity| |].
  { change (B2R d0) with 0. rewrite Rminus_0_r, Rabs_pos_eq; lra. }
  assert (E1 : B2R (fsub I d0) = B2R I).
  { rewrite A3. change (B2R d0) with 0. rewrite Rminus_0_r. apply (rnd_fl 53 1024 _). }
  assert (Pr : 0 <= B2R (fsub I d0) * B2R d <= B2R I).
  { rewrite E1. split; [apply Rmult_le_pos; lra|]. rewrite <- (Rmult_1_r (B2R I)) at 2. apply Rmult_le_compat_l; lra. }
  destruct (fmul_900 (fsub I d0) d m) as (M1 & _ & M3); try assumption.
  { rewrite Rabs_pos_eq; lra. }
  assert (Bm : 0 <= B2R (fmul (fsub I d0) d) <= B2R I).
  { rewrite M3. split; [apply drnd_ge0, Pr|apply (rnd_bound_fl 53 1024 _ _ I), Pr]. }
  destruct (fadd_900 (fmul (fsub I d0) d) d0 m) as (P1 & _ & P3); try assumption; [reflexivity| |].
  { change (B2R d0) with 0. rewrite Rplus_0_r, Rabs_pos_eq; lra. }
  split; [exact P1|].
  assert (E2 : B2R (fadd (fmul (fsub I d0) d) d0) = B2R (fmul (fsub I d0) d)).
  { rewrite P3. change (B2R d0) with 0. rewrite Rplus_0_r. apply (rnd_fl 53 1024 _). }
  rewrite E2. exact Bm.
Qed.

Lemma IZR_INR (n : nat) : IZR (Z.of_nat n) = INR n. Proof. symmetry. apply INR_IZR_INZ. Qed.

Lemma drnd_rel_low x : bpow radix2 (-1022) <= x -> x * (1 - uu) <= drnd x.
Proof.
  intros H. assert (0 <= x) by (pose proof (bpow_gt_0 radix2 (-1022)); lra).
  pose proof (relative_error_N_FLT radix2 (-1074) 53 eq_refl (fun z => negb (Z.even z)) x) as E.
  rewrite (Rabs_pos_eq x) in E by assumption. specialize (E H).
  assert (Q : / 2 * bpow radix2 (- (53) + 1) * x = uu * x).
  { f_equal. rewrite uu_eq. change (/ 2) with (bpow radix2 (-1)). rewrite <- bpow_plus. reflexivity. }
  rewrite Q in E. change (FLT_exp (-1074) 53) with (SpecFloat.fexp 53 1024) in E.
  apply Rabs_le_inv in E. lra.
Qed.

Section S.
Context {V : Type} (R : rng_ops) (greater : bool) (opt : ga_option).
Notation core' := (core V double nat (G R)).
Notation gene' := (gene V double).
Notation K' := (K opt).
Open Scope Z_scope.

(** Two fitness values at least 2^-900 apart. *)
Definition spread (c : core') : Prop :=
  exists x y, In x (pop c) /\ In y (pop c) /\ (bpow radix2 (-900) <= B2R (gfit x) - B2R (gfit y))%R.

Lemma signed_B2R (x : gene') : B2R (signed greater x) = if greater then B2R (gfit x) else (- B2R (gfit x))%R.
Proof. unfold signed. destruct greater; [reflexivity|apply fopp_B2R]. Qed.

Lemma spread_sum (c : core') : mild R c -> spread c -> sizes_ok R opt c ->
  let ws := weights_of greater (pop c) in (bpow radix2 (-900) <= B2R (sum_of (shift_by (min_of ws) ws)))%R.
Proof.
  intros HM (x & y & Hx & Hy & D) (_ & HN) ws.
  assert (PN : pop c <> []) by (intros C; rewrite C in Hx; contradiction).
  destruct (shifted_weights greater (pop c) PN HM) as (W & _). fold ws in W.
  pose proof (weights_mild greater (pop c) HM) as WM. fold ws in WM.
  assert (WN : ws <> []) by (unfold ws; destruct (pop c); [congruence|discriminate]).
  destruct (min_of_spec ws WN (fun w H => proj1 (WM w H))) as (Fm & _ & Lm).
  assert (HB : exists z, In z (pop c) /\ exists t, In t (pop c) /\ (bpow radix2 (-900) <= B2R (signed greater z) - B2R (signed greater t))%R).
  { destruct greater eqn:Eg; [exists x; split; [exact Hx|]; exists y; split; [exact Hy|]|exists y; split; [exact Hy|]; exists x; split; [exact Hx|]];
      unfold signed; rewrite ?fopp_B2R; lra. }
  destruct HB as (z & Hz & t & Ht & Dz).
  assert (Wz : In (gid z, signed greater z) ws) by (unfold ws, weights_of; apply in_map_iff; exists z; split; [reflexivity|exact Hz]).
  assert (Wt : In (gid t, signed greater t) ws) by (unfold ws, weights_of; apply in_map_iff; exists t; split; [reflexivity|exact Ht]).
  set (es := shift_by (min_of ws) ws) in *.
  assert (Ez : In (gid z, fsub (signed greater z) (min_of ws)) es) by (unfold es, shift_by; apply in_map_iff; exists (gid z, signed greater z); split; [reflexivity|exact Wz]).
  assert (Le : length es = length (pop c)) by (unfold es, ws, shift_by, weights_of; rewrite !map_length; reflexivity).
  destruct (sum_ge R c (length (pop c)) (le_n _) es W) as (_ & _ & SG); [rewrite Le; exact HN|].
  specialize (SG _ Ez). cbn [snd] in SG. apply Rle_trans with (2 := SG).
  pose proof (Lm _ Wt) as Lt. cbn [snd] in Lt.
  destruct (WM _ Wz) as (F1 & B1). cbn [snd] in F1, B1.
  assert (Bm : (Rabs (B2R (min_of ws)) <= B900 / 2)%R).
  { destruct (min_of_spec ws WN (fun w H => proj1 (WM w H))) as (_ & (w & Hw & ->) & _). apply WM, Hw. }
  destruct (fsub_900 (signed greater z) (min_of ws) 1) as (_ & _ & E); [lia|exact F1|exact Fm| |].
  { rewrite Rmult_1_l. eapply Rle_trans; [apply Rabs_triang|]. rewrite Rabs_Ropp. lra. }
  rewrite E. apply (rnd_gen' 53 1024 _); [apply (gen_bpow 53 1024 _); cbn; lia|]. lra.
Qed.

Lemma stochastic_upper (c c' : core') : rng_ok R -> wf c -> 1 <= K' -> sizes_ok R opt c -> mild R c -> spread c ->
  (K' + 2) * (3 * Z.of_nat (length (pop c)) + 1) < 9007199254740992 ->
  K' <= Z.of_nat (length (pop c)) ->
  sel_stochastic R greater opt c = Ok c' ->
  K' <= Z.of_nat (length (pop c')) <= K' + 1.
Proof.
  intros HR Hw HK Hs HM HS Hsm HN H. pose proof (stochastic_at_least R greater opt c c' HR Hw Hs H) as Lo.
  unfold min_size in Lo. split; [lia|].
  pose proof (spread_sum c HM HS Hs) as Sp. cbv zeta in Sp.
  unfold sel_stochastic in H. apply bind_Ok in H. destruct H as (prev & Hp & H).
  destruct (sizes_int R opt c Hs) as (E1 & E2). cbv zeta in H. rewrite E1, E2 in H. unfold popSize in *.
  destruct (Z.leb_spec (Z.of_nat (length (pop c)) - K') 0) as [L|L].
  { unfold updateFail1 in H. apply bind_Ok in H. destruct H as (o & _ & H). apply updateFail2_spec in H.
    destruct H as (? & _ & -> & _). lia. }
  assert (PN : pop c <> []) by (intros C; rewrite C in L; cbn in L; lia).
  destruct (shifted_weights greater (pop c) PN HM) as (W & _).
  assert (Pf : map fst (shift_by (min_of (weights_of greater (pop c))) (weights_of greater (pop c))) = map gid (pop c)).
  { rewrite fst_shift, fst_weights. reflexivity. }
  assert (Le : length (shift_by (min_of (weights_of greater (pop c))) (weights_of greater (pop c))) = length (pop c)).
  { unfold shift_by, weights_of. rewrite !map_length. reflexivity. }
  set (es := shift_by (min_of (weights_of greater (pop c))) (weights_of greater (pop c))) in *. clearbody es.
  destruct Hs as (HsK & HsN).
  destruct (sum_low es W) as (Fs & Bs & Ls); [rewrite Le; exact HsN|].
  set (s := sum_of es) in *. clearbody s.
  assert (S0 : (0 < B2R s)%R) by (pose proof (bpow_gt_0 radix2 (-900)); lra).
  destruct (fle s d0) eqn:Ef.
  { exfalso. apply fle_true in Ef. destruct Ef as (_ & _ & Ef). rewrite !fval_fin in Ef by (reflexivity || exact Fs).
    change (B2R d0) with 0%R in Ef. lra. }
  destruct (d_of_Z_exact K') as (FK & VK); [lia|].
  assert (K1 : (1 <= IZR K')%R) by (apply IZR_le; lia).
  assert (Q0 : (0 <= B2R s / B2R (d_of_Z K') <= IZR (Z.of_nat (length es)) * B900)%R).
  { rewrite VK. split; [apply Rmult_le_pos; [lra|]; left; apply Rinv_0_lt_compat; lra|].
    apply Rle_trans with (2 := proj2 Bs). apply Rmult_le_reg_r with (IZR K'); [lra|].
    unfold Rdiv. rewrite Rmult_assoc, Rinv_l, Rmult_1_r by lra. rewrite <- (Rmult_1_r (B2R s)) at 1. apply Rmult_le_compat_l; lra. }
  destruct (fdiv_900 s (d_of_Z K') (Z.of_nat (length es))) as (FI & BI & VI); [lia|exact Fs|rewrite VK; lra|rewrite Rabs_pos_eq; apply Q0|].
  set (I := fdiv s (d_of_Z K')) in *.
  assert (HI : (B2R s * (1 - uu) <= INR (Z.to_nat K') * B2R I)%R).
  { rewrite <- IZR_INR, Z2Nat.id by lia. rewrite VI, VK.
    assert (Lw : (bpow radix2 (-1022) <= B2R s / IZR K')%R).
    { apply Rmult_le_reg_r with (IZR K'); [lra|]. unfold Rdiv. rewrite Rmult_assoc, Rinv_l, Rmult_1_r by lra.
      apply Rle_trans with (2 := Sp). apply Rle_trans with (bpow radix2 (-1022) * bpow radix2 31)%R.
      - apply Rmult_le_compat_l; [apply bpow_ge_0|]. change (bpow radix2 31) with (IZR 2147483648). apply IZR_le. lia.
      - rewrite <- bpow_plus. apply bpow_le. lia. }
    pose proof (drnd_rel_low _ Lw) as D. apply Rmult_le_compat_l with (r := IZR K') in D; [|lra].
    replace (B2R s * (1 - uu))%R with (IZR K' * (B2R s / IZR K' * (1 - uu)))%R by (field; lra). exact D. }
  pose proof uu_pos as U.
  assert (I0 : (0 < B2R I)%R).
  { assert (P : (0 < B2R s * (1 - uu))%R) by (apply Rmult_lt_0_compat; lra).
    assert (Q : (0 < INR (Z.to_nat K') * B2R I)%R) by lra.
    destruct (Rlt_or_le 0 (B2R I)) as [A|A]; [exact A|exfalso]. pose proof (pos_INR (Z.to_nat K')). nra. }
  rewrite Rabs_pos_eq in BI by lra.
  unfold randD_range in H. destruct (proj1 HR (gen_rng c)) as (D0 & D1).
  destruct (rand01 R (gen_rng c)) as [d g']. cbn [fst] in D0, D1.
  destruct (beg_range I d (Z.of_nat (length es)) ltac:(lia) FI (conj (Rlt_le _ _ I0) BI) D0 D1) as (Fb & Bb).
  set (beg := affineD d0 I d) in *. clearbody beg.
  pose proof (su_pave_count I FI (Rlt_le _ _ I0) es beg (Z.of_nat (length es)) W Fb ltac:(lia) ltac:(lia)) as Cn.
  assert (Cb : (0 <= B2R beg <= IZR (Z.of_nat (length es)) * B900)%R) by (split; [apply Bb|lra]).
  specialize (Cn Cb).
  pose proof (total_nonneg es W) as Tn.
  assert (Sm : (INR (Z.to_nat K' + 2) * INR (3 * length es + 1) * uu < 1)%R).
  { rewrite <- mult_INR. rewrite uu_val. apply Rmult_lt_reg_r with 9007199254740992%R; [lra|].
    rewrite Rmult_assoc, Rinv_l, Rmult_1_r, Rmult_1_l by lra. rewrite INR_IZR_INZ.
    apply IZR_lt. rewrite Le. nia. }
  pose proof (count_bound _ (Z.to_nat K') (length es) (B2R I) (B2R s) (total es) (B2R beg) ltac:(lia) I0 Bb Tn Ls HI Cn Sm) as CB.
  eapply finish2_spec in H; [|apply Hw|exact Hp| |rewrite Pf; reflexivity].
  2:{ eapply sublist_trans; [apply sublist_firstn|apply su_pave_sub]. }
  destruct H as ((_ & -> & _) & _). rewrite firstn_length. rewrite Le in CB.
  pose proof (sublist_length _ _ (su_pave_sub es I beg)). lia.
Qed.
End S.
