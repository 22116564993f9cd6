(** Single-objective selection: termination of each wheel method. *)
From Coq Require Import List Arith ZArith Reals Bool Lia Lra Permutation.
From Flocq Require Import Core BinarySingleNaN.
From Verif Require Import Base Fl FlFacts Rng RandProofs StdOps ListFacts GABase GAOpsProofs SOGA SOGAProofs SOGAProofs2 SOGAProofs3 SOGAProofs4.
Import ListNotations.
Open Scope Z_scope.

(** [bd x k]: finite and at most 2^k in absolute value. *)
Definition bd (x : double) (k : Z) : Prop := fin x /\ (Rabs (B2R x) <= bpow radix2 k)%R.
Lemma bpow_one k : (IZR 1 * bpow radix2 k)%R = bpow radix2 k. Proof. apply Rmult_1_l. Qed.
Lemma bd_le x a b : bd x a -> a <= b -> bd x b.
Proof. intros (F & B) H. split; [exact F|]. eapply Rle_trans; [exact B|apply bpow_le, H]. Qed.
Lemma bd_mul x y a b : bd x a -> bd y b -> -1074 <= a + b <= 900 -> bd (fmul x y) (a + b).
Proof.
  intros (Fx & Bx) (Fy & By) H. destruct (fmul_bounded x y 1 (a + b)) as (F & B & _); try easy; try lia.
  - rewrite bpow_one, Rabs_mult, bpow_plus. apply Rmult_le_compat; try apply Rabs_pos; assumption.
  - rewrite bpow_one in B. split; assumption.
Qed.
Lemma bd_sum x y a : bd x a -> bd y a -> -1074 <= a <= 899 ->
  bd (fadd x y) (a + 1) /\ bd (fsub x y) (a + 1).
Proof.
  intros (Fx & Bx) (Fy & By) H.
  assert (E : (bpow radix2 (a + 1) = bpow radix2 a + bpow radix2 a)%R) by (rewrite bpow_plus; cbn [bpow]; change (IZR (Z.pow_pos radix2 1)) with 2%R; ring).
  split.
  - destruct (fadd_bounded x y 1 (a + 1)) as (F & B & _); try easy; try lia.
    + rewrite bpow_one, E. eapply Rle_trans; [apply Rabs_triang|]. lra.
    + rewrite bpow_one in B. split; assumption.
  - destruct (fsub_bounded x y 1 (a + 1)) as (F & B & _); try easy; try lia.
    + rewrite bpow_one, E. eapply Rle_trans; [apply Rabs_triang|]. rewrite Rabs_Ropp. lra.
    + rewrite bpow_one in B. split; assumption.
Qed.
Lemma bd_div x y a : bd x a -> fin y -> (1 <= B2R y)%R -> -1074 <= a <= 900 -> bd (fdiv x y) a.
Proof.
  intros (Fx & Bx) Fy Hy H.
  assert (Q : (Rabs (B2R x / B2R y) <= bpow radix2 a)%R).
  { unfold Rdiv. rewrite Rabs_mult, Rabs_inv, (Rabs_pos_eq (B2R y)) by lra.
    pose proof (Rabs_pos (B2R x)). assert (0 < / B2R y <= 1)%R.
    { split; [apply Rinv_0_lt_compat; lra|]. rewrite <- Rinv_1. apply Rinv_le; lra. }
    nra. }
  destruct (fdiv_fin 53 1024 _ _ x y Fx ltac:(lra)) as (F & E).
  - eapply Rle_lt_trans; [apply (drnd_abs_bound _ 1 a)|]; try lia.
    + rewrite bpow_one. exact Q.
    + rewrite bpow_one. apply bpow_lt. lia.
  - split; [exact F|]. rewrite E. rewrite <- bpow_one. apply drnd_abs_bound; try lia. rewrite bpow_one. exact Q.
Qed.
Lemma bd_nat n : 0 <= n <= 2147483648 -> bd (d_of_Z n) 31 /\ B2R (d_of_Z n) = IZR n.
Proof.
  intros H. destruct (d_of_Z_exact n) as (F & E); [lia|]. split; [|exact E]. split; [exact F|].
  rewrite E, <- abs_IZR, Z.abs_eq by lia. change (bpow radix2 31) with (IZR 2147483648). apply IZR_le. lia.
Qed.
Lemma bd_tame (es : list (nat * double)) k : k <= 900 -> (forall e, In e es -> bd (snd e) k) -> tame es.
Proof.
  intros Hk H e He. destruct (H e He) as (F & B). split; [exact F|]. rewrite B900_eq.
  eapply Rle_trans; [exact B|apply bpow_le, Hk].
Qed.

(** [unit x]: finite, between 0 and 1. *)
Definition unit01 (x : double) : Prop := fin x /\ (0 <= B2R x <= 1)%R.
Lemma unit_bd x : unit01 x -> bd x 0.
Proof. intros (F & B). split; [exact F|]. cbn [bpow]. rewrite Rabs_pos_eq; lra. Qed.
Lemma unit_one_minus x : unit01 x -> unit01 (fsub d1 x).
Proof.
  intros (F & B). destruct (fsub_bounded d1 x 1 0) as (A & _ & E); try easy.
  { rewrite bpow_one. cbn [bpow]. rewrite d1_val, Rabs_pos_eq; lra. }
  split; [exact A|]. rewrite E, d1_val. split; [apply drnd_ge0; lra|apply drnd_le1; lra].
Qed.
Lemma unit_div x y : fin x -> (0 <= B2R x <= B2R y)%R -> (0 < B2R y)%R -> unit01 (fdiv x y).
Proof.
  intros Fx Hx Hy.
  assert (Q : (0 <= B2R x / B2R y <= 1)%R).
  { split; [apply Rmult_le_pos; [lra|left; apply Rinv_0_lt_compat; lra]|].
    apply (Rmult_le_reg_r (B2R y)); [lra|]. unfold Rdiv. rewrite Rmult_assoc, Rinv_l; lra. }
  assert (Q2 : (0 <= drnd (B2R x / B2R y) <= 1)%R) by (split; [apply drnd_ge0|apply drnd_le1]; lra).
  destruct (fdiv_fin 53 1024 _ _ x y Fx ltac:(lra)) as (F & E).
  - rewrite Rabs_pos_eq by apply Q2. apply Rle_lt_trans with 1%R; [apply Q2|]. change 1%R with (bpow radix2 0). apply bpow_lt. easy.
  - split; [exact F|]. rewrite E. exact Q2.
Qed.

(** Contract of std::pow on [0,1] with a non-negative integer exponent. *)
Definition pow_ok (pw : double -> double -> double) : Prop :=
  forall x n, unit01 x -> 0 <= n < 2147483648 ->
    unit01 (pw x (d_of_Z n)) /\ (1 <= n -> (B2R (pw x (d_of_Z n)) <= B2R x)%R).

Section P.
Context {V : Type} (R : rng_ops) (std : std_ops) (greater : bool) (opt : ga_option) (sp : sel_params).
Notation core' := (core V double nat (G R)).
Notation gene' := (gene V double).
Notation K' := (K opt).

(** ** LinearRank *)
Lemma linear_weights_bd (l : list gene') : (2 <= length l)%nat -> Z.of_nat (length l) < 2147483648 ->
  unit01 (linWorst sp) -> unit01 (linBest sp) ->
  forall e, In e (linear_weights sp l) -> bd (snd e) 64.
Proof.
  intros L2 LN UW UB0 e He. unfold linear_weights in He. apply in_map_iff in He. destruct He as ([idx x] & <- & Hin). cbn [snd].
  apply in_combine_l in Hin. apply in_seq in Hin. set (n := Z.of_nat (length l)) in *.
  assert (Hn : 2 <= n) by (unfold n; lia). assert (Hi : Z.of_nat idx < n) by (unfold n; lia).
  destruct (bd_nat n) as (Bn & Vn); [lia|]. destruct (bd_nat (n - 1)) as (Bn1 & Vn1); [lia|].
  destruct (bd_nat (n - Z.of_nat idx - 1)) as (Bi & Vi); [lia|].
  pose proof (bd_mul _ _ 0 31 (unit_bd _ UW) Bn ltac:(lia)) as P1.
  pose proof (bd_mul _ _ 0 31 (unit_bd _ UB0) Bn ltac:(lia)) as P2. change (0 + 31) with 31 in *.
  pose proof (proj2 (bd_sum _ _ 31 P2 P1 ltac:(lia))) as P3. change (31 + 1) with 32 in *.
  pose proof (bd_mul _ _ 32 31 P3 Bi ltac:(lia)) as P4. change (32 + 31) with 63 in *.
  assert (P5 : bd (fdiv (fmul (fsub (fmul (linBest sp) (d_of_Z n)) (fmul (linWorst sp) (d_of_Z n))) (d_of_Z (n - Z.of_nat idx - 1))) (d_of_Z (n - 1))) 63).
  { apply bd_div; [exact P4|apply Bn1| |lia]. rewrite Vn1. apply IZR_le. lia. }
  pose proof (proj1 (bd_sum _ _ 63 (bd_le _ 31 63 P1 ltac:(lia)) P5 ltac:(lia))) as P6. change (63 + 1) with 64 in *.
  apply bd_div; [exact P6|apply Bn| |lia]. rewrite Vn. apply IZR_le. lia.
Qed.

Section Term.
Variable c : core'.
Variable fuel : nat.
Hypotheses (HR : rng_ok R) (Hw : wf c) (Hb : best_valid R c) (HK : 1 <= K') (Hs : sizes_ok R opt c)
           (Hf : (length (pop c) <= fuel)%nat).

Lemma early2_ok f : exists c', updateFail2 R greater c (pop c) (gen_rng c) (findCurrentBestGene greater (pop c)) f = Ok c'.
Proof. apply updateFail2_ok. pose proof (pop_nonempty R c Hb). intros C. rewrite C in *. cbn in *; lia. Qed.

Lemma abs_d1 : (Rabs (B2R d1) <= IZR 1 * B900)%R.
Proof. rewrite d1_val, Rabs_R1. pose proof B900_1. lra. Qed.

Lemma linear_ok : std_ok std -> (forall x, In x (pop c) -> nonnan (gfit x)) ->
  unit01 (linWorst sp) -> unit01 (linBest sp) ->
  exists c', sel_linear R std greater opt sp fuel c = Ok c'.
Proof.
  intros Hstd NN UW UB0. unfold sel_linear. destruct (bestFitness_ok R c Hw Hb) as (f & ->). cbn [bind].
  destruct (sizes_int R opt c Hs) as (E1 & E2). rewrite E1, E2. unfold popSize.
  destruct (Z.leb_spec (Z.of_nat (length (pop c))) K') as [L|L]; [apply updateFail1_ok; assumption|].
  destruct (sorted_perm R std greater c NN Hstd) as (q & -> & P). cbn [bind].
  pose proof (Permutation_length P) as Lq.
  apply (wheel_ok R greater fuel c _ _ _ _ _ 1); try assumption; try lia.
  - unfold linear_weights. rewrite fst_combine_seq. apply Permutation_map, Permutation_sym, P.
  - apply Hs.
  - eapply (bd_tame _ 64); [lia|]. apply linear_weights_bd; try assumption; destruct Hs; lia.
  - apply d1_fin.
  - apply abs_d1.
Qed.

(** ** ExponentialRank *)
Lemma sub_one_neg (x : double) : unit01 x -> (B2R x < 1)%R ->
  fin (fsub x d1) /\ (-1 <= B2R (fsub x d1) < 0)%R /\ B2R (fsub x d1) = drnd (B2R x - 1).
Proof.
  intros (F & B) L. destruct (fsub_bounded x d1 1 0) as (A & C & E); try easy.
  { rewrite bpow_one. cbn [bpow]. rewrite d1_val. rewrite Rabs_minus_sym, Rabs_pos_eq; lra. }
  split; [exact A|]. rewrite E, d1_val. rewrite d1_val in E. split; [|reflexivity].
  rewrite bpow_one, E in C. cbn [bpow] in C. apply Rabs_le_inv in C. split; [lra|].
  assert (P : (B2R x <= pred radix2 (SpecFloat.fexp 53 1024) 1)%R).
  { apply pred_ge_gt; [apply (fexp_correct 53 1024 _)|apply generic_format_B2R| |exact L].
    change 1%R with (bpow radix2 0). apply generic_format_bpow. easy. }
  replace (pred radix2 (SpecFloat.fexp 53 1024) 1) with (1 - bpow radix2 (-53))%R in P.
  2:{ symmetry. change 1%R with (bpow radix2 0) at 1. rewrite (pred_bpow radix2 (SpecFloat.fexp 53 1024) 0). reflexivity. }
  apply Rle_lt_trans with (- bpow radix2 (-53))%R.
  - apply (rnd_gen 53 1024 _); [apply generic_format_opp, generic_format_bpow; easy|lra].
  - pose proof (bpow_gt_0 radix2 (-53)). lra.
Qed.

Lemma exponential_ok : std_ok std -> (forall x, In x (pop c) -> nonnan (gfit x)) ->
  pow_ok (libm_pow sp) -> unit01 (expBase sp) -> (B2R (expBase sp) < 1)%R ->
  exists c', sel_exponential R std greater opt sp fuel c = Ok c'.
Proof.
  intros Hstd NN HP UC LC. unfold sel_exponential. destruct (bestFitness_ok R c Hw Hb) as (f & ->). cbn [bind].
  destruct (sizes_int R opt c Hs) as (E1 & E2). rewrite E1, E2. unfold popSize.
  destruct (Z.leb_spec (Z.of_nat (length (pop c))) K') as [L|L]; [apply updateFail1_ok; assumption|].
  destruct (sorted_perm R std greater c NN Hstd) as (q & -> & P). cbn [bind].
  pose proof (Permutation_length P) as Lq.
  apply (wheel_ok R greater fuel c _ _ _ _ _ 1); try assumption; try lia.
  - unfold exp_weights. rewrite fst_combine_seq. apply Permutation_map, Permutation_sym, P.
  - apply Hs.
  - apply (bd_tame _ 0); [lia|]. intros e He. unfold exp_weights in He. apply in_map_iff in He.
    destruct He as ([idx x] & <- & Hin). cbn [snd]. apply in_combine_l in Hin. apply in_seq in Hin.
    destruct Hs as (Hs1 & Hs2). destruct (HP (expBase sp) (Z.of_nat (length q)) UC) as (U1 & L1); [lia|]. specialize (L1 ltac:(lia)).
    destruct (HP (expBase sp) (Z.of_nat idx) UC) as (U2 & _); [lia|].
    apply (bd_mul _ _ 0 0); [|apply unit_bd, U2|lia]. apply unit_bd.
    destruct (sub_one_neg _ UC LC) as (A1 & A2 & A3). destruct (sub_one_neg _ U1 ltac:(lra)) as (C1 & C2 & C3).
    assert (M : (B2R (fsub (libm_pow sp (expBase sp) (d_of_Z (Z.of_nat (length q)))) d1) <= B2R (fsub (expBase sp) d1))%R).
    { rewrite A3, C3. apply (rnd_le 53 1024 _). lra. }
    set (a := fsub (expBase sp) d1) in *. set (b := fsub (libm_pow sp _ _) d1) in *.
    assert (Q : (0 <= B2R a / B2R b <= 1)%R).
    { replace (B2R a / B2R b)%R with ((- B2R a) * / (- B2R b))%R by (field; lra).
      assert (0 < / - B2R b)%R by (apply Rinv_0_lt_compat; lra).
      split; [apply Rmult_le_pos; lra|]. apply (Rmult_le_reg_r (- B2R b)); [lra|].
      rewrite Rmult_assoc, Rinv_l; lra. }
    assert (Q2 : (0 <= drnd (B2R a / B2R b) <= 1)%R) by (split; [apply drnd_ge0|apply drnd_le1]; lra).
    destruct (fdiv_fin 53 1024 _ _ a b A1 ltac:(lra)) as (F & E).
    + rewrite Rabs_pos_eq by apply Q2. apply Rle_lt_trans with 1%R; [apply Q2|]. change 1%R with (bpow radix2 0). apply bpow_lt. easy.
    + split; [exact F|]. rewrite E. exact Q2.
  - apply d1_fin.
  - apply abs_d1.
Qed.

(** ** Boltzmann *)
Lemma boltzmann_ok :
  (forall x, In x (pop c) -> bd (libm_exp sp (fmul (boltzStrength sp) (gfit x))) 900) ->
  exists c', sel_boltzmann R greater opt sp fuel c = Ok c'.
Proof.
  intros HE. unfold sel_boltzmann. destruct (bestFitness_ok R c Hw Hb) as (f & ->). cbn [bind]. cbv zeta.
  destruct (sizes_int R opt c Hs) as (E1 & E2). rewrite E1, E2. unfold popSize.
  destruct (Z.leb_spec (Z.of_nat (length (pop c)) - K') 0) as [L|L]; [apply updateFail1_ok; assumption|].
  assert (T : tame (boltz_weights sp (pop c))).
  { apply (bd_tame _ 900); [lia|]. intros e He. unfold boltz_weights in He. apply in_map_iff in He.
    destruct He as (x & <- & Hx). apply HE, Hx. }
  assert (Le : length (boltz_weights sp (pop c)) = length (pop c)) by apply map_length.
  destruct (sum_tame _ T) as (F & B); [rewrite Le; destruct Hs; lia|].
  apply (wheel_ok R greater fuel c _ _ _ _ _ (Z.of_nat (length (pop c)))); try assumption; try lia.
  - unfold boltz_weights. rewrite map_map. reflexivity.
  - apply Hs.
  - destruct Hs; lia.
  - rewrite <- Le. exact B.
Qed.

(** ** Probability *)
Lemma sum_ge (es : list (nat * double)) : (forall e, In e es -> fin (snd e) /\ (0 <= B2R (snd e) <= B900)%R) ->
  Z.of_nat (length es) < 2147483648 ->
  fin (sum_of es) /\ (0 <= B2R (sum_of es))%R /\ forall e, In e es -> (B2R (snd e) <= B2R (sum_of es))%R.
Proof.
  intros H HL. unfold sum_of.
  assert (Gen : forall l (s : double) k, (forall e, In e l -> fin (snd e) /\ (0 <= B2R (snd e) <= B900)%R) -> fin s ->
    0 <= k -> k + Z.of_nat (length l) < 9007199254740992 -> (0 <= B2R s <= IZR k * B900)%R ->
    let r := fold_left (fun s0 e => fadd s0 (snd e)) l s in
    fin r /\ (B2R s <= B2R r)%R /\ forall e : nat * double, In e l -> (B2R (snd e) <= B2R r)%R).
  { induction l as [|e l IH]; intros s k Hl Fs Hk HkL Hsb; cbn [fold_left length].
    - cbv zeta. split; [exact Fs|]. split; [lra|]. intros e [].
    - destruct (Hl e (or_introl eq_refl)) as (Fe & Be).
      destruct (fadd_900 s (snd e) (k + 1)) as (A1 & A2 & A3); [cbn [length] in *; lia|exact Fs|exact Fe| |].
      { rewrite plus_IZR, Rabs_pos_eq; lra. }
      assert (Ge : (B2R s <= B2R (fadd s (snd e)) /\ B2R (snd e) <= B2R (fadd s (snd e)))%R).
      { rewrite A3. split; [apply (rnd_bound_fl' 53 1024 _ _ s)|apply (rnd_bound_fl' 53 1024 _ _ (snd e))]; lra. }
      apply Rabs_le_inv in A2.
      destruct (IH (fadd s (snd e)) (k + 1) (fun x Hx => Hl x (or_intror Hx)) A1) as (I1 & I2 & I3); [lia|cbn [length] in *; lia|lra|].
      cbv zeta in *. split; [exact I1|]. split; [lra|]. intros x [<-|Hx]; [lra|apply I3, Hx]. }
  destruct (Gen es d0 0 H) as (A & B & C); [reflexivity|lia|lia|cbn [B2R d0]; lra|]. cbv zeta in *.
  split; [exact A|]. split; [exact B|exact C].
Qed.

Lemma probability_ok : mild R c -> pow_ok (libm_pow sp) ->
  exists c', sel_probability R greater opt sp fuel c = Ok c'.
Proof.
  intros HM HP. unfold sel_probability. destruct (bestFitness_ok R c Hw Hb) as (f & ->). cbn [bind]. cbv zeta.
  destruct (sizes_int R opt c Hs) as (E1 & E2). rewrite E1, E2. unfold popSize.
  destruct (Z.leb_spec (Z.of_nat (length (pop c)) - K') 0) as [L|L]; [apply early2_ok|].
  assert (PN : pop c <> []) by (intros C; rewrite C in L; cbn in L; lia).
  assert (T : forall e, In e (prob_weights greater opt sp (pop c)) -> bd (snd e) 333).
  { unfold prob_weights. set (es := shift_by _ _). set (n := Z.of_nat (length (pop c))) in *.
    destruct Hs as (Hs1 & Hs2). fold n in Hs2.
    assert (W : forall e, In e es -> fin (snd e) /\ (0 <= B2R (snd e) <= B900)%R) by (apply shifted_weights; assumption).
    assert (Le : length es = length (pop c)) by (unfold es, shift_by, weights_of; rewrite !map_length; reflexivity).
    destruct (sum_ge es W) as (SF & S0 & SG); [rewrite Le; exact Hs2|].
    set (normed := if fle (sum_of es) d0 then _ else _).
    assert (U : forall e, In e normed -> unit01 (snd e)).
    { unfold normed. destruct (fle (sum_of es) d0) eqn:E; intros e He; apply in_map_iff in He; destruct He as (x & <- & Hx); cbn [snd].
      - destruct (bd_nat n) as (Bn & Vn); [lia|]. assert (1 <= IZR n)%R by (apply IZR_le; lia).
        apply unit_div; [apply d1_fin|rewrite d1_val, Vn; lra|rewrite Vn; lra].
      - destruct (W x Hx) as (F & B). apply unit_div; [exact F|split; [apply B|apply SG, Hx]|].
        apply fle_false_lt in E; [|apply fin_nonnan, SF|reflexivity]. apply flt_true in E. destruct E as (_ & _ & E).
        rewrite (fval_fin _ _ _ SF) in E. exact E. }
    clearbody normed. intros e He. apply in_map_iff in He. destruct He as (x & <- & Hx). cbn [snd].
    specialize (U x Hx).
    assert (T1 : to_int n = n) by (apply to_int_small; lia). rewrite E2, T1.
    destruct (HP (snd x) K' U) as (Q1 & _); [lia|].
    destruct (HP (fsub d1 (snd x)) (n - K') (unit_one_minus _ U)) as (Q2 & _); [lia|].
    apply (bd_mul _ _ 333 0); [|apply unit_bd, Q2|lia]. apply (bd_mul _ _ 333 0); [|apply unit_bd, Q1|lia].
    split; [vm_compute; reflexivity|].
    assert (C : fle (Babs (fofZ (10 ^ 100) 0)) (fofZ 1 333 : double) = true) by (vm_compute; reflexivity).
    apply fle_true in C. destruct C as (_ & _ & C).
    destruct (@fofZ_exact 53 1024 _ _ 1 333) as (Z1 & Z2); try easy.
    rewrite (fval_fin _ _ _ Z1), Z2, Rmult_1_l in C.
    rewrite fval_fin in C by (vm_compute; reflexivity). rewrite B2R_Babs in C. exact C. }
  assert (Tm : tame (prob_weights greater opt sp (pop c))) by (apply (bd_tame _ 333); [lia|exact T]).
  assert (Le : length (prob_weights greater opt sp (pop c)) = length (pop c)).
  { pose proof (fst_prob greater opt sp (pop c)) as E. apply (f_equal (@length nat)) in E. rewrite !map_length in E. exact E. }
  destruct (sum_tame _ Tm) as (F & B); [rewrite Le; destruct Hs; lia|].
  apply (wheel_ok R greater fuel c _ _ _ _ _ (Z.of_nat (length (pop c)))); try assumption; try lia.
  - rewrite fst_prob. reflexivity.
  - apply Hs.
  - destruct Hs; lia.
  - rewrite <- Le. exact B.
Qed.
End Term.
End P.
