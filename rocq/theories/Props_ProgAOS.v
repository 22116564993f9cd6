(** C99: the atomic orbital search example program that comes with the library. *)
From Coq Require Import List Arith ZArith Reals Bool Lia Lra Permutation.
From Flocq Require Import Core BinarySingleNaN.
From Flocq Require Import Plus_error Relative.
From Verif Require BoxObj BinCode Props_BinCode.
From Verif Require Import Props_Box Props_AOS Props_AOSObj Props_ProgMO ProgSOProofs2 SOGAProofs5 BoxFProofs Base Fl FlFacts Rng RandProofs StdOps ListFacts Box BoxProofs Bench BlendProofs
  ProgPSOSpec ProgPSOProofs ProgMO AOS AOSSpec AOSProofs4 AOSObj AOSObjSpec AOSObjProofs ProgAOSSpec ShareProofs ProgAOS ProgAOSProofs.
Import ListNotations.
Open Scope Z_scope.

(** run() from initializePop(): no electron that is ever evaluated, in any round,
    kept or not, is better than bestElectron() at the end. *)
Theorem C99_best_of_all_tried : forall (R : rng_ops) (E : env R) (opt : aos_option) fuel (s s' : aos (G R)) e,
  std_ok (std E) -> stable_at_front (std E) -> before_round E s -> aos_run E opt fuel s = Ok s' -> tried E opt s e ->
  exists best, bestElectron s' = Ok best /\ e_better E (energy e) (energy best) = false.
Proof. intros R E opt fuel s s' e Hstd Hst. apply (best_of_tried E opt Hstd Hst). Qed.
Print Assumptions C99_best_of_all_tried.
(** At the default sizes, 50 electrons in at most 5 layers, every way of dealing
    the electrons to the layers that the rounded Gaussian shares give is within
    bounds, whatever the C library's exp and the order in which Eigen adds. *)
Theorem C99_default_layers_fit : forall (R : rng_ops) (E : env R) t, exp_fair (libm_exp E) -> sum_fair (vsum E) ->
  1 <= t <= maxLayerNum default_aos_option -> fits E t (electronNum default_aos_option).
Proof. intros R E t HE HS Ht. exact (fits_50 E HE HS t Ht). Qed.
Print Assumptions C99_default_layers_fit.

Lemma five_codes : exists a b c, 0 <= a < 2 ^ 64 /\ 0 <= b < 2 ^ 64 /\ 0 <= c < 2 ^ 64 /\
  Props_BinCode.ieee64 a = d_of_Z (-5) /\ Props_BinCode.ieee64 b = d_of_Z 5 /\ Props_BinCode.ieee64 c = literal 15 1 /\
  (forall x, x = a \/ x = b \/ x = c -> ~ Props_BinCode.nan64 x /\ ~ Props_BinCode.wrong64 x).
Proof.
  exists (2 ^ 63 + 1025 * 2 ^ 52 + 2 ^ 50), (1025 * 2 ^ 52 + 2 ^ 50), (1023 * 2 ^ 52 + 2 ^ 51).
  split; [lia|]. split; [lia|]. split; [lia|].
  split; [apply B2SF_inj; vm_compute; reflexivity|]. split; [apply B2SF_inj; vm_compute; reflexivity|]. split; [apply B2SF_inj; vm_compute; reflexivity|].
  intros x [-> |[-> | ->]]; (split; [intros (A & _); vm_compute in A; discriminate A|intros [A|(_ & A)]; vm_compute in A; discriminate A]).
Qed.
Lemma round_trips fuel : (1100 <= fuel)%nat ->
  through_code fuel (d_of_Z (-5)) = Ok (d_of_Z (-5)) /\ through_code fuel (d_of_Z 5) = Ok (d_of_Z 5) /\ through_code fuel (literal 15 1) = Ok (literal 15 1).
Proof.
  intros Hf. destruct five_codes as (a & b & c & Ra & Rb & Rc & Ea & Eb & Ec & W). rewrite <- Ea, <- Eb, <- Ec. unfold through_code.
  destruct (Props_BinCode.C43_encode64 fuel a Hf Ra) as (A1 & A2); [apply W; auto|apply W; auto|].
  destruct (Props_BinCode.C43_encode64 fuel b Hf Rb) as (B1 & B2); [apply W; auto|apply W; auto|].
  destruct (Props_BinCode.C43_encode64 fuel c Hf Rc) as (C1 & C2); [apply W; auto|apply W; auto|].
  rewrite A1, B1, C1. cbn [bind]. auto.
Qed.
(** The box has the bounds that were encoded. *)
Lemma fixed_box_ok fuel n lo hi delta : through_code fuel lo = Ok lo -> through_code fuel hi = Ok hi -> through_code fuel delta = Ok delta ->
  flt lo hi = true -> flt d0 delta = true ->
  fixed_box fuel n lo hi delta = Ok (let e := BoxObj.blank_arr (fixed_kind n) in BoxObj.mkBox (Some lo) (Some hi) (Some delta) e e e (Some (n, 1))).
Proof. intros A B C D E. unfold fixed_box. rewrite A, B, C. cbn [bind]. rewrite D, E. reflexivity. Qed.

Lemma five_ok (L : libm) (n : nat) (v : list double) : cos_safe L -> (n <= 24)%nat -> in_cube n (d_of_Z (-5)) (d_of_Z 5) v ->
  fin (rastrigin (Dops L) v) /\ flt (rastrigin (Dops L) v) d0 = false.
Proof.
  intros Hc Hn (Hl & U). split.
  - apply (rastrigin_fin L Hc); [lia|]. intros x Hx. destruct (U x Hx) as (A & B).
    destruct (d_of_Z_exact (-5) ltac:(lia)) as (Fm & Em). destruct (d_of_Z_exact 5 ltac:(lia)) as (Fp & Ep).
    pose proof (between_fin _ _ x Fm Fp A B) as Fx. apply fle_Rd in A; [|assumption..]. apply fle_Rd in B; [|assumption..]. rewrite Em in A. rewrite Ep in B.
    split; [exact Fx|]. apply Rabs_le. cbn. lra.
  - apply BenchD.rastrigin_low; [|lia]. intros x. apply Hc.
Qed.

Section C99.
Context (R : rng_ops) (E0 : env R) (norm : G R -> double * G R) (L : libm).
Context (HR : rng_ok R) (Hstd : std_ok (std E0)) (Hst : stable_at_front (std E0)) (Hdr : eigen_draws E0).
Context (Hg : greater E0 = false) (Hrec : rec_on E0 = true) (HE : exp_fair (libm_exp E0)) (HS : sum_fair (vsum E0)).

(** The program with other bounds, other options, another function. *)
Lemma any_program (lo hi delta rate : double) (f : unit -> list double -> double) fuel n m t g :
  through_code fuel lo = Ok lo -> through_code fuel hi = Ok hi -> through_code fuel delta = Ok delta ->
  flt lo hi = true -> flt d0 delta = true ->
  (fin lo /\ (Rabs (B2R lo) <= bpow radix2 800)%R) -> (fin hi /\ (Rabs (B2R hi) <= bpow radix2 800)%R) -> (fin delta /\ (Rabs (B2R delta) <= bpow radix2 800)%R) ->
  fle lo hi = true -> (forall v, in_cube 3 lo hi v -> nonnan (f tt v)) -> 1 <= n <= 5 -> 0 <= m < two64 ->
  exists bx o0 o B best n' t', 
  let opt := mkAOpt 50 m t n rate in
  fixed_box fuel 3 lo hi delta = Ok bx /\ same_at 3 lo hi delta B /\
  drive R E0 norm (fresh R E0 (Cont (fixed_kind 3) bx) (IDefault R) (Some f) tt g) [SetOption R opt; InitializePop R] = Ok o0 /\
  drive R E0 norm (fresh R E0 (Cont (fixed_kind 3) bx) (IDefault R) (Some f) tt g) [SetOption R opt; InitializePop R; Run R] = Ok o /\
  length (get_electrons R o0) = 50%nat /\ length (get_electrons R o) = 50%nat /\
  (forall e, In e (get_electrons R o) -> in_cube 3 lo hi (estate e) /\ ecomp e = true /\ energy e = f tt (estate e)) /\
  get_best R o = Ok best /\ In best (get_electrons R o) /\ get_bestEnergy R o = Ok (energy best) /\
  (forall e, In e (get_electrons R o0) -> exists e', tried (env_with R E0 B (no_init R) (f tt)) opt (o_aos R o0) e' /\ estate e' = estate e) /\
  (forall e, In e (get_electrons R o) -> tried (env_with R E0 B (no_init R) (f tt)) opt (o_aos R o0) e) /\
  (forall e, tried (env_with R E0 B (no_init R) (f tt)) opt (o_aos R o0) e ->
     in_cube 3 lo hi (estate e) /\ energy e = f tt (estate e) /\ e_better E0 (f tt (estate e)) (energy best) = false) /\
  get_generation R o = Ok n' /\ get_earlyStop R o = Ok t' /\ 0 <= n' <= m /\ (n' = m \/ t <= t') /\
  Z.of_nat (length (get_record R o)) = n' + 1 /\ nth_error (get_record R o) (Z.to_nat n') = Some (energy best) /\
  (forall i j x y, (i <= j)%nat -> nth_error (get_record R o) i = Some x -> nth_error (get_record R o) j = Some y -> e_better E0 x y = false).
Proof using HR Hstd Hst Hdr Hrec HE HS.
  intros T1 T2 T3 F1 F2 B1 B2 B3 Hle Hf Hn Hm.
  pose proof (fixed_box_ok fuel 3 lo hi delta T1 T2 T3 F1 F2) as Hb. cbv zeta in Hb.
  set (bx := BoxObj.mkBox _ _ _ _ _ _ _) in Hb.
  destruct (atomic_program (A := unit) R E0 norm HR Hstd Hst Hdr 3 lo hi delta (fixed_kind 3) bx eq_refl eq_refl eq_refl eq_refl eq_refl eq_refl B1 B2 B3 Hle
    (mkAOpt 50 m t n rate) f tt Hf) with (s := mkAOS [] 0 [] [] (junk E0) 0 0 0 [] g)
    as (o0 & o & B & best & n' & t' & X1 & X2 & X3 & X4 & X5 & X6 & X7 & X8 & X9 & X10 & X11 & X12 & X13 & X14 & X15 & X16 & X17).
  - cbn [maxLayerNum electronNum]. lia.
  - exact Hm.
  - cbn [maxLayerNum electronNum]. intros t0 Ht. apply (fits_50 E0 HE HS). lia.
  - exists bx, o0, o, B, best, n', t'. cbv zeta. split; [exact Hb|]. split; [exact X1|]. split; [exact X2|]. split; [exact X3|].
    cbn [electronNum a_maxGeneration maxEarlyStop] in *. split; [clear -X4; lia|]. split; [clear -X5; lia|].
    destruct (X17 Hrec) as (Y1 & Y2 & Y3). repeat (split; [assumption|]). exact Y3.
Qed.

(** test/AOS_Rastrigin.cpp finishes, for every seed: there are 50 electrons, all in
    [-5, 5]^3, each with the value of the Rastrigin function at its place.  What is
    printed last is the energy of bestElectron(), one of them: a finite number that
    is not negative, and no electron evaluated in any round (the initial ones among
    them; all of them are in the box) has a lower one.  It stops after 50
    generations, or before that when the early stop counter has reached 20; there
    is one record per generation and one for the start, none larger than an earlier
    one, the last of them being what is printed. *)
Theorem C99_rastrigin : forall fuel g, (1100 <= fuel)%nat -> cos_safe L ->
  exists bx o0 o B best n t,
    fixed_box fuel 3 (d_of_Z (-5)) (d_of_Z 5) (literal 15 1) = Ok bx /\
    drive R E0 norm (aras_start R E0 L bx g) [SetOption R aras_opt; InitializePop R] = Ok o0 /\
    aras_main R E0 norm L fuel g = Ok o /\
    length (get_electrons R o) = 50%nat /\
    (forall e, In e (get_electrons R o) -> in_cube 3 (d_of_Z (-5)) (d_of_Z 5) (estate e) /\ ecomp e = true /\ energy e = rastrigin (Dops L) (estate e)) /\
    get_best R o = Ok best /\ In best (get_electrons R o) /\ get_bestEnergy R o = Ok (energy best) /\
    fin (energy best) /\ flt (energy best) d0 = false /\
    length (get_electrons R o0) = 50%nat /\
    (forall e, In e (get_electrons R o0) -> exists e', tried (env_with R E0 B (no_init R) (aras_f L tt)) aras_opt (o_aos R o0) e' /\ estate e' = estate e) /\
    (forall e, In e (get_electrons R o) -> tried (env_with R E0 B (no_init R) (aras_f L tt)) aras_opt (o_aos R o0) e) /\
    (forall e, tried (env_with R E0 B (no_init R) (aras_f L tt)) aras_opt (o_aos R o0) e ->
       in_cube 3 (d_of_Z (-5)) (d_of_Z 5) (estate e) /\ energy e = rastrigin (Dops L) (estate e) /\ flt (energy e) (energy best) = false) /\
    (forall i, minD B i = d_of_Z (-5) /\ maxD B i = d_of_Z 5 /\ deltaD B i = literal 15 1) /\ dimD B = 3 /\
    get_generation R o = Ok n /\ get_earlyStop R o = Ok t /\ 0 <= n <= 50 /\ (n = 50 \/ 20 <= t) /\
    Z.of_nat (length (get_record R o)) = n + 1 /\ nth_error (get_record R o) (Z.to_nat n) = Some (energy best) /\
    (forall i j x y, (i <= j)%nat -> nth_error (get_record R o) i = Some x -> nth_error (get_record R o) j = Some y -> flt x y = false).
Proof using HR Hstd Hst Hdr Hg Hrec HE HS.
  intros fuel g Hf Hc. destruct (round_trips fuel Hf) as (T1 & T2 & T3).
  pose proof (fun v => five_ok L 3 v Hc ltac:(lia)) as V.
  assert (K : flt (d_of_Z (-5)) (d_of_Z 5) = true /\ flt d0 (literal 15 1) = true /\ fle (d_of_Z (-5)) (d_of_Z 5) = true /\ fin (literal 15 1) /\ fle d0 (literal 15 1) = true /\ fle (literal 15 1) (d_of_Z 2) = true).
  { repeat split; vm_compute; reflexivity. }
  destruct K as (K1 & K2 & K3 & K4 & K5 & K6).
  destruct (d_of_Z_exact (-5) ltac:(lia)) as (Fm & Em). destruct (d_of_Z_exact 5 ltac:(lia)) as (Fp & Ep). destruct (d_of_Z_exact 2 ltac:(lia)) as (F2 & E2).
  apply fle_Rd in K5; [|reflexivity|assumption]. apply fle_Rd in K6; [|assumption..]. rewrite E2 in K6. pose proof FlFacts.d0_val as V0. rewrite V0 in K5.
  assert (P : (8 <= bpow radix2 800)%R) by (change 8%R with (bpow radix2 3); apply bpow_le; lia).
  assert (G1 : forall x y, e_better E0 x y = flt x y). { intros x y. unfold e_better. rewrite Hg. reflexivity. }
  unfold aras_main, aras_start, aras_opt, aras_f.
  assert (Q1 : fin (d_of_Z (-5)) /\ (Rabs (B2R (d_of_Z (-5))) <= bpow radix2 800)%R) by (split; [exact Fm|rewrite Em; apply Rabs_le; lra]).
  assert (Q2 : fin (d_of_Z 5) /\ (Rabs (B2R (d_of_Z 5)) <= bpow radix2 800)%R) by (split; [exact Fp|rewrite Ep; apply Rabs_le; lra]).
  assert (Q3 : fin (literal 15 1) /\ (Rabs (B2R (literal 15 1)) <= bpow radix2 800)%R) by (split; [exact K4|apply Rabs_le; lra]).
  clear Fm Em Fp Ep F2 E2 K4 K5 K6 P V0.
  revert T1 T2 T3 V K1 K2 K3 Q1 Q2 Q3. generalize (d_of_Z (-5)) as lo, (d_of_Z 5) as hi, (literal 15 1) as delta, (literal 1 1) as rate. intros lo hi delta rate T1 T2 T3 V K1 K2 K3 Q1 Q2 Q3.
  destruct (any_program lo hi delta rate (aras_f L) fuel 5 50 20 g T1 T2 T3 K1 K2 Q1 Q2 Q3 K3) as (bx & o0 & o & B & best & n & t & X1 & (D & S) & X2 & X3 & X4 & X5 & X6 & X7 & X8 & X9 & X10 & X11 & X12 & X13 & X14 & X15 & X16 & X17 & X18 & X19).
  - intros v Hv. apply fin_nonnan. apply (V v Hv).
  - lia.
  - unfold two64. lia.
  - exists bx, o0, o, B, best, n, t. split; [exact X1|]. split; [exact X2|]. split; [rewrite X1; exact X3|]. split; [exact X5|]. split; [exact X6|].
    split; [exact X7|]. split; [exact X8|]. split; [exact X9|].
    destruct (X6 best X8) as (Cb & _ & Eb). destruct (V _ Cb) as (Fb & Nb). unfold aras_f in Eb. rewrite <- Eb in Fb, Nb. split; [exact Fb|]. split; [exact Nb|].
    split; [exact X4|]. split; [exact X10|]. split; [exact X11|].
    split. { intros e He. destruct (X12 e He) as (Y1 & Y2 & Y3). split; [exact Y1|]. split; [exact Y2|]. rewrite G1, <- Y2 in Y3. exact Y3. }
    split; [exact S|]. split; [exact D|]. split; [exact X13|]. split; [exact X14|]. split; [exact X15|]. split; [exact X16|]. split; [exact X17|]. split; [exact X18|].
    intros i j x y Hij Hx Hy. rewrite <- G1. exact (X19 i j x y Hij Hx Hy).
Qed.
End C99.
Print Assumptions C99_rastrigin.

(** * The assumptions can be met *)
(** An exp right to 50 binary places, and adding from the left. *)
Definition fair_exp (x : double) : double := fofZ (Zfloor (exp (B2R x) * bpow radix2 50)) (-50).
Lemma exp_20 : (/ 4294967296 <= exp (-20))%R.
Proof.
  apply Rle_trans with (exp (-1) ^ 20)%R.
  - pose proof exp_le_3 as H3. assert (P : (/3 <= exp (-1))%R). { replace (-1)%R with (- (1))%R by lra. rewrite exp_Ropp. apply Rinv_le; [apply exp_pos|exact H3]. }
    apply Rle_trans with ((/3) ^ 20)%R; [cbn [pow]; lra|apply pow_incr; lra].
  - rewrite <- exp_pow. right. f_equal. rewrite INR_IZR_INZ. cbn. lra.
Qed.
Lemma fair_exp_ok : exp_fair fair_exp.
Proof.
  intros x Fx (B1 & B2). unfold fair_exp. set (e := exp (B2R x)).
  assert (E1 : (/ 4294967296 <= e <= 1)%R).
  { split; [apply Rle_trans with (1 := exp_20)|rewrite <- exp_0]; unfold e; [destruct B1 as [B1|B1]|destruct B2 as [B2|B2]]; try (left; apply exp_increasing; assumption); right; f_equal; lra. }
  change (bpow radix2 50) with 1125899906842624%R.
  pose proof (Zfloor_lb (e * 1125899906842624)) as Z1. pose proof (Zfloor_ub (e * 1125899906842624)) as Z2.
  set (m := Zfloor (e * 1125899906842624)) in *.
  assert (M : 0 <= m <= 1125899906842624).
  { split; apply le_IZR; [|lra]. apply Rle_trans with (IZR (Zfloor 0)); [rewrite Zfloor_IZR; lra|apply IZR_le, Zfloor_le; lra]. }
  destruct (@fofZ_exact 53 1024 _ _ m (-50)) as (F & V); [lia|easy|easy|]. split; [exact F|]. rewrite V. change (bpow radix2 (-50)) with (/ 1125899906842624)%R.
  apply Rabs_le. lra.
Qed.
Lemma add_nn (x y : double) : fin x -> fin y -> (0 <= B2R x <= 100)%R -> (0 <= B2R y <= 10)%R ->
  fin (fadd x y) /\ (Rabs (B2R (fadd x y) - (B2R x + B2R y)) <= (B2R x + B2R y) / 1000000)%R.
Proof.
  intros Fx Fy Bx By.
  assert (G : exists e, (Rabs e <= / 1000000)%R /\ drnd (B2R x + B2R y) = ((B2R x + B2R y) * (1 + e))%R).
  { destruct (FLT_plus_error_N_ex radix2 (3 - 1024 - 53) 53 (fun z => negb (Z.even z)) (B2R x) (B2R y)) as (e & He & Ee);
      [apply (generic_format_B2R 53 1024)|apply (generic_format_B2R 53 1024)|].
    exists e. split; [|exact Ee]. eapply Rle_trans; [exact He|]. assert (U : u_ro radix2 53 = (/ 9007199254740992)%R) by (unfold u_ro; change (- (53) + 1) with (-52); change (bpow radix2 (-52)) with (/ 4503599627370496)%R; lra). rewrite U. unfold Rdiv. apply Rle_trans with (/ 9007199254740992 * 1)%R; [|lra]. apply Rmult_le_compat_l; [lra|]. rewrite <- Rinv_1. apply Rinv_le; lra. }
  destruct G as (e & He & Ee). apply Rabs_le_inv in He.
  assert (Q : (Rabs (drnd (B2R x + B2R y)) < bpow radix2 1024)%R).
  { apply Rle_lt_trans with 128%R; [|change 128%R with (bpow radix2 7); apply bpow_lt; lia]. rewrite Ee. apply Rabs_le. nra. }
  destruct (fadd_fin 53 1024 _ _ x y Fx Fy Q) as (F & V). split; [exact F|]. rewrite V, Ee. apply Rabs_le. nra.
Qed.
Lemma sum_from (l : list double) : forall (a : double) (s : R) (k : nat), (k + length l <= 5)%nat ->
  fin a -> (0 <= s <= 10 * INR k)%R -> (Rabs (B2R a - s) <= s * INR k / 100000)%R -> (0 <= B2R a)%R ->
  (forall x, In x l -> fin x /\ (0 <= B2R x <= 10)%R) ->
  fin (fold_left fadd l a) /\ (Rabs (B2R (fold_left fadd l a) - (s + real_sum l)) <= (s + real_sum l) * 5 / 100000)%R.
Proof.
  induction l as [|x l IH]; intros a s k Hk Fa Hs Ha Pa Hl.
  - cbn [fold_left real_sum map fold_right length] in *. split; [exact Fa|]. unfold real_sum. cbn [map fold_right]. rewrite Rplus_0_r. apply Rabs_le_inv in Ha. apply Rabs_le.
    assert (INR k <= 5)%R by (replace 5%R with (INR 5) by (cbn; lra); apply le_INR; lia). pose proof (pos_INR k). nra.
  - cbn [fold_left length] in *. destruct (Hl x (or_introl eq_refl)) as (Fx & Bx). apply Rabs_le_inv in Ha.
    assert (Hk5 : (INR k <= 4)%R) by (replace 4%R with (INR 4) by (cbn; lra); apply le_INR; lia). pose proof (pos_INR k) as Pk.
    destruct (add_nn a x Fa Fx) as (F & V); [split; [exact Pa|nra]|exact Bx|]. apply Rabs_le_inv in V.
    unfold real_sum. cbn [map fold_right]. fold (real_sum l). rewrite <- Rplus_assoc. apply (IH _ (s + B2R x)%R (S k)); [lia|exact F|rewrite S_INR; nra| |nra|intros y Hy; apply Hl; right; exact Hy].
    apply Rabs_le. rewrite S_INR. nra.
Qed.
Lemma plain_sum_ok : sum_fair plain_sum.
Proof.
  intros l Hl B. destruct (sum_from l d0 0 0) as (F & V); [lia|reflexivity|cbn [INR]; split; lra|rewrite FlFacts.d0_val; cbn [INR]; apply Rabs_le; lra|rewrite FlFacts.d0_val; lra|exact B|].
  split; [exact F|]. unfold plain_sum. rewrite Rplus_0_l in V. apply Rabs_le_inv in V. apply Rabs_le. lra.
Qed.
Definition fair_env : env replay := {|
  std := std_inst; greater := false; box := seg; eigen := true; rec_on := true; libm_exp := fair_exp;
  vsum := plain_sum; below := Nat.ltb; eigen_random := fun g => (d0, g);
  iFun := initializeD replay seg; fFun := fun _ => d0; junk := d0 |}.
Example ex_C99 : rng_ok replay /\ std_ok (std fair_env) /\ stable_at_front (std fair_env) /\ eigen_draws fair_env /\ greater fair_env = false /\
  rec_on fair_env = true /\ exp_fair (libm_exp fair_env) /\ sum_fair (vsum fair_env) /\ cos_safe tiny_libm.
Proof.
  split; [exact replay_ok|]. split; [exact std_inst_ok|]. split; [apply isort_stable|]. split; [intros g; split; [reflexivity|cbn; lra]|].
  split; [reflexivity|]. split; [reflexivity|]. split; [exact fair_exp_ok|]. split; [exact plain_sum_ok|].
  intros x; cbn [tiny_libm l_cos]; split; [reflexivity|right; split; [reflexivity|cbn; rewrite Rabs_R0; lra]].
Qed.
(** Hence the program does finish. *)
Example ex_C99_finishes : forall g, exists o, aras_main replay fair_env one_norm tiny_libm 1100 g = Ok o /\ length (get_electrons replay o) = 50%nat.
Proof.
  intros g. destruct ex_C99 as (A1 & A2 & A3 & A4 & A5 & A6 & A7 & A8 & A9).
  destruct (C99_rastrigin replay fair_env one_norm tiny_libm A1 A2 A3 A4 A5 A6 A7 A8 1100 g (le_n _) A9) as (_ & _ & o & _ & _ & _ & _ & _ & _ & H1 & H2 & _). exists o. auto.
Qed.
