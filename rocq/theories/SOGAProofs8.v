(** Single-objective selection: populations in which all fitness values are
    equal, overflowing weights, and streams for which a loop never ends. *)
From Coq Require Import List Arith ZArith Reals Bool Lia Lra Permutation.
From Flocq Require Import Core BinarySingleNaN.
From Verif Require Import Base Fl FlFacts Rng RandProofs StdOps ListFacts GABase GABaseProofs GAOpsProofs SOGA SOGAProofs SOGAProofs2 SOGAProofs3 SOGAProofs4 SOGAProofs5 SOGAProofs6 SOGAProofs7.
Import ListNotations.
Open Scope Z_scope.

Section P.
Context {V : Type} (R : rng_ops) (std : std_ops) (greater : bool) (opt : ga_option) (sp : sel_params).
Notation core' := (core V double nat (G R)).
Notation gene' := (gene V double).
Notation isB := (isBetter greater).
Notation K' := (K opt).

Definition all_equal (p : list gene') (f : double) : Prop := forall x, In x p -> gfit x = f.

Lemma fsub_self (x : double) : fin x -> fin (fsub x x) /\ B2R (fsub x x) = 0%R.
Proof.
  intros F. destruct (fsub_fin 53 1024 _ _ x x F F) as (A & B).
  - rewrite Rminus_diag_eq by reflexivity. rewrite round_0 by typeclasses eauto. rewrite Rabs_R0. apply bpow_gt_0.
  - split; [exact A|]. rewrite B, Rminus_diag_eq by reflexivity. apply round_0. typeclasses eauto.
Qed.

Lemma sum_zero (es : list (nat * double)) : (forall e, In e es -> fin (snd e) /\ B2R (snd e) = 0%R) ->
  fin (sum_of es) /\ B2R (sum_of es) = 0%R.
Proof.
  intros H. unfold sum_of.
  assert (Gn : forall l (s : double), (forall e : nat * double, In e l -> fin (snd e) /\ B2R (snd e) = 0%R) -> fin s -> B2R s = 0%R ->
    fin (fold_left (fun s e => fadd s (snd e)) l s) /\ B2R (fold_left (fun s e => fadd s (snd e)) l s) = 0%R).
  { induction l as [|e l IH]; intros s Hl Fs Vs; cbn [fold_left]; [split; assumption|].
    destruct (Hl e (or_introl eq_refl)) as (Fe & Ve).
    destruct (fadd_fin 53 1024 _ _ s (snd e) Fs Fe) as (A & B).
    { rewrite Vs, Ve, Rplus_0_r, round_0 by typeclasses eauto. rewrite Rabs_R0. apply bpow_gt_0. }
    apply IH; [intros; apply Hl; right; assumption|exact A|]. rewrite B, Vs, Ve, Rplus_0_r. apply round_0. typeclasses eauto. }
  apply Gn; [exact H|reflexivity|reflexivity].
Qed.

Lemma equal_weights (p : list gene') f : fin f -> p <> [] -> all_equal p f ->
  forall e, In e (shift_by (min_of (weights_of greater p)) (weights_of greater p)) -> fin (snd e) /\ B2R (snd e) = 0%R.
Proof.
  intros Ff HN HE. set (w := if greater then f else fopp f).
  assert (Fw : fin w) by (unfold w; destruct greater; [exact Ff|apply fopp_fin, Ff]).
  assert (W : forall e, In e (weights_of greater p) -> snd e = w).
  { intros e He. unfold weights_of in He. apply in_map_iff in He. destruct He as (x & <- & Hx). cbn [snd].
    unfold signed, w. rewrite (HE x Hx). reflexivity. }
  assert (WN : weights_of greater p <> []) by (destruct p; [congruence|discriminate]).
  destruct (min_of_spec (weights_of greater p) WN) as (_ & (e0 & He0 & Em) & _).
  { intros e He. rewrite (W e He). exact Fw. }
  rewrite (W e0 He0) in Em. rewrite Em. intros e He. unfold shift_by in He. apply in_map_iff in He.
  destruct He as (x & <- & Hx). cbn [snd]. rewrite (W x Hx). apply fsub_self, Fw.
Qed.
Lemma equal_sum (p : list gene') f : fin f -> p <> [] -> all_equal p f ->
  let es := shift_by (min_of (weights_of greater p)) (weights_of greater p) in
  fle (sum_of es) d0 = true /\ flt d0 (sum_of es) = false.
Proof.
  intros Ff HN HE es. destruct (sum_zero es (equal_weights p f Ff HN HE)) as (F & Vs).
  split.
  - apply fle_iff; [apply fin_nonnan, F|reflexivity|]. rewrite (fval_fin _ _ _ F), Vs. cbn. lra.
  - destruct (flt d0 (sum_of es)) eqn:E; [|reflexivity]. apply flt_true in E. rewrite (fval_fin _ _ _ F), Vs in E. cbn in E. lra.
Qed.

(** *** StochasticUniversal removes nobody when all fitness values are equal. *)
Lemma stochastic_equal_keeps_all (c : core') f : rng_ok R -> wf c -> best_valid R c -> 1 <= K' -> sizes_ok R opt c ->
  fin f -> all_equal (pop c) f ->
  exists c', sel_stochastic R greater opt c = Ok c' /\ pop c' = pop c.
Proof.
  intros HR Hw Hb HK Hs Ff HE. pose proof (pop_nonempty R c Hb) as PN.
  assert (HN : pop c <> []) by (intros C; rewrite C in PN; cbn in PN; lia).
  unfold sel_stochastic. destruct (bestFitness_ok R c Hw Hb) as (pf & ->). cbn [bind]. cbv zeta.
  destruct (sizes_int R opt c Hs) as (E1 & E2). rewrite E1, E2. unfold popSize.
  destruct (Z.leb_spec (Z.of_nat (length (pop c)) - K') 0) as [L|L].
  - destruct (updateFail1_ok R greater c Hw Hb) as (c' & E). exists c'. split; [exact E|].
    unfold updateFail1 in E. apply bind_Ok in E. destruct E as (o & _ & E). apply updateFail2_spec in E.
    destruct E as (? & _ & Hp & _). exact Hp.
  - rewrite (proj1 (equal_sum (pop c) f Ff HN HE)).
    pose proof (su_equal_all R opt (Z.of_nat (length (pop c))) (shift_by (min_of (weights_of greater (pop c))) (weights_of greater (pop c))) HR) as H.
    destruct Hs as (Hs1 & Hs2). specialize (H ltac:(lia) ltac:(lia) (gen_rng c)).
    destruct (su_equal _ _ _ _ _) as [es' g']. cbn [fst] in H. subst es'.
    unfold finish2, applyErasement. cbn [map erase_all bind].
    destruct (updateFail2_ok R greater c (pop c) g' pf HN) as (c' & E). exists c'. split; [exact E|].
    apply updateFail2_spec in E. destruct E as (? & _ & Hp & _). exact Hp.
Qed.

Lemma stochastic_at_least (c c' : core') : rng_ok R -> wf c -> sizes_ok R opt c ->
  sel_stochastic R greater opt c = Ok c' ->
  min_size R opt c <= Z.of_nat (length (pop c')) <= Z.of_nat (length (pop c)).
Proof.
  intros HR Hw Hs H. pose proof H as H0. apply stochastic_spec in H0; try assumption.
  destruct H0 as (n & [(S & B)|(S & B & E)]).
  - destruct S as ((_ & -> & _) & _). exact B.
  - destruct S as ((Sb & Ln & _) & _). pose proof (sublist_length _ _ Sb) as Sl.
    unfold sel_stochastic in H. apply bind_Ok in H. destruct H as (prev & Hp & H).
    destruct (sizes_int R opt c Hs) as (E1 & E2). cbv zeta in H. rewrite E1, E2 in H. unfold popSize in H.
    destruct (Z.leb_spec (Z.of_nat (length (pop c)) - K') 0) as [L|L].
    + unfold updateFail1 in H. apply bind_Ok in H. destruct H as (o & _ & H). apply updateFail2_spec in H.
      destruct H as (? & _ & Hpp & _). rewrite Hpp. unfold min_size. lia.
    + rewrite E in H.
      pose proof (su_equal_all R opt (Z.of_nat (length (pop c))) (shift_by (min_of (weights_of greater (pop c))) (weights_of greater (pop c))) HR) as Q.
      destruct Hs as (Hs1 & Hs2). specialize (Q ltac:(lia) ltac:(lia) (gen_rng c)).
      destruct (su_equal _ _ _ _ _) as [es' g']. cbn [fst] in Q. subst es'.
      unfold finish2, applyErasement in H. cbn [map erase_all bind] in H. apply updateFail2_spec in H.
      destruct H as (? & _ & Hpp & _). rewrite Hpp. unfold min_size. lia.
Qed.
End P.

(** ** Streams for which a loop never ends *)
Definition half : double := fofZ 1 (-1).
Definition three_quarters : double := fofZ 3 (-2).
Definition halff : float := fofZ 1 (-1).
Definition half_rng : rng_ops := constant_rng three_quarters halff.
Lemma half_rng_ok : rng_ok half_rng.
Proof. split; [|split]; intros; cbn; try (split; vm_compute; reflexivity). reflexivity. Qed.

Lemma halff_idx n : 2 <= n < 2147483648 -> fst (randIdx half_rng n tt) <> 0.
Proof.
  intros Hn. unfold randIdx. cbn [half_rng constant_rng randf01]. cbn [fst]. unfold idx_of.
  assert (Fh : fin halff /\ B2R halff = (/2)%R).
  { destruct (@fofZ_exact 24 128 _ _ 1 (-1)) as (A & B); try easy. split; [exact A|]. unfold halff. rewrite B. cbn. lra. }
  destruct Fh as (Fh & Vh).
  set (x := frnd (IZR n)).
  assert (G2 : generic_format radix2 (SpecFloat.fexp 24 128) 2) by (change 2%R with (bpow radix2 1); apply generic_format_bpow; easy).
  assert (G31 : generic_format radix2 (SpecFloat.fexp 24 128) (bpow radix2 31)) by (apply generic_format_bpow; easy).
  assert (Hr : (2 <= x <= bpow radix2 31)%R).
  { split; [apply (rnd_gen' 24 128 _); [exact G2|apply IZR_le; lia]|apply (rnd_gen 24 128 _); [exact G31|]].
    change (bpow radix2 31) with (IZR 2147483648). apply IZR_le. lia. }
  assert (BL : (bpow radix2 31 < bpow radix2 128)%R) by (apply bpow_lt; easy).
  assert (Fx : fin (f_of_Z n) /\ B2R (f_of_Z n) = x).
  { destruct (fofZ_fin 24 128 _ _ n 0) as (A & B).
    - cbn [bpow]. rewrite Rmult_1_r. change (Rabs x < bpow radix2 128)%R. rewrite Rabs_pos_eq by lra. lra.
    - split; [exact A|]. unfold f_of_Z. rewrite B. cbn [bpow]. rewrite Rmult_1_r. reflexivity. }
  destruct Fx as (Fx & Vx).
  assert (G1 : generic_format radix2 (SpecFloat.fexp 24 128) 1) by (change 1%R with (bpow radix2 0); apply generic_format_bpow; easy).
  assert (Hp : (1 <= frnd (/2 * x) <= bpow radix2 31)%R).
  { split; [apply (rnd_gen' 24 128 _); [exact G1|lra]|apply (rnd_gen 24 128 _); [exact G31|lra]]. }
  destruct (fmul_fin 24 128 _ _ halff (f_of_Z n) Fh Fx) as (A & B).
  { rewrite Vh, Vx, Rabs_pos_eq by lra. lra. }
  assert (E0 : Btrunc (fmul halff (f_of_Z n)) = Ztrunc (B2R (fmul halff (f_of_Z n)))).
  { apply eq_IZR. rewrite (Btrunc_correct 24 128 _). apply round_FIX_IZR. }
  rewrite E0, B, Vh, Vx. intros C.
  assert (1 <= Ztrunc (frnd (/ 2 * x))); [|lia].
  rewrite Ztrunc_floor by lra. apply Zfloor_lub. apply Hp.
Qed.

Section H.
Context {V : Type} (greater : bool) (opt : ga_option) (sp : sel_params) (std : std_ops).
Notation core' := (core V double nat (G half_rng)).
Notation K' := (K opt).

Lemma first_zero_half n es : 2 <= n < 2147483648 -> first_zero half_rng n es tt = (es, tt).
Proof.
  intros Hn. pose proof (halff_idx n Hn) as Hz. induction es as [|e es IH]; cbn [first_zero]; [reflexivity|].
  destruct (randIdx half_rng n tt) as [i []] eqn:E. cbn [fst] in Hz.
  destruct (Z.eqb_spec i 0); [contradiction|]. rewrite IH. reflexivity.
Qed.

(** Equal fitness values and this stream: RouletteWheel never ends. *)
Lemma roulette_equal_hangs fuel (c : core') f : wf c -> best_valid half_rng c -> 1 <= K' -> sizes_ok half_rng opt c ->
  fin f -> all_equal (pop c) f -> K' < Z.of_nat (length (pop c)) ->
  sel_roulette half_rng greater opt fuel c = Fuel.
Proof.
  intros Hw Hb HK Hs Ff HE HN. unfold sel_roulette. destruct (bestFitness_ok half_rng c Hw Hb) as (pf & ->). cbn [bind]. cbv zeta.
  rewrite (eliminate_int half_rng opt c Hs). unfold popSize.
  destruct (Z.leb_spec (Z.of_nat (length (pop c)) - K') 0) as [L|L]; [lia|].
  assert (PN : pop c <> []) by (intros C; rewrite C in L; cbn in L; lia).
  set (es := shift_by _ _). assert (Hsum : flt d0 (sum_of es) = false) by exact (proj2 (equal_sum greater (pop c) f Ff PN HE)).
  assert (Le : length es = length (pop c)) by (unfold es, shift_by, weights_of; rewrite !map_length; reflexivity).
  assert (Q : forall fu g, roulette_loop half_rng fu (Z.of_nat (length (pop c)) - K') es (sum_of es) g = Fuel).
  { destruct Hs as (Hs1 & Hs2).
    induction fu as [|fu IH]; intros []; cbn [roulette_loop]; destruct (Z.leb_spec (Z.of_nat (length es)) (Z.of_nat (length (pop c)) - K')); try lia; [reflexivity|].
    rewrite Hsum. rewrite first_zero_half; [apply IH|]. clear IH. rewrite Le. clear -HK HN Hs2. lia. }
  rewrite Q. reflexivity.
Qed.

Lemma elite_first_half n es : 2 <= n < 2147483648 -> elite_first half_rng n es tt = (es, tt).
Proof.
  intros Hn.
  assert (Q : fle (fmul three_quarters (d_of_Z n)) d1 = false).
  { destruct (d_of_Z_exact n) as (Fn & Vn); [lia|].
    destruct (@fofZ_exact 53 1024 _ _ 3 (-2)) as (Ft & Vt); try easy. fold three_quarters in Ft, Vt.
    assert (Et : B2R three_quarters = (3/4)%R) by (rewrite Vt; cbn; lra).
    assert (Nr : (2 <= IZR n)%R) by (apply IZR_le; lia).
    assert (Nu : (IZR n <= IZR 2147483648)%R) by (apply IZR_le; lia).
    destruct (fmul_bounded three_quarters (d_of_Z n) 2147483648 0) as (A & _ & B); try easy.
    { rewrite Et, Vn, Rabs_pos_eq by lra. cbn [bpow]. lra. }
    destruct (fle _ d1) eqn:E; [|reflexivity]. exfalso. apply fle_true in E. destruct E as (_ & _ & E).
    rewrite (fval_fin _ _ _ A), B, (fval_fin _ _ _ d1_fin), d1_val, Et, Vn in E.
    assert (C : (3/2 <= drnd (3/4 * IZR n))%R).
    { apply (rnd_gen' 53 1024 _); [|lra]. replace (3/2)%R with (IZR 3 * bpow radix2 (-1))%R by (cbn; lra).
      apply (gen_IZR_bpow 53 1024 _); easy. }
    lra. }
  induction es as [|e es IH]; cbn [elite_first]; [reflexivity|]. cbn [half_rng constant_rng rand01] in *.
  rewrite Q. change (elite_first half_rng n es tt = (es, tt)) in IH. rewrite IH. reflexivity.
Qed.
End H.
