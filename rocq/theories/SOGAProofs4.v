(** Single-objective selection: every method but Truncation and EliteReserved
    is free of undefined behaviour, and which of them always finish. *)
From Coq Require Import List Arith ZArith Reals Bool Lia Lra Permutation.
From Flocq Require Import Core BinarySingleNaN.
From Verif Require Import Base Fl FlFacts Rng RandProofs StdOps ListFacts GABase GAOpsProofs SOGA SOGAProofs SOGAProofs2 SOGAProofs3.
Import ListNotations.
Open Scope Z_scope.

Section P.
Context {V : Type} (R : rng_ops) (std : std_ops) (greater : bool) (opt : ga_option) (sp : sel_params).
Notation core' := (core V double nat (G R)).
Notation gene' := (gene V double).
Notation isB := (isBetter greater).
Notation K' := (K opt).

Lemma pop_nonempty (c : core') : best_valid R c -> (1 <= length (pop c))%nat.
Proof. unfold best_valid. destruct (pop c); cbn; [contradiction|lia]. Qed.

Lemma wheel_defined fuel (c : core') es0 sum g prev target :
  wf c -> Permutation (map fst es0) (map gid (pop c)) ->
  0 <= target < Z.of_nat (length (pop c)) ->
  defined (do (es', g') <- spin_loop R fuel target es0 sum g; finish2 R greater c es' g' prev).
Proof.
  intros (N & _) P T. apply defined_bind; [apply spin_loop_defined; lia|].
  intros [es g'] E. apply spin_loop_sub in E. destruct E as (S & L).
  destruct (finish2_ok R greater c es0 es g' prev N S P) as (c' & ->); [|apply defined_ok].
  specialize (L ltac:(lia)). lia.
Qed.

Lemma to_int_range_diff (a b : Z) : 0 <= a < 2147483648 -> 0 <= b < 2147483648 -> -2147483648 <= a - b < 2147483648.
Proof. lia. Qed.

Lemma eliminate_int (c : core') : sizes_ok R opt c -> to_int (wrap64 (popSize R c - K')) = popSize R c - K'.
Proof.
  intros (H1 & H2). unfold popSize in *. set (n := Z.of_nat (length (pop c))) in *.
  assert (Hn : 0 <= n) by (unfold n; lia). clearbody n. unfold to_int, wrap64, two64.
  destruct (Z_le_gt_dec K' n) as [L|L].
  - rewrite (Z.mod_small (n - K')) by lia. rewrite Z.mod_small by lia. lia.
  - replace ((n - K') mod 18446744073709551616) with (n - K' + 18446744073709551616).
    2:{ apply Z.mod_unique with (-1); lia. }
    replace ((n - K' + 18446744073709551616 + 2147483648) mod 4294967296) with (n - K' + 2147483648).
    2:{ apply Z.mod_unique with 4294967296; lia. }
    lia.
Qed.

Section Def.
Variable c : core'.
Hypotheses (Hw : wf c) (Hb : best_valid R c) (HK : 1 <= K') (Hs : sizes_ok R opt c).

Lemma roulette_defined fuel : defined (sel_roulette R greater opt fuel c).
Proof.
  unfold sel_roulette. destruct (bestFitness_ok R c Hw Hb) as (f & ->). cbn [bind]. cbv zeta.
  rewrite (eliminate_int c Hs). unfold popSize.
  destruct (Z.leb_spec (Z.of_nat (length (pop c)) - K') 0) as [L|L].
  - destruct (updateFail2_ok R greater c (pop c) (gen_rng c) f) as (c' & ->); [|apply defined_ok].
    pose proof (pop_nonempty c Hb). intros C. rewrite C in *. cbn in *; lia.
  - apply defined_bind; [apply roulette_loop_defined; lia|].
    intros [es g'] E. apply roulette_loop_sub in E. destruct E as (S & Le). specialize (Le ltac:(lia)).
    destruct (finish2_ok R greater c (shift_by (min_of (weights_of greater (pop c))) (weights_of greater (pop c))) es g' f) as (c' & ->); try apply defined_ok.
    + apply Hw.
    + exact S.
    + rewrite fst_shift, fst_weights. reflexivity.
    + lia.
Qed.

Lemma early2_defined f : defined (updateFail2 R greater c (pop c) (gen_rng c) (findCurrentBestGene greater (pop c)) f).
Proof.
  destruct (updateFail2_ok R greater c (pop c) (gen_rng c) f) as (c' & ->); [|apply defined_ok].
  pose proof (pop_nonempty c Hb). intros C. rewrite C in *. cbn in *; lia.
Qed.
Lemma early1_defined : defined (updateFail1 R greater c (pop c) (gen_rng c) (findCurrentBestGene greater (pop c))).
Proof. destruct (updateFail1_ok R greater c Hw Hb) as (c' & ->). apply defined_ok. Qed.

Lemma montecarlo_ok : rng_ok R -> exists c', sel_montecarlo R greater opt c = Ok c'.
Proof.
  intros HR. unfold sel_montecarlo. destruct (bestFitness_ok R c Hw Hb) as (f & ->). cbn [bind].
  destruct (sizes_int R opt c Hs) as (E1 & E2). rewrite E1, E2. unfold popSize.
  pose proof (pop_nonempty c Hb) as PN.
  destruct (Z.leb_spec (Z.of_nat (length (pop c))) K') as [L|L].
  - apply updateFail2_ok. intros C. rewrite C in *. cbn in *; lia.
  - destruct HR as (_ & _ & HSh). specialize (HSh nat (map gid (pop c)) (gen_rng c)).
    destruct (shuffle R (map gid (pop c)) (gen_rng c)) as [its g1]. cbn [fst] in HSh. cbv zeta.
    destruct (erasure_survivors (pop c) its (firstn (Z.to_nat (Z.of_nat (length (pop c)) - K')) its) (proj1 Hw)) as (p' & E & _ & Lp & _).
    + apply sublist_firstn.
    + apply Permutation_sym, HSh.
    + rewrite E. cbn [bind]. apply updateFail2_ok. intros C. subst p'.
      rewrite firstn_length in Lp. cbn [length] in Lp. lia.
Qed.

Lemma probability_defined fuel : defined (sel_probability R greater opt sp fuel c).
Proof.
  unfold sel_probability. destruct (bestFitness_ok R c Hw Hb) as (f & ->). cbn [bind]. cbv zeta.
  destruct (sizes_int R opt c Hs) as (E1 & E2). rewrite E1, E2. unfold popSize.
  destruct (Z.leb_spec (Z.of_nat (length (pop c)) - K') 0) as [L|L]; [apply early2_defined|].
  apply (wheel_defined fuel c); [exact Hw|rewrite fst_prob; reflexivity|lia].
Qed.
Lemma boltzmann_defined fuel : defined (sel_boltzmann R greater opt sp fuel c).
Proof.
  unfold sel_boltzmann. destruct (bestFitness_ok R c Hw Hb) as (f & ->). cbn [bind]. cbv zeta.
  destruct (sizes_int R opt c Hs) as (E1 & E2). rewrite E1, E2. unfold popSize.
  destruct (Z.leb_spec (Z.of_nat (length (pop c)) - K') 0) as [L|L]; [apply early1_defined|].
  apply (wheel_defined fuel c); [exact Hw| |lia]. unfold boltz_weights. rewrite map_map. reflexivity.
Qed.

Hypothesis NN : forall x, In x (pop c) -> nonnan (gfit x).
Hypothesis Hstd : std_ok std.

Lemma sorted_perm : exists q, sort_pop std greater (pop c) = Ok q /\ Permutation (pop c) q.
Proof.
  pose proof (sort_pop_ok std greater (pop c) NN) as E. exists (sort std (geneBetter greater) (pop c)).
  split; [exact E|]. apply (sort_pop_inv std greater) in E; [|exact Hstd]. apply E.
Qed.
Lemma linear_defined fuel : defined (sel_linear R std greater opt sp fuel c).
Proof.
  unfold sel_linear. destruct (bestFitness_ok R c Hw Hb) as (f & ->). cbn [bind].
  destruct (sizes_int R opt c Hs) as (E1 & E2). rewrite E1, E2. unfold popSize.
  destruct (Z.leb_spec (Z.of_nat (length (pop c))) K') as [L|L]; [apply early1_defined|].
  destruct sorted_perm as (q & -> & P). cbn [bind].
  apply (wheel_defined fuel c); [exact Hw| |lia].
  unfold linear_weights. rewrite fst_combine_seq. apply Permutation_map, Permutation_sym, P.
Qed.
Lemma exponential_defined fuel : defined (sel_exponential R std greater opt sp fuel c).
Proof.
  unfold sel_exponential. destruct (bestFitness_ok R c Hw Hb) as (f & ->). cbn [bind].
  destruct (sizes_int R opt c Hs) as (E1 & E2). rewrite E1, E2. unfold popSize.
  destruct (Z.leb_spec (Z.of_nat (length (pop c))) K') as [L|L]; [apply early1_defined|].
  destruct sorted_perm as (q & -> & P). cbn [bind].
  apply (wheel_defined fuel c); [exact Hw| |lia].
  unfold exp_weights. rewrite fst_combine_seq. apply Permutation_map, Permutation_sym, P.
Qed.
Lemma stochastic_ok : rng_ok R -> exists c', sel_stochastic R greater opt c = Ok c'.
Proof.
  intros HR. unfold sel_stochastic. destruct (bestFitness_ok R c Hw Hb) as (f & ->). cbn [bind]. cbv zeta.
  destruct (sizes_int R opt c Hs) as (E1 & E2). rewrite E1, E2. unfold popSize.
  pose proof (pop_nonempty c Hb) as PN.
  destruct (Z.leb_spec (Z.of_nat (length (pop c)) - K') 0) as [L|L]; [apply updateFail1_ok; assumption|].
  set (ws := weights_of greater (pop c)). set (es := shift_by (min_of ws) ws).
  assert (P : Permutation (map fst es) (map gid (pop c))) by (unfold es, ws; rewrite fst_shift, fst_weights; reflexivity).
  destruct (fle (sum_of es) d0).
  - pose proof (su_equal_all R opt (Z.of_nat (length (pop c))) es HR) as H.
    assert (E : fst (su_equal R opt (Z.of_nat (length (pop c))) es (gen_rng c)) = []) by (destruct Hs; apply H; lia).
    destruct (su_equal R opt (Z.of_nat (length (pop c))) es (gen_rng c)) as [es' g']. cbn [fst] in E. subst es'.
    apply (finish2_ok R greater c es); [apply Hw|apply sublist_nil|exact P|cbn; lia].
  - destruct (randD_range _ _ _ _) as [beg g'].
    apply (finish2_ok R greater c es); [apply Hw| |exact P|].
    + eapply sublist_trans; [apply sublist_firstn|apply su_pave_sub].
    + rewrite firstn_length. lia.
Qed.
End Def.

(** ** Termination of the wheel selections *)
Definition mild (c : core') : Prop :=
  forall x, In x (pop c) -> fin (gfit x) /\ (Rabs (B2R (gfit x)) <= B900 / 2)%R.

Lemma signed_mild x : fin (gfit x) /\ (Rabs (B2R (gfit x)) <= B900 / 2)%R ->
  fin (signed greater x) /\ (Rabs (B2R (signed greater (x : gene'))) <= B900 / 2)%R.
Proof.
  intros (F & B). unfold signed. destruct greater; [split; assumption|].
  split; [apply fopp_fin, F|]. rewrite fopp_B2R, Rabs_Ropp. exact B.
Qed.

Lemma fin_lt_inf x : fin x -> flt x dinf = true.
Proof.
  intros F. apply flt_iff; [apply fin_nonnan, F|reflexivity|]. rewrite fval_fin by exact F.
  cbn [fval dinf]. change (fval dinf) with (bpow radix2 1024). pose proof (fin_lt_emax 53 1024 x) as H.
  apply Rabs_lt_inv in H. apply H.
Qed.

Lemma min_fold_spec (ws : list (nat * double)) : forall m : double, fin m -> (forall w, In w ws -> fin (snd w)) ->
  let r := fold_left (fun a w => std_min a (snd w)) ws m in
  fin r /\ (r = m \/ exists w, In w ws /\ r = snd w) /\ (B2R r <= B2R m)%R /\ (forall w, In w ws -> (B2R r <= B2R (snd w))%R).
Proof.
  induction ws as [|w ws IH]; intros m Fm Hf; cbn [fold_left].
  - cbv zeta. split; [exact Fm|]. split; [auto|]. split; [lra|]. intros w [].
  - assert (Fw : fin (snd w)) by (apply Hf; left; reflexivity).
    assert (Fs : fin (std_min m (snd w))) by (unfold std_min; destruct (flt (snd w) m); assumption).
    specialize (IH (std_min m (snd w)) Fs (fun x Hx => Hf x (or_intror Hx))). cbv zeta in *.
    set (r := fold_left _ ws _) in *. destruct IH as (Fr & Or & Lr & La).
    assert (Le : (B2R (std_min m (snd w)) <= B2R m /\ B2R (std_min m (snd w)) <= B2R (snd w))%R).
    { unfold std_min. destruct (flt (snd w) m) eqn:E.
      - apply flt_true in E. destruct E as (_ & _ & E). rewrite !fval_fin in E by assumption. lra.
      - apply flt_false_le in E; try (apply fin_nonnan; assumption). apply fle_true in E. destruct E as (_ & _ & E).
        rewrite !fval_fin in E by assumption. lra. }
    split; [exact Fr|]. split.
    + destruct Or as [Or|(x & Hx & Or)].
      * unfold std_min in Or. destruct (flt (snd w) m); [right; exists w; split; [left; reflexivity|exact Or]|left; exact Or].
      * right. exists x. split; [right; exact Hx|exact Or].
    + split; [lra|]. intros x [<-|Hx]; [lra|apply La, Hx].
Qed.
Lemma min_of_spec (ws : list (nat * double)) : ws <> [] -> (forall w, In w ws -> fin (snd w)) ->
  fin (min_of ws) /\ (exists w, In w ws /\ min_of ws = snd w) /\ (forall w, In w ws -> (B2R (min_of ws) <= B2R (snd w))%R).
Proof.
  intros HN HF. destruct ws as [|w ws]; [congruence|]. unfold min_of. cbn [fold_left].
  assert (Fw : fin (snd w)) by (apply HF; left; reflexivity).
  assert (E : std_min dinf (snd w) = snd w) by (unfold std_min; rewrite fin_lt_inf by exact Fw; reflexivity).
  rewrite E. destruct (min_fold_spec ws (snd w) Fw (fun x Hx => HF x (or_intror Hx))) as (F & O & L & A).
  split; [exact F|]. split.
  - destruct O as [O|(x & Hx & O)]; [exists w|exists x]; split; auto using in_eq, in_cons.
  - intros x [<-|Hx]; [exact L|apply A, Hx].
Qed.

Lemma min_fold_spec' (ws : list (nat * double)) : forall m : double, fin m -> (forall w, In w ws -> fin (snd w)) ->
  let r := fold_left (fun a w => std_min (snd w) a) ws m in
  fin r /\ (r = m \/ exists w, In w ws /\ r = snd w) /\ (B2R r <= B2R m)%R /\ (forall w, In w ws -> (B2R r <= B2R (snd w))%R).
Proof.
  induction ws as [|w ws IH]; intros m Fm Hf; cbn [fold_left].
  - cbv zeta. split; [exact Fm|]. split; [auto|]. split; [lra|]. intros w [].
  - assert (Fw : fin (snd w)) by (apply Hf; left; reflexivity).
    assert (Fs : fin (std_min (snd w) m)) by (unfold std_min; destruct (flt m (snd w)); assumption).
    specialize (IH (std_min (snd w) m) Fs (fun x Hx => Hf x (or_intror Hx))). cbv zeta in *.
    set (r := fold_left _ ws _) in *. destruct IH as (Fr & Or & Lr & La).
    assert (Le : (B2R (std_min (snd w) m) <= B2R m /\ B2R (std_min (snd w) m) <= B2R (snd w))%R).
    { unfold std_min. destruct (flt m (snd w)) eqn:E.
      - apply flt_true in E. destruct E as (_ & _ & E). rewrite !fval_fin in E by assumption. lra.
      - apply flt_false_le in E; try (apply fin_nonnan; assumption). apply fle_true in E. destruct E as (_ & _ & E).
        rewrite !fval_fin in E by assumption. lra. }
    split; [exact Fr|]. split.
    + destruct Or as [Or|(x & Hx & Or)].
      * unfold std_min in Or. destruct (flt m (snd w)); [left; exact Or|right; exists w; split; [left; reflexivity|exact Or]].
      * right. exists x. split; [right; exact Hx|exact Or].
    + split; [lra|]. intros x [<-|Hx]; [lra|apply La, Hx].
Qed.
Lemma min_of'_spec (ws : list (nat * double)) : ws <> [] -> (forall w, In w ws -> fin (snd w)) ->
  fin (min_of' ws) /\ (exists w, In w ws /\ min_of' ws = snd w) /\ (forall w, In w ws -> (B2R (min_of' ws) <= B2R (snd w))%R).
Proof.
  intros HN HF. destruct ws as [|w ws]; [congruence|]. unfold min_of'. cbn [fold_left].
  assert (Fw : fin (snd w)) by (apply HF; left; reflexivity).
  assert (E : std_min (snd w) dinf = snd w).
  { unfold std_min. rewrite flt_asym; [reflexivity|]. apply fin_lt_inf, Fw. }
  rewrite E. destruct (min_fold_spec' ws (snd w) Fw (fun x Hx => HF x (or_intror Hx))) as (F & O & L & A).
  split; [exact F|]. split.
  - destruct O as [O|(x & Hx & O)]; [exists w|exists x]; split; auto using in_eq, in_cons.
  - intros x [<-|Hx]; [exact L|apply A, Hx].
Qed.

(** Subtracting the minimum gives weights in [0, 2^900]. *)
Lemma shift_tame (ws : list (nat * double)) m : 
  (forall w, In w ws -> fin (snd w) /\ (Rabs (B2R (snd w)) <= B900 / 2)%R) ->
  fin m -> (Rabs (B2R m) <= B900 / 2)%R -> (forall w, In w ws -> (B2R m <= B2R (snd w))%R) ->
  forall e, In e (shift_by m ws) -> fin (snd e) /\ (0 <= B2R (snd e) <= B900)%R.
Proof.
  intros Hw Fm Bm Lm e He. unfold shift_by in He. apply in_map_iff in He. destruct He as (w & <- & Hin). cbn [snd].
  destruct (Hw w Hin) as (Fw & Bw). specialize (Lm w Hin).
  destruct (fsub_900 (snd w) m 1) as (A & B & C); [lia|exact Fw|exact Fm| |].
  { rewrite Rmult_1_l. eapply Rle_trans; [apply Rabs_triang|]. rewrite Rabs_Ropp. lra. }
  split; [exact A|]. rewrite Rmult_1_l in B. apply Rabs_le_inv in B. split; [|lra]. rewrite C. apply drnd_ge0. lra.
Qed.
Lemma nonneg_tame es : (forall e : nat * double, In e es -> fin (snd e) /\ (0 <= B2R (snd e) <= B900)%R) -> tame es.
Proof. intros H e He. destruct (H e He) as (F & B). split; [exact F|]. rewrite Rabs_pos_eq; lra. Qed.

Lemma weights_mild (p : list gene') : (forall x, In x p -> fin (gfit x) /\ (Rabs (B2R (gfit x)) <= B900 / 2)%R) ->
  forall w, In w (weights_of greater p) -> fin (snd w) /\ (Rabs (B2R (snd w)) <= B900 / 2)%R.
Proof.
  intros H w Hw. unfold weights_of in Hw. apply in_map_iff in Hw. destruct Hw as (x & <- & Hx). apply signed_mild, H, Hx.
Qed.

Lemma shifted_weights (p : list gene') : p <> [] -> (forall x, In x p -> fin (gfit x) /\ (Rabs (B2R (gfit x)) <= B900 / 2)%R) ->
  (forall e, In e (shift_by (min_of (weights_of greater p)) (weights_of greater p)) -> fin (snd e) /\ (0 <= B2R (snd e) <= B900)%R) /\
  (forall e, In e (shift_by (min_of' (weights_of greater p)) (weights_of greater p)) -> fin (snd e) /\ (0 <= B2R (snd e) <= B900)%R).
Proof.
  intros HN HM. pose proof (weights_mild p HM) as W.
  assert (WN : weights_of greater p <> []) by (destruct p; [congruence|discriminate]).
  split.
  - destruct (min_of_spec _ WN (fun w H => proj1 (W w H))) as (F & (w & Hw & E) & L).
    apply shift_tame; [exact W|exact F| |exact L]. rewrite E. apply W, Hw.
  - destruct (min_of'_spec _ WN (fun w H => proj1 (W w H))) as (F & (w & Hw & E) & L).
    apply shift_tame; [exact W|exact F| |exact L]. rewrite E. apply W, Hw.
Qed.

(** The generic statement: tame weights, enough fuel. *)
Lemma wheel_ok fuel (c : core') es0 sum g prev target m :
  rng_ok R -> wf c -> Permutation (map fst es0) (map gid (pop c)) ->
  0 <= target < Z.of_nat (length (pop c)) -> Z.of_nat (length (pop c)) < 2147483648 ->
  tame es0 -> fin sum -> 0 <= m <= 2147483648 -> (Rabs (B2R sum) <= IZR m * B900)%R ->
  Z.of_nat (length (pop c)) - target <= Z.of_nat fuel ->
  exists c', (do (es', g') <- spin_loop R fuel target es0 sum g; finish2 R greater c es' g' prev) = Ok c'.
Proof.
  intros HR (N & _) P T HN HT Fs Hm Hs HF.
  assert (Les : length es0 = length (pop c)).
  { apply Permutation_length in P. rewrite !map_length in P. exact P. }
  destruct (spin_loop_ok R fuel target es0 sum g m) as ([es g'] & E); try assumption; try lia.
  rewrite E. cbn [bind]. apply spin_loop_sub in E. destruct E as (S & L).
  apply (finish2_ok R greater c es0); try assumption. specialize (L ltac:(lia)). lia.
Qed.
End P.
