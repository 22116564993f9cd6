(** Proofs about single-objective selection: which individuals survive, how
    many, which one is the best, and how failTimes moves. *)
From Coq Require Import List Arith ZArith Bool Lia Permutation.
From Flocq Require Import BinarySingleNaN.
From Verif Require Import Base Fl Rng StdOps ListFacts GABase GAOpsProofs SOGA.
Import ListNotations.
Open Scope Z_scope.

Section P.
Context {V : Type} (R : rng_ops) (std : std_ops) (greater : bool) (opt : ga_option) (sp : sel_params).
Notation core' := (core V double nat (G R)).
Notation gene' := (gene V double).
Notation isB := (isBetter greater).
Notation K' := (K opt).

(** ** Specification *)
(** [x] is the individual that result()/bestFitness() refer to. *)
Definition is_best_gene (c : core') (x : gene') : Prop := In x (pop c) /\ gid x = ext c.
(** The survivors are a sub-collection, in order, of the given size. *)
Definition survivors (c c' : core') (size : Z) : Prop :=
  sublist (pop c') (pop c) /\ Z.of_nat (length (pop c')) = size /\ next c' = next c.
(** The reported individual survives and no survivor is strictly better. *)
Definition best_reported (c' : core') : Prop :=
  exists b, is_best_gene c' b /\ forall x, In x (pop c') -> isB (gfit x) (gfit b) = false.
(** failTimes: reset on strict improvement over the previous best, else one more. *)
Definition fail_counted (c c' : core') : Prop :=
  exists old b, is_best_gene c old /\ is_best_gene c' b /\
    fails c' = if isB (gfit b) (gfit old) then 0 else wrap64 (fails c + 1).
(** Sizes fit in an int. *)
Definition sizes_ok (c : core') : Prop :=
  0 <= K' < 2147483648 /\ Z.of_nat (length (pop c)) < 2147483648.

(** ** Basic facts *)
Lemma isB_irrefl a : isB a a = false.
Proof. unfold isBetter. destruct greater; apply flt_irrefl. Qed.
Lemma isB_trans a b c : isB a b = true -> isB b c = true -> isB a c = true.
Proof. unfold isBetter. destruct greater; intros; eapply flt_trans; eassumption. Qed.
Lemma isB_asym a b : isB a b = true -> isB b a = false.
Proof. unfold isBetter. destruct greater; apply flt_asym. Qed.
Lemma isB_weak a b c : nonnan a -> nonnan b -> nonnan c ->
  isB a b = true -> isB a c = true \/ isB c b = true.
Proof.
  intros Na Nb Nc H. destruct (isB a c) eqn:E1; [auto|]. destruct (isB c b) eqn:E2; [auto|]. exfalso.
  unfold isBetter in *. destruct greater; apply flt_false_le in E1; apply flt_false_le in E2; try assumption;
    apply fle_lt_false in E1 as F1; apply fle_lt_false in E2 as F2;
    [pose proof (fle_trans _ _ _ _ _ E1 E2) as C|pose proof (fle_trans _ _ _ _ _ E2 E1) as C];
    apply fle_lt_false in C; congruence.
Qed.

Lemma lookup_ok (p : list gene') i x : lookup p i = Ok x -> In x p /\ gid x = i.
Proof.
  unfold lookup. destruct (find _ p) as [y|] eqn:E; intros H; [|discriminate]. inversion H; subst.
  apply find_some in E. destruct E as (E1 & E2). apply Nat.eqb_eq in E2. auto.
Qed.
Lemma lookup_in (p : list gene') x : NoDup (map gid p) -> In x p -> lookup p (gid x) = Ok x.
Proof.
  intros N H. unfold lookup. destruct (find _ p) as [y|] eqn:E.
  - apply find_some in E. destruct E as (E1 & E2). apply Nat.eqb_eq in E2.
    f_equal. eapply NoDup_map_inj; eauto.
  - exfalso. apply find_none with (x := x) in E; [|exact H]. rewrite Nat.eqb_refl in E. discriminate.
Qed.
Lemma lookup_UB (p : list gene') i : lookup p i = UB <-> ~ In i (map gid p).
Proof.
  unfold lookup. destruct (find _ p) as [y|] eqn:E; split; intros H; try discriminate; try reflexivity.
  - apply find_some in E. destruct E as (E1 & E2). apply Nat.eqb_eq in E2. exfalso. apply H.
    subst. apply in_map, E1.
  - intros C. apply in_map_iff in C. destruct C as (x & <- & Hx).
    apply find_none with (x := x) in E; [|exact Hx]. rewrite Nat.eqb_refl in E. discriminate.
Qed.
Lemma lookup_cases (p : list gene') i : (exists x, lookup p i = Ok x) \/ lookup p i = UB.
Proof. unfold lookup. destruct (find _ p); eauto. Qed.

Lemma best_from_spec (p : list gene') : forall acc,
  ((In (best_from greater acc p) p /\ geneBetter greater (best_from greater acc p) acc = true)
   \/ best_from greater acc p = acc) /\
  (forall x, In x p -> geneBetter greater x (best_from greater acc p) = false).
Proof.
  induction p as [|y p IH]; intros acc; cbn [best_from].
  - split; [auto|contradiction].
  - specialize (IH (if geneBetter greater y acc then y else acc)).
    set (b := best_from greater _ p) in *. destruct IH as (I1 & I3). unfold geneBetter in *.
    destruct (isB (gfit y) (gfit acc)) eqn:E.
    + split.
      { left. destruct I1 as [(H & B)|H].
        - split; [right; exact H|]. eapply isB_trans; eassumption.
        - split; [left; congruence|]. rewrite H. exact E. }
      intros x [<-|Hx]; [|apply I3, Hx].
      destruct I1 as [(H & B)|H]; [apply isB_asym, B|rewrite H; apply isB_irrefl].
    + split. { destruct I1 as [(H & B)|H]; [left; split; [right; exact H|exact B]|right; exact H]. }
      intros x [<-|Hx]; [|apply I3, Hx].
      destruct I1 as [(H & B)|H]; [|rewrite H; exact E].
      destruct (isB (gfit y) (gfit b)) eqn:E2; [|reflexivity].
      rewrite (isB_trans _ _ _ E2 B) in E. discriminate.
Qed.

Lemma find_best_spec (p : list gene') b : findCurrentBestGene greater p = Some b ->
  In b p /\ forall x, In x p -> isB (gfit x) (gfit b) = false.
Proof.
  destruct p as [|x p]; cbn [findCurrentBestGene]; intros H; [discriminate|].
  assert (E : b = best_from greater x (x :: p)) by congruence. clear H.
  destruct (best_from_spec (x :: p) x) as (I1 & I2). rewrite <- E in *. split; [|exact I2].
  destruct I1 as [(H & _)|H]; [exact H|left; congruence].
Qed.
Lemma find_best_none (p : list gene') : findCurrentBestGene greater p = None <-> p = [].
Proof. destruct p; cbn; split; intros; congruence. Qed.

(** ** Erasing *)
Lemma erase1_spec (p : list gene') i : NoDup (map gid p) -> In i (map gid p) ->
  erase1 p i = Ok (filter (fun x => negb (Nat.eqb (gid x) i)) p).
Proof.
  induction p as [|x p IH]; cbn; intros N H; [contradiction|]. inversion N as [|? ? N1 N2]; subst.
  destruct (Nat.eqb_spec (gid x) i) as [E|E]; cbn.
  - f_equal. symmetry. rewrite <- E in *. clear -N1.
    induction p as [|y p IH]; cbn in *; [reflexivity|].
    destruct (Nat.eqb_spec (gid y) (gid x)) as [C|C]; [exfalso; apply N1; auto|].
    cbn. f_equal. apply IH. tauto.
  - destruct H as [H|H]; [congruence|]. rewrite (IH N2 H). reflexivity.
Qed.
Lemma erase1_inv (p : list gene') i p' : erase1 p i = Ok p' -> In i (map gid p).
Proof.
  revert p'; induction p as [|x p IH]; cbn; intros p' H; [discriminate|].
  destruct (Nat.eqb_spec (gid x) i); [auto|]. destruct (erase1 p i) eqn:E; try discriminate. eauto.
Qed.

Lemma erase_all_spec is : forall p : list gene', NoDup (map gid p) -> NoDup is -> incl is (map gid p) ->
  erase_all p is = Ok (filter (fun x => negb (inb is (gid x))) p).
Proof.
  induction is as [|i is IH]; intros p N NI HI; cbn [erase_all].
  - f_equal. symmetry. induction p as [|x p IHp]; cbn; [reflexivity|]. f_equal. apply IHp.
    + inversion N; assumption.
    + intros y [].
  - rewrite erase1_spec; [|exact N|apply HI; left; reflexivity]. cbn [bind].
    inversion NI as [|? ? N1 N2]; subst.
    rewrite IH.
    + f_equal. rewrite filter_filter. apply filter_ext. intros x. cbn.
      rewrite <- negb_orb. reflexivity.
    + eapply sublist_NoDup; [apply sublist_map, sublist_filter|exact N].
    + exact N2.
    + intros j Hj. specialize (HI j (or_intror Hj)). apply in_map_iff in HI.
      destruct HI as (x & <- & Hx). apply in_map. apply filter_In. split; [exact Hx|].
      apply negb_true_iff, Nat.eqb_neq. intros C. apply N1. rewrite <- C. exact Hj.
Qed.

(** The survivors of an erasure list. *)
Lemma erasure_survivors (p : list gene') es0 es :
  NoDup (map gid p) -> sublist es es0 -> Permutation es0 (map gid p) ->
  exists p', erase_all p es = Ok p' /\ sublist p' p /\
    length p' = (length p - length es)%nat /\
    (forall x, In x p' <-> In x p /\ ~ In (gid x) es).
Proof.
  intros N S P. assert (ND : NoDup es).
  { eapply sublist_NoDup; [exact S|]. eapply Permutation_NoDup; [apply Permutation_sym, P|exact N]. }
  assert (I : incl es (map gid p)).
  { intros i Hi. eapply Permutation_in; [exact P|]. eapply sublist_in; eauto. }
  eexists. split; [apply erase_all_spec; assumption|]. split; [apply sublist_filter|].
  split; [apply filter_notin_keys; assumption|].
  intros x. rewrite filter_In, negb_true_iff, inb_false. reflexivity.
Qed.
Lemma erasure_survivors_sub (p : list gene') es0 es :
  NoDup (map gid p) -> sublist es es0 -> NoDup es0 -> incl es0 (map gid p) ->
  exists p', erase_all p es = Ok p' /\ sublist p' p /\
    length p' = (length p - length es)%nat /\
    (forall x, In x p' <-> In x p /\ ~ In (gid x) es).
Proof.
  intros N S N0 P. assert (ND : NoDup es) by (eapply sublist_NoDup; eassumption).
  assert (I : incl es (map gid p)).
  { intros i Hi. apply P. eapply sublist_in; eauto. }
  eexists. split; [apply erase_all_spec; assumption|]. split; [apply sublist_filter|].
  split; [apply filter_notin_keys; assumption|].
  intros x. rewrite filter_In, negb_true_iff, inb_false. reflexivity.
Qed.

(** ** Wheel loops *)
Lemma walk_sub es : forall r w es' rf, walk es r = (Some (w, es'), rf) ->
  sublist es' es /\ length es = S (length es').
Proof.
  induction es as [|e es IH]; cbn [walk]; intros r w es' rf H; [discriminate|].
  destruct (fle (fsub r (snd e)) d0).
  - inversion H; subst. split; [apply sub_skip, sublist_refl|reflexivity].
  - destruct (walk es (fsub r (snd e))) as [[[w1 t1]|] rf1] eqn:E; inversion H; subst.
    destruct (IH _ _ _ _ E) as (S1 & L1). split; [apply sub_keep, S1|cbn; lia].
Qed.
Lemma spin_sub es sum g es' sum' g' : spin R es sum g = Ok (es', sum', g') ->
  sublist es' es /\ (length es <= S (length es'))%nat.
Proof.
  unfold spin. destruct (randD_range R d0 sum g) as [r g1].
  destruct (walk es r) as [[[w t]|] rf] eqn:E.
  - intros H; inversion H; subst. apply walk_sub in E. destruct E as (S & L). split; [exact S|lia].
  - destruct (flt d0 rf).
    + destruct (rev es) as [|[i w] l] eqn:Er; [discriminate|]. intros H; inversion H; subst.
      split; [apply sublist_removelast|]. rewrite removelast_length. lia.
    + intros H; inversion H; subst. split; [apply sublist_refl|lia].
Qed.
Lemma spin_loop_sub fuel : forall target es sum g es' g',
  spin_loop R fuel target es sum g = Ok (es', g') ->
  sublist es' es /\ (0 <= target -> Z.of_nat (length es') = Z.min (Z.of_nat (length es)) target).
Proof.
  induction fuel as [|n IH]; intros target es sum g es' g'; cbn [spin_loop];
    destruct (Z.leb_spec (Z.of_nat (length es)) target) as [L|L]; intros H; try discriminate;
    try (inversion H; subst; split; [apply sublist_refl|lia]).
  apply bind_Ok in H. destruct H as ([[es1 sum1] g1] & H1 & H2).
  apply spin_sub in H1. destruct H1 as (S1 & L1). apply IH in H2. destruct H2 as (S2 & L2).
  split; [eapply sublist_trans; eassumption|]. intros T. specialize (L2 T).
  apply sublist_length in S1. lia.
Qed.
Lemma first_zero_sub es : forall size g es' g', first_zero R size es g = (es', g') ->
  sublist es' es /\ (length es <= S (length es'))%nat.
Proof.
  induction es as [|e es IH]; cbn [first_zero]; intros size g es' g' H.
  - inversion H; subst. split; [constructor|cbn; lia].
  - destruct (randIdx R size g) as [i g1]. destruct (i =? 0).
    + inversion H; subst. split; [apply sub_skip, sublist_refl|cbn; lia].
    + destruct (first_zero R size es g1) as [t g2] eqn:E. inversion H; subst.
      apply IH in E. destruct E as (S & L). split; [apply sub_keep, S|cbn; lia].
Qed.
Lemma roulette_loop_sub fuel : forall target es sum g es' g',
  roulette_loop R fuel target es sum g = Ok (es', g') ->
  sublist es' es /\ (0 <= target -> Z.of_nat (length es') = Z.min (Z.of_nat (length es)) target).
Proof.
  induction fuel as [|n IH]; intros target es sum g es' g'; cbn [roulette_loop];
    destruct (Z.leb_spec (Z.of_nat (length es)) target) as [L|L]; intros H; try discriminate;
    try (inversion H; subst; split; [apply sublist_refl|lia]).
  destruct (flt d0 sum).
  - apply bind_Ok in H. destruct H as ([[es1 sum1] g1] & H1 & H2).
    apply spin_sub in H1. destruct H1 as (S1 & L1). apply IH in H2. destruct H2 as (S2 & L2).
    split; [eapply sublist_trans; eassumption|]. intros T. specialize (L2 T).
    apply sublist_length in S1. lia.
  - destruct (first_zero R _ es g) as [es1 g1] eqn:E.
    apply first_zero_sub in E. destruct E as (S1 & L1). apply IH in H. destruct H as (S2 & L2).
    split; [eapply sublist_trans; eassumption|]. intros T. specialize (L2 T).
    apply sublist_length in S1. lia.
Qed.
Lemma elite_first_sub es : forall size g es' g', elite_first R size es g = (es', g') ->
  sublist es' es /\ (length es <= S (length es'))%nat.
Proof.
  induction es as [|e es IH]; cbn [elite_first]; intros size g es' g' H.
  - inversion H; subst. split; [constructor|cbn; lia].
  - destruct (rand01 R g) as [d g1]. destruct (fle _ d1).
    + inversion H; subst. split; [apply sub_skip, sublist_refl|cbn; lia].
    + destruct (elite_first R size es g1) as [t g2] eqn:E. inversion H; subst.
      apply IH in E. destruct E as (S & L). split; [apply sub_keep, S|cbn; lia].
Qed.
Lemma elite_equal_sub fuel : forall target es g es' g',
  elite_equal R fuel target es g = Ok (es', g') ->
  sublist es' es /\ (0 <= target -> Z.of_nat (length es') = Z.min (Z.of_nat (length es)) target).
Proof.
  induction fuel as [|n IH]; intros target es g es' g'; cbn [elite_equal];
    destruct (Z.leb_spec (Z.of_nat (length es)) target) as [L|L]; intros H; try discriminate;
    try (inversion H; subst; split; [apply sublist_refl|lia]).
  destruct (elite_first R _ es g) as [es1 g1] eqn:E.
  apply elite_first_sub in E. destruct E as (S1 & L1). apply IH in H. destruct H as (S2 & L2).
  split; [eapply sublist_trans; eassumption|]. intros T. specialize (L2 T).
  apply sublist_length in S1. lia.
Qed.
Lemma su_equal_sub N es : forall g es' g', su_equal R opt N es g = (es', g') -> sublist es' es.
Proof.
  induction es as [|e es IH]; cbn [su_equal]; intros g es' g' H.
  - inversion H; subst. constructor.
  - destruct (rand01 R g) as [d g1]. destruct (su_equal R opt N es g1) as [t g2] eqn:E.
    apply IH in E. destruct (fle _ _); inversion H; subst; [apply sub_skip|apply sub_keep]; exact E.
Qed.
Lemma su_pave_sub es : forall i c, sublist (su_pave i c es) es.
Proof.
  induction es as [|e es IH]; cbn [su_pave]; intros i c; [constructor|].
  destruct (fle i _); [apply sub_skip|apply sub_keep]; apply IH.
Qed.

(** ** Endings *)
Lemma updateFail2_spec c p g nb prev (c' : core') : updateFail2 R greater c p g nb prev = Ok c' ->
  exists b, nb = Some b /\ pop c' = p /\ next c' = next c /\ ext c' = gid b /\ gen_rng c' = g /\
    fails c' = if isB (gfit b) prev then 0 else wrap64 (fails c + 1).
Proof.
  unfold updateFail2. destruct nb as [b|]; intros H; [|discriminate]. inversion H; subst. exists b.
  cbn. auto 10.
Qed.

Lemma finish_spec (c : core') p g (c' : core') old size :
  NoDup (map gid (pop c)) ->
  is_best_gene c old -> sublist p (pop c) -> Z.of_nat (length p) = size ->
  updateFail2 R greater c p g (findCurrentBestGene greater p) (gfit old) = Ok c' ->
  survivors c c' size /\ best_reported c' /\ fail_counted c c'.
Proof.
  intros N Ho S L H. apply updateFail2_spec in H.
  destruct H as (b & Hb & Hp & Hn & He & _ & Hf). apply find_best_spec in Hb. destruct Hb as (Ib & Bb).
  assert (B : is_best_gene c' b) by (split; [rewrite Hp; exact Ib|congruence]).
  split; [split; [rewrite Hp; exact S|split; [rewrite Hp; exact L|exact Hn]]|].
  split; [exists b; split; [exact B|rewrite Hp; exact Bb]|].
  exists old, b. auto.
Qed.

Lemma bestFitness_inv (c : core') f : bestFitness R c = Ok f -> exists old, is_best_gene c old /\ f = gfit old.
Proof.
  unfold bestFitness. intros H. apply bind_Ok in H. destruct H as (x & H1 & H2).
  apply lookup_ok in H1. inversion H2; subst. exists x. split; [exact H1|reflexivity].
Qed.

Lemma early1 (c : core') c' size : NoDup (map gid (pop c)) -> Z.of_nat (length (pop c)) = size ->
  updateFail1 R greater c (pop c) (gen_rng c) (findCurrentBestGene greater (pop c)) = Ok c' ->
  survivors c c' size /\ best_reported c' /\ fail_counted c c'.
Proof.
  intros N L H. unfold updateFail1 in H. apply bind_Ok in H. destruct H as (old & H1 & H2).
  apply lookup_ok in H1. eapply finish_spec; eauto. apply sublist_refl.
Qed.
Lemma early2 (c : core') c' size prev : NoDup (map gid (pop c)) -> Z.of_nat (length (pop c)) = size ->
  bestFitness R c = Ok prev ->
  updateFail2 R greater c (pop c) (gen_rng c) (findCurrentBestGene greater (pop c)) prev = Ok c' ->
  survivors c c' size /\ best_reported c' /\ fail_counted c c'.
Proof.
  intros N L Hb H. apply bestFitness_inv in Hb. destruct Hb as (old & Ho & ->).
  eapply finish_spec; eauto. apply sublist_refl.
Qed.

Lemma finish2_spec (c : core') c' es0 es g prev :
  NoDup (map gid (pop c)) -> bestFitness R c = Ok prev ->
  sublist es es0 -> Permutation (map fst es0) (map gid (pop c)) ->
  finish2 R greater c es g prev = Ok c' ->
  survivors c c' (Z.of_nat (length (pop c)) - Z.of_nat (length es)) /\ best_reported c' /\ fail_counted c c'.
Proof.
  intros N Hb S P H. unfold finish2, applyErasement in H.
  destruct (erasure_survivors (pop c) (map fst es0) (map fst es) N) as (p' & E & Sp & Lp & _);
    [apply sublist_map, S|exact P|].
  rewrite E in H. cbn [bind] in H. apply bestFitness_inv in Hb. destruct Hb as (old & Ho & ->).
  eapply finish_spec; eauto.
  rewrite map_length in Lp. apply sublist_length in S.
  assert (length es0 = length (pop c)).
  { apply Permutation_length in P. rewrite !map_length in P. exact P. }
  lia.
Qed.

Lemma fst_weights (p : list gene') : map fst (weights_of greater p) = map gid p.
Proof. unfold weights_of. rewrite map_map. reflexivity. Qed.
Lemma fst_shift m ws : map fst (shift_by m ws) = map fst ws.
Proof. unfold shift_by. rewrite map_map. reflexivity. Qed.
Lemma len_shift m ws : length (shift_by m ws) = length ws.
Proof. unfold shift_by. apply map_length. Qed.

Lemma sizes_int (c : core') : sizes_ok c ->
  to_int (popSize R c) = popSize R c /\ to_int K' = K'.
Proof. intros (H1 & H2). unfold popSize. split; apply to_int_small; lia. Qed.

(** Everything but Tournament: survivors, best, fail counter. *)
Definition selects_to (c c' : core') (size : Z) : Prop :=
  survivors c c' size /\ best_reported c' /\ fail_counted c c'.

Definition min_size (c : core') : Z := Z.min K' (Z.of_nat (length (pop c))).

Lemma roulette_spec fuel (c c' : core') : wf c -> sizes_ok c ->
  sel_roulette R greater opt fuel c = Ok c' -> selects_to c c' (min_size c).
Proof.
  intros (N & _) Hs H. unfold sel_roulette in H. apply bind_Ok in H. destruct H as (prev & Hp & H).
  assert (E : Z.of_nat (length (pop c)) <= K' -> to_int (wrap64 (popSize R c - K')) = popSize R c - K').
  { destruct Hs. intros. unfold popSize, wrap64, two64, to_int.
    destruct (Z.eq_dec (Z.of_nat (length (pop c))) K') as [Eq|Ne].
    - rewrite Eq, Z.sub_diag. reflexivity.
    - replace ((Z.of_nat (length (pop c)) - K') mod 18446744073709551616)
        with (Z.of_nat (length (pop c)) - K' + 18446744073709551616).
      2:{ apply Z.mod_unique with (-1); lia. }
      replace (Z.of_nat (length (pop c)) - K' + 18446744073709551616 + 2147483648)
        with (Z.of_nat (length (pop c)) - K' + 2147483648 + 4294967296 * 4294967296) by lia.
      rewrite Z.mod_add by lia. rewrite Z.mod_small by lia. lia. }
  assert (E2 : K' < Z.of_nat (length (pop c)) -> to_int (wrap64 (popSize R c - K')) = popSize R c - K').
  { destruct Hs. intros. unfold popSize. rewrite wrap64_small, to_int_small; unfold two64; lia. }
  destruct (Z.leb_spec (to_int (wrap64 (popSize R c - K'))) 0) as [L|L].
  - assert (popSize R c <= K').
    { destruct (Z_le_gt_dec (popSize R c) K'); [assumption|].
      rewrite E2 in L by (unfold popSize in *; lia). lia. }
    unfold popSize in *. eapply early2; eauto. unfold min_size. lia.
  - assert (K' < popSize R c).
    { destruct (Z_lt_ge_dec K' (popSize R c)); [assumption|].
      rewrite E in L by (unfold popSize in *; lia). lia. }
    rewrite E2 in H by (unfold popSize in *; lia).
    apply bind_Ok in H. destruct H as ((es & g) & H1 & H2).
    apply roulette_loop_sub in H1. destruct H1 as (S & Ln).
    rewrite len_shift in Ln. unfold weights_of in Ln. rewrite map_length in Ln. unfold popSize in *.
    eapply finish2_spec in H2; [|exact N|exact Hp|exact S|rewrite fst_shift, fst_weights; reflexivity].
    unfold selects_to, min_size.
    replace (Z.min K' (Z.of_nat (length (pop c)))) with (Z.of_nat (length (pop c)) - Z.of_nat (length es)) by (destruct Hs; lia).
    exact H2.
Qed.

Lemma montecarlo_spec (c c' : core') : rng_ok R -> wf c -> sizes_ok c ->
  sel_montecarlo R greater opt c = Ok c' -> selects_to c c' (min_size c).
Proof.
  intros HR (N & _) Hs H. unfold sel_montecarlo in H. apply bind_Ok in H. destruct H as (prev & Hp & H).
  destruct (sizes_int c Hs) as (E1 & E2). rewrite E1, E2 in H. unfold popSize in *.
  destruct (Z.leb_spec (Z.of_nat (length (pop c))) K') as [L|L].
  - eapply early2; eauto. unfold min_size. lia.
  - destruct (shuffle R (map gid (pop c)) (gen_rng c)) as [its g1] eqn:Es.
    assert (P : Permutation its (map gid (pop c))).
    { apply Permutation_sym. replace its with (fst (shuffle R (map gid (pop c)) (gen_rng c))) by (rewrite Es; reflexivity).
      apply HR. }
    set (n := Z.to_nat _) in H.
    destruct (erasure_survivors (pop c) its (firstn n its) N (sublist_firstn n its) P) as (p' & E & Sp & Lp & _).
    rewrite E in H. cbn [bind] in H. apply bestFitness_inv in Hp. destruct Hp as (old & Ho & ->).
    eapply finish_spec; eauto. rewrite Lp, firstn_length.
    apply Permutation_length in P. rewrite map_length in P. unfold min_size. destruct Hs. lia.
Qed.

(** The wheel-based methods share one ending. *)
Lemma wheel_spec fuel (c c' : core') es0 sum g prev target :
  wf c -> bestFitness R c = Ok prev -> Permutation (map fst es0) (map gid (pop c)) ->
  0 <= target <= Z.of_nat (length (pop c)) ->
  (do (es', g') <- spin_loop R fuel target es0 sum g; finish2 R greater c es' g' prev) = Ok c' ->
  selects_to c c' (Z.of_nat (length (pop c)) - target).
Proof.
  intros (N & _) Hp P T H. apply bind_Ok in H. destruct H as ((es & g') & H1 & H2).
  apply spin_loop_sub in H1. destruct H1 as (S & Ln).
  eapply finish2_spec in H2; [|exact N|exact Hp|exact S|exact P].
  assert (length es0 = length (pop c)).
  { apply Permutation_length in P. rewrite !map_length in P. exact P. }
  unfold selects_to. replace (Z.of_nat (length (pop c)) - target) with (Z.of_nat (length (pop c)) - Z.of_nat (length es)) by lia.
  exact H2.
Qed.

Lemma fst_prob (p : list gene') : map fst (prob_weights greater opt sp p) = map gid p.
Proof.
  unfold prob_weights. rewrite map_map. cbn [fst].
  destruct (fle _ d0); rewrite map_map; cbn [fst]; change (map (fun x => fst x)) with (map (@fst nat double));
    rewrite fst_shift, fst_weights; reflexivity.
Qed.
Lemma probability_spec fuel (c c' : core') : wf c -> sizes_ok c ->
  sel_probability R greater opt sp fuel c = Ok c' -> selects_to c c' (min_size c).
Proof.
  intros Hw Hs H. unfold sel_probability in H. apply bind_Ok in H. destruct H as (prev & Hp & H).
  destruct (sizes_int c Hs) as (E1 & E2). rewrite E1, E2 in H. unfold popSize in *.
  destruct (Z.leb_spec (Z.of_nat (length (pop c)) - K') 0) as [L|L].
  - eapply early2; eauto; [apply Hw|]. unfold min_size. lia.
  - eapply wheel_spec in H; [|exact Hw|exact Hp|rewrite fst_prob; reflexivity|destruct Hs; lia].
    unfold min_size. replace (Z.min _ _) with (Z.of_nat (length (pop c)) - (Z.of_nat (length (pop c)) - K')) by lia. exact H.
Qed.
Lemma boltzmann_spec fuel (c c' : core') : wf c -> sizes_ok c ->
  sel_boltzmann R greater opt sp fuel c = Ok c' -> selects_to c c' (min_size c).
Proof.
  intros Hw Hs H. unfold sel_boltzmann in H. apply bind_Ok in H. destruct H as (prev & Hp & H).
  destruct (sizes_int c Hs) as (E1 & E2). cbv zeta in H. rewrite E1, E2 in H. unfold popSize in *.
  destruct (Z.leb_spec (Z.of_nat (length (pop c)) - K') 0) as [L|L].
  - apply early1; [apply Hw| |exact H]. unfold min_size. lia.
  - eapply wheel_spec in H; [|exact Hw|exact Hp|unfold boltz_weights; rewrite map_map; reflexivity|destruct Hs; lia].
    unfold min_size. replace (Z.min _ _) with (Z.of_nat (length (pop c)) - (Z.of_nat (length (pop c)) - K')) by lia. exact H.
Qed.

Lemma sort_pop_inv (p q : list gene') : std_ok std -> sort_pop std greater p = Ok q ->
  Permutation p q /\ sorted_by (geneBetter greater) q /\ (forall x, In x p -> nonnan (gfit x)).
Proof.
  intros (Hs & _) H. unfold sort_pop in H. destruct (existsb (fun x : gene V (binary_float 53 1024) => is_nan (gfit x)) p) eqn:E; [discriminate|].
  assert (NN : forall x, In x p -> nonnan (gfit x)).
  { intros x Hx. unfold nonnan. destruct (is_nan (gfit x)) eqn:Ex; [|reflexivity].
    assert (C : existsb (fun x : gene V (binary_float 53 1024) => is_nan (gfit x)) p = true) by (apply existsb_exists; exists x; split; assumption).
    rewrite E in C. discriminate. }
  inversion H; subst. destruct (Hs _ (geneBetter greater) p) as (P & S).
  - split; [|split].
    + intros a _. apply isB_irrefl.
    + intros a b c _ _ _. apply isB_trans.
    + intros a b c Ha Hb Hc. apply isB_weak; apply NN; assumption.
  - auto.
Qed.

Lemma fst_combine_seq (f : nat -> gene' -> double) (l : list gene') : forall n,
  map fst (map (fun '(idx, x) => (gid x, f idx x)) (combine (seq n (length l)) l)) = map gid l.
Proof. induction l as [|x l IH]; intros n; cbn; [reflexivity|]. f_equal. apply IH. Qed.

Lemma linear_spec fuel (c c' : core') : std_ok std -> wf c -> sizes_ok c ->
  sel_linear R std greater opt sp fuel c = Ok c' -> selects_to c c' (min_size c).
Proof.
  intros Hstd Hw Hs H. unfold sel_linear in H. apply bind_Ok in H. destruct H as (prev & Hp & H).
  destruct (sizes_int c Hs) as (E1 & E2). rewrite E1, E2 in H. unfold popSize in *.
  destruct (Z.leb_spec (Z.of_nat (length (pop c))) K') as [L|L].
  - apply early1; [apply Hw| |exact H]. unfold min_size. lia.
  - apply bind_Ok in H. destruct H as (sorted & Hso & H). apply sort_pop_inv in Hso; [|exact Hstd].
    destruct Hso as (P & _ & _).
    eapply wheel_spec in H; [|exact Hw|exact Hp| |destruct Hs; lia].
    + unfold min_size. replace (Z.min _ _) with (Z.of_nat (length (pop c)) - (Z.of_nat (length (pop c)) - K')) by lia. exact H.
    + unfold linear_weights. rewrite fst_combine_seq. apply Permutation_map, Permutation_sym, P.
Qed.
Lemma exponential_spec fuel (c c' : core') : std_ok std -> wf c -> sizes_ok c ->
  sel_exponential R std greater opt sp fuel c = Ok c' -> selects_to c c' (min_size c).
Proof.
  intros Hstd Hw Hs H. unfold sel_exponential in H. apply bind_Ok in H. destruct H as (prev & Hp & H).
  destruct (sizes_int c Hs) as (E1 & E2). rewrite E1, E2 in H. unfold popSize in *.
  destruct (Z.leb_spec (Z.of_nat (length (pop c))) K') as [L|L].
  - apply early1; [apply Hw| |exact H]. unfold min_size. lia.
  - apply bind_Ok in H. destruct H as (sorted & Hso & H). apply sort_pop_inv in Hso; [|exact Hstd].
    destruct Hso as (P & _ & _).
    eapply wheel_spec in H; [|exact Hw|exact Hp| |destruct Hs; lia].
    + unfold min_size. replace (Z.min _ _) with (Z.of_nat (length (pop c)) - (Z.of_nat (length (pop c)) - K')) by lia. exact H.
    + unfold exp_weights. rewrite (fst_combine_seq (fun idx _ => _)). apply Permutation_map, Permutation_sym, P.
Qed.

(** StochasticUniversal: never fewer than populationSize survivors (when it
    has to eliminate); the equal-fitness branch may keep everybody. *)
Lemma stochastic_spec (c c' : core') : wf c -> sizes_ok c ->
  sel_stochastic R greater opt c = Ok c' ->
  exists n, selects_to c c' n /\ min_size c <= n <= Z.of_nat (length (pop c)) \/
            (selects_to c c' n /\ n <= Z.of_nat (length (pop c)) /\
             fle (sum_of (shift_by (min_of (weights_of greater (pop c))) (weights_of greater (pop c)))) d0 = true).
Proof.
  intros Hw Hs H. unfold sel_stochastic in H. apply bind_Ok in H. destruct H as (prev & Hp & H).
  destruct (sizes_int c Hs) as (E1 & E2). cbv zeta in H. rewrite E1, E2 in H. unfold popSize in *.
  destruct (Z.leb_spec (Z.of_nat (length (pop c)) - K') 0) as [L|L].
  - exists (min_size c). left. split; [|unfold min_size; lia].
    apply early1; [apply Hw| |exact H]. unfold min_size. lia.
  - destruct (fle _ d0) eqn:Ef.
    + destruct (su_equal _ _ _ _ _) as [es' g'] eqn:Es. apply su_equal_sub in Es.
      eapply finish2_spec in H; [|apply Hw|exact Hp|exact Es|rewrite fst_shift, fst_weights; reflexivity].
      eexists. right. split; [exact H|]. split; [lia|reflexivity].
    + destruct (randD_range _ _ _ _) as [beg g'].
      eapply finish2_spec in H; [|apply Hw|exact Hp| |rewrite fst_shift, fst_weights; reflexivity].
      2:{ eapply sublist_trans; [apply sublist_firstn|apply su_pave_sub]. }
      eexists. left. split; [exact H|]. rewrite firstn_length. unfold min_size. lia.
Qed.

(** ** Truncation *)
Lemma trunc_erase_spec (q : list gene') : forall p p',
  0 <= K' -> NoDup (map gid p) -> NoDup (map gid q) -> (forall x, In x q -> In x p) ->
  trunc_erase opt p q = Ok p' ->
  exists k, p' = filter (fun x => negb (inb (map gid (firstn k q)) (gid x))) p /\
    Z.of_nat (length p') = Z.min K' (Z.of_nat (length p)) /\ (k <= length q)%nat /\
    length p = (length p' + k)%nat.
Proof.
  induction q as [|w q IH]; intros p p' HK N Nq Hin H; cbn [trunc_erase] in H.
  - destruct (Z.ltb_spec K' (Z.of_nat (length p))) as [L|L]; [discriminate|]. inversion H; subst.
    exists 0%nat. cbn. split; [|lia]. symmetry. clear. induction p' as [|x p IHp]; cbn; [reflexivity|]. f_equal. exact IHp.
  - destruct (Z.ltb_spec K' (Z.of_nat (length p))) as [L|L].
    2:{ inversion H; subst. exists 0%nat. cbn. split; [|lia]. symmetry. clear. induction p' as [|x p IHp]; cbn; [reflexivity|]. f_equal. exact IHp. }
    apply bind_Ok in H. destruct H as (p1 & H1 & H2).
    inversion Nq as [|? ? Nw Nq']; subst.
    rewrite erase1_spec in H1; [|exact N|apply in_map, Hin; left; reflexivity].
    inversion H1; subst p1; clear H1.
    set (p1 := filter _ p) in *.
    assert (L1 : length p1 = (length p - 1)%nat).
    { unfold p1. rewrite (filter_ext _ (fun x : gene' => negb (inb [gid w] (gid x))))
        by (intros x; cbn; rewrite orb_false_r; reflexivity).
      rewrite filter_notin_keys; [reflexivity|exact N|constructor; [intros []|constructor]|].
      intros i [<-|[]]. apply in_map, Hin. left; reflexivity. }
    assert (0 < length p)%nat by lia.
    apply IH in H2; [|exact HK| |exact Nq'|].
    + destruct H2 as (k & E & Ls & Lk & Lp). exists (S k). split; [|cbn [length]; lia].
      rewrite E. unfold p1. rewrite filter_filter. apply filter_ext. intros x. cbn [firstn map inb existsb].
      rewrite negb_orb. reflexivity.
    + eapply sublist_NoDup; [apply sublist_map, sublist_filter|exact N].
    + intros x Hx. apply filter_In. split; [apply Hin; right; exact Hx|].
      apply negb_true_iff, Nat.eqb_neq. intros C. apply Nw. rewrite <- C. apply in_map, Hx.
Qed.
End P.
