(** Single-objective selection: the outcome of EliteReserved, and whole runs
    of every method. *)
From Coq Require Import List Arith ZArith Reals Bool Lia Lra Permutation Sorted.
From Flocq Require Import Core BinarySingleNaN.
From Verif Require Import Base Fl FlFacts Rng RandProofs StdOps ListFacts GABase GABaseProofs GAOpsProofs SOGA SOGAProofs SOGAProofs2 SOGAProofs3 SOGAProofs4 SOGAProofs5 SOGAProofs6 SOGAProofs7 SOGAProofs8 SOGAProofs9.
Import ListNotations.
Open Scope Z_scope.

Section P.
Context {V : Type} (R : rng_ops) (std : std_ops) (greater : bool) (opt : ga_option) (sp : sel_params).
Notation core' := (core V double nat (G R)).
Notation gene' := (gene V double).
Notation isB := (isBetter greater).
Notation K' := (K opt).

(** ** EliteReserved *)
(** [kept] are the individuals left: a group of eliteNum individuals, none of
    which is worse than a removed one, is never touched. *)
Definition elite_kept (c : core') (kept : list gene') : Prop :=
  sublist kept (pop c) /\ Z.of_nat (length kept) = elite_size R opt sp c /\
  exists elites, NoDup (map gid elites) /\ incl elites kept /\
    Z.of_nat (length elites) = Z.min (eliteNum sp) (Z.of_nat (length (pop c))) /\
    forall x y, In x (pop c) -> ~ In x elites -> In y elites -> isB (gfit x) (gfit y) = false.

Lemma sorted_split (a b : list gene') : sorted_by (geneBetter greater) (a ++ b) ->
  forall x y, In x b -> In y a -> isB (gfit x) (gfit y) = false.
Proof.
  unfold sorted_by. intros Srt x y Hx Hy.
  apply in_split in Hy. destruct Hy as (a1 & a2 & ->).
  rewrite <- app_assoc in Srt. cbn [app] in Srt.
  assert (Q : forall l, StronglySorted (fun u v : gene' => geneBetter greater v u = false) (l ++ y :: (a2 ++ b)) -> isB (gfit x) (gfit y) = false).
  { induction l as [|z l IH]; cbn [app]; intros S.
    - inversion S as [|? ? _ F]; subst. rewrite Forall_forall in F. apply (F x). apply in_or_app. right. exact Hx.
    - inversion S; subst. apply IH. assumption. }
  eapply Q, Srt.
Qed.

Lemma elite_outcome fuel (c : core') : std_ok std -> wf c -> best_valid R c -> sizes_ok R opt c -> 0 <= eliteNum sp ->
  (forall x, In x (pop c) -> nonnan (gfit x)) -> 1 <= K' ->
  sel_elite R std greater opt sp fuel c = Fuel \/
  exists kept, elite_kept c kept /\
    (if inb (map gid kept) (ext c)
     then exists c', sel_elite R std greater opt sp fuel c = Ok c' /\ pop c' = kept
     else sel_elite R std greater opt sp fuel c = UB).
Proof.
  intros Hstd Hw Hb Hs He NN HK. pose proof Hw as (N & _). unfold sel_elite.
  destruct (sizes_int R opt c Hs) as (E1 & E2). cbv zeta. rewrite E1, E2. unfold popSize.
  assert (Hso := sort_pop_ok std greater (pop c) NN). set (sorted := sort std (geneBetter greater) (pop c)) in *.
  pose proof (sort_pop_inv std greater (pop c) sorted Hstd Hso) as (P & Srt & _).
  assert (Nso : NoDup (map gid sorted)) by (eapply Permutation_NoDup; [apply Permutation_map, P|exact N]).
  set (e := Z.to_nat (eliteNum sp)) in *.
  assert (Ee0 : Z.of_nat e = eliteNum sp) by (unfold e; apply Z2Nat.id; exact He).
  assert (Hel : forall kept, sublist kept (pop c) -> Z.of_nat (length kept) = elite_size R opt sp c ->
    incl (firstn e sorted) kept -> elite_kept c kept).
  { intros kept S1 S2 S3. split; [exact S1|]. split; [exact S2|]. exists (firstn e sorted).
    split; [eapply sublist_NoDup; [apply sublist_map, sublist_firstn|exact Nso]|]. split; [exact S3|].
    split; [rewrite firstn_length, (Permutation_length P); lia|].
    intros x y Hx Hnx Hy. eapply sorted_split; [rewrite (firstn_skipn e sorted); exact Srt| |exact Hy].
    apply (Permutation_in _ P) in Hx. rewrite <- (firstn_skipn e sorted) in Hx. apply in_app_or in Hx. destruct Hx; [contradiction|assumption]. }
  unfold elite_size in *.
  destruct (Z.leb_spec (Z.of_nat (length (pop c)) - K') 0) as [L|L].
  - right. exists (pop c). destruct (Z.leb_spec (Z.of_nat (length (pop c))) K') as [L2|L2]; [|lia].
    split.
    { apply Hel; [apply sublist_refl|reflexivity|]. intros x Hx. eapply Permutation_in; [apply Permutation_sym, P|].
      eapply sublist_in; [apply sublist_firstn|exact Hx]. }
    assert (E : inb (map gid (pop c)) (ext c) = true) by (apply inb_true; exact Hb). rewrite E.
    destruct (updateFail1_ok R greater c Hw Hb) as (c' & Ec). exists c'. split; [exact Ec|].
    unfold updateFail1 in Ec. apply bind_Ok in Ec. destruct Ec as (o & _ & Ec). apply updateFail2_spec in Ec.
    destruct Ec as (? & _ & Hp & _). exact Hp.
  - destruct (Z.leb_spec (Z.of_nat (length (pop c))) K') as [L2|L2]; [lia|].
    rewrite Hso. cbn [bind]. destruct (Z.ltb_spec (eliteNum sp) 0) as [Ln|Ln]; [lia|].
    set (ws := weights_of greater (skipn e sorted)) in *.
    set (es := shift_by (min_of ws) ws) in *.
    destruct (if fle (sum_of es) d0 then _ else _) as [[es' g']| | |] eqn:H1.
    2-3: exfalso; destruct (fle (sum_of es) d0);
         [destruct (elite_equal_defined R fuel (Z.of_nat (length (pop c)) - K') es (gen_rng c)); congruence
         |destruct (spin_loop_defined R fuel (Z.of_nat (length (pop c)) - K') es (sum_of es) (gen_rng c)); [lia|congruence]].
    2: left; reflexivity.
    right. cbn [bind].
    assert (Hsub : sublist es' es /\ (0 <= Z.of_nat (length (pop c)) - K' ->
       Z.of_nat (length es') = Z.min (Z.of_nat (length es)) (Z.of_nat (length (pop c)) - K'))).
    { destruct (fle (sum_of es) d0); [eapply elite_equal_sub|eapply spin_loop_sub]; exact H1. }
    destruct Hsub as (Ssub & Lsub). specialize (Lsub ltac:(lia)).
    assert (Les : length es = (length (pop c) - e)%nat).
    { unfold es, ws. rewrite len_shift. unfold weights_of. rewrite map_length, skipn_length.
      rewrite (Permutation_length P). reflexivity. }
    assert (Fes : map fst es = map gid (skipn e sorted)).
    { unfold es, ws. rewrite fst_shift, fst_weights. reflexivity. }
    unfold finish1, applyErasement.
    destruct (erasure_survivors_sub (pop c) (map fst es) (map fst es') N) as (p' & Ee & Sp & Lp & Inp).
    { apply sublist_map, Ssub. }
    { rewrite Fes. eapply sublist_NoDup; [apply sublist_map, sublist_skipn|exact Nso]. }
    { rewrite Fes. intros i Hi. apply in_map_iff in Hi. destruct Hi as (x & <- & Hx). apply in_map.
      eapply Permutation_in; [apply Permutation_sym, P|]. eapply sublist_in; [apply sublist_skipn|exact Hx]. }
    rewrite map_length in Lp.
    assert (Hsz : Z.of_nat (length p') = Z.max K' (Z.min (eliteNum sp) (Z.of_nat (length (pop c))))).
    { destruct Hs as (HsK & HsN). pose proof (sublist_length _ _ Ssub).
      clear -Lsub Lp Les Ee0 HsK L H1 H. clearbody e es. lia. }
    exists p'. split.
    { apply Hel; [exact Sp|exact Hsz|]. intros x Hx. apply Inp.
      split; [eapply Permutation_in; [apply Permutation_sym, P|]; eapply sublist_in; [apply sublist_firstn|exact Hx]|].
      intros C. assert (C2 : In (gid x) (map fst es)) by (eapply sublist_in; [apply sublist_map, Ssub|exact C]).
      rewrite Fes in C2. rewrite <- (firstn_skipn e sorted), map_app in Nso.
      apply (in_map gid) in Hx. clear -Nso C2 Hx. revert Nso Hx. generalize (map gid (firstn e sorted)).
      induction l as [|i l IH]; cbn; intros Nd Hi; [exact Hi|]. inversion Nd as [|? ? Q1 Q2]; subst.
      destruct Hi as [->|Hi]; [|apply IH; assumption]. apply Q1. apply in_or_app. right. exact C2. }
    rewrite Ee. cbn [bind]. unfold updateFail1. destruct (inb (map gid p') (ext c)) eqn:Ei.
    + apply inb_true in Ei. apply in_map_iff in Ei. destruct Ei as (o & Eo & Ho).
      rewrite <- Eo, lookup_in; [|eapply sublist_NoDup; [apply sublist_map, Sp|exact N]|exact Ho].
      cbn [bind]. destruct (updateFail2_ok R greater c p' g' (gfit o)) as (c' & Ec).
      { intros C. rewrite C in Ho. contradiction. }
      exists c'. split; [exact Ec|]. apply updateFail2_spec in Ec. destruct Ec as (? & _ & Hp & _). exact Hp.
    + apply inb_false in Ei. apply lookup_UB in Ei. rewrite Ei. reflexivity.
Qed.

(** Generator state after [k] double draws. *)
Fixpoint after_d (k : nat) (g : G R) : G R :=
  match k with O => g | S n => after_d n (snd (rand01 R g)) end.
(** Among the next [B] double draws, whatever the state, one is at most 1/size. *)
Definition fair_d (B : nat) : Prop :=
  forall g size, 2 <= size < 2147483648 ->
  exists k, (k < B)%nat /\ fle (fmul (fst (rand01 R (after_d k g))) (d_of_Z size)) d1 = true.

Lemma after_d_add a : forall b g, after_d (a + b) g = after_d b (after_d a g).
Proof. induction a as [|a IH]; intros b g; cbn; [reflexivity|apply IH]. Qed.

Lemma elite_first_cases size es : forall g es' g', elite_first R size es g = (es', g') ->
  (length es = S (length es') /\ sublist es' es) \/
  (es' = es /\ g' = after_d (length es) g /\
   forall k, (k < length es)%nat -> fle (fmul (fst (rand01 R (after_d k g))) (d_of_Z size)) d1 = false).
Proof.
  induction es as [|e es IH]; cbn [elite_first]; intros g es' g' H.
  - inversion H; subst. right. repeat split. cbn. lia.
  - destruct (rand01 R g) as [d g1] eqn:E.
    destruct (fle (fmul d (d_of_Z size)) d1) eqn:Z0.
    + inversion H; subst. left. split; [reflexivity|apply sub_skip, sublist_refl].
    + destruct (elite_first R size es g1) as [t g2] eqn:E3. inversion H; subst es' g'. apply IH in E3.
      destruct E3 as [(L & S)|(-> & -> & A)].
      * left. split; [cbn; lia|apply sub_keep, S].
      * right. split; [reflexivity|]. split; [cbn [length after_d]; rewrite E; reflexivity|].
        intros [|k] Hk; cbn [after_d]; rewrite E; [exact Z0|]. apply A. cbn in Hk. lia.
Qed.

Lemma elite_equal_ok B (target : Z) : fair_d B -> 1 <= target ->
  forall n es g fuel, (length es = n)%nat -> Z.of_nat n < 2147483648 ->
  ((n - Z.to_nat target) * B <= fuel)%nat -> exists r, elite_equal R fuel target es g = Ok r.
Proof.
  intros HF HT. induction n as [n IHn] using (well_founded_induction lt_wf).
  intros es g fuel Ln Hn Hfuel.
  destruct (Z.leb_spec (Z.of_nat (length es)) target) as [L|L].
  { exists (es, g). destruct fuel; cbn [elite_equal]; destruct (Z.leb_spec (Z.of_nat (length es)) target); try lia; reflexivity. }
  assert (Hnt : (n - Z.to_nat target = S (n - 1 - Z.to_nat target))%nat) by lia.
  rewrite Hnt in Hfuel. cbn [Nat.mul] in Hfuel. remember ((n - 1 - Z.to_nat target) * B)%nat as q eqn:Eq.
  destruct (HF g (Z.of_nat n) ltac:(lia)) as (k & Hk & Hz).
  assert (Hf2 : (q + k + 1 <= fuel)%nat) by lia.
  clear Hfuel Hk. revert g fuel Hz Hf2. induction k as [k IHk] using (well_founded_induction lt_wf). intros g fuel Hz Hf2.
  destruct fuel as [|fuel]; [lia|]. cbn [elite_equal]. destruct (Z.leb_spec (Z.of_nat (length es)) target); [lia|].
  rewrite Ln. destruct (elite_first R (Z.of_nat n) es g) as [es' g'] eqn:E.
  apply elite_first_cases in E. destruct E as [(Len & S)|(-> & -> & A)].
  + apply (IHn (n - 1)%nat); try assumption; try lia.
  + assert (Hkn : (n <= k)%nat). { destruct (le_lt_dec n k) as [D|D]; [exact D|exfalso]. rewrite (A k) in Hz; [discriminate|lia]. }
    rewrite Ln. apply (IHk (k - n)%nat); [lia| |lia].
    rewrite <- after_d_add. replace (n + (k - n))%nat with k by lia. exact Hz.
Qed.

Lemma elite_not_fuel B fuel (c : core') : rng_ok R -> fair_d B -> std_ok std -> wf c -> 1 <= K' -> sizes_ok R opt c ->
  mild R c -> (length (pop c) * B <= fuel)%nat -> sel_elite R std greater opt sp fuel c <> Fuel.
Proof.
  intros HR HF Hstd Hw HK Hs HM Hfu. unfold sel_elite.
  destruct (sizes_int R opt c Hs) as (E1 & E2). cbv zeta. rewrite E1, E2. unfold popSize.
  assert (U : forall p g nb, updateFail1 R greater c p g nb <> Fuel).
  { intros p g nb. unfold updateFail1, lookup. destruct (find _ p); cbn [bind]; [|discriminate].
    unfold updateFail2. destruct nb; discriminate. }
  assert (EA : forall ids (p : list gene'), erase_all p ids <> Fuel).
  { assert (E1' : forall i (p : list gene'), erase1 p i <> Fuel).
    { intros i p. induction p as [|x p IH]; cbn [erase1]; [discriminate|]. destruct (Nat.eqb _ _); [discriminate|].
      destruct (erase1 p i); cbn [bind]; congruence. }
    induction ids as [|i ids IH]; intros p; cbn [erase_all]; [discriminate|].
    specialize (E1' i p). destruct (erase1 p i); cbn [bind]; try congruence; apply IH. }
  destruct (Z.leb_spec (Z.of_nat (length (pop c)) - K') 0) as [L|L]; [apply U|].
  destruct (sort_pop std greater (pop c)) as [sorted| | |] eqn:Hso; cbn [bind]; try discriminate.
  2:{ unfold sort_pop in Hso. destruct (existsb _ _); discriminate. }
  destruct (sort_pop_inv std greater (pop c) sorted Hstd Hso) as (P & _).
  destruct (eliteNum sp <? 0); [discriminate|].
  set (e := Z.to_nat (eliteNum sp)).
  set (ws := weights_of greater (skipn e sorted)).
  set (es := shift_by (min_of ws) ws).
  assert (Le : (length es <= length (pop c))%nat).
  { unfold es, ws. rewrite len_shift. unfold weights_of. rewrite map_length, skipn_length, (Permutation_length P). lia. }
  assert (W : skipn e sorted = [] \/ forall x, In x es -> fin (snd x) /\ (0 <= B2R (snd x) <= B900)%R).
  { destruct (skipn e sorted) as [|h t] eqn:Sk; [left; reflexivity|right]. unfold es, ws.
    apply shifted_weights; [discriminate|]. intros x Hx. apply HM. eapply Permutation_in; [apply Permutation_sym, P|].
    eapply sublist_in; [apply (sublist_skipn e)|]. rewrite Sk. exact Hx. }
  assert (HB : (1 <= B)%nat). { destruct (HF (gen_rng c) 2) as (k & Hk & _); lia. }
  destruct Hs as (Hs1 & Hs2).
  assert (Q : exists r, (if fle (sum_of es) d0 then elite_equal R fuel (Z.of_nat (length (pop c)) - K') es (gen_rng c)
     else spin_loop R fuel (Z.of_nat (length (pop c)) - K') es (sum_of es) (gen_rng c)) = Ok r).
  { destruct W as [W|W].
    - assert (es = []) as -> by (unfold es, ws; rewrite W; reflexivity). cbn [sum_of fold_left]. 
      exists ([], gen_rng c). destruct (fle _ _); destruct fuel; cbn [elite_equal spin_loop length]; destruct (Z.leb_spec (Z.of_nat 0) (Z.of_nat (length (pop c)) - K')); try lia; reflexivity.
    - destruct (fle (sum_of es) d0).
      + apply (elite_equal_ok B) with (n := length es); try lia; [exact HF|nia].
      + pose proof (nonneg_tame es W) as T. destruct (sum_tame es T) as (F & Bs); [lia|].
        apply (spin_loop_ok R fuel (Z.of_nat (length (pop c)) - K') es (sum_of es) (gen_rng c) (Z.of_nat (length es))); try assumption; try lia; try nia. }
  destruct Q as ([es' g'] & ->). cbn [bind]. unfold finish1, applyErasement.
  specialize (EA (map fst es') (pop c)). destruct (erase_all _ _); cbn [bind]; try congruence; apply U.
Qed.

(** Fewer than eliteNum others at least as good: the old best is an elite. *)
Lemma elite_keeps_old (c : core') old kept : elite_kept c kept -> NoDup (map gid (pop c)) -> In old (pop c) ->
  Z.of_nat (length (filter (fun x => negb (Nat.eqb (gid x) (gid old)) && negb (isB (gfit old) (gfit x))) (pop c))) < eliteNum sp ->
  In old kept.
Proof.
  intros (S & _ & el & Nd & Inc & Len & Cut) N Ho Cnt.
  destruct (inb (map gid el) (gid old)) eqn:E.
  - apply inb_true in E. apply in_map_iff in E. destruct E as (o & Eo & Hoo). apply Inc.
    replace old with o; [exact Hoo|]. eapply (NoDup_map_inj gid (pop c)); eauto. eapply sublist_in; [exact S|apply Inc, Hoo].
  - exfalso. apply inb_false in E.
    assert (Hno : ~ In old el) by (intros C; apply E, in_map, C).
    assert (L : (length el <= length (filter (fun x => negb (Nat.eqb (gid x) (gid old)) && negb (isB (gfit old) (gfit x))) (pop c)))%nat).
    { apply (nodup_incl_len gid); [exact Nd|]. intros y Hy. apply filter_In. split; [eapply sublist_in; [exact S|apply Inc, Hy]|].
      rewrite (Cut old y Ho Hno Hy). rewrite andb_true_r. apply negb_true_iff, Nat.eqb_neq.
      intros C. apply E. rewrite <- C. apply in_map, Hy. }
    (* all of pop is elite when eliteNum >= N *)
    destruct (Z_le_gt_dec (Z.of_nat (length (pop c))) (eliteNum sp)) as [Q|Q]; [|lia].
    assert (Hlen : length el = length (pop c)) by lia.
    assert (Hin : incl (map gid (pop c)) (map gid el)).
    { apply NoDup_length_incl; [exact Nd|rewrite !map_length; lia|].
      intros i Hi. apply in_map_iff in Hi. destruct Hi as (x & <- & Hx). apply in_map. eapply sublist_in; [exact S|apply Inc, Hx]. }
    apply E, Hin, in_map, Ho.
Qed.
End P.

Section P2.
Context {V : Type} (R : rng_ops) (std : std_ops) (greater : bool) (opt : ga_option) (sp : sel_params).
Notation core' := (core V double nat (G R)).
Notation gene' := (gene V double).
Notation isB := (isBetter greater).
Notation K' := (K opt).

(** eliteNum >= populationSize: nothing is random. *)
Lemma elite_forced fuel (c : core') : std_ok std -> sizes_ok R opt c -> K' <= eliteNum sp ->
  sel_elite R std greater opt sp fuel c <> Fuel.
Proof.
  intros Hstd Hs He. unfold sel_elite.
  destruct (sizes_int R opt c Hs) as (E1 & E2). cbv zeta. rewrite E1, E2. unfold popSize.
  assert (U : forall p g nb, updateFail1 R greater c p g nb <> Fuel).
  { intros p g nb. unfold updateFail1, lookup. destruct (find _ p); cbn [bind]; [|discriminate].
    unfold updateFail2. destruct nb; discriminate. }
  assert (EA : forall ids (p : list gene'), erase_all p ids <> Fuel).
  { assert (E1' : forall i (p : list gene'), erase1 p i <> Fuel).
    { intros i p. induction p as [|x p IH]; cbn [erase1]; [discriminate|]. destruct (Nat.eqb _ _); [discriminate|].
      destruct (erase1 p i); cbn [bind]; congruence. }
    induction ids as [|i ids IH]; intros p; cbn [erase_all]; [discriminate|].
    specialize (E1' i p). destruct (erase1 p i); cbn [bind]; try congruence; apply IH. }
  destruct (Z.leb_spec (Z.of_nat (length (pop c)) - K') 0) as [L|L]; [apply U|].
  destruct (sort_pop std greater (pop c)) as [sorted| | |] eqn:Hso; cbn [bind]; try discriminate.
  2:{ unfold sort_pop in Hso. destruct (existsb _ _); discriminate. }
  destruct (sort_pop_inv std greater (pop c) sorted Hstd Hso) as (P & _).
  destruct (Z.ltb_spec (eliteNum sp) 0); [discriminate|].
  set (e := Z.to_nat (eliteNum sp)).
  set (ws := weights_of greater (skipn e sorted)).
  set (es := shift_by (min_of ws) ws).
  assert (Le : Z.of_nat (length es) <= Z.of_nat (length (pop c)) - K').
  { unfold es, ws. rewrite len_shift. unfold weights_of. rewrite map_length, skipn_length, <- (Permutation_length P). unfold e. lia. }
  assert (Q : (if fle (sum_of es) d0 then elite_equal R fuel (Z.of_nat (length (pop c)) - K') es (gen_rng c)
     else spin_loop R fuel (Z.of_nat (length (pop c)) - K') es (sum_of es) (gen_rng c)) = Ok (es, gen_rng c)).
  { apply Z.leb_le in Le. destruct (fle _ _); destruct fuel; cbn [elite_equal spin_loop]; rewrite Le; reflexivity. }
  rewrite Q. cbn [bind]. unfold finish1, applyErasement.
  specialize (EA (map fst es) (pop c)). destruct (erase_all _ _); cbn [bind]; try congruence; apply U.
Qed.

(** ... and eliteNum strictly better individuals get the old best removed. *)
Lemma elite_UB_if fuel (c : core') old : std_ok std -> wf c -> sizes_ok R opt c -> 1 <= K' -> K' <= eliteNum sp ->
  is_best_gene R c old -> (forall x, In x (pop c) -> nonnan (gfit x)) ->
  eliteNum sp <= Z.of_nat (length (filter (fun x => isB (gfit x) (gfit old)) (pop c))) ->
  sel_elite R std greater opt sp fuel c = UB.
Proof.
  intros Hstd Hw Hs HK HKe (Ho1 & Ho2) NN Cnt. pose proof Hw as (N & _).
  assert (Hb : best_valid R c) by (unfold best_valid; rewrite <- Ho2; apply in_map, Ho1).
  destruct (elite_outcome R std greater opt sp fuel c Hstd Hw Hb Hs ltac:(lia) NN HK) as [F|(kept & (Sk & Lk & el & Nd & Inc & Len & Cut) & Out)].
  { exfalso. exact (elite_forced fuel c Hstd Hs HKe F). }
  rewrite <- Ho2 in Out. destruct (inb (map gid kept) (gid old)) eqn:E; [exfalso|exact Out].
  apply inb_true in E. apply in_map_iff in E. destruct E as (o & Eo & Ho).
  assert (o = old) by (eapply (NoDup_map_inj gid (pop c)); eauto; eapply sublist_in; eauto). subst o.
  set (bt := filter (fun x => isB (gfit x) (gfit old)) (pop c)) in *.
  assert (Lb : (length bt < length (pop c))%nat).
  { assert (Q : (length (old :: bt) <= length (pop c))%nat).
    { apply (nodup_incl_len gid).
      - cbn [map]. constructor; [|eapply sublist_NoDup; [apply sublist_map, sublist_filter|exact N]].
        intros C. apply in_map_iff in C. destruct C as (z & Ez & Hz). apply filter_In in Hz. destruct Hz as (Hz & Bz).
        assert (z = old) by (eapply (NoDup_map_inj gid (pop c)); eauto). subst z. rewrite isB_irrefl in Bz. discriminate.
      - intros x [<-|Hx]; [exact Ho1|]. apply filter_In in Hx. apply Hx. }
    cbn [length] in Q. lia. }
  assert (Nk : NoDup (map gid kept)) by (eapply sublist_NoDup; [apply sublist_map, Sk|exact N]).
  (* kept has exactly eliteNum members, i.e. is the elite group *)
  assert (Lke : length kept = length el).
  { unfold elite_size in Lk. cbv zeta in Lk. clear -Lk Len HKe HK. destruct (Z.leb_spec (Z.of_nat (length (pop c))) K'); lia. }
  assert (Hoe : In old el).
  { assert (Hi : incl (map gid kept) (map gid el)).
    { apply NoDup_length_incl; [exact Nd|rewrite !map_length; lia|].
      intros i Hi. apply in_map_iff in Hi. destruct Hi as (x & <- & Hx). apply in_map, Inc, Hx. }
    assert (Q : In (gid old) (map gid el)) by (apply Hi, in_map, Ho). apply in_map_iff in Q. destruct Q as (z & Ez & Hz).
    replace old with z; [exact Hz|]. eapply (NoDup_map_inj gid (pop c)); eauto. eapply sublist_in; [exact Sk|apply Inc, Hz]. }
  assert (Hbt : forall x, In x bt -> In x el).
  { intros x Hx. apply filter_In in Hx. destruct Hx as (Hx & Bx).
    destruct (inb (map gid el) (gid x)) eqn:Ex.
    - apply inb_true in Ex. apply in_map_iff in Ex. destruct Ex as (z & Ez & Hz).
      replace x with z; [exact Hz|]. eapply (NoDup_map_inj gid (pop c)); eauto. eapply sublist_in; [exact Sk|apply Inc, Hz].
    - apply inb_false in Ex. exfalso. assert (Hnx : ~ In x el) by (intros C; apply Ex, in_map, C).
      rewrite (Cut x old Hx Hnx Hoe) in Bx. discriminate. }
  assert (L : (length (old :: bt) <= length el)%nat).
  { apply (nodup_incl_len gid).
    - cbn [map]. constructor; [|eapply sublist_NoDup; [apply sublist_map, sublist_filter|exact N]].
      intros C. apply in_map_iff in C. destruct C as (z & Ez & Hz). apply filter_In in Hz. destruct Hz as (Hz & Bz).
      assert (z = old) by (eapply (NoDup_map_inj gid (pop c)); eauto). subst z. rewrite isB_irrefl in Bz. discriminate.
    - intros x [<-|Hx]; [exact Hoe|apply Hbt, Hx]. }
  cbn [length] in L. lia.
Qed.
End P2.

(** ** Whole runs *)
Inductive badness := BadUB | BadAbort | BadFuel.
Definition bad_of {A} (r : res A) : option badness :=
  match r with Ok _ => None | UB => Some BadUB | Abort => Some BadAbort | Fuel => Some BadFuel end.

Section Runs.
Context {V : Type} (R : rng_ops) (std : std_ops) (greater : bool) (opt : ga_option) (sp : sel_params).
Context (fs : user_funs V double (G R)) (junk : double) (m : method) (fuel : nat).
Notation core' := (core V double nat (G R)).
Notation gene' := (gene V double).
Notation K' := (K opt).
Notation hk := (soga_hooks R std greater opt sp m fuel).
Notation brd := (breed R fs opt junk).
Notation comp := (computeAllFitness R fs).
(** A property [Q] of every fitness value, and a bound on the population when
    a generation begins. *)
Variables (Q : double -> Prop) (Bnd : Z -> Z).

Definition invG (g : Z) (c : core') : Prop :=
  wf c /\ best_valid R c /\ (forall x, In x (pop c) -> gcomp x = true -> Q (gfit x)) /\ Z.of_nat (length (pop c)) <= Bnd g.
(** What the selection sees. *)
Definition entersG (g : Z) (c : core') : Prop :=
  wf c /\ best_valid R c /\ (forall x, In x (pop c) -> Q (gfit x)) /\ Z.of_nat (length (pop c)) <= Bnd g.

Lemma comp_enters g (c : core') : (forall v, Q (fFun fs v)) -> invG g c -> entersG g (comp c).
Proof.
  intros Hf (Hw & Hb & Hq & Hl). split; [apply compute_wf, Hw|]. split; [apply comp_best, Hb|]. split.
  - cbn [pop computeAllFitness]. intros x Hx. apply in_map_iff in Hx. destruct Hx as (y & <- & Hy).
    unfold evaluated. destruct (gcomp y) eqn:E; [apply Hq; assumption|apply Hf].
  - cbn [pop computeAllFitness]. rewrite map_length. exact Hl.
Qed.

Lemma round_G g (c0 c : core') : rng_ok R -> std_ok std -> 0 <= K' < 2147483648 -> Bnd g < 2147483648 ->
  0 <= tournamentSize sp -> (forall v, Q (fFun fs v)) ->
  (forall d d', entersG g d -> select R std greater opt sp m fuel d = Ok d' -> 4 * Z.of_nat (length (pop d')) <= Bnd (g + 1)) ->
  invG g c0 -> evaluate_and_select R fs hk c0 = Ok c ->
  invG (g + 1) (brd c) /\ exists f, bestFitness R c = Ok f.
Proof.
  intros HR Hstd HK HB Ht Hf Hsz Hi H. pose proof (comp_enters g c0 Hf Hi) as He.
  pose proof Hi as (Hw & Hb & Hq & Hl).
  assert (Hs : sizes_ok R opt (comp c0)) by (apply comp_small; split; lia).
  unfold evaluate_and_select in H. cbn [hk_select soga_hooks] in H.
  destruct (select_spec R std greater opt sp m fuel (comp c0) c HR Hstd (proj1 He) Hs Ht H) as (Wc & Fo & (b & (Bin & Bid) & _) & _ & _ & _).
  specialize (Hsz _ _ He H). destruct (breed_keeps R opt fs junk c HR Wc) as (Wb & _ & X & kids & E).
  split; [split; [exact Wb|split; [|split]]|].
  - unfold best_valid. rewrite X, E, map_app. apply in_or_app. left. rewrite <- Bid. apply in_map, Bin.
  - intros x Hx Hc. destruct (breed_unevaluated R opt fs junk c x HR Wc Hx) as [Hx'|Hx']; [|congruence].
    destruct (Fo x Hx') as (y & Hy & Ey). assert (gfit x = gfit y) as -> by (unfold content in Ey; congruence).
    apply He, Hy.
  - pose proof (breed_size R opt fs junk c HR Wc). lia.
  - apply (bestFitness_ok R c Wc). unfold best_valid. rewrite <- Bid. apply in_map, Bin.
Qed.

(** A run avoids what every selection avoids. *)
Lemma loop_avoids k rec_on n : rng_ok R -> std_ok std -> 0 <= K' < 2147483648 -> 0 <= maxGenerations opt < two64 - 1 ->
  (forall g, 0 <= g <= maxGenerations opt -> Bnd g < 2147483648) ->
  0 <= tournamentSize sp -> (forall v, Q (fFun fs v)) ->
  (forall g d, 0 <= g <= maxGenerations opt -> entersG g d -> bad_of (select R std greater opt sp m fuel d) <> Some k) ->
  (forall g d d', 0 <= g <= maxGenerations opt -> entersG g d -> select R std greater opt sp m fuel d = Ok d' ->
     4 * Z.of_nat (length (pop d')) <= Bnd (g + 1)) ->
  forall s : ga V double nat (G R), invG (generation s) (ga_core s) -> 0 <= generation s <= maxGenerations opt ->
  (k = BadFuel -> maxGenerations opt < generation s + Z.of_nat n) ->
  bad_of (ga_loop R fs opt junk hk rec_on n s) <> Some k.
Proof.
  intros HR Hstd HK HM HB Ht Hf Hsel Hsz. induction n as [|n IH]; intros s Hi Hg Hn; cbn [ga_loop].
  { cbn. intros C. inversion C; subst. specialize (Hn eq_refl). lia. }
  pose proof (comp_enters _ _ Hf Hi) as He. pose proof (Hsel _ _ Hg He) as Hk.
  unfold evaluate_and_select at 1. cbn [hk_select soga_hooks].
  destruct (select R std greater opt sp m fuel (comp (ga_core s))) as [c| | |] eqn:Hc; cbn [bind]; try exact Hk.
  destruct (round_G (generation s) (ga_core s) c HR Hstd HK (HB _ Hg) Ht Hf (fun d d' => Hsz _ d d' Hg) Hi Hc) as (Hi' & f & Ef).
  cbn [hk_best soga_hooks]. rewrite Ef. cbn [bind].
  destruct rec_on; cbn [bind]; rewrite wrap64_small by (unfold two64 in *; lia);
    (destruct (Z.ltb_spec (maxGenerations opt) (generation s + 1)) as [L|L]; cbn [orb]; [discriminate|]);
    (destruct (_ && _); [discriminate|]); (apply IH; cbn [ga_core generation]; [exact Hi'|lia|intros Q1; specialize (Hn Q1); lia]).
Qed.

Lemma init_G v0 (c : core') : 1 <= K' -> K' <= Bnd 0 -> wf c -> invG 0 (soga_initializePop R opt fs junk v0 c).
Proof.
  intros HK HB Hw. unfold soga_initializePop.
  destruct (initialize_spec_lemma R fs opt junk v0 c Hw) as (L & W & U).
  set (c1 := initializePop R fs opt junk v0 c) in *. unfold invG, wf, best_valid. cbn [pop next ext].
  destruct W as (W1 & W2). split; [split; assumption|]. split; [|split].
  - destruct (pop c1) as [|x p] eqn:E; [|left; reflexivity]. cbn in L. unfold K in HK. lia.
  - intros x Hx Hc. destruct (U x Hx) as (U1 & _). congruence.
  - rewrite L. unfold K in *. lia.
Qed.

Lemma run_avoids k rec_on vec_max n v0 (s : ga V double nat (G R)) : rng_ok R -> std_ok std -> wf (ga_core s) ->
  1 <= K' < 2147483648 -> 0 <= maxGenerations opt < two64 - 1 -> K' <= Bnd 0 ->
  (forall g, 0 <= g <= maxGenerations opt -> Bnd g < 2147483648) ->
  0 <= tournamentSize sp -> (forall v, Q (fFun fs v)) ->
  (forall g d, 0 <= g <= maxGenerations opt -> entersG g d -> bad_of (select R std greater opt sp m fuel d) <> Some k) ->
  (forall g d d', 0 <= g <= maxGenerations opt -> entersG g d -> select R std greater opt sp m fuel d = Ok d' ->
     4 * Z.of_nat (length (pop d')) <= Bnd (g + 1)) ->
  wrap64 (maxGenerations opt + 1) <= vec_max ->
  (k = BadFuel -> maxGenerations opt < Z.of_nat n) ->
  bad_of (run R fs opt junk hk rec_on vec_max n
            (mkGA (soga_initializePop R opt fs junk v0 (ga_core s)) (generation s) (record s))) <> Some k.
Proof.
  intros HR Hstd Hw HK HM HB0 HB Ht Hf Hsel Hsz Hv Hn.
  unfold run. replace (vec_max <? _) with false by (symmetry; apply Z.ltb_ge; exact Hv). rewrite andb_false_r.
  apply loop_avoids; try assumption; cbn [ga_core generation]; try lia.
  pose proof (init_G v0 (ga_core s) (proj1 HK) HB0 Hw) as (A & B & C & D). exact (conj A (conj B (conj C D))).
Qed.

(** Selections bring the population down to populationSize. *)
Lemma size_bound (c d' : core') g : rng_ok R -> std_ok std -> 1 <= K' -> 4 * K' < 2147483648 -> 0 <= tournamentSize sp ->
  m <> StochasticUniversal -> (m = EliteReserved -> eliteNum sp <= K') ->
  wf c -> Z.of_nat (length (pop c)) <= 4 * K' ->
  select R std greater opt sp m g c = Ok d' -> 4 * Z.of_nat (length (pop d')) <= 4 * K'.
Proof.
  intros HR Hstd HK HK4 Ht M1 M2 Hw Hl H.
  assert (Hs : sizes_ok R opt c) by (split; lia).
  pose proof (select_spec R std greater opt sp m g c d' HR Hstd Hw Hs Ht H) as (_ & _ & _ & _ & _ & Sz).
  specialize (Sz M1). unfold exact_size, elite_size, min_size in Sz. destruct m; try congruence; try lia.
  specialize (M2 eq_refl). destruct (Z.leb_spec (Z.of_nat (length (pop c))) K'); lia.
Qed.
Lemma not_bad {A} (r : res A) : bad_of r <> Some BadUB -> bad_of r <> Some BadAbort -> bad_of r <> Some BadFuel -> exists a, r = Ok a.
Proof. destruct r; cbn; intros; try congruence. eauto. Qed.
End Runs.
