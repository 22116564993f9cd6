(** Single-objective selection: RouletteWheel under a fair stream, Tournament,
    and the exact condition under which Truncation reads a removed individual. *)
From Coq Require Import List Arith ZArith Reals Bool Lia Lra Permutation.
From Flocq Require Import Core BinarySingleNaN.
From Verif Require Import Base Fl FlFacts Rng RandProofs StdOps ListFacts GABase GABaseProofs GAOpsProofs SOGA SOGAProofs SOGAProofs2 SOGAProofs3 SOGAProofs4 SOGAProofs5.
Import ListNotations.
Open Scope Z_scope.

Section P.
Context {V : Type} (R : rng_ops) (std : std_ops) (greater : bool) (opt : ga_option) (sp : sel_params).
Notation core' := (core V double nat (G R)).
Notation gene' := (gene V double).
Notation isB := (isBetter greater).
Notation K' := (K opt).

(** ** RouletteWheel *)
(** Generator state after [k] float draws. *)
Fixpoint after_f (k : nat) (g : G R) : G R :=
  match k with O => g | S n => after_f n (snd (randf01 R g)) end.
(** Among the next [B] float draws, whatever the state, one selects index 0. *)
Definition fair (B : nat) : Prop :=
  forall g size, 2 <= size < 2147483648 -> exists k, (k < B)%nat /\ fst (randIdx R size (after_f k g)) = 0.

Lemma randIdx_snd size g : snd (randIdx R size g) = snd (randf01 R g).
Proof. unfold randIdx. destruct (randf01 R g); reflexivity. Qed.
Lemma first_zero_cases size es : forall g es' g', first_zero R size es g = (es', g') ->
  (length es = S (length es') /\ sublist es' es) \/
  (es' = es /\ g' = after_f (length es) g /\
   forall k, (k < length es)%nat -> fst (randIdx R size (after_f k g)) <> 0).
Proof.
  induction es as [|e es IH]; cbn [first_zero]; intros g es' g' H.
  - inversion H; subst. right. repeat split. cbn. lia.
  - destruct (randIdx R size g) as [i g1] eqn:E. pose proof (randIdx_snd size g) as E2. rewrite E in E2. cbn [snd] in E2.
    destruct (Z.eqb_spec i 0) as [Z0|Z0].
    + inversion H; subst. left. split; [reflexivity|apply sub_skip, sublist_refl].
    + destruct (first_zero R size es g1) as [t g2] eqn:E3. inversion H; subst es' g'. apply IH in E3.
      destruct E3 as [(L & S)|(-> & -> & A)].
      * left. split; [cbn; lia|apply sub_keep, S].
      * right. split; [reflexivity|]. split; [cbn [length after_f]; rewrite <- E2; reflexivity|].
        intros [|k] Hk; cbn [after_f]; [rewrite E; exact Z0|]. rewrite <- E2. apply A. cbn in Hk. lia.
Qed.

Lemma after_f_add a : forall b g, after_f (a + b) g = after_f b (after_f a g).
Proof. induction a as [|a IH]; intros b g; cbn; [reflexivity|apply IH]. Qed.

Lemma roulette_loop_ok B (target : Z) : rng_ok R -> fair B -> 1 <= target ->
  forall n es sum g m fuel, (length es = n)%nat -> Z.of_nat n < 2147483648 ->
  tame es -> fin sum -> 0 <= m -> m + Z.of_nat n < 9007199254740992 -> (Rabs (B2R sum) <= IZR m * B900)%R ->
  ((n - Z.to_nat target) * B <= fuel)%nat -> exists r, roulette_loop R fuel target es sum g = Ok r.
Proof.
  intros HR HF HT. induction n as [n IHn] using (well_founded_induction lt_wf).
  intros es sum g m fuel Ln Hn Tm Fs Hm HmL Hs Hfuel.
  destruct (Z.leb_spec (Z.of_nat (length es)) target) as [L|L].
  { exists (es, g). destruct fuel; cbn [roulette_loop]; destruct (Z.leb_spec (Z.of_nat (length es)) target); try lia; reflexivity. }
  assert (HB : (1 <= B)%nat). { destruct (HF g 2) as (k & Hk & _); lia. }
  assert (Hnt : (n - Z.to_nat target = S (n - 1 - Z.to_nat target))%nat) by lia.
  assert (Hne : es <> []) by (intros C; subst es; cbn in *; lia).
  rewrite Hnt in Hfuel. cbn [Nat.mul] in Hfuel. remember ((n - 1 - Z.to_nat target) * B)%nat as q eqn:Eq.
  destruct (flt d0 sum) eqn:Es.
  - destruct fuel as [|fuel]; [lia|]. cbn [roulette_loop]. destruct (Z.leb_spec (Z.of_nat (length es)) target); [lia|].
    rewrite Es. destruct (spin_progress R es sum g m) as (es' & sum' & g' & E & S & Len & Fs' & Hs'); try assumption; [lia|].
    rewrite E. cbn [bind]. apply (IHn (n - 1)%nat) with (m := m + 1); try assumption; try lia.
    eapply tame_sub; eauto.
  - destruct (HF g (Z.of_nat n) ltac:(lia)) as (k & Hk & Hz).
    assert (Hf2 : (q + k + 1 <= fuel)%nat) by lia.
    clear Hfuel Hk. revert g fuel Hz Hf2. induction k as [k IHk] using (well_founded_induction lt_wf). intros g fuel Hz Hf2.
    destruct fuel as [|fuel]; [lia|]. cbn [roulette_loop]. destruct (Z.leb_spec (Z.of_nat (length es)) target); [lia|].
    rewrite Es, Ln. destruct (first_zero R (Z.of_nat n) es g) as [es' g'] eqn:E.
    apply first_zero_cases in E. destruct E as [(Len & S)|(-> & -> & A)].
    + apply (IHn (n - 1)%nat) with (m := m); try assumption; try lia. eapply tame_sub; eauto.
    + assert (Hkn : (n <= k)%nat). { destruct (le_lt_dec n k) as [D|D]; [exact D|exfalso]. apply (A k); [lia|exact Hz]. }
      rewrite Ln. apply (IHk (k - n)%nat); [lia| |lia].
      rewrite <- after_f_add. replace (n + (k - n))%nat with k by lia. exact Hz.
Qed.

Lemma roulette_ok B fuel (c : core') : rng_ok R -> fair B -> wf c -> best_valid R c -> 1 <= K' -> sizes_ok R opt c ->
  mild R c -> (length (pop c) * B <= fuel)%nat -> exists c', sel_roulette R greater opt fuel c = Ok c'.
Proof.
  intros HR HF Hw Hb HK Hs HM Hfu. unfold sel_roulette. destruct (bestFitness_ok R c Hw Hb) as (f & ->). cbn [bind]. cbv zeta.
  rewrite (eliminate_int R opt c Hs). unfold popSize.
  destruct (Z.leb_spec (Z.of_nat (length (pop c)) - K') 0) as [L|L]; [apply updateFail2_ok; pose proof (pop_nonempty R c Hb) as PN0; intros C; rewrite C in PN0; cbn in PN0; lia|].
  assert (PN : pop c <> []) by (intros C; rewrite C in L; cbn in L; lia).
  set (es := shift_by _ _).
  assert (W : forall e, In e es -> fin (snd e) /\ (0 <= B2R (snd e) <= B900)%R) by (apply shifted_weights; assumption).
  assert (Le : length es = length (pop c)) by (unfold es, shift_by, weights_of; rewrite !map_length; reflexivity).
  pose proof (nonneg_tame es W) as T. destruct Hs as (Hs1 & Hs2).
  destruct (sum_tame es T) as (F & Bs); [lia|].
  destruct (roulette_loop_ok B (Z.of_nat (length (pop c)) - K') HR HF ltac:(lia) (length (pop c)) es (sum_of es) (gen_rng c) (Z.of_nat (length es)) fuel) as ([es' g'] & E);
    try assumption; try lia; try nia.
  rewrite E. cbn [bind]. apply roulette_loop_sub in E. destruct E as (S & Ll). specialize (Ll ltac:(lia)).
  apply (finish2_ok R greater c es); [apply Hw|exact S| |lia].
  unfold es. rewrite fst_shift, fst_weights. reflexivity.
Qed.

(** ** Truncation *)
Lemma filter_len_le {A} (f : A -> bool) (l : list A) : (length (filter f l) <= length l)%nat.
Proof. induction l; cbn; [lia|]. destruct (f a); cbn; lia. Qed.

Lemma nodup_incl_len {A B} (key : A -> B) (a b : list A) : NoDup (map key a) -> (forall x, In x a -> In x b) -> (length a <= length b)%nat.
Proof. intros N H. rewrite <- (map_length key a), <- (map_length key b). apply NoDup_incl_length; [exact N|].
  intros k Hk. apply in_map_iff in Hk. destruct Hk as (x & <- & Hx). apply in_map, H, Hx. Qed.

Lemma truncation_ok_if (c : core') old : std_ok std -> wf c -> 1 <= K' -> is_best_gene R c old ->
  (forall x, In x (pop c) -> nonnan (gfit x)) ->
  Z.of_nat (length (filter (fun x => negb (Nat.eqb (gid x) (gid old)) && negb (isB (gfit old) (gfit x))) (pop c))) < K' ->
  exists c', sel_truncation R std greater opt c = Ok c' /\ In old (pop c').
Proof.
  intros Hstd Hw HK (Ho1 & Ho2) NN Cnt. pose proof Hw as (N & _).
  assert (PN : pop c <> []) by (intros C; rewrite C in Ho1; contradiction).
  destruct (truncation_outcome R std greater opt c Hstd Hw HK PN NN) as (kept & Sk & Lk & Cut & Out).
  assert (Nk : NoDup (map gid kept)) by (eapply sublist_NoDup; [apply sublist_map, Sk|exact N]).
  assert (Hin : In old kept).
  { destruct (inb (map gid kept) (gid old)) eqn:E.
    - apply inb_true in E. apply in_map_iff in E. destruct E as (o & Eo & Ho).
      replace old with o; [exact Ho|]. eapply (NoDup_map_inj gid (pop c)); eauto. eapply sublist_in; eauto.
    - exfalso. apply inb_false in E.
      assert (Hno : ~ In old kept) by (intros C; apply E, in_map, C).
      assert (L : (length kept <= length (filter (fun x => negb (Nat.eqb (gid x) (gid old)) && negb (isB (gfit old) (gfit x))) (pop c)))%nat).
      { apply (nodup_incl_len gid); [exact Nk|]. intros y Hy. apply filter_In. split; [eapply sublist_in; eauto|].
        rewrite (Cut old y Ho1 Hno Hy). rewrite andb_true_r. apply negb_true_iff, Nat.eqb_neq.
        intros C. apply E. rewrite <- C. apply in_map, Hy. }
      unfold min_size in Lk. destruct (Z_le_gt_dec K' (Z.of_nat (length (pop c)))) as [Q|Q]; [lia|].
      assert (kept = pop c) by (apply sublist_same_length; [exact Sk|lia]). subst. contradiction. }
  rewrite <- Ho2 in Out. assert (E : inb (map gid kept) (gid old) = true) by (apply inb_true, in_map, Hin).
  rewrite E in Out. destruct Out as (c' & E1 & E2). exists c'. split; [exact E1|rewrite E2; exact Hin].
Qed.

Lemma truncation_UB_if (c : core') old : std_ok std -> wf c -> 1 <= K' -> is_best_gene R c old ->
  (forall x, In x (pop c) -> nonnan (gfit x)) ->
  K' <= Z.of_nat (length (filter (fun x => isB (gfit x) (gfit old)) (pop c))) ->
  sel_truncation R std greater opt c = UB.
Proof.
  intros Hstd Hw HK (Ho1 & Ho2) NN Cnt. pose proof Hw as (N & _).
  assert (PN : pop c <> []) by (intros C; rewrite C in Ho1; contradiction).
  destruct (truncation_outcome R std greater opt c Hstd Hw HK PN NN) as (kept & Sk & Lk & Cut & Out).
  assert (Nk : NoDup (map gid kept)) by (eapply sublist_NoDup; [apply sublist_map, Sk|exact N]).
  rewrite <- Ho2 in Out.
  destruct (inb (map gid kept) (gid old)) eqn:E; [exfalso|exact Out].
  apply inb_true in E. apply in_map_iff in E. destruct E as (o & Eo & Ho).
  assert (o = old) by (eapply (NoDup_map_inj gid (pop c)); eauto; eapply sublist_in; eauto). subst o.
  set (bt := filter (fun x => isB (gfit x) (gfit old)) (pop c)) in *.
  assert (Hbt : forall x, In x bt -> In x kept).
  { intros x Hx. apply filter_In in Hx. destruct Hx as (Hx & Bx).
    destruct (inb (map gid kept) (gid x)) eqn:Ex.
    - apply inb_true in Ex. apply in_map_iff in Ex. destruct Ex as (z & Ez & Hz).
      replace x with z; [exact Hz|]. eapply (NoDup_map_inj gid (pop c)); eauto. eapply sublist_in; eauto.
    - apply inb_false in Ex. exfalso. assert (Hnx : ~ In x kept) by (intros C; apply Ex, in_map, C).
      rewrite (Cut x old Hx Hnx Ho) in Bx. discriminate. }
  assert (L : (length (old :: bt) <= length kept)%nat).
  { apply (nodup_incl_len gid).
    - cbn [map]. constructor.
      + intros C. apply in_map_iff in C. destruct C as (z & Ez & Hz). apply filter_In in Hz. destruct Hz as (Hz & Bz).
        assert (z = old) by (eapply (NoDup_map_inj gid (pop c)); eauto). subst z. rewrite isB_irrefl in Bz. discriminate.
      + eapply sublist_NoDup; [apply sublist_map, sublist_filter|exact N].
    - intros x [<-|Hx]; [exact Ho|apply Hbt, Hx]. }
  cbn [length] in L. unfold min_size in Lk. lia.
Qed.

(** ** Tournament *)
(** One play: [ts] different individuals meet and [w] is one that none of them beats. *)
Definition play (p : list gene') (w : gene') : Prop :=
  exists contestants, NoDup (map gid contestants) /\ (forall x, In x contestants -> In x p) /\
    length contestants = Nat.max 1 (Z.to_nat (tournamentSize sp)) /\
    In w contestants /\ forall x, In x contestants -> isB (gfit x) (gfit w) = false.

Lemma tour_best_spec (l : list gene') : forall acc,
  let w := tour_best greater l acc in
  (w = acc \/ (In w l /\ isB (gfit w) (gfit acc) = true)) /\ forall x, In x l -> isB (gfit x) (gfit w) = false.
Proof.
  induction l as [|y l IH]; intros acc; cbn [tour_best]; cbv zeta.
  - split; [auto|contradiction].
  - specialize (IH (if isB (gfit y) (gfit acc) then y else acc)). cbv zeta in IH.
    set (w := tour_best greater l _) in *. destruct IH as (I1 & I2).
    destruct (isB (gfit y) (gfit acc)) eqn:E.
    + split.
      * right. destruct I1 as [->|(H & B)]; [split; [left; reflexivity|exact E]|].
        split; [right; exact H|eapply isB_trans; eassumption].
      * intros x [<-|Hx]; [|apply I2, Hx].
        destruct I1 as [->|(H & B)]; [apply isB_irrefl|apply isB_asym, B].
    + split.
      * destruct I1 as [->|(H & B)]; [left; reflexivity|right; split; [right; exact H|exact B]].
      * intros x [<-|Hx]; [|apply I2, Hx].
        destruct I1 as [->|(H & B)]; [exact E|].
        destruct (isB (gfit y) (gfit w)) eqn:E2; [|reflexivity]. rewrite (isB_trans _ _ _ _ E2 B) in E. discriminate.
Qed.

Lemma upd_swap_perm {A} (l : list A) i j x y : nth_error l i = Some x -> nth_error l j = Some y ->
  Permutation l (upd (upd l i y) j x).
Proof.
  intros Hi Hj.
  assert (P1 : forall (m : list A) k a b, nth_error m k = Some a -> Permutation (b :: m) (a :: upd m k b)).
  { induction m as [|z m IH]; intros [|k] a b H; try discriminate; cbn in *.
    - inversion H; subst. apply perm_swap.
    - rewrite perm_swap. rewrite (IH _ _ b H). apply perm_swap. }
  destruct (Nat.eq_dec i j) as [->|Ne].
  - assert (x = y) by congruence. subst y.
    pose proof (P1 l j x x Hj) as Q1. assert (Hu : nth_error (upd l j x) j = Some x).
    { rewrite upd_nth. assert (j < length l)%nat by (apply nth_error_Some; congruence).
      rewrite Nat.eqb_refl. destruct (nth_error l j); [reflexivity|congruence]. }
    pose proof (P1 _ j x x Hu) as Q2.
    apply Permutation_cons_inv in Q1. apply Permutation_cons_inv in Q2. exact (Permutation_trans Q1 Q2).
  - pose proof (P1 l i x y Hi) as Q1.
    assert (Hu : nth_error (upd l i y) j = Some y).
    { rewrite upd_nth. destruct (Nat.eqb_spec i j); [congruence|]. exact Hj. }
    pose proof (P1 _ j y x Hu) as Q2.
    apply (Permutation_cons_inv (a := y)). exact (Permutation_trans Q1 Q2).
Qed.

Lemma tour_swap_ok n : forall a (space : list gene') g, rng_ok R ->
  0 <= tournamentSize sp -> (a + n <= length space)%nat -> tournamentSize sp < Z.of_nat (length space) ->
  Z.of_nat (length space) < 2147483648 ->
  exists space' g', tour_swap R sp n a space g = Ok (space', g') /\ Permutation space space'.
Proof.
  induction n as [|n IH]; intros a space g HR Ht Ha Hl Hb; cbn [tour_swap]; [eauto|].
  pose proof (randIdx2_range R (tournamentSize sp) (Z.of_nat (length space)) g HR ltac:(lia)) as Hr.
  destruct (randIdx2 R (tournamentSize sp) (Z.of_nat (length space)) g) as [b g1]. cbn [fst] in Hr.
  destruct (Z.ltb_spec b 0); [lia|].
  destruct (nth_error space a) as [x|] eqn:Ex; [|apply nth_error_None in Ex; lia].
  destruct (nth_error space (Z.to_nat b)) as [y|] eqn:Ey; [|apply nth_error_None in Ey; lia].
  pose proof (upd_swap_perm space a (Z.to_nat b) x y Ex Ey) as P.
  destruct (IH (S a) (upd (upd space a y) (Z.to_nat b) x) g1 HR Ht) as (s' & g' & E & P'); rewrite ?upd_length; try lia.
  exists s', g'. split; [exact E|]. etransitivity; eassumption.
Qed.

Lemma tour_play_ok (p : list gene') n : forall space g, rng_ok R -> NoDup (map gid p) -> Permutation p space ->
  0 <= tournamentSize sp -> tournamentSize sp < Z.of_nat (length p) -> Z.of_nat (length p) < 2147483648 ->
  exists ws g', tour_play R greater sp n space g = Ok (map gid ws, g') /\ length ws = n /\ Forall (play p) ws.
Proof.
  induction n as [|n IH]; intros space g HR N P Ht Hl Hb; cbn [tour_play].
  { exists [], g. repeat split. constructor. }
  pose proof (Permutation_length P) as Ls.
  destruct (Nat.ltb_spec (length space) (Z.to_nat (tournamentSize sp))); [lia|].
  destruct (firstn (Nat.max 1 (Z.to_nat (tournamentSize sp))) space) as [|b rest] eqn:Ef.
  { exfalso. apply (f_equal (@length gene')) in Ef. rewrite firstn_length in Ef. cbn [length] in Ef. lia. }
  destruct (tour_swap_ok (Z.to_nat (tournamentSize sp)) 0 space g HR Ht) as (space' & g1 & -> & P'); try lia.
  cbn [bind]. destruct (IH space' g1 HR N) as (ws & g2 & -> & Lw & Fw); try assumption; [etransitivity; eassumption|].
  cbn [bind]. exists (tour_best greater rest b :: ws), g2. split; [reflexivity|]. split; [cbn; lia|].
  constructor; [|exact Fw]. pose proof (tour_best_spec rest b) as (T1 & T2). cbv zeta in *. set (w := tour_best greater rest b) in *.
  assert (Sub : sublist (b :: rest) space) by (rewrite <- Ef; apply sublist_firstn).
  exists (b :: rest). split; [|split; [|split; [|split]]].
  - eapply sublist_NoDup; [apply sublist_map, Sub|]. eapply Permutation_NoDup; [apply Permutation_map, P|exact N].
  - intros x Hx. eapply Permutation_in; [apply Permutation_sym, P|]. eapply sublist_in; eauto.
  - rewrite <- Ef, firstn_length. lia.
  - destruct T1 as [->|(H1 & _)]; [left; reflexivity|right; exact H1].
  - intros x [<-|Hx]; [|apply T2, Hx]. destruct T1 as [->|(H1 & H2)]; [apply isB_irrefl|apply isB_asym, H2].
Qed.

(** What is observable of an individual: its variable, flag and fitness. *)
Definition content (x : gene') := (gvar x, gcomp x, gfit x).

Lemma copies_content (l : list gene') : forall n, map content (copies_with n l) = map content l.
Proof. induction l as [|x l IH]; intros n; cbn; [reflexivity|]. f_equal. apply IH. Qed.
Lemma copies_ids (l : list gene') : forall n, map gid (copies_with n l) = seq n (length l).
Proof. induction l as [|x l IH]; intros n; cbn; [reflexivity|]. f_equal. apply IH. Qed.

Lemma repeat_flat_in (f : gene' -> nat) (l : list gene') x : In x (flat_map (fun y => repeat y (f y)) l) -> In x l.
Proof.
  intros H. apply in_flat_map in H. destruct H as (y & Hy & Hr). apply repeat_spec in Hr. subst. exact Hy.
Qed.

(** Splitting one copy of each selected individual from the rest. *)
Lemma multiset_split (f : gene' -> nat) (l : list gene') :
  Permutation (flat_map (fun x => repeat x (f x)) l)
    (filter (fun x => negb (f x =? 0)%nat) l ++ flat_map (fun x => repeat x (f x - 1)) (filter (fun x => negb (f x =? 0)%nat) l)).
Proof.
  induction l as [|x l IH]; cbn [flat_map filter]; [reflexivity|].
  destruct (f x) as [|k] eqn:E; cbn [Nat.eqb negb repeat app]; [exact IH|].
  cbn [flat_map]. rewrite E. cbn [Nat.sub]. rewrite Nat.sub_0_r. apply perm_skip.
  rewrite IH. rewrite !app_assoc. apply Permutation_app_tail. apply Permutation_app_comm.
Qed.

Lemma count_flat (ws : list gene') (p : list gene') : NoDup (map gid p) -> (forall w, In w ws -> In w p) ->
  Permutation ws (flat_map (fun x => repeat x (count_occ Nat.eq_dec (map gid ws) (gid x))) p).
Proof.
  intros N. induction ws as [|w ws IH]; intros H.
  { cbn. clear. induction p; cbn; auto. }
  specialize (IH (fun x Hx => H x (or_intror Hx))). specialize (H w (or_introl eq_refl)).
  apply in_split in H. destruct H as (p1 & p2 & ->).
  rewrite map_app in N. cbn [map] in N. apply NoDup_remove in N. destruct N as (N & Nw).
  assert (Ext : forall q : list gene', (forall x, In x q -> gid x <> gid w) ->
    flat_map (fun x => repeat x (count_occ Nat.eq_dec (map gid (w :: ws)) (gid x))) q =
    flat_map (fun x => repeat x (count_occ Nat.eq_dec (map gid ws) (gid x))) q).
  { induction q as [|x q IHq]; intros Hq; cbn [flat_map]; [reflexivity|]. f_equal.
    - f_equal. cbn [map count_occ]. destruct (Nat.eq_dec (gid w) (gid x)) as [C|C]; [|reflexivity].
      exfalso. apply (Hq x); [left; reflexivity|congruence].
    - apply IHq. intros y Hy. apply Hq. right; exact Hy. }
  rewrite flat_map_app in *. cbn [flat_map] in *.
  rewrite (Ext p1), (Ext p2).
  - replace (count_occ Nat.eq_dec (map gid (w :: ws)) (gid w)) with (S (count_occ Nat.eq_dec (map gid ws) (gid w))).
    2:{ cbn [map]. symmetry. apply count_occ_cons_eq. reflexivity. }
    cbn [repeat app]. rewrite <- Permutation_middle. apply perm_skip. exact IH.
  - intros x Hx C. apply Nw. rewrite <- C. apply in_or_app. right. apply in_map, Hx.
  - intros x Hx C. apply Nw. rewrite <- C. apply in_or_app. left. apply in_map, Hx.
Qed.

Lemma perm_flat_map {A B} (f : A -> list B) l l' : Permutation l l' -> Permutation (flat_map f l) (flat_map f l').
Proof. apply Permutation_flat_map. Qed.

Lemma tournament_ok (c : core') : rng_ok R -> std_ok std -> wf c -> best_valid R c -> sizes_ok R opt c ->
  0 <= tournamentSize sp < K' -> K' < Z.of_nat (length (pop c)) ->
  exists c' winners, sel_tournament R std greater opt sp c = Ok c' /\
    length winners = Z.to_nat K' /\ Forall (play (pop c)) winners /\
    Permutation (map content winners) (map content (pop c')) /\
    wf c' /\ best_reported R greater c' /\ fail_counted R greater c c'.
Proof.
  intros HR (_ & Hu) Hw Hb Hs Ht HN. pose proof Hw as (N & Hnx). unfold sel_tournament.
  destruct (sizes_int R opt c Hs) as (E1 & E2). rewrite E2, E1. unfold popSize.
  destruct (Z.ltb_spec (tournamentSize sp) K'); [cbn [negb]|lia].
  destruct (bestFitness_ok R c Hw Hb) as (f & Hf). rewrite Hf. cbn [bind].
  destruct (Z.leb_spec (Z.of_nat (length (pop c))) K') as [L|L]; [lia|].
  pose proof (proj2 (proj2 HR) _ (pop c) (gen_rng c)) as Hsh.
  destruct (shuffle R (pop c) (gen_rng c)) as [space g1]. cbn [fst] in Hsh.
  destruct Hs as (Hs1 & Hs2).
  destruct (tour_play_ok (pop c) (Z.to_nat K') space g1 HR N Hsh) as (ws & g2 & -> & Lw & Fw); try lia.
  cbn [bind]. set (cnt := times_selected (map gid ws)).
  set (kept := filter (fun x : gene' => negb (cnt x =? 0)%nat) (pop c)).
  assert (Win : forall w, In w ws -> In w (pop c)).
  { intros w Hw'. rewrite Forall_forall in Fw. destruct (Fw w Hw') as (cs & _ & I & _ & Hc & _). apply I, Hc. }
  assert (PW : Permutation ws (kept ++ flat_map (fun x => repeat x (cnt x - 1)) kept)).
  { rewrite (count_flat ws (pop c) N Win). apply (multiset_split cnt). }
  assert (Hkn : kept <> []).
  { intros C. rewrite C in PW. cbn in PW. apply Permutation_sym, Permutation_nil in PW. subst ws. cbn in Lw. lia. }
  set (extra := flat_map (fun x => repeat x (cnt x - 1)) (umap_order std kept)).
  assert (PE : Permutation (flat_map (fun x => repeat x (cnt x - 1)) kept) extra).
  { unfold extra. apply Permutation_flat_map. apply Hu. }
  destruct (findCurrentBestGene greater kept) as [b|] eqn:Eb.
  2:{ apply find_best_none in Eb. contradiction. }
  cbn [updateFail2 bind]. eexists _, ws. split; [reflexivity|]. cbn [pop next ext fails gen_rng].
  destruct (find_best_spec greater kept b Eb) as (Hbk & Hbb).
  assert (Sk : sublist kept (pop c)) by apply sublist_filter.
  assert (WF : NoDup (map gid (kept ++ copies_with (next c) extra)) /\ forall x, In x (kept ++ copies_with (next c) extra) -> (gid x < next c + length extra)%nat).
  { rewrite map_app, copies_ids. split.
    - apply nodup_app_seq.
      + eapply sublist_NoDup; [apply sublist_map, Sk|exact N].
      + intros x Hx. apply Hnx. eapply sublist_in; eauto.
    - intros x Hx. apply in_app_or in Hx. destruct Hx as [Hx|Hx].
      + specialize (Hnx x (sublist_in _ _ _ Sk Hx)). lia.
      + apply (in_map gid) in Hx. rewrite copies_ids in Hx. apply in_seq in Hx. lia. }
  split; [exact Lw|]. split; [exact Fw|]. split.
  { rewrite map_app, copies_content, <- map_app. apply Permutation_map. rewrite PW. apply Permutation_app_head, PE. }
  split; [exact WF|]. split.
  - exists b. split; [split; [apply in_or_app; left; exact Hbk|reflexivity]|]. cbn [pop].
    intros x Hx. apply in_app_or in Hx. destruct Hx as [Hx|Hx]; [apply Hbb, Hx|].
    assert (exists y, In y extra /\ gfit y = gfit x) as (y & Hy & <-).
    { clear -Hx. revert Hx. generalize (next c). induction extra as [|z l IH]; cbn; intros n Hx; [contradiction|].
      destruct Hx as [<-|Hx]; [exists z; split; [left; reflexivity|reflexivity]|].
      apply IH in Hx. destruct Hx as (y & Hy & E). exists y. split; [right; exact Hy|exact E]. }
    apply Hbb. unfold extra in Hy. apply repeat_flat_in in Hy. eapply Permutation_in; [apply Permutation_sym, Hu|exact Hy].
  - apply bestFitness_inv in Hf. destruct Hf as (old & Ho & ->). exists old, b.
    split; [exact Ho|]. split; [split; [apply in_or_app; left; exact Hbk|reflexivity]|]. reflexivity.
Qed.
End P.
