(** Proofs for C65 / C66. *)
From Coq Require Import List Arith ZArith Reals Bool Lia Lra Permutation Sorted.
From Flocq Require Import Core BinarySingleNaN Plus_error Relative.
From Verif Require Import Base Fl FlFacts Rng StdOps ListFacts GABase GAOpsProofs SOGA SOGAProofs SOGAProofs2 SOGAProofs3 SOGAProofs4 SOGAProofs5 WheelSpec.
Import ListNotations.
Open Scope Z_scope.

(** ** The walk *)
Lemma after_cons r w ws k : after r (w :: ws) (S k) = after (fsub r w) ws k.
Proof. reflexivity. Qed.
Lemma walk_some es : forall r w es' rf, walk es r = (Some (w, es'), rf) ->
  exists i x, nth_error es i = Some (x, w) /\ es' = without i es /\ hits r (map snd es) i.
Proof.
  induction es as [|e es IH]; cbn [walk]; intros r w es' rf H; [discriminate|].
  destruct (fle (fsub r (snd e)) d0) eqn:E.
  - inversion H; subst. exists O, (fst e). split; [destruct e; reflexivity|]. split; [reflexivity|].
    split; [cbn; lia|]. split; [intros k Hk; lia|]. exact E.
  - destruct (walk es (fsub r (snd e))) as [[[w1 t1]|] rf1] eqn:W; inversion H; subst.
    destruct (IH _ _ _ _ W) as (i & x & N & -> & (L & Hb & Ha)). exists (S i), x.
    split; [exact N|]. split; [reflexivity|]. split; [cbn; lia|]. split.
    + intros [|[|k]] Hk; [lia|exact E|]. cbn [map]. rewrite after_cons. apply Hb. lia.
    + cbn [map]. rewrite after_cons. exact Ha.
Qed.
Lemma walk_none es : forall r rf, walk es r = (None, rf) ->
  misses r (map snd es) /\ rf = after r (map snd es) (length es).
Proof.
  induction es as [|e es IH]; cbn [walk]; intros r rf H.
  - inversion H; subst. split; [intros k Hk; cbn in Hk; lia|reflexivity].
  - destruct (fle (fsub r (snd e)) d0) eqn:E; [discriminate|].
    destruct (walk es (fsub r (snd e))) as [[[w1 t1]|] rf1] eqn:W; inversion H; subst.
    destruct (IH _ _ W) as (M & ->). split; [|reflexivity].
    intros [|[|k]] Hk; [lia|exact E|]. cbn [map]. rewrite after_cons. apply M. cbn in Hk. lia.
Qed.
Lemma removelast_without {A} (l : list A) i : S i = length l -> removelast l = without i l.
Proof.
  intros H. unfold without. rewrite skipn_all2, app_nil_r by lia. 
  rewrite removelast_firstn_len. f_equal. lia.
Qed.
Lemma rev_last {A} (l : list A) x t : rev l = x :: t -> nth_error l (length l - 1) = Some x /\ l <> [].
Proof.
  intros H. assert (E : l = rev t ++ [x]) by (rewrite <- (rev_involutive l), H; reflexivity).
  rewrite E. split; [|destruct (rev t); discriminate]. rewrite app_length. cbn [length].
  rewrite nth_error_app2 by lia. replace (length (rev t) + 1 - 1 - length (rev t))%nat with O by lia. reflexivity.
Qed.

Section P.
Context {V : Type} (R : rng_ops) (std : std_ops) (greater : bool) (opt : ga_option) (sp : sel_params).
Notation core' := (core V double nat (G R)).
Notation gene' := (gene V double).
Notation K' := (K opt).

Lemma spin_turn (used : double -> bool) lot es sum g es1 sum1 g1 ws ls : used sum = true -> spin R es sum g = Ok (es1, sum1, g1) ->
  contest R used lot es1 sum1 g1 ws ls -> exists ws', contest R used lot es sum g ws' ls.
Proof.
  intros U H C. unfold spin in H. destruct (randD_range R d0 sum g) as [r g'] eqn:Er.
  destruct (walk es r) as [[[w t]|] rf] eqn:W.
  - inversion H; subst. apply walk_some in W. destruct W as (i & x & N & -> & Hh).
    exists (x :: ws). eapply turn; try eassumption. left. exact Hh.
  - apply walk_none in W. destruct W as (M & ->). destruct (flt d0 (after r (map snd es) (length es))) eqn:F.
    + destruct (rev es) as [|[x w] l] eqn:Re; [discriminate|]. inversion H; subst.
      apply rev_last in Re. destruct Re as (N & Ne).
      assert (L : S (length es - 1) = length es) by (destruct es; [congruence|cbn; lia]).
      exists (x :: ws). eapply (turn R used lot es sum g r g1 (length es - 1)); try eassumption.
      * right. rewrite map_length. auto.
      * rewrite <- removelast_without by exact L. exact C.
    + inversion H; subst. exists ws. eapply void_turn; eassumption.
Qed.
Lemma spin_loop_contest lot fuel : forall target es sum g es' g', spin_loop R fuel target es sum g = Ok (es', g') ->
  exists ws, contest R (fun _ => true) lot es sum g ws es'.
Proof.
  induction fuel as [|n IH]; intros target es sum g es' g'; cbn [spin_loop];
    destruct (Z.of_nat (length es) <=? target); intros H; try discriminate;
    try (inversion H; subst; eexists; apply over).
  apply bind_Ok in H. destruct H as ([[es1 sum1] g1] & H1 & H2).
  apply IH in H2. destruct H2 as (ws & C). eapply spin_turn; [reflexivity|exact H1|exact C].
Qed.

Notation lot_roulette := (lot_roulette R).
Notation lot_elite := (lot_elite R).
Lemma first_zero_lots es : forall n g es' g', first_zero R n es g = (es', g') ->
  (exists i x w, nth_error es i = Some (x, w) /\ es' = without i es /\ lot_falls R lot_roulette n g i /\ g' = lot_state R lot_roulette n (S i) g) \/
  (es' = es /\ no_lot R lot_roulette n (length es) g /\ g' = lot_state R lot_roulette n (length es) g).
Proof.
  induction es as [|e es IH]; cbn [first_zero]; intros n g es' g' H.
  - inversion H; subst. right. split; [reflexivity|]. split; [intros k Hk; cbn in Hk; lia|reflexivity].
  - destruct (randIdx R n g) as [i g1] eqn:E.
    assert (L : lot_roulette n g = (i =? 0, g1)) by (unfold WheelSpec.lot_roulette; rewrite E; reflexivity).
    destruct (i =? 0) eqn:Z0.
    + inversion H; subst. left. exists O, (fst e), (snd e). split; [destruct e; reflexivity|]. split; [reflexivity|].
      split; [|cbn [lot_state]; rewrite L; reflexivity]. split; [intros k Hk; lia|]. cbn [lot_state]. rewrite L. reflexivity.
    + destruct (first_zero R n es g1) as [t g2] eqn:E2. inversion H; subst.
      destruct (IH _ _ _ _ E2) as [(k & x & w & N & -> & (F1 & F2) & ->)|(-> & NL & ->)]; [left|right].
      * exists (S k), x, w. split; [exact N|]. split; [reflexivity|]. split; [|cbn [lot_state]; rewrite L; reflexivity].
        split; [|cbn [lot_state]; rewrite L; exact F2].
        intros [|j] Hj; cbn [lot_state]; rewrite L; [reflexivity|]. apply F1. lia.
      * split; [reflexivity|]. split; [|cbn [length lot_state]; rewrite L; reflexivity].
        intros [|j] Hj; cbn [lot_state]; rewrite L; [reflexivity|]. apply NL. cbn in Hj. lia.
Qed.
Lemma elite_first_lots es : forall n g es' g', elite_first R n es g = (es', g') ->
  (exists i x w, nth_error es i = Some (x, w) /\ es' = without i es /\ lot_falls R lot_elite n g i /\ g' = lot_state R lot_elite n (S i) g) \/
  (es' = es /\ no_lot R lot_elite n (length es) g /\ g' = lot_state R lot_elite n (length es) g).
Proof.
  induction es as [|e es IH]; cbn [elite_first]; intros n g es' g' H.
  - inversion H; subst. right. split; [reflexivity|]. split; [intros k Hk; cbn in Hk; lia|reflexivity].
  - destruct (rand01 R g) as [d g1] eqn:E.
    assert (L : lot_elite n g = (fle (fmul d (d_of_Z n)) d1, g1)) by (unfold WheelSpec.lot_elite; rewrite E; reflexivity).
    destruct (fle (fmul d (d_of_Z n)) d1) eqn:Z0.
    + inversion H; subst. left. exists O, (fst e), (snd e). split; [destruct e; reflexivity|]. split; [reflexivity|].
      split; [|cbn [lot_state]; rewrite L; reflexivity]. split; [intros k Hk; lia|]. cbn [lot_state]. rewrite L. reflexivity.
    + destruct (elite_first R n es g1) as [t g2] eqn:E2. inversion H; subst.
      destruct (IH _ _ _ _ E2) as [(k & x & w & N & -> & (F1 & F2) & ->)|(-> & NL & ->)]; [left|right].
      * exists (S k), x, w. split; [exact N|]. split; [reflexivity|]. split; [|cbn [lot_state]; rewrite L; reflexivity].
        split; [|cbn [lot_state]; rewrite L; exact F2].
        intros [|j] Hj; cbn [lot_state]; rewrite L; [reflexivity|]. apply F1. lia.
      * split; [reflexivity|]. split; [|cbn [length lot_state]; rewrite L; reflexivity].
        intros [|j] Hj; cbn [lot_state]; rewrite L; [reflexivity|]. apply NL. cbn in Hj. lia.
Qed.
Lemma roulette_contest fuel : forall target es sum g es' g', roulette_loop R fuel target es sum g = Ok (es', g') ->
  exists ws, contest R (fun s => flt d0 s) lot_roulette es sum g ws es'.
Proof.
  induction fuel as [|n IH]; intros target es sum g es' g'; cbn [roulette_loop];
    destruct (Z.of_nat (length es) <=? target); intros H; try discriminate;
    try (inversion H; subst; eexists; apply over).
  destruct (flt d0 sum) eqn:E.
  - apply bind_Ok in H. destruct H as ([[es1 sum1] g1] & H1 & H2).
    apply IH in H2. destruct H2 as (ws & C). eapply spin_turn; [exact E|exact H1|exact C].
  - destruct (first_zero R (Z.of_nat (length es)) es g) as [es1 g1] eqn:F. apply IH in H. destruct H as (ws & C).
    apply first_zero_lots in F. destruct F as [(i & x & w & N & -> & F & ->)|(-> & F & ->)].
    + exists (x :: ws). eapply lots; eassumption.
    + exists ws. eapply void_lots; eassumption.
Qed.
Lemma elite_contest fuel : forall target es sum g es' g', elite_equal R fuel target es g = Ok (es', g') ->
  exists ws, contest R (fun s => false) lot_elite es sum g ws es'.
Proof.
  induction fuel as [|n IH]; intros target es sum g es' g'; cbn [elite_equal];
    destruct (Z.of_nat (length es) <=? target); intros H; try discriminate;
    try (inversion H; subst; eexists; apply over).
  destruct (elite_first R (Z.of_nat (length es)) es g) as [es1 g1] eqn:F. apply (IH _ _ sum) in H. destruct H as (ws & C).
  apply elite_first_lots in F. destruct F as [(i & x & w & N & -> & F & ->)|(-> & F & ->)].
  - exists (x :: ws). eapply lots; try eassumption. reflexivity.
  - exists ws. eapply void_lots; try eassumption. reflexivity.
Qed.

(** A contest splits the competitors into winners and losers. *)
Lemma without_perm {A} (l : list A) i x : nth_error l i = Some x -> Permutation l (x :: without i l).
Proof.
  intros H. apply nth_error_split in H. destruct H as (a & b & -> & <-). unfold without.
  rewrite firstn_app, firstn_all, Nat.sub_diag. cbn [firstn]. rewrite app_nil_r.
  replace (S (length a)) with (length (a ++ [x])) by (rewrite app_length; cbn; lia).
  replace (a ++ x :: b) with ((a ++ [x]) ++ b) at 2 by (rewrite <- app_assoc; reflexivity).
  rewrite skipn_app, skipn_all, Nat.sub_diag. cbn [skipn app]. symmetry. apply Permutation_middle.
Qed.
Lemma contest_perm used lot es sum g ws ls : contest R used lot es sum g ws ls ->
  Permutation (map fst es) (ws ++ map fst ls).
Proof.
  induction 1; try assumption; [reflexivity| |].
  - rewrite (Permutation_map fst (without_perm _ _ _ H2)). cbn [map fst app]. constructor. exact IHcontest.
  - rewrite (Permutation_map fst (without_perm _ _ _ H1)). cbn [map fst app]. constructor. exact IHcontest.
Qed.

Lemma NoDup_app_disj {A} (a b : list A) x : NoDup (a ++ b) -> In x a -> ~ In x b.
Proof.
  induction a as [|y a IH]; cbn; intros H; [contradiction|]. inversion H; subst. intros [->|Hx].
  - intros C. apply H2. apply in_or_app. right. exact C.
  - apply IH; assumption.
Qed.
(** Who survives: the ones that are not among the competitors, and the winners. *)
Lemma survive (c : core') p' es0 ws es : NoDup (map gid (pop c)) -> NoDup (map fst es0) -> incl (map fst es0) (map gid (pop c)) ->
  sublist es es0 -> Permutation (map fst es0) (ws ++ map fst es) -> applyErasement (pop c) es = Ok p' ->
  forall x, In x p' <-> In x (pop c) /\ (~ In (gid x) (map fst es0) \/ In (gid x) ws).
Proof.
  intros N N0 I S P E x. unfold applyErasement in E.
  destruct (erasure_survivors_sub (pop c) (map fst es0) (map fst es) N) as (q & Eq & _ & _ & Iq);
    [apply sublist_map, S|exact N0|exact I|].
  rewrite Eq in E. inversion E; subst. rewrite Iq. split; intros (Hx & H); (split; [exact Hx|]).
  - destruct (in_dec Nat.eq_dec (gid x) (map fst es0)) as [Hi|Hi]; [|left; exact Hi].
    right. apply (Permutation_in _ P) in Hi. apply in_app_or in Hi. tauto.
  - intros C. destruct H as [H|H].
    + apply H. apply (Permutation_in _ (Permutation_sym P)). apply in_or_app. right. exact C.
    + apply (Permutation_NoDup P) in N0. exact (NoDup_app_disj _ _ _ N0 H C).
Qed.
End P.
