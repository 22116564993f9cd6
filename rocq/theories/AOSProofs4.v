From Coq Require Import List Arith ZArith Reals Bool Lia Lra Permutation Sorted.
From Flocq Require Import Core BinarySingleNaN.
From Verif Require Import Base Fl FlFacts Rng RandProofs StdOps ListFacts Box AOS AOSSpec AOSProofs AOSProofs2 AOSProofs3.
From Verif Require PSOProofs2.
Import ListNotations.
Open Scope Z_scope.

(** Insertion sort is stable. *)
Lemma isort_stable : stable_at_front std_inst.
Proof.
  intros A lt l x pre post SW -> Hpre Hpost. cbn [sort std_inst]. unfold isort.
  induction pre as [|p pre IH]; cbn [app fold_right].
  - fold (isort lt post). destruct (isort lt post) as [|y r] eqn:Q; [exists []; reflexivity|]. exists (y :: r). cbn [insert].
    rewrite Hpost; [reflexivity|]. eapply Permutation_in; [apply Permutation_sym, isort_perm|rewrite Q; left; reflexivity].
  - destruct IH as (r & ->).
    + eapply strict_weak_sub; [|exact SW]. cbn. auto.
    + intros y Hy. apply Hpre. right. exact Hy.
    + cbn [insert]. rewrite Hpre by (left; reflexivity). eauto.
Qed.

Lemma feq_val (x y : double) : nonnan x -> nonnan y -> fval x = fval y -> feq x y = true.
Proof.
  intros Nx Ny V. unfold feq. pose proof (bpow_gt_0 radix2 1024) as P.
  pose proof (dval_lt_emax x) as Bx. pose proof (dval_lt_emax y) as By. apply Rabs_lt_inv in Bx. apply Rabs_lt_inv in By.
  destruct (is_finite x) eqn:Fx; destruct (is_finite y) eqn:Fy.
  - rewrite Beqb_correct by assumption. rewrite !fval_fin in V by assumption. apply Req_bool_true. exact V.
  - exfalso. destruct y as [|sy| |]; try discriminate. rewrite (fval_fin _ _ _ Fx) in V. unfold fval in V.
    revert V Bx P. generalize (bpow radix2 1024). intros m V Bx P. destruct sy; lra.
  - exfalso. destruct x as [|sx| |]; try discriminate. rewrite (fval_fin _ _ _ Fy) in V. unfold fval in V.
    revert V By P. generalize (bpow radix2 1024). intros m V By P. destruct sx; lra.
  - destruct x as [|sx| |]; try discriminate. destruct y as [|sy| |]; try discriminate. unfold fval in V.
    revert V P. generalize (bpow radix2 1024). intros m V P. destruct sx, sy; try reflexivity; exfalso; lra.
Qed.
Section P.
Context {R : rng_ops} (E : env R).
Notation aos' := (aos (G R)).
Notation eb := (e_better E).

Lemma wrap64_succ z : wrap64 (wrap64 z + 1) = wrap64 (1 + z).
Proof. unfold wrap64. rewrite Zplus_mod_idemp_l. f_equal. lia. Qed.
Lemma evaluated_done s : (forall e, In e (electrons s) -> ecomp e = true) -> evaluated E s = electrons s.
Proof.
  unfold evaluated. intros H. rewrite <- (map_id (electrons s)) at 2. apply map_ext_in. intros e He. apply evaluate_done, H, He.
Qed.
Lemma settle_evaluated opt s s' : std_ok (std E) -> good E s -> settle E opt s = Ok s' -> evaluated E s' = electrons s'.
Proof. intros Hstd Hg H. apply evaluated_done. intros e He. apply (settle_computed E opt s s' Hstd Hg H e He). Qed.
Lemma deref_evaluate es p e : deref es p = Ok e -> deref (map (evaluate E) es) p = Ok (evaluate E e).
Proof.
  unfold deref. induction es as [|x es IH]; cbn [find map]; [discriminate|]. rewrite evaluate_id.
  destruct (eid x =? p)%nat; [intros H; injection H as <-; reflexivity|exact IH].
Qed.

(** ** The early-stop counter *)
Definition stop_inv (f0 : double) (s : aos') : Prop :=
  good E s /\ (atomBest s < e_next s)%nat /\ a_stop s = wrap64 (repeats (rev (f0 :: a_record s))) /\
  forall e, deref (evaluated E s) (atomBest s) = Ok e -> hd_error (rev (f0 :: a_record s)) = Some (energy e).
Lemma stop_settle f0 opt s s' : std_ok (std E) -> rec_on E = true -> stop_inv f0 s -> settle E opt s = Ok s' -> stop_inv f0 s'.
Proof.
  intros Hstd Hr (Hg & Hlt & Hs & Hd) H. pose proof (settle_good E opt s s' Hstd Hg H) as Hg'.
  destruct (settle_best E opt s s' Hstd Hg H) as (best & pre & post & Hes & Ha & _ & _ & _ & _ & Hrec & (prev & Hp & Hst)).
  rewrite Hr in Hrec. assert (Ib : In best (evaluated E s)) by (rewrite Hes; apply in_or_app; right; left; reflexivity).
  assert (Hn : e_next s' = e_next s).
  { pose proof (settle_full E opt s s' Hstd Hg H) as (? & ? & ? & ? & ? & ? & ? & ? & X). cbv zeta in X. apply X. }
  assert (Hrev : rev (f0 :: a_record s') = energy best :: rev (f0 :: a_record s)).
  { rewrite Hrec. change (f0 :: a_record s ++ [energy best]) with ((f0 :: a_record s) ++ [energy best]). rewrite rev_app_distr. reflexivity. }
  specialize (Hd prev Hp). split; [exact Hg'|]. split; [|split].
  - rewrite Hn, Ha. unfold evaluated in Ib. apply in_map_iff in Ib. destruct Ib as (x & <- & Hx). rewrite evaluate_id. apply Hg, Hx.
  - rewrite Hrev, Hst. destruct (rev (f0 :: a_record s)) as [|y t]; [discriminate|]. injection Hd as ->. cbn [repeats].
    destruct (feq (energy prev) (energy best)); [|reflexivity]. rewrite Hs. apply wrap64_succ.
  - intros e He. rewrite (settle_evaluated opt s s' Hstd Hg H) in He. rewrite Hrev. cbn. apply deref_In in He. destruct He as (He & Hi).
    do 2 f_equal. eapply (NoDup_map_inj eid (evaluated E s)); [unfold evaluated; rewrite map_evaluate_id; apply Hg|exact Ib| |congruence].
    apply (settle_computed E opt s s' Hstd Hg H e He).
Qed.
Lemma stop_excite f0 opt s s' : (forall e, In e (electrons s) -> ecomp e = true) -> stop_inv f0 s -> excite E opt s = Ok s' -> stop_inv f0 s'.
Proof.
  intros Hc (Hg & Hlt & Hs & Hd) H. pose proof (excite_good E opt s s' Hg H) as Hg'. apply excite_spec in H.
  destruct H as (ls & new & _ & _ & Hel & Hid & _ & Hn & _ & _ & Ha & _ & Hst & Hrec).
  split; [exact Hg'|]. rewrite Ha, Hrec, Hst. split; [lia|]. split; [exact Hs|].
  intros e He. apply Hd. unfold evaluated in *. rewrite Hel, map_app in He. unfold deref in *.
  assert (Q : forall l l', find (fun x => (eid x =? atomBest s)%nat) (l ++ l') =
             match find (fun x => (eid x =? atomBest s)%nat) l with Some x => Some x | None => find (fun x => (eid x =? atomBest s)%nat) l' end).
  { induction l as [|x l IH]; intros l'; cbn; [reflexivity|]. destruct (eid x =? atomBest s)%nat; auto. }
  rewrite Q in He. destruct (find _ (map (evaluate E) (electrons s))) eqn:F; [exact He|].
  destruct (find _ (map (evaluate E) new)) eqn:F2; [|discriminate]. apply find_some in F2. destruct F2 as (I & C).
  apply Nat.eqb_eq in C. apply (in_map eid) in I. rewrite map_evaluate_id, Hid in I. apply in_seq in I. lia.
Qed.
Lemma stop_before s : std_ok (std E) -> rec_on E = true -> before_round E s ->
  exists f0, stop_inv f0 s.
Proof.
  intros Hstd Hr. induction 1 as [opt s s' H|opt s s1 s2 _ IH H1 _ H2|opt s s1 _ IH H1 _].
  - pose proof H as H0. apply init_good in H. destruct H as (Hg & _ & _ & _ & _ & Hst & Hrec & (e & He & Hi) & Hc).
    exists (energy (evaluate E e)). split; [exact Hg|]. rewrite Hrec. split; [rewrite <- Hi; apply Hg, He|]. split; [exact Hst|].
    intros e' He'. cbn. unfold evaluated in He'. rewrite <- Hi in He'.
    rewrite (deref_evaluate _ _ _ (deref_ok _ _ (proj1 Hg) He)) in He'. congruence.
  - destruct IH as (f0 & IH). exists f0. pose proof (stop_settle _ _ _ _ Hstd Hr IH H1) as Q. eapply stop_excite; [|exact Q|exact H2].
    intros e He. destruct IH as (Hg & _). apply (settle_computed E opt s s1 Hstd Hg H1 e He).
  - destruct IH as (f0 & IH). exists f0. eapply stop_settle; eauto.
Qed.

(** ** Counters *)
Lemma settle_gen opt s s' : std_ok (std E) -> good E s -> settle E opt s = Ok s' -> a_gen s' = a_gen s.
Proof.
  intros Hstd Hg H. apply settle_full in H; auto. destruct H as (? & ? & ? & ? & ? & ? & ? & ? & X). cbv zeta in X. apply X.
Qed.
Lemma excite_gen opt s s' : excite E opt s = Ok s' -> a_gen s' = wrap64 (a_gen s + 1).
Proof. intros H. apply excite_spec in H. destruct H as (? & ? & X). apply X. Qed.
Lemma rounds_gen opt k : std_ok (std E) -> a_maxGeneration opt < 18446744073709551616 -> forall s s0, good E s -> rounds E opt k s s0 ->
  0 <= a_gen s -> a_gen s0 = a_gen s + Z.of_nat k /\ (k = 0%nat \/ a_gen s0 <= a_maxGeneration opt) /\ good E s0.
Proof.
  intros Hstd Hm. induction k as [|k IH]; intros s s0 Hg Hr H0; inversion Hr; subst.
  - repeat split; try lia; try apply Hg.
  - match goal with H : settle E opt s = Ok ?x |- _ => pose proof (settle_gen _ _ _ Hstd Hg H) as G1; pose proof (settle_good E opt s x Hstd Hg H) as Hg1 end.
    match goal with H : excite E opt ?x = Ok ?y |- _ => pose proof (excite_gen _ _ _ H) as G2; pose proof (excite_good E opt x y Hg1 H) as Hg2 end.
    match goal with H : shouldTerminate opt _ = false |- _ => unfold shouldTerminate in H; apply orb_false_elim in H; destruct H as (T & _) end.
    apply Z.leb_gt in T. rewrite wrap64_small in G2 by (unfold two64; lia).
    match goal with H : rounds E opt k _ _ |- _ => destruct (IH _ _ Hg2 H ltac:(lia)) as (A & B & C) end.
    repeat split; try lia; try apply C.
Qed.
Lemma gen_nonneg s : std_ok (std E) -> before_round E s -> 0 <= a_gen s.
Proof.
  intros Hstd H. induction H as [opt s s' H|opt s s1 s2 B IH H1 _ H2|opt s s1 B IH H1 _].
  - apply init_good in H. destruct H as (_ & _ & _ & _ & -> & _). lia.
  - rewrite (excite_gen _ _ _ H2). apply wrap64_range.
  - rewrite (settle_gen _ _ _ Hstd (before_good E s Hstd B) H1). exact IH.
Qed.
(** ** A second run *)
Lemma rerun opt s0 s1 : std_ok (std E) -> good E s0 -> settle E opt s0 = Ok s1 -> shouldTerminate opt s1 = true ->
  0 <= a_stop s1 < 18446744073709551615 -> forall fuel s2, aos_run E opt fuel s1 = Ok s2 ->
  Permutation (electrons s2) (electrons s1) /\ electrons s2 = electrons s1 /\ a_gen s2 = a_gen s1 /\ a_stop s2 = a_stop s1 + 1 /\
  settle E opt s1 = Ok s2.
Proof.
  intros Hstd Hg H T Hst fuel s2 Hr. pose proof (settle_good E opt s0 s1 Hstd Hg H) as Hg1.
  apply run_rounds in Hr. destruct Hr as (k & s' & Hk & Hs & T2 & _).
  assert (X : forall s2', settle E opt s1 = Ok s2' -> electrons s2' = electrons s1 /\ a_gen s2' = a_gen s1 /\ a_stop s2' = a_stop s1 + 1).
  { intros s2' H2. split; [|split].
    - destruct (settle_select E opt s1 s2' Hstd Hg1 H2) as (d & P & S & L & _).
      rewrite (settle_evaluated opt s0 s1 Hstd Hg H) in *.
      destruct (settle_select E opt s0 s1 Hstd Hg H) as (_ & _ & _ & L1 & _).
      assert (Q : length (electrons s2') = length (electrons s1)) by lia.
      clear -S Q. induction S as [|x l l' S IH|x l l' S IH]; auto.
      + pose proof (sublist_length _ _ S). cbn in Q. lia.
      + f_equal. apply IH. cbn in Q. lia.
    - apply (settle_gen opt s1 s2' Hstd Hg1 H2).
    - destruct (settle_best E opt s1 s2' Hstd Hg1 H2) as (best & pre & post & Hes & Ha & _ & _ & Bb & NN & _ & (prev & Hp & ->)).
      rewrite (settle_evaluated opt s0 s1 Hstd Hg H) in *.
      destruct (settle_best E opt s0 s1 Hstd Hg H) as (b0 & pre0 & post0 & Hes0 & Ha0 & _ & _ & Bb0 & NN0 & _).
      apply deref_In in Hp. destruct Hp as (Ip & Hi). 
      assert (prev = b0).
      { eapply (NoDup_map_inj eid (evaluated E s0)); [unfold evaluated; rewrite map_evaluate_id; apply Hg| | |congruence].
        - apply (settle_computed E opt s0 s1 Hstd Hg H prev Ip).
        - rewrite Hes0. apply in_or_app. right. left. reflexivity. }
      subst b0. assert (Ib : In best (electrons s1)) by (rewrite Hes; apply in_or_app; right; left; reflexivity).
      pose proof (Bb prev Ip) as B1. pose proof (Bb0 best (proj2 (settle_computed E opt s0 s1 Hstd Hg H best Ib))) as B2.
      rewrite eb_false in B1, B2 by auto. replace (feq (energy prev) (energy best)) with true; [apply wrap64_small; unfold two64; lia|].
      assert (V : fval (energy prev) = fval (energy best)) by (unfold PSOProofs2.score in *; destruct (greater E); lra).
      symmetry. clear -V NN Ip Ib. apply NN in Ip. apply NN in Ib. revert Ip Ib V. generalize (energy prev) (energy best). intros x y Nx Ny V.
      apply feq_val; auto. }
  inversion Hk; subst.
  - destruct (X s2 Hs) as (A & B & C). repeat split; auto. rewrite A. reflexivity.
  - exfalso. match goal with H : settle E opt s1 = Ok ?y, H' : shouldTerminate opt ?y = false |- _ => destruct (X _ H) as (_ & B & C); rename H' into T' end.
    unfold shouldTerminate in T, T'. rewrite B, C in T'. apply orb_false_elim in T'. destruct T' as (T1 & T1'). apply Z.leb_gt in T1, T1'.
    apply orb_prop in T. destruct T as [T|T]; apply Z.leb_le in T; lia.
Qed.
End P.
