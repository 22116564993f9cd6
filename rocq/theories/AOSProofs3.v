From Coq Require Import List Arith ZArith Reals Bool Lia Lra Permutation Sorted.
From Flocq Require Import Core BinarySingleNaN.
From Verif Require Import Base Fl FlFacts Rng RandProofs StdOps ListFacts Box AOS AOSSpec AOSProofs AOSProofs2.
From Verif Require PSOProofs2.
Import ListNotations.
Open Scope Z_scope.

Section P.
Context {R : rng_ops} (E : env R).
Notation aos' := (aos (G R)).
Notation sc := (PSOProofs2.score (greater E)).
Notation eb := (e_better E).

(** ** The best electron is the first of the best *)
Lemma scan_first es : forall cur, nonnan (energy cur) -> (forall e, In e es -> nonnan (energy e)) ->
  (scan_best E cur es = cur /\ forall x, In x es -> eb (energy x) (energy cur) = false) \/
  exists pre post, es = pre ++ scan_best E cur es :: post /\ eb (energy (scan_best E cur es)) (energy cur) = true /\
    (forall y, In y pre -> eb (energy (scan_best E cur es)) (energy y) = true) /\
    (forall y, In y post -> eb (energy y) (energy (scan_best E cur es)) = false).
Proof.
  induction es as [|e t IH]; intros cur Nc Ne; cbn [scan_best].
  - left. split; [reflexivity|intros x []].
  - assert (Ne' : nonnan (energy e)) by (apply Ne; left; reflexivity).
    assert (Nt : forall x, In x t -> nonnan (energy x)) by (intros x Hx; apply Ne; right; exact Hx).
    destruct (eb (energy e) (energy cur)) eqn:B.
    + destruct (IH e Ne' Nt) as [(-> & H)|(pre & post & Ht & Hb & Hp & Hq)]; right.
      * exists [], t. split; [reflexivity|]. split; [exact B|]. split; [intros y []|exact H].
      * set (r := scan_best E e t) in *. assert (Nr : nonnan (energy r)) by (apply Nt; rewrite Ht; apply in_or_app; right; left; reflexivity).
        exists (e :: pre), post. split; [rewrite Ht at 1; reflexivity|]. split; [|split; [|exact Hq]].
        -- rewrite eb_iff in * by auto. lra.
        -- intros y [<-|Hy]; auto.
    + destruct (IH cur Nc Nt) as [(-> & H)|(pre & post & Ht & Hb & Hp & Hq)].
      * left. split; [reflexivity|]. intros x [<-|Hx]; auto.
      * right. set (r := scan_best E cur t) in *. assert (Nr : nonnan (energy r)) by (apply Nt; rewrite Ht; apply in_or_app; right; left; reflexivity).
        exists (e :: pre), post. split; [rewrite Ht at 1; reflexivity|]. split; [exact Hb|]. split; [|exact Hq].
        intros y [<-|Hy]; [|auto]. rewrite eb_false in B by auto. rewrite eb_iff in * by auto. lra.
Qed.
Lemma scan_front first rest : (forall e, In e (first :: rest) -> nonnan (energy e)) ->
  let r := scan_best E first (first :: rest) in
  exists pre post, first :: rest = pre ++ r :: post /\
    (forall y, In y pre -> eb (energy r) (energy y) = true) /\ (forall y, In y post -> eb (energy y) (energy r) = false).
Proof.
  intros NN. cbv zeta. destruct (scan_first (first :: rest) first (NN _ (or_introl eq_refl)) NN) as [(-> & H)|(pre & post & H1 & _ & H2 & H3)].
  - exists [], rest. split; [reflexivity|]. split; [intros y []|]. intros y Hy. apply H. right. exact Hy.
  - exists pre, post. auto.
Qed.
(** ** After the first half of a round *)
Lemma kept_nonempty opt s s' : std_ok (std E) -> good E s -> settle E opt s = Ok s' ->
  1 <= electronNum opt /\ electrons s' <> [].
Proof.
  intros Hstd Hg H. apply settle_full in H; auto. destruct H as (first & rest & st & prev & best & sorted & t & ls & H). cbv zeta in H.
  destruct H as (Hes & _ & _ & _ & _ & _ & _ & P & _ & _ & _ & Hl & Hel & _).
  pose proof (make_layers_spec E _ _ _ Hl) as (bs & n & _ & _ & _ & _ & N1 & N2 & _). pose proof (make_layers_concat E _ _ _ Hl) as C.
  assert (NE : firstn (Z.to_nat (electronNum opt)) sorted <> []).
  { intros Z. rewrite Z in C. cbn in C. apply N2. destruct ls as [|l ls]; [congruence|].
    assert (Q : forall x, In x (l :: ls) -> x = []).
    { intros x Hx. destruct x as [|y x]; [reflexivity|]. assert (In y (concat (l :: ls))) by (apply in_concat; eexists; split; [exact Hx|left; reflexivity]).
      rewrite C in H. destruct H. }
    apply Q. clear. revert l. induction ls as [|k ls IH]; intros l; [left; reflexivity|right; apply IH]. }
  assert (1 <= electronNum opt).
  { destruct (Z.leb_spec 1 (electronNum opt)); [assumption|]. exfalso. apply NE. replace (Z.to_nat (electronNum opt)) with 0%nat by lia. reflexivity. }
  split; [assumption|]. rewrite Hel. intros Z.
  pose proof (survivors_perm (electronNum opt) sorted (map (evaluate E) (electrons s))) as SP.
  assert (N : NoDup (map eid (map (evaluate E) (electrons s)))) by (rewrite map_evaluate_id; apply Hg).
  specialize (SP N P). rewrite Z in SP. apply Permutation_nil in SP. congruence.
Qed.
Lemma survivors_gone n sorted es : NoDup (map eid es) -> Permutation es sorted ->
  Permutation es (survivors_of n sorted es ++ skipn (Z.to_nat n) sorted).
Proof.
  intros N P. rewrite (survivors_perm n sorted es N P), firstn_skipn. exact P.
Qed.
Lemma settle_select opt s s' : std_ok (std E) -> good E s -> settle E opt s = Ok s' ->
  exists dropped, Permutation (evaluated E s) (electrons s' ++ dropped) /\ sublist (electrons s') (evaluated E s) /\
    length (electrons s') = Nat.min (Z.to_nat (electronNum opt)) (length (electrons s)) /\
    none_better E (electrons s') dropped.
Proof.
  intros Hstd Hg H. apply settle_full in H; auto. destruct H as (first & rest & st & prev & best & sorted & t & ls & H). cbv zeta in H.
  fold (evaluated E s) in H. destruct H as (Hes & _ & _ & _ & _ & NN & _ & P & S & _ & _ & _ & Hel & _).
  assert (N : NoDup (map eid (evaluated E s))) by (unfold evaluated; rewrite map_evaluate_id; apply Hg).
  exists (skipn (Z.to_nat (electronNum opt)) sorted). rewrite Hel. split; [apply survivors_gone; assumption|]. split; [apply sublist_filter|].
  pose proof (survivors_perm (electronNum opt) sorted (evaluated E s) N P) as SP. split.
  - rewrite (Permutation_length SP), firstn_length, <- (Permutation_length P). unfold evaluated. rewrite map_length. reflexivity.
  - intros x y Hx Hy. apply (Permutation_in _ SP) in Hx. rewrite <- (firstn_skipn (Z.to_nat (electronNum opt)) sorted) in S.
    apply sorted_app in S. destruct S as (_ & _ & S). apply (S x y Hx Hy).
Qed.
Lemma settle_best opt s s' : std_ok (std E) -> good E s -> settle E opt s = Ok s' ->
  exists best pre post, evaluated E s = pre ++ best :: post /\ atomBest s' = eid best /\
    (forall y, In y pre -> eb (energy best) (energy y) = true) /\ (forall y, In y post -> eb (energy y) (energy best) = false) /\
    (forall y, In y (evaluated E s) -> eb (energy y) (energy best) = false) /\
    (forall e, In e (evaluated E s) -> nonnan (energy e)) /\
    a_record s' = (if rec_on E then a_record s ++ [energy best] else a_record s) /\
    (exists prev, deref (evaluated E s) (atomBest s) = Ok prev /\
       a_stop s' = (if feq (energy prev) (energy best) then wrap64 (a_stop s + 1) else 0)).
Proof.
  intros Hstd Hg H. apply settle_full in H; auto. destruct H as (first & rest & st & prev & best & sorted & t & ls & H). cbv zeta in H.
  fold (evaluated E s) in H.
  destruct H as (Hes & Hb & Ib & _ & Hp & NN & _ & P & S & _ & _ & _ & _ & _ & _ & _ & _ & Ha & _ & Hst & Hr & _).
  rewrite Hes in *. destruct (scan_front first rest NN) as (pre & post & Hq & B1 & B2). rewrite <- Hb in *.
  exists best, pre, post. split; [exact Hq|]. split; [exact Ha|]. split; [exact B1|]. split; [exact B2|]. split; [|split; [exact NN|split; [exact Hr|eauto]]].
  intros y Hy. assert (Nb := NN _ Ib). assert (Ny := NN _ Hy). rewrite Hq in Hy. apply in_app_or in Hy. destruct Hy as [Hy|[<-|Hy]]; [|apply eb_irrefl|auto].
  apply B1 in Hy. rewrite eb_iff in Hy by auto. apply eb_false; auto. lra.
Qed.
(** Who is at the front of the sorted electrons, survives. *)
Lemma kept_front opt s s' : std_ok (std E) -> good E s -> settle E opt s = Ok s' ->
  exists h, In h (electrons s') /\ In h (evaluated E s) /\ forall y, In y (evaluated E s) -> eb (energy y) (energy h) = false.
Proof.
  intros Hstd Hg H. pose proof (kept_nonempty opt s s' Hstd Hg H) as (Hn & _).
  apply settle_full in H; auto. destruct H as (first & rest & st & prev & best & sorted & t & ls & H). cbv zeta in H.
  fold (evaluated E s) in H. destruct H as (Hes & _ & _ & _ & _ & NN & _ & P & S & _ & _ & _ & Hel & _).
  assert (N : NoDup (map eid (evaluated E s))) by (unfold evaluated; rewrite map_evaluate_id; apply Hg).
  pose proof (survivors_perm (electronNum opt) sorted (evaluated E s) N P) as SP.
  destruct sorted as [|h sorted]; [rewrite Hes in P; apply Permutation_sym, Permutation_nil in P; discriminate|].
  exists h. split; [|split].
  - rewrite Hel. apply (Permutation_in _ (Permutation_sym SP)). replace (Z.to_nat (electronNum opt)) with (1 + Z.to_nat (electronNum opt - 1))%nat by lia.
    left. reflexivity.
  - apply (Permutation_in _ (Permutation_sym P)). left. reflexivity.
  - intros y Hy. apply (Permutation_in _ P) in Hy. inversion S as [|? ? _ F]; subst. rewrite Forall_forall in F.
    destruct Hy as [<-|Hy]; [apply eb_irrefl|]. apply (F y Hy).
Qed.
Lemma evaluated_in e s : In e (electrons s) -> ecomp e = true -> In e (evaluated E s).
Proof. intros H C. unfold evaluated. rewrite <- (evaluate_done E e C). apply in_map, H. Qed.
Lemma settle_computed opt s s' : std_ok (std E) -> good E s -> settle E opt s = Ok s' -> forall e, In e (electrons s') -> ecomp e = true /\ In e (evaluated E s).
Proof.
  intros Hstd Hg H e He. destruct (settle_select opt s s' Hstd Hg H) as (d & _ & S & _).
  pose proof (sublist_in _ _ _ S He) as I. split; [|exact I]. unfold evaluated in I. apply in_map_iff in I. destruct I as (x & <- & _). apply evaluate_comp.
Qed.

(** ** The best so far *)
Definition floor (F : double -> Prop) (s : aos') : Prop :=
  forall r, F r -> nonnan r /\ exists e, In e (electrons s) /\ ecomp e = true /\ nonnan (energy e) /\ eb r (energy e) = false.
Lemma floor_settle F opt s s' : std_ok (std E) -> good E s -> floor F s -> settle E opt s = Ok s' ->
  floor F s' /\ forall r e, F r -> bestElectron s' = Ok e -> eb r (energy e) = false.
Proof.
  intros Hstd Hg Hf H. destruct (kept_front opt s s' Hstd Hg H) as (h & Hh & Ih & Bh).
  destruct (settle_best opt s s' Hstd Hg H) as (best & pre & post & Hes & Ha & _ & _ & Bb & NN & _).
  assert (Key : forall r b, F r -> nonnan (energy b) -> (forall y, In y (evaluated E s) -> eb (energy y) (energy b) = false) -> eb r (energy b) = false).
  { intros r b Hr Nb B. destruct (Hf r Hr) as (Nr & e & He & Ce & Ne & Be). specialize (B e (evaluated_in _ _ He Ce)).
    rewrite eb_false in * by auto. lra. }
  split.
  - intros r Hr. destruct (Hf r Hr) as (Nr & _). split; [exact Nr|]. exists h. split; [exact Hh|].
    split; [eapply settle_computed; eauto|]. split; [auto|]. apply Key; auto.
  - intros r e Hr He. apply deref_In in He. destruct He as (He & Hi). assert (e = best).
    { eapply (NoDup_map_inj eid (evaluated E s)); [unfold evaluated; rewrite map_evaluate_id; apply Hg| | |congruence].
      - eapply settle_computed; eauto.
      - rewrite Hes. apply in_or_app. right. left. reflexivity. }
    subst e. apply Key; auto. apply NN. rewrite Hes. apply in_or_app. right. left. reflexivity.
Qed.
Lemma floor_excite F opt s s' : floor F s -> excite E opt s = Ok s' -> floor F s'.
Proof.
  intros Hf H r Hr. destruct (Hf r Hr) as (Nr & e & He & Ce). split; [exact Nr|]. exists e. split; [|exact Ce].
  apply excite_spec in H. destruct H as (ls & new & _ & _ & -> & _). apply in_or_app. left. exact He.
Qed.
Lemma floor_run F opt fuel s s' : std_ok (std E) -> good E s -> floor F s -> aos_run E opt fuel s = Ok s' ->
  floor F s' /\ forall r e, F r -> bestElectron s' = Ok e -> eb r (energy e) = false.
Proof.
  intros Hstd Hg Hf H. apply (run_ind E opt (fun s => good E s /\ floor F s)
    (fun s => good E s /\ floor F s /\ forall r e, F r -> bestElectron s = Ok e -> eb r (energy e) = false)) in H; [apply H| | |auto].
  - intros a b (Ga & Fa) Hs. split; [eapply settle_good; eauto|]. eapply floor_settle; eauto.
  - intros a b (Ga & Fa & _) _ Hx. split; [eapply excite_good; eauto|eapply floor_excite; eauto].
Qed.
Lemma floor_weaken (F F' : double -> Prop) s : (forall r, F' r -> F r) -> floor F s -> floor F' s.
Proof. intros H Hf r Hr. apply Hf, H, Hr. Qed.
(** The record. *)
Definition rec_inv (s : aos') : Prop :=
  good E s /\ floor (fun r => In r (a_record s)) s /\
  forall i j x y, (i <= j)%nat -> nth_error (a_record s) i = Some x -> nth_error (a_record s) j = Some y -> eb x y = false.
Lemma rec_settle opt s s' : std_ok (std E) -> rec_inv s -> settle E opt s = Ok s' ->
  rec_inv s' /\ (rec_on E = true -> exists best, a_record s' = a_record s ++ [energy best] /\ In best (evaluated E s) /\
     atomBest s' = eid best /\ forall y, In y (evaluated E s) -> eb (energy y) (energy best) = false).
Proof.
  intros Hstd (Hg & Hf & Hm) H. pose proof (settle_good E opt s s' Hstd Hg H) as Hg'.
  destruct (floor_settle _ opt s s' Hstd Hg Hf H) as (Hf' & _).
  destruct (settle_best opt s s' Hstd Hg H) as (best & pre & post & Hes & Ha & _ & _ & Bb & NN & Hr & _).
  assert (Ib : In best (evaluated E s)) by (rewrite Hes; apply in_or_app; right; left; reflexivity).
  destruct (kept_front opt s s' Hstd Hg H) as (h & Hh & Ih & Bh).
  destruct (rec_on E).
  - split; [|intros _; exists best; auto]. split; [exact Hg'|]. rewrite Hr. split.
    + intros r Hi. apply in_app_or in Hi. destruct Hi as [Hi|[<-|[]]]; [apply Hf', Hi|]. split; [auto|].
      exists h. split; [exact Hh|]. split; [apply (settle_computed opt s s' Hstd Hg H h Hh)|]. split; auto.
    + intros i j x y L Hi Hj.
      assert (Hle : forall x, In x (a_record s) -> eb x (energy best) = false).
      { intros r Hr'. destruct (Hf r Hr') as (Nr & e & He & Ce & Ne & Be). specialize (Bb e (evaluated_in _ _ He Ce)).
        rewrite eb_false in * by auto. lra. }
      assert (Li : (i < length (a_record s ++ [energy best]))%nat) by (apply nth_error_Some; congruence).
      assert (Lj : (j < length (a_record s ++ [energy best]))%nat) by (apply nth_error_Some; congruence).
      rewrite app_length in Li, Lj. cbn in Li, Lj.
      destruct (Nat.eq_dec j (length (a_record s))) as [->|Nj].
      * rewrite nth_error_app2, Nat.sub_diag in Hj by lia. injection Hj as <-.
        destruct (Nat.eq_dec i (length (a_record s))) as [->|Ni].
        -- rewrite nth_error_app2, Nat.sub_diag in Hi by lia. injection Hi as <-. apply eb_irrefl.
        -- rewrite nth_error_app1 in Hi by lia. apply Hle. eapply nth_error_In, Hi.
      * rewrite nth_error_app1 in Hi, Hj by lia. exact (Hm i j x y L Hi Hj).
  - split; [|discriminate]. split; [exact Hg'|]. rewrite Hr. split; [exact Hf'|exact Hm].
Qed.
Lemma rec_before s : std_ok (std E) -> before_round E s -> rec_inv s.
Proof.
  intros Hstd. induction 1 as [opt s s' H|opt s s1 s2 _ IH H1 _ H2|opt s s1 _ IH H1 _].
  - apply init_good in H. destruct H as (Hg & _ & _ & _ & _ & _ & Hr & _). split; [exact Hg|]. rewrite Hr. split; [intros r []|].
    intros [|i] j x y _ Hi; discriminate.
  - destruct (rec_settle opt s s1 Hstd IH H1) as ((Hg & Hf & Hm) & _). split; [eapply excite_good; eauto|].
    pose proof (excite_spec E opt s1 s2 H2) as (ls & new & X). repeat match type of X with _ /\ _ => destruct X as (_ & X) end. rewrite X.
    split; [eapply floor_excite; eauto|exact Hm].
  - eapply rec_settle; eauto.
Qed.

(** ** Survival of the best electron *)
Lemma survives opt s s' best : std_ok (std E) -> good E s -> settle E opt s = Ok s' ->
  In best (evaluated E s) -> atomBest s' = eid best ->
  (exists sorted, Permutation (evaluated E s) sorted /\ electrons s' = survivors_of (electronNum opt) sorted (evaluated E s) /\
     In best (firstn (Z.to_nat (electronNum opt)) sorted)) -> bestElectron s' = Ok best.
Proof.
  intros Hstd Hg H Ib Ha (sorted & P & Hel & I). unfold bestElectron. rewrite Ha. apply deref_ok.
  - apply (settle_good E opt s s' Hstd Hg H).
  - rewrite Hel. assert (N : NoDup (map eid (evaluated E s))) by (unfold evaluated; rewrite map_evaluate_id; apply Hg).
    apply (Permutation_in _ (Permutation_sym (survivors_perm (electronNum opt) sorted _ N P))). exact I.
Qed.
Lemma filter_len_perm {A} (f : A -> bool) l l' : Permutation l l' -> length (filter f l) = length (filter f l').
Proof.
  induction 1 as [|x l l' _ IH|x y l|l l' l'' _ IH1 _ IH2]; cbn; auto; [destruct (f x); cbn; lia|destruct (f x), (f y); reflexivity|lia].
Qed.
Lemma firstn_or_rank {A} (f : A -> bool) n : forall (l : list A) x, In x l -> f x = true ->
  (forall i j a b, (i <= j)%nat -> nth_error l i = Some a -> nth_error l j = Some b -> b = x -> f a = true) ->
  (length (filter f l) <= n)%nat -> In x (firstn n l).
Proof.
  induction n as [|n IH]; intros l x Hx Fx Hm Hl.
  - assert (In x (filter f l)) by (apply filter_In; auto). destruct (filter f l); [contradiction|cbn in Hl; lia].
  - destruct l as [|y l]; [contradiction|]. cbn. destruct Hx as [->|Hx]; [auto|]. right. apply IH; auto.
    + intros i j a b L Hi Hj Hb. apply (Hm (S i) (S j) a b); auto. lia.
    + destruct (In_nth_error _ _ Hx) as (j & Hj). assert (f y = true) by (apply (Hm 0%nat (S j) y x); auto; lia).
      cbn in Hl. rewrite H in Hl. cbn in Hl. lia.
Qed.
Lemma best_survives_ties opt s s' best : std_ok (std E) -> good E s -> settle E opt s = Ok s' ->
  In best (evaluated E s) -> atomBest s' = eid best -> (ties E best (evaluated E s) <= Z.to_nat (electronNum opt))%nat ->
  bestElectron s' = Ok best.
Proof.
  intros Hstd Hg H Ib Ha Ht. eapply survives; eauto.
  apply settle_full in H; auto. destruct H as (first & rest & st & prev & best' & sorted & t & ls & H). cbv zeta in H.
  fold (evaluated E s) in H. destruct H as (Hes & _ & _ & _ & _ & NN & _ & P & S & _ & _ & _ & Hel & _).
  exists sorted. split; [exact P|]. split; [exact Hel|].
  apply (firstn_or_rank (fun x => negb (eb (energy best) (energy x)))).
  - eapply Permutation_in; [exact P|exact Ib].
  - rewrite eb_irrefl. reflexivity.
  - intros i j a b L Hi Hj ->. rewrite (sorted_by_nth E sorted S i j a best L Hi Hj). reflexivity.
  - rewrite <- (filter_len_perm _ _ _ P). exact Ht.
Qed.
Lemma best_survives_stable opt s s' : std_ok (std E) -> stable_at_front (std E) -> good E s -> settle E opt s = Ok s' ->
  exists best, bestElectron s' = Ok best.
Proof.
  intros Hstd Hst Hg H. pose proof (kept_nonempty opt s s' Hstd Hg H) as (Hn & _).
  destruct (settle_best opt s s' Hstd Hg H) as (best & pre & post & Hes & Ha & B1 & B2 & Bb & NN & _).
  exists best. eapply survives; eauto; [rewrite Hes; apply in_or_app; right; left; reflexivity|].
  apply settle_full in H; auto. destruct H as (first & rest & st & prev & best' & sorted & t & ls & H). cbv zeta in H.
  fold (evaluated E s) in H. destruct H as (_ & _ & _ & _ & _ & _ & _ & P & S & Eso & _ & _ & Hel & _).
  exists sorted. split; [exact P|]. split; [exact Hel|].
  destruct (Hst _ (electronLess E) (evaluated E s) best pre post (eless_sw E _ NN) Hes B1 B2) as (r & Hr).
  rewrite Eso, Hr. replace (Z.to_nat (electronNum opt)) with (1 + Z.to_nat (electronNum opt - 1))%nat by lia. left. reflexivity.
Qed.
(** Insertion sort is stable. *)
End P.
