(** Single-objective selection: when it returns at all. *)
From Coq Require Import List Arith ZArith Reals Bool Lia Lra Permutation.
From Flocq Require Import Core BinarySingleNaN.
From Verif Require Import Base Fl FlFacts Rng RandProofs StdOps ListFacts GABase GAOpsProofs SOGA SOGAProofs SOGAProofs2.
Import ListNotations.
Open Scope Z_scope.

Section P.
Context {V : Type} (R : rng_ops) (std : std_ops) (greater : bool) (opt : ga_option) (sp : sel_params).
Notation core' := (core V double nat (G R)).
Notation gene' := (gene V double).
Notation isB := (isBetter greater).
Notation K' := (K opt).

(** The best-individual iterator points into the population. *)
Definition best_valid (c : core') : Prop := In (ext c) (map gid (pop c)).
(** No undefined behaviour and no failed assertion: a result, or a loop that
    needs more steps. *)
Definition defined {A} (r : res A) : Prop := r <> UB /\ r <> Abort.

Lemma defined_ok {A} (a : A) : defined (Ok a). Proof. split; discriminate. Qed.
Lemma defined_fuel {A} : defined (@Fuel A). Proof. split; discriminate. Qed.
Lemma defined_bind {A B} (m : res A) (k : A -> res B) :
  defined m -> (forall a, m = Ok a -> defined (k a)) -> defined (bind m k).
Proof. intros (H1 & H2) H. destruct m; cbn; try contradiction; [apply H; reflexivity|apply defined_fuel]. Qed.

Lemma bestFitness_ok (c : core') : wf c -> best_valid c -> exists f, bestFitness R c = Ok f.
Proof.
  intros (N & _) H. apply in_map_iff in H. destruct H as (x & E & Hx). unfold bestFitness.
  rewrite <- E, lookup_in by assumption. cbn. eauto.
Qed.
Lemma updateFail2_ok (c : core') p g prev : p <> [] ->
  exists c', updateFail2 R greater c p g (findCurrentBestGene greater p) prev = Ok c'.
Proof. intros H. destruct p as [|x p]; [congruence|]. cbn. eauto. Qed.
Lemma updateFail1_ok (c : core') : wf c -> best_valid c ->
  exists c', updateFail1 R greater c (pop c) (gen_rng c) (findCurrentBestGene greater (pop c)) = Ok c'.
Proof.
  intros (N & _) H. unfold updateFail1. pose proof H as H'. apply in_map_iff in H. destruct H as (x & E & Hx).
  rewrite <- E, lookup_in by assumption. cbn [bind]. apply updateFail2_ok. intros C. rewrite C in Hx. contradiction.
Qed.

Lemma finish2_ok (c : core') es0 es g prev : NoDup (map gid (pop c)) ->
  sublist es es0 -> Permutation (map fst es0) (map gid (pop c)) ->
  (length es < length (pop c))%nat -> exists c', finish2 R greater c es g prev = Ok c'.
Proof.
  intros N S P L. unfold finish2, applyErasement.
  destruct (erasure_survivors (pop c) (map fst es0) (map fst es) N) as (p' & E & _ & Lp & _).
  - apply sublist_map, S.
  - exact P.
  - rewrite E. cbn [bind]. apply updateFail2_ok. intros C. subst p'. rewrite map_length in Lp. cbn in Lp. lia.
Qed.

(** ** The wheel *)
Lemma spin_some es sum g : es <> [] -> exists x, spin R es sum g = Ok x.
Proof.
  intros H. unfold spin. destruct (randD_range R d0 sum g) as [r g']. destruct (walk es r) as [[[w t]|] rf]; [eauto|].
  destruct (flt d0 rf); [|eauto]. destruct (rev es) as [|[i w] t] eqn:E; [|eauto].
  exfalso. apply H. rewrite <- (rev_involutive es), E. reflexivity.
Qed.
Lemma spin_loop_defined fuel : forall target es sum g, 0 <= target -> defined (spin_loop R fuel target es sum g).
Proof.
  induction fuel as [|n IH]; intros target es sum g HT; cbn [spin_loop];
    destruct (Z.leb_spec (Z.of_nat (length es)) target); try apply defined_ok; [apply defined_fuel|].
  destruct (spin_some es sum g) as ([[es' sum'] g'] & E); [intros C; subst; cbn in *; lia|].
  rewrite E. cbn [bind]. apply IH, HT.
Qed.
Lemma roulette_loop_defined fuel : forall target es sum g, 0 <= target -> defined (roulette_loop R fuel target es sum g).
Proof.
  induction fuel as [|n IH]; intros target es sum g HT; cbn [roulette_loop];
    destruct (Z.leb_spec (Z.of_nat (length es)) target); try apply defined_ok; [apply defined_fuel|].
  destruct (flt d0 sum).
  - destruct (spin_some es sum g) as ([[es' sum'] g'] & E); [intros C; subst; cbn in *; lia|].
    rewrite E. cbn [bind]. apply IH, HT.
  - destruct (first_zero _ _ _ _) as [es' g']. apply IH, HT.
Qed.
Lemma elite_equal_defined fuel : forall target es g, defined (elite_equal R fuel target es g).
Proof.
  induction fuel as [|n IH]; intros target es g; cbn [elite_equal];
    destruct (Z.leb_spec (Z.of_nat (length es)) target); try apply defined_ok; [apply defined_fuel|].
  destruct (elite_first _ _ _ _) as [es' g']. apply IH.
Qed.

(** Weights that cannot make the running sum overflow. *)
Definition tame (es : list (nat * double)) : Prop :=
  forall e, In e es -> fin (snd e) /\ (Rabs (B2R (snd e)) <= B900)%R.

Lemma tame_sub es es' : sublist es' es -> tame es -> tame es'.
Proof. intros S H e He. apply H. eapply sublist_in; eauto. Qed.

Lemma walk_progress es : forall r, (forall e, In e es -> fin (snd e)) -> es <> [] -> nonnan r ->
  match walk es r with
  | (Some (w, es'), _) => length es = S (length es') /\ exists e, In e es /\ snd e = w
  | (None, rf) => flt d0 rf = true
  end.
Proof.
  induction es as [|e es IH]; intros r HF HN Nr; [congruence|]. cbn [walk].
  assert (Nr' : nonnan (fsub r (snd e))) by (apply fsub_fin_nonnan; [exact Nr|apply HF; left; reflexivity]).
  destruct (fle (fsub r (snd e)) d0) eqn:E.
  - split; [reflexivity|]. exists e. split; [left; reflexivity|reflexivity].
  - assert (P : flt d0 (fsub r (snd e)) = true) by (apply fle_false_lt; [exact Nr'|reflexivity|exact E]).
    destruct es as [|e2 es].
    + cbn [walk]. exact P.
    + specialize (IH (fsub r (snd e)) (fun x Hx => HF x (or_intror Hx)) ltac:(discriminate) Nr').
      destruct (walk (e2 :: es) (fsub r (snd e))) as [[[w t]|] rf].
      * destruct IH as (L & x & Hx & Ex). split; [cbn [length] in *; lia|]. exists x. split; [right; exact Hx|exact Ex].
      * exact IH.
Qed.

(** One turn removes exactly one element, and the sum stays within range. *)
Lemma spin_progress es sum g m : rng_ok R -> tame es -> es <> [] ->
  fin sum -> 0 <= m < 9007199254740992 -> (Rabs (B2R sum) <= IZR m * B900)%R ->
  exists es' sum' g', spin R es sum g = Ok (es', sum', g') /\ sublist es' es /\
    length es = S (length es') /\ fin sum' /\ (Rabs (B2R sum') <= IZR (m + 1) * B900)%R.
Proof.
  intros HR HT HN Fs Hm Hs. pose proof (proj1 HR g) as HD. unfold spin, randD_range, affineD.
  destruct (rand01 R g) as [d g'] eqn:Ed. cbn [fst] in HD. destruct HD as (A & B).
  destruct (unit_draw d A B) as (Fd & Ld).
  pose proof B900_pos as HB.
  assert (HmR : (0 <= IZR m)%R) by (apply IZR_le; lia).
  assert (HmR1 : (IZR (m + 1) = IZR m + 1)%R) by (rewrite plus_IZR; reflexivity).
  destruct (fsub_900 sum d0 m) as (S1 & S2 & _); [lia|exact Fs|reflexivity| |].
  { cbn [B2R d0]. rewrite Rminus_0_r. exact Hs. }
  destruct (fmul_900 (fsub sum d0) d m) as (T1 & T2 & _); [lia|exact S1|exact Fd| |].
  { rewrite Rabs_mult, (Rabs_pos_eq (B2R d)) by lra.
    pose proof (Rabs_pos (B2R (fsub sum d0))). nra. }
  destruct (fadd_900 (fmul (fsub sum d0) d) d0 m) as (U1 & _ & _); [lia|exact T1|reflexivity| |].
  { cbn [B2R d0]. rewrite Rplus_0_r. exact T2. }
  set (r := fadd (fmul (fsub sum d0) d) d0) in *. clearbody r.
  assert (Sum : forall e, In e es -> fin (fsub sum (snd e)) /\ (Rabs (B2R (fsub sum (snd e))) <= IZR (m + 1) * B900)%R).
  { intros e He. destruct (HT e He) as (Fe & Be).
    destruct (fsub_900 sum (snd e) (m + 1)) as (W1 & W2 & _); [lia|exact Fs|exact Fe| |split; assumption].
    rewrite HmR1. eapply Rle_trans; [apply Rabs_triang|]. rewrite Rabs_Ropp. lra. }
  pose proof (walk_progress es r (fun e He => proj1 (HT e He)) HN (fin_nonnan _ _ _ U1)) as W.
  destruct (walk es r) as [[[w t]|] rf] eqn:Ew.
  - destruct W as (L & e & He & <-). apply walk_sub in Ew. destruct (Sum e He) as (Q1 & Q2).
    exists t, (fsub sum (snd e)), g'. split; [reflexivity|]. split; [apply Ew|]. split; [exact L|]. split; assumption.
  - rewrite W. destruct (rev es) as [|[i w] t] eqn:Er.
    { exfalso. apply HN. rewrite <- (rev_involutive es), Er. reflexivity. }
    assert (He : In (i, w) es) by (apply in_rev; rewrite Er; left; reflexivity).
    destruct (Sum _ He) as (Q1 & Q2). cbn [snd] in Q1, Q2.
    exists (removelast es), (fsub sum w), g'. split; [reflexivity|]. split; [apply sublist_removelast|].
    split; [rewrite removelast_length; destruct es; [congruence|cbn; lia]|]. split; assumption.
Qed.

Lemma spin_loop_ok fuel : forall target es sum g m, rng_ok R -> tame es -> 0 <= target ->
  fin sum -> 0 <= m -> m + Z.of_nat (length es) < 9007199254740992 ->
  (Rabs (B2R sum) <= IZR m * B900)%R -> (Z.of_nat (length es) - target <= Z.of_nat fuel) ->
  exists r, spin_loop R fuel target es sum g = Ok r.
Proof.
  induction fuel as [|n IH]; intros target es sum g m HR HT Ht Fs Hm HmL Hs HF; cbn [spin_loop];
    destruct (Z.leb_spec (Z.of_nat (length es)) target) as [L|L]; eauto; [lia|].
  assert (HN : es <> []) by (intros C; subst; cbn in L; lia).
  destruct (spin_progress es sum g m) as (es' & sum' & g' & E & S & Len & Fs' & Hs'); try assumption; [lia|].
  rewrite E. cbn [bind]. eapply (IH target es' sum' g' (m + 1)); try assumption; try lia.
  eapply tame_sub; eauto.
Qed.

(** Sums of tame weights. *)
Lemma sum_tame es : tame es -> Z.of_nat (length es) < 9007199254740992 ->
  fin (sum_of es) /\ (Rabs (B2R (sum_of es)) <= IZR (Z.of_nat (length es)) * B900)%R.
Proof.
  intros HT HL. unfold sum_of.
  assert (G : forall l s k, (forall e, In e l -> fin (snd e) /\ (Rabs (B2R (snd e)) <= B900)%R) -> fin s ->
    0 <= k -> k + Z.of_nat (length l) < 9007199254740992 -> (Rabs (B2R s) <= IZR k * B900)%R ->
    fin (fold_left (fun (s0 : double) (e : nat * double) => fadd s0 (snd e)) l s) /\
    (Rabs (B2R (fold_left (fun (s0 : double) (e : nat * double) => fadd s0 (snd e)) l s)) <= IZR (k + Z.of_nat (length l)) * B900)%R).
  { induction l as [|e l IH]; intros s k Hl Fs Hk HkL Hs; cbn [fold_left length].
    - rewrite Z.add_0_r. split; assumption.
    - replace (k + Z.of_nat (S (length l))) with ((k + 1) + Z.of_nat (length l)) by lia.
      destruct (Hl e (or_introl eq_refl)) as (Fe & Be).
      destruct (fadd_900 s (snd e) (k + 1)) as (A1 & A2 & _); [cbn [length] in *; lia|exact Fs|exact Fe| |].
      { rewrite plus_IZR. eapply Rle_trans; [apply Rabs_triang|]. lra. }
      apply IH; [intros; apply Hl; right; assumption|exact A1|lia|cbn [length] in *; lia|exact A2]. }
  destruct (G es d0 0) as (A & B); [exact HT|reflexivity|lia|lia| |split; assumption].
  cbn [B2R d0]. rewrite Rabs_R0, Rmult_0_l. lra.
Qed.
End P.
