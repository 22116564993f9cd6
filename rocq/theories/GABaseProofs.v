(** Proofs about the model of GABase.hpp. *)
From Coq Require Import List Arith ZArith Bool Lia Permutation.
From Flocq Require Import BinarySingleNaN.
From Verif Require Import Base Fl Rng GABase.
Import ListNotations.
Open Scope Z_scope.

Section P.
Context {V F X : Type} (R : rng_ops) (fs : user_funs V F (G R)) (opt : ga_option).
Notation core' := (core V F X (G R)).
Notation gene' := (gene V F).
Context (junk : F) (hk : hooks V F X (G R)) (rec_on : bool) (vec_max : Z).
Notation es := (evaluate_and_select R fs hk).
Notation brd := (breed R fs opt junk).
Notation loop := (ga_loop R fs opt junk hk rec_on).
Notation runf := (run R fs opt junk hk rec_on vec_max).

(** ** The run loop *)

(** The stop rule of the manual: round number [t] (from 1). *)
Definition stops (t : Z) (c : core') : Prop :=
  maxGenerations opt < t \/ (0 < maxFailTimes opt /\ maxFailTimes opt < fails c).

(** [cs] are the states right after selection of rounds 1, 2, ... when
    starting from [c0]. *)
Fixpoint rounds (c0 : core') (cs : list core') : Prop :=
  match cs with
  | [] => True
  | c :: t => es c0 = Ok c /\ rounds (brd c) t
  end.

(** The rounds up to the last one do not stop, the last one does; rounds are
    numbered from [t]. *)
Fixpoint stops_at_last (t : Z) (cs : list core') : Prop :=
  match cs with
  | [] => False
  | [c] => stops t c
  | c :: rest => ~ stops t c /\ stops_at_last (t + 1) rest
  end.

Definition recorded (cs : list core') (bs : list F) : Prop :=
  Forall2 (fun c b => hk_best hk c = Ok b) cs bs.

Lemma stop_dec t c :
  (maxGenerations opt <? t) || ((0 <? maxFailTimes opt) && (maxFailTimes opt <? fails c)) = true
  <-> stops t c.
Proof.
  unfold stops. rewrite orb_true_iff, andb_true_iff, !Z.ltb_lt. reflexivity.
Qed.

Lemma loop_sound fuel : forall s s',
  0 <= maxGenerations opt < two64 - 1 ->
  0 <= generation s <= maxGenerations opt ->
  loop fuel s = Ok s' ->
  exists cs, rounds (ga_core s) cs /\ stops_at_last (generation s + 1) cs /\
    cs <> [] /\ ga_core s' = last cs (ga_core s) /\
    generation s' = generation s + Z.of_nat (length cs) - 1 /\
    generation s' <= maxGenerations opt /\
    (if rec_on then exists bs, record s' = record s ++ bs /\ recorded cs bs
     else record s' = record s).
Proof.
  induction fuel as [|n IH]; intros s s' HM Hg H; cbn [ga_loop] in H; [discriminate|].
  rewrite (wrap64_small (generation s + 1)) in H by (unfold two64 in *; lia).
  destruct (es (ga_core s)) as [c| | |] eqn:Ec; try discriminate. cbn [bind] in H.
  destruct (if rec_on then _ else _) as [r| | |] eqn:Er in H; try discriminate. cbn [bind] in H.
  assert (Hr : if rec_on then exists b, hk_best hk c = Ok b /\ r = record s ++ [b]
               else r = record s).
  { destruct rec_on.
    - destruct (hk_best hk c) as [b| | |] eqn:Eb; try discriminate. cbn [bind] in Er.
      exists b. split; [reflexivity|congruence].
    - congruence. }
  clear Er.
  destruct (_ || _) eqn:Es in H.
  - apply stop_dec in Es. inversion H; subst s'; clear H. exists [c].
    cbn [rounds stops_at_last last length generation ga_core record].
    rewrite wrap64_small by (unfold two64 in *; lia).
    split; [auto|]. split; [exact Es|]. split; [discriminate|].
    split; [reflexivity|]. split; [lia|]. split; [lia|].
    destruct rec_on.
    + destruct Hr as (b & Hb & ->). exists [b]. split; [reflexivity|]. constructor; [exact Hb|constructor].
    + exact Hr.
  - assert (Ns : ~ stops (generation s + 1) c).
    { intros C. apply stop_dec in C. congruence. }
    assert (generation s + 1 <= maxGenerations opt).
    { unfold stops in Ns. lia. }
    apply IH in H; [|exact HM|cbn; lia].
    cbn [ga_core generation record] in H.
    destruct H as (cs & Hc & Hs & Hne & Hl & Hgen & Hle & Hrec).
    exists (c :: cs). cbn [rounds]. split; [auto|].
    split. { destruct cs as [|c2 cs2]; [congruence|]. cbn [stops_at_last] in *. split; [exact Ns|exact Hs]. }
    split; [discriminate|].
    split. { destruct cs as [|c2 cs2]; [congruence|].
             rewrite Hl. change (last (c :: c2 :: cs2) (ga_core s)) with (last (c2 :: cs2) (ga_core s)).
             clear. revert c2. induction cs2 as [|c3 cs3 IH]; intros c2; [reflexivity|]. exact (IH c3). }
    split. { rewrite Hgen. cbn [length]. lia. }
    split; [exact Hle|].
    destruct rec_on.
    + destruct Hr as (b & Hb & ->). destruct Hrec as (bs & Hbs & Hf).
      exists (b :: bs). split. { rewrite Hbs. rewrite <- app_assoc. reflexivity. }
      constructor; assumption.
    + rewrite Hrec. exact Hr.
Qed.

Lemma loop_complete cs : forall s bs,
  0 <= maxGenerations opt < two64 - 1 ->
  0 <= generation s <= maxGenerations opt ->
  rounds (ga_core s) cs -> stops_at_last (generation s + 1) cs ->
  (rec_on = true -> recorded cs bs) ->
  exists s', loop (length cs) s = Ok s'.
Proof.
  induction cs as [|c cs IH]; intros s bs HM Hg Hc Hs Hb; [contradiction|].
  cbn [rounds] in Hc. destruct Hc as (Ec & Hc).
  cbn [ga_loop length]. rewrite Ec. cbn [bind].
  rewrite (wrap64_small (generation s + 1)) by (unfold two64 in *; lia).
  assert (Hbest : exists r, (if rec_on then do b <- hk_best hk c; Ok (record s ++ [b]) else Ok (record s)) = Ok r).
  { destruct rec_on; [|eauto]. specialize (Hb eq_refl). inversion Hb as [|? b ? bs' H1 H2]; subst.
    rewrite H1. cbn. eauto. }
  destruct Hbest as (r & ->). cbn [bind].
  destruct cs as [|c2 cs2].
  - cbn [stops_at_last] in Hs. apply stop_dec in Hs. rewrite Hs. eauto.
  - cbn [stops_at_last] in Hs. destruct Hs as (Ns & Hs).
    destruct (_ || _) eqn:Es; [apply stop_dec in Es; contradiction|].
    assert (generation s + 1 <= maxGenerations opt) by (unfold stops in Ns; lia).
    apply (IH _ (tl bs)); cbn [ga_core generation]; try assumption; try lia.
    intros E. specialize (Hb E). inversion Hb; subst. assumption.
Qed.

Lemma loop_terminates fuel : forall s,
  (forall c, hk_select hk c <> Fuel) -> (forall c, hk_best hk c <> Fuel) ->
  0 <= maxGenerations opt < two64 - 1 ->
  0 <= generation s <= maxGenerations opt ->
  maxGenerations opt - generation s < Z.of_nat fuel ->
  loop fuel s <> Fuel.
Proof.
  induction fuel as [|n IH]; intros s H1 H2 HM Hg Hf; [lia|].
  cbn [ga_loop]. rewrite (wrap64_small (generation s + 1)) by (unfold two64 in *; lia).
  unfold evaluate_and_select.
  destruct (hk_select hk (computeAllFitness R fs (ga_core s))) as [c| | |] eqn:E; cbn [bind];
    try discriminate; [|exfalso; eapply H1; exact E].
  destruct (if rec_on then _ else _) as [r| | |] eqn:Er; cbn [bind]; try discriminate.
  - destruct (_ || _) eqn:Es; [discriminate|].
    assert (generation s + 1 <= maxGenerations opt).
    { destruct (Z.ltb_spec (maxGenerations opt) (generation s + 1)); [discriminate|lia]. }
    apply IH; cbn [generation]; try assumption; lia.
  - destruct rec_on; [|discriminate]. destruct (hk_best hk c) eqn:Eb; try discriminate.
    exfalso; eapply H2; exact Eb.
Qed.

Lemma loop_wraps fuel : forall s,
  (forall c, exists c', hk_select hk c = Ok c') -> (forall c, exists b, hk_best hk c = Ok b) ->
  maxGenerations opt = two64 - 1 -> maxFailTimes opt = 0 ->
  loop fuel s = Fuel.
Proof.
  induction fuel as [|n IH]; intros s H1 H2 HM HF; [reflexivity|].
  cbn [ga_loop]. unfold evaluate_and_select.
  destruct (H1 (computeAllFitness R fs (ga_core s))) as (c & ->). cbn [bind].
  destruct (H2 c) as (b & Eb).
  replace (if rec_on then _ else _) with (Ok (if rec_on then record s ++ [b] else record s))
    by (destruct rec_on; rewrite ?Eb; reflexivity).
  cbn [bind]. pose proof (wrap64_range (generation s + 1)).
  destruct (Z.ltb_spec (maxGenerations opt) (wrap64 (generation s + 1))); [lia|].
  rewrite HF. cbn [orb andb Z.ltb Z.compare]. apply IH; assumption.
Qed.

(** ** Evaluation *)

Lemma upd_length {A} (l : list A) i a : length (upd l i a) = length l.
Proof. revert i; induction l as [|x l IH]; intros [|i]; cbn; auto. Qed.
Lemma upd_nth {A} (l : list A) i j a :
  nth_error (upd l i a) j = if Nat.eqb i j then match nth_error l j with Some _ => Some a | None => None end
                            else nth_error l j.
Proof.
  revert i j; induction l as [|x l IH]; intros [|i] [|j]; cbn; try reflexivity; try apply IH.
  destruct (Nat.eqb i j); reflexivity.
Qed.

Definition par_inv (p0 : list gene') (s : par) : Prop :=
  length (p_pop s) = length p0 /\ length (progress s) = length p0 /\
  NoDup (log s) /\
  forall i x0, nth_error p0 i = Some x0 ->
    exists x k, nth_error (p_pop s) i = Some x /\ nth_error (progress s) i = Some k /\
      (if gcomp x0 then k = 2%nat /\ x = x0 /\ ~ In i (log s)
       else (k = 0%nat /\ x = x0 /\ ~ In i (log s)) \/
            (k = 1%nat /\ x = mkGene (gid x0) (gvar x0) false (fFun fs (gvar x0)) /\ In i (log s)) \/
            (k = 2%nat /\ x = evaluated R fs x0 /\ In i (log s))).

Lemma par_inv_start p0 : par_inv p0 (par_start p0).
Proof.
  unfold par_inv, par_start; cbn. rewrite map_length. repeat split; try constructor.
  intros i x0 H. exists x0, (task_init x0). rewrite nth_error_map, H. cbn.
  unfold task_init. destruct (gcomp x0).
  - split; [reflexivity|]. split; [reflexivity|]. split; [reflexivity|]. split; [reflexivity|tauto].
  - split; [reflexivity|]. split; [reflexivity|]. left. split; [reflexivity|]. split; [reflexivity|tauto].
Qed.

Lemma par_inv_step p0 s i : par_inv p0 s -> par_inv p0 (par_step R fs s i).
Proof.
  intros (L1 & L2 & ND & H). unfold par_step.
  destruct (nth_error (p_pop s) i) as [x|] eqn:Ex; [|repeat split; assumption].
  destruct (nth_error (progress s) i) as [k|] eqn:Ek; [|repeat split; assumption].
  assert (Hi : (i < length p0)%nat).
  { rewrite <- L1. apply nth_error_Some. congruence. }
  destruct (nth_error p0 i) as [x0|] eqn:E0; [|apply nth_error_None in E0; lia].
  destruct (H i x0 E0) as (x' & k' & Ex' & Ek' & Hc).
  assert (x' = x) by congruence. assert (k' = k) by congruence. subst x' k'.
  destruct k as [|[|k]]; [| |repeat split; assumption].
  - destruct (gcomp x0) eqn:Ec; [destruct Hc as (?&?&?); discriminate|].
    destruct Hc as [(_ & -> & Hn)|[(?&?)|(?&?)]]; try discriminate.
    unfold par_inv; cbn [p_pop progress log]. rewrite !upd_length.
    split; [exact L1|]. split; [exact L2|]. split.
    { apply (Permutation_NoDup (l := i :: log s)); [apply Permutation_cons_append|]. constructor; assumption. }
    intros j y0 Hj. rewrite !upd_nth. destruct (Nat.eqb_spec i j) as [<-|Hij].
    + rewrite Ex, Ek. assert (y0 = x0) by congruence. subst y0. rewrite Ec.
      eexists; eexists; split; [reflexivity|]; split; [reflexivity|]. right; left.
      split; [reflexivity|]. split; [reflexivity|]. apply in_or_app; right; left; reflexivity.
    + destruct (H j y0 Hj) as (y & l & Ey & El & Hy). exists y, l. split; [exact Ey|]. split; [exact El|].
      assert (I : In j (log s ++ [i]) <-> In j (log s)).
      { rewrite in_app_iff. cbn. intuition congruence. }
      destruct (gcomp y0); rewrite I; exact Hy.
  - destruct (gcomp x0) eqn:Ec; [destruct Hc as (?&?&?); discriminate|].
    destruct Hc as [(?&?)|[(_ & -> & Hn)|(?&?)]]; try discriminate.
    unfold par_inv; cbn [p_pop progress log]. rewrite !upd_length.
    split; [exact L1|]. split; [exact L2|]. split; [exact ND|].
    intros j y0 Hj. rewrite !upd_nth. destruct (Nat.eqb_spec i j) as [<-|Hij].
    + rewrite Ex, Ek. assert (y0 = x0) by congruence. subst y0. rewrite Ec.
      eexists; eexists; split; [reflexivity|]; split; [reflexivity|]. right; right.
      split; [reflexivity|]. split; [|exact Hn]. unfold evaluated. rewrite Ec. reflexivity.
    + destruct (H j y0 Hj) as (y & l & Ey & El & Hy). exists y, l. auto.
Qed.

Lemma par_inv_exec p0 events : par_inv p0 (exec R fs p0 events).
Proof.
  unfold exec. assert (H := par_inv_start p0). revert H. generalize (par_start p0).
  induction events as [|e es IH]; intros s H; [exact H|]. cbn. apply IH, par_inv_step, H.
Qed.

(** [done events i]: the task of gene [i] performed both of its writes. *)
Definition finished (p0 : list gene') (s : par (V:=V) (F:=F)) : Prop :=
  forall i k, nth_error (progress s) i = Some k -> k = 2%nat.

Lemma progress_step s i j k :
  nth_error (progress (par_step R fs s i)) j = Some k ->
  exists k0, nth_error (progress s) j = Some k0 /\ (k0 <= k)%nat /\ (i = j -> (nth_error (p_pop s) j <> None) -> (min 2 (S k0) <= k)%nat).
Proof.
  unfold par_step. destruct (nth_error (p_pop s) i) as [x|] eqn:Ex.
  2:{ intros H. exists k. repeat split; [exact H|lia|]. intros -> C. congruence. }
  destruct (nth_error (progress s) i) as [k0|] eqn:Ek.
  2:{ intros H. exists k. repeat split; [exact H|lia|]. intros -> C. congruence. }
  destruct k0 as [|[|k0]]; cbn [progress].
  3:{ intros H. exists k. repeat split; [exact H|lia|]. intros -> C. assert (k = S (S k0)) by congruence. lia. }
  all: rewrite upd_nth; destruct (Nat.eqb_spec i j) as [<-|Hij]; rewrite ?Ek; intros H.
  1: { exists 0%nat. inversion H. repeat split; lia. }
  1: { exists k. repeat split; [exact H|lia|]. intros; congruence. }
  1: { exists 1%nat. inversion H. repeat split; lia. }
  1: { exists k. repeat split; [exact H|lia|]. intros; congruence. }
Qed.

Lemma pop_len_step s i : length (p_pop (par_step R fs s i)) = length (p_pop s).
Proof.
  unfold par_step. destruct (nth_error (p_pop s) i); [|reflexivity].
  destruct (nth_error (progress s) i) as [[|[|k]]|]; cbn; rewrite ?upd_length; reflexivity.
Qed.

Lemma progress_ge events : forall s i k,
  nth_error (progress (fold_left (par_step R fs) events s)) i = Some k ->
  (i < length (p_pop s))%nat ->
  exists k0, nth_error (progress s) i = Some k0 /\
   (min 2 (k0 + count_occ Nat.eq_dec events i) <= k)%nat.
Proof.
  induction events as [|e es IH]; intros s i k H Hi; cbn [fold_left count_occ] in *.
  - exists k. split; [exact H|lia].
  - apply IH in H; [|rewrite pop_len_step; exact Hi]. destruct H as (k1 & H1 & L1).
    apply progress_step in H1. destruct H1 as (k0 & H0 & L0 & S0). exists k0. split; [exact H0|].
    destruct (Nat.eq_dec e i) as [E|E]; [|lia].
    specialize (S0 E). assert (nth_error (p_pop s) i <> None) as N by (apply nth_error_Some; exact Hi).
    specialize (S0 N). lia.
Qed.

Lemma exec_result p0 events :
  (forall i x, nth_error p0 i = Some x -> gcomp x = false -> (2 <= count_occ Nat.eq_dec events i)%nat) ->
  p_pop (exec R fs p0 events) = map (evaluated R fs) p0 /\
  NoDup (log (exec R fs p0 events)) /\
  (forall i, In i (log (exec R fs p0 events)) <-> exists x, nth_error p0 i = Some x /\ gcomp x = false).
Proof.
  intros Hev. destruct (par_inv_exec p0 events) as (L1 & L2 & ND & H).
  assert (Full : forall i x0, nth_error p0 i = Some x0 ->
     nth_error (p_pop (exec R fs p0 events)) i = Some (evaluated R fs x0) /\
     (In i (log (exec R fs p0 events)) <-> gcomp x0 = false)).
  { intros i x0 H0. destruct (H i x0 H0) as (x & k & Ex & Ek & Hc).
    destruct (gcomp x0) eqn:Ec.
    - destruct Hc as (_ & -> & Hn). rewrite Ex. unfold evaluated. rewrite Ec. split; [reflexivity|].
      split; [intros C; contradiction|discriminate].
    - pose proof (Hev i x0 H0 Ec) as Hcnt. unfold exec in Ek.
      apply progress_ge in Ek; [|cbn; apply nth_error_Some; congruence].
      destruct Ek as (k0 & _ & Hk).
      destruct Hc as [(-> & _)|[(-> & _)|(_ & -> & Hl)]]; [lia|lia|].
      rewrite Ex. split; [reflexivity|]. tauto. }
  split; [|split; [exact ND|]].
  - apply nth_error_ext. intros i. rewrite nth_error_map.
    destruct (nth_error p0 i) as [x0|] eqn:E0.
    + destruct (Full i x0 E0) as (-> & _). reflexivity.
    + apply nth_error_None in E0. cbn. apply nth_error_None. lia.
  - intros i. split.
    + intros Hin. destruct (nth_error p0 i) as [x0|] eqn:E0.
      * exists x0. split; [reflexivity|]. apply (Full i x0 E0). exact Hin.
      * exfalso. (* every logged index is in range *)
        clear Full Hev L1 L2 ND H. revert Hin. apply nth_error_None in E0.
        unfold exec. assert (G0 : ~ In i (log (par_start p0))) by (cbn; tauto).
        assert (L0 : length (p_pop (par_start p0)) = length p0) by reflexivity.
        revert G0 L0. generalize (par_start p0).
        induction events as [|e es IH]; intros s G0 L0; [exact G0|]. cbn [fold_left].
        apply IH; [|rewrite pop_len_step; exact L0].
        unfold par_step. destruct (nth_error (p_pop s) e) eqn:Ee; [|exact G0].
        assert (e < length p0)%nat by (rewrite <- L0; apply nth_error_Some; congruence).
        destruct (nth_error (progress s) e) as [[|[|?]]|]; cbn [log]; try exact G0.
        rewrite in_app_iff. cbn. intros [C|[C|[]]]; [contradiction|lia].
    + intros (x & Hx & Hc). apply (Full i x Hx). exact Hc.
Qed.

End P.
