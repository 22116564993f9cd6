(** AOS: nothing fails, whatever the energies stored in the electrons are.
    Used for the solver as an object (AOSObj.v), where functions, box and option
    may change between two runs.  [P]: where the electrons may be; [M]: what the
    means of such positions satisfy. *)
From Coq Require Import List Arith ZArith Reals Bool Lia Lra Permutation Sorted.
From Flocq Require Import Core BinarySingleNaN.
From Verif Require Import Base Fl FlFacts Rng RandProofs GlobalProofs StdOps ListFacts Box BoxProofs AOS AOSSpec AOSProofs AOSProofs2 AOSProofs3 AOSProofs4 AOSProofs5 AOSProofs6.
From Verif Require Import Props_Box.
Import ListNotations.
Open Scope Z_scope.

Section P.
Context {R : rng_ops} (E : env R).
Notation aos' := (aos (G R)).
Notation b := (box E).
Notation eb := (e_better E).
Variable (P M : list double -> Prop) (d : nat).

Definition placed (es : list electron) : Prop := forall e, In e es -> P (estate e).
Definition sound (s : aos') : Prop :=
  NoDup (map eid (electrons s)) /\ (forall e, In e (electrons s) -> (eid e < e_next s)%nat) /\
  (forall e, In e (electrons s) -> ecomp e = true -> nonnan (energy e)) /\ placed (electrons s).

Hypothesis Hstd : std_ok (std E).
Hypothesis HP : forall v, P v -> length v = d.

Section Settle.
Variable opt : aos_option.

Lemma placed_evaluated s : placed (electrons s) -> placed (evaluated E s).
Proof. intros H e He. unfold evaluated in He. apply in_map_iff in He. destruct He as (x & <- & Hx). rewrite evaluate_state. apply H, Hx. Qed.
Lemma nodup_evaluated s : NoDup (map eid (electrons s)) -> NoDup (map eid (evaluated E s)).
Proof. intros N. unfold evaluated. rewrite map_evaluate_id. exact N. Qed.

(** What the first half of a round does. *)
Lemma settle_facts s s' : NoDup (map eid (electrons s)) -> settle E opt s = Ok s' ->
  exists first rest st prev best sorted t ls,
    evaluated E s = first :: rest /\ best = scan_best E first (first :: rest) /\ In best (evaluated E s) /\
    sum_states E (map (fun _ => d0) (estate first)) (first :: rest) = Ok st /\
    deref (evaluated E s) (atomBest s) = Ok prev /\
    (forall e, In e (evaluated E s) -> nonnan (energy e)) /\
    Permutation (evaluated E s) sorted /\ sorted_by (electronLess E) sorted /\ sorted = sort (std E) (electronLess E) (evaluated E s) /\
    t = fst (randIdx2 R 1 (to_int (wrap64 (maxLayerNum opt + 1))) (a_rng s)) /\
    make_layers E t (map eid (firstn (Z.to_nat (electronNum opt)) sorted)) = Ok ls /\
    electrons s' = survivors_of (electronNum opt) sorted (evaluated E s) /\ e_next s' = e_next s /\
    layers s' = map (fun m => mkLayer m [] (junk E) 0) ls /\
    b_state s' = map (fun x => fdiv x (d_of_Z (Z.of_nat (length (first :: rest))))) st /\
    atomBest s' = eid best /\ a_gen s' = a_gen s.
Proof using Hstd.
  intros N H. apply settle_spec in H. destruct H as (s1 & s2 & H1 & H2 & H3).
  apply computeAtom_spec in H1. destruct H1 as (first & rest & st & prev & best & Es & Eb & Ib & Hst & Hp & ->).
  apply record_best_spec in H2. cbn [electrons e_next layers b_state b_energy atomBest a_gen a_stop a_rng a_record] in H2.
  destruct H2 as (R1 & R2 & R3 & R4 & R5 & R6 & R7 & R8 & R9 & R10).
  change (electrons (compute E s)) with (evaluated E s) in *.
  change (atomBest (compute E s)) with (atomBest s) in *. change (a_rng (compute E s)) with (a_rng s) in *.
  change (a_gen (compute E s)) with (a_gen s) in *. change (e_next (compute E s)) with (e_next s) in *.
  apply select_spec in H3; [|exact Hstd|rewrite R1; apply nodup_evaluated, N].
  destruct H3 as (sorted & t & ls & NN & Pm & S & Eso & Et & Hl & ->).
  rewrite R1, ?R2, ?R3, ?R4, ?R5, ?R6, ?R7, ?R8, ?R9 in *.
  exists first, rest, st, prev, best, sorted, t, ls. cbn [electrons e_next layers b_state atomBest a_gen].
  rewrite <- Es. repeat split; auto.
Qed.
Lemma settle_kept s s' : NoDup (map eid (electrons s)) -> settle E opt s = Ok s' ->
  sublist (electrons s') (evaluated E s) /\ 1 <= electronNum opt /\
  length (electrons s') = Nat.min (Z.to_nat (electronNum opt)) (length (electrons s)) /\ e_next s' = e_next s /\ a_gen s' = a_gen s /\
  (forall e, In e (electrons s') -> ecomp e = true /\ nonnan (energy e)).
Proof using Hstd.
  intros N H. destruct (settle_facts s s' N H) as (first & rest & st & prev & best & sorted & t & ls & Hes & _ & _ & _ & _ & NN & Pm & S & _ & _ & Hl & Hel & Hn & _ & _ & _ & Hg).
  pose proof (survivors_perm (electronNum opt) sorted _ (nodup_evaluated s N) Pm) as SP.
  assert (S1 : sublist (electrons s') (evaluated E s)) by (rewrite Hel; apply sublist_filter).
  split; [exact S1|]. split.
  - destruct (Z.leb_spec 1 (electronNum opt)) as [L|L]; [exact L|]. exfalso. replace (Z.to_nat (electronNum opt)) with 0%nat in Hl by lia.
    cbn [firstn map] in Hl. pose proof (make_layers_concat E _ _ _ Hl) as C.
    pose proof (make_layers_spec E _ _ _ Hl) as (bs & n & _ & _ & _ & _ & N1 & N2 & _). apply N2. destruct ls as [|l ls]; [congruence|].
    assert (Q : forall x, In x (l :: ls) -> x = []).
    { intros x Hx. destruct x as [|y x]; [reflexivity|]. assert (I : In y (concat (l :: ls))) by (apply in_concat; eexists; split; [exact Hx|left; reflexivity]).
      rewrite C in I. destruct I. }
    apply Q. clear. revert l. induction ls as [|k ls IH]; intros l; [left; reflexivity|right; apply IH].
  - split.
    + rewrite Hel, (Permutation_length SP), firstn_length, <- (Permutation_length Pm). unfold evaluated. rewrite map_length. reflexivity.
    + split; [exact Hn|]. split; [exact Hg|]. intros e He. pose proof (sublist_in _ _ _ S1 He) as I. split; [|apply NN, I].
      unfold evaluated in I. apply in_map_iff in I. destruct I as (x & <- & _). apply evaluate_comp.
Qed.
(** bestElectron() after it. *)
Lemma settle_top s s' : stable_at_front (std E) -> NoDup (map eid (electrons s)) -> settle E opt s = Ok s' ->
  exists best, bestElectron s' = Ok best /\ In best (electrons s') /\ In best (evaluated E s) /\
    forall y, In y (evaluated E s) -> eb (energy y) (energy best) = false.
Proof using Hstd.
  intros Hst N H. pose proof (settle_kept s s' N H) as (S1 & Hn & _).
  destruct (settle_facts s s' N H) as (first & rest & st & prev & best & sorted & t & ls & Hes & Hb & Ib & _ & _ & NN & Pm & S & Eso & _ & Hl & Hel & _ & _ & _ & Ha & _).
  pose proof NN as NN'. rewrite Hes in NN'. destruct (scan_front E first rest NN') as (pre & post & Hq & B1 & B2). rewrite <- Hb in *.
  assert (Bb : forall y, In y (evaluated E s) -> eb (energy y) (energy best) = false).
  { intros y Hy. assert (Nb := NN _ Ib). assert (Ny := NN _ Hy). rewrite Hes, Hq in Hy. apply in_app_or in Hy. destruct Hy as [Hy|[<-|Hy]]; [|apply eb_irrefl|auto].
    apply B1 in Hy. rewrite eb_iff in Hy by auto. apply eb_false; auto. lra. }
  assert (I : In best (electrons s')).
  { rewrite Hel. apply (Permutation_in _ (Permutation_sym (survivors_perm (electronNum opt) sorted _ (nodup_evaluated s N) Pm))).
    rewrite Hes in Eso. destruct (Hst _ (electronLess E) (first :: rest) best pre post (eless_sw E _ NN') Hq B1 B2) as (r & Hr).
    rewrite Eso, Hr. replace (Z.to_nat (electronNum opt)) with (1 + Z.to_nat (electronNum opt - 1))%nat by lia. left. reflexivity. }
  exists best. split; [|auto]. unfold bestElectron. rewrite Ha. apply deref_ok; [|exact I].
  eapply sublist_NoDup; [apply sublist_map, S1|apply nodup_evaluated, N].
Qed.
Lemma settle_sound s s' : sound s -> settle E opt s = Ok s' -> sound s'.
Proof using Hstd.
  intros (N & L & C & Pl) H. pose proof (settle_kept s s' N H) as (S1 & _ & _ & En & _ & CN). split; [|split; [|split]].
  - eapply sublist_NoDup; [apply sublist_map, S1|apply nodup_evaluated, N].
  - intros e He. rewrite En. pose proof (sublist_in _ _ _ S1 He) as I. unfold evaluated in I. apply in_map_iff in I. destruct I as (x & <- & Hx). rewrite evaluate_id. apply L, Hx.
  - intros e He _. apply CN, He.
  - intros e He. apply (placed_evaluated s Pl). eapply sublist_in; eauto.
Qed.

Hypothesis HF : forall v, P v -> nonnan (fFun E v).
Hypothesis HR : rng_ok R.
Hypothesis Hn : 1 <= maxLayerNum opt < 2147483647.
Lemma count_range g : 1 <= fst (randIdx2 R 1 (to_int (wrap64 (maxLayerNum opt + 1))) g) <= maxLayerNum opt.
Proof using HR Hn. apply layer_count; assumption. Qed.
Definition share_count (s : aos') : Z := Z.min (electronNum opt) (Z.of_nat (length (electrons s))).
Lemma settle_goes s : sound s -> alive s -> 1 <= electronNum opt ->
  (forall t, 1 <= t <= maxLayerNum opt -> layers_fit E t (share_count s)) -> exists s', settle E opt s = Ok s'.
Proof using Hstd HP HF HR Hn.
  intros (N & L & C & Pl) (e0 & He0) Hel Hfit.
  pose proof (placed_evaluated s Pl) as Pl1. pose proof (nodup_evaluated s N) as N1.
  assert (NN : forall x, In x (evaluated E s) -> nonnan (energy x)).
  { intros x Hx. unfold evaluated in Hx. apply in_map_iff in Hx. destruct Hx as (y & <- & Hy). unfold evaluate.
    destruct (ecomp y) eqn:D; [apply C; assumption|cbn [energy]; apply HF, Pl, Hy]. }
  assert (Le : length (evaluated E s) = length (electrons s)) by (unfold evaluated; apply map_length).
  pose proof (deref_evaluate E _ _ _ He0) as D. change (map (evaluate E) (electrons s)) with (evaluated E s) in D.
  unfold settle, computeAtom. change (electrons (compute E s)) with (evaluated E s) in *. change (atomBest (compute E s)) with (atomBest s).
  unfold bestElectron in He0. apply deref_In in He0. destruct He0 as (Ie0 & _).
  destruct (evaluated E s) as [|e t] eqn:Es; [destruct (electrons s); [destruct Ie0|cbn in Le; lia]|].
  destruct (sum_states_total E (e :: t) (map (fun _ => d0) (estate e))) as (st & Hs).
  { intros x Hx. rewrite map_length, (HP _ (Pl1 x Hx)), (HP _ (Pl1 e (or_introl eq_refl))). reflexivity. }
  rewrite Hs. cbn [bind]. rewrite D. cbn [bind].
  set (best := scan_best E e (e :: t)).
  assert (Ib : In best (e :: t)) by (destruct (scan_in E (e :: t) e) as [Q|I]; [unfold best; rewrite Q; left; reflexivity|exact I]).
  unfold record_best. cbn [electrons atomBest]. rewrite (deref_ok _ _ N1 Ib). cbn [bind].
  assert (X : forall rec, exists s', selectAndMakeLayers E opt (mkAOS (e :: t) (e_next (compute E s)) (layers (compute E s))
     (map (fun x => fdiv x (d_of_Z (Z.of_nat (length (e :: t))))) st)
     (fdiv (sum_energy (e :: t)) (d_of_Z (Z.of_nat (length (e :: t))))) (eid best) (a_gen (compute E s))
     (if feq (energy (evaluate E e0)) (energy best) then wrap64 (a_stop (compute E s) + 1) else 0) rec (a_rng (compute E s))) = Ok s').
  { intros rec. unfold selectAndMakeLayers. cbn [electrons].
    destruct (existsb _ (e :: t)) eqn:Ex.
    { exfalso. apply existsb_exists in Ex. destruct Ex as (x & Hx & Nx). specialize (NN x Hx). unfold nonnan in NN. congruence. }
    destruct (proj1 Hstd _ _ _ (eless_sw E _ NN)) as (Pm & _). set (sorted := sort (std E) (electronLess E) (e :: t)) in *.
    pose proof (count_range (a_rng s)) as T. change (a_rng (compute E s)) with (a_rng s). cbn [a_rng].
    destruct (randIdx2 R 1 _ (a_rng s)) as [k g]. cbn [fst] in T.
    assert (Lk : Z.of_nat (length (map eid (firstn (Z.to_nat (electronNum opt)) sorted))) = share_count s).
    { rewrite map_length, firstn_length, <- (Permutation_length Pm). unfold share_count. rewrite <- Le. lia. }
    destruct (make_layers_total E k (map eid (firstn (Z.to_nat (electronNum opt)) sorted))) as (ls & ->); [lia| | |cbn [bind]; eauto].
    - intros Q. rewrite Q in Lk. cbn in Lk. unfold share_count in Lk. destruct (electrons s); [destruct Ie0|cbn [length] in Lk; lia].
    - rewrite Lk. apply Hfit, T. }
  destruct (rec_on E); cbn [bind]; apply X.
Qed.
End Settle.

(** * The second half *)
Section Excite.
Variable opt : aos_option.
Hypothesis Hd : dimD b = Z.of_nat d.
Hypothesis HMa : forall acc es st n, sum_states E acc es = Ok st -> acc = map (fun _ => d0) acc -> placed es -> 1 <= n ->
  M (map (fun x => fdiv x (d_of_Z n)) st).
Hypothesis HMl : forall es l l', computeLayer E es l = Ok l' -> placed es -> M (l_state l').
Hypothesis HC : forall s l li p s', spawn E opt s l li p = Ok s' -> placed (electrons s) -> M (b_state s) -> M (l_state l) ->
  placed (electrons s').
Hypothesis HF : forall v, P v -> nonnan (fFun E v).
Hypothesis HR : rng_ok R.
Hypothesis Hst : stable_at_front (std E).
Hypothesis Hn : 1 <= maxLayerNum opt < 2147483647.
Hypothesis He : 1 <= electronNum opt.
Variable lo : Z.
Hypothesis Hlo : 1 <= lo.
Hypothesis Hfit : forall t n, 1 <= t <= maxLayerNum opt -> lo <= n <= electronNum opt -> layers_fit E t n.

Definition safely (s : aos') : Prop := sound s /\ alive s /\ lo <= share_count opt s.
Definition wide_enough (v : list double) : Prop := length v = d.

Lemma photon_goes s parent l li g : placed (electrons s) -> In parent (electrons s) -> wide_enough (b_state s) -> wide_enough (l_state l) -> alive s ->
  (exists p lb, nth_error (members l) (l_best l) = Some p /\ deref (electrons s) p = Ok lb) ->
  exists r, photon E s parent l li g = Ok r.
Proof using HP Hd HR.
  intros Hb Hp Ds Dl (ab & Hab) (p & lb & Hpb & Hlb). unfold photon.
  assert (Hnn : (if eigen E then length (estate parent) else Z.to_nat (dimD b)) = d).
  { destruct (eigen E); [apply HP, Hb, Hp|rewrite Hd; lia]. }
  rewrite Hnn.
  pose proof (rand_vec_unit HR d g) as (_ & La). destruct (rand_vec _ g) as [alpha g1].
  pose proof (rand_vec_unit HR d g1) as (_ & Lb). destruct (rand_vec _ g1) as [beta g2].
  pose proof (rand_vec_unit HR d g2) as (_ & Lg). destruct (rand_vec _ g2) as [gamma g3]. cbn [fst] in *.
  assert (X : exists step, (if eb (energy parent) (l_energy l) then
                match nth_error (members l) (l_best l) with
                | None => Abort
                | Some p => do lb <- deref (electrons s) p; pull E alpha beta gamma (estate lb) (l_state l)
                end
              else
                do ab <- deref (electrons s) (atomBest s);
                do p <- pull E alpha beta gamma (estate ab) (b_state s);
                Ok (map (fun x => fdiv x (d_of_Z (Z.of_nat li + 1))) p)) = Ok step /\ length step = d).
  { destruct (eb _ _).
    - rewrite Hpb, Hlb. cbn [bind]. apply deref_In in Hlb. destruct Hlb as (Il & _).
      destruct (pull_total E alpha beta gamma (estate lb) (l_state l) _ La Lb Lg (HP _ (Hb _ Il)) Dl) as (q & Hq). exists q. split; [exact Hq|].
      unfold pull in Hq. repeat (apply bind_Ok in Hq; destruct Hq as (? & _ & Hq)). apply (vec_Ok E) in Hq. destruct Hq as (Lq & ->). rewrite zip2_length; assumption.
    - unfold bestElectron in Hab. rewrite Hab. cbn [bind]. apply deref_In in Hab. destruct Hab as (Il & _).
      destruct (pull_total E alpha beta gamma (estate ab) (b_state s) _ La Lb Lg (HP _ (Hb _ Il)) Ds) as (q & Hq). rewrite Hq. cbn [bind].
      eexists. split; [reflexivity|]. rewrite map_length.
      unfold pull in Hq. repeat (apply bind_Ok in Hq; destruct Hq as (? & _ & Hq)). apply (vec_Ok E) in Hq. destruct Hq as (Lq & ->). rewrite zip2_length; assumption. }
  destruct X as (step & -> & Ls). cbn [bind]. pose proof (HP _ (Hb _ Hp)) as Lp. rewrite vec_ok by congruence. cbn [bind].
  unfold applyConstraintD. destruct (Z.eqb_spec (Z.of_nat (length (zip2 fadd (estate parent) step))) (dimD b)) as [_|Q]; [cbn [bind]; eauto|].
  exfalso. apply Q. rewrite zip2_length by congruence. lia.
Qed.
Lemma moves_length x : forall i g, length (fst (eigen_moves E x i g)) = length x /\ length (fst (std_moves E x i g)) = length x.
Proof.
  induction x as [|y t IH]; intros i g; cbn [eigen_moves std_moves]; [split; reflexivity|].
  destruct (eigen_random E g) as [r g1]. destruct (randD_range R _ _ g) as [r' g1'].
  pose proof (proj1 (IH (S i) g1)) as A. pose proof (proj2 (IH (S i) g1')) as B.
  destruct (eigen_moves E t (S i) g1). destruct (std_moves E t (S i) g1'). cbn in *. lia.
Qed.
Lemma non_photon_goes (s : aos') parent g : placed (electrons s) -> In parent (electrons s) -> exists r, non_photon E parent g = Ok r.
Proof using HP Hd.
  intros Hb Hp. unfold non_photon. pose proof (HP _ (Hb _ Hp)) as Lp.
  destruct (moves_length (estate parent) 0 g) as (L1 & L2).
  assert (X : length (fst ((if eigen E then eigen_moves E else std_moves E) (estate parent) 0%nat g)) = length (estate parent)) by (destruct (eigen E); assumption).
  destruct ((if eigen E then eigen_moves E else std_moves E) (estate parent) 0%nat g) as [v g']. cbn [fst] in X.
  unfold applyConstraintD. destruct (Z.eqb_spec (Z.of_nat (length v)) (dimD b)) as [_|Q]; [cbn [bind]; eauto|]. exfalso. lia.
Qed.
Definition prepared (s : aos') : Prop := placed (electrons s) /\ M (b_state s) /\ wide_enough (b_state s) /\ alive s.
Definition layer_prepared (s : aos') (l : layer) : Prop :=
  M (l_state l) /\ wide_enough (l_state l) /\ (exists p lb, nth_error (members l) (l_best l) = Some p /\ deref (electrons s) p = Ok lb) /\
  forall p, In p (members l) -> exists e, deref (electrons s) p = Ok e.
Lemma prepared_grow s s' k : prepared s -> placed (electrons s') -> grows s s' k -> prepared s' /\ forall l, layer_prepared s l -> layer_prepared s' l.
Proof.
  intros (Hb & Mb & Db & (e & Hbe)) Hb' ((new & En & _) & _ & (_ & S2 & _ & S4 & _)). split.
  - split; [exact Hb'|]. rewrite S2. split; [exact Mb|]. split; [exact Db|]. exists e. unfold bestElectron in *. rewrite En, S4. apply deref_app, Hbe.
  - intros l (Ml & D & (p & lb & Hp & Hlb) & A). split; [exact Ml|]. split; [exact D|]. rewrite En. split.
    + exists p, lb. split; [exact Hp|]. apply deref_app, Hlb.
    + intros q Hq. destruct (A q Hq) as (x & Hx). exists x. apply deref_app, Hx.
Qed.
Lemma spawn_goes s l li p : prepared s -> layer_prepared s l -> In p (members l) ->
  exists s', spawn E opt s l li p = Ok s' /\ prepared s' /\ forall l', layer_prepared s l' -> layer_prepared s' l'.
Proof using HP Hd HR HC.
  intros Hr Hl Hp. pose proof Hr as (Hb & Mb & Db & Ha). pose proof Hl as (Ml & Dl & Hbe & Hall).
  destruct (Hall p Hp) as (parent & Hpar). assert (Ip : In parent (electrons s)) by (apply deref_In in Hpar; apply Hpar).
  assert (Q : exists s', spawn E opt s l li p = Ok s').
  { unfold spawn. rewrite Hpar. cbn [bind]. destruct (rand01 R (a_rng s)) as [x g1].
    destruct (fle _ x); [destruct (photon_goes s parent l li g1 Hb Ip Db Dl Ha Hbe) as ([v g2] & ->)|destruct (non_photon_goes s parent g1 Hb Ip) as ([v g2] & ->)]; cbn [bind]; eauto. }
  destruct Q as (s' & Q). exists s'. split; [exact Q|]. eapply prepared_grow; [exact Hr| |eapply spawn_grows, Q].
  eapply HC; eauto.
Qed.
Lemma spawn_layer_goes l li ps : forall s, prepared s -> layer_prepared s l -> (forall p, In p ps -> In p (members l)) ->
  exists s', spawn_layer E opt s l li ps = Ok s' /\ prepared s' /\ forall l', layer_prepared s l' -> layer_prepared s' l'.
Proof using HP Hd HR HC.
  induction ps as [|p ps IH]; intros s Hr Hl Hs; cbn [spawn_layer]; [eauto|].
  destruct (spawn_goes s l li p Hr Hl (Hs p (or_introl eq_refl))) as (s1 & -> & Hr1 & T1). cbn [bind].
  destruct (IH s1 Hr1 (T1 l Hl)) as (s2 & -> & Hr2 & T2); [intros q Hq; apply Hs; right; exact Hq|].
  exists s2. split; [reflexivity|]. split; [exact Hr2|auto].
Qed.
Lemma spawn_layers_goes ls : forall li s, prepared s -> Forall (layer_prepared s) ls -> exists s', spawn_layers E opt s li ls = Ok s' /\ prepared s'.
Proof using HP Hd HR HC.
  induction ls as [|l ls IH]; intros li s Hr Hl; cbn [spawn_layers]; [eauto|].
  destruct (spawn_layer_goes l li (members l) s Hr (Forall_inv Hl) (fun p H => H)) as (s1 & -> & Hr1 & T1). cbn [bind].
  apply IH; [exact Hr1|]. eapply Forall_impl; [|exact (Forall_inv_tail Hl)]. exact T1.
Qed.
Lemma settled_safely s s1 : safely s -> settle E opt s = Ok s1 -> safely s1 /\ share_count opt s1 = share_count opt s /\
  Z.of_nat (length (electrons s1)) = share_count opt s.
Proof using Hstd Hst He HP.
  intros (So & Al & Lc) H. pose proof (settle_kept opt s s1 (proj1 So) H) as (_ & _ & L & _).
  destruct (settle_top opt s s1 Hst (proj1 So) H) as (best & Hb & _).
  assert (Q : Z.of_nat (length (electrons s1)) = share_count opt s) by (rewrite L; unfold share_count; lia).
  assert (Q2 : share_count opt s1 = share_count opt s) by (unfold share_count at 1; rewrite Q; unfold share_count; lia).
  split; [|auto]. split; [eapply settle_sound; eauto|]. split; [exists best; exact Hb|]. rewrite Q2. exact Lc.
Qed.
Lemma excite_goes s s1 : safely s -> settle E opt s = Ok s1 -> exists s2, excite E opt s1 = Ok s2 /\ safely s2.
Proof using Hstd HP Hd HMa HMl HC HF HR Hst Hn He Hlo Hfit.
  intros Hs H. pose proof (settled_safely s s1 Hs H) as ((So1 & Al1 & Lc1) & Sc & Len). destruct Hs as (So & Al & Lc).
  pose proof So1 as (N1 & L1 & C1 & Pl1).
  destruct (settle_facts opt s s1 (proj1 So) H) as (first & rest & st & prev & best & sorted & t & ls & Hes & _ & _ & Hst' & _ & NN & Pm & _ & _ & Et & Hml & Hel & Hnx & Hla & Hbs & _ & Hgen).
  pose proof (placed_evaluated s (proj2 (proj2 (proj2 So)))) as Pl0. rewrite Hes in Pl0.
  assert (Ms : M (b_state s1)).
  { rewrite Hbs. eapply HMa; [exact Hst'|rewrite map_map; reflexivity|exact Pl0|cbn [length]; lia]. }
  assert (Ds : wide_enough (b_state s1)).
  { rewrite Hbs. unfold wide_enough. rewrite map_length. apply sum_states_Ok in Hst'. destruct Hst' as (-> & _). rewrite map_length.
    apply HP, Pl0. left. reflexivity. }
  set (kept := firstn (Z.to_nat (electronNum opt)) sorted) in *.
  pose proof (survivors_perm (electronNum opt) sorted _ (nodup_evaluated s (proj1 So)) Pm) as SP. rewrite <- Hel in SP. fold kept in SP.
  assert (Lk : Z.of_nat (length (map eid kept)) = share_count opt s) by (rewrite map_length, <- (Permutation_length SP); exact Len).
  pose proof (count_range opt HR Hn (a_rng s)) as T. rewrite <- Et in T.
  pose proof (make_layers_concat E _ _ _ Hml) as Hc. destruct (make_layers_nonempty E _ _ _ Hml) as (Q1 & _ & Q0).
  assert (Hmem : map members (layers s1) = ls) by (rewrite Hla, map_map; cbn [members]; apply map_id).
  assert (NE : forall l, In l (layers s1) -> members l <> []).
  { intros l Hin. destruct (In_nth_error _ _ Hin) as (i & Hi). assert (Hi' : nth_error ls i = Some (members l)) by (rewrite <- Hmem; apply map_nth_error, Hi).
    destruct i as [|i]; [|eapply Q1; [|exact Hi']; lia].
    destruct (Hfit t (share_count opt s) T) as (bs & Hbd & _ & C0 & _); [unfold share_count in *; lia|]. rewrite <- Lk in Hbd. destruct bs as [|c bs].
    { exfalso. pose proof (bounds_spec E _ _ _ Hbd) as (_ & Lt). cbn in Lt. lia. }
    eapply (Q0 (c :: bs) c); [exact Hbd|reflexivity|apply C0; reflexivity| |exact Hi']. intros Q. rewrite Q in Lk. cbn in Lk. lia. }
  assert (Mem : forall l p, In l (layers s1) -> In p (members l) -> exists e, deref (electrons s1) p = Ok e).
  { intros l p Hin Hp. assert (I : In p (map eid kept)).
    { rewrite <- Hc, <- Hmem. apply in_concat. exists (members l). split; [apply in_map, Hin|exact Hp]. }
    apply in_map_iff in I. destruct I as (e & <- & Ie). exists e. apply deref_ok; [exact N1|]. eapply Permutation_in; [apply Permutation_sym, SP|exact Ie]. }
  assert (CL : exists ls', mapM (computeLayer E (electrons s1)) (layers s1) = Ok ls').
  { apply mapM_all. intros l Hin. unfold computeLayer.
    destruct (mapM_all (deref (electrons s1)) (members l)) as (ms & Hms); [intros p Hp; apply (Mem l p Hin Hp)|].
    rewrite Hms. cbn [bind]. apply mapM_ok in Hms. destruct ms as [|e tl]; [inversion Hms as [Q|]; symmetry in Q; apply NE in Q; [destruct Q|exact Hin]|].
    assert (I : forall x, In x (e :: tl) -> In x (electrons s1)).
    { intros x Hx. destruct (Forall2_in_r _ _ _ Hms x Hx) as (p & _ & Hp). apply deref_In in Hp. apply Hp. }
    destruct (sum_states_total E tl (estate e)) as (st' & ->); [|cbn [bind]; eauto].
    intros x Hx. rewrite (HP _ (Pl1 _ (I x (or_intror Hx)))), (HP _ (Pl1 _ (I e (or_introl eq_refl)))). reflexivity. }
  destruct CL as (ls' & Hls).
  assert (X : exists s2, excite E opt s1 = Ok s2 /\ placed (electrons s2)).
  { unfold excite, computeLayers. rewrite Hls. cbn [bind]. unfold updateElectrons. cbn [layers].
    set (s1' := mkAOS _ _ ls' _ _ _ _ _ _ _).
    destruct (spawn_layers_goes ls' 0 s1') as (s2 & -> & Pr).
    - split; [exact Pl1|split; [exact Ms|split; [exact Ds|exact Al1]]].
    - apply Forall_forall. intros l' Hin'. apply mapM_ok in Hls. destruct (Forall2_in_r _ _ _ Hls l' Hin') as (l & Hin & Hl').
      split; [eapply HMl; [exact Hl'|exact Pl1]|].
      apply computeLayer_spec in Hl'. destruct Hl' as (e & tl & st' & Hms & Hss & Hmm & Hls' & _ & Hbest).
      assert (I : forall x, In x (e :: tl) -> In x (electrons s1)).
      { intros x Hx. destruct (Forall2_in_r _ _ _ Hms x Hx) as (p & _ & Hp). apply deref_In in Hp. apply Hp. }
      split; [|split].
      + unfold wide_enough. rewrite Hls', map_length. apply sum_states_Ok in Hss. destruct Hss as (-> & _). apply HP, Pl1, I. left. reflexivity.
      + change (exists p lb, nth_error (members l') (l_best l') = Some p /\ deref (electrons s1) p = Ok lb).
        rewrite Hmm, Hbest. pose proof (layer_scan_lt E tl 1 0 e ltac:(lia)) as Lt.
        assert (Lm : length (members l) = length (e :: tl)) by (eapply Forall2_len, Hms). cbn [length] in Lm.
        destruct (nth_error (members l) (layer_scan E 1 0 e tl)) as [p|] eqn:Q; [|apply nth_error_None in Q; lia].
        destruct (Mem l p Hin (nth_error_In _ _ Q)) as (lb & Hlb). exists p, lb. auto.
      + change (forall p, In p (members l') -> exists x, deref (electrons s1) p = Ok x). intros p Hp. rewrite Hmm in Hp. apply (Mem l p Hin Hp).
    - cbn [bind]. eexists. split; [reflexivity|]. apply Pr. }
  destruct X as (s2 & H2 & Pl2). exists s2. split; [exact H2|].
  pose proof (excite_spec E opt s1 s2 H2) as (ls2 & new & _ & _ & En & Hn2 & Hnew & Hcomp & _ & _ & Ab & _).
  split; [|split].
  - split; [|split; [|split; [|exact Pl2]]].
    + rewrite En, map_app, Hn2. apply NoDup_disjoint_app; [exact N1|apply seq_NoDup|].
      intros i I1 I2. apply in_map_iff in I1. destruct I1 as (e & <- & Hin). apply L1 in Hin. apply in_seq in I2. lia.
    + intros e Hin. rewrite Hcomp. rewrite En in Hin. apply in_app_or in Hin. destruct Hin as [Hin|Hin]; [specialize (L1 e Hin); lia|].
      apply (in_map eid) in Hin. rewrite Hn2 in Hin. apply in_seq in Hin. lia.
    + intros e Hin Ce. rewrite En in Hin. apply in_app_or in Hin. destruct Hin as [Hin|Hin]; [auto|]. rewrite Hnew in Ce by exact Hin. discriminate.
  - destruct Al1 as (e & Hbe). exists e. unfold bestElectron in *. rewrite En, Ab. apply deref_app, Hbe.
  - unfold share_count in *. rewrite En, app_length. lia.
Qed.
(** * A whole run *)
Hypothesis Hmax : a_maxGeneration opt < 18446744073709551616.
Lemma run_goes fuel : forall s, safely s -> 0 <= a_gen s -> (Z.to_nat (a_maxGeneration opt - a_gen s) < fuel)%nat ->
  exists s', aos_run E opt fuel s = Ok s'.
Proof using Hstd HP Hd HMa HMl HC HF HR Hst Hn He Hlo Hfit Hmax.
  induction fuel as [|n IH]; intros s Hs H0 Hf; [lia|]. cbn [aos_run].
  destruct (settle_goes opt HF HR Hn s (proj1 Hs) (proj1 (proj2 Hs)) He) as (s1 & H1).
  { intros t Ht. apply Hfit; [exact Ht|]. destruct Hs as (_ & _ & L). unfold share_count in *. lia. }
  rewrite H1. cbn [bind]. destruct (shouldTerminate opt s1) eqn:T; [eauto|]. destruct (excite_goes s s1 Hs H1) as (s2 & H2 & S2). rewrite H2. cbn [bind].
  pose proof (settle_kept opt s s1 (proj1 (proj1 Hs)) H1) as (_ & _ & _ & _ & G1 & _). pose proof (excite_gen E opt s1 s2 H2) as G2.
  unfold shouldTerminate in T. apply orb_false_elim in T. destruct T as (T & _). apply Z.leb_gt in T.
  rewrite wrap64_small in G2 by (unfold two64; lia). apply IH; [exact S2|lia|lia].
Qed.
(** The last state before its last selection, and what holds at the end. *)
Lemma run_ends fuel : forall s s', safely s -> 0 <= a_gen s -> aos_run E opt fuel s = Ok s' ->
  safely s' /\ a_gen s <= a_gen s' /\ (a_gen s' = a_gen s \/ a_gen s' <= a_maxGeneration opt) /\ shouldTerminate opt s' = true /\
  exists s0, safely s0 /\ settle E opt s0 = Ok s'.
Proof using Hstd HP Hd HMa HMl HC HF HR Hst Hn He Hlo Hfit Hmax.
  induction fuel as [|n IH]; intros s s' Hs H0 H; cbn [aos_run] in H; [discriminate H|].
  apply bind_Ok in H. destruct H as (s1 & H1 & H).
  pose proof (settle_kept opt s s1 (proj1 (proj1 Hs)) H1) as (_ & _ & _ & _ & G1 & _).
  destruct (shouldTerminate opt s1) eqn:T.
  - injection H as <-. split; [eapply settled_safely; eauto|]. split; [lia|]. split; [left; exact G1|]. split; [exact T|]. eauto.
  - apply bind_Ok in H. destruct H as (s2 & H2 & H). destruct (excite_goes s s1 Hs H1) as (s2' & H2' & S2). rewrite H2 in H2'. injection H2' as <-.
    pose proof (excite_gen E opt s1 s2 H2) as G2. unfold shouldTerminate in T. apply orb_false_elim in T. destruct T as (T & _). apply Z.leb_gt in T.
    rewrite wrap64_small in G2 by (unfold two64; lia). destruct (IH s2 s' S2 ltac:(lia) H) as (A & B & C & D). split; [exact A|]. split; [lia|].
    split; [destruct C as [C|C]; right; lia|exact D].
Qed.
End Excite.

(** * What a run keeps, with any energies *)
Section Keep.
Variable opt : aos_option.
Lemma excite_ids s s' : NoDup (map eid (electrons s)) -> (forall e, In e (electrons s) -> (eid e < e_next s)%nat) -> excite E opt s = Ok s' ->
  NoDup (map eid (electrons s')) /\ (forall e, In e (electrons s') -> (eid e < e_next s')%nat) /\ (e_next s <= e_next s')%nat /\
  exists new, electrons s' = electrons s ++ new /\ (forall e, In e new -> ecomp e = false /\ (e_next s <= eid e)%nat).
Proof.
  intros N L H. apply excite_spec in H. destruct H as (ls & new & _ & _ & E1 & E2 & E3 & X & _). split; [|split; [|split; [lia|]]].
  - rewrite E1, map_app, E2. apply NoDup_disjoint_app; [exact N|apply seq_NoDup|].
    intros i H1 H2. apply in_map_iff in H1. destruct H1 as (e & <- & He). apply L in He. apply in_seq in H2. lia.
  - intros e He. rewrite X. rewrite E1 in He. apply in_app_or in He. destruct He as [He|He]; [specialize (L e He); lia|].
    apply (in_map eid) in He. rewrite E2 in He. apply in_seq in He. lia.
  - exists new. split; [exact E1|]. intros e He. split; [auto|]. apply (in_map eid) in He. rewrite E2 in He. apply in_seq in He. lia.
Qed.
(** An invariant of single electrons. *)
Lemma run_each (Q : electron -> Prop) :
  (forall e, Q e -> Q (evaluate E e)) ->
  (forall s s' e, NoDup (map eid (electrons s)) -> excite E opt s = Ok s' -> (forall x, In x (electrons s) -> Q x) -> In e (electrons s') -> Q e) ->
  forall fuel s s', NoDup (map eid (electrons s)) -> (forall e, In e (electrons s) -> (eid e < e_next s)%nat) ->
  aos_run E opt fuel s = Ok s' -> (forall e, In e (electrons s) -> Q e) -> forall e, In e (electrons s') -> Q e.
Proof using Hstd.
  intros Qe Qx. induction fuel as [|n IH]; intros s s' N L H Hq; cbn [aos_run] in H; [discriminate H|].
  apply bind_Ok in H. destruct H as (s1 & H1 & H). pose proof (settle_kept opt s s1 N H1) as (S1 & _ & _ & En & _).
  assert (Q1 : forall e, In e (electrons s1) -> Q e).
  { intros e He. pose proof (sublist_in _ _ _ S1 He) as I. unfold evaluated in I. apply in_map_iff in I. destruct I as (x & <- & Hx). auto. }
  assert (N1 : NoDup (map eid (electrons s1))) by (eapply sublist_NoDup; [apply sublist_map, S1|apply nodup_evaluated, N]).
  assert (L1 : forall e, In e (electrons s1) -> (eid e < e_next s1)%nat).
  { intros e He. rewrite En. pose proof (sublist_in _ _ _ S1 He) as I. unfold evaluated in I. apply in_map_iff in I. destruct I as (x & <- & Hx). rewrite evaluate_id. auto. }
  destruct (shouldTerminate opt s1).
  - injection H as <-. exact Q1.
  - apply bind_Ok in H. destruct H as (s2 & H2 & H). destruct (excite_ids s1 s2 N1 L1 H2) as (N2 & L2 & _). eapply IH; [exact N2|exact L2|exact H|].
    intros e He. eapply Qx; [exact N1|exact H2|exact Q1|exact He].
Qed.
(** The best energy known before is not beaten downwards. *)
Lemma run_not_worse : stable_at_front (std E) -> forall fuel s s' e0, NoDup (map eid (electrons s)) -> (forall e, In e (electrons s) -> (eid e < e_next s)%nat) ->
  In e0 (electrons s) -> ecomp e0 = true -> nonnan (energy e0) ->
  aos_run E opt fuel s = Ok s' -> exists best, bestElectron s' = Ok best /\ ecomp best = true /\ In best (electrons s') /\ nonnan (energy best) /\ eb (energy e0) (energy best) = false.
Proof using Hstd.
  intros Hst. induction fuel as [|n IH]; intros s s' e0 N L I0 C0 N0 H; cbn [aos_run] in H; [discriminate H|].
  apply bind_Ok in H. destruct H as (s1 & H1 & H). pose proof (settle_kept opt s s1 N H1) as (S1 & _ & _ & En & _ & CN).
  destruct (settle_top opt s s1 Hst N H1) as (best & Hb & Ib & Ibe & Hbest).
  assert (B0 : eb (energy e0) (energy best) = false) by (apply Hbest, evaluated_in; assumption).
  destruct (CN best Ib) as (Cb & Nb).
  destruct (shouldTerminate opt s1).
  - injection H as <-. exists best. auto.
  - apply bind_Ok in H. destruct H as (s2 & H2 & H).
    assert (N1 : NoDup (map eid (electrons s1))) by (eapply sublist_NoDup; [apply sublist_map, S1|apply nodup_evaluated, N]).
    assert (L1 : forall e, In e (electrons s1) -> (eid e < e_next s1)%nat).
    { intros e He. rewrite En. pose proof (sublist_in _ _ _ S1 He) as I. unfold evaluated in I. apply in_map_iff in I. destruct I as (x & <- & Hx). rewrite evaluate_id. auto. }
    destruct (excite_ids s1 s2 N1 L1 H2) as (N2 & L2 & _ & new & E2 & _).
    destruct (IH s2 s' best N2 L2) as (best' & A1 & A2 & A3 & A4 & A5); auto; [rewrite E2; apply in_or_app; left; exact Ib|].
    exists best'. repeat split; auto. rewrite eb_false in * by auto. lra.
Qed.
End Keep.
End P.
