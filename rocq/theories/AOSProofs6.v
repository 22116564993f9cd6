(** AOS: the layers; nothing fails. *)
From Coq Require Import List Arith ZArith Reals Bool Lia Lra Permutation Sorted.
From Flocq Require Import Core BinarySingleNaN.
From Verif Require Import Base Fl FlFacts Rng RandProofs GlobalProofs StdOps ListFacts Box BoxProofs AOS AOSSpec AOSProofs AOSProofs2 AOSProofs3 AOSProofs4 AOSProofs5.
From Verif Require Import Props_Box.
Import ListNotations.
Open Scope Z_scope.

Section P.
Context {R : rng_ops} (E : env R).
Notation aos' := (aos (G R)).
Notation b := (box E).
Notation eb := (e_better E).

(** ** The layers after the first half of a round *)
Lemma settle_layers opt s s' : std_ok (std E) -> good E s -> settle E opt s = Ok s' ->
  exists kept t, t = fst (randIdx2 R 1 (to_int (wrap64 (maxLayerNum opt + 1))) (a_rng s)) /\
    Permutation kept (electrons s') /\ energy_order E kept /\
    make_layers E t (map eid kept) = Ok (map members (layers s')).
Proof.
  intros Hstd Hg H. apply settle_full in H; auto. destruct H as (first & rest & st & prev & best & sorted & t & ls & H). cbv zeta in H.
  fold (evaluated E s) in H. destruct H as (Hes & _ & _ & _ & _ & NN & _ & P & S & _ & Ht & Hl & Hel & _ & Hla & _).
  assert (N : NoDup (map eid (evaluated E s))) by (unfold evaluated; rewrite map_evaluate_id; apply Hg).
  exists (firstn (Z.to_nat (electronNum opt)) sorted), t. split; [exact Ht|]. split; [|split].
  - rewrite Hel. symmetry. apply survivors_perm; assumption.
  - apply sorted_by_nth. rewrite <- (firstn_skipn (Z.to_nat (electronNum opt)) sorted) in S. apply sorted_app in S. apply S.
  - rewrite Hla, map_map. cbn [members]. rewrite map_id. exact Hl.
Qed.
(** ** The best electron of a layer *)
Lemma layer_scan_best es : eigen E = false -> forall idx best cur pre all,
  all = pre ++ es -> idx = length pre -> nth_error pre best = Some cur ->
  (forall x, In x all -> nonnan (energy x)) -> (forall x, In x pre -> eb (energy x) (energy cur) = false) ->
  exists e, nth_error all (layer_scan E idx best cur es) = Some e /\ forall x, In x all -> eb (energy x) (energy e) = false.
Proof.
  intros He. induction es as [|e t IH]; intros idx best cur pre all -> -> Hc NN Hb; cbn [layer_scan].
  - rewrite app_nil_r. exists cur. auto.
  - unfold layer_better. rewrite He.
    assert (Ne : nonnan (energy e)) by (apply NN, in_or_app; right; left; reflexivity).
    assert (Nc : nonnan (energy cur)) by (apply NN, in_or_app; left; eapply nth_error_In, Hc).
    destruct (eb (energy e) (energy cur)) eqn:B.
    + apply (IH _ _ _ (pre ++ [e])); [rewrite <- app_assoc; reflexivity|rewrite app_length; cbn; lia| |exact NN|].
      * rewrite nth_error_app2, Nat.sub_diag by lia. reflexivity.
      * intros x Hx. apply in_app_or in Hx. destruct Hx as [Hx|[<-|[]]]; [|apply eb_irrefl].
        specialize (Hb x Hx). assert (nonnan (energy x)) by (apply NN, in_or_app; left; exact Hx).
        rewrite eb_iff in B by auto. rewrite eb_false in * by auto. lra.
    + apply (IH _ _ _ (pre ++ [e])); [rewrite <- app_assoc; reflexivity|rewrite app_length; cbn; lia| |exact NN|].
      * rewrite nth_error_app1; [exact Hc|]. apply nth_error_Some. congruence.
      * intros x Hx. apply in_app_or in Hx. destruct Hx as [Hx|[<-|[]]]; auto.
Qed.
Lemma layer_scan_lt es : forall idx best cur, (best < idx)%nat -> (layer_scan E idx best cur es < idx + length es)%nat.
Proof.
  induction es as [|e t IH]; intros idx best cur H; cbn [layer_scan length]; [lia|].
  destruct (layer_better E e cur); [specialize (IH (S idx) idx e)|specialize (IH (S idx) best cur)]; lia.
Qed.
Lemma computeLayer_spec es l l' : computeLayer E es l = Ok l' ->
  exists e t st, Forall2 (fun p x => deref es p = Ok x) (members l) (e :: t) /\ sum_states E (estate e) t = Ok st /\
    members l' = members l /\ l_state l' = map (fun x => fdiv x (d_of_Z (Z.of_nat (length (e :: t))))) st /\
    l_energy l' = fdiv (layer_energy E e t) (d_of_Z (Z.of_nat (length (e :: t)))) /\ l_best l' = layer_scan E 1 0 e t.
Proof.
  unfold computeLayer. intros H. apply bind_Ok in H. destruct H as (ms & Hm & H). destruct ms as [|e t]; [discriminate|].
  apply mapM_ok in Hm. exists e, t. revert H. generalize (Z.of_nat (length (e :: t))). intros n H.
  apply bind_Ok in H. destruct H as (st & Hs & H). injection H as <-. exists st. cbn. auto 10.
Qed.
Lemma Forall2_in_r {A B} (P : A -> B -> Prop) l l' : Forall2 P l l' -> forall y, In y l' -> exists x, In x l /\ P x y.
Proof.
  induction 1 as [|x y l l' H _ IH]; intros z Hz; [destruct Hz|]. destruct Hz as [<-|Hz]; [exists x; cbn; auto|].
  destruct (IH z Hz) as (w & Hw & Q). exists w. cbn. auto.
Qed.
Lemma layer_best_spec es l l' : eigen E = false -> (forall e, In e es -> nonnan (energy e)) -> computeLayer E es l = Ok l' ->
  exists ms e, Forall2 (fun p x => deref es p = Ok x) (members l') ms /\ nth_error ms (l_best l') = Some e /\
    forall x, In x ms -> eb (energy x) (energy e) = false.
Proof.
  intros He NN H. apply computeLayer_spec in H. destruct H as (e & t & st & Hm & _ & -> & _ & _ & ->).
  destruct (layer_scan_best t He 1 0 e [e] (e :: t) eq_refl eq_refl eq_refl) as (x & Hx & B).
  - intros y Hy. destruct (Forall2_in_r _ _ _ Hm y Hy) as (p & _ & Hp). apply deref_In in Hp. apply NN, Hp.
  - intros y [<-|[]]. apply eb_irrefl.
  - exists (e :: t), x. auto.
Qed.

Lemma layer_count opt g : rng_ok R -> 1 <= maxLayerNum opt < 2147483647 ->
  1 <= fst (randIdx2 R 1 (to_int (wrap64 (maxLayerNum opt + 1))) g) <= maxLayerNum opt.
Proof.
  intros HR Hn. rewrite wrap64_small by (unfold two64; lia). rewrite to_int_small by lia.
  pose proof (randIdx2_range R 1 (maxLayerNum opt + 1) g HR ltac:(lia)). lia.
Qed.

(** ** Nothing fails *)
Variable opt : aos_option.
Hypothesis Hstd : std_ok (std E).
Hypothesis Hst : stable_at_front (std E).
Hypothesis HR : rng_ok R.
Hypothesis HM : moderate E.
Hypothesis HD : eigen_draws E.
Hypothesis HF : forall v, in_box b v -> nonnan (fFun E v).
Hypothesis Hn : 1 <= maxLayerNum opt <= electronNum opt.
Hypothesis Hn32 : maxLayerNum opt < 2147483647.
Hypothesis Hfit : forall t, 1 <= t <= maxLayerNum opt -> layers_fit E t (electronNum opt).
Definition safe (s : aos') : Prop :=
  good E s /\ boxed E s /\ electronNum opt <= Z.of_nat (length (electrons s)) /\ alive s.
Lemma boxed_len s e : boxed E s -> In e (electrons s) -> length (estate e) = Z.to_nat (dimD b).
Proof. intros H He. destruct (H e He) as (L & _). lia. Qed.
Lemma t_range g : 1 <= fst (randIdx2 R 1 (to_int (wrap64 (maxLayerNum opt + 1))) g) <= maxLayerNum opt.
Proof using HR Hn Hn32.
  rewrite wrap64_small by (unfold two64; lia). rewrite to_int_small by lia.
  pose proof (randIdx2_range R 1 (maxLayerNum opt + 1) g HR ltac:(lia)). lia.
Qed.
Lemma settle_total s : safe s -> exists s', settle E opt s = Ok s'.
Proof.
  intros (Hg & Hb & Hl & (e0 & He0)). destruct (compute_good E s Hg) as (Hg1 & V).
  assert (Hb1 : forall e, In e (evaluated E s) -> in_box b (estate e)).
  { intros e He. unfold evaluated in He. apply in_map_iff in He. destruct He as (x & <- & Hx). rewrite evaluate_state. apply Hb, Hx. }
  assert (Le : length (evaluated E s) = length (electrons s)) by (unfold evaluated; apply map_length).
  unfold settle, computeAtom. change (electrons (compute E s)) with (evaluated E s) in *. change (atomBest (compute E s)) with (atomBest s).
  destruct (evaluated E s) as [|e t] eqn:Es; [cbn in Le; lia|].
  destruct (sum_states_total E (e :: t) (map (fun _ => d0) (estate e))) as (st & Hs).
  { intros x Hx. rewrite map_length. destruct (Hb1 x Hx) as (L1 & _), (Hb1 e (or_introl eq_refl)) as (L2 & _). lia. }
  rewrite Hs. cbn [bind]. pose proof (deref_evaluate E _ _ _ He0) as D. unfold evaluated in Es. rewrite Es in D. rewrite D. cbn [bind].
  set (best := scan_best E e (e :: t)).
  assert (Ib : In best (e :: t)) by (destruct (scan_in E (e :: t) e) as [Q|I]; [unfold best; rewrite Q; left; reflexivity|exact I]).
  assert (N : NoDup (map eid (e :: t))) by (rewrite <- Es, map_evaluate_id; apply Hg).
  unfold record_best. cbn [electrons atomBest]. rewrite (deref_ok _ _ N Ib). cbn [bind].
  assert (X : forall rec, exists s', selectAndMakeLayers E opt (mkAOS (e :: t) (e_next (compute E s)) (layers (compute E s))
     (map (fun x => fdiv x (d_of_Z (Z.of_nat (length (e :: t))))) st)
     (fdiv (sum_energy (e :: t)) (d_of_Z (Z.of_nat (length (e :: t))))) (eid best) (a_gen (compute E s))
     (if feq (energy (evaluate E e0)) (energy best) then wrap64 (a_stop (compute E s) + 1) else 0) rec (a_rng (compute E s))) = Ok s').
  { intros rec. unfold selectAndMakeLayers. cbn [electrons].
    assert (NN : forall x, In x (e :: t) -> nonnan (energy x)) by (intros x Hx; rewrite V by exact Hx; apply HF, Hb1, Hx).
    destruct (existsb _ (e :: t)) eqn:Ex.
    { exfalso. apply existsb_exists in Ex. destruct Ex as (x & Hx & Nx). specialize (NN x Hx). unfold nonnan in NN. congruence. }
    destruct (proj1 Hstd _ _ _ (eless_sw E _ NN)) as (P & _). set (sorted := sort (std E) (electronLess E) (e :: t)) in *.
    pose proof (t_range (a_rng s)) as T. change (a_rng (compute E s)) with (a_rng s). cbn [a_rng].
    destruct (randIdx2 R 1 _ (a_rng s)) as [k g]. cbn [fst] in T.
    assert (L : Z.of_nat (length (map eid (firstn (Z.to_nat (electronNum opt)) sorted))) = electronNum opt).
    { rewrite map_length, firstn_length, <- (Permutation_length P). lia. }
    destruct (make_layers_total E k (map eid (firstn (Z.to_nat (electronNum opt)) sorted))) as (ls & ->); [lia| | |cbn [bind]; eauto].
    - intros Q. rewrite Q in L. cbn in L. lia.
    - rewrite L. apply Hfit, T. }
  destruct (rec_on E); cbn [bind]; apply X.
Qed.
Lemma settle_safe s s' : safe s -> settle E opt s = Ok s' -> safe s' /\ length (electrons s') = Z.to_nat (electronNum opt).
Proof.
  intros (Hg & Hb & Hl & _) H. destruct (settle_select E opt s s' Hstd Hg H) as (_ & _ & _ & L & _).
  split; [|lia]. split; [eapply settle_good; eauto|]. split; [apply (settle_box E HM opt s s' Hstd Hg H Hb)|]. split; [lia|].
  apply (best_survives_stable E opt s s' Hstd Hst Hg H).
Qed.
(** The second half. *)
Definition dims (v : list double) : Prop := length v = Z.to_nat (dimD b).
Lemma photon_total s parent l li g : boxed E s -> In parent (electrons s) -> dims (b_state s) -> dims (l_state l) -> alive s ->
  (exists p lb, nth_error (members l) (l_best l) = Some p /\ deref (electrons s) p = Ok lb) ->
  exists r, photon E s parent l li g = Ok r.
Proof.
  intros Hb Hp Ds Dl (ab & Hab) (p & lb & Hpb & Hlb). unfold photon.
  assert (Hnn : (if eigen E then length (estate parent) else Z.to_nat (dimD b)) = Z.to_nat (dimD b)).
  { destruct (eigen E); [apply (boxed_len s); assumption|reflexivity]. }
  rewrite Hnn.
  pose proof (rand_vec_unit HR (Z.to_nat (dimD b)) g) as (_ & La). destruct (rand_vec _ g) as [alpha g1].
  pose proof (rand_vec_unit HR (Z.to_nat (dimD b)) g1) as (_ & Lb). destruct (rand_vec _ g1) as [beta g2].
  pose proof (rand_vec_unit HR (Z.to_nat (dimD b)) g2) as (_ & Lg). destruct (rand_vec _ g2) as [gamma g3]. cbn [fst] in *.
  assert (X : exists step, (if eb (energy parent) (l_energy l) then
                match nth_error (members l) (l_best l) with
                | None => Abort
                | Some p => do lb <- deref (electrons s) p; pull E alpha beta gamma (estate lb) (l_state l)
                end
              else
                do ab <- deref (electrons s) (atomBest s);
                do p <- pull E alpha beta gamma (estate ab) (b_state s);
                Ok (map (fun x => fdiv x (d_of_Z (Z.of_nat li + 1))) p)) = Ok step /\ length step = Z.to_nat (dimD b)).
  { destruct (eb _ _).
    - rewrite Hpb, Hlb. cbn [bind]. apply deref_In in Hlb. destruct Hlb as (Il & _).
      destruct (pull_total E alpha beta gamma (estate lb) (l_state l) _ La Lb Lg (boxed_len s lb Hb Il) Dl) as (q & Hq). exists q. split; [exact Hq|].
      unfold pull in Hq. repeat (apply bind_Ok in Hq; destruct Hq as (? & _ & Hq)). apply (vec_Ok E) in Hq. destruct Hq as (Lq & ->). rewrite zip2_length; assumption.
    - unfold bestElectron in Hab. rewrite Hab. cbn [bind]. apply deref_In in Hab. destruct Hab as (Il & _).
      destruct (pull_total E alpha beta gamma (estate ab) (b_state s) _ La Lb Lg (boxed_len s ab Hb Il) Ds) as (q & Hq). rewrite Hq. cbn [bind].
      eexists. split; [reflexivity|]. rewrite map_length.
      unfold pull in Hq. repeat (apply bind_Ok in Hq; destruct Hq as (? & _ & Hq)). apply (vec_Ok E) in Hq. destruct Hq as (Lq & ->). rewrite zip2_length; assumption. }
  destruct X as (step & -> & Ls). cbn [bind]. pose proof (boxed_len s parent Hb Hp) as Lp. rewrite vec_ok by congruence. cbn [bind].
  unfold applyConstraintD. destruct (Z.eqb_spec (Z.of_nat (length (zip2 fadd (estate parent) step))) (dimD b)) as [_|Q]; [cbn [bind]; eauto|].
  exfalso. apply Q. rewrite zip2_length by congruence. destruct HM as (D & _). lia.
Qed.
Lemma non_photon_total s parent g : boxed E s -> In parent (electrons s) -> exists r, non_photon E parent g = Ok r.
Proof.
  intros Hb Hp. unfold non_photon. pose proof (boxed_len s parent Hb Hp) as Lp. destruct HM as (D & _).
  destruct (moves_fin E HM HR HD (estate parent) 0 g) as (_ & _ & L1 & L2); [lia|apply (in_box_low E HM); apply Hb, Hp|].
  assert (X : length (fst ((if eigen E then eigen_moves E else std_moves E) (estate parent) 0%nat g)) = length (estate parent)) by (destruct (eigen E); assumption).
  destruct ((if eigen E then eigen_moves E else std_moves E) (estate parent) 0%nat g) as [v g']. cbn [fst] in X.
  unfold applyConstraintD. destruct (Z.eqb_spec (Z.of_nat (length v)) (dimD b)) as [_|Q]; [cbn [bind]; eauto|]. exfalso. lia.
Qed.
Definition ready (s : aos') : Prop := boxed E s /\ med (b_state s) /\ dims (b_state s) /\ alive s.
Definition layer_ready (s : aos') (l : layer) : Prop :=
  med (l_state l) /\ dims (l_state l) /\ (exists p lb, nth_error (members l) (l_best l) = Some p /\ deref (electrons s) p = Ok lb) /\
  forall p, In p (members l) -> exists e, deref (electrons s) p = Ok e.
Lemma ready_grow s s' k : ready s -> boxed E s' -> grows s s' k -> ready s' /\ forall l, layer_ready s l -> layer_ready s' l.
Proof.
  intros (Hb & Mb & Db & (e & He)) Hb' ((new & En & _) & _ & (_ & S2 & _ & S4 & _)). split.
  - split; [exact Hb'|]. rewrite S2. split; [exact Mb|]. split; [exact Db|]. exists e. unfold bestElectron in *. rewrite En, S4. apply deref_app, He.
  - intros l (M & D & (p & lb & Hp & Hlb) & A). split; [exact M|]. split; [exact D|]. rewrite En. split.
    + exists p, lb. split; [exact Hp|]. apply deref_app, Hlb.
    + intros q Hq. destruct (A q Hq) as (x & Hx). exists x. apply deref_app, Hx.
Qed.
Lemma spawn_total s l li p : ready s -> layer_ready s l -> In p (members l) ->
  exists s', spawn E opt s l li p = Ok s' /\ ready s' /\ forall l', layer_ready s l' -> layer_ready s' l'.
Proof.
  intros Hr Hl Hp. pose proof Hr as (Hb & Mb & Db & Ha). pose proof Hl as (Ml & Dl & Hbe & Hall).
  destruct (Hall p Hp) as (parent & Hpar). assert (Ip : In parent (electrons s)) by (apply deref_In in Hpar; apply Hpar).
  destruct (spawn E opt s l li p) as [s'| | |] eqn:Q.
  - exists s'. split; [reflexivity|]. eapply ready_grow; [exact Hr| |eapply spawn_grows, Q].
    eapply spawn_box; eauto.
  - exfalso. revert Q. unfold spawn. rewrite Hpar. cbn [bind]. destruct (rand01 R (a_rng s)) as [d g1].
    destruct (fle _ d); [destruct (photon_total s parent l li g1 Hb Ip Db Dl Ha Hbe) as ([v g2] & ->)|destruct (non_photon_total s parent g1 Hb Ip) as ([v g2] & ->)]; discriminate.
  - exfalso. revert Q. unfold spawn. rewrite Hpar. cbn [bind]. destruct (rand01 R (a_rng s)) as [d g1].
    destruct (fle _ d); [destruct (photon_total s parent l li g1 Hb Ip Db Dl Ha Hbe) as ([v g2] & ->)|destruct (non_photon_total s parent g1 Hb Ip) as ([v g2] & ->)]; discriminate.
  - exfalso. revert Q. unfold spawn. rewrite Hpar. cbn [bind]. destruct (rand01 R (a_rng s)) as [d g1].
    destruct (fle _ d); [destruct (photon_total s parent l li g1 Hb Ip Db Dl Ha Hbe) as ([v g2] & ->)|destruct (non_photon_total s parent g1 Hb Ip) as ([v g2] & ->)]; discriminate.
Qed.
Lemma spawn_layer_total l li ps : forall s, ready s -> layer_ready s l -> (forall p, In p ps -> In p (members l)) ->
  exists s', spawn_layer E opt s l li ps = Ok s' /\ ready s' /\ forall l', layer_ready s l' -> layer_ready s' l'.
Proof.
  induction ps as [|p ps IH]; intros s Hr Hl Hs; cbn [spawn_layer]; [eauto|].
  destruct (spawn_total s l li p Hr Hl (Hs p (or_introl eq_refl))) as (s1 & -> & Hr1 & T1). cbn [bind].
  destruct (IH s1 Hr1 (T1 l Hl)) as (s2 & -> & Hr2 & T2); [intros q Hq; apply Hs; right; exact Hq|].
  exists s2. split; [reflexivity|]. split; [exact Hr2|auto].
Qed.
Lemma spawn_layers_total ls : forall li s, ready s -> Forall (layer_ready s) ls -> exists s', spawn_layers E opt s li ls = Ok s' /\ ready s'.
Proof.
  induction ls as [|l ls IH]; intros li s Hr Hl; cbn [spawn_layers]; [eauto|]. inversion Hl; subst.
  destruct (spawn_layer_total l li (members l) s Hr H1 (fun p H => H)) as (s1 & -> & Hr1 & T1). cbn [bind].
  apply IH; [exact Hr1|]. eapply Forall_impl; [|eassumption]. exact T1.
Qed.
Lemma excite_total s s1 : safe s -> settle E opt s = Ok s1 -> exists s2, excite E opt s1 = Ok s2.
Proof.
  intros Hs H. destruct (settle_safe s s1 Hs H) as ((Hg1 & Hb1 & Hl1 & Ha1) & Len). destruct Hs as (Hg & Hb & Hl & Ha).
  destruct (settle_box E HM opt s s1 Hstd Hg H Hb) as (_ & Ms).
  assert (Ds : dims (b_state s1)).
  { pose proof (settle_full E opt s s1 Hstd Hg H) as (first & rest & st & prev & best & sorted & t & ls & X). cbv zeta in X.
    destruct X as (Hes & _ & _ & Hss & _ & _ & _ & _ & _ & _ & _ & _ & _ & _ & _ & -> & _). unfold dims. rewrite map_length.
    apply sum_states_Ok in Hss. destruct Hss as (-> & _). rewrite map_length.
    assert (I : In first (map (evaluate E) (electrons s))) by (rewrite Hes; left; reflexivity). apply in_map_iff in I. destruct I as (x & <- & Hx).
    rewrite evaluate_state. apply (boxed_len s); assumption. }
  destruct (settle_layers opt s s1 Hstd Hg H) as (kept & t & Et & P & _ & Hml).
  assert (Lk : Z.of_nat (length (map eid kept)) = electronNum opt) by (rewrite map_length, (Permutation_length P); lia).
  pose proof (t_range (a_rng s)) as T. rewrite <- Et in T.
  pose proof (make_layers_concat E _ _ _ Hml) as Hc. destruct (make_layers_nonempty E _ _ _ Hml) as (N1 & _ & N0).
  assert (NE : forall l, In l (layers s1) -> members l <> []).
  { intros l Hin. destruct (In_nth_error _ _ Hin) as (i & Hi). assert (Hi' : nth_error (map members (layers s1)) i = Some (members l)) by (apply map_nth_error, Hi).
    destruct i as [|i]; [|eapply N1; [|exact Hi']; lia].
    destruct (Hfit t T) as (bs & Hbs & _ & C1 & _). rewrite <- Lk in Hbs. destruct bs as [|c bs].
    { exfalso. pose proof (bounds_spec E _ _ _ Hbs) as (_ & Lt). cbn in Lt. lia. }
    eapply (N0 (c :: bs) c); [exact Hbs|reflexivity|apply C1; reflexivity| |exact Hi']. intros Q. rewrite Q in Lk. cbn in Lk. lia. }
  assert (Mem : forall l p, In l (layers s1) -> In p (members l) -> exists e, deref (electrons s1) p = Ok e).
  { intros l p Hin Hp. assert (I : In p (map eid kept)).
    { rewrite <- Hc. apply in_concat. exists (members l). split; [apply in_map, Hin|exact Hp]. }
    apply in_map_iff in I. destruct I as (e & <- & Ie). exists e. apply deref_ok; [apply Hg1|]. eapply Permutation_in; [exact P|exact Ie]. }
  assert (CL : exists ls, mapM (computeLayer E (electrons s1)) (layers s1) = Ok ls).
  { apply mapM_all. intros l Hin. unfold computeLayer.
    destruct (mapM_all (deref (electrons s1)) (members l)) as (ms & Hms); [intros p Hp; apply (Mem l p Hin Hp)|].
    rewrite Hms. cbn [bind]. apply mapM_ok in Hms. destruct ms as [|e tl]; [inversion Hms as [Q|]; symmetry in Q; apply NE in Q; [destruct Q|exact Hin]|].
    assert (I : forall x, In x (e :: tl) -> In x (electrons s1)).
    { intros x Hx. destruct (Forall2_in_r _ _ _ Hms x Hx) as (p & _ & Hp). apply deref_In in Hp. apply Hp. }
    destruct (sum_states_total E tl (estate e)) as (st & ->); [|cbn [bind]; eauto].
    intros x Hx. rewrite !(boxed_len s1); auto; apply I; [left; reflexivity|right; exact Hx]. }
  destruct CL as (ls & Hls). unfold excite, computeLayers. rewrite Hls. cbn [bind]. unfold updateElectrons. cbn [layers].
  set (s1' := mkAOS _ _ ls _ _ _ _ _ _ _).
  destruct (spawn_layers_total ls 0 s1') as (s2 & -> & _); [split; [exact Hb1|split; [exact Ms|split; [exact Ds|exact Ha1]]]| |cbn [bind]; eauto].
  apply Forall_forall. intros l' Hin'. apply mapM_ok in Hls. destruct (Forall2_in_r _ _ _ Hls l' Hin') as (l & Hin & Hl').
  split; [eapply computeLayer_med; [exact Hl'|]; intros e He; apply (in_box_low E HM); apply Hb1, He|].
  apply computeLayer_spec in Hl'. destruct Hl' as (e & tl & st & Hms & Hss & Hmem & Hls' & _ & Hbest).
  assert (I : forall x, In x (e :: tl) -> In x (electrons s1)).
  { intros x Hx. destruct (Forall2_in_r _ _ _ Hms x Hx) as (p & _ & Hp). apply deref_In in Hp. apply Hp. }
  split; [|split].
  - unfold dims. rewrite Hls', map_length. apply sum_states_Ok in Hss. destruct Hss as (-> & _). apply (boxed_len s1); [exact Hb1|apply I; left; reflexivity].
  - rewrite Hmem, Hbest. pose proof (layer_scan_lt tl 1 0 e ltac:(lia)) as Lt.
    assert (Lm : length (members l) = length (e :: tl)) by (eapply Forall2_len, Hms). cbn [length] in Lm.
    destruct (nth_error (members l) (layer_scan E 1 0 e tl)) as [p|] eqn:Q; [|apply nth_error_None in Q; lia].
    destruct (Mem l p Hin (nth_error_In _ _ Q)) as (lb & Hlb). exists p, lb. auto.
  - intros p Hp. rewrite Hmem in Hp. apply (Mem l p Hin Hp).
Qed.
Lemma excite_safe s s1 s2 : safe s -> settle E opt s = Ok s1 -> excite E opt s1 = Ok s2 -> safe s2.
Proof.
  intros Hs H H2. destruct (settle_safe s s1 Hs H) as ((Hg1 & Hb1 & Hl1 & (e & He)) & Len). destruct Hs as (Hg & Hb & Hl & Ha).
  destruct (settle_box E HM opt s s1 Hstd Hg H Hb) as (_ & Ms).
  split; [eapply excite_good; eauto|]. split; [eapply excite_box; eauto|].
  apply excite_spec in H2. destruct H2 as (ls & new & _ & _ & En & _ & _ & _ & _ & _ & Ab & _). rewrite En. split; [rewrite app_length; lia|].
  exists e. unfold bestElectron in *. rewrite En, Ab. apply deref_app, He.
Qed.
Hypothesis Hmax : a_maxGeneration opt < 18446744073709551616.
Lemma run_total fuel : forall s, safe s -> 0 <= a_gen s -> (Z.to_nat (a_maxGeneration opt - a_gen s) < fuel)%nat ->
  exists s', aos_run E opt fuel s = Ok s'.
Proof.
  induction fuel as [|n IH]; intros s Hs H0 Hf; [lia|]. cbn [aos_run]. destruct (settle_total s Hs) as (s1 & H1). rewrite H1. cbn [bind].
  destruct (shouldTerminate opt s1) eqn:T; [eauto|]. destruct (excite_total s s1 Hs H1) as (s2 & H2). rewrite H2. cbn [bind].
  pose proof (settle_gen E opt s s1 Hstd (proj1 Hs) H1) as G1. pose proof (excite_gen E opt s1 s2 H2) as G2.
  unfold shouldTerminate in T. apply orb_false_elim in T. destruct T as (T & _). apply Z.leb_gt in T.
  rewrite wrap64_small in G2 by (unfold two64; lia).
  apply IH; [eapply excite_safe; eauto|lia|lia].
Qed.
Lemma run_safe fuel s s' : safe s -> aos_run E opt fuel s = Ok s' -> safe s'.
Proof.
  intros Hs H. apply run_rounds in H. destruct H as (k & s0 & Hk & H & _). assert (safe s0).
  { clear H. revert s Hs s0 Hk. induction k as [|k IH]; intros s Hs s0 Hk; inversion Hk; subst; [exact Hs|].
    eapply IH; [|eassumption]. eapply excite_safe; [exact Hs|eassumption|eassumption]. }
  eapply settle_safe; eauto.
Qed.
Lemma init_safe s : (forall g, in_box b (fst (iFun E g))) -> exists s', aos_initializePop E opt s = Ok s' /\ safe s' /\ a_gen s' = 0.
Proof.
  intros Hi. assert (X : exists s', aos_initializePop E opt s = Ok s').
  { unfold aos_initializePop. destruct (Z.leb_spec (maxLayerNum opt) (electronNum opt)); [cbn [negb]|lia].
    pose proof (init_electrons_spec E (Z.to_nat (electronNum opt)) (e_next s) (a_rng s)) as (I1 & _).
    destruct (init_electrons E _ _ _) as [es g]. cbn [fst] in I1. destruct es as [|e es]; [|eauto].
    exfalso. assert (length (@nil nat) = Z.to_nat (electronNum opt)) by (rewrite <- (seq_length (Z.to_nat (electronNum opt)) (e_next s)), <- I1; reflexivity).
    cbn in *. lia. }
  destruct X as (s' & H). exists s'. split; [exact H|]. pose proof (init_good E opt s s' H) as (Hg & L & _ & _ & G0 & _ & _ & (e & He & Hie) & _).
  split; [|exact G0]. split; [exact Hg|]. split; [eapply init_box; eauto|]. split; [lia|].
  exists e. unfold bestElectron. rewrite <- Hie. apply deref_ok; [apply Hg|exact He].
Qed.

(** ** The sums *)
Lemma zip2_nth f x : forall y i, length x = length y -> (i < length x)%nat -> nth i (zip2 f x y) d0 = f (nth i x d0) (nth i y d0).
Proof. induction x as [|a x IH]; intros [|c y] [|i] L H; cbn in *; try lia; [reflexivity|]. apply IH; lia. Qed.
Lemma sum_states_nth es : forall acc st i, sum_states E acc es = Ok st -> (i < length acc)%nat ->
  nth i st d0 = sum_from (nth i acc d0) (map (coordinate i) es).
Proof.
  induction es as [|e t IH]; intros acc st i H Hi; cbn in H; [injection H as <-; reflexivity|].
  apply bind_Ok in H. destruct H as (a & Ha & H). apply (vec_Ok E) in Ha. destruct Ha as (L & ->).
  rewrite (IH _ _ i H) by (rewrite zip2_length; assumption). rewrite zip2_nth by assumption. reflexivity.
Qed.
Lemma sum_energy_from es x : fold_left (fun s e => fadd s (energy e)) es x = sum_from x (map energy es).
Proof. revert x. induction es as [|e t IH]; intros x; cbn; [reflexivity|]. apply IH. Qed.
End P.

(** Too many electrons for the boundaries of the layers. *)
Lemma settle_overrun {R : rng_ops} (E : env R) opt s t bs :
  std_ok (std E) -> good E s -> boxed E s -> (forall v, in_box (box E) v -> nonnan (fFun E v)) ->
  1 <= electronNum opt <= Z.of_nat (length (electrons s)) -> alive s ->
  fst (randIdx2 R 1 (to_int (wrap64 (maxLayerNum opt + 1))) (a_rng s)) = t -> 1 <= t ->
  layer_bounds E t (electronNum opt) = Ok bs ->
  (forall i x y, nth_error bs i = Some x -> nth_error bs (S i) = Some y -> x <= y) ->
  last (ends bs) 0 < electronNum opt -> settle E opt s = UB.
Proof.
  intros Hstd Hg Hb HF Hl (e0 & He0) Ht Ht1 Hbs Mono Over. destruct (compute_good E s Hg) as (Hg1 & V).
  assert (Hb1 : forall e, In e (evaluated E s) -> in_box (box E) (estate e)).
  { intros e He. unfold evaluated in He. apply in_map_iff in He. destruct He as (x & <- & Hx). rewrite evaluate_state. apply Hb, Hx. }
  assert (Le : length (evaluated E s) = length (electrons s)) by (unfold evaluated; apply map_length).
  unfold settle, computeAtom. change (electrons (compute E s)) with (evaluated E s) in *. change (atomBest (compute E s)) with (atomBest s).
  destruct (evaluated E s) as [|e t'] eqn:Es; [cbn in Le; lia|].
  destruct (sum_states_total E (e :: t') (map (fun _ => d0) (estate e))) as (st & Hs).
  { intros x Hx. rewrite map_length. destruct (Hb1 x Hx) as (L1 & _), (Hb1 e (or_introl eq_refl)) as (L2 & _). lia. }
  rewrite Hs. cbn [bind]. pose proof (deref_evaluate E _ _ _ He0) as D. unfold evaluated in Es. rewrite Es in D. rewrite D. cbn [bind].
  set (best := scan_best E e (e :: t')).
  assert (Ib : In best (e :: t')) by (destruct (scan_in E (e :: t') e) as [Q|I]; [unfold best; rewrite Q; left; reflexivity|exact I]).
  assert (N : NoDup (map eid (e :: t'))) by (rewrite <- Es, map_evaluate_id; apply Hg).
  unfold record_best. cbn [electrons atomBest]. rewrite (deref_ok _ _ N Ib). cbn [bind].
  assert (X : forall a1 a2 a3 a4 a5 a6 a7 rec, selectAndMakeLayers E opt (mkAOS (e :: t') a1 a2 a3 a4 a5 a6 a7 rec (a_rng s)) = UB).
  { intros. unfold selectAndMakeLayers. cbn [electrons].
    assert (NN : forall x, In x (e :: t') -> nonnan (energy x)) by (intros x Hx; rewrite V by exact Hx; apply HF, Hb1, Hx).
    destruct (existsb _ (e :: t')) eqn:Ex.
    { exfalso. apply existsb_exists in Ex. destruct Ex as (x & Hx & Nx). specialize (NN x Hx). unfold nonnan in NN. congruence. }
    destruct (proj1 Hstd _ _ _ (eless_sw E _ NN)) as (P & _). set (sorted := sort (std E) (electronLess E) (e :: t')) in *.
    cbn [a_rng]. destruct (randIdx2 R 1 _ (a_rng s)) as [k g]. cbn [fst] in Ht. subst k.
    assert (L : Z.of_nat (length (map eid (firstn (Z.to_nat (electronNum opt)) sorted))) = electronNum opt).
    { rewrite map_length, firstn_length, <- (Permutation_length P). lia. }
    rewrite (make_layers_overrun E t _ bs); [reflexivity|exact Ht1|rewrite L; exact Hbs|exact Mono|rewrite L; exact Over]. }
  change (a_rng (compute E s)) with (a_rng s). destruct (rec_on E); cbn [bind]; apply X.
Qed.
