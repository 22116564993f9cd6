From Coq Require Import List Arith ZArith Reals Bool Lia Lra Permutation Sorted.
From Flocq Require Import Core BinarySingleNaN.
From Verif Require Import Base Fl FlFacts Rng RandProofs StdOps ListFacts Box AOS AOSSpec.
From Verif Require PSOProofs2.
Import ListNotations.
Open Scope Z_scope.

Section P.
Context {R : rng_ops} (E : env R).
Notation aos' := (aos (G R)).
Notation sc := (PSOProofs2.score (greater E)).

Lemma eb_iff x y : nonnan x -> nonnan y -> (e_better E x y = true <-> (sc y < sc x)%R).
Proof. apply (PSOProofs2.better_iff (greater E)). Qed.
Lemma eb_false x y : nonnan x -> nonnan y -> (e_better E x y = false <-> (sc x <= sc y)%R).
Proof. apply (PSOProofs2.better_false (greater E)). Qed.
Lemma eb_irrefl x : e_better E x x = false.
Proof. apply (PSOProofs2.better_irrefl (greater E)). Qed.
Lemma no_nan (es : list electron) : existsb (fun e => is_nan (energy e)) es = false -> forall e, In e es -> nonnan (energy e).
Proof.
  intros H e He. unfold nonnan. destruct (is_nan (energy e)) eqn:N; [|reflexivity].
  exfalso. assert (existsb (fun e => is_nan (energy e)) es = true) by (apply existsb_exists; eauto). congruence.
Qed.
Lemma eless_sw (es : list electron) : (forall e, In e es -> nonnan (energy e)) -> strict_weak (electronLess E) es.
Proof.
  intros NN. unfold electronLess. repeat split.
  - intros a _. apply eb_irrefl.
  - intros a b c Ha Hb Hc. rewrite !eb_iff by auto. lra.
  - intros a b c Ha Hb Hc H. rewrite eb_iff in H by auto. destruct (e_better E (energy a) (energy c)) eqn:F; [auto|right].
    rewrite eb_false in F by auto. apply eb_iff; auto. lra.
Qed.

(** ** Pointers *)
Lemma deref_In es p e : deref es p = Ok e -> In e es /\ eid e = p.
Proof.
  unfold deref. destruct (find _ es) eqn:F; [|discriminate]. intros H. injection H as <-.
  apply find_some in F. destruct F as (A & B). apply Nat.eqb_eq in B. auto.
Qed.
Lemma deref_ok es e : NoDup (map eid es) -> In e es -> deref es (eid e) = Ok e.
Proof.
  intros N H. unfold deref. destruct (find _ es) as [d|] eqn:F.
  - apply find_some in F. destruct F as (A & B). apply Nat.eqb_eq in B. f_equal. eapply NoDup_map_inj; eauto.
  - exfalso. apply (find_none _ _ F) in H. rewrite Nat.eqb_refl in H. discriminate.
Qed.
Lemma deref_fail es p : ~ In p (map eid es) -> deref es p = UB.
Proof.
  intros H. unfold deref. destruct (find _ es) as [d|] eqn:F; [|reflexivity].
  apply find_some in F. destruct F as (A & B). apply Nat.eqb_eq in B. exfalso. apply H. subst. apply in_map, A.
Qed.
Lemma deref_app es es' p e : deref es p = Ok e -> deref (es ++ es') p = Ok e.
Proof.
  unfold deref. intros H. destruct (find (fun e => (eid e =? p)%nat) es) eqn:F; [|discriminate].
  assert (G : forall l, find (fun e => (eid e =? p)%nat) l = Some e0 -> find (fun e => (eid e =? p)%nat) (l ++ es') = Some e0).
  { induction l as [|x l IH]; cbn; [discriminate|]. destruct (eid x =? p)%nat; auto. }
  rewrite (G _ F). exact H.
Qed.

Lemma NoDup_disjoint_app {A} (l l' : list A) : NoDup l -> NoDup l' -> (forall x, In x l -> In x l' -> False) -> NoDup (l ++ l').
Proof.
  induction l as [|x l IH]; intros N N' D; [exact N'|]. inversion N; subst. cbn. constructor.
  - intros C. apply in_app_or in C. destruct C as [C|C]; [auto|]. apply (D x); [left; reflexivity|exact C].
  - apply IH; auto. intros y Hy. apply D. right. exact Hy.
Qed.

(** ** The invariant *)
Definition good (s : aos') : Prop :=
  NoDup (map eid (electrons s)) /\ (forall e, In e (electrons s) -> (eid e < e_next s)%nat) /\
  (forall e, In e (electrons s) -> ecomp e = true -> energy e = fFun E (estate e)).

Lemma init_electrons_spec n : forall id g,
  map eid (fst (init_electrons E n id g)) = seq id n /\ (forall e, In e (fst (init_electrons E n id g)) -> ecomp e = false).
Proof.
  induction n as [|n IH]; intros id g; cbn; [split; [reflexivity|intros e []]|].
  destruct (iFun E g) as [v g1]. specialize (IH (S id) g1). destruct (init_electrons E n (S id) g1) as [t g2]. cbn in *.
  destruct IH as (I1 & I2). split; [rewrite I1; reflexivity|]. intros e [<-|H]; [reflexivity|auto].
Qed.
Lemma init_good opt s s' : aos_initializePop E opt s = Ok s' ->
  good s' /\ length (electrons s') = Z.to_nat (electronNum opt) /\ 1 <= electronNum opt /\ maxLayerNum opt <= electronNum opt /\
  a_gen s' = 0 /\ a_stop s' = 0 /\ a_record s' = [] /\
  (exists e, In e (electrons s') /\ eid e = atomBest s') /\ (forall e, In e (electrons s') -> ecomp e = false).
Proof.
  unfold aos_initializePop. intros H. destruct (Z.leb_spec (maxLayerNum opt) (electronNum opt)) as [L|L]; [|discriminate]. cbn [negb] in H.
  pose proof (init_electrons_spec (Z.to_nat (electronNum opt)) (e_next s) (a_rng s)) as (I1 & I2).
  destruct (init_electrons E _ _ _) as [es g]. cbn [fst] in *. destruct es as [|e es]; [discriminate|]. injection H as <-.
  cbn [electrons e_next a_gen a_stop a_record atomBest].
  assert (Ln : length (e :: es) = Z.to_nat (electronNum opt)).
  { rewrite <- (map_length eid), I1, seq_length. reflexivity. }
  split; [|split; [exact Ln|split; [cbn in Ln; lia|split; [exact L|repeat split]]]].
  - split; [|split].
    + cbn [electrons]. rewrite I1. apply seq_NoDup.
    + cbn [electrons e_next]. intros x Hx. apply (in_map eid) in Hx. rewrite I1 in Hx. apply in_seq in Hx. lia.
    + cbn [electrons]. intros x Hx C. rewrite I2 in C by exact Hx. discriminate.
  - exists e. split; [left; reflexivity|reflexivity].
  - exact I2.
Qed.

(** ** Evaluation *)
Lemma evaluate_id e : eid (evaluate E e) = eid e.
Proof. unfold evaluate. destruct (ecomp e); reflexivity. Qed.
Lemma evaluate_comp e : ecomp (evaluate E e) = true.
Proof. unfold evaluate. destruct (ecomp e) eqn:C; [exact C|reflexivity]. Qed.
Lemma evaluate_state e : estate (evaluate E e) = estate e.
Proof. unfold evaluate. destruct (ecomp e); reflexivity. Qed.
Lemma evaluate_done e : ecomp e = true -> evaluate E e = e.
Proof. unfold evaluate. intros ->. reflexivity. Qed.
Lemma map_evaluate_id es : map eid (map (evaluate E) es) = map eid es.
Proof. rewrite map_map. apply map_ext, evaluate_id. Qed.
Lemma compute_good s : good s -> good (compute E s) /\ (forall e, In e (electrons (compute E s)) -> energy e = fFun E (estate e)).
Proof.
  intros (N & L & C).
  assert (V : forall e, In e (map (evaluate E) (electrons s)) -> energy e = fFun E (estate e)).
  { intros e He. apply in_map_iff in He. destruct He as (x & <- & Hx). unfold evaluate. destruct (ecomp x) eqn:D; [auto|reflexivity]. }
  split; [|exact V]. unfold compute. split; [|split]; cbn [electrons e_next].
  - rewrite map_evaluate_id. exact N.
  - intros e He. apply in_map_iff in He. destruct He as (x & <- & Hx). rewrite evaluate_id. auto.
  - intros e He _. auto.
Qed.

(** ** The best electron *)
Lemma scan_in es : forall cur, scan_best E cur es = cur \/ In (scan_best E cur es) es.
Proof.
  induction es as [|e t IH]; intros cur; cbn; [auto|].
  destruct (IH (if e_better E (energy e) (energy cur) then e else cur)) as [H|H]; [|auto].
  rewrite H. destruct (e_better _ _ _); auto.
Qed.
Lemma scan_best_of es : forall cur, nonnan (energy cur) -> (forall e, In e es -> nonnan (energy e)) ->
  e_better E (energy cur) (energy (scan_best E cur es)) = false /\
  forall e, In e es -> e_better E (energy e) (energy (scan_best E cur es)) = false.
Proof.
  induction es as [|e t IH]; intros cur Nc Ne; cbn [scan_best].
  - split; [apply eb_irrefl|intros e []].
  - set (c := if e_better E (energy e) (energy cur) then e else cur).
    assert (Nc' : nonnan (energy c)) by (unfold c; destruct (e_better _ _ _); [apply Ne; left; reflexivity|exact Nc]).
    destruct (IH c Nc' (fun x Hx => Ne x (or_intror Hx))) as (B1 & B2).
    assert (Nb : nonnan (energy (scan_best E c t))).
    { destruct (scan_in t c) as [->|H]; [exact Nc'|apply Ne; right; exact H]. }
    assert (Ne' : nonnan (energy e)) by (apply Ne; left; reflexivity).
    assert (Q : (sc (energy cur) <= sc (energy c) /\ sc (energy e) <= sc (energy c))%R).
    { unfold c. destruct (e_better E (energy e) (energy cur)) eqn:F.
      - apply eb_iff in F; auto. lra.
      - apply eb_false in F; auto. lra. }
    rewrite eb_false in B1 by auto. split; [apply eb_false; auto; lra|].
    intros x [<-|Hx]; [apply eb_false; auto; lra|auto].
Qed.
Lemma computeAtom_spec s s' : computeAtom E s = Ok s' ->
  exists e t st prev best,
    electrons s = e :: t /\ best = scan_best E e (electrons s) /\ In best (electrons s) /\
    sum_states E (map (fun _ => d0) (estate e)) (electrons s) = Ok st /\
    deref (electrons s) (atomBest s) = Ok prev /\
    s' = mkAOS (electrons s) (e_next s) (layers s) (map (fun x => fdiv x (d_of_Z (Z.of_nat (length (electrons s))))) st)
           (fdiv (sum_energy (electrons s)) (d_of_Z (Z.of_nat (length (electrons s))))) (eid best) (a_gen s)
           (if feq (energy prev) (energy best) then wrap64 (a_stop s + 1) else 0) (a_record s) (a_rng s).
Proof.
  unfold computeAtom. destruct (electrons s) as [|e t] eqn:Es; [discriminate|]. intros H.
  apply bind_Ok in H. destruct H as (st & Hst & H). apply bind_Ok in H. destruct H as (prev & Hp & H). injection H as <-.
  exists e, t, st, prev, (scan_best E e (e :: t)). repeat split; auto.
  destruct (scan_in (e :: t) e) as [->|I]; [left; reflexivity|exact I].
Qed.

(** ** Selection *)
Lemma sorted_by_nth (l : list electron) : sorted_by (electronLess E) l -> energy_order E l.
Proof.
  induction 1 as [|x l S IH F]; intros i j a b L Hi Hj.
  - destruct i; discriminate.
  - destruct i as [|i], j as [|j]; cbn in Hi, Hj; [|  |lia|].
    + injection Hi as <-. injection Hj as <-. apply eb_irrefl.
    + injection Hi as <-. rewrite Forall_forall in F. apply (F b). eapply nth_error_In, Hj.
    + eapply (IH i j); eauto. lia.
Qed.
Definition survivors_of (n : Z) (sorted es : list electron) : list electron :=
  filter (fun e => negb (existsb (fun d => (eid d =? eid e)%nat) (skipn (Z.to_nat n) sorted))) es.
Lemma survivors_perm n sorted es : NoDup (map eid es) -> Permutation es sorted ->
  Permutation (survivors_of n sorted es) (firstn (Z.to_nat n) sorted).
Proof.
  intros N P. set (k := Z.to_nat n).
  assert (Ns : NoDup (map eid sorted)) by (eapply Permutation_NoDup; [apply Permutation_map, P|exact N]).
  assert (NE : NoDup es) by (eapply NoDup_map_inv, N).
  apply NoDup_Permutation.
  - eapply sublist_NoDup; [apply sublist_filter|exact NE].
  - eapply sublist_NoDup; [apply sublist_firstn|]. eapply NoDup_map_inv, Ns.
  - intros x. unfold survivors_of. fold k. rewrite filter_In.
    assert (S : In x es <-> In x (firstn k sorted) \/ In x (skipn k sorted)).
    { rewrite <- in_app_iff, firstn_skipn. split; apply Permutation_in; [exact P|apply Permutation_sym, P]. }
    rewrite S. assert (D : In x (firstn k sorted) -> forall d, In d (skipn k sorted) -> eid d <> eid x).
    { intros Hx d Hd C. rewrite <- (firstn_skipn k sorted), map_app in Ns.
      assert (X : forall l l' : list nat, NoDup (l ++ l') -> forall a, In a l -> In a l' -> False).
      { induction l as [|y l IHl]; intros l' Nl a Ha Ha'; [destruct Ha|]. cbn in Nl. inversion Nl; subst.
        destruct Ha as [->|Ha]; [apply H1, in_or_app; auto|eapply IHl; eauto]. }
      eapply (X _ _ Ns (eid x)); [apply in_map, Hx|rewrite <- C; apply in_map, Hd]. }
    split.
    + intros ([H|H] & F); [exact H|]. exfalso. apply negb_true_iff in F.
      assert (existsb (fun d => (eid d =? eid x)%nat) (skipn k sorted) = true); [|congruence].
      apply existsb_exists. exists x. split; [exact H|apply Nat.eqb_refl].
    + intros H. split; [auto|]. apply negb_true_iff. apply not_true_iff_false. intros C.
      apply existsb_exists in C. destruct C as (d & Hd & C). apply Nat.eqb_eq in C. exact (D H d Hd C).
Qed.

Lemma select_spec opt s s' : std_ok (std E) -> NoDup (map eid (electrons s)) ->
  selectAndMakeLayers E opt s = Ok s' ->
  exists sorted t ls,
    (forall e, In e (electrons s) -> nonnan (energy e)) /\
    Permutation (electrons s) sorted /\ sorted_by (electronLess E) sorted /\ sorted = sort (std E) (electronLess E) (electrons s) /\
    t = fst (randIdx2 R 1 (to_int (wrap64 (maxLayerNum opt + 1))) (a_rng s)) /\
    make_layers E t (map eid (firstn (Z.to_nat (electronNum opt)) sorted)) = Ok ls /\
    s' = mkAOS (survivors_of (electronNum opt) sorted (electrons s)) (e_next s) (map (fun m => mkLayer m [] (junk E) 0) ls)
           (b_state s) (b_energy s) (atomBest s) (a_gen s) (a_stop s) (a_record s)
           (snd (randIdx2 R 1 (to_int (wrap64 (maxLayerNum opt + 1))) (a_rng s))).
Proof.
  intros (Hs & _) N. unfold selectAndMakeLayers. destruct (existsb _ _) eqn:Ex; [discriminate|].
  pose proof (no_nan _ Ex) as NN. destruct (Hs _ _ _ (eless_sw _ NN)) as (P & S).
  destruct (randIdx2 R 1 _ (a_rng s)) as [t g]. intros H. apply bind_Ok in H. destruct H as (ls & Hl & H). injection H as <-.
  exists (sort (std E) (electronLess E) (electrons s)), t, ls. cbn [fst snd]. repeat split; assumption.
Qed.
Lemma select_good opt s s' : std_ok (std E) -> good s -> selectAndMakeLayers E opt s = Ok s' ->
  good s' /\ sublist (electrons s') (electrons s).
Proof.
  intros Hstd (N & L & C) H. destruct (select_spec opt s s' Hstd N H) as (sorted & t & ls & _ & _ & _ & _ & _ & _ & ->).
  cbn [electrons]. assert (S : sublist (survivors_of (electronNum opt) sorted (electrons s)) (electrons s)) by apply sublist_filter.
  split; [|exact S]. split; [|split]; cbn [electrons e_next].
  - eapply sublist_NoDup; [apply sublist_map, S|exact N].
  - intros e He. apply L. eapply sublist_in; eauto.
  - intros e He. apply C. eapply sublist_in; eauto.
Qed.

(** ** New electrons *)
Lemma spawn_spec opt s l li p s' : spawn E opt s l li p = Ok s' ->
  exists v g, electrons s' = electrons s ++ [mkElectron (e_next s) v (junk E) false] /\ e_next s' = S (e_next s) /\
    layers s' = layers s /\ b_state s' = b_state s /\ b_energy s' = b_energy s /\ atomBest s' = atomBest s /\
    a_gen s' = a_gen s /\ a_stop s' = a_stop s /\ a_record s' = a_record s /\ a_rng s' = g.
Proof.
  unfold spawn. intros H. apply bind_Ok in H. destruct H as (parent & Hp & H). destruct (rand01 R (a_rng s)) as [d g1].
  apply bind_Ok in H. destruct H as ([v g2] & Hv & H). injection H as <-. exists v, g2. cbn. repeat split.
Qed.
(** What [updateElectrons] leaves alone. *)
Definition same_rest (s s' : aos') : Prop :=
  layers s' = layers s /\ b_state s' = b_state s /\ b_energy s' = b_energy s /\ atomBest s' = atomBest s /\
  a_gen s' = a_gen s /\ a_stop s' = a_stop s /\ a_record s' = a_record s.
Definition grows (s s' : aos') (k : nat) : Prop :=
  (exists new, electrons s' = electrons s ++ new /\ map eid new = seq (e_next s) k /\ (forall e, In e new -> ecomp e = false)) /\
  e_next s' = (e_next s + k)%nat /\ same_rest s s'.
Lemma grows_refl s : grows s s 0.
Proof. split; [exists []; rewrite app_nil_r; repeat split; intros e []|]. split; [lia|repeat split]. Qed.
Lemma grows_trans s1 s2 s3 j k : grows s1 s2 j -> grows s2 s3 k -> grows s1 s3 (j + k).
Proof.
  intros ((n1 & E1 & I1 & C1) & X1 & (S11 & S12 & S13 & S14 & S15 & S16 & S17))
         ((n2 & E2 & I2 & C2) & X2 & (S21 & S22 & S23 & S24 & S25 & S26 & S27)).
  split; [|split; [lia|repeat split; congruence]].
  exists (n1 ++ n2). split; [rewrite E2, E1, app_assoc; reflexivity|]. split.
  - rewrite map_app, I1, I2, X1, seq_app. reflexivity.
  - intros e He. apply in_app_or in He. destruct He; auto.
Qed.
Lemma spawn_grows opt s l li p s' : spawn E opt s l li p = Ok s' -> grows s s' 1.
Proof.
  intros H. apply spawn_spec in H. destruct H as (v & g & E1 & E2 & E3 & E4 & E5 & E6 & E7 & E8 & E9 & _).
  split; [|split; [lia|repeat split; assumption]]. eexists. split; [exact E1|]. split; [reflexivity|]. intros e [<-|[]]. reflexivity.
Qed.
Lemma spawn_layer_grows opt l li ps : forall s s', spawn_layer E opt s l li ps = Ok s' -> grows s s' (length ps).
Proof.
  induction ps as [|p ps IH]; intros s s' H; cbn [spawn_layer] in H.
  - injection H as <-. apply grows_refl.
  - apply bind_Ok in H. destruct H as (s1 & H1 & H). apply spawn_grows in H1. apply IH in H.
    exact (grows_trans _ _ _ _ _ H1 H).
Qed.
Lemma spawn_layers_grows opt ls : forall li s s', spawn_layers E opt s li ls = Ok s' ->
  grows s s' (length (concat (map members ls))).
Proof.
  induction ls as [|l ls IH]; intros li s s' H; cbn [spawn_layers] in H.
  - injection H as <-. apply grows_refl.
  - apply bind_Ok in H. destruct H as (s1 & H1 & H). apply spawn_layer_grows in H1. apply IH in H.
    cbn [map concat]. rewrite app_length. exact (grows_trans _ _ _ _ _ H1 H).
Qed.
Lemma computeLayers_spec s s' : computeLayers E s = Ok s' ->
  exists ls, mapM (computeLayer E (electrons s)) (layers s) = Ok ls /\
    s' = mkAOS (electrons s) (e_next s) ls (b_state s) (b_energy s) (atomBest s) (a_gen s) (a_stop s) (a_record s) (a_rng s).
Proof. unfold computeLayers. intros H. apply bind_Ok in H. destruct H as (ls & H1 & H). injection H as <-. eauto. Qed.
Lemma mapM_ok {A B} (f : A -> res B) l : forall r, mapM f l = Ok r -> Forall2 (fun x y => f x = Ok y) l r.
Proof.
  induction l as [|x l IH]; intros r H; cbn in H; [injection H as <-; constructor|].
  apply bind_Ok in H. destruct H as (y & Hy & H). apply bind_Ok in H. destruct H as (r' & Hr & H). injection H as <-. constructor; auto.
Qed.
Lemma mapM_all {A B} (f : A -> res B) l : (forall x, In x l -> exists y, f x = Ok y) -> exists r, mapM f l = Ok r.
Proof.
  induction l as [|x l IH]; intros H; cbn; [eauto|]. destruct (H x (or_introl eq_refl)) as (y & ->). cbn [bind].
  destruct IH as (r & ->); [intros z Hz; apply H; right; exact Hz|]. cbn. eauto.
Qed.
Lemma computeLayer_members es l l' : computeLayer E es l = Ok l' -> members l' = members l.
Proof.
  unfold computeLayer. intros H. apply bind_Ok in H. destruct H as (ms & _ & H). destruct ms as [|e t]; [discriminate|].
  apply bind_Ok in H. destruct H as (st & _ & H). injection H as <-. reflexivity.
Qed.
Lemma layers_members es ll : forall ls, mapM (computeLayer E es) ll = Ok ls -> map members ls = map members ll.
Proof.
  intros ls Hm. apply mapM_ok in Hm. induction Hm as [|l l' ll ll' Hl _ IH]; [reflexivity|].
  cbn [map]. rewrite (computeLayer_members _ _ _ Hl), IH. reflexivity.
Qed.
Lemma excite_spec opt s s' : excite E opt s = Ok s' ->
  exists ls new,
    mapM (computeLayer E (electrons s)) (layers s) = Ok ls /\ layers s' = ls /\
    electrons s' = electrons s ++ new /\ map eid new = seq (e_next s) (length (concat (map members (layers s)))) /\
    (forall e, In e new -> ecomp e = false) /\ e_next s' = (e_next s + length (concat (map members (layers s))))%nat /\
    b_state s' = b_state s /\ b_energy s' = b_energy s /\ atomBest s' = atomBest s /\ a_gen s' = wrap64 (a_gen s + 1) /\
    a_stop s' = a_stop s /\ a_record s' = a_record s.
Proof.
  unfold excite. intros H. apply bind_Ok in H. destruct H as (s1 & H1 & H). apply bind_Ok in H. destruct H as (s2 & H2 & H).
  injection H as <-. apply computeLayers_spec in H1. destruct H1 as (ls & Hm & ->). unfold updateElectrons in H2.
  apply spawn_layers_grows in H2. destruct H2 as ((new & E1 & E2 & E3) & X & (S1 & S2 & S3 & S4 & S5 & S6 & S7)).
  cbn [electrons e_next layers b_state b_energy atomBest a_gen a_stop a_record] in *.
  assert (M : map members ls = map members (layers s)).
  { eapply layers_members, Hm. }
  rewrite M in *. exists ls, new. repeat split; auto. congruence.
Qed.
Lemma excite_good opt s s' : good s -> excite E opt s = Ok s' -> good s'.
Proof.
  intros (N & L & C) H. apply excite_spec in H. destruct H as (ls & new & _ & _ & E1 & E2 & E3 & X & _). split; [|split].
  - rewrite E1, map_app, E2. apply NoDup_disjoint_app; [exact N|apply seq_NoDup|].
    intros i H1 H2. apply in_map_iff in H1. destruct H1 as (e & <- & He). apply L in He. apply in_seq in H2. lia.
  - intros e He. rewrite X. rewrite E1 in He. apply in_app_or in He. destruct He as [He|He]; [specialize (L e He); lia|].
    apply (in_map eid) in He. rewrite E2 in He. apply in_seq in He. lia.
  - intros e He Ce. rewrite E1 in He. apply in_app_or in He. destruct He as [He|He]; [auto|]. rewrite E3 in Ce by exact He. discriminate.
Qed.
Lemma settle_spec opt s s' : settle E opt s = Ok s' ->
  exists s1 s2, computeAtom E (compute E s) = Ok s1 /\ record_best E s1 = Ok s2 /\ selectAndMakeLayers E opt s2 = Ok s'.
Proof.
  unfold settle. intros H. apply bind_Ok in H. destruct H as (s1 & H1 & H). apply bind_Ok in H. destruct H as (s2 & H2 & H). eauto.
Qed.
Lemma record_best_spec s s' : record_best E s = Ok s' ->
  electrons s' = electrons s /\ e_next s' = e_next s /\ layers s' = layers s /\ b_state s' = b_state s /\ b_energy s' = b_energy s /\
  atomBest s' = atomBest s /\ a_gen s' = a_gen s /\ a_stop s' = a_stop s /\ a_rng s' = a_rng s /\
  (if rec_on E then exists e, deref (electrons s) (atomBest s) = Ok e /\ a_record s' = a_record s ++ [energy e] else a_record s' = a_record s).
Proof.
  unfold record_best. destruct (rec_on E).
  - intros H. apply bind_Ok in H. destruct H as (e & He & H). injection H as <-. repeat split. exists e. auto.
  - intros H. injection H as <-. repeat split.
Qed.
(** Everything about the first half of a round. *)
Lemma settle_full opt s s' : std_ok (std E) -> good s -> settle E opt s = Ok s' ->
  exists first rest st prev best sorted t ls,
    let es := map (evaluate E) (electrons s) in
    es = first :: rest /\ best = scan_best E first es /\ In best es /\
    sum_states E (map (fun _ => d0) (estate first)) es = Ok st /\
    deref es (atomBest s) = Ok prev /\
    (forall e, In e es -> nonnan (energy e)) /\ (forall e, In e es -> energy e = fFun E (estate e)) /\
    Permutation es sorted /\ sorted_by (electronLess E) sorted /\ sorted = sort (std E) (electronLess E) es /\
    t = fst (randIdx2 R 1 (to_int (wrap64 (maxLayerNum opt + 1))) (a_rng s)) /\
    make_layers E t (map eid (firstn (Z.to_nat (electronNum opt)) sorted)) = Ok ls /\
    electrons s' = survivors_of (electronNum opt) sorted es /\ e_next s' = e_next s /\
    layers s' = map (fun m => mkLayer m [] (junk E) 0) ls /\
    b_state s' = map (fun x => fdiv x (d_of_Z (Z.of_nat (length es)))) st /\
    b_energy s' = fdiv (sum_energy es) (d_of_Z (Z.of_nat (length es))) /\
    atomBest s' = eid best /\ a_gen s' = a_gen s /\
    a_stop s' = (if feq (energy prev) (energy best) then wrap64 (a_stop s + 1) else 0) /\
    a_record s' = (if rec_on E then a_record s ++ [energy best] else a_record s) /\
    good s'.
Proof.
  intros Hstd Hg H. destruct (compute_good s Hg) as (Hg1 & V). apply settle_spec in H. destruct H as (s1 & s2 & H1 & H2 & H3).
  apply computeAtom_spec in H1. destruct H1 as (first & rest & st & prev & best & Es & Eb & Ib & Hst & Hp & ->).
  apply record_best_spec in H2. cbn [electrons e_next layers b_state b_energy atomBest a_gen a_stop a_rng a_record] in H2.
  destruct H2 as (R1 & R2 & R3 & R4 & R5 & R6 & R7 & R8 & R9 & R10).
  assert (Hg2 : good s2). { destruct Hg1 as (A & B & C). unfold good. rewrite R1, R2. auto. }
  pose proof (select_good opt s2 s' Hstd Hg2 H3) as (Hg3 & _).
  apply select_spec in H3; [|exact Hstd|apply Hg2].
  destruct H3 as (sorted & t & ls & NN & P & S & Eso & Et & Hl & ->).
  rewrite R1, ?R2, ?R3, ?R4, ?R5, ?R6, ?R7, ?R8, ?R9 in *.
  change (electrons (compute E s)) with (map (evaluate E) (electrons s)) in *.
  change (atomBest (compute E s)) with (atomBest s) in *. change (a_rng (compute E s)) with (a_rng s) in *.
  change (a_record (compute E s)) with (a_record s) in *. change (a_stop (compute E s)) with (a_stop s) in *.
  change (a_gen (compute E s)) with (a_gen s) in *. change (e_next (compute E s)) with (e_next s) in *.
  exists first, rest, st, prev, best, sorted, t, ls. cbv zeta. cbn [electrons e_next layers b_state b_energy atomBest a_gen a_stop a_record].
  repeat split; auto.
  - destruct (rec_on E); [|exact R10]. destruct R10 as (e & He & ->).
    pose proof (deref_ok _ _ (proj1 Hg1) Ib) as D. change (electrons (compute E s)) with (map (evaluate E) (electrons s)) in D.
    rewrite D in He. injection He as <-. reflexivity.
  - apply Hg3.
  - apply Hg3.
  - apply Hg3.
Qed.
Lemma settle_good opt s s' : std_ok (std E) -> good s -> settle E opt s = Ok s' -> good s'.
Proof. intros Hstd Hg H. apply settle_full in H; auto. destruct H as (? & ? & ? & ? & ? & ? & ? & ? & H). cbv zeta in H.
  repeat match type of H with _ /\ _ => destruct H as (_ & H) end. exact H. Qed.

(** Rounds: an invariant of the run loop at its two points. *)
Lemma run_ind opt (P Q : aos' -> Prop) :
  (forall s s', P s -> settle E opt s = Ok s' -> Q s') ->
  (forall s s', Q s -> shouldTerminate opt s = false -> excite E opt s = Ok s' -> P s') ->
  forall fuel s s', P s -> aos_run E opt fuel s = Ok s' -> Q s' /\ shouldTerminate opt s' = true.
Proof.
  intros HS HX. induction fuel as [|n IH]; intros s s' Hp H; cbn [aos_run] in H; [discriminate|].
  apply bind_Ok in H. destruct H as (s1 & H1 & H). destruct (shouldTerminate opt s1) eqn:T.
  - injection H as <-. split; [eapply HS; eauto|exact T].
  - apply bind_Ok in H. destruct H as (s2 & H2 & H). eapply IH; [|exact H]. eapply HX; eauto.
Qed.
Lemma run_good opt fuel s s' : std_ok (std E) -> good s -> aos_run E opt fuel s = Ok s' -> good s'.
Proof.
  intros Hstd Hg H. apply (run_ind opt good good) in H; [apply H| | |exact Hg].
  - intros a b. apply settle_good, Hstd.
  - intros a b Ha _. apply excite_good, Ha.
Qed.
Lemma before_good s : std_ok (std E) -> before_round E s -> good s.
Proof.
  intros Hstd. induction 1 as [opt s s' H|opt s s1 s2 _ IH H1 _ H2|opt s s1 _ IH H1 _].
  - apply init_good in H. apply H.
  - eapply excite_good; [|exact H2]. eapply settle_good; eauto.
  - eapply settle_good; eauto.
Qed.
(** A run, seen as rounds. *)
Lemma run_rounds opt fuel : forall s s', aos_run E opt fuel s = Ok s' ->
  exists k s0, rounds E opt k s s0 /\ settle E opt s0 = Ok s' /\ shouldTerminate opt s' = true /\ (k < fuel)%nat.
Proof.
  induction fuel as [|n IH]; intros s s' H; cbn [aos_run] in H; [discriminate|].
  apply bind_Ok in H. destruct H as (s1 & H1 & H). destruct (shouldTerminate opt s1) eqn:T.
  - injection H as <-. exists 0%nat, s. repeat split; auto; [constructor|lia].
  - apply bind_Ok in H. destruct H as (s2 & H2 & H). apply IH in H. destruct H as (k & s0 & Hk & Hs & T' & L).
    exists (S k), s0. repeat split; auto; [econstructor; eauto|lia].
Qed.
Lemma rounds_run opt k : forall s s0 s', rounds E opt k s s0 -> settle E opt s0 = Ok s' -> shouldTerminate opt s' = true ->
  forall fuel, (k < fuel)%nat -> aos_run E opt fuel s = Ok s'.
Proof.
  induction k as [|k IH]; intros s s0 s' Hr Hs T fuel L; destruct fuel as [|fuel]; try lia; cbn [aos_run]; inversion Hr; subst.
  - rewrite Hs. cbn [bind]. rewrite T. reflexivity.
  - match goal with H : settle E opt s = Ok _ |- _ => rewrite H end. cbn [bind].
    match goal with H : shouldTerminate opt _ = false |- _ => rewrite H end.
    match goal with H : excite E opt _ = Ok _ |- _ => rewrite H end. cbn [bind]. eapply IH; eauto. lia.
Qed.
Lemma rounds_before opt k : forall s s0, before_round E s -> rounds E opt k s s0 -> before_round E s0.
Proof.
  induction k as [|k IH]; intros s s0 H Hr; inversion Hr; subst; [exact H|]. eapply IH; [|eassumption]. eapply br_next; eauto.
Qed.
Lemma run_last opt fuel s s' : before_round E s -> aos_run E opt fuel s = Ok s' ->
  before_round E s' /\ exists s0, before_round E s0 /\ settle E opt s0 = Ok s' /\ shouldTerminate opt s' = true.
Proof.
  intros B H. apply run_rounds in H. destruct H as (k & s0 & Hk & Hs & T & _). pose proof (rounds_before _ _ _ _ B Hk) as B0.
  split; [eapply br_again; eauto|eauto].
Qed.
End P.
