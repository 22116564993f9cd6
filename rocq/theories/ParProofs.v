(** Teams whose iterations write disjoint locations: no races, and the outcome
    does not depend on the schedule. *)
From Coq Require Import List Arith ZArith Bool Lia.
From Verif Require Import Base Par.
Import ListNotations.

Lemma NoDup_tail_app {A} (a b : list A) : NoDup (a ++ b) -> NoDup b.
Proof. induction a as [|x a IH]; cbn; intros H; [exact H|]. apply NoDup_cons_iff in H. apply IH, H. Qed.

Section Generic.
Context {L X : Type} (eqL : L -> L -> bool) (eqL_ok : forall a b, eqL a b = true <-> a = b).
Notation prog' := (prog L X).
Notation solo' := (@solo L X eqL).
Notation store' := (@store L X eqL).
Lemma store_same m l v : store' m l v l = v.
Proof. unfold store. rewrite (proj2 (eqL_ok l l) eq_refl). reflexivity. Qed.
Lemma store_other m l v l' : l' <> l -> store' m l v l' = m l'.
Proof. intros H. unfold store. destruct (eqL l' l) eqn:E; [apply eqL_ok in E; contradiction|reflexivity]. Qed.

(** [p] writes only in [W] and reads only in [W] and [Q]. *)
Fixpoint within (W Q : L -> Prop) (p : prog') : Prop :=
  match p with
  | Done => True
  | Rd l k => (W l \/ Q l) /\ forall v, within W Q (k v)
  | Wr l v k => W l /\ within W Q k
  end.
Lemma within_mono (W Q W' Q' : L -> Prop) p : (forall l, W l -> W' l) -> (forall l, Q l -> W' l \/ Q' l) -> within W Q p -> within W' Q' p.
Proof.
  intros H1 H2. induction p as [|l k IH|l v k IH]; intros H; [exact I| |].
  - destruct H as (A & B). split; [destruct A; [left; auto|auto]|]. intros v. apply IH. apply B.
  - destruct H as (A & B). split; auto.
Qed.
Lemma within_andthen W Q p q : within W Q p -> within W Q q -> within W Q (andthen p q).
Proof.
  intros Hp Hq. induction p as [|l k IH|l v k IH]; cbn [andthen within]; [exact Hq| |]; destruct Hp as (A & B); split; auto.
Qed.
Lemma within_chain W Q ps : Forall (within W Q) ps -> within W Q (chain ps).
Proof. induction 1 as [|p ps A _ IH]; [exact I|]. apply within_andthen; assumption. Qed.
Lemma solo_andthen p q m : solo' (andthen p q) m = solo' q (solo' p m).
Proof. revert m. induction p as [|l k IH|l v k IH]; intros m; cbn [andthen solo]; auto. Qed.
Lemma solo_outside W Q p l : within W Q p -> ~ W l -> forall m, solo' p m l = m l.
Proof.
  intros H N. induction p as [|l' k IH|l' v k IH]; intros m; cbn [solo]; [reflexivity| |]; destruct H as (A & B).
  - apply IH, B.
  - rewrite IH by exact B. apply store_other. intros ->. contradiction.
Qed.
Lemma solo_frame W Q p : within W Q p -> forall m m', (forall l, W l \/ Q l -> m l = m' l) -> forall l, W l \/ Q l -> solo' p m l = solo' p m' l.
Proof.
  induction p as [|l' k IH|l' v k IH]; intros H m m' E l Hl; cbn [solo]; [apply E; exact Hl| |]; destruct H as (A & B).
  - rewrite (E l' A). apply IH; auto.
  - apply IH; auto. intros l1 H1. unfold store. destruct (eqL l1 l'); auto.
Qed.
Fixpoint bounded (p : prog') (n : nat) : Prop :=
  match p with
  | Done => True
  | Rd l k => match n with O => False | S n' => forall v, bounded (k v) n' end
  | Wr l v k => match n with O => False | S n' => bounded k n' end
  end.
Lemma bounded_mono p : forall n n', n <= n' -> bounded p n -> bounded p n'.
Proof.
  induction p as [|l k IH|l v k IH]; intros n n' Hn H; [exact I| |]; (destruct n as [|n]; [destruct H|]); (destruct n' as [|n']; [lia|]); cbn [bounded] in *.
  - intros v. apply (IH v n n'); [lia|apply H].
  - apply (IH n n'); [lia|exact H].
Qed.
Lemma bounded_andthen p q : forall n k, bounded p n -> bounded q k -> bounded (andthen p q) (n + k).
Proof.
  induction p as [|l f IH|l v f IH]; intros n k Hp Hq; [apply (bounded_mono q k); [lia|exact Hq]| |]; (destruct n as [|n]; [destruct Hp|]); cbn [andthen bounded Nat.add] in *.
  - intros v. apply IH; auto.
  - apply IH; auto.
Qed.
Lemma bounded_chain ps n : Forall (fun p => bounded p n) ps -> bounded (chain ps) (n * length ps).
Proof.
  induction 1 as [|p ps A _ IH]; [exact I|]. cbn [length]. replace (n * S (length ps)) with (n + n * length ps) by lia.
  apply bounded_andthen; assumption.
Qed.
Lemma nth_set {A} (l : list A) i a j : nth_error (set_nth l i a) j = if Nat.eqb j i then (if Nat.ltb i (length l) then Some a else None) else nth_error l j.
Proof.
  revert i j. induction l as [|x l IH]; intros [|i] [|j]; cbn [set_nth nth_error length]; try reflexivity.
  - cbn [Nat.eqb]. destruct (j =? i); reflexivity.
  - cbn [Nat.eqb]. rewrite IH. reflexivity.
Qed.
Lemma set_length {A} (l : list A) i a : length (set_nth l i a) = length l.
Proof. revert i. induction l as [|x l IH]; intros [|i]; cbn; auto. Qed.
(** What one access changes. *)
Lemma tick_cases (s : @state L X) t : 
  tick eqL s t = s /\ (nth_error (snd s) t = None \/ nth_error (snd s) t = Some Done) \/
  (exists l k, nth_error (snd s) t = Some (Rd l k) /\ tick eqL s t = (fst s, set_nth (snd s) t (k (fst s l)))) \/
  (exists l v k, nth_error (snd s) t = Some (Wr l v k) /\ tick eqL s t = (store' (fst s) l v, set_nth (snd s) t k)).
Proof.
  unfold tick. destruct (nth_error (snd s) t) as [[|l k|l v k]|]; [left; auto|right; left; eauto|right; right; eauto 6|left; auto].
Qed.
Lemma nth_some_lt {A} (l : list A) i x : nth_error l i = Some x -> i < length l.
Proof. intros H. apply nth_error_Some. congruence. Qed.
Lemma finish (sched : list nat) : forall s : @state L X,
  (forall t p, nth_error (snd s) t = Some p -> bounded p (count_occ Nat.eq_dec sched t)) -> finished (interleave eqL sched s).
Proof.
  induction sched as [|a sched IH]; intros s H; cbn [interleave fold_left].
  - apply Forall_forall. intros p Hp. apply In_nth_error in Hp. destruct Hp as (t & Ht). specialize (H t p Ht). cbn in H. destruct p; [reflexivity|destruct H|destruct H].
  - apply IH. intros t p Ht.
    assert (Old : forall p0, nth_error (snd s) t = Some p0 -> t <> a -> bounded p0 (count_occ Nat.eq_dec sched t)).
    { intros p0 H0 N. specialize (H t p0 H0). rewrite count_occ_cons_neq in H by congruence. exact H. }
    destruct (tick_cases s a) as [(E & C)|[(l & k & Ea & E)|(l & v & k & Ea & E)]]; rewrite E in Ht.
    + destruct (Nat.eq_dec t a) as [->|N]; [|exact (Old p Ht N)].
      assert (p = Done) as -> by (destruct C as [C|C]; congruence). exact I.
    + cbn [snd] in Ht. rewrite nth_set in Ht. destruct (Nat.eqb_spec t a) as [->|N]; [|exact (Old p Ht N)].
      pose proof (nth_some_lt _ _ _ Ea) as Hl. apply Nat.ltb_lt in Hl. rewrite Hl in Ht.
      specialize (H a _ Ea). rewrite count_occ_cons_eq in H by reflexivity. cbn [bounded] in H. injection Ht as <-. apply H.
    + cbn [snd] in Ht. rewrite nth_set in Ht. destruct (Nat.eqb_spec t a) as [->|N]; [|exact (Old p Ht N)].
      pose proof (nth_some_lt _ _ _ Ea) as Hl. apply Nat.ltb_lt in Hl. rewrite Hl in Ht.
      specialize (H a _ Ea). rewrite count_occ_cons_eq in H by reflexivity. cbn [bounded] in H. injection Ht as <-. exact H.
Qed.

(** Threads that write disjoint locations. *)
Section Disjoint.
Context (Ws Qs : nat -> L -> Prop) (Dis : forall t u l, t <> u -> Ws t l -> ~ (Ws u l \/ Qs u l)) (m0 : L -> X) (ps0 : list prog').
Definition Inv (s : @state L X) : Prop :=
  length (snd s) = length ps0 /\
  (forall t p p0, nth_error (snd s) t = Some p -> nth_error ps0 t = Some p0 -> within (Ws t) (Qs t) p /\ forall l, Ws t l -> solo' p (fst s) l = solo' p0 m0 l) /\
  (forall l, (forall t, t < length ps0 -> ~ Ws t l) -> fst s l = m0 l).
Lemma inv_tick s a : Inv s -> Inv (tick eqL s a).
Proof.
  intros I0. destruct I0 as (I1 & I2 & I3). destruct (tick_cases s a) as [(E & _)|[(l & k & Ea & E)|(l & v & k & Ea & E)]]; rewrite E; [exact (conj I1 (conj I2 I3))| |].
  - split; [cbn [snd]; rewrite set_length; exact I1|]. split; [|exact I3]. intros t p p0 Ht H0. cbn [fst snd] in *. rewrite nth_set in Ht.
    destruct (Nat.eqb_spec t a) as [->|N]; [|exact (I2 t p p0 Ht H0)].
    pose proof (nth_some_lt _ _ _ Ea) as Hl. apply Nat.ltb_lt in Hl. rewrite Hl in Ht. injection Ht as <-.
    destruct (I2 a _ p0 Ea H0) as ((_ & J1) & J2). split; [apply J1|]. intros l1 H1. rewrite <- (J2 l1 H1). reflexivity.
  - pose proof (nth_some_lt _ _ _ Ea) as La.
    assert (Ha : exists pa, nth_error ps0 a = Some pa).
    { destruct (nth_error ps0 a) eqn:N; [eauto|]. apply nth_error_None in N. lia. }
    destruct Ha as (pa & Hpa). destruct (I2 a _ pa Ea Hpa) as ((Wl & J1) & J2).
    split; [cbn [snd]; rewrite set_length; exact I1|]. split.
    + intros t p p0 Ht H0. cbn [fst snd] in *. rewrite nth_set in Ht. destruct (Nat.eqb_spec t a) as [->|N].
      * apply Nat.ltb_lt in La. rewrite La in Ht. injection Ht as <-. rewrite Hpa in H0. injection H0 as <-. split; [exact J1|].
        intros l1 H1. rewrite <- (J2 l1 H1). reflexivity.
      * destruct (I2 t p p0 Ht H0) as (K1 & K2). split; [exact K1|]. intros l1 H1. rewrite <- (K2 l1 H1).
        apply (solo_frame _ _ p K1); [|left; exact H1]. intros l2 H2. apply store_other. intros ->. exact (Dis a t l ltac:(congruence) Wl H2).
    + intros l1 H1. cbn [fst]. rewrite store_other; [apply I3; exact H1|]. intros ->. apply (H1 a); [lia|exact Wl].
Qed.
Lemma inv_interleave sched : forall s, Inv s -> Inv (interleave eqL sched s).
Proof. induction sched as [|a sched IH]; intros s H; [exact H|]. cbn [interleave fold_left]. apply IH, inv_tick, H. Qed.
Lemma inv_no_race s : Inv s -> ~ racy s.
Proof.
  intros (I1 & I2 & _) (l & t & u & p & q & w & w' & N & Ht & Hu & Ap & Aq & Hw).
  assert (Ex : forall t p, nth_error (snd s) t = Some p -> within (Ws t) (Qs t) p).
  { intros t1 p1 H1. pose proof (nth_some_lt _ _ _ H1) as Hl. destruct (nth_error ps0 t1) as [p0|] eqn:E0; [exact (proj1 (I2 _ _ _ H1 E0))|].
    apply nth_error_None in E0. lia. }
  assert (Touch : forall t p w, within (Ws t) (Qs t) p -> next_access p = Some (l, w) -> (Ws t l \/ Qs t l) /\ (w = true -> Ws t l)).
  { intros t1 [|l1 k1|l1 v1 k1] w1 H1 A1; cbn in A1; [discriminate A1| |]; injection A1 as <- <-; destruct H1 as (H1 & _); split; auto; discriminate. }
  destruct (Touch t p w (Ex _ _ Ht) Ap) as (T1 & T2). destruct (Touch u q w' (Ex _ _ Hu) Aq) as (U1 & U2).
  apply orb_true_iff in Hw. destruct Hw as [-> | ->].
  - exact (Dis t u l N (T2 eq_refl) U1).
  - exact (Dis u t l (not_eq_sym N) (U2 eq_refl) T1).
Qed.
End Disjoint.

(** A parallel loop: iteration [i] writes only in [TW i] and reads only in [TW i], [TQ i]. *)
Section Loop.
Context (body : nat -> prog') (TW TQ : nat -> L -> Prop) (its : nat -> Prop).
Context (Fit : forall i, its i -> within (TW i) (TQ i) (body i)) (Dis : forall i j l, its i -> its j -> i <> j -> TW i l -> ~ (TW j l \/ TQ j l)).
Lemma chain_solo is : Forall its is -> NoDup is -> forall i l m, In i is -> TW i l -> solo' (thread body is) m l = solo' (body i) m l.
Proof.
  unfold thread. induction is as [|a is IH]; intros Hi Nd i l m Hin Hl; [destruct Hin|].
  apply Forall_cons_iff in Hi. destruct Hi as (Ha & Hi). apply NoDup_cons_iff in Nd. destruct Nd as (Na & Nd).
  cbn [map chain fold_right]. change (fold_right andthen Done (map body is)) with (chain (map body is)). rewrite solo_andthen.
  assert (Rest : within (fun l => exists j, In j is /\ TW j l) (fun l => exists j, In j is /\ TQ j l) (chain (map body is))).
  { apply within_chain, Forall_map, Forall_forall. intros j Hj. apply (within_mono (TW j) (TQ j)); [eauto|eauto|]. apply Fit. rewrite Forall_forall in Hi. auto. }
  rewrite Forall_forall in Hi.
  destruct Hin as [->|Hin].
  - apply (solo_outside _ _ _ l Rest). intros (j & Hj & Wj). apply (Dis i j l Ha (Hi j Hj)); [intros ->; contradiction|exact Hl|left; exact Wj].
  - rewrite (IH ltac:(apply Forall_forall; exact Hi) Nd i l _ Hin Hl). apply (solo_frame _ _ (body i) (Fit i (Hi i Hin))); [|left; exact Hl].
    intros l1 H1. apply (solo_outside _ _ (body a) l1 (Fit a Ha)). intros Wa. apply (Dis a i l1 Ha (Hi i Hin)); [intros ->; contradiction|exact Wa|exact H1].
Qed.
Lemma teams_disjoint (teams : list (list nat)) t u a b : NoDup (concat teams) -> t <> u -> nth_error teams t = Some a -> nth_error teams u = Some b ->
  forall i, In i a -> In i b -> False.
Proof.
  revert t u. induction teams as [|x teams IH]; intros [|t] [|u] Nd N Ht Hu i Hi Hj; cbn in *; try discriminate; try contradiction.
  - injection Ht as ->.
    assert (In i (concat teams)) by (apply in_concat; exists b; split; [eapply nth_error_In; eauto|exact Hj]).
    revert Nd. clear -Hi H. induction a as [|y a IHa]; cbn; [contradiction|]. intros Nd. apply NoDup_cons_iff in Nd. destruct Nd as (N1 & N2).
    destruct Hi as [->|Hi]; [apply N1, in_or_app; auto|apply IHa; auto].
  - injection Hu as ->.
    assert (In i (concat teams)) by (apply in_concat; exists a; split; [eapply nth_error_In; eauto|exact Hi]).
    revert Nd. clear -Hj H. induction b as [|y b IHa]; cbn; [contradiction|]. intros Nd. apply NoDup_cons_iff in Nd. destruct Nd as (N1 & N2).
    destruct Hj as [->|Hj]; [apply N1, in_or_app; auto|apply IHa; auto].
  - apply NoDup_tail_app in Nd. apply (IH t u Nd ltac:(congruence) Ht Hu i Hi Hj).
Qed.
Theorem loop_result (m : L -> X) (teams : list (list nat)) (sched : list nat) :
  NoDup (concat teams) -> Forall its (concat teams) ->
  let s := interleave eqL sched (start m body teams) in
  ~ racy s /\
  (finished s -> (forall i l, In i (concat teams) -> TW i l -> fst s l = solo' (body i) m l) /\
                 (forall l, (forall i, In i (concat teams) -> ~ TW i l) -> fst s l = m l)).
Proof.
  intros Nd Hall s.
  set (Ws := fun t l => exists is i, nth_error teams t = Some is /\ In i is /\ TW i l).
  set (Qs := fun t l => exists is i, nth_error teams t = Some is /\ In i is /\ TQ i l).
  assert (All : forall t is i, nth_error teams t = Some is -> In i is -> its i).
  { intros t is i Ht Hi. rewrite Forall_forall in Hall. apply Hall, in_concat. exists is. split; [eapply nth_error_In; eauto|exact Hi]. }
  assert (D : forall t u l, t <> u -> Ws t l -> ~ (Ws u l \/ Qs u l)).
  { intros t u l N (a & i & Ht & Hi & Wi) C.
    assert (K : exists b j, nth_error teams u = Some b /\ In j b /\ (TW j l \/ TQ j l)).
    { destruct C as [(b & j & C1 & C2 & C3)|(b & j & C1 & C2 & C3)]; exists b, j; auto. }
    destruct K as (b & j & Hu & Hj & Cj). apply (Dis i j l (All _ _ _ Ht Hi) (All _ _ _ Hu Hj)); [|exact Wi|exact Cj].
    intros ->. exact (teams_disjoint teams t u a b Nd N Ht Hu j Hi Hj). }
  assert (I0 : Inv Ws Qs m (map (thread body) teams) (start m body teams)).
  { split; [reflexivity|]. split; [|reflexivity]. intros t p p0 Hp H0. cbn [start snd fst] in *. rewrite Hp in H0. injection H0 as <-. split; [|reflexivity].
    rewrite nth_error_map in Hp. destruct (nth_error teams t) as [is|] eqn:Ht; [|discriminate Hp]. cbn in Hp. injection Hp as <-.
    apply within_chain, Forall_map, Forall_forall. intros i Hi. apply (within_mono (TW i) (TQ i)); [|right|apply Fit; eauto].
    - intros l Hl. exists is, i. auto.
    - exists is, i. auto. }
  pose proof (inv_interleave Ws Qs D m _ sched _ I0) as I1. fold s in I1.
  split; [exact (inv_no_race Ws Qs D m _ s I1)|]. intros Fin. destruct I1 as (L1 & L2 & L3). rewrite map_length in L1.
  assert (Dn : forall t p, nth_error (snd s) t = Some p -> p = Done).
  { intros t p Hp. unfold finished in Fin. rewrite Forall_forall in Fin. apply Fin. eapply nth_error_In; eauto. }
  split.
  - intros i l Hi Hl. apply in_concat in Hi. destruct Hi as (is & His & Hi). apply In_nth_error in His. destruct His as (t & Ht).
    assert (Lt : t < length (snd s)) by (rewrite L1; exact (nth_some_lt _ _ _ Ht)).
    destruct (nth_error (snd s) t) as [p|] eqn:Ep; [|apply nth_error_None in Ep; lia].
    pose proof (Dn t p Ep). subst p.
    assert (E0 : nth_error (map (thread body) teams) t = Some (thread body is)) by (apply map_nth_error; exact Ht).
    destruct (L2 t _ _ Ep E0) as (_ & K). specialize (K l). cbn [solo] in K. rewrite K by (exists is, i; auto).
    apply chain_solo; try assumption.
    + apply Forall_forall. intros j Hj. exact (All t is j Ht Hj).
    + clear -Nd Ht. revert t Ht. induction teams as [|x tm IH]; intros [|t] Ht; cbn in *; try discriminate.
      * injection Ht as ->. clear IH. induction is as [|y is IHi]; [constructor|]. cbn in Nd. apply NoDup_cons_iff in Nd. destruct Nd as (N1 & N2). constructor; [|auto]. intros H. apply N1, in_or_app. auto.
      * apply NoDup_tail_app in Nd. eauto.
  - intros l Hl. apply L3. intros t Ht (is & i & H1 & H2 & H3). apply (Hl i); [|exact H3]. apply in_concat. exists is. split; [eapply nth_error_In; eauto|exact H2].
Qed.
End Loop.
Theorem loop_finishes (body : nat -> prog') (m : L -> X) (teams : list (list nat)) (n : nat) (sched : list nat) :
  (forall i, In i (concat teams) -> bounded (body i) n) ->
  (forall t, t < length teams -> n * length (concat teams) <= count_occ Nat.eq_dec sched t) ->
  finished (interleave eqL sched (start m body teams)).
Proof.
  intros Hb Hc. apply finish. intros t p Hp. cbn [start snd] in Hp. rewrite nth_error_map in Hp.
  destruct (nth_error teams t) as [is|] eqn:Ht; [|discriminate Hp]. cbn in Hp. injection Hp as <-.
  pose proof (nth_some_lt _ _ _ Ht) as Lt. specialize (Hc t Lt).
  apply (bounded_mono _ (n * length (map body is))).
  - rewrite map_length. refine (Nat.le_trans _ _ _ _ Hc). apply Nat.mul_le_mono_l.
    clear -Ht. revert t Ht. induction teams as [|x tm IH]; intros [|t] Ht; cbn in *; try discriminate; rewrite app_length.
    + injection Ht as ->. lia.
    + specialize (IH _ Ht). lia.
  - apply bounded_chain, Forall_map, Forall_forall. intros i Hi. apply Hb, in_concat. exists is. split; [eapply nth_error_In; eauto|exact Hi].
Qed.
End Generic.
