(** Facts about Pareto dominance and non-dominated layers. *)
From Coq Require Import List Arith ZArith Bool Lia Permutation Sorted.
From Flocq Require Import BinarySingleNaN.
From Verif Require Import Base Fl Rng StdOps ListFacts GABase GAOpsProofs MOGA MOGASpec.
Import ListNotations.
Open Scope nat_scope.

Section Dom.
Context (M : nat) (greater : bool).
Lemma better1_iff a b : better1 greater a b = true <-> Better greater a b.
Proof. unfold better1, Better. destruct greater; tauto. Qed.
Lemma notWorse1_iff a b : notWorse1 greater a b = true <-> NotWorse greater a b.
Proof. unfold notWorse1, NotWorse. destruct greater; tauto. Qed.
Lemma dominate_iff a b : isStrongDominate M greater a b = true <-> Dominates M greater a b.
Proof.
  unfold isStrongDominate, Dominates. rewrite andb_true_iff, forallb_forall, existsb_exists. split.
  - intros (H1 & i & H2 & H3). split.
    + intros j Hj. apply notWorse1_iff. apply H1. apply in_seq. lia.
    + exists i. apply in_seq in H2. split; [lia|]. apply better1_iff, H3.
  - intros (H1 & i & H2 & H3). split.
    + intros j Hj. apply in_seq in Hj. apply notWorse1_iff, H1. lia.
    + exists i. split; [apply in_seq; lia|]. apply better1_iff, H3.
Qed.
Lemma Better_irrefl a : ~ Better greater a a.
Proof. unfold Better. destruct greater; rewrite flt_irrefl; discriminate. Qed.
Lemma NotWorse_trans a b c : NotWorse greater a b -> NotWorse greater b c -> NotWorse greater a c.
Proof. unfold NotWorse. destruct greater; intros; eapply fle_trans; eassumption. Qed.
Lemma Better_NotWorse_trans a b c : Better greater a b -> NotWorse greater b c -> Better greater a c.
Proof.
  unfold Better, NotWorse. destruct greater; intros H1 H2; apply flt_true in H1; apply fle_true in H2;
    destruct H1 as (N1 & N2 & L1), H2 as (N3 & N4 & L2); apply flt_iff; try assumption; Lra.lra.
Qed.
Lemma NotWorse_Better_trans a b c : NotWorse greater a b -> Better greater b c -> Better greater a c.
Proof.
  unfold Better, NotWorse. destruct greater; intros H1 H2; apply fle_true in H1; apply flt_true in H2;
    destruct H1 as (N1 & N2 & L1), H2 as (N3 & N4 & L2); apply flt_iff; try assumption; Lra.lra.
Qed.
Lemma Dominates_irrefl a : ~ Dominates M greater a a.
Proof. intros (_ & i & _ & H). exact (Better_irrefl _ H). Qed.
Lemma Dominates_trans a b c : Dominates M greater a b -> Dominates M greater b c -> Dominates M greater a c.
Proof.
  intros (H1 & i & Hi & H2) (H3 & _). split.
  - intros j Hj. eapply NotWorse_trans; [apply H1|apply H3]; exact Hj.
  - exists i. split; [exact Hi|]. eapply Better_NotWorse_trans; [exact H2|apply H3, Hi].
Qed.
End Dom.

Section Lay.
Context {V : Type} (std : std_ops) (M : nat) (greater : bool).
Context (Hstd : std_ok std).
Notation gene' := (gene V fitv).
Notation dom' := (@dom V M greater).
Notation num := (@dominatedNum V M greater).

Lemma dom_iff (a b : gene') : dom' a b = true <-> dominates M greater a b.
Proof. apply dominate_iff. Qed.
Lemma dom_irrefl (a : gene') : dom' a a = false.
Proof. destruct (dom' a a) eqn:E; [|reflexivity]. apply dom_iff, Dominates_irrefl in E. contradiction. Qed.
Lemma dom_trans (a b c : gene') : dom' a b = true -> dom' b c = true -> dom' a c = true.
Proof. rewrite !dom_iff. apply Dominates_trans. Qed.

Lemma num_filter space (x : gene') : NoDup (map gid space) -> In x space ->
  num space x = length (filter (fun y => dom' y x) space).
Proof.
  intros N H. unfold dominatedNum. f_equal. apply filter_ext_in. intros y Hy.
  destruct (Nat.eqb_spec (gid y) (gid x)) as [E|E]; cbn [negb andb]; [|reflexivity].
  assert (y = x) by (eapply NoDup_map_inj; eassumption). subst. symmetry. apply dom_irrefl.
Qed.
Lemma filter_length_le {A} (f g : A -> bool) l : (forall x, In x l -> f x = true -> g x = true) ->
  length (filter f l) <= length (filter g l).
Proof.
  induction l as [|a l IH]; intros H; [cbn; lia|]. cbn [filter].
  assert (IH' : length (filter f l) <= length (filter g l)) by (apply IH; intros; apply H; cbn; auto).
  destruct (f a) eqn:E; [rewrite (H a) by (cbn; auto); cbn; lia|]. destruct (g a); cbn; lia.
Qed.
Lemma filter_length_lt {A} (f g : A -> bool) l z : (forall x, In x l -> f x = true -> g x = true) ->
  In z l -> f z = false -> g z = true -> length (filter f l) < length (filter g l).
Proof.
  induction l as [|a l IH]; intros H Hz Fz Gz; [contradiction|]. cbn [filter].
  destruct Hz as [->|Hz].
  - rewrite Fz, Gz. cbn. assert (length (filter f l) <= length (filter g l)) by (apply filter_length_le; intros; apply H; cbn; auto). lia.
  - assert (IH' : length (filter f l) < length (filter g l)) by (apply IH; auto; intros; apply H; cbn; auto).
    destruct (f a) eqn:E; [rewrite (H a) by (cbn; auto); cbn; lia|]. destruct (g a); cbn; lia.
Qed.
Lemma num_dom space (x y : gene') : NoDup (map gid space) -> In x space -> In y space ->
  dom' y x = true -> num space y < num space x.
Proof.
  intros N Hx Hy D. rewrite !num_filter by assumption.
  apply (filter_length_lt _ _ _ y); [|exact Hy|apply dom_irrefl|exact D].
  intros z Hz Dz. eapply dom_trans; eassumption.
Qed.
Lemma num_zero space (x : gene') : NoDup (map gid space) -> In x space ->
  (num space x = 0 <-> forall y, In y space -> dom' y x = false).
Proof.
  intros N H. rewrite num_filter by assumption. split.
  - intros E y Hy. destruct (dom' y x) eqn:D; [|reflexivity]. exfalso.
    assert (I : In y (filter (fun y => dom' y x) space)) by (apply filter_In; auto).
    destruct (filter _ space); [contradiction|discriminate].
  - intros E. destruct (filter (fun y => dom' y x) space) as [|y l] eqn:F; [reflexivity|]. exfalso.
    assert (I : In y (filter (fun y => dom' y x) space)) by (rewrite F; left; reflexivity).
    apply filter_In in I. destruct I as (I1 & I2). rewrite E in I2 by exact I1. discriminate.
Qed.
Lemma exists_zero space : NoDup (map gid space) -> space <> [] -> exists x, In x space /\ num space x = 0.
Proof.
  intros N NE.
  assert (W : forall n x, In x space -> num space x <= n -> exists z, In z space /\ num space z = 0).
  { induction n as [|n IH]; intros x Hx L; [exists x; split; [exact Hx|lia]|].
    destruct (Nat.eq_dec (num space x) 0) as [E|E]; [exists x; auto|].
    assert (D : exists y, In y space /\ dom' y x = true).
    { rewrite num_filter in E by assumption. destruct (filter (fun y => dom' y x) space) as [|y l] eqn:F; [cbn in E; lia|].
      exists y. apply (filter_In (fun y => dom' y x)). rewrite F. left. reflexivity. }
    destruct D as (y & Hy & D). apply (IH y Hy). pose proof (num_dom space x y N Hx Hy D). lia. }
  destruct space as [|x t]; [congruence|]. apply (W (num (x :: t) x) x); [left; reflexivity|lia].
Qed.

(** ** divideLayers *)
(** Layers with the common count of their members. *)
Definition layer_num (f : gene' -> nat) (L : list gene') (n : nat) : Prop :=
  L <> [] /\ forall x, In x L -> f x = n.
Lemma group_spec (f : gene' -> nat) (s : list (gene' * nat)) : forall m back,
  (forall x n, In (x, n) s -> n = f x) ->
  StronglySorted (fun a b => snd a <= snd b) s ->
  (forall x n, In (x, n) s -> m <= n) ->
  layer_num f back m ->
  exists ns, Forall2 (layer_num f) (group s (Some m) back) (m :: ns) /\ StronglySorted lt (m :: ns) /\
    concat (group s (Some m) back) = back ++ map fst s.
Proof.
  induction s as [|(x, n) s IH]; intros m back Hf SS Hm Hb; cbn [group].
  - exists []. split; [constructor; [exact Hb|constructor]|]. split; [constructor; constructor|]. cbn. reflexivity.
  - inversion SS as [|? ? SS' F]; subst. rewrite Forall_forall in F.
    assert (Hx : n = f x) by (apply Hf; left; reflexivity).
    assert (Hf' : forall x n, In (x, n) s -> n = f x) by (intros; apply Hf; right; assumption).
    destruct (Nat.eqb_spec m n) as [E|E].
    + destruct (IH m (back ++ [x]) Hf' SS') as (ns & A & B & C).
      * intros; eapply Hm; right; eassumption.
      * split; [destruct back; discriminate|]. intros y Hy. apply in_app_iff in Hy. destruct Hy as [Hy|[<-|[]]]; [apply Hb, Hy|congruence].
      * exists ns. split; [exact A|]. split; [exact B|]. rewrite C, <- app_assoc. reflexivity.
    + destruct (IH n [x] Hf' SS') as (ns & A & B & C).
      * intros y k Hy. exact (F (y, k) Hy).
      * split; [discriminate|]. intros y [<-|[]]. congruence.
      * exists (n :: ns). split; [constructor; assumption|]. split.
        -- constructor; [exact B|]. inversion B as [|? ? B' FB]; subst. rewrite Forall_forall in FB.
           assert (m < f x) by (specialize (Hm x (f x) (or_introl eq_refl)); lia).
           constructor; [exact H|]. apply Forall_forall. intros k Hk. specialize (FB k Hk). lia.
        -- cbn [concat]. rewrite C. reflexivity.
Qed.

Lemma withNum_sw (space : list gene') : strict_weak (@numLess V) (withNum M greater space).
Proof.
  repeat split.
  - intros a _. apply Nat.ltb_irrefl.
  - intros a b c _ _ _ H1 H2. unfold numLess in *. apply Nat.ltb_lt in H1, H2. apply Nat.ltb_lt. lia.
  - intros a b c _ _ _ H1. unfold numLess in *. rewrite !Nat.ltb_lt in *. lia.
Qed.
Lemma layers_spec (space : list gene') : NoDup (map gid space) -> space <> [] ->
  exists ns, Forall2 (layer_num (num space)) (snd (divideLayers std M greater space)) ns /\
    StronglySorted lt ns /\ nth_error ns 0 = Some 0 /\
    Permutation (concat (snd (divideLayers std M greater space))) space /\
    Permutation (fst (divideLayers std M greater space)) space.
Proof.
  intros N NE. unfold divideLayers. cbn [fst snd]. set (s := sort std numLess (withNum M greater space)).
  destruct (proj1 Hstd _ numLess _ (withNum_sw space)) as (P & S). fold s in P, S.
  assert (Hf : forall x n, In (x, n) s -> n = num space x /\ In x space).
  { intros x n H. apply (Permutation_in _ (Permutation_sym P)) in H. unfold withNum in H.
    apply in_map_iff in H. destruct H as (y & E & Hy). inversion E; subst. auto. }
  assert (SS : StronglySorted (fun a b => snd a <= snd b) s).
  { unfold sorted_by in S. clear -S. induction S as [|a l S IH F]; constructor; [exact IH|].
    rewrite Forall_forall in *. intros b Hb. specialize (F b Hb). unfold numLess in F. apply Nat.ltb_ge in F. exact F. }
  assert (P2 : Permutation (map fst s) space).
  { apply (Permutation_map fst) in P. apply Permutation_sym. replace (map fst (withNum M greater space)) with space in P; [exact P|].
    unfold withNum. rewrite map_map. cbn. symmetry. apply map_id. }
  destruct s as [|(x, n) s'] eqn:Es.
  { exfalso. apply NE. apply Permutation_nil in P2. exact P2. }
  unfold layers_of. cbn [group]. inversion SS as [|? ? SS' F]; subst. rewrite Forall_forall in F.
  destruct (group_spec (num space) s' n [x]) as (ns & A & B & C).
  - intros; apply Hf; right; assumption.
  - exact SS'.
  - intros y k Hy. exact (F (y, k) Hy).
  - split; [discriminate|]. intros y [<-|[]]. symmetry. apply Hf. left. reflexivity.
  - exists (n :: ns). split; [exact A|]. split; [exact B|].
    assert (n = 0).
    { destruct (exists_zero space N NE) as (z & Hz & Ez).
      apply (Permutation_in _ (Permutation_sym P2)) in Hz. apply in_map_iff in Hz. destruct Hz as ((z', k) & E & Hz). cbn in E. subst z'.
      assert (K : k = num space z) by (apply Hf; exact Hz). destruct Hz as [E|Hz].
      - inversion E; subst. congruence.
      - specialize (F (z, k) Hz). cbn in F. lia. }
    subst n. split; [reflexivity|]. split; [rewrite C; exact P2|exact P2].
Qed.
Lemma layers_nil (space : list gene') : snd (divideLayers std M greater space) = [] <-> space = [].
Proof.
  split; intros H.
  - unfold divideLayers in H. cbn [snd] in H. destruct (proj1 Hstd _ numLess _ (withNum_sw space)) as (P & _).
    destruct (sort std numLess (withNum M greater space)) as [|(x, n) s] eqn:E.
    + apply Permutation_sym, Permutation_nil in P. destruct space; [reflexivity|discriminate].
    + exfalso. unfold layers_of in H. cbn [group] in H.
      assert (Q : forall s m b, group s (Some m) b <> @nil (list gene')).
      { clear. induction s as [|(y, k) s IH]; intros m b; cbn; [discriminate|]. destruct (Nat.eqb m k); [apply IH|discriminate]. }
      exact (Q _ _ _ H).
  - subst. unfold divideLayers. cbn [snd]. destruct (proj1 Hstd _ numLess _ (withNum_sw [])) as (P & _).
    cbn in P. apply Permutation_nil in P. cbn [withNum map]. rewrite P. reflexivity.
Qed.
End Lay.
