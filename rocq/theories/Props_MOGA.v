(** C17-C24, C62: multi-objective solvers, NSGA-II.
    Specification vocabulary: MOGASpec.v ([Dominates], [nondominated_in],
    [dominator_count], [crowding], [objective_orders], [tame]) and [wf]
    (GAOpsProofs.v). *)
From Coq Require Import List Arith ZArith Reals Bool Lia Permutation.
From Flocq Require Import Core BinarySingleNaN.
From Verif Require Import Base Fl Rng StdOps ListFacts GABase GABaseProofs GAOpsProofs MOGA MOGASpec MOGAProofs MOGAProofs2 MOGAProofs3 MOGAProofs4 MOGAProofs5.
Import ListNotations.
Open Scope Z_scope.

(** * C17 *)
Theorem C17_dominance_is_pareto :
  forall (M : nat) (greater : bool) (a b : list double),
    isStrongDominate M greater a b = true <-> Dominates M greater a b.
Proof. intros. apply dominate_iff. Qed.
Print Assumptions C17_dominance_is_pareto.

Theorem C17_strict_partial_order :
  forall (M : nat) (greater : bool) (a b c : list double),
    isStrongDominate M greater a a = false /\
    (isStrongDominate M greater a b = true -> isStrongDominate M greater b a = false) /\
    (isStrongDominate M greater a b = true -> isStrongDominate M greater b c = true -> isStrongDominate M greater a c = true).
Proof.
  intros M greater a b c.
  assert (I : forall x, isStrongDominate M greater x x = false).
  { intros x. destruct (isStrongDominate M greater x x) eqn:E; [|reflexivity]. apply dominate_iff, Dominates_irrefl in E. contradiction. }
  assert (T : forall x y z, isStrongDominate M greater x y = true -> isStrongDominate M greater y z = true -> isStrongDominate M greater x z = true).
  { intros x y z. rewrite !dominate_iff. apply Dominates_trans. }
  split; [apply I|]. split; [|apply T]. intros H. destruct (isStrongDominate M greater b a) eqn:E; [|reflexivity].
  rewrite <- (I a). symmetry. eapply T; eassumption.
Qed.
Print Assumptions C17_strict_partial_order.

(** * C18 *)
Theorem C18_first_layer_is_nondominated :
  forall (V : Type) (std : std_ops) (M : nat) (greater : bool) (p : list (gene V (list double))),
    std_ok std -> NoDup (map gid p) -> p <> [] ->
    exists L0 rest, snd (divideLayers std M greater p) = L0 :: rest /\ L0 <> [] /\
      (forall x, In x L0 <-> nondominated_in M greater p x) /\
      Permutation (concat (L0 :: rest)) p.
Proof.
  intros V std M greater p Hstd N NE. destruct (layers_facts std M greater Hstd p N NE) as (P & NL & L1 & L2).
  destruct (snd (divideLayers std M greater p)) as [|L0 rest] eqn:E.
  { exfalso. apply NE. cbn in P. apply Permutation_nil in P. exact P. }
  exists L0, rest. split; [reflexivity|]. split; [apply NL; left; reflexivity|]. split; [|exact P].
  intros x. rewrite nondom_zero by exact N. split.
  - intros Hx. destruct (L1 0%nat L0 x eq_refl Hx) as (A & B). split; [exact A|apply B; reflexivity].
  - intros (Hx & Z0). apply (Permutation_in _ (Permutation_sym P)), in_concat_nth in Hx. destruct Hx as (i & L & Hi & Hx).
    destruct (L1 i L x Hi Hx) as (_ & B). apply B in Z0. subst i. cbn in Hi. congruence.
Qed.
Print Assumptions C18_first_layer_is_nondominated.

Theorem C18_dominated_in_later_layer :
  forall (V : Type) (std : std_ops) (M : nat) (greater : bool) (p : list (gene V (list double))) i j L L' x y,
    std_ok std -> NoDup (map gid p) ->
    nth_error (snd (divideLayers std M greater p)) i = Some L -> In x L ->
    nth_error (snd (divideLayers std M greater p)) j = Some L' -> In y L' ->
    dominates M greater x y -> (i < j)%nat.
Proof.
  intros V std M greater p i j L L' x y Hstd N Hi Hx Hj Hy D.
  assert (NE : p <> []).
  { intros C. apply (layers_nil std M greater Hstd) in C. rewrite C in Hi. apply nth_error_In in Hi. destruct Hi. }
  destruct (layers_facts std M greater Hstd p N NE) as (P & NL & L1 & L2).
  apply (L2 i j L L' x y Hi Hj Hx Hy). apply num_dom; [exact N|exact (proj1 (L1 j L' y Hj Hy))|exact (proj1 (L1 i L x Hi Hx))|].
  apply dom_iff, D.
Qed.
Print Assumptions C18_dominated_in_later_layer.

(** Observable through the solver: an individual is never kept while one that
    dominates it is eliminated. *)
Theorem C18_dominators_survive :
  forall (V : Type) (R : rng_ops) (std : std_ops) (M : nat) (greater : bool) (opt : ga_option)
         (c c' : core V (list double) (list nat) (G R)) x y,
    std_ok std -> wf c -> 0 <= populationSize opt ->
    nsga2_select R std M greater opt c = Ok c' ->
    In y (pop c') -> In x (pop c) -> dominates M greater x y -> In x (pop c').
Proof.
  intros V R std M greater opt c c' x y Hstd Hw HK H Hy Hx D.
  destruct (in_dec Nat.eq_dec (gid x) (map gid (pop c'))) as [I|I].
  { apply in_map_iff in I. destruct I as (z & E & Hz).
    destruct (nsga2_incl R std M greater opt Hstd c c' Hw HK H) as (_ & SL & _).
    assert (z = x) by (apply (NoDup_map_inj gid (pop c)); auto; [apply Hw|eapply sublist_in; eassumption]). subst. exact Hz. }
  exfalso. assert (I' : ~ In x (pop c')) by (intros C; apply I, in_map, C).
  assert (Hyp : In y (pop c)).
  { destruct (nsga2_incl R std M greater opt Hstd c c' Hw HK H) as (_ & SL & _). eapply sublist_in; eassumption. }
  apply dom_iff in D. pose proof (num_dom M greater (pop c) y x (proj1 Hw) Hyp Hx D) as L.
  destruct (nsga2_priority R std M greater opt Hstd c c' Hw HK H) as [Q|(orders & _ & Q)].
  - specialize (Q x y Hx I' Hy). lia.
  - destruct (Q x y Hx I' Hy) as [Q'|(Q' & _)]; lia.
Qed.
Print Assumptions C18_dominators_survive.

(** * C19 *)
(** Two individuals share a layer iff equally many others dominate them... *)
Theorem C19_layers_group_by_dominator_count :
  forall (V : Type) (std : std_ops) (M : nat) (greater : bool) (p : list (gene V (list double))) i j L L' x y nx ny,
    std_ok std -> NoDup (map gid p) ->
    nth_error (snd (divideLayers std M greater p)) i = Some L -> In x L ->
    nth_error (snd (divideLayers std M greater p)) j = Some L' -> In y L' ->
    dominator_count M greater p x nx -> dominator_count M greater p y ny ->
    ((i < j)%nat <-> (nx < ny)%nat) /\ (i = j <-> nx = ny).
Proof.
  intros V std M greater p i j L L' x y nx ny Hstd N Hi Hx Hj Hy Dx Dy.
  assert (NE : p <> []).
  { intros C. apply (layers_nil std M greater Hstd) in C. rewrite C in Hi. apply nth_error_In in Hi. destruct Hi. }
  destruct (layers_facts std M greater Hstd p N NE) as (P & NL & L1 & L2).
  apply (count_num M greater) in Dx; [|exact N|exact (proj1 (L1 i L x Hi Hx))].
  apply (count_num M greater) in Dy; [|exact N|exact (proj1 (L1 j L' y Hj Hy))].
  subst. pose proof (L2 i j L L' x y Hi Hj Hx Hy). pose proof (L2 j i L' L y x Hj Hi Hy Hx). lia.
Qed.
Print Assumptions C19_layers_group_by_dominator_count.

(** ... so they are not the successive non-dominated fronts.  (b1 is dominated
    by a1 only, b2 by a1 and a2, b1 and b2 do not dominate each other.) *)
Definition vec (l : list Z) : list double := map d_of_Z l.
Definition ind (i : nat) (l : list Z) : gene nat (list double) := mkGene i i true (vec l).
Definition four : list (gene nat (list double)) := [ind 0 [5;5]; ind 1 [0;4]; ind 2 [1;9]; ind 3 [4;0]].
Theorem C19_layers_are_fronts_refuted :
  ~ (forall (std : std_ops) (M : nat) (greater : bool) (p : list (gene nat (list double))) k L,
       std_ok std -> NoDup (map gid p) -> nth_error (snd (divideLayers std M greater p)) k = Some L ->
       forall x, In x L <-> nondominated_in M greater (concat (skipn k (snd (divideLayers std M greater p)))) x).
Proof.
  intros H. specialize (H std_inst 2%nat false four 1%nat).
  assert (N : NoDup (map gid four)) by (repeat constructor; cbn; intuition lia).
  assert (E : map (map gid) (snd (divideLayers std_inst 2 false four)) = [[1; 3]; [2]; [0]]%nat) by (vm_compute; reflexivity).
  assert (D : dom 2 false (ind 2 [1;9]) (ind 0 [5;5]) = false /\ dom 2 false (ind 0 [5;5]) (ind 0 [5;5]) = false) by (vm_compute; auto).
  destruct (layers_facts std_inst 2 false std_inst_ok four N ltac:(discriminate)) as (P & _).
  set (ls := snd (divideLayers std_inst 2 false four)) in *. clearbody ls.
  destruct ls as [|A [|B [|C [|]]]]; try discriminate E. cbn [map] in E. specialize (H B std_inst_ok N eq_refl (ind 0 [5;5])).
  assert (EB : map gid B = [2%nat]) by congruence. assert (EC : map gid C = [0%nat]) by congruence. clear E.
  destruct B as [|b [|]]; try discriminate EB. destruct C as [|x [|]]; try discriminate EC.
  assert (Eb : b = ind 2 [1;9]).
  { apply (NoDup_map_inj gid four); [exact N| |right; right; left; reflexivity|cbn in EB |- *; congruence].
    eapply Permutation_in; [exact P|]. cbn. apply in_app_iff. right. left. reflexivity. }
  assert (Ex : x = ind 0 [5;5]).
  { apply (NoDup_map_inj gid four); [exact N| |left; reflexivity|cbn in EC |- *; congruence].
    eapply Permutation_in; [exact P|]. cbn. apply in_app_iff. right. right. left. reflexivity. }
  subst b x. destruct H as (_ & H). cbn [skipn concat app] in H. destruct H as [H|[]].
  - split; [right; left; reflexivity|]. destruct D as (D1 & D2). intros y [<-|[<-|[]]] Q; apply dom_iff in Q; [rewrite D1 in Q|rewrite D2 in Q]; discriminate Q.
  - apply (f_equal gid) in H. discriminate H.
Qed.
Print Assumptions C19_layers_are_fronts_refuted.

(** * C20 *)
Theorem C20_exactly_populationSize_survive :
  forall (V : Type) (R : rng_ops) (std : std_ops) (M : nat) (greater : bool) (opt : ga_option)
         (c c' : core V (list double) (list nat) (G R)),
    std_ok std -> wf c -> 0 <= populationSize opt -> nsga2_select R std M greater opt c = Ok c' ->
    Z.of_nat (length (pop c')) = populationSize opt /\ sublist (pop c') (pop c) /\ wf c'.
Proof.
  intros V R std M greater opt c c' Hstd Hw HK H.
  destruct (nsga2_incl R std M greater opt Hstd c c' Hw HK H) as (A & B & C & _). auto.
Qed.
Print Assumptions C20_exactly_populationSize_survive.

(** Selection succeeds when there are enough individuals with tame fitness values... *)
Theorem C20_selection_succeeds :
  forall (V : Type) (R : rng_ops) (std : std_ops) (M : nat) (greater : bool) (opt : ga_option)
         (c : core V (list double) (list nat) (G R)),
    std_ok std -> wf c -> 1 <= populationSize opt <= Z.of_nat (length (pop c)) ->
    (forall x, In x (pop c) -> tame M x) ->
    exists c', nsga2_select R std M greater opt c = Ok c'.
Proof. intros V R std M greater opt c Hstd Hw HK Ht. apply nsga2_total; assumption. Qed.
Print Assumptions C20_selection_succeeds.

(** ... and is undefined with fewer. *)
Theorem C20_too_few_is_undefined :
  forall (V : Type) (R : rng_ops) (std : std_ops) (M : nat) (greater : bool) (opt : ga_option)
         (c : core V (list double) (list nat) (G R)),
    std_ok std -> wf c -> Z.of_nat (length (pop c)) < populationSize opt ->
    nsga2_select R std M greater opt c = UB.
Proof. intros V R std M greater opt c Hstd Hw HK. apply nsga2_few; assumption. Qed.
Print Assumptions C20_too_few_is_undefined.

(** From initializePop() to the end of run(): defined, populationSize individuals
    left, and exactly maxGenerations generations. *)
Definition tame_fit (M : nat) (f : list double) : Prop :=
  forall o, (o < M)%nat -> fin (objective f o) /\ (Rabs (B2R (objective f o)) <= bpow radix2 1000)%R.
Theorem C20_whole_run :
  forall (V : Type) (R : rng_ops) (std : std_ops) (M : nat) (greater : bool) (opt : ga_option)
         (fs : user_funs V (list double) (G R)) (junk : list double) (v0 : V) (rec_on : bool) (vec_max : Z)
         (c : core V (list double) (list nat) (G R)) g r,
    rng_ok R -> std_ok std -> wf c -> 1 <= populationSize opt ->
    0 <= maxGenerations opt < two64 - 1 -> (rec_on = true -> maxGenerations opt < vec_max) ->
    (forall v, tame_fit M (fFun fs v)) ->
    exists s', run R fs opt junk (nsga2_hooks R std M greater opt) rec_on vec_max (S (Z.to_nat (maxGenerations opt)))
                   (mkGA (initializePop R fs opt junk v0 c) g r) = Ok s' /\
      generation s' = maxGenerations opt /\ fails (ga_core s') = 0 /\
      Z.of_nat (length (pop (ga_core s'))) = populationSize opt.
Proof.
  intros V R std M greater opt fs junk v0 rec_on vec_max c g r HR Hstd Hw HK HM Hv HQ.
  apply (mo_run R fs opt junk (nsga2_hooks R std M greater opt) (tame_fit M)); try assumption; try lia.
  intros c0 W L T. destruct (nsga2_total R std M greater opt Hstd c0 W) as (c' & E); [lia|exact T|].
  destruct (nsga2_incl R std M greater opt Hstd c0 c' W ltac:(lia) E) as (A & B & C & D & _).
  assert (B' : exists b, mo_bestFitness R M greater c' = Ok b).
  { unfold mo_bestFitness. destruct (pop c'); [cbn in A; lia|eauto]. }
  destruct B' as (b & Eb). exists c', b. split; [exact E|]. split; [exact Eb|]. split; [exact C|]. split; [exact A|].
  split; [intros x Hx; eapply sublist_in; eassumption|exact D].
Qed.
Print Assumptions C20_whole_run.

(** * C21 *)
(** Either every eliminated individual is dominated by more individuals than
    every survivor, or the tie inside the cut layer is decided by crowding
    distance. *)
Theorem C21_layer_then_crowding :
  forall (V : Type) (R : rng_ops) (std : std_ops) (M : nat) (greater : bool) (opt : ga_option)
         (c c' : core V (list double) (list nat) (G R)),
    std_ok std -> wf c -> 0 <= populationSize opt -> nsga2_select R std M greater opt c = Ok c' ->
    (forall x y nx ny, In x (pop c) -> ~ In x (pop c') -> In y (pop c') ->
       dominator_count M greater (pop c) x nx -> dominator_count M greater (pop c) y ny -> (ny < nx)%nat) \/
    (exists orders, objective_orders M (pop c) orders /\
      forall x y nx ny, In x (pop c) -> ~ In x (pop c') -> In y (pop c') ->
        dominator_count M greater (pop c) x nx -> dominator_count M greater (pop c) y ny ->
        (ny < nx)%nat \/ (ny = nx /\ fle (crowding orders x) (crowding orders y) = true)).
Proof.
  intros V R std M greater opt c c' Hstd Hw HK H.
  destruct (nsga2_incl R std M greater opt Hstd c c' Hw HK H) as (_ & SL & _).
  assert (CN : forall x n, In x (pop c) -> dominator_count M greater (pop c) x n -> dominatedNum M greater (pop c) x = n).
  { intros x n Hx D. apply (count_num M greater) in D; [exact D|apply Hw|exact Hx]. }
  destruct (nsga2_priority R std M greater opt Hstd c c' Hw HK H) as [Q|(orders & O & Q)].
  - left. intros x y nx ny Hx Hn Hy Dx Dy. rewrite <- (CN x nx Hx Dx), <- (CN y ny (sublist_in _ _ y SL Hy) Dy). apply Q; assumption.
  - right. exists orders. split; [exact O|]. intros x y nx ny Hx Hn Hy Dx Dy.
    rewrite <- (CN x nx Hx Dx), <- (CN y ny (sublist_in _ _ y SL Hy) Dy). apply Q; assumption.
Qed.
Print Assumptions C21_layer_then_crowding.

(** * C22 *)
Theorem C22_reported_front :
  forall (V : Type) (R : rng_ops) (std : std_ops) (M : nat) (greater : bool) (opt : ga_option)
         (c c' : core V (list double) (list nat) (G R)) nd,
    std_ok std -> wf c -> 0 <= populationSize opt -> nsga2_select R std M greater opt c = Ok c' ->
    NoDup nd -> (forall x, In x nd <-> nondominated_in M greater (pop c) x) ->
    exists front, paretoFront R c' = Ok (map gfit front) /\ NoDup front /\ incl front (pop c') /\
      (forall x, In x front -> nondominated_in M greater (pop c) x) /\
      (forall x y, In x front -> In y front -> ~ dominates M greater x y) /\
      (Z.of_nat (length nd) <= populationSize opt -> forall x, In x front <-> In x nd) /\
      (populationSize opt < Z.of_nat (length nd) -> forall x, In x front <-> In x (pop c')).
Proof.
  intros V R std M greater opt c c' nd Hstd Hw HK H Nn Hn.
  destruct (nsga2_front R std M greater opt Hstd c c' Hw HK H) as (ND & F1 & F2 & F3).
  destruct (nsga2_incl R std M greater opt Hstd c c' Hw HK H) as (_ & SL & Wc & _).
  assert (X : forall ids, NoDup ids -> (forall i, In i ids -> exists x, In x (pop c') /\ gid x = i /\ nondominated_in M greater (pop c) x) ->
     exists front, derefs (pop c') ids = Ok (map gfit front) /\ map gid front = ids /\ incl front (pop c') /\
       forall x, In x front -> nondominated_in M greater (pop c) x).
  { induction ids as [|i ids IH]; intros N1 Q; cbn [derefs].
    - exists []. repeat split; try contradiction; try (intros ? []).
    - inversion N1 as [|? ? N2 N3]; subst. destruct IH as (fr & E & Em & I & D); [exact N3|intros; apply Q; right; assumption|].
      destruct (Q i (or_introl eq_refl)) as (x & Hx & Ex & Dx).
      destruct (find (fun x => Nat.eqb (gid x) i) (pop c')) as [z|] eqn:Ef.
      + apply find_some in Ef. destruct Ef as (Hz & Ez). apply Nat.eqb_eq in Ez.
        assert (z = x) by (apply (NoDup_map_inj gid (pop c')); auto; [apply Wc|congruence]). subst z.
        rewrite E. cbn [bind]. exists (x :: fr). split; [reflexivity|]. split; [cbn; congruence|]. split.
        * intros y [<-|Hy]; [exact Hx|apply I, Hy].
        * intros y [<-|Hy]; [exact Dx|apply D, Hy].
      + exfalso. pose proof (find_none _ _ Ef x Hx) as C. cbn in C. rewrite Ex, Nat.eqb_refl in C. discriminate. }
  destruct (X (ext c') ND F1) as (front & E & Em & I & D). exists front. split; [exact E|].
  assert (NF : NoDup front) by (eapply NoDup_map_inv; rewrite Em; exact ND).
  assert (InF : forall x, In x (pop c') -> In (gid x) (ext c') -> In x front).
  { intros x Hx Hi. rewrite <- Em in Hi. apply in_map_iff in Hi. destruct Hi as (z & Ez & Hz).
    assert (z = x) by (apply (NoDup_map_inj gid (pop c')); auto; apply Wc). subst. exact Hz. }
  split; [exact NF|]. split; [exact I|]. split; [exact D|]. split; [|split].
  - intros x y Hx Hy Dm. apply D in Hy. destruct Hy as (_ & Hy). apply (Hy x); [|exact Dm]. eapply sublist_in; [exact SL|apply I, Hx].
  - intros Le x. split; [intros Hx; apply Hn, D, Hx|]. intros Hx.
    pose proof (F2 nd Nn Hn Le x Hx) as Hi.
    destruct (F1 _ Hi) as (z & Hz & Ez & _).
    assert (z = x). { apply (NoDup_map_inj gid (pop c)); [apply Hw|exact (sublist_in _ _ z SL Hz)| |exact Ez]. apply Hn in Hx. apply Hx. }
    subst z. apply InF; assumption.
  - intros Lt x. split; [apply I|]. intros Hx. apply InF; [exact Hx|]. exact (F3 nd Nn Hn Lt x Hx).
Qed.
Print Assumptions C22_reported_front.

(** * C23 *)
(** The distances used by selection, over the whole population: infinite for
    every individual at an end of some objective's order, else the sum of the
    normalised neighbour gaps ([crowding], MOGASpec.v). *)
Theorem C23_crowding_distance :
  forall (V : Type) (std : std_ops) (M : nat) (p sp : list (gene V (list double))) m,
    std_ok std -> NoDup (map gid p) -> (forall x, In x p -> tame M x) ->
    crowdAll std (seq 0 M) (p, fun _ => d0) = Ok (sp, m) ->
    exists orders, objective_orders M p orders /\
      (forall x, In x p -> m (gid x) = crowding orders x) /\
      (forall o s x, nth_error orders o = Some s -> In x p -> (hd_error s = Some x \/ last s x = x) -> m (gid x) = dinf).
Proof.
  intros V std M p sp m Hstd N Ht H.
  destruct (crowdAll_ok std Hstd M 0 p sp (fun _ => d0) m N H) as (P & orders & LO & OO & C).
  exists orders. split; [split; [exact LO|intros o s Hs; exact (OO o s Hs)]|]. split; [exact C|].
  intros o s x Hs Hx Hend. destruct (OO o s Hs) as (Ps & _).
  assert (Ns : NoDup (map gid s)) by (eapply Permutation_NoDup; [apply Permutation_map, Ps|exact N]).
  assert (Hxs : In x s) by (eapply Permutation_in; eassumption).
  rewrite (C x Hx). eapply (crowding_from_end M orders 0 x d0 o s); [lia| |exact Hs|].
  - intros t y Ht' Hy. apply In_nth_error in Ht'. destruct Ht' as (k & Hk). destruct (OO k t Hk) as (Pt & _).
    apply Ht. eapply Permutation_in; [apply Permutation_sym, Pt|exact Hy].
  - apply (neighbours_ends s Ns x x Hxs). destruct Hend as [E|E]; [left|right; exact E]. destruct s; [contradiction|]. cbn in *. congruence.
Qed.
Print Assumptions C23_crowding_distance.

(** Per layer the statement fails: the second layer of this population has two
    members, hence both extreme in it, but one has a finite distance. *)
Definition five : list (gene nat (list double)) := [ind 0 [0;4]; ind 1 [4;0]; ind 2 [3;5]; ind 3 [2;6]; ind 4 [9;9]].
Theorem C23_layer_extremes_refuted :
  exists sp m L x y, crowdAll std_inst (seq 0 2) (five, fun _ => d0) = Ok (sp, m) /\
    In L (snd (divideLayers std_inst 2 false five)) /\ L = [x; y] /\ fin (m (gid x)) /\ fin (m (gid y)).
Proof.
  assert (T : match crowdAll std_inst (seq 0 2) (five, fun _ => d0) with Ok a => is_finite (snd a 2%nat) && is_finite (snd a 3%nat) | _ => false end = true) by (vm_compute; reflexivity).
  assert (E : map (map gid) (snd (divideLayers std_inst 2 false five)) = [[0; 1]; [2; 3]; [4]]%nat) by (vm_compute; reflexivity).
  destruct (crowdAll std_inst (seq 0 2) (five, fun _ => d0)) as [(sp, m)| | |]; try discriminate T.
  apply andb_true_iff in T. destruct T as (T1 & T2). cbn [snd] in T1, T2.
  set (ls := snd (divideLayers std_inst 2 false five)) in *. clearbody ls.
  destruct ls as [|A [|B [|C [|]]]]; try discriminate E. cbn [map] in E.
  assert (EB : map gid B = [2; 3]%nat) by congruence. destruct B as [|x [|y [|]]]; try discriminate EB. cbn in EB.
  exists sp, m, [x; y], x, y. split; [reflexivity|]. split; [right; left; reflexivity|]. split; [reflexivity|].
  assert (gid x = 2%nat /\ gid y = 3%nat) as (-> & ->) by (split; congruence). split; assumption.
Qed.
Print Assumptions C23_layer_extremes_refuted.

(** * C24 *)
Theorem C24_best_fitness_is_ideal_point :
  forall (V : Type) (R : rng_ops) (M : nat) (greater : bool) (c : core V (list double) (list nat) (G R)),
    pop c <> [] -> (forall x i, In x (pop c) -> (i < M)%nat -> nonnan (objective (gfit x) i)) ->
    exists b, mo_bestFitness R M greater c = Ok b /\ length b = M /\
      forall i, (i < M)%nat ->
        (exists x, In x (pop c) /\ objective b i = objective (gfit x) i) /\
        (forall x, In x (pop c) -> NotWorse greater (objective b i) (objective (gfit x) i)).
Proof.
  intros V R M greater c NE HN. unfold mo_bestFitness. destruct (pop c) as [|x p] eqn:Ep; [congruence|].
  eexists. split; [reflexivity|]. set (step := fun best (i : gene V (list double)) => cwise M (if greater then fmax2 else fmin2) best (gfit i)).
  split.
  - assert (Q : forall l b, length b = M -> length (fold_left step l b) = M).
    { induction l as [|y l IH]; intros b Hb; [exact Hb|]. cbn [fold_left]. apply IH. unfold step, cwise. rewrite map_length, seq_length. reflexivity. }
    cbn [fold_left]. apply Q. unfold step, cwise. rewrite map_length, seq_length. reflexivity.
  - intros i Hi. destruct (ideal_fold M greater (x :: p) (gfit x) i Hi) as (A & _ & B & C).
    + intros y Hy. apply HN; assumption.
    + apply HN; [left; reflexivity|exact Hi].
    + fold step in A, B, C. split.
      * destruct A as [A|(y & Hy & A)]; [exists x; split; [left; reflexivity|exact A]|exists y; auto].
      * intros y Hy. specialize (C y Hy). assert (Ny : nonnan (objective (gfit y) i)) by (apply HN; assumption).
        unfold Better, NotWorse in *. destruct greater.
        -- apply flt_false_le; try assumption. destruct (flt _ _); [exfalso; apply C; reflexivity|reflexivity].
        -- apply flt_false_le; try assumption. destruct (flt _ _); [exfalso; apply C; reflexivity|reflexivity].
Qed.
Print Assumptions C24_best_fitness_is_ideal_point.

(** * C62 *)
Theorem C62_no_early_stop_nsga2 :
  forall (V : Type) (R : rng_ops) (std : std_ops) (M : nat) (greater : bool) (opt : ga_option)
         (fs : user_funs V (list double) (G R)) (junk : list double) (rec_on : bool) (vec_max : Z) fuel
         (s s' : ga V (list double) (list nat) (G R)),
    0 <= maxGenerations opt < two64 - 1 ->
    run R fs opt junk (nsga2_hooks R std M greater opt) rec_on vec_max fuel s = Ok s' ->
    generation s' = maxGenerations opt /\ fails (ga_core s') = 0.
Proof.
  intros V R std M greater opt fs junk rec_on vec_max fuel s s' HM. unfold run.
  destruct (rec_on && _); [discriminate|]. intros H. apply loop_sound in H; cbn [generation]; try assumption; try lia.
  destruct H as (cs & Hr & Hs & Hne & Hl & Hg & _). cbn [ga_core generation] in *.
  apply (no_fail_stop R fs opt junk (nsga2_hooks R std M greater opt) cs) with (t := 1) in Hr; try assumption; try lia; try reflexivity.
  - destruct Hr as (L & F). split; [lia|]. rewrite Hl. rewrite Forall_forall in F. apply F. apply last_in. exact Hne.
  - intros c c' E. cbn [hk_select nsga2_hooks] in E. unfold nsga2_select in E.
    destruct (divideLayers std M greater (pop c)) as [sp [|L0 ls]]; [discriminate|].
    apply bind_Ok in E. destruct E as (((a, b), n) & _ & E). apply bind_Ok in E. destruct E as ((u, v) & _ & E).
    apply bind_Ok in E. destruct E as (p' & _ & E). cbv zeta in E. inversion E. reflexivity.
Qed.
Print Assumptions C62_no_early_stop_nsga2.

(** * Non-vacuity *)
Definition sample : core nat (list double) (list nat) (G replay) := mkCore five 5 7 [] ([] : G replay).
Definition opt_n (k : Z) : ga_option := mkOpt k 1 10 d0 d0.
Definition seen (r : res (core nat (list double) (list nat) (G replay))) : option (list nat * list nat * Z) :=
  match r with Ok c => Some (map gid (pop c), ext c, fails c) | _ => None end.
Example ex_nsga2_3 : seen (nsga2_select replay std_inst 2 false (opt_n 3) sample) = Some ([0; 1; 3]%nat, [0; 1]%nat, 7).
Proof. vm_compute. reflexivity. Qed.
Example ex_nsga2_1 : seen (nsga2_select replay std_inst 2 false (opt_n 1) sample) = Some ([0]%nat, [0]%nat, 7).
Proof. vm_compute. reflexivity. Qed.
Example ex_sample_wf : wf sample.
Proof. split; [repeat constructor; cbn; intuition lia|]. cbn. intros x H. intuition subst; cbn; lia. Qed.
Example ex_sample_tame : forall x, In x (pop sample) -> tame 2 x.
Proof.
  assert (Q : forall z, 0 <= z <= 9 -> fin (d_of_Z z) /\ (Rabs (B2R (d_of_Z z)) <= bpow radix2 1000)%R).
  { intros z Hz. destruct (FlFacts.d_of_Z_exact z) as (A & B); [lia|]. split; [exact A|]. rewrite B.
    rewrite Rabs_pos_eq by (apply IZR_le; lia). apply Rle_trans with (bpow radix2 4); [change (bpow radix2 4) with 16%R; apply IZR_le; lia|].
    apply bpow_le. lia. }
  intros x H o Ho. destruct o as [|[|o]]; [| |lia]; cbn in H; intuition subst; apply Q; lia.
Qed.
Example ex_ideal : option_map (map (fun d => Btrunc d)) (match mo_bestFitness replay 2 false sample with Ok b => Some b | _ => None end) = Some [0; 0].
Proof. vm_compute. reflexivity. Qed.
