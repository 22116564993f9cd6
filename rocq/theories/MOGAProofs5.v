(** Consequences of NSGA-II selection used by the property theorems. *)
From Coq Require Import List Arith ZArith Reals Bool Lia Lra Permutation Sorted.
From Flocq Require Import Core BinarySingleNaN.
From Verif Require Import Base Fl FlFacts Rng StdOps ListFacts GABase GABaseProofs GAOpsProofs MOGA MOGASpec MOGAProofs MOGAProofs2 MOGAProofs3 MOGAProofs4.
Import ListNotations.
Open Scope Z_scope.

Lemma strong_nth {A} (P : A -> A -> Prop) l : StronglySorted P l ->
  forall i j a b, (i < j)%nat -> nth_error l i = Some a -> nth_error l j = Some b -> P a b.
Proof.
  induction 1 as [|x l S IH F]; intros i j a b L Hi Hj; [destruct i; discriminate|].
  destruct j as [|j]; [lia|]. cbn in Hj. destruct i as [|i]; cbn in Hi.
  - inversion Hi; subst. rewrite Forall_forall in F. apply F. eapply nth_error_In; eassumption.
  - eapply (IH i j); try eassumption. lia.
Qed.
Lemma Forall2_nth {A B} (P : A -> B -> Prop) l l' : Forall2 P l l' -> forall i a, nth_error l i = Some a ->
  exists b, nth_error l' i = Some b /\ P a b.
Proof.
  induction 1 as [|a b l l' H F IH]; intros [|i] x E; cbn in E; try discriminate.
  - inversion E; subst. exists b. auto.
  - exact (IH i x E).
Qed.
Lemma in_concat_nth {A} (ls : list (list A)) x : In x (concat ls) <-> exists i L, nth_error ls i = Some L /\ In x L.
Proof.
  split.
  - induction ls as [|L ls IH]; cbn; [contradiction|]. intros H. apply in_app_iff in H. destruct H as [H|H].
    + exists 0%nat, L. auto.
    + destruct (IH H) as (i & L' & E & I). exists (S i), L'. auto.
  - intros (i & L & E & I). apply in_concat. exists L. split; [eapply nth_error_In; exact E|exact I].
Qed.

Section C.
Context {V : Type} (R : rng_ops) (std : std_ops) (M : nat) (greater : bool) (opt : ga_option).
Context (Hstd : std_ok std).
Notation core' := (core V fitv (list nat) (G R)).
Notation gene' := (gene V fitv).
Notation num := (@dominatedNum V M greater).

Lemma nodup_of_map (p : list gene') : NoDup (map gid p) -> NoDup p.
Proof. apply NoDup_map_inv. Qed.
Lemma count_num (p : list gene') x n : NoDup (map gid p) -> In x p -> (dominator_count M greater p x n <-> num p x = n).
Proof.
  intros N Hx. rewrite num_filter by assumption. split.
  - intros (ds & Nd & L & H). rewrite <- L. apply Permutation_length. apply NoDup_Permutation.
    + apply NoDup_filter, nodup_of_map, N.
    + exact Nd.
    + intros y. rewrite filter_In, H, dom_iff. tauto.
  - intros <-. exists (filter (fun y => dom M greater y x) p). split; [apply NoDup_filter, nodup_of_map, N|].
    split; [reflexivity|]. intros y. rewrite filter_In, dom_iff. tauto.
Qed.
Lemma nondom_zero (p : list gene') x : NoDup (map gid p) -> (nondominated_in M greater p x <-> In x p /\ num p x = 0%nat).
Proof.
  intros N. split.
  - intros (H & D). split; [exact H|]. apply num_zero; try assumption. intros y Hy. destruct (dom M greater y x) eqn:E; [|reflexivity].
    exfalso. apply (D y Hy). apply dom_iff. exact E.
  - intros (H & D). split; [exact H|]. intros y Hy C. apply dom_iff in C. rewrite (proj1 (num_zero M greater p x N H) D y Hy) in C. discriminate.
Qed.

(** The layers. *)
Lemma layers_facts (p : list gene') : NoDup (map gid p) -> p <> [] ->
  let ls := snd (divideLayers std M greater p) in
  Permutation (concat ls) p /\ (forall L, In L ls -> L <> []) /\
  (forall i L x, nth_error ls i = Some L -> In x L -> In x p /\ (i = 0%nat <-> num p x = 0%nat)) /\
  (forall i j L L' x y, nth_error ls i = Some L -> nth_error ls j = Some L' -> In x L -> In y L' ->
     ((i < j)%nat <-> (num p x < num p y)%nat)).
Proof.
  intros N NE ls. destruct (layers_spec std M greater Hstd p N NE) as (ns & LN & SS & N0 & PC & _). fold ls in LN, PC.
  assert (C4 : forall i j L L' x y, nth_error ls i = Some L -> nth_error ls j = Some L' -> In x L -> In y L' -> (i < j)%nat -> (num p x < num p y)%nat).
  { intros i j L L' x y Hi Hj Hx Hy. destruct (Forall2_nth _ _ _ LN i L Hi) as (a & Ha & _ & Fa).
    destruct (Forall2_nth _ _ _ LN j L' Hj) as (b & Hb & _ & Fb). rewrite (Fa x Hx), (Fb y Hy).
    intros Lij. exact (strong_nth _ _ SS i j a b Lij Ha Hb). }
  assert (C5 : forall i j L L' x y, nth_error ls i = Some L -> nth_error ls j = Some L' -> In x L -> In y L' -> ((i < j)%nat <-> (num p x < num p y)%nat)).
  { intros i j L L' x y Hi Hj Hx Hy. split; [eapply C4; eassumption|]. intros Q.
    destruct (Nat.lt_trichotomy i j) as [H|[H|H]]; [exact H| |].
    - subst j. assert (L' = L) by congruence. subst L'. destruct (Forall2_nth _ _ _ LN i L Hi) as (a & Ha & _ & Fa).
      rewrite (Fa x Hx), (Fa y Hy) in Q. lia.
    - pose proof (C4 j i L' L y x Hj Hi Hy Hx H). lia. }
  split; [exact PC|]. split.
  { intros L HL. apply In_nth_error in HL. destruct HL as (i & HL). destruct (Forall2_nth _ _ _ LN i L HL) as (a & _ & H & _). exact H. }
  split; [|exact C5].
  intros i L x Hi Hx. split.
  { eapply Permutation_in; [exact PC|]. apply in_concat_nth. eauto. }
  destruct (Forall2_nth _ _ _ LN i L Hi) as (a & Ha & _ & Fa). rewrite (Fa x Hx).
  split; [intros ->; congruence|]. intros ->. destruct i as [|i]; [reflexivity|].
  pose proof (strong_nth _ _ SS 0 (S i) 0%nat 0%nat ltac:(lia) N0 Ha). lia.
Qed.

Lemma nsga2_incl (c c' : core') : wf c -> 0 <= populationSize opt -> nsga2_select R std M greater opt c = Ok c' ->
  Z.of_nat (length (pop c')) = populationSize opt /\ sublist (pop c') (pop c) /\ wf c' /\ fails c' = fails c /\
  next c' = next c /\ gen_rng c' = gen_rng c.
Proof.
  intros Hw HK H. destruct (nsga2_select_inv R std M greater opt Hstd c c' Hw HK H)
    as (ls & ns & taken & sel & L0 & _ & _ & _ & _ & _ & Ls & Ep & Nd & I & En & Ef & Eg & _).
  destruct Hw as (N & Hlt).
  assert (SL : sublist (pop c') (pop c)) by (rewrite Ep; apply sublist_filter).
  split.
  { rewrite Ep, <- Ls. f_equal. apply Permutation_length, NoDup_Permutation.
    - apply NoDup_filter, nodup_of_map, N.
    - apply nodup_of_map, Nd.
    - intros x. unfold sel_ids. rewrite filter_In, inb_true. split.
      + intros (Hx & C). apply in_map_iff in C. destruct C as (y & E & Hy).
        assert (y = x) by (apply (NoDup_map_inj gid (pop c)); auto). subst. exact Hy.
      + intros Hx. split; [apply I, Hx|apply in_map, Hx]. }
  split; [exact SL|]. split.
  { split; [eapply sublist_NoDup; [apply sublist_map, SL|exact N]|]. intros x Hx. rewrite En. apply Hlt. eapply sublist_in; eassumption. }
  auto.
Qed.
Lemma in_survivors (c c' : core') (sel : list gene') x : NoDup (map gid (pop c)) -> pop c' = sel_ids sel (pop c) -> incl sel (pop c) ->
  (In x (pop c') <-> In x sel).
Proof.
  intros N Ep I. rewrite Ep. unfold sel_ids. rewrite filter_In, inb_true. split.
  - intros (Hx & C). apply in_map_iff in C. destruct C as (y & E & Hy).
    assert (y = x) by (apply (NoDup_map_inj gid (pop c)); auto). subst. exact Hy.
  - intros Hx. split; [apply I, Hx|apply in_map, Hx].
Qed.

(** Priority. *)
Lemma nsga2_priority (c c' : core') : wf c -> 0 <= populationSize opt -> nsga2_select R std M greater opt c = Ok c' ->
  (forall x y, In x (pop c) -> ~ In x (pop c') -> In y (pop c') -> (num (pop c) y < num (pop c) x)%nat) \/
  (exists orders, objective_orders M (pop c) orders /\
    forall x y, In x (pop c) -> ~ In x (pop c') -> In y (pop c') ->
      (num (pop c) y < num (pop c) x)%nat \/
      (num (pop c) y = num (pop c) x /\ fle (crowding orders x) (crowding orders y) = true)).
Proof.
  intros Hw HK H. destruct (nsga2_select_inv R std M greater opt Hstd c c' Hw HK H)
    as (ls & ns & taken & sel & L0 & LN & SS & _ & PC & _ & Ls & Ep & Nd & I & _ & _ & _ & _ & _ & Cases).
  destruct Hw as (N & Hlt). pose proof (in_survivors c c' sel) as IS.
  assert (IS' : forall x, In x (pop c') <-> In x sel) by (intros x; apply IS; assumption). clear IS.
  assert (Lnum : forall i j L L' x y, nth_error ls i = Some L -> nth_error ls j = Some L' -> In x L -> In y L' -> (i < j)%nat -> (num (pop c) x < num (pop c) y)%nat).
  { intros i j L L' x y Hi Hj Hx Hy. destruct (Forall2_nth _ _ _ LN i L Hi) as (a & Ha & _ & Fa).
    destruct (Forall2_nth _ _ _ LN j L' Hj) as (b & Hb & _ & Fb). rewrite (Fa x Hx), (Fb y Hy).
    intros Lij. exact (strong_nth _ _ SS i j a b Lij Ha Hb). }
  assert (Split : forall (tk rest : list (list gene')), ls = tk ++ rest -> forall x y, In y (concat tk) -> In x (concat rest) -> (num (pop c) y < num (pop c) x)%nat).
  { intros tk rest E x y Hy Hx. apply in_concat_nth in Hy, Hx. destruct Hy as (i & L & Hi & Iy). destruct Hx as (j & L' & Hj & Ix).
    assert (i < length tk)%nat by (apply nth_error_Some; congruence).
    apply (Lnum i (length tk + j)%nat L L'); try assumption; [| |lia].
    - rewrite E, nth_error_app1 by assumption. exact Hi.
    - rewrite E, nth_error_app2 by lia. replace (length tk + j - length tk)%nat with j by lia. exact Hj. }
  destruct Cases as [(rest & E & Es)|(L & rest & orders & part & m & E & Es & Hp & PL & SL & OO & NN & CM)].
  - left. intros x y Hx Hnx Hy. rewrite IS' in Hnx, Hy. rewrite Es in *.
    apply (Split taken rest E); [exact Hy|].
    apply (Permutation_in _ (Permutation_sym PC)) in Hx. rewrite E, concat_app, in_app_iff in Hx. destruct Hx; [contradiction|assumption].
  - right. exists orders. split; [exact OO|]. intros x y Hx Hnx Hy. rewrite IS' in Hnx, Hy.
    pose proof Hx as Hxp. pose proof (I y Hy) as Hyp.
    apply (Permutation_in _ (Permutation_sym PC)) in Hx. rewrite E, concat_app, in_app_iff in Hx. cbn [concat] in Hx. rewrite in_app_iff in Hx.
    rewrite Es, in_app_iff in Hy. rewrite Es, in_app_iff in Hnx.
    assert (Yin : In y (concat taken) \/ In y L /\ In y (firstn part (sort std (congMore m) L))).
    { destruct Hy as [Hy|Hy]; [auto|right]. split; [|exact Hy]. eapply Permutation_in; [apply Permutation_sym, PL|].
      eapply sublist_in; [apply sublist_firstn|exact Hy]. }
    assert (Xin : In x L \/ In x (concat rest)) by tauto.
    destruct Yin as [Hy'|(Hy1 & Hy2)].
    { left. apply (Split taken (L :: rest) E); [exact Hy'|]. cbn [concat]. apply in_app_iff. exact Xin. }
    destruct Xin as [Hx'|Hx'].
    2:{ left. apply (Split (taken ++ [L]) rest); [rewrite <- app_assoc; exact E| |exact Hx'].
        rewrite concat_app. apply in_app_iff. right. cbn. rewrite app_nil_r. exact Hy1. }
    right. assert (EL : nth_error ls (length taken) = Some L).
    { rewrite E, nth_error_app2 by lia. rewrite Nat.sub_diag. reflexivity. }
    destruct (Forall2_nth _ _ _ LN _ L EL) as (a & Ha & _ & Fa). rewrite (Fa x Hx'), (Fa y Hy1). split; [reflexivity|].
    assert (Hxs : In x (skipn part (sort std (congMore m) L))).
    { assert (Q : In x (sort std (congMore m) L)) by (eapply Permutation_in; eassumption).
      rewrite <- (firstn_skipn part (sort std (congMore m) L)) in Q. apply in_app_iff in Q. destruct Q; [exfalso; tauto|assumption]. }
    rewrite <- (firstn_skipn part (sort std (congMore m) L)) in SL.
    apply sorted_app in SL. destruct SL as (_ & _ & SL). specialize (SL y x Hy2 Hxs). unfold congMore in SL.
    rewrite <- !CM by assumption. apply flt_false_le in SL; [exact SL|apply NN; assumption..].
Qed.

(** The front kept in [_pfGenes]. *)
Lemma nsga2_front (c c' : core') : wf c -> 0 <= populationSize opt -> nsga2_select R std M greater opt c = Ok c' ->
  NoDup (ext c') /\
  (forall i, In i (ext c') -> exists x, In x (pop c') /\ gid x = i /\ nondominated_in M greater (pop c) x) /\
  (forall nd, NoDup nd -> (forall x, In x nd <-> nondominated_in M greater (pop c) x) ->
     Z.of_nat (length nd) <= populationSize opt -> forall x, In x nd -> In (gid x) (ext c')) /\
  (forall nd, NoDup nd -> (forall x, In x nd <-> nondominated_in M greater (pop c) x) ->
     populationSize opt < Z.of_nat (length nd) -> forall x, In x (pop c') -> In (gid x) (ext c')).
Proof.
  intros Hw HK H. destruct (nsga2_select_inv R std M greater opt Hstd c c' Hw HK H)
    as (ls & ns & taken & sel & L0 & LN & SS & N0 & PC & E0 & Ls & Ep & Nd & I & _ & _ & _ & Pf1 & Pf2 & Cases).
  destruct Hw as (N & Hlt). pose proof (in_survivors c c' sel) as IS.
  assert (IS' : forall x, In x (pop c') <-> In x sel) by (intros x; apply IS; assumption). clear IS.
  destruct ls as [|L0' ls']; [discriminate|]. inversion E0; subst L0'. clear E0.
  assert (HL0 : forall x, In x L0 <-> nondominated_in M greater (pop c) x).
  { intros x. rewrite nondom_zero by exact N. destruct ns as [|n0 ns']; [discriminate|]. inversion N0; subst n0.
    inversion LN as [|? ? ? ? (_ & F0) LN']; subst. split.
    - intros Hx. split; [|apply F0, Hx]. eapply Permutation_in; [exact PC|]. cbn. apply in_app_iff. auto.
    - intros (Hx & Z0). apply (Permutation_in _ (Permutation_sym PC)) in Hx. cbn in Hx. apply in_app_iff in Hx. destruct Hx as [Hx|Hx]; [exact Hx|].
      exfalso. apply in_concat_nth in Hx. destruct Hx as (i & L & Hi & Hx). destruct (Forall2_nth _ _ _ LN' i L Hi) as (b & Hb & _ & Fb).
      pose proof (strong_nth _ _ SS 0 (S i) 0%nat b ltac:(lia) eq_refl Hb). rewrite (Fb x Hx) in Z0. lia. }
  assert (NL0 : NoDup L0).
  { assert (NC : NoDup (concat (L0 :: ls'))) by (eapply Permutation_NoDup; [apply Permutation_sym, PC|apply nodup_of_map, N]).
    cbn in NC. apply NoDup_app_l in NC. exact NC. }
  assert (Lnd : forall nd, NoDup nd -> (forall x, In x nd <-> nondominated_in M greater (pop c) x) -> length nd = length L0).
  { intros nd Nn Hn. apply Permutation_length, NoDup_Permutation; try assumption. intros x. rewrite Hn, HL0. tauto. }
  assert (NgL0 : NoDup (map gid L0)).
  { assert (NC : NoDup (map gid (concat (L0 :: ls')))) by (eapply Permutation_NoDup; [apply Permutation_map, Permutation_sym, PC|exact N]).
    cbn [concat] in NC. rewrite map_app in NC. apply NoDup_app_l in NC. exact NC. }
  assert (LL : length (concat (L0 :: ls')) = (length L0 + length (concat ls'))%nat) by (cbn; apply app_length).
  (* L0 fits: it is among the survivors *)
  assert (Fits : Z.of_nat (length L0) <= populationSize opt -> forall x, In x L0 -> In x (pop c')).
  { intros Le x Hx. rewrite IS'. destruct Cases as [(rest & E & Es)|(L & rest & orders & part & m & E & Es & Hp & PL & _)].
    - destruct taken as [|T taken].
      + cbn in Es. subst sel. cbn in Ls. destruct L0; [contradiction|]. cbn in Le. lia.
      + cbn in E. inversion E; subst T. rewrite Es. cbn. apply in_app_iff. auto.
    - destruct taken as [|T taken].
      + cbn in E. inversion E; subst L. cbn in Es. exfalso. rewrite Es in Ls. rewrite firstn_length_le in Ls; [|rewrite <- (Permutation_length PL); lia]. lia.
      + cbn in E. inversion E; subst T. rewrite Es. cbn. apply in_app_iff. left. apply in_app_iff. auto. }
  (* L0 does not fit: the survivors all belong to it *)
  assert (Over : populationSize opt < Z.of_nat (length L0) -> forall x, In x (pop c') -> In x L0).
  { intros Lt x Hx. rewrite IS' in Hx. destruct Cases as [(rest & E & Es)|(L & rest & orders & part & m & E & Es & Hp & PL & _)].
    - destruct taken as [|T taken]; [subst sel; contradiction|]. exfalso. cbn in E. inversion E; subst T.
      rewrite Es in Ls. cbn in Ls. rewrite app_length in Ls. lia.
    - destruct taken as [|T taken].
      + cbn in E. inversion E; subst L. cbn in Es. subst sel. eapply Permutation_in; [apply Permutation_sym, PL|].
        eapply sublist_in; [apply sublist_firstn|exact Hx].
      + exfalso. cbn in E. inversion E; subst T. rewrite Es in Ls. cbn in Ls. rewrite !app_length in Ls. lia. }
  destruct (Z.le_gt_cases (Z.of_nat (length L0)) (populationSize opt)) as [C|C].
  - rewrite (Pf1 C). split; [exact NgL0|]. split; [|split].
    + intros i Hi. apply in_map_iff in Hi. destruct Hi as (x & <- & Hx). exists x. split; [apply Fits; assumption|]. split; [reflexivity|apply HL0, Hx].
    + intros nd Nn Hn _ x Hx. apply in_map. apply HL0, Hn, Hx.
    + intros nd Nn Hn Q. rewrite (Lnd nd Nn Hn) in Q. lia.
  - specialize (Pf2 ltac:(lia)). split; [eapply Permutation_NoDup; [apply Permutation_sym, Pf2|exact Nd]|]. split; [|split].
    + intros i Hi. apply (Permutation_in _ Pf2) in Hi. apply in_map_iff in Hi. destruct Hi as (x & <- & Hx).
      apply IS' in Hx. exists x. split; [exact Hx|]. split; [reflexivity|]. apply HL0. apply Over; [lia|exact Hx].
    + intros nd Nn Hn Q. rewrite (Lnd nd Nn Hn) in Q. lia.
    + intros nd Nn Hn _ x Hx. apply (Permutation_in _ (Permutation_sym Pf2)). apply in_map, IS', Hx.
Qed.
Lemma derefs_ok (p : list gene') ids : (forall i, In i ids -> exists x, In x p /\ gid x = i) -> NoDup (map gid p) ->
  exists fl, derefs p ids = Ok fl /\ Forall2 (fun i f => exists x, In x p /\ gid x = i /\ gfit x = f) ids fl.
Proof.
  intros H N. induction ids as [|i ids IH]; cbn [derefs]; [exists []; auto|].
  destruct (find (fun x => Nat.eqb (gid x) i) p) as [x|] eqn:E.
  - apply find_some in E. destruct E as (Hx & E). apply Nat.eqb_eq in E.
    destruct IH as (fl & E2 & F2); [intros j Hj; apply H; right; exact Hj|]. rewrite E2. cbn [bind].
    exists (gfit x :: fl). split; [reflexivity|]. constructor; [exists x; auto|exact F2].
  - exfalso. destruct (H i (or_introl eq_refl)) as (x & Hx & Ex). pose proof (find_none _ _ E x Hx) as C. cbn in C.
    rewrite Ex, Nat.eqb_refl in C. discriminate.
Qed.

(** Crowding: infinity is never lost. *)
Lemma add_inf (y : double) : nneg y -> fadd dinf y = dinf.
Proof.
  intros (Ny & Vy). destruct y as [s|s| |s m e B]; try discriminate; try reflexivity.
  destruct s; [exfalso; apply ninf_neg; split; assumption|reflexivity].
Qed.
Lemma crowd_step_inf o (s : list gene') x : (o < M)%nat -> (forall y, In y s -> tame M y) -> crowd_step o s x dinf = dinf.
Proof.
  intros Ho Ht. unfold crowd_step. destruct (neighbours s (gid x)) as [(a, c)|] eqn:E; [|reflexivity].
  apply neighbours_in in E. destruct E as (Ia & Ic).
  destruct (tame_obj M a o (Ht a Ia) Ho) as (Fa & Va). destruct (tame_obj M c o (Ht c Ic) Ho) as (Fc & Vc).
  apply add_inf.
  destruct (gap_ok _ _ Fa Fc Va Vc) as (Fg & Ng & _). apply nneg_div; [exact Fg|exact Ng| |];
    (destruct s as [|f s']; [contradiction|]); cbn [spread];
    pose proof (last_in (f :: s') f ltac:(discriminate)) as Il;
    destruct (tame_obj M f o (Ht f (or_introl eq_refl)) Ho) as (Ff & Vf);
    destruct (tame_obj M _ o (Ht _ Il) Ho) as (Fl & Vl);
    apply (scale_ok _ _ Ff Fl Vf Vl).
Qed.
Lemma crowding_from_inf orders : forall o (x : gene'), (o + length orders <= M)%nat ->
  (forall s y, In s orders -> In y s -> tame M y) -> crowding_from o orders x dinf = dinf.
Proof.
  induction orders as [|s t IH]; intros o x L Ht; [reflexivity|]. cbn [crowding_from].
  rewrite crowd_step_inf.
  - apply IH; [cbn in L; lia|]. intros; eapply Ht; [right; eassumption|assumption].
  - cbn in L; lia.
  - intros y Hy. eapply Ht; [left; reflexivity|exact Hy].
Qed.
Lemma crowding_from_end orders : forall o (x : gene') acc k s, (o + length orders <= M)%nat ->
  (forall s y, In s orders -> In y s -> tame M y) -> nth_error orders k = Some s -> neighbours s (gid x) = None ->
  crowding_from o orders x acc = dinf.
Proof.
  induction orders as [|s t IH]; intros o x acc [|k] s0 L Ht Hk Hn; cbn in Hk; try discriminate; cbn [crowding_from].
  - inversion Hk; subst s0. unfold crowd_step at 1. rewrite Hn. apply crowding_from_inf; [cbn in L; lia|].
    intros; eapply Ht; [right; eassumption|assumption].
  - eapply IH; try eassumption; [cbn in L; lia|]. intros; eapply Ht; [right; eassumption|assumption].
Qed.

(** Ideal point. *)
Lemma cwise_obj f a b i : (i < M)%nat -> objective (cwise M f a b) i = f (objective a i) (objective b i).
Proof.
  intros H. unfold cwise, objective. rewrite (nth_indep _ dnan (f (obj a 0) (obj b 0))) by (rewrite map_length, seq_length; exact H).
  rewrite (map_nth (fun i => f (obj a i) (obj b i)) (seq 0 M) 0%nat i). rewrite seq_nth by exact H. reflexivity.
Qed.
Lemma ideal_fold (p : list gene') : forall b i, (i < M)%nat ->
  (forall x, In x p -> nonnan (objective (gfit x) i)) -> nonnan (objective b i) ->
  let r := fold_left (fun best x => cwise M (if greater then fmax2 else fmin2) best (gfit x)) p b in
  (objective r i = objective b i \/ exists x, In x p /\ objective r i = objective (gfit x) i) /\
  ~ Better greater (objective b i) (objective r i) /\ nonnan (objective r i) /\
  (forall x, In x p -> ~ Better greater (objective (gfit x) i) (objective r i)).
Proof.
  induction p as [|x p IH]; intros b i Hi Hn Hb; cbn [fold_left].
  { split; [auto|]. split; [|split; [exact Hb|intros ? []]]. apply Better_irrefl. }
  set (b1 := cwise M (if greater then fmax2 else fmin2) b (gfit x)).
  assert (Hx : nonnan (objective (gfit x) i)) by (apply Hn; left; reflexivity).
  assert (E1 : objective b1 i = (if greater then fmax2 else fmin2) (objective b i) (objective (gfit x) i)).
  { unfold b1. rewrite cwise_obj by exact Hi. reflexivity. }
  assert (K : (objective b1 i = objective b i \/ objective b1 i = objective (gfit x) i) /\
     NotWorse greater (objective b1 i) (objective b i) /\ NotWorse greater (objective b1 i) (objective (gfit x) i) /\ nonnan (objective b1 i)).
  { rewrite E1. unfold fmax2, fmin2, NotWorse. destruct greater.
    - destruct (flt (objective b i) (objective (gfit x) i)) eqn:E.
      + split; [auto|]. split; [apply flt_le, E|]. split; [apply fle_refl, Hx|exact Hx].
      + split; [auto|]. split; [apply fle_refl, Hb|]. split; [apply flt_false_le; assumption|exact Hb].
    - destruct (flt (objective (gfit x) i) (objective b i)) eqn:E.
      + split; [auto|]. split; [apply flt_le, E|]. split; [apply fle_refl, Hx|exact Hx].
      + split; [auto|]. split; [apply fle_refl, Hb|]. split; [apply flt_false_le; assumption|exact Hb]. }
  destruct K as (K1 & K2 & K3 & K4).
  destruct (IH b1 i Hi (fun y Hy => Hn y (or_intror Hy)) K4) as (A1 & A2 & A3 & A4).
  set (r := fold_left _ p b1) in *.
  assert (NB : forall z, NotWorse greater (objective b1 i) z -> ~ Better greater z (objective r i)).
  { intros z Hz C. apply A2. eapply NotWorse_Better_trans; eassumption. }
  split.
  - destruct A1 as [A1|(y & Hy & A1)]; [|right; exists y; cbn; auto]. rewrite A1.
    destruct K1 as [-> | ->]; [auto|right; exists x; cbn; auto].
  - split; [apply NB, K2|]. split; [exact A3|]. intros y [<-|Hy]; [apply NB, K3|exact (A4 y Hy)].
Qed.
End C.
