(** Truncation, EliteReserved, StochasticUniversal: optimality, elitism and
    the use of the old best individual; absence of undefined behaviour in the
    other methods. *)
From Coq Require Import List Arith ZArith Bool Lia Permutation Reals Lra.
From Flocq Require Import Core BinarySingleNaN.
From Verif Require Import Base Fl FlFacts Rng StdOps ListFacts GABase GAOpsProofs SOGA SOGAProofs.
Import ListNotations.
Open Scope Z_scope.

Section P.
Context {V : Type} (R : rng_ops) (std : std_ops) (greater : bool) (opt : ga_option) (sp : sel_params).
Notation core' := (core V double nat (G R)).
Notation gene' := (gene V double).
Notation isB := (isBetter greater).
Notation K' := (K opt).

(** No individual that was dropped is strictly better than one that stayed. *)
Definition keeps_best (c c' : core') : Prop :=
  forall x y, In x (pop c) -> ~ In x (pop c') -> In y (pop c') -> isB (gfit x) (gfit y) = false.
(** The best individual after is at least as good as anything before. *)
Definition elitist (c c' : core') : Prop :=
  forall x b, In x (pop c) -> is_best_gene R c' b -> isB (gfit x) (gfit b) = false.

Lemma inb_ids_filter (p : list gene') ids x : In x (filter (fun x => negb (inb ids (gid x))) p) <-> In x p /\ ~ In (gid x) ids.
Proof. rewrite filter_In, negb_true_iff, inb_false. reflexivity. Qed.

Lemma firstn_rev_split {A} k (l : list A) : exists a b, l = a ++ b /\ firstn k (rev l) = rev b /\
   (k <= length l -> length b = k)%nat.
Proof.
  exists (firstn (length l - k) l), (skipn (length l - k) l).
  split; [symmetry; apply firstn_skipn|]. split.
  - rewrite firstn_rev. reflexivity.
  - rewrite skipn_length. lia.
Qed.

(** Shape of the truncation before the best gene is updated. *)
Lemma truncation_core (c : core') sorted p' :
  std_ok std -> wf c -> 0 <= K' ->
  sort_pop std greater (pop c) = Ok sorted -> trunc_erase opt (pop c) (rev sorted) = Ok p' ->
  exists a b, sorted = a ++ b /\ length a = length p' /\
    (forall x, In x p' <-> In x a) /\ sublist p' (pop c) /\
    Z.of_nat (length p') = Z.min K' (Z.of_nat (length (pop c))) /\
    (forall x, In x (pop c) <-> In x a \/ In x b) /\
    (forall x y, In x a -> In y b -> isB (gfit y) (gfit x) = false) /\
    sorted_by (geneBetter greater) sorted.
Proof.
  intros Hstd (N & _) HK Hso Ht.
  apply sort_pop_inv in Hso; [|exact Hstd]. destruct Hso as (P & S & _).
  apply trunc_erase_spec in Ht; [|exact HK|exact N| |].
  - destruct Ht as (k & E & L & Lk & Lp). rewrite rev_length in Lk.
    destruct (firstn_rev_split k sorted) as (a & b & Es & Ef & Lb). specialize (Lb Lk).
    exists a, b.
    assert (La : length a = length p').
    { apply Permutation_length in P. rewrite Es, app_length in P. lia. }
    assert (Nab : NoDup (map gid (a ++ b))).
    { rewrite <- Es. eapply Permutation_NoDup; [apply Permutation_map, P|exact N]. }
    assert (Ins : forall x, In x (pop c) <-> In x a \/ In x b).
    { intros x. rewrite <- in_app_iff, <- Es. split; apply Permutation_in; [exact P|apply Permutation_sym, P]. }
    split; [exact Es|]. split; [exact La|]. split.
    { intros x. rewrite E, inb_ids_filter, Ef, Ins. rewrite map_rev, <- in_rev. split.
      - intros ([H|H] & Hn); [exact H|exfalso; apply Hn, in_map, H].
      - intros H. split; [auto|]. intros C. apply in_map_iff in C. destruct C as (y & Ey & Hy).
        assert (y = x). { eapply NoDup_map_inj; [exact Nab|apply in_or_app; auto|apply in_or_app; auto|exact Ey]. }
        subst y. rewrite map_app in Nab. clear -Nab H Hy.
        induction a as [|z a IH]; [contradiction|]. cbn in Nab. inversion Nab; subst. destruct H as [<-|H].
        + apply H2. apply in_or_app. right. apply in_map, Hy.
        + apply IH; assumption. }
    split; [rewrite E; apply sublist_filter|]. split; [exact L|]. split; [exact Ins|].
    split; [|exact S].
    rewrite Es in S. apply sorted_app in S. destruct S as (_ & _ & C). intros x y Hx Hy. apply (C x y Hx Hy).
  - rewrite map_rev. apply NoDup_rev. eapply Permutation_NoDup; [apply Permutation_map, P|exact N].
  - intros x Hx. apply in_rev in Hx. eapply Permutation_in; [apply Permutation_sym, P|exact Hx].
Qed.

Lemma sorted_head_best (l : list gene') b : sorted_by (geneBetter greater) (b :: l) ->
  forall x, In x (b :: l) -> isB (gfit x) (gfit b) = false.
Proof.
  intros S x [<-|H]; [apply isB_irrefl|]. inversion S; subst. rewrite Forall_forall in H3. apply H3, H.
Qed.

Lemma truncation_spec (c c' : core') : std_ok std -> wf c -> 0 <= K' ->
  sel_truncation R std greater opt c = Ok c' ->
  selects_to R greater c c' (min_size R opt c) /\ keeps_best c c' /\ elitist c c'.
Proof.
  intros Hstd Hw HK H. unfold sel_truncation in H.
  apply bind_Ok in H. destruct H as (sorted & Hso & H). apply bind_Ok in H. destruct H as (p' & Ht & H).
  destruct (truncation_core c sorted p' Hstd Hw HK Hso Ht) as (a & b & Es & La & Ia & Sp & Lp & Ins & Cut & Srt).
  rewrite Es in H. rewrite <- La in H. rewrite firstn_app, Nat.sub_diag, firstn_all in H. cbn [firstn] in H. rewrite app_nil_r in H.
  destruct a as [|best a]; [discriminate|].
  unfold updateFail1 in H. apply bind_Ok in H. destruct H as (old & Ho & H).
  apply lookup_ok in Ho. destruct Ho as (Ho1 & Ho2).
  apply updateFail2_spec in H. destruct H as (b0 & Eb & Hp & Hn & He & _ & Hf). inversion Eb; subst b0; clear Eb.
  assert (Bst : forall x, In x (pop c) -> isB (gfit x) (gfit best) = false).
  { intros x Hx. apply (sorted_head_best (a ++ b)).
    - rewrite Es in Srt. exact Srt.
    - apply Ins in Hx. change (best :: a ++ b) with ((best :: a) ++ b). apply in_or_app. exact Hx. }
  assert (Bin : In best p') by (apply Ia; left; reflexivity).
  assert (Bg : is_best_gene R c' best) by (split; [rewrite Hp; exact Bin|congruence]).
  split; [|split].
  - split; [|split].
    + split; [rewrite Hp; exact Sp|]. split; [rewrite Hp; exact Lp|exact Hn].
    + exists best. split; [exact Bg|]. intros x Hx. apply Bst. rewrite Hp in Hx. eapply sublist_in; eauto.
    + exists old, best. split; [split; [eapply sublist_in; eauto|exact Ho2]|]. split; [exact Bg|exact Hf].
  - intros x y Hx Hnx Hy. rewrite Hp in Hnx, Hy. apply Cut; [apply Ia, Hy|].
    apply Ins in Hx. destruct Hx as [Hx|Hx]; [|exact Hx]. exfalso. apply Hnx, Ia, Hx.
  - intros x b1 Hx (Hb1 & Hb2). replace b1 with best; [apply Bst, Hx|].
    destruct Hw as (N & _). eapply (NoDup_map_inj gid (pop c')); [|rewrite Hp; exact Bin|exact Hb1|congruence].
    rewrite Hp. eapply sublist_NoDup; [apply sublist_map, Sp|exact N].
Qed.

(** Truncation always gets through the sorting and erasing part; whether it
    then runs into undefined behaviour depends exactly on whether the old best
    individual was erased. *)
Lemma trunc_erase_total (q : list gene') : forall p : list gene',
  0 <= K' -> NoDup (map gid p) -> Permutation p q \/ (length p <= length q)%nat ->
  NoDup (map gid q) -> (forall x, In x q -> In x p) -> (length p = length q)%nat ->
  exists p', trunc_erase opt p q = Ok p'.
Proof.
  induction q as [|w q IH]; intros p HK N _ Nq Hin L; cbn [trunc_erase].
  - destruct p; [|cbn in L; lia]. cbn [length]. destruct (Z.ltb_spec K' (Z.of_nat 0)); [lia|]. eauto.
  - destruct (Z.ltb_spec K' (Z.of_nat (length p))); [|eauto].
    inversion Nq as [|? ? Nw Nq']; subst.
    rewrite erase1_spec; [|exact N|apply in_map, Hin; left; reflexivity]. cbn [bind].
    apply IH; try assumption.
    + eapply sublist_NoDup; [apply sublist_map, sublist_filter|exact N].
    + right. cbn in L. pose proof (sublist_length _ _ (sublist_filter (fun x : gene' => negb (gid x =? gid w)%nat) p)).
      rewrite (filter_ext _ (fun x : gene' => negb (inb [gid w] (gid x))))
        by (intros x; cbn; rewrite orb_false_r; reflexivity).
      rewrite filter_notin_keys; [cbn; lia|exact N|constructor; [intros []|constructor]|].
      intros i [<-|[]]. apply in_map, Hin. left; reflexivity.
    + intros x Hx. apply filter_In. split; [apply Hin; right; exact Hx|].
      apply negb_true_iff, Nat.eqb_neq. intros C. apply Nw. rewrite <- C. apply in_map, Hx.
    + rewrite (filter_ext _ (fun x : gene' => negb (inb [gid w] (gid x))))
        by (intros x; cbn; rewrite orb_false_r; reflexivity).
      rewrite filter_notin_keys; [cbn in *; lia|exact N|constructor; [intros []|constructor]|].
      intros i [<-|[]]. apply in_map, Hin. left; reflexivity.
Qed.

Lemma sort_pop_ok (p : list gene') : (forall x, In x p -> nonnan (gfit x)) ->
  sort_pop std greater p = Ok (sort std (geneBetter greater) p).
Proof.
  intros H. unfold sort_pop.
  destruct (existsb (fun x : gene V (binary_float 53 1024) => is_nan (gfit x)) p) eqn:E; [|reflexivity].
  apply existsb_exists in E. destruct E as (x & Hx & Nx). apply H in Hx. unfold nonnan in Hx. pose proof (eq_trans (eq_sym Nx) Hx). discriminate.
Qed.

Lemma truncation_outcome (c : core') : std_ok std -> wf c -> 1 <= K' -> pop c <> [] ->
  (forall x, In x (pop c) -> nonnan (gfit x)) ->
  exists kept, sublist kept (pop c) /\ Z.of_nat (length kept) = min_size R opt c /\
    (forall x y, In x (pop c) -> ~ In x kept -> In y kept -> isB (gfit x) (gfit y) = false) /\
    (if inb (map gid kept) (ext c)
     then exists c', sel_truncation R std greater opt c = Ok c' /\ pop c' = kept
     else sel_truncation R std greater opt c = UB).
Proof.
  intros Hstd Hw HK Hne NN. pose proof Hw as (N & _).
  assert (Hso := sort_pop_ok (pop c) NN). set (sorted := sort std (geneBetter greater) (pop c)) in *.
  pose proof (sort_pop_inv std greater (pop c) sorted Hstd Hso) as (P & Srt & _).
  destruct (trunc_erase_total (rev sorted) (pop c)) as (p' & Ht).
  - lia.
  - exact N.
  - right. rewrite rev_length. rewrite (Permutation_length P). lia.
  - rewrite map_rev. apply NoDup_rev. eapply Permutation_NoDup; [apply Permutation_map, P|exact N].
  - intros x Hx. apply in_rev in Hx. eapply Permutation_in; [apply Permutation_sym, P|exact Hx].
  - rewrite rev_length. apply Permutation_length, P.
  - destruct (truncation_core c sorted p' Hstd Hw ltac:(lia) Hso Ht) as (a & b & Es & La & Ia & Sp & Lp & Ins & Cut & _).
    exists p'. split; [exact Sp|]. split; [exact Lp|]. split.
    { intros x y Hx Hnx Hy. apply Cut; [apply Ia, Hy|].
      apply Ins in Hx. destruct Hx as [Hx|Hx]; [|exact Hx]. exfalso. apply Hnx, Ia, Hx. }
    unfold sel_truncation. rewrite Hso. cbn [bind]. rewrite Ht. cbn [bind].
    rewrite Es, <- La, firstn_app, Nat.sub_diag, firstn_all. cbn [firstn]. rewrite app_nil_r.
    destruct a as [|best a].
    { exfalso. cbn in La. destruct (pop c); [congruence|]. cbn [length] in Lp. lia. }
    unfold updateFail1. destruct (inb (map gid p') (ext c)) eqn:Ei.
    + apply inb_true in Ei. apply in_map_iff in Ei. destruct Ei as (o & Eo & Ho).
      rewrite <- Eo, lookup_in; [|eapply sublist_NoDup; [apply sublist_map, Sp|exact N]|exact Ho].
      cbn [bind updateFail2]. eexists. split; reflexivity.
    + apply inb_false in Ei. apply lookup_UB in Ei. rewrite Ei. reflexivity.
Qed.

(** ** EliteReserved *)
Definition elite_size (c : core') : Z :=
  let N := Z.of_nat (length (pop c)) in
  if N <=? K' then N else Z.max K' (Z.min (eliteNum sp) N).

Lemma elite_spec fuel (c c' : core') : std_ok std -> wf c -> sizes_ok R opt c ->
  sel_elite R std greater opt sp fuel c = Ok c' ->
  selects_to R greater c c' (elite_size c) /\ (1 <= eliteNum sp -> (forall x, In x (pop c) -> nonnan (gfit x)) -> elitist c c').
Proof.
  intros Hstd Hw Hs H. pose proof Hw as (N & _). unfold sel_elite in H.
  destruct (sizes_int R opt c Hs) as (E1 & E2). cbv zeta in H. rewrite E1, E2 in H. unfold popSize, elite_size in *.
  destruct (Z.leb_spec (Z.of_nat (length (pop c)) - K') 0) as [L|L].
  - destruct (Z.leb_spec (Z.of_nat (length (pop c))) K'); [|lia].
    pose proof (early1 R greater c c' _ N eq_refl H) as Hsel. split; [exact Hsel|].
    intros _ _ x b Hx (Hb & Hid). destruct Hsel as ((S & Ls & _) & (b' & (Hb' & Hid') & Bst) & _).
    assert (Ep : pop c' = pop c) by (apply sublist_same_length; [exact S|lia]).
    assert (b' = b).
    { eapply (NoDup_map_inj gid (pop c')); [rewrite Ep; exact N|exact Hb'|exact Hb|congruence]. }
    subst b'. apply Bst. rewrite Ep. exact Hx.
  - destruct (Z.leb_spec (Z.of_nat (length (pop c))) K'); [lia|].
    apply bind_Ok in H. destruct H as (sorted & Hso & H).
    pose proof (sort_pop_inv std greater (pop c) sorted Hstd Hso) as (P & Srt & _).
    destruct (Z.ltb_spec (eliteNum sp) 0) as [Lneg|Lneg]; [discriminate|].
    set (e := Z.to_nat (eliteNum sp)) in *.
    set (ws := weights_of greater (skipn e sorted)) in *.
    set (es := shift_by (min_of ws) ws) in *.
    apply bind_Ok in H. destruct H as ((es' & g') & H1 & H2).
    assert (Hsub : sublist es' es /\ (0 <= Z.of_nat (length (pop c)) - K' ->
       Z.of_nat (length es') = Z.min (Z.of_nat (length es)) (Z.of_nat (length (pop c)) - K'))).
    { destruct (fle (sum_of es) d0); [eapply elite_equal_sub|eapply spin_loop_sub]; exact H1. }
    destruct Hsub as (Ssub & Lsub). specialize (Lsub ltac:(lia)).
    assert (Les : length es = (length (pop c) - e)%nat).
    { unfold es, ws. rewrite len_shift. unfold weights_of. rewrite map_length, skipn_length.
      rewrite (Permutation_length P). reflexivity. }
    assert (Fes : map fst es = map gid (skipn e sorted)).
    { unfold es, ws. rewrite fst_shift, fst_weights. reflexivity. }
    assert (Nso : NoDup (map gid sorted)) by (eapply Permutation_NoDup; [apply Permutation_map, P|exact N]).
    unfold finish1, applyErasement in H2.
    destruct (erasure_survivors_sub (pop c) (map fst es) (map fst es') N) as (p' & Ee & Sp & Lp & Inp).
    { apply sublist_map, Ssub. }
    { rewrite Fes. eapply sublist_NoDup; [apply sublist_map, sublist_skipn|exact Nso]. }
    { rewrite Fes. intros i Hi. apply in_map_iff in Hi. destruct Hi as (x & <- & Hx). apply in_map.
      eapply Permutation_in; [apply Permutation_sym, P|]. eapply sublist_in; [apply sublist_skipn|exact Hx]. }
    rewrite Ee in H2. cbn [bind] in H2. rewrite map_length in Lp.
    unfold updateFail1 in H2. apply bind_Ok in H2. destruct H2 as (old & Ho & H2). apply lookup_ok in Ho.
    assert (Hsz : Z.of_nat (length p') = Z.max K' (Z.min (eliteNum sp) (Z.of_nat (length (pop c))))).
    { destruct Hs as (HsK & HsN). pose proof (sublist_length _ _ Ssub).
      assert (Ee0 : Z.of_nat e = eliteNum sp) by (unfold e; apply Z2Nat.id; exact Lneg).
      clear -Lsub Lp Les Ee0 HsK L H1 H. clearbody e es. lia. }
    pose proof (finish_spec R greater c p' g' c' old (Z.max K' (Z.min (eliteNum sp) (Z.of_nat (length (pop c))))) N) as F.
    destruct F as (F1 & F2 & F3); [split; [eapply sublist_in; [exact Sp|apply Ho]|apply Ho]|exact Sp|exact Hsz|exact H2|].
    split; [split; [exact F1|split; assumption]|].
    intros He NN x b Hx (Hb & Hid).
    destruct F2 as (b' & (Hb' & Hid') & Bst).
    assert (Hp : pop c' = p').
    { apply updateFail2_spec in H2. destruct H2 as (? & _ & Hp & _). exact Hp. }
    assert (b' = b).
    { eapply (NoDup_map_inj gid (pop c')); [rewrite Hp; eapply sublist_NoDup; [apply sublist_map, Sp|exact N]|exact Hb'|exact Hb|congruence]. }
    subst b'.
    destruct sorted as [|h sorted'].
    { apply Permutation_sym, Permutation_nil in P. rewrite P in Hx. contradiction. }
    assert (Hh : In h (pop c)) by (eapply Permutation_in; [apply Permutation_sym, P|left; reflexivity]).
    assert (Hhp : In h p').
    { apply Inp. split; [exact Hh|]. intros C.
      assert (C2 : In (gid h) (map fst es)) by (eapply sublist_in; [apply sublist_map, Ssub|exact C]).
      rewrite Fes in C2. destruct e as [|e'] eqn:Ee'; [lia|]. cbn [skipn] in C2.
      cbn [map] in Nso. inversion Nso as [|? ? Nh1 Nh2]; subst. apply Nh1.
      apply in_map_iff in C2. destruct C2 as (z & Ez & Hz). rewrite <- Ez. apply in_map.
      eapply sublist_in; [apply sublist_skipn|exact Hz]. }
    destruct (isB (gfit x) (gfit b)) eqn:C; [|reflexivity]. exfalso.
    assert (Hxh : isB (gfit x) (gfit h) = false).
    { apply (sorted_head_best sorted'); [exact Srt|]. eapply Permutation_in; [exact P|exact Hx]. }
    assert (Hhb : isB (gfit h) (gfit b) = false) by (apply Bst; rewrite Hp; exact Hhp).
    assert (Hbc : In b (pop c)) by (eapply sublist_in; [exact Sp|rewrite <- Hp; exact Hb]).
    destruct (isB_weak greater (gfit x) (gfit b) (gfit h) (NN x Hx) (NN b Hbc) (NN h Hh) C); congruence.
Qed.

(** ** StochasticUniversal when all fitness values are equal *)
Lemma su_equal_all N (es : list (nat * double)) : rng_ok R ->
  0 <= K' < 2147483648 -> K' <= N < 2147483648 -> forall g, fst (su_equal R opt N es g) = [].
Proof.
  intros (HR & _) HK HN. induction es as [|e es IH]; intros g; cbn [su_equal]; [reflexivity|].
  destruct (rand01 R g) as [d g1] eqn:Ed. specialize (IH g1).
  destruct (su_equal R opt N es g1) as [t g2]. cbn [fst] in *. subst t.
  assert (F : fle (fmul d (d_of_Z K')) (d_of_Z N) = true); [|rewrite F; reflexivity].
  specialize (HR g). rewrite Ed in HR. cbn [fst] in HR. destruct HR as (A & B).
  destruct (unit_draw d A B) as (Fd & L).
  destruct (d_of_Z_exact K') as (FK & VK); [lia|]. destruct (d_of_Z_exact N) as (FN & VN); [lia|].
  assert (HKr : (0 <= IZR K')%R) by (apply IZR_le; lia).
  assert (HNr : (IZR K' <= IZR N)%R) by (apply IZR_le; lia).
  assert (Pr : (0 <= B2R d * B2R (d_of_Z K') <= IZR K')%R) by (rewrite VK; nra).
  destruct (fmul_bounded d (d_of_Z K') K' 0) as (F1 & _ & V1); try easy; try lia.
  { cbn [bpow]. rewrite Rmult_1_r, Rabs_pos_eq; lra. }
  apply fle_iff; [apply fin_nonnan, F1|apply fin_nonnan, FN|].
  rewrite !fval_fin by assumption. rewrite V1. apply (rnd_bound_fl 53 1024 _ _ (d_of_Z N)). rewrite VN. lra.
Qed.

End P.
