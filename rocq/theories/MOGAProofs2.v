(** Facts about NSGA-II selection: taking layers, crowding, erasing. *)
From Coq Require Import List Arith ZArith Reals Bool Lia Lra Permutation Sorted.
From Flocq Require Import Core BinarySingleNaN.
From Verif Require Import Base Fl FlFacts Rng StdOps ListFacts GABase GAOpsProofs MOGA MOGASpec MOGAProofs.
Import ListNotations.
Open Scope Z_scope.

(** * Erasing *)
Lemma m_erase1_spec {V F} (p : list (gene V F)) i : NoDup (map gid p) -> In i (map gid p) ->
  m_erase1 p i = Ok (filter (fun x => negb (Nat.eqb (gid x) i)) p).
Proof.
  induction p as [|x p IH]; cbn; intros N H; [contradiction|]. inversion N as [|? ? N1 N2]; subst.
  destruct (Nat.eqb_spec (gid x) i) as [E|E]; cbn [negb].
  - f_equal. symmetry. rewrite <- E in *. clear -N1.
    induction p as [|y p IH]; cbn in *; [reflexivity|].
    destruct (Nat.eqb_spec (gid y) (gid x)) as [C|C]; [exfalso; apply N1; auto|].
    cbn. f_equal. apply IH. tauto.
  - destruct H as [H|H]; [congruence|]. rewrite IH by assumption. reflexivity.
Qed.
Lemma nodup_filter_map {A B} (f : A -> B) (g : A -> bool) l : NoDup (map f l) -> NoDup (map f (filter g l)).
Proof. intros N. eapply sublist_NoDup; [apply sublist_map, sublist_filter|exact N]. Qed.
Lemma m_erase_all_spec {V F} is : forall p : list (gene V F), NoDup (map gid p) -> NoDup is -> incl is (map gid p) ->
  m_erase_all p is = Ok (filter (fun x => negb (inb is (gid x))) p).
Proof.
  induction is as [|i is IH]; intros p N NI HI; cbn [m_erase_all].
  - f_equal. clear. induction p as [|x p IH]; cbn; [reflexivity|]. f_equal. exact IH.
  - inversion NI as [|? ? NI1 NI2]; subst. rewrite m_erase1_spec by (auto; apply HI; left; reflexivity). cbn [bind].
    rewrite IH.
    + f_equal. rewrite filter_filter. apply filter_ext. intros x. unfold inb. cbn [existsb].
      destruct (Nat.eqb (gid x) i); reflexivity.
    + apply nodup_filter_map, N.
    + exact NI2.
    + intros j Hj. assert (Hj' : In j (map gid p)) by (apply HI; right; exact Hj).
      apply in_map_iff in Hj'. destruct Hj' as (x & <- & Hx). apply in_map. apply filter_In. split; [exact Hx|].
      destruct (Nat.eqb_spec (gid x) i); [|reflexivity]. exfalso. apply NI1. congruence.
Qed.

Section N2.
Context {V : Type} (R : rng_ops) (std : std_ops) (M : nat) (greater : bool) (opt : ga_option).
Context (Hstd : std_ok std).
Notation core' := (core V fitv (list nat) (G R)).
Notation gene' := (gene V fitv).
Notation num := (@dominatedNum V M greater).

(** * Taking layers *)
Lemma takeLayers_ok K ls : forall (sel : list gene') r, takeLayers K sel ls = Ok r ->
  Z.of_nat (length sel) <= K ->
  exists taken rest, ls = taken ++ rest /\
    ((r = (sel ++ concat taken, rest, false) /\ Z.of_nat (length (sel ++ concat taken)) = K) \/
     (exists L rest', rest = L :: rest' /\ r = (sel ++ concat taken, rest, true) /\
        Z.of_nat (length (sel ++ concat taken)) < K < Z.of_nat (length (sel ++ concat taken)) + Z.of_nat (length L))).
Proof.
  induction ls as [|L ls IH]; intros sel r H Hs; cbn [takeLayers] in H; destruct (Z.eqb_spec (Z.of_nat (length sel)) K) as [E|E].
  - exists [], []. split; [reflexivity|]. left. cbn. rewrite app_nil_r. inversion H. auto.
  - discriminate.
  - exists [], (L :: ls). split; [reflexivity|]. left. cbn [concat]. rewrite app_nil_r. inversion H. auto.
  - destruct (Z.ltb_spec K (Z.of_nat (length sel) + Z.of_nat (length L))) as [L1|L1].
    + exists [], (L :: ls). split; [reflexivity|]. right. exists L, ls. cbn [concat]. rewrite app_nil_r.
      split; [reflexivity|]. split; [inversion H; reflexivity|]. lia.
    + destruct (IH (sel ++ L) r H) as (taken & rest & E1 & E2); [rewrite app_length; lia|].
      exists (L :: taken), rest. split; [cbn; congruence|]. cbn [concat]. rewrite app_assoc. exact E2.
Qed.
Lemma takeLayers_total K ls : forall (sel : list gene'), Z.of_nat (length sel) <= K ->
  (K <= Z.of_nat (length sel + length (concat ls)) -> exists r, takeLayers K sel ls = Ok r) /\
  (Z.of_nat (length sel + length (concat ls)) < K -> takeLayers K sel ls = UB).
Proof.
  induction ls as [|L ls IH]; intros sel Hs; cbn [takeLayers concat]; destruct (Z.eqb_spec (Z.of_nat (length sel)) K) as [E|E].
  - split; [eauto|]. cbn. lia.
  - split; [cbn; lia|reflexivity].
  - split; [eauto|]. lia.
  - rewrite app_length. destruct (Z.ltb_spec K (Z.of_nat (length sel) + Z.of_nat (length L))) as [L1|L1].
    + split; [eauto|lia].
    + destruct (IH (sel ++ L)) as (A & B); [rewrite app_length; lia|]. rewrite app_length in A, B.
      split; intros H; [apply A|apply B]; lia.
Qed.
Lemma fillUp_ok K (l : list gene') : forall sel, Z.of_nat (length sel) <= K ->
  K <= Z.of_nat (length sel + length l) ->
  fillUp K sel l = Ok (sel ++ firstn (Z.to_nat K - length sel) l).
Proof.
  induction l as [|x l IH]; intros sel H1 H2; cbn [fillUp]; destruct (Z.ltb_spec (Z.of_nat (length sel)) K) as [L|L].
  - cbn in H2. lia.
  - rewrite firstn_nil, app_nil_r. reflexivity.
  - rewrite IH by (rewrite app_length; cbn [length] in *; lia). rewrite app_length, <- app_assoc. cbn [length app].
    replace (Z.to_nat K - length sel)%nat with (S (Z.to_nat K - (length sel + 1))) by lia. reflexivity.
  - replace (Z.to_nat K - length sel)%nat with 0%nat by lia. cbn [firstn]. rewrite app_nil_r. reflexivity.
Qed.

(** * Crowding *)
Lemma addGaps_spec o scale (s : list gene') : NoDup (map gid s) -> forall m i,
  addGaps o scale s m i =
  match neighbours s i with
  | None => m i
  | Some (a, c) => fadd (m i) (fdiv (Babs (fsub (objective (gfit a) o) (objective (gfit c) o))) scale)
  end.
Proof.
  induction s as [|a s IH]; intros N m i; [reflexivity|].
  destruct s as [|b [|c s]]; [reflexivity|reflexivity|].
  inversion N as [|? ? N1 N2]; subst.
  change (addGaps o scale (a :: b :: c :: s) m) with (addGaps o scale (b :: c :: s)
    (cset m (gid b) (fadd (m (gid b)) (fdiv (fabs (fsub (obj (gfit a) o) (obj (gfit c) o))) scale)))).
  change (neighbours (a :: b :: c :: s) i) with (if Nat.eqb (gid b) i then Some (a, c) else neighbours (b :: c :: s) i).
  rewrite (IH N2). unfold cset. destruct (Nat.eqb_spec (gid b) i) as [E|E].
  - subst i. rewrite Nat.eqb_refl.
    assert (X : neighbours (b :: c :: s) (gid b) = None).
    { assert (Y : forall (l : list gene') z, ~ In (gid b) (map gid l) -> neighbours (z :: l) (gid b) = None).
      { clear. induction l as [|y l IH]; intros z H; [reflexivity|]. destruct l as [|w l]; [reflexivity|].
        change (neighbours (z :: y :: w :: l) (gid b)) with (if Nat.eqb (gid y) (gid b) then Some (z, w) else neighbours (y :: w :: l) (gid b)).
        destruct (Nat.eqb_spec (gid y) (gid b)) as [E|E]; [exfalso; apply H; left; exact E|]. apply IH. intros C. apply H. right. exact C. }
      apply Y. inversion N2; subst. assumption. }
    rewrite X. reflexivity.
  - destruct (Nat.eqb_spec i (gid b)); [congruence|]. reflexivity.
Qed.
Lemma neighbours_ends (s : list gene') : NoDup (map gid s) -> forall x f, In x s ->
  (neighbours s (gid x) = None <-> (hd f s = x \/ last s f = x)).
Proof.
  intros N x f Hx. destruct s as [|a s]; [contradiction|]. cbn [hd].
  assert (NB : forall (l : list gene') z, NoDup (map gid (z :: l)) -> forall y, In y (z :: l) ->
     (neighbours (z :: l) (gid y) = None <-> (z = y \/ last (z :: l) f = y))).
  { clear. induction l as [|w l IH]; intros z N y Hy.
    - destruct Hy as [<-|[]]. cbn. tauto.
    - destruct l as [|v l].
      + cbn. destruct Hy as [<-|[<-|[]]]; tauto.
      + change (neighbours (z :: w :: v :: l) (gid y)) with (if Nat.eqb (gid w) (gid y) then Some (z, v) else neighbours (w :: v :: l) (gid y)).
        change (last (z :: w :: v :: l) f) with (last (w :: v :: l) f).
        inversion N as [|? ? N1 N2]; subst.
        destruct (Nat.eqb_spec (gid w) (gid y)) as [E|E].
        * split; [discriminate|]. assert (w = y).
          { apply (NoDup_map_inj gid (z :: w :: v :: l)); auto. right; left; reflexivity. }
          subst w. intros [->|C]; [exfalso; apply N1; left; reflexivity|].
          exfalso. inversion N2 as [|? ? N3 N4]; subst. apply N3. change (last (y :: v :: l) f) with (last (v :: l) f) in C.
          rewrite <- C at 1. apply (in_map gid (v :: l)). assert (Q : v :: l <> []) by discriminate. revert Q. generalize (v :: l). clear.
          induction l as [|a l IH]; intros Q; [congruence|]. destruct l; [left; reflexivity|]. right. apply IH. discriminate.
        * destruct Hy as [<-|Hy].
          -- split; [auto|]. intros _.
             assert (Y : forall (l : list gene') u, ~ In (gid z) (map gid l) -> neighbours (u :: l) (gid z) = None).
             { clear. induction l as [|y l IH]; intros u H; [reflexivity|]. destruct l as [|w l]; [reflexivity|].
               change (neighbours (u :: y :: w :: l) (gid z)) with (if Nat.eqb (gid y) (gid z) then Some (u, w) else neighbours (y :: w :: l) (gid z)).
               destruct (Nat.eqb_spec (gid y) (gid z)) as [E|E]; [exfalso; apply H; left; exact E|]. apply IH. intros C. apply H. right. exact C. }
             apply Y. intros C. apply N1. right. exact C.
          -- rewrite (IH w N2 y Hy). split; [intros [->|C]; [congruence|auto]|].
             intros [->|C]; [exfalso; apply N1; exact (in_map gid (w :: v :: l) y Hy)|auto]. }
  apply NB; assumption.
Qed.

Lemma fitLess_sw o (sp : list gene') : existsb (fun x => is_nan (obj (gfit x) o)) sp = false -> strict_weak (fitLess o) sp.
Proof.
  intros H. assert (NN : forall x, In x sp -> nonnan (obj (gfit x) o)).
  { intros x Hx. destruct (is_nan (obj (gfit x) o)) eqn:E; [|exact E]. exfalso.
    assert (existsb (fun x => is_nan (obj (gfit x) o)) sp = true) by (apply existsb_exists; exists x; auto). congruence. }
  unfold fitLess. repeat split.
  - intros a _. apply flt_irrefl.
  - intros a b c _ _ _. apply flt_trans.
  - intros a b c Ha Hb Hc H1. apply NN in Ha, Hb, Hc.
    destruct (flt (obj (gfit a) o) (obj (gfit c) o)) eqn:E; [auto|right].
    apply flt_false_le in E; try assumption. apply flt_true in H1. apply fle_true in E.
    apply flt_iff; try assumption. lra.
Qed.

Definition sorted_obj (o : nat) (s : list gene') : Prop :=
  forall i j a b, (i < j)%nat -> nth_error s i = Some a -> nth_error s j = Some b ->
    flt (objective (gfit b) o) (objective (gfit a) o) = false.
Lemma sorted_by_obj o s : sorted_by (fitLess o) s -> sorted_obj o s.
Proof.
  unfold sorted_by. induction 1 as [|x l S IH F]; intros i j a b L Hi Hj.
  - destruct i; discriminate.
  - destruct j as [|j]; [lia|]. cbn in Hj. destruct i as [|i]; cbn in Hi.
    + inversion Hi; subst. rewrite Forall_forall in F. apply nth_error_In in Hj. exact (F b Hj).
    + apply (IH i j a b); [lia|exact Hi|exact Hj].
Qed.

Lemma crowdObj_ok o (sp s : list gene') m m' : NoDup (map gid sp) -> crowdObj std o (sp, m) = Ok (s, m') ->
  Permutation sp s /\ sorted_obj o s /\ forall x, In x sp -> m' (gid x) = crowd_step o s x (m (gid x)).
Proof.
  unfold crowdObj. intros N H. destruct (existsb _ sp) eqn:E; [discriminate|].
  destruct (proj1 Hstd _ (fitLess o) sp (fitLess_sw o sp E)) as (P & S).
  set (t := sort std (fitLess o) sp) in *. clearbody t.
  destruct t as [|f t']; [discriminate|]. set (t := f :: t') in *.
  assert (Es : s = t) by congruence.
  assert (Em : m' = addGaps o (fadd (fabs (fsub (obj (gfit f) o) (obj (gfit (last t f)) o))) eps10) t
                       (cset (cset m (gid f) pinfD) (gid (last t f)) pinfD)) by congruence.
  clear H. subst s. split; [exact P|]. split; [apply sorted_by_obj, S|]. intros x Hx.
  assert (Nt : NoDup (map gid t)) by (eapply Permutation_NoDup; [apply Permutation_map, P|exact N]).
  assert (Hxt : In x t) by (eapply Permutation_in; eassumption).
  rewrite Em, addGaps_spec by exact Nt. unfold crowd_step.
  pose proof (neighbours_ends t Nt x f Hxt) as NE. cbn [hd] in NE. change (hd f t) with f in NE.
  assert (Lt : In (last t f) t).
  { unfold t. clear. revert f. induction t' as [|a l IH]; intros f; [left; reflexivity|].
    change (last (f :: a :: l) f) with (last (a :: l) f). right.
    replace (last (a :: l) f) with (last (a :: l) a); [apply IH|]. clear. revert a. induction l as [|b l IH]; intros a; [reflexivity|].
    change (last (a :: b :: l) a) with (last (b :: l) a). change (last (a :: b :: l) f) with (last (b :: l) f).
    destruct l; [reflexivity|]. cbn in *. exact (IH a). }
  destruct (neighbours t (gid x)) as [(a, c)|] eqn:Enb.
  - assert (X1 : gid x <> gid f).
    { intros C. assert (f = x) by (apply (NoDup_map_inj gid t); auto; left; reflexivity).
      destruct NE as (_ & NE). discriminate (NE (or_introl H)). }
    assert (X2 : gid x <> gid (last t f)).
    { intros C. assert (last t f = x) by (apply (NoDup_map_inj gid t); auto).
      destruct NE as (_ & NE). discriminate (NE (or_intror H)). }
    unfold cset. destruct (Nat.eqb_spec (gid x) (gid (last t f))); [contradiction|].
    destruct (Nat.eqb_spec (gid x) (gid f)); [contradiction|]. rewrite ?Enb. reflexivity.
  - destruct NE as (NE & _). rewrite ?Enb. unfold cset. destruct (Nat.eqb_spec (gid x) (gid (last t f))) as [E1|E1]; [reflexivity|].
    destruct (NE eq_refl) as [C|C]; [|exfalso; apply E1; rewrite C; reflexivity].
    subst f. rewrite Nat.eqb_refl. reflexivity.
Qed.
Lemma crowdAll_ok n : forall o (sp sp' : list gene') m m', NoDup (map gid sp) ->
  crowdAll std (seq o n) (sp, m) = Ok (sp', m') ->
  Permutation sp sp' /\ exists orders, length orders = n /\
    (forall k s, nth_error orders k = Some s -> Permutation sp s /\ sorted_obj (o + k) s) /\
    forall x, In x sp -> m' (gid x) = crowding_from o orders x (m (gid x)).
Proof.
  induction n as [|n IH]; intros o sp sp' m m' N H; cbn [seq crowdAll] in H.
  - assert (sp' = sp /\ m' = m) as (-> & ->) by (split; congruence). split; [reflexivity|].
    exists []. split; [reflexivity|]. split; [intros [|k] s C; discriminate|]. intros x _. reflexivity.
  - apply bind_Ok in H. destruct H as ((s, m1) & H1 & H2).
    destruct (crowdObj_ok o sp s m m1 N H1) as (P & SO & C).
    assert (Ns : NoDup (map gid s)) by (eapply Permutation_NoDup; [apply Permutation_map, P|exact N]).
    destruct (IH (S o) s sp' m1 m' Ns H2) as (P2 & orders & L & O & D).
    split; [etransitivity; eassumption|]. exists (s :: orders). split; [cbn; lia|]. split.
    + intros [|k] t Hk; cbn in Hk.
      * inversion Hk; subst. rewrite Nat.add_0_r. auto.
      * destruct (O k t Hk) as (A & B). split; [etransitivity; eassumption|]. rewrite Nat.add_succ_r. exact B.
    + intros x Hx. cbn [crowding_from]. rewrite D by (eapply Permutation_in; eassumption). rewrite C by exact Hx. reflexivity.
Qed.

(** * What a successful selection does *)
Definition sel_ids (sel : list gene') (p : list gene') : list gene' := filter (fun x => inb (map gid sel) (gid x)) p.
Lemma nsga2_select_inv (c c' : core') : wf c -> 0 <= populationSize opt -> nsga2_select R std M greater opt c = Ok c' ->
  exists ls ns taken sel L0,
    Forall2 (layer_num (num (pop c))) ls ns /\ StronglySorted lt ns /\ nth_error ns 0 = Some 0%nat /\
    Permutation (concat ls) (pop c) /\ nth_error ls 0 = Some L0 /\
    Z.of_nat (length sel) = populationSize opt /\
    pop c' = sel_ids sel (pop c) /\ NoDup (map gid sel) /\ incl sel (pop c) /\
    next c' = next c /\ fails c' = fails c /\ gen_rng c' = gen_rng c /\
    (Z.of_nat (length L0) <= populationSize opt -> ext c' = map gid L0) /\
    (populationSize opt < Z.of_nat (length L0) -> Permutation (ext c') (map gid sel)) /\
    ((exists rest, ls = taken ++ rest /\ sel = concat taken) \/
     (exists L rest orders part m, ls = taken ++ L :: rest /\ sel = concat taken ++ firstn part (sort std (congMore m) L) /\
        (0 < part < length L)%nat /\
        Permutation L (sort std (congMore m) L) /\ sorted_by (congMore m) (sort std (congMore m) L) /\
        objective_orders M (pop c) orders /\
        (forall x, In x L -> nonnan (m (gid x))) /\
        forall x, In x (pop c) -> m (gid x) = crowding orders x)).
Proof.
  intros (ND & Hlt) HK H. unfold nsga2_select in H.
  assert (NE : pop c <> []).
  { intros C. destruct (divideLayers std M greater (pop c)) as [space layers] eqn:E.
    assert (X : snd (divideLayers std M greater (pop c)) = []) by (apply layers_nil; assumption).
    rewrite E in X. cbn [snd] in X. subst layers. discriminate. }
  destruct (layers_spec std M greater Hstd (pop c) ND NE) as (ns & LN & SS & N0 & PC & PF).
  destruct (divideLayers std M greater (pop c)) as [space layers] eqn:ED. cbn [fst snd] in *.
  destruct layers as [|L0 layers']; [discriminate|]. set (ls := L0 :: layers') in *.
  apply bind_Ok in H. destruct H as (((selected, rest), need) & HT & H).
  apply takeLayers_ok in HT; [|cbn; lia]. destruct HT as (taken & rest0 & ELS & HT). cbn [app] in HT.
  assert (NDc : NoDup (map gid (concat ls))).
  { eapply Permutation_NoDup; [apply Permutation_map, Permutation_sym, PC|exact ND]. }
  apply bind_Ok in H. destruct H as ((space', sel) & HS & H).
  assert (Core : Z.of_nat (length sel) = populationSize opt /\ Permutation space' (pop c) /\ NoDup (map gid sel) /\ incl sel (pop c) /\
     ((exists rest, ls = taken ++ rest /\ sel = concat taken) \/
     (exists L rest orders part m, ls = taken ++ L :: rest /\ sel = concat taken ++ firstn part (sort std (congMore m) L) /\
        (0 < part < length L)%nat /\
        Permutation L (sort std (congMore m) L) /\ sorted_by (congMore m) (sort std (congMore m) L) /\
        objective_orders M (pop c) orders /\
        (forall x, In x L -> nonnan (m (gid x))) /\
        forall x, In x (pop c) -> m (gid x) = crowding orders x))).
  { destruct HT as [(ER & HL)|(L & rest' & ER0 & ER & HL)].
    - assert (selected = concat taken /\ rest = rest0 /\ need = false) as (-> & -> & ->) by (repeat split; congruence).
      assert (space' = space /\ sel = concat taken) as (-> & ->) by (split; congruence). clear HS.
      split; [exact HL|]. split; [exact PF|].
      rewrite ELS, concat_app, map_app in NDc.
      split; [eapply NoDup_app_l; exact NDc|]. split.
      + intros x Hx. eapply Permutation_in; [exact PC|]. rewrite ELS, concat_app. apply in_or_app. auto.
      + left. exists rest0. auto.
    - assert (selected = concat taken /\ rest = rest0 /\ need = true) as (-> & -> & ->) by (repeat split; congruence). subst rest0.
      apply bind_Ok in HS. destruct HS as ((sp, m) & HC & HS).
      destruct (existsb (fun x => is_nan (m (gid x))) L) eqn:EN; [discriminate|].
      assert (NN : forall x, In x L -> nonnan (m (gid x))).
      { intros x Hx. destruct (is_nan (m (gid x))) eqn:E; [|exact E]. exfalso.
        assert (existsb (fun x => is_nan (m (gid x))) L = true) by (apply existsb_exists; exists x; auto). congruence. }
      assert (SW : strict_weak (congMore m) L).
      { unfold congMore. repeat split.
        - intros a _. apply flt_irrefl.
        - intros a b d _ _ _ H1 H2. eapply flt_trans; eassumption.
        - intros a b d Ha Hb Hd H1. apply NN in Ha, Hb, Hd. destruct (flt (m (gid d)) (m (gid a))) eqn:E; [auto|right].
          apply flt_false_le in E; try assumption. apply flt_true in H1. apply fle_true in E. apply flt_iff; try assumption. lra. }
      destruct (proj1 Hstd _ (congMore m) L SW) as (PL & SL).
      apply bind_Ok in HS. destruct HS as (sel' & HF & HS).
      assert (space' = sp /\ sel = sel') as (-> & ->) by (split; congruence). clear HS.
      pose proof (Permutation_length PL) as LL.
      rewrite fillUp_ok in HF by lia.
      set (part := (Z.to_nat (populationSize opt) - length (concat taken))%nat) in *.
      assert (Esel : sel' = concat taken ++ firstn part (sort std (congMore m) L)) by congruence. clear HF. subst sel'.
      assert (Hpart : (0 < part < length L)%nat) by (unfold part; lia).
      assert (Nsp : NoDup (map gid space)) by (eapply Permutation_NoDup; [apply Permutation_map, Permutation_sym, PF|exact ND]).
      destruct (crowdAll_ok M 0 space sp (fun _ => d0) m Nsp HC) as (P2 & orders & LO & OO & CC).
      split; [rewrite app_length, firstn_length_le by lia; unfold part; lia|].
      split; [etransitivity; [apply Permutation_sym, P2|exact PF]|].
      rewrite ELS, concat_app in NDc. cbn [concat] in NDc. rewrite app_assoc, map_app in NDc. apply NoDup_app_l in NDc.
      split; [|split].
      + rewrite map_app in *. eapply (sublist_NoDup _ (map gid (concat taken) ++ map gid (sort std (congMore m) L))).
        * assert (SA : forall (a b d : list nat), sublist b d -> sublist (a ++ b) (a ++ d)).
          { clear. induction a as [|x a IH]; intros b d S; [exact S|]. apply sub_keep, IH, S. }
          apply SA. apply sublist_map, sublist_firstn.
        * eapply Permutation_NoDup; [|exact NDc]. apply Permutation_app_head. apply Permutation_map, PL.
      + intros x Hx. eapply Permutation_in; [exact PC|]. rewrite ELS, concat_app. apply in_or_app.
        apply in_app_iff in Hx. destruct Hx as [Hx|Hx]; [auto|]. right. cbn [concat]. apply in_or_app. left.
        eapply Permutation_in; [apply Permutation_sym, PL|]. eapply sublist_in; [apply sublist_firstn|exact Hx].
      + right. exists L, rest', orders, part, m. split; [exact ELS|]. split; [reflexivity|]. split; [exact Hpart|].
        split; [exact PL|]. split; [exact SL|]. split; [|split; [exact NN|]].
        * split; [exact LO|]. intros o s Hs. destruct (OO o s Hs) as (A & B). cbn in B.
          split; [etransitivity; [apply Permutation_sym, PF|exact A]|exact B].
        * intros x Hx. rewrite CC; [reflexivity|]. eapply Permutation_in; [apply Permutation_sym, PF|exact Hx]. }
  destruct Core as (C1 & C2 & C3 & C4 & C5).
  apply bind_Ok in H. destruct H as (p' & HE & H).
  assert (Nsp' : NoDup (map gid space')) by (eapply Permutation_NoDup; [apply Permutation_map, Permutation_sym, C2|exact ND]).
  rewrite m_erase_all_spec in HE.
  2: exact ND.
  2: apply nodup_filter_map, Nsp'.
  2: { intros i Hi. apply in_map_iff in Hi. destruct Hi as (x & <- & Hx). apply filter_In in Hx.
       apply in_map. eapply Permutation_in; [exact C2|apply Hx]. }
  assert (Ep : p' = sel_ids sel (pop c)).
  { assert (p' = filter (fun x => negb (inb (map gid (filter (fun x0 : gene' => negb (existsb (Nat.eqb (gid x0)) (map gid sel))) space')) (gid x))) (pop c)) as -> by congruence.
    unfold sel_ids. apply filter_ext_in. intros x Hx.
    destruct (inb (map gid sel) (gid x)) eqn:E.
    - apply negb_true_iff. apply inb_false. intros C. apply in_map_iff in C. destruct C as (y & Ey & Hy).
      apply filter_In in Hy. destruct Hy as (_ & Hy). apply negb_true_iff in Hy. rewrite Ey in Hy.
      change (inb (map gid sel) (gid x) = false) in Hy. congruence.
    - apply negb_false_iff. apply inb_true. apply in_map. apply filter_In. split.
      + eapply Permutation_in; [apply Permutation_sym, C2|exact Hx].
      + apply negb_true_iff. exact E. }
  cbv zeta in H. assert (EC : c' = mkCore p' (next c) (fails c)
    (if populationSize opt <? Z.of_nat (length L0) then map gid (umap_order std sel)
     else if Z.of_nat (length L0) <=? populationSize opt then map gid L0 else ext c) (gen_rng c)) by congruence.
  exists ls, ns, taken, sel, L0. split; [exact LN|]. split; [exact SS|]. split; [exact N0|]. split; [exact PC|].
  split; [reflexivity|]. split; [exact C1|]. rewrite EC. cbn [pop next fails gen_rng ext].
  split; [exact Ep|]. split; [exact C3|]. split; [exact C4|]. split; [reflexivity|]. split; [reflexivity|]. split; [reflexivity|].
  split; [|split; [|exact C5]].
  - intros L. destruct (Z.ltb_spec (populationSize opt) (Z.of_nat (length L0))); [lia|].
    destruct (Z.leb_spec (Z.of_nat (length L0)) (populationSize opt)); [reflexivity|lia].
  - intros L. destruct (Z.ltb_spec (populationSize opt) (Z.of_nat (length L0))); [|lia].
    apply Permutation_map. apply Permutation_sym, (proj2 Hstd).
Qed.
End N2.
