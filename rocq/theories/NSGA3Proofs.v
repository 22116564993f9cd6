(** Niche preservation of NSGA-III. *)
From Coq Require Import List Arith ZArith Reals Bool Lia Lra Permutation.
From Flocq Require Import Core BinarySingleNaN.
From Verif Require Import Base Fl FlFacts Rng RandProofs StdOps ListFacts GABase MOGA NSGA3 NSGA3Spec.
Import ListNotations.
Open Scope Z_scope.

(** * The map of niche counts *)
Lemma minNiche_spec rp : let m := minNiche rp in
  m <= 4294967295 /\ (forall x, In x rp -> m <= snd x) /\
  (m = 4294967295 \/ exists x, In x rp /\ snd x = m).
Proof.
  unfold minNiche.
  assert (H : forall l a, let m := fold_left (fun m (x : nat * Z) => Z.min m (snd x)) l a in
    m <= a /\ (forall x, In x l -> m <= snd x) /\ (m = a \/ exists x, In x l /\ snd x = m)).
  { induction l as [|y l IH]; intros a; cbn; [repeat split; [lia|contradiction|auto]|].
    destruct (IH (Z.min a (snd y))) as (A & B & C). split; [lia|]. split.
    - intros x [<-|Hx]; [lia|apply B, Hx].
    - destruct C as [C|(x & Hx & C)]; [|right; exists x; auto].
      destruct (Z.min_spec a (snd y)) as [(L & E)|(L & E)]; [left; congruence|right; exists y; split; [auto|congruence]]. }
  exact (H rp 4294967295).
Qed.
Section N.
Context (std : std_ops) (Hstd : std_ok std).
Lemma findMinSet_spec rp : rp <> [] -> (forall x, In x rp -> snd x <= 4294967295) ->
  findMinSet std rp <> [] /\ (length (findMinSet std rp) <= length rp)%nat /\
  forall x, In x (findMinSet std rp) -> In x rp /\ forall y, In y rp -> snd x <= snd y.
Proof.
  intros NE Hc. destruct (minNiche_spec rp) as (A & B & C).
  assert (P := proj2 Hstd _ rp). split; [|split].
  - assert (E : exists x, In x rp /\ snd x = minNiche rp).
    { destruct C as [C|C]; [|exact C]. destruct rp as [|x rp]; [congruence|]. exists x. split; [left; reflexivity|].
      specialize (B x (or_introl eq_refl)). specialize (Hc x (or_introl eq_refl)). lia. }
    destruct E as (x & Hx & E). intros C0. assert (I : In x (findMinSet std rp)).
    { apply filter_In. split; [eapply Permutation_in; eassumption|]. apply Z.eqb_eq, E. }
    rewrite C0 in I. contradiction.
  - rewrite (Permutation_length P). apply sublist_length, sublist_filter.
  - intros x Hx. apply filter_In in Hx. destruct Hx as (Hx & E). apply Z.eqb_eq in E. split.
    + eapply Permutation_in; [apply Permutation_sym, P|exact Hx].
    + intros y Hy. rewrite E. apply B, Hy.
Qed.
End N.
Lemma bump_keys rp j : In j (map fst rp) -> map fst (bump rp j) = map fst rp.
Proof.
  induction rp as [|(i, c) rp IH]; cbn; [contradiction|]. intros H. destruct (Nat.eqb_spec i j) as [E|E]; cbn; [reflexivity|].
  rewrite IH; [reflexivity|]. destruct H; [contradiction|assumption].
Qed.
Lemma bump_length rp j : In j (map fst rp) -> length (bump rp j) = length rp.
Proof. intros H. rewrite <- (map_length fst), bump_keys, map_length by exact H. reflexivity. Qed.
Lemma bump_in rp j i c : NoDup (map fst rp) -> In j (map fst rp) -> In (i, c) (bump rp j) ->
  (i = j /\ In (i, c - 1) rp) \/ (i <> j /\ In (i, c) rp).
Proof.
  induction rp as [|(k, d) rp IH]; cbn; intros N H I; [contradiction|]. inversion N as [|? ? N1 N2]; subst.
  destruct (Nat.eqb_spec k j) as [E|E].
  - subst k. destruct I as [I|I].
    + assert (i = j /\ c = d + 1) as (-> & ->) by (split; congruence). left. split; [reflexivity|]. left. f_equal. lia.
    + right. split; [|auto]. intros ->. apply N1. exact (in_map fst _ _ I).
  - destruct I as [I|I].
    + assert (i = k /\ c = d) as (-> & ->) by (split; congruence). right. auto.
    + destruct H as [H|H]; [contradiction|]. destruct (IH N2 H I) as [(A & B)|(A & B)]; auto.
Qed.

(** * Picking a candidate *)
Section P.
Context {V : Type} (R : rng_ops).
Notation gene' := (gene V fitv).
Notation cand := (gene' * (nat * double))%type.

Lemma minGene_in (l : list cand) : forall b, In (minGene b l) (b :: l).
Proof.
  induction l as [|x l IH]; intros b; cbn [minGene]; [left; reflexivity|].
  destruct (IH (if flt (c_dist x) (c_dist b) then x else b)) as [E|E].
  - destruct (flt (c_dist x) (c_dist b)); [right; left|left]; exact E.
  - right; right; exact E.
Qed.
Lemma minGene_min (l : list cand) : forall b y, In y (b :: l) -> flt (c_dist y) (c_dist (minGene b l)) = false.
Proof.
  assert (K : forall (l' : list cand) (b z : cand), flt (c_dist z) (c_dist b) = false -> flt (c_dist z) (c_dist (minGene b l')) = false).
  { clear l. induction l' as [|x l IH]; intros b z H; cbn [minGene]; [exact H|]. apply IH.
    destruct (flt (c_dist x) (c_dist b)) eqn:E; [|exact H].
    destruct (flt (c_dist z) (c_dist x)) eqn:F; [|reflexivity]. rewrite <- H. symmetry. eapply flt_trans; eassumption. }
  induction l as [|x l IH]; intros b y H; cbn [minGene].
  - destruct H as [<-|[]]. apply flt_irrefl.
  - destruct H as [<-|[<-|H]].
    + apply K. destruct (flt (c_dist x) (c_dist b)) eqn:E; [apply flt_asym, E|apply flt_irrefl].
    + apply K. destruct (flt (c_dist x) (c_dist b)) eqn:E; [apply flt_irrefl|exact E].
    + apply IH. right. exact H.
Qed.

Lemma fmul_one (d : double) : fle d0 d = true -> flt d d1 = true -> fle (fmul d (d_of_Z 1)) d1 = true.
Proof.
  intros A B. destruct (unit_draw d A B) as (F & V0).
  assert (E1 : d_of_Z 1 = d1) by reflexivity. rewrite E1.
  destruct (fmul_bounded d d1 1 0) as (F2 & Bd & E); try lia; try assumption; try exact d1_fin.
  { rewrite d1_val. cbn. rewrite Rmult_1_r, Rabs_pos_eq by lra. lra. }
  apply fle_iff; [apply fin_nonnan, F2|apply fin_nonnan, d1_fin|].
  rewrite (fval_fin _ _ _ F2), (fval_fin _ _ _ d1_fin), d1_val, E, d1_val, Rmult_1_r. apply drnd_le1. lra.
Qed.
Lemma pick_ok (l : list cand) : forall n g, rng_ok R -> l <> [] -> n = Z.of_nat (length l) ->
  exists x g', pick R l n g = (Some x, g') /\ In x l.
Proof.
  induction l as [|x l IH]; intros n g HR NE E; [congruence|]. cbn [pick].
  pose proof (proj1 HR g) as U. destruct (rand01 R g) as [d g1]. cbn [fst] in U.
  destruct (fle (fmul d (d_of_Z n)) d1) eqn:Ec; [exists x, g1; split; [reflexivity|left; reflexivity]|].
  destruct l as [|y l].
  - exfalso. subst n. cbn [length] in Ec. change (Z.of_nat 1) with 1 in Ec. rewrite fmul_one in Ec by apply U. discriminate.
  - destruct (IH (n - 1) g1 HR ltac:(discriminate)) as (z & g' & E1 & I); [cbn [length] in *; lia|].
    exists z, g'. split; [exact E1|right; exact I].
Qed.
End P.

(** * The loop *)
Lemma filter_perm {A} (f : A -> bool) l l' : Permutation l l' -> Permutation (filter f l) (filter f l').
Proof.
  induction 1; cbn; [reflexivity| | |].
  - destruct (f x); [constructor|]; assumption.
  - destruct (f x), (f y); try reflexivity. apply perm_swap.
  - etransitivity; eassumption.
Qed.
Lemma perm_filter_key {A} (key : A -> nat) l x : NoDup (map key l) -> In x l ->
  Permutation l (x :: filter (fun y => negb (Nat.eqb (key y) (key x))) l).
Proof.
  induction l as [|y l IH]; cbn; intros N H; [contradiction|]. inversion N as [|? ? N1 N2]; subst.
  destruct H as [->|H].
  - rewrite Nat.eqb_refl. cbn. constructor. clear IH N. induction l as [|z l IH]; [constructor|]. cbn.
    destruct (Nat.eqb_spec (key z) (key x)) as [E|E]; [exfalso; apply N1; left; exact E|]. cbn. constructor. apply IH.
    + intros C. apply N1. right. exact C.
    + inversion N2; assumption.
  - destruct (Nat.eqb_spec (key y) (key x)) as [E|E]; [exfalso; apply N1; rewrite E; apply in_map, H|]. cbn.
    rewrite perm_swap. constructor. apply IH; assumption.
Qed.

Section L.
Context {V : Type} (R : rng_ops) (std : std_ops) (opt : ga_option).
Context (HR : rng_ok R) (Hstd : std_ok std).
Notation gene' := (gene V fitv).
Notation cand := (gene' * (nat * double))%type.
Context (rpf : gene' -> nat) (df : gene' -> double).
Notation K := (populationSize opt).
Notation cnt := (niche_count rpf).

Definition rp_inv (sel : list gene') (fl : list cand) (rp : list (nat * Z)) : Prop :=
  NoDup (map fst rp) /\ (forall i c, In (i, c) rp -> c = Z.of_nat (cnt sel i)) /\
  (forall e, In e fl -> In (c_rp e) (map fst rp)).
Definition fl_inv (fl : list cand) : Prop :=
  NoDup (map (fun e => gid (fst e)) fl) /\ forall e, In e fl -> c_rp e = rpf (fst e) /\ c_dist e = df (fst e).

Lemma cnt_le sel j : (cnt sel j <= length sel)%nat.
Proof. apply sublist_length, sublist_filter. Qed.
Lemma cnt_snoc sel x j : cnt (sel ++ [x]) j = (cnt sel j + if Nat.eqb (rpf x) j then 1 else 0)%nat.
Proof. unfold niche_count. rewrite filter_app, app_length. cbn. destruct (Nat.eqb (rpf x) j); reflexivity. Qed.

Lemma niche_ok fuel : forall sel fl rp g,
  rp_inv sel fl rp -> fl_inv fl -> Z.of_nat (length sel) <= K -> K <= 4294967295 ->
  K <= Z.of_nat (length sel + length fl) -> (length rp + (Z.to_nat K - length sel) <= fuel)%nat ->
  Z.of_nat (length rp) <= 18446744073709551616 ->
  exists picks rest g', niche R std opt fuel sel fl rp g = Ok (sel ++ picks, g') /\
    niche_fill rpf df sel (map fst fl) picks /\ Z.of_nat (length (sel ++ picks)) = K /\
    Permutation (map fst fl) (picks ++ rest).
Proof.
  induction fuel as [|f IH]; intros sel fl rp g RI FI LS LK LF Hf Lrp.
  - cbn [niche]. destruct (Z.ltb_spec (Z.of_nat (length sel)) K) as [C|C].
    + exfalso. lia.
    + exists [], (map fst fl), g. rewrite app_nil_r. split; [reflexivity|]. split; [constructor|]. split; [lia|reflexivity].
  - cbn [niche]. destruct (Z.ltb_spec (Z.of_nat (length sel)) K) as [C|C].
    2:{ exists [], (map fst fl), g. rewrite app_nil_r. split; [reflexivity|]. split; [constructor|]. split; [lia|reflexivity]. }
    destruct RI as (RN & RC & RF). destruct FI as (FN & FA).
    assert (FNE : fl <> []) by (intros ->; cbn in LF; lia).
    assert (RNE : rp <> []).
    { intros ->. destruct fl as [|e fl]; [congruence|]. exact (RF e (or_introl eq_refl)). }
    assert (Rb : forall x, In x rp -> snd x <= 4294967295).
    { intros (i, c) Hx. cbn. rewrite (RC i c Hx). pose proof (cnt_le sel i). lia. }
    destruct (findMinSet_spec std Hstd rp RNE Rb) as (MNE & ML & MS). set (ms := findMinSet std rp) in *. clearbody ms.
    assert (Lms : 1 <= Z.of_nat (length ms) <= 18446744073709551616) by (destruct ms; [congruence|cbn [length] in *; lia]).
    pose proof (randIdx_range R (Z.of_nat (length ms)) g HR Lms) as RI.
    destruct (randIdx R (Z.of_nat (length ms)) g) as [i g1]. cbn [fst] in RI.
    destruct (Z.ltb_spec i 0) as [C0|C0]; [lia|].
    destruct (nth_error ms (Z.to_nat i)) as [(j, rho)|] eqn:En.
    2:{ apply nth_error_None in En. lia. }
    apply nth_error_In in En. destruct (MS _ En) as (Hj & Hmin). cbn [snd] in Hmin.
    assert (Erho := RC j rho Hj).
    assert (Pfl := proj2 Hstd _ fl).
    set (ord := umap_order std fl) in *. clearbody ord.
    destruct (filter (fun e => Nat.eqb (c_rp e) j) ord) as [|e0 tl] eqn:Ef.
    + (* no candidate: the reference point is erased *)
      assert (Nj : forall e, In e fl -> c_rp e <> j).
      { intros e He Ej. assert (I : In e (filter (fun e => Nat.eqb (c_rp e) j) ord)).
        { apply filter_In. split; [eapply Permutation_in; eassumption|]. apply Nat.eqb_eq, Ej. }
        rewrite Ef in I. contradiction. }
      assert (Lr : (length (filter (fun e => negb (Nat.eqb (fst e) j)) rp) < length rp)%nat).
      { pose proof (perm_filter_key fst rp (j, rho) RN Hj) as P. apply Permutation_length in P. cbn [length fst] in P. lia. }
      apply IH; try assumption; try lia.
      * split; [|split].
        -- eapply sublist_NoDup; [apply sublist_map, sublist_filter|exact RN].
        -- intros a c Hc. apply filter_In in Hc. apply RC, Hc.
        -- intros e He. specialize (RF e He). apply in_map_iff in RF. destruct RF as (r & Er & Hr). apply in_map_iff. exists r.
           split; [exact Er|]. apply filter_In. split; [exact Hr|]. apply negb_true_iff, Nat.eqb_neq. rewrite Er. apply Nj, He.
      * split; assumption.
    + (* a candidate is picked *)
      set (eq := e0 :: tl) in *.
      assert (Eq : forall e, In e eq <-> In e fl /\ c_rp e = j).
      { intros e. rewrite <- Ef, filter_In, Nat.eqb_eq. split; intros (A & B); split; try exact B.
        - eapply Permutation_in; [apply Permutation_sym, Pfl|exact A].
        - eapply Permutation_in; eassumption. }
      assert (PK : exists e g2, (if rho =? 0 then (Some (minGene e0 eq), g1) else pick R eq (Z.of_nat (length eq)) g1) = (Some e, g2) /\
                     In e eq /\ (rho = 0 -> forall y, In y eq -> flt (c_dist y) (c_dist e) = false)).
      { destruct (Z.eqb_spec rho 0) as [Er|Er].
        - exists (minGene e0 eq), g1. split; [reflexivity|]. split.
          + destruct (minGene_in eq e0) as [E|E]; [rewrite <- E; left; reflexivity|exact E].
          + intros _ y Hy. apply minGene_min. right. exact Hy.
        - destruct (pick_ok R eq (Z.of_nat (length eq)) g1 HR ltac:(discriminate) eq_refl) as (e & g2 & E & I).
          exists e, g2. split; [exact E|]. split; [exact I|]. intros; contradiction. }
      destruct PK as (e & g2 & -> & He & Hd). apply Eq in He. destruct He as (He & Ej).
      set (fl' := filter (fun x : cand => negb (Nat.eqb (gid (fst x)) (gid (fst e)))) fl).
      pose proof (perm_filter_key (fun x : cand => gid (fst x)) fl e FN He) as Pe. fold fl' in Pe.
      assert (Kj : In j (map fst rp)) by exact (in_map fst _ _ Hj).
      destruct (FA e He) as (Ae & De).
      destruct (IH (sel ++ [fst e]) fl' (bump rp j) g2) as (picks & rest & g' & E1 & NF & L1 & P1).
      * split; [|split].
        -- rewrite bump_keys by exact Kj. exact RN.
        -- intros a c Hc. destruct (bump_in rp j a c RN Kj Hc) as [(-> & Hc')|(Ha & Hc')]; rewrite cnt_snoc.
           ++ apply RC in Hc'. rewrite <- Ae, Ej, Nat.eqb_refl. lia.
           ++ apply RC in Hc'. destruct (Nat.eqb_spec (rpf (fst e)) a) as [C2|C2]; [congruence|]. lia.
        -- intros x Hx. rewrite bump_keys by exact Kj. apply filter_In in Hx. apply RF, Hx.
      * split.
        -- eapply sublist_NoDup; [apply sublist_map, sublist_filter|exact FN].
        -- intros x Hx. apply filter_In in Hx. apply FA, Hx.
      * rewrite app_length. cbn [length]. lia.
      * exact LK.
      * apply Permutation_length in Pe. cbn [length] in Pe. rewrite app_length. cbn [length]. unfold fl'. lia.
      * rewrite bump_length by exact Kj. rewrite app_length. cbn [length]. lia.
      * rewrite bump_length by exact Kj. exact Lrp.
      * rewrite <- app_assoc in E1, L1. exists (fst e :: picks), rest, g'. split; [exact E1|].
        split; [|split; [exact L1|]].
        -- apply nf_pick with (map fst fl').
           ++ apply (Permutation_map fst) in Pe. exact Pe.
           ++ intros y Hy. apply in_map_iff in Hy. destruct Hy as (ey & <- & Hy). destruct (FA ey Hy) as (Ay & _).
              specialize (RF ey Hy). apply in_map_iff in RF. destruct RF as ((i', c') & Ei & Hi). cbn [fst] in Ei. subst i'.
              specialize (Hmin _ Hi). cbn [snd] in Hmin. rewrite (RC _ _ Hi), Erho, Ay in Hmin. rewrite <- Ae, Ej. lia.
           ++ intros Z0 y Hy Ey. apply in_map_iff in Hy. destruct Hy as (ey & <- & Hy). destruct (FA ey Hy) as (Ay & Dy).
              rewrite <- Dy, <- De. apply Hd; [rewrite Erho, <- Ej, Ae, Z0; reflexivity|]. apply Eq. split; [exact Hy|congruence].
           ++ exact NF.
        -- apply (Permutation_map fst) in Pe. rewrite Pe. cbn. constructor. exact P1.
Qed.

Lemma niche_fuel f : forall k (sel : list gene') fl rp g r, niche R std opt f sel fl rp g = Ok r -> niche R std opt (f + k) sel fl rp g = Ok r.
Proof.
  induction f as [|f IH]; intros k sel fl rp g r H.
  - destruct k; [exact H|]. cbn [niche Nat.add] in *. destruct (_ <? _); [discriminate|exact H].
  - change (S f + k)%nat with (S (f + k)). cbn [niche] in *. destruct (Z.of_nat (length sel) <? K); [|exact H].
    destruct (randIdx R _ g) as [i g1]. destruct (if i <? 0 then None else _) as [(j, rho)|]; [|exact H].
    destruct (filter _ (umap_order std fl)) as [|e0 tl]; [apply IH, H|].
    destruct (if rho =? 0 then _ else _) as [[e|] g2]; [apply IH, H|exact H].
Qed.
End L.

(** * Consequences of [niche_fill] *)
Section F.
Context {A : Type} (rp : A -> nat) (dist : A -> double).
Lemma niche_count_app (l l' : list A) j : niche_count rp (l ++ l') j = (niche_count rp l j + niche_count rp l' j)%nat.
Proof. unfold niche_count. rewrite filter_app, app_length. reflexivity. Qed.
Lemma niche_fill_take chosen cands picks : niche_fill rp dist chosen cands picks -> exists rest, Permutation cands (picks ++ rest).
Proof.
  induction 1 as [ch ca|ch ca x ca' picks P _ _ F (rest & IH)]; [exists ca; reflexivity|].
  exists rest. rewrite P. cbn. constructor. exact IH.
Qed.
(** No niche that received a pick ends up with more than one individual more
    than a niche that still has a candidate. *)
Lemma niche_fill_balanced chosen cands picks : niche_fill rp dist chosen cands picks ->
  forall rest, Permutation cands (picks ++ rest) -> forall x y, In x picks -> In y rest ->
    (niche_count rp (chosen ++ picks) (rp x) <= niche_count rp (chosen ++ picks) (rp y) + 1)%nat.
Proof.
  induction 1 as [ch ca|ch ca z ca' picks P Hm _ F IH]; intros rest PR x y Hx Hy; [contradiction|].
  assert (PR' : Permutation ca' (picks ++ rest)).
  { apply Permutation_cons_inv with z. rewrite <- P. exact PR. }
  replace (ch ++ z :: picks) with ((ch ++ [z]) ++ picks) by (rewrite <- app_assoc; reflexivity).
  destruct (in_dec (fun a b => Nat.eq_dec a b) (rp x) (map rp picks)) as [I|I].
  - apply in_map_iff in I. destruct I as (x' & E & Hx'). rewrite <- E. apply (IH rest PR' x' y Hx' Hy).
  - assert (Z0 : niche_count rp picks (rp x) = 0%nat).
    { unfold niche_count. destruct (filter _ picks) as [|q l] eqn:Eq; [reflexivity|]. exfalso. apply I.
      assert (Iq : In q (filter (fun x0 => Nat.eqb (rp x0) (rp x)) picks)) by (rewrite Eq; left; reflexivity).
      apply filter_In in Iq. destruct Iq as (Iq & Eq2). apply Nat.eqb_eq in Eq2. rewrite <- Eq2. apply in_map, Iq. }
    destruct Hx as [->|Hx]; [|exfalso; apply I, in_map, Hx].
    assert (Hy' : In y ca) by (rewrite PR; apply in_or_app; right; exact Hy).
    specialize (Hm y Hy'). rewrite !niche_count_app, Z0. unfold niche_count in *. cbn [filter length].
    rewrite Nat.eqb_refl. destruct (Nat.eqb (rp x) (rp y)); cbn [length]; lia.
Qed.
End F.
