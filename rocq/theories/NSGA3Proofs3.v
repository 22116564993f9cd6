(** Association and selection of NSGA-III. *)
From Coq Require Import List Arith ZArith Reals Bool Lia Lra Permutation Sorted.
From Flocq Require Import Core BinarySingleNaN.
From Verif Require Import Base Fl FlFacts Rng StdOps ListFacts GABase GABaseProofs GAOpsProofs MOGA MOGASpec MOGAProofs MOGAProofs2 MOGAProofs3 MOGAProofs4 MOGAProofs5 NSGA3 NSGA3Spec NSGA3Proofs.
Import ListNotations.
Open Scope Z_scope.

(** * The scan for the minimum *)
Section Scan.
Context {T : Type} (lt : T -> T -> bool) (le : T -> T -> Prop) (D : T -> Prop).
Context (Hle : forall a b, D a -> D b -> lt a b = false -> le b a)
        (Hlt : forall a b, lt a b = true -> le a b)
        (Hr : forall a, D a -> le a a)
        (Ht : forall a b c, le a b -> le b c -> le a c)
        (Hlt2 : forall a b c, lt a b = true -> le b c -> lt a c = true)
        (Hlt3 : forall a b c, le a b -> lt b c = true -> lt a c = true).
Lemma minScan_spec l : forall bi best i, D best -> Forall D l ->
  let '(j, d) := minScan lt bi best i l in
  D d /\ le d best /\ (forall x, In x l -> le d x) /\
  ((j = bi /\ d = best) \/
   (exists k, j = (i + k)%nat /\ nth_error l k = Some d /\ lt d best = true /\
      forall k' x, (k' < k)%nat -> nth_error l k' = Some x -> lt d x = true)).
Proof.
  induction l as [|y l IH]; intros bi best i Db Dl; cbn [minScan].
  - split; [exact Db|]. split; [apply Hr, Db|]. split; [intros x []|left; auto].
  - inversion Dl as [|? ? Dy Dl']; subst. destruct (lt y best) eqn:E.
    + specialize (IH i y (S i) Dy Dl'). destruct (minScan lt i y (S i) l) as [j d]. destruct IH as (Dd & A & B & C).
      split; [exact Dd|]. split; [eapply Ht; [exact A|apply Hlt, E]|]. split.
      { intros x [<-|Hx]; [exact A|apply B, Hx]. }
      right. destruct C as [(-> & ->)|(k & -> & Hk & L & Q)].
      * exists 0%nat. split; [lia|]. split; [reflexivity|]. split; [exact E|]. intros k' x H. lia.
      * exists (S k). split; [lia|]. split; [exact Hk|]. split; [eapply Hlt3; [exact A|exact E]|].
        intros [|k'] x Hk' Hx; cbn in Hx; [congruence|]. apply (Q k' x); [lia|exact Hx].
    + specialize (IH bi best (S i) Db Dl'). destruct (minScan lt bi best (S i) l) as [j d]. destruct IH as (Dd & A & B & C).
      split; [exact Dd|]. split; [exact A|]. assert (Y : le best y) by (apply Hle; assumption). split.
      { intros x [<-|Hx]; [eapply Ht; [exact A|exact Y]|apply B, Hx]. }
      destruct C as [(-> & ->)|(k & -> & Hk & L & Q)]; [left; auto|right].
      exists (S k). split; [lia|]. split; [exact Hk|]. split; [exact L|].
      intros [|k'] x Hk' Hx; cbn in Hx; [|apply (Q k' x); [lia|exact Hx]].
      assert (x = y) by congruence. subst x. eapply Hlt2; [exact L|exact Y].
Qed.
Context (mul div sub : T -> T -> T) (dot : list T -> list T -> T) (sqn : list T -> T).
Notation dist := (lineDistance mul div sub dot sqn).
Lemma findNearest_spec ws s j d : (forall w, In w ws -> D (dist w s)) ->
  findNearest mul div sub dot sqn lt ws s = Ok (j, d) ->
  (exists w, nth_error ws j = Some w /\ d = dist w s) /\
  (forall w, In w ws -> le d (dist w s)) /\
  (forall i w, (i < j)%nat -> nth_error ws i = Some w -> lt d (dist w s) = true).
Proof.
  intros HD H. unfold findNearest in H. destruct ws as [|w0 ws]; [discriminate|]. cbn [map] in H.
  pose proof (minScan_spec (map (fun w => dist w s) ws) 0 (dist w0 s) 1) as S0.
  destruct (minScan lt 0 (dist w0 s) 1 (map (fun w => dist w s) ws)) as [j' d'].
  assert (j' = j /\ d' = d) as (-> & ->) by (split; congruence). clear H.
  destruct S0 as (_ & A & B & C).
  { apply HD. left. reflexivity. }
  { apply Forall_forall. intros x Hx. apply in_map_iff in Hx. destruct Hx as (w & <- & Hw). apply HD. right. exact Hw. }
  split; [|split].
  - destruct C as [(-> & ->)|(k & -> & Hk & _)]; [exists w0; auto|].
    change (1 + k)%nat with (S k). cbn [nth_error]. rewrite nth_error_map in Hk. destruct (nth_error ws k) as [w|]; [|discriminate].
    cbn in Hk. exists w. split; [reflexivity|congruence].
  - intros w [<-|Hw]; [exact A|]. apply B. apply in_map_iff. eauto.
  - intros i w Hi Hw. destruct C as [(-> & ->)|(k & -> & Hk & L & Q)]; [lia|].
    destruct i as [|i]; cbn in Hw; [congruence|]. apply (Q i); [lia|]. rewrite nth_error_map, Hw. reflexivity.
Qed.
End Scan.
(** In range, whatever the numbers. *)
Lemma minScan_idx {T} (lt : T -> T -> bool) l : forall bi best i, (bi < i)%nat -> (fst (minScan lt bi best i l) < i + length l)%nat.
Proof.
  induction l as [|y l IH]; intros bi best i H; cbn; [lia|]. destruct (lt y best).
  - specialize (IH i y (S i)). lia.
  - specialize (IH bi best (S i)). lia.
Qed.
Lemma findNearest_total {T} mul div sub dot sqn (lt : T -> T -> bool) ws s : ws <> [] ->
  exists j d, findNearest mul div sub dot sqn lt ws s = Ok (j, d) /\ (j < length ws)%nat.
Proof.
  intros NE. unfold findNearest. destruct ws as [|w0 ws]; [congruence|]. cbn [map].
  pose proof (minScan_idx lt (map (fun w => lineDistance mul div sub dot sqn w s) ws) 0 (lineDistance mul div sub dot sqn w0 s) 1 ltac:(lia)) as L.
  rewrite map_length in L. destruct (minScan _ _ _ _ _) as [j d]. exists j, d. split; [reflexivity|]. cbn in *. lia.
Qed.

(** * The formula over the real numbers *)
Section RealLine.
Open Scope R_scope.
Definition rdot (a b : list R) : R := rsum (zip_with Rmult a b).
Definition rsqn (a : list R) : R := rsum (map (fun x => x * x) a).
Definition rltb (a b : R) : bool := if Rlt_dec a b then true else false.
Lemma dist2_expand w : forall s t, length w = length s -> dist2_to w s t = rsqn s - 2 * t * rdot w s + t * t * rsqn w.
Proof.
  unfold rdot, rsqn. induction w as [|a w IH]; intros [|b s] t L; cbn in *; try discriminate; [ring|].
  rewrite (IH s t) by lia. unfold rsum. ring.
Qed.
Lemma line_sum w s k W : length w = length s ->
  rsqn (zip_with (fun wi si => wi * k / W - si) w s) = dist2_to w s (k / W).
Proof.
  unfold rsqn. revert s. induction w as [|a w IH]; intros [|b s] L; cbn in *; try discriminate; [reflexivity|].
  unfold rsum in IH. rewrite IH by lia. unfold Rdiv. ring.
Qed.
Lemma lineDistance_real w s : length w = length s -> rsqn w <> 0 ->
  line_dist2 w s (lineDistance Rmult Rdiv Rminus rdot rsqn w s).
Proof.
  intros L W. unfold lineDistance. cbv zeta. rewrite line_sum by exact L. split; [|eauto]. intros t.
  rewrite !dist2_expand by exact L.
  assert (W0 : 0 < rsqn w).
  { assert (P : forall l, 0 <= rsqn l). { unfold rsqn, rsum. induction l as [|a l IH]; cbn; [lra|]. pose proof (Rle_0_sqr a) as Q. unfold Rsqr in Q. lra. }
    specialize (P w). lra. }
  assert (E : rsqn s - 2 * t * rdot w s + t * t * rsqn w -
     (rsqn s - 2 * (rdot w s / rsqn w) * rdot w s + rdot w s / rsqn w * (rdot w s / rsqn w) * rsqn w) =
     rsqn w * ((t - rdot w s / rsqn w) * (t - rdot w s / rsqn w))) by (field; exact W).
  assert (Q : 0 <= rsqn w * ((t - rdot w s / rsqn w) * (t - rdot w s / rsqn w))).
  { apply Rmult_le_pos; [lra|]. pose proof (Rle_0_sqr (t - rdot w s / rsqn w)) as Q. exact Q. }
  lra.
Qed.
End RealLine.

(** * Selection *)
Lemma niche_count_perm {A} (rp : A -> nat) l l' j : Permutation l l' -> niche_count rp l j = niche_count rp l' j.
Proof. intros P. apply Permutation_length, filter_perm, P. Qed.

Section S.
Context {V : Type} (R : rng_ops) (std : std_ops) (lin : lin_ops) (M : nat) (opt : ga_option).
Context (HR : rng_ok R) (Hstd : std_ok std).
Notation core' := (core V fitv (list nat) (G R)).
Notation gene' := (gene V fitv).
Notation num := (@dominatedNum V M false).
Notation K := (populationSize opt).

(** The association as a function. *)
Definition near (ws : list fitv) (tr : gene' -> fitv) (x : gene') : nat * double :=
  match nearest lin ws (tr x) with Ok a => a | _ => (0%nat, dnan) end.
Lemma near_ok ws tr x : ws <> [] -> nearest lin ws (tr x) = Ok (near ws tr x) /\ (fst (near ws tr x) < length ws)%nat.
Proof.
  intros NE. destruct (findNearest_total fmul fdiv fsub (dotp lin) (sqnorm lin) flt ws (tr x) NE) as (j & d & E & L).
  unfold near. unfold nearest. rewrite E. auto.
Qed.
Lemma associate_ok ws tr (l : list gene') : ws <> [] -> associate lin ws tr l = Ok (map (fun x => (x, near ws tr x)) l).
Proof.
  intros NE. induction l as [|x l IH]; cbn [associate map]; [reflexivity|].
  destruct (near_ok ws tr x NE) as (E & _). rewrite E. cbn [bind]. rewrite IH. reflexivity.
Qed.
Lemma associate_nil tr x (l : list gene') : associate lin [] tr (x :: l) = UB.
Proof. reflexivity. Qed.

Lemma start_inv (rpf : gene' -> nat) n (done : list (gene' * (nat * double))) : (forall e, In e done -> c_rp e = rpf (fst e) /\ (c_rp e < n)%nat) ->
  rp_inv rpf (map fst done) [] (startCounts n done) /\ map fst (startCounts n done) = seq 0 n.
Proof.
  unfold startCounts. induction done as [|e done IH] using rev_ind; intros H.
  - cbn [fold_left map]. assert (K0 : map fst (map (fun i : nat => (i, 0)) (seq 0 n)) = seq 0 n).
    { rewrite map_map. cbn. apply map_id. }
    split; [|exact K0]. split; [rewrite K0; apply seq_NoDup|]. split; [|intros ? []].
    intros i c Hi. apply in_map_iff in Hi. destruct Hi as (k & E & _). assert (c = 0) by congruence. subst. reflexivity.
  - rewrite fold_left_app. cbn [fold_left]. destruct IH as ((A & B & _) & Ks).
    { intros e' He'. apply H, in_or_app. auto. }
    destruct (H e) as (Ee & Le); [apply in_or_app; right; left; reflexivity|].
    set (rp := fold_left _ done _) in *. clearbody rp.
    assert (Kj : In (c_rp e) (map fst rp)) by (rewrite Ks; apply in_seq; lia).
    split; [|rewrite bump_keys by exact Kj; exact Ks]. split; [rewrite bump_keys by exact Kj; exact A|]. split; [|intros ? []].
    intros i c Hi. rewrite map_app. cbn [map]. rewrite cnt_snoc.
    destruct (bump_in rp _ i c A Kj Hi) as [(-> & Hc)|(Hn & Hc)]; apply B in Hc.
    + rewrite <- Ee, Nat.eqb_refl. lia.
    + destruct (Nat.eqb_spec (rpf (fst e)) i) as [C|C]; [congruence|]. lia.
Qed.

Lemma fillNiches_ok fuel ws (selected L : list gene') g start Lt : L = start :: Lt -> ws <> [] ->
  NoDup (map gid L) -> Z.of_nat (length selected) <= K -> K <= 4294967295 -> K <= Z.of_nat (length selected + length L) ->
  (length ws + (Z.to_nat K - length selected) <= fuel)%nat -> Z.of_nat (length ws) <= 18446744073709551616 ->
  let tr := translated lin M start (umap_order std selected ++ L) in
  exists picks rest g', fillNiches R std lin M opt fuel ws selected L g = Ok (selected ++ picks, g') /\
    niche_fill (fun x => fst (near ws tr x)) (fun x => snd (near ws tr x)) selected L picks /\
    Z.of_nat (length (selected ++ picks)) = K /\ Permutation L (picks ++ rest).
Proof.
  intros EL NE N LS LK LF Hf Lw tr. unfold fillNiches. rewrite EL. rewrite <- EL. cbv zeta. fold tr.
  rewrite !associate_ok by exact NE. cbn [bind].
  set (asel := map (fun x => (x, near ws tr x)) (umap_order std selected)).
  pose proof (proj2 Hstd _ asel) as PA. pose proof (proj2 Hstd _ selected) as PS.
  set (rpf := fun x => fst (near ws tr x)). set (df := fun x => snd (near ws tr x)).
  assert (Q : forall e, In e (umap_order std asel) -> c_rp e = rpf (fst e) /\ (c_rp e < length ws)%nat).
  { intros e He. apply (Permutation_in _ (Permutation_sym PA)) in He. unfold asel in He. apply in_map_iff in He.
    destruct He as (x & <- & _). unfold c_rp, rpf. cbn [fst snd]. split; [reflexivity|apply near_ok, NE]. }
  destruct (start_inv rpf (length ws) (umap_order std asel) Q) as ((A & B & _) & Ks).
  assert (PF : Permutation selected (map fst (umap_order std asel))).
  { etransitivity; [exact PS|]. rewrite <- (Permutation_map fst PA). unfold asel. rewrite map_map. cbn. rewrite map_id. reflexivity. }
  set (rp := startCounts (length ws) (umap_order std asel)) in *. clearbody rp.
  assert (Lr : length rp = length ws) by (rewrite <- (map_length fst), Ks, seq_length; reflexivity).
  set (afl := map (fun x => (x, near ws tr x)) L).
  assert (Ea : map fst afl = L) by (unfold afl; rewrite map_map; cbn; apply map_id).
  destruct (niche_ok R std opt HR Hstd rpf df fuel selected afl rp g) as (picks & rest & g' & E & NF & L1 & P1).
  - split; [exact A|]. split.
    + intros i c Hi. rewrite (niche_count_perm rpf _ _ i PF). apply B, Hi.
    + intros e He. unfold afl in He. apply in_map_iff in He. destruct He as (x & <- & _). rewrite Ks. apply in_seq.
      unfold c_rp. cbn [fst snd]. pose proof (proj2 (near_ok ws tr x NE)). lia.
  - split.
    + unfold afl. rewrite map_map. cbn. exact N.
    + intros e He. unfold afl in He. apply in_map_iff in He. destruct He as (x & <- & _). split; reflexivity.
  - exact LS.
  - exact LK.
  - unfold afl. rewrite map_length. exact LF.
  - rewrite Lr. exact Hf.
  - rewrite Lr. exact Lw.
  - rewrite Ea in NF, P1. exists picks, rest, g'. auto.
Qed.
Lemma fillNiches_fuel f k ws (selected L : list gene') g r : fillNiches R std lin M opt f ws selected L g = Ok r ->
  fillNiches R std lin M opt (f + k) ws selected L g = Ok r.
Proof.
  unfold fillNiches. destruct L as [|start Lt]; [discriminate|]. cbv zeta. intros H.
  apply bind_Ok in H. destruct H as (a & E1 & H). apply bind_Ok in H. destruct H as (b & E2 & H).
  rewrite E1, E2. cbn [bind]. apply niche_fuel, H.
Qed.
Lemma fillNiches_nows f (selected L : list gene') g : fillNiches R std lin M opt f [] selected L g = UB.
Proof.
  unfold fillNiches. destruct L as [|start Lt]; [reflexivity|]. cbv zeta.
  destruct (umap_order std selected) as [|x t]; [reflexivity|]. reflexivity.
Qed.

(** What a successful selection does. *)
Definition cut_filled (ws : list fitv) (before L picks : list gene') : Prop :=
  exists start Lt, L = start :: Lt /\ ws <> [] /\
    let tr := translated lin M start (umap_order std before ++ L) in
    niche_fill (fun x => fst (near ws tr x)) (fun x => snd (near ws tr x)) before L picks.
Lemma nsga3_select_inv fuel ws (c c' : core') : wf c -> 0 <= K <= 4294967295 -> Z.of_nat (length ws) <= 18446744073709551616 ->
  nsga3_select R std lin M opt fuel ws c = Ok c' ->
  exists ls ns taken sel L0,
    Forall2 (layer_num (num (pop c))) ls ns /\ StronglySorted lt ns /\ nth_error ns 0 = Some 0%nat /\
    Permutation (concat ls) (pop c) /\ nth_error ls 0 = Some L0 /\
    Z.of_nat (length sel) = K /\
    pop c' = sel_ids sel (pop c) /\ NoDup (map gid sel) /\ incl sel (pop c) /\
    next c' = next c /\ fails c' = fails c /\
    (Z.of_nat (length L0) <= K -> ext c' = map gid L0) /\
    (K < Z.of_nat (length L0) -> Permutation (ext c') (map gid sel)) /\
    ((exists rest, ls = taken ++ rest /\ sel = concat taken) \/
     (exists L rest picks left, ls = taken ++ L :: rest /\ sel = concat taken ++ picks /\
        (0 < length picks < length L)%nat /\ Permutation L (picks ++ left) /\ cut_filled ws (concat taken) L picks)).
Proof.
  intros (ND & Hlt) HK Lw H. unfold nsga3_select in H.
  assert (NE : pop c <> []).
  { intros C. destruct (divideLayers std M false (pop c)) as [space layers] eqn:E.
    assert (X : snd (divideLayers std M false (pop c)) = []) by (apply layers_nil; assumption).
    rewrite E in X. cbn [snd] in X. subst layers. discriminate. }
  destruct (layers_spec std M false Hstd (pop c) ND NE) as (ns & LN & SS & N0 & PC & PF).
  destruct (divideLayers std M false (pop c)) as [space layers] eqn:ED. cbn [fst snd] in *.
  destruct layers as [|L0 layers']; [discriminate|]. set (ls := L0 :: layers') in *.
  apply bind_Ok in H. destruct H as (((selected, rest), need) & HT & H).
  apply takeLayers_ok in HT; [|cbn; lia]. destruct HT as (taken & rest0 & ELS & HT). cbn [app] in HT.
  assert (NDc : NoDup (map gid (concat ls))).
  { eapply Permutation_NoDup; [apply Permutation_map, Permutation_sym, PC|exact ND]. }
  apply bind_Ok in H. destruct H as ((sel, g) & HS & H).
  assert (Core : Z.of_nat (length sel) = K /\ NoDup (map gid sel) /\ incl sel (pop c) /\
     ((exists rest, ls = taken ++ rest /\ sel = concat taken) \/
     (exists L rest picks left, ls = taken ++ L :: rest /\ sel = concat taken ++ picks /\
        (0 < length picks < length L)%nat /\ Permutation L (picks ++ left) /\ cut_filled ws (concat taken) L picks))).
  { destruct HT as [(ER & HL)|(L & rest' & ER0 & ER & HL)].
    - assert (selected = concat taken /\ rest = rest0 /\ need = false) as (-> & -> & ->) by (repeat split; congruence).
      assert (sel = concat taken) as -> by congruence. clear HS. split; [exact HL|].
      rewrite ELS, concat_app, map_app in NDc.
      split; [eapply NoDup_app_l; exact NDc|]. split.
      + intros x Hx. eapply Permutation_in; [exact PC|]. rewrite ELS, concat_app. apply in_or_app. auto.
      + left. exists rest0. auto.
    - assert (selected = concat taken /\ rest = rest0 /\ need = true) as (-> & -> & ->) by (repeat split; congruence). subst rest0.
      assert (Hws : ws <> []) by (intros ->; rewrite fillNiches_nows in HS; discriminate HS).
      destruct L as [|start Lt] eqn:EL; [cbn [length] in HL; lia|]. rewrite <- EL in *.
      rewrite ELS, concat_app in NDc. cbn [concat] in NDc. rewrite app_assoc, map_app in NDc. apply NoDup_app_l in NDc.
      rewrite map_app in NDc.
      apply (fillNiches_fuel _ (length ws + Z.to_nat K)) in HS.
      destruct (fillNiches_ok (fuel + (length ws + Z.to_nat K)) ws (concat taken) L (gen_rng c) start Lt EL Hws)
        as (picks & left & g' & E & NF & L1 & P1); try lia.
      { eapply NoDup_app_r; exact NDc. }
      assert (sel = concat taken ++ picks) as -> by congruence. clear HS.
      split; [exact L1|]. split; [|split].
      + assert (P2 : Permutation (map gid (concat taken) ++ map gid L) (map gid (concat taken ++ picks) ++ map gid left)).
        { rewrite map_app, <- app_assoc. apply Permutation_app_head. rewrite <- map_app. apply Permutation_map, P1. }
        apply (Permutation_NoDup P2) in NDc. apply NoDup_app_l in NDc. exact NDc.
      + intros x Hx. eapply Permutation_in; [exact PC|]. rewrite ELS, concat_app. apply in_or_app.
        apply in_app_iff in Hx. destruct Hx as [Hx|Hx]; [auto|]. right. cbn [concat]. apply in_or_app. left.
        eapply Permutation_in; [apply Permutation_sym, P1|]. apply in_or_app. auto.
      + right. exists L, rest', picks, left. split; [exact ELS|]. split; [reflexivity|].
        rewrite app_length in L1. split; [lia|]. split; [exact P1|]. exists start, Lt. auto. }
  destruct Core as (C1 & C3 & C4 & C5).
  cbv zeta in H. assert (EC : c' = mkCore (filter (fun x => existsb (Nat.eqb (gid x)) (map gid sel)) (pop c)) (next c) (fails c)
    (if K <? Z.of_nat (length L0) then map gid (umap_order std sel)
     else if Z.of_nat (length L0) <=? K then map gid L0 else ext c) g) by congruence.
  exists ls, ns, taken, sel, L0. split; [exact LN|]. split; [exact SS|]. split; [exact N0|]. split; [exact PC|].
  split; [reflexivity|]. split; [exact C1|]. rewrite EC. cbn [pop next fails gen_rng ext].
  split; [reflexivity|]. split; [exact C3|]. split; [exact C4|]. split; [reflexivity|]. split; [reflexivity|].
  split; [|split; [|exact C5]].
  - intros L. destruct (Z.ltb_spec K (Z.of_nat (length L0))); [lia|].
    destruct (Z.leb_spec (Z.of_nat (length L0)) K); [reflexivity|lia].
  - intros L. destruct (Z.ltb_spec K (Z.of_nat (length L0))); [|lia].
    apply Permutation_map. apply Permutation_sym, (proj2 Hstd).
Qed.

Lemma nsga3_few fuel ws (c : core') : wf c -> Z.of_nat (length (pop c)) < K ->
  nsga3_select R std lin M opt fuel ws c = UB.
Proof.
  intros (N & _) L. unfold nsga3_select.
  destruct (divideLayers std M false (pop c)) as [space layers] eqn:E. destruct layers as [|L0 ls]; [reflexivity|].
  assert (NE : pop c <> []).
  { intros C. apply (layers_nil std M false Hstd) in C. rewrite E in C. discriminate. }
  destruct (divide_perm std M false Hstd (pop c) N NE) as (P & _). rewrite E in P. cbn [snd] in P.
  destruct (takeLayers_total K (L0 :: ls) []) as (_ & T); [cbn; lia|].
  rewrite T; [reflexivity|]. cbn [length]. rewrite (Permutation_length P). lia.
Qed.
Lemma nsga3_total fuel ws (c : core') : wf c -> 1 <= K <= Z.of_nat (length (pop c)) -> K <= 4294967295 ->
  ws <> [] -> Z.of_nat (length ws) <= 18446744073709551616 -> (length ws + Z.to_nat K <= fuel)%nat ->
  exists c', nsga3_select R std lin M opt fuel ws c = Ok c'.
Proof.
  intros Hw HK HK2 Hws Lw Hf. pose proof Hw as (N & _). unfold nsga3_select.
  assert (NE : pop c <> []) by (intros C; rewrite C in HK; cbn in HK; lia).
  destruct (divide_perm std M false Hstd (pop c) N NE) as (P & PF).
  pose proof (layers_nil std M false Hstd (pop c)) as LN.
  destruct (divideLayers std M false (pop c)) as [space layers] eqn:E. cbn [fst snd] in *.
  destruct layers as [|L0 ls]; [exfalso; apply NE, LN; reflexivity|].
  destruct (takeLayers_total K (L0 :: ls) []) as (T & _); [cbn; lia|].
  destruct T as (((selected, rest), need) & T); [cbn [length]; rewrite (Permutation_length P); lia|].
  rewrite T. cbn [bind].
  apply takeLayers_ok in T; [|cbn; lia]. destruct T as (taken & rest0 & ELS & [(ER & HL)|(L & rest' & ER0 & ER & HL)]); cbn [app] in *.
  - assert (need = false) as -> by congruence. cbn [bind]. eauto.
  - assert (need = true /\ rest = L :: rest' /\ selected = concat taken) as (-> & -> & ->) by (repeat split; congruence). subst rest0.
    destruct L as [|start Lt] eqn:EL; [cbn [length] in HL; lia|]. rewrite <- EL in *.
    destruct (fillNiches_ok fuel ws (concat taken) L (gen_rng c) start Lt EL Hws) as (picks & left & g' & E2 & _); try lia.
    + assert (NDc : NoDup (map gid (concat (L0 :: ls)))) by (eapply Permutation_NoDup; [apply Permutation_map, Permutation_sym, P|exact N]).
      rewrite ELS, concat_app in NDc. cbn [concat] in NDc. rewrite map_app in NDc. apply NoDup_app_r in NDc.
      rewrite map_app in NDc. apply NoDup_app_l in NDc. exact NDc.
    + rewrite E2. cbn [bind]. eauto.
Qed.
Lemma nsga3_incl fuel ws (c c' : core') : wf c -> 0 <= K <= 4294967295 -> Z.of_nat (length ws) <= 18446744073709551616 ->
  nsga3_select R std lin M opt fuel ws c = Ok c' ->
  Z.of_nat (length (pop c')) = K /\ sublist (pop c') (pop c) /\ wf c' /\ fails c' = fails c /\ next c' = next c.
Proof.
  intros Hw HK Lw H. destruct (nsga3_select_inv fuel ws c c' Hw HK Lw H)
    as (ls & ns & taken & sel & L0 & _ & _ & _ & _ & _ & Ls & Ep & Nd & I & En & Ef & _).
  destruct Hw as (N & Hlt).
  assert (SL : sublist (pop c') (pop c)) by (rewrite Ep; apply sublist_filter).
  split.
  { rewrite <- Ls. f_equal. apply Permutation_length, NoDup_Permutation.
    - rewrite Ep. apply NoDup_filter, nodup_of_map, N.
    - apply nodup_of_map, Nd.
    - intros x. apply (in_survivors R c c' sel x N Ep I). }
  split; [exact SL|]. split.
  { split; [eapply sublist_NoDup; [apply sublist_map, SL|exact N]|]. intros x Hx. rewrite En. apply Hlt. eapply sublist_in; eassumption. }
  auto.
Qed.
(** Survivors are never dominated more often than the eliminated. *)
Lemma nsga3_priority fuel ws (c c' : core') : wf c -> 0 <= K <= 4294967295 -> Z.of_nat (length ws) <= 18446744073709551616 ->
  nsga3_select R std lin M opt fuel ws c = Ok c' ->
  forall x y, In x (pop c) -> ~ In x (pop c') -> In y (pop c') -> (num (pop c) y <= num (pop c) x)%nat.
Proof.
  intros Hw HK Lw H. destruct (nsga3_select_inv fuel ws c c' Hw HK Lw H)
    as (ls & ns & taken & sel & L0 & LN & SS & _ & PC & _ & Ls & Ep & Nd & I & _ & _ & _ & _ & Cases).
  destruct Hw as (N & Hlt).
  assert (IS' : forall x, In x (pop c') <-> In x sel) by (intros x; apply (in_survivors R c c' sel x N Ep I)).
  assert (Lnum : forall i j L L' x y, nth_error ls i = Some L -> nth_error ls j = Some L' -> In x L -> In y L' -> (i <= j)%nat -> (num (pop c) x <= num (pop c) y)%nat).
  { intros i j L L' x y Hi Hj Hx Hy Lij. destruct (Forall2_nth _ _ _ LN i L Hi) as (a & Ha & _ & Fa).
    destruct (Forall2_nth _ _ _ LN j L' Hj) as (b & Hb & _ & Fb). rewrite (Fa x Hx), (Fb y Hy).
    destruct (Nat.eq_dec i j) as [->|Nij]; [assert (a = b) by congruence; lia|].
    pose proof (strong_nth _ _ SS i j a b ltac:(lia) Ha Hb). lia. }
  intros x y Hx Hnx Hy. rewrite IS' in Hnx, Hy.
  apply (Permutation_in _ (Permutation_sym PC)), in_concat_nth in Hx. destruct Hx as (j & L' & Hj & Hx).
  assert (X : exists i Ly, nth_error ls i = Some Ly /\ In y Ly /\ (i <= j)%nat).
  { assert (TK : forall rest, ls = taken ++ rest -> ~ In x (concat taken) -> (length taken <= j)%nat).
    { intros rest E Nx. destruct (Nat.le_gt_cases (length taken) j) as [Q|Q]; [exact Q|]. exfalso. apply Nx.
      rewrite E, nth_error_app1 in Hj by exact Q. apply in_concat_nth. eauto. }
    destruct Cases as [(rest & E & Es)|(L & rest & picks & left & E & Es & Hp & PL & _)]; rewrite Es in Hy, Hnx.
    - specialize (TK rest E Hnx). apply in_concat_nth in Hy. destruct Hy as (i & Ly & Hi & Hy).
      assert (i < length taken)%nat by (apply nth_error_Some; congruence).
      exists i, Ly. split; [rewrite E, nth_error_app1 by assumption; exact Hi|]. split; [exact Hy|lia].
    - rewrite in_app_iff in Hnx. specialize (TK (L :: rest) E ltac:(tauto)). apply in_app_iff in Hy. destruct Hy as [Hy|Hy].
      + apply in_concat_nth in Hy. destruct Hy as (i & Ly & Hi & Hy).
        assert (i < length taken)%nat by (apply nth_error_Some; congruence).
        exists i, Ly. split; [rewrite E, nth_error_app1 by assumption; exact Hi|]. split; [exact Hy|lia].
      + exists (length taken), L. split; [rewrite E, nth_error_app2, Nat.sub_diag by lia; reflexivity|]. split; [|exact TK].
        eapply Permutation_in; [apply Permutation_sym, PL|]. apply in_or_app. auto. }
  destruct X as (i & Ly & Hi & Hy' & Lij). exact (Lnum i j Ly L' y x Hi Hj Hy' Hx Lij).
Qed.
Lemma nsga3_front fuel ws (c c' : core') : wf c -> 0 <= K <= 4294967295 -> Z.of_nat (length ws) <= 18446744073709551616 ->
  nsga3_select R std lin M opt fuel ws c = Ok c' ->
  NoDup (ext c') /\
  (forall i, In i (ext c') -> exists x, In x (pop c') /\ gid x = i /\ nondominated_in M false (pop c) x) /\
  (forall nd, NoDup nd -> (forall x, In x nd <-> nondominated_in M false (pop c) x) ->
     Z.of_nat (length nd) <= K -> forall x, In x nd -> In (gid x) (ext c')) /\
  (forall nd, NoDup nd -> (forall x, In x nd <-> nondominated_in M false (pop c) x) ->
     K < Z.of_nat (length nd) -> forall x, In x (pop c') -> In (gid x) (ext c')).
Proof.
  intros Hw HK Lw H. destruct (nsga3_select_inv fuel ws c c' Hw HK Lw H)
    as (ls & ns & taken & sel & L0 & LN & SS & N0 & PC & E0 & Ls & Ep & Nd & I & _ & _ & Pf1 & Pf2 & Cases).
  destruct Hw as (N & Hlt).
  assert (IS' : forall x, In x (pop c') <-> In x sel) by (intros x; apply (in_survivors R c c' sel x N Ep I)).
  destruct ls as [|L0' ls']; [discriminate|]. inversion E0; subst L0'. clear E0.
  assert (HL0 : forall x, In x L0 <-> nondominated_in M false (pop c) x).
  { intros x. rewrite nondom_zero by exact N. destruct ns as [|n0 ns']; [discriminate|]. inversion N0; subst n0.
    inversion LN as [|? ? ? ? (_ & F0) LN']; subst. split.
    - intros Hx. split; [|apply F0, Hx]. eapply Permutation_in; [exact PC|]. cbn. apply in_app_iff. auto.
    - intros (Hx & Z0). apply (Permutation_in _ (Permutation_sym PC)) in Hx. cbn in Hx. apply in_app_iff in Hx. destruct Hx as [Hx|Hx]; [exact Hx|].
      exfalso. apply in_concat_nth in Hx. destruct Hx as (i & L & Hi & Hx). destruct (Forall2_nth _ _ _ LN' i L Hi) as (b & Hb & _ & Fb).
      pose proof (strong_nth _ _ SS 0 (S i) 0%nat b ltac:(lia) eq_refl Hb). rewrite (Fb x Hx) in Z0. lia. }
  assert (NL0 : NoDup L0).
  { assert (NC : NoDup (concat (L0 :: ls'))) by (eapply Permutation_NoDup; [apply Permutation_sym, PC|apply nodup_of_map, N]).
    cbn in NC. apply NoDup_app_l in NC. exact NC. }
  assert (Lnd : forall nd, NoDup nd -> (forall x, In x nd <-> nondominated_in M false (pop c) x) -> length nd = length L0).
  { intros nd Nn Hn. apply Permutation_length, NoDup_Permutation; try assumption. intros x. rewrite Hn, HL0. tauto. }
  assert (NgL0 : NoDup (map gid L0)).
  { assert (NC : NoDup (map gid (concat (L0 :: ls')))) by (eapply Permutation_NoDup; [apply Permutation_map, Permutation_sym, PC|exact N]).
    cbn [concat] in NC. rewrite map_app in NC. apply NoDup_app_l in NC. exact NC. }
  assert (Fits : Z.of_nat (length L0) <= K -> forall x, In x L0 -> In x (pop c')).
  { intros Le x Hx. rewrite IS'. destruct Cases as [(rest & E & Es)|(L & rest & picks & left & E & Es & Hp & PL & _)].
    - destruct taken as [|T taken].
      + cbn in Es. subst sel. cbn in Ls. destruct L0; [contradiction|]. cbn in Le. lia.
      + cbn in E. inversion E; subst T. rewrite Es. cbn. apply in_app_iff. auto.
    - destruct taken as [|T taken].
      + cbn in E. inversion E; subst L. cbn in Es. exfalso. rewrite Es in Ls. lia.
      + cbn in E. inversion E; subst T. rewrite Es. cbn. apply in_app_iff. left. apply in_app_iff. auto. }
  assert (Over : K < Z.of_nat (length L0) -> forall x, In x (pop c') -> In x L0).
  { intros Lt x Hx. rewrite IS' in Hx. destruct Cases as [(rest & E & Es)|(L & rest & picks & left & E & Es & Hp & PL & _)].
    - destruct taken as [|T taken]; [subst sel; contradiction|]. exfalso. cbn in E. inversion E; subst T.
      rewrite Es in Ls. cbn in Ls. rewrite app_length in Ls. lia.
    - destruct taken as [|T taken].
      + cbn in E. inversion E; subst L. cbn in Es. subst sel. eapply Permutation_in; [apply Permutation_sym, PL|]. apply in_or_app. auto.
      + exfalso. cbn in E. inversion E; subst T. rewrite Es in Ls. cbn in Ls. rewrite !app_length in Ls. lia. }
  destruct (Z.le_gt_cases (Z.of_nat (length L0)) K) as [C|C].
  - rewrite (Pf1 C). split; [exact NgL0|]. split; [|split].
    + intros i Hi. apply in_map_iff in Hi. destruct Hi as (x & <- & Hx). exists x. split; [apply Fits; assumption|]. split; [reflexivity|apply HL0, Hx].
    + intros nd Nn Hn _ x Hx. apply in_map. apply HL0, Hn, Hx.
    + intros nd Nn Hn Q. rewrite (Lnd nd Nn Hn) in Q. lia.
  - specialize (Pf2 ltac:(lia)). split; [eapply Permutation_NoDup; [apply Permutation_sym, Pf2|exact Nd]|]. split; [|split].
    + intros i Hi. apply (Permutation_in _ Pf2) in Hi. apply in_map_iff in Hi. destruct Hi as (x & <- & Hx).
      apply IS' in Hx. exists x. split; [exact Hx|]. split; [reflexivity|]. apply HL0. apply Over; [lia|exact Hx].
    + intros nd Nn Hn Q. rewrite (Lnd nd Nn Hn) in Q. lia.
    + intros nd Nn Hn _ x Hx. apply (Permutation_in _ (Permutation_sym Pf2)). apply in_map, IS', Hx.
Qed.
End S.
