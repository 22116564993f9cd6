(** NSGA-II selection always succeeds on tame fitness values; whole runs of
    multi-objective solvers. *)
From Coq Require Import List Arith ZArith Reals Bool Lia Lra Permutation Sorted.
From Flocq Require Import Core BinarySingleNaN.
From Verif Require Import Base Fl FlFacts Rng StdOps ListFacts GABase GABaseProofs GAOpsProofs MOGA MOGASpec MOGAProofs MOGAProofs2.
Import ListNotations.
Open Scope Z_scope.

(** * Non-negative floats *)
Definition nneg (x : double) : Prop := nonnan x /\ (0 <= fval x)%R.
Lemma nneg_inf : nneg dinf.
Proof. split; [reflexivity|]. change (0 <= bpow radix2 1024)%R. apply bpow_ge_0. Qed.
Lemma ninf_neg : ~ nneg dninf.
Proof. intros (_ & H). change (0 <= - bpow radix2 1024)%R in H. pose proof (bpow_gt_0 radix2 1024) as P. revert H P. generalize (bpow radix2 1024). intros; lra. Qed.
Lemma nneg_abs (x : double) : nonnan x -> nneg (Babs x).
Proof.
  intros H. destruct x as [s|s| |s m e B]; try discriminate.
  - split; [reflexivity|]. cbn. lra.
  - exact nneg_inf.
  - split; [reflexivity|]. cbn [Babs fval B2R]. apply F2R_ge_0. cbn. lia.
Qed.
Lemma sign_le0 (x : double) : Bsign x = true -> (B2R x <= 0)%R.
Proof.
  destruct x as [s|s| |s m e B]; cbn; intros H; try lra. subst. apply F2R_le_0. cbn. lia.
Qed.
Lemma sign_ge0 (x : double) : Bsign x = false -> (0 <= B2R x)%R.
Proof.
  destruct x as [s|s| |s m e B]; cbn; intros H; try lra. subst. apply F2R_ge_0. cbn. lia.
Qed.
Lemma overflow_false (x : double) : B2SF x = SpecFloat.S754_infinity false -> nneg x.
Proof. destruct x as [s|s| |s m e B]; cbn; try discriminate. intros E. inversion E; subst. exact nneg_inf. Qed.
Lemma nneg_add (x y : double) : nneg x -> nneg y -> nneg (fadd x y).
Proof.
  intros (Nx & Vx) (Ny & Vy). destruct (is_finite x) eqn:Fx.
  - destruct (is_finite y) eqn:Fy.
    + rewrite (fval_fin _ _ _ Fx) in Vx. rewrite (fval_fin _ _ _ Fy) in Vy.
      pose proof (Bplus_correct 53 1024 _ _ mode_NE x y Fx Fy) as C. cbn [round_mode] in C.
      destruct (Rlt_bool _ _) eqn:L.
      * destruct C as (A & B & _). change (Bplus mode_NE x y) with (fadd x y) in A, B. split; [apply fin_nonnan, B|].
        rewrite (fval_fin _ _ _ B), A. apply drnd_ge0. lra.
      * destruct C as (A & S). change (Bplus mode_NE x y) with (fadd x y) in A. apply overflow_false. rewrite A.
        destruct (Bsign x) eqn:Sx; [|reflexivity]. exfalso.
        symmetry in S. apply sign_le0 in Sx, S. replace (B2R x + B2R y)%R with 0%R in L by lra.
        rewrite round_0, Rabs_R0 in L by typeclasses eauto. rewrite Rlt_bool_true in L by apply bpow_gt_0. discriminate.
    + destruct y as [|s| |]; try discriminate. destruct s; [exfalso; apply ninf_neg; split; assumption|].
      destruct x as [s|s| |s m e B]; try discriminate; exact nneg_inf.
  - destruct x as [|s| |]; try discriminate. destruct s; [exfalso; apply ninf_neg; split; assumption|].
    destruct y as [s|s| |s m e B]; try discriminate; try exact nneg_inf.
    destruct s; [exfalso; apply ninf_neg; split; assumption|exact nneg_inf].
Qed.
Lemma nneg_div (x y : double) : fin x -> nneg x -> fin y -> (0 < B2R y)%R -> nneg (fdiv x y).
Proof.
  intros Fx (Nx & Vx) Fy Vy. rewrite (fval_fin _ _ _ Fx) in Vx.
  pose proof (Bdiv_correct 53 1024 _ _ mode_NE x y ltac:(lra)) as C. cbn [round_mode] in C.
  destruct (Rlt_bool _ _) eqn:L.
  - destruct C as (A & B & _). change (Bdiv mode_NE x y) with (fdiv x y) in A, B. rewrite Fx in B.
    split; [apply fin_nonnan, B|]. rewrite (fval_fin _ _ _ B), A. apply drnd_ge0.
    apply Rmult_le_pos; [exact Vx|]. left. apply Rinv_0_lt_compat, Vy.
  - change (Bdiv mode_NE x y) with (fdiv x y) in C. apply overflow_false. rewrite C.
    destruct (Bsign y) eqn:Sy; [apply sign_le0 in Sy; lra|].
    destruct (Bsign x) eqn:Sx; [|reflexivity]. exfalso. apply sign_le0 in Sx.
    replace (B2R x) with 0%R in L by lra. unfold Rdiv in L. rewrite Rmult_0_l, round_0, Rabs_R0 in L by typeclasses eauto.
    rewrite Rlt_bool_true in L by apply bpow_gt_0. discriminate.
Qed.
Lemma nneg_0 : nneg d0. Proof. split; [reflexivity|]. cbn. lra. Qed.

Definition B1000 : R := bpow radix2 1000.
Lemma B1000_eq : bpow radix2 1000 = B1000. Proof. reflexivity. Qed.
Lemma B1000_970 : B1000 = (IZR 1073741824 * bpow radix2 970)%R.
Proof. change (IZR 1073741824) with (bpow radix2 30). rewrite <- bpow_plus. reflexivity. Qed.
Lemma B1000_1 : (1 <= B1000)%R.
Proof. unfold B1000. change 1%R with (bpow radix2 0). apply bpow_le. lia. Qed.
#[global] Opaque B1000.
Lemma gap_ok (a b : double) : fin a -> fin b -> (Rabs (B2R a) <= B1000)%R -> (Rabs (B2R b) <= B1000)%R ->
  fin (Babs (fsub a b)) /\ nneg (Babs (fsub a b)) /\ (B2R (Babs (fsub a b)) <= 2 * B1000)%R.
Proof.
  intros Fa Fb Va Vb.
  destruct (fsub_bounded a b 2147483648 970) as (F & B & _); try easy; try lia.
  { apply Rabs_le_inv in Va, Vb. apply Rabs_le. rewrite B1000_970 in *. revert Va Vb. generalize (bpow radix2 970). intros; lra. }
  split; [unfold fin; rewrite is_finite_Babs; exact F|]. split; [apply nneg_abs, fin_nonnan, F|].
  rewrite B2R_Babs. rewrite B1000_970. revert B. generalize (bpow radix2 970). intros; lra.
Qed.
Lemma eps10_ok : fin eps10 /\ (0 < B2R eps10 <= 1)%R.
Proof.
  assert (F : fin eps10) by (vm_compute; reflexivity).
  assert (A : flt d0 eps10 = true) by (vm_compute; reflexivity).
  assert (B : fle eps10 d1 = true) by (vm_compute; reflexivity).
  apply flt_true in A. apply fle_true in B. rewrite (fval_fin _ _ _ F) in *.
  rewrite (fval_fin _ _ _ d1_fin), d1_val in B.
  destruct A as (_ & _ & A). destruct B as (_ & _ & B). change (fval d0) with 0%R in A. split; [exact F|].
  revert A B. generalize (B2R eps10). intros; lra.
Qed.
Lemma scale_ok (a b : double) : fin a -> fin b -> (Rabs (B2R a) <= B1000)%R -> (Rabs (B2R b) <= B1000)%R ->
  fin (fadd (Babs (fsub a b)) eps10) /\ (0 < B2R (fadd (Babs (fsub a b)) eps10))%R.
Proof.
  intros Fa Fb Va Vb. destruct (gap_ok a b Fa Fb Va Vb) as (F & (_ & N) & U). rewrite (fval_fin _ _ _ F) in N.
  destruct eps10_ok as (Fe & Ve). pose proof B1000_1.
  destruct (fadd_bounded (Babs (fsub a b)) eps10 4294967296 970) as (F' & _ & E); try easy; try lia.
  { apply Rabs_le. rewrite B1000_970 in *. revert U H. generalize (bpow radix2 970). intros; lra. }
  split; [exact F'|]. rewrite E. apply Rlt_le_trans with (B2R eps10); [lra|].
  apply (rnd_bound_fl' 53 1024 _). lra.
Qed.

Section T.
Context {V : Type} (R : rng_ops) (std : std_ops) (M : nat) (greater : bool) (opt : ga_option).
Context (Hstd : std_ok std).
Notation core' := (core V fitv (list nat) (G R)).
Notation gene' := (gene V fitv).
Notation num := (@dominatedNum V M greater).

Lemma tame_obj (x : gene') o : tame M x -> (o < M)%nat -> fin (objective (gfit x) o) /\ (Rabs (B2R (objective (gfit x) o)) <= B1000)%R.
Proof. intros H L. exact (H o L). Qed.
Lemma neighbours_in (s : list gene') id a c : neighbours s id = Some (a, c) -> In a s /\ In c s.
Proof.
  induction s as [|x s IH]; [discriminate|]. destruct s as [|y [|z s]]; [discriminate|discriminate|].
  change (neighbours (x :: y :: z :: s) id) with (if Nat.eqb (gid y) id then Some (x, z) else neighbours (y :: z :: s) id).
  destruct (Nat.eqb (gid y) id).
  - intros E. inversion E; subst. split; cbn; auto.
  - intros E. apply IH in E. destruct E. split; right; assumption.
Qed.
Lemma last_in {A} (l : list A) d : l <> [] -> In (last l d) l.
Proof.
  induction l as [|a l IH]; intros H; [congruence|]. destruct l as [|b l]; [left; reflexivity|].
  right. apply IH. discriminate.
Qed.
Lemma crowd_step_nneg o (s : list gene') x acc : (o < M)%nat -> (forall y, In y s -> tame M y) -> nneg acc ->
  nneg (crowd_step o s x acc).
Proof.
  intros Ho Ht Ha. unfold crowd_step. destruct (neighbours s (gid x)) as [(a, c)|] eqn:E; [|exact nneg_inf].
  apply neighbours_in in E. destruct E as (Ia & Ic).
  destruct (tame_obj a o (Ht a Ia) Ho) as (Fa & Va). destruct (tame_obj c o (Ht c Ic) Ho) as (Fc & Vc).
  apply nneg_add; [exact Ha|].
  destruct (gap_ok _ _ Fa Fc Va Vc) as (Fg & Ng & _). apply nneg_div; [exact Fg|exact Ng| |];
    (destruct s as [|f s']; [contradiction|]); cbn [spread];
    pose proof (last_in (f :: s') f ltac:(discriminate)) as Il;
    destruct (tame_obj f o (Ht f (or_introl eq_refl)) Ho) as (Ff & Vf);
    destruct (tame_obj _ o (Ht _ Il) Ho) as (Fl & Vl);
    apply (scale_ok _ _ Ff Fl Vf Vl).
Qed.
Lemma crowdObj_total o (sp : list gene') m : NoDup (map gid sp) -> sp <> [] -> (o < M)%nat -> (forall y, In y sp -> tame M y) ->
  (forall y, In y sp -> nneg (m (gid y))) ->
  exists s m', crowdObj std o (sp, m) = Ok (s, m') /\ Permutation sp s /\ (forall y, In y sp -> nneg (m' (gid y))).
Proof.
  intros N NE Ho Ht Hm.
  assert (E : exists s m', crowdObj std o (sp, m) = Ok (s, m')).
  { unfold crowdObj. destruct (existsb (fun x => is_nan (obj (gfit x) o)) sp) eqn:E.
    - exfalso. apply existsb_exists in E. destruct E as (x & Hx & E).
      destruct (tame_obj x o (Ht x Hx) Ho) as (F & _). apply fin_nonnan in F. unfold nonnan in F.
      change (objective (gfit x) o) with (obj (gfit x) o) in F. congruence.
    - destruct (proj1 Hstd _ (fitLess o) sp (fitLess_sw o sp E)) as (P & _).
      destruct (sort std (fitLess o) sp) as [|f t]; [|eauto].
      exfalso. apply NE. apply Permutation_sym, Permutation_nil in P. exact P. }
  destruct E as (s & m' & E). exists s, m'. split; [exact E|].
  destruct (crowdObj_ok std Hstd o sp s m m' N E) as (P & _ & C). split; [exact P|].
  intros y Hy. rewrite (C y Hy). apply crowd_step_nneg; [exact Ho| |exact (Hm y Hy)].
  intros z Hz. apply Ht. eapply Permutation_in; [apply Permutation_sym, P|exact Hz].
Qed.
Lemma crowdAll_total n : forall o (sp : list gene') m, NoDup (map gid sp) -> sp <> [] -> (o + n <= M)%nat -> (forall y, In y sp -> tame M y) ->
  (forall y, In y sp -> nneg (m (gid y))) ->
  exists s m', crowdAll std (seq o n) (sp, m) = Ok (s, m') /\ (forall y, In y sp -> nneg (m' (gid y))).
Proof.
  induction n as [|n IH]; intros o sp m N NE Ho Ht Hm; cbn [seq crowdAll]; [exists sp, m; auto|].
  destruct (crowdObj_total o sp m N NE ltac:(lia) Ht Hm) as (s & m' & E & P & C). rewrite E. cbn [bind].
  destruct (IH (S o) s m') as (s2 & m2 & E2 & C2).
  - eapply Permutation_NoDup; [apply Permutation_map, P|exact N].
  - intros ->. apply NE. apply Permutation_sym, Permutation_nil in P. exact P.
  - lia.
  - intros y Hy. apply Ht. eapply Permutation_in; [apply Permutation_sym, P|exact Hy].
  - intros y Hy. apply C. eapply Permutation_in; [apply Permutation_sym, P|exact Hy].
  - exists s2, m2. split; [exact E2|]. intros y Hy. apply C2. eapply Permutation_in; eassumption.
Qed.

Lemma divide_perm (p : list gene') : NoDup (map gid p) -> p <> [] ->
  Permutation (concat (snd (divideLayers std M greater p))) p /\ Permutation (fst (divideLayers std M greater p)) p.
Proof. intros N NE. destruct (layers_spec std M greater Hstd p N NE) as (ns & _ & _ & _ & A & B). auto. Qed.

Lemma nsga2_few (c : core') : wf c -> Z.of_nat (length (pop c)) < populationSize opt ->
  nsga2_select R std M greater opt c = UB.
Proof.
  intros (N & _) L. unfold nsga2_select.
  destruct (divideLayers std M greater (pop c)) as [space layers] eqn:E. destruct layers as [|L0 ls]; [reflexivity|].
  assert (NE : pop c <> []).
  { intros C. apply (layers_nil std M greater Hstd) in C. rewrite E in C. discriminate. }
  destruct (divide_perm (pop c) N NE) as (P & _). rewrite E in P. cbn [snd] in P.
  destruct (takeLayers_total (populationSize opt) (L0 :: ls) []) as (_ & T); [cbn; lia|].
  rewrite T; [reflexivity|]. cbn [length]. rewrite (Permutation_length P). lia.
Qed.

Lemma nsga2_total (c : core') : wf c -> 1 <= populationSize opt <= Z.of_nat (length (pop c)) ->
  (forall x, In x (pop c) -> tame M x) -> exists c', nsga2_select R std M greater opt c = Ok c'.
Proof.
  intros Hw HK Ht. pose proof Hw as (N & _). unfold nsga2_select.
  assert (NE : pop c <> []) by (intros C; rewrite C in HK; cbn in HK; lia).
  destruct (divide_perm (pop c) N NE) as (P & PF).
  pose proof (layers_nil std M greater Hstd (pop c)) as LN.
  destruct (divideLayers std M greater (pop c)) as [space layers] eqn:E. cbn [fst snd] in *.
  destruct layers as [|L0 ls]; [exfalso; apply NE, LN; reflexivity|].
  destruct (takeLayers_total (populationSize opt) (L0 :: ls) []) as (T & _); [cbn; lia|].
  destruct T as (((selected, rest), need) & T); [cbn [length]; rewrite (Permutation_length P); lia|].
  rewrite T. cbn [bind].
  assert (Q : forall (space' sel : list gene'), Permutation space' (pop c) -> exists c',
     (do p' <- m_erase_all (pop c) (map gid (filter (fun x : gene' => negb (existsb (Nat.eqb (gid x)) (map gid sel))) space'));
      Ok (mkCore p' (next c) (fails c)
        (if populationSize opt <? Z.of_nat (length L0) then map gid (umap_order std sel)
         else if Z.of_nat (length L0) <=? populationSize opt then map gid L0 else ext c) (gen_rng c))) = Ok c').
  { intros space' sel Psp. rewrite m_erase_all_spec; [cbn [bind]; eauto|exact N| |].
    - apply nodup_filter_map. eapply Permutation_NoDup; [apply Permutation_map, Permutation_sym, Psp|exact N].
    - intros i Hi. apply in_map_iff in Hi. destruct Hi as (x & <- & Hx). apply filter_In in Hx.
      apply in_map. eapply Permutation_in; [exact Psp|apply Hx]. }
  apply takeLayers_ok in T; [|cbn; lia]. destruct T as (taken & rest0 & ELS & [(ER & HL)|(L & rest' & ER0 & ER & HL)]); cbn [app] in *.
  - assert (need = false) as -> by congruence. apply Q. exact PF.
  - assert (need = true /\ rest = L :: rest' /\ selected = concat taken) as (-> & -> & ->) by (repeat split; congruence). subst rest0.
    assert (Nsp : NoDup (map gid space)) by (eapply Permutation_NoDup; [apply Permutation_map, Permutation_sym, PF|exact N]).
    destruct (crowdAll_total M 0 space (fun _ => d0)) as (sp & m & EC & NN).
    + exact Nsp.
    + intros ->. apply NE. apply Permutation_nil in PF. exact PF.
    + lia.
    + intros y Hy. apply Ht. eapply Permutation_in; eassumption.
    + intros; exact nneg_0.
    + rewrite EC. cbn [bind].
      assert (Ls : forall x, In x L -> In x space).
      { intros x Hx. eapply Permutation_in; [apply Permutation_sym, PF|]. eapply Permutation_in; [exact P|].
        rewrite ELS, concat_app. apply in_or_app. right. cbn [concat]. apply in_or_app. auto. }
      destruct (existsb (fun x => is_nan (m (gid x))) L) eqn:EN.
      { exfalso. apply existsb_exists in EN. destruct EN as (x & Hx & EN). destruct (NN x (Ls x Hx)) as (A & _). unfold nonnan in A. congruence. }
      assert (SW : strict_weak (congMore m) L).
      { unfold congMore. repeat split.
        - intros a _. apply flt_irrefl.
        - intros a b d _ _ _ H1 H2. eapply flt_trans; eassumption.
        - intros a b d Ha Hb Hd H1. apply Ls, NN, proj1 in Ha, Hb, Hd. destruct (flt (m (gid d)) (m (gid a))) eqn:EE; [auto|right].
          apply flt_false_le in EE; try assumption. apply flt_true in H1. apply fle_true in EE. apply flt_iff; try assumption. lra. }
      destruct (proj1 Hstd _ (congMore m) L SW) as (PL & _). apply Permutation_length in PL.
      rewrite fillUp_ok by lia. cbn [bind]. apply Q.
      destruct (crowdAll_ok std Hstd M 0 space sp (fun _ => d0) m Nsp EC) as (P2 & _).
      etransitivity; [apply Permutation_sym, P2|exact PF].
Qed.
End T.
