(** Lemmas for Props_ProgAOS.v: a run on an object with a square box. *)
From Coq Require Import List Arith ZArith Reals Bool Lia Lra Permutation.
From Flocq Require Import Core BinarySingleNaN.
From Verif Require BoxObj BoxObjProofs SOGAObjProofs.
From Verif Require Import Props_Box Props_AOS Props_AOSObj Props_ProgMO Base Fl FlFacts Rng RandProofs StdOps ListFacts Box BoxProofs AOS AOSSpec
  AOSProofs AOSProofs2 AOSProofs3 AOSProofs4 AOSProofs5 AOSProofs6 AOSSafe AOSObj AOSObjSpec AOSObjProofs ProgAOSSpec.
Import ListNotations.
Open Scope Z_scope.

Section Tried.
Context {R : rng_ops} (E : env R) (opt : aos_option) (Hstd : std_ok (std E)) (Hst : stable_at_front (std E)).
Lemma run_from k : forall fuel s sk s', rounds E opt k s sk -> aos_run E opt fuel s = Ok s' -> exists fuel', aos_run E opt fuel' sk = Ok s'.
Proof.
  induction k as [|k IH]; intros fuel s sk s' H Hr; inversion H as [|? ? s1 s2 ? H1 T H2 H3]; subst; [eauto|].
  destruct fuel as [|n]; [discriminate Hr|]. cbn [aos_run] in Hr. rewrite H1 in Hr. cbn [bind] in Hr. rewrite T, H2 in Hr. cbn [bind] in Hr. exact (IH n s2 sk s' H3 Hr).
Qed.
(** No electron ever evaluated is better than bestElectron() at the end. *)
Lemma best_of_tried fuel s s' e : before_round E s -> aos_run E opt fuel s = Ok s' -> tried E opt s e ->
  exists best, bestElectron s' = Ok best /\ e_better E (energy e) (energy best) = false.
Proof using Hstd Hst.
  intros B Hr (k & sk & Hk & Ie). pose proof (rounds_before E opt k s sk B Hk) as Bk. destruct (run_from k fuel s sk s' Hk Hr) as (fuel' & Hr').
  clear Hr Hk B s. destruct (before_good E sk Hstd Bk) as (N & Lt & _). destruct fuel' as [|n]; [discriminate Hr'|]. cbn [aos_run] in Hr'.
  apply bind_Ok in Hr'. destruct Hr' as (s1 & H1 & Hr'). pose proof (settle_kept E Hstd opt sk s1 N H1) as (S1 & _ & _ & En & _ & CN).
  destruct (settle_top E Hstd opt sk s1 Hst N H1) as (best & Hb & Ib & Ibe & Hbest). destruct (CN best Ib) as (Cb & Nb).
  destruct (shouldTerminate opt s1).
  { injection Hr' as <-. exists best. auto. }
  apply bind_Ok in Hr'. destruct Hr' as (s2 & H2 & Hr').
  assert (N1 : NoDup (map eid (electrons s1))) by (eapply sublist_NoDup; [apply sublist_map, S1|apply nodup_evaluated, N]).
  assert (L1 : forall x, In x (electrons s1) -> (eid x < e_next s1)%nat).
  { intros x Hx. rewrite En. pose proof (sublist_in _ _ _ S1 Hx) as I. unfold evaluated in I. apply in_map_iff in I. destruct I as (y & <- & Hy). rewrite evaluate_id. auto. }
  destruct (excite_ids E opt s1 s2 N1 L1 H2) as (N2 & L2 & _ & new & E2 & _).
  assert (Ib2 : In best (electrons s2)) by (rewrite E2; apply in_or_app; left; exact Ib).
  destruct (run_not_worse E Hstd opt Hst n s2 s' best N2 L2 Ib2 Cb Nb Hr') as (best' & A1 & _ & _ & A4 & A5).
  exists best'. split; [exact A1|]. specialize (Hbest e Ie).
  destruct (settle_best E opt sk s1 Hstd (before_good E sk Hstd Bk) H1) as (_ & _ & _ & _ & _ & _ & _ & _ & NN & _).
  rewrite (eb_false E) in * by auto. lra.
Qed.
End Tried.

Section Program.
Context {A : Type} (R : rng_ops) (E0 : env R) (norm : G R -> double * G R).
Hypothesis HR : rng_ok R.
Hypothesis Hstd : std_ok (std E0).
Hypothesis Hst : stable_at_front (std E0).
Hypothesis Hdr : eigen_draws E0.
Variable (d : nat) (lo hi delta : double) (k : BoxObj.kind) (bx : BoxObj.box).
Hypothesis Hk : BoxObj.sq k = true.
Hypothesis Hdim : BoxObj.dimensions k bx = Ok (Z.of_nat d).
Hypothesis Hsize : BoxObj.init_size k bx = Ok (Z.of_nat d).
Hypothesis Hmin : BoxObj.s_min bx = Some lo.
Hypothesis Hmax : BoxObj.s_max bx = Some hi.
Hypothesis Hdel : BoxObj.s_delta bx = Some delta.
Hypothesis Hlo : fin lo /\ (Rabs (B2R lo) <= bpow radix2 800)%R.
Hypothesis Hhi : fin hi /\ (Rabs (B2R hi) <= bpow radix2 800)%R.
Hypothesis Hde : fin delta /\ (Rabs (B2R delta) <= bpow radix2 800)%R.
Hypothesis Hlh : fle lo hi = true.
Variable (opt : aos_option) (f : A -> list double -> double) (a : A).
Hypothesis Hf : forall v, in_cube d lo hi v -> nonnan (f a v).
Hypothesis Hly : 1 <= maxLayerNum opt <= electronNum opt /\ maxLayerNum opt < 2147483647.
Hypothesis Hmg : 0 <= a_maxGeneration opt < two64.
Hypothesis Hfit : forall t, 1 <= t <= maxLayerNum opt -> AOSSpec.fits E0 t (electronNum opt).

Definition same_at (B : dbox) : Prop := dimD B = Z.of_nat d /\ forall j, minD B j = lo /\ maxD B j = hi /\ deltaD B j = delta.
Lemma cube_iff B v : same_at B -> in_box B v <-> in_cube d lo hi v.
Proof.
  clear. intros (D & S). unfold in_box, in_cube. rewrite D, Nat2Z.inj_iff. split; intros (L & H); split; try exact L.
  - intros x Hx. apply In_nth_error in Hx. destruct Hx as (i & Hi). specialize (H i x Hi). destruct (S i) as (A1 & A2 & _). rewrite A1, A2 in H. exact H.
  - intros i x Hi. destruct (S i) as (A1 & A2 & _). rewrite A1, A2. apply H. eapply nth_error_In, Hi.
Qed.
Lemma cube_moderate B i0 f0 : same_at B -> moderate (env_with R E0 B i0 f0).
Proof using Hlo Hhi Hde Hlh.
  intros (D & S). split; [cbn [env_with box]; lia|]. intros j _. cbn [env_with box]. destruct (S j) as (A1 & A2 & A3). rewrite A1, A2, A3.
  split; [apply Hlo|]. split; [apply Hlo|]. split; [apply Hhi|]. split; [apply Hhi|]. split; [exact Hlh|]. exact Hde.
Qed.
Lemma box_at j : BoxObj.min_at k bx j = Ok lo /\ BoxObj.max_at k bx j = Ok hi /\ BoxObj.delta_at k bx j = Ok delta.
Proof using Hk Hmin Hmax Hdel. unfold BoxObj.min_at, BoxObj.max_at, BoxObj.delta_at. rewrite Hk, Hmin, Hmax, Hdel. repeat split. Qed.
Lemma have_all (x : double) (F : nat -> res double) n : (forall j, F j = Ok x) -> have F n = true.
Proof. intros H. unfold have. apply forallb_forall. intros j _. rewrite H. reflexivity. Qed.
Lemma box_used : exists B, run_box (eigen E0) (negb (fle (photonRate opt) d0)) (Cont k bx) d = Ok B /\ same_at B.
Proof using Hk Hmin Hmax Hdel Hdim.
  unfold run_box. rewrite Hdim. cbn [bind]. rewrite Z.eqb_refl. cbn [negb].
  rewrite (have_all lo _ d (fun j => proj1 (box_at j))), (have_all hi _ d (fun j => proj1 (proj2 (box_at j)))), (have_all delta _ d (fun j => proj2 (proj2 (box_at j)))).
  cbn [negb andb]. rewrite Hk. cbn [negb]. rewrite !andb_false_r. cbn [andb]. eexists. split; [reflexivity|]. split; [reflexivity|].
  intros j. cbn [minD maxD deltaD]. destruct (box_at j) as (-> & -> & ->). repeat split.
Qed.
Lemma box_start B g : same_at B -> exists v g', box_initialize R norm (Cont k bx) g = Ok (v, g') /\ in_box B v.
Proof using HR Hk Hmin Hmax Hdel Hdim Hsize Hlo Hhi Hlh.
  intros S. pose proof S as (D & S'). apply (C87_box_suffices R norm k bx B HR); rewrite ?D; try assumption; [lia| |].
  - intros j _. destruct (S' j) as (-> & -> & _). split; apply box_at.
  - intros j _. destruct (S' j) as (-> & -> & _). split; [apply Hlo|]. split; [apply Hhi|]. split; [exact Hlh|].
    apply fsub_modest; [apply Hhi|apply Hlo|apply Hhi|apply Hlo].
Qed.

Lemma rounds_any_init B i j f0 opt0 n s s' : rounds (env_with R E0 B i f0) opt0 n s s' -> rounds (env_with R E0 B j f0) opt0 n s s'.
Proof. intros H. induction H as [|? s1 s2 s3 ? H1 T H2 H3 IH]; [constructor|]. exact (rounds_S (env_with R E0 B j f0) _ _ _ _ _ _ H1 T H2 IH). Qed.
Lemma tried_any_init B i j f0 opt0 s e : tried (env_with R E0 B i f0) opt0 s e -> tried (env_with R E0 B j f0) opt0 s e.
Proof. intros (n & sk & Hk' & Ie). exists n, sk. split; [exact (rounds_any_init B i j f0 opt0 n s sk Hk')|exact Ie]. Qed.

(** initializePop() and run() on an object whose option is set. *)
Definition object_with (s : aos (G R)) : @obj A R := mkObj R opt (Cont k bx) (IDefault R) (Some f) a s false false.
Lemma atomic_program s : exists o0 o B best n t,
  same_at B /\
  drive R E0 norm (object_with s) [InitializePop R] = Ok o0 /\
  drive R E0 norm (object_with s) [InitializePop R; Run R] = Ok o /\
  Z.of_nat (length (get_electrons R o0)) = electronNum opt /\ Z.of_nat (length (get_electrons R o)) = electronNum opt /\
  (forall e, In e (get_electrons R o) -> in_cube d lo hi (estate e) /\ ecomp e = true /\ energy e = f a (estate e)) /\
  get_best R o = Ok best /\ In best (get_electrons R o) /\ get_bestEnergy R o = Ok (energy best) /\
  (forall e, In e (get_electrons R o0) -> exists e', tried (env_with R E0 B (no_init R) (f a)) opt (o_aos R o0) e' /\ estate e' = estate e) /\
  (forall e, In e (get_electrons R o) -> tried (env_with R E0 B (no_init R) (f a)) opt (o_aos R o0) e) /\
  (forall e, tried (env_with R E0 B (no_init R) (f a)) opt (o_aos R o0) e ->
     in_cube d lo hi (estate e) /\ energy e = f a (estate e) /\ e_better E0 (f a (estate e)) (energy best) = false) /\
  get_generation R o = Ok n /\ get_earlyStop R o = Ok t /\ 0 <= n <= a_maxGeneration opt /\ (n = a_maxGeneration opt \/ maxEarlyStop opt <= t) /\
  (rec_on E0 = true -> Z.of_nat (length (get_record R o)) = n + 1 /\ nth_error (get_record R o) (Z.to_nat n) = Some (energy best) /\
     forall i j x y, (i <= j)%nat -> nth_error (get_record R o) i = Some x -> nth_error (get_record R o) j = Some y -> e_better E0 x y = false).
Proof using HR Hstd Hst Hdr Hk Hdim Hsize Hmin Hmax Hdel Hlo Hhi Hde Hlh Hf Hly Hmg Hfit.
  destruct box_used as (B & HB & SB).
  set (region := fun v => in_box B v).
  assert (Hlen : forall v, region v -> length v = d). { intros v (Lv & _). rewrite (proj1 SB) in Lv. lia. }
  assert (LI : lawful R E0 norm d region (object_with s) (InitializePop R)).
  { cbn [lawful object_with o_opt o_i o_box]. split; [lia|]. split; [lia|]. intros g. apply box_start, SB. }
  destruct (init_object R E0 norm d region Hlen (object_with s) LI) as (o0 & Ho0 & Io).
  destruct (inited R E0 norm (object_with s) o0 Ho0) as (i & s0 & Hs0 & Eo0 & Ei). cbn [object_with o_opt o_aos o_box o_i o_f o_args o_ran] in Hs0, Eo0, Ei.
  destruct (init_fine R _ _ _ _ Hs0) as (N0 & L0 & C0 & Al0 & G0 & Ln0 & _).
  assert (LR : lawful R E0 norm d region o0 (Run R)).
  { rewrite Eo0. cbn [lawful o_opt o_inited o_f o_args]. cbv zeta. unfold get_electrons. cbn [o_aos]. split; [reflexivity|].
    split; [exists f; split; [reflexivity|]; intros v Hv; apply Hf, (cube_iff B v SB), Hv|]. split; [lia|]. split; [lia|]. split; [exact Hmg|].
    split. { intros t n Ht Hn. rewrite Ln0 in Hn. replace n with (electronNum opt) by lia. apply Hfit, Ht. }
    exists B. split; [exact HB|]. right. split; [apply cube_moderate, SB|]. split; [exact Hdr|]. split; [|auto].
    intros v Hv x Hx. pose proof (in_box_low (env_with R E0 B (no_init R) no_fun) (cube_moderate B _ _ SB) v Hv) as Q. unfold low in Q. rewrite Forall_forall in Q. exact (Q x Hx). }
  destruct (run_object R E0 norm d region Hstd Hst HR Hlen o0 Io LR) as (ff & B' & s' & Ef & HB' & _ & X). cbv zeta in X.
  assert (Eff : ff = f) by (rewrite Eo0 in Ef; cbn [o_f] in Ef; congruence). subst ff.
  assert (EB : B' = B) by (rewrite Eo0 in HB'; unfold box_in_use in HB'; cbn [o_opt o_box] in HB'; congruence). subst B'.
  rewrite Eo0 in X. cbn [o_opt o_aos o_box o_i o_f o_args] in X. destruct X as (Hr & Hd & _ & F1 & G1 & G2 & T & s1 & Fs & Hs1). rewrite <- Eo0 in Hd.
  set (E := env_with R E0 B i (f a)).
  assert (Bi : before_round E s0) by (apply (br_init E opt s s0); exact Hs0).
  assert (HrE : aos_run E opt (S (Z.to_nat (a_maxGeneration opt))) s0 = Ok s') by exact Hr.
  assert (Ib : forall g, in_box (box E) (fst (iFun E g))).
  { intros g. cbn [E env_with box iFun]. rewrite Ei. unfold total. destruct (box_start B g SB) as (v & g' & -> & Iv). exact Iv. }
  assert (ME : moderate E) by (apply cube_moderate, SB). assert (DE : eigen_draws E) by exact Hdr.
  destruct (settle_top E Hstd opt s1 s' Hst (proj1 (proj1 Fs)) Hs1) as (best & Hb & Ibe & _).
  pose proof HrE as Hq. apply (proj2 (C35_run R E opt)) in Hq. destruct Hq as (kk & sk & _ & Hrk & Hsk & Tk).
  pose proof (rounds_before E opt kk s0 sk Bi Hrk) as Bk.
  assert (Tri : forall e, tried E opt s0 e -> in_cube d lo hi (estate e) /\ energy e = f a (estate e) /\ e_better E0 (f a (estate e)) (energy best) = false).
  { intros e Te. pose proof Te as (k1 & sk1 & Hk1 & Ie). pose proof (rounds_before E opt k1 s0 sk1 Bi Hk1) as B1.
    destruct (before_good E sk1 Hstd B1) as (_ & _ & En).
    assert (Ee : energy e = f a (estate e)).
    { unfold evaluated in Ie. apply in_map_iff in Ie. destruct Ie as (x & <- & Ix). unfold evaluate. destruct (ecomp x) eqn:Cx; [exact (En x Ix Cx)|reflexivity]. }
    split; [|split; [exact Ee|]].
    - apply (cube_iff B _ SB). destruct (C36_in_box R E sk1 Hstd HR ME DE Ib B1) as (Q & _). unfold evaluated in Ie. apply in_map_iff in Ie. destruct Ie as (x & <- & Ix). rewrite evaluate_state. exact (Q x Ix).
    - destruct (best_of_tried E opt Hstd Hst _ s0 s' e Bi HrE Te) as (best' & Hb' & Q). rewrite Hb in Hb'. injection Hb' as <-. rewrite <- Ee. exact Q. }
  assert (Sub : forall e, In e (electrons s') -> tried E opt s0 e).
  { intros e Ie. exists kk, sk. split; [exact Hrk|]. destruct (settle_kept E Hstd opt sk s' (proj1 (before_good E sk Hstd Bk)) Hsk) as (S1 & _). exact (sublist_in _ _ _ S1 Ie). }
  destruct (settle_kept E Hstd opt sk s' (proj1 (before_good E sk Hstd Bk)) Hsk) as (_ & _ & _ & _ & _ & CN).
  assert (Len : Z.of_nat (length (electrons s')) = electronNum opt).
  { pose proof (proj2 (proj2 F1)) as Q. unfold share_count in Q. rewrite Ln0 in Q.
    destruct (settle_kept E Hstd opt sk s' (proj1 (before_good E sk Hstd Bk)) Hsk) as (_ & _ & Q2 & _). lia. }
  destruct (C35_generation R E opt kk s0 sk s' Hstd ltac:(unfold two64 in Hmg; lia) Bi Hrk Hsk) as (Gk & _).
  exists o0. eexists. exists B, best, (a_gen s'), (a_stop s').
  split; [exact SB|]. split; [cbn [drive step]; rewrite Ho0; reflexivity|]. split; [cbn [drive step]; rewrite Ho0; cbn [bind drive step]; rewrite Hd; reflexivity|].
  unfold get_best, get_bestEnergy, get_generation, get_earlyStop, get_electrons, get_record, get_best. cbn [o_inited o_aos]. rewrite Eo0. cbn [o_aos].
  split; [rewrite Ln0; lia|]. split; [exact Len|].
  split. { intros e Ie. destruct (Tri e (Sub e Ie)) as (Q1 & Q2 & _). split; [exact Q1|]. split; [apply CN, Ie|exact Q2]. }
  split; [exact Hb|]. split; [exact Ibe|]. split; [rewrite Hb; cbn [bind]; rewrite (proj1 (CN best Ibe)); reflexivity|].
  split. { intros e Ie. exists (evaluate E e). split; [|apply evaluate_state]. apply (tried_any_init B i). exists 0%nat, s0. split; [constructor|]. apply in_map, Ie. }
  split; [intros e Ie; apply (tried_any_init B i), Sub, Ie|]. split; [intros e Ie; apply Tri, (tried_any_init B (no_init R) i), Ie|]. split; [reflexivity|]. split; [reflexivity|].
  split; [rewrite G0 in *; lia|]. split.
  { unfold shouldTerminate in T. apply orb_prop in T. destruct T as [T|T]; apply Z.leb_le in T; [left; lia|right; exact T]. }
  intros Hrec. destruct (electrons s0) as [|first rest] eqn:Ee; [exfalso; cbn [length] in Ln0; lia|].
  destruct (C35_early_stop R E opt opt kk s s0 sk s' first rest Hstd Hrec Hs0 Ee Hrk Hsk) as (Lr & _).
  destruct (C33_record_monotone R E opt sk s' Hstd Bk Hsk) as (Mono & Last). destruct (Last Hrec) as (b' & Er & Ib' & Ab & _).
  split; [rewrite Lr, Gk, G0; lia|]. split; [|exact Mono].
  assert (Eb : b' = best).
  { pose proof (deref_In _ _ _ Hb) as (_ & Eid). assert (Nd : NoDup (map eid (evaluated E sk))) by (apply nodup_evaluated, (before_good E sk Hstd Bk)).
    destruct (settle_kept E Hstd opt sk s' (proj1 (before_good E sk Hstd Bk)) Hsk) as (S1 & _). pose proof (sublist_in _ _ _ S1 Ibe) as I2.
    pose proof (deref_ok _ b' Nd Ib') as D1. pose proof (deref_ok _ best Nd I2) as D2. rewrite Eid, Ab in D2. congruence. }
  subst b'. rewrite Er in Lr |- *. rewrite app_length in Lr. cbn [length] in Lr.
  replace (Z.to_nat (a_gen s')) with (length (a_record sk)) by (rewrite Gk, G0; lia). rewrite nth_error_app2 by lia. rewrite Nat.sub_diag. reflexivity.
Qed.
End Program.
