(** An NSGA2 or NSGA3 object over whole histories of calls. *)
From Coq Require Import List Arith ZArith Reals Bool Lia Lra Permutation.
From Flocq Require Import Core BinarySingleNaN.
From Verif Require Import Props_MOGA Props_NSGA3.
From Verif Require Import Base Fl FlFacts Rng RandProofs StdOps ListFacts GABase GABaseProofs GAOpsProofs GlobalM MOGA MOGASpec MOGAProofs MOGAProofs2 MOGAProofs3 MOGAProofs4 MOGAProofs5 NSGA3 NSGA3Proofs2 NSGA3Proofs3 MOGAObj MOGAObjSpec.
Import ListNotations.
Open Scope Z_scope.

(** ** One selection *)
Section Sel.
Context {V : Type} (R : rng_ops) (std : std_ops) (lin : lin_ops) (M : nat) (k : kind) (opt : ga_option) (ws : list (list double)).
Notation core' := (core V (list double) (list nat) (G R)).
Notation sel := (select_of (V := V) R std lin M k opt ws).
Notation K := (populationSize opt).
Hypothesis (HR : rng_ok R) (Hstd : std_ok std) (HK : 0 <= K <= 4294967295) (Lw : Z.of_nat (length ws) <= 18446744073709551616).

(** The reported front is exactly the nondominated part of the population. *)
Definition exact_front (c : core') : Prop :=
  NoDup (ext c) /\ forall i, In i (ext c) <-> exists x, nondominated_in M (greater_of k) (pop c) x /\ gid x = i.

Lemma sel_spec (c c' : core') : wf c -> sel c = Ok c' ->
  Z.of_nat (length (pop c')) = K /\ sublist (pop c') (pop c) /\ wf c' /\ fails c' = fails c /\ exact_front c'.
Proof.
  intros Hw H.
  assert (S1 : Z.of_nat (length (pop c')) = K /\ sublist (pop c') (pop c) /\ wf c' /\ fails c' = fails c).
  { unfold select_of in H. destruct k.
    - destruct (nsga2_incl R std M greater opt Hstd c c' Hw ltac:(lia) H) as (A1 & A2 & A3 & A4 & _). auto.
    - destruct (nsga3_incl R std lin M opt HR Hstd _ ws c c' Hw HK Lw H) as (A1 & A2 & A3 & A4 & _). auto.
    - destruct (nsga3_incl R std lin M opt HR Hstd _ ws c c' Hw HK Lw H) as (A1 & A2 & A3 & A4 & _). auto. }
  assert (S2 : NoDup (ext c') /\
    (forall i, In i (ext c') -> exists x, In x (pop c') /\ gid x = i /\ nondominated_in M (greater_of k) (pop c) x) /\
    (forall nd, NoDup nd -> (forall x, In x nd <-> nondominated_in M (greater_of k) (pop c) x) ->
       Z.of_nat (length nd) <= K -> forall x, In x nd -> In (gid x) (ext c')) /\
    (forall nd, NoDup nd -> (forall x, In x nd <-> nondominated_in M (greater_of k) (pop c) x) ->
       K < Z.of_nat (length nd) -> forall x, In x (pop c') -> In (gid x) (ext c'))).
  { unfold select_of in H. destruct k; cbn [greater_of].
    - apply nsga2_front with (std := std) (opt := opt); try assumption; lia.
    - eapply nsga3_front; try eassumption.
    - eapply nsga3_front; try eassumption. }
  assert (S3 : forall x y, In y (pop c') -> In x (pop c) -> dominates M (greater_of k) x y -> In x (pop c')).
  { unfold select_of in H. intros x y. destruct k; cbn [greater_of].
    - apply C18_dominators_survive with (std := std) (opt := opt); try assumption; lia.
    - eapply C18_dominators_survive_nsga3; try eassumption.
    - eapply C18_dominators_survive_nsga3; try eassumption. }
  destruct S1 as (A1 & A2 & A3 & A4). destruct S2 as (N & F1 & F2 & F3).
  do 4 (split; [assumption|]). split; [exact N|]. intros i. split.
  - intros Hi. destruct (F1 i Hi) as (x & Hx & Ei & (_ & Nd)). exists x. split; [|exact Ei]. split; [exact Hx|].
    intros y Hy. apply Nd. eapply sublist_in; eassumption.
  - intros (x & (Hx & Nd) & <-).
    assert (Nx : nondominated_in M (greater_of k) (pop c) x).
    { split; [eapply sublist_in; eassumption|]. intros y Hy D. apply (Nd y); [|exact D]. eapply S3; eassumption. }
    set (nd := filter (fun z => Nat.eqb (dominatedNum M (greater_of k) (pop c) z) 0) (pop c)).
    assert (Hnd : forall z, In z nd <-> nondominated_in M (greater_of k) (pop c) z).
    { intros z. unfold nd. rewrite filter_In, Nat.eqb_eq. symmetry. apply nondom_zero. apply Hw. }
    assert (Nn : NoDup nd) by (apply NoDup_filter, nodup_of_map, Hw).
    destruct (Z.le_gt_cases (Z.of_nat (length nd)) K) as [L|L].
    + apply (F2 nd Nn Hnd L). apply Hnd, Nx.
    + apply (F3 nd Nn Hnd L). exact Hx.
Qed.

Lemma sel_few (c : core') : wf c -> Z.of_nat (length (pop c)) < K -> sel c = UB.
Proof.
  intros Hw L. unfold select_of. destruct k; [apply nsga2_few|apply nsga3_few|apply nsga3_few]; assumption.
Qed.
Lemma sel_total (c : core') : wf c -> 1 <= K <= Z.of_nat (length (pop c)) -> (is_nsga3 k = true -> ws <> []) ->
  (is_nsga3 k = false -> forall x, In x (pop c) -> tame M x) -> exists c', sel c = Ok c'.
Proof.
  intros Hw HK' Hws Ht. unfold select_of. destruct k; cbn [is_nsga3] in *.
  - apply nsga2_total; try assumption. apply Ht; reflexivity.
  - apply nsga3_total; try assumption; try lia. apply Hws; reflexivity.
  - apply nsga3_total; try assumption; try lia. apply Hws; reflexivity.
Qed.
End Sel.

(** ** One run from any state the object can be in *)
Section Runs.
Context {V : Type} (R : rng_ops) (std : std_ops) (lin : lin_ops) (M : nat) (k : kind) (opt : ga_option) (ws : list (list double)).
Context (fs : user_funs V (list double) (G R)) (junk : list double).
Notation core' := (core V (list double) (list nat) (G R)).
Notation hk := (hooks_of (V := V) R std lin M k opt ws).
Notation brd := (breed R fs opt junk).
Notation comp := (computeAllFitness R fs).
Notation K := (populationSize opt).
Variable (Q : V -> list double -> Prop).
Definition good (c : core') : Prop := forall x, In x (pop c) -> gcomp x = true -> Q (gvar x) (gfit x).
Definition ready (c : core') : Prop := wf c /\ good c /\ fails c = 0.
Definition done (c : core') : Prop :=
  wf c /\ (forall x, In x (pop c) -> gcomp x = true /\ Q (gvar x) (gfit x)) /\ fails c = 0 /\
  exact_front R M k c /\ Z.of_nat (length (pop c)) = K.
Hypothesis (HR : rng_ok R) (Hstd : std_ok std) (HK : 0 <= K <= 4294967295) (Lw : Z.of_nat (length ws) <= 18446744073709551616)
  (Hf : forall v, Q v (fFun fs v)).

Lemma comp_all (c : core') x : good c -> In x (pop (comp c)) -> gcomp x = true /\ Q (gvar x) (gfit x).
Proof.
  cbn [pop computeAllFitness]. intros Hq Hx. apply in_map_iff in Hx. destruct Hx as (y & <- & Hy).
  unfold evaluated. destruct (gcomp y) eqn:E; [split; [exact E|apply Hq; assumption]|cbn; split; [reflexivity|apply Hf]].
Qed.
Lemma round_done (c0 c : core') : ready c0 -> evaluate_and_select R fs hk c0 = Ok c -> done c.
Proof.
  intros (Hw & Hq & F0) H. unfold evaluate_and_select in H. cbn [hk_select hooks_of] in H.
  destruct (sel_spec R std lin M k opt ws HR Hstd HK Lw _ c (compute_wf R fs c0 Hw) H) as (A1 & A2 & A3 & A4 & A5).
  split; [exact A3|]. split; [|split; [rewrite A4; exact F0|split; assumption]].
  intros x Hx. apply (comp_all c0); [exact Hq|]. eapply sublist_in; eassumption.
Qed.
Lemma breed_ready (c : core') : done c -> ready (brd c) /\ (length (pop c) <= length (pop (brd c)))%nat.
Proof.
  intros (Wc & Cq & F0 & _ & Sz). destruct (breed_more R fs opt junk c HR Wc) as (Wb & (kids & E) & U).
  split; [split; [exact Wb|split]|].
  - intros x Hx Hc. destruct (U x Hx) as [Hx'|Hx']; [apply Cq, Hx'|congruence].
  - rewrite breed_fails. exact F0.
  - rewrite E, app_length. lia.
Qed.
Lemma loop_post rec_on n : 0 <= maxGenerations opt < two64 - 1 -> forall s s' : ga V (list double) (list nat) (G R),
  ready (ga_core s) -> 0 <= generation s <= maxGenerations opt ->
  ga_loop R fs opt junk hk rec_on n s = Ok s' ->
  done (ga_core s') /\ generation s' = maxGenerations opt /\
  (rec_on = true -> Z.of_nat (length (record s')) - Z.of_nat (length (record s)) = generation s' - generation s + 1).
Proof.
  intros HM. induction n as [|n IH]; intros s s' Hi Hg H; cbn [ga_loop] in H; [discriminate|].
  apply bind_Ok in H. destruct H as (c & Hc & H). pose proof (round_done _ _ Hi Hc) as D.
  apply bind_Ok in H. destruct H as (r & Hr & H). rewrite wrap64_small in H by (unfold two64 in *; lia).
  assert (Lr : rec_on = true -> length r = S (length (record s))).
  { intros ->. apply bind_Ok in Hr. destruct Hr as (b & _ & Hr). inversion Hr; subst. rewrite app_length. cbn. lia. }
  replace ((0 <? maxFailTimes opt) && (maxFailTimes opt <? fails c)) with false in H.
  2:{ destruct D as (_ & _ & -> & _). destruct (Z.ltb_spec 0 (maxFailTimes opt)); [|reflexivity].
      destruct (Z.ltb_spec (maxFailTimes opt) 0); [lia|reflexivity]. }
  rewrite orb_false_r in H. destruct (Z.ltb_spec (maxGenerations opt) (generation s + 1)) as [Es|Es].
  - inversion H; subst s'; clear H. cbn [ga_core generation record]. rewrite wrap64_small by (unfold two64 in *; lia).
    split; [exact D|]. split; [lia|]. intros E. specialize (Lr E). lia.
  - destruct (breed_ready c D) as (Rb & Lb).
    destruct (IH (mkGA (brd c) (generation s + 1) r) s' Rb ltac:(cbn [generation]; lia) H) as (D' & G' & L'). cbn [ga_core generation record] in *.
    split; [exact D'|]. split; [exact G'|]. intros E. specialize (L' E). specialize (Lr E). lia.
Qed.
Lemma loop_total rec_on n : 0 <= maxGenerations opt < two64 - 1 -> 1 <= K -> (is_nsga3 k = true -> ws <> []) ->
  (is_nsga3 k = false -> forall v d, Q v d -> tame_value M d) ->
  forall s : ga V (list double) (list nat) (G R), ready (ga_core s) -> K <= Z.of_nat (length (pop (ga_core s))) ->
  0 <= generation s <= maxGenerations opt -> maxGenerations opt < generation s + Z.of_nat n ->
  exists s', ga_loop R fs opt junk hk rec_on n s = Ok s'.
Proof.
  intros HM HK1 Hws Ht. induction n as [|n IH]; intros s Hi Hl Hg Hn; cbn [ga_loop]; [lia|].
  pose proof Hi as (Hw & Hq & F0).
  destruct (sel_total R std lin M k opt ws HR Hstd HK Lw (comp (ga_core s)) (compute_wf R fs _ Hw)) as (c & Hc); try assumption.
  { cbn [pop computeAllFitness]. rewrite map_length. lia. }
  { intros E x Hx o Ho. apply (Ht E (gvar x) (gfit x)); [|exact Ho]. apply (comp_all (ga_core s)); assumption. }
  assert (He : evaluate_and_select R fs hk (ga_core s) = Ok c) by exact Hc.
  rewrite He. cbn [bind]. pose proof (round_done _ _ Hi He) as D. pose proof D as (_ & _ & F & _ & Sz).
  assert (B : exists b, mo_bestFitness R M (greater_of k) c = Ok b).
  { unfold mo_bestFitness. destruct (pop c); [cbn in Sz; lia|eauto]. }
  destruct B as (b & Eb). cbn [hk_best hooks_of]. rewrite Eb. cbn [bind]. destruct (breed_ready c D) as (Rb & Lb).
  destruct rec_on; cbn [bind]; rewrite wrap64_small by (unfold two64 in *; lia);
    (destruct (Z.ltb_spec (maxGenerations opt) (generation s + 1)) as [L|L]; cbn [orb]; [eauto|]);
    (destruct (_ && _); [eauto|]); (apply IH; cbn [ga_core generation]; [exact Rb|lia|lia|lia]).
Qed.
End Runs.

Lemma loop_done {V} R std lin M k opt ws (fs : user_funs V (list double) (G R)) junk (Q : V -> list double -> Prop) rec_on n :
  rng_ok R -> std_ok std -> 0 <= populationSize opt <= 4294967295 -> Z.of_nat (length ws) <= 18446744073709551616 ->
  (forall v, Q v (fFun fs v)) -> forall s s' : ga V (list double) (list nat) (G R), ready R Q (ga_core s) ->
  ga_loop R fs opt junk (hooks_of R std lin M k opt ws) rec_on n s = Ok s' -> done R M k opt Q (ga_core s').
Proof.
  intros HR Hstd HK Lw Hf. induction n as [|n IH]; intros s s' Hi H; cbn [ga_loop] in H; [discriminate|].
  apply bind_Ok in H. destruct H as (c & Hc & H). pose proof (round_done R std lin M k opt ws fs Q HR Hstd HK Lw Hf _ _ Hi Hc) as D.
  apply bind_Ok in H. destruct H as (r & Hr & H). destruct (_ || _); [inversion H; subst; exact D|].
  refine (IH _ s' _ H). exact (proj1 (breed_ready R M k opt ws fs junk Q HR c D)).
Qed.

(** ** The reference points *)
Lemma frac_range n : 0 <= fractorial n < two64.
Proof. destruct n as [|[|n]]; [split; [discriminate|reflexivity]..|]. cbn [fractorial]. apply wrap64_range. Qed.
Lemma quot_range n d : 0 <= n < two64 -> 0 <= d -> d <> 0 -> 0 <= n / d < two64.
Proof. intros Hn Hd H0. split; [apply Z.div_pos; lia|]. apply Z.le_lt_trans with n; [|lia]. apply Z.div_le_upper_bound; nia. Qed.
Lemma choose_base N K n :
  (let den := wrap64 (fractorial (Z.to_nat K) * fractorial (Z.to_nat (wrap64 (N - K)))) in
   if den =? 0 then UB else Ok (fractorial (Z.to_nat N) / den)) = Ok n -> 0 <= n < two64.
Proof.
  cbv zeta. pose proof (wrap64_range (fractorial (Z.to_nat K) * fractorial (Z.to_nat (wrap64 (N - K))))) as D. revert D.
  generalize (wrap64 (fractorial (Z.to_nat K) * fractorial (Z.to_nat (wrap64 (N - K))))). intros d D.
  destruct (Z.eqb_spec d 0); [discriminate|]. intros H. injection H as <-. apply quot_range; [apply frac_range|lia|assumption].
Qed.
Lemma choose_range f N : forall K n, NchooseK f N K = Ok n -> 0 <= n < two64.
Proof.
  induction f as [|f IH]; intros K n H; cbn [NchooseK] in H; destruct (N <? wrap64 (K * 2)); try discriminate; try (eapply choose_base; exact H).
  eapply IH; exact H.
Qed.
Lemma copy_length count rf ws : 0 <= count -> copyColumns count rf = Ok ws -> Z.of_nat (length ws) <= count.
Proof. unfold copyColumns. destruct (count <=? _); [|discriminate]. intros C H. inversion H. rewrite firstn_length. lia. Qed.
Lemma poses1_length R M p g ws g' : makePoses1 R M p g = Ok (ws, g') -> Z.of_nat (length ws) <= 18446744073709551616.
Proof.
  unfold makePoses1. destruct p as [p|]; [|discriminate]. intros H. apply bind_Ok in H. destruct H as (n & Hn & H).
  apply choose_range in Hn. unfold two64 in Hn.
  apply bind_Ok in H. destruct H as (rf & _ & H). destruct (shuffle R rf g) as (rf', g1). apply bind_Ok in H. destruct H as (cols & Hc & H).
  inversion H; subst. apply copy_length in Hc; lia.
Qed.
Lemma poses2_length R M i e g ws g' : makePoses2 R M i e g = Ok (ws, g') -> Z.of_nat (length ws) <= 18446744073709551616.
Proof.
  unfold makePoses2. intros H. apply bind_Ok in H. destruct H as (n & Hn & H).
  assert (Rn : 0 <= n < two64).
  { unfold pointCount2 in Hn. apply bind_Ok in Hn. destruct Hn as (a & _ & Hn). apply bind_Ok in Hn. destruct Hn as (b & _ & Hn). inversion Hn. apply wrap64_range. }
  unfold two64 in Rn. destruct (shuffle R [] g) as (e1, g1). destruct (shuffle R [] g1) as (e2, g2).
  apply bind_Ok in H. destruct H as (x & _ & H). apply bind_Ok in H. destruct H as (y & _ & H). apply bind_Ok in H. destruct H as (cols & Hc & H).
  inversion H; subst. apply copy_length in Hc; lia.
Qed.

(** ** Histories *)
Section Obj.
Context {V A : Type} (R : rng_ops) (std : std_ops) (lin : lin_ops) (M : nat) (k : kind) (rec_on : bool).
Context (junk : list double) (v0 : V) (vec_max : Z).
Notation mobj' := (@mobj V A R).
Notation step' := (step R std lin M k rec_on junk v0 vec_max).
Notation drive' := (drive R std lin M k rec_on junk v0 vec_max).
Notation lawful := (lawful R M k rec_on vec_max).
Notation lawful_history := (lawful_history R std lin M k rec_on junk v0 vec_max).
Hypothesis (HR : rng_ok R) (Hstd : std_ok std).

Lemma refs_length (o : mobj') ws g : Z.of_nat (length (mo_refs R o)) <= 18446744073709551616 ->
  make_refs R M k o = Ok (ws, g) -> Z.of_nat (length ws) <= 18446744073709551616.
Proof.
  intros H0 H. unfold make_refs in H. destruct k.
  - inversion H; subst. exact H0.
  - eapply poses1_length; exact H.
  - destruct (mo_prec2 R o) as (i, e). eapply poses2_length; exact H.
Qed.
Lemma refs_total (o : mobj') : (1 <= M)%nat -> precision_ok R M k o -> exists ws g, make_refs R M k o = Ok (ws, g) /\ (is_nsga3 k = true -> ws <> []).
Proof.
  intros HM P. unfold make_refs, precision_ok in *. destruct k.
  - do 2 eexists. split; [reflexivity|]. discriminate.
  - destruct P as (p & -> & P1 & P2). destruct (poses1_ok R M p (gen_rng (mo_core R o)) HR HM P2) as (rf & ws & g' & _ & E & _ & L).
    exists ws, g'. split; [exact E|]. intros _ ->. pose proof (NSGA3Proofs2.binom_pos (M + p - 1) p ltac:(lia)). cbn in L. lia.
  - destruct (mo_prec2 R o) as (i, e). cbn [fst snd] in P. destruct P as ((P1 & P2) & P3 & P4).
    destruct (poses2_ok R M i e (gen_rng (mo_core R o)) HM P2 P4) as (irf & orf & g' & _ & _ & E & _ & L & _).
    exists (map (map (fun x => fmul x inv_sqrt2)) irf ++ orf), g'. split; [exact E|]. intros _ C. apply app_eq_nil in C. destruct C as (C & _).
    apply map_eq_nil in C. subst irf. pose proof (NSGA3Proofs2.binom_pos (M + i - 1) i ltac:(lia)). cbn in L. lia.
Qed.

(** What holds after every history that respects the types. *)
Definition inv (Q : V -> list double -> Prop) (o : mobj') : Prop :=
  wf (mo_core R o) /\ good R Q (mo_core R o) /\
  (forall i, In i (ext (mo_core R o)) -> exists x, In x (pop (mo_core R o)) /\ gid x = i) /\
  size_ok (mo_opt R o) /\ Z.of_nat (length (mo_refs R o)) <= 18446744073709551616.
Definition seeded (o : mobj') : Prop := is_nsga3 k = true -> get_population R o <> [] -> mo_refs R o <> [].

Lemma init_eq (o o' : mobj') : step' o (InitializePop R) = Ok o' -> exists ws g i,
  make_refs R M k o = Ok (ws, g) /\
  (f_i R (mo_slots R o) = Some i \/ f_i R (mo_slots R o) = None /\ populationSize (mo_opt R o) = 0 /\ i = fun _ => no_init R v0) /\
  o' = mkMObj R (mo_opt R o) (mo_slots R o) (mo_args R o) (mo_prec R o) (mo_prec2 R o) ws
         (initializePop R (init_funs R junk (i (mo_args R o))) (mo_opt R o) junk v0
            (mkCore (pop (mo_core R o)) (next (mo_core R o)) (fails (mo_core R o)) [] g))
         (mo_gen R o) (mo_rec R o) (mo_ran R o).
Proof.
  cbn [step]. unfold do_init. intros H. apply bind_Ok in H. destruct H as ((ws, g) & Hr & H). cbv zeta in H.
  destruct (f_i R (mo_slots R o)) as [i|].
  - exists ws, g, i. split; [exact Hr|]. split; [left; reflexivity|]. congruence.
  - destruct (Z.eqb_spec (populationSize (mo_opt R o)) 0); [|discriminate]. exists ws, g, (fun _ => no_init R v0).
    split; [exact Hr|]. split; [right; auto|]. congruence.
Qed.
Lemma run_eq (o o' : mobj') : step' o (Run R) = Ok o' -> exists f c m s,
  f_f R (mo_slots R o) = Some f /\ f_c R (mo_slots R o) = Some c /\ f_m R (mo_slots R o) = Some m /\
  run R (user_of R v0 o f c m) (mo_opt R o) junk (hooks_of R std lin M k (mo_opt R o) (mo_refs R o)) rec_on vec_max
      (S (Z.to_nat (maxGenerations (mo_opt R o)))) (mkGA (mo_core R o) (mo_gen R o) (mo_rec R o)) = Ok s /\
  o' = mkMObj R (mo_opt R o) (mo_slots R o) (mo_args R o) (mo_prec R o) (mo_prec2 R o) (mo_refs R o)
         (ga_core s) (generation s) (record s) true.
Proof.
  cbn [step]. unfold do_run. destruct (f_f R (mo_slots R o)) as [f|]; [|discriminate]. destruct (f_c R (mo_slots R o)) as [c|]; [|discriminate].
  destruct (f_m R (mo_slots R o)) as [m|]; [|discriminate]. intros H. apply bind_Ok in H. destruct H as (s & Hs & H).
  exists f, c, m, s. split; [reflexivity|]. split; [reflexivity|]. split; [reflexivity|]. split; [exact Hs|]. congruence.
Qed.
Lemma init_inv Q Q' (o o' : mobj') : inv Q' o -> step' o (InitializePop R) = Ok o' -> inv Q o' /\
  length (get_population R o') = Z.to_nat (populationSize (mo_opt R o)) /\
  (forall x, In x (get_population R o') -> gcomp x = false) /\ ext (mo_core R o') = [] /\
  make_refs R M k o = Ok (mo_refs R o', match make_refs R M k o with Ok a => snd a | _ => gen_rng (mo_core R o) end).
Proof.
  intros (Hw & Hq & Hd & Hs & Hl) H. apply init_eq in H. destruct H as (ws & g & i & Hr & Hi & ->).
  unfold get_population. cbn [mo_core mo_refs mo_opt].
  set (c1 := mkCore (pop (mo_core R o)) (next (mo_core R o)) (fails (mo_core R o)) [] g).
  assert (W1 : wf c1) by exact Hw.
  destruct (initialize_spec_lemma R (init_funs R junk (i (mo_args R o))) (mo_opt R o) junk v0 c1 W1) as (L & W & U).
  assert (E : ext (initializePop R (init_funs R junk (i (mo_args R o))) (mo_opt R o) junk v0 c1) = []).
  { unfold initializePop. destruct (init_vars _ _ _ _). reflexivity. }
  split; [|split; [exact L|split; [intros x Hx; apply (U x Hx)|split; [exact E|rewrite Hr; reflexivity]]]].
  split; [exact W|]. split; [intros x Hx Hc; destruct (U x Hx); congruence|]. split; [cbn [mo_core]; rewrite E; intros ? []|].
  split; [exact Hs|]. eapply refs_length; eassumption.
Qed.
Lemma run_inv Q (o o' : mobj') : inv Q o -> (forall f v, f_f R (mo_slots R o) = Some f -> Q v (f (mo_args R o) v)) ->
  step' o (Run R) = Ok o' -> inv Q o' /\ done R M k (mo_opt R o) Q (mo_core R o') /\ mo_refs R o' = mo_refs R o.
Proof.
  intros (Hw & Hq & Hd & Hs & Hl) Hf H. apply run_eq in H. destruct H as (f & c & m & s & Ef & Ec & Em & Hr & ->). cbn [mo_core mo_opt mo_refs].
  assert (D : done R M k (mo_opt R o) Q (ga_core s)).
  { unfold run in Hr. destruct (rec_on && _); [discriminate|].
    eapply loop_done; [exact HR|exact Hstd|exact Hs|exact Hl| | |exact Hr]; [intros v; apply (Hf f v Ef)|].
    cbn [ga_core]. split; [exact Hw|]. split; [exact Hq|reflexivity]. }
  split; [|split; [exact D|reflexivity]]. destruct D as (D1 & D2 & D3 & (D4 & D5) & D6).
  split; [exact D1|]. split; [intros x Hx _; apply D2, Hx|]. split; [|split; assumption].
  intros i Hi. apply D5 in Hi. destruct Hi as (x & (Hx & _) & E). exists x. split; assumption.
Qed.
Lemma step_inv Q (o o' : mobj') c : inv Q o -> typed R c ->
  (forall f v, f_f R (mo_slots R o) = Some f -> c = Run R -> Q v (f (mo_args R o) v)) ->
  step' o c = Ok o' -> inv Q o'.
Proof.
  intros I T HQ H. destruct c as [op|fi|ff|fc|fm|a|p|i e|g| |]; cbn [typed] in T;
    try (cbn [step] in H; inversion H; subst; destruct I as (Hw & Hq & Hd & Hs & Hl); exact (conj Hw (conj Hq (conj Hd (conj Hs Hl))))).
  - cbn [step] in H. inversion H; subst. destruct I as (Hw & Hq & Hd & Hs & Hl). exact (conj Hw (conj Hq (conj Hd (conj T Hl)))).
  - cbn [step] in H. apply bind_Ok in H. destruct H as (q & _ & H). inversion H; subst. exact I.
  - apply (init_inv Q Q o o' I H).
  - apply (run_inv Q o o' I); [|exact H]. intros f v E. apply HQ; [exact E|reflexivity].
Qed.
Lemma fresh_inv Q ct a g : inv Q (fresh R ct a g).
Proof.
  split; [split; [constructor|intros x []]|]. split; [intros x []|]. split; [intros i []|]. split; [split; discriminate|discriminate].
Qed.
Lemma drive_typed h : forall o o' : mobj', inv (fun _ _ => True) o -> Forall (typed R) h -> drive' o h = Ok o' -> inv (fun _ _ => True) o'.
Proof.
  induction h as [|c h IH]; intros o o' I T H; cbn [drive] in H; [inversion H; subst; exact I|].
  apply bind_Ok in H. destruct H as (o1 & H1 & H). apply (IH o1); [|eapply Forall_inv_tail; exact T|exact H].
  eapply step_inv; [exact I|eapply Forall_inv; exact T| |exact H1]. intros; exact Logic.I.
Qed.

(** *** Lawful histories *)
Definition QT (_ : V) (d : list double) : Prop := is_nsga3 k = false -> tame_value M d.
Lemma lawful_typed (o : mobj') c : lawful o c -> typed R c.
Proof. destruct c; cbn; auto. Qed.
Lemma lawful_QT (o : mobj') c : lawful o c -> forall f v, f_f R (mo_slots R o) = Some f -> c = Run R -> QT v (f (mo_args R o) v).
Proof. intros L f v E ->. destruct L as (_ & _ & (f' & E' & T) & _). replace f with f' by congruence. intros C. apply (T C). Qed.
Lemma step_seeded (o o' : mobj') c : (1 <= M)%nat -> seeded o -> lawful o c -> step' o c = Ok o' -> inv QT o -> seeded o'.
Proof.
  intros HM Sd L H I. destruct c as [op|fi|ff|fc|fm|a|p|i e|g| |]; try (cbn [step] in H; inversion H; subst; exact Sd).
  - cbn [step] in H. apply bind_Ok in H. destruct H as (q & _ & H). inversion H; subst. exact Sd.
  - destruct L as (_ & _ & P). destruct (refs_total o HM P) as (ws & g & E & N). destruct (init_inv QT QT o o' I H) as (_ & _ & _ & _ & Em).
    rewrite E in Em. intros T _. apply N in T. congruence.
  - destruct (run_inv QT o o' I) as (_ & (_ & _ & _ & _ & Sz) & E); [intros; eapply lawful_QT; eauto|exact H|].
    destruct L as (_ & _ & _ & Hk & _). intros T N. rewrite E. apply Sd; [exact T|]. intros C. rewrite C in Hk. cbn in Hk. lia.
Qed.
Lemma step_total (o : mobj') c : (1 <= M)%nat -> inv QT o -> seeded o -> lawful o c -> exists o', step' o c = Ok o'.
Proof.
  intros HM I Sd L. destruct c as [op|fi|ff|fc|fm|a|p|i e|g| |]; try (eexists; reflexivity).
  - destruct L as (L1 & L2). cbn [step]. unfold setPrecisions. rewrite (proj2 (Nat.leb_le _ _) L1), (proj2 (Nat.leb_le _ _) L2). cbn [andb bind]. eauto.
  - destruct L as (L1 & L2 & P). destruct (refs_total o HM P) as (ws & g & E & _). cbn [step]. unfold do_init. rewrite E. cbn [bind].
    destruct (f_i R (mo_slots R o)); [eauto|congruence].
  - pose proof L as (L1 & L2 & (f & Ef & T) & Hk & HG & Hv). pose proof I as (Hw & Hq & Hd & Hs & Hl). cbn [step]. unfold do_run. rewrite Ef.
    destruct (f_c R (mo_slots R o)) as [c|]; [|congruence]. destruct (f_m R (mo_slots R o)) as [m|]; [|congruence].
    assert (E : exists s, run R (user_of R v0 o f c m) (mo_opt R o) junk (hooks_of R std lin M k (mo_opt R o) (mo_refs R o)) rec_on vec_max
      (S (Z.to_nat (maxGenerations (mo_opt R o)))) (mkGA (mo_core R o) (mo_gen R o) (mo_rec R o)) = Ok s).
    { unfold run. replace (rec_on && _) with false.
      2:{ destruct rec_on; [|reflexivity]. cbn [andb]. specialize (Hv eq_refl). symmetry. apply Z.ltb_ge. rewrite wrap64_small by (unfold two64 in *; lia). lia. }
      apply loop_total with (Q := QT); try assumption; try lia; cbn [ga_core generation pop].
      - intros v. eapply lawful_QT; [exact L|exact Ef|reflexivity].
      - intros E. apply Sd; [exact E|]. intros C. rewrite C in Hk. cbn in Hk. lia.
      - intros E v d Hd'. apply Hd', E.
      - split; [exact Hw|]. split; [exact Hq|reflexivity].
      - destruct Hk as (_ & Hk). exact Hk.
      - split; [apply Z.le_refl|apply HG].
      - unfold two64 in *. lia. }
    destruct E as (s & ->). cbn [bind]. eauto.
Qed.
Lemma drive_lawful h : (1 <= M)%nat -> forall o : mobj', inv QT o -> seeded o -> lawful_history o h ->
  exists o', drive' o h = Ok o' /\ inv QT o' /\ seeded o'.
Proof.
  intros HM. induction h as [|c h IH]; intros o I Sd L; cbn [drive]; [eauto|].
  destruct L as (L1 & L2). destruct (step_total o c HM I Sd L1) as (o1 & E). rewrite E. cbn [bind].
  apply IH; [|eapply step_seeded; eassumption|apply L2, E].
  eapply step_inv; [exact I|eapply lawful_typed; exact L1| |exact E]. apply lawful_QT, L1.
Qed.
Lemma drive_inv h : (1 <= M)%nat -> forall o o' : mobj', inv QT o -> seeded o -> lawful_history o h -> drive' o h = Ok o' -> inv QT o' /\ seeded o'.
Proof.
  intros HM o o' I Sd L H. destruct (drive_lawful h HM o I Sd L) as (o2 & E & I2). rewrite E in H. injection H as <-. exact I2.
Qed.
Lemma drive_app h1 : forall (o : mobj') h2, drive' o (h1 ++ h2) = (do o1 <- drive' o h1; drive' o1 h2).
Proof.
  induction h1 as [|c h1 IH]; intros o h2; cbn [drive app bind]; [reflexivity|]. destruct (step' o c); cbn [bind]; [apply IH|reflexivity..].
Qed.
Lemma lawful_app h1 : forall (o : mobj') h2, lawful_history o (h1 ++ h2) <->
  lawful_history o h1 /\ forall o1, drive' o h1 = Ok o1 -> lawful_history o1 h2.
Proof.
  induction h1 as [|c h1 IH]; intros o h2; cbn [drive app MOGAObjSpec.lawful_history].
  - split; [intros H; split; [exact Logic.I|intros o1 E; inversion E; subst; exact H]|intros (_ & H); apply H; reflexivity].
  - split.
    + intros (L & H). split; [split; [exact L|intros o' E; apply (IH o' h2), H, E]|].
      intros o1 E. apply bind_Ok in E. destruct E as (o' & E' & E). apply (IH o' h2); [apply H, E'|exact E].
    + intros ((L & H1) & H2). split; [exact L|]. intros o' E. apply IH. split; [apply H1, E|]. intros o1 E1. apply H2. rewrite E. exact E1.
Qed.

(** The run itself: what it leaves. *)
Lemma run_post (o o' : mobj') : inv QT o -> lawful o (Run R) -> step' o (Run R) = Ok o' ->
  done R M k (mo_opt R o) QT (mo_core R o') /\ mo_gen R o' = maxGenerations (mo_opt R o) /\ mo_ran R o' = true /\
  (rec_on = true -> Z.of_nat (length (mo_rec R o')) = maxGenerations (mo_opt R o) + 1).
Proof.
  intros I L H. pose proof L as (_ & _ & _ & Hk & HG & Hv). pose proof I as (Hw & Hq & Hd & Hs & Hl).
  apply run_eq in H. destruct H as (f & c & m & s & Ef & Ec & Em & Hr & ->). cbn [mo_core mo_opt mo_gen mo_ran mo_rec].
  unfold run in Hr. replace (rec_on && _) with false in Hr.
  2:{ destruct rec_on; [|reflexivity]. cbn [andb]. specialize (Hv eq_refl). symmetry. apply Z.ltb_ge. rewrite wrap64_small by (unfold two64 in *; lia). lia. }
  cbv zeta in Hr. cbn [ga_core record] in Hr.
  match type of Hr with ga_loop _ _ _ _ _ _ _ ?s0 = _ => pose proof (loop_post R std lin M k (mo_opt R o) (mo_refs R o) (user_of R v0 o f c m) junk QT HR Hstd Hs Hl
    (fun v => lawful_QT o (Run R) L f v Ef eq_refl) rec_on _ HG s0 s (conj Hw (conj Hq eq_refl)) ltac:(cbn [generation]; lia) Hr) as (D & G & Rc) end.
  cbn [generation record] in *. split; [exact D|]. split; [exact G|]. split; [reflexivity|].
  intros E. specialize (Rc E). rewrite E in Rc. cbn [length] in Rc. lia.
Qed.

(** Setters leave population, counters, record and reference points alone. *)
Lemma setter_frame (o o' : mobj') c : setter R c -> step' o c = Ok o' ->
  pop (mo_core R o') = pop (mo_core R o) /\ ext (mo_core R o') = ext (mo_core R o) /\ fails (mo_core R o') = fails (mo_core R o) /\
  mo_refs R o' = mo_refs R o /\ mo_gen R o' = mo_gen R o /\ mo_rec R o' = mo_rec R o /\ mo_ran R o' = mo_ran R o.
Proof.
  intros S H. destruct c as [op|fi|ff|fc|fm|a|p|i e|g| |]; cbn [setter] in S; try contradiction; cbn [step] in H;
    try (inversion H; subst; repeat split; fail).
  apply bind_Ok in H. destruct H as (q & _ & H). inversion H; subst. repeat split.
Qed.
Lemma setters_frame h : forall o o' : mobj', Forall (setter R) h -> drive' o h = Ok o' ->
  pop (mo_core R o') = pop (mo_core R o) /\ ext (mo_core R o') = ext (mo_core R o) /\ fails (mo_core R o') = fails (mo_core R o) /\
  mo_refs R o' = mo_refs R o /\ mo_gen R o' = mo_gen R o /\ mo_rec R o' = mo_rec R o /\ mo_ran R o' = mo_ran R o.
Proof.
  induction h as [|c h IH]; intros o o' F H; cbn [drive] in H; [inversion H; subst; repeat split|].
  apply bind_Ok in H. destruct H as (o1 & H1 & H). destruct (setter_frame o o1 c (Forall_inv F) H1) as (A1 & A2 & A3 & A4 & A5 & A6 & A7).
  destruct (IH o1 o' (Forall_inv_tail F) H) as (B1 & B2 & B3 & B4 & B5 & B6 & B7). repeat split; congruence.
Qed.

(** Dereferencing the reported pointers. *)
Lemma front_deref (p : list (gene V (list double))) ids : NoDup (map gid p) -> (forall i, In i ids -> exists x, In x p /\ gid x = i) ->
  exists front, derefs p ids = Ok (map gfit front) /\ map gid front = ids /\ incl front p.
Proof.
  intros N. induction ids as [|i ids IH]; intros H; cbn [derefs]; [exists []; repeat split; intros ? []|].
  destruct IH as (fr & E & Em & I); [intros j Hj; apply H; right; exact Hj|].
  destruct (H i (or_introl eq_refl)) as (x & Hx & Ex).
  destruct (find (fun z => Nat.eqb (gid z) i) p) as [z|] eqn:F.
  - apply find_some in F. destruct F as (Hz & Ez). apply Nat.eqb_eq in Ez. rewrite E. cbn [bind].
    exists (z :: fr). split; [reflexivity|]. split; [cbn; congruence|]. intros y [<-|Hy]; [exact Hz|apply I, Hy].
  - exfalso. pose proof (find_none _ _ F x Hx) as C. cbn in C. rewrite Ex, Nat.eqb_refl in C. discriminate.
Qed.
Lemma exact_report (c : core V (list double) (list nat) (G R)) : wf c -> exact_front R M k c ->
  exists front, paretoFront R c = Ok (map gfit front) /\ NoDup front /\ map gid front = ext c /\
    forall x, In x front <-> nondominated_in M (greater_of k) (pop c) x.
Proof.
  intros W (N & F). destruct (front_deref (pop c) (ext c) (proj1 W)) as (front & E & Em & I).
  { intros i Hi. apply F in Hi. destruct Hi as (x & (Hx & _) & E). exists x. split; assumption. }
  exists front. split; [exact E|]. split; [eapply NoDup_map_inv; rewrite Em; exact N|]. split; [exact Em|].
  assert (Inj : forall x y, In x (pop c) -> In y (pop c) -> gid x = gid y -> x = y).
  { intros x y Hx Hy Ex. apply (NoDup_map_inj gid (pop c)); auto. apply W. }
  intros x. split.
  - intros Hx. assert (Hi : In (gid x) (ext c)) by (rewrite <- Em; apply in_map, Hx). apply F in Hi. destruct Hi as (y & Ny & Ey).
    replace x with y; [exact Ny|]. apply Inj; [apply Ny|apply I, Hx|exact Ey].
  - intros Nx. assert (Hi : In (gid x) (ext c)) by (apply F; exists x; split; [exact Nx|reflexivity]). rewrite <- Em in Hi.
    apply in_map_iff in Hi. destruct Hi as (y & Ey & Hy). replace x with y; [exact Hy|]. apply Inj; [apply I, Hy|apply Nx|exact Ey].
Qed.

(** Fitness values are those of the current function. *)
Definition keeps_fitness (c : @call V A R) : Prop := match c with SetFFun _ _ | SetArgs _ _ => False | _ => True end.
Lemma step_same (o o' : mobj') c : keeps_fitness c -> step' o c = Ok o' -> f_f R (mo_slots R o') = f_f R (mo_slots R o) /\ mo_args R o' = mo_args R o.
Proof.
  intros Kc H. destruct c as [op|fi|ff|fc|fm|a|p|i e|g| |]; cbn [keeps_fitness] in Kc; try contradiction; try (cbn [step] in H; inversion H; subst; split; reflexivity).
  - cbn [step] in H. apply bind_Ok in H. destruct H as (q & _ & H). inversion H; subst. split; reflexivity.
  - apply init_eq in H. destruct H as (ws & g & i & _ & _ & ->). split; reflexivity.
  - apply run_eq in H. destruct H as (f & c & m & s & _ & _ & _ & _ & ->). split; reflexivity.
Qed.
Lemma drive_current sf a h : Forall (typed R) h -> Forall keeps_fitness h ->
  forall o o' : mobj', f_f R (mo_slots R o) = sf -> mo_args R o = a -> inv (fun v d => forall f, sf = Some f -> d = f a v) o ->
  drive' o h = Ok o' ->
  f_f R (mo_slots R o') = sf /\ mo_args R o' = a /\ inv (fun v d => forall f, sf = Some f -> d = f a v) o'.
Proof.
  induction h as [|c h IH]; intros T Kh o o' E1 E2 I H; cbn [drive] in H; [inversion H; subst o'; split; [exact E1|]; split; [exact E2|exact I]|].
  apply bind_Ok in H. destruct H as (o1 & H1 & H).
  destruct (step_same o o1 c (Forall_inv Kh) H1) as (S1 & S2).
  apply (IH (Forall_inv_tail T) (Forall_inv_tail Kh) o1); [congruence|congruence| |exact H].
  eapply step_inv; [exact I|exact (Forall_inv T)| |exact H1]. intros f v Ef _ f' Ef'. rewrite E1 in Ef. rewrite E2. congruence.
Qed.
End Obj.
