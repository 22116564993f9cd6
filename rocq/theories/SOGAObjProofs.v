(** A SOGA object over whole histories of calls. *)
From Coq Require Import List Arith ZArith Reals Bool Lia Lra Permutation.
From Flocq Require Import Core BinarySingleNaN.
From Verif Require Import Base Fl FlFacts Rng RandProofs StdOps ListFacts GABase GABaseProofs GAOpsProofs SOGA SOGAProofs SOGAProofs2 SOGAProofs3 SOGAProofs4 SOGAProofs5 SOGAProofs6 SOGAProofs7 SOGAProofs8 SOGAProofs9 SOGAProofs10 SOGAObj SOGAObjSpec.
Import ListNotations.
Open Scope Z_scope.

(** ** The tournament size matters to Tournament only *)
Definition with_tour (t : Z) (sp : sel_params) : sel_params :=
  mkParams t (linWorst sp) (linBest sp) (expBase sp) (boltzStrength sp) (eliteNum sp) (libm_pow sp) (libm_exp sp).
Lemma select_tour {V} (R : rng_ops) std greater opt sp t m fuel (c : core V double nat (G R)) : m <> Tournament ->
  select R std greater opt sp m fuel c = select R std greater opt (with_tour t sp) m fuel c.
Proof. intros H. destruct m; try congruence; reflexivity. Qed.

(** ** One run from any state the object can be in *)
Section Runs.
Context {V : Type} (R : rng_ops) (std : std_ops) (greater : bool) (opt : ga_option) (sp : sel_params).
Context (fs : user_funs V double (G R)) (junk : double) (m : method) (fuel : nat).
Notation core' := (core V double nat (G R)).
Notation gene' := (gene V double).
Notation K' := (K opt).
Notation hk := (soga_hooks R std greater opt sp m fuel).
Notation brd := (breed R fs opt junk).
Notation comp := (computeAllFitness R fs).
Variables (Q : V -> double -> Prop) (B : Z).

Definition good (c : core') : Prop := forall x, In x (pop c) -> gcomp x = true -> Q (gvar x) (gfit x).
Definition ready (c : core') : Prop :=
  wf c /\ best_valid R c /\ good c /\ Z.of_nat (length (pop c)) <= B.
(** What a finished round leaves. *)
Definition done (c : core') : Prop :=
  wf c /\ best_reported R greater c /\ (forall x, In x (pop c) -> gcomp x = true /\ Q (gvar x) (gfit x)) /\
  4 * Z.of_nat (length (pop c)) <= B.

Hypothesis (HR : rng_ok R) (Hstd : std_ok std) (HK : 1 <= K') (HB : 4 * K' <= B < 2147483648)
  (Ht : 0 <= tournamentSize sp) (M1 : m <> StochasticUniversal) (M2 : m = EliteReserved -> eliteNum sp <= K')
  (Hf : forall v, Q v (fFun fs v)).

Lemma comp_all (c : core') x : good c -> In x (pop (comp c)) -> gcomp x = true /\ Q (gvar x) (gfit x).
Proof.
  cbn [pop computeAllFitness]. intros Hq Hx. apply in_map_iff in Hx. destruct Hx as (y & <- & Hy).
  unfold evaluated. destruct (gcomp y) eqn:E; [split; [exact E|apply Hq; assumption]|cbn; split; [reflexivity|apply Hf]].
Qed.

Lemma round_done (c0 c : core') : ready c0 -> evaluate_and_select R fs hk c0 = Ok c ->
  done c /\ Z.of_nat (length (pop c)) = Z.min (Z.of_nat (length (pop c0))) K'.
Proof.
  intros (Hw & Hb & Hq & Hl) H. unfold evaluate_and_select in H. cbn [hk_select soga_hooks] in H.
  assert (Hs : sizes_ok R opt (comp c0)) by (apply comp_small; split; lia).
  destruct (select_spec R std greater opt sp m fuel (comp c0) c HR Hstd (compute_wf R fs c0 Hw) Hs Ht H) as (Wc & Fo & Br & _ & _ & Sz).
  specialize (Sz M1). assert (Lc : length (pop (comp c0)) = length (pop c0)) by (cbn; apply map_length).
  assert (SzK : Z.of_nat (length (pop c)) = Z.min (Z.of_nat (length (pop c0))) K').
  { rewrite Sz. unfold exact_size, elite_size, min_size. rewrite Lc.
    destruct m; try congruence; try lia. specialize (M2 eq_refl).
    destruct (Z.leb_spec (Z.of_nat (length (pop c0))) K'); lia. }
  split; [|exact SzK]. split; [exact Wc|]. split; [exact Br|]. split; [|lia].
  intros x Hx. destruct (Fo x Hx) as (y & Hy & Ey).
  assert (E1 : gcomp x = gcomp y) by (unfold content in Ey; congruence).
  assert (E2 : gfit x = gfit y) by (unfold content in Ey; congruence).
  assert (E3 : gvar x = gvar y) by (unfold content in Ey; congruence).
  rewrite E1, E2, E3. apply (comp_all c0); assumption.
Qed.

Lemma done_valid (c : core') : done c -> best_valid R c.
Proof. intros (_ & (b & (Bin & Bid) & _) & _). unfold best_valid. rewrite <- Bid. apply in_map, Bin. Qed.

Lemma breed_ready (c : core') : done c -> ready (brd c) /\ (length (pop c) <= length (pop (brd c)))%nat.
Proof.
  intros D. pose proof (done_valid c D) as Hb. destruct D as (Wc & Br & Cq & Sz).
  destruct (breed_keeps R opt fs junk c HR Wc) as (Wb & _ & X & kids & E).
  split; [split; [exact Wb|split; [|split]]|].
  - unfold best_valid. rewrite X, E, map_app. apply in_or_app. left. exact Hb.
  - intros x Hx Hc. destruct (breed_unevaluated R opt fs junk c x HR Wc Hx) as [Hx'|Hx']; [|congruence]. apply Cq, Hx'.
  - pose proof (breed_size R opt fs junk c HR Wc). lia.
  - rewrite E, app_length. lia.
Qed.

Lemma loop_post rec_on n : 0 <= maxGenerations opt < two64 - 1 -> forall s s' : ga V double nat (G R),
  ready (ga_core s) -> 0 <= generation s <= maxGenerations opt ->
  ga_loop R fs opt junk hk rec_on n s = Ok s' ->
  done (ga_core s') /\
  (K' <= Z.of_nat (length (pop (ga_core s))) -> Z.of_nat (length (pop (ga_core s'))) = K') /\
  0 <= generation s' <= maxGenerations opt /\
  (rec_on = true -> Z.of_nat (length (record s')) - Z.of_nat (length (record s)) = generation s' - generation s + 1).
Proof.
  intros HM. induction n as [|n IH]; intros s s' Hi Hg H; cbn [ga_loop] in H; [discriminate|].
  apply bind_Ok in H. destruct H as (c & Hc & H). destruct (round_done _ _ Hi Hc) as (D & Sz).
  apply bind_Ok in H. destruct H as (r & Hr & H). rewrite wrap64_small in H by (unfold two64 in *; lia).
  assert (Lr : rec_on = true -> length r = S (length (record s))).
  { intros ->. apply bind_Ok in Hr. destruct Hr as (b & _ & Hr). inversion Hr; subst. rewrite app_length. cbn. lia. }
  destruct (_ || _) eqn:Es.
  - inversion H; subst s'; clear H. cbn [ga_core generation record]. rewrite wrap64_small by (unfold two64 in *; lia).
    split; [exact D|]. split; [intros; lia|]. split; [lia|]. intros E. specialize (Lr E). lia.
  - apply orb_false_iff in Es. destruct Es as (Es & _). apply Z.ltb_ge in Es.
    destruct (breed_ready c D) as (Rb & Lb).
    destruct (IH (mkGA (brd c) (generation s + 1) r) s' Rb ltac:(cbn [generation]; lia) H) as (D' & Sz' & G' & L'). cbn [ga_core generation record] in *.
    split; [exact D'|]. split; [intros; apply Sz'; lia|]. split; [exact G'|]. intros E. specialize (L' E). specialize (Lr E). lia.
Qed.

Lemma loop_runs k rec_on n : 0 <= maxGenerations opt < two64 - 1 ->
  (forall d, ready d -> (forall x, In x (pop d) -> gcomp x = true) -> bad_of (select R std greater opt sp m fuel d) <> Some k) ->
  forall s : ga V double nat (G R), ready (ga_core s) -> 0 <= generation s <= maxGenerations opt ->
  (k = BadFuel -> maxGenerations opt < generation s + Z.of_nat n) ->
  bad_of (ga_loop R fs opt junk hk rec_on n s) <> Some k.
Proof.
  intros HM Hsel. induction n as [|n IH]; intros s Hi Hg Hn; cbn [ga_loop].
  { cbn. intros C. inversion C; subst. specialize (Hn eq_refl). lia. }
  assert (He : ready (comp (ga_core s))).
  { pose proof Hi as (Hw & Hb & Hq & Hl). split; [apply compute_wf, Hw|]. split; [apply comp_best, Hb|]. split.
    - intros x Hx _. apply (comp_all (ga_core s)); assumption.
    - cbn [pop computeAllFitness]. rewrite map_length. exact Hl. }
  pose proof (Hsel _ He (fun x Hx => proj1 (comp_all _ x (proj1 (proj2 (proj2 Hi))) Hx))) as Hk.
  destruct (evaluate_and_select R fs hk (ga_core s)) as [c| | |] eqn:Hc; cbn [bind]; unfold evaluate_and_select in Hc; cbn [hk_select soga_hooks] in Hc; try (rewrite Hc in Hk; exact Hk).
  destruct (round_done (ga_core s) c Hi Hc) as (D & _).
  destruct (bestFitness_ok R c (proj1 D) (done_valid c D)) as (f & Ef).
  cbn [hk_best soga_hooks]. rewrite Ef. cbn [bind].
  destruct (breed_ready c D) as (Rb & _).
  destruct rec_on; cbn [bind]; rewrite wrap64_small by (unfold two64 in *; lia);
    (destruct (Z.ltb_spec (maxGenerations opt) (generation s + 1)) as [L|L]; cbn [orb]; [discriminate|]);
    (destruct (_ && _); [discriminate|]); (apply IH; cbn [ga_core generation]; [exact Rb|lia|intros Q1; specialize (Hn Q1); lia]).
Qed.
End Runs.

(** ** Settings *)
Lemma flt_R (x y : double) : fin x -> fin y -> (flt x y = true <-> (B2R x < B2R y)%R).
Proof. intros X Y. rewrite flt_iff by (apply fin_nonnan; assumption). rewrite !fval_fin by assumption. reflexivity. Qed.
Lemma fle_R (x y : double) : fin x -> fin y -> (fle x y = true <-> (B2R x <= B2R y)%R).
Proof. intros X Y. rewrite fle_iff by (apply fin_nonnan; assumption). rewrite !fval_fin by assumption. reflexivity. Qed.
Lemma fin_d0 : fin d0. Proof. reflexivity. Qed.
Lemma fin_d1 : fin d1. Proof. vm_compute; reflexivity. Qed.
Lemma between_fin (x : double) : fle d0 x = true -> fle x d1 = true -> fin x.
Proof.
  intros A B. destruct x as [s|[|]| |s m e H]; try reflexivity; vm_compute in A, B; discriminate.
Qed.
Lemma flt_fle (x y : double) : flt x y = true -> fle x y = true.
Proof.
  intros H. pose proof (flt_true _ _ _ _ H) as (A & B & C). apply fle_iff; try assumption. lra.
Qed.
Lemma unit_closed (x : double) : fle d0 x = true /\ fle x d1 = true <-> fin x /\ (0 <= B2R x <= 1)%R.
Proof.
  split.
  - intros (A & B). pose proof (between_fin x A B) as F. split; [exact F|].
    apply fle_R in A; [|exact fin_d0|exact F]. apply fle_R in B; [|exact F|exact fin_d1]. rewrite d1_val in B. change (B2R d0) with 0%R in A. lra.
  - intros (F & A & B). split; [apply fle_R; [exact fin_d0|exact F|exact A]|apply fle_R; [exact F|exact fin_d1|rewrite d1_val; exact B]].
Qed.
Lemma unit_open (x : double) : fle d0 x = true /\ flt x d1 = true <-> fin x /\ (0 <= B2R x < 1)%R.
Proof.
  split.
  - intros (A & B). assert (F : fin x) by (apply between_fin; [exact A|apply flt_fle, B]). split; [exact F|].
    apply fle_R in A; [|exact fin_d0|exact F]. apply flt_R in B; [|exact F|exact fin_d1]. rewrite d1_val in B. change (B2R d0) with 0%R in A. lra.
  - intros (F & A & B). split; [apply fle_R; [exact fin_d0|exact F|exact A]|apply flt_R; [exact F|exact fin_d1|rewrite d1_val; exact B]].
Qed.

Lemma linear_test w b :
  flt w b && (fle d0 w && fle d0 b) && (fle w d1 && fle b d1) = true <->
  fin w /\ fin b /\ (0 <= B2R w)%R /\ (B2R w < B2R b)%R /\ (B2R b <= 1)%R.
Proof.
  rewrite !andb_true_iff. split.
  - intros ((A & B & C) & D & E). destruct (proj1 (unit_closed w) (conj B D)) as (Fw & W). destruct (proj1 (unit_closed b) (conj C E)) as (Fb & Bb).
    apply flt_R in A; try assumption. repeat split; try assumption; lra.
  - intros (Fw & Fb & A & B & C). destruct (proj2 (unit_closed w)) as (W1 & W2); [split; [exact Fw|lra]|].
    destruct (proj2 (unit_closed b)) as (B1 & B2); [split; [exact Fb|lra]|]. repeat split; try assumption. apply flt_R; assumption.
Qed.
Lemma range_fresh mode greater : in_range (fresh_settings mode greater).
Proof.
  split; [cbn; lia|]. split; [|split; [|cbn; lia]]; cbn [fresh_settings s_worst s_best s_base].
  - apply linear_test. vm_compute. reflexivity.
  - apply unit_open. split; vm_compute; reflexivity.
Qed.
Lemma range_step s c s' : in_range s -> not_poke c -> apply_setting s c = Ok s' -> in_range s'.
Proof.
  intros (A & B & C & D) Np H. destruct c as [o|ts|ts|w b|cc|b|n|[m|]]; cbn [apply_setting not_poke] in *; try contradiction.
  - inversion H; subst. exact (conj A (conj B (conj C D))).
  - destruct (Z.geb_spec ts 2); [|discriminate]. inversion H; subst. split; [cbn; lia|]. exact (conj B (conj C D)).
  - destruct (flt w b) eqn:E1; cbn [negb] in H; [|discriminate]. destruct (fle d0 w && fle d0 b) eqn:E2; cbn [negb] in H; [|discriminate].
    destruct (fle w d1 && fle b d1) eqn:E3; cbn [negb] in H; [|discriminate]. inversion H; subst.
    split; [exact A|]. split; [|exact (conj C D)]. cbn [s_worst s_best]. apply linear_test. rewrite E1, E2, E3. reflexivity.
  - destruct (fle d0 cc) eqn:E1; cbn [negb] in H; [|discriminate]. destruct (flt cc d1) eqn:E2; cbn [negb] in H; [|discriminate]. inversion H; subst.
    split; [exact A|]. split; [exact B|]. split; [|exact D]. cbn [s_base]. apply unit_open. split; assumption.
  - inversion H; subst. exact (conj A (conj B (conj C D))).
  - destruct (Z.geb_spec n 1); [|discriminate]. inversion H; subst. split; [exact A|]. split; [exact B|]. split; [exact C|]. cbn. lia.
  - inversion H; subst. exact (conj A (conj B (conj C D))).
  - discriminate.
Qed.
Lemma range_history h : forall s s', in_range s -> Forall not_poke h -> apply_settings s h = Ok s' -> in_range s'.
Proof.
  induction h as [|c h IH]; intros s s' A F H; cbn [apply_settings] in H; [inversion H; subst; exact A|].
  inversion F; subst. apply bind_Ok in H. destruct H as (s1 & H1 & H). eapply IH; [|eassumption|exact H]. eapply range_step; eassumption.
Qed.
Lemma setting_cases s c : (exists s', apply_setting s c = Ok s') \/ apply_setting s c = Abort.
Proof.
  destruct c as [o|ts|ts|w b|cc|b|n|[m|]]; cbn [apply_setting]; eauto;
    repeat match goal with |- context [if ?x then _ else _] => destruct x end; eauto.
Qed.

(** ** The object *)
Section Obj.
Context {V A : Type} (R : rng_ops) (std : std_ops) (mode : option method) (greater rec_on : bool).
Context (pw : double -> double -> double) (ex : double -> double) (junk : double) (v0 : V) (vec_max : Z) (sel_fuel : nat).
Notation core' := (core V double nat (G R)).
Notation obj' := (@obj V A R).
Notation step' := (step R std mode greater rec_on pw ex junk v0 vec_max sel_fuel).
Notation drive' := (drive R std mode greater rec_on pw ex junk v0 vec_max sel_fuel).
Notation m_of := (method_of mode).
Variable (B : Z).
Notation lawful := (lawful R mode vec_max B).
Notation lawful_history := (lawful_history R std mode greater rec_on pw ex junk v0 vec_max sel_fuel B).
Notation size_safe := (size_safe mode).
Notation plain_method := (plain_method mode).
Notation ending_method := (ending_method mode).
Hypothesis (HR : rng_ok R) (Hstd : std_ok std) (HB : B < 2147483648).

Definition inv (Q : V -> double -> Prop) (o : obj') : Prop :=
  in_range (o_set R o) /\ wf (o_core R o) /\ good R Q (o_core R o) /\
  Z.of_nat (length (pop (o_core R o))) <= B /\ (o_inited R o = true -> best_valid R (o_core R o)).

Definition run_state (o : obj') f c m :=
  run R (user_of R v0 o f c m) (s_opt (o_set R o)) junk
    (soga_hooks R std greater (s_opt (o_set R o)) (params_of pw ex junk (o_set R o)) (m_of (o_set R o)) sel_fuel) rec_on vec_max
    (S (Z.to_nat (maxGenerations (s_opt (o_set R o))))) (mkGA (o_core R o) (o_gen R o) (o_rec R o)).
Lemma do_run_eq (P : settings -> Prop) (o : obj') : lawful P o (Run R) -> exists f c m, f_f R (o_slots R o) = Some f /\ f_c R (o_slots R o) = Some c /\ f_m R (o_slots R o) = Some m /\
  step' o (Run R) = (do s <- run_state o f c m;
          Ok (mkObj R (o_set R o) (o_slots R o) (o_args R o) (ga_core s) (generation s) (record s) true true)).
Proof.
  intros (I & C & M & (f & Ef & _) & _ & _ & _ & _ & _ & Sb & _). cbn [step]. unfold do_run. rewrite I. cbn [negb]. cbv zeta.
  destruct (f_c R (o_slots R o)) as [c|] eqn:Ec; [|congruence]. destruct (f_m R (o_slots R o)) as [m|] eqn:Em; [|congruence].
  rewrite Ef. exists f, c, m. repeat split. unfold run_state.
  destruct (m_of (o_set R o)) eqn:E; try reflexivity. specialize (Sb eq_refl).
  destruct (s_strength (o_set R o)); [reflexivity|congruence].
Qed.

(** One step keeps the invariant. *)
Lemma run_post (P : settings -> Prop) Q (o o' : obj') : (forall s, P s -> size_safe s) -> inv Q o -> lawful P o (Run R) ->
  (forall f v, f_f R (o_slots R o) = Some f -> Q v (f (o_args R o) v)) ->
  step' o (Run R) = Ok o' ->
  o_set R o' = o_set R o /\ o_slots R o' = o_slots R o /\ o_args R o' = o_args R o /\ o_inited R o' = true /\ o_ran R o' = true /\
  done R greater Q B (o_core R o') /\
  (populationSize (s_opt (o_set R o)) <= Z.of_nat (length (pop (o_core R o))) -> Z.of_nat (length (pop (o_core R o'))) = populationSize (s_opt (o_set R o))) /\
  0 <= o_gen R o' <= maxGenerations (s_opt (o_set R o)) /\
  (rec_on = true -> Z.of_nat (length (o_rec R o')) = o_gen R o' + 1).
Proof.
  intros HP (Hr & Hw & Hq & Hl & Hb) L HQ H. pose proof L as (Li & _ & _ & (f0 & Ef0 & _) & K1 & K4 & HM & Hv & Ht & _ & Hp).
  destruct (do_run_eq P o L) as (f & c & m & Ef & _ & _ & E). rewrite E in H. apply bind_Ok in H. destruct H as (s & Hs & H). inversion H; subst o'; clear H E.
  cbn [o_set o_slots o_args o_inited o_ran o_core o_gen o_rec]. repeat (split; [reflexivity|]).
  unfold run_state, run in Hs. replace (vec_max <? _) with false in Hs by (symmetry; apply Z.ltb_ge; exact Hv). rewrite andb_false_r in Hs.
  destruct (HP _ Hp) as (S1 & S2).
  destruct (loop_post R std greater (s_opt (o_set R o)) (params_of pw ex junk (o_set R o)) (user_of R v0 o f c m) junk (m_of (o_set R o)) sel_fuel Q B
    HR Hstd K1 ltac:(unfold K; lia) ltac:(cbn; destruct Hr; lia) S1 S2 (fun v => HQ f v Ef) rec_on _ HM
    (mkGA (mkCore (pop (o_core R o)) (next (o_core R o)) 0 (ext (o_core R o)) (gen_rng (o_core R o))) 0 (if rec_on then [] else o_rec R o)) s
    (conj (conj (proj1 Hw) (proj2 Hw)) (conj (Hb Li) (conj Hq Hl))) ltac:(cbn; lia) Hs) as (D & Sz & Gn & Rc).
  cbn [ga_core generation record pop] in *. split; [exact D|]. split; [exact Sz|]. split; [exact Gn|].
  intros E. specialize (Rc E). rewrite E in Rc. cbn [length] in Rc. lia.
Qed.

Lemma step_inv (P : settings -> Prop) Q (o o' : obj') c : (forall s, P s -> size_safe s) -> inv Q o -> lawful P o c ->
  (forall f v, f_f R (o_slots R o) = Some f -> c = Run R -> Q v (f (o_args R o) v)) ->
  step' o c = Ok o' -> inv Q o'.
Proof.
  intros HP I L HQ H. destruct c as [s|fi|ff|fc|fm|a|g| |].
  - destruct I as (Hr & Hw & Hq & Hl & Hb). destruct L as (_ & Np). cbn [step] in H. apply bind_Ok in H. destruct H as (s' & Hs & H). inversion H; subst o'; clear H.
    split; [eapply range_step; eassumption|]. exact (conj Hw (conj Hq (conj Hl Hb))).
  - inversion H; subst. exact I.
  - inversion H; subst. exact I.
  - inversion H; subst. exact I.
  - inversion H; subst. exact I.
  - inversion H; subst. exact I.
  - inversion H; subst. destruct I as (Hr & Hw & Hq & Hl & Hb). exact (conj Hr (conj Hw (conj Hq (conj Hl Hb)))).
  - destruct I as (Hr & Hw & Hq & Hl & Hb). destruct L as (Li & K1 & K4). cbn [step] in H. unfold do_init in H. cbv zeta in H.
    destruct (f_i R (o_slots R o)) as [i|]; [|congruence].
    inversion H; subst o'; clear H. cbn [o_set o_core o_inited]. split; [exact Hr|].
    destruct (init_G R (s_opt (o_set R o)) (mkFuns (i (o_args R o)) (fun _ => junk) (fun a b g => ((a, b), g)) (fun a g => (a, g))) junk (fun d => forall v, Q v d) (fun _ => B)
      v0 (o_core R o) K1 ltac:(cbn; unfold K; lia) Hw) as (I1 & I2 & I3 & I4).
    split; [exact I1|]. split; [intros x Hx Hc; apply (I3 x Hx Hc)|]. split; [exact I4|]. intros _; exact I2.
  - pose proof I as (Hr & _). destruct (run_post P Q o o' HP I L (fun f v E => HQ f v E eq_refl) H) as (E1 & E2 & E3 & E4 & _ & D & _).
    pose proof (done_valid R greater Q B _ D) as Bv. destruct D as (D1 & D2 & D3 & D4).
    split; [rewrite E1; exact Hr|]. split; [exact D1|]. split; [intros x Hx _; apply D3, Hx|]. split; [lia|]. intros _. exact Bv.
Qed.

Lemma fresh_inv Q ct a g : 0 <= B -> inv Q (fresh R mode greater ct a g).
Proof.
  intros B0. split; [apply range_fresh|]. split; [split; [constructor|intros x []]|]. split; [intros x []|]. split; [exact B0|discriminate].
Qed.

Lemma plain_size s : plain_method s -> size_safe s.
Proof. intros (A1 & A2 & A3). split; [exact A1|]. intros C. congruence. Qed.

Lemma run_avoid (P : settings -> Prop) Q k (o : obj') : (forall s, P s -> size_safe s) -> inv Q o -> lawful P o (Run R) ->
  (forall f v, f_f R (o_slots R o) = Some f -> Q v (f (o_args R o) v)) ->
  (forall d : core', ready R Q B d -> (forall x, In x (pop d) -> gcomp x = true) ->
     bad_of (select R std greater (s_opt (o_set R o)) (params_of pw ex junk (o_set R o)) (m_of (o_set R o)) sel_fuel d) <> Some k) ->
  bad_of (step' o (Run R)) <> Some k.
Proof.
  intros HP (Hr & Hw & Hq & Hl & Hb) L HQ Hsel. pose proof L as (Li & _ & _ & _ & K1 & K4 & HM & Hv & Ht & _ & Hp).
  destruct (do_run_eq P o L) as (f & c & m & Ef & _ & _ & ->).
  assert (W : bad_of (run_state o f c m) <> Some k).
  { unfold run_state, run. replace (vec_max <? _) with false by (symmetry; apply Z.ltb_ge; exact Hv). rewrite andb_false_r.
    destruct (HP _ Hp) as (S1 & S2).
    apply (loop_runs R std greater (s_opt (o_set R o)) (params_of pw ex junk (o_set R o)) (user_of R v0 o f c m) junk (m_of (o_set R o)) sel_fuel Q B); try assumption;
      cbn [ga_core generation]; try (unfold K; lia).
    - cbn. destruct Hr. lia.
    - intros v. apply HQ, Ef.
    - exact (conj Hw (conj (Hb Li) (conj Hq Hl))). }
  destruct (run_state o f c m); cbn in W |- *; congruence.
Qed.

Notation nn := (fun (_ : V) (x : double) => nonnan x).
Lemma step_defined (o : obj') c : inv nn o -> lawful plain_method o c -> step' o c <> UB /\ step' o c <> Abort.
Proof.
  intros I L. destruct c as [s|fi|ff|fc|fm|a|g| |]; try (cbn [step]; split; discriminate).
  - destruct L as ((s' & E) & _). cbn [step]. rewrite E. cbn [bind]. split; discriminate.
  - destruct L as (L & _). cbn [step]. unfold do_init. cbv zeta. destruct (f_i R (o_slots R o)); [|congruence]. split; discriminate.
  - pose proof L as (_ & _ & _ & (f & Ef & Hf) & K1 & K4 & _ & _ & Ht & _ & (P1 & P2 & P3)).
    assert (W : forall k, k <> BadFuel -> bad_of (step' o (Run R)) <> Some k).
    { intros k Hk. apply (run_avoid plain_method nn k o plain_size I L); [intros f' v E; replace f' with f by congruence; apply Hf|].
      intros d (Hw & Hb & Hq & Hl) Hc C.
      assert (Hs : sizes_ok R (s_opt (o_set R o)) d) by (split; unfold K; lia).
      assert (NN : forall x, In x (pop d) -> nonnan (gfit x)) by (intros x Hx; apply (Hq x Hx (Hc x Hx))).
      assert (Df : defined (select R std greater (s_opt (o_set R o)) (params_of pw ex junk (o_set R o)) (m_of (o_set R o)) sel_fuel d)).
      { assert (D : m_of (o_set R o) = Tournament \/ m_of (o_set R o) <> Tournament) by (destruct (m_of (o_set R o)); auto; right; discriminate).
        destruct D as [D|D].
        - apply select_defined; try assumption; [|split; assumption]. unfold params_ok. cbn. destruct I as ((I & _) & _). specialize (Ht D). unfold K. lia.
        - rewrite (select_tour R std greater _ _ 0) by exact D. apply select_defined; try assumption; [|split; assumption]. unfold params_ok. cbn. unfold K. lia. }
      destruct Df as (D1 & D2). destruct (select _ _ _ _ _ _ _ d); cbn in C; congruence. }
    split; intros C; [apply (W BadUB)|apply (W BadAbort)]; try discriminate; rewrite C; reflexivity.
Qed.

Lemma drive_inv (P : settings -> Prop) (o o' : obj') h : (forall s, P s -> size_safe s) -> inv nn o -> lawful_history P o h -> drive' o h = Ok o' -> inv nn o'.
Proof.
  intros HP. revert o. induction h as [|c h IH]; intros o I L H; cbn [drive SOGAObjSpec.lawful_history] in *; [inversion H; subst; exact I|].
  apply bind_Ok in H. destruct H as (o1 & H1 & H). destruct L as (L1 & L2). apply (IH o1); [|apply L2, H1|exact H].
  eapply step_inv; try eassumption. intros f v E ->. destruct L1 as (_ & _ & _ & (f' & E' & Hf) & _). replace f with f' by congruence. apply Hf.
Qed.

Lemma drive_defined (o : obj') h : inv nn o -> lawful_history plain_method o h -> drive' o h <> UB /\ drive' o h <> Abort.
Proof.
  revert o. induction h as [|c h IH]; intros o I L; cbn [drive SOGAObjSpec.lawful_history] in *; [split; discriminate|].
  destruct L as (L1 & L2). destruct (step_defined o c I L1) as (D1 & D2).
  destruct (step' o c) as [o1| | |] eqn:E; cbn [bind]; try congruence; [|split; discriminate].
  apply IH; [|apply L2; reflexivity]. eapply step_inv; try eassumption; [apply plain_size|].
  intros f v Ef ->. destruct L1 as (_ & _ & _ & (f' & E' & Hf) & _). replace f with f' by congruence. apply Hf.
Qed.

Lemma ending_plain s : ending_method s -> plain_method s.
Proof. unfold SOGAObjSpec.ending_method, SOGAObjSpec.plain_method. destruct (m_of s); try contradiction; intros _; repeat split; discriminate. Qed.

Lemma step_returns (o : obj') c : pow_ok pw -> B <= Z.of_nat sel_fuel -> inv nn o -> lawful ending_method o c -> exists o', step' o c = Ok o'.
Proof.
  intros Hpw Hfu I L.
  assert (Lp : lawful plain_method o c).
  { destruct c; try exact L. destruct L as (a1 & a2 & a3 & a4 & a5 & a6 & a7 & a8 & a9 & a10 & a11).
    exact (conj a1 (conj a2 (conj a3 (conj a4 (conj a5 (conj a6 (conj a7 (conj a8 (conj a9 (conj a10 (ending_plain _ a11))))))))))). }
  destruct (step_defined o c I Lp) as (D1 & D2). apply not_bad; try (destruct (step' o c); cbn; congruence).
  destruct c as [s|fi|ff|fc|fm|a|g| |]; try (cbn; discriminate).
  - destruct L as ((s' & E) & _). cbn [step]. rewrite E. discriminate.
  - destruct L as (L & _). cbn [step]. unfold do_init. cbv zeta. destruct (f_i R (o_slots R o)); [|congruence]. discriminate.
  - pose proof L as (_ & _ & _ & (f & Ef & Hf) & K1 & K4 & _ & _ & Ht & _ & He).
    apply (run_avoid plain_method nn BadFuel o plain_size I Lp); [intros f' v E; replace f' with f by congruence; apply Hf|].
    intros d (Hw & Hb & Hq & Hl) Hc C.
    assert (Hs : sizes_ok R (s_opt (o_set R o)) d) by (split; unfold K; lia).
    assert (NN : forall x, In x (pop d) -> nonnan (gfit x)) by (intros x Hx; apply (Hq x Hx (Hc x Hx))).
    pose proof I as ((I1 & (W1 & W2 & W3 & W4 & W5) & (C1 & C2) & _) & _).
    assert (Fu : (length (pop d) <= sel_fuel)%nat) by lia.
    assert (Ok' : exists d', select R std greater (s_opt (o_set R o)) (params_of pw ex junk (o_set R o)) (m_of (o_set R o)) sel_fuel d = Ok d').
    { unfold SOGAObjSpec.ending_method in He. destruct (m_of (o_set R o)) eqn:Em; try contradiction.
      - apply select_returns; try assumption; try exact Logic.I. unfold params_ok; cbn; unfold K. specialize (Ht eq_refl). lia.
      - rewrite (select_tour R std greater _ _ 0) by discriminate. apply select_returns; try assumption; try exact Logic.I. unfold params_ok; cbn; unfold K. lia.
      - rewrite (select_tour R std greater _ _ 0) by discriminate. apply select_returns; try assumption; [unfold params_ok; cbn; unfold K; lia|].
        cbn. split; (split; [assumption|lra]).
      - rewrite (select_tour R std greater _ _ 0) by discriminate. apply select_returns; try assumption; [unfold params_ok; cbn; unfold K; lia|].
        cbn. split; [exact Hpw|]. split; [split; [assumption|lra]|]. lra. }
    destruct Ok' as (d' & E'). rewrite E' in C. discriminate C.
Qed.

Lemma drive_returns h : pow_ok pw -> B <= Z.of_nat sel_fuel -> forall o : obj', inv nn o -> lawful_history ending_method o h -> exists o', drive' o h = Ok o'.
Proof.
  intros Hpw Hfu. induction h as [|c h IH]; intros o I L; cbn [drive SOGAObjSpec.lawful_history] in *; [eauto|].
  destruct L as (L1 & L2). destruct (step_returns o c Hpw Hfu I L1) as (o1 & E). rewrite E. cbn [bind].
  apply IH; [|apply L2, E]. eapply step_inv; try eassumption; [intros s Hs; apply plain_size, ending_plain, Hs|].
  intros f v Ef ->. destruct L1 as (_ & _ & _ & (f' & E' & Hf) & _). replace f with f' by congruence. apply Hf.
Qed.

(** ** Fitness values are those of the current function *)
Lemma init_inv (P : settings -> Prop) Q Q' (o o' : obj') : inv Q' o -> lawful P o (InitializePop R) -> step' o (InitializePop R) = Ok o' ->
  inv Q o' /\ o_slots R o' = o_slots R o /\ o_args R o' = o_args R o.
Proof.
  intros (Hr & Hw & Hq & Hl & Hb) (Li & K1 & K4) H. cbn [step] in H. unfold do_init in H. cbv zeta in H.
  destruct (f_i R (o_slots R o)) as [i|] eqn:Ei; [|congruence].
  inversion H; subst o'; clear H. split; [|split; reflexivity]. cbn [o_set o_core o_inited]. split; [exact Hr|]. 
  destruct (init_G R (s_opt (o_set R o)) (mkFuns (i (o_args R o)) (fun _ => junk) (fun a b g => ((a, b), g)) (fun a g => (a, g))) junk (fun d => forall v, Q v d) (fun _ => B)
      v0 (o_core R o) K1 ltac:(cbn; unfold K; lia) Hw) as (I1 & I2 & I3 & I4).
  split; [exact I1|]. split; [intros x Hx Hc; apply (I3 x Hx Hc)|]. split; [exact I4|]. intros _; exact I2.
Qed.

Definition keeps_fitness (c : @call V A R) : Prop := match c with SetFFun _ _ | SetArgs _ _ => False | _ => True end.
Lemma step_same (o o' : obj') c : keeps_fitness c -> step' o c = Ok o' -> f_f R (o_slots R o') = f_f R (o_slots R o) /\ o_args R o' = o_args R o.
Proof.
  intros Kc H. destruct c as [s|fi|ff|fc|fm|a|g| |]; cbn [keeps_fitness] in Kc; try contradiction; cbn [step] in H; try (inversion H; subst; split; reflexivity).
  - apply bind_Ok in H. destruct H as (s' & _ & H). inversion H; subst. split; reflexivity.
  - unfold do_init in H. cbv zeta in H. destruct (f_i R (o_slots R o)); [|destruct (_ =? _)]; inversion H; subst; split; reflexivity.
  - unfold do_run in H. cbv zeta in H. destruct (o_inited R o); cbn [negb] in H; [|discriminate].
    destruct (f_f R (o_slots R o)) eqn:Ef; [|discriminate]. destruct (f_c R (o_slots R o)); [|discriminate]. destruct (f_m R (o_slots R o)); [|discriminate].
    assert (Z : forall X (r : res X) (k : X -> obj'), (forall x, f_f R (o_slots R (k x)) = f_f R (o_slots R o) /\ o_args R (k x) = o_args R o) ->
      (do s <- r; Ok (k s)) = Ok o' -> f_f R (o_slots R o') = f_f R (o_slots R o) /\ o_args R o' = o_args R o).
    { intros X r k Hk E. apply bind_Ok in E. destruct E as (x & _ & E). inversion E; subst. apply Hk. }
    rewrite <- Ef.
    destruct (m_of (o_set R o)); [..|destruct (s_strength (o_set R o)); [|discriminate]| |]; (eapply Z; [|exact H]; intros x; split; reflexivity).
Qed.

Lemma drive_current (P : settings -> Prop) sf a h : (forall s, P s -> size_safe s) -> Forall keeps_fitness h ->
  forall o o' : obj', f_f R (o_slots R o) = sf -> o_args R o = a -> inv (fun v d => forall f, sf = Some f -> d = f a v) o ->
  lawful_history P o h -> drive' o h = Ok o' ->
  f_f R (o_slots R o') = sf /\ o_args R o' = a /\ inv (fun v d => forall f, sf = Some f -> d = f a v) o'.
Proof.
  intros HP. induction h as [|c h IH]; intros Kh o o' E1 E2 I L H; cbn [drive SOGAObjSpec.lawful_history] in *; [inversion H; subst o'; split; [exact E1|]; split; [exact E2|exact I]|].
  inversion Kh; subst x l. apply bind_Ok in H. destruct H as (o1 & H1 & H). destruct L as (L1 & L2).
  destruct (step_same o o1 c) as (S1 & S2); try assumption.
  apply (IH ltac:(assumption) o1); [congruence|congruence| |apply L2, H1|exact H].
  eapply step_inv; try eassumption. intros f v Ef _ f' Ef'. rewrite E1 in Ef. rewrite E2. congruence.
Qed.
Lemma drive_app h1 : forall (o : obj') h2, drive' o (h1 ++ h2) = (do o1 <- drive' o h1; drive' o1 h2).
Proof.
  induction h1 as [|c h1 IH]; intros o h2; cbn [drive app bind]; [reflexivity|]. destruct (step' o c); cbn [bind]; [apply IH|reflexivity..].
Qed.
Lemma lawful_app P h1 : forall (o : obj') h2, lawful_history P o (h1 ++ h2) <->
  lawful_history P o h1 /\ forall o1, drive' o h1 = Ok o1 -> lawful_history P o1 h2.
Proof.
  induction h1 as [|c h1 IH]; intros o h2; cbn [drive app SOGAObjSpec.lawful_history].
  - split; [intros H; split; [exact Logic.I|intros o1 E; inversion E; subst; exact H]|intros (_ & H); apply H; reflexivity].
  - split.
    + intros (L & H). split; [split; [exact L|intros o' E; apply (IH o' h2), H, E]|].
      intros o1 E. apply bind_Ok in E. destruct E as (o' & E' & E). apply (IH o' h2); [apply H, E'|exact E].
    + intros ((L & H1) & H2). split; [exact L|]. intros o' E. apply IH. split; [apply H1, E|]. intros o1 E1. apply H2. rewrite E. exact E1.
Qed.
End Obj.
