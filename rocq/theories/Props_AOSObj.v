(** C86, C87: an AOS object under every history of calls.
    AOSObj.v models the object and the calls; AOSObjSpec.v says which calls a
    user may make. *)
From Coq Require Import List Arith ZArith Reals Bool Lia Lra Permutation.
From Flocq Require Import Core BinarySingleNaN.
From Verif Require Props_SOGA BoxObj BoxObjProofs SOGAObjProofs.
From Verif Require Import Props_Box Props_AOS Base Fl FlFacts Rng RandProofs StdOps ListFacts Box BoxProofs AOS AOSSpec
  AOSProofs AOSProofs2 AOSProofs3 AOSProofs4 AOSProofs5 AOSProofs6 AOSSafe AOSObj AOSObjSpec AOSObjProofs.
Import ListNotations.
Open Scope Z_scope.

Definition collect {C X} (f : C -> option X) (h : list C) : list X :=
  flat_map (fun c => match f c with Some x => [x] | None => [] end) h.
Lemma last_cons {X} (l : list X) x d : last (x :: l) d = last l x.
Proof. revert x d. induction l as [|y l IH]; intros x d; [reflexivity|]. cbn [last]. destruct l; [reflexivity|]. apply IH. Qed.

(** * C86: option, box, functions, arguments *)
Section C86.
Context (A : Type) (R : rng_ops) (E0 : env R) (norm : G R -> double * G R).
Notation drive' := (@drive A R E0 norm).
Notation step' := (@step A R E0 norm).
Notation start := (@fresh A R E0).
Definition c_opt (c : @call A R) := match c with SetOption _ p => Some p | _ => None end.
Definition c_i (c : @call A R) := match c with SetIFun _ p => Some (IPointer R p) | _ => None end.
Definition c_f (c : @call A R) := match c with SetFFun _ f => Some f | _ => None end.
Definition c_args (c : @call A R) := match c with SetArgs _ a => Some a | _ => None end.
Definition c_box (c : @call A R) := match c with BoxCall _ b => Some b | _ => None end.

(** The option, the functions, the arguments and the box are the last ones
    given, whatever else was called in between, runs included. *)
Theorem C86_last_value_wins : forall h (o o' : @obj A R), drive' o h = Ok o' ->
  o_opt R o' = last (collect c_opt h) (o_opt R o) /\
  o_i R o' = last (collect c_i h) (o_i R o) /\
  o_f R o' = last (collect c_f h) (o_f R o) /\
  o_args R o' = last (collect c_args h) (o_args R o) /\
  box_steps (o_box R o) (collect c_box h) = Ok (o_box R o').
Proof.
  induction h as [|c h IH]; intros o o' H; cbn [drive] in H; [injection H as <-; repeat split|].
  apply bind_Ok in H. destruct H as (o1 & H1 & H). specialize (IH o1 o' H).
  assert (Fr : (exists s b r, o1 = mkObj R (o_opt R o) (o_box R o) (o_i R o) (o_f R o) (o_args R o) s b r) ->
    c = InitializePop R \/ c = Run R \/ (exists g, c = OtherDraws R g) ->
    o_opt R o' = last (collect c_opt (c :: h)) (o_opt R o) /\
    o_i R o' = last (collect c_i (c :: h)) (o_i R o) /\
    o_f R o' = last (collect c_f (c :: h)) (o_f R o) /\
    o_args R o' = last (collect c_args (c :: h)) (o_args R o) /\
    box_steps (o_box R o) (collect c_box (c :: h)) = Ok (o_box R o')).
  { intros (s & b & r & ->) E. cbn [o_opt o_i o_f o_args o_box] in IH. destruct E as [-> |[-> |(g & ->)]]; exact IH. }
  destruct c as [bc|p|p|ff|a|g| |]; cbn [step] in H1.
  - apply bind_Ok in H1. destruct H1 as (m1 & Hm & H1). injection H1 as <-. cbn [o_opt o_i o_f o_args o_box] in IH.
    unfold collect. cbn [flat_map c_opt c_i c_f c_args c_box app box_steps]. rewrite Hm. cbn [bind]. exact IH.
  - injection H1 as <-. unfold collect. cbn [flat_map c_opt c_i c_f c_args c_box app]. rewrite last_cons. exact IH.
  - injection H1 as <-. unfold collect. cbn [flat_map c_opt c_i c_f c_args c_box app]. rewrite last_cons. exact IH.
  - injection H1 as <-. unfold collect. cbn [flat_map c_opt c_i c_f c_args c_box app]. rewrite last_cons. exact IH.
  - injection H1 as <-. unfold collect. cbn [flat_map c_opt c_i c_f c_args c_box app]. rewrite last_cons. exact IH.
  - injection H1 as <-. apply Fr; [eauto|right; right; eauto].
  - apply Fr; [|left; reflexivity]. destruct (inited R E0 norm o o1 H1) as (i & s & _ & -> & _). eauto.
  - apply Fr; [|right; left; reflexivity]. destruct (ran R E0 o o1 H1) as (_ & B & fu & s & _ & ->). eauto.
Qed.

(** An object whose functions are template arguments behaves exactly like one
    given the same functions at run time. *)
Definition seen (o : @obj A R) := (o_opt R o, o_box R o, o_f R o, o_args R o, o_aos R o, o_inited R o, o_ran R o).
Theorem C86_compile_time_equals_run_time : forall b i f (a : A) (g : G R) h,
  forallb (has_member R b (IFixed R i) true) h = true ->
  match drive' (start b (IPointer R (INull R)) None a g) (SetIFun R (IUser R i) :: SetFFun R (Some f) :: h),
        drive' (start b (IFixed R i) (Some f) a g) h with
  | Ok o1, Ok o2 => seen o1 = seen o2
  | UB, UB | Abort, Abort | Fuel, Fuel => True
  | _, _ => False
  end.
Proof.
  intros b i f a g h Hm. cbn [drive step bind]. unfold fresh. cbn [o_opt o_box o_i o_f o_args o_aos o_inited o_ran].
  assert (K : forall h0 opt b0 a0 s n r, forallb (has_member R b (IFixed R i) true) h0 = true ->
    match drive' (mkObj R opt b0 (IPointer R (IUser R i)) (Some f) a0 s n r) h0, drive' (mkObj R opt b0 (IFixed R i) (Some f) a0 s n r) h0 with
    | Ok o1, Ok o2 => seen o1 = seen o2
    | UB, UB | Abort, Abort | Fuel, Fuel => True
    | _, _ => False
    end); [|apply K; exact Hm].
  clear Hm. induction h0 as [|c h0 IH]; intros opt b0 a0 s n r Hm; [reflexivity|].
  cbn [forallb] in Hm. apply andb_true_iff in Hm. destruct Hm as (Hc & Hm). cbn [drive].
  destruct c as [bc|p|p|ff|a1|g1| |]; cbn [step o_opt o_box o_i o_f o_args o_aos o_inited o_ran bind].
  - destruct (box_step b0 bc); cbn [bind]; try exact Logic.I. apply IH. exact Hm.
  - apply IH. exact Hm.
  - discriminate Hc.
  - discriminate Hc.
  - apply IH. exact Hm.
  - apply IH. exact Hm.
  - unfold do_init. cbn [o_opt o_box o_i o_f o_args o_aos o_inited o_ran]. destruct (negb _); [exact Logic.I|]. destruct (_ =? 0); [exact Logic.I|].
    destruct (aos_initializePop (env_with R E0 no_box (i a0) no_fun) opt s); cbn [bind]; try exact Logic.I. apply IH. exact Hm.
  - unfold do_run. cbn [o_opt o_box o_i o_f o_args o_aos o_inited o_ran andb].
    destruct (settle (env_with R E0 no_box (no_init R) (f a0)) opt s) as [s1| | |]; cbn [bind]; try exact Logic.I.
    destruct (shouldTerminate opt s1); [apply IH; exact Hm|].
    destruct (run_box _ _ b0 _) as [B| | |]; cbn [bind]; try exact Logic.I.
    destruct (excite (env_with R E0 B (no_init R) (f a0)) opt s1) as [s2| | |]; cbn [bind]; try exact Logic.I.
    destruct (aos_run _ opt _ s2); cbn [bind]; try exact Logic.I. apply IH. exact Hm.
Qed.

(** The bounds, delta and dimensions that a run uses are those that the box's
    accessors return (C80 relates these to the calls made); the infinite box has
    no bounds. *)
Theorem C86_box_in_use : forall d (o : @obj A R) B, box_in_use R E0 d o = Ok B ->
  dimD B = Z.of_nat d /\
  match o_box R o with
  | Cont k b => BoxObj.dimensions k b = Ok (Z.of_nat d) /\
      (forall i, (i < d)%nat -> BoxObj.min_at k b i = Ok (minD B i) /\ BoxObj.max_at k b i = Ok (maxD B i)) /\
      (fle (photonRate (o_opt R o)) d0 = false -> forall i, (i < d)%nat -> BoxObj.delta_at k b i = Ok (deltaD B i))
  | Inf b => (eigen E0 = false -> BoxObj.g_dims b = Ok (Z.of_nat d)) /\
      (forall i, minD B i = B754_infinity true /\ maxD B i = B754_infinity false) /\
      (fle (photonRate (o_opt R o)) d0 = false -> exists x, BoxObj.g_delta b = Some x /\ forall i, deltaD B i = x)
  end.
Proof.
  intros d o B H. split; [eapply run_box_dim, H|]. unfold box_in_use, run_box in H.
  assert (Hv : forall f n, have f n = true -> forall i, (i < n)%nat -> f i = Ok (val (f i))).
  { intros f n Hh i Hi. unfold have in Hh. rewrite forallb_forall in Hh. specialize (Hh i ltac:(apply in_seq; lia)). cbn beta in Hh. destruct (f i); [reflexivity|discriminate Hh..]. }
  destruct (o_box R o) as [k b|b]; apply bind_Ok in H; destruct H as (m & Hm & H).
  - destruct (Z.eqb_spec m (Z.of_nat d)) as [Q|]; [|destruct (eigen E0); discriminate H]. cbn [negb] in H.
    destruct (have (BoxObj.min_at k b) d && have (BoxObj.max_at k b) d) eqn:Hmm; [|discriminate H]. cbn [negb] in H.
    apply andb_prop in Hmm. destruct Hmm as (H1 & H2).
    destruct (negb (fle (photonRate (o_opt R o)) d0) && negb (have (BoxObj.delta_at k b) d)) eqn:H3; [discriminate H|].
    destruct (_ && negb (BoxObj.asize _ =? m)); [discriminate H|]. injection H as <-. cbn [minD maxD deltaD].
    split; [congruence|]. split.
    + intros i Hi. split; [apply (Hv _ _ H1 i Hi)|apply (Hv _ _ H2 i Hi)].
    + intros F i Hi. rewrite F in H3. cbn [negb andb] in H3. apply (Hv _ d); [|exact Hi]. destruct (have (BoxObj.delta_at k b) d); [reflexivity|discriminate H3].
  - destruct (Z.eqb_spec m (Z.of_nat d)) as [Q|]; [|discriminate H]. cbn [negb] in H.
    destruct (negb (fle (photonRate (o_opt R o)) d0) && match BoxObj.g_delta b with Some _ => false | None => true end) eqn:H3; [discriminate H|]. injection H as <-.
    split; [intros Eg; rewrite Eg in Hm; congruence|]. split; [intros i; split; reflexivity|].
    intros F. rewrite F in H3. cbn [negb andb] in H3. destruct (BoxObj.g_delta b) as [x|]; [|discriminate H3]. exists x. split; [reflexivity|]. intros i. reflexivity.
Qed.

Lemma quiet h : forall (o o' : @obj A R), ~ In (InitializePop R) h -> electrons (o_aos R o) = [] -> o_inited R o = false -> o_ran R o = false ->
  a_record (o_aos R o) = [] -> drive' o h = Ok o' ->
  electrons (o_aos R o') = [] /\ o_inited R o' = false /\ o_ran R o' = false /\ a_record (o_aos R o') = [].
Proof.
  induction h as [|c h IH]; intros o o' Hn P I Rn Rc H; cbn [drive] in H; [injection H as <-; auto|].
  apply bind_Ok in H. destruct H as (o1 & H1 & H).
  assert (Hn' : ~ In (InitializePop R) h) by (intros C; apply Hn; right; exact C).
  destruct c as [bc|p|p|ff|a1|g1| |]; cbn [step] in H1.
  - apply bind_Ok in H1. destruct H1 as (m1 & _ & H1). injection H1 as <-. refine (IH _ _ Hn' _ _ _ _ H); assumption.
  - injection H1 as <-. refine (IH _ _ Hn' _ _ _ _ H); assumption.
  - injection H1 as <-. refine (IH _ _ Hn' _ _ _ _ H); assumption.
  - injection H1 as <-. refine (IH _ _ Hn' _ _ _ _ H); assumption.
  - injection H1 as <-. refine (IH _ _ Hn' _ _ _ _ H); assumption.
  - injection H1 as <-. refine (IH _ _ Hn' _ _ _ _ H); assumption.
  - exfalso. apply Hn. left. reflexivity.
  - exfalso. destruct (ran R E0 o o1 H1) as (_ & B & fu & s & Hr & _). destruct fu; [discriminate Hr|]. cbn [aos_run] in Hr.
    apply bind_Ok in Hr. destruct Hr as (s1 & Hs & _). unfold settle, computeAtom, compute in Hs. cbn [electrons] in Hs. rewrite P in Hs. discriminate Hs.
Qed.
(** Calls made too early, or with an empty population, are undefined; more
    layers than electrons is an assertion failure. *)
Theorem C86_too_early_is_undefined : forall b i f (a : A) (g : G R) h o,
  drive' (start b i f a g) h = Ok o ->
  (electronNum (o_opt R o) < maxLayerNum (o_opt R o) -> step' o (InitializePop R) = Abort) /\
  (maxLayerNum (o_opt R o) <= electronNum (o_opt R o) ->
     (electronNum (o_opt R o) = 0 -> step' o (InitializePop R) = UB) /\
     (o_i R o = IPointer R (INull R) -> step' o (InitializePop R) = UB) /\
     (o_i R o = IDefault R -> box_initialize R norm (o_box R o) (a_rng (o_aos R o)) = UB -> step' o (InitializePop R) = UB)) /\
  (o_f R o = None -> (exists e, In e (get_electrons R o) /\ ecomp e = false) -> step' o (Run R) = UB) /\
  (~ In (InitializePop R) h ->
     step' o (Run R) = UB /\ get_generation R o = UB /\ get_earlyStop R o = UB /\ get_best R o = UB /\ get_bestEnergy R o = UB /\
     get_bindingEnergy R o = UB /\ get_electrons R o = [] /\ get_record R o = []).
Proof.
  intros b i f a g h o H. split; [|split; [|split]].
  - intros L. cbn [step]. unfold do_init. cbv zeta. destruct (Z.leb_spec (maxLayerNum (o_opt R o)) (electronNum (o_opt R o))); [lia|reflexivity].
  - intros L. cbn [step]. unfold do_init. cbv zeta. rewrite (proj2 (Z.leb_le _ _) L). cbn [negb]. split; [|split].
    + intros ->. reflexivity.
    + intros ->. destruct (_ =? 0); reflexivity.
    + intros -> ->. destruct (_ =? 0); reflexivity.
  - intros Ef (e & Ie & Ce). cbn [step]. unfold do_run. cbv zeta. rewrite Ef. cbn [andb].
    assert (X : existsb (fun e => negb (ecomp e)) (electrons (o_aos R o)) = true) by (apply existsb_exists; exists e; rewrite Ce; auto). rewrite X. reflexivity.
  - intros Hn. destruct (quiet h (start b i f a g) o Hn eq_refl eq_refl eq_refl eq_refl H) as (P & I & Rn & Rc).
    unfold get_generation, get_earlyStop, get_bestEnergy, get_best, get_bindingEnergy, get_electrons, get_record. rewrite I, Rn. cbn [bind].
    split; [|repeat split; assumption].
    cbn [step]. unfold do_run. cbv zeta. rewrite P. cbn [existsb]. rewrite andb_false_r. unfold settle, computeAtom, compute. cbn [electrons]. rewrite P. reflexivity.
Qed.
(** Between initializePop() and the first run() the energies are not initialised. *)
Theorem C86_energy_before_run_is_undefined : forall (o o' : @obj A R), step' o (InitializePop R) = Ok o' ->
  get_bestEnergy R o' = UB /\ get_generation R o' = Ok 0 /\ get_earlyStop R o' = Ok 0 /\ get_record R o' = [] /\
  Z.of_nat (length (get_electrons R o')) = electronNum (o_opt R o).
Proof.
  intros o o' H. cbn [step] in H. destruct (inited R E0 norm o o' H) as (i & s & Hs & -> & _).
  destruct (init_fine R _ _ _ _ Hs) as (N & L & C & (e & Hbe) & G & Ln & _).
  unfold get_bestEnergy, get_best, get_generation, get_earlyStop, get_record, get_electrons. cbn [o_inited o_aos]. rewrite Hbe. cbn [bind].
  apply deref_In in Hbe. destruct Hbe as (Ie & _). rewrite (C e Ie), G, Ln. split; [reflexivity|]. split; [reflexivity|].
  unfold aos_initializePop in Hs. destruct (negb _); [discriminate Hs|]. destruct (init_electrons _ _ _ _) as [es g]. destruct es as [|x t]; [discriminate Hs|].
  injection Hs as <-. cbn [a_stop a_record]. split; [reflexivity|]. split; [reflexivity|]. cbn [electrons] in Ln.
  cbn [length] in Ln. lia.
Qed.
(** The symbol that selects the box's initialisation as a template argument
    cannot be passed to setiFun(): its body is an assertion that fails. *)
Theorem C86_reserved_symbol_refuted : forall (o : @obj A R),
  electronNum (o_opt R o) <> 0 -> drive' o [SetIFun R (IReserved R); InitializePop R] = Abort.
Proof.
  intros o Hn. cbn [drive step bind]. unfold do_init. cbn [o_opt o_i]. cbv zeta. destruct (negb _); [reflexivity|].
  destruct (Z.eqb_spec (electronNum (o_opt R o)) 0); [contradiction|]. reflexivity.
Qed.
End C86.
Print Assumptions C86_last_value_wins.
Print Assumptions C86_compile_time_equals_run_time.
Print Assumptions C86_box_in_use.
Print Assumptions C86_too_early_is_undefined.
Print Assumptions C86_energy_before_run_is_undefined.
Print Assumptions C86_reserved_symbol_refuted.

(** The option starts with the documented values. *)
Theorem C86_default_option :
  electronNum default_aos_option = 50 /\ a_maxGeneration default_aos_option = 30 /\ maxEarlyStop default_aos_option = 20 /\
  maxLayerNum default_aos_option = 5 /\ B2R (photonRate default_aos_option) = drnd (1 / 10).
Proof.
  do 4 (split; [reflexivity|]).
  change (photonRate default_aos_option) with (fdiv (d_of_Z 1) (d_of_Z 10)). unfold fdiv.
  pose proof (Bdiv_correct 53 1024 _ _ mode_NE (d_of_Z 1) (d_of_Z 10)) as C.
  assert (E1 : B2R (d_of_Z 1) = 1%R) by (apply d_of_Z_exact; lia). assert (E10 : B2R (d_of_Z 10) = 10%R) by (apply d_of_Z_exact; lia).
  rewrite E1, E10 in C. specialize (C ltac:(lra)). cbn [round_mode] in C.
  rewrite Rlt_bool_true in C; [apply C|].
  apply Rle_lt_trans with 1%R.
  - apply abs_round_le_generic; [apply fexp_correct; reflexivity|apply valid_rnd_N| |rewrite Rabs_pos_eq; lra].
    change 1%R with (bpow radix2 0). apply generic_format_bpow. unfold SpecFloat.fexp, SpecFloat.emin. lia.
  - change 1%R with (bpow radix2 0). apply bpow_lt. lia.
Qed.
Print Assumptions C86_default_option.

(** * C87: whole histories *)
Section C87.
Context (A : Type) (R : rng_ops) (E0 : env R) (norm : G R -> double * G R).
Notation drive' := (@drive A R E0 norm).
Notation step' := (@step A R E0 norm).
Notation start := (@fresh A R E0).
Hypothesis Hstd : std_ok (std E0).
Hypothesis Hst : stable_at_front (std E0).
Lemma start_named b i f a g : named R (o_aos R (start b i f a g)).
Proof. split; [constructor|intros e []]. Qed.
Lemma start_inv region b i f a g : oinv R region (start b i f a g).
Proof. intros C. discriminate C. Qed.

(** Whatever a user does within the rules -- changing box, option, functions
    between runs, running again without initialising again -- every call
    returns, for every random stream: nothing undefined, no assertion failure,
    no endless loop. *)
Theorem C87_lawful_history_returns : forall d (region : list double -> Prop), rng_ok R -> (forall v, region v -> length v = d) ->
  forall b i f (a : A) (g : G R) h, lawful_history R E0 norm d region (start b i f a g) h ->
  exists o, drive' (start b i f a g) h = Ok o.
Proof using Hstd Hst.
  intros d region HR Hlen b i f a g h H. destruct (history_fine R E0 norm d region Hstd Hst HR Hlen h _ (start_inv region b i f a g) H) as (o & Ho & _). eauto.
Qed.
(** All positions ever tried lie in the promised region. *)
Theorem C87_region : forall d (region : list double -> Prop), rng_ok R -> (forall v, region v -> length v = d) ->
  forall b i f (a : A) (g : G R) h o, lawful_history R E0 norm d region (start b i f a g) h -> drive' (start b i f a g) h = Ok o ->
  o_inited R o = true -> forall e, In e (get_electrons R o) -> region (estate e).
Proof using Hstd Hst.
  intros d region HR Hlen b i f a g h o H Ho Hi e Ie. destruct (history_fine R E0 norm d region Hstd Hst HR Hlen h _ (start_inv region b i f a g) H) as (o' & Ho' & Io).
  rewrite Ho in Ho'. injection Ho' as <-. destruct (Io Hi) as ((_ & _ & _ & Pl) & _). apply Pl, Ie.
Qed.
(** After a run: bestElectron() is one of the electrons and none of them is
    better; all of them are evaluated, and there are at most electronNum; one of
    the two limits has been reached. *)
Theorem C87_after_run : forall d (region : list double -> Prop), rng_ok R -> (forall v, region v -> length v = d) ->
  forall b i f (a : A) (g : G R) h o, lawful_history R E0 norm d region (start b i f a g) (h ++ [Run R]) ->
  drive' (start b i f a g) (h ++ [Run R]) = Ok o ->
  exists o0 best n0 n t,
    drive' (start b i f a g) h = Ok o0 /\
    get_best R o = Ok best /\ In best (get_electrons R o) /\ get_bestEnergy R o = Ok (energy best) /\
    (forall e, In e (get_electrons R o) -> ecomp e = true /\ nonnan (energy e) /\ e_better E0 (energy e) (energy best) = false) /\
    1 <= Z.of_nat (length (get_electrons R o)) <= electronNum (o_opt R o) /\
    Z.min (electronNum (o_opt R o)) (Z.of_nat (length (get_electrons R o0))) <= Z.of_nat (length (get_electrons R o)) /\
    get_generation R o0 = Ok n0 /\ get_generation R o = Ok n /\ get_earlyStop R o = Ok t /\ 0 <= n0 <= n /\
    (n = n0 \/ n <= a_maxGeneration (o_opt R o)) /\ (a_maxGeneration (o_opt R o) <= n \/ maxEarlyStop (o_opt R o) <= t).
Proof using Hstd Hst.
  intros d region HR Hlen b i f a g h o L H. destruct (lawful_app R E0 norm d region h [Run R] _ L) as (L1 & L2).
  destruct (history_fine R E0 norm d region Hstd Hst HR Hlen h _ (start_inv region b i f a g) L1) as (o0 & Ho & Io).
  pose proof (proj1 (L2 o0 Ho)) as LR. destruct (run_object R E0 norm d region Hstd Hst HR Hlen o0 Io LR) as (ff & B & s' & Ef & HB & Hsi & X). cbv zeta in X.
  destruct X as (Hr & Hd & F0 & F1 & G1 & G2 & T & s0 & Fs & Hs). rewrite drive_app, Ho in H. cbn [bind drive step] in H. rewrite Hd in H. cbn [bind] in H. injection H as <-.
  destruct (settle_top (env_with R E0 B (no_init R) (ff (o_args R o0))) Hstd (o_opt R o0) s0 s' Hst (proj1 (proj1 Fs)) Hs) as (best & Hb & Ib & _ & Bb).
  destruct (settle_kept (env_with R E0 B (no_init R) (ff (o_args R o0))) Hstd (o_opt R o0) s0 s' (proj1 (proj1 Fs)) Hs) as (S1 & He1 & Ln & _ & _ & CN).
  destruct LR as (In0 & _ & He & Hn & _). destruct (Io In0) as (_ & _ & G0 & Ne).
  unfold get_best, get_bestEnergy, get_generation, get_earlyStop, get_electrons, get_best. cbn [o_inited o_aos o_opt].
  exists o0, best, (a_gen (o_aos R o0)), (a_gen s'), (a_stop s'). rewrite Hb, In0. cbn [bind]. split; [exact Ho|]. split; [reflexivity|]. split; [exact Ib|].
  split; [rewrite (proj1 (CN best Ib)); reflexivity|]. split; [|split; [|split]].
  - intros e Ie. split; [apply CN, Ie|]. split; [apply CN, Ie|]. apply Bb. eapply sublist_in; eauto.
  - split; [destruct (electrons s'); [destruct Ib|cbn [length]; lia]|]. rewrite Ln. lia.
  - pose proof (proj2 (proj2 F1)) as Q. unfold share_count in Q. lia.
  - repeat split; auto. unfold shouldTerminate in T. apply orb_prop in T. destruct T as [T|T]; apply Z.leb_le in T; auto.
Qed.

(** As long as neither the fitness function nor the arguments are changed after
    initializePop() -- options, box and other users of the generator may change
    at will -- every computed energy is the value of the current function. *)
Theorem C87_energies : forall b i f (a : A) (g : G R) h1 h2 o ff,
  drive' (start b i f a g) (h1 ++ InitializePop R :: h2) = Ok o -> o_f R o = Some ff ->
  Forall (fun c => match c with SetFFun _ _ | SetArgs _ _ | InitializePop _ => False | _ => True end) h2 ->
  forall e, In e (get_electrons R o) ->
    (ecomp e = true -> energy e = ff (o_args R o) (estate e)) /\ (In (Run R) h2 -> ecomp e = true).
Proof using Hstd.
  intros b i f a g h1 h2 o ff H Hf F. rewrite drive_app in H. apply bind_Ok in H. destruct H as (o0 & H0 & H).
  pose proof (named_drive R E0 norm h1 Hstd _ _ (start_named b i f a g) H0) as N0.
  cbn [drive] in H. apply bind_Ok in H. destruct H as (o1 & H1 & H). pose proof (named_step R E0 norm _ _ _ Hstd N0 H1) as N1.
  assert (Q1 : forall e, In e (electrons (o_aos R o1)) -> ecomp e = true -> energy e = ff (o_args R o) (estate e)).
  { cbn [step] in H1. destruct (inited R E0 norm _ _ H1) as (ii & s & Hs & -> & _). destruct (init_fine R _ _ _ _ Hs) as (_ & _ & C & _).
    intros e Ie Ce. rewrite (C e Ie) in Ce. discriminate Ce. }
  clear H1 H0 h1 N0. revert o1 H N1 Q1 F. induction h2 as [|c h2 IH]; intros o1 H N1 Q1 F.
  - cbn [drive] in H. injection H as <-. intros e Ie. split; [apply Q1, Ie|intros []].
  - cbn [drive] in H. apply bind_Ok in H. destruct H as (o2 & H2 & H). pose proof (named_step R E0 norm _ _ _ Hstd N1 H2) as N2.
    pose proof (Forall_inv F) as Fc. apply Forall_inv_tail in F.
    assert (Keep : electrons (o_aos R o2) = electrons (o_aos R o1) -> c <> Run R ->
      forall e, In e (get_electrons R o) -> (ecomp e = true -> energy e = ff (o_args R o) (estate e)) /\ (In (Run R) (c :: h2) -> ecomp e = true)).
    { intros K Nc e Ie. rewrite <- K in Q1. destruct (IH o2 H N2 Q1 F e Ie) as (X & Y). split; [exact X|]. intros [C|C]; [congruence|exact (Y C)]. }
    destruct c as [bc|p|p|fn|a1|g1| |]; try contradiction Fc; cbn [step] in H2.
    + apply bind_Ok in H2. destruct H2 as (m1 & _ & H2). injection H2 as <-. apply Keep; [reflexivity|discriminate].
    + injection H2 as <-. apply Keep; [reflexivity|discriminate].
    + injection H2 as <-. apply Keep; [reflexivity|discriminate].
    + injection H2 as <-. apply Keep; [reflexivity|discriminate].
    + destruct (C86_last_value_wins A R E0 norm h2 o2 o H) as (_ & _ & Ef & Ea & _).
      assert (Z1 : collect (c_f A R) h2 = [] /\ collect (c_args A R) h2 = []).
      { clear -F. induction h2 as [|c h2 IH]; [split; reflexivity|]. pose proof (Forall_inv F) as Fc. destruct (IH (Forall_inv_tail F)) as (X & Y).
        unfold collect in *. cbn [flat_map]. rewrite X, Y. destruct c; try contradiction Fc; split; reflexivity. }
      destruct Z1 as (Z1 & Z2). rewrite Z1 in Ef. rewrite Z2 in Ea. cbn [last] in Ef, Ea.
      destruct (ran R E0 o1 o2 H2) as (_ & B & fu & s & Hr & Eo2).
      assert (E1 : fun_of R o1 = ff (o_args R o)).
      { unfold fun_of. subst o2. cbn [o_f o_args] in Ef, Ea. rewrite <- Ef, Hf, Ea. reflexivity. }
      assert (C2 : forall e, In e (electrons (o_aos R o2)) -> ecomp e = true) by (subst o2; exact (proj1 (proj2 (named_run R (env_with R E0 B (no_init R) (fun_of R o1)) _ _ Hstd _ _ N1 Hr)))).
      assert (Q2 : forall e, In e (electrons (o_aos R o2)) -> ecomp e = true -> energy e = ff (o_args R o) (estate e)).
      { subst o2. cbn [o_aos]. destruct N1 as (Na & Nb).
        refine (run_each (env_with R E0 B (no_init R) (fun_of R o1)) Hstd (o_opt R o1) (fun e => ecomp e = true -> energy e = ff (o_args R o) (estate e)) _ _ fu _ _ Na Nb Hr Q1).
        - intros e Qe _. unfold evaluate. destruct (ecomp e) eqn:Ce; [exact (Qe eq_refl)|]. cbn [energy estate fFun env_with]. rewrite E1. reflexivity.
        - intros s0 s1 e0 N0 Hx Qx Ie Ce. apply excite_spec in Hx. destruct Hx as (ls & new & _ & _ & En & _ & Hnew & _). rewrite En in Ie. apply in_app_or in Ie.
          destruct Ie as [Ie|Ie]; [apply Qx; assumption|]. rewrite (Hnew e0 Ie) in Ce. discriminate Ce. }
      intros e Ie. destruct (IH o2 H N2 Q2 F e Ie) as (X & Y). split; [exact X|]. intros _.
      clear -H F Ie C2 N2 Hstd. revert o2 H N2 C2. induction h2 as [|c h2 IH]; intros o2 H N2 C2; [cbn [drive] in H; injection H as <-; apply C2, Ie|].
      cbn [drive] in H. apply bind_Ok in H. destruct H as (o3 & H3 & H). pose proof (named_step R E0 norm _ _ _ Hstd N2 H3) as N3.
      pose proof (Forall_inv F) as Fc. apply Forall_inv_tail in F. apply (IH F o3 H N3). clear IH H.
      destruct c as [bc|p|p|fn|a1|g1| |]; try contradiction Fc; cbn [step] in H3.
      * apply bind_Ok in H3. destruct H3 as (m1 & _ & H3). injection H3 as <-. exact C2.
      * injection H3 as <-. exact C2.
      * injection H3 as <-. exact C2.
      * injection H3 as <-. exact C2.
      * destruct (ran R E0 o2 o3 H3) as (_ & B & fu & s & Hr & ->). exact (proj1 (proj2 (named_run R (env_with R E0 B (no_init R) (fun_of R o2)) _ _ Hstd _ _ N2 Hr))).
Qed.

(** From one run to a later one without initializePop() in between, the best
    energy does not get worse -- even if the function was changed. *)
Theorem C87_best_never_worse : forall b i f (a : A) (g : G R) h h2 o1 o2 x,
  drive' (start b i f a g) h = Ok o1 -> get_bestEnergy R o1 = Ok x -> nonnan x ->
  drive' o1 (h2 ++ [Run R]) = Ok o2 -> ~ In (InitializePop R) h2 ->
  exists y, get_bestEnergy R o2 = Ok y /\ nonnan y /\ e_better E0 x y = false.
Proof using Hstd Hst.
  intros b i f a g h h2 o1 o2 x H Hx Nx H2 Hn.
  pose proof (named_drive R E0 norm h Hstd _ _ (start_named b i f a g) H) as N1.
  assert (K0 : o_inited R o1 = true /\ exists e0, In e0 (electrons (o_aos R o1)) /\ ecomp e0 = true /\ nonnan (energy e0) /\ e_better E0 x (energy e0) = false).
  { unfold get_bestEnergy, get_best in Hx. destruct (o_inited R o1); [|discriminate Hx]. split; [reflexivity|]. apply bind_Ok in Hx. destruct Hx as (e & He & Hx).
    destruct (ecomp e) eqn:Ce; [|discriminate Hx]. injection Hx as <-. apply deref_In in He. exists e. repeat split; auto; [apply He|]. apply (eb_irrefl E0). }
  clear H Hx. revert o1 N1 K0 H2. induction h2 as [|c h2 IH]; intros o1 N1 (Hi & e0 & I0 & C0 & Nn & B0) H2.
  - cbn [app drive] in H2. apply bind_Ok in H2. destruct H2 as (o3 & H3 & H2). injection H2 as <-. cbn [step] in H3.
    destruct (ran R E0 o1 o3 H3) as (_ & B & fu & s & Hr & ->). destruct N1 as (Na & Nb).
    destruct (run_not_worse (env_with R E0 B (no_init R) (fun_of R o1)) Hstd (o_opt R o1) Hst fu _ _ e0 Na Nb I0 C0 Nn Hr) as (best & Hb & Cb & _ & Nb' & Q).
    exists (energy best). unfold get_bestEnergy, get_best. cbn [o_inited o_aos]. rewrite Hi, Hb. cbn [bind]. rewrite Cb. split; [reflexivity|]. split; [exact Nb'|].
    change (e_better E0 (energy e0) (energy best) = false) in Q. rewrite (eb_false E0) in * by auto. lra.
  - cbn [app drive] in H2. apply bind_Ok in H2. destruct H2 as (o3 & H3 & H2). pose proof (named_step R E0 norm _ _ _ Hstd N1 H3) as N3.
    assert (Hn' : ~ In (InitializePop R) h2) by (intros C; apply Hn; right; exact C). apply (IH Hn' o3 N3); [|exact H2]. clear IH H2.
    assert (Same : o_inited R o3 = o_inited R o1 -> electrons (o_aos R o3) = electrons (o_aos R o1) ->
      o_inited R o3 = true /\ exists e0, In e0 (electrons (o_aos R o3)) /\ ecomp e0 = true /\ nonnan (energy e0) /\ e_better E0 x (energy e0) = false).
    { intros -> ->. split; [exact Hi|]. exists e0. auto. }
    destruct c as [bc|p|p|fn|a1|g1| |]; cbn [step] in H3.
    + apply bind_Ok in H3. destruct H3 as (m1 & _ & H3). injection H3 as <-. apply Same; reflexivity.
    + injection H3 as <-. apply Same; reflexivity.
    + injection H3 as <-. apply Same; reflexivity.
    + injection H3 as <-. apply Same; reflexivity.
    + injection H3 as <-. apply Same; reflexivity.
    + injection H3 as <-. apply Same; reflexivity.
    + exfalso. apply Hn. left. reflexivity.
    + destruct (ran R E0 o1 o3 H3) as (_ & B & fu & s & Hr & ->). destruct N1 as (Na & Nb).
      destruct (run_not_worse (env_with R E0 B (no_init R) (fun_of R o1)) Hstd (o_opt R o1) Hst fu _ _ e0 Na Nb I0 C0 Nn Hr) as (best & Hb & Cb & Ib & Nb' & Q).
      split; [exact Hi|]. exists best. cbn [o_aos]. split; [exact Ib|]. split; [exact Cb|]. split; [exact Nb'|].
      change (e_better E0 (energy e0) (energy best) = false) in Q. rewrite (eb_false E0) in * by auto. lra.
Qed.
(** A run only adds positions of the box that is set when it is called. *)
Theorem C87_new_positions_in_current_box : forall d (region : list double -> Prop), rng_ok R -> (forall v, region v -> length v = d) ->
  forall b i f (a : A) (g : G R) h o0 o B, lawful_history R E0 norm d region (start b i f a g) (h ++ [Run R]) ->
  drive' (start b i f a g) h = Ok o0 -> drive' (start b i f a g) (h ++ [Run R]) = Ok o ->
  box_in_use R E0 d o0 = Ok B -> moderate (env_with R E0 B (no_init R) no_fun) -> eigen_draws E0 ->
  (forall v, region v -> modest v) -> (forall v, in_box B v -> region v) ->
  forall e, In e (get_electrons R o) ->
    in_box B (estate e) \/ exists e0, In e0 (get_electrons R o0) /\ estate e = estate e0.
Proof using Hstd Hst.
  intros d region HR Hlen b i f a g h o0 o B L Ho H HB HM HD Mod Inb e Ie.
  destruct (lawful_app R E0 norm d region h [Run R] _ L) as (L1 & L2).
  destruct (history_fine R E0 norm d region Hstd Hst HR Hlen h _ (start_inv region b i f a g) L1) as (o1 & Ho1 & Io).
  rewrite Ho in Ho1. injection Ho1 as <-. pose proof (proj1 (L2 o0 Ho)) as LR.
  destruct (run_object R E0 norm d region Hstd Hst HR Hlen o0 Io LR) as (ff & B' & s' & Ef & HB' & _ & X). cbv zeta in X.
  rewrite HB in HB'. injection HB' as <-. destruct X as (Hr & Hd & F0 & _).
  rewrite drive_app, Ho in H. cbn [bind drive step] in H. rewrite Hd in H. cbn [bind] in H. injection H as <-.
  unfold get_electrons in *. cbn [o_aos] in Ie.
  destruct LR as (In0 & (ff' & Ef' & Hf) & He & Hn & Hg & Hfit & _). rewrite Ef in Ef'. injection Ef' as <-.
  destruct (Io In0) as ((Sa & Sb & Sc & Sd) & Al & G0 & Ne).
  set (E := env_with R E0 B (no_init R) (ff (o_args R o0))) in *.
  set (reg := fun v : list double => region v /\ (in_box B v \/ exists e0, In e0 (electrons (o_aos R o0)) /\ v = estate e0)).
  assert (Ld : dimD (box E) = Z.of_nat d) by (eapply run_box_dim, HB).
  assert (So : sound reg (o_aos R o0)).
  { split; [exact Sa|]. split; [exact Sb|]. split; [exact Sc|]. intros x Ix. split; [apply Sd, Ix|]. right. eauto. }
  set (lo := Z.min (electronNum (o_opt R o0)) (Z.of_nat (length (electrons (o_aos R o0))))) in *.
  assert (Hlf : forall t n, 1 <= t <= maxLayerNum (o_opt R o0) -> lo <= n <= electronNum (o_opt R o0) -> layers_fit E t n).
  { intros t n Ht Hnn. apply fits_layers. exact (Hfit t n Ht Hnn). }
  assert (Hlo : 1 <= lo) by (unfold lo; destruct (electrons (o_aos R o0)); [congruence|cbn [length]; lia]).
  assert (Fine : safely reg (o_opt R o0) lo (o_aos R o0)).
  { split; [exact So|]. split; [exact Al|]. unfold share_count, lo. lia. }
  destruct (run_after E reg d (o_opt R o0) Hstd Hst HR (fun v Hv => Hlen v (proj1 Hv)) Ld (fun v Hv => Hf v (proj1 Hv))
    (or_intror (conj HM (conj HD (conj (fun v Hv => modest_low v (Mod v (proj1 Hv))) (fun v Hv => conj (Inb v Hv) (or_introl Hv))))))
    Hn He ltac:(unfold two64 in Hg; lia) lo Hlo Hlf _ _ _ Fine G0 Hr) as (F' & _).
  destruct F' as ((_ & _ & _ & Pl) & _). destruct (Pl e Ie) as (_ & Q). exact Q.
Qed.

(** What a user has to check for the default initialisation: the bounds have
    been set, and are finite and in order. *)
Theorem C87_box_suffices : forall k bx (B : dbox), rng_ok R ->
  BoxObj.init_size k bx = Ok (dimD B) -> BoxObj.dimensions k bx = Ok (dimD B) -> 0 <= dimD B ->
  (forall j, Z.of_nat j < dimD B -> BoxObj.min_at k bx j = Ok (minD B j) /\ BoxObj.max_at k bx j = Ok (maxD B j)) ->
  (forall j, Z.of_nat j < dimD B -> fin (minD B j) /\ fin (maxD B j) /\ fle (minD B j) (maxD B j) = true /\ fin (fsub (maxD B j) (minD B j))) ->
  forall g : G R, exists v g', box_initialize R norm (Cont k bx) g = Ok (v, g') /\ in_box B v.
Proof.
  intros k bx B HR Hs Hd Hp Hb Hf g. cbn [box_initialize].
  rewrite (BoxObjProofs.initialize_same R k bx B (fun j Hj => proj1 (Hb j Hj)) (fun j Hj => proj2 (Hb j Hj)) g Hs Hp).
  pose proof (C39_initialize_continuous R B g HR Hp Hf) as Q. destruct (initializeD R B g) as [v g']. exists v, g'. split; [reflexivity|exact Q].
Qed.
End C87.
Print Assumptions C87_lawful_history_returns.
Print Assumptions C87_region.
Print Assumptions C87_after_run.
Print Assumptions C87_energies.
Print Assumptions C87_best_never_worse.
Print Assumptions C87_new_positions_in_current_box.
Print Assumptions C87_box_suffices.

(** * A history that meets the hypotheses *)
Definition sqk : BoxObj.kind := BoxObj.mkKind true (Some (1, 1)) true false.
Definition quarter : double := fofZ 1 (-2).
Definition E1 : env replay := demo std_inst false coord0.
Definition one_norm (g : G replay) : double * G replay := (d1, g).
Definition region10 (v : list double) : Prop := in_box (square_dbox 1 d0 (d_of_Z 10) quarter) v.
Definition bounded_box (lo hi : Z) : BoxObj.box :=
  BoxObj.mkBox (Some (d_of_Z lo)) (Some (d_of_Z hi)) (Some quarter) (BoxObj.v_min (BoxObj.fresh sqk)) (BoxObj.v_max (BoxObj.fresh sqk)) (BoxObj.v_delta (BoxObj.fresh sqk)) (Some (1, 1)).
Definition scaled (a : Z) (v : list double) : double := if a =? 0 then coord0 v else fopp (coord0 v).

Lemma small_moderate lo hi (E : env replay) : 0 <= lo <= hi -> hi <= 10 -> box E = square_dbox 1 (d_of_Z lo) (d_of_Z hi) quarter -> moderate E.
Proof.
  intros L H EB. unfold moderate. rewrite EB. split; [cbn; lia|]. intros i Hi. cbn [square_dbox minD maxD deltaD].
  assert (H1 : (16 <= bpow radix2 800)%R) by (change 16%R with (bpow radix2 4); apply bpow_le; lia).
  assert (Vl : B2R (d_of_Z lo) = IZR lo) by (apply d_of_Z_exact; lia). assert (Vh : B2R (d_of_Z hi) = IZR hi) by (apply d_of_Z_exact; lia).
  assert (Fl : fin (d_of_Z lo)) by (apply d_of_Z_exact; lia). assert (Fh : fin (d_of_Z hi)) by (apply d_of_Z_exact; lia).
  assert (Vq : B2R (fofZ (prec := 53) (emax := 1024) 1 (-2)) = (1/4)%R).
  { destruct (@fofZ_exact 53 1024 _ _ 1 (-2)) as (_ & V); [easy|easy|easy|]. rewrite V. cbn. lra. }
  pose proof (IZR_le 0 lo ltac:(lia)). pose proof (IZR_le lo hi ltac:(lia)). pose proof (IZR_le hi 10 ltac:(lia)).
  unfold quarter. rewrite Vl, Vh, Vq, !Rabs_pos_eq by lra.
  split; [exact Fl|]. split; [lra|]. split; [exact Fh|]. split; [lra|]. split; [|split; [reflexivity|lra]].
  apply SOGAObjProofs.fle_R; [exact Fl|exact Fh|]. rewrite Vl, Vh. lra.
Qed.
Lemma fsub_modest (x y : double) : fin x -> fin y -> (Rabs (B2R x) <= bpow radix2 800)%R -> (Rabs (B2R y) <= bpow radix2 800)%R -> fin (fsub x y).
Proof.
  intros Fx Fy Bx By. refine (proj1 (fsub_bounded x y 2 800 _ _ _ Fx Fy _)); [lia|lia|lia|].
  unfold Rminus. apply Rle_trans with (1 := Rabs_triang _ _). rewrite Rabs_Ropp. lra.
Qed.
Lemma region10_length v : region10 v -> length v = 1%nat.
Proof. intros (L & _). cbn [square_dbox dimD] in L. lia. Qed.
Definition wide : env replay := env_with replay E1 (square_dbox 1 (d_of_Z 0) (d_of_Z 10) quarter) (no_init replay) no_fun.
Lemma region10_modest v : region10 v -> modest v.
Proof.
  intros H x Hx. assert (M : moderate wide) by (apply (small_moderate 0 10); [lia|lia|reflexivity]).
  assert (Q : low v).
  { apply (in_box_low wide M). split; [apply H|]. intros i y Hy. apply (proj2 H i y Hy). }
  unfold low in Q. rewrite Forall_forall in Q. exact (Q x Hx).
Qed.
Lemma region10_nonnan a v : region10 v -> nonnan (scaled a v).
Proof.
  intros H. pose proof (region10_modest v H) as M. pose proof (region10_length v H) as L.
  destruct v as [|x [|y v]]; try discriminate L. destruct (M x (or_introl eq_refl)) as (F & _). unfold scaled, coord0. cbn [nth].
  destruct x; try discriminate F; destruct (a =? 0); reflexivity.
Qed.
Lemma smaller_in lo hi v : 0 <= lo <= hi -> hi <= 10 -> in_box (square_dbox 1 (d_of_Z lo) (d_of_Z hi) quarter) v -> region10 v.
Proof.
  intros L H (Ln & Q). split; [exact Ln|]. intros i x Hx. destruct (Q i x Hx) as (A & B). cbn [square_dbox minD maxD dimD] in *.
  destruct (d_of_Z_exact lo ltac:(lia)) as (Fl & Vl). destruct (d_of_Z_exact hi ltac:(lia)) as (Fh & Vh). destruct (d_of_Z_exact 10 ltac:(lia)) as (Ft & Vt).
  assert (Nx : nonnan x) by (destruct x; try reflexivity; destruct (d_of_Z lo); discriminate A).
  pose proof (IZR_le 0 lo ltac:(lia)). pose proof (IZR_le hi 10 ltac:(lia)).
  apply fle_iff in A; [|apply fin_nonnan, Fl|exact Nx]. apply fle_iff in B; [|exact Nx|apply fin_nonnan, Fh].
  rewrite (@fval_fin 53 1024 (d_of_Z lo) Fl), Vl in A. rewrite (@fval_fin 53 1024 (d_of_Z hi) Fh), Vh in B.
  rewrite !fle_iff by (first [exact Nx|apply fin_nonnan; assumption|reflexivity]).
  rewrite (@fval_fin 53 1024 (d_of_Z 10) Ft), Vt. split; [|lra].
  rewrite (@fval_fin 53 1024 d0 eq_refl). change (B2R d0) with 0%R. lra.
Qed.

Definition aopt_a : aos_option := mkAOpt 3 2 20 2 (fofZ 1 (-1)).
Definition aopt_b : aos_option := mkAOpt 2 4 20 1 (fofZ 1 (-1)).
Definition bx lo hi : @call Z replay := BoxCall replay (CCall (BoxObj.SetRange (d_of_Z lo) (d_of_Z hi))).
Definition chapter1 : list (@call Z replay) :=
  [ bx 0 1; BoxCall replay (CCall (BoxObj.SetDelta quarter)); SetFFun replay (Some scaled); SetOption replay aopt_a; InitializePop replay; Run replay ].
Definition chapter2 : list (@call Z replay) := [ bx 2 3; SetArgs replay 1; SetOption replay aopt_b; Run replay ].
Notation kind_start g := (@fresh Z replay E1 (fresh_box sqk) (IDefault replay) None 0 g).
Notation lawful10 o h := (@lawful_history Z replay E1 one_norm 1 region10 o h).
Notation good10 o c := (@lawful Z replay E1 one_norm 1 region10 o c).
Notation drive10 o h := (@drive Z replay E1 one_norm o h).
Lemma E1_std : std_ok (std E1). Proof. apply std_inst_ok. Qed.
Lemma E1_stable : stable_at_front (std E1). Proof. apply isort_stable. Qed.

(** What is known of the object on the way. *)
Section Next.
Variable region : list double -> Prop.
Hypothesis Hlen : forall v, region v -> length v = 1%nat.
Notation lawfulR o h := (@lawful_history Z replay E1 one_norm 1 region o h).
Definition at_ (o : @obj Z replay) opt b f a n : Prop :=
  o_opt replay o = opt /\ o_box replay o = b /\ o_i replay o = IDefault replay /\ o_f replay o = f /\ o_args replay o = a /\ o_inited replay o = n /\
  oinv replay region o.
Lemma next opt b f a n c h (o : @obj Z replay) : at_ o opt b f a n -> @lawful Z replay E1 one_norm 1 region o c ->
  (forall o', step replay E1 one_norm o c = Ok o' -> oinv replay region o' -> lawfulR o' h) -> lawfulR o (c :: h).
Proof.
  intros (_ & _ & _ & _ & _ & _ & I) L H. cbn [lawful_history]. split; [exact L|]. intros o' S. apply H; [exact S|].
  destruct (step_fine replay E1 one_norm 1 region E1_std E1_stable replay_ok Hlen o c I L) as (o2 & H2 & I2). rewrite S in H2. injection H2 as ->. exact I2.
Qed.
Lemma next_box opt b f a n c b' h o : at_ o opt b f a n -> has_box_call b c = true -> box_step b c = Ok b' ->
  (forall o', at_ o' opt b' f a n -> lawfulR o' h) -> lawfulR o (BoxCall replay c :: h).
Proof.
  intros K Hc Hb H. pose proof K as (K1 & K2 & K3 & K4 & K5 & K6 & K7). apply (next opt b f a n _ _ _ K).
  - cbn [lawful]. rewrite K2. split; [exact Hc|]. rewrite Hb. discriminate.
  - intros o' S I. apply H. cbn [step] in S. rewrite K2, Hb in S. cbn [bind] in S. injection S as <-. do 6 (split; [first [assumption|reflexivity]|]); exact I.
Qed.
Lemma next_opt opt b f a n p h o : at_ o opt b f a n -> (forall o', at_ o' p b f a n -> lawfulR o' h) -> lawfulR o (SetOption replay p :: h).
Proof.
  intros K H. pose proof K as (K1 & K2 & K3 & K4 & K5 & K6 & K7). apply (next opt b f a n _ _ _ K); [exact Logic.I|].
  intros o' S I. apply H. cbn [step] in S. injection S as <-. do 6 (split; [first [assumption|reflexivity]|]); exact I.
Qed.
Lemma next_fun opt b f a n f' h o : at_ o opt b f a n -> (forall o', at_ o' opt b f' a n -> lawfulR o' h) -> lawfulR o (SetFFun replay f' :: h).
Proof.
  intros K H. pose proof K as (K1 & K2 & K3 & K4 & K5 & K6 & K7). apply (next opt b f a n _ _ _ K); [exact Logic.I|].
  intros o' S I. apply H. cbn [step] in S. injection S as <-. do 6 (split; [first [assumption|reflexivity]|]); exact I.
Qed.
Lemma next_args opt b f a n a' h o : at_ o opt b f a n -> (forall o', at_ o' opt b f a' n -> lawfulR o' h) -> lawfulR o (SetArgs replay a' :: h).
Proof.
  intros K H. pose proof K as (K1 & K2 & K3 & K4 & K5 & K6 & K7). apply (next opt b f a n _ _ _ K); [exact Logic.I|].
  intros o' S I. apply H. cbn [step] in S. injection S as <-. do 6 (split; [first [assumption|reflexivity]|]); exact I.
Qed.
End Next.
Lemma next_init opt f a n lo hi h o : at_ region10 o opt (Cont sqk (bounded_box lo hi)) f a n -> 0 <= lo <= hi -> hi <= 10 ->
  maxLayerNum opt <= electronNum opt -> 1 <= electronNum opt ->
  (forall o', at_ region10 o' opt (Cont sqk (bounded_box lo hi)) f a true -> lawful10 o' h) -> lawful10 o (InitializePop replay :: h).
Proof.
  intros K Hl Hh Ho1 Ho2 H. pose proof K as (K1 & K2 & K3 & K4 & K5 & K6 & K7). apply (next region10 region10_length opt (Cont sqk (bounded_box lo hi)) f a n _ _ _ K).
  - cbn [lawful]. rewrite K1, K2, K3. split; [exact Ho1|]. split; [exact Ho2|]. intros g.
    set (B := square_dbox 1 (d_of_Z lo) (d_of_Z hi) quarter).
    assert (M : moderate (env_with replay E1 B (no_init replay) no_fun)) by (apply (small_moderate lo hi); [lia|lia|reflexivity]).
    destruct (C87_box_suffices replay one_norm sqk (bounded_box lo hi) B replay_ok eq_refl eq_refl ltac:(cbn; lia)) with (g := g) as (v & g' & Hv & Iv).
    + intros j _. split; reflexivity.
    + intros j Hj. destruct (proj2 M j Hj) as (A1 & A2 & A3 & A4 & A5 & _). cbn [env_with box] in *.
      split; [exact A1|]. split; [exact A3|]. split; [exact A5|]. apply fsub_modest; assumption.
    + exists v, g'. split; [exact Hv|]. apply (smaller_in lo hi v Hl Hh Iv).
  - intros o' S I. apply H. cbn [step] in S. destruct (inited replay E1 one_norm o o' S) as (i & s & _ & -> & _). do 6 (split; [first [assumption|reflexivity]|]); exact I.
Qed.
Lemma next_run opt a lo hi h o : at_ region10 o opt (Cont sqk (bounded_box lo hi)) (Some scaled) a true -> 0 <= lo <= hi -> hi <= 10 ->
  1 <= electronNum opt -> 1 <= maxLayerNum opt < 2147483647 -> 0 <= a_maxGeneration opt < two64 -> fle (photonRate opt) d0 = false ->
  (forall t n, 1 <= t <= maxLayerNum opt -> 1 <= n <= electronNum opt -> AOSSpec.fits E1 t n) ->
  (forall o', at_ region10 o' opt (Cont sqk (bounded_box lo hi)) (Some scaled) a true -> lawful10 o' h) -> lawful10 o (Run replay :: h).
Proof.
  intros K Hl Hh Ho1 Ho2 Ho3 Hp Hfit H. pose proof K as (K1 & K2 & K3 & K4 & K5 & K6 & K7). apply (next region10 region10_length opt (Cont sqk (bounded_box lo hi)) (Some scaled) a true _ _ _ K).
  - cbn [lawful]. cbv zeta. rewrite K1, K4, K5, K6. split; [reflexivity|]. split; [exists scaled; split; [reflexivity|apply region10_nonnan]|].
    split; [exact Ho1|]. split; [exact Ho2|]. split; [exact Ho3|]. split.
    + intros t n Ht Hn. apply Hfit; [exact Ht|]. destruct (K7 K6) as (_ & _ & _ & Ne). unfold get_electrons in Hn.
      destruct (electrons (o_aos replay o)); [congruence|]. cbn [length] in Hn. lia.
    + exists (square_dbox 1 (d_of_Z lo) (d_of_Z hi) quarter). split.
      * unfold box_in_use. rewrite K1, K2, Hp. reflexivity.
      * right. split; [apply (small_moderate lo hi); [lia|lia|reflexivity]|]. split; [apply demo_draws|]. split; [apply region10_modest|].
        intros v. apply (smaller_in lo hi v Hl Hh).
  - intros o' S I. apply H. cbn [step] in S. destruct (ran replay E1 o o' S) as (_ & B & fu & s & _ & ->). do 6 (split; [first [assumption|reflexivity]|]); exact I.
Qed.
Lemma fits_small t n : 1 <= t <= 2 -> 1 <= n <= 3 -> AOSSpec.fits E1 t n.
Proof.
  intros Ht Hn. assert (C : t = 1 \/ t = 2) by lia. assert (D : n = 1 \/ n = 2 \/ n = 3) by lia.
  destruct C as [-> | ->]; destruct D as [-> |[-> | ->]]; apply fits_test_ok; vm_compute; reflexivity.
Qed.
Lemma start_at g : at_ region10 (kind_start g) default_aos_option (fresh_box sqk) None 0 false.
Proof. do 6 (split; [reflexivity|]). intros C. discriminate C. Qed.
Lemma chapter1_lawful g h : (forall o, at_ region10 o aopt_a (Cont sqk (bounded_box 0 1)) (Some scaled) 0 true -> lawful10 o h) -> lawful10 (kind_start g) (chapter1 ++ h).
Proof.
  intros H. pose proof (start_at g) as K. unfold chapter1, bx. cbn [app].
  eapply (next_box region10 region10_length); [exact K|reflexivity|reflexivity|]. intros o1 K1.
  eapply (next_box region10 region10_length); [exact K1|reflexivity|reflexivity|]. clear K1. intros o2 K2.
  apply (next_fun region10 region10_length _ _ _ _ _ _ _ _ K2). clear K2. intros o3 K3. apply (next_opt region10 region10_length _ _ _ _ _ _ _ _ K3). clear K3. intros o4 K4.
  apply (next_init _ _ _ _ 0 1 _ _ K4); [lia|lia|cbn; lia|cbn; lia|]. clear K4. intros o5 K5.
  apply (next_run _ _ 0 1 _ _ K5); [lia|lia|cbn; lia|cbn; lia|unfold two64; cbn; lia|vm_compute; reflexivity|apply fits_small|exact H].
Qed.
Example ex_C87_lawful : forall g, lawful10 (kind_start g) (chapter1 ++ chapter2).
Proof.
  intros g. apply chapter1_lawful. intros o6 K6. unfold chapter2, bx.
  apply (next_box region10 region10_length _ _ _ _ _ _ (Cont sqk (bounded_box 2 3)) _ _ K6); [reflexivity|reflexivity|]. clear K6. intros o7 K7.
  apply (next_args region10 region10_length _ _ _ _ _ _ _ _ K7). clear K7. intros o8 K8. apply (next_opt region10 region10_length _ _ _ _ _ _ _ _ K8). clear K8. intros o9 K9.
  apply (next_run _ _ 2 3 _ _ K9); [lia|lia|cbn; lia|cbn; lia|unfold two64; cbn; lia|vm_compute; reflexivity| |intros; exact Logic.I].
  intros t n Ht Hn. apply fits_small; cbn in Ht, Hn; lia.
Qed.
Definition some_draws : list Z := [64; 128; 7; 9; 200; 31; 77; 12; 90; 3; 250; 17; 33; 45].

Example ex_C87_runs : exists o, drive10 (kind_start some_draws) (chapter1 ++ chapter2) = Ok o /\
  match get_generation replay o with
  | Ok n => (n =? 4) && (length (get_electrons replay o) =? 2)%nat && (length (get_record replay o) =? 6)%nat | _ => false end = true.
Proof. apply Props_SOGA.by_test. vm_compute. reflexivity. Qed.

(** bestElectron() may lie outside the box in force: a box changed after a run
    does not touch the electrons found before. *)
Definition chapter3 : list (@call Z replay) := [ bx 2 3; SetOption replay aopt_b; Run replay ].
Definition outside (o : @obj Z replay) : bool :=
  match get_best replay o, o_box replay o with
  | Ok e, Cont k b => match estate e, BoxObj.min_at k b 0 with x :: _, Ok lo => flt x lo | _, _ => false end
  | _, _ => false
  end.
Theorem C87_best_outside_current_box_refuted : exists h (o : @obj Z replay) k b e x lo,
  lawful10 (kind_start some_draws) h /\ drive10 (kind_start some_draws) h = Ok o /\ (exists h', h = h' ++ [Run replay]) /\
  get_best replay o = Ok e /\ o_box replay o = Cont k b /\ nth_error (estate e) 0 = Some x /\ BoxObj.min_at k b 0 = Ok lo /\ flt x lo = true.
Proof.
  assert (L : lawful10 (kind_start some_draws) (chapter1 ++ chapter3)).
  { apply chapter1_lawful. intros o6 K6. unfold chapter3, bx.
    apply (next_box region10 region10_length _ _ _ _ _ _ (Cont sqk (bounded_box 2 3)) _ _ K6); [reflexivity|reflexivity|]. clear K6. intros o7 K7.
    apply (next_opt region10 region10_length _ _ _ _ _ _ _ _ K7). clear K7. intros o9 K9.
    apply (next_run _ _ 2 3 _ _ K9); [lia|lia|cbn; lia|cbn; lia|unfold two64; cbn; lia|vm_compute; reflexivity| |intros; exact Logic.I].
    intros t n Ht Hn. apply fits_small; cbn in Ht, Hn; lia. }
  assert (W : exists o, drive10 (kind_start some_draws) (chapter1 ++ chapter3) = Ok o /\ outside o = true) by (apply Props_SOGA.by_test; vm_compute; reflexivity).
  destruct W as (o & Ho & Q). unfold outside in Q. destruct (get_best replay o) as [e| | |] eqn:Hb; [|discriminate Q..].
  destruct (o_box replay o) as [k b|] eqn:Hbx; [|discriminate Q]. destruct (estate e) as [|x v] eqn:Hv; [discriminate Q|].
  destruct (BoxObj.min_at k b 0) as [lo| | |] eqn:Hl; [|discriminate Q..].
  exists (chapter1 ++ chapter3), o, k, b, e, x, lo. split; [exact L|]. split; [exact Ho|]. split; [exists (chapter1 ++ [bx 2 3; SetOption replay aopt_b]); reflexivity|].
  split; [exact Hb|]. split; [exact Hbx|]. split; [rewrite Hv; reflexivity|]. split; [exact Hl|exact Q].
Qed.
Print Assumptions C87_best_outside_current_box_refuted.

(** Energies may be stale: an electron evaluated before the arguments (or the
    function) were changed is not evaluated again by the next run(). *)
Definition stale (o : @obj Z replay) : bool :=
  match o_f replay o with
  | Some f => existsb (fun e => ecomp e && negb (feq (energy e) (f (o_args replay o) (estate e)))) (get_electrons replay o) | _ => false end.
Definition chapter4 : list (@call Z replay) := [ bx 2 3; InitializePop replay; Run replay; SetArgs replay 1; Run replay ].
Theorem C87_stale_energy_refuted : exists h (o : @obj Z replay) e f,
  lawful10 (kind_start some_draws) h /\ drive10 (kind_start some_draws) h = Ok o /\ (exists h', h = h' ++ [Run replay]) /\
  In e (get_electrons replay o) /\ ecomp e = true /\ o_f replay o = Some f /\ feq (energy e) (f (o_args replay o) (estate e)) = false.
Proof.
  assert (L : lawful10 (kind_start some_draws) (chapter1 ++ chapter4)).
  { apply chapter1_lawful. intros o4 K4. unfold chapter4, bx.
    apply (next_box region10 region10_length _ _ _ _ _ _ (Cont sqk (bounded_box 2 3)) _ _ K4); [reflexivity|reflexivity|]. clear K4. intros o5 K5.
    apply (next_init _ _ _ _ 2 3 _ _ K5); [lia|lia|cbn; lia|cbn; lia|]. clear K5. intros o5' K5'.
    apply (next_run _ _ 2 3 _ _ K5'); [lia|lia|cbn; lia|cbn; lia|unfold two64; cbn; lia|vm_compute; reflexivity|apply fits_small|]. clear K5'. intros o6 K6.
    apply (next_args region10 region10_length _ _ _ _ _ _ _ _ K6). clear K6. intros o7 K7.
    apply (next_run _ _ 2 3 _ _ K7); [lia|lia|cbn; lia|cbn; lia|unfold two64; cbn; lia|vm_compute; reflexivity|apply fits_small|intros; exact Logic.I]. }
  assert (W : exists o, drive10 (kind_start some_draws) (chapter1 ++ chapter4) = Ok o /\ stale o = true) by (apply Props_SOGA.by_test; vm_compute; reflexivity).
  destruct W as (o & Ho & Q). unfold stale in Q. destruct (o_f replay o) as [f|] eqn:Hf; [|discriminate Q]. apply existsb_exists in Q. destruct Q as (e & Hb & Q).
  apply andb_prop in Q. destruct Q as (Q1 & Q2). apply negb_true_iff in Q2.
  exists (chapter1 ++ chapter4), o, e, f. split; [exact L|]. split; [exact Ho|]. split; [exists (chapter1 ++ [bx 2 3; InitializePop replay; Run replay; SetArgs replay 1]); reflexivity|].
  split; [exact Hb|]. split; [exact Q1|]. split; [exact Hf|exact Q2].
Qed.
Print Assumptions C87_stale_energy_refuted.

(** The same for AOS_inf: the region is everything. *)
Definition tame (a : Z) (v : list double) : double := match v with x :: _ => if is_nan x then d0 else x | [] => d0 end.
Definition inf_history : list (@call Z replay) :=
  [ BoxCall replay (GCall (BoxObj.SetMu d0)); BoxCall replay (GCall (BoxObj.SetSigma d1)); BoxCall replay (GCall (BoxObj.SetGDelta quarter));
    SetFFun replay (Some tame); SetOption replay aopt_a; InitializePop replay; Run replay ].
Notation inf_start g := (@fresh Z replay E1 (fresh_inf (Some (1, 1))) (IDefault replay) None 0 g).
Example ex_C87_inf : forall g, @lawful_history Z replay E1 one_norm 1 (fun v => length v = 1%nat) (inf_start g) inf_history.
Proof.
  intros g. set (region := fun v : list double => length v = 1%nat).
  assert (K : at_ region (inf_start g) default_aos_option (fresh_inf (Some (1, 1))) None 0 false) by (do 6 (split; [reflexivity|]); intros C; discriminate C).
  assert (Hl : forall v, region v -> length v = 1%nat) by auto. unfold inf_history.
  apply (next_box region Hl _ _ _ _ _ _ (Inf (BoxObj.mkG (Some d0) None None (Some (1, 1)))) _ _ K); [reflexivity|reflexivity|]. clear K. intros o1 K.
  apply (next_box region Hl _ _ _ _ _ _ (Inf (BoxObj.mkG (Some d0) (Some d1) None (Some (1, 1)))) _ _ K); [reflexivity|cbn [box_step BoxObj.gstep]; replace (flt d0 d1) with true by (vm_compute; reflexivity); reflexivity|]. clear K. intros o2 K.
  apply (next_box region Hl _ _ _ _ _ _ (Inf (BoxObj.mkG (Some d0) (Some d1) (Some quarter) (Some (1, 1)))) _ _ K); [reflexivity|cbn [box_step BoxObj.gstep]; replace (flt d0 quarter) with true by (vm_compute; reflexivity); reflexivity|]. clear K. intros o3 K.
  apply (next_fun region Hl _ _ _ _ _ _ _ _ K). clear K. intros o4 K. apply (next_opt region Hl _ _ _ _ _ _ _ _ K). clear K. intros o5 K.
  apply (next region Hl _ _ _ _ _ _ _ _ K); pose proof K as (K1 & K2 & K3 & K4 & K5 & K6 & K7).
  - cbn [lawful]. rewrite K1, K2, K3. split; [cbn; lia|]. split; [cbn; lia|]. intros g0.
    exists [fadd (fmul d1 d1) d0], g0. split; [|reflexivity]. cbn [box_initialize]. unfold BoxObj.g_initialize. reflexivity.
  - intros o6 S6 I6. clear K. cbn [step] in S6. destruct (inited replay E1 one_norm o5 o6 S6) as (i & s & _ & E6 & _).
    assert (K : at_ region o6 aopt_a (Inf (BoxObj.mkG (Some d0) (Some d1) (Some quarter) (Some (1, 1)))) (Some tame) 0 true).
    { subst o6. do 6 (split; [first [assumption|reflexivity]|]). exact I6. }
    clear E6 S6 s i K1 K2 K3 K4 K5 K6 K7. apply (next region Hl _ _ _ _ _ _ _ _ K); [|intros; exact Logic.I].
    pose proof K as (K1 & K2 & K3 & K4 & K5 & K6 & K7). cbn [lawful]. cbv zeta. rewrite K1, K4, K5, K6. split; [reflexivity|].
    split. { exists tame. split; [reflexivity|]. intros v _. unfold tame. destruct v as [|x v]; [reflexivity|]. unfold nonnan. destruct (is_nan x) eqn:N; [reflexivity|exact N]. }
    split; [cbn; lia|]. split; [cbn; lia|]. split; [unfold two64; cbn; lia|]. split.
    + intros t n Ht Hn. apply fits_small; [exact Ht|]. destruct (K7 K6) as (_ & _ & _ & Ne). unfold get_electrons in Hn.
      destruct (electrons (o_aos replay o6)); [congruence|]. cbn [length electronNum aopt_a] in Hn. lia.
    + exists (square_dbox 1 (B754_infinity true) (B754_infinity false) quarter). split; [|left; auto].
      unfold box_in_use. rewrite K1, K2. replace (fle (photonRate aopt_a) d0) with false by (vm_compute; reflexivity). reflexivity.
Qed.
Example ex_C87_inf_runs : exists o, @drive Z replay E1 one_norm (inf_start some_draws) inf_history = Ok o /\
  match get_bestEnergy replay o with Ok x => flt x d1 | _ => false end = true.
Proof. apply Props_SOGA.by_test. vm_compute. reflexivity. Qed.
(** C86: histories with too early calls exist, and the reserved symbol can be passed. *)
Example ex_C86_early : step replay E1 one_norm (kind_start []) (Run replay) = UB /\
  drive10 (@fresh Z replay E1 (fresh_box sqk) (IPointer replay (INull replay)) None 0 []) [SetIFun replay (IReserved replay); InitializePop replay] = Abort.
Proof.
  split.
  - apply (C86_too_early_is_undefined Z replay E1 one_norm (fresh_box sqk) (IDefault replay) None 0 [] [] _ eq_refl). intros [].
  - apply C86_reserved_symbol_refuted. cbn. lia.
Qed.
