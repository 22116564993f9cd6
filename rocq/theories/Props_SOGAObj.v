(** C77-C79: a SOGA object under every history of calls.
    SOGAObj.v models the object and the calls; SOGAObjSpec.v says which calls a
    user may make. *)
From Coq Require Import List Arith ZArith Reals Bool Lia Lra.
From Flocq Require Import Core BinarySingleNaN.
From Verif Require Props_SOGA.
From Verif Require Import Props_Box Base Fl FlFacts Rng StdOps GABase GAOpsProofs VarInv SOGA SOGAProofs SOGAProofs3 SOGAProofs5 SOGAObj SOGAObjSpec SOGAObjProofs.
Import ListNotations.
Open Scope Z_scope.

(** * C77: the settings *)
(** The arguments of the calls that concern one setting, in order. *)
Definition args_of {X} (f : setting_call -> option X) (h : list setting_call) : list X :=
  flat_map (fun c => match f c with Some x => [x] | None => [] end) h.
Definition a_opt c := match c with SetOption o => Some o | _ => None end.
Definition a_tour c := match c with SetTournamentSize z | PokeTournament z => Some z | _ => None end.
Definition a_lin c := match c with SetLinearSelectProbability w b => Some (w, b) | _ => None end.
Definition a_base c := match c with SetExponetialSelectBase x => Some x | _ => None end.
Definition a_strength c := match c with SetBoltzmannSelectStrength x => Some x | _ => None end.
Definition a_elite c := match c with SetEliteNum n => Some n | _ => None end.
Definition a_method c := match c with SetSelectMethod (Some m) => Some m | _ => None end.

(** After any sequence of accepted calls every setting is the last value given
    for it, or the one it started with; no call touches another setting. *)
Lemma last_app_one {X} (l : list X) x d : last (x :: l) d = last l x.
Proof. revert x d. induction l as [|y l IH]; intros x d; [reflexivity|]. cbn [last]. destruct l; [reflexivity|]. apply IH. Qed.
Theorem C77_last_value_wins : forall h s s', apply_settings s h = Ok s' ->
  s_opt s' = last (args_of a_opt h) (s_opt s) /\
  s_tour s' = last (args_of a_tour h) (s_tour s) /\
  (s_worst s', s_best s') = last (args_of a_lin h) (s_worst s, s_best s) /\
  s_base s' = last (args_of a_base h) (s_base s) /\
  s_strength s' = last (map Some (args_of a_strength h)) (s_strength s) /\
  s_elite s' = last (args_of a_elite h) (s_elite s) /\
  s_method s' = last (args_of a_method h) (s_method s).
Proof.
  induction h as [|c h IH]; intros s s' H; cbn [apply_settings] in H; [inversion H; subst; repeat split|].
  apply bind_Ok in H. destruct H as (s1 & H1 & H). specialize (IH _ _ H). clear H.
  destruct c as [o|ts|ts|w b|cc|b|n|[m|]]; cbn [apply_setting] in H1; cbn [args_of flat_map a_opt a_tour a_lin a_base a_strength a_elite a_method app map];
    repeat match type of H1 with context [if ?x then _ else _] => destruct x; try discriminate end;
    inversion H1; subst s1; clear H1; rewrite ?last_app_one; exact IH.
Qed.
Print Assumptions C77_last_value_wins.

(** The starting values, for every selection method. *)
Theorem C77_defaults : forall mode greater, let s := fresh_settings mode greater in
  populationSize (s_opt s) = 100 /\ maxFailTimes (s_opt s) = 50 /\ maxGenerations (s_opt s) = 300 /\
  B2R (crossoverProb (s_opt s)) = drnd (8 / 10) /\ B2R (mutateProb (s_opt s)) = drnd (5 / 100) /\
  s_tour s = 3 /\ B2R (s_worst s) = drnd (1 / 10) /\ B2R (s_best s) = drnd (9 / 10) /\ B2R (s_base s) = drnd (8 / 10) /\
  s_elite s = 1 /\
  (mode = None -> s_method s = EliteReserved /\ s_strength s = None) /\
  (mode = Some Boltzmann -> exists b, s_strength s = Some b /\ B2R b = if greater then 10%R else (-10)%R).
Proof.
  intros mode greater s.
  assert (Dv : forall a b, Z.abs a <= 100 -> 1 <= b <= 100 -> B2R (fdiv (d_of_Z a) (d_of_Z b)) = drnd (IZR a / IZR b)).
  { intros a b Ha Hb. destruct (d_of_Z_exact a) as (Fa & Ea); [lia|]. destruct (d_of_Z_exact b) as (Fb & Eb); [lia|].
    unfold fdiv. pose proof (Bdiv_correct 53 1024 _ _ mode_NE (d_of_Z a) (d_of_Z b)) as C.
    rewrite Ea, Eb in C. specialize (C ltac:(apply not_0_IZR; lia)).
    rewrite Rlt_bool_true in C; [destruct C as (C & _); exact C|].
    assert (Pb : (1 <= IZR b)%R) by (apply IZR_le; lia).
    assert (Q : (Rabs (IZR a / IZR b) <= bpow radix2 7)%R).
    { unfold Rdiv. rewrite Rabs_mult, (Rabs_pos_eq (/ IZR b)) by (left; apply Rinv_0_lt_compat; lra).
      rewrite <- abs_IZR. apply Rle_trans with (IZR (Z.abs a) * 1)%R.
      - apply Rmult_le_compat_l; [apply IZR_le; lia|]. rewrite <- Rinv_1. apply Rinv_le; lra.
      - rewrite Rmult_1_r. change (bpow radix2 7) with (IZR 128). apply IZR_le. lia. }
    apply Rle_lt_trans with (bpow radix2 7); [|apply bpow_lt; lia].
    apply abs_round_le_generic; [typeclasses eauto|typeclasses eauto| |exact Q].
    apply generic_format_bpow. unfold SpecFloat.fexp, SpecFloat.emin. lia. }
  split; [reflexivity|]. split; [reflexivity|]. split; [reflexivity|].
  split; [apply (Dv 8 10); lia|]. split; [apply (Dv 5 100); lia|]. split; [reflexivity|].
  split; [apply (Dv 1 10); lia|]. split; [apply (Dv 9 10); lia|]. split; [apply (Dv 8 10); lia|]. split; [reflexivity|].
  split; intros ->; [split; reflexivity|]. eexists. split; [reflexivity|].
  destruct greater; [destruct (d_of_Z_exact 10) as (_ & E)|destruct (d_of_Z_exact (-10)) as (_ & E)]; try lia; exact E.
Qed.
Print Assumptions C77_defaults.

(** Exactly the values outside the documented ranges are rejected (assertion
    failure), NaN and infinities included. *)
Theorem C77_rejected_exactly_out_of_range : forall s,
  (forall z, apply_setting s (SetTournamentSize z) = Abort <-> z < 2) /\
  (forall w b, apply_setting s (SetLinearSelectProbability w b) = Abort <->
     ~ (fin w /\ fin b /\ (0 <= B2R w)%R /\ (B2R w < B2R b)%R /\ (B2R b <= 1)%R)) /\
  (forall c, apply_setting s (SetExponetialSelectBase c) = Abort <-> ~ (fin c /\ (0 <= B2R c < 1)%R)) /\
  (forall n, apply_setting s (SetEliteNum n) = Abort <-> n < 1) /\
  (forall m, apply_setting s (SetSelectMethod m) = Abort <-> m = None) /\
  (forall b, apply_setting s (SetBoltzmannSelectStrength b) <> Abort) /\
  (forall o, apply_setting s (SetOption o) <> Abort) /\
  (forall c, apply_setting s c <> UB /\ apply_setting s c <> Fuel).
Proof.
  intros s. split; [|split; [|split; [|split; [|split; [|split; [|split]]]]]].
  - intros z. cbn [apply_setting]. destruct (Z.geb_spec z 2); split; intros; try lia; try discriminate; reflexivity.
  - intros w b. cbn [apply_setting]. rewrite <- linear_test.
    destruct (flt w b); cbn [negb andb]; [|split; [discriminate|reflexivity]].
    destruct (fle d0 w && fle d0 b); cbn [negb andb]; [|split; [discriminate|reflexivity]].
    destruct (fle w d1 && fle b d1); cbn [negb andb]; [|split; [discriminate|reflexivity]].
    split; [discriminate|]. intros C. exfalso. apply C. reflexivity.
  - intros c. cbn [apply_setting]. rewrite <- unit_open.
    destruct (fle d0 c); cbn [negb]; [|split; [intros _ (A & _); discriminate|reflexivity]].
    destruct (flt c d1); cbn [negb]; [|split; [intros _ (_ & A); discriminate|reflexivity]].
    split; [discriminate|]. intros C. exfalso. apply C. split; reflexivity.
  - intros n. cbn [apply_setting]. destruct (Z.geb_spec n 1); split; intros; try lia; try discriminate; reflexivity.
  - intros [m|]; cbn [apply_setting]; split; congruence.
  - intros b. discriminate.
  - intros o. discriminate.
  - intros c. destruct (setting_cases s c) as [(s' & ->)| ->]; split; discriminate.
Qed.
Print Assumptions C77_rejected_exactly_out_of_range.

(** Hence the selectors always work with parameters in their ranges. *)
Theorem C77_settings_in_range : forall mode greater h s,
  Forall not_poke h -> apply_settings (fresh_settings mode greater) h = Ok s -> in_range s.
Proof. intros mode greater h s F H. eapply range_history; [apply range_fresh|exact F|exact H]. Qed.
Print Assumptions C77_settings_in_range.
Example ex_C77 : exists s, apply_settings (fresh_settings None true)
    [SetTournamentSize 4; SetLinearSelectProbability d0 d1; SetEliteNum 7; SetExponetialSelectBase d0; SetTournamentSize 2;
     SetSelectMethod (Some Tournament)] = Ok s /\ s_tour s = 2 /\ s_elite s = 7 /\ s_method s = Tournament.
Proof. eexists. split; [cbn; reflexivity|]. repeat split. Qed.

(** The reference returned by the non-const tournamentSize() bypasses the check. *)
Theorem C77_reference_unchecked_refuted : forall mode greater, mode = None \/ mode = Some Tournament ->
  exists h s, forallb (has_setter mode) h = true /\ apply_settings (fresh_settings mode greater) h = Ok s /\ s_tour s < 2.
Proof. intros mode greater [-> | ->]; exists [PokeTournament (-5)]; eexists; (split; [reflexivity|]; split; [reflexivity|cbn; lia]). Qed.
Print Assumptions C77_reference_unchecked_refuted.

(** * C78: functions and arguments *)
Section C78.
Context (V A : Type) (R : rng_ops) (std : std_ops) (mode : option method) (greater rec_on : bool)
  (pw : double -> double -> double) (ex : double -> double) (junk : double) (v0 : V) (vec_max : Z) (sel_fuel : nat).
Notation drive' := (@drive V A R std mode greater rec_on pw ex junk v0 vec_max sel_fuel).
Notation step' := (@step V A R std mode greater rec_on pw ex junk v0 vec_max sel_fuel).
Definition chosen {X} (f : @call V A R -> option X) (h : list (@call V A R)) : list X :=
  flat_map (fun c => match f c with Some x => [x] | None => [] end) h.
Definition c_i (c : @call V A R) := match c with SetIFun _ f => Some f | _ => None end.
Definition c_f (c : @call V A R) := match c with SetFFun _ f => Some f | _ => None end.
Definition c_c (c : @call V A R) := match c with SetCFun _ f => Some f | _ => None end.
Definition c_m (c : @call V A R) := match c with SetMFun _ f => Some f | _ => None end.
Definition c_args (c : @call V A R) := match c with SetArgs _ a => Some a | _ => None end.
Definition c_set (c : @call V A R) := match c with Setting _ s => Some s | _ => None end.

(** Every function and the arguments are the last ones given (the compile-time
    ones never change), and so are the settings, whatever else was called in
    between, runs included. *)
Theorem C78_last_function_wins : forall h (o o' : @obj V A R), drive' o h = Ok o' ->
  f_i R (o_slots R o') = last (chosen c_i h) (f_i R (o_slots R o)) /\
  f_f R (o_slots R o') = last (chosen c_f h) (f_f R (o_slots R o)) /\
  f_c R (o_slots R o') = last (chosen c_c h) (f_c R (o_slots R o)) /\
  f_m R (o_slots R o') = last (chosen c_m h) (f_m R (o_slots R o)) /\
  o_args R o' = last (chosen c_args h) (o_args R o) /\
  apply_settings (o_set R o) (chosen c_set h) = Ok (o_set R o').
Proof.
  induction h as [|c h IH]; intros o o' H; cbn [drive] in H; [inversion H; subst; repeat split|].
  apply bind_Ok in H. destruct H as (o1 & H1 & H). specialize (IH _ _ H). clear H.
  assert (Fr : forall o2 : @obj V A R, o_slots R o2 = o_slots R o -> o_args R o2 = o_args R o -> o_set R o2 = o_set R o -> o1 = o2 ->
    c = InitializePop R \/ c = Run R \/ (exists g, c = OtherDraws R g) ->
    f_i R (o_slots R o') = last (chosen c_i (c :: h)) (f_i R (o_slots R o)) /\
    f_f R (o_slots R o') = last (chosen c_f (c :: h)) (f_f R (o_slots R o)) /\
    f_c R (o_slots R o') = last (chosen c_c (c :: h)) (f_c R (o_slots R o)) /\
    f_m R (o_slots R o') = last (chosen c_m (c :: h)) (f_m R (o_slots R o)) /\
    o_args R o' = last (chosen c_args (c :: h)) (o_args R o) /\
    apply_settings (o_set R o) (chosen c_set (c :: h)) = Ok (o_set R o')).
  { intros o2 E1 E2 E3 -> E4. rewrite E1, E2, E3 in IH. destruct E4 as [-> |[-> |(g & ->)]]; exact IH. }
  destruct c as [s|fi|ff|fc|fm|a|g| |]; cbn [step] in H1.
  - apply bind_Ok in H1. destruct H1 as (s1 & Hs & H1). inversion H1; subst o1; clear H1. cbn [o_set o_slots o_args] in IH.
    cbn [chosen flat_map c_i c_f c_c c_m c_args c_set app apply_settings]. rewrite Hs. cbn [bind]. exact IH.
  - inversion H1; subst o1. cbn [chosen flat_map c_i c_f c_c c_m c_args c_set app]. rewrite last_app_one. exact IH.
  - inversion H1; subst o1. cbn [chosen flat_map c_i c_f c_c c_m c_args c_set app]. rewrite last_app_one. exact IH.
  - inversion H1; subst o1. cbn [chosen flat_map c_i c_f c_c c_m c_args c_set app]. rewrite last_app_one. exact IH.
  - inversion H1; subst o1. cbn [chosen flat_map c_i c_f c_c c_m c_args c_set app]. rewrite last_app_one. exact IH.
  - inversion H1; subst o1. cbn [chosen flat_map c_i c_f c_c c_m c_args c_set app]. rewrite last_app_one. exact IH.
  - inversion H1. eapply Fr; [| | |symmetry; eassumption|right; right; eauto]; reflexivity.
  - unfold do_init in H1. cbv zeta in H1. destruct (f_i R (o_slots R o)); [|destruct (_ =? _); [|discriminate]];
      (inversion H1; eapply Fr; [| | |symmetry; eassumption|left; reflexivity]; reflexivity).
  - unfold do_run in H1. cbv zeta in H1. destruct (o_inited R o); cbn [negb] in H1; [|discriminate].
    destruct (f_f R (o_slots R o)); [|discriminate]. destruct (f_c R (o_slots R o)); [|discriminate]. destruct (f_m R (o_slots R o)); [|discriminate].
    assert (Z : exists s, o1 = mkObj R (o_set R o) (o_slots R o) (o_args R o) (ga_core s) (generation s) (record s) true true).
    { destruct (method_of mode (o_set R o)); [..|destruct (s_strength (o_set R o)); [|discriminate]| |];
        (apply bind_Ok in H1; destruct H1 as (s & _ & H1); inversion H1; eauto). }
    destruct Z as (s & ->). eapply Fr; [| | |reflexivity|right; left; reflexivity]; reflexivity.
Qed.

(** A solver whose functions are fixed at compile time behaves exactly like one
    that is given the same functions at run time before anything else. *)
Theorem C78_compile_time_equals_run_time : forall i f c m (a : A) (g : G R) h,
  drive' (fresh R mode greater (mkSlots R None None None None) a g)
         (SetIFun R (Some i) :: SetFFun R (Some f) :: SetCFun R (Some c) :: SetMFun R (Some m) :: h) =
  drive' (fresh R mode greater (mkSlots R (Some i) (Some f) (Some c) (Some m)) a g) h.
Proof. reflexivity. Qed.

(** A null pointer is called as soon as it is needed: initializePop() without an
    initialisation function (and a non-empty population), run() without one of
    the other three. *)
Theorem C78_null_function_undefined : forall (o : @obj V A R),
  (f_i R (o_slots R o) = None -> populationSize (s_opt (o_set R o)) <> 0 -> step' o (InitializePop R) = UB) /\
  (f_f R (o_slots R o) = None \/ f_c R (o_slots R o) = None \/ f_m R (o_slots R o) = None -> step' o (Run R) = UB).
Proof.
  intros o. split.
  - intros E Hk. cbn [step]. unfold do_init. rewrite E. destruct (Z.eqb_spec (populationSize (s_opt (o_set R o))) 0); [contradiction|reflexivity].
  - intros E. cbn [step]. unfold do_run. destruct (o_inited R o); cbn [negb]; [|reflexivity].
    destruct E as [-> |[-> | ->]]; destruct (f_f R (o_slots R o)); try reflexivity; destruct (f_c R (o_slots R o)); reflexivity.
Qed.

(** A run-time selecting solver switched to Boltzmann whose strength was never
    set reads an uninitialised number. *)
Theorem C78_boltzmann_strength_unset_refuted : forall (ct : slots R) (a : A) (g : G R) h o,
  mode = None -> drive' (fresh R mode greater ct a g) h = Ok o ->
  chosen (fun c => match c with Setting _ (SetBoltzmannSelectStrength b) => Some b | _ => None end) h = [] ->
  last (args_of a_method (chosen c_set h)) EliteReserved = Boltzmann ->
  step' o (Run R) = UB.
Proof.
  intros ct a g h o Hm H Hn Hl. destruct (C78_last_function_wins h _ _ H) as (_ & _ & _ & _ & _ & Hs).
  apply C77_last_value_wins in Hs. destruct Hs as (_ & _ & _ & _ & Hb & _ & Hme). cbn [fresh o_set] in Hb, Hme.
  rewrite Hm in Hb, Hme. cbn [fresh_settings s_strength s_method] in Hb, Hme. rewrite Hl in Hme.
  assert (E : args_of a_strength (chosen c_set h) = []).
  { clear -Hn. induction h as [|c h IH]; [reflexivity|]. unfold chosen in *. cbn [flat_map] in Hn |- *. apply app_eq_nil in Hn. destruct Hn as (H1 & H2).
    specialize (IH H2). destruct c as [s|fi|ff|fc|fm|a|g| |]; cbn [c_set app]; try exact IH.
    destruct s; cbn [args_of flat_map a_strength app]; try exact IH. discriminate H1. }
  rewrite E in Hb. cbn [map last] in Hb. cbn [step]. unfold do_run, method_of. rewrite Hm, Hme, Hb.
  destruct (o_inited R o); cbn [negb]; [|reflexivity].
  destruct (f_f R (o_slots R o)); [|reflexivity]. destruct (f_c R (o_slots R o)); [|reflexivity]. destruct (f_m R (o_slots R o)); reflexivity.
Qed.
End C78.
Print Assumptions C78_last_function_wins.
Print Assumptions C78_compile_time_equals_run_time.
Print Assumptions C78_null_function_undefined.
Print Assumptions C78_boltzmann_strength_unset_refuted.

(** * C79: whole histories *)
Section C79.
Context (V A : Type) (R : rng_ops) (std : std_ops) (mode : option method) (greater rec_on : bool)
  (pw : double -> double -> double) (ex : double -> double) (junk : double) (v0 : V) (vec_max : Z) (sel_fuel : nat) (B : Z).
Notation drive' := (@drive V A R std mode greater rec_on pw ex junk v0 vec_max sel_fuel).
Notation start := (fresh R mode greater).
Notation ok_history P := (lawful_history (V := V) (A := A) R std mode greater rec_on pw ex junk v0 vec_max sel_fuel B (P mode)).
Let nn := fun (_ : V) (x : double) => nonnan x.

(** Whatever a user does within the rules, with the seven methods other than
    Truncation, EliteReserved and StochasticUniversal -- switching methods,
    options and functions between runs, running again without initialising
    again -- nothing undefined happens and no assertion fails. *)
Theorem C79_lawful_history_defined : forall (ct : slots R) (a : A) (g : G R) h,
  rng_ok R -> std_ok std -> 0 <= B < 2147483648 -> ok_history plain_method (start ct a g) h ->
  drive' (start ct a g) h <> UB /\ drive' (start ct a g) h <> Abort.
Proof.
  intros ct a g h HR Hstd HB L.
  apply (drive_defined R std mode greater rec_on pw ex junk v0 vec_max sel_fuel B HR Hstd ltac:(lia)); [apply fresh_inv; lia|exact L].
Qed.

(** With Tournament, MonteCarlo, LinearRank and ExponentialRank every call
    returns, whatever the random stream: the parameters the setters accept are
    always good enough. *)
Theorem C79_lawful_history_returns : forall (ct : slots R) (a : A) (g : G R) h,
  rng_ok R -> std_ok std -> 0 <= B < 2147483648 -> pow_ok pw -> B <= Z.of_nat sel_fuel ->
  ok_history ending_method (start ct a g) h ->
  exists o, drive' (start ct a g) h = Ok o.
Proof.
  intros ct a g h HR Hstd HB Hp Hf L.
  apply (drive_returns R std mode greater rec_on pw ex junk v0 vec_max sel_fuel B HR Hstd ltac:(lia)); try assumption. apply fresh_inv; lia.
Qed.

(** After a run that returned: bestFitness() and result() belong to one
    individual of the population and nobody in it is better; the counters and
    the record are consistent; a population that had populationSize individuals
    has exactly that many. *)
Theorem C79_after_run : forall (ct : slots R) (a : A) (g : G R) h o0 o,
  rng_ok R -> std_ok std -> 0 <= B < 2147483648 -> ok_history size_safe (start ct a g) (h ++ [Run R]) ->
  drive' (start ct a g) h = Ok o0 -> drive' o0 [Run R] = Ok o ->
  (exists x n k, In x (get_population R o) /\ get_bestFitness R o = Ok (gfit x) /\ get_result R o = Ok (gvar x) /\
     (forall y, In y (get_population R o) -> isBetter greater (gfit y) (gfit x) = false) /\
     get_generation R o = Ok n /\ 0 <= n <= maxGenerations (s_opt (o_set R o0)) /\ get_failTimes R o = Ok k /\
     (rec_on = true -> Z.of_nat (length (o_rec R o)) = n + 1)) /\
  (populationSize (s_opt (o_set R o0)) <= Z.of_nat (length (get_population R o0)) ->
   Z.of_nat (length (get_population R o)) = populationSize (s_opt (o_set R o0))).
Proof.
  intros ct a g h o0 o HR Hstd HB L H1 H2.
  apply lawful_app in L. destruct L as (L1 & L2). specialize (L2 _ H1). destruct L2 as (L2 & _).
  assert (HB' : B < 2147483648) by lia. pose proof (fresh_inv R mode greater B nn ct a g ltac:(lia)) as I0.
  pose proof (drive_inv R std mode greater rec_on pw ex junk v0 vec_max sel_fuel B HR Hstd HB' (size_safe mode) _ _ h (fun s Hs => Hs) I0 L1 H1) as I1.
  cbn [drive] in H2. apply bind_Ok in H2. destruct H2 as (o' & H2 & E). inversion E; subst o'; clear E.
  pose proof L2 as (_ & _ & _ & (f & Ef & Hf) & _).
  destruct (run_post R std mode greater rec_on pw ex junk v0 vec_max sel_fuel B HR Hstd HB' (size_safe mode) nn o0 o (fun s Hs => Hs) I1 L2) as (E1 & E2 & E3 & E4 & E5 & D & Sz & Gn & Rc).
  { intros f' v E. replace f' with f by congruence. apply Hf. }
  { exact H2. }
  split; [|exact Sz]. destruct D as (Dw & (b & (Bin & Bid) & Bb) & Dq & _).
  exists b, (o_gen R o), (fails (o_core R o)). split; [exact Bin|].
  assert (Lk : lookup (pop (o_core R o)) (ext (o_core R o)) = Ok b) by (rewrite <- Bid; apply lookup_in; [apply Dw|exact Bin]).
  unfold get_bestFitness, get_result, get_best, get_generation, get_failTimes. rewrite E4, E5, Lk. cbn [bind]. rewrite (proj1 (Dq b Bin)).
  repeat (split; [reflexivity|]). split; [exact Bb|]. split; [reflexivity|]. split; [exact Gn|]. split; [reflexivity|]. exact Rc.
Qed.

(** As long as neither the fitness function nor the arguments are changed after
    initializePop(), every known fitness is the value of the current function at
    the individual's variable -- bestFitness() at result() in particular. *)
Theorem C79_fitness_is_current : forall (ct : slots R) (a : A) (g : G R) h1 h2 o f,
  rng_ok R -> std_ok std -> 0 <= B < 2147483648 ->
  ok_history size_safe (start ct a g) (h1 ++ InitializePop R :: h2) ->
  Forall (fun c => match c with SetFFun _ _ | SetArgs _ _ => False | _ => True end) h2 ->
  drive' (start ct a g) (h1 ++ InitializePop R :: h2) = Ok o -> f_f R (o_slots R o) = Some f ->
  forall x, In x (get_population R o) -> gcomp x = true -> gfit x = f (o_args R o) (gvar x).
Proof.
  intros ct a g h1 h2 o f HR Hstd HB L Kh H Ef.
  apply lawful_app in L. destruct L as (L1 & L2). rewrite drive_app in H. apply bind_Ok in H. destruct H as (o1 & H1 & H).
  specialize (L2 _ H1). cbn [lawful_history] in L2. destruct L2 as (L2 & L3). cbn [drive] in H. apply bind_Ok in H. destruct H as (o2 & H2 & H).
  specialize (L3 _ H2). assert (HB' : B < 2147483648) by lia.
  pose proof (fresh_inv R mode greater B nn ct a g ltac:(lia)) as I0.
  pose proof (drive_inv R std mode greater rec_on pw ex junk v0 vec_max sel_fuel B HR Hstd HB' (size_safe mode) _ _ h1 (fun s Hs => Hs) I0 L1 H1) as I1.
  destruct (init_inv R std mode greater rec_on pw ex junk v0 vec_max sel_fuel B (size_safe mode)
     (fun v d => forall f, f_f R (o_slots R o2) = Some f -> d = f (o_args R o2) v) nn o1 o2 I1 L2 H2) as (I2 & _ & _).
  destruct (drive_current R std mode greater rec_on pw ex junk v0 vec_max sel_fuel B HR Hstd HB' (size_safe mode) _ _ h2 (fun s Hs => Hs) Kh o2 o eq_refl eq_refl I2 L3 H) as (F1 & F2 & I3).
  intros x Hx Hc. destruct I3 as (_ & _ & Gd & _). rewrite (Gd x Hx Hc f); [|congruence]. congruence.
Qed.

(** Before the first run() the counters hold no value, and before
    initializePop() there is no best individual: the queries read uninitialised
    members. *)
Theorem C79_query_too_early_refuted : forall (ct : slots R) (a : A) (g : G R) h o,
  drive' (start ct a g) h = Ok o ->
  (~ In (Run R) h -> get_generation R o = UB /\ get_failTimes R o = UB) /\
  (~ In (InitializePop R) h -> get_bestFitness R o = UB /\ get_result R o = UB).
Proof.
  intros ct a g h o H.
  assert (Q : forall h (o0 : @obj V A R), drive' o0 h = Ok o ->
    (~ In (Run R) h -> o_ran R o0 = false -> o_ran R o = false) /\ (~ In (InitializePop R) h -> o_inited R o0 = false -> o_inited R o = false)).
  { clear. induction h as [|c h IH]; intros o0 H; cbn [drive] in H; [inversion H; subst; split; intros; assumption|].
    apply bind_Ok in H. destruct H as (o1 & H1 & H). destruct (IH _ H) as (A1 & A2). split; intros N E.
    - apply A1; [intros C; apply N; right; exact C|]. destruct c as [s|fi|ff|fc|fm|a|g| |]; cbn [step] in H1; try (inversion H1; subst; exact E).
      + apply bind_Ok in H1. destruct H1 as (s' & _ & H1). inversion H1; subst; exact E.
      + unfold do_init in H1. cbv zeta in H1. destruct (f_i R (o_slots R o0)); [|destruct (_ =? _); [|discriminate]]; inversion H1; subst; exact E.
      + exfalso. apply N. left. reflexivity.
    - apply A2; [intros C; apply N; right; exact C|]. destruct c as [s|fi|ff|fc|fm|a|g| |]; cbn [step] in H1; try (inversion H1; subst; exact E).
      + apply bind_Ok in H1. destruct H1 as (s' & _ & H1). inversion H1; subst; exact E.
      + exfalso. apply N. left. reflexivity.
      + unfold do_run in H1. rewrite E in H1. discriminate H1. }
  destruct (Q h _ H) as (A1 & A2). unfold get_generation, get_failTimes, get_bestFitness, get_result, get_best.
  split; intros N; [rewrite A1|rewrite A2]; try assumption; try reflexivity; split; reflexivity.
Qed.

(** If every function ever supplied keeps variables in a region, every variable of
    the population -- result() in particular -- is in the region, after any
    history and with every selection method. *)
Definition keeps (P : V -> Prop) (i : option (A -> G R -> V * G R)) (c : option (A -> V -> V -> G R -> (V * V) * G R)) (m : option (A -> V -> G R -> V * G R)) : Prop :=
  (forall f a g, i = Some f -> P (fst (f a g))) /\
  (forall f a x y g, c = Some f -> P x -> P y -> P (fst (fst (f a x y g))) /\ P (snd (fst (f a x y g)))) /\
  (forall f a x g, m = Some f -> P x -> P (fst (f a x g))).
Definition call_keeps (P : V -> Prop) (c : @call V A R) : Prop :=
  match c with SetIFun _ f => keeps P f None None | SetCFun _ f => keeps P None f None | SetMFun _ f => keeps P None None f | _ => True end.
Theorem C79_variables_stay_in_region : forall (P : V -> Prop) (ct : @slots V A R) (a : A) (g : G R) h o,
  rng_ok R -> std_ok std -> keeps P (f_i R ct) (f_c R ct) (f_m R ct) -> Forall (call_keeps P) h -> drive' (start ct a g) h = Ok o ->
  (forall x, In x (get_population R o) -> P (gvar x)) /\ (forall v, get_result R o = Ok v -> P v).
Proof.
  intros P ct a g h o HR Hstd Kc Kh H.
  assert (Q : forall h (o0 : @obj V A R), Forall (call_keeps P) h -> drive' o0 h = Ok o ->
    keeps P (f_i R (o_slots R o0)) (f_c R (o_slots R o0)) (f_m R (o_slots R o0)) -> (forall x, In x (pop (o_core R o0)) -> P (gvar x)) ->
    forall x, In x (pop (o_core R o)) -> P (gvar x)).
  { clear -HR Hstd. induction h as [|c h IH]; intros o0 Kh H Ko Po; cbn [drive] in H; [inversion H; subst; exact Po|].
    apply bind_Ok in H. destruct H as (o1 & H1 & H). pose proof (Forall_inv Kh) as K1. pose proof Ko as (KI & KC & KM).
    assert (X : keeps P (f_i R (o_slots R o1)) (f_c R (o_slots R o1)) (f_m R (o_slots R o1)) /\ (forall x, In x (pop (o_core R o1)) -> P (gvar x))).
    { destruct c as [s|fi|ff|fc|fm|a|g'| |]; cbn [call_keeps] in K1.
      - cbn [step] in H1. apply bind_Ok in H1. destruct H1 as (s' & _ & H1). injection H1 as H1. subst o1. split; assumption.
      - injection H1 as H1; subst o1; split; [|exact Po]; cbn; split; [apply K1|split; assumption].
      - injection H1 as H1; subst o1; split; assumption.
      - injection H1 as H1; subst o1; split; [|exact Po]; cbn; split; [assumption|split; [apply K1|assumption]].
      - injection H1 as H1; subst o1; split; [|exact Po]; cbn; split; [assumption|split; [assumption|apply K1]].
      - injection H1 as H1; subst o1; split; assumption.
      - injection H1 as H1; subst o1; split; assumption.
      - cbn [step] in H1. unfold do_init in H1. cbv zeta in H1. destruct (f_i R (o_slots R o0)) as [i|] eqn:Ei; [|destruct (_ =? _) eqn:Ek; [|discriminate H1]]; injection H1 as H1; subst o1; cbn [o_slots o_core];
        (split; [rewrite Ei; exact Ko|]).
        + unfold soga_initializePop. cbn [pop]. apply initialize_P. intros g1. cbn [iFun]. apply (KI i _ _ eq_refl).
        + apply Z.eqb_eq in Ek. intros x Hx. exfalso. revert Hx. unfold soga_initializePop, initializePop. rewrite Ek. cbn. intros [].
      - cbn [step] in H1. unfold do_run in H1. cbv zeta in H1. destruct (negb (o_inited R o0)); [discriminate H1|].
        destruct (f_f R (o_slots R o0)) as [f|]; [|discriminate H1]. destruct (f_c R (o_slots R o0)) as [c|] eqn:Ec; [|discriminate H1].
        destruct (f_m R (o_slots R o0)) as [m|] eqn:Em; [|discriminate H1].
        assert (Hr : exists mt s, run R (user_of R v0 o0 f c m) (s_opt (o_set R o0)) junk (soga_hooks R std greater (s_opt (o_set R o0)) (params_of pw ex junk (o_set R o0)) mt sel_fuel) rec_on vec_max
                    (S (Z.to_nat (maxGenerations (s_opt (o_set R o0))))) (mkGA (o_core R o0) (o_gen R o0) (o_rec R o0)) = Ok s /\
                    o1 = mkObj R (o_set R o0) (o_slots R o0) (o_args R o0) (ga_core s) (generation s) (record s) true true).
        { exists (method_of mode (o_set R o0)).
          destruct (method_of mode (o_set R o0)); try (destruct (s_strength (o_set R o0)); [|discriminate H1]); apply bind_Ok in H1; destruct H1 as (s & Hs & H1); injection H1 as H1; exists s; (split; [exact Hs|symmetry; exact H1]). }
        clear H1. destruct Hr as (mt & s & Hr & ->). cbn [o_slots o_core]. split; [rewrite Ec, Em; exact Ko|].
        refine (run_P R _ _ junk _ P rec_on vec_max _ HR _ _ _ s _ Hr).
        + split; [intros x y g' Hx Hy; apply (KC c _ x y g' eq_refl Hx Hy)|intros x g' Hx; apply (KM m _ x g' eq_refl Hx)].
        + intros c0 c' Hs x Hx. exact (select_from R std greater _ _ mt _ c0 c' Hstd Hs x Hx).
        + exact Po. }
    destruct X as (X1 & X2). exact (IH o1 (Forall_inv_tail Kh) H X1 X2). }
  assert (All : forall x, In x (get_population R o) -> P (gvar x)) by (apply (Q h _ Kh H Kc); intros x []).
  split; [exact All|]. intros v Hv. unfold get_result in Hv. apply bind_Ok in Hv. destruct Hv as (x & Hx & Hv). injection Hv as <-.
  unfold get_best in Hx. destruct (o_inited R o); [|discriminate Hx]. apply All. apply lookup_ok in Hx. apply Hx.
Qed.
End C79.
Print Assumptions C79_lawful_history_defined.
Print Assumptions C79_lawful_history_returns.
Print Assumptions C79_after_run.
Print Assumptions C79_fitness_is_current.
Print Assumptions C79_query_too_early_refuted.
Print Assumptions C79_variables_stay_in_region.

(** ** Concrete histories *)
(** A run-time selecting maximiser of [scale * v] over integers: three methods
    in turn, the second run without a new initializePop(), the third after
    changing the option. *)
Definition prod_fit (scale v : Z) : double := d_of_Z (Z.max (-1000) (Z.min 1000 (scale * v))).
Definition draw_init (_ : Z) (g : G replay) : Z * G replay := let '(k, g') := randIdx replay 100 g in (k, g').
Definition swap_cross (_ a b : Z) (g : G replay) : (Z * Z) * G replay := ((a + 1, b - 1), g).
Definition bump_mut (_ v : Z) (g : G replay) : Z * G replay := (v + 5, g).
Definition no_slots : slots replay (V := Z) (A := Z) := mkSlots replay None None None None.
Definition demo_history : list (@call Z Z replay) :=
  [ SetIFun replay (Some draw_init); SetFFun replay (Some prod_fit); SetCFun replay (Some swap_cross); SetMFun replay (Some bump_mut);
    SetArgs replay 2; Setting replay (SetOption (mkOpt 6 3 4 (fofZ 1 (-1)) (fofZ 1 (-2))));
    Setting replay (SetSelectMethod (Some LinearRank)); InitializePop replay; Run replay;
    Setting replay (SetSelectMethod (Some Tournament)); Setting replay (SetTournamentSize 4); Run replay;
    Setting replay (SetOption (mkOpt 9 2 3 (fofZ 1 (-1)) d1)); Setting replay (SetSelectMethod (Some MonteCarlo)); Run replay ].
Notation lawful_demo P h o := (lawful_history (V := Z) (A := Z) replay std_inst None true true (fun _ _ => d0) (fun _ => d1) d0 0 1000 100 100 (P None) o h).
Notation drive_demo o h := (@drive Z Z replay std_inst None true true (fun _ _ => d0) (fun _ => d1) d0 0 1000 100 o h).
Lemma demo_frame (o : @obj Z Z replay) c o' : c = InitializePop replay \/ c = Run replay ->
  step replay std_inst None true true (fun _ _ => d0) (fun _ => d1) d0 0 1000 100 o c = Ok o' ->
  o_set replay o' = o_set replay o /\ o_slots replay o' = o_slots replay o /\ o_args replay o' = o_args replay o /\ o_inited replay o' = true.
Proof.
  intros [-> | ->] H; cbn [step] in H.
  - unfold do_init in H. cbv zeta in H. destruct (f_i replay (o_slots replay o)); [|destruct (_ =? _); [|discriminate H]];
      match type of H with Ok ?x = Ok _ => assert (o' = x) by congruence end; subst o'; repeat split.
  - unfold do_run in H. cbv zeta in H. destruct (o_inited replay o); [|discriminate H]. cbn [negb] in H.
    destruct (f_f replay (o_slots replay o)); [|discriminate H]. destruct (f_c replay (o_slots replay o)); [|discriminate H].
    destruct (f_m replay (o_slots replay o)); [|discriminate H].
    assert (K : exists s : ga Z double nat (G replay), o' = mkObj replay (o_set replay o) (o_slots replay o) (o_args replay o) (ga_core s) (generation s) (record s) true true).
    { destruct (method_of None (o_set replay o)); try (apply bind_Ok in H; destruct H as (s & _ & H); exists s; congruence).
      destruct (s_strength (o_set replay o)); [apply bind_Ok in H; destruct H as (s & _ & H); exists s; congruence|discriminate H]. }
    destruct K as (s & ->). repeat split.
Qed.
Lemma prod_fit_nonnan a v : nonnan (prod_fit a v).
Proof. unfold prod_fit. destruct (d_of_Z_exact (Z.max (-1000) (Z.min 1000 (a * v)))) as (F & _); [lia|]. apply fin_nonnan. exact F. Qed.

Definition known (o : @obj Z Z replay) s sl a b : Prop :=
  o_set replay o = s /\ o_slots replay o = sl /\ o_args replay o = a /\ o_inited replay o = b.
Lemma known_setting (P : option method -> settings -> Prop) o s sl a b c s' h :
  known o s sl a b -> apply_setting s c = Ok s' -> not_poke c -> (forall o', known o' s' sl a b -> lawful_demo P h o') ->
  lawful_demo P (Setting replay c :: h) o.
Proof.
  intros (<- & <- & <- & <-) H N L. cbn [lawful_history]. split; [split; [exists s'; exact H|exact N]|]. intros o' S'. cbn [step] in S'.
  rewrite H in S'. cbn [bind] in S'. apply L. inversion S'; subst o'. repeat split.
Qed.
Lemma known_init (P : option method -> settings -> Prop) o s sl a b h :
  known o s sl a b -> f_i replay sl <> None -> 1 <= populationSize (s_opt s) <= 25 ->
  (forall o', known o' s sl a true -> lawful_demo P h o') -> lawful_demo P (InitializePop replay :: h) o.
Proof.
  intros (<- & <- & <- & <-) Hi Hk L. cbn [lawful_history]. split; [split; [exact Hi|lia]|]. intros o' S'. apply L.
  apply demo_frame in S'; [|left; reflexivity]. unfold known. intuition congruence.
Qed.
Lemma known_run (P : option method -> settings -> Prop) o s sl a h :
  known o s sl a true -> f_c replay sl <> None -> f_m replay sl <> None -> f_f replay sl = Some prod_fit ->
  1 <= populationSize (s_opt s) <= 25 -> 0 <= maxGenerations (s_opt s) <= 900 ->
  s_tour s < populationSize (s_opt s) -> method_of None s <> Boltzmann -> P None s ->
  (forall o', known o' s sl a true -> lawful_demo P h o') -> lawful_demo P (Run replay :: h) o.
Proof.
  intros (<- & <- & <- & E) Hc Hm Hf Hk Hg Ht Hb HP L. cbn [lawful_history]. split.
  - cbn [lawful]. split; [exact E|]. split; [exact Hc|]. split; [exact Hm|]. split; [exists prod_fit; split; [exact Hf|intros v; apply prod_fit_nonnan]|].
    rewrite wrap64_small by (unfold two64; lia). unfold two64. split; [lia|]. split; [lia|]. split; [lia|]. split; [lia|]. split; [intros _; exact Ht|].
    split; [intros C; contradiction|exact HP].
  - intros o' S'. apply L. apply demo_frame in S'; [|right; reflexivity]. unfold known. intuition congruence.
Qed.
Lemma lawful_cons (P : option method -> settings -> Prop) o c h :
  match c with Setting _ _ | InitializePop _ | Run _ => False | _ => True end ->
  (forall o', step replay std_inst None true true (fun _ _ => d0) (fun _ => d1) d0 0 1000 100 o c = Ok o' -> lawful_demo P h o') -> lawful_demo P (c :: h) o.
Proof. intros H1 H2. split; [|exact H2]. destruct c; try destruct H1; exact Logic.I. Qed.
Definition full_slots : slots replay (V := Z) (A := Z) := mkSlots replay (Some draw_init) (Some prod_fit) (Some swap_cross) (Some bump_mut).
Definition demo_set o m ts : settings := mkSet o m ts (fdiv (d_of_Z 1) (d_of_Z 10)) (fdiv (d_of_Z 9) (d_of_Z 10)) (fdiv (d_of_Z 8) (d_of_Z 10)) None 1.
Lemma demo_lawful (P : option method -> settings -> Prop) g h2 :
  (forall s, s_method s = LinearRank \/ s_method s = Tournament \/ s_method s = MonteCarlo -> P None s) ->
  (forall o s, known o s full_slots 2 true -> s_opt s = mkOpt 9 2 3 (fofZ 1 (-1)) d1 -> s_tour s = 4 -> s_method s = MonteCarlo -> lawful_demo P h2 o) ->
  lawful_demo P (demo_history ++ h2) (fresh replay None true no_slots 0 g).
Proof.
  intros HP H2. unfold demo_history. cbn [app].
  do 5 (apply (lawful_cons P); [exact Logic.I|]; intros ? S'; cbn [step] in S'; inversion S'; subst; clear S').
  apply (known_setting P _ (fresh_settings None true) full_slots 2 false _ (demo_set (mkOpt 6 3 4 (fofZ 1 (-1)) (fofZ 1 (-2))) EliteReserved 3)); [repeat split|reflexivity|exact Logic.I|]. intros o1 K1.
  apply (known_setting P _ (demo_set (mkOpt 6 3 4 (fofZ 1 (-1)) (fofZ 1 (-2))) EliteReserved 3) full_slots 2 false _ (demo_set (mkOpt 6 3 4 (fofZ 1 (-1)) (fofZ 1 (-2))) LinearRank 3)); [exact K1|reflexivity|exact Logic.I|]. intros o2 K2.
  apply (known_init P _ (demo_set (mkOpt 6 3 4 (fofZ 1 (-1)) (fofZ 1 (-2))) LinearRank 3) full_slots 2 false); [exact K2|discriminate|cbn; lia|]. intros o3 K3.
  apply (known_run P _ (demo_set (mkOpt 6 3 4 (fofZ 1 (-1)) (fofZ 1 (-2))) LinearRank 3) full_slots 2); [exact K3|discriminate|discriminate|reflexivity|cbn; lia|cbn; lia|cbn; lia|discriminate|apply HP; left; reflexivity|]. intros o4 K4.
  apply (known_setting P _ (demo_set (mkOpt 6 3 4 (fofZ 1 (-1)) (fofZ 1 (-2))) LinearRank 3) full_slots 2 true _ (demo_set (mkOpt 6 3 4 (fofZ 1 (-1)) (fofZ 1 (-2))) Tournament 3)); [exact K4|reflexivity|exact Logic.I|]. intros o5 K5.
  apply (known_setting P _ (demo_set (mkOpt 6 3 4 (fofZ 1 (-1)) (fofZ 1 (-2))) Tournament 3) full_slots 2 true _ (demo_set (mkOpt 6 3 4 (fofZ 1 (-1)) (fofZ 1 (-2))) Tournament 4)); [exact K5|reflexivity|exact Logic.I|]. intros o6 K6.
  apply (known_run P _ (demo_set (mkOpt 6 3 4 (fofZ 1 (-1)) (fofZ 1 (-2))) Tournament 4) full_slots 2); [exact K6|discriminate|discriminate|reflexivity|cbn; lia|cbn; lia|cbn; lia|discriminate|apply HP; right; left; reflexivity|]. intros o7 K7.
  apply (known_setting P _ (demo_set (mkOpt 6 3 4 (fofZ 1 (-1)) (fofZ 1 (-2))) Tournament 4) full_slots 2 true _ (demo_set (mkOpt 9 2 3 (fofZ 1 (-1)) d1) Tournament 4)); [exact K7|reflexivity|exact Logic.I|]. intros o8 K8.
  apply (known_setting P _ (demo_set (mkOpt 9 2 3 (fofZ 1 (-1)) d1) Tournament 4) full_slots 2 true _ (demo_set (mkOpt 9 2 3 (fofZ 1 (-1)) d1) MonteCarlo 4)); [exact K8|reflexivity|exact Logic.I|]. intros o9 K9.
  apply (known_run P _ (demo_set (mkOpt 9 2 3 (fofZ 1 (-1)) d1) MonteCarlo 4) full_slots 2); [exact K9|discriminate|discriminate|reflexivity|cbn; lia|cbn; lia|cbn; lia|discriminate|apply HP; right; right; reflexivity|]. intros o10 K10.
  eapply H2; [exact K10|reflexivity|reflexivity|reflexivity].
Qed.
(** It obeys the rules of every theorem above, for every random stream ... *)
Example ex_C79_lawful : rng_ok replay /\ std_ok std_inst /\ pow_ok (fun _ _ => d0) /\ forall g,
  lawful_demo plain_method demo_history (fresh replay None true no_slots 0 g) /\
  lawful_demo ending_method demo_history (fresh replay None true no_slots 0 g) /\
  lawful_demo size_safe demo_history (fresh replay None true no_slots 0 g).
Proof.
  split; [apply replay_ok|]. split; [apply std_inst_ok|]. split; [|].
  2:{ intros g. rewrite <- (app_nil_r demo_history). split; [|split]; apply demo_lawful; try (intros; exact Logic.I); intros s Hs; unfold plain_method, ending_method, size_safe, method_of;
      destruct Hs as [-> |[-> | ->]]; repeat split; try discriminate; exact Logic.I. }
  intros x n Hx _. split; [split; [reflexivity|split; [apply Rle_refl|apply Rle_0_1]]|intros _; apply Hx].
Qed.
(** ... and with this one: final population 9, counters set, bestFitness() the
    current function at result(). *)
Example ex_C79_runs : exists o, drive_demo (fresh replay None true no_slots 0 (map Z.of_nat (seq 3 60))) demo_history = Ok o /\
  (match get_bestFitness replay o, get_result replay o, get_generation replay o with
   | Ok b, Ok v, Ok n => feq b (prod_fit 2 v) && (1 <=? n) && (Z.of_nat (length (get_population replay o)) =? 9) && (Z.of_nat (length (o_rec replay o)) =? n + 1)
   | _, _, _ => false end) = true.
Proof. apply Props_SOGA.by_test. vm_compute. reflexivity. Qed.

(** Functions that only make even numbers: every history with them keeps the
    population even; this one runs. *)
Definition even_history : list (@call Z Z replay) :=
  [ SetIFun replay (Some (fun a g => let (v, g') := draw_init a g in (2 * v, g'))); SetFFun replay (Some prod_fit);
    SetCFun replay (Some (fun _ a b g => ((a + b, a - b), g))); SetMFun replay (Some (fun _ v g => (v + 4, g)));
    Setting replay (SetOption (mkOpt 6 3 4 (fofZ 1 (-1)) (fofZ 1 (-2)))); Setting replay (SetSelectMethod (Some Tournament)); InitializePop replay; Run replay ].
Example ex_C79_region : keeps Z Z replay Z.Even None None None /\ Forall (call_keeps Z Z replay Z.Even) even_history /\
  exists o, drive_demo (fresh replay None true no_slots 1 (map Z.of_nat (seq 3 60))) even_history = Ok o /\
    (match get_result replay o with Ok v => (1 <? v) && (length (get_population replay o) =? 6)%nat | _ => false end) = true.
Proof.
  assert (N : keeps Z Z replay Z.Even None None None) by (repeat split; discriminate).
  split; [exact N|]. split; [|apply Props_SOGA.by_test; vm_compute; reflexivity].
  unfold even_history. repeat (apply Forall_cons); try exact Logic.I; try apply Forall_nil; cbn [call_keeps]; unfold keeps.
  - split; [|split; discriminate]. intros f a g E. injection E as <-. destruct (draw_init a g) as (v, g'). exists v. reflexivity.
  - split; [discriminate|]. split; [|discriminate]. intros f a x y g E. injection E as <-. intros (u & ->) (w & ->). cbn [fst snd]. split; [exists (u + w)|exists (u - w)]; lia.
  - split; [discriminate|]. split; [discriminate|]. intros f a x g E. injection E as <-. intros (u & ->). cbn [fst]. exists (u + 2). lia.
Qed.

(** Changing the arguments (or the fitness function) after a run and running
    again without initializePop() keeps the old fitness values: the outcome of a
    lawful history can report a bestFitness() that the current function does not
    have at result(). *)
Theorem C79_stale_fitness_refuted : exists h (o : @obj Z Z replay) b v f,
  lawful_demo ending_method h (fresh replay None true no_slots 0 (map Z.of_nat (seq 3 60))) /\
  drive_demo (fresh replay None true no_slots 0 (map Z.of_nat (seq 3 60))) h = Ok o /\
  (exists h', h = h' ++ [Run replay]) /\
  get_bestFitness replay o = Ok b /\ get_result replay o = Ok v /\ f_f replay (o_slots replay o) = Some f /\
  feq b (f (o_args replay o) v) = false.
Proof.
  assert (T : exists o, drive_demo (fresh replay None true no_slots 0 (map Z.of_nat (seq 3 60))) (demo_history ++ [SetArgs replay 1; Setting replay (SetOption (mkOpt 9 2 0 d0 d1)); Run replay]) = Ok o /\
    (match get_bestFitness replay o, get_result replay o with
     | Ok b, Ok v => negb (feq b (prod_fit 1 v)) | _, _ => false end) = true) by (apply Props_SOGA.by_test; vm_compute; reflexivity).
  destruct T as (o & T & T2).
  assert (L : lawful_demo ending_method (demo_history ++ [SetArgs replay 1; Setting replay (SetOption (mkOpt 9 2 0 d0 d1)); Run replay]) (fresh replay None true no_slots 0 (map Z.of_nat (seq 3 60)))).
  { apply demo_lawful.
    - intros s [Hs|[Hs|Hs]]; unfold ending_method, method_of; rewrite Hs; exact Logic.I.
    - intros o1 s (K1 & K2 & K3 & K4) So St Sm. apply (lawful_cons ending_method); [exact Logic.I|]. intros o2 S2. cbn [step] in S2.
      assert (K5 : known o2 s full_slots 1 true) by (inversion S2; subst o2; repeat split; assumption).
      eapply (known_setting ending_method); [exact K5|reflexivity|exact Logic.I|]. intros o3 K6.
      eapply (known_run ending_method); [exact K6|discriminate|discriminate|reflexivity| | | | | |].
      + cbn [s_opt populationSize]. lia.
      + cbn [s_opt maxGenerations]. lia.
      + cbn [s_tour s_opt populationSize]. lia.
      + unfold method_of. cbn [s_method]. rewrite Sm. discriminate.
      + unfold ending_method, method_of. cbn [s_method]. rewrite Sm. exact Logic.I.
      + intros; exact Logic.I. }
  pose proof (C78_last_function_wins _ _ _ _ _ _ _ _ _ _ _ _ _ _ _ _ T) as (_ & Hf & _ & _ & Ha & _).
  cbn [chosen demo_history c_f c_args flat_map app last] in Hf, Ha.
  destruct (get_bestFitness replay o) as [b| | |] eqn:Eb; try discriminate T2. destruct (get_result replay o) as [v| | |] eqn:Ev; try discriminate T2.
  exists (demo_history ++ [SetArgs replay 1; Setting replay (SetOption (mkOpt 9 2 0 d0 d1)); Run replay]), o, b, v, prod_fit.
  split; [exact L|]. split; [exact T|]. split; [exists (demo_history ++ [SetArgs replay 1; Setting replay (SetOption (mkOpt 9 2 0 d0 d1))]); rewrite <- app_assoc; reflexivity|].
  split; [exact Eb|]. split; [exact Ev|]. split; [exact Hf|]. rewrite Ha. destruct (feq b (prod_fit 1 v)); [discriminate T2|reflexivity].
Qed.
Print Assumptions C79_stale_fitness_refuted.
