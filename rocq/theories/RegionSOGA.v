(** RegionProofs.v for a SOGA object. *)
From Coq Require Import List Arith ZArith Bool Lia.
From Flocq Require Import BinarySingleNaN.
From Verif Require Import Base Fl FlFacts Rng StdOps GABase SOGA VarInv RegionProofs SOGAObj SOGAObjSpec RegionSpec.
Import ListNotations.
Open Scope Z_scope.

Section S.
Context {V A : Type} (R : rng_ops) (std : std_ops) (mode : option method) (greater rec_on : bool)
  (pw : double -> double -> double) (ex : double -> double) (junk : double) (v0 : V) (vec_max : Z) (sel_fuel : nat) (B : Z).
Notation drive' := (@drive V A R std mode greater rec_on pw ex junk v0 vec_max sel_fuel).
Notation step' := (@step V A R std mode greater rec_on pw ex junk v0 vec_max sel_fuel).
Notation obj' := (@obj V A R).
Notation call' := (@call V A R).
Context (inside : V -> bool).
Let P : V -> Prop := fun v => inside v = true.

Definition guard (f : A -> V -> double) : A -> V -> double := fun a v => if inside v then f a v else d0.
Definition guard_slots (s : @slots V A R) : @slots V A R := mkSlots R (f_i R s) (option_map guard (f_f R s)) (f_c R s) (f_m R s).
Definition guard_obj (o : obj') : obj' :=
  mkObj R (o_set R o) (guard_slots (o_slots R o)) (o_args R o) (o_core R o) (o_gen R o) (o_rec R o) (o_inited R o) (o_ran R o).
Definition guard_call (c : call') : call' := match c with SetFFun _ f => SetFFun R (option_map guard f) | _ => c end.

Definition good (o : obj') : Prop := forall x, In x (pop (o_core R o)) -> P (gvar x).
Notation lawful_in' := (lawful_in (V := V) (A := A) R mode vec_max B inside).

Lemma run_form (o : obj') f c m : o_inited R o = true -> f_f R (o_slots R o) = Some f -> f_c R (o_slots R o) = Some c -> f_m R (o_slots R o) = Some m ->
  do_run R std mode greater rec_on pw ex junk v0 vec_max sel_fuel o =
  if (match method_of mode (o_set R o), s_strength (o_set R o) with Boltzmann, None => true | _, _ => false end) then UB else
  do s <- run R (user_of R v0 o f c m) (s_opt (o_set R o)) junk
            (soga_hooks R std greater (s_opt (o_set R o)) (params_of pw ex junk (o_set R o)) (method_of mode (o_set R o)) sel_fuel) rec_on vec_max
            (S (Z.to_nat (maxGenerations (s_opt (o_set R o))))) (mkGA (o_core R o) (o_gen R o) (o_rec R o));
  Ok (mkObj R (o_set R o) (o_slots R o) (o_args R o) (ga_core s) (generation s) (record s) true true).
Proof.
  intros E1 E2 E3 E4. unfold do_run. rewrite E1, E2, E3, E4. cbn [negb].
  destruct (method_of mode (o_set R o)); try reflexivity. destruct (s_strength (o_set R o)); reflexivity.
Qed.

Lemma cross_closed (o : obj') f cr m : cross_inside R inside (cr (o_args R o)) -> mutate_inside R inside (m (o_args R o)) ->
  closed_ops R (user_of R v0 o f cr m) P.
Proof. intros HC HM. split; [intros x y g Hx Hy; apply HC; assumption|intros x g Hx; apply HM; assumption]. Qed.
Lemma step_good Q (o o' : obj') c : rng_ok R -> std_ok std -> good o -> lawful_in' Q o c -> step' o c = Ok o' -> good o'.
Proof.
  intros HR Hstd Po L H1.
  destruct c as [s|fi|ff|fc|fm|a|g'| |]; try (injection H1 as H1; subst o'; exact Po).
  - cbn [step] in H1. apply bind_Ok in H1. destruct H1 as (s' & _ & H1). injection H1 as H1. subst o'. exact Po.
  - cbn [step] in H1. unfold do_init in H1. cbv zeta in H1. unfold good. destruct L as (_ & L).
    destruct (f_i R (o_slots R o)) as [i|] eqn:Ei; [|destruct (_ =? _) eqn:Ek; [|discriminate H1]]; injection H1 as H1; subst o'; cbn [o_slots o_core].
    + unfold soga_initializePop. cbn [pop]. apply initialize_P. intros g1. cbn [iFun]. apply (L i eq_refl).
    + apply Z.eqb_eq in Ek. intros x Hx. exfalso. revert Hx. unfold soga_initializePop, initializePop. rewrite Ek. cbn. intros [].
  - destruct L as (Ei & (f & cr & m & Ef & Ec & Em & _ & HC & HM) & _). cbn [step] in H1.
    rewrite (run_form o f cr m Ei Ef Ec Em) in H1. destruct (match method_of mode (o_set R o) with Boltzmann => _ | _ => _ end); [discriminate H1|].
    apply bind_Ok in H1. destruct H1 as (s & Hs & H1). injection H1 as H1. subst o'. unfold good. cbn [o_core].
    refine (run_P R _ _ junk _ P rec_on vec_max _ HR (cross_closed o f cr m HC HM) _ _ s _ Hs).
    + intros c0 c' Hs' x Hx. exact (select_from R std greater _ _ _ _ c0 c' Hstd Hs' x Hx).
    + exact Po.
Qed.

Definition map_res {X Y} (f : X -> Y) (r : res X) : res Y := do x <- r; Ok (f x).
Lemma step_guard Q (o : obj') c : rng_ok R -> std_ok std -> good o -> lawful_in' Q o c -> step' (guard_obj o) (guard_call c) = map_res guard_obj (step' o c).
Proof.
  intros HR Hstd Po L. destruct c as [s|fi|ff|fc|fm|a|g'| |]; try reflexivity.
  - cbn [guard_call step]. unfold map_res. change (o_set R (guard_obj o)) with (o_set R o).
    destruct (apply_setting (o_set R o) s); reflexivity.
  - cbn [guard_call step]. unfold do_init, map_res. cbv zeta. cbn [guard_obj guard_slots o_slots f_i o_set o_args o_core o_gen o_rec o_ran].
    destruct (f_i R (o_slots R o)); [reflexivity|]. destruct (_ =? _); reflexivity.
  - cbn [guard_call step]. destruct L as (Ei & (f & cr & m & Ef & Ec & Em & _ & HC & HM) & _).
    rewrite (run_form o f cr m Ei Ef Ec Em).
    rewrite (run_form (guard_obj o) (guard f) cr m Ei ltac:(cbn [guard_obj guard_slots o_slots f_f]; rewrite Ef; reflexivity) Ec Em).
    change (o_set R (guard_obj o)) with (o_set R o). unfold map_res.
    destruct (match method_of mode (o_set R o) with Boltzmann => _ | _ => _ end); [reflexivity|].
    change (user_of R v0 (guard_obj o) (guard f) cr m) with (with_f R (user_of R v0 o f cr m) (guard f (o_args R o))).
    change (o_core R (guard_obj o)) with (o_core R o). change (o_gen R (guard_obj o)) with (o_gen R o). change (o_rec R (guard_obj o)) with (o_rec R o).
    rewrite (run_congr R (user_of R v0 o f cr m) (guard f (o_args R o)) _ junk _ P rec_on vec_max).
    + destruct (run R (user_of R v0 o f cr m) _ junk _ rec_on vec_max _ _); reflexivity.
    + exact HR.
    + exact (cross_closed o f cr m HC HM).
    + intros c0 c' Hs' x Hx. exact (select_from R std greater _ _ _ _ c0 c' Hstd Hs' x Hx).
    + intros v Hv. unfold guard. unfold P in Hv. rewrite Hv. reflexivity.
    + exact Po.
Qed.
Notation history_in := (lawful_history_in (V := V) (A := A) R std mode greater rec_on pw ex junk v0 vec_max sel_fuel B inside).
Lemma drive_guard Q h : rng_ok R -> std_ok std -> forall o : obj', good o -> history_in Q o h ->
  drive' (guard_obj o) (map guard_call h) = map_res guard_obj (drive' o h).
Proof.
  intros HR Hstd. induction h as [|c h IH]; intros o Go L; cbn [map drive]; [reflexivity|]. destruct L as (L1 & L2).
  rewrite (step_guard Q o c HR Hstd Go L1). unfold map_res at 1. destruct (step' o c) as [o'| | |] eqn:E; cbn [bind]; try reflexivity.
  apply IH; [exact (step_good Q o o' c HR Hstd Go L1 E)|exact (L2 o' eq_refl)].
Qed.
Lemma drive_good Q h : rng_ok R -> std_ok std -> forall o o' : obj', good o -> history_in Q o h -> drive' o h = Ok o' -> good o'.
Proof.
  intros HR Hstd. induction h as [|c h IH]; intros o o' Go L H; cbn [drive] in H; [injection H as <-; exact Go|]. destruct L as (L1 & L2).
  apply bind_Ok in H. destruct H as (o1 & E & H). exact (IH o1 o' (step_good Q o o1 c HR Hstd Go L1 E) (L2 o1 E) H).
Qed.
Lemma fresh_good (ct : @slots V A R) a g : good (fresh R mode greater ct a g).
Proof. intros x []. Qed.
Lemma lawful_guard Q o c : lawful_in' Q o c -> lawful R mode vec_max B Q (guard_obj o) (guard_call c).
Proof.
  destruct c; cbn [lawful_in guard_call lawful]; try (intros H; exact H).
  - intros (H & _). exact H.
  - intros (H1 & (f & cr & m & Ef & Ec & Em & Hf & _) & H). split; [exact H1|].
    cbn [guard_obj guard_slots o_slots f_f f_c f_m]. rewrite Ef, Ec, Em. split; [discriminate|]. split; [discriminate|]. split; [|exact H].
    exists (guard f). split; [reflexivity|].
    intros v. unfold guard. cbn [guard_obj o_args]. destruct (inside v) eqn:E; [apply Hf, E|reflexivity].
Qed.
Lemma history_guard Q h : rng_ok R -> std_ok std -> forall o, good o ->
  history_in Q o h -> lawful_history R std mode greater rec_on pw ex junk v0 vec_max sel_fuel B Q (guard_obj o) (map guard_call h).
Proof.
  intros HR Hstd. induction h as [|c h IH]; intros o Go H; cbn [map lawful_history]; [exact I|].
  destruct H as (H1 & H2). split; [apply lawful_guard, H1|]. intros o2 E.
  rewrite (step_guard Q o c HR Hstd Go H1) in E. unfold map_res in E. apply bind_Ok in E. destruct E as (o' & E & E2). injection E2 as E2. subst o2.
  apply IH; [|apply H2, E]. exact (step_good Q o o' c HR Hstd Go H1 E).
Qed.
End S.
