(** RegionProofs.v for NSGA2 and NSGA3 objects. *)
From Coq Require Import List Arith ZArith Bool Lia Reals.
From Flocq Require Import Core BinarySingleNaN.
From Verif Require Import Base Fl FlFacts Rng StdOps GABase MOGA MOGASpec NSGA3 Props_NSGA3 VarInv RegionProofs MOGAObj MOGAObjSpec MOGAObjProofs RegionSpec RegionSpecM.
Import ListNotations.
Open Scope Z_scope.

Section S.
Context {V A : Type} (R : rng_ops) (std : std_ops) (lin : lin_ops) (M : nat) (k : kind) (rec_on : bool)
  (junk : list double) (v0 : V) (vec_max : Z).
Notation step' := (@step V A R std lin M k rec_on junk v0 vec_max).
Notation drive' := (@drive V A R std lin M k rec_on junk v0 vec_max).
Notation obj' := (@mobj V A R).
Notation call' := (@call V A R).
Context (inside : V -> bool).
Let P : V -> Prop := fun v => inside v = true.

Definition zeros : list double := repeat d0 M.
Definition guard (f : A -> V -> list double) : A -> V -> list double := fun a v => if inside v then f a v else zeros.
Definition guard_slots (s : @slots V A R) : @slots V A R := mkSlots R (f_i R s) (option_map guard (f_f R s)) (f_c R s) (f_m R s).
Definition guard_obj (o : obj') : obj' :=
  mkMObj R (mo_opt R o) (guard_slots (mo_slots R o)) (mo_args R o) (mo_prec R o) (mo_prec2 R o) (mo_refs R o) (mo_core R o) (mo_gen R o) (mo_rec R o) (mo_ran R o).
Definition guard_call (c : call') : call' := match c with SetFFun _ f => SetFFun R (option_map guard f) | _ => c end.

Definition good (o : obj') : Prop := forall x, In x (pop (mo_core R o)) -> P (gvar x).
Notation lawful_in' := (@lawful_in V A R M k rec_on vec_max inside).

Lemma cross_closed (o : obj') f cr m : cross_inside R inside (cr (mo_args R o)) -> mutate_inside R inside (m (mo_args R o)) ->
  closed_ops R (user_of R v0 o f cr m) P.
Proof. intros HC HM. split; [intros x y g Hx Hy; apply HC; assumption|intros x g Hx; apply HM; assumption]. Qed.
Lemma hooks_keep opt ws : keeps_vars R (hooks_of (V := V) R std lin M k opt ws).
Proof.
  intros c0 c' Hs x Hx. exists x. split; [|reflexivity]. cbn [hk_select hooks_of] in Hs. unfold select_of in Hs. destruct k.
  - exact (VarInv.nsga2_incl R std M greater opt c0 c' Hs x Hx).
  - exact (proj2 (nsga3_frame V R std lin M _ _ _ c0 c' Hs) x Hx).
  - exact (proj2 (nsga3_frame V R std lin M _ _ _ c0 c' Hs) x Hx).
Qed.
Lemma step_good (o o' : obj') c : rng_ok R -> good o -> lawful_in' o c -> step' o c = Ok o' -> good o'.
Proof.
  intros HR Po L H1.
  destruct c as [op|fi|ff|fc|fm|a'|p|i e|g'| |]; try (injection H1 as H1; subst o'; exact Po).
  - cbn [step] in H1. apply bind_Ok in H1. destruct H1 as (q & _ & H1). injection H1 as H1. subst o'. exact Po.
  - destruct L as (_ & L). apply init_eq in H1. destruct H1 as (ws & g & i & _ & Hi & ->). unfold good. cbn [mo_core]. destruct Hi as [Hi|(_ & Hk & _)].
    + apply initialize_P. intros g1. cbn [iFun init_funs]. apply (L i Hi).
    + intros x Hx. exfalso. revert Hx. unfold initializePop. rewrite Hk. cbn. intros [].
  - destruct L as ((f & cr & m & Ef & Ec & Em & _ & HC & HM) & _).
    apply run_eq in H1. destruct H1 as (f2 & c2 & m2 & s & Ef2 & Ec2 & Em2 & Hr & ->). unfold good. cbn [mo_core].
    replace c2 with cr in Hr by congruence. replace m2 with m in Hr by congruence.
    refine (run_P R _ _ junk _ P rec_on vec_max _ HR (cross_closed o f2 cr m HC HM) (hooks_keep _ _) _ s _ Hr). exact Po.
Qed.

Definition map_res {X Y} (f : X -> Y) (r : res X) : res Y := do x <- r; Ok (f x).
Lemma step_guard (o : obj') c : rng_ok R -> good o -> lawful_in' o c -> step' (guard_obj o) (guard_call c) = map_res guard_obj (step' o c).
Proof.
  intros HR Po L. destruct c as [op|fi|ff|fc|fm|a'|p|i e|g'| |]; try reflexivity.
  - cbn [guard_call step]. unfold map_res. destruct (setPrecisions i e); reflexivity.
  - cbn [guard_call step]. unfold do_init, map_res. cbv zeta. change (make_refs R M k (guard_obj o)) with (make_refs R M k o).
    destruct (make_refs R M k o) as [(ws, g)| | |]; cbn [bind]; try reflexivity.
    cbn [guard_obj guard_slots mo_slots f_i mo_opt mo_args mo_core mo_gen mo_rec mo_ran mo_prec mo_prec2].
    destruct (f_i R (mo_slots R o)); [reflexivity|]. destruct (_ =? _); reflexivity.
  - cbn [guard_call step]. destruct L as ((f & cr & m & Ef & Ec & Em & _ & HC & HM) & _).
    unfold do_run. cbn [guard_obj guard_slots mo_slots f_f f_c f_m]. rewrite Ef, Ec, Em. cbn [option_map].
    change (user_of R v0 (mkMObj R (mo_opt R o) _ _ _ _ _ _ _ _ _) (guard f) cr m) with (with_f R (user_of R v0 o f cr m) (guard f (mo_args R o))).
    cbn [mo_opt mo_core mo_gen mo_rec mo_refs mo_args mo_prec mo_prec2]. unfold map_res.
    rewrite (run_congr R (user_of R v0 o f cr m) (guard f (mo_args R o)) _ junk _ P rec_on vec_max).
    + destruct (run R (user_of R v0 o f cr m) _ junk _ rec_on vec_max _ _); cbn [bind]; try reflexivity.
    + exact HR.
    + exact (cross_closed o f cr m HC HM).
    + apply hooks_keep.
    + intros v Hv. unfold guard. unfold P in Hv. rewrite Hv. reflexivity.
    + exact Po.
Qed.
Notation history_in := (@lawful_history_in V A R std lin M k rec_on junk v0 vec_max inside).
Lemma drive_guard h : rng_ok R -> forall o : obj', good o -> history_in o h ->
  drive' (guard_obj o) (map guard_call h) = map_res guard_obj (drive' o h).
Proof.
  intros HR. induction h as [|c h IH]; intros o Go L; cbn [map drive]; [reflexivity|]. destruct L as (L1 & L2).
  rewrite (step_guard o c HR Go L1). unfold map_res at 1. destruct (step' o c) as [o'| | |] eqn:E; cbn [bind]; try reflexivity.
  apply IH; [exact (step_good o o' c HR Go L1 E)|exact (L2 o' eq_refl)].
Qed.
Lemma drive_good h : rng_ok R -> forall o o' : obj', good o -> history_in o h -> drive' o h = Ok o' -> good o'.
Proof.
  intros HR. induction h as [|c h IH]; intros o o' Go L H; cbn [drive] in H; [injection H as <-; exact Go|]. destruct L as (L1 & L2).
  apply bind_Ok in H. destruct H as (o1 & E & H). exact (IH o1 o' (step_good o o1 c HR Go L1 E) (L2 o1 E) H).
Qed.
Lemma fresh_good (ct : @slots V A R) a g : good (fresh R ct a g).
Proof. intros x []. Qed.
Lemma zeros_tame : tame_value M zeros.
Proof.
  intros o Ho. assert (E : objective zeros o = d0).
  { unfold objective, zeros. assert (Q : nth_error (repeat d0 M) o = Some d0) by (clear -Ho; revert o Ho; induction M as [|n IH]; intros [|o] Ho; cbn; try lia; [reflexivity|apply IH; lia]).
    apply nth_error_nth. exact Q. }
  rewrite E. split; [reflexivity|]. change (B2R d0) with 0%R. rewrite Rabs_R0. apply bpow_ge_0.
Qed.
Lemma lawful_guard o c : lawful_in' o c -> lawful R M k rec_on vec_max (guard_obj o) (guard_call c).
Proof.
  destruct c; cbn [lawful_in guard_call lawful]; try (intros H; exact H).
  - intros (H & _). exact H.
  - intros ((f & cr & m & Ef & Ec & Em & Hf & _) & H).
    cbn [guard_obj guard_slots mo_slots f_f f_c f_m]. rewrite Ef, Ec, Em. split; [discriminate|]. split; [discriminate|]. split; [|exact H].
    exists (guard f). split; [reflexivity|].
    intros Hk v. unfold guard. cbn [guard_obj mo_args]. destruct (inside v) eqn:E; [apply Hf; assumption|apply zeros_tame].
Qed.
Lemma history_guard h : rng_ok R -> forall o, good o ->
  history_in o h -> lawful_history R std lin M k rec_on junk v0 vec_max (guard_obj o) (map guard_call h).
Proof.
  intros HR. induction h as [|c h IH]; intros o Go H; cbn [map lawful_history]; [exact I|].
  destruct H as (H1 & H2). split; [apply lawful_guard, H1|]. intros o2 E.
  rewrite (step_guard o c HR Go H1) in E. unfold map_res in E. apply bind_Ok in E. destruct E as (o' & E & E2). injection E2 as E2. subst o2.
  apply IH; [|apply H2, E]. exact (step_good o o' c HR Go H1 E).
Qed.
End S.
