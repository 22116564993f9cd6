(** Proofs about AOS objects. *)
From Coq Require Import List Arith ZArith Reals Bool Lia Lra Permutation Sorted.
From Flocq Require Import Core BinarySingleNaN.
From Verif Require BoxObj.
From Verif Require Import Props_Box Base Fl FlFacts Rng RandProofs GlobalProofs StdOps ListFacts Box BoxProofs AOS AOSSpec
  AOSProofs AOSProofs2 AOSProofs3 AOSProofs4 AOSProofs5 AOSProofs6 AOSSafe AOSObj AOSObjSpec.
Import ListNotations.
Open Scope Z_scope.

(** * New electrons *)
Section Moves.
Context {R : rng_ops} (E : env R).
Notation aos' := (aos (G R)).
Lemma constrained_length v v' : applyConstraintD (box E) v = Ok v' -> Z.of_nat (length v') = dimD (box E).
Proof.
  unfold applyConstraintD. destruct (Z.eqb_spec (Z.of_nat (length v)) (dimD (box E))) as [L|]; [|discriminate]. intros H. injection H as <-.
  rewrite constrainD_length. exact L.
Qed.
Lemma spawn_last opt (s : aos') l li p s' : spawn E opt s l li p = Ok s' ->
  exists parent v g1 g2, deref (electrons s) p = Ok parent /\
    electrons s' = electrons s ++ [mkElectron (e_next s) v (junk E) false] /\
    (photon E s parent l li g1 = Ok (v, g2) \/ non_photon E parent g1 = Ok (v, g2)).
Proof.
  unfold spawn. intros H. apply bind_Ok in H. destruct H as (parent & Hp & H). destruct (rand01 R (a_rng s)) as [x g1].
  apply bind_Ok in H. destruct H as ([v g2] & Hv & H). injection H as <-. exists parent, v, g1, g2. split; [exact Hp|]. split; [reflexivity|].
  destruct (fle (photonRate opt) x); [left|right]; exact Hv.
Qed.
Lemma spawn_length opt (s : aos') l li p s' : spawn E opt s l li p = Ok s' ->
  exists e, electrons s' = electrons s ++ [e] /\ Z.of_nat (length (estate e)) = dimD (box E).
Proof.
  intros H. destruct (spawn_last _ _ _ _ _ _ H) as (parent & v & g1 & g2 & _ & En & K). eexists. split; [exact En|]. cbn [estate].
  destruct K as [K|K].
  - unfold photon in K. cbv zeta in K. destruct (rand_vec _ g1) as [? ?]. destruct (rand_vec _ g) as [? ?]. destruct (rand_vec _ g0) as [? ?].
    apply bind_Ok in K. destruct K as (st & _ & K). apply bind_Ok in K. destruct K as (w & _ & K). apply bind_Ok in K. destruct K as (v' & Hv & K).
    injection K as <- _. eapply constrained_length, Hv.
  - unfold non_photon in K. destruct ((if eigen E then _ else _) _ _ _) as [w g]. apply bind_Ok in K. destruct K as (v' & Hv & K).
    injection K as <- _. eapply constrained_length, Hv.
Qed.

Hypothesis (HM : moderate E) (HR : rng_ok R) (HD : eigen_draws E).
Lemma photon_low (s : aos') parent l li g v g' : photon E s parent l li g = Ok (v, g') -> (forall e, In e (electrons s) -> low (estate e)) ->
  In parent (electrons s) -> med (b_state s) -> med (l_state l) -> in_box (box E) v.
Proof using HM HR.
  unfold photon. intros H Hb Hp Ms Ml. set (n := if eigen E then _ else _) in *.
  pose proof (rand_vec_unit HR n g) as (Ua & La). destruct (rand_vec n g) as [alpha g1].
  pose proof (rand_vec_unit HR n g1) as (Ub & Lb). destruct (rand_vec n g1) as [beta g2].
  pose proof (rand_vec_unit HR n g2) as (Ug & Lg). destruct (rand_vec n g2) as [gamma g3]. cbn [fst] in *.
  apply bind_Ok in H. destruct H as (step & Hs & H). apply bind_Ok in H. destruct H as (w & Hw & H).
  apply bind_Ok in H. destruct H as (v' & Hv & H). injection H as <- _.
  assert (W : Forall (wide 2) step).
  { destruct (e_better E (energy parent) (l_energy l)).
    - destruct (nth_error (members l) (l_best l)) as [p|]; [|discriminate Hs]. apply bind_Ok in Hs. destruct Hs as (lb & Hlb & Hs).
      apply deref_In in Hlb. destruct Hlb as (Ilb & _). eapply pull_spec; eauto. apply low_med, Hb, Ilb.
    - apply bind_Ok in Hs. destruct Hs as (ab & Hab & Hs). apply bind_Ok in Hs. destruct Hs as (p & Hpl & Hs). injection Hs as <-.
      apply deref_In in Hab. destruct Hab as (Iab & _).
      destruct (pull_spec E _ _ _ _ _ _ Hpl Ua Ub Ug (low_med _ (Hb _ Iab)) Ms) as (W & _).
      apply Forall_forall. intros y Hy. apply in_map_iff in Hy. destruct Hy as (x & <- & Hx). rewrite Forall_forall in W.
      apply div_wide; [lia|lia|auto]. }
  destruct (add_wide E _ _ _ Hw (Hb _ Hp) W) as (Fw & _). eapply constrained; [exact HM| |exact Hv]. apply fins_nonnan, Fw.
Qed.
Lemma non_photon_low parent g v g' : non_photon E parent g = Ok (v, g') -> low (estate parent) -> Z.of_nat (length (estate parent)) = dimD (box E) ->
  in_box (box E) v.
Proof using HM HR HD.
  unfold non_photon. intros H Hb L. pose proof (moves_fin E HM HR HD (estate parent) 0 g ltac:(lia) Hb) as (M1 & M2 & _).
  destruct (eigen E).
  - destruct (eigen_moves E (estate parent) 0 g) as [w g1]. apply bind_Ok in H. destruct H as (v' & Hv & H). injection H as <- _.
    eapply constrained; [exact HM| |exact Hv]. apply fins_nonnan, M1.
  - destruct (std_moves E (estate parent) 0 g) as [w g1]. apply bind_Ok in H. destruct H as (v' & Hv & H). injection H as <- _.
    eapply constrained; [exact HM| |exact Hv]. apply fins_nonnan, M2.
Qed.
Lemma spawn_low opt (s : aos') l li p s' : spawn E opt s l li p = Ok s' ->
  (forall e, In e (electrons s) -> low (estate e) /\ Z.of_nat (length (estate e)) = dimD (box E)) -> med (b_state s) -> med (l_state l) ->
  exists e, electrons s' = electrons s ++ [e] /\ in_box (box E) (estate e).
Proof using HM HR HD.
  intros H Hb Ms Ml. destruct (spawn_last _ _ _ _ _ _ H) as (parent & v & g1 & g2 & Hp & En & K). eexists. split; [exact En|]. cbn [estate].
  apply deref_In in Hp. destruct Hp as (Ip & _).
  destruct K as [K|K]; [eapply photon_low; eauto; intros e He; apply Hb, He|eapply non_photon_low; [exact K| |]; apply Hb, Ip].
Qed.
End Moves.

(** * The two kinds of regions *)
Section Run.
Context {R : rng_ops} (E : env R) (region : list double -> Prop) (d : nat) (opt : aos_option).
Notation aos' := (aos (G R)).
Hypothesis Hstd : std_ok (std E).
Hypothesis Hst : stable_at_front (std E).
Hypothesis HR : rng_ok R.
Hypothesis Hlen : forall v, region v -> length v = d.
Hypothesis Hd : dimD (box E) = Z.of_nat d.
Hypothesis HF : forall v, region v -> nonnan (fFun E v).
Hypothesis Hin : (forall v, length v = d -> region v) \/
  (moderate E /\ eigen_draws E /\ (forall v, region v -> low v) /\ (forall v, in_box (box E) v -> region v)).
Hypothesis Hn : 1 <= maxLayerNum opt < 2147483647.
Hypothesis He : 1 <= electronNum opt.
Hypothesis Hmax : a_maxGeneration opt < 18446744073709551616.
Variable lo : Z.
Hypothesis Hlo : 1 <= lo.
Hypothesis Hfit : forall t n, 1 <= t <= maxLayerNum opt -> lo <= n <= electronNum opt -> layers_fit E t n.

Lemma obligations : exists M : list double -> Prop,
  (forall acc es st n, sum_states E acc es = Ok st -> acc = map (fun _ => d0) acc -> placed region es -> 1 <= n ->
     M (map (fun x => fdiv x (d_of_Z n)) st)) /\
  (forall es l l', computeLayer E es l = Ok l' -> placed region es -> M (l_state l')) /\
  (forall (s : aos') l li p s', spawn E opt s l li p = Ok s' -> placed region (electrons s) -> M (b_state s) -> M (l_state l) ->
     placed region (electrons s')).
Proof using HR Hlen Hd Hin.
  destruct Hin as [W|(HM & HD & Low & Inb)].
  - exists (fun _ => True). split; [auto|]. split; [auto|]. intros s l li p s' H Hp _ _ e0 I.
    destruct (spawn_length E opt s l li p s' H) as (e & En & L). rewrite En in I. apply in_app_or in I.
    destruct I as [I|[<-|[]]]; [apply Hp, I|]. apply W. lia.
  - exists med. split; [|split].
    + intros acc es st n H Ha Hp Hn1. apply mean_med; [exact Hn1|]. eapply sum_states_med; [exact H| |intros e I; apply Low, Hp, I].
      rewrite Ha. apply Forall_forall. intros x Hx. apply in_map_iff in Hx. destruct Hx as (y & <- & _). split; [reflexivity|].
      change (B2R d0) with 0%R. rewrite Rabs_R0. apply Rlt_le, M854_pos.
    + intros es l l' H Hp. eapply computeLayer_med; [exact H|]. intros e I. apply Low, Hp, I.
    + intros s l li p s' H Hp Ms Ml e0 I.
      destruct (spawn_low E HM HR HD opt s l li p s' H) as (e & En & Ib); auto.
      { intros e Ie. split; [apply Low, Hp, Ie|]. rewrite (Hlen _ (Hp _ Ie)), Hd. reflexivity. }
      rewrite En in I. apply in_app_or in I. destruct I as [I|[<-|[]]]; [apply Hp, I|]. apply Inb, Ib.
Qed.
Notation fine := (safely region opt lo).
Lemma run_fine fuel s : fine s -> 0 <= a_gen s -> (Z.to_nat (a_maxGeneration opt - a_gen s) < fuel)%nat ->
  exists s', aos_run E opt fuel s = Ok s'.
Proof using Hstd Hst HR Hlen Hd HF Hin Hn He Hmax Hlo Hfit.
  destruct obligations as (M & M1 & M2 & M3).
  exact (run_goes E region M d Hstd Hlen opt Hd M1 M2 M3 HF HR Hst Hn He lo Hlo Hfit Hmax fuel s).
Qed.
Lemma run_after fuel s s' : fine s -> 0 <= a_gen s -> aos_run E opt fuel s = Ok s' ->
  fine s' /\ a_gen s <= a_gen s' /\ (a_gen s' = a_gen s \/ a_gen s' <= a_maxGeneration opt) /\ shouldTerminate opt s' = true /\
  exists s0, fine s0 /\ settle E opt s0 = Ok s'.
Proof using Hstd Hst HR Hlen Hd HF Hin Hn He Hmax Hlo Hfit.
  destruct obligations as (M & M1 & M2 & M3).
  exact (run_ends E region M d Hstd Hlen opt Hd M1 M2 M3 HF HR Hst Hn He lo Hlo Hfit Hmax fuel s s').
Qed.
End Run.

(** * The object *)
Section Obj.
Context {A : Type} (R : rng_ops) (E0 : env R) (norm : G R -> double * G R).
Notation obj' := (@obj A R).
Notation step' := (@step A R E0 norm).
Notation drive' := (@drive A R E0 norm).
Notation with_ := (env_with R E0).

Lemma drive_app h1 : forall h2 o, drive' o (h1 ++ h2) = do o1 <- drive' o h1; drive' o1 h2.
Proof.
  induction h1 as [|c h1 IH]; intros h2 o; cbn [app drive]; [reflexivity|].
  destruct (step' o c) as [o1| | |]; cbn [bind]; auto.
Qed.
Lemma lawful_app d region h1 : forall h2 o, lawful_history R E0 norm d region o (h1 ++ h2) ->
  lawful_history R E0 norm d region o h1 /\ forall o1, drive' o h1 = Ok o1 -> lawful_history R E0 norm d region o1 h2.
Proof.
  induction h1 as [|c h1 IH]; intros h2 o H; cbn [app drive lawful_history] in *.
  - split; [exact I|]. intros o1 E. injection E as <-. exact H.
  - destruct H as (L & H). split.
    + split; [exact L|]. intros o' Ho. apply (IH h2 o' (H o' Ho)).
    + intros o1 E. apply bind_Ok in E. destruct E as (o' & Ho & E). apply (proj2 (IH h2 o' (H o' Ho))). exact E.
Qed.
(** The first half of a round does not read the box. *)
Lemma settle_box_free B1 i1 B2 i2 f opt (s : aos (G R)) : settle (with_ B1 i1 f) opt s = settle (with_ B2 i2 f) opt s.
Proof. reflexivity. Qed.

(** What a run() that returns has done. *)
Definition fun_of (o : obj') : list double -> double := match o_f R o with None => no_fun | Some f => f (o_args R o) end.
Lemma ran (o o' : obj') : do_run R E0 o = Ok o' ->
  (o_f R o = None -> forall e, In e (electrons (o_aos R o)) -> ecomp e = true) /\
  exists B fuel s', aos_run (with_ B (no_init R) (fun_of o)) (o_opt R o) fuel (o_aos R o) = Ok s' /\
    o' = mkObj R (o_opt R o) (o_box R o) (o_i R o) (o_f R o) (o_args R o) s' (o_inited R o) true.
Proof.
  unfold do_run. cbv zeta. fold (fun_of o). intros H.
  destruct (match o_f R o with None => true | Some _ => false end && existsb (fun e => negb (ecomp e)) (electrons (o_aos R o))) eqn:Q; [discriminate H|].
  split.
  { intros Ef e I. rewrite Ef in Q. cbn [andb] in Q. destruct (ecomp e) eqn:C; [reflexivity|]. exfalso.
    assert (X : existsb (fun e => negb (ecomp e)) (electrons (o_aos R o)) = true) by (apply existsb_exists; exists e; rewrite C; auto). congruence. }
  apply bind_Ok in H. destruct H as (s1 & H1 & H). destruct (shouldTerminate (o_opt R o) s1) eqn:T.
  - injection H as <-. exists no_box, 1%nat, s1. split; [|reflexivity]. cbn [aos_run]. rewrite H1. cbn [bind]. rewrite T. reflexivity.
  - apply bind_Ok in H. destruct H as (B & HB & H). apply bind_Ok in H. destruct H as (s2 & H2 & H).
    destruct (match o_f R o with None => true | Some _ => false end); [discriminate H|].
    apply bind_Ok in H. destruct H as (s3 & H3 & H). injection H as <-. exists B, (S (Z.to_nat (a_maxGeneration (o_opt R o)))), s3. split; [|reflexivity].
    cbn [aos_run]. rewrite (settle_box_free B (no_init R) no_box (no_init R)), H1. cbn [bind]. rewrite T, H2. cbn [bind]. exact H3.
Qed.
(** The same for initializePop(). *)
Lemma inited (o o' : obj') : do_init R E0 norm o = Ok o' ->
  exists i s', aos_initializePop (with_ no_box i no_fun) (o_opt R o) (o_aos R o) = Ok s' /\
    o' = mkObj R (o_opt R o) (o_box R o) (o_i R o) (o_f R o) (o_args R o) s' true (o_ran R o) /\
    match o_i R o with
    | IDefault _ => i = total R (box_initialize R norm (o_box R o))
    | IFixed _ f | IPointer _ (IUser _ f) => i = f (o_args R o)
    | _ => False
    end.
Proof.
  unfold do_init. cbv zeta. intros H. destruct (negb (maxLayerNum _ <=? _)); [discriminate H|]. destruct (_ =? 0); [discriminate H|].
  assert (K : forall i, (do s <- aos_initializePop (with_ no_box i no_fun) (o_opt R o) (o_aos R o);
      Ok (mkObj R (o_opt R o) (o_box R o) (o_i R o) (o_f R o) (o_args R o) s true (o_ran R o))) = Ok o' ->
    exists s', aos_initializePop (with_ no_box i no_fun) (o_opt R o) (o_aos R o) = Ok s' /\
      o' = mkObj R (o_opt R o) (o_box R o) (o_i R o) (o_f R o) (o_args R o) s' true (o_ran R o)).
  { intros i Hi. apply bind_Ok in Hi. destruct Hi as (s' & Hs & Hi). injection Hi as <-. eauto. }
  destruct (o_i R o) as [|i|[| |i]] eqn:Ei; try discriminate H.
  - apply bind_Ok in H. destruct H as (p & _ & H). destruct (K _ H) as (s' & A1 & A2). eexists _, s'. split; [exact A1|]. split; [exact A2|]. reflexivity.
  - destruct (K _ H) as (s' & A1 & A2). eexists _, s'. split; [exact A1|]. split; [exact A2|]. reflexivity.
  - destruct (K _ H) as (s' & A1 & A2). eexists _, s'. split; [exact A1|]. split; [exact A2|]. reflexivity.
Qed.
Lemma init_states (E : env R) (P : list double -> Prop) n : (forall g, P (fst (iFun E g))) -> forall id g e, In e (fst (init_electrons E n id g)) -> P (estate e).
Proof.
  intros H. induction n as [|n IH]; intros id g e; cbn [init_electrons]; [intros []|].
  pose proof (H g) as Hg. destruct (iFun E g) as [v g1]. specialize (IH (S id) g1). destruct (init_electrons E n (S id) g1) as [t g2]. cbn [fst] in *.
  intros [<-|I]; [exact Hg|apply IH, I].
Qed.
Lemma init_fine (E : env R) opt (s s' : aos (G R)) : aos_initializePop E opt s = Ok s' ->
  NoDup (map eid (electrons s')) /\ (forall e, In e (electrons s') -> (eid e < e_next s')%nat /\ (e_next s <= eid e)%nat) /\
  (forall e, In e (electrons s') -> ecomp e = false) /\ alive s' /\ a_gen s' = 0 /\ length (electrons s') = Z.to_nat (electronNum opt) /\
  (forall P : list double -> Prop, (forall g, P (fst (iFun E g))) -> placed P (electrons s')).
Proof.
  unfold aos_initializePop. destruct (negb _); [discriminate|]. pose proof (init_electrons_spec E (Z.to_nat (electronNum opt)) (e_next s) (a_rng s)) as (I1 & I2).
  pose proof (fun P HP => init_states E P (Z.to_nat (electronNum opt)) HP (e_next s) (a_rng s)) as I3.
  destruct (init_electrons E _ (e_next s) (a_rng s)) as [es g]. cbn [fst] in *. destruct es as [|e t] eqn:Ees; [discriminate|]. rewrite <- Ees in *.
  intros H. injection H as <-. cbn [electrons e_next atomBest a_gen].
  assert (N : NoDup (map eid es)) by (rewrite I1; apply seq_NoDup). split; [exact N|]. split; [|split; [exact I2|split; [|split; [reflexivity|split]]]].
  - intros x Hx. apply (in_map eid) in Hx. rewrite I1 in Hx. apply in_seq in Hx. lia.
  - exists e. unfold bestElectron. cbn [electrons atomBest]. apply deref_ok; [exact N|]. rewrite Ees. left. reflexivity.
  - rewrite <- (map_length eid), I1. apply seq_length.
  - intros P HP x Hx. apply (I3 P HP x Hx).
Qed.

(** ** Names of electrons, in every history *)
Definition named (s : aos (G R)) : Prop := NoDup (map eid (electrons s)) /\ forall e, In e (electrons s) -> (eid e < e_next s)%nat.
Lemma named_settle (E : env R) opt s s' : std_ok (std E) -> named s -> settle E opt s = Ok s' -> named s' /\ (forall e, In e (electrons s') -> ecomp e = true) /\ e_next s' = e_next s.
Proof.
  intros Hs (N & L) H. destruct (settle_kept E Hs opt s s' N H) as (S1 & _ & _ & En & _ & C). split; [split|split; [intros e I; apply C, I|exact En]].
  - eapply sublist_NoDup; [apply sublist_map, S1|apply nodup_evaluated, N].
  - intros e I. rewrite En. pose proof (sublist_in _ _ _ S1 I) as J. unfold evaluated in J. apply in_map_iff in J. destruct J as (x & <- & Hx). rewrite evaluate_id. auto.
Qed.
Lemma named_run (E : env R) opt fuel : std_ok (std E) -> forall s s', named s -> aos_run E opt fuel s = Ok s' ->
  named s' /\ (forall e, In e (electrons s') -> ecomp e = true) /\ (e_next s <= e_next s')%nat.
Proof.
  intros Hs. induction fuel as [|n IH]; intros s s' Hn H; cbn [aos_run] in H; [discriminate H|].
  apply bind_Ok in H. destruct H as (s1 & H1 & H). destruct (named_settle E opt s s1 Hs Hn H1) as (N1 & C1 & E1).
  destruct (shouldTerminate opt s1); [injection H as <-; split; [exact N1|split; [exact C1|lia]]|].
  apply bind_Ok in H. destruct H as (s2 & H2 & H). destruct N1 as (N1 & L1). destruct (excite_ids E opt s1 s2 N1 L1 H2) as (N2 & L2 & M2 & _).
  destruct (IH s2 s' (conj N2 L2) H) as (X & Y & Z). split; [exact X|]. split; [exact Y|lia].
Qed.
Lemma named_step (o o' : obj') c : std_ok (std E0) -> named (o_aos R o) -> step' o c = Ok o' -> named (o_aos R o').
Proof.
  intros Hs Hn H. destruct c as [bc|p|p|ff|a1|g1| |]; cbn [step] in H.
  - apply bind_Ok in H. destruct H as (m1 & _ & H). injection H as <-. exact Hn.
  - injection H as <-. exact Hn.
  - injection H as <-. exact Hn.
  - injection H as <-. exact Hn.
  - injection H as <-. exact Hn.
  - injection H as <-. exact Hn.
  - destruct (inited o o' H) as (i & s & Hi & -> & _). destruct (init_fine _ _ _ _ Hi) as (N & L & _). split; [exact N|]. intros e I. apply L, I.
  - destruct (ran o o' H) as (_ & B & fu & s & Hr & ->). eapply named_run; [|exact Hn|exact Hr]. exact Hs.
Qed.
Lemma named_drive h : std_ok (std E0) -> forall (o o' : obj'), named (o_aos R o) -> drive' o h = Ok o' -> named (o_aos R o').
Proof.
  intros Hs. induction h as [|c h IH]; intros o o' Hn H; cbn [drive] in H; [injection H as <-; exact Hn|].
  apply bind_Ok in H. destruct H as (o1 & H1 & H). eapply IH; [eapply named_step; eauto|exact H].
Qed.

(** ** Histories *)
Variable (d : nat) (region : list double -> Prop).
Hypothesis Hstd : std_ok (std E0).
Hypothesis Hst : stable_at_front (std E0).
Hypothesis HR : rng_ok R.
Hypothesis Hlen : forall v, region v -> length v = d.

Definition oinv (o : obj') : Prop := o_inited R o = true ->
  sound region (o_aos R o) /\ alive (o_aos R o) /\ 0 <= a_gen (o_aos R o) /\ electrons (o_aos R o) <> [].
Lemma bstep_total k b c : BoxObj.bstep k b c <> UB /\ BoxObj.bstep k b c <> Fuel.
Proof. destruct c; cbn [BoxObj.bstep]; repeat match goal with |- context [if ?x then _ else _] => destruct x end; split; discriminate. Qed.
Lemma gstep_total b c : BoxObj.gstep b c <> UB /\ BoxObj.gstep b c <> Fuel.
Proof. destruct c; cbn [BoxObj.gstep]; repeat match goal with |- context [if ?x then _ else _] => destruct x end; split; discriminate. Qed.
Lemma box_step_total b c : box_step b c <> UB /\ box_step b c <> Fuel.
Proof.
  destruct b as [k b|b]; destruct c as [c|c]; cbn [box_step]; try (split; discriminate).
  - pose proof (bstep_total k b c) as (H1 & H2). destruct (BoxObj.bstep k b c); cbn [bind]; split; try discriminate; congruence.
  - pose proof (gstep_total b c) as (H1 & H2). destruct (BoxObj.gstep b c); cbn [bind]; split; try discriminate; congruence.
Qed.
Lemma run_box_dim eig mv b n B : run_box eig mv b n = Ok B -> dimD B = Z.of_nat n.
Proof.
  unfold run_box. destruct b as [k b|b]; intros H; apply bind_Ok in H; destruct H as (m & _ & H).
  - destruct (Z.eqb_spec m (Z.of_nat n)) as [Q|]; [|destruct eig; discriminate H]. cbn [negb] in H.
    repeat match type of H with context [if ?x then _ else _] => destruct x; try discriminate H end. injection H as <-. exact Q.
  - destruct (Z.eqb_spec m (Z.of_nat n)) as [Q|]; [|discriminate H]. cbn [negb] in H.
    destruct (mv && _); [discriminate H|]. injection H as <-. exact Q.
Qed.
Lemma modest_low v : modest v -> low v.
Proof. intros H. apply Forall_forall. exact H. Qed.

(** One lawful run. *)
Lemma run_object (o : obj') : oinv o -> lawful R E0 norm d region o (Run R) ->
  exists f B s', o_f R o = Some f /\ box_in_use R E0 d o = Ok B /\ stays_inside R E0 d region B /\
    let E := with_ B (no_init R) (f (o_args R o)) in
    let opt := o_opt R o in
    let lo := Z.min (electronNum opt) (Z.of_nat (length (electrons (o_aos R o)))) in
    aos_run E opt (S (Z.to_nat (a_maxGeneration opt))) (o_aos R o) = Ok s' /\
    do_run R E0 o = Ok (mkObj R opt (o_box R o) (o_i R o) (o_f R o) (o_args R o) s' true true) /\
    safely region opt lo (o_aos R o) /\ safely region opt lo s' /\ a_gen (o_aos R o) <= a_gen s' /\
    (a_gen s' = a_gen (o_aos R o) \/ a_gen s' <= a_maxGeneration opt) /\ shouldTerminate opt s' = true /\
    exists s0, safely region opt lo s0 /\ settle E opt s0 = Ok s'.
Proof using Hstd Hst HR Hlen.
  intros Hi (In & (f & Ef & Hf) & He & Hn & Hg & Hfit & B & HB & Hs). destruct (Hi In) as (So & Al & G0 & Ne).
  exists f, B. set (E := with_ B (no_init R) (f (o_args R o))). set (opt := o_opt R o) in *. cbv zeta.
  set (lo := Z.min (electronNum opt) (Z.of_nat (length (electrons (o_aos R o))))) in *.
  assert (Ld : dimD (box E) = Z.of_nat d) by (eapply run_box_dim, HB).
  assert (Hin : (forall v, length v = d -> region v) \/ (moderate E /\ eigen_draws E /\ (forall v, region v -> low v) /\ (forall v, in_box (box E) v -> region v))).
  { destruct Hs as [W|(M & D & Lo & I)]; [left; exact W|]. right. split; [exact M|]. split; [exact D|]. split; [|exact I]. intros v Hv. apply modest_low, Lo, Hv. }
  assert (Hlf : forall t n, 1 <= t <= maxLayerNum opt -> lo <= n <= electronNum opt -> layers_fit E t n).
  { intros t n Ht Hnn. apply fits_layers. exact (Hfit t n Ht Hnn). }
  assert (Hlo : 1 <= lo) by (unfold lo; destruct (electrons (o_aos R o)); [congruence|cbn [length]; lia]).
  assert (Fine : safely region opt lo (o_aos R o)).
  { split; [exact So|]. split; [exact Al|]. unfold share_count, lo. lia. }
  destruct (run_fine E region d opt Hstd Hst HR Hlen Ld Hf Hin Hn He ltac:(unfold two64 in Hg; lia) lo Hlo Hlf (S (Z.to_nat (a_maxGeneration opt))) (o_aos R o) Fine G0 ltac:(lia)) as (s' & Hr).
  pose proof (run_after E region d opt Hstd Hst HR Hlen Ld Hf Hin Hn He ltac:(unfold two64 in Hg; lia) lo Hlo Hlf _ _ _ Fine G0 Hr) as (F' & G1 & G2 & T & s0 & F0 & Hs0).
  exists s'. split; [exact Ef|]. split; [exact HB|]. split; [exact Hs|]. split; [exact Hr|]. split; [|split; [exact Fine|split; [exact F'|split; [exact G1|split; [exact G2|split; [exact T|eauto]]]]]].
  unfold do_run. cbv zeta. rewrite Ef. cbn [andb]. fold opt. pose proof Hr as Hr'. cbn [aos_run] in Hr'.
  apply bind_Ok in Hr'. destruct Hr' as (s1 & H1 & Hr'). rewrite (settle_box_free no_box (no_init R) B (no_init R)). fold E. rewrite H1. cbn [bind].
  destruct (shouldTerminate opt s1) eqn:T1.
  { injection Hr' as <-. rewrite In. reflexivity. }
  pose proof (settle_kept E Hstd opt (o_aos R o) s1 (proj1 So) H1) as (S1 & _ & L1 & _).
  assert (Sz : size_of (electrons s1) = d).
  { destruct (electrons s1) as [|e t] eqn:Es1.
    - exfalso. cbn [length] in L1. destruct (electrons (o_aos R o)); [congruence|]. cbn [length] in L1. lia.
    - cbn [size_of]. apply Hlen. apply (placed_evaluated E region (o_aos R o) (proj2 (proj2 (proj2 So)))). eapply sublist_in; [exact S1|left; reflexivity]. }
  rewrite Sz. unfold box_in_use in HB. fold opt in HB. rewrite HB. cbn [bind]. fold E.
  apply bind_Ok in Hr'. destruct Hr' as (s2 & H2 & H3). rewrite H2. cbn [bind]. rewrite H3. cbn [bind]. rewrite In. reflexivity.
Qed.
Lemma init_object (o : obj') : lawful R E0 norm d region o (InitializePop R) -> exists o', do_init R E0 norm o = Ok o' /\ oinv o'.
Proof using Hlen.
  intros (Hml & He & Hi). cbn zeta in Hml, He.
  assert (K : forall i, (forall g, region (fst (i g))) -> exists s, aos_initializePop (with_ no_box i no_fun) (o_opt R o) (o_aos R o) = Ok s /\
      oinv (mkObj R (o_opt R o) (o_box R o) (o_i R o) (o_f R o) (o_args R o) s true (o_ran R o))).
  { intros i Hr. assert (X : exists s, aos_initializePop (with_ no_box i no_fun) (o_opt R o) (o_aos R o) = Ok s).
    { unfold aos_initializePop. rewrite (proj2 (Z.leb_le _ _) Hml). cbn [negb].
      replace (Z.to_nat (electronNum (o_opt R o))) with (S (Z.to_nat (electronNum (o_opt R o) - 1))) by lia. cbn [init_electrons].
      destruct (iFun (with_ no_box i no_fun) _) as [v g1]. destruct (init_electrons _ _ _ g1) as [t g2]. eauto. }
    destruct X as (s & Hs). exists s. split; [exact Hs|]. intros _. cbn [o_aos].
    destruct (init_fine _ _ _ _ Hs) as (N & L & C & Al & G & Ln & P). split; [|split; [exact Al|split; [lia|]]].
    - split; [exact N|]. split; [intros e I; apply L, I|]. split; [intros e I Ce; rewrite (C e I) in Ce; discriminate Ce|]. apply P. exact Hr.
    - intros Q. rewrite Q in Ln. cbn in Ln. lia. }
  unfold do_init. cbv zeta. rewrite (proj2 (Z.leb_le _ _) Hml). cbn [negb]. destruct (Z.eqb_spec (electronNum (o_opt R o)) 0); [lia|].
  destruct (o_i R o) as [|i|[| |i]] eqn:Ei; try contradiction.
  - destruct (Hi (a_rng (o_aos R o))) as (v & g' & -> & _). cbn [bind].
    destruct (K (total R (box_initialize R norm (o_box R o)))) as (s & -> & Io); [|cbn [bind]; eauto].
    intros g. unfold total. destruct (Hi g) as (v1 & g1 & -> & Hv). exact Hv.
  - destruct (K _ Hi) as (s & -> & Io). cbn [bind]. eauto.
  - destruct (K _ Hi) as (s & -> & Io). cbn [bind]. eauto.
Qed.
Lemma step_fine (o : obj') c : oinv o -> lawful R E0 norm d region o c -> exists o', step' o c = Ok o' /\ oinv o'.
Proof using Hstd Hst HR Hlen.
  intros Hi L. destruct c as [b|p|p|f|a|g| |].
  - destruct L as (_ & L). cbn [step]. pose proof (box_step_total (o_box R o) b) as (U & F). destruct (box_step (o_box R o) b) as [b'| | |]; try congruence.
    cbn [bind]. eexists. split; [reflexivity|exact Hi].
  - eexists. split; [reflexivity|exact Hi].
  - eexists. split; [reflexivity|exact Hi].
  - eexists. split; [reflexivity|exact Hi].
  - eexists. split; [reflexivity|exact Hi].
  - eexists. split; [reflexivity|exact Hi].
  - apply init_object, L.
  - destruct (run_object o Hi L) as (f & B & s' & _ & _ & _ & X). cbv zeta in X. destruct X as (_ & Hr & F & (So & Al & Lc) & G & _).
    eexists. split; [exact Hr|]. intros _. cbn [o_aos]. destruct L as (In & _). destruct (Hi In) as (_ & _ & G0 & Ne).
    split; [exact So|]. split; [exact Al|]. split; [lia|]. destruct Al as (e & Hbe). intros Q. unfold bestElectron in Hbe. rewrite Q in Hbe. discriminate Hbe.
Qed.
Lemma history_fine h : forall o, oinv o -> lawful_history R E0 norm d region o h -> exists o', drive' o h = Ok o' /\ oinv o'.
Proof using Hstd Hst HR Hlen.
  induction h as [|c h IH]; intros o Hi H; [eexists; split; [reflexivity|exact Hi]|]. cbn [lawful_history] in H. destruct H as (L & H). cbn [drive].
  destruct (step_fine o c Hi L) as (o1 & H1 & I1). rewrite H1. cbn [bind]. apply IH; auto.
Qed.
End Obj.
