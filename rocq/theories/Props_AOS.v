(** C33-C37, C69, C70: atomic orbital search. *)
From Coq Require Import List Arith ZArith Bool Lia Reals Lra Permutation.
From Flocq Require Import Core BinarySingleNaN.
From Verif Require Import Base Fl FlFacts Rng RandProofs StdOps ListFacts Box BoxProofs AOS AOSSpec
  AOSProofs AOSProofs2 AOSProofs3 AOSProofs4 AOSProofs5 AOSProofs6 Props_Box.
From Verif Require Props_SOGA.
Import ListNotations.
Open Scope Z_scope.

(** * Concrete solvers for the examples *)
(** (1 + x/1024)^1024: a crude exponential. *)
Definition crude_exp (x : double) : double :=
  let sq y := fmul y y in
  sq (sq (sq (sq (sq (sq (sq (sq (sq (sq (fadd d1 (fdiv x (d_of_Z 1024)))))))))))).
Definition plain_sum (l : list double) : double := fold_left fadd l d0.
Definition seg : dbox := square_dbox 1 d0 d1 (fofZ 1 (-2)).
Definition demo (o : std_ops) (eig : bool) (f : list double -> double) : env replay := {|
  std := o; greater := false; box := seg; eigen := eig; rec_on := true; libm_exp := crude_exp;
  vsum := plain_sum; below := Nat.ltb; eigen_random := fun g => (d0, g);
  iFun := initializeD replay seg; fFun := f; junk := d0 |}.
Definition coord0 (v : list double) : double := nth 0 v d0.
Definition blank {GG} (g : GG) : aos GG := mkAOS [] 0 [] [] d0 0 0 0 [] g.
Definition small_opt (n l gens : Z) : aos_option := mkAOpt n gens 20 l (fofZ 1 (-1)).
Definition lives (E : env replay) (opt : aos_option) (g : list Z) (fuel : nat) : res (aos (list Z)) :=
  do s <- aos_initializePop E opt (blank g); aos_run E opt fuel s.

(** * C33 *)
(** Each round keeps the electronNum best electrons (all of them, if there are
    fewer), in their order. *)
Theorem C33_select_best : forall (R : rng_ops) (E : env R) (opt : aos_option) (s s' : aos (G R)),
  std_ok (std E) -> before_round E s -> settle E opt s = Ok s' ->
  exists dropped,
    Permutation (evaluated E s) (electrons s' ++ dropped) /\ sublist (electrons s') (evaluated E s) /\
    length (electrons s') = Nat.min (Z.to_nat (electronNum opt)) (length (electrons s)) /\
    none_better E (electrons s') dropped.
Proof. intros R E opt s s' Hstd B H. apply (settle_select E opt s s' Hstd (before_good E s Hstd B) H). Qed.
Print Assumptions C33_select_best.
(** The best fitness found so far, as recorded round by round since
    initializePop(), over any number of run() calls, never gets worse; each entry
    is the best of all electrons of its round. *)
Theorem C33_record_monotone : forall (R : rng_ops) (E : env R) (opt : aos_option) (s s' : aos (G R)),
  std_ok (std E) -> before_round E s -> settle E opt s = Ok s' ->
  (forall i j x y, (i <= j)%nat -> nth_error (a_record s') i = Some x -> nth_error (a_record s') j = Some y -> e_better E x y = false) /\
  (rec_on E = true -> exists best, a_record s' = a_record s ++ [energy best] /\ In best (evaluated E s) /\
     atomBest s' = eid best /\ forall y, In y (evaluated E s) -> e_better E (energy y) (energy best) = false).
Proof.
  intros R E opt s s' Hstd B H. destruct (rec_settle E opt s s' Hstd (rec_before E s Hstd B) H) as ((_ & _ & M) & T). auto.
Qed.
Print Assumptions C33_record_monotone.
(** With or without a record: bestElectron() after a later run() is not worse. *)
Theorem C33_best_never_worse : forall (R : rng_ops) (E : env R) opt fuel opt' fuel' (s s1 s2 : aos (G R)) e1 e2,
  std_ok (std E) -> before_round E s -> aos_run E opt fuel s = Ok s1 -> bestElectron s1 = Ok e1 ->
  aos_run E opt' fuel' s1 = Ok s2 -> bestElectron s2 = Ok e2 -> e_better E (energy e1) (energy e2) = false.
Proof.
  intros R E opt fuel opt' fuel' s s1 s2 e1 e2 Hstd B H1 He1 H2 He2.
  destruct (run_last E _ _ _ _ B H1) as (B1 & s0 & B0 & Hs & _). pose proof (before_good E s0 Hstd B0) as G0.
  pose proof (deref_In _ _ _ He1) as (I1 & _). destruct (settle_computed E opt s0 s1 Hstd G0 Hs e1 I1) as (C1 & I0).
  destruct (settle_best E opt s0 s1 Hstd G0 Hs) as (_ & _ & _ & _ & _ & _ & _ & _ & NN & _).
  destruct (floor_run E (fun r => r = energy e1) opt' fuel' s1 s2 Hstd (before_good E s1 Hstd B1)) as (_ & F); [|exact H2|eapply F; eauto].
  intros r ->. split; [auto|]. exists e1. repeat split; auto. apply eb_irrefl.
Qed.
Print Assumptions C33_best_never_worse.
(** bestElectron() survives the selection if no more than electronNum electrons
    tie for the best energy ... *)
Theorem C33_best_survives : forall (R : rng_ops) (E : env R) opt (s s' : aos (G R)),
  std_ok (std E) -> before_round E s -> settle E opt s = Ok s' ->
  (forall best, In best (evaluated E s) -> atomBest s' = eid best -> (ties E best (evaluated E s) <= Z.to_nat (electronNum opt))%nat ->
     bestElectron s' = Ok best) /\
  (* ... or if std::sort happens to be stable. *)
  (stable_at_front (std E) -> alive s').
Proof.
  intros R E opt s s' Hstd B H. pose proof (before_good E s Hstd B) as Hg. split.
  - intros best Ib Ha Ht. eapply best_survives_ties; eauto.
  - intros Hst. apply (best_survives_stable E opt s s' Hstd Hst Hg H).
Qed.
Print Assumptions C33_best_survives.
(** Otherwise it may be erased, and the next round reads it: with a sort that
    puts equivalent elements in the opposite order, every run with a constant
    fitness function fails. *)
Definition unstable : std_ops := {| sort := fun A lt l => isort lt (rev l); umap_order := fun A l => l |}.
Lemma unstable_ok : std_ok unstable.
Proof.
  split; [|intros A l; reflexivity]. intros A lt l H. cbn. assert (S : strict_weak lt (rev l)).
  { eapply strict_weak_sub; [|exact H]. intros x Hx. apply in_rev. exact Hx. }
  split; [|apply isort_sorted, S]. rewrite <- isort_perm. apply Permutation_rev.
Qed.
Theorem C33_best_dangles_refuted : exists (E : env replay) (opt : aos_option) (s : aos (list Z)),
  std_ok (std E) /\ aos_initializePop E opt (blank [100; 50]) = Ok s /\ (forall v, fFun E v = d0) /\
  (exists s1 s2 s3, settle E opt s = Ok s1 /\ excite E opt s1 = Ok s2 /\ settle E opt s2 = Ok s3 /\ bestElectron s3 = UB) /\
  aos_run E opt 5 s = UB.
Proof.
  pose (E := demo unstable false (fun _ => d0)). pose (opt := small_opt 1 1 5).
  assert (T : exists s, aos_initializePop E opt (blank [100; 50]) = Ok s /\
     (match settle E opt s with Ok s1 => match excite E opt s1 with Ok s2 => match settle E opt s2 with Ok s3 =>
        match bestElectron s3 with UB => true | _ => false end | _ => false end | _ => false end | _ => false end &&
      match aos_run E opt 5 s with UB => true | _ => false end) = true) by (apply Props_SOGA.by_test; vm_compute; reflexivity).
  destruct T as (s & Hs & T). apply andb_prop in T. destruct T as (T1 & T2).
  exists E, opt, s. split; [apply unstable_ok|]. split; [exact Hs|]. split; [reflexivity|]. split.
  - destruct (settle E opt s) as [s1| | |]; try discriminate. destruct (excite E opt s1) as [s2| | |] eqn:X2; try discriminate.
    destruct (settle E opt s2) as [s3| | |] eqn:X3; try discriminate. exists s1, s2, s3. repeat split; auto.
    destruct (bestElectron s3); try discriminate. reflexivity.
  - destruct (aos_run E opt 5 s); try discriminate. reflexivity.
Qed.
Print Assumptions C33_best_dangles_refuted.
Example C33_example : std_ok std_inst /\ stable_at_front std_inst /\
  exists s, lives (demo std_inst true coord0) (small_opt 3 2 4) [200; 150; 100; 50] 9 = Ok s /\
    ((length (electrons s) =? 3)%nat && (length (a_record s) =? 5)%nat && match bestElectron s with Ok e => flt (energy e) d1 | _ => false end) = true.
Proof.
  split; [apply std_inst_ok|]. split; [apply isort_stable|]. apply Props_SOGA.by_test. vm_compute. reflexivity.
Qed.

(** * C34 *)
(** The layers of every round, read from the innermost outwards, are the kept
    electrons in the order of their energy, each exactly once; they are cut
    where the rounded shares of a Gaussian curve say; there is at least one,
    and only the first may be empty. *)
Theorem C34_layers : forall (R : rng_ops) (E : env R) (opt : aos_option) (s s' : aos (G R)),
  std_ok (std E) -> rng_ok R -> 1 <= maxLayerNum opt < 2147483647 ->
  before_round E s -> settle E opt s = Ok s' ->
  exists kept t bounds blanks,
    Permutation kept (electrons s') /\ energy_order E kept /\
    concat (map members (layers s')) = map eid kept /\
    1 <= t <= maxLayerNum opt /\ shared_out E t (Z.of_nat (length kept)) bounds /\ length bounds = Z.to_nat t /\
    cut 0 (ends bounds) (map eid kept) = map members (layers s') ++ repeat [] blanks /\
    (1 <= length (layers s') <= Z.to_nat t)%nat /\
    (forall i l, nth_error (layers s') i = Some l -> (1 <= i)%nat \/ 1 <= nth 0 bounds 0 -> members l <> []).
Proof.
  intros R E opt s s' Hstd HR Hn B H. pose proof (before_good E s Hstd B) as Hg.
  destruct (settle_layers E opt s s' Hstd Hg H) as (kept & t & Et & P & O & Hml).
  pose proof (make_layers_spec E _ _ _ Hml) as (bs & n & Hb & Lt & Ht & Hc & N1 & N2 & Hl). rewrite map_length in Hb.
  destruct (make_layers_nonempty E _ _ _ Hml) as (M1 & M2 & M0). pose proof (bounds_spec E _ _ _ Hb) as (Sh & _).
  exists kept, t, bs, n. split; [exact P|]. split; [exact O|]. split; [apply (make_layers_concat E _ _ _ Hml)|].
  split; [subst t; apply layer_count; auto|]. split; [exact Sh|]. split; [exact Lt|]. split; [exact Hc|].
  rewrite map_length in M2. split.
  - split; [|exact M2]. destruct (layers s'); [cbn in N1; congruence|cbn; lia].
  - intros i l Hi C. assert (Hi' : nth_error (map members (layers s')) i = Some (members l)) by (apply map_nth_error, Hi).
    destruct i as [|i]; [|apply (M1 (S i)); [lia|exact Hi']]. destruct C as [C|C]; [lia|].
    destruct bs as [|c bs]; [cbn in C; lia|]. apply (M0 (c :: bs) c); auto; [rewrite map_length; exact Hb|].
    intros Q. pose proof (kept_nonempty E opt s s' Hstd Hg H) as (_ & K). apply K. apply map_eq_nil in Q. subst kept. apply Permutation_nil in P. exact P.
Qed.
Print Assumptions C34_layers.
Example C34_example : rng_ok replay /\
  exists s, lives (demo std_inst true coord0) (small_opt 20 5 1) (map Z.of_nat (seq 7 24 ++ repeat 250%nat 100)) 9 = Ok s /\
    ((1 <? length (layers s)) && (length (concat (map members (layers s))) =? 20))%nat = true.
Proof. split; [apply replay_ok|]. apply Props_SOGA.by_test. vm_compute. reflexivity. Qed.
(** The shares need not add up: with 904238 electrons and 5 layers they are
    808440.498, 93233.498, 2547.486, 16.492 and 0.025, and one electron is left
    over after the last layer.  The program then indexes past the layers.
    ([exp5] gives the correctly rounded exponentials of the five arguments.) *)
Definition exp5 (x : double) : double :=
  if flt (fofZ (-1) 0) x then fofZ 8768549114252308 (-54)
  else if flt (fofZ (-4) 0) x then fofZ 8089871903434750 (-57)
  else if flt (fofZ (-10) 0) x then fofZ 7073453264755246 (-62)
  else if flt (fofZ (-15) 0) x then fofZ 5861344790682632 (-69)
  else fofZ 4602978936397745 (-78).
Definition crowd : env (constant_rng d0 (fofZ 230 (-8))) := {|
  std := std_inst; greater := false; box := seg; eigen := true; rec_on := false; libm_exp := exp5;
  vsum := plain_sum; below := Nat.ltb; eigen_random := fun g => (d0, g);
  iFun := fun g => ([d0], g); fFun := fun _ => d0; junk := d0 |}.

Lemma crowd_box g : in_box (box crowd) (fst (iFun crowd g)).
Proof. split; [reflexivity|]. intros [|[|i]] x H; cbn in H; try discriminate. injection H as <-. split; vm_compute; reflexivity. Qed.
Theorem C34_overrun_refuted : let opt := small_opt 904238 5 1 in
  std_ok (std crowd) /\ stable_at_front (std crowd) /\ rng_ok (constant_rng d0 (fofZ 230 (-8))) /\ (forall v, nonnan (fFun crowd v)) /\
  forall s0, exists s, aos_initializePop crowd opt s0 = Ok s /\ forall fuel, aos_run crowd opt (S fuel) s = UB.
Proof.
  intros opt. split; [apply std_inst_ok|]. split; [apply isort_stable|].
  split; [apply Props_SOGA.constant_rng_ok; vm_compute; reflexivity|]. split; [reflexivity|]. intros s0.
  destruct (init_safe crowd opt ltac:(cbn; lia) s0 crowd_box) as (s & Hs & (Hg & Hb & Hl & Ha) & _). exists s. split; [exact Hs|].
  intros fuel. cbn [aos_run].
  assert (T : exists bs, layer_bounds crowd 5 904238 = Ok bs /\
    (match bs with [a; b; c; d; e] => (a <=? b) && (b <=? c) && (c <=? d) && (d <=? e) && (last (ends bs) 0 <? 904238) | _ => false end) = true)
    by (apply Props_SOGA.by_test; vm_compute; reflexivity).
  destruct T as (bs & Hbs & T).
  rewrite (settle_overrun crowd opt s 5 bs); [reflexivity|apply std_inst_ok|exact Hg|exact Hb|reflexivity|cbn in *; lia|exact Ha
    |destruct (a_rng s); vm_compute; reflexivity|lia|exact Hbs| |].
  - clear Hbs. clear - T. destruct bs as [|a [|b [|c [|d [|e [|f bs]]]]]]; try discriminate T. repeat (apply andb_prop in T; destruct T as (T & ?)).
    intros [|[|[|[|[|i]]]]] x y Hx Hy; cbn in Hx, Hy; try discriminate; try congruence.
    all: injection Hx as <-; injection Hy as <-; lia.
  - clear Hbs. clear - T. destruct bs as [|a [|b [|c [|d [|e [|f bs]]]]]]; try discriminate T. repeat (apply andb_prop in T; destruct T as (T & ?)). apply Z.ltb_lt. assumption.
Qed.
Print Assumptions C34_overrun_refuted.

(** * C35 *)
(** run() performs rounds until the first one after whose selection generation()
    has reached maxGenerations or the early-stop counter has reached
    maxEarlyStop; nothing else ends it. *)
Theorem C35_run : forall (R : rng_ops) (E : env R) (opt : aos_option),
  (forall s : aos (G R), shouldTerminate opt s = true <-> a_maxGeneration opt <= a_gen s \/ maxEarlyStop opt <= a_stop s) /\
  forall fuel (s s' : aos (G R)),
    aos_run E opt fuel s = Ok s' <->
    exists k s0, (k < fuel)%nat /\ rounds E opt k s s0 /\ settle E opt s0 = Ok s' /\ shouldTerminate opt s' = true.
Proof.
  intros R E opt. split.
  - intros s. unfold shouldTerminate. rewrite orb_true_iff, !Z.leb_le. reflexivity.
  - intros fuel s s'. split.
    + intros H. apply run_rounds in H. destruct H as (k & s0 & A & B & C & D). exists k, s0. auto.
    + intros (k & s0 & A & B & C & D). eapply rounds_run; eauto.
Qed.
Print Assumptions C35_run.
(** Each completed round raises generation() by one; it does not pass maxGenerations. *)
Theorem C35_generation : forall (R : rng_ops) (E : env R) (opt : aos_option) k (s s0 s' : aos (G R)),
  std_ok (std E) -> a_maxGeneration opt < 18446744073709551616 -> before_round E s ->
  rounds E opt k s s0 -> settle E opt s0 = Ok s' ->
  a_gen s' = a_gen s + Z.of_nat k /\ (k = 0%nat \/ a_gen s' <= a_maxGeneration opt).
Proof.
  intros R E opt k s s0 s' Hstd Hm B Hr Hs.
  destruct (rounds_gen E opt k Hstd Hm s s0 (before_good E s Hstd B) Hr (gen_nonneg E s Hstd B)) as (A & C & D).
  rewrite (settle_gen E opt s0 s' Hstd D Hs). auto.
Qed.
Print Assumptions C35_generation.
(** initializePop() resets the counters. *)
Theorem C35_reset : forall (R : rng_ops) (E : env R) (opt : aos_option) (s s' : aos (G R)),
  aos_initializePop E opt s = Ok s' -> a_gen s' = 0 /\ a_stop s' = 0 /\ a_record s' = [].
Proof. intros R E opt s s' H. apply init_good in H. destruct H as (_ & _ & _ & _ & A & B & C & _). auto. Qed.
Print Assumptions C35_reset.
(** The early-stop counter: the number of rounds in a row whose best fitness was
    equal to the one before; before the first round stands the fitness of the
    first electron of the initial population. *)
Lemma stop_from : forall (R : rng_ops) (E : env R) opt0 (s s0 : aos (G R)) first rest,
  std_ok (std E) -> aos_initializePop E opt0 s = Ok s0 -> electrons s0 = first :: rest -> stop_inv E (fFun E (estate first)) s0.
Proof.
  intros R E opt0 s s0 first rest Hstd H Hf. pose proof (init_good E opt0 s s0 H) as (Hg & _ & _ & _ & _ & Hst & Hrec & _ & Hc).
  assert (Ha : atomBest s0 = eid first).
  { unfold aos_initializePop in H. destruct (negb _); [discriminate|]. destruct (init_electrons E _ _ _) as [[|e es] g]; [discriminate|].
    injection H as <-. cbn [electrons atomBest] in *. congruence. }
  assert (I : In first (electrons s0)) by (rewrite Hf; left; reflexivity).
  split; [exact Hg|]. rewrite Hrec, Ha. split; [apply Hg, I|]. split; [exact Hst|].
  intros e He. unfold evaluated in He. rewrite (deref_evaluate E _ _ _ (deref_ok _ _ (proj1 Hg) I)) in He.
  assert (e = evaluate E first) as -> by congruence. unfold evaluate. rewrite (Hc first I). reflexivity.
Qed.
Theorem C35_early_stop : forall (R : rng_ops) (E : env R) opt0 opt k (s s0 s1 s2 : aos (G R)) first rest,
  std_ok (std E) -> rec_on E = true ->
  aos_initializePop E opt0 s = Ok s0 -> electrons s0 = first :: rest ->
  rounds E opt k s0 s1 -> settle E opt s1 = Ok s2 ->
  length (a_record s2) = S k /\
  a_stop s2 = wrap64 (repeats (rev (fFun E (estate first) :: a_record s2))).
Proof.
  intros R E opt0 opt k s s0 s1 s2 first rest Hstd Hr Hi Hf Hk H2.
  pose proof (stop_from R E opt0 s s0 first rest Hstd Hi Hf) as S0.
  assert (L0 : length (a_record s0) = 0%nat) by (rewrite (proj2 (proj2 (C35_reset _ _ _ _ _ Hi))); reflexivity).
  assert (X : forall k s0 s1, rounds E opt k s0 s1 -> stop_inv E (fFun E (estate first)) s0 ->
     stop_inv E (fFun E (estate first)) s1 /\ length (a_record s1) = (k + length (a_record s0))%nat).
  { clear - Hstd Hr. induction 1 as [s|k s s1 s2 s' H1 T H2 Hk IH]; intros Hs; [auto|].
    pose proof (stop_settle E _ _ _ _ Hstd Hr Hs H1) as S1.
    destruct IH as (A & B).
    - eapply stop_excite; [|exact S1|exact H2]. intros e He. apply (settle_computed E opt s s1 Hstd (proj1 Hs) H1 e He).
    - split; [exact A|]. apply excite_spec in H2. destruct H2 as (ls & new & _ & _ & _ & _ & _ & _ & _ & _ & _ & _ & _ & Hrec).
      destruct (settle_best E opt s s1 Hstd (proj1 Hs) H1) as (? & ? & ? & _ & _ & _ & _ & _ & _ & Hrec1 & _).
      rewrite Hr in Hrec1. rewrite B, Hrec, Hrec1, app_length. cbn. lia. }
  destruct (X k s0 s1 Hk S0) as (S1 & L1).
  destruct (settle_best E opt s1 s2 Hstd (proj1 S1) H2) as (? & ? & ? & _ & _ & _ & _ & _ & _ & Hrec & _). rewrite Hr in Hrec.
  split; [rewrite Hrec, app_length; cbn; lia|]. apply (stop_settle E _ _ _ _ Hstd Hr S1 H2).
Qed.
Print Assumptions C35_early_stop.
(** The same without a record: the best electron of the round is compared with
    the one before. *)
Theorem C35_early_stop_step : forall (R : rng_ops) (E : env R) (opt : aos_option) (s s' : aos (G R)),
  std_ok (std E) -> before_round E s -> settle E opt s = Ok s' ->
  exists previous best, deref (evaluated E s) (atomBest s) = Ok previous /\
    deref (evaluated E s) (atomBest s') = Ok best /\
    a_stop s' = (if feq (energy previous) (energy best) then wrap64 (a_stop s + 1) else 0).
Proof.
  intros R E opt s s' Hstd B H. pose proof (before_good E s Hstd B) as Hg.
  destruct (settle_best E opt s s' Hstd Hg H) as (best & pre & post & Hes & Ha & _ & _ & _ & _ & _ & (prev & Hp & Hst)).
  exists prev, best. split; [exact Hp|]. split; [|exact Hst]. rewrite Ha. apply deref_ok.
  - unfold evaluated. rewrite map_evaluate_id. apply Hg.
  - rewrite Hes. apply in_or_app. right. left. reflexivity.
Qed.
Print Assumptions C35_early_stop_step.
(** A second run() with the same options makes one round: nothing but the
    early-stop counter (and the random layers) changes. *)
Theorem C35_second_run : forall (R : rng_ops) (E : env R) (opt : aos_option) fuel fuel' (s s1 s2 : aos (G R)),
  std_ok (std E) -> before_round E s -> aos_run E opt fuel s = Ok s1 ->
  0 <= a_stop s1 < 18446744073709551615 -> aos_run E opt fuel' s1 = Ok s2 ->
  electrons s2 = electrons s1 /\ a_gen s2 = a_gen s1 /\ a_stop s2 = a_stop s1 + 1 /\ settle E opt s1 = Ok s2.
Proof.
  intros R E opt fuel fuel' s s1 s2 Hstd B H1 Hst H2. destruct (run_last E _ _ _ _ B H1) as (_ & s0 & B0 & Hs & T).
  apply (rerun E opt s0 s1 Hstd (before_good E s0 Hstd B0) Hs T Hst fuel' s2 H2).
Qed.
Print Assumptions C35_second_run.
Example C35_example : exists s, lives (demo std_inst false (fun _ => d1)) (small_opt 3 2 9) [200; 150; 100; 50] 30 = Ok s /\
    ((a_gen s =? 9) && (a_stop s =? 10) && (repeats (rev (d1 :: a_record s)) =? 10) &&
     match aos_run (demo std_inst false (fun _ => d1)) (small_opt 3 2 9) 30 s with Ok s2 => (a_gen s2 =? 9) && (a_stop s2 =? 11) | _ => false end) = true.
Proof. apply Props_SOGA.by_test. vm_compute. reflexivity. Qed.

(** * C36 *)
Theorem C36_in_box : forall (R : rng_ops) (E : env R) (s : aos (G R)),
  std_ok (std E) -> rng_ok R -> moderate E -> eigen_draws E -> (forall g, in_box (box E) (fst (iFun E g))) ->
  before_round E s ->
  (forall e, In e (electrons s) -> in_box (box E) (estate e)) /\
  (forall opt s', settle E opt s = Ok s' -> forall e, In e (electrons s') -> in_box (box E) (estate e)).
Proof.
  intros R E s Hstd HR HM HD Hi B. pose proof (before_box E HM HR HD s Hstd Hi B) as Hb. split; [exact Hb|].
  intros opt s' H. apply (settle_box E HM opt s s' Hstd (before_good E s Hstd B) H Hb).
Qed.
Print Assumptions C36_in_box.
Lemma demo_moderate o eig f : moderate (demo o eig f).
Proof.
  split; [cbn; lia|]. intros i Hi. cbn [demo box seg square_dbox minD maxD deltaD].
  assert (H1 : (1 <= bpow radix2 800)%R) by (change 1%R with (bpow radix2 0); apply bpow_le; lia).
  pose proof d0_val as V0. pose proof d1_val as V1.
  assert (Vq : B2R (fofZ (prec := 53) (emax := 1024) 1 (-2)) = (1/4)%R).
  { destruct (@fofZ_exact 53 1024 _ _ 1 (-2)) as (_ & V); [easy|easy|easy|]. rewrite V. cbn. lra. }
  rewrite V0, V1, Vq, Rabs_R0, Rabs_R1, (Rabs_pos_eq (1/4)) by lra.
  split; [reflexivity|]. split; [lra|]. split; [reflexivity|]. split; [lra|]. split; [vm_compute; reflexivity|]. split; [reflexivity|lra].
Qed.
Lemma demo_draws o eig f : eigen_draws (demo o eig f).
Proof. intros g. split; [reflexivity|]. cbn. lra. Qed.
Lemma demo_iFun o eig f g : in_box (box (demo o eig f)) (fst (iFun (demo o eig f) g)).
Proof.
  apply (C39_initialize_continuous replay seg g replay_ok); [cbn; lia|]. intros i _. cbn [seg square_dbox minD maxD].
  split; [reflexivity|]. split; [reflexivity|]. split; vm_compute; reflexivity.
Qed.
Example C36_example : moderate (demo std_inst false coord0) /\ eigen_draws (demo std_inst false coord0) /\
  (forall g, in_box (box (demo std_inst false coord0)) (fst (iFun (demo std_inst false coord0) g))) /\
  exists s, lives (demo std_inst false coord0) (small_opt 3 2 4) [200; 150; 100; 50] 9 = Ok s /\ (length (electrons s) =? 3)%nat = true.
Proof.
  split; [apply demo_moderate|]. split; [apply demo_draws|]. split; [apply demo_iFun|].
  apply Props_SOGA.by_test. vm_compute. reflexivity.
Qed.
(** A box with larger bounds does not suffice: the mean of two states overflows,
    and 0 * infinity is NaN, which no constraint removes. *)
Definition dmaxv : double := fofZ 9007199254740991 971.
Definition huge : env (constant_rng d0 f0) := {|
  std := std_inst; greater := false; box := square_dbox 1 (fopp dmaxv) dmaxv d1; eigen := true; rec_on := false;
  libm_exp := fun _ => d1; vsum := plain_sum; below := Nat.ltb; eigen_random := fun g => (d0, g);
  iFun := fun g => ([dmaxv], g); fFun := fun v => if is_nan (coord0 v) then fopp d1 else d0; junk := d0 |}.
Theorem C36_nan_refuted : 
  (forall g, in_box (box huge) (fst (iFun huge g))) /\ fin (minD (box huge) 0) /\ fin (maxD (box huge) 0) /\
  exists s e, (do s0 <- aos_initializePop huge (mkAOpt 2 1 9 1 d0) (blank tt); aos_run huge (mkAOpt 2 1 9 1 d0) 5 s0) = Ok s /\
    bestElectron s = Ok e /\ is_nan (coord0 (estate e)) = true /\ ~ in_box (box huge) (estate e).
Proof.
  split.
  { intros g. split; [reflexivity|]. intros [|[|i]] x H; cbn [huge iFun fst nth_error] in H; [injection H as <-|discriminate H|destruct i; discriminate H]. split; vm_compute; reflexivity. }
  split; [reflexivity|]. split; [reflexivity|].
  assert (T : exists s, (do s0 <- aos_initializePop huge (mkAOpt 2 1 9 1 d0) (blank tt); aos_run huge (mkAOpt 2 1 9 1 d0) 5 s0) = Ok s /\
    match bestElectron s with Ok e => is_nan (coord0 (estate e)) | _ => false end = true) by (apply Props_SOGA.by_test; vm_compute; reflexivity).
  destruct T as (s & Hs & T). destruct (bestElectron s) as [e| | |] eqn:Be; try discriminate T. exists s, e. split; [exact Hs|]. split; [exact Be|]. split; [exact T|].
  intros (L & H). unfold coord0 in T. destruct (estate e) as [|x v]; [discriminate T|]. cbn in T.
  destruct (H 0%nat x eq_refl) as (C & _). destruct x; try discriminate T. vm_compute in C. discriminate C.
Qed.
Print Assumptions C36_nan_refuted.

(** * C37 *)
(** AOS for std containers: the bestElectron of every layer is one of its members
    that none of them beats. *)
Theorem C37_layer_best : forall (R : rng_ops) (E : env R) (opt : aos_option) (s s1 s2 : aos (G R)),
  std_ok (std E) -> eigen E = false -> before_round E s -> settle E opt s = Ok s1 -> excite E opt s1 = Ok s2 ->
  map members (layers s2) = map members (layers s1) /\
  forall l, In l (layers s2) -> exists ms e,
    Forall2 (fun p x => deref (electrons s2) p = Ok x) (members l) ms /\
    nth_error ms (l_best l) = Some e /\ forall x, In x ms -> e_better E (energy x) (energy e) = false.
Proof.
  intros R E opt s s1 s2 Hstd He B H1 H2. pose proof (before_good E s Hstd B) as Hg.
  destruct (settle_best E opt s s1 Hstd Hg H1) as (_ & _ & _ & _ & _ & _ & _ & _ & NN & _).
  apply excite_spec in H2. destruct H2 as (ls & new & Hm & Hl & Hel & _). rewrite Hl, Hel. split; [apply (layers_members E _ _ _ Hm)|].
  intros l Hin. apply mapM_ok in Hm. destruct (Forall2_in_r _ _ _ Hm l Hin) as (l0 & _ & Hc).
  destruct (layer_best_spec E _ _ _ He (fun e I => NN e (proj2 (settle_computed E opt s s1 Hstd Hg H1 e I))) Hc) as (ms & e & F & N & Q).
  exists ms, e. split; [|auto]. clear -F. induction F; constructor; auto. apply deref_app. assumption.
Qed.
Print Assumptions C37_layer_best.
(** AOS for Eigen arrays compares the addresses of the electrons instead. *)
Definition bad_layer {R} (E : env R) (es : list electron) (l : layer) : bool :=
  match nth_error (members l) (l_best l) with
  | Some p => match deref es p with
              | Ok e => existsb (fun q => match deref es q with Ok x => e_better E (energy x) (energy e) | _ => false end) (members l)
              | _ => false
              end
  | None => false
  end.
Theorem C37_eigen_refuted : exists (s s1 s2 : aos (list Z)), let E := demo std_inst true coord0 in let opt := small_opt 2 1 1 in
  eigen E = true /\ aos_initializePop E opt (blank [5; 3]) = Ok s /\ settle E opt s = Ok s1 /\ excite E opt s1 = Ok s2 /\
  exists l p e q x, In l (layers s2) /\ nth_error (members l) (l_best l) = Some p /\ deref (electrons s2) p = Ok e /\
    In q (members l) /\ deref (electrons s2) q = Ok x /\ e_better E (energy x) (energy e) = true.
Proof.
  pose (E := demo std_inst true coord0). pose (opt := small_opt 2 1 1).
  assert (T : exists s, aos_initializePop E opt (blank [5; 3]) = Ok s /\
    match settle E opt s with Ok s1 => match excite E opt s1 with Ok s2 => existsb (bad_layer E (electrons s2)) (layers s2) | _ => false end | _ => false end = true)
    by (apply Props_SOGA.by_test; vm_compute; reflexivity).
  destruct T as (s & Hs & T). destruct (settle E opt s) as [s1| | |] eqn:H1; try discriminate T.
  destruct (excite E opt s1) as [s2| | |] eqn:H2; try discriminate T. exists s, s1, s2. cbv zeta. fold E opt. split; [reflexivity|].
  split; [exact Hs|]. split; [exact H1|]. split; [exact H2|]. apply existsb_exists in T. destruct T as (l & Hl & T). unfold bad_layer in T.
  destruct (nth_error (members l) (l_best l)) as [p|] eqn:Np; [|discriminate T]. destruct (deref (electrons s2) p) as [e| | |] eqn:De; try discriminate T.
  apply existsb_exists in T. destruct T as (q & Hq & T). destruct (deref (electrons s2) q) as [x| | |] eqn:Dx; try discriminate T.
  exists l, p, e, q, x. auto 10.
Qed.
Print Assumptions C37_eigen_refuted.
Example C37_example : exists s, lives (demo std_inst false coord0) (small_opt 6 2 3) [200; 150; 100; 50; 20; 250; 30; 250; 30; 250; 250] 9 = Ok s /\
  (length (layers s) =? 1)%nat = true.
Proof. apply Props_SOGA.by_test. vm_compute. reflexivity. Qed.

(** * C69 *)
(** The state and the energy of the atom are the means over all electrons of the
    round, coordinate by coordinate. *)
Theorem C69_atom_means : forall (R : rng_ops) (E : env R) (opt : aos_option) (s s' : aos (G R)),
  std_ok (std E) -> before_round E s -> settle E opt s = Ok s' ->
  let all := evaluated E s in
  (forall e, In e all -> energy e = fFun E (estate e)) /\
  b_energy s' = mean_from d0 (map energy all) (length all) /\
  (forall e, In e all -> length (b_state s') = length (estate e)) /\
  forall i, (i < length (b_state s'))%nat -> nth i (b_state s') d0 = mean_from d0 (map (coordinate i) all) (length all).
Proof.
  intros R E opt s s' Hstd B H all. pose proof (before_good E s Hstd B) as Hg.
  destruct (settle_full E opt s s' Hstd Hg H) as (first & rest & st & prev & best & sorted & t & ls & X). cbv zeta in X.
  fold (evaluated E s) in X. fold all in X. destruct X as (Hes & _ & _ & Hss & _ & _ & V & _ & _ & _ & _ & _ & _ & _ & _ & Hbs & Hbe & _).
  pose proof (sum_states_Ok E _ _ _ Hss) as (L1 & L2). split; [exact V|]. split; [rewrite Hbe; unfold mean_from, sum_energy; rewrite sum_energy_from; reflexivity|].
  rewrite Hbs. split; [intros e He; rewrite map_length, L1, (L2 e He); reflexivity|].
  intros i Hi. rewrite map_length in Hi. rewrite nth_indep with (d' := fdiv d0 (d_of_Z (Z.of_nat (length all)))) by (rewrite map_length; exact Hi).
  rewrite (map_nth (fun x => fdiv x (d_of_Z (Z.of_nat (length all))))). unfold mean_from.
  rewrite (sum_states_nth E _ _ _ i Hss) by (rewrite <- L1; exact Hi). f_equal. f_equal.
  change d0 with ((fun _ : double => d0) d0) at 2. rewrite map_nth. reflexivity.
Qed.
Print Assumptions C69_atom_means.
(** The state of a layer is the mean over its electrons; so is the energy for
    Eigen arrays. *)
Theorem C69_layer_means : forall (R : rng_ops) (E : env R) (opt : aos_option) (s s1 s2 : aos (G R)) l,
  std_ok (std E) -> before_round E s -> settle E opt s = Ok s1 -> excite E opt s1 = Ok s2 -> In l (layers s2) ->
  exists e t, Forall2 (fun p x => deref (electrons s2) p = Ok x) (members l) (e :: t) /\
    (length (l_state l) = length (estate e) /\
     forall i, (i < length (estate e))%nat -> nth i (l_state l) d0 = mean_from (coordinate i e) (map (coordinate i) t) (length (e :: t))) /\
    l_energy l = (if eigen E then mean_from (energy e) (map energy t) (length (e :: t))
                  else fdiv (energy e) (d_of_Z (Z.of_nat (length (e :: t))))).
Proof.
  intros R E opt s s1 s2 l Hstd B H1 H2 Hin. apply excite_spec in H2. destruct H2 as (ls & new & Hm & Hl & Hel & _). rewrite Hl in Hin. rewrite Hel.
  apply mapM_ok in Hm. destruct (Forall2_in_r _ _ _ Hm l Hin) as (l0 & _ & Hc). apply computeLayer_spec in Hc.
  destruct Hc as (e & t & st & F & Hss & -> & -> & -> & _). exists e, t. split; [clear -F; induction F; constructor; auto; apply deref_app; assumption|].
  pose proof (sum_states_Ok E _ _ _ Hss) as (L1 & _). split.
  - split; [rewrite map_length; exact L1|]. intros i Hi.
    rewrite nth_indep with (d' := fdiv d0 (d_of_Z (Z.of_nat (length (e :: t))))) by (rewrite map_length, L1; exact Hi).
    rewrite (map_nth (fun x => fdiv x (d_of_Z (Z.of_nat (length (e :: t)))))). unfold mean_from. f_equal. apply (sum_states_nth E _ _ _ i Hss Hi).
  - unfold layer_energy. destruct (eigen E); [|reflexivity]. unfold mean_from. rewrite sum_energy_from. reflexivity.
Qed.
Print Assumptions C69_layer_means.
(** For std containers the energy of a layer is that of its first electron
    divided by the number of electrons: here 1.5/256 for the energies 3/256 and
    5/256. *)
Definition energies_of (es : list electron) (l : layer) : list double := match mapM (deref es) (members l) with Ok ms => map energy ms | _ => [] end.
Theorem C69_std_layer_energy_refuted : exists (s s1 s2 : aos (list Z)) l, let E := demo std_inst false coord0 in let opt := small_opt 2 1 1 in
  eigen E = false /\ aos_initializePop E opt (blank [5; 3]) = Ok s /\ settle E opt s = Ok s1 /\ excite E opt s1 = Ok s2 /\
  In l (layers s2) /\ (exists e1 e2, energies_of (electrons s2) l = [e1; e2] /\ feq e1 (fofZ 3 (-8)) = true /\ feq e2 (fofZ 5 (-8)) = true) /\
  feq (l_energy l) (fofZ 3 (-9)) = true.
Proof.
  pose (E := demo std_inst false coord0). pose (opt := small_opt 2 1 1).
  assert (T : exists s, aos_initializePop E opt (blank [5; 3]) = Ok s /\
    match settle E opt s with Ok s1 => match excite E opt s1 with Ok s2 =>
      match layers s2 with [l] => match energies_of (electrons s2) l with [e1; e2] => feq e1 (fofZ 3 (-8)) && feq e2 (fofZ 5 (-8)) && feq (l_energy l) (fofZ 3 (-9)) | _ => false end | _ => false end
    | _ => false end | _ => false end = true)
    by (apply Props_SOGA.by_test; vm_compute; reflexivity).
  destruct T as (s & Hs & T). destruct (settle E opt s) as [s1| | |] eqn:H1; try discriminate T.
  destruct (excite E opt s1) as [s2| | |] eqn:H2; try discriminate T. destruct (layers s2) as [|l [|]] eqn:Hl; try discriminate T.
  destruct (energies_of (electrons s2) l) as [|e1 [|e2 [|]]] eqn:He; try discriminate T. apply andb_prop in T. destruct T as (T & T3). apply andb_prop in T. destruct T as (T1 & T2).
  exists s, s1, s2, l. cbv zeta. fold E opt. split; [reflexivity|]. split; [exact Hs|]. split; [exact H1|]. split; [exact H2|]. split; [exact (eq_ind_r (fun q => In l q) (in_eq l []) Hl)|].
  split; [exists e1, e2; auto|exact T3].
Qed.
Print Assumptions C69_std_layer_energy_refuted.

(** * C70 *)
(** initializePop() and any number of run() calls after it work: no read of an
    erased electron, no index out of range, no failed assertion, and at most
    maxGenerations + 1 rounds. *)
Theorem C70_no_failure : forall (R : rng_ops) (E : env R) (opt : aos_option) (s : aos (G R)),
  std_ok (std E) -> stable_at_front (std E) -> rng_ok R -> moderate E -> eigen_draws E ->
  (forall g, in_box (box E) (fst (iFun E g))) -> (forall v, in_box (box E) v -> nonnan (fFun E v)) ->
  1 <= maxLayerNum opt <= electronNum opt -> maxLayerNum opt < 2147483647 -> a_maxGeneration opt < 18446744073709551616 ->
  (forall t, 1 <= t <= maxLayerNum opt -> fits E t (electronNum opt)) ->
  forall fuel, (Z.to_nat (a_maxGeneration opt) < fuel)%nat ->
  exists s0 s1, aos_initializePop E opt s = Ok s0 /\ aos_run E opt fuel s0 = Ok s1 /\ alive s1 /\
    exists s2, aos_run E opt fuel s1 = Ok s2 /\ alive s2.
Proof.
  intros R E opt s Hstd Hst HR HM HD Hi HF Hn Hn32 Hmax Hfit fuel Hfu.
  assert (Hlf : forall t, 1 <= t <= maxLayerNum opt -> layers_fit E t (electronNum opt)) by (intros t Ht; apply fits_layers, Hfit, Ht).
  destruct (init_safe E opt Hn s Hi) as (s0 & H0 & S0 & G0).
  destruct (run_total E opt Hstd Hst HR HM HD HF Hn Hn32 Hlf Hmax fuel s0 S0) as (s1 & H1); [lia|lia|].
  pose proof (run_safe E opt Hstd Hst HR HM HD Hn fuel s0 s1 S0 H1) as S1.
  destruct (run_total E opt Hstd Hst HR HM HD HF Hn Hn32 Hlf Hmax fuel s1 S1) as (s2 & H2).
  { destruct (run_last E opt fuel s0 s1 (br_init E opt s s0 H0) H1) as (B & _). apply (gen_nonneg E s1 Hstd B). }
  { destruct (run_last E opt fuel s0 s1 (br_init E opt s s0 H0) H1) as (B & _). pose proof (gen_nonneg E s1 Hstd B). lia. }
  exists s0, s1. split; [exact H0|]. split; [exact H1|]. split; [apply S1|]. exists s2. split; [exact H2|].
  apply (run_safe E opt Hstd Hst HR HM HD Hn fuel s1 s2 S1 H2).
Qed.
Print Assumptions C70_no_failure.

(** Decidable form of [fits], for the examples. *)
Definition fits_test {R} (E : env R) (t n : Z) : bool :=
  match mapM round_int (shares E t n) with
  | Ok counts => forallb (Z.leb 0) counts && forallb (fun i => total_upto i counts <? 2147483648) (seq 0 (S (length counts))) &&
      (1 <=? nth 0 counts 0) && (1 <=? n) && (n <=? last (ends (map (fun i => Z.min n (total_upto i counts)) (seq 0 (length counts)))) 0)
  | _ => false
  end.
Lemma fits_test_ok {R} (E : env R) t n : fits_test E t n = true -> AOSSpec.fits E t n.
Proof.
  unfold fits_test. destruct (mapM round_int (shares E t n)) as [counts| | |] eqn:M; try discriminate. intros H.
  repeat (apply andb_prop in H; destruct H as (H & ?)). exists counts. split; [apply mapM_ok, M|].
  rewrite forallb_forall in *. split; [intros k Hk; apply Z.leb_le; auto|]. split.
  - intros i. destruct (le_lt_dec i (length counts)) as [L|L].
    + apply Z.ltb_lt. match goal with Q : forall x, In x (seq _ _) -> _ |- _ => apply Q end. apply in_seq. lia.
    + replace (total_upto i counts) with (total_upto (length counts) counts).
      * apply Z.ltb_lt. match goal with Q : forall x, In x (seq _ _) -> _ |- _ => apply Q end. apply in_seq. lia.
      * unfold total_upto. rewrite !firstn_all2 by lia. reflexivity.
  - repeat split; apply Z.leb_le; assumption.
Qed.
(** The default options (50 electrons, 5 layers) qualify. *)
Example C70_example : let E := demo std_inst false coord0 in
  std_ok (std E) /\ stable_at_front (std E) /\ rng_ok replay /\ moderate E /\ eigen_draws E /\
  (forall g, in_box (box E) (fst (iFun E g))) /\ (forall v, in_box (box E) v -> nonnan (fFun E v)) /\
  1 <= maxLayerNum default_aos_option <= electronNum default_aos_option /\
  forall t, 1 <= t <= maxLayerNum default_aos_option -> AOSSpec.fits E t (electronNum default_aos_option).
Proof.
  intros E. split; [apply std_inst_ok|]. split; [apply isort_stable|]. split; [apply replay_ok|]. split; [apply demo_moderate|].
  split; [apply demo_draws|]. split; [apply demo_iFun|]. split.
  - intros v (L & H). cbn [demo E fFun]. unfold coord0. destruct v as [|x v]; [reflexivity|]. cbn [nth].
    destruct (H 0%nat x eq_refl) as (A & _). unfold nonnan. destruct x; try reflexivity. cbn in A. discriminate.
  - split; [cbn; lia|]. intros t Ht. cbn in Ht.
    assert (C : t = 1 \/ t = 2 \/ t = 3 \/ t = 4 \/ t = 5) by lia.
    destruct C as [->|[->|[->|[->| ->]]]]; apply fits_test_ok; vm_compute; reflexivity.
Qed.
