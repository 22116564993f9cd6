(** C29-C32, C67: particle swarm optimisation. *)
From Coq Require Import List Arith ZArith Bool Lia Reals Lra.
From Flocq Require Import Core BinarySingleNaN.
From Verif Require Import Base Fl FlFacts Rng GlobalProofs Box BoxProofs PSO PSOSpec PSOProofs PSOProofs2 PSOProofs3 Props_Box.
Import ListNotations.
Open Scope Z_scope.

(** * C29 *)
(** Whatever the fitness function, the factors (even infinite or NaN) and the
    random stream: from initializePop() on, every position is in the box, and so
    are the best points; a velocity coordinate is in range or NaN. *)
Theorem C29_positions_in_box :
  forall (R : rng_ops) (greater : bool) (opt : pso_option) (b : vbox) (fFun : list double -> double)
         (h : list (list (list double))) (s : swarm (G R)),
    rng_ok R -> vproper b ->
    history R greater opt b (defaultInitialize R b) fFun h s ->
    pos_in b (position (gBest s)) /\
    forall x, In x (particles s) ->
      pos_in b (position (here x)) /\ pos_in b (position (pBest x)) /\ vel_in_or_nan b (velocity x).
Proof.
  intros R greater opt b fFun h s HR Hb H.
  destruct (hist_inb R greater opt b (defaultInitialize R b) fFun Hb) with (h := h) (s := s) as (A & B); [|exact H|].
  { intros g. destruct (default_ok R b g HR Hb) as (P & V & _). split; [exact P|apply V]. }
  split; [exact B|]. intros x Hx. rewrite Forall_forall in A. destruct (A x Hx) as (A1 & A2 & _).
  split; [exact A1|]. split; [exact A2|].
  assert (V : Forall (fun x => vel_in_or_nan b (velocity x)) (particles s)); [|rewrite Forall_forall in V; exact (V x Hx)].
  apply (hist_vel R greater opt b (defaultInitialize R b) fFun Hb) with (h := h); [| |exact H].
  - intros g. destruct (default_ok R b g HR Hb) as (P & V' & _). split; [exact P|apply V'].
  - intros g. destruct (default_ok R b g HR Hb) as (_ & (L & V') & _). split; [exact L|]. intros i y E. right. apply (V' i y E).
Qed.
Print Assumptions C29_positions_in_box.

(** The same for a user-supplied initialisation function that respects the box;
    when the factors and the bounds are at most 2^400 the velocities are always
    in range. *)
Theorem C29_velocity_in_range :
  forall (R : rng_ops) (greater : bool) (opt : pso_option) (b : vbox)
         (iFun : G R -> (list double * list double) * G R) (fFun : list double -> double)
         (h : list (list (list double))) (s : swarm (G R)),
    rng_ok R -> vproper b -> moderate opt b ->
    (forall g, pos_in b (fst (fst (iFun g))) /\ vel_in b (snd (fst (iFun g)))) ->
    history R greater opt b iFun fFun h s ->
    forall x, In x (particles s) -> pos_in b (position (here x)) /\ vel_in b (velocity x).
Proof.
  intros R greater opt b iFun fFun h s HR Hb (O1 & O2 & O3 & Ob) Hi H x Hx.
  destruct (hist_inb R greater opt b iFun fFun Hb (Hi' R b iFun Hi) h s H) as (A & _).
  pose proof (hist_vel_small R greater opt b iFun fFun HR Hb (conj O1 (conj O2 O3)) Ob Hi h s H) as V.
  rewrite Forall_forall in A, V. split; [apply (A x Hx)|apply (V x Hx)].
Qed.
Print Assumptions C29_velocity_in_range.
(** The default initialisation respects the box and starts at rest. *)
Theorem C29_default_initialize : forall (R : rng_ops) (b : vbox) (g : G R),
  rng_ok R -> vproper b ->
  let '(p, v) := fst (defaultInitialize R b g) in
  pos_in b p /\ vel_in b v /\ Forall (fun x => x = d0) v.
Proof.
  intros R b g HR Hb. pose proof (default_ok R b g HR Hb) as (A & B & C).
  destruct (defaultInitialize R b g) as [[p v] g']. cbn [fst snd] in *. split; [exact A|]. split; [exact B|].
  subst v. apply Forall_forall. intros x Hx. apply repeat_spec in Hx. exact Hx.
Qed.
Print Assumptions C29_default_initialize.

(** Without the magnitude condition the velocity can become NaN -- inf - inf --
    in a box with finite bounds and finite factors. *)
Definition huge : double := fofZ 1 1022.
Definition huge_box : vbox := square_vbox 1 (fopp huge) huge huge.
Definition huge_opt : pso_option := mkPOpt 2 10 0 (d_of_Z 8) (d_of_Z 32) (d_of_Z 32).
Definition huge_fit (p : list double) : double := Babs (fsub (hd d0 p) (fofZ 1 1020)).
Definition huge_draws : list Z := [128; 160] ++ repeat 128 8.
Theorem C29_velocity_nan_refuted :
  rng_ok replay /\ vproper huge_box /\ fin (inertiaFactor huge_opt) /\ fin (learnFactorP huge_opt) /\ fin (learnFactorG huge_opt) /\
  exists h s x, history replay false huge_opt huge_box (defaultInitialize replay huge_box) huge_fit h s /\
    In x (particles s) /\ exists v, nth_error (velocity x) 0 = Some v /\ is_nan v = true.
Proof.
  split; [exact replay_ok|].
  split. { split; [cbn; lia|]. intros i _. split; [vm_compute; reflexivity|]. split; [vm_compute; reflexivity|]. split; [vm_compute; reflexivity|].
           split; vm_compute; reflexivity. }
  split; [vm_compute; reflexivity|]. split; [vm_compute; reflexivity|]. split; [vm_compute; reflexivity|].
  assert (C : match initializeSwarm replay huge_opt (defaultInitialize replay huge_box) huge_fit huge_draws with
    | Ok s => match updatePGBest replay false (computeAll replay huge_fit s) with
      | Ok s1 => match updatePopulation replay huge_opt huge_box s1 with
        | Ok s2 => match updatePopulation replay huge_opt huge_box s2 with
          | Ok s3 => match particles s3 with
            | x :: _ => match nth_error (velocity x) 0 with Some v => is_nan v | None => false end
            | [] => false end
          | _ => false end | _ => false end | _ => false end | _ => false end = true) by (vm_compute; reflexivity).
  destruct (initializeSwarm _ _ _ _ _) as [s| | |] eqn:H0; try discriminate C.
  destruct (updatePGBest _ _ _) as [s1| | |] eqn:H1; try discriminate C.
  destruct (updatePopulation _ _ _ s1) as [s2| | |] eqn:H2; try discriminate C.
  destruct (updatePopulation _ _ _ s2) as [s3| | |] eqn:H3; try discriminate C.
  destruct (particles s3) as [|x t] eqn:E; [discriminate C|].
  destruct (nth_error (velocity x) 0) as [v|] eqn:Ev; [|discriminate C].
  exists [positions replay s; positions replay s], s3, x.
  split. { eapply h_move; [|exact H3]. eapply h_move; [|exact H2]. eapply h_round; [|exact H1]. eapply h_init. exact H0. }
  split; [rewrite E; left; reflexivity|]. eauto.
Qed.
Print Assumptions C29_velocity_nan_refuted.
(** ... and then it stays NaN and pins that coordinate to the upper bound. *)
Theorem C29_nan_velocity_sticks :
  forall (opt : pso_option) (b : vbox) (gb : point) (lFP lFG : double) (x y : particle) (i : nat) (v : double),
    move_particle opt b gb lFP lFG x = Ok y -> flt (v_lo b i) (v_hi b i) = true ->
    nth_error (velocity x) i = Some v -> is_nan v = true ->
    (exists v', nth_error (velocity y) i = Some v' /\ is_nan v' = true) /\
    nth_error (position (here y)) i = Some (v_hi b i).
Proof.
  intros opt b gb lp lg x y i v H Hlh Ev Nv.
  pose proof (move_inv _ _ _ _ _ _ _ H) as (L1 & L2 & L3 & _ & _ & _ & _ & Q).
  destruct (nth_len _ (position (pBest x)) i v (eq_sym L1) Ev) as (pb & Epb).
  destruct (nth_len _ (position gb) i v (eq_sym L2) Ev) as (g & Eg).
  destruct (nth_len _ (position (here x)) i v (eq_sym L3) Ev) as (p & Ep).
  destruct (Q i v pb g p Ev Epb Eg Ep) as (A & B). cbv zeta in *.
  destruct v as [| | |]; try discriminate.
  assert (AN : forall z : double, fadd B754_nan z = B754_nan) by (intros [| | |]; reflexivity).
  assert (AN' : forall z : double, fadd z B754_nan = B754_nan) by (intros [| | |]; reflexivity).
  assert (E : vel_coef (inertiaFactor opt) (fmul (learnFactorP opt) lp) (fmul (learnFactorG opt) lg) B754_nan pb g p = B754_nan).
  { unfold vel_coef. assert (fmul (inertiaFactor opt) B754_nan = B754_nan) as -> by (destruct (inertiaFactor opt); reflexivity).
    rewrite !AN. reflexivity. }
  rewrite E in A, B.
  assert (CV : clampVel (v_max b i) B754_nan = B754_nan) by (apply BoxProofs.clampD_nan; reflexivity).
  rewrite CV in A, B. split; [eauto|]. rewrite B. f_equal. apply clampPos_nan; [exact Hlh|]. rewrite AN'. reflexivity.
Qed.
Print Assumptions C29_nan_velocity_sticks.

(** * C30 *)
(** As long as no evaluated fitness is NaN: every particle's pBest is one of the
    points that particle was evaluated at since initializePop(), and none of
    those is better. *)
Theorem C30_pBest :
  forall (R : rng_ops) (greater : bool) (opt : pso_option) (b : vbox)
         (iFun : G R -> (list double * list double) * G R) (fFun : list double -> double)
         (h : list (list (list double))) (s : swarm (G R)),
    history R greater opt b iFun fFun h s ->
    (forall row q, In row h -> In q row -> nonnan (fFun q)) ->
    forall i x, nth_error (particles s) i = Some x ->
      fitness (pBest x) = fFun (position (pBest x)) /\
      (exists row, In row h /\ nth_error row i = Some (position (pBest x))) /\
      (forall row q, In row h -> nth_error row i = Some q -> better greater (fFun q) (fitness (pBest x)) = false).
Proof.
  intros R greater opt b iFun fFun h s H N i x Ex.
  destruct (history_inv R greater opt b iFun fFun h s H N) as (I & _). destruct (I i x Ex) as (A & B & C).
  split; [exact A|]. split; [exact B|]. intros row q Hr Hq.
  apply better_false; [apply (N row q Hr (nth_error_In _ _ Hq))| |apply C; exists row; auto].
  rewrite A. destruct B as (row' & Hr' & Hq'). apply (N row' _ Hr' (nth_error_In _ _ Hq')).
Qed.
Print Assumptions C30_pBest.
(** ... and once a round has been done, gBest is one of the points evaluated by
    the swarm, and no point evaluated by any particle is better. *)
Theorem C30_gBest :
  forall (R : rng_ops) (greater : bool) (opt : pso_option) (b : vbox)
         (iFun : G R -> (list double * list double) * G R) (fFun : list double -> double)
         (h : list (list (list double))) (s : swarm (G R)),
    history R greater opt b iFun fFun h s -> (2 <= length h)%nat ->
    (forall row q, In row h -> In q row -> nonnan (fFun q)) ->
    fitness (gBest s) = fFun (position (gBest s)) /\
    (exists row, In row h /\ In (position (gBest s)) row) /\
    (forall row q, In row h -> In q row -> better greater (fFun q) (fitness (gBest s)) = false).
Proof.
  intros R greater opt b iFun fFun h s H L N.
  destruct (history_inv R greater opt b iFun fFun h s H N) as (_ & V & (i0 & row0 & Hr0 & E0) & _ & B).
  split; [exact V|]. split; [exists row0; split; [exact Hr0|apply nth_error_In in E0; exact E0]|].
  intros row q Hr Hq. destruct (In_nth_error _ _ Hq) as (i & Ei).
  apply better_false; [apply (N row q Hr Hq)| |apply (B L i); exists row; auto].
  rewrite V. apply (N row0 _ Hr0 (nth_error_In _ _ E0)).
Qed.
Print Assumptions C30_gBest.
(** Every call of run() ends in such a state, whatever came before. *)
Theorem C30_run_extends_history :
  forall (R : rng_ops) (greater : bool) (opt : pso_option) (b : vbox)
         (iFun : G R -> (list double * list double) * G R) (fFun : list double -> double)
         (rec_on : bool) (vec_max : Z) fuel h (s s' : pso (G R)),
    0 <= p_maxGeneration opt < two64 - 1 ->
    history R greater opt b iFun fFun h (p_swarm s) ->
    pso_run R greater opt b fFun rec_on vec_max fuel s = Ok s' ->
    exists h', history R greater opt b iFun fFun h' (p_swarm s') /\ (2 <= length h')%nat.
Proof.
  intros R greater opt b iFun fFun rec_on vec_max fuel h s s' HM Hh H.
  destruct (run_history R greater opt b iFun fFun rec_on vec_max fuel s s' h HM H Hh) as (h' & A & B).
  exists h'. split; [exact A|]. pose proof (rounds_two _ _ _ _ _ _ _ _ Hh). lia.
Qed.
Print Assumptions C30_run_extends_history.

(** Right after initializePop() gBest is the first particle, not the best. *)
Definition tiny_box : vbox := square_vbox 1 d0 d1 (fofZ 1 (-3)).
Definition tiny_opt : pso_option := mkPOpt 2 3 0 (fofZ 1 (-1)) (d_of_Z 2) (d_of_Z 2).
Definition id_fit (p : list double) : double := hd d0 p.
Theorem C30_gBest_after_initialize_refuted :
  exists h s, history replay true tiny_opt tiny_box (defaultInitialize replay tiny_box) id_fit h s /\
    exists row q, In row h /\ In q row /\ better true (id_fit q) (fitness (gBest s)) = true.
Proof.
  assert (C : match initializeSwarm replay tiny_opt (defaultInitialize replay tiny_box) id_fit [64; 128] with
    | Ok s => match positions replay s with
              | [_; q] => better true (id_fit q) (fitness (gBest s)) | _ => false end
    | _ => false end = true) by (vm_compute; reflexivity).
  destruct (initializeSwarm _ _ _ _ _) as [s| | |] eqn:Hs; try discriminate C.
  exists [positions replay s], s. split; [eapply h_init; exact Hs|].
  destruct (positions replay s) as [|p [|q [|]]]; try discriminate C.
  exists [p; q], q. split; [left; reflexivity|]. split; [right; left; reflexivity|exact C].
Qed.
Print Assumptions C30_gBest_after_initialize_refuted.
(** A NaN fitness is never replaced: a particle that starts at NaN keeps it as
    its pBest although every later point is better than nothing. *)
Definition nan_fit (p : list double) : double := if flt (hd d0 p) (fofZ 3 (-2)) then B754_nan else hd d0 p.
Theorem C30_nan_pBest_sticks :
  forall (R : rng_ops) (greater : bool) (fFun : list double -> double) (x : particle),
    is_nan (fitness (pBest x)) = true ->
    pBest (update_pBest greater (evaluate fFun x)) = pBest x.
Proof.
  intros R greater fFun x N. rewrite ub_pBest. unfold better. destruct greater.
  - rewrite (flt_nan_l _ _ (fitness (pBest x)) _ N). reflexivity.
  - rewrite (flt_nan_r _ _ _ (fitness (pBest x)) N). reflexivity.
Qed.
Print Assumptions C30_nan_pBest_sticks.
Theorem C30_nan_refuted :
  exists h s, history replay true tiny_opt tiny_box (defaultInitialize replay tiny_box) nan_fit h s /\ (2 <= length h)%nat /\
    is_nan (fitness (gBest s)) = true /\ exists row q, In row h /\ In q row /\ nonnan (nan_fit q).
Proof.
  assert (C : match initializeSwarm replay tiny_opt (defaultInitialize replay tiny_box) nan_fit [64; 224] with
    | Ok s => match updatePGBest replay true (computeAll replay nan_fit s) with
      | Ok s1 => match positions replay s with
                 | [_; q] => is_nan (fitness (gBest s1)) && negb (is_nan (nan_fit q)) | _ => false end
      | _ => false end
    | _ => false end = true) by (vm_compute; reflexivity).
  destruct (initializeSwarm _ _ _ _ _) as [s| | |] eqn:Hs; try discriminate C.
  destruct (updatePGBest _ _ _) as [s1| | |] eqn:H1; try discriminate C.
  exists [positions replay s; positions replay s], s1.
  split; [eapply h_round; [eapply h_init; exact Hs|exact H1]|]. split; [cbn; lia|].
  destruct (positions replay s) as [|p [|q [|]]]; try discriminate C.
  apply andb_true_iff in C. destruct C as (C1 & C2). split; [exact C1|].
  exists [p; q], q. split; [left; reflexivity|]. split; [right; left; reflexivity|].
  unfold nonnan. destruct (is_nan (nan_fit q)); [discriminate C2|reflexivity].
Qed.
Print Assumptions C30_nan_refuted.

(** * C31 *)
(** run() returns exactly when there is a sequence of rounds of which the last,
    and only the last, meets the stop rule; the swarm moves between two rounds
    and not after the last; generation() is the number of rounds minus one; the
    record holds the best fitness of every round. *)
Theorem C31_stop_rule_exact :
  forall (R : rng_ops) (greater : bool) (opt : pso_option) (b : vbox) (fFun : list double -> double)
         (rec_on : bool) (vec_max : Z) (s s' : pso (G R)),
    0 <= p_maxGeneration opt < two64 - 1 -> p_maxGeneration opt + 1 <= vec_max ->
    let s0 := mkSwarm (particles (p_swarm s)) (gBest (p_swarm s)) 0 (p_rng (p_swarm s)) in
    ((exists fuel, pso_run R greater opt b fFun rec_on vec_max fuel s = Ok s') <->
     (exists cs c,
        p_rounds R greater opt b fFun s0 (cs ++ [c]) /\
        (forall i x, nth_error cs i = Some x -> ~ p_stops R opt (Z.of_nat i + 1) x) /\
        p_stops R opt (Z.of_nat (length cs) + 1) c /\
        s' = mkPSO c (Z.of_nat (length cs))
               (if rec_on then map (fun x => fitness (gBest x)) (cs ++ [c]) else p_record s))).
Proof.
  intros R greater opt b fFun rec_on vec_max s s' HM Hv s0. unfold pso_run.
  assert (rec_on && (vec_max <? wrap64 (p_maxGeneration opt + 1)) = false) as ->.
  { rewrite wrap64_small by (unfold two64 in *; lia). destruct (Z.ltb_spec vec_max (p_maxGeneration opt + 1)); [lia|]. apply andb_false_r. }
  fold s0. set (st := mkPSO s0 0 (if rec_on then [] else p_record s)).
  assert (Uniq : forall fuel s1 s2 k, pso_loop R greater opt b fFun rec_on fuel st = Ok s1 ->
     pso_loop R greater opt b fFun rec_on k st = Ok s2 -> s1 = s2).
  { intros fuel s1 s2 k A B. apply (loop_mono R greater opt b fFun rec_on _ _ _ k) in A.
    apply (loop_mono R greater opt b fFun rec_on _ _ _ fuel) in B. rewrite Nat.add_comm in B. congruence. }
  assert (Sound : forall fuel s1, pso_loop R greater opt b fFun rec_on fuel st = Ok s1 ->
     exists cs c, p_rounds R greater opt b fFun s0 (cs ++ [c]) /\
        (forall i x, nth_error cs i = Some x -> ~ p_stops R opt (Z.of_nat i + 1) x) /\
        p_stops R opt (Z.of_nat (length cs) + 1) c /\
        s1 = mkPSO c (Z.of_nat (length cs)) (if rec_on then map (fun x => fitness (gBest x)) (cs ++ [c]) else p_record s)).
  { intros fuel s1 H. apply pso_loop_sound in H; [|exact HM|unfold st; cbn [p_generation]; lia].
    destruct H as (cs & c & A & B & C & D & E & _ & F). cbn [st p_swarm p_generation p_record] in A, B, C, E, F.
    exists cs, c. split; [exact A|]. split; [exact B|]. split; [exact C|].
    destruct s1 as [c1 g1 r1]. cbn [p_swarm p_generation p_record] in D, E, F. rewrite D, E, F.
    destruct rec_on; [reflexivity|]. rewrite app_nil_r. reflexivity. }
  split.
  - intros (fuel & H). apply (Sound fuel). exact H.
  - intros (cs & c & A & B & C & E).
    destruct (pso_loop_complete R greater opt b fFun rec_on cs st c HM) as (s1 & H1); cbn [st p_swarm p_generation]; [unfold st; cbn [p_generation]; lia|exact A|exact B|exact C|].
    exists (S (length cs)). fold st in H1. rewrite H1.
    pose proof (pso_loop_sound R greater opt b fFun rec_on (S (length cs)) st s1 HM ltac:(unfold st; cbn [p_generation]; lia) H1) as (cs' & c' & A' & B' & C' & D' & E' & _ & F').
    cbn [st p_swarm p_generation p_record] in A', B', C', E', F'.
    (* the two traces agree *)
    assert (T : forall l l' x x0 y y0 t,
       p_rounds R greater opt b fFun t (l ++ [x]) -> p_rounds R greater opt b fFun t (l' ++ [y]) ->
       (forall i z, nth_error l i = Some z -> ~ p_stops R opt (x0 + Z.of_nat i + 1) z) -> p_stops R opt (x0 + Z.of_nat (length l) + 1) x ->
       (forall i z, nth_error l' i = Some z -> ~ p_stops R opt (x0 + Z.of_nat i + 1) z) -> p_stops R opt (x0 + Z.of_nat (length l') + 1) y ->
       y0 = x0 -> l = l' /\ x = y).
    { clear. induction l as [|z l IH]; intros [|z' l'] x x0 y y0 t P1 P2 N1 S1 N2 S2 _.
      - cbn in P1, P2. destruct P1 as (P1 & _), P2 as (P2 & _). split; [reflexivity|congruence].
      - exfalso. cbn in P1, P2. destruct P1 as (P1 & _), P2 as (P2 & _). assert (z' = x) by congruence. subst z'.
        apply (N2 0%nat x eq_refl). exact S1.
      - exfalso. cbn in P1, P2. destruct P1 as (P1 & _), P2 as (P2 & _). assert (z = y) by congruence. subst z.
        apply (N1 0%nat y eq_refl). exact S2.
      - change ((z :: l) ++ [x]) with (z :: (l ++ [x])) in P1. change ((z' :: l') ++ [y]) with (z' :: (l' ++ [y])) in P2.
        cbn [p_rounds] in P1, P2. destruct P1 as (P1 & Q1), P2 as (P2 & Q2). assert (z' = z) by congruence. subst z'.
        assert (exists m, updatePopulation R opt b z = Ok m /\ p_rounds R greater opt b fFun m (l ++ [x])) as (m & E1 & Q1').
        { destruct (l ++ [x]) eqn:El; [destruct l; discriminate|exact Q1]. }
        assert (exists m, updatePopulation R opt b z = Ok m /\ p_rounds R greater opt b fFun m (l' ++ [y])) as (m' & E2 & Q2').
        { destruct (l' ++ [y]) eqn:El; [destruct l'; discriminate|exact Q2]. }
        assert (m' = m) by congruence. subst m'.
        destruct (IH l' x (x0 + 1) y (x0 + 1) m Q1' Q2') as (-> & ->); [..|split; reflexivity].
        + intros i w Hw. replace (x0 + 1 + Z.of_nat i + 1) with (x0 + Z.of_nat (S i) + 1) by lia. apply (N1 (S i)). exact Hw.
        + cbn [length] in S1. replace (x0 + 1 + Z.of_nat (length l) + 1) with (x0 + Z.of_nat (S (length l)) + 1) by lia. exact S1.
        + intros i w Hw. replace (x0 + 1 + Z.of_nat i + 1) with (x0 + Z.of_nat (S i) + 1) by lia. apply (N2 (S i)). exact Hw.
        + cbn [length] in S2. replace (x0 + 1 + Z.of_nat (length l') + 1) with (x0 + Z.of_nat (S (length l')) + 1) by lia. exact S2.
        + reflexivity. }
    destruct (T cs cs' c 0 c' 0 s0 A A' B C B' C' eq_refl) as (<- & <-). f_equal.
    rewrite E. destruct s1 as [c1 g1 r1]. cbn [p_swarm p_generation p_record] in D', E', F'. rewrite D', E', F'.
    destruct rec_on; [reflexivity|]. rewrite app_nil_r. reflexivity.
Qed.
Print Assumptions C31_stop_rule_exact.

(** At most maxGeneration + 1 rounds: run() never runs longer, and
    generation() <= maxGeneration. *)
Theorem C31_terminates :
  forall (R : rng_ops) (greater : bool) (opt : pso_option) (b : vbox) (fFun : list double -> double)
         (rec_on : bool) (vec_max : Z) (s : pso (G R)),
    0 <= p_maxGeneration opt < two64 - 1 ->
    pso_run R greater opt b fFun rec_on vec_max (S (Z.to_nat (p_maxGeneration opt))) s <> Fuel.
Proof.
  intros R greater opt b fFun rec_on vec_max s HM. unfold pso_run. destruct (rec_on && _); [discriminate|].
  apply loop_nofuel; cbn [p_generation]; lia.
Qed.
Print Assumptions C31_terminates.
Theorem C31_generation_bound :
  forall (R : rng_ops) (greater : bool) (opt : pso_option) (b : vbox) (fFun : list double -> double)
         (rec_on : bool) (vec_max : Z) fuel (s s' : pso (G R)),
    0 <= p_maxGeneration opt < two64 - 1 ->
    pso_run R greater opt b fFun rec_on vec_max fuel s = Ok s' -> 0 <= p_generation s' <= p_maxGeneration opt.
Proof.
  intros R greater opt b fFun rec_on vec_max fuel s s' HM H. unfold pso_run in H. destruct (rec_on && _); [discriminate|].
  apply pso_loop_sound in H; [|exact HM|cbn; lia]. destruct H as (cs & c & _ & _ & _ & _ & E & L & _). cbn [p_generation] in E. lia.
Qed.
Print Assumptions C31_generation_bound.
(** With the default initialisation and a proper box, run() after
    initializePop() always succeeds. *)
Theorem C31_total :
  forall (R : rng_ops) (greater : bool) (opt : pso_option) (b : vbox) (fFun : list double -> double)
         (rec_on : bool) (vec_max : Z) (s : pso (G R)),
    rng_ok R -> vproper b -> 1 <= p_populationSize opt ->
    0 <= p_maxGeneration opt < two64 - 1 -> p_maxGeneration opt + 1 <= vec_max ->
    exists s1, pso_initializePop R opt (defaultInitialize R b) fFun s = Ok s1 /\
      p_generation s1 = 0 /\ p_fails (p_swarm s1) = 0 /\
      Z.of_nat (length (particles (p_swarm s1))) = p_populationSize opt /\
    exists s2, pso_run R greater opt b fFun rec_on vec_max (S (Z.to_nat (p_maxGeneration opt))) s1 = Ok s2.
Proof.
  intros R greater opt b fFun rec_on vec_max s HR Hb Hp HM Hv.
  assert (L : forall n g, length (fst (init_swarm R (defaultInitialize R b) fFun n g)) = n).
  { induction n as [|n IH]; intros g; cbn; [reflexivity|]. destruct (defaultInitialize R b g) as [[p v] g1].
    specialize (IH g1). destruct (init_swarm _ _ _ n g1) as [t g2]. cbn in *. congruence. }
  assert (I : exists c, initializeSwarm R opt (defaultInitialize R b) fFun (p_rng (p_swarm s)) = Ok c).
  { unfold initializeSwarm. specialize (L (Z.to_nat (p_populationSize opt)) (p_rng (p_swarm s))).
    destruct (init_swarm _ _ _ _ _) as [ps g']. cbn [fst] in L. destruct ps; [cbn in L; lia|eauto]. }
  destruct I as (c & Ec). unfold pso_initializePop. rewrite Ec. cbn [bind]. eexists. split; [reflexivity|].
  cbn [p_generation p_swarm]. split; [reflexivity|]. destruct (initializeSwarm_inv _ _ _ _ _ _ Ec) as (Ep & Ef & _).
  split; [exact Ef|]. split; [rewrite Ep, L; lia|].
  unfold pso_run. rewrite wrap64_small by (unfold two64 in *; lia).
  destruct (Z.ltb_spec vec_max (p_maxGeneration opt + 1)); [lia|]. rewrite andb_false_r.
  set (st := mkPSO _ 0 _).
  assert (Hh : history R greater opt b (defaultInitialize R b) fFun [positions R c] (p_swarm st)).
  { cbn [st p_swarm]. apply h_restart. eapply h_init. exact Ec. }
  pose proof (loop_nofuel R greater opt b fFun rec_on (S (Z.to_nat (p_maxGeneration opt))) st HM) as NF.
  destruct (loop_ok R greater opt b (defaultInitialize R b) fFun rec_on Hb) with (fuel := S (Z.to_nat (p_maxGeneration opt))) (h := [positions R c]) (s := st) as (A & B); [|exact Hh|].
  { intros g. destruct (default_ok R b g HR Hb) as (P & V & _). split; [exact P|apply V]. }
  destruct (pso_loop R greater opt b fFun rec_on (S (Z.to_nat (p_maxGeneration opt))) st) as [s2| | |] eqn:El; [eauto|congruence|congruence|].
  exfalso. apply NF; [unfold st; cbn [p_generation]; lia|unfold st; cbn [p_generation]; lia|reflexivity].
Qed.
Print Assumptions C31_total.

(** In a run, gBest never gets worse from round to round, and failTimes() is the
    number of rounds in a row, up to now, in which gBest did not improve. *)
Theorem C31_best_and_fails :
  forall (R : rng_ops) (greater : bool) (opt : pso_option) (b : vbox) (fFun : list double -> double)
         (s0 : swarm (G R)) (cs : list (swarm (G R))),
    p_rounds R greater opt b fFun s0 cs ->
    forall k c, nth_error cs k = Some c ->
      let prev := match k with O => s0 | S j => nth j cs s0 end in
      0 <= p_fails prev < two64 - 1 ->
      better greater (fitness (gBest prev)) (fitness (gBest c)) = false /\
      (gBest c = gBest prev \/ better greater (fitness (gBest c)) (fitness (gBest prev)) = true) /\
      p_fails c = (if better greater (fitness (gBest c)) (fitness (gBest prev)) then 0 else p_fails prev + 1).
Proof.
  intros R greater opt b fFun s0 cs H.
  assert (One : forall s c, updatePGBest R greater (computeAll R fFun s) = Ok c -> 0 <= p_fails s < two64 - 1 ->
      better greater (fitness (gBest s)) (fitness (gBest c)) = false /\
      (gBest c = gBest s \/ better greater (fitness (gBest c)) (fitness (gBest s)) = true) /\
      p_fails c = (if better greater (fitness (gBest c)) (fitness (gBest s)) then 0 else p_fails s + 1)).
  { intros s c E Hf. unfold updatePGBest in E. cbn [computeAll particles gBest p_fails p_rng] in E.
    destruct (map (evaluate fFun) (particles s)) as [|x t]; [discriminate|].
    set (cur := scan_best _ _ _) in E. destruct (better greater (fitness cur) (fitness (gBest s))) eqn:Eb; inversion E; subst c; cbn [gBest p_fails].
    - rewrite Eb. split; [unfold better in *; destruct greater; apply flt_asym; exact Eb|]. auto.
    - rewrite better_irrefl. split; [reflexivity|]. split; [auto|]. apply wrap64_small. lia. }
  revert s0 H. induction cs as [|c cs IH]; intros s0 H [|k] x Hk; cbn [nth_error] in Hk; try discriminate.
  - inversion Hk; subst x. destruct H as (E & _). intros prev Hf. apply One; assumption.
  - cbn [p_rounds] in H. destruct H as (E & H). destruct cs as [|c2 cs]; [destruct k; discriminate|].
    destruct H as (m & Em & H). destruct (updatePopulation_inv _ _ _ _ _ Em) as (Eg & Ef & _).
    specialize (IH m H k x Hk). cbv zeta in IH |- *. destruct k as [|k].
    + change (nth 0 (c :: c2 :: cs) s0) with c. intros Hf. rewrite Eg, Ef in IH. apply IH. exact Hf.
    + assert (Hl : (k < length (c2 :: cs))%nat). { assert (S k < length (c2 :: cs))%nat by (apply nth_error_Some; congruence). lia. }
      change (nth (S k) (c :: c2 :: cs) s0) with (nth k (c2 :: cs) s0). intros Hf. rewrite (nth_indep _ m s0 Hl) in IH. apply IH. exact Hf.
Qed.
Print Assumptions C31_best_and_fails.
(** ... so the record of a run never gets worse. *)
Theorem C31_record :
  forall (R : rng_ops) (greater : bool) (opt : pso_option) (b : vbox) (fFun : list double -> double)
         (vec_max : Z) fuel (s s' : pso (G R)),
    0 <= p_maxGeneration opt < two64 - 1 ->
    pso_run R greater opt b fFun true vec_max fuel s = Ok s' ->
    Z.of_nat (length (p_record s')) = p_generation s' + 1 /\
    nth_error (p_record s') (Z.to_nat (p_generation s')) = Some (fitness (gBest (p_swarm s'))) /\
    forall i a c, nth_error (p_record s') i = Some a -> nth_error (p_record s') (S i) = Some c -> better greater a c = false.
Proof.
  intros R greater opt b fFun vec_max fuel s s' HM H. unfold pso_run in H. destruct (true && _); [discriminate|].
  apply pso_loop_sound in H; [|exact HM|cbn; lia]. destruct H as (cs & c & Hr & Hn & _ & E1 & E2 & EL & E3).
  cbn [p_swarm p_generation p_record app] in *. rewrite E3.
  split; [rewrite map_length, app_length; cbn [length]; lia|].
  split. { rewrite nth_error_map, E2, nth_error_app2 by lia.
           replace (Z.to_nat (0 + Z.of_nat (length cs)) - length cs)%nat with 0%nat by lia. cbn. rewrite E1. reflexivity. }
  intros i a d Ha Hd. rewrite nth_error_map in Ha, Hd.
  destruct (nth_error (cs ++ [c]) i) as [x|] eqn:Ex; [|discriminate]. destruct (nth_error (cs ++ [c]) (S i)) as [y|] eqn:Ey; [|discriminate].
  cbn in Ha, Hd. inversion Ha; subst a. inversion Hd; subst d.
  pose proof (C31_best_and_fails R greater opt b fFun _ _ Hr (S i) y Ey) as K. cbv beta iota zeta in K.
  rewrite (nth_error_nth _ _ _ Ex) in K. apply K.
  (* the counter cannot reach 2^64: it is at most the number of rounds *)
  assert (F : forall k x, nth_error (cs ++ [c]) k = Some x -> 0 <= p_fails x <= Z.of_nat (S k)).
  { intros k. induction k as [|k IHk]; intros z Hz.
    - pose proof (C31_best_and_fails R greater opt b fFun _ _ Hr 0%nat z Hz) as (_ & _ & F); [cbn; unfold two64; lia|].
      cbn [p_fails] in F. destruct (better _ _ _) in F; lia.
    - assert (Hk : (k < length (cs ++ [c]))%nat). { assert (S k < length (cs ++ [c]))%nat by (apply nth_error_Some; congruence). lia. }
      destruct (nth_error (cs ++ [c]) k) as [w|] eqn:Ew; [|apply nth_error_None in Ew; lia]. specialize (IHk w eq_refl).
      assert (Z.of_nat (S k) < two64 - 1). { rewrite app_length in Hk. cbn [length] in Hk.
        assert (S k < length (cs ++ [c]))%nat by (apply nth_error_Some; congruence). rewrite app_length in H. cbn [length] in H. lia. }
      pose proof (C31_best_and_fails R greater opt b fFun _ _ Hr (S k) z Hz) as F. cbv beta iota zeta in F. rewrite (nth_error_nth _ _ _ Ew) in F.
      destruct F as (_ & _ & F); [lia|]. destruct (better _ _ _) in F; lia. }
  specialize (F i x Ex). assert (S i < length (cs ++ [c]))%nat by (apply nth_error_Some; congruence). rewrite app_length in H. cbn [length] in H. lia.
Qed.
Print Assumptions C31_record.
(** With maxGeneration = SIZE_MAX and no fail limit the counter wraps and run()
    never returns. *)
Theorem C31_never_stops_at_size_max_refuted :
  forall (R : rng_ops) (greater : bool) (opt : pso_option) (b : vbox) (fFun : list double -> double)
         (rec_on : bool) (vec_max : Z) (fuel : nat) (s : pso (G R)) h,
    rng_ok R -> vproper b -> 0 <= vec_max ->
    p_maxGeneration opt = two64 - 1 -> p_maxFailTimes opt = 0 ->
    history R greater opt b (defaultInitialize R b) fFun h (p_swarm s) ->
    pso_run R greater opt b fFun rec_on vec_max fuel s = Fuel.
Proof.
  intros R greater opt b fFun rec_on vec_max fuel s h HR Hb Hv HM HF Hh. unfold pso_run.
  replace (vec_max <? wrap64 (p_maxGeneration opt + 1)) with false.
  2:{ rewrite HM. symmetry. apply Z.ltb_ge. exact Hv. }
  rewrite andb_false_r.
  assert (Hi : forall g, pos_in b (fst (fst (defaultInitialize R b g))) /\ Z.of_nat (length (snd (fst (defaultInitialize R b g)))) = v_dim b).
  { intros g. destruct (default_ok R b g HR Hb) as (P & V & _). split; [exact P|apply V]. }
  apply (h_restart R greater opt b (defaultInitialize R b) fFun) in Hh.
  set (st := mkPSO _ 0 _). change (history R greater opt b (defaultInitialize R b) fFun h (p_swarm st)) in Hh.
  generalize st Hh. clear st Hh. revert h. induction fuel as [|n IH]; intros h st Hh; [reflexivity|]. cbn [pso_loop].
  destruct (round_total R greater opt b (defaultInitialize R b) fFun h (p_swarm st) Hh) as (c & Ec). rewrite Ec. cbn [bind]. cbv zeta.
  assert (Hc := h_round _ _ _ _ _ _ _ _ _ Hh Ec).
  pose proof (wrap64_range (p_generation st + 1)).
  destruct (Z.ltb_spec (p_maxGeneration opt) (wrap64 (p_generation st + 1))); [lia|].
  rewrite HF. cbn [orb andb Z.ltb Z.compare].
  destruct (updatePopulation_total R greater opt b (defaultInitialize R b) fFun Hb Hi _ c Hc) as (m & Em). rewrite Em. cbn [bind].
  apply (IH (positions R (p_swarm st) :: h)). cbn [p_swarm]. eapply h_move; eassumption.
Qed.
Print Assumptions C31_never_stops_at_size_max_refuted.
(** An empty population: undefined behaviour already in initializePop(). *)
Theorem C31_empty_population_refuted :
  forall (R : rng_ops) (opt : pso_option) (iFun : G R -> (list double * list double) * G R) (fFun : list double -> double) (s : pso (G R)),
    p_populationSize opt = 0 -> pso_initializePop R opt iFun fFun s = UB.
Proof. intros R opt iFun fFun s H. unfold pso_initializePop, initializeSwarm. rewrite H. reflexivity. Qed.
Print Assumptions C31_empty_population_refuted.

(** The hypotheses above are met: a proper, moderate box and a run on it. *)
Lemma tiny_proper : vproper tiny_box.
Proof.
  split; [cbn; lia|]. intros i _. split; [vm_compute; reflexivity|]. split; [vm_compute; reflexivity|]. split; [vm_compute; reflexivity|].
  split; vm_compute; reflexivity.
Qed.
Example C31_example :
  match pso_initializePop replay tiny_opt (defaultInitialize replay tiny_box) id_fit
          (mkPSO (mkSwarm [] (mkPoint [] d0) 0 [64; 128; 7; 9; 200; 31; 77]) 0 []) with
  | Ok s => match pso_run replay true tiny_opt tiny_box id_fit true 1000 4 s with
            | Ok s' => (p_generation s' =? 3) && (length (p_record s') =? 4)%nat
            | _ => false end
  | _ => false end = true.
Proof. vm_compute. reflexivity. Qed.
Example C29_example : rng_ok replay /\ vproper tiny_box /\ moderate tiny_opt tiny_box.
Proof.
  split; [exact replay_ok|]. split; [exact tiny_proper|].
  assert (K : forall z e, (Z.abs z <= 9007199254740992)%Z -> (-1074 <= e <= 0)%Z -> small (fofZ z e)).
  { intros z e Hz He. destruct (fofZ_exact z e (prec := 53) (emax := 1024)) as (F & V); [exact Hz|cbn; lia|lia|].
    split; [exact F|]. rewrite V. rewrite Rabs_mult, <- abs_IZR, (Rabs_pos_eq (bpow radix2 e)) by apply bpow_ge_0.
    rewrite B400_eq. assert (A : (IZR (Z.abs z) <= bpow radix2 53)%R) by (rewrite <- (IZR_Zpower radix2 53) by easy; apply IZR_le; exact Hz).
    assert (B : (bpow radix2 e <= 1)%R) by (change 1%R with (bpow radix2 0); apply bpow_le; lia).
    assert (C : (bpow radix2 53 <= bpow radix2 400)%R) by (apply bpow_le; lia).
    pose proof (bpow_ge_0 radix2 e). pose proof (IZR_le _ _ (Z.abs_nonneg z)). nra. }
  split; [apply K; lia|]. split; [apply (K 2 0); lia|]. split; [apply (K 2 0); lia|].
  intros i _. split; [|split].
  - split; [reflexivity|]. change (B2R (v_lo tiny_box i)) with 0%R. rewrite Rabs_R0. pose proof B400_1. lra.
  - apply (K 1 0); lia.
  - apply (K 1 (-3)); lia.
Qed.

(** * C32 *)
Theorem C32_square_accessors :
  forall (n : Z) (lo hi vm : double) (b : vbox) (i : nat),
    set_square_pv n lo hi vm = Ok b ->
    square_posMin b = lo /\ square_posMax b = hi /\ square_posMin_at b i = lo /\ maxVelocity_at b i = vm /\
    flt lo hi = true /\ flt d0 vm = true.
Proof.
  intros n lo hi vm b i H. unfold set_square_pv in H. destruct (flt lo hi) eqn:E1; [|discriminate]. destruct (flt d0 vm) eqn:E2; [|discriminate].
  inversion H; subst b. cbn. auto 6.
Qed.
Print Assumptions C32_square_accessors.
(** posMax(i) of a square box returns the lower bound -- for every box. *)
Theorem C32_square_posMax_refuted :
  forall (n : Z) (lo hi vm : double) (b : vbox) (i : nat),
    set_square_pv n lo hi vm = Ok b -> square_posMax_at b i = lo /\ square_posMax_at b i <> hi.
Proof.
  intros n lo hi vm b i H. unfold set_square_pv in H. destruct (flt lo hi) eqn:E1; [|discriminate]. destruct (flt d0 vm) eqn:E2; [|discriminate].
  inversion H; subst b. cbn. split; [reflexivity|]. intros ->. rewrite flt_irrefl in E1. discriminate.
Qed.
Print Assumptions C32_square_posMax_refuted.
Theorem C32_rectangle_accessors :
  forall (lo hi vm : list double) (b : vbox),
    set_rect_pv lo hi vm = Ok b ->
    length lo = length hi /\
    forall i l h v, nth_error lo i = Some l -> nth_error hi i = Some h -> nth_error vm i = Some v ->
      rect_posMin_at b i = l /\ rect_posMax_at b i = h /\ maxVelocity_at b i = v /\ flt l h = true /\ flt d0 v = true.
Proof.
  intros lo hi vm b H. unfold set_rect_pv in H.
  destruct (Nat.eqb_spec (length lo) (length hi)) as [E|]; cbn [andb] in H; [|discriminate].
  destruct (forallb _ (combine lo hi)) eqn:F1; [|discriminate]. destruct (forallb _ vm) eqn:F2; [|discriminate].
  inversion H; subst b. split; [exact E|]. intros i l h v El Eh Ev. unfold rect_posMin_at, rect_posMax_at, maxVelocity_at. cbn [v_lo v_hi v_max].
  rewrite (nth_error_nth _ _ d0 El), (nth_error_nth _ _ d0 Eh), (nth_error_nth _ _ d0 Ev).
  split; [reflexivity|]. split; [reflexivity|]. split; [reflexivity|].
  rewrite forallb_forall in F1, F2. split; [|apply F2; eapply nth_error_In; exact Ev].
  apply (F1 (l, h)). clear -El Eh. revert hi i El Eh. induction lo as [|a lo IH]; intros [|c hi] [|i] El Eh; cbn in *; try discriminate.
  - left. congruence.
  - right. eapply IH; eassumption.
Qed.
Print Assumptions C32_rectangle_accessors.
Example C32_example : exists b, set_square_pv 3 d0 d1 d1 = Ok b.
Proof.
  unfold set_square_pv. assert (flt d0 d1 = true) as -> by (vm_compute; reflexivity). eexists. reflexivity.
Qed.

(** * C67 *)
(** Particles are attracted.  With non-negative factors of moderate size: a
    coordinate at rest (or already moving up) below or at both the particle's own
    best and the swarm's best does not go down; the mirror image; and at the
    common best, at rest, it stays. *)
Theorem C67_attraction :
  forall (opt : pso_option) (b : vbox) (gb : point) (lFP lFG : double) (x y : particle) (i : nat) (v pb g p : double),
    moderate opt b -> vproper b -> Z.of_nat i < v_dim b ->
    fle d0 lFP = true -> flt lFP d1 = true -> fle d0 lFG = true -> flt lFG d1 = true ->
    (0 <= B2R (inertiaFactor opt))%R -> (0 <= B2R (learnFactorP opt))%R -> (0 <= B2R (learnFactorG opt))%R ->
    pos_in b (position (here x)) -> pos_in b (position (pBest x)) -> pos_in b (position gb) -> vel_in b (velocity x) ->
    move_particle opt b gb lFP lFG x = Ok y ->
    nth_error (velocity x) i = Some v -> nth_error (position (pBest x)) i = Some pb ->
    nth_error (position gb) i = Some g -> nth_error (position (here x)) i = Some p ->
    exists p' v', nth_error (position (here y)) i = Some p' /\ nth_error (velocity y) i = Some v' /\
      ((0 <= B2R v)%R -> (B2R p <= B2R pb)%R -> (B2R p <= B2R g)%R -> (B2R p <= B2R p')%R /\ (0 <= B2R v')%R) /\
      ((B2R v <= 0)%R -> (B2R pb <= B2R p)%R -> (B2R g <= B2R p)%R -> (B2R p' <= B2R p)%R /\ (B2R v' <= 0)%R) /\
      (B2R v = 0%R -> B2R pb = B2R p -> B2R g = B2R p -> B2R p' = B2R p /\ B2R v' = 0%R).
Proof.
  intros opt b gb lFP lFG x y i v pb g p (O1 & O2 & O3 & Ob) (_ & Hb) Hi P0 P1 G0 G1 W1 W2 W3 Ip Ipb Ig Iv Hm Ev Epb Eg Ep.
  pose proof (move_inv _ _ _ _ _ _ _ Hm) as (_ & _ & _ & _ & _ & _ & _ & Q).
  destruct (Q i v pb g p Ev Epb Eg Ep) as (A & B). cbv zeta in A, B.
  set (a := fmul (learnFactorP opt) lFP) in *. set (c := fmul (learnFactorG opt) lFG) in *.
  set (raw := vel_coef (inertiaFactor opt) a c v pb g p) in *. set (v' := clampVel (v_max b i) raw) in *.
  exists (clampPos (v_lo b i) (v_hi b i) (fadd p v')), v'. split; [exact B|]. split; [exact A|].
  destruct (Ob i Hi) as (S1 & S2 & S3). destruct (Hb i Hi) as (_ & _ & Hlh & _ & Hv).
  destruct Ip as (_ & Ip). destruct (Ip i p Ep) as (Lp & Hp). destruct Ipb as (_ & Ipb). destruct (Ipb i pb Epb) as (Lpb & Hpb).
  destruct Ig as (_ & Ig). destruct (Ig i g Eg) as (Lg & Hg). destruct Iv as (_ & Iv). destruct (Iv i v Ev) as (Lv & Hv').
  assert (Sp : small p) by (apply (small_between (v_lo b i) (v_hi b i)); assumption).
  assert (Spb : small pb) by (apply (small_between (v_lo b i) (v_hi b i)); assumption).
  assert (Sg : small g) by (apply (small_between (v_lo b i) (v_hi b i)); assumption).
  assert (Sv : small v).
  { apply (small_between (fopp (v_max b i)) (v_max b i)); try assumption. destruct S3 as (F3 & B3).
    split; [apply fopp_fin; exact F3|]. rewrite fopp_B2R, Rabs_Ropp. exact B3. }
  assert (Sa : small a) by (apply small_draw; assumption). assert (Sc : small c) by (apply small_draw; assumption).
  assert (Pos : forall l d : double, small l -> (0 <= B2R l)%R -> fle d0 d = true -> flt d d1 = true -> (0 <= B2R (fmul l d))%R).
  { intros l d (Fl & Bl) Pl D0 D1. destruct (unit_draw d D0 D1) as (Fd & Ld).
    destruct (fmul_900 l d 1 ltac:(lia) Fl Fd) as (_ & _ & E).
    { pose proof (abs_mul_le (B2R l) (B2R d) B400 1 Bl ltac:(apply Rabs_le; lra)). pose proof B400_pos2. pose proof B400_1. lra. }
    rewrite E. apply drnd_ge0. apply Rmult_le_pos; lra. }
  assert (Pa : (0 <= B2R a)%R) by (apply Pos; assumption). assert (Pc : (0 <= B2R c)%R) by (apply Pos; assumption).
  destruct (small_vel_val (inertiaFactor opt) a c v pb g p O1 Sa Sc Sv Spb Sg Sp) as (Fr & _).
  destruct (clampVel_sign (v_max b i) raw S3 Hv Fr) as (Sv' & Vu & Vd). fold v' in Sv', Vu, Vd.
  destruct (step_dir (v_lo b i) (v_hi b i) p v' S1 S2 Hlh Lp Hp Sv') as (_ & Du & Dd).
  assert (U : (0 <= B2R v)%R -> (B2R p <= B2R pb)%R -> (B2R p <= B2R g)%R -> (0 <= B2R v')%R).
  { intros. apply Vu. apply vel_up; assumption. }
  assert (D : (B2R v <= 0)%R -> (B2R pb <= B2R p)%R -> (B2R g <= B2R p)%R -> (B2R v' <= 0)%R).
  { intros. apply Vd. apply vel_down; assumption. }
  split; [intros; split; [apply Du; apply U; assumption|apply U; assumption]|].
  split; [intros; split; [apply Dd; apply D; assumption|apply D; assumption]|].
  intros H1 H2 H3. assert (Z1 : (0 <= B2R v')%R) by (apply U; lra). assert (Z2 : (B2R v' <= 0)%R) by (apply D; lra).
  specialize (Du Z1). specialize (Dd Z2). split; lra.
Qed.
Print Assumptions C67_attraction.
Example C67_example :
  let x := mkParticle (mkPoint [fofZ 1 (-2)] d0) [d0] (mkPoint [fofZ 1 (-1)] d0) in
  match move_particle tiny_opt tiny_box (mkPoint [fofZ 3 (-2)] d0) (fofZ 1 (-1)) (fofZ 1 (-1)) x with
  | Ok y => match position (here y) with [q] => feq q (fofZ 3 (-3)) | _ => false end
  | _ => false end = true.
Proof. vm_compute. reflexivity. Qed.
