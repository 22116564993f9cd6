(** Model of several SOGA objects in one program: copy construction, copy
    assignment and destruction, mixed with the calls of SOGAObj.v.
    SOGA declares its destructor (SOGA.hpp:131) and no copy or move member, so the
    compiler writes member-wise copies and no moves: std::move(solver) copies as
    well.  The population is a std::list (GABase.hpp:152), whose copy has nodes of
    its own; [_bestGene] (SOGA.hpp:168) is an iterator, whose copy still points to
    the node of the original. *)
From Coq Require Import List Arith ZArith Bool.
From Flocq Require Import BinarySingleNaN.
From Verif Require Import Base Fl Rng StdOps GABase SOGA SOGAObj.
Import ListNotations.
Open Scope Z_scope.

(** * Selection reading [_bestGene] through any address *)
(** As in SOGA.v, except that the node [_bestGene] points to is read with [rd],
    given the current own list: it may be a node of another object's list. *)
Section Via.
Context {V : Type} (R : rng_ops) (std : std_ops) (greater : bool) (opt : ga_option) (sp : sel_params).
Notation core' := (core V double nat (G R)).
Notation gene' := (gene V double).
Context (rd : list gene' -> res gene').
(** SOGA.hpp:145. *)
Definition bestFitness_via (c : core') : res double := do x <- rd (pop c); Ok (gfit x).
(** SOGA.hpp:221-223. *)
Definition updateFail1_via (c : core') (p : list gene') (g : G R) (newBest : option gene') : res core' :=
  do old <- rd p; updateFail2 R greater c p g newBest (gfit old).
Definition finish1_via (c : core') (es : list (nat * double)) (g : G R) : res core' :=
  do p' <- applyErasement (pop c) es;
  updateFail1_via c p' g (findCurrentBestGene greater p').
Notation K' := (K opt).
Notation best_of := (findCurrentBestGene greater).
(** SOGASelecters.hpp:93-177. *)
Definition roulette_via (fuel : nat) (c : core') : res core' :=
  let eliminateNum := to_int (wrap64 (popSize R c - K')) in
  do prev <- bestFitness_via c;
  if eliminateNum <=? 0 then updateFail2 R greater c (pop c) (gen_rng c) (best_of (pop c)) prev
  else
    let ws := weights_of greater (pop c) in
    let es := shift_by (min_of ws) ws in
    do (es', g') <- roulette_loop R fuel eliminateNum es (sum_of es) (gen_rng c);
    finish2 R greater c es' g' prev.
(** 206-296. *)
Definition tournament_via (c : core') : res core' :=
  if negb (tournamentSize sp <? to_int K') then Abort else
  do prev <- bestFitness_via c;
  if to_int (popSize R c) <=? to_int K' then updateFail2 R greater c (pop c) (gen_rng c) (best_of (pop c)) prev
  else
    let (space, g1) := shuffle R (pop c) (gen_rng c) in
    do (ws, g2) <- tour_play R greater sp (Z.to_nat (to_int K')) space g1;
    let kept := filter (fun x => negb (times_selected ws x =? 0)%nat) (pop c) in
    let best := best_of kept in
    let extra := flat_map (fun x => repeat x (times_selected ws x - 1)) (umap_order std kept) in
    let p' := kept ++ copies_with (next c) extra in
    do c' <- updateFail2 R greater c p' g2 best prev;
    Ok (mkCore (pop c') (next c + length extra)%nat (fails c') (ext c') (gen_rng c')).
(** 54-76. *)
Definition truncation_via (c : core') : res core' :=
  do sp <- sort_pop std greater (pop c);
  do p' <- trunc_erase opt (pop c) (rev sp);
  let kept := firstn (length p') sp in
  match kept with
  | [] => UB
  | b :: _ => updateFail1_via c p' (gen_rng c) (Some b)
  end.
(** 307-339. *)
Definition montecarlo_via (c : core') : res core' :=
  do prev <- bestFitness_via c;
  if to_int (popSize R c) <=? to_int K' then updateFail2 R greater c (pop c) (gen_rng c) (best_of (pop c)) prev
  else
    let (its, g1) := shuffle R (map gid (pop c)) (gen_rng c) in
    let eliminateNum := to_int (popSize R c) - to_int K' in
    do p' <- erase_all (pop c) (firstn (Z.to_nat eliminateNum) its);
    updateFail2 R greater c p' g1 (best_of p') prev.
(** 350-440. *)
Definition probability_via (fuel : nat) (c : core') : res core' :=
  let eliminateNum := to_int (popSize R c) - to_int K' in
  do prev <- bestFitness_via c;
  if eliminateNum <=? 0 then updateFail2 R greater c (pop c) (gen_rng c) (best_of (pop c)) prev
  else
    let es := prob_weights greater opt sp (pop c) in
    do (es', g') <- spin_loop R fuel eliminateNum es (sum_of es) (gen_rng c);
    finish2 R greater c es' g' prev.
(** 489-545. *)
Definition linear_via (fuel : nat) (c : core') : res core' :=
  do prev <- bestFitness_via c;
  if to_int (popSize R c) <=? to_int K' then updateFail1_via c (pop c) (gen_rng c) (best_of (pop c))
  else
    do sorted <- sort_pop std greater (pop c);
    do (es', g') <- spin_loop R fuel (to_int (popSize R c) - to_int K') (linear_weights sp sorted) d1 (gen_rng c);
    finish2 R greater c es' g' prev.
(** 580-634. *)
Definition exponential_via (fuel : nat) (c : core') : res core' :=
  do prev <- bestFitness_via c;
  if to_int (popSize R c) <=? to_int K' then updateFail1_via c (pop c) (gen_rng c) (best_of (pop c))
  else
    do sorted <- sort_pop std greater (pop c);
    do (es', g') <- spin_loop R fuel (to_int (popSize R c) - to_int K') (exp_weights sp sorted) d1 (gen_rng c);
    finish2 R greater c es' g' prev.
(** 650-706. *)
Definition boltzmann_via (fuel : nat) (c : core') : res core' :=
  do prev <- bestFitness_via c;
  let eliminateNum := to_int (popSize R c) - to_int K' in
  if eliminateNum <=? 0 then updateFail1_via c (pop c) (gen_rng c) (best_of (pop c))
  else
    let es := boltz_weights sp (pop c) in
    do (es', g') <- spin_loop R fuel eliminateNum es (sum_of es) (gen_rng c);
    finish2 R greater c es' g' prev.
(** 715-806. *)
Definition stochastic_via (c : core') : res core' :=
  do prev <- bestFitness_via c;
  let eliminateNum := to_int (popSize R c) - to_int K' in
  if eliminateNum <=? 0 then updateFail1_via c (pop c) (gen_rng c) (best_of (pop c))
  else
    let ws := weights_of greater (pop c) in
    let es := shift_by (min_of ws) ws in
    let s := sum_of es in
    if fle s d0 then
      let (es', g') := su_equal R opt (to_int (popSize R c)) es (gen_rng c) in
      finish2 R greater c es' g' prev
    else
      let interval := fdiv s (d_of_Z K') in
      let (beg, g') := randD_range R d0 interval (gen_rng c) in
      let es' := su_pave interval beg es in
      finish2 R greater c (firstn (Z.to_nat eliminateNum) es') g' prev.
(** 834-906. *)
Definition elite_via (fuel : nat) (c : core') : res core' :=
  let eliminateNum := to_int (popSize R c) - to_int K' in
  if eliminateNum <=? 0 then updateFail1_via c (pop c) (gen_rng c) (best_of (pop c))
  else
    do sorted <- sort_pop std greater (pop c);
    if eliteNum sp <? 0 then UB else
    let ws := weights_of greater (skipn (Z.to_nat (eliteNum sp)) sorted) in
    let es := shift_by (min_of ws) ws in
    let s := sum_of es in
    do (es', g') <- (if fle s d0 then elite_equal R fuel eliminateNum es (gen_rng c)
                     else spin_loop R fuel eliminateNum es s (gen_rng c));
    finish1_via c es' g'.
Definition select_via (m : method) (fuel : nat) (c : core') : res core' :=
  match m with
  | RouletteWheel => roulette_via fuel c
  | Tournament => tournament_via c
  | Truncation => truncation_via c
  | MonteCarlo => montecarlo_via c
  | Probability => probability_via fuel c
  | LinearRank => linear_via fuel c
  | ExponentialRank => exponential_via fuel c
  | Boltzmann => boltzmann_via fuel c
  | StochasticUniversal => stochastic_via c
  | EliteReserved => elite_via fuel c
  end.
End Via.

(** * A program with several solvers of one type *)
Section World.
Context {V A : Type} (R : rng_ops) (std : std_ops) (mode : option method) (greater rec_on : bool).
Context (pw : double -> double -> double) (ex : double -> double) (junk : double) (v0 : V) (vec_max : Z) (sel_fuel : nat).
Notation core' := (core V double nat (G R)).
Notation gene' := (gene V double).
Notation obj' := (obj (V := V) (A := A) R).

(** Reading the node at [e] while the nodes [F] belong to the other objects. *)
Definition peek (F : list gene') (e : nat) (p : list gene') : res gene' := lookup (p ++ F) e.
Definition hooks_w (F : list gene') (opt : ga_option) (sp : sel_params) (m : method) : hooks V double nat (G R) :=
  mkHooks (fun c => select_via R std greater opt sp (peek F (ext c)) m sel_fuel c)
          (fun c => bestFitness_via R (peek F (ext c)) c).
(** [do_run] of SOGAObj.v with these. *)
Definition do_run_w (F : list gene') (o : obj') : res obj' :=
  let opt := s_opt (o_set R o) in
  if negb (o_inited R o) then UB else
  match f_f R (o_slots R o), f_c R (o_slots R o), f_m R (o_slots R o) with
  | Some f, Some c, Some m =>
      match method_of mode (o_set R o), s_strength (o_set R o) with
      | Boltzmann, None => UB
      | mt, _ =>
          do s <- run R (user_of R v0 o f c m) opt junk
                    (hooks_w F opt (params_of pw ex junk (o_set R o)) mt) rec_on vec_max
                    (S (Z.to_nat (maxGenerations opt))) (mkGA (o_core R o) (o_gen R o) (o_rec R o));
          Ok (mkObj R (o_set R o) (o_slots R o) (o_args R o) (ga_core s) (generation s) (record s) true true)
      end
  | _, _, _ => UB
  end.

(** The objects in the order of their construction (None: destroyed); the
    allocator and the generator (Global/RandomDevice.hpp) are shared. *)
Record world := mkW { w_objs : list (option obj'); w_next : nat; w_rng : G R }.
Definition fields (o : obj') (c : core') : obj' := with_core R o c.
Definition live_pop (x : option obj') : list gene' := match x with Some o => pop (o_core R o) | None => [] end.
Definition others (l : list (option obj')) (i : nat) : list gene' :=
  flat_map live_pop (firstn i l) ++ flat_map live_pop (skipn (S i) l).
Definition put (l : list (option obj')) (i : nat) (x : option obj') : list (option obj') := upd l i x.

Inductive event :=
| Construct (ct : slots (V := V) (A := A) R) (a : A)
| CopyOf (i : nat)                    (* solver_t b(objs[i]), or b(std::move(objs[i])) *)
| AssignTo (i j : nat)                (* objs[i] = objs[j] *)
| Destroy (i : nat)
| Call (i : nat) (c : call (V := V) (A := A) R).

(** std::list's copy constructor; node addresses from the allocator. *)
Definition copy_obj (n : nat) (g : G R) (o : obj') : obj' :=
  let c := o_core R o in
  mkObj R (o_set R o) (o_slots R o) (o_args R o)
        (mkCore (copies_with n (pop c)) (n + length (pop c)) (fails c) (ext c) g)
        (o_gen R o) (o_rec R o) (o_inited R o) (o_ran R o).
(** std::list::operator=: existing nodes are assigned, then new ones appended or
    the surplus erased.  _bestGene is assigned the source's iterator. *)
Fixpoint assign_nodes (ids : list nat) (n : nat) (src : list gene') : list gene' :=
  match src with
  | [] => []
  | x :: t => match ids with
              | [] => mkGene n (gvar x) (gcomp x) (gfit x) :: assign_nodes [] (S n) t
              | k :: ids' => mkGene k (gvar x) (gcomp x) (gfit x) :: assign_nodes ids' n t
              end
  end.
Definition assign_obj (n : nat) (g : G R) (dst src : obj') : obj' :=
  let c := o_core R src in
  mkObj R (o_set R src) (o_slots R src) (o_args R src)
        (mkCore (assign_nodes (map gid (pop (o_core R dst))) n (pop c)) (n + length (pop c)) (fails c) (ext c) g)
        (o_gen R src) (o_rec R src) (o_inited R src) (o_ran R src).

Definition step_w (F : list gene') (o : obj') (c : call R) : res obj' :=
  match c with
  | Run _ => do_run_w F o
  | _ => step R std mode greater rec_on pw ex junk v0 vec_max sel_fuel o c
  end.
(** The shared allocator and generator as the object's own. *)
Definition load (n : nat) (g : G R) (o : obj') : obj' :=
  let c := o_core R o in fields o (mkCore (pop c) n (fails c) (ext c) g).
(** One address is skipped after each call: end() of an empty list, which
    initializePop() may store, is the address of no node, now or later. *)
Definition wstep (w : world) (e : event) : res world :=
  match e with
  | Construct ct a => Ok (mkW (w_objs w ++ [Some (fresh R mode greater ct a (w_rng w))]) (w_next w) (w_rng w))
  | CopyOf i =>
      match nth_error (w_objs w) i with
      | Some (Some o) => Ok (mkW (w_objs w ++ [Some (copy_obj (w_next w) (w_rng w) o)])
                                 (w_next w + length (pop (o_core R o)))%nat (w_rng w))
      | _ => UB
      end
  | AssignTo i j =>
      match nth_error (w_objs w) i, nth_error (w_objs w) j with
      | Some (Some d), Some (Some s) =>
          if (i =? j)%nat then Ok w            (* list's operator= checks for itself *)
          else Ok (mkW (put (w_objs w) i (Some (assign_obj (w_next w) (w_rng w) d s)))
                       (w_next w + length (pop (o_core R s)))%nat (w_rng w))
      | _, _ => UB
      end
  | Destroy i =>
      match nth_error (w_objs w) i with
      | Some (Some _) => Ok (mkW (put (w_objs w) i None) (w_next w) (w_rng w))
      | _ => UB
      end
  | Call i c =>
      match nth_error (w_objs w) i with
      | Some (Some o) =>
          do o' <- step_w (others (w_objs w) i) (load (w_next w) (w_rng w) o) c;
          Ok (mkW (put (w_objs w) i (Some o')) (S (next (o_core R o'))) (gen_rng (o_core R o')))
      | _ => UB
      end
  end.
Fixpoint wdrive (w : world) (h : list event) : res world :=
  match h with
  | [] => Ok w
  | e :: t => do w' <- wstep w e; wdrive w' t
  end.
Definition start (g : G R) : world := mkW [] 0 g.

(** * Queries on object [i] *)
Definition object (w : world) (i : nat) : res obj' :=
  match nth_error (w_objs w) i with Some (Some o) => Ok o | _ => UB end.
(** bestGene(), SOGA.hpp:138: the node is read wherever it is. *)
Definition bestGene_of (w : world) (i : nat) : res gene' :=
  do o <- object w i;
  if o_inited R o then peek (others (w_objs w) i) (ext (o_core R o)) (pop (o_core R o)) else UB.
Definition result_of (w : world) (i : nat) : res V := do x <- bestGene_of w i; Ok (gvar x).
Definition bestFitness_of (w : world) (i : nat) : res double :=
  do x <- bestGene_of w i; if gcomp x then Ok (gfit x) else UB.
End World.
