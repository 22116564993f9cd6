(** Model of Genetic/SOGA.hpp and Genetic/SOGASelecters.hpp. *)
From Coq Require Import List Arith ZArith Bool.
From Flocq Require Import BinarySingleNaN.
From Verif Require Import Base Fl Rng StdOps GABase.
Import ListNotations.
Open Scope Z_scope.

(** Enumerations.hpp: SelectMethod (declaration order). *)
Inductive method :=
| RouletteWheel | Tournament | Truncation | MonteCarlo | Probability
| LinearRank | ExponentialRank | Boltzmann | StochasticUniversal | EliteReserved.

(** Parameters held by the selectors (SOGASelecters.hpp:205, 492, 583, 648, 832)
    and the libm functions they call. *)
Record sel_params := mkParams {
  tournamentSize : Z;
  linWorst : double; linBest : double;
  expBase : double;
  boltzStrength : double;
  eliteNum : Z;
  libm_pow : double -> double -> double;
  libm_exp : double -> double
}.

Section Model.
Context {V : Type} (R : rng_ops) (std : std_ops) (greater : bool) (opt : ga_option) (sp : sel_params).
(** [ext] is [_bestGene] (SOGA.hpp:168), a list iterator, i.e. a node address. *)
Notation core' := (core V double nat (G R)).
Notation gene' := (gene V double).

(** SOGA.hpp:177-182 [isBetter]. *)
Definition isBetter (a b : double) : bool := if greater then flt b a else flt a b.
(** SOGA.hpp:184-186 [GeneItCompareFun]. *)
Definition geneBetter (a b : gene') : bool := isBetter (gfit a) (gfit b).

(** Dereferencing an iterator: undefined when the node is gone. *)
Definition lookup (p : list gene') (id : nat) : res gene' :=
  match find (fun x => Nat.eqb (gid x) id) p with Some x => Ok x | None => UB end.

(** SOGA.hpp:188-197 [findCurrentBestGene]; begin() == end() on an empty
    population, hence the option. *)
Fixpoint best_from (acc : gene') (p : list gene') : gene' :=
  match p with
  | [] => acc
  | x :: t => best_from (if geneBetter x acc then x else acc) t
  end.
Definition findCurrentBestGene (p : list gene') : option gene' :=
  match p with [] => None | x :: _ => Some (best_from x p) end.

(** SOGA.hpp:139-148 [bestFitness]. *)
Definition bestFitness (c : core') : res double :=
  do x <- lookup (pop c) (ext c); Ok (gfit x).

(** std::list::erase of one iterator. *)
Fixpoint erase1 (p : list gene') (id : nat) : res (list gene') :=
  match p with
  | [] => UB
  | x :: t => if Nat.eqb (gid x) id then Ok t
              else do t' <- erase1 t id; Ok (x :: t')
  end.
Fixpoint erase_all (p : list gene') (ids : list nat) : res (list gene') :=
  match ids with
  | [] => Ok p
  | i :: t => do p' <- erase1 p i; erase_all p' t
  end.
(** SOGA.hpp:199-204 [applyErasement]. *)
Definition applyErasement (p : list gene') (es : list (nat * double)) : res (list gene') :=
  erase_all p (map fst es).

(** SOGA.hpp:206-215 [updateFailTimesAndBestGene(newBest, prevFitness)];
    the new best is read through its iterator. *)
Definition updateFail2 (c : core') (p : list gene') (g : G R) (newBest : option gene') (prev : double) : res core' :=
  match newBest with
  | None => UB
  | Some b => Ok (mkCore p (next c)
                    (if isBetter (gfit b) prev then 0 else wrap64 (fails c + 1))
                    (gid b) g)
  end.
(** SOGA.hpp:221-223: the one-argument version reads [_bestGene->fitness]. *)
Definition updateFail1 (c : core') (p : list gene') (g : G R) (newBest : option gene') : res core' :=
  do old <- lookup p (ext c); updateFail2 c p g newBest (gfit old).

(** Sizes as seen by the selectors. *)
Definition popSize (c : core') : Z := Z.of_nat (length (pop c)).
Definition K : Z := populationSize opt.

(** std::sort over the population with GeneItCompareFun.  With a NaN fitness
    the comparator is not a strict weak ordering: undefined. *)
Definition sort_pop (p : list gene') : res (list gene') :=
  if existsb (fun x => is_nan (gfit x)) p then UB else Ok (sort std geneBetter p).

(** ** Truncation, SOGASelecters.hpp:54-76 *)
Fixpoint trunc_erase (p : list gene') (worst_first : list gene') : res (list gene') :=
  if K <? Z.of_nat (length p) then
    match worst_first with
    | [] => UB
    | w :: t => do p' <- erase1 p (gid w); trunc_erase p' t
    end
  else Ok p.
Definition sel_truncation (c : core') : res core' :=
  do sp <- sort_pop (pop c);
  do p' <- trunc_erase (pop c) (rev sp);
  (* sortSpace.front() after (size - K) pop_backs *)
  let kept := firstn (length p') sp in
  match kept with
  | [] => UB
  | b :: _ => updateFail1 c p' (gen_rng c) (Some b)
  end.

(** ** The wheel *)
(** SOGASelecters.hpp:138-144 (and 402-410, 520-528, 611-619, 684-692, 885-892):
    walk along the list subtracting weights until r <= 0. *)
Fixpoint walk (es : list (nat * double)) (r : double) : option (double * list (nat * double)) * double :=
  match es with
  | [] => (None, r)
  | e :: t =>
      let r' := fsub r (snd e) in
      if fle r' d0 then (Some (snd e, t), r')
      else match walk t r' with
           | (Some (w, t'), rf) => (Some (w, e :: t'), rf)
           | (None, rf) => (None, rf)
           end
  end.
(** One turn of the wheel: 135-150. *)
Definition spin (es : list (nat * double)) (sum : double) (g : G R)
  : res (list (nat * double) * double * G R) :=
  let (r, g') := randD_range R d0 sum g in
  match walk es r with
  | (Some (w, es'), _) => Ok (es', fsub sum w, g')
  | (None, rf) =>
      if flt d0 rf then
        match rev es with
        | [] => UB                                   (* back() of an empty list *)
        | (_, w) :: _ => Ok (removelast es, fsub sum w, g')
        end
      else Ok (es, sum, g')                          (* r is NaN: nothing chosen *)
  end.
(** [while (int(eliminateSpace.size()) > eliminateNum)] *)
Fixpoint spin_loop (fuel : nat) (target : Z) (es : list (nat * double)) (sum : double) (g : G R)
  : res (list (nat * double) * G R) :=
  if Z.of_nat (length es) <=? target then Ok (es, g)
  else match fuel with
       | O => Fuel
       | S n => do (es', sum', g') <- spin es sum g; spin_loop n target es' sum' g'
       end.

(** Fitness with the sign that makes greater better (e.g. 118-122). *)
Definition signed (x : gene') : double := if greater then gfit x else fopp (gfit x).
Definition weights_of (p : list gene') : list (nat * double) :=
  map (fun x => (gid x, signed x)) p.
(** std::min(a,b) is (b < a) ? b : a. *)
Definition std_min (a b : double) : double := if flt b a then b else a.
Definition min_of (ws : list (nat * double)) : double :=
  fold_left (fun m w => std_min m (snd w)) ws dinf.
Definition min_of' (ws : list (nat * double)) : double :=      (* line 379: arguments swapped *)
  fold_left (fun m w => std_min (snd w) m) ws dinf.
Definition shift_by (m : double) (ws : list (nat * double)) : list (nat * double) :=
  map (fun e => (fst e, fsub (snd e) m)) ws.
Definition sum_of (ws : list (nat * double)) : double :=
  fold_left (fun s e => fadd s (snd e)) ws d0.

(** Common endings: erase what is left, look for the best, compare with the
    best fitness cached before the selection. *)
Definition finish2 (c : core') (es : list (nat * double)) (g : G R) (prev : double) : res core' :=
  do p' <- applyErasement (pop c) es;
  updateFail2 c p' g (findCurrentBestGene p') prev.
(** ... or with the old best, after the erasure (EliteReserved). *)
Definition finish1 (c : core') (es : list (nat * double)) (g : G R) : res core' :=
  do p' <- applyErasement (pop c) es;
  updateFail1 c p' g (findCurrentBestGene p').

(** ** RouletteWheel, SOGASelecters.hpp:93-177 *)
(** 153-159: equal fitness, each element is dropped with chance 1/size. *)
Fixpoint first_zero (size : Z) (es : list (nat * double)) (g : G R) : list (nat * double) * G R :=
  match es with
  | [] => ([], g)
  | e :: t => let (i, g1) := randIdx R size g in
              if i =? 0 then (t, g1)
              else let (t', g2) := first_zero size t g1 in (e :: t', g2)
  end.
Fixpoint roulette_loop (fuel : nat) (target : Z) (es : list (nat * double)) (sum : double) (g : G R)
  : res (list (nat * double) * G R) :=
  if Z.of_nat (length es) <=? target then Ok (es, g)
  else match fuel with
       | O => Fuel
       | S n =>
           if flt d0 sum then
             do (es', sum', g') <- spin es sum g; roulette_loop n target es' sum' g'
           else
             let (es', g') := first_zero (Z.of_nat (length es)) es g in
             roulette_loop n target es' sum g'
       end.
Definition sel_roulette (fuel : nat) (c : core') : res core' :=
  let eliminateNum := to_int (wrap64 (popSize c - K)) in                 (* 111-112 *)
  do prev <- bestFitness c;
  if eliminateNum <=? 0 then
    updateFail2 c (pop c) (gen_rng c) (findCurrentBestGene (pop c)) prev
  else
    let ws := weights_of (pop c) in
    let es := shift_by (min_of ws) ws in
    do (es', g') <- roulette_loop fuel eliminateNum es (sum_of es) (gen_rng c);
    finish2 c es' g' prev.

(** ** Tournament, SOGASelecters.hpp:206-296 *)
Fixpoint tour_best (l : list gene') (acc : gene') : gene' :=
  match l with
  | [] => acc
  | x :: t => tour_best t (if isBetter (gfit x) (gfit acc) then x else acc)
  end.
(** 243-245: bring new candidates into the tournament by swapping. *)
Fixpoint tour_swap (n : nat) (a : nat) (space : list gene') (g : G R) : res (list gene' * G R) :=
  match n with
  | O => Ok (space, g)
  | S m =>
      let (b, g1) := randIdx2 R (tournamentSize sp) (Z.of_nat (length space)) g in
      match nth_error space a, (if b <? 0 then None else nth_error space (Z.to_nat b)) with
      | Some x, Some y => tour_swap m (S a) (upd (upd space a y) (Z.to_nat b) x) g1
      | _, _ => UB
      end
  end.
(** 233-246; returns the addresses of the winners, one per play. *)
Fixpoint tour_play (n : nat) (space : list gene') (g : G R) : res (list nat * G R) :=
  match n with
  | O => Ok ([], g)
  | S m =>
      let ts := Z.to_nat (tournamentSize sp) in
      if (length space <? ts)%nat then UB else
      match firstn (Nat.max 1 ts) space with
      | [] => UB
      | b :: rest =>
          let w := tour_best rest b in
          do (space', g1) <- tour_swap ts 0 space g;
          do (ws, g2) <- tour_play m space' g1;
          Ok (gid w :: ws, g2)
      end
  end.
Definition times_selected (ws : list nat) (x : gene') : nat := count_occ Nat.eq_dec ws (gid x).
Fixpoint copies_with (n : nat) (l : list gene') : list gene' :=
  match l with
  | [] => []
  | x :: t => mkGene n (gvar x) (gcomp x) (gfit x) :: copies_with (S n) t
  end.
Definition sel_tournament (c : core') : res core' :=
  if negb (tournamentSize sp <? to_int K) then Abort else                (* 213-215 *)
  do prev <- bestFitness c;
  if to_int (popSize c) <=? to_int K then                                (* 220 *)
    updateFail2 c (pop c) (gen_rng c) (findCurrentBestGene (pop c)) prev
  else
    let (space, g1) := shuffle R (pop c) (gen_rng c) in
    do (ws, g2) <- tour_play (Z.to_nat (to_int K)) space g1;
    (* 249-261: the ones never selected are erased *)
    let kept := filter (fun x => negb (times_selected ws x =? 0)%nat) (pop c) in
    (* 266-272 *)
    let best := findCurrentBestGene kept in
    (* 274-280: one extra copy for each further time a gene was selected *)
    let extra := flat_map (fun x => repeat x (times_selected ws x - 1)) (umap_order std kept) in
    let p' := kept ++ copies_with (next c) extra in
    do c' <- updateFail2 c p' g2 best prev;
    Ok (mkCore (pop c') (next c + length extra)%nat (fails c') (ext c') (gen_rng c')).

(** ** MonteCarlo, SOGASelecters.hpp:307-339 *)
Definition sel_montecarlo (c : core') : res core' :=
  do prev <- bestFitness c;
  if to_int (popSize c) <=? to_int K then
    updateFail2 c (pop c) (gen_rng c) (findCurrentBestGene (pop c)) prev
  else
    let (its, g1) := shuffle R (map gid (pop c)) (gen_rng c) in
    let eliminateNum := to_int (popSize c) - to_int K in
    do p' <- erase_all (pop c) (firstn (Z.to_nat eliminateNum) its);
    updateFail2 c p' g1 (findCurrentBestGene p') prev.

(** ** Probability, SOGASelecters.hpp:350-440 *)
Definition prob_weights (p : list gene') : list (nat * double) :=
  let N := Z.of_nat (length p) in
  let ws := weights_of p in
  let es := shift_by (min_of' ws) ws in
  let s := sum_of es in
  let normed :=
    if fle s d0 then map (fun e => (fst e, fdiv d1 (d_of_Z N))) es
    else map (fun e => (fst e, fdiv (snd e) s)) es in
  map (fun e => (fst e,
        fmul (fmul (fofZ (10 ^ 100) 0)                                    (* the literal 1e100 *)
                   (libm_pow sp (snd e) (d_of_Z (to_int K))))
             (libm_pow sp (fsub d1 (snd e)) (d_of_Z (to_int N - to_int K))))) normed.
Definition sel_probability (fuel : nat) (c : core') : res core' :=
  let eliminateNum := to_int (popSize c) - to_int K in
  do prev <- bestFitness c;
  if eliminateNum <=? 0 then
    updateFail2 c (pop c) (gen_rng c) (findCurrentBestGene (pop c)) prev
  else
    let es := prob_weights (pop c) in
    do (es', g') <- spin_loop fuel eliminateNum es (sum_of es) (gen_rng c);
    finish2 c es' g' prev.

(** ** LinearRank, SOGASelecters.hpp:489-545 *)
Definition linear_weights (sorted : list gene') : list (nat * double) :=
  let N := Z.of_nat (length sorted) in
  let nNeg := fmul (linWorst sp) (d_of_Z N) in
  let nPos := fmul (linBest sp) (d_of_Z N) in
  map (fun '(idx, x) =>
         (gid x,
          fdiv (fadd nNeg
                 (fdiv (fmul (fsub nPos nNeg) (d_of_Z (N - Z.of_nat idx - 1))) (d_of_Z (N - 1))))
               (d_of_Z N)))
      (combine (seq 0 (length sorted)) sorted).
Definition sel_linear (fuel : nat) (c : core') : res core' :=
  do prev <- bestFitness c;
  if to_int (popSize c) <=? to_int K then
    updateFail1 c (pop c) (gen_rng c) (findCurrentBestGene (pop c))
  else
    do sorted <- sort_pop (pop c);
    do (es', g') <- spin_loop fuel (to_int (popSize c) - to_int K) (linear_weights sorted) d1 (gen_rng c);
    finish2 c es' g' prev.

(** ** ExponentialRank, SOGASelecters.hpp:580-634 *)
Definition exp_weights (sorted : list gene') : list (nat * double) :=
  let N := Z.of_nat (length sorted) in
  let q := fdiv (fsub (expBase sp) d1) (fsub (libm_pow sp (expBase sp) (d_of_Z N)) d1) in
  map (fun '(idx, x) => (gid x, fmul q (libm_pow sp (expBase sp) (d_of_Z (Z.of_nat idx)))))
      (combine (seq 0 (length sorted)) sorted).
Definition sel_exponential (fuel : nat) (c : core') : res core' :=
  do prev <- bestFitness c;
  if to_int (popSize c) <=? to_int K then
    updateFail1 c (pop c) (gen_rng c) (findCurrentBestGene (pop c))
  else
    do sorted <- sort_pop (pop c);
    do (es', g') <- spin_loop fuel (to_int (popSize c) - to_int K) (exp_weights sorted) d1 (gen_rng c);
    finish2 c es' g' prev.

(** ** Boltzmann, SOGASelecters.hpp:650-706 *)
Definition boltz_weights (p : list gene') : list (nat * double) :=
  map (fun x => (gid x, libm_exp sp (fmul (boltzStrength sp) (gfit x)))) p.
Definition sel_boltzmann (fuel : nat) (c : core') : res core' :=
  do prev <- bestFitness c;
  let eliminateNum := to_int (popSize c) - to_int K in
  if eliminateNum <=? 0 then
    updateFail1 c (pop c) (gen_rng c) (findCurrentBestGene (pop c))
  else
    let es := boltz_weights (pop c) in
    do (es', g') <- spin_loop fuel eliminateNum es (sum_of es) (gen_rng c);
    finish2 c es' g' prev.

(** ** StochasticUniversal, SOGASelecters.hpp:715-806 *)
(** 754-761 *)
Fixpoint su_equal (N : Z) (es : list (nat * double)) (g : G R) : list (nat * double) * G R :=
  match es with
  | [] => ([], g)
  | e :: t => let (d, g1) := rand01 R g in
              let (t', g2) := su_equal N t g1 in
              (if fle (fmul d (d_of_Z K)) (d_of_Z N) then t' else e :: t', g2)
  end.
(** 785-795 *)
Fixpoint su_pave (interval counter : double) (es : list (nat * double)) : list (nat * double) :=
  match es with
  | [] => []
  | e :: t =>
      let c' := fadd counter (snd e) in
      if fle interval c' then su_pave interval (fsub c' interval) t
      else e :: su_pave interval c' t
  end.
Definition sel_stochastic (c : core') : res core' :=
  do prev <- bestFitness c;
  let eliminateNum := to_int (popSize c) - to_int K in
  if eliminateNum <=? 0 then
    updateFail1 c (pop c) (gen_rng c) (findCurrentBestGene (pop c))
  else
    let ws := weights_of (pop c) in
    let es := shift_by (min_of ws) ws in
    let s := sum_of es in
    if fle s d0 then
      let (es', g') := su_equal (to_int (popSize c)) es (gen_rng c) in
      finish2 c es' g' prev
    else
      let interval := fdiv s (d_of_Z K) in
      let (beg, g') := randD_range R d0 interval (gen_rng c) in
      let es' := su_pave interval beg es in
      (* 797-801: pop_back down to eliminateNum *)
      finish2 c (firstn (Z.to_nat eliminateNum) es') g' prev.

(** ** EliteReserved, SOGASelecters.hpp:834-906 *)
(** 872-878 *)
Fixpoint elite_first (size : Z) (es : list (nat * double)) (g : G R) : list (nat * double) * G R :=
  match es with
  | [] => ([], g)
  | e :: t => let (d, g1) := rand01 R g in
              if fle (fmul d (d_of_Z size)) d1 then (t, g1)
              else let (t', g2) := elite_first size t g1 in (e :: t', g2)
  end.
Fixpoint elite_equal (fuel : nat) (target : Z) (es : list (nat * double)) (g : G R)
  : res (list (nat * double) * G R) :=
  if Z.of_nat (length es) <=? target then Ok (es, g)
  else match fuel with
       | O => Fuel
       | S n => let (es', g') := elite_first (Z.of_nat (length es)) es g in
                elite_equal n target es' g'
       end.
Definition sel_elite (fuel : nat) (c : core') : res core' :=
  let eliminateNum := to_int (popSize c) - to_int K in
  if eliminateNum <=? 0 then
    updateFail1 c (pop c) (gen_rng c) (findCurrentBestGene (pop c))
  else
    do sorted <- sort_pop (pop c);
    if eliteNum sp <? 0 then UB else                    (* sortSpace[negative] *)
    let ws := weights_of (skipn (Z.to_nat (eliteNum sp)) sorted) in
    let es := shift_by (min_of ws) ws in
    let s := sum_of es in
    do (es', g') <- (if fle s d0 then elite_equal fuel eliminateNum es (gen_rng c)
                     else spin_loop fuel eliminateNum es s (gen_rng c));
    finish1 c es' g'.

(** ** Dispatch *)
(** The compile-time solver: SOGASelector<sm>::__impl___impl_select. *)
Definition select (m : method) (fuel : nat) (c : core') : res core' :=
  match m with
  | RouletteWheel => sel_roulette fuel c
  | Tournament => sel_tournament c
  | Truncation => sel_truncation c
  | MonteCarlo => sel_montecarlo c
  | Probability => sel_probability fuel c
  | LinearRank => sel_linear fuel c
  | ExponentialRank => sel_exponential fuel c
  | Boltzmann => sel_boltzmann fuel c
  | StochasticUniversal => sel_stochastic c
  | EliteReserved => sel_elite fuel c
  end.

(** SOGASelecters.hpp:909-928: SOGAInheriter's chain of comparisons, starting
    at SelectMethod(0); the last one is taken without a comparison. *)
Definition method_order : list method :=
  [RouletteWheel; Tournament; Truncation; MonteCarlo; Probability;
   LinearRank; ExponentialRank; Boltzmann; StochasticUniversal; EliteReserved].
Definition method_eqb (a b : method) : bool :=
  match a, b with
  | RouletteWheel, RouletteWheel | Tournament, Tournament | Truncation, Truncation
  | MonteCarlo, MonteCarlo | Probability, Probability | LinearRank, LinearRank
  | ExponentialRank, ExponentialRank | Boltzmann, Boltzmann
  | StochasticUniversal, StochasticUniversal | EliteReserved, EliteReserved => true
  | _, _ => false
  end.
Fixpoint dispatch (chain : list method) (m : method) (fuel : nat) (c : core') : res core' :=
  match chain with
  | [] => UB
  | [last] => select last fuel c
  | s :: rest => if method_eqb m s then select s fuel c else dispatch rest m fuel c
  end.
Definition select_runtime (m : method) (fuel : nat) (c : core') : res core' :=
  dispatch method_order m fuel c.

(** SOGA.hpp:162-165 [initializePop]: the first gene becomes the best; begin()
    of an empty list cannot be dereferenced (no node has that address). *)
Definition soga_initializePop (fs : user_funs V double (G R)) (junk : double) (v0 : V) (c : core') : core' :=
  let c' := initializePop R fs opt junk v0 c in
  mkCore (pop c') (next c') (fails c')
         (match pop c' with [] => next c' | x :: _ => gid x end) (gen_rng c').

Definition soga_hooks (m : method) (fuel : nat) : hooks V double nat (G R) :=
  mkHooks (select m fuel) bestFitness.
End Model.
