(** Model of Genetic/GABase.hpp, Genetic/GAOption.hpp, Genetic/DefaultGeneType.hpp. *)
From Coq Require Import List Arith ZArith Bool Lia.
From Flocq Require Import BinarySingleNaN.
From Verif Require Import Base Fl Rng.
Import ListNotations.
Open Scope Z_scope.

(** DefaultGeneType.hpp (decision_variable, fitness, is_fitness_computed).
    [gid] is the address of the std::list node holding the gene: iterators and
    pointers are addresses. *)
Record gene (V F : Type) := mkGene {
  gid : nat; gvar : V; gcomp : bool; gfit : F
}.
Arguments mkGene {V F}. Arguments gid {V F}. Arguments gvar {V F}.
Arguments gcomp {V F}. Arguments gfit {V F}.

(** GAOption.hpp:45-51, 60-80. *)
Record ga_option := mkOpt {
  populationSize : Z; maxFailTimes : Z; maxGenerations : Z;
  crossoverProb : double; mutateProb : double
}.
Definition default_option : ga_option := {|
  populationSize := 100; maxFailTimes := 50; maxGenerations := 300;
  crossoverProb := fdiv (d_of_Z 8) (d_of_Z 10);      (* literal 0.8 *)
  mutateProb := fdiv (d_of_Z 5) (d_of_Z 100)         (* literal 0.05 *)
|}.

(** The data the four genetic operations work on: GABase.hpp:150-155
    ([_population], [_failTimes]), the global generator, and [ext], the members
    added by derived classes ([_bestGene], [_pfGenes], ...).  [next] is the
    allocator: the next unused node address. *)
Record core (V F X GG : Type) := mkCore {
  pop : list (gene V F); next : nat; fails : Z; ext : X; gen_rng : GG
}.
Arguments mkCore {V F X GG}. Arguments pop {V F X GG}. Arguments next {V F X GG}.
Arguments fails {V F X GG}. Arguments ext {V F X GG}. Arguments gen_rng {V F X GG}.

(** The whole solver state: GABase.hpp:154 [_generation], 419 [_record]. *)
Record ga (V F X GG : Type) := mkGA {
  ga_core : core V F X GG; generation : Z; record : list F
}.
Arguments mkGA {V F X GG}. Arguments ga_core {V F X GG}.
Arguments generation {V F X GG}. Arguments record {V F X GG}.

(** The user's functions (iFun, fFun, cFun, mFun), GAAbstract.hpp.  They may
    draw random numbers, except the fitness function, which is a function of
    the decision variable. *)
Record user_funs (V F GG : Type) := mkFuns {
  iFun : GG -> V * GG;
  fFun : V -> F;
  cFun : V -> V -> GG -> (V * V) * GG;
  mFun : V -> GG -> V * GG
}.
Arguments mkFuns {V F GG}. Arguments iFun {V F GG}. Arguments fFun {V F GG}.
Arguments cFun {V F GG}. Arguments mFun {V F GG}.

(** What a derived class supplies through CRTP: [__impl_select] and
    [bestFitness]. *)
Record hooks (V F X GG : Type) := mkHooks {
  hk_select : core V F X GG -> res (core V F X GG);
  hk_best : core V F X GG -> res F
}.
Arguments mkHooks {V F X GG}. Arguments hk_select {V F X GG}. Arguments hk_best {V F X GG}.

Section Model.
Context {V F X : Type} (R : rng_ops) (fs : user_funs V F (G R)) (opt : ga_option).
Notation core' := (core V F X (G R)).
Notation gene' := (gene V F).

Definition set_pop (c : core') (p : list gene') (n : nat) (g : G R) : core' :=
  mkCore p n (fails c) (ext c) g.

(** Value of an uninitialised fitness member (reading it before it has been
    computed would be undefined; [gcomp = false] marks it). *)
Variable junk : F.

(** GABase.hpp:120-127 [initializePop]: list::resize then iFun on every gene.
    Genes kept by [resize] keep their nodes; their variables are overwritten. *)
Fixpoint init_vars (p : list gene') (g : G R) : list gene' * G R :=
  match p with
  | [] => ([], g)
  | x :: t => let (v, g1) := iFun fs g in
              let (t', g2) := init_vars t g1 in
              (mkGene (gid x) v false (gfit x) :: t', g2)
  end.
Variable v0 : V.   (* value-initialised decision variable *)
Definition initializePop (c : core') : core' :=
  let n := Z.to_nat (populationSize opt) in
  let kept := firstn n (pop c) in
  let extra := map (fun k => mkGene k v0 false junk)
                   (seq (next c) (n - length kept)) in
  let (p, g) := init_vars (kept ++ extra) (gen_rng c) in
  mkCore p (next c + (n - length kept))%nat (fails c) (ext c) g.

(** GABase.hpp:232-242 (no OpenMP) [__impl_computeAllFitness]. *)
Definition evaluated (x : gene') : gene' :=
  if gcomp x then x else mkGene (gid x) (gvar x) true (fFun fs (gvar x)).
Definition computeAllFitness (c : core') : core' :=
  mkCore (map evaluated (pop c)) (next c) (fails c) (ext c) (gen_rng c).

(** GABase.hpp:213-231 (OpenMP) [__impl_computeAllFitness]: the tasks are the
    genes not computed when the vector was filled; each task writes the fitness
    and then the flag.  [exec] runs an interleaving: an event [i] lets the task
    of gene number [i] do its next memory write.  [progress] counts the writes
    done; [log] collects the calls of the fitness function. *)
Record par := mkPar { p_pop : list gene'; progress : list nat; log : list nat }.
Fixpoint upd {A} (l : list A) (i : nat) (a : A) : list A :=
  match l, i with
  | [], _ => []
  | _ :: t, O => a :: t
  | x :: t, S j => x :: upd t j a
  end.
(* number of writes still allowed for a gene: 2 when it is a task, else none *)
Definition task_init (x : gene') : nat := if gcomp x then 2%nat else 0%nat.
Definition par_start (p : list gene') : par := mkPar p (map task_init p) [].
Definition par_step (s : par) (i : nat) : par :=
  match nth_error (p_pop s) i, nth_error (progress s) i with
  | Some x, Some 0%nat =>     (* GABase.hpp:227: doFitness(..., &ptr->fitness) *)
      mkPar (upd (p_pop s) i (mkGene (gid x) (gvar x) (gcomp x) (fFun fs (gvar x))))
            (upd (progress s) i 1%nat) (log s ++ [i])
  | Some x, Some 1%nat =>     (* GABase.hpp:229: is_fitness_computed = true *)
      mkPar (upd (p_pop s) i (mkGene (gid x) (gvar x) true (gfit x)))
            (upd (progress s) i 2%nat) (log s)
  | _, _ => s
  end.
Definition exec (p : list gene') (events : list nat) : par :=
  fold_left par_step events (par_start p).

(** GABase.hpp:267-271: collect the genes whose draw is <= the probability. *)
Fixpoint choose (prob : double) (p : list gene') (g : G R) : list gene' * G R :=
  match p with
  | [] => ([], g)
  | x :: t => let (d, g1) := rand01 R g in
              let (q, g2) := choose prob t g1 in
              (if fle d prob then x :: q else q, g2)
  end.

(** GABase.hpp:279-296: pairs are taken from the back of the queue.
    Argument: the queue reversed. *)
Fixpoint mate (q : list gene') (n : nat) (g : G R) : list gene' * nat * G R :=
  match q with
  | a :: b :: t =>
      let '((v1, v2), g1) := cFun fs (gvar a) (gvar b) g in
      let '(rest, n', g2) := mate t (n + 2) g1 in
      (mkGene n v1 false junk :: mkGene (n + 1) v2 false junk :: rest, n', g2)
  | _ => ([], n, g)
  end.

(** GABase.hpp:262-297 [__impl_crossover]. *)
Definition crossover (c : core') : core' :=
  let (q0, g1) := choose (crossoverProb opt) (pop c) (gen_rng c) in
  let (q1, g2) := shuffle R q0 g1 in
  let q2 := if Nat.odd (length q1) then removelast q1 else q1 in
  let '(kids, n', g3) := mate (rev q2) (next c) g2 in
  set_pop c (pop c ++ kids) n' g3.

(** GABase.hpp:311-316. *)
Fixpoint mutants (q : list gene') (n : nat) (g : G R) : list gene' * nat * G R :=
  match q with
  | [] => ([], n, g)
  | a :: t =>
      let (v, g1) := mFun fs (gvar a) g in
      let '(rest, n', g2) := mutants t (S n) g1 in
      (mkGene n v false junk :: rest, n', g2)
  end.

(** GABase.hpp:303-317 [__impl_mutate].  The [reserve] hint on line 305 only
    pre-allocates; it is not modelled. *)
Definition mutate (c : core') : core' :=
  let (q, g1) := choose (mutateProb opt) (pop c) (gen_rng c) in
  let '(kids, n', g2) := mutants q (next c) g1 in
  set_pop c (pop c ++ kids) n' g2.

(** GABase.hpp:171-205 [__impl_run]; 419-431 the recording specialisation.
    [rec_on] selects the recording specialisation; [vec_max] is
    std::vector<Fitness_t>::max_size(), beyond which [reserve] throws inside a
    noexcept function. *)
Variable hk : hooks V F X (G R).
Variable rec_on : bool.
Variable vec_max : Z.

Definition evaluate_and_select (c : core') : res core' :=
  hk_select hk (computeAllFitness c).
Definition breed (c : core') : core' := mutate (crossover c).

Fixpoint ga_loop (fuel : nat) (s : ga V F X (G R)) : res (ga V F X (G R)) :=
  match fuel with
  | O => Fuel
  | S n =>
      let gen := wrap64 (generation s + 1) in                       (* 176 *)
      do c <- evaluate_and_select (ga_core s);                      (* 177-179 *)
      do r <- (if rec_on then do b <- hk_best hk c; Ok (record s ++ [b])
               else Ok (record s));                                 (* 181 *)
      if (maxGenerations opt <? gen)                                (* 183 *)
         || ((0 <? maxFailTimes opt) && (maxFailTimes opt <? fails c))  (* 189 *)
      then Ok (mkGA c (wrap64 (gen - 1)) r)                         (* 204 *)
      else ga_loop n (mkGA (breed c) gen r)                         (* 201-202 *)
  end.

Definition run (fuel : nat) (s : ga V F X (G R)) : res (ga V F X (G R)) :=
  let c := ga_core s in
  if rec_on && (vec_max <? wrap64 (maxGenerations opt + 1)) then Abort  (* 421 *)
  else ga_loop fuel
         (mkGA (mkCore (pop c) (next c) 0 (ext c) (gen_rng c)) 0
               (if rec_on then [] else record s)).
End Model.
