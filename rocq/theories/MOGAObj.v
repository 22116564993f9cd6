(** Model of an NSGA2 or NSGA3 solver object as its user drives it: construction,
    the setters, initializePop() and run() in any order, and the queries.
    Genetic/NSGA2.hpp, NSGA3.hpp, NSGA3Base.hpp, NSGABase.hpp, MOGAAbstract.hpp,
    GABase.hpp:101-150, GAAbstract.hpp, Global/FunBody.hpp.
    The number of objectives [M] is the template argument ObjNum; with
    Eigen::Dynamic, MOGABase.hpp:134 names a member isCalculated() that no gene
    has, so such a solver does not compile. *)
From Coq Require Import List Arith ZArith Bool.
From Flocq Require Import BinarySingleNaN.
From Verif Require Import Base Fl Rng StdOps GABase MOGA NSGA3.
Import ListNotations.
Open Scope Z_scope.

(** The class: NSGA2 with its FitnessOption, or NSGA3 with its
    ReferencePointOption (which fixes FITNESS_LESS_BETTER). *)
Inductive kind := NSGA2 (greater : bool) | NSGA3_single | NSGA3_double.
Definition greater_of (k : kind) : bool := match k with NSGA2 g => g | _ => false end.
Definition is_nsga3 (k : kind) : bool := match k with NSGA2 _ => false | _ => true end.

Section Obj.
Context {V A : Type} (R : rng_ops) (std : std_ops) (lin : lin_ops) (M : nat) (k : kind) (rec_on : bool).
(** Contents of uninitialised memory; a value-initialised variable;
    std::vector::max_size(). *)
Context (junk : list double) (v0 : V) (vec_max : Z).
Notation fit := (list double).
Notation core' := (core V fit (list nat) (G R)).
Notation gene' := (gene V fit).

(** FunBody.hpp:40-74, as in SOGAObj.v: None is nullptr. *)
Record slots := mkSlots {
  f_i : option (A -> G R -> V * G R);
  f_f : option (A -> V -> fit);
  f_c : option (A -> V -> V -> G R -> (V * V) * G R);
  f_m : option (A -> V -> G R -> V * G R)
}.

(** GABase.hpp:152 [_option]; NSGA3Base.hpp:113 [_precision] (None: not yet
    written, no constructor does); 209-210 [_innerPrecision], [_outerPrecision];
    NSGA3Abstract.hpp [referencePoses], a list of columns; the rest as in GABase.v
    ([ext] is [_pfGenes]).  [mo_ran]: _generation and _failTimes are assigned. *)
Record mobj := mkMObj {
  mo_opt : ga_option; mo_slots : slots; mo_args : A;
  mo_prec : option nat; mo_prec2 : nat * nat; mo_refs : list fit;
  mo_core : core'; mo_gen : Z; mo_rec : list fit; mo_ran : bool
}.

(** The constructors: NSGA2.hpp:85, NSGA3.hpp:96, NSGA3Base.hpp:164-167. *)
Definition fresh (ct : slots) (a : A) (g : G R) : mobj := {|
  mo_opt := default_option; mo_slots := ct; mo_args := a;
  mo_prec := None; mo_prec2 := default_precisions; mo_refs := [];
  mo_core := mkCore [] 0%nat 0 [] g; mo_gen := 0; mo_rec := []; mo_ran := false |}.

Inductive call :=
| SetOption (o : ga_option)
| SetIFun (f : option (A -> G R -> V * G R))
| SetFFun (f : option (A -> V -> fit))
| SetCFun (f : option (A -> V -> V -> G R -> (V * V) * G R))
| SetMFun (f : option (A -> V -> G R -> V * G R))
| SetArgs (a : A)                          (* GAAbstract.hpp: setArgs, or args() = a *)
| SetPrecision (p : nat)                   (* setReferencePointPrecision(p) *)
| SetPrecisions (i o : nat)                (* setReferencePointPrecision(i, o) *)
| OtherDraws (g : G R)                     (* other users of the global generator *)
| InitializePop
| Run.

(** Members the class has. *)
Definition has_member (ct : slots) (c : call) : bool :=
  match c with
  | SetIFun _ => match f_i ct with None => true | _ => false end
  | SetFFun _ => match f_f ct with None => true | _ => false end
  | SetCFun _ => match f_c ct with None => true | _ => false end
  | SetMFun _ => match f_m ct with None => true | _ => false end
  | SetPrecision _ => match k with NSGA3_single => true | _ => false end
  | SetPrecisions _ _ => match k with NSGA3_double => true | _ => false end
  | _ => true
  end.

(** NSGA3.hpp:103-106: initializePop() of NSGA3 first computes the reference points. *)
Definition make_refs (o : mobj) : res (list fit * G R) :=
  match k with
  | NSGA2 _ => Ok (mo_refs o, gen_rng (mo_core o))
  | NSGA3_single => makePoses1 R M (mo_prec o) (gen_rng (mo_core o))
  | NSGA3_double => let (i, e) := mo_prec2 o in makePoses2 R M i e (gen_rng (mo_core o))
  end.
Definition no_init (g : G R) : V * G R := (v0, g).
Definition init_funs (i : G R -> V * G R) : user_funs V fit (G R) :=
  mkFuns i (fun _ => junk) (fun a b g => ((a, b), g)) (fun a g => (a, g)).
(** NSGABase.hpp:63-67 (clears only a work space), MOGAAbstract.hpp:116-120
    (clears _pfGenes), GABase.hpp:120-127.  A call through nullptr is undefined. *)
Definition do_init (o : mobj) : res mobj :=
  do (ws, g) <- make_refs o;
  let c := mo_core o in
  let c1 := mkCore (pop c) (next c) (fails c) [] g in
  let finish i := Ok (mkMObj (mo_opt o) (mo_slots o) (mo_args o) (mo_prec o) (mo_prec2 o) ws
                        (initializePop R (init_funs i) (mo_opt o) junk v0 c1) (mo_gen o) (mo_rec o) (mo_ran o)) in
  match f_i (mo_slots o) with
  | None => if populationSize (mo_opt o) =? 0 then finish no_init else UB
  | Some i => finish (i (mo_args o))
  end.

(** __impl_select of the class; the niche loop of NSGA3 gets more steps than it
    can need (C27_terminates). *)
Definition select_of (opt : ga_option) (ws : list fit) : core' -> res core' :=
  match k with
  | NSGA2 gr => nsga2_select R std M gr opt
  | _ => nsga3_select R std lin M opt (length ws + Z.to_nat (populationSize opt)) ws
  end.
Definition hooks_of (opt : ga_option) (ws : list fit) : hooks V fit (list nat) (G R) :=
  mkHooks (select_of opt ws) (mo_bestFitness R M (greater_of k)).
Definition user_of (o : mobj) f c m : user_funs V fit (G R) :=
  mkFuns (match f_i (mo_slots o) with Some i => i (mo_args o) | None => no_init end)
         (f (mo_args o)) (c (mo_args o)) (m (mo_args o)).
(** HEU_RELOAD_MEMBERFUCTION_RUN, GABase.hpp:171-205.  Simplification: running
    with a null fitness, crossover or mutation function counts as undefined even
    if the random draws happen never to use it. *)
Definition do_run (o : mobj) : res mobj :=
  match f_f (mo_slots o), f_c (mo_slots o), f_m (mo_slots o) with
  | Some f, Some c, Some m =>
      do s <- run R (user_of o f c m) (mo_opt o) junk (hooks_of (mo_opt o) (mo_refs o)) rec_on vec_max
                (S (Z.to_nat (maxGenerations (mo_opt o)))) (mkGA (mo_core o) (mo_gen o) (mo_rec o));
      Ok (mkMObj (mo_opt o) (mo_slots o) (mo_args o) (mo_prec o) (mo_prec2 o) (mo_refs o)
            (ga_core s) (generation s) (record s) true)
  | _, _, _ => UB
  end.

Definition set_slots (o : mobj) (sl : slots) : mobj :=
  mkMObj (mo_opt o) sl (mo_args o) (mo_prec o) (mo_prec2 o) (mo_refs o) (mo_core o) (mo_gen o) (mo_rec o) (mo_ran o).
Definition set_prec (o : mobj) (p : option nat) (q : nat * nat) : mobj :=
  mkMObj (mo_opt o) (mo_slots o) (mo_args o) p q (mo_refs o) (mo_core o) (mo_gen o) (mo_rec o) (mo_ran o).

Definition step (o : mobj) (c : call) : res mobj :=
  let sl := mo_slots o in
  match c with
  | SetOption op =>                                             (* GABase.hpp:107 *)
      Ok (mkMObj op sl (mo_args o) (mo_prec o) (mo_prec2 o) (mo_refs o) (mo_core o) (mo_gen o) (mo_rec o) (mo_ran o))
  | SetIFun f => Ok (set_slots o (mkSlots f (f_f sl) (f_c sl) (f_m sl)))
  | SetFFun f => Ok (set_slots o (mkSlots (f_i sl) f (f_c sl) (f_m sl)))
  | SetCFun f => Ok (set_slots o (mkSlots (f_i sl) (f_f sl) f (f_m sl)))
  | SetMFun f => Ok (set_slots o (mkSlots (f_i sl) (f_f sl) (f_c sl) f))
  | SetArgs a =>
      Ok (mkMObj (mo_opt o) sl a (mo_prec o) (mo_prec2 o) (mo_refs o) (mo_core o) (mo_gen o) (mo_rec o) (mo_ran o))
  | SetPrecision p => Ok (set_prec o (Some p) (mo_prec2 o))     (* NSGA3Base.hpp:101 *)
  | SetPrecisions i e => do q <- setPrecisions i e; Ok (set_prec o (mo_prec o) q)   (* 196-201 *)
  | OtherDraws g => let c := mo_core o in
      Ok (mkMObj (mo_opt o) sl (mo_args o) (mo_prec o) (mo_prec2 o) (mo_refs o)
            (mkCore (pop c) (next c) (fails c) (ext c) g) (mo_gen o) (mo_rec o) (mo_ran o))
  | InitializePop => do_init o
  | Run => do_run o
  end.
Fixpoint drive (o : mobj) (h : list call) : res mobj :=
  match h with
  | [] => Ok o
  | c :: t => do o' <- step o c; drive o' t
  end.

(** * Queries *)
(** GABase.hpp:139-150: generation(), failTimes() read uninitialised members
    before the first run. *)
Definition get_generation (o : mobj) : res Z := if mo_ran o then Ok (mo_gen o) else UB.
Definition get_failTimes (o : mobj) : res Z := if mo_ran o then Ok (fails (mo_core o)) else UB.
(** population() *)
Definition get_population (o : mobj) : list gene' := pop (mo_core o).
(** MOGAAbstract.hpp:84-90 paretoFront(), 109 pfGenes(). *)
Definition get_paretoFront (o : mobj) : res (list fit) := paretoFront R (mo_core o).
Definition get_pfGenes (o : mobj) : list nat := ext (mo_core o).
(** MOGAAbstract.hpp:135-145 bestFitness().  Simplification: reading a fitness that
    is not up to date counts as undefined. *)
Definition get_bestFitness (o : mobj) : res fit :=
  if forallb gcomp (pop (mo_core o)) then mo_bestFitness R M (greater_of k) (mo_core o) else UB.
(** NSGA3Abstract.hpp:74 referencePoints(); NSGA3Base.hpp:92, 177, 186 the
    precisions; 108-110, 203-206 referencePointCount(). *)
Definition get_referencePoints (o : mobj) : list fit := mo_refs o.
Definition get_precision (o : mobj) : res nat := match mo_prec o with Some p => Ok p | None => UB end.
Definition get_precisions (o : mobj) : nat * nat := mo_prec2 o.
Definition get_referencePointCount (o : mobj) : res Z :=
  match k with
  | NSGA3_double => let (i, e) := mo_prec2 o in pointCount2 M i e
  | _ => match mo_prec o with Some p => pointCount M p | None => UB end
  end.
(** record(), only with RECORD_FITNESS. *)
Definition get_record (o : mobj) : list fit := mo_rec o.
End Obj.
