(** Model of a SOGA solver object as its user drives it: construction, the
    setters of the option, of the selection parameters, of the functions and of
    the custom arguments, initializePop() and run(), in any order.
    Genetic/SOGA.hpp, Genetic/SOGASelecters.hpp, Genetic/GABase.hpp:101-150,
    Genetic/GAAbstract.hpp, Global/FunBody.hpp. *)
From Coq Require Import List ZArith Bool.
From Flocq Require Import BinarySingleNaN.
From Verif Require Import Base Fl Rng StdOps GABase SOGA.
Import ListNotations.
Open Scope Z_scope.

(** * Settings *)
(** The members that hold them: GABase.hpp:152 [_option];
    SOGASelecters.hpp:200 [_tournamentSize], 482-483, 573, 649, 828 and 966
    [_selectMethod].  [None] is a member no constructor has written. *)
Record settings := mkSet {
  s_opt : ga_option; s_method : method; s_tour : Z;
  s_worst : double; s_best : double; s_base : double;
  s_strength : option double; s_elite : Z
}.

(** SOGASelecters.hpp:188, 448-451, 553, 814, 940 (the constructors),
    SOGA.hpp:126-130 (Boltzmann chosen at compile time: +-10).  [mode] is the
    template argument smOpt: a method, or None for RunTimeSelectMethod, which
    inherits all ten selectors. *)
Definition fresh_settings (mode : option method) (greater : bool) : settings := {|
  s_opt := default_option;
  s_method := match mode with Some m => m | None => EliteReserved end;
  s_tour := 3;
  s_worst := fdiv (d_of_Z 1) (d_of_Z 10);        (* literal 0.1 *)
  s_best := fdiv (d_of_Z 9) (d_of_Z 10);         (* literal 0.9 *)
  s_base := fdiv (d_of_Z 8) (d_of_Z 10);         (* literal 0.8 *)
  s_strength := match mode with
                | Some Boltzmann => Some (d_of_Z (10 * (if greater then 1 else -1)))
                | _ => None end;
  s_elite := 1
|}.

(** The calls that change them.  [PokeTournament] is a write through the
    reference returned by tournamentSize() (190).  The argument of [SetMethod] is
    None for RunTimeSelectMethod or a number that is no method. *)
Inductive setting_call :=
| SetOption (o : ga_option)
| SetTournamentSize (ts : Z)
| PokeTournament (ts : Z)
| SetLinearSelectProbability (worst best : double)
| SetExponetialSelectBase (c : double)
| SetBoltzmannSelectStrength (b : double)
| SetEliteNum (n : Z)
| SetSelectMethod (m : option method).

(** Which of them the class has (otherwise the program does not compile). *)
Definition has_setter (mode : option method) (c : setting_call) : bool :=
  match c, mode with
  | SetOption _, _ => true
  | _, None => true
  | SetTournamentSize _, Some Tournament | PokeTournament _, Some Tournament
  | SetLinearSelectProbability _ _, Some LinearRank
  | SetExponetialSelectBase _, Some ExponentialRank
  | SetBoltzmannSelectStrength _, Some Boltzmann
  | SetEliteNum _, Some EliteReserved => true
  | _, Some _ => false
  end.

Definition apply_setting (s : settings) (c : setting_call) : res settings :=
  match c with
  | SetOption o =>                                            (* GABase.hpp:107 *)
      Ok (mkSet o (s_method s) (s_tour s) (s_worst s) (s_best s) (s_base s) (s_strength s) (s_elite s))
  | SetTournamentSize ts =>                                   (* 193-197 *)
      if ts >=? 2
      then Ok (mkSet (s_opt s) (s_method s) ts (s_worst s) (s_best s) (s_base s) (s_strength s) (s_elite s))
      else Abort
  | PokeTournament ts =>                                      (* 190 *)
      Ok (mkSet (s_opt s) (s_method s) ts (s_worst s) (s_best s) (s_base s) (s_strength s) (s_elite s))
  | SetLinearSelectProbability w b =>                         (* 463-478 *)
      if negb (flt w b) then Abort
      else if negb (fle d0 w && fle d0 b) then Abort
      else if negb (fle w d1 && fle b d1) then Abort
      else Ok (mkSet (s_opt s) (s_method s) (s_tour s) w b (s_base s) (s_strength s) (s_elite s))
  | SetExponetialSelectBase c =>                              (* 561-570 *)
      if negb (fle d0 c) then Abort
      else if negb (flt c d1) then Abort
      else Ok (mkSet (s_opt s) (s_method s) (s_tour s) (s_worst s) (s_best s) c (s_strength s) (s_elite s))
  | SetBoltzmannSelectStrength b =>                           (* 646 *)
      Ok (mkSet (s_opt s) (s_method s) (s_tour s) (s_worst s) (s_best s) (s_base s) (Some b) (s_elite s))
  | SetEliteNum n =>                                          (* 822-825 *)
      if n >=? 1
      then Ok (mkSet (s_opt s) (s_method s) (s_tour s) (s_worst s) (s_best s) (s_base s) (s_strength s) n)
      else Abort
  | SetSelectMethod (Some m) =>                               (* 944-963 *)
      Ok (mkSet (s_opt s) m (s_tour s) (s_worst s) (s_best s) (s_base s) (s_strength s) (s_elite s))
  | SetSelectMethod None => Abort
  end.

(** A sequence of setter calls. *)
Fixpoint apply_settings (s : settings) (h : list setting_call) : res settings :=
  match h with
  | [] => Ok s
  | c :: t => do s' <- apply_setting s c; apply_settings s' t
  end.

(** * The whole object *)
Section Obj.
Context {V A : Type} (R : rng_ops) (std : std_ops) (mode : option method) (greater rec_on : bool).
(** libm's pow and exp; contents of uninitialised memory; a value-initialised
    variable; std::vector::max_size(); how many steps a selection may take. *)
Context (pw : double -> double -> double) (ex : double -> double) (junk : double) (v0 : V) (vec_max : Z) (sel_fuel : nat).
Notation core' := (core V double nat (G R)).

(** FunBody.hpp:40-74: the four function pointers; None is nullptr.  A pointer
    given as template argument is fixed (funBodyCT, no setter), the others start
    as nullptr and can be set, to nullptr as well (funBodyRT).  The functions get
    a pointer to the custom arguments (GAAbstract.hpp). *)
Record slots := mkSlots {
  f_i : option (A -> G R -> V * G R);
  f_f : option (A -> V -> double);
  f_c : option (A -> V -> V -> G R -> (V * V) * G R);
  f_m : option (A -> V -> G R -> V * G R)
}.

(** [o_inited]: _bestGene has been assigned (SOGA.hpp:164);
    [o_ran]: _generation and _failTimes have been assigned (GABase.hpp:172-173). *)
Record obj := mkObj {
  o_set : settings; o_slots : slots; o_args : A;
  o_core : core'; o_gen : Z; o_rec : list double;
  o_inited : bool; o_ran : bool
}.

Definition fresh (ct : slots) (a : A) (g : G R) : obj := {|
  o_set := fresh_settings mode greater; o_slots := ct; o_args := a;
  o_core := mkCore [] 0%nat 0 0%nat g; o_gen := 0; o_rec := [];
  o_inited := false; o_ran := false |}.

Inductive call :=
| Setting (c : setting_call)
| SetIFun (f : option (A -> G R -> V * G R))
| SetFFun (f : option (A -> V -> double))
| SetCFun (f : option (A -> V -> V -> G R -> (V * V) * G R))
| SetMFun (f : option (A -> V -> G R -> V * G R))
| SetArgs (a : A)                     (* GAAbstract.hpp: setArgs, or args() = a *)
| OtherDraws (g : G R)                (* other users of the global generator *)
| InitializePop
| Run.

(** Members the class has: the setters of the slots fixed at compile time do
    not exist. *)
Definition has_member (ct : slots) (c : call) : bool :=
  match c with
  | Setting s => has_setter mode s
  | SetIFun _ => match f_i ct with None => true | _ => false end
  | SetFFun _ => match f_f ct with None => true | _ => false end
  | SetCFun _ => match f_c ct with None => true | _ => false end
  | SetMFun _ => match f_m ct with None => true | _ => false end
  | _ => true
  end.

(** selectMethod(): SOGASelecters.hpp:185 etc. (constexpr), 942. *)
Definition method_of (s : settings) : method :=
  match mode with Some m => m | None => s_method s end.
Definition params_of (s : settings) : sel_params :=
  mkParams (s_tour s) (s_worst s) (s_best s) (s_base s)
           (match s_strength s with Some b => b | None => junk end) (s_elite s) pw ex.
(** The user functions with the arguments filled in (GABase.hpp:321-361,
    GAExecutor). *)
Definition no_init (g : G R) : V * G R := (v0, g).
Definition user_of (o : obj) f c m : user_funs V double (G R) :=
  mkFuns (match f_i (o_slots o) with Some i => i (o_args o) | None => no_init end)
         (f (o_args o)) (c (o_args o)) (m (o_args o)).

Definition with_core (o : obj) (c : core') : obj :=
  mkObj (o_set o) (o_slots o) (o_args o) c (o_gen o) (o_rec o) (o_inited o) (o_ran o).

(** SOGA.hpp:162-165, GABase.hpp:120-127: calls iFun once per individual; a call
    through nullptr is undefined. *)
Definition do_init (o : obj) : res obj :=
  let opt := s_opt (o_set o) in
  match f_i (o_slots o) with
  | None => if populationSize opt =? 0
            then Ok (mkObj (o_set o) (o_slots o) (o_args o)
                       (soga_initializePop R opt (mkFuns no_init (fun _ => junk) (fun a b g => ((a, b), g)) (fun a g => (a, g))) junk v0 (o_core o))
                       (o_gen o) (o_rec o) true (o_ran o))
            else UB
  | Some i => Ok (mkObj (o_set o) (o_slots o) (o_args o)
                    (soga_initializePop R opt (mkFuns (i (o_args o)) (fun _ => junk) (fun a b g => ((a, b), g)) (fun a g => (a, g))) junk v0 (o_core o))
                    (o_gen o) (o_rec o) true (o_ran o))
  end.

(** HEU_RELOAD_MEMBERFUCTION_RUN, GABase.hpp:171-205: [run] reads _bestGene and
    calls the functions.  Simplification: running with a fitness, crossover or
    mutation pointer that is null, or with Boltzmann and no strength, counts as
    undefined even if the random draws happen never to use it. *)
Definition do_run (o : obj) : res obj :=
  let opt := s_opt (o_set o) in
  if negb (o_inited o) then UB else
  match f_f (o_slots o), f_c (o_slots o), f_m (o_slots o) with
  | Some f, Some c, Some m =>
      match method_of (o_set o), s_strength (o_set o) with
      | Boltzmann, None => UB
      | mt, _ =>
          do s <- run R (user_of o f c m) opt junk
                    (soga_hooks R std greater opt (params_of (o_set o)) mt sel_fuel) rec_on vec_max
                    (S (Z.to_nat (maxGenerations opt))) (mkGA (o_core o) (o_gen o) (o_rec o));
          Ok (mkObj (o_set o) (o_slots o) (o_args o) (ga_core s) (generation s) (record s) true true)
      end
  | _, _, _ => UB
  end.

Definition set_slots (o : obj) (sl : slots) : obj :=
  mkObj (o_set o) sl (o_args o) (o_core o) (o_gen o) (o_rec o) (o_inited o) (o_ran o).

Definition step (o : obj) (c : call) : res obj :=
  let sl := o_slots o in
  match c with
  | Setting s => do s' <- apply_setting (o_set o) s;
                 Ok (mkObj s' sl (o_args o) (o_core o) (o_gen o) (o_rec o) (o_inited o) (o_ran o))
  | SetIFun f => Ok (set_slots o (mkSlots f (f_f sl) (f_c sl) (f_m sl)))
  | SetFFun f => Ok (set_slots o (mkSlots (f_i sl) f (f_c sl) (f_m sl)))
  | SetCFun f => Ok (set_slots o (mkSlots (f_i sl) (f_f sl) f (f_m sl)))
  | SetMFun f => Ok (set_slots o (mkSlots (f_i sl) (f_f sl) (f_c sl) f))
  | SetArgs a => Ok (mkObj (o_set o) sl a (o_core o) (o_gen o) (o_rec o) (o_inited o) (o_ran o))
  | OtherDraws g => let c := o_core o in
      Ok (with_core o (mkCore (pop c) (next c) (fails c) (ext c) g))
  | InitializePop => do_init o
  | Run => do_run o
  end.

Fixpoint drive (o : obj) (h : list call) : res obj :=
  match h with
  | [] => Ok o
  | c :: t => do o' <- step o c; drive o' t
  end.

(** * Queries *)
(** GABase.hpp:139-150: generation(), failTimes(); SOGA.hpp:138-157 bestFitness(),
    result(). *)
Definition get_generation (o : obj) : res Z := if o_ran o then Ok (o_gen o) else UB.
Definition get_failTimes (o : obj) : res Z := if o_ran o then Ok (fails (o_core o)) else UB.
Definition get_best (o : obj) : res (gene V double) :=
  if o_inited o then lookup (pop (o_core o)) (ext (o_core o)) else UB.
Definition get_bestFitness (o : obj) : res double := do x <- get_best o; if gcomp x then Ok (gfit x) else UB.
Definition get_result (o : obj) : res V := do x <- get_best o; Ok (gvar x).
Definition get_population (o : obj) : list (gene V double) := pop (o_core o).
End Obj.
