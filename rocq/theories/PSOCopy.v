(** Model of several PSO objects in one program: construction, copy construction, copy
    assignment and destruction, mixed with the calls of PSOObj.v.
    PSO/PSO.hpp:137-138, PSO/PSOAbstrcat.hpp:65, 407 and PSO/PSOParameterPack.hpp:49, 136
    declare destructors, so there is no implicit move: std::move(solver) copies, and
    std::swap makes three copies.  Every member is a value: the population is a
    std::vector<Particle> (PSOAbstrcat.hpp:216), gBest a Point (219), a Particle holds its
    pBest (87-93).
    Simplification: the members a constructor leaves indeterminate (200, 203, 219 and the
    box, BoxWithVelocity.hpp:85-88) may be copied. *)
From Coq Require Import List Arith ZArith Bool.
From Flocq Require Import BinarySingleNaN.
From Verif Require Import Base Fl Rng Box PSO PSOObj.
Import ListNotations.
Open Scope nat_scope.

Section World.
Context {A : Type} (R : rng_ops) (k : kind) (greater rec_on : bool) (vec_max : Z) (junk : point).
Notation obj' := (@obj A R).

(** The objects in the order of their construction (None: destroyed); the generator
    (Global/RandomDevice.hpp) is shared. *)
Record world := mkW { w_objs : list (option obj'); w_rng : G R }.
Definition start (g : G R) : world := mkW [] g.

Inductive event :=
| Construct (i : init_src (A := A) R) (f : option (A -> list double -> double)) (a : A)
| CopyOf (i : nat)                    (* solver_t b(objs[i]), also with std::move *)
| AssignTo (i j : nat)                (* objs[i] = objs[j], also with std::move *)
| Destroy (i : nat)
| Call (i : nat) (c : call (A := A) R).

Definition rng_in (o : obj') : G R := p_rng (p_swarm (o_pso R o)).
(** The shared generator as the object's own. *)
Definition load (g : G R) (o : obj') : obj' :=
  let s := o_pso R o in let w := p_swarm s in
  mkObj R (o_opt R o) (o_mem R o) (o_i R o) (o_f R o) (o_args R o)
    (mkPSO (mkSwarm (particles w) (gBest w) (p_fails w) g) (p_generation s) (p_record s)) (o_inited R o).
Fixpoint put {X} (l : list X) (i : nat) (x : X) : list X :=
  match l, i with [], _ => [] | _ :: t, O => x :: t | y :: t, S n => y :: put t n x end.
Definition object (w : world) (i : nat) : res obj' :=
  match nth_error (w_objs w) i with Some (Some o) => Ok o | _ => UB end.

Definition wstep (w : world) (e : event) : res world :=
  match e with
  | Construct i f a => Ok (mkW (w_objs w ++ [Some (fresh R junk i f a (w_rng w))]) (w_rng w))
  | CopyOf i => do o <- object w i; Ok (mkW (w_objs w ++ [Some o]) (w_rng w))
  | AssignTo i j => do _ <- object w i; do o <- object w j; Ok (mkW (put (w_objs w) i (Some o)) (w_rng w))
  | Destroy i => do _ <- object w i; Ok (mkW (put (w_objs w) i None) (w_rng w))
  | Call i c => do o <- object w i; do o' <- step R k greater rec_on vec_max (load (w_rng w) o) c;
                Ok (mkW (put (w_objs w) i (Some o')) (rng_in o'))
  end.
Fixpoint wdrive (w : world) (h : list event) : res world :=
  match h with
  | [] => Ok w
  | e :: t => do w' <- wstep w e; wdrive w' t
  end.
End World.
