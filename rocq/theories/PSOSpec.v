(** What the PSO properties speak about: boxes, histories, rounds. *)
From Coq Require Import List Arith ZArith Bool Reals.
From Flocq Require Import Core BinarySingleNaN.
From Verif Require Import Base Fl Rng Box PSO.
Import ListNotations.
Open Scope Z_scope.

(** Every coordinate of a position lies between the bounds of the box. *)
Definition pos_in (b : vbox) (p : list double) : Prop :=
  Z.of_nat (length p) = v_dim b /\
  forall i x, nth_error p i = Some x -> fle (v_lo b i) x = true /\ fle x (v_hi b i) = true.
(** Every coordinate of a velocity lies between -velocityMax and velocityMax. *)
Definition vel_in (b : vbox) (v : list double) : Prop :=
  Z.of_nat (length v) = v_dim b /\
  forall i x, nth_error v i = Some x -> fle (fopp (v_max b i)) x = true /\ fle x (v_max b i) = true.
(** ... or is NaN. *)
Definition vel_in_or_nan (b : vbox) (v : list double) : Prop :=
  Z.of_nat (length v) = v_dim b /\
  forall i x, nth_error v i = Some x ->
    is_nan x = true \/ (fle (fopp (v_max b i)) x = true /\ fle x (v_max b i) = true).

(** A box as the setters accept it, with finite bounds and a finite width. *)
Definition vproper (b : vbox) : Prop :=
  0 <= v_dim b /\
  forall i, Z.of_nat i < v_dim b ->
    fin (v_lo b i) /\ fin (v_hi b i) /\ flt (v_lo b i) (v_hi b i) = true /\
    fin (fsub (v_hi b i) (v_lo b i)) /\ flt d0 (v_max b i) = true.

(** A moderate number: finite, at most 2^400 in absolute value. *)
Definition B400 : R := bpow radix2 400.
Definition small (x : double) : Prop := fin x /\ (Rabs (B2R x) <= B400)%R.
Definition moderate (opt : pso_option) (b : vbox) : Prop :=
  small (inertiaFactor opt) /\ small (learnFactorP opt) /\ small (learnFactorG opt) /\
  forall i, Z.of_nat i < v_dim b -> small (v_lo b i) /\ small (v_hi b i) /\ small (v_max b i).

(** Histories of a solver.  [history h s]: since the last initializePop() the
    solver has evaluated the swarm [length h] times and is now in state [s]; the
    rows of [h], latest first, are the positions of all particles at each of
    those evaluations.  Rounds, moves and restarts of run() come in any order. *)
Section H.
Context (R : rng_ops) (greater : bool) (opt : pso_option) (b : vbox).
Context (iFun : G R -> (list double * list double) * G R) (fFun : list double -> double).
Definition positions (s : swarm (G R)) : list (list double) :=
  map (fun x => position (here x)) (particles s).
Inductive history : list (list (list double)) -> swarm (G R) -> Prop :=
| h_init g s : initializeSwarm R opt iFun fFun g = Ok s -> history [positions s] s
| h_round h s s' : history h s -> updatePGBest R greater (computeAll R fFun s) = Ok s' ->
    history (positions s :: h) s'
| h_move h s s' : history h s -> updatePopulation R opt b s = Ok s' -> history h s'
| h_restart h s : history h s -> history h (mkSwarm (particles s) (gBest s) 0 (p_rng s)).

(** [cs] are the states right after rounds 1, 2, ... of a call of run(); the
    swarm moves between two rounds. *)
Fixpoint p_rounds (s0 : swarm (G R)) (cs : list (swarm (G R))) : Prop :=
  match cs with
  | [] => True
  | c :: t => updatePGBest R greater (computeAll R fFun s0) = Ok c /\
              match t with
              | [] => True
              | _ => exists m, updatePopulation R opt b c = Ok m /\ p_rounds m t
              end
  end.
(** The stop rule for round number [t] (from 1). *)
Definition p_stops (t : Z) (c : swarm (G R)) : Prop :=
  p_maxGeneration opt < t \/ (0 < p_maxFailTimes opt /\ p_maxFailTimes opt < p_fails c).
End H.
