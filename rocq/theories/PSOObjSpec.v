(** What a user of a PSO object must respect, and what has been evaluated
    (vocabulary of Props_PSOObj.v). *)
From Coq Require Import List Arith ZArith Bool.
From Flocq Require Import BinarySingleNaN.
From Verif Require Import Base Fl Rng Box PSO PSOSpec PSOObj.
Import ListNotations.
Open Scope Z_scope.

(** A member of the box has been written for every coordinate below n. *)
Definition known_upto (f : nat -> option double) (n : nat) : Prop := forall i, (i < n)%nat -> f i <> None.

Section Obj.
Context {A : Type} (R : rng_ops) (k : kind) (greater rec_on : bool) (vec_max : Z) (junk : point).
Notation obj' := (@obj A R).
Notation step' := (@step A R k greater rec_on vec_max).

(** Before initializePop() a fitness function and a positive populationSize are
    needed, and either, for the built-in initialisation, the dimensions and both
    position bounds, or a user function that always makes vectors of one size.
    Before run(): initializePop(), a fitness function, and (if the swarm is to
    move) all three bounds. *)
Definition lawful (o : obj') (c : @call A R) : Prop :=
  match c with
  | BoxCall _ b => apply_box (o_mem R o) b <> Abort
  | InitializePop _ =>
      1 <= p_populationSize (o_opt R o) /\ o_f R o <> None /\
      match o_i R o with
      | IDefault _ => exists n, dims k (o_mem R o) = Ok n /\
          known_upto (m_lo (o_mem R o)) (Z.to_nat n) /\ known_upto (m_hi (o_mem R o)) (Z.to_nat n)
      | IFixed _ i | IPointer _ (IUser _ i) =>
          exists n, forall g, length (fst (fst (i (o_args R o) g))) = n /\ length (snd (fst (i (o_args R o) g))) = n
      | _ => False
      end
  | Run _ =>
      o_inited R o = true /\ o_f R o <> None /\
      0 <= p_maxGeneration (o_opt R o) < two64 - 1 /\ p_maxGeneration (o_opt R o) + 1 <= vec_max /\
      (1 <= p_maxGeneration (o_opt R o) -> forall x, In x (get_population R o) ->
         let n := length (velocity x) in
         known_upto (m_lo (o_mem R o)) n /\ known_upto (m_hi (o_mem R o)) n /\ known_upto (m_vm (o_mem R o)) n)
  | _ => True
  end.
Fixpoint lawful_history (o : obj') (h : list (@call A R)) : Prop :=
  match h with
  | [] => True
  | c :: t => lawful o c /\ forall o', step' o c = Ok o' -> lawful_history o' t
  end.

(** [evaluated f h s]: since the last initializePop() the fitness function [f]
    has been applied to the whole swarm [length h] times (the rows of [h] are the
    positions, latest first) and the swarm is now [s]; options and box may have
    changed between any two moves, others may have drawn random numbers. *)
Inductive evaluated (f : list double -> double) : list (list (list double)) -> swarm (G R) -> Prop :=
| ev_init opt iFun g s : initializeSwarm R opt iFun f g = Ok s -> evaluated f [positions R s] s
| ev_round h s s' : evaluated f h s -> updatePGBest R greater (computeAll R f s) = Ok s' ->
    evaluated f (positions R s :: h) s'
| ev_move opt b h s s' : evaluated f h s -> updatePopulation R opt b s = Ok s' -> evaluated f h s'
| ev_other h s n g : evaluated f h s -> evaluated f h (mkSwarm (particles s) (gBest s) n g).
End Obj.
