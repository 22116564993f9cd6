(** Vocabulary of Props_PSORegion.v: where a PSO object may take its particles. *)
From Coq Require Import List Arith ZArith Bool.
From Flocq Require Import BinarySingleNaN.
From Verif Require Import Base Fl Rng Box PSO PSOSpec PSOObj.
Import ListNotations.
Open Scope Z_scope.

(** Every coordinate of [p] lies between the bounds as they now are. *)
Definition within (m : members) (p : list double) : Prop :=
  forall j x, nth_error p j = Some x -> exists lo hi, m_lo m j = Some lo /\ m_hi m j = Some hi /\ fle lo x = true /\ fle x hi = true.
(** The first n lower bounds do not exceed the upper ones. *)
Definition ordered (m : members) (n : nat) : Prop :=
  forall j lo hi, (j < n)%nat -> m_lo m j = Some lo -> m_hi m j = Some hi -> fle lo hi = true.

Section Region.
Context {A : Type} (R : rng_ops) (k : kind) (greater rec_on : bool) (vec_max : Z) (P : list double -> Prop).
Notation step' := (@step A R k greater rec_on vec_max).
(** Every position that initializePop() may give to a particle is in the region. *)
Definition starts_in (o : @obj A R) : Prop :=
  match o_i R o with
  | IDefault _ => forall n g, dims k (o_mem R o) = Ok n -> P (fst (fst (defaultInitialize R (box_of (o_mem R o) n) g)))
  | IFixed _ i | IPointer _ (IUser _ i) => forall g, P (fst (fst (i (o_args R o) g)))
  | _ => True
  end.
(** If run() moves the particles, the bounds are ordered and every position
    between them is in the region. *)
Definition moves_in (o : @obj A R) : Prop :=
  1 <= p_maxGeneration (o_opt R o) -> forall x, In x (get_population R o) ->
    ordered (o_mem R o) (length (velocity x)) /\
    forall p, length p = length (velocity x) -> within (o_mem R o) p -> P p.
(** At each call of initializePop() and run() in the history. *)
Fixpoint stays (o : @obj A R) (h : list (@call A R)) : Prop :=
  match h with
  | [] => True
  | c :: t => match c with InitializePop _ => starts_in o | Run _ => moves_in o | _ => True end /\
              forall o', step' o c = Ok o' -> stays o' t
  end.
End Region.
