(** RegionSpec.v for NSGA2 and NSGA3 objects. *)
From Coq Require Import List ZArith Bool.
From Flocq Require Import BinarySingleNaN.
From Verif Require Import RegionSpec.
From Verif Require Import Base Fl FlFacts Rng StdOps GABase NSGA3 MOGAObj MOGAObjSpec.
Import ListNotations.
Open Scope Z_scope.

Section Obj.
Context {V A : Type} (R : rng_ops) (std : std_ops) (lin : lin_ops) (M : nat) (k : kind) (rec_on : bool).
Context (junk : list double) (v0 : V) (vec_max : Z).
Context (inside : V -> bool).
Notation step' := (@step V A R std lin M k rec_on junk v0 vec_max).
Definition lawful_in (o : @mobj V A R) (c : @call V A R) : Prop :=
  let opt := mo_opt R o in
  match c with
  | InitializePop _ => lawful R M k rec_on vec_max o c /\
      (forall i, f_i R (mo_slots R o) = Some i -> init_inside R inside (i (mo_args R o)))
  | Run _ =>
      (exists f cr m, f_f R (mo_slots R o) = Some f /\ f_c R (mo_slots R o) = Some cr /\ f_m R (mo_slots R o) = Some m /\
        (is_nsga3 k = false -> forall v, inside v = true -> tame_value M (f (mo_args R o) v)) /\
        cross_inside R inside (cr (mo_args R o)) /\ mutate_inside R inside (m (mo_args R o))) /\
      1 <= populationSize opt <= Z.of_nat (length (get_population R o)) /\
      0 <= maxGenerations opt < two64 - 1 /\ (rec_on = true -> maxGenerations opt < vec_max)
  | _ => lawful R M k rec_on vec_max o c
  end.
Fixpoint lawful_history_in (o : @mobj V A R) (h : list (@call V A R)) : Prop :=
  match h with
  | [] => True
  | c :: t => lawful_in o c /\ forall o', step' o c = Ok o' -> lawful_history_in o' t
  end.
End Obj.
