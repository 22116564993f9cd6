(** What a user must respect when the fitness function is only meant for a
    region of decision variables (vocabulary of Props_Region.v). *)
From Coq Require Import List ZArith Bool.
From Flocq Require Import BinarySingleNaN.
From Verif Require Import Base Fl FlFacts Rng StdOps GABase SOGA SOGAObj SOGAObjSpec.
Import ListNotations.
Open Scope Z_scope.

(** Operators of a genetic solver, arguments filled in, and a region. *)
Section Ops.
Context {V : Type} (R : rng_ops) (inside : V -> bool).
Definition init_inside (i : G R -> V * G R) : Prop := forall g, inside (fst (i g)) = true.
Definition cross_inside (c : V -> V -> G R -> (V * V) * G R) : Prop :=
  forall x y g, inside x = true -> inside y = true ->
    inside (fst (fst (c x y g))) = true /\ inside (snd (fst (c x y g))) = true.
Definition mutate_inside (m : V -> G R -> V * G R) : Prop :=
  forall x g, inside x = true -> inside (fst (m x g)) = true.
End Ops.

Section Obj.
Context {V A : Type} (R : rng_ops) (std : std_ops) (mode : option method) (greater rec_on : bool).
Context (pw : double -> double -> double) (ex : double -> double) (junk : double) (v0 : V) (vec_max : Z) (sel_fuel : nat) (B : Z).
Context (inside : V -> bool).
Notation step' := (@step V A R std mode greater rec_on pw ex junk v0 vec_max sel_fuel).
(** As SOGAObjSpec.lawful, but the fitness function must give a number only
    inside the region, and the operators that are called must stay inside. *)
Definition lawful_in (Q : settings -> Prop) (o : @obj V A R) (c : @call V A R) : Prop :=
  let opt := s_opt (o_set R o) in
  match c with
  | InitializePop _ => lawful R mode vec_max B Q o c /\
      (forall i, f_i R (o_slots R o) = Some i -> init_inside R inside (i (o_args R o)))
  | Run _ =>
      o_inited R o = true /\
      (exists f cr m, f_f R (o_slots R o) = Some f /\ f_c R (o_slots R o) = Some cr /\ f_m R (o_slots R o) = Some m /\
        (forall v, inside v = true -> nonnan (f (o_args R o) v)) /\
        cross_inside R inside (cr (o_args R o)) /\ mutate_inside R inside (m (o_args R o))) /\
      1 <= populationSize opt /\ 4 * populationSize opt <= B /\
      0 <= maxGenerations opt < two64 - 1 /\ wrap64 (maxGenerations opt + 1) <= vec_max /\
      (method_of mode (o_set R o) = Tournament -> s_tour (o_set R o) < populationSize opt) /\
      (method_of mode (o_set R o) = Boltzmann -> s_strength (o_set R o) <> None) /\
      Q (o_set R o)
  | _ => lawful R mode vec_max B Q o c
  end.
Fixpoint lawful_history_in (Q : settings -> Prop) (o : @obj V A R) (h : list (@call V A R)) : Prop :=
  match h with
  | [] => True
  | c :: t => lawful_in Q o c /\ forall o', step' o c = Ok o' -> lawful_history_in Q o' t
  end.
End Obj.

