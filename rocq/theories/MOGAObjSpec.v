(** What a user of an NSGA2 or NSGA3 object must respect (vocabulary of
    Props_MOGAObj.v). *)
From Coq Require Import List Arith ZArith Reals Bool.
From Flocq Require Import Core BinarySingleNaN.
From Verif Require Import Base Fl Rng StdOps GABase MOGASpec NSGA3 MOGAObj.
Import ListNotations.
Open Scope Z_scope.

(** Objective values NSGA2 can compute with: finite, of magnitude at most 2^1000. *)
Definition tame_value (M : nat) (f : list double) : Prop :=
  forall o, (o < M)%nat -> fin (objective f o) /\ (Rabs (B2R (objective f o)) <= bpow radix2 1000)%R.

Section Obj.
Context {V A : Type} (R : rng_ops) (std : std_ops) (lin : lin_ops) (M : nat) (k : kind) (rec_on : bool).
Context (junk : list double) (v0 : V) (vec_max : Z).
Notation mobj' := (@mobj V A R).
Notation step' := (step R std lin M k rec_on junk v0 vec_max).

(** The precision is set, and small enough for referencePointCount() (C26). *)
Definition precision_ok (o : mobj') : Prop :=
  let small p := (1 <= p)%nat /\ (M + p - 1 <= 20)%nat in
  match k with
  | NSGA2 _ => True
  | NSGA3_single => exists p, mo_prec R o = Some p /\ small p
  | NSGA3_double => small (fst (mo_prec2 R o)) /\ small (snd (mo_prec2 R o))
  end.
Definition size_ok (op : ga_option) : Prop := 0 <= populationSize op <= 4294967295.

Definition lawful (o : mobj') (c : @call V A R) : Prop :=
  let opt := mo_opt R o in
  match c with
  | SetOption _ op => size_ok op
  | SetPrecisions _ i e => (2 <= i)%nat /\ (2 <= e)%nat
  | InitializePop _ => f_i R (mo_slots R o) <> None /\ 1 <= populationSize opt /\ precision_ok o
  | Run _ =>
      f_c R (mo_slots R o) <> None /\ f_m R (mo_slots R o) <> None /\
      (exists f, f_f R (mo_slots R o) = Some f /\
         (is_nsga3 k = false -> forall v, tame_value M (f (mo_args R o) v))) /\
      (* not more than there are: populationSize may be lowered, but not raised, without initializePop() *)
      1 <= populationSize opt <= Z.of_nat (length (get_population R o)) /\
      0 <= maxGenerations opt < two64 - 1 /\ (rec_on = true -> maxGenerations opt < vec_max)
  | _ => True
  end.
Fixpoint lawful_history (o : mobj') (h : list (@call V A R)) : Prop :=
  match h with
  | [] => True
  | c :: t => lawful o c /\ forall o', step' o c = Ok o' -> lawful_history o' t
  end.

(** Only what the types demand: sizes are unsigned 32-bit numbers. *)
Definition typed (c : @call V A R) : Prop := match c with SetOption _ op => size_ok op | _ => True end.

(** Calls that neither initialise nor run. *)
Definition setter (c : @call V A R) : Prop := match c with InitializePop _ | Run _ => False | _ => True end.
End Obj.
