(** What a user of a SOGA object must respect (vocabulary of Props_SOGAObj.v). *)
From Coq Require Import List ZArith Reals Bool.
From Flocq Require Import Core BinarySingleNaN.
From Verif Require Import Base Fl Rng StdOps GABase SOGA SOGAObj.
Import ListNotations.
Open Scope Z_scope.

(** The documented ranges of the selection parameters. *)
Definition in_range (s : settings) : Prop :=
  2 <= s_tour s /\
  (fin (s_worst s) /\ fin (s_best s) /\ (0 <= B2R (s_worst s))%R /\ (B2R (s_worst s) < B2R (s_best s))%R /\ (B2R (s_best s) <= 1)%R) /\
  (fin (s_base s) /\ (0 <= B2R (s_base s) < 1)%R) /\ 1 <= s_elite s.

Definition not_poke (c : setting_call) : Prop := match c with PokeTournament _ => False | _ => True end.

Section Obj.
Context {V A : Type} (R : rng_ops) (std : std_ops) (mode : option method) (greater rec_on : bool).
Context (pw : double -> double -> double) (ex : double -> double) (junk : double) (v0 : V) (vec_max : Z) (sel_fuel : nat).
Notation obj' := (@obj V A R).
Notation step' := (step R std mode greater rec_on pw ex junk v0 vec_max sel_fuel).
Notation m_of := (method_of mode).
(** An upper bound on four times every populationSize used. *)
Variable (B : Z).

(** What the user must respect; [P] restricts the method in use. *)
Definition lawful (P : settings -> Prop) (o : obj') (c : @call V A R) : Prop :=
  let opt := s_opt (o_set R o) in
  match c with
  | Setting _ s => (exists s', apply_setting (o_set R o) s = Ok s') /\ not_poke s
  | InitializePop _ => f_i R (o_slots R o) <> None /\ 1 <= populationSize opt /\ 4 * populationSize opt <= B
  | Run _ =>
      o_inited R o = true /\ f_c R (o_slots R o) <> None /\ f_m R (o_slots R o) <> None /\
      (exists f, f_f R (o_slots R o) = Some f /\ forall v, nonnan (f (o_args R o) v)) /\
      1 <= populationSize opt /\ 4 * populationSize opt <= B /\
      0 <= maxGenerations opt < two64 - 1 /\ wrap64 (maxGenerations opt + 1) <= vec_max /\
      (m_of (o_set R o) = Tournament -> s_tour (o_set R o) < populationSize opt) /\
      (m_of (o_set R o) = Boltzmann -> s_strength (o_set R o) <> None) /\
      P (o_set R o)
  | _ => True
  end.
Fixpoint lawful_history (P : settings -> Prop) (o : obj') (h : list (@call V A R)) : Prop :=
  match h with
  | [] => True
  | c :: t => lawful P o c /\ forall o', step' o c = Ok o' -> lawful_history P o' t
  end.

(** Methods whose result has at most populationSize individuals. *)
Definition size_safe (s : settings) : Prop :=
  m_of s <> StochasticUniversal /\ (m_of s = EliteReserved -> s_elite s <= populationSize (s_opt s)).

(** The methods whose selection is always defined. *)
Definition plain_method (s : settings) : Prop :=
  m_of s <> StochasticUniversal /\ m_of s <> Truncation /\ m_of s <> EliteReserved.
(** The methods whose selection always ends, whatever the stream. *)
Definition ending_method (s : settings) : Prop :=
  match m_of s with Tournament | MonteCarlo | LinearRank | ExponentialRank => True | _ => False end.
End Obj.
