(** Vocabulary of Props_ProgAOS.v. *)
From Coq Require Import List Arith ZArith Bool Reals.
From Flocq Require Import Core BinarySingleNaN.
From Verif Require Import Base Fl.
Import ListNotations.
Open Scope R_scope.

Definition real_sum (l : list double) : R := fold_right Rplus 0 (map B2R l).
(** The C library's exp and Eigen's sum of an array are right to within a
    thousandth. *)
Definition exp_fair (e : double -> double) : Prop :=
  forall x, fin x -> -20 <= B2R x <= 0 -> fin (e x) /\ Rabs (B2R (e x) - exp (B2R x)) <= exp (B2R x) / 1000.
Definition sum_fair (s : list double -> double) : Prop :=
  forall l, (length l <= 5)%nat -> (forall x, In x l -> fin x /\ 0 <= B2R x <= 10) ->
    fin (s l) /\ Rabs (B2R (s l) - real_sum l) <= real_sum l / 1000.

From Verif Require Import Rng AOS AOSSpec.
(** [e] is an electron, evaluated, of some round of a run that starts at [s]; every
    electron that is evaluated in the run is one of these. *)
Definition tried {R : rng_ops} (E : env R) (opt : aos_option) (s : aos (G R)) (e : electron) : Prop :=
  exists k sk, rounds E opt k s sk /\ In e (evaluated E sk).
