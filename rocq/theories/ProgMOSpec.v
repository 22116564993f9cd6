(** What the example programs of ProgMO.v need of the C library. *)
From Coq Require Import ZArith Reals.
From Flocq Require Import Core BinarySingleNaN.
From Verif Require Import Base Fl Bench.
(** sin is bounded by 1 on finite arguments; exp is between 0 and 2 on arguments
    that are not positive; pow(x, 0.8) is between 0 and 8 for x between 0 and 8. *)
Definition sin_sane (L : libm) : Prop := forall x : double, fin x -> fin (l_sin L x) /\ (Rabs (B2R (l_sin L x)) <= 1)%R.
Definition exp_sane (L : libm) : Prop := forall x : double, fin x -> (B2R x <= 0)%R -> fin (l_exp L x) /\ (0 <= B2R (l_exp L x) <= 2)%R.
Definition pow_sane (L : libm) : Prop := forall x : double, fin x -> (0 <= B2R x <= 8)%R ->
  fin (l_pow L x (fdiv (d_of_Z 8) (d_of_Z 10))) /\ (0 <= B2R (l_pow L x (fdiv (d_of_Z 8) (d_of_Z 10))) <= 8)%R.
