(** Model of the array versions of randD: Global/Randoms.hpp:86-90 [randD(dst, num)] and
    104-108 [randD(dst, num, min, max)].  [a] is the array [dst] points into, [dst] the
    position of its first element there; a write outside the array is undefined.  [num] is
    an int: the loop does not run when it is negative. *)
From Coq Require Import List Arith ZArith Bool.
From Verif Require Import Base Fl Rng Matrix.
Import ListNotations.
Open Scope Z_scope.

Section R.
Variable R : rng_ops.
(** The for loop of lines 87 and 105 with [n] rounds to go; [draw] is the call on its right
    hand side. *)
Fixpoint fill_draws (draw : G R -> double * G R) (a : list double) (at_ : Z) (n : nat) (g : G R) : res (list double * G R) :=
  match n with
  | O => Ok (a, g)
  | S m => let (x, g1) := draw g in do a' <- store a at_ x; fill_draws draw a' (at_ + 1) m g1
  end.
(** 86-90 *)
Definition randD_array (a : list double) (dst num : Z) (g : G R) : res (list double * G R) :=
  fill_draws (rand01 R) a dst (Z.to_nat num) g.
(** 104-108 *)
Definition randD_array_range (a : list double) (dst num : Z) (lo hi : double) (g : G R) : res (list double * G R) :=
  fill_draws (randD_range R lo hi) a dst (Z.to_nat num) g.
End R.
