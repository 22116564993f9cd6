(** Random numbers: Global/Randoms.hpp.
    The global std::mt19937 is an arbitrary state type [G]; the standard
    distributions and std::shuffle are arbitrary operations on it.  Their
    contract, as given by the C++ standard, is [rng_ok]. *)
From Coq Require Import List ZArith Bool Permutation.
From Flocq Require Import BinarySingleNaN.
From Verif Require Import Base Fl.
Import ListNotations.
Open Scope Z_scope.

Record rng_ops := mkRng {
  G : Type;                                        (* state of the generator *)
  rand01 : G -> double * G;                        (* Randoms.hpp:81-84  randD() *)
  randf01 : G -> float * G;                        (* Randoms.hpp:113-116 randF() *)
  shuffle : forall A : Type, list A -> G -> list A * G   (* std::shuffle *)
}.
Arguments shuffle _ {A}.

Definition f0 : float := B754_zero false.
Definition f1 : float := f_of_Z 1.

(** Contract: [randD()] and [randF()] lie in [0,1); shuffling permutes. *)
Definition rng_ok (r : rng_ops) : Prop :=
  (forall g, fle d0 (fst (rand01 r g)) = true /\ flt (fst (rand01 r g)) d1 = true) /\
  (forall g, fle f0 (fst (randf01 r g)) = true /\ flt (fst (randf01 r g)) f1 = true) /\
  (forall A (l : list A) g, Permutation l (fst (shuffle r l g))).

(** Randoms.hpp:100-102  [randD(min,max) = (max - min) * randD() + min]. *)
Definition affineD (lo hi d : double) : double := fadd (fmul (fsub hi lo) d) lo.
Definition randD_range (r : rng_ops) (lo hi : double) (g : G r) : double * G r :=
  let (d, g') := rand01 r g in (affineD lo hi d, g').

(** Randoms.hpp:129-133  [randIdx(size) = int_t(randF() * size)]; the usual
    arithmetic conversions turn [size] into a float, the cast truncates. *)
Definition idx_of (f : float) (size : Z) : Z := Btrunc (fmul f (f_of_Z size)).
Definition randIdx (r : rng_ops) (size : Z) (g : G r) : Z * G r :=
  let (f, g') := randf01 r g in (idx_of f size, g').

(** Randoms.hpp:143-147  [randIdx(min,max_plus_1) = int_t((max_plus_1 - min) * randF()) + min]. *)
Definition randIdx2 (r : rng_ops) (lo hi : Z) (g : G r) : Z * G r :=
  let (f, g') := randf01 r g in (Btrunc (fmul (f_of_Z (hi - lo)) f) + lo, g').

(** A concrete generator that satisfies the contract: it replays a list of
    draws in units of 2^-8 (reduced mod 256) and never shuffles. *)
Definition replay : rng_ops := {|
  G := list Z;
  rand01 := fun l => match l with
                     | [] => (d0, [])
                     | z :: t => (fofZ (z mod 256) (-8), t) end;
  randf01 := fun l => match l with
                     | [] => (f0, [])
                     | z :: t => (fofZ (z mod 256) (-8), t) end;
  shuffle := fun A l g => (l, g)
|}.

(** Same, with an endlessly repeated draw. *)
Definition constant_rng (d : double) (f : float) : rng_ops := {|
  G := unit;
  rand01 := fun _ => (d, tt);
  randf01 := fun _ => (f, tt);
  shuffle := fun A l g => (l, g)
|}.
