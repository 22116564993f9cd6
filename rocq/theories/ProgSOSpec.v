(** Vocabulary of Props_ProgSO.v. *)
From Coq Require Import List Arith ZArith Bool Reals Permutation.
From Flocq Require Import Core BinarySingleNaN.
From Verif Require Import Base Fl Rng Bench ProgSO.
Import ListNotations.

(** Keys, and points of the unit square. *)
Definition unit_value (x : double) : Prop := fle d0 x = true /\ fle x d1 = true.
Definition unit_point (p : point) : Prop := unit_value (fst p) /\ unit_value (snd p).
(** Visiting the points in the order [order]: sum of the squared distances, in
    the order of the visit (test/SOGA_TSP.cpp does not take square roots). *)
Definition legs (order : list nat) : list (nat * nat) := combine order (tl order).
Definition path_length (pts : list point) (order : list nat) : double :=
  fold_left (fun s ab => fadd s (dist2 (nth (fst ab) pts (d0, d0)) (nth (snd ab) pts (d0, d0)))) (legs order) d0.
(** [order] is a tour of the points along which the keys never rise. *)
Definition tour_of (x : list double) (order : list nat) : Prop :=
  Permutation (seq 0 (length x)) order /\
  forall i j a b ka kb, (i < j)%nat -> nth_error order i = Some a -> nth_error order j = Some b ->
    nth_error x a = Some ka -> nth_error x b = Some kb -> flt ka kb = false.
(** Where the element comes from that the flip of [b..e] leaves at [j]: the
    mirror image, except for a pair in the middle, which stays. *)
Definition flip_index (b e j : nat) : nat :=
  (if (j <? b) || (e <? j) then j
   else if (2 * j + 1 =? b + e) || (2 * j =? b + e + 1) then j
   else b + e - j)%nat.
Definition reversed (b e j : nat) : nat := (if (j <? b) || (e <? j) then j else b + e - j)%nat.
(** What the Ackley program needs of the C library. *)
Definition cos_sane (L : libm) : Prop := forall x : double, fin x -> fin (l_cos L x) /\ (Rabs (B2R (l_cos L x)) <= 1)%R.
Definition exp_sane4 (L : libm) : Prop := forall x : double, fin x -> (B2R x <= 1)%R -> fin (l_exp L x) /\ (0 <= B2R (l_exp L x) <= 4)%R.
