(** Vocabulary of Props_ProgPSO.v. *)
From Coq Require Import List Arith ZArith Bool Reals Permutation.
From Flocq Require Import Core BinarySingleNaN.
From Verif Require Import Base Fl Rng BoxF Bench ProgSOSpec ProgPSO.
Import ListNotations.

(** Points with both coordinates in [-1, 1], as Eigen's setRandom makes them. *)
Definition disc_value (x : float) : Prop := fle (f_of_Z (-1)) x = true /\ fle x f1 = true.
Definition square_point (p : fpoint) : Prop := disc_value (fst p) /\ disc_value (snd p).
(** [order] visits every point once, along keys that, as floats, never fall. *)
Definition tour_up (x : list double) (order : list nat) : Prop :=
  Permutation (seq 0 (length x)) order /\
  forall i j a b ka kb, (i < j)%nat -> nth_error order i = Some a -> nth_error order j = Some b ->
    nth_error x a = Some ka -> nth_error x b = Some kb -> flt (to_float kb) (to_float ka) = false.
(** Length of the path: the squared distances, each computed in float, summed in
    double in the order of the visit. *)
Definition fpath_length (pts : list fpoint) (order : list nat) : double :=
  fold_left (fun s ab => fadd s (to_double (fdist2 (nth (fst ab) pts (f0, f0)) (nth (snd ab) pts (f0, f0))))) (legs order) d0.
(** What the Rastrigin program needs of the C library: cos of a finite number is
    finite, cos of anything NaN or in [-1, 1]. *)
Definition cos_safe (L : libm) : Prop :=
  forall x : double, (fin x -> fin (l_cos L x)) /\ (is_nan (l_cos L x) = true \/ fin (l_cos L x) /\ (Rabs (B2R (l_cos L x)) <= 1)%R).
