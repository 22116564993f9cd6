(** What the documentation of a benchmark function says: its value is given by a
    formula; its smallest value over a domain is [m], attained exactly at the
    points satisfying [P]. *)
From Coq Require Import List Reals.
From Verif Require Import Base.
Import ListNotations.
Open Scope R_scope.

Definition formula2 (f : list R -> res R) (F : R -> R -> R) : Prop := forall x y, f [x; y] = Ok (F x y).
Definition is_min (f : list R -> res R) (D : list R -> Prop) (m : R) (P : list R -> Prop) : Prop :=
  (exists v, D v /\ P v) /\
  forall v, D v -> exists y, f v = Ok y /\ m <= y /\ (y = m <-> P v).
Definition pairs_only (v : list R) : Prop := length v = 2%nat.
(** [a] dominates [b] if it is nowhere larger and not the same; a point is Pareto
    optimal if no point of the domain dominates it. *)
Definition dominates (a b : list R) : Prop :=
  length a = length b /\ (forall i, (i < length a)%nat -> nth i a 0 <= nth i b 0) /\ exists i, (i < length a)%nat /\ nth i a 0 < nth i b 0.
Definition pareto_optimal {X} (f : X -> res (list R)) (D : X -> Prop) (x : X) : Prop :=
  D x /\ exists a, f x = Ok a /\ forall y b, D y -> f y = Ok b -> ~ dominates b a.
Definition unit_cube (N : nat) (x : list R) : Prop := length x = N /\ forall i, (i < N)%nat -> 0 <= nth i x 0 <= 1.
(** The sum of the elements, and of their squares. *)
Definition total (l : list R) : R := fold_right Rplus 0 l.
Definition total_sq (l : list R) : R := fold_right (fun v s => v * v + s) 0 l.
