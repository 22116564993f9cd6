(** Specification vocabulary for the multi-objective properties (C17-C28). *)
From Coq Require Import List Arith ZArith Bool Permutation.
From Flocq Require Import BinarySingleNaN.
From Verif Require Import Fl GABase.
Import ListNotations.
Open Scope nat_scope.

(** The [i]-th objective of a fitness vector. *)
Definition objective (f : list double) (i : nat) : double := nth i f dnan.
(** [a] is strictly better than / not worse than [b] in one objective. *)
Definition Better (greater : bool) (a b : double) : Prop :=
  if greater then flt b a = true else flt a b = true.
Definition NotWorse (greater : bool) (a b : double) : Prop :=
  if greater then fle b a = true else fle a b = true.
(** Pareto dominance over [M] objectives. *)
Definition Dominates (M : nat) (greater : bool) (a b : list double) : Prop :=
  (forall i, i < M -> NotWorse greater (objective a i) (objective b i)) /\
  (exists i, i < M /\ Better greater (objective a i) (objective b i)).

Section S.
Context {V : Type} (M : nat) (greater : bool).
Notation ind := (gene V (list double)).
Definition dominates (x y : ind) : Prop := Dominates M greater (gfit x) (gfit y).
Definition nondominated_in (p : list ind) (x : ind) : Prop :=
  In x p /\ forall y, In y p -> ~ dominates y x.
(** [n] individuals of [p] dominate [x]. *)
Definition dominator_count (p : list ind) (x : ind) (n : nat) : Prop :=
  exists ds, NoDup ds /\ length ds = n /\ forall y, In y ds <-> In y p /\ dominates y x.

(** Crowding distance.  [s] is the population sorted by objective [o].  The
    individuals at the two ends have no two neighbours. *)
Fixpoint neighbours (s : list ind) (id : nat) : option (ind * ind) :=
  match s with
  | a :: ((b :: c :: _) as t) => if Nat.eqb (gid b) id then Some (a, c) else neighbours t id
  | _ => None
  end.
Definition spread (o : nat) (s : list ind) : double :=
  match s with
  | [] => dnan
  | a :: _ => Babs (fsub (objective (gfit a) o) (objective (gfit (last s a)) o))
  end.
(** 1e-10 *)
Definition tiny : double := fdiv d1 (d_of_Z 10000000000).
(** Contribution of one objective added to the distance [acc] so far; the ends get infinity. *)
Definition crowd_step (o : nat) (s : list ind) (x : ind) (acc : double) : double :=
  match neighbours s (gid x) with
  | None => dinf
  | Some (a, c) => fadd acc (fdiv (Babs (fsub (objective (gfit a) o) (objective (gfit c) o))) (fadd (spread o s) tiny))
  end.
(** [orders] lists one order per objective, starting with objective [o]. *)
Fixpoint crowding_from (o : nat) (orders : list (list ind)) (x : ind) (acc : double) : double :=
  match orders with
  | [] => acc
  | s :: t => crowding_from (S o) t x (crowd_step o s x acc)
  end.
Definition crowding (orders : list (list ind)) (x : ind) : double := crowding_from 0 orders x d0.
(** [orders] are the [M] orders of population [p]: permutations, ascending in the objective. *)
Definition objective_orders (p : list ind) (orders : list (list ind)) : Prop :=
  length orders = M /\
  forall o s, nth_error orders o = Some s ->
    Permutation p s /\
    forall i j a b, i < j -> nth_error s i = Some a -> nth_error s j = Some b ->
      flt (objective (gfit b) o) (objective (gfit a) o) = false.

(** Fitness values that cause no overflow or NaN: M finite objectives of magnitude at most 2^1000. *)
Definition tame (x : ind) : Prop :=
  forall o, o < M -> fin (objective (gfit x) o) /\
    (Rdefinitions.Rle (Rbasic_fun.Rabs (B2R (objective (gfit x) o))) (Raux.bpow Zaux.radix2 1000)).
End S.
