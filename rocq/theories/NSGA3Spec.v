(** Specification vocabulary for NSGA-III (C25-C28); nothing here depends on the model. *)
From Coq Require Import List Arith ZArith Reals Permutation.
From Flocq Require Import Core BinarySingleNaN.
From Verif Require Import Fl.
Import ListNotations.
Open Scope nat_scope.

(** A way to distribute [p] units over [M] objectives. *)
Definition splits (M p : nat) (k : list nat) : Prop := length k = M /\ list_sum k = p.
(** [x] has the coordinates k_1/p, ..., k_M/p, each up to 2^-53. *)
Definition lattice_point (p : nat) (k : list nat) (x : list double) : Prop :=
  Forall2 (fun ki d => fin d /\ (Rabs (B2R d - INR ki / INR p) <= bpow radix2 (-53))%R) k x.

(** The same point scaled by 1/sqrt 2, up to 2^-52 in each coordinate. *)
Definition inner_point (p : nat) (k : list nat) (x : list double) : Prop :=
  Forall2 (fun ki d => fin d /\ (Rabs (B2R d - INR ki / INR p / sqrt 2) <= bpow radix2 (-52))%R) k x.

(** Filling niches: individuals of type [A], each associated with a reference
    point [rp x] at distance [dist x]. *)
Section Niche.
Context {A : Type} (rp : A -> nat) (dist : A -> double).
(** How many of the chosen individuals belong to reference point [j]. *)
Definition niche_count (chosen : list A) (j : nat) : nat :=
  length (filter (fun x => Nat.eqb (rp x) j) chosen).
(** [picks] are taken one after the other from the candidates [cands]: each time
    an individual whose reference point has the fewest chosen individuals among
    all reference points with a candidate left; when that is none at all, a
    closest one. *)
Inductive niche_fill : list A -> list A -> list A -> Prop :=
| nf_done : forall chosen cands, niche_fill chosen cands []
| nf_pick : forall chosen cands x cands' picks,
    Permutation cands (x :: cands') ->
    (forall y, In y cands -> niche_count chosen (rp x) <= niche_count chosen (rp y)) ->
    (niche_count chosen (rp x) = 0 -> forall y, In y cands -> rp y = rp x -> flt (dist y) (dist x) = false) ->
    niche_fill (chosen ++ [x]) cands' picks ->
    niche_fill chosen cands (x :: picks).
End Niche.

(** Real vectors. *)
Open Scope R_scope.
Definition rsum (l : list R) : R := fold_right Rplus 0 l.
(** |s - t w|^2, the squared distance from [s] to a point of the line through 0 and [w]. *)
Fixpoint dist2_to (w s : list R) (t : R) : R :=
  match w, s with
  | a :: w', b :: s' => (b - t * a) * (b - t * a) + dist2_to w' s' t
  | _, _ => 0
  end.
(** [d] is the squared distance from [s] to the line spanned by [w]. *)
Definition line_dist2 (w s : list R) (d : R) : Prop :=
  (forall t, d <= dist2_to w s t) /\ (exists t, d = dist2_to w s t).
