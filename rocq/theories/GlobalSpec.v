(** Specification vocabulary for C45-C51; nothing here depends on the model. *)
From Coq Require Import List ZArith.
From Verif Require Import Fl.
Open Scope Z_scope.

(** n! *)
Fixpoint zfact (n : nat) : Z := match n with O => 1 | S m => Z.of_nat (S m) * zfact m end.
(** Binomial coefficients: Pascal's triangle. *)
Fixpoint binom (n k : nat) : Z :=
  match n, k with
  | _, O => 1
  | O, S _ => 0
  | S m, S j => binom m j + binom m k
  end.
(** A double in [0,1]. *)
Definition in01 (x : double) : Prop := fle d0 x = true /\ fle x d1 = true.
(** [r] is one of the elements of [l] and stands in relation [le] before all of them. *)
Definition is_least {T} (le : T -> T -> Prop) (r : T) (l : list T) : Prop :=
  In r l /\ forall x, In x l -> le r x.
