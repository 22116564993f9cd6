(** What a user of an AOS object must respect (vocabulary of Props_AOSObj.v). *)
From Coq Require Import List Arith ZArith Bool Reals.
From Flocq Require Import Core BinarySingleNaN.
From Verif Require BoxObj.
From Verif Require Import Base Fl Rng StdOps Box AOS AOSSpec AOSObj.
From Verif Require Import Props_Box.
Import ListNotations.
Open Scope Z_scope.

(** Every coordinate is a finite number of at most 2^800 in absolute value. *)
Definition modest (v : list double) : Prop := forall x, In x v -> fin x /\ (Rabs (B2R x) <= bpow radix2 800)%R.

Section Obj.
Context {A : Type} (R : rng_ops) (E0 : env R) (norm : G R -> double * G R).
Notation obj' := (@obj A R).
Notation step' := (@step A R E0 norm).
(** The user's promise: all positions that are tried lie in [region], and have
    [d] coordinates. *)
Variable (d : nat) (region : list double -> Prop).

(** The bounds, delta and dimensions that the next run() of [o] uses. *)
Definition box_in_use (o : obj') : res dbox :=
  run_box (eigen E0) (negb (fle (photonRate (o_opt R o)) d0)) (o_box R o) d.
(** Moves stay in the region: it is everything with [d] coordinates, or the box
    is inside it and nothing can overflow. *)
Definition stays_inside (B : dbox) : Prop :=
  (forall v, length v = d -> region v) \/
  (moderate (env_with R E0 B (no_init R) no_fun) /\ eigen_draws E0 /\
   (forall v, region v -> modest v) /\ (forall v, in_box B v -> region v)).

Definition lawful (o : obj') (c : @call A R) : Prop :=
  let opt := o_opt R o in
  match c with
  | BoxCall _ b => has_box_call (o_box R o) b = true /\ box_step (o_box R o) b <> Abort
  | InitializePop _ =>
      maxLayerNum opt <= electronNum opt /\ 1 <= electronNum opt /\
      match o_i R o with
      | IDefault _ => forall g, exists v g', box_initialize R norm (o_box R o) g = Ok (v, g') /\ region v
      | IFixed _ i | IPointer _ (IUser _ i) => forall g, region (fst (i (o_args R o) g))
      | _ => False
      end
  | Run _ =>
      let count := Z.of_nat (length (get_electrons R o)) in
      o_inited R o = true /\
      (exists f, o_f R o = Some f /\ forall v, region v -> nonnan (f (o_args R o) v)) /\
      1 <= electronNum opt /\ 1 <= maxLayerNum opt < 2147483647 /\ 0 <= a_maxGeneration opt < two64 /\
      (forall t n, 1 <= t <= maxLayerNum opt -> Z.min (electronNum opt) count <= n <= electronNum opt -> AOSSpec.fits E0 t n) /\
      exists B, box_in_use o = Ok B /\ stays_inside B
  | _ => True
  end.
Fixpoint lawful_history (o : obj') (h : list (@call A R)) : Prop :=
  match h with
  | [] => True
  | c :: t => lawful o c /\ forall o', step' o c = Ok o' -> lawful_history o' t
  end.
End Obj.
