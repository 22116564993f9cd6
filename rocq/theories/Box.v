(** Model of EAGlobal/BoxConstraint.hpp: boxes over booleans, integers and
    doubles.  (float coordinates: BoxF.v; GaussianBox: BoxObj.v.)
    A decision variable is the list of its coefficients in storage order; the
    square boxes are the case of constant bound functions. *)
From Coq Require Import List Arith ZArith Bool.
From Flocq Require Import BinarySingleNaN.
From Verif Require Import Base Fl Rng.
Import ListNotations.
Open Scope Z_scope.

(** Writing one element; [at] outside the container is undefined. *)
Fixpoint set_at {A} (v : list A) (i : nat) (x : A) : list A :=
  match v, i with
  | [], _ => []
  | _ :: t, O => x :: t
  | y :: t, S j => y :: set_at t j x
  end.
Definition get_at {A} (v : list A) (i : Z) : res A :=
  if i <? 0 then UB else match nth_error v (Z.to_nat i) with Some x => Ok x | None => UB end.

(** std::min(a,b) is (b < a) ? b : a;  std::max(a,b) is (a < b) ? b : a. *)
Definition dmin (a b : double) : double := if flt b a then b else a.
Definition dmax (a b : double) : double := if flt a b then b else a.

(** * Boxes of doubles *)
(** dimensions(), min(idx), max(idx), delta(idx):
    SizeBody4BoxConstraint.hpp:29-87, BoxConstraint.hpp:100-124 (square, all
    bounds equal), 237-260 (rectangle), 517-560 (delta). *)
Record dbox := mkDBox { dimD : Z; minD : nat -> double; maxD : nat -> double; deltaD : nat -> double }.
Definition square_dbox (n : Z) (lo hi delta : double) : dbox :=
  mkDBox n (fun _ => lo) (fun _ => hi) (fun _ => delta).
(** BoxConstraint.hpp:115-119 [setRange] and 527-530 [setDelta] assert
    _min_ < _max_ and delta > 0; None is a failed assertion.  (The rectangle
    version, 253-257, checks nothing.) *)
Definition set_square (n : Z) (lo hi delta : double) : option dbox :=
  if flt lo hi && flt d0 delta then Some (square_dbox n lo hi delta) else None.

Definition clampD (lo hi x : double) : double := dmax (dmin x hi) lo.

Section Doubles.
Context (R : rng_ops) (b : dbox).

(** 38-51 [initialize], floating-point branch; initializeSize makes [v] have
    dimensions() coefficients. *)
Fixpoint initD (n : nat) (idx : nat) (g : G R) : list double * G R :=
  match n with
  | O => ([], g)
  | S m => let (x, g1) := randD_range R (minD b idx) (maxD b idx) g in
           let (t, g2) := initD m (S idx) g1 in (x :: t, g2)
  end.
Definition initializeD (g : G R) : list double * G R := initD (Z.to_nat (dimD b)) 0 g.

(** 53-59 [applyConstraint(v)]. *)
Fixpoint constrainD (v : list double) (idx : nat) : list double :=
  match v with
  | [] => []
  | x :: t => clampD (minD b idx) (maxD b idx) x :: constrainD t (S idx)
  end.
Definition applyConstraintD (v : list double) : res (list double) :=
  if Z.of_nat (length v) =? dimD b then Ok (constrainD v 0) else Abort.
(** 61-66 [applyConstraint(v, idx)]. *)
Definition applyConstraintD_at (v : list double) (idx : Z) : res (list double) :=
  if negb (Z.of_nat (length v) =? dimD b) || (idx <? 0) || (dimD b <=? idx) then Abort else
  do x <- get_at v idx;
  Ok (set_at v (Z.to_nat idx) (clampD (minD b (Z.to_nat idx)) (maxD b (Z.to_nat idx)) x)).

(** One coordinate is moved by [step] and clamped: 77-79, 632-635. *)
Definition moveD (v : list double) (idx : Z) (step : double) : res (list double) :=
  do x <- get_at v idx;
  Ok (set_at v (Z.to_nat idx)
        (clampD (minD b (Z.to_nat idx)) (maxD b (Z.to_nat idx)) (fadd x step))).

(** 627-635 [ContinousBox::applyDelta]. *)
Definition applyDeltaD (v : list double) (g : G R) : res (list double * G R) :=
  if negb (Z.of_nat (length v) =? dimD b) then Abort else
  let (idx, g1) := randIdx R (dimD b) g in
  let (r, g2) := randD_range R (d_of_Z (-1)) d1 g1 in
  do v' <- moveD v idx (fmul r (deltaD b (Z.to_nat idx))); Ok (v', g2).

(** 68-80 [BoxBase::applyDelta] on floating-point coordinates: DiscretBox over
    doubles and FixedContinousBox17/20 (639-664), which do not override it. *)
Definition applyStepD (v : list double) (g : G R) : res (list double * G R) :=
  if negb (Z.of_nat (length v) =? dimD b) then Abort else
  let (idx, g1) := randIdx2 R 0 (dimD b) g in
  let (k, g2) := randIdx R 2 g1 in
  do v' <- moveD v idx (if k =? 0 then d1 else d_of_Z (-1)); Ok (v', g2).
End Doubles.

(** * Boxes of integers *)
(** An integer type: width and signedness. *)
Record ity := mkIty { ibits : Z; isgn : bool }.
Definition imin (t : ity) : Z := if isgn t then - 2 ^ (ibits t - 1) else 0.
Definition imax (t : ity) : Z := if isgn t then 2 ^ (ibits t - 1) - 1 else 2 ^ ibits t - 1.
Definition in_ity (t : ity) (z : Z) : bool := (imin t <=? z) && (z <=? imax t).
(** Conversion to the type (modular). *)
Definition conv (t : ity) (z : Z) : Z := (z - imin t) mod 2 ^ ibits t + imin t.
(** Integral promotion; arithmetic in the promoted type: signed overflow is
    undefined, unsigned wraps. *)
Definition int32 : ity := mkIty 32 true.
Definition promoted (t : ity) : ity := if ibits t <? 32 then int32 else t.
Definition arith (t : ity) (z : Z) : res Z :=
  if isgn t then (if in_ity t z then Ok z else UB) else Ok (conv t z).

Record ibox := mkIBox { dimI : Z; minI : nat -> Z; maxI : nat -> Z }.

Section Ints.
Context (R : rng_ops) (t : ity) (b : ibox).
(** Randoms.hpp:143-147 [randIdx<Scalar_t>(min, max_plus_1)], with the machine
    arithmetic of the scalar type; a float outside the type cannot be converted. *)
Definition randIdxT (lo hi1 : Z) (g : G R) : res (Z * G R) :=
  do d <- arith (promoted t) (hi1 - lo);
  let (f, g') := randf01 R g in
  let k := Btrunc (fmul (f_of_Z d) f) in
  if in_ity t k then do r <- arith (promoted t) (k + lo); Ok (conv t r, g') else UB.
(** 38-51 [initialize], integer branch. *)
Fixpoint initI (n : nat) (idx : nat) (g : G R) : res (list Z * G R) :=
  match n with
  | O => Ok ([], g)
  | S m => do h <- arith (promoted t) (1 + maxI b idx);
           do (x, g1) <- randIdxT (minI b idx) (conv t h) g;
           do (r, g2) <- initI m (S idx) g1; Ok (x :: r, g2)
  end.
Definition initializeI (g : G R) : res (list Z * G R) := initI (Z.to_nat (dimI b)) 0 g.

Definition clampI (lo hi x : Z) : Z := Z.max (Z.min x hi) lo.
(** 53-59. *)
Fixpoint constrainI (v : list Z) (idx : nat) : list Z :=
  match v with
  | [] => []
  | x :: t => clampI (minI b idx) (maxI b idx) x :: constrainI t (S idx)
  end.
Definition applyConstraintI (v : list Z) : res (list Z) :=
  if Z.of_nat (length v) =? dimI b then Ok (constrainI v 0) else Abort.
(** 68-80 [applyDelta], integer branch: [at += +-1] in the promoted type, then
    conversion back. *)
Definition applyDeltaI (v : list Z) (g : G R) : res (list Z * G R) :=
  if negb (Z.of_nat (length v) =? dimI b) then Abort else
  let (idx, g1) := randIdx2 R 0 (dimI b) g in
  let (k, g2) := randIdx R 2 g1 in
  do x <- get_at v idx;
  do y <- arith (promoted t) (x + (if k =? 0 then 1 else -1));
  Ok (set_at v (Z.to_nat idx)
        (clampI (minI b (Z.to_nat idx)) (maxI b (Z.to_nat idx)) (conv t y)), g2).
End Ints.

(** * Boolean boxes *)
Section Bools.
Context (R : rng_ops) (dims : Z).
(** 38-43 *)
Fixpoint initB (n : nat) (g : G R) : list bool * G R :=
  match n with
  | O => ([], g)
  | S m => let (k, g1) := randIdx R 2 g in
           let (r, g2) := initB m g1 in ((k =? 0) :: r, g2)
  end.
Definition initializeB (g : G R) : list bool * G R := initB (Z.to_nat dims) g.
(** 68-73 *)
Definition applyDeltaB (v : list bool) (g : G R) : res (list bool * G R) :=
  if negb (Z.of_nat (length v) =? dims) then Abort else
  let (idx, g1) := randIdx2 R 0 dims g in
  do x <- get_at v idx;
  Ok (set_at v (Z.to_nat idx) (negb x), g1).
End Bools.
