(** Model of the boxes whose coefficients are floats (float Scalar_t):
    EAGlobal/BoxConstraint.hpp:36-85 (BoxBase), 606-636 (ContinousBox), 667-755
    (GaussianBox).  A decision variable is the list of its coefficients. *)
From Coq Require Import List Arith ZArith Bool.
From Flocq Require Import Core BinarySingleNaN.
From Verif Require Import Base Fl Rng Box.
Import ListNotations.
Open Scope Z_scope.

(** Conversions between float and double (IEEE: to nearest even; what is too
    large becomes infinite). *)
Definition to_double (x : float) : double :=
  match x with
  | B754_zero s => B754_zero s
  | B754_infinity s => B754_infinity s
  | B754_nan => B754_nan
  | B754_finite s m e _ => binary_normalize 53 1024 _ _ mode_NE (cond_Zopp s (Zpos m)) e s
  end.
Definition to_float (x : double) : float :=
  match x with
  | B754_zero s => B754_zero s
  | B754_infinity s => B754_infinity s
  | B754_nan => B754_nan
  | B754_finite s m e _ => binary_normalize 24 128 _ _ mode_NE (cond_Zopp s (Zpos m)) e s
  end.

(** dimensions(), min(idx), max(idx), delta(idx) as in Box.v. *)
Record fbox := mkFBox { dimF : Z; minF : nat -> float; maxF : nat -> float; deltaF : nat -> float }.
Definition square_fbox (n : Z) (lo hi delta : float) : fbox :=
  mkFBox n (fun _ => lo) (fun _ => hi) (fun _ => delta).
(** 115-119 [setRange], 520-523 [setDelta]: the assertions. *)
Definition set_square_f (n : Z) (lo hi delta : float) : option fbox :=
  if flt lo hi && flt f0 delta then Some (square_fbox n lo hi delta) else None.

(** std::min, std::max on floats. *)
Definition fmin (a b : float) : float := if flt b a then b else a.
Definition fmax (a b : float) : float := if flt a b then b else a.
Definition clampF (lo hi x : float) : float := fmax (fmin x hi) lo.

Section Floats.
Context (R : rng_ops) (b : fbox).
(** 46-48: [Scalar_t(randD(min, max))]; the bounds are converted to double, the
    draw back to float. *)
Definition drawF (lo hi : float) (g : G R) : float * G R :=
  let (x, g') := randD_range R (to_double lo) (to_double hi) g in (to_float x, g').
Fixpoint initF (n : nat) (idx : nat) (g : G R) : list float * G R :=
  match n with
  | O => ([], g)
  | S m => let (x, g1) := drawF (minF b idx) (maxF b idx) g in
           let (t, g2) := initF m (S idx) g1 in (x :: t, g2)
  end.
Definition initializeF (g : G R) : list float * G R := initF (Z.to_nat (dimF b)) 0 g.
(** 53-59. *)
Fixpoint constrainF (v : list float) (idx : nat) : list float :=
  match v with
  | [] => []
  | x :: t => clampF (minF b idx) (maxF b idx) x :: constrainF t (S idx)
  end.
Definition applyConstraintF (v : list float) : res (list float) :=
  if Z.of_nat (length v) =? dimF b then Ok (constrainF v 0) else Abort.
(** 77-79, 632-635. *)
Definition moveF (v : list float) (idx : Z) (step : float) : res (list float) :=
  do x <- get_at v idx;
  Ok (set_at v (Z.to_nat idx)
        (clampF (minF b (Z.to_nat idx)) (maxF b (Z.to_nat idx)) (fadd x step))).
(** 627-635: [at += Scalar_t(randD(-1, 1)) * delta(idx)] in float arithmetic. *)
Definition applyDeltaF (v : list float) (g : G R) : res (list float * G R) :=
  if negb (Z.of_nat (length v) =? dimF b) then Abort else
  let (idx, g1) := randIdx R (dimF b) g in
  let (r, g2) := randD_range R (d_of_Z (-1)) d1 g1 in
  do v' <- moveF v idx (fmul (to_float r) (deltaF b (Z.to_nat idx))); Ok (v', g2).
(** 68-80: DiscretBox over floats and FixedContinousBox17/20. *)
Definition applyStepF (v : list float) (g : G R) : res (list float * G R) :=
  if negb (Z.of_nat (length v) =? dimF b) then Abort else
  let (idx, g1) := randIdx2 R 0 (dimF b) g in
  let (k, g2) := randIdx R 2 g1 in
  do v' <- moveF v idx (if k =? 0 then f1 else f_of_Z (-1)); Ok (v', g2).
End Floats.

(** GaussianBox over floats; [norm] is one draw of
    std::normal_distribution<double>(0, 1). *)
Section Gauss.
Context (R : rng_ops) (norm : G R -> double * G R) (dims : Z) (mu sigma delta : float).
(** 734-740: normD(mu, sigma) is computed in double and stored as float. *)
Fixpoint gaussF (n : nat) (g : G R) : list float * G R :=
  match n with
  | O => ([], g)
  | S m => let (x, g1) := norm g in
           let (t, g2) := gaussF m g1 in
           (to_float (fadd (fmul x (to_double sigma)) (to_double mu)) :: t, g2)
  end.
Definition g_initializeF (g : G R) : list float * G R := gaussF (Z.to_nat dims) g.
(** 746-751: [at += randD(-1, 1) * delta(idx)] in double arithmetic. *)
Definition g_applyDeltaF (v : list float) (g : G R) : res (list float * G R) :=
  if negb (Z.of_nat (length v) =? dims) then Abort else
  let (idx, g1) := randIdx R dims g in
  let (r, g2) := randD_range R (d_of_Z (-1)) d1 g1 in
  do x <- get_at v idx;
  Ok (set_at v (Z.to_nat idx) (to_float (fadd (to_double x) (fmul r (to_double delta)))), g2).
End Gauss.
