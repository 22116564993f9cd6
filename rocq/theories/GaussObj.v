(** Model of GaussianBox as an object over any floating point Scalar_t, with the non-const
    accessors that return references: EAGlobal/BoxConstraint.hpp:507-528, 667-755.
    BoxObj.v has the setters over doubles, BoxF.v the operations over floats. *)
From Coq Require Import List Arith ZArith Bool.
From Flocq Require Import Core BinarySingleNaN.
From Verif Require Import Base Fl Rng Box BoxObj BoxF.
Import ListNotations.
Open Scope Z_scope.

Definition got {X : Type} (o : option X) : res X := match o with Some x => Ok x | None => UB end.
Section Any.
Context {T : Type} (positive : T -> bool).      (* x > 0 *)
(** 527, 704-705; None is a value never written. *)
Record gauss := mkGauss { q_mu : option T; q_sigma : option T; q_delta : option T; q_size : option (Z * Z) }.
(** [fx]: the size, if it is a template argument. *)
Definition q_fresh (fx : option (Z * Z)) : gauss := mkGauss None None None fx.
(** A Ref writes through the reference that delta() (514), mu() (689), sigma() (693) return. *)
Inductive qcall :=
| QSetMu (m : T) | QSetSigma (s : T) | QSetDelta (d : T) | QSetDims (r c : Z)
| QRefMu (m : T) | QRefSigma (s : T) | QRefDelta (d : T).
Definition qstep (b : gauss) (c : qcall) : res gauss :=
  match c with
  | QSetMu m | QRefMu m => Ok (mkGauss (Some m) (q_sigma b) (q_delta b) (q_size b))                  (* 689, 691 *)
  | QSetSigma s => if positive s then Ok (mkGauss (q_mu b) (Some s) (q_delta b) (q_size b)) else Abort   (* 695-698 *)
  | QRefSigma s => Ok (mkGauss (q_mu b) (Some s) (q_delta b) (q_size b))                              (* 693 *)
  | QSetDelta d => if positive d then Ok (mkGauss (q_mu b) (q_sigma b) (Some d) (q_size b)) else Abort   (* 520-523 *)
  | QRefDelta d => Ok (mkGauss (q_mu b) (q_sigma b) (Some d) (q_size b))                              (* 514 *)
  | QSetDims r c => if (r <=? 0) || (c <=? 0) then Abort else Ok (mkGauss (q_mu b) (q_sigma b) (q_delta b) (Some (r, c)))
  end.
Fixpoint qdrive (b : gauss) (h : list qcall) : res gauss :=
  match h with [] => Ok b | c :: t => do b' <- qstep b c; qdrive b' t end.
(** 516, 518, 690, 694: the const accessors; 700 [variance]. *)
Definition get_mu (b : gauss) : res T := got (q_mu b).
Definition get_sigma (b : gauss) : res T := got (q_sigma b).
Definition get_delta (b : gauss) : res T := got (q_delta b).
Definition get_variance (times : T -> T -> T) (b : gauss) : res T := do s <- got (q_sigma b); Ok (times s s).
Definition get_dims (b : gauss) : res Z := match q_size b with Some (r, c) => arith int32 (r * c) | None => UB end.
End Any.
Arguments gauss : clear implicits. Arguments qcall : clear implicits.

(** Doubles: the operations of BoxObj.v. *)
Definition as_gbox (b : gauss double) : gbox := mkG (q_mu b) (q_sigma b) (q_delta b) (q_size b).
(** Floats, 734-740, 742, 746-751: those of BoxF.v once the members are written. *)
Section Float.
Context (R : rng_ops) (norm : G R -> double * G R) (b : gauss float).
Definition q_initializeF (g : G R) : res (list float * G R) :=
  do n <- get_dims b;
  if n <=? 0 then Ok ([], g) else do m <- get_mu b; do s <- get_sigma b; Ok (g_initializeF R norm n m s g).
Definition q_applyDeltaF (v : list float) (g : G R) : res (list float * G R) :=
  do n <- get_dims b;
  if negb (Z.of_nat (length v) =? n) then Abort else
  do d <- get_delta b; g_applyDeltaF R n d v g.
End Float.
