(** Model of Genetic/Miscellaneous4GA.hpp: the default genetic operators.
    A decision variable is the list of its coefficients.  Parents of different
    sizes are outside the contract of the operators (out-of-range access or a
    failed Eigen assertion): [UB]. *)
From Coq Require Import List Arith ZArith Bool.
From Flocq Require Import BinarySingleNaN.
From Verif Require Import Base Fl Rng Box GlobalM.
Import ListNotations.
Open Scope Z_scope.

Section Model.
Context (R : rng_ops).

(** 35-45, 62-69 [imp_cFunNd]: c1 = r*p1 + (1-r)*p2, c2 = r*p2 + (1-r)*p1.
    (cFunXd, 395-403, resizes the children first.) *)
Definition blend (r x y : double) : double := fadd (fmul r x) (fmul (fsub d1 r) y).
Definition cFunNd (r : double) (p1 p2 : list double) : res (list double * list double) :=
  if Nat.eqb (length p1) (length p2) then
    Ok (map (fun xy => blend r (fst xy) (snd xy)) (combine p1 p2),
        map (fun xy => blend r (snd xy) (fst xy)) (combine p1 p2))
  else UB.
(** The default ratio, DivEncode<1,5>. *)
Definition default_r : double := DivReal (DivEncode 1 5).

(** 71-85 [imp_cFunSwapNs] (the version for standard containers, 47-56, calls
    Eigen members and does not compile for them). *)
Definition cFunSwapNs {A} (p1 p2 : list A) (g : G R) : res ((list A * list A) * G R) :=
  if Nat.eqb (length p1) (length p2) then
    let (idx, g') := randIdx R (Z.of_nat (length p1)) g in
    let k := Z.to_nat idx in
    Ok ((firstn k p1 ++ skipn k p2, firstn k p2 ++ skipn k p1), g')
  else UB.

(** 431-440 [cFunRandNs]: two separate draws per locus. *)
Fixpoint rand_loci {A} (r : double) (p1 p2 : list A) (g : G R) : (list A * list A) * G R :=
  match p1, p2 with
  | x :: t1, y :: t2 =>
      let (d1, g1) := rand01 R g in
      let (d2, g2) := rand01 R g1 in
      let '((c1, c2), g3) := rand_loci r t1 t2 g2 in
      (((if flt d1 r then x else y) :: c1, (if flt d2 r then y else x) :: c2), g3)
  | _, _ => (([], []), g)
  end.
Definition cFunRandNs {A} (r : double) (p1 p2 : list A) (g : G R) : res ((list A * list A) * G R) :=
  if Nat.eqb (length p1) (length p2) then Ok (rand_loci r p1 p2 g) else UB.
(** TemplateFloat.hpp:45 DivCode_Half. *)
Definition div_half : double := DivReal 4294967298.
(** 447-450 [cFunRandXs<p>] calls cFunRandNs without passing p on. *)
Definition cFunRandXs {A} (p : double) (p1 p2 : list A) (g : G R) : res ((list A * list A) * G R) :=
  cFunRandNs div_half p1 p2 g.

(** 351-361 [iFunNd]. *)
Fixpoint iFunNd (n : nat) (lo hi : double) (g : G R) : list double * G R :=
  match n with
  | O => ([], g)
  | S m => let (x, g1) := randD_range R lo hi g in
           let (t, g2) := iFunNd m lo hi g1 in (x :: t, g2)
  end.

(** 184-185 [iFun] and 303-306 [mFun] with a box: initialize / copy, then
    applyDelta. *)
Definition iFun_box (b : dbox) (g : G R) : list double * G R := initializeD R b g.
Definition mFun_box (b : dbox) (v : list double) (g : G R) : res (list double * G R) := applyDeltaD R b v g.
End Model.
