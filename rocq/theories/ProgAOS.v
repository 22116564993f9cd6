(** Model of the atomic orbital search example program that comes with the
    library: test/AOS_Rastrigin.cpp. *)
From Coq Require Import List Arith ZArith Bool.
From Flocq Require Import BinarySingleNaN.
From Verif Require BoxObj BinCode.
From Verif Require Import Base Fl Rng StdOps Box Bench ProgMO AOS AOSObj.
Import ListNotations.
Open Scope Z_scope.

(** FixedContinousBox17<Array<double, n, 1>, encode(lo), encode(hi), encode(delta)>:
    EAGlobal/BoxConstraint.hpp:477-501, 652-664.  The bounds are decoded from their
    codes when the program is compiled; [fuel] bounds the loops of encode and
    decode (Global/BinaryCode.hpp).  A failing static_assert (490, 661: the program
    is rejected) is Abort.  The class has no setters. *)
Definition through_code (fuel : nat) (x : double) : res double := do c <- BinCode.encode64 fuel x; BinCode.decode64 fuel c.
Definition fixed_kind (n : Z) : BoxObj.kind := BoxObj.mkKind true (Some (n, 1)) true false.
Definition fixed_box (fuel : nat) (n : Z) (lo hi delta : double) : res BoxObj.box :=
  do a <- through_code fuel lo; do b <- through_code fuel hi; do d <- through_code fuel delta;
  if flt a b && flt d0 d
  then let e := BoxObj.blank_arr (fixed_kind n) in Ok (BoxObj.mkBox (Some a) (Some b) (Some d) e e e (Some (n, 1)))
  else Abort.

Section Prog.
Context (R : rng_ops) (E0 : env R) (norm : G R -> double * G R) (L : libm).
(** 31-35; the objective is a template argument.  Args_t is void. *)
Definition aras_f (_ : unit) (v : list double) : double := rastrigin (Dops L) v.
(** 40-45. *)
Definition aras_opt : aos_option := mkAOpt 50 50 20 5 (literal 1 1).
Definition aras_start (b : BoxObj.box) (g : G R) : @obj unit R := fresh R E0 (Cont (fixed_kind 3) b) (IDefault R) (Some aras_f) tt g.
(** 27-73; what it prints is read off the final object. *)
Definition aras_main (fuel : nat) (g : G R) : res (@obj unit R) :=
  do b <- fixed_box fuel 3 (d_of_Z (-5)) (d_of_Z 5) (literal 15 1);
  drive R E0 norm (aras_start b g) [ SetOption R aras_opt; InitializePop R; Run R ].
End Prog.
