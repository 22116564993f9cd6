(** Model of the genetic single-objective example programs that come with the
    library: test/SOGA_TSP.cpp and test/SOGA_Ackley.cpp. *)
From Coq Require Import List Arith ZArith Bool.
From Flocq Require Import BinarySingleNaN.
From Verif Require Import Base Fl Rng StdOps GABase SOGA SOGAObj Box Defaults GlobalM Bench ProgMO.
From Verif Require BoxObj.
Import ListNotations.
Open Scope Z_scope.

Section Prog.
Context (R : rng_ops) (std : std_ops) (L : libm).
(** std::rand(), which is never negative.  Its state is taken to be part of the state of the generator
    (any such combined state is an [rng_ops]). *)
Context (crand : G R -> Z * G R).
Notation var := (list double).
Definition point : Type := double * double.       (* SOGA_TSP.cpp:31 Point_t *)

(** * test/SOGA_TSP.cpp *)
(** 35-40: the points. *)
Fixpoint tsp_points (n : nat) (g : G R) : list point * G R :=
  match n with
  | O => ([], g)
  | S m => let (x, g1) := rand01 R g in let (y, g2) := rand01 R g1 in
           let (t, g3) := tsp_points m g2 in ((x, y) :: t, g3)
  end.
(** 64-68. *)
Definition tsp_i (pts : list point) (g : G R) : var * G R := draws01 R (length pts) g.
(** 72-80: the points in the order of falling keys. *)
Definition by_key (a b : double * nat) : bool := flt (fst b) (fst a).
Definition tsp_order (x : var) : list nat := map snd (sort std by_key (combine x (seq 0 (length x)))).
(** 86-89. *)
Definition dist2 (p c : point) : double :=
  fadd (fadd d0 (fmul (fsub (fst p) (fst c)) (fsub (fst p) (fst c)))) (fmul (fsub (snd p) (snd c)) (fsub (snd p) (snd c))).
Definition point_at (pts : list point) (i : nat) : res point := match nth_error pts i with Some p => Ok p | None => UB end.
(** 82-92. *)
Fixpoint tsp_walk (pts : list point) (order : list nat) (acc : double) : res double :=
  match order with
  | a :: ((b :: _) as t) => do p <- point_at pts a; do c <- point_at pts b; tsp_walk pts t (fadd acc (dist2 p c))
  | _ => Ok acc
  end.
Definition tsp_fitness (pts : list point) (x : var) : res double := tsp_walk pts (tsp_order x) d0.   (* 71-93 *)
Definition tsp_f (pts : list point) (x : var) : double := total (tsp_fitness pts x) dnan.
Definition tsp_c (_ : list point) (p q : var) (g : G R) : (var * var) * G R := (total (cFunNd div_half p q) (p, q), g).   (* 106 *)
(** 122: std::swap of two elements. *)
Definition swap_at (x : var) (i j : nat) : res var :=
  match nth_error x i, nth_error x j with
  | Some a, Some b => Ok (set_at (set_at x i b) j a)
  | _, _ => UB
  end.
(** 121-123: flipped = 0, 1, ... while 2 * flipped <= flipN. *)
Fixpoint flip_loop (fuel : nat) (flipB flipE flipped : nat) (x : var) : res var :=
  match fuel with
  | O => Fuel
  | S n => if (flipped * 2 <=? flipE - flipB + 1)%nat
           then do x' <- swap_at x (flipB + flipped) (flipE - flipped); flip_loop n flipB flipE (S flipped) x'
           else Ok x
  end.
(** 108-125.  permL <= 1: rand() % 0, or indices outside of the vector. *)
Definition tsp_mutate (src : var) (g : G R) : res (var * G R) :=
  let permL := length src in
  let (u, g1) := rand01 R g in
  if flt u (fofZ 1 (-1)) then                                                       (* 111 *)
    if (permL =? 0)%nat then UB else
    let (k, g2) := crand g1 in
    let i := Z.to_nat (k mod Z.of_nat permL) in                                     (* 112 *)
    let (r, g3) := randD_range R (literal (-1) 2) (literal 1 2) g2 in
    match nth_error src i with
    | Some v => Ok (set_at src i (dmax (dmin (fadd v r) d1) d0), g3)                (* 113-115 *)
    | None => UB
    end
  else
    if (permL <=? 1)%nat then UB else
    let (k1, g2) := crand g1 in
    let flipB := Z.to_nat (k1 mod Z.of_nat (permL - 1)) in                          (* 117 *)
    let (k2, g3) := crand g2 in
    let flipE := (Z.to_nat (k2 mod Z.of_nat (permL - flipB - 1)) + flipB + 1)%nat in (* 118 *)
    do x <- flip_loop (permL + 2) flipB flipE 0 src; Ok (x, g3).
Definition tsp_m (_ : list point) (src : var) (g : G R) : var * G R := total (tsp_mutate src g) (src, g).
(** 127-129: 30 * PointNum in uint32_t. *)
Definition tsp_opt (n : Z) : ga_option :=
  let m := (30 * n) mod 4294967296 in mkOpt (populationSize default_option) m m (crossoverProb default_option) (mutateProb default_option).
Definition tsp_main (pts : list point) (n : Z) : list (@call var (list point) R) :=                (* 134-144 *)
  [ SetIFun R (Some tsp_i); SetMFun R (Some tsp_m); SetFFun R (Some tsp_f); SetCFun R (Some tsp_c);
    Setting R (SetOption (tsp_opt n)); SetArgs R pts; InitializePop R; Run R ].
(** 97-100: the path through the points in the order in which they were drawn. *)
Definition natural (n : nat) : var := map (fun i => fdiv (d_of_Z (Z.of_nat i)) (d_of_Z (Z.of_nat n))) (seq 0 n).

(** * test/SOGA_Ackley.cpp *)
Definition ack_kind : BoxObj.kind := BoxObj.mkKind true (Some (2, 1)) true false.                  (* 30 *)
Definition ack_calls : list BoxObj.bcall := [ BoxObj.SetRange (d_of_Z (-5)) (d_of_Z 5); BoxObj.SetDelta (literal 5 2) ].   (* 83-84 *)
Definition ack_box : BoxObj.box := total (BoxObj.bdrive ack_kind (BoxObj.fresh ack_kind) ack_calls) (BoxObj.fresh ack_kind).
Definition ack_i (b : BoxObj.box) (g : G R) : var * G R := total (BoxObj.initialize R ack_kind b g) ([], g).   (* 34 *)
Definition ack_c (_ : BoxObj.box) (p q : var) (g : G R) : (var * var) * G R := (total (cFunNd default_r p q) (p, q), g).   (* 35 *)
Definition ack_m (b : BoxObj.box) (v : var) (g : G R) : var * G R := total (BoxObj.applyDelta R ack_kind b v g) (v, g).    (* 36 *)
Definition ack_f (_ : BoxObj.box) (v : var) : double := total (ackley (Dops L) v) dnan.            (* 90 *)
Definition ack_slots : @slots var BoxObj.box R := mkSlots R (Some ack_i) None (Some ack_c) (Some ack_m).
Definition ack_opt : ga_option := mkOpt 50 50 100 (crossoverProb default_option) (mutateProb default_option).   (* 39-43 *)
(** 45-105; [m] is the method that was typed in (EliteReserved with --auto). *)
Definition ack_main (m : option method) : list (@call var BoxObj.box R) :=
  [ Setting R (SetSelectMethod m); Setting R (SetTournamentSize 3); Setting R (SetLinearSelectProbability (literal 2 1) (literal 8 1));
    Setting R (SetExponetialSelectBase (literal 8 1)); Setting R (SetBoltzmannSelectStrength (d_of_Z (-10))); Setting R (SetEliteNum 3);
    Setting R (SetOption ack_opt); SetArgs R ack_box; SetFFun R (Some ack_f); InitializePop R; Run R ].
End Prog.
