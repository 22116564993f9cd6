(** Model of the multi-objective example programs that come with the library:
    test/NSGA2_ZDT3.cpp, test/NSGA2_Kursawe.cpp, test/NSGA2_Binh_And_Korn.cpp,
    test/NSGA3_DTLZ7.cpp.  A program is the sequence of calls it makes on the
    solver object (MOGAObj.v); what it prints is read off the final object.
    User functions that could access out of range are [res]; [total] turns them
    into the functions the solver model stores (Props_ProgMO.v shows that the
    other case does not occur). *)
From Coq Require Import List Arith ZArith Bool.
From Flocq Require Import BinarySingleNaN.
From Verif Require Import Base Fl Rng GABase Box Defaults GlobalM Bench NSGA3 MOGAObj.
From Verif Require BoxObj.
Import ListNotations.
Open Scope Z_scope.

Definition total {A} (r : res A) (d : A) : A := match r with Ok a => a | _ => d end.
Definition literal (m : Z) (k : nat) : double := fdiv (d_of_Z m) (d_of_Z (10 ^ Z.of_nat k)).

Section Prog.
Context (R : rng_ops) (L : libm).
Notation var := (list double).

(** The mutation lambdas NSGA2_ZDT3.cpp:56-65, NSGA2_Kursawe.cpp:62-68,
    NSGA3_DTLZ7.cpp:45-52: copy, one random coordinate += scale * randD(-1, 1),
    min with hi, max with lo. *)
Definition nudge (scale lo hi : double) (src : var) (n : Z) (g : G R) : res (var * G R) :=
  let (idx, g1) := randIdx R n g in
  let (r, g2) := randD_range R (d_of_Z (-1)) d1 g1 in
  do x <- get_at src idx;
  Ok (set_at src (Z.to_nat idx) (dmax (dmin (fadd x (fmul scale r)) hi) lo), g2).

(** A loop of randD(): NSGA2_ZDT3.cpp:34-38. *)
Fixpoint draws01 (n : nat) (g : G R) : var * G R :=
  match n with
  | O => ([], g)
  | S m => let (x, g1) := rand01 R g in let (t, g2) := draws01 m g1 in (x :: t, g2)
  end.

(** * test/NSGA2_ZDT3.cpp *)
(** 40-52. *)
Definition zdt3_f (x : var) : list double :=
  let f1 := nth 0 x dnan in
  let s := fold_left fadd (skipn 1 x) d0 in
  let g := fadd d1 (fdiv (fmul s (d_of_Z 9)) (d_of_Z 29)) in
  let q := fdiv f1 g in
  let h := fsub (fsub d1 (nsqrt (Dops L) q)) (fmul q (l_sin L (fmul (fmul (d_of_Z 10) (m_pi (Dops L))) f1))) in
  [f1; fmul g h].
Definition zdt3_i (_ : unit) (g : G R) : var * G R := draws01 30 g.                              (* 34-38 *)
Definition zdt3_c (_ : unit) (p q : var) (g : G R) : (var * var) * G R :=                        (* 54 *)
  (total (cFunNd (DivReal (DivEncode 1 2)) p q) (p, q), g).
Definition zdt3_m (_ : unit) (src : var) (g : G R) : var * G R :=                                (* 56-65 *)
  total (nudge (literal 5 3) d0 d1 src 30 g) (src, g).
Definition zdt3_opt : ga_option := mkOpt 200 50 2000 (crossoverProb default_option) (mutateProb default_option).  (* 67-70 *)
Definition zdt3_main : list (@call var unit R) :=                                                (* 72-81 *)
  [ SetIFun R (Some zdt3_i); SetMFun R (Some zdt3_m); SetFFun R (Some (fun _ => zdt3_f)); SetCFun R (Some zdt3_c);
    SetOption R zdt3_opt; InitializePop R; Run R ].
Definition no_funs {A} : @slots var A R := mkSlots R None None None None.

(** * test/NSGA2_Kursawe.cpp *)
Definition kursawe_i (_ : unit) (g : G R) : var * G R := iFunNd R 3 (d_of_Z (-5)) (d_of_Z 5) g.  (* 42-46 *)
Definition kursawe_f (_ : unit) (x : var) : list double := total (kursawe_std (Dops L) x) [].    (* 49 *)
(** 52-59: the loop computes r*p1 + (1-r)*p2 and r*p2 + (1-r)*p1 with r = 0.2 for
    i = 0, 1, 2, as cFunNd does. *)
Definition kursawe_c (_ : unit) (p q : var) (g : G R) : (var * var) * G R := (total (cFunNd (literal 2 1) p q) (p, q), g).
Definition kursawe_m (_ : unit) (src : var) (g : G R) : var * G R :=                             (* 62-68 *)
  total (nudge (literal 1 1) (d_of_Z (-5)) (d_of_Z 5) src 3 g) (src, g).
Definition kursawe_opt : ga_option := mkOpt 600 50 2000 (crossoverProb default_option) (mutateProb default_option).  (* 70-72 *)
Definition kursawe_main : list (@call var unit R) :=                                             (* 75-84 *)
  [ SetIFun R (Some kursawe_i); SetMFun R (Some kursawe_m); SetFFun R (Some kursawe_f); SetCFun R (Some kursawe_c);
    SetOption R kursawe_opt; InitializePop R; Run R ].

(** * test/NSGA2_Binh_And_Korn.cpp: the box is the solver's argument *)
Definition bk_kind : BoxObj.kind := BoxObj.mkKind false (Some (2, 1)) true false.                (* 45 *)
Definition bk_calls : list BoxObj.bcall :=                                                       (* 75-78 *)
  [ BoxObj.SetRangeV (BoxObj.mkVar 2 1 [d0; d0]) (BoxObj.mkVar 2 1 [d_of_Z 5; d_of_Z 3]);
    BoxObj.SetDeltaV (BoxObj.mkVar 2 1 [literal 5 2; literal 3 2]) ].
Definition bk_box : BoxObj.box := total (BoxObj.bdrive bk_kind (BoxObj.fresh bk_kind) bk_calls) (BoxObj.fresh bk_kind).
Definition bk_i (b : BoxObj.box) (g : G R) : var * G R := total (BoxObj.initialize R bk_kind b g) ([], g).   (* 50 *)
Definition bk_c (_ : BoxObj.box) (p q : var) (g : G R) : (var * var) * G R := (total (cFunNd default_r p q) (p, q), g).   (* 52 *)
Definition bk_m (b : BoxObj.box) (v : var) (g : G R) : var * G R := total (BoxObj.applyDelta R bk_kind b v g) (v, g).     (* 55 *)
(** 82: the fitness is an Array2d. *)
Definition bk_f (_ : BoxObj.box) (v : var) : list double := total (binhKorn (Dops L) false v [dnan; dnan]) [].
Definition bk_slots : @slots var BoxObj.box R := mkSlots R (Some bk_i) None (Some bk_c) (Some bk_m).        (* 48-55 *)
Definition bk_opt : ga_option := mkOpt 200 50 100 (literal 8 1) (literal 1 1).                   (* 64-70 *)
Definition bk_main : list (@call var BoxObj.box R) :=                                            (* 71-90 *)
  [ SetOption R bk_opt; SetArgs R bk_box; SetFFun R (Some bk_f); InitializePop R; Run R ].

(** * test/NSGA3_DTLZ7.cpp *)
Definition dtlz7_i (_ : unit) (g : G R) : var * G R := iFunNd R 30 (DivReal (DivEncode 0 1)) (DivReal (DivEncode 1 1)) g.                      (* 41 *)
Definition dtlz7_c (_ : unit) (p q : var) (g : G R) : (var * var) * G R :=                       (* 43 *)
  (total (cFunNd (DivReal (DivEncode 1 10)) p q) (p, q), g).
Definition dtlz7_m (_ : unit) (src : var) (g : G R) : var * G R :=                               (* 45-52 *)
  total (nudge (literal 4 1) d0 d1 src 30 g) (src, g).
Definition dtlz7_f (_ : unit) (x : var) : list double := total (dtlz7 (Dops L) true x [dnan; dnan; dnan]) [].   (* 72 *)
(** 54-66; the generations and the population may be typed in. *)
Definition dtlz7_opt (gens pops : Z) : ga_option := mkOpt pops 50 gens (literal 8 1) (literal 1 1).
Definition dtlz7_main (gens pops : Z) : list (@call var unit R) :=                               (* 70-85 *)
  [ SetIFun R (Some dtlz7_i); SetFFun R (Some dtlz7_f); SetCFun R (Some dtlz7_c); SetMFun R (Some dtlz7_m);
    SetOption R (dtlz7_opt gens pops); SetPrecision R 12; InitializePop R; Run R ].
End Prog.
