(** Model of the particle swarm example programs that come with the library:
    test/PSO_RastriginFun.cpp and test/PSO_TSP.cpp. *)
From Coq Require Import List Arith ZArith Bool.
From Flocq Require Import BinarySingleNaN.
From Verif Require Import Base Fl Rng StdOps Box BoxF Bench ProgMO PSO PSOObj.
Import ListNotations.
Open Scope Z_scope.

Section Prog.
Context (R : rng_ops) (std : std_ops) (L : libm).
Notation var := (list double).

(** * test/PSO_RastriginFun.cpp *)
(** 35-36; the fitness function is a template argument.  Args_t is void. *)
Definition ras_f (_ : unit) (v : var) : double := rastrigin (Dops L) v.
(** 38-45: maxFailTimes = -1 as a size_t, maxGeneration = 50 * N with N = 20. *)
Definition ras_opt : pso_option := mkPOpt 400 (50 * 20) (two64 - 1) (literal 8 1) (d_of_Z 2) (d_of_Z 2).
(** 47-60. *)
Definition ras_main : list (@call unit R) :=
  [ BoxCall R (SetRange (literal (-512) 2) (literal 512 2)); BoxCall R (PokeMax (literal 512 2)); BoxCall R (SetMaxVelocity (literal 1 1));
    SetOption R ras_opt; InitializePop R; Run R ].
Definition ras_start (junk : point) (g : G R) : @obj unit R := fresh R junk (IDefault R) (Some ras_f) tt g.

(** * test/PSO_TSP.cpp *)
Definition fpoint : Type := float * float.
(** 75: (points.col(r) - points.col(c)).square().sum(), in float. *)
Definition fdist2 (p c : fpoint) : float :=
  fadd (fmul (fsub (fst p) (fst c)) (fsub (fst p) (fst c))) (fmul (fsub (snd p) (snd c)) (fsub (snd p) (snd c))).
(** 65-79; a matrix is the list of its rows.  [pts] are the columns of the random
    2 x N array (71). *)
Definition dmat (pts : list fpoint) : list (list double) :=
  map (fun r => map (fun c => if (r =? c)%nat then d0
                              else to_double (fdist2 (nth r pts (f0, f0)) (nth c pts (f0, f0)))) (seq 0 (length pts))) (seq 0 (length pts)).
(** Eigen's operator() asserts that the indices are in range. *)
Definition entry (D : list (list double)) (r c : nat) : res double :=
  match nth_error D r with
  | Some row => match nth_error row c with Some d => Ok d | None => Abort end
  | None => Abort
  end.
(** 46-56: the keys, converted to float (std::pair<float, uint32_t>), sorted. *)
Definition by_fkey (a b : float * nat) : bool := flt (fst a) (fst b).
Definition ptsp_order (n : nat) (x : var) : res (list nat) :=
  if (n <=? length x)%nat then Ok (map snd (sort std by_fkey (combine (map to_float (firstn n x)) (seq 0 n)))) else Abort.
(** 58-62. *)
Fixpoint ptsp_walk (D : list (list double)) (order : list nat) (acc : double) : res double :=
  match order with
  | a :: ((b :: _) as t) => do d <- entry D a b; ptsp_walk D t (fadd acc d)
  | _ => Ok acc
  end.
Definition ptsp_fitness (D : list (list double)) (x : var) : res double :=                  (* 45-63 *)
  do o <- ptsp_order (length D) x; ptsp_walk D o d0.
Definition ptsp_f (D : list (list double)) (x : var) : double := total (ptsp_fitness D x) dnan.
(** 82-88; 50 * N is a product of ints. *)
Definition ptsp_opt (m : Z) : pso_option := mkPOpt 100 m (m / 10) (literal 8 1) (d_of_Z 2) (d_of_Z 2).
Definition ptsp_setup (N m : Z) (D : list (list double)) : list (@call (list (list double)) R) :=      (* 91-99 *)
  [ BoxCall R (SetDimensions N); BoxCall R (SetRange d0 d1); BoxCall R (SetMaxVelocity (fofZ 1 (-1)));
    SetFFun R (Some ptsp_f); SetOption R (ptsp_opt m); SetArgs R D ].
Definition ptsp_start (junk : point) (g : G R) : @obj (list (list double)) R := fresh R junk (IDefault R) None [] g.
(** 30-116: prints the fitness of the first particle before the run (103-108) and,
    after it, what is read off the final object.  A negative N fails an assertion
    of Eigen (65). *)
Definition ptsp_main (vec_max : Z) (junk : point) (N : Z) (pts : list fpoint) (g : G R) : res (double * @obj (list (list double)) R) :=
  let D := dmat pts in
  if N <? 0 then Abort else
  do m <- arith int32 (50 * N);
  do o1 <- drive R SqVec false true vec_max (ptsp_start junk g) (ptsp_setup N m D ++ [InitializePop R]);
  match get_population R o1 with
  | [] => UB
  | x :: _ => do ini <- ptsp_fitness (o_args R o1) (position (here x));
              do o <- drive R SqVec false true vec_max o1 [Run R];
              Ok (ini, o)
  end.
End Prog.
