(** Model of EAGlobal/SOFunctions.hpp and EAGlobal/MOFunctions.hpp: the
    benchmark functions of [testFunctions].  Each function is written once, over
    any kind of number ([num_ops]), operation by operation in the order of the
    C++ expression; [Rops] below reads it over the real numbers (the documented
    meaning), [Dops] over double precision (what is computed).  Scalars of Var_t
    and Fitness_t are taken to be double.  A failed assert is [Abort]. *)
From Coq Require Import List Arith ZArith Reals Bool.
From Flocq Require Import Core BinarySingleNaN.
From Verif Require Import Base Fl Rng.
Import ListNotations.
Open Scope Z_scope.

(** The numbers and the functions of <cmath>. *)
Record num_ops := mkNum {
  num : Type;
  lit : Z -> nat -> num;                     (* the literal m * 10^-k *)
  add : num -> num -> num; sub : num -> num -> num; mul : num -> num -> num; div : num -> num -> num;
  opp : num -> num; nabs : num -> num; nsqrt : num -> num;
  nsin : num -> num; ncos : num -> num; nexp : num -> num;
  powi : num -> nat -> num;                  (* std::pow(x, n) for an integer n *)
  powq : num -> num -> num;                  (* std::pow(x, y) otherwise *)
  nlt : num -> num -> bool; nle : num -> num -> bool;
  m_pi : num; m_e : num; m_2_pi : num;       (* M_PI, M_E, M_2_PI = 2/pi *)
  vsum : list num -> num                     (* Eigen's sum of an array: the order of the additions is Eigen's choice *)
}.

Section Model.
Context (O : num_ops).
Notation T := (num O).
Local Notation "x + y" := (add O x y). Local Notation "x - y" := (sub O x y).
Local Notation "x * y" := (mul O x y). Local Notation "x / y" := (div O x y).
Local Notation "- x" := (opp O x).
Local Notation "# m" := (lit O m 0) (at level 1, format "# m").
Local Notation sqrt := (nsqrt O). Local Notation abs := (nabs O). Local Notation sin := (nsin O). Local Notation cos := (ncos O).
Local Notation exp := (nexp O). Local Notation PI := (m_pi O).
(** Global/HeuMaths.hpp:40-43. *)
Definition square (a : T) : T := a * a.

(** * SOFunctions.hpp *)
(** 58-62: assert(_x->size() == 2). *)
Definition two (v : list T) (k : T -> T -> T) : res T := match v with [x; y] => Ok (k x y) | _ => Abort end.
(** 65-70. *)
Definition ackley (v : list T) : res T := two v (fun x y =>
  # (-20) * exp (lit O (-2) 1 * sqrt (lit O 5 1 * (x * x + y * y))) -
  exp (lit O 5 1 * (cos (m_2_pi O * x) + cos (m_2_pi O * y))) + #20 + m_e O).
(** 72-77. *)
Definition beale (v : list T) : res T := two v (fun x y =>
  square (lit O 15 1 - x + x * y) + square (lit O 225 2 - x + x * y * y) + square (lit O 2625 3 - x + x * y * y * y)).
(** 79-88. *)
Definition goldsteinPrice (v : list T) : res T := two v (fun x y =>
  let part1 := #1 + square (#1 + x + y) * (#19 - #14 * x + #3 * x * x - #14 * y + #6 * x * y + #3 * y * y) in
  let part2 := #30 + square (#2 * x - #3 * y) * (#18 - #32 * x + #12 * x + #47 * y - #36 * x * y + #27 * y * y) in
  part1 * part2).
(** 90-95. *)
Definition booth (v : list T) : res T := two v (fun x y => square (x + #2 * y - #7) + square (#2 * x + y - #5)).
(** 97-102. *)
Definition bukin (v : list T) : res T := two v (fun x y =>
  #100 * sqrt (abs (y - lit O 1 2 * x * x)) + lit O 1 2 * abs (x + #10)).
(** 104-109. *)
Definition matyas (v : list T) : res T := two v (fun x y => lit O 26 2 * (x * x + y * y) - lit O 48 2 * x * y).
(** 111-117. *)
Definition levy (v : list T) : res T := two v (fun x y =>
  square (sin (#3 * PI * x)) + square (x - #1) * (#1 + square (sin (#3 * PI * y))) +
  square (y - #1) * (#1 + square (sin (#2 * PI * y)))).
(** 119-124. *)
Definition himmelblau (v : list T) : res T := two v (fun x y => square (x * x + y - #11) + square (x + y * y - #7)).
(** 126-131. *)
Definition threeHumpCamel (v : list T) : res T := two v (fun x y =>
  #2 * x * x - lit O 105 2 * powi O x 4 + powi O x 6 / #6 + x * y + y * y).
(** 133-138. *)
Definition easom (v : list T) : res T := two v (fun x y =>
  - cos x * cos y * exp (- square (x - PI) - square (y - PI))).
(** 140-153. *)
Definition crossInTray (v : list T) : res T := two v (fun x y =>
  lit O (-1) 4 * powq O (#1 + abs (sin x * sin y * exp (abs (#100 - sqrt (x * x + y * y) / PI)))) (lit O 1 1)).
(** 155-163. *)
Definition eggHolder (v : list T) : res T := two v (fun x y =>
  let y47 := y + #47 in
  - y47 * sin (sqrt (abs (x / #2 + y47))) - x * sin (sqrt (abs (x - y47)))).
(** 165-176. *)
Definition holderTable (v : list T) : res T := two v (fun x y =>
  - abs (sin x * cos y * exp (abs (#1 - sqrt (x * x - y * y) / PI)))).
(** 178-184. *)
Definition mcCormick (v : list T) : res T := two v (fun x y =>
  sin (x + y) + square (x - y) - lit O 15 1 * x + lit O 25 1 * y + #1).
(** 186-192. *)
Definition schaffer2 (v : list T) : res T := two v (fun x y =>
  lit O 5 1 + square (sin (x * x - y * y) - lit O 5 1) / square (#1 + lit O 1 3 * (x * x + y * y))).
(** 194-201. *)
Definition schaffer4 (v : list T) : res T := two v (fun x y =>
  lit O 5 1 + (square (cos (sin (abs (x * x - y * y)))) - lit O 5 1) / square (#1 + lit O 1 3 * (x * x + y * y))).

(** 219-224. *)
Definition rastrigin (v : list T) : T :=
  fold_left (fun s xi => s + (square xi - #10 * cos (PI * #2 * xi))) v (#10 * # (Z.of_nat (length v))).
(** 226-237; [eig]: Var_t is an Eigen class. *)
Definition sphere (eig : bool) (v : list T) : T :=
  if eig then vsum O (map square v) else fold_left (fun s i => s + i * i) v (#0).
(** 239-252.  Std: with no elements size() - 1 is the largest size_t, and x[1] is
    read.  Eigen: topRows(-1) fails an assertion. *)
Fixpoint pairs {A} (l : list A) : list (A * A) :=
  match l with
  | x :: ((y :: _) as t) => (x, y) :: pairs t
  | _ => []
  end.
Definition rosenbrock (eig : bool) (v : list T) : res T :=
  match v with
  | [] => if eig then Abort else UB
  | _ => Ok (if eig then
               let top := vsum O (map (fun p => square (#1 - fst p)) (pairs v)) in
               let minus := vsum O (map (fun p => square (fst p - snd p)) (pairs v)) in
               #100 * minus + top
             else fold_left (fun s p => s + (#100 * square (snd p - fst p) + square (#1 - fst p))) (pairs v) (#0))
  end.
(** 254-265: only the std version halves the sum. *)
Definition styblinskiTang (eig : bool) (v : list T) : T :=
  if eig then vsum O (map (fun x => powi O x 4 - #16 * square x + #5 * x) v)
  else fold_left (fun s x => s + (x * x * x * x - #16 * x * x + #5 * x)) v (#0) / #2.

(** * MOFunctions.hpp *)
(** 64-71, 73-88; 47-62: the fitness is resized to two elements. *)
Definition one (v : list T) (k : T -> list T) : res (list T) := match v with [x] => Ok (k x) | _ => Abort end.
Definition schaffer1_mo (v : list T) : res (list T) := one v (fun x => [x * x; square (x - #2)]).
Definition schaffer2_mo (v : list T) : res (list T) := one v (fun x =>
  [if nle O x (#1) then - x else if nle O x (# (-3)) then x - #2 else if nle O x (#4) then #4 - x else #4 - x;
   square (x - #5)]).
(** 104-118, 186-200: the fitness [f] is resized if Var_t (not Fitness_t) has a
    dynamic size ([vdyn]); otherwise it must already have [m] elements (a longer
    one keeps its other elements; not modelled: it is then asserted here). *)
Definition resized (vdyn : bool) (m : nat) (f : list T) (r : list T) : res (list T) :=
  if vdyn || (length f =? m)%nat then Ok r else if (length f <? m)%nat then UB else Abort.
Definition two_mo (v : list T) (k : T -> T -> res (list T)) : res (list T) := match v with [x; y] => k x y | _ => Abort end.
(** 121-136. *)
Definition penalise (g f : T) : T := if nlt O (#0) g then f + (#100000 + g) else f.
Definition binhKorn (vdyn : bool) (v f : list T) : res (list T) := two_mo v (fun x y =>
  let f0 := #4 * x * x + #4 * y * y in
  let f1 := square (x - #5) + square (y - #5) in
  let g1 := square (x - #5) + y * y - #25 in
  let g2 := lit O 77 1 - square (x - #8) - square (y + #3) in
  resized vdyn 2 f [penalise g1 f0; penalise g2 f1]).
(** 138-154. *)
Definition changkongHaimes (vdyn : bool) (v f : list T) : res (list T) := two_mo v (fun x y =>
  let f0 := #2 + square (x - #2) + square (y - #1) in
  let f1 := #9 * x - square (y - #1) in
  let g1 := x * x + y * y - #225 in
  let g2 := x - #3 * y + #10 in
  resized vdyn 2 f [penalise g1 f0; penalise g2 f1]).
(** 156-175; [A1], [A2]: the two long literals of 163-167, to 17 digits. *)
Definition poloni (vdyn : bool) (v f : list T) : res (list T) := two_mo v (fun x y =>
  let A1 := lit O 8736485623140641 16 in
  let A2 := lit O 2748572443268640 15 in
  let B1 := lit O 5 1 * sin x - #2 * cos x + sin y - lit O 15 1 * cos y in
  let B2 := lit O 15 1 * sin x - cos x + #2 * sin y - lit O 5 1 * cos y in
  resized vdyn 2 f [#1 + square (A1 - B1) + square (A2 - B2); square (x + #3) + square (y + #1)]).
(** 203-213. *)
Definition viennet (vdyn : bool) (v f : list T) : res (list T) := two_mo v (fun x y =>
  let s := x * x + y * y in
  resized vdyn 3 f [s / #2 + sin s;
                    square (#2 * x - #2 * y + #4) / #8 + square (x - y + #1) / #27 + #15;
                    #1 / (s + #1) - lit O 11 1 * exp (- s)]).
(** 255-299 [Kursawe], std version (the Eigen one with a fixed size does not
    compile; [FonsecaFleming], 235-253, never does): N is the number of
    objectives, 2 (asserted), so that only x[0] and x[1] are used. *)
Definition kursawe_std (v : list T) : res (list T) :=
  match v with
  | x0 :: x1 :: _ =>
      let term2 x := powq O (abs x) (lit O 8 1) + #5 * sin (x * x * x) in
      Ok [#0 - #10 * exp (lit O (-2) 1 * sqrt (square x0 + square x1)); #0 + term2 x0 + term2 x1]
  | _ => UB
  end.

(** ** DTLZ1 ... DTLZ7: [M] objectives, 348-360: assert(N - M + 1 > 0) *)
Definition dtlz (x : list T) (M : nat) (r : res (list T)) : res (list T) :=
  if (M <=? length x)%nat then r else Abort.
(** 366-376: xm, the last N - M + 1 variables. *)
Definition xm (x : list T) (M : nat) : list T := skipn (M - 1) x.
(** The loop objIdx = M-1 .. 1, which reads x[0] .. x[M-2] and writes f from its
    last element to its second, and then f[0] = prodCum (420-424 and so on).
    [ys]: the angles (or variables) in the order in which they are read. *)
Fixpoint cascade (last first : T -> T) (prodCum : T) (ys : list T) (f : list T) : list T :=
  match ys with
  | [] => prodCum :: f
  | y :: t => cascade last first (prodCum * first y) t (prodCum * last y :: f)
  end.
(** M = 0: f[0] is written although f is empty. *)
Definition unfold_front (M : nat) (last first : T -> T) (p : T) (ys : list T) : res (list T) :=
  match M with 0%nat => UB | _ => Ok (cascade last first p ys []) end.
(** 399-425 / 458-488: the function g of DTLZ1 and DTLZ3. *)
Definition g_rastrigin (eig : bool) (x : list T) (M : nat) : T :=
  let xs := xm x M in
  let n := # (Z.of_nat (length x) - Z.of_nat M + 1) in
  let term xi := let h := xi - lit O 5 1 in h * h - cos (#20 * PI * h) in
  if eig then #100 * (n + vsum O (map term xs))
  else fold_left (fun g xi => g + #100 * term xi) xs (#100 * n).
(** 440-447: the function g of DTLZ2 and DTLZ4. *)
Definition g_sphere (eig : bool) (x : list T) (M : nat) : T :=
  let sq xi := square (xi - lit O 5 1) in
  if eig then vsum O (map sq (xm x M)) else fold_left (fun g xi => g + sq xi) (xm x M) (#0).
Definition head (x : list T) (M : nat) : list T := firstn (M - 1) x.
Definition dtlz1 (eig : bool) (x : list T) (M : nat) : res (list T) :=
  dtlz x M (unfold_front M (fun y => #1 - y) (fun y => y) (lit O 5 1 * (#1 + g_rastrigin eig x M)) (head x M)).
(** 433-456. *)
Definition dtlz2 (eig : bool) (x : list T) (M : nat) : res (list T) :=
  dtlz x M (unfold_front M (fun y => sin (PI / #2 * y)) (fun y => cos (PI / #2 * y)) (#1 + g_sphere eig x M) (head x M)).
(** 458-491. *)
Definition dtlz3 (eig : bool) (x : list T) (M : nat) : res (list T) :=
  dtlz x M (unfold_front M (fun y => sin (PI / #2 * y)) (fun y => cos (PI / #2 * y)) (#1 + g_rastrigin eig x M) (head x M)).
(** 493-518: std::pow(x, alpha). *)
Definition dtlz4 (alpha : nat) (eig : bool) (x : list T) (M : nat) : res (list T) :=
  dtlz x M (unfold_front M (fun y => sin (PI / #2 * powi O y alpha)) (fun y => cos (PI / #2 * powi O y alpha))
              (#1 + g_sphere eig x M) (head x M)).
(** 520-579, 581-640: Eigen only (527, 588: the test of isEigenClass is not a
    constexpr one, so that std containers do not compile).  The angle
    theta[0] = M_PI / 2 * M_PI / 2 * x[0], and those after it. *)
Definition theta (gr : T) (i : nat) (y : T) : T :=
  match i with
  | 0%nat => PI / #2 * PI / #2 * y
  | _ => PI / #2 * (#1 + #2 * gr * y) * PI / (#4 * (#1 + gr))
  end.
Fixpoint thetas (gr : T) (i : nat) (ys : list T) : list T :=
  match ys with [] => [] | y :: t => theta gr i y :: thetas gr (S i) t end.
Definition dtlz56 (g : T) (x : list T) (M : nat) : res (list T) :=
  let gr := vsum O (map square (xm x M)) in
  match M with
  | S (S _) => dtlz x M (unfold_front M sin cos (#1 + g) (thetas gr 0 (head x M)))
  | _ => Abort                                                   (* theta[0] of an empty array *)
  end.
Definition dtlz5 (x : list T) (M : nat) : res (list T) := dtlz56 (g_sphere true x M) x M.
Definition dtlz6 (x : list T) (M : nat) : res (list T) := dtlz56 (vsum O (map (fun y => powq O y (lit O 1 1)) (xm x M))) x M.
(** 642-685.  [f]: the old contents of the fitness, M elements.  660: the std
    version copies x[0] .. x[M-3] only. *)
Definition h7 (g : T) (fs : list T) : T :=
  fold_left (fun h fi => h - fi / (#1 + g) * (#1 + sin (#3 * PI * fi))) fs (#0).
Definition dtlz7 (eig : bool) (x f : list T) : res (list T) :=
  let M := length f in
  let k := # (Z.of_nat (length x) - Z.of_nat M + 1) in
  let g := if eig then #1 + #9 / k * vsum O (xm x M) else fold_left (add O) (xm x M) (#0) * (#9 / k) + #1 in
  let fs := if eig then head x M else firstn (M - 2) x ++ firstn (M - 1 - (M - 2)) (skipn (M - 2) f) in
  dtlz x M (match M with
            | 0%nat => UB
            | _ => Ok (fs ++ [(#1 + g) * (h7 g fs + # (Z.of_nat M))])
            end).

(** ** DTLZ8, DTLZ9: 695-711, assert(N > M) *)
Definition nth_ub (l : list T) (i : nat) : res T := match nth_error l i with Some x => Ok x | None => UB end.
Fixpoint sum_at (x : list T) (l : list nat) (s : T) : res T :=
  match l with
  | [] => Ok s
  | i :: t => do y <- nth_ub x i; sum_at x t (s + y)
  end.
(** 728-739 [accumulateXi]; begIdx <= idx <= endIdx. *)
Definition from_to (a b : nat) : list nat := seq a (S b - a).
Definition seg8 (x : list T) (M j : nat) : res T :=
  let N := length x in sum_at x (from_to (Nat.div (j * N) M) (Nat.min (Nat.div ((j + 1) * N) M) (N - 1))) (#0).
Fixpoint collect {A} (l : list (res A)) : res (list A) :=
  match l with
  | [] => Ok []
  | x :: t => do y <- x; do r <- collect t; Ok (y :: r)
  end.
(** 804-818 [findMin2SumForDTLZ8] for a dynamic Fitness_t; 0 <= i < j <= M-2.
    [None] stands for the initial value pinfD: with it, g[M-1] = 2 f[M-1] + inf - 1
    is never negative.  std::min keeps it if the sum is not a number. *)
Definition min2 (f : list T) (M : nat) : option T :=
  fold_left (fun m ij => let s := nth (fst ij) f (#0) + nth (snd ij) f (#0) in
                         match m with None => if nle O s s then Some s else None | Some m' => if nlt O s m' then Some s else m end)
    (flat_map (fun i => map (fun j => (i, j)) (seq (i + 1) (M - 1 - (i + 1)))) (seq 0 (M - 2))) None.
(** 821-853, std containers of dynamic size. *)
Definition dtlz8 (x : list T) (M : nat) : res (list T) :=
  let N := length x in
  if (M <? N)%nat then
    match M with
    | 0%nat => UB                                                    (* N / M *)
    | _ =>
      do f0 <- collect (map (seg8 x M) (seq 0 M));
      let f := map (fun v => v / # (Z.of_nat (Nat.div N M))) f0 in
      let fl := nth (M - 1) f (#0) in
      let g j := if (j <? M - 1)%nat then Some (fl + #4 * nth j f (#0) - #1)
                 else match min2 f M with None => None | Some m => Some (#2 * fl + m - #1) end in
      let penalty j fj := match g j with None => fj | Some gj => if nlt O gj (#0) then fj + (#1000 + - gj) else fj end in
      Ok (map (fun j => penalty j (nth j f (#0))) (seq 0 M))
    end
  else Abort.
(** 855-876; 869: f[M]. *)
Fixpoint sum_pow_at (x : list T) (l : list nat) (s : T) : res T :=
  match l with
  | [] => Ok s
  | i :: t => do y <- nth_ub x i; sum_pow_at x t (s + powq O y (lit O 1 1))
  end.
Definition dtlz9 (x : list T) (M : nat) : res (list T) :=
  let N := length x in
  if (M <? N)%nat then
    do f <- collect (map (fun j => sum_pow_at x (from_to (Nat.div (j * N) M) (Nat.min N (Nat.div ((j + 1) * N) M))) (#0)) (seq 0 M));
    collect (map (fun j => do fM <- nth_ub f M; do fj <- nth_ub f j;
                           let g := square fM + square fj - #1 in
                           Ok (if nlt O g (#0) then fj + (#1000 + - g) else fj)) (seq 0 (M - 1)))
  else Abort.
End Model.

(** * Real numbers *)
Definition Rltb (x y : R) : bool := if Rlt_dec x y then true else false.
Definition Rleb (x y : R) : bool := if Rle_dec x y then true else false.
(** x^y for x >= 0 and y > 0. *)
Definition Rpow (x y : R) : R := if Rlt_dec 0 x then Rpower x y else 0%R.
Definition Rops : num_ops := {|
  num := R; lit m k := (IZR m / 10 ^ k)%R;
  add := Rplus; sub := Rminus; mul := Rmult; div := Rdiv; opp := Ropp; nabs := Rabs; nsqrt := R_sqrt.sqrt;
  nsin := Rtrigo_def.sin; ncos := Rtrigo_def.cos; nexp := Rtrigo_def.exp;
  powi := pow; powq := Rpow; nlt := Rltb; nle := Rleb; m_pi := PI; m_e := Rtrigo_def.exp 1; m_2_pi := (2 / PI)%R;
  vsum := fun l => fold_right Rplus 0%R l
|}.

(** * Double precision *)
(** What the C library computes, about which the standard says nothing. *)
Record libm := mkLibm {
  l_sin : double -> double; l_cos : double -> double; l_exp : double -> double; l_pow : double -> double -> double;
  l_vsum : list double -> double
}.
Definition Dops (L : libm) : num_ops := {|
  num := double; lit m k := fdiv (d_of_Z m) (d_of_Z (10 ^ Z.of_nat k));
  add := fadd; sub := fsub; mul := fmul; div := fdiv; opp := fopp; nabs := Babs; nsqrt := Bsqrt mode_NE;
  nsin := l_sin L; ncos := l_cos L; nexp := l_exp L;
  powi := fun x n => l_pow L x (d_of_Z (Z.of_nat n)); powq := l_pow L;
  nlt := flt; nle := fle;
  m_pi := fofZ 884279719003555 (-48); m_e := fofZ 6121026514868073 (-51); m_2_pi := fofZ 5734161139222659 (-53);
  vsum := l_vsum L
|}.
