(** Model of DTLZ8 for a Fitness_t of fixed size: the loops over the objectives and over
    the pairs are template recursions.  EAGlobal/MOFunctions.hpp:719-802, 821-853.
    A failing static_assert (the program is rejected) is Abort. *)
From Coq Require Import List Arith ZArith Bool.
From Verif Require Import Base Bench.
Import ListNotations.
Open Scope nat_scope.

Section Model.
Context (O : num_ops).
Notation T := (num O).
(** 719-726 [accumulateXi<varIdx, endIdx>], [n] = endIdx - varIdx: the additions
    associate to the right, and nothing is added to zero. *)
Fixpoint acc_ct (x : list T) (v n : nat) : res T :=
  match n with
  | 0 => nth_ub O x v
  | S m => do y <- nth_ub O x v; do r <- acc_ct x (S v) m; Ok (add O y r)
  end.
(** 740-763 [computeFitness8<objIdx>]: 745-751 for a Var_t of fixed size, else 753-757. *)
Definition seg8_ct (var_fixed : bool) (x : list T) (M j : nat) : res T :=
  if var_fixed then
    let N := length x in
    let b := Nat.div (j * N) M in
    let t := Nat.div ((j + 1) * N) M in
    let e := if (N <=? t) then N - 1 else t in
    acc_ct x b (e - b)
  else seg8 O x M j.
(** std::min. *)
Definition smaller (a b : T) : T := if nlt O b a then b else a.
(** 782-802 [findMin2SumForDTLZ8<i, j>].  The row of [i]: [n] values of j are left, then
    [rest] (795); [k] = M-3-i rows are left before the last (798-800). *)
Fixpoint row_ct (f : list T) (i j n : nat) (rest : T) : T :=
  match n with
  | 0 => rest
  | S m => smaller (add O (nth i f (lit O 0 0)) (nth j f (lit O 0 0))) (row_ct f i (S j) m rest)
  end.
Fixpoint min2_ct (f : list T) (i k : nat) : T :=
  match k with
  | 0 => add O (nth i f (lit O 0 0)) (nth (i + 1) f (lit O 0 0))
  | S k' => row_ct f i (i + 1) (k + 1) (min2_ct f (i + 1) k')
  end.
(** 821-853 with 805-806.  Two objectives: 798 fails. *)
Definition dtlz8_fixed (var_fixed : bool) (x : list T) (M : nat) : res (list T) :=
  let N := length x in
  if (3 <=? M) && (M <? N) then
    do f0 <- collect (map (seg8_ct var_fixed x M) (seq 0 M));
    let f := map (fun v => div O v (lit O (Z.of_nat (Nat.div N M)) 0)) f0 in
    let fl := nth (M - 1) f (lit O 0 0) in
    let g j := if (j <? M - 1) then sub O (add O fl (mul O (lit O 4 0) (nth j f (lit O 0 0)))) (lit O 1 0)
               else sub O (add O (mul O (lit O 2 0) fl) (min2_ct f 0 (M - 3))) (lit O 1 0) in
    let penalty j fj := if nlt O (g j) (lit O 0 0) then add O fj (add O (lit O 1000 0) (opp O (g j))) else fj in
    Ok (map (fun j => penalty j (nth j f (lit O 0 0))) (seq 0 M))
  else Abort.
End Model.
