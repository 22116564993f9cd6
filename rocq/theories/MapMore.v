(** Model of SimpleMatrix/MatrixMap.hpp: iteration and fill (Matrix.v has the rest). *)
From Coq Require Import List ZArith.
From Verif Require Import Base Box Matrix.
Import ListNotations.
Open Scope Z_scope.

Section Map.
Context {T : Type}.
(** 80-90: begin() is the first element, end() one past begin() + rows*cols (in size_t);
    a pointer is its place in the memory. *)
Definition map_begin (s : mmap) : Z := base s.
Definition map_end (s : mmap) : Z := base s + map_size s.
(** A loop over the map, [n] rounds left: reads what it visits. *)
Fixpoint map_visit (a : list T) (it : Z) (n : nat) : res (list T) :=
  match n with
  | O => Ok []
  | S m => do x <- get_at a it; do l <- map_visit a (it + 1) m; Ok (x :: l)
  end.
Definition map_iterate (a : list T) (s : mmap) : res (list T) :=
  map_visit a (map_begin s) (Z.to_nat (map_end s - map_begin s)).
(** 109-113 [fill] *)
Fixpoint fill_loop (a : list T) (it : Z) (x : T) (n : nat) : res (list T) :=
  match n with
  | O => Ok a
  | S m => do a' <- store a it x; fill_loop a' (it + 1) x m
  end.
Definition map_fill (a : list T) (s : mmap) (x : T) : res (list T) :=
  fill_loop a (map_begin s) x (Z.to_nat (map_end s - map_begin s)).
End Map.
