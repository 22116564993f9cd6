(** Model of the reference and iterator classes of multiBitSet
    (SimpleMatrix/MultiBitSet.hpp:53-336, 440-447, 573-587) and of the program
    test/multiBitSet.cpp.  The block type is size_t (B = 64): the constructors of
    these classes are accessible to multiBitSet<eleBits> only.
    Not modelled: constIterator_t, which cannot be made (its constructor takes a
    pointer to a non-const container, 583 and 587 have a const one; the conversion
    from iterator_t, 290-294, reads a private member). *)
From Coq Require Import List Arith ZArith Bool.
From Verif Require Import Base Fl Rng Box MultiBitSet.
Import ListNotations.
Open Scope Z_scope.

(** 130-131 (reference_t), 211-220 (iterator_t, which holds one reference):
    [owner] names the container whose address is kept, [index] is a size_t. *)
Record iter := mkIter { owner : nat; index : Z }.
(** The containers of a program, by address. *)
Definition heap := nat -> mbs.
Definition store (h : heap) (a : nat) (m : mbs) : heap := fun b => if Nat.eqb b a then m else h b.

Definition it_begin (a : nat) : iter := mkIter a 0.                                   (* 581 *)
Definition it_end (h : heap) (a : nat) : iter := mkIter a (bsize (h a)).              (* 585 *)
Definition front_ref (a : nat) : iter := mkIter a 0.                                  (* 573 *)
Definition back_ref (h : heap) (a : nat) : iter := mkIter a (wrap64 (bsize (h a) - 1)). (* 577 *)
(** 444-447 [operator[]], with its assertion. *)
Definition at_ref (h : heap) (a : nat) (i : Z) : res iter := if i <? bsize (h a) then Ok (mkIter a i) else Abort.
(** 143-193. *)
Definition it_inc (i : iter) : iter := mkIter (owner i) (wrap64 (index i + 1)).       (* ++it *)
Definition it_dec (i : iter) : iter := mkIter (owner i) (wrap64 (index i - 1)).       (* --it *)
Definition it_post_inc (i : iter) : iter * iter := (i, it_inc i).                     (* it++: its value, the iterator afterwards *)
Definition it_post_dec (i : iter) : iter * iter := (i, it_dec i).                     (* it-- *)
Definition it_plus (i : iter) (k : Z) : iter := mkIter (owner i) (wrap64 (index i + k)).
Definition it_minus (i : iter) (k : Z) : iter := mkIter (owner i) (wrap64 (index i - k)).
Definition it_nth (i : iter) (k : Z) : iter := it_plus i k.                           (* it[k] *)
(** 200-203 [isSame], 244-258. *)
Definition it_same (i j : iter) : bool := Nat.eqb (owner i) (owner j) && (index i =? index j).
(** 87-89, 197 [isNull]; the address is not null, a size_t is never < 0. *)
Definition it_null (h : heap) (i : iter) : bool := bsize (h (owner i)) <=? index i.

Section Bits.
Context (e : Z).
(** 60, 634-656: reading through a reference does not check the index. *)
Definition ref_get (h : heap) (i : iter) : res Z := getValue e 64 (blocks (h (owner i))) (index i).
(** 69. *)
Definition ref_set (h : heap) (i : iter) (v : Z) : res (Z * heap) :=
  do (r, d) <- setValue e 64 (blocks (h (owner i))) (index i) v;
  Ok (r, store h (owner i) (mkMbs d (bsize (h (owner i))))).
(** 77-79: assigning one reference to another. *)
Definition ref_assign (h : heap) (i j : iter) : res (Z * heap) := do v <- ref_get h j; ref_set h i v.

(** The loop [for (it = a.begin(); it != a.end(); ++it)]: what it reads ... *)
Fixpoint read_loop (fuel : nat) (h : heap) (i : iter) : res (list Z) :=
  if it_same i (it_end h (owner i)) then Ok [] else
  match fuel with
  | O => Fuel
  | S n => do x <- ref_get h i; do t <- read_loop n h (it_inc i); Ok (x :: t)
  end.
(** ... [while (it != a.begin()) { --it; use( *it); }] ... *)
Fixpoint read_back (fuel : nat) (h : heap) (i : iter) : res (list Z) :=
  if it_same i (it_begin (owner i)) then Ok [] else
  match fuel with
  | O => Fuel
  | S n => let j := it_dec i in do x <- ref_get h j; do t <- read_back n h j; Ok (x :: t)
  end.
(** ... and the same loop with [ *it = f( *it) ]. *)
Fixpoint write_loop (fuel : nat) (f : Z -> Z) (h : heap) (i : iter) : res heap :=
  if it_same i (it_end h (owner i)) then Ok h else
  match fuel with
  | O => Fuel
  | S n => do x <- ref_get h i; do (_, h') <- ref_set h i (f x); write_loop n f h' (it_inc i)
  end.
End Bits.

(** * test/multiBitSet.cpp *)
Section Prog.
Context (R : rng_ops) (fresh : Z -> list Z).
(** 29: byte [k] of the memory (little-endian) becomes the low byte of [v]. *)
Definition poke (d : list Z) (k v : Z) : res (list Z) :=
  do x <- get_at d (k / 8);
  let s := 8 * (k mod 8) in
  put d (k / 8) (Z.lor (Z.ldiff x (Z.shiftl 255 s)) (Z.shiftl (v mod 256) s)).
(** 28-30. *)
Fixpoint pokes (n : nat) (k : Z) (d : list Z) (g : G R) : res (list Z * G R) :=
  match n with
  | O => Ok (d, g)
  | S m => let (v, g1) := randIdx2 R 0 256 g in do d' <- poke d k v; pokes m (k + 1) d' g1
  end.
(** What is printed: size and capacity (34), the blocks (37), the blocks again in
    groups of seven bits (41, 79-98: ceil(float(175) / 8 / 8.0) = 3 of them are read),
    the elements (47-50), begin().isNull(), end().isNull(), the last element by
    end()[-1], front() == back() (54-60). *)
Record output := mkOut { o_size : Z; o_capacity : Z; o_blocks : list Z; o_bits : list Z; o_elements : list Z;
  o_begin_null : bool; o_end_null : bool; o_last : Z; o_equal : bool }.
Fixpoint read_blocks (n : nat) (k : Z) (d : list Z) : res (list Z) :=
  match n with O => Ok [] | S m => do x <- get_at d k; do t <- read_blocks m (k + 1) d; Ok (x :: t) end.
(** 11-63. *)
Definition bits_main (g : G R) : res output :=
  do v0 <- mbs_make 7 64 25;                                                          (* 15 *)
  let h0 := store (fun _ => mbs_empty) 0 v0 in
  do r0 <- at_ref h0 0 0; do r6 <- at_ref h0 0 6;
  do (_, h1) <- ref_assign 7 h0 r0 r6;                                                (* 17 *)
  do _ <- mbs_copy 7 64 fresh (h1 0%nat);                                             (* 20 *)
  let v1 := h1 0%nat in
  do (d, _) <- pokes (length (blocks v1) * 8) 0 (blocks v1) g;                        (* 28-30 *)
  let h2 := store h1 0 (mkMbs d (bsize v1)) in
  do (_, h3) <- ref_assign 7 h2 (front_ref 0) (back_ref h2 0);                        (* 32 *)
  let v3 := h3 0%nat in
  do bs <- read_blocks (length (blocks v3)) 0 (blocks v3);                            (* 37 *)
  do bits <- read_blocks 3 0 (blocks v3);                                             (* 41 *)
  do els <- read_loop 7 26 h3 (it_begin 0);                                           (* 47-50 *)
  do last <- ref_get 7 h3 (it_nth (it_end h3 0) (-1));                                (* 58 *)
  do x <- ref_get 7 h3 (front_ref 0); do y <- ref_get 7 h3 (back_ref h3 0);           (* 60 *)
  Ok (mkOut (bsize v3) (capacity 7 64 v3) bs bits els (it_null h3 (it_begin 0)) (it_null h3 (it_end h3 0)) last (x =? y)).
End Prog.
