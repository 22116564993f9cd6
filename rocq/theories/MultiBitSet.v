(** Model of SimpleMatrix/MultiBitSet.hpp: a vector of [e]-bit unsigned integers
    packed, most significant bit first, into blocks of [B] bits.
    Blocks are integers in [0, 2^B).  Memory returned by the allocator is
    uninitialised in C++; here it holds arbitrary values chosen by [fresh].
    Little-endian byte order (matters only in [reserve]).
    Not modelled: the move constructor (388-398) does not compile ([b.end = 0]);
    reference and iterator classes (52-336) are an index into the container:
    they read and write through getValue / setValue, and their constructors are
    accessible to [multiBitSet<eleBits>] only, so for a block type other than
    size_t only push_back and the const members compile. *)
From Coq Require Import List Arith ZArith Bool.
From Flocq Require Import BinarySingleNaN.
From Verif Require Import Base Fl Box.
Import ListNotations.
Open Scope Z_scope.

(** 590-592: [blocks] is [_data .. _end), [bsize] is [_size]. *)
Record mbs := mkMbs { blocks : list Z; bsize : Z }.

(** std::ceil of a non-negative float, converted to an integer. *)
Definition fceil (q : float) : Z :=
  let t := Btrunc q in if flt (f_of_Z t) q then t + 1 else t.

Section Model.
(** eleBits, blockBits (8, 16, 32 or 64), and what allocate(n) finds in memory. *)
Context (e B : Z) (fresh : Z -> list Z).

(** 39: (block_t(1) << eleBits) - 1 *)
Definition blockMask : Z := Z.shiftl 1 e - 1.
(** Conversion to block_t. *)
Definition to_block (z : Z) : Z := z mod 2 ^ B.
(** [x << k] for x of type block_t: blocks narrower than int are promoted to
    int first, so no bit is lost (every shift count in the file is below B). *)
Definition shl (x k : Z) : Z := if B <? 32 then Z.shiftl x k else to_block (Z.shiftl x k).

(** 361, 465, 488, 501, 567: size_t(std::ceil(float(n * eleBits) / blockBits)) *)
Definition blocksNeed (n : Z) : Z := fceil (fdiv (f_of_Z (wrap64 (n * e))) (f_of_Z B)).

(** Writing one block. *)
Definition put (d : list Z) (i x : Z) : res (list Z) :=
  if (0 <=? i) && (i <? Z.of_nat (length d)) then Ok (set_at d (Z.to_nat i) x) else UB.

(** 596-632 [setValue]: the stored value and the new memory. *)
Definition setValue (d : list Z) (index value : Z) : res (Z * list Z) :=
  let value := Z.land (to_block value) blockMask in
  let first := wrap64 (e * index) in
  let last := wrap64 ((index + 1) * e - 1) in
  let pb := first / B in let nb := last / B in
  if pb =? nb then
    let leftMove := (pb + 1) * B - last - 1 in
    do x <- get_at d pb;
    let inverseMask := to_block (Z.lnot (shl blockMask leftMove)) in
    do d' <- put d pb (to_block (Z.lor (Z.land x inverseMask) (shl value leftMove)));
    Ok (value, d')
  else
    let mid := nb * B in
    let leftBits := mid - first in
    let rightBits := last - mid + 1 in
    do p <- get_at d pb;
    do n <- get_at d nb;
    let p1 := to_block (shl (Z.shiftr p leftBits) leftBits) in
    let n1 := to_block (Z.shiftr (shl n rightBits) rightBits) in
    do d1 <- put d pb (to_block (Z.lor p1 (Z.shiftr value rightBits)));
    do d2 <- put d1 nb (to_block (Z.lor n1 (shl value (B - rightBits))));
    Ok (value, d2).

(** 634-656 [getValue]. *)
Definition getValue (d : list Z) (index : Z) : res Z :=
  let first := wrap64 (e * index) in
  let last := wrap64 ((index + 1) * e - 1) in
  let pb := first / B in let nb := last / B in
  if pb =? nb then
    do x <- get_at d pb;
    Ok (Z.land (Z.shiftr x ((pb + 1) * B - last - 1)) blockMask)
  else
    let mid := nb * B in
    do p <- get_at d pb;
    do n <- get_at d nb;
    Ok (Z.land (to_block (Z.lor (shl p (last - mid + 1)) (Z.shiftr n (mid + B - last - 1)))) blockMask).

(** 343-347: default constructor. *)
Definition mbs_empty : mbs := mkMbs [] 0.
(** 354-366: with size 0 no member is initialised, and every later use of the
    object (even its destruction) is undefined. *)
Definition mbs_make (n : Z) : res mbs :=
  if n <=? 0 then UB else Ok (mkMbs (repeat 0 (Z.to_nat (blocksNeed n))) n).
(** 421-424 *)
Definition capacity (m : mbs) : Z := (wrap64 (Z.of_nat (length (blocks m)) * B)) / e.

(** 449-457, 443-447 [operator[]] and [at]. *)
Definition mbs_at (m : mbs) (i : Z) : res Z :=
  if i <? bsize m then getValue (blocks m) i else Abort.
(** 449-452 and 69: writing through the reference. *)
Definition mbs_set (m : mbs) (i v : Z) : res (Z * mbs) :=
  if i <? bsize m then do (r, d) <- setValue (blocks m) i v; Ok (r, mkMbs d (bsize m)) else Abort.

(** 459-478 [resize]; the old contents are not copied (471 is commented out). *)
Definition mbs_resize (m : mbs) (n : Z) : mbs :=
  if n <=? capacity m then mkMbs (blocks m) n else mkMbs (fresh (blocksNeed n)) n.

(** memcpy of [k] BYTES from the blocks [src] to the blocks [dst]. *)
Fixpoint copy_bytes (dst src : list Z) (k : Z) : res (list Z) :=
  if k <=? 0 then Ok dst
  else match dst, src with
       | x :: dst', y :: src' =>
         if B <=? 8 * k then do t <- copy_bytes dst' src' (k - B / 8); Ok (y :: t)
         else Ok (Z.lor (Z.shiftl (Z.shiftr x (8 * k)) (8 * k)) (Z.land y (Z.ones (8 * k))) :: dst')
       | _, _ => UB
       end.
(** 483-498 [reserve]: memcpy is given the number of blocks as byte count. *)
Definition mbs_reserve (m : mbs) (n : Z) : res mbs :=
  if n <=? capacity m then Ok m
  else do d <- copy_bytes (fresh (blocksNeed n)) (blocks m) (Z.of_nat (length (blocks m)));
       Ok (mkMbs d (bsize m)).
(** memcpy of [n] whole blocks. *)
Definition copy_blocks (dst src : list Z) (n : Z) : res (list Z) :=
  if (n <=? Z.of_nat (length dst)) && (n <=? Z.of_nat (length src))
  then Ok (firstn (Z.to_nat n) src ++ skipn (Z.to_nat n) dst) else UB.
(** 500-515 [shrink_to_fit] *)
Definition mbs_shrink (m : mbs) : res mbs :=
  let need := blocksNeed (bsize m) in
  if need =? Z.of_nat (length (blocks m)) then Ok m
  else do d <- copy_blocks (fresh need) (blocks m) need; Ok (mkMbs d (bsize m)).
(** 520-524 [push_back], 529 [emplace_back] *)
Definition mbs_push (m : mbs) (v : Z) : res mbs :=
  do m1 <- mbs_reserve m (wrap64 (bsize m + 1));
  do (_, d) <- setValue (blocks m1) (bsize m1) v;
  Ok (mkMbs d (wrap64 (bsize m1 + 1))).
(** 535-538 [pop_back] *)
Definition mbs_pop (m : mbs) : res mbs :=
  if 0 <? bsize m then Ok (mkMbs (blocks m) (bsize m - 1)) else Abort.
(** 544-552 [clear] *)
Definition mbs_clear (m : mbs) : mbs := mkMbs [] 0.
(** 560-571 [operator=] (of another object) *)
Definition mbs_assign (m other : mbs) : res mbs :=
  if bsize other <=? 0 then Ok (mbs_resize m 0)
  else let m1 := mbs_resize m (bsize other) in
       do d <- copy_blocks (blocks m1) (blocks other) (blocksNeed (bsize m1));
       Ok (mkMbs d (bsize m1)).
(** 373-382: copy constructor; all blocks of the source are copied into a
    container sized for its elements. *)
Definition mbs_copy (other : mbs) : res mbs :=
  if 0 <? bsize other then
    let m1 := mbs_resize mbs_empty (bsize other) in
    do d <- copy_blocks (blocks m1) (blocks other) (Z.of_nat (length (blocks other)));
    Ok (mkMbs d (bsize m1))
  else Ok mbs_empty.
(** 573-579 [front], [back] (const): no assertion. *)
Definition mbs_front (m : mbs) : res Z := getValue (blocks m) 0.
Definition mbs_back (m : mbs) : res Z := getValue (blocks m) (wrap64 (bsize m - 1)).
End Model.
