(** Model of SimpleMatrix/MatrixDynamicSize.hpp, MatrixFixedSize.hpp, MatrixMap.hpp
    and MatrixBase.hpp, for scalar types that are trivially copyable and default
    constructible ([int], [double], ...).
    Not modelled because they do not compile or are undefined for every argument:
    MatrixDynamicSize's copy constructor (93-98: resize() reads the still
    uninitialised members), its copy assignment (136-146: memcpy from an object),
    its move assignment (154-173: no return statement); anything mixing a
    MatrixMap with another class (MatrixMap.hpp:31: Scalar_t is private). *)
From Coq Require Import List Arith ZArith Bool.
From Verif Require Import Base Box.
Import ListNotations.
Open Scope Z_scope.

(** Writing an array element. *)
Definition store {T} (a : list T) (i : Z) (x : T) : res (list T) :=
  if (0 <=? i) && (i <? Z.of_nat (length a)) then Ok (set_at a (Z.to_nat i) x) else UB.

(** int multiplication and addition: overflow is undefined. *)
Definition in_int (z : Z) : bool := (-2147483648 <=? z) && (z <=? 2147483647).
Definition iarith (z : Z) : res Z := if in_int z then Ok z else UB.

(** * MatrixDynamicSize *)
(** 350-356: [mem] is the allocated memory, its length is [_capacity]. *)
Record mat (T : Type) := mkMat { mem : list T; rowsM : Z; colsM : Z }.
Arguments mkMat {T}. Arguments mem {T}. Arguments rowsM {T}. Arguments colsM {T}.

Section Dyn.
Context {T : Type} (dflt : T).   (* Scalar_t() *)

(** 65-70 *)
Definition mat_empty : mat T := mkMat [] 0 0.
(** 76-88: memory is not initialised; [garbage] is what it contains.  A negative
    size makes allocate throw inside a noexcept function. *)
Definition mat_make (garbage : Z -> list T) (r c : Z) : res (mat T) :=
  do n <- iarith (r * c);
  if n <? 0 then Abort else Ok (mkMat (garbage n) r c).
(** 100-110: move constructor: the new matrix and what is left of the source. *)
Definition mat_move (src : mat T) : mat T * mat T := (src, mat_empty).
(** 221 *)
Definition mat_size (m : mat T) : res Z := iarith (rowsM m * colsM m).
(** 291 [capacity] *)
Definition mat_capacity (m : mat T) : Z := Z.of_nat (length (mem m)).
(** memcpy of n elements. *)
Definition memcpy (dst src : list T) (n : Z) : res (list T) :=
  if (n <=? Z.of_nat (length dst)) && (n <=? Z.of_nat (length src))
  then Ok (firstn (Z.to_nat n) src ++ skipn (Z.to_nat n) dst) else UB.
(** 230-242 [reserve]: returns when _capacity <= s, otherwise moves all _capacity
    elements to an array of s. *)
Definition mat_reserve (garbage : Z -> list T) (m : mat T) (s : Z) : res (mat T) :=
  if mat_capacity m <=? s then Ok m
  else if s <? 0 then Abort
  else do a <- memcpy (garbage s) (mem m) (mat_capacity m); Ok (mkMat a (rowsM m) (colsM m)).
(** 250-275 [resize] *)
Definition mat_resize (m : mat T) (r c : Z) : res (mat T) :=
  do n <- iarith (r * c);
  do s <- mat_size m;
  if negb (n =? s) && (mat_capacity m <? n)
  then Ok (mkMat (repeat dflt (Z.to_nat n)) r c)
  else Ok (mkMat (mem m) r c).
(** 296-321: element access, index rowNum * c + r. *)
Definition mat_at (m : mat T) (n : Z) : res T := get_at (mem m) n.
Definition index_of (m : mat T) (r c : Z) : res Z := do p <- iarith (rowsM m * c); iarith (p + r).
Definition mat_rc (m : mat T) (r c : Z) : res T := do n <- index_of m r c; mat_at m n.
Definition mat_set (m : mat T) (n : Z) (x : T) : res (mat T) :=
  do a <- store (mem m) n x; Ok (mkMat a (rowsM m) (colsM m)).
Definition mat_set_rc (m : mat T) (r c : Z) (x : T) : res (mat T) := do n <- index_of m r c; mat_set m n x.
(** 338-342 [fill]: from begin() to end() = begin() + size(). *)
Fixpoint fill_upto (a : list T) (n : nat) (x : T) : res (list T) :=
  match n with
  | O => Ok a
  | S k => do a' <- fill_upto a k x; store a' (Z.of_nat k) x
  end.
Definition mat_fill (m : mat T) (x : T) : res (mat T) :=
  do n <- mat_size m;
  do a <- fill_upto (mem m) (Z.to_nat n) x; Ok (mkMat a (rowsM m) (colsM m)).
(** 175-179 and MatrixBase.hpp:34-61: assignment from a matrix of another class
    with elements [src] (of r rows and c columns): resize and memcpy. *)
Definition mat_from (m : mat T) (src : list T) (r c : Z) : res (mat T) :=
  do m1 <- mat_resize m r c;
  do a <- memcpy (mem m1) src (Z.of_nat (length src)); Ok (mkMat a r c).
End Dyn.

(** * MatrixFixedSize: [a] is the std::array of Rows*Cols elements (145). *)
Section Fixed.
Context {T : Type}.
(** 98-110: unsigned index arithmetic. *)
Definition fix_rc (Rows Cols : Z) (a : list T) (r c : Z) : res T := get_at a (wrap64 (wrap64 (Rows * c) + r)).
Definition fix_set_rc (Rows Cols : Z) (a : list T) (r c : Z) (x : T) : res (list T) := store a (wrap64 (wrap64 (Rows * c) + r)) x.
(** 116-119 *)
Definition fix_resize (Rows Cols : Z) (r c : Z) : res unit := if (r =? Rows) && (c =? Cols) then Ok tt else Abort.
(** 122-127, 56-64: copying element by element / memcpy of the whole array. *)
Definition fix_assign (a src : list T) : list T := src.
(** MatrixBase.hpp:38-61: assignment from a dynamic matrix. *)
Definition fix_from (Rows Cols : Z) (a : list T) (m : mat T) : res (list T) :=
  if (Rows =? rowsM m) && (Cols =? colsM m) then
    do n <- mat_size m;
    memcpy a (mem m) n
  else Abort.
End Fixed.

(** * MatrixMap: a view of [mrows*mcols] elements of the memory [a] from [base]. *)
Record mmap := mkMap { base : Z; mrows : Z; mcols : Z }.
Section Map.
Context {T : Type}.
(** 47-51: copying shares the storage. *)
Definition map_copy (s : mmap) : mmap := s.
(** 74 *)
Definition map_size (s : mmap) : Z := wrap64 (mrows s * mcols s).
(** 92-95 *)
Definition map_resize (s : mmap) (r c : Z) : mmap := mkMap (base s) r c.
(** 97-107 *)
Definition map_at (a : list T) (s : mmap) (i : Z) : res T := get_at a (base s + i).
Definition map_set (a : list T) (s : mmap) (i : Z) (x : T) : res (list T) := store a (base s + i) x.
Definition map_rc (a : list T) (s : mmap) (r c : Z) : res T := map_at a s (wrap64 (wrap64 (mrows s * c) + r)).
Definition map_set_rc (a : list T) (s : mmap) (r c : Z) (x : T) : res (list T) :=
  map_set a s (wrap64 (wrap64 (mrows s * c) + r)) x.
(** 55-61 [deepCopyTo]: the loop, i from k upwards, n rounds. *)
Fixpoint copy_loop (a : list T) (src dst : mmap) (k : Z) (n : nat) : res (list T) :=
  match n with
  | O => Ok a
  | S m => do x <- map_at a src k; do a' <- map_set a dst k x; copy_loop a' src dst (k + 1) m
  end.
Definition deepCopyTo (a : list T) (src dst : mmap) : res (list T * mmap) :=
  let dst' := mkMap (base dst) (mrows src) (mcols src) in
  do a' <- copy_loop a src dst' 0 (Z.to_nat (map_size src)); Ok (a', dst').
(** 63-66 [operator=] *)
Definition map_assign (a : list T) (dst src : mmap) : res (list T * mmap) := deepCopyTo a src dst.
End Map.
