(** Model of MatrixDynamicSize and MatrixFixedSize for elements of class type
    (SimpleMatrix/MatrixDynamicSize.hpp, MatrixFixedSize.hpp, MatrixBase.hpp), such
    as std::string: default construction, assignment and destruction are not trivial.
    A cell of memory is raw until an object is constructed in it; using the
    object of a raw cell is undefined.  The ledger counts the objects constructed
    and destroyed by the dynamic matrices.
    Not modelled: exceptions of the element type, failing allocation; the copy
    constructor (93-98: resize reads uninitialised members) and the move
    assignment (154-173: no return), undefined for every argument. *)
From Coq Require Import List Arith ZArith Bool.
From Verif Require Import Base Box Matrix.
Import ListNotations.
Open Scope Z_scope.

Record ledger := mkLedger { made : Z; destroyed : Z }.

Section Class.
Context {T : Type} (dflt : T).       (* Scalar_t() *)
Local Notation cell := (option T).         (* None: raw memory *)
(** 350-356: the length of [cells] is _capacity; no memory (nullptr) and none allocated behave the same. *)
Record cmat := mkC { cells : list cell; crows : Z; ccols : Z }.

(** One element: read, assigned, constructed, destroyed. *)
Definition cread (a : list cell) (i : Z) : res T := do x <- get_at a i; match x with Some v => Ok v | None => UB end.
Definition cassign (a : list cell) (i : Z) (v : T) : res (list cell) := do x <- get_at a i; match x with Some _ => store a i (Some v) | None => UB end.
Definition cconstruct (a : list cell) (i : Z) (w : ledger) : res (list cell * ledger) :=
  do a' <- store a i (Some dflt); Ok (a', mkLedger (made w + 1) (destroyed w)).
Definition cdestroy (a : list cell) (i : Z) (w : ledger) : res (list cell * ledger) :=
  do x <- get_at a i; match x with Some _ => do a' <- store a i None; Ok (a', mkLedger (made w) (destroyed w + 1)) | None => UB end.
(** The loops over i = 0 .. n-1. *)
Fixpoint cloop {A} (f : Z -> A -> res A) (n : nat) (a : A) : res A :=
  match n with O => Ok a | S k => do b <- cloop f k a; f (Z.of_nat k) b end.

(** 65-70. *)
Definition c_empty : cmat := mkC [] 0 0.
(** 76-88. *)
Definition c_make (r c : Z) (w : ledger) : res (cmat * ledger) :=
  do n <- iarith (r * c);
  if n <? 0 then Abort else
  do (a, w') <- cloop (fun i (aw : list cell * ledger) => let (a, w) := aw in cconstruct a i w) (Z.to_nat n) (repeat None (Z.to_nat n), w);
  Ok (mkC a r c, w').
(** 100-110. *)
Definition c_move (m : cmat) : cmat * cmat := (m, c_empty).
(** 116-127: the memory is given back, raw or not. *)
Definition c_destruct (m : cmat) (w : ledger) : res ledger :=
  do (_, w') <- cloop (fun i (aw : list cell * ledger) => let (a, w) := aw in cdestroy a i w) (length (cells m)) (cells m, w); Ok w'.
(** 221. *)
Definition c_size (m : cmat) : res Z := iarith (crows m * ccols m).
Definition c_capacity (m : cmat) : Z := Z.of_nat (length (cells m)).
(** 230-242: memcpy of _capacity elements into s. *)
Definition c_reserve (m : cmat) (s : Z) : res cmat :=
  if c_capacity m <=? s then Ok m
  else if s <? 0 then Abort
  else do a <- memcpy (repeat None (Z.to_nat s)) (cells m) (c_capacity m); Ok (mkC a (crows m) (ccols m)).
(** 250-275: both [if constexpr] ask for a trivial type, so for a class type
    nothing is destroyed and nothing is constructed. *)
Definition c_resize (m : cmat) (r c : Z) : res cmat :=
  do n <- iarith (r * c);
  do s <- c_size m;
  if negb (n =? s) && (c_capacity m <? n)
  then Ok (mkC (repeat None (Z.to_nat n)) r c)
  else Ok (mkC (cells m) r c).
(** 296-321. *)
Definition c_index (m : cmat) (r c : Z) : res Z := do p <- iarith (crows m * c); iarith (p + r).
Definition c_at (m : cmat) (n : Z) : res T := cread (cells m) n.
Definition c_rc (m : cmat) (r c : Z) : res T := do n <- c_index m r c; c_at m n.
Definition c_set (m : cmat) (n : Z) (x : T) : res cmat := do a <- cassign (cells m) n x; Ok (mkC a (crows m) (ccols m)).
Definition c_set_rc (m : cmat) (r c : Z) (x : T) : res cmat := do n <- c_index m r c; c_set m n x.
(** 338-342. *)
Definition c_fill (m : cmat) (x : T) : res cmat :=
  do n <- c_size m;
  do a <- cloop (fun i a => cassign a i x) (Z.to_nat n) (cells m); Ok (mkC a (crows m) (ccols m)).
(** 136-146: copy assignment; for a class type the memcpy is not instantiated. *)
Definition c_copy (m src : cmat) : res cmat :=
  do m1 <- c_resize m (crows src) (ccols src);
  do n <- c_size m1;
  do a <- cloop (fun i a => do x <- cread (cells src) i; cassign a i x) (Z.to_nat n) (cells m1); Ok (mkC a (crows m1) (ccols m1)).
(** 175-179, MatrixBase.hpp:34-61: assignment from a fixed-size matrix of r by c. *)
Definition c_from (m : cmat) (src : list T) (r c : Z) : res cmat :=
  do m1 <- c_resize m r c;
  do a <- cloop (fun i a => do x <- get_at src i; cassign a i x) (length src) (cells m1); Ok (mkC a (crows m1) (ccols m1)).
(** MatrixFixedSize: all elements of the std::array are objects.
    MatrixFixedSize.hpp:135-139 [fill], and MatrixBase.hpp:38-61 from a dynamic matrix. *)
Definition cf_make (Rows Cols : Z) : list T := repeat dflt (Z.to_nat (Rows * Cols)).
Definition cf_fill (a : list T) (x : T) : res (list T) := cloop (fun i a => store a i x) (length a) a.
Definition cf_from (Rows Cols : Z) (a : list T) (m : cmat) : res (list T) :=
  if (Rows =? crows m) && (Cols =? ccols m) then
    do n <- c_size m;
    cloop (fun i a => do x <- cread (cells m) i; store a i x) (Z.to_nat n) a
  else Abort.

(** The calls on one dynamic matrix. *)
Inductive ccall :=
| CSet (n : Z) (x : T) | CSetRC (r c : Z) (x : T) | CFill (x : T) | CResize (r c : Z) | CReserve (s : Z)
| CCopy (src : cmat) | CFrom (src : list T) (r c : Z).
Definition cstep (m : cmat) (h : ccall) : res cmat :=
  match h with
  | CSet n x => c_set m n x
  | CSetRC r c x => c_set_rc m r c x
  | CFill x => c_fill m x
  | CResize r c => c_resize m r c
  | CReserve s => c_reserve m s
  | CCopy src => c_copy m src
  | CFrom src r c => c_from m src r c
  end.
Fixpoint cdrive (m : cmat) (h : list ccall) : res cmat :=
  match h with [] => Ok m | x :: t => do m' <- cstep m x; cdrive m' t end.
End Class.
Arguments cmat : clear implicits.
Arguments ccall : clear implicits.

(** test/simpleMatrix.cpp:28-50 with strings as T: what is printed, and the ledger at the end. *)
Definition simple_main {T} (empty rua rue : T) : res ((T * T) * (T * T) * ledger) :=
  do (matXX, w) <- c_make empty 3 4 (mkLedger 0 0);
  let mat34 := cf_make empty 3 4 in
  do mat34 <- cf_fill mat34 rua;
  do matXX <- c_fill matXX rue;
  do a <- fix_rc 3 4 mat34 0 0; do b <- c_rc matXX 0 0;
  do mat34 <- cf_from 3 4 mat34 matXX;
  do c <- fix_rc 3 4 mat34 0 0; do d <- c_rc matXX 0 0;
  do w' <- c_destruct matXX w;
  Ok ((a, b), (c, d), w').
