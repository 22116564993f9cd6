(** Model of the continuous boxes as objects: members that no constructor
    initialises, the setters, the references handed out, and the operations.
    EAGlobal/BoxConstraint.hpp:32-124, 140-366, 507-636
    (ContinousBox<Var, SQUARE_BOX | RECTANGLE_BOX>), 667-755 (GaussianBox),
    EAGlobal/SizeBody4BoxConstraint.hpp.  Coordinates are doubles.
    Simplification: an element read out of range is undefined (with Eigen and
    assertions on, it is an assertion failure). *)
From Coq Require Import List Arith ZArith Bool.
From Flocq Require Import BinarySingleNaN.
From Verif Require Import Base Fl Rng Box.
Import ListNotations.
Open Scope Z_scope.

(** An Eigen array or std container of doubles: shape and coefficients in
    storage order; None is a coefficient never written. *)
Record arr := mkArr { rows : Z; cols : Z; data : list (option double) }.
Definition asize (a : arr) : Z := Z.of_nat (length (data a)).

(** What the template arguments say: shape of the box, dimensions of a
    fixed-size Var_t, whether it is a vector (cols = 1). *)
Record kind := mkKind { sq : bool; fixed : option (Z * Z); vec : bool; row_major : bool }.

(** SquareBoxCore 102-124: _minS, _maxS; SquareBoxDeltaCore 508-527: _deltaS;
    NonSquareBoxCore 237-259: _minV, _maxV; NonSquareBoxDeltaCore 529-550:
    _deltaV; size bodies: _dimensions or _rows, _cols. *)
Record box := mkBox {
  s_min : option double; s_max : option double; s_delta : option double;
  v_min : arr; v_max : arr; v_delta : arr;
  size : option (Z * Z)
}.
Definition blank_arr (k : kind) : arr :=
  match fixed k with
  | Some (r, c) => mkArr r c (repeat None (Z.to_nat (r * c)))
  | None => mkArr 0 (if vec k then 1 else 0) []
  end.
Definition fresh (k : kind) : box :=
  mkBox None None None (blank_arr k) (blank_arr k) (blank_arr k) (fixed k).

(** An argument of type Var_t: all coefficients have values. *)
Record var := mkVar { vrows : Z; vcols : Z; vdata : list double }.
Definition arr_of (v : var) : arr := mkArr (vrows v) (vcols v) (map Some (vdata v)).

(** Eigen's resize keeps the coefficients if their number stays the same. *)
Definition resize (a : arr) (r c : Z) : arr :=
  if r * c =? asize a then mkArr r c (data a) else mkArr r c (repeat None (Z.to_nat (r * c))).

Inductive bcall :=
| SetRange (lo hi : double)            (* square: 115-119 *)
| SetRangeV (lo hi : var)              (* rectangle: 250-254 *)
| SetDelta (d : double)                (* square: 520-523 *)
| SetDeltaV (d : var)                  (* rectangle: 541-546 *)
| SetDimensions (r c : Z)              (* SizeBody 49, 75; 208, 347, 560, 590; c = 1 for vectors *)
| RefMin (x : double) | RefMax (x : double) | RefDelta (x : double)     (* min() = x ... *)
| RefMinV (x : var) | RefMaxV (x : var) | RefDeltaV (x : var).

(** The members a class has.  NonSquareBoxDynamicDimVec::setDimensions (311-315)
    is const and resizes const references: it does not compile.  [var_of]: the
    argument has type Var_t. *)
Definition var_of (k : kind) (v : var) : bool :=
  (0 <=? vrows v) && (0 <=? vcols v) && (Z.of_nat (length (vdata v)) =? vrows v * vcols v) &&
  match fixed k with Some (r, c) => (vrows v =? r) && (vcols v =? c) | None => negb (vec k) || (vcols v =? 1) end.
Definition has_call (k : kind) (c : bcall) : bool :=
  match c with
  | SetRange _ _ | SetDelta _ | RefMin _ | RefMax _ | RefDelta _ => sq k
  | SetRangeV x y => negb (sq k) && var_of k x && var_of k y
  | SetDeltaV x | RefMinV x | RefMaxV x | RefDeltaV x => negb (sq k) && var_of k x
  | SetDimensions r c => match fixed k with Some _ => false | None => (sq k || negb (vec k)) && (negb (vec k) || (c =? 1)) end
  end.

Definition bstep (k : kind) (b : box) (c : bcall) : res box :=
  match c with
  | SetRange lo hi => if flt lo hi then Ok (mkBox (Some lo) (Some hi) (s_delta b) (v_min b) (v_max b) (v_delta b) (size b)) else Abort
  | SetRangeV lo hi =>
      if asize (arr_of lo) =? asize (arr_of hi)
      then Ok (mkBox (s_min b) (s_max b) (s_delta b) (arr_of lo) (arr_of hi) (v_delta b) (size b)) else Abort
  | SetDelta d => if flt d0 d then Ok (mkBox (s_min b) (s_max b) (Some d) (v_min b) (v_max b) (v_delta b) (size b)) else Abort
  | SetDeltaV d =>
      if forallb (flt d0) (vdata d) then Ok (mkBox (s_min b) (s_max b) (s_delta b) (v_min b) (v_max b) (arr_of d) (size b)) else Abort
  | SetDimensions r c =>
      if (r <=? 0) || (c <=? 0) then Abort
      else if sq k then Ok (mkBox (s_min b) (s_max b) (s_delta b) (v_min b) (v_max b) (v_delta b) (Some (r, c)))
      else Ok (mkBox (s_min b) (s_max b) (s_delta b) (resize (v_min b) r c) (resize (v_max b) r c) (resize (v_delta b) r c) (size b))
  | RefMin x => Ok (mkBox (Some x) (s_max b) (s_delta b) (v_min b) (v_max b) (v_delta b) (size b))
  | RefMax x => Ok (mkBox (s_min b) (Some x) (s_delta b) (v_min b) (v_max b) (v_delta b) (size b))
  | RefDelta x => Ok (mkBox (s_min b) (s_max b) (Some x) (v_min b) (v_max b) (v_delta b) (size b))
  | RefMinV x => Ok (mkBox (s_min b) (s_max b) (s_delta b) (arr_of x) (v_max b) (v_delta b) (size b))
  | RefMaxV x => Ok (mkBox (s_min b) (s_max b) (s_delta b) (v_min b) (arr_of x) (v_delta b) (size b))
  | RefDeltaV x => Ok (mkBox (s_min b) (s_max b) (s_delta b) (v_min b) (v_max b) (arr_of x) (size b))
  end.
Fixpoint bdrive (k : kind) (b : box) (h : list bcall) : res box :=
  match h with
  | [] => Ok b
  | c :: t => do b' <- bstep k b c; bdrive k b' t
  end.

(** * Queries *)
Definition read (x : option double) : res double := match x with Some d => Ok d | None => UB end.
Definition read_at (a : arr) (i : nat) : res double :=
  match nth_error (data a) i with Some x => read x | None => UB end.
(** min(idx), max(idx), delta(idx): 107-113, 244-248, 518, 539. *)
Definition min_at (k : kind) (b : box) (i : nat) : res double := if sq k then read (s_min b) else read_at (v_min b) i.
Definition max_at (k : kind) (b : box) (i : nat) : res double := if sq k then read (s_max b) else read_at (v_max b) i.
Definition delta_at (k : kind) (b : box) (i : nat) : res double := if sq k then read (s_delta b) else read_at (v_delta b) i.
(** dimensions(): SizeBody 33, 47, 69 (an int product), BoxConstraint.hpp:202, 271,
    288, 306, 331. *)
Definition dimensions (k : kind) (b : box) : res Z :=
  if sq k then match size b with Some (r, c) => arith int32 (r * c) | None => UB end
  else match fixed k with
       | Some (r, c) => Ok (r * c)
       | None => if negb (asize (v_min b) =? asize (v_max b)) then Abort
                 else if negb (vec k) && negb (rows (v_min b) =? rows (v_max b)) then Abort
                 else Ok (asize (v_min b))
       end.
(** delta(r, c): 582-586; boxRows(), boxCols(): 204, 206, 290, 292, 337-345, SizeBody
    39, 41, 71, 73.  In the square classes
    delta(idx) ignores its argument. *)
Definition box_rows (k : kind) (b : box) : res Z :=
  if sq k then match size b with Some (r, _) => Ok r | None => UB end
  else match fixed k with Some (r, _) => Ok r | None => if rows (v_min b) =? rows (v_max b) then Ok (rows (v_min b)) else Abort end.
Definition box_cols (k : kind) (b : box) : res Z :=
  if sq k then match size b with Some (_, c) => Ok c | None => UB end
  else match fixed k with Some (_, c) => Ok c | None => if cols (v_min b) =? cols (v_max b) then Ok (cols (v_min b)) else Abort end.
Definition delta_rc (k : kind) (b : box) (r c : Z) : res double :=
  do n <- box_rows k b; do m <- box_cols k b;
  if (r <? 0) || (n <=? r) || (c <? 0) || (m <=? c) then Abort else delta_at k b (Z.to_nat (r + c * n)).

(** * Operations *)
Section Ops.
Context (R : rng_ops) (k : kind) (b : box).
(** 38-51 [initialize]: resize, then draw every coefficient. *)
Fixpoint init_loop (n idx : nat) (g : G R) : res (list double * G R) :=
  match n with
  | O => Ok ([], g)
  | S m => do lo <- min_at k b idx; do hi <- max_at k b idx;
           let (x, g1) := randD_range R lo hi g in
           do p <- init_loop m (S idx) g1; Ok (x :: fst p, snd p)
  end.
(** The number of coefficients after initializeSize(v): 215-219 and SizeBody 31, 54,
    82 (positive dimensions asserted), 273, 294, 317, 355 (resize to the shape of min). *)
Definition init_size : res Z :=
  if sq k then dimensions k b
  else match fixed k with
       | Some (r, c) => Ok (r * c)
       | None => if vec k then dimensions k b
                 else do r <- box_rows k b; do c <- box_cols k b; Ok (r * c)
       end.
Definition initialize (g : G R) : res (list double * G R) := do n <- init_size; init_loop (Z.to_nat n) 0 g.
(** 53-59. *)
Fixpoint constrain_loop (v : list double) (idx : nat) : res (list double) :=
  match v with
  | [] => Ok []
  | x :: t => do hi <- max_at k b idx; do lo <- min_at k b idx;
              do t' <- constrain_loop t (S idx); Ok (clampD lo hi x :: t')
  end.
Definition applyConstraint (v : list double) : res (list double) :=
  do n <- dimensions k b; if Z.of_nat (length v) =? n then constrain_loop v 0 else Abort.
(** 627-635. *)
Definition applyDelta (v : list double) (g : G R) : res (list double * G R) :=
  do n <- dimensions k b; if negb (Z.of_nat (length v) =? n) then Abort else
  let (idx, g1) := randIdx R n g in
  let (r, g2) := randD_range R (d_of_Z (-1)) d1 g1 in
  do x <- get_at v idx; do d <- delta_at k b (Z.to_nat idx);
  do hi <- max_at k b (Z.to_nat idx); do lo <- min_at k b (Z.to_nat idx);
  Ok (set_at v (Z.to_nat idx) (clampD lo hi (fadd x (fmul r d))), g2).
End Ops.

(** * The infinite box *)
(** 667-755.  [norm] is one draw of std::normal_distribution<double>(0, 1). *)
Record gbox := mkG { g_mu : option double; g_sigma : option double; g_delta : option double; g_size : option (Z * Z) }.
Definition g_fresh (fx : option (Z * Z)) : gbox := mkG None None None fx.
Inductive gcall := SetMu (m : double) | SetSigma (s : double) | SetGDelta (d : double) | SetGDims (r c : Z).
Definition gstep (b : gbox) (c : gcall) : res gbox :=
  match c with
  | SetMu m => Ok (mkG (Some m) (g_sigma b) (g_delta b) (g_size b))                               (* 691 *)
  | SetSigma s => if flt d0 s then Ok (mkG (g_mu b) (Some s) (g_delta b) (g_size b)) else Abort     (* 695-698 *)
  | SetGDelta d => if flt d0 d then Ok (mkG (g_mu b) (g_sigma b) (Some d) (g_size b)) else Abort    (* 520-523 *)
  | SetGDims r c => if (r <=? 0) || (c <=? 0) then Abort else Ok (mkG (g_mu b) (g_sigma b) (g_delta b) (Some (r, c)))
  end.
Fixpoint gdrive (b : gbox) (h : list gcall) : res gbox :=
  match h with [] => Ok b | c :: t => do b' <- gstep b c; gdrive b' t end.
Definition g_dims (b : gbox) : res Z := match g_size b with Some (r, c) => arith int32 (r * c) | None => UB end.

Section Gauss.
Context (R : rng_ops) (norm : G R -> double * G R) (b : gbox).
(** Randoms.hpp:155: normD() * sigma + mu. *)
Definition normD (mu sigma : double) (g : G R) : double * G R := let (x, g') := norm g in (fadd (fmul x sigma) mu, g').
(** 734-740. *)
Fixpoint gauss_loop (n : nat) (g : G R) : res (list double * G R) :=
  match n with
  | O => Ok ([], g)
  | S m => do mu <- read (g_mu b); do s <- read (g_sigma b);
           let (x, g1) := normD mu s g in
           do p <- gauss_loop m g1; Ok (x :: fst p, snd p)
  end.
Definition g_initialize (g : G R) : res (list double * G R) := do n <- g_dims b; gauss_loop (Z.to_nat n) g.
(** 742. *)
Definition g_applyConstraint (v : list double) : res (list double) := Ok v.
(** 746-751. *)
Definition g_applyDelta (v : list double) (g : G R) : res (list double * G R) :=
  do n <- g_dims b; if negb (Z.of_nat (length v) =? n) then Abort else
  let (idx, g1) := randIdx R n g in
  let (r, g2) := randD_range R (d_of_Z (-1)) d1 g1 in
  do x <- get_at v idx; do d <- read (g_delta b); Ok (set_at v (Z.to_nat idx) (fadd x (fmul r d)), g2).
End Gauss.
