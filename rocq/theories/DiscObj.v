(** Model of boxes as objects for any scalar type: DiscretBox over integers,
    floats and booleans, ContinousBox over floats, and the boxes whose range is part
    of the type.  EAGlobal/BoxConstraint.hpp:32-124 (BoxBase, cores), 125-366 (size
    and shape), 440-503 (DiscretBox, FixedDiscreteBox, FixedDiscreteBox17), 507-664
    (ContinousBox, FixedContinousBox17/20); SizeBody4BoxConstraint.hpp.
    (BoxObj.v is the same for ContinousBox over doubles.)
    Simplification: an element read out of range is undefined (with Eigen and
    assertions on, it is an assertion failure). *)
From Coq Require Import List Arith ZArith Bool.
From Flocq Require Import BinarySingleNaN.
From Verif Require Import Base Fl Rng Box BoxF BoxObj.
Import ListNotations.
Open Scope Z_scope.

Section Obj.
Context {A : Type} (lt : A -> A -> bool) (zero : A).
(** Shape and coefficients in storage order; None: never written. *)
Record narr := mkNArr { nrows : Z; ncols : Z; ndata : list (option A) }.
Definition nsize (a : narr) : Z := Z.of_nat (length (ndata a)).
(** The members, as in BoxObj.v (only ContinousBox has the deltas). *)
Record nbox := mkN {
  n_min : option A; n_max : option A; n_delta : option A;
  nv_min : narr; nv_max : narr; nv_delta : narr;
  n_size : option (Z * Z)
}.
Definition nblank (k : kind) : narr :=
  match fixed k with
  | Some (r, c) => mkNArr r c (repeat None (Z.to_nat (r * c)))
  | None => mkNArr 0 (if vec k then 1 else 0) []
  end.
Definition nfresh (k : kind) : nbox := mkN None None None (nblank k) (nblank k) (nblank k) (fixed k).
(** 462-483, 485-503, 638-664: the range, and delta, are in the type. *)
Definition nfixed (k : kind) (lo hi d : A) : nbox := mkN (Some lo) (Some hi) (Some d) (nblank k) (nblank k) (nblank k) (fixed k).

(** An argument of type Var_t. *)
Record nvar := mkNV { nvrows : Z; nvcols : Z; nvdata : list A }.
Definition narr_of (v : nvar) : narr := mkNArr (nvrows v) (nvcols v) (map Some (nvdata v)).
Definition nresize (a : narr) (r c : Z) : narr :=
  if r * c =? nsize a then mkNArr r c (ndata a) else mkNArr r c (repeat None (Z.to_nat (r * c))).
(** Eigen: a.fill(x);  a(i) op= x. *)
Definition nfill (x : A) (a : narr) : res narr := Ok (mkNArr (nrows a) (ncols a) (repeat (Some x) (length (ndata a)))).
Definition nread (x : option A) : res A := match x with Some d => Ok d | None => UB end.
Definition nread_at (a : narr) (i : nat) : res A := match nth_error (ndata a) i with Some x => nread x | None => UB end.
Definition nedit (i : nat) (f : A -> A) (a : narr) : res narr :=
  do x <- nread_at a i; Ok (mkNArr (nrows a) (ncols a) (set_at (ndata a) i (Some (f x)))).

Inductive ncall :=
| NRange (lo hi : A)                   (* square: 115-119 *)
| NRangeV (lo hi : nvar)               (* rectangle: 250-254 *)
| NDelta (d : A)                       (* 520-523 *)
| NDeltaV (d : nvar)                   (* 541-546 *)
| NDims (r c : Z)                      (* as in BoxObj.v; c = 1 for vectors *)
| NMin (x : A) | NMax (x : A) | NDeltaRef (x : A)                        (* min() = x ... *)
| NEditMin (f : narr -> res narr) | NEditMax (f : narr -> res narr) | NEditDelta (f : narr -> narr -> res narr). (* using the reference min(), max(), delta(); delta() = f(min(), max()) *)

Definition nvar_of (k : kind) (v : nvar) : bool :=
  (0 <=? nvrows v) && (0 <=? nvcols v) && (Z.of_nat (length (nvdata v)) =? nvrows v * nvcols v) &&
  match fixed k with Some (r, c) => (nvrows v =? r) && (nvcols v =? c) | None => negb (vec k) || (nvcols v =? 1) end.
(** The members of DiscretBox (cont = false) and ContinousBox (cont = true). *)
Definition nhas (k : kind) (cont : bool) (c : ncall) : bool :=
  match c with
  | NRange _ _ | NMin _ | NMax _ => sq k
  | NRangeV x y => negb (sq k) && nvar_of k x && nvar_of k y
  | NEditMin _ | NEditMax _ => negb (sq k)
  | NDelta _ | NDeltaRef _ => cont && sq k
  | NDeltaV x => cont && negb (sq k) && nvar_of k x
  | NEditDelta _ => cont && negb (sq k)
  | NDims r c => match fixed k with Some _ => false | None => (sq k || negb (vec k)) && (negb (vec k) || (c =? 1)) end
  end.
Definition nstep (k : kind) (b : nbox) (c : ncall) : res nbox :=
  match c with
  | NRange lo hi => if lt lo hi then Ok (mkN (Some lo) (Some hi) (n_delta b) (nv_min b) (nv_max b) (nv_delta b) (n_size b)) else Abort
  | NRangeV lo hi => if nsize (narr_of lo) =? nsize (narr_of hi)
      then Ok (mkN (n_min b) (n_max b) (n_delta b) (narr_of lo) (narr_of hi) (nv_delta b) (n_size b)) else Abort
  | NDelta d => if lt zero d then Ok (mkN (n_min b) (n_max b) (Some d) (nv_min b) (nv_max b) (nv_delta b) (n_size b)) else Abort
  | NDeltaV d => if forallb (lt zero) (nvdata d) then Ok (mkN (n_min b) (n_max b) (n_delta b) (nv_min b) (nv_max b) (narr_of d) (n_size b)) else Abort
  | NDims r c =>
      if (r <=? 0) || (c <=? 0) then Abort
      else if sq k then Ok (mkN (n_min b) (n_max b) (n_delta b) (nv_min b) (nv_max b) (nv_delta b) (Some (r, c)))
      else Ok (mkN (n_min b) (n_max b) (n_delta b) (nresize (nv_min b) r c) (nresize (nv_max b) r c) (nresize (nv_delta b) r c) (n_size b))
  | NMin x => Ok (mkN (Some x) (n_max b) (n_delta b) (nv_min b) (nv_max b) (nv_delta b) (n_size b))
  | NMax x => Ok (mkN (n_min b) (Some x) (n_delta b) (nv_min b) (nv_max b) (nv_delta b) (n_size b))
  | NDeltaRef x => Ok (mkN (n_min b) (n_max b) (Some x) (nv_min b) (nv_max b) (nv_delta b) (n_size b))
  | NEditMin f => do a <- f (nv_min b); Ok (mkN (n_min b) (n_max b) (n_delta b) a (nv_max b) (nv_delta b) (n_size b))
  | NEditMax f => do a <- f (nv_max b); Ok (mkN (n_min b) (n_max b) (n_delta b) (nv_min b) a (nv_delta b) (n_size b))
  | NEditDelta f => do a <- f (nv_min b) (nv_max b); Ok (mkN (n_min b) (n_max b) (n_delta b) (nv_min b) (nv_max b) a (n_size b))
  end.
Fixpoint ndrive (k : kind) (b : nbox) (h : list ncall) : res nbox :=
  match h with
  | [] => Ok b
  | c :: t => do b' <- nstep k b c; ndrive k b' t
  end.

(** min(idx), max(idx), delta(idx), dimensions(), boxRows(), boxCols(): the lines are
    those of BoxObj.v. *)
Definition nmin_at (k : kind) (b : nbox) (i : nat) : res A := if sq k then nread (n_min b) else nread_at (nv_min b) i.
Definition nmax_at (k : kind) (b : nbox) (i : nat) : res A := if sq k then nread (n_max b) else nread_at (nv_max b) i.
Definition ndelta_at (k : kind) (b : nbox) (i : nat) : res A := if sq k then nread (n_delta b) else nread_at (nv_delta b) i.
Definition ndims (k : kind) (b : nbox) : res Z :=
  if sq k then match n_size b with Some (r, c) => arith int32 (r * c) | None => UB end
  else match fixed k with
       | Some (r, c) => Ok (r * c)
       | None => if negb (nsize (nv_min b) =? nsize (nv_max b)) then Abort
                 else if negb (vec k) && negb (nrows (nv_min b) =? nrows (nv_max b)) then Abort
                 else Ok (nsize (nv_min b))
       end.
Definition nbox_rows (k : kind) (b : nbox) : res Z :=
  if sq k then match n_size b with Some (r, _) => Ok r | None => UB end
  else match fixed k with Some (r, _) => Ok r | None => if nrows (nv_min b) =? nrows (nv_max b) then Ok (nrows (nv_min b)) else Abort end.
Definition nbox_cols (k : kind) (b : nbox) : res Z :=
  if sq k then match n_size b with Some (_, c) => Ok c | None => UB end
  else match fixed k with Some (_, c) => Ok c | None => if ncols (nv_min b) =? ncols (nv_max b) then Ok (ncols (nv_min b)) else Abort end.

Section Ops.
Context (R : rng_ops) (k : kind) (b : nbox).
Definition ninit_size : res Z :=
  if sq k then ndims k b
  else match fixed k with
       | Some (r, c) => Ok (r * c)
       | None => if vec k then ndims k b else do r <- nbox_rows k b; do c <- nbox_cols k b; Ok (r * c)
       end.
(** 38-51; [draw lo hi] is the branch for the scalar type. *)
Context (draw : A -> A -> G R -> res (A * G R)).
Fixpoint ninit_loop (n idx : nat) (g : G R) : res (list A * G R) :=
  match n with
  | O => Ok ([], g)
  | S m => do lo <- nmin_at k b idx; do hi <- nmax_at k b idx;
           do (x, g1) <- draw lo hi g;
           do (r, g2) <- ninit_loop m (S idx) g1; Ok (x :: r, g2)
  end.
Definition ninitialize (g : G R) : res (list A * G R) := do n <- ninit_size; ninit_loop (Z.to_nat n) 0 g.
(** std::max(std::min(x, hi), lo). *)
Definition nclamp (lo hi x : A) : A := let y := if lt hi x then hi else x in if lt y lo then lo else y.
(** 53-59. *)
Fixpoint nconstrain_loop (v : list A) (idx : nat) : res (list A) :=
  match v with
  | [] => Ok []
  | x :: t => do hi <- nmax_at k b idx; do lo <- nmin_at k b idx;
              do t' <- nconstrain_loop t (S idx); Ok (nclamp lo hi x :: t')
  end.
Definition nconstrain (v : list A) : res (list A) :=
  do n <- ndims k b; if Z.of_nat (length v) =? n then nconstrain_loop v 0 else Abort.
(** 68-80 (BoxBase), [step x up]: x += 1 or x += -1 in the scalar type. *)
Context (step : A -> bool -> res A).
Definition nmove (v : list A) (g : G R) : res (list A * G R) :=
  do n <- ndims k b; if negb (Z.of_nat (length v) =? n) then Abort else
  let (idx, g1) := randIdx2 R 0 n g in
  let (j, g2) := randIdx R 2 g1 in
  do x <- get_at v idx; do y <- step x (j =? 0);
  do hi <- nmax_at k b (Z.to_nat idx); do lo <- nmin_at k b (Z.to_nat idx);
  Ok (set_at v (Z.to_nat idx) (nclamp lo hi y), g2).
(** 627-635 (ContinousBox), [cstep x r d]: x + Scalar_t(r) * d. *)
Context (cstep : A -> double -> A -> A).
Definition ncmove (v : list A) (g : G R) : res (list A * G R) :=
  do n <- ndims k b; if negb (Z.of_nat (length v) =? n) then Abort else
  let (idx, g1) := randIdx R n g in
  let (r, g2) := randD_range R (d_of_Z (-1)) d1 g1 in
  do x <- get_at v idx; do d <- ndelta_at k b (Z.to_nat idx);
  do hi <- nmax_at k b (Z.to_nat idx); do lo <- nmin_at k b (Z.to_nat idx);
  Ok (set_at v (Z.to_nat idx) (nclamp lo hi (cstep x r d)), g2).
End Ops.
End Obj.
Arguments narr : clear implicits.
Arguments nbox : clear implicits.
Arguments nvar : clear implicits.
Arguments ncall : clear implicits.

(** * Integers (Box.v: type, conversion, arithmetic) *)
Section Ints.
Context (R : rng_ops) (t : ity) (k : kind) (b : nbox Z).
Definition draw_int (lo hi : Z) (g : G R) : res (Z * G R) := do h <- arith (promoted t) (1 + hi); randIdxT R t lo (conv t h) g.   (* 44-45 *)
Definition step_int (x : Z) (up : bool) : res Z := do y <- arith (promoted t) (x + (if up then 1 else -1)); Ok (conv t y).      (* 76 *)
Definition i_initialize := ninitialize R k b draw_int.
Definition i_constrain := nconstrain Z.ltb k b.
Definition i_move := nmove Z.ltb R k b step_int.
End Ints.
(** * Floats (BoxF.v) *)
Section FloatObj.
Context (R : rng_ops) (k : kind) (b : nbox float).
Definition draw_float (lo hi : float) (g : G R) : res (float * G R) := Ok (drawF R lo hi g).                     (* 47-48 *)
Definition step_float (x : float) (up : bool) : res float := Ok (fadd x (if up then f1 else f_of_Z (-1))).       (* 76 *)
Definition cstep_float (x : float) (r : double) (d : float) : float := fadd x (fmul (to_float r) d).             (* 631 *)
Definition f_initialize := ninitialize R k b draw_float.
Definition f_constrain := nconstrain flt k b.
Definition f_step := nmove flt R k b step_float.
Definition f_move := ncmove flt R k b cstep_float.
End FloatObj.
(** * Booleans: BooleanBoxCore (126-137) has no state; only the size is kept. *)
Definition bsize_of (sz : option (Z * Z)) : res Z := match sz with Some (r, c) => arith int32 (r * c) | None => UB end.
Definition bool_dims (r c : Z) : res (option (Z * Z)) := if (r <=? 0) || (c <=? 0) then Abort else Ok (Some (r, c)).
Section BoolObj.
Context (R : rng_ops) (sz : option (Z * Z)).
Definition b_initialize (g : G R) : res (list bool * G R) := do n <- bsize_of sz; Ok (initializeB R n g).
(** 53-59 with min = false, max = true. *)
Definition b_constrain (v : list bool) : res (list bool) := do n <- bsize_of sz; if Z.of_nat (length v) =? n then Ok (map (nclamp (fun x y => negb x && y) false true) v) else Abort.
Definition b_move (v : list bool) (g : G R) : res (list bool * G R) := do n <- bsize_of sz; applyDeltaB R n v g.
End BoolObj.
