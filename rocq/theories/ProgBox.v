(** Model of the program test/Boxes.cpp: seven boxes as objects, the calls made
    on them in order, and what is printed.  Not modelled: the text, sizeof, and the
    questions about types answered at compile time (29-36, 50, 121, 164, 190, 200-206). *)
From Coq Require Import List Arith ZArith Bool.
From Flocq Require Import BinarySingleNaN.
From Verif Require Import Base Fl Rng Box BoxF BoxObj DiscObj ProgMO.
From Verif Require BinCode.
Import ListNotations.
Open Scope Z_scope.

(** 179-181: a float as a template argument, through encode and decode. *)
Definition through_code32 (fuel : nat) (x : float) : res float := do c <- BinCode.encode32 fuel x; BinCode.decode32 fuel c.
(** BoxConstraint.hpp:485-503, 652-664: the static assertions (the program is rejected). *)
Definition fixed_float_box (fuel : nat) (k : kind) (lo hi delta : float) : res (nbox float) :=
  do a <- through_code32 fuel lo; do b <- through_code32 fuel hi; do d <- through_code32 fuel delta;
  if flt a b && flt f0 d then Ok (nfixed k a b d) else Abort.
(** 462-470. *)
Definition fixed_int_box (k : kind) (lo hi : Z) : res (nbox Z) := if lo <? hi then Ok (nfixed k lo hi 0) else Abort.

Section Edit.
Context {A : Type} (lt : A -> A -> bool) (zero : A) (sub add div : A -> A -> A) (ofZ : Z -> A).
(** Eigen: (max - min) / 10, coefficient by coefficient; the shapes must agree. *)
Fixpoint zip_read (f : A -> A -> A) (a b : list (option A)) : res (list (option A)) :=
  match a, b with
  | [], [] => Ok []
  | Some x :: s, Some y :: t => do r <- zip_read f s t; Ok (Some (f x y) :: r)
  | None :: _, _ :: _ | Some _ :: _, None :: _ => UB
  | _, _ => Abort
  end.
Definition tenth (lo hi : narr A) : res (narr A) :=
  if (nrows lo =? nrows hi) && (ncols lo =? ncols hi)
  then do d <- zip_read (fun x y => div (sub y x) (ofZ 10)) (ndata lo) (ndata hi); Ok (mkNArr (nrows hi) (ncols hi) d) else Abort.
(** 92-95: the loop over idx < dimensions(), read anew every time. *)
Fixpoint widen (k : kind) (fuel : nat) (idx : nat) (b : nbox A) : res (nbox A) :=
  do n <- ndims k b;
  if Z.of_nat idx <? n then
    match fuel with
    | O => Fuel
    | S m =>
        do b1 <- nstep lt zero k b (NEditMin (nedit idx (fun x => sub x (ofZ (Z.of_nat idx mod 5)))));
        do b2 <- nstep lt zero k b1 (NEditMax (nedit idx (fun x => add x (ofZ (Z.of_nat idx mod 5)))));
        widen k m (S idx) b2
    end
  else Ok b.
(** 84-97. *)
Definition make_box2 (k : kind) : res (nbox A) :=
  do b1 <- ndrive lt zero k (nfresh k) [NDims 3 6; NEditMin (nfill (ofZ (-2))); NEditMax (nfill (ofZ 6))];
  do b2 <- widen k 18 0 b1;
  nstep lt zero k b2 (NEditDelta tenth).
End Edit.

(** What is printed. *)
Record out := mkOut {
  o0_dims : Z; o0_before : list double; o0_constrained : list double; o0_moved : list double;
  o1 : list Z;
  o2_rows : Z; o2_cols : Z; o2_min : list (option float); o2_max : list (option float); o2_delta : list (option float);
  o2_init : list float; o2_moved : list float;
  o3_init : list bool; o3_moved : list bool;
  o4_init : list double; o4_moved : list double;
  o5_dims : Z; o5_min : Z; o5_max : Z; o5_init : list Z;
  o6_min : float; o6_max : float; o6_delta : float; o6_init : list float; o6_moved : list float }.
Section Prog.
Context (R : rng_ops) (norm : G R -> double * G R) (fuel : nat).
Definition k0 := mkKind true (Some (4, 1)) true false.       (* Array4d *)
Definition k1 := mkKind true None true false.                (* std::vector<int> *)
Definition k2 := mkKind false None false false.              (* ArrayXXf, rectangle *)
Definition k5 := mkKind true (Some (2, 3)) false false.      (* Array<int, 2, 3> *)
Definition k6 := mkKind true None false false.               (* ArrayXXf *)
(** 28-208. *)
Definition boxes_main (g : G R) : res out :=
  do b0 <- bdrive k0 (fresh k0) [SetRange d0 d1; SetDelta (literal 6 1)];              (* 43-45 *)
  do _ <- min_at k0 b0 0;                                                             (* 46 *)
  do n0 <- dimensions k0 b0;                                                          (* 48 *)
  let v := repeat (literal 5 1) 4 in                                                  (* 52-53 *)
  do v1 <- applyConstraint k0 b0 v;                                                   (* 55 *)
  do (v2, g1) <- applyDelta R k0 b0 v1 g;                                             (* 59 *)
  do b1 <- ndrive Z.ltb 0 k1 (nfresh k1) [NDims 20 1; NRange (-3) 4];                 (* 66-70 *)
  do (a, g2) <- i_initialize R int32 k1 b1 g1;                                        (* 74 *)
  do b2 <- make_box2 flt f0 fsub fadd fdiv f_of_Z k2;                                 (* 84-97 *)
  do r2 <- nbox_rows k2 b2; do c2 <- nbox_cols k2 b2;                                 (* 99 *)
  do (m2, g3) <- f_initialize R k2 b2 g2;                                             (* 107 *)
  do m2' <- f_constrain k2 b2 m2;                                                     (* 111 *)
  do (m2'', g4) <- f_move R k2 b2 m2' g3;                                             (* 112 *)
  do (x3, g5) <- b_initialize R (Some (10, 1)) g4;                                    (* 119-125 *)
  do (x3', g6) <- b_move R (Some (10, 1)) x3 g5;                                      (* 133 *)
  do b4 <- gdrive (g_fresh None) [SetGDims 3 4; SetMu (d_of_Z 10); SetSigma (d_of_Z 100000000); SetGDelta (d_of_Z 10000000)];  (* 142-147 *)
  do (m4, g7) <- g_initialize R norm b4 g6;                                           (* 151 *)
  do (m4', g8) <- g_applyDelta R b4 m4 g7;                                            (* 157 *)
  do b5 <- fixed_int_box k5 (-3) (-2);                                                (* 162 *)
  do n5 <- ndims k5 b5; do lo5 <- nmin_at k5 b5 0; do hi5 <- nmax_at k5 b5 0;         (* 166-169 *)
  do (m5, g9) <- i_initialize R int32 k5 b5 g8;                                       (* 173 *)
  do b6 <- fixed_float_box fuel k6 (f_of_Z (-10)) (f_of_Z 5) (fdiv (f_of_Z 5) (f_of_Z 10));  (* 179-181 *)
  do b6' <- ndrive flt f0 k6 b6 [NDims 3 4];                                          (* 182 *)
  do lo6 <- nmin_at k6 b6' 0; do hi6 <- nmax_at k6 b6' 0; do d6 <- ndelta_at k6 b6' 0; (* 186-188 *)
  do (m6, g10) <- f_initialize R k6 b6' g9;                                           (* 192 *)
  do (m6', _) <- f_step R k6 b6' m6 g10;                                              (* 196 *)
  Ok (mkOut n0 v v1 v2 a r2 c2 (ndata (nv_min b2)) (ndata (nv_max b2)) (ndata (nv_delta b2)) m2 m2'' x3 x3' m4 m4' n5 lo5 hi5 m5 lo6 hi6 d6 m6 m6').
End Prog.
