(** Model of Genetic/NSGA3Abstract.hpp, NSGA3Base.hpp and NSGA3.hpp.
    NSGA3Abstract.hpp:50-57 fixes FITNESS_LESS_BETTER, so [greater] is [false]. *)
From Coq Require Import List Arith ZArith Bool.
From Flocq Require Import BinarySingleNaN.
From Verif Require Import Base Fl Rng StdOps GABase GlobalM MOGA.
Import ListNotations.
Open Scope Z_scope.

(** * Reference points *)
(** NSGA3Abstract.hpp:472-484 [pri_makeRP].  [n] = dimN - curDim coordinates are
    still to be written, [rec] holds the ones already written.  [accum] never
    exceeds [p], so the loop of line 480 runs for 0 .. p - accum. *)
Fixpoint makeRP (n : nat) (p accum : nat) (rec : list double) : list (list double) :=
  match n with
  | O => []
  | S n' =>
      match n' with
      | O => [rec ++ [fsub d1 (fdiv (d_of_Z (Z.of_nat accum)) (d_of_Z (Z.of_nat p)))]]
      | S _ => flat_map (fun q => makeRP n' p (accum + q) (rec ++ [fdiv (d_of_Z (Z.of_nat q)) (d_of_Z (Z.of_nat p))]))
                        (seq 0 (S (p - accum)))
      end
  end.
(** 486-499 [pri_startRP]; dimN = 0 writes rec[-1]. *)
Definition startRP (dimN p : nat) : res (list (list double)) :=
  match dimN with O => UB | S _ => Ok (makeRP dimN p 0 []) end.
(** 87-93 [computeReferencePointPoses].  The [reserve] of line 90 has no effect
    on the contents; its argument divides by zero in the same cases as the call
    in [referencePointCount], which comes first, so it is not repeated here. *)
Definition computeReferencePointPoses (dimN p : nat) : res (list (list double)) := startRP dimN p.

(** NSGA3Base.hpp:108-110 [referencePointCount] (single layer): NchooseK(p+M-1, p)
    in size_t arithmetic.  One reduction N-K always suffices (fuel 2). *)
Definition pointCount (M p : nat) : res Z :=
  NchooseK 2 (wrap64 (Z.of_nat p + Z.of_nat M - 1)) (Z.of_nat p).
(** 203-206 [referencePointCount] (double layer). *)
Definition pointCount2 (M pi po : nat) : res Z :=
  do a <- pointCount M pi; do b <- pointCount M po; Ok (wrap64 (a + b)).

Section Poses.
Context (R : rng_ops) (M : nat).
(** Copying column [c] reads rfP[c], out of bounds when [count] exceeds the
    number of points generated. *)
Definition copyColumns (count : Z) (rf : list (list double)) : res (list (list double)) :=
  if count <=? Z.of_nat (length rf) then Ok (firstn (Z.to_nat count) rf) else UB.
(** NSGA3Base.hpp:120-130 [makeReferencePoses] (single layer).  [_precision]
    (113) is not initialised before setReferencePointPrecision: [None]. *)
Definition makePoses1 (precision : option nat) (g : G R) : res (list (list double) * G R) :=
  match precision with
  | None => UB
  | Some p =>
      do count <- pointCount M p;                                     (* 121 *)
      do rf <- computeReferencePointPoses M p;                        (* 123 *)
      let (rf', g') := shuffle R rf g in                              (* 124 *)
      do cols <- copyColumns count rf';                               (* 125-129 *)
      Ok (cols, g')
  end.
(** 0.70710678118654752440 as a double. *)
Definition inv_sqrt2 : double := fofZ 6369051672525773 (-53).
(** NSGA3Base.hpp:212-230 [makeReferencePoses] (double layer): the two shuffles
    (215, 216) act on vectors that are still empty. *)
Definition makePoses2 (pi po : nat) (g : G R) : res (list (list double) * G R) :=
  do count <- pointCount2 M pi po;
  let (_, g1) := shuffle R ([] : list (list double)) g in
  let (_, g2) := shuffle R ([] : list (list double)) g1 in
  do irf <- computeReferencePointPoses M pi;
  do orf <- computeReferencePointPoses M po;
  do cols <- copyColumns count (map (map (fun x => fmul x inv_sqrt2)) irf ++ orf);
  Ok (cols, g2).
(** NSGA3Base.hpp:164-167: default precisions of the double layer; 196-201 the
    setter asserts i >= 2 and o >= 2. *)
Definition default_precisions : nat * nat := (3, 4)%nat.
Definition setPrecisions (i o : nat) : res (nat * nat) :=
  if (Nat.leb 2 i && Nat.leb 2 o)%bool then Ok (i, o) else Abort.
End Poses.

(** * Association *)
(** NSGA3Abstract.hpp:325-341 [findNearest], over any kind of number.  [dot] and
    [sqn] are Eigen's reductions w^T s and squaredNorm (their order of summation
    is Eigen's choice).  The columns of the matrix are a list. *)
Section Nearest.
Context {T : Type} (mul div sub : T -> T -> T) (dot : list T -> list T -> T) (sqn : list T -> T) (lt : T -> T -> bool).
Fixpoint zip_with (f : T -> T -> T) (a b : list T) : list T :=
  match a, b with
  | x :: a', y :: b' => f x y :: zip_with f a' b'
  | _, _ => []
  end.
(** 328-335: squaredNorm of w (w^T s) / |w|^2 - s. *)
Definition lineDistance (w s : list T) : T :=
  let k := dot w s in
  sqn (zip_with (fun wi si => sub (div (mul wi k) (sqn w)) si) w s).
(** 338: minCoeff(&idx) keeps the first coefficient that beats all before it. *)
Fixpoint minScan (bi : nat) (best : T) (i : nat) (l : list T) : nat * T :=
  match l with
  | [] => (bi, best)
  | d :: t => if lt d best then minScan i d (S i) t else minScan bi best (S i) t
  end.
(** minCoeff of an empty expression is undefined. *)
Definition findNearest (ws : list (list T)) (s : list T) : res (nat * T) :=
  match map (fun w => lineDistance w s) ws with
  | [] => UB
  | d :: t => Ok (minScan 0 d 1 t)
  end.
End Nearest.

(** Eigen's linear algebra on doubles, whose rounding depends on Eigen's
    choices: scalar product, squared norm, determinant, and
    inverse-of-transpose times the vector of ones (matrices: list of columns). *)
Record lin_ops := mkLin {
  dotp : list double -> list double -> double;
  sqnorm : list double -> double;
  determinant : list (list double) -> double;
  inv_ones : list (list double) -> list double
}.

Section Model.
Context {V : Type} (R : rng_ops) (std : std_ops) (lin : lin_ops) (M : nat) (opt : ga_option).
Notation core' := (core V fitv (list nat) (G R)).
Notation gene' := (gene V fitv).

(** 254-312 [normalize]. *)
(** 268, 275-292: the ideal point. *)
Definition idealPoint (order : list gene') : fitv :=
  fold_left (fun id x => cwise M fmin2 id (gfit x)) order (repeat pinfD M).
(** 270-292: the extreme gene of an objective, starting from Fl[0]. *)
Definition extreme (o : nat) (start : gene') (order : list gene') : gene' :=
  fold_left (fun e x => if flt (obj (gfit e) o) (obj (gfit x) o) then x else e) order start.
(** 293-295. *)
Definition extremePoints (start : gene') (order : list gene') : list fitv :=
  map (fun o => cwise M fsub (gfit (extreme o start order)) (idealPoint order)) (seq 0 M).
(** 297-303, 502-512 [isSingular], [extremePoints2Intercept]. *)
Definition intercepts (P : list fitv) : fitv :=
  if fle (fabs (determinant lin P)) eps10
  then map (fun r => obj (nth r P []) r) (seq 0 M)
  else map (fun x => fdiv d1 x) (inv_ones lin P).
(** 305-311: translatedFitness. *)
Definition translated (start : gene') (order : list gene') (x : gene') : fitv :=
  cwise M fdiv (cwise M fsub (gfit x) (idealPoint order)) (intercepts (extremePoints start order)).

(** 347-372 [associate]: closestRefPoint and distance of a gene. *)
Definition nearest (ws : list fitv) (s : fitv) : res (nat * double) :=
  findNearest fmul fdiv fsub (dotp lin) (sqnorm lin) flt ws s.
Fixpoint associate (ws : list fitv) (tr : gene' -> fitv) (l : list gene') : res (list (gene' * (nat * double))) :=
  match l with
  | [] => Ok []
  | x :: t => do a <- nearest ws (tr x); do r <- associate ws tr t; Ok ((x, a) :: r)
  end.

(** 449-468 [findMinSet]; refPoints is an unordered_map from RP to niche count. *)
Definition minNiche (rp : list (nat * Z)) : Z := fold_left (fun m x => Z.min m (snd x)) rp 4294967295.
Definition findMinSet (rp : list (nat * Z)) : list (nat * Z) :=
  filter (fun x => snd x =? minNiche rp) (umap_order std rp).
(** operator[](j)++ of the map (a missing key is inserted with 0). *)
Fixpoint bump (rp : list (nat * Z)) (j : nat) : list (nat * Z) :=
  match rp with
  | [] => [(j, 1)]
  | (i, c) :: t => if Nat.eqb i j then (i, c + 1) :: t else (i, c) :: bump t j
  end.
(** 415-424: the first candidate with the smallest distance. *)
Notation cand := (gene' * (nat * double))%type.
Definition c_rp (x : cand) : nat := fst (snd x).
Definition c_dist (x : cand) : double := snd (snd x).
Fixpoint minGene (best : cand) (l : list cand) : cand :=
  match l with
  | [] => best
  | x :: t => minGene (if flt (c_dist x) (c_dist best) then x else best) t
  end.
(** 426-437: pick a random candidate; [None] leaves pickedGene uninitialised. *)
Fixpoint pick (l : list cand) (n : Z) (g : G R) : option cand * G R :=
  match l with
  | [] => (None, g)
  | x :: t => let (d, g1) := rand01 R g in
              if fle (fmul d (d_of_Z n)) d1 then (Some x, g1) else pick t (n - 1) g1
  end.
(** 392-447 [nichePreservation].  [selected]: genes already selected; [fl]: the
    multimap of candidates, keyed by RP; [rp]: the map of niche counts. *)
Fixpoint niche (fuel : nat) (selected : list gene') (fl : list cand) (rp : list (nat * Z)) (g : G R)
  : res (list gene' * G R) :=
  if Z.of_nat (length selected) <? populationSize opt then            (* 406 *)
    match fuel with
    | O => Fuel
    | S f =>
        let ms := findMinSet rp in                                      (* 407 *)
        let (i, g1) := randIdx R (Z.of_nat (length ms)) g in            (* 408 *)
        match (if i <? 0 then None else nth_error ms (Z.to_nat i)) with
        | None => UB
        | Some (j, rho) =>
            match filter (fun e => Nat.eqb (c_rp e) j) (umap_order std fl) with   (* 411 *)
            | [] => niche f selected fl (filter (fun e => negb (Nat.eqb (fst e) j)) rp) g1   (* 444 *)
            | (e0 :: _) as eq =>
                let (picked, g2) :=
                  if rho =? 0 then (Some (minGene e0 eq), g1)
                  else pick eq (Z.of_nat (length eq)) g1 in
                match picked with
                | None => UB
                | Some e =>
                    niche f (selected ++ [fst e])                        (* 440 *)
                          (filter (fun x => negb (Nat.eqb (gid (fst x)) (gid (fst e)))) fl)   (* 441 *)
                          (bump rp j) g2                                 (* 442 *)
                end
            end
        end
    end
  else Ok (selected, g).
(** 192-196 of [__impl_select]: all counts start at 0; 395-397: count the
    selected genes. *)
Definition startCounts (n : nat) (sel : list cand) : list (nat * Z) :=
  fold_left (fun rp x => bump rp (c_rp x)) sel (map (fun i => (i, 0)) (seq 0 n)).

(** 185-204: normalize, associate, niche preservation. *)
Definition fillNiches (fuel : nat) (ws : list fitv) (selected Fl : list gene') (g : G R) : res (list gene' * G R) :=
  match Fl with
  | [] => UB                                                            (* Fl[0] *)
  | start :: _ =>
      let tr := translated start (umap_order std selected ++ Fl) in
      do asel <- associate ws tr (umap_order std selected);
      do afl <- associate ws tr Fl;
      niche fuel selected afl (startCounts (length ws) (umap_order std asel)) g
  end.

(** 117-233 [__impl_select]. *)
Definition nsga3_select (fuel : nat) (ws : list fitv) (c : core') : res core' :=
  let K := populationSize opt in
  let (_, layers) := divideLayers std M false (pop c) in               (* 146-147 *)
  match layers with
  | [] => UB                                                            (* 149: front() of an empty list *)
  | L0 :: _ =>
      let PFSize := Z.of_nat (length L0) in
      let pf1 := if PFSize <=? K then map gid L0 else ext c in          (* 151 *)
      do (selected, rest, need) <- takeLayers K [] layers;              (* 155-183 *)
      do (sel, g) <-
        (if need then
           match rest with
           | [] => UB
           | Fl :: _ => fillNiches fuel ws selected Fl (gen_rng c)      (* 185-204 *)
           end
         else Ok (selected, gen_rng c));
      let p' := filter (fun x => existsb (Nat.eqb (gid x)) (map gid sel)) (pop c) in    (* 206-213 *)
      let pf2 := if K <? PFSize then map gid (umap_order std sel) else pf1 in          (* 224-231 *)
      Ok (mkCore p' (next c) (fails c) pf2 g)
  end.
Definition nsga3_hooks (fuel : nat) (ws : list fitv) : hooks V fitv (list nat) (G R) :=
  mkHooks (nsga3_select fuel ws) (mo_bestFitness R M false).

(** NSGA3.hpp:103-106 [initializePop] (single layer): makeReferencePoses, then the
    base class. *)
Definition nsga3_init (fs : user_funs V fitv (G R)) (junk : fitv) (v0 : V) (precision : option nat) (c : core')
  : res (list fitv * core') :=
  do (ws, g) <- makePoses1 R M precision (gen_rng c);
  Ok (ws, initializePop R fs opt junk v0 (mkCore (pop c) (next c) (fails c) (ext c) g)).
(** The same for the double layer. *)
Definition nsga3_init2 (fs : user_funs V fitv (G R)) (junk : fitv) (v0 : V) (pi po : nat) (c : core')
  : res (list fitv * core') :=
  do (ws, g) <- makePoses2 R M pi po (gen_rng c);
  Ok (ws, initializePop R fs opt junk v0 (mkCore (pop c) (next c) (fails c) (ext c) g)).
End Model.
