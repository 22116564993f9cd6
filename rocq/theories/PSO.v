(** Model of PSO/PSOAbstrcat.hpp, PSO/PSO4Eigen.hpp, PSO/BoxWithVelocity.hpp and
    PSO/PSOOption.hpp, for decision variables whose coefficients are doubles.
    A variable is the list of its coefficients in storage order.
    PSO/PSO4std.hpp refers to members that do not exist ([_velocityMax],
    [_posMin]) and cannot be instantiated; it is not modelled. *)
From Coq Require Import List Arith ZArith Bool.
From Flocq Require Import BinarySingleNaN.
From Verif Require Import Base Fl Rng Box.
Import ListNotations.
Open Scope Z_scope.

(** PSOOption.hpp:36-62. *)
Record pso_option := mkPOpt {
  p_populationSize : Z; p_maxGeneration : Z; p_maxFailTimes : Z;
  inertiaFactor : double; learnFactorP : double; learnFactorG : double
}.
Definition default_pso_option : pso_option := {|
  p_populationSize := 200; p_maxGeneration := 300; p_maxFailTimes := 100;
  inertiaFactor := fdiv (d_of_Z 8) (d_of_Z 10);        (* literal 0.8 *)
  learnFactorP := d_of_Z 2; learnFactorG := d_of_Z 2
|}.

(** BoxWithVelocity.hpp:29-89 (square) and 91-168 (rectangle): per-coordinate
    bounds; the square box is the case of constant functions. *)
Record vbox := mkVBox {
  v_dim : Z; v_lo : nat -> double; v_hi : nat -> double; v_max : nat -> double
}.
Definition square_vbox (n : Z) (lo hi vm : double) : vbox :=
  mkVBox n (fun _ => lo) (fun _ => hi) (fun _ => vm).
(** 49-58, 66-69 [setPVRange]: asserts min < max and velocity > 0. *)
Definition set_square_pv (n : Z) (lo hi vm : double) : res vbox :=
  if flt lo hi then if flt d0 vm then Ok (square_vbox n lo hi vm) else Abort else Abort.
(** 110-124, 132-147 the rectangle versions check every coordinate. *)
Definition set_rect_pv (lo hi vm : list double) : res vbox :=
  if (length lo =? length hi)%nat && forallb (fun p => flt (fst p) (snd p)) (combine lo hi)
  then if forallb (fun v => flt d0 v) vm
       then Ok (mkVBox (Z.of_nat (length lo)) (fun i => nth i lo d0) (fun i => nth i hi d0) (fun i => nth i vm d0))
       else Abort
  else Abort.
(** The accessors: 37-43 posMin(), posMax() and 45, 47 posMin(int), posMax(int)
    of the square box (line 47 returns [_posMinS]); 97-108 of the rectangle. *)
Definition square_posMin (b : vbox) : double := v_lo b 0%nat.
Definition square_posMax (b : vbox) : double := v_hi b 0%nat.
Definition square_posMin_at (b : vbox) (i : nat) : double := v_lo b i.
Definition square_posMax_at (b : vbox) (i : nat) : double := v_lo b i.
Definition rect_posMin_at (b : vbox) (i : nat) : double := v_lo b i.
Definition rect_posMax_at (b : vbox) (i : nat) : double := v_hi b i.
Definition maxVelocity_at (b : vbox) (i : nat) : double := v_max b i.

(** 71-76 / 149-154 [applyConstraint4Position]; std::min(posMax, x), then
    std::max(posMin, x). *)
Definition clampPos (lo hi x : double) : double := dmax lo (dmin hi x).
(** 78-83 / 156-161 [applyConstraint4Velocity]: std::min(x, vmax), then
    std::max(x, -vmax). *)
Definition clampVel (vm x : double) : double := dmax (dmin x vm) (fopp vm).

Fixpoint mapi {A B} (f : nat -> A -> B) (k : nat) (l : list A) : list B :=
  match l with
  | [] => []
  | x :: t => f k x :: mapi f (S k) t
  end.
Definition constrainPos (b : vbox) (p : list double) : list double :=
  mapi (fun i x => clampPos (v_lo b i) (v_hi b i) x) 0 p.
Definition constrainVel (b : vbox) (v : list double) : list double :=
  mapi (fun i x => clampVel (v_max b i) x) 0 v.

(** PSOAbstrcat.hpp:74-95 Point and Particle. *)
Record point := mkPoint { position : list double; fitness : double }.
Record particle := mkParticle { here : point; velocity : list double; pBest : point }.

(** The part of the solver state that initializePop, updatePGBest and
    updatePopulation work on: PSOAbstrcat.hpp:200-219. *)
Record swarm (GG : Type) := mkSwarm {
  particles : list particle; gBest : point; p_fails : Z; p_rng : GG
}.
Arguments mkSwarm {GG}. Arguments particles {GG}. Arguments gBest {GG}.
Arguments p_fails {GG}. Arguments p_rng {GG}.
(** ... with [_generation] (202) and [_record] (415). *)
Record pso (GG : Type) := mkPSO { p_swarm : swarm GG; p_generation : Z; p_record : list double }.
Arguments mkPSO {GG}. Arguments p_swarm {GG}. Arguments p_generation {GG}. Arguments p_record {GG}.

(** PSO4Eigen.hpp:48-54 [isBetterThan]; [greater]: FITNESS_GREATER_BETTER. *)
Definition better (greater : bool) (a b : double) : bool := if greater then flt b a else flt a b.

(** Coefficient-wise Eigen operations assert that the sizes agree. *)
Definition map2 {A B C} (f : A -> B -> C) (a : list A) (b : list B) : list C :=
  map (fun p => f (fst p) (snd p)) (combine a b).
Definition vop (f : double -> double -> double) (a b : list double) : res (list double) :=
  if (length a =? length b)%nat then Ok (map2 f a b) else Abort.

Section Model.
Context (R : rng_ops) (greater : bool) (opt : pso_option) (b : vbox).
(** The user's iFun and fFun (or defaultInitialize below).  The fitness is a
    function of the position. *)
Variable iFun : G R -> (list double * list double) * G R.
Variable fFun : list double -> double.
Notation swarm' := (swarm (G R)).

(** PSOAbstrcat.hpp:303-334 [defaultInitialize]. *)
Fixpoint init_pos (n idx : nat) (g : G R) : list double * G R :=
  match n with
  | O => ([], g)
  | S m => let (x, g1) := randD_range R (v_lo b idx) (v_hi b idx) g in
           let (t, g2) := init_pos m (S idx) g1 in (x :: t, g2)
  end.
Definition defaultInitialize (g : G R) : (list double * list double) * G R :=
  let n := Z.to_nat (v_dim b) in
  let (p, g') := init_pos n 0 g in ((p, repeat d0 n), g').

(** PSOAbstrcat.hpp:178-192 [initializePop].  Every member of every particle is
    overwritten, so what [resize] keeps does not matter; [front()] of an empty
    population is undefined. *)
Fixpoint init_swarm (n : nat) (g : G R) : list particle * G R :=
  match n with
  | O => ([], g)
  | S m => let '((p, v), g1) := iFun g in
           let pt := mkPoint p (fFun p) in
           let (t, g2) := init_swarm m g1 in (mkParticle pt v pt :: t, g2)
  end.
Definition initializeSwarm (g : G R) : res swarm' :=
  let (ps, g') := init_swarm (Z.to_nat (p_populationSize opt)) g in
  match ps with
  | [] => UB
  | x :: _ => Ok (mkSwarm ps (here x) 0 g')
  end.

(** PSOAbstrcat.hpp:288-300 [__impl_computeAllFitness]. *)
Definition evaluate (x : particle) : particle :=
  mkParticle (mkPoint (position (here x)) (fFun (position (here x)))) (velocity x) (pBest x).
Definition computeAll (s : swarm') : swarm' :=
  mkSwarm (map evaluate (particles s)) (gBest s) (p_fails s) (p_rng s).

(** PSO4Eigen.hpp:60-79 [__impl_updatePGBest]. *)
Definition update_pBest (x : particle) : particle :=
  if better greater (fitness (here x)) (fitness (pBest x))
  then mkParticle (here x) (velocity x) (here x) else x.
(* [curGBest] points into the population: its value is read after the update
   of the particle it points into, which is only ever the current one *)
Fixpoint scan_best (cur : point) (ps : list particle) : point :=
  match ps with
  | [] => cur
  | x :: t => let pb := pBest (update_pBest x) in
              scan_best (if better greater (fitness pb) (fitness cur) then pb else cur) t
  end.
Definition updatePGBest (s : swarm') : res swarm' :=
  match particles s with
  | [] => UB
  | x :: _ =>
      let ps := map update_pBest (particles s) in
      (* line 61: curGBest = &front().pBest; the first iteration updates front
         through the same object before comparing it with itself *)
      let cur := scan_best (pBest (update_pBest x)) (particles s) in
      Ok (if better greater (fitness cur) (fitness (gBest s))
          then mkSwarm ps cur 0 (p_rng s)
          else mkSwarm ps (gBest s) (wrap64 (p_fails s + 1)) (p_rng s))
  end.

(** PSO4Eigen.hpp:91-108: one particle.  [w], [a], [c] are the three factors. *)
Definition vel_coef (w a c v pb gb x : double) : double :=
  fadd (fadd (fmul w v) (fmul a (fsub pb x))) (fmul c (fsub gb x)).
Fixpoint vel_raw (w a c : double) (v pb gb x : list double) : list double :=
  match v, pb, gb, x with
  | v1 :: vt, p1 :: pt, g1 :: gt, x1 :: xt => vel_coef w a c v1 p1 g1 x1 :: vel_raw w a c vt pt gt xt
  | _, _, _, _ => []
  end.
Definition move_particle (gb : point) (lFP lFG : double) (x : particle) : res particle :=
  let n := length (velocity x) in
  let p := position (here x) in
  if (length (position (pBest x)) =? n)%nat && (length (position gb) =? n)%nat && (length p =? n)%nat then
    let v := constrainVel b (vel_raw (inertiaFactor opt) (fmul (learnFactorP opt) lFP) (fmul (learnFactorG opt) lFG)
                                     (velocity x) (position (pBest x)) (position gb) p) in
    do p' <- vop (fun x d => fadd x d) p v;
    Ok (mkParticle (mkPoint (constrainPos b p') (fitness (here x))) v (pBest x))
  else Abort.
(** PSO4Eigen.hpp:85-109 [__impl_updatePopulation]. *)
Fixpoint move_all (gb : point) (ps : list particle) (g : G R) : res (list particle * G R) :=
  match ps with
  | [] => Ok ([], g)
  | x :: t => let (lFP, g1) := rand01 R g in
              let (lFG, g2) := rand01 R g1 in
              do y <- move_particle gb lFP lFG x;
              do r <- move_all gb t g2;
              Ok (y :: fst r, snd r)
  end.
Definition updatePopulation (s : swarm') : res swarm' :=
  do r <- move_all (gBest s) (particles s) (p_rng s);
  Ok (mkSwarm (fst r) (gBest s) (p_fails s) (snd r)).

(** PSOAbstrcat.hpp:233-267 [__impl_run], with the recording specialisation
    (424-439).  [vec_max]: std::vector<double>::max_size(). *)
Variable rec_on : bool.
Variable vec_max : Z.
Fixpoint pso_loop (fuel : nat) (s : pso (G R)) : res (pso (G R)) :=
  match fuel with
  | O => Fuel
  | S n =>
      let gen := wrap64 (p_generation s + 1) in                     (* 240 *)
      do c <- updatePGBest (computeAll (p_swarm s));                (* 241-242 *)
      let r := if rec_on then p_record s ++ [fitness (gBest c)] else p_record s in   (* 244 *)
      if (p_maxGeneration opt <? gen)                               (* 245 *)
         || ((0 <? p_maxFailTimes opt) && (p_maxFailTimes opt <? p_fails c))          (* 252 *)
      then Ok (mkPSO c (wrap64 (gen - 1)) r)                        (* 266 *)
      else do c' <- updatePopulation c; pso_loop n (mkPSO c' gen r) (* 264 *)
  end.
Definition pso_run (fuel : nat) (s : pso (G R)) : res (pso (G R)) :=
  let c := p_swarm s in
  if rec_on && (vec_max <? wrap64 (p_maxGeneration opt + 1)) then Abort               (* 427 *)
  else pso_loop fuel (mkPSO (mkSwarm (particles c) (gBest c) 0 (p_rng c)) 0
                            (if rec_on then [] else p_record s)).
Definition pso_initializePop (s : pso (G R)) : res (pso (G R)) :=
  do c <- initializeSwarm (p_rng (p_swarm s)); Ok (mkPSO c 0 (p_record s)).
End Model.
