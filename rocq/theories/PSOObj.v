(** Model of a PSO solver object as its user drives it: construction, the box
    and option setters, the functions and the custom arguments, initializePop()
    and run(), in any order.
    PSO/PSO.hpp, PSO/PSOAbstrcat.hpp, PSO/PSOParameterPack.hpp,
    PSO/BoxWithVelocity.hpp, Global/FunBody.hpp. *)
From Coq Require Import List Arith ZArith Bool.
From Flocq Require Import BinarySingleNaN.
From Verif Require Import Base Fl Rng Box PSO.
Import ListNotations.
Open Scope Z_scope.

(** * The box *)
(** Box4PSO (BoxWithVelocity.hpp:340-352): the four base classes that can be
    instantiated.  The dynamic rectangle (231-336) names a member velocityMax()
    that does not exist. *)
Inductive kind :=
| SqFixed (n : Z)          (* 170-176 *)
| SqVec                    (* 178-191 *)
| SqMat                    (* 193-214 *)
| RectFixed (n : Z).       (* 222-229 *)

(** 85-88, 163-167, 190, 212-213: no constructor writes these members; None is a
    value never written.  The square box has one value for all coordinates. *)
Record members := mkMem {
  m_dim : option Z; m_rc : option (Z * Z);
  m_lo : nat -> option double; m_hi : nat -> option double; m_vm : nat -> option double
}.
Definition fresh_members : members := mkMem None None (fun _ => None) (fun _ => None) (fun _ => None).

(** The calls; a Poke writes through the reference that the non-const posMin()
    (37), posMax() (41), maxVelocity() (60) return; a Write assigns the whole
    vector through it (97, 103, 132), a WriteAt one coefficient.
    Rectangle setRange/setPVRange (110-127, 144-147) test array_traits::isSizeFixed,
    which does not exist: they do not compile. *)
Inductive box_call :=
| SetRange (lo hi : double) | SetMaxVelocity (vm : double) | SetPVRange (lo hi vm : double)
| PokeMin (x : double) | PokeMax (x : double) | PokeVel (x : double)
| SetDimensions (d : Z) | SetDimensions2 (r c : Z)
| RSetMaxVelocity (vm : list double)
| WriteMin (v : list double) | WriteMax (v : list double) | WriteVel (v : list double)
| WriteMinAt (i : nat) (x : double) | WriteMaxAt (i : nat) (x : double) | WriteVelAt (i : nat) (x : double).

(** Which calls compile (and, for vectors, have the fixed size / a valid index). *)
Definition has_box_call (k : kind) (c : box_call) : bool :=
  match k, c with
  | (SqFixed _ | SqVec | SqMat), (SetRange _ _ | SetMaxVelocity _ | SetPVRange _ _ _ | PokeMin _ | PokeMax _ | PokeVel _) => true
  | SqVec, SetDimensions _ => true
  | SqMat, SetDimensions2 _ _ => true
  | RectFixed n, (RSetMaxVelocity v | WriteMin v | WriteMax v | WriteVel v) => Z.of_nat (length v) =? n
  | RectFixed n, (WriteMinAt i _ | WriteMaxAt i _ | WriteVelAt i _) => Z.of_nat i <? n
  | _, _ => false
  end.

Definition all {X} (x : X) : nat -> option X := fun _ => Some x.
Definition upd {X} (f : nat -> option X) (i : nat) (x : X) : nat -> option X :=
  fun j => if (j =? i)%nat then Some x else f j.
Definition with_lo m f := mkMem (m_dim m) (m_rc m) f (m_hi m) (m_vm m).
Definition with_hi m f := mkMem (m_dim m) (m_rc m) (m_lo m) f (m_vm m).
Definition with_vm m f := mkMem (m_dim m) (m_rc m) (m_lo m) (m_hi m) f.

Definition apply_box (m : members) (c : box_call) : res members :=
  match c with
  | SetRange lo hi =>                                                   (* 49-53 *)
      if flt lo hi then Ok (with_hi (with_lo m (all lo)) (all hi)) else Abort
  | SetMaxVelocity vm =>                                                (* 66-69 *)
      if flt d0 vm then Ok (with_vm m (all vm)) else Abort
  | SetPVRange lo hi vm =>                                              (* 55-58 *)
      if flt lo hi then if flt d0 vm then Ok (with_vm (with_hi (with_lo m (all lo)) (all hi)) (all vm)) else Abort else Abort
  | PokeMin x => Ok (with_lo m (all x))                                 (* 37 *)
  | PokeMax x => Ok (with_hi m (all x))                                 (* 41 *)
  | PokeVel x => Ok (with_vm m (all x))                                 (* 60 *)
  | SetDimensions d =>                                                  (* 184-187 *)
      if 0 <? d then Ok (mkMem (Some d) (m_rc m) (m_lo m) (m_hi m) (m_vm m)) else Abort
  | SetDimensions2 r c =>                                               (* 203-209 *)
      if 0 <? r then if 0 <? c then Ok (mkMem (m_dim m) (Some (r, c)) (m_lo m) (m_hi m) (m_vm m)) else Abort else Abort
  | RSetMaxVelocity v =>                                                (* 135-145 *)
      if forallb (fun x => flt d0 x) v then Ok (with_vm m (nth_error v)) else Abort
  | WriteMin v => Ok (with_lo m (nth_error v))
  | WriteMax v => Ok (with_hi m (nth_error v))
  | WriteVel v => Ok (with_vm m (nth_error v))
  | WriteMinAt i x => Ok (with_lo m (upd (m_lo m) i x))
  | WriteMaxAt i x => Ok (with_hi m (upd (m_hi m) i x))
  | WriteVelAt i x => Ok (with_vm m (upd (m_vm m) i x))
  end.
Fixpoint apply_boxes (m : members) (h : list box_call) : res members :=
  match h with
  | [] => Ok m
  | c :: t => do m' <- apply_box m c; apply_boxes m' t
  end.

(** 175, 182, 199, 228 [dimensions()]; the product of two ints may overflow. *)
Definition dims (k : kind) (m : members) : res Z :=
  match k with
  | SqFixed n | RectFixed n => Ok n
  | SqVec => match m_dim m with Some d => Ok d | None => UB end
  | SqMat => match m_rc m with
             | Some (r, c) => if r * c <=? 2147483647 then Ok (r * c) else UB
             | None => UB end
  end.
Definition get {X} (o : option X) : res X := match o with Some x => Ok x | None => UB end.
(** 39, 43 posMin(), posMax(); 45, 47 posMin(int), posMax(int) (47 returns
    [_posMinS]); 62, 64 maxVelocity of the square box; 101, 107, 133 of the
    rectangle. *)
Definition posMin_sq (m : members) : res double := get (m_lo m 0%nat).
Definition posMax_sq (m : members) : res double := get (m_hi m 0%nat).
Definition posMin_at (m : members) (i : nat) : res double := get (m_lo m i).
Definition posMax_at (k : kind) (m : members) (i : nat) : res double :=
  match k with RectFixed _ => get (m_hi m i) | _ => get (m_lo m i) end.
Definition maxVelocity_of (m : members) (i : nat) : res double := get (m_vm m i).

(** The members as the box of PSO.v, on coordinates that have been written. *)
Definition value (o : option double) : double := match o with Some x => x | None => d0 end.
Definition box_of (m : members) (n : Z) : vbox :=
  mkVBox n (fun i => value (m_lo m i)) (fun i => value (m_hi m i)) (fun i => value (m_vm m i)).
Definition written (f : nat -> option double) (n : nat) : bool :=
  forallb (fun i => match f i with Some _ => true | None => false end) (seq 0 n).

(** * The object *)
Section Obj.
Context {A : Type} (R : rng_ops) (k : kind) (greater rec_on : bool) (vec_max : Z) (junk : point).

(** The template argument _iFun_ (PSO.hpp:136-138, PSOAbstrcat.hpp:341-349): the
    reserved symbol that means defaultInitialize, a function, or nullptr, and in
    the last case the pointer set by setiFun(), which may be null or the reserved
    symbol, whose body asserts false (PSOParameterPack.hpp:82-89). *)
Definition init_fun := A -> G R -> (list double * list double) * G R.
Inductive iptr := INull | IReserved | IUser (f : init_fun).
Inductive init_src := IDefault | IFixed (f : init_fun) | IPointer (p : iptr).

Record obj := mkObj {
  o_opt : pso_option; o_mem : members; o_i : init_src; o_f : option (A -> list double -> double); o_args : A;
  o_pso : pso (G R); o_inited : bool
}.
(** PSOAbstrcat.hpp:197-219: _option has its default values, the population and
    the record are empty, _generation, _failTimes and gBest are not written. *)
Definition fresh (i : init_src) (f : option (A -> list double -> double)) (a : A) (g : G R) : obj :=
  mkObj default_pso_option fresh_members i f a (mkPSO (mkSwarm [] junk 0 g) 0 []) false.

Inductive call :=
| BoxCall (c : box_call)
| SetOption (o : pso_option)              (* PSOAbstrcat.hpp:103 *)
| SetIFun (p : iptr)                      (* FunBody.hpp:63 *)
| SetFFun (f : option (A -> list double -> double))
| SetArgs (a : A)                         (* PSOParameterPack.hpp:95 *)
| OtherDraws (g : G R)                    (* other users of the global generator *)
| InitializePop
| Run.

(** The members the class has; [fi]: _fFun_ is a template argument. *)
Definition has_member (i : init_src) (fixed_f : bool) (c : call) : bool :=
  match c with
  | BoxCall b => has_box_call k b
  | SetIFun _ => match i with IPointer _ => true | _ => false end
  | SetFFun _ => negb fixed_f
  | _ => true
  end.

(** PSOAbstrcat.hpp:178-192.  Allocation failures are not modelled. *)
Definition do_init (o : obj) : res obj :=
  let opt := o_opt o in
  let finish i f :=
    do s <- pso_initializePop R opt i f (o_pso o);
    Ok (mkObj opt (o_mem o) (o_i o) (o_f o) (o_args o) s true) in
  let with_f i := match o_f o with Some f => finish i (f (o_args o)) | None => UB end in
  if p_populationSize opt =? 0 then UB                                  (* 189: front() *)
  else match o_i o with
  | IDefault =>                                                         (* 303-334 *)
      do n <- dims k (o_mem o);
      if written (m_lo (o_mem o)) (Z.to_nat n) && written (m_hi (o_mem o)) (Z.to_nat n)
      then with_f (defaultInitialize R (box_of (o_mem o) n)) else UB
  | IFixed i | IPointer (IUser i) => with_f (i (o_args o))
  | IPointer INull => UB
  | IPointer IReserved => Abort
  end.

(** PSOAbstrcat.hpp:233-267.  The box is first read by updatePopulation (PSO4Eigen.hpp:95-103)
    for as many coordinates as a particle has.  The second round is reached iff
    maxGeneration >= 1 (C85_box_read_iff_moves), so a box member that was never
    written is read exactly then. *)
Definition width (ps : list particle) : nat := fold_right Nat.max O (map (fun x => length (velocity x)) ps).
Definition do_run (o : obj) : res obj :=
  let opt := o_opt o in
  let n := width (particles (p_swarm (o_pso o))) in
  let m := o_mem o in
  match o_f o with
  | None => UB                       (* empty population: front(); otherwise a call through nullptr *)
  | Some f =>
      if (p_maxGeneration opt =? 0) || (written (m_lo m) n && written (m_hi m) n && written (m_vm m) n)
      then do s <- pso_run R greater opt (box_of m (Z.of_nat n)) (f (o_args o)) rec_on vec_max
                     (S (Z.to_nat (p_maxGeneration opt))) (o_pso o);
           Ok (mkObj opt m (o_i o) (o_f o) (o_args o) s true)
      else UB
  end.

Definition step (o : obj) (c : call) : res obj :=
  match c with
  | BoxCall b => do m <- apply_box (o_mem o) b;
                 Ok (mkObj (o_opt o) m (o_i o) (o_f o) (o_args o) (o_pso o) (o_inited o))
  | SetOption p => Ok (mkObj p (o_mem o) (o_i o) (o_f o) (o_args o) (o_pso o) (o_inited o))
  | SetIFun p => Ok (mkObj (o_opt o) (o_mem o) (IPointer p) (o_f o) (o_args o) (o_pso o) (o_inited o))
  | SetFFun f => Ok (mkObj (o_opt o) (o_mem o) (o_i o) f (o_args o) (o_pso o) (o_inited o))
  | SetArgs a => Ok (mkObj (o_opt o) (o_mem o) (o_i o) (o_f o) a (o_pso o) (o_inited o))
  | OtherDraws g => let s := o_pso o in let w := p_swarm s in
      Ok (mkObj (o_opt o) (o_mem o) (o_i o) (o_f o) (o_args o)
            (mkPSO (mkSwarm (particles w) (gBest w) (p_fails w) g) (p_generation s) (p_record s)) (o_inited o))
  | InitializePop => do_init o
  | Run => do_run o
  end.
Fixpoint drive (o : obj) (h : list call) : res obj :=
  match h with
  | [] => Ok o
  | c :: t => do o' <- step o c; drive o' t
  end.

(** * Queries: PSOAbstrcat.hpp:117-140, PSO.hpp:160, PSOAbstrcat.hpp:411. *)
Definition get_generation (o : obj) : res Z := if o_inited o then Ok (p_generation (o_pso o)) else UB.
Definition get_failTimes (o : obj) : res Z := if o_inited o then Ok (p_fails (p_swarm (o_pso o))) else UB.
Definition get_globalBest (o : obj) : res point := if o_inited o then Ok (gBest (p_swarm (o_pso o))) else UB.
Definition get_bestFitness (o : obj) : res double := do p <- get_globalBest o; Ok (fitness p).
Definition get_population (o : obj) : list particle := particles (p_swarm (o_pso o)).
Definition get_record (o : obj) : list double := p_record (o_pso o).
End Obj.
