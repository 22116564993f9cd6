(** The bodies of the five parallel loops as sequences of memory accesses, and
    the executions of a team of threads:
    Genetic/GABase.hpp:213-231, Genetic/NSGABase.hpp:105-118,
    PSO/PSOAbstrcat.hpp:287-294, PSO/PSO4Eigen.hpp:85-110, AOS/AOSBoxed.hpp:100-119.
    The user's fitness function is a function of the variable (and of arguments
    nobody writes).  A member is one location; the accesses of a body are in program
    order.  Memory is sequentially consistent, which C++ guarantees to race-free
    programs only; a race is undefined behaviour there. *)
From Coq Require Import List Arith ZArith Bool.
From Verif Require Import Base Fl Rng GABase MOGA PSO AOS.
Import ListNotations.

(** * Programs and teams *)
Inductive prog (L X : Type) := Done | Rd (l : L) (k : X -> prog L X) | Wr (l : L) (v : X) (k : prog L X).
Arguments Done {L X}. Arguments Rd {L X}. Arguments Wr {L X}.
Fixpoint andthen {L X} (p q : prog L X) : prog L X :=
  match p with
  | Done => q
  | Rd l k => Rd l (fun v => andthen (k v) q)
  | Wr l v k => Wr l v (andthen k q)
  end.
Definition chain {L X} (ps : list (prog L X)) : prog L X := fold_right andthen Done ps.
Fixpoint set_nth {A} (l : list A) (i : nat) (a : A) : list A :=
  match l, i with
  | [], _ => []
  | _ :: t, O => a :: t
  | x :: t, S j => x :: set_nth t j a
  end.

Section Team.
Context {L X : Type} (eqL : L -> L -> bool).
Definition store (m : L -> X) (l : L) (v : X) : L -> X := fun l' => if eqL l' l then v else m l'.
Definition state := ((L -> X) * list (prog L X))%type.
(** Thread [t] performs its next access (nothing if it has finished). *)
Definition tick (s : state) (t : nat) : state :=
  match nth_error (snd s) t with
  | Some (Rd l k) => (fst s, set_nth (snd s) t (k (fst s l)))
  | Some (Wr l v k) => (store (fst s) l v, set_nth (snd s) t k)
  | _ => s
  end.
(** A schedule says which thread performs the next access. *)
Definition interleave (sched : list nat) (s : state) : state := fold_left tick sched s.
Definition finished (s : state) : Prop := Forall (fun p => p = Done) (snd s).
(** What a thread is about to access; [true]: a write. *)
Definition next_access (p : prog L X) : option (L * bool) :=
  match p with Done => None | Rd l _ => Some (l, false) | Wr l _ _ => Some (l, true) end.
(** Two threads are about to access [l], at least one of them to write it. *)
Definition race_on (s : state) (l : L) : Prop :=
  exists t u p q w w', t <> u /\ nth_error (snd s) t = Some p /\ nth_error (snd s) u = Some q /\
    next_access p = Some (l, w) /\ next_access q = Some (l, w') /\ w || w' = true.
Definition racy (s : state) : Prop := exists l, race_on s l.
(** A loop over bodies: [teams] says which iterations each thread gets, in order. *)
Definition thread (body : nat -> prog L X) (its : list nat) : prog L X := chain (map body its).
Definition start (m : L -> X) (body : nat -> prog L X) (teams : list (list nat)) : state := (m, map (thread body) teams).
(** One thread alone, to the end. *)
Fixpoint solo (p : prog L X) (m : L -> X) : L -> X :=
  match p with
  | Done => m
  | Rd l k => solo (k (m l)) m
  | Wr l v k => solo k (store m l v)
  end.
End Team.

(** * Genetic/GABase.hpp:213-231: tasks are the genes not evaluated yet *)
Inductive ga_loc := GVar (i : nat) | GFit (i : nat) | GFlag (i : nat).
Definition ga_loc_eqb (a b : ga_loc) : bool :=
  match a, b with GVar i, GVar j | GFit i, GFit j | GFlag i, GFlag j => Nat.eqb i j | _, _ => false end.
Inductive ga_val (V F : Type) := XVar (v : V) | XFit (f : F) | XFlag (b : bool) | XNone.
Arguments XVar {V F}. Arguments XFit {V F}. Arguments XFlag {V F}. Arguments XNone {V F}.
Section GA.
Context {V F : Type} (fit : V -> F).
Definition ga_tasks (p : list (gene V F)) : list nat :=                            (* 215-223 *)
  filter (fun i => match nth_error p i with Some x => negb (gcomp x) | None => false end) (seq 0 (length p)).
Definition ga_mem (p : list (gene V F)) (l : ga_loc) : ga_val V F :=
  match l with
  | GVar i => match nth_error p i with Some x => XVar (gvar x) | None => XNone end
  | GFit i => match nth_error p i with Some x => XFit (gfit x) | None => XNone end
  | GFlag i => match nth_error p i with Some x => XFlag (gcomp x) | None => XNone end
  end.
Definition ga_body (tasks : list nat) (k : nat) : prog ga_loc (ga_val V F) :=      (* 226-231 *)
  let i := nth k tasks 0%nat in
  Rd (GVar i) (fun x => match x with
    | XVar v => Wr (GFit i) (XFit (fit v)) (Wr (GFlag i) (XFlag true) Done)
    | _ => Done end).
(** The population the memory holds (names of the genes from [p]). *)
Definition ga_read (m : ga_loc -> ga_val V F) (p : list (gene V F)) : list (gene V F) :=
  map (fun ix : nat * gene V F => let (i, x) := ix in
    mkGene (gid x) (match m (GVar i) with XVar v => v | _ => gvar x end)
           (match m (GFlag i) with XFlag b => b | _ => gcomp x end)
           (match m (GFit i) with XFit f => f | _ => gfit x end)) (combine (seq 0 (length p)) p).
End GA.

(** * Genetic/NSGABase.hpp:105-118 *)
Inductive ns_loc := NFit (i : nat) | NDom (i : nat).
Definition ns_loc_eqb (a b : ns_loc) : bool :=
  match a, b with NFit i, NFit j | NDom i, NDom j => Nat.eqb i j | _, _ => false end.
Inductive ns_val := YFit (f : list double) | YNum (n : nat).
Section NSGA.
Context {V : Type} (M : nat) (greater : bool).
Definition ns_mem (space : list (gene V (list double))) (old : nat -> nat) (l : ns_loc) : ns_val :=
  match l with
  | NFit i => YFit (match nth_error space i with Some x => gfit x | None => [] end)
  | NDom i => YNum (old i)
  end.
Definition ns_inner (ed : nat) (er : nat) : prog ns_loc ns_val :=                  (* 113-116 *)
  if Nat.eqb er ed then Done else
  Rd (NFit er) (fun a => Rd (NFit ed) (fun b => Rd (NDom ed) (fun n =>
    match a, b, n with
    | YFit fa, YFit fb, YNum k => Wr (NDom ed) (YNum (k + (if isStrongDominate M greater fa fb then 1 else 0))) Done
    | _, _, _ => Done end))).
Definition ns_body (n ed : nat) : prog ns_loc ns_val :=                            (* 110-117 *)
  Wr (NDom ed) (YNum 0) (chain (map (ns_inner ed) (seq 0 n))).
End NSGA.

(** * PSO/PSOAbstrcat.hpp:287-294 and PSO/PSO4Eigen.hpp:85-110.  The generator is
    one global object; a draw reads and writes it. *)
Inductive ps_loc := PPos (i : nat) | PFit (i : nat) | PVel (i : nat) | PBest (i : nat) | PGBest | PGen.
Definition ps_loc_eqb (a b : ps_loc) : bool :=
  match a, b with
  | PPos i, PPos j | PFit i, PFit j | PVel i, PVel j | PBest i, PBest j => Nat.eqb i j
  | PGBest, PGBest | PGen, PGen => true
  | _, _ => false end.
Inductive ps_val (GG : Type) := ZVec (v : list double) | ZNum (d : double) | ZGen (g : GG) | ZNone.
Arguments ZVec {GG}. Arguments ZNum {GG}. Arguments ZGen {GG}. Arguments ZNone {GG}.
Section PSO.
Context (R : rng_ops) (fit : list double -> double) (opt : pso_option) (b : PSO.vbox).
Notation pprog := (prog ps_loc (ps_val (G R))).
Definition ps_mem (ps : list particle) (gb : list double) (g : G R) (l : ps_loc) : ps_val (G R) :=
  match l with
  | PPos i => match nth_error ps i with Some x => ZVec (position (here x)) | None => ZNone end
  | PFit i => match nth_error ps i with Some x => ZNum (fitness (here x)) | None => ZNone end
  | PVel i => match nth_error ps i with Some x => ZVec (velocity x) | None => ZNone end
  | PBest i => match nth_error ps i with Some x => ZVec (position (pBest x)) | None => ZNone end
  | PGBest => ZVec gb
  | PGen => ZGen g
  end.
Definition ps_fit_body (i : nat) : pprog :=                                        (* PSOAbstrcat.hpp:291-294 *)
  Rd (PPos i) (fun x => match x with ZVec v => Wr (PFit i) (ZNum (fit v)) Done | _ => Done end).
Definition ps_draw (k : double -> pprog) : pprog :=                                (* Randoms.hpp randD() *)
  Rd PGen (fun x => match x with ZGen g => let (d, g') := rand01 R g in Wr PGen (ZGen g') (k d) | _ => Done end).
Definition ps_move_body (i : nat) : pprog :=                                       (* PSO4Eigen.hpp:90-108 *)
  ps_draw (fun lFP => ps_draw (fun lFG =>                                          (* 91 *)
  Rd (PVel i) (fun xv => Rd (PBest i) (fun xp => Rd (PGBest) (fun xg => Rd (PPos i) (fun xx =>
  match xv, xp, xg, xx with
  | ZVec v, ZVec pb, ZVec gb, ZVec p =>
      Wr (PVel i) (ZVec (vel_raw (inertiaFactor opt) (fmul (learnFactorP opt) lFP) (fmul (learnFactorG opt) lFG) v pb gb p))  (* 92-94 *)
     (Rd (PVel i) (fun yv => match yv with
      | ZVec v1 => Wr (PVel i) (ZVec (constrainVel b v1))                          (* 95 *)
     (Rd (PVel i) (fun zv => Rd (PPos i) (fun zp => match zv, zp with
      | ZVec v2, ZVec p2 => Wr (PPos i) (ZVec (map2 fadd p2 v2))                   (* 101 *)
     (Rd (PPos i) (fun wp => match wp with
      | ZVec p3 => Wr (PPos i) (ZVec (constrainPos b p3)) Done                     (* 103 *)
      | _ => Done end))
      | _, _ => Done end)))
      | _ => Done end))
  | _, _, _, _ => Done end)))))) .
(** The particles the memory holds. *)
Definition ps_read (m : ps_loc -> ps_val (G R)) (ps : list particle) : list particle :=
  map (fun ix : nat * particle => let (i, x) := ix in
    mkParticle (mkPoint (match m (PPos i) with ZVec v => v | _ => position (here x) end)
                        (match m (PFit i) with ZNum d => d | _ => fitness (here x) end))
               (match m (PVel i) with ZVec v => v | _ => velocity x end) (pBest x)) (combine (seq 0 (length ps)) ps).
End PSO.

(** * AOS/AOSBoxed.hpp:100-119: as the genes of a genetic solver, with an
    electron's state, energy and isComputed *)
Section AOS.
Definition as_gene (e : electron) : gene (list double) double := mkGene (eid e) (estate e) (ecomp e) (energy e).
Definition as_electron (x : gene (list double) double) : electron := mkElectron (gid x) (gvar x) (gfit x) (gcomp x).
End AOS.
