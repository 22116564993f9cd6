(** Model of EAGlobal/Pareto.hpp, Genetic/MOGAAbstract.hpp, MOGABase.hpp,
    NSGABase.hpp and NSGA2.hpp. *)
From Coq Require Import List Arith ZArith Bool.
From Flocq Require Import BinarySingleNaN.
From Verif Require Import Base Fl Rng StdOps GABase.
Import ListNotations.
Open Scope Z_scope.

(** A fitness value: an Eigen array of [M] doubles (M = ObjNum, or the runtime
    objective number).  [obj f i] is f[i]; arrays always have M entries
    (hypothesis of the theorems), so the default is never read. *)
Notation fitv := (list double).
Definition obj (f : fitv) (i : nat) : double := nth i f dnan.

(** Pareto.hpp:59-70 [isStrongDominate]: Eigen's .all() and .any() range over
    the M coefficients. *)
Definition notWorse1 (greater : bool) (a b : double) : bool := if greater then fle b a else fle a b.
Definition better1 (greater : bool) (a b : double) : bool := if greater then flt b a else flt a b.
Definition isStrongDominate (M : nat) (greater : bool) (a b : fitv) : bool :=
  forallb (fun i => notWorse1 greater (obj a i) (obj b i)) (seq 0 M) &&
  existsb (fun i => better1 greater (obj a i) (obj b i)) (seq 0 M).

(** std::list::erase of one node. *)
Fixpoint m_erase1 {V F} (p : list (gene V F)) (id : nat) : res (list (gene V F)) :=
  match p with
  | [] => UB
  | x :: t => if Nat.eqb (gid x) id then Ok t else do t' <- m_erase1 t id; Ok (x :: t')
  end.
Fixpoint m_erase_all {V F} (p : list (gene V F)) (ids : list nat) : res (list (gene V F)) :=
  match ids with
  | [] => Ok p
  | i :: t => do p' <- m_erase1 p i; m_erase_all p' t
  end.

Section Model.
Context {V : Type} (R : rng_ops) (std : std_ops) (M : nat) (greater : bool) (opt : ga_option).
(** [ext] is [_pfGenes], a set of node addresses (MOGAAbstract.hpp:147). *)
Notation core' := (core V fitv (list nat) (G R)).
Notation gene' := (gene V fitv).
Definition dom (a b : gene') : bool := isStrongDominate M greater (gfit a) (gfit b).

(** MOGAAbstract.hpp:135-145 [bestFitness]; Eigen's coefficient-wise max / min. *)
Definition fmax2 (a b : double) : double := if flt a b then b else a.
Definition fmin2 (a b : double) : double := if flt b a then b else a.
Definition cwise (f : double -> double -> double) (a b : fitv) : fitv :=
  map (fun i => f (obj a i) (obj b i)) (seq 0 M).
Definition mo_bestFitness (c : core') : res fitv :=
  match pop c with
  | [] => UB                                       (* front() of an empty list *)
  | x :: _ => Ok (fold_left (fun best i => cwise (if greater then fmax2 else fmin2) best (gfit i)) (pop c) (gfit x))
  end.

(** MOGAAbstract.hpp:84-90 [paretoFront]: dereferences every element of _pfGenes.
    (The other overload, 99-107, names a member [self] that no gene type has; it
    does not compile when used and is not modelled.) *)
Fixpoint derefs (p : list gene') (ids : list nat) : res (list fitv) :=
  match ids with
  | [] => Ok []
  | i :: t => match find (fun x => Nat.eqb (gid x) i) p with
              | None => UB
              | Some x => do r <- derefs p t; Ok (gfit x :: r)
              end
  end.
Definition paretoFront (c : core') : res (list fitv) := derefs (pop c) (ext c).

(** NSGABase.hpp:105-130 [calculateDominatedNum]: a gene and the number of others
    dominating it.  [er == ed] is equality of positions, i.e. of nodes.  (The
    OpenMP version computes the same numbers, each written by one task only.) *)
Definition dominatedNum (space : list gene') (x : gene') : nat :=
  length (filter (fun er => negb (Nat.eqb (gid er) (gid x)) && dom er x) space).
Definition withNum (space : list gene') : list (gene' * nat) := map (fun x => (x, dominatedNum space x)) space.

(** NSGABase.hpp:98-100, 136-149 [divideLayers]: sort by count, cut where the
    count changes (curDM starts at size_t(-1), which no count equals). *)
Definition numLess (a b : gene' * nat) : bool := Nat.ltb (snd a) (snd b).
Fixpoint group (s : list (gene' * nat)) (cur : option nat) (back : list gene') : list (list gene') :=
  match s with
  | [] => match cur with None => [] | Some _ => [back] end
  | (x, n) :: t =>
      match cur with
      | None => group t (Some n) [x]
      | Some m => if Nat.eqb m n then group t cur (back ++ [x]) else back :: group t (Some n) [x]
      end
  end.
Definition layers_of (sorted : list (gene' * nat)) : list (list gene') := group sorted None [].
(** The sorted sortSpace and the layers. *)
Definition divideLayers (space : list gene') : list gene' * list (list gene') :=
  let s := sort std numLess (withNum space) in (map fst s, layers_of s).

(** NSGA2.hpp:207-224: take whole layers while they fit.  The result tells
    whether congestion is needed. *)
Fixpoint takeLayers (K : Z) (selected : list gene') (ls : list (list gene'))
  : res (list gene' * list (list gene') * bool) :=
  if Z.of_nat (length selected) =? K then Ok (selected, ls, false)
  else match ls with
       | [] => UB                                  (* pfLayers.front() of an empty list *)
       | L :: rest => if K <? Z.of_nat (length selected) + Z.of_nat (length L)
                      then Ok (selected, ls, true)
                      else takeLayers K (selected ++ L) rest
       end.

(** Congestion, a member of the gene: a map from nodes to doubles. *)
Definition cmap := nat -> double.
Definition cset (m : cmap) (id : nat) (v : double) : cmap := fun i => if Nat.eqb i id then v else m i.
Definition fabs (x : double) : double := Babs x.
Definition pinfD : double := dinf.
(** NSGA2.hpp:232 [1e-10]: the double nearest to 10^-10. *)
Definition eps10 : double := fdiv d1 (d_of_Z 10000000000).
(** 238-245, the inner loop, over consecutive triples of the sorted space. *)
Fixpoint addGaps (o : nat) (scale : double) (s : list gene') (m : cmap) : cmap :=
  match s with
  | a :: ((b :: c :: _) as t) =>
      addGaps o scale t
        (cset m (gid b) (fadd (m (gid b)) (fdiv (fabs (fsub (obj (gfit a) o) (obj (gfit c) o))) scale)))
  | _ => m
  end.
(** 230-246: one objective.  Sorting by an objective that is NaN somewhere is
    undefined.  The sorted space is the input of the next sort. *)
Definition fitLess (o : nat) (a b : gene') : bool := flt (obj (gfit a) o) (obj (gfit b) o).
Definition crowdObj (o : nat) (st : list gene' * cmap) : res (list gene' * cmap) :=
  let (sp, m) := st in
  if existsb (fun x => is_nan (obj (gfit x) o)) sp then UB else
  let s := sort std (fitLess o) sp in
  match s with
  | [] => UB
  | f :: _ =>
      let b := last s f in
      let scale := fadd (fabs (fsub (obj (gfit f) o) (obj (gfit b) o))) eps10 in
      let m1 := cset (cset m (gid f) pinfD) (gid b) pinfD in
      Ok (s, addGaps o scale s m1)
  end.
Fixpoint crowdAll (os : list nat) (st : list gene' * cmap) : res (list gene' * cmap) :=
  match os with
  | [] => Ok st
  | o :: t => do st' <- crowdObj o st; crowdAll t st'
  end.

(** 250-256: sort the cut layer by congestion (undefined when one is NaN) and
    fill up. *)
Definition congMore (m : cmap) (a b : gene') : bool := flt (m (gid b)) (m (gid a)).
Fixpoint fillUp (K : Z) (selected : list gene') (l : list gene') : res (list gene') :=
  if Z.of_nat (length selected) <? K then
    match l with
    | [] => UB
    | x :: t => fillUp K (selected ++ [x]) t
    end
  else Ok selected.

(** NSGA2.hpp:181-278 [__impl_select]. *)
Definition nsga2_select (c : core') : res core' :=
  let K := populationSize opt in
  let (space, layers) := divideLayers (pop c) in
  match layers with
  | [] => UB                                       (* 202: front() of an empty list *)
  | L0 :: _ =>
      let PFSize := Z.of_nat (length L0) in
      let pf1 := if PFSize <=? K then map gid L0 else ext c in              (* 203 *)
      do (selected, rest, need) <- takeLayers K [] layers;                 (* 206-224 *)
      do (space', sel) <-
        (if need then
           do (sp, m) <- crowdAll (seq 0 M) (space, fun _ => d0);          (* 190-193, 226-246 *)
           match rest with
           | [] => UB
           | L :: _ =>
               if existsb (fun x => is_nan (m (gid x))) L then UB else
               do sel <- fillUp K selected (sort std (congMore m) L);       (* 248-256 *)
               Ok (sp, sel)
           end
         else Ok (space, selected));
      let ids := map gid sel in
      do p' <- m_erase_all (pop c)
                 (map gid (filter (fun x => negb (existsb (Nat.eqb (gid x)) ids)) space'));  (* 261-265 *)
      let pf2 := if K <? PFSize then map gid (umap_order std sel) else pf1 in (* 267-274 *)
      Ok (mkCore p' (next c) (fails c) pf2 (gen_rng c))
  end.

Definition nsga2_hooks : hooks V fitv (list nat) (G R) := mkHooks nsga2_select mo_bestFitness.
End Model.
