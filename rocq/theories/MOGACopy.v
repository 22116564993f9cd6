(** Model of several NSGA2 or NSGA3 objects in one program: copy construction, copy
    assignment and destruction, mixed with the calls of MOGAObj.v.
    NSGA2 (NSGA2.hpp:76-85), NSGA3 (NSGA3.hpp:87-96) and their bases declare their
    destructors and no copy or move member, so the compiler writes member-wise copies
    and std::move(solver) copies as well.  The
    population is a std::list (GABase.hpp:152), whose copy has nodes of its own;
    [_pfGenes] (MOGAAbstract.hpp:148) is a set of pointers, whose copy still points to
    the nodes of the original. *)
From Coq Require Import List Arith ZArith Bool.
From Flocq Require Import BinarySingleNaN.
From Verif Require Import Base Fl Rng StdOps GABase MOGA NSGA3 MOGAObj.
Import ListNotations.
Open Scope Z_scope.

(** std::list::operator=: existing nodes are assigned, then new ones appended or the
    surplus erased.  With no existing node it is the copy constructor. *)
Fixpoint assign_nodes {V F} (ids : list nat) (n : nat) (src : list (gene V F)) : list (gene V F) :=
  match src with
  | [] => []
  | x :: t => match ids with
              | [] => mkGene n (gvar x) (gcomp x) (gfit x) :: assign_nodes [] (S n) t
              | k :: ids' => mkGene k (gvar x) (gcomp x) (gfit x) :: assign_nodes ids' n t
              end
  end.

Section World.
Context {V A : Type} (R : rng_ops) (std : std_ops) (lin : lin_ops) (M : nat) (k : kind) (rec_on : bool).
Context (junk : list double) (v0 : V) (vec_max : Z).
Notation fit := (list double).
Notation core' := (core V fit (list nat) (G R)).
Notation gene' := (gene V fit).
Notation obj' := (mobj (V := V) (A := A) R).

(** The objects in the order of their construction (None: destroyed); the allocator
    and the generator (Global/RandomDevice.hpp) are shared. *)
Record world := mkW { w_objs : list (option obj'); w_next : nat; w_rng : G R }.
Definition live_pop (x : option obj') : list gene' := match x with Some o => pop (mo_core R o) | None => [] end.
Definition with_core (o : obj') (c : core') : obj' :=
  mkMObj R (mo_opt R o) (mo_slots R o) (mo_args R o) (mo_prec R o) (mo_prec2 R o) (mo_refs R o) c (mo_gen R o) (mo_rec R o) (mo_ran R o).
(** The shared allocator and generator as the object's own. *)
Definition load (n : nat) (g : G R) (o : obj') : obj' :=
  let c := mo_core R o in with_core o (mkCore (pop c) n (fails c) (ext c) g).

Inductive event :=
| Construct (ct : slots (V := V) (A := A) R) (a : A)
| CopyOf (i : nat)                    (* solver_t b(objs[i]) *)
| AssignTo (i j : nat)                (* objs[i] = objs[j] *)
| Destroy (i : nat)
| Call (i : nat) (c : call (V := V) (A := A) R).

Definition assign_obj (n : nat) (g : G R) (old : list nat) (src : obj') : obj' :=
  let c := mo_core R src in
  with_core src (mkCore (assign_nodes old n (pop c)) (n + length (pop c)) (fails c) (ext c) g).
(** No call reads a node of another object: selection replaces [_pfGenes] without
    dereferencing it (NSGA2.hpp:181-275, NSGA3Abstract.hpp:117-233, NSGABase.hpp:153-170),
    and initializePop() clears it (MOGAAbstract.hpp:120).  Only the queries follow it. *)
Definition wstep (w : world) (e : event) : res world :=
  match e with
  | Construct ct a => Ok (mkW (w_objs w ++ [Some (fresh R ct a (w_rng w))]) (w_next w) (w_rng w))
  | CopyOf i =>
      match nth_error (w_objs w) i with
      | Some (Some o) => Ok (mkW (w_objs w ++ [Some (assign_obj (w_next w) (w_rng w) [] o)])
                                 (w_next w + length (pop (mo_core R o)))%nat (w_rng w))
      | _ => UB
      end
  | AssignTo i j =>
      match nth_error (w_objs w) i, nth_error (w_objs w) j with
      | Some (Some d), Some (Some s) =>
          if (i =? j)%nat then Ok w            (* the containers' operator= check for themselves *)
          else Ok (mkW (upd (w_objs w) i (Some (assign_obj (w_next w) (w_rng w) (map gid (pop (mo_core R d))) s)))
                       (w_next w + length (pop (mo_core R s)))%nat (w_rng w))
      | _, _ => UB
      end
  | Destroy i =>
      match nth_error (w_objs w) i with
      | Some (Some _) => Ok (mkW (upd (w_objs w) i None) (w_next w) (w_rng w))
      | _ => UB
      end
  | Call i c =>
      match nth_error (w_objs w) i with
      | Some (Some o) =>
          do o' <- step R std lin M k rec_on junk v0 vec_max (load (w_next w) (w_rng w) o) c;
          Ok (mkW (upd (w_objs w) i (Some o')) (next (mo_core R o')) (gen_rng (mo_core R o')))
      | _ => UB
      end
  end.
Fixpoint wdrive (w : world) (h : list event) : res world :=
  match h with
  | [] => Ok w
  | e :: t => do w' <- wstep w e; wdrive w' t
  end.
Definition start (g : G R) : world := mkW [] 0 g.

(** * Queries on object [i] *)
Definition object (w : world) (i : nat) : res obj' :=
  match nth_error (w_objs w) i with Some (Some o) => Ok o | _ => UB end.
(** All nodes that exist. *)
Definition heap (w : world) : list gene' := flat_map live_pop (w_objs w).
(** paretoFront(), MOGAAbstract.hpp:84-90: the nodes are read wherever they are. *)
Definition paretoFront_of (w : world) (i : nat) : res (list fit) :=
  do o <- object w i; derefs (heap w) (ext (mo_core R o)).
End World.
