(** Model of several AOS objects in one program: copy construction, copy assignment,
    move construction, move assignment, swap and destruction, mixed with the calls of AOSObj.v.
    AOS (AOS/AOS.hpp:42-138), its bases and its boxes declare no destructor and no copy
    or move member, so the compiler writes member-wise ones.  The electrons are a
    std::list (AOSBoxed.hpp:91): a copy has nodes of its own, a move takes the nodes.
    [_layers] (57-68, 92) holds pointers to electrons and [_atomBestPtr] (95) is one;
    both copies still point to the electrons of the original.
    Simplifications: a solver that was moved from counts as destroyed (nothing is said
    about it); moving a solver onto itself counts as undefined (the lists' contents are
    unspecified then); the indeterminate members of a solver that was never initialised
    (AOSBoxed.hpp:93-98) may be copied. *)
From Coq Require Import List Arith ZArith Bool.
From Flocq Require Import BinarySingleNaN.
From Verif Require Import Base Fl Rng StdOps Box GABase AOS AOSSpec AOSObj.
Import ListNotations.
Open Scope Z_scope.

(** * run() when the best electron known so far is another solver's *)
(** AOS4EigenAndStd.hpp:40-69, 144-183: the only place of run() that follows the old
    [_atomBestPtr] (64, 178); [prev]: what is there. *)
Definition computeAtom_from {R : rng_ops} (E : env R) (prev : res electron) (s : aos (G R)) : res (aos (G R)) :=
  match electrons s with
  | [] => UB
  | e :: _ =>
      let n := d_of_Z (Z.of_nat (length (electrons s))) in
      do st <- sum_states E (map (fun _ => d0) (estate e)) (electrons s);
      let best := scan_best E e (electrons s) in
      do prev <- prev;
      Ok (mkAOS (electrons s) (e_next s) (layers s) (map (fun x => fdiv x n) st)
            (fdiv (sum_energy (electrons s)) n) (eid best) (a_gen s)
            (if feq (energy prev) (energy best) then wrap64 (a_stop s + 1) else 0)
            (a_record s) (a_rng s))
  end.
(** AOSBase.hpp:104-125, the first round. *)
Definition settle_from {R : rng_ops} (E : env R) (opt : aos_option) (prev : res electron) (s : aos (G R)) : res (aos (G R)) :=
  do s1 <- computeAtom_from E prev (compute E s); do s2 <- record_best E s1; selectAndMakeLayers E opt s2.

(** std::list::operator=: existing nodes are assigned, then new ones appended or the
    surplus erased.  With no existing node it is the copy constructor. *)
Fixpoint assign_nodes (ids : list nat) (n : nat) (src : list electron) : list electron :=
  match src with
  | [] => []
  | x :: t => match ids with
              | [] => mkElectron n (estate x) (energy x) (ecomp x) :: assign_nodes [] (S n) t
              | k :: ids' => mkElectron k (estate x) (energy x) (ecomp x) :: assign_nodes ids' n t
              end
  end.

Section World.
Context {A : Type} (R : rng_ops) (E0 : env R) (norm : G R -> double * G R).
Notation obj' := (@obj A R).
Notation aos' := (aos (G R)).

(** The function run() evaluates electrons with. *)
Definition fun_in (o : obj') : list double -> double := match o_f R o with None => no_fun | Some f => f (o_args R o) end.
Definition env_in (o : obj') : env R := env_with R E0 no_box (no_init R) (fun_in o).
(** [do_run] of AOSObj.v with the old best electron given. *)
Definition run_from (prev : res electron) (o : obj') : res obj' :=
  let opt := o_opt R o in
  let finish s := mkObj R opt (o_box R o) (o_i R o) (o_f R o) (o_args R o) s (o_inited R o) true in
  let none := match o_f R o with None => true | Some _ => false end in
  if none && existsb (fun e => negb (ecomp e)) (electrons (o_aos R o)) then UB
  else
    do s1 <- settle_from (env_in o) opt prev (o_aos R o);
    if shouldTerminate opt s1 then Ok (finish s1)
    else
      do b <- run_box (eigen E0) (negb (fle (photonRate opt) d0)) (o_box R o) (size_of (electrons s1));
      do s2 <- excite (env_with R E0 b (no_init R) (fun_in o)) opt s1;
      if none then UB
      else do s3 <- aos_run (env_with R E0 b (no_init R) (fun_in o)) opt (Z.to_nat (a_maxGeneration opt)) s2; Ok (finish s3).

(** The objects in the order of their construction (None: destroyed or moved from);
    the allocator and the generator (Global/RandomDevice.hpp) are shared. *)
Record world := mkW { w_objs : list (option obj'); w_next : nat; w_rng : G R }.
Definition live (x : option obj') : list electron := match x with Some o => electrons (o_aos R o) | None => [] end.
Definition with_aos (o : obj') (s : aos') : obj' :=
  mkObj R (o_opt R o) (o_box R o) (o_i R o) (o_f R o) (o_args R o) s (o_inited R o) (o_ran R o).
Definition with_electrons (s : aos') (es : list electron) (n : nat) (g : G R) : aos' :=
  mkAOS es n (layers s) (b_state s) (b_energy s) (atomBest s) (a_gen s) (a_stop s) (a_record s) g.
(** The shared allocator and generator as the object's own. *)
Definition load (n : nat) (g : G R) (o : obj') : obj' := with_aos o (with_electrons (o_aos R o) (electrons (o_aos R o)) n g).

Inductive event :=
| Construct (b : sbox) (i : init_src (A := A) R) (f : option (A -> list double -> double)) (a : A)
| CopyOf (i : nat)                    (* solver_t b(objs[i]) *)
| MoveOf (i : nat)                    (* solver_t b(std::move(objs[i])) *)
| AssignTo (i j : nat)                (* objs[i] = objs[j] *)
| MoveTo (i j : nat)                  (* objs[i] = std::move(objs[j]) *)
| Swap (i j : nat)                    (* std::swap(objs[i], objs[j]) *)
| Destroy (i : nat)
| Call (i : nat) (c : call (A := A) R).

Definition assign_obj (n : nat) (g : G R) (old : list nat) (src : obj') : obj' :=
  let s := o_aos R src in
  with_aos src (with_electrons s (assign_nodes old n (electrons s)) (n + length (electrons s)) g).
(** All electrons that exist. *)
Definition heap (w : world) : list electron := flat_map live (w_objs w).
(** The electron the solver holds to be the best when run() begins: its own, by then
    evaluated, or another solver's, whose energy may not have been computed. *)
Definition prev_of (w : world) (o : obj') : res electron :=
  match deref (map (evaluate (env_in o)) (electrons (o_aos R o))) (atomBest (o_aos R o)) with
  | Ok e => Ok e
  | _ => do e <- deref (heap w) (atomBest (o_aos R o)); if ecomp e then Ok e else UB
  end.
(** initializePop() clears the layers and sets the pointer without following it
    (AOSBase.hpp:46-74); the other calls do not touch electrons. *)
Definition wcall (w : world) (o : obj') (c : call (A := A) R) : res obj' :=
  match c with
  | Run _ => run_from (prev_of w o) (load (w_next w) (w_rng w) o)
  | _ => step R E0 norm (load (w_next w) (w_rng w) o) c
  end.
Definition wstep (w : world) (e : event) : res world :=
  match e with
  | Construct b i f a => Ok (mkW (w_objs w ++ [Some (fresh R E0 b i f a (w_rng w))]) (w_next w) (w_rng w))
  | CopyOf i =>
      match nth_error (w_objs w) i with
      | Some (Some o) => Ok (mkW (w_objs w ++ [Some (assign_obj (w_next w) (w_rng w) [] o)])
                                 (w_next w + length (electrons (o_aos R o)))%nat (w_rng w))
      | _ => UB
      end
  | MoveOf i =>
      match nth_error (w_objs w) i with
      | Some (Some o) => Ok (mkW (upd (w_objs w) i None ++ [Some o]) (w_next w) (w_rng w))
      | _ => UB
      end
  | AssignTo i j =>
      match nth_error (w_objs w) i, nth_error (w_objs w) j with
      | Some (Some d), Some (Some s) =>
          if (i =? j)%nat then Ok w            (* the containers' operator= check for themselves *)
          else Ok (mkW (upd (w_objs w) i (Some (assign_obj (w_next w) (w_rng w) (map eid (electrons (o_aos R d))) s)))
                       (w_next w + length (electrons (o_aos R s)))%nat (w_rng w))
      | _, _ => UB
      end
  (* std::list::operator=(list &&): the old nodes are freed, those of the source taken *)
  | MoveTo i j =>
      match nth_error (w_objs w) i, nth_error (w_objs w) j with
      | Some (Some _), Some (Some s) =>
          if (i =? j)%nat then UB
          else Ok (mkW (upd (upd (w_objs w) j None) i (Some s)) (w_next w) (w_rng w))
      | _, _ => UB
      end
  (* a move construction and two move assignments; nothing else runs in between *)
  | Swap i j =>
      match nth_error (w_objs w) i, nth_error (w_objs w) j with
      | Some (Some a), Some (Some b) => Ok (mkW (upd (upd (w_objs w) i (Some b)) j (Some a)) (w_next w) (w_rng w))
      | _, _ => UB
      end
  | Destroy i =>
      match nth_error (w_objs w) i with
      | Some (Some _) => Ok (mkW (upd (w_objs w) i None) (w_next w) (w_rng w))
      | _ => UB
      end
  | Call i c =>
      match nth_error (w_objs w) i with
      | Some (Some o) =>
          do o' <- wcall w o c;
          Ok (mkW (upd (w_objs w) i (Some o')) (e_next (o_aos R o')) (a_rng (o_aos R o')))
      | _ => UB
      end
  end.
Fixpoint wdrive (w : world) (h : list event) : res world :=
  match h with
  | [] => Ok w
  | e :: t => do w' <- wstep w e; wdrive w' t
  end.
Definition start (g : G R) : world := mkW [] 0 g.

(** * Queries on object [i]: the electrons are read wherever they are *)
Definition object (w : world) (i : nat) : res obj' :=
  match nth_error (w_objs w) i with Some (Some o) => Ok o | _ => UB end.
(** AOSBoxed.hpp:76 [bestElectron]. *)
Definition bestElectron_of (w : world) (i : nat) : res electron :=
  do o <- object w i; if o_inited R o then deref (heap w) (atomBest (o_aos R o)) else UB.
(** AOSBoxed.hpp:84 [layers], every electron of every layer read. *)
Definition layers_of (w : world) (i : nat) : res (list (list electron)) :=
  do o <- object w i; mapM (fun l => mapM (deref (heap w)) (members l)) (layers (o_aos R o)).
End World.
