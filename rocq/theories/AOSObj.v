(** Model of an AOS solver object as its user drives it: construction, the box
    (square, rectangle or infinite) and its setters, option, functions and
    arguments, initializePop() and run(), in any order.
    AOS/AOS.hpp, AOS/AOSBase.hpp, AOS/AOSBoxed.hpp, AOS/AOS4EigenAndStd.hpp,
    AOS/AOSParameterPack.hpp, AOS/AOSOption.hpp, Global/FunBody.hpp.
    The boxes are those of BoxObj.v, the solver's rounds those of AOS.v.
    Simplifications: of the shape of an Eigen variable only the number of
    coefficients is modelled; allocation failures are not modelled; see also
    [run_box]. *)
From Coq Require Import List Arith ZArith Bool.
From Flocq Require Import BinarySingleNaN.
From Verif Require BoxObj.
From Verif Require Import Base Fl Rng StdOps Box AOS AOSSpec.
Import ListNotations.
Open Scope Z_scope.

(** * The box *)
(** AOS.hpp:141-165: AOS_square and AOS_rect have a ContinousBox, AOS_inf a
    GaussianBox; the solver inherits its members (AOSBoxed.hpp:46). *)
Inductive sbox := Cont (k : BoxObj.kind) (b : BoxObj.box) | Inf (b : BoxObj.gbox).
Inductive box_call := CCall (c : BoxObj.bcall) | GCall (c : BoxObj.gcall).
Definition has_box_call (b : sbox) (c : box_call) : bool :=
  match b, c with Cont k _, CCall c => BoxObj.has_call k c | Inf _, GCall _ => true | _, _ => false end.
(** A call that the class does not have leaves the model unchanged (it does not compile). *)
Definition box_step (b : sbox) (c : box_call) : res sbox :=
  match b, c with
  | Cont k b, CCall c => do b' <- BoxObj.bstep k b c; Ok (Cont k b')
  | Inf b, GCall c => do b' <- BoxObj.gstep b c; Ok (Inf b')
  | _, _ => Ok b
  end.
Fixpoint box_steps (b : sbox) (h : list box_call) : res sbox :=
  match h with [] => Ok b | c :: t => do b' <- box_step b c; box_steps b' t end.
Definition fresh_box (k : BoxObj.kind) : sbox := Cont k (BoxObj.fresh k).
Definition fresh_inf (fx : option (Z * Z)) : sbox := Inf (BoxObj.g_fresh fx).

Definition have (f : nat -> res double) (n : nat) : bool :=
  forallb (fun i => match f i with Ok _ => true | _ => false end) (seq 0 n).
Definition val (r : res double) : double := match r with Ok x => x | _ => d0 end.
(** The box as update-electrons reads it for variables with [n] coefficients.
    [moves]: photonRate is not <= 0, so that a move without photon can be drawn;
    AOS4EigenAndStd.hpp:123-131, 258-270 then read delta.  Every applyConstraint
    reads dimensions() and the bounds (BoxConstraint.hpp:61-66); that of the
    infinite box reads nothing (744), but AOS4Std uses dimensions() itself
    (225-252, 264).
    Simplifications: a delta never written counts as read as soon as [moves],
    although the draws decide; with std containers a variable whose size is not
    dimensions() counts as undefined. *)
Definition run_box (eig moves : bool) (B : sbox) (n : nat) : res dbox :=
  match B with
  | Cont k b =>
      do m <- BoxObj.dimensions k b;
      if negb (m =? Z.of_nat n) then (if eig then Abort else UB)
      else if negb (have (BoxObj.min_at k b) n && have (BoxObj.max_at k b) n) then UB
      else if moves && negb (have (BoxObj.delta_at k b) n) then UB
      else if moves && eig && negb (BoxObj.sq k) && negb (BoxObj.asize (BoxObj.v_delta b) =? m) then Abort   (* 126: sizes differ *)
      else Ok (mkDBox m (fun i => val (BoxObj.min_at k b i)) (fun i => val (BoxObj.max_at k b i)) (fun i => val (BoxObj.delta_at k b i)))
  | Inf b =>
      do m <- (if eig then Ok (Z.of_nat n) else BoxObj.g_dims b);
      if negb (m =? Z.of_nat n) then UB
      else if moves && match BoxObj.g_delta b with Some _ => false | None => true end then UB
      else Ok (square_dbox m (B754_infinity true) (B754_infinity false) (val (BoxObj.read (BoxObj.g_delta b))))
  end.

(** * The object *)
Section Obj.
Context {A : Type} (R : rng_ops).
(** [E0]: everything about the surroundings that AOS.v takes as given, except the
    box and the two functions; [norm]: one draw of std::normal_distribution. *)
Context (E0 : env R) (norm : G R -> double * G R).

(** AOSBoxed.hpp:134-147: the template argument _iFun_ is the reserved symbol that
    selects the box's initialize(), a function, or nullptr, in which case the
    pointer set by setiFun() is called: it may be null or the reserved symbol,
    whose body asserts false (AOSParameterPack.hpp:51-58). *)
Definition init_fun := A -> G R -> list double * G R.
Inductive iptr := INull | IReserved | IUser (f : init_fun).
Inductive init_src := IDefault | IFixed (f : init_fun) | IPointer (p : iptr).

Record obj := mkObj {
  o_opt : aos_option; o_box : sbox; o_i : init_src; o_f : option (A -> list double -> double); o_args : A;
  o_aos : aos (G R); o_inited : bool; o_ran : bool
}.
(** AOSBoxed.hpp:90-97: only the option (AOSOption.hpp:30-36) and the containers
    have an initial value. *)
Definition fresh (b : sbox) (i : init_src) (f : option (A -> list double -> double)) (a : A) (g : G R) : obj :=
  mkObj default_aos_option b i f a (mkAOS [] 0 [] [] (junk E0) 0 0 0 [] g) false false.

Inductive call :=
| BoxCall (c : box_call)
| SetOption (o : aos_option)              (* AOSBoxed.hpp:70-74 *)
| SetIFun (p : iptr)                      (* FunBody.hpp:63 *)
| SetFFun (f : option (A -> list double -> double))
| SetArgs (a : A)                         (* AOSParameterPack.hpp:65-67 *)
| OtherDraws (g : G R)                    (* other users of the global generator *)
| InitializePop
| Run.
Definition has_member (b : sbox) (i : init_src) (fixed_f : bool) (c : call) : bool :=
  match c with
  | BoxCall c => has_box_call b c
  | SetIFun _ => match i with IPointer _ => true | _ => false end
  | SetFFun _ => negb fixed_f
  | _ => true
  end.

Definition env_with (b : dbox) (i : G R -> list double * G R) (f : list double -> double) : env R :=
  mkEnv (std E0) (greater E0) b (eigen E0) (rec_on E0) (libm_exp E0) (vsum E0) (below E0) (eigen_random E0) i f (junk E0).
Definition no_box : dbox := square_dbox 0 d0 d0 d0.
Definition no_init : G R -> list double * G R := fun g => ([], g).
Definition no_fun : list double -> double := fun _ => d0.

(** The box's initialize(): BoxConstraint.hpp:38-51, 734-740. *)
Definition box_initialize (b : sbox) (g : G R) : res (list double * G R) :=
  match b with Cont k b => BoxObj.initialize R k b g | Inf b => BoxObj.g_initialize R norm b g end.
Definition total (f : G R -> res (list double * G R)) (g : G R) : list double * G R :=
  match f g with Ok p => p | _ => ([], g) end.

(** AOSBase.hpp:46-74, 147-151.  The functions and the box are read while there
    is an electron to initialise, so after the assertion of 49-53. *)
Definition do_init (o : obj) : res obj :=
  let opt := o_opt o in
  let finish i :=
    do s <- aos_initializePop (env_with no_box i no_fun) opt (o_aos o);
    Ok (mkObj opt (o_box o) (o_i o) (o_f o) (o_args o) s true (o_ran o)) in
  if negb (maxLayerNum opt <=? electronNum opt) then Abort
  else if electronNum opt =? 0 then UB                                  (* 64: front() *)
  else match o_i o with
  | IDefault => do _ <- box_initialize (o_box o) (a_rng (o_aos o)); finish (total (box_initialize (o_box o)))
  | IFixed i | IPointer (IUser i) => finish (i (o_args o))
  | IPointer INull => UB
  | IPointer IReserved => Abort
  end.

(** AOSBase.hpp:104-125.  computeFitness calls the function for every electron
    not yet computed (AOSBoxed.hpp:99-117); the box is first read after the first
    termination test. *)
Definition size_of (es : list electron) : nat := match es with e :: _ => length (estate e) | [] => O end.
Definition do_run (o : obj) : res obj :=
  let opt := o_opt o in
  let finish s := mkObj opt (o_box o) (o_i o) (o_f o) (o_args o) s (o_inited o) true in
  let none := match o_f o with None => true | Some _ => false end in
  let f := match o_f o with None => no_fun | Some f => f (o_args o) end in
  if none && existsb (fun e => negb (ecomp e)) (electrons (o_aos o)) then UB
  else
    do s1 <- settle (env_with no_box no_init f) opt (o_aos o);
    if shouldTerminate opt s1 then Ok (finish s1)
    else
      do b <- run_box (eigen E0) (negb (fle (photonRate opt) d0)) (o_box o) (size_of (electrons s1));
      do s2 <- excite (env_with b no_init f) opt s1;
      if none then UB                    (* there are new electrons *)
      else do s3 <- aos_run (env_with b no_init f) opt (Z.to_nat (a_maxGeneration opt)) s2; Ok (finish s3).

Definition step (o : obj) (c : call) : res obj :=
  match c with
  | BoxCall c => do b <- box_step (o_box o) c;
                 Ok (mkObj (o_opt o) b (o_i o) (o_f o) (o_args o) (o_aos o) (o_inited o) (o_ran o))
  | SetOption p => Ok (mkObj p (o_box o) (o_i o) (o_f o) (o_args o) (o_aos o) (o_inited o) (o_ran o))
  | SetIFun p => Ok (mkObj (o_opt o) (o_box o) (IPointer p) (o_f o) (o_args o) (o_aos o) (o_inited o) (o_ran o))
  | SetFFun f => Ok (mkObj (o_opt o) (o_box o) (o_i o) f (o_args o) (o_aos o) (o_inited o) (o_ran o))
  | SetArgs a => Ok (mkObj (o_opt o) (o_box o) (o_i o) (o_f o) a (o_aos o) (o_inited o) (o_ran o))
  | OtherDraws g => let s := o_aos o in
      Ok (mkObj (o_opt o) (o_box o) (o_i o) (o_f o) (o_args o)
            (mkAOS (electrons s) (e_next s) (layers s) (b_state s) (b_energy s) (atomBest s) (a_gen s) (a_stop s) (a_record s) g)
            (o_inited o) (o_ran o))
  | InitializePop => do_init o
  | Run => do_run o
  end.
Fixpoint drive (o : obj) (h : list call) : res obj :=
  match h with
  | [] => Ok o
  | c :: t => do o' <- step o c; drive o' t
  end.

(** * Queries: AOSBoxed.hpp:76-88, AOSBase.hpp:145. *)
Definition get_generation (o : obj) : res Z := if o_inited o then Ok (a_gen (o_aos o)) else UB.
Definition get_earlyStop (o : obj) : res Z := if o_inited o then Ok (a_stop (o_aos o)) else UB.
Definition get_best (o : obj) : res electron := if o_inited o then bestElectron (o_aos o) else UB.
(** bestElectron().energy is not initialised before it is computed (AOSDefaultElectron.hpp:28-36). *)
Definition get_bestEnergy (o : obj) : res double := do e <- get_best o; if ecomp e then Ok (energy e) else UB.
Definition get_bindingEnergy (o : obj) : res double := if o_ran o then Ok (b_energy (o_aos o)) else UB.
Definition get_electrons (o : obj) : list electron := electrons (o_aos o).
Definition get_record (o : obj) : list double := a_record (o_aos o).
End Obj.
