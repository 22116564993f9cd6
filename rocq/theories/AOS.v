(** Model of AOS/AOSOption.hpp, AOS/AOSDefaultElectron.hpp, AOS/AOSBoxed.hpp,
    AOS/AOS4EigenAndStd.hpp, AOS/AOSBase.hpp and AOS/AOS.hpp (atomic orbital
    search), for decision variables whose coefficients are doubles.
    A variable is the list of its coefficients in storage order; an electron
    is identified by the address of its list node ([eid], never reused here).
    AOS_inf (GaussianBox): AOSObj.v.  Not modelled: the branch of AOSBoxed.hpp:119-129
    without OpenMP, which names members that do not exist. *)
From Coq Require Import List Arith ZArith Bool.
From Flocq Require Import BinarySingleNaN.
From Verif Require Import Base Fl Rng StdOps Box.
Import ListNotations.
Open Scope Z_scope.

(** AOSOption.hpp:29-46. *)
Record aos_option := mkAOpt {
  electronNum : Z; a_maxGeneration : Z; maxEarlyStop : Z; maxLayerNum : Z; photonRate : double
}.
Definition default_aos_option : aos_option := {|
  electronNum := 50; a_maxGeneration := 30; maxEarlyStop := 20; maxLayerNum := 5;
  photonRate := fdiv (d_of_Z 1) (d_of_Z 10)                           (* literal 0.1 *)
|}.

(** AOSDefaultElectron.hpp:28-36. *)
Record electron := mkElectron { eid : nat; estate : list double; energy : double; ecomp : bool }.
(** AOSBoxed.hpp:56-67; the electrons are pointers. *)
Record layer := mkLayer { members : list nat; l_state : list double; l_energy : double; l_best : nat }.
(** AOSBoxed.hpp:90-97, and AOSBase.hpp:155 [_record]. *)
Record aos (GG : Type) := mkAOS {
  electrons : list electron; e_next : nat; layers : list layer;
  b_state : list double; b_energy : double; atomBest : nat;
  a_gen : Z; a_stop : Z; a_record : list double; a_rng : GG
}.
Arguments mkAOS {GG}. Arguments electrons {GG}. Arguments e_next {GG}. Arguments layers {GG}.
Arguments b_state {GG}. Arguments b_energy {GG}. Arguments atomBest {GG}. Arguments a_gen {GG}.
Arguments a_stop {GG}. Arguments a_record {GG}. Arguments a_rng {GG}.

(** Reading through a pointer: undefined if the node is gone. *)
Definition deref (es : list electron) (p : nat) : res electron :=
  match find (fun e => (eid e =? p)%nat) es with Some e => Ok e | None => UB end.

Fixpoint zip2 (f : double -> double -> double) (a b : list double) : list double :=
  match a, b with x :: s, y :: t => f x y :: zip2 f s t | _, _ => [] end.

(** Global/HeuMaths.hpp:211-216 [gaussianCurve]; M_PI is 7074237752028440 * 2^-51. *)
Definition gaussianCurve (libm_exp : double -> double) (x mu sigma : double) : double :=
  fmul (fdiv d1 (fmul sigma (Bsqrt mode_NE (fmul (d_of_Z 2) (fofZ 7074237752028440 (-51))))))
       (libm_exp (fdiv (fopp (fmul (fsub x mu) (fsub x mu))) (fmul (d_of_Z 2) (fmul sigma sigma)))).

(** Array::round() and cast<int>(): nearest integer, halves away from zero. *)
Definition round_int (x : double) : res Z :=
  if is_finite x then
    let k := Btrunc (Bnearbyint mode_NA x) in
    if (-2147483648 <=? k) && (k <? 2147483648) then Ok k else UB
  else UB.
Fixpoint mapM {A B} (f : A -> res B) (l : list A) : res (list B) :=
  match l with
  | [] => Ok []
  | x :: t => do y <- f x; do r <- mapM f t; Ok (y :: r)
  end.

(** The parameters of a solver, and the parts of its surroundings whose
    behaviour is not determined by the source. *)
Record env (R : rng_ops) := mkEnv {
  std : std_ops;
  greater : bool;                            (* FITNESS_GREATER_BETTER *)
  box : dbox;
  eigen : bool;                              (* Var_t is an Eigen array (AOS4Eigen), otherwise AOS4Std *)
  rec_on : bool;                             (* RECORD_FITNESS *)
  libm_exp : double -> double;
  vsum : list double -> double;              (* Eigen's sum of an array: the order of the additions is not specified *)
  below : nat -> nat -> bool;                (* the order of the addresses of two nodes *)
  eigen_random : G R -> double * G R;        (* one coefficient of Var_t::Random(), from std::rand() *)
  iFun : G R -> list double * G R;           (* the user's iFun, or the box's initialize *)
  fFun : list double -> double;
  junk : double                              (* what uninitialised members hold *)
}.
Arguments mkEnv {R}. Arguments std {R}. Arguments greater {R}. Arguments box {R}. Arguments eigen {R}. Arguments rec_on {R}.
Arguments libm_exp {R}. Arguments vsum {R}. Arguments below {R}. Arguments eigen_random {R}. Arguments iFun {R}.
Arguments fFun {R}. Arguments junk {R}.

Section Model.
Context {R : rng_ops} (E : env R) (opt : aos_option).
Local Notation b := (box E).
(** Vectors of different lengths: an assertion of Eigen, or an index out of range. *)
Definition mismatch {A} : res A := if eigen E then Abort else UB.
Definition vec (f : double -> double -> double) (x y : list double) : res (list double) :=
  if (length x =? length y)%nat then Ok (zip2 f x y) else mismatch.

(** AOSBoxed.hpp:165-171 [isBetter]; also AOS.hpp:62-70. *)
Definition e_better (x y : double) : bool := if greater E then flt y x else flt x y.
Definition electronLess (x y : electron) : bool := e_better (energy x) (energy y).

(** AOSBase.hpp:46-74 [initializePop], 147-151 with a record. *)
Fixpoint init_electrons (n : nat) (id : nat) (g : G R) : list electron * G R :=
  match n with
  | O => ([], g)
  | S m => let (v, g1) := iFun E g in
           let (t, g2) := init_electrons m (S id) g1 in (mkElectron id v (junk E) false :: t, g2)
  end.
Definition aos_initializePop (s : aos (G R)) : res (aos (G R)) :=
  if negb (maxLayerNum opt <=? electronNum opt) then Abort else                 (* 49-53 *)
  let n := Z.to_nat (electronNum opt) in
  let (es, g) := init_electrons n (e_next s) (a_rng s) in
  match es with
  | [] => UB                                                                    (* 64: front() *)
  | e :: _ => Ok (mkAOS es (e_next s + n) [] (b_state s) (b_energy s) (eid e) 0 0 [] g)
  end.

(** AOSBoxed.hpp:99-117 [__impl_computeFitness]. *)
Definition evaluate (e : electron) : electron :=
  if ecomp e then e else mkElectron (eid e) (estate e) (fFun E (estate e)) true.

(** AOS4EigenAndStd.hpp:40-69 (Eigen) and 144-183 (Std) [__impl_computeAtomBSBELE]. *)
Fixpoint sum_states (acc : list double) (es : list electron) : res (list double) :=
  match es with
  | [] => Ok acc
  | e :: t => do a <- vec fadd acc (estate e); sum_states a t
  end.
Fixpoint scan_best (cur : electron) (es : list electron) : electron :=
  match es with
  | [] => cur
  | e :: t => scan_best (if e_better (energy e) (energy cur) then e else cur) t
  end.
Definition sum_energy (es : list electron) : double := fold_left (fun s e => fadd s (energy e)) es d0.
Definition computeAtom (s : aos (G R)) : res (aos (G R)) :=
  match electrons s with
  | [] => UB
  | e :: _ =>
      let n := d_of_Z (Z.of_nat (length (electrons s))) in
      do st <- sum_states (map (fun _ => d0) (estate e)) (electrons s);
      let best := scan_best e (electrons s) in
      do prev <- deref (electrons s) (atomBest s);                              (* 64, 178 *)
      Ok (mkAOS (electrons s) (e_next s) (layers s) (map (fun x => fdiv x n) st)
            (fdiv (sum_energy (electrons s)) n) (eid best) (a_gen s)
            (if feq (energy prev) (energy best) then wrap64 (a_stop s + 1) else 0)
            (a_record s) (a_rng s))
  end.

(** AOS.hpp:92-114: the number of electrons up to and including each layer. *)
Definition layer_shares (t : Z) (n : Z) : list double :=
  let w := map (fun i => gaussianCurve (libm_exp E) (d_of_Z (Z.of_nat i + 1)) d0 (fdiv (d_of_Z t) (d_of_Z 6))) (seq 0 (Z.to_nat t)) in
  map (fun x => fmul (fdiv x (vsum E w)) (d_of_Z n)) w.
Fixpoint cumulate (acc : Z) (l : list Z) : res (list Z) :=
  match l with
  | [] => Ok []
  | x :: t => let y := acc + x in
              if (-2147483648 <=? y) && (y <? 2147483648) then do r <- cumulate y t; Ok (y :: r) else UB
  end.
(* 110-114: the comparison is unsigned *)
Definition cap (n : Z) (v : Z) : Z := if (v <? 0) || (n <? v) then n else v.
Definition layer_bounds (t n : Z) : res (list Z) :=
  do r <- mapM round_int (layer_shares t n);
  do c <- cumulate 0 r; Ok (map (cap n) c).
(** AOS.hpp:122-133. *)
Fixpoint fill (bounds : list Z) (k : Z) (cur : nat) (ids : list nat) (ls : list (list nat)) : res (list (list nat)) :=
  match ids with
  | [] => Ok ls
  | x :: t =>
      match nth_error bounds cur with
      | None => UB
      | Some c =>
          if c <=? k then
            match nth_error bounds (S cur) with
            | None => UB
            | Some c' => if c' - c <? 0 then Abort                              (* reserve() *)
                         else fill bounds (k + 1) (S cur) t (set_at ls (S cur) (nth (S cur) ls [] ++ [x]))
            end
          else fill bounds (k + 1) cur t (set_at ls cur (nth cur ls [] ++ [x]))
      end
  end.
(** AOS.hpp:135-138. *)
Fixpoint strip_rev (ls : list (list nat)) : res (list (list nat)) :=
  match ls with
  | [] => UB
  | [] :: t => strip_rev t
  | _ => Ok (rev ls)
  end.
Definition make_layers (t : Z) (ids : list nat) : res (list (list nat)) :=
  if t <=? 0 then Abort else                                                    (* negative or empty arrays *)
  do bounds <- layer_bounds t (Z.of_nat (length ids));
  do ls <- fill bounds 0 0 ids (repeat [] (Z.to_nat t));
  strip_rev (rev ls).
(** AOS.hpp:72-139 [__impl_selectAndMakeLayers]. *)
Definition selectAndMakeLayers (s : aos (G R)) : res (aos (G R)) :=
  if existsb (fun e => is_nan (energy e)) (electrons s) then UB else            (* not a strict weak ordering *)
  let sorted := sort (std E) electronLess (electrons s) in
  let kept := firstn (Z.to_nat (electronNum opt)) sorted in                     (* 83-86 *)
  let gone := skipn (Z.to_nat (electronNum opt)) sorted in
  let es := filter (fun e => negb (existsb (fun d => (eid d =? eid e)%nat) gone)) (electrons s) in
  let (t, g) := randIdx2 R 1 (to_int (wrap64 (maxLayerNum opt + 1))) (a_rng s) in   (* 91 *)
  do ls <- make_layers t (map eid kept);
  Ok (mkAOS es (e_next s) (map (fun m => mkLayer m [] (junk E) 0) ls) (b_state s) (b_energy s) (atomBest s)
        (a_gen s) (a_stop s) (a_record s) g).

(** AOS4EigenAndStd.hpp:71-94 (Eigen) and 185-217 (Std) [__impl_computeLayerBSBELE].
    81, 85: the Eigen version compares the pointers. *)
Definition layer_better (cand cur : electron) : bool :=
  if eigen E then (if greater E then below E (eid cur) (eid cand) else below E (eid cand) (eid cur))
  else e_better (energy cand) (energy cur).
Fixpoint layer_scan (idx : nat) (best : nat) (cur : electron) (es : list electron) : nat :=
  match es with
  | [] => best
  | e :: t => if layer_better e cur then layer_scan (S idx) idx e t else layer_scan (S idx) best cur t
  end.
Definition layer_energy (e : electron) (t : list electron) : double :=
  if eigen E then fold_left (fun s x => fadd s (energy x)) t (energy e) else energy e.   (* 185-217 never adds *)
Definition computeLayer (es : list electron) (l : layer) : res layer :=
  do ms <- mapM (deref es) (members l);
  match ms with
  | [] => UB                                                                    (* front() *)
  | e :: t =>
      let n := d_of_Z (Z.of_nat (length ms)) in
      do st <- sum_states (estate e) t;
      Ok (mkLayer (members l) (map (fun x => fdiv x n) st) (fdiv (layer_energy e t) n) (layer_scan 1 0 e t))
  end.
Definition computeLayers (s : aos (G R)) : res (aos (G R)) :=
  do ls <- mapM (computeLayer (electrons s)) (layers s);
  Ok (mkAOS (electrons s) (e_next s) ls (b_state s) (b_energy s) (atomBest s) (a_gen s) (a_stop s) (a_record s) (a_rng s)).

(** Randoms.hpp:86-90 [randD(dst, num)]. *)
Fixpoint rand_vec (n : nat) (g : G R) : list double * G R :=
  match n with
  | O => ([], g)
  | S m => let (x, g1) := rand01 R g in let (t, g2) := rand_vec m g1 in (x :: t, g2)
  end.
(** AOS4EigenAndStd.hpp:96-121 and 219-256: [alpha * (beta * best - gamma * mean)]. *)
Definition pull (alpha beta gamma best mean : list double) : res (list double) :=
  do p <- vec fmul beta best; do q <- vec fmul gamma mean; do d <- vec fsub p q; vec fmul alpha d.
Definition photon (s : aos (G R)) (parent : electron) (l : layer) (li : nat) (g : G R) : res (list double * G R) :=
  let n := if eigen E then length (estate parent) else Z.to_nat (dimD b) in
  let (alpha, g1) := rand_vec n g in
  let (beta, g2) := rand_vec n g1 in
  let (gamma, g3) := rand_vec n g2 in
  do step <- (if e_better (energy parent) (l_energy l) then
                match nth_error (members l) (l_best l) with
                | None => Abort                                                 (* at() throws *)
                | Some p => do lb <- deref (electrons s) p; pull alpha beta gamma (estate lb) (l_state l)
                end
              else
                do ab <- deref (electrons s) (atomBest s);
                do p <- pull alpha beta gamma (estate ab) (b_state s);
                Ok (map (fun x => fdiv x (d_of_Z (Z.of_nat li + 1))) p));
  do v <- vec fadd (estate parent) step;
  do v' <- applyConstraintD b v; Ok (v', g3).
(** AOS4EigenAndStd.hpp:123-131 (Eigen): delta() * Random. *)
Fixpoint eigen_moves (x : list double) (i : nat) (g : G R) : list double * G R :=
  match x with
  | [] => ([], g)
  | y :: t => let (r, g1) := eigen_random E g in
              let (t', g2) := eigen_moves t (S i) g1 in (fadd y (fmul (deltaD b i) r) :: t', g2)
  end.
(** 258-270 (Std): += randD(-delta, delta). *)
Fixpoint std_moves (x : list double) (i : nat) (g : G R) : list double * G R :=
  match x with
  | [] => ([], g)
  | y :: t => let (r, g1) := randD_range R (fopp (deltaD b i)) (deltaD b i) g in
              let (t', g2) := std_moves t (S i) g1 in (fadd y r :: t', g2)
  end.
Definition non_photon (parent : electron) (g : G R) : res (list double * G R) :=
  let (v, g') := (if eigen E then eigen_moves else std_moves) (estate parent) 0%nat g in
  do v' <- applyConstraintD b v; Ok (v', g').

(** AOSBase.hpp:84-102 [__impl_updateElectrons]: one new electron per electron
    of the layers, appended to the list. *)
Definition spawn (s : aos (G R)) (l : layer) (li : nat) (p : nat) : res (aos (G R)) :=
  do parent <- deref (electrons s) p;
  let (d, g1) := rand01 R (a_rng s) in
  do (v, g2) <- (if fle (photonRate opt) d then photon s parent l li g1 else non_photon parent g1);
  Ok (mkAOS (electrons s ++ [mkElectron (e_next s) v (junk E) false]) (S (e_next s)) (layers s) (b_state s) (b_energy s)
        (atomBest s) (a_gen s) (a_stop s) (a_record s) g2).
Fixpoint spawn_layer (s : aos (G R)) (l : layer) (li : nat) (ps : list nat) : res (aos (G R)) :=
  match ps with
  | [] => Ok s
  | p :: t => do s' <- spawn s l li p; spawn_layer s' l li t
  end.
Fixpoint spawn_layers (s : aos (G R)) (li : nat) (ls : list layer) : res (aos (G R)) :=
  match ls with
  | [] => Ok s
  | l :: t => do s' <- spawn_layer s l li (members l); spawn_layers s' (S li) t
  end.
Definition updateElectrons (s : aos (G R)) : res (aos (G R)) := spawn_layers s 0 (layers s).

(** AOSBase.hpp:80-82 [__impl_shouldTerminate]. *)
Definition shouldTerminate (s : aos (G R)) : bool :=
  (a_maxGeneration opt <=? a_gen s) || (maxEarlyStop opt <=? a_stop s).

(** AOSBase.hpp:104-125 [__impl_run], and 157 [__impl_recordFitness]. *)
Definition compute (s : aos (G R)) : aos (G R) :=
  mkAOS (map evaluate (electrons s)) (e_next s) (layers s) (b_state s) (b_energy s) (atomBest s) (a_gen s) (a_stop s)
        (a_record s) (a_rng s).
Definition record_best (s : aos (G R)) : res (aos (G R)) :=
  if rec_on E then
    do e <- deref (electrons s) (atomBest s);
    Ok (mkAOS (electrons s) (e_next s) (layers s) (b_state s) (b_energy s) (atomBest s) (a_gen s) (a_stop s)
          (a_record s ++ [energy e]) (a_rng s))
  else Ok s.
(** The first half of a round, up to the termination test ... *)
Definition settle (s : aos (G R)) : res (aos (G R)) :=
  do s1 <- computeAtom (compute s); do s2 <- record_best s1; selectAndMakeLayers s2.
(** ... and the second. *)
Definition excite (s : aos (G R)) : res (aos (G R)) :=
  do s1 <- computeLayers s; do s2 <- updateElectrons s1;
  Ok (mkAOS (electrons s2) (e_next s2) (layers s2) (b_state s2) (b_energy s2) (atomBest s2) (wrap64 (a_gen s2 + 1))
        (a_stop s2) (a_record s2) (a_rng s2)).
Fixpoint aos_run (fuel : nat) (s : aos (G R)) : res (aos (G R)) :=
  match fuel with
  | O => Fuel
  | S n => do s1 <- settle s;
           if shouldTerminate s1 then Ok s1 else do s2 <- excite s1; aos_run n s2
  end.
End Model.
