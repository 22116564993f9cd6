(** Model of Global/Threading.hpp and of the way its value reaches the parallel
    loops: Genetic/GABase.hpp:224-225, Genetic/NSGABase.hpp:108-109,
    AOS/AOSBoxed.hpp:111-112, PSO/PSO4Eigen.hpp:87-88, PSO/PSOAbstrcat.hpp:289-290. *)
From Coq Require Import List ZArith Bool.
From Verif Require Import Base.
Import ListNotations.
Open Scope Z_scope.

(** The five loops; each has its own function-local [static const int32_t thN]
    (per template instance: [site] counts instances). *)
Definition site := nat.

(** Threading.hpp:43-53: the static inside internalThreadNum(), initialised with
    hardware_concurrency() (which may be 0) at its first use; the captured thN's. *)
Record threads := mkTh { hw : Z; cur : option Z; captured : site -> option Z }.
Definition th_fresh (h : Z) : threads := mkTh h None (fun _ => None).

(** 62: threadNum(). *)
Definition now (t : threads) : Z := match cur t with Some n => n | None => hw t end.
(** 71-74: setThreadNum. *)
Definition setThreadNum (t : threads) (n : Z) : res threads :=
  if 0 <? n then Ok (mkTh (hw t) (Some n) (captured t)) else Abort.

(** schedule(dynamic, chunk) splits 0..n-1 into consecutive chunks (the last may
    be shorter), handed out one by one to the threads of the team. *)
Fixpoint chunks (fuel : nat) (lo n c : nat) : list (list nat) :=
  match fuel with
  | O => []
  | S f => if Nat.ltb lo n then seq lo (Nat.min c (n - lo)) :: chunks f (lo + c) n c else []
  end.

(** A loop over [n] items at [s]: thN is captured at the first execution; the
    chunk size [n / thN] is computed in size_t; OpenMP requires it to be
    positive. *)
Definition thN_at (t : threads) (s : site) : Z := match captured t s with Some k => k | None => now t end.
Definition par_loop (t : threads) (s : site) (n : Z) : res (list (list nat) * threads) :=
  let k := thN_at t s in
  if k =? 0 then UB else
  let c := n / wrap64 k in
  if c =? 0 then UB else
  Ok (chunks (Z.to_nat n) 0 (Z.to_nat n) (Z.to_nat c),
      mkTh (hw t) (Some (now t)) (fun x => if Nat.eqb x s then Some k else captured t x)).

Inductive tcall := TSet (n : Z) | TLoop (s : site) (n : Z).
Definition tstep (t : threads) (c : tcall) : res threads :=
  match c with
  | TSet n => setThreadNum t n
  | TLoop s n => do p <- par_loop t s n; Ok (snd p)
  end.
Fixpoint tdrive (t : threads) (h : list tcall) : res threads :=
  match h with [] => Ok t | c :: r => do t' <- tstep t c; tdrive t' r end.
