(** What the AOS properties speak about. *)
From Coq Require Import List Arith ZArith Bool Reals Permutation.
From Flocq Require Import Core BinarySingleNaN.
From Verif Require Import Base Fl Rng StdOps Box AOS.
Import ListNotations.
Open Scope Z_scope.

(** Every moment at which a round of run() can begin: after initializePop()
    (the solver before it is arbitrary), after a round that did not meet the
    termination rule, and after a run() has returned, for the next one.  The
    options may be changed in between. *)
Inductive before_round {R : rng_ops} (E : env R) : aos (G R) -> Prop :=
| br_init opt s s' : aos_initializePop E opt s = Ok s' -> before_round E s'
| br_next opt s s1 s2 : before_round E s -> settle E opt s = Ok s1 -> shouldTerminate opt s1 = false ->
    excite E opt s1 = Ok s2 -> before_round E s2
| br_again opt s s1 : before_round E s -> settle E opt s = Ok s1 -> shouldTerminate opt s1 = true -> before_round E s1.

(** [k] whole rounds, none of which ended the run. *)
Inductive rounds {R : rng_ops} (E : env R) (opt : aos_option) : nat -> aos (G R) -> aos (G R) -> Prop :=
| rounds_0 s : rounds E opt 0 s s
| rounds_S k s s1 s2 s' : settle E opt s = Ok s1 -> shouldTerminate opt s1 = false -> excite E opt s1 = Ok s2 ->
    rounds E opt k s2 s' -> rounds E opt (S k) s s'.

(** bestElectron(): undefined if it has been erased. *)
Definition bestElectron {GG} (s : aos GG) : res electron := deref (electrons s) (atomBest s).
Definition alive {GG} (s : aos GG) : Prop := exists e, bestElectron s = Ok e.

(** No electron of the first list is beaten by an electron of the second. *)
Definition none_better {R} (E : env R) (kept dropped : list electron) : Prop :=
  forall x y, In x kept -> In y dropped -> e_better E (energy y) (energy x) = false.
(** In the order of the energy, best first (ties in any order). *)
Definition energy_order {R} (E : env R) (l : list electron) : Prop :=
  forall i j x y, (i <= j)%nat -> nth_error l i = Some x -> nth_error l j = Some y -> e_better E (energy y) (energy x) = false.

(** The documented sizes of the layers: [n] electrons are shared out to [t]
    layers by a Gaussian curve with sigma t/6, each share rounded; the layers
    end at the running totals, but every layer after the first that is reached
    gets at least one electron. *)
Definition shares {R} (E : env R) (t n : Z) : list double :=
  let weight i := gaussianCurve (libm_exp E) (d_of_Z (Z.of_nat i + 1)) d0 (fdiv (d_of_Z t) (d_of_Z 6)) in
  map (fun i => fmul (fdiv (weight i) (vsum E (map weight (seq 0 (Z.to_nat t))))) (d_of_Z n)) (seq 0 (Z.to_nat t)).
Definition total_upto (i : nat) (l : list Z) : Z := fold_right Z.add 0 (firstn (S i) l).
(** [counts] are the rounded shares, [bounds] the running totals, at most [n]. *)
Definition shared_out {R} (E : env R) (t n : Z) (bounds : list Z) : Prop :=
  exists counts, Forall2 (fun x k => round_int x = Ok k) (shares E t n) counts /\
    length bounds = length counts /\
    forall i, (i < length counts)%nat ->
      nth i bounds 0 = (if (0 <=? total_upto i counts) && (total_upto i counts <=? n) then total_upto i counts else n).
Fixpoint ends_after (e : Z) (bounds : list Z) : list Z :=
  match bounds with
  | [] => []
  | c :: t => Z.max c (e + 1) :: ends_after (Z.max c (e + 1)) t
  end.
Definition ends (bounds : list Z) : list Z :=
  match bounds with [] => [] | c :: t => c :: ends_after c t end.
(** A list cut at the given positions. *)
Fixpoint cut {A} (start : Z) (es : list Z) (l : list A) : list (list A) :=
  match es with
  | [] => []
  | e :: t => firstn (Z.to_nat (e - start)) l :: cut e t (skipn (Z.to_nat (e - start)) l)
  end.

(** The electrons as they are after computeFitness. *)
Definition evaluated {R : rng_ops} (E : env R) (s : aos (G R)) : list electron := map (evaluate E) (electrons s).
(** How many electrons are as good as [e]. *)
Definition ties {R : rng_ops} (E : env R) (e : electron) (l : list electron) : nat :=
  length (filter (fun x => negb (e_better E (energy e) (energy x))) l).

(** Sort keeps the order of equivalent elements. *)
Definition stable_at_front (s : std_ops) : Prop :=
  forall A (lt : A -> A -> bool) (l : list A) x pre post, strict_weak lt l -> l = pre ++ x :: post ->
    (forall y, In y pre -> lt x y = true) -> (forall y, In y post -> lt y x = false) ->
    exists rest, sort s lt l = x :: rest.

(** How many times in a row the latest value has stayed the same (the list has
    the latest value first). *)
Fixpoint repeats (l : list double) : Z :=
  match l with
  | x :: ((y :: _) as t) => if feq y x then 1 + repeats t else 0
  | _ => 0
  end.

(** [n] electrons can be shared out to [t] layers: the first layer gets some,
    and the ends of the layers reach the last electron. *)
Definition fits {R} (E : env R) (t n : Z) : Prop :=
  exists counts, Forall2 (fun x k => round_int x = Ok k) (shares E t n) counts /\
    (forall k, In k counts -> 0 <= k) /\ (forall i, total_upto i counts < 2147483648) /\
    1 <= nth 0 counts 0 /\ 1 <= n /\
    n <= last (ends (map (fun i => Z.min n (total_upto i counts)) (seq 0 (length counts)))) 0.

(** Means, as computed: a sum from left to right, divided by the number. *)
Definition sum_from (x : double) (l : list double) : double := fold_left fadd l x.
Definition mean_from (x : double) (l : list double) (n : nat) : double := fdiv (sum_from x l) (d_of_Z (Z.of_nat n)).
Definition coordinate (i : nat) (e : electron) : double := nth i (estate e) d0.

(** The box has finite bounds of at most 2^800, and the coefficients of
    Eigen's Random() are in [-1,1]. *)
Definition moderate {R} (E : env R) : Prop := 0 <= dimD (box E) /\ forall i, Z.of_nat i < dimD (box E) ->
  fin (minD (box E) i) /\ (Rabs (B2R (minD (box E) i)) <= bpow radix2 800)%R /\
  fin (maxD (box E) i) /\ (Rabs (B2R (maxD (box E) i)) <= bpow radix2 800)%R /\
  fle (minD (box E) i) (maxD (box E) i) = true /\ fin (deltaD (box E) i) /\ (Rabs (B2R (deltaD (box E) i)) <= bpow radix2 800)%R.
Definition eigen_draws {R} (E : env R) : Prop :=
  forall g, fin (fst (eigen_random E g)) /\ (-1 <= B2R (fst (eigen_random E g)) <= 1)%R.
