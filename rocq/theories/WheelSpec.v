(** Specification vocabulary for C65 / C66: what a turn of the wheel means.
    Of the model of the selectors only the enumeration of the methods is used. *)
From Coq Require Import List ZArith Reals Bool Permutation.
From Flocq Require Import Core BinarySingleNaN.
From Verif Require Import Base Fl Rng GABase SOGA.
Import ListNotations.
Local Open Scope nat_scope.

(** What is left of the draw [r] after the first [k] weights have been taken off. *)
Definition after (r : double) (ws : list double) (k : nat) : double := fold_left fsub (firstn k ws) r.
(** The draw is used up at position [i], and not before. *)
Definition hits (r : double) (ws : list double) (i : nat) : Prop :=
  i < length ws /\
  (forall k, 1 <= k <= i -> fle (after r ws k) d0 = false) /\
  fle (after r ws (S i)) d0 = true.
Definition misses (r : double) (ws : list double) : Prop :=
  forall k, 1 <= k <= length ws -> fle (after r ws k) d0 = false.
(** The position the draw stands for; a draw that rounding left unused counts
    for the last one. *)
Definition stands_for (r : double) (ws : list double) (i : nat) : Prop :=
  hits r ws i \/ (misses r ws /\ flt d0 (after r ws (length ws)) = true /\ S i = length ws).
Definition without {A} (i : nat) (l : list A) : list A := firstn i l ++ skipn (S i) l.

Section Contest.
Context (R : rng_ops).
(** Whether the wheel is used when the weights sum up to the argument, and the
    yes/no lot used otherwise (its argument: the number of competitors). *)
Variable wheel_used : double -> bool.
Variable lot : Z -> G R -> bool * G R.

(** Lots are drawn one competitor after the other until the first yes. *)
Fixpoint lot_state (n : Z) (k : nat) (g : G R) : G R :=
  match k with O => g | S k' => lot_state n k' (snd (lot n g)) end.
Definition lot_falls (n : Z) (g : G R) (i : nat) : Prop :=
  (forall k, k < i -> fst (lot n (lot_state n k g)) = false) /\ fst (lot n (lot_state n i g)) = true.
Definition no_lot (n : Z) (len : nat) (g : G R) : Prop :=
  forall k, k < len -> fst (lot n (lot_state n k g)) = false.

(** [contest es sum g winners losers]: competitors [es] (id, weight), weights
    summing up to [sum], generator state [g]; winners leave one by one, in this
    order; [losers] are the ones never drawn. *)
Inductive contest : list (nat * double) -> double -> G R -> list nat -> list (nat * double) -> Prop :=
| over es sum g : contest es sum g [] es
| turn es sum g r g' i x w winners losers :
    wheel_used sum = true ->
    randD_range R d0 sum g = (r, g') ->
    stands_for r (map snd es) i -> nth_error es i = Some (x, w) ->
    contest (without i es) (fsub sum w) g' winners losers ->
    contest es sum g (x :: winners) losers
| void_turn es sum g r g' winners losers :           (* the draw is NaN: nobody wins *)
    wheel_used sum = true ->
    randD_range R d0 sum g = (r, g') ->
    misses r (map snd es) -> flt d0 (after r (map snd es) (length es)) = false ->
    contest es sum g' winners losers ->
    contest es sum g winners losers
| lots es sum g i x w winners losers :
    wheel_used sum = false ->
    lot_falls (Z.of_nat (length es)) g i -> nth_error es i = Some (x, w) ->
    contest (without i es) sum (lot_state (Z.of_nat (length es)) (S i) g) winners losers ->
    contest es sum g (x :: winners) losers
| void_lots es sum g winners losers :
    wheel_used sum = false ->
    no_lot (Z.of_nat (length es)) (length es) g ->
    contest es sum (lot_state (Z.of_nat (length es)) (length es) g) winners losers ->
    contest es sum g winners losers.
End Contest.

(** Real sum of the first [k] weights. *)
Definition Rsum (l : list double) : R := fold_right Rplus 0%R (map B2R l).
Definition upto (k : nat) (ws : list double) : R := Rsum (firstn k ws).

(** Contracts of libm used in C65. *)
Definition pow_decreasing (pw : double -> double -> double) : Prop :=
  forall x a b, fin x -> (0 <= B2R x <= 1)%R -> (0 <= a <= b)%Z -> (b < 2147483648)%Z ->
    (B2R (pw x (d_of_Z b)) <= B2R (pw x (d_of_Z a)))%R.
Definition exp_increasing (ex : double -> double) : Prop :=
  forall x y, fle x y = true -> fle (ex x) (ex y) = true.

(** The lots drawn when all weights are equal. *)
Definition lot_roulette (R : rng_ops) (n : Z) (g : G R) : bool * G R := let (i, g') := randIdx R n g in (Z.eqb i 0, g').
Definition lot_elite (R : rng_ops) (n : Z) (g : G R) : bool * G R :=
  let (d, g') := rand01 R g in (fle (fmul d (d_of_Z n)) d1, g').
Definition lots_of (R : rng_ops) (m : method) := match m with RouletteWheel => lot_roulette R | _ => lot_elite R end.
(** When the wheel is used: RouletteWheel looks at what is left each time,
    EliteReserved at the initial total, the others always use it. *)
Definition total (es : list (nat * double)) : double := fold_left (fun s e => fadd s (snd e)) es d0.
Definition wheel_of (m : method) (es : list (nat * double)) : double -> bool :=
  match m with
  | RouletteWheel => fun s => flt d0 s
  | EliteReserved => fun _ => negb (fle (total es) d0)
  | _ => fun _ => true
  end.
(** The upper end of the first draw. *)
Definition range_of (m : method) (es : list (nat * double)) : double :=
  match m with LinearRank | ExponentialRank => d1 | _ => total es end.
(** The survivors of a selection that turned [c] into [c']: the ones that did
    not have to compete, and the winners of the contest. *)
Definition decided_by_wheel {V} (R : rng_ops) (m : method) (c c' : core V double nat (G R)) (es : list (nat * double)) : Prop :=
  exists winners losers,
    contest R (wheel_of m es) (lots_of R m) es (range_of m es) (gen_rng c) winners losers /\
    Permutation (map fst es) (winners ++ map fst losers) /\
    forall x, In x (pop c') <-> In x (pop c) /\ (~ In (gid x) (map fst es) \/ In (gid x) winners).

(** Fitness seen as "the greater the better". *)
Definition score {V} (greater : bool) (x : gene V double) : double := if greater then gfit x else fopp (gfit x).
(** Everybody's score minus the worst score. *)
Definition above_worst {V} (greater : bool) (p : list (gene V double)) (es : list (nat * double)) : Prop :=
  exists worst, (exists y, In y p /\ worst = score greater y) /\
    (forall y, In y p -> fle worst (score greater y) = true) /\
    es = map (fun x => (gid x, fsub (score greater x) worst)) p.
(** Weights that depend on the rank only (best first; ties in any order). *)
Definition by_rank {V} (greater : bool) (w : nat -> double) (p : list (gene V double)) (es : list (nat * double)) : Prop :=
  exists l, Permutation p l /\
    (forall i j x y, i <= j -> nth_error l i = Some x -> nth_error l j = Some y -> isBetter greater (gfit y) (gfit x) = false) /\
    es = map (fun ix => (gid (snd ix), w (fst ix))) (combine (seq 0 (length l)) l).
(** Everybody competes. *)
Definition all_compete {V} (p : list (gene V double)) (es : list (nat * double)) : Prop :=
  Permutation (map fst es) (map gid p).
(** The documented weights. *)
Definition linear_weight (worst best : double) (n : Z) (rank : nat) : double :=
  let lo := fmul worst (d_of_Z n) in
  let hi := fmul best (d_of_Z n) in
  fdiv (fadd lo (fdiv (fmul (fsub hi lo) (d_of_Z (n - Z.of_nat rank - 1))) (d_of_Z (n - 1)))) (d_of_Z n).
Definition exponential_weight (pw : double -> double -> double) (base : double) (n : Z) (rank : nat) : double :=
  fmul (fdiv (fsub base d1) (fsub (pw base (d_of_Z n)) d1)) (pw base (d_of_Z (Z.of_nat rank))).
(** Probability: everybody's share of the total, and the chance of being the
    one of n drawn exactly k times (times 1e100). *)
Definition share_of (sh : list (nat * double)) (w : double) : double :=
  if fle (total sh) d0 then fdiv d1 (d_of_Z (Z.of_nat (length sh))) else fdiv w (total sh).
Definition binomial_weight (pw : double -> double -> double) (n k : Z) (share : double) : double :=
  fmul (fmul (fofZ (10 ^ 100) 0) (pw share (d_of_Z k))) (pw (fsub d1 share) (d_of_Z (n - k))).
