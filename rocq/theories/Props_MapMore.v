(** C57: iteration, fill and overlapping assignment of matrix maps. *)
From Coq Require Import List Arith ZArith Bool Lia.
From Verif Require Import Base Box BoxProofs Matrix MapMore Props_Matrix.
Import ListNotations.
Open Scope Z_scope.

Lemma ends {T} (a : list T) s : map_fits a s -> map_end s - map_begin s = mrows s * mcols s /\ 0 <= mrows s * mcols s.
Proof.
  intros (A & B & C & D & E). assert (0 <= mrows s * mcols s) by nia. unfold map_end, map_begin, map_size. rewrite wrap64_small by lia. lia.
Qed.
Lemma visit_spec {T} (a : list T) n : forall it, 0 <= it -> it + Z.of_nat n <= Z.of_nat (length a) ->
  exists l, map_visit a it n = Ok l /\ length l = n /\ forall k x, 0 <= k < Z.of_nat n -> nth_error l (Z.to_nat k) = Some x <-> get_at a (it + k) = Ok x.
Proof.
  induction n as [|n IH]; intros it H1 H2; cbn [map_visit].
  - exists []. split; [reflexivity|]. split; [reflexivity|]. intros k x Hk. lia.
  - destruct (get_at_in a it ltac:(lia)) as (x & Ex & _). rewrite Ex. cbn [bind]. destruct (IH (it + 1) ltac:(lia) ltac:(lia)) as (l & E & L & Q). rewrite E. cbn [bind].
    exists (x :: l). split; [reflexivity|]. split; [cbn [length]; lia|]. intros k y Hk. destruct (Z.eq_dec k 0) as [->|N].
    + rewrite Z.add_0_r, Ex. cbn. split; intros H; injection H as <-; reflexivity.
    + replace (Z.to_nat k) with (S (Z.to_nat (k - 1))) by lia. cbn [nth_error]. rewrite (Q (k - 1) y) by lia. replace (it + 1 + (k - 1)) with (it + k) by lia. reflexivity.
Qed.
(** The loop from begin() to end() visits every element once, in the order of their
    numbers: (r,c) comes rows*c + r-th. *)
Theorem C57_iteration : forall (T : Type) (a : list T) (s : mmap), map_fits a s ->
  exists l, map_iterate a s = Ok l /\ Z.of_nat (length l) = mrows s * mcols s /\
    forall r c, 0 <= r < mrows s -> 0 <= c < mcols s -> exists x, map_rc a s r c = Ok x /\ nth_error l (Z.to_nat (mrows s * c + r)) = Some x.
Proof.
  intros T a s F. destruct (ends a s F) as (E & P). pose proof F as (A & _ & _ & _ & B).
  unfold map_iterate. rewrite E. destruct (visit_spec a (Z.to_nat (mrows s * mcols s)) (map_begin s)) as (l & V & L & Q); [exact A|unfold map_begin; lia|].
  exists l. split; [exact V|]. split; [lia|]. intros r c Hr Hc. destruct (map_index a s r c F Hr Hc) as (W & I).
  destruct (get_at_in a (base s + (mrows s * c + r)) ltac:(lia)) as (x & Ex & _). exists x. split.
  - unfold map_rc, map_at. rewrite W. exact Ex.
  - apply Q; [lia|exact Ex].
Qed.
Lemma fill_spec {T} x n : forall (a : list T) it, 0 <= it -> it + Z.of_nat n <= Z.of_nat (length a) ->
  exists a', fill_loop a it x n = Ok a' /\ length a' = length a /\ (forall k, it <= k < it + Z.of_nat n -> get_at a' k = Ok x) /\
    (forall k, (k < it \/ it + Z.of_nat n <= k) -> get_at a' k = get_at a k).
Proof.
  induction n as [|n IH]; intros a it H1 H2; cbn [fill_loop].
  - exists a. repeat split; intros; lia.
  - rewrite store_ok by lia. cbn [bind]. destruct (IH (set_at a (Z.to_nat it) x) (it + 1)) as (a' & E & L & Q1 & Q2); rewrite ?set_at_length; try lia.
    exists a'. split; [exact E|]. split; [rewrite L; apply set_at_length|]. split.
    + intros k Hk. destruct (Z.eq_dec k it) as [->|N]; [rewrite Q2 by lia; apply get_set_same; lia|apply Q1; lia].
    + intros k Hk. rewrite Q2 by lia. apply get_set_other; lia.
Qed.
(** fill() writes every element and nothing else. *)
Theorem C57_fill : forall (T : Type) (a : list T) (s : mmap) x, map_fits a s ->
  exists a', map_fill a s x = Ok a' /\ length a' = length a /\
    (forall r c, 0 <= r < mrows s -> 0 <= c < mcols s -> map_rc a' s r c = Ok x) /\
    (forall k, k < base s \/ base s + mrows s * mcols s <= k -> get_at a' k = get_at a k).
Proof.
  intros T a s x F. destruct (ends a s F) as (E & P). pose proof F as (A & _ & _ & _ & B).
  unfold map_fill. rewrite E. destruct (fill_spec x (Z.to_nat (mrows s * mcols s)) a (map_begin s)) as (a' & V & L & Q1 & Q2); [exact A|unfold map_begin; lia|].
  unfold map_begin in *. rewrite Z2Nat.id in Q1, Q2 by lia. exists a'. split; [exact V|]. split; [exact L|]. split; [|exact Q2].
  intros r c Hr Hc. destruct (map_index a s r c F Hr Hc) as (W & I). unfold map_rc, map_at. rewrite W. apply Q1. lia.
Qed.
(** Assignment to a map that starts [d] elements inside the source: the first [d]
    elements are repeated over and over. *)
Lemma copy_repeats {T} (src dst : mmap) (a0 : list T) N d n : base dst = base src + d -> 0 < d < N -> forall (a : list T) k,
  0 <= k -> k + Z.of_nat n = N ->
  0 <= base src -> base src + d + N <= Z.of_nat (length a) -> length a = length a0 ->
  (forall i, 0 <= i < d -> get_at a (base src + i) = get_at a0 (base src + i)) ->
  (forall i, 0 <= i < k -> get_at a (base src + d + i) = get_at a0 (base src + i mod d)) ->
  exists a', copy_loop a src dst k n = Ok a' /\ length a' = length a /\
    (forall i, 0 <= i < N -> get_at a' (base src + d + i) = get_at a0 (base src + i mod d)) /\
    (forall j, (j < base src + d + k \/ base src + d + N <= j) -> get_at a' j = get_at a j).
Proof.
  intros Hb Hd. induction n as [|n IH]; intros a k Hk HN B1 R L0 S Q; cbn [copy_loop].
  - exists a. split; [reflexivity|]. split; [reflexivity|]. split; [intros; apply Q; lia|reflexivity].
  - unfold map_at, map_set. rewrite Hb. destruct (get_at_in a (base src + k) ltac:(lia)) as (x & Ex & _). rewrite Ex. cbn [bind]. rewrite store_ok by lia. cbn [bind].
    assert (X : get_at a0 (base src + k mod d) = Ok x).
    { rewrite <- Ex. destruct (Z_lt_le_dec k d) as [Lt|Ge].
      - rewrite Z.mod_small by lia. symmetry. apply S. lia.
      - replace k with (d + (k - d)) at 2 by lia. rewrite Z.add_assoc, Q by lia. f_equal. f_equal. replace k with (k - d + 1 * d) at 1 by lia. apply Z.mod_add. lia. }
    destruct (IH (set_at a (Z.to_nat (base src + d + k)) x) (k + 1)) as (a' & E & L & Q1 & Q2); rewrite ?set_at_length; try lia.
    + intros i Hi. rewrite get_set_other by lia. apply S, Hi.
    + intros i Hi. destruct (Z.eq_dec i k) as [->|N0]; [rewrite get_set_same by lia; symmetry; exact X|rewrite get_set_other by lia; apply Q; lia].
    + exists a'. split; [exact E|]. split; [rewrite L; apply set_at_length|]. split; [exact Q1|].
      intros j Hj. rewrite Q2 by lia. apply get_set_other; lia.
Qed.
Theorem C57_overlap_repeats : forall (T : Type) (a : list T) (src dst : mmap) d, map_fits a src -> map_fits a (map_resize dst (mrows src) (mcols src)) ->
  base dst = base src + d -> 0 < d < mrows src * mcols src ->
  exists a' dst', deepCopyTo a src dst = Ok (a', dst') /\ length a' = length a /\ mrows dst' = mrows src /\ mcols dst' = mcols src /\
    (forall i, 0 <= i < mrows src * mcols src -> map_at a' dst' i = map_at a src (i mod d)) /\
    (forall j, j < base dst \/ base dst + mrows src * mcols src <= j -> get_at a' j = get_at a j).
Proof.
  intros T a src dst d F (D1 & D2 & D3 & D4 & D5) Hb Hd. pose proof F as (S1 & S2 & S3 & S4 & S5). cbn [map_resize base mrows mcols] in *.
  destruct (copy_repeats src (mkMap (base dst) (mrows src) (mcols src)) a (mrows src * mcols src) d (Z.to_nat (mrows src * mcols src)) Hb Hd a 0)
    as (a' & E & L & Q1 & Q2); cbn [base]; try lia; [reflexivity|].
  exists a', (mkMap (base dst) (mrows src) (mcols src)). split.
  { unfold deepCopyTo, map_size. rewrite wrap64_small by lia. rewrite E. reflexivity. }
  split; [exact L|]. split; [reflexivity|]. split; [reflexivity|]. split.
  - intros i Hi. unfold map_at. cbn [base]. rewrite Hb. apply Q1, Hi.
  - intros j Hj. apply Q2. lia.
Qed.
Print Assumptions C57_iteration.
Print Assumptions C57_fill.
Print Assumptions C57_overlap_repeats.
Example ex_C57_more : map_iterate [7; 1; 2; 3; 4; 9] (mkMap 1 2 2) = Ok [1; 2; 3; 4] /\ map_fill [7; 1; 2; 3; 4; 9] (mkMap 1 2 2) 0 = Ok [7; 0; 0; 0; 0; 9] /\
  deepCopyTo [1; 2; 3; 4; 5; 6] (mkMap 0 2 2) (mkMap 2 2 2) = Ok ([1; 2; 1; 2; 1; 2], mkMap 2 2 2).
Proof. repeat split; reflexivity. Qed.
