(** C49, the array versions of randD. *)
From Coq Require Import List Arith ZArith Bool Lia Reals.
From Flocq Require Import Core BinarySingleNaN.
From Verif Require Import Base Fl FlFacts Rng RandProofs GlobalProofs Matrix RandArr.
Import ListNotations.
Open Scope Z_scope.

(** [k] successive calls of a drawing function, and the generator after them. *)
Fixpoint calls {A G : Type} (draw : G -> A * G) (k : nat) (g : G) : list A :=
  match k with O => [] | S m => fst (draw g) :: calls draw m (snd (draw g)) end.
Fixpoint after {A G : Type} (draw : G -> A * G) (k : nat) (g : G) : G :=
  match k with O => g | S m => after draw m (snd (draw g)) end.
(** [a'] is [a] with the elements from [dst] on replaced by [new]. *)
Definition overwritten {A} (a : list A) (dst : nat) (new a' : list A) : Prop :=
  length a' = length a /\
  (forall i, (i < length new)%nat -> nth_error a' (dst + i) = nth_error new i) /\
  (forall i, (i < dst \/ dst + length new <= i)%nat -> nth_error a' i = nth_error a i).

Lemma calls_length {A G} (draw : G -> A * G) k g : length (calls draw k g) = k.
Proof. revert g. induction k as [|k IH]; intros g; cbn [calls length]; [reflexivity|rewrite IH; reflexivity]. Qed.
Lemma set_at_len {A} (a : list A) i x : length (Box.set_at a i x) = length a.
Proof. revert i. induction a as [|y a IH]; intros [|i]; cbn; try reflexivity. rewrite IH. reflexivity. Qed.
Lemma set_at_nth {A} (a : list A) i x j : (i < length a)%nat -> nth_error (Box.set_at a i x) j = if Nat.eqb j i then Some x else nth_error a j.
Proof.
  revert i j. induction a as [|y a IH]; intros [|i] [|j] H; cbn [length] in H; cbn; try reflexivity; try lia. apply IH. lia.
Qed.
Section P.
Variable R : rng_ops.
Lemma fill_ok draw n : forall a d g, (d + n <= length a)%nat ->
  exists a', fill_draws R draw a (Z.of_nat d) n g = Ok (a', after draw n g) /\ overwritten a d (calls draw n g) a'.
Proof.
  induction n as [|n IH]; intros a d g H; cbn [fill_draws calls after].
  - exists a. split; [reflexivity|]. split; [reflexivity|]. split; [cbn; lia|reflexivity].
  - destruct (draw g) as [x g1]. cbn [fst snd]. unfold store. replace ((0 <=? Z.of_nat d) && (Z.of_nat d <? Z.of_nat (length a))) with true
      by (symmetry; apply andb_true_iff; split; [apply Z.leb_le|apply Z.ltb_lt]; lia).
    rewrite Nat2Z.id. cbn [bind]. replace (Z.of_nat d + 1) with (Z.of_nat (S d)) by lia.
    destruct (IH (Box.set_at a d x) (S d) g1) as (a' & E & L & I & O); [rewrite set_at_len; lia|].
    exists a'. split; [exact E|]. split; [rewrite L; apply set_at_len|]. rewrite calls_length in *. split.
    + intros [|i] Hi; cbn [length] in Hi; rewrite calls_length in Hi.
      * rewrite Nat.add_0_r. cbn [nth_error]. rewrite O by lia. rewrite set_at_nth by lia. rewrite Nat.eqb_refl. reflexivity.
      * cbn [nth_error]. rewrite <- I by lia. f_equal. lia.
    + intros i Hi. cbn [length] in Hi. rewrite calls_length in Hi. rewrite O by lia. rewrite set_at_nth by lia.
      replace (Nat.eqb i d) with false by (symmetry; apply Nat.eqb_neq; lia). reflexivity.
Qed.
Lemma fill_ub draw n : forall a d g, (d < 0 \/ Z.of_nat (length a) < d + Z.of_nat n) -> (0 < n)%nat -> fill_draws R draw a d n g = UB.
Proof.
  induction n as [|n IH]; intros a d g H Hn; [lia|]. cbn [fill_draws]. destruct (draw g) as [x g1]. unfold store.
  destruct ((0 <=? d) && (d <? Z.of_nat (length a))) eqn:E; [|reflexivity]. apply andb_true_iff in E. destruct E as (E1 & E2).
  apply Z.leb_le in E1. apply Z.ltb_lt in E2. cbn [bind]. apply IH; rewrite ?set_at_len; lia.
Qed.
Lemma calls_all {A G} (draw : G -> A * G) (P : A -> Prop) k : (forall g, P (fst (draw g))) -> forall g, Forall P (calls draw k g).
Proof. intros H. induction k as [|k IH]; intros g; cbn [calls]; constructor; auto. Qed.

(** randD(dst, num): when the num elements from dst on are in the array, exactly those are
    replaced, by num successive results of randD(), all in [0,1); the generator moves on by
    as many draws. *)
Theorem C49_randD_array : forall (a : list double) (dst num : Z) (g : G R), rng_ok R -> 0 <= num -> 0 <= dst -> dst + num <= Z.of_nat (length a) ->
  let new := calls (rand01 R) (Z.to_nat num) g in
  exists a', randD_array R a dst num g = Ok (a', after (rand01 R) (Z.to_nat num) g) /\ overwritten a (Z.to_nat dst) new a' /\
    length new = Z.to_nat num /\ Forall (fun x => fle d0 x = true /\ flt x d1 = true) new.
Proof.
  intros a dst num g HR Hn Hd Hle new. destruct (fill_ok (rand01 R) (Z.to_nat num) a (Z.to_nat dst) g) as (a' & E & O); [lia|].
  exists a'. rewrite Z2Nat.id in E by lia. split; [exact E|]. split; [exact O|]. split; [apply calls_length|]. apply calls_all. apply HR.
Qed.
(** randD(dst, num, min, max): the same with results of randD(min, max), all in [min,max]. *)
Theorem C49_randD_array_range : forall (a : list double) (dst num : Z) (lo hi : double) (g : G R), rng_ok R ->
  fin lo -> fin hi -> fle lo hi = true -> fin (fsub hi lo) -> 0 <= num -> 0 <= dst -> dst + num <= Z.of_nat (length a) ->
  let new := calls (randD_range R lo hi) (Z.to_nat num) g in
  exists a', randD_array_range R a dst num lo hi g = Ok (a', after (randD_range R lo hi) (Z.to_nat num) g) /\ overwritten a (Z.to_nat dst) new a' /\
    length new = Z.to_nat num /\ Forall (fun x => fin x /\ fle lo x = true /\ fle x hi = true) new.
Proof.
  intros a dst num lo hi g HR F1 F2 L F3 Hn Hd Hle new. destruct (fill_ok (randD_range R lo hi) (Z.to_nat num) a (Z.to_nat dst) g) as (a' & E & O); [lia|].
  exists a'. rewrite Z2Nat.id in E by lia. split; [exact E|]. split; [exact O|]. split; [apply calls_length|]. apply calls_all.
  intros g0. apply randD_range_ok; assumption.
Qed.
(** With num <= 0 nothing is written and nothing is drawn, wherever dst points; with
    num > 0 an element outside the array makes the call undefined. *)
Theorem C49_randD_array_edges : forall (a : list double) (dst num : Z) (lo hi : double) (g : G R),
  (num <= 0 -> randD_array R a dst num g = Ok (a, g) /\ randD_array_range R a dst num lo hi g = Ok (a, g)) /\
  (0 < num -> dst < 0 \/ Z.of_nat (length a) < dst + num -> randD_array R a dst num g = UB /\ randD_array_range R a dst num lo hi g = UB).
Proof.
  intros a dst num lo hi g. split.
  - intros H. unfold randD_array, randD_array_range. replace (Z.to_nat num) with 0%nat by lia. split; reflexivity.
  - intros H Ho. split; apply fill_ub; lia.
Qed.
End P.
Print Assumptions C49_randD_array.
Print Assumptions C49_randD_array_range.
Print Assumptions C49_randD_array_edges.
Example C49_array_example :
  exists a', randD_array replay [d1; d1; d1; d1] 1 2 [128; 64; 32] = Ok (a', [32]) /\ nth_error a' 0 = Some d1 /\ nth_error a' 1 = Some (fofZ 128 (-8)) /\ nth_error a' 3 = Some d1.
Proof. eexists. split; [reflexivity|]. repeat split; reflexivity. Qed.
