(** C100: references and iterators of the packed bit container. *)
From Coq Require Import List Arith ZArith Bool Lia.
From Verif Require Import Base Fl Rng RandProofs Box BoxProofs Props_Box MultiBitSet MultiBitSetProofs MultiBitSetProofs2 Props_Bits BitIter.
Import ListNotations.
Open Scope Z_scope.

(** * Specification
    [fits e m l]: the container m is in order and holds the values l (Props_Bits.v);
    [at_index h i l]: iterator i is inside its container, which holds l. *)
Definition fits (e : Z) (m : mbs) (l : list Z) : Prop := valid e 64 m /\ holds e 64 m l.
Definition designates (h : heap) (i : iter) (n : nat) : Prop := index i = Z.of_nat n /\ (Z.of_nat n < bsize (h (owner i))).

Section C100.
Context (e : Z) (He : 0 < e <= 64).
Lemma par : params e 64. Proof using He. split; [right; right; right; reflexivity|exact He]. Qed.
Lemma straddle i : 0 <= i -> straddle_ok e 64 i.
Proof using He. intros Hi. apply aligned_straddle; [exact He|left; lia|exact Hi]. Qed.
Lemma size_lt m : valid e 64 m -> 0 <= bsize m < two64.
Proof using He. intros (_ & A & B & C). unfold two64 in *. nia. Qed.
Lemma get_nth h a l n v : fits e (h a) l -> nth_error l n = Some v -> ref_get e h (mkIter a (Z.of_nat n)) = Ok v.
Proof using He.
  intros (V & L & H) Hn. specialize (H n v Hn). unfold mbs_at in H. unfold ref_get. cbn [owner index].
  destruct (Z.ltb_spec (Z.of_nat n) (bsize (h a))) as [_|C]; [exact H|discriminate H].
Qed.
Lemma set_nth h a l n v : fits e (h a) l -> (n < length l)%nat ->
  exists h', ref_set e h (mkIter a (Z.of_nat n)) v = Ok (v mod 2 ^ e, h') /\ fits e (h' a) (set_at l n (v mod 2 ^ e)) /\ bsize (h' a) = bsize (h a) /\
    length (blocks (h' a)) = length (blocks (h a)) /\ forall b, b <> a -> h' b = h b.
Proof using He.
  intros (V & Hl) Hn. pose proof Hl as (L & _).
  destruct (op_set e 64 He (h a) (Z.of_nat n) v l V ltac:(lia) (straddle (Z.of_nat n) ltac:(lia)) Hl) as (m & E & V' & H'). rewrite Nat2Z.id in H'.
  unfold mbs_set in E. destruct (Z.ltb_spec (Z.of_nat n) (bsize (h a))) as [_|C]; [|lia].
  destruct (set_reads e 64 He (blocks (h a)) (Z.of_nat n) v (proj1 V) (valid_room e 64 He (h a) (Z.of_nat n) V ltac:(lia)) (straddle (Z.of_nat n) ltac:(lia))) as (d & Ed & Ld & _).
  unfold ref_set. cbn [owner index]. rewrite Ed in E |- *. cbn [bind] in E |- *. assert (m = mkMbs d (bsize (h a))) as -> by congruence.
  eexists. split; [reflexivity|]. unfold store. rewrite Nat.eqb_refl. split; [split; assumption|]. split; [reflexivity|]. split; [exact Ld|].
  intros b Hb. destruct (Nat.eqb_spec b a); [contradiction|reflexivity].
Qed.

(** Going from begin() to end() reads every element once, in order ... *)
Lemma read_from h a l : fits e (h a) l -> forall k n fuel, (n + k = length l)%nat -> (k < fuel)%nat ->
  read_loop e fuel h (mkIter a (Z.of_nat n)) = Ok (skipn n l).
Proof using He.
  intros HF. pose proof HF as (V & L & H). pose proof (size_lt _ V) as S1. induction k as [|k IH]; intros n fuel Hk Hf; destruct fuel as [|fuel]; try lia.
  - cbn [read_loop]. unfold it_same, it_end. cbn [owner index]. rewrite Nat.eqb_refl, (proj2 (Z.eqb_eq _ _)) by lia. cbn [andb]. rewrite skipn_all2 by lia. reflexivity.
  - cbn [read_loop]. unfold it_same, it_end. cbn [owner index]. rewrite Nat.eqb_refl, (proj2 (Z.eqb_neq _ _)) by lia. cbn [andb].
    destruct (nth_error l n) as [v|] eqn:Hn; [|apply nth_error_None in Hn; lia]. rewrite (get_nth h a l n v HF Hn). cbn [bind].
    unfold it_inc. cbn [owner index]. rewrite wrap64_small by lia. replace (Z.of_nat n + 1) with (Z.of_nat (S n)) by lia. rewrite (IH (S n) fuel) by lia. cbn [bind].
    f_equal. clear -Hn. revert n Hn. induction l as [|x l IHl]; intros [|n] Hn; try discriminate Hn; [injection Hn as ->; reflexivity|]. exact (IHl n Hn).
Qed.
Theorem C100_forward : forall h a l fuel, fits e (h a) l -> (length l < fuel)%nat -> read_loop e fuel h (it_begin a) = Ok l.
Proof using He. intros h a l fuel HF Hf. exact (read_from h a l HF (length l) 0 fuel eq_refl Hf). Qed.
(** ... and from end() back to begin() in reverse order. *)
Lemma back_from h a l : fits e (h a) l -> forall n fuel, (n <= length l)%nat -> (n < fuel)%nat ->
  read_back e fuel h (mkIter a (Z.of_nat n)) = Ok (rev (firstn n l)).
Proof using He.
  intros HF. pose proof HF as (V & L & H). pose proof (size_lt _ V) as S1. induction n as [|n IH]; intros fuel Hn Hf; destruct fuel as [|fuel]; try lia.
  - cbn [read_back]. unfold it_same, it_begin. cbn [owner index]. rewrite Nat.eqb_refl. reflexivity.
  - cbn [read_back]. unfold it_same, it_begin. cbn [owner index]. rewrite Nat.eqb_refl, (proj2 (Z.eqb_neq _ _)) by lia. cbn [andb].
    destruct (nth_error l n) as [v|] eqn:Hv; [|apply nth_error_None in Hv; lia]. unfold it_dec. cbn [owner index]. cbv zeta.
    rewrite wrap64_small by lia. replace (Z.of_nat (S n) - 1) with (Z.of_nat n) by lia. rewrite (get_nth h a l n v HF Hv), (IH fuel) by lia. cbn [bind].
    f_equal. assert (E : firstn (S n) l = firstn n l ++ [v]).
    { clear -Hv. revert n Hv. induction l as [|x l IHl]; intros [|n] Hv; try discriminate Hv; [injection Hv as ->; reflexivity|]. cbn [firstn app]. f_equal. exact (IHl n Hv). }
    rewrite E, rev_app_distr. reflexivity.
Qed.
Theorem C100_backward : forall h a l fuel, fits e (h a) l -> (length l < fuel)%nat -> read_back e fuel h (it_end h a) = Ok (rev l).
Proof using He.
  intros h a l fuel HF Hf. pose proof HF as (V & L & H). unfold it_end. rewrite <- L, (back_from h a l HF (length l) fuel (le_n _) Hf), firstn_all. reflexivity.
Qed.
(** Assigning through the iterators changes every element by f, modulo 2^eleBits,
    and nothing else. *)
Lemma set_at_mid (p : list Z) x q y : set_at (p ++ x :: q) (length p) y = p ++ y :: q.
Proof. unfold set_at. induction p as [|z p IH]; [reflexivity|]. cbn [length app]. cbn. f_equal. exact IH. Qed.
Lemma write_from f a : forall q p h fuel, fits e (h a) (p ++ q) -> (length q < fuel)%nat ->
  exists h', write_loop e fuel f h (mkIter a (Z.of_nat (length p))) = Ok h' /\ fits e (h' a) (p ++ map (fun x => f x mod 2 ^ e) q) /\ forall b, b <> a -> h' b = h b.
Proof using He.
  induction q as [|x q IH]; intros p h fuel HF Hf; destruct fuel as [|fuel]; cbn [length] in Hf; try lia; pose proof HF as (V & L & H); pose proof (size_lt _ V) as S1; rewrite app_length in L; cbn [length] in L.
  - cbn [write_loop]. unfold it_same, it_end. cbn [owner index]. rewrite Nat.eqb_refl, (proj2 (Z.eqb_eq _ _)) by lia. cbn [andb]. exists h. auto.
  - cbn [write_loop]. unfold it_same, it_end. cbn [owner index]. rewrite Nat.eqb_refl, (proj2 (Z.eqb_neq _ _)) by lia. cbn [andb].
    rewrite (get_nth h a (p ++ x :: q) (length p) x HF) by (rewrite nth_error_app2, Nat.sub_diag by lia; reflexivity). cbn [bind].
    destruct (set_nth h a (p ++ x :: q) (length p) (f x) HF) as (h1 & E1 & F1 & _ & _ & O1); [rewrite app_length; cbn [length]; lia|]. rewrite E1. cbn [bind].
    rewrite set_at_mid in F1. unfold it_inc. cbn [owner index]. rewrite wrap64_small by lia.
    destruct (IH (p ++ [f x mod 2 ^ e]) h1 fuel) as (h' & E' & F' & O'); [rewrite <- app_assoc; exact F1|lia|].
    exists h'. split. { rewrite <- E'. rewrite app_length. cbn [length]. f_equal. f_equal. lia. }
    split; [rewrite <- app_assoc in F'; exact F'|]. intros b Hb. rewrite O', O1; auto.
Qed.
Theorem C100_update : forall f h a l fuel, fits e (h a) l -> (length l < fuel)%nat ->
  exists h', write_loop e fuel f h (it_begin a) = Ok h' /\ fits e (h' a) (map (fun x => f x mod 2 ^ e) l) /\ forall b, b <> a -> h' b = h b.
Proof using He. intros f h a l fuel HF Hf. exact (write_from f a l [] h fuel HF Hf). Qed.

(** A reference reads and writes exactly the element it names; r1 = r2 copies the
    element, also between containers and within one, and leaves the others. *)
Theorem C100_reference : forall h i n l v, designates h i n -> fits e (h (owner i)) l ->
  (exists x, nth_error l n = Some x /\ ref_get e h i = Ok x) /\
  exists h', ref_set e h i v = Ok (v mod 2 ^ e, h') /\ fits e (h' (owner i)) (set_at l n (v mod 2 ^ e)) /\ forall b, b <> owner i -> h' b = h b.
Proof using He.
  intros h [a ix] n l v (Di & Hn) HF. cbn [owner index] in *. subst ix. pose proof HF as (V & L & H).
  destruct (nth_error l n) as [x|] eqn:E; [|apply nth_error_None in E; lia]. split; [exists x; split; [reflexivity|exact (get_nth h a l n x HF E)]|].
  destruct (set_nth h a l n v HF ltac:(lia)) as (h' & E1 & F1 & _ & _ & O1). exists h'. auto.
Qed.
Theorem C100_assign_reference : forall h i j n k l l2, designates h i n -> designates h j k -> fits e (h (owner i)) l -> fits e (h (owner j)) l2 ->
  exists x h', nth_error l2 k = Some x /\ ref_assign e h i j = Ok (x, h') /\ fits e (h' (owner i)) (set_at l n x) /\ forall b, b <> owner i -> h' b = h b.
Proof using He.
  intros h i j n k l l2 Di Dj Fi Fj. destruct (C100_reference h j k l2 0 Dj Fj) as ((x & Ex & Gx) & _).
  destruct (C100_reference h i n l x Di Fi) as (_ & h' & E & F & O).
  assert (Rx : x mod 2 ^ e = x). { apply Z.mod_small. destruct Fj as (V & Hl). pose proof (holds_range e 64 He _ l2 V Hl) as Q. rewrite Forall_forall in Q. apply Q, (nth_error_In _ _ Ex). }
  rewrite Rx in *. exists x, h'. unfold ref_assign. rewrite Gx. cbn [bind]. auto.
Qed.
(** A valid reference or iterator stays one, and keeps naming the element at its
    index, whatever elements are written, pushed and popped within the capacity,
    as long as the index is below the size; shrink_to_fit() included (the memory
    may move: the container is what is referred to). *)
Theorem C100_stable : forall fresh os h i n l l' cap', memory 64 fresh -> designates h i n -> fits e (h (owner i)) l ->
  bsize (h (owner i)) * e <= 2 ^ 24 -> Z.of_nat (length (blocks (h (owner i)))) * 64 <= 2 ^ 24 ->
  lsteps e (l, capacity e 64 (h (owner i))) os (shrunk e 64) = Some (l', cap') -> (n < length l')%nat ->
  exists m', bsteps e 64 fresh (h (owner i)) os = Ok m' /\ exists x, nth_error l' n = Some x /\ ref_get e (store h (owner i) m') i = Ok x.
Proof using He.
  intros fresh os h i n l l' cap' Hm (Di & _) (V & Hl) S1 S2 Hs Hn.
  assert (NP : no_promotion e 64) by (left; lia).
  destruct (C54_history_within_capacity e 64 fresh os (h (owner i)) l l' cap' par NP Hm V S1 Hl S2 Hs) as (m' & E & V' & H' & _).
  exists m'. split; [exact E|]. destruct (nth_error l' n) as [x|] eqn:Ex; [|apply nth_error_None in Ex; lia]. exists x. split; [reflexivity|].
  destruct i as [a ix]. cbn [owner index] in *. subst ix. apply (get_nth _ a l' n x); [|exact Ex]. unfold store. rewrite Nat.eqb_refl. split; assumption.
Qed.
End C100.
Print Assumptions C100_forward.
Print Assumptions C100_backward.
Print Assumptions C100_update.
Print Assumptions C100_reference.
Print Assumptions C100_assign_reference.
Print Assumptions C100_stable.

(** Arithmetic, for indices in the range of a size_t and any offsets; the k-th
    element from the end by end()[-k]; equality is equality of container and
    index; isNull() says that there is no such element. *)
Theorem C100_arithmetic : forall i, 0 <= index i < two64 ->
  (forall k, it_minus (it_plus i k) k = i /\ it_plus (it_minus i k) k = i /\ it_nth i k = it_plus i k /\ it_minus i k = it_plus i (- k)) /\
  (forall j k, it_plus (it_plus i j) k = it_plus i (j + k)) /\
  it_dec (it_inc i) = i /\ it_inc (it_dec i) = i /\ it_plus i 1 = it_inc i /\ it_plus i 0 = i /\
  fst (it_post_inc i) = i /\ snd (it_post_inc i) = it_inc i /\ fst (it_post_dec i) = i /\ snd (it_post_dec i) = it_dec i /\
  (forall j, it_same i j = true <-> i = j) /\
  (forall h, it_null h i = false <-> exists n, designates h i n).
Proof.
  intros [a x] Hx. cbn [index] in Hx. unfold it_minus, it_plus, it_nth, it_inc, it_dec, it_post_inc, it_post_dec, it_same, it_null, designates. cbn [owner index fst snd].
  unfold wrap64, two64 in *. rewrite !Z.sub_0_r || idtac.
  assert (W : forall y, y = x -> y mod 18446744073709551616 = x) by (intros y ->; apply Z.mod_small; lia).
  assert (A : forall u v, (u mod 18446744073709551616 + v) mod 18446744073709551616 = (u + v) mod 18446744073709551616) by (intros; apply Z.add_mod_idemp_l; lia).
  assert (B : forall u v, (u mod 18446744073709551616 - v) mod 18446744073709551616 = (u - v) mod 18446744073709551616) by (intros; apply Zminus_mod_idemp_l).
  split. { intros k. rewrite A, B. unfold it_plus. cbn [owner index]. unfold wrap64, two64. repeat split; f_equal; try (apply W; lia); f_equal; lia. }
  split. { intros j k. rewrite A. f_equal. f_equal. lia. }
  rewrite A, B. repeat (split; [f_equal; apply W; lia || reflexivity|] || (split; [reflexivity|])).
  split.
  - intros [b y]. cbn [owner index]. rewrite andb_true_iff, Nat.eqb_eq, Z.eqb_eq. split; [intros (-> & ->); reflexivity|intros E; injection E; auto].
  - intros h. rewrite Z.leb_gt. split; [intros H; exists (Z.to_nat x); lia|intros (n & -> & H); exact H].
Qed.
Print Assumptions C100_arithmetic.
Theorem C100_from_end : forall e h a l k, 0 < e <= 64 -> fits e (h a) l -> (1 <= k <= length l)%nat ->
  designates h (it_nth (it_end h a) (- Z.of_nat k)) (length l - k) /\ designates h (back_ref h a) (length l - 1) /\ designates h (front_ref a) 0 /\
  it_null h (it_begin a) = false /\ it_null h (it_end h a) = true /\
  forall i, 0 <= i -> (at_ref h a i = Ok (mkIter a i) <-> designates h (mkIter a i) (Z.to_nat i)) /\ (bsize (h a) <= i -> at_ref h a i = Abort).
Proof.
  intros e h a l k He (V & L & _) Hk. pose proof (size_lt e He _ V) as S1. unfold designates, it_nth, it_plus, it_end, back_ref, front_ref, it_null, it_begin, at_ref. cbn [owner index].
  rewrite !wrap64_small by lia. split; [lia|]. split; [lia|]. split; [lia|]. split; [apply Z.leb_gt; lia|]. split; [apply Z.leb_refl|].
  intros i Hi. destruct (Z.ltb_spec i (bsize (h a))); split; try lia; try reflexivity; [split; [lia|reflexivity]|split; [discriminate|lia]].
Qed.
Print Assumptions C100_from_end.

(** Refuted: that a null iterator cannot be read.  There is no check: after
    pop_back(), *end() still is the element that was removed, and on an empty
    container it is undefined. *)
Theorem C100_null_read_refuted : forall h,
  (exists m1 m2, (do m <- mbs_make 7 64 2; do (_, m') <- mbs_set 7 64 m 1 5; Ok m') = Ok m1 /\ mbs_pop m1 = Ok m2 /\
     it_null (store h 0 m2) (it_end (store h 0 m2) 0) = true /\ ref_get 7 (store h 0 m2) (it_end (store h 0 m2) 0) = Ok 5) /\
  ref_get 7 (store h 0 mbs_empty) (it_begin 0) = UB.
Proof.
  intros h. split; [|reflexivity]. eexists. eexists. split; [vm_compute; reflexivity|]. split; [vm_compute; reflexivity|]. split; vm_compute; reflexivity.
Qed.
Print Assumptions C100_null_read_refuted.
(** The hypotheses are met by an ordinary container. *)
Example ex_C100 : exists m h, mbs_make 7 64 25 = Ok m /\ h = store (fun _ => mbs_empty) 3 m /\ fits 7 (h 3%nat) (repeat 0 25) /\ designates h (back_ref h 3) 24.
Proof.
  assert (HP : 0 < 7 <= 64) by lia. assert (H2 : 25 * 7 <= 2 ^ 24) by (cbn; lia).
  destruct (op_make 7 64 (or_intror (or_intror (or_intror eq_refl))) HP 25 eq_refl H2) as (m & E & V & H). exists m, (store (fun _ => mbs_empty) 3 m).
  split; [exact E|]. split; [reflexivity|]. split; [split; assumption|]. assert (H0 : bsize m = 25) by (destruct H as (L & _); rewrite repeat_length in L; lia).
  unfold designates, back_ref, store. cbn [owner index Nat.eqb]. rewrite H0. split; reflexivity || lia.
Qed.

(** * test/multiBitSet.cpp *)
Lemma poke_ok d k v : blocks_ok 64 d -> 0 <= k < 8 * Z.of_nat (length d) ->
  exists d', poke d k v = Ok d' /\ length d' = length d /\ blocks_ok 64 d'.
Proof.
  intros Hd Hk. unfold poke. assert (Hi : 0 <= k / 8 < Z.of_nat (length d)) by (split; [apply Z.div_pos; lia|apply Z.div_lt_upper_bound; lia]).
  rewrite (get_at_nth d (k / 8)) by lia. cbn [bind]. unfold put.
  rewrite (proj2 (Z.leb_le _ _)), (proj2 (Z.ltb_lt _ _)) by lia. cbn [andb]. eexists. split; [reflexivity|]. split; [apply set_at_length|].
  assert (X : 0 <= nth (Z.to_nat (k / 8)) d 0 < 2 ^ 64).
  { unfold blocks_ok in Hd. rewrite Forall_forall in Hd. apply Hd, nth_In. lia. }
  set (x := nth (Z.to_nat (k / 8)) d 0) in *. clearbody x.
  assert (M : 0 <= k mod 8 < 8) by (apply Z.mod_pos_bound; lia). assert (Mv : 0 <= v mod 256 < 256) by (apply Z.mod_pos_bound; lia).
  assert (Y : 0 <= Z.lor (Z.ldiff x (Z.shiftl 255 (8 * (k mod 8)))) (Z.shiftl (v mod 256) (8 * (k mod 8))) < 2 ^ 64).
  { assert (T : forall j, 64 <= j -> Z.testbit x j = false /\ Z.testbit (Z.shiftl (v mod 256) (8 * (k mod 8))) j = false).
    { intros j Hj. split; [apply (tb_hi 64); lia|]. rewrite Z.shiftl_spec by lia. apply (tb_hi 8); lia. }
    assert (P : 0 <= Z.lor (Z.ldiff x (Z.shiftl 255 (8 * (k mod 8)))) (Z.shiftl (v mod 256) (8 * (k mod 8)))).
    { apply Z.lor_nonneg. split; [apply Z.ldiff_nonneg; left; lia|apply Z.shiftl_nonneg; lia]. }
    split; [exact P|]. destruct (Z.eq_dec (Z.lor (Z.ldiff x (Z.shiftl 255 (8 * (k mod 8)))) (Z.shiftl (v mod 256) (8 * (k mod 8)))) 0) as [-> |N]; [lia|].
    apply Z.log2_lt_pow2; [lia|]. apply Z.nle_gt. intros C. destruct (T _ C) as (T1 & T2).
    pose proof (Z.bit_log2 _ ltac:(assert (forall z, 0 <= z -> z <> 0 -> 0 < z) by lia; eauto)) as Q. rewrite Z.lor_spec, Z.ldiff_spec, T1, T2 in Q. discriminate Q. }
  apply (set_ok 64); assumption.
Qed.
Lemma pokes_ok R (HR : rng_ok R) : forall n k d g, blocks_ok 64 d -> 0 <= k -> k + Z.of_nat n <= 8 * Z.of_nat (length d) ->
  exists d' g', pokes R n k d g = Ok (d', g') /\ length d' = length d /\ blocks_ok 64 d'.
Proof.
  induction n as [|n IH]; intros k d g Hd Hk Hn; cbn [pokes]; [eauto|]. destruct (randIdx2 R 0 256 g) as [v g1].
  destruct (poke_ok d k v Hd) as (d1 & E1 & L1 & B1); [lia|]. rewrite E1. cbn [bind]. destruct (IH (k + 1) d1 g1 B1) as (d' & g' & E & L & B'); [lia|rewrite L1; lia|].
  exists d', g'. rewrite E, L, L1. auto.
Qed.
Lemma read_blocks_ok d : forall n k, (n + k = length d)%nat -> read_blocks n (Z.of_nat k) d = Ok (skipn k d).
Proof.
  induction n as [|n IH]; intros k Hk; cbn [read_blocks]; [rewrite skipn_all2 by lia; reflexivity|].
  rewrite get_at_nth by lia. cbn [bind]. replace (Z.of_nat k + 1) with (Z.of_nat (S k)) by lia. rewrite IH by lia. cbn [bind]. rewrite Nat2Z.id. f_equal.
  clear -Hk. revert k Hk. induction d as [|x d IHd]; intros [|k] Hk; cbn [length] in Hk; try lia; [reflexivity|]. apply IHd. lia.
Qed.
(** The program test/multiBitSet.cpp, whatever the random numbers and the memory
    are: it ends without an undefined operation or a failed assertion and prints a
    container of 25 elements below 128 with room for 27, in three blocks, whose
    first element equals its last. *)
Theorem C100_program : forall R fresh g, rng_ok R -> memory 64 fresh ->
  exists out, bits_main R fresh g = Ok out /\ o_size out = 25 /\ o_capacity out = 27 /\ length (o_blocks out) = 3%nat /\ o_bits out = o_blocks out /\
    fits 7 (mkMbs (o_blocks out) 25) (o_elements out) /\ length (o_elements out) = 25%nat /\ Forall (fun x => 0 <= x < 128) (o_elements out) /\
    nth_error (o_elements out) 0 = Some (o_last out) /\ nth_error (o_elements out) 24 = Some (o_last out) /\
    o_begin_null out = false /\ o_end_null out = true /\ o_equal out = true.
Proof.
  intros R fresh g HR Hm. assert (He : 0 < 7 <= 64) by lia. unfold bits_main.
  assert (E0 : mbs_make 7 64 25 = Ok (mkMbs [0; 0; 0] 25)) by (vm_compute; reflexivity). rewrite E0. cbn [bind].
  set (h0 := store (fun _ => mbs_empty) 0 (mkMbs [0; 0; 0] 25)).
  assert (A0 : at_ref h0 0 0 = Ok (mkIter 0 0)) by reflexivity. assert (A6 : at_ref h0 0 6 = Ok (mkIter 0 6)) by reflexivity. rewrite A0, A6. cbn [bind].
  assert (E1 : exists h1, ref_assign 7 h0 (mkIter 0 0) (mkIter 0 6) = Ok (0, h1) /\ h1 0%nat = mkMbs [0; 0; 0] 25).
  { eexists. split; [vm_compute; reflexivity|vm_compute; reflexivity]. }
  destruct E1 as (h1 & E1 & H1). rewrite E1. cbn [bind]. rewrite H1.
  assert (V1 : valid 7 64 (mkMbs [0; 0; 0] 25)).
  { split; [repeat constructor; cbn; lia|]. cbn [bsize blocks length]. unfold two64. lia. }
  destruct (holds_exists 7 64 He (mkMbs [0; 0; 0] 25) V1) as (l1 & Hl1).
  destruct (op_copy 7 64 fresh (or_intror (or_intror (or_intror eq_refl))) He Hm (mkMbs [0; 0; 0] 25) l1 V1 ltac:(cbn; lia) Hl1 ltac:(intros _; reflexivity)) as (c & Ec & _).
  rewrite Ec. cbn [bind]. cbv zeta. cbn [blocks bsize]. change (length [0; 0; 0]%Z * 8)%nat with 24%nat.
  destruct (pokes_ok R HR 24 0 [0; 0; 0] g (proj1 V1)) as (d & g' & Ed & Ld & Bd); [lia|cbn; lia|]. rewrite Ed. cbn [bind].
  cbn [length] in Ld. set (h2 := store h1 0 (mkMbs d 25)). assert (H2 : h2 0%nat = mkMbs d 25) by reflexivity.
  assert (V2 : valid 7 64 (h2 0%nat)). { rewrite H2. split; [exact Bd|]. cbn [bsize blocks]. rewrite Ld. unfold two64. lia. }
  destruct (holds_exists 7 64 He (h2 0%nat) V2) as (l2 & Hl2). assert (F2 : fits 7 (h2 0%nat) l2) by (split; assumption).
  assert (L2 : length l2 = 25%nat). { destruct Hl2 as (L & _). rewrite H2 in L. cbn [bsize] in L. lia. }
  destruct (C100_from_end 7 h2 0 l2 1 He F2 ltac:(lia)) as (_ & Db & Df & _).
  replace (length l2 - 1)%nat with 24%nat in Db by lia.
  destruct (C100_assign_reference 7 He h2 (front_ref 0) (back_ref h2 0) 0 24 l2 l2 Df Db F2 F2) as (x & h3 & Hx & E3 & F3 & _).
  change (owner (front_ref 0)) with 0%nat in F3.
  destruct (set_nth 7 He h2 0 l2 0 x F2 ltac:(lia)) as (h3' & E3' & _ & S3 & B3 & _).
  assert (h3' = h3) as ->.
  { unfold ref_assign in E3. destruct (ref_get 7 h2 (back_ref h2 0)) as [y| | |] eqn:Ey; cbn [bind] in E3; try discriminate E3.
    assert (y = x) as ->. { destruct (C100_reference 7 He h2 (back_ref h2 0) 24 l2 0 Db F2) as ((y' & Hy' & Gy') & _). congruence. }
    change (mkIter 0 (Z.of_nat 0)) with (front_ref 0) in E3'. congruence. }
  rewrite E3. cbn [bind]. cbv zeta. rewrite H2 in S3, B3. cbn [bsize blocks] in S3, B3. rewrite Ld in B3.
  destruct (h3 0%nat) as [d3 s3] eqn:H3. cbn [bsize blocks] in *. subst s3.
  set (l3 := set_at l2 0 x) in *. assert (L3 : length l3 = 25%nat) by (unfold l3; rewrite set_at_length; exact L2).
  rewrite B3. pose proof (read_blocks_ok d3 3 0 ltac:(lia)) as Rb. cbn [skipn Z.of_nat] in Rb. change (Z.of_nat 0) with 0 in Rb. rewrite Rb. cbn [bind].
  assert (F3' : fits 7 (h3 0%nat) l3) by (rewrite H3; exact F3).
  rewrite (C100_forward 7 He h3 0 l3 26 F3' ltac:(lia)). cbn [bind].
  destruct (C100_from_end 7 h3 0 l3 1 He F3' ltac:(lia)) as (Dn & Db3 & Df3 & Nb & Ne & _).
  replace (length l3 - 1)%nat with 24%nat in * by lia.
  assert (X0 : nth_error l3 0 = Some x) by (apply set_at_same; lia).
  assert (X24 : nth_error l3 24 = Some x) by (unfold l3; rewrite set_at_other by lia; exact Hx).
  assert (G : forall i n, designates h3 i n -> owner i = 0%nat -> nth_error l3 n = Some x -> ref_get 7 h3 i = Ok x).
  { intros i n Di Oi Hn. destruct (C100_reference 7 He h3 i n l3 0 Di ltac:(rewrite Oi; exact F3')) as ((y & Hy & Gy) & _). congruence. }
  change (- Z.of_nat 1) with (-1) in Dn. rewrite (G _ 24%nat Dn eq_refl X24). cbn [bind]. rewrite (G _ 0%nat Df3 eq_refl X0). cbn [bind]. rewrite (G _ 24%nat Db3 eq_refl X24). cbn [bind].
  eexists. split; [reflexivity|]. cbn [o_size o_capacity o_blocks o_bits o_elements o_begin_null o_end_null o_last o_equal].
  split; [reflexivity|]. split. { unfold capacity. cbn [blocks]. rewrite B3. reflexivity. }
  split; [exact B3|]. split; [reflexivity|]. split; [exact F3|]. split; [exact L3|].
  split. { exact (holds_range 7 64 He _ l3 (proj1 F3) (proj2 F3)). }
  split; [exact X0|]. split; [exact X24|]. split; [exact Nb|]. split; [exact Ne|]. apply Z.eqb_refl.
Qed.
Print Assumptions C100_program.
(** Some generator and memory meet the hypotheses. *)
Example ex_C100_program : rng_ok replay /\ memory 64 junk64.
Proof. split; [exact replay_ok|exact junk64_memory]. Qed.
