(** Proofs about MultiBitSet: the bit stream read and written by the packed accessors. *)
From Coq Require Import List Arith ZArith Bool Lia.
From Verif Require Import Base Fl Box BoxProofs MultiBitSet.
Import ListNotations.
Open Scope Z_scope.

(** Bit [k] of the container, counted from the most significant bit of the first block. *)
Definition sbit (B : Z) (d : list Z) (k : Z) : bool :=
  Z.testbit (nth (Z.to_nat (k / B)) d 0) (B - 1 - k mod B).
Definition blocks_ok (B : Z) (d : list Z) : Prop := Forall (fun x => 0 <= x < 2 ^ B) d.

Section P.
Context (e B : Z) (fresh : Z -> list Z).
Hypothesis He : 0 < e <= B.

Definition room (d : list Z) (i : Z) : Prop :=
  0 <= i /\ (i + 1) * e <= Z.of_nat (length d) * B /\ (i + 1) * e <= two64.

Lemma tb_hi x k : 0 <= x < 2 ^ B -> B <= k -> Z.testbit x k = false.
Proof.
  intros H K. destruct (Z.eq_dec x 0) as [->|N]; [apply Z.bits_0|]. apply Z.bits_above_log2; [lia|].
  apply Z.log2_lt_pow2; [lia|]. apply Z.lt_le_trans with (2 ^ B); [lia|]. apply Z.pow_le_mono_r; lia.
Qed.
Lemma mask_tb j : 0 <= j -> Z.testbit (blockMask e) j = (j <? e).
Proof.
  intros H. unfold blockMask. rewrite Z.shiftl_1_l. rewrite <- (Z.ones_equiv e) || idtac.
  replace (2 ^ e - 1) with (Z.ones e) by (rewrite Z.ones_equiv; lia).
  destruct (Z.ltb_spec j e); [apply Z.ones_spec_low; lia|apply Z.ones_spec_high; lia].
Qed.
Lemma mask_range x : 0 <= Z.land x (blockMask e) < 2 ^ e.
Proof.
  unfold blockMask. rewrite Z.shiftl_1_l. replace (2 ^ e - 1) with (Z.ones e) by (rewrite Z.ones_equiv; lia).
  rewrite Z.land_ones by lia. apply Z.mod_pos_bound. apply Z.pow_pos_nonneg; lia.
Qed.
Lemma to_block_tb x j : 0 <= j -> Z.testbit (to_block B x) j = (j <? B) && Z.testbit x j.
Proof.
  intros H. unfold to_block. destruct (Z.ltb_spec j B); cbn [andb].
  - apply Z.mod_pow2_bits_low. lia.
  - apply Z.mod_pow2_bits_high. lia.
Qed.
Lemma to_block_range x : 0 <= to_block B x < 2 ^ B.
Proof. apply Z.mod_pos_bound. apply Z.pow_pos_nonneg; lia. Qed.
Lemma shl_tb x k j : 0 <= j < B -> 0 <= k -> Z.testbit (shl B x k) j = Z.testbit x (j - k).
Proof.
  intros Hj Hk. unfold shl. destruct (B <? 32).
  - apply Z.shiftl_spec; lia.
  - rewrite to_block_tb by lia. destruct (Z.ltb_spec j B); [|lia]. apply Z.shiftl_spec; lia.
Qed.
Lemma shl_tb_wide x k j : 32 <= B -> 0 <= j -> 0 <= k -> Z.testbit (shl B x k) j = (j <? B) && Z.testbit x (j - k).
Proof.
  intros HB Hj Hk. unfold shl. destruct (Z.ltb_spec B 32); [lia|].
  rewrite to_block_tb by lia. f_equal. apply Z.shiftl_spec; lia.
Qed.

(** An element lies in one block, or in two consecutive ones. *)
Lemma locate i : 0 <= i ->
  (exists p r, 0 <= p /\ (e * i) / B = p /\ ((i + 1) * e - 1) / B = p /\ (i + 1) * e - 1 = p * B + r /\
     e - 1 <= r < B) \/
  (exists p r, 0 <= p /\ (e * i) / B = p /\ ((i + 1) * e - 1) / B = p + 1 /\ (i + 1) * e - 1 = (p + 1) * B + r /\
     0 <= r < e - 1).
Proof.
  intros Hi. set (p := (e * i) / B). set (s := (e * i) mod B).
  assert (E : e * i = B * p + s) by (apply Z.div_mod; lia).
  assert (S : 0 <= s < B) by (apply Z.mod_pos_bound; lia).
  assert (Hp : 0 <= p) by (apply Z.div_pos; nia).
  destruct (Z.le_gt_cases B (s + e - 1)) as [H|H].
  - right. exists p, (s + e - 1 - B). repeat split; try lia; try nia.
    symmetry. apply Z.div_unique with (s + e - 1 - B); lia.
  - left. exists p, (s + e - 1). repeat split; try lia; try nia.
    symmetry. apply Z.div_unique with (s + e - 1); lia.
Qed.
Lemma no_wrap d i : room d i -> wrap64 (e * i) = e * i /\ wrap64 ((i + 1) * e - 1) = (i + 1) * e - 1.
Proof. intros (A & C & D). split; apply wrap64_small; nia. Qed.

Lemma get_at_nth (d : list Z) p : 0 <= p < Z.of_nat (length d) -> get_at d p = Ok (nth (Z.to_nat p) d 0).
Proof.
  intros H. destruct (get_at_in d p H) as (x & E & N). rewrite E. f_equal. symmetry. apply nth_error_nth. exact N.
Qed.
Lemma nth_ok d p : blocks_ok B d -> 0 <= p < Z.of_nat (length d) -> 0 <= nth (Z.to_nat p) d 0 < 2 ^ B.
Proof. intros H Hp. unfold blocks_ok in H. rewrite Forall_forall in H. apply H. apply nth_In. lia. Qed.
Lemma put_ok (d : list Z) p x : 0 <= p < Z.of_nat (length d) -> put d p x = Ok (set_at d (Z.to_nat p) x).
Proof. intros H. unfold put. destruct (Z.leb_spec 0 p), (Z.ltb_spec p (Z.of_nat (length d))); try lia. reflexivity. Qed.
Lemma nth_set d p q x : 0 <= p < Z.of_nat (length d) -> 0 <= q ->
  nth (Z.to_nat q) (set_at d (Z.to_nat p) x) 0 = if q =? p then x else nth (Z.to_nat q) d 0.
Proof.
  intros Hp Hq. destruct (Z.eqb_spec q p) as [->|N].
  - apply nth_error_nth. apply set_at_same. lia.
  - destruct (Nat.lt_ge_cases (Z.to_nat q) (length d)) as [L|L].
    + apply nth_error_nth. rewrite set_at_other by lia. apply nth_error_nth'. exact L.
    + rewrite !nth_overflow; rewrite ?set_at_length; auto.
Qed.
Lemma set_ok d p x : blocks_ok B d -> 0 <= x < 2 ^ B -> blocks_ok B (set_at d p x).
Proof.
  unfold blocks_ok. intros H Hx. revert p. induction H as [|y d Hy H IH]; intros [|p]; cbn; constructor; auto.
Qed.

(** Reading. *)
Lemma get_spec d i : blocks_ok B d -> room d i ->
  exists v, getValue e B d i = Ok v /\ 0 <= v < 2 ^ e /\
    forall j, 0 <= j < e -> Z.testbit v j = sbit B d ((i + 1) * e - 1 - j).
Proof.
  intros Hd HR. destruct (no_wrap d i HR) as (W1 & W2). destruct HR as (Hi & Hl & _).
  unfold getValue. rewrite W1, W2. destruct (locate i Hi) as [(p & r & Hp & E1 & E2 & E3 & Hr)|(p & r & Hp & E1 & E2 & E3 & Hr)].
  - rewrite E1, E2, Z.eqb_refl. assert (Hpl : p < Z.of_nat (length d)) by nia.
    rewrite (get_at_nth d p) by lia. cbn [bind]. eexists. split; [reflexivity|]. split; [apply mask_range|].
    intros j Hj. rewrite Z.land_spec, mask_tb by lia. destruct (Z.ltb_spec j e); [|lia]. rewrite andb_true_r.
    rewrite Z.shiftr_spec by lia. unfold sbit. rewrite E3.
    replace (p * B + r - j) with ((r - j) + p * B) by ring. rewrite Z.div_add by lia. rewrite Z.mod_add by lia.
    rewrite (Z.div_small (r - j)) by lia. rewrite (Z.mod_small (r - j)) by lia. cbn [Z.add]. f_equal. lia.
  - rewrite E1, E2. destruct (Z.eqb_spec p (p + 1)); [lia|]. assert (Hpl : p + 1 < Z.of_nat (length d)) by nia.
    rewrite !get_at_nth by lia. cbn [bind]. eexists. split; [reflexivity|]. split; [apply mask_range|].
    intros j Hj. rewrite Z.land_spec, mask_tb by lia. destruct (Z.ltb_spec j e); [|lia]. rewrite andb_true_r.
    rewrite to_block_tb by lia. destruct (Z.ltb_spec j B); [|lia]. cbn [andb].
    rewrite Z.lor_spec, shl_tb, Z.shiftr_spec by lia. rewrite E3. unfold sbit.
    replace (j - ((p + 1) * B + r - (p + 1) * B + 1)) with (j - r - 1) by ring.
    destruct (Z.le_gt_cases j r) as [J|J].
    + rewrite (Z.testbit_neg_r _ (j - r - 1)) by lia. cbn [orb].
      replace ((p + 1) * B + r - j) with ((r - j) + (p + 1) * B) by ring. rewrite Z.div_add, Z.mod_add by lia.
      rewrite (Z.div_small (r - j)), (Z.mod_small (r - j)) by lia. rewrite Z.add_0_l. f_equal. lia.
    + rewrite (tb_hi (nth (Z.to_nat (p + 1)) d 0)) by (try apply nth_ok; try assumption; lia). rewrite orb_false_r.
      replace ((p + 1) * B + r - j) with ((B + r - j) + p * B) by ring. rewrite Z.div_add, Z.mod_add by lia.
      rewrite (Z.div_small (B + r - j)), (Z.mod_small (B + r - j)) by lia. rewrite Z.add_0_l. f_equal. lia.
Qed.

(** Writing.  [straddle_ok] excludes blocks narrower than int for elements that
    cross a block boundary. *)
Definition straddle_ok (i : Z) : Prop := 32 <= B \/ (e * i) / B = ((i + 1) * e - 1) / B.
Lemma set_spec d i v : blocks_ok B d -> room d i -> straddle_ok i ->
  exists w d', setValue e B d i v = Ok (w, d') /\ length d' = length d /\ blocks_ok B d' /\
    w = Z.land v (blockMask e) /\
    forall k, 0 <= k < Z.of_nat (length d) * B ->
      sbit B d' k = if (e * i <=? k) && (k <? (i + 1) * e) then Z.testbit v ((i + 1) * e - 1 - k) else sbit B d k.
Proof.
  intros Hd HR HS. destruct (no_wrap d i HR) as (W1 & W2). destruct HR as (Hi & Hl & _).
  unfold setValue. rewrite W1, W2.
  assert (Hv : Z.land (to_block B v) (blockMask e) = Z.land v (blockMask e)).
  { apply Z.bits_inj'. intros j Hj. rewrite !Z.land_spec, mask_tb, to_block_tb by lia.
    destruct (Z.ltb_spec j e); [|rewrite !andb_false_r; reflexivity]. destruct (Z.ltb_spec j B); [|lia]. reflexivity. }
  rewrite Hv. set (w := Z.land v (blockMask e)).
  assert (Tw : forall j, 0 <= j < e -> Z.testbit w j = Z.testbit v j).
  { intros j Hj. unfold w. rewrite Z.land_spec, mask_tb by lia. destruct (Z.ltb_spec j e); [|lia]. apply andb_true_r. }
  assert (Tw0 : forall j, e <= j -> Z.testbit w j = false).
  { intros j Hj. unfold w. rewrite Z.land_spec, mask_tb by lia. destruct (Z.ltb_spec j e); [lia|]. apply andb_false_r. }
  assert (Twn : forall j, j < 0 -> Z.testbit w j = false) by (intros; apply Z.testbit_neg_r; assumption).
  destruct (locate i Hi) as [(p & r & Hp & E1 & E2 & E3 & Hr)|(p & r & Hp & E1 & E2 & E3 & Hr)].
  - rewrite E1, E2, Z.eqb_refl. assert (Hpl : p < Z.of_nat (length d)) by nia.
    rewrite (get_at_nth d p) by lia. cbn [bind]. rewrite put_ok by lia. cbn [bind].
    eexists _, _. split; [reflexivity|]. split; [apply set_at_length|].
    split; [apply set_ok; [exact Hd|apply to_block_range]|]. split; [reflexivity|].
    intros k Hk. unfold sbit at 1. assert (Hq : 0 <= k / B) by (apply Z.div_pos; lia).
    rewrite nth_set by lia. pose proof (Z.div_mod k B ltac:(lia)) as DM. pose proof (Z.mod_pos_bound k B ltac:(lia)) as MB.
    set (q := k / B) in *. set (s := k mod B) in *.
    destruct (Z.eqb_spec q p) as [Q|Q].
    + replace ((p + 1) * B - ((i + 1) * e - 1) - 1) with (B - 1 - r) by lia.
      rewrite to_block_tb, Z.lor_spec, Z.land_spec, to_block_tb, Z.lnot_spec, !shl_tb by lia.
      destruct (Z.ltb_spec (B - 1 - s) B); [|lia]. cbn [andb].
      replace (B - 1 - s - (B - 1 - r)) with (r - s) by ring.
      assert (Ek : k - e * i = s - (r - e + 1)) by nia.
      destruct (Z.leb_spec (e * i) k), (Z.ltb_spec k ((i + 1) * e)); cbn [andb].
      * rewrite Tw, mask_tb by nia. destruct (Z.ltb_spec (r - s) e); [|nia]. cbn [negb]. rewrite andb_false_r. cbn [orb]. f_equal. nia.
      * rewrite Twn by nia. rewrite orb_false_r. unfold sbit. fold q s. rewrite Q.
        rewrite Z.testbit_neg_r with (n := r - s) by nia. apply andb_true_r.
      * rewrite Tw0 by nia. rewrite orb_false_r. unfold sbit. fold q s. rewrite Q.
        rewrite mask_tb by nia. destruct (Z.ltb_spec (r - s) e); [nia|]. apply andb_true_r.
      * nia.
    + unfold sbit. fold q s. destruct (Z.leb_spec (e * i) k), (Z.ltb_spec k ((i + 1) * e)); cbn [andb]; try reflexivity.
      exfalso. apply Q. apply Z.le_antisymm; nia.
  - rewrite E1, E2. destruct (Z.eqb_spec p (p + 1)); [lia|]. assert (Hpl : p + 1 < Z.of_nat (length d)) by nia.
    destruct HS as [HB|HS]; [|lia].
    rewrite !get_at_nth by lia. cbn [bind]. rewrite put_ok by lia. cbn [bind].
    rewrite put_ok by (rewrite set_at_length; lia). cbn [bind].
    eexists _, _. split; [reflexivity|]. split; [rewrite !set_at_length; reflexivity|].
    split; [apply set_ok; [apply set_ok; [exact Hd|]|]; apply to_block_range|]. split; [reflexivity|].
    replace ((p + 1) * B - e * i) with (e - 1 - r) by lia.
    replace ((i + 1) * e - 1 - (p + 1) * B + 1) with (r + 1) by lia.
    intros k Hk. unfold sbit at 1. assert (Hq : 0 <= k / B) by (apply Z.div_pos; lia).
    pose proof (Z.div_mod k B ltac:(lia)) as DM. pose proof (Z.mod_pos_bound k B ltac:(lia)) as MB.
    rewrite nth_set by (rewrite ?set_at_length; lia). rewrite nth_set by lia.
    set (q := k / B) in *. set (s := k mod B) in *. unfold sbit. fold q s.
    destruct (Z.eqb_spec q (p + 1)) as [Q|Q]; [|destruct (Z.eqb_spec q p) as [Q'|Q']].
    + rewrite to_block_tb, Z.lor_spec, to_block_tb, Z.shiftr_spec, shl_tb_wide, shl_tb by lia.
      destruct (Z.ltb_spec (B - 1 - s) B); [|lia]. cbn [andb].
      replace (B - 1 - s - (B - (r + 1))) with (r - s) by ring. rewrite Q.
      destruct (Z.leb_spec (e * i) k), (Z.ltb_spec k ((i + 1) * e)); cbn [andb]; try nia.
      * destruct (Z.ltb_spec (B - 1 - s + (r + 1)) B); [nia|]. cbn [andb orb]. rewrite Tw by nia. f_equal. nia.
      * destruct (Z.ltb_spec (B - 1 - s + (r + 1)) B); [|nia]. cbn [andb]. rewrite Twn by nia. rewrite orb_false_r.
        f_equal. lia.
    + rewrite to_block_tb, Z.lor_spec, to_block_tb, Z.shiftr_spec by lia.
      destruct (Z.ltb_spec (B - 1 - s) B); [|lia]. cbn [andb]. rewrite shl_tb by lia. rewrite Q'.
      replace (B - 1 - s + (r + 1)) with (B + r - s) by ring.
      destruct (Z.leb_spec (e * i) k), (Z.ltb_spec k ((i + 1) * e)); cbn [andb]; try nia.
      * rewrite Z.testbit_neg_r with (n := B - 1 - s - (e - 1 - r)) by nia. cbn [orb]. rewrite Tw by nia. f_equal. nia.
      * rewrite Tw0 by nia. rewrite orb_false_r. rewrite Z.shiftr_spec by nia. f_equal. lia.
    + destruct (Z.leb_spec (e * i) k), (Z.ltb_spec k ((i + 1) * e)); cbn [andb]; try reflexivity.
      exfalso. assert (p <= q) by nia. assert (q <= p + 1) by nia. lia.
Qed.
End P.
