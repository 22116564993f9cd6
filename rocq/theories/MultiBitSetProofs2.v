(** Proofs about MultiBitSet, part 2: block counts, and the container operations. *)
From Coq Require Import List Arith ZArith Bool Lia Reals Lra.
From Flocq Require Import Core BinarySingleNaN.
From Verif Require Import Base Fl FlFacts Box BoxProofs MultiBitSet MultiBitSetProofs.
Import ListNotations.
Open Scope Z_scope.

(** * Block counts *)
Lemma f_of_Z_small x : 0 <= x <= 2 ^ 24 -> fin (f_of_Z x) /\ B2R (f_of_Z x) = IZR x.
Proof.
  intros H. destruct (@fofZ_exact 24 128 _ _ x 0) as (A & C); [|vm_compute; discriminate|lia|].
  - rewrite Z.abs_eq by lia. apply H.
  - split; [exact A|]. unfold f_of_Z. rewrite C. cbn [bpow]. ring.
Qed.
Lemma ceil_div x k : 0 <= x <= 2 ^ 24 -> 0 <= k <= 20 ->
  fceil (fdiv (f_of_Z x) (f_of_Z (2 ^ k))) = (x + 2 ^ k - 1) / 2 ^ k.
Proof.
  intros Hx Hk.
  assert (P : 0 < 2 ^ k) by (apply Z.pow_pos_nonneg; lia).
  assert (P2 : 2 ^ k <= 2 ^ 24) by (apply Z.pow_le_mono_r; lia).
  destruct (f_of_Z_small x Hx) as (Fx & Vx). destruct (f_of_Z_small (2 ^ k)) as (Fk & Vk); [lia|].
  assert (K0 : (0 < IZR (2 ^ k))%R) by (apply IZR_lt; exact P).
  assert (Kb : IZR (2 ^ k) = bpow radix2 k) by (apply (IZR_Zpower radix2); lia).
  assert (Q : (IZR x / IZR (2 ^ k) = IZR x * bpow radix2 (- k))%R).
  { rewrite Kb, bpow_opp. reflexivity. }
  assert (G : generic_format radix2 (SpecFloat.fexp 24 128) (IZR x * bpow radix2 (- k))%R).
  { apply gen_IZR_bpow; [exact _|rewrite Z.abs_eq by lia; apply Hx|apply Z.le_trans with (-20); [vm_compute; discriminate|lia]]. }
  assert (U : (0 <= IZR x / IZR (2 ^ k) <= IZR (2 ^ 24))%R).
  { split.
    - apply Rmult_le_pos; [apply IZR_le; lia|]. apply Rlt_le, Rinv_0_lt_compat, K0.
    - apply Rle_trans with (IZR x); [|apply IZR_le; lia].
      apply Rmult_le_reg_r with (IZR (2 ^ k)); [exact K0|]. unfold Rdiv. rewrite Rmult_assoc, Rinv_l by lra.
      assert (1 <= IZR (2 ^ k))%R by (apply IZR_le; lia). assert (0 <= IZR x)%R by (apply IZR_le; lia). nra. }
  assert (E : round radix2 (SpecFloat.fexp 24 128) (round_mode mode_NE) (IZR x / IZR (2 ^ k)) = (IZR x / IZR (2 ^ k))%R).
  { rewrite Q. apply round_generic; [typeclasses eauto|exact G]. }
  destruct (fdiv_fin 24 128 _ _ (f_of_Z x) (f_of_Z (2 ^ k)) Fx) as (Fq & Vq).
  { rewrite Vk. lra. }
  { rewrite Vx, Vk. change (round radix2 (SpecFloat.fexp 24 128) ZnearestE) with (round radix2 (SpecFloat.fexp 24 128) (round_mode mode_NE)).
    rewrite E. rewrite Rabs_pos_eq by lra. apply Rle_lt_trans with (1 := proj2 U).
    change (IZR (2 ^ 24)) with (IZR (Zpower radix2 24)). rewrite IZR_Zpower by lia. apply bpow_lt. lia. }
  rewrite Vx, Vk in Vq. change (round radix2 (SpecFloat.fexp 24 128) ZnearestE) with (round radix2 (SpecFloat.fexp 24 128) (round_mode mode_NE)) in Vq.
  rewrite E in Vq. set (q := fdiv (f_of_Z x) (f_of_Z (2 ^ k))) in *. unfold fceil.
  assert (T : Btrunc q = x / 2 ^ k).
  { assert (E0 : Btrunc q = Ztrunc (B2R q)).
    { apply eq_IZR. rewrite (Btrunc_correct 24 128 _). apply round_FIX_IZR. }
    rewrite E0, Vq, Ztrunc_floor by lra. apply Zfloor_div. lia. }
  rewrite T. set (t := x / 2 ^ k).
  pose proof (Z.div_mod x (2 ^ k) ltac:(lia)) as DM. pose proof (Z.mod_pos_bound x (2 ^ k) P) as MB. fold t in DM.
  assert (Ht : 0 <= t <= 2 ^ 24).
  { split; [apply Z.div_pos; lia|]. apply Z.le_trans with x; [|lia]. apply Z.div_le_upper_bound; nia. }
  destruct (f_of_Z_small t Ht) as (Ft & Vt).
  destruct (flt (f_of_Z t) q) eqn:L.
  - apply flt_true in L. destruct L as (_ & _ & L). rewrite (fval_fin _ _ _ Ft), (fval_fin _ _ _ Fq), Vt, Vq in L.
    assert (M : x mod 2 ^ k <> 0).
    { intros M. assert (X : x = t * 2 ^ k) by lia. rewrite X, mult_IZR in L. unfold Rdiv in L.
      rewrite Rmult_assoc, Rinv_r in L by lra. lra. }
    apply Z.div_unique with (x mod 2 ^ k - 1); lia.
  - assert (M : x mod 2 ^ k = 0).
    { destruct (Z.eq_dec (x mod 2 ^ k) 0); [assumption|]. exfalso.
      assert (H : flt (f_of_Z t) q = true).
      { apply flt_iff; [apply fin_nonnan, Ft|apply fin_nonnan, Fq|]. rewrite (fval_fin _ _ _ Ft), (fval_fin _ _ _ Fq), Vt, Vq.
        apply Rmult_lt_reg_r with (IZR (2 ^ k)); [exact K0|]. unfold Rdiv. rewrite Rmult_assoc, Rinv_l, <- mult_IZR, Rmult_1_r by lra.
        apply IZR_lt. lia. }
      congruence. }
    apply Z.div_unique with (2 ^ k - 1); lia.
Qed.
Definition std_width (B : Z) : Prop := B = 8 \/ B = 16 \/ B = 32 \/ B = 64.
Lemma width_pow B : std_width B -> exists k, B = 2 ^ k /\ 0 <= k <= 20.
Proof. intros [->|[->|[->| ->]]]; [exists 3|exists 4|exists 5|exists 6]; cbn; lia. Qed.
Lemma blocksNeed_exact e B n : std_width B -> 0 < e -> 0 <= n -> n * e <= 2 ^ 24 ->
  blocksNeed e B n = (n * e + B - 1) / B.
Proof.
  intros HB He Hn Hs. destruct (width_pow B HB) as (k & -> & Hk). unfold blocksNeed.
  rewrite wrap64_small by (cbn in *; unfold two64; nia). apply ceil_div; nia.
Qed.

(** * The container *)
(** The elements fit into the allocated blocks. *)
Definition valid (e B : Z) (m : mbs) : Prop :=
  blocks_ok B (blocks m) /\ 0 <= bsize m /\ bsize m * e <= Z.of_nat (length (blocks m)) * B /\
  Z.of_nat (length (blocks m)) * B < two64.
(** The container holds the values [l]. *)
Definition holds (e B : Z) (m : mbs) (l : list Z) : Prop :=
  Z.of_nat (length l) = bsize m /\
  forall i v, nth_error l i = Some v -> mbs_at e B m (Z.of_nat i) = Ok v.

Section P.
Context (e B : Z) (fresh : Z -> list Z).
Hypothesis HB : std_width B.
Hypothesis He : 0 < e <= B.
Hypothesis Hf : forall n, 0 <= n -> Z.of_nat (length (fresh n)) = n /\ blocks_ok B (fresh n).

Lemma valid_room m i : valid e B m -> 0 <= i < bsize m -> room e B (blocks m) i.
Proof. intros (A & C & D & F) Hi. split; [lia|]. unfold two64 in *. nia. Qed.

Lemma bits_eq a b : 0 <= a < 2 ^ e -> 0 <= b < 2 ^ e -> (forall j, 0 <= j < e -> Z.testbit a j = Z.testbit b j) -> a = b.
Proof.
  intros Ha Hb H. apply Z.bits_inj'. intros j Hj. destruct (Z.lt_ge_cases j e); [apply H; lia|].
  rewrite !(tb_hi e); auto.
Qed.
Lemma get_congr d d' i : blocks_ok B d -> blocks_ok B d' -> room e B d i -> room e B d' i ->
  (forall k, e * i <= k < (i + 1) * e -> sbit B d k = sbit B d' k) -> getValue e B d i = getValue e B d' i.
Proof.
  intros H1 H2 R1 R2 H. destruct (get_spec e B He d i H1 R1) as (v & E & V & Q).
  destruct (get_spec e B He d' i H2 R2) as (v' & E' & V' & Q'). rewrite E, E'. f_equal.
  apply bits_eq; auto. intros j Hj. rewrite Q, Q' by lia. apply H. lia.
Qed.
Lemma get_prefix d d' i : blocks_ok B d -> blocks_ok B d' -> room e B d i -> room e B d' i ->
  (forall q, (Z.of_nat q * B < (i + 1) * e) -> nth q d 0 = nth q d' 0) -> getValue e B d i = getValue e B d' i.
Proof.
  intros H1 H2 R1 R2 H. apply get_congr; auto. intros k Hk. unfold sbit. f_equal. apply H.
  destruct R1 as (Hi & _). assert (0 <= k) by nia. rewrite Z2Nat.id by (apply Z.div_pos; lia).
  pose proof (Z.mul_div_le k B ltac:(lia)). lia.
Qed.
Lemma holds_exists m : valid e B m -> exists l, holds e B m l.
Proof.
  intros HV. assert (Q : forall n, Z.of_nat n <= bsize m -> exists l, length l = n /\
     forall i v, nth_error l i = Some v -> mbs_at e B m (Z.of_nat i) = Ok v).
  { induction n as [|n IH]; intros Hn; [exists []; split; [reflexivity|intros [|i] v; discriminate]|].
    destruct IH as (l & L & H); [lia|].
    destruct (get_spec e B He (blocks m) (Z.of_nat n) (proj1 HV)) as (v & E & _); [apply valid_room; [exact HV|lia]|].
    exists (l ++ [v]). split; [rewrite app_length; cbn; lia|]. intros i w Hw.
    destruct (Nat.lt_ge_cases i n) as [I|I].
    - apply H. rewrite nth_error_app1 in Hw by lia. exact Hw.
    - assert (Hi : (i < length (l ++ [v]))%nat) by (apply nth_error_Some; congruence).
      rewrite app_length in Hi; cbn in Hi. assert (i = n) as -> by lia.
      rewrite nth_error_app2 in Hw by lia. rewrite L, Nat.sub_diag in Hw. injection Hw as <-.
      unfold mbs_at. destruct (Z.ltb_spec (Z.of_nat n) (bsize m)); [exact E|lia]. }
  destruct HV as (_ & HS & _). destruct (Q (Z.to_nat (bsize m))) as (l & L & H); [lia|].
  exists l. split; [lia|exact H].
Qed.
Lemma holds_unique m l l' : holds e B m l -> holds e B m l' -> l = l'.
Proof.
  intros (L & H) (L' & H'). apply nth_error_ext. intros i.
  destruct (nth_error l i) as [v|] eqn:E.
  - destruct (nth_error l' i) as [v'|] eqn:E'.
    + pose proof (H _ _ E). pose proof (H' _ _ E'). congruence.
    + apply nth_error_None in E'. assert (i < length l)%nat by (apply nth_error_Some; congruence). lia.
  - symmetry. apply nth_error_None. apply nth_error_None in E. lia.
Qed.
Lemma holds_range m l : valid e B m -> holds e B m l -> Forall (fun x => 0 <= x < 2 ^ e) l.
Proof.
  intros HV (L & H). apply Forall_forall. intros x Hx. apply In_nth_error in Hx. destruct Hx as (i & Hi).
  assert (i < length l)%nat by (apply nth_error_Some; congruence).
  pose proof (H _ _ Hi) as Q. unfold mbs_at in Q. destruct (Z.ltb_spec (Z.of_nat i) (bsize m)); [|lia].
  destruct (get_spec e B He (blocks m) (Z.of_nat i) (proj1 HV)) as (v & E & V & _); [apply valid_room; [exact HV|lia]|].
  assert (v = x) by congruence. lia.
Qed.
Lemma land_mask v : Z.land v (blockMask e) = v mod 2 ^ e.
Proof.
  unfold blockMask. rewrite Z.shiftl_1_l. replace (2 ^ e - 1) with (Z.ones e) by (rewrite Z.ones_equiv; lia).
  apply Z.land_ones. lia.
Qed.

(** What a write does to reads. *)
Lemma set_reads d i v : blocks_ok B d -> room e B d i -> straddle_ok e B i ->
  exists d', setValue e B d i v = Ok (v mod 2 ^ e, d') /\ length d' = length d /\ blocks_ok B d' /\
    getValue e B d' i = Ok (v mod 2 ^ e) /\
    forall j, j <> i -> room e B d j -> getValue e B d' j = getValue e B d j.
Proof.
  intros Hd HR HS. destruct (set_spec e B He d i v Hd HR HS) as (w & d' & E & L & Hd' & Ew & Q).
  rewrite land_mask in Ew. subst w. exists d'. split; [exact E|]. split; [exact L|]. split; [exact Hd'|].
  assert (RR : forall j, room e B d j -> room e B d' j) by (intros j (A & C & D); split; [exact A|rewrite L; auto]).
  split.
  - destruct (get_spec e B He d' i Hd' (RR i HR)) as (u & Eu & Vu & Qu). rewrite Eu. f_equal.
    apply bits_eq; [exact Vu|apply Z.mod_pos_bound, Z.pow_pos_nonneg; lia|]. intros j Hj.
    destruct HR as (Hi & Hl & _). rewrite Qu by exact Hj. rewrite Q by nia.
    destruct (Z.leb_spec (e * i) ((i + 1) * e - 1 - j)); [|nia].
    destruct (Z.ltb_spec ((i + 1) * e - 1 - j) ((i + 1) * e)); [|nia]. cbn [andb].
    rewrite Z.mod_pow2_bits_low by lia. f_equal. lia.
  - intros j Hj Rj. apply get_congr; auto. intros k Hk. destruct Rj as (J1 & J2 & _). rewrite Q by nia.
    destruct (Z.leb_spec (e * i) k), (Z.ltb_spec k ((i + 1) * e)); cbn [andb]; try reflexivity.
    exfalso. assert (j <= i) by nia. assert (i <= j) by nia. lia.
Qed.
(** A write is always defined, whatever the block type. *)
Lemma set_defined d i v : blocks_ok B d -> room e B d i ->
  exists d', setValue e B d i v = Ok (v mod 2 ^ e, d') /\ length d' = length d /\ blocks_ok B d'.
Proof.
  intros Hd HR. destruct (no_wrap e B He d i HR) as (W1 & W2). pose proof HR as (Hi & Hl & _).
  assert (Hv : Z.land (to_block B v) (blockMask e) = v mod 2 ^ e).
  { rewrite <- land_mask. apply Z.bits_inj'. intros j Hj. rewrite !Z.land_spec, (mask_tb e B He), (to_block_tb e B He) by lia.
    destruct (Z.ltb_spec j e); [|rewrite !andb_false_r; reflexivity]. destruct (Z.ltb_spec j B); [|lia]. reflexivity. }
  unfold setValue. rewrite W1, W2, Hv.
  destruct (locate e B He i Hi) as [(p & r & Hp & E1 & E2 & E3 & Hr)|(p & r & Hp & E1 & E2 & E3 & Hr)]; rewrite E1, E2.
  - rewrite Z.eqb_refl. assert (Hpl : p < Z.of_nat (length d)) by nia. rewrite get_at_nth by lia. cbn [bind].
    rewrite put_ok by lia. cbn [bind]. eexists. split; [reflexivity|]. split; [apply set_at_length|].
    apply set_ok; [exact Hd|apply (to_block_range e B He)].
  - destruct (Z.eqb_spec p (p + 1)); [lia|]. assert (Hpl : p + 1 < Z.of_nat (length d)) by nia.
    rewrite !get_at_nth by lia. cbn [bind]. rewrite put_ok by lia. cbn [bind].
    rewrite put_ok by (rewrite set_at_length; lia). cbn [bind]. eexists. split; [reflexivity|].
    split; [rewrite !set_at_length; reflexivity|].
    apply set_ok; [apply set_ok; [exact Hd|]|]; apply (to_block_range e B He).
Qed.

Lemma at_set_iff m i : valid e B m -> 0 <= i -> mbs_at e B m i = (if i <? bsize m then getValue e B (blocks m) i else Abort).
Proof. reflexivity. Qed.

Lemma op_set m i v l : valid e B m -> 0 <= i < bsize m -> straddle_ok e B i -> holds e B m l ->
  exists m', mbs_set e B m i v = Ok (v mod 2 ^ e, m') /\ valid e B m' /\ holds e B m' (set_at l (Z.to_nat i) (v mod 2 ^ e)).
Proof.
  intros HV Hi HS (L & H). unfold mbs_set. destruct (Z.ltb_spec i (bsize m)); [|lia].
  destruct (set_reads (blocks m) i v (proj1 HV) (valid_room m i HV Hi) HS) as (d' & E & Ld & Hd' & G1 & G2).
  rewrite E. cbn [bind]. eexists. split; [reflexivity|]. destruct HV as (V1 & V2 & V3 & V4).
  split; [split; [exact Hd'|cbn [bsize blocks]; rewrite Ld; auto]|]. split; [cbn [bsize]; rewrite set_at_length; exact L|].
  intros j w Hj. unfold mbs_at. cbn [bsize blocks].
  assert (Hjl : Nat.lt j (length (set_at l (Z.to_nat i) (v mod 2 ^ e)))) by (apply nth_error_Some; congruence).
  rewrite set_at_length in Hjl. destruct (Z.ltb_spec (Z.of_nat j) (bsize m)); [|lia].
  destruct (Nat.eq_dec j (Z.to_nat i)) as [->|N].
  - rewrite set_at_same in Hj by lia. rewrite Z2Nat.id by lia. congruence.
  - rewrite set_at_other in Hj by exact N. rewrite G2; [|lia|apply valid_room; [repeat split; auto|lia]].
    pose proof (H _ _ Hj) as Q. unfold mbs_at in Q. destruct (Z.ltb_spec (Z.of_nat j) (bsize m)); [exact Q|lia].
Qed.

(** Same blocks (or equal prefixes), new size. *)
Lemma holds_prefix m m' l : valid e B m -> valid e B m' -> holds e B m l -> bsize m' <= bsize m ->
  (forall q, Z.of_nat q * B < bsize m' * e -> nth q (blocks m) 0 = nth q (blocks m') 0) ->
  holds e B m' (firstn (Z.to_nat (bsize m')) l).
Proof.
  intros HV HV' (L & H) Hs Hq. pose proof HV' as (_ & S' & _). split; [rewrite firstn_length; lia|]. intros i v Hi.
  assert (Hil : (i < length (firstn (Z.to_nat (bsize m')) l))%nat) by (apply nth_error_Some; congruence).
  rewrite firstn_length in Hil.
  assert (Hi' : nth_error l i = Some v).
  { rewrite <- (firstn_skipn (Z.to_nat (bsize m')) l). rewrite nth_error_app1 by (rewrite firstn_length; lia). exact Hi. }
  pose proof (H _ _ Hi') as Q. unfold mbs_at in *. destruct (Z.ltb_spec (Z.of_nat i) (bsize m')); [|lia].
  destruct (Z.ltb_spec (Z.of_nat i) (bsize m)); [|lia]. rewrite <- Q. symmetry.
  apply get_prefix; [apply HV|apply HV'|apply valid_room; [exact HV|lia]|apply valid_room; [exact HV'|lia]|].
  intros q Hq'. apply Hq. nia.
Qed.

Lemma capacity_spec m n : valid e B m -> 0 <= n -> (n <= capacity e B m <-> n * e <= Z.of_nat (length (blocks m)) * B).
Proof using HB He.
  clear Hf.
  intros (_ & _ & _ & V) Hn. unfold capacity. rewrite wrap64_small by (destruct HB as [->|[->|[->| ->]]]; lia).
  set (T := Z.of_nat (length (blocks m)) * B) in *. split; intros H.
  - pose proof (Z.mul_div_le T e ltac:(lia)). nia.
  - apply Z.div_le_lower_bound; lia.
Qed.
Lemma need_ok n : 0 <= n -> n * e <= 2 ^ 24 ->
  0 <= blocksNeed e B n /\ n * e <= blocksNeed e B n * B < n * e + B.
Proof using HB He.
  clear Hf.
  intros Hn Hs. rewrite blocksNeed_exact by (auto; lia).
  assert (P : 0 < B) by (destruct HB as [->|[->|[->| ->]]]; lia).
  pose proof (Z.div_mod (n * e + B - 1) B ltac:(lia)). pose proof (Z.mod_pos_bound (n * e + B - 1) B P).
  split; [apply Z.div_pos; nia|]. nia.
Qed.
Lemma need_le n k : 0 <= n -> n * e <= 2 ^ 24 -> n * e <= k * B -> blocksNeed e B n <= k.
Proof using HB He.
  clear Hf. intros Hn Hs H. destruct (need_ok n Hn Hs) as (_ & _ & A). nia. Qed.

Lemma op_make n : 0 < n -> n * e <= 2 ^ 24 ->
  exists m, mbs_make e B n = Ok m /\ valid e B m /\ holds e B m (repeat 0 (Z.to_nat n)).
Proof using HB He.
  clear Hf.
  intros Hn Hs. unfold mbs_make. destruct (Z.leb_spec n 0); [lia|]. eexists. split; [reflexivity|].
  destruct (need_ok n ltac:(lia) Hs) as (N0 & N1 & N2). set (k := blocksNeed e B n) in *.
  assert (O : blocks_ok B (repeat 0 (Z.to_nat k))).
  { apply Forall_forall. intros x Hx. apply repeat_spec in Hx. subst x. split; [lia|]. apply Z.pow_pos_nonneg; lia. }
  assert (V : valid e B (mkMbs (repeat 0 (Z.to_nat k)) n)).
  { split; [exact O|]. cbn [bsize blocks]. rewrite repeat_length, Z2Nat.id by lia. unfold two64.
    destruct HB as [->|[->|[->| ->]]]; cbn in Hs; lia. }
  split; [exact V|]. split; [cbn [bsize]; rewrite repeat_length; lia|]. intros i v Hi.
  assert (Hil : Nat.lt i (length (repeat 0 (Z.to_nat n)))) by (apply nth_error_Some; congruence).
  pose proof Hi as Hin. apply nth_error_In, repeat_spec in Hin. subst v. rewrite repeat_length in Hil.
  unfold mbs_at. cbn [bsize]. destruct (Z.ltb_spec (Z.of_nat i) n); [|lia]. cbn [blocks].
  destruct (get_spec e B He (repeat 0 (Z.to_nat k)) (Z.of_nat i) O) as (v & E & Hv & Q); [exact (valid_room _ (Z.of_nat i) V ltac:(cbn [bsize]; lia))|].
  rewrite E. f_equal. apply bits_eq; [exact Hv|split; [lia|apply Z.pow_pos_nonneg; lia]|].
  intros j Hj. rewrite Q by exact Hj. unfold sbit.
  assert (Z0 : forall q, nth q (repeat 0 (Z.to_nat k)) 0 = 0).
  { intros q. destruct (nth_in_or_default q (repeat 0 (Z.to_nat k)) 0) as [I|I]; [|exact I].
    apply repeat_spec in I. exact I. }
  rewrite Z0, !Z.bits_0. reflexivity.
Qed.

(** Resizing: never undefined; elements are kept when the capacity suffices. *)
Lemma op_resize m n : valid e B m -> 0 <= n -> n * e <= 2 ^ 24 ->
  valid e B (mbs_resize e B fresh m n) /\ bsize (mbs_resize e B fresh m n) = n.
Proof.
  intros HV Hn Hs. unfold mbs_resize. destruct (Z.leb_spec n (capacity e B m)) as [C|C].
  - apply (capacity_spec m n HV Hn) in C. split; [|reflexivity]. destruct HV as (V1 & V2 & V3 & V4).
    split; [exact V1|]. cbn [bsize blocks]. auto.
  - destruct (need_ok n Hn Hs) as (N0 & N1 & N2). destruct (Hf _ N0) as (F1 & F2). split; [|reflexivity].
    split; [exact F2|]. cbn [bsize blocks]. rewrite F1. unfold two64. destruct HB as [->|[->|[->| ->]]]; cbn in Hs; lia.
Qed.
Lemma resize_keeps m n l : valid e B m -> holds e B m l -> 0 <= n <= capacity e B m ->
  forall i v, nth_error l i = Some v -> Z.of_nat i < n -> mbs_at e B (mbs_resize e B fresh m n) (Z.of_nat i) = Ok v.
Proof.
  intros HV (L & H) Hn i v Hi Hin. unfold mbs_resize. destruct (Z.leb_spec n (capacity e B m)); [|lia].
  unfold mbs_at. cbn [bsize blocks]. destruct (Z.ltb_spec (Z.of_nat i) n); [|lia].
  pose proof (H _ _ Hi) as Q. unfold mbs_at in Q.
  assert ((i < length l)%nat) by (apply nth_error_Some; congruence).
  destruct (Z.ltb_spec (Z.of_nat i) (bsize m)); [exact Q|lia].
Qed.

(** memcpy counted in bytes. *)
Lemma copy_bytes_ok (dst : list Z) : forall src k, blocks_ok B dst -> blocks_ok B src ->
  k <= Z.of_nat (length dst) -> k <= Z.of_nat (length src) ->
  exists d, copy_bytes B dst src k = Ok d /\ length d = length dst /\ blocks_ok B d.
Proof.
  assert (B8 : 8 <= B /\ 1 <= B / 8) by (destruct HB as [->|[->|[->| ->]]]; cbn; lia).
  induction dst as [|x dst IH]; intros src k Hd Hs K1 K2.
  - cbn [copy_bytes]. destruct (Z.leb_spec k 0); [|cbn in K1; lia]. exists []. auto.
  - cbn [copy_bytes]. destruct (Z.leb_spec k 0); [exists (x :: dst); auto|].
    destruct src as [|y src]; [cbn in K2; lia|]. cbn [length] in K1, K2.
    inversion Hd as [|? ? Hx Hd']; subst. inversion Hs as [|? ? Hy Hs']; subst.
    destruct (Z.leb_spec B (8 * k)).
    + destruct (IH src (k - B / 8) Hd' Hs') as (d & E & L & O); [lia|lia|]. rewrite E. cbn [bind].
      exists (y :: d). split; [reflexivity|]. split; [cbn; lia|]. constructor; assumption.
    + eexists. split; [reflexivity|]. split; [reflexivity|]. constructor; [|exact Hd'].
      assert (P : 0 < 2 ^ B) by (apply Z.pow_pos_nonneg; lia).
      assert (T : forall j, B <= j -> Z.testbit (Z.lor (Z.shiftl (Z.shiftr x (8 * k)) (8 * k)) (Z.land y (Z.ones (8 * k)))) j = false).
      { intros j Hj. rewrite Z.lor_spec, Z.land_spec, Z.shiftl_spec, Z.shiftr_spec by lia.
        rewrite !(tb_hi B) by (auto; lia). reflexivity. }
      assert (N : 0 <= Z.lor (Z.shiftl (Z.shiftr x (8 * k)) (8 * k)) (Z.land y (Z.ones (8 * k)))).
      { apply Z.lor_nonneg. split; [apply Z.shiftl_nonneg, Z.shiftr_nonneg; lia|]. apply Z.land_nonneg. lia. }
      split; [exact N|]. match goal with |- ?z < _ => replace z with (z mod 2 ^ B) end.
      * apply Z.mod_pos_bound. exact P.
      * apply Z.bits_inj'. intros j Hj. destruct (Z.lt_ge_cases j B); [apply Z.mod_pow2_bits_low; lia|].
        rewrite Z.mod_pow2_bits_high by lia. symmetry. apply T. lia.
Qed.
Lemma op_reserve m n : valid e B m -> 0 <= n -> n * e <= 2 ^ 24 ->
  exists m', mbs_reserve e B fresh m n = Ok m' /\ valid e B m' /\ bsize m' = bsize m /\ n <= capacity e B m'.
Proof.
  intros HV Hn Hs. unfold mbs_reserve. destruct (Z.leb_spec n (capacity e B m)) as [C|C]; [exists m; auto|].
  assert (C' : ~ n * e <= Z.of_nat (length (blocks m)) * B) by (intros Q; apply (capacity_spec m n HV Hn) in Q; lia).
  destruct (need_ok n Hn Hs) as (N0 & N1 & N2). destruct (Hf _ N0) as (F1 & F2).
  destruct (copy_bytes_ok (fresh (blocksNeed e B n)) (blocks m) (Z.of_nat (length (blocks m))) F2 (proj1 HV)) as (d & E & L & O);
    [nia|lia|].
  rewrite E. cbn [bind]. eexists. split; [reflexivity|].
  assert (V' : valid e B (mkMbs d (bsize m))).
  { destruct HV as (V1 & V2 & V3 & V4). split; [exact O|]. cbn [bsize blocks]. rewrite L, F1. unfold two64.
    destruct HB as [->|[->|[->| ->]]]; cbn in Hs; nia. }
  split; [exact V'|]. split; [reflexivity|]. apply (capacity_spec _ n V' Hn). cbn [blocks]. rewrite L, F1. exact N1.
Qed.
Lemma reserve_same m n : n <= capacity e B m -> mbs_reserve e B fresh m n = Ok m.
Proof. intros H. unfold mbs_reserve. destruct (Z.leb_spec n (capacity e B m)); [reflexivity|lia]. Qed.

(** memcpy counted in blocks. *)
Lemma copy_blocks_ok (dst src : list Z) n : blocks_ok B dst -> blocks_ok B src ->
  0 <= n <= Z.of_nat (length dst) -> n <= Z.of_nat (length src) ->
  exists d, copy_blocks dst src n = Ok d /\ length d = length dst /\ blocks_ok B d /\
    forall q, Z.of_nat q < n -> nth q d 0 = nth q src 0.
Proof.
  intros Hd Hs H1 H2. unfold copy_blocks. destruct (Z.leb_spec n (Z.of_nat (length dst))); [|lia].
  destruct (Z.leb_spec n (Z.of_nat (length src))); [|lia]. cbn [andb]. eexists. split; [reflexivity|].
  split; [rewrite app_length, firstn_length, skipn_length; lia|]. split.
  - apply Forall_app. unfold blocks_ok in *. rewrite <- (firstn_skipn (Z.to_nat n) src) in Hs.
    rewrite <- (firstn_skipn (Z.to_nat n) dst) in Hd. apply Forall_app in Hs. apply Forall_app in Hd. split; [apply Hs|apply Hd].
  - intros q Hq. rewrite app_nth1 by (rewrite firstn_length; lia).
    rewrite <- (firstn_skipn (Z.to_nat n) src) at 2. rewrite app_nth1 by (rewrite firstn_length; lia). reflexivity.
Qed.
Lemma op_shrink m l : valid e B m -> bsize m * e <= 2 ^ 24 -> holds e B m l ->
  exists m', mbs_shrink e B fresh m = Ok m' /\ valid e B m' /\ holds e B m' l /\
    Z.of_nat (length (blocks m')) = (bsize m * e + B - 1) / B.
Proof.
  intros HV Hs HH. pose proof HV as (V1 & V2 & V3 & V4). unfold mbs_shrink.
  rewrite <- (blocksNeed_exact e B) by (auto; lia).
  destruct (need_ok (bsize m) V2 Hs) as (N0 & N1 & N2). set (k := blocksNeed e B (bsize m)) in *.
  destruct (Z.eqb_spec k (Z.of_nat (length (blocks m)))) as [E|E]; [exists m; auto|].
  destruct (Hf _ N0) as (F1 & F2).
  pose proof (need_le (bsize m) _ V2 Hs V3) as K. fold k in K.
  destruct (copy_blocks_ok (fresh k) (blocks m) k F2 V1 ltac:(lia) ltac:(lia)) as (d & Ed & L & O & Q).
  rewrite Ed. cbn [bind]. eexists. split; [reflexivity|].
  assert (V' : valid e B (mkMbs d (bsize m))).
  { split; [exact O|]. cbn [bsize blocks]. rewrite L, F1. unfold two64. destruct HB as [->|[->|[->| ->]]]; cbn in Hs; nia. }
  split; [exact V'|]. split; [|cbn [blocks]; lia].
  pose proof (holds_prefix m (mkMbs d (bsize m)) l HV V' HH) as P. cbn [bsize blocks] in P.
  rewrite firstn_all2 in P by (destruct HH; lia). apply P; [lia|]. intros q Hq. symmetry. apply Q. nia.
Qed.
Lemma op_push m v : valid e B m -> (bsize m + 1) * e <= 2 ^ 24 ->
  exists m', mbs_push e B fresh m v = Ok m' /\ valid e B m' /\ bsize m' = bsize m + 1.
Proof.
  intros HV Hs. pose proof HV as (_ & S0 & _). unfold mbs_push.
  assert (W : wrap64 (bsize m + 1) = bsize m + 1) by (apply wrap64_small; cbn in Hs; unfold two64; nia).
  rewrite W. destruct (op_reserve m (bsize m + 1) HV ltac:(lia) Hs) as (m1 & E & V1 & S1 & C1). rewrite E. cbn [bind].
  apply (capacity_spec m1 (bsize m + 1) V1 ltac:(lia)) in C1.
  destruct (set_defined (blocks m1) (bsize m1) v (proj1 V1)) as (d & Ed & Ld & Hd).
  { split; [lia|]. rewrite S1. split; [exact C1|]. cbn in Hs; unfold two64; lia. }
  rewrite Ed. cbn [bind]. rewrite S1, W. eexists. split; [reflexivity|]. split; [|reflexivity].
  destruct V1 as (O1 & _ & _ & B1). split; [exact Hd|]. cbn [bsize blocks]. rewrite Ld. split; [lia|]. split; [exact C1|exact B1].
Qed.
(** When the capacity suffices, push_back appends. *)
Lemma op_push_keeps m v l : valid e B m -> bsize m < capacity e B m -> straddle_ok e B (bsize m) -> holds e B m l ->
  exists m', mbs_push e B fresh m v = Ok m' /\ valid e B m' /\ holds e B m' (l ++ [v mod 2 ^ e]).
Proof using HB He.
  clear Hf.
  intros HV HC HS (L & H). pose proof HV as (V1 & S0 & V3 & V4). unfold mbs_push.
  pose proof (proj1 (capacity_spec m (bsize m + 1) HV ltac:(lia)) ltac:(lia)) as C.
  assert (W : wrap64 (bsize m + 1) = bsize m + 1) by (apply wrap64_small; unfold two64 in *; nia).
  rewrite W, reserve_same by lia. cbn [bind].
  destruct (set_reads (blocks m) (bsize m) v V1) as (d & Ed & Ld & Hd & G1 & G2).
  { split; [lia|]. split; [exact C|]. lia. }
  { exact HS. }
  rewrite Ed. cbn [bind]. rewrite W. eexists. split; [reflexivity|].
  assert (V' : valid e B (mkMbs d (bsize m + 1))) by (split; [exact Hd|]; cbn [bsize blocks]; rewrite Ld; repeat split; lia).
  split; [exact V'|]. split; [cbn [bsize]; rewrite app_length; cbn; lia|]. intros i w Hi.
  assert (Hil : Nat.lt i (length (l ++ [v mod 2 ^ e]))) by (apply nth_error_Some; congruence).
  rewrite app_length in Hil. cbn in Hil. unfold mbs_at. cbn [bsize blocks].
  destruct (Z.ltb_spec (Z.of_nat i) (bsize m + 1)); [|lia].
  destruct (Nat.lt_ge_cases i (length l)) as [I|I].
  - rewrite nth_error_app1 in Hi by exact I. rewrite G2; [|lia|apply valid_room; [exact HV|lia]].
    pose proof (H _ _ Hi) as Q. unfold mbs_at in Q. destruct (Z.ltb_spec (Z.of_nat i) (bsize m)); [exact Q|lia].
  - rewrite nth_error_app2 in Hi by exact I. replace (i - length l)%nat with 0%nat in Hi by lia. cbn in Hi.
    replace (Z.of_nat i) with (bsize m) by lia. congruence.
Qed.
Lemma op_assign m o l : valid e B m -> valid e B o -> bsize o * e <= 2 ^ 24 -> holds e B o l ->
  exists m', mbs_assign e B fresh m o = Ok m' /\ valid e B m' /\ holds e B m' l.
Proof.
  intros HV HO Hs HH. pose proof HO as (O1 & O2 & O3 & O4). unfold mbs_assign. destruct (Z.leb_spec (bsize o) 0) as [Z0|Z0].
  - destruct (op_resize m 0 HV ltac:(lia) ltac:(lia)) as (V' & S'). eexists. split; [reflexivity|]. split; [exact V'|].
    destruct HH as (L & H). destruct l as [|x l]; [|cbn in L; lia]. split; [rewrite S'; reflexivity|]. intros [|i] v; discriminate.
  - destruct (op_resize m (bsize o) HV ltac:(lia) Hs) as (V' & S'). set (m1 := mbs_resize e B fresh m (bsize o)) in *.
    pose proof V' as (P1 & P2 & P3 & P4). rewrite S' in *.
    pose proof (need_le (bsize o) _ O2 Hs P3) as K1. pose proof (need_le (bsize o) _ O2 Hs O3) as K2.
    destruct (need_ok (bsize o) O2 Hs) as (N0 & N1 & N2).
    destruct (copy_blocks_ok (blocks m1) (blocks o) (blocksNeed e B (bsize o)) P1 O1 ltac:(lia) K2) as (d & Ed & L & O & Q).
    rewrite Ed. cbn [bind]. eexists. split; [reflexivity|].
    assert (V2 : valid e B (mkMbs d (bsize o))) by (split; [exact O|]; cbn [bsize blocks]; rewrite L; auto).
    split; [exact V2|]. pose proof (holds_prefix o (mkMbs d (bsize o)) l HO V2 HH) as P. cbn [bsize blocks] in P.
    rewrite firstn_all2 in P by (destruct HH; lia). apply P; [lia|]. intros q Hq. symmetry. apply Q. nia.
Qed.
Lemma op_copy o l : valid e B o -> bsize o * e <= 2 ^ 24 -> holds e B o l ->
  (0 < bsize o -> Z.of_nat (length (blocks o)) = (bsize o * e + B - 1) / B) ->
  exists m', mbs_copy e B fresh o = Ok m' /\ valid e B m' /\ holds e B m' l.
Proof.
  intros HO Hs HH Hb. pose proof HO as (O1 & O2 & O3 & O4). unfold mbs_copy.
  assert (Ve : valid e B mbs_empty) by (split; [constructor|]; cbn; unfold two64; lia).
  destruct (Z.ltb_spec 0 (bsize o)) as [Z0|Z0].
  - specialize (Hb Z0). rewrite <- (blocksNeed_exact e B) in Hb by (auto; lia).
    assert (C : ~ bsize o <= capacity e B mbs_empty).
    { intros C. apply (capacity_spec _ _ Ve O2) in C. cbn in C. nia. }
    unfold mbs_resize. destruct (Z.leb_spec (bsize o) (capacity e B mbs_empty)); [lia|]. cbn [bsize blocks].
    destruct (need_ok (bsize o) O2 Hs) as (N0 & N1 & N2). destruct (Hf _ N0) as (F1 & F2).
    destruct (copy_blocks_ok (fresh (blocksNeed e B (bsize o))) (blocks o) (Z.of_nat (length (blocks o))) F2 O1 ltac:(lia) ltac:(lia))
      as (d & Ed & L & O & Q).
    rewrite Ed. cbn [bind]. eexists. split; [reflexivity|].
    assert (V2 : valid e B (mkMbs d (bsize o))) by (split; [exact O|]; cbn [bsize blocks]; split; [lia|]; split; lia).
    split; [exact V2|]. pose proof (holds_prefix o (mkMbs d (bsize o)) l HO V2 HH) as P. cbn [bsize blocks] in P.
    rewrite firstn_all2 in P by (destruct HH; lia). apply P; [lia|]. intros q Hq. symmetry. apply Q. nia.
  - eexists. split; [reflexivity|]. split; [exact Ve|]. destruct HH as (L & H). destruct l as [|x l]; [|cbn in L; lia].
    split; [reflexivity|]. intros [|i] v; discriminate.
Qed.
Lemma copy_spare o : valid e B o -> 0 < bsize o -> bsize o * e <= 2 ^ 24 ->
  (bsize o * e + B - 1) / B < Z.of_nat (length (blocks o)) -> mbs_copy e B fresh o = UB.
Proof.
  intros HO Z0 Hs Hb. pose proof HO as (O1 & O2 & O3 & O4). unfold mbs_copy. destruct (Z.ltb_spec 0 (bsize o)); [|lia].
  assert (Ve : valid e B mbs_empty) by (split; [constructor|]; cbn; unfold two64; lia).
  rewrite <- (blocksNeed_exact e B) in Hb by (auto; lia).
  assert (C : ~ bsize o <= capacity e B mbs_empty).
  { intros C. apply (capacity_spec _ _ Ve O2) in C. cbn in C. nia. }
  unfold mbs_resize. destruct (Z.leb_spec (bsize o) (capacity e B mbs_empty)); [lia|]. cbn [bsize blocks].
  destruct (need_ok (bsize o) O2 Hs) as (N0 & N1 & N2). destruct (Hf _ N0) as (F1 & F2).
  unfold copy_blocks. rewrite F1. destruct (Z.leb_spec (Z.of_nat (length (blocks o))) (blocksNeed e B (bsize o))); [lia|]. reflexivity.
Qed.
Lemma op_pop m l : valid e B m -> 0 < bsize m -> holds e B m l ->
  exists m', mbs_pop m = Ok m' /\ valid e B m' /\ holds e B m' (removelast l).
Proof.
  intros HV Hs HH. unfold mbs_pop. destruct (Z.ltb_spec 0 (bsize m)); [|lia]. eexists. split; [reflexivity|].
  pose proof HV as (V1 & V2 & V3 & V4).
  assert (V' : valid e B (mkMbs (blocks m) (bsize m - 1))) by (split; [exact V1|]; cbn [bsize blocks]; nia).
  split; [exact V'|]. pose proof (holds_prefix m (mkMbs (blocks m) (bsize m - 1)) l HV V' HH) as P. cbn [bsize blocks] in P.
  destruct HH as (L & _). rewrite removelast_firstn_len. replace (Nat.pred (length l)) with (Z.to_nat (bsize m - 1)) by lia.
  apply P; [lia|reflexivity].
Qed.
End P.
