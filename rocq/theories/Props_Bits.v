(** The packed bit container: C52-C54. *)
From Coq Require Import List Arith ZArith Bool Lia.
From Flocq Require Import Core BinarySingleNaN.
From Verif Require Import Base Fl Box BoxProofs MultiBitSet MultiBitSetProofs MultiBitSetProofs2.
Import ListNotations.
Open Scope Z_scope.

(** * Specification
    [std_width B] (MultiBitSetProofs2): the block type has 8, 16, 32 or 64 bits.
    [valid e B m]: m's elements fit in its memory.
    [holds e B m l]: size() is the length of l and reading element i gives the i-th value of l. *)
Definition params (e B : Z) : Prop := std_width B /\ 0 < e <= B.
(** Memory handed out by the allocator: n blocks with any contents. *)
Definition memory (B : Z) (fresh : Z -> list Z) : Prop :=
  forall n, 0 <= n -> Z.of_nat (length (fresh n)) = n /\ Forall (fun x => 0 <= x < 2 ^ B) (fresh n).
(** No element crosses a block boundary, or blocks are at least as wide as int. *)
Definition no_promotion (e B : Z) : Prop := 32 <= B \/ B mod e = 0.

Lemma aligned_straddle e B i : 0 < e <= B -> no_promotion e B -> 0 <= i -> straddle_ok e B i.
Proof.
  intros He [H|H] Hi; [left; exact H|right].
  assert (D : B = e * (B / e)) by (pose proof (Z.div_mod B e); lia). set (c := B / e) in *.
  assert (0 < c) by nia. rewrite D. rewrite Z.div_mul_cancel_l by lia.
  replace ((i + 1) * e - 1) with ((e - 1) + i * e) by ring. rewrite <- Z.div_div by lia. f_equal.
  rewrite Z.div_add, Z.div_small by lia. lia.
Qed.

(** * C52 *)
(** Every container has well-defined contents, each below 2^eleBits. *)
Theorem C52_contents : forall e B m, params e B -> valid e B m ->
  exists l, holds e B m l /\ Forall (fun x => 0 <= x < 2 ^ e) l /\ forall l', holds e B m l' -> l' = l.
Proof.
  intros e B m (HB & He) HV. destruct (holds_exists e B He m HV) as (l & Hl). exists l. split; [exact Hl|].
  split; [exact (holds_range e B He m l HV Hl)|]. intros l' Hl'. exact (holds_unique e B m l' l Hl' Hl).
Qed.
Print Assumptions C52_contents.
(** m[i] = v: the written element reads as v modulo 2^eleBits, the others as before. *)
Theorem C52_read_after_write : forall e B m i v l,
  params e B -> no_promotion e B -> valid e B m -> holds e B m l -> 0 <= i < bsize m ->
  exists m', mbs_set e B m i v = Ok (v mod 2 ^ e, m') /\ valid e B m' /\
    bsize m' = bsize m /\ holds e B m' (set_at l (Z.to_nat i) (v mod 2 ^ e)).
Proof.
  intros e B m i v l (HB & He) HN HV Hl Hi.
  destruct (op_set e B He m i v l HV Hi (aligned_straddle e B i He HN ltac:(lia)) Hl) as (m' & E & V' & H').
  exists m'. split; [exact E|]. split; [exact V'|]. split; [|exact H'].
  destruct H' as (L' & _), Hl as (L & _). rewrite set_at_length in L'. lia.
Qed.
Print Assumptions C52_read_after_write.
(** Out of range it is an assertion failure. *)
Theorem C52_out_of_range : forall e B m i v, bsize m <= i ->
  mbs_at e B m i = Abort /\ mbs_set e B m i v = Abort.
Proof. intros e B m i v H. unfold mbs_at, mbs_set. destruct (Z.ltb_spec i (bsize m)); [lia|]. split; reflexivity. Qed.
Print Assumptions C52_out_of_range.
(** Refuted for 8- and 16-bit blocks: an element crossing a block boundary is
    or-ed onto the old bits.  Three-bit elements in bytes: element 2 is 7,
    pop_back, push_back(0), and it reads 3... *)
Theorem C52_narrow_blocks_refuted : forall fresh,
  exists m1 m2 m3, mbs_make 3 8 3 = Ok m1 /\
    (do (_, m) <- mbs_set 3 8 m1 2 7; mbs_pop m) = Ok m2 /\ mbs_push 3 8 fresh m2 0 = Ok m3 /\
    mbs_at 3 8 m3 2 = Ok 1.
Proof.
  intros fresh. eexists _, _, _. split; [vm_compute; reflexivity|]. split; [vm_compute; reflexivity|]. split; [vm_compute; reflexivity|]. vm_compute; reflexivity.
Qed.
Print Assumptions C52_narrow_blocks_refuted.
Example C52_example : params 5 64 /\ no_promotion 5 64 /\
  exists m, mbs_make 5 64 30 = Ok m /\ valid 5 64 m /\
   (do (_, m1) <- mbs_set 5 64 m 12 29; do (_, m2) <- mbs_set 5 64 m1 13 63;
    do x <- mbs_at 5 64 m2 11; do y <- mbs_at 5 64 m2 12; do z <- mbs_at 5 64 m2 13; Ok (x, y, z)) = Ok (0, 29, 31).
Proof.
  split; [split; [right; right; right; reflexivity|lia]|]. split; [left; lia|].
  destruct (op_make 5 64 ltac:(right; right; right; reflexivity) ltac:(lia) 30 ltac:(lia) ltac:(cbn; lia)) as (m & E & V & _).
  exists m. split; [exact E|]. split; [exact V|].
  assert (m = mkMbs (repeat 0 (Z.to_nat (blocksNeed 5 64 30))) 30) as -> by (unfold mbs_make in E; cbn [Z.leb Z.compare] in E; congruence).
  vm_compute. reflexivity.
Qed.

(** * C53 *)
(** Everything a program can do with containers of at most 2^24 bits. *)
Inductive reach (e B : Z) (fresh : Z -> list Z) : mbs -> Prop :=
| r_default : reach e B fresh mbs_empty
| r_make n m : n * e <= 2 ^ 24 -> mbs_make e B n = Ok m -> reach e B fresh m
| r_set m i v r m' : reach e B fresh m -> 0 <= i -> mbs_set e B m i v = Ok (r, m') -> reach e B fresh m'
| r_resize m n : reach e B fresh m -> 0 <= n -> n * e <= 2 ^ 24 -> reach e B fresh (mbs_resize e B fresh m n)
| r_reserve m n m' : reach e B fresh m -> 0 <= n -> n * e <= 2 ^ 24 -> mbs_reserve e B fresh m n = Ok m' -> reach e B fresh m'
| r_shrink m m' : reach e B fresh m -> mbs_shrink e B fresh m = Ok m' -> reach e B fresh m'
| r_push m v m' : reach e B fresh m -> (bsize m + 1) * e <= 2 ^ 24 -> mbs_push e B fresh m v = Ok m' -> reach e B fresh m'
| r_pop m m' : reach e B fresh m -> mbs_pop m = Ok m' -> reach e B fresh m'
| r_clear m : reach e B fresh m -> reach e B fresh (mbs_clear m)
| r_assign m o m' : reach e B fresh m -> reach e B fresh o -> mbs_assign e B fresh m o = Ok m' -> reach e B fresh m'
| r_copy o m' : reach e B fresh o -> mbs_copy e B fresh o = Ok m' -> reach e B fresh m'.

Lemma reach_valid e B fresh m : params e B -> memory B fresh -> reach e B fresh m -> valid e B m /\ bsize m * e <= 2 ^ 24.
Proof.
  intros (HB & He) Hf. induction 1 as [|n m Hn E|m i v r m' _ (V & S) Hi E|m n _ (V & S) Hn Hs|m n m' _ (V & S) Hn Hs E|
    m m' _ (V & S) E|m v m' _ (V & S) Hs E|m m' _ (V & S) E|m _ _|m o m' _ (V & S) _ (V' & S') E|o m' _ (V & S) E].
  - split; [split; [constructor|]; cbn; unfold two64; lia|cbn; lia].
  - assert (0 < n) by (unfold mbs_make in E; destruct (Z.leb_spec n 0); [discriminate|lia]).
    destruct (op_make e B HB He n H Hn) as (m1 & E1 & V1 & (L & _)). assert (m1 = m) as -> by congruence.
    split; [exact V1|]. rewrite repeat_length in L. rewrite <- L, Z2Nat.id by lia. exact Hn.
  - unfold mbs_set in E. destruct (Z.ltb_spec i (bsize m)); [|discriminate].
    destruct (set_defined e B He (blocks m) i v (proj1 V)) as (d & Ed & Ld & Hd);
      [exact (valid_room e B He m i V ltac:(lia))|].
    rewrite Ed in E. cbn [bind] in E. assert (m' = mkMbs d (bsize m)) as -> by congruence.
    split; [|exact S]. destruct V as (V1 & V2 & V3 & V4). split; [exact Hd|]. cbn [bsize blocks]. rewrite Ld. auto.
  - destruct (op_resize e B fresh HB He Hf m n V Hn Hs) as (V' & S'). split; [exact V'|]. rewrite S'. exact Hs.
  - destruct (op_reserve e B fresh HB He Hf m n V Hn Hs) as (m1 & E1 & V1 & S1 & _). assert (m1 = m') as -> by congruence.
    split; [exact V1|]. rewrite S1. exact S.
  - destruct (holds_exists e B He m V) as (l & Hl).
    destruct (op_shrink e B fresh HB He Hf m l V S Hl) as (m1 & E1 & V1 & (L1 & _) & _). assert (m1 = m') as -> by congruence.
    split; [exact V1|]. destruct Hl as (L & _). rewrite <- L1, L. exact S.
  - destruct (op_push e B fresh HB He Hf m v V Hs) as (m1 & E1 & V1 & S1). assert (m1 = m') as -> by congruence.
    split; [exact V1|]. rewrite S1. exact Hs.
  - unfold mbs_pop in E. destruct (Z.ltb_spec 0 (bsize m)); [|discriminate].
    assert (m' = mkMbs (blocks m) (bsize m - 1)) as -> by congruence. destruct V as (V1 & V2 & V3 & V4).
    cbn [bsize]. split; [split; [exact V1|]; cbn [bsize blocks]; nia|nia].
  - split; [split; [constructor|]; cbn; unfold two64; lia|cbn; lia].
  - destruct (holds_exists e B He o V') as (l & Hl).
    destruct (op_assign e B fresh HB He Hf m o l V V' S' Hl) as (m1 & E1 & V1 & (L1 & _)). assert (m1 = m') as -> by congruence.
    split; [exact V1|]. destruct Hl as (L & _). rewrite <- L1, L. exact S'.
  - destruct (holds_exists e B He o V) as (l & Hl).
    destruct (Z.le_gt_cases (Z.of_nat (length (blocks o))) ((bsize o * e + B - 1) / B)) as [C|C].
    + destruct (op_copy e B fresh HB He Hf o l V S Hl) as (m1 & E1 & V1 & (L1 & _)).
      { intros _. destruct V as (V1 & V2 & V3 & V4). apply Z.le_antisymm; [exact C|].
        rewrite <- (blocksNeed_exact e B) by (auto; lia). exact (need_le e B HB He (bsize o) _ V2 S V3). }
      assert (m1 = m') as -> by congruence. split; [exact V1|]. destruct Hl as (L & _). rewrite <- L1, L. exact S.
    + destruct (Z.le_gt_cases (bsize o) 0) as [Z0|Z0].
      * unfold mbs_copy in E. destruct (Z.ltb_spec 0 (bsize o)); [lia|]. assert (m' = mbs_empty) as -> by congruence.
        split; [split; [constructor|]; cbn; unfold two64; lia|cbn; lia].
      * rewrite (copy_spare e B fresh HB He Hf o V Z0 S C) in E. discriminate.
Qed.

(** Up to 2^24 bits, in every state a program can reach the elements fit in the
    memory, and no operation that meets its precondition leaves the memory of the
    container; the copy constructor is the exception treated below. *)
Theorem C53_memory_safe : forall e B fresh m, params e B -> memory B fresh -> reach e B fresh m ->
  valid e B m /\
  (forall i, 0 <= i < bsize m -> exists x, mbs_at e B m i = Ok x) /\
  (forall i v, 0 <= i < bsize m -> exists m', mbs_set e B m i v = Ok (v mod 2 ^ e, m')) /\
  (forall n, 0 <= n -> n * e <= 2 ^ 24 -> exists m', mbs_reserve e B fresh m n = Ok m' /\ n <= capacity e B m') /\
  (exists m', mbs_shrink e B fresh m = Ok m') /\
  (forall v, (bsize m + 1) * e <= 2 ^ 24 -> exists m', mbs_push e B fresh m v = Ok m' /\ bsize m' = bsize m + 1) /\
  (0 < bsize m -> exists m', mbs_pop m = Ok m') /\
  (forall o, reach e B fresh o -> exists m', mbs_assign e B fresh m o = Ok m') /\
  (0 < bsize m -> exists x y, mbs_front e B m = Ok x /\ mbs_back e B m = Ok y).
Proof.
  intros e B fresh m (HB & He) Hf HR.
  destruct (reach_valid e B fresh m (conj HB He) Hf HR) as (V & S).
  destruct (holds_exists e B He m V) as (l & Hl).
  assert (G : forall i, 0 <= i < bsize m -> exists x, getValue e B (blocks m) i = Ok x).
  { intros i Hi. destruct (get_spec e B He (blocks m) i (proj1 V) (valid_room e B He m i V Hi)) as (x & E & _). eauto. }
  split; [exact V|]. split.
  { intros i Hi. destruct (G i Hi) as (x & E). exists x. unfold mbs_at. destruct (Z.ltb_spec i (bsize m)); [exact E|lia]. }
  split.
  { intros i v Hi. unfold mbs_set. destruct (Z.ltb_spec i (bsize m)); [|lia].
    destruct (set_defined e B He (blocks m) i v (proj1 V) (valid_room e B He m i V Hi)) as (d & -> & _). cbn [bind]. eauto. }
  split.
  { intros n Hn Hs. destruct (op_reserve e B fresh HB He Hf m n V Hn Hs) as (m1 & E1 & _ & _ & C). eauto. }
  split.
  { destruct (op_shrink e B fresh HB He Hf m l V S Hl) as (m1 & E1 & _). eauto. }
  split.
  { intros v Hs. destruct (op_push e B fresh HB He Hf m v V Hs) as (m1 & E1 & _ & C). eauto. }
  split.
  { intros Hs. destruct (op_pop e B He m l V Hs Hl) as (m1 & E1 & _). eauto. }
  split.
  { intros o Ho. destruct (reach_valid e B fresh o (conj HB He) Hf Ho) as (V' & S').
    destruct (holds_exists e B He o V') as (l' & Hl').
    destruct (op_assign e B fresh HB He Hf m o l' V V' S' Hl') as (m1 & E1 & _). eauto. }
  intros Hs. destruct (G 0 ltac:(lia)) as (x & Ex). destruct (G (bsize m - 1) ltac:(lia)) as (y & Ey). exists x, y.
  split; [exact Ex|]. unfold mbs_back. rewrite wrap64_small; [exact Ey|]. cbn in S. unfold two64. nia.
Qed.
Print Assumptions C53_memory_safe.
(** The copy constructor overruns its memory exactly when the source has spare blocks. *)
Theorem C53_copy_constructor : forall e B fresh m, params e B -> memory B fresh -> reach e B fresh m -> 0 < bsize m ->
  let needed := (bsize m * e + B - 1) / B in
  (Z.of_nat (length (blocks m)) = needed -> exists m', mbs_copy e B fresh m = Ok m' /\ forall l, holds e B m l -> holds e B m' l) /\
  (needed < Z.of_nat (length (blocks m)) -> mbs_copy e B fresh m = UB).
Proof.
  intros e B fresh m (HB & He) Hf HR Hs needed.
  destruct (reach_valid e B fresh m (conj HB He) Hf HR) as (V & S). split; intros H.
  - destruct (holds_exists e B He m V) as (l & Hl).
    destruct (op_copy e B fresh HB He Hf m l V S Hl (fun _ => H)) as (m1 & E1 & _ & H1). exists m1. split; [exact E1|].
    intros l' Hl'. rewrite (holds_unique e B m l' l Hl' Hl). exact H1.
  - exact (copy_spare e B fresh HB He Hf m V Hs S H).
Qed.
Print Assumptions C53_copy_constructor.
(** A reachable case of it: reserve(65), push_back, copy. *)
Theorem C53_copy_overflow_refuted : forall fresh, memory 64 fresh ->
  exists m m', mbs_reserve 1 64 fresh mbs_empty 65 = Ok m /\ mbs_push 1 64 fresh m 1 = Ok m' /\ mbs_copy 1 64 fresh m' = UB.
Proof.
  intros fresh Hf. assert (P : params 1 64) by (split; [right; right; right; reflexivity|lia]).
  assert (R0 : reach 1 64 fresh mbs_empty) by apply r_default.
  destruct (C53_memory_safe 1 64 fresh mbs_empty P Hf R0) as (_ & _ & _ & R1 & _).
  destruct (R1 65 ltac:(lia) ltac:(cbn; lia)) as (m & E1 & C1). exists m.
  assert (R2 : reach 1 64 fresh m) by (apply (r_reserve 1 64 fresh mbs_empty 65); auto; cbn; lia).
  assert (S1 : bsize m = 0).
  { unfold mbs_reserve in E1. change (65 <=? capacity 1 64 mbs_empty) with false in E1.
    apply bind_Ok in E1. destruct E1 as (d & _ & E1). assert (m = mkMbs d 0) as -> by (cbn in E1; congruence). reflexivity. }
  destruct (C53_memory_safe 1 64 fresh m P Hf R2) as (V & _ & _ & _ & _ & PU & _).
  destruct (PU 1 ltac:(rewrite S1; cbn; lia)) as (m' & E2 & S2). exists m'. split; [exact E1|]. split; [exact E2|].
  assert (R3 : reach 1 64 fresh m') by (apply (r_push 1 64 fresh m 1); auto; rewrite S1; cbn; lia).
  apply (C53_copy_constructor 1 64 fresh m' P Hf R3); [lia|]. rewrite S2, S1.
  assert (L : length (blocks m') = length (blocks m)).
  { unfold mbs_push in E2. rewrite reserve_same in E2 by (rewrite S1; change (wrap64 (0 + 1)) with 1; lia). cbn [bind] in E2.
    apply bind_Ok in E2. destruct E2 as ((r & d) & Ed & E2).
    destruct (set_defined 1 64 ltac:(lia) (blocks m) (bsize m) 1 (proj1 V)) as (d' & Ed' & Ld & _).
    { rewrite S1. apply (capacity_spec 1 64 (proj1 P) ltac:(lia) m 65 V ltac:(lia)) in C1. split; [lia|]. unfold two64. lia. }
    rewrite Ed in Ed'. assert (d' = d) as -> by congruence.
    assert (m' = mkMbs d (wrap64 (bsize m + 1))) as -> by congruence. exact Ld. }
  rewrite L. apply (capacity_spec 1 64 (proj1 P) ltac:(lia) m 65 V ltac:(lia)) in C1. cbn. lia.
Qed.
Print Assumptions C53_copy_overflow_refuted.
(** Beyond 2^24 bits the block count is computed from a rounded float: a
    container of 2^24+1 bits has one block too few, and its last element is outside. *)
Theorem C53_large_refuted : exists m, mbs_make 1 64 16777217 = Ok m /\ bsize m = 16777217 /\
  mbs_at 1 64 m 16777216 = UB.
Proof.
  eexists. split; [unfold mbs_make; cbn [Z.leb Z.compare]; reflexivity|]. split; [reflexivity|].
  assert (N : blocksNeed 1 64 16777217 = 262144) by (vm_compute; reflexivity). rewrite N.
  unfold mbs_at. cbn [bsize blocks].
  change (16777216 <? 16777217) with true. unfold getValue.
  change (wrap64 (1 * 16777216)) with 16777216. change (wrap64 ((16777216 + 1) * 1 - 1)) with 16777216.
  change (16777216 / 64) with 262144. rewrite Z.eqb_refl.
  assert (E : get_at (repeat 0 (Z.to_nat 262144)) 262144 = UB).
  { unfold get_at. change (262144 <? 0) with false. destruct (nth_error (repeat 0 (Z.to_nat 262144)) (Z.to_nat 262144)) eqn:Q; [|reflexivity].
    exfalso. assert (Nat.lt (Z.to_nat 262144) (length (repeat 0 (Z.to_nat 262144)))) by (apply nth_error_Some; congruence).
    rewrite repeat_length in H. exact (Nat.lt_irrefl _ H). }
  rewrite E. reflexivity.
Qed.
Print Assumptions C53_large_refuted.
(** Constructing with size 0 leaves the members uninitialised. *)
Theorem C53_size_zero_refuted : forall e B, mbs_make e B 0 = UB.
Proof. reflexivity. Qed.
Print Assumptions C53_size_zero_refuted.

(** * C54 *)
(** Operations that do not reallocate treat the container as a list of values. *)
Inductive bop := Write (i v : Z) | Push (v : Z) | Pop | Shrink.
Definition bstep e B fresh (m : mbs) (o : bop) : res mbs :=
  match o with
  | Write i v => do (_, m') <- mbs_set e B m i v; Ok m'
  | Push v => mbs_push e B fresh m v
  | Pop => mbs_pop m
  | Shrink => mbs_shrink e B fresh m
  end.
Fixpoint bsteps e B fresh (m : mbs) (os : list bop) : res mbs :=
  match os with [] => Ok m | o :: t => do m' <- bstep e B fresh m o; bsteps e B fresh m' t end.
(** The same on lists, with [cap] the room available; None when a precondition fails. *)
Definition lstep (e : Z) (s : list Z * Z) (o : bop) (capn : Z -> Z) : option (list Z * Z) :=
  let (l, cap) := s in
  match o with
  | Write i v => if (0 <=? i) && (i <? Z.of_nat (length l)) then Some (set_at l (Z.to_nat i) (v mod 2 ^ e), cap) else None
  | Push v => if Z.of_nat (length l) <? cap then Some (l ++ [v mod 2 ^ e], cap) else None
  | Pop => match l with [] => None | _ => Some (removelast l, cap) end
  | Shrink => Some (l, capn (Z.of_nat (length l)))
  end.
Fixpoint lsteps e s os capn : option (list Z * Z) :=
  match os with [] => Some s | o :: t => match lstep e s o capn with Some s' => lsteps e s' t capn | None => None end end.
(** capacity() after shrink_to_fit() of n elements *)
Definition shrunk (e B n : Z) : Z := ((n * e + B - 1) / B * B) / e.

Lemma cap_len e B m m' : length (blocks m) = length (blocks m') -> capacity e B m = capacity e B m'.
Proof. intros H. unfold capacity. rewrite H. reflexivity. Qed.
Theorem C54_history_within_capacity : forall e B fresh os m l l' cap',
  params e B -> no_promotion e B -> memory B fresh -> valid e B m -> bsize m * e <= 2 ^ 24 -> holds e B m l ->
  Z.of_nat (length (blocks m)) * B <= 2 ^ 24 ->
  lsteps e (l, capacity e B m) os (shrunk e B) = Some (l', cap') ->
  exists m', bsteps e B fresh m os = Ok m' /\ valid e B m' /\ holds e B m' l' /\ capacity e B m' = cap'.
Proof.
  intros e B fresh os. induction os as [|o os IH]; intros m l l' cap' (HB & He) HN Hf V S Hl SB H; cbn [lsteps] in H.
  - assert (l' = l /\ cap' = capacity e B m) as (-> & ->) by (split; congruence). exists m. auto.
  - assert (Pos : 0 < B) by lia.
    assert (Q : forall m1 l1, bstep e B fresh m o = Ok m1 -> valid e B m1 -> holds e B m1 l1 -> 
       Z.of_nat (length (blocks m1)) * B <= 2 ^ 24 -> lsteps e (l1, capacity e B m1) os (shrunk e B) = Some (l', cap') ->
       exists m', bsteps e B fresh m (o :: os) = Ok m' /\ valid e B m' /\ holds e B m' l' /\ capacity e B m' = cap').
    { intros m1 l1 E V1 H1 S1 L1. cbn [bsteps]. rewrite E. cbn [bind].
      apply (IH m1 l1 l' cap' (conj HB He) HN Hf V1); auto. destruct V1 as (_ & _ & A & _). lia. }
    destruct o as [i v|v| |]; cbn [lstep] in H.
    + destruct (Z.leb_spec 0 i); [|discriminate]. destruct (Z.ltb_spec i (Z.of_nat (length l))) as [I|I]; [|discriminate].
      cbn [andb] in H. pose proof Hl as (L & _).
      destruct (set_reads e B He (blocks m) i v (proj1 V) (valid_room e B He m i V ltac:(lia)) (aligned_straddle e B i He HN ltac:(lia)))
        as (d & Ed & Ld & _).
      destruct (op_set e B He m i v l V ltac:(lia) (aligned_straddle e B i He HN ltac:(lia)) Hl) as (m1 & E1 & V1 & H1).
      assert (Em : m1 = mkMbs d (bsize m)).
      { unfold mbs_set in E1. destruct (i <? bsize m); [|discriminate]. rewrite Ed in E1. cbn [bind] in E1. congruence. }
      apply (Q m1 (set_at l (Z.to_nat i) (v mod 2 ^ e))); auto.
      * cbn [bstep]. rewrite E1. reflexivity.
      * rewrite Em. cbn [blocks]. rewrite Ld. exact SB.
      * rewrite (cap_len e B m1 m) by (rewrite Em; exact Ld). exact H.
    + pose proof Hl as (L & _). rewrite L in H. destruct (Z.ltb_spec (bsize m) (capacity e B m)) as [C|C]; [|discriminate].
      pose proof V as (V1 & V2 & V3 & V4).
      destruct (op_push_keeps e B fresh HB He m v l V C (aligned_straddle e B (bsize m) He HN ltac:(lia)) Hl) as (m1 & E1 & P1 & H1).
      assert (Lb : length (blocks m1) = length (blocks m)).
      { unfold mbs_push in E1.
        assert (W : wrap64 (bsize m + 1) = bsize m + 1) by (apply wrap64_small; cbn in S; unfold two64; nia).
        rewrite W, reserve_same in E1 by lia. cbn [bind] in E1.
        destruct (set_defined e B He (blocks m) (bsize m) v V1) as (d & Ed & Ld & _).
        { split; [lia|]. pose proof (proj1 (capacity_spec e B HB He m (bsize m + 1) V ltac:(lia)) ltac:(lia)). lia. }
        rewrite Ed in E1. cbn [bind] in E1. assert (m1 = mkMbs d (wrap64 (bsize m + 1))) as -> by congruence. exact Ld. }
      apply (Q m1 (l ++ [v mod 2 ^ e])); auto.
      * rewrite Lb. exact SB.
      * rewrite (cap_len e B m1 m Lb). exact H.
    + destruct l as [|x l0]; [discriminate|]. pose proof Hl as (L & _).
      destruct (op_pop e B He m (x :: l0) V ltac:(cbn in L; lia) Hl) as (m1 & E1 & P1 & H1).
      assert (Lb : length (blocks m1) = length (blocks m)).
      { unfold mbs_pop in E1. destruct (0 <? bsize m); [|discriminate].
        assert (m1 = mkMbs (blocks m) (bsize m - 1)) as -> by congruence. reflexivity. }
      apply (Q m1 (removelast (x :: l0))); auto.
      * rewrite Lb. exact SB.
      * rewrite (cap_len e B m1 m Lb). exact H.
    + destruct (op_shrink e B fresh HB He Hf m l V S Hl) as (m1 & E1 & P1 & H1 & Lb).
      pose proof V as (V1 & V2 & V3 & V4). pose proof Hl as (L & _).
      rewrite <- (blocksNeed_exact e B) in Lb by (auto; lia).
      pose proof (need_le e B HB He (bsize m) _ V2 S V3) as K.
      assert (SB1 : Z.of_nat (length (blocks m1)) * B <= 2 ^ 24) by nia.
      apply (Q m1 l); auto. replace (capacity e B m1) with (shrunk e B (Z.of_nat (length l))); [exact H|].
      unfold capacity, shrunk. rewrite wrap64_small by (cbn in SB1; unfold two64; nia).
      rewrite Lb, L, (blocksNeed_exact e B) by (auto; lia). reflexivity.
Qed.
Print Assumptions C54_history_within_capacity.
(** operator= copies the contents, whatever the capacities. *)
Theorem C54_assign_copies : forall e B fresh m o l, params e B -> memory B fresh -> valid e B m -> valid e B o ->
  bsize o * e <= 2 ^ 24 -> holds e B o l ->
  exists m', mbs_assign e B fresh m o = Ok m' /\ valid e B m' /\ holds e B m' l.
Proof. intros e B fresh m o l (HB & He) Hf V V' S Hl. exact (op_assign e B fresh HB He Hf m o l V V' S Hl). Qed.
Print Assumptions C54_assign_copies.
(** resize within the capacity keeps the elements. *)
Theorem C54_resize_within_capacity : forall e B fresh m l n, valid e B m -> holds e B m l -> 0 <= n <= capacity e B m ->
  forall i v, nth_error l i = Some v -> Z.of_nat i < n -> mbs_at e B (mbs_resize e B fresh m n) (Z.of_nat i) = Ok v.
Proof. intros. eapply resize_keeps; eassumption. Qed.
Print Assumptions C54_resize_within_capacity.

(** When memory is reallocated, the elements are lost: after eight push_backs of
    bytes into 64-bit blocks the ninth one replaces the first seven values by
    whatever the new memory contained. *)
Definition junk64 (n : Z) : list Z := repeat 12297829382473034410 (Z.to_nat n).
Lemma junk64_memory : memory 64 junk64.
Proof.
  intros n Hn. unfold junk64. rewrite repeat_length. split; [lia|]. apply Forall_forall. intros x Hx.
  apply repeat_spec in Hx. subst x. cbn. lia.
Qed.
Definition reads e B (m : mbs) (n : nat) : list (res Z) := map (fun i => mbs_at e B m (Z.of_nat i)) (seq 0 n).
Theorem C54_push_back_loses_refuted : memory 64 junk64 /\
  exists m8 m9,
    bsteps 8 64 junk64 mbs_empty (map Push [1;2;3;4;5;6;7;8]) = Ok m8 /\ reads 8 64 m8 8 = map Ok [1;2;3;4;5;6;7;8] /\
    mbs_push 8 64 junk64 m8 9 = Ok m9 /\ reads 8 64 m9 9 = map Ok [170;170;170;170;170;170;170;8;9].
Proof. split; [exact junk64_memory|]. eexists _, _. split; [vm_compute; reflexivity|]. split; [vm_compute; reflexivity|]. split; [vm_compute; reflexivity|]. vm_compute; reflexivity. Qed.
Print Assumptions C54_push_back_loses_refuted.
Theorem C54_resize_loses_refuted : memory 64 junk64 /\
  exists m, bsteps 8 64 junk64 mbs_empty (map Push [1;2;3]) = Ok m /\
    reads 8 64 (mbs_resize 8 64 junk64 m 9) 3 = map Ok [170;170;170].
Proof. split; [exact junk64_memory|]. eexists. split; [vm_compute; reflexivity|]. vm_compute; reflexivity. Qed.
Print Assumptions C54_resize_loses_refuted.

(** What survives a reallocating reserve or push_back: the blocks that lie in the
    first blocks() bytes; so for byte-sized blocks everything. *)
Lemma copy_bytes_keeps B (dst : list Z) : std_width B -> forall src k d, copy_bytes B dst src k = Ok d -> 0 <= k ->
  forall q, Z.of_nat q < k / (B / 8) -> nth q d 0 = nth q src 0.
Proof.
  intros HB. assert (B8 : 1 <= B / 8 /\ 8 * (B / 8) = B) by (destruct HB as [->|[->|[->| ->]]]; cbn; lia).
  induction dst as [|x dst IH]; intros src k d E Hk q Hq; cbn [copy_bytes] in E.
  - destruct (Z.leb_spec k 0); [|discriminate]. assert (k = 0) as -> by lia. rewrite Z.div_0_l in Hq by lia. lia.
  - destruct (Z.leb_spec k 0); [assert (k = 0) as -> by lia; rewrite Z.div_0_l in Hq by lia; lia|].
    destruct src as [|y src]; [discriminate|]. destruct (Z.leb_spec B (8 * k)) as [C|C].
    + apply bind_Ok in E. destruct E as (t & Et & E). assert (d = y :: t) as -> by congruence.
      destruct q as [|q]; [reflexivity|]. cbn [nth]. apply (IH src (k - B / 8) t Et ltac:(lia)).
      replace k with ((k - B / 8) + 1 * (B / 8)) in Hq by ring. rewrite Z.div_add in Hq by lia. lia.
    + assert (k / (B / 8) = 0) by (apply Z.div_small; lia). lia.
Qed.
Theorem C54_reserve_keeps_prefix : forall e B fresh m l n m', params e B -> memory B fresh -> valid e B m -> holds e B m l ->
  0 <= n -> n * e <= 2 ^ 24 -> mbs_reserve e B fresh m n = Ok m' ->
  let kept := Z.of_nat (length (blocks m)) * 8 / B in
  forall i v, nth_error l i = Some v -> (Z.of_nat i + 1) * e <= kept * B -> mbs_at e B m' (Z.of_nat i) = Ok v.
Proof.
  intros e B fresh m l n m' (HB & He) Hf V Hl Hn Hs E kept i v Hi Hk.
  destruct (op_reserve e B fresh HB He Hf m n V Hn Hs) as (m1 & E1 & V1 & S1 & _). assert (m1 = m') as -> by congruence.
  unfold mbs_reserve in E. destruct (Z.leb_spec n (capacity e B m)).
  - assert (m = m') as <- by congruence. apply Hl, Hi.
  - apply bind_Ok in E. destruct E as (d & Ed & E). assert (m' = mkMbs d (bsize m)) as -> by congruence.
    destruct Hl as (L & H'). pose proof (H' _ _ Hi) as Q. assert (Hil : Nat.lt i (length l)) by (apply nth_error_Some; congruence).
    unfold Nat.lt in Hil. unfold mbs_at in *. cbn [bsize blocks]. destruct (Z.ltb_spec (Z.of_nat i) (bsize m)); [|lia].
    rewrite <- Q. symmetry.
    apply (get_prefix e B He); [apply V|exact (proj1 V1)|apply (valid_room e B He); [exact V|lia]|exact (valid_room e B He _ (Z.of_nat i) V1 ltac:(cbn [bsize]; lia))|].
    intros q Hq. symmetry. apply (copy_bytes_keeps B (fresh (blocksNeed e B n)) HB _ _ _ Ed ltac:(lia)).
    assert (KE : kept = Z.of_nat (length (blocks m)) / (B / 8)).
    { unfold kept. destruct HB as [->|[->|[->| ->]]]; cbn [Z.div].
      - rewrite Z.div_mul by lia. change (8 / 8) with 1. rewrite Z.div_1_r. reflexivity.
      - change 16 with (2 * 8) at 1. rewrite Z.div_mul_cancel_r by lia. reflexivity.
      - change 32 with (4 * 8) at 1. rewrite Z.div_mul_cancel_r by lia. reflexivity.
      - change 64 with (8 * 8) at 1. rewrite Z.div_mul_cancel_r by lia. reflexivity. }
    rewrite <- KE. nia.
Qed.
Print Assumptions C54_reserve_keeps_prefix.
Theorem C54_byte_blocks_keep_all : forall e fresh m l n m', 0 < e <= 8 -> memory 8 fresh -> valid e 8 m -> holds e 8 m l ->
  0 <= n -> n * e <= 2 ^ 24 -> mbs_reserve e 8 fresh m n = Ok m' -> holds e 8 m' l.
Proof.
  intros e fresh m l n m' He Hf V Hl Hn Hs E.
  assert (P : params e 8) by (split; [left; reflexivity|lia]).
  destruct (op_reserve e 8 fresh (proj1 P) He Hf m n V Hn Hs) as (m1 & E1 & V1 & S1 & _). assert (m1 = m') as -> by congruence.
  split; [rewrite S1; apply Hl|]. intros i v Hi.
  apply (C54_reserve_keeps_prefix e 8 fresh m l n m' P Hf V Hl Hn Hs E i v Hi).
  rewrite Z.div_mul by lia. assert (Hil : Nat.lt i (length l)) by (apply nth_error_Some; congruence). unfold Nat.lt in Hil.
  destruct Hl as (L & _). destruct V as (_ & _ & V3 & _). nia.
Qed.
Print Assumptions C54_byte_blocks_keep_all.
Example C54_example : exists m, mbs_reserve 8 64 junk64 mbs_empty 20 = Ok m /\
  lsteps 8 ([], capacity 8 64 m) [Push 300; Push 7; Write 0 9; Push 5; Pop; Push 6; Shrink] (shrunk 8 64) = Some ([9; 7; 6], 8) /\
  (do m' <- bsteps 8 64 junk64 m [Push 300; Push 7; Write 0 9; Push 5; Pop; Push 6; Shrink]; Ok (reads 8 64 m' 3)) = Ok (map Ok [9; 7; 6]).
Proof. eexists. split; [vm_compute; reflexivity|]. split; [vm_compute; reflexivity|]. vm_compute; reflexivity. Qed.
