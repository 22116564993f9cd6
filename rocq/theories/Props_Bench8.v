(** C76: DTLZ8 for a Fitness_t of fixed size. *)
From Coq Require Import List Arith ZArith Reals Lra Lia Bool.
From Verif Require Import Base ListFacts Bench BenchR BenchN BenchMO BenchDTLZ BenchDTLZ2 Props_BenchMO Bench8.
Import ListNotations.

Section Any.
Context (Q : num_ops).
Lemma acc_ct_ok (x : list (num Q)) n : forall v, (v + n < length x)%nat -> exists r, acc_ct Q x v n = Ok r.
Proof.
  induction n as [|n IH]; intros v H; cbn [acc_ct]; rewrite (nth_ub_ok Q x v (lit Q 0 0)) by lia; [eauto|]. cbn [bind].
  destruct (IH (S v)) as (r & E); [lia|]. rewrite E. cbn [bind]. eauto.
Qed.
Lemma seg8_ct_eq (x : list (num Q)) M j : seg8_ct Q true x M j = acc_ct Q x (blk_a (length x) M j) (blk_b (length x) M j - blk_a (length x) M j).
Proof.
  unfold seg8_ct, blk_a, blk_b. cbv zeta. set (t := Nat.div ((j + 1) * length x) M). f_equal. f_equal.
  destruct (Nat.leb_spec (length x) t); lia.
Qed.
Lemma seg8_ct_ok vf (x : list (num Q)) M j : (1 <= M < length x)%nat -> (j < M)%nat -> exists r, seg8_ct Q vf x M j = Ok r.
Proof.
  intros H J. destruct vf; [|exists (seg_val Q x M j); apply seg8_ok; assumption]. rewrite seg8_ct_eq.
  pose proof (blk_range _ _ _ H J). apply acc_ct_ok. lia.
Qed.
Lemma collect_all {A} (l : list (res A)) : Forall (fun r => exists v, r = Ok v) l -> exists v, collect l = Ok v /\ length v = length l.
Proof.
  induction 1 as [|r l (v & ->) F (vs & IH & L)]; [exists []; auto|]. cbn [collect bind]. rewrite IH. cbn [bind length]. exists (v :: vs). cbn. auto.
Qed.
(** In any arithmetic: no read out of range, for every size the compiler accepts. *)
Theorem C76_dtlz8_fixed_safe : forall vf (x : list (num Q)) M, (3 <= M < length x)%nat -> exists r, dtlz8_fixed Q vf x M = Ok r /\ length r = M.
Proof.
  intros vf x M H. unfold dtlz8_fixed. destruct (Nat.leb_spec 3 M); [|lia]. destruct (Nat.ltb_spec M (length x)); [|lia]. cbn [andb].
  destruct (collect_all (map (seg8_ct Q vf x M) (seq 0 M))) as (f & E & _).
  - apply Forall_forall. intros r Hr. apply in_map_iff in Hr. destruct Hr as (j & <- & Hj). apply in_seq in Hj. apply seg8_ct_ok; lia.
  - rewrite E. cbn [bind]. eexists. split; [reflexivity|]. rewrite map_length, seq_length. reflexivity.
Qed.
(** Two objectives are published, but not accepted. *)
Theorem C76_dtlz8_two_objectives_refuted : forall vf (x : list (num Q)), (2 < length x)%nat -> dtlz8_fixed Q vf x 2 = Abort /\ exists r, dtlz8 Q x 2 = Ok r.
Proof. intros vf x H. split; [reflexivity|]. destruct (dtlz8_ok Q x 2) as (r & E & _); [lia|]. eauto. Qed.
End Any.

Open Scope R_scope.
Lemma acc_ct_R (x : list R) n : forall v, (v + n < length x)%nat -> acc_ct Rops x v n = Ok (segR x v (v + n)).
Proof.
  unfold segR. induction n as [|n IH]; intros v H; cbn [acc_ct]; rewrite (nth_ub_ok Rops x v (0 : num Rops)) by (change (num Rops) with R; lia).
  - replace (S (v + 0) - v)%nat with 1%nat by lia. apply (f_equal (@Ok R)). cbn. change (num Rops) with R. ring.
  - cbn [bind]. rewrite IH by lia. cbn [bind]. replace (S (v + S n) - v)%nat with (S (S (S v + n) - S v))%nat by lia. reflexivity.
Qed.
Lemma seg8_ct_R vf (x : list R) M j : (1 <= M < length x)%nat -> (j < M)%nat -> seg8_ct Rops vf x M j = seg8 Rops x M j.
Proof.
  intros H J. destruct vf; [|reflexivity]. rewrite seg8_ct_eq. pose proof (blk_range _ _ _ H J) as B. change (num Rops) with R.
  rewrite acc_ct_R by lia. rewrite (seg8_ok Rops) by assumption. apply (f_equal (@Ok R)). unfold segR, seg_val, from_to. rr. rewrite !lit0. change (num Rops) with R.
  rewrite (fold_left_sum2 (fun i => nth i x 0)). replace (blk_a (length x) M j + (blk_b (length x) M j - blk_a (length x) M j))%nat with (blk_b (length x) M j) by lia. ring.
Qed.
(** A real number is the smallest of the pair sums. *)
Definition least (s : nat -> nat -> R) (P : nat -> nat -> Prop) (m : R) : Prop := (exists i k, P i k /\ m = s i k) /\ forall i k, P i k -> m <= s i k.
Lemma least_unique s P m m' : least s P m -> least s P m' -> m = m'.
Proof. intros ((i & k & H & ->) & A) ((i' & k' & H' & ->) & A'). pose proof (A i' k' H'). pose proof (A' i k H). lra. Qed.
Lemma smaller_R (a b : R) : smaller Rops a b = Rmin a b.
Proof. unfold smaller. cbn [nlt Rops]. unfold Rltb, Rmin. destruct (Rlt_dec b a), (Rle_dec a b); try reflexivity; lra. Qed.
Notation sums f := (fun i k => nth i f 0 + nth k f 0).
Lemma row_least (f : list R) M i n : forall j rest, (i < j)%nat -> (j + n = M - 1)%nat -> least (sums f) (fun a b => (i < a /\ a < b < M - 1)%nat) rest ->
  least (sums f) (fun a b => (a = i /\ j <= b < M - 1) \/ (i < a /\ a < b < M - 1))%nat (row_ct Rops f i j n rest).
Proof.
  induction n as [|n IH]; intros j rest Hij Hn L; cbn [row_ct].
  - destruct L as ((a & b & H & E) & A). split; [exists a, b; auto|]. intros c d [(-> & D)|D]; [lia|auto].
  - rewrite smaller_R. cbn [add lit Rops num]. change (num Rops) with R. rewrite !lit0. destruct (IH (S j) rest ltac:(lia) ltac:(lia) L) as ((a & b & H & E) & A). set (r := row_ct _ _ _ _ _ _) in *. split.
    + unfold Rmin. destruct (Rle_dec _ _); [exists i, j; split; [left; lia|reflexivity]|]. exists a, b. split; [destruct H as [H|H]; [left; lia|right; exact H]|exact E].
    + intros c d H'. pose proof (Rmin_l (nth i f 0 + nth j f 0) r). pose proof (Rmin_r (nth i f 0 + nth j f 0) r).
      destruct H' as [(-> & D)|D]; [destruct (Nat.eq_dec d j) as [->|]; [lra|]; assert (r <= nth i f 0 + nth d f 0) by (apply A; left; lia); lra|].
      assert (r <= nth c f 0 + nth d f 0) by (apply A; right; exact D). lra.
Qed.
Lemma min2_ct_least (f : list R) M k : forall i, (i + k + 3 = M)%nat -> least (sums f) (fun a b => (i <= a /\ a < b < M - 1)%nat) (min2_ct Rops f i k).
Proof.
  induction k as [|k IH]; intros i H; cbn [min2_ct].
  - cbn [add lit Rops num]. change (num Rops) with R. rewrite !lit0. split; [exists i, (i + 1)%nat; split; [lia|reflexivity]|]. intros a b D. assert (a = i) by lia. assert (b = i + 1)%nat by lia. subst. lra.
  - assert (L : least (sums f) (fun a b => (i < a /\ a < b < M - 1)%nat) (min2_ct Rops f (i + 1) k)).
    { destruct (IH (i + 1)%nat ltac:(lia)) as ((a & b & D & E) & A). split; [exists a, b; split; [lia|exact E]|]. intros c d D'. apply A. lia. }
    destruct (row_least f M i (S k + 1) (i + 1) _ ltac:(lia) ltac:(lia) L) as ((a & b & D & E) & A). split.
    + exists a, b. split; [lia|exact E].
    + intros c d D'. apply A. lia.
Qed.
Lemma min2_least (f : list R) M : (3 <= M)%nat -> exists m, min2 Rops f M = Some m /\ least (sums f) (fun a b => (0 <= a /\ a < b < M - 1)%nat) m.
Proof.
  intros H. pose proof (minfold_spec (fun ij => nth (fst ij) f 0 + nth (snd ij) f 0) (prs M) None) as MS. unfold min2. change (flat_map _ _) with (prs M). cbn [nle nlt add lit Rops num]. rewrite !lit0.
  match type of MS with match ?t with _ => _ end => set (m := t) in * end.
  match goal with |- exists _, ?t = _ /\ _ => change t with m end. destruct m as [m|].
  - destruct MS as (A1 & _ & A3). destruct A1 as [A1|((i0 & k0) & I0 & E0)]; [discriminate A1|]. apply prs_in in I0. exists m. split; [reflexivity|]. split; [exists i0, k0; split; [lia|exact E0]|].
    intros a b D. apply (A3 (a, b)). apply prs_in. lia.
  - destruct MS as (_ & E). assert (In (0%nat, 1%nat) (prs M)) as C by (apply prs_in; lia). rewrite E in C. destruct C.
Qed.
(** Over the real numbers a fixed size computes what a dynamic one does, so C76_dtlz8
    holds of both. *)
Theorem C76_dtlz8_fixed : forall vf (x : list R) M, (3 <= M < length x)%nat -> dtlz8_fixed Rops vf x M = dtlz8 Rops x M.
Proof.
  intros vf x M H. unfold dtlz8_fixed, dtlz8. change (@length (num Rops) x) with (length x). destruct (Nat.leb_spec 3 M); [|lia]. destruct (Nat.ltb_spec M (length x)); [|lia]. cbn [andb].
  destruct M as [|M0]; [lia|]. set (M := S M0) in *.
  assert (E : map (seg8_ct Rops vf x M) (seq 0 M) = map (seg8 Rops x M) (seq 0 M)) by (apply map_ext_in; intros j Hj; apply in_seq in Hj; apply seg8_ct_R; lia).
  rewrite E. destruct (collect (map (seg8 Rops x M) (seq 0 M))) as [f0| | |]; try reflexivity. cbn [bind]. f_equal. set (f := map _ f0).
  destruct (min2_least f M ltac:(lia)) as (m & Em & Lm). rewrite Em. pose proof (min2_ct_least f M (M - 3) 0 ltac:(lia)) as Lc.
  rewrite (least_unique _ _ _ _ Lc Lm). apply map_ext. intros j. destruct (j <? M - 1)%nat; reflexivity.
Qed.
Print Assumptions C76_dtlz8_fixed_safe.
Print Assumptions C76_dtlz8_two_objectives_refuted.
Print Assumptions C76_dtlz8_fixed.
(** Four objectives, six variables; the pairs of the first three objectives. *)
Definition six : list R := [1; 2; 3; 4; 5; 6].
Example ex_C76_fixed : (3 <= 4 < length six)%nat /\ min2_ct Rops [5; 2; 7; 0] 0 1 = 7.
Proof. split; [cbn; lia|]. cbn [min2_ct row_ct Nat.add nth]. rewrite !smaller_R. cbn [add lit Rops num]. unfold Rmin. repeat destruct (Rle_dec _ _); lra. Qed.
