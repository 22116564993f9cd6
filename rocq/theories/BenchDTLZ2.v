(** DTLZ8 and DTLZ9. *)
From Coq Require Import List Arith ZArith Reals Lra Lia Bool Psatz.
From Verif Require Import Base ListFacts Bench BenchR BenchN BenchMO BenchDTLZ.
Import ListNotations.

Section Any.
Context (Q : num_ops).
Lemma collect_ok {A} (l : list (res A)) (v : list A) : l = map (@Ok A) v -> collect l = Ok v.
Proof. intros ->. induction v as [|y v IH]; [reflexivity|]. cbn [map collect]. rewrite IH. reflexivity. Qed.
Lemma nth_ub_ok (x : list (num Q)) i d : (i < length x)%nat -> nth_ub Q x i = Ok (nth i x d).
Proof. intros H. unfold nth_ub. rewrite (nth_error_nth' x d H). reflexivity. Qed.
Lemma sum_at_ok (x : list (num Q)) d l : forall s, Forall (fun i => (i < length x)%nat) l -> sum_at Q x l s = Ok (fold_left (fun s i => add Q s (nth i x d)) l s).
Proof.
  induction l as [|i l IH]; intros s H; [reflexivity|]. inversion H as [|? ? H1 H2]; subst. cbn [sum_at fold_left].
  rewrite (nth_ub_ok x i d H1). cbn. apply IH, H2.
Qed.
(** First and last index of the j-th block (published: the same). *)
Definition blk_a (N M j : nat) : nat := (j * N / M)%nat.
Definition blk_b (N M j : nat) : nat := Nat.min ((j + 1) * N / M) (N - 1).
Lemma blk_range N M j : (1 <= M < N)%nat -> (j < M)%nat -> (blk_a N M j <= blk_b N M j < N)%nat.
Proof.
  intros H J. unfold blk_a, blk_b. split; [|lia]. apply Nat.min_glb.
  - apply Nat.div_le_mono; nia.
  - assert (j * N / M < N)%nat by (apply Nat.div_lt_upper_bound; nia). lia.
Qed.
Definition seg_val (x : list (num Q)) (M j : nat) : num Q :=
  fold_left (fun s i => add Q s (nth i x (lit Q 0 0))) (from_to (blk_a (length x) M j) (blk_b (length x) M j)) (lit Q 0 0).
Lemma seg8_ok (x : list (num Q)) M j : (1 <= M < length x)%nat -> (j < M)%nat -> seg8 Q x M j = Ok (seg_val x M j).
Proof.
  intros H J. pose proof (blk_range _ _ _ H J) as B. unfold seg8, seg_val. apply sum_at_ok. apply Forall_forall. intros i Hi.
  unfold from_to in Hi. apply in_seq in Hi. unfold blk_a, blk_b in *. lia.
Qed.
Definition raw8 (x : list (num Q)) (M j : nat) : num Q := div Q (seg_val x M j) (lit Q (Z.of_nat (length x / M)) 0).
Lemma raws_ok (x : list (num Q)) M : (1 <= M < length x)%nat ->
  collect (map (seg8 Q x M) (seq 0 M)) = Ok (map (seg_val x M) (seq 0 M)).
Proof. intros H. apply collect_ok. rewrite map_map. apply map_ext_in. intros j Hj. apply in_seq in Hj. apply seg8_ok; [exact H|lia]. Qed.
Lemma dtlz8_ok (x : list (num Q)) M : (1 <= M < length x)%nat -> exists r, dtlz8 Q x M = Ok r /\ length r = M.
Proof.
  intros H. unfold dtlz8. destruct (Nat.ltb_spec M (length x)); [|lia]. destruct M as [|M]; [lia|]. rewrite raws_ok by exact H.
  cbn [bind]. eexists. split; [reflexivity|]. rewrite map_length, seq_length. reflexivity.
Qed.
Lemma sum_pow_at_ub (x : list (num Q)) l : forall s, In (length x) l -> sum_pow_at Q x l s = UB.
Proof.
  induction l as [|i l IH]; intros s H; [destruct H|]. cbn [sum_pow_at]. unfold nth_ub. destruct H as [->|H].
  - rewrite (proj2 (nth_error_None x (length x))) by lia. reflexivity.
  - destruct (nth_error x i); [|reflexivity]. cbn. apply IH, H.
Qed.
Lemma sum_pow_at_cases (x : list (num Q)) l : forall s, sum_pow_at Q x l s = UB \/ exists v, sum_pow_at Q x l s = Ok v.
Proof.
  induction l as [|i l IH]; intros s; [right; eexists; reflexivity|]. cbn [sum_pow_at]. unfold nth_ub. destruct (nth_error x i); [cbn; apply IH|left; reflexivity].
Qed.
Lemma collect_ub {A} (l : list (res A)) : Forall (fun r => r = UB \/ exists v, r = Ok v) l -> In UB l -> collect l = UB.
Proof.
  induction 1 as [|r l [->|(v & ->)] F IH]; intros H; [destruct H|reflexivity|]. destruct H as [H|H]; [discriminate H|]. cbn [collect bind]. rewrite IH by exact H. reflexivity.
Qed.
Lemma dtlz9_ub (x : list (num Q)) M : (1 <= M < length x)%nat -> dtlz9 Q x M = UB.
Proof.
  intros H. unfold dtlz9. destruct (Nat.ltb_spec M (length x)); [|lia]. rewrite collect_ub; [reflexivity| |].
  - apply Forall_forall. intros r Hr. apply in_map_iff in Hr. destruct Hr as (j & <- & _). apply sum_pow_at_cases.
  - apply in_map_iff. exists (M - 1)%nat. split; [|apply in_seq; lia]. apply sum_pow_at_ub. unfold from_to. apply in_seq.
    replace ((M - 1 + 1) * length x)%nat with (length x * M)%nat by nia. rewrite Nat.div_mul by lia. rewrite Nat.min_id.
    assert ((M - 1) * length x / M <= length x)%nat by (apply Nat.div_le_upper_bound; nia). lia.
Qed.
End Any.

Open Scope R_scope.
(** Over the real numbers. *)
Definition segR (x : list R) (a b : nat) : R := sumR (map (fun i => nth i x 0) (seq a (S b - a))).
Definition rawR (x : list R) (M j : nat) : R := segR x (blk_a (length x) M j) (blk_b (length x) M j) / INR (length x / M).
Lemma raw8_R (x : list R) M j : raw8 Rops x M j = rawR x M j.
Proof.
  unfold raw8, rawR, seg_val, segR, from_to. rr. rewrite !lit0, <- INR_IZR_INZ. change (num Rops) with R.
  rewrite (fold_left_sum2 (fun i => nth i x 0)). f_equal. ring.
Qed.
Definition c8 (x : list R) (M j : nat) : R := rawR x M (M - 1) + 4 * rawR x M j - 1.
Definition c8_last (x : list R) (M i k : nat) : R := 2 * rawR x M (M - 1) + (rawR x M i + rawR x M k) - 1.
Lemma minfold_spec {A} (s : A -> R) l : forall m0,
  match fold_left (fun (m : option R) p => match m with None => if Rleb (s p) (s p) then Some (s p) else None | Some m' => if Rltb (s p) m' then Some (s p) else m end) l m0 with
  | None => m0 = None /\ l = []
  | Some m => (m0 = Some m \/ exists p, In p l /\ m = s p) /\ (forall m', m0 = Some m' -> m <= m') /\ forall p, In p l -> m <= s p
  end.
Proof.
  induction l as [|p l IH]; intros m0; cbn [fold_left].
  - destruct m0; [|auto]. split; [auto|]. split; [intros m' E; injection E as ->; lra|intros p []].
  - specialize (IH (match m0 with None => if Rleb (s p) (s p) then Some (s p) else None | Some m' => if Rltb (s p) m' then Some (s p) else m0 end)).
    destruct (fold_left _ _ _) as [m|].
    + destruct IH as (A1 & A2 & A3). destruct m0 as [m0|].
      * unfold Rltb in *. destruct (Rlt_dec (s p) m0) as [L|L].
        -- split; [right; destruct A1 as [E|(q & Hq & ->)]; [injection E as <-; exists p; split; [left; reflexivity|reflexivity]|exists q; split; [right; exact Hq|reflexivity]]|].
           pose proof (A2 _ eq_refl). split; [intros m' E; injection E as <-; lra|]. intros q [<-|Hq]; [lra|auto].
        -- split; [destruct A1 as [E|(q & Hq & ->)]; [left; exact E|right; exists q; split; [right; exact Hq|reflexivity]]|].
           pose proof (A2 _ eq_refl). split; [exact A2|]. intros q [<-|Hq]; [lra|auto].
      * unfold Rleb in *. destruct (Rle_dec (s p) (s p)) as [_|L]; [|lra].
        split; [right; destruct A1 as [E|(q & Hq & ->)]; [injection E as <-; exists p; split; [left; reflexivity|reflexivity]|exists q; split; [right; exact Hq|reflexivity]]|].
        pose proof (A2 _ eq_refl). split; [discriminate|]. intros q [<-|Hq]; [lra|auto].
    + destruct IH as (A1 & A2). destruct m0 as [m0|]; [unfold Rltb in A1; destruct (Rlt_dec (s p) m0); discriminate A1|].
      unfold Rleb in A1. destruct (Rle_dec (s p) (s p)); [discriminate A1|lra].
Qed.
Definition prs (M : nat) : list (nat * nat) := flat_map (fun i => map (fun j => (i, j)) (seq (i + 1) (M - 1 - (i + 1)))) (seq 0 (M - 2)).
Lemma prs_in M i k : In (i, k) (prs M) <-> (i < k < M - 1)%nat.
Proof.
  unfold prs. rewrite in_flat_map. split.
  - intros (i' & Hi & Hk). apply in_map_iff in Hk. destruct Hk as (k' & E & Hk). injection E as -> ->. apply in_seq in Hi. apply in_seq in Hk. lia.
  - intros H. exists i. split; [apply in_seq; lia|]. apply in_map_iff. exists k. split; [reflexivity|]. apply in_seq. lia.
Qed.
Lemma nth_raws (x : list R) M j : (j < M)%nat -> nth j (map (raw8 Rops x M) (seq 0 M)) 0 = rawR x M j.
Proof.
  intros J. change (num Rops) with R. rewrite (nth_indep _ 0 (raw8 Rops x M 0)) by (rewrite map_length, seq_length; exact J).
  rewrite map_nth, seq_nth by exact J. apply raw8_R.
Qed.
Lemma dtlz8_R (x : list R) M : (1 <= M < length x)%nat -> exists r, dtlz8 Rops x M = Ok r /\ length r = M /\
  (forall j, (j < M - 1)%nat -> nth j r 0 = if Rlt_dec (c8 x M j) 0 then rawR x M j + (1000 - c8 x M j) else rawR x M j) /\
  ((forall i k, (i < k < M - 1)%nat -> 0 <= c8_last x M i k) -> nth (M - 1) r 0 = rawR x M (M - 1)) /\
  (forall i k, (i < k < M - 1)%nat -> c8_last x M i k < 0 -> rawR x M (M - 1) + (1000 - c8_last x M i k) <= nth (M - 1) r 0).
Proof.
  intros H. unfold dtlz8. destruct (Nat.ltb_spec M (@length (num Rops) x)) as [_|L]; [|change (num Rops) with R in L; lia]. destruct M as [|M0]; [lia|]. set (M := S M0) in *.
  rewrite (raws_ok Rops) by exact H. cbn [bind]. rewrite map_map.
  change (fun x0 : nat => div Rops (seg_val Rops x M x0) (lit Rops (Z.of_nat (length x / M)) 0)) with (raw8 Rops x M).
  set (f := map (raw8 Rops x M) (seq 0 M)). eexists. split; [reflexivity|]. split; [rewrite map_length, seq_length; reflexivity|].
  assert (NF : forall j, (j < M)%nat -> nth j f (lit Rops 0 0) = rawR x M j) by (intros j J; rr; rewrite lit0; apply nth_raws, J).
  assert (NR : forall (h : nat -> R) j, (j < M)%nat -> nth j (map h (seq 0 M)) 0 = h j).
  { intros h j J. rewrite (nth_indep _ 0 (h 0%nat)) by (rewrite map_length, seq_length; exact J). rewrite map_nth, seq_nth by exact J. reflexivity. }
  split.
  - intros j J. rewrite NR by lia. destruct (Nat.ltb_spec j (M - 1)); [|lia]. rewrite !NF by lia. rr. rewrite !lit0. unfold Rltb, c8.
    destruct (Rlt_dec (rawR x M (M - 1) + 4 * rawR x M j - 1) 0); [|reflexivity]. ring.
  - rewrite NR by lia. rewrite Nat.ltb_irrefl. rewrite !NF by lia.
    pose proof (minfold_spec (fun ij => add Rops (nth (fst ij) f (lit Rops 0 0)) (nth (snd ij) f (lit Rops 0 0))) (prs M) None) as MS.
    unfold min2. change (flat_map _ _) with (prs M). cbn [nle nlt Rops num].
    match type of MS with match ?t with _ => _ end => set (m := t) in * end.
    match goal with |- context [match ?t with None => None | _ => _ end] => change t with m end.
    destruct m as [m|].
    + destruct MS as (A1 & _ & A3). destruct A1 as [A1|((i0 & k0) & I0 & E0)]; [discriminate A1|]. apply prs_in in I0. cbn [fst snd] in E0.
      rewrite !NF in E0 by lia. rr. rewrite !lit0. unfold Rltb. rrin E0. split.
      * intros C. specialize (C i0 k0 I0). unfold c8_last in C. destruct (Rlt_dec _ _) as [L|L]; [lra|reflexivity].
      * intros i k IK C. pose proof (A3 (i, k) (proj2 (prs_in M i k) IK)) as A. cbn [fst snd] in A. rewrite !NF in A by lia. rrin A. unfold c8_last in *.
        destruct (Rlt_dec _ _) as [L|L]; lra.
    + destruct MS as (_ & E). split; [reflexivity|]. intros i k IK. apply prs_in in IK. rewrite E in IK. destruct IK.
Qed.
