(** C82: the thread number. *)
From Coq Require Import List Arith ZArith Bool Lia Permutation.
From Verif Require Import Base Threads.
Import ListNotations.
Open Scope Z_scope.

(** The arguments of the setThreadNum calls, in order. *)
Definition set_args (h : list tcall) : list Z := flat_map (fun c => match c with TSet n => [n] | _ => [] end) h.
Definition loops_at (s : site) (h : list tcall) : Prop := exists n, In (TLoop s n) h.

Lemma last_cons {X} (l : list X) x d : last (x :: l) d = last l x.
Proof. revert x d. induction l as [|y l IH]; intros x d; [reflexivity|]. cbn [last]. destruct l; [reflexivity|]. apply IH. Qed.
Lemma par_loop_inv t s n p : par_loop t s n = Ok p -> thN_at t s <> 0 /\ n / wrap64 (thN_at t s) <> 0 /\
  fst p = chunks (Z.to_nat n) 0 (Z.to_nat n) (Z.to_nat (n / wrap64 (thN_at t s))) /\
  snd p = mkTh (hw t) (Some (now t)) (fun x => if Nat.eqb x s then Some (thN_at t s) else captured t x).
Proof.
  unfold par_loop. cbv zeta. destruct (Z.eqb_spec (thN_at t s) 0); [discriminate|]. destruct (Z.eqb_spec (n / wrap64 (thN_at t s)) 0); [discriminate|].
  intros H. assert (p = (chunks (Z.to_nat n) 0 (Z.to_nat n) (Z.to_nat (n / wrap64 (thN_at t s))), mkTh (hw t) (Some (now t)) (fun x => if Nat.eqb x s then Some (thN_at t s) else captured t x))) as -> by congruence.
  repeat split; assumption.
Qed.

(** threadNum() is the last number given to setThreadNum, the number of hardware
    threads before; exactly the non-positive ones are rejected. *)
Theorem C82_thread_num : forall h t0 t, tdrive t0 h = Ok t -> now t = last (set_args h) (now t0).
Proof.
  induction h as [|c h IH]; intros t0 t H; cbn [tdrive] in H; [inversion H; reflexivity|]. apply bind_Ok in H. destruct H as (t1 & H1 & H).
  rewrite (IH _ _ H). clear IH H. destruct c as [n|s n]; cbn [tstep] in H1; cbn [set_args flat_map app].
  - unfold setThreadNum in H1. destruct (0 <? n); [|discriminate H1]. inversion H1; subst t1. rewrite last_cons. reflexivity.
  - apply bind_Ok in H1. destruct H1 as (p & Hp & E). destruct (par_loop_inv _ _ _ _ Hp) as (_ & _ & _ & Es). replace t1 with (snd p) by congruence. rewrite Es. reflexivity.
Qed.
Print Assumptions C82_thread_num.
Theorem C82_rejected_exactly : forall t n, setThreadNum t n = Abort <-> n <= 0.
Proof. intros t n. unfold setThreadNum. destruct (Z.ltb_spec 0 n); split; intros; try lia; try discriminate; reflexivity. Qed.
Print Assumptions C82_rejected_exactly.

(** A loop with at least as many items as threads: the chunks are consecutive,
    none is empty or longer than items / threads, together they are all items
    exactly once and in order, and there is one for every thread. *)
Lemma chunks_spec c n : (1 <= c)%nat -> forall f lo, (n - lo <= f)%nat -> (lo <= n)%nat ->
  concat (chunks f lo n c) = seq lo (n - lo) /\ Forall (fun l => (1 <= length l <= c)%nat) (chunks f lo n c) /\
  (n - lo <= c * length (chunks f lo n c))%nat.
Proof.
  intros Hc f. induction f as [|f IH]; intros lo Hf Hl; cbn [chunks].
  - replace (n - lo)%nat with 0%nat by lia. repeat split; [constructor|cbn; lia].
  - destruct (Nat.ltb_spec lo n) as [L|L].
    + destruct (le_lt_dec (lo + c) n) as [K|K].
      * destruct (IH (lo + c)%nat ltac:(lia) ltac:(lia)) as (A & B & C). cbn [concat length]. rewrite A.
        rewrite Nat.min_l by lia. split; [|split].
        -- rewrite <- seq_app. f_equal. lia.
        -- constructor; [rewrite seq_length; lia|exact B].
        -- nia.
      * rewrite Nat.min_r by lia. assert (E : chunks f (lo + c) n c = []).
        { destruct f; [reflexivity|]. cbn [chunks]. destruct (Nat.ltb_spec (lo + c) n); [lia|reflexivity]. }
        rewrite E. cbn [concat length app]. rewrite app_nil_r. split; [reflexivity|]. split; [constructor; [rewrite seq_length; lia|constructor]|lia].
    + replace (n - lo)%nat with 0%nat by lia. repeat split; [constructor|cbn; lia].
Qed.
Theorem C82_loop_covers_every_item_once : forall t s n, 1 <= thN_at t s < two64 -> thN_at t s <= n ->
  exists cs t', par_loop t s n = Ok (cs, t') /\
    concat cs = seq 0 (Z.to_nat n) /\
    Forall (fun l => 1 <= Z.of_nat (length l) <= n / thN_at t s) cs /\ thN_at t s <= Z.of_nat (length cs).
Proof.
  intros t s n Hk Hn. unfold par_loop. cbv zeta. rewrite wrap64_small by lia. set (k := thN_at t s) in *.
  destruct (Z.eqb_spec k 0); [lia|]. assert (Hc : 1 <= n / k) by (apply Z.div_le_lower_bound; lia).
  destruct (Z.eqb_spec (n / k) 0); [lia|]. eexists _, _. split; [reflexivity|].
  destruct (chunks_spec (Z.to_nat (n / k)) (Z.to_nat n) ltac:(lia) (Z.to_nat n) 0 ltac:(lia) ltac:(lia)) as (A & B & C).
  rewrite Nat.sub_0_r in A, C. split; [exact A|]. split.
  - eapply Forall_impl; [|exact B]. cbv beta. intros l Hl. lia.
  - set (L := length _) in C |- *. assert (n <= (n / k) * Z.of_nat L) by nia. assert (k * (n / k) <= n) by (apply Z.mul_div_le; lia).
    assert (Q : n / k * k <= n / k * Z.of_nat L) by lia. apply Z.mul_le_mono_pos_l in Q; lia.
Qed.
Print Assumptions C82_loop_covers_every_item_once.
(** Whatever the order in which the chunks are handed out and whoever gets them,
    every item is processed exactly once. *)
Theorem C82_every_schedule : forall t s n cs t' order, 1 <= thN_at t s < two64 -> thN_at t s <= n ->
  par_loop t s n = Ok (cs, t') -> Permutation order cs -> Permutation (concat order) (seq 0 (Z.to_nat n)).
Proof.
  intros t s n cs t' order Hk Hn H P. destruct (C82_loop_covers_every_item_once t s n Hk Hn) as (cs2 & t2 & H2 & E & _).
  assert (cs2 = cs) by congruence. subst cs2. rewrite <- E. clear -P. induction P; cbn [concat]; auto.
  - apply Permutation_app_head. exact IHP.
  - rewrite !app_assoc. apply Permutation_app_tail. apply Permutation_app_comm.
  - eapply perm_trans; eassumption.
Qed.
Print Assumptions C82_every_schedule.
Example ex_C82 : exists t, tdrive (th_fresh 8) [TSet 3; TLoop 0%nat 10] = Ok t /\ thN_at t 0%nat = 3 /\
  option_map fst (match par_loop t 0%nat 10 with Ok p => Some p | _ => None end) = Some [[0; 1; 2]; [3; 4; 5]; [6; 7; 8]; [9]]%nat.
Proof. eexists. repeat split. Qed.

(** Refuted: "the number of threads that will be used".  A loop keeps the value
    threadNum() had when it ran first; later calls of setThreadNum do not reach
    it. *)
Theorem C82_later_calls_ignored_refuted : forall h1 h2 t0 t1 t2 s n t,
  captured t0 s = None -> ~ loops_at s h1 ->
  tdrive t0 h1 = Ok t1 -> tstep t1 (TLoop s n) = Ok t2 -> tdrive t2 h2 = Ok t -> thN_at t s = now t1.
Proof.
  intros h1 h2 t0 t1 t2 s n t Hc Hn H1 H2 H3.
  assert (A : captured t1 s = None).
  { revert t0 Hc H1. induction h1 as [|c h IH]; intros t0 Hc H1; cbn [tdrive] in H1; [inversion H1; subst; exact Hc|]. apply bind_Ok in H1. destruct H1 as (t' & Ht & H1).
    apply (IH ltac:(intros (m & Hm); apply Hn; exists m; right; exact Hm) t'); [|exact H1]. destruct c as [m|s' m]; cbn [tstep] in Ht.
    - unfold setThreadNum in Ht. destruct (0 <? m); [|discriminate Ht]. inversion Ht; subst t'. exact Hc.
    - apply bind_Ok in Ht. destruct Ht as (p & Hp & E). destruct (par_loop_inv _ _ _ _ Hp) as (_ & _ & _ & Es). replace t' with (snd p) by congruence. rewrite Es. cbn [captured].
      destruct (Nat.eqb_spec s s'); [|exact Hc]. exfalso. apply Hn. exists m. left. congruence. }
  assert (B : captured t2 s = Some (now t1)).
  { cbn [tstep] in H2. apply bind_Ok in H2. destruct H2 as (p & Hp & E). destruct (par_loop_inv _ _ _ _ Hp) as (_ & _ & _ & Es). replace t2 with (snd p) by congruence.
    rewrite Es. cbn [captured]. rewrite Nat.eqb_refl. unfold thN_at. rewrite A. reflexivity. }
  assert (K : captured t s = Some (now t1)).
  { clear H2. revert t2 B H3. induction h2 as [|c h IH]; intros t2 B H3; cbn [tdrive] in H3; [inversion H3; subst; exact B|]. apply bind_Ok in H3. destruct H3 as (t' & Ht & H3).
    apply (IH t'); [|exact H3]. destruct c as [m|s' m]; cbn [tstep] in Ht.
    - unfold setThreadNum in Ht. destruct (0 <? m); [|discriminate Ht]. inversion Ht; subst t'. exact B.
    - apply bind_Ok in Ht. destruct Ht as (p & Hp & E). destruct (par_loop_inv _ _ _ _ Hp) as (_ & _ & _ & Es). replace t' with (snd p) by congruence. rewrite Es. cbn [captured].
      destruct (Nat.eqb_spec s s') as [->|]; [|exact B]. unfold thN_at. rewrite B. reflexivity. }
  unfold thN_at. rewrite K. reflexivity.
Qed.
Print Assumptions C82_later_calls_ignored_refuted.
Example ex_C82_later : exists t1 t2 t, tdrive (th_fresh 8) [TSet 2] = Ok t1 /\ tstep t1 (TLoop 0%nat 10) = Ok t2 /\ tdrive t2 [TSet 5] = Ok t /\ now t = 5 /\ thN_at t 0%nat = 2.
Proof. eexists _, _, _. repeat split. Qed.

(** Refuted: the loops work for every number of items.  With fewer items than
    threads (no item at all included) the chunk size is 0, which OpenMP forbids,
    and if the hardware does not tell its number of threads the first loop
    divides by zero. *)
Theorem C82_few_items_refuted : forall t s n, 1 <= thN_at t s < two64 -> 0 <= n < thN_at t s -> par_loop t s n = UB.
Proof.
  intros t s n Hk Hn. unfold par_loop. cbv zeta. rewrite wrap64_small by lia. destruct (Z.eqb_spec (thN_at t s) 0); [lia|].
  rewrite Z.div_small by lia. reflexivity.
Qed.
Print Assumptions C82_few_items_refuted.
Theorem C82_unknown_hardware_refuted : forall s n, par_loop (th_fresh 0) s n = UB.
Proof. reflexivity. Qed.
Print Assumptions C82_unknown_hardware_refuted.
