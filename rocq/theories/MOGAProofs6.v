(** Crowding distances of inner individuals are finite; so at most two individuals
    per objective have an infinite one. *)
From Coq Require Import List Arith ZArith Reals Bool Lia Lra Permutation.
From Flocq Require Import Core BinarySingleNaN.
From Verif Require Import Base Fl FlFacts Rng StdOps ListFacts GABase GAOpsProofs MOGA MOGASpec MOGAProofs MOGAProofs2 MOGAProofs3 MOGAProofs4 MOGAProofs5.
Import ListNotations.
Open Scope Z_scope.

Definition big : double := d_of_Z 9007199254740992.
Lemma big_ok : fin big /\ B2R big = IZR 9007199254740992.
Proof. apply d_of_Z_exact. lia. Qed.
Lemma sat1 : drnd (IZR 9007199254740992 + 1) = IZR 9007199254740992.
Proof.
  destruct big_ok as (Fb & Eb).
  destruct (fadd_bounded big d1 9007199254740992 1) as (_ & _ & E); try easy.
  - rewrite Eb, d1_val. change (bpow radix2 1) with 2%R. rewrite Rabs_pos_eq; lra.
  - rewrite Eb, d1_val in E. rewrite <- E, <- Eb. f_equal. apply B2SF_inj. vm_compute. reflexivity.
Qed.
(** Adding at most 1 never leaves [0, 2^53]. *)
Lemma sat_add (x y : double) : fin x -> fin y -> (0 <= B2R x <= IZR 9007199254740992)%R -> (0 <= B2R y <= 1)%R ->
  fin (fadd x y) /\ (0 <= B2R (fadd x y) <= IZR 9007199254740992)%R.
Proof.
  intros Fx Fy Hx Hy. destruct (fadd_bounded x y 9007199254740992 1) as (F & _ & E); try easy.
  { change (bpow radix2 1) with 2%R. rewrite Rabs_pos_eq; lra. }
  split; [exact F|]. rewrite E. split.
  - rewrite <- (rnd_0 53 1024). apply rnd_le; [typeclasses eauto|]. lra.
  - rewrite <- sat1. apply rnd_le; [typeclasses eauto|]. lra.
Qed.

Section C.
Context {V : Type} (M : nat).
Notation gene' := (gene V fitv).

Lemma neighbours_nth (s : list gene') id a c : neighbours s id = Some (a, c) -> exists i, nth_error s i = Some a /\ nth_error s (S (S i)) = Some c.
Proof.
  induction s as [|x s IH]; [discriminate|]. destruct s as [|y [|z s]]; [discriminate|discriminate|].
  change (neighbours (x :: y :: z :: s) id) with (if Nat.eqb (gid y) id then Some (x, z) else neighbours (y :: z :: s) id).
  destruct (Nat.eqb (gid y) id).
  - intros E. inversion E; subst. exists 0%nat. split; reflexivity.
  - intros E. apply IH in E. destruct E as (i & E1 & E2). exists (S i). split; assumption.
Qed.
Lemma last_nth (s : list gene') f : s <> [] -> nth_error s (length s - 1) = Some (last s f).
Proof.
  induction s as [|x s IH]; [congruence|]. intros _. destruct s as [|y s]; [reflexivity|].
  change (last (x :: y :: s) f) with (last (y :: s) f). rewrite <- IH by discriminate. cbn [length]. replace (S (S (length s)) - 1)%nat with (S (S (length s) - 1)) by lia. reflexivity.
Qed.

(** The gap between two values is at most the gap between outer ones. *)
Lemma gap_le (a b c d : double) : fin a -> fin b -> fin c -> fin d ->
  (Rabs (B2R a) <= B1000)%R -> (Rabs (B2R b) <= B1000)%R -> (Rabs (B2R c) <= B1000)%R -> (Rabs (B2R d) <= B1000)%R ->
  (B2R a <= B2R b)%R -> (B2R b <= B2R c)%R -> (B2R c <= B2R d)%R ->
  (B2R (Babs (fsub b c)) <= B2R (Babs (fsub a d)))%R.
Proof.
  intros Fa Fb Fc Fd Va Vb Vc Vd L1 L2 L3. apply Rabs_le_inv in Va, Vb, Vc, Vd.
  destruct (fsub_bounded b c 2147483648 970) as (_ & _ & E1); try easy; try lia.
  { apply Rabs_le. rewrite B1000_970 in *. revert Vb Vc. generalize (bpow radix2 970). intros; lra. }
  destruct (fsub_bounded a d 2147483648 970) as (_ & _ & E2); try easy; try lia.
  { apply Rabs_le. rewrite B1000_970 in *. revert Va Vd. generalize (bpow radix2 970). intros; lra. }
  rewrite !B2R_Babs, E1, E2.
  assert (N1 : (drnd (B2R a - B2R d) <= drnd (B2R b - B2R c))%R) by (apply rnd_le; [typeclasses eauto|lra]).
  assert (N2 : (drnd (B2R b - B2R c) <= 0)%R) by (rewrite <- (rnd_0 53 1024); apply rnd_le; [typeclasses eauto|lra]).
  rewrite !Rabs_left1 by lra. lra.
Qed.

Definition ascending (o : nat) (s : list gene') : Prop := forall i j a b, (i < j)%nat -> nth_error s i = Some a -> nth_error s j = Some b ->
  flt (objective (gfit b) o) (objective (gfit a) o) = false.
Lemma asc_R o s i j a b : ascending o s -> (o < M)%nat -> (forall y, In y s -> tame M y) -> (i <= j)%nat ->
  nth_error s i = Some a -> nth_error s j = Some b -> (B2R (objective (gfit a) o) <= B2R (objective (gfit b) o))%R.
Proof.
  intros A Ho Ht L Ha Hb. destruct (Nat.eq_dec i j) as [->|N]; [replace b with a by congruence; lra|].
  specialize (A i j a b ltac:(lia) Ha Hb).
  destruct (tame_obj M a o (Ht a (nth_error_In _ _ Ha)) Ho) as (Fa & _). destruct (tame_obj M b o (Ht b (nth_error_In _ _ Hb)) Ho) as (Fb & _).
  apply flt_false_le in A; [|apply fin_nonnan; assumption..]. apply fle_true in A. destruct A as (_ & _ & A).
  rewrite (@fval_fin 53 1024 _ Fa), (@fval_fin 53 1024 _ Fb) in A. exact A.
Qed.
Lemma crowd_step_fin o (s : list gene') x acc : (o < M)%nat -> (forall y, In y s -> tame M y) -> ascending o s ->
  neighbours s (gid x) <> None -> fin acc -> (0 <= B2R acc <= IZR 9007199254740992)%R ->
  fin (crowd_step o s x acc) /\ (0 <= B2R (crowd_step o s x acc) <= IZR 9007199254740992)%R.
Proof.
  intros Ho Ht As Hn Fa Ba. unfold crowd_step. destruct (neighbours s (gid x)) as [(a, c)|] eqn:E; [|congruence].
  destruct (neighbours_nth _ _ _ _ E) as (i & Ia & Ic).
  destruct s as [|f s']; [destruct i; discriminate Ia|]. cbn [spread]. set (s := f :: s') in *. set (l := last s f).
  assert (Il : nth_error s (length s - 1) = Some l) by (apply last_nth; discriminate).
  assert (If : nth_error s 0 = Some f) by reflexivity.
  assert (Li : (S (S i) <= length s - 1)%nat) by (assert (S (S i) < length s)%nat by (apply nth_error_Some; congruence); lia).
  destruct (tame_obj M a o (Ht a (nth_error_In _ _ Ia)) Ho) as (Fva & Va). destruct (tame_obj M c o (Ht c (nth_error_In _ _ Ic)) Ho) as (Fvc & Vc).
  destruct (tame_obj M f o (Ht f (nth_error_In _ _ If)) Ho) as (Fvf & Vf). destruct (tame_obj M l o (Ht l (nth_error_In _ _ Il)) Ho) as (Fvl & Vl).
  pose proof (asc_R o s 0 i f a As Ho Ht ltac:(lia) If Ia) as L1. pose proof (asc_R o s i (S (S i)) a c As Ho Ht ltac:(lia) Ia Ic) as L2.
  pose proof (asc_R o s (S (S i)) (length s - 1) c l As Ho Ht Li Ic Il) as L3.
  pose proof (gap_le _ _ _ _ Fvf Fva Fvc Fvl Vf Va Vc Vl L1 L2 L3) as Gp.
  destruct (gap_ok _ _ Fva Fvc Va Vc) as (Fg & (_ & Ng) & _). rewrite (@fval_fin 53 1024 _ Fg) in Ng.
  destruct (gap_ok _ _ Fvf Fvl Vf Vl) as (Fs & (_ & Ns) & Us). rewrite (@fval_fin 53 1024 _ Fs) in Ns.
  destruct (scale_ok _ _ Fvf Fvl Vf Vl) as (Fsc & Psc).
  assert (Gs : (B2R (Babs (fsub (objective (gfit f) o) (objective (gfit l) o))) <= B2R (fadd (Babs (fsub (objective (gfit f) o) (objective (gfit l) o))) eps10))%R).
  { destruct eps10_ok as (Fe & Ve). pose proof B1000_1 as B1.
    destruct (fadd_bounded (Babs (fsub (objective (gfit f) o) (objective (gfit l) o))) eps10 4294967296 970) as (_ & _ & Es); try easy; try lia.
    { apply Rabs_le. rewrite B1000_970 in *. revert Us B1. generalize (bpow radix2 970). intros; lra. }
    rewrite Es. apply (rnd_bound_fl' 53 1024 _). lra. }
  change tiny with eps10. set (gp := Babs (fsub (objective (gfit a) o) (objective (gfit c) o))) in *.
  set (sc := fadd (Babs (fsub (objective (gfit f) o) (objective (gfit l) o))) eps10) in *. clearbody gp sc.
  assert (Q : (0 <= B2R gp / B2R sc <= 1)%R).
  { split; [apply Rmult_le_pos; [exact Ng|left; apply Rinv_0_lt_compat, Psc]|]. apply Rmult_le_reg_r with (B2R sc); [exact Psc|].
    unfold Rdiv. rewrite Rmult_assoc, Rinv_l by lra. lra. }
  assert (Rq : (0 <= drnd (B2R gp / B2R sc) <= 1)%R).
  { split.
    - rewrite <- (rnd_0 53 1024). apply rnd_le; [typeclasses eauto|lra].
    - rewrite <- d1_val. apply (rnd_bound_fl 53 1024 _). rewrite d1_val. lra. }
  destruct (fdiv_fin 53 1024 _ _ gp sc Fg ltac:(lra)) as (Fq & Eq).
  { rewrite Rabs_pos_eq by lra. apply Rle_lt_trans with 1%R; [lra|]. change 1%R with (bpow radix2 0). apply bpow_lt. lia. }
  apply sat_add; [exact Fa|exact Fq|exact Ba|]. rewrite Eq. exact Rq.
Qed.
Lemma crowding_from_fin orders : forall o (x : gene') acc, (o + length orders <= M)%nat ->
  (forall s y, In s orders -> In y s -> tame M y) -> (forall k s, nth_error orders k = Some s -> ascending (o + k) s) ->
  (forall s, In s orders -> neighbours s (gid x) <> None) -> fin acc -> (0 <= B2R acc <= IZR 9007199254740992)%R ->
  fin (crowding_from o orders x acc).
Proof.
  induction orders as [|s t IH]; intros o x acc L Ht As Hn Fa Ba; [exact Fa|]. cbn [crowding_from length] in *.
  assert (A0 : ascending o s) by (specialize (As 0%nat s eq_refl); rewrite Nat.add_0_r in As; exact As).
  destruct (crowd_step_fin o s x acc ltac:(lia) (fun y Hy => Ht s y (or_introl eq_refl) Hy) A0 (Hn s (or_introl eq_refl)) Fa Ba) as (F1 & B1).
  apply IH; try assumption; try lia.
  - intros s0 y H1 H2. apply (Ht s0 y); [right; exact H1|exact H2].
  - intros k s0 Hk. specialize (As (S k) s0 Hk). replace (S o + k)%nat with (o + S k)%nat by lia. exact As.
  - intros s0 H1. apply Hn. right. exact H1.
Qed.
(** An infinite distance belongs to an end of some order. *)
Definition ends (orders : list (list gene')) : list gene' := flat_map (fun s => match s with [] => [] | f :: _ => [f; last s f] end) orders.
Lemma ends_length orders : (length (ends orders) <= 2 * length orders)%nat.
Proof. induction orders as [|[|f s] t IH]; cbn [ends flat_map length app] in *; [lia|fold (ends t); lia|fold (ends t); lia]. Qed.
Lemma infinite_end (p : list gene') orders x : NoDup (map gid p) -> (forall y, In y p -> tame M y) -> objective_orders M p orders -> In x p ->
  fle dinf (crowding orders x) = true -> In x (ends orders).
Proof.
  intros N Ht (L & O) Hx H.
  destruct (existsb (fun s => match neighbours s (gid x) with None => true | _ => false end) orders) eqn:E.
  - apply existsb_exists in E. destruct E as (s & Hs & E). destruct (neighbours s (gid x)) eqn:En; [discriminate|].
    apply In_nth_error in Hs. destruct Hs as (o & Hs). destruct (O o s Hs) as (P & _).
    assert (Ns : NoDup (map gid s)) by (eapply Permutation_NoDup; [apply Permutation_map, P|exact N]).
    assert (Hxs : In x s) by (eapply Permutation_in; eassumption).
    destruct s as [|f s']; [destruct Hxs|]. apply (neighbours_ends (f :: s') Ns x f Hxs) in En.
    apply in_flat_map. exists (f :: s'). split; [eapply nth_error_In; exact Hs|]. cbn [hd] in En. destruct En as [->|En]; [left; reflexivity|right; left; exact En].
  - exfalso. assert (F : fin (crowding orders x)).
    { apply crowding_from_fin.
      - rewrite L. lia.
      - intros s y Hs Hy. apply In_nth_error in Hs. destruct Hs as (o & Hs). destruct (O o s Hs) as (P & _). apply Ht. eapply Permutation_in; [apply Permutation_sym, P|exact Hy].
      - intros o s Hs. destruct (O o s Hs) as (_ & A). exact A.
      - intros s Hs C. assert (T : existsb (fun s => match neighbours s (gid x) with None => true | _ => false end) orders = true) by (apply existsb_exists; exists s; rewrite C; auto). congruence.
      - reflexivity.
      - cbn. lra. }
    revert F H. generalize (crowding orders x). intros d. destruct d; cbn; intros; discriminate.
Qed.
End C.
