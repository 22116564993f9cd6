(** Proofs for test/SOGA_TSP.cpp (ProgSO.v). *)
From Coq Require Import List Arith ZArith Bool Lia Reals Lra Permutation FinFun Sorted.
From Flocq Require Import Core BinarySingleNaN.
From Verif Require Import Props_Blend Props_Box WheelProofs2 WheelProofs3 SOGAProofs5 RandProofs GlobalProofs BoxProofs BlendProofs ProgMOProofs ProgMOProofs2.
From Verif Require Import Base Fl FlFacts Rng StdOps GABase Box Defaults GlobalM Bench RegionSpec ProgMO ProgSO ProgSOSpec.
Import ListNotations.
Open Scope Z_scope.

(** * The flip *)
Lemma swap_ok (x : list double) i j : (i < length x)%nat -> (j < length x)%nat ->
  exists y, swap_at x i j = Ok y /\ length y = length x /\
    forall p, nth_error y p = if (p =? j)%nat then nth_error x i else if (p =? i)%nat then nth_error x j else nth_error x p.
Proof.
  intros Hi Hj. unfold swap_at. destruct (nth_error x i) as [a|] eqn:Ei; [|apply nth_error_None in Ei; lia].
  destruct (nth_error x j) as [b|] eqn:Ej; [|apply nth_error_None in Ej; lia].
  eexists. split; [reflexivity|]. split; [rewrite !set_at_length; reflexivity|]. intros p.
  destruct (Nat.eqb_spec p j) as [->|N1]; [apply set_at_same; rewrite set_at_length; exact Hj|]. rewrite set_at_other by exact N1.
  destruct (Nat.eqb_spec p i) as [->|N2]; [apply set_at_same; exact Hi|apply set_at_other; exact N2].
Qed.
Definition half_way (b e k j : nat) : nat :=
  if ((b <=? j) && (j <? b + k) || (e <? j + k) && (j <=? e))%nat then (b + e - j)%nat else j.
Ltac cmp := repeat match goal with
  | |- context [Nat.eqb ?a ?b] => destruct (Nat.eqb_spec a b)
  | |- context [Nat.ltb ?a ?b] => destruct (Nat.ltb_spec a b)
  | |- context [Nat.leb ?a ?b] => destruct (Nat.leb_spec a b) end; cbn [andb orb].
Lemma flip_run n : forall b e k (x0 x : list double), (b < e)%nat -> (e < length x0)%nat -> length x = length x0 ->
  (2 * k <= e - b + 1)%nat -> (e - b + 4 <= 2 * (n + k))%nat ->
  (forall j, nth_error x j = nth_error x0 (half_way b e k j)) ->
  exists y, flip_loop n b e k x = Ok y /\ length y = length x0 /\ forall j, nth_error y j = nth_error x0 (flip_index b e j).
Proof.
  induction n as [|n IH]; intros b e k x0 x Hbe He Hl Hk Hn Hx; [lia|]. cbn [flip_loop].
  replace (k * 2 <=? e - b + 1)%nat with true by (symmetry; apply Nat.leb_le; lia).
  destruct (swap_ok x (b + k) (e - k) ltac:(lia) ltac:(lia)) as (x' & E & L' & Hx'). rewrite E. cbn [bind].
  destruct (Nat.leb_spec (2 * S k) (e - b + 1)) as [C|C].
  - apply (IH b e (S k) x0 x'); try assumption; try lia. intros j. rewrite Hx', !Hx. unfold half_way. cmp; try lia; f_equal; lia.
  - destruct n as [|n]; [lia|]. cbn [flip_loop]. replace (S k * 2 <=? e - b + 1)%nat with false by (symmetry; apply Nat.leb_gt; lia).
    exists x'. split; [reflexivity|]. split; [lia|]. intros j. rewrite Hx', !Hx. unfold half_way, flip_index. cmp; try lia; f_equal; lia.
Qed.
Lemma flip_ok b e (x : list double) : (b < e)%nat -> (e < length x)%nat ->
  exists y, flip_loop (length x + 2) b e 0 x = Ok y /\ length y = length x /\ forall j, nth_error y j = nth_error x (flip_index b e j).
Proof.
  intros Hb He. apply (flip_run (length x + 2) b e 0 x x Hb He eq_refl); try lia. intros j. f_equal. unfold half_way. cmp; lia.
Qed.
Lemma flip_cases b e j : ((j < b \/ e < j) /\ flip_index b e j = j \/ (b <= j <= e) /\ (2 * j + 1 = b + e \/ 2 * j = b + e + 1) /\ flip_index b e j = j \/
  (b <= j <= e) /\ 2 * j + 1 <> b + e /\ 2 * j <> b + e + 1 /\ flip_index b e j = b + e - j)%nat.
Proof. unfold flip_index. cmp; lia. Qed.
Lemma flip_index_inv b e j : (b < e)%nat -> flip_index b e (flip_index b e j) = j.
Proof. intros H. pose proof (flip_cases b e j). pose proof (flip_cases b e (flip_index b e j)). lia. Qed.
Lemma flip_perm b e (x y : list double) : (b < e)%nat -> length y = length x -> (forall j, nth_error y j = nth_error x (flip_index b e j)) -> Permutation x y.
Proof.
  intros Hb Hl H. apply Permutation_nth_error. split; [lia|]. exists (flip_index b e). split; [|exact H].
  intros i j E. rewrite <- (flip_index_inv b e i Hb), <- (flip_index_inv b e j Hb), E. reflexivity.
Qed.

(** * The mutation *)
Section Ops.
Context (R : rng_ops) (HR : rng_ok R) (crand : G R -> Z * G R).
Lemma hundredth : fin (literal (-1) 2) /\ fin (literal 1 2) /\ fle (literal (-1) 2) (literal 1 2) = true /\ fin (fsub (literal 1 2) (literal (-1) 2)).
Proof. repeat split; vm_compute; reflexivity. Qed.
Lemma tsp_mutate_ok (src : list double) (g : G R) : (2 <= length src)%nat -> Forall unit_value src ->
  exists x g', tsp_mutate R crand src g = Ok (x, g') /\ length x = length src /\ Forall unit_value x /\
    ((exists i v r, nth_error src i = Some v /\ fle (literal (-1) 2) r = true /\ fle r (literal 1 2) = true /\ x = set_at src i (clampD d0 d1 (fadd v r))) \/
     (exists b e, (b < e)%nat /\ (e < length src)%nat /\ (forall j, nth_error x j = nth_error src (flip_index b e j)) /\ Permutation src x)).
Proof.
  intros Hl Hu. unfold tsp_mutate. destruct (rand01 R g) as [u g1]. cbv zeta.
  destruct (flt u (fofZ 1 (-1))).
  - replace (length src =? 0)%nat with false by (symmetry; apply Nat.eqb_neq; lia).
    destruct (crand g1) as [k g2] eqn:Ek.
    destruct hundredth as (F1 & F2 & F3 & F4). pose proof (randD_range_ok R (literal (-1) 2) (literal 1 2) g2 HR F1 F2 F3 F4) as (Fr & L1 & L2).
    destruct (randD_range R (literal (-1) 2) (literal 1 2) g2) as [r g3]. cbn [fst] in Fr, L1, L2.
    pose proof (Z.mod_pos_bound k (Z.of_nat (length src)) ltac:(lia)) as Mb.
    destruct (nth_error src (Z.to_nat (k mod Z.of_nat (length src)))) as [v|] eqn:Ev; [|apply nth_error_None in Ev; lia].
    assert (Uv : unit_value v) by (eapply Forall_forall; [exact Hu|eapply nth_error_In; exact Ev]).
    eexists _, g3. split; [reflexivity|]. split; [apply set_at_length|].
    change (dmax (dmin (fadd v r) d1) d0) with (clampD d0 d1 (fadd v r)).
    destruct one_val as (O1 & _). pose proof (between_fin d0 d1 v eq_refl O1 (proj1 Uv) (proj2 Uv)) as Fv.
    destruct (clampD_proj d0 d1 (fadd v r) ltac:(vm_compute; reflexivity) (fadd_fin_nonnan _ _ (fin_nonnan _ _ _ Fv) Fr)) as (P1 & P2 & _).
    split; [|left; eexists _, v, r; split; [exact Ev|]; auto].
    apply Forall_forall. intros y Hy. apply In_nth_error in Hy. destruct Hy as (j & Ej).
    destruct (Nat.eq_dec j (Z.to_nat (k mod Z.of_nat (length src)))) as [->|Ne].
    + rewrite set_at_same in Ej by (apply nth_error_Some; congruence). injection Ej as <-. split; assumption.
    + rewrite set_at_other in Ej by exact Ne. eapply Forall_forall; [exact Hu|eapply nth_error_In; exact Ej].
  - replace (length src <=? 1)%nat with false by (symmetry; apply Nat.leb_gt; lia).
    destruct (crand g1) as [k1 g2] eqn:E1. pose proof (Z.mod_pos_bound k1 (Z.of_nat (length src - 1)) ltac:(lia)) as M1.
    set (b := Z.to_nat (k1 mod Z.of_nat (length src - 1))) in *. assert (Hb : (b < length src - 1)%nat) by lia. clearbody b.
    destruct (crand g2) as [k2 g3] eqn:E2. pose proof (Z.mod_pos_bound k2 (Z.of_nat (length src - b - 1)) ltac:(lia)) as M2.
    set (e := (Z.to_nat (k2 mod Z.of_nat (length src - b - 1)) + b + 1)%nat) in *. assert (He : (b < e < length src)%nat) by lia. clearbody e.
    destruct (flip_ok b e src (proj1 He) (proj2 He)) as (y & Ey & Ly & Hy). rewrite Ey. cbn [bind]. exists y, g3. split; [reflexivity|]. split; [exact Ly|].
    pose proof (flip_perm b e src y (proj1 He) Ly Hy) as P. split; [|right; exists b, e; split; [apply He|]; split; [apply He|]; split; assumption].
    apply Forall_forall. intros z Hz. eapply Forall_forall; [exact Hu|]. eapply Permutation_in; [apply Permutation_sym, P|exact Hz].
Qed.
End Ops.

(** * The fitness *)
Section Fit.
Context (std : std_ops) (Hstd : std_ok std).
Lemma by_key_sw (l : list (double * nat)) : (forall p, In p l -> nonnan (fst p)) -> strict_weak by_key l.
Proof.
  intros NN. unfold by_key. repeat split.
  - intros a Ha. destruct (flt (fst a) (fst a)) eqn:E; [|reflexivity]. apply flt_iff in E; [lra|auto..].
  - intros a b c Ha Hb Hc. rewrite !flt_iff by auto. lra.
  - intros a b c Ha Hb Hc H. rewrite flt_iff in H by auto. destruct (flt (fst c) (fst a)) eqn:F; [left; reflexivity|right].
    apply flt_false_le in F; [|auto..]. apply fle_iff in F; [|auto..]. apply flt_iff; [auto..|lra].
Qed.
Lemma map_snd_combine {A B} (l : list A) (l' : list B) : length l = length l' -> map snd (combine l l') = l'.
Proof. revert l'. induction l as [|a l IH]; intros [|b l'] H; cbn in *; try discriminate; [reflexivity|f_equal; apply IH; lia]. Qed.
Lemma combine_seq_in (x : list double) k i : In (k, i) (combine x (seq 0 (length x))) -> nth_error x i = Some k.
Proof.
  assert (G : forall s, In (k, i) (combine x (seq s (length x))) -> (s <= i)%nat /\ nth_error x (i - s) = Some k).
  { induction x as [|y x IH]; intros s; cbn [length seq combine In]; [intros []|]. intros [E|H].
    - injection E as -> ->. rewrite Nat.sub_diag. split; [lia|reflexivity].
    - destruct (IH (S s) H) as (A & B). split; [lia|]. replace (i - s)%nat with (S (i - S s)) by lia. exact B. }
  intros H. destruct (G 0%nat H) as (_ & E). rewrite Nat.sub_0_r in E. exact E.
Qed.
Lemma sorted_nth {A} (lt : A -> A -> bool) l : sorted_by lt l -> forall i j a b, (i < j)%nat -> nth_error l i = Some a -> nth_error l j = Some b -> lt b a = false.
Proof.
  induction 1 as [|x l S IH F]; intros i j a b H Ea Eb; [destruct i; discriminate Ea|].
  destruct j as [|j]; [lia|]. destruct i as [|i]; cbn in Ea, Eb.
  - injection Ea as <-. rewrite Forall_forall in F. apply F. eapply nth_error_In; eauto.
  - apply (IH i j a b); [lia|assumption..].
Qed.
Lemma order_tour (x : list double) : (forall k, In k x -> nonnan k) -> tour_of x (tsp_order std x).
Proof.
  intros NN. unfold tour_of, tsp_order.
  set (l := combine x (seq 0 (length x))).
  assert (NL : forall p, In p l -> nonnan (fst p)) by (intros (k, i) Hp; apply NN; eapply in_combine_l; exact Hp).
  destruct (proj1 Hstd _ _ _ (by_key_sw l NL)) as (P & S). split.
  - rewrite <- (map_snd_combine x (seq 0 (length x))) at 1 by (rewrite seq_length; reflexivity). apply Permutation_map, P.
  - intros i j a b ka kb Hij Ea Eb Ka Kb. rewrite nth_error_map in Ea, Eb.
    destruct (nth_error (sort std by_key l) i) as [(k1, a')|] eqn:E1; [|discriminate Ea]. injection Ea as <-.
    destruct (nth_error (sort std by_key l) j) as [(k2, b')|] eqn:E2; [|discriminate Eb]. injection Eb as <-. cbn [snd] in Ka, Kb.
    assert (I1 : In (k1, a') l) by (eapply Permutation_in; [apply Permutation_sym, P|eapply nth_error_In; exact E1]).
    assert (I2 : In (k2, b') l) by (eapply Permutation_in; [apply Permutation_sym, P|eapply nth_error_In; exact E2]).
    apply combine_seq_in in I1, I2. replace ka with k1 by congruence. replace kb with k2 by congruence.
    exact (sorted_nth by_key _ S i j _ _ Hij E1 E2).
Qed.
Lemma walk_path (pts : list point) order : (forall i, In i order -> (i < length pts)%nat) -> forall acc,
  tsp_walk pts order acc = Ok (fold_left (fun s ab => fadd s (dist2 (nth (fst ab) pts (d0, d0)) (nth (snd ab) pts (d0, d0)))) (legs order) acc).
Proof.
  induction order as [|a order IH]; intros H acc; [reflexivity|]. destruct order as [|b t]; [reflexivity|].
  change (tsp_walk pts (a :: b :: t) acc) with (do p <- point_at pts a; do c <- point_at pts b; tsp_walk pts (b :: t) (fadd acc (dist2 p c))).
  change (legs (a :: b :: t)) with ((a, b) :: legs (b :: t)). cbn [fold_left fst snd].
  assert (P : forall i, In i (a :: b :: t) -> point_at pts i = Ok (nth i pts (d0, d0))).
  { intros i Hi. unfold point_at. rewrite (nth_error_nth' pts (d0, d0) (H i Hi)). reflexivity. }
  rewrite (P a), (P b) by (cbn; auto). cbn [bind]. apply IH. intros i Hi. apply H. right. exact Hi.
Qed.
(** Bounds. *)
Lemma unit_bd x : unit_value x -> fin x /\ (0 <= B2R x <= 1)%R.
Proof.
  intros (A & B). destruct one_val as (F & V). destruct (box_nn d0 d1 x 0 eq_refl F A B) as ((Fx & X) & P); [cbn; lra|rewrite V; cbn; lra|].
  split; [exact Fx|]. rewrite Rabs_pos_eq in X by exact P. cbn in X. lra.
Qed.
Lemma sq_diff x y : unit_value x -> unit_value y -> fin (fmul (fsub x y) (fsub x y)) /\ (0 <= B2R (fmul (fsub x y) (fsub x y)) <= 1)%R.
Proof.
  intros Ux Uy. destruct (unit_bd x Ux) as (Fx & Bx). destruct (unit_bd y Uy) as (Fy & By).
  destruct (fsub_bounded x y 1 0) as (Fd & Bd & _); try lia; try assumption; [cbn [bpow]; apply Rabs_le; lra|].
  cbn [bpow] in Bd. rewrite Rmult_1_r in Bd.
  destruct (bd_mul_val (fsub x y) (fsub x y) 0 0) as ((F & B) & E); [split; [exact Fd|exact Bd]|split; [exact Fd|exact Bd]|lia|].
  assert (P : (0 <= B2R (fmul (fsub x y) (fsub x y)))%R) by (rewrite E; apply drnd_ge0; nra).
  split; [exact F|]. split; [exact P|]. rewrite Rabs_pos_eq in B by exact P. cbn in B. exact B.
Qed.
Lemma dist2_bd p c : unit_point p -> unit_point c -> fin (dist2 p c) /\ (0 <= B2R (dist2 p c) <= 2)%R.
Proof.
  intros (P1 & P2) (C1 & C2). unfold dist2.
  destruct (sq_diff _ _ P1 C1) as (F1 & B1). destruct (sq_diff _ _ P2 C2) as (F2 & B2).
  set (u := fmul (fsub (fst p) (fst c)) (fsub (fst p) (fst c))) in *. set (v := fmul (fsub (snd p) (snd c)) (fsub (snd p) (snd c))) in *. clearbody u v.
  destruct (fadd_bounded d0 u 1 0) as (F3 & B3 & E3); try lia; try assumption; try reflexivity; [cbn [bpow B2R d0]; apply Rabs_le; lra|].
  cbn [B2R d0] in E3. rewrite Rplus_0_l, drnd_id in E3.
  destruct (fadd_bounded (fadd d0 u) v 2 0) as (F4 & B4 & E4); try lia; try assumption; [cbn [bpow]; rewrite E3; apply Rabs_le; lra|].
  assert (P : (0 <= B2R (fadd (fadd d0 u) v))%R) by (rewrite E4, E3; apply drnd_ge0; lra).
  split; [exact F4|]. rewrite Rabs_pos_eq in B4 by exact P. cbn [bpow] in B4. lra.
Qed.
Lemma legs_length o : length (legs o) = (length o - 1)%nat.
Proof. unfold legs. rewrite combine_length. destruct o as [|a o]; [reflexivity|]. cbn [tl length]. lia. Qed.
Lemma path_bd (pts : list point) : Forall unit_point pts -> forall ls acc m, 0 <= m -> m + 2 * Z.of_nat (length ls) <= 9007199254740992 ->
  fin acc -> (0 <= B2R acc <= IZR m)%R ->
  let L := fold_left (fun s ab => fadd s (dist2 (nth (fst ab) pts (d0, d0)) (nth (snd ab) pts (d0, d0)))) ls acc in
  fin L /\ (0 <= B2R L <= IZR (m + 2 * Z.of_nat (length ls)))%R.
Proof.
  intros U. assert (UP : forall i, unit_point (nth i pts (d0, d0))).
  { intros i. destruct (nth_in_or_default i pts (d0, d0)) as [H| ->]; [eapply Forall_forall; eauto|repeat split; vm_compute; reflexivity]. }
  induction ls as [|(a, b) ls IH]; intros acc m Hm Hl Fa Ba; cbn [fold_left length fst snd]; [cbv zeta; cbn [length] in Hl; rewrite Z.mul_0_r, Z.add_0_r; auto|].
  cbn [length] in Hl. destruct (dist2_bd _ _ (UP a) (UP b)) as (Fd & Bd). set (d := dist2 (nth a pts (d0, d0)) (nth b pts (d0, d0))) in *. clearbody d.
  destruct (fadd_bounded acc d (m + 2) 0) as (F & B & E); try lia; try assumption.
  { cbn [bpow]. rewrite Rmult_1_r, plus_IZR. apply Rabs_le. lra. }
  assert (P : (0 <= B2R (fadd acc d))%R) by (rewrite E; apply drnd_ge0; lra).
  rewrite Rabs_pos_eq in B by exact P. cbn [bpow] in B. rewrite Rmult_1_r in B.
  replace (m + 2 * Z.of_nat (S (length ls))) with ((m + 2) + 2 * Z.of_nat (length ls)) by lia.
  apply IH; [lia|lia|exact F|split; assumption].
Qed.
Lemma tsp_fitness_ok (pts : list point) (x : list double) : length x = length pts -> (forall k, In k x -> nonnan k) -> Forall unit_point pts ->
  Z.of_nat (length pts) <= 4294967296 ->
  exists order, tour_of x order /\ tsp_fitness std pts x = Ok (path_length pts order) /\
    fin (path_length pts order) /\ (0 <= B2R (path_length pts order) <= 2 * IZR (Z.of_nat (length pts - 1)))%R.
Proof.
  intros Hl NN U Hn. exists (tsp_order std x). pose proof (order_tour x NN) as T. split; [exact T|].
  assert (In1 : forall i, In i (tsp_order std x) -> (i < length pts)%nat).
  { intros i Hi. apply (Permutation_in i (Permutation_sym (proj1 T))) in Hi. apply in_seq in Hi. lia. }
  split; [apply walk_path, In1|].
  assert (Lo : length (tsp_order std x) = length pts) by (rewrite <- (Permutation_length (proj1 T)), seq_length; exact Hl).
  destruct (path_bd pts U (legs (tsp_order std x)) d0 0 ltac:(lia)) as (F & B); [rewrite legs_length; lia|reflexivity|cbn; lra|].
  split; [exact F|]. rewrite legs_length, Lo, Z.add_0_l, mult_IZR in B. exact B.
Qed.
End Fit.

(** * The default path *)
Lemma sorted_seq l : forall s, Permutation (seq s (length l)) l -> (forall i j a b, (i < j)%nat -> nth_error l i = Some a -> nth_error l j = Some b -> (a < b)%nat) -> l = seq s (length l).
Proof.
  induction l as [|h l IH]; intros s P M; [reflexivity|]. cbn [length seq] in *.
  assert (h = s).
  { assert (In s (h :: l)) by (eapply Permutation_in; [exact P|left; reflexivity]). assert (Hh : In h (s :: seq (S s) (length l))) by (eapply Permutation_in; [apply Permutation_sym, P|left; reflexivity]).
    assert (s <= h)%nat by (destruct Hh as [<-|Hh]; [lia|apply in_seq in Hh; lia]).
    destruct H as [H|H]; [exact H|]. apply In_nth_error in H. destruct H as (j & Ej). pose proof (M 0%nat (S j) h s ltac:(lia) eq_refl Ej). lia. }
  subst h. f_equal. apply IH.
  - apply Permutation_cons_inv in P. exact P.
  - intros i j a b Hij Ea Eb. apply (M (S i) (S j)); [lia|assumption..].
Qed.
Lemma nat_key n a : (a < n)%nat -> Z.of_nat n <= 4294967296 ->
  fin (fdiv (d_of_Z (Z.of_nat a)) (d_of_Z (Z.of_nat n))) /\ B2R (fdiv (d_of_Z (Z.of_nat a)) (d_of_Z (Z.of_nat n))) = drnd (INR a / INR n).
Proof.
  intros Ha Hn. destruct (d_of_Z_exact (Z.of_nat a) ltac:(lia)) as (Fa & Ea). destruct (d_of_Z_exact (Z.of_nat n) ltac:(lia)) as (Fn & En).
  destruct (bd_div_val (d_of_Z (Z.of_nat a)) (d_of_Z (Z.of_nat n)) 32) as ((F & _) & E).
  - split; [exact Fa|]. rewrite Ea, Rabs_pos_eq by (apply IZR_le; lia). change (bpow radix2 32) with (IZR 4294967296). apply IZR_le. lia.
  - exact Fn.
  - rewrite En. apply IZR_le. lia.
  - lia.
  - split; [exact F|]. rewrite E, Ea, En, !INR_IZR_INZ. reflexivity.
Qed.
Local Transparent DefaultsProofs.uu.
Lemma uu_small : (DefaultsProofs.uu <= / 68719476736)%R.
Proof. unfold DefaultsProofs.uu. apply Rle_trans with (bpow radix2 (-36)); [apply bpow_le; lia|]. cbn. lra. Qed.
Local Opaque DefaultsProofs.uu.
Lemma nat_keys_rise n a b : (a < b)%nat -> (b < n)%nat -> Z.of_nat n <= 4294967296 ->
  flt (fdiv (d_of_Z (Z.of_nat a)) (d_of_Z (Z.of_nat n))) (fdiv (d_of_Z (Z.of_nat b)) (d_of_Z (Z.of_nat n))) = true.
Proof.
  intros Hab Hb Hn. destruct (nat_key n a ltac:(lia) Hn) as (Fa & Ea). destruct (nat_key n b Hb Hn) as (Fb & Eb).
  apply flt_iff; [apply fin_nonnan; assumption..|]. rewrite (fval_fin _ _ _ Fa), (fval_fin _ _ _ Fb), Ea, Eb.
  assert (N0 : (0 < INR n)%R) by (apply lt_0_INR; lia). assert (Nn : (INR n <= 4294967296)%R) by (rewrite INR_IZR_INZ; apply IZR_le; lia).
  set (x := (INR a / INR n)%R). set (y := (INR b / INR n)%R).
  assert (A1 : (INR a + 1 <= INR b)%R) by (rewrite <- S_INR; apply le_INR; lia).
  assert (B1 : (INR b <= INR n)%R) by (apply le_INR; lia). pose proof (pos_INR a) as A0.
  assert (I : (/ 4294967296 <= / INR n)%R) by (apply Rinv_le; lra).
  assert (Ip : (0 < / INR n)%R) by (apply Rinv_0_lt_compat; lra).
  assert (Ixn : (INR n * / INR n = 1)%R) by (apply Rinv_r; lra).
  assert (D : (x + / 4294967296 <= y)%R) by (unfold x, y, Rdiv; nra).
  assert (X0 : (0 <= x)%R) by (unfold x, Rdiv; nra). assert (Y1 : (y <= 1)%R) by (unfold y, Rdiv; nra).
  pose proof (DefaultsProofs.drnd_err x) as Ex. pose proof (DefaultsProofs.drnd_err y) as Ey.
  rewrite (Rabs_pos_eq x) in Ex by lra. rewrite (Rabs_pos_eq y) in Ey by lra. 
  pose proof uu_small as U.
  pose proof (proj1 DefaultsProofs.uu_bound) as U0. pose proof DefaultsProofs.ee_bound as V.
  apply Rabs_le_inv in Ex, Ey. clearbody x y.
  assert (DefaultsProofs.uu * x <= / 68719476736)%R by nra. assert (DefaultsProofs.uu * y <= / 68719476736)%R by nra.
  assert (/ 4294967296 = 16 * / 68719476736)%R by lra. assert (0 < / 68719476736)%R by lra. lra.
Qed.
Lemma natural_nth n i : (i < n)%nat -> nth_error (natural n) i = Some (fdiv (d_of_Z (Z.of_nat i)) (d_of_Z (Z.of_nat n))).
Proof. intros H. unfold natural. rewrite nth_error_map, (nth_error_nth' (seq 0 n) 0%nat) by (rewrite seq_length; exact H). rewrite seq_nth by exact H. reflexivity. Qed.
Lemma natural_tour n order : Z.of_nat n <= 4294967296 -> tour_of (natural n) order -> order = rev (seq 0 n).
Proof.
  intros Hn (P & M). assert (Ln : length (natural n) = n) by (unfold natural; rewrite map_length, seq_length; reflexivity). rewrite Ln in P.
  assert (Lo : length order = n) by (rewrite <- (Permutation_length P); apply seq_length).
  assert (Rg : forall k, In k order -> (k < n)%nat) by (intros k Hk; apply (Permutation_in k (Permutation_sym P)) in Hk; apply in_seq in Hk; lia).
  assert (E : rev order = seq 0 (length (rev order))).
  { apply sorted_seq.
    - rewrite rev_length, Lo. eapply Permutation_trans; [exact P|apply Permutation_rev].
    - intros i j a b Hij Ea Eb.
      assert (Lj : (j < length order)%nat) by (rewrite <- rev_length; apply nth_error_Some; congruence).
      assert (Gn : forall k v, (k < length order)%nat -> nth_error (rev order) k = Some v -> nth_error order (length order - S k) = Some v).
      { intros k v Hk Ek. apply nth_error_nth with (d := 0%nat) in Ek. rewrite rev_nth in Ek by exact Hk. rewrite (nth_error_nth' order 0%nat) by lia. congruence. }
      pose proof (Gn i a ltac:(lia) Ea) as Ga. pose proof (Gn j b Lj Eb) as Gb.
      assert (Ra : (a < n)%nat) by (apply (Rg a), (nth_error_In _ _ Ga)).
      assert (Rb : (b < n)%nat) by (apply (Rg b), (nth_error_In _ _ Gb)).
      pose proof (M (length order - S j)%nat (length order - S i)%nat b a _ _ ltac:(lia) Gb Ga (natural_nth n b Rb) (natural_nth n a Ra)) as F.
      destruct (lt_eq_lt_dec a b) as [[C|C]|C]; [exact C| |].
      + exfalso. subst b. assert (ND : NoDup order) by (eapply Permutation_NoDup; [exact P|apply seq_NoDup]).
        rewrite NoDup_nth_error in ND. specialize (ND (length order - S i)%nat (length order - S j)%nat ltac:(lia)). rewrite Ga, Gb in ND. specialize (ND eq_refl). lia.
      + exfalso. rewrite (nat_keys_rise n b a C Ra Hn) in F. discriminate F. }
  rewrite rev_length, Lo in E. rewrite <- E, rev_involutive. reflexivity.
Qed.

(** * test/SOGA_Ackley.cpp *)
Lemma half_bd : bd (fdiv (d_of_Z 5) (d_of_Z (10 ^ Z.of_nat 1))) (-1) /\ (0 <= B2R (fdiv (d_of_Z 5) (d_of_Z (10 ^ Z.of_nat 1))))%R.
Proof.
  destruct half_facts as (Fh & Vh & _). set (h := fdiv _ _).
  destruct (box_nn d0 div_half h (-1) eq_refl Fh) as (A & B); [vm_compute; reflexivity|vm_compute; reflexivity|cbn; lra|rewrite Vh; cbn; lra|]. split; assumption.
Qed.
Lemma neg_lit (x : double) z k : -2147483648 <= z <= 0 -> fle (d_of_Z z) x = true -> fle x d0 = true -> (IZR (- z) <= bpow radix2 k)%R -> bd x k /\ (B2R x <= 0)%R.
Proof.
  intros Hz A B C. destruct (d_of_Z_exact z ltac:(lia)) as (Fm & Em). pose proof (between_fin _ d0 x Fm eq_refl A B) as F. rewrite opp_IZR in C.
  split; [apply (box_bd (d_of_Z z) d0 x k Fm eq_refl A B); [rewrite Em; lra|cbn; apply bpow_ge_0]|].
  apply fle_true in B. destruct B as (_ & _ & B). rewrite (fval_fin _ _ _ F) in B. exact B.
Qed.
Lemma ackley_fin (L : libm) (Hc : cos_sane L) (He : exp_sane4 L) d v : in_box (square_dbox 2 (d_of_Z (-5)) (d_of_Z 5) d) v ->
  exists f : double, ackley (Dops L) v = Ok f /\ fin f.
Proof.
  intros Hv. apply in_square in Hv. destruct Hv as (Lv & Hv).
  assert (U : forall x, In x v -> bd x 3).
  { intros x Hx. destruct (Hv x Hx) as (A & B). destruct (bd_nat 5 ltac:(lia)) as ((F5 & _) & E5). destruct (d_of_Z_exact (-5) ltac:(lia)) as (Fm & Em).
    apply (box_bd (d_of_Z (-5)) (d_of_Z 5) x 3 Fm F5 A B); [rewrite Em|rewrite E5]; cbn; lra. }
  destruct v as [|x [|y [|z t]]]; try discriminate Lv; [|exfalso; cbn [length] in Lv; lia].
  assert (U0 := U x (or_introl eq_refl)). assert (U1 := U y (or_intror (or_introl eq_refl))). clear U Hv Lv.
  unfold ackley, two. eexists. split; [reflexivity|].
  cbn [num lit add sub mul div opp nabs nsqrt nsin ncos nexp powi powq nlt nle m_pi m_e m_2_pi vsum Dops].
  destruct half_bd as (Hh & Ph). set (h := fdiv (d_of_Z 5) (d_of_Z (10 ^ Z.of_nat 1))) in *. clearbody h.
  assert (S : nn (fadd (fmul x x) (fmul y y)) (6 + 1)) by (apply nn_add; [apply (sq_nn x 3 U0); lia|apply (sq_nn y 3 U1); lia|lia]).
  assert (S2 : nn (fmul h (fadd (fmul x x) (fmul y y))) (-1 + 7)) by (apply nn_mul; [split; assumption|exact S|lia]).
  assert (Q := nn_sqrt _ 6 S2 ltac:(lia)). set (q := Bsqrt mode_NE _) in *. clearbody q.
  destruct (neg_lit (fdiv (d_of_Z (-2)) (d_of_Z (10 ^ Z.of_nat 1))) (-1) 0) as (M2 & M2'); [lia|vm_compute; reflexivity|vm_compute; reflexivity|cbn; lra|].
  set (m2 := fdiv (d_of_Z (-2)) (d_of_Z (10 ^ Z.of_nat 1))) in *. clearbody m2.
  destruct (neg_mul m2 q 0 6 M2 M2' Q ltac:(lia)) as ((Fe & _) & Ne).
  destruct (He _ Fe ltac:(lra)) as (Fx & Bx). set (e1 := l_exp L (fmul m2 q)) in *. clearbody e1.
  assert (E1 : bd e1 2) by (split; [exact Fx|]; rewrite Rabs_pos_eq by lra; cbn; lra).
  assert (Pi : bd (fofZ 5734161139222659 (-53)) 0) by (apply (lit_nn _ 0 1); [lia|vm_compute; reflexivity|vm_compute; reflexivity|cbn; lra]).
  set (p := fofZ 5734161139222659 (-53)) in *. clearbody p.
  assert (Cs : forall u, bd u 3 -> bd (l_cos L (fmul p u)) 0).
  { intros u Hu. destruct (bd_mul p u 0 3 Pi Hu ltac:(lia)) as (Fm & _). destruct (Hc _ Fm) as (Fa & Ba). split; [exact Fa|exact Ba]. }
  assert (C1 := Cs x U0). assert (C2 := Cs y U1). set (c1 := l_cos L (fmul p x)) in *. set (c2 := l_cos L (fmul p y)) in *. clearbody c1 c2.
  assert (C3 : bd (fadd c1 c2) (0 + 1)) by (apply bd_add; [exact C1|exact C2|lia]).
  assert (C4 : bd (fmul h (fadd c1 c2)) (-1 + 1)) by (apply bd_mul; [exact Hh|exact C3|lia]).
  destruct C4 as (F4 & B4). cbn in B4. destruct (He _ F4) as (Fy & By); [apply Rabs_le_inv in B4; lra|].
  set (e2 := l_exp L (fmul h (fadd c1 c2))) in *. clearbody e2.
  assert (E2 : bd e2 7) by (split; [exact Fy|]; rewrite Rabs_pos_eq by lra; cbn; lra).
  destruct (neg_lit (fdiv (d_of_Z (-20)) (d_of_Z (10 ^ Z.of_nat 0))) (-20) 5) as (M20 & _); [lia|vm_compute; reflexivity|vm_compute; reflexivity|cbn; lra|].
  set (m20 := fdiv (d_of_Z (-20)) (d_of_Z (10 ^ Z.of_nat 0))) in *. clearbody m20.
  assert (P20 : bd (fdiv (d_of_Z 20) (d_of_Z (10 ^ Z.of_nat 0))) 8) by (apply (lit_nn _ 8 20); [lia|vm_compute; reflexivity|vm_compute; reflexivity|cbn; lra]).
  set (p20 := fdiv (d_of_Z 20) (d_of_Z (10 ^ Z.of_nat 0))) in *. clearbody p20.
  assert (Me : bd (fofZ 6121026514868073 (-51)) 9) by (apply (lit_nn _ 9 3); [lia|vm_compute; reflexivity|vm_compute; reflexivity|cbn; lra]).
  set (me := fofZ 6121026514868073 (-51)) in *. clearbody me.
  assert (T1 : bd (fmul m20 e1) (5 + 2)) by (apply bd_mul; [exact M20|exact E1|lia]).
  assert (T2 : bd (fsub (fmul m20 e1) e2) (7 + 1)) by (apply bd_sub; [exact T1|exact E2|lia]).
  assert (T3 : bd (fadd (fsub (fmul m20 e1) e2) p20) (8 + 1)) by (apply bd_add; [exact T2|exact P20|lia]).
  apply (bd_add _ _ 9 T3 Me ltac:(lia)).
Qed.
