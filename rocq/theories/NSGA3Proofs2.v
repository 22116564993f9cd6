(** Reference points of NSGA-III. *)
From Coq Require Import List Arith ZArith Reals Bool Lia Lra Permutation.
From Flocq Require Import Core BinarySingleNaN.
From Verif Require Import Base Fl FlFacts Rng StdOps ListFacts GlobalM GlobalSpec GlobalProofs NSGA3 NSGA3Spec.
Import ListNotations.
Open Scope nat_scope.

(** * The compositions of a number *)
Fixpoint comps (n r : nat) : list (list nat) :=
  match n with
  | O => []
  | S n' => match n' with
            | O => [[r]]
            | S _ => flat_map (fun q => map (cons q) (comps n' (r - q))) (seq 0 (S r))
            end
  end.
Lemma comps_SS n r : comps (S (S n)) r = flat_map (fun q => map (cons q) (comps (S n) (r - q))) (seq 0 (S r)).
Proof. reflexivity. Qed.
Lemma NoDup_app_intro {A} (l l' : list A) : NoDup l -> NoDup l' -> (forall x, In x l -> In x l' -> False) -> NoDup (l ++ l').
Proof.
  induction l as [|a l IH]; cbn; intros N N' D; [exact N'|]. inversion N as [|? ? N1 N2]; subst. constructor.
  - intros C. apply in_app_or in C. destruct C as [C|C]; [contradiction|]. exact (D a (or_introl eq_refl) C).
  - apply IH; try assumption. intros x Hx. apply D. right. exact Hx.
Qed.
Lemma NoDup_flat_map {A B} (f : A -> list B) l : NoDup l -> (forall x, In x l -> NoDup (f x)) ->
  (forall x y z, In x l -> In y l -> In z (f x) -> In z (f y) -> x = y) -> NoDup (flat_map f l).
Proof.
  induction l as [|a l IH]; cbn; intros N F D; [constructor|]. inversion N as [|? ? N1 N2]; subst.
  apply NoDup_app_intro.
  - apply F. left. reflexivity.
  - apply IH; [exact N2|intros; apply F; right; assumption|]. intros x y z Hx Hy. apply D; right; assumption.
  - intros z Hz C. apply in_flat_map in C. destruct C as (y & Hy & C).
    assert (a = y) by (apply (D a y z); auto). subst. contradiction.
Qed.
Lemma comps_in n : forall r k, In k (comps (S n) r) <-> splits (S n) r k.
Proof.
  induction n as [|n IH]; intros r k.
  - cbn [comps In]. unfold splits. split.
    + intros [<-|[]]. cbn. lia.
    + intros (L & E). destruct k as [|a [|]]; try discriminate. cbn in E. left. f_equal. lia.
  - rewrite comps_SS, in_flat_map. unfold splits in *. split.
    + intros (q & Hq & H). apply in_seq in Hq. apply in_map_iff in H. destruct H as (t & <- & H). apply IH in H.
      cbn [length list_sum fold_right] in *. change (fold_right Nat.add 0 t) with (list_sum t). lia.
    + intros (L & E). destruct k as [|a t]; [discriminate|]. cbn [length list_sum fold_right] in *.
      change (fold_right Nat.add 0 t) with (list_sum t) in E. exists a. split; [apply in_seq; lia|].
      apply in_map. apply IH. lia.
Qed.
Lemma comps_nodup n : forall r, NoDup (comps n r).
Proof.
  destruct n as [|n]; [constructor|]. induction n as [|n IH]; intros r; [repeat constructor; intros []|].
  rewrite comps_SS. apply NoDup_flat_map; [apply seq_NoDup| |].
  - intros q _. apply FinFun.Injective_map_NoDup; [intros a b E; congruence|apply IH].
  - intros x y z _ _ Hx Hy. apply in_map_iff in Hx, Hy. destruct Hx as (a & <- & _). destruct Hy as (b & E & _). congruence.
Qed.

Lemma flat_map_length_eq {A B} (f g : A -> list B) l : (forall x, In x l -> length (f x) = length (g x)) ->
  length (flat_map f l) = length (flat_map g l).
Proof.
  induction l as [|a l IH]; cbn; intros H; [reflexivity|]. rewrite !app_length, IH by (intros; apply H; right; assumption).
  rewrite (H a) by (left; reflexivity). reflexivity.
Qed.
Lemma flat_map_map {A B C} (f : B -> list C) (h : A -> B) l : flat_map f (map h l) = flat_map (fun a => f (h a)) l.
Proof. induction l as [|a l IH]; cbn; [reflexivity|]. rewrite IH. reflexivity. Qed.
Lemma comps_S n r : length (comps (S (S n)) (S r)) = length (comps (S n) (S r)) + length (comps (S (S n)) r).
Proof.
  rewrite !comps_SS. change (seq 0 (S (S r))) with (0 :: seq 1 (S r)). cbn [flat_map]. rewrite app_length, map_length, Nat.sub_0_r.
  f_equal. rewrite <- (seq_shift (S r) 0), flat_map_map. apply flat_map_length_eq. intros q _. rewrite !map_length. reflexivity.
Qed.
Lemma comps_length n : forall r, Z.of_nat (length (comps (S n) r)) = binom (n + r) r.
Proof.
  induction n as [|n IH]; intros r.
  - cbn [comps length]. assert (B : forall m, binom m m = 1%Z).
    { induction m as [|m Em]; [reflexivity|]. cbn [binom]. rewrite Em, binom_0 by lia. reflexivity. }
    cbn [Nat.add]. rewrite B. reflexivity.
  - induction r as [|r IHr].
    + rewrite Nat.add_0_r. rewrite comps_SS. cbn [seq flat_map]. rewrite app_nil_r, map_length, IH. rewrite Nat.add_0_r.
      assert (B : forall m, binom m 0 = 1%Z) by (intros []; reflexivity). rewrite !B. reflexivity.
    + rewrite comps_S, Nat2Z.inj_add, IH, IHr. replace (S n + S r) with (S (n + S r)) by lia. cbn [binom].
      replace (S n + r) with (n + S r) by lia. lia.
Qed.

(** * The points *)
Section P.
Context (p : nat).
Definition frac (k : nat) : double := fdiv (d_of_Z (Z.of_nat k)) (d_of_Z (Z.of_nat p)).
Fixpoint coords (a : nat) (k : list nat) : list double :=
  match k with
  | [] => []
  | [x] => [fsub d1 (frac a)]
  | x :: t => frac x :: coords (a + x) t
  end.
Lemma makeRP_eq n : forall a rec, a <= p -> makeRP (S n) p a rec = map (fun k => rec ++ coords a k) (comps (S n) (p - a)).
Proof.
  induction n as [|n IH]; intros a rec Ha; [reflexivity|].
  change (makeRP (S (S n)) p a rec) with
    (flat_map (fun q => makeRP (S n) p (a + q) (rec ++ [frac q])) (seq 0 (S (p - a)))).
  rewrite comps_SS. rewrite !flat_map_concat_map, concat_map, map_map. f_equal. apply map_ext_in. intros q Hq. apply in_seq in Hq.
  rewrite IH by lia. rewrite map_map. replace (p - (a + q)) with (p - a - q) by lia. apply map_ext_in. intros k Hk.
  rewrite <- app_assoc. cbn [app]. f_equal. cbn [coords]. destruct k as [|y k]; [|reflexivity].
  apply comps_in in Hk. destruct Hk as (L & _). discriminate.
Qed.

Open Scope R_scope.
(** Rounding in [0,1] costs at most half a unit of 2^-53. *)
Lemma unit_err x : 0 <= x <= 1 -> Rabs (drnd x - x) <= bpow radix2 (-54).
Proof.
  intros H. destruct (Req_dec x 1) as [->|N1].
  - assert (E : drnd 1 = 1).
    { apply round_generic; [typeclasses eauto|]. change 1 with (bpow radix2 0). apply generic_format_bpow. vm_compute. discriminate. }
    rewrite E, Rminus_diag_eq, Rabs_R0 by reflexivity. apply bpow_ge_0.
  - destruct (Req_dec x 0) as [->|N0].
    { assert (E : drnd 0 = 0) by apply (rnd_0 53 1024). rewrite E, Rminus_diag_eq, Rabs_R0 by reflexivity. apply bpow_ge_0. }
    pose proof (error_le_half_ulp radix2 (SpecFloat.fexp 53 1024) (fun z => negb (Z.even z)) x) as E.
    eapply Rle_trans; [exact E|].
    rewrite ulp_neq_0 by exact N0. unfold cexp.
    assert (M : (mag radix2 x <= 0)%Z).
    { apply mag_le_bpow; [exact N0|]. cbn. rewrite Rabs_pos_eq by lra. lra. }
    assert (L : (SpecFloat.fexp 53 1024 (mag radix2 x) <= -53)%Z).
    { unfold SpecFloat.fexp, SpecFloat.emin. lia. }
    apply (bpow_le radix2) in L. replace (bpow radix2 (-54)) with (/ 2 * bpow radix2 (-53)).
    + apply Rmult_le_compat_l; [lra|exact L].
    + change (-53)%Z with (1 + -54)%Z. rewrite bpow_plus. change (bpow radix2 1) with 2. lra.
Qed.
Context (Hp : (1 <= Z.of_nat p <= 9007199254740992)%Z).
Lemma p_pos : 0 < INR p. Proof. apply lt_0_INR. lia. Qed.
Lemma d_of_nat k : (Z.of_nat k <= 9007199254740992)%Z -> fin (d_of_Z (Z.of_nat k)) /\ B2R (d_of_Z (Z.of_nat k)) = INR k.
Proof. intros H. destruct (d_of_Z_exact (Z.of_nat k)) as (A & B); [lia|]. split; [exact A|]. rewrite B, <- INR_IZR_INZ. reflexivity. Qed.
Lemma frac_01 k : (k <= p)%nat -> 0 <= INR k / INR p <= 1.
Proof.
  intros H. pose proof p_pos. apply le_INR in H. pose proof (pos_INR k). split.
  - apply Rmult_le_pos; [lra|]. left. apply Rinv_0_lt_compat. lra.
  - apply Rmult_le_reg_r with (INR p); [lra|]. unfold Rdiv. rewrite Rmult_assoc, Rinv_l by lra. lra.
Qed.
Lemma frac_ok k : (k <= p)%nat -> fin (frac k) /\ B2R (frac k) = drnd (INR k / INR p) /\ 0 <= B2R (frac k) <= 1.
Proof.
  intros H. destruct (d_of_nat k ltac:(lia)) as (Fk & Ek). destruct (d_of_nat p ltac:(lia)) as (Fp & Epp).
  pose proof p_pos as PP. pose proof (frac_01 k H) as U.
  destruct (fdiv_fin 53 1024 _ _ (d_of_Z (Z.of_nat k)) (d_of_Z (Z.of_nat p)) Fk) as (F & E).
  - rewrite Epp. lra.
  - rewrite Ek, Epp. change (round radix2 (SpecFloat.fexp 53 1024) (Znearest (fun z => negb (Z.even z))) (INR k / INR p)) with (drnd (INR k / INR p)).
    eapply Rle_lt_trans with 1; [|change 1 with (bpow radix2 0); apply bpow_lt; lia].
    rewrite Rabs_pos_eq by (apply drnd_ge0, U). apply drnd_le1, U.
  - rewrite Ek, Epp in E. split; [exact F|]. unfold frac. rewrite E. split; [reflexivity|].
    split; [apply drnd_ge0, U|apply drnd_le1, U].
Qed.
Lemma frac_err k : (k <= p)%nat -> Rabs (B2R (frac k) - INR k / INR p) <= bpow radix2 (-54).
Proof. intros H. destruct (frac_ok k H) as (_ & E & _). rewrite E. apply unit_err, frac_01, H. Qed.
Lemma half54 : bpow radix2 (-53) = 2 * bpow radix2 (-54).
Proof. change (-53)%Z with (1 + -54)%Z. rewrite bpow_plus. reflexivity. Qed.
Lemma last_err a x : (a + x = p)%nat -> fin (fsub d1 (frac a)) /\ Rabs (B2R (fsub d1 (frac a)) - INR x / INR p) <= bpow radix2 (-53).
Proof.
  intros H. destruct (frac_ok a ltac:(lia)) as (F & E & U). pose proof (frac_err a ltac:(lia)) as Er.
  destruct (fsub_bounded d1 (frac a) 1 0) as (F2 & _ & E2); try lia; [exact d1_fin|exact F| |].
  { rewrite d1_val. cbn. rewrite Rabs_pos_eq by lra. lra. }
  split; [exact F2|]. rewrite E2, d1_val. pose proof (unit_err (1 - B2R (frac a)) ltac:(lra)) as E3.
  assert (EE : INR x / INR p = 1 - INR a / INR p).
  { pose proof p_pos. replace (INR x) with (INR p - INR a) by (rewrite <- H, plus_INR; ring). field. lra. }
  rewrite EE, half54. revert Er E3. generalize (bpow radix2 (-54)). intros b Er E3.
  apply Rabs_le_inv in Er, E3. apply Rabs_le. lra.
Qed.
Lemma coords_lattice : forall k a, (a + list_sum k = p)%nat -> lattice_point p k (coords a k).
Proof.
  induction k as [|x t IH]; intros a H; [constructor|]. cbn [list_sum fold_right] in H. change (fold_right Nat.add 0%nat t) with (list_sum t) in H.
  cbn [coords]. destruct t as [|y t].
  - constructor; [|constructor]. apply last_err. cbn in H. lia.
  - constructor.
    + destruct (frac_ok x ltac:(lia)) as (F & _). split; [exact F|]. eapply Rle_trans; [apply frac_err; lia|]. apply bpow_le. lia.
    + apply IH. lia.
Qed.
End P.

(** Different points differ when p < 2^52. *)
Lemma lattice_inj p k k' x : (1 <= Z.of_nat p < 4503599627370496)%Z -> lattice_point p k x -> lattice_point p k' x -> k = k'.
Proof.
  intros Hp H. revert k'. induction H as [|a d k x (_ & Ha) F IH]; intros k' H'; inversion H' as [|b d' k2 x' (_ & Hb) F']; subst; [reflexivity|].
  f_equal; [|apply IH; assumption].
  apply INR_eq. pose proof (p_pos p ltac:(lia)) as PP.
  assert (D : (Rabs (INR a / INR p - INR b / INR p) <= 2 * bpow radix2 (-53))%R).
  { revert Ha Hb. generalize (bpow radix2 (-53)). intros q Ha Hb. apply Rabs_le_inv in Ha, Hb. apply Rabs_le. lra. }
  replace (INR a / INR p - INR b / INR p)%R with ((INR a - INR b) / INR p)%R in D by (field; lra).
  unfold Rdiv in D. rewrite Rabs_mult, (Rabs_pos_eq (/ INR p)) in D by (left; apply Rinv_0_lt_compat; lra).
  assert (D2 : (Rabs (INR a - INR b) < 1)%R).
  { apply Rmult_le_compat_r with (r := INR p) in D; [|lra]. rewrite Rmult_assoc, Rinv_l, Rmult_1_r in D by lra.
    eapply Rle_lt_trans; [exact D|].
    assert (PB : (INR p < bpow radix2 52)%R).
    { change (bpow radix2 52) with (IZR 4503599627370496). rewrite INR_IZR_INZ. apply IZR_lt. lia. }
    replace 1%R with (2 * bpow radix2 (-53) * bpow radix2 52)%R.
    - apply Rmult_lt_compat_l; [|exact PB]. pose proof (bpow_gt_0 radix2 (-53)). lra.
    - rewrite Rmult_assoc, <- bpow_plus. change (bpow radix2 (-53 + 52)) with (/ 2)%R. lra. }
  rewrite !INR_IZR_INZ, <- minus_IZR, <- abs_IZR in D2. apply lt_IZR in D2. rewrite !INR_IZR_INZ. f_equal. lia.
Qed.

Lemma Forall2_map_r {A B C} (P : A -> C -> Prop) (f : B -> C) l l' : Forall2 (fun a b => P a (f b)) l l' -> Forall2 P l (map f l').
Proof. induction 1; cbn; constructor; assumption. Qed.
Lemma Forall2_refl_in {A} (P : A -> A -> Prop) l : (forall x, In x l -> P x x) -> Forall2 P l l.
Proof. induction l as [|a l IH]; intros H; constructor; [apply H; left; reflexivity|apply IH; intros; apply H; right; assumption]. Qed.

Lemma points_ok M p : (1 <= M)%nat -> (1 <= Z.of_nat p <= 9007199254740992)%Z ->
  exists rf, computeReferencePointPoses M p = Ok rf /\ rf = map (coords p 0) (comps M p) /\
    Forall2 (lattice_point p) (comps M p) rf.
Proof.
  intros HM Hp. destruct M as [|m]; [lia|]. exists (makeRP (S m) p 0 []). split; [reflexivity|].
  rewrite makeRP_eq by lia. rewrite Nat.sub_0_r. split; [reflexivity|].
  apply Forall2_map_r, Forall2_refl_in. intros k Hk. cbn [app]. apply coords_lattice; [exact Hp|].
  apply comps_in in Hk. destruct Hk as (_ & E). lia.
Qed.
Lemma points_length M p : (1 <= M)%nat -> exists rf, computeReferencePointPoses M p = Ok rf /\ Z.of_nat (length rf) = binom (M + p - 1) p.
Proof.
  intros HM. destruct M as [|m]; [lia|]. exists (makeRP (S m) p 0 []). split; [reflexivity|].
  rewrite makeRP_eq by lia. rewrite map_length, Nat.sub_0_r, comps_length. f_equal. lia.
Qed.
Lemma Forall2_perm {A B} (P : A -> B -> Prop) l1 l2 : Permutation l1 l2 -> forall k1, Forall2 P k1 l1 ->
  exists k2, Permutation k1 k2 /\ Forall2 P k2 l2.
Proof.
  intros PM. apply Permutation_sym in PM.
  enough (forall (l2 l1 : list B), Permutation l2 l1 -> forall k1, Forall2 P k1 l1 -> exists k2, Permutation k1 k2 /\ Forall2 P k2 l2) by eauto.
  clear. induction 1 as [|x l l' H IH|x y l|l l' l'' H1 IH1 H2 IH2]; intros k1 F.
  - inversion F; subst. exists []. split; constructor.
  - inversion F as [|a b k l0 Hab F']; subst. destruct (IH _ F') as (k2 & A0 & B0). exists (a :: k2). split; [constructor; exact A0|constructor; assumption].
  - inversion F as [|a b k l0 Hab F']; subst. inversion F' as [|a' b' k' l0' Hab' F'']; subst.
    exists (a' :: a :: k'). split; [apply perm_swap|]. repeat constructor; assumption.
  - destruct (IH2 _ F) as (k2 & A0 & B0). destruct (IH1 _ B0) as (k3 & A1 & B1). exists k3. split; [etransitivity; eassumption|exact B1].
Qed.

Lemma NchooseK_fuel f : forall n k r, NchooseK f n k = Ok r -> NchooseK (S f) n k = Ok r.
Proof.
  induction f as [|f IH]; intros n k r H; cbn [NchooseK] in *.
  - destruct (_ <? _)%Z; [discriminate|exact H].
  - destruct (n <? _)%Z; [apply IH, H|exact H].
Qed.
Lemma pointCount_ok M p : (1 <= M)%nat -> (M + p - 1 <= 20)%nat -> pointCount M p = Ok (binom (M + p - 1) p).
Proof.
  intros HM H. unfold pointCount. rewrite wrap64_small by (unfold two64; lia).
  replace (Z.of_nat p + Z.of_nat M - 1)%Z with (Z.of_nat (M + p - 1)) by lia.
  apply (NchooseK_fuel 1), NchooseK_exact; lia.
Qed.
Lemma binom_nonneg n : forall k, (0 <= binom n k)%Z.
Proof. induction n as [|n IH]; intros [|k]; cbn [binom]; try lia. pose proof (IH k). pose proof (IH (S k)). lia. Qed.
Lemma binom_pos n k : (k <= n)%nat -> (1 <= binom n k)%Z.
Proof.
  revert k. induction n as [|n IH]; intros [|k] H; cbn [binom]; try lia.
  pose proof (IH k ltac:(lia)). pose proof (binom_nonneg n (S k)). lia.
Qed.
Lemma firstn_all_Z {A} (l : list A) z : z = Z.of_nat (length l) -> firstn (Z.to_nat z) l = l.
Proof. intros ->. rewrite Nat2Z.id. apply firstn_all. Qed.
Lemma copyColumns_all rf z : z = Z.of_nat (length rf) -> copyColumns z rf = Ok rf.
Proof. intros E. unfold copyColumns. rewrite (proj2 (Z.leb_le z (Z.of_nat (length rf)))) by lia. rewrite firstn_all_Z by exact E. reflexivity. Qed.

Lemma poses1_ok R M p g : rng_ok R -> (1 <= M)%nat -> (M + p - 1 <= 20)%nat ->
  exists rf ws g', computeReferencePointPoses M p = Ok rf /\ makePoses1 R M (Some p) g = Ok (ws, g') /\ Permutation rf ws /\
    Z.of_nat (length ws) = binom (M + p - 1) p.
Proof.
  intros HR HM H. destruct (points_length M p HM) as (rf & E & L). unfold makePoses1. rewrite (pointCount_ok M p HM H), E. cbn [bind].
  pose proof (proj2 (proj2 HR) _ rf g) as P. destruct (shuffle R rf g) as [rf' g']. cbn [fst] in P.
  rewrite copyColumns_all by (rewrite <- (Permutation_length P); lia). cbn [bind].
  exists rf, rf', g'. split; [reflexivity|]. split; [reflexivity|]. split; [exact P|]. rewrite <- (Permutation_length P). exact L.
Qed.
Lemma poses2_ok R M pi po g : (1 <= M)%nat -> (M + pi - 1 <= 20)%nat -> (M + po - 1 <= 20)%nat ->
  exists irf orf g', computeReferencePointPoses M pi = Ok irf /\ computeReferencePointPoses M po = Ok orf /\
    makePoses2 R M pi po g = Ok (map (map (fun x => fmul x inv_sqrt2)) irf ++ orf, g') /\
    pointCount2 M pi po = Ok (Z.of_nat (length (map (map (fun x => fmul x inv_sqrt2)) irf ++ orf))) /\
    Z.of_nat (length irf) = binom (M + pi - 1) pi /\ Z.of_nat (length orf) = binom (M + po - 1) po.
Proof.
  intros HM Hi Ho. destruct (points_length M pi HM) as (irf & Ei & Li). destruct (points_length M po HM) as (orf & Eo & Lo).
  assert (Bd : forall n k, (n <= 20)%nat -> (0 <= binom n k < 1000000000)%Z).
  { assert (Bq : forall n k, (0 <= binom n k <= 2 ^ Z.of_nat n)%Z).
    { induction n as [|n IHn]; intros [|k]; cbn [binom].
      - cbn; lia.
      - cbn; lia.
      - split; [lia|]. change 1%Z with (2 ^ 0)%Z. apply Z.pow_le_mono_r; lia.
      - pose proof (IHn k). pose proof (IHn (S k)). rewrite Nat2Z.inj_succ, Z.pow_succ_r by lia. lia. }
    intros n k Hn. pose proof (Bq n k). assert (2 ^ Z.of_nat n <= 2 ^ 20)%Z by (apply Z.pow_le_mono_r; lia). change (2 ^ 20)%Z with 1048576%Z in *. lia. }
  assert (C2 : pointCount2 M pi po = Ok (Z.of_nat (length (map (map (fun x => fmul x inv_sqrt2)) irf ++ orf)))).
  { unfold pointCount2. rewrite !pointCount_ok by assumption. cbn [bind]. rewrite app_length, map_length.
    pose proof (Bd _ pi Hi). pose proof (Bd _ po Ho). rewrite wrap64_small by (unfold two64; lia). f_equal. lia. }
  unfold makePoses2. rewrite C2. cbn [bind]. destruct (shuffle R [] g) as [l1 g1]. destruct (shuffle R [] g1) as [l2 g2].
  rewrite Ei, Eo. cbn [bind]. rewrite copyColumns_all by reflexivity. cbn [bind].
  exists irf, orf, g2. repeat split; assumption.
Qed.
