(** Proofs for the fitness functions of ProgPSO.v. *)
From Coq Require Import List Arith ZArith Bool Lia Reals Lra Permutation.
From Flocq Require Import Core BinarySingleNaN.
From Verif Require BenchD.
From Verif Require Import Props_Box WheelProofs2 WheelProofs3 SOGAProofs5 BoxProofs BoxFProofs BlendProofs ProgMOProofs ProgMOProofs2 ProgSOProofs2.
From Verif Require Import Base Fl FlFacts Rng StdOps Box BoxF Bench ProgMO ProgSOSpec ProgPSO ProgPSOSpec.
Import ListNotations.
Open Scope Z_scope.

(** * Floats *)
Lemma lt128 (x m : R) : (Rabs x <= m)%R -> (m <= 16)%R -> (Rabs x < bpow radix2 128)%R.
Proof.
  intros H1 H2. apply Rle_lt_trans with (bpow radix2 4); [cbn [bpow radix_val radix2]; apply Rle_trans with m; [exact H1|]; cbn; lra|]. apply bpow_lt. lia.
Qed.
Lemma frnd_abs (x : R) (m : float) : (0 <= B2R m)%R -> (Rabs x <= B2R m)%R -> (Rabs (frnd x) <= B2R m)%R.
Proof. intros P H. apply rnd_abs_gen; try exact _; [apply generic_format_B2R|exact H]. Qed.
Lemma f_small z : 0 <= z <= 16 -> fin (f_of_Z z) /\ B2R (f_of_Z z) = IZR z.
Proof.
  intros H. destruct (@fofZ_exact 24 128 _ _ z 0) as (A & B); [cbn; lia|easy|easy|]. split; [exact A|]. unfold f_of_Z. rewrite B. cbn. lra.
Qed.
Lemma fsub_small (x y : float) z : fin x -> fin y -> 0 <= z <= 16 -> (Rabs (B2R x - B2R y) <= IZR z)%R ->
  fin (fsub x y) /\ (Rabs (B2R (fsub x y)) <= IZR z)%R.
Proof.
  intros Fx Fy Hz H. destruct (f_small z Hz) as (_ & Vz). assert (C := frnd_abs (B2R x - B2R y) (f_of_Z z)). rewrite Vz in C. specialize (C (IZR_le 0 z (proj1 Hz)) H).
  destruct (fsub_fin 24 128 _ _ x y Fx Fy) as (F & V); [eapply lt128; [exact C|apply IZR_le; lia]|]. rewrite V. split; assumption.
Qed.
Lemma fmul_small (x y : float) z : fin x -> fin y -> 0 <= z <= 16 -> (Rabs (B2R x * B2R y) <= IZR z)%R ->
  fin (fmul x y) /\ (Rabs (B2R (fmul x y)) <= IZR z)%R /\ B2R (fmul x y) = frnd (B2R x * B2R y).
Proof.
  intros Fx Fy Hz H. destruct (f_small z Hz) as (_ & Vz). assert (C := frnd_abs (B2R x * B2R y) (f_of_Z z)). rewrite Vz in C. specialize (C (IZR_le 0 z (proj1 Hz)) H).
  destruct (fmul_fin 24 128 _ _ x y Fx Fy) as (F & V); [eapply lt128; [exact C|apply IZR_le; lia]|]. rewrite V. split; [assumption|]. split; [assumption|reflexivity].
Qed.
Lemma fadd_small (x y : float) z : fin x -> fin y -> 0 <= z <= 16 -> (Rabs (B2R x + B2R y) <= IZR z)%R ->
  fin (fadd x y) /\ (Rabs (B2R (fadd x y)) <= IZR z)%R /\ B2R (fadd x y) = frnd (B2R x + B2R y).
Proof.
  intros Fx Fy Hz H. destruct (f_small z Hz) as (_ & Vz). assert (C := frnd_abs (B2R x + B2R y) (f_of_Z z)). rewrite Vz in C. specialize (C (IZR_le 0 z (proj1 Hz)) H).
  destruct (fadd_fin 24 128 _ _ x y Fx Fy) as (F & V); [eapply lt128; [exact C|apply IZR_le; lia]|]. rewrite V. split; [assumption|]. split; [assumption|reflexivity].
Qed.
Lemma frnd_ge0 x : (0 <= x)%R -> (0 <= frnd x)%R.
Proof. intros H. rewrite <- (round_0 radix2 (SpecFloat.fexp 24 128) ZnearestE). apply round_le; try exact _. exact H. Qed.
Lemma disc_bd x : disc_value x -> fin x /\ (-1 <= B2R x <= 1)%R.
Proof.
  intros (A & B). destruct f1_val as (F1 & V1). destruct fm1_val as (F2 & V2).
  assert (F : fin x).
  { destruct x as [s|[|]| |s m e H]; try reflexivity; exfalso; [vm_compute in A|vm_compute in B|vm_compute in A]; discriminate. }
  split; [exact F|]. apply fle_Rf in A; [|assumption..]. apply fle_Rf in B; [|assumption..]. lra.
Qed.
Lemma fsq_diff x y : disc_value x -> disc_value y -> fin (fmul (fsub x y) (fsub x y)) /\ (0 <= B2R (fmul (fsub x y) (fsub x y)) <= 4)%R.
Proof.
  intros Ux Uy. destruct (disc_bd x Ux) as (Fx & Bx). destruct (disc_bd y Uy) as (Fy & By).
  destruct (fsub_small x y 2 Fx Fy ltac:(lia)) as (Fd & Bd); [apply Rabs_le; lra|]. apply Rabs_le_inv in Bd.
  destruct (fmul_small (fsub x y) (fsub x y) 4 Fd Fd ltac:(lia)) as (F & B & E); [apply Rabs_le; nra|].
  assert (P : (0 <= B2R (fmul (fsub x y) (fsub x y)))%R) by (rewrite E; apply frnd_ge0; nra).
  split; [exact F|]. rewrite Rabs_pos_eq in B by exact P. split; assumption.
Qed.
Lemma fdist2_bd p c : square_point p -> square_point c ->
  fin (to_double (fdist2 p c)) /\ (0 <= B2R (to_double (fdist2 p c)) <= 8)%R.
Proof.
  intros (P1 & P2) (C1 & C2). destruct (fsq_diff _ _ P1 C1) as (F1 & B1). destruct (fsq_diff _ _ P2 C2) as (F2 & B2). unfold fdist2.
  destruct (fadd_small _ _ 8 F1 F2 ltac:(lia)) as (F & B & E); [apply Rabs_le; lra|].
  destruct (to_double_fin _ F) as (Fd & ->). split; [exact Fd|].
  assert (P : (0 <= B2R (fadd (fmul (fsub (fst p) (fst c)) (fsub (fst p) (fst c))) (fmul (fsub (snd p) (snd c)) (fsub (snd p) (snd c)))))%R) by (rewrite E; apply frnd_ge0; lra).
  rewrite Rabs_pos_eq in B by exact P. split; assumption.
Qed.

(** * The order of the keys *)
Section Fit.
Context (std : std_ops) (Hstd : std_ok std).
Lemma by_fkey_sw (l : list (float * nat)) : (forall p, In p l -> nonnan (fst p)) -> strict_weak by_fkey l.
Proof.
  intros NN. unfold by_fkey. repeat split.
  - intros a Ha. destruct (flt (fst a) (fst a)) eqn:E; [|reflexivity]. apply flt_iff in E; [lra|auto..].
  - intros a b c Ha Hb Hc. rewrite !flt_iff by auto. lra.
  - intros a b c Ha Hb Hc H. rewrite flt_iff in H by auto. destruct (flt (fst a) (fst c)) eqn:F; [left; reflexivity|right].
    apply flt_false_le in F; [|auto..]. apply fle_iff in F; [|auto..]. apply flt_iff; [auto..|lra].
Qed.
Lemma combine_seq_inF (x : list float) k i : In (k, i) (combine x (seq 0 (length x))) -> nth_error x i = Some k.
Proof.
  assert (G : forall s, In (k, i) (combine x (seq s (length x))) -> (s <= i)%nat /\ nth_error x (i - s) = Some k).
  { induction x as [|y x IH]; intros s; cbn [length seq combine In]; [intros []|]. intros [E|H].
    - injection E as -> ->. rewrite Nat.sub_diag. split; [lia|reflexivity].
    - destruct (IH (S s) H) as (A & B). split; [lia|]. replace (i - s)%nat with (S (i - S s)) by lia. exact B. }
  intros H. destruct (G 0%nat H) as (_ & E). rewrite Nat.sub_0_r in E. exact E.
Qed.
Lemma ptsp_order_tour (x : list double) : (forall k, In k x -> nonnan k) -> exists order, ptsp_order std (length x) x = Ok order /\ tour_up x order.
Proof.
  intros NN. unfold ptsp_order. rewrite Nat.leb_refl, firstn_all. eexists. split; [reflexivity|]. unfold tour_up.
  set (y := map to_float x). assert (Ly : length y = length x) by apply map_length. rewrite <- Ly.
  assert (NY : forall k, In k y -> nonnan k). { intros k Hk. apply in_map_iff in Hk. destruct Hk as (z & <- & Hz). apply to_float_nonnan, NN, Hz. }
  set (l := combine y (seq 0 (length y))).
  assert (NL : forall p, In p l -> nonnan (fst p)) by (intros (k, i) Hp; apply NY; eapply in_combine_l; exact Hp).
  destruct (proj1 Hstd _ _ _ (by_fkey_sw l NL)) as (P & S). split.
  - rewrite <- (map_snd_combine y (seq 0 (length y))) at 1 by (rewrite seq_length; reflexivity). apply Permutation_map, P.
  - intros i j a b ka kb Hij Ea Eb Ka Kb. rewrite nth_error_map in Ea, Eb.
    destruct (nth_error (sort std by_fkey l) i) as [(k1, a')|] eqn:E1; [|discriminate Ea]. injection Ea as <-.
    destruct (nth_error (sort std by_fkey l) j) as [(k2, b')|] eqn:E2; [|discriminate Eb]. injection Eb as <-. cbn [snd] in Ka, Kb.
    assert (I1 : In (k1, a') l) by (eapply Permutation_in; [apply Permutation_sym, P|eapply nth_error_In; exact E1]).
    assert (I2 : In (k2, b') l) by (eapply Permutation_in; [apply Permutation_sym, P|eapply nth_error_In; exact E2]).
    apply combine_seq_inF in I1, I2. unfold y in I1, I2. rewrite nth_error_map in I1, I2. rewrite Ka in I1. rewrite Kb in I2.
    cbn [option_map] in I1, I2. injection I1 as ->. injection I2 as ->.
    exact (sorted_nth by_fkey _ S i j _ _ Hij E1 E2).
Qed.

(** * The walk *)
Lemma entry_dmat pts a b : (a < length pts)%nat -> (b < length pts)%nat ->
  entry (dmat pts) a b = Ok (if (a =? b)%nat then d0 else to_double (fdist2 (nth a pts (f0, f0)) (nth b pts (f0, f0)))).
Proof.
  intros Ha Hb. unfold entry, dmat. rewrite nth_error_map, (nth_error_nth' (seq 0 (length pts)) 0%nat), seq_nth by (rewrite ?seq_length; assumption).
  cbn [option_map]. rewrite nth_error_map, (nth_error_nth' (seq 0 (length pts)) 0%nat), seq_nth by (rewrite ?seq_length; assumption). reflexivity.
Qed.
Lemma ptsp_walk_path pts order : NoDup order -> (forall i, In i order -> (i < length pts)%nat) -> forall acc,
  ptsp_walk (dmat pts) order acc =
  Ok (fold_left (fun s ab => fadd s (to_double (fdist2 (nth (fst ab) pts (f0, f0)) (nth (snd ab) pts (f0, f0))))) (legs order) acc).
Proof.
  induction order as [|a order IH]; intros ND H acc; [reflexivity|]. destruct order as [|b t]; [reflexivity|].
  change (ptsp_walk (dmat pts) (a :: b :: t) acc) with (do d <- entry (dmat pts) a b; ptsp_walk (dmat pts) (b :: t) (fadd acc d)).
  change (legs (a :: b :: t)) with ((a, b) :: legs (b :: t)). cbn [fold_left fst snd].
  rewrite entry_dmat by (apply H; cbn; auto). inversion ND as [|? ? N1 N2]; subst.
  destruct (Nat.eqb_spec a b) as [->|_]; [exfalso; apply N1; left; reflexivity|]. cbn [bind]. apply IH; [exact N2|]. intros i Hi. apply H. right. exact Hi.
Qed.
Lemma fpath_bd (pts : list fpoint) : Forall square_point pts -> forall ls acc m, 0 <= m -> m + 8 * Z.of_nat (length ls) <= 9007199254740992 ->
  fin acc -> (0 <= B2R acc <= IZR m)%R ->
  let L := fold_left (fun s ab => fadd s (to_double (fdist2 (nth (fst ab) pts (f0, f0)) (nth (snd ab) pts (f0, f0))))) ls acc in
  fin L /\ (0 <= B2R L <= IZR (m + 8 * Z.of_nat (length ls)))%R.
Proof.
  intros U. assert (UP : forall i, square_point (nth i pts (f0, f0))).
  { intros i. destruct (nth_in_or_default i pts (f0, f0)) as [H| ->]; [eapply Forall_forall; eauto|repeat split; vm_compute; reflexivity]. }
  induction ls as [|(a, b) ls IH]; intros acc m Hm Hl Fa Ba; cbn [fold_left length fst snd]; [cbv zeta; cbn [length] in Hl; rewrite Z.mul_0_r, Z.add_0_r; auto|].
  cbn [length] in Hl. destruct (fdist2_bd _ _ (UP a) (UP b)) as (Fd & Bd). set (d := to_double (fdist2 (nth a pts (f0, f0)) (nth b pts (f0, f0)))) in *. clearbody d.
  destruct (fadd_bounded acc d (m + 8) 0) as (F & B & E); try lia; try assumption.
  { cbn [bpow]. rewrite Rmult_1_r, plus_IZR. apply Rabs_le. lra. }
  assert (P : (0 <= B2R (fadd acc d))%R) by (rewrite E; apply drnd_ge0; lra).
  rewrite Rabs_pos_eq in B by exact P. cbn [bpow] in B. rewrite Rmult_1_r in B.
  replace (m + 8 * Z.of_nat (S (length ls))) with ((m + 8) + 8 * Z.of_nat (length ls)) by lia.
  apply IH; [lia|lia|exact F|split; assumption].
Qed.
Lemma ptsp_fitness_ok (pts : list fpoint) (x : list double) : length x = length pts -> (forall k, In k x -> nonnan k) -> Forall square_point pts ->
  Z.of_nat (length pts) <= 4294967296 ->
  exists order, tour_up x order /\ ptsp_fitness std (dmat pts) x = Ok (fpath_length pts order) /\
    fin (fpath_length pts order) /\ (0 <= B2R (fpath_length pts order) <= 8 * IZR (Z.of_nat (length pts - 1)))%R.
Proof.
  intros Hl NN U Hn. destruct (ptsp_order_tour x NN) as (order & Eo & T). exists order. split; [exact T|].
  assert (In1 : forall i, In i order -> (i < length pts)%nat).
  { intros i Hi. apply (Permutation_in i (Permutation_sym (proj1 T))) in Hi. apply in_seq in Hi. lia. }
  assert (Ld : length (dmat pts) = length x) by (unfold dmat; rewrite map_length, seq_length; congruence).
  assert (ND : NoDup order) by (eapply Permutation_NoDup; [exact (proj1 T)|apply seq_NoDup]).
  split. { unfold ptsp_fitness. rewrite Ld, Eo. cbn [bind]. apply ptsp_walk_path; assumption. }
  assert (Lo : length order = length pts) by (rewrite <- (Permutation_length (proj1 T)), seq_length; exact Hl).
  destruct (fpath_bd pts U (legs order) d0 0 ltac:(lia)) as (F & B); [rewrite legs_length; lia|reflexivity|cbn; lra|].
  split; [exact F|]. rewrite legs_length, Lo, Z.add_0_l, mult_IZR in B. exact B.
Qed.
End Fit.

(** * Rastrigin *)
Section Ras.
Context (L : libm) (Hc : cos_safe L).
Lemma cos_bd x : fin x -> bd (l_cos L x) 0.
Proof.
  intros F. destruct (Hc x) as (A & [B|B]); [|exact B]. specialize (A F). exfalso. apply (fin_nonnan _ _ _) in A. unfold nonnan in A. congruence.
Qed.
Lemma ras_fold (c t : double) (v : list double) : bd c 4 -> bd t 4 -> (forall x, In x v -> bd x 3) -> forall s k, 8 <= k -> k + Z.of_nat (length v) <= 800 -> bd s k ->
  bd (fold_left (fun s xi => fadd s (fsub (fmul xi xi) (fmul t (l_cos L (fmul c xi))))) v s) (k + Z.of_nat (length v)).
Proof.
  intros Bc Bt. induction v as [|x v IH]; intros U s k Hk Hl Bs; cbn [fold_left length]; [rewrite Z.add_0_r; exact Bs|]. cbn [length] in Hl.
  replace (k + Z.of_nat (S (length v))) with (k + 1 + Z.of_nat (length v)) by lia. apply IH; [intros y Hy; apply U; right; exact Hy|lia|lia|].
  pose proof (U x (or_introl eq_refl)) as Bx. destruct (bd_mul c x 4 3 Bc Bx ltac:(lia)) as (Fm & _).
  apply bd_add; [exact Bs| |lia]. apply (bd_le _ (6 + 1)); [|lia]. apply bd_sub; [apply (bd_mul x x 3 3); [exact Bx|exact Bx|lia]| |lia].
  apply (bd_le _ (4 + 0)); [|lia]. apply bd_mul; [exact Bt|apply cos_bd, Fm|lia].
Qed.
Lemma rastrigin_fin (v : list double) : Z.of_nat (length v) <= 24 -> (forall x, In x v -> bd x 3) -> fin (rastrigin (Dops L) v).
Proof.
  intros Hl U. unfold rastrigin, square. cbn [num lit add sub mul ncos m_pi Dops].
  assert (B10 : bd (fdiv (d_of_Z 10) (d_of_Z (10 ^ Z.of_nat 0))) 4) by (apply (lit_nn _ 4 10); [lia|vm_compute; reflexivity|vm_compute; reflexivity|cbn; lra]).
  assert (Bp : bd (fofZ 884279719003555 (-48)) 2) by (apply (lit_nn _ 2 4); [lia|vm_compute; reflexivity|vm_compute; reflexivity|cbn; lra]).
  assert (B2 : bd (fdiv (d_of_Z 2) (d_of_Z (10 ^ Z.of_nat 0))) 1) by (apply (lit_nn _ 1 2); [lia|vm_compute; reflexivity|vm_compute; reflexivity|cbn; lra]).
  assert (Bn : bd (fdiv (d_of_Z (Z.of_nat (length v))) (d_of_Z (10 ^ Z.of_nat 0))) 5).
  { destruct (d_of_Z_exact (10 ^ Z.of_nat 0) ltac:(easy)) as (F1 & V1). apply bd_div; [|exact F1|rewrite V1; cbn; lra|lia].
    destruct (d_of_Z_exact (Z.of_nat (length v)) ltac:(lia)) as (F & V). split; [exact F|]. rewrite V, Rabs_pos_eq by (apply IZR_le; lia).
    apply Rle_trans with (IZR 24); [apply IZR_le; lia|cbn; lra]. }
  set (t := fdiv (d_of_Z 10) (d_of_Z (10 ^ Z.of_nat 0))) in *. set (p := fofZ 884279719003555 (-48)) in *. set (w := fdiv (d_of_Z 2) (d_of_Z (10 ^ Z.of_nat 0))) in *. clearbody t p w.
  assert (Bc : bd (fmul p w) 4) by (apply (bd_le _ (2 + 1)); [apply bd_mul; [exact Bp|exact B2|lia]|lia]).
  apply (ras_fold (fmul p w) t v Bc B10 U _ 9); [lia|lia|apply (bd_mul _ _ 4 5); [exact B10|exact Bn|lia]].
Qed.
Lemma rastrigin_ok (n : nat) (v : list double) : (n <= 24)%nat -> length v = n -> (forall x, In x v -> fle (literal (-512) 2) x = true /\ fle x (literal 512 2) = true) ->
  fin (rastrigin (Dops L) v) /\ flt (rastrigin (Dops L) v) d0 = false.
Proof.
  intros Hn Hl U. split.
  - apply rastrigin_fin; [lia|]. intros x Hx. destruct (U x Hx) as (A & B).
    assert (F1 : fin (literal (-512) 2) /\ fin (literal 512 2) /\ fle (d_of_Z (-8)) (literal (-512) 2) = true /\ fle (literal 512 2) (d_of_Z 8) = true) by (repeat split; vm_compute; reflexivity).
    destruct F1 as (F1 & F2 & L1 & L2). destruct (d_of_Z_exact (-8) ltac:(lia)) as (Fm & Em). destruct (d_of_Z_exact 8 ltac:(lia)) as (Fp & Ep).
    apply fle_Rd in L1; [|assumption..]. apply fle_Rd in L2; [|assumption..]. rewrite Em in L1. rewrite Ep in L2.
    pose proof (between_fin _ _ x F1 F2 A B) as Fx. apply fle_Rd in A; [|assumption..]. apply fle_Rd in B; [|assumption..].
    split; [exact Fx|]. apply Rabs_le. cbn. lra.
  - apply BenchD.rastrigin_low; [|lia]. intros x. apply Hc.
Qed.
End Ras.
