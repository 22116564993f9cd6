(** The objective functions of the example programs are finite on their boxes. *)
From Coq Require Import List Arith ZArith Bool Lia Reals Lra Psatz.
From Flocq Require Import Core BinarySingleNaN.
From Verif Require Import Props_Region Props_MOGAObj Props_Blend Props_Box Props_BoxObj BoxObjProofs WheelProofs2 WheelProofs3 SOGAProofs5 RandProofs GlobalProofs BoxProofs BlendProofs ProgMOProofs.
From Verif Require BoxObj.
From Verif Require Import Base Fl FlFacts Rng StdOps GABase Box Defaults GlobalM Bench MOGASpec NSGA3 MOGAObj MOGAObjSpec RegionSpec RegionSpecM ProgMO ProgMOSpec.
Import ListNotations.
Open Scope Z_scope.

(** Finite, not negative, at most 2^k. *)
Definition nn (x : double) (k : Z) : Prop := bd x k /\ (0 <= B2R x)%R.
Lemma nn_le x a b : nn x a -> a <= b -> nn x b.
Proof. intros (B & P) H. split; [exact (bd_le x a b B H)|exact P]. Qed.
Lemma nn_add x y a : nn x a -> nn y a -> -1074 <= a <= 899 -> nn (fadd x y) (a + 1).
Proof. intros (Bx & Px) (By & Py) H. destruct (bd_add_val x y a Bx By H) as (B & E). split; [exact B|]. rewrite E. apply drnd_ge0. lra. Qed.
Lemma nn_mul x y a b : nn x a -> nn y b -> -1074 <= a + b <= 900 -> nn (fmul x y) (a + b).
Proof. intros (Bx & Px) (By & Py) H. destruct (bd_mul_val x y a b Bx By H) as (B & E). split; [exact B|]. rewrite E. apply drnd_ge0. nra. Qed.
Lemma nn_div x y a : nn x a -> fin y -> (1 <= B2R y)%R -> -1074 <= a <= 900 -> nn (fdiv x y) a.
Proof.
  intros (Bx & Px) Fy Hy H. destruct (bd_div_val x y a Bx Fy Hy H) as (B & E). split; [exact B|]. rewrite E. apply drnd_ge0.
  apply Rmult_le_pos; [exact Px|]. left. apply Rinv_0_lt_compat. lra.
Qed.
Lemma nn_sqrt x k : nn x k -> 0 <= k <= 900 -> nn (Bsqrt mode_NE x) k.
Proof.
  intros ((F & B) & P) Hk. destruct (Bsqrt_correct 53 1024 _ _ mode_NE x) as (E & Fi & _). cbn [round_mode] in E.
  assert (Fs : fin (Bsqrt mode_NE x)).
  { unfold fin. rewrite Fi. destruct x as [s|s| |s m e Hb]; try reflexivity; try discriminate F. destruct s; [|reflexivity].
    exfalso. cbn [B2R] in P. apply (Rlt_irrefl 0). apply Rle_lt_trans with (1 := P). apply F2R_lt_0. cbn. lia. }
  assert (E' : B2R (Bsqrt mode_NE x) = drnd (sqrt (B2R x))) by exact E.
  assert (G : (0 <= B2R (Bsqrt mode_NE x))%R) by (rewrite E'; apply drnd_ge0, sqrt_pos).
  split; [|exact G]. split; [exact Fs|]. rewrite Rabs_pos_eq by exact G. rewrite E'. rewrite Rabs_pos_eq in B by exact P.
  assert (K1 : (1 <= bpow radix2 k)%R) by (change 1%R with (bpow radix2 0); apply bpow_le; lia).
  apply Rle_trans with (drnd (bpow radix2 k)).
  - apply drnd_mono. apply Rle_trans with (sqrt (bpow radix2 k * bpow radix2 k)); [apply sqrt_le_1_alt; nra|]. rewrite sqrt_square; lra.
  - right. apply round_generic; [apply valid_rnd_N|]. apply generic_format_FLT_bpow; [reflexivity|change (SpecFloat.emin 53 1024) with (-1074); lia].
Qed.
Lemma fold_nn l : forall s a, nn s a -> (forall x, In x l -> nn x 0) -> 0 <= a -> a + Z.of_nat (length l) <= 899 -> nn (fold_left fadd l s) (a + Z.of_nat (length l)).
Proof.
  induction l as [|x l IH]; intros s a Hs Hl Ha Hb; cbn [fold_left length]; [rewrite Z.add_0_r; exact Hs|]. cbn [length] in Hb.
  replace (a + Z.of_nat (S (length l))) with (a + 1 + Z.of_nat (length l)) by lia. apply IH; [|intros y Hy; apply Hl; right; exact Hy|lia|lia].
  apply nn_add; [exact Hs|apply (nn_le x 0 a); [apply Hl; left; reflexivity|lia]|lia].
Qed.
Lemma nn_d0 : nn d0 0. Proof. split; [split; [reflexivity|]|]; cbn; rewrite ?Rabs_R0; lra. Qed.
Lemma nat_nn n k : 0 <= n <= 2147483648 -> (IZR n <= bpow radix2 k)%R -> nn (d_of_Z n) k.
Proof.
  intros H K. destruct (bd_nat n H) as ((F & _) & E). assert (P : (0 <= IZR n)%R) by (apply IZR_le; lia).
  split; [split; [exact F|]|]; rewrite E; [rewrite Rabs_pos_eq by exact P; exact K|exact P].
Qed.
Lemma box_nn (lo hi x : double) k : fin lo -> fin hi -> fle lo x = true -> fle x hi = true -> (0 <= B2R lo)%R -> (B2R hi <= bpow radix2 k)%R -> nn x k.
Proof.
  intros Fl Fh H1 H2 P Q. pose proof (between_fin lo hi x Fl Fh H1 H2) as F. apply fle_true in H1. apply fle_true in H2.
  destruct H1 as (_ & _ & H1), H2 as (_ & _ & H2). rewrite (fval_fin _ _ _ F) in H1, H2. rewrite (fval_fin _ _ _ Fl) in H1. rewrite (fval_fin _ _ _ Fh) in H2.
  assert (0 <= B2R x)%R by lra. split; [split; [exact F|]|assumption]. rewrite Rabs_pos_eq; lra.
Qed.
Lemma box_bd (lo hi x : double) k : fin lo -> fin hi -> fle lo x = true -> fle x hi = true -> (- bpow radix2 k <= B2R lo)%R -> (B2R hi <= bpow radix2 k)%R -> bd x k.
Proof.
  intros Fl Fh H1 H2 P Q. pose proof (between_fin lo hi x Fl Fh H1 H2) as F. apply fle_true in H1. apply fle_true in H2.
  destruct H1 as (_ & _ & H1), H2 as (_ & _ & H2). rewrite (fval_fin _ _ _ F) in H1, H2. rewrite (fval_fin _ _ _ Fl) in H1. rewrite (fval_fin _ _ _ Fh) in H2.
  split; [exact F|]. apply Rabs_le. lra.
Qed.
Lemma bd_sub x y a : bd x a -> bd y a -> -1074 <= a <= 899 -> bd (fsub x y) (a + 1).
Proof. intros A B H. apply (bd_sub_val x y a A B H). Qed.
Lemma bd_add x y a : bd x a -> bd y a -> -1074 <= a <= 899 -> bd (fadd x y) (a + 1).
Proof. intros A B H. apply (bd_add_val x y a A B H). Qed.
Lemma bd_tame_value (f : list double) M k : k <= 1000 -> (forall o, (o < M)%nat -> bd (objective f o) k) -> tame_value M f.
Proof. intros Hk H o Ho. destruct (H o Ho) as (F & B). split; [exact F|]. apply Rle_trans with (1 := B). apply bpow_le. exact Hk. Qed.

Lemma one_val : fin d1 /\ B2R d1 = 1%R.
Proof. destruct (bd_nat 1 ltac:(lia)) as ((F & _) & E). split; [exact F|exact E]. Qed.
Lemma ge1 x a : nn x a -> 0 <= a <= 899 -> nn (fadd d1 x) (a + 1) /\ (1 <= B2R (fadd d1 x))%R.
Proof.
  intros ((F & B) & P) H. destruct one_val as (F1 & V1).
  assert (N1 : nn d1 a). { split; [split; [exact F1|]|]; rewrite V1; [rewrite Rabs_R1; change 1%R with (bpow radix2 0); apply bpow_le; lia|lra]. }
  destruct (bd_add_val d1 x a (proj1 N1) (conj F B) ltac:(lia)) as (_ & E). split; [apply nn_add; [exact N1|split; [split|]; assumption|lia]|].
  rewrite E, V1. apply Rle_trans with (drnd (B2R d1)); [rewrite drnd_id, V1; apply Rle_refl|]. apply drnd_mono. lra.
Qed.
Section Objectives.
Context (L : libm).
Lemma zdt3_tame (Hs : sin_sane L) d v : in_box (square_dbox 30 d0 d1 d) v -> tame_value 2 (zdt3_f L v).
Proof.
  intros Hv. apply in_square in Hv. destruct Hv as (Lv & Hv). destruct one_val as (F1 & V1).
  assert (U : forall x, In x v -> nn x 0).
  { intros x Hx. destruct (Hv x Hx) as (A & B). apply (box_nn d0 d1 x 0 eq_refl F1 A B); cbn [B2R d0 bpow]; lra. }
  destruct v as [|f1 t]; [discriminate Lv|]. cbn [length] in Lv. assert (Lt : length t = 29%nat) by lia.
  assert (N1 := U f1 (or_introl eq_refl)).
  unfold zdt3_f. cbn [nth skipn].
  assert (S0 : nn (fold_left fadd t d0) 29).
  { replace 29 with (0 + Z.of_nat (length t)) by lia. apply fold_nn; [exact nn_d0|intros x Hx; apply U; right; exact Hx|lia|lia]. }
  set (s := fold_left fadd t d0) in *. clearbody s.
  assert (S1 : nn (fmul s (d_of_Z 9)) (29 + 4)). { apply nn_mul; [exact S0|apply nat_nn; [lia|cbn [bpow Z.pow_pos Pos.iter radix2 radix_val]; cbn; lra]|lia]. }
  assert (S2 : nn (fdiv (fmul s (d_of_Z 9)) (d_of_Z 29)) 33).
  { destruct (bd_nat 29 ltac:(lia)) as ((F & _) & E). apply nn_div; [exact S1|exact F|rewrite E; lra|lia]. }
  destruct (ge1 _ 33 S2 ltac:(lia)) as (G1 & G2).
  set (gg := fadd d1 (fdiv (fmul s (d_of_Z 9)) (d_of_Z 29))) in *. clearbody gg.
  assert (Q : nn (fdiv f1 gg) 0) by (apply nn_div; [exact N1|apply G1|exact G2|lia]).
  set (q := fdiv f1 gg) in *. clearbody q.
  cbn [nsqrt Dops m_pi].
  assert (SQ : bd (Bsqrt mode_NE q) 0) by (apply (nn_sqrt q 0 Q); lia).
  set (pi10 := fmul (d_of_Z 10) (fofZ 884279719003555 (-48))).
  assert (Fpi : bd pi10 5).
  { destruct (bd_nat 32 ltac:(lia)) as ((F32 & _) & E32). apply (box_bd d0 (d_of_Z 32) pi10 5 eq_refl F32); [vm_compute; reflexivity|vm_compute; reflexivity| |rewrite E32; cbn; lra].
    cbn [B2R d0]. pose proof (bpow_ge_0 radix2 5). lra. }
  clearbody pi10.
  assert (SI : bd (l_sin L (fmul pi10 f1)) 0).
  { destruct (bd_mul pi10 f1 5 0 Fpi (proj1 N1) ltac:(lia)) as (Fm & _). destruct (Hs _ Fm) as (Fa & Ba). split; [exact Fa|exact Ba]. }
  assert (B1 : bd d1 0) by (split; [exact F1|rewrite V1, Rabs_R1; apply Rle_refl]).
  assert (H : bd (fsub (fsub d1 (Bsqrt mode_NE q)) (fmul q (l_sin L (fmul pi10 f1)))) (0 + 1 + 1)).
  { apply bd_sub; [apply bd_sub; [exact B1|exact SQ|lia]| |lia]. apply (bd_le _ (0 + 0)); [|lia]. apply bd_mul; [apply Q|exact SI|lia]. }
  assert (Z : bd (fmul gg (fsub (fsub d1 (Bsqrt mode_NE q)) (fmul q (l_sin L (fmul pi10 f1))))) (34 + 2)) by (apply bd_mul; [apply G1|exact H|lia]).
  apply (bd_tame_value _ 2 36); [lia|]. intros o Ho. destruct o as [|[|o]]; [|exact Z|lia]. apply (bd_le _ 0); [apply N1|lia].
Qed.
Lemma lit_nn (x : double) k n : 0 <= n <= 2147483648 -> fle d0 x = true -> fle x (d_of_Z n) = true -> (IZR n <= bpow radix2 k)%R -> nn x k.
Proof.
  intros Hn A B C. destruct (bd_nat n Hn) as ((Fn & _) & En). apply (box_nn d0 (d_of_Z n) x k eq_refl Fn A B); [cbn; lra|rewrite En; exact C].
Qed.
Lemma neg_mul x y a b : bd x a -> (B2R x <= 0)%R -> nn y b -> -1074 <= a + b <= 900 -> bd (fmul x y) (a + b) /\ (B2R (fmul x y) <= 0)%R.
Proof. intros Bx Px (By & Py) H. destruct (bd_mul_val x y a b Bx By H) as (B & E). split; [exact B|]. rewrite E. apply drnd_le0. nra. Qed.
Lemma sq_nn x a : bd x a -> -1074 <= a + a <= 900 -> nn (fmul x x) (a + a).
Proof. intros Bx H. destruct (bd_mul_val x x a a Bx Bx H) as (B & E). split; [exact B|]. rewrite E. apply drnd_ge0. nra. Qed.
Ltac dops := cbn [num lit add sub mul div opp nabs nsqrt nsin ncos nexp powi powq nlt nle m_pi m_e m_2_pi vsum Dops].
Ltac five_square Hv Lv v :=
  let x0 := fresh "x0" in let x1 := fresh "x1" in let x2 := fresh "x2" in let t := fresh "t" in
  destruct v as [|x0 [|x1 [|x2 t]]]; try discriminate Lv.
Lemma kursawe_defined d v : in_box (square_dbox 3 (d_of_Z (-5)) (d_of_Z 5) d) v -> exists f, kursawe_std (Dops L) v = Ok f.
Proof. intros Hv. apply in_square in Hv. destruct Hv as (Lv & _). destruct v as [|x0 [|x1 t]]; try discriminate Lv. eexists. reflexivity. Qed.
Lemma kursawe_tame (Hs : sin_sane L) (He : exp_sane L) (Hp : pow_sane L) d v : in_box (square_dbox 3 (d_of_Z (-5)) (d_of_Z 5) d) v -> tame_value 2 (kursawe_f L tt v).
Proof.
  intros Hv. apply in_square in Hv. destruct Hv as (Lv & Hv).
  assert (U : forall x, In x v -> bd x 3).
  { intros x Hx. destruct (Hv x Hx) as (A & B). destruct (bd_nat 5 ltac:(lia)) as ((F5 & _) & E5). destruct (d_of_Z_exact (-5) ltac:(lia)) as (Fm & Em).
    apply (box_bd (d_of_Z (-5)) (d_of_Z 5) x 3 Fm F5 A B); [rewrite Em|rewrite E5]; cbn; lra. }
  destruct v as [|x0 [|x1 t]]; try discriminate Lv. assert (U0 := U x0 (or_introl eq_refl)). assert (U1 := U x1 (or_intror (or_introl eq_refl))).
  assert (S : nn (fadd (fmul x0 x0) (fmul x1 x1)) (6 + 1)) by (apply nn_add; [apply (sq_nn x0 3 U0); lia|apply (sq_nn x1 3 U1); lia|lia]).
  assert (Q := nn_sqrt _ 7 S ltac:(lia)).
  set (m2 := fdiv (d_of_Z (-2)) (d_of_Z (10 ^ Z.of_nat 1))).
  assert (M2 : bd m2 0 /\ (B2R m2 <= 0)%R).
  { assert (A1 : fle (d_of_Z (-1)) m2 = true) by (vm_compute; reflexivity). assert (A2 : fle m2 d0 = true) by (vm_compute; reflexivity).
    destruct (d_of_Z_exact (-1) ltac:(lia)) as (Fm & Em). pose proof (between_fin _ d0 m2 Fm eq_refl A1 A2) as F.
    split; [apply (box_bd (d_of_Z (-1)) d0 m2 0 Fm eq_refl A1 A2); [rewrite Em|]; cbn; lra|].
    apply fle_true in A2. destruct A2 as (_ & _ & A2). rewrite (fval_fin _ _ _ F) in A2. cbn in A2. exact A2. }
  destruct M2 as (M2 & M2').
  assert (Em2 : m2 = fdiv (d_of_Z (-2)) (d_of_Z (10 ^ Z.of_nat 1))) by reflexivity. clearbody m2.
  destruct (neg_mul m2 _ 0 7 M2 M2' Q ltac:(lia)) as ((Fe & _) & Ne).
  destruct (He _ Fe Ne) as (Fx & Bx).
  assert (EX : nn (l_exp L (fmul m2 (Bsqrt mode_NE (fadd (fmul x0 x0) (fmul x1 x1))))) 1) by (split; [split; [exact Fx|]|lra]; rewrite Rabs_pos_eq by lra; cbn; lra).
  set (lit8 := fdiv (d_of_Z 8) (d_of_Z (10 ^ Z.of_nat 1))) in *.
  assert (P : forall x, bd x 3 -> nn (l_pow L (Babs x) lit8) 3).
  { intros x (Fb & Bb). destruct (Hp (Babs x)) as (F8 & B8); [unfold fin; rewrite is_finite_Babs; exact Fb|rewrite B2R_Babs; split; [apply Rabs_pos|cbn in Bb; lra]|].
    split; [split; [exact F8|]|apply B8]. rewrite Rabs_pos_eq by apply B8. cbn. apply B8. }
  assert (Em8 : lit8 = fdiv (d_of_Z 8) (d_of_Z (10 ^ Z.of_nat 1))) by reflexivity. clearbody lit8.
  assert (T : forall x, bd x 3 -> bd (fadd (l_pow L (Babs x) lit8) (fmul (fdiv (d_of_Z 5) (d_of_Z (10 ^ Z.of_nat 0))) (l_sin L (fmul (fmul x x) x)))) 4).
  { intros x B. apply (bd_add _ _ 3); [apply P, B| |lia]. destruct (bd_mul (fmul x x) x 6 3 (proj1 (sq_nn x 3 B ltac:(lia))) B ltac:(lia)) as (F & _).
    destruct (Hs _ F) as (Fa & Ba). apply (bd_mul _ _ 3 0); [|split; [exact Fa|exact Ba]|lia].
    apply (lit_nn _ 3 5); [lia|vm_compute; reflexivity|vm_compute; reflexivity|cbn; lra]. }
  assert (T0 := T x0 U0). assert (T1 := T x1 U1).
  assert (Z0 : bd (fdiv (d_of_Z 0) (d_of_Z (10 ^ Z.of_nat 0))) 5) by (apply (lit_nn _ 5 5); [lia|vm_compute; reflexivity|vm_compute; reflexivity|cbn; lra]).
  apply (bd_tame_value _ 2 20); [lia|]. intros o Ho. unfold kursawe_f, kursawe_std, square. dops. cbn [total]. rewrite <- Em2, <- Em8.
  set (z0 := fdiv (d_of_Z 0) (d_of_Z (10 ^ Z.of_nat 0))) in *. clearbody z0.
  destruct o as [|[|o]]; [| |lia]; unfold objective; cbn [nth].
  - apply (bd_le _ (5 + 1)); [|lia]. apply bd_sub; [exact Z0| |lia]. apply (bd_mul _ _ 4 1); [|apply EX|lia].
    apply (lit_nn _ 4 10); [lia|vm_compute; reflexivity|vm_compute; reflexivity|cbn; lra].
  - apply (bd_le _ (5 + 1 + 1)); [|lia]. apply bd_add; [apply bd_add; [exact Z0|apply (bd_le _ 4); [exact T0|lia]|lia]|apply (bd_le _ 4); [exact T1|lia]|lia].
Qed.
(** ** Binh and Korn *)
Lemma bd_add2 x y a b : bd x a -> bd y b -> -1074 <= Z.max a b <= 899 -> bd (fadd x y) (Z.max a b + 1).
Proof. intros A B H. apply bd_add; [apply (bd_le _ a)|apply (bd_le _ b)|]; try assumption; lia. Qed.
Lemma bd_sub2 x y a b : bd x a -> bd y b -> -1074 <= Z.max a b <= 899 -> bd (fsub x y) (Z.max a b + 1).
Proof. intros A B H. apply bd_sub; [apply (bd_le _ a)|apply (bd_le _ b)|]; try assumption; lia. Qed.
Lemma bd_pen g f k : bd g k -> bd f k -> 18 <= k <= 800 -> bd (penalise (Dops L) g f) (k + 2).
Proof.
  intros Bg Bf H. unfold penalise. dops. destruct (flt _ g); [|apply (bd_le _ k); [exact Bf|lia]].
  replace (k + 2) with (k + 1 + 1) by lia. apply bd_add; [apply (bd_le _ k); [exact Bf|lia]| |lia]. apply bd_add; [|exact Bg|lia]. apply (bd_le _ 18); [|lia].
  apply (lit_nn _ 18 100000); [lia|vm_compute; reflexivity|vm_compute; reflexivity|cbn; lra].
Qed.
Ltac bdt := lazymatch goal with
  | |- bd (fadd _ _) _ => eapply bd_add2; [bdt|bdt|cbn; lia]
  | |- bd (fsub _ _) _ => eapply bd_sub2; [bdt|bdt|cbn; lia]
  | |- bd (fmul _ _) _ => eapply bd_mul; [bdt|bdt|cbn; lia]
  | |- bd (fdiv _ _) _ => apply (lit_nn _ 7 100); [lia|vm_compute; reflexivity|vm_compute; reflexivity|cbn; lra]
  | |- _ => eassumption
  end.
(** The box that the ratio 1/5 keeps: the second coordinate may be one step above 3. *)
Definition above3 : double := fofZ 6755399441055745 (-51).
Definition bk_region : dbox := {| dimD := 2; minD := fun _ => d0; maxD := fun i => match i with 0%nat => d_of_Z 5 | _ => above3 end; deltaD := fun _ => d1 |}.
Lemma bk_coords v : in_box bk_region v -> exists x y, v = [x; y] /\ bd x 3 /\ bd y 3.
Proof.
  intros (Lv & Hv). cbn [bk_region dimD] in Lv. destruct v as [|x [|y [|? ?]]]; try discriminate Lv; [|cbn [length] in Lv; lia].
  exists x, y. split; [reflexivity|]. destruct (bd_nat 5 ltac:(lia)) as ((F5 & _) & E5).
  destruct (Hv 0%nat x eq_refl) as (A & B). destruct (Hv 1%nat y eq_refl) as (C & D). cbn [bk_region minD maxD] in *.
  split.
  - apply (box_nn d0 (d_of_Z 5) x 3 eq_refl F5 A B); [cbn; lra|rewrite E5; cbn; lra].
  - destruct (bd_nat 4 ltac:(lia)) as ((F4 & _) & E4). apply (box_nn d0 (d_of_Z 4) y 3 eq_refl F4 C); [|cbn; lra|rewrite E4; cbn; lra].
    apply fle_trans with above3; [exact D|vm_compute; reflexivity].
Qed.
Lemma bk_defined v : in_box bk_region v -> exists f, binhKorn (Dops L) false v [dnan; dnan] = Ok f.
Proof. intros Hv. destruct (bk_coords v Hv) as (x & y & -> & _). eexists. reflexivity. Qed.
Lemma bk_tame b v : in_box bk_region v -> tame_value 2 (bk_f L b v).
Proof.
  intros Hv. destruct (bk_coords v Hv) as (x & y & -> & Bx & By).
  unfold bk_f, binhKorn, two_mo, resized. cbn [orb length Nat.eqb total]. apply (bd_tame_value _ 2 22); [lia|]. intros o Ho.
  destruct o as [|[|o]]; [| |lia]; unfold objective; cbn [nth]; apply (bd_pen _ _ 20); try lia; (eapply bd_le; [unfold square; dops; bdt|cbn; lia]).
Qed.
End Objectives.
