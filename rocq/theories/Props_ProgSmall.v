(** C104: three small programs. *)
From Coq Require Import List Arith ZArith Bool Lia Reals Lra.
From Flocq Require Import Core BinarySingleNaN Bits.
From Flocq Require Binary.
From Verif Require Import Props_BinCode Props_Bench.
From Verif Require Import Base Fl FlFacts BinCode GlobalM Bench ProgSmall.
Import ListNotations.
Open Scope Z_scope.

(** * Specification *)
(** The bits hi-1 .. hi-n of c, highest first. *)
Definition bits_down (c : Z) (hi n : nat) : list ch := map (fun i => Bit (Z.testbit c (Z.of_nat hi - 1 - Z.of_nat i))) (seq 0 n).
(** Sign, exponent and mantissa of a double. *)
Definition shown64 (c : Z) : list ch := bits_down c 64 1 ++ [Space] ++ bits_down c 63 11 ++ [Space] ++ bits_down c 52 52.
(** A float is broken at the same places: sign, then eleven bits (not the eight of its exponent). *)
Definition shown32 (c : Z) : list ch := bits_down c 32 1 ++ [Space] ++ bits_down c 31 11 ++ [Space] ++ bits_down c 20 20.

(** * Lemmas *)
Lemma fill_bits n : forall k c, 0 <= c -> Z.of_nat n <= k + 1 -> fill_str n (Z.shiftl 1 k) c = map (fun i => Z.testbit c (k - Z.of_nat i)) (seq 0 n).
Proof.
  induction n as [|n IH]; intros k c Hc H; [reflexivity|]. cbn [fill_str seq map]. f_equal.
  - rewrite Z.sub_0_r, Z.shiftl_1_l. assert (K : 0 <= k) by lia.
    destruct (Z.testbit c k) eqn:T; destruct (Z.eqb_spec (Z.land (2 ^ k) c) 0) as [E|E]; try reflexivity; exfalso.
    + assert (Z.testbit (Z.land (2 ^ k) c) k = false) as F by (rewrite E; apply Z.bits_0). rewrite Z.land_spec, Z.pow2_bits_true, T in F by lia. discriminate F.
    + apply E. apply Z.bits_inj'. intros j Hj. rewrite Z.land_spec, Z.bits_0. destruct (Z.eq_dec j k) as [->|N]; [rewrite T; apply andb_false_r|]. rewrite Z.pow2_bits_false by lia. reflexivity.
  - destruct n as [|n]; [reflexivity|]. rewrite Z.shiftr_shiftl_l by lia. rewrite IH by lia. rewrite <- seq_shift, map_map. apply map_ext. intros i. f_equal. lia.
Qed.
Lemma shown64_is c : 0 <= c -> printBin64 c false = shown64 c.
Proof. intros H. unfold printBin64. rewrite fill_bits by lia. reflexivity. Qed.
Lemma shown32_is c : 0 <= c -> printBin32 c false = shown32 c.
Proof. intros H. unfold printBin32. rewrite fill_bits by lia. reflexivity. Qed.
Lemma nospace s : forall idx, put_str idx s true = map Bit s.
Proof. induction s as [|b s IH]; intros idx; [reflexivity|]. cbn. f_equal. apply IH. Qed.
Lemma shown64_inj c d : 0 <= c < 2 ^ 64 -> 0 <= d < 2 ^ 64 -> shown64 c = shown64 d -> c = d.
Proof.
  intros Hc Hd E. apply Z.bits_inj'. intros n Hn. destruct (Z.lt_ge_cases n 64) as [L|G].
  - assert (P : forall hi k, bits_down c hi k = bits_down d hi k -> forall i, (i < k)%nat -> Z.testbit c (Z.of_nat hi - 1 - Z.of_nat i) = Z.testbit d (Z.of_nat hi - 1 - Z.of_nat i)).
    { intros hi k Q i Hi. apply (f_equal (fun l => nth_error l i)) in Q. unfold bits_down in Q. rewrite !nth_error_map in Q. rewrite (nth_error_nth' _ 0%nat) in Q by (rewrite seq_length; lia). rewrite seq_nth in Q by lia. cbn [option_map Nat.add] in Q. congruence. }
    unfold shown64 in E. assert (J : forall (a b : list ch) x y, length a = length x -> (a ++ b = x ++ y)%list -> a = x /\ b = y) by (induction a; intros b [|? x] y Q1 Q2; cbn in *; try discriminate; [auto|]; injection Q2 as -> Q2; destruct (IHa b x y ltac:(lia) Q2); subst; auto).
    apply J in E; [|reflexivity]. destruct E as (E1 & E). apply J in E; [|reflexivity]. destruct E as (_ & E). apply J in E; [|reflexivity]. destruct E as (E2 & E). apply J in E; [|reflexivity]. destruct E as (_ & E3).
    destruct (Z.lt_ge_cases n 52); [|destruct (Z.lt_ge_cases n 63)].
    + specialize (P 52%nat 52%nat E3 (Z.to_nat (51 - n)) ltac:(lia)). replace (Z.of_nat 52 - 1 - Z.of_nat (Z.to_nat (51 - n))) with n in P by lia. exact P.
    + specialize (P 63%nat 11%nat E2 (Z.to_nat (62 - n)) ltac:(lia)). replace (Z.of_nat 63 - 1 - Z.of_nat (Z.to_nat (62 - n))) with n in P by lia. exact P.
    + specialize (P 64%nat 1%nat E1 0%nat ltac:(lia)). replace (Z.of_nat 64 - 1 - Z.of_nat 0) with n in P by lia. exact P.
  - assert (B : forall z, 0 <= z < 2 ^ 64 -> Z.testbit z n = false). { intros z Hz. rewrite <- (Z.mod_small z (2 ^ 64)) by lia. apply Z.mod_pow2_bits_high. lia. }
    rewrite !B by assumption. reflexivity.
Qed.
Lemma stored64_is c : 0 <= c < 2 ^ 64 -> is_nan (ieee64 c) = false -> stored64 (ieee64 c) = c.
Proof.
  intros Hc N. unfold stored64. assert (E : Binary.BSN2B 53 1024 default_nan_pl64 (ieee64 c) = b64_of_bits c).
  { unfold ieee64 in *. destruct (b64_of_bits c); cbn in *; try reflexivity. discriminate N. }
  rewrite E. exact (bits_of_binary_float_of_bits 52 11 eq_refl eq_refl eq_refl c Hc).
Qed.
Lemma stored32_is c : 0 <= c < 2 ^ 32 -> is_nan (ieee32 c) = false -> stored32 (ieee32 c) = c.
Proof.
  intros Hc N. unfold stored32. assert (E : Binary.BSN2B 24 128 default_nan_pl32 (ieee32 c) = b32_of_bits c).
  { unfold ieee32 in *. destruct (b32_of_bits c); cbn in *; try reflexivity. discriminate N. }
  rewrite E. exact (bits_of_binary_float_of_bits 23 8 eq_refl eq_refl eq_refl c Hc).
Qed.

(** * C104 *)
(** printBin shows the bits from the highest to the lowest; with noSpace nothing between them. *)
Theorem C104_printBin : forall c, 0 <= c ->
  printBin64 c false = shown64 c /\ printBin64 c true = bits_down c 64 64 /\ printBin32 c false = shown32 c /\ printBin32 c true = bits_down c 32 32.
Proof.
  intros c Hc. split; [apply shown64_is; exact Hc|]. split; [unfold printBin64; rewrite nospace, fill_bits by lia; unfold bits_down; rewrite map_map; reflexivity|].
  split; [apply shown32_is; exact Hc|]. unfold printBin32. rewrite nospace, fill_bits by lia. unfold bits_down. rewrite map_map. reflexivity.
Qed.
Print Assumptions C104_printBin.
(** The two lines printed for a number: the stored pattern twice, unless it is one
    of the patterns encode treats wrongly, and then they differ. *)
Theorem C104_compare : forall fuel c, (1100 <= fuel)%nat ->
  (0 <= c < 2 ^ 64 -> ~ nan64 c -> ~ wrong64 c -> is_nan (ieee64 c) = false -> compare64 fuel (ieee64 c) = Ok (shown64 c, shown64 c)) /\
  (0 <= c < 2 ^ 32 -> ~ nan32 c -> ~ wrong32 c -> is_nan (ieee32 c) = false -> compare32 fuel (ieee32 c) = Ok (shown32 c, shown32 c)) /\
  (0 <= c < 2 ^ 64 -> 1 <= exponent64 c <= 2046 -> mantissa64 c = 2 ^ 52 - 1 -> is_nan (ieee64 c) = false -> exists l, compare64 fuel (ieee64 c) = Ok (shown64 c, l) /\ l <> shown64 c).
Proof.
  intros fuel c Hf. split; [|split].
  - intros Hc N W NN. unfold compare64. rewrite (proj1 (C43_encode64 fuel c Hf Hc N W)). cbn [bind]. rewrite (stored64_is c Hc NN), shown64_is by lia. reflexivity.
  - intros Hc N W NN. unfold compare32. rewrite (proj1 (C44_encode32 fuel c Hf Hc N W)). cbn [bind]. rewrite (stored32_is c Hc NN), shown32_is by lia. reflexivity.
  - intros Hc E M NN. unfold compare64. rewrite (C43_all_ones_refuted fuel c Hf Hc E M). cbn [bind]. rewrite (stored64_is c Hc NN), !shown64_is by lia. eexists. split; [reflexivity|]. intros Q.
    assert (c <> 2 ^ 64 - 1) by (intros ->; assert (X : exponent64 (2 ^ 64 - 1) = 2047) by reflexivity; lia). apply shown64_inj in Q; lia.
Qed.
Print Assumptions C104_compare.
(** A decimal literal is its value rounded to nearest even. *)
Theorem C104_decimal : forall p q, (Rabs (round radix2 (SpecFloat.fexp 53 1024) ZnearestE (IZR (Zpos p) / IZR (Zpos q))) < bpow radix2 1024)%R ->
  fin (decimal64 p q) /\ B2R (decimal64 p q) = round radix2 (SpecFloat.fexp 53 1024) ZnearestE (IZR (Zpos p) / IZR (Zpos q)).
Proof.
  intros p q H. unfold decimal64. pose proof (proj2 (@Bdiv_correct_aux 53 1024 eq_refl eq_refl mode_NE false p 0 false q 0)) as C.
  assert (F : forall z, F2R (Float radix2 (cond_Zopp false (Zpos z)) 0) = IZR (Zpos z)) by (intros z; unfold F2R; cbn; lra). rewrite !F in C.
  cbn [round_mode] in C. rewrite Rlt_bool_true in C by exact H. destruct C as (C1 & C2 & _). split; [unfold fin; rewrite is_finite_SF2B; exact C2|]. rewrite B2R_SF2B. exact C1.
Qed.
Print Assumptions C104_decimal.

(** The patterns of 1.52e-320, 3.14e-100, 1.507, 3.14, 3.14e100 and of 1.52e-32f,
    3.14e-10f, 1.507f, 3.14f, 3.14e10f. *)
Definition codes64 : list Z := [3077; 3118173457485846669; 4609465743811094249; 4614253070214989087; 6110459160502486885].
Definition codes32 : list Z := [178116744; 799842194; 1069606240; 1078523331; 1357509311].
Lemma decimal64_is p q c : decimal_SF 53 1024 p q = B2SF (ieee64 c) -> decimal64 p q = ieee64 c.
Proof. intros H. apply B2SF_inj. unfold decimal64. rewrite B2SF_SF2B. exact H. Qed.
Lemma decimal32_is p q c : decimal_SF 24 128 p q = B2SF (ieee32 c) -> decimal32 p q = ieee32 c.
Proof. intros H. apply B2SF_inj. unfold decimal32. rewrite B2SF_SF2B. exact H. Qed.
Lemma line64 fuel pq c : (1100 <= fuel)%nat -> decimal_SF 53 1024 (fst pq) (snd pq) = B2SF (ieee64 c) -> (0 <=? c) && (c <? 2 ^ 64) && (exponent64 c <? 2047) && negb (c =? 2 ^ 63) && negb (mantissa64 c =? 2 ^ 52 - 1) = true ->
  is_nan (ieee64 c) = false -> compare64 fuel (decimal64 (fst pq) (snd pq)) = Ok (shown64 c, shown64 c).
Proof.
  intros Hf E H NN. rewrite (decimal64_is _ _ c E). rewrite !andb_true_iff, !negb_true_iff in H. rewrite Z.leb_le, !Z.ltb_lt, !Z.eqb_neq in H.
  apply C104_compare; try assumption; [lia| |].
  - intros (X & _). lia.
  - intros [X|(_ & X)]; lia.
Qed.
Lemma line32 fuel pq c : (1100 <= fuel)%nat -> decimal_SF 24 128 (fst pq) (snd pq) = B2SF (ieee32 c) -> (0 <=? c) && (c <? 2 ^ 32) && (exponent32 c <? 255) && negb (c =? 2 ^ 31) && negb (mantissa32 c =? 2 ^ 23 - 1) = true ->
  is_nan (ieee32 c) = false -> compare32 fuel (decimal32 (fst pq) (snd pq)) = Ok (shown32 c, shown32 c).
Proof.
  intros Hf E H NN. rewrite (decimal32_is _ _ c E). rewrite !andb_true_iff, !negb_true_iff in H. rewrite Z.leb_le, !Z.ltb_lt, !Z.eqb_neq in H.
  apply C104_compare; try assumption; [lia| |].
  - intros (X & _). lia.
  - intros [X|[(_ & X)|X]]; [lia|lia|]. subst c. assert (Y : exponent32 (Z.shiftl 255 23) = 255) by reflexivity. lia.
Qed.
(** The program: ten numbers, the stored and the computed pattern agree in each. *)
Theorem C104_encoder_program : forall fuel, (1100 <= fuel)%nat ->
  encoder_main fuel = Ok (map (fun c => (shown64 c, shown64 c)) codes64 ++ map (fun c => (shown32 c, shown32 c)) codes32)%list /\
  map (fun pq => decimal64 (fst pq) (snd pq)) doubles = map ieee64 codes64 /\ map (fun pq => decimal32 (fst pq) (snd pq)) floats = map ieee32 codes32.
Proof.
  intros fuel Hf. split; [|split].
  - unfold encoder_main, doubles, floats. cbn [mapr].
    rewrite (line64 fuel (152%positive, pow10 322) 3077 Hf ltac:(vm_compute; reflexivity) ltac:(vm_compute; reflexivity) ltac:(vm_compute; reflexivity)). cbn [bind].
    rewrite (line64 fuel (314%positive, pow10 102) 3118173457485846669 Hf ltac:(vm_compute; reflexivity) ltac:(vm_compute; reflexivity) ltac:(vm_compute; reflexivity)). cbn [bind].
    rewrite (line64 fuel (1507%positive, pow10 3) 4609465743811094249 Hf ltac:(vm_compute; reflexivity) ltac:(vm_compute; reflexivity) ltac:(vm_compute; reflexivity)). cbn [bind].
    rewrite (line64 fuel (314%positive, pow10 2) 4614253070214989087 Hf ltac:(vm_compute; reflexivity) ltac:(vm_compute; reflexivity) ltac:(vm_compute; reflexivity)). cbn [bind].
    rewrite (line64 fuel ((314 * pow10 98)%positive, 1%positive) 6110459160502486885 Hf ltac:(vm_compute; reflexivity) ltac:(vm_compute; reflexivity) ltac:(vm_compute; reflexivity)). cbn [bind].
    rewrite (line32 fuel (152%positive, pow10 34) 178116744 Hf ltac:(vm_compute; reflexivity) ltac:(vm_compute; reflexivity) ltac:(vm_compute; reflexivity)). cbn [bind].
    rewrite (line32 fuel (314%positive, pow10 12) 799842194 Hf ltac:(vm_compute; reflexivity) ltac:(vm_compute; reflexivity) ltac:(vm_compute; reflexivity)). cbn [bind].
    rewrite (line32 fuel (1507%positive, pow10 3) 1069606240 Hf ltac:(vm_compute; reflexivity) ltac:(vm_compute; reflexivity) ltac:(vm_compute; reflexivity)). cbn [bind].
    rewrite (line32 fuel (314%positive, pow10 2) 1078523331 Hf ltac:(vm_compute; reflexivity) ltac:(vm_compute; reflexivity) ltac:(vm_compute; reflexivity)). cbn [bind].
    rewrite (line32 fuel ((314 * pow10 8)%positive, 1%positive) 1357509311 Hf ltac:(vm_compute; reflexivity) ltac:(vm_compute; reflexivity) ltac:(vm_compute; reflexivity)). cbn [bind].
    reflexivity.
  - unfold doubles, codes64. cbn [map]. repeat f_equal; apply decimal64_is; vm_compute; reflexivity.
  - unfold floats, codes32. cbn [map]. repeat f_equal; apply decimal32_is; vm_compute; reflexivity.
Qed.
Print Assumptions C104_encoder_program.
Example ex_C104 : Forall (fun c => 0 <= c < 2 ^ 64 /\ ~ nan64 c /\ ~ wrong64 c) codes64 /\ exists c, 0 <= c < 2 ^ 64 /\ 1 <= exponent64 c <= 2046 /\ mantissa64 c = 2 ^ 52 - 1.
Proof.
  split. { unfold codes64. repeat constructor; try lia; try (intros (X & _); vm_compute in X; discriminate X); intros [X|(_ & X)]; vm_compute in X; discriminate X. }
  exists (Z.shiftl 1023 52 - 1). split; [split; [discriminate|reflexivity]|]. split; [split; discriminate|reflexivity].
Qed.

(** MinMaxCompileTime.cpp prints the least and the greatest of its numbers. *)
Theorem C104_minmax_program : minmax_main = (-114514, 1919810).
Proof. reflexivity. Qed.

(** testFunctions.cpp: the table has the value of the egg holder function at every
    pair of 250 equally spaced points of [-512,512], and no value leaves [-1071,1071]. *)
Open Scope R_scope.
Definition egg (x y : R) : R := - (y + 47) * sin (sqrt (Rabs (x / 2 + (y + 47)))) - x * sin (sqrt (Rabs (x - (y + 47)))).
Definition grid (i : nat) : R := -512 + INR i * 1024 / 249.
Lemma mapr_all {A B} (f : A -> res B) (g : A -> B) l : (forall x, f x = Ok (g x)) -> mapr f l = Ok (map g l).
Proof. intros H. induction l as [|x l IH]; [reflexivity|]. cbn. rewrite H. cbn [bind]. rewrite IH. reflexivity. Qed.
Lemma point_is i : point Rops i = grid i.
Proof. unfold point, grid. cbn [add lit div mul Rops num pow]. rewrite INR_IZR_INZ. field. Qed.
Lemma egg_bound x y : -512 <= x <= 512 -> -512 <= y <= 512 -> -1071 <= egg x y <= 1071.
Proof.
  intros Hx Hy. unfold egg. generalize (SIN_bound (sqrt (Rabs (x / 2 + (y + 47))))) (SIN_bound (sqrt (Rabs (x - (y + 47))))). generalize (sin (sqrt (Rabs (x / 2 + (y + 47))))) (sin (sqrt (Rabs (x - (y + 47))))).
  intros s t Hs Ht. assert (A : forall u v b, -b <= u <= b -> -1 <= v <= 1 -> -b <= u * v <= b) by (intros; nra).
  pose proof (A (y + 47) s 559 ltac:(lra) Hs). pose proof (A x t 512 Hx Ht). lra.
Qed.
Theorem C104_egg_program : exists z, egg_main Rops = Ok z /\ length z = 250%nat /\
  forall r c, (r < 250)%nat -> (c < 250)%nat -> exists row, nth_error z r = Some row /\ length row = 250%nat /\ nth_error row c = Some (egg (grid r) (grid c)) /\ -1071 <= egg (grid r) (grid c) <= 1071.
Proof.
  exists (map (fun x => map (fun y => egg x y) (map grid (seq 0 250))) (map grid (seq 0 250))).
  assert (E : egg_main Rops = Ok (map (fun x => map (fun y => egg x y) (map grid (seq 0 250))) (map grid (seq 0 250)))).
  { unfold egg_main. cbv zeta. rewrite (map_ext _ grid point_is). apply mapr_all. intros x. unfold egg_row. apply mapr_all. intros y. exact (proj1 (proj2 C61_formulas) x y). }
  split; [exact E|]. split; [rewrite !map_length, seq_length; reflexivity|].
  assert (G : forall i, (i < 250)%nat -> -512 <= grid i <= 512). { intros i Hi. unfold grid. assert (0 <= INR i <= 249); [|lra]. split; [apply pos_INR|]. rewrite INR_IZR_INZ. apply IZR_le. lia. }
  assert (S : forall i, (i < 250)%nat -> nth_error (seq 0 250) i = Some i). { intros i Hi. rewrite (nth_error_nth' _ 0%nat) by (rewrite seq_length; lia). rewrite seq_nth by lia. reflexivity. }
  intros r c Hr Hc. eexists. split; [rewrite !nth_error_map, S by lia; reflexivity|]. split; [rewrite !map_length, seq_length; reflexivity|]. split; [rewrite !nth_error_map, S by lia; reflexivity|].
  apply egg_bound; apply G; assumption.
Qed.
Print Assumptions C104_egg_program.
