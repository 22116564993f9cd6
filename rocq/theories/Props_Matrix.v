(** Matrices: C55-C57. *)
From Coq Require Import List Arith ZArith Bool Lia.
From Verif Require Import Base Box BoxProofs Matrix.
Import ListNotations.
Open Scope Z_scope.

(** * Specification *)
Definition int_max : Z := 2147483647.
(** Non-negative sizes, and room for all elements. *)
Definition good {T} (m : mat T) : Prop :=
  0 <= rowsM m /\ 0 <= colsM m /\ rowsM m * colsM m <= mat_capacity m /\ mat_capacity m <= int_max.
Definition inside {T} (m : mat T) (r c : Z) : Prop := 0 <= r < rowsM m /\ 0 <= c < colsM m.
(** Uninitialised memory: n elements with any contents. *)
Definition memory_of {T} (garbage : Z -> list T) : Prop := forall n, 0 <= n -> Z.of_nat (length (garbage n)) = n.

(** * Lemmas *)
Lemma iarith_ok z : -2147483648 <= z <= int_max -> iarith z = Ok z.
Proof. unfold iarith, in_int, int_max. intros H. destruct (Z.leb_spec (-2147483648) z), (Z.leb_spec z 2147483647); try lia. reflexivity. Qed.
Lemma iarith_Ok z y : iarith z = Ok y -> y = z /\ -2147483648 <= z <= int_max.
Proof.
  unfold iarith, in_int, int_max. destruct (Z.leb_spec (-2147483648) z), (Z.leb_spec z 2147483647); cbn [andb]; intros E; try discriminate.
  split; [congruence|lia].
Qed.
Lemma index_ok {T} (m : mat T) r c : good m -> inside m r c ->
  index_of m r c = Ok (rowsM m * c + r) /\ 0 <= rowsM m * c + r < rowsM m * colsM m.
Proof.
  intros (A & C & D & E) ((R1 & R2) & (C1 & C2)). unfold index_of.
  assert (0 <= rowsM m * c) by nia. assert (rowsM m * c + rowsM m <= rowsM m * colsM m) by nia.
  rewrite iarith_ok by (unfold int_max in *; lia). cbn [bind]. rewrite iarith_ok by (unfold int_max in *; lia). split; [reflexivity|lia].
Qed.
Lemma store_ok {T} (a : list T) i x : 0 <= i < Z.of_nat (length a) -> store a i x = Ok (set_at a (Z.to_nat i) x).
Proof. intros H. unfold store. destruct (Z.leb_spec 0 i), (Z.ltb_spec i (Z.of_nat (length a))); try lia. reflexivity. Qed.
Lemma store_length {T} (a a' : list T) i x : store a i x = Ok a' -> length a' = length a.
Proof.
  unfold store. destruct (_ && _); intros E; [|discriminate]. assert (a' = set_at a (Z.to_nat i) x) as -> by congruence.
  apply set_at_length.
Qed.
Lemma get_set_same {T} (a : list T) i x : 0 <= i < Z.of_nat (length a) -> get_at (set_at a (Z.to_nat i) x) i = Ok x.
Proof.
  intros H. unfold get_at. destruct (Z.ltb_spec i 0); [lia|]. rewrite set_at_same by lia. reflexivity.
Qed.
Lemma get_set_other {T} (a : list T) i j x : 0 <= i -> j <> i -> get_at (set_at a (Z.to_nat i) x) j = get_at a j.
Proof.
  intros H N. unfold get_at. destruct (Z.ltb_spec j 0); [reflexivity|]. rewrite set_at_other by lia. reflexivity.
Qed.

(** * C55 *)
(** (r,c) is the element number rows*c + r. *)
Theorem C55_column_major : forall (T : Type) (m : mat T) r c, good m -> inside m r c ->
  exists x, mat_rc m r c = Ok x /\ mat_at m (rowsM m * c + r) = Ok x.
Proof.
  intros T m r c G I. destruct (index_ok m r c G I) as (E & H). unfold mat_rc. rewrite E. cbn [bind].
  destruct G as (_ & _ & D & _). destruct (get_at_in (mem m) (rowsM m * c + r)) as (x & Ex & _); [unfold mat_capacity in D; lia|].
  exists x. split; exact Ex.
Qed.
Print Assumptions C55_column_major.
(** Every element number below rows*cols is that of exactly one (r,c). *)
Theorem C55_bijection : forall (T : Type) (m : mat T), good m ->
  (forall r c r' c', inside m r c -> inside m r' c' -> rowsM m * c + r = rowsM m * c' + r' -> r = r' /\ c = c') /\
  (forall n, 0 <= n < rowsM m * colsM m -> exists r c, inside m r c /\ n = rowsM m * c + r).
Proof.
  intros T m (A & C & _ & _). split.
  - intros r c r' c' ((R1 & R2) & (C1 & C2)) ((R1' & R2') & (C1' & C2')) E. assert (c = c') by nia. split; nia.
  - intros n (N1 & N2). assert (0 < rowsM m) by nia. exists (n mod rowsM m), (n / rowsM m).
    split; [split; [apply Z.mod_pos_bound; lia|]|apply Z.div_mod; lia].
    split; [apply Z.div_pos; lia|]. apply Z.div_lt_upper_bound; lia.
Qed.
Print Assumptions C55_bijection.
Theorem C55_write_read : forall (T : Type) (m : mat T) r c x, good m -> inside m r c ->
  exists m', mat_set_rc m r c x = Ok m' /\ good m' /\ rowsM m' = rowsM m /\ colsM m' = colsM m /\
    mat_rc m' r c = Ok x /\
    forall r' c', inside m r' c' -> (r', c') <> (r, c) -> mat_rc m' r' c' = mat_rc m r' c'.
Proof.
  intros T m r c x G I. destruct (index_ok m r c G I) as (E & H). unfold mat_set_rc. rewrite E. cbn [bind].
  pose proof G as (A & C & D & F). unfold mat_capacity in D. unfold mat_set.
  rewrite store_ok by lia. cbn [bind]. eexists. split; [reflexivity|].
  assert (G' : good (mkMat (set_at (mem m) (Z.to_nat (rowsM m * c + r)) x) (rowsM m) (colsM m))).
  { unfold good, mat_capacity. cbn [mem rowsM colsM]. rewrite set_at_length. auto. }
  split; [exact G'|]. split; [reflexivity|]. split; [reflexivity|].
  assert (Q : forall r' c', inside m r' c' -> mat_rc (mkMat (set_at (mem m) (Z.to_nat (rowsM m * c + r)) x) (rowsM m) (colsM m)) r' c'
              = get_at (set_at (mem m) (Z.to_nat (rowsM m * c + r)) x) (rowsM m * c' + r')).
  { intros r' c' I'. unfold mat_rc. rewrite (proj1 (index_ok _ r' c' G' I')). reflexivity. }
  split; [rewrite Q by exact I; apply get_set_same; lia|].
  intros r' c' I' N. rewrite Q by exact I'. unfold mat_rc. rewrite (proj1 (index_ok m r' c' G I')). cbn [bind].
  apply get_set_other; [lia|]. intros EQ. apply N.
  destruct (proj1 (C55_bijection T m G) r' c' r c I' I EQ) as (-> & ->). reflexivity.
Qed.
Print Assumptions C55_write_read.
Lemma fill_spec {T} (x : T) n : forall a, Z.of_nat n <= Z.of_nat (length a) ->
  exists a', fill_upto a n x = Ok a' /\ length a' = length a /\
    (forall i, 0 <= i < Z.of_nat n -> get_at a' i = Ok x) /\ (forall i, Z.of_nat n <= i -> get_at a' i = get_at a i).
Proof.
  induction n as [|n IH]; intros a H; cbn [fill_upto].
  - exists a. repeat split; auto. intros i Hi. lia.
  - destruct (IH a ltac:(lia)) as (a' & E & L & Q1 & Q2). rewrite E. cbn [bind]. rewrite store_ok by lia.
    eexists. split; [reflexivity|]. split; [rewrite set_at_length; exact L|]. split.
    + intros i Hi. destruct (Z.eq_dec i (Z.of_nat n)) as [->|N]; [apply get_set_same; lia|].
      rewrite get_set_other by lia. apply Q1. lia.
    + intros i Hi. rewrite get_set_other by lia. apply Q2. lia.
Qed.
Theorem C55_fill : forall (T : Type) (m : mat T) x, good m ->
  exists m', mat_fill m x = Ok m' /\ good m' /\ rowsM m' = rowsM m /\ colsM m' = colsM m /\
    forall r c, inside m r c -> mat_rc m' r c = Ok x.
Proof.
  intros T m x G. pose proof G as (A & C & D & F). unfold mat_fill, mat_size.
  assert (P : 0 <= rowsM m * colsM m) by nia.
  rewrite iarith_ok by (unfold int_max in *; lia). cbn [bind].
  destruct (fill_spec x (Z.to_nat (rowsM m * colsM m)) (mem m)) as (a & E & L & Q & _); [unfold mat_capacity in D; lia|].
  rewrite E. cbn [bind]. eexists. split; [reflexivity|].
  assert (G' : good (mkMat a (rowsM m) (colsM m))) by (unfold good, mat_capacity; cbn [mem rowsM colsM]; rewrite L; auto).
  split; [exact G'|]. split; [reflexivity|]. split; [reflexivity|]. intros r c I.
  unfold mat_rc. destruct (index_ok _ r c G' I) as (-> & H). cbn [bind]. cbn [rowsM colsM] in *. apply Q. lia.
Qed.
Print Assumptions C55_fill.
(** The fixed-size class. *)
Theorem C55_fixed_size : forall (T : Type) (Rows Cols : Z) (a : list T) r c x,
  0 <= Rows -> 0 <= Cols -> Rows * Cols < two64 -> Z.of_nat (length a) = Rows * Cols -> 0 <= r < Rows -> 0 <= c < Cols ->
  fix_rc Rows Cols a r c = get_at a (Rows * c + r) /\
  exists a', fix_set_rc Rows Cols a r c x = Ok a' /\ length a' = length a /\ fix_rc Rows Cols a' r c = Ok x /\
    forall r' c', 0 <= r' < Rows -> 0 <= c' < Cols -> (r', c') <> (r, c) -> fix_rc Rows Cols a' r' c' = fix_rc Rows Cols a r' c'.
Proof.
  intros T Rows Cols a r c x HR HC HS HL Hr Hc.
  assert (W : forall r' c', 0 <= r' < Rows -> 0 <= c' < Cols ->
     wrap64 (wrap64 (Rows * c') + r') = Rows * c' + r' /\ 0 <= Rows * c' + r' < Rows * Cols).
  { intros r' c' H1 H2. assert (0 <= Rows * c') by nia. assert (Rows * c' + Rows <= Rows * Cols) by nia.
    rewrite (wrap64_small (Rows * c')) by lia. rewrite wrap64_small by lia. lia. }
  destruct (W r c Hr Hc) as (E & B). unfold fix_rc, fix_set_rc. rewrite E. split; [reflexivity|].
  rewrite store_ok by lia. eexists. split; [reflexivity|]. split; [apply set_at_length|].
  split; [apply get_set_same; lia|]. intros r' c' H1 H2 N. destruct (W r' c' H1 H2) as (E' & B'). rewrite E'.
  apply get_set_other; [lia|]. intros EQ. apply N. assert (c' = c) by nia. assert (r' = r) by nia. congruence.
Qed.
Print Assumptions C55_fixed_size.
Example C55_example : good (mkMat [1; 2; 3; 4; 5; 6; 7] 2 3) /\ inside (mkMat [1; 2; 3; 4; 5; 6; 7] 2 3) 1 2 /\
  mat_rc (mkMat [1; 2; 3; 4; 5; 6; 7] 2 3) 1 2 = Ok 6.
Proof. split; [unfold good, mat_capacity, int_max; cbn; lia|]. split; [unfold inside; cbn; lia|reflexivity]. Qed.

(** * C56 *)
Theorem C56_resize : forall (T : Type) (dflt : T) (m : mat T) r c,
  good m -> 0 <= r -> 0 <= c -> r * c <= int_max ->
  exists m', mat_resize dflt m r c = Ok m' /\ good m' /\ rowsM m' = r /\ colsM m' = c /\
    (r * c <= mat_capacity m -> forall n, mat_at m' n = mat_at m n) /\
    (mat_capacity m < r * c -> mat_capacity m' = r * c /\ forall r' c', inside m' r' c' -> mat_rc m' r' c' = Ok dflt).
Proof.
  intros T dflt m r c G Hr Hc HS. pose proof G as (A & C & D & F). unfold mat_resize, mat_size.
  assert (P0 : 0 <= rowsM m * colsM m) by nia. assert (P1 : 0 <= r * c) by nia.
  rewrite !iarith_ok by (unfold int_max in *; lia). cbn [bind].
  destruct (Z.ltb_spec (mat_capacity m) (r * c)) as [L|L].
  - destruct (Z.eqb_spec (r * c) (rowsM m * colsM m)); [lia|]. cbn [negb andb]. eexists. split; [reflexivity|].
    assert (LL : Z.of_nat (length (repeat dflt (Z.to_nat (r * c)))) = r * c) by (rewrite repeat_length; lia).
    assert (G' : good (mkMat (repeat dflt (Z.to_nat (r * c))) r c)) by (unfold good, mat_capacity; cbn [mem rowsM colsM]; rewrite LL; lia).
    split; [exact G'|]. split; [reflexivity|]. split; [reflexivity|]. split; [lia|]. intros _.
    split; [exact LL|]. intros r' c' I. unfold mat_rc. destruct (index_ok _ r' c' G' I) as (-> & H). cbn [bind]. cbn [rowsM colsM] in *.
    unfold mat_at. destruct (get_at_in (repeat dflt (Z.to_nat (r * c))) (r * c' + r')) as (x & E & N); [rewrite LL; exact H|].
    cbn [mem]. rewrite E. apply nth_error_In, repeat_spec in N. congruence.
  - rewrite andb_false_r. eexists. split; [reflexivity|]. split; [unfold good, mat_capacity in *; cbn [mem rowsM colsM]; lia|].
    split; [reflexivity|]. split; [reflexivity|]. split; [reflexivity|lia].
Qed.
Print Assumptions C56_resize.
(** Everything a program can do with a dynamic matrix. *)
Inductive mreach {T} (dflt : T) (garbage : Z -> list T) : mat T -> Prop :=
| mr_default : mreach dflt garbage mat_empty
| mr_make r c m : 0 <= r -> 0 <= c -> mat_make garbage r c = Ok m -> mreach dflt garbage m
| mr_move m : mreach dflt garbage m -> mreach dflt garbage (fst (mat_move m))
| mr_moved m : mreach dflt garbage m -> mreach dflt garbage (snd (mat_move m))
| mr_resize m r c m' : mreach dflt garbage m -> 0 <= r -> 0 <= c -> mat_resize dflt m r c = Ok m' -> mreach dflt garbage m'
| mr_reserve m s m' : mreach dflt garbage m -> mat_reserve garbage m s = Ok m' -> mreach dflt garbage m'
| mr_set m n x m' : mreach dflt garbage m -> mat_set m n x = Ok m' -> mreach dflt garbage m'
| mr_fill m x m' : mreach dflt garbage m -> mat_fill m x = Ok m' -> mreach dflt garbage m'
| mr_from m a r c m' : mreach dflt garbage m -> 0 <= r -> 0 <= c -> Z.of_nat (length a) = r * c -> mat_from dflt m a r c = Ok m' ->
    mreach dflt garbage m'.
Lemma memcpy_length {T} (d s a : list T) n : memcpy d s n = Ok a -> length a = length d.
Proof.
  unfold memcpy. destruct (Z.leb_spec n (Z.of_nat (length d))), (Z.leb_spec n (Z.of_nat (length s))); cbn [andb]; intros E; try discriminate.
  assert (a = firstn (Z.to_nat n) s ++ skipn (Z.to_nat n) d) as -> by congruence.
  rewrite app_length, firstn_length, skipn_length. lia.
Qed.
Theorem C56_storage_invariant : forall (T : Type) (dflt : T) garbage (m : mat T),
  memory_of garbage -> mreach dflt garbage m -> good m.
Proof.
  intros T dflt garbage m Hg. assert (Ge : good (mat_empty (T:=T))) by (unfold good, mat_capacity, int_max; cbn; lia).
  induction 1 as [|r c m Hr Hc E|m _ IH|m _ IH|m r c m' _ IH Hr Hc E|m s m' _ IH E|m n x m' _ IH E|m x m' _ IH E|m a r c m' _ IH Hr Hc L E].
  - exact Ge.
  - unfold mat_make in E. apply bind_Ok in E. destruct E as (n & E1 & E). apply iarith_Ok in E1. destruct E1 as (-> & B).
    destruct (Z.ltb_spec (r * c) 0); [discriminate|]. assert (m = mkMat (garbage (r * c)) r c) as -> by congruence.
    unfold good, mat_capacity. cbn [mem rowsM colsM]. rewrite Hg by lia. lia.
  - exact IH.
  - exact Ge.
  - pose proof E as E'. unfold mat_resize in E'. apply bind_Ok in E'. destruct E' as (n & E1 & _). apply iarith_Ok in E1.
    destruct (C56_resize T dflt m r c IH Hr Hc ltac:(lia)) as (m1 & E2 & G & _). congruence.
  - unfold mat_reserve in E. destruct (Z.leb_spec (mat_capacity m) s); [congruence|]. destruct (Z.ltb_spec s 0); [discriminate|].
    apply bind_Ok in E. destruct E as (a & Ea & E). unfold memcpy in Ea. rewrite Hg in Ea by lia.
    destruct (Z.leb_spec (mat_capacity m) s); [lia|]. discriminate.
  - unfold mat_set in E. apply bind_Ok in E. destruct E as (a & Ea & E). assert (m' = mkMat a (rowsM m) (colsM m)) as -> by congruence.
    unfold good, mat_capacity in *. cbn [mem rowsM colsM]. rewrite (store_length _ _ _ _ Ea). exact IH.
  - destruct (C55_fill T m x IH) as (m1 & E1 & G & _). congruence.
  - unfold mat_from in E. apply bind_Ok in E. destruct E as (m1 & E1 & E). apply bind_Ok in E. destruct E as (b & Eb & E).
    assert (m' = mkMat b r c) as -> by congruence.
    pose proof E1 as E'. unfold mat_resize in E'. apply bind_Ok in E'. destruct E' as (n & En & _). apply iarith_Ok in En.
    destruct (C56_resize T dflt m r c IH Hr Hc ltac:(lia)) as (m2 & E2 & G & R1 & R2 & _). assert (m2 = m1) as -> by congruence.
    unfold good, mat_capacity in *. cbn [mem rowsM colsM]. rewrite (memcpy_length _ _ _ _ Eb). rewrite R1, R2 in G. exact G.
Qed.
Print Assumptions C56_storage_invariant.
(** Assigning a matrix of another class copies shape and contents. *)
Theorem C56_assign_from : forall (T : Type) (dflt : T) (m : mat T) (a : list T) r c,
  good m -> 0 <= r -> 0 <= c -> r * c <= int_max -> Z.of_nat (length a) = r * c ->
  exists m', mat_from dflt m a r c = Ok m' /\ good m' /\ rowsM m' = r /\ colsM m' = c /\
    forall i x, nth_error a i = Some x -> mat_at m' (Z.of_nat i) = Ok x.
Proof.
  intros T dflt m a r c G Hr Hc HS L. destruct (C56_resize T dflt m r c G Hr Hc HS) as (m1 & E1 & G1 & R1 & R2 & _).
  unfold mat_from. rewrite E1. cbn [bind]. pose proof G1 as (A & C & D & F). rewrite R1, R2 in D. unfold mat_capacity in D.
  unfold memcpy. destruct (Z.leb_spec (Z.of_nat (length a)) (Z.of_nat (length (mem m1)))); [|lia]. rewrite Z.leb_refl. cbn [andb bind].
  eexists. split; [reflexivity|]. rewrite Nat2Z.id, firstn_all.
  split; [unfold good, mat_capacity in *; cbn [mem rowsM colsM]; rewrite app_length, skipn_length; lia|].
  split; [reflexivity|]. split; [reflexivity|]. intros i x Hi. unfold mat_at, get_at. cbn [mem].
  assert (i < length a)%nat by (apply nth_error_Some; congruence).
  destruct (Z.ltb_spec (Z.of_nat i) 0); [lia|]. rewrite Nat2Z.id, nth_error_app1 by assumption. rewrite Hi. reflexivity.
Qed.
Print Assumptions C56_assign_from.
Lemma first_part {T} (l : list T) : forall n i, (i < n)%nat -> nth_error (firstn n l) i = nth_error l i.
Proof. induction l as [|x l IH]; intros [|n] [|i] H; cbn; try reflexivity; try lia. apply IH. lia. Qed.
(** A fixed-size matrix can be resized to its own size only, and takes the
    elements of a dynamic matrix of its own size only. *)
Theorem C56_fixed_size : forall (T : Type) (Rows Cols : Z) (a : list T),
  0 <= Rows -> 0 <= Cols -> Rows * Cols <= int_max -> Z.of_nat (length a) = Rows * Cols ->
  (forall r c, (r = Rows /\ c = Cols -> fix_resize Rows Cols r c = Ok tt) /\
               (~ (r = Rows /\ c = Cols) -> fix_resize Rows Cols r c = Abort)) /\
  (forall m : mat T, good m ->
     (rowsM m = Rows /\ colsM m = Cols -> exists a', fix_from Rows Cols a m = Ok a' /\ length a' = length a /\
        forall r c, 0 <= r < Rows -> 0 <= c < Cols -> fix_rc Rows Cols a' r c = mat_rc m r c) /\
     (~ (rowsM m = Rows /\ colsM m = Cols) -> fix_from Rows Cols a m = Abort)).
Proof.
  intros T Rows Cols a HR HC HS HL. split.
  - intros r c. unfold fix_resize. destruct (Z.eqb_spec r Rows), (Z.eqb_spec c Cols); cbn [andb]; split; intros; tauto || reflexivity.
  - intros m Gm. pose proof Gm as (A & C & D & F). unfold fix_from. destruct (Z.eqb_spec Rows (rowsM m)) as [E1|E1], (Z.eqb_spec Cols (colsM m)) as [E2|E2]; cbn [andb].
    2-4: split; intros Q; try reflexivity; exfalso; intuition congruence.
    split; [intros _|intros Q; exfalso; apply Q; split; congruence].
    unfold mat_size. rewrite <- E1, <- E2. assert (0 <= Rows * Cols) by nia. rewrite iarith_ok by (unfold int_max in *; lia). cbn [bind].
    rewrite <- E1, <- E2 in D. unfold memcpy. unfold mat_capacity in D.
    destruct (Z.leb_spec (Rows * Cols) (Z.of_nat (length a))); [|lia]. destruct (Z.leb_spec (Rows * Cols) (Z.of_nat (length (mem m)))); [|lia]. cbn [andb].
    eexists. split; [reflexivity|]. split; [rewrite app_length, firstn_length, skipn_length; lia|].
    intros r c Hr Hc. assert (I : inside m r c) by (unfold inside; rewrite <- E1, <- E2; auto).
    unfold mat_rc. destruct (index_ok m r c Gm I) as (-> & B). cbn [bind]. rewrite <- E1 in B |- *. rewrite <- E2 in B.
    assert (0 <= Rows * c) by nia. assert (Rows * c + Rows <= Rows * Cols) by nia. unfold fix_rc, int_max in *.
    rewrite (wrap64_small (Rows * c)) by (unfold two64; lia). rewrite wrap64_small by (unfold two64; lia).
    unfold mat_at, get_at. destruct (Z.ltb_spec (Rows * c + r) 0); [lia|].
    rewrite nth_error_app1 by (rewrite firstn_length; lia). rewrite first_part by lia. reflexivity.
Qed.
Print Assumptions C56_fixed_size.
(** Refuted: reserve never increases the capacity, and when asked for less it
    writes past the new array. *)
Theorem C56_reserve_refuted : forall (T : Type) garbage (m : mat T) s, memory_of garbage ->
  (mat_capacity m <= s -> mat_reserve garbage m s = Ok m) /\
  (0 <= s < mat_capacity m -> mat_reserve garbage m s = UB).
Proof.
  intros T garbage m s Hg. unfold mat_reserve. split; intros H.
  - destruct (Z.leb_spec (mat_capacity m) s); [reflexivity|lia].
  - destruct (Z.leb_spec (mat_capacity m) s); [lia|]. destruct (Z.ltb_spec s 0); [lia|].
    unfold memcpy. rewrite Hg by lia. destruct (Z.leb_spec (mat_capacity m) s); [lia|]. reflexivity.
Qed.
Print Assumptions C56_reserve_refuted.
Example C56_fixed_example : fix_from 2 2 [0; 0; 0; 0] (mkMat [1; 2; 3; 4; 5] 2 2) = Ok [1; 2; 3; 4] /\ fix_rc 2 2 [1; 2; 3; 4] 0 1 = Ok 3 /\
  fix_from 2 2 [0; 0; 0; 0] (mkMat [1; 2; 3; 4; 5] 4 1) = Abort.
Proof. repeat split; reflexivity. Qed.
Example C56_example : exists m, mat_resize 0 (mkMat [1; 2; 3; 4] 2 2) 3 2 = Ok m /\ mem m = [0; 0; 0; 0; 0; 0] /\
  exists m', mat_resize 0 (mkMat [1; 2; 3; 4] 2 2) 1 3 = Ok m' /\ mat_rc m' 0 1 = Ok 2.
Proof. eexists. split; [reflexivity|]. split; [reflexivity|]. eexists. split; reflexivity. Qed.

(** * C57 *)
(** A map sees the memory it was given; (r,c) is element rows*c + r of it. *)
Definition map_fits {T} (a : list T) (s : mmap) : Prop :=
  0 <= base s /\ 0 <= mrows s /\ 0 <= mcols s /\ mrows s * mcols s < two64 /\ base s + mrows s * mcols s <= Z.of_nat (length a).
Lemma map_index {T} (a : list T) s r c : map_fits a s -> 0 <= r < mrows s -> 0 <= c < mcols s ->
  wrap64 (wrap64 (mrows s * c) + r) = mrows s * c + r /\ 0 <= mrows s * c + r < mrows s * mcols s.
Proof.
  intros (A & B & C & D & E) Hr Hc. assert (0 <= mrows s * c) by nia. assert (mrows s * c + mrows s <= mrows s * mcols s) by nia.
  rewrite (wrap64_small (mrows s * c)) by lia. rewrite wrap64_small by lia. lia.
Qed.
(** Writing through a map, or through any copy of it, is writing the memory. *)
Theorem C57_map_aliases : forall (T : Type) (a : list T) (s : mmap) r c x,
  map_fits a s -> 0 <= r < mrows s -> 0 <= c < mcols s ->
  exists a', map_set_rc a s r c x = Ok a' /\ length a' = length a /\
    map_rc a' (map_copy s) r c = Ok x /\ get_at a' (base s + (mrows s * c + r)) = Ok x /\
    forall k, k <> base s + (mrows s * c + r) -> get_at a' k = get_at a k.
Proof.
  intros T a s r c x F Hr Hc. destruct (map_index a s r c F Hr Hc) as (W & B). pose proof F as (A & _ & _ & _ & E).
  unfold map_set_rc, map_rc, map_set, map_at, map_copy. rewrite W. rewrite store_ok by lia. eexists. split; [reflexivity|].
  split; [apply set_at_length|]. split; [apply get_set_same; lia|]. split; [apply get_set_same; lia|].
  intros k Hk. apply get_set_other; lia.
Qed.
Print Assumptions C57_map_aliases.
Lemma copy_loop_spec {T} (src dst : mmap) N n : forall (a : list T) k,
  0 <= k -> k + Z.of_nat n = N ->
  0 <= base src -> 0 <= base dst -> base src + N <= Z.of_nat (length a) -> base dst + N <= Z.of_nat (length a) ->
  (base dst <= base src \/ base src + N <= base dst) ->
  exists a', copy_loop a src dst k n = Ok a' /\ length a' = length a /\
    (forall i, k <= i < N -> get_at a' (base dst + i) = get_at a (base src + i)) /\
    (forall j, (j < base dst + k \/ base dst + N <= j) -> get_at a' j = get_at a j).
Proof.
  induction n as [|n IH]; intros a k Hk HN B1 B2 R1 R2 Hd; cbn [copy_loop].
  - exists a. split; [reflexivity|]. split; [reflexivity|]. split; [intros; lia|reflexivity].
  - unfold map_at, map_set. destruct (get_at_in a (base src + k) ltac:(lia)) as (x & Ex & _). rewrite Ex. cbn [bind].
    rewrite store_ok by lia. cbn [bind].
    destruct (IH (set_at a (Z.to_nat (base dst + k)) x) (k + 1)) as (a' & E & L & Q1 & Q2); rewrite ?set_at_length; try lia.
    exists a'. split; [exact E|]. split; [rewrite L; apply set_at_length|]. split.
    + intros i Hi. destruct (Z.eq_dec i k) as [->|Ni].
      * rewrite Q2 by lia. rewrite get_set_same by lia. congruence.
      * rewrite Q1 by lia. rewrite get_set_other by lia. reflexivity.
    + intros j Hj. rewrite Q2 by lia. apply get_set_other; lia.
Qed.
(** deepCopyTo and operator= copy shape and contents into the other map's
    memory, and change nothing else; the target must have room and must not start
    inside the source. *)
Theorem C57_deep_copy : forall (T : Type) (a : list T) (src dst : mmap),
  map_fits a src -> map_fits a (map_resize dst (mrows src) (mcols src)) ->
  (base dst <= base src \/ base src + mrows src * mcols src <= base dst) ->
  exists a' dst', deepCopyTo a src dst = Ok (a', dst') /\ map_assign a dst src = Ok (a', dst') /\
    length a' = length a /\ base dst' = base dst /\ mrows dst' = mrows src /\ mcols dst' = mcols src /\
    (forall i, 0 <= i < mrows src * mcols src -> map_at a' dst' i = map_at a src i) /\
    (forall r c, 0 <= r < mrows src -> 0 <= c < mcols src -> map_rc a' dst' r c = map_rc a src r c) /\
    (forall j, j < base dst \/ base dst + mrows src * mcols src <= j -> get_at a' j = get_at a j).
Proof.
  intros T a src dst F (D1 & D2 & D3 & D4 & D5) Hd. pose proof F as (S1 & S2 & S3 & S4 & S5). cbn [map_resize base mrows mcols] in *.
  assert (P : 0 <= mrows src * mcols src) by nia.
  destruct (copy_loop_spec src (mkMap (base dst) (mrows src) (mcols src)) (mrows src * mcols src) (Z.to_nat (mrows src * mcols src)) a 0)
    as (a' & E & L & Q1 & Q2); cbn [base]; try lia.
  exists a', (mkMap (base dst) (mrows src) (mcols src)).
  assert (E' : deepCopyTo a src dst = Ok (a', mkMap (base dst) (mrows src) (mcols src))).
  { unfold deepCopyTo, map_size. rewrite wrap64_small by lia. rewrite E. reflexivity. }
  split; [exact E'|]. split; [exact E'|]. split; [exact L|]. split; [reflexivity|]. split; [reflexivity|]. split; [reflexivity|].
  cbn [base] in *. split; [intros i Hi; unfold map_at; cbn [base]; apply Q1; lia|]. split.
  - intros r c Hr Hc. unfold map_rc. cbn [mrows]. destruct (map_index a src r c F Hr Hc) as (-> & B). unfold map_at. cbn [base]. apply Q1. lia.
  - intros j Hj. apply Q2. lia.
Qed.
Print Assumptions C57_deep_copy.
(** If the target starts inside the source, the contents are not copied. *)
Theorem C57_overlap_refuted : exists a', deepCopyTo [1; 2; 3; 4] (mkMap 0 3 1) (mkMap 1 3 1) = Ok (a', mkMap 1 3 1) /\
  map_at a' (mkMap 1 3 1) 2 = Ok 1 /\ map_at [1; 2; 3; 4] (mkMap 0 3 1) 2 = Ok 3.
Proof. eexists. split; [reflexivity|]. split; reflexivity. Qed.
Print Assumptions C57_overlap_refuted.
Example C57_example : map_fits [1; 2; 3; 4; 5; 6; 7; 8] (mkMap 0 2 2) /\
  map_fits [1; 2; 3; 4; 5; 6; 7; 8] (map_resize (mkMap 4 4 1) 2 2) /\
  deepCopyTo [1; 2; 3; 4; 5; 6; 7; 8] (mkMap 0 2 2) (mkMap 4 4 1) = Ok ([1; 2; 3; 4; 1; 2; 3; 4], mkMap 4 2 2).
Proof. unfold map_fits, two64. cbn [map_resize base mrows mcols length]. split; [lia|]. split; [lia|reflexivity]. Qed.
