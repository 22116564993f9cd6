(** C103: matrices whose elements are objects of class type. *)
From Coq Require Import String List Arith ZArith Bool Lia.
From Verif Require Import Props_Matrix.
From Verif Require Import Base Box BoxProofs Matrix MatObj.
Import ListNotations.
Open Scope Z_scope.

(** * Specification *)
(** All cells hold objects, with the values vs; the shape is within the capacity. *)
Definition alive {T} (m : cmat T) (vs : list T) : Prop :=
  cells m = map Some vs /\ 0 <= crows m /\ 0 <= ccols m /\ crows m * ccols m <= Z.of_nat (length vs) <= int_max.
(** A call with arguments in range that needs no more room than there is. *)
Definition fits {T} (m : cmat T) (h : ccall T) : Prop :=
  match h with
  | CSet n _ => 0 <= n < crows m * ccols m
  | CSetRC r c _ => 0 <= r < crows m /\ 0 <= c < ccols m
  | CFill _ => True
  | CResize r c => 0 <= r /\ 0 <= c /\ r * c <= c_capacity m
  | CReserve s => c_capacity m <= s
  | CCopy src => (exists vs : list T, alive src vs) /\ crows src * ccols src <= c_capacity m
  | CFrom src r c => 0 <= r /\ 0 <= c /\ r * c = Z.of_nat (length src) /\ r * c <= c_capacity m
  end.
(** What the call does, element by element (c_at m n is m[n]). *)
Definition same_elements {T} (m m' : cmat T) (except : Z -> Prop) : Prop :=
  forall n, 0 <= n < c_capacity m -> ~ except n -> c_at m' n = c_at m n.
Definition effect {T} (m : cmat T) (h : ccall T) (m' : cmat T) : Prop :=
  c_capacity m' = c_capacity m /\
  match h with
  | CSet k x => crows m' = crows m /\ ccols m' = ccols m /\ c_at m' k = Ok x /\ same_elements m m' (fun n => n = k)
  | CSetRC r c x => crows m' = crows m /\ ccols m' = ccols m /\ c_rc m' r c = Ok x /\ same_elements m m' (fun n => n = crows m * c + r)
  | CFill x => crows m' = crows m /\ ccols m' = ccols m /\ (forall n, 0 <= n < crows m * ccols m -> c_at m' n = Ok x) /\ same_elements m m' (fun n => n < crows m * ccols m)
  | CResize r c => crows m' = r /\ ccols m' = c /\ same_elements m m' (fun _ => False)
  | CReserve _ => m' = m
  | CCopy src => crows m' = crows src /\ ccols m' = ccols src /\ (forall n, 0 <= n < crows src * ccols src -> c_at m' n = c_at src n) /\
      same_elements m m' (fun n => n < crows src * ccols src)
  | CFrom src r c => crows m' = r /\ ccols m' = c /\ (forall n, 0 <= n < r * c -> c_at m' n = get_at src n) /\ same_elements m m' (fun n => n < r * c)
  end.

(** * Lemmas *)
Lemma get_map {A B} (f : A -> B) (l : list A) i : 0 <= i < Z.of_nat (length l) -> exists x, nth_error l (Z.to_nat i) = Some x /\ get_at l i = Ok x /\ get_at (map f l) i = Ok (f x).
Proof.
  intros H. destruct (get_at_in l i H) as (x & E & N). exists x. split; [exact N|]. split; [exact E|]. unfold get_at. destruct (Z.ltb_spec i 0); [lia|]. rewrite nth_error_map, N. reflexivity.
Qed.
Lemma set_map {A B} (f : A -> B) (l : list A) : forall i x, set_at (map f l) i (f x) = map f (set_at l i x).
Proof. induction l as [|a l IH]; intros [|i] x; cbn; try reflexivity. f_equal. apply IH. Qed.
Lemma cread_alive {T} (vs : list T) i : 0 <= i < Z.of_nat (length vs) -> cread (map Some vs) i = get_at vs i.
Proof. intros H. destruct (get_map Some vs i H) as (x & _ & E1 & E2). unfold cread. rewrite E2, E1. reflexivity. Qed.
Lemma cassign_alive {T} (vs : list T) i x : 0 <= i < Z.of_nat (length vs) -> cassign (map Some vs) i x = Ok (map Some (set_at vs (Z.to_nat i) x)).
Proof.
  intros H. destruct (get_map Some vs i H) as (y & _ & _ & E). unfold cassign. rewrite E. cbn [bind]. rewrite store_ok by (rewrite map_length; exact H). rewrite set_map. reflexivity.
Qed.
(** A loop that assigns g i to element i. *)
Lemma cloop_assign {T} (f : Z -> res T) (n : nat) : forall vs : list T, (n <= length vs)%nat -> (forall i, 0 <= i < Z.of_nat n -> exists x, f i = Ok x) ->
  exists vs', cloop (fun i a => do x <- f i; cassign a i x) n (map Some vs) = Ok (map Some vs') /\ length vs' = length vs /\
    (forall i, 0 <= i < Z.of_nat n -> get_at vs' i = f i) /\ (forall i, Z.of_nat n <= i -> get_at vs' i = get_at vs i).
Proof.
  induction n as [|n IH]; intros vs L H.
  - exists vs. cbn. split; [reflexivity|]. split; [reflexivity|]. split; [intros; lia|reflexivity].
  - destruct (IH vs ltac:(lia)) as (v1 & E & L1 & Q1 & Q2); [intros i Hi; apply H; lia|]. cbn [cloop]. rewrite E. cbn [bind].
    destruct (H (Z.of_nat n) ltac:(lia)) as (x & Ex). rewrite Ex. cbn [bind]. rewrite cassign_alive by lia. eexists. split; [reflexivity|]. split; [rewrite set_at_length; exact L1|]. split.
    + intros i Hi. destruct (Z.eq_dec i (Z.of_nat n)) as [->|N]; [rewrite get_set_same by lia; congruence|]. rewrite get_set_other by lia. apply Q1. lia.
    + intros i Hi. rewrite get_set_other by lia. apply Q2. lia.
Qed.
Lemma cloop_ext {A} (f g : Z -> A -> res A) n a : (forall i b, f i b = g i b) -> cloop f n a = cloop g n a.
Proof. intros H. induction n as [|n IH]; [reflexivity|]. cbn. rewrite IH. destruct (cloop g n a); cbn; auto. Qed.
Lemma alive_at {T} (m : cmat T) vs n : alive m vs -> 0 <= n < c_capacity m -> c_at m n = get_at vs n.
Proof. intros (E & _) H. unfold c_at. rewrite E. apply cread_alive. unfold c_capacity in H. rewrite E, map_length in H. exact H. Qed.
Lemma alive_cap {T} (m : cmat T) vs : alive m vs -> c_capacity m = Z.of_nat (length vs).
Proof. intros (E & _). unfold c_capacity. rewrite E, map_length. reflexivity. Qed.
Lemma alive_size {T} (m : cmat T) vs : alive m vs -> c_size m = Ok (crows m * ccols m) /\ 0 <= crows m * ccols m.
Proof. intros (_ & A & B & C & D). assert (0 <= crows m * ccols m) by nia. split; [|assumption]. unfold c_size. apply iarith_ok. lia. Qed.
Lemma alive_resize {T} (m : cmat T) vs r c : alive m vs -> 0 <= r -> 0 <= c -> r * c <= c_capacity m -> c_resize m r c = Ok (mkC (cells m) r c) /\ alive (mkC (cells m) r c) vs.
Proof.
  intros A Hr Hc H. destruct (alive_size m vs A) as (S & _). pose proof (alive_cap m vs A) as K. destruct A as (E & _ & _ & _ & D). unfold c_resize. assert (0 <= r * c) by nia. rewrite iarith_ok by lia. cbn [bind].
  rewrite S. cbn [bind]. destruct (Z.ltb_spec (c_capacity m) (r * c)); [lia|]. rewrite andb_false_r. split; [reflexivity|]. split; [exact E|]. cbn [crows ccols]. split; [exact Hr|]. split; [exact Hc|lia].
Qed.
Lemma alive_mk {T} (m : cmat T) (vs vs' : list T) : alive m vs -> length vs' = length vs -> alive (mkC (map Some vs') (crows m) (ccols m)) vs'.
Proof. intros (_ & A & B & C & D) L. split; [reflexivity|]. cbn [crows ccols]. rewrite L. auto. Qed.
Lemma cap_mk {T} (m : cmat T) (vs vs' : list T) r c : alive m vs -> length vs' = length vs -> c_capacity (mkC (map Some vs') r c) = c_capacity m.
Proof. intros A L. rewrite (alive_cap m vs A). unfold c_capacity. cbn [cells]. rewrite map_length. lia. Qed.
Lemma at_mk {T} (vs : list T) r c n : 0 <= n < Z.of_nat (length vs) -> c_at (mkC (map Some vs) r c) n = get_at vs n.
Proof. intros H. apply cread_alive. exact H. Qed.

(** * C103 *)
(** While no more room is needed than was allocated, every call is defined, does
    what it says and leaves an object in every cell. *)
Theorem C103_within_capacity : forall (T : Type) (m : cmat T) vs h, alive m vs -> fits m h ->
  exists m' vs', cstep m h = Ok m' /\ alive m' vs' /\ effect m h m'.
Proof.
  intros T m vs h A F. pose proof (alive_cap m vs A) as K. destruct (alive_size m vs A) as (SZ & P). pose proof A as (E & R0 & C0 & D1 & D2).
  assert (ST : forall n x, 0 <= n < c_capacity m -> exists vs', c_set m n x = Ok (mkC (map Some vs') (crows m) (ccols m)) /\ length vs' = length vs /\ get_at vs' n = Ok x /\ (forall k, k <> n -> get_at vs' k = get_at vs k)).
  { intros n x Hn. exists (set_at vs (Z.to_nat n) x). unfold c_set. rewrite E, cassign_alive by lia. cbn [bind]. split; [reflexivity|]. split; [apply set_at_length|]. split; [apply get_set_same; lia|]. intros k Hk. apply get_set_other; [lia|exact Hk]. }
  destruct h as [n x|r c x|x|r c|s|src|src r c]; cbn [cstep fits effect] in *.
  - destruct (ST n x ltac:(lia)) as (vs' & Es & L & G1 & G2). exists (mkC (map Some vs') (crows m) (ccols m)), vs'. split; [exact Es|]. split; [exact (alive_mk m vs vs' A L)|].
    split; [exact (cap_mk m vs vs' _ _ A L)|]. split; [reflexivity|]. split; [reflexivity|]. split; [rewrite at_mk by lia; exact G1|].
    intros k Hk Nk. rewrite at_mk by lia. rewrite (alive_at m vs k A Hk). exact (G2 k Nk).
  - destruct F as (Hr & Hc). assert (I1 : 0 <= crows m * c) by nia. assert (I2 : crows m * c + crows m <= crows m * ccols m) by nia.
    assert (EI : c_index m r c = Ok (crows m * c + r)) by (unfold c_index; rewrite iarith_ok by lia; cbn [bind]; apply iarith_ok; lia).
    destruct (ST (crows m * c + r) x ltac:(lia)) as (vs' & Es & L & G1 & G2). exists (mkC (map Some vs') (crows m) (ccols m)), vs'. split; [unfold c_set_rc; rewrite EI; exact Es|]. split; [exact (alive_mk m vs vs' A L)|].
    split; [exact (cap_mk m vs vs' _ _ A L)|]. split; [reflexivity|]. split; [reflexivity|]. split; [|intros k Hk Nk; rewrite at_mk by lia; rewrite (alive_at m vs k A Hk); exact (G2 k Nk)].
    unfold c_rc. change (c_index (mkC (map Some vs') (crows m) (ccols m)) r c) with (c_index m r c). rewrite EI. cbn [bind]. rewrite at_mk by lia. exact G1.
  - destruct (cloop_assign (fun _ => Ok x) (Z.to_nat (crows m * ccols m)) vs ltac:(lia)) as (vs' & El & L & G1 & G2); [intros; eauto|].
    exists (mkC (map Some vs') (crows m) (ccols m)), vs'. split. { unfold c_fill. rewrite SZ. cbn [bind]. rewrite E. rewrite (cloop_ext _ (fun i a => do y <- Ok x; cassign a i y)) by reflexivity. rewrite El. reflexivity. }
    split; [exact (alive_mk m vs vs' A L)|]. split; [exact (cap_mk m vs vs' _ _ A L)|]. split; [reflexivity|]. split; [reflexivity|]. split; [intros k Hk; rewrite at_mk by lia; apply G1; lia|].
    intros k Hk Nk. rewrite at_mk by lia. rewrite (alive_at m vs k A Hk). apply G2. lia.
  - destruct F as (F1 & F2 & F3). destruct (alive_resize m vs r c A F1 F2 F3) as (Er & Ar). exists (mkC (cells m) r c), vs. split; [exact Er|]. split; [exact Ar|]. split; [reflexivity|]. split; [reflexivity|]. split; [reflexivity|]. intros k Hk _. reflexivity.
  - exists m, vs. split; [unfold c_reserve; destruct (Z.leb_spec (c_capacity m) s); [reflexivity|lia]|]. split; [exact A|]. split; reflexivity.
  - destruct F as ((ws & As) & F). pose proof (alive_cap src ws As) as Ks. destruct (alive_size src ws As) as (_ & Ps). destruct As as (Es & Rs & Cs & Ds1 & Ds2).
    destruct (alive_resize m vs (crows src) (ccols src) A Rs Cs F) as (Er & Ar). destruct (alive_size _ vs Ar) as (Sr & _). cbn [crows ccols] in Sr.
    destruct (cloop_assign (cread (cells src)) (Z.to_nat (crows src * ccols src)) vs ltac:(lia)) as (vs' & El & L & G1 & G2).
    { intros i Hi. rewrite Es, cread_alive by lia. destruct (get_at_in ws i ltac:(lia)) as (y & Ey & _). eauto. }
    exists (mkC (map Some vs') (crows src) (ccols src)), vs'. split. { unfold c_copy. rewrite Er. cbn [bind]. rewrite Sr. cbn [bind cells]. rewrite E, El. reflexivity. }
    split; [exact (alive_mk (mkC (cells m) (crows src) (ccols src)) vs vs' Ar L)|]. split; [exact (cap_mk m vs vs' _ _ A L)|]. split; [reflexivity|]. split; [reflexivity|]. split; [intros k Hk; rewrite at_mk by lia; rewrite G1 by lia; reflexivity|].
    intros k Hk Nk. rewrite at_mk by lia. rewrite (alive_at m vs k A Hk). apply G2. lia.
  - destruct F as (F1 & F2 & F3 & F4). destruct (alive_resize m vs r c A F1 F2 F4) as (Er & Ar).
    destruct (cloop_assign (get_at src) (length src) vs ltac:(lia)) as (vs' & El & L & G1 & G2). { intros i Hi. destruct (get_at_in src i ltac:(lia)) as (y & Ey & _). eauto. }
    exists (mkC (map Some vs') r c), vs'. split. { unfold c_from. rewrite Er. cbn [bind cells]. rewrite E, El. reflexivity. }
    split; [exact (alive_mk (mkC (cells m) r c) vs vs' Ar L)|]. split; [exact (cap_mk m vs vs' _ _ A L)|]. split; [reflexivity|]. split; [reflexivity|]. split; [intros k Hk; rewrite at_mk by lia; rewrite G1 by lia; reflexivity|].
    intros k Hk Nk. rewrite at_mk by lia. rewrite (alive_at m vs k A Hk). apply G2. lia.
Qed.
Print Assumptions C103_within_capacity.

Lemma construct_loop {T} (d : T) n : forall k w, (k <= n)%nat -> exists a, cloop (fun i (aw : list (option T) * ledger) => let (a, w) := aw in cconstruct d a i w) k (repeat None n, w) = Ok (a, mkLedger (made w + Z.of_nat k) (destroyed w)) /\
  a = (map Some (repeat d k) ++ repeat None (n - k))%list.
Proof.
  induction k as [|k IH]; intros w L.
  - exists (repeat None n). cbn. rewrite Nat.sub_0_r, Z.add_0_r. destruct w. auto.
  - destruct (IH w ltac:(lia)) as (a & E & Q). cbn [cloop]. rewrite E. cbn [bind]. unfold cconstruct.
    assert (LA : length a = n) by (subst a; rewrite app_length, map_length, !repeat_length; lia). rewrite store_ok by lia. cbn [bind made destroyed]. eexists. split; [do 3 f_equal; lia|].
    rewrite Nat2Z.id. subst a. clear E IH LA. replace (n - k)%nat with (S (n - S k)) by lia. generalize (n - S k)%nat as j. intros j.
    assert (G : forall (l : list (option T)) x y t, set_at (l ++ x :: t)%list (length l) y = (l ++ y :: t)%list) by (induction l; intros; cbn; [reflexivity|f_equal; auto]).
    specialize (G (map Some (repeat d k)) None (Some d) (repeat None j)). rewrite map_length, repeat_length in G. cbn [repeat]. rewrite G.
    change (d :: repeat d k)%list with (repeat d (S k)). replace (S k) with (k + 1)%nat by lia. rewrite repeat_app, map_app, <- app_assoc. reflexivity.
Qed.
Lemma destroy_loop {T} (vs : list T) n : forall w, (n <= length vs)%nat -> exists a, cloop (fun i (aw : list (option T) * ledger) => let (a, w) := aw in cdestroy a i w) n (map Some vs, w) = Ok (a, mkLedger (made w) (destroyed w + Z.of_nat n)) /\
  length a = length vs /\ (forall i, Z.of_nat n <= i -> get_at a i = get_at (map Some vs) i).
Proof.
  induction n as [|n IH]; intros w L.
  - exists (map Some vs). cbn. rewrite Z.add_0_r, map_length. destruct w. auto.
  - destruct (IH w ltac:(lia)) as (a & E & LA & Q). cbn [cloop]. rewrite E. cbn [bind]. unfold cdestroy. rewrite Q by lia. destruct (get_map Some vs (Z.of_nat n) ltac:(lia)) as (x & _ & _ & Ex). rewrite Ex. cbn [bind].
    rewrite store_ok by lia. cbn [bind made destroyed]. eexists. split; [do 3 f_equal; lia|]. split; [rewrite set_at_length; exact LA|]. intros i Hi. rewrite get_set_other by lia. apply Q. lia.
Qed.
Lemma make_alive {T} (d : T) r c w : 0 <= r -> 0 <= c -> r * c <= int_max ->
  exists m, c_make d r c w = Ok (m, mkLedger (made w + r * c) (destroyed w)) /\ alive m (repeat d (Z.to_nat (r * c))) /\ crows m = r /\ ccols m = c.
Proof.
  intros Hr Hc H. assert (0 <= r * c) by nia. destruct (construct_loop d (Z.to_nat (r * c)) (Z.to_nat (r * c)) w (le_n _)) as (a & E & Q). exists (mkC a r c). unfold c_make. rewrite iarith_ok by lia. cbn [bind].
  destruct (Z.ltb_spec (r * c) 0); [lia|]. rewrite E. cbn [bind]. rewrite Z2Nat.id by lia. split; [reflexivity|]. split; [|auto]. split; [rewrite Nat.sub_diag in Q; cbn [repeat] in Q; rewrite app_nil_r in Q; exact Q|].
  cbn [crows ccols]. rewrite repeat_length. lia.
Qed.
Lemma alive_destruct {T} (m : cmat T) vs w : alive m vs -> c_destruct m w = Ok (mkLedger (made w) (destroyed w + c_capacity m)).
Proof.
  intros A. pose proof (alive_cap m vs A) as K. destruct A as (E & _). unfold c_destruct. destruct (destroy_loop vs (length vs) w (le_n _)) as (a & Q & _). rewrite E, map_length. rewrite Q. cbn [bind]. rewrite K. reflexivity.
Qed.

(** Every call of a history finds its arguments in range and room enough. *)
Definition all_fit {T} (m : cmat T) (hist : list (ccall T)) : Prop := forall pre x post m1, hist = (pre ++ x :: post)%list -> cdrive m pre = Ok m1 -> fits m1 x.
Lemma drive_alive {T} hist : forall (m : cmat T) vs, alive m vs -> all_fit m hist -> exists m' vs', cdrive m hist = Ok m' /\ alive m' vs' /\ c_capacity m' = c_capacity m.
Proof.
  induction hist as [|x t IH]; intros m vs A F; [exists m, vs; auto|].
  destruct (C103_within_capacity T m vs x A (F [] x t m eq_refl eq_refl)) as (m1 & v1 & E & A1 & C1 & _). cbn [cdrive]. rewrite E. cbn [bind].
  destruct (IH m1 v1 A1) as (m' & v' & E' & A' & C'). { intros pre y post m2 Eq D. apply (F (x :: pre) y post m2); [rewrite Eq; reflexivity|]. cbn [cdrive]. rewrite E. exact D. }
  exists m', v'. split; [exact E'|]. split; [exact A'|congruence].
Qed.
(** A matrix made with r rows and c columns, used in any way that fits and then
    destroyed: nothing is undefined, and every object made is destroyed once. *)
Theorem C103_lifetime : forall (T : Type) (d : T) r c w hist, 0 <= r -> 0 <= c -> r * c <= int_max ->
  exists m w1, c_make d r c w = Ok (m, w1) /\ crows m = r /\ ccols m = c /\ (forall n, 0 <= n < r * c -> c_at m n = Ok d) /\
  (all_fit m hist -> exists m', cdrive m hist = Ok m' /\ c_destruct m' w1 = Ok (mkLedger (made w + r * c) (destroyed w + r * c))).
Proof.
  intros T d r c w hist Hr Hc H. destruct (make_alive d r c w Hr Hc H) as (m & E & A & R1 & C1). exists m. eexists. split; [exact E|]. split; [exact R1|]. split; [exact C1|]. assert (P : 0 <= r * c) by nia.
  assert (K : c_capacity m = r * c) by (rewrite (alive_cap m _ A), repeat_length; lia). split.
  - intros n Hn. rewrite (alive_at m _ n A) by lia. unfold get_at. destruct (Z.ltb_spec n 0); [lia|]. rewrite (nth_error_repeat d) by lia. reflexivity.
  - intros F. destruct (drive_alive hist m _ A F) as (m' & vs' & D & A' & C'). exists m'. split; [exact D|]. rewrite (alive_destruct m' vs' _ A'). cbn [made destroyed]. rewrite C', K. reflexivity.
Qed.
Print Assumptions C103_lifetime.
(** The same matrix given to another by the move constructor: the source is left
    empty and may be destroyed too. *)
Theorem C103_move : forall (T : Type) (m : cmat T) vs w, alive m vs ->
  fst (c_move m) = m /\ snd (c_move m) = c_empty /\ exists w1, c_destruct (snd (c_move m)) w = Ok w1 /\ c_destruct (fst (c_move m)) w1 = Ok (mkLedger (made w) (destroyed w + c_capacity m)).
Proof. intros T m vs w A. split; [reflexivity|]. split; [reflexivity|]. exists w. split; [reflexivity|exact (alive_destruct m vs w A)]. Qed.

(** ** Where it goes wrong *)
Lemma raw_get {T} n i : 0 <= i < Z.of_nat n -> get_at (repeat (None : option T) n) i = Ok None.
Proof. intros H. unfold get_at. destruct (Z.ltb_spec i 0); [lia|]. rewrite nth_error_repeat by lia. reflexivity. Qed.
Lemma cloop_ub {A} (f : Z -> A -> res A) n : forall a, (0 < n)%nat -> f 0 a = UB -> cloop f n a = UB.
Proof.
  induction n as [|n IH]; intros a L H; [lia|]. cbn [cloop]. destruct n as [|n]; [cbn; exact H|]. rewrite (IH a ltac:(lia) H). reflexivity.
Qed.
(** resize beyond the capacity gives a matrix without objects: reading, assigning,
    filling, copying into it and destroying it are all undefined, and the objects
    that were in it are never destroyed. *)
Theorem C103_growth_refuted : forall (T : Type) (m : cmat T) vs r c, alive m vs -> c_capacity m < r * c <= int_max ->
  exists m', cstep m (CResize r c) = Ok m' /\ crows m' = r /\ ccols m' = c /\ c_capacity m' = r * c /\
  (forall n, 0 <= n < r * c -> c_at m' n = UB) /\ (forall n x, 0 <= n < r * c -> c_set m' n x = UB) /\ (forall x, c_fill m' x = UB) /\
  (forall src ws, alive src ws -> 0 < crows src * ccols src <= r * c -> c_copy m' src = UB) /\ (forall w, c_destruct m' w = UB).
Proof.
  intros T m vs r c A H. destruct (alive_size m vs A) as (S & P). pose proof (alive_cap m vs A) as K. destruct A as (_ & _ & _ & D1 & D2).
  exists (mkC (repeat None (Z.to_nat (r * c))) r c). cbn [cstep crows ccols]. split.
  { unfold c_resize. rewrite iarith_ok by lia. cbn [bind]. rewrite S. cbn [bind]. destruct (Z.ltb_spec (c_capacity m) (r * c)); [|lia]. destruct (Z.eqb_spec (r * c) (crows m * ccols m)); [lia|]. reflexivity. }
  split; [reflexivity|]. split; [reflexivity|]. split; [unfold c_capacity; cbn [cells]; rewrite repeat_length; lia|].
  assert (AS : forall n x, 0 <= n < r * c -> cassign (repeat (None : option T) (Z.to_nat (r * c))) n x = UB) by (intros n x Hn; unfold cassign; rewrite raw_get by lia; reflexivity).
  split; [intros n Hn; unfold c_at, cread; cbn [cells]; rewrite raw_get by lia; reflexivity|].
  split; [intros n x Hn; unfold c_set; cbn [cells]; rewrite AS by lia; reflexivity|].
  split. { intros x. unfold c_fill, c_size. cbn [crows ccols cells]. rewrite iarith_ok by lia. cbn [bind]. rewrite cloop_ub; [reflexivity|lia|]. apply AS. lia. }
  split. { intros src ws As Hs. destruct (alive_size src ws As) as (Ss & Ps). destruct As as (Es & Rs & Cs & Ds1 & Ds2). unfold c_copy, c_resize. rewrite iarith_ok by lia. cbn [bind]. unfold c_size. cbn [crows ccols]. rewrite iarith_ok by lia. cbn [bind].
    unfold c_capacity. cbn [cells]. rewrite repeat_length. destruct (Z.ltb_spec (Z.of_nat (Z.to_nat (r * c))) (crows src * ccols src)); [lia|]. rewrite andb_false_r. cbn [bind crows ccols cells]. rewrite iarith_ok by lia. cbn [bind].
    rewrite cloop_ub; [reflexivity|lia|]. rewrite Es, cread_alive by lia. destruct (get_at_in ws 0 ltac:(lia)) as (y & Ey & _). rewrite Ey. cbn [bind]. apply AS. lia. }
  intros w. unfold c_destruct. cbn [cells]. rewrite repeat_length, cloop_ub; [reflexivity|lia|]. unfold cdestroy. rewrite raw_get by lia. reflexivity.
Qed.
Print Assumptions C103_growth_refuted.
(** So resize and destruction are defined exactly within the capacity. *)
Theorem C103_resize_exactly : forall (T : Type) (m : cmat T) vs r c w, alive m vs -> 0 <= r -> 0 <= c -> r * c <= int_max ->
  ((exists m' w', c_resize m r c = Ok m' /\ c_destruct m' w = Ok w') <-> r * c <= c_capacity m).
Proof.
  intros T m vs r c w A Hr Hc H. split.
  - intros (m' & w' & E1 & E2). destruct (Z.le_gt_cases (r * c) (c_capacity m)) as [|G]; [assumption|]. destruct (C103_growth_refuted T m vs r c A ltac:(lia)) as (m2 & F1 & _ & _ & _ & _ & _ & _ & _ & F2). cbn [cstep] in F1.
    rewrite E1 in F1. injection F1 as ->. rewrite F2 in E2. discriminate E2.
  - intros L. destruct (alive_resize m vs r c A Hr Hc L) as (E & A'). eexists. eexists. split; [exact E|exact (alive_destruct _ vs w A')].
Qed.
Print Assumptions C103_resize_exactly.
(** In particular a default constructed matrix cannot be given a size. *)
Theorem C103_default_constructed_refuted : forall (T : Type) r c w, 0 < r -> 0 < c -> r * c <= int_max ->
  exists m', c_resize (c_empty : cmat T) r c = Ok m' /\ (forall x, c_fill m' x = UB) /\ c_destruct m' w = UB.
Proof.
  intros T r c w Hr Hc H. destruct (C103_growth_refuted T c_empty [] r c) as (m' & E & _ & _ & _ & _ & _ & F & _ & D).
  - split; [reflexivity|]. cbn. unfold int_max. lia.
  - change (c_capacity c_empty) with 0. nia.
  - exists m'. auto.
Qed.
(** reserve never makes room: it does nothing or it is undefined. *)
Theorem C103_reserve_refuted : forall (T : Type) (m : cmat T) s, 0 <= s -> c_reserve m s = if c_capacity m <=? s then Ok m else UB.
Proof.
  intros T m s H. unfold c_reserve. destruct (Z.leb_spec (c_capacity m) s) as [|G]; [reflexivity|]. destruct (Z.ltb_spec s 0); [lia|]. unfold memcpy. rewrite repeat_length.
  destruct (Z.leb_spec (c_capacity m) (Z.of_nat (Z.to_nat s))); [lia|]. reflexivity.
Qed.
Print Assumptions C103_reserve_refuted.

(** ** Fixed-size matrices and the program *)
Lemma cloop_store {T} (f : Z -> res T) (n : nat) : forall vs : list T, (n <= length vs)%nat -> (forall i, 0 <= i < Z.of_nat n -> exists x, f i = Ok x) ->
  exists vs', cloop (fun i a => do x <- f i; store a i x) n vs = Ok vs' /\ length vs' = length vs /\ (forall i, 0 <= i < Z.of_nat n -> get_at vs' i = f i).
Proof.
  induction n as [|n IH]; intros vs L H.
  - exists vs. cbn. split; [reflexivity|]. split; [reflexivity|]. intros; lia.
  - destruct (IH vs ltac:(lia)) as (v1 & E & L1 & Q1); [intros i Hi; apply H; lia|]. cbn [cloop]. rewrite E. cbn [bind].
    destruct (H (Z.of_nat n) ltac:(lia)) as (x & Ex). rewrite Ex. cbn [bind]. rewrite store_ok by lia. eexists. split; [reflexivity|]. split; [rewrite set_at_length; exact L1|].
    intros i Hi. destruct (Z.eq_dec i (Z.of_nat n)) as [->|N]; [rewrite get_set_same by lia; congruence|]. rewrite get_set_other by lia. apply Q1. lia.
Qed.
(** Assigning a dynamic matrix to a fixed one: accepted exactly when the shapes
    agree, and then the elements are equal. *)
Theorem C103_fixed_from_dynamic : forall (T : Type) Rows Cols (a : list T) (m : cmat T) vs, alive m vs -> 0 <= Rows -> 0 <= Cols -> Z.of_nat (length a) = Rows * Cols ->
  (crows m = Rows /\ ccols m = Cols -> exists a', cf_from Rows Cols a m = Ok a' /\ length a' = length a /\ forall n, 0 <= n < Rows * Cols -> get_at a' n = c_at m n) /\
  (crows m <> Rows \/ ccols m <> Cols -> cf_from Rows Cols a m = Abort).
Proof.
  intros T Rows Cols a m vs A Hr Hc L. split.
  - intros (E1 & E2). unfold cf_from. rewrite E1, E2, !Z.eqb_refl. cbn [andb]. destruct (alive_size m vs A) as (S & P). pose proof (alive_cap m vs A) as K. rewrite S. cbn [bind]. rewrite E1, E2 in *. pose proof A as (_ & _ & _ & D & _). rewrite E1, E2 in D.
    destruct (cloop_store (cread (cells m)) (Z.to_nat (Rows * Cols)) a ltac:(lia)) as (a' & E & L' & Q).
    { intros i Hi. change (cread (cells m) i) with (c_at m i). rewrite (alive_at m vs i A) by lia. destruct (get_at_in vs i ltac:(lia)) as (y & Ey & _). eauto. }
    exists a'. split; [exact E|]. split; [exact L'|]. intros n Hn. apply Q. lia.
  - intros N. unfold cf_from. destruct (Z.eqb_spec Rows (crows m)), (Z.eqb_spec Cols (ccols m)); cbn [andb]; try reflexivity. lia.
Qed.
Print Assumptions C103_fixed_from_dynamic.
(** test/simpleMatrix.cpp prints rua! rue~ before the copy, rue~ rue~ after it, and
    destroys the twelve strings it made. *)
Theorem C103_program : forall (T : Type) (empty rua rue : T), simple_main empty rua rue = Ok ((rua, rue), (rue, rue), mkLedger 12 12).
Proof. intros. reflexivity. Qed.
Print Assumptions C103_program.

(** ** Examples *)
Open Scope string_scope.
Example ex_C103 : alive (mkC [Some "a"; Some "b"; Some "c"; Some "d"] 1 3) ["a"; "b"; "c"; "d"] /\ fits (mkC [Some "a"; Some "b"; Some "c"; Some "d"] 1 3) (CResize 2 2) /\
  c_rc (mkC [Some "a"; Some "b"; Some "c"; Some "d"] 2 2) 1 1 = Ok "d".
Proof. split; [split; [reflexivity|]; cbn; unfold int_max; lia|]. split; [cbn; lia|reflexivity]. Qed.
Example ex_C103_history : exists m w, c_make "" 2 2 (mkLedger 0 0) = Ok (m, w) /\ all_fit m [CFill "x"; CResize 3 1; CSetRC 2 0 "y"; CFrom ["p"; "q"] 1 2].
Proof.
  eexists. eexists. split; [reflexivity|]. intros [|a [|b [|c [|d [|e p]]]]] x post m1 E D; cbn in E; try discriminate E.
  - injection E as <- _. exact I.
  - injection E as <- <- _. injection D as <-. cbn. lia.
  - injection E as <- <- <- _. injection D as <-. cbn. lia.
  - injection E as <- <- <- <- _. injection D as <-. cbn. lia.
Qed.
