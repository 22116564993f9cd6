(** Lemmas on the box objects of BoxObj.v. *)
From Coq Require Import List Arith ZArith Bool Lia.
From Flocq Require Import BinarySingleNaN.
From Verif Require Import Base Fl Rng RandProofs Box BoxProofs BoxObj.
Import ListNotations.
Open Scope Z_scope.

(** All bounds readable: the operations are those of Box.v. *)
Section Same.
Context (R : rng_ops) (k : kind) (b : box) (B : dbox).
Hypothesis Hd : dimensions k b = Ok (dimD B).
Hypothesis Hmin : forall i, Z.of_nat i < dimD B -> min_at k b i = Ok (minD B i).
Hypothesis Hmax : forall i, Z.of_nat i < dimD B -> max_at k b i = Ok (maxD B i).
Lemma init_loop_same n : forall idx g, Z.of_nat (n + idx) <= dimD B -> init_loop R k b n idx g = Ok (initD R B n idx g).
Proof.
  induction n as [|n IH]; intros idx g H; [reflexivity|]. cbn [init_loop initD]. rewrite Hmin, Hmax by lia. cbn [bind].
  destruct (randD_range R (minD B idx) (maxD B idx) g) as [x g1]. rewrite IH by lia. cbn [bind].
  destruct (initD R B n (S idx) g1) as [t g2]. reflexivity.
Qed.
Lemma initialize_same g : init_size k b = Ok (dimD B) -> 0 <= dimD B -> initialize R k b g = Ok (initializeD R B g).
Proof. intros H P. unfold initialize. rewrite H. cbn [bind]. apply init_loop_same. lia. Qed.
Lemma constrain_loop_same v : forall idx, Z.of_nat (length v + idx) <= dimD B -> constrain_loop k b v idx = Ok (constrainD B v idx).
Proof.
  induction v as [|x v IH]; intros idx H; [reflexivity|]. cbn [constrain_loop constrainD]. cbn [length] in H. rewrite Hmin, Hmax by lia. cbn [bind].
  rewrite IH by lia. reflexivity.
Qed.
Lemma applyConstraint_same v : applyConstraint k b v = applyConstraintD B v.
Proof.
  unfold applyConstraint, applyConstraintD. rewrite Hd. cbn [bind]. destruct (Z.eqb_spec (Z.of_nat (length v)) (dimD B)); [|reflexivity].
  apply constrain_loop_same. lia.
Qed.
Lemma applyDelta_same v g : rng_ok R -> 1 <= dimD B <= two64 -> (forall i, Z.of_nat i < dimD B -> delta_at k b i = Ok (deltaD B i)) ->
  applyDelta R k b v g = applyDeltaD R B v g.
Proof.
  intros HR Hn Hdel. unfold applyDelta, applyDeltaD. rewrite Hd. cbn [bind]. destruct (negb _); [reflexivity|].
  pose proof (randIdx_range R (dimD B) g HR Hn) as HI. destruct (randIdx R (dimD B) g) as [idx g1]. cbn [fst] in HI.
  destruct (randD_range R (d_of_Z (-1)) d1 g1) as [r g2]. unfold moveD. destruct (get_at v idx); try reflexivity. cbn [bind].
  rewrite Hdel, Hmin, Hmax by lia. reflexivity.
Qed.
End Same.

(** ** Histories *)
Definition t_range (c : bcall) : bool := match c with SetRange _ _ | RefMin _ | RefMax _ => true | _ => false end.
Definition t_delta (c : bcall) : bool := match c with SetDelta _ | RefDelta _ => true | _ => false end.
Definition t_dims (c : bcall) : bool := match c with SetDimensions _ _ => true | _ => false end.
Definition t_rangeV (c : bcall) : bool := match c with SetRangeV _ _ | RefMinV _ | RefMaxV _ | SetDimensions _ _ => true | _ => false end.
Definition t_deltaV (c : bcall) : bool := match c with SetDeltaV _ | RefDeltaV _ | SetDimensions _ _ => true | _ => false end.

Lemma bdrive_app k h1 : forall b h2, bdrive k b (h1 ++ h2) = (do b1 <- bdrive k b h1; bdrive k b1 h2).
Proof. induction h1 as [|c h IH]; intros b h2; cbn [bdrive app]; [reflexivity|]. destruct (bstep k b c); cbn [bind]; try reflexivity. apply IH. Qed.

(** Frame: a call that does not touch a member keeps it. *)
Lemma bstep_frame k b c b' : bstep k b c = Ok b' -> has_call k c = true ->
  (t_range c = false -> s_min b' = s_min b /\ s_max b' = s_max b) /\
  (t_delta c = false -> s_delta b' = s_delta b) /\
  (sq k = true -> t_dims c = false -> size b' = size b) /\ (sq k = false -> size b' = size b) /\
  (t_rangeV c = false \/ sq k = true -> v_min b' = v_min b /\ v_max b' = v_max b) /\
  (t_deltaV c = false \/ sq k = true -> v_delta b' = v_delta b).
Proof.
  intros H C. destruct c; cbn [bstep] in H; cbn [has_call] in C;
    repeat match type of H with context [if ?x then _ else _] => destruct x eqn:?; try discriminate H end; inversion H; subst b';
    cbn [t_range t_delta t_dims t_rangeV t_deltaV s_min s_max s_delta v_min v_max v_delta size];
    repeat split; intros; try discriminate; try congruence; repeat match goal with X : _ \/ _ |- _ => destruct X end; try discriminate; try congruence;
    repeat match goal with X : sq k = _ |- _ => rewrite X in C end; cbn in C; try discriminate C.
Qed.

(** [c] is the last call of the sort [f] in [h]. *)
Definition last_call (f : bcall -> bool) (h : list bcall) (c : bcall) : Prop :=
  f c = true /\ exists h1 h2, h = h1 ++ c :: h2 /\ forall x, In x h2 -> f x = false.
Definition no_call (f : bcall -> bool) (h : list bcall) : Prop := forall x, In x h -> f x = false.
Section Keep.
Context (k : kind) {X : Type} (f : bcall -> bool) (proj : box -> X).
Hypothesis keep : forall b c b', bstep k b c = Ok b' -> has_call k c = true -> f c = false -> proj b' = proj b.
Lemma bdrive_keep h : forall b b', forallb (has_call k) h = true -> no_call f h -> bdrive k b h = Ok b' -> proj b' = proj b.
Proof.
  induction h as [|c h IH]; intros b b' T F H; cbn [bdrive] in H; [congruence|]. cbn [forallb] in T. apply andb_prop in T. destruct T as (T1 & T2).
  apply bind_Ok in H. destruct H as (b1 & H1 & H). rewrite (IH b1 b' T2 (fun x Hx => F x (or_intror Hx)) H). apply (keep b c b1 H1 T1). apply F. left. reflexivity.
Qed.
Lemma bdrive_last h c b b' : forallb (has_call k) h = true -> last_call f h c -> bdrive k b h = Ok b' ->
  exists b1 b2, bstep k b1 c = Ok b2 /\ proj b' = proj b2 /\ has_call k c = true.
Proof.
  intros T (_ & h1 & h2 & -> & F2) H. rewrite bdrive_app in H. apply bind_Ok in H. destruct H as (b1 & H1 & H).
  cbn [bdrive] in H. apply bind_Ok in H. destruct H as (b2 & H2 & H). rewrite forallb_app in T. apply andb_prop in T. destruct T as (_ & T).
  cbn [forallb] in T. apply andb_prop in T. destruct T as (T1 & T2). exists b1, b2. split; [exact H2|]. split; [|exact T1]. apply (bdrive_keep h2 b2 b' T2 F2 H).
Qed.
End Keep.

(** Square boxes: the members. *)
Section Square.
Context (k : kind) (Hk : sq k = true) (h : list bcall) (b : box).
Context (T : forallb (has_call k) h = true) (D : bdrive k (fresh k) h = Ok b).
Lemma square_range lo hi : last_call t_range h (SetRange lo hi) -> s_min b = Some lo /\ s_max b = Some hi /\ flt lo hi = true.
Proof.
  intros L. destruct (bdrive_last k t_range (fun b => (s_min b, s_max b)) (fun b c b' H C F => f_equal2 pair (proj1 (proj1 (bstep_frame k b c b' H C) F)) (proj2 (proj1 (bstep_frame k b c b' H C) F))) h _ _ _ T L D) as (b1 & b2 & S & E & _).
  cbn [bstep] in S. destruct (flt lo hi); [|discriminate S]. inversion S; subst b2. cbn in E. inversion E. repeat split.
Qed.
Lemma square_no_range : no_call t_range h -> s_min b = None /\ s_max b = None.
Proof.
  intros L. pose proof (bdrive_keep k t_range (fun b => (s_min b, s_max b)) (fun b c b' H C F => f_equal2 pair (proj1 (proj1 (bstep_frame k b c b' H C) F)) (proj2 (proj1 (bstep_frame k b c b' H C) F))) h _ _ T L D) as E.
  cbn in E. inversion E. split; reflexivity.
Qed.
Lemma square_delta d : last_call t_delta h (SetDelta d) -> s_delta b = Some d /\ flt d0 d = true.
Proof.
  intros L. destruct (bdrive_last k t_delta s_delta (fun b c b' H C => proj1 (proj2 (bstep_frame k b c b' H C))) h _ _ _ T L D) as (b1 & b2 & S & E & _).
  cbn [bstep] in S. destruct (flt d0 d); [|discriminate S]. inversion S; subst b2. cbn in E. split; [exact E|reflexivity].
Qed.
Lemma square_no_delta : no_call t_delta h -> s_delta b = None.
Proof. intros L. exact (bdrive_keep k t_delta s_delta (fun b c b' H C => proj1 (proj2 (bstep_frame k b c b' H C))) h _ _ T L D). Qed.
Lemma square_dims r c : last_call t_dims h (SetDimensions r c) -> size b = Some (r, c) /\ 0 < r /\ 0 < c.
Proof.
  intros L. destruct (bdrive_last k t_dims size (fun b c b' H C => proj1 (proj2 (proj2 (bstep_frame k b c b' H C))) Hk) h _ _ _ T L D) as (b1 & b2 & S & E & _).
  cbn [bstep] in S. rewrite Hk in S. destruct (Z.leb_spec r 0); [discriminate S|]. destruct (Z.leb_spec c 0); [discriminate S|]. cbn [orb] in S.
  inversion S; subst b2. cbn in E. split; [exact E|lia].
Qed.
Lemma square_no_dims : no_call t_dims h -> size b = fixed k.
Proof. intros L. exact (bdrive_keep k t_dims size (fun b c b' H C => proj1 (proj2 (proj2 (bstep_frame k b c b' H C))) Hk) h _ _ T L D). Qed.
Lemma fixed_no_dims rc : fixed k = Some rc -> no_call t_dims h.
Proof.
  intros E x Hx. destruct x; try reflexivity. rewrite forallb_forall in T. specialize (T _ Hx). cbn [has_call] in T. rewrite E in T. discriminate T.
Qed.
End Square.

(** Rectangles: the members. *)
Section Rect.
Context (k : kind) (Hk : sq k = false) (h : list bcall) (b : box).
Context (T : forallb (has_call k) h = true) (D : bdrive k (fresh k) h = Ok b).
Lemma frameV b0 c b' : bstep k b0 c = Ok b' -> has_call k c = true -> t_rangeV c = false -> (v_min b', v_max b') = (v_min b0, v_max b0).
Proof. intros H C F. destruct (bstep_frame k b0 c b' H C) as (_ & _ & _ & _ & Q & _). destruct (Q (or_introl F)) as (-> & ->). reflexivity. Qed.
Lemma rect_range lo hi : last_call t_rangeV h (SetRangeV lo hi) -> v_min b = arr_of lo /\ v_max b = arr_of hi /\ length (vdata lo) = length (vdata hi) /\
  var_of k lo = true /\ var_of k hi = true.
Proof.
  intros L. destruct (bdrive_last k t_rangeV (fun b => (v_min b, v_max b)) frameV h _ _ _ T L D) as (b1 & b2 & S & E & C).
  cbn [has_call] in C. rewrite Hk in C. cbn [negb andb] in C. apply andb_prop in C.
  cbn [bstep] in S. destruct (Z.eqb_spec (asize (arr_of lo)) (asize (arr_of hi))) as [Q|]; [|discriminate S]. inversion S; subst b2. cbn [v_min v_max] in E. inversion E.
  unfold asize, arr_of in Q. cbn [data] in Q. rewrite !map_length in Q. repeat split; try tauto. lia.
Qed.
Lemma rect_no_range : no_call t_rangeV h -> v_min b = blank_arr k /\ v_max b = blank_arr k.
Proof. intros L. pose proof (bdrive_keep k t_rangeV (fun b => (v_min b, v_max b)) frameV h _ _ T L D) as E. cbn in E. inversion E. split; reflexivity. Qed.
Lemma frameD b0 c b' : bstep k b0 c = Ok b' -> has_call k c = true -> t_deltaV c = false -> v_delta b' = v_delta b0.
Proof. intros H C F. destruct (bstep_frame k b0 c b' H C) as (_ & _ & _ & _ & _ & Q). apply Q. left. exact F. Qed.
Lemma rect_delta d : last_call t_deltaV h (SetDeltaV d) -> v_delta b = arr_of d /\ Forall (fun x => flt d0 x = true) (vdata d) /\ var_of k d = true.
Proof.
  intros L. destruct (bdrive_last k t_deltaV v_delta frameD h _ _ _ T L D) as (b1 & b2 & S & E & C).
  cbn [has_call] in C. rewrite Hk in C. cbn [negb andb] in C.
  cbn [bstep] in S. destruct (forallb (flt d0) (vdata d)) eqn:F; [|discriminate S]. inversion S; subst b2. split; [exact E|]. split; [|exact C].
  apply Forall_forall. rewrite forallb_forall in F. exact F.
Qed.
Lemma rect_no_delta : no_call t_deltaV h -> v_delta b = blank_arr k.
Proof. intros L. exact (bdrive_keep k t_deltaV v_delta frameD h _ _ T L D). Qed.
End Rect.

Lemma read_arr v i : (i < length (vdata v))%nat -> read_at (arr_of v) i = Ok (nth i (vdata v) d0).
Proof.
  intros H. unfold read_at, arr_of. cbn [data]. rewrite nth_error_map. destruct (nth_error (vdata v) i) eqn:E.
  - cbn [option_map read]. rewrite (nth_error_nth _ _ d0 E). reflexivity.
  - apply nth_error_None in E. lia.
Qed.
Lemma int32_ok n : 0 <= n < 2147483648 -> arith int32 n = Ok n.
Proof.
  intros H. unfold arith, in_ity, imin, imax, int32. cbn [isgn ibits]. change (2 ^ (32 - 1)) with 2147483648.
  rewrite !(proj2 (Z.leb_le _ _)) by lia. reflexivity.
Qed.
