(** Lemmas for C101: histories of calls on the generic box object. *)
From Coq Require Import List Arith ZArith Bool Lia.
From Flocq Require Import BinarySingleNaN.
From Verif Require Import Base Fl FlFacts Rng RandProofs Box BoxProofs BoxF BoxObj DiscObj.
Import ListNotations.
Open Scope Z_scope.

Section Hist.
Context {A : Type} (lt : A -> A -> bool) (zero : A).
Definition u_range (c : ncall A) : bool := match c with NRange _ _ | NMin _ | NMax _ => true | _ => false end.
Definition u_delta (c : ncall A) : bool := match c with NDelta _ | NDeltaRef _ => true | _ => false end.
Definition u_dims (c : ncall A) : bool := match c with NDims _ _ => true | _ => false end.
Definition u_rangeV (c : ncall A) : bool := match c with NRangeV _ _ | NEditMin _ | NEditMax _ | NDims _ _ => true | _ => false end.
Definition u_deltaV (c : ncall A) : bool := match c with NDeltaV _ | NEditDelta _ | NDims _ _ => true | _ => false end.
Definition last_n (f : ncall A -> bool) (h : list (ncall A)) (c : ncall A) : Prop :=
  f c = true /\ exists h1 h2, h = h1 ++ c :: h2 /\ forall x, In x h2 -> f x = false.
Definition none_n (f : ncall A -> bool) (h : list (ncall A)) : Prop := forall x, In x h -> f x = false.

Lemma ndrive_app k h1 : forall b h2, ndrive lt zero k b (h1 ++ h2) = (do b1 <- ndrive lt zero k b h1; ndrive lt zero k b1 h2).
Proof. induction h1 as [|c h IH]; intros b h2; cbn [ndrive app]; [reflexivity|]. destruct (nstep lt zero k b c); cbn [bind]; try reflexivity. apply IH. Qed.
Lemma nstep_frame k cont b c b' : nstep lt zero k b c = Ok b' -> nhas k cont c = true ->
  (u_range c = false -> (n_min b', n_max b') = (n_min b, n_max b)) /\
  (u_delta c = false -> n_delta b' = n_delta b) /\
  (sq k = true -> u_dims c = false -> n_size b' = n_size b) /\
  (u_rangeV c = false -> (nv_min b', nv_max b') = (nv_min b, nv_max b)) /\
  (u_deltaV c = false -> nv_delta b' = nv_delta b).
Proof.
  intros H C. destruct c; cbn [nstep] in H; try (apply bind_Ok in H; destruct H as (a & _ & H));
    repeat match type of H with context [if ?x then _ else _] => destruct x eqn:?; try discriminate H end; inversion H; subst b';
    cbn [u_range u_delta u_dims u_rangeV u_deltaV n_min n_max n_delta nv_min nv_max nv_delta n_size];
    repeat split; intros; try discriminate; try congruence.
Qed.
Section Keep.
Context (k : kind) (cont : bool) {X : Type} (f : ncall A -> bool) (proj : nbox A -> X).
Hypothesis keep : forall b c b', nstep lt zero k b c = Ok b' -> nhas k cont c = true -> f c = false -> proj b' = proj b.
Lemma ndrive_keep h : forall b b', forallb (nhas k cont) h = true -> none_n f h -> ndrive lt zero k b h = Ok b' -> proj b' = proj b.
Proof using keep.
  induction h as [|c h IH]; intros b b' T F H; cbn [ndrive] in H; [congruence|]. cbn [forallb] in T. apply andb_prop in T. destruct T as (T1 & T2).
  apply bind_Ok in H. destruct H as (b1 & H1 & H). rewrite (IH b1 b' T2 (fun x Hx => F x (or_intror Hx)) H). apply (keep b c b1 H1 T1). apply F. left. reflexivity.
Qed.
Lemma ndrive_last h c b b' : forallb (nhas k cont) h = true -> last_n f h c -> ndrive lt zero k b h = Ok b' ->
  exists b1 b2, nstep lt zero k b1 c = Ok b2 /\ proj b' = proj b2 /\ nhas k cont c = true.
Proof using keep.
  intros T (_ & h1 & h2 & -> & F2) H. rewrite ndrive_app in H. apply bind_Ok in H. destruct H as (b1 & H1 & H).
  cbn [ndrive] in H. apply bind_Ok in H. destruct H as (b2 & H2 & H). rewrite forallb_app in T. apply andb_prop in T. destruct T as (_ & T).
  cbn [forallb] in T. apply andb_prop in T. destruct T as (T1 & T2). exists b1, b2. split; [exact H2|]. split; [|exact T1]. apply (ndrive_keep h2 b2 b' T2 F2 H).
Qed.
End Keep.

Section Members.
Context (k : kind) (cont : bool) (h : list (ncall A)) (b0 b : nbox A).
Context (T : forallb (nhas k cont) h = true) (D : ndrive lt zero k b0 h = Ok b).
Let F1 b c b' H C := proj1 (nstep_frame k cont b c b' H C).
Let F2 b c b' H C := proj1 (proj2 (nstep_frame k cont b c b' H C)).
Let F3 b c b' H C := proj1 (proj2 (proj2 (nstep_frame k cont b c b' H C))).
Let F4 b c b' H C := proj1 (proj2 (proj2 (proj2 (nstep_frame k cont b c b' H C)))).
Let F5 b c b' H C := proj2 (proj2 (proj2 (proj2 (nstep_frame k cont b c b' H C)))).
Lemma nsq_range lo hi : last_n u_range h (NRange lo hi) -> n_min b = Some lo /\ n_max b = Some hi /\ lt lo hi = true.
Proof using T D.
  intros L. destruct (ndrive_last k cont u_range (fun b => (n_min b, n_max b)) F1 h _ _ _ T L D) as (b1 & b2 & S & E & _).
  cbn [nstep] in S. destruct (lt lo hi); [|discriminate S]. inversion S; subst b2. cbn in E. inversion E. repeat split.
Qed.
Lemma nsq_no_range : none_n u_range h -> n_min b = n_min b0 /\ n_max b = n_max b0.
Proof using T D. intros L. pose proof (ndrive_keep k cont u_range (fun b => (n_min b, n_max b)) F1 h _ _ T L D) as E. cbn in E. inversion E. split; reflexivity. Qed.
Lemma nsq_delta d : last_n u_delta h (NDelta d) -> n_delta b = Some d /\ lt zero d = true.
Proof using T D.
  intros L. destruct (ndrive_last k cont u_delta n_delta F2 h _ _ _ T L D) as (b1 & b2 & S & E & _).
  cbn [nstep] in S. destruct (lt zero d); [|discriminate S]. inversion S; subst b2. cbn in E. split; [exact E|reflexivity].
Qed.
Lemma nsq_no_delta : none_n u_delta h -> n_delta b = n_delta b0.
Proof using T D. intros L. exact (ndrive_keep k cont u_delta n_delta F2 h _ _ T L D). Qed.
Lemma nsq_dims r c : sq k = true -> last_n u_dims h (NDims r c) -> n_size b = Some (r, c) /\ 0 < r /\ 0 < c.
Proof using T D.
  intros Hk L. destruct (ndrive_last k cont u_dims n_size (fun b c b' H C => F3 b c b' H C Hk) h _ _ _ T L D) as (b1 & b2 & S & E & _).
  cbn [nstep] in S. rewrite Hk in S. destruct (Z.leb_spec r 0); [discriminate S|]. destruct (Z.leb_spec c 0); [discriminate S|]. cbn [orb] in S.
  inversion S; subst b2. cbn in E. split; [exact E|lia].
Qed.
Lemma nsq_no_dims : sq k = true -> none_n u_dims h -> n_size b = n_size b0.
Proof using T D. intros Hk L. exact (ndrive_keep k cont u_dims n_size (fun b c b' H C => F3 b c b' H C Hk) h _ _ T L D). Qed.
Lemma nfixed_no_dims rc : fixed k = Some rc -> none_n u_dims h.
Proof using T.
  clear - T. intros E x Hx. destruct x; try reflexivity. rewrite forallb_forall in T. specialize (T _ Hx). cbn [nhas] in T. rewrite E in T. discriminate T.
Qed.
Lemma nrect_range lo hi : sq k = false -> last_n u_rangeV h (NRangeV lo hi) ->
  nv_min b = narr_of lo /\ nv_max b = narr_of hi /\ length (nvdata lo) = length (nvdata hi) /\ nvar_of k lo = true /\ nvar_of k hi = true.
Proof using T D.
  intros Hk L. destruct (ndrive_last k cont u_rangeV (fun b => (nv_min b, nv_max b)) F4 h _ _ _ T L D) as (b1 & b2 & S & E & C).
  cbn [nhas] in C. rewrite Hk in C. cbn [negb andb] in C. apply andb_prop in C.
  cbn [nstep] in S. destruct (Z.eqb_spec (nsize (narr_of lo)) (nsize (narr_of hi))) as [Q|]; [|discriminate S]. inversion S; subst b2. cbn [nv_min nv_max] in E. inversion E.
  unfold nsize, narr_of in Q. cbn [ndata] in Q. rewrite !map_length in Q. repeat split; try tauto. lia.
Qed.
Lemma nrect_delta d : last_n u_deltaV h (NDeltaV d) -> nv_delta b = narr_of d /\ Forall (fun x => lt zero x = true) (nvdata d).
Proof using T D.
  intros L. destruct (ndrive_last k cont u_deltaV nv_delta F5 h _ _ _ T L D) as (b1 & b2 & S & E & C).
  cbn [nstep] in S. destruct (forallb (lt zero) (nvdata d)) eqn:F; [|discriminate S]. inversion S; subst b2. split; [exact E|].
  apply Forall_forall. rewrite forallb_forall in F. exact F.
Qed.
End Members.

Lemma nread_arr (v : nvar A) i (dv : A) : (i < length (nvdata v))%nat -> nread_at (narr_of v) i = Ok (nth i (nvdata v) dv).
Proof.
  intros H. unfold nread_at, narr_of. cbn [ndata]. rewrite nth_error_map. destruct (nth_error (nvdata v) i) eqn:E.
  - cbn [option_map nread]. rewrite (nth_error_nth _ _ dv E). reflexivity.
  - apply nth_error_None in E. lia.
Qed.
(** What the operations ask of a rectangle whose bounds have the same shape. *)
Lemma nrect_sizes k (b : nbox A) lo hi : sq k = false -> nv_min b = narr_of lo -> nv_max b = narr_of hi -> nvar_of k lo = true -> nvar_of k hi = true ->
  length (nvdata lo) = length (nvdata hi) -> nvrows lo = nvrows hi -> nvcols lo = nvcols hi ->
  ndims k b = Ok (Z.of_nat (length (nvdata lo))) /\ ninit_size k b = Ok (Z.of_nat (length (nvdata lo))).
Proof.
  intros Hk E1 E2 V1 V2 El Rr Rc.
  assert (Sz : Z.of_nat (length (nvdata lo)) = nvrows lo * nvcols lo /\ forall r c, fixed k = Some (r, c) -> nvrows lo = r /\ nvcols lo = c).
  { unfold nvar_of in V1. apply andb_prop in V1. destruct V1 as (V1 & V1'). apply andb_prop in V1. destruct V1 as (V1 & V3).
    apply Z.eqb_eq in V3. split; [exact V3|]. intros r c Ef. rewrite Ef in V1'. apply andb_prop in V1'. rewrite !Z.eqb_eq in V1'. exact V1'. }
  destruct Sz as (Sz & Sf).
  assert (As : nsize (nv_min b) = Z.of_nat (length (nvdata lo)) /\ nsize (nv_max b) = Z.of_nat (length (nvdata lo))).
  { rewrite E1, E2. unfold nsize, narr_of. cbn [ndata]. rewrite !map_length. split; [reflexivity|]. rewrite El. reflexivity. }
  destruct As as (A1 & A2).
  assert (Dm : ndims k b = Ok (Z.of_nat (length (nvdata lo)))).
  { unfold ndims. rewrite Hk. destruct (fixed k) as [[r c]|] eqn:Ef; [destruct (Sf r c eq_refl) as (<- & <-); rewrite Sz; reflexivity|].
    rewrite A1, A2, Z.eqb_refl. cbn [negb]. rewrite E1, E2. cbn [narr_of nrows]. rewrite Rr, Z.eqb_refl. cbn [negb]. rewrite andb_false_r. reflexivity. }
  split; [exact Dm|]. unfold ninit_size. rewrite Hk. destruct (fixed k) as [[r c]|] eqn:Ef; [destruct (Sf r c eq_refl) as (<- & <-); rewrite Sz; reflexivity|].
  destruct (vec k); [exact Dm|]. unfold nbox_rows, nbox_cols. rewrite Hk, Ef, E1, E2. cbn [narr_of nrows ncols]. rewrite Rr, Z.eqb_refl. cbn [bind].
  rewrite Rc, Z.eqb_refl. cbn [bind]. rewrite <- Rr, <- Rc, Sz. reflexivity.
Qed.
End Hist.

(** ** The operations are those of Box.v and BoxF.v *)
Lemma nclamp_int lo hi x : nclamp Z.ltb lo hi x = clampI lo hi x.
Proof. unfold nclamp, clampI. destruct (Z.ltb_spec hi x); cbv zeta; [rewrite Z.min_r by lia|rewrite Z.min_l by lia]; [destruct (Z.ltb_spec hi lo)|destruct (Z.ltb_spec x lo)]; lia. Qed.
Section Same.
Context (R : rng_ops) (k : kind).
Section I.
Context (t : ity) (b : nbox Z) (B : ibox).
Context (Hd : ndims k b = Ok (dimI B)) (Hmin : forall i, Z.of_nat i < dimI B -> nmin_at k b i = Ok (minI B i)) (Hmax : forall i, Z.of_nat i < dimI B -> nmax_at k b i = Ok (maxI B i)).
Lemma i_loop_same n : forall idx g, Z.of_nat (n + idx) <= dimI B -> ninit_loop R k b (draw_int R t) n idx g = initI R t B n idx g.
Proof using Hmin Hmax.
  induction n as [|n IH]; intros idx g H; cbn [ninit_loop initI]; [reflexivity|]. rewrite Hmin, Hmax by lia. cbn [bind].
  unfold draw_int. destruct (arith (promoted t) (1 + maxI B idx)) as [x| | |]; cbn [bind]; try reflexivity.
  destruct (randIdxT R t (minI B idx) (conv t x) g) as [[y g1]| | |]; cbn [bind]; try reflexivity. rewrite IH by lia. reflexivity.
Qed.
Lemma i_initialize_same g : ninit_size k b = Ok (dimI B) -> 0 <= dimI B -> i_initialize R t k b g = initializeI R t B g.
Proof using Hmin Hmax. intros Hi H0. unfold i_initialize, ninitialize, initializeI. rewrite Hi. cbn [bind]. apply i_loop_same. lia. Qed.
Lemma i_constrain_loop v : forall idx, Z.of_nat (length v + idx) <= dimI B -> nconstrain_loop Z.ltb k b v idx = Ok (constrainI B v idx).
Proof using Hmin Hmax.
  induction v as [|x v IH]; intros idx H; cbn [nconstrain_loop constrainI length] in *; [reflexivity|]. rewrite Hmin, Hmax by lia. cbn [bind]. rewrite IH by lia. cbn [bind].
  rewrite nclamp_int. reflexivity.
Qed.
Lemma i_constrain_same v : i_constrain k b v = applyConstraintI B v.
Proof using Hd Hmin Hmax. unfold i_constrain, nconstrain, applyConstraintI. rewrite Hd. cbn [bind]. destruct (Z.eqb_spec (Z.of_nat (length v)) (dimI B)); [apply i_constrain_loop; lia|reflexivity]. Qed.
Lemma i_move_same v g : rng_ok R -> 1 <= dimI B <= two64 -> i_move R t k b v g = applyDeltaI R t B v g.
Proof using Hd Hmin Hmax.
  intros HR Hn. unfold i_move, nmove, applyDeltaI. rewrite Hd. cbn [bind]. destruct (negb (Z.of_nat (length v) =? dimI B)); [reflexivity|].
  pose proof (randIdx2_range R 0 (dimI B) g HR ltac:(unfold two64 in Hn; lia)) as HI. destruct (randIdx2 R 0 (dimI B) g) as [idx g1]. cbn [fst] in HI.
  destruct (randIdx R 2 g1) as [j g2]. destruct (get_at v idx); cbn [bind]; try reflexivity. unfold step_int.
  destruct (arith (promoted t) (a + (if j =? 0 then 1 else -1))); cbn [bind]; try reflexivity. rewrite Hmin, Hmax by lia. cbn [bind]. rewrite nclamp_int. reflexivity.
Qed.
End I.
Section F.
Context (b : nbox float) (B : fbox).
Context (Hd : ndims k b = Ok (dimF B)) (Hmin : forall i, Z.of_nat i < dimF B -> nmin_at k b i = Ok (minF B i)) (Hmax : forall i, Z.of_nat i < dimF B -> nmax_at k b i = Ok (maxF B i)).
Lemma f_loop_same n : forall idx g, Z.of_nat (n + idx) <= dimF B -> ninit_loop R k b (draw_float R) n idx g = Ok (initF R B n idx g).
Proof using Hmin Hmax.
  induction n as [|n IH]; intros idx g H; cbn [ninit_loop initF]; [reflexivity|]. rewrite Hmin, Hmax by lia. cbn [bind].
  unfold draw_float. destruct (drawF R (minF B idx) (maxF B idx) g) as [x g1]. cbn [bind]. rewrite IH by lia. destruct (initF R B n (S idx) g1). reflexivity.
Qed.
Lemma f_initialize_same g : ninit_size k b = Ok (dimF B) -> 0 <= dimF B -> f_initialize R k b g = Ok (initializeF R B g).
Proof using Hmin Hmax. intros Hi H0. unfold f_initialize, ninitialize, initializeF. rewrite Hi. cbn [bind]. apply f_loop_same. lia. Qed.
Lemma nclamp_float lo hi x : nclamp flt lo hi x = clampF lo hi x. Proof. reflexivity. Qed.
Lemma f_constrain_loop v : forall idx, Z.of_nat (length v + idx) <= dimF B -> nconstrain_loop flt k b v idx = Ok (constrainF B v idx).
Proof using Hmin Hmax.
  induction v as [|x v IH]; intros idx H; cbn [nconstrain_loop constrainF length] in *; [reflexivity|]. rewrite Hmin, Hmax by lia. cbn [bind]. rewrite IH by lia. cbn [bind].
  rewrite nclamp_float. reflexivity.
Qed.
Lemma f_constrain_same v : f_constrain k b v = applyConstraintF B v.
Proof using Hd Hmin Hmax. unfold f_constrain, nconstrain, applyConstraintF. rewrite Hd. cbn [bind]. destruct (Z.eqb_spec (Z.of_nat (length v)) (dimF B)); [apply f_constrain_loop; lia|reflexivity]. Qed.
Lemma f_step_same v g : rng_ok R -> 1 <= dimF B <= two64 -> f_step R k b v g = applyStepF R B v g.
Proof using Hd Hmin Hmax.
  intros HR Hn. unfold f_step, nmove, applyStepF. rewrite Hd. cbn [bind]. destruct (negb (Z.of_nat (length v) =? dimF B)); [reflexivity|].
  pose proof (randIdx2_range R 0 (dimF B) g HR ltac:(unfold two64 in Hn; lia)) as HI. destruct (randIdx2 R 0 (dimF B) g) as [idx g1]. cbn [fst] in HI.
  destruct (randIdx R 2 g1) as [j g2]. unfold moveF. destruct (get_at v idx); cbn [bind]; try reflexivity. unfold step_float. cbn [bind].
  rewrite Hmin, Hmax by lia. cbn [bind]. rewrite nclamp_float. reflexivity.
Qed.
Lemma f_move_same v g : rng_ok R -> 1 <= dimF B <= two64 -> (forall i, Z.of_nat i < dimF B -> ndelta_at k b i = Ok (deltaF B i)) -> f_move R k b v g = applyDeltaF R B v g.
Proof using Hd Hmin Hmax.
  intros HR Hn Hdel. unfold f_move, ncmove, applyDeltaF. rewrite Hd. cbn [bind]. destruct (negb (Z.of_nat (length v) =? dimF B)); [reflexivity|].
  pose proof (randIdx_range R (dimF B) g HR ltac:(unfold two64 in Hn; lia)) as HI. destruct (randIdx R (dimF B) g) as [idx g1]. cbn [fst] in HI.
  destruct (randD_range R (d_of_Z (-1)) d1 g1) as [r g2]. unfold moveF. destruct (get_at v idx); cbn [bind]; try reflexivity. rewrite Hdel by lia. cbn [bind].
  rewrite Hmin, Hmax by lia. cbn [bind]. rewrite nclamp_float. reflexivity.
Qed.
End F.
End Same.
