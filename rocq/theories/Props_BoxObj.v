(** C80, C81: boxes as objects -- which setters have to be called before a box
    works, what they check, and what the box then does. *)
From Coq Require Import List Arith ZArith Bool Lia Reals Lra.
From Flocq Require Import Core BinarySingleNaN.
From Verif Require Import Props_Box.
From Verif Require Import Base Fl FlFacts Rng RandProofs Box BoxProofs BoxObj BoxObjProofs.
Import ListNotations.
Open Scope Z_scope.

(** * C80 *)
(** What a box promises ([in_box], [nearest], [only_at]: Props_Box.v). *)
Definition works (R : rng_ops) (k : kind) (b : box) (B : dbox) : Prop :=
  (forall g, (forall i, Z.of_nat i < dimD B -> fin (minD B i) /\ fin (maxD B i) /\ fin (fsub (maxD B i) (minD B i))) ->
     exists v g', initialize R k b g = Ok (v, g') /\ in_box B v) /\
  (forall v, Z.of_nat (length v) = dimD B ->
     exists v', applyConstraint k b v = Ok v' /\ length v' = length v /\
       forall i x, nth_error v i = Some x -> exists y, nth_error v' i = Some y /\
         (is_nan x = true -> y = x) /\ (is_nan x = false -> nearest (minD B i) (maxD B i) x y)) /\
  (forall v, Z.of_nat (length v) <> dimD B -> applyConstraint k b v = Abort /\ forall g, applyDelta R k b v g = Abort).
Definition moves (R : rng_ops) (k : kind) (b : box) (B : dbox) : Prop :=
  forall v g, in_box B v -> (forall i, Z.of_nat i < dimD B -> fin (deltaD B i)) ->
    exists v' g', applyDelta R k b v g = Ok (v', g') /\ in_box B v' /\
      exists i x y s, only_at i v v' /\ nth_error v i = Some x /\ nth_error v' i = Some y /\
        fle (fopp (deltaD B i)) s = true /\ fle s (deltaD B i) = true /\ nearest (minD B i) (maxD B i) (fadd x s) y.

Lemma flt_fle' (x y : double) : flt x y = true -> fle x y = true.
Proof. intros A. apply flt_true in A. destruct A as (N1 & N2 & L). apply fle_iff; auto. lra. Qed.
Lemma works_of R k b B : rng_ok R -> proper B -> dimensions k b = Ok (dimD B) -> init_size k b = Ok (dimD B) ->
  (forall i, Z.of_nat i < dimD B -> min_at k b i = Ok (minD B i)) -> (forall i, Z.of_nat i < dimD B -> max_at k b i = Ok (maxD B i)) -> works R k b B.
Proof.
  intros HR PB Hd Hi Hmin Hmax. split; [|split].
  - intros g F. rewrite (initialize_same R k b B Hmin Hmax g Hi (proj1 PB)).
    pose proof (C39_initialize_continuous R B g HR (proj1 PB) (fun i Hi => conj (proj1 (F i Hi)) (conj (proj1 (proj2 (F i Hi))) (conj (proj2 PB i Hi) (proj2 (proj2 (F i Hi))))))) as C.
    destruct (initializeD R B g) as [v g']. exists v, g'. split; [reflexivity|exact C].
  - intros v L. rewrite (applyConstraint_same k b B Hd Hmin Hmax). apply (C38_applyConstraint B v PB L).
  - intros v L. unfold applyConstraint, applyDelta. rewrite Hd. cbn [bind]. destruct (Z.eqb_spec (Z.of_nat (length v)) (dimD B)); [contradiction|]. cbn [negb]. split; reflexivity.
Qed.
Lemma moves_of R k b B : rng_ok R -> proper B -> 1 <= dimD B <= two64 -> dimensions k b = Ok (dimD B) ->
  (forall i, Z.of_nat i < dimD B -> min_at k b i = Ok (minD B i)) -> (forall i, Z.of_nat i < dimD B -> max_at k b i = Ok (maxD B i)) ->
  (forall i, Z.of_nat i < dimD B -> delta_at k b i = Ok (deltaD B i) /\ flt d0 (deltaD B i) = true) -> moves R k b B.
Proof.
  intros HR PB Hn Hd Hmin Hmax Hdel v g Hv F. rewrite (applyDelta_same R k b B Hd Hmin Hmax v g HR Hn (fun i Hi => proj1 (Hdel i Hi))).
  apply (C40_applyDelta_continuous R B v g HR PB Hn Hv). intros i Hi. split; [apply F, Hi|]. apply flt_fle', Hdel, Hi.
Qed.

(** Square boxes: whatever has been called before, once the last calls of their
    sort are setRange(lo, hi) and setDimensions, the box works with these bounds
    in every dimension, and with a setDelta(d) applyDelta works too: everything
    it needs was checked by the setters. *)
Theorem C80_square_box : forall R k h b lo hi r c,
  rng_ok R -> sq k = true -> forallb (has_call k) h = true -> bdrive k (fresh k) h = Ok b ->
  last_call t_range h (SetRange lo hi) ->
  (fixed k = Some (r, c) /\ 0 < r /\ 0 < c \/ last_call t_dims h (SetDimensions r c)) -> r * c < 2147483648 ->
  dimensions k b = Ok (r * c) /\
  (forall d, works R k b (square_dbox (r * c) lo hi d)) /\
  (forall d, last_call t_delta h (SetDelta d) -> moves R k b (square_dbox (r * c) lo hi d)).
Proof.
  intros R k h b lo hi r c HR Hk T D Lr Ld Hn.
  destruct (square_range k h b T D lo hi Lr) as (E1 & E2 & Hlt).
  assert (Es : size b = Some (r, c) /\ 0 < r /\ 0 < c).
  { destruct Ld as [(Ef & P)|Ld]; [|exact (square_dims k Hk h b T D r c Ld)]. split; [|exact P].
    rewrite (square_no_dims k Hk h b T D (fixed_no_dims k h T _ Ef)). exact Ef. }
  destruct Es as (Es & Pr & Pc).
  assert (Dm : dimensions k b = Ok (r * c)) by (unfold dimensions; rewrite Hk, Es; apply int32_ok; nia).
  assert (PB : forall d, proper (square_dbox (r * c) lo hi d)).
  { intros d. split; [cbn; nia|]. intros i _. cbn. apply flt_fle', Hlt. }
  split; [exact Dm|]. split.
  - intros d. apply works_of; auto.
    + unfold init_size. rewrite Hk. exact Dm.
    + intros i _. unfold min_at. rewrite Hk, E1. reflexivity.
    + intros i _. unfold max_at. rewrite Hk, E2. reflexivity.
  - intros d Lde. destruct (square_delta k h b T D d Lde) as (E3 & Hd). apply moves_of; auto.
    + cbn [square_dbox dimD]. unfold two64. nia.
    + intros i _. unfold min_at. rewrite Hk, E1. reflexivity.
    + intros i _. unfold max_at. rewrite Hk, E2. reflexivity.
    + intros i _. unfold delta_at. rewrite Hk, E3. split; [reflexivity|exact Hd].
Qed.
Print Assumptions C80_square_box.

(** Rectangles: the user has to see to the order of the bounds and to the shapes
    himself. *)
Definition rect_dbox (lo hi d : var) : dbox :=
  mkDBox (Z.of_nat (length (vdata lo))) (fun i => nth i (vdata lo) d0) (fun i => nth i (vdata hi) d0) (fun i => nth i (vdata d) d0).
Theorem C80_rectangle_box : forall R k h b lo hi,
  rng_ok R -> sq k = false -> forallb (has_call k) h = true -> bdrive k (fresh k) h = Ok b ->
  last_call t_rangeV h (SetRangeV lo hi) ->
  vrows lo = vrows hi -> vcols lo = vcols hi ->
  (forall i, (i < length (vdata lo))%nat -> fle (nth i (vdata lo) d0) (nth i (vdata hi) d0) = true) ->
  (forall d, works R k b (rect_dbox lo hi d)) /\
  (forall d, last_call t_deltaV h (SetDeltaV d) -> length (vdata d) = length (vdata lo) ->
     1 <= Z.of_nat (length (vdata lo)) <= two64 -> moves R k b (rect_dbox lo hi d)).
Proof.
  intros R k h b lo hi HR Hk T D Lr Rr Rc Ho.
  destruct (rect_range k Hk h b T D lo hi Lr) as (E1 & E2 & El & V1 & V2).
  assert (Sz : Z.of_nat (length (vdata lo)) = vrows lo * vcols lo /\ forall r c, fixed k = Some (r, c) -> vrows lo = r /\ vcols lo = c).
  { unfold var_of in V1. apply andb_prop in V1. destruct V1 as (V1 & V1'). apply andb_prop in V1. destruct V1 as (V1 & V3).
    apply Z.eqb_eq in V3. split; [exact V3|]. intros r c Ef. rewrite Ef in V1'. apply andb_prop in V1'. rewrite !Z.eqb_eq in V1'. exact V1'. }
  destruct Sz as (Sz & Sf).
  assert (As : asize (v_min b) = Z.of_nat (length (vdata lo)) /\ asize (v_max b) = Z.of_nat (length (vdata lo))).
  { rewrite E1, E2. unfold asize, arr_of. cbn [data]. rewrite !map_length. split; [reflexivity|]. rewrite El. reflexivity. }
  destruct As as (A1 & A2).
  assert (Dm : dimensions k b = Ok (Z.of_nat (length (vdata lo)))).
  { unfold dimensions. rewrite Hk. destruct (fixed k) as [[r c]|] eqn:Ef.
    - destruct (Sf r c eq_refl) as (<- & <-). rewrite Sz. reflexivity.
    - rewrite A1, A2, Z.eqb_refl. rewrite E1, E2. cbn [arr_of rows negb]. rewrite Rr, Z.eqb_refl. cbn [negb]. rewrite andb_false_r. reflexivity. }
  assert (Di : init_size k b = Ok (Z.of_nat (length (vdata lo)))).
  { unfold init_size. rewrite Hk. destruct (fixed k) as [[r c]|] eqn:Ef.
    - destruct (Sf r c eq_refl) as (<- & <-). rewrite Sz. reflexivity.
    - destruct (vec k); [exact Dm|]. unfold box_rows, box_cols. rewrite Hk, Ef, E1, E2. cbn [arr_of rows cols]. rewrite Rr, Rc, !Z.eqb_refl. cbn [bind].
      rewrite <- Rr, <- Rc, Sz. reflexivity. }
  assert (M1 : forall i, (i < length (vdata lo))%nat -> min_at k b i = Ok (nth i (vdata lo) d0)).
  { intros i Hi. unfold min_at. rewrite Hk, E1. apply read_arr, Hi. }
  assert (M2 : forall i, (i < length (vdata lo))%nat -> max_at k b i = Ok (nth i (vdata hi) d0)).
  { intros i Hi. unfold max_at. rewrite Hk, E2. apply read_arr. lia. }
  assert (PB : forall d, proper (rect_dbox lo hi d)).
  { intros d. split; [cbn; lia|]. intros i Hi. cbn in Hi |- *. apply Ho. lia. }
  split.
  - intros d. apply works_of; cbn [rect_dbox dimD minD maxD]; auto; intros i Hi; [apply M1|apply M2]; lia.
  - intros d Ld Ldl Hn. destruct (rect_delta k Hk h b T D d Ld) as (E3 & Fd & _). apply moves_of; cbn [rect_dbox dimD minD maxD deltaD]; auto.
    + intros i Hi; apply M1; lia.
    + intros i Hi; apply M2; lia.
    + intros i Hi. unfold delta_at. rewrite Hk, E3, read_arr by lia. split; [reflexivity|].
      rewrite Forall_forall in Fd. apply Fd. apply nth_In. lia.
Qed.
Print Assumptions C80_rectangle_box.

(** The setters reject exactly what the documentation excludes. *)
Theorem C80_rejected_exactly : forall k b,
  (forall lo hi, bstep k b (SetRange lo hi) = Abort <-> flt lo hi = false) /\
  (forall d, bstep k b (SetDelta d) = Abort <-> flt d0 d = false) /\
  (forall r c, bstep k b (SetDimensions r c) = Abort <-> r <= 0 \/ c <= 0) /\
  (forall d, bstep k b (SetDeltaV d) = Abort <-> exists x, In x (vdata d) /\ flt d0 x = false) /\
  (forall lo hi, bstep k b (SetRangeV lo hi) = Abort <-> length (vdata lo) <> length (vdata hi)) /\
  forall c, bstep k b c <> UB /\ bstep k b c <> Fuel.
Proof.
  intros k b. split; [|split; [|split; [|split; [|split]]]].
  - intros lo hi. cbn [bstep]. destruct (flt lo hi); split; congruence.
  - intros d. cbn [bstep]. destruct (flt d0 d); split; congruence.
  - intros r c. cbn [bstep]. destruct (Z.leb_spec r 0); cbn [orb]; [split; [intros; lia|reflexivity]|].
    destruct (Z.leb_spec c 0); cbn [orb]; [split; [intros; lia|reflexivity]|]. destruct (sq k); split; try discriminate; lia.
  - intros d. cbn [bstep]. destruct (forallb (flt d0) (vdata d)) eqn:F; split; try discriminate.
    + intros (x & Hx & E). rewrite forallb_forall in F. rewrite (F x Hx) in E. discriminate E.
    + intros _. induction (vdata d) as [|y l IH]; [discriminate F|]. cbn [forallb] in F. destruct (flt d0 y) eqn:Ey.
      * destruct (IH F) as (x & Hx & E). exists x. split; [right; exact Hx|exact E].
      * exists y. split; [left; reflexivity|exact Ey].
    + reflexivity.
  - intros lo hi. cbn [bstep]. unfold asize, arr_of. cbn [data]. rewrite !map_length.
    destruct (Z.eqb_spec (Z.of_nat (length (vdata lo))) (Z.of_nat (length (vdata hi)))); split; try discriminate; try reflexivity; intros; lia.
  - intros c. destruct c; cbn [bstep]; repeat match goal with |- context [if ?x then _ else _] => destruct x end; split; discriminate.
Qed.
Print Assumptions C80_rejected_exactly.

(** Writing through the references min(), max(), delta() (no check at all)
    changes that bound, and nothing else of the box. *)
Theorem C80_references : forall k b,
  (sq k = true -> forall x,
     (exists b', bstep k b (RefMin x) = Ok b' /\ (forall i, min_at k b' i = Ok x /\ max_at k b' i = max_at k b i /\ delta_at k b' i = delta_at k b i) /\ dimensions k b' = dimensions k b) /\
     (exists b', bstep k b (RefMax x) = Ok b' /\ (forall i, max_at k b' i = Ok x /\ min_at k b' i = min_at k b i /\ delta_at k b' i = delta_at k b i) /\ dimensions k b' = dimensions k b) /\
     (exists b', bstep k b (RefDelta x) = Ok b' /\ (forall i, delta_at k b' i = Ok x /\ min_at k b' i = min_at k b i /\ max_at k b' i = max_at k b i) /\ dimensions k b' = dimensions k b)) /\
  (sq k = false -> forall v,
     (exists b', bstep k b (RefMinV v) = Ok b' /\ (forall i, (forall x, nth_error (vdata v) i = Some x -> min_at k b' i = Ok x) /\ max_at k b' i = max_at k b i /\ delta_at k b' i = delta_at k b i)) /\
     (exists b', bstep k b (RefMaxV v) = Ok b' /\ (forall i, (forall x, nth_error (vdata v) i = Some x -> max_at k b' i = Ok x) /\ min_at k b' i = min_at k b i /\ delta_at k b' i = delta_at k b i)) /\
     (exists b', bstep k b (RefDeltaV v) = Ok b' /\ (forall i, (forall x, nth_error (vdata v) i = Some x -> delta_at k b' i = Ok x) /\ min_at k b' i = min_at k b i /\ max_at k b' i = max_at k b i) /\ dimensions k b' = dimensions k b)).
Proof.
  assert (L : forall v i x, nth_error (vdata v) i = Some x -> read_at (arr_of v) i = Ok x).
  { intros v i x H. unfold read_at, arr_of. cbn [data]. rewrite nth_error_map, H. reflexivity. }
  intros k b. unfold min_at, max_at, delta_at, dimensions. split; intros Hk; rewrite Hk; intros x.
  - split; [|split]; (eexists; split; [reflexivity|]; cbn; split; [intros i; repeat split|reflexivity]).
  - split; [|split]; (eexists; split; [reflexivity|]; cbn [v_min v_max v_delta]); try (intros i; split; [apply L|split; reflexivity]).
    split; [intros i; split; [apply L|split; reflexivity]|reflexivity].
Qed.
Print Assumptions C80_references.

(** A setter that was never called leaves its member uninitialised; every
    operation that needs it reads it. *)
Theorem C80_unset_is_undefined : forall R k h b,
  sq k = true -> forallb (has_call k) h = true -> bdrive k (fresh k) h = Ok b ->
  (fixed k = None -> no_call t_dims h ->
     dimensions k b = UB /\ (forall g, initialize R k b g = UB) /\ (forall v, applyConstraint k b v = UB) /\ forall v g, applyDelta R k b v g = UB) /\
  (forall n, dimensions k b = Ok n -> 0 < n -> no_call t_range h ->
     (forall g, initialize R k b g = UB) /\ (forall v, Z.of_nat (length v) = n -> applyConstraint k b v = UB)) /\
  (forall n, dimensions k b = Ok n -> no_call t_delta h -> forall v g, Z.of_nat (length v) = n -> applyDelta R k b v g = UB).
Proof.
  intros R k h b Hk T D. split; [|split].
  - intros Ef N. assert (E : dimensions k b = UB) by (unfold dimensions; rewrite Hk, (square_no_dims k Hk h b T D N), Ef; reflexivity).
    split; [exact E|]. unfold initialize, init_size, applyConstraint, applyDelta. rewrite Hk, E. cbn [bind]. repeat split.
  - intros n E P N. destruct (square_no_range k h b T D N) as (E1 & E2).
    split.
    + intros g. unfold initialize, init_size. rewrite Hk, E. cbn [bind]. destruct (Z.to_nat n) eqn:Q; [lia|]. cbn [init_loop]. unfold min_at. rewrite Hk, E1. reflexivity.
    + intros v L. unfold applyConstraint. rewrite E. cbn [bind]. rewrite L, Z.eqb_refl. destruct v as [|x v]; [cbn in L; lia|]. cbn [constrain_loop]. unfold max_at. rewrite Hk, E2. reflexivity.
  - intros n E N v g L. pose proof (square_no_delta k h b T D N) as E3. unfold applyDelta. rewrite E. cbn [bind]. rewrite L, Z.eqb_refl. cbn [negb].
    destruct (randIdx R n g) as [idx g1]. destruct (randD_range R (d_of_Z (-1)) d1 g1) as [r g2]. unfold get_at. destruct (idx <? 0); [reflexivity|].
    destruct (nth_error v (Z.to_nat idx)); [|reflexivity]. cbn [bind]. unfold delta_at. rewrite Hk, E3. reflexivity.
Qed.
Print Assumptions C80_unset_is_undefined.

Definition dyn_sq_vec : kind := mkKind true None true false.
Definition dyn_sq_mat : kind := mkKind true None false false.
Definition dyn_rect_vec : kind := mkKind false None true false.
Definition dyn_rect_mat : kind := mkKind false None false false.
Definition fix_rect_vec (n : Z) : kind := mkKind false (Some (n, 1)) true false.
Definition colv (l : list double) : var := mkVar (Z.of_nat (length l)) 1 l.

Example ex_C80_square : exists h b, forallb (has_call dyn_sq_mat) h = true /\ bdrive dyn_sq_mat (fresh dyn_sq_mat) h = Ok b /\
  last_call t_range h (SetRange d0 d1) /\ last_call t_dims h (SetDimensions 2 3) /\ last_call t_delta h (SetDelta (fofZ 1 (-2))).
Proof.
  set (h := [SetDimensions 7 1; RefMax d0; SetRange d0 d1; SetDelta (fofZ 1 (-2)); SetDimensions 2 3]). exists h. eexists. split; [reflexivity|].
  split; [reflexivity|]. split; [|split]; (split; [reflexivity|]).
  - exists [SetDimensions 7 1; RefMax d0], [SetDelta (fofZ 1 (-2)); SetDimensions 2 3]. split; [reflexivity|]. intros x [<- |[<- |[]]]; reflexivity.
  - exists [SetDimensions 7 1; RefMax d0; SetRange d0 d1; SetDelta (fofZ 1 (-2))], []. split; [reflexivity|]. intros x [].
  - exists [SetDimensions 7 1; RefMax d0; SetRange d0 d1], [SetDimensions 2 3]. split; [reflexivity|]. intros x [<- |[]]; reflexivity.
Qed.
Example ex_C80_rectangle : exists h b, forallb (has_call dyn_rect_vec) h = true /\ bdrive dyn_rect_vec (fresh dyn_rect_vec) h = Ok b /\
  last_call t_rangeV h (SetRangeV (colv [d0; d0]) (colv [d1; d_of_Z 3])) /\ last_call t_deltaV h (SetDeltaV (colv [d1; d1])).
Proof.
  set (h := [RefMinV (colv [d1]); SetRangeV (colv [d0; d0]) (colv [d1; d_of_Z 3]); SetDeltaV (colv [d1; d1])]). exists h. eexists. split; [reflexivity|].
  split; [reflexivity|]. split; (split; [reflexivity|]).
  - exists [RefMinV (colv [d1])], [SetDeltaV (colv [d1; d1])]. split; [reflexivity|]. intros x [<- |[]]; reflexivity.
  - exists [RefMinV (colv [d1]); SetRangeV (colv [d0; d0]) (colv [d1; d_of_Z 3])], []. split; [reflexivity|]. intros x [].
Qed.

(** Refuted: a rectangle accepts min > max, and applyConstraint then puts every
    variable out of the box. *)
Theorem C80_rectangle_order_unchecked_refuted : exists h b, forallb (has_call dyn_rect_vec) h = true /\
  h = [SetRangeV (colv [d1]) (colv [d0])] /\ bdrive dyn_rect_vec (fresh dyn_rect_vec) h = Ok b /\
  forall x : double, nonnan x -> exists y, applyConstraint dyn_rect_vec b [x] = Ok [y] /\ fle y d0 = false.
Proof.
  exists [SetRangeV (colv [d1]) (colv [d0])]. eexists. split; [reflexivity|]. split; [reflexivity|]. split; [reflexivity|].
  intros x Nx. eexists. split; [reflexivity|]. cbn [read_at arr_of data map].
  unfold clampD. assert (N0 : nonnan d0) by reflexivity. assert (N1 : nonnan d1) by (vm_compute; reflexivity).
  assert (E01 : flt d0 d1 = true) by (vm_compute; reflexivity).
  assert (Q : fle (dmin x d0) d0 = true).
  { unfold dmin. destruct (flt d0 x) eqn:E; [apply fle_refl; exact N0|]. apply fle_iff; auto.
    destruct (Rle_dec (fval x) (fval d0)); [assumption|]. exfalso. assert (flt d0 x = true) by (apply flt_iff; auto; lra). congruence. }
  assert (Nm : nonnan (dmin x d0)) by (unfold dmin; destruct (flt d0 x); assumption).
  apply fle_true in Q. apply flt_true in E01. destruct Q as (_ & _ & Q). destruct E01 as (_ & _ & E01).
  unfold dmax. assert (flt (dmin x d0) d1 = true) as -> by (apply flt_iff; auto; lra). vm_compute; reflexivity.
Qed.
Print Assumptions C80_rectangle_order_unchecked_refuted.

(** Refuted: setDelta of a rectangle does not compare sizes; with one delta for
    two dimensions applyDelta reads past the end whenever it picks the second. *)
Theorem C80_delta_size_unchecked_refuted : exists h b, forallb (has_call dyn_rect_vec) h = true /\
  bdrive dyn_rect_vec (fresh dyn_rect_vec) h = Ok b /\
  h = [SetRangeV (colv [d0; d0]) (colv [d1; d1]); SetDeltaV (colv [d1])] /\
  forall R v g, length v = 2%nat -> fst (randIdx R 2 g) = 1 -> applyDelta R dyn_rect_vec b v g = UB.
Proof.
  exists [SetRangeV (colv [d0; d0]) (colv [d1; d1]); SetDeltaV (colv [d1])]. eexists. split; [reflexivity|]. split; [reflexivity|]. split; [reflexivity|].
  intros R v g L E. unfold applyDelta. match goal with |- (do n <- ?d; _) = _ => assert (d = Ok 2) as -> by reflexivity end. cbn [bind]. rewrite L. cbn [Z.of_nat Pos.of_succ_nat Pos.succ Z.eqb Pos.eqb negb].
  destruct (randIdx R 2 g) as [idx g1]. cbn [fst] in E. subst idx. destruct (randD_range R (d_of_Z (-1)) d1 g1) as [r g2].
  destruct v as [|x0 [|x1 [|]]]; try discriminate L. reflexivity.
Qed.
Print Assumptions C80_delta_size_unchecked_refuted.

(** Refuted: setDimensions of a rectangle after setRange forgets the bounds. *)
Theorem C80_resize_forgets_refuted : exists h b, forallb (has_call dyn_rect_mat) h = true /\
  bdrive dyn_rect_mat (fresh dyn_rect_mat) h = Ok b /\
  h = [SetRangeV (mkVar 1 2 [d0; d0]) (mkVar 1 2 [d1; d1]); SetDimensions 2 2] /\
  forall R g, initialize R dyn_rect_mat b g = UB.
Proof. exists [SetRangeV (mkVar 1 2 [d0; d0]) (mkVar 1 2 [d1; d1]); SetDimensions 2 2]. eexists. repeat split. Qed.
Print Assumptions C80_resize_forgets_refuted.

(** Refuted: dimensions that are accepted one by one but overflow the int
    product. *)
Theorem C80_dimensions_overflow_refuted : exists h b, forallb (has_call dyn_sq_mat) h = true /\
  bdrive dyn_sq_mat (fresh dyn_sq_mat) h = Ok b /\ In (SetDimensions 65536 32768) h /\ dimensions dyn_sq_mat b = UB.
Proof. exists [SetRange d0 d1; SetDimensions 65536 32768]. eexists. split; [reflexivity|]. split; [reflexivity|]. split; [right; left; reflexivity|reflexivity]. Qed.
Print Assumptions C80_dimensions_overflow_refuted.

(** Refuted: setRange accepts ranges whose length is not representable; then
    initialize() never gives a variable in the box, whatever the draws. *)
Definition dbl_max : double := fofZ 9007199254740991 971.
Theorem C80_wide_range_refuted : exists h b, forallb (has_call dyn_sq_vec) h = true /\
  bdrive dyn_sq_vec (fresh dyn_sq_vec) h = Ok b /\ h = [SetDimensions 1 1; SetRange (fopp dbl_max) dbl_max] /\
  forall R g, rng_ok R -> exists x g', initialize R dyn_sq_vec b g = Ok ([x], g') /\ fle x dbl_max = false.
Proof.
  exists [SetDimensions 1 1; SetRange (fopp dbl_max) dbl_max]. eexists. split; [reflexivity|].
  split; [cbn [bdrive bstep]; match goal with |- context [flt ?a ?b] => assert (flt a b = true) as -> by (vm_compute; reflexivity) end; reflexivity|]. split; [reflexivity|].
  intros R g (Hr & _). unfold initialize. match goal with |- context [init_size ?k ?b] => assert (init_size k b = Ok 1) as -> by reflexivity end.
  cbn [bind]. change (Z.to_nat 1) with 1%nat. cbn [init_loop]. unfold min_at, max_at. cbn [sq dyn_sq_vec read s_min s_max bind]. unfold randD_range.
  specialize (Hr g). destruct (rand01 R g) as [d g']. cbn [fst] in Hr. cbn [bind fst snd]. eexists _, _. split; [reflexivity|].
  unfold affineD. assert (E : fsub dbl_max (fopp dbl_max) = B754_infinity false) by (vm_compute; reflexivity). rewrite E.
  destruct Hr as (H1 & H2). destruct d as [s|s| |s m e Hb]; try (destruct s); try discriminate H1; try discriminate H2; try reflexivity.
Qed.
Print Assumptions C80_wide_range_refuted.

(** delta(r, c) of a rectangular matrix box is the coefficient at row r, column c
    of the matrix given to setDelta -- for column-major matrices. *)
Definition coeff (row_major : bool) (v : var) (r c : Z) : double :=
  nth (Z.to_nat (if row_major then r * vcols v + c else r + c * vrows v)) (vdata v) d0.
Theorem C80_delta_at_row_column : forall k h b lo hi d r c,
  sq k = false -> vec k = false -> row_major k = false -> forallb (has_call k) h = true -> bdrive k (fresh k) h = Ok b ->
  last_call t_rangeV h (SetRangeV lo hi) -> last_call t_deltaV h (SetDeltaV d) ->
  vrows lo = vrows hi -> vcols lo = vcols hi -> vrows d = vrows lo -> vcols d = vcols lo ->
  0 <= r < vrows d -> 0 <= c < vcols d -> delta_rc k b r c = Ok (coeff (row_major k) d r c).
Proof.
  intros k h b lo hi d r c Hk Hv Hm T D Lr Ld R1 C1 R2 C2 Hr Hc.
  destruct (rect_range k Hk h b T D lo hi Lr) as (E1 & E2 & El & V1 & V2).
  destruct (rect_delta k Hk h b T D d Ld) as (E3 & _ & V3).
  assert (Sf : forall v, var_of k v = true -> Z.of_nat (length (vdata v)) = vrows v * vcols v /\ forall r c, fixed k = Some (r, c) -> vrows v = r /\ vcols v = c).
  { intros v W. unfold var_of in W. apply andb_prop in W. destruct W as (W & W'). apply andb_prop in W. destruct W as (_ & W).
    apply Z.eqb_eq in W. split; [exact W|]. intros r' c' Ef. rewrite Ef in W'. apply andb_prop in W'. rewrite !Z.eqb_eq in W'. exact W'. }
  destruct (Sf d V3) as (Sd & _). destruct (Sf lo V1) as (_ & Sl).
  unfold delta_rc, box_rows, box_cols. rewrite Hk.
  assert (Er : match fixed k with Some (r, _) => Ok r | None => if rows (v_min b) =? rows (v_max b) then Ok (rows (v_min b)) else Abort end = Ok (vrows d)).
  { destruct (fixed k) as [[r' c']|]; [destruct (Sl r' c' eq_refl); congruence|]. rewrite E1, E2. cbn [arr_of rows]. rewrite R1, Z.eqb_refl. congruence. }
  assert (Ec : match fixed k with Some (_, c) => Ok c | None => if cols (v_min b) =? cols (v_max b) then Ok (cols (v_min b)) else Abort end = Ok (vcols d)).
  { destruct (fixed k) as [[r' c']|]; [destruct (Sl r' c' eq_refl); congruence|]. rewrite E1, E2. cbn [arr_of cols]. rewrite C1, Z.eqb_refl. congruence. }
  rewrite Er, Ec. cbn [bind]. destruct (Z.ltb_spec r 0); [lia|]. destruct (Z.leb_spec (vrows d) r); [lia|]. destruct (Z.ltb_spec c 0); [lia|].
  destruct (Z.leb_spec (vcols d) c); [lia|]. cbn [orb]. unfold delta_at. rewrite Hk, E3, read_arr by nia. unfold coeff. rewrite Hm. reflexivity.
Qed.
Print Assumptions C80_delta_at_row_column.
(** Refuted for row-major ones. *)
Theorem C80_delta_row_major_refuted : exists k h b d x, row_major k = true /\ forallb (has_call k) h = true /\ bdrive k (fresh k) h = Ok b /\
  last_call t_deltaV h (SetDeltaV d) /\ delta_rc k b 0 1 = Ok x /\ feq x (coeff true d 0 1) = false.
Proof.
  set (k := mkKind false None false true). set (d := mkVar 2 3 [d1; d_of_Z 2; d_of_Z 3; d_of_Z 4; d_of_Z 5; d_of_Z 6]).
  set (z := mkVar 2 3 [d0; d0; d0; d0; d0; d0]).
  assert (D : bdrive k (fresh k) [SetRangeV z d; SetDeltaV d] = Ok (mkBox None None None (arr_of z) (arr_of d) (arr_of d) None)).
  { cbn [bdrive]. change (bstep k (fresh k) (SetRangeV z d)) with (Ok (mkBox None None None (arr_of z) (arr_of d) (mkArr 0 0 []) None)). cbn [bind bstep].
    assert (forallb (flt d0) (vdata d) = true) as -> by (vm_compute; reflexivity). reflexivity. }
  exists k, [SetRangeV z d; SetDeltaV d], (mkBox None None None (arr_of z) (arr_of d) (arr_of d) None), d, (d_of_Z 3).
  split; [reflexivity|]. split; [reflexivity|]. split; [exact D|].
  split; [split; [reflexivity|]; exists [SetRangeV z d], []; split; [reflexivity|intros x []]|]. split; [reflexivity|vm_compute; reflexivity].
Qed.
Print Assumptions C80_delta_row_major_refuted.

(** * C81: the infinite box *)
(** [n] successive draws. *)
Fixpoint draws {S} (norm : S -> double * S) (n : nat) (g : S) : list double * S :=
  match n with O => ([], g) | Datatypes.S m => let (x, g1) := norm g in let (t, g2) := draws norm m g1 in (x :: t, g2) end.
(** After setMu(m), setSigma(s), setDelta(d) and setDimensions (the last ones of their sort),
    initialize() fills the variable with successive normal draws, scaled and
    shifted; applyConstraint() changes nothing; applyDelta() moves one coordinate
    by at most d. *)
Definition g_last (f : gcall -> bool) (h : list gcall) (c : gcall) : Prop := exists h1 h2, h = h1 ++ c :: h2 /\ forall x, In x h2 -> f x = false.
Definition is_mu c := match c with SetMu _ => true | _ => false end.
Definition is_sigma c := match c with SetSigma _ => true | _ => false end.
Definition is_gdelta c := match c with SetGDelta _ => true | _ => false end.
Definition is_gdims c := match c with SetGDims _ _ => true | _ => false end.
Lemma gdrive_app h1 : forall b h2, gdrive b (h1 ++ h2) = (do b1 <- gdrive b h1; gdrive b1 h2).
Proof. induction h1 as [|c h IH]; intros b h2; cbn [gdrive app]; [reflexivity|]. destruct (gstep b c); cbn [bind]; try reflexivity. apply IH. Qed.
Lemma gstep_frame b c b' : gstep b c = Ok b' ->
  (is_mu c = false -> g_mu b' = g_mu b) /\ (is_sigma c = false -> g_sigma b' = g_sigma b) /\ (is_gdelta c = false -> g_delta b' = g_delta b) /\ (is_gdims c = false -> g_size b' = g_size b).
Proof.
  destruct c; cbn [gstep]; intros H; repeat match type of H with context [if ?x then _ else _] => destruct x; try discriminate H end; inversion H; subst; repeat split; intros; try discriminate; reflexivity.
Qed.
Lemma gkeep {X} (f : gcall -> bool) (p : gbox -> X) (K : forall b c b', gstep b c = Ok b' -> f c = false -> p b' = p b) h :
  forall b b', (forall x, In x h -> f x = false) -> gdrive b h = Ok b' -> p b' = p b.
Proof.
  induction h as [|c h IH]; intros b b' F H; cbn [gdrive] in H; [congruence|]. apply bind_Ok in H. destruct H as (b1 & H1 & H).
  rewrite (IH b1 b' (fun x Hx => F x (or_intror Hx)) H). apply (K b c b1 H1). apply F. left. reflexivity.
Qed.
Lemma glast {X} (f : gcall -> bool) (p : gbox -> X) (K : forall b c b', gstep b c = Ok b' -> f c = false -> p b' = p b) h c b b' :
  g_last f h c -> gdrive b h = Ok b' -> exists b1 b2, gstep b1 c = Ok b2 /\ p b' = p b2.
Proof.
  intros (h1 & h2 & -> & F) H. rewrite gdrive_app in H. apply bind_Ok in H. destruct H as (b1 & _ & H). cbn [gdrive] in H. apply bind_Ok in H.
  destruct H as (b2 & H2 & H). exists b1, b2. split; [exact H2|]. exact (gkeep f p K h2 b2 b' F H).
Qed.

Lemma gauss_loop_draws R norm b m s n : g_mu b = Some m -> g_sigma b = Some s -> forall g,
  let (xs, g') := draws norm n g in gauss_loop R norm b n g = Ok (map (fun x => fadd (fmul x s) m) xs, g') /\ length xs = n.
Proof.
  intros E1 E2. induction n as [|n IH]; intros g; cbn [draws gauss_loop]; [split; reflexivity|].
  rewrite E1, E2. cbn [read bind]. unfold normD. destruct (norm g) as [x g1]. specialize (IH g1). destruct (draws norm n g1) as [xs g2].
  destruct IH as (-> & L). cbn [bind fst snd map length]. split; [reflexivity|]. rewrite L. reflexivity.
Qed.
Theorem C81_gaussian_box : forall R norm fx h b m s n,
  rng_ok R -> gdrive (g_fresh fx) h = Ok b -> g_last is_mu h (SetMu m) -> g_last is_sigma h (SetSigma s) ->
  ((exists r c, fx = Some (r, c) /\ n = r * c /\ forall x, In x h -> is_gdims x = false) \/ exists r c, g_last is_gdims h (SetGDims r c) /\ n = r * c) ->
  1 <= n < 2147483648 ->
  flt d0 s = true /\
  (forall g, let (xs, g') := draws norm (Z.to_nat n) g in
     g_initialize R norm b g = Ok (map (fun x => fadd (fmul x s) m) xs, g') /\ length xs = Z.to_nat n) /\
  (forall v, g_applyConstraint v = Ok v) /\
  (forall d v g, g_last is_gdelta h (SetGDelta d) -> fin d -> Z.of_nat (length v) = n ->
     exists v' g' i x st, g_applyDelta R b v g = Ok (v', g') /\ only_at i v v' /\ nth_error v i = Some x /\ nth_error v' i = Some (fadd x st) /\
       fle (fopp d) st = true /\ fle st d = true).
Proof.
  intros R norm fx h b m s n HR D Lm Ls Ln Hn.
  destruct (glast is_mu g_mu (fun b c b' H => proj1 (gstep_frame b c b' H)) h _ _ _ Lm D) as (b1 & b2 & S1 & Em). cbn [gstep] in S1. inversion S1; subst b2. cbn [g_mu] in Em. clear S1.
  destruct (glast is_sigma g_sigma (fun b c b' H => proj1 (proj2 (gstep_frame b c b' H))) h _ _ _ Ls D) as (b3 & b4 & S1 & Es). cbn [gstep] in S1.
  destruct (flt d0 s) eqn:Ps; [|discriminate S1]. inversion S1; subst b4. cbn [g_sigma] in Es. clear S1.
  assert (Dm : g_dims b = Ok n).
  { unfold g_dims. destruct Ln as [(r & c & -> & -> & N)|(r & c & L & ->)].
    - rewrite (gkeep is_gdims g_size (fun b c b' H => proj2 (proj2 (proj2 (gstep_frame b c b' H)))) h _ _ N D). cbn [g_fresh g_size]. apply int32_ok. lia.
    - destruct (glast is_gdims g_size (fun b c b' H => proj2 (proj2 (proj2 (gstep_frame b c b' H)))) h _ _ _ L D) as (b5 & b6 & S1 & E). cbn [gstep] in S1.
      destruct ((r <=? 0) || (c <=? 0)); [discriminate S1|]. inversion S1; subst b6. cbn [g_size] in E. rewrite E. apply int32_ok. lia. }
  split; [reflexivity|]. split; [|split; [reflexivity|]].
  - intros g. unfold g_initialize. rewrite Dm. cbn [bind]. exact (gauss_loop_draws R norm b m s (Z.to_nat n) Em Es g).
  - intros d v g Ld Fd L.
    destruct (glast is_gdelta g_delta (fun b c b' H => proj1 (proj2 (proj2 (gstep_frame b c b' H)))) h _ _ _ Ld D) as (b5 & b6 & S1 & Ed). cbn [gstep] in S1.
    destruct (flt d0 d) eqn:Pd; [|discriminate S1]. inversion S1; subst b6. cbn [g_delta] in Ed. clear S1.
    unfold g_applyDelta. rewrite Dm. cbn [bind]. rewrite L, Z.eqb_refl. cbn [negb].
    pose proof (randIdx_range R n g HR ltac:(unfold two64; lia)) as HI. destruct (randIdx R n g) as [idx g1]. cbn [fst] in HI.
    pose proof (unit_sym_draw R g1 HR) as HU. destruct (randD_range R (d_of_Z (-1)) d1 g1) as [r g2]. cbn [fst] in HU. destruct HU as (Fr & Hr).
    destruct (scaled_step r d Fr Hr Fd (flt_fle' _ _ Pd)) as (_ & S1 & S2).
    destruct (get_at_in v idx ltac:(lia)) as (x & Ex & Ex'). rewrite Ex. cbn [bind]. rewrite Ed. cbn [read bind].
    eexists _, _, (Z.to_nat idx), x, (fmul r d). split; [reflexivity|]. split; [split; [apply set_at_length|intros; apply set_at_other; assumption]|].
    split; [exact Ex'|]. split; [apply set_at_same; lia|]. split; [exact S1|exact S2].
Qed.
Print Assumptions C81_gaussian_box.
Lemma add_fin_inv (x y : double) : fin (fadd x y) -> fin x /\ fin y /\ B2R (fadd x y) = drnd (B2R x + B2R y).
Proof.
  intros F. assert (Fxy : fin x /\ fin y) by (destruct x as [[]|[]| |[]]; destruct y as [[]|[]| |[]]; split; first [reflexivity|discriminate F]).
  destruct Fxy as (Fx & Fy). split; [exact Fx|]. split; [exact Fy|].
  pose proof (Bplus_correct 53 1024 _ _ mode_NE x y Fx Fy) as C. cbn [round_mode] in C.
  destruct (Rlt_bool _ _); [destruct C as (C & _); exact C|]. destruct C as (C & _). exfalso. unfold fadd, fin in F.
  destruct (Bplus mode_NE x y); cbn in F; try discriminate F; cbn [B2SF] in C; unfold binary_overflow in C; cbn in C; discriminate C.
Qed.
Lemma mul_fin_inv (x y : double) : fin (fmul x y) -> fin x /\ fin y /\ B2R (fmul x y) = drnd (B2R x * B2R y).
Proof.
  intros F. assert (Fxy : fin x /\ fin y) by (destruct x as [[]|[]| |[]]; destruct y as [[]|[]| |[]]; split; first [reflexivity|discriminate F]).
  destruct Fxy as (Fx & Fy). split; [exact Fx|]. split; [exact Fy|].
  pose proof (Bmult_correct 53 1024 _ _ mode_NE x y) as C. cbn [round_mode] in C.
  destruct (Rlt_bool _ _); [destruct C as (C & _); exact C|]. exfalso. unfold fmul, fin in F.
  destruct (Bmult mode_NE x y); cbn in F; try discriminate F; cbn [B2SF] in C; unfold binary_overflow in C; cbn in C; discriminate C.
Qed.
(** Each coordinate is the correctly rounded sum of mu and the correctly rounded
    product of the draw and sigma, if nothing overflows. *)
Theorem C81_coordinate_value : forall x s m : double, fin (fadd (fmul x s) m) ->
  B2R (fadd (fmul x s) m) = drnd (drnd (B2R x * B2R s) + B2R m)%R.
Proof.
  intros x s m F. destruct (add_fin_inv _ _ F) as (F1 & _ & ->). destruct (mul_fin_inv _ _ F1) as (_ & _ & ->). reflexivity.
Qed.
Print Assumptions C81_coordinate_value.

(** The box with bounds -inf and +inf: the operations of the infinite box are
    those of a continuous box with these bounds, so that the theorems on AOS over
    a box that do not ask for finite bounds apply to AOS_inf as well. *)
Theorem C81_infinite_bounds : forall R b n d v g, g_dims b = Ok n -> g_delta b = Some d ->
  let B := square_dbox n (B754_infinity true) (B754_infinity false) d in
  g_applyDelta R b v g = applyDeltaD R B v g /\
  (Z.of_nat (length v) = n -> g_applyConstraint v = applyConstraintD B v).
Proof.
  intros R b n d v g Hn Hd B.
  assert (Q : forall x : double, clampD (B754_infinity true) (B754_infinity false) x = x).
  { intros x. unfold clampD, dmin. assert (flt (B754_infinity false) x = false) as -> by (destruct x as [[]|[]| |[]]; reflexivity).
    unfold dmax. assert (flt x (B754_infinity true) = false) as -> by (destruct x as [[]|[]| |[]]; reflexivity). reflexivity. }
  split.
  - unfold g_applyDelta, applyDeltaD. rewrite Hn. cbn [bind B square_dbox dimD]. destruct (negb _); [reflexivity|]. destruct (randIdx R n g) as [idx g1].
    destruct (randD_range R (d_of_Z (-1)) d1 g1) as [r g2]. unfold moveD. destruct (get_at v idx) as [x| | |]; try reflexivity. cbn [bind].
    rewrite Hd. cbn [read bind deltaD minD maxD square_dbox]. rewrite Q. reflexivity.
  - intros L. unfold g_applyConstraint, applyConstraintD. cbn [B square_dbox dimD]. rewrite L, Z.eqb_refl. f_equal.
    assert (P : forall l idx, constrainD B l idx = l). { induction l as [|x l IH]; intros idx; [reflexivity|]. cbn [constrainD B square_dbox minD maxD]. rewrite Q. f_equal. apply IH. }
    symmetry. apply P.
Qed.
Print Assumptions C81_infinite_bounds.

(** What was not set is read uninitialised; sigma is checked. *)
Theorem C81_unset_is_undefined : forall R norm fx h b, gdrive (g_fresh fx) h = Ok b ->
  (forall s b0, gstep b0 (SetSigma s) = Abort <-> flt d0 s = false) /\
  (fx = None -> (forall x, In x h -> is_gdims x = false) -> (forall g, g_initialize R norm b g = UB) /\ forall v g, g_applyDelta R b v g = UB) /\
  (forall n, g_dims b = Ok n -> 0 < n -> (forall x, In x h -> is_mu x = false) \/ (forall x, In x h -> is_sigma x = false) ->
     forall g, g_initialize R norm b g = UB) /\
  (forall n, g_dims b = Ok n -> (forall x, In x h -> is_gdelta x = false) -> forall v g, Z.of_nat (length v) = n -> g_applyDelta R b v g = UB).
Proof.
  intros R norm fx h b D. split; [|split; [|split]].
  - intros s b0. cbn [gstep]. destruct (flt d0 s); split; congruence.
  - intros -> N. assert (E : g_dims b = UB).
    { unfold g_dims. rewrite (gkeep is_gdims g_size (fun b c b' H => proj2 (proj2 (proj2 (gstep_frame b c b' H)))) h _ _ N D). reflexivity. }
    unfold g_initialize, g_applyDelta. rewrite E. split; reflexivity.
  - intros n E P N g. unfold g_initialize. rewrite E. cbn [bind]. destruct (Z.to_nat n) eqn:Q; [lia|]. cbn [gauss_loop]. destruct N as [N|N].
    + rewrite (gkeep is_mu g_mu (fun b c b' H => proj1 (gstep_frame b c b' H)) h _ _ N D). reflexivity.
    + rewrite (gkeep is_sigma g_sigma (fun b c b' H => proj1 (proj2 (gstep_frame b c b' H))) h _ _ N D). cbn [g_fresh g_sigma read].
      destruct (g_mu b); reflexivity.
  - intros n E N v g L. unfold g_applyDelta. rewrite E. cbn [bind]. rewrite L, Z.eqb_refl. cbn [negb].
    destruct (randIdx R n g) as [idx g1]. destruct (randD_range R (d_of_Z (-1)) d1 g1) as [r g2]. unfold get_at. destruct (idx <? 0); [reflexivity|].
    destruct (nth_error v (Z.to_nat idx)); [|reflexivity]. cbn [bind].
    rewrite (gkeep is_gdelta g_delta (fun b c b' H => proj1 (proj2 (proj2 (gstep_frame b c b' H)))) h _ _ N D). reflexivity.
Qed.
Print Assumptions C81_unset_is_undefined.
Example ex_C81 : exists b, gdrive (g_fresh None) [SetMu d1; SetGDims 2 1; SetSigma d1; SetGDelta d1] = Ok b /\
  g_last is_mu [SetMu d1; SetGDims 2 1; SetSigma d1; SetGDelta d1] (SetMu d1) /\
  exists v, g_initialize replay (fun g => (fofZ 3 (-1), g)) b [] = Ok (v, []) /\ map (feq (fofZ 5 (-1))) v = [true; true].
Proof.
  eexists. split; [reflexivity|]. split; [exists [], [SetGDims 2 1; SetSigma d1; SetGDelta d1]; split; [reflexivity|intros x [<-|[<-|[<-|[]]]]; reflexivity]|].
  eexists. split; [reflexivity|]. vm_compute. reflexivity.
Qed.
