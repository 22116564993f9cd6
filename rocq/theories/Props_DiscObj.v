(** C101: discrete boxes and float boxes as objects. *)
From Coq Require Import List Arith ZArith Bool Lia Reals Lra.
From Flocq Require Import Core BinarySingleNaN.
From Verif Require Import Props_Box Props_BoxF.
From Verif Require Import Base Fl FlFacts Rng RandProofs Box BoxProofs BoxF BoxFProofs BoxObj BoxObjProofs DiscObj DiscObjProofs.
Import ListNotations.
Open Scope Z_scope.

(** * Specification
    [in_ibox], [only_at]: Props_Box.v; [in_fbox], [nearest_f], [proper_f]: Props_BoxF.v. *)
Definition square_ibox (n lo hi : Z) : ibox := mkIBox n (fun _ => lo) (fun _ => hi).
Definition rect_ibox (lo hi : nvar Z) : ibox := mkIBox (Z.of_nat (length (nvdata lo))) (fun i => nth i (nvdata lo) 0) (fun i => nth i (nvdata hi) 0).
(** What a box of integers of type t promises.  initialize() computes 1 + max and
    max - min, applyDelta() one step beyond a bound: the bounds must leave room. *)
Definition int_box_works (R : rng_ops) (t : ity) (k : kind) (b : nbox Z) (B : ibox) : Prop :=
  ndims k b = Ok (dimI B) /\
  ((forall i, Z.of_nat i < dimI B -> imin t <= minI B i /\ maxI B i < imax t /\ maxI B i - minI B i < imax t) ->
     forall g, exists v g', i_initialize R t k b g = Ok (v, g') /\ in_ibox B v) /\
  (forall v, Z.of_nat (length v) = dimI B -> exists v', i_constrain k b v = Ok v' /\ in_ibox B v' /\
     forall i x, nth_error v i = Some x -> exists y, nth_error v' i = Some y /\
       (minI B i <= x <= maxI B i -> y = x) /\ (x < minI B i -> y = minI B i) /\ (maxI B i < x -> y = maxI B i)) /\
  ((forall i, Z.of_nat i < dimI B -> imin t < minI B i /\ maxI B i < imax t) -> 1 <= dimI B ->
     forall v g, in_ibox B v -> exists v' g', i_move R t k b v g = Ok (v', g') /\ in_ibox B v' /\
       exists i x y, only_at i v v' /\ nth_error v i = Some x /\ nth_error v' i = Some y /\
         (y = x + 1 \/ y = x - 1 \/ (y = x /\ (x = minI B i \/ x = maxI B i)))) /\
  (forall v g, Z.of_nat (length v) <> dimI B -> i_constrain k b v = Abort /\ i_move R t k b v g = Abort).
Lemma int_works_of R t k b B : rng_ok R -> 0 < ibits t <= 64 -> 0 <= dimI B < 2147483648 -> (forall i, Z.of_nat i < dimI B -> minI B i <= maxI B i) ->
  ndims k b = Ok (dimI B) -> ninit_size k b = Ok (dimI B) ->
  (forall i, Z.of_nat i < dimI B -> nmin_at k b i = Ok (minI B i)) -> (forall i, Z.of_nat i < dimI B -> nmax_at k b i = Ok (maxI B i)) -> int_box_works R t k b B.
Proof.
  intros HR Ht H0 Ho Hd Hi Hmin Hmax. split; [exact Hd|]. split; [|split; [|split]].
  - intros Hb g. rewrite (i_initialize_same R k t b B Hmin Hmax g Hi (proj1 H0)). apply C39_initialize_int; try assumption; [lia|].
    intros i Hlt. destruct (Hb i Hlt) as (A1 & A2 & A3). specialize (Ho i Hlt). lia.
  - intros v L. rewrite (i_constrain_same k b B Hd Hmin Hmax). destruct (C38_applyConstraint_int B v Ho L) as (v' & E & I & Q). exists v'. split; [exact E|]. split; [exact I|].
    intros i x Ex. destruct (nth_error v' i) as [y|] eqn:Ey; [exists y; split; [reflexivity|exact (Q i x y Ex Ey)]|].
    apply nth_error_None in Ey. assert (i < length v)%nat by (apply nth_error_Some; congruence). destruct I as (I & _). lia.
  - intros Hb H1 v g Hv. rewrite (i_move_same R k t b B Hd Hmin Hmax v g HR) by (unfold two64; lia).
    apply C40_applyDelta_int; try assumption; [lia|unfold two64; lia].
  - intros v g L. unfold i_constrain, i_move, nconstrain, nmove. rewrite Hd. cbn [bind]. destruct (Z.eqb_spec (Z.of_nat (length v)) (dimI B)); [contradiction|]. cbn [negb]. split; reflexivity.
Qed.
(** The size a square box ends up with. *)
Definition sized {A} (k : kind) (h : list (ncall A)) (r c : Z) : Prop :=
  (fixed k = Some (r, c) /\ 0 < r /\ 0 < c) \/ last_n u_dims h (NDims r c).
Lemma sized_dims {A} (lt : A -> A -> bool) zero k cont h (b0 b : nbox A) r c : sq k = true -> n_size b0 = fixed k -> forallb (nhas k cont) h = true -> ndrive lt zero k b0 h = Ok b ->
  sized k h r c -> r * c < 2147483648 -> 1 <= r * c /\ ndims k b = Ok (r * c) /\ ninit_size k b = Ok (r * c).
Proof.
  intros Hk H0 T D Hs Hn. assert (E : n_size b = Some (r, c) /\ 0 < r /\ 0 < c).
  { destruct Hs as [(Ef & P)|L]; [|exact (nsq_dims lt zero k cont h b0 b T D r c Hk L)].
    split; [|exact P]. rewrite (nsq_no_dims lt zero k cont h b0 b T D Hk (nfixed_no_dims k cont h T _ Ef)), H0. exact Ef. }
  destruct E as (E & P1 & P2). assert (Q : ndims k b = Ok (r * c)) by (unfold ndims; rewrite Hk, E; apply int32_ok; nia).
  split; [nia|]. split; [exact Q|]. unfold ninit_size. rewrite Hk. exact Q.
Qed.

(** Square boxes of integers: after any history of calls in which setRange(lo, hi)
    and setDimensions are the last of their sort. *)
Theorem C101_int_square : forall R t k h b lo hi r c,
  rng_ok R -> 0 < ibits t <= 64 -> sq k = true -> forallb (nhas k false) h = true -> ndrive Z.ltb 0 k (nfresh k) h = Ok b ->
  last_n u_range h (NRange lo hi) -> sized k h r c -> r * c < 2147483648 ->
  lo < hi /\ int_box_works R t k b (square_ibox (r * c) lo hi).
Proof.
  intros R t k h b lo hi r c HR Ht Hk T D Lr Hs Hn.
  destruct (nsq_range Z.ltb 0 k false h _ b T D lo hi Lr) as (E1 & E2 & Hlt). apply Z.ltb_lt in Hlt. split; [exact Hlt|].
  destruct (sized_dims Z.ltb 0 k false h (nfresh k) b r c Hk eq_refl T D Hs Hn) as (P & Q1 & Q2).
  apply int_works_of; try assumption; cbn [square_ibox dimI minI maxI]; try lia.
  - intros i _. unfold nmin_at. rewrite Hk, E1. reflexivity.
  - intros i _. unfold nmax_at. rewrite Hk, E2. reflexivity.
Qed.
Print Assumptions C101_int_square.
(** Boxes whose range is in their type: only the dimensions can be set. *)
Theorem C101_int_fixed_range : forall R t k h b lo hi r c,
  rng_ok R -> 0 < ibits t <= 64 -> sq k = true -> forallb (fun x => nhas k false x && u_dims x) h = true -> ndrive Z.ltb 0 k (nfixed k lo hi 0) h = Ok b ->
  lo < hi -> sized k h r c -> r * c < 2147483648 -> int_box_works R t k b (square_ibox (r * c) lo hi).
Proof.
  intros R t k h b lo hi r c HR Ht Hk T D Hlt Hs Hn.
  assert (T' : forallb (nhas k false) h = true). { rewrite forallb_forall in *. intros x Hx. specialize (T x Hx). apply andb_prop in T. apply T. }
  assert (N : none_n u_range h). { intros x Hx. rewrite forallb_forall in T. specialize (T x Hx). apply andb_prop in T. destruct T as (_ & T). destruct x; cbn in *; congruence. }
  destruct (nsq_no_range Z.ltb 0 k false h _ b T' D N) as (E1 & E2). cbn [nfixed n_min n_max] in E1, E2.
  destruct (sized_dims Z.ltb 0 k false h (nfixed k lo hi 0) b r c Hk eq_refl T' D Hs Hn) as (P & Q1 & Q2).
  apply int_works_of; try assumption; cbn [square_ibox dimI minI maxI]; try lia.
  - intros i _. unfold nmin_at. rewrite Hk, E1. reflexivity.
  - intros i _. unfold nmax_at. rewrite Hk, E2. reflexivity.
Qed.
Print Assumptions C101_int_fixed_range.
(** Rectangles of integers; the order of the bounds is the user's duty. *)
Theorem C101_int_rectangle : forall R t k h b lo hi,
  rng_ok R -> 0 < ibits t <= 64 -> sq k = false -> forallb (nhas k false) h = true -> ndrive Z.ltb 0 k (nfresh k) h = Ok b ->
  last_n u_rangeV h (NRangeV lo hi) -> nvrows lo = nvrows hi -> nvcols lo = nvcols hi -> Z.of_nat (length (nvdata lo)) < 2147483648 ->
  (forall i x y, nth_error (nvdata lo) i = Some x -> nth_error (nvdata hi) i = Some y -> x <= y) ->
  int_box_works R t k b (rect_ibox lo hi).
Proof.
  intros R t k h b lo hi HR Ht Hk T D Lr Rr Rc Hn Ho.
  destruct (nrect_range Z.ltb 0 k false h _ b T D lo hi Hk Lr) as (E1 & E2 & El & V1 & V2).
  destruct (nrect_sizes k b lo hi Hk E1 E2 V1 V2 El Rr Rc) as (Q1 & Q2).
  apply int_works_of; try assumption; cbn [rect_ibox dimI minI maxI]; try lia.
  - intros i Hi. destruct (nth_error (nvdata lo) i) as [x|] eqn:Ex; [|apply nth_error_None in Ex; lia]. destruct (nth_error (nvdata hi) i) as [y|] eqn:Ey; [|apply nth_error_None in Ey; lia].
    rewrite (nth_error_nth _ _ 0 Ex), (nth_error_nth _ _ 0 Ey). exact (Ho i x y Ex Ey).
  - intros i Hi. unfold nmin_at. rewrite Hk, E1. apply nread_arr. lia.
  - intros i Hi. unfold nmax_at. rewrite Hk, E2. apply nread_arr. lia.
Qed.
Print Assumptions C101_int_rectangle.

(** ** Floats *)
Definition rect_fbox (lo hi d : nvar float) : fbox :=
  mkFBox (Z.of_nat (length (nvdata lo))) (fun i => nth i (nvdata lo) f0) (fun i => nth i (nvdata hi) f0) (fun i => nth i (nvdata d) f0).
Definition float_box_works (R : rng_ops) (k : kind) (b : nbox float) (B : fbox) : Prop :=
  ndims k b = Ok (dimF B) /\
  ((forall i, Z.of_nat i < dimF B -> fin (minF B i) /\ fin (maxF B i)) -> forall g, exists v g', f_initialize R k b g = Ok (v, g') /\ in_fbox B v) /\
  (forall v, Z.of_nat (length v) = dimF B -> exists v', f_constrain k b v = Ok v' /\ length v' = length v /\
     forall i x, nth_error v i = Some x -> exists y, nth_error v' i = Some y /\
       (is_nan x = true -> y = x) /\ (is_nan x = false -> nearest_f (minF B i) (maxF B i) x y)) /\
  (1 <= dimF B -> forall v g, in_fbox B v -> exists v' g', f_step R k b v g = Ok (v', g') /\ in_fbox B v' /\
     exists i x y s, only_at i v v' /\ nth_error v i = Some x /\ nth_error v' i = Some y /\ (s = f1 \/ s = f_of_Z (-1)) /\ nearest_f (minF B i) (maxF B i) (fadd x s) y) /\
  (forall v g, Z.of_nat (length v) <> dimF B -> f_constrain k b v = Abort /\ f_step R k b v g = Abort /\ f_move R k b v g = Abort).
Definition float_box_moves (R : rng_ops) (k : kind) (b : nbox float) (B : fbox) : Prop :=
  forall v g, in_fbox B v -> (forall i, Z.of_nat i < dimF B -> fin (deltaF B i)) ->
    exists v' g', f_move R k b v g = Ok (v', g') /\ in_fbox B v' /\
      exists i x y s, only_at i v v' /\ nth_error v i = Some x /\ nth_error v' i = Some y /\
        fle (fopp (deltaF B i)) s = true /\ fle s (deltaF B i) = true /\ nearest_f (minF B i) (maxF B i) (fadd x s) y.
Lemma float_works_of R k b B : rng_ok R -> proper_f B -> dimF B < 2147483648 -> ndims k b = Ok (dimF B) -> ninit_size k b = Ok (dimF B) ->
  (forall i, Z.of_nat i < dimF B -> nmin_at k b i = Ok (minF B i)) -> (forall i, Z.of_nat i < dimF B -> nmax_at k b i = Ok (maxF B i)) -> float_box_works R k b B.
Proof.
  intros HR PB H0 Hd Hi Hmin Hmax. split; [exact Hd|]. split; [|split; [|split]].
  - intros Hb g. rewrite (f_initialize_same R k b B Hmin Hmax g Hi (proj1 PB)). pose proof (C91_initialize R B g HR PB Hb) as C.
    destruct (initializeF R B g) as [v g']. exists v, g'. split; [reflexivity|exact C].
  - intros v L. rewrite (f_constrain_same k b B Hd Hmin Hmax). apply C91_applyConstraint; assumption.
  - intros H1 v g Hv. rewrite (f_step_same R k b B Hd Hmin Hmax v g HR) by (unfold two64; lia). apply C91_applyDelta_discrete; try assumption. unfold two64; lia.
  - intros v g L. unfold f_constrain, f_step, f_move, nconstrain, nmove, ncmove. rewrite Hd. cbn [bind]. destruct (Z.eqb_spec (Z.of_nat (length v)) (dimF B)); [contradiction|]. cbn [negb]. repeat split.
Qed.
Lemma flt_fle_f (x y : float) : flt x y = true -> fle x y = true.
Proof. intros A. apply flt_true in A. destruct A as (N1 & N2 & L). apply fle_iff; auto. lra. Qed.
Lemma float_moves_of R k b B : rng_ok R -> proper_f B -> 1 <= dimF B < 2147483648 -> ndims k b = Ok (dimF B) ->
  (forall i, Z.of_nat i < dimF B -> nmin_at k b i = Ok (minF B i)) -> (forall i, Z.of_nat i < dimF B -> nmax_at k b i = Ok (maxF B i)) ->
  (forall i, Z.of_nat i < dimF B -> ndelta_at k b i = Ok (deltaF B i) /\ flt f0 (deltaF B i) = true) -> float_box_moves R k b B.
Proof.
  intros HR PB Hn Hd Hmin Hmax Hdel v g Hv F. rewrite (f_move_same R k b B Hd Hmin Hmax v g HR ltac:(unfold two64; lia) (fun i Hi => proj1 (Hdel i Hi))).
  apply C91_applyDelta; try assumption; [unfold two64; lia|]. intros i Hi. split; [apply F, Hi|]. apply flt_fle_f, Hdel, Hi.
Qed.
(** Square boxes of floats, ContinousBox (cont = true) or DiscretBox. *)
Theorem C101_float_square : forall R k cont h b lo hi r c,
  rng_ok R -> sq k = true -> forallb (nhas k cont) h = true -> ndrive flt f0 k (nfresh k) h = Ok b ->
  last_n u_range h (NRange lo hi) -> sized k h r c -> r * c < 2147483648 ->
  flt lo hi = true /\ (forall d, float_box_works R k b (square_fbox (r * c) lo hi d)) /\
  (forall d, last_n u_delta h (NDelta d) -> float_box_moves R k b (square_fbox (r * c) lo hi d)).
Proof.
  intros R k cont h b lo hi r c HR Hk T D Lr Hs Hn.
  destruct (nsq_range flt f0 k cont h _ b T D lo hi Lr) as (E1 & E2 & Hlt). split; [exact Hlt|].
  destruct (sized_dims flt f0 k cont h (nfresh k) b r c Hk eq_refl T D Hs Hn) as (P & Q1 & Q2).
  assert (Pf : forall d, proper_f (square_fbox (r * c) lo hi d)) by (intros d; split; cbn [square_fbox dimF minF maxF]; [lia|intros i _; apply flt_fle_f; exact Hlt]).
  assert (M1 : forall i, nmin_at k b i = Ok lo) by (intros i; unfold nmin_at; rewrite Hk, E1; reflexivity).
  assert (M2 : forall i, nmax_at k b i = Ok hi) by (intros i; unfold nmax_at; rewrite Hk, E2; reflexivity).
  split; intros d; [|intros Ld; destruct (nsq_delta flt f0 k cont h _ b T D d Ld) as (E3 & Pd)].
  - apply float_works_of; auto.
  - apply float_moves_of; auto. intros i _. unfold ndelta_at. rewrite Hk, E3. split; [reflexivity|exact Pd].
Qed.
Print Assumptions C101_float_square.
(** The range in the type (FixedDiscreteBox17, FixedContinousBox17/20 over float). *)
Theorem C101_float_fixed_range : forall R k h b lo hi d r c,
  rng_ok R -> sq k = true -> forallb (fun x => nhas k false x && u_dims x) h = true -> ndrive flt f0 k (nfixed k lo hi d) h = Ok b ->
  flt lo hi = true -> sized k h r c -> r * c < 2147483648 ->
  float_box_works R k b (square_fbox (r * c) lo hi d) /\ forall i, ndelta_at k b i = Ok d.
Proof.
  intros R k h b lo hi d r c HR Hk T D Hlt Hs Hn.
  assert (T' : forallb (nhas k false) h = true). { rewrite forallb_forall in *. intros x Hx. specialize (T x Hx). apply andb_prop in T. apply T. }
  assert (N : none_n u_range h /\ none_n u_delta h).
  { split; intros x Hx; rewrite forallb_forall in T; specialize (T x Hx); apply andb_prop in T; destruct T as (_ & T); destruct x; cbn in *; congruence. }
  destruct (nsq_no_range flt f0 k false h _ b T' D (proj1 N)) as (E1 & E2). cbn [nfixed n_min n_max] in E1, E2.
  pose proof (nsq_no_delta flt f0 k false h _ b T' D (proj2 N)) as E3. cbn [nfixed n_delta] in E3.
  destruct (sized_dims flt f0 k false h (nfixed k lo hi d) b r c Hk eq_refl T' D Hs Hn) as (P & Q1 & Q2).
  split; [|intros i; unfold ndelta_at; rewrite Hk, E3; reflexivity].
  apply float_works_of; try assumption; cbn [square_fbox dimF minF maxF].
  - split; cbn [square_fbox dimF minF maxF]; [lia|intros i _; apply flt_fle_f; exact Hlt].
  - intros i _. unfold nmin_at. rewrite Hk, E1. reflexivity.
  - intros i _. unfold nmax_at. rewrite Hk, E2. reflexivity.
Qed.
Print Assumptions C101_float_fixed_range.
(** Rectangles of floats. *)
Theorem C101_float_rectangle : forall R k cont h b lo hi,
  rng_ok R -> sq k = false -> forallb (nhas k cont) h = true -> ndrive flt f0 k (nfresh k) h = Ok b ->
  last_n u_rangeV h (NRangeV lo hi) -> nvrows lo = nvrows hi -> nvcols lo = nvcols hi -> Z.of_nat (length (nvdata lo)) < 2147483648 ->
  (forall i, (i < length (nvdata lo))%nat -> fle (nth i (nvdata lo) f0) (nth i (nvdata hi) f0) = true) ->
  (forall d, float_box_works R k b (rect_fbox lo hi d)) /\
  (forall d, last_n u_deltaV h (NDeltaV d) -> length (nvdata d) = length (nvdata lo) -> (1 <= length (nvdata lo))%nat -> float_box_moves R k b (rect_fbox lo hi d)).
Proof.
  intros R k cont h b lo hi HR Hk T D Lr Rr Rc Hn Ho.
  destruct (nrect_range flt f0 k cont h _ b T D lo hi Hk Lr) as (E1 & E2 & El & V1 & V2).
  destruct (nrect_sizes k b lo hi Hk E1 E2 V1 V2 El Rr Rc) as (Q1 & Q2).
  assert (Pf : forall d, proper_f (rect_fbox lo hi d)) by (intros d; split; cbn [rect_fbox dimF minF maxF]; [lia|intros i Hi; apply Ho; lia]).
  assert (M1 : forall i, Z.of_nat i < Z.of_nat (length (nvdata lo)) -> nmin_at k b i = Ok (nth i (nvdata lo) f0)) by (intros i Hi; unfold nmin_at; rewrite Hk, E1; apply nread_arr; lia).
  assert (M2 : forall i, Z.of_nat i < Z.of_nat (length (nvdata lo)) -> nmax_at k b i = Ok (nth i (nvdata hi) f0)) by (intros i Hi; unfold nmax_at; rewrite Hk, E2; apply nread_arr; lia).
  split; intros d; [apply float_works_of; auto|]. intros Ld Ed H1. destruct (nrect_delta flt f0 k cont h _ b T D d Ld) as (E3 & Pd).
  apply float_moves_of; auto; [cbn [rect_fbox dimF]; lia|]. cbn [rect_fbox dimF deltaF]. intros i Hi. split.
  - unfold ndelta_at. rewrite Hk, E3. apply nread_arr. lia.
  - rewrite Forall_forall in Pd. apply Pd, nth_In. lia.
Qed.
Print Assumptions C101_float_rectangle.

(** ** Booleans *)
Theorem C101_bool : forall R sz r c, rng_ok R -> (sz = Some (r, c) \/ bool_dims r c = Ok sz) -> 0 < r -> 0 < c -> r * c < 2147483648 ->
  (forall g, exists v g', b_initialize R sz g = Ok (v, g') /\ Z.of_nat (length v) = r * c) /\
  (forall v, Z.of_nat (length v) = r * c -> b_constrain sz v = Ok v) /\
  (forall v g, Z.of_nat (length v) = r * c -> exists v' g' i x, b_move R sz v g = Ok (v', g') /\ only_at i v v' /\ nth_error v i = Some x /\ nth_error v' i = Some (negb x)) /\
  (forall v g, Z.of_nat (length v) <> r * c -> b_constrain sz v = Abort /\ b_move R sz v g = Abort).
Proof.
  intros R sz r c HR Hs Hr Hc Hn. assert (E : sz = Some (r, c)).
  { destruct Hs as [E|E]; [exact E|]. unfold bool_dims in E. destruct (Z.leb_spec r 0); [lia|]. destruct (Z.leb_spec c 0); [lia|]. cbn [orb] in E. congruence. }
  subst sz. assert (P : 1 <= r * c) by nia.
  assert (D : bsize_of (Some (r, c)) = Ok (r * c)) by (cbn [bsize_of]; apply int32_ok; lia). unfold b_initialize, b_constrain, b_move. rewrite D. cbn [bind].
  split; [|split; [|split]].
  - intros g. pose proof (C39_initialize_bool R (r * c) g ltac:(lia)) as L. destruct (initializeB R (r * c) g) as [v g']. exists v, g'. split; [reflexivity|exact L].
  - intros v L. rewrite L, Z.eqb_refl. f_equal. rewrite <- map_id. apply map_ext. intros []; reflexivity.
  - intros v g L. destruct (C40_applyDelta_bool R (r * c) v g HR ltac:(unfold two64; lia) L) as (v' & g' & i & x & H). exists v', g', i, x. exact H.
  - intros v g L. unfold applyDeltaB. destruct (Z.eqb_spec (Z.of_nat (length v)) (r * c)); [contradiction|]. cbn [negb]. split; reflexivity.
Qed.
Print Assumptions C101_bool.

(** What the setters reject, exactly; a square box without a range cannot be used. *)
Theorem C101_rejected_exactly : forall (A : Type) (lt : A -> A -> bool) zero k b,
  (forall lo hi, nstep lt zero k b (NRange lo hi) = Abort <-> lt lo hi = false) /\
  (forall lo hi, nstep lt zero k b (NRangeV lo hi) = Abort <-> length (nvdata lo) <> length (nvdata hi)) /\
  (forall d, nstep lt zero k b (NDelta d) = Abort <-> lt zero d = false) /\
  (forall d, nstep lt zero k b (NDeltaV d) = Abort <-> exists x, In x (nvdata d) /\ lt zero x = false) /\
  (forall r c, nstep lt zero k b (NDims r c) = Abort <-> r <= 0 \/ c <= 0) /\
  (forall c, u_range c = true \/ u_delta c = true \/ u_dims c = true -> nstep lt zero k b c <> UB).
Proof.
  intros A lt zero k b. cbn [nstep]. split; [|split; [|split; [|split; [|split]]]].
  - intros lo hi. destruct (lt lo hi); split; congruence.
  - intros lo hi. unfold nsize, narr_of. cbn [ndata]. rewrite !map_length. destruct (Z.eqb_spec (Z.of_nat (length (nvdata lo))) (Z.of_nat (length (nvdata hi)))); split; try congruence; intros; exfalso; lia.
  - intros d. destruct (lt zero d); split; congruence.
  - intros d. destruct (forallb (lt zero) (nvdata d)) eqn:F.
    + split; [discriminate|]. intros (x & Hx & Nx). rewrite forallb_forall in F. rewrite (F x Hx) in Nx. discriminate Nx.
    + split; [intros _|reflexivity]. induction (nvdata d) as [|y l IH]; [discriminate F|]. cbn [forallb] in F. destruct (lt zero y) eqn:Ey; [|exists y; split; [left; reflexivity|exact Ey]].
      cbn [andb] in F. destruct (IH F) as (x & Hx & Nx). exists x. split; [right; exact Hx|exact Nx].
  - intros r c. destruct (Z.leb_spec r 0); [split; [intros _; lia|reflexivity]|]. destruct (Z.leb_spec c 0); cbn [orb]; [split; [intros _; lia|reflexivity]|].
    split; [|lia]. destruct (sq k); intros E; discriminate E.
  - intros c Hc. destruct c; cbn [nstep u_range u_delta u_dims] in *; try (destruct Hc as [Hc|[Hc|Hc]]; discriminate Hc);
      repeat match goal with |- context [if ?x then _ else _] => destruct x end; discriminate.
Qed.
Print Assumptions C101_rejected_exactly.
Theorem C101_unset_is_undefined : forall R t k h b, sq k = true -> forallb (nhas k false) h = true -> ndrive Z.ltb 0 k (nfresh k) h = Ok b ->
  (none_n u_dims h -> fixed k = None -> ndims k b = UB /\ forall g v, i_initialize R t k b g = UB /\ i_constrain k b v = UB /\ i_move R t k b v g = UB) /\
  (forall r c, none_n u_range h -> sized k h r c -> r * c < 2147483648 ->
     (forall g, i_initialize R t k b g = UB) /\ forall v, Z.of_nat (length v) = r * c -> i_constrain k b v = UB).
Proof.
  intros R t k h b Hk T D. split.
  - intros N Ef. pose proof (nsq_no_dims Z.ltb 0 k false h _ b T D Hk N) as E. cbn [nfresh n_size] in E. rewrite Ef in E.
    assert (Q : ndims k b = UB) by (unfold ndims; rewrite Hk, E; reflexivity). split; [exact Q|].
    intros g v. unfold i_initialize, i_constrain, i_move, ninitialize, nconstrain, nmove, ninit_size. rewrite Hk, Q. repeat split.
  - intros r c N Hs Hn. destruct (nsq_no_range Z.ltb 0 k false h _ b T D N) as (E1 & E2). cbn [nfresh n_min n_max] in E1, E2.
    destruct (sized_dims Z.ltb 0 k false h (nfresh k) b r c Hk eq_refl T D Hs Hn) as (P & Q1 & Q2).
    split; [intros g|intros v L]; [unfold i_initialize, ninitialize; rewrite Q2; cbn [bind]; destruct (Z.to_nat (r * c)) eqn:En; [lia|]; cbn [ninit_loop]; unfold nmin_at; rewrite Hk, E1; reflexivity|].
    unfold i_constrain, nconstrain. rewrite Q1. cbn [bind]. rewrite L, Z.eqb_refl. destruct v as [|x v]; [cbn in L; lia|]. cbn [nconstrain_loop]. unfold nmax_at. rewrite Hk, E2. reflexivity.
Qed.
Print Assumptions C101_unset_is_undefined.
(** Writing through the references min(), max(), delta() (no check at all)
    changes that bound, and nothing else of the box. *)
Theorem C101_references : forall (A : Type) (lt : A -> A -> bool) zero k (b : nbox A),
  (sq k = true -> forall x,
     (exists b', nstep lt zero k b (NMin x) = Ok b' /\ (forall i, nmin_at k b' i = Ok x /\ nmax_at k b' i = nmax_at k b i /\ ndelta_at k b' i = ndelta_at k b i) /\ ndims k b' = ndims k b) /\
     (exists b', nstep lt zero k b (NMax x) = Ok b' /\ (forall i, nmax_at k b' i = Ok x /\ nmin_at k b' i = nmin_at k b i /\ ndelta_at k b' i = ndelta_at k b i) /\ ndims k b' = ndims k b) /\
     (exists b', nstep lt zero k b (NDeltaRef x) = Ok b' /\ (forall i, ndelta_at k b' i = Ok x /\ nmin_at k b' i = nmin_at k b i /\ nmax_at k b' i = nmax_at k b i) /\ ndims k b' = ndims k b)) /\
  (sq k = false -> forall j x old,
     (nmin_at k b j = Ok old -> exists b', nstep lt zero k b (NEditMin (nedit j (fun _ => x))) = Ok b' /\
        (forall i, nmin_at k b' i = (if (i =? j)%nat then Ok x else nmin_at k b i) /\ nmax_at k b' i = nmax_at k b i /\ ndelta_at k b' i = ndelta_at k b i) /\ ndims k b' = ndims k b) /\
     (nmax_at k b j = Ok old -> exists b', nstep lt zero k b (NEditMax (nedit j (fun _ => x))) = Ok b' /\
        (forall i, nmax_at k b' i = (if (i =? j)%nat then Ok x else nmax_at k b i) /\ nmin_at k b' i = nmin_at k b i /\ ndelta_at k b' i = ndelta_at k b i) /\ ndims k b' = ndims k b)).
Proof.
  assert (L : forall A (l : list A) j a, length (set_at l j a) = length l).
  { intros A l. induction l as [|y l IH]; intros [|j] a; cbn; auto. }
  assert (N : forall A (l : list A) j a i, (j < length l)%nat -> nth_error (set_at l j a) i = if (i =? j)%nat then Some a else nth_error l i).
  { intros A l. induction l as [|y l IH]; intros [|j] a [|i] H; cbn in *; auto; try lia. apply IH. lia. }
  assert (R : forall A (a : narr A) j (x old : A), nread_at a j = Ok old -> exists a', nedit j (fun _ => x) a = Ok a' /\ nrows a' = nrows a /\ ncols a' = ncols a /\ length (ndata a') = length (ndata a) /\
                forall i, nread_at a' i = if (i =? j)%nat then Ok x else nread_at a i).
  { intros A a j x old H. unfold nedit. rewrite H. cbn [bind]. eexists. split; [reflexivity|]. cbn [nrows ncols ndata]. split; [reflexivity|]. split; [reflexivity|]. split; [apply L|].
    intros i. unfold nread_at in *. cbn [ndata]. destruct (nth_error (ndata a) j) eqn:E; [|discriminate H].
    assert (j < length (ndata a))%nat by (apply nth_error_Some; congruence). rewrite N by assumption. destruct (i =? j)%nat; reflexivity. }
  intros A lt zero k b. split.
  - intros Hk x. split; [|split]; (eexists; split; [reflexivity|]; unfold nmin_at, nmax_at, ndelta_at, ndims; rewrite Hk; cbn; split; [intros i; repeat split|reflexivity]).
  - intros Hk j x old. unfold nmin_at, nmax_at, ndelta_at, ndims; rewrite Hk. split; intros H.
    + destruct (R A _ j x old H) as (a' & E & E1 & E2 & E3 & E4). eexists. cbn [nstep]. rewrite E. split; [reflexivity|]. cbn [nv_min nv_max nv_delta]. unfold nsize. rewrite E1, E3. split; [intros i; repeat split; apply E4|reflexivity].
    + destruct (R A _ j x old H) as (a' & E & E1 & E2 & E3 & E4). eexists. cbn [nstep]. rewrite E. split; [reflexivity|]. cbn [nv_min nv_max nv_delta]. unfold nsize. rewrite E1, E3. split; [intros i; repeat split; apply E4|reflexivity].
Qed.
Print Assumptions C101_references.
(** Refuted: that a rectangle's setRange checks the order of the bounds as the
    square one does: an accepted box puts values above its own maximum. *)
Theorem C101_rectangle_order_refuted : exists k h b, forallb (nhas k false) h = true /\ ndrive Z.ltb 0 k (nfresh k) h = Ok b /\
  nmin_at k b 0 = Ok 5 /\ nmax_at k b 0 = Ok 2 /\ i_constrain k b [3] = Ok [5] /\ nstep Z.ltb 0 (mkKind true None true false) (nfresh (mkKind true None true false)) (NRange 5 2) = Abort.
Proof.
  exists (mkKind false (Some (1, 1)) true false), [NRangeV (mkNV 1 1 [5]) (mkNV 1 1 [2])]. eexists. repeat split; vm_compute; reflexivity.
Qed.
Print Assumptions C101_rectangle_order_refuted.
(** The hypotheses of C101_int_square and C101_int_rectangle are met. *)
Example ex_C101 : exists k h b, sq k = true /\ forallb (nhas k false) h = true /\ ndrive Z.ltb 0 k (nfresh k) h = Ok b /\ last_n u_range h (NRange (-3) 4) /\ sized k h 20 1 /\
  (forall i, Z.of_nat i < dimI (square_ibox 20 (-3) 4) -> imin int32 <= minI (square_ibox 20 (-3) 4) i /\ maxI (square_ibox 20 (-3) 4) i < imax int32 /\ maxI (square_ibox 20 (-3) 4) i - minI (square_ibox 20 (-3) 4) i < imax int32).
Proof.
  exists (mkKind true None true false), [NRange 5 7; NDims 20 1; NRange (-3) 4]. eexists. split; [reflexivity|]. split; [reflexivity|]. split; [vm_compute; reflexivity|].
  split. { split; [reflexivity|]. exists [NRange 5 7; NDims 20 1], []. split; [reflexivity|intros x []]. }
  split. { right. split; [reflexivity|]. exists [NRange 5 7], [NRange (-3) 4]. split; [reflexivity|]. intros x [<- |[]]. reflexivity. }
  intros i _. cbn. lia.
Qed.
