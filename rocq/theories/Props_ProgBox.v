(** C102: the shipped program test/Boxes.cpp. *)
From Coq Require Import List Arith ZArith Bool Lia Reals Lra.
From Flocq Require Import Core BinarySingleNaN.
From Verif Require Import Props_Box Props_BoxF Props_BoxObj Props_DiscObj Props_BinCode.
From Verif Require Import Base Fl FlFacts Rng RandProofs Box BoxProofs BoxF BoxFProofs BoxObj BoxObjProofs DiscObj DiscObjProofs ProgMO ProgBox.
Import ListNotations.
Open Scope Z_scope.

(** * Specification: the boxes the program means to set up. *)
Definition unit_square : dbox := square_dbox 4 d0 d1 (literal 6 1).
Definition idx18 : list Z := map Z.of_nat (seq 0 18).
Definition lows : list float := map (fun i => f_of_Z (-2 - i mod 5)) idx18.
Definition highs : list float := map (fun i => f_of_Z (6 + i mod 5)) idx18.
Definition tenths : list float := map (fun i => fdiv (f_of_Z (8 + 2 * (i mod 5))) (f_of_Z 10)) idx18.
Definition wide_box : fbox := rect_fbox (mkNV 3 6 lows) (mkNV 3 6 highs) (mkNV 3 6 tenths).
Definition half : float := fdiv (f_of_Z 5) (f_of_Z 10).
Definition long_box : fbox := square_fbox 12 (f_of_Z (-10)) (f_of_Z 5) half.

(** * The boxes *)
Lemma nth_ext_error {A} (v : list A) : forall w, length v = length w -> (forall i x, nth_error v i = Some x -> nth_error w i = Some x) -> w = v.
Proof.
  induction v as [|x v IH]; intros [|y w] L H; try discriminate L; [reflexivity|]. pose proof (H 0%nat x eq_refl) as E. cbn in E. injection E as ->. f_equal.
  apply IH; [cbn in L; lia|]. intros i z Hz. exact (H (S i) z Hz).
Qed.
Lemma box0_drive a c d : flt a c = true -> flt d0 d = true -> exists b, bdrive k0 (fresh k0) [SetRange a c; SetDelta d] = Ok b.
Proof. intros H1 H2. cbn [bdrive bstep]. rewrite H1. cbn [bind]. rewrite H2. cbn [bind]. eexists. reflexivity. Qed.
Lemma box0_gen R (HR : rng_ok R) g hi d x : flt d0 hi = true -> flt d0 d = true -> fle d0 x = true -> fle x hi = true -> fin d -> is_nan x = false ->
  exists b v2 g1, bdrive k0 (fresh k0) [SetRange d0 hi; SetDelta d] = Ok b /\ min_at k0 b 0 = Ok d0 /\ dimensions k0 b = Ok 4 /\
  applyConstraint k0 b (repeat x 4) = Ok (repeat x 4) /\ applyDelta R k0 b (repeat x 4) g = Ok (v2, g1) /\ in_box (square_dbox 4 d0 hi d) v2 /\
  exists i y s, only_at i (repeat x 4) v2 /\ nth_error v2 i = Some y /\ fle (fopp d) s = true /\ fle s d = true /\ nearest d0 hi (fadd x s) y.
Proof.
  intros H1 H2 H3 H4 H5 H6.
  destruct (box0_drive d0 hi d H1 H2) as (b & E). exists b.
  assert (Lr : last_call t_range [SetRange d0 hi; SetDelta d] (SetRange d0 hi)) by (split; [reflexivity|]; exists [], [SetDelta d]; split; [reflexivity|]; intros y [<- |[]]; reflexivity).
  assert (Ld : last_call t_delta [SetRange d0 hi; SetDelta d] (SetDelta d)) by (split; [reflexivity|]; exists [SetRange d0 hi], []; split; [reflexivity|]; intros y []).
  destruct (C80_square_box R k0 [SetRange d0 hi; SetDelta d] b d0 hi 4 1 HR eq_refl eq_refl E Lr) as (Q1 & Q2 & Q3); [left; split; [reflexivity|lia]|lia|]. change (4 * 1) with 4 in *.
  assert (I : in_box (square_dbox 4 d0 hi d) (repeat x 4)).
  { split; [reflexivity|]. intros i y Hy. cbn [square_dbox minD maxD]. apply nth_error_In, repeat_spec in Hy. subst y. auto. }
  destruct (Q3 d Ld (repeat x 4) g I (fun _ _ => H5)) as (v2 & g1 & E2 & I2 & i & x' & y & s & O & Ex & Ey & S1 & S2 & N).
  exists v2, g1. split; [exact E|]. split. { destruct (square_range k0 [SetRange d0 hi; SetDelta d] b eq_refl E d0 hi Lr) as (A1 & _). unfold min_at. cbn [sq k0]. rewrite A1. reflexivity. }
  split; [exact Q1|]. split.
  { destruct (Q2 d) as (_ & W & _). destruct (W (repeat x 4) eq_refl) as (v' & Ev & L & H). rewrite Ev. f_equal. apply nth_ext_error; [congruence|].
    intros j z Hz. destruct (H j z Hz) as (y' & Hy' & _ & Nn). apply nth_error_In, repeat_spec in Hz. subst z.
    destruct (Nn H6) as (_ & _ & K & _). cbn [square_dbox minD maxD] in K. rewrite (K H3 H4) in Hy'. exact Hy'. }
  split; [exact E2|]. split; [exact I2|]. exists i, y, s. cbn [square_dbox minD maxD deltaD] in *. apply nth_error_In, repeat_spec in Ex. subst x'. auto.
Qed.
Lemma box0 R (HR : rng_ok R) g : exists b v2 g1, bdrive k0 (fresh k0) [SetRange d0 d1; SetDelta (literal 6 1)] = Ok b /\ min_at k0 b 0 = Ok d0 /\ dimensions k0 b = Ok 4 /\
  applyConstraint k0 b (repeat (literal 5 1) 4) = Ok (repeat (literal 5 1) 4) /\ applyDelta R k0 b (repeat (literal 5 1) 4) g = Ok (v2, g1) /\ in_box unit_square v2 /\
  exists i y s, only_at i (repeat (literal 5 1) 4) v2 /\ nth_error v2 i = Some y /\ fle (fopp (literal 6 1)) s = true /\ fle s (literal 6 1) = true /\ nearest d0 d1 (fadd (literal 5 1) s) y.
Proof.
  unfold unit_square. apply (box0_gen R HR g d1 (literal 6 1) (literal 5 1)); vm_compute; reflexivity.
Qed.
Lemma box1 R (HR : rng_ok R) g : exists b v g', ndrive Z.ltb 0 k1 (nfresh k1) [NDims 20 1; NRange (-3) 4] = Ok b /\ i_initialize R int32 k1 b g = Ok (v, g') /\ in_ibox (square_ibox 20 (-3) 4) v.
Proof.
  assert (E : exists b, ndrive Z.ltb 0 k1 (nfresh k1) [NDims 20 1; NRange (-3) 4] = Ok b) by (eexists; reflexivity). destruct E as (b & E). exists b.
  destruct (C101_int_square R int32 k1 [NDims 20 1; NRange (-3) 4] b (-3) 4 20 1 HR ltac:(cbn; lia) eq_refl eq_refl E) as (_ & _ & W & _); [| |lia|].
  - split; [reflexivity|]. exists [NDims 20 1], []. split; [reflexivity|intros x []].
  - right. split; [reflexivity|]. exists [], [NRange (-3) 4]. split; [reflexivity|]. intros x [<- |[]]. reflexivity.
  - destruct (W ltac:(intros i _; cbn; lia) g) as (v & g' & Ev & I). exists v, g'. auto.
Qed.
(** The third box, for any scalars. *)
Section Generic.
Context {A : Type} (lt : A -> A -> bool) (zero : A) (sub add div : A -> A -> A) (ofZ : Z -> A).
Lemma box2_data : exists b, make_box2 lt zero sub add div ofZ k2 = Ok b /\
  let lo := map (fun i => sub (ofZ (-2)) (ofZ (i mod 5))) idx18 in let hi := map (fun i => add (ofZ 6) (ofZ (i mod 5))) idx18 in
  nv_min b = narr_of (mkNV 3 6 lo) /\ nv_max b = narr_of (mkNV 3 6 hi) /\
  nv_delta b = narr_of (mkNV 3 6 (map (fun i => div (sub (add (ofZ 6) (ofZ (i mod 5))) (sub (ofZ (-2)) (ofZ (i mod 5)))) (ofZ 10)) idx18)).
Proof. eexists. split; [vm_compute; reflexivity|]. split; [vm_compute; reflexivity|]. split; vm_compute; reflexivity. Qed.
End Generic.
Lemma mod5 (P : Z -> Prop) : P 0 -> P 1 -> P 2 -> P 3 -> P 4 -> forall i, P (i mod 5).
Proof. intros H0 H1 H2 H3 H4 i. assert (M : 0 <= i mod 5 < 5) by (apply Z.mod_pos_bound; lia). assert (C : i mod 5 = 0 \/ i mod 5 = 1 \/ i mod 5 = 2 \/ i mod 5 = 3 \/ i mod 5 = 4) by lia. destruct C as [-> |[-> |[-> |[-> | ->]]]]; assumption. Qed.
Lemma lows_eq : map (fun i => fsub (f_of_Z (-2)) (f_of_Z (i mod 5))) idx18 = lows.
Proof. apply map_ext. intros i. apply (mod5 (fun m => fsub (f_of_Z (-2)) (f_of_Z m) = (f_of_Z (-2 - m) : float))); apply B2SF_inj; vm_compute; reflexivity. Qed.
Lemma highs_eq : map (fun i => fadd (f_of_Z 6) (f_of_Z (i mod 5))) idx18 = highs.
Proof. apply map_ext. intros i. apply (mod5 (fun m => fadd (f_of_Z 6) (f_of_Z m) = (f_of_Z (6 + m) : float))); apply B2SF_inj; vm_compute; reflexivity. Qed.
Lemma tenths_eq : map (fun i => fdiv (fsub (fadd (f_of_Z 6) (f_of_Z (i mod 5))) (fsub (f_of_Z (-2)) (f_of_Z (i mod 5)))) (f_of_Z 10)) idx18 = tenths.
Proof.
  apply map_ext. intros i. apply (mod5 (fun m => fdiv (fsub (fadd (f_of_Z 6) (f_of_Z m)) (fsub (f_of_Z (-2)) (f_of_Z m))) (f_of_Z 10) = (fdiv (f_of_Z (8 + 2 * m)) (f_of_Z 10) : float)));
    apply B2SF_inj; vm_compute; reflexivity.
Qed.
Lemma wide_facts i : Z.of_nat i < 18 -> fle (nth i lows f0) (nth i highs f0) = true /\ flt f0 (nth i tenths f0) = true /\ fin (nth i lows f0) /\ fin (nth i highs f0) /\ fin (nth i tenths f0).
Proof.
  intros Hi. assert (F : forallb (fun i => fle (nth i lows f0) (nth i highs f0) && flt f0 (nth i tenths f0) && is_finite (nth i lows f0) && is_finite (nth i highs f0) && is_finite (nth i tenths f0)) (seq 0 18) = true) by (vm_compute; reflexivity).
  rewrite forallb_forall in F. specialize (F i ltac:(apply in_seq; lia)). rewrite !andb_true_iff in F. unfold fin. tauto.
Qed.
Lemma constrain_inside R k b B v : float_box_works R k b B -> in_fbox B v -> f_constrain k b v = Ok v.
Proof.
  intros (_ & _ & W & _) (L & I). destruct (W v L) as (v' & Ev & L' & H). rewrite Ev. f_equal. apply nth_ext_error; [congruence|].
  intros j z Hz. destruct (H j z Hz) as (y & Hy & _ & Nn). destruct (I j z Hz) as (I1 & I2).
  assert (N : is_nan z = false) by (destruct z; try reflexivity; destruct (minF B j); discriminate I1 || reflexivity).
  destruct (Nn N) as (_ & _ & K & _). rewrite (K I1 I2) in Hy. exact Hy.
Qed.
Lemma idx18_length {A} (f : Z -> A) : length (map f idx18) = 18%nat. Proof. rewrite map_length. reflexivity. Qed.
Lemma box2 R (HR : rng_ok R) g : exists b v g1 v2 g2, make_box2 flt f0 fsub fadd fdiv f_of_Z k2 = Ok b /\ nbox_rows k2 b = Ok 3 /\ nbox_cols k2 b = Ok 6 /\
  ndata (nv_min b) = map Some lows /\ ndata (nv_max b) = map Some highs /\ ndata (nv_delta b) = map Some tenths /\
  f_initialize R k2 b g = Ok (v, g1) /\ f_constrain k2 b v = Ok v /\ f_move R k2 b v g1 = Ok (v2, g2) /\ in_fbox wide_box v /\ in_fbox wide_box v2 /\
  exists i x y s, only_at i v v2 /\ nth_error v i = Some x /\ nth_error v2 i = Some y /\ fle (fopp (deltaF wide_box i)) s = true /\ fle s (deltaF wide_box i) = true /\
    nearest_f (minF wide_box i) (maxF wide_box i) (fadd x s) y.
Proof.
  destruct (box2_data flt f0 fsub fadd fdiv (f_of_Z : Z -> float)) as (b & E & E1 & E2 & E3). rewrite lows_eq in E1. rewrite highs_eq in E2. rewrite tenths_eq in E3.
  pose proof wide_facts as WF. unfold wide_box. assert (L1 : length lows = 18%nat) by apply idx18_length. assert (L2 : length highs = 18%nat) by apply idx18_length. assert (L3 : length tenths = 18%nat) by apply idx18_length.
  revert E1 E2 E3 WF L1 L2 L3. generalize lows, highs, tenths. intros lo hi dl E1 E2 E3 WF L1 L2 L3.
  assert (V : forall l : list float, length l = 18%nat -> nvar_of k2 (mkNV 3 6 l) = true) by (intros l Hl; unfold nvar_of; cbn [nvrows nvcols nvdata fixed k2 vec]; rewrite Hl; reflexivity).
  destruct (nrect_sizes k2 b (mkNV 3 6 lo) (mkNV 3 6 hi) eq_refl E1 E2 (V _ L1) (V _ L2)) as (Q1 & Q2); [cbn [nvdata]; congruence|reflexivity|reflexivity|].
  set (B := rect_fbox (mkNV 3 6 lo) (mkNV 3 6 hi) (mkNV 3 6 dl)).
  assert (DB : dimF B = 18) by (cbn [B rect_fbox dimF nvdata]; rewrite L1; reflexivity).
  change (Z.of_nat (length (nvdata (mkNV 3 6 lo)))) with (dimF B) in Q1, Q2.
  assert (PB : proper_f B) by (split; [lia|]; intros i Hi; rewrite DB in Hi; exact (proj1 (WF i Hi))).
  assert (M1 : forall i, Z.of_nat i < dimF B -> nmin_at k2 b i = Ok (minF B i)). { intros i Hi. unfold nmin_at. cbn [sq k2]. rewrite E1. apply nread_arr. cbn [nvdata]. lia. }
  assert (M2 : forall i, Z.of_nat i < dimF B -> nmax_at k2 b i = Ok (maxF B i)). { intros i Hi. unfold nmax_at. cbn [sq k2]. rewrite E2. apply nread_arr. cbn [nvdata]. lia. }
  assert (M3 : forall i, Z.of_nat i < dimF B -> ndelta_at k2 b i = Ok (deltaF B i) /\ flt f0 (deltaF B i) = true).
  { intros i Hi. rewrite DB in Hi. split; [unfold ndelta_at; cbn [sq k2]; rewrite E3; apply nread_arr; cbn [nvdata]; lia|exact (proj1 (proj2 (WF i Hi)))]. }
  pose proof (float_works_of R k2 b B HR PB ltac:(lia) Q1 Q2 M1 M2) as W. pose proof (float_moves_of R k2 b B HR PB ltac:(lia) Q1 M1 M2 M3) as Mv.
  destruct (proj1 (proj2 W)) with (g := g) as (v & g1 & Ev & Iv). { intros i Hi. rewrite DB in Hi. destruct (WF i Hi) as (_ & _ & F1 & F2 & _). split; [exact F1|exact F2]. }
  destruct (Mv v g1 Iv) as (v2 & g2 & Em & Im & X). { intros i Hi. rewrite DB in Hi. apply (WF i Hi). }
  exists b, v, g1, v2, g2. split; [exact E|]. split. { unfold nbox_rows. cbn [sq k2 fixed]. rewrite E1, E2. reflexivity. } split. { unfold nbox_cols. cbn [sq k2 fixed]. rewrite E1, E2. reflexivity. }
  split; [rewrite E1; reflexivity|]. split; [rewrite E2; reflexivity|]. split; [rewrite E3; reflexivity|]. split; [exact Ev|]. split; [exact (constrain_inside R k2 b B v W Iv)|].
  split; [exact Em|]. split; [exact Iv|]. split; [exact Im|exact X].
Qed.
Lemma box4_drive m s d : flt d0 s = true -> flt d0 d = true -> exists b, gdrive (g_fresh None) [SetGDims 3 4; SetMu m; SetSigma s; SetGDelta d] = Ok b.
Proof. intros H1 H2. cbn [gdrive gstep bind Z.leb Z.compare orb]. rewrite H1. cbn [bind]. rewrite H2. cbn [bind]. eexists. reflexivity. Qed.
Lemma box4 R norm (HR : rng_ok R) g : let m := d_of_Z 10 in let s := d_of_Z 100000000 in let d := d_of_Z 10000000 in
  exists b g1 v2 g2, gdrive (g_fresh None) [SetGDims 3 4; SetMu m; SetSigma s; SetGDelta d] = Ok b /\
  let v := map (fun x => fadd (fmul x s) m) (fst (draws norm 12 g)) in
  g_initialize R norm b g = Ok (v, g1) /\ g_applyDelta R b v g1 = Ok (v2, g2) /\ length v = 12%nat /\
  exists i x st, only_at i v v2 /\ nth_error v i = Some x /\ nth_error v2 i = Some (fadd x st) /\ fle (fopp d) st = true /\ fle st d = true.
Proof.
  cbv zeta. assert (H1 : flt d0 (d_of_Z 100000000) = true) by (vm_compute; reflexivity). assert (H2 : flt d0 (d_of_Z 10000000) = true) by (vm_compute; reflexivity).
  assert (H3 : fin (d_of_Z 10000000)) by (vm_compute; reflexivity). revert H1 H2 H3. generalize (d_of_Z 10) as m, (d_of_Z 100000000) as s, (d_of_Z 10000000) as d. intros m s d H1 H2 H3.
  destruct (box4_drive m s d H1 H2) as (b & E).
  destruct (C81_gaussian_box R norm None _ b m s 12 HR E) as (_ & Q1 & _ & Q2).
  - exists [SetGDims 3 4], [SetSigma s; SetGDelta d]. split; [reflexivity|]. intros x [<- |[<- |[]]]; reflexivity.
  - exists [SetGDims 3 4; SetMu m], [SetGDelta d]. split; [reflexivity|]. intros x [<- |[]]; reflexivity.
  - right. exists 3, 4. split; [|reflexivity]. exists [], [SetMu m; SetSigma s; SetGDelta d]. split; [reflexivity|]. intros x [<- |[<- |[<- |[]]]]; reflexivity.
  - lia.
  - specialize (Q1 g). change (Z.to_nat 12) with 12%nat in Q1. destruct (draws norm 12 g) as [xs g1]. destruct Q1 as (Ei & Li). cbn [fst].
    set (v := map (fun x => fadd (fmul x s) m) xs) in *. assert (Lv : length v = 12%nat) by (unfold v; rewrite map_length; exact Li).
    destruct (Q2 d v g1) as (v2 & g2 & i & x & st & Em & X); [|exact H3|lia|].
    + exists [SetGDims 3 4; SetMu m; SetSigma s], []. split; [reflexivity|]. intros x [].
    + exists b, g1, v2, g2. split; [exact E|]. split; [exact Ei|]. split; [exact Em|]. split; [exact Lv|]. exists i, x, st. exact X.
Qed.
Lemma box5 R (HR : rng_ok R) g : exists b v g', fixed_int_box k5 (-3) (-2) = Ok b /\ ndims k5 b = Ok 6 /\ nmin_at k5 b 0 = Ok (-3) /\ nmax_at k5 b 0 = Ok (-2) /\
  i_initialize R int32 k5 b g = Ok (v, g') /\ in_ibox (square_ibox 6 (-3) (-2)) v.
Proof.
  exists (nfixed k5 (-3) (-2) 0).
  destruct (C101_int_fixed_range R int32 k5 [] (nfixed k5 (-3) (-2) 0) (-3) (-2) 2 3 HR ltac:(cbn; lia) eq_refl eq_refl eq_refl ltac:(lia)) as (_ & W & _); [left; split; [reflexivity|lia]|lia|].
  destruct (W ltac:(intros i _; cbn; lia) g) as (v & g' & Ev & I). exists v, g'. split; [reflexivity|]. split; [reflexivity|]. split; [reflexivity|]. split; [reflexivity|]. split; [exact Ev|exact I].
Qed.
Lemma codes32 fuel : (1100 <= fuel)%nat -> through_code32 fuel (f_of_Z (-10)) = Ok (f_of_Z (-10)) /\ through_code32 fuel (f_of_Z 5) = Ok (f_of_Z 5) /\ through_code32 fuel half = Ok half.
Proof.
  intros Hf. assert (X : exists a b c, 0 <= a < 2 ^ 32 /\ 0 <= b < 2 ^ 32 /\ 0 <= c < 2 ^ 32 /\ ieee32 a = f_of_Z (-10) /\ ieee32 b = f_of_Z 5 /\ ieee32 c = half /\
    (forall x, x = a \/ x = b \/ x = c -> ~ nan32 x /\ ~ wrong32 x)).
  { exists (2 ^ 31 + 130 * 2 ^ 23 + 2 ^ 21), (129 * 2 ^ 23 + 2 ^ 21), (126 * 2 ^ 23). split; [lia|]. split; [lia|]. split; [lia|].
    split; [apply B2SF_inj; vm_compute; reflexivity|]. split; [apply B2SF_inj; vm_compute; reflexivity|]. split; [apply B2SF_inj; vm_compute; reflexivity|].
    intros x [-> |[-> | ->]]; (split; [intros (A & _); vm_compute in A; discriminate A|intros [A|[(_ & A)|A]]; vm_compute in A; discriminate A]). }
  destruct X as (a & b & c & Ra & Rb & Rc & <- & <- & <- & W). unfold through_code32.
  destruct (C44_encode32 fuel a Hf Ra) as (A1 & A2); [apply W; auto|apply W; auto|].
  destruct (C44_encode32 fuel b Hf Rb) as (B1 & B2); [apply W; auto|apply W; auto|].
  destruct (C44_encode32 fuel c Hf Rc) as (C1 & C2); [apply W; auto|apply W; auto|].
  rewrite A1, B1, C1. cbn [bind]. auto.
Qed.
Lemma box6 R fuel (HR : rng_ok R) g : (1100 <= fuel)%nat -> exists b b' v g1 v2 g2, fixed_float_box fuel k6 (f_of_Z (-10)) (f_of_Z 5) half = Ok b /\ ndrive flt f0 k6 b [NDims 3 4] = Ok b' /\
  nmin_at k6 b' 0 = Ok (f_of_Z (-10)) /\ nmax_at k6 b' 0 = Ok (f_of_Z 5) /\ ndelta_at k6 b' 0 = Ok half /\
  f_initialize R k6 b' g = Ok (v, g1) /\ f_step R k6 b' v g1 = Ok (v2, g2) /\ in_fbox long_box v /\ in_fbox long_box v2 /\
  exists i x y s, only_at i v v2 /\ nth_error v i = Some x /\ nth_error v2 i = Some y /\ (s = f1 \/ s = f_of_Z (-1)) /\ nearest_f (f_of_Z (-10)) (f_of_Z 5) (fadd x s) y.
Proof.
  intros Hf. destruct (codes32 fuel Hf) as (A1 & A2 & A3). unfold long_box.
  assert (H1 : flt (f_of_Z (-10) : float) (f_of_Z 5) = true) by (vm_compute; reflexivity). assert (H2 : flt f0 half = true) by (vm_compute; reflexivity).
  assert (F1 : fin (f_of_Z (-10) : float)) by (vm_compute; reflexivity). assert (F2 : fin (f_of_Z 5 : float)) by (vm_compute; reflexivity).
  revert A1 A2 A3 H1 H2 F1 F2. generalize (f_of_Z (-10) : float) as lo, (f_of_Z 5 : float) as hi, half as d. intros lo hi d A1 A2 A3 H1 H2 F1 F2.
  exists (nfixed k6 lo hi d). assert (E : exists b', ndrive flt f0 k6 (nfixed k6 lo hi d) [NDims 3 4] = Ok b' /\ nmin_at k6 b' 0 = Ok lo /\ nmax_at k6 b' 0 = Ok hi) by (eexists; split; [reflexivity|split; reflexivity]).
  destruct E as (b' & E & E1 & E2). exists b'.
  destruct (C101_float_fixed_range R k6 [NDims 3 4] b' lo hi d 3 4 HR eq_refl eq_refl E H1) as (W & Dl); [|lia|].
  { right. split; [reflexivity|]. exists [], []. split; [reflexivity|intros x []]. }
  change (3 * 4) with 12 in W. destruct W as (Q1 & Q2 & _ & Q3 & _). destruct (Q2 (fun _ _ => conj F1 F2) g) as (v & g1 & Ev & Iv).
  destruct (Q3 ltac:(cbn; lia) v g1 Iv) as (v2 & g2 & Em & Im & X). exists v, g1, v2, g2.
  split. { unfold fixed_float_box. rewrite A1. cbn [bind]. rewrite A2. cbn [bind]. rewrite A3. cbn [bind]. rewrite H1, H2. reflexivity. }
  split; [exact E|]. split; [exact E1|]. split; [exact E2|]. split; [exact (Dl 0%nat)|]. split; [exact Ev|]. split; [exact Em|]. split; [exact Iv|]. split; [exact Im|exact X].
Qed.

(** * C102 *)
(** For every random stream and every normal distribution the program ends, no
    assertion fails, and every variable printed is where its box says.  The
    compile-time boxes keep the bounds that were encoded.  Where the text and the
    program differ: the fifth box is announced as [-3,6] and is [-3,-2]; the sixth
    is announced with delta = 0.5 and moves by one. *)
Theorem C102_boxes_program : forall R norm fuel g, rng_ok R -> (1100 <= fuel)%nat -> exists o, boxes_main R norm fuel g = Ok o /\
  (o0_dims o = 4 /\ o0_before o = repeat (literal 5 1) 4 /\ o0_constrained o = o0_before o /\ in_box unit_square (o0_moved o) /\
   exists i y s, only_at i (o0_before o) (o0_moved o) /\ nth_error (o0_moved o) i = Some y /\ fle (fopp (literal 6 1)) s = true /\ fle s (literal 6 1) = true /\ nearest d0 d1 (fadd (literal 5 1) s) y) /\
  (length (o1 o) = 20%nat /\ Forall (fun x => -3 <= x <= 4) (o1 o)) /\
  (o2_rows o = 3 /\ o2_cols o = 6 /\ o2_min o = map Some lows /\ o2_max o = map Some highs /\ o2_delta o = map Some tenths /\ in_fbox wide_box (o2_init o) /\ in_fbox wide_box (o2_moved o) /\
   exists i x y s, only_at i (o2_init o) (o2_moved o) /\ nth_error (o2_init o) i = Some x /\ nth_error (o2_moved o) i = Some y /\
     fle (fopp (nth i tenths f0)) s = true /\ fle s (nth i tenths f0) = true /\ nearest_f (nth i lows f0) (nth i highs f0) (fadd x s) y) /\
  (length (o3_init o) = 10%nat /\ exists i x, only_at i (o3_init o) (o3_moved o) /\ nth_error (o3_init o) i = Some x /\ nth_error (o3_moved o) i = Some (negb x)) /\
  (length (o4_init o) = 12%nat /\ exists i x s, only_at i (o4_init o) (o4_moved o) /\ nth_error (o4_init o) i = Some x /\ nth_error (o4_moved o) i = Some (fadd x s) /\
     fle (fopp (d_of_Z 10000000)) s = true /\ fle s (d_of_Z 10000000) = true) /\
  (o5_dims o = 6 /\ o5_min o = -3 /\ o5_max o = -2 /\ length (o5_init o) = 6%nat /\ Forall (fun x => x = -3 \/ x = -2) (o5_init o)) /\
  (o6_min o = f_of_Z (-10) /\ o6_max o = f_of_Z 5 /\ o6_delta o = half /\ in_fbox long_box (o6_init o) /\ in_fbox long_box (o6_moved o) /\
   exists i x y s, only_at i (o6_init o) (o6_moved o) /\ nth_error (o6_init o) i = Some x /\ nth_error (o6_moved o) i = Some y /\ (s = f1 \/ s = f_of_Z (-1)) /\ nearest_f (f_of_Z (-10)) (f_of_Z 5) (fadd x s) y).
Proof.
  intros R norm fuel g HR Hf. unfold boxes_main.
  destruct (box0 R HR g) as (b0 & v2 & g1 & X1 & X2 & X3 & X4 & X5 & X6 & X7). rewrite X1. cbn [bind]. rewrite X2. cbn [bind]. rewrite X3. cbn [bind]. cbv zeta. rewrite X4. cbn [bind]. rewrite X5. cbn [bind].
  destruct (box1 R HR g1) as (b1 & a & g2 & Y1 & Y2 & Y3). rewrite Y1. cbn [bind]. rewrite Y2. cbn [bind].
  destruct (box2 R HR g2) as (b2 & m2 & g3 & m2' & g4 & Z1 & Z2 & Z3 & Z4 & Z5 & Z6 & Z7 & Z8 & Z9 & Z10 & Z11 & Z12). rewrite Z1. cbn [bind]. rewrite Z2. cbn [bind]. rewrite Z3. cbn [bind]. rewrite Z7. cbn [bind]. rewrite Z8. cbn [bind]. rewrite Z9. cbn [bind].
  destruct (C101_bool R (Some (10, 1)) 10 1 HR (or_introl eq_refl) ltac:(lia) ltac:(lia) ltac:(lia)) as (B1 & _ & B3 & _). change (10 * 1) with 10 in *.
  destruct (B1 g4) as (x3 & g5 & B1e & B1l). rewrite B1e. cbn [bind]. destruct (B3 x3 g5 B1l) as (x3' & g6 & i3 & y3 & B3e & B3x). rewrite B3e. cbn [bind].
  destruct (box4 R norm HR g6) as (b4 & g7 & m4' & g8 & W1 & W2 & W3 & W4 & W5). rewrite W1. cbn [bind]. rewrite W2. cbn [bind]. rewrite W3. cbn [bind].
  destruct (box5 R HR g8) as (b5 & m5 & g9 & V1 & V2 & V3 & V4 & V5 & V6). rewrite V1. cbn [bind]. rewrite V2. cbn [bind]. rewrite V3. cbn [bind]. rewrite V4. cbn [bind]. rewrite V5. cbn [bind].
  fold half. destruct (box6 R fuel HR g9 Hf) as (b6 & b6' & m6 & g10 & m6' & g11 & U1 & U2 & U3 & U4 & U5 & U6 & U7 & U8 & U9 & U10).
  rewrite U1. cbn [bind]. rewrite U2. cbn [bind]. rewrite U3. cbn [bind]. rewrite U4. cbn [bind]. rewrite U5. cbn [bind]. rewrite U6. cbn [bind]. rewrite U7. cbn [bind].
  eexists. split; [reflexivity|]. cbn [o0_dims o0_before o0_constrained o0_moved o1 o2_rows o2_cols o2_min o2_max o2_delta o2_init o2_moved o3_init o3_moved o4_init o4_moved o5_dims o5_min o5_max o5_init o6_min o6_max o6_delta o6_init o6_moved].
  split; [split; [reflexivity|]; split; [reflexivity|]; split; [reflexivity|]; split; [exact X6|exact X7]|].
  split. { destruct Y3 as (L & I). split; [cbn [square_ibox dimI] in L; lia|]. apply Forall_forall. intros x Hx. apply In_nth_error in Hx. destruct Hx as (i & Hi). exact (I i x Hi). }
  split. { split; [reflexivity|]. split; [reflexivity|]. split; [exact Z4|]. split; [exact Z5|]. split; [exact Z6|]. split; [exact Z10|]. split; [exact Z11|exact Z12]. }
  split. { split; [lia|]. exists i3, y3. exact B3x. }
  split. { split; [exact W4|exact W5]. }
  split. { split; [reflexivity|]. split; [reflexivity|]. split; [reflexivity|]. destruct V6 as (L & I). split; [cbn [square_ibox dimI] in L; lia|].
    apply Forall_forall. intros x Hx. apply In_nth_error in Hx. destruct Hx as (i & Hi). pose proof (I i x Hi) as J. cbn [square_ibox minI maxI] in J. lia. }
  split; [reflexivity|]. split; [reflexivity|]. split; [reflexivity|]. split; [exact U8|]. split; [exact U9|exact U10].
Qed.
Print Assumptions C102_boxes_program.
(** A stream, a distribution and enough steps to run it with. *)
Example ex_C102 : rng_ok replay /\ (1100 <= 1100)%nat.
Proof. split; [exact replay_ok|lia]. Qed.
