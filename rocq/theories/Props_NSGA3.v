(** C25-C28 and the NSGA-III instances of C18, C20, C22, C62, C63.
    Specification vocabulary: NSGA3Spec.v ([splits], [lattice_point],
    [inner_point], [niche_count], [niche_fill], [line_dist2]), MOGASpec.v
    ([Dominates], [nondominated_in], [dominator_count], [objective]), GlobalSpec.v
    ([binom]) and [wf] (GAOpsProofs.v). *)
From Coq Require Import List Arith ZArith Reals Bool Lia Lra Permutation Sorted.
From Flocq Require Import Core BinarySingleNaN.
From Verif Require Import VarInv Props_SOGA Props_MOGA Props_Box.
From Verif Require Import Base Fl FlFacts Rng StdOps ListFacts GABase GABaseProofs GAOpsProofs GlobalM GlobalSpec GlobalProofs MOGA MOGASpec MOGAProofs MOGAProofs2 MOGAProofs3 MOGAProofs4 MOGAProofs5
  NSGA3 NSGA3Spec NSGA3Proofs NSGA3Proofs2 NSGA3Proofs3 NSGA3Proofs4.
Import ListNotations.
Open Scope Z_scope.

(** * C25 *)
(** The points are k/p for all ways k of distributing p units over M objectives,
    each once and in the order of [ks]; coordinates are right up to 2^-53. *)
Theorem C25_simplex_lattice :
  forall (M p : nat), (1 <= M)%nat -> 1 <= Z.of_nat p <= 9007199254740992 ->
    exists rf ks, computeReferencePointPoses M p = Ok rf /\
      NoDup ks /\ (forall k, In k ks <-> splits M p k) /\ Forall2 (lattice_point p) ks rf.
Proof.
  intros M p HM Hp. destruct (points_ok M p HM Hp) as (rf & E & _ & F). exists rf, (comps M p).
  split; [exact E|]. split; [apply comps_nodup|]. split; [|exact F]. destruct M as [|n]; [lia|]. intros k. apply comps_in.
Qed.
Print Assumptions C25_simplex_lattice.

Theorem C25_points_distinct :
  forall (M p : nat) rf, (1 <= M)%nat -> 1 <= Z.of_nat p < 4503599627370496 ->
    computeReferencePointPoses M p = Ok rf -> NoDup rf.
Proof.
  intros M p rf HM Hp H. destruct (points_ok M p HM ltac:(lia)) as (rf' & E & _ & F).
  assert (rf' = rf) by congruence. subst rf'. clear E H.
  pose proof (comps_nodup M p) as N. revert N F. generalize (comps M p). intros ks N F.
  induction F as [|k x ks rf L F IH]; [constructor|]. inversion N as [|? ? N1 N2]; subst. constructor; [|apply IH, N2].
  intros Hx. apply N1. clear IH N N1 N2. induction F as [|k' x' ks rf L' F IH]; [destruct Hx|]. destruct Hx as [->|Hx].
  - left. exact (lattice_inj p k' k x Hp L' L).
  - right. apply IH, Hx.
Qed.
Print Assumptions C25_points_distinct.

(** What the solver stores: the same points, shuffled... *)
Theorem C25_single_layer :
  forall (R : rng_ops) (M p : nat) (g : G R), rng_ok R -> (1 <= M)%nat -> (1 <= p)%nat -> (M + p - 1 <= 20)%nat ->
    exists ws g' ks, makePoses1 R M (Some p) g = Ok (ws, g') /\
      NoDup ks /\ (forall k, In k ks <-> splits M p k) /\ Forall2 (lattice_point p) ks ws.
Proof.
  intros R M p g HR HM Hp H. destruct (poses1_ok R M p g HR HM H) as (rf & ws & g' & E & Em & P & _).
  destruct (C25_simplex_lattice M p HM ltac:(lia)) as (rf' & ks & E' & N & I & F). assert (rf' = rf) by congruence. subst rf'.
  destruct (Forall2_perm _ _ _ P _ F) as (ks' & P' & F'). exists ws, g', ks'. split; [exact Em|].
  split; [eapply Permutation_NoDup; eassumption|]. split; [|exact F']. intros k. rewrite <- I. split; apply Permutation_in; [symmetry|]; exact P'.
Qed.
Print Assumptions C25_single_layer.

(** ... and for the double layer: the inner lattice scaled by 1/sqrt 2, then the outer one. *)
Theorem C25_double_layer :
  forall (R : rng_ops) (M pi po : nat) (g : G R), (1 <= M)%nat -> (1 <= pi)%nat -> (1 <= po)%nat ->
    (M + pi - 1 <= 20)%nat -> (M + po - 1 <= 20)%nat ->
    exists inner outer g' ki ko, makePoses2 R M pi po g = Ok (inner ++ outer, g') /\
      NoDup ki /\ (forall k, In k ki <-> splits M pi k) /\ Forall2 (inner_point pi) ki inner /\
      NoDup ko /\ (forall k, In k ko <-> splits M po k) /\ Forall2 (lattice_point po) ko outer.
Proof.
  intros R M pi po g HM Hi Ho Li Lo. destruct (poses2_ok R M pi po g HM Li Lo) as (irf & orf & g' & Ei & Eo & Em & _).
  destruct (points_ok M pi HM ltac:(lia)) as (ri & Ei' & Ci & Fi). destruct (points_ok M po HM ltac:(lia)) as (ro & Eo' & _ & Fo).
  assert (Hri : ri = irf) by congruence. assert (Hro : ro = orf) by congruence. rewrite Hri in Ci, Fi. rewrite Hro in Fo. clear Hri Hro Ei' Eo' ri ro.
  exists (map (map (fun x => fmul x inv_sqrt2)) irf), orf, g', (comps M pi), (comps M po).
  assert (I : forall r k, In k (comps M r) <-> splits M r k) by (destruct M as [|n]; [lia|]; apply comps_in).
  split; [exact Em|]. split; [apply comps_nodup|]. split; [apply I|]. split.
  - assert (Q : forall k, In k (comps M pi) -> inner_point pi k (map (fun x => fmul x inv_sqrt2) (coords pi 0 k))).
    { intros k Hk. apply I in Hk. destruct Hk as (Lk & Sk). apply inner_ok.
      - apply coords_lattice; [lia|]. rewrite Sk. reflexivity.
      - apply coords_unit; [lia|]. rewrite Sk. reflexivity.
      - apply Forall_forall. intros x Hx. apply frac_01; [lia|]. rewrite <- Sk. clear -Hx. induction k as [|y k IH]; [destruct Hx|].
        cbn. destruct Hx as [->|Hx]; [lia|]. specialize (IH Hx). unfold list_sum in IH. lia. }
    rewrite Ci. revert Q. generalize (comps M pi). intros ks Q. induction ks as [|k ks IH]; [constructor|]. cbn [map]. constructor; [apply Q; left; reflexivity|].
    apply IH. intros k' Hk'. apply Q. right. exact Hk'.
  - split; [apply comps_nodup|]. split; [apply I|exact Fo].
Qed.
Print Assumptions C25_double_layer.
(** Setting the precisions (i, o): below 2 it aborts; otherwise, and before the
    first call with (3, 4), the two lattices are those of i and o. *)
Theorem C25_precision_setter :
  default_precisions = (3, 4)%nat /\
  (forall i o, (i < 2 \/ o < 2)%nat -> setPrecisions i o = Abort) /\
  forall (R : rng_ops) (M i o : nat) (g : G R), (1 <= M)%nat -> (2 <= i)%nat -> (2 <= o)%nat ->
    (M + i - 1 <= 20)%nat -> (M + o - 1 <= 20)%nat ->
    exists inner outer g' ki ko,
      bind (setPrecisions i o) (fun '(pi, po) => makePoses2 R M pi po g) = Ok (inner ++ outer, g') /\
      NoDup ki /\ (forall k, In k ki <-> splits M i k) /\ Forall2 (inner_point i) ki inner /\
      NoDup ko /\ (forall k, In k ko <-> splits M o k) /\ Forall2 (lattice_point o) ko outer.
Proof.
  split; [reflexivity|]. unfold setPrecisions. split.
  - intros i o [H|H]; [|destruct (Nat.leb 2 i); [|reflexivity]]; rewrite (proj2 (Nat.leb_gt _ _) H); reflexivity.
  - intros R M i o g HM Hi Ho Li Lo. rewrite (proj2 (Nat.leb_le _ _) Hi), (proj2 (Nat.leb_le _ _) Ho). cbn [andb bind].
    apply C25_double_layer; lia.
Qed.
Print Assumptions C25_precision_setter.
Example C25_precision_setter_example : exists ws g', bind (setPrecisions 2 3) (fun '(pi, po) => makePoses2 replay 3 pi po []) = Ok (ws, g') /\ length ws = 16%nat.
Proof.
  destruct (C25_precision_setter) as (_ & _ & T). destruct (T replay 3%nat 2%nat 3%nat []) as (a & b & g' & ki & ko & E & _); try lia.
  exists (a ++ b), g'. split; [exact E|].
  assert (Q : match bind (setPrecisions 2 3) (fun '(pi, po) => makePoses2 replay 3 pi po []) with Ok (w, _) => length w | _ => 0%nat end = 16%nat) by (vm_compute; reflexivity).
  rewrite E in Q. exact Q.
Qed.

(** The coordinates are not always the doubles nearest to k/p: for M = 2, p = 10
    the point (0.9, 0.1) is stored as (0.9, 1 - 0.9). *)
Theorem C25_coordinates_exact_refuted :
  ~ (forall (M p : nat) rf x, (1 <= M)%nat -> (1 <= p)%nat -> computeReferencePointPoses M p = Ok rf -> In x rf ->
       exists k, splits M p k /\ x = map (fun ki => fdiv (d_of_Z (Z.of_nat ki)) (d_of_Z (Z.of_nat p)) : double) k).
Proof.
  intros H.
  assert (T : exists rf, computeReferencePointPoses 2 10 = Ok rf /\
     (match nth_error rf 9 with
      | Some [a; b] => forallb (fun q : nat => negb (feq b (fdiv (d_of_Z (Z.of_nat q)) (d_of_Z 10)))) (seq 0 11)
      | _ => false end) = true) by (apply Props_SOGA.by_test; vm_compute; reflexivity).
  destruct T as (rf & E & T). destruct (nth_error rf 9) as [x|] eqn:En; [|discriminate T].
  destruct (H 2%nat 10%nat rf x ltac:(lia) ltac:(lia) E (nth_error_In _ _ En)) as (k & (L & S) & Ex).
  destruct k as [|a [|b [|]]]; try discriminate L. cbn in S. cbn [map] in Ex. subst x. rewrite forallb_forall in T.
  specialize (T b). apply negb_true_iff in T; [|apply in_seq; lia]. change (Z.of_nat 10) with 10 in T.
  assert (F : feq (fdiv (d_of_Z (Z.of_nat b)) (d_of_Z 10) : double) (fdiv (d_of_Z (Z.of_nat b)) (d_of_Z 10)) = true).
  { assert (Hb : (b <= 10)%nat) by lia. clear -Hb. do 11 (destruct b as [|b]; [vm_compute; reflexivity|]). lia. }
  rewrite F in T. discriminate T.
Qed.
Print Assumptions C25_coordinates_exact_refuted.

(** Before setReferencePointPrecision the single-layer solver reads an
    uninitialised precision. *)
Theorem C25_unset_precision_is_undefined :
  forall (V : Type) (R : rng_ops) (M : nat) (opt : ga_option) (fs : user_funs V (list double) (G R)) junk (v0 : V)
         (c : core V (list double) (list nat) (G R)),
    nsga3_init R M opt fs junk v0 None c = UB.
Proof. reflexivity. Qed.
Print Assumptions C25_unset_precision_is_undefined.

(** * C26 *)
Theorem C26_count :
  forall (M p : nat), (1 <= M)%nat -> (M + p - 1 <= 20)%nat ->
    exists n rf, pointCount M p = Ok n /\ computeReferencePointPoses M p = Ok rf /\
      Z.of_nat (length rf) = n /\ n = binom (M + p - 1) p.
Proof.
  intros M p HM H. destruct (points_length M p HM) as (rf & E & L). exists (binom (M + p - 1) p), rf.
  rewrite (pointCount_ok M p HM H). auto.
Qed.
Print Assumptions C26_count.

Theorem C26_count_of_stored_points :
  forall (R : rng_ops) (M p pi po : nat) (g : G R), rng_ok R -> (1 <= M)%nat -> (M + p - 1 <= 20)%nat ->
    (M + pi - 1 <= 20)%nat -> (M + po - 1 <= 20)%nat ->
    (exists ws g', makePoses1 R M (Some p) g = Ok (ws, g') /\ pointCount M p = Ok (Z.of_nat (length ws))) /\
    (exists ws g', makePoses2 R M pi po g = Ok (ws, g') /\ pointCount2 M pi po = Ok (Z.of_nat (length ws)) /\
       Z.of_nat (length ws) = binom (M + pi - 1) pi + binom (M + po - 1) po).
Proof.
  intros R M p pi po g HR HM H Hi Ho. split.
  - destruct (poses1_ok R M p g HR HM H) as (rf & ws & g' & _ & Em & _ & L). exists ws, g'. split; [exact Em|].
    rewrite (pointCount_ok M p HM H), L. reflexivity.
  - destruct (poses2_ok R M pi po g HM Hi Ho) as (irf & orf & g' & _ & _ & Em & C & Li & Lo).
    eexists. exists g'. split; [exact Em|]. split; [exact C|]. rewrite app_length, map_length, Nat2Z.inj_add, Li, Lo. reflexivity.
Qed.
Print Assumptions C26_count_of_stored_points.

(** The generator always makes C(M+p-1, p) points... *)
Theorem C26_generated :
  forall (M p : nat), (1 <= M)%nat -> exists rf, computeReferencePointPoses M p = Ok rf /\ Z.of_nat (length rf) = binom (M + p - 1) p.
Proof. intros M p HM. apply points_length, HM. Qed.
Print Assumptions C26_generated.

(** ... but from M + p - 1 = 21 on the count overflows; the solver then silently
    keeps only that many of the points it generated. *)
Theorem C26_count_overflow_refuted :
  ~ (forall (M p : nat) rf, (1 <= M)%nat -> (M + p - 1 <= 21)%nat -> computeReferencePointPoses M p = Ok rf ->
       pointCount M p = Ok (Z.of_nat (length rf))) /\
  (forall (R : rng_ops) (g : G R), rng_ok R ->
     exists rf ws g', computeReferencePointPoses 3 19 = Ok rf /\ length rf = 210%nat /\
       makePoses1 R 3 (Some 19%nat) g = Ok (ws, g') /\ length ws = 58%nat).
Proof.
  assert (C : pointCount 3 19 = Ok 58) by (vm_compute; reflexivity).
  assert (B : binom (3 + 19 - 1) 19 = 210) by (vm_compute; reflexivity).
  destruct (points_length 3 19 ltac:(lia)) as (rf & E & L). rewrite B in L. split.
  - intros H. specialize (H 3%nat 19%nat rf ltac:(lia) ltac:(lia) E). rewrite C, L in H. discriminate H.
  - intros R g HR. unfold makePoses1. rewrite C, E. cbn [bind].
    pose proof (proj2 (proj2 HR) _ rf g) as P. destruct (shuffle R rf g) as [rf' g']. cbn [fst] in P. apply Permutation_length in P.
    exists rf. unfold copyColumns. replace (58 <=? Z.of_nat (length rf')) with true by (symmetry; apply Z.leb_le; lia). cbn [bind].
    exists (firstn (Z.to_nat 58) rf'), g'. split; [reflexivity|]. split; [lia|]. split; [reflexivity|]. rewrite firstn_length. lia.
Qed.
Print Assumptions C26_count_overflow_refuted.

Theorem C26_count_can_be_zero_refuted : pointCount 3 25 = Ok 0 /\ exists rf, computeReferencePointPoses 3 25 = Ok rf /\ length rf = 351%nat.
Proof.
  split; [vm_compute; reflexivity|]. destruct (points_length 3 25 ltac:(lia)) as (rf & E & L). exists rf. split; [exact E|].
  assert (B : binom (3 + 25 - 1) 25 = 351) by (vm_compute; reflexivity). lia.
Qed.
Print Assumptions C26_count_can_be_zero_refuted.

(** * C27 *)
(** Selection keeps every individual dominated less often than those of the cut
    layer, and fills the rest from the cut layer, niche by niche. *)
Theorem C27_niche_preservation :
  forall (V : Type) (R : rng_ops) (std : std_ops) (lin : lin_ops) (M : nat) (opt : ga_option) fuel (ws : list (list double))
         (c c' : core V (list double) (list nat) (G R)),
    rng_ok R -> std_ok std -> wf c -> 0 <= populationSize opt <= 4294967295 -> Z.of_nat (length ws) <= 18446744073709551616 ->
    nsga3_select R std lin M opt fuel ws c = Ok c' ->
    exists before cut after picks,
      Permutation (before ++ cut ++ after) (pop c) /\
      (forall x y nx ny, dominator_count M false (pop c) x nx -> dominator_count M false (pop c) y ny ->
         (In x before -> In y (cut ++ after) -> (nx < ny)%nat) /\
         (In x cut -> In y after -> (nx < ny)%nat) /\ (In x cut -> In y cut -> nx = ny)) /\
      (forall x, In x (pop c') <-> In x (before ++ picks)) /\ NoDup (before ++ picks) /\
      Z.of_nat (length (before ++ picks)) = populationSize opt /\ incl picks cut /\
      (picks = [] \/
       exists order start rp dist, Permutation order (before ++ cut) /\ In start cut /\
         (forall x, nearest lin ws (translated lin M start order x) = Ok (rp x, dist x)) /\
         niche_fill rp dist before cut picks /\
         (forall x y, In x picks -> In y cut -> ~ In y picks ->
            (niche_count rp (before ++ picks) (rp x) <= niche_count rp (before ++ picks) (rp y) + 1)%nat)).
Proof.
  intros V R std lin M opt fuel ws c c' HR Hstd Hw HK Lw H.
  destruct (nsga3_select_inv R std lin M opt HR Hstd fuel ws c c' Hw HK Lw H)
    as (ls & ns & taken & sel & L0 & LN & SS & _ & PC & _ & Ls & Ep & Nd & I & _ & _ & _ & _ & Cases).
  destruct Hw as (N & Hlt).
  assert (IS' : forall x, In x (pop c') <-> In x sel) by (intros x; apply (in_survivors R c c' sel x N Ep I)).
  assert (Inp : forall x, In x (concat ls) -> In x (pop c)) by (intros x Hx; eapply Permutation_in; eassumption).
  assert (Ix : forall x n, In x (concat ls) -> dominator_count M false (pop c) x n -> dominatedNum M false (pop c) x = n).
  { intros x n Hx Hc. apply (count_num M false) in Hc; [exact Hc|exact N|apply Inp, Hx]. }
  assert (LT : forall A B x y, ls = A ++ B -> In x (concat A) -> In y (concat B) -> (dominatedNum M false (pop c) x < dominatedNum M false (pop c) y)%nat).
  { intros A B x y EL Hx Hy. apply in_concat_nth in Hx. destruct Hx as (i & Lx & Hi & Hx). apply in_concat_nth in Hy. destruct Hy as (j & Ly & Hj & Hy).
    assert (Li : (i < length A)%nat) by (apply nth_error_Some; congruence).
    assert (Hi' : nth_error ls i = Some Lx) by (rewrite EL, nth_error_app1 by exact Li; exact Hi).
    assert (Hj' : nth_error ls (length A + j) = Some Ly) by (rewrite EL, nth_error_app2 by lia; replace (length A + j - length A)%nat with j by lia; exact Hj).
    destruct (Forall2_nth _ _ _ LN i Lx Hi') as (a & Ha & _ & Fa). destruct (Forall2_nth _ _ _ LN (length A + j) Ly Hj') as (b & Hb & _ & Fb).
    rewrite (Fa x Hx), (Fb y Hy). exact (strong_nth _ _ SS i (length A + j) a b ltac:(lia) Ha Hb). }
  pose proof (NoDup_map_inv gid sel Nd) as NDs.
  destruct Cases as [(rest & E & Es)|(L & rest & picks & left & E & Es & Hp & PL & start & Lt & EL & Hws & NF)]; cbv zeta in *.
  - exists (concat taken), [], (concat rest), []. cbn [app]. rewrite app_nil_r. rewrite <- concat_app, <- E.
    split; [exact PC|]. split.
    { intros x y nx ny Cx Cy. split; [|split; intros []]. intros Hx Hy.
      assert (X1 : In x (concat ls)) by (rewrite E, concat_app; apply in_or_app; auto).
      assert (X2 : In y (concat ls)) by (rewrite E, concat_app; apply in_or_app; auto).
      rewrite <- (Ix x nx X1 Cx), <- (Ix y ny X2 Cy). exact (LT taken rest x y E Hx Hy). }
    rewrite <- Es. split; [exact IS'|]. split; [exact NDs|]. split; [exact Ls|]. split; [intros ? []|left; reflexivity].
  - assert (EC : concat ls = concat taken ++ L ++ concat rest) by (rewrite E, concat_app; reflexivity).
    assert (NDc : NoDup (map gid (concat ls))) by (eapply Permutation_NoDup; [apply Permutation_map, Permutation_sym, PC|exact N]).
    exists (concat taken), L, (concat rest), picks. rewrite <- EC, <- Es.
    split; [exact PC|]. split.
    { intros x y nx ny Cx Cy.
      assert (X : forall z, In z (concat taken) \/ In z L \/ In z (concat rest) -> In z (concat ls)).
      { intros z Hz. rewrite EC, !in_app_iff. exact Hz. }
      split; [|split].
      - intros Hx Hy. rewrite <- (Ix x nx (X _ (or_introl Hx)) Cx), <- (Ix y ny) by (try exact Cy; apply X; apply in_app_iff in Hy; tauto).
        apply (LT taken (L :: rest) x y E Hx). exact Hy.
      - intros Hx Hy. rewrite <- (Ix x nx (X _ (or_intror (or_introl Hx))) Cx), <- (Ix y ny (X _ (or_intror (or_intror Hy))) Cy).
        apply (LT (taken ++ [L]) rest x y); [rewrite E, <- app_assoc; reflexivity| |exact Hy]. rewrite concat_app. cbn. rewrite app_nil_r. apply in_or_app. auto.
      - intros Hx Hy. rewrite <- (Ix x nx (X _ (or_intror (or_introl Hx))) Cx), <- (Ix y ny (X _ (or_intror (or_introl Hy))) Cy).
        assert (Hi : nth_error ls (length taken) = Some L) by (rewrite E, nth_error_app2, Nat.sub_diag by lia; reflexivity).
        destruct (Forall2_nth _ _ _ LN _ L Hi) as (a & _ & _ & Fa). rewrite (Fa x Hx), (Fa y Hy). reflexivity. }
    split; [exact IS'|]. split; [exact NDs|]. split; [exact Ls|].
    assert (IP : incl picks L). { intros x Hx. eapply Permutation_in; [apply Permutation_sym, PL|]. apply in_or_app. auto. }
    split; [exact IP|]. right.
    set (tr := translated lin M start (umap_order std (concat taken) ++ L)) in *.
    exists (umap_order std (concat taken) ++ L), start, (fun x => fst (near lin ws tr x)), (fun x => snd (near lin ws tr x)).
    split; [apply Permutation_app_tail, Permutation_sym, (proj2 Hstd)|]. split; [rewrite EL; left; reflexivity|]. split.
    { intros x. fold (tr x). rewrite (proj1 (near_ok lin ws tr x Hws)). destruct (near lin ws tr x); reflexivity. }
    split; [exact NF|]. intros x y Hx Hy Hny. rewrite Es. refine (niche_fill_balanced _ _ _ _ _ NF left PL x y Hx _).
    apply (Permutation_in _ PL), in_app_iff in Hy. tauto.
Qed.
Print Assumptions C27_niche_preservation.

(** Each round fills a slot or discards a reference point, so |ws| + populationSize
    rounds are enough, and more of them change nothing. *)
Theorem C27_terminates :
  forall (V : Type) (R : rng_ops) (std : std_ops) (lin : lin_ops) (M : nat) (opt : ga_option) (ws : list (list double))
         (c : core V (list double) (list nat) (G R)),
    rng_ok R -> std_ok std -> wf c -> 1 <= populationSize opt <= Z.of_nat (length (pop c)) -> populationSize opt <= 4294967295 ->
    ws <> [] -> Z.of_nat (length ws) <= 18446744073709551616 ->
    exists c', forall extra, nsga3_select R std lin M opt (length ws + Z.to_nat (populationSize opt) + extra) ws c = Ok c'.
Proof.
  intros V R std lin M opt ws c HR Hstd Hw HK HK2 Hws Lw.
  destruct (nsga3_total R std lin M opt HR Hstd (length ws + Z.to_nat (populationSize opt)) ws c Hw HK HK2 Hws Lw (le_n _)) as (c' & E).
  exists c'. intros extra. revert E. unfold nsga3_select. destruct (divideLayers std M false (pop c)) as [sp [|L0 ls]]; [auto|].
  cbv zeta. destruct (takeLayers (populationSize opt) [] (L0 :: ls)) as [((a, b), need)| | |]; cbn [bind]; auto.
  destruct need; [|auto]. destruct b as [|Fl b]; [auto|]. intros E. apply bind_Ok in E. destruct E as ((sel, g) & E1 & E2).
  rewrite (fillNiches_fuel R std lin M opt _ extra ws a Fl (gen_rng c) (sel, g) E1). exact E2.
Qed.
Print Assumptions C27_terminates.

(** * C28 *)
(** With computed distances that are numbers: the reference point chosen has the
    smallest one, and is the first such point. *)
Theorem C28_nearest_of_computed_distances :
  forall (lin : lin_ops) (ws : list (list double)) (s : list double) j d,
    let dist w := lineDistance fmul fdiv fsub (dotp lin) (sqnorm lin) w s in
    (forall w, In w ws -> nonnan (dist w)) -> nearest lin ws s = Ok (j, d) ->
    (exists w, nth_error ws j = Some w /\ d = dist w) /\
    (forall w, In w ws -> fle d (dist w) = true) /\
    (forall i w, (i < j)%nat -> nth_error ws i = Some w -> flt d (dist w) = true).
Proof.
  intros lin ws s j d dist HN H. unfold nearest in H.
  pose proof (findNearest_spec (flt : double -> double -> bool) (fun a b => nonnan a /\ nonnan b /\ fle a b = true) (fun a => nonnan a)) as F.
  edestruct F as (A & B & C); [..|exact HN|exact H|].
  - intros a b Na Nb E. split; [exact Nb|]. split; [exact Na|]. apply flt_false_le; assumption.
  - intros a b E. assert (Nn : nonnan a /\ nonnan b) by (destruct a, b; try discriminate E; split; reflexivity). destruct Nn as (Na & Nb).
    split; [exact Na|]. split; [exact Nb|]. apply flt_iff in E; try assumption. apply fle_iff; try assumption. lra.
  - intros a Na. split; [exact Na|]. split; [exact Na|]. apply fle_iff; try assumption. lra.
  - intros a b c (Na & Nb & E) (_ & Nc & E'). split; [exact Na|]. split; [exact Nc|].
    apply fle_iff in E; try assumption. apply fle_iff in E'; try assumption. apply fle_iff; try assumption. lra.
  - intros a b c E (Nb & Nc & E'). assert (Na : nonnan a) by (destruct a, b; try discriminate E; reflexivity).
    apply flt_iff in E; try assumption. apply fle_iff in E'; try assumption. apply flt_iff; try assumption. lra.
  - intros a b c (Na & Nb & E) E'. assert (Nc : nonnan c) by (destruct b, c; try discriminate E'; reflexivity).
    apply fle_iff in E; try assumption. apply flt_iff in E'; try assumption. apply flt_iff; try assumption. lra.
  - split; [exact A|]. split; [|exact C]. intros w Hw. exact (proj2 (proj2 (B w Hw))).
Qed.
Print Assumptions C28_nearest_of_computed_distances.

(** The formula is the right one: computed without rounding, the distance of the
    chosen point is the squared distance to its line, and no line is closer. *)
Theorem C28_formula_is_line_distance :
  forall (ws : list (list R)) (s : list R) j d,
    (forall w, In w ws -> length w = length s /\ rsqn w <> 0%R) ->
    findNearest Rmult Rdiv Rminus rdot rsqn rltb ws s = Ok (j, d) ->
    (exists w, nth_error ws j = Some w /\ line_dist2 w s d) /\
    (forall w d', In w ws -> line_dist2 w s d' -> (d <= d')%R).
Proof.
  intros ws s j d HL H. pose proof (findNearest_spec rltb Rle (fun _ => True)) as F.
  assert (LT : forall a b, rltb a b = true -> (a < b)%R) by (intros a b; unfold rltb; destruct (Rlt_dec a b); [auto|discriminate]).
  assert (LF : forall a b, (a < b)%R -> rltb a b = true) by (intros a b L; unfold rltb; destruct (Rlt_dec a b); [auto|contradiction]).
  edestruct F as (A & B & _); [..|exact H|].
  - intros a b _ _ E. apply Rnot_lt_le. intros L. apply LF in L. congruence.
  - intros a b E. apply LT in E. lra.
  - intros a _. lra.
  - intros a b c. lra.
  - intros a b c E L. apply LT in E. apply LF. lra.
  - intros a b c L E. apply LT in E. apply LF. lra.
  - intros; exact I.
  - split.
    + destruct A as (w & Hw & ->). exists w. split; [exact Hw|]. apply nth_error_In in Hw. destruct (HL w Hw) as (L & W). apply lineDistance_real; assumption.
    + intros w d' Hw (Q1 & t & Q2). specialize (B w Hw). destruct (HL w Hw) as (L & W). destruct (lineDistance_real w s L W) as (P1 & _).
      specialize (P1 t). lra.
Qed.
Print Assumptions C28_formula_is_line_distance.

(** What is associated is the individual's fitness minus the componentwise
    minimum, divided by the intercepts: computed from the worst individual of each
    objective; when their matrix is singular, the worst value itself. *)
Theorem C28_normalisation :
  forall (V : Type) (lin : lin_ops) (M : nat) start (order : list (gene V (list double))),
    In start order -> (forall x o, In x order -> (o < M)%nat -> fin (objective (gfit x) o)) ->
    exists (ideal : nat -> double) (worst : nat -> gene V (list double)),
      (forall o, (o < M)%nat -> (exists y, In y order /\ ideal o = objective (gfit y) o) /\
         forall y, In y order -> fle (ideal o) (objective (gfit y) o) = true) /\
      (forall o, (o < M)%nat -> In (worst o) order /\
         forall y, In y order -> fle (objective (gfit y) o) (objective (gfit (worst o)) o) = true) /\
      let P := map (fun o => map (fun i => fsub (objective (gfit (worst o)) i) (ideal i)) (seq 0 M)) (seq 0 M) in
      forall x o, (o < M)%nat ->
        objective (translated lin M start order x) o =
        fdiv (fsub (objective (gfit x) o) (ideal o))
             (if fle (fabs (determinant lin P)) eps10 then fsub (objective (gfit (worst o)) o) (ideal o)
              else fdiv d1 (objective (inv_ones lin P) o)).
Proof.
  intros V lin M start order Hs HF. exists (objective (idealPoint M order)), (fun o => extreme o start order).
  assert (NE : order <> []) by (intros ->; destruct Hs).
  split; [|split].
  - intros o Ho. apply ideal_ok; [exact Ho|exact NE|]. intros x Hx. apply HF; assumption.
  - intros o Ho. destruct (extreme_ok o order start) as (A & B).
    { intros x [<-|Hx]; apply HF; assumption. }
    split; [destruct A as [A|A]; [rewrite <- A; exact Hs|exact A]|]. intros y Hy. apply B. right. exact Hy.
  - cbv zeta. intros x o Ho. exact (translated_ok lin M start order x o Ho).
Qed.
Print Assumptions C28_normalisation.

(** When an objective has the same value in all individuals under consideration,
    its intercept is 0, the normalised values are NaN, and every individual is
    associated with reference point 0. *)
Theorem C28_constant_objective_refuted :
  forall (V : Type) (lin : lin_ops) (M : nat) start (order : list (gene V (list double))) (ws : list (list double)) o v,
    nan_through lin M -> (o < M)%nat -> fin v -> In start order -> (forall x, In x order -> objective (gfit x) o = v) ->
    fle (fabs (determinant lin (extremePoints M start order))) eps10 = true ->
    ws <> [] -> (forall w, In w ws -> length w = M) ->
    forall x, In x order -> exists d, nearest lin ws (translated lin M start order x) = Ok (0%nat, d).
Proof.
  intros V lin M start order ws o v HL Ho Fv Hs Hv HD Hws HW x Hx.
  apply (nearest_nan lin M ws _ o HL Ho); try assumption.
  - unfold translated, cwise. rewrite map_length, seq_length. reflexivity.
  - apply (constant_nan lin M start order x o v); try assumption; [intros ->; destruct Hs|]. intros y [<-|[<-|Hy]]; apply Hv; assumption.
Qed.
Print Assumptions C28_constant_objective_refuted.

(** * C18, C20, C22, C62, C63 for NSGA-III *)
Theorem C18_dominators_survive_nsga3 :
  forall (V : Type) (R : rng_ops) (std : std_ops) (lin : lin_ops) (M : nat) (opt : ga_option) fuel ws
         (c c' : core V (list double) (list nat) (G R)) x y,
    rng_ok R -> std_ok std -> wf c -> 0 <= populationSize opt <= 4294967295 -> Z.of_nat (length ws) <= 18446744073709551616 ->
    nsga3_select R std lin M opt fuel ws c = Ok c' ->
    In y (pop c') -> In x (pop c) -> dominates M false x y -> In x (pop c').
Proof.
  intros V R std lin M opt fuel ws c c' x y HR Hstd Hw HK Lw H Hy Hx D.
  destruct (nsga3_incl R std lin M opt HR Hstd fuel ws c c' Hw HK Lw H) as (_ & SL & _).
  destruct (in_dec Nat.eq_dec (gid x) (map gid (pop c'))) as [I|I].
  { apply in_map_iff in I. destruct I as (z & E & Hz).
    assert (z = x) by (apply (NoDup_map_inj gid (pop c)); auto; [apply Hw|eapply sublist_in; eassumption]). subst. exact Hz. }
  exfalso. assert (I' : ~ In x (pop c')) by (intros C; apply I, in_map, C).
  assert (Hyp : In y (pop c)) by (eapply sublist_in; eassumption).
  apply dom_iff in D. pose proof (num_dom M false (pop c) y x (proj1 Hw) Hyp Hx D) as L.
  pose proof (nsga3_priority R std lin M opt HR Hstd fuel ws c c' Hw HK Lw H x y Hx I' Hy). lia.
Qed.
Print Assumptions C18_dominators_survive_nsga3.

Theorem C20_exactly_populationSize_survive_nsga3 :
  forall (V : Type) (R : rng_ops) (std : std_ops) (lin : lin_ops) (M : nat) (opt : ga_option) fuel ws
         (c c' : core V (list double) (list nat) (G R)),
    rng_ok R -> std_ok std -> wf c -> 0 <= populationSize opt <= 4294967295 -> Z.of_nat (length ws) <= 18446744073709551616 ->
    nsga3_select R std lin M opt fuel ws c = Ok c' ->
    Z.of_nat (length (pop c')) = populationSize opt /\ sublist (pop c') (pop c) /\ wf c'.
Proof.
  intros V R std lin M opt fuel ws c c' HR Hstd Hw HK Lw H.
  destruct (nsga3_incl R std lin M opt HR Hstd fuel ws c c' Hw HK Lw H) as (A & B & C & _). auto.
Qed.
Print Assumptions C20_exactly_populationSize_survive_nsga3.

Theorem C20_too_few_is_undefined_nsga3 :
  forall (V : Type) (R : rng_ops) (std : std_ops) (lin : lin_ops) (M : nat) (opt : ga_option) fuel ws
         (c : core V (list double) (list nat) (G R)),
    std_ok std -> wf c -> Z.of_nat (length (pop c)) < populationSize opt -> nsga3_select R std lin M opt fuel ws c = UB.
Proof. intros V R std lin M opt fuel ws c Hstd Hw HK. apply nsga3_few; assumption. Qed.
Print Assumptions C20_too_few_is_undefined_nsga3.

(** Whatever the fitness values are (infinities and NaN included). *)
Theorem C20_whole_run_nsga3 :
  forall (V : Type) (R : rng_ops) (std : std_ops) (lin : lin_ops) (M : nat) (opt : ga_option) (ws : list (list double))
         (fs : user_funs V (list double) (G R)) (junk : list double) (v0 : V) (rec_on : bool) (vec_max : Z)
         (c : core V (list double) (list nat) (G R)) g r,
    rng_ok R -> std_ok std -> wf c -> 1 <= populationSize opt <= 4294967295 ->
    ws <> [] -> Z.of_nat (length ws) <= 18446744073709551616 ->
    0 <= maxGenerations opt < two64 - 1 -> (rec_on = true -> maxGenerations opt < vec_max) ->
    exists s', run R fs opt junk (nsga3_hooks R std lin M opt (length ws + Z.to_nat (populationSize opt)) ws) rec_on vec_max
                   (S (Z.to_nat (maxGenerations opt))) (mkGA (initializePop R fs opt junk v0 c) g r) = Ok s' /\
      generation s' = maxGenerations opt /\ fails (ga_core s') = 0 /\
      Z.of_nat (length (pop (ga_core s'))) = populationSize opt.
Proof.
  intros V R std lin M opt ws fs junk v0 rec_on vec_max c g r HR Hstd Hw HK Hws Lw HM Hv.
  apply (mo_run R fs opt junk (nsga3_hooks R std lin M opt (length ws + Z.to_nat (populationSize opt)) ws) (fun _ => True)); try assumption; try lia; try (intros; exact I).
  intros c0 W L T.
  destruct (nsga3_total R std lin M opt HR Hstd (length ws + Z.to_nat (populationSize opt)) ws c0 W ltac:(lia) ltac:(lia) Hws Lw (le_n _)) as (c' & E).
  destruct (nsga3_incl R std lin M opt HR Hstd _ ws c0 c' W ltac:(lia) Lw E) as (A & B & C & D & _).
  assert (B' : exists b, mo_bestFitness R M false c' = Ok b).
  { unfold mo_bestFitness. destruct (pop c'); [cbn in A; lia|eauto]. }
  destruct B' as (b & Eb). exists c', b. split; [exact E|]. split; [exact Eb|]. split; [exact C|]. split; [exact A|].
  split; [intros x Hx; eapply sublist_in; eassumption|exact D].
Qed.
Print Assumptions C20_whole_run_nsga3.

Lemma binom_pow n : forall k, binom n k <= 2 ^ Z.of_nat n.
Proof.
  induction n as [|n IHn]; intros [|k]; cbn [binom].
  - cbn; lia.
  - cbn; lia.
  - change 1 with (2 ^ 0). apply Z.pow_le_mono_r; lia.
  - pose proof (IHn k). pose proof (IHn (S k)). rewrite Nat2Z.inj_succ, Z.pow_succ_r by lia. lia.
Qed.
(** From initializePop() with reference points for precision p on. *)
Theorem C20_whole_run_from_precision_nsga3 :
  forall (V : Type) (R : rng_ops) (std : std_ops) (lin : lin_ops) (M p : nat) (opt : ga_option)
         (fs : user_funs V (list double) (G R)) (junk : list double) (v0 : V) (rec_on : bool) (vec_max : Z)
         (c : core V (list double) (list nat) (G R)) g r,
    rng_ok R -> std_ok std -> wf c -> 1 <= populationSize opt <= 4294967295 ->
    (1 <= M)%nat -> (M + p - 1 <= 20)%nat ->
    0 <= maxGenerations opt < two64 - 1 -> (rec_on = true -> maxGenerations opt < vec_max) ->
    exists ws ci s', nsga3_init R M opt fs junk v0 (Some p) c = Ok (ws, ci) /\
      run R fs opt junk (nsga3_hooks R std lin M opt (length ws + Z.to_nat (populationSize opt)) ws) rec_on vec_max
          (S (Z.to_nat (maxGenerations opt))) (mkGA ci g r) = Ok s' /\
      generation s' = maxGenerations opt /\ Z.of_nat (length (pop (ga_core s'))) = populationSize opt.
Proof.
  intros V R std lin M p opt fs junk v0 rec_on vec_max c g r HR Hstd Hw HK HM Hp HG Hv.
  destruct (poses1_ok R M p (gen_rng c) HR HM Hp) as (rf & ws & g' & _ & Em & _ & L).
  unfold nsga3_init. rewrite Em. cbn [bind].
  pose proof (binom_pos (M + p - 1) p ltac:(lia)) as B1. pose proof (binom_pow (M + p - 1) p) as B2.
  assert (B3 : 2 ^ Z.of_nat (M + p - 1) <= 2 ^ 20) by (apply Z.pow_le_mono_r; lia).
  change (2 ^ 20) with 1048576 in B3.
  destruct (C20_whole_run_nsga3 V R std lin M opt ws fs junk v0 rec_on vec_max (mkCore (pop c) (next c) (fails c) (ext c) g') g r) as (s' & E & A & B & C);
    try assumption; try lia.
  - intros ->. cbn in L. lia.
  - exists ws. eexists. exists s'. split; [reflexivity|]. auto.
Qed.
Print Assumptions C20_whole_run_from_precision_nsga3.

Theorem C22_reported_front_nsga3 :
  forall (V : Type) (R : rng_ops) (std : std_ops) (lin : lin_ops) (M : nat) (opt : ga_option) fuel ws
         (c c' : core V (list double) (list nat) (G R)) nd,
    rng_ok R -> std_ok std -> wf c -> 0 <= populationSize opt <= 4294967295 -> Z.of_nat (length ws) <= 18446744073709551616 ->
    nsga3_select R std lin M opt fuel ws c = Ok c' ->
    NoDup nd -> (forall x, In x nd <-> nondominated_in M false (pop c) x) ->
    exists front, paretoFront R c' = Ok (map gfit front) /\ NoDup front /\ incl front (pop c') /\
      (forall x, In x front -> nondominated_in M false (pop c) x) /\
      (forall x y, In x front -> In y front -> ~ dominates M false x y) /\
      (Z.of_nat (length nd) <= populationSize opt -> forall x, In x front <-> In x nd) /\
      (populationSize opt < Z.of_nat (length nd) -> forall x, In x front <-> In x (pop c')).
Proof.
  intros V R std lin M opt fuel ws c c' nd HR Hstd Hw HK Lw H Nn Hn.
  destruct (nsga3_front R std lin M opt HR Hstd fuel ws c c' Hw HK Lw H) as (ND & F1 & F2 & F3).
  destruct (nsga3_incl R std lin M opt HR Hstd fuel ws c c' Hw HK Lw H) as (_ & SL & Wc & _).
  assert (X : forall ids, NoDup ids -> (forall i, In i ids -> exists x, In x (pop c') /\ gid x = i /\ nondominated_in M false (pop c) x) ->
     exists front, derefs (pop c') ids = Ok (map gfit front) /\ map gid front = ids /\ incl front (pop c') /\
       forall x, In x front -> nondominated_in M false (pop c) x).
  { induction ids as [|i ids IH]; intros N1 Q; cbn [derefs].
    - exists []. repeat split; try contradiction; try (intros ? []).
    - inversion N1 as [|? ? N2 N3]; subst. destruct IH as (fr & E & Em & I & D); [exact N3|intros; apply Q; right; assumption|].
      destruct (Q i (or_introl eq_refl)) as (x & Hx & Ex & Dx).
      destruct (find (fun x => Nat.eqb (gid x) i) (pop c')) as [z|] eqn:Ef.
      + apply find_some in Ef. destruct Ef as (Hz & Ez). apply Nat.eqb_eq in Ez.
        assert (z = x) by (apply (NoDup_map_inj gid (pop c')); auto; [apply Wc|congruence]). subst z.
        rewrite E. cbn [bind]. exists (x :: fr). split; [reflexivity|]. split; [cbn; congruence|]. split.
        * intros y [<-|Hy]; [exact Hx|apply I, Hy].
        * intros y [<-|Hy]; [exact Dx|apply D, Hy].
      + exfalso. pose proof (find_none _ _ Ef x Hx) as C. cbn in C. rewrite Ex, Nat.eqb_refl in C. discriminate. }
  destruct (X (ext c') ND F1) as (front & E & Em & I & D). exists front. split; [exact E|].
  assert (NF : NoDup front) by (eapply NoDup_map_inv; rewrite Em; exact ND).
  assert (InF : forall x, In x (pop c') -> In (gid x) (ext c') -> In x front).
  { intros x Hx Hi. rewrite <- Em in Hi. apply in_map_iff in Hi. destruct Hi as (z & Ez & Hz).
    assert (z = x) by (apply (NoDup_map_inj gid (pop c')); auto; apply Wc). subst. exact Hz. }
  split; [exact NF|]. split; [exact I|]. split; [exact D|]. split; [|split].
  - intros x y Hx Hy Dm. apply D in Hy. destruct Hy as (_ & Hy). apply (Hy x); [|exact Dm]. eapply sublist_in; [exact SL|apply I, Hx].
  - intros Le x. split; [intros Hx; apply Hn, D, Hx|]. intros Hx.
    pose proof (F2 nd Nn Hn Le x Hx) as Hi.
    destruct (F1 _ Hi) as (z & Hz & Ez & _).
    assert (z = x). { apply (NoDup_map_inj gid (pop c)); [apply Hw|exact (sublist_in _ _ z SL Hz)| |exact Ez]. apply Hn in Hx. apply Hx. }
    subst z. apply InF; assumption.
  - intros Lt x. split; [apply I|]. intros Hx. apply InF; [exact Hx|]. exact (F3 nd Nn Hn Lt x Hx).
Qed.
Print Assumptions C22_reported_front_nsga3.

Lemma nsga3_frame (V : Type) (R : rng_ops) (std : std_ops) (lin : lin_ops) (M : nat) (opt : ga_option) fuel ws
      (c c' : core V (list double) (list nat) (G R)) :
  nsga3_select R std lin M opt fuel ws c = Ok c' -> fails c' = fails c /\ incl (pop c') (pop c).
Proof.
  unfold nsga3_select. destruct (divideLayers std M false (pop c)) as [sp [|L0 ls]]; [discriminate|].
  intros E. apply bind_Ok in E. destruct E as (((a, b), n) & _ & E). apply bind_Ok in E. destruct E as ((u, v) & _ & E).
  cbv zeta in E. assert (E' := f_equal (fun r => match r with Ok x => x | _ => c' end) E). cbn beta iota in E'. subst c'. clear E.
  cbn [fails pop]. split; [reflexivity|]. intros x Hx. apply filter_In in Hx. apply Hx.
Qed.
Theorem C62_no_early_stop_nsga3 :
  forall (V : Type) (R : rng_ops) (std : std_ops) (lin : lin_ops) (M : nat) (opt : ga_option) sel_fuel ws
         (fs : user_funs V (list double) (G R)) (junk : list double) (rec_on : bool) (vec_max : Z) fuel
         (s s' : ga V (list double) (list nat) (G R)),
    0 <= maxGenerations opt < two64 - 1 ->
    run R fs opt junk (nsga3_hooks R std lin M opt sel_fuel ws) rec_on vec_max fuel s = Ok s' ->
    generation s' = maxGenerations opt /\ fails (ga_core s') = 0.
Proof.
  intros V R std lin M opt sel_fuel ws fs junk rec_on vec_max fuel s s' HM. unfold run.
  destruct (rec_on && _); [discriminate|]. intros H. apply loop_sound in H; cbn [generation]; try assumption; try lia.
  destruct H as (cs & Hr & Hs & Hne & Hl & Hg & _). cbn [ga_core generation] in *.
  apply (no_fail_stop R fs opt junk (nsga3_hooks R std lin M opt sel_fuel ws) cs) with (t := 1) in Hr; try assumption; try lia; try reflexivity.
  - destruct Hr as (L & F). split; [lia|]. rewrite Hl. rewrite Forall_forall in F. apply F. apply last_in. exact Hne.
  - intros c c' E. exact (proj1 (nsga3_frame V R std lin M opt sel_fuel ws c c' E)).
Qed.
Print Assumptions C62_no_early_stop_nsga3.

Theorem C63_variable_invariant_nsga3 :
  forall (V : Type) (R : rng_ops) (std : std_ops) (lin : lin_ops) (M : nat) (opt : ga_option) sel_fuel ws
         (fs : user_funs V (list double) (G R)) (junk : list double) (v0 : V) rec_on vec_max fuel
         (s s' : ga V (list double) (list nat) (G R)) (P : V -> Prop),
    rng_ok R ->
    (forall g, P (fst (iFun fs g))) ->
    (forall a b g, P a -> P b -> P (fst (fst (cFun fs a b g))) /\ P (snd (fst (cFun fs a b g)))) ->
    (forall a g, P a -> P (fst (mFun fs a g))) ->
    run R fs opt junk (nsga3_hooks R std lin M opt sel_fuel ws) rec_on vec_max fuel
        (mkGA (initializePop R fs opt junk v0 (ga_core s)) (generation s) (record s)) = Ok s' ->
    forall x, In x (pop (ga_core s')) -> P (gvar x).
Proof.
  intros V R std lin M opt sel_fuel ws fs junk v0 rec_on vec_max fuel s s' P HR HI HC HM E.
  refine (run_P R fs opt junk _ P rec_on vec_max fuel HR (conj HC HM) _ _ s' _ E).
  - intros c c' H x Hx. exists x. split; [exact (proj2 (nsga3_frame V R std lin M opt sel_fuel ws c c' H) x Hx)|reflexivity].
  - cbn [ga_core]. exact (initialize_P R fs opt junk P v0 (ga_core s) HI).
Qed.
Print Assumptions C63_variable_invariant_nsga3.

(** * Non-vacuity *)
(** A concrete linear algebra: sums from the left, Laplace expansion, Cramer's rule. *)
Definition fsum (l : list double) : double := fold_left fadd l d0.
Fixpoint det (n : nat) (cols : list (list double)) : double :=
  match n, cols with
  | S n', c :: t =>
      match n' with
      | O => nth 0 c dnan
      | S _ => fsum (map (fun i => let m := fmul (nth i c dnan) (det n' (map (fun col => firstn i col ++ skipn (S i) col) t)) in
                                   if Nat.even i then m else fsub d0 m) (seq 0 n))
      end
  | _, _ => d1
  end.
Definition lin_inst : lin_ops := {|
  dotp := fun a b => fsum (zip_with fmul a b);
  sqnorm := fun a => fsum (map (fun x => fmul x x) a);
  determinant := fun P => det (length P) P;
  inv_ones := fun P => map (fun i => fdiv (det (length P) (map (fun col => firstn i col ++ [d1] ++ skipn (S i) col) P)) (det (length P) P)) (seq 0 (length P))
|}.
Definition poses (M p : nat) : list (list double) :=
  match makePoses1 replay M (Some p) ([] : G replay) with Ok (ws, _) => ws | _ => [] end.
Example C26_example : pointCount 3 4 = Ok 15 /\ length (poses 3 4) = 15%nat.
Proof. vm_compute. auto. Qed.
Example C25_example : map (map (fun d : double => Btrunc (fmul d (d_of_Z 4)))) (poses 2 4) = [[0; 4]; [1; 3]; [2; 2]; [3; 1]; [4; 0]].
Proof. vm_compute. reflexivity. Qed.
Definition front6 : list (gene nat (list double)) :=
  [ind 0 [0;10]; ind 1 [1;8]; ind 2 [3;5]; ind 3 [6;2]; ind 4 [8;1]; ind 5 [10;0]; ind 6 [11;11]].
Definition sample6 : core nat (list double) (list nat) (G replay) := mkCore front6 7 7 [] ([] : G replay).
Example ex_nsga3_3 : seen (nsga3_select replay std_inst lin_inst 2 (opt_n 3) 50 (poses 2 2) sample6) = Some ([0; 2; 5]%nat, [0; 2; 5]%nat, 7).
Proof. vm_compute. reflexivity. Qed.
Example ex_nsga3_4 : seen (nsga3_select replay std_inst lin_inst 2 (opt_n 4) 50 (poses 2 2) sample6) = Some ([0; 1; 2; 5]%nat, [0; 2; 5; 1]%nat, 7).
Proof. vm_compute. reflexivity. Qed.
Example ex_nsga3_7 : seen (nsga3_select replay std_inst lin_inst 2 (opt_n 7) 50 (poses 2 2) sample6) =
  Some ([0; 1; 2; 3; 4; 5; 6]%nat, [0; 1; 2; 3; 4; 5]%nat, 7).
Proof. vm_compute. reflexivity. Qed.
Example ex_sample6_wf : wf sample6 /\ rng_ok replay /\ std_ok std_inst /\ poses 2 2 <> [].
Proof.
  split; [split; [repeat constructor; cbn; intuition lia|cbn; intros x H; intuition subst; cbn; lia]|]. split; [exact replay_ok|]. split; [exact std_inst_ok|].
  assert (E : length (poses 2 2) = 3%nat) by (vm_compute; reflexivity). intros C. rewrite C in E. discriminate E.
Qed.
Definition assoc (M : nat) (ws : list (list double)) start (order : list (gene nat (list double))) : list (option nat) :=
  map (fun x => match nearest lin_inst ws (translated lin_inst M start order x) with Ok a => Some (fst a) | _ => None end) order.
Example C28_example : assoc 2 (poses 2 2) (ind 0 [0;10]) front6 = map Some [0; 0; 1; 2; 2; 2; 1]%nat.
Proof. vm_compute. reflexivity. Qed.
(** The constant objective: four clearly different individuals, one reference point. *)
Definition flat4 : list (gene nat (list double)) := [ind 0 [0;4;7]; ind 1 [1;3;7]; ind 2 [2;2;7]; ind 3 [4;0;7]].
Example C28_flat : assoc 3 (poses 3 3) (ind 0 [0;4;7]) flat4 = map Some [0; 0; 0; 0]%nat.
Proof. vm_compute. reflexivity. Qed.
Lemma fadd_nan_l (a b : double) : is_nan a = true -> is_nan (fadd a b) = true.
Proof. destruct a; try discriminate; reflexivity. Qed.
Lemma fadd_nan_r (a b : double) : is_nan b = true -> is_nan (fadd a b) = true.
Proof. destruct a as [| [] | |], b as [| [] | |]; try discriminate; reflexivity. Qed.
Lemma fsum_nan (l : list double) : forall a : double, is_nan a = true \/ (exists x, In x l /\ is_nan x = true) -> is_nan (fold_left fadd l a) = true.
Proof.
  induction l as [|y l IH]; intros a [H|(x & Hx & Nx)]; cbn [fold_left].
  - exact H.
  - destruct Hx.
  - apply IH. left. apply fadd_nan_l, H.
  - destruct Hx as [->|Hx]; apply IH; [left; apply fadd_nan_r, Nx|right; eauto].
Qed.
Example C28_hypotheses : nan_through lin_inst 3 /\ In (ind 0 [0;4;7]) flat4 /\ fin (d_of_Z 7) /\
  (forall x, In x flat4 -> objective (gfit x) 2 = d_of_Z 7) /\
  fle (fabs (determinant lin_inst (extremePoints 3 (ind 0 [0;4;7]) flat4))) eps10 = true /\
  poses 3 3 <> [] /\ (forall w, In w (poses 3 3) -> length w = 3%nat).
Proof.
  split; [split|].
  - intros w s o Lw Ls Ho Hn. apply fsum_nan. right. exists (fmul (nth o w dnan) (nth o s dnan)). split; [|apply nan_mul, Hn].
    do 4 (destruct w as [|? w]; try discriminate Lw). do 4 (destruct s as [|? s]; try discriminate Ls). do 3 (destruct o as [|o]; [cbn; auto|]). lia.
  - intros v x Hx Nx. apply fsum_nan. right. exists (fmul x x). split; [apply (in_map (fun x => fmul x x)), Hx|apply nan_mul, Nx].
  - split; [left; reflexivity|]. split; [reflexivity|]. split; [intros x H; cbn in H; intuition subst; reflexivity|]. split; [vm_compute; reflexivity|].
    assert (E : map (@length _) (poses 3 3) = repeat 3%nat 10) by (vm_compute; reflexivity). split.
    + intros C. rewrite C in E. discriminate E.
    + intros w Hw. apply (in_map (@length _)) in Hw. rewrite E in Hw. apply repeat_spec in Hw. exact Hw.
Qed.
