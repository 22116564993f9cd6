(** Proofs for ProgMO.v. *)
From Coq Require Import List Arith ZArith Bool Lia Reals Lra Psatz.
From Flocq Require Import Core BinarySingleNaN.
From Verif Require Import Props_Region Props_MOGAObj Props_Blend Props_Box Props_BoxObj WheelProofs2 WheelProofs3 SOGAProofs5 RandProofs GlobalProofs BoxProofs BlendProofs.
From Verif Require Import Base Fl FlFacts Rng StdOps GABase Box Defaults GlobalM Bench MOGASpec NSGA3 MOGAObj MOGAObjSpec MOGAObjProofs RegionSpec RegionSpecM ProgMO.
Import ListNotations.
Open Scope Z_scope.

(** * A program: setters, initializePop(), run() *)
Section Program.
Context (A : Type) (R : rng_ops) (std : std_ops) (lin : lin_ops) (M : nat) (k : kind) (rec_on : bool).
Notation V := (list double).
Context (junk : list double) (v0 : V) (vec_max : Z) (inside : V -> bool).
Notation drive' := (@drive V A R std lin M k rec_on junk v0 vec_max).
Notation in_history := (@lawful_history_in V A R std lin M k rec_on junk v0 vec_max inside).
Lemma in_history_app h1 h2 o : in_history o h1 -> (forall o', drive' o h1 = Ok o' -> in_history o' h2) -> in_history o (h1 ++ h2).
Proof.
  revert o. induction h1 as [|c h1 IH]; intros o L1 L2; [apply L2; reflexivity|]. destruct L1 as (La & Lb). split; [exact La|].
  intros o' E. apply (IH o' (Lb o' E)). intros o2 E2. apply L2. cbn [drive]. rewrite E. exact E2.
Qed.
(** Setters with admissible arguments. *)
Definition plain_setter (c : @call V A R) : Prop :=
  setter R c /\ match c with SetOption _ op => size_ok op | SetPrecisions _ i e => (2 <= i)%nat /\ (2 <= e)%nat | _ => True end.
Lemma setters_in h o : Forall plain_setter h -> in_history o h.
Proof.
  intros H. revert o. induction H as [|c h (P1 & P2) H IH]; intros o; [exact I|]. split; [|intros o' _; apply IH].
  destruct c; cbn in P1 |- *; try contradiction; try exact I; exact P2.
Qed.
Lemma program_result (ct : @slots V A R) (a : A) (g : G R) (pre : list (@call V A R)) o1 i f c m :
  rng_ok R -> std_ok std -> (1 <= M)%nat -> Forall plain_setter pre -> drive' (fresh R ct a g) pre = Ok o1 ->
  mo_slots R o1 = mkSlots R (Some i) (Some f) (Some c) (Some m) ->
  1 <= populationSize (mo_opt R o1) <= 4294967295 -> 0 <= maxGenerations (mo_opt R o1) < two64 - 1 -> (rec_on = true -> maxGenerations (mo_opt R o1) < vec_max) ->
  precision_ok R M k o1 ->
  (is_nsga3 k = false -> forall v, inside v = true -> tame_value M (f (mo_args R o1) v)) ->
  init_inside R inside (i (mo_args R o1)) -> cross_inside R inside (c (mo_args R o1)) -> mutate_inside R inside (m (mo_args R o1)) ->
  exists o, drive' (fresh R ct a g) (pre ++ [InitializePop R; Run R]) = Ok o /\
    Z.of_nat (length (get_population R o)) = populationSize (mo_opt R o1) /\
    get_generation R o = Ok (maxGenerations (mo_opt R o1)) /\
    (rec_on = true -> Z.of_nat (length (get_record R o)) = maxGenerations (mo_opt R o1) + 1) /\
    (forall x, In x (get_population R o) -> inside (gvar x) = true /\ gfit x = f (mo_args R o1) (gvar x)) /\
    exists front, get_paretoFront R o = Ok (map gfit front) /\ map gid front = get_pfGenes R o /\ NoDup front /\ front <> [] /\
      forall x, In x front <-> nondominated_in M (greater_of k) (get_population R o) x.
Proof.
  intros HR Hstd HM Hpre H1 Hs Hp Hg Hrec Hprec Ht Hi Hc Hm.
  assert (Inv1 : inv R (fun _ _ => True) o1).
  { refine (drive_typed R std lin M k rec_on junk v0 vec_max HR Hstd pre _ o1 (fresh_inv R _ ct a g) _ H1).
    refine (Forall_impl _ _ Hpre). intros [] (P1 & P2); cbn in *; auto. }
  assert (L : in_history (fresh R ct a g) (pre ++ [InitializePop R] ++ [Run R])).
  { apply in_history_app; [apply setters_in, Hpre|]. intros o' E. assert (o' = o1) by congruence. subst o'. clear E.
    split.
    - split; [split; [rewrite Hs; discriminate|split; [lia|exact Hprec]]|]. rewrite Hs. cbn [f_i]. intros i' Ei. injection Ei as <-. exact Hi.
    - intros o2 E2. split; [|intros; exact I].
      destruct (init_inv R std lin M k rec_on junk v0 vec_max (fun _ _ => True) _ _ _ Inv1 E2) as (_ & Sz & _).
      destruct (init_eq R std lin M k rec_on junk v0 vec_max _ _ E2) as (ws & g' & i' & _ & _ & Eo).
      assert (F1 : mo_opt R o2 = mo_opt R o1) by (rewrite Eo; reflexivity).
      assert (F2 : mo_slots R o2 = mo_slots R o1) by (rewrite Eo; reflexivity).
      assert (F3 : mo_args R o2 = mo_args R o1) by (rewrite Eo; reflexivity).
      cbn [lawful_in]. rewrite F1, F2, F3, Hs, Sz. split; [|split; [rewrite Z2Nat.id by lia; lia|split; [exact Hg|exact Hrec]]].
      exists f, c, m. repeat (split; [reflexivity|]). auto. }
  cbn [app] in L.
  destruct (C92_nsga_returns V A R std lin M k rec_on junk v0 vec_max inside HR Hstd HM ct a g _ L) as (o & Ho).
  exists o. split; [exact Ho|].
  assert (L2 : in_history (fresh R ct a g) ((pre ++ [InitializePop R]) ++ Run R :: [])) by (rewrite <- app_assoc; exact L).
  assert (Ho2 : drive' (fresh R ct a g) ((pre ++ [InitializePop R]) ++ Run R :: []) = Ok o) by (rewrite <- app_assoc; exact Ho).
  destruct (C92_nsga_after_run V A R std lin M k rec_on junk v0 vec_max inside HR Hstd HM ct a g _ _ o L2 (Forall_nil _) Ho2) as (o2 & Hd & B1 & B2 & B3 & _ & B5 & B6).
  assert (E2 : exists o2', drive' o1 [InitializePop R] = Ok o2' /\ o2' = o2).
  { rewrite drive_app in Hd. rewrite H1 in Hd. cbn [bind] in Hd. eauto. }
  destruct E2 as (o2' & E2 & ->). cbn [drive] in E2. apply bind_Ok in E2. destruct E2 as (o3 & E2 & E3). apply Ok_inj in E3. subst o3.
  destruct (init_eq R std lin M k rec_on junk v0 vec_max _ _ E2) as (ws & g' & i' & _ & _ & Eo).
  assert (F1 : mo_opt R o2 = mo_opt R o1) by (rewrite Eo; reflexivity). rewrite F1 in *.
  split; [exact B1|]. split; [exact B3|]. split; [exact B5|]. split; [|exact B6].
  intros x Hx. split; [exact (C92_nsga_stays_inside V A R std lin M k rec_on junk v0 vec_max inside HR ct a g _ o L Ho x Hx)|].
  destruct (C88_last_value_wins V A R std lin M k rec_on junk v0 vec_max _ _ _ Ho) as (_ & _ & W3 & _ & _ & W6 & _).
  destruct (C88_last_value_wins V A R std lin M k rec_on junk v0 vec_max _ _ _ H1) as (_ & _ & X3 & _ & _ & X6 & _).
  assert (Sl : f_f R (mo_slots R o) = Some f /\ mo_args R o = mo_args R o1).
  { unfold chosen in *. rewrite flat_map_app in W3, W6. cbn [flat_map c_f c_args app] in W3, W6. rewrite app_nil_r in W3, W6.
    rewrite W3, W6, <- X3, <- X6, Hs. split; reflexivity. }
  destruct Sl as (Sf & Sa). rewrite <- Sa.
  assert (T1 : Forall (typed R) (pre ++ [Run R])).
  { apply Forall_app. split; [|repeat constructor]. refine (Forall_impl _ _ Hpre). intros [] (P1 & P2); cbn in *; auto. }
  apply (C89_fitness_is_current V A R std lin M k rec_on junk v0 vec_max HR Hstd ct a g pre [Run R] o T1); [repeat constructor|exact Ho|exact Sf|exact Hx|apply B2, Hx].
Qed.
Lemma program_result' (ct : @slots V A R) (a : A) (g : G R) (pre : list (@call V A R)) i f c m op a1 :
  rng_ok R -> std_ok std -> (1 <= M)%nat -> Forall plain_setter pre ->
  (exists o1, drive' (fresh R ct a g) pre = Ok o1 /\ mo_slots R o1 = mkSlots R (Some i) (Some f) (Some c) (Some m) /\ mo_opt R o1 = op /\ mo_args R o1 = a1 /\ precision_ok R M k o1) ->
  1 <= populationSize op <= 4294967295 -> 0 <= maxGenerations op < two64 - 1 -> (rec_on = true -> maxGenerations op < vec_max) ->
  (is_nsga3 k = false -> forall v, inside v = true -> tame_value M (f a1 v)) ->
  init_inside R inside (i a1) -> cross_inside R inside (c a1) -> mutate_inside R inside (m a1) ->
  exists o, drive' (fresh R ct a g) (pre ++ [InitializePop R; Run R]) = Ok o /\
    Z.of_nat (length (get_population R o)) = populationSize op /\
    get_generation R o = Ok (maxGenerations op) /\
    (rec_on = true -> Z.of_nat (length (get_record R o)) = maxGenerations op + 1) /\
    (forall x, In x (get_population R o) -> inside (gvar x) = true /\ gfit x = f a1 (gvar x)) /\
    exists front, get_paretoFront R o = Ok (map gfit front) /\ map gid front = get_pfGenes R o /\ NoDup front /\ front <> [] /\
      forall x, In x front <-> nondominated_in M (greater_of k) (get_population R o) x.
Proof.
  intros HR Hstd HM Hpre (o1 & H1 & Hs & Ho & Ha & Hp). subst op a1. intros. apply (program_result ct a g pre o1 i f c m); assumption.
Qed.
(** The setters of the three shapes of program. *)
Definition set_up (ct : @slots V A R) (a : A) (g : G R) (pre : list (@call V A R)) i f c m op a1 (p : option nat) : Prop :=
  exists o1, drive' (fresh R ct a g) pre = Ok o1 /\ mo_slots R o1 = mkSlots R (Some i) (Some f) (Some c) (Some m) /\ mo_opt R o1 = op /\ mo_args R o1 = a1 /\
    mo_prec R o1 = p.
Lemma set_up_imfc a g i f c m op :
  set_up (mkSlots R None None None None) a g [SetIFun R (Some i); SetMFun R (Some m); SetFFun R (Some f); SetCFun R (Some c); SetOption R op] i f c m op a None.
Proof. eexists. split; [reflexivity|]. repeat split. Qed.
Lemma set_up_ofa a g i f c m op b :
  set_up (mkSlots R (Some i) None (Some c) (Some m)) a g [SetOption R op; SetArgs R b; SetFFun R (Some f)] i f c m op b None.
Proof. eexists. split; [reflexivity|]. repeat split. Qed.
End Program.
Lemma set_up_precision A R std lin M rec_on junk v0 vec_max a g i f c m op p :
  set_up A R std lin M NSGA3_single rec_on junk v0 vec_max (mkSlots R None None None None) a g
    [SetIFun R (Some i); SetFFun R (Some f); SetCFun R (Some c); SetMFun R (Some m); SetOption R op; SetPrecision R p] i f c m op a (Some p).
Proof. eexists. split; [reflexivity|]. repeat split. Qed.


(** * Boxes as regions *)
Definition inside_box (b : dbox) (v : list double) : bool :=
  (Z.of_nat (length v) =? dimD b) &&
  forallb (fun ix => fle (minD b (fst ix)) (snd ix) && fle (snd ix) (maxD b (fst ix))) (combine (seq 0 (length v)) v).
Lemma inside_iff b v : inside_box b v = true <-> in_box b v.
Proof.
  unfold inside_box, in_box. rewrite andb_true_iff, Z.eqb_eq, forallb_forall.
  assert (N : forall s i x, In (i, x) (combine (seq s (length v)) v) <-> (s <= i)%nat /\ nth_error v (i - s) = Some x).
  { induction v as [|y v IH]; intros s i x; cbn [length seq combine In].
    - split; [intros []|]. intros (_ & E). destruct (i - s)%nat; discriminate E.
    - rewrite IH. split.
      + intros [E|(H & E)]; [injection E as -> ->; split; [lia|]; rewrite Nat.sub_diag; reflexivity|]. split; [lia|]. replace (i - s)%nat with (S (i - S s)) by lia. exact E.
      + intros (H & E). destruct (Nat.eq_dec i s) as [->|Ne]; [left; rewrite Nat.sub_diag in E; cbn in E; congruence|right]. split; [lia|].
        replace (i - s)%nat with (S (i - S s)) in E by lia. exact E. }
  split; intros (L & H); (split; [exact L|]).
  - intros i x E. specialize (H (i, x)). rewrite N, Nat.sub_0_r in H. specialize (H (conj (Nat.le_0_l _) E)). apply andb_true_iff in H. exact H.
  - intros (i, x) E. apply N in E. rewrite Nat.sub_0_r in E. destruct E as (_ & E). apply andb_true_iff. exact (H i x E).
Qed.
Lemma in_square n lo hi d v : in_box (square_dbox n lo hi d) v <-> Z.of_nat (length v) = n /\ forall x, In x v -> fle lo x = true /\ fle x hi = true.
Proof.
  unfold in_box. cbn [square_dbox dimD minD maxD]. split; intros (L & H); (split; [exact L|]).
  - intros x Hx. apply In_nth_error in Hx. destruct Hx as (i & E). exact (H i x E).
  - intros i x E. apply H. eapply nth_error_In; eauto.
Qed.
Section Ops.
Context (R : rng_ops) (HR : rng_ok R).
Lemma draws01_in n g : length (fst (draws01 R n g)) = n /\ forall x, In x (fst (draws01 R n g)) -> fle d0 x = true /\ fle x d1 = true.
Proof.
  revert g. induction n as [|n IH]; intros g; cbn [draws01]; [split; [reflexivity|intros x []]|].
  pose proof (proj1 HR g) as (A & B). destruct (rand01 R g) as [x g1]. cbn [fst] in A, B. specialize (IH g1). destruct (draws01 R n g1) as [t g2].
  cbn [fst length] in *. destruct IH as (I1 & I2). split; [lia|]. intros y [<-|Hy]; [|apply I2, Hy]. split; [exact A|]. apply flt_fle', B.
Qed.
(** Updating a coordinate with something inside. *)
Lemma set_in_box b v i y : in_box b v -> fle (minD b i) y = true -> fle y (maxD b i) = true -> in_box b (set_at v i y).
Proof.
  intros (L & H) A B. split; [rewrite set_at_length; exact L|]. intros j x E. destruct (Nat.eq_dec j i) as [->|Ne].
  - assert (j : (i < length v)%nat) by (rewrite <- (set_at_length v i y); apply nth_error_Some; congruence). rewrite set_at_same in E by exact j. injection E as <-. auto.
  - rewrite set_at_other in E by exact Ne. exact (H j x E).
Qed.
Lemma nudge_in scale lo hi n d v g : fin scale -> (Rabs (B2R scale) <= 1)%R -> fin lo -> fin hi -> fle lo hi = true -> 1 <= n <= 4294967296 ->
  in_box (square_dbox n lo hi d) v ->
  exists v' g', nudge R scale lo hi v n g = Ok (v', g') /\ in_box (square_dbox n lo hi d) v'.
Proof.
  intros Fs Bs Fl Fh L Hn Hv. unfold nudge. pose proof (randIdx_range R n g HR ltac:(lia)) as Hi. destruct (randIdx R n g) as [idx g1]. cbn [fst] in Hi.
  pose proof (unit_sym_draw R g1 HR) as Hr. cbv zeta in Hr. destruct (randD_range R (d_of_Z (-1)) d1 g1) as [r g2]. cbn [fst] in Hr. destruct Hr as (Fr & Br).
  destruct (get_at_in v idx) as (x & Gx & Ex). { destruct Hv as (Lv & _). cbn [square_dbox dimD] in Lv. lia. }
  rewrite Gx. cbn [bind]. eexists _, _. split; [reflexivity|].
  destruct Hv as (Lv & Hv). destruct (Hv _ _ Ex) as (X1 & X2). cbn [square_dbox minD maxD] in X1, X2.
  assert (Fm : fin (fmul scale r)).
  { destruct (bd_mul scale r 0 0) as (F & _); [split; [exact Fs|exact Bs]|split; [exact Fr|cbn [bpow]; apply Rabs_le; lra]|lia|exact F]. }
  pose proof (between_fin _ _ _ Fl Fh X1 X2) as Fx.
  change (dmax (dmin (fadd x (fmul scale r)) hi) lo) with (clampD lo hi (fadd x (fmul scale r))).
  destruct (clampD_proj lo hi (fadd x (fmul scale r)) L (fadd_fin_nonnan _ _ (fin_nonnan _ _ _ Fx) Fm)) as (P1 & P2 & _).
  apply set_in_box; [split; assumption| |]; cbn [square_dbox minD maxD]; assumption.
Qed.
Lemma cross_in r b : keeps_box r b -> forall (g : G R) p q, inside_box b p = true -> inside_box b q = true ->
  exists c1 c2, cFunNd r p q = Ok (c1, c2) /\ inside_box b c1 = true /\ inside_box b c2 = true.
Proof.
  intros K g p q Hp Hq. apply inside_iff in Hp, Hq. destruct (K p q Hp Hq) as (c1 & c2 & E & I1 & I2). exists c1, c2.
  rewrite !inside_iff. auto.
Qed.
End Ops.
