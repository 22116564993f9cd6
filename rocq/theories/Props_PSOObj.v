(** C83-C85: a PSO object under every history of calls.
    PSOObj.v models the object and the calls; PSOObjSpec.v says which calls a
    user may make and what [evaluated] means. *)
From Coq Require Import List Arith ZArith Reals Bool Lia Lra.
From Flocq Require Import Core BinarySingleNaN.
From Verif Require Props_SOGA.
From Verif Require Import Props_Box Props_PSO Base Fl FlFacts Rng Box PSO PSOSpec PSOProofs PSOProofs2 PSOProofs3 PSOObj PSOObjSpec PSOObjProofs.
Import ListNotations.
Open Scope Z_scope.

(** * C83: the box and the option *)
(** What a call does to coordinate [i] of the lower bound: Some of the new
    value; likewise for the others. *)
Definition w_lo (i : nat) (c : box_call) : option (option double) :=
  match c with
  | SetRange lo _ | SetPVRange lo _ _ | PokeMin lo => Some (Some lo)
  | WriteMin v => Some (nth_error v i)
  | WriteMinAt j x => if (i =? j)%nat then Some (Some x) else None
  | _ => None end.
Definition w_hi (i : nat) (c : box_call) : option (option double) :=
  match c with
  | SetRange _ hi | SetPVRange _ hi _ | PokeMax hi => Some (Some hi)
  | WriteMax v => Some (nth_error v i)
  | WriteMaxAt j x => if (i =? j)%nat then Some (Some x) else None
  | _ => None end.
Definition w_vm (i : nat) (c : box_call) : option (option double) :=
  match c with
  | SetMaxVelocity vm | SetPVRange _ _ vm | PokeVel vm => Some (Some vm)
  | WriteVel v | RSetMaxVelocity v => Some (nth_error v i)
  | WriteVelAt j x => if (i =? j)%nat then Some (Some x) else None
  | _ => None end.
Definition w_dim (c : box_call) := match c with SetDimensions d => Some (Some d) | _ => None end.
Definition w_rc (c : box_call) := match c with SetDimensions2 r c => Some (Some (r, c)) | _ => None end.
Definition collect {C X} (f : C -> option X) (h : list C) : list X :=
  flat_map (fun c => match f c with Some x => [x] | None => [] end) h.
Lemma last_cons {X} (l : list X) x d : last (x :: l) d = last l x.
Proof. revert x d. induction l as [|y l IH]; intros x d; [reflexivity|]. cbn [last]. destruct l; [reflexivity|]. apply IH. Qed.

(** Every bound of every coordinate, and the dimensions, are the last value
    given for them. *)
Theorem C83_last_value_wins : forall (h : list box_call) (m m' : members) (i : nat), apply_boxes m h = Ok m' ->
  m_lo m' i = last (collect (w_lo i) h) (m_lo m i) /\
  m_hi m' i = last (collect (w_hi i) h) (m_hi m i) /\
  m_vm m' i = last (collect (w_vm i) h) (m_vm m i) /\
  m_dim m' = last (collect w_dim h) (m_dim m) /\
  m_rc m' = last (collect w_rc h) (m_rc m).
Proof.
  induction h as [|c h IH]; intros m m' i H; cbn [apply_boxes] in H; [inversion H; subst; repeat split|].
  apply bind_Ok in H. destruct H as (m1 & H1 & H). specialize (IH _ _ i H). clear H.
  destruct c; cbn [apply_box] in H1;
    repeat match type of H1 with context [if ?x then _ else _] => destruct x; try discriminate end;
    inversion H1; subst m1; clear H1; unfold collect; cbn [flat_map w_lo w_hi w_vm w_dim w_rc app];
    cbn [m_lo m_hi m_vm m_dim m_rc with_lo with_hi with_vm] in IH; unfold all, upd in IH; fold (collect (w_lo i) h) (collect (w_hi i) h) (collect (w_vm i) h) (collect w_dim h) (collect w_rc h);
    try destruct (i =? i0)%nat; cbn [app]; rewrite ?last_cons; exact IH.
Qed.
Print Assumptions C83_last_value_wins.

(** The accessors return them; before the first write they read an
    uninitialised number.  posMax(i) of a square box is C32_square_posMax_refuted. *)
Theorem C83_accessors : forall (k : kind) (h : list box_call) (m : members), apply_boxes fresh_members h = Ok m ->
  (forall x, posMin_sq m = Ok x <-> last (collect (w_lo 0) h) None = Some x) /\
  (forall x, posMax_sq m = Ok x <-> last (collect (w_hi 0) h) None = Some x) /\
  (forall i x, posMin_at m i = Ok x <-> last (collect (w_lo i) h) None = Some x) /\
  (forall n i x, k = RectFixed n -> posMax_at k m i = Ok x <-> last (collect (w_hi i) h) None = Some x) /\
  (forall i x, maxVelocity_of m i = Ok x <-> last (collect (w_vm i) h) None = Some x) /\
  (collect (w_lo 0) h = [] -> posMin_sq m = UB) /\ (collect (w_hi 0) h = [] -> posMax_sq m = UB) /\
  (forall i, collect (w_vm i) h = [] -> maxVelocity_of m i = UB).
Proof.
  intros k h m H.
  assert (G : forall (o : option double) x, get o = Ok x <-> o = Some x) by (intros [y|] x; cbn; split; congruence).
  assert (E : forall i, m_lo m i = last (collect (w_lo i) h) None /\ m_hi m i = last (collect (w_hi i) h) None /\ m_vm m i = last (collect (w_vm i) h) None).
  { intros i. destruct (C83_last_value_wins h _ _ i H) as (E1 & E2 & E3 & _). auto. }
  unfold posMin_sq, posMax_sq, posMin_at, posMax_at, maxVelocity_of.
  split; [intros x; rewrite G, (proj1 (E 0%nat)); reflexivity|].
  split; [intros x; rewrite G, (proj1 (proj2 (E 0%nat))); reflexivity|].
  split; [intros i x; rewrite G, (proj1 (E i)); reflexivity|].
  split; [intros n i x ->; rewrite G, (proj1 (proj2 (E i))); reflexivity|].
  split; [intros i x; rewrite G, (proj2 (proj2 (E i))); reflexivity|].
  split; [intros C; rewrite (proj1 (E 0%nat)), C; reflexivity|].
  split; [intros C; rewrite (proj1 (proj2 (E 0%nat))), C; reflexivity|].
  intros i C. rewrite (proj2 (proj2 (E i))), C. reflexivity.
Qed.
Print Assumptions C83_accessors.

(** dimensions(): the template argument, the last setDimensions, or the product
    of the last setDimensions(r, c), which overflows beyond 2^31-1. *)
Theorem C83_dimensions : forall (h : list box_call) (m : members), apply_boxes fresh_members h = Ok m ->
  (forall n, dims (SqFixed n) m = Ok n /\ dims (RectFixed n) m = Ok n) /\
  (forall n, dims SqVec m = Ok n <-> last (collect w_dim h) None = Some n) /\
  (forall n, dims SqMat m = Ok n <-> exists r c, last (collect w_rc h) None = Some (r, c) /\ n = r * c /\ r * c <= 2147483647) /\
  (collect w_dim h = [] -> dims SqVec m = UB) /\ (collect w_rc h = [] -> dims SqMat m = UB) /\
  (forall r c, last (collect w_rc h) None = Some (r, c) -> 2147483647 < r * c -> dims SqMat m = UB) /\
  (forall n, dims SqVec m = Ok n \/ dims SqMat m = Ok n -> 0 < n).
Proof.
  intros h m H. destruct (C83_last_value_wins h _ _ 0%nat H) as (_ & _ & _ & E1 & E2). cbn [fresh_members m_dim m_rc] in E1, E2.
  assert (P : (forall d, m_dim m = Some d -> 0 < d) /\ (forall r c, m_rc m = Some (r, c) -> 0 < r /\ 0 < c)).
  { clear E1 E2. assert (P0 : (forall d, m_dim fresh_members = Some d -> 0 < d) /\ (forall r c, m_rc fresh_members = Some (r, c) -> 0 < r /\ 0 < c)) by (split; discriminate).
    revert H P0. generalize fresh_members as m0. induction h as [|b h IH]; intros m0 H P0; cbn [apply_boxes] in H; [inversion H; subst; exact P0|].
    apply bind_Ok in H. destruct H as (m1 & H1 & H). apply (IH m1 H). destruct P0 as (P1 & P2).
    destruct b; cbn [apply_box] in H1;
      repeat match type of H1 with context [if ?x then _ else _] => destruct x eqn:?; try discriminate end;
      inversion H1; subst m1; cbn [m_dim m_rc with_lo with_hi with_vm]; split; try assumption.
    - intros d0 E. inversion E; subst. lia.
    - intros r0 c0 E. inversion E; subst. lia. }
  cbn [dims]. rewrite <- E1, <- E2. split; [auto|].
  split. { intros n. destruct (m_dim m); split; congruence. }
  split. { intros n. destruct (m_rc m) as [[r c]|].
           - destruct (Z.leb_spec (r * c) 2147483647); split.
             + intros E. inversion E. exists r, c. auto.
             + intros (r' & c' & E & -> & _). inversion E; subst. reflexivity.
             + discriminate.
             + intros (r' & c' & E & -> & L). inversion E; subst. lia.
           - split; [discriminate|]. intros (r' & c' & E & _). discriminate. }
  split. { intros C. rewrite E1, C. reflexivity. }
  split. { intros C. rewrite E2, C. reflexivity. }
  split. { intros r c -> L. destruct (Z.leb_spec (r * c) 2147483647); [lia|reflexivity]. }
  destruct P as (P1 & P2). intros n [C|C].
  - destruct (m_dim m); [|discriminate]. inversion C; subst. auto.
  - destruct (m_rc m) as [[r c]|]; [|discriminate]. destruct (_ <=? _); [|discriminate]. inversion C; subst. destruct (P2 r c eq_refl). lia.
Qed.
Print Assumptions C83_dimensions.

(** Exactly the meaningless arguments are rejected (by assertion), NaN included;
    nothing else goes wrong. *)
Theorem C83_rejected_exactly : forall (m : members),
  (forall lo hi, apply_box m (SetRange lo hi) = Abort <-> flt lo hi = false) /\
  (forall vm, apply_box m (SetMaxVelocity vm) = Abort <-> flt d0 vm = false) /\
  (forall lo hi vm, apply_box m (SetPVRange lo hi vm) = Abort <-> flt lo hi = false \/ flt d0 vm = false) /\
  (forall v, apply_box m (RSetMaxVelocity v) = Abort <-> exists x, In x v /\ flt d0 x = false) /\
  (forall d, apply_box m (SetDimensions d) = Abort <-> d <= 0) /\
  (forall r c, apply_box m (SetDimensions2 r c) = Abort <-> r <= 0 \/ c <= 0) /\
  (forall c, apply_box m c <> UB /\ apply_box m c <> Fuel).
Proof.
  intros m. split; [|split; [|split; [|split; [|split; [|split]]]]].
  - intros lo hi. cbn [apply_box]. destruct (flt lo hi); split; congruence.
  - intros vm. cbn [apply_box]. destruct (flt d0 vm); split; congruence.
  - intros lo hi vm. cbn [apply_box]. destruct (flt lo hi), (flt d0 vm); split; auto; try discriminate; intros [C|C]; discriminate.
  - intros v. cbn [apply_box]. destruct (forallb _ v) eqn:E; split; try discriminate; try reflexivity.
    + intros (x & Hx & C). rewrite forallb_forall in E. specialize (E x Hx). cbn beta in E. congruence.
    + intros _. induction v as [|y v IH]; [discriminate E|]. cbn [forallb] in E. destruct (flt d0 y) eqn:Ey.
      * destruct (IH E) as (x & Hx & Ex). exists x. split; [right; exact Hx|exact Ex].
      * exists y. split; [left; reflexivity|exact Ey].
  - intros d. cbn [apply_box]. destruct (Z.ltb_spec 0 d); split; try lia; try discriminate; reflexivity.
  - intros r c. cbn [apply_box]. destruct (Z.ltb_spec 0 r); [destruct (Z.ltb_spec 0 c)|]; split; try lia; try discriminate; reflexivity.
  - intros c. destruct c; cbn [apply_box]; repeat match goal with |- context [if ?x then _ else _] => destruct x end; split; discriminate.
Qed.
Print Assumptions C83_rejected_exactly.

(** The option starts with the documented values. *)
Theorem C83_default_option :
  p_populationSize default_pso_option = 200 /\ p_maxGeneration default_pso_option = 300 /\ p_maxFailTimes default_pso_option = 100 /\
  B2R (inertiaFactor default_pso_option) = drnd (8 / 10) /\ B2R (learnFactorP default_pso_option) = 2%R /\ B2R (learnFactorG default_pso_option) = 2%R.
Proof.
  split; [reflexivity|]. split; [reflexivity|]. split; [reflexivity|].
  destruct (d_of_Z_exact 8) as (Fa & Ea); [lia|]. destruct (d_of_Z_exact 10) as (Fb & Eb); [lia|]. destruct (d_of_Z_exact 2) as (_ & E2); [lia|].
  split; [|split; exact E2].
  change (inertiaFactor default_pso_option) with (fdiv (d_of_Z 8) (d_of_Z 10)). unfold fdiv.
  pose proof (Bdiv_correct 53 1024 _ _ mode_NE (d_of_Z 8) (d_of_Z 10)) as C.
  rewrite Ea, Eb in C. specialize (C ltac:(apply not_0_IZR; lia)).
  rewrite Rlt_bool_true in C; [destruct C as (C & _); exact C|].
  apply Rle_lt_trans with (bpow radix2 0); [|apply bpow_lt; lia].
  apply abs_round_le_generic; [typeclasses eauto|typeclasses eauto| |].
  - apply generic_format_bpow. unfold SpecFloat.fexp, SpecFloat.emin. lia.
  - change (bpow radix2 0) with 1%R. rewrite Rabs_pos_eq; lra.
Qed.
Print Assumptions C83_default_option.

Example ex_C83 : exists m, apply_boxes fresh_members
    [SetPVRange d0 d1 d1; SetDimensions 3; PokeMax (d_of_Z 5); SetDimensions 2; SetMaxVelocity (d_of_Z 4)] = Ok m /\
  posMin_sq m = Ok d0 /\ posMax_sq m = Ok (d_of_Z 5) /\ maxVelocity_of m 7 = Ok (d_of_Z 4) /\ dims SqVec m = Ok 2.
Proof. eexists. split; [cbn; reflexivity|]. repeat split. Qed.

(** The references returned by the non-const accessors bypass the checks: the
    bounds may end up inverted. *)
Theorem C83_reference_unchecked_refuted : forall (k : kind), (forall n, k = RectFixed n -> 1 <= n) ->
  exists h m lo hi, forallb (has_box_call k) h = true /\ apply_boxes fresh_members h = Ok m /\
    posMin_at m 0 = Ok lo /\ m_hi m 0%nat = Some hi /\ flt hi lo = true.
Proof.
  assert (F : flt d0 d1 = true) by (vm_compute; reflexivity).
  intros [n| | |n] Hn; [exists [PokeMin d1; PokeMax d0]|exists [PokeMin d1; PokeMax d0]|exists [PokeMin d1; PokeMax d0]|exists [WriteMinAt 0 d1; WriteMaxAt 0 d0]];
    eexists; exists d1, d0.
  - split; [reflexivity|]. split; [reflexivity|]. split; [reflexivity|]. split; [reflexivity|exact F].
  - split; [reflexivity|]. split; [reflexivity|]. split; [reflexivity|]. split; [reflexivity|exact F].
  - split; [reflexivity|]. split; [reflexivity|]. split; [reflexivity|]. split; [reflexivity|exact F].
  - specialize (Hn n eq_refl). split; [cbn; destruct (Z.ltb_spec 0 n); [reflexivity|lia]|].
    split; [reflexivity|]. split; [reflexivity|]. split; [reflexivity|exact F].
Qed.
Print Assumptions C83_reference_unchecked_refuted.

Lemma dims_total k m : dims k m <> Abort /\ dims k m <> Fuel.
Proof.
  destruct k; cbn [dims]; [split; discriminate|destruct (m_dim m); split; discriminate| |split; discriminate].
  destruct (m_rc m) as [[r c]|]; [destruct (_ <=? _)|]; split; discriminate.
Qed.

(** * C84: functions, arguments, options *)
Section C84.
Context (A : Type) (R : rng_ops) (k : kind) (greater rec_on : bool) (vec_max : Z) (junk : point).
Notation drive' := (@drive A R k greater rec_on vec_max).
Notation step' := (@step A R k greater rec_on vec_max).
Notation start := (@fresh A R junk).
Definition c_opt (c : @call A R) := match c with SetOption _ p => Some p | _ => None end.
Definition c_i (c : @call A R) := match c with SetIFun _ p => Some (IPointer R p) | _ => None end.
Definition c_f (c : @call A R) := match c with SetFFun _ f => Some f | _ => None end.
Definition c_args (c : @call A R) := match c with SetArgs _ a => Some a | _ => None end.
Definition c_box (c : @call A R) := match c with BoxCall _ b => Some b | _ => None end.

(** The option, the functions, the arguments and the box are the last ones
    given, whatever else was called in between, runs included. *)
Theorem C84_last_value_wins : forall h (o o' : @obj A R), drive' o h = Ok o' ->
  o_opt R o' = last (collect c_opt h) (o_opt R o) /\
  o_i R o' = last (collect c_i h) (o_i R o) /\
  o_f R o' = last (collect c_f h) (o_f R o) /\
  o_args R o' = last (collect c_args h) (o_args R o) /\
  apply_boxes (o_mem R o) (collect c_box h) = Ok (o_mem R o').
Proof.
  induction h as [|c h IH]; intros o o' H; cbn [drive] in H; [inversion H; subst; repeat split|].
  apply bind_Ok in H. destruct H as (o1 & H1 & H). specialize (IH _ _ H). clear H.
  assert (Fr : (exists s b, o1 = mkObj R (o_opt R o) (o_mem R o) (o_i R o) (o_f R o) (o_args R o) s b) ->
    c = InitializePop R \/ c = Run R \/ (exists g, c = OtherDraws R g) ->
    o_opt R o' = last (collect c_opt (c :: h)) (o_opt R o) /\
    o_i R o' = last (collect c_i (c :: h)) (o_i R o) /\
    o_f R o' = last (collect c_f (c :: h)) (o_f R o) /\
    o_args R o' = last (collect c_args (c :: h)) (o_args R o) /\
    apply_boxes (o_mem R o) (collect c_box (c :: h)) = Ok (o_mem R o')).
  { intros (s & b & ->) E. cbn [o_opt o_i o_f o_args o_mem] in IH. destruct E as [-> |[-> |(g & ->)]]; exact IH. }
  destruct c as [b|p|p|f|a|g| |]; cbn [step] in H1.
  - apply bind_Ok in H1. destruct H1 as (m1 & Hm & H1). inversion H1; subst o1; clear H1. cbn [o_opt o_i o_f o_args o_mem] in IH.
    unfold collect. cbn [flat_map c_opt c_i c_f c_args c_box app apply_boxes]. rewrite Hm. cbn [bind]. exact IH.
  - inversion H1; subst o1. unfold collect. cbn [flat_map c_opt c_i c_f c_args c_box app]. rewrite last_cons. exact IH.
  - inversion H1; subst o1. unfold collect. cbn [flat_map c_opt c_i c_f c_args c_box app]. rewrite last_cons. exact IH.
  - inversion H1; subst o1. unfold collect. cbn [flat_map c_opt c_i c_f c_args c_box app]. rewrite last_cons. exact IH.
  - inversion H1; subst o1. unfold collect. cbn [flat_map c_opt c_i c_f c_args c_box app]. rewrite last_cons. exact IH.
  - inversion H1. apply Fr; [eauto|right; right; eauto].
  - apply Fr; [|left; reflexivity]. unfold do_init in H1. cbv zeta in H1. destruct (_ =? 0); [discriminate|].
    assert (Z : forall i, match o_f R o with
        | Some f => do s <- pso_initializePop R (o_opt R o) i (f (o_args R o)) (o_pso R o);
                    Ok (mkObj R (o_opt R o) (o_mem R o) (o_i R o) (o_f R o) (o_args R o) s true)
        | None => UB end = Ok o1 -> exists s b, o1 = mkObj R (o_opt R o) (o_mem R o) (o_i R o) (o_f R o) (o_args R o) s b).
    { intros i. destruct (o_f R o); [|discriminate]. intros E. apply bind_Ok in E. destruct E as (s & _ & E). inversion E. eauto. }
    destruct (o_i R o) as [|i|[| |i]] eqn:Ei; try discriminate; try (apply (Z _ H1)).
    apply bind_Ok in H1. destruct H1 as (n & _ & H1). destruct (_ && _); [|discriminate]. apply (Z _ H1).
  - apply Fr; [|right; left; reflexivity]. unfold do_run in H1. cbv zeta in H1. destruct (o_f R o); [|discriminate].
    destruct (_ || _); [|discriminate]. apply bind_Ok in H1. destruct H1 as (s & _ & H1). inversion H1. eauto.
Qed.

(** An object whose functions are template arguments behaves exactly like one
    given the same functions at run time. *)
Definition seen (o : @obj A R) := (o_opt R o, o_mem R o, o_f R o, o_args R o, o_pso R o, o_inited R o).
Theorem C84_compile_time_equals_run_time : forall i f (a : A) (g : G R) h,
  forallb (has_member R k (IFixed R i) true) h = true ->
  match drive' (start (IPointer R (INull R)) None a g) (SetIFun R (IUser R i) :: SetFFun R (Some f) :: h),
        drive' (start (IFixed R i) (Some f) a g) h with
  | Ok o1, Ok o2 => seen o1 = seen o2
  | UB, UB | Abort, Abort | Fuel, Fuel => True
  | _, _ => False
  end.
Proof.
  intros i f a g h Hm. cbn [drive bind step o_opt o_mem o_i o_f o_args o_pso o_inited fresh].
  unfold fresh.
  assert (K : forall h opt m a0 s b, forallb (has_member R k (IFixed R i) true) h = true ->
    match drive' (mkObj R opt m (IPointer R (IUser R i)) (Some f) a0 s b) h, drive' (mkObj R opt m (IFixed R i) (Some f) a0 s b) h with
    | Ok o1, Ok o2 => seen o1 = seen o2
    | UB, UB | Abort, Abort | Fuel, Fuel => True
    | _, _ => False
    end); [|apply K; exact Hm].
  clear Hm. induction h0 as [|c h0 IH]; intros opt m a0 s b Hm; [reflexivity|].
  cbn [forallb] in Hm. apply andb_true_iff in Hm. destruct Hm as (Hc & Hm). cbn [drive].
  destruct c as [bc|p|p|ff|a1|g1| |]; cbn [step bind o_opt o_mem o_i o_f o_args o_pso o_inited].
  - destruct (apply_box m bc); cbn [bind]; try exact Logic.I. apply IH. exact Hm.
  - apply IH. exact Hm.
  - discriminate Hc.
  - discriminate Hc.
  - apply IH. exact Hm.
  - apply IH. exact Hm.
  - unfold do_init. cbn [o_opt o_mem o_i o_f o_args o_pso o_inited]. destruct (_ =? 0); [exact Logic.I|].
    destruct (pso_initializePop R opt (i a0) (f a0) s); cbn [bind]; try exact Logic.I. apply IH. exact Hm.
  - unfold do_run. cbn [o_opt o_mem o_i o_f o_args o_pso o_inited]. destruct (_ || _); [|exact Logic.I].
    destruct (pso_run _ _ _ _ _ _ _ _ s); cbn [bind]; try exact Logic.I. apply IH. exact Hm.
Qed.

(** Calls made too early, or with an empty population, are undefined. *)
Theorem C84_too_early_is_undefined : forall i f (a : A) (g : G R) h o,
  drive' (start i f a g) h = Ok o ->
  (o_f R o = None -> p_populationSize (o_opt R o) <> 0 -> o_i R o <> IPointer R (IReserved R) -> step' o (InitializePop R) = UB) /\
  (o_f R o = None -> step' o (Run R) = UB) /\
  (o_i R o = IPointer R (INull R) -> step' o (InitializePop R) = UB) /\
  (p_populationSize (o_opt R o) = 0 -> step' o (InitializePop R) = UB) /\
  (o_i R o = IDefault R -> (dims k (o_mem R o) = UB \/
      exists n j, dims k (o_mem R o) = Ok n /\ Z.of_nat j < n /\ (m_lo (o_mem R o) j = None \/ m_hi (o_mem R o) j = None)) ->
   step' o (InitializePop R) = UB) /\
  (~ In (InitializePop R) h ->
     (rec_on = false \/ p_maxGeneration (o_opt R o) + 1 <= vec_max /\ 0 <= p_maxGeneration (o_opt R o) < two64 - 1 -> step' o (Run R) = UB) /\
     get_generation R o = UB /\ get_failTimes R o = UB /\ get_bestFitness R o = UB /\ get_globalBest R o = UB /\
     get_population R o = [] /\ get_record R o = []).
Proof.
  intros i f a g h o H.
  assert (W : forall fn n j, (j < n)%nat -> fn j = None -> written fn n = false).
  { intros fn n j Hj E. destruct (written fn n) eqn:C; [|reflexivity]. apply written_iff in C. specialize (C j Hj). contradiction. }
  split; [|split; [|split; [|split; [|split]]]].
  - intros E P I. cbn [step]. unfold do_init. rewrite E. destruct (Z.eqb_spec (p_populationSize (o_opt R o)) 0); [reflexivity|].
    destruct (o_i R o) as [|i0|[| |i0]]; try reflexivity; [|congruence].
    destruct (dims k (o_mem R o)) as [nn| | |] eqn:D; cbn [bind]; [destruct (_ && _); reflexivity| | |].
    + reflexivity.
    + exfalso. apply (proj1 (dims_total k (o_mem R o)) D).
    + exfalso. apply (proj2 (dims_total k (o_mem R o)) D).
  - intros E. cbn [step]. unfold do_run. rewrite E. reflexivity.
  - intros E. cbn [step]. unfold do_init. rewrite E. destruct (_ =? 0); reflexivity.
  - intros E. cbn [step]. unfold do_init. rewrite E. reflexivity.
  - intros E C. cbn [step]. unfold do_init. rewrite E. destruct (_ =? 0); [reflexivity|].
    destruct C as [->|(n & j & D & Hj & C)]; [reflexivity|]. rewrite D. cbn [bind].
    assert (Hj' : (j < Z.to_nat n)%nat) by lia.
    destruct C as [C|C]; rewrite (W _ _ j Hj' C); [reflexivity|]. rewrite andb_false_r. reflexivity.
  - intros Hn.
    assert (P : particles (p_swarm (o_pso R o)) = [] /\ o_inited R o = false /\ p_record (o_pso R o) = []).
    { assert (K : forall h o0, ~ In (InitializePop R) h ->
        particles (p_swarm (o_pso R o0)) = [] -> o_inited R o0 = false -> p_record (o_pso R o0) = [] -> drive' o0 h = Ok o ->
        particles (p_swarm (o_pso R o)) = [] /\ o_inited R o = false /\ p_record (o_pso R o) = []).
      { clear. induction h as [|c h IH]; intros o0 Hn P I Rc H; cbn [drive] in H; [inversion H; subst; auto|].
        apply bind_Ok in H. destruct H as (o1 & H1 & H).
        assert (Hn' : ~ In (InitializePop R) h) by (intros C; apply Hn; right; exact C).
        destruct c as [bc|p|p|ff|a1|g1| |]; cbn [step] in H1.
        - apply bind_Ok in H1. destruct H1 as (m1 & _ & H1). inversion H1; subst o1. refine (IH _ Hn' _ _ _ H); assumption.
        - inversion H1; subst o1. refine (IH _ Hn' _ _ _ H); assumption.
        - inversion H1; subst o1. refine (IH _ Hn' _ _ _ H); assumption.
        - inversion H1; subst o1. refine (IH _ Hn' _ _ _ H); assumption.
        - inversion H1; subst o1. refine (IH _ Hn' _ _ _ H); assumption.
        - inversion H1; subst o1. refine (IH _ Hn' _ _ _ H); assumption.
        - exfalso. apply Hn. left. reflexivity.
        - unfold do_run in H1. cbv zeta in H1. destruct (o_f R o0); [|discriminate]. destruct (_ || _); [|discriminate].
          apply bind_Ok in H1. destruct H1 as (s & H1 & _). apply run_nonempty in H1. contradiction. }
      eapply K; [exact Hn| | | |exact H]; reflexivity. }
    destruct P as (P & I & Rc).
    split; [|unfold get_generation, get_failTimes, get_bestFitness, get_globalBest, get_population, get_record; rewrite I; repeat split; assumption].
    intros V. cbn [step]. unfold do_run. cbv zeta. destruct (o_f R o) as [ff|]; [|reflexivity].
    rewrite P. change (width []) with 0%nat. change (written (m_lo (o_mem R o)) 0) with true. change (written (m_hi (o_mem R o)) 0) with true.
    change (written (m_vm (o_mem R o)) 0) with true. cbn [andb]. rewrite orb_true_r. unfold pso_run.
    assert (E : rec_on && (vec_max <? wrap64 (p_maxGeneration (o_opt R o) + 1)) = false).
    { destruct V as [-> |(V1 & V2)]; [reflexivity|]. rewrite wrap64_small by (unfold two64 in *; lia).
      destruct (Z.ltb_spec vec_max (p_maxGeneration (o_opt R o) + 1)); [lia|apply andb_false_r]. }
    rewrite E. cbn [pso_loop p_swarm]. unfold updatePGBest. cbn [computeAll particles]. rewrite P. reflexivity.
Qed.

(** The symbol that selects the built-in initialisation as a template argument
    cannot be passed to setiFun(): its body is an assertion that fails. *)
Theorem C84_reserved_symbol_refuted : forall (o : @obj A R),
  p_populationSize (o_opt R o) <> 0 -> drive' o [SetIFun R (IReserved R); InitializePop R] = Abort.
Proof.
  intros o Hp. cbn [drive step bind]. unfold do_init. cbn [o_opt o_i]. destruct (Z.eqb_spec (p_populationSize (o_opt R o)) 0); [contradiction|reflexivity].
Qed.
End C84.
Print Assumptions C84_last_value_wins.
Print Assumptions C84_compile_time_equals_run_time.
Print Assumptions C84_too_early_is_undefined.
Print Assumptions C84_reserved_symbol_refuted.

(** * C85: whole histories *)
Section C85.
Context (A : Type) (R : rng_ops) (k : kind) (greater rec_on : bool) (vec_max : Z) (junk : point).
Notation drive' := (@drive A R k greater rec_on vec_max).
Notation start := (@fresh A R junk).
Notation ok_history := (@lawful_history A R k greater rec_on vec_max).
Lemma start_inv i f a g : oinv R (start i f a g).
Proof. intros C. discriminate C. Qed.

(** Whatever a user does within the rules -- changing box, option, functions
    between runs, running again without initialising again -- every call
    returns, for every random stream: nothing undefined, no assertion failure,
    no endless loop. *)
Theorem C85_lawful_history_returns : forall i f (a : A) (g : G R) h,
  ok_history (start i f a g) h -> exists o, drive' (start i f a g) h = Ok o.
Proof.
  intros i f a g h L. destruct (history_returns R k greater rec_on vec_max h _ (start_inv i f a g) L) as (o & H & _). eauto.
Qed.

(** After a run: the counters, the record and the size. *)
Theorem C85_after_run : forall i f (a : A) (g : G R) h o,
  ok_history (start i f a g) (h ++ [Run R]) -> drive' (start i f a g) (h ++ [Run R]) = Ok o ->
  exists n t b,
    get_generation R o = Ok n /\ 0 <= n <= p_maxGeneration (o_opt R o) /\ get_failTimes R o = Ok t /\
    get_bestFitness R o = Ok b /\
    (rec_on = true -> Z.of_nat (length (get_record R o)) = n + 1 /\ nth_error (get_record R o) (Z.to_nat n) = Some b /\
       forall j x y, nth_error (get_record R o) j = Some x -> nth_error (get_record R o) (S j) = Some y -> better greater x y = false).
Proof.
  intros i f a g h o L H. destruct (history_app R k greater rec_on vec_max h [Run R] _ L) as (_ & L2).
  rewrite drive_app in H. apply bind_Ok in H. destruct H as (o0 & H0 & H). specialize (L2 o0 H0). destruct L2 as ((_ & _ & Lg & Lv & _) & _).
  cbn [drive] in H. apply bind_Ok in H. destruct H as (o1 & H1 & H). inversion H; subst o1. clear H.
  destruct (step_swarm _ _ _ _ _ _ _ _ H1) as (ff & n & _ & _ & Hr & Hi & _ & _ & Eo & _).
  exists (p_generation (o_pso R o)), (p_fails (p_swarm (o_pso R o))), (fitness (gBest (p_swarm (o_pso R o)))).
  unfold get_generation, get_failTimes, get_bestFitness, get_globalBest, get_record. rewrite Hi, Eo. cbn [bind].
  split; [reflexivity|]. split; [eapply C31_generation_bound; [exact Lg|exact Hr]|]. split; [reflexivity|]. split; [reflexivity|].
  intros ->. eapply C31_record; [exact Lg|exact Hr].
Qed.

Lemma init_swarm_length iF fF n : forall g, length (fst (init_swarm R iF fF n g)) = n.
Proof.
  induction n as [|n IH]; intros g; cbn [init_swarm]; [reflexivity|]. destruct (iF g) as [[p v] g1]. specialize (IH g1).
  destruct (init_swarm R iF fF n g1) as [t g2]. cbn [fst length] in *. lia.
Qed.
(** The swarm has the populationSize of the option in force when initializePop()
    was last called; a setOption() after that does not change it. *)
Theorem C85_population_size : forall i f (a : A) (g : G R) h1 h2 o,
  drive' (start i f a g) (h1 ++ InitializePop R :: h2) = Ok o -> ~ In (InitializePop R) h2 ->
  0 <= p_populationSize (last (collect (c_opt A R) h1) default_pso_option) ->
  Z.of_nat (length (get_population R o)) = p_populationSize (last (collect (c_opt A R) h1) default_pso_option).
Proof.
  intros i f a g h1 h2 o H Hn Hp. rewrite drive_app in H. apply bind_Ok in H. destruct H as (o0 & H0 & H).
  cbn [drive] in H. apply bind_Ok in H. destruct H as (o1 & H1 & H).
  destruct (C84_last_value_wins A R k greater rec_on vec_max h1 _ _ H0) as (Eo & _). cbn [fresh o_opt] in Eo. rewrite <- Eo in *.
  destruct (step_swarm _ _ _ _ _ _ _ _ H1) as (opt & j & ff & _ & -> & Hs & _).
  assert (E1 : Z.of_nat (length (get_population R o1)) = p_populationSize (o_opt R o0)).
  { unfold get_population. destruct (initializeSwarm_inv _ _ _ _ _ _ Hs) as (E & _). unfold swarm_of in E. rewrite E.
    rewrite init_swarm_length. lia. }
  rewrite <- E1. clear -H Hn. revert o1 H. induction h2 as [|c h2 IH]; intros o1 H; cbn [drive] in H; [inversion H; reflexivity|].
  apply bind_Ok in H. destruct H as (o2 & H2 & H).
  rewrite (IH ltac:(intros C; apply Hn; right; exact C) _ H). clear IH H.
  pose proof (step_swarm _ _ _ _ _ _ _ _ H2) as K. unfold get_population.
  destruct c; try (destruct K as (K & _); unfold swarm_of in K; rewrite K; reflexivity).
  - exfalso. apply Hn. left. reflexivity.
  - destruct K as (ff & n & _ & _ & Hr & _). f_equal. clear -Hr. unfold pso_run in Hr. destruct (rec_on && _); [discriminate|].
    assert (Q : forall fuel s s', pso_loop R greater (o_opt R o1) (box_of (o_mem R o1) (Z.of_nat n)) (ff (o_args R o1)) rec_on fuel s = Ok s' ->
      length (particles (p_swarm s')) = length (particles (p_swarm s))).
    { clear. induction fuel as [|m IH]; intros s s' H; [discriminate|]. cbn [pso_loop] in H. apply bind_Ok in H. destruct H as (c & Ec & H). cbv zeta in H.
      destruct (round_particles _ _ _ _ _ Ec) as (E & _).
      destruct (_ || _); [inversion H; subst; cbn [p_swarm]; rewrite E; apply map_length|].
      apply bind_Ok in H. destruct H as (d & Ed & H). apply IH in H. rewrite H. cbn [p_swarm].
      destruct (updatePopulation_inv _ _ _ _ _ Ed) as (_ & _ & F). rewrite <- (Forall2_len _ _ _ F), E. apply map_length. }
    apply Q in Hr. exact Hr.
Qed.

(** As long as neither the fitness function nor the arguments are changed after
    initializePop() -- options, box and other users of the generator may change
    at will -- globalBest() and every pBest carry the value of the current
    function at their position, and after a run no position at which the swarm
    has been evaluated since initializePop() is better than bestFitness(). *)
Theorem C85_best_of_everything_evaluated : forall i f (a : A) (g : G R) h1 h2 o,
  drive' (start i f a g) (h1 ++ InitializePop R :: h2) = Ok o ->
  Forall (fun c => match c with SetFFun _ _ | SetArgs _ _ | InitializePop _ => False | _ => True end) h2 ->
  exists ff rows, o_f R o = Some ff /\ evaluated R greater (ff (o_args R o)) rows (p_swarm (o_pso R o)) /\
    ((forall q, nonnan (ff (o_args R o) q)) ->
     exists b, get_globalBest R o = Ok b /\ get_bestFitness R o = Ok (fitness b) /\ fitness b = ff (o_args R o) (position b) /\
       (exists row, In row rows /\ In (position b) row) /\
       (forall x, In x (get_population R o) -> fitness (pBest x) = ff (o_args R o) (position (pBest x))) /\
       (In (Run R) h2 -> (2 <= length rows)%nat /\
          (forall row q, In row rows -> In q row -> better greater (ff (o_args R o) q) (fitness b) = false) /\
          (forall x, In x (get_population R o) -> better greater (fitness (pBest x)) (fitness b) = false))).
Proof.
  intros i f a g h1 h2 o H F. rewrite drive_app in H. apply bind_Ok in H. destruct H as (o0 & H0 & H).
  cbn [drive] in H. apply bind_Ok in H. destruct H as (o1 & H1 & H).
  destruct (step_swarm _ _ _ _ _ _ _ _ H1) as (opt & j & ff & Ef & -> & Hs & _ & Hi & Ef1 & Ea1 & _).
  assert (K : forall h2 oa, Forall (fun c => match c with SetFFun _ _ | SetArgs _ _ | InitializePop _ => False | _ => True end) h2 ->
    drive' oa h2 = Ok o -> o_f R oa = Some ff -> o_args R oa = o_args R o0 -> o_inited R oa = true ->
    forall rows, evaluated R greater (ff (o_args R o0)) rows (p_swarm (o_pso R oa)) ->
    o_f R o = Some ff /\ o_args R o = o_args R o0 /\ o_inited R o = true /\
    exists rows', evaluated R greater (ff (o_args R o0)) rows' (p_swarm (o_pso R o)) /\ (length rows <= length rows')%nat /\
      (In (Run R) h2 -> (length rows < length rows')%nat)).
  { clear. induction h2 as [|c h2 IH]; intros oa F H Ef Ea Hi rows Ev; cbn [drive] in H.
    - inversion H; subst oa. repeat (split; [assumption|]). exists rows. split; [exact Ev|]. split; [lia|intros []].
    - apply bind_Ok in H. destruct H as (ob & Hb & H). pose proof (step_swarm _ _ _ _ _ _ _ _ Hb) as K.
      pose proof (Forall_inv F) as Fc. apply Forall_inv_tail in F.
      assert (Same : c <> Run R -> o_f R ob = Some ff -> o_args R ob = o_args R o0 -> o_inited R ob = o_inited R oa ->
        (exists g, p_swarm (o_pso R ob) = mkSwarm (particles (swarm_of R oa)) (gBest (swarm_of R oa)) (p_fails (swarm_of R oa)) g) ->
        o_f R o = Some ff /\ o_args R o = o_args R o0 /\ o_inited R o = true /\
        exists rows', evaluated R greater (ff (o_args R o0)) rows' (p_swarm (o_pso R o)) /\ (length rows <= length rows')%nat /\
          (In (Run R) (c :: h2) -> (length rows < length rows')%nat)).
      { intros Nc Ef' Ea' Hi' (g & Eg). destruct (IH ob F H Ef' Ea' ltac:(congruence) rows) as (X1 & X2 & X3 & r & X4 & X5 & X6).
        { rewrite Eg. apply ev_other. exact Ev. }
        repeat (split; [assumption|]). exists r. split; [exact X4|]. split; [exact X5|]. intros [C|C]; [congruence|auto]. }
      destruct c as [bc|p|p|f1|a1|g1| |]; cbn [step] in Hb; try contradiction.
      + destruct K as (_ & _ & Ki & Kg). apply bind_Ok in Hb. destruct Hb as (m & _ & Hb). apply Same; [discriminate| | |exact Ki|exact Kg]; inversion Hb; subst ob; assumption.
      + destruct K as (_ & _ & Ki & Kg). apply Same; [discriminate| | |exact Ki|exact Kg]; inversion Hb; subst ob; assumption.
      + destruct K as (_ & _ & Ki & Kg). apply Same; [discriminate| | |exact Ki|exact Kg]; inversion Hb; subst ob; assumption.
      + destruct K as (_ & _ & Ki & Kg). apply Same; [discriminate| | |exact Ki|exact Kg]; inversion Hb; subst ob; assumption.
      + clear Same. destruct K as (f1 & n & Ef1 & _ & Hr & Ki & K1 & K2 & _). rewrite Ef in Ef1. inversion Ef1; subst f1. rewrite Ea in Hr.
        destruct (ev_run R greater (ff (o_args R o0)) _ _ _ _ _ rows _ _ Ev Hr) as (r' & Ev' & L).
        destruct (IH ob F H ltac:(congruence) ltac:(congruence) Ki _ Ev') as (X1 & X2 & X3 & r & X4 & X5 & X6).
        repeat (split; [assumption|]). rewrite app_length in X5. exists r. split; [exact X4|]. split; [lia|]. intros _. lia. }
  destruct (K h2 o1 F H ltac:(congruence) Ea1 Hi [positions R (swarm_of R o1)]) as (X1 & X2 & X3 & r & X4 & X5 & X6).
  { eapply ev_init. exact Hs. }
  exists ff, r. rewrite X2. split; [exact X1|]. split; [exact X4|]. intros Nn.
  pose proof (evaluated_inv R greater _ _ _ X4 (fun row q _ _ => Nn q)) as (I1 & I2 & (i0 & row0 & Hr0 & E0) & _ & I5).
  exists (gBest (p_swarm (o_pso R o))). unfold get_globalBest, get_bestFitness, get_globalBest, get_population. rewrite X3. cbn [bind].
  split; [reflexivity|]. split; [reflexivity|]. split; [exact I2|]. split; [exists row0; split; [exact Hr0|eapply nth_error_In; exact E0]|].
  split. { intros x Hx. destruct (In_nth_error _ _ Hx) as (n & En). apply (I1 n x En). }
  intros Hrun. specialize (X6 Hrun). cbn [length] in X6. split; [lia|].
  assert (Z : forall row q, In row r -> In q row -> better greater (ff (o_args R o0) q) (fitness (gBest (p_swarm (o_pso R o)))) = false).
  { intros row q Hr Hq. destruct (In_nth_error _ _ Hq) as (n & En). apply better_false; [apply Nn|rewrite I2; apply Nn|].
    apply (I5 ltac:(lia) n). exists row. auto. }
  split; [exact Z|]. intros x Hx. destruct (In_nth_error _ _ Hx) as (n & En). destruct (I1 n x En) as (V & (row & Hr & Eq) & _). rewrite V.
  apply (Z row); [exact Hr|eapply nth_error_In; exact Eq].
Qed.

(** After a run that moves the swarm, every particle is inside the box as it is
    now, wherever it was before, and its velocity within the bound (or NaN). *)
Theorem C85_particles_in_current_box : forall i f (a : A) (g : G R) h o,
  ok_history (start i f a g) (h ++ [Run R]) -> drive' (start i f a g) (h ++ [Run R]) = Ok o ->
  1 <= p_maxGeneration (o_opt R o) ->
  forall x, In x (get_population R o) ->
  (forall j lo hi vm, (j < length (position (here x)))%nat -> m_lo (o_mem R o) j = Some lo -> m_hi (o_mem R o) j = Some hi -> m_vm (o_mem R o) j = Some vm ->
     fle lo hi = true /\ flt d0 vm = true) ->
  forall j, (j < length (position (here x)))%nat ->
  exists lo hi vm p v, m_lo (o_mem R o) j = Some lo /\ m_hi (o_mem R o) j = Some hi /\ m_vm (o_mem R o) j = Some vm /\
    nth_error (position (here x)) j = Some p /\ nth_error (velocity x) j = Some v /\
    fle lo p = true /\ fle p hi = true /\ (is_nan v = true \/ fle (fopp vm) v = true /\ fle v vm = true).
Proof.
  intros i f a g h o L H Hg x Hx Hb. destruct (history_app R k greater rec_on vec_max h [Run R] _ L) as (L1 & L2).
  destruct (history_returns R k greater rec_on vec_max h _ (start_inv i f a g) L1) as (o0' & H0' & I0).
  rewrite drive_app in H. apply bind_Ok in H. destruct H as (o0 & H0 & H). rewrite H0' in H0. inversion H0; subst o0'. clear H0.
  specialize (L2 o0 H0'). destruct L2 as ((Li & _ & Lg & Lv & Lb) & _).
  cbn [drive] in H. apply bind_Ok in H. destruct H as (o1 & H1 & H). inversion H; subst o1. clear H.
  destruct (step_swarm _ _ _ _ _ _ _ _ H1) as (ff & n & _ & En & Hr & Hi & _ & _ & Eo & Em).
  destruct (I0 Li) as (n' & U). pose proof (run_uniform R _ _ _ _ _ _ _ _ _ _ U Hr) as U'.
  assert (Nn : n' = n). { destruct (width_in (particles (swarm_of R o0)) (proj2 (proj2 U))) as (y & Hy & Ey).
    pose proof (proj1 U) as F. rewrite Forall_forall in F. destruct (F y Hy) as (_ & F2 & _). congruence. }
  subst n'. rewrite Eo in Hg. rewrite Em in *.
  pose proof (proj1 U') as F'. rewrite Forall_forall in F'. destruct (F' x Hx) as (P1 & P2 & _). rewrite P1 in *.
  assert (Kn : forall j, (j < n)%nat -> exists lo hi vm, m_lo (o_mem R o0) j = Some lo /\ m_hi (o_mem R o0) j = Some hi /\ m_vm (o_mem R o0) j = Some vm).
  { intros j Hj. destruct (particles (swarm_of R o0)) as [|y ps] eqn:Ep; [destruct U as (_ & _ & U3); congruence|].
    assert (Hy : In y (get_population R o0)) by (unfold get_population, swarm_of in *; rewrite Ep; left; reflexivity).
    pose proof (proj1 U) as F. rewrite Ep in F. destruct (Forall_inv F) as (_ & F2 & _).
    destruct (Lb Hg y Hy) as (B1 & B2 & B3). rewrite F2 in *. specialize (B1 j Hj). specialize (B2 j Hj). specialize (B3 j Hj).
    destruct (m_lo (o_mem R o0) j); [|contradiction]. destruct (m_hi (o_mem R o0) j); [|contradiction]. destruct (m_vm (o_mem R o0) j); [|contradiction]. do 3 eexists. repeat split. }
  unfold pso_run in Hr. destruct (rec_on && _); [discriminate|].
  apply loop_inbox in Hr.
  - rewrite Forall_forall in Hr. specialize (Hr x Hx). destruct Hr as ((_ & Q1) & (_ & Q2)).
    intros j Hj. destruct (Kn j Hj) as (lo & hi & vm & E1 & E2 & E3).
    destruct (nth_error (position (here x)) j) as [p|] eqn:Np; [|apply nth_error_None in Np; lia].
    destruct (nth_error (velocity x) j) as [v|] eqn:Nv; [|apply nth_error_None in Nv; lia].
    specialize (Q1 j p Np). specialize (Q2 j v Nv). cbn [box_of v_lo v_hi v_max] in Q1, Q2. rewrite E1, E2 in Q1. rewrite E3 in Q2. cbn [value] in Q1, Q2.
    exists lo, hi, vm, p, v. repeat (split; [assumption || reflexivity || apply Q1|]). exact Q2.
  - cbn [box_of v_dim v_lo v_hi v_max]. intros j Hj. destruct (Kn j ltac:(lia)) as (lo & hi & vm & E1 & E2 & E3). rewrite E1, E2, E3. cbn [value].
    apply (Hb j lo hi vm ltac:(lia) E1 E2 E3).
  - cbn [p_swarm box_of v_dim]. intros m (Um & Um2 & _). f_equal. cbn [gBest] in Um2. destruct U as (_ & U2 & _). unfold swarm_of in U2. congruence.
  - exists n. exact U.
  - right. split; [reflexivity|]. split; [lia|reflexivity].
Qed.

(** When a run reads the box: never if maxGeneration is 0, always otherwise. *)
Theorem C85_box_read_iff_moves : forall (opt : pso_option) (fF : list double -> double) fuel (s : pso (G R)),
  (p_maxGeneration opt = 0 -> forall b1 b2, pso_run R greater opt b1 fF rec_on vec_max fuel s = pso_run R greater opt b2 fF rec_on vec_max fuel s) /\
  (1 <= p_maxGeneration opt < two64 - 1 -> forall b s', pso_run R greater opt b fF rec_on vec_max fuel s = Ok s' ->
     exists c m, particles c <> [] /\ updatePopulation R opt b c = Ok m).
Proof.
  intros opt fF fuel s. split.
  - intros E b1 b2. unfold pso_run. destruct (rec_on && _); [reflexivity|]. destruct fuel as [|m]; [reflexivity|]. cbn [pso_loop p_generation p_swarm].
    rewrite E. change (0 <? wrap64 (0 + 1)) with true. cbn [orb]. reflexivity.
  - intros HM b s' H. unfold pso_run in H. destruct (rec_on && _); [discriminate|]. destruct fuel as [|m]; [discriminate|]. cbn [pso_loop p_generation p_swarm] in H.
    apply bind_Ok in H. destruct H as (c & Ec & H). cbv zeta in H.
    assert (F : p_fails c = 0 \/ p_fails c = 1).
    { unfold updatePGBest in Ec. destruct (particles _); [discriminate|]. cbv zeta in Ec.
      destruct (better _ _ _) in Ec; inversion Ec; cbn [p_fails]; [auto|]. right. reflexivity. }
    change (wrap64 (0 + 1)) with 1 in H. destruct (Z.ltb_spec (p_maxGeneration opt) 1); [lia|]. cbn [orb] in H.
    destruct (Z.ltb_spec 0 (p_maxFailTimes opt)); cbn [andb] in H; [destruct (Z.ltb_spec (p_maxFailTimes opt) (p_fails c)); [lia|]|];
      (apply bind_Ok in H; destruct H as (d & Ed & _); exists c, d; split; [|exact Ed]; destruct (round_particles _ _ _ _ _ Ec) as (E & N); rewrite E;
       destruct (particles _); [congruence|discriminate]).
Qed.
End C85.
Print Assumptions C85_lawful_history_returns.
Print Assumptions C85_after_run.
Print Assumptions C85_population_size.
Print Assumptions C85_best_of_everything_evaluated.
Print Assumptions C85_particles_in_current_box.
Print Assumptions C85_box_read_iff_moves.

(** ** Concrete histories *)
(** A minimiser of [scale * x0] over a dynamic square box: two runs, the second
    with another box and option and without a new initializePop(). *)
Definition scale_fit (a : Z) (p : list double) : double := fmul (d_of_Z a) (hd d0 p).
Definition opt_a : pso_option := mkPOpt 3 4 0 (fofZ 1 (-1)) (d_of_Z 2) (d_of_Z 2).
Definition opt_b : pso_option := mkPOpt 9 2 1 (fofZ 1 (-1)) d1 d1.
Definition nowhere : point := mkPoint [] d0.
Definition part1 : list (@call Z replay) :=
  [ BoxCall replay (SetPVRange d0 d1 (fofZ 1 (-3))); BoxCall replay (SetDimensions 2); SetOption replay opt_a; SetArgs replay 1;
    SetFFun replay (Some scale_fit); InitializePop replay; Run replay ].
Definition part2 : list (@call Z replay) :=
  [ BoxCall replay (SetRange (d_of_Z 2) (d_of_Z 3)); SetOption replay opt_b; Run replay ].
Notation lawful_demo h o := (@lawful_history Z replay SqVec false true 1000 o h).
Notation drive_demo o h := (@drive Z replay SqVec false true 1000 o h).
Notation begin g := (@fresh Z replay nowhere (IDefault replay) None 0 g).

Definition known (o : @obj Z replay) opt f a b : Prop :=
  o_opt replay o = opt /\ o_i replay o = IDefault replay /\ o_f replay o = f /\ o_args replay o = a /\ o_inited replay o = b.
Definition boxed (o : @obj Z replay) : Prop :=
  (forall j, m_lo (o_mem replay o) j <> None) /\ (forall j, m_hi (o_mem replay o) j <> None) /\ (forall j, m_vm (o_mem replay o) j <> None) /\
  exists n, dims SqVec (o_mem replay o) = Ok n.
Lemma demo_run o opt f a h : known o opt (Some f) a true -> boxed o -> 0 <= p_maxGeneration opt <= 900 ->
  (forall o', known o' opt (Some f) a true -> boxed o' -> lawful_demo h o') -> lawful_demo (Run replay :: h) o.
Proof.
  intros (K1 & K2 & K3 & K4 & K5) (B1 & B2 & B3 & B4) Hg L. cbn [lawful_history]. split.
  - cbn [lawful]. rewrite K1, K3. split; [exact K5|]. split; [discriminate|]. split; [unfold two64; lia|]. split; [lia|].
    intros _ x _. cbv zeta. repeat split; intros j _; auto.
  - intros o' S'. destruct (step_swarm _ _ _ _ _ _ _ _ S') as (ff & n & E1 & _ & _ & E3 & E4 & E5 & E6 & E7).
    destruct (C84_last_value_wins Z replay SqVec false true 1000 [Run replay] o o') as (_ & Ei & _); [cbn [drive]; rewrite S'; reflexivity|].
    apply L; [unfold known; cbn [collect flat_map c_i app last] in Ei; intuition congruence|]. unfold boxed. rewrite E7. auto.
Qed.
Lemma demo_init o opt f a b h : known o opt (Some f) a b -> boxed o -> 1 <= p_populationSize opt ->
  (forall o', known o' opt (Some f) a true -> boxed o' -> lawful_demo h o') -> lawful_demo (InitializePop replay :: h) o.
Proof.
  intros (K1 & K2 & K3 & K4 & K5) (B1 & B2 & B3 & (n & B4)) Hg L. cbn [lawful_history]. split.
  - cbn [lawful]. rewrite K1, K2, K3. split; [lia|]. split; [discriminate|]. exists n. split; [exact B4|]. split; intros j _; auto.
  - intros o' S'. destruct (step_swarm _ _ _ _ _ _ _ _ S') as (oo & i & ff & E1 & _ & _ & _ & E3 & E4 & E5 & E6 & E7 & _).
    destruct (C84_last_value_wins Z replay SqVec false true 1000 [InitializePop replay] o o') as (_ & Ei & _); [cbn [drive]; rewrite S'; reflexivity|].
    apply L; [unfold known; cbn [collect flat_map c_i app last] in Ei; intuition congruence|]. unfold boxed. rewrite E7. eauto.
Qed.
Lemma demo_range o opt f a b h lo hi : known o opt f a b -> boxed o -> flt lo hi = true ->
  (forall o', known o' opt f a b -> boxed o' -> lawful_demo h o') -> lawful_demo (BoxCall replay (SetRange lo hi) :: h) o.
Proof.
  intros K (B1 & B2 & B3 & B4) Hl L. cbn [lawful_history lawful]. cbn [apply_box]. rewrite Hl. split; [discriminate|].
  intros o' S'. cbn [step] in S'. cbn [apply_box] in S'. rewrite Hl in S'. cbn [bind] in S'. inversion S'; subst o'. apply L; [exact K|].
  unfold boxed. cbn [o_mem with_lo with_hi m_lo m_hi m_vm]. split; [discriminate|]. split; [discriminate|]. split; [exact B3|exact B4].
Qed.
Lemma demo_option o opt opt' f a b h : known o opt f a b -> boxed o ->
  (forall o', known o' opt' f a b -> boxed o' -> lawful_demo h o') -> lawful_demo (SetOption replay opt' :: h) o.
Proof.
  intros (K1 & K2 & K3 & K4 & K5) B L. cbn [lawful_history lawful]. split; [exact Logic.I|]. intros o' S'. cbn [step] in S'. inversion S'; subst o'.
  apply L; [repeat split; assumption|exact B].
Qed.
Lemma demo_args o opt f a a' b h : known o opt f a b -> boxed o ->
  (forall o', known o' opt f a' b -> boxed o' -> lawful_demo h o') -> lawful_demo (SetArgs replay a' :: h) o.
Proof.
  intros (K1 & K2 & K3 & K4 & K5) B L. cbn [lawful_history lawful]. split; [exact Logic.I|]. intros o' S'. cbn [step] in S'. inversion S'; subst o'.
  apply L; [repeat split; assumption|exact B].
Qed.
Lemma demo_start g h : (forall o, known o opt_a (Some scale_fit) 1 true -> boxed o -> lawful_demo h o) -> lawful_demo (part1 ++ h) (begin g).
Proof.
  intros L. unfold part1. cbn [app].
  assert (F1 : flt d0 d1 = true) by (vm_compute; reflexivity). assert (F2 : flt d0 (fofZ 1 (-3)) = true) by (vm_compute; reflexivity).
  cbn [lawful_history lawful]. cbn [fresh o_mem apply_box]. rewrite F1, F2. split; [discriminate|]. intros o1 S1. cbn [step fresh o_mem apply_box] in S1.
  rewrite F1, F2 in S1. cbn [bind] in S1. inversion S1; subst o1; clear S1.
  split; [cbn; discriminate|]. intros o2 S2. cbn [step o_mem apply_box bind] in S2. change (0 <? 2) with true in S2. cbn [bind] in S2. inversion S2; subst o2; clear S2.
  split; [exact Logic.I|]. intros o3 S3. cbn [step] in S3. inversion S3; subst o3; clear S3.
  split; [exact Logic.I|]. intros o4 S4. cbn [step] in S4. inversion S4; subst o4; clear S4.
  split; [exact Logic.I|]. intros o5 S5. cbn [step] in S5. inversion S5; subst o5; clear S5.
  match goal with |- _ /\ _ => idtac end.
  apply (demo_init _ opt_a scale_fit 1 false (Run replay :: h)).
  - repeat split.
  - unfold boxed. cbn [o_mem with_lo with_hi with_vm m_lo m_hi m_vm m_dim dims]. split; [discriminate|]. split; [discriminate|]. split; [discriminate|]. eexists. reflexivity.
  - cbn. lia.
  - intros o6 K6 B6. apply (demo_run _ opt_a scale_fit 1 h K6 B6); [cbn; lia|exact L].
Qed.
(** It obeys the rules for every stream; with this one it ends with three
    particles (not the nine of the last option) and a record of two values. *)
Example ex_C85_lawful : forall g, lawful_demo (part1 ++ part2) (begin g).
Proof.
  intros g. apply demo_start. intros o K B. unfold part2.
  apply (demo_range _ opt_a (Some scale_fit) 1 true _ _ _ K B); [vm_compute; reflexivity|]. intros o1 K1 B1.
  apply (demo_option _ opt_a opt_b (Some scale_fit) 1 true _ K1 B1). intros o2 K2 B2.
  apply (demo_run _ opt_b scale_fit 1 _ K2 B2); [cbn; lia|]. intros; exact Logic.I.
Qed.
Definition demo_draws : list Z := [64; 128; 7; 9; 200; 31; 77; 12; 90; 3; 250; 17; 33; 45].
Example ex_C85_runs : exists o, drive_demo (begin demo_draws) (part1 ++ part2) = Ok o /\
  match get_generation replay o with
  | Ok n => (n =? 1) && (length (get_population replay o) =? 3)%nat && (length (get_record replay o) =? 2)%nat | _ => false end = true.
Proof. apply Props_SOGA.by_test. vm_compute. reflexivity. Qed.

(** globalBest() may lie outside the box in force: a box changed after a run
    does not touch the best found before. *)
Theorem C85_best_outside_current_box_refuted : exists h (o : @obj Z replay) b p lo,
  lawful_demo h (begin demo_draws) /\ drive_demo (begin demo_draws) h = Ok o /\ (exists h', h = h' ++ [Run replay]) /\
  get_globalBest replay o = Ok b /\ nth_error (position b) 0 = Some p /\ posMin_sq (o_mem replay o) = Ok lo /\ flt p lo = true.
Proof.
  assert (T : exists o, drive_demo (begin demo_draws) (part1 ++ part2) = Ok o /\
    match get_globalBest replay o, posMin_sq (o_mem replay o) with
    | Ok b, Ok lo => match nth_error (position b) 0 with Some p => flt p lo | None => false end | _, _ => false end = true)
    by (apply Props_SOGA.by_test; vm_compute; reflexivity).
  destruct T as (o & T & T2). destruct (get_globalBest replay o) as [b| | |] eqn:Eb; try discriminate T2.
  destruct (posMin_sq (o_mem replay o)) as [lo| | |] eqn:El; try discriminate T2. destruct (nth_error (position b) 0) as [p|] eqn:Ep; [|discriminate T2].
  exists (part1 ++ part2), o, b, p, lo. split; [apply ex_C85_lawful|]. split; [exact T|].
  split; [exists (part1 ++ [BoxCall replay (SetRange (d_of_Z 2) (d_of_Z 3)); SetOption replay opt_b]); unfold part2; rewrite <- app_assoc; reflexivity|].
  split; [exact Eb|]. split; [exact Ep|]. split; [exact El|exact T2].
Qed.
Print Assumptions C85_best_outside_current_box_refuted.

(** Changing the arguments (or the fitness function) and running again without
    initializePop() keeps the old best values: bestFitness() need not be the
    current function's value at globalBest(). *)
Theorem C85_stale_best_refuted : exists h (o : @obj Z replay) b f,
  lawful_demo h (begin demo_draws) /\ drive_demo (begin demo_draws) h = Ok o /\ (exists h', h = h' ++ [Run replay]) /\
  get_globalBest replay o = Ok b /\ o_f replay o = Some f /\ feq (fitness b) (f (o_args replay o) (position b)) = false.
Proof.
  assert (T : exists o, drive_demo (begin demo_draws) (part1 ++ [SetArgs replay 5; Run replay]) = Ok o /\
    match get_globalBest replay o with
    | Ok b => negb (feq (fitness b) (scale_fit 5 (position b))) | _ => false end = true)
    by (apply Props_SOGA.by_test; vm_compute; reflexivity).
  destruct T as (o & T & T2). destruct (get_globalBest replay o) as [b| | |] eqn:Eb; try discriminate T2.
  pose proof (C84_last_value_wins _ _ _ _ _ _ _ _ _ T) as (_ & _ & Ef & Ea & _). cbn [collect part1 app flat_map c_f c_args last] in Ef, Ea.
  exists (part1 ++ [SetArgs replay 5; Run replay]), o, b, scale_fit.
  split. { apply demo_start. intros o1 K1 B1. apply (demo_args _ opt_a (Some scale_fit) 1 5 true _ K1 B1). intros o2 K2 B2.
           apply (demo_run _ opt_a scale_fit 5 _ K2 B2); [cbn; lia|]. intros; exact Logic.I. }
  split; [exact T|]. split; [exists (part1 ++ [SetArgs replay 5]); rewrite <- app_assoc; reflexivity|].
  split; [exact Eb|]. split; [exact Ef|]. rewrite Ea. destruct (feq _ _); [discriminate T2|reflexivity].
Qed.
Print Assumptions C85_stale_best_refuted.
