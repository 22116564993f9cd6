(** Wheels with an infinite weight never choose anybody. *)
From Coq Require Import List Arith ZArith Reals Bool Lia Lra Permutation.
From Flocq Require Import Core BinarySingleNaN.
From Verif Require Import BenchD Base Fl FlFacts Rng RandProofs StdOps ListFacts GABase GABaseProofs GAOpsProofs SOGA SOGAProofs SOGAProofs2 SOGAProofs3 SOGAProofs4 SOGAProofs5 SOGAProofs6 SOGAProofs7 SOGAProofs8.
Import ListNotations.
Open Scope Z_scope.

(** A weight: plus infinity, or finite and not negative. *)
Definition okw (w : double) : Prop := w = dinf \/ (fin w /\ (0 <= B2R w)%R).
Lemma okw_add x y : okw x -> okw y -> okw (fadd x y).
Proof.
  intros X Y. assert (A : atl 0 (fadd x y)).
  { apply (atl_add 0 0); [lia|lia|right|right]; assumption. }
  assert (N : is_nan (fadd x y) = false).
  { destruct X as [->|(FX & _)]; destruct Y as [->|(FY & _)]; try reflexivity.
    - unfold fadd. destruct y as [s|s| |s m e H]; try discriminate FY; reflexivity.
    - unfold fadd. destruct x as [s|s| |s m e H]; try discriminate FX; reflexivity.
    - unfold fadd. pose proof (Bplus_correct 53 1024 _ _ mode_NE x y FX FY) as C. destruct (Rlt_bool _ _).
      + destruct C as (_ & C & _). destruct (Bplus mode_NE x y); try discriminate C; reflexivity.
      + destruct C as (C & _). destruct (Bplus mode_NE x y); try discriminate C; reflexivity. }
  destruct A as [A|A]; [congruence|exact A].
Qed.
Lemma inf_add y : okw y -> fadd dinf y = dinf.
Proof. intros [->|(F & _)]; [reflexivity|]. destruct y as [s|s| |s m e H]; try discriminate F; reflexivity. Qed.
Lemma add_inf x : okw x -> fadd x dinf = dinf.
Proof. intros [->|(F & _)]; [reflexivity|]. destruct x as [s|s| |s m e H]; try discriminate F; reflexivity. Qed.

Lemma sum_inf (es : list (nat * double)) : (forall e, In e es -> okw (snd e)) -> (exists e, In e es /\ snd e = dinf) -> sum_of es = dinf.
Proof.
  intros W (e & He & Ei). unfold sum_of.
  assert (K : forall l : list (nat * double), (forall e, In e l -> okw (snd e)) -> fold_left (fun s e => fadd s (snd e)) l dinf = dinf).
  { induction l as [|x l IH]; intros Wl; cbn [fold_left]; [reflexivity|].
    rewrite inf_add by (apply Wl; left; reflexivity). apply IH. intros z Hz. apply Wl. right. exact Hz. }
  assert (G : forall (l : list (nat * double)) s, okw s -> (forall e, In e l -> okw (snd e)) -> In e l -> fold_left (fun s e => fadd s (snd e)) l s = dinf).
  { induction l as [|x l IH]; intros s Os Wl Hl; [contradiction|]. cbn [fold_left].
    destruct Hl as [->|Hl].
    - rewrite Ei, add_inf by exact Os. apply K. intros z Hz. apply Wl. right. exact Hz.
    - apply IH; [apply okw_add; [exact Os|apply Wl; left; reflexivity]|intros z Hz; apply Wl; right; exact Hz|exact Hl]. }
  apply G; [right; split; [reflexivity|cbn; lra]|exact W|exact He].
Qed.

Lemma walk_nan (es : list (nat * double)) : walk es dnan = (None, dnan).
Proof.
  induction es as [|e es IH]; cbn [walk]; [reflexivity|].
  assert (E : fsub dnan (snd e) = dnan) by (destruct (snd e); reflexivity). cbv zeta. rewrite E.
  change (fle dnan d0) with false. cbv iota. rewrite IH. reflexivity.
Qed.
Lemma walk_inf (es : list (nat * double)) : (forall e, In e es -> okw (snd e)) -> (exists e, In e es /\ snd e = dinf) ->
  walk es dinf = (None, dnan).
Proof.
  induction es as [|x es IH]; intros W (e & He & Ei); [contradiction|]. cbn [walk]. cbv zeta.
  destruct (W x (or_introl eq_refl)) as [X|(FX & _)].
  - rewrite X. change (fsub dinf dinf) with dnan. change (fle dnan d0) with false. cbv iota. rewrite walk_nan. reflexivity.
  - assert (E : fsub dinf (snd x) = dinf) by (destruct (snd x) as [s|s| |s m ee H]; try discriminate FX; reflexivity).
    rewrite E. change (fle dinf d0) with false. cbv iota. rewrite IH; [reflexivity|intros z Hz; apply W; right; exact Hz|].
    destruct He as [->|He]; [rewrite Ei in FX; discriminate FX|]. exists e. split; assumption.
Qed.

Section P.
Context {V : Type} (R : rng_ops) (std : std_ops) (greater : bool) (opt : ga_option) (sp : sel_params).
Notation core' := (core V double nat (G R)).
Notation gene' := (gene V double).
Notation K' := (K opt).

Lemma spin_stuck es g : rng_ok R -> (forall e, In e es -> okw (snd e)) -> (exists e, In e es /\ snd e = dinf) ->
  exists g', spin R es dinf g = Ok (es, dinf, g').
Proof.
  intros HR W X. unfold spin, randD_range. destruct (proj1 HR g) as (D0 & D1).
  destruct (rand01 R g) as [d g2]. cbn [fst] in D0, D1. exists g2.
  assert (A : affineD d0 dinf d = dinf \/ affineD d0 dinf d = dnan).
  { destruct d as [sd|sd| |sd md ed Hd].
    - right. destruct sd; reflexivity.
    - destruct sd; vm_compute in D0, D1; discriminate.
    - vm_compute in D0. discriminate.
    - destruct sd; [vm_compute in D0; discriminate|]. left. reflexivity. }
  destruct A as [-> | ->]; [rewrite walk_inf by assumption|rewrite walk_nan]; reflexivity.
Qed.

Lemma spin_loop_stuck n target es : rng_ok R -> (forall e, In e es -> okw (snd e)) -> (exists e, In e es /\ snd e = dinf) ->
  target < Z.of_nat (length es) -> forall g, spin_loop R n target es dinf g = Fuel.
Proof.
  intros HR W X L. induction n as [|n IH]; intros g; cbn [spin_loop]; destruct (Z.leb_spec (Z.of_nat (length es)) target); try lia; [reflexivity|].
  destruct (spin_stuck es g HR W X) as (g' & ->). cbn [bind]. apply IH.
Qed.
Lemma roulette_loop_stuck n target es : rng_ok R -> (forall e, In e es -> okw (snd e)) -> (exists e, In e es /\ snd e = dinf) ->
  target < Z.of_nat (length es) -> forall g, roulette_loop R n target es dinf g = Fuel.
Proof.
  intros HR W X L. induction n as [|n IH]; intros g; cbn [roulette_loop]; destruct (Z.leb_spec (Z.of_nat (length es)) target); try lia; [reflexivity|].
  change (flt d0 dinf) with true. cbv iota.
  destruct (spin_stuck es g HR W X) as (g' & ->). cbn [bind]. apply IH.
Qed.

Lemma boltzmann_stuck fuel (c : core') : rng_ok R -> wf c -> best_valid R c -> 1 <= K' < Z.of_nat (length (pop c)) -> sizes_ok R opt c ->
  (forall x, In x (pop c) -> okw (libm_exp sp (fmul (boltzStrength sp) (gfit x)))) ->
  (exists x, In x (pop c) /\ libm_exp sp (fmul (boltzStrength sp) (gfit x)) = dinf) ->
  sel_boltzmann R greater opt sp fuel c = Fuel.
Proof.
  intros HR Hw Hb HK Hs W (x & Hx & Ex). unfold sel_boltzmann. destruct (bestFitness_ok R c Hw Hb) as (f & ->). cbn [bind]. cbv zeta.
  destruct (sizes_int R opt c Hs) as (E1 & E2). rewrite E1, E2. unfold popSize.
  destruct (Z.leb_spec (Z.of_nat (length (pop c)) - K') 0) as [L|L]; [lia|].
  assert (W' : forall e, In e (boltz_weights sp (pop c)) -> okw (snd e)).
  { intros e He. unfold boltz_weights in He. apply in_map_iff in He. destruct He as (y & <- & Hy). apply W, Hy. }
  assert (X' : exists e, In e (boltz_weights sp (pop c)) /\ snd e = dinf).
  { exists (gid x, libm_exp sp (fmul (boltzStrength sp) (gfit x))). split; [|exact Ex].
    unfold boltz_weights. apply in_map_iff. exists x. split; [reflexivity|exact Hx]. }
  rewrite (sum_inf _ W' X'), spin_loop_stuck; try assumption; [reflexivity|].
  unfold boltz_weights. rewrite map_length. lia.
Qed.

(** Differences of finite values that overflow. *)
Lemma sub_okw (a b : double) : fin a -> fin b -> (B2R b <= B2R a)%R -> okw (fsub a b).
Proof.
  intros Fa Fb H. unfold fsub. pose proof (Bminus_correct 53 1024 _ _ mode_NE a b Fa Fb) as C. destruct (Rlt_bool _ _) eqn:E.
  - right. destruct C as (C1 & C2 & _). split; [exact C2|]. rewrite C1. apply drnd_ge0. lra.
  - left. destruct C as (C1 & C2). destruct (Bminus mode_NE a b) as [s|s| |s m e Hm] eqn:EB; try discriminate C1.
    cbn in C1. assert (Es : s = Bsign a) by congruence. subst s. destruct (Bsign a) eqn:Sa; [exfalso|reflexivity].
    assert (Sb : Bsign b = false) by (destruct (Bsign b); [discriminate C2|reflexivity]).
    assert (Ha : (B2R a <= 0)%R) by (destruct a as [sa|sa| |sa ma ea Ha]; try discriminate Fa; cbn in Sa |- *; [lra|subst sa; apply F2R_le_0; cbn; lia]).
    pose proof (sign_ge b Fb Sb) as Hb.
    assert (Z : (B2R a - B2R b = 0)%R) by lra. rewrite Z in E. 
    change (round radix2 _ _ 0) with (drnd 0) in E. rewrite (rnd_0 53 1024), Rabs_R0 in E.
    rewrite Rlt_bool_true in E; [discriminate E|apply bpow_gt_0].
Qed.
Lemma sub_inf (a b : double) : fin a -> fin b -> (bpow radix2 1024 <= B2R a - B2R b)%R -> fsub a b = dinf.
Proof.
  intros Fa Fb H. pose proof (bpow_gt_0 radix2 1024) as P.
  destruct (sub_okw a b Fa Fb) as [E|(F & _)]; [lra|exact E|exfalso].
  unfold fsub in F. pose proof (Bminus_correct 53 1024 _ _ mode_NE a b Fa Fb) as C.
  rewrite Rlt_bool_false in C.
  - destruct C as (C & _). destruct (Bminus mode_NE a b); try discriminate C; discriminate F.
  - apply Rle_trans with (drnd (B2R a - B2R b)); [|apply Rle_abs].
    apply round_ge_generic; [typeclasses eauto|typeclasses eauto| |exact H].
    apply generic_format_bpow. cbn. lia.
Qed.

Lemma roulette_stuck fuel (c : core') : rng_ok R -> wf c -> best_valid R c -> 1 <= K' < Z.of_nat (length (pop c)) -> sizes_ok R opt c ->
  (forall x, In x (pop c) -> fin (gfit x)) ->
  (exists x y, In x (pop c) /\ In y (pop c) /\ (bpow radix2 1024 <= B2R (gfit x) - B2R (gfit y))%R) ->
  sel_roulette R greater opt fuel c = Fuel.
Proof.
  intros HR Hw Hb HK Hs FF (x & y & Hx & Hy & D). unfold sel_roulette. destruct (bestFitness_ok R c Hw Hb) as (f & ->). cbn [bind]. cbv zeta.
  rewrite (eliminate_int R opt c Hs). unfold popSize.
  destruct (Z.leb_spec (Z.of_nat (length (pop c)) - K') 0) as [L|L]; [lia|].
  set (ws := weights_of greater (pop c)).
  assert (WF : forall w, In w ws -> fin (snd w)).
  { intros w Hin. unfold ws, weights_of in Hin. apply in_map_iff in Hin. destruct Hin as (z & <- & Hz). cbn [snd]. unfold signed.
    destruct greater; [apply FF, Hz|apply fopp_fin, FF, Hz]. }
  assert (WN : ws <> []) by (unfold ws; destruct (pop c); [contradiction|discriminate]).
  destruct (min_of_spec ws WN WF) as (Fm & _ & Lm).
  assert (W : forall e, In e (shift_by (min_of ws) ws) -> okw (snd e)).
  { intros e He. unfold shift_by in He. apply in_map_iff in He. destruct He as (w & <- & Hin). cbn [snd].
    apply sub_okw; [apply WF, Hin|exact Fm|apply Lm, Hin]. }
  assert (HB : exists z t, In z (pop c) /\ In t (pop c) /\ (bpow radix2 1024 <= B2R (signed greater z) - B2R (signed greater t))%R).
  { destruct greater; [exists x, y|exists y, x]; (split; [assumption|]); (split; [assumption|]); unfold signed; rewrite ?fopp_B2R; [exact D|].
    replace (- B2R (gfit y) - - B2R (gfit x))%R with (B2R (gfit x) - B2R (gfit y))%R by ring. exact D. }
  destruct HB as (z & t & Hz & Ht & Dz).
  assert (Wz : In (gid z, signed greater z) ws) by (unfold ws, weights_of; apply in_map_iff; exists z; split; [reflexivity|exact Hz]).
  assert (Wt : In (gid t, signed greater t) ws) by (unfold ws, weights_of; apply in_map_iff; exists t; split; [reflexivity|exact Ht]).
  assert (X : exists e, In e (shift_by (min_of ws) ws) /\ snd e = dinf).
  { exists (gid z, fsub (signed greater z) (min_of ws)). split; [unfold shift_by; apply in_map_iff; exists (gid z, signed greater z); split; [reflexivity|exact Wz]|].
    cbn [snd]. apply sub_inf; [apply (WF _ Wz)|exact Fm|]. apply Rle_trans with (1 := Dz). pose proof (Lm _ Wt) as Q. cbn [snd] in Q.
    apply Rplus_le_compat_l, Ropp_le_contravar. exact Q. }
  rewrite (sum_inf _ W X), roulette_loop_stuck; try assumption; [reflexivity|].
  rewrite len_shift. unfold ws, weights_of. rewrite map_length. lia.
Qed.
End P.
