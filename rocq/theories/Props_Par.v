(** C94: the parallel loops.  A team is a list of threads, each given by the
    iterations it gets, in order; every iteration is given to exactly one thread
    (OpenMP's guarantee for a work-shared loop).  A schedule says whose access
    comes next. *)
From Coq Require Import List Arith ZArith Bool Lia Permutation.
From Verif Require Import Base Fl Rng GABase MOGA PSO AOS Props_Threads Threads Par ParProofs.
Import ListNotations.
Open Scope nat_scope.

Lemma ga_eqb_ok a b : ga_loc_eqb a b = true <-> a = b.
Proof. destruct a, b; cbn; try (split; discriminate); rewrite Nat.eqb_eq; split; congruence. Qed.
Lemma ns_eqb_ok a b : ns_loc_eqb a b = true <-> a = b.
Proof. destruct a, b; cbn; try (split; discriminate); rewrite Nat.eqb_eq; split; congruence. Qed.
Lemma ps_eqb_ok a b : ps_loc_eqb a b = true <-> a = b.
Proof. destruct a, b; cbn; try (split; discriminate); try (split; reflexivity); rewrite Nat.eqb_eq; split; congruence. Qed.
Lemma perm_facts teams n : Permutation (concat teams) (seq 0 n) -> NoDup (concat teams) /\ Forall (fun i => i < n) (concat teams) /\
  (forall i, i < n -> In i (concat teams)) /\ length (concat teams) = n.
Proof.
  intros P. split; [apply (Permutation_NoDup (Permutation_sym P)), seq_NoDup|]. split; [|split].
  - apply Forall_forall. intros i Hi. apply (Permutation_in _ P), in_seq in Hi. lia.
  - intros i Hi. apply (Permutation_in _ (Permutation_sym P)), in_seq. lia.
  - rewrite (Permutation_length P). apply seq_length.
Qed.
Lemma nth_mapped {A B} (f : nat * A -> B) (l : list A) i : nth_error (map f (combine (seq 0 (length l)) l)) i = match nth_error l i with Some x => Some (f (i, x)) | None => None end.
Proof.
  enough (G : forall k, nth_error (map f (combine (seq k (length l)) l)) i = match nth_error l i with Some x => Some (f (k + i, x)) | None => None end) by apply (G 0).
  revert i. induction l as [|x l IH]; intros [|i] k; cbn [length seq combine map nth_error]; try reflexivity.
  - rewrite Nat.add_0_r. reflexivity.
  - rewrite IH. replace (S k + i) with (k + S i) by lia. reflexivity.
Qed.
Lemma list_ext {A} (a b : list A) : (forall i, nth_error a i = nth_error b i) -> a = b.
Proof.
  revert b. induction a as [|x a IH]; intros [|y b] H; try reflexivity; try (specialize (H 0); discriminate H).
  f_equal; [specialize (H 0); cbn in H; congruence|apply IH; intros i; exact (H (S i))].
Qed.

(** * GABase.hpp *)
Lemma tasks_in {V F} (p : list (gene V F)) i : In i (ga_tasks p) <-> exists x, nth_error p i = Some x /\ gcomp x = false.
Proof.
  unfold ga_tasks. rewrite filter_In, in_seq. split.
  - intros (_ & H). destruct (nth_error p i) as [x|]; [|discriminate H]. exists x. split; [reflexivity|]. destruct (gcomp x); [discriminate H|reflexivity].
  - intros (x & E & H). rewrite E, H. pose proof (nth_some_lt _ _ _ E). split; [lia|reflexivity].
Qed.
Lemma tasks_nodup {V F} (p : list (gene V F)) : NoDup (ga_tasks p).
Proof. apply NoDup_filter, seq_NoDup. Qed.
Theorem C94_ga_evaluation : forall (V F : Type) (fit : V -> F) (p : list (gene V F)) (teams : list (list nat)) (sched : list nat),
  Permutation (concat teams) (seq 0 (length (ga_tasks p))) ->
  let s := interleave ga_loc_eqb sched (start (ga_mem p) (ga_body fit (ga_tasks p)) teams) in
  ~ racy s /\
  (finished s -> ga_read (fst s) p = map (fun x => if gcomp x then x else mkGene (gid x) (gvar x) true (fit (gvar x))) p) /\
  ((forall t, t < length teams -> 3 * length (ga_tasks p) <= count_occ Nat.eq_dec sched t) -> finished s).
Proof.
  intros V F fit p teams sched P s. destruct (perm_facts _ _ P) as (Nd & All & Has & Len).
  set (it k := nth k (ga_tasks p) 0).
  assert (Inj : forall k j, k < length (ga_tasks p) -> j < length (ga_tasks p) -> it k = it j -> k = j).
  { intros k j Hk Hj E. apply (proj1 (NoDup_nth _ 0) (tasks_nodup p)); assumption. }
  destruct (loop_result ga_loc_eqb ga_eqb_ok (ga_body fit (ga_tasks p)) (fun k l => l = GFit (it k) \/ l = GFlag (it k)) (fun k l => l = GVar (it k)) (fun k => k < length (ga_tasks p))) 
    with (m := ga_mem p) (teams := teams) (sched := sched) as (NR & Fin); try assumption.
  { intros k Hk. cbn. split; [auto|]. intros [v|f|b|]; cbn; auto. }
  { intros k j l Hk Hj N [-> | ->] [[C|C]|C]; try discriminate C; injection C as C; apply N, Inj; assumption. }
  split; [exact NR|]. split.
  - intros F1. destruct (Fin F1) as (W & U). apply list_ext. intros i. unfold ga_read. rewrite nth_mapped, nth_error_map. destruct (nth_error p i) as [x|] eqn:Ex; [|reflexivity]. cbn [option_map]. f_equal.
    assert (Ev : fst s (GVar i) = XVar (gvar x)). { unfold s. rewrite U by (intros k _ [C|C]; discriminate C). cbn. rewrite Ex. reflexivity. }
    rewrite Ev. destruct (gcomp x) eqn:Cx.
    + assert (No : forall k, In k (concat teams) -> it k <> i).
      { intros k Hk E. rewrite Forall_forall in All. specialize (All k Hk). assert (In i (ga_tasks p)) as Hi by (rewrite <- E; apply nth_In; exact All).
        apply tasks_in in Hi. destruct Hi as (y & Ey & Cy). congruence. }
      unfold s. rewrite (U (GFlag i)) by (intros k Hk [C|C]; first [discriminate C|injection C as C; exact (No k Hk (eq_sym C))]). rewrite (U (GFit i)) by (intros k Hk [C|C]; first [discriminate C|injection C as C; exact (No k Hk (eq_sym C))]). cbn. rewrite Ex. destruct x; cbn in *; congruence.
    + assert (Hi : In i (ga_tasks p)) by (apply tasks_in; eauto). apply In_nth with (d := 0) in Hi. destruct Hi as (k & Hk & Ek).
      unfold s. rewrite (W k (GFlag i)) by (auto; right; unfold it; congruence). rewrite (W k (GFit i)) by (auto; left; unfold it; congruence).
      unfold ga_body. rewrite Ek. cbn [solo ga_mem]. rewrite Ex. cbn [solo]. unfold store. cbn [ga_loc_eqb]. rewrite Nat.eqb_refl. reflexivity.
  - intros Hc. apply (loop_finishes ga_loc_eqb) with (n := 3); [|rewrite Len; exact Hc]. intros k _. cbn. intros [v|f|b|]; cbn; auto.
Qed.
Print Assumptions C94_ga_evaluation.

(** * AOSBoxed.hpp *)
Theorem C94_aos_evaluation : forall (E : list double -> double) (es : list electron) (teams : list (list nat)) (sched : list nat),
  let p := map as_gene es in
  Permutation (concat teams) (seq 0 (length (ga_tasks p))) ->
  let s := interleave ga_loc_eqb sched (start (ga_mem p) (ga_body E (ga_tasks p)) teams) in
  ~ racy s /\
  (finished s -> map as_electron (ga_read (fst s) p) = map (fun e => if ecomp e then e else mkElectron (eid e) (estate e) (E (estate e)) true) es) /\
  ((forall t, t < length teams -> 3 * length (ga_tasks p) <= count_occ Nat.eq_dec sched t) -> finished s).
Proof.
  intros E es teams sched p P s. destruct (C94_ga_evaluation _ _ E p teams sched P) as (A & B & C). split; [exact A|]. split; [|exact C].
  intros F1. unfold s. rewrite (B F1). unfold p. rewrite !map_map. apply map_ext. intros e. unfold as_gene, as_electron. cbn. destruct e as [i st en [|]]; reflexivity.
Qed.
Print Assumptions C94_aos_evaluation.

(** * NSGABase.hpp: afterwards every dominated_by_num is the number of other
    members of the sort space that dominate the member *)
Lemma ns_inner_solo M greater ed (fs : nat -> list double) : forall is k (m : ns_loc -> ns_val),
  (forall j, m (NFit j) = YFit (fs j)) -> m (NDom ed) = YNum k ->
  solo ns_loc_eqb (chain (map (ns_inner M greater ed) is)) m (NDom ed) =
  YNum (k + length (filter (fun er => negb (Nat.eqb er ed) && isStrongDominate M greater (fs er) (fs ed)) is)).
Proof.
  induction is as [|er is IH]; intros k m Hf Hd; [cbn; rewrite Nat.add_0_r; exact Hd|].
  cbn [map chain fold_right filter]. change (fold_right andthen Done (map (ns_inner M greater ed) is)) with (chain (map (ns_inner M greater ed) is)).
  rewrite solo_andthen. unfold ns_inner at 2. destruct (Nat.eqb_spec er ed) as [->|N]; cbn [negb andb].
  - cbn [solo]. apply IH; assumption.
  - cbn [solo]. rewrite !Hf, Hd. cbn [solo].
    rewrite (IH (k + (if isStrongDominate M greater (fs er) (fs ed) then 1 else 0))).
    + destruct (isStrongDominate M greater (fs er) (fs ed)); cbn [length]; f_equal; lia.
    + intros j. rewrite <- (Hf j). apply (store_other ns_loc_eqb ns_eqb_ok). discriminate.
    + apply (store_same ns_loc_eqb ns_eqb_ok).
Qed.
Lemma count_positions {V} (f : gene V (list double) -> bool) (space : list (gene V (list double))) ed x :
  NoDup (map gid space) -> nth_error space ed = Some x ->
  length (filter (fun er => negb (Nat.eqb er ed) && match nth_error space er with Some y => f y | None => false end) (seq 0 (length space))) =
  length (filter (fun y => negb (Nat.eqb (gid y) (gid x)) && f y) space).
Proof.
  intros Nd Ex.
  assert (Same : forall er y, nth_error space er = Some y -> Nat.eqb er ed = Nat.eqb (gid y) (gid x)).
  { intros er y Ey. destruct (Nat.eqb_spec er ed) as [->|N]; [rewrite Ex in Ey; injection Ey as ->; symmetry; apply Nat.eqb_refl|].
    symmetry. apply Nat.eqb_neq. intros C. apply N. apply (proj1 (NoDup_nth_error (map gid space)) Nd).
    - rewrite map_length. exact (nth_some_lt _ _ _ Ey).
    - rewrite !nth_error_map, Ey, Ex. cbn. congruence. }
  clear Nd Ex. enough (G : forall k l, (forall er y, nth_error l er = Some y -> Nat.eqb (k + er) ed = Nat.eqb (gid y) (gid x)) ->
     length (filter (fun er => negb (Nat.eqb er ed) && match nth_error l (er - k) with Some y => f y | None => false end) (seq k (length l))) =
     length (filter (fun y => negb (Nat.eqb (gid y) (gid x)) && f y) l)).
  { rewrite <- (G 0 space Same). f_equal. apply filter_ext. intros er. rewrite Nat.sub_0_r. reflexivity. }
  clear. intros k l. revert k. induction l as [|y l IH]; intros k H; [reflexivity|]. cbn [length seq filter]. rewrite Nat.sub_diag. cbn [nth_error].
  rewrite <- (H 0 y eq_refl), Nat.add_0_r.
  assert (T : filter (fun er => negb (er =? ed) && match nth_error (y :: l) (er - k) with Some z => f z | None => false end) (seq (S k) (length l)) =
              filter (fun er => negb (er =? ed) && match nth_error l (er - S k) with Some z => f z | None => false end) (seq (S k) (length l))).
  { apply filter_ext_in. intros er He. apply in_seq in He. replace (er - k) with (S (er - S k)) by lia. reflexivity. }
  assert (J : length (filter (fun er => negb (er =? ed) && match nth_error l (er - S k) with Some z => f z | None => false end) (seq (S k) (length l))) =
              length (filter (fun z => negb (gid z =? gid x) && f z) l)).
  { apply IH. intros er z Ez. rewrite <- (H (S er) z Ez). f_equal. lia. }
  rewrite T. destruct (negb (k =? ed) && f y); cbn [length]; rewrite J; reflexivity.
Qed.
Lemma ns_body_within {V} M greater (space : list (gene V (list double))) ed :
  within (fun l => l = NDom ed) (fun l => exists j, l = NFit j) (ns_body M greater (length space) ed).
Proof.
  cbn. split; [reflexivity|]. apply within_chain, Forall_map, Forall_forall. intros er _. unfold ns_inner. destruct (er =? ed); cbn; [exact I|].
  split; [eauto|]. intros a. split; [eauto|]. intros b. split; [auto|]. intros n. destruct a, b, n; cbn; auto.
Qed.
Theorem C94_nsga_dominated_num : forall (V : Type) (M : nat) (greater : bool) (space : list (gene V (list double))) (old : nat -> nat) (teams : list (list nat)) (sched : list nat),
  NoDup (map gid space) -> Permutation (concat teams) (seq 0 (length space)) ->
  let s := interleave ns_loc_eqb sched (start (ns_mem space old) (ns_body M greater (length space)) teams) in
  ~ racy s /\
  (finished s -> forall ed x, nth_error space ed = Some x ->
     fst s (NDom ed) = YNum (length (filter (fun er => negb (Nat.eqb (gid er) (gid x)) && isStrongDominate M greater (gfit er) (gfit x)) space)) /\
     fst s (NFit ed) = YFit (gfit x)) /\
  ((forall t, t < length teams -> (1 + 4 * length space) * length space <= count_occ Nat.eq_dec sched t) -> finished s).
Proof.
  intros V M greater space old teams sched Nd P s. destruct (perm_facts _ _ P) as (Nc & All & Has & Len).
  destruct (loop_result ns_loc_eqb ns_eqb_ok (ns_body M greater (length space)) (fun ed l => l = NDom ed) (fun ed l => exists j, l = NFit j) (fun ed => ed < length space))
    with (m := ns_mem space old) (teams := teams) (sched := sched) as (NR & Fin); try assumption.
  { intros ed _. apply ns_body_within. }
  { intros i j l _ _ N -> [C|(q & C)]; [injection C as C; contradiction|discriminate C]. }
  split; [exact NR|]. split.
  - intros F1 ed x Ex. destruct (Fin F1) as (W & U). pose proof (nth_some_lt _ _ _ Ex) as Hl. split.
    + unfold s. rewrite (W ed (NDom ed) (Has ed Hl) eq_refl). unfold ns_body. cbn [solo].
      rewrite (ns_inner_solo M greater ed (fun j => match nth_error space j with Some y => gfit y | None => [] end) _ 0).
      * cbn [Nat.add]. f_equal. rewrite Ex.
        rewrite <- (count_positions (fun y => isStrongDominate M greater (gfit y) (gfit x)) space ed x Nd Ex). f_equal.
        apply filter_ext_in. intros er He. apply in_seq in He. destruct (nth_error space er) eqn:E; [reflexivity|]. apply nth_error_None in E. lia.
      * intros j. rewrite (store_other ns_loc_eqb ns_eqb_ok) by discriminate. reflexivity.
      * apply (store_same ns_loc_eqb ns_eqb_ok).
    + unfold s. rewrite U by (intros i _ C; discriminate C). cbn. rewrite Ex. reflexivity.
  - intros Hc. apply (loop_finishes ns_loc_eqb) with (n := 1 + 4 * length space); [|rewrite Len; exact Hc]. intros ed _. cbn [ns_body bounded Nat.add].
    replace (4 * length space) with (4 * length (map (ns_inner M greater ed) (seq 0 (length space)))) by (rewrite map_length, seq_length; reflexivity).
    apply bounded_chain, Forall_map, Forall_forall. intros er _. unfold ns_inner. destruct (er =? ed); [exact I|]. cbn. intros a b n. destruct a, b, n; cbn; auto.
Qed.
Print Assumptions C94_nsga_dominated_num.

(** * PSOAbstrcat.hpp: fitness of all particles *)
Theorem C94_pso_evaluation : forall (R : rng_ops) (fit : list double -> double) (ps : list particle) (gb : list double) (g : G R) (teams : list (list nat)) (sched : list nat),
  Permutation (concat teams) (seq 0 (length ps)) ->
  let s := interleave ps_loc_eqb sched (start (ps_mem R ps gb g) (ps_fit_body R fit) teams) in
  ~ racy s /\
  (finished s -> ps_read R (fst s) ps = map (fun x => mkParticle (mkPoint (position (here x)) (fit (position (here x)))) (velocity x) (pBest x)) ps) /\
  ((forall t, t < length teams -> 2 * length ps <= count_occ Nat.eq_dec sched t) -> finished s).
Proof.
  intros R fit ps gb g teams sched P s. destruct (perm_facts _ _ P) as (Nc & All & Has & Len).
  destruct (loop_result ps_loc_eqb ps_eqb_ok (ps_fit_body R fit) (fun i l => l = PFit i) (fun i l => l = PPos i) (fun i => i < length ps))
    with (m := ps_mem R ps gb g) (teams := teams) (sched := sched) as (NR & Fin); try assumption.
  { intros i _. cbn. split; [auto|]. intros [v|d|g'|]; cbn; auto. }
  { intros i j l _ _ N -> [C|C]; [injection C as C; contradiction|discriminate C]. }
  split; [exact NR|]. split.
  - intros F1. destruct (Fin F1) as (W & U). apply list_ext. intros i. unfold ps_read. rewrite nth_mapped, nth_error_map. destruct (nth_error ps i) as [x|] eqn:Ex; [|reflexivity]. cbn [option_map]. f_equal.
    unfold s. rewrite (U (PPos i)) by (intros k _ C; discriminate C). rewrite (U (PVel i)) by (intros k _ C; discriminate C).
    rewrite (W i (PFit i) (Has i (nth_some_lt _ _ _ Ex)) eq_refl). unfold ps_fit_body. cbn [solo ps_mem]. rewrite Ex. cbn [solo]. rewrite (store_same ps_loc_eqb ps_eqb_ok). reflexivity.
  - intros Hc. apply (loop_finishes ps_loc_eqb) with (n := 2); [|rewrite Len; exact Hc]. intros i _. cbn. intros [v|d|g'|]; cbn; auto.
Qed.
Print Assumptions C94_pso_evaluation.

(** * PSO4Eigen.hpp: moving the particles.  The loop draws from the one global
    generator, so two threads race on it as soon as both have a particle ... *)
Theorem C94_pso_update_race_refuted : forall (R : rng_ops) (opt : pso_option) (b : vbox) (ps : list particle) (gb : list double) (g : G R)
  (teams : list (list nat)) (t u i j : nat) (r r' : list nat),
  t <> u -> nth_error teams t = Some (i :: r) -> nth_error teams u = Some (j :: r') ->
  exists sched, race_on (interleave ps_loc_eqb sched (start (ps_mem R ps gb g) (ps_move_body R opt b) teams)) PGen.
Proof.
  intros R opt b ps gb g teams t u i j r r' N Ht Hu. exists [t]. cbn [interleave fold_left]. unfold start, tick. cbn [fst snd].
  rewrite nth_error_map, Ht. cbn [option_map thread map chain fold_right]. unfold ps_move_body at 1, ps_draw at 1. cbn [andthen ps_mem].
  destruct (rand01 R g) as (d, g') eqn:Eg. cbn [andthen].
  exists t, u. eexists _, _, true, false. split; [exact N|]. cbn [snd]. rewrite !nth_set, Nat.eqb_refl.
  pose proof (nth_some_lt _ _ _ Ht) as Hl. replace (t <? length (map (thread (ps_move_body R opt b)) teams)) with true by (symmetry; apply Nat.ltb_lt; rewrite map_length; exact Hl).
  split; [reflexivity|]. destruct (Nat.eqb_spec u t) as [C|_]; [congruence|]. rewrite nth_error_map, Hu. split; [reflexivity|]. repeat split.
Qed.
Print Assumptions C94_pso_update_race_refuted.

(** ... and on nothing else, whatever the team and the schedule. *)
Lemma ps_move_within R opt b i : within (fun l => l = PGen \/ l = PVel i \/ l = PPos i) (fun l => l = PBest i \/ l = PGBest) (ps_move_body R opt b i).
Proof.
  cbn. split; [auto|]. intros x. destruct x as [v0|d0'|g0|]; try exact I. destruct (rand01 R g0). cbn. split; [auto|]. split; [auto|].
  intros x. destruct x as [v1|d1'|g1|]; try exact I. destruct (rand01 R g1). cbn. split; [auto|]. split; [auto|]. intros v. split; [auto|]. intros pb. split; [auto|].
  intros gb. split; [auto|]. intros p. destruct v, pb, gb, p; try exact I. cbn. split; [auto|]. split; [auto|]. intros y. destruct y; try exact I. cbn.
  split; [auto|]. split; [auto|]. intros z. split; [auto|]. intros w. destruct z, w; try exact I. cbn. split; [auto|]. split; [auto|]. intros q. destruct q; cbn; auto.
Qed.
Lemma within_tick {L X} eqL (Ws Qs : nat -> L -> Prop) (s : @state L X) a :
  (forall t p, nth_error (snd s) t = Some p -> within (Ws t) (Qs t) p) -> forall t p, nth_error (snd (tick eqL s a)) t = Some p -> within (Ws t) (Qs t) p.
Proof.
  intros H t p Hp. destruct (tick_cases eqL s a) as [(E & _)|[(l & k & Ea & E)|(l & v & k & Ea & E)]]; rewrite E in Hp; [exact (H t p Hp)| |]; cbn [snd] in Hp; rewrite nth_set in Hp;
    (destruct (Nat.eqb_spec t a) as [->|N]; [|exact (H t p Hp)]); pose proof (nth_some_lt _ _ _ Ea) as Hl; apply Nat.ltb_lt in Hl; rewrite Hl in Hp; injection Hp as <-;
    destruct (H a _ Ea) as (_ & K); apply K.
Qed.
Theorem C94_pso_update_races_only_on_generator : forall (R : rng_ops) (opt : pso_option) (b : vbox) (ps : list particle) (gb : list double) (g : G R)
  (teams : list (list nat)) (sched : list nat) (l : ps_loc),
  Permutation (concat teams) (seq 0 (length ps)) ->
  race_on (interleave ps_loc_eqb sched (start (ps_mem R ps gb g) (ps_move_body R opt b) teams)) l -> l = PGen.
Proof.
  intros R opt b ps gb g teams sched l P Race. destruct (perm_facts _ _ P) as (Nc & _).
  set (Ws := fun t l => l = PGen \/ exists is i, nth_error teams t = Some is /\ In i is /\ (l = PVel i \/ l = PPos i)).
  set (Qs := fun t l => l = PGBest \/ exists is i, nth_error teams t = Some is /\ In i is /\ l = PBest i).
  assert (Wi : forall s : @state ps_loc (ps_val (G R)), (forall t p, nth_error (snd s) t = Some p -> within (Ws t) (Qs t) p) ->
     forall t p, nth_error (snd (interleave ps_loc_eqb sched s)) t = Some p -> within (Ws t) (Qs t) p).
  { clear Race. induction sched as [|a sc IH]; intros s H; [exact H|]. cbn [interleave fold_left]. apply IH. apply within_tick. exact H. }
  specialize (Wi (start (ps_mem R ps gb g) (ps_move_body R opt b) teams)).
  assert (W1 : forall t p, nth_error (snd (interleave ps_loc_eqb sched (start (ps_mem R ps gb g) (ps_move_body R opt b) teams))) t = Some p -> within (Ws t) (Qs t) p).
  { apply Wi. intros t p Hp. cbn [start snd] in Hp. rewrite nth_error_map in Hp. destruct (nth_error teams t) as [is|] eqn:Ht; [|discriminate Hp]. cbn in Hp. injection Hp as <-.
    apply within_chain, Forall_map, Forall_forall. intros i Hi. refine (within_mono _ _ _ _ _ _ _ (ps_move_within R opt b i)).
    - intros l1 [H1|H1]; [left; exact H1|right; exists is, i; auto].
    - intros l1 [H1|H1]; [right; right; exists is, i; auto|right; left; exact H1]. }
  clear Wi. destruct Race as (t & u & p & q & w & w' & N & Ht & Hu & Ap & Aq & Hw).
  assert (Touch : forall t (p : prog ps_loc (ps_val (G R))) w, within (Ws t) (Qs t) p -> next_access p = Some (l, w) -> (Ws t l \/ Qs t l) /\ (w = true -> Ws t l)).
  { intros t1 [|l1 k1|l1 v1 k1] w1 H1 A1; cbn in A1; [discriminate A1| |]; injection A1 as <- <-; destruct H1 as (H1 & _); split; auto; discriminate. }
  assert (Main : forall t u, t <> u -> Ws t l -> Ws u l \/ Qs u l -> l = PGen).
  { intros t1 u1 N1 [H1|(is & i & E1 & I1 & L1)] H2; [exact H1|].
    destruct H2 as [[H2|(js & j & E2 & I2 & L2)]|[H2|(js & j & E2 & I2 & L2)]].
    - exact H2.
    - assert (i = j) by (destruct L1 as [->| ->], L2 as [L2|L2]; congruence). subst j. destruct (teams_disjoint teams t1 u1 is js Nc N1 E1 E2 i I1 I2).
    - destruct L1 as [->| ->]; discriminate H2.
    - destruct L1 as [->| ->]; discriminate L2. }
  destruct (Touch t p w (W1 _ _ Ht) Ap) as (T1 & T2). destruct (Touch u q w' (W1 _ _ Hu) Aq) as (U1 & U2).
  apply orb_true_iff in Hw. destruct Hw as [-> | ->]; [exact (Main t u N (T2 eq_refl) U1)|exact (Main u t (not_eq_sym N) (U2 eq_refl) T1)].
Qed.
Print Assumptions C94_pso_update_races_only_on_generator.

(** One thread alone does what the sequential loop does (C67 and the others about
    PSO are about that). *)
Lemma move_body_solo R opt b (gb : point) i x y (m : ps_loc -> ps_val (G R)) g lFP g1 lFG g2 :
  m PGen = ZGen g -> rand01 R g = (lFP, g1) -> rand01 R g1 = (lFG, g2) ->
  m (PVel i) = ZVec (velocity x) -> m (PBest i) = ZVec (position (pBest x)) -> m PGBest = ZVec (position gb) -> m (PPos i) = ZVec (position (here x)) ->
  move_particle opt b gb lFP lFG x = Ok y ->
  let m' := solo ps_loc_eqb (ps_move_body R opt b i) m in
  m' PGen = ZGen g2 /\ m' (PVel i) = ZVec (velocity y) /\ m' (PPos i) = ZVec (position (here y)) /\
  fitness (here y) = fitness (here x) /\ pBest y = pBest x /\
  forall l, l <> PGen -> l <> PVel i -> l <> PPos i -> m' l = m l.
Proof.
  intros Hg E1 E2 Hv Hp Hgb Hx H m'.
  assert (O : forall l (v : ps_val (G R)) m l', l' <> l -> store ps_loc_eqb m l v l' = m l') by (intros; apply (store_other ps_loc_eqb ps_eqb_ok); assumption).
  assert (Sm : forall l (v : ps_val (G R)) m, store ps_loc_eqb m l v l = v) by (intros; apply (store_same ps_loc_eqb ps_eqb_ok)).
  assert (Frame : forall l, l <> PGen -> l <> PVel i -> l <> PPos i -> m' l = m l).
  { intros l N1 N2 N3. apply (solo_outside ps_loc_eqb ps_eqb_ok _ _ _ l (ps_move_within R opt b i)). intros [C|[C|C]]; contradiction. }
  unfold move_particle in H. destruct (_ && _ && _) eqn:Sz; [|discriminate H]. cbv zeta in H. apply bind_Ok in H. destruct H as (p' & Hp' & H). injection H as <-.
  unfold vop in Hp'. destruct (_ =? _) eqn:Sz2 in Hp'; [|discriminate Hp']. injection Hp' as <-. cbn [here velocity pBest position fitness] in *.
  assert (Eq : m' = store ps_loc_eqb (store ps_loc_eqb (store ps_loc_eqb (store ps_loc_eqb (store ps_loc_eqb (store ps_loc_eqb m PGen (ZGen g1)) PGen (ZGen g2))
     (PVel i) (ZVec (vel_raw (inertiaFactor opt) (fmul (learnFactorP opt) lFP) (fmul (learnFactorG opt) lFG) (velocity x) (position (pBest x)) (position gb) (position (here x)))))
     (PVel i) (ZVec (constrainVel b (vel_raw (inertiaFactor opt) (fmul (learnFactorP opt) lFP) (fmul (learnFactorG opt) lFG) (velocity x) (position (pBest x)) (position gb) (position (here x))))))
     (PPos i) (ZVec (map2 fadd (position (here x)) (constrainVel b (vel_raw (inertiaFactor opt) (fmul (learnFactorP opt) lFP) (fmul (learnFactorG opt) lFG) (velocity x) (position (pBest x)) (position gb) (position (here x)))))))
     (PPos i) (ZVec (constrainPos b (map2 fadd (position (here x)) (constrainVel b (vel_raw (inertiaFactor opt) (fmul (learnFactorP opt) lFP) (fmul (learnFactorG opt) lFG) (velocity x) (position (pBest x)) (position gb) (position (here x)))))))).
  { unfold m', ps_move_body, ps_draw. cbn [solo]. rewrite Hg, E1. cbn [solo]. rewrite Sm, E2. cbn [solo].
    rewrite !(O PGen) by discriminate. rewrite Hv, Hp, Hgb, Hx. cbn [solo]. rewrite Sm. cbn [solo]. rewrite Sm, !(O (PVel i)), !(O PGen), Hx by discriminate. cbn [solo]. rewrite Sm. reflexivity. }
  split; [rewrite Eq, !(O (PPos i)), !(O (PVel i)), Sm by discriminate; reflexivity|].
  split; [rewrite Eq, !(O (PPos i)), Sm by discriminate; reflexivity|].
  split; [rewrite Eq, Sm; reflexivity|]. split; [reflexivity|]. split; [reflexivity|exact Frame].
Qed.
Lemma move_chain_solo R opt b (gb : point) : forall ps k g ps' g' (m : ps_loc -> ps_val (G R)),
  move_all R opt b gb ps g = Ok (ps', g') -> m PGen = ZGen g -> m PGBest = ZVec (position gb) ->
  (forall i x, nth_error ps i = Some x -> m (PVel (k + i)) = ZVec (velocity x) /\ m (PBest (k + i)) = ZVec (position (pBest x)) /\ m (PPos (k + i)) = ZVec (position (here x))) ->
  let m' := solo ps_loc_eqb (thread (ps_move_body R opt b) (seq k (length ps))) m in
  m' PGen = ZGen g' /\ length ps' = length ps /\
  (forall i x y, nth_error ps i = Some x -> nth_error ps' i = Some y ->
     m' (PVel (k + i)) = ZVec (velocity y) /\ m' (PPos (k + i)) = ZVec (position (here y)) /\ fitness (here y) = fitness (here x) /\ pBest y = pBest x) /\
  (forall l, l <> PGen -> (forall i, k <= i -> l <> PVel i /\ l <> PPos i) -> m' l = m l).
Proof.
  induction ps as [|x ps IH]; intros k g ps' g' m H Hg Hb Hm; cbn [move_all] in H.
  - injection H as <- <-. cbn. split; [exact Hg|]. split; [reflexivity|]. split; [|reflexivity]. intros [|i] x y E; discriminate E.
  - destruct (rand01 R g) as (lFP, g1) eqn:E1. destruct (rand01 R g1) as (lFG, g2) eqn:E2. apply bind_Ok in H. destruct H as (y & Hy & H).
    apply bind_Ok in H. destruct H as ((qs, g3) & Hq & H). injection H as <- <-.
    destruct (Hm 0 x eq_refl) as (M1 & M2 & M3). rewrite Nat.add_0_r in M1, M2, M3.
    destruct (move_body_solo R opt b gb k x y m g lFP g1 lFG g2 Hg E1 E2 M1 M2 Hb M3 Hy) as (B1 & B2 & B3 & B4 & B5 & B6).
    cbn [length seq]. unfold thread. cbn [map chain fold_right]. change (fold_right andthen Done (map (ps_move_body R opt b) (seq (S k) (length ps)))) with (thread (ps_move_body R opt b) (seq (S k) (length ps))).
    cbv zeta. rewrite solo_andthen. set (m1 := solo ps_loc_eqb (ps_move_body R opt b k) m) in *.
    destruct (IH (S k) g2 qs g3 m1 Hq B1) as (C1 & C2 & C3 & C4).
    { rewrite B6 by discriminate. exact Hb. }
    { intros i z Ez. destruct (Hm (S i) z Ez) as (N1 & N2 & N3). replace (k + S i) with (S k + i) in N1, N2, N3 by lia.
      rewrite !B6 by (try discriminate; intros C; injection C as C; lia). auto. }
    split; [exact C1|]. split; [cbn [length]; lia|]. split.
    + intros [|i] z w Ez Ew; cbn [nth_error] in Ez, Ew.
      * injection Ez as <-. injection Ew as <-. rewrite Nat.add_0_r. rewrite !C4 by (try discriminate; intros i Hi; split; intros C; try discriminate C; injection C as C; lia). auto.
      * replace (k + S i) with (S k + i) by lia. apply C3; assumption.
    + intros l N1 N2. rewrite C4; [|exact N1|intros i Hi; apply N2; lia]. destruct (N2 k ltac:(lia)). apply B6; assumption.
Qed.
Theorem C94_pso_update_one_thread : forall (R : rng_ops) (opt : pso_option) (b : vbox) (ps ps' : list particle) (gb : point) (g g' : G R) (sched : list nat),
  move_all R opt b gb ps g = Ok (ps', g') ->
  let s := interleave ps_loc_eqb sched (start (ps_mem R ps (position gb) g) (ps_move_body R opt b) [seq 0 (length ps)]) in
  ~ racy s /\
  (finished s -> ps_read R (fst s) ps = ps' /\ fst s PGen = ZGen g') /\
  (16 * length ps <= count_occ Nat.eq_dec sched 0 -> finished s).
Proof.
  intros R opt b ps ps' gb g g' sched H s.
  set (Ws := fun (t : nat) (_ : ps_loc) => t = 0). set (Qs := fun (t : nat) (_ : ps_loc) => t = 0).
  assert (D : forall t u l, t <> u -> Ws t l -> ~ (Ws u l \/ Qs u l)) by (unfold Ws, Qs; intros; lia).
  assert (Wb : forall t its, t = 0 -> within (Ws t) (Qs t) (thread (ps_move_body R opt b) its)).
  { intros t its ->. apply within_chain, Forall_map, Forall_forall. intros i _. refine (within_mono _ _ _ _ _ _ _ (ps_move_within R opt b i)); unfold Ws, Qs; auto. }
  assert (I0 : Inv ps_loc_eqb Ws Qs (ps_mem R ps (position gb) g) (map (thread (ps_move_body R opt b)) [seq 0 (length ps)]) (start (ps_mem R ps (position gb) g) (ps_move_body R opt b) [seq 0 (length ps)])).
  { split; [reflexivity|]. split; [|reflexivity]. intros t p p0 Hp H0. cbn [start snd] in Hp. rewrite Hp in H0. injection H0 as <-. split; [|reflexivity].
    destruct t as [|[|t]]; cbn in Hp; [|discriminate Hp|discriminate Hp]. injection Hp as <-. apply Wb. reflexivity. }
  pose proof (inv_interleave ps_loc_eqb ps_eqb_ok Ws Qs D _ _ sched _ I0) as I1. fold s in I1.
  split; [exact (inv_no_race ps_loc_eqb Ws Qs D _ _ s I1)|]. split.
  - intros F1. destruct I1 as (L1 & L2 & _). cbn [map length] in L1.
    destruct (nth_error (snd s) 0) as [p|] eqn:Ep; [|apply nth_error_None in Ep; lia].
    assert (p = Done) as -> by (unfold finished in F1; rewrite Forall_forall in F1; apply F1; eapply nth_error_In; eauto).
    destruct (L2 0 _ _ Ep eq_refl) as (_ & K). cbn [solo] in K.
    destruct (move_chain_solo R opt b gb ps 0 g ps' g' (ps_mem R ps (position gb) g) H eq_refl eq_refl) as (C1 & C2 & C3 & C4).
    { intros i x Ex. cbn [Nat.add ps_mem]. rewrite Ex. auto. }
    split; [|rewrite K by reflexivity; exact C1]. apply list_ext. intros i. unfold ps_read. rewrite nth_mapped. destruct (nth_error ps i) as [x|] eqn:Ex.
    + assert (Hl := nth_some_lt _ _ _ Ex). destruct (nth_error ps' i) as [y|] eqn:Ey; [|apply nth_error_None in Ey; lia]. f_equal.
      destruct (C3 i x y Ex Ey) as (D1 & D2 & D3 & D4). cbn [Nat.add] in D1, D2. rewrite !K by reflexivity. rewrite D1, D2.
      rewrite C4 by (try discriminate; intros; split; discriminate). cbn [ps_mem]. rewrite Ex. destruct y as [[yp yf] yv yb]. cbn in *. congruence.
    + apply nth_error_None in Ex. symmetry. apply nth_error_None. lia.
  - intros Hc. apply (loop_finishes ps_loc_eqb) with (n := 16).
    + intros i _. unfold ps_move_body, ps_draw. cbn [bounded].
      intros x. destruct x as [v0|d0'|ga|]; try exact I. destruct (rand01 R ga). cbn [bounded].
      intros x. destruct x as [v1|d1'|gc|]; try exact I. destruct (rand01 R gc). cbn [bounded]. intros v pb gb' p. destruct v, pb, gb', p; try exact I. cbn [bounded].
      intros y. destruct y; try exact I. cbn [bounded]. intros z w. destruct z, w; try exact I. cbn [bounded]. intros q. destruct q; exact I.
    + intros t Ht. cbn in Ht. assert (t = 0) as -> by lia. cbn [concat]. rewrite app_nil_r, seq_length. exact Hc.
Qed.
Print Assumptions C94_pso_update_one_thread.

(** The teams of the theorems above are the ones OpenMP builds: [deal] says which
    chunks each thread fetched, in order; every chunk was fetched once. *)
Lemma concat_concat {A} (l : list (list (list A))) : concat (map (@concat A) l) = concat (concat l).
Proof. induction l as [|x l IH]; cbn; [reflexivity|]. rewrite IH, concat_app. reflexivity. Qed.
Theorem C94_fetched_chunks_are_a_team : forall (t : threads) (s : site) (n : nat) (cs : list (list nat)) (t' : threads) (deal : list (list (list nat))),
  (1 <= thN_at t s < two64)%Z -> (thN_at t s <= Z.of_nat n)%Z ->
  par_loop t s (Z.of_nat n) = Ok (cs, t') -> Permutation (concat deal) cs -> Permutation (concat (map (@concat nat) deal)) (seq 0 n).
Proof.
  intros t s n cs t' deal Hk Hn H P. rewrite concat_concat. rewrite <- (Nat2Z.id n) at 1.
  exact (C82_every_schedule t s (Z.of_nat n) cs t' (concat deal) Hk Hn H P).
Qed.
Print Assumptions C94_fetched_chunks_are_a_team.

(** * Examples *)
(** Three genes, the second already evaluated; two threads; an interleaving. *)
Definition ex_pop : list (gene nat nat) := [mkGene 0 5 false 0; mkGene 1 6 true 7; mkGene 2 8 false 0].
Example ex_C94_ga : Permutation (concat [[1]; [0]]) (seq 0 (length (ga_tasks ex_pop))) /\
  let s := interleave ga_loc_eqb [0; 1; 1; 0; 0; 1] (start (ga_mem ex_pop) (ga_body (fun v => v * v) (ga_tasks ex_pop)) [[1]; [0]]) in
  finished s /\ ga_read (fst s) ex_pop = [mkGene 0 5 true 25; mkGene 1 6 true 7; mkGene 2 8 true 64].
Proof. split; [apply perm_swap|]. split; [repeat constructor|reflexivity]. Qed.
(** Two particles on two threads: the race is reached after one access. *)
Example ex_C94_pso : exists sched, race_on (interleave ps_loc_eqb sched
  (start (ps_mem replay [mkParticle (mkPoint [d0] d0) [d0] (mkPoint [d1] d0); mkParticle (mkPoint [d1] d0) [d0] (mkPoint [d1] d0)] [d1] [])
         (ps_move_body replay default_pso_option (square_vbox 1 d0 d1 d1)) [[0]; [1]])) PGen.
Proof. apply C94_pso_update_race_refuted with (t := 0) (u := 1) (i := 0) (j := 1) (r := []) (r' := []); [lia|reflexivity|reflexivity]. Qed.
(** One thread moves both as the sequential loop does. *)
Example ex_C94_pso_one : exists ps' g', move_all replay default_pso_option (square_vbox 1 d0 d1 d1) (mkPoint [d1] d0)
  [mkParticle (mkPoint [d0] d0) [d0] (mkPoint [d1] d0); mkParticle (mkPoint [d1] d0) [d0] (mkPoint [d1] d0)] [1; 2; 3; 4]%Z = Ok (ps', g').
Proof. eexists _, _. reflexivity. Qed.
(** Ten items, three threads: four chunks, fetched by two of the threads. *)
Example ex_C94_chunks : exists cs t', par_loop (mkTh 8 (Some 3%Z) (fun _ => None)) 0 (Z.of_nat 10) = Ok (cs, t') /\
  Permutation (concat [[[0; 1; 2]; [9]]; []; [[3; 4; 5]; [6; 7; 8]]]) cs.
Proof. eexists _, _. split; [reflexivity|]. cbn. apply perm_skip. apply (Permutation_cons_app [[3; 4; 5]; [6; 7; 8]] []). reflexivity. Qed.
