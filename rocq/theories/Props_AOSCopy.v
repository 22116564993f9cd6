(** C107: copying, assigning, moving and destroying AOS solvers.
    AOSCopy.v models a program that holds any number of solvers of one type. *)
From Coq Require Import List Arith ZArith Bool Lia Permutation.
From Flocq Require Import BinarySingleNaN.
From Verif Require Props_SOGA BoxObj.
From Verif Require Import Props_Box Props_AOS Props_AOSObj.
From Verif Require Import Base Fl Rng StdOps ListFacts Box GABase AOS AOSSpec AOSProofs AOSProofs4 AOSObj AOSObjProofs AOSCopy AOSCopyProofs.
Import ListNotations.
Open Scope nat_scope.

Section C107.
Context {A : Type} (R : rng_ops) (E0 : env R) (norm : G R -> double * G R).
Notation obj' := (@obj A R).
Notation world' := (world (A := A) R).
Notation alone := (step R E0 norm).
Notation wstep' := (wstep R E0 norm).
Notation wdrive' := (wdrive R E0 norm).
Notation RunCall := (Run R : call (A := A) R).
Notation InitCall := (InitializePop R : call (A := A) R).

(** ** Specification *)
(** A state some program reaches. *)
Definition reached (w : world') : Prop := exists g h, wdrive' (start R g) h = Ok w.
(** Equal settings, functions, arguments, counters, record, binding state and energy;
    the same pointers; electrons equal in everything but their address. *)
Definition same_members (o o' : obj') : Prop :=
  o_opt R o' = o_opt R o /\ o_box R o' = o_box R o /\ o_i R o' = o_i R o /\ o_f R o' = o_f R o /\ o_args R o' = o_args R o /\
  o_inited R o' = o_inited R o /\ o_ran R o' = o_ran R o /\
  layers (o_aos R o') = layers (o_aos R o) /\ b_state (o_aos R o') = b_state (o_aos R o) /\ b_energy (o_aos R o') = b_energy (o_aos R o) /\
  atomBest (o_aos R o') = atomBest (o_aos R o) /\ a_gen (o_aos R o') = a_gen (o_aos R o) /\ a_stop (o_aos R o') = a_stop (o_aos R o) /\
  get_record R o' = get_record R o /\ map content (get_electrons R o') = map content (get_electrons R o).
(** The solver has been initialised and points at electrons of its own: with its best
    electron, and with its layers. *)
Definition best_is_own (o : obj') : Prop := o_inited R o = true /\ exists x, In x (get_electrons R o) /\ eid x = atomBest (o_aos R o).
Definition layers_are_own (o : obj') : Prop := forall l p, In l (layers (o_aos R o)) -> In p (members l) -> exists x, In x (get_electrons R o) /\ eid x = p.
Definition separate (o o' : obj') : Prop := forall x y, In x (get_electrons R o) -> In y (get_electrons R o') -> eid x <> eid y.
(** Events that are not about solver [i]. *)
Definition leaves (i : nat) (h : list (event (A := A) R)) : Prop := forallb (fun e => negb (about R i e)) h = true.
(** All variables have the same number of coefficients. *)
Definition uniform (o : obj') : Prop := forall x y, In x (get_electrons R o) -> In y (get_electrons R o) -> length (estate x) = length (estate y).

Lemma reached_inv (w : world') : std_ok (std E0) -> reached w -> winv R w.
Proof. intros Hs (g & h & H). exact (proj1 (wdrive_inv R E0 norm h Hs _ _ (start_inv R g) H)). Qed.
Lemma object_nth (w : world') i o : object R w i = Ok o <-> nth_error (w_objs R w) i = Some (Some o).
Proof. unfold object. destruct (nth_error (w_objs R w) i) as [[x|]|]; split; congruence. Qed.
Lemma best_iff (o : obj') : best_is_own o <-> o_inited R o = true /\ own_best R o.
Proof.
  unfold best_is_own, own_best, get_electrons. split; intros (H1 & H2); (split; [exact H1|]).
  - destruct H2 as (x & Hx & <-). apply in_map, Hx.
  - apply in_map_iff in H2. destruct H2 as (x & E & Hx). exists x. auto.
Qed.
Lemma layers_iff (o : obj') : layers_are_own o <-> own_layers (o_aos R o).
Proof.
  unfold layers_are_own, own_layers, get_electrons. split; intros H l p Hl Hp; specialize (H l p Hl Hp).
  - destruct H as (x & Hx & <-). apply in_map, Hx.
  - apply in_map_iff in H. destruct H as (x & E & Hx). exists x. auto.
Qed.
Lemma deref_app_none (l l' : list electron) p : ~ In p (map eid l') -> deref (l ++ l') p = deref l p.
Proof.
  intros H. unfold deref. assert (F : find (fun e => eid e =? p) (l ++ l') = find (fun e => eid e =? p) l); [|rewrite F; reflexivity].
  induction l as [|x l IH]; cbn [app find].
  - destruct (find _ l') as [x|] eqn:E; [|reflexivity]. apply find_some in E. destruct E as (E1 & E2). apply Nat.eqb_eq in E2. exfalso. apply H. rewrite <- E2. apply in_map, E1.
  - destruct (eid x =? p); [reflexivity|exact IH].
Qed.
Lemma and_assoc_l_ (P Q S : Prop) : (P /\ Q /\ S) <-> ((P /\ Q) /\ S).
Proof. tauto. Qed.
(** The own queries. *)
Lemma own_queries (w w' : world') i o : winv R w -> winv R w' -> nth_error (w_objs R w) i = Some (Some o) -> nth_error (w_objs R w') i = Some (Some o) ->
  (o_inited R o = true -> own_best R o) -> own_layers (o_aos R o) -> bestElectron_of R w' i = bestElectron_of R w i /\ layers_of R w' i = layers_of R w i.
Proof.
  intros I I' H H' B L. apply (queries_frame R w w' i i o o H H' eq_refl eq_refl eq_refl). intros p Hp.
  assert (Q : In p (map eid (electrons (o_aos R o)))) by (destruct Hp as [(Hi & ->)|(l & Hl & Hp)]; [exact (B Hi)|exact (L l p Hl Hp)]).
  rewrite (read_own R w i o p I H Q), (read_own R w' i o p I' H' Q). reflexivity.
Qed.

(** ** Copies *)
(** A copy has equal members, electrons of its own, and shows the same best electron and
    the same layers.  No other solver notices. *)
Theorem C107_copy : std_ok (std E0) -> forall (w : world') i o, reached w -> object R w i = Ok o ->
  let n := length (w_objs R w) in
  exists w' o', wstep' w (CopyOf R i) = Ok w' /\ object R w' n = Ok o' /\ same_members o o' /\
    bestElectron_of R w' n = bestElectron_of R w i /\ layers_of R w' n = layers_of R w i /\
    (forall j oj, object R w j = Ok oj -> object R w' j = Ok oj /\ bestElectron_of R w' j = bestElectron_of R w j /\ layers_of R w' j = layers_of R w j /\ separate oj o').
Proof.
  intros Hs w i o Hr Ho n. pose proof (reached_inv w Hs Hr) as I. apply object_nth in Ho.
  set (o' := assign_obj R (w_next R w) (w_rng R w) [] o). set (w' := mkW R (w_objs R w ++ [Some o']) (w_next R w + length (electrons (o_aos R o))) (w_rng R w)).
  assert (Ew : wstep' w (CopyOf R i) = Ok w') by (cbn [wstep]; rewrite Ho; reflexivity).
  assert (En : nth_error (w_objs R w') n = Some (Some o')). { cbn [w' w_objs]. rewrite nth_error_app2 by lia. unfold n. rewrite Nat.sub_diag. reflexivity. }
  assert (Fr : forall p, p < w_next R w -> deref (heap R w') p = deref (heap R w) p).
  { intros p Hp. unfold heap. cbn [w' w_objs]. rewrite flat_map_app. cbn [flat_map live o' assign_obj with_aos with_electrons o_aos electrons]. rewrite app_nil_r. apply deref_app_none. rewrite copy_ids. intros C. apply in_seq in C. lia. }
  pose proof I as (_ & _ & I3).
  assert (Q : forall j oj p, nth_error (w_objs R w) j = Some (Some oj) -> ((o_inited R oj = true /\ p = atomBest (o_aos R oj)) \/ exists l, In l (layers (o_aos R oj)) /\ In p (members l)) -> deref (heap R w') p = deref (heap R w) p).
  { intros j oj p Hj Hp. apply Fr. destruct (I3 j oj Hj) as (K1 & K2). destruct Hp as [(Hi & ->)|(l & Hl & Hp)]; [exact (K1 Hi)|exact (K2 l p Hl Hp)]. }
  exists w', o'. split; [exact Ew|]. split; [apply object_nth, En|]. split; [|].
  - repeat split. cbn. apply assign_content.
  - rewrite and_assoc_l_. split; [apply (queries_frame R w w' i n o o' Ho En eq_refl eq_refl eq_refl); intros p; apply (Q i o p Ho)|].
    intros j oj Hj. apply object_nth in Hj. pose proof (lt_nth _ _ _ Hj) as Lj.
    assert (Ej : nth_error (w_objs R w') j = Some (Some oj)) by (cbn [w' w_objs]; rewrite nth_error_app1 by exact Lj; exact Hj).
    split; [apply object_nth, Ej|]. rewrite and_assoc_l_. split; [apply (queries_frame R w w' j j oj oj Hj Ej eq_refl eq_refl eq_refl); intros p; apply (Q j oj p Hj)|].
    intros x y Hx Hy E. destruct (own_named R w j oj I Hj) as (_ & L & _). specialize (L x Hx).
    apply (in_map eid) in Hy. cbn [get_electrons o' assign_obj with_aos with_electrons o_aos electrons] in Hy. rewrite copy_ids in Hy. apply in_seq in Hy. lia.
Qed.
(** Assignment replaces every member as well; the assigned solver keeps its own nodes
    and shows the source's best electron and layers.  The members of the others stay. *)
Theorem C107_assign : std_ok (std E0) -> forall (w : world') i j d s, reached w -> i <> j -> object R w i = Ok d -> object R w j = Ok s -> best_is_own s -> layers_are_own s ->
  exists w' d', wstep' w (AssignTo R i j) = Ok w' /\ object R w' i = Ok d' /\ same_members s d' /\
    bestElectron_of R w' i = bestElectron_of R w j /\ layers_of R w' i = layers_of R w j /\
    (forall l o, l <> i -> object R w l = Ok o -> object R w' l = Ok o /\ separate o d').
Proof.
  intros Hs w i j d s Hr Hij Hd Hj Ob Ol. pose proof (reached_inv w Hs Hr) as I. apply object_nth in Hd. apply object_nth in Hj.
  set (d' := assign_obj R (w_next R w) (w_rng R w) (map eid (electrons (o_aos R d))) s).
  assert (Ew : wstep' w (AssignTo R i j) = Ok (mkW R (upd (w_objs R w) i (Some d')) (w_next R w + length (electrons (o_aos R s))) (w_rng R w))).
  { cbn [wstep]. rewrite Hd, Hj. destruct (Nat.eqb_spec i j); [contradiction|]. reflexivity. }
  destruct (wstep_inv R E0 norm _ _ (AssignTo R i j) Hs I Ew) as (I' & _ & _). set (w' := mkW R _ _ _) in *.
  assert (Ed : nth_error (w_objs R w') i = Some (Some d')) by (apply upd_nth; eapply lt_nth, Hd).
  assert (Ej : nth_error (w_objs R w') j = Some (Some s)) by (cbn [w' w_objs]; rewrite upd_nth_ne by exact Hij; exact Hj).
  apply best_iff in Ob. apply layers_iff in Ol.
  exists w', d'. split; [exact Ew|]. split; [apply object_nth, Ed|]. split; [repeat split; cbn; apply assign_content|]. rewrite and_assoc_l_. split.
  - destruct (own_queries w w' j s I I' Hj Ej (fun _ => proj2 Ob) Ol) as (Q1 & Q2). rewrite <- Q1, <- Q2.
    apply (queries_frame R w' w' j i s d' Ej Ed eq_refl eq_refl eq_refl). reflexivity.
  - intros l o Hl Ho. apply object_nth in Ho. assert (El : nth_error (w_objs R w') l = Some (Some o)) by (cbn [w' w_objs]; rewrite upd_nth_ne by congruence; exact Ho).
    split; [apply object_nth, El|]. intros x y Hx Hy. exact (objs_apart R w' l i o d' x y I' Hl El Ed Hx Hy).
Qed.
(** A move (a solver returned by value, an element of a std::vector that grows) keeps
    everything, the electrons included: the new solver is the old one.  No other solver
    notices, not even one that points at the moved electrons. *)
Theorem C107_move : std_ok (std E0) -> forall (w : world') i o, reached w -> object R w i = Ok o ->
  let n := length (w_objs R w) in
  exists w', wstep' w (MoveOf R i) = Ok w' /\ object R w' n = Ok o /\
    bestElectron_of R w' n = bestElectron_of R w i /\ layers_of R w' n = layers_of R w i /\
    (forall j oj, j <> i -> object R w j = Ok oj -> object R w' j = Ok oj /\ bestElectron_of R w' j = bestElectron_of R w j /\ layers_of R w' j = layers_of R w j).
Proof.
  intros Hs w i o Hr Ho n. pose proof (reached_inv w Hs Hr) as I. apply object_nth in Ho.
  set (w' := mkW R (upd (w_objs R w) i None ++ [Some o]) (w_next R w) (w_rng R w)).
  assert (Ew : wstep' w (MoveOf R i) = Ok w') by (cbn [wstep]; rewrite Ho; reflexivity).
  destruct (wstep_inv R E0 norm _ _ (MoveOf R i) Hs I Ew) as (I' & _ & _).
  assert (En : nth_error (w_objs R w') n = Some (Some o)).
  { cbn [w' w_objs]. rewrite nth_error_app2 by (rewrite SolverCopyProofs.upd_len; unfold n; lia). rewrite SolverCopyProofs.upd_len. unfold n. rewrite Nat.sub_diag. reflexivity. }
  assert (P : Permutation (heap R w') (heap R w)).
  { unfold heap. cbn [w' w_objs]. rewrite flat_map_app. cbn [flat_map live]. rewrite app_nil_r. destruct (flat_split (live R) _ _ _ Ho) as (r & P1 & P2). rewrite (P2 None), P1. cbn [live app]. apply Permutation_app_comm. }
  assert (Fr : forall p, deref (heap R w') p = deref (heap R w) p).
  { intros p. destruct (in_dec Nat.eq_dec p (map eid (heap R w))) as [Hp|Hp].
    - apply in_map_iff in Hp. destruct Hp as (x & <- & Hx). rewrite (deref_ok _ _ (proj1 I) Hx). apply deref_ok; [exact (proj1 I')|]. eapply Permutation_in; [apply Permutation_sym, P|exact Hx].
    - rewrite (deref_fail _ _ Hp). apply deref_fail. intros C. apply Hp. eapply Permutation_in; [apply Permutation_map, P|exact C]. }
  exists w'. split; [exact Ew|]. split; [apply object_nth, En|]. rewrite and_assoc_l_. split; [apply (queries_frame R w w' i n o o Ho En eq_refl eq_refl eq_refl); intros p _; apply Fr|].
  intros j oj Hji Hj. apply object_nth in Hj. pose proof (lt_nth _ _ _ Hj) as Lj.
  assert (Ej : nth_error (w_objs R w') j = Some (Some oj)) by (cbn [w' w_objs]; rewrite nth_error_app1, upd_nth_ne by (rewrite ?SolverCopyProofs.upd_len; auto); exact Hj).
  split; [apply object_nth, Ej|]. apply (queries_frame R w w' j j oj oj Hj Ej eq_refl eq_refl eq_refl). intros p _. apply Fr.
Qed.

(** Move assignment to a live solver: it becomes the source, electrons included; its old
    electrons are freed.  A third solver notices only if it points at one of those, and
    then it shows no best electron any more. *)
Theorem C107_move_assign : std_ok (std E0) -> forall (w : world') i j d s, reached w -> i <> j -> object R w i = Ok d -> object R w j = Ok s -> best_is_own s -> layers_are_own s ->
  exists w', wstep' w (MoveTo R i j) = Ok w' /\ object R w' i = Ok s /\ object R w' j = UB /\
    bestElectron_of R w' i = bestElectron_of R w j /\ layers_of R w' i = layers_of R w j /\
    (forall l o, l <> i -> l <> j -> object R w l = Ok o -> object R w' l = Ok o /\
      (o_inited R o = true -> bestElectron_of R w' l = (if existsb (fun x => eid x =? atomBest (o_aos R o)) (get_electrons R d) then UB else bestElectron_of R w l))).
Proof.
  intros Hs w i j d s Hr Hij Hd Hj Ob Ol. pose proof (reached_inv w Hs Hr) as I. apply object_nth in Hd. apply object_nth in Hj.
  set (w' := mkW R (upd (upd (w_objs R w) j None) i (Some s)) (w_next R w) (w_rng R w)).
  assert (Ew : wstep' w (MoveTo R i j) = Ok w'). { cbn [wstep]. rewrite Hd, Hj. destruct (Nat.eqb_spec i j); [contradiction|]. reflexivity. }
  destruct (wstep_inv R E0 norm _ _ (MoveTo R i j) Hs I Ew) as (I' & _ & _).
  assert (Ei : nth_error (w_objs R w') i = Some (Some s)) by (apply upd_nth; rewrite SolverCopyProofs.upd_len; eapply lt_nth, Hd).
  destruct (move_to_heap R w i j d s Hij Hd Hj) as (r & P1 & P2). change (flat_map _ _) with (heap R w') in P2.
  pose proof (Permutation_map eid P1) as Q1. rewrite !map_app in Q1. pose proof (Permutation_NoDup Q1 (proj1 I)) as N1.
  apply best_iff in Ob. apply layers_iff in Ol.
  exists w'. split; [exact Ew|]. split; [apply object_nth, Ei|]. split.
  { unfold object. cbn [w' w_objs]. rewrite upd_nth_ne, upd_nth by (eauto using lt_nth). reflexivity. }
  rewrite and_assoc_l_. split.
  - apply (queries_frame R w w' j i s s Hj Ei eq_refl eq_refl eq_refl). intros p Hp.
    assert (Q : In p (map eid (electrons (o_aos R s)))) by (destruct Hp as [(_ & ->)|(l & Hl & Hp)]; [exact (proj2 Ob)|exact (Ol l p Hl Hp)]).
    rewrite (read_own R w j s p I Hj Q), (read_own R w' i s p I' Ei Q). reflexivity.
  - intros l o Hli Hlj Ho. apply object_nth in Ho. assert (El : nth_error (w_objs R w') l = Some (Some o)) by (cbn [w' w_objs]; rewrite !upd_nth_ne by congruence; exact Ho).
    split; [apply object_nth, El|]. intros In_. unfold bestElectron_of, object. rewrite Ho, El. cbn [bind]. rewrite In_. set (p := atomBest (o_aos R o)).
    destruct (existsb _ _) eqn:Ex.
    + apply existsb_exists in Ex. destruct Ex as (x & Hx & Ep). apply Nat.eqb_eq in Ep. apply deref_fail. intros C. eapply Permutation_in in C; [|apply Permutation_map, P2]. rewrite map_app in C.
      assert (Hp : In p (map eid (electrons (o_aos R d)))) by (rewrite <- Ep; apply in_map, Hx). apply in_app_or in C. destruct C as [C|C].
      * apply (NoDup_apart _ _ p N1 C). apply in_or_app. left; exact Hp.
      * exact (NoDup_apart _ _ p (NoDup_app_r _ _ N1) Hp C).
    + assert (Hp : ~ In p (map eid (electrons (o_aos R d)))).
      { intros C. apply in_map_iff in C. destruct C as (x & E & Hx). rewrite <- Bool.not_true_iff_false in Ex. apply Ex. apply existsb_exists. exists x. split; [exact Hx|]. apply Nat.eqb_eq, E. }
      destruct (in_dec Nat.eq_dec p (map eid (heap R w'))) as [Hq|Hq].
      * apply in_map_iff in Hq. destruct Hq as (x & <- & Hx). rewrite (deref_ok _ _ (proj1 I') Hx). symmetry. apply deref_ok; [exact (proj1 I)|].
        eapply Permutation_in; [apply Permutation_sym, P1|]. eapply Permutation_in in Hx; [|exact P2]. apply in_app_or in Hx. apply in_or_app. destruct Hx as [Hx|Hx]; [left; exact Hx|right; apply in_or_app; right; exact Hx].
      * rewrite (deref_fail _ _ Hq). symmetry. apply deref_fail. intros C. eapply Permutation_in in C; [|exact Q1]. apply in_app_or in C. destruct C as [C|C].
        -- apply Hq. eapply Permutation_in; [apply Permutation_sym, Permutation_map, P2|]. rewrite map_app. apply in_or_app. left; exact C.
        -- apply in_app_or in C. destruct C as [C|C]; [exact (Hp C)|]. apply Hq. eapply Permutation_in; [apply Permutation_sym, Permutation_map, P2|]. rewrite map_app. apply in_or_app. right; exact C.
Qed.

(** std::swap (and so std::sort and std::reverse on solvers) exchanges two solvers: each
    shows what the other showed, and no third one notices. *)
Theorem C107_swap : std_ok (std E0) -> forall (w : world') i j a b, reached w -> object R w i = Ok a -> object R w j = Ok b ->
  exists w', wstep' w (Swap R i j) = Ok w' /\
    object R w' i = Ok b /\ bestElectron_of R w' i = bestElectron_of R w j /\ layers_of R w' i = layers_of R w j /\
    object R w' j = Ok a /\ bestElectron_of R w' j = bestElectron_of R w i /\ layers_of R w' j = layers_of R w i /\
    (forall l o, l <> i -> l <> j -> object R w l = Ok o -> object R w' l = Ok o /\ bestElectron_of R w' l = bestElectron_of R w l /\ layers_of R w' l = layers_of R w l).
Proof.
  intros Hs w i j a b Hr Ha Hb. pose proof (reached_inv w Hs Hr) as I. apply object_nth in Ha. apply object_nth in Hb.
  set (w' := mkW R (upd (upd (w_objs R w) i (Some b)) j (Some a)) (w_next R w) (w_rng R w)).
  assert (Ew : wstep' w (Swap R i j) = Ok w') by (cbn [wstep]; rewrite Ha, Hb; reflexivity).
  destruct (wstep_inv R E0 norm _ _ (Swap R i j) Hs I Ew) as (I' & _ & _).
  pose proof (swap_heap R w i j a b Ha Hb) as P. change (flat_map _ _) with (heap R w') in P.
  assert (Fr : forall p, deref (heap R w') p = deref (heap R w) p).
  { intros p. destruct (in_dec Nat.eq_dec p (map eid (heap R w))) as [Hp|Hp].
    - apply in_map_iff in Hp. destruct Hp as (x & <- & Hx). rewrite (deref_ok _ _ (proj1 I) Hx). apply deref_ok; [exact (proj1 I')|]. eapply Permutation_in; [apply Permutation_sym, P|exact Hx].
    - rewrite (deref_fail _ _ Hp). apply deref_fail. intros C. apply Hp. eapply Permutation_in; [apply Permutation_map, P|exact C]. }
  assert (Sh : forall k l o, nth_error (w_objs R w) l = Some (Some o) -> nth_error (w_objs R w') k = Some (Some o) -> object R w' k = Ok o /\ bestElectron_of R w' k = bestElectron_of R w l /\ layers_of R w' k = layers_of R w l).
  { intros k l o Hl Hk. split; [apply object_nth, Hk|]. apply (queries_frame R w w' l k o o Hl Hk eq_refl eq_refl eq_refl). intros p _. apply Fr. }
  assert (Hj' : nth_error (w_objs R w') j = Some (Some a)) by (apply upd_nth; rewrite SolverCopyProofs.upd_len; eapply lt_nth, Hb).
  assert (Hi' : nth_error (w_objs R w') i = Some (Some b)).
  { destruct (Nat.eq_dec i j) as [<-|Hij]; [rewrite Hj'; congruence|]. cbn [w' w_objs]. rewrite upd_nth_ne by congruence. apply upd_nth. eapply lt_nth, Ha. }
  exists w'. split; [exact Ew|]. destruct (Sh i j b Hb Hi') as (S1 & S2 & S3). destruct (Sh j i a Ha Hj') as (S4 & S5 & S6). do 6 (split; [assumption|]).
  intros l o Hli Hlj Ho. apply object_nth in Ho. apply (Sh l l o Ho). cbn [w' w_objs]. rewrite !upd_nth_ne by congruence. exact Ho.
Qed.

(** ** A solver that points at its own electrons is independent of the others *)
(** Whatever happens to other solvers, its members, best electron and layers stay. *)
Theorem C107_own_is_independent : std_ok (std E0) -> forall (w w' : world') i o h, reached w -> object R w i = Ok o -> best_is_own o -> layers_are_own o -> leaves i h -> wdrive' w h = Ok w' ->
  object R w' i = Ok o /\ bestElectron_of R w' i = bestElectron_of R w i /\ layers_of R w' i = layers_of R w i /\ bestElectron_of R w i = get_best R o.
Proof.
  intros Hs w w' i o h Hr Ho Ob Ol Hl H. pose proof (reached_inv w Hs Hr) as I. apply object_nth in Ho. apply best_iff in Ob. apply layers_iff in Ol.
  assert (E : nth_error (w_objs R w') i = Some (Some o)) by (rewrite (wdrive_other R E0 norm h i Hl w w' (lt_nth _ _ _ Ho) H); exact Ho).
  destruct (wdrive_inv R E0 norm h Hs _ _ I H) as (I' & _ & _). destruct (own_queries w w' i o I I' Ho E (fun _ => proj2 Ob) Ol) as (Q1 & Q2).
  split; [apply object_nth, E|]. split; [exact Q1|]. split; [exact Q2|]. unfold bestElectron_of, object, get_best, bestElectron. rewrite Ho. cbn [bind]. rewrite (proj1 Ob). apply (read_own R w i o _ I Ho), Ob.
Qed.
(** Such a solver runs as if it were alone. *)
Theorem C107_own_runs_alone : std_ok (std E0) -> forall (w : world') i o, reached w -> object R w i = Ok o -> best_is_own o ->
  match alone (load R (w_next R w) (w_rng R w) o) RunCall with
  | Ok o2 => exists w', wstep' w (Call R i RunCall) = Ok w' /\ object R w' i = Ok o2
  | UB => wstep' w (Call R i RunCall) = UB
  | Abort => wstep' w (Call R i RunCall) = Abort
  | Fuel => wstep' w (Call R i RunCall) = Fuel
  end.
Proof.
  intros Hs w i o Hr Ho (_ & x & Hx & Ex). pose proof (reached_inv w Hs Hr) as I. apply object_nth in Ho. destruct (own_named R w i o I Ho) as (N & _ & _).
  assert (E : wcall R E0 norm w o RunCall = alone (load R (w_next R w) (w_rng R w) o) RunCall).
  { cbn [wcall step]. unfold prev_of. assert (D : deref (map (evaluate (env_in R E0 o)) (electrons (o_aos R o))) (atomBest (o_aos R o)) = Ok (evaluate (env_in R E0 o) x)).
    { rewrite <- Ex, <- (evaluate_id (env_in R E0 o) x). apply deref_ok; [rewrite map_evaluate_id; exact N|apply in_map, Hx]. }
    rewrite D, <- D. reflexivity. }
  cbn [wstep]. rewrite Ho, E. clear E. match goal with |- context [bind ?r _] => destruct r as [o2| | |] end; cbn [bind]; try reflexivity.
  eexists. split; [reflexivity|]. apply object_nth. cbn [w_objs]. apply upd_nth. eapply lt_nth, Ho.
Qed.
(** initializePop() makes every solver -- also a copy whose original is gone -- point at
    its own electrons only; so does run() (std::list::sort is stable). *)
Theorem C107_init_and_run_own : std_ok (std E0) -> stable_at_front (std E0) -> forall (w w' : world') i o c, reached w -> object R w i = Ok o ->
  (c = InitCall \/ (c = RunCall /\ o_inited R o = true)) -> wstep' w (Call R i c) = Ok w' ->
  exists o', object R w' i = Ok o' /\ best_is_own o' /\ layers_are_own o'.
Proof.
  intros Hs St w w' i o c Hr Ho Hc H. pose proof (reached_inv w Hs Hr) as I. apply object_nth in Ho.
  cbn [wstep] in H. rewrite Ho in H. apply bind_Ok in H. destruct H as (o' & H1 & H). apply Ok_inj in H. subst w'.
  destruct (load_named R w i o I Ho) as (W1 & O1). exists o'. split; [apply object_nth; cbn [w_objs]; apply upd_nth; eapply lt_nth, Ho|].
  assert (In' : o_inited R o' = true).
  { destruct Hc as [->|(-> & Hi)]; [apply call_reaches in H1; [|exact Hs|exact W1|exact O1]; exact (proj1 (proj2 (proj2 (proj2 (proj2 H1))) eq_refl))|].
    cbn [wcall] in H1. unfold run_from in H1. cbv zeta in H1. destruct (_ && existsb _ _); [discriminate H1|]. apply bind_Ok in H1. destruct H1 as (s1 & _ & H1).
    destruct (shouldTerminate _ s1); [apply Ok_inj in H1; subst o'; exact Hi|]. apply bind_Ok in H1. destruct H1 as (b & _ & H1). apply bind_Ok in H1. destruct H1 as (s2 & _ & H1).
    destruct (match _ with None => _ | Some _ => _ end); [discriminate H1|]. apply bind_Ok in H1. destruct H1 as (s3 & _ & H1). apply Ok_inj in H1. subst o'. exact Hi. }
  apply call_reaches in H1; [|exact Hs|exact W1|exact O1]. destruct H1 as (_ & _ & Ol & Ob & _). split.
  - apply best_iff. split; [exact In'|]. apply Ob. destruct Hc as [->|(-> & _)]; auto.
  - apply layers_iff, Ol. destruct Hc as [->|(-> & _)]; auto.
Qed.
(** initializePop() does not look at the old pointers: on any copy it does what it does
    on a solver alone with the same settings and no electrons. *)
Definition emptied (n : nat) (g : G R) (o : obj') : obj' :=
  with_aos R o (mkAOS [] n [] (b_state (o_aos R o)) (b_energy (o_aos R o)) 0 (a_gen (o_aos R o)) (a_stop (o_aos R o)) (a_record (o_aos R o)) g).
Theorem C107_init_ignores_old_pointers : forall (w : world') i o, object R w i = Ok o ->
  match alone (emptied (w_next R w) (w_rng R w) o) InitCall with
  | Ok o2 => exists w', wstep' w (Call R i InitCall) = Ok w' /\ object R w' i = Ok o2
  | UB => wstep' w (Call R i InitCall) = UB
  | Abort => wstep' w (Call R i InitCall) = Abort
  | Fuel => wstep' w (Call R i InitCall) = Fuel
  end.
Proof.
  intros w i o Ho. apply object_nth in Ho. assert (E : alone (emptied (w_next R w) (w_rng R w) o) InitCall = wcall R E0 norm w o InitCall) by reflexivity.
  rewrite E. cbn [wstep]. rewrite Ho. clear E. destruct (wcall R E0 norm w o InitCall) as [o2| | |]; cbn [bind]; try reflexivity.
  eexists. split; [reflexivity|]. apply object_nth. cbn [w_objs]. apply upd_nth. eapply lt_nth, Ho.
Qed.

(** ** run() on a copy while the original is untouched *)
(** It continues from the copied state: as a solver alone would whose best electron is
    the copy's own twin of the original's (the [k]-th electron of both). *)
Definition pointing_at (p : nat) (o : obj') : obj' := with_aos R o (aim p (o_aos R o)).
Lemma from_energy (E : env R) opt p q (s : aos (G R)) x : energy p = energy q -> settle_from E opt (Ok p) s = settle_from E opt (Ok q) (aim x s).
Proof.
  intros He. unfold settle_from, computeAtom_from. change (electrons (compute E (aim x s))) with (electrons (compute E s)).
  destruct (electrons (compute E s)) as [|e t]; [reflexivity|]. cbn [bind]. rewrite He. reflexivity.
Qed.
Lemma copy_nth ids n (src : list electron) : forall k x, nth_error src k = Some x -> exists y, nth_error (assign_nodes ids n src) k = Some y /\ content y = content x.
Proof.
  intros k x H. pose proof (map_nth_error content k src H) as M. rewrite <- (assign_content src ids n) in M.
  destruct (nth_error (assign_nodes ids n src) k) as [y|] eqn:E.
  - exists y. split; [reflexivity|]. rewrite (map_nth_error content k _ E) in M. congruence.
  - apply nth_error_None in E. rewrite (proj2 (nth_error_None _ _)) in M; [discriminate M|]. rewrite map_length. exact E.
Qed.
Theorem C107_live_copy_runs_on : std_ok (std E0) -> forall (w w1 w2 : world') i o k x h, reached w -> object R w i = Ok o ->
  nth_error (get_electrons R o) k = Some x -> eid x = atomBest (o_aos R o) -> ecomp x = true ->
  let n := length (w_objs R w) in
  wstep' w (CopyOf R i) = Ok w1 -> leaves i h -> leaves n h -> wdrive' w1 h = Ok w2 ->
  exists o' y, object R w2 n = Ok o' /\ nth_error (get_electrons R o') k = Some y /\ content y = content x /\
  match alone (pointing_at (eid y) (load R (w_next R w2) (w_rng R w2) o')) RunCall with
  | Ok o2 => exists w3, wstep' w2 (Call R n RunCall) = Ok w3 /\ object R w3 n = Ok o2
  | UB => wstep' w2 (Call R n RunCall) = UB
  | Abort => wstep' w2 (Call R n RunCall) = Abort
  | Fuel => wstep' w2 (Call R n RunCall) = Fuel
  end.
Proof.
  intros Hs w w1 w2 i o k x h Hr Ho Hk Ex Cx n H1 Hi Hn H2. pose proof (reached_inv w Hs Hr) as I. apply object_nth in Ho.
  pose proof (proj1 (wstep_inv R E0 norm _ _ (CopyOf R i) Hs I H1)) as I1. pose proof (proj1 (wdrive_inv R E0 norm h Hs _ _ I1 H2)) as I2.
  cbn [wstep] in H1. rewrite Ho in H1. apply Ok_inj in H1. set (o' := assign_obj R (w_next R w) (w_rng R w) [] o) in *.
  assert (Eo : nth_error (w_objs R w1) i = Some (Some o)) by (rewrite <- H1; cbn [w_objs]; rewrite nth_error_app1 by (eapply lt_nth, Ho); exact Ho).
  assert (En : nth_error (w_objs R w1) n = Some (Some o')) by (rewrite <- H1; cbn [w_objs]; rewrite nth_error_app2 by (unfold n; lia); unfold n; rewrite Nat.sub_diag; reflexivity).
  pose proof (wdrive_other R E0 norm h i Hi w1 w2 (lt_nth _ _ _ Eo) H2) as Eo2. rewrite Eo in Eo2. pose proof (wdrive_other R E0 norm h n Hn w1 w2 (lt_nth _ _ _ En) H2) as En2. rewrite En in En2.
  destruct (copy_nth [] (w_next R w) (electrons (o_aos R o)) k x Hk) as (y & Hy & Cy).
  exists o', y. split; [apply object_nth, En2|]. split; [exact Hy|]. split; [exact Cy|].
  assert (Ce : ecomp y = true /\ energy y = energy x) by (unfold content in Cy; inversion Cy as [[C1 C2 C3]]; rewrite C3; auto).
  destruct (own_named R w2 n o' I2 En2) as (N2 & _ & _). destruct (own_named R w2 i o I2 Eo2) as (_ & _ & Ic).
  assert (Ln : n <> i) by (pose proof (lt_nth _ _ _ Ho); unfold n; lia). apply nth_error_In in Hk. pose proof (nth_error_In _ _ Hy) as Iy.
  assert (Pv : prev_of R E0 w2 o' = Ok x).
  { unfold prev_of. change (atomBest (o_aos R o')) with (atomBest (o_aos R o)). rewrite <- Ex. rewrite deref_fail.
    - rewrite (deref_ok _ _ (proj1 I2) (Ic x Hk)). cbn [bind]. rewrite Cx. reflexivity.
    - rewrite map_evaluate_id. intros C. apply in_map_iff in C. destruct C as (z & Ez & Hz). exact (objs_apart R w2 n i o' o z x I2 Ln En2 Eo2 Hz Hk Ez). }
  set (l' := load R (w_next R w2) (w_rng R w2) o').
  assert (E : alone (pointing_at (eid y) l') RunCall = run_from R E0 (Ok x) l').
  { assert (D : deref (map (evaluate (env_in R E0 l')) (electrons (o_aos R l'))) (eid y) = Ok y).
    { rewrite <- (evaluate_id (env_in R E0 l') y). rewrite (deref_ok (map (evaluate (env_in R E0 l')) (electrons (o_aos R l'))) (evaluate (env_in R E0 l') y));
        [rewrite evaluate_done by apply Ce; reflexivity|rewrite map_evaluate_id; exact N2|apply in_map; exact Iy]. }
    transitivity (run_from R E0 (Ok y) (pointing_at (eid y) l')).
    - rewrite <- D. reflexivity.
    - unfold run_from. cbn [pointing_at with_aos o_opt o_box o_i o_f o_args o_inited o_ran o_aos]. change (env_in R E0 (pointing_at (eid y) l')) with (env_in R E0 l').
      change (fun_in R (pointing_at (eid y) l')) with (fun_in R l'). change (electrons (aim (eid y) (o_aos R l'))) with (electrons (o_aos R l')).
      rewrite <- (from_energy (env_in R E0 l') (o_opt R l') x y (o_aos R l') (eid y)) by (symmetry; apply Ce). reflexivity. }
  rewrite E. cbn [wstep]. rewrite En2. cbn [wcall]. rewrite Pv. fold l'. destruct (run_from R E0 (Ok x) l') as [o2| | |]; cbn [bind]; try reflexivity.
  eexists. split; [reflexivity|]. apply object_nth. cbn [w_objs]. apply upd_nth. eapply lt_nth, En2.
Qed.

(** ** A copy of an initialised solver is not independent: refuted *)
(** Its best electron is the original's, not its own. *)
Theorem C107_copy_shares_best_refuted : std_ok (std E0) -> forall (w w' : world') i o, reached w -> object R w i = Ok o -> best_is_own o -> wstep' w (CopyOf R i) = Ok w' ->
  exists o', object R w' (length (w_objs R w)) = Ok o' /\ ~ best_is_own o' /\ exists x, In x (get_electrons R o) /\ eid x = atomBest (o_aos R o').
Proof.
  intros Hs w w' i o Hr Ho (Oi & x & Hx & Ex) H. destruct (C107_copy Hs w i o Hr Ho) as (w1 & o' & E & Ho' & Sm & _ & _ & Oth). rewrite E in H. apply Ok_inj in H. subst w1.
  destruct Sm as (_ & _ & _ & _ & _ & _ & _ & _ & _ & _ & Eb & _). destruct (Oth i o Ho) as (_ & _ & _ & Sep).
  exists o'. split; [exact Ho'|]. split; [|exists x; split; [exact Hx|congruence]]. intros (_ & y & Hy & Ey). apply (Sep x y Hx Hy). congruence.
Qed.
(** run() with the old best electron gone, or not yet evaluated. *)
Lemma run_gone (w : world') n o' : nth_error (w_objs R w) n = Some (Some o') -> prev_of R E0 w o' = UB -> get_electrons R o' <> [] ->
  (forall w', wstep' w (Call R n RunCall) <> Ok w') /\ (uniform o' -> wstep' w (Call R n RunCall) = UB).
Proof.
  intros Hn Pv Ne. cbn [wstep]. rewrite Hn. cbn [wcall]. rewrite Pv. set (l' := load R (w_next R w) (w_rng R w) o'). unfold run_from. cbv zeta. split.
  - intros w' H. apply bind_Ok in H. destruct H as (o2 & H & _). destruct (_ && existsb _ _); [discriminate H|]. apply bind_Ok in H. destruct H as (s1 & H & _).
    apply settle_from_aim in H. destruct H as (? & ? & p & ? & ? & _ & D & _). discriminate D.
  - intros U. destruct (_ && existsb _ _); [reflexivity|]. rewrite settle_from_gone; [reflexivity|exact Ne|exact U].
Qed.
Lemma uniform_content (l l' : list electron) : map content l' = map content l -> (forall x y, In x l -> In y l -> length (estate x) = length (estate y)) ->
  forall x y, In x l' -> In y l' -> length (estate x) = length (estate y).
Proof.
  intros E H x y Hx Hy. assert (F : forall z, In z l' -> exists z', In z' l /\ estate z' = estate z).
  { intros z Hz. apply (in_map content) in Hz. rewrite E in Hz. apply in_map_iff in Hz. destruct Hz as (z' & Ez & Hz). exists z'. split; [exact Hz|]. unfold content in Ez. congruence. }
  destruct (F x Hx) as (x' & X1 & <-). destruct (F y Hy) as (y' & Y1 & <-). auto.
Qed.
(** Once the original is destroyed or initialised again, bestElectron() of the copy is
    undefined, and so is run() on the copy, until the copy is initialised or assigned to. *)
Theorem C107_copy_outlives_source_refuted : std_ok (std E0) -> forall (w w1 w2 w3 : world') i o e h, reached w -> object R w i = Ok o -> best_is_own o ->
  let n := length (w_objs R w) in
  wstep' w (CopyOf R i) = Ok w1 -> (e = Destroy R i \/ e = Call R i InitCall) -> wstep' w1 e = Ok w2 -> leaves n h -> wdrive' w2 h = Ok w3 ->
  bestElectron_of R w3 n = UB /\ (forall w4, wstep' w3 (Call R n RunCall) <> Ok w4) /\ (uniform o -> wstep' w3 (Call R n RunCall) = UB).
Proof.
  intros Hs w w1 w2 w3 i o e h Hr Ho (Oi & x & Hx & Ex) n H1 He H2 Hl H3. pose proof (reached_inv w Hs Hr) as I.
  destruct (C107_copy Hs w i o Hr Ho) as (w1' & o' & E & Ho' & Sm & _ & _ & Oth). rewrite E in H1. apply Ok_inj in H1. subst w1'. fold n in Ho'.
  destruct Sm as (_ & _ & _ & _ & _ & Ei & _ & _ & _ & _ & Eb & _ & _ & _ & Ec). destruct (Oth i o Ho) as (Hi1 & _ & _ & Sep). apply object_nth in Hi1. apply object_nth in Ho'. apply object_nth in Ho.
  destruct (wstep_inv R E0 norm _ _ (CopyOf R i) Hs I E) as (I1 & _ & _).
  destruct (wstep_inv R E0 norm _ _ e Hs I1 H2) as (I2 & N2 & _).
  destruct (wdrive_inv R E0 norm h Hs _ _ I2 H3) as (_ & _ & A3).
  assert (Ln : i < n) by (eapply lt_nth, Ho).
  assert (Hn2 : nth_error (w_objs R w2) n = Some (Some o')).
  { rewrite <- Ho'. apply (wstep_other R E0 norm w1 w2 e n); [destruct He as [->| ->]; cbn; apply Nat.eqb_neq; lia|eapply lt_nth, Ho'|exact H2]. }
  assert (Hn3 : nth_error (w_objs R w3) n = Some (Some o')) by (rewrite (wdrive_other R E0 norm h n Hl w2 w3 (lt_nth _ _ _ Hn2) H3); exact Hn2).
  set (p := atomBest (o_aos R o)) in *.
  assert (Lt1 : p < w_next R w1). { rewrite <- Ex. destruct (own_named R w1 i o I1 Hi1) as (_ & L & _). apply L, Hx. }
  destruct (flat_split (live R) _ _ _ Hi1) as (r & P1 & P2). pose proof (Permutation_map eid P1) as P1e. rewrite map_app in P1e. cbn [live] in P1e.
  assert (Nr : ~ In p (map eid r)). { apply (NoDup_apart _ _ p (Permutation_NoDup P1e (proj1 I1))). rewrite <- Ex. apply in_map, Hx. }
  assert (Gone : ~ In p (map eid (heap R w2))).
  { destruct He as [->| ->]; cbn [wstep] in H2; rewrite Hi1 in H2.
    - apply Ok_inj in H2. subst w2. unfold heap. cbn [w_objs]. specialize (P2 None). cbn [live app] in P2. intros C. apply Nr. eapply Permutation_in; [apply Permutation_map, P2|exact C].
    - apply bind_Ok in H2. destruct H2 as (o2 & H4 & H2). apply Ok_inj in H2. subst w2. unfold heap. cbn [w_objs]. specialize (P2 (Some o2)). cbn [live] in P2.
      destruct (load_named R w1 i o I1 Hi1) as (W1 & O1). apply call_reaches in H4; [|exact Hs|exact W1|exact O1]. destruct H4 as (_ & _ & _ & _ & Q). destruct (Q eq_refl) as (_ & _ & Q3).
      intros C. eapply Permutation_in in C; [|apply Permutation_map, P2]. rewrite map_app in C. apply in_app_or in C. destruct C as [C|C]; [apply Q3 in C; lia|contradiction]. }
  assert (G3 : ~ In p (map eid (heap R w3))) by (intros C; destruct (A3 p C) as [C'|C']; [contradiction|lia]).
  split.
  - unfold bestElectron_of, object. rewrite Hn3. cbn [bind]. rewrite Ei, Oi, Eb. fold p. apply deref_fail, G3.
  - destruct (run_gone w3 n o' Hn3) as (G1 & G2).
    + unfold prev_of. rewrite Eb. fold p. rewrite !deref_fail; [reflexivity|exact G3|]. rewrite map_evaluate_id. intros C. apply in_map_iff in C. destruct C as (y & Ey & Hy). apply (Sep x y Hx Hy). congruence.
    + intros C. apply (in_map content) in Hx. rewrite <- Ec, C in Hx. destruct Hx.
    + split; [exact G1|]. intros U. apply G2. exact (uniform_content _ _ Ec U).
Qed.
(** The original need not go away: if it has only been initialised, its best electron has
    not been evaluated, and run() on the copy reads an energy nobody ever wrote. *)
Theorem C107_copy_before_run_refuted : std_ok (std E0) -> forall (w w1 w2 : world') i o x h, reached w -> object R w i = Ok o ->
  In x (get_electrons R o) -> eid x = atomBest (o_aos R o) -> ecomp x = false ->
  let n := length (w_objs R w) in
  wstep' w (CopyOf R i) = Ok w1 -> leaves i h -> leaves n h -> wdrive' w1 h = Ok w2 ->
  (forall w3, wstep' w2 (Call R n RunCall) <> Ok w3) /\ (uniform o -> wstep' w2 (Call R n RunCall) = UB).
Proof.
  intros Hs w w1 w2 i o x h Hr Ho Hx Ex Cx n H1 Hi Hn H2. pose proof (reached_inv w Hs Hr) as I.
  destruct (C107_copy Hs w i o Hr Ho) as (w1' & o' & E & Ho' & Sm & _ & _ & Oth). rewrite E in H1. apply Ok_inj in H1. subst w1'. fold n in Ho'.
  destruct Sm as (_ & _ & _ & _ & _ & _ & _ & _ & _ & _ & Eb & _ & _ & _ & Ec). destruct (Oth i o Ho) as (Hi1 & _ & _ & Sep). apply object_nth in Hi1. apply object_nth in Ho'.
  destruct (wstep_inv R E0 norm _ _ (CopyOf R i) Hs I E) as (I1 & _ & _). destruct (wdrive_inv R E0 norm h Hs _ _ I1 H2) as (I2 & _ & _).
  pose proof (wdrive_other R E0 norm h i Hi w1 w2 (lt_nth _ _ _ Hi1) H2) as Eo2. rewrite Hi1 in Eo2. pose proof (wdrive_other R E0 norm h n Hn w1 w2 (lt_nth _ _ _ Ho') H2) as En2. rewrite Ho' in En2.
  destruct (own_named R w2 i o I2 Eo2) as (_ & _ & Ic). destruct (run_gone w2 n o' En2) as (G1 & G2).
  - unfold prev_of. rewrite Eb, <- Ex. rewrite deref_fail; [rewrite (deref_ok _ _ (proj1 I2) (Ic x Hx)); cbn [bind]; rewrite Cx; reflexivity|].
    rewrite map_evaluate_id. intros C. apply in_map_iff in C. destruct C as (y & Ey & Hy). apply (Sep x y Hx Hy). congruence.
  - intros C. apply (in_map content) in Hx. rewrite <- Ec, C in Hx. destruct Hx.
  - split; [exact G1|]. intros U. apply G2. exact (uniform_content _ _ Ec U).
Qed.
(** Moving a copy back onto its original (restoring a saved solver) frees the very electrons
    that the copy points at: there is no best electron afterwards. *)
Theorem C107_move_copy_back_refuted : std_ok (std E0) -> forall (w w' : world') i o, reached w -> object R w i = Ok o -> best_is_own o ->
  wdrive' w [CopyOf R i; MoveTo R i (length (w_objs R w))] = Ok w' -> (exists o', object R w' i = Ok o' /\ same_members o o') /\ bestElectron_of R w' i = UB.
Proof.
  intros Hs w w' i o Hr Ho (Oi & x & Hx & Ex) H. destruct (C107_copy Hs w i o Hr Ho) as (w1 & o' & E & Hn & Sm & _ & _ & Oth). set (n := length (w_objs R w)) in *.
  cbn [wdrive] in H. rewrite E in H. cbn [bind] in H. destruct (Oth i o Ho) as (Hi & _ & _ & _).
  destruct (wstep_inv R E0 norm _ _ (CopyOf R i) Hs (reached_inv w Hs Hr) E) as (I1 & _ & _).
  apply object_nth in Hn. apply object_nth in Hi. apply object_nth in Ho. pose proof (lt_nth _ _ _ Ho) as Li. assert (Hin : i <> n) by (unfold n; lia).
  assert (Ew : wstep' w1 (MoveTo R i n) = Ok (mkW R (upd (upd (w_objs R w1) n None) i (Some o')) (w_next R w1) (w_rng R w1))).
  { cbn [wstep]. rewrite Hi, Hn. destruct (Nat.eqb_spec i n); [contradiction|]. reflexivity. }
  rewrite Ew in H. cbn [bind] in H. apply Ok_inj in H. destruct (move_to_heap R w1 i n o o' Hin Hi Hn) as (r & P1 & P2). set (w2 := mkW R _ _ _) in *. subst w'. change (flat_map _ _) with (heap R w2) in P2.
  assert (Ei : nth_error (w_objs R w2) i = Some (Some o')) by (apply upd_nth; rewrite SolverCopyProofs.upd_len; eapply lt_nth, Hi).
  split; [exists o'; split; [apply object_nth, Ei|exact Sm]|]. pose proof Sm as Sm'. unfold same_members in Sm'.
  assert (Ea : atomBest (o_aos R o') = atomBest (o_aos R o)) by apply Sm'. assert (Eo : o_inited R o' = o_inited R o) by apply Sm'.
  unfold bestElectron_of, object. rewrite Ei. cbn [bind]. rewrite Eo, Oi, Ea, <- Ex.
  apply (Permutation_map eid) in P1. rewrite map_app, map_app in P1. pose proof (Permutation_NoDup P1 (proj1 I1)) as N1.
  apply deref_fail. intros C. eapply Permutation_in in C; [|apply Permutation_map, P2]. rewrite map_app in C.
  assert (Hp : In (eid x) (map eid (electrons (o_aos R o)))) by apply in_map, Hx. apply in_app_or in C. destruct C as [C|C].
  - apply (NoDup_apart _ _ (eid x) N1 C). apply in_or_app. left; exact Hp.
  - exact (NoDup_apart _ _ (eid x) (NoDup_app_r _ _ N1) Hp C).
Qed.
End C107.
Print Assumptions C107_move_copy_back_refuted.
Print Assumptions C107_copy.
Print Assumptions C107_assign.
Print Assumptions C107_move.
Print Assumptions C107_swap.
Print Assumptions C107_move_assign.
Print Assumptions C107_own_is_independent.
Print Assumptions C107_own_runs_alone.
Print Assumptions C107_init_and_run_own.
Print Assumptions C107_init_ignores_old_pointers.
Print Assumptions C107_live_copy_runs_on.
Print Assumptions C107_copy_shares_best_refuted.
Print Assumptions C107_copy_outlives_source_refuted.
Print Assumptions C107_copy_before_run_refuted.

(** ** The hypotheses are met *)
Notation drive_w w h := (@wdrive Z replay E1 one_norm w h).
(** A solver is configured (Props_AOSObj.v), initialised and run. *)
Definition one_solver : list (@event Z replay) := Construct replay (fresh_box sqk) (IDefault replay) None 0%Z :: map (Call replay 0) chapter1.
Definition only_inited : list (@event Z replay) := Construct replay (fresh_box sqk) (IDefault replay) None 0%Z :: map (Call replay 0) (removelast chapter1).
Definition ok_or {T} (r : res T) (f : T -> bool) : bool := match r with Ok x => f x | _ => false end.
Definition is_ub {T} (r : res T) : bool := match r with UB => true | _ => false end.
Definition own_b (o : @obj Z replay) : bool :=
  o_inited replay o && existsb (fun x => eid x =? atomBest (o_aos replay o)) (get_electrons replay o) &&
  forallb (fun l => forallb (fun p => existsb (fun x => eid x =? p) (get_electrons replay o)) (members l)) (layers (o_aos replay o)).
Definition uniform_b (o : @obj Z replay) : bool := forallb (fun x => length (estate x) =? 1) (get_electrons replay o).
Example ex_C107_reached : std_ok (std E1) /\ stable_at_front (std E1) /\
  ok_or (drive_w (start replay some_draws) one_solver) (fun w => ok_or (object replay w 0) (fun o =>
    own_b o && uniform_b o && (length (get_electrons replay o) =? 3) && negb (length (layers (o_aos replay o)) =? 0) &&
    existsb (fun x => (eid x =? atomBest (o_aos replay o)) && ecomp x) (get_electrons replay o))) = true.
Proof. split; [apply E1_std|]. split; [apply E1_stable|]. vm_compute. reflexivity. Qed.
(** Then: copy; the copy shows the same best electron and can be run; if the original
    is destroyed first, bestElectron() and run() of the copy are undefined, but
    initializePop() and then run() work. *)
Example ex_C107_story :
  ok_or (drive_w (start replay some_draws) one_solver) (fun w => ok_or (bestElectron_of replay w 0) (fun b =>
    ok_or (drive_w w [CopyOf replay 0]) (fun w1 => ok_or (bestElectron_of replay w1 1) (fun b1 => (eid b =? eid b1) &&
      ok_or (drive_w w1 [Call replay 1 (Run replay)]) (fun w2 => ok_or (object replay w2 1) own_b) &&
      ok_or (drive_w w1 [Destroy replay 0]) (fun w2 => is_ub (bestElectron_of replay w2 1) && is_ub (drive_w w2 [Call replay 1 (Run replay)]) &&
        ok_or (drive_w w2 [Call replay 1 (InitializePop replay); Call replay 1 (Run replay)]) (fun w3 => ok_or (object replay w3 1) own_b)) &&
      ok_or (drive_w w1 [Call replay 0 (InitializePop replay)]) (fun w2 => is_ub (bestElectron_of replay w2 1)))) &&
    ok_or (drive_w w [MoveOf replay 0]) (fun w1 => ok_or (object replay w1 1) own_b && ok_or (drive_w w1 [Call replay 1 (Run replay)]) (fun _ => true)))) = true.
Proof. vm_compute. reflexivity. Qed.
(** Move assignment: a solver (1) with electrons of its own is moved onto another (0) that
    a third (2) still points at; and a copy is moved back onto its original. *)
Example ex_C107_move_to :
  ok_or (drive_w (start replay some_draws) one_solver) (fun w =>
    ok_or (drive_w w [CopyOf replay 0; Call replay 1 (InitializePop replay); CopyOf replay 0]) (fun w1 => ok_or (object replay w1 1) own_b && ok_or (bestElectron_of replay w1 2) (fun _ => true) &&
      ok_or (drive_w w1 [MoveTo replay 0 1]) (fun w2 => ok_or (object replay w2 0) own_b && ok_or (bestElectron_of replay w2 0) (fun _ => true) && is_ub (object replay w2 1) && is_ub (bestElectron_of replay w2 2))) &&
    ok_or (drive_w w [CopyOf replay 0; MoveTo replay 0 1]) (fun w1 => ok_or (object replay w1 0) (fun _ => true) && is_ub (bestElectron_of replay w1 0))) = true.
Proof. vm_compute. reflexivity. Qed.
(** A swap of an initialised solver with one that is not. *)
Example ex_C107_swap :
  ok_or (drive_w (start replay some_draws) (one_solver ++ [Construct replay (fresh_box sqk) (IDefault replay) None 0%Z])) (fun w => ok_or (bestElectron_of replay w 0) (fun b => is_ub (bestElectron_of replay w 1) &&
    ok_or (drive_w w [Swap replay 0 1]) (fun w1 => is_ub (bestElectron_of replay w1 0) && ok_or (bestElectron_of replay w1 1) (fun b1 => eid b =? eid b1) &&
      ok_or (drive_w w1 [Call replay 1 (Run replay)]) (fun w2 => ok_or (object replay w2 1) own_b)))) = true.
Proof. vm_compute. reflexivity. Qed.
(** A copy made between initializePop() and run(). *)
Example ex_C107_early :
  ok_or (drive_w (start replay some_draws) only_inited) (fun w => ok_or (object replay w 0) (fun o => own_b o && uniform_b o &&
    forallb (fun x => negb (ecomp x)) (get_electrons replay o)) &&
    ok_or (drive_w w [CopyOf replay 0]) (fun w1 => is_ub (drive_w w1 [Call replay 1 (Run replay)]))) = true.
Proof. vm_compute. reflexivity. Qed.
