(** C108: copying PSO solvers. *)
From Coq Require Import List Arith ZArith Bool Lia.
From Flocq Require Import BinarySingleNaN.
From Verif Require Import Props_PSOObj.
From Verif Require Import Base Fl Rng Box PSO PSOObj PSOCopy.
Import ListNotations.
Open Scope nat_scope.

Section C108.
Context {A : Type} (R : rng_ops) (k : kind) (greater rec_on : bool) (vec_max : Z) (junk : point).
Notation obj' := (@obj A R).
Notation world' := (world (A := A) R).
Notation event' := (event (A := A) R).
Notation call' := (call (A := A) R).
Notation step' := (@step A R k greater rec_on vec_max).
Notation drive' := (@drive A R k greater rec_on vec_max).
Notation wstep' := (wstep R k greater rec_on vec_max junk).
Notation wdrive' := (wdrive R k greater rec_on vec_max junk).

(** ** What should happen *)
(** The life of a solver: how it was made and the calls since; a copy has had the life of
    its original, an assigned solver that of the source. *)
Record life := mkLife { l_i : init_src (A := A) R; l_f : option (A -> list double -> double); l_a : A; l_calls : list call' }.
Definition nth_life (ls : list (option life)) (i : nat) : option life := nth i ls None.
Definition live_on (ls : list (option life)) (e : event') : list (option life) :=
  match e with
  | Construct _ i f a => ls ++ [Some (mkLife i f a [])]
  | CopyOf _ i => ls ++ [nth_life ls i]
  | AssignTo _ i j => put ls i (nth_life ls j)
  | Destroy _ i => put ls i None
  | Call _ i c => put ls i (option_map (fun l => mkLife (l_i l) (l_f l) (l_a l) (l_calls l ++ [c])) (nth_life ls i))
  end.
Definition lives (h : list event') : list (option life) := fold_left live_on h [].
(** The calls other than draws by others from the shared generator. *)
Definition is_draw (c : call') : bool := match c with OtherDraws _ _ => true | _ => false end.
Definition own (cs : list call') : list call' := filter (fun c => negb (is_draw c)) cs.
(** A state some program reaches. *)
Definition reached (w : world') : Prop := exists g h, wdrive' (start R g) h = Ok w.
(** Events that write solver [i]. *)
Definition about (i : nat) (e : event') : bool :=
  match e with
  | Construct _ _ _ _ | CopyOf _ _ => false
  | AssignTo _ j _ | Destroy _ j | Call _ j _ => j =? i
  end.
Definition leaves (i : nat) (h : list event') : Prop := forallb (fun e => negb (about i e)) h = true.

Lemma put_len {X} (l : list X) : forall i x, length (put l i x) = length l.
Proof. induction l as [|y l IH]; intros [|i] x; cbn; auto. Qed.
Lemma put_same {X} (l : list X) : forall i x, i < length l -> nth_error (put l i x) i = Some x.
Proof. induction l as [|y l IH]; intros [|i] x H; cbn in *; try lia; [reflexivity|]. apply IH. lia. Qed.
Lemma put_other {X} (l : list X) : forall i j x, i <> j -> nth_error (put l i x) j = nth_error l j.
Proof. induction l as [|y l IH]; intros [|i] [|j] x H; cbn; try reflexivity; [contradiction|]. apply IH. lia. Qed.
Lemma object_nth (w : world') i o : object R w i = Ok o <-> nth_error (w_objs R w) i = Some (Some o).
Proof. unfold object. destruct (nth_error (w_objs R w) i) as [[x|]|]; split; congruence. Qed.
Lemma nth_lt {X} (l : list X) i x : nth_error l i = Some x -> i < length l.
Proof. intros H. apply nth_error_Some. rewrite H. discriminate. Qed.
Lemma Ok_inj {X} (x y : X) : Ok x = Ok y -> x = y.
Proof. intros H. injection H. auto. Qed.
Lemma object_snoc (w : world') x g i : object R (mkW R (w_objs R w ++ [Some x]) g) i =
  if i =? length (w_objs R w) then Ok x else object R w i.
Proof.
  unfold object. cbn [w_objs]. destruct (Nat.eqb_spec i (length (w_objs R w))) as [->|H].
  - rewrite nth_error_app2, Nat.sub_diag by lia. reflexivity.
  - destruct (Nat.lt_ge_cases i (length (w_objs R w))); [rewrite nth_error_app1 by assumption; reflexivity|].
    rewrite nth_error_app2 by lia. assert (E : nth_error (w_objs R w) i = None) by (apply nth_error_None; lia). rewrite E.
    destruct (i - length (w_objs R w)) as [|[|?]] eqn:D; [lia|reflexivity|reflexivity].
Qed.
Lemma object_put (w : world') x g i j o : object R w i = Ok o -> object R (mkW R (put (w_objs R w) i x) g) j =
  if i =? j then match x with Some y => Ok y | None => UB end else object R w j.
Proof.
  intros H. apply object_nth in H. apply nth_lt in H. unfold object. cbn [w_objs]. destruct (Nat.eqb_spec i j) as [<-|Hne].
  - rewrite put_same by exact H. reflexivity.
  - rewrite put_other by exact Hne. reflexivity.
Qed.

(** ** Copies *)
(** A copy equals its original in every member; nothing else changes. *)
Theorem C108_copy : forall (w : world') i o, object R w i = Ok o ->
  exists w', wstep' w (CopyOf R i) = Ok w' /\ object R w' (length (w_objs R w)) = Ok o /\ w_rng R w' = w_rng R w /\
    forall j, j <> length (w_objs R w) -> object R w' j = object R w j.
Proof.
  intros w i o H. cbn [wstep]. rewrite H. cbn [bind]. eexists. split; [reflexivity|]. rewrite object_snoc, Nat.eqb_refl. split; [reflexivity|]. split; [reflexivity|].
  intros j Hj. rewrite object_snoc. destruct (Nat.eqb_spec j (length (w_objs R w))); [contradiction|reflexivity].
Qed.
(** So does an assigned solver, also one assigned to itself. *)
Theorem C108_assign : forall (w : world') i j d s, object R w i = Ok d -> object R w j = Ok s ->
  exists w', wstep' w (AssignTo R i j) = Ok w' /\ object R w' i = Ok s /\ w_rng R w' = w_rng R w /\
    forall l, l <> i -> object R w' l = object R w l.
Proof.
  intros w i j d s Hd Hs. cbn [wstep]. rewrite Hd, Hs. cbn [bind]. eexists. split; [reflexivity|].
  split; [rewrite (object_put w _ _ i i d Hd), Nat.eqb_refl; reflexivity|]. split; [reflexivity|].
  intros l Hl. rewrite (object_put w _ _ i l d Hd). destruct (Nat.eqb_spec i l); [congruence|reflexivity].
Qed.
(** std::swap: a copy and two assignments, then the temporary dies. *)
Theorem C108_swap : forall (w : world') i j a b, i <> j -> object R w i = Ok a -> object R w j = Ok b ->
  exists w', wdrive' w [CopyOf R i; AssignTo R i j; AssignTo R j (length (w_objs R w)); Destroy R (length (w_objs R w))] = Ok w' /\
    object R w' i = Ok b /\ object R w' j = Ok a /\ w_rng R w' = w_rng R w /\
    forall l, l <> i -> l <> j -> object R w' l = object R w l.
Proof.
  intros w i j a b Hij Ha Hb. set (n := length (w_objs R w)).
  assert (Li : i < n) by (apply object_nth, nth_lt in Ha; exact Ha). assert (Lj : j < n) by (apply object_nth, nth_lt in Hb; exact Hb).
  destruct (C108_copy w i a Ha) as (w1 & E1 & N1 & G1 & O1). fold n in N1, O1.
  assert (Hi1 : object R w1 i = Ok a) by (rewrite O1 by lia; exact Ha). assert (Hj1 : object R w1 j = Ok b) by (rewrite O1 by lia; exact Hb).
  destruct (C108_assign w1 i j a b Hi1 Hj1) as (w2 & E2 & N2 & G2 & O2).
  assert (Hj2 : object R w2 j = Ok b) by (rewrite O2 by congruence; exact Hj1). assert (Hn2 : object R w2 n = Ok a) by (rewrite O2 by lia; exact N1).
  destruct (C108_assign w2 j n b a Hj2 Hn2) as (w3 & E3 & N3 & G3 & O3).
  assert (Hn3 : object R w3 n = Ok a) by (rewrite O3 by lia; exact Hn2).
  exists (mkW R (put (w_objs R w3) n None) (w_rng R w3)). cbn [wdrive]. rewrite E1. cbn [bind]. rewrite E2. cbn [bind]. rewrite E3. cbn [bind wstep]. rewrite Hn3. cbn [bind].
  split; [reflexivity|]. assert (Q : forall l, l <> n -> object R (mkW R (put (w_objs R w3) n None) (w_rng R w3)) l = object R w3 l).
  { intros l Hl. rewrite (object_put w3 _ _ n l a Hn3). destruct (Nat.eqb_spec n l); [congruence|reflexivity]. }
  split; [rewrite Q by lia; rewrite O3 by congruence; exact N2|]. split; [rewrite Q by lia; exact N3|]. split; [cbn [w_rng]; congruence|].
  intros l Hi Hj. destruct (Nat.eq_dec l n) as [->|Hn].
  - rewrite (object_put w3 _ _ n n a Hn3), Nat.eqb_refl. unfold object, n. rewrite (proj2 (nth_error_None _ _)); [reflexivity|lia].
  - rewrite Q by exact Hn. rewrite O3, O2, O1 by congruence. reflexivity.
Qed.

(** ** Solvers are independent *)
(** Whatever happens to other solvers -- its original and its copies included -- no member
    of a solver changes. *)
Theorem C108_independent : forall h i (w w' : world') o, object R w i = Ok o -> leaves i h -> wdrive' w h = Ok w' -> object R w' i = Ok o.
Proof.
  induction h as [|e h IH]; intros i w w' o Ho Hl H; cbn [wdrive] in H; [apply Ok_inj in H; subst; exact Ho|].
  unfold leaves in Hl. cbn [forallb] in Hl. apply andb_prop in Hl. destruct Hl as (He & Hl). apply negb_true_iff in He.
  apply bind_Ok in H. destruct H as (w1 & H1 & H2). apply (IH i w1 w' o); [|exact Hl|exact H2]. clear IH H2 Hl.
  destruct e as [i0 f a|j|j l|j|j c]; cbn [wstep about] in *.
  - apply Ok_inj in H1. subst w1. rewrite object_snoc. apply object_nth in Ho as Ho'. apply nth_lt in Ho'. destruct (Nat.eqb_spec i (length (w_objs R w))); [lia|exact Ho].
  - apply bind_Ok in H1. destruct H1 as (x & _ & H1). apply Ok_inj in H1. subst w1. rewrite object_snoc. apply object_nth in Ho as Ho'. apply nth_lt in Ho'. destruct (Nat.eqb_spec i (length (w_objs R w))); [lia|exact Ho].
  - apply bind_Ok in H1. destruct H1 as (x & Hx & H1). apply bind_Ok in H1. destruct H1 as (y & _ & H1). apply Ok_inj in H1. subst w1. rewrite (object_put w _ _ j i x Hx), He. exact Ho.
  - apply bind_Ok in H1. destruct H1 as (x & Hx & H1). apply Ok_inj in H1. subst w1. rewrite (object_put w _ _ j i x Hx), He. exact Ho.
  - apply bind_Ok in H1. destruct H1 as (x & Hx & H1). apply bind_Ok in H1. destruct H1 as (y & _ & H1). apply Ok_inj in H1. subst w1. rewrite (object_put w _ _ j i x Hx), He. exact Ho.
Qed.
(** Calls on one solver do to it what they do to a solver that is alone in the program and
    draws from the same generator: a copy goes on exactly as its original would. *)
Theorem C108_runs_alone : forall (w : world') i o c cs, object R w i = Ok o ->
  (do w' <- wdrive' w (map (Call R i) (c :: cs)); object R w' i) = drive' (load R (w_rng R w) o) (c :: cs).
Proof.
  intros w i o c cs. revert w o c. induction cs as [|d cs IH]; intros w o c Ho.
  - cbn [map wdrive wstep drive]. rewrite Ho. cbn [bind]. destruct (step' (load R (w_rng R w) o) c) as [o'| | |]; try reflexivity. cbn [bind].
    rewrite (object_put w _ _ i i o Ho), Nat.eqb_refl. reflexivity.
  - rewrite map_cons. cbn [wdrive]. cbn [wstep]. rewrite Ho. cbn [bind]. change (drive' (load R (w_rng R w) o) (c :: d :: cs)) with (do o' <- step' (load R (w_rng R w) o) c; drive' o' (d :: cs)).
    destruct (step' (load R (w_rng R w) o) c) as [o'| | |]; try reflexivity. cbn [bind]. rewrite (IH _ o' d).
    + cbn [w_rng]. f_equal. destruct o' as [? ? ? ? ? [[? ? ? ?] ? ?] ?]. reflexivity.
    + rewrite (object_put w _ _ i i o Ho), Nat.eqb_refl. reflexivity.
Qed.
Theorem C108_copy_goes_on_like_the_original : forall (w w' : world') i o c cs, object R w i = Ok o -> wstep' w (CopyOf R i) = Ok w' ->
  (do x <- wdrive' w' (map (Call R (length (w_objs R w))) (c :: cs)); object R x (length (w_objs R w))) =
  (do x <- wdrive' w (map (Call R i) (c :: cs)); object R x i).
Proof.
  intros w w' i o c cs Ho H. destruct (C108_copy w i o Ho) as (w1 & E & N & G & _). rewrite E in H. apply Ok_inj in H. subst w1.
  rewrite (C108_runs_alone w' _ o c cs N), (C108_runs_alone w i o c cs Ho), G. reflexivity.
Qed.

(** ** A solver is what its own life made it *)
Definition lived (l : option life) (o : option obj') : Prop :=
  match l, o with
  | None, None => True
  | Some l, Some o => exists g cs, own cs = own (l_calls l) /\ drive' (fresh R junk (l_i l) (l_f l) (l_a l) g) cs = Ok o
  | _, _ => False
  end.
Lemma drive_snoc cs : forall o c, drive' o (cs ++ [c]) = (do o' <- drive' o cs; step' o' c).
Proof.
  induction cs as [|d cs IH]; intros o c; cbn [app drive bind]; [destruct (step' o c); reflexivity|].
  destruct (step' o d); cbn [bind]; [apply IH|reflexivity..].
Qed.
Lemma own_app a b : own (a ++ b) = own a ++ own b.
Proof. apply filter_app. Qed.
Lemma forall2_nth {X Y} (P : X -> Y -> Prop) a b : Forall2 P a b -> forall i y, nth_error b i = Some y -> exists x, nth_error a i = Some x /\ P x y.
Proof. intros H. induction H as [|x y a b Hp H IH]; intros [|i] z Hi; cbn in *; try discriminate Hi; [inversion Hi; subst; eauto|exact (IH i z Hi)]. Qed.
Lemma forall2_put {X Y} (P : X -> Y -> Prop) a b : Forall2 P a b -> forall i x y, P x y -> Forall2 P (put a i x) (put b i y).
Proof. intros H. induction H as [|u v a b Hp H IH]; intros [|i] x y Hxy; cbn; constructor; auto. Qed.
Lemma lived_step (w w' : world') ls e : Forall2 lived ls (w_objs R w) -> wstep' w e = Ok w' -> Forall2 lived (live_on ls e) (w_objs R w').
Proof.
  intros I H.
  assert (Get : forall i o, object R w i = Ok o -> exists l, nth_life ls i = Some l /\ lived (Some l) (Some o)).
  { intros i o Ho. apply object_nth in Ho. destruct (forall2_nth _ _ _ I i (Some o) Ho) as (l & Hl & Lv). unfold nth_life. rewrite (nth_error_nth _ _ _ Hl).
    destruct l as [l|]; [|contradiction Lv]. exists l. auto. }
  destruct e as [i f a|i|i j|i|i c]; cbn [wstep live_on] in *.
  - apply Ok_inj in H. subst w'. cbn [w_objs]. apply Forall2_app; [exact I|]. constructor; [|constructor]. exists (w_rng R w), []. split; reflexivity.
  - apply bind_Ok in H. destruct H as (o & Ho & H). apply Ok_inj in H. subst w'. cbn [w_objs]. destruct (Get i o Ho) as (l & El & Lv). rewrite El. apply Forall2_app; [exact I|]. constructor; [exact Lv|constructor].
  - apply bind_Ok in H. destruct H as (d & _ & H). apply bind_Ok in H. destruct H as (o & Ho & H). apply Ok_inj in H. subst w'. cbn [w_objs]. destruct (Get j o Ho) as (l & El & Lv). rewrite El. apply forall2_put; [exact I|exact Lv].
  - apply bind_Ok in H. destruct H as (d & _ & H). apply Ok_inj in H. subst w'. cbn [w_objs]. apply forall2_put; [exact I|constructor].
  - apply bind_Ok in H. destruct H as (o & Ho & H). apply bind_Ok in H. destruct H as (o' & H1 & H). apply Ok_inj in H. subst w'. cbn [w_objs]. destruct (Get i o Ho) as (l & El & (g & cs & E & D)). rewrite El.
    apply forall2_put; [exact I|]. cbn [option_map]. exists g, (cs ++ [OtherDraws R (w_rng R w); c]). cbn [l_i l_f l_a l_calls]. split.
    + rewrite !own_app, E. f_equal.
    + change [OtherDraws R (w_rng R w); c] with ([OtherDraws R (w_rng R w)] ++ [c]). rewrite app_assoc, drive_snoc, drive_snoc, D. cbn [bind]. exact H1.
Qed.
Lemma lived_drive h : forall (w w' : world') ls, Forall2 lived ls (w_objs R w) -> wdrive' w h = Ok w' -> Forall2 lived (fold_left live_on h ls) (w_objs R w').
Proof.
  induction h as [|e h IH]; intros w w' ls I H; cbn [wdrive fold_left] in *; [apply Ok_inj in H; subst; exact I|].
  apply bind_Ok in H. destruct H as (w1 & H1 & H2). exact (IH w1 w' _ (lived_step w w1 ls e I H1) H2).
Qed.
(** In any program with any number of solvers, copied and assigned in any way, every
    solver is in the state that its own life gives a solver that was alone all along (up
    to what others drew from the shared generator).  So whatever holds of every history of
    one solver (C83-C85) holds of every solver here. *)
Theorem C108_own_life : forall g h (w : world') i o, wdrive' (start R g) h = Ok w -> object R w i = Ok o ->
  exists l g0 cs, nth_life (lives h) i = Some l /\ own cs = own (l_calls l) /\ drive' (fresh R junk (l_i l) (l_f l) (l_a l) g0) cs = Ok o.
Proof.
  intros g h w i o H Ho. apply object_nth in Ho. pose proof (lived_drive h (start R g) w [] (Forall2_nil _) H) as I.
  destruct (forall2_nth _ _ _ I i (Some o) Ho) as (l & Hl & Lv). fold (lives h) in Hl. destruct l as [l|]; [|contradiction Lv].
  destruct Lv as (g0 & cs & E & D). exists l, g0, cs. split; [exact (nth_error_nth _ _ _ Hl)|auto].
Qed.
(** Using a solver that was destroyed or never made is what is undefined, and nothing
    else is: the program goes on unless an index names no live solver or a call on a
    solver that is alone would not return. *)
Theorem C108_nothing_else_is_undefined : forall (w : world') e,
  (forall i, match e with Construct _ _ _ _ => False | CopyOf _ j | Destroy _ j | Call _ j _ => i = j | AssignTo _ j l => i = j \/ i = l end -> exists o, object R w i = Ok o) ->
  (forall i c o, e = Call R i c -> object R w i = Ok o -> exists o', step' (load R (w_rng R w) o) c = Ok o') ->
  exists w', wstep' w e = Ok w'.
Proof.
  intros w e H1 H2. destruct e as [i f a|i|i j|i|i c]; cbn [wstep].
  - eauto.
  - destruct (H1 i eq_refl) as (o & Ho). rewrite Ho. cbn [bind]. eauto.
  - destruct (H1 i (or_introl eq_refl)) as (d & Hd). destruct (H1 j (or_intror eq_refl)) as (o & Ho). rewrite Hd, Ho. cbn [bind]. eauto.
  - destruct (H1 i eq_refl) as (o & Ho). rewrite Ho. cbn [bind]. eauto.
  - destruct (H1 i eq_refl) as (o & Ho). rewrite Ho. cbn [bind]. destruct (H2 i c o eq_refl Ho) as (o' & Ho'). rewrite Ho'. cbn [bind]. eauto.
Qed.
End C108.
Print Assumptions C108_copy.
Print Assumptions C108_assign.
Print Assumptions C108_swap.
Print Assumptions C108_independent.
Print Assumptions C108_runs_alone.
Print Assumptions C108_copy_goes_on_like_the_original.
Print Assumptions C108_own_life.
Print Assumptions C108_nothing_else_is_undefined.

(** ** The hypotheses are met *)
(** A solver is configured and run (Props_PSOObj.v), copied; the original is destroyed; the
    copy gets another box and option and is run; a third solver is assigned from the copy. *)
Notation drive_w w h := (@wdrive Z replay SqVec false true 1000 nowhere w h).
Definition saga : list (@event Z replay) :=
  Construct replay (IDefault replay) None 0%Z :: map (Call replay 0) part1 ++ [CopyOf replay 0; Destroy replay 0] ++
  map (Call replay 1) part2 ++ [Construct replay (IDefault replay) None 5%Z; AssignTo replay 2 1].
Definition gen_is (r : res (@obj Z replay)) (n : Z) : bool :=
  match r with Ok o => match get_generation replay o with Ok m => (m =? n)%Z && (length (get_population replay o) =? 3) | _ => false end | _ => false end.
Definition gone (r : res (@obj Z replay)) : bool := match r with UB => true | _ => false end.
Example ex_C108_saga :
  match drive_w (start replay demo_draws) saga with
  | Ok w => (length (w_objs replay w) =? 3) && gone (object replay w 0) && gen_is (object replay w 1) 1 && gen_is (object replay w 2) 1
  | _ => false
  end = true.
Proof. vm_compute. reflexivity. Qed.
Example ex_C108_lives : map (option_map (fun l => length (l_calls replay l))) (lives replay saga) = [None; Some 10; Some 10].
Proof. vm_compute. reflexivity. Qed.
Example ex_C108_leaves : leaves replay 0 (CopyOf replay 0 :: map (Call replay 1) part2 ++ [AssignTo replay 1 0; Destroy replay 1]) .
Proof. vm_compute. reflexivity. Qed.
