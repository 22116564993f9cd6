(** AOS: where the new electrons are put. *)
From Coq Require Import List Arith ZArith Reals Bool Lia Lra Permutation Sorted.
From Flocq Require Import Core BinarySingleNaN.
From Verif Require Import Base Fl FlFacts Rng RandProofs GlobalProofs StdOps ListFacts Box BoxProofs AOS AOSSpec AOSMove AOSProofs AOSProofs2 AOSProofs3 AOSProofs4 AOSProofs5 AOSProofs6.
Import ListNotations.
Open Scope Z_scope.

Lemma deref_app_inv es es' p e : deref (es ++ es') p = Ok e -> (forall x, In x es' -> eid x <> p) -> deref es p = Ok e.
Proof.
  intros H Hn. unfold deref in *. replace (find (fun e => (eid e =? p)%nat) (es ++ es')) with (find (fun e => (eid e =? p)%nat) es) in H; [exact H|]; clear H; symmetry.
  induction es as [|x es IH]; cbn in *.
  - induction es' as [|y es' IH]; [reflexivity|]. cbn. destruct (Nat.eqb_spec (eid y) p) as [Q|_]; [destruct (Hn y (or_introl eq_refl) Q)|].
    apply IH. intros z Hz. apply Hn. right. exact Hz.
  - destruct (eid x =? p)%nat; [reflexivity|exact IH].
Qed.

Section P.
Context {R : rng_ops} (E : env R) (opt : aos_option) (HR : rng_ok R).
Notation aos' := (aos (G R)).
Notation b := (box E).

Lemma rand01_drawn g : drawn01 (fst (rand01 R g)).
Proof. destruct HR as (H1 & _). specialize (H1 g). destruct (rand01 R g). apply unit_draw; apply H1. Qed.
Lemma rand_vec_len n : forall g, length (fst (rand_vec (R := R) n g)) = n.
Proof.
  induction n as [|n IH]; intros g; cbn; [reflexivity|]. destruct (rand01 R g) as [x g1]. specialize (IH g1).
  destruct (rand_vec n g1) as [t g2]. cbn in *. lia.
Qed.
Lemma rand_vec_drawn n : forall g i, (i < n)%nat -> drawn01 (nth i (fst (rand_vec (R := R) n g)) d0).
Proof using HR.
  induction n as [|n IH]; intros g i Hi; [lia|]. cbn. pose proof (rand01_drawn g) as D. destruct (rand01 R g) as [x g1]. specialize (IH g1).
  destruct (rand_vec n g1) as [t g2]. cbn in *. destruct i as [|i]; [exact D|]. apply IH. lia.
Qed.
Lemma pull_at alpha beta gamma best mean p : pull E alpha beta gamma best mean = Ok p ->
  length p = length alpha /\ length beta = length alpha /\ length gamma = length alpha /\
  forall i, (i < length alpha)%nat -> nth i p d0 = towards best mean i (nth i alpha d0) (nth i beta d0) (nth i gamma d0).
Proof.
  unfold pull. intros H. apply bind_Ok in H. destruct H as (x & Hx & H). apply bind_Ok in H. destruct H as (y & Hy & H).
  apply bind_Ok in H. destruct H as (d & Hd & H). apply vec_Ok in Hx, Hy, Hd, H.
  destruct Hx as (L1 & ->), Hy as (L2 & ->), Hd as (L3 & ->), H as (L4 & ->).
  rewrite (zip2_length fmul beta best L1) in L3. rewrite (zip2_length fmul gamma mean L2) in L3.
  rewrite zip2_length in L4 by (rewrite !zip2_length; assumption). rewrite zip2_length in L4 by assumption.
  split; [apply zip2_length; rewrite zip2_length by (rewrite !zip2_length; assumption); rewrite zip2_length by assumption; assumption|].
  split; [congruence|]. split; [congruence|]. intros i Hi. unfold towards, at_.
  rewrite zip2_nth; [|rewrite zip2_length by (rewrite !zip2_length; assumption); rewrite zip2_length by assumption; assumption|assumption].
  rewrite zip2_nth; [|rewrite !zip2_length; assumption|rewrite zip2_length by assumption; lia].
  rewrite !zip2_nth by (try assumption; lia). reflexivity.
Qed.
Lemma eigen_moves_spec x : forall k g, length (fst (eigen_moves E x k g)) = length x /\
  forall i, (i < length x)%nat -> exists g', nth i (fst (eigen_moves E x k g)) d0 = fadd (nth i x d0) (fmul (deltaD b (k + i)) (fst (eigen_random E g'))).
Proof.
  induction x as [|y x IH]; intros k g; cbn [eigen_moves length]; [split; [reflexivity|intros i Hi; lia]|].
  destruct (eigen_random E g) as [r g1] eqn:Er. specialize (IH (S k) g1). destruct (eigen_moves E x (S k) g1) as [t' g2].
  cbn [fst length] in *. destruct IH as (L & IH). split; [lia|]. intros [|i] Hi.
  - exists g. rewrite Er, Nat.add_0_r. reflexivity.
  - destruct (IH i ltac:(lia)) as (g' & Hg'). exists g'. cbn [nth]. rewrite Hg'. f_equal. f_equal. f_equal. lia.
Qed.
Lemma std_moves_spec x : forall k g, length (fst (std_moves E x k g)) = length x /\
  forall i, (i < length x)%nat -> exists u, drawn01 u /\
    nth i (fst (std_moves E x k g)) d0 = fadd (nth i x d0) (affineD (fopp (deltaD b (k + i))) (deltaD b (k + i)) u).
Proof using HR.
  induction x as [|y x IH]; intros k g; cbn [std_moves length]; [split; [reflexivity|intros i Hi; lia]|].
  unfold randD_range. pose proof (rand01_drawn g) as D. destruct (rand01 R g) as [r g1]. specialize (IH (S k) g1). destruct (std_moves E x (S k) g1) as [t' g2].
  cbn [fst length] in *. destruct IH as (L & IH). split; [lia|]. intros [|i] Hi.
  - exists r. rewrite Nat.add_0_r. split; [exact D|reflexivity].
  - destruct (IH i ltac:(lia)) as (u & Du & Hu). exists u. split; [exact Du|]. cbn [nth]. rewrite Hu. replace (k + S i)%nat with (S k + i)%nat by lia. reflexivity.
Qed.

(** A state that [updateElectrons] passes through on its way from [s0]. *)
Definition on_way (s0 s : aos') : Prop :=
  (exists new, electrons s = electrons s0 ++ new /\ forall e, In e new -> (e_next s0 <= eid e)%nat) /\
  (e_next s0 <= e_next s)%nat /\ b_state s = b_state s0 /\ atomBest s = atomBest s0.
Lemma on_way_deref s0 s p e : on_way s0 s -> (p < e_next s0)%nat -> deref (electrons s) p = Ok e -> deref (electrons s0) p = Ok e.
Proof.
  intros ((new & -> & Hn) & _) Hp H. eapply deref_app_inv; [exact H|]. intros x Hx Q. apply Hn in Hx. lia.
Qed.
(** What the members of a layer are known to be. *)
Definition known (s0 : aos') (l : layer) : Prop := forall p, In p (members l) -> (p < e_next s0)%nat.
Lemma spawn_child s0 s l li p s' : on_way s0 s -> (atomBest s0 < e_next s0)%nat -> known s0 l -> In p (members l) ->
  spawn E opt s l li p = Ok s' ->
  on_way s0 s' /\ exists e, electrons s' = electrons s ++ [e] /\ child_of E opt s0 (li, l, p) e.
Proof using HR.
  intros W Ha Hl Hp H. split.
  - apply spawn_grows in H. destruct W as ((new & W1 & W2) & W3 & W4 & W5), H as ((new' & H1 & H2 & _) & H3 & (_ & H4 & _ & H5 & _)).
    split; [|split; [lia|split; congruence]]. exists (new ++ new'). split; [rewrite H1, W1, app_assoc; reflexivity|].
    intros e He. apply in_app_or in He. destruct He as [He|He]; [auto|]. apply (in_map eid) in He. rewrite H2 in He. apply in_seq in He. lia.
  - unfold spawn in H. apply bind_Ok in H. destruct H as (parent & Hpa & H). pose proof (rand01_drawn (a_rng s)) as D.
    destruct (rand01 R (a_rng s)) as [d g1]. cbn [fst] in D. apply bind_Ok in H. destruct H as ([v g2] & Hv & H). injection H as <-.
    exists (mkElectron (e_next s) v (junk E) false). cbn [electrons]. split; [reflexivity|]. unfold child_of. cbn [estate ecomp].
    exists parent, d. pose proof (on_way_deref _ _ _ _ W (Hl p Hp) Hpa) as Hpa0. destruct (fle (photonRate opt) d).
    + unfold photon in Hv. set (n := if eigen E then _ else _) in Hv.
      pose proof (rand_vec_len n g1) as La. pose proof (rand_vec_drawn n g1) as Da. destruct (rand_vec n g1) as [alpha ga].
      pose proof (rand_vec_len n ga) as Lb. pose proof (rand_vec_drawn n ga) as Db. destruct (rand_vec n ga) as [beta gb].
      pose proof (rand_vec_len n gb) as Lc. pose proof (rand_vec_drawn n gb) as Dc. destruct (rand_vec n gb) as [gamma gc].
      cbn [fst] in *. apply bind_Ok in Hv. destruct Hv as (step & Hst & Hv). apply bind_Ok in Hv. destruct Hv as (w & Hw & Hv).
      apply bind_Ok in Hv. destruct Hv as (v' & Hv & Q). injection Q as -> _. apply vec_Ok in Hw. destruct Hw as (Lw & ->).
      exists (zip2 fadd (estate parent) step). split; [exact Hpa0|]. split; [exact D|]. split; [apply zip2_length, Lw|]. split; [|auto].
      rewrite <- La in Da, Db, Dc. unfold photon_move. rewrite zip2_length by exact Lw. destruct (e_better E (energy parent) (l_energy l)) eqn:Eb.
      * left. split; [reflexivity|]. destruct (nth_error (members l) (l_best l)) as [q|] eqn:Nq; [|discriminate].
        apply bind_Ok in Hst. destruct Hst as (lb & Hlb & Hst). apply pull_at in Hst. destruct Hst as (L1 & _ & _ & Hst).
        exists q, lb. split; [reflexivity|]. split; [exact (on_way_deref _ _ _ _ W (Hl q (nth_error_In _ _ Nq)) Hlb)|].
        intros i Hi. assert (Hi' : (i < length alpha)%nat) by lia. exists (nth i alpha d0), (nth i beta d0), (nth i gamma d0).
        split; [auto|]. split; [auto|]. split; [auto|]. unfold at_ at 1. rewrite zip2_nth by assumption. rewrite Hst by exact Hi'. reflexivity.
      * right. split; [reflexivity|]. apply bind_Ok in Hst. destruct Hst as (ab & Hab & Hst).
        apply bind_Ok in Hst. destruct Hst as (q & Hst & Hq). injection Hq as <-. apply pull_at in Hst. destruct Hst as (L1 & _ & _ & Hst).
        rewrite map_length in Lw. destruct W as (W1 & W2 & W3 & W4). rewrite W3, W4 in *.
        exists ab. split; [refine (on_way_deref s0 s _ _ _ _ Hab); [repeat split; auto|exact Ha]|].
        intros i Hi. assert (Hi' : (i < length alpha)%nat) by lia. exists (nth i alpha d0), (nth i beta d0), (nth i gamma d0).
        split; [auto|]. split; [auto|]. split; [auto|]. unfold at_ at 1. rewrite zip2_nth by (rewrite ?map_length; assumption). f_equal.
        rewrite (nth_indep _ _ (fdiv d0 (d_of_Z (Z.of_nat li + 1)))) by (rewrite map_length; lia).
        rewrite (map_nth (fun x => fdiv x (d_of_Z (Z.of_nat li + 1)))). rewrite Hst by exact Hi'. reflexivity.
    + unfold non_photon in Hv. exists (fst ((if eigen E then eigen_moves E else std_moves E) (estate parent) 0%nat g1)).
      split; [exact Hpa0|]. split; [exact D|]. unfold random_move. destruct (eigen E).
      * pose proof (eigen_moves_spec (estate parent) 0 g1) as (L & M). destruct (eigen_moves E (estate parent) 0 g1) as [w gw]. cbn [fst] in *.
        apply bind_Ok in Hv. destruct Hv as (v' & Hv & Q). injection Q as -> _. split; [exact L|]. split; [|auto]. intros i Hi. apply M. lia.
      * pose proof (std_moves_spec (estate parent) 0 g1) as (L & M). destruct (std_moves E (estate parent) 0 g1) as [w gw]. cbn [fst] in *.
        apply bind_Ok in Hv. destruct Hv as (v' & Hv & Q). injection Q as -> _. split; [exact L|]. split; [|auto]. intros i Hi. apply M. lia.
Qed.
Lemma spawn_layer_children s0 l li : (atomBest s0 < e_next s0)%nat -> known s0 l -> forall ps s s', (forall p, In p ps -> In p (members l)) ->
  on_way s0 s -> spawn_layer E opt s l li ps = Ok s' ->
  on_way s0 s' /\ exists new, electrons s' = electrons s ++ new /\ Forall2 (child_of E opt s0) (map (fun p => (li, l, p)) ps) new.
Proof using HR.
  intros Ha Hk. induction ps as [|p ps IH]; intros s s' Hp W H; cbn [spawn_layer] in H.
  - injection H as <-. split; [exact W|]. exists []. rewrite app_nil_r. split; [reflexivity|constructor].
  - apply bind_Ok in H. destruct H as (s1 & H1 & H). apply (spawn_child s0) in H1; auto; [|apply Hp; left; reflexivity].
    destruct H1 as (W1 & e & Ee & He). apply IH in H; [|intros q Hq; apply Hp; right; exact Hq|exact W1].
    destruct H as (W2 & new & En & Hn). split; [exact W2|]. exists (e :: new). split; [rewrite En, Ee, <- app_assoc; reflexivity|].
    constructor; assumption.
Qed.
Definition from_layers (k : nat) (ls : list layer) : list (nat * layer * nat) :=
  concat (map (fun il => map (fun p => (fst il, snd il, p)) (members (snd il))) (combine (seq k (length ls)) ls)).
Lemma spawn_layers_children s0 : (atomBest s0 < e_next s0)%nat -> forall ls li s s', Forall (known s0) ls ->
  on_way s0 s -> spawn_layers E opt s li ls = Ok s' ->
  exists new, electrons s' = electrons s ++ new /\ Forall2 (child_of E opt s0) (from_layers li ls) new.
Proof using HR.
  intros Ha. induction ls as [|l ls IH]; intros li s s' Hk W H; cbn [spawn_layers] in H.
  - injection H as <-. exists []. rewrite app_nil_r. split; [reflexivity|constructor].
  - inversion Hk as [|? ? K1 K2]; subst. apply bind_Ok in H. destruct H as (s1 & H1 & H).
    apply (spawn_layer_children s0) in H1; auto. destruct H1 as (W1 & n1 & E1 & F1). apply IH in H; auto. destruct H as (n2 & E2 & F2).
    exists (n1 ++ n2). split; [rewrite E2, E1, app_assoc; reflexivity|]. unfold from_layers. cbn [length seq combine map concat fst snd].
    apply Forall2_app; assumption.
Qed.
Lemma excite_children s s1 s2 : std_ok (std E) -> good E s -> settle E opt s = Ok s1 -> excite E opt s1 = Ok s2 ->
  exists new, electrons s2 = electrons s1 ++ new /\ Forall2 (child_of E opt s1) (in_layers (layers s2)) new.
Proof using HR.
  intros Hstd Hg H1 H2. pose proof (settle_full E opt s s1 Hstd Hg H1) as (first & rest & st & prev & best & sorted & t & ls & X). cbv zeta in X.
  destruct X as (_ & _ & Ib & _ & _ & _ & _ & _ & _ & _ & _ & _ & _ & En & _ & _ & _ & Ea & _ & _ & _ & Hg1).
  assert (Ha : (atomBest s1 < e_next s1)%nat).
  { rewrite Ea, En. apply in_map_iff in Ib. destruct Ib as (x & <- & Hx). rewrite evaluate_id. apply (proj1 (proj2 Hg)), Hx. }
  unfold excite in H2. apply bind_Ok in H2. destruct H2 as (s1' & Hc & H2). apply bind_Ok in H2. destruct H2 as (s2' & Hu & H2). injection H2 as <-.
  apply computeLayers_spec in Hc. destruct Hc as (ls' & Hm & Hs1').
  assert (Q : layers s2' = ls').
  { unfold updateElectrons in Hu. apply spawn_layers_grows in Hu. destruct Hu as (_ & _ & (Q & _)). rewrite Q, Hs1'. reflexivity. }
  cbn [layers electrons]. rewrite Q. unfold updateElectrons in Hu.
  assert (K : Forall (known s1) ls').
  { apply Forall_forall. intros l' Hin'. apply mapM_ok in Hm. destruct (Forall2_in_r _ _ _ Hm l' Hin') as (l & Hin & Hl').
    apply computeLayer_spec in Hl'. destruct Hl' as (e & tl & st' & Hms & _ & Hmem & _). intros p Hp. rewrite Hmem in Hp.
    assert (I : exists x, deref (electrons s1) p = Ok x).
    { revert Hp. clear -Hms. induction Hms as [|q y qs ys Hq _ IH]; intros Hp; [destruct Hp|]. destruct Hp as [<-|Hp]; eauto. }
    destruct I as (x & Hx). apply deref_In in Hx. destruct Hx as (Hx & <-). apply (proj1 (proj2 Hg1)), Hx. }
  assert (W : on_way s1 s1').
  { rewrite Hs1'. split; [exists []; rewrite app_nil_r; split; [reflexivity|intros x []]|]. repeat split; auto. }
  assert (Hl : layers s1' = ls') by (rewrite Hs1'; reflexivity). rewrite Hl in Hu.
  destruct (spawn_layers_children s1 Ha ls' 0 s1' s2' K W Hu) as (new & N1 & N2). exists new. split; [rewrite N1, Hs1'; reflexivity|exact N2].
Qed.
End P.
