(** C110: the layers after a run. *)
From Coq Require Import List Arith ZArith Bool Lia Reals Permutation.
From Flocq Require Import Core BinarySingleNaN.
From Verif Require Import Base Fl FlFacts Rng StdOps ListFacts Box AOS AOSSpec AOSProofs AOSProofs2 AOSProofs3 AOSProofs6 AOSLayer Props_AOS.
From Verif Require Props_SOGA.
Import ListNotations.
Open Scope Z_scope.

(** The electrons of a layer. *)
Definition in_layer (es : list electron) (l : layer) (x : electron) : Prop := In x es /\ In (eid x) (members l).

Section P.
Context {R : rng_ops} (E : env R).
Notation aos' := (aos (G R)).
(** A finished run ended with the first half of a round. *)
Lemma run_settled opt fuel (s s' : aos') : std_ok (std E) -> before_round E s -> aos_run E opt fuel s = Ok s' ->
  exists s0, good E s0 /\ before_round E s0 /\ settle E opt s0 = Ok s' /\ good E s'.
Proof.
  intros Hstd B H. destruct (run_last E opt fuel s s' B H) as (B' & s0 & B0 & H0 & _). pose proof (before_good E s0 Hstd B0) as G0.
  exists s0. split; [exact G0|]. split; [exact B0|]. split; [exact H0|]. apply (settle_good E opt s0 s' Hstd G0 H0).
Qed.
Lemma position {A} (a b c : list A) k x : nth_error b k = Some x -> nth_error (a ++ b ++ c) (length a + k) = Some x.
Proof.
  intros H. rewrite nth_error_app2 by lia. replace (length a + k - length a)%nat with k by lia. rewrite nth_error_app1; [exact H|].
  apply nth_error_Some. rewrite H. discriminate.
Qed.
Lemma split_at {A} (l : list A) k x : nth_error l k = Some x -> exists a c, l = a ++ x :: c /\ length a = k.
Proof. apply nth_error_split. Qed.
(** Where the members of a layer stand in the row of all survivors. *)
Lemma member_at (ls : list layer) k l p : nth_error ls k = Some l -> In p (members l) ->
  exists i, (length (concat (map members (firstn k ls))) <= i)%nat /\ nth_error (concat (map members ls)) i = Some p.
Proof.
  intros Hk Hp. destruct (split_at ls k l Hk) as (a & c & -> & La). apply In_nth_error in Hp. destruct Hp as (j & Hj).
  exists (length (concat (map members a)) + j)%nat. rewrite firstn_app, La, Nat.sub_diag. cbn [firstn]. rewrite app_nil_r. rewrite firstn_all2 by lia.
  split; [lia|]. rewrite map_app, concat_app. cbn [map concat]. apply position, Hj.
Qed.
Lemma head_at (ls : list layer) k l h t : nth_error ls k = Some l -> members l = h :: t ->
  nth_error (concat (map members ls)) (length (concat (map members (firstn k ls)))) = Some h.
Proof.
  intros Hk Hm. destruct (split_at ls k l Hk) as (a & c & -> & La). rewrite firstn_app, La, Nat.sub_diag. cbn [firstn]. rewrite app_nil_r. rewrite firstn_all2 by lia.
  rewrite map_app, concat_app. cbn [map concat]. rewrite Hm. rewrite <- (Nat.add_0_r (length (concat (map members a)))). apply position. reflexivity.
Qed.
Lemma before_mono {A} (ls : list (list A)) j k : (j <= k)%nat -> (length (concat (firstn j ls)) <= length (concat (firstn k ls)))%nat.
Proof.
  intros H. replace (firstn j ls) with (firstn j (firstn k ls)) by (rewrite firstn_firstn; f_equal; lia). rewrite <- (firstn_skipn j (firstn k ls)) at 2. rewrite concat_app, app_length. lia.
Qed.

(** After a run every electron is in exactly one layer, once. *)
Theorem C110_layers_partition : forall opt fuel (s s' : aos'), std_ok (std E) -> before_round E s -> aos_run E opt fuel s = Ok s' ->
  Permutation (concat (map members (layers s'))) (map eid (electrons s')) /\ NoDup (concat (map members (layers s'))) /\
  forall l p, In l (layers s') -> In p (members l) -> exists x, deref (electrons s') p = Ok x /\ in_layer (electrons s') l x.
Proof.
  intros opt fuel s s' Hstd B H. destruct (run_settled opt fuel s s' Hstd B H) as (s0 & G0 & _ & H0 & G').
  destruct (settle_layers E opt s0 s' Hstd G0 H0) as (kept & t & _ & P & _ & Hml). pose proof (make_layers_concat E _ _ _ Hml) as C.
  assert (PP : Permutation (concat (map members (layers s'))) (map eid (electrons s'))) by (rewrite C; apply Permutation_map, P).
  split; [exact PP|]. split; [apply (Permutation_NoDup (Permutation_sym PP)), G'|]. intros l p Hl Hp.
  assert (Hin : In p (map eid (electrons s'))).
  { apply (Permutation_in _ PP). apply in_concat. exists (members l). split; [apply in_map, Hl|exact Hp]. }
  apply in_map_iff in Hin. destruct Hin as (x & <- & Hx). exists x. split; [apply deref_ok; [apply G'|exact Hx]|]. split; assumption.
Qed.
(** layerBestState() and layerBestEnergy() of any layer that is not empty are those of one
    of its electrons, which no electron of the layer or of a later one beats. *)
Theorem C110_layer_best : forall opt fuel (s s' : aos') k l, std_ok (std E) -> before_round E s -> aos_run E opt fuel s = Ok s' ->
  nth_error (layers s') k = Some l -> members l <> [] ->
  exists e, in_layer (electrons s') l e /\ layerBestState (electrons s') l = Ok (estate e) /\ layerBestEnergy (electrons s') l = Ok (energy e) /\
    forall k' l' x, (k <= k')%nat -> nth_error (layers s') k' = Some l' -> in_layer (electrons s') l' x -> e_better E (energy x) (energy e) = false.
Proof.
  intros opt fuel s s' k l Hstd B H Hk Hm. destruct (run_settled opt fuel s s' Hstd B H) as (s0 & G0 & _ & H0 & G').
  destruct (settle_layers E opt s0 s' Hstd G0 H0) as (kept & t & _ & P & O & Hml). pose proof (make_layers_concat E _ _ _ Hml) as C.
  assert (Z0 : l_best l = 0%nat).
  { pose proof (settle_full E opt s0 s' Hstd G0 H0) as F. destruct F as (first & rest & st & prev & best & sorted & t0 & ls & F). cbv zeta in F.
    destruct F as (_ & _ & _ & _ & _ & _ & _ & _ & _ & _ & _ & _ & _ & _ & Hla & _). rewrite Hla in Hk. apply nth_error_In, in_map_iff in Hk. destruct Hk as (m & <- & _). reflexivity. }
  destruct (members l) as [|h tl] eqn:El; [contradiction|]. clear Hm. pose proof (head_at _ _ _ _ _ Hk El) as Hh. rewrite C in Hh.
  rewrite nth_error_map in Hh. destruct (nth_error kept _) as [e|] eqn:Ek; [|discriminate Hh]. injection Hh as Hh.
  assert (Ie : In e (electrons s')) by (apply (Permutation_in _ P); eapply nth_error_In, Ek).
  assert (De : layer_electron (electrons s') l = Ok e). { unfold layer_electron. rewrite Z0, El. cbn [nth_error]. rewrite <- Hh. apply deref_ok; [apply G'|exact Ie]. }
  exists e. split; [split; [exact Ie|rewrite El; left; symmetry; exact Hh]|]. split; [unfold layerBestState; rewrite De; reflexivity|]. split; [unfold layerBestEnergy; rewrite De; reflexivity|].
  intros k' l' x Hle Hk' (Ix & Mx). destruct (member_at _ _ _ _ Hk' Mx) as (i & Li & Hi). rewrite C, nth_error_map in Hi.
  destruct (nth_error kept i) as [y|] eqn:Ey; [|discriminate Hi]. injection Hi as Hi.
  assert (y = x). { assert (Iy : In y (electrons s')) by (apply (Permutation_in _ P); eapply nth_error_In, Ey). pose proof (deref_ok _ _ (proj1 G') Iy) as D1. pose proof (deref_ok _ _ (proj1 G') Ix) as D2. rewrite Hi in D1. rewrite D1 in D2. injection D2 as D2. exact D2. }
  subst y. eapply O; [|exact Ek|exact Ey]. etransitivity; [|exact Li]. rewrite <- !firstn_map. apply before_mono, Hle.
Qed.
(** Of an empty layer they abort the program; only the first can be empty. *)
Theorem C110_empty_layer_aborts : forall opt fuel (s s' : aos') k l, std_ok (std E) -> before_round E s -> aos_run E opt fuel s = Ok s' ->
  nth_error (layers s') k = Some l -> members l = [] -> k = 0%nat /\ layerBestState (electrons s') l = Abort /\ layerBestEnergy (electrons s') l = Abort.
Proof.
  intros opt fuel s s' k l Hstd B H Hk Hm. destruct (run_settled opt fuel s s' Hstd B H) as (s0 & G0 & _ & H0 & G').
  destruct (settle_layers E opt s0 s' Hstd G0 H0) as (kept & t & _ & P & O & Hml). destruct (make_layers_nonempty E _ _ _ Hml) as (M1 & M2 & M0).
  split.
  - destruct k as [|k]; [reflexivity|]. exfalso. assert (Hk' : nth_error (map members (layers s')) (S k) = Some (members l)) by (apply map_nth_error, Hk). rewrite Hm in Hk'.
    eapply M1; [|exact Hk'|reflexivity]. lia.
  - unfold layerBestState, layerBestEnergy, layer_electron. rewrite Hm. destruct (l_best l); split; reflexivity.
Qed.
End P.
Print Assumptions C110_layers_partition.
Print Assumptions C110_layer_best.
Print Assumptions C110_empty_layer_aborts.
(** Twenty electrons in several layers: the energies at the layers' fronts. *)
Example ex_C110 : std_ok std_inst /\ exists s, lives (demo std_inst true coord0) (small_opt 20 5 1) (map Z.of_nat (seq 7 24 ++ repeat 250%nat 100)) 9 = Ok s /\
  ((1 <? length (layers s))%nat &&
   forallb (fun l => match layerBestEnergy (electrons s) l with Ok v => forallb (fun p => match deref (electrons s) p with Ok x => fle v (energy x) | _ => false end) (members l) | _ => false end) (layers s)) = true.
Proof. split; [apply std_inst_ok|]. apply Props_SOGA.by_test. vm_compute. reflexivity. Qed.
