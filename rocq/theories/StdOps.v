(** The parts of the C++ standard library whose result is not fully
    determined: std::sort (unstable) and the iteration order of unordered
    containers. *)
From Coq Require Import List Permutation Sorted Bool.
Import ListNotations.

Record std_ops := mkStd {
  sort : forall A : Type, (A -> A -> bool) -> list A -> list A;
  umap_order : forall A : Type, list A -> list A
}.
Arguments sort _ {A}. Arguments umap_order _ {A}.

(** Requirement of the standard on a comparator (strict weak ordering), on the
    elements that are sorted. *)
Definition strict_weak {A} (lt : A -> A -> bool) (l : list A) : Prop :=
  (forall a, In a l -> lt a a = false) /\
  (forall a b c, In a l -> In b l -> In c l ->
     lt a b = true -> lt b c = true -> lt a c = true) /\
  (forall a b c, In a l -> In b l -> In c l ->
     lt a b = true -> lt a c = true \/ lt c b = true).

Definition sorted_by {A} (lt : A -> A -> bool) (l : list A) : Prop :=
  StronglySorted (fun a b => lt b a = false) l.

(** What the standard promises. *)
Definition std_ok (s : std_ops) : Prop :=
  (forall A (lt : A -> A -> bool) l, strict_weak lt l ->
     Permutation l (sort s lt l) /\ sorted_by lt (sort s lt l)) /\
  (forall A (l : list A), Permutation l (umap_order s l)).

(** An instance: insertion sort and insertion order. *)
Fixpoint insert {A} (lt : A -> A -> bool) (x : A) (l : list A) : list A :=
  match l with
  | [] => [x]
  | y :: t => if lt y x then y :: insert lt x t else x :: y :: t
  end.
Definition isort {A} (lt : A -> A -> bool) (l : list A) : list A :=
  fold_right (insert lt) [] l.
Definition std_inst : std_ops := {| sort := @isort; umap_order := fun A l => l |}.

Lemma insert_perm {A} (lt : A -> A -> bool) x l : Permutation (x :: l) (insert lt x l).
Proof.
  induction l as [|y l IH]; cbn; [reflexivity|]. destruct (lt y x); [|reflexivity].
  rewrite perm_swap. constructor. exact IH.
Qed.
Lemma isort_perm {A} (lt : A -> A -> bool) l : Permutation l (isort lt l).
Proof.
  induction l as [|x l IH]; cbn; [reflexivity|].
  rewrite <- insert_perm. constructor. exact IH.
Qed.

Lemma strict_weak_sub {A} (lt : A -> A -> bool) l l' :
  (forall x, In x l' -> In x l) -> strict_weak lt l -> strict_weak lt l'.
Proof. intros S (H1 & H2 & H3). repeat split; eauto. Qed.

Lemma insert_sorted {A} (lt : A -> A -> bool) x l :
  strict_weak lt (x :: l) -> sorted_by lt l -> sorted_by lt (insert lt x l).
Proof.
  induction l as [|y l IH]; intros SW SL; cbn; [constructor; constructor|].
  inversion SL as [|? ? SL' F]; subst. destruct SW as (I & T & W). rewrite Forall_forall in F.
  destruct (lt y x) eqn:E.
  - constructor.
    + apply IH; [|exact SL']. apply (strict_weak_sub lt (x :: y :: l)).
      * cbn; tauto.
      * repeat split; assumption.
    + apply Forall_forall. intros z Hz.
      apply (Permutation_in z (Permutation_sym (insert_perm lt x l))) in Hz.
      destruct Hz as [<-|Hz]; [|apply F, Hz].
      destruct (lt x y) eqn:E2; [|reflexivity].
      rewrite <- (I x (or_introl eq_refl)). symmetry. apply (T x y x); cbn; auto.
  - constructor; [exact SL|]. constructor; [exact E|].
    apply Forall_forall. intros z Hz. destruct (lt z x) eqn:E2; [|reflexivity].
    destruct (W z x y) as [C|C]; cbn; auto; [|congruence].
    rewrite (F z Hz) in C. congruence.
Qed.
Lemma isort_sorted {A} (lt : A -> A -> bool) l : strict_weak lt l -> sorted_by lt (isort lt l).
Proof.
  induction l as [|x l IH]; intros SW; [constructor|]. cbn. apply insert_sorted.
  - apply (strict_weak_sub lt (x :: l)); [|exact SW]. intros z [<-|Hz]; [left; reflexivity|].
    right. eapply Permutation_in; [apply Permutation_sym, isort_perm|exact Hz].
  - apply IH. apply (strict_weak_sub lt (x :: l)); [|exact SW]. cbn; auto.
Qed.
Lemma std_inst_ok : std_ok std_inst.
Proof.
  split.
  - intros A lt l H. split; [apply isort_perm|apply isort_sorted, H].
  - intros A l. reflexivity.
Qed.

(** A sorted list: anything earlier is not beaten by anything later. *)
Lemma sorted_app {A} (lt : A -> A -> bool) l1 l2 :
  sorted_by lt (l1 ++ l2) -> sorted_by lt l1 /\ sorted_by lt l2 /\
  (forall a b, In a l1 -> In b l2 -> lt b a = false).
Proof.
  induction l1 as [|x l1 IH]; cbn; intros H.
  - repeat split; [constructor|exact H|contradiction].
  - inversion H as [|? ? H' F]; subst. destruct (IH H') as (S1 & S2 & C).
    rewrite Forall_forall in F. repeat split.
    + constructor; [exact S1|]. apply Forall_forall. intros z Hz. apply F, in_or_app; auto.
    + exact S2.
    + intros a b [<-|Ha] Hb; [apply F, in_or_app; auto|apply C; assumption].
Qed.
