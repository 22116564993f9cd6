(** Order-preserving sub-collections and related list facts. *)
From Coq Require Import List Arith Bool Permutation Lia.
Import ListNotations.

Inductive sublist {A} : list A -> list A -> Prop :=
| sub_nil : sublist [] []
| sub_skip x l l' : sublist l l' -> sublist l (x :: l')
| sub_keep x l l' : sublist l l' -> sublist (x :: l) (x :: l').

Lemma sublist_refl {A} (l : list A) : sublist l l.
Proof. induction l; constructor; assumption. Qed.
Lemma sublist_nil {A} (l : list A) : sublist [] l.
Proof. induction l; constructor; assumption. Qed.
Lemma sublist_trans {A} (a b c : list A) : sublist a b -> sublist b c -> sublist a c.
Proof.
  intros H1 H2. revert a H1. induction H2 as [|x l l' H IH|x l l' H IH]; intros a H1.
  - exact H1.
  - constructor. apply IH, H1.
  - inversion H1; subst; constructor; apply IH; assumption.
Qed.
Lemma sublist_in {A} (a b : list A) x : sublist a b -> In x a -> In x b.
Proof. induction 1; cbn; intuition. Qed.
Lemma sublist_length {A} (a b : list A) : sublist a b -> length a <= length b.
Proof. induction 1; cbn; lia. Qed.
Lemma sublist_map {A B} (f : A -> B) a b : sublist a b -> sublist (map f a) (map f b).
Proof. induction 1; cbn; constructor; assumption. Qed.
Lemma sublist_NoDup {A} (a b : list A) : sublist a b -> NoDup b -> NoDup a.
Proof.
  induction 1 as [|x l l' H IH|x l l' H IH]; intros N; [exact N| |]; inversion N; subst; auto.
  constructor; auto. intros C. eapply sublist_in in C; eauto.
Qed.
Lemma sublist_filter {A} (f : A -> bool) l : sublist (filter f l) l.
Proof. induction l as [|x l IH]; cbn; [constructor|]. destruct (f x); constructor; exact IH. Qed.
Lemma sublist_removelast {A} (l : list A) : sublist (removelast l) l.
Proof.
  induction l as [|x l IH]; [constructor|]. cbn. destruct l; [apply sub_skip, sub_nil|].
  apply sub_keep. exact IH.
Qed.
Lemma sublist_firstn {A} n (l : list A) : sublist (firstn n l) l.
Proof.
  revert n; induction l as [|x l IH]; intros [|n]; cbn; try apply sublist_nil. apply sub_keep, IH.
Qed.
Lemma sublist_skipn {A} n (l : list A) : sublist (skipn n l) l.
Proof.
  revert n; induction l as [|x l IH]; intros [|n]; cbn; try apply sublist_refl. apply sub_skip, IH.
Qed.
Lemma sublist_same_length {A} (a b : list A) : sublist a b -> length a = length b -> a = b.
Proof.
  induction 1 as [|x l l' H IH|x l l' H IH]; cbn; intros E; [reflexivity| |].
  - apply sublist_length in H. lia.
  - f_equal. apply IH. lia.
Qed.
Lemma removelast_length {A} (l : list A) : length (removelast l) = length l - 1.
Proof. induction l as [|x [|y l] IH]; cbn in *; lia. Qed.

Lemma filter_length_split {A} (f : A -> bool) l :
  length (filter f l) + length (filter (fun x => negb (f x)) l) = length l.
Proof. induction l as [|x l IH]; cbn; [reflexivity|]. destruct (f x); cbn; lia. Qed.

(** Members of [l] whose key is in [is]. *)
Definition inb (is : list nat) (i : nat) : bool := existsb (Nat.eqb i) is.
Lemma inb_true is i : inb is i = true <-> In i is.
Proof.
  unfold inb. rewrite existsb_exists. split.
  - intros (y & Hy & E). apply Nat.eqb_eq in E. subst. exact Hy.
  - intros H. exists i. rewrite Nat.eqb_refl. auto.
Qed.
Lemma inb_false is i : inb is i = false <-> ~ In i is.
Proof. rewrite <- inb_true. destruct (inb is i); intuition congruence. Qed.

Lemma filter_in_keys {A} (key : A -> nat) (l : list A) is :
  NoDup (map key l) -> NoDup is -> incl is (map key l) ->
  length (filter (fun x => inb is (key x)) l) = length is.
Proof.
  intros NL NI HI.
  assert (P : Permutation (map key (filter (fun x => inb is (key x)) l)) is).
  { apply NoDup_Permutation.
    - eapply sublist_NoDup; [apply sublist_map, sublist_filter|exact NL].
    - exact NI.
    - intros i. rewrite in_map_iff. split.
      + intros (x & <- & Hx). apply filter_In in Hx. apply inb_true. tauto.
      + intros Hi. specialize (HI i Hi). apply in_map_iff in HI. destruct HI as (x & <- & Hx).
        exists x. split; [reflexivity|]. apply filter_In. split; [exact Hx|]. apply inb_true, Hi. }
  apply Permutation_length in P. rewrite map_length in P. exact P.
Qed.
Lemma filter_notin_keys {A} (key : A -> nat) (l : list A) is :
  NoDup (map key l) -> NoDup is -> incl is (map key l) ->
  length (filter (fun x => negb (inb is (key x))) l) = length l - length is.
Proof.
  intros NL NI HI. pose proof (filter_length_split (fun x => inb is (key x)) l).
  rewrite (filter_in_keys key l is NL NI HI) in H. lia.
Qed.

Lemma filter_filter {A} (f g : A -> bool) l : filter f (filter g l) = filter (fun x => g x && f x) l.
Proof.
  induction l as [|x l IH]; cbn; [reflexivity|]. destruct (g x); cbn; [|exact IH].
  destruct (f x); rewrite IH; reflexivity.
Qed.
Lemma NoDup_map_inj {A B} (f : A -> B) l x y :
  NoDup (map f l) -> In x l -> In y l -> f x = f y -> x = y.
Proof.
  induction l as [|z l IH]; cbn; intros N Hx Hy E; [contradiction|]. inversion N; subst.
  destruct Hx as [<-|Hx], Hy as [<-|Hy]; auto.
  - exfalso. apply H1. rewrite E. apply in_map. exact Hy.
  - exfalso. apply H1. rewrite <- E. apply in_map. exact Hx.
Qed.
