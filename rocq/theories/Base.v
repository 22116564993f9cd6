(** Shared vocabulary of the model: outcomes of C++ code, size_t / int
    arithmetic, and small list facts. *)
From Coq Require Import List Arith ZArith Lia Bool Permutation.
Import ListNotations.

(** Outcome of running a piece of C++ code.
    [UB]    undefined behaviour (dangling iterator, out of range access, ...)
    [Abort] a failed [assert], or an exception leaving a [noexcept] function
    [Fuel]  the loop did not finish within the given number of steps. *)
Inductive res (A : Type) : Type :=
| Ok (a : A)
| UB
| Abort
| Fuel.
Arguments Ok {A} a.
Arguments UB {A}.
Arguments Abort {A}.
Arguments Fuel {A}.

Definition bind {A B} (m : res A) (k : A -> res B) : res B :=
  match m with Ok a => k a | UB => UB | Abort => Abort | Fuel => Fuel end.

Notation "'do' x <- m ; k" := (bind m (fun x => k))
  (at level 200, x pattern, m at level 100, k at level 200, right associativity).

Lemma bind_Ok {A B} (m : res A) (k : A -> res B) b :
  bind m k = Ok b -> exists a, m = Ok a /\ k a = Ok b.
Proof. destruct m; cbn; intros H; try discriminate; eauto. Qed.

(** 64-bit unsigned and 32-bit signed machine integers. *)
Definition two64 : Z := 18446744073709551616%Z.
Definition wrap64 (z : Z) : Z := Z.modulo z two64.
Definition two32 : Z := 4294967296%Z.
Definition wrap32 (z : Z) : Z := Z.modulo z two32.
(** Conversion to [int] (modular, as on every supported compiler). *)
Definition to_int (z : Z) : Z :=
  (Z.modulo (z + 2147483648) 4294967296 - 2147483648)%Z.

Lemma wrap64_small z : (0 <= z < two64)%Z -> wrap64 z = z.
Proof. intros; apply Z.mod_small; assumption. Qed.
Lemma wrap64_range z : (0 <= wrap64 z < two64)%Z.
Proof. apply Z.mod_pos_bound. reflexivity. Qed.
Lemma to_int_small z : (-2147483648 <= z < 2147483648)%Z -> to_int z = z.
Proof. intros H. unfold to_int. rewrite Z.mod_small; lia. Qed.

Lemma nth_error_ext {A} (l l' : list A) :
  (forall i, nth_error l i = nth_error l' i) -> l = l'.
Proof.
  revert l'. induction l as [|x l IH]; intros [|y l'] H.
  - reflexivity.
  - specialize (H 0%nat). discriminate.
  - specialize (H 0%nat). discriminate.
  - assert (E := H 0%nat). cbn in E. inversion E; subst. f_equal.
    apply IH. intros i. exact (H (S i)).
Qed.

Lemma NoDup_app_l {A} (l l' : list A) : NoDup (l ++ l') -> NoDup l.
Proof.
  induction l as [|x l IH]; intros H; [constructor|]. cbn in H. inversion H; subst. constructor.
  - intros C. apply H2. apply in_or_app. auto.
  - apply IH. assumption.
Qed.
Lemma NoDup_app_r {A} (l l' : list A) : NoDup (l ++ l') -> NoDup l'.
Proof.
  induction l as [|x l IH]; intros H; [exact H|]. cbn in H. inversion H; subst. auto.
Qed.

Lemma Forall2_len {A B} (P : A -> B -> Prop) l l' : Forall2 P l l' -> length l = length l'.
Proof. induction 1; cbn; congruence. Qed.
