(** C109: the names of the enumerators and the menu of SOGA_Ackley. *)
From Coq Require Import List Arith ZArith Bool Lia String.
From Verif Require Import Base SOGA SOGAObj EnumStr.
Import ListNotations.
Open Scope string_scope.
Open Scope Z_scope.

(** * Specification *)
(** The names of the selection methods. *)
Definition method_name (m : method) : string :=
  match m with
  | RouletteWheel => "RouletteWheel" | Tournament => "Tournament" | Truncation => "Truncation" | MonteCarlo => "MonteCarlo"
  | Probability => "Probability" | LinearRank => "LinearRank" | ExponentialRank => "ExponentialRank" | Boltzmann => "Boltzmann"
  | StochasticUniversal => "StochasticUniversal" | EliteReserved => "EliteReserved"
  end.
(** What the other enumerators are called when printed. *)
Definition descriptions : list (kind * string * string) :=
  [ (KContainer, "Std", "C++ std vector/array"); (KContainer, "Eigen", "Eigen Array"); (KContainer, "Custom", "Unknown custom types");
    (KShape, "SQUARE_BOX", "Square box"); (KShape, "RECTANGLE_BOX", "Non-square box");
    (KEncode, "Real", "Real encoding"); (KEncode, "Binary", "Binary encoding"); (KEncode, "Symbolic", "Symbolic encoding") ].
Definition is_value (k : kind) (v : Z) : Prop := exists s, In (s, v) (enumerators k).

(** Every enumerator has a name, and no two of a kind share one. *)
Theorem C109_names_distinct : forall k v w, is_value k v -> is_value k w ->
  (exists s, enum2String k v = Ok s) /\ (enum2String k v = enum2String k w -> v = w).
Proof.
  intros k v w (s & Hs) (t & Ht).
  destruct k; cbn [enumerators In] in Hs, Ht;
    repeat match goal with H : _ \/ _ |- _ => destruct H as [H|H] | H : False |- _ => destruct H end;
    injection Hs as <- <-; injection Ht as <- <-; (split; [eexists; reflexivity|intros H; first [reflexivity|discriminate H]]).
Qed.
(** The enumerators recording, direction and selection method are printed as they are
    written in a program. *)
Theorem C109_printed_as_written : forall k s v, k = KRecord \/ k = KFitness \/ k = KSelect ->
  In (s, v) (enumerators k) -> enum2String k v = Ok s.
Proof.
  intros k s v Hk H. destruct Hk as [->|[->| ->]]; cbn [enumerators In] in H;
    repeat match goal with H : _ \/ _ |- _ => destruct H as [H|H] | H : False |- _ => destruct H end; injection H as <- <-; reflexivity.
Qed.
(** The others are described; each has exactly one description. *)
Theorem C109_described : forall k s v, k = KContainer \/ k = KShape \/ k = KEncode -> In (s, v) (enumerators k) ->
  exists d, In (k, s, d) descriptions /\ enum2String k v = Ok d /\ forall d', In (k, s, d') descriptions -> d' = d.
Proof.
  intros k s v Hk H. destruct Hk as [->|[->| ->]]; cbn [enumerators In] in H;
    repeat match goal with H : _ \/ _ |- _ => destruct H as [H|H] | H : False |- _ => destruct H end; injection H as <- <-;
    (eexists; split; [|split; [reflexivity|intros d' H; cbn [descriptions In] in H;
       repeat match goal with H : _ \/ _ |- _ => destruct H as [H|H] | H : False |- _ => destruct H end; first [discriminate H|injection H as <-; reflexivity]]]);
    cbn [descriptions In]; tauto.
Qed.
(** The menu has ten lines; the method named on a line is the one its number
    selects; every method has a line. *)
Theorem C109_menu : exists l, menu 11 = Ok l /\ (forall f, (11 <= f)%nat -> menu f = Ok l) /\ List.length l = 10%nat /\
  (forall n s, In (n, s) l <-> exists m, select_method n = Some m /\ s = method_name m) /\
  (forall m, exists n, In (n, method_name m) l).
Proof.
  eexists. split; [reflexivity|]. split.
  { intros f Hf. replace f with (11 + (f - 11))%nat by lia. reflexivity. }
  split; [reflexivity|]. split.
  - intros n s. split.
    + intros H. cbn [In] in H. repeat match goal with H : _ \/ _ |- _ => destruct H as [H|H] | H : False |- _ => destruct H end;
        injection H as <- <-; eexists; split; reflexivity.
    + intros (m & Hm & ->). unfold select_method in Hm.
      repeat match type of Hm with context [?a =? ?b] => destruct (Z.eqb_spec a b); [subst; injection Hm as <-; cbn [In method_name]; tauto|] end. discriminate Hm.
  - intros m. destruct m; eexists; cbn [In method_name]; eauto 14.
Qed.
(** A number that is not an enumerator: undefined for recording, direction, shape and
    encoding, ... *)
Theorem C109_other_values_undefined : forall k v, k = KRecord \/ k = KFitness \/ k = KShape \/ k = KEncode ->
  (enum2String k v = UB <-> ~ is_value k v).
Proof.
  intros k v Hk. assert (V : enum2String k v = UB <-> forall p, In p (enumerators k) -> snd p <> v).
  { destruct Hk as [->|[->|[->| ->]]]; cbn [enum2String enumerators In];
      repeat match goal with |- context [v =? ?b] => destruct (Z.eqb_spec v b) end;
      (split; [intros H; try discriminate H; intros p Hp; repeat match goal with H : _ \/ _ |- _ => destruct H as [H|H] | H : False |- _ => destruct H end; subst p; cbn; lia
              |intros H; try reflexivity; exfalso; subst v; first [exact (H _ (or_introl eq_refl) eq_refl)|exact (H _ (or_intror (or_introl eq_refl)) eq_refl)|exact (H _ (or_intror (or_intror (or_introl eq_refl))) eq_refl)]]). }
  rewrite V. split.
  - intros H (s & Hs). apply (H (s, v) Hs). reflexivity.
  - intros H (s & w) Hp E. cbn in E. subst w. apply H. exists s. exact Hp.
Qed.
(** ... but a selection method gets a name whatever the number: that an unknown
    method is told apart from RunTimeSelectMethod is refuted. *)
Theorem C109_unknown_method_refuted : forall v, ~ is_value KSelect v -> enum2String KSelect v = enum2String KSelect 10 /\ select_method v = None.
Proof.
  intros v H. unfold enum2String, select_method.
  repeat match goal with |- context [v =? ?b] => destruct (Z.eqb_spec v b) as [->|]; [exfalso; apply H; eexists; cbn [enumerators In]; eauto 14|] end.
  split; reflexivity.
Qed.
(** Typing a number on the menu makes the method of that line the one a run-time solver
    uses, and changes no other setting; any other number fails an assertion. *)
Theorem C109_typed_number : forall s v l, menu 11 = Ok l ->
  (forall n, In (v, n) l -> exists s' m, apply_setting s (SetSelectMethod (select_method v)) = Ok s' /\ n = method_name m /\
     method_of None s' = m /\ (forall pw ex junk, params_of pw ex junk s' = params_of pw ex junk s) /\ s_opt s' = s_opt s) /\
  ((forall n, ~ In (v, n) l) -> apply_setting s (SetSelectMethod (select_method v)) = Abort).
Proof.
  intros s v l H. destruct C109_menu as (l' & E & _ & _ & Q & _). rewrite E in H. injection H as <-. split.
  - intros n Hn. apply Q in Hn. destruct Hn as (m & -> & ->). eexists. exists m. split; [reflexivity|]. repeat split; reflexivity.
  - intros Hn. destruct (select_method v) as [m|] eqn:Em; [|reflexivity]. exfalso. apply (Hn (method_name m)). apply Q. exists m. split; [exact Em|reflexivity].
Qed.
Print Assumptions C109_typed_number.
Print Assumptions C109_names_distinct.
Print Assumptions C109_printed_as_written.
Print Assumptions C109_described.
Print Assumptions C109_menu.
Print Assumptions C109_other_values_undefined.
Print Assumptions C109_unknown_method_refuted.
Example ex_C109 : is_value KShape 1 /\ enum2String KShape 1 = Ok "Non-square box" /\ enum2String KEncode 3 = UB /\ ~ is_value KEncode 3 /\
  enum2String KSelect 9 = Ok "EliteReserved" /\ select_method 9 = Some EliteReserved.
Proof.
  split; [exists "RECTANGLE_BOX"; cbn; tauto|]. split; [reflexivity|]. split; [reflexivity|]. split; [|split; reflexivity].
  intros (s & H). cbn in H. repeat match goal with H : _ \/ _ |- _ => destruct H as [H|H] | H : False |- _ => destruct H end; discriminate H.
Qed.
