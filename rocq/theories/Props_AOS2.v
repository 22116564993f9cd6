(** C71: atomic orbital search, the moves. *)
From Coq Require Import List Arith ZArith Bool Lia Reals Lra Permutation.
From Flocq Require Import Core BinarySingleNaN.
From Verif Require Import Base Fl FlFacts Rng RandProofs StdOps ListFacts Box BoxProofs AOS AOSSpec AOSMove
  AOSProofs AOSProofs2 AOSProofs3 AOSProofs4 AOSProofs5 AOSProofs6 AOSProofs7 Props_Box Props_AOS.
From Verif Require Props_SOGA.
Import ListNotations.
Open Scope Z_scope.

(** A round appends exactly one electron per electron of the layers, in their
    order; where it is put is what the published update rule says, as computed
    in double precision, constrained to the box. *)
Theorem C71_moves : forall (R : rng_ops) (E : env R) (opt : aos_option) (s s1 s2 : aos (G R)),
  std_ok (std E) -> rng_ok R -> before_round E s -> settle E opt s = Ok s1 -> excite E opt s1 = Ok s2 ->
  exists new, electrons s2 = electrons s1 ++ new /\ Forall2 (child_of E opt s1) (in_layers (layers s2)) new.
Proof. intros R E opt s s1 s2 Hstd HR B H1 H2. apply (excite_children E opt HR s s1 s2 Hstd (before_good E s Hstd B) H1 H2). Qed.
Print Assumptions C71_moves.
(** Three electrons in up to two layers; the round runs, and gives three more,
    some with a photon, some without. *)
Example C71_example : let E := demo std_inst false coord0 in let opt := small_opt 3 2 4 in
  std_ok std_inst /\ rng_ok replay /\
  exists s1 s2 : aos (list Z), (do s <- aos_initializePop E opt (blank [200; 150; 100; 50; 20; 250; 30; 250; 30; 250; 250]);
    settle E opt s) = Ok s1 /\ excite E opt s1 = Ok s2 /\
    ((length (electrons s1) =? 3)%nat && (length (electrons s2) =? 6)%nat && (length (in_layers (layers s2)) =? 3)%nat) = true.
Proof.
  intros E opt. split; [apply std_inst_ok|]. split; [apply replay_ok|].
  assert (T : exists s1, (do s <- aos_initializePop E opt (blank [200; 150; 100; 50; 20; 250; 30; 250; 30; 250; 250]); settle E opt s) = Ok s1 /\
    (match excite E opt s1 with Ok s2 => (length (electrons s1) =? 3)%nat && (length (electrons s2) =? 6)%nat && (length (in_layers (layers s2)) =? 3)%nat | _ => false end) = true)
    by (apply Props_SOGA.by_test; vm_compute; reflexivity).
  destruct T as (s1 & H1 & T). exists s1. revert T. generalize (excite E opt s1). intros [s2| | |] T; [|discriminate T..].
  exists s2. split; [exact H1|]. split; [reflexivity|exact T].
Qed.
