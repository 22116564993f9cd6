(** Specification for C71: where the electrons of a new round are put. *)
From Coq Require Import List Arith ZArith Reals Bool.
From Flocq Require Import Core BinarySingleNaN.
From Verif Require Import Base Fl FlFacts Rng Box AOS AOSSpec.
Import ListNotations.
Open Scope Z_scope.

(** A number drawn from [0,1). *)
Definition drawn01 (x : double) : Prop := fin x /\ (0 <= B2R x < 1)%R.
(** The electrons of the layers from the innermost outwards, each with its layer
    and the number of the layer. *)
Definition in_layers (ls : list layer) : list (nat * layer * nat) :=
  concat (map (fun il => map (fun p => (fst il, snd il, p)) (members (snd il))) (combine (seq 0 (length ls)) ls)).

Section Spec.
Context {R : rng_ops} (E : env R) (opt : aos_option).
Definition at_ (v : list double) (i : nat) : double := nth i v d0.
(** One coordinate of a step towards [best] and away from [mean]. *)
Definition towards (best mean : list double) (i : nat) (a b c : double) : double :=
  fmul a (fsub (fmul b (at_ best i)) (fmul c (at_ mean i))).
(** With a photon: if the electron is better than the mean energy of its layer,
    towards the layer's best electron and away from the layer's mean position;
    otherwise towards bestElectron() and away from the mean position of all
    electrons, divided by the number of the layer counted from 1. *)
Definition photon_move (s : aos (G R)) (parent : electron) (l : layer) (li : nat) (w : list double) : Prop :=
  (e_better E (energy parent) (l_energy l) = true /\
   exists p best, nth_error (members l) (l_best l) = Some p /\ deref (electrons s) p = Ok best /\
     forall i, (i < length w)%nat -> exists a b c, drawn01 a /\ drawn01 b /\ drawn01 c /\
       at_ w i = fadd (at_ (estate parent) i) (towards (estate best) (l_state l) i a b c)) \/
  (e_better E (energy parent) (l_energy l) = false /\
   exists best, bestElectron s = Ok best /\
     forall i, (i < length w)%nat -> exists a b c, drawn01 a /\ drawn01 b /\ drawn01 c /\
       at_ w i = fadd (at_ (estate parent) i) (fdiv (towards (estate best) (b_state s) i a b c) (d_of_Z (Z.of_nat li + 1)))).
(** Without: every coordinate moves by at most the learning rate of the box. *)
Definition random_move (parent : electron) (w : list double) : Prop :=
  forall i, (i < length w)%nat ->
    if eigen E then exists g, at_ w i = fadd (at_ (estate parent) i) (fmul (deltaD (box E) i) (fst (eigen_random E g)))
    else exists u, drawn01 u /\ at_ w i = fadd (at_ (estate parent) i) (affineD (fopp (deltaD (box E) i)) (deltaD (box E) i) u).
(** The new electron that the electron [p] of layer [l], number [li], gives rise to. *)
Definition child_of (s : aos (G R)) (src : nat * layer * nat) (e : electron) : Prop :=
  let '(li, l, p) := src in
  exists parent d w, deref (electrons s) p = Ok parent /\ drawn01 d /\ length w = length (estate parent) /\
    (if fle (photonRate opt) d then photon_move s parent l li w else random_move parent w) /\
    applyConstraintD (box E) w = Ok (estate e) /\ ecomp e = false.
End Spec.
