(** Model of the accessors of a layer: AOS/AOSBoxed.hpp:61-66 [layerBestState],
    [layerBestEnergy].  The layers a user sees are those made by the last
    selectAndMakeLayers (AOS.hpp:92-138) after which no computeLayer has run; their
    layerBestIdx is 0 because std::vector::resize (AOS.hpp:116) value-initialises and Layer
    has no constructor of its own (that is the 0 in AOS.v's selectAndMakeLayers). *)
From Coq Require Import List Arith ZArith Bool.
From Verif Require Import Base Fl Rng AOS.
Import ListNotations.

(** at() throws when there is no such member, in a noexcept function. *)
Definition layer_electron (es : list electron) (l : layer) : res electron :=
  match nth_error (members l) (l_best l) with None => Abort | Some p => deref es p end.
Definition layerBestState (es : list electron) (l : layer) : res (list double) := do e <- layer_electron es l; Ok (estate e).
Definition layerBestEnergy (es : list electron) (l : layer) : res double := do e <- layer_electron es l; Ok (energy e).
