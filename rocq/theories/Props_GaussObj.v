(** C81: the infinite box as an object, with its references, over doubles and floats. *)
From Coq Require Import List Arith ZArith Bool Lia.
From Flocq Require Import Core BinarySingleNaN.
From Verif Require Import Base Fl Rng Box BoxObj BoxObjProofs BoxF GaussObj.
Import ListNotations.
Open Scope Z_scope.

(** The value a call writes to each member, by the setter or through the reference. *)
Definition w_mu {T} (c : qcall T) : option T := match c with QSetMu m | QRefMu m => Some m | _ => None end.
Definition w_sigma {T} (c : qcall T) : option T := match c with QSetSigma s | QRefSigma s => Some s | _ => None end.
Definition w_delta {T} (c : qcall T) : option T := match c with QSetDelta d | QRefDelta d => Some d | _ => None end.
Definition w_size {T} (c : qcall T) : option (Z * Z) := match c with QSetDims r c => Some (r, c) | _ => None end.
(** The last value written, or [d] if there was none. *)
Definition latest {C X} (f : C -> option X) (d : option X) (h : list C) : option X :=
  fold_left (fun v c => match f c with Some x => Some x | None => v end) h d.
Definition known {X} (o : option X) : res X := match o with Some x => Ok x | None => UB end.

Section Any.
Context {T : Type} (positive : T -> bool).
Notation drive := (qdrive positive).
Lemma qstep_writes b (c : qcall T) b' : qstep positive b c = Ok b' ->
  q_mu b' = latest w_mu (q_mu b) [c] /\ q_sigma b' = latest w_sigma (q_sigma b) [c] /\ q_delta b' = latest w_delta (q_delta b) [c] /\ q_size b' = latest w_size (q_size b) [c].
Proof.
  destruct c; cbn [qstep]; intros H; repeat match type of H with context [if ?x then _ else _] => destruct x; try discriminate H end; injection H as <-; repeat split; reflexivity.
Qed.
Lemma qdrive_writes h : forall b b', drive b h = Ok b' ->
  q_mu b' = latest w_mu (q_mu b) h /\ q_sigma b' = latest w_sigma (q_sigma b) h /\ q_delta b' = latest w_delta (q_delta b) h /\ q_size b' = latest w_size (q_size b) h.
Proof.
  induction h as [|c h IH]; intros b b' H; cbn [qdrive] in H; [injection H as <-; repeat split; reflexivity|].
  apply bind_Ok in H. destruct H as (b1 & H1 & H2). destruct (qstep_writes b c b1 H1) as (E1 & E2 & E3 & E4). destruct (IH b1 b' H2) as (F1 & F2 & F3 & F4).
  rewrite F1, F2, F3, F4, E1, E2, E3, E4. repeat split; reflexivity.
Qed.
(** mu(), sigma(), delta(), variance() and dimensions() give what was last written, by a
    setter or through a reference; reading what was never written is undefined. *)
Theorem C81_accessors : forall times fx h b, drive (q_fresh fx) h = Ok b ->
  get_mu b = known (latest w_mu None h) /\ get_sigma b = known (latest w_sigma None h) /\ get_delta b = known (latest w_delta None h) /\
  get_variance times b = match latest w_sigma None h with Some s => Ok (times s s) | None => UB end /\
  (forall r c, latest w_size fx h = Some (r, c) -> 0 <= r * c < 2147483648 -> get_dims b = Ok (r * c)) /\ (latest w_size fx h = None -> get_dims b = UB).
Proof.
  intros times fx h b H. destruct (qdrive_writes h _ _ H) as (E1 & E2 & E3 & E4). cbn [q_fresh q_mu q_sigma q_delta q_size] in *.
  unfold get_mu, get_sigma, get_delta, get_variance, get_dims. rewrite E1, E2, E3, E4. split; [reflexivity|]. split; [reflexivity|]. split; [reflexivity|].
  split; [destruct (latest w_sigma None h); reflexivity|]. split.
  - intros r c E Hr. rewrite E. apply int32_ok, Hr.
  - intros E. rewrite E. reflexivity.
Qed.
(** Which calls are rejected. *)
Theorem C81_setters_rejected_exactly : forall b (c : qcall T),
  (qstep positive b c = Abort <->
     match c with QSetSigma s => positive s = false | QSetDelta d => positive d = false | QSetDims r k => r <= 0 \/ k <= 0 | _ => False end) /\
  (qstep positive b c = Abort \/ exists b', qstep positive b c = Ok b').
Proof.
  intros b c. destruct c as [m|s|d|r k|m|s|d]; cbn [qstep]; try (split; [split; [discriminate|intros []]|eauto]).
  - destruct (positive s); (split; [split; congruence|eauto]).
  - destruct (positive d); (split; [split; congruence|eauto]).
  - destruct (Z.leb_spec r 0), (Z.leb_spec k 0); cbn [orb]; (split; [split; [try discriminate; lia|try reflexivity; lia]|eauto]).
Qed.
(** The references are not checked: after any history, any value -- a negative sigma, say
    -- can be written, and is used. *)
Theorem C81_reference_unchecked_refuted : forall fx h b x, drive (q_fresh fx) h = Ok b ->
  exists b', drive (q_fresh fx) (h ++ [QRefSigma x; QRefDelta x]) = Ok b' /\ get_sigma b' = Ok x /\ get_delta b' = Ok x.
Proof.
  intros fx h b x H. exists (mkGauss (q_mu b) (Some x) (Some x) (q_size b)). split; [|split; reflexivity].
  assert (App : forall h1 b0 h2, drive b0 (h1 ++ h2) = (do b1 <- drive b0 h1; drive b1 h2)).
  { induction h1 as [|c h1 IH]; intros b0 h2; cbn [qdrive app]; [reflexivity|]. destruct (qstep positive b0 c); cbn [bind]; try reflexivity. apply IH. }
  rewrite App, H. reflexivity.
Qed.
End Any.

(** Over doubles and without the references this is the box of C81_gaussian_box. *)
Definition to_g (c : gcall) : qcall double :=
  match c with SetMu m => QSetMu m | SetSigma s => QSetSigma s | SetGDelta d => QSetDelta d | SetGDims r c => QSetDims r c end.
Theorem C81_setters_only : forall fx h, gdrive (g_fresh fx) h = (do b <- qdrive (flt d0) (q_fresh fx) (map to_g h); Ok (as_gbox b)).
Proof.
  intros fx h. change (g_fresh fx) with (as_gbox (q_fresh fx)). generalize (@q_fresh double fx). induction h as [|c h IH]; intros b; [reflexivity|]. cbn [map qdrive gdrive].
  assert (E : gstep (as_gbox b) c = (do b' <- qstep (flt d0) b (to_g c); Ok (as_gbox b'))).
  { destruct c; cbn [gstep to_g qstep]; try reflexivity; match goal with |- context [if ?x then _ else _] => destruct x end; reflexivity. }
  rewrite E. destruct (qstep (flt d0) b (to_g c)); cbn [bind]; [apply IH|reflexivity..].
Qed.
(** Over floats: once mu, sigma and the size are written, initialize() gives the
    draws of C91's box over floats; what is missing is read uninitialised. *)
Theorem C81_float_box : forall R norm positive fx h b r c, qdrive positive (q_fresh fx) h = Ok b -> latest w_size fx h = Some (r, c) -> 1 <= r * c < 2147483648 ->
  (forall g, q_initializeF R norm b g = match latest w_mu None h, latest w_sigma None h with Some m, Some s => Ok (g_initializeF R norm (r * c) m s g) | _, _ => UB end) /\
  (forall v g, Z.of_nat (length v) = r * c -> q_applyDeltaF R b v g = match latest w_delta None h with Some d => g_applyDeltaF R (r * c) d v g | None => UB end) /\
  (forall v g, Z.of_nat (length v) <> r * c -> q_applyDeltaF R b v g = Abort).
Proof.
  intros R norm positive fx h b r c H E Hn. destruct (C81_accessors positive (fun x _ => x) fx h b H) as (A1 & A2 & A3 & _ & A5 & _). specialize (A5 r c E ltac:(lia)).
  unfold q_initializeF, q_applyDeltaF. rewrite A1, A2, A3, A5. cbn [bind]. destruct (Z.leb_spec (r * c) 0); [lia|]. split; [|split].
  - intros g. destruct (latest w_mu None h), (latest w_sigma None h); reflexivity.
  - intros v g L. rewrite L, Z.eqb_refl. cbn [negb]. destruct (latest w_delta None h); reflexivity.
  - intros v g L. destruct (Z.eqb_spec (Z.of_nat (length v)) (r * c)); [contradiction|]. reflexivity.
Qed.
Print Assumptions C81_accessors.
Print Assumptions C81_setters_rejected_exactly.
Print Assumptions C81_reference_unchecked_refuted.
Print Assumptions C81_setters_only.
Print Assumptions C81_float_box.
(** A float box is set up, then sigma is negated through the reference. *)
Definition story : list (qcall float) := [QSetMu f1; QSetDims 2 3; QSetSigma f1; QSetDelta f1; QRefSigma (f_of_Z (-1))].
Example ex_C81_story : (match qdrive (flt f0) (q_fresh None) story with
    | Ok b => match get_dims b, get_sigma b with Ok n, Ok s => (n =? 6) && feq s (f_of_Z (-1)) | _, _ => false end
    | _ => false end) = true /\ latest w_size None story = Some (2, 3).
Proof. split; vm_compute; reflexivity. Qed.
