(** A fitness function that is only meant for a region: as long as the operators
    keep the variables inside, what it gives elsewhere does not matter. *)
From Coq Require Import List Arith ZArith Bool Lia.
From Flocq Require Import BinarySingleNaN.
From Verif Require Import Base Fl Rng StdOps GABase SOGA MOGA VarInv.
Import ListNotations.
Open Scope Z_scope.

Section G.
Context {V F X : Type} (R : rng_ops) (fs : user_funs V F (G R)) (f' : V -> F) (opt : ga_option) (junk : F).
Context (hk : hooks V F X (G R)) (P : V -> Prop).
Definition with_f : user_funs V F (G R) := mkFuns (iFun fs) f' (cFun fs) (mFun fs).
Definition agree : Prop := forall v, P v -> f' v = fFun fs v.

Lemma compute_congr (c : core V F X (G R)) : agree -> allP P (pop c) -> computeAllFitness R with_f c = computeAllFitness R fs c.
Proof.
  intros HA H. unfold computeAllFitness. f_equal. apply map_ext_in. intros x Hx. unfold evaluated.
  destruct (gcomp x); [reflexivity|]. cbn [with_f fFun]. rewrite (HA _ (H x Hx)). reflexivity.
Qed.
Lemma loop_congr rec_on n : rng_ok R -> closed_ops R fs P -> keeps_vars R hk -> agree -> forall s : ga V F X (G R),
  allP P (pop (ga_core s)) -> ga_loop R with_f opt junk hk rec_on n s = ga_loop R fs opt junk hk rec_on n s.
Proof.
  intros HR HC HK HA. induction n as [|n IH]; intros s H; cbn [ga_loop]; [reflexivity|]. cbv zeta.
  unfold evaluate_and_select at 1. rewrite (compute_congr _ HA H). fold (evaluate_and_select R fs hk (ga_core s)).
  destruct (evaluate_and_select R fs hk (ga_core s)) as [c| | |] eqn:Ec; cbn [bind]; try reflexivity.
  destruct (if rec_on then do b <- hk_best hk c; Ok (record s ++ [b]) else Ok (record s)) as [r| | |]; cbn [bind]; try reflexivity.
  destruct (_ || _); [reflexivity|]. change (breed R with_f opt junk c) with (breed R fs opt junk c).
  apply IH. cbn [ga_core]. apply breed_P; [exact HR|exact HC|]. exact (es_P R fs hk P _ _ HK H Ec).
Qed.
Lemma run_congr rec_on vec_max n (s : ga V F X (G R)) : rng_ok R -> closed_ops R fs P -> keeps_vars R hk -> agree ->
  allP P (pop (ga_core s)) -> run R with_f opt junk hk rec_on vec_max n s = run R fs opt junk hk rec_on vec_max n s.
Proof. intros HR HC HK HA H. unfold run. destruct (_ && _); [reflexivity|]. apply loop_congr; assumption. Qed.
End G.
