(** The benchmark functions over the real numbers: any number of variables. *)
From Coq Require Import List Arith ZArith Reals Lra Lia Bool Psatz.
From Verif Require Import Base Bench BenchR.
Import ListNotations.
Open Scope R_scope.

Definition sumR (l : list R) : R := fold_right Rplus 0 l.
Lemma fold_left_sum (f : R -> R) l : forall s, fold_left (fun s x => s + f x) l s = s + sumR (map f l).
Proof. induction l as [|x l IH]; intros s; cbn; [ring|]. rewrite IH. unfold sumR. cbn. ring. Qed.
Lemma fold_left_sum2 {A} (f : A -> R) l : forall s, fold_left (fun s x => s + f x) l s = s + sumR (map f l).
Proof. induction l as [|x l IH]; intros s; cbn; [ring|]. rewrite IH. unfold sumR. cbn. ring. Qed.
Lemma sumR_nonneg l : (forall x, In x l -> 0 <= x) -> 0 <= sumR l.
Proof.
  induction l as [|x l IH]; intros H; cbn; [lra|]. pose proof (H x (or_introl eq_refl)). specialize (IH (fun y Hy => H y (or_intror Hy))). unfold sumR in IH. lra.
Qed.
Lemma sumR_zero l : (forall x, In x l -> 0 <= x) -> (sumR l = 0 <-> forall x, In x l -> x = 0).
Proof.
  induction l as [|x l IH]; intros H; cbn; [split; [intros _ y []|reflexivity]|].
  pose proof (H x (or_introl eq_refl)) as Hx. assert (Hl : forall y, In y l -> 0 <= y) by (intros y Hy; apply H; right; exact Hy).
  pose proof (sumR_nonneg l Hl) as S. specialize (IH Hl). unfold sumR in *. split.
  - intros Z y [<-|Hy]; [lra|]. apply IH; [lra|exact Hy].
  - intros Z. rewrite (Z x (or_introl eq_refl)). assert (fold_right Rplus 0 l = 0) by (apply IH; intros y Hy; apply Z; right; exact Hy). lra.
Qed.
Lemma sumR_map_const {A} (l : list A) c : sumR (map (fun _ => c) l) = INR (length l) * c.
Proof. induction l as [|x l IH]; [cbn; ring|]. cbn [map length]. rewrite S_INR. unfold sumR in *. cbn. rewrite IH. ring. Qed.
Lemma sumR_map_plus {A} (f g : A -> R) l : sumR (map (fun x => f x + g x) l) = sumR (map f l) + sumR (map g l).
Proof. induction l as [|x l IH]; unfold sumR in *; cbn; [ring|]. rewrite IH. ring. Qed.
Lemma sumR_map_scal {A} (f : A -> R) c l : sumR (map (fun x => c * f x) l) = c * sumR (map f l).
Proof. induction l as [|x l IH]; unfold sumR in *; cbn; [ring|]. rewrite IH. ring. Qed.
Lemma sumR_map_ext {A} (f g : A -> R) l : (forall x, f x = g x) -> sumR (map f l) = sumR (map g l).
Proof. intros H. rewrite (map_ext _ _ H). reflexivity. Qed.
Lemma sumR_map_le {A} (f g : A -> R) l : (forall x, In x l -> f x <= g x) -> sumR (map f l) <= sumR (map g l).
Proof.
  induction l as [|x l IH]; intros H; unfold sumR in *; cbn; [lra|]. pose proof (H x (or_introl eq_refl)).
  specialize (IH (fun y Hy => H y (or_intror Hy))). lra.
Qed.

(** rastrigin *)
Lemma rastrigin_R (v : list R) : rastrigin Rops v = sumR (map (fun x => x*x + 10 * (1 - cos (2*PI*x))) v).
Proof.
  unfold rastrigin, square. rr. rewrite (fold_left_sum (fun xi => xi * xi - 10 / 10 ^ 0 * cos (PI * (2 / 10 ^ 0) * xi))).
  rewrite <- INR_IZR_INZ. change (@length (num Rops) v) with (@length R v).
  replace (10 / 10 ^ 0 * (INR (length v) / 10 ^ 0)) with (sumR (map (fun _ : R => 10) v)) by (rewrite sumR_map_const; field).
  rewrite <- sumR_map_plus. apply sumR_map_ext. intros x. replace (PI * (2 / 10 ^ 0) * x) with (2*PI*x) by field. field.
Qed.
Lemma rast_term x : 0 <= x*x + 10 * (1 - cos (2*PI*x)) /\ (x*x + 10 * (1 - cos (2*PI*x)) = 0 <-> x = 0).
Proof.
  pose proof (sq_nonneg x). pose proof (COS_bound (2*PI*x)). split; [lra|]. split; [intros Z; apply sq0; lra|].
  intros ->. rewrite !Rmult_0_r, cos_0. ring.
Qed.
Lemma sum_terms (f : R -> R) (p : R) v : (forall x, 0 <= f x /\ (f x = 0 <-> x = p)) ->
  0 <= sumR (map f v) /\ (sumR (map f v) = 0 <-> v = repeat p (length v)).
Proof.
  intros H. assert (P : forall y, In y (map f v) -> 0 <= y) by (intros y Hy; apply in_map_iff in Hy; destruct Hy as (x & <- & _); apply H).
  split; [apply sumR_nonneg, P|]. rewrite (sumR_zero _ P). split.
  - intros Z. clear P. induction v as [|x v IH]; [reflexivity|]. cbn. f_equal.
    + apply H, Z. left. reflexivity.
    + apply IH. intros y Hy. apply Z. right. exact Hy.
  - intros Z y Hy. apply in_map_iff in Hy. destruct Hy as (x & <- & Hx). rewrite Z in Hx. apply repeat_spec in Hx. apply H, Hx.
Qed.
Lemma sphere_R eig (v : list R) : sphere Rops eig v = sumR (map (fun x => x*x) v).
Proof. unfold sphere, square. rr. destruct eig; [reflexivity|]. rewrite (fold_left_sum (fun i => i * i)). field. Qed.
Lemma sq_term x : 0 <= x*x /\ (x*x = 0 <-> x = 0).
Proof. split; [apply sq_nonneg|]. split; [apply sq0|intros ->; ring]. Qed.

(** rosenbrock *)
Definition rosenR (v : list R) : R := sumR (map (fun p => 100 * ((snd p - fst p)*(snd p - fst p)) + (1 - fst p)*(1 - fst p)) (pairs v)).
Lemma rosenbrock_R eig (v : list R) : v <> [] -> rosenbrock Rops eig v = Ok (rosenR v).
Proof.
  intros H. unfold rosenbrock. destruct v as [|x t] eqn:Ev; [congruence|]. rewrite <- Ev. f_equal. unfold rosenR, square. rr. destruct eig.
  - fold (sumR (map (fun p => (1 / 10 ^ 0 - fst p) * (1 / 10 ^ 0 - fst p)) (pairs v))).
    fold (sumR (map (fun p => (fst p - snd p) * (fst p - snd p)) (pairs v))).
    rewrite <- sumR_map_scal, <- sumR_map_plus. apply sumR_map_ext. intros p. field.
  - rewrite fold_left_sum2. replace (0 / 10 ^ 0) with 0 by field. rewrite Rplus_0_l. apply sumR_map_ext. intros p. field.
Qed.
Lemma pairs_ones v : (1 < length v)%nat -> (forall p, In p (pairs v) -> fst p = 1 /\ snd p = 1) -> v = repeat 1 (length v).
Proof.
  induction v as [|x v IH]; intros L H; [cbn in L; lia|]. destruct v as [|y v]; [cbn in L; lia|].
  destruct (H (x, y)) as (A & B); [left; reflexivity|]. cbn in A, B. subst x y. cbn [length repeat]. f_equal.
  destruct v as [|z v]; [reflexivity|]. apply IH; [cbn; lia|]. intros p Hp. apply H. right. exact Hp.
Qed.
Lemma pairs_In {A} (v : list A) p : In p (pairs v) -> In (fst p) v /\ In (snd p) v.
Proof.
  induction v as [|x v IH]; [intros []|]. destruct v as [|y v]; [intros []|]. intros [<-|H]; [cbn; auto|]. apply IH in H. cbn in *. tauto.
Qed.
Lemma rosen_min v : 0 <= rosenR v /\ ((1 < length v)%nat -> (rosenR v = 0 <-> v = repeat 1 (length v))).
Proof.
  unfold rosenR. assert (P : forall y, In y (map (fun p => 100 * ((snd p - fst p)*(snd p - fst p)) + (1 - fst p)*(1 - fst p)) (pairs v)) -> 0 <= y).
  { intros y Hy. apply in_map_iff in Hy. destruct Hy as (p & <- & _). pose proof (sq_nonneg (snd p - fst p)). pose proof (sq_nonneg (1 - fst p)). lra. }
  split; [apply sumR_nonneg, P|]. intros L. rewrite (sumR_zero _ P). split.
  - intros Z. apply pairs_ones; [exact L|]. intros p Hp. specialize (Z _ (in_map _ _ _ Hp)). cbn beta in Z.
    pose proof (sq_nonneg (snd p - fst p)). pose proof (sq_nonneg (1 - fst p)).
    assert (1 - fst p = 0) by (apply sq0; lra). assert (snd p - fst p = 0) by (apply sq0; lra). lra.
  - intros Z y Hy. apply in_map_iff in Hy. destruct Hy as (p & <- & Hp). apply pairs_In in Hp. rewrite Z in Hp. destruct Hp as (A & B).
    apply repeat_spec in A, B. rewrite A, B. ring.
Qed.
(** styblinskiTang *)
Definition tangR (v : list R) : R := sumR (map (fun x => x*x*x*x - 16*(x*x) + 5*x) v).
Lemma tang_R (v : list R) : styblinskiTang Rops false v = tangR v / 2 /\ styblinskiTang Rops true v = tangR v.
Proof.
  unfold styblinskiTang, square, tangR. rr. split.
  - rewrite (fold_left_sum (fun x => x * x * x * x - 16 / 10 ^ 0 * x * x + 5 / 10 ^ 0 * x)).
    rewrite (sumR_map_ext _ (fun x => x*x*x*x - 16*(x*x) + 5*x)); [field|]. intros x. field.
  - change (fold_right Rplus 0) with sumR. apply sumR_map_ext. intros x. field.
Qed.
Lemma tang_term x : - (783324/10000) <= x*x*x*x - 16*(x*x) + 5*x.
Proof.
  replace (x*x*x*x - 16*(x*x) + 5*x) with ((x*x - 84305/10000)*(x*x - 84305/10000) + 861/1000 * ((x + 2500/861)*(x + 2500/861))
    - (84305/10000*(84305/10000) + 6250/861)) by field.
  pose proof (sq_nonneg (x*x - 84305/10000)). pose proof (sq_nonneg (x + 2500/861)). lra.
Qed.
Lemma tang_min v : - (783324/10000) * INR (length v) <= tangR v.
Proof.
  unfold tangR. rewrite Rmult_comm, <- sumR_map_const. apply sumR_map_le. intros x _. apply tang_term.
Qed.
Lemma tang_at n : tangR (repeat (-29035/10000) n) <= - (783322/10000) * INR n.
Proof.
  unfold tangR. induction n as [|n IH]; [cbn; lra|]. cbn [repeat map]. rewrite S_INR. unfold sumR in *. cbn. lra.
Qed.
