From Coq Require Import List Arith ZArith Reals Bool Lia Lra Permutation Sorted.
From Flocq Require Import Core BinarySingleNaN.
From Verif Require Import Base Fl FlFacts Rng RandProofs StdOps ListFacts Box AOS AOSSpec AOSProofs.
Import ListNotations.
Open Scope Z_scope.

(** * Filling the layers *)
(** The loop, looking at the current layer and the ones to come only. *)
Fixpoint fill' (c : Z) (rest : list Z) (k : Z) (acc : list nat) (ids : list nat) : res (list (list nat)) :=
  match ids with
  | [] => Ok (acc :: map (fun _ => []) rest)
  | x :: t =>
      if c <=? k then
        match rest with
        | [] => UB
        | c' :: rest' => if c' - c <? 0 then Abort else do r <- fill' c' rest' (k + 1) [x] t; Ok (acc :: r)
        end
      else fill' c rest (k + 1) (acc ++ [x]) t
  end.
Lemma set_at_app {A} (l : list A) x t y : set_at (l ++ x :: t) (length l) y = l ++ y :: t.
Proof. induction l as [|z l IH]; cbn; [reflexivity|]. rewrite IH. reflexivity. Qed.
Lemma nth_app_here {A} (l : list A) x t d : nth (length l) (l ++ x :: t) d = x.
Proof. induction l as [|z l IH]; cbn; [reflexivity|exact IH]. Qed.
Lemma nth_error_app_here {A} (l : list A) x t : nth_error (l ++ x :: t) (length l) = Some x.
Proof. induction l as [|z l IH]; cbn; [reflexivity|exact IH]. Qed.
Lemma fill_eq ids : forall pre c rest k lpre acc, length lpre = length pre ->
  fill (pre ++ c :: rest) k (length pre) ids (lpre ++ acc :: map (fun _ => []) rest) =
  (do r <- fill' c rest k acc ids; Ok (lpre ++ r)).
Proof.
  induction ids as [|x t IH]; intros pre c rest k lpre acc L; cbn [fill fill']; [reflexivity|].
  rewrite nth_error_app_here. destruct (c <=? k) eqn:Ck.
  - destruct rest as [|c' rest'].
    + replace (nth_error (pre ++ [c]) (S (length pre))) with (@None Z); [reflexivity|].
      symmetry. apply nth_error_None. rewrite app_length. cbn. lia.
    + replace (pre ++ c :: c' :: rest') with ((pre ++ [c]) ++ c' :: rest') by (rewrite <- app_assoc; reflexivity).
      replace (S (length pre)) with (length (pre ++ [c])) by (rewrite app_length; cbn; lia).
      rewrite nth_error_app_here. destruct (c' - c <? 0); [reflexivity|]. cbn [map].
      replace (lpre ++ acc :: [] :: map (fun _ => []) rest') with ((lpre ++ [acc]) ++ [] :: map (fun _ : Z => [] : list nat) rest')
        by (rewrite <- app_assoc; reflexivity).
      replace (length (pre ++ [c])) with (length (lpre ++ [acc])) at 2 3 by (rewrite !app_length; cbn; lia).
      rewrite nth_app_here, set_at_app. cbn [app]. rewrite IH by (rewrite !app_length; cbn; lia).
      destruct (fill' c' rest' (k + 1) [x] t); cbn [bind]; [rewrite <- app_assoc|..]; reflexivity.
  - rewrite <- L. rewrite nth_app_here, set_at_app. rewrite L. rewrite IH by exact L. reflexivity.
Qed.
Definition last_end (e : Z) (rest : list Z) : Z := last (ends_after e rest) e.
Lemma ends_after_ge rest : forall e x, In x (ends_after e rest) -> e + 1 <= x.
Proof.
  induction rest as [|c rest IH]; intros e x H; cbn in H; [contradiction|]. destruct H as [<-|H]; [lia|].
  apply IH in H. lia.
Qed.
Lemma last_default {A} (l : list A) : forall x d d', last (x :: l) d = last (x :: l) d'.
Proof. induction l as [|y l IH]; intros x d d'; [reflexivity|]. exact (IH y d d'). Qed.
Lemma last_end_cons e c rest : last_end e (c :: rest) = last_end (Z.max c (e + 1)) rest.
Proof.
  unfold last_end. cbn [ends_after]. destruct (ends_after (Z.max c (e + 1)) rest) as [|y l] eqn:Q; [reflexivity|].
  change (last (Z.max c (e + 1) :: y :: l) e) with (last (y :: l) e). apply last_default.
Qed.
Lemma last_end_ge e rest : e <= last_end e rest.
Proof.
  revert e. induction rest as [|c rest IH]; intros e; [unfold last_end; cbn; lia|]. rewrite last_end_cons.
  specialize (IH (Z.max c (e + 1))). lia.
Qed.
Lemma cut_nil {A} es : forall e, cut e es (@nil A) = map (fun _ => []) es.
Proof. induction es as [|x es IH]; intros e; [reflexivity|]. cbn. rewrite firstn_nil, skipn_nil, IH. reflexivity. Qed.
Lemma map_const_len {A B C} (y : C) (l : list A) : forall l' : list B, length l = length l' -> map (fun _ => y) l = map (fun _ => y) l'.
Proof. induction l as [|x l IH]; intros [|x' l'] H; try discriminate; [reflexivity|]. cbn. f_equal. apply IH. cbn in H. lia. Qed.
Lemma ends_after_len rest : forall e, length (ends_after e rest) = length rest.
Proof. induction rest as [|c rest IH]; intros e; cbn; [reflexivity|]. rewrite IH. reflexivity. Qed.
Lemma fill'_cut ids : forall c rest k acc r, fill' c rest k acc ids = Ok r ->
  r = (acc ++ firstn (Z.to_nat (Z.max c k - k)) ids) :: cut (Z.max c k) (ends_after (Z.max c k) rest) (skipn (Z.to_nat (Z.max c k - k)) ids) /\
  k + Z.of_nat (length ids) <= last_end (Z.max c k) rest.
Proof.
  induction ids as [|x t IH]; intros c rest k acc r H; cbn [fill'] in H.
  - injection H as <-. rewrite firstn_nil, skipn_nil, app_nil_r, cut_nil. split.
    + f_equal. apply map_const_len. rewrite ends_after_len. reflexivity.
    + cbn [length]. pose proof (last_end_ge (Z.max c k) rest). lia.
  - destruct (Z.leb_spec c k) as [L|L].
    + destruct rest as [|c' rest']; [discriminate|]. destruct (c' - c <? 0); [discriminate|].
      apply bind_Ok in H. destruct H as (r' & Hr & H). injection H as <-. apply IH in Hr. destruct Hr as (-> & Hl).
      rewrite (Z.max_r c k) by lia. replace (Z.to_nat (k - k)) with 0%nat by lia. cbn [firstn skipn]. rewrite app_nil_r.
      cbn [ends_after cut]. replace (Z.max c' (k + 1) - k) with (1 + (Z.max c' (k + 1) - (k + 1))) by lia.
      rewrite Z2Nat.inj_add by lia. change (Z.to_nat 1) with 1%nat. cbn [Nat.add firstn skipn app]. split; [reflexivity|].
      rewrite last_end_cons. cbn [length]. lia.
    + apply IH in H. destruct H as (-> & Hl).
      rewrite (Z.max_l c k) in * by lia. rewrite (Z.max_l c (k + 1)) in * by lia.
      replace (c - k) with (1 + (c - (k + 1))) by lia. rewrite Z2Nat.inj_add by lia. change (Z.to_nat 1) with 1%nat.
      cbn [Nat.add firstn skipn]. rewrite <- app_assoc. cbn [app]. split; [reflexivity|]. cbn [length]. lia.
Qed.
Lemma fill'_total ids : forall c rest k acc, (forall i x y, nth_error (c :: rest) i = Some x -> nth_error (c :: rest) (S i) = Some y -> x <= y) ->
  k + Z.of_nat (length ids) <= last_end (Z.max c k) rest -> exists r, fill' c rest k acc ids = Ok r.
Proof.
  induction ids as [|x t IH]; intros c rest k acc M H; cbn [fill']; [eauto|]. cbn [length] in H.
  destruct (Z.leb_spec c k) as [L|L].
  - rewrite Z.max_r in H by lia. destruct rest as [|c' rest']; [unfold last_end in H; cbn in H; lia|].
    pose proof (M 0%nat c c' eq_refl eq_refl). destruct (Z.ltb_spec (c' - c) 0); [lia|].
    destruct (IH c' rest' (k + 1) [x]) as (r & ->).
    + intros i a b Ha Hb. apply (M (S i)); assumption.
    + rewrite last_end_cons in H. lia.
    + cbn. eauto.
  - destruct (IH c rest (k + 1) (acc ++ [x]) M) as (r & ->); [|eauto].
    rewrite Z.max_l in * by lia. lia.
Qed.
(** Too many electrons for the boundaries: an index runs out of the layers. *)
Lemma fill'_overrun ids : forall c rest k acc, (forall i x y, nth_error (c :: rest) i = Some x -> nth_error (c :: rest) (S i) = Some y -> x <= y) ->
  last_end (Z.max c k) rest < k + Z.of_nat (length ids) -> fill' c rest k acc ids = UB.
Proof.
  induction ids as [|x t IH]; intros c rest k acc M H; cbn [fill'].
  - cbn [length] in H. pose proof (last_end_ge (Z.max c k) rest). lia.
  - cbn [length] in H. destruct (Z.leb_spec c k) as [L|L].
    + rewrite Z.max_r in H by lia. destruct rest as [|c' rest']; [reflexivity|].
      pose proof (M 0%nat c c' eq_refl eq_refl). destruct (Z.ltb_spec (c' - c) 0); [lia|].
      rewrite IH; [reflexivity| |].
      * intros i a b Ha Hb. apply (M (S i)); assumption.
      * rewrite last_end_cons in H. lia.
    + apply IH; [exact M|]. rewrite Z.max_l in * by lia. lia.
Qed.
Lemma last_two (c e : Z) es : last (c :: es) e = last es c.
Proof. destruct es; [reflexivity|]. change (last (c :: z :: es) e) with (last (z :: es) e). apply last_default. Qed.
Lemma last_ge es : forall c : Z, (forall x, In x es -> c <= x) -> c <= last es c.
Proof.
  induction es as [|y es IH]; intros c H; [cbn; lia|]. rewrite last_two.
  destruct es as [|z es]; [apply H; left; reflexivity|]. rewrite last_two. rewrite <- (last_two z c es).
  apply IH. intros x Hx. apply H. right. exact Hx.
Qed.
Lemma cut_concat {A} es : forall e (l : list A), Z.of_nat (length l) <= last es e - e -> (forall x, In x es -> e <= x) -> StronglySorted Z.le es ->
  concat (cut e es l) = l.
Proof.
  induction es as [|c es IH]; intros e l H G S.
  - cbn in *. destruct l; [reflexivity|cbn in H; lia].
  - cbn [cut concat]. inversion S as [|? ? S' F]; subst. rewrite Forall_forall in F.
    rewrite IH; [apply firstn_skipn| |exact F|exact S'].
    rewrite skipn_length. assert (e <= c) by (apply G; left; reflexivity).
    rewrite last_two in H. pose proof (last_ge es c F). lia.
Qed.
Lemma ends_sorted rest : forall e, StronglySorted Z.le (ends_after e rest).
Proof.
  induction rest as [|c rest IH]; intros e; cbn; [constructor|]. constructor; [apply IH|].
  apply Forall_forall. intros x Hx. apply ends_after_ge in Hx. lia.
Qed.

(** * Removing the empty layers at the end *)
Lemma strip_spec ls : forall r, strip_rev ls = Ok r -> exists n, rev ls = r ++ repeat [] n /\ r <> [] /\ last r [] <> [].
Proof.
  induction ls as [|x ls IH]; intros r H; cbn [strip_rev] in H; [discriminate|]. destruct x as [|y x].
  - apply IH in H. destruct H as (n & Hr & N & L). exists (n + 1)%nat. split; [|auto].
    cbn [rev]. rewrite Hr, <- app_assoc. f_equal. rewrite repeat_app. reflexivity.
  - injection H as <-. exists 0%nat. cbn [repeat]. rewrite app_nil_r. split; [reflexivity|]. cbn [rev]. split.
    + destruct (rev ls); discriminate.
    + rewrite last_last. discriminate.
Qed.
Lemma strip_total ls x : In x ls -> x <> [] -> exists r, strip_rev ls = Ok r.
Proof.
  induction ls as [|y ls IH]; intros H N; [contradiction|]. cbn. destruct y as [|z y]; [|eauto].
  destruct H as [<-|H]; [congruence|auto].
Qed.

Section L.
Context {R : rng_ops} (E : env R).
(** * The boundaries *)
Lemma mapM_Forall2 {A B} (f : A -> res B) l r : mapM f l = Ok r -> Forall2 (fun x y => f x = Ok y) l r.
Proof. apply mapM_ok. Qed.
Lemma cumulate_spec l : forall acc r, cumulate acc l = Ok r ->
  length r = length l /\ forall i, (i < length l)%nat -> nth i r 0 = acc + total_upto i l.
Proof.
  induction l as [|x l IH]; intros acc r H; cbn [cumulate] in H.
  - injection H as <-. split; [reflexivity|]. cbn. lia.
  - destruct (_ && _); [|discriminate]. apply bind_Ok in H. destruct H as (r' & Hr & H). injection H as <-.
    apply IH in Hr. destruct Hr as (L & Hn). split; [cbn; lia|].
    intros [|i] Hi.
    + unfold total_upto. cbn. lia.
    + cbn in Hi. cbn [nth]. rewrite Hn by lia. unfold total_upto.
      change (firstn (S (S i)) (x :: l)) with (x :: firstn (S i) l). cbn [fold_right]. lia.
Qed.
Lemma shares_eq t n : layer_shares E t n = shares E t n.
Proof. unfold layer_shares, shares. rewrite map_map. reflexivity. Qed.
Lemma bounds_spec t n bs : layer_bounds E t n = Ok bs -> shared_out E t n bs /\ length bs = Z.to_nat t.
Proof.
  unfold layer_bounds. intros H. apply bind_Ok in H. destruct H as (counts & Hc & H). apply bind_Ok in H. destruct H as (c & Hs & H).
  injection H as <-. apply mapM_ok in Hc. apply cumulate_spec in Hs. destruct Hs as (L & Hn). rewrite shares_eq in Hc.
  pose proof (Forall2_len _ _ _ Hc) as Lc. split.
  - exists counts. split; [exact Hc|]. rewrite map_length. split; [exact L|]. intros i Hi.
    rewrite (nth_indep _ 0 (cap n 0)) by (rewrite map_length; lia). rewrite map_nth, Hn by exact Hi. unfold cap.
    rewrite Z.add_0_l. destruct (Z.ltb_spec (total_upto i counts) 0), (Z.ltb_spec n (total_upto i counts)),
      (Z.leb_spec 0 (total_upto i counts)), (Z.leb_spec (total_upto i counts) n); cbn; lia.
  - rewrite map_length, L, <- Lc. unfold shares. rewrite map_length, seq_length. reflexivity.
Qed.
(** * All of it *)
Lemma make_layers_spec t ids ls : make_layers E t ids = Ok ls ->
  exists bs n, layer_bounds E t (Z.of_nat (length ids)) = Ok bs /\ length bs = Z.to_nat t /\ 1 <= t /\
    cut 0 (ends bs) ids = ls ++ repeat [] n /\ ls <> [] /\ last ls [] <> [] /\
    Z.of_nat (length ids) <= last (ends bs) 0.
Proof.
  unfold make_layers. intros H. destruct (Z.leb_spec t 0) as [L|L]; [discriminate|].
  apply bind_Ok in H. destruct H as (bs & Hb & H). apply bind_Ok in H. destruct H as (fs & Hf & H).
  pose proof (bounds_spec _ _ _ Hb) as ((counts & _ & Lb & Hn) & Lt).
  destruct bs as [|c rest]; [cbn in Lt; lia|].
  assert (Q : repeat ([] : list nat) (Z.to_nat t) = [] ++ [] :: map (fun _ => []) rest).
  { rewrite <- Lt. cbn. f_equal. clear. induction rest; cbn; f_equal; auto. }
  rewrite Q in Hf. change 0%nat with (length (@nil Z)) in Hf. change (c :: rest) with ([] ++ c :: rest) in Hf.
  rewrite fill_eq in Hf by reflexivity. apply bind_Ok in Hf. destruct Hf as (r & Hr & Hf). injection Hf as <-.
  apply fill'_cut in Hr. destruct Hr as (-> & Hl). apply strip_spec in H. rewrite rev_involutive in H.
  destruct H as (n & Hc & N1 & N2).
  assert (C0 : 0 <= c).
  { specialize (Hn 0%nat). cbn [nth] in Hn. rewrite Hn; [|cbn in Lb; lia]. destruct (Z.leb_spec 0 (total_upto 0 counts)); cbn [andb]; [destruct (_ <=? _)|]; lia. }
  rewrite Z.max_l in * by lia. rewrite Z.sub_0_r in *. cbn [app] in Hc.
  exists (c :: rest), n. split; [exact Hb|]. split; [exact Lt|]. split; [lia|]. cbn [ends cut]. rewrite Z.sub_0_r. split; [exact Hc|].
  split; [exact N1|]. split; [exact N2|]. rewrite Z.add_0_l in Hl. unfold last_end in Hl.
  destruct (ends_after c rest) as [|y l]; [exact Hl|]. change (last (c :: y :: l) 0) with (last (y :: l) 0). rewrite (last_default l y 0 c). exact Hl.
Qed.
Lemma cut_ends_concat {A} bs (l : list A) : (forall c, hd_error bs = Some c -> 0 <= c) -> bs <> [] ->
  Z.of_nat (length l) <= last (ends bs) 0 -> concat (cut 0 (ends bs) l) = l.
Proof.
  intros C N H. destruct bs as [|c rest]; [congruence|]. assert (0 <= c) by (apply C; reflexivity).
  apply cut_concat; [lia| |].
  - intros x [<-|Hx]; [lia|]. apply ends_after_ge in Hx. lia.
  - cbn. constructor; [apply ends_sorted|]. apply Forall_forall. intros x Hx. apply ends_after_ge in Hx. lia.
Qed.
Lemma concat_repeat_nil {A} n : concat (repeat (@nil A) n) = [].
Proof. induction n; cbn; auto. Qed.
Lemma bounds_hd t n bs c : 0 <= n -> layer_bounds E t n = Ok bs -> hd_error bs = Some c -> 0 <= c.
Proof.
  intros Hn H Hh. apply bounds_spec in H. destruct H as ((counts & _ & Lb & Hx) & _). destruct bs as [|c' bs]; [discriminate|].
  injection Hh as ->. specialize (Hx 0%nat). cbn [nth] in Hx. rewrite Hx; [|cbn in Lb; lia].
  destruct (Z.leb_spec 0 (total_upto 0 counts)); cbn [andb]; [destruct (_ <=? _)|]; lia.
Qed.
Lemma make_layers_concat t ids ls : make_layers E t ids = Ok ls -> concat ls = ids.
Proof.
  intros H. apply make_layers_spec in H. destruct H as (bs & n & Hb & Lt & Ht & Hc & _ & _ & Hl).
  rewrite <- (cut_ends_concat bs ids); [|intros c Hh; eapply bounds_hd; [|exact Hb|exact Hh]; lia|destruct bs; [cbn in Lt; lia|discriminate]|exact Hl].
  rewrite Hc, concat_app, concat_repeat_nil, app_nil_r. reflexivity.
Qed.
(** Every layer after the first has an electron, as long as there are layers behind it. *)
Lemma cut_nonempty {A} rest : forall e (l : list A) i x, nth_error (cut e (ends_after e rest) l) i = Some x -> x = [] ->
  forall j y, (i <= j)%nat -> nth_error (cut e (ends_after e rest) l) j = Some y -> y = [].
Proof.
  induction rest as [|c rest IH]; intros e l i x Hi -> j y Hij Hj; cbn [ends_after cut] in *; [destruct i; discriminate|].
  destruct i as [|i].
  - cbn in Hi. injection Hi as Hi. assert (l = []).
    { destruct l as [|a l]; [reflexivity|]. replace (Z.to_nat (Z.max c (e + 1) - e)) with (S (Z.to_nat (Z.max c (e + 1) - e - 1))) in Hi by lia. discriminate. }
    subst. destruct j as [|j]; cbn in Hj; [rewrite firstn_nil in Hj; congruence|].
    rewrite skipn_nil, cut_nil in Hj. clear -Hj. revert Hj. generalize (ends_after (Z.max c (e + 1)) rest). intros l. revert j.
    induction l as [|z l IHl]; intros [|j] Hj; try discriminate; cbn in Hj; [congruence|eauto].
  - destruct j as [|j]; [lia|]. cbn [nth_error] in Hi, Hj. eapply IH; [exact Hi|reflexivity| |exact Hj]. lia.
Qed.
Lemma make_layers_nonempty t ids ls : make_layers E t ids = Ok ls ->
  (forall i l, (1 <= i)%nat -> nth_error ls i = Some l -> l <> []) /\ (length ls <= Z.to_nat t)%nat /\
  (forall bs c l, layer_bounds E t (Z.of_nat (length ids)) = Ok bs -> hd_error bs = Some c -> 1 <= c -> ids <> [] ->
     nth_error ls 0 = Some l -> l <> []).
Proof.
  intros H. apply make_layers_spec in H. destruct H as (bs & n & Hb & Lt & Ht & Hc & N1 & N2 & Hl).
  destruct bs as [|c rest]; [cbn in Lt; lia|]. cbn [ends] in Hc.
  assert (La : nth_error ls (length ls - 1) = Some (last ls [])).
  { clear -N1. induction ls as [|x ls IH]; [congruence|]. destruct ls as [|y ls]; [reflexivity|].
    change (nth_error (y :: ls) (length (y :: ls) - 1) = Some (last (y :: ls) [])) in IH || idtac.
    specialize (IH ltac:(discriminate)). cbn [length] in *. replace (S (S (length ls)) - 1)%nat with (S (S (length ls) - 1)) by lia. exact IH. }
  split; [|split].
  - intros i l Hi Hn Hz. apply N2. destruct i as [|i]; [lia|].
    assert (Li : (S i < length ls)%nat) by (apply nth_error_Some; congruence).
    cbn [cut] in Hc. destruct ls as [|l0 ls]; [discriminate|]. cbn [app] in Hc. injection Hc as Hh Hc.
    assert (T : forall k v, nth_error ls k = Some v -> nth_error (cut c (ends_after c rest) (skipn (Z.to_nat (c - 0)) ids)) k = Some v).
    { intros k v Hk. rewrite Hc. rewrite nth_error_app1; [exact Hk|]. apply nth_error_Some. congruence. }
    cbn [nth_error length] in *.
    eapply (cut_nonempty rest c _ i); [apply T, Hn|exact Hz| |apply T].
    2: { replace (S (length ls) - 1)%nat with (S (length ls - 1)) in La by lia. cbn [nth_error] in La. exact La. }
    lia.
  - assert (Lc : length (cut 0 (c :: ends_after c rest) ids) = length (c :: rest)).
    { assert (Q : forall (es : list Z) e (l : list nat), length (cut e es l) = length es) by (induction es as [|z es IHe]; intros e l; cbn; [reflexivity|rewrite IHe; reflexivity]).
      rewrite Q. cbn. rewrite ends_after_len. reflexivity. }
    rewrite Hc, app_length in Lc. lia.
  - intros bs' c' l Hb' Hh Hc' Hi Hn. rewrite Hb in Hb'. injection Hb' as <-. injection Hh as ->.
    destruct ls as [|l0 ls]; [congruence|]. injection Hn as ->. cbn [cut app] in Hc. injection Hc as <- _.
    destruct ids as [|a ids]; [congruence|]. replace (Z.to_nat (c' - 0)) with (S (Z.to_nat (c' - 1))) by lia. discriminate.
Qed.
(** When the layers can be filled. *)
Definition layers_fit (t n : Z) : Prop :=
  exists bs, layer_bounds E t n = Ok bs /\
    (forall i x y, nth_error bs i = Some x -> nth_error bs (S i) = Some y -> x <= y) /\
    (forall c, hd_error bs = Some c -> 1 <= c) /\ n <= last (ends bs) 0.
Lemma make_layers_total t ids : 1 <= t -> ids <> [] -> layers_fit t (Z.of_nat (length ids)) -> exists ls, make_layers E t ids = Ok ls.
Proof.
  intros Ht Hi (bs & Hb & M & C & Hl). unfold make_layers. destruct (Z.leb_spec t 0); [lia|]. rewrite Hb. cbn [bind].
  pose proof (bounds_spec _ _ _ Hb) as (_ & Lt). destruct bs as [|c rest]; [cbn in Lt; lia|].
  assert (Q : repeat ([] : list nat) (Z.to_nat t) = [] ++ [] :: map (fun _ => []) rest).
  { rewrite <- Lt. cbn. f_equal. clear. induction rest; cbn; f_equal; auto. }
  rewrite Q. change (c :: rest) with ([] ++ c :: rest) at 1.
  pose proof (fill_eq ids [] c rest 0 [] [] eq_refl) as F. cbn [length] in F. rewrite F. clear F.
  assert (C1 : 1 <= c) by (apply C; reflexivity).
  assert (Hl' : 0 + Z.of_nat (length ids) <= last_end (Z.max c 0) rest).
  { rewrite Z.max_l by lia. unfold last_end. cbn [ends] in Hl. destruct (ends_after c rest) as [|y l]; [exact Hl|].
    change (last (c :: y :: l) 0) with (last (y :: l) 0) in Hl. rewrite (last_default l y 0 c) in Hl. lia. }
  destruct (fill'_total ids c rest 0 [] M Hl') as (r & Hr). rewrite Hr. cbn [bind app].
  apply fill'_cut in Hr. destruct Hr as (-> & _). rewrite Z.max_l by lia.
  apply (strip_total _ (firstn (Z.to_nat (c - 0)) ids)).
  - apply -> in_rev. left. reflexivity.
  - destruct ids; [congruence|]. replace (Z.to_nat (c - 0)) with (S (Z.to_nat (c - 1))) by lia. discriminate.
Qed.
(** ... and when not. *)
Lemma make_layers_overrun t ids bs : 1 <= t -> layer_bounds E t (Z.of_nat (length ids)) = Ok bs ->
  (forall i x y, nth_error bs i = Some x -> nth_error bs (S i) = Some y -> x <= y) ->
  last (ends bs) 0 < Z.of_nat (length ids) -> make_layers E t ids = UB.
Proof.
  intros Ht Hb M Hl. unfold make_layers. destruct (Z.leb_spec t 0); [lia|]. rewrite Hb. cbn [bind].
  pose proof (bounds_spec _ _ _ Hb) as (_ & Lt). destruct bs as [|c rest]; [cbn in Lt; lia|].
  assert (C0 : 0 <= c) by (eapply bounds_hd; [|exact Hb|reflexivity]; lia).
  assert (Q : repeat ([] : list nat) (Z.to_nat t) = [] ++ [] :: map (fun _ => []) rest).
  { rewrite <- Lt. cbn. f_equal. clear. induction rest; cbn; f_equal; auto. }
  rewrite Q. change (c :: rest) with ([] ++ c :: rest) at 1.
  pose proof (fill_eq ids [] c rest 0 [] [] eq_refl) as F. cbn [length] in F. rewrite F. clear F.
  rewrite fill'_overrun; [reflexivity|exact M|]. rewrite Z.max_l by lia. unfold last_end.
  cbn [ends] in Hl. destruct (ends_after c rest) as [|y l]; [cbn in Hl; cbn; lia|].
  change (last (c :: y :: l) 0) with (last (y :: l) 0) in Hl. rewrite (last_default l y 0 c) in Hl. lia.
Qed.

Lemma total_cons x l i : total_upto (S i) (x :: l) = x + total_upto i l.
Proof. unfold total_upto. change (firstn (S (S i)) (x :: l)) with (x :: firstn (S i) l). reflexivity. Qed.
Lemma cumulate_total l : forall acc, 0 <= acc -> (forall k, In k l -> 0 <= k) -> (forall i, acc + total_upto i l < 2147483648) ->
  exists r, cumulate acc l = Ok r.
Proof.
  induction l as [|x l IH]; intros acc H0 H1 H2; cbn [cumulate]; [eauto|].
  assert (0 <= x) by (apply H1; left; reflexivity). pose proof (H2 0%nat) as T. unfold total_upto in T. cbn in T. rewrite Z.add_0_r in T.
  destruct (Z.leb_spec (-2147483648) (acc + x)); [cbn [andb]|lia]. destruct (Z.ltb_spec (acc + x) 2147483648); [|lia].
  destruct (IH (acc + x)) as (r & ->); [lia|intros k Hk; apply H1; right; exact Hk| |cbn; eauto].
  intros i. specialize (H2 (S i)). rewrite total_cons in H2. lia.
Qed.
Lemma mapM_from {A B} (f : A -> res B) l r : Forall2 (fun x y => f x = Ok y) l r -> mapM f l = Ok r.
Proof. induction 1 as [|x y l r H _ IH]; cbn; [reflexivity|]. rewrite H, IH. reflexivity. Qed.
Lemma total_nonneg l : (forall k, In k l -> 0 <= k) -> forall i, 0 <= total_upto i l.
Proof.
  intros H. induction l as [|x l IH]; intros i; [unfold total_upto; cbn; lia|]. assert (0 <= x) by (apply H; left; reflexivity).
  destruct i as [|i]; [unfold total_upto; cbn; lia|]. rewrite total_cons. specialize (IH (fun k Hk => H k (or_intror Hk)) i). lia.
Qed.
Lemma total_mono l : (forall k, In k l -> 0 <= k) -> forall i, total_upto i l <= total_upto (S i) l.
Proof.
  intros H. induction l as [|x l IH]; intros i; [unfold total_upto; cbn; lia|]. destruct i as [|i].
  - rewrite total_cons. pose proof (total_nonneg l (fun k Hk => H k (or_intror Hk)) 0). replace (total_upto 0 (x :: l)) with x by (unfold total_upto; cbn; lia). lia.
  - rewrite !total_cons. specialize (IH (fun k Hk => H k (or_intror Hk)) i). lia.
Qed.
Definition bounds_of (n : Z) (counts : list Z) : list Z := map (fun i => Z.min n (total_upto i counts)) (seq 0 (length counts)).
Lemma layer_bounds_ok t n counts : 0 <= n -> Forall2 (fun x k => round_int x = Ok k) (shares E t n) counts ->
  (forall k, In k counts -> 0 <= k) -> (forall i, total_upto i counts < 2147483648) -> layer_bounds E t n = Ok (bounds_of n counts).
Proof.
  intros Hn HF H0 H1. unfold layer_bounds. rewrite shares_eq, (mapM_from _ _ _ HF). cbn [bind].
  destruct (cumulate_total counts 0 ltac:(lia) H0 H1) as (r & Hr). rewrite Hr. cbn [bind]. f_equal. apply cumulate_spec in Hr. destruct Hr as (L & Hx).
  apply (nth_ext _ _ 0 0); unfold bounds_of; rewrite !map_length, ?seq_length; [exact L|]. intros i Hi.
  rewrite (nth_indep _ 0 (cap n 0)) by (rewrite map_length; lia). rewrite map_nth, Hx by lia. rewrite Z.add_0_l.
  rewrite (nth_indep _ 0 ((fun i => Z.min n (total_upto i counts)) 0%nat)) by (rewrite map_length, seq_length; lia).
  rewrite (map_nth (fun i => Z.min n (total_upto i counts))), seq_nth by lia. cbn [Nat.add]. unfold cap.
  pose proof (total_nonneg counts H0 i). destruct (Z.ltb_spec (total_upto i counts) 0), (Z.ltb_spec n (total_upto i counts)); cbn [orb]; lia.
Qed.
Lemma bounds_of_mono n counts : (forall k, In k counts -> 0 <= k) ->
  forall i x y, nth_error (bounds_of n counts) i = Some x -> nth_error (bounds_of n counts) (S i) = Some y -> x <= y.
Proof.
  intros H0 i x y Hx Hy. unfold bounds_of in *.
  assert (Q : forall j v, nth_error (map (fun i => Z.min n (total_upto i counts)) (seq 0 (length counts))) j = Some v -> v = Z.min n (total_upto j counts)).
  { intros j v Hj. apply nth_error_nth with (d := Z.min n (total_upto 0 counts)) in Hj as Hj'.
    assert (Lj : (j < length counts)%nat).
    { rewrite <- (seq_length (length counts) 0), <- (map_length (fun i => Z.min n (total_upto i counts))). apply nth_error_Some. congruence. }
    rewrite (map_nth (fun i => Z.min n (total_upto i counts))), seq_nth in Hj' by lia. rewrite Nat.add_0_l in Hj'. symmetry. exact Hj'. }
  apply Q in Hx, Hy. subst. pose proof (total_mono counts H0 i). lia.
Qed.
Lemma fits_layers t n : fits E t n -> layers_fit t n.
Proof.
  intros (counts & HF & H0 & H1 & Hc & Hn & Hl). exists (bounds_of n counts). split; [apply layer_bounds_ok; auto; lia|].
  split; [apply bounds_of_mono, H0|]. split; [|exact Hl].
  intros c Hh. destruct counts as [|k counts]; [discriminate|]. cbn in Hc. injection Hh as <-. unfold total_upto. cbn. lia.
Qed.
End L.
