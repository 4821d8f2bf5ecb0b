(** * The sums of the points of the coarse Mondrian forest: written by [train] only *)
From Coq Require Import ZArith List Bool Lia.
From Verif Require Import CppBase CppFacts NumOps NumFacts Utils_Model.
From Verif Require Import Mondrian_Model Coarse_Model.
Import ListNotations.
Local Open Scope Z_scope.

Section Sums.
  Variable O : ops.
  Variable exp_ log_ : num O -> num O.
  Variable rnd : nat -> num O.
  Variable c : config O.
  Local Notation coarse := (coarse O).

  Definition sums (s : coarse) : list (option (num O)) * num O := (sum_features O s, count_points O s).

  Ltac known H := fail.
  Ltac step :=
    match goal with
    | H : bind _ _ = Ok _ |- _ => apply bind_inv in H; destruct H as [? [? H]]
    | H : Ok _ = Ok _ |- _ => injection H; clear H; intros; subst
    | H : Undef _ = Ok _ |- _ => discriminate H
    | H : NoFuel = Ok _ |- _ => discriminate H
    | H : Abort = Ok _ |- _ => discriminate H
    | H : (_, _) = (_, _) |- _ => injection H; clear H; intros; subst
    | p : (_ * _)%type |- _ => destruct p
    | H : _ = Ok _ |- _ => known H
    | H : _ = (_, _) |- _ => known H
    | H : match ?x with _ => _ end = _ |- _ => destruct x eqn:?
    | H : _ = match ?x with _ => _ end |- _ => destruct x eqn:?
    end.
  Ltac close := try discriminate; unfold sums in *; cbn [sum_features count_points with_fr with_forced with_fading with_avail with_last with_full with_total fst snd] in *; try congruence.
  Ltac done_ := repeat step; close.

  Lemma change_k : forall s i g s', change O s i g = Ok s' -> sums s' = sums s.
  Proof. intros s i g s' H. unfold change in H. apply bind_inv in H. destruct H as [f [_ H]]. injection H as <-. reflexivity. Qed.
  Lemma set_root_k : forall s t i s', set_root O s t i = Ok s' -> sums s' = sums s.
  Proof. intros s t i s' H. unfold set_root in H. apply bind_inv in H. destruct H as [f [_ H]]. injection H as <-. reflexivity. Qed.
  Lemma uniform_k : forall s u s', uniform O rnd s = (u, s') -> sums s' = sums s.
  Proof. intros s u s' H. unfold uniform in H. destruct (Mondrian_Model.uniform O rnd _). injection H as <- <-. reflexivity. Qed.
  Ltac known H ::= first [apply change_k in H | apply set_root_k in H | apply uniform_k in H].
  Lemma draw_time_k : forall s x e s', draw_time O log_ rnd s x = (e, s') -> sums s' = sums s.
  Proof. intros s x e s' H. unfold draw_time in H. done_. Qed.
  Lemma reset_k : forall s i s', reset_node O c s i = Ok s' -> sums s' = sums s.
  Proof. intros s i s' H. unfold reset_node in H. done_. Qed.
  Lemma avail_k : forall s i s', available_node O c s = Ok (i, s') -> sums s' = sums s.
  Proof. intros s i s' H. unfold available_node in H. done_. Qed.
  Lemma add_label_k : forall s i l s', add_label O s i l = Ok s' -> sums s' = sums s.
  Proof. intros s i l s' H. unfold add_label in H. exact (change_k _ _ _ _ H). Qed.
  Lemma add_fading_k : forall s i s', add_fading O s i = Ok s' -> sums s' = sums s.
  Proof. intros s i s' H. unfold add_fading in H. done_. Qed.
  Lemma add_forced_k : forall s i s', add_forced O s i = Ok s' -> sums s' = sums s.
  Proof. intros s i s' H. unfold add_forced in H. done_. Qed.
  Ltac known H ::= first [apply change_k in H | apply set_root_k in H | apply uniform_k in H | apply draw_time_k in H | apply reset_k in H | apply avail_k in H | apply add_label_k in H | apply add_fading_k in H | apply add_forced_k in H].
  Lemma add_leaf_k : forall s i l s', add_leaf O s i l = Ok s' -> sums s' = sums s.
  Proof. intros s i l s' H. unfold add_leaf in H. done_. Qed.
  Lemma parent_counters_k : forall s n p l s', parent_counters O c s n p l = Ok s' -> sums s' = sums s.
  Proof. intros s n p l s' H. unfold parent_counters in H. done_. Qed.
  Ltac known H ::= first [apply change_k in H | apply set_root_k in H | apply uniform_k in H | apply draw_time_k in H | apply reset_k in H | apply avail_k in H | apply add_label_k in H | apply add_fading_k in H | apply add_forced_k in H
    | apply add_leaf_k in H | apply parent_counters_k in H].
  Lemma split_above_k : forall s n i t x ps su ti l s', split_above O rnd c s n i t x ps su ti l = Ok s' -> sums s' = sums s.
  Proof. intros s n i t x ps su ti l s' H. unfold split_above in H. done_. Qed.
  Ltac known H ::= first [apply change_k in H | apply set_root_k in H | apply uniform_k in H | apply draw_time_k in H | apply reset_k in H | apply avail_k in H | apply add_label_k in H | apply add_fading_k in H | apply add_forced_k in H
    | apply add_leaf_k in H | apply parent_counters_k in H | apply split_above_k in H].
  Lemma extend_block_k : forall steps s i t x l s', extend_block O log_ rnd c steps s i t x l = Ok s' -> sums s' = sums s.
  Proof.
    induction steps as [|steps IH]; intros s i t x l s' H; [discriminate|]. cbn [extend_block] in H.
    repeat first [step | match goal with H : extend_block _ _ _ _ _ _ _ _ _ _ = Ok _ |- _ => apply IH in H end]; close.
  Qed.
  Lemma walk_k : forall A (visit : coarse -> Z -> A -> res (coarse * A)) start, (forall s i a s' a', visit s i a = Ok (s', a') -> sums s' = sums s) ->
    forall steps s i d k st a d' s' a', walk O c visit start steps s i d k st a = Ok (d', (s', a')) -> sums s' = sums s.
  Proof.
    intros A visit start Hv. induction steps as [|steps IH]; intros s i d k st a d' s' a' H; [discriminate|]. cbn [walk] in H.
    repeat first [step | match goal with H : walk _ _ _ _ _ _ _ _ _ _ _ = Ok _ |- _ => apply IH in H | H : visit _ _ _ = Ok _ |- _ => apply Hv in H end]; close.
  Qed.
  Lemma count_sides_k : forall s i d v s' r, count_sides O rnd c s i d v = Ok (s', r) -> sums s' = sums s.
  Proof.
    intros s i d v s' r H. unfold count_sides in H. apply bind_inv in H. destruct H as [[dd rr] [E H]]. injection H as ->. unfold walk_from in E. refine (walk_k _ _ _ _ _ _ _ _ _ _ _ _ _ _ E).
    clear. intros s i [cl cr] s' a' H. unfold side_visit in H. done_.
  Qed.
  Lemma adjust_counters_k : forall s i d v b s' r, adjust_counters O c s i d v b = Ok (s', r) -> sums s' = sums s.
  Proof.
    intros s i d v b s' r H. unfold adjust_counters in H. apply bind_inv in H. destruct H as [[dd rr] [E H]]. injection H as ->. unfold walk_from in E. refine (walk_k _ _ _ _ _ _ _ _ _ _ _ _ _ _ E).
    clear. intros s i a s' a' H. unfold take_visit in H. done_.
  Qed.
  Lemma reset_walk_k : forall root steps s i d k st s' b, reset_walk O c root steps s i d k st = Ok (s', b) -> sums s' = sums s.
  Proof.
    intros root. induction steps as [|steps IH]; intros s i d k st s' b H; [discriminate|]. cbn [reset_walk] in H.
    repeat first [step | match goal with H : reset_walk _ _ _ _ _ _ _ _ _ = Ok _ |- _ => apply IH in H end]; close.
  Qed.
  Lemma node_reset_k : forall s i s' b, node_reset O c s i = Ok (s', b) -> sums s' = sums s.
  Proof. intros s i s' b H. exact (reset_walk_k _ _ _ _ _ _ _ _ _ H). Qed.
  Ltac known H ::= first [apply change_k in H | apply set_root_k in H | apply uniform_k in H | apply draw_time_k in H | apply reset_k in H | apply avail_k in H | apply add_label_k in H | apply add_fading_k in H | apply add_forced_k in H
    | apply add_leaf_k in H | apply parent_counters_k in H | apply split_above_k in H | apply extend_block_k in H | apply count_sides_k in H | apply adjust_counters_k in H | apply node_reset_k in H].
  Lemma boxes_walk_k : forall start d v b t steps s i dp k st s', boxes_walk O c start d v b t steps s i dp k st = Ok s' -> sums s' = sums s.
  Proof.
    intros start d v b t. induction steps as [|steps IH]; intros s i dp k st s' H; [discriminate|]. cbn [boxes_walk] in H.
    repeat first [step | match goal with H : boxes_walk _ _ _ _ _ _ _ _ _ _ _ _ _ = Ok _ |- _ => apply IH in H end]; close.
  Qed.
  Lemma adjust_boxes_k : forall s i d v b t s', adjust_boxes O c s i d v b t = Ok s' -> sums s' = sums s.
  Proof. intros s i d v b t s' H. exact (boxes_walk_k _ _ _ _ _ _ _ _ _ _ _ _ H). Qed.
  Lemma pass_k : forall steps s i x l s', pass_data_point_down O c steps s i x l = Ok s' -> sums s' = sums s.
  Proof.
    induction steps as [|steps IH]; intros s i x l s' H; [discriminate|]. cbn [pass_data_point_down] in H.
    repeat first [step | match goal with H : pass_data_point_down _ _ _ _ _ _ _ = Ok _ |- _ => apply IH in H end]; close.
  Qed.
  Ltac known H ::= first [apply change_k in H | apply set_root_k in H | apply uniform_k in H | apply draw_time_k in H | apply reset_k in H | apply avail_k in H | apply add_label_k in H | apply add_fading_k in H | apply add_forced_k in H
    | apply add_leaf_k in H | apply parent_counters_k in H | apply split_above_k in H | apply extend_block_k in H | apply count_sides_k in H | apply adjust_counters_k in H | apply node_reset_k in H
    | apply adjust_boxes_k in H | apply pass_k in H].
  Lemma split_at_k : forall s i t d v ti x l s', split_at O rnd c s i t d v ti x l = Ok s' -> sums s' = sums s.
  Proof. intros s i t d v ti x l s' H. unfold split_at in H. cbv zeta in H. done_. Qed.
  Ltac known H ::= first [apply change_k in H | apply set_root_k in H | apply uniform_k in H | apply draw_time_k in H | apply reset_k in H | apply avail_k in H | apply add_label_k in H | apply add_fading_k in H | apply add_forced_k in H
    | apply add_leaf_k in H | apply parent_counters_k in H | apply split_above_k in H | apply extend_block_k in H | apply count_sides_k in H | apply adjust_counters_k in H | apply node_reset_k in H
    | apply adjust_boxes_k in H | apply pass_k in H | apply split_at_k in H].
  Lemma split_node_k : forall s i t x l ti s', split_node O rnd c s i t x l ti = Ok s' -> sums s' = sums s.
  Proof. intros s i t x l ti s' H. unfold split_node in H. done_. Qed.
  Lemma split_barycenter_k : forall s i t x l ti s' b, split_barycenter O log_ rnd c s i t x l ti = Ok (s', b) -> sums s' = sums s.
  Proof. intros s i t x l ti s' b H. unfold split_barycenter in H. done_. Qed.
  Ltac known H ::= first [apply change_k in H | apply set_root_k in H | apply uniform_k in H | apply draw_time_k in H | apply reset_k in H | apply avail_k in H | apply add_label_k in H | apply add_fading_k in H | apply add_forced_k in H
    | apply add_leaf_k in H | apply parent_counters_k in H | apply split_above_k in H | apply extend_block_k in H | apply count_sides_k in H | apply adjust_counters_k in H | apply node_reset_k in H
    | apply adjust_boxes_k in H | apply pass_k in H | apply split_at_k in H | apply split_node_k in H | apply split_barycenter_k in H].
  Lemma extend_block4_k : forall steps s i t x l k s', extend_block4 O log_ rnd c steps s i t x l k = Ok s' -> sums s' = sums s.
  Proof.
    induction steps as [|steps IH]; intros s i t x l k s' H; [discriminate|]. cbn [extend_block4] in H. cbv zeta in H.
    repeat first [step | match goal with H : extend_block4 _ _ _ _ _ _ _ _ _ _ _ = Ok _ |- _ => apply IH in H end]; close.
  Qed.
  Ltac known H ::= first [apply change_k in H | apply set_root_k in H | apply uniform_k in H | apply reset_k in H | apply avail_k in H | apply node_reset_k in H | apply extend_block_k in H | apply extend_block4_k in H].
  Lemma train_tree_k : forall s x l t s' b, train_tree O log_ rnd c s x l t = Ok (s', b) -> sums s' = sums s.
  Proof. intros s x l t s' b H. unfold train_tree in H. done_. Qed.
  Lemma cut_block_k : forall s i t s', cut_block O c s i t = Ok s' -> sums s' = sums s.
  Proof. intros s i t s' H. unfold cut_block in H. done_. Qed.
  Lemma pick_trim_k : forall s t s' i, pick_trim O rnd c s t = Ok (s', i) -> sums s' = sums s.
  Proof.
    intros s t s' i H. unfold pick_trim in H. apply bind_inv in H. destruct H as [root [_ H]]. apply bind_inv in H. destruct H as [[d [s1 tr]] [E H]]. injection H as <- _. unfold walk_from in E. refine (walk_k _ _ _ _ _ _ _ _ _ _ _ _ _ _ E).
    clear. intros s i a s' a' H. unfold trim_visit in H. done_.
  Qed.
  Lemma loop_k : forall n (body : Z -> coarse -> res coarse), (forall i s s', body i s = Ok s' -> sums s' = sums s) -> forall i s s', forZ n i body s = Ok s' -> sums s' = sums s.
  Proof. induction n as [|n IH]; intros body Hb i s s' H; cbn [forZ] in H; [injection H as <-; reflexivity|]. apply bind_inv in H. destruct H as [s1 [E H]]. apply Hb in E. apply IH in H; [congruence|exact Hb]. Qed.
  Lemma tree_trim_k : forall s s', tree_trim O rnd c s = Ok s' -> sums s' = sums s.
  Proof.
    intros s s' H. refine (loop_k _ _ _ _ _ _ H). clear. intros i s s' H. apply bind_inv in H. destruct H as [[s1 id] [E H]]. apply pick_trim_k in E. apply bind_inv in H. destruct H as [root [_ H]].
    destruct (_ && _); [apply cut_block_k in H; congruence|injection H as <-; exact E].
  Qed.
  Lemma tree_fade_k : forall s s', tree_fade_counts O c s = Ok s' -> sums s' = sums s.
  Proof.
    intros s s' H. refine (loop_k _ _ _ _ _ _ H). clear. intros i s s' H. apply bind_inv in H. destruct H as [root [_ H]]. apply bind_inv in H. destruct H as [[d [s1 a]] [E H]]. injection H as <-. unfold walk_from in E. refine (walk_k _ _ _ _ _ _ _ _ _ _ _ _ _ _ E).
    clear. intros s i a s' a' H. unfold fade_visit in H. done_.
  Qed.
  Lemma recount_k : forall steps s i l s', recount_up O c steps s i l = Ok s' -> sums s' = sums s.
  Proof.
    induction steps as [|steps IH]; intros s i l s' H; [discriminate|]. cbn [recount_up] in H.
    repeat first [step | match goal with H : recount_up _ _ _ _ _ _ = Ok _ |- _ => apply IH in H end]; close.
  Qed.
  Lemma update_branch_k : forall s t x l s', update_branch O c s t x l = Ok s' -> sums s' = sums s.
  Proof. intros s t x l s' H. unfold update_branch in H. apply bind_inv in H. destruct H as [leaf [_ H]]. apply bind_inv in H. destruct H as [n [_ H]]. exact (recount_k _ _ _ _ _ H). Qed.
  Lemma predict_k : forall s x sc k s' b sc', predict O exp_ c s x sc k = Ok (s', b, sc') -> sums s' = sums s.
  Proof.
    intros s x sc k s' b sc' H. unfold predict in H. cbv zeta in H. apply bind_inv in H. destruct H as [s1 [E H]]. apply bind_inv in H. destruct H as [m [_ H]]. apply bind_inv in H. destruct H as [bb [_ H]]. injection H as <- _ _.
    destruct (_ && _); [|injection E as <-; reflexivity]. unfold update_all in E. apply bind_inv in E. destruct E as [f [_ E]]. injection E as <-. reflexivity.
  Qed.
  Lemma train_k : forall s x l s' b, train O log_ rnd c s x l = Ok (s', b) ->
    (exists u, forZ (Z.to_nat (c_features O c)) 0 (fun i '(sums, _) => do a <- rdi (sum_features O s) i; do x <- rd x i; Ok (sums ++ [Some (nadd O (nmul O a (c_fading O c)) x)], tt)) ([], tt) = Ok (sum_features O s', u)) /\
    count_points O s' = nadd O (nmul O (count_points O s) (c_fading O c)) (nofZ O 1).
  Proof.
    intros s x l s' b H. unfold train in H. apply bind_inv in H. destruct H as [[ss u] [E H]]. set (s0 := with_sums O s ss _) in H.
    apply bind_inv in H. destruct H as [s1 [E1 H]]. apply bind_inv in H. destruct H as [s2 [E2 H]]. apply bind_inv in H. destruct H as [[s3 t3] [E3 H]]. apply bind_inv in H. destruct H as [s4 [E4 H]]. injection H as <- _.
    assert (A1 : sums s1 = sums s0) by (destruct (_ =? _) in E1; [exact (tree_fade_k _ _ E1)|injection E1 as <-; reflexivity]).
    assert (A2 : sums s2 = sums s1) by (destruct (_ && _) in E2; [exact (tree_trim_k _ _ E2)|injection E2 as <-; reflexivity]).
    assert (A3 : sums s3 = sums s2).
    { change (sums (fst (s3, t3)) = sums (fst (s2, true))). revert E3. generalize (s2, true) as p, (s3, t3) as q. generalize 0 at 1 as i. clear. induction (Z.to_nat (c_trees O c)) as [|n IH]; intros i p q H; cbn [forZ] in H; [injection H as <-; reflexivity|].
      apply bind_inv in H. destruct H as [r [E H]]. apply IH in H. rewrite H. clear H IH. destruct p as [s ft]. apply bind_inv in E. destruct E as [[s1 h1] [E1 E]]. apply train_tree_k in E1. apply bind_inv in E. destruct E as [s2 [E2 E]]. injection E as <-. cbn [fst].
      destruct (c_optimize O c); [apply update_branch_k in E2; congruence|injection E2 as <-; exact E1]. }
    assert (A4 : sums s4 = sums s3) by (destruct (_ <=? _) in E4; [apply bind_inv in E4; destruct E4 as [k [_ E4]]; injection E4 as <-; reflexivity|injection E4 as <-; reflexivity]).
    assert (A : sums (with_total O s4 (u32 (total O s4 + 1))) = sums s0) by (transitivity (sums s4); [reflexivity|congruence]).
    unfold sums in A. injection A as B1 B2. cbn [with_total sum_features count_points] in *. rewrite B1, B2. split; [exists u; exact E|reflexivity].
  Qed.
End Sums.
