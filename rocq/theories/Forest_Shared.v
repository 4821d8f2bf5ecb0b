(** * Proofs relating the coarse and the unbounded Mondrian forest: trees and predictions *)
From Coq Require Import ZArith List Bool Lia Permutation.
From Verif Require Import CppBase CppFacts NumOps Utils_Model Mondrian_Model Mondrian_Spec Mondrian_Proofs Mondrian_Train Mondrian_Forest Mondrian_Predict Coarse_Model Coarse_Spec Coarse_Heap Coarse_Walk.
From Verif Require Import Forest_Spec Forest_Same Forest_Train Forest_Predict.
Import ListNotations.
Local Open Scope Z_scope.

Section Shared.
  Variable O : ops.
  Variable exp_ : num O -> num O.
  Variable tc fc lc mn : Z.
  Variable lifetime base_measure discount_factor : num O.
  Variable cmp fine : num O -> Prop.
  Local Notation forest := (forest O).
  Local Notation node := (node O).
  Local Notation nodes := (nodes O).
  Local Notation roots := (roots O).
  Local Notation n_ := (nofZ O).
  Local Notation top := (top O).
  Local Notation ids := (ids O).
  Variable e : node.
  Local Notation rel := (rel O mn cmp fine e).
  Local Notation tree_at := (tree_at O fc lc lifetime).
  Local Notation counted := (counted O lc).
  Local Notation stored := (stored O fc lc).
  Local Notation same_but := (same_but O).
  Local Notation all_ids := (Mondrian_Forest.all_ids O).
  Local Notation all_forks := (all_forks O).

  (** A tree of the coarse forest that corresponds to a tree of the unbounded one. *)
  Lemma ctop_bounds : forall f p t, stored f p t -> 0 <= ctop O t.
  Proof. intros f p t H. destruct t; destruct H as [n [H _]]; apply rd_bounds in H; cbn [ctop] in *; lia. Qed.
  Lemma transport : forall s f g, rel s f g -> forall t u p p' pt, In (ctop O t, top u) s -> stored f p t -> tree_at g p' pt u ->
    same_splits O lc t u /\ exists b, tree_at f p pt b /\ top b = ctop O t /\ ids b = cids O t /\ points O b = points O u.
  Proof.
    intros s f g R. induction t as [i cs|i d v cs a IHa b IHb]; intros u p p' pt I T U.
    - destruct T as [n [T1 [T2 [T3 [T4 [T5 [T6 [T7 T8]]]]]]]]. cbn [ctop top_counters] in *. destruct (rel_rd _ _ _ _ _ _ _ _ _ _ R I) as [n' [m [Q1 [Q2 [Q3 _]]]]]. rewrite T1 in Q1. injection Q1 as <-.
      destruct Q3 as [A1 [_ [A3 [A4 [_ [_ [_ [A8 A9]]]]]]]].
      destruct u as [j qts|j d v a b].
      + destruct U as [m' [U1 [_ [U3 [U4 [U5 [U6 [U7 [_ [_ [U8 U9]]]]]]]]]]]. cbn [Mondrian_Spec.top] in *. rewrite U1 in Q2. injection Q2 as <-.
        assert (Cs : counters O n = counters O m') by (apply A9; unfold is_leaf; now rewrite T6). split.
        * intros l Hl. specialize (U9 l Hl). rewrite <- Cs, T3 in U9. apply rd_ok_iff in U9. destruct U9 as [_ U9]. unfold at_label. now apply nth_error_nth.
        * exists (Leaf i qts). split; [|auto]. exists n. cbn [Mondrian_Spec.top points] in *. rewrite A3, A4, A8, Cs. split; [exact T1|]. split; [exact T2|]. split; [exact U3|]. split; [exact U4|]. split; [exact U5|]. split; [exact U6|]. auto 6.
      + destruct U as [m' [U1 [_ [_ [_ [_ [_ [U2 [U3 _]]]]]]]]]. cbn [Mondrian_Spec.top] in *. rewrite U1 in Q2. injection Q2 as <-. lia.
    - destruct T as [n [T1 [T2 [T3 [T4 [T5 [T6 [T7 [T8 [T9 [T10 [Ta Tb]]]]]]]]]]]]. cbn [ctop top_counters] in *. destruct (rel_rd _ _ _ _ _ _ _ _ _ _ R I) as [n' [m [Q1 [Q2 [Q3 _]]]]]. rewrite T1 in Q1. injection Q1 as <-.
      destruct Q3 as [A1 [A2 [A3 [A4 [A5 [A6 [_ [A8 A9]]]]]]]].
      destruct u as [j qts|j d' v' a' b'].
      + destruct U as [m' [U1 [_ [_ [_ [_ [_ [U2 _]]]]]]]]. cbn [Mondrian_Spec.top] in *. rewrite U1 in Q2. injection Q2 as <-. lia.
      + destruct U as [m' [U1 [_ [U3 [U4 [U5 [U6 [U7 [U8 [U9 [U10 [U11 [U12 [Ua Ub]]]]]]]]]]]]]]. cbn [Mondrian_Spec.top] in *. rewrite U1 in Q2. injection Q2 as <-.
        assert (Lf : is_leaf O n = false) by (unfold is_leaf; apply Z.eqb_neq; lia). rewrite T9, U11 in A5. rewrite T10, U12 in A6. rewrite (A2 Lf), U9 in T8. injection T8 as ->.
        pose proof (ctop_bounds _ _ _ Ta). pose proof (ctop_bounds _ _ _ Tb). destruct A5 as [[X _]|A5]; [lia|]. destruct A6 as [[X _]|A6]; [lia|]. rewrite <- A8 in Ua, Ub.
        destruct (IHa a' i j (tau O n) A5 Ta Ua) as [Sa [ya [Ya1 [Ya2 [Ya3 Ya4]]]]]. destruct (IHb b' i j (tau O n) A6 Tb Ub) as [Sb [yb [Yb1 [Yb2 [Yb3 Yb4]]]]].
        split; [cbn [same_splits]; split; [congruence|auto]|]. exists (Fork i d v ya yb). cbn [Mondrian_Spec.top Mondrian_Spec.ids cids points]. rewrite Ya3, Ya4, Yb3, Yb4. split; [|auto].
        cbn [Mondrian_Spec.tree_at]. exists n. cbn [Mondrian_Spec.top points]. rewrite Ya2, Yb2, Ya4, Yb4, A3, A4, (A2 Lf). rewrite A8 at 1 2. repeat (split; [assumption|]). auto.
  Qed.

  (** The trees at the roots, all the nodes being different. *)
  Definition planted (f : forest) (bs : list (mtree O)) : Prop :=
    (forall i t, nth_error bs i = Some t -> rd (roots f) (Z.of_nat i) = Ok (top t) /\ tree_at f (-1) (n_ 0) t) /\
    (forall i, Z.of_nat (length bs) <= i < tc -> rd (roots f) i = Ok (-1)) /\ (Z.of_nat (length bs) <= tc) /\
    Z.of_nat (length (nodes f)) = mn /\ NoDup (all_ids bs).
  Lemma tree_ids : forall t f p pt, tree_at f p pt t -> forall j, In j (ids t) -> 0 <= j < Z.of_nat (length (nodes f)).
  Proof.
    induction t as [i pts|i d v a IHa b IHb]; intros f p pt T j Hj.
    - destruct Hj as [<-|[]]. destruct T as [n [T1 _]]. now apply rd_bounds in T1.
    - destruct T as [n [T1 [_ [_ [_ [_ [_ [_ [_ [_ [_ [_ [_ [Ta Tb]]]]]]]]]]]]]]. destruct Hj as [<-|Hj]; [now apply rd_bounds in T1|]. apply in_app_or in Hj. destruct Hj; eauto.
  Qed.
  Lemma planted_size : forall f bs i t, planted f bs -> nth_error bs i = Some t -> (length (ids t) <= Z.to_nat mn)%nat.
  Proof.
    intros f bs i t [P1 [_ [_ [P4 P5]]]] H. destruct (P1 _ _ H) as [_ T].
    assert (X : incl (ids t) (map Z.of_nat (seq 0 (Z.to_nat mn)))).
    { intros j Hj. pose proof (tree_ids _ _ _ _ T j Hj). apply in_map_iff. exists (Z.to_nat j). split; [lia|]. apply in_seq. lia. }
    apply NoDup_incl_length in X; [|now apply tree_nodup with bs i]. now rewrite map_length, seq_length in X.
  Qed.
  Lemma update_planted : forall f bs, planted f bs ->
    exists f', Mondrian_Model.update_all O tc lc mn f = Ok f' /\ planted f' bs /\ Forall (counted f') bs.
  Proof.
    intros f bs P. pose proof P as [P1 [P2 [P3 [P4 P5]]]]. unfold Mondrian_Model.update_all.
    destruct (forZ_inv _ (fun i g => same_but f g (all_forks bs) /\ forall a t, Z.of_nat a < i -> nth_error bs a = Some t -> counted g t)
      (fun i f => do root <- rd (roots f) i; if root =? -1 then Ok f else update_posterior_count O lc (S (Z.to_nat mn)) f root) (Z.to_nat tc) 0 f) as [f' [E [S C]]].
    - split; [apply Mondrian_Predict.same_refl|lia].
    - intros i g Hi [S C]. pose proof S as [R [D [Ln Q]]]. rewrite R.
      destruct (nth_error bs (Z.to_nat i)) as [t|] eqn:Et.
      + destruct (P1 _ _ Et) as [Hr Tt]. rewrite Z2Nat.id in Hr by lia. rewrite Hr. cbn [bind]. pose proof (top_bounds _ _ _ _ _ _ _ _ Tt) as Bt.
        rewrite (proj2 (Z.eqb_neq (top t) (-1))) by lia. pose proof (planted_size _ _ _ _ P Et) as Lt.
        destruct (update_ok O fc lc lifetime t g (-1) (n_ 0) (Datatypes.S (Z.to_nat mn))) as [g' [E1 [S1 C1]]]; [lia|now apply tree_nodup with bs (Z.to_nat i)|now apply Mondrian_Predict.same_trees with bs f (Z.to_nat i)|].
        exists g'. split; [exact E1|].
        assert (Fin : incl (fork_ids O t) (all_forks bs)).
        { intros j Hj. apply in_concat. exists (fork_ids O t). split; [apply in_map; now apply nth_error_In with (Z.to_nat i)|exact Hj]. }
        split.
        * apply same_incl with (all_forks bs ++ fork_ids O t); [|now apply Mondrian_Predict.same_trans with g]. intros j Hj. apply in_app_or in Hj. destruct Hj; auto.
        * intros a q Ha Hq. destruct (Nat.eq_dec a (Z.to_nat i)) as [->|N]; [rewrite Et in Hq; now injection Hq as <-|].
          apply counted_frame with g; [|apply (C a); auto; lia]. intros j Hj.
          assert (Nj : ~ In j (fork_ids O t)) by (intros I; apply N; apply trees_apart with O bs q t j; auto; now apply fork_ids_in).
          assert (Bj : 0 <= j < Z.of_nat (length (nodes g))) by (rewrite Ln; destruct (P1 _ _ Hq) as [_ Tq]; now apply (tree_ids q f (-1) (n_ 0))).
          destruct (rd_in_bounds _ _ _ Bj) as [m Hm]. rewrite Hm. now apply (same_rd O g g' (fork_ids O t)).
      + apply nth_error_None in Et. rewrite P2 by lia. cbn [bind]. rewrite Z.eqb_refl. exists g. split; [reflexivity|]. split; [exact S|].
        intros a t _ Ha. apply (C a); auto. assert (nth_error bs a <> None) by congruence. apply nth_error_Some in H. lia.
    - exists f'. split; [exact E|]. pose proof S as [R [_ [Ln _]]]. split.
      + split; [|rewrite R, Ln; auto]. intros i t Ht. destruct (P1 _ _ Ht) as [X Y]. rewrite R. split; [exact X|]. now apply Mondrian_Predict.same_trees with bs f i.
      + apply Forall_forall. intros t Ht. apply In_nth_error in Ht. destruct Ht as [a Ha]. apply (C a); auto. assert (nth_error bs a <> None) by congruence. apply nth_error_Some in H. lia.
  Qed.
  Hypothesis Hlc : 1 <= lc.
  Hypothesis Hfc : 0 <= fc.
  Variable x : list (num O).
  Hypothesis Hx : length x = Z.to_nat fc.
  Lemma planted_tree : forall f bs i t, planted f bs -> nth_error bs i = Some t ->
    exists m, Mondrian_Model.predict_from O exp_ fc lc discount_factor (S (S (Z.to_nat mn))) f (top t) x (n_ 1) (repeat base_measure (Z.to_nat lc)) (repeat (n_ 0) (Z.to_nat lc)) = Ok m /\ length m = Z.to_nat lc.
  Proof.
    intros f bs i t P H. pose proof (planted_size _ _ _ _ P H) as Sz. destruct P as [P1 _]. destruct (P1 _ _ H) as [_ T].
    apply (walk_ok O exp_ fc lc lifetime discount_factor Hlc Hfc x Hx t f (-1) (n_ 0)); rewrite ?repeat_length; auto.
    - intros j Hj. now apply (tree_ids t f (-1) (n_ 0)) in Hj.
    - left. auto.
  Qed.
End Shared.
