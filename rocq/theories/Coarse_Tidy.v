(** * Proofs for the coarse Mondrian forest: the values in the nodes are never NaN *)
From Coq Require Import ZArith List Bool Lia Reals Lra.
From Verif Require Import CppBase CppFacts NumOps Utils_Model Mondrian_Model Mondrian_Spec Mondrian_Proofs Coarse_Model Coarse_Spec Coarse_Heap Coarse_Walk Coarse_Train Coarse_Trim Coarse_Forest Coarse_Reach.
From Verif Require Unbound_Model.
Import ListNotations.
Local Open Scope Z_scope.

Section Tidy.
  Variable O : ops.
  Variable exp_ log_ : num O -> num O.
  Variable rnd : nat -> num O.
  Variable c : config O.
  Variable l0 : Z.
  Variable key : num O -> R.
  Variable cmp fine draw : num O -> Prop.
  Hypothesis L : laws O key cmp fine draw (c_features O c).
  Hypothesis F0 : fine (nofZ O 0).
  Hypothesis Hdraw : forall k, draw (rnd k).
  Local Notation n_ := (nofZ O).
  Local Notation node := (node O).
  Local Notation forest := (forest O).
  Local Notation coarse := (coarse O).
  Local Notation fr := (fr O).
  Local Notation nodes := (nodes O).
  Local Notation get := (get O).
  Local Notation put := (put O).
  Local Notation fc := (c_features O c).
  Local Notation lc := (c_labels O c).
  Local Notation nc := (c_nodes O c).
  Local Notation life := (c_life O c).
  Local Notation creached := (creached O exp_ log_ rnd c l0).

  Definition fineo (o : option (num O)) : Prop := match o with Some b => fine b | None => True end.
  Definition good (n : node) : Prop := Forall fineo (bound_lower O n) /\ Forall fineo (bound_upper O n) /\ match split_value O n with Some v => cmp v | None => True end.
  Definition tidy (f : forest) : Prop := Forall good (nodes f).

  Lemma Forall_upd : forall A (P : A -> Prop) xs i a, Forall P xs -> P a -> Forall P (upd xs i a).
  Proof. intros A P xs. induction xs as [|y xs IH]; intros i a F Ha; [now destruct i|]. inversion F; subst. destruct i; cbn [upd]; constructor; auto. Qed.
  Lemma rd_Forall : forall A (P : A -> Prop) xs i a, Forall P xs -> rd xs i = Ok a -> P a.
  Proof. intros A P xs i a F H. apply rd_ok_iff in H. destruct H as [_ H]. rewrite Forall_forall in F. apply F. now apply nth_error_In with (Z.to_nat i). Qed.
  Lemma wr_Forall : forall A (P : A -> Prop) xs i a ys, Forall P xs -> P a -> wr xs i a = Ok ys -> Forall P ys.
  Proof. intros A P xs i a ys F Ha H. apply wr_inv in H. destruct H as [_ ->]. now apply Forall_upd. Qed.
  Lemma rdi_fine : forall xs i v, Forall fineo xs -> rdi xs i = Ok v -> fine v.
  Proof. intros xs i v F H. unfold rdi in H. inv_bind H. pose proof (rd_Forall _ _ _ _ _ F E) as X. destruct v0; [injection H as <-; exact X|discriminate]. Qed.
  Lemma tidy_node : forall f i g f', tidy f -> (forall n n', good n -> g n = Ok n' -> good n') -> with_node O f i g = Ok f' -> tidy f'.
  Proof.
    intros f i g f' T H E. apply with_node_inv in E. destruct E as [n [n' [A [B ->]]]]. unfold tidy. cbn. apply Forall_upd; [exact T|]. apply (H n); [|exact B]. now apply (rd_Forall _ _ _ _ _ T A).
  Qed.
  Lemma tidy_change : forall s i g s', tidy (fr s) -> (forall n n', good n -> g n = Ok n' -> good n') -> change O s i g = Ok s' -> tidy (fr s').
  Proof. intros s i g s' T H E. unfold change in E. inv_bind E. injection E as <-. cbn. now apply tidy_node with (fr s) i g. Qed.
  Lemma tidy_counters : forall n cs, good n -> good (set_counters O n cs).
  Proof. auto. Qed.
  Lemma tidy_available : forall s i s', available_node O c s = Ok (i, s') -> tidy (fr s) -> tidy (fr s').
  Proof. intros s i s' H T. apply available_node_inv in H. destruct H as [[_ ->]|[n [_ [_ ->]]]]; exact T. Qed.
  Lemma tidy_recounted : forall f f', recounted O f f' -> tidy f -> tidy f'.
  Proof.
    intros f f' [_ [Ln H]] T. apply Forall_forall. intros n' Hn'. apply In_nth_error in Hn'. destruct Hn' as [k Hk]. assert (Lk : (k < length (nodes f'))%nat) by (apply nth_error_Some; congruence).
    destruct (rd_in_bounds _ (nodes f) (Z.of_nat k)) as [n Hn]; [lia|]. destruct (H _ _ Hn) as [cs [H1 _]]. apply rd_ok_iff in H1. rewrite Nat2Z.id in H1. destruct H1 as [_ H1]. assert (n' = set_counters O n cs) by congruence. subst n'.
    apply tidy_counters. exact (rd_Forall _ _ _ _ _ T Hn).
  Qed.

  Section Point.
    Variable x : list (num O).
    Hypothesis Fx : Forall fine x.
    Lemma x_fine : forall i v, rd x i = Ok v -> fine v.
    Proof. intros i v H. exact (rd_Forall _ _ _ _ _ Fx H). Qed.
    Lemma tidy_sample : forall f i label f', tidy f -> sample_block O fc life f i x label = Ok f' -> tidy f'.
    Proof.
      intros f i label f' T H. unfold sample_block in H. inv_bind H. destruct v as [lo hi].
      assert (B : Forall fineo lo /\ Forall fineo hi).
      { enough (P : Forall fineo (fst (lo, hi)) /\ Forall fineo (snd (lo, hi))) by exact P.
        refine (forZ_inv_post _ (fun (_ : Z) (s : list (option (num O)) * list (option (num O))) => Forall fineo (fst s) /\ Forall fineo (snd s)) _ _ 0 _ _ _ _ E); [split; constructor|].
        intros j [a b] s' _ [P1 P2] H1. inv_bind H1. injection H1 as <-. cbn in *. apply x_fine in E0. split; apply Forall_app; auto. }
      eapply tidy_node; [exact T| |exact H]. intros n n' [G1 [G2 G3]] X. inv_bind X. inv_bind X. inv_bind X. injection X as <-. cbn. destruct B. split; [auto|]. split; auto.
    Qed.
    Lemma pick_fine : forall a b : num O, fine a -> fine b -> forall d : bool, fine (if d then a else b).
    Proof. intros a b Ha Hb []; auto. Qed.
    Lemma tidy_joined : forall n lo hi, good n -> joined_box O fc n x = Ok (lo, hi) -> Forall fineo lo /\ Forall fineo hi.
    Proof.
      intros n lo hi [G1 [G2 _]] E. enough (P : Forall fineo (fst (lo, hi)) /\ Forall fineo (snd (lo, hi))) by exact P.
      refine (forZ_inv_post _ (fun (_ : Z) (s : list (option (num O)) * list (option (num O))) => Forall fineo (fst s) /\ Forall fineo (snd s)) _ _ 0 _ _ _ _ E); [split; constructor|].
      intros j [a b] s' _ [P1 P2] H1. inv_bind H1. inv_bind H1. inv_bind H1. injection H1 as <-. cbn in *. apply x_fine in E0. apply rdi_fine in E1; [|exact G1]. apply rdi_fine in E2; [|exact G2].
      split; apply Forall_app; (split; [assumption|]); constructor; auto; now apply pick_fine.
    Qed.
    Lemma tidy_update : forall n n', good n -> update_box O fc n x = Ok n' -> good n'.
    Proof.
      intros n n' [G1 [G2 G3]] H. unfold update_box in H. inv_bind H. destruct v as [lo hi]. injection H as <-.
      enough (P : Forall fineo (fst (lo, hi)) /\ Forall fineo (snd (lo, hi))) by (destruct P; split; [|split]; auto).
      refine (forZ_inv_post _ (fun (_ : Z) (s : list (option (num O)) * list (option (num O))) => Forall fineo (fst s) /\ Forall fineo (snd s)) _ _ 0 _ _ _ _ E); [split; assumption|].
      intros j [a b] s' _ [P1 P2] H1. cbn in P1, P2. inv_bind H1. inv_bind H1. inv_bind H1. inv_bind H1. inv_bind H1. injection H1 as <-. cbn. apply x_fine in E0. apply rdi_fine in E1; [|exact P1]. apply rdi_fine in E3; [|exact P2].
      split; [eapply wr_Forall; [exact P1| |exact E2]|eapply wr_Forall; [exact P2| |exact E4]]; cbn; now apply pick_fine.
    Qed.
    Lemma tidy_choose : forall f n probs sum f' d up v, good n -> Unbound_Model.choose_split O rnd fc f n x probs sum = Ok (f', (d, (up, v))) -> nodes f' = nodes f /\ cmp v.
    Proof.
      intros f n probs sum f' d up v [G1 [G2 _]] H. unfold Unbound_Model.choose_split, Mondrian_Model.uniform in H. inv_bind H. inv_bind H. inv_bind H. inv_bind H. inv_bind H. inv_bind H. destruct v5 as [a b].
      injection H as <- <- <- <-. split; [reflexivity|]. apply x_fine in E1. apply rdi_fine in E2; [|exact G2]. apply rdi_fine in E3; [|exact G1].
      destruct (nlt O v3 v2) eqn:B1; [injection E4 as <- <-; apply (l_split _ _ _ _ _ _ L); auto|]. destruct (nlt O v2 v4) eqn:B2; [injection E4 as <- <-; apply (l_split _ _ _ _ _ _ L); auto|discriminate].
    Qed.
    Lemma tidy_insert : forall f i k label d up a b f', tidy f -> insert_above O fc lc life f i k x label d up a b = Ok f' -> tidy f'.
    Proof.
      intros f i k label d up a b f' T H. unfold insert_above in H. inv_bind H. inv_bind H. destruct v0 as [lo hi]. destruct (tidy_joined v lo hi (rd_Forall _ _ _ _ _ T E) E0) as [B1 B2].
      inv_bind H. assert (T1 : tidy v0) by (eapply tidy_node; [exact T| |exact E1]; intros n n' [G1 [G2 G3]] X; injection X as <-; split; [|split]; auto).
      inv_bind H. assert (T2 : tidy v1) by (eapply tidy_node; [exact T1| |exact E2]; intros n n' G X; injection X as <-; exact G).
      inv_bind H. inv_bind H. assert (T3 : tidy v3) by (eapply tidy_node; [exact T2| |exact E4]; intros n n' G X; injection X as <-; exact G).
      inv_bind H. inv_bind H. inv_bind H. assert (T4 : tidy v6).
      { destruct (_ && _) in E7; [inv_bind E7; injection E7 as <-; exact T3|]. eapply tidy_node; [exact T3| |exact E7]. intros n n' G X. injection X as <-. destruct (_ =? _); exact G. }
      inv_bind H. assert (T5 : tidy v7) by (eapply tidy_node; [exact T4| |exact E8]; intros n n' G X; injection X as <-; exact G).
      inv_bind H. assert (T6 : tidy v8) by (eapply tidy_node; [exact T5| |exact E9]; intros n n' G X; injection X as <-; exact G).
      inv_bind H. inv_bind H. assert (T7 : tidy v10) by (eapply tidy_node; [exact T6| |exact E11]; intros n n' G X; injection X as <-; destruct (neq O _ _); exact G).
      eapply tidy_sample; eauto.
    Qed.
    Lemma tidy_label : forall s i label s', tidy (fr s) -> add_label O s i label = Ok s' -> tidy (fr s').
    Proof. intros s i label s' T H. eapply tidy_change; [exact T| |exact H]. intros n n' G X. inv_bind X. inv_bind X. inv_bind X. injection X as <-. exact G. Qed.
    Lemma tidy_leaf : forall s i label s', tidy (fr s) -> add_leaf O s i label = Ok s' -> tidy (fr s').
    Proof. intros s i label s' T H. unfold add_leaf in H. inv_bind H. unfold add_fading in H. inv_bind H. inv_bind H. injection H as <-. cbn. eapply tidy_label; eauto. Qed.
    Lemma tidy_split : forall s n i k probs sum time label s', tidy (fr s) -> good n -> split_above O rnd c s n i k x probs sum time label = Ok s' -> tidy (fr s').
    Proof.
      intros s n i k probs sum time label s' T G H. unfold split_above in H. inv_bind H. destruct v as [f [d [up sp]]]. destruct (tidy_choose _ _ _ _ _ _ _ _ G E) as [Nf Cs].
      assert (T0 : tidy (fr (with_fr O s f))) by (unfold tidy; cbn; now rewrite Nf).
      inv_bind H. destruct v as [a s1]. pose proof (tidy_available _ _ _ E0 T0) as T1. inv_bind H. rename v into s2.
      assert (T2 : tidy (fr s2)) by (eapply tidy_change; [exact T1| |exact E1]; intros m m' [G1 [G2 G3]] X; injection X as <-; split; [|split]; auto).
      inv_bind H. destruct v as [b s3]. pose proof (tidy_available _ _ _ E2 T2) as T3. inv_bind H. rename v into s4.
      assert (T4 : tidy (fr s4)).
      { unfold parent_counters in E3. destruct (_ =? EXTEND_ORIGINAL); [refine (tidy_change _ _ _ _ _ _ E3); [exact T3|intros m m' Gm X; injection X as <-; exact Gm]|].
        destruct (_ =? EXTEND_GHOST); [|injection E3 as <-; exact T3]. inv_bind E3. eapply tidy_label; [|exact E3]. refine (tidy_change _ _ _ _ _ _ E4); [exact T3|intros m m' Gm X; injection X as <-; exact Gm]. }
      inv_bind H. injection H as <-. cbn. eapply tidy_insert; eauto.
    Qed.
    Lemma tidy_extend : forall k label steps s i s', tidy (fr s) -> extend_block O log_ rnd c steps s i k x label = Ok s' -> tidy (fr s').
    Proof.
      intros k label. induction steps as [|steps IH]; intros s i s' T H; [discriminate|]. rewrite extend_S in H.
      assert (Dd : forall s i s', tidy (fr s) -> descend O log_ rnd c k x label steps s i = Ok s' -> tidy (fr s')).
      { clear s i s' T H. intros s i s' T H. unfold descend in H. inv_bind H. destruct (is_leaf O v); [eapply tidy_leaf; eauto|]. inv_bind H. inv_bind H. inv_bind H.
        assert (T2 : tidy (fr v2)) by (destruct (nle O v0 v1); [eapply IH; eauto|]; destruct (nlt O v1 v0); [eapply IH; eauto|injection E2 as <-; exact T]).
        destruct (_ =? EXTEND_GHOST); [eapply tidy_label; eauto|injection H as <-; exact T2]. }
      inv_bind H. rename v into n. inv_bind H. inv_bind H. destruct v0 as [probs sum]. destruct (draw_time O log_ rnd s sum) as [e s1] eqn:Ed.
      assert (T1 : tidy (fr s1)) by (unfold draw_time in Ed; destruct (neq O sum (n_ 0)); injection Ed as <- <-; exact T).
      inv_bind H. pose proof (rd_Forall _ _ _ _ _ T E) as G. destruct (_ && _ && _ && _) in H.
      - inv_bind H. assert (T2 : tidy (fr v1)) by (eapply tidy_split; [exact T1|exact G|exact E3]). destruct (_ =? EXTEND_COUNTER_NO_UPDATE); [eapply Dd; eauto|injection H as <-; exact T2].
      - destruct (_ || _ || _) in H.
        + inv_bind H. eapply Dd; [|exact H]. eapply tidy_change; [exact T1| |exact E3]. intros m m'. apply tidy_update.
        + destruct (_ =? EXTEND_GHOST); [eapply tidy_leaf; eauto|]. destruct (_ =? EXTEND_COUNTER_NO_UPDATE); [eapply Dd; eauto|injection H as <-; exact T1].
    Qed.
    Lemma tidy_tree : forall s label k s' b, c_extend O c <> EXTEND_BARYCENTER -> tidy (fr s) -> train_tree O log_ rnd c s x label k = Ok (s', b) -> tidy (fr s').
    Proof.
      intros s label k s' b Hk T H. unfold train_tree in H. inv_bind H. destruct (v =? -1).
      - inv_bind H. destruct v0 as [a s1]. pose proof (tidy_available _ _ _ E0 T) as T1. destruct (0 <=? a); [|injection H as <- _; exact T1].
        inv_bind H. unfold set_root in E1. inv_bind E1. injection E1 as <-. inv_bind H. inv_bind H. injection H as <- _. cbn. eapply tidy_sample; [|exact E3]. cbn.
        refine (tidy_change _ _ _ _ _ _ E1); [exact T1|intros m m' G X; injection X as <-; exact G].
      - inv_bind H. destruct (_ || _ || _ || _) in H; [inv_bind H; injection H as <- _; eapply tidy_extend; eauto|].
        destruct (_ && _) in H; [injection H as <- _; exact T|]. rewrite (proj2 (Z.eqb_neq _ _) Hk) in H. injection H as <- _. exact T.
    Qed.
  End Point.

  Lemma tidy_train : forall s x label s' b, c_extend O c <> EXTEND_BARYCENTER -> c_trim O c = TRIM_NONE -> Forall fine x -> tidy (fr s) -> train O log_ rnd c s x label = Ok (s', b) -> tidy (fr s').
  Proof.
    intros s x label s' b Hk Ht Fx T H. unfold train in H. rewrite Ht in H. change (TRIM_NONE =? TRIM_FADING) with false in H. change (negb (TRIM_NONE =? TRIM_NONE)) with false in H. inv_bind H. destruct v as [sums u]. cbn [andb bind] in H. inv_bind H. destruct v as [s1 b1].
    inv_bind H. injection H as <- _. assert (T1 : tidy (fr s1)).
    { change s1 with (fst (s1, b1)). refine (forZ_inv_post _ (fun _ (q : coarse * bool) => tidy (fr (fst q))) _ _ 0 _ _ _ _ E0); [exact T|].
      intros i [q bq] q' _ Tq H. inv_bind H. destruct v0 as [q1 b2]. inv_bind H. injection H as <-. cbn [fst] in *. assert (Tq1 : tidy (fr q1)) by (eapply tidy_tree; eauto).
      destruct (c_optimize O c); [|injection E3 as <-; exact Tq1]. apply update_branch_ok in E3. destruct E3 as [R1 _]. now apply tidy_recounted with (fr q1). }
    destruct (_ <=? 1) in E1; [inv_bind E1; injection E1 as <-; exact T1|injection E1 as <-; exact T1].
  Qed.
  Lemma tidy_reached : c_extend O c <> EXTEND_BARYCENTER -> c_trim O c = TRIM_NONE -> forall s h, creached s h -> Forall (fun p => Forall fine (fst p)) h -> tidy (fr s).
  Proof.
    intros Hk Ht s h H. induction H as [|s h x label s' b R IH Hx Hl T|s h x sc k s' b sc' R IH Hx T]; intros F.
    - apply Forall_forall. intros n Hn. apply repeat_spec in Hn. subst n. split; [|split]; [| |exact (l_fine _ _ _ _ _ _ L _ F0)]; apply Forall_forall; intros o Ho; apply repeat_spec in Ho; subst o; exact F0.
    - inversion F; subst. eapply tidy_train; eauto.
    - unfold predict in T. inv_bind T. inv_bind T. inv_bind T. injection T as <- _ _. destruct (_ && _) in E; [|injection E as <-; auto]. apply update_all_ok in E. destruct E as [R1 _]. apply tidy_recounted with (fr s); auto.
  Qed.
  Lemma tidy_settled : forall f x t p, tidy f -> Forall fine x -> stored O fc lc f p t -> settled O x t.
  Proof.
    intros f x t. induction t as [i cs|i d v cs l IHl r IHr]; intros p T Fx St; [exact I|]. destruct St as [n [N1 [_ [_ [_ [_ [_ [_ [N2 [_ [_ [Sl Sr]]]]]]]]]]]]. cbn [settled].
    split; [|split; eauto]. intros xd Hd Hn. pose proof (rd_Forall _ _ _ _ _ T N1) as [_ [_ G]]. rewrite N2 in G. pose proof (l_fine _ _ _ _ _ _ L _ (rd_Forall _ _ _ _ _ Fx Hd)) as Cx.
    apply (l_lt _ _ _ _ _ _ L). split; [exact G|]. split; [exact Cx|]. destruct (Rle_lt_dec (key xd) (key v)) as [X|X]; [|exact X].
    assert (Y : nle O xd v = true) by (apply (l_le _ _ _ _ _ _ L); auto). congruence.
  Qed.
End Tidy.
