(** * Proofs for the coarse Mondrian forest: predictions are defined *)
From Coq Require Import ZArith List Bool Lia.
From Verif Require Import CppBase CppFacts NumOps Utils_Model Mondrian_Model Mondrian_Spec Mondrian_Proofs Coarse_Model Coarse_Spec Coarse_Heap Coarse_Walk Coarse_Train Coarse_Trim Coarse_Forest Coarse_Reach Coarse_Tidy Coarse_Total.
From Verif Require Unbound_Model.
Import ListNotations.
Local Open Scope Z_scope.

Section Predict.
  Variable O : ops.
  Variable exp_ log_ : num O -> num O.
  Variable rnd : nat -> num O.
  Variable c : config O.
  Variable l0 : Z.
  Hypothesis Tl : tlaws O.
  Hypothesis Hs : csizes O c l0.
  Local Notation n_ := (nofZ O).
  Local Notation node := (node O).
  Local Notation forest := (forest O).
  Local Notation coarse := (coarse O).
  Local Notation fr := (fr O).
  Local Notation nodes := (nodes O).
  Local Notation roots := (roots O).
  Local Notation get := (get O).
  Local Notation put := (put O).
  Local Notation avail := (avail O).
  Local Notation counters := (counters O).
  Local Notation fc := (c_features O c).
  Local Notation lc := (c_labels O c).
  Local Notation nc := (c_nodes O c).
  Local Notation tc := (c_trees O c).
  Local Notation life := (c_life O c).
  Local Notation kind := (c_extend O c).
  Local Notation ctree := (ctree O).
  Local Notation ctop := (ctop O).
  Local Notation cids := (cids O).
  Local Notation csize := (csize O).
  Local Notation stored := (stored O fc lc).
  Local Notation inv := (inv O c).
  Local Notation creached := (creached O exp_ log_ rnd c l0).
  Let Hfc : 1 <= fc := proj1 (proj2 Hs).
  Let Hlc : 1 <= lc := proj1 (proj2 (proj2 Hs)).

  (** ** Every box is complete *)
  Definition box_ok (b : list (option (num O))) : Prop := length b = Z.to_nat fc /\ Forall (fun o => o <> None) b.
  Definition whole (n : node) : Prop := box_ok (bound_lower O n) /\ box_ok (bound_upper O n).
  Definition full (f : forest) : Prop := Forall whole (nodes f).
  Lemma box_rdi : forall b i, box_ok b -> 0 <= i < fc -> exists v, rdi b i = Ok v.
  Proof.
    intros b i [Lb F] Hi. unfold rdi. destruct (rd_in_bounds _ b i) as [o Ho]; [lia|]. rewrite Ho. cbn [bind]. pose proof (rd_Forall _ _ _ _ _ F Ho) as X. destruct o; [eauto|now elim X].
  Qed.
  Lemma full_node : forall f i g f', full f -> (forall n n', whole n -> g n = Ok n' -> whole n') -> with_node O f i g = Ok f' -> full f'.
  Proof.
    intros f i g f' T H E. apply with_node_inv in E. destruct E as [n [n' [A [B ->]]]]. unfold full. cbn. apply Forall_upd; [exact T|]. apply (H n); [|exact B]. now apply (rd_Forall _ _ _ _ _ T A).
  Qed.
  Lemma full_change : forall s i g s', full (fr s) -> (forall n n', whole n -> g n = Ok n' -> whole n') -> change O s i g = Ok s' -> full (fr s').
  Proof. intros s i g s' T H E. unfold change in E. inv_bind E. injection E as <-. cbn. now apply full_node with (fr s) i g. Qed.
  Lemma full_available : forall s i s', available_node O c s = Ok (i, s') -> full (fr s) -> full (fr s').
  Proof. intros s i s' H T. apply available_node_inv in H. destruct H as [[_ ->]|[n [_ [_ ->]]]]; exact T. Qed.
  Lemma full_recounted : forall f f', recounted O f f' -> full f -> full f'.
  Proof.
    intros f f' [_ [Ln H]] T. apply Forall_forall. intros n' Hn'. apply In_nth_error in Hn'. destruct Hn' as [k Hk]. assert (Lk : (k < length (nodes f'))%nat) by (apply nth_error_Some; congruence).
    destruct (rd_in_bounds _ (nodes f) (Z.of_nat k)) as [n Hn]; [lia|]. destruct (H _ _ Hn) as [cs [H1 _]]. apply rd_ok_iff in H1. rewrite Nat2Z.id in H1. destruct H1 as [_ H1]. assert (n' = set_counters O n cs) by congruence. subst n'.
    exact (rd_Forall _ _ _ _ _ T Hn).
  Qed.
  Lemma full_drawn : forall s s', drawn_only O s s' -> full (fr s) -> full (fr s').
  Proof. intros s s' [E _] T. unfold full. now rewrite E. Qed.
  Definition boxes_ok (i : Z) (q : list (option (num O)) * list (option (num O))) : Prop :=
    0 <= i /\ length (fst q) = Z.to_nat i /\ length (snd q) = Z.to_nat i /\ Forall (fun o => o <> None) (fst q) /\ Forall (fun o => o <> None) (snd q).
  Lemma boxes_done : forall lo hi, boxes_ok (0 + Z.of_nat (Z.to_nat fc)) (lo, hi) -> box_ok lo /\ box_ok hi.
  Proof. intros lo hi [_ [A [B [D E]]]]. cbn [fst snd] in *. repeat split; auto; lia. Qed.
  Lemma boxes_snoc : forall i a b u v, boxes_ok i (a, b) -> boxes_ok (i + 1) (a ++ [Some u], b ++ [Some v]).
  Proof.
    intros i a b u v [A [B [D [E F]]]]. cbn [fst snd] in *. split; [lia|]. cbn [fst snd]. rewrite !app_length. cbn [length]. split; [lia|]. split; [lia|].
    split; apply Forall_app; (split; [assumption|]); constructor; try discriminate; constructor.
  Qed.

  Section Point.
    Variable x : list (num O).
    Lemma full_sample : forall f i label f', full f -> sample_block O fc life f i x label = Ok f' -> full f'.
    Proof.
      intros f i label f' T H. unfold sample_block in H. inv_bind H. destruct v as [lo hi].
      assert (B : box_ok lo /\ box_ok hi).
      { apply boxes_done. refine (forZ_inv_post _ boxes_ok _ _ 0 _ _ _ _ E); [repeat split; try lia; constructor|].
        intros j [a b] s' _ P H1. inv_bind H1. injection H1 as <-. now apply boxes_snoc. }
      eapply full_node; [exact T| |exact H]. intros n n' G X. inv_bind X. inv_bind X. inv_bind X. injection X as <-. exact B.
    Qed.
    Lemma full_joined : forall n lo hi, joined_box O fc n x = Ok (lo, hi) -> box_ok lo /\ box_ok hi.
    Proof.
      intros n lo hi E. apply boxes_done. refine (forZ_inv_post _ boxes_ok _ _ 0 _ _ _ _ E); [repeat split; try lia; constructor|].
      intros j [a b] s' _ P H1. inv_bind H1. inv_bind H1. inv_bind H1. injection H1 as <-. now apply boxes_snoc.
    Qed.
    Lemma full_update : forall n n', whole n -> update_box O fc n x = Ok n' -> whole n'.
    Proof.
      intros n n' G H. unfold update_box in H. inv_bind H. destruct v as [lo hi]. injection H as <-.
      enough (P : box_ok (fst (lo, hi)) /\ box_ok (snd (lo, hi))) by exact P.
      refine (forZ_inv_post _ (fun (_ : Z) (s : list (option (num O)) * list (option (num O))) => box_ok (fst s) /\ box_ok (snd s)) _ _ 0 _ _ _ _ E); [exact G|].
      intros j [a b] s' _ [[P1 P2] [P3 P4]] H1. cbn in P1, P2, P3, P4. inv_bind H1. inv_bind H1. inv_bind H1. inv_bind H1. inv_bind H1. injection H1 as <-. cbn.
      pose proof (wr_length _ _ _ _ _ E2). pose proof (wr_length _ _ _ _ _ E4).
      split; (split; [congruence|]); [eapply wr_Forall; [exact P2| |exact E2]|eapply wr_Forall; [exact P4| |exact E4]]; discriminate.
    Qed.
    Lemma full_choose : forall f n probs sum f' d up v, Unbound_Model.choose_split O rnd fc f n x probs sum = Ok (f', (d, (up, v))) -> nodes f' = nodes f.
    Proof.
      intros f n probs sum f' d up v H. unfold Unbound_Model.choose_split, Mondrian_Model.uniform in H. inv_bind H. inv_bind H. inv_bind H. inv_bind H. inv_bind H. inv_bind H. destruct v5 as [a b].
      now injection H as <- <- <- <-.
    Qed.
    Lemma full_insert : forall f i k label d up a b f', full f -> insert_above O fc lc life f i k x label d up a b = Ok f' -> full f'.
    Proof.
      intros f i k label d up a b f' T H. unfold insert_above in H. inv_bind H. inv_bind H. destruct v0 as [lo hi]. destruct (full_joined v lo hi E0) as [B1 B2].
      inv_bind H. assert (T1 : full v0) by (eapply full_node; [exact T| |exact E1]; intros n n' G X; injection X as <-; split; auto).
      inv_bind H. assert (T2 : full v1) by (eapply full_node; [exact T1| |exact E2]; intros n n' G X; injection X as <-; exact G).
      inv_bind H. inv_bind H. assert (T3 : full v3) by (eapply full_node; [exact T2| |exact E4]; intros n n' G X; injection X as <-; exact G).
      inv_bind H. inv_bind H. inv_bind H. assert (T4 : full v6).
      { destruct (_ && _) in E7; [inv_bind E7; injection E7 as <-; exact T3|]. eapply full_node; [exact T3| |exact E7]. intros n n' G X. injection X as <-. destruct (_ =? _); exact G. }
      inv_bind H. assert (T5 : full v7) by (eapply full_node; [exact T4| |exact E8]; intros n n' G X; injection X as <-; exact G).
      inv_bind H. assert (T6 : full v8) by (eapply full_node; [exact T5| |exact E9]; intros n n' G X; injection X as <-; exact G).
      inv_bind H. inv_bind H. assert (T7 : full v10) by (eapply full_node; [exact T6| |exact E11]; intros n n' G X; injection X as <-; destruct (neq O _ _); exact G).
      eapply full_sample; eauto.
    Qed.
    Lemma full_label : forall s i label s', full (fr s) -> add_label O s i label = Ok s' -> full (fr s').
    Proof. intros s i label s' T H. eapply full_change; [exact T| |exact H]. intros n n' G X. inv_bind X. inv_bind X. inv_bind X. injection X as <-. exact G. Qed.
    Lemma full_leaf : forall s i label s', full (fr s) -> add_leaf O s i label = Ok s' -> full (fr s').
    Proof. intros s i label s' T H. unfold add_leaf in H. inv_bind H. unfold add_fading in H. inv_bind H. inv_bind H. injection H as <-. cbn. eapply full_label; eauto. Qed.
    Lemma full_split : forall s n i k probs sum time label s', full (fr s) -> split_above O rnd c s n i k x probs sum time label = Ok s' -> full (fr s').
    Proof.
      intros s n i k probs sum time label s' T H. unfold split_above in H. inv_bind H. destruct v as [f [d [up sp]]]. pose proof (full_choose _ _ _ _ _ _ _ _ E) as Nf.
      assert (T0 : full (fr (with_fr O s f))) by (unfold full; cbn; now rewrite Nf).
      inv_bind H. destruct v as [a s1]. pose proof (full_available _ _ _ E0 T0) as T1. inv_bind H. rename v into s2.
      assert (T2 : full (fr s2)) by (eapply full_change; [exact T1| |exact E1]; intros m m' G X; injection X as <-; exact G).
      inv_bind H. destruct v as [b s3]. pose proof (full_available _ _ _ E2 T2) as T3. inv_bind H. rename v into s4.
      assert (T4 : full (fr s4)).
      { unfold parent_counters in E3. destruct (_ =? EXTEND_ORIGINAL); [refine (full_change _ _ _ _ _ _ E3); [exact T3|intros m m' Gm X; injection X as <-; exact Gm]|].
        destruct (_ =? EXTEND_GHOST); [|injection E3 as <-; exact T3]. inv_bind E3. eapply full_label; [|exact E3]. refine (full_change _ _ _ _ _ _ E4); [exact T3|intros m m' Gm X; injection X as <-; exact Gm]. }
      inv_bind H. injection H as <-. cbn. eapply full_insert; eauto.
    Qed.
    Lemma full_extend : forall k label steps s i s', full (fr s) -> extend_block O log_ rnd c steps s i k x label = Ok s' -> full (fr s').
    Proof.
      intros k label. induction steps as [|steps IH]; intros s i s' T H; [discriminate|]. rewrite extend_S in H.
      assert (Dd : forall s i s', full (fr s) -> descend O log_ rnd c k x label steps s i = Ok s' -> full (fr s')).
      { clear s i s' T H. intros s i s' T H. unfold descend in H. inv_bind H. destruct (is_leaf O v); [eapply full_leaf; eauto|]. inv_bind H. inv_bind H. inv_bind H.
        assert (T2 : full (fr v2)) by (destruct (nle O v0 v1); [eapply IH; eauto|]; destruct (nlt O v1 v0); [eapply IH; eauto|injection E2 as <-; exact T]).
        destruct (_ =? EXTEND_GHOST); [eapply full_label; eauto|injection H as <-; exact T2]. }
      inv_bind H. rename v into n. inv_bind H. inv_bind H. destruct v0 as [probs sum]. destruct (draw_time O log_ rnd s sum) as [e s1] eqn:Ed.
      assert (T1 : full (fr s1)) by (unfold draw_time in Ed; destruct (neq O sum (n_ 0)); injection Ed as <- <-; exact T).
      inv_bind H. destruct (_ && _ && _ && _) in H.
      - inv_bind H. assert (T2 : full (fr v1)) by (eapply full_split; [exact T1|exact E3]). destruct (_ =? EXTEND_COUNTER_NO_UPDATE); [eapply Dd; eauto|injection H as <-; exact T2].
      - destruct (_ || _ || _) in H.
        + inv_bind H. eapply Dd; [|exact H]. eapply full_change; [exact T1| |exact E3]. intros m m'. apply full_update.
        + destruct (_ =? EXTEND_GHOST); [eapply full_leaf; eauto|]. destruct (_ =? EXTEND_COUNTER_NO_UPDATE); [eapply Dd; eauto|injection H as <-; exact T1].
    Qed.
    Lemma full_tree : forall s label k s' b, c_extend O c <> EXTEND_BARYCENTER -> full (fr s) -> train_tree O log_ rnd c s x label k = Ok (s', b) -> full (fr s').
    Proof.
      intros s label k s' b Hk T H. unfold train_tree in H. inv_bind H. destruct (v =? -1).
      - inv_bind H. destruct v0 as [a s1]. pose proof (full_available _ _ _ E0 T) as T1. destruct (0 <=? a); [|injection H as <- _; exact T1].
        inv_bind H. unfold set_root in E1. inv_bind E1. injection E1 as <-. inv_bind H. inv_bind H. injection H as <- _. cbn. eapply full_sample; [|exact E3]. cbn.
        refine (full_change _ _ _ _ _ _ E1); [exact T1|intros m m' G X; injection X as <-; exact G].
      - inv_bind H. destruct (_ || _ || _ || _) in H; [inv_bind H; injection H as <- _; eapply full_extend; eauto|].
        destruct (_ && _) in H; [injection H as <- _; exact T|]. rewrite (proj2 (Z.eqb_neq _ _) Hk) in H. injection H as <- _. exact T.
    Qed.
  End Point.
  Lemma whole_blank : whole (blank_node O c).
  Proof. split; (split; [apply repeat_length|]); apply Forall_forall; intros o Ho; apply repeat_spec in Ho; subst o; discriminate. Qed.
  Lemma full_reset : forall s i s', full (fr s) -> reset_node O c s i = Ok s' -> full (fr s').
  Proof.
    intros s i s' T H. unfold reset_node in H. inv_bind H. inv_bind H. inv_bind H. injection H as <-. cbn. refine (full_change _ _ _ _ T _ E). intros n n' _ X. injection X as <-. exact whole_blank.
  Qed.
  Lemma full_reset_walk : forall root steps s i d k stack s' b, full (fr s) -> reset_walk O c root steps s i d k stack = Ok (s', b) -> full (fr s').
  Proof.
    intros root. induction steps as [|steps IH]; intros s i d k stack s' b T H; cbn [reset_walk] in H; [discriminate|].
    destruct (_ && _); [|injection H as <- _; exact T]. inv_bind H. destruct (is_leaf O v).
    - inv_bind H. assert (T0 : full (fr v0)) by (eapply full_reset; [|exact E0]; exact T). destruct (_ =? _); [injection H as <- _; exact T0|]. destruct (_ <=? _); [injection H as <- _; exact T0|eapply IH; eauto].
    - inv_bind H. destruct (v0 =? -1); [|destruct (v0 =? 0); [|destruct (v0 =? 1)]].
      + inv_bind H. destruct (_ <=? _); [injection H as <- _; exact T|eapply IH; eauto].
      + inv_bind H. destruct (_ <=? _); [injection H as <- _; exact T|eapply IH; eauto].
      + inv_bind H. assert (T0 : full (fr v1)) by (eapply full_reset; [|exact E1]; exact T). destruct (_ =? _); [injection H as <- _; exact T0|]. inv_bind H. eapply IH; eauto.
      + eapply IH; eauto.
  Qed.
  Lemma full_cut : forall s i k s', full (fr s) -> cut_block O c s i k = Ok s' -> full (fr s').
  Proof.
    intros s i k s' T H. unfold cut_block in H. inv_bind H. inv_bind H. destruct (parent O v0 =? -1) in H.
    - inv_bind H. assert (T1 : full (fr v1)) by (eapply full_reset; eauto). inv_bind H. destruct v2 as [s2 b2]. assert (T2 : full (fr s2)) by (eapply full_reset_walk; [|exact E2]; exact T1).
      inv_bind H. unfold set_root in E3. inv_bind E3. injection E3 as <-. refine (full_change _ _ _ _ _ _ H); [exact T2|]. intros n n' G X. injection X as <-. exact G.
    - inv_bind H. assert (T1 : full (fr v1)) by (refine (full_change _ _ _ _ T _ E1); intros n n' G X; injection X as <-; destruct (child_right O n =? parent O v); exact G).
      inv_bind H. assert (T2 : full (fr v2)) by (refine (full_change _ _ _ _ T1 _ E2); intros n n' G X; injection X as <-; exact G).
      inv_bind H. assert (T3 : full (fr v3)) by (eapply full_reset; [|exact E3]; exact T2). inv_bind H. destruct v4 as [s4 b4]. injection H as <-. eapply full_reset_walk; [|exact E4]; exact T3.
  Qed.
  Lemma full_trim : forall s s', full (fr s) -> tree_trim O rnd c s = Ok s' -> full (fr s').
  Proof.
    intros s s' T H. unfold tree_trim in H. refine (forZ_inv_post _ (fun _ q => full (fr q)) _ _ 0 _ _ T _ H).
    intros i q q' _ Tq H1. inv_bind H1. destruct v as [q1 id]. assert (T1 : full (fr q1)).
    { unfold pick_trim in E. inv_bind E. inv_bind E. destruct v0 as [d [q2 t]]. injection E as <- _. eapply full_drawn; [|exact Tq].
      change q2 with (fst (snd (d, (q2, t)))). eapply walk_keeps; [apply drawn_only_refl|apply drawn_only_trans| |exact E1]. intros a i0 b a' b' X. now apply trim_visit_ok in X; [|exact Tl]. }
    inv_bind H1. destruct (_ && _ && _) in H1; [eapply full_cut; eauto|injection H1 as <-; exact T1].
  Qed.
  Lemma full_train : forall s x label s' b, kind <> EXTEND_BARYCENTER -> full (fr s) -> train O log_ rnd c s x label = Ok (s', b) -> full (fr s').
  Proof.
    intros s x label s' b Hk T H. unfold train in H. inv_bind H. destruct v as [sums u]. inv_bind H. assert (T1 : full (fr v)) by (destruct (_ =? _) in E0; [apply fade_ok in E0; eapply full_drawn; [exact E0|exact T]|injection E0 as <-; exact T]).
    inv_bind H. assert (T2 : full (fr v0)) by (destruct (_ && _ && _) in E1; [eapply full_trim; eauto|injection E1 as <-; exact T1]).
    inv_bind H. destruct v1 as [s1 b1]. inv_bind H. injection H as <- _. assert (T3 : full (fr s1)).
    { change s1 with (fst (s1, b1)). refine (forZ_inv_post _ (fun _ (q : coarse * bool) => full (fr (fst q))) _ _ 0 _ _ _ _ E2); [exact T2|].
      intros i [q bq] q' _ Tq H. inv_bind H. destruct v2 as [q1 b2]. inv_bind H. injection H as <-. cbn [fst] in *. assert (Tq1 : full (fr q1)) by (eapply full_tree; eauto).
      destruct (c_optimize O c); [|injection E5 as <-; exact Tq1]. apply update_branch_ok in E5. destruct E5 as [R1 _]. now apply full_recounted with (fr q1). }
    destruct (_ <=? 1) in E3; [inv_bind E3; injection E3 as <-; exact T3|injection E3 as <-; exact T3].
  Qed.
  Lemma full_reached : kind <> EXTEND_BARYCENTER -> forall s h, creached s h -> full (fr s).
  Proof.
    intros Hk s h H. induction H as [|s h x label s' b R IH Hx Hl T|s h x sc k s' b sc' R IH Hx T].
    - apply Forall_forall. intros n Hn. apply repeat_spec in Hn. subst n. apply whole_blank.
    - eapply full_train; eauto.
    - unfold predict in T. inv_bind T. inv_bind T. inv_bind T. injection T as <- _ _. destruct (_ && _) in E; [|injection E as <-; auto]. apply update_all_ok in E. destruct E as [R1 _]. apply full_recounted with (fr s); auto.
  Qed.

  (** ** Recounting *)
  Local Notation def := (defined True).
  Lemma def_ok : forall A (m : res A), def m -> exists v, m = Ok v.
  Proof. intros A m [H|[_ H]]; [exact H|]. now elim H. Qed.
  Lemma recounted_node : forall f g j n, recounted O f g -> rd (nodes f) j = Ok n -> length (counters n) = Z.to_nat lc ->
    exists cs, rd (nodes g) j = Ok (set_counters O n cs) /\ length cs = Z.to_nat lc.
  Proof. intros f g j n [_ [_ H]] Hn Hc. destruct (H j n Hn) as [cs [A [B _]]]. exists cs. split; [exact A|congruence]. Qed.
  Lemma stored_top : forall t f p, stored f p t -> exists n, rd (nodes f) (ctop t) = Ok n /\ parent O n = p /\ length (counters n) = Z.to_nat lc.
  Proof. intros [i cs|i d v cs l r] f p H; cbn [Coarse_Spec.stored] in H; destruct H as [n [A [B [_ [D _]]]]]; eauto. Qed.
  Lemma posterior_total : forall t f0 f p steps, stored f0 p t -> recounted O f0 f -> csize t <= Z.of_nat steps -> def (update_posterior_count O lc steps f (ctop t)).
  Proof.
    induction t as [i cs|i d v cs l IHl r IHr]; intros f0 f p steps T Rc Hz.
    - destruct T as [n [A [_ [_ [B [_ [D _]]]]]]]. cbn [Coarse_Spec.ctop] in *. destruct steps as [|steps]; [unfold Coarse_Walk.csize in Hz; cbn in Hz; lia|]. cbn [update_posterior_count].
      destruct (recounted_node _ _ _ _ Rc A B) as [cs' [E _]]. rewrite E. cbn [bind]. unfold is_leaf. cbn [split_dimension set_counters]. rewrite D. apply defined_ok.
    - destruct T as [n [A [_ [_ [B [_ [D [D1 [_ [Cl [Cr [Tl' Tr]]]]]]]]]]]]. cbn [Coarse_Spec.ctop] in *. rewrite csize_fork in Hz. pose proof (csize_pos O l). pose proof (csize_pos O r). destruct steps as [|steps]; [lia|]. cbn [update_posterior_count].
      destruct (recounted_node _ _ _ _ Rc A B) as [cs' [E _]]. rewrite E. cbn [bind]. unfold is_leaf. cbn [split_dimension set_counters child_left child_right]. rewrite D, (proj2 (Z.eqb_neq d (-1))) by lia. rewrite Cl, Cr.
      apply defined_bind; [eapply IHl; eauto; lia|]. intros f1 E1. apply posterior_ok in E1. assert (R1 : recounted O f0 f1) by (eapply recounted_trans; eauto).
      apply defined_bind; [eapply IHr; eauto; lia|]. intros f2 E2. apply posterior_ok in E2. assert (R2 : recounted O f0 f2) by (eapply recounted_trans; eauto).
      apply defined_forZ with (P := fun _ g => recounted O f0 g); [|exact R2]. intros j g Hj Rg. rewrite Z.add_0_l in Hj.
      destruct (recounted_node _ _ _ _ Rg A B) as [ci [Ei Li]]. destruct (stored_top _ _ _ Tl') as [nl [Al [_ Bl]]]. destruct (stored_top _ _ _ Tr) as [nr [Ar [_ Br]]].
      destruct (recounted_node _ _ _ _ Rg Al Bl) as [cl [El Ll]]. destruct (recounted_node _ _ _ _ Rg Ar Br) as [cr [Er Lr]].
      rewrite Ei. cbn [bind child_left child_right set_counters]. rewrite Cl, Cr, El. cbn [bind Mondrian_Model.counters set_counters]. destruct (rd_in_bounds _ cl j) as [a Ha]; [lia|]. rewrite Ha. cbn [bind]. rewrite Er. cbn [bind Mondrian_Model.counters set_counters].
      destruct (rd_in_bounds _ cr j) as [b Hb]; [lia|]. rewrite Hb. cbn [bind]. unfold with_node. rewrite Ei. cbn [bind Mondrian_Model.counters set_counters]. rewrite wr_ok by lia. cbn [bind]. apply rd_ok_iff in Ei as Bi. destruct Bi as [Bi Bn].
      assert (Lt : 0 <= i < Z.of_nat (length (nodes g))) by (split; [exact Bi|]; assert (Z.to_nat i < length (nodes g))%nat by (apply nth_error_Some; congruence); lia).
      rewrite wr_ok by exact Lt. cbn [bind]. split; [apply defined_ok|]. intros g' X. injection X as <-. eapply recounted_trans; [exact Rg|].
      refine (recount_one O g i (set_counters O n ci) _ Ei _ _); [cbn; rewrite upd_length; reflexivity|cbn; rewrite Cl]. intros X. rewrite X, rd_oob in Al by lia. discriminate.
  Qed.
  Lemma tree_small : forall s ts t i, inv s ts -> nth_error ts i = Some (Some t) -> csize t <= nc /\ forall j, In j (cids t) -> 0 <= j < nc.
  Proof.
    intros s ts t i [_ [_ [[P1 [P2 [P3 [P4 [P5 P6]]]]] _]]] Ht. assert (In' : forall j, In j (cids t) -> In j (all_cids O ts)) by (intros j Hj; eapply all_cids_in; eauto).
    split; [|intros j Hj; apply P3; auto]. assert (N : NoDup (cids t)).
    { apply nth_error_split in Ht. destruct Ht as [a [b [-> _]]]. rewrite all_cids_app, all_cids_cons in P2. apply nodup_app in P2. destruct P2 as [_ [P2 _]]. apply nodup_app in P2. apply P2. }
    assert (X : (length (cids t) <= length (zrange nc))%nat) by (apply NoDup_incl_length; [exact N|]; intros j Hj; apply zrange_in, P3; auto).
    rewrite zrange_length in X. assert (0 <= nc) by (pose proof Hs as HH; unfold csizes in HH; lia). unfold Coarse_Walk.csize. lia.
  Qed.
  Lemma update_all_total : forall s ts, inv s ts -> def (update_all O c s).
  Proof.
    intros s ts V. unfold update_all. apply defined_bind; [|intros; apply defined_ok]. apply defined_forZ with (P := fun _ f => recounted O (fr s) f); [|apply recounted_refl].
    intros j f Hj Rc. rewrite Z.add_0_l in Hj. pose proof V as [Ln [Tr _]]. destruct (nth_error ts (Z.to_nat j)) as [o|] eqn:Ho; [|apply nth_error_None in Ho; lia].
    destruct (Tr _ _ Ho) as [Er To]. rewrite Z2Nat.id in Er by lia. pose proof Rc as [Rr _]. rewrite Rr, Er. cbn [bind]. destruct o as [t|]; cbn [rid].
    - destruct (tree_small _ _ _ _ V Ho) as [Sz Bd]. assert (0 <= ctop t) by (apply Bd; destruct t; now left). rewrite (proj2 (Z.eqb_neq (ctop t) (-1))) by lia.
      split; [eapply posterior_total; eauto; lia|]. intros f' E. apply posterior_ok in E. eapply recounted_trans; eauto.
    - change (-1 =? -1) with true. cbn iota. split; [apply defined_ok|]. intros f' E. injection E as <-. exact Rc.
  Qed.

  (** ** One tree *)
  Section Asked.
    Variable x : list (num O).
    Hypothesis Hx : Z.of_nat (length x) = fc.
    Lemma eta_total : forall n, whole n -> def (compute_eta O fc n x).
    Proof.
      intros n [B1 B2]. unfold compute_eta. apply defined_forZ with (P := fun _ _ => True); [|exact I]. intros j e Hj _. split; [|auto]. rewrite Z.add_0_l in Hj.
      destruct (rd_in_bounds _ x j) as [y Hy]; [lia|]. destruct (box_rdi _ j B2) as [u Hu]; [lia|]. destruct (box_rdi _ j B1) as [w Hw]; [lia|].
      rewrite Hy. cbn [bind]. rewrite Hu. cbn [bind]. rewrite Hw. cbn [bind]. apply defined_ok.
    Qed.
    Lemma smooth_total : forall n eta dt sep br means sm, length (counters n) = Z.to_nat lc -> length means = Z.to_nat lc -> length sm = Z.to_nat lc ->
      exists sm', smooth O exp_ lc (c_discount O c) n eta dt sep br means sm = Ok sm' /\ length sm' = Z.to_nat lc.
    Proof.
      intros n eta dt sep br means sm Lc Lm Ls. unfold smooth. destruct (nlt O _ _); [|eauto].
      match goal with |- exists _, bind ?m _ = _ /\ _ => assert (D1 : def m); [|assert (P1 : forall q, m = Ok q -> length (fst q) = Z.to_nat lc)] end.
      - apply defined_forZ with (P := fun _ _ => True); [|exact I]. intros j [q k] Hj _. split; [|auto]. rewrite Z.add_0_l in Hj. destruct (rd_in_bounds _ (counters n) j) as [y Hy]; [lia|]. rewrite Hy. apply defined_ok.
      - intros q E. assert (X : 0 <= 0 + Z.of_nat (Z.to_nat lc) /\ length (fst q) = Z.to_nat (0 + Z.of_nat (Z.to_nat lc))); [|destruct X as [_ ->]; lia].
        refine (forZ_inv_post _ (fun j q => 0 <= j /\ length (fst q) = Z.to_nat j) _ _ 0 _ _ _ _ E); [split; [lia|reflexivity]|].
        intros j [a k] q' Hj [_ La] H. inv_bind H. injection H as <-. cbn [fst] in *. rewrite app_length. cbn [length]. lia.
      - destruct (def_ok _ _ D1) as [[q k] E]. rewrite E. cbn [bind]. apply P1 in E. cbn [fst] in E.
        match goal with |- exists _, ?m = _ /\ _ => assert (D2 : def m); [|assert (P2 : forall r, m = Ok r -> length r = Z.to_nat lc)] end.
        + apply defined_forZ with (P := fun _ r => length r = Z.to_nat lc); [|exact Ls]. intros j r Hj Lr. rewrite Z.add_0_l in Hj.
          destruct (rd_in_bounds _ q j) as [y1 H1]; [lia|]. destruct (rd_in_bounds _ means j) as [y2 H2]; [lia|]. destruct (rd_in_bounds _ r j) as [y3 H3]; [lia|].
          rewrite H1. cbn [bind]. rewrite H2. cbn [bind]. rewrite H3. cbn [bind]. split; [apply defined_wr; lia|]. intros r' X. apply wr_length in X. congruence.
        + intros r X. refine (forZ_inv_post _ (fun _ r => length r = Z.to_nat lc) _ _ 0 _ _ _ _ X); [exact Ls|]. intros j a b _ La Y. inv_bind Y. inv_bind Y. inv_bind Y. apply wr_length in Y. congruence.
        + destruct (def_ok _ _ D2) as [r Er]. eauto.
    Qed.
    Lemma mean_total : forall f n means, length (counters n) = Z.to_nat lc -> length means = Z.to_nat lc -> (0 <= parent O n -> exists p, rd (nodes f) (parent O n) = Ok p) ->
      exists means', compute_posterior_mean O exp_ lc (c_discount O c) f n means = Ok means' /\ length means' = Z.to_nat lc.
    Proof.
      intros f n means Lc Lm Hp. unfold compute_posterior_mean.
      assert (Et : exists pt, parent_time O f n = Ok pt). { unfold parent_time. destruct (Z.leb_spec 0 (parent O n)) as [X|X]; [|eauto]. destruct (Hp X) as [q Hq]. rewrite Hq. cbn [bind]. eauto. }
      destruct Et as [pt ->]. cbn [bind].
      match goal with |- exists _, bind ?m _ = _ /\ _ => assert (D1 : def m); [|assert (P1 : forall q, m = Ok q -> length (fst q) = Z.to_nat lc)] end.
      - apply defined_forZ with (P := fun _ _ => True); [|exact I]. intros j [q [k1 k2]] Hj _. split; [|auto]. rewrite Z.add_0_l in Hj. destruct (rd_in_bounds _ (counters n) j) as [y Hy]; [lia|]. rewrite Hy. apply defined_ok.
      - intros q E. assert (X : 0 <= 0 + Z.of_nat (Z.to_nat lc) /\ length (fst q) = Z.to_nat (0 + Z.of_nat (Z.to_nat lc))); [|destruct X as [_ ->]; lia].
        refine (forZ_inv_post _ (fun j q => 0 <= j /\ length (fst q) = Z.to_nat j) _ _ 0 _ _ _ _ E); [split; [lia|reflexivity]|].
        intros j [a [k1 k2]] q' Hj [_ La] H. inv_bind H. injection H as <-. cbn [fst] in *. rewrite app_length. cbn [length]. lia.
      - destruct (def_ok _ _ D1) as [[q [k1 k2]] E]. rewrite E. cbn [bind]. apply P1 in E. cbn [fst] in E.
        match goal with |- exists _, ?m = _ /\ _ => assert (D2 : def m); [|assert (P2 : forall r, m = Ok r -> length r = Z.to_nat lc)] end.
        + apply defined_forZ with (P := fun _ r => length r = Z.to_nat lc); [|exact Lm]. intros j r Hj Lr. rewrite Z.add_0_l in Hj.
          destruct (rd_in_bounds _ q j) as [y1 H1]; [lia|]. destruct (rd_in_bounds _ (counters n) j) as [y2 H2]; [lia|]. destruct (rd_in_bounds _ r j) as [y3 H3]; [lia|].
          rewrite H2. cbn [bind]. destruct (0 <? y2); [|split; [apply defined_ok|]; intros r' X; injection X as <-; exact Lr]. rewrite H1. cbn [bind]. rewrite H3. cbn [bind]. split; [apply defined_wr; lia|]. intros r' X. apply wr_length in X. congruence.
        + intros r X. refine (forZ_inv_post _ (fun _ r => length r = Z.to_nat lc) _ _ 0 _ _ _ _ X); [exact Lm|]. intros j a b _ La Y. inv_bind Y. destruct (0 <? v); [|injection Y as <-; exact La]. inv_bind Y. inv_bind Y. apply wr_length in Y. congruence.
        + destruct (def_ok _ _ D2) as [r Er]. eauto.
    Qed.
    Lemma from_total : forall t s p steps depth limit sep means sm, stored (fr s) p t -> full (fr s) -> (0 <= p -> exists n, rd (nodes (fr s)) p = Ok n) -> (forall j, In j (cids t) -> 0 <= j < nc) ->
      csize t <= Z.of_nat steps -> length means = Z.to_nat lc -> length sm = Z.to_nat lc ->
      exists r, predict_from O exp_ c steps s (ctop t) x depth limit sep means sm = Ok r /\ length r = Z.to_nat lc.
    Proof.
      induction t as [i cs|i d v cs l IHl r IHr]; intros s p steps depth lim sep means sm T Fu Hp Bd Hz Lm Ls.
      all: assert (St : exists k, steps = Datatypes.S k) by (destruct steps; [pose proof (csize_pos O (CLeaf (O:=O) i cs)); unfold Coarse_Walk.csize in *; cbn in *; lia|eauto]).
      all: destruct St as [k ->]; cbn [predict_from]; assert (Bi : 0 <= i < nc) by (apply Bd; now left).
      all: cbn [Coarse_Spec.ctop]; rewrite (proj2 (Z.leb_le 0 i)), (proj2 (Z.ltb_lt i nc)) by lia; cbn [andb].
      all: destruct T as [n [A [Pn [_ [B [_ T]]]]]]; cbn [Coarse_Spec.ctop] in A; unfold Coarse_Model.get; rewrite A; cbn [bind].
      all: destruct (def_ok _ _ (eta_total n (rd_Forall _ _ _ _ _ Fu A))) as [eta Ee]; rewrite Ee; cbn [bind].
      all: match goal with |- context [smooth O exp_ lc _ ?nn ?e ?dt ?sp ?br ?mm ?ss] => destruct (smooth_total nn e dt sp br mm ss B Lm Ls) as [sm' [Es Ls']]; rewrite Es; cbn [bind] end.
      all: destruct (mean_total (fr s) n means B Lm) as [means' [Em Lm']]; [rewrite Pn; exact Hp|]; rewrite Em; cbn [bind].
      all: assert (Fin : forall w, exists r0, forZ (Z.to_nat lc) 0 (fun l0 means0 => do a <- rd sm' l0; do m <- rd means0 l0; wr means0 l0 (nadd O a (nmul O w m))) means' = Ok r0 /\ length r0 = Z.to_nat lc).
      1,3: intros w; match goal with |- exists _, ?m = _ /\ _ => assert (D2 : def m); [|assert (P2 : forall r, m = Ok r -> length r = Z.to_nat lc)] end;
        [apply defined_forZ with (P := fun _ r => length r = Z.to_nat lc); [|exact Lm']; intros j r0 Hj Lr; rewrite Z.add_0_l in Hj;
          destruct (rd_in_bounds _ sm' j) as [y1 H1]; [lia|]; destruct (rd_in_bounds _ r0 j) as [y3 H3]; [lia|]; rewrite H1; cbn [bind]; rewrite H3; cbn [bind]; split; [apply defined_wr; lia|]; intros r' X; apply wr_length in X; congruence
        |intros r0 X; refine (forZ_inv_post _ (fun _ r => length r = Z.to_nat lc) _ _ 0 _ _ _ _ X); [exact Lm'|]; intros j a b _ La Y; inv_bind Y; inv_bind Y; apply wr_length in Y; congruence
        |destruct (def_ok _ _ D2) as [r0 Er]; eauto].
      - destruct T as [D _]. unfold is_leaf. rewrite D. rewrite orb_true_r. apply Fin.
      - destruct T as [D [D1 [Dv [Cl [Cr [T1 T2]]]]]]. destruct (_ || _); [apply Fin|]. rewrite D. destruct (rd_in_bounds _ x d) as [y Hy]; [lia|]. rewrite Hy. cbn [bind]. rewrite Dv. cbn [bind]. rewrite csize_fork in Hz. pose proof (csize_pos O l). pose proof (csize_pos O r).
        assert (Hi : 0 <= i -> exists n, rd (nodes (fr s)) i = Ok n) by eauto.
        destruct (nle O y v); [rewrite Cl; eapply IHl|rewrite Cr; eapply IHr]; eauto; try lia; intros j Hj; apply Bd; cbn [Coarse_Spec.cids]; right; apply in_or_app; auto.
    Qed.
    Lemma tree_total : forall s ts i, inv s ts -> full (fr s) -> 0 <= i < tc -> exists r, predict_tree O exp_ c s x i (-1) = Ok r /\ length r = Z.to_nat lc.
    Proof.
      intros s ts i V Fu Hi. unfold predict_tree. pose proof V as [Ln [Tr _]]. destruct (nth_error ts (Z.to_nat i)) as [o|] eqn:Ho; [|apply nth_error_None in Ho; lia].
      destruct (Tr _ _ Ho) as [Er To]. rewrite Z2Nat.id in Er by lia. rewrite Er. cbn [bind]. destruct o as [t|]; cbn [rid].
      - destruct (tree_small _ _ _ _ V Ho) as [Sz Bd]. assert (0 <= ctop t) by (apply Bd; destruct t; now left). rewrite (proj2 (Z.eqb_neq (ctop t) (-1))) by lia.
        eapply from_total; eauto; try apply repeat_length; try lia.
      - change (-1 =? -1) with true. cbn iota. eexists. split; [reflexivity|apply repeat_length].
    Qed.
    Lemma means_total : forall s ts k, inv s ts -> full (fr s) -> k <= tc -> exists r, forest_means O exp_ c s x k = Ok r /\ length r = Z.to_nat lc.
    Proof.
      intros s ts k V Fu Hk. unfold forest_means.
      match goal with |- exists _, bind ?m _ = _ /\ _ => assert (D2 : def m); [|assert (P2 : forall r, m = Ok r -> length r = Z.to_nat lc)] end.
      - apply defined_forZ with (P := fun _ r => length r = Z.to_nat lc); [|apply repeat_length]. intros j r Hj Lr. rewrite Z.add_0_l in Hj. destruct (tree_total s ts j V Fu) as [q [Eq Lq]]; [lia|]. rewrite Eq. cbn [bind]. split.
        + apply defined_forZ with (P := fun _ r => length r = Z.to_nat lc); [|exact Lr]. intros i a Hi La. rewrite Z.add_0_l in Hi.
          destruct (rd_in_bounds _ a i) as [y1 H1]; [lia|]. destruct (rd_in_bounds _ q i) as [y3 H3]; [lia|]. rewrite H1. cbn [bind]. rewrite H3. cbn [bind]. split; [apply defined_wr; lia|]. intros r' X. apply wr_length in X. congruence.
        + intros r' X. refine (forZ_inv_post _ (fun _ r => length r = Z.to_nat lc) _ _ 0 _ _ _ _ X); [exact Lr|]. intros i a b _ La Y. inv_bind Y. inv_bind Y. apply wr_length in Y. congruence.
      - intros r X. refine (forZ_inv_post _ (fun _ r => length r = Z.to_nat lc) _ _ 0 _ _ _ _ X); [apply repeat_length|]. intros j a b _ La Y. inv_bind Y.
        refine (forZ_inv_post _ (fun _ r => length r = Z.to_nat lc) _ _ 0 _ _ _ _ Y); [exact La|]. intros i a0 b0 _ La0 Y0. inv_bind Y0. inv_bind Y0. apply wr_length in Y0. congruence.
      - destruct (def_ok _ _ D2) as [r Er]. rewrite Er. cbn [bind]. eexists. split; [reflexivity|]. rewrite map_length. auto.
    Qed.
    Lemma best_total : forall (gt : num O -> num O -> bool) a, length a = Z.to_nat lc -> exists b, index_max gt a lc = Ok b /\ 0 <= b < lc.
    Proof.
      intros gt a La. unfold index_max.
      match goal with |- exists _, ?m = _ /\ _ => assert (D2 : def m); [|assert (P2 : forall r, m = Ok r -> 0 <= r < lc)] end.
      - apply defined_forZ with (P := fun _ r => 0 <= r < lc); [|lia]. intros j r Hj Lr. destruct (rd_in_bounds _ a j) as [y1 H1]; [lia|]. destruct (rd_in_bounds _ a r) as [y3 H3]; [lia|]. rewrite H1. cbn [bind]. rewrite H3. cbn [bind].
        split; [apply defined_ok|]. intros r' X. injection X as <-. destruct (gt y1 y3); lia.
      - intros r X. refine (forZ_inv_post _ (fun _ r => 0 <= r < lc) _ _ 1 _ _ _ _ X); [lia|]. intros j a0 b Hj La0 Y. inv_bind Y. inv_bind Y. injection Y as <-. destruct (gt v v0); lia.
      - destruct (def_ok _ _ D2) as [r Er]. eauto.
    Qed.
    Hypothesis Hkind : kind <> EXTEND_BARYCENTER.
    Hypothesis Hsafe : trim_safe O rnd c.
    Lemma predict_total : forall s h sc k, creached s h -> k <= tc -> exists s' b, predict O exp_ c s x sc k = Ok (s', b, sc) /\ 0 <= b < lc.
    Proof.
      intros s h sc k R Hk. destruct (reach_inv O exp_ log_ rnd c l0 Tl Hs Hkind Hsafe (fun _ _ _ => True) I ltac:(auto) ltac:(auto) s h R) as [ts [V _]]. pose proof (full_reached Hkind s h R) as Fu.
      unfold predict. set (used := if k <? 0 then tc else k). assert (Hu : used <= tc) by (unfold used; destruct (k <? 0); lia).
      assert (E : exists s1 ts1, (if negb (c_optimize O c) && negb (kind =? EXTEND_GHOST) then update_all O c s else Ok s) = Ok s1 /\ inv s1 ts1 /\ full (fr s1)).
      { destruct (_ && _); [|eauto 6]. destruct (def_ok _ _ (update_all_total s ts V)) as [s1 E1]. pose proof (update_all_ok _ _ _ _ E1) as [R1 [R2 R3]]. destruct (inv_recounted _ _ _ _ _ V R1 R2 R3) as [ts1 [_ V1]].
        exists s1, ts1. split; [exact E1|]. split; [exact V1|]. eapply full_recounted; eauto. }
      destruct E as [s1 [ts1 [E [V1 F1]]]]. rewrite E. cbn [bind]. destruct (means_total s1 ts1 used V1 F1 Hu) as [m [Em Lm]]. rewrite Em. cbn [bind].
      destruct (best_total (fun a b => nlt O b a) m Lm) as [b [Eb Bb]]. rewrite Eb. cbn [bind]. eauto.
    Qed.
  End Asked.
End Predict.
