(** * Proofs for the coarse Mondrian forest: predictions after the barycenter extension are defined *)
From Coq Require Import ZArith List Bool Lia.
From Verif Require Import CppBase CppFacts NumOps Utils_Model Mondrian_Model Mondrian_Spec Mondrian_Proofs Coarse_Model Coarse_Spec Coarse_Heap Coarse_Walk Coarse_Train Coarse_Trim Coarse_Forest Coarse_Reach Coarse_Tidy Coarse_Total Coarse_Predict Coarse_Center.
Import ListNotations.
Local Open Scope Z_scope.

Section Predict.
  Variable O : ops.
  Variable exp_ log_ : num O -> num O.
  Variable rnd : nat -> num O.
  Variable c : config O.
  Variable l0 : Z.
  Hypothesis Tl : tlaws O.
  Hypothesis Hs : csizes O c l0.
  Local Notation n_ := (nofZ O).
  Local Notation node := (node O).
  Local Notation coarse := (coarse O).
  Local Notation fr := (fr O).
  Local Notation fc := (c_features O c).
  Local Notation lc := (c_labels O c).
  Local Notation tc := (c_trees O c).
  Local Notation inv := (inv O c).
  Local Notation full := (Coarse_Predict.full O c).
  Local Notation whole := (Coarse_Predict.whole O c).
  Local Notation box_ok := (Coarse_Predict.box_ok O c).
  Local Notation creached := (creached O exp_ log_ rnd c l0).

  Ltac same T E := refine (full_change O c _ _ _ _ T _ E); let m := fresh in let m' := fresh in let G := fresh in let X := fresh in intros m m' G X; injection X as <-; try (match goal with |- context [if ?q then _ else _] => destruct q end); exact G.
  Lemma box_wr : forall b i v b', box_ok b -> wr b i (Some v) = Ok b' -> box_ok b'.
  Proof. intros b i v b' [L F] H. pose proof (wr_length _ _ _ _ _ H). split; [congruence|]. eapply wr_Forall; [exact F| |exact H]. discriminate. Qed.
  Lemma full_clip : forall d v left n n', whole n -> clip O d v left n = Ok n' -> whole n'.
  Proof. intros d v left n n' [G1 G2] H. unfold clip in H. inv_bind H. inv_bind H. inv_bind H. inv_bind H. injection H as <-. split; cbn; [apply (box_wr _ _ _ _ G1 E2)|apply (box_wr _ _ _ _ G2 E0)]. Qed.
  Lemma full_hull : forall n x lo hi, hull_box O c n x = Ok (lo, hi) -> box_ok lo /\ box_ok hi.
  Proof.
    intros n x lo hi E. apply (boxes_done O c l0 Hs). refine (forZ_inv_post _ (boxes_ok O) _ _ 0 _ _ _ _ E); [repeat split; try lia; constructor|].
    intros j [a b] s' _ P H1. inv_bind H1. inv_bind H1. inv_bind H1. injection H1 as <-. now apply boxes_snoc.
  Qed.
  Lemma full_stretch : forall x n n', whole n -> stretch_box O c n x = Ok n' -> whole n'.
  Proof.
    intros x n n' G H. unfold stretch_box in H. inv_bind H. destruct v as [lo hi]. injection H as <-.
    enough (P : box_ok (fst (lo, hi)) /\ box_ok (snd (lo, hi))) by exact P.
    refine (forZ_inv_post _ (fun (_ : Z) (s : list (option (num O)) * list (option (num O))) => box_ok (fst s) /\ box_ok (snd s)) _ _ 0 _ _ _ _ E); [exact G|].
    intros j [a b] s' _ [P1 P2] H1. cbn in P1, P2. inv_bind H1. inv_bind H1. inv_bind H1. inv_bind H1. inv_bind H1. injection H1 as <-. cbn. split; [apply (box_wr _ _ _ _ P1 E2)|apply (box_wr _ _ _ _ P2 E4)].
  Qed.
  Lemma full_reset_all : forall s i s' b, full (fr s) -> node_reset O c s i = Ok (s', b) -> full (fr s').
  Proof. intros s i s' b T H. unfold node_reset in H. eapply full_reset_walk; eauto. Qed.
  Lemma full_root : forall s k i s', full (fr s) -> set_root O s k i = Ok s' -> full (fr s').
  Proof. intros s k i s' T H. unfold set_root in H. inv_bind H. injection H as <-. exact T. Qed.
  Lemma full_boxes : forall start d v left k steps s i depth j stack s', full (fr s) -> boxes_walk O c start d v left k steps s i depth j stack = Ok s' -> full (fr s').
  Proof.
    intros start d v left k. induction steps as [|steps IH]; intros s i depth j stack s' T H; cbn [boxes_walk] in H; [discriminate|].
    destruct (_ && _); [|injection H as <-; exact T]. inv_bind H. rename v0 into n. destruct (is_leaf O n).
    - inv_bind H. inv_bind H. rename v1 into s1. assert (T1 : full (fr s1)) by (refine (full_change O c _ _ _ _ T _ E1); intros m m'; apply full_clip).
      destruct (i =? start); [injection H as <-; exact T1|]. destruct (_ <=? _); [injection H as <-; exact T1|eapply IH; eauto].
    - inv_bind H. destruct (v0 =? -1); [|destruct (v0 =? 0); [|destruct (v0 =? 1)]].
      + inv_bind H. rename v1 into s1. assert (T1 : full (fr s1)) by (refine (full_change O c _ _ _ _ T _ E1); intros m m'; apply full_clip).
        inv_bind H. inv_bind H. destruct v2.
        * inv_bind H. destruct v2 as [s2 b2]. inv_bind H. destruct v2 as [s3 b3]. eapply IH; [|exact H]. eapply full_reset_all; [|exact E5]. eapply full_reset_all; eauto.
        * inv_bind H. destruct (_ <=? _); [injection H as <-; exact T1|eapply IH; eauto].
      + inv_bind H. destruct (_ <=? _); [injection H as <-; exact T|eapply IH; eauto].
      + inv_bind H. inv_bind H. inv_bind H. inv_bind H. inv_bind H.
        destruct (if v3 then (child_right O n, child_left O n) else if v5 then (child_left O n, child_right O n) else (-1, -1)) as [rep oth].
        destruct (rep =? -1); [destruct (i =? start); [injection H as <-; exact T|eapply IH; eauto]|].
        destruct (parent O n <? 0).
        * inv_bind H. assert (T1 := full_root _ _ _ _ T E6). inv_bind H. assert (T2 := full_reset O c _ _ _ T1 E7). inv_bind H. assert (T3 := full_reset O c _ _ _ T2 E8). inv_bind H. injection H as <-. cbn. same T3 E9.
        * inv_bind H. rename v6 into s1. assert (T1 : full (fr s1)) by same T E6. inv_bind H. rename v6 into s2. assert (T2 : full (fr s2)) by same T1 E7.
          inv_bind H. assert (T3 := full_reset O c _ _ _ T2 E8). inv_bind H. assert (T4 := full_reset O c _ _ _ T3 E9).
          destruct (i =? start); [injection H as <-; exact T4|]. eapply IH; [|exact H]. exact T4.
      + eapply IH; eauto.
  Qed.
  Lemma full_down : forall x label steps s i s', full (fr s) -> pass_data_point_down O c steps s i x label = Ok s' -> full (fr s').
  Proof.
    intros x label. induction steps as [|steps IH]; intros s i s' T H; cbn [pass_data_point_down] in H; [discriminate|].
    inv_bind H. rename v into s1. assert (T1 : full (fr s1)).
    { refine (full_change O c _ _ _ _ T _ E). intros m m' G X. inv_bind X. destruct v as [lo hi]. injection X as <-. split; cbn; apply (full_hull _ _ _ _ E0). }
    inv_bind H. destruct (is_leaf O v); [eapply full_leaf; eauto|]. inv_bind H. inv_bind H. eapply IH; eauto.
  Qed.
  Lemma full_counters : forall s i d v left s' rm, full (fr s) -> adjust_counters O c s i d v left = Ok (s', rm) -> full (fr s').
  Proof.
    intros s i d v left s' rm T H. unfold adjust_counters, walk_from in H. inv_bind H. destruct v0 as [k [s2 r2]]. injection H as <- <-. revert T.
    change s2 with (fst (snd (k, (s2, r2)))). pose proof (fun H1 H2 H3 => walk_keeps O c _ (take_visit O c d v left) (fun a b : coarse => full (fr a) -> full (fr b)) H1 H2 H3 _ _ _ _ _ _ _ _ _ E) as W. apply W; auto. clear W.
    intros a j b a' b' X T. unfold take_visit in X. inv_bind X. inv_bind X. inv_bind X. inv_bind X. destruct v3 as [cs tr]. inv_bind X. injection X as <- <-. same T E4.
  Qed.
  Lemma full_split_at : forall s i k d v time x label s', full (fr s) -> split_at O rnd c s i k d v time x label = Ok s' -> full (fr s').
  Proof.
    intros s i k d v time x label s' T H. unfold split_at in H. inv_bind H. destruct v0 as [a s1]. assert (T1 := full_available O c _ _ _ E T). inv_bind H. rename v0 into s2. assert (T2 : full (fr s2)) by same T1 E0.
    inv_bind H. destruct v0 as [b s3]. assert (T3 := full_available O c _ _ _ E1 T2). inv_bind H. rename v0 into s4. assert (T4' : full (fr s4)) by same T3 E2. assert (T4 : full (fr (with_avail O s4 (avail O s4 - 2)))) by exact T4'.
    inv_bind H. rename v0 into n. inv_bind H. destruct v0 as [lo hi]. destruct (full_hull _ _ _ _ E4) as [B1 B2].
    inv_bind H. rename v0 into s5. assert (T5 : full (fr s5)) by (refine (full_change O c _ _ _ _ T4 _ E5); intros m m' G X; injection X as <-; split; assumption).
    assert (Wn : whole n) by (eapply rd_Forall; [|exact E3]; exact T4).
    inv_bind H. rename v0 into s6. assert (T6 : full (fr s6)) by (refine (full_change O c _ _ _ _ T5 _ E6); intros m m' G X; injection X as <-; exact Wn).
    inv_bind H. inv_bind H. rename v1 into s7. assert (T7 : full (fr s7)) by (destruct (_ && _) in E8; [eapply full_root; eauto|same T6 E8]).
    inv_bind H. destruct v1 as [s8 [cl cr]]. assert (T8 : full (fr s8)) by (eapply full_drawn; [eapply count_sides_drawn; eauto|exact T7]).
    set (left := cr <? cl) in *.
    inv_bind H. rename v1 into s9. assert (T9 : full (fr s9)) by (refine (full_change O c _ _ _ _ T8 _ E10); intros m m' G X; injection X as <-; destruct left; exact G).
    inv_bind H. rename v1 into s10. assert (T10 : full (fr s10)) by (refine (full_change O c _ _ _ _ T9 _ E11); intros m m' [G1 G2] X; destruct left; inv_bind X; injection X as <-; split; cbn; auto; (match goal with E : wr _ _ _ = Ok ?b |- box_ok ?b => refine (box_wr _ _ _ _ _ E); assumption end)).
    inv_bind H. rename v1 into s11. assert (T11 : full (fr s11)) by (refine (full_change O c _ _ _ _ T10 _ E12); intros m m' [G1 G2] X; destruct left; inv_bind X; injection X as <-; split; cbn; auto; (match goal with E : wr _ _ _ = Ok ?b |- box_ok ?b => refine (box_wr _ _ _ _ _ E); assumption end)).
    inv_bind H. inv_bind H. rename v2 into s12. assert (T12 : full (fr s12)) by same T11 E14. inv_bind H. rename v2 into s13. assert (T13 : full (fr s13)) by same T12 E15. inv_bind H. rename v2 into s14. assert (T14 : full (fr s14)) by same T13 E16.
    inv_bind H. inv_bind H. inv_bind H. destruct v4 as [fa fb]. inv_bind H. inv_bind H. inv_bind H. inv_bind H. destruct v7 as [s15 rm]. assert (T15 : full (fr s15)) by (eapply full_counters; [|exact E23]; exact T14).
    inv_bind H. rename v7 into s16. assert (T16 : full (fr s16)) by (refine (full_change O c _ _ _ _ T15 _ E24); intros m m' G X; inv_bind X; injection X as <-; exact G).
    inv_bind H. rename v7 into s17. assert (T17 : full (fr s17)) by (unfold adjust_boxes in E25; eapply full_boxes; [|exact E25]; exact T16).
    inv_bind H. inv_bind H. eapply full_down; eauto.
  Qed.
  Lemma full_node_split : forall s i k x label time s', full (fr s) -> split_node O rnd c s i k x label time = Ok s' -> full (fr s').
  Proof.
    intros s i k x label time s' T H. unfold split_node, uniform in H. inv_bind H. inv_bind H. destruct v0 as [probs sum]. inv_bind H. inv_bind H. inv_bind H. inv_bind H. eapply full_split_at; [|exact H]. exact T.
  Qed.
  Lemma full_center_split : forall s i k x label pt s' b, full (fr s) -> split_barycenter O log_ rnd c s i k x label pt = Ok (s', b) -> full (fr s').
  Proof.
    intros s i k x label pt s' b T H. unfold split_barycenter in H. inv_bind H. destruct (_ =? _) in H; [injection H as <- _; exact T|]. inv_bind H. inv_bind H. destruct v1 as [probs sum].
    destruct (draw_time O log_ rnd s sum) as [e s1] eqn:Ed. assert (T1 : full (fr s1)) by (unfold draw_time in Ed; destruct (neq O sum (n_ 0)); injection Ed as <- <-; exact T).
    destruct (neq O sum (n_ 0)); [injection H as <- _; exact T1|]. unfold uniform in H. inv_bind H. inv_bind H. inv_bind H. inv_bind H. inv_bind H. injection H as <- _. eapply full_split_at; [|exact E6]. exact T1.
  Qed.
  Lemma full_extend4 : forall k x label sm steps s i s', full (fr s) -> extend_block4 O log_ rnd c steps s i k x label sm = Ok s' -> full (fr s').
  Proof.
    intros k x label sm. induction steps as [|steps IH]; intros s i s' T H; cbn [extend_block4] in H; [discriminate|].
    inv_bind H. rename v into n. inv_bind H. inv_bind H. destruct v0 as [probs sum]. destruct (draw_time O log_ rnd s sum) as [e s1] eqn:Ed.
    assert (T1 : full (fr s1)) by (unfold draw_time in Ed; destruct (neq O sum (n_ 0)); injection Ed as <- <-; exact T).
    inv_bind H. set (sp := nle O (n_ 0) e && _) in *. destruct (sp && (2 <=? avail O s1) && negb v0).
    - inv_bind H. destruct (if 0 <? sm then _ else _) as [inst s2] eqn:Eu in H. assert (T2 : full (fr s2)) by (destruct (0 <? sm); [unfold uniform in Eu|]; injection Eu as _ <-; exact T1).
      destruct (_ || _) in H; [eapply full_node_split; eauto|eapply (full_split O rnd c l0 Hs); eauto].
    - inv_bind H. rename v1 into s2. assert (T2 : full (fr s2)) by (refine (full_change O c _ _ _ _ T1 _ E3); intros m m'; apply full_stretch).
      inv_bind H. rename v1 into s3. assert (T3 : full (fr s3)) by (destruct sp; [unfold add_forced in E4; inv_bind E4; inv_bind E4; inv_bind E4; injection E4 as <-; exact T2|injection E4 as <-; exact T2]).
      inv_bind H. destruct (is_leaf O v1).
      + inv_bind H. destruct v2 as [s4 hs]. assert (T4 : full (fr s4)) by (destruct (_ && _ && _) in E6; [eapply full_center_split; eauto|injection E6 as <- _; exact T3]).
        destruct hs; [injection H as <-; exact T4|eapply full_leaf; eauto].
      + clearbody sp. inv_bind H. inv_bind H. destruct (nle O _ _) in H; [eapply IH; eauto|]. destruct (nlt O _ _) in H; [eapply IH; eauto|injection H as <-; exact T3].
  Qed.
  Lemma full_any_tree : forall s x label k s' b, full (fr s) -> train_tree O log_ rnd c s x label k = Ok (s', b) -> full (fr s').
  Proof.
    intros s x label k s' b T H. destruct (Z.eq_dec (c_extend O c) EXTEND_BARYCENTER) as [Hk|Hk]; [|eapply (full_tree O log_ rnd c l0 Hs); eauto]. unfold train_tree in H. inv_bind H. destruct (v =? -1).
    - inv_bind H. destruct v0 as [a s1]. pose proof (full_available O c _ _ _ E0 T) as T1. destruct (0 <=? a); [|injection H as <- _; exact T1].
      inv_bind H. unfold set_root in E1. inv_bind E1. injection E1 as <-. inv_bind H. inv_bind H. injection H as <- _. cbn. eapply (full_sample O c l0 Hs); [|exact E3]. cbn.
      refine (full_change O c _ _ _ _ _ _ E1); [exact T1|intros m m' G X; injection X as <-; exact G].
    - inv_bind H. rewrite Hk in H. cbn -[extend_block4] in H. inv_bind H. injection H as <- _. eapply full_extend4; eauto.
  Qed.
  Lemma full_any_train : forall s x label s' b, full (fr s) -> train O log_ rnd c s x label = Ok (s', b) -> full (fr s').
  Proof.
    intros s x label s' b T H. unfold train in H. inv_bind H. destruct v as [sums u]. inv_bind H. assert (T1 : full (fr v)) by (destruct (_ =? _) in E0; [apply fade_ok in E0; eapply full_drawn; [exact E0|exact T]|injection E0 as <-; exact T]).
    inv_bind H. assert (T2 : full (fr v0)) by (destruct (_ && _ && _) in E1; [eapply full_trim; eauto|injection E1 as <-; exact T1]).
    inv_bind H. destruct v1 as [s1 b1]. inv_bind H. injection H as <- _. assert (T3 : full (fr s1)).
    { change s1 with (fst (s1, b1)). refine (forZ_inv_post _ (fun _ (q : coarse * bool) => full (fr (fst q))) _ _ 0 _ _ _ _ E2); [exact T2|].
      intros i [q bq] q' _ Tq H. inv_bind H. destruct v2 as [q1 b2]. inv_bind H. injection H as <-. cbn [fst] in *. assert (Tq1 : full (fr q1)) by (eapply full_any_tree; eauto).
      destruct (c_optimize O c); [|injection E5 as <-; exact Tq1]. apply update_branch_ok in E5. destruct E5 as [R1 _]. now apply full_recounted with (fr q1). }
    destruct (_ <=? 1) in E3; [inv_bind E3; injection E3 as <-; exact T3|injection E3 as <-; exact T3].
  Qed.
  Lemma full_any : forall s h, creached s h -> full (fr s).
  Proof.
    intros s h H. induction H as [|s h x label s' b R IH Hx Hl T|s h x sc k s' b sc' R IH Hx T].
    - apply Forall_forall. intros n Hn. apply repeat_spec in Hn. subst n. apply whole_blank.
    - eapply full_any_train; eauto.
    - unfold predict in T. inv_bind T. inv_bind T. inv_bind T. injection T as <- _ _. destruct (_ && _) in E; [|injection E as <-; auto]. apply update_all_ok in E. destruct E as [R1 _]. apply full_recounted with (fr s); auto.
  Qed.
  Lemma predict_any : forall x s ts sc k, Z.of_nat (length x) = fc -> inv s ts -> full (fr s) -> k <= tc -> exists s' b, predict O exp_ c s x sc k = Ok (s', b, sc) /\ 0 <= b < lc.
  Proof.
    intros x s ts sc k Hx V Fu Hk.
    unfold predict. set (used := if k <? 0 then tc else k). assert (Hu : used <= tc) by (unfold used; destruct (k <? 0); lia).
    assert (E : exists s1 ts1, (if negb (c_optimize O c) && negb (c_extend O c =? EXTEND_GHOST) then update_all O c s else Ok s) = Ok s1 /\ inv s1 ts1 /\ full (fr s1)).
    { destruct (_ && _); [|eauto 6]. destruct (def_ok _ _ (update_all_total O c l0 Hs s ts V)) as [s1 E1]. pose proof (update_all_ok _ _ _ _ E1) as [R1 [R2 R3]]. destruct (inv_recounted _ _ _ _ _ V R1 R2 R3) as [ts1 [_ V1]].
      exists s1, ts1. split; [exact E1|]. split; [exact V1|]. eapply full_recounted; eauto. }
    destruct E as [s1 [ts1 [E [V1 F1]]]]. rewrite E. cbn [bind]. destruct (means_total O exp_ c l0 Hs x Hx s1 ts1 used V1 F1 Hu) as [m [Em Lm]]. rewrite Em. cbn [bind].
    destruct (best_total O c l0 Hs x (fun a b => nlt O b a) m Lm) as [b [Eb Bb]]. rewrite Eb. cbn [bind]. eauto.
  Qed.
End Predict.
