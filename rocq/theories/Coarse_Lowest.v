(** * Proofs for the coarse Mondrian forest: trimming the leaf with the lowest score *)
From Coq Require Import ZArith List Bool Lia Permutation.
From Verif Require Import CppBase CppFacts NumOps Utils_Model Mondrian_Model Mondrian_Spec Mondrian_Proofs Coarse_Model Coarse_Spec Coarse_Heap Coarse_Walk Coarse_Train Coarse_Trim Coarse_Forest Coarse_Reach.
From Verif Require Import Coarse_Smallest Coarse_Fade_Spec Coarse_Fade Coarse_Score.
Import ListNotations.
Local Open Scope Z_scope.

(** The laws that scores obey. *)
Record flaws (O : ops) (fine : num O -> Prop) : Prop := {
  fl_0 : fine (nofZ O 0);
  fl_1 : forall v, fine v -> fine (nadd O v (nofZ O 1));
  fl_fade : forall v, fine v -> fine (faded O v);
  fl_fade0 : faded O (nofZ O 0) = nofZ O 0;
  fl_neg : nlt O (nofZ O (-1)) (nofZ O 0) = true;
  fl_pos : forall v, fine v -> nlt O v (nofZ O 0) = false;
  fl_irr : forall v, fine v -> nlt O v v = false;
  fl_asym : forall a b, fine a -> fine b -> nlt O a b = true -> nlt O b a = false;
  fl_tr : forall a b d, fine a -> fine b -> fine d -> nlt O a b = false -> nlt O b d = false -> nlt O a d = false;
  fl_eq : forall a b, fine a -> fine b -> neq O a b = true -> nlt O a b = false /\ nlt O b a = false }.

Section Lowest.
  Variable O : ops.
  Variable exp_ log_ : num O -> num O.
  Variable rnd : nat -> num O.
  Variable c : config O.
  Variable fine : num O -> Prop.
  Hypothesis L : tlaws O.
  Hypothesis FL : flaws O fine.
  Hypothesis Hlife : nlt O (c_life O c) (nofZ O 0) = false.
  Hypothesis Ht : c_trim O c = TRIM_FADING.
  Local Notation n_ := (nofZ O).
  Local Notation node := (node O).
  Local Notation coarse := (coarse O).
  Local Notation fr := (fr O).
  Local Notation nodes := (nodes O).
  Local Notation get := (get O).
  Local Notation avail := (avail O).
  Local Notation fading := (fading O).
  Local Notation fc := (c_features O c).
  Local Notation lc := (c_labels O c).
  Local Notation nc := (c_nodes O c).
  Local Notation tc := (c_trees O c).
  Local Notation ctree := (ctree O).
  Local Notation ctop := (ctop O).
  Local Notation cids := (cids O).
  Local Notation cleaves := (cleaves O).
  Local Notation csize := (csize O).
  Local Notation height := (height O).
  Local Notation shape := (shape O).
  Local Notation stored := (stored O fc lc).
  Local Notation inv := (inv O c).
  Local Notation score := (score O).
  Local Notation unchanged := (unchanged O).
  Local Notation leaf_ids := (leaf_ids O).
  Local Notation leaves_of := (leaves_of O).
  Local Notation put := (put O).
  Local Notation calm := (calm O).
  Local Notation available := (available O).
  Local Notation limit := (c_max_trim O c).

  Definition fine_scores (s : coarse) : Prop := forall j v, score s j = Ok v -> fine v.
  (** ** The walk *)
  Definition only_drawn (s s' : coarse) : Prop := nodes (fr s') = nodes (fr s) /\ fading s' = fading s.
  Definition sum_of (xs : list (num O)) (js : list Z) : num O := fold_left (fun a j => nadd O a (score_of O unchanged xs j)) js (n_ 0).
  Definition seen (xs : list (num O)) (js : list Z) (a : trim_state O) : Prop :=
    leaf_sum O a = sum_of xs js /\
    match js with
    | [] => smallest O a = n_ (-1)
    | _ => rd xs (smallest_id O a) = Ok (smallest O a) /\ In (smallest_id O a) js /\ forall k v, In k js -> rd xs k = Ok v -> nlt O v (smallest O a) = false
    end.
  Lemma trim_visit_scores : forall s j n w js a, get s j = Ok n -> score s j = Ok w -> fine_scores s -> seen (fading s) js a ->
    exists s' a', trim_visit O rnd c s j a = Ok (s', a') /\ only_drawn s s' /\ seen (fading s) (js ++ [j]) a'.
  Proof.
    intros s j n w js a G W Fs [S1 S2]. unfold trim_visit. rewrite G. cbn [bind]. rewrite Ht. change (TRIM_FADING =? TRIM_COUNT) with false. change (TRIM_FADING =? TRIM_FADING) with true. cbv iota. unfold Coarse_Fade.score in W. rewrite W. cbn [bind].
    pose proof (Fs j w W) as Fw.
    assert (Sum : nadd O (leaf_sum O a) w = sum_of (fading s) (js ++ [j])) by (unfold sum_of in *; rewrite fold_left_app; cbn [fold_left]; unfold score_of; rewrite W, S1; reflexivity).
    assert (New : forall k s', only_drawn s s' -> (forall q v, In q js -> rd (fading s) q = Ok v -> nlt O v w = false) ->
      exists s1 a', Ok (s', mkTrim O k (nadd O (leaf_sum O a) w) w j) = Ok (s1, a') /\ only_drawn s s1 /\ seen (fading s) (js ++ [j]) a').
    { intros k s' D M. exists s', (mkTrim O k (nadd O (leaf_sum O a) w) w j). split; [reflexivity|]. split; [exact D|]. split; [exact Sum|]. assert (X : exists y ys, js ++ [j] = y :: ys) by (destruct js; cbn; eauto). destruct X as [y [ys E]]. rewrite E. rewrite <- E. cbn [smallest smallest_id].
      split; [exact W|]. split; [apply in_or_app; right; now left|]. intros q v I Hv. apply in_app_or in I. destruct I as [I|[<-|[]]]; [eauto|]. rewrite W in Hv. injection Hv as <-. now apply (fl_irr O fine FL). }
    assert (D0 : only_drawn s s) by (split; reflexivity).
    destruct js as [|j1 js].
    - rewrite S2, (fl_neg O fine FL). assert (X : nlt O (n_ (-1)) (n_ 0) || nlt O w (n_ (-1)) = true) by now rewrite (fl_neg O fine FL). cbn [orb]. apply New; [exact D0|]. intros q v [].
    - destruct S2 as [R1 [R2 R3]]. set (m := smallest O a) in *. pose proof (Fs _ _ R1) as Fm. rewrite (fl_pos O fine FL m Fm). cbn [orb].
      assert (Old : forall k s', only_drawn s s' -> nlt O w m = false ->
        exists s1 a', Ok (s', mkTrim O k (nadd O (leaf_sum O a) w) m (smallest_id O a)) = Ok (s1, a') /\ only_drawn s s1 /\ seen (fading s) ((j1 :: js) ++ [j]) a').
      { intros k s' D M. exists s', (mkTrim O k (nadd O (leaf_sum O a) w) m (smallest_id O a)). split; [reflexivity|]. split; [exact D|]. split; [exact Sum|]. cbn [app]. rewrite app_comm_cons. cbn [smallest smallest_id].
        split; [exact R1|]. split; [apply in_or_app; now left|]. intros q v I Hv. apply in_app_or in I. destruct I as [I|[<-|[]]]; [eauto|]. rewrite W in Hv. injection Hv as <-. exact M. }
      destruct (nlt O w m) eqn:Lt.
      + apply New; [exact D0|]. intros q v I Hv. apply (fl_tr O fine FL v m w); eauto using (fl_asym O fine FL).
      + destruct (neq O w m) eqn:Q; [|now apply Old]. destruct (fl_eq O fine FL w m Fw Fm Q) as [Q1 Q2]. unfold Coarse_Model.uniform, Mondrian_Model.uniform.
        cbv zeta beta iota. match goal with |- context [if ?b then mkTrim _ _ _ _ _ else _] => destruct b end; [apply New; [split; reflexivity|]|apply Old; [split; reflexivity|reflexivity]].
        intros q v I Hv. apply (fl_tr O fine FL v m w); eauto.
  Qed.
  Lemma vfold_scores : forall ks s js a, (forall j, In j ks -> exists n w, get s j = Ok n /\ score s j = Ok w) -> fine_scores s -> seen (fading s) js a ->
    exists s' a', vfold O _ (trim_visit O rnd c) ks s a = Ok (s', a') /\ only_drawn s s' /\ seen (fading s) (js ++ ks) a'.
  Proof.
    induction ks as [|j ks IH]; intros s js a H Fs S.
    - exists s, a. split; [reflexivity|]. split; [split; reflexivity|]. now rewrite app_nil_r.
    - destruct (H j (or_introl eq_refl)) as [n [w [G W]]]. destruct (trim_visit_scores s j n w js a G W Fs S) as [s1 [a1 [E [[D1 D2] S1]]]]. cbn [vfold]. rewrite E. cbn [bind]. destruct (IH s1 (js ++ [j]) a1) as [s' [a' [E' [[D1' D2'] S']]]].
      + intros q Hq. destruct (H q (or_intror Hq)) as [n' [w' [G' W']]]. exists n', w'. unfold Coarse_Model.get, Coarse_Fade.score in *. now rewrite D1, D2.
      + intros q v Hv. apply (Fs q). unfold Coarse_Fade.score in *. now rewrite <- D2.
      + rewrite D2. exact S1.
      + exists s', a'. split; [exact E'|]. split; [split; congruence|]. rewrite D2 in S'. rewrite <- app_assoc in S'. exact S'.
  Qed.
  Lemma visit_linked : forall s i a s' a', trim_visit O rnd c s i a = Ok (s', a') -> linked O (fr s) (fr s').
  Proof. intros s i a s' a' X. apply trim_visit_ok in X; [|exact L]. destruct X as [[X _] _]. intros z m Hm. exists m. rewrite X. auto. Qed.
  Lemma sum_total : forall xs t, sum_of xs (rleaves O t) = total_score O unchanged xs t.
  Proof.
    intros xs t. unfold sum_of, total_score. rewrite rleaves_leaves, <- map_rev. generalize (rev (cleaves t)) (n_ 0). clear. induction l as [|e l IH]; intros a; cbn; [reflexivity|]. apply IH.
  Qed.
  Lemma pick_scores : forall s ts i t s' id, inv s ts -> fine_scores s -> nth_error ts i = Some (Some t) -> pick_trim O rnd c s (Z.of_nat i) = Ok (s', id) ->
    drawn_only O s s' /\ fading s' = fading s /\
    ((100 < height t /\ id = -1) \/ exists j w, lowest O unchanged (fading s) t j w /\ ((too_much O limit unchanged (fading s) t w /\ id = -3) \/ (~ too_much O limit unchanged (fading s) t w /\ id = j))).
  Proof.
    intros s ts i t s' id V Fs Hi H. pose proof V as [_ [V2 _]]. destruct (V2 i _ Hi) as [Hr St]. destruct (tree_ids O c s ts i t V Hi) as [ND [Bt [Sz _]]]. pose proof (stored_shape O c _ _ _ St) as Sh. unfold pick_trim in H. rewrite Hr in H. cbn [bind rid] in H.
    inv_bind H. destruct v as [depth [s2 a]]. injection H as <- H.
    assert (Rl : forall j, In j (rleaves O t) <-> In j (map fst (cleaves t))) by (intros j; rewrite rleaves_leaves; symmetry; apply in_rev).
    destruct (vfold_scores (rleaves O t) s [] (mkTrim O (n_ 0) (n_ 0) (n_ (-1)) 0)) as [s1 [a1 [Ev [[D1 D2] [S1 S2]]]]]; [|exact Fs|split; reflexivity|].
    { intros j Hj. apply Rl in Hj. destruct (score_ok O c s ts i t j V Hi (leaf_in O t j Hj)) as [w W]. apply in_map_iff in Hj. destruct Hj as [[q cs] [Hq Hj]]. cbn in Hq. subst q. destruct (stored_leaf O c _ _ _ _ _ St Hj) as [n [N _]]. exists n, w. auto. }
    assert (Dr : drawn_only O s s2).
    { change s2 with (fst (snd (depth, (s2, a)))). eapply walk_keeps; [apply drawn_only_refl|apply drawn_only_trans| |exact E]. intros q j a0 q' a' X. apply trim_visit_ok in X; [tauto|exact L]. }
    assert (Fd : fading s2 = fading s).
    { change s2 with (fst (snd (depth, (s2, a)))). eapply (walk_keeps O c _ _ (fun q q' => fading q' = fading q)); [reflexivity|intros; congruence| |exact E]. intros q j a0 q' a' X. unfold trim_visit, Coarse_Model.uniform, Mondrian_Model.uniform in X. inv_bind X.
      rewrite Ht in X. change (TRIM_FADING =? TRIM_COUNT) with false in X. change (TRIM_FADING =? TRIM_FADING) with true in X. cbv iota in X. inv_bind X. destruct (_ || _); [injection X as <- _; reflexivity|]. destruct (neq O _ _); [match type of X with context [if nlt O ?a ?b then _ else _] => destruct (nlt O a b) end|]; injection X as <- _; reflexivity. }
    split; [exact Dr|]. split; [exact Fd|].
    assert (Small : height t <= 100 -> depth = -1 /\ s2 = s1 /\ a = a1).
    { intros Hh. rewrite (walk_whole O c _ _ visit_linked t s _ s1 a1 Sh Hh Sz (fun q Hq => proj1 (Bt q Hq)) Ev) in E. injection E as <- <- <-. auto. }
    pose proof E as E0. apply walk_root in E0; [|exact visit_linked|exact Sh|exact Sz|intros q Hq; now apply Bt]. cbn [fst snd] in E0.
    destruct E0 as [E0|[Ed Ev']].
    - left. split; [|rewrite (proj2 (Z.leb_le max_stack_size depth)) in H by (unfold max_stack_size; lia); congruence]. destruct (Z_lt_ge_dec 100 (height t)) as [X|X]; [exact X|]. destruct (Small ltac:(lia)). lia.
    - right. rewrite Ev in Ev'. injection Ev' as <- <-. subst depth. change (max_stack_size <=? -1) with false in H. change (negb (-1 =? -1)) with false in H. cbv iota in H. cbn [app] in S1, S2.
      assert (Hne : rleaves O t <> []) by (clear; induction t as [q cq|q dq vq cq l IHl r IHr]; cbn; [discriminate|]; intros X; apply app_eq_nil in X; tauto).
      rewrite sum_total in S1. destruct (rleaves O t) as [|y ys] eqn:Er; [congruence|]. rewrite <- Er in *. destruct S2 as [R1 [R2 R3]]. exists (smallest_id O a1), (smallest O a1). split.
      + split; [exact R1|]. split; [now apply Rl|]. intros q v Hq Hv. apply (R3 q); [now apply Rl|exact Hv].
      + rewrite S1 in H. unfold too_much, Coarse_Fade_Spec.unchanged at 2. unfold Coarse_Fade_Spec.unchanged in *. destruct (nlt O (n_ 0) _) eqn:Q1; cbn [andb] in H; [destruct (nlt O limit _) eqn:Q2|].
        * left. auto.
        * right. split; [intros [_ X]; unfold Coarse_Fade_Spec.unchanged in X; congruence|auto].
        * right. split; [intros [X _]; unfold Coarse_Fade_Spec.unchanged in X; congruence|auto].
  Qed.

  (** ** The cut *)
  Definition av (s : coarse) (j : Z) : res bool := do n <- get s j; Ok (available n).
  Definition freeing (s s' : coarse) : Prop := forall j, (score s' j = score s j /\ av s' j = av s j) \/ (score s' j = Ok (n_ 0) /\ av s' j = Ok true).
  Lemma freeing_refl : forall s, freeing s s.
  Proof. intros s j. now left. Qed.
  Lemma freeing_trans : forall a b d, freeing a b -> freeing b d -> freeing a d.
  Proof. intros a b d H1 H2 j. destruct (H2 j) as [[E1 E2]|[E1 E2]]; [|now right]. rewrite E1, E2. apply H1. Qed.
  Lemma freeing_change : forall s i g s', change O s i g = Ok s' -> (forall n n', g n = Ok n' -> tau O n' = tau O n) -> freeing s s'.
  Proof.
    intros s i g s' H G j. apply change_inv in H. destruct H as [n [n' [Q1 [Q2 ->]]]]. left. split; [reflexivity|]. unfold av. rewrite (get_put O s i n n' j Q1). destruct (Z.eqb_spec i j) as [<-|N]; [|reflexivity]. rewrite Q1. cbn [bind]. unfold Mondrian_Model.available. now rewrite (G n n' Q2).
  Qed.
  Lemma freeing_reset : forall s i s', reset_node O c s i = Ok s' -> freeing s s'.
  Proof.
    intros s i s' H j. unfold reset_node in H. inv_bind H. apply change_inv in E. destruct E as [n [n' [Q1 [Q2 ->]]]]. injection Q2 as <-. inv_bind H. inv_bind H. injection H as <-. apply wr_inv in E0. destruct E0 as [B0 ->]. cbn [Coarse_Model.fading with_fr] in *.
    unfold Coarse_Fade.score, av, Coarse_Model.get. cbn [Coarse_Model.fading Coarse_Model.fr with_fading with_forced with_fr]. rewrite rd_put with (m := n) by exact Q1.
    destruct (Z_lt_ge_dec j 0) as [Lt|Ge]; [left; rewrite !(rd_oob _ _ j) by lia; rewrite (proj2 (Z.eqb_neq i j)) by lia; auto|]. rewrite rd_upd by lia. destruct (Z.eqb_spec i j) as [<-|N]; [|now left].
    right. split; [reflexivity|]. cbn [bind]. rewrite blank_free by exact L. reflexivity.
  Qed.
  Lemma freeing_walk : forall root steps s i depth k stack r, reset_walk O c root steps s i depth k stack = Ok r -> freeing s (fst r).
  Proof.
    induction steps as [|steps IH]; intros s i depth k stack r H; [discriminate|]. cbn [reset_walk] in H. destruct (_ && _); [|injection H as <-; apply freeing_refl]. inv_bind H. destruct (is_leaf O v).
    - inv_bind H. apply freeing_reset in E0. assert (F : freeing s v0) by (eapply freeing_trans; [|exact E0]; intros j; now left). destruct (i =? root); [injection H as <-; exact F|]. destruct (max_stack_size <=? depth - 1); [injection H as <-; exact F|]. apply IH in H. eapply freeing_trans; eauto.
    - inv_bind H. destruct (v0 =? -1).
      + inv_bind H. destruct (max_stack_size <=? depth + 1); [injection H as <-; apply freeing_refl|eauto].
      + destruct (v0 =? 0).
        * inv_bind H. destruct (max_stack_size <=? depth + 1); [injection H as <-; apply freeing_refl|eauto].
        * destruct (v0 =? 1); [|eauto]. inv_bind H. apply freeing_reset in E1. assert (F : freeing s v1) by (eapply freeing_trans; [|exact E1]; intros j; now left). destruct (i =? root); [injection H as <-; exact F|]. inv_bind H. apply IH in H. eapply freeing_trans; eauto.
  Qed.
  Lemma freeing_cut : forall s j i s', cut_block O c s j i = Ok s' -> freeing s s'.
  Proof.
    intros s j i s' H. unfold cut_block in H. inv_bind H. inv_bind H. destruct (parent O v0 =? -1).
    - inv_bind H. apply freeing_reset in E1. inv_bind H. destruct v2 as [s2 b]. unfold node_reset in E2. apply freeing_walk in E2. cbn [fst] in E2. inv_bind H. unfold set_root in E3. inv_bind E3. injection E3 as <-. apply freeing_change in H; [|intros n n' X; injection X as <-; reflexivity].
      eapply freeing_trans; [exact E1|]. eapply freeing_trans; [|eapply freeing_trans; [exact E2|]]; [intros q; now left|]. eapply freeing_trans; [|exact H]. intros q. now left.
    - inv_bind H. apply freeing_change in E1; [|intros n n' X; injection X as <-; destruct (child_right O n =? parent O v); reflexivity]. inv_bind H. apply freeing_change in E2; [|intros n n' X; injection X as <-; reflexivity].
      inv_bind H. apply freeing_reset in E3. inv_bind H. destruct v4 as [s5 b]. injection H as <-. unfold node_reset in E4. apply freeing_walk in E4. cbn [fst] in E4.
      eapply freeing_trans; [exact E1|]. eapply freeing_trans; [exact E2|]. eapply freeing_trans; [|eapply freeing_trans; [exact E3|exact E4]]. intros q. now left.
  Qed.

  (** ** One tree *)
  Definition oleaves (o : option ctree) : list (Z * list Z) := match o with Some t => cleaves t | None => [] end.
  Definition lowered (xs ys : list (num O)) (o o' : option ctree) : Prop :=
    ((forall t, o = Some t -> height t <= 100) -> cut_lowest O limit unchanged xs ys o o') /\ aged O unchanged xs ys (oleaves o') /\ incl (leaves_of o') (leaves_of o).
  Lemma lowered_frame : forall xs ys xs1 ys1 o o' o1 o1', lowered xs ys o o' -> o = o1 -> o' = o1' -> (forall j, In j (leaves_of o) -> rd xs1 j = rd xs j) -> (forall j, In j (leaves_of o) \/ In j (leaves_of o') -> rd ys1 j = rd ys j) -> lowered xs1 ys1 o1 o1'.
  Proof.
    intros xs ys xs1 ys1 o o' o1 o1' [C [A Sub]] <- <- Ex Ey.
    assert (Lo : forall t j w, o = Some t -> lowest O unchanged xs t j w -> lowest O unchanged xs1 t j w).
    { intros t j w -> [L1 [L2 L3]]. split; [rewrite Ex; [exact L1|exact L2]|]. split; [exact L2|]. intros q v Hq Hv. apply (L3 q); [exact Hq|]. rewrite <- Ex; [exact Hv|exact Hq]. }
    assert (To : forall t, o = Some t -> total_score O unchanged xs1 t = total_score O unchanged xs t).
    { intros t ->. unfold total_score. assert (X : forall (l : list (Z * list Z)) a, (forall e, In e l -> In (fst e) (map fst (cleaves t))) -> fold_left (fun a e => nadd O a (score_of O unchanged xs1 (fst e))) l a = fold_left (fun a e => nadd O a (score_of O unchanged xs (fst e))) l a).
      { induction l as [|e l IH]; intros a I; [reflexivity|]. cbn [fold_left]. unfold score_of at 2 4. rewrite (Ex (fst e)) by (apply I; now left). apply IH. intros e' He'. apply I. now right. }
      apply X. intros e He. apply in_map. now apply in_rev. }
    split.
    - intros Hh. specialize (C Hh). inversion C as [|j cs A0|t j w L0 T0 A0|t t' j cs w P0 L0 T0 Z0 A0]; subst o o'.
      + constructor.
      + constructor. apply aged_frame with xs ys; auto.
      + apply cut_limit with j w; [eauto|unfold too_much; rewrite (To t) by reflexivity; exact T0|]. apply aged_frame with xs ys; auto.
      + apply cut_leaf with j cs w; [exact P0|eauto|unfold too_much; rewrite (To t) by reflexivity; exact T0|rewrite Ey; [exact Z0|left; apply L0]|]. apply aged_frame with xs ys; [|intros; apply Ey; now right|exact A0]. intros q Hq. apply Ex. cbn. rewrite P0. now right.
    - split; [|exact Sub]. apply aged_frame with xs ys; [| |exact A]; intros q Hq; [apply Ex, Sub|apply Ey; right]; now destruct o'.
  Qed.
  Lemma cpool_av : forall s u j, cpool O c s u -> 0 <= j < nc -> av s j = Ok false <-> In j u.
  Proof.
    intros s u j [P1 [_ [P3 [P4 _]]]] B. destruct (rd_in_bounds _ (nodes (fr s)) j) as [n Hn]; [lia|]. unfold av, Coarse_Model.get. rewrite Hn. cbn [bind]. rewrite (P4 j n Hn). split; [intros X; now injection X|intros ->; reflexivity].
  Qed.
  Lemma trim_body : forall s i ts o s', inv s ts -> calm s ts -> fine_scores s -> nth_error ts i = Some o ->
    (do (s, id) <- pick_trim O rnd c s (Z.of_nat i);
     do root <- rd (roots O (fr s)) (Z.of_nat i);
     if negb (root =? id) && (0 <=? id) && (id <? nc) then cut_block O c s id (Z.of_nat i) else Ok s) = Ok s' ->
    exists ts', inv s' ts' /\ calm s' ts' /\ fine_scores s' /\ length ts' = length ts /\ (exists o', nth_error ts' i = Some o' /\ lowered (fading s) (fading s') o o') /\
      (forall q u, q <> i -> nth_error ts q = Some u -> exists u', nth_error ts' q = Some u' /\ u = u') /\ forall j, ~ In j (leaves_of o) -> score s' j = score s j.
  Proof.
    intros s i ts o s' V C Fs Hi H. inv_bind H. destruct v as [s1 id]. pose proof V as [_ [V2 _]]. destruct (V2 i o Hi) as [Hr Hst].
    assert (Keep : forall s2, drawn_only O s s2 -> fading s2 = fading s -> ((forall t, o = Some t -> height t <= 100) -> cut_lowest O limit unchanged (fading s) (fading s) o o) ->
      exists ts', inv s2 ts' /\ calm s2 ts' /\ fine_scores s2 /\ length ts' = length ts /\ (exists o', nth_error ts' i = Some o' /\ lowered (fading s) (fading s2) o o') /\
      (forall q u, q <> i -> nth_error ts q = Some u -> exists u', nth_error ts' q = Some u' /\ u = u') /\ forall j, ~ In j (leaves_of o) -> score s2 j = score s j).
    { intros s2 Dr Fd Ct. exists ts. split; [now apply inv_same with s|]. unfold Coarse_Score.calm, fine_scores, Coarse_Fade.score in *. rewrite Fd. split; [exact C|]. split; [exact Fs|]. split; [reflexivity|]. split; [|split; [eauto|reflexivity]].
      exists o. split; [exact Hi|]. split; [exact Ct|]. split; [|apply incl_refl]. intros j Hj. destruct o as [t|]; [|contradiction]. destruct (score_ok O c s ts i t j V Hi (leaf_in O t j Hj)) as [w W]. exists w. auto. }
    destruct o as [t|].
    2:{ unfold pick_trim in E. rewrite Hr in E. cbn [bind rid] in E. unfold walk_from, fuel in E. cbn [walk] in E. change (0 <=? -1) with false in E. rewrite andb_false_r in E. cbn [bind] in E. injection E as <- E. cbn in E. subst id.
        rewrite Hr in H. cbn [bind] in H. rewrite andb_false_r in H. injection H as <-. apply Keep; [apply drawn_only_refl|reflexivity|constructor]. }
    destruct (pick_scores s ts i t s1 id V Fs Hi E) as [Dr [Fd Pk]]. pose proof Dr as [D1 [D2 [D3 D4]]]. rewrite D2, Hr in H. cbn [bind rid] in H. clear E.
    assert (Ag : aged O unchanged (fading s) (fading s) (cleaves t)) by (intros j Hj; destruct (score_ok O c s ts i t j V Hi (leaf_in O t j Hj)) as [w W]; exists w; auto).
    destruct Pk as [[Hh ->]|[j [w [Lo Pk]]]]; [rewrite andb_false_r in H; injection H as <-; apply Keep; auto; intros X; specialize (X t eq_refl); lia|].
    destruct Pk as [[Tm ->]|[Tm ->]]; [rewrite andb_false_r in H; injection H as <-; apply Keep; auto; intros _; now apply cut_limit with j w|].
    destruct (tree_ids O c s ts i t V Hi) as [ND [Bt [Sz Only]]]. pose proof Lo as [Lo1 [Lo2 Lo3]]. pose proof (Bt j (leaf_in O t j Lo2)) as Bj. rewrite (proj2 (Z.leb_le 0 j)), (proj2 (Z.ltb_lt j nc)), !andb_true_r in H by lia.
    destruct (Z.eqb_spec (ctop t) j) as [Ej|Nj]; cbn [negb] in H.
    { injection H as <-. apply Keep; auto. intros _. destruct t as [q cs|q d v cs l r]; [now constructor|]. exfalso. cbn [Coarse_Spec.ctop] in Ej. subst q. cbn [Coarse_Spec.cids Coarse_Spec.cleaves] in *. apply NoDup_cons_iff in ND. destruct ND as [X _]. apply X. rewrite map_app in Lo2. apply in_app_or in Lo2. apply in_or_app. destruct Lo2; auto using leaf_in. }
    pose proof (inv_same O c _ _ _ Dr V) as V1. pose proof (freeing_cut _ _ _ _ H) as Fr.
    destruct (cut_ok O log_ c L Hlife (Z.of_nat i) _ t s1 (-1) _ 0 j s' (inv_before O c _ _ _ _ V1 Hi)) as [t' [Ct Af]]; auto; [now left|now destruct V1 as [_ [_ [_ [X _]]]]|].
    assert (V' : inv s' (upd ts i (Some t'))) by (eapply inv_after; eauto). assert (Li : (i < length ts)%nat) by (apply nth_error_Some; congruence). destruct (cut_leaves O j t t' Ct) as [cs Pm]. destruct (cut_facts O j t t' Ct) as [_ [a Pi]].
    assert (Hi' : nth_error (upd ts i (Some t')) i = Some (Some t')) by now apply nth_error_upd_same.
    destruct (tree_ids O c s' _ i t' V' Hi') as [ND' [Bt' [_ Only']]]. pose proof V' as [_ [_ [Cp' [[_ [_ Ar']] _]]]]. pose proof V1 as [_ [_ [Cp1 _]]]. pose proof V as [_ [_ [_ [[_ [_ Ar]] _]]]].
    assert (Sc1 : forall q, score s1 q = score s q) by (intros q; unfold Coarse_Fade.score; congruence).
    assert (Used : forall q u v, nth_error (upd ts i (Some t')) v = Some (Some u) -> In q (cids u) -> score s' q = score s q).
    { intros q u v Hv Hq. destruct (tree_ids O c s' _ v u V' Hv) as [_ [Bu _]]. rewrite <- Sc1. destruct (Fr q) as [[X _]|[_ X]]; [exact X|]. rewrite (proj2 (cpool_av s' _ q Cp' (Bu q Hq))) in X; [discriminate|]. now apply all_cids_in with v (Some u). }
    assert (Zj : score s' j = Ok (n_ 0)).
    { destruct (Fr j) as [[_ X]|[X _]]; [|exact X]. exfalso. rewrite (proj2 (cpool_av s1 _ j Cp1 Bj)) in X by (apply all_cids_in with i (Some t); [exact Hi|now apply leaf_in]). apply (cpool_av s' _ j Cp' Bj) in X.
      assert (Nt : ~ In j (cids t')) by (rewrite Pi in ND; apply NoDup_cons_iff in ND; destruct ND as [_ ND]; now apply NoDup_cons_iff in ND).
      rewrite (all_cids_upd O ts i (Some t') Li) in X. apply in_app_or in X. destruct X as [X|X]; [|now apply Nt].
      assert (Y : NoDup (all_cids O (upd ts i None) ++ cids t)). { pose proof Cp1 as [_ [P2 _]]. eapply Permutation_NoDup; [|exact P2]. rewrite <- (upd_same_id _ ts i (Some t) Hi) at 1. apply (all_cids_upd O ts i (Some t) Li). }
      apply nodup_app in Y. destruct Y as [_ [_ Y]]. apply (Y j); [exact X|now apply leaf_in]. }
    assert (Out : forall q, ~ In q (leaves_of (Some t)) -> score s' q = score s q).
    { intros q Nq. destruct (in_dec Z.eq_dec q (leaf_ids ts)) as [I|I].
      - apply leaf_ids_in in I. destruct I as [v [u [Hv Hu]]]. assert (Nv : v <> i) by (intros ->; rewrite Hi in Hv; injection Hv as ->; now apply Nq). apply (Used q u v); [now rewrite nth_error_upd_other by congruence|now apply leaf_in].
      - rewrite <- Sc1. destruct (Fr q) as [[X _]|[X _]]; [exact X|]. rewrite X, Sc1. pose proof (rd_bounds _ _ _ _ X) as Bq. destruct (rd_in_bounds _ (fading s) q) as [v Hv]; [lia|]. unfold Coarse_Fade.score. rewrite Hv. f_equal. symmetry. now apply (C q). }
    assert (In' : forall q, In q (map fst (cleaves t')) -> score s' q = score s q) by (intros q Hq; apply (Used q t' i); auto using leaf_in).
    exists (upd ts i (Some t')). split; [exact V'|]. split; [|split; [|split; [apply upd_length|split; [|split; [|exact Out]]]]].
    - intros q v Nq Hq. destruct (Z.eq_dec q j) as [->|Nqj]; [congruence|]. destruct (in_dec Z.eq_dec q (map fst (cleaves t))) as [I|I].
      + exfalso. rewrite Pm in I. destruct I as [X|I]; [cbn in X; congruence|]. apply Nq, leaf_ids_in. exists i, t'. auto.
      + rewrite (Out q I) in Hq. apply (C q); [|exact Hq]. intros X. apply Nq. apply leaf_ids_in in X. apply leaf_ids_in. destruct X as [p [u [Hp Hu]]]. exists p, u. split; [|exact Hu]. rewrite nth_error_upd_other; [exact Hp|]. intros <-. rewrite Hi in Hp. injection Hp as <-. contradiction.
    - intros q v Hq. destruct (Fr q) as [[X _]|[X _]]; [rewrite X, Sc1 in Hq; now apply (Fs q)|]. rewrite X in Hq. injection Hq as <-. apply (fl_0 O fine FL).
    - exists (Some t'). split; [exact Hi'|]. assert (Ag' : aged O unchanged (fading s) (fading s') (cleaves t')).
      { intros q Hq. destruct (Ag q) as [v [V3 _]]; [rewrite Pm; now right|]. exists v. split; [exact V3|]. pose proof (In' q Hq) as X. unfold Coarse_Fade.score in X. rewrite X. exact V3. }
      split; [|split; [exact Ag'|]]; [|intros q Hq; cbn in *; rewrite Pm; now right]. intros _. now apply cut_leaf with j cs w.
    - intros q u Nq Hq. exists u. split; [now rewrite nth_error_upd_other by congruence|reflexivity].
  Qed.
  Lemma trim_scores : forall s ts s', inv s ts -> calm s ts -> fine_scores s -> tree_trim O rnd c s = Ok s' ->
    exists ts', inv s' ts' /\ calm s' ts' /\ fine_scores s' /\ Forall2 (lowered (fading s) (fading s')) ts ts'.
  Proof.
    intros s ts s' V C Fs H. unfold tree_trim in H.
    refine (each_scored O c coarse (fun s => s) _ fine_scores eq lowered _ _ _ _ lowered_frame _ s ts s' V C Fs H); [reflexivity|intros; congruence|intros; congruence|intros; congruence|].
    clear s ts s' V C Fs H. intros st i ts o st' V C Fs Hi Hb. eapply trim_body; eauto.
  Qed.
End Lowest.
