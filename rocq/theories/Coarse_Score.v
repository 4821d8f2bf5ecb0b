(** * Proofs for the coarse Mondrian forest: how training and trimming change the scores *)
From Coq Require Import ZArith List Bool Lia Permutation.
From Verif Require Import CppBase CppFacts NumOps Utils_Model Mondrian_Model Mondrian_Spec Mondrian_Proofs Coarse_Model Coarse_Spec Coarse_Heap Coarse_Walk Coarse_Train Coarse_Trim Coarse_Forest Coarse_Reach.
From Verif Require Import Coarse_Smallest Coarse_Fade_Spec Coarse_Fade.
From Verif Require Unbound_Model.
Import ListNotations.
Local Open Scope Z_scope.

Section Score.
  Variable O : ops.
  Variable exp_ log_ : num O -> num O.
  Variable rnd : nat -> num O.
  Variable c : config O.
  Hypothesis L : tlaws O.
  Hypothesis Hlife : nlt O (c_life O c) (nofZ O 0) = false.
  Local Notation n_ := (nofZ O).
  Local Notation node := (node O).
  Local Notation coarse := (coarse O).
  Local Notation fr := (fr O).
  Local Notation nodes := (nodes O).
  Local Notation get := (get O).
  Local Notation avail := (avail O).
  Local Notation fading := (fading O).
  Local Notation counters := (counters O).
  Local Notation fc := (c_features O c).
  Local Notation lc := (c_labels O c).
  Local Notation nc := (c_nodes O c).
  Local Notation tc := (c_trees O c).
  Local Notation kind := (c_extend O c).
  Local Notation ctree := (ctree O).
  Local Notation ctop := (ctop O).
  Local Notation cids := (cids O).
  Local Notation cleaves := (cleaves O).
  Local Notation csize := (csize O).
  Local Notation height := (height O).
  Local Notation shape := (shape O).
  Local Notation stored := (stored O fc lc).
  Local Notation inv := (inv O c).
  Local Notation score := (score O).
  Local Notation faded := (faded O).
  Local Notation unchanged := (unchanged O).
  Local Notation leaf_ids := (leaf_ids O).
  Local Notation leaves_of := (leaves_of O).
  Local Notation put := (put O).

  Definition cnt (s : coarse) (j : Z) : res (list Z) := do n <- get s j; Ok (counters n).
  Lemma stored_leaf : forall t f p j cs, stored f p t -> In (j, cs) (cleaves t) -> exists n, rd (nodes f) j = Ok n /\ counters n = cs /\ length cs = Z.to_nat lc.
  Proof.
    induction t as [i ci|i d v ci l IHl r IHr]; intros f p j cs St I; cbn [Coarse_Spec.cleaves] in I.
    - destruct I as [I|[]]. injection I as <- <-. destruct St as [n [N1 [_ [N2 [N3 _]]]]]. exists n. cbn [Coarse_Spec.ctop Coarse_Spec.top_counters] in *. split; [exact N1|]. split; [exact N2|congruence].
    - destruct St as [n [_ [_ [_ [_ [_ [_ [_ [_ [_ [_ [Sl Sr]]]]]]]]]]]]. apply in_app_or in I. destruct I as [I|I]; eauto.
  Qed.

  (** ** One point and one tree *)
  Section Point.
    Variable x : list (num O).
    Variable label k : Z.
    Hypothesis Hx : Z.of_nat (length x) = fc.
    Hypothesis Hl : 0 <= label < lc.
    Hypothesis Hbary : kind <> EXTEND_BARYCENTER.
    Hypothesis Hghost : kind <> EXTEND_GHOST.
    Hypothesis Hupd : kind <> EXTEND_COUNTER_NO_UPDATE.

    (** What the descent does to the counters and scores. *)
    Inductive op (s s' : coarse) (t : ctree) : Prop :=
    | op_quiet : fading s' = fading s -> avail s' = avail s -> (forall j, cnt s' j = cnt s j) -> op s s' t
    | op_learn : forall j cs w, In j (map fst (cleaves t)) -> score s j = Ok w -> fading s' = upd (fading s) (Z.to_nat j) (nadd O w (n_ 1)) -> avail s' = avail s ->
        cnt s j = Ok cs -> 0 <= label < Z.of_nat (length cs) -> cnt s' j = Ok (bumped label cs) -> (forall i, i <> j -> cnt s' i = cnt s i) -> op s s' t
    | op_split : fading s' = fading s -> avail s' = avail s - 2 -> op s s' t.
    Lemma op_before : forall s s1 s' t t1, fading s1 = fading s -> avail s1 = avail s -> (forall j, cnt s1 j = cnt s j) -> incl (map fst (cleaves t1)) (map fst (cleaves t)) -> op s1 s' t1 -> op s s' t.
    Proof.
      intros s s1 s' t t1 Ef Ea Ec I [F A C|j cs w Ij W F A C B C' Co|F A].
      - apply op_quiet; [congruence|congruence|]. intros j. now rewrite C.
      - apply op_learn with j cs w; auto; [unfold Coarse_Fade.score in *; congruence|congruence|congruence|now rewrite <- Ec|]. intros i Ni. rewrite Co by exact Ni. apply Ec.
      - apply op_split; congruence.
    Qed.
    Lemma cnt_put : forall s i m n j, get s i = Ok m -> counters n = counters m -> cnt (with_fr O s (put (fr s) i n)) j = cnt s j.
    Proof. intros s i m n j G E. unfold cnt. rewrite (get_put O s i m n j G). destruct (Z.eqb_spec i j) as [<-|N]; [|reflexivity]. rewrite G. cbn [bind]. now rewrite E. Qed.
    Lemma split_above_scores : forall s n i probs sum time s', split_above O rnd c s n i k x probs sum time label = Ok s' -> fading s' = fading s /\ avail s' = avail s - 2.
    Proof.
      intros s n i probs sum time s' H. unfold split_above in H. inv_bind H. destruct v as [f [d [up sp]]]. inv_bind H. destruct v as [a s1]. inv_bind H. rename v into s2. inv_bind H. destruct v as [b s3]. inv_bind H. rename v into s4. inv_bind H. rename v into f5. injection H as <-.
      apply available_node_inv in E0. assert (A1 : fading s1 = fading s /\ avail s1 = avail s) by (destruct E0 as [[_ ->]|[m [_ [_ ->]]]]; split; reflexivity).
      apply change_inv in E1. destruct E1 as [m1 [m2 [_ [_ ->]]]]. apply available_node_inv in E2. assert (A3 : fading s3 = fading s /\ avail s3 = avail s) by (destruct E2 as [[_ ->]|[m [_ [_ ->]]]]; exact A1).
      assert (A4 : fading s4 = fading s3 /\ avail s4 = avail s3 - 2).
      { unfold parent_counters in E3. destruct (kind =? EXTEND_ORIGINAL); [apply change_inv in E3; destruct E3 as [q1 [q2 [_ [_ ->]]]]; split; reflexivity|].
        rewrite (proj2 (Z.eqb_neq kind EXTEND_GHOST)) in E3 by exact Hghost. injection E3 as <-. split; reflexivity. }
      cbn. split; [destruct A3, A4; congruence|]. destruct A3 as [_ A3], A4 as [_ A4]. rewrite A4, A3. reflexivity.
    Qed.
    Lemma draw_time_quiet : forall s sum e s1, draw_time O log_ rnd s sum = (e, s1) -> fading s1 = fading s /\ avail s1 = avail s /\ nodes (fr s1) = nodes (fr s).
    Proof. intros s sum e s1 H. unfold draw_time, Coarse_Model.uniform, Mondrian_Model.uniform in H. destruct (neq O sum (n_ 0)); injection H as _ <-; auto. Qed.
    Lemma shape_nodes : forall f f' p t, nodes f' = nodes f -> shape f p t -> shape f' p t.
    Proof. intros f f' p t E. apply shape_linked. intros j n H. exists n. rewrite E. auto. Qed.
    Lemma extend_op : forall steps s t p s', shape (fr s) p t -> extend_block O log_ rnd c steps s (ctop t) k x label = Ok s' -> op s s' t.
    Proof.
      induction steps as [|steps IH]; intros s t p s' T H; [discriminate|]. rewrite extend_S in H. inv_bind H. rename v into n, E into Hn. inv_bind H. rename v into ptau. clear E. inv_bind H. destruct v as [probs sum]. clear E.
      destruct (draw_time O log_ rnd s sum) as [e s1] eqn:Dt. apply draw_time_quiet in Dt. destruct Dt as [F1 [A1 N1]]. inv_bind H. rename v into paused. clear E.
      assert (C1 : forall j, cnt s1 j = cnt s j) by (intros j; unfold cnt, Coarse_Model.get; now rewrite N1).
      assert (T1 : shape (fr s1) p t) by now apply shape_nodes with (fr s).
      apply op_before with s1 t; auto using incl_refl. clear T. rename T1 into T.
      assert (Desc : forall s2, shape (fr s2) p t -> descend O log_ rnd c k x label steps s2 (ctop t) = Ok s' -> op s2 s' t).
      { clear H. intros s2 T2 H. unfold descend in H. inv_bind H. rename v into m, E into Hm.
        destruct t as [i cs|i d v cs l r]; pose proof T2 as [m0 [M1 [M2 M3]]]; cbn [Coarse_Spec.ctop] in *; (assert (m0 = m) by (unfold Coarse_Model.get in Hm; congruence)); subst m0.
        - rewrite M3 in H. unfold add_leaf in H. inv_bind H. apply add_label_inv in E. destruct E as [q [Q1 [Q2 ->]]]. assert (q = m) by congruence. subst q. unfold add_fading in H. inv_bind H. inv_bind H. injection H as <-. rename v into w.
          apply wr_inv in E0. destruct E0 as [B ->].
          apply op_learn with i (counters m) w; [now left|exact E|reflexivity|reflexivity|unfold cnt; now rewrite Hm|exact Q2| |].
          + unfold cnt, Coarse_Model.get. cbn [Coarse_Model.fr with_fading with_fr]. rewrite rd_put with (m := m) by exact Hm. rewrite Z.eqb_refl. reflexivity.
          + intros q Nq. unfold cnt, Coarse_Model.get. cbn [Coarse_Model.fr with_fading with_fr]. rewrite rd_put with (m := m) by exact Hm. now rewrite (proj2 (Z.eqb_neq i q)) by congruence.
        - destruct M3 as [M3 [M4 [M5 [Tl Tr]]]]. rewrite M3 in H. inv_bind H. inv_bind H. inv_bind H. rewrite (proj2 (Z.eqb_neq kind EXTEND_GHOST)) in H by exact Hghost. injection H as <-.
          assert (Go : forall u, (u = l \/ u = r) -> forall q, op s2 q u -> op s2 q (CFork i d v cs l r)).
          { intros u Hu q. apply op_before; auto. cbn [Coarse_Spec.cleaves]. rewrite map_app. destruct Hu as [->| ->]; [apply incl_appl|apply incl_appr]; apply incl_refl. }
          destruct (nle O v0 v1); [rewrite M4 in E1; apply (Go l); [auto|]; eapply IH; [exact Tl|exact E1]|].
          destruct (nlt O v1 v0); [rewrite M5 in E1; apply (Go r); [auto|]; eapply IH; [exact Tr|exact E1]|]. injection E1 as <-. now apply op_quiet. }
      destruct (_ && _).
      - inv_bind H. rewrite (proj2 (Z.eqb_neq kind EXTEND_COUNTER_NO_UPDATE)) in H by exact Hupd. injection H as <-. apply split_above_scores in E. destruct E. now apply op_split.
      - destruct (_ || _).
        + inv_bind H. apply change_inv in E. destruct E as [m [m' [Q1 [Q2 ->]]]]. apply update_box_inv in Q2. destruct Q2 as [lo [hi ->]].
          apply op_before with (with_fr O s1 (put (fr s1) (ctop t) (set_box O m lo hi))) t; [reflexivity|reflexivity| |apply incl_refl|apply Desc; [|exact H]].
          * intros j. now apply cnt_put with m.
          * apply shape_linked with (fr s1); [|exact T]. intros j q Hq. cbn [Coarse_Model.fr with_fr]. rewrite rd_put with (m := m) by exact Q1. destruct (Z.eqb_spec (ctop t) j) as [<-|N]; [|eauto 8].
            assert (q = m) by (unfold Coarse_Model.get in Q1; congruence). subst q. eexists. split; [reflexivity|]. auto.
        + rewrite (proj2 (Z.eqb_neq kind EXTEND_GHOST)), (proj2 (Z.eqb_neq kind EXTEND_COUNTER_NO_UPDATE)) in H by auto. injection H as <-. now apply op_quiet.
    Qed.

    (** What it makes of the leaves. *)
    Inductive leaves_step (t t' : ctree) : Prop :=
    | ls_learn : forall j cs others, Permutation (cleaves t) ((j, cs) :: others) -> Permutation (cleaves t') ((j, bumped label cs) :: others) -> cids t' = cids t -> leaves_step t t'
    | ls_split : forall a b, Permutation (cleaves t') ((b, bumped label (no_points lc)) :: cleaves t) -> Permutation (cids t') (a :: b :: cids t) -> leaves_step t t'
    | ls_same : cleaves t' = cleaves t -> cids t' = cids t -> leaves_step t t'.
    Lemma grown_leaves : forall room D b t t', grown O kind lc label x room D b t t' -> leaves_step t t'.
    Proof.
      intros room D b t t' G. induction G as [D t t' G IH|D i cs|D i d v cs l l' r xd Hd Hv G IH|D i d v cs l r r' xd Hd Hv Hv' G IH|D i d v cs l r xd Hd Hv Hv'|D a b d v t left Hk Hr|D a b d v t t' left Hk Hr G IH|D t Hk|D t H1 H2 H3].
      - exact IH.
      - apply ls_learn with i cs []; reflexivity.
      - destruct IH as [j cj others P1 P2 P3|a b P1 P2|P1 P2].
        + apply ls_learn with j cj (others ++ cleaves r); cbn [Coarse_Spec.cleaves Coarse_Spec.cids]; [now rewrite P1|now rewrite P2|now rewrite P3].
        + apply ls_split with a b; cbn [Coarse_Spec.cleaves Coarse_Spec.cids]; [now rewrite P1|]. rewrite P2. cbn [app]. rewrite perm_swap. apply perm_skip, perm_swap.
        + apply ls_same; cbn [Coarse_Spec.cleaves Coarse_Spec.cids]; congruence.
      - destruct IH as [j cj others P1 P2 P3|a b P1 P2|P1 P2].
        + apply ls_learn with j cj (cleaves l ++ others); cbn [Coarse_Spec.cleaves Coarse_Spec.cids]; [rewrite P1; symmetry; apply Permutation_middle|rewrite P2; symmetry; apply Permutation_middle|now rewrite P3].
        + apply ls_split with a b; cbn [Coarse_Spec.cleaves Coarse_Spec.cids]; [rewrite P1; symmetry; apply Permutation_middle|].
          rewrite P2. rewrite <- !Permutation_middle. rewrite perm_swap. apply perm_skip, perm_swap.
        + apply ls_same; cbn [Coarse_Spec.cleaves Coarse_Spec.cids]; congruence.
      - apply ls_same; reflexivity.
      - apply ls_split with a b; unfold fork_side; destruct left; cbn [Coarse_Spec.cleaves Coarse_Spec.cids single app]; try reflexivity; [symmetry; apply Permutation_cons_append|].
        apply perm_skip. symmetry. apply Permutation_cons_append.
      - contradiction.
      - contradiction.
      - apply ls_same; reflexivity.
    Qed.

    Definition calm (s : coarse) (ts : list (option ctree)) : Prop := forall j v, ~ In j (leaf_ids ts) -> score s j = Ok v -> v = n_ 0.
    Lemma calm_upd : forall s s' ts i o o', calm s ts -> nth_error ts i = Some o -> incl (leaves_of o) (leaves_of o') -> (forall j, ~ In j (leaves_of o) -> score s' j = score s j) -> calm s' (upd ts i o').
    Proof.
      intros s s' ts i o o' C Hi I K j v Nj Hj. assert (Li : (i < length ts)%nat) by (apply nth_error_Some; congruence).
      assert (No' : ~ In j (leaves_of o')).
      { intros X. apply Nj. apply leaf_ids_in. destruct o' as [t|]; [|contradiction]. exists i, t. rewrite nth_error_upd_same by exact Li. auto. }
      rewrite K in Hj by (intros X; apply No'; auto). apply (C j); [|exact Hj]. intros X. apply leaf_ids_in in X. destruct X as [q [t [Hq Hj']]]. apply Nj, leaf_ids_in. destruct (Nat.eq_dec q i) as [->|N].
      - exfalso. apply No', I. rewrite Hi in Hq. injection Hq as ->. exact Hj'.
      - exists q, t. rewrite nth_error_upd_other by congruence. auto.
    Qed.
    Lemma one_more_bumped : forall cs, length cs = Z.to_nat lc -> one_more lc label cs (bumped label cs).
    Proof. intros cs Lc. split; [apply upd_length|]. intros l Hl'. apply at_label_bumped; lia. Qed.
    Lemma bumped_differs : forall cs, 0 <= label < Z.of_nat (length cs) -> bumped label cs <> cs.
    Proof. intros cs B E. pose proof (at_label_bumped label label cs B ltac:(lia)) as X. rewrite E, Z.eqb_refl in X. lia. Qed.
    Lemma score_ok : forall s ts i t j, inv s ts -> nth_error ts i = Some (Some t) -> In j (cids t) -> exists w, score s j = Ok w.
    Proof. intros s ts i t j V Hi Hj. destruct (tree_ids O c s ts i t V Hi) as [_ [B _]]. destruct V as [_ [_ [_ [[_ [_ A]] _]]]]. apply rd_in_bounds. rewrite A. now apply B. Qed.
    Lemma all_ids_len : forall ts i o o', nth_error ts i = Some o -> Z.of_nat (length (all_cids O (upd ts i o'))) = Z.of_nat (length (all_cids O ts)) - Z.of_nat (length (oids O o)) + Z.of_nat (length (oids O o')).
    Proof.
      intros ts i o o' Hi. assert (Li : (i < length ts)%nat) by (apply nth_error_Some; congruence). pose proof (Permutation_length (all_cids_upd O ts i o' Li)) as X. pose proof (Permutation_length (all_cids_upd O ts i o Li)) as Y.
      rewrite (upd_same_id _ ts i o Hi) in Y. rewrite app_length in *. lia.
    Qed.
    Lemma train_tree_scores : forall s ts i o s' b, inv s ts -> calm s ts -> nth_error ts i = Some o -> k = Z.of_nat i -> train_tree O log_ rnd c s x label k = Ok (s', b) ->
      exists o', inv s' (upd ts i o') /\ calm s' (upd ts i o') /\ scored O lc label unchanged (fading s) (fading s') o o' /\ forall j, ~ In j (leaves_of o) -> score s' j = score s j.
    Proof.
      intros s ts i o s' b V C Hi Hk H. rewrite Hk in H. destruct (train_tree_ok O exp_ log_ rnd c L Hlife x label Hx Hbary s i ts o s' b V Hi H) as [o' [T [_ V']]]. assert (Li : (i < length ts)%nat) by (apply nth_error_Some; congruence).
      exists o'. split; [exact V'|]. pose proof V as [_ [V2 [Cp _]]]. destruct (V2 i o Hi) as [Hr St]. unfold train_tree in H. rewrite Hr in H. cbn [bind] in H.
      assert (Hi' : nth_error (upd ts i o') i = Some o') by now apply nth_error_upd_same.
      destruct o as [t|]; cbn [rid] in H.
      - destruct (tree_ids O c s ts i t V Hi) as [ND [Bt [Sz Only]]]. pose proof (Bt _ (ctop_in O t)) as Bt0. rewrite (proj2 (Z.eqb_neq (ctop t) (-1))) in H by lia. inv_bind H. clear E.
        change ((kind =? EXTEND_ORIGINAL) || (kind =? EXTEND_PARTIAL_UPDATE) || (kind =? EXTEND_GHOST) || (kind =? EXTEND_COUNTER_NO_UPDATE)) with (extending O c) in H.
        pose proof (conj Hk I) as Hk'. clear Hk. inversion T as [|?|t1 t' Ex G|t1 Ex]; subst; rewrite Ex in H.
        + inv_bind H. injection H as <- <-. rename v0 into s'. apply grown_leaves in G. pose proof V' as [_ [V2' [Cp' _]]]. destruct (V2' i _ Hi') as [_ St']. pose proof (stored_shape O c _ _ _ St) as Sh.
          assert (Op : op s s' t). { destruct Hk' as [Hk _]. rewrite <- Hk in E. eapply extend_op; eauto. }
          apply (cpool_avail O c x) in Cp, Cp'. destruct Cp as [_ Cp], Cp' as [_ Cp']. rewrite (all_ids_len ts i _ (Some t') Hi) in Cp'. cbn [oids] in Cp'.
          assert (Cs : forall j cs, In (j, cs) (cleaves t) -> cnt s j = Ok cs /\ length cs = Z.to_nat lc).
          { intros j cs I. destruct (stored_leaf _ _ _ _ _ St I) as [n [N1 [N2 N3]]]. split; [|exact N3]. unfold cnt, Coarse_Model.get. rewrite N1. cbn [bind]. now rewrite N2. }
          assert (Cs' : forall j cs, In (j, cs) (cleaves t') -> cnt s' j = Ok cs).
          { intros j cs I. destruct (stored_leaf _ _ _ _ _ St' I) as [n [N1 [N2 N3]]]. unfold cnt, Coarse_Model.get. rewrite N1. cbn [bind]. now rewrite N2. }
          assert (Sc : forall j, In j (map fst (cleaves t)) -> exists w, score s j = Ok w) by (intros j Hj; eapply score_ok; eauto using leaf_in).
          assert (Fin : forall P : Prop, incl (map fst (cleaves t)) (map fst (cleaves t')) -> P -> (forall j, ~ In j (map fst (cleaves t)) -> score s' j = score s j) -> calm s' (upd ts i (Some t')) /\ P /\ forall j, ~ In j (leaves_of (Some t)) -> score s' j = score s j).
          { intros P I HP K. split; [|split; [exact HP|exact K]]. eapply calm_upd; eauto. }
          assert (Same : fading s' = fading s -> forall ls, incl (map fst ls) (map fst (cleaves t)) -> aged O unchanged (fading s) (fading s') ls).
          { intros E0 ls I j Hj. destruct (Sc j (I _ Hj)) as [w W]. exists w. rewrite E0. split; exact W. }
          destruct G as [j cs others P1 P2 P3|a b0 P1 P2|P1 P2].
          * assert (Ij : In (j, cs) (cleaves t)) by (rewrite P1; now left). assert (Ij' : In (j, bumped label cs) (cleaves t')) by (rewrite P2; now left). destruct (Cs j cs Ij) as [Cj Lj]. pose proof (Cs' _ _ Ij') as Cj'. rewrite P3 in Cp'.
            assert (Df : cnt s' j <> cnt s j). { rewrite Cj, Cj'. intros X. injection X as X. revert X. apply bumped_differs. lia. }
            destruct Op as [F A K|j0 cs0 w I0 W F A K0 B0 K1 K|F A]; [exfalso; apply Df, K| |lia].
            assert (j0 = j) by (destruct (Z.eq_dec j j0) as [X|X]; [now symmetry|exfalso; apply Df, K; exact X]). subst j0.
            assert (Bj : 0 <= j < Z.of_nat (length (fading s))) by (pose proof (rd_bounds _ _ _ _ W); lia).
            assert (Ro : forall q, q <> j -> rd (fading s') q = rd (fading s) q).
            { intros q Nq. rewrite F. destruct (Z_lt_ge_dec q 0) as [Lt|Ge]; [rewrite !rd_oob by lia; reflexivity|]. rewrite rd_upd by lia. now rewrite (proj2 (Z.eqb_neq j q)) by congruence. }
            assert (Ids : map fst ((j, bumped label cs) :: others) = map fst ((j, cs) :: others)) by reflexivity.
            apply Fin.
            -- intros q Hq. rewrite P2, Ids, <- P1. exact Hq.
            -- apply scored_learns with j cs (bumped label cs) others w; auto using one_more_bumped.
               ++ rewrite F, rd_upd by lia. now rewrite Z.eqb_refl.
               ++ intros q Hq. assert (Nq : q <> j).
                  { intros ->. apply leaves_nodup in ND. rewrite P1 in ND. cbn in ND. apply NoDup_cons_iff in ND. tauto. }
                  destruct (Sc q) as [vq Hv]; [rewrite P1; now right|]. exists vq. split; [exact Hv|]. rewrite Ro by exact Nq. exact Hv.
            -- intros q Hq. apply Ro. intros ->. apply Hq. rewrite P1. now left.
          * pose proof (Permutation_length P2) as Lp. cbn [length] in Lp. destruct Op as [F A K|j0 cs0 w I0 W F A K0 B0 K1 K|F A]; [lia|lia|].
            assert (Nb : ~ In b0 (leaf_ids ts)).
            { destruct (tree_ids O c s' _ i t' V' Hi') as [ND' [Bt' [_ Only']]]. intros X. apply leaf_ids_in in X. destruct X as [q [u [Hq Hu]]]. destruct (Nat.eq_dec q i) as [->|N].
              - rewrite Hi in Hq. injection Hq as <-. rewrite P2 in ND'. apply NoDup_cons_iff in ND'. destruct ND' as [_ ND']. apply NoDup_cons_iff in ND'. apply leaf_in in Hu. tauto.
              - apply N. apply (Only' b0 q u); [rewrite P2; right; now left|now rewrite nth_error_upd_other by congruence|now apply leaf_in]. }
            destruct (score_ok s' _ i t' b0 V' Hi') as [w W]; [rewrite P2; right; now left|].
            apply Fin.
            -- intros q Hq. rewrite P1. now right.
            -- apply scored_splits with b0 (bumped label (no_points lc)); auto; [apply one_more_bumped, repeat_length| |apply Same; auto using incl_refl]. unfold Coarse_Fade.score in W. rewrite W. f_equal. apply (C b0); [exact Nb|]. unfold Coarse_Fade.score. congruence.
            -- intros q _. unfold Coarse_Fade.score. congruence.
          * rewrite P2 in Cp'. destruct Op as [F A K|j0 cs0 w I0 W F A K0 B0 K1 K|F A]; [| |lia].
            -- apply Fin; [rewrite P1; apply incl_refl| |intros q _; unfold Coarse_Fade.score; congruence]. apply scored_loses; [now rewrite P1|apply Same; auto using incl_refl].
            -- exfalso. apply in_map_iff in I0. destruct I0 as [[q cs1] [X I0]]. cbn [fst] in X. subst q. destruct (Cs _ _ I0) as [X _]. rewrite <- P1 in I0. apply Cs' in I0. rewrite K1 in I0. rewrite K0 in X. injection X as ->. injection I0 as X. now apply bumped_differs in X.
        + assert (Es : s' = s).
          { destruct ((kind =? EXTEND_NONE) && (avail s <=? 2)); [now injection H as <- <-|]. rewrite (proj2 (Z.eqb_neq kind EXTEND_BARYCENTER)) in H by exact Hbary. now injection H as <- <-. }
          subst s'. rewrite upd_same_id by exact Hi. split; [exact C|]. split; [|reflexivity]. apply scored_loses; [reflexivity|]. intros j Hj. destruct (score_ok s ts i t j V Hi (leaf_in O t j Hj)) as [w W]. exists w. auto.
      - change (-1 =? -1) with true in H. cbv iota in H.
        assert (F : fading s' = fading s).
        { inv_bind H. destruct v as [a s1]. apply available_node_inv in E. assert (F1 : fading s1 = fading s) by (destruct E as [[_ ->]|[m [_ [_ ->]]]]; reflexivity). destruct (0 <=? a); [|now injection H as <- _].
          inv_bind H. unfold set_root in E0. inv_bind E0. injection E0 as <-. inv_bind H. apply change_inv in E0. destruct E0 as [m [m' [_ [_ ->]]]]. inv_bind H. injection H as <- _. exact F1. }
        split; [|split; [|intros j _; unfold Coarse_Fade.score; congruence]].
        + eapply calm_upd; eauto; [intros q []|intros j _; unfold Coarse_Fade.score; congruence].
        + inversion T as [|j Na| |]; subst o'; [constructor|]. apply scored_first; [apply one_more_bumped, repeat_length|]. destruct (score_ok s' _ i _ j V' Hi') as [w W]; [now left|]. unfold Coarse_Fade.score in W. rewrite W. f_equal. apply (C j); [|unfold Coarse_Fade.score; congruence].
          intros X. apply leaf_ids_in in X. destruct X as [q [u [Hq Hu]]]. destruct (Nat.eq_dec q i) as [->|N]; [congruence|]. apply N.
          destruct (tree_ids O c s' _ i _ V' Hi') as [_ [_ [_ Only']]]. apply (Only' j q u); [now left|now rewrite nth_error_upd_other by congruence|now apply leaf_in].
    Qed.
  End Point.

  (** ** One point and all trees *)
  Definition twin (o o' : option ctree) : Prop := match o, o' with Some t, Some t' => cleaves t' = cleaves t | None, None => True | _, _ => False end.
  Lemma twin_refl : forall o, twin o o.
  Proof. intros [t|]; cbn; auto. Qed.
  Lemma twin_leaves : forall o o', twin o o' -> leaves_of o' = leaves_of o.
  Proof. intros [t|] [t'|]; cbn; try contradiction; [congruence|auto]. Qed.
  Lemma twin_trans : forall a b d, twin a b -> twin b d -> twin a d.
  Proof. intros [a|] [b|] [d|]; cbn; try contradiction; [congruence|auto]. Qed.
  Lemma one_leaf : forall t j cs, cleaves t = [(j, cs)] -> t = CLeaf j cs.
  Proof.
    assert (Ne : forall t, cleaves t <> []) by (induction t as [q cq|q dq vq cq l IHl r IHr]; cbn; [discriminate|]; intros X; apply app_eq_nil in X; tauto).
    intros [i ci|i d v ci l r] j cs H; cbn in H; [now injection H as -> ->|]. exfalso. pose proof (Ne l) as Nl. pose proof (Ne r) as Nr. destruct (cleaves l) as [|e ls]; [congruence|]. cbn in H. injection H as _ H. apply app_eq_nil in H. tauto.
  Qed.
  Lemma aged_frame : forall g xs ys xs1 ys1 ls, (forall j, In j (map fst ls) -> rd xs1 j = rd xs j) -> (forall j, In j (map fst ls) -> rd ys1 j = rd ys j) -> aged O g xs ys ls -> aged O g xs1 ys1 ls.
  Proof. intros g xs ys xs1 ys1 ls Ex Ey A j Hj. destruct (A j Hj) as [w [W1 W2]]. exists w. now rewrite Ex, Ey by exact Hj. Qed.
  Lemma scored_frame : forall label g xs ys xs1 ys1 o o' o1 o1', scored O lc label g xs ys o o' -> twin o o1 -> twin o' o1' ->
    (forall j, In j (leaves_of o) -> rd xs1 j = rd xs j) -> (forall j, In j (leaves_of o') -> rd ys1 j = rd ys j) -> scored O lc label g xs1 ys1 o1 o1'.
  Proof.
    intros label g xs ys xs1 ys1 o o' o1 o1' S T T' Ex Ey. inversion S as [|j cs Om Hj|t t' j cs cs' others w P1 P2 Om W1 W2 A|t t' j cs P1 Om W A|t t' P1 A]; subst o o'; destruct o1 as [t1|], o1' as [t1'|]; cbn [twin Coarse_Fade_Spec.leaves_of] in *; try contradiction.
    - constructor.
    - cbn in T'. apply one_leaf in T'. subst t1'. constructor; auto. rewrite Ey; [exact Hj|now left].
    - apply scored_learns with j cs cs' others w; [now rewrite T|now rewrite T'|exact Om|rewrite Ex; [exact W1|rewrite P1; now left]|rewrite Ey; [exact W2|rewrite P2; now left]|].
      apply aged_frame with xs ys; [intros q Hq; apply Ex; rewrite P1; now right|intros q Hq; apply Ey; rewrite P2; now right|exact A].
    - apply scored_splits with j cs; [now rewrite T', T|exact Om|rewrite Ey; [exact W|rewrite P1; now left]|]. rewrite T.
      apply aged_frame with xs ys; [exact Ex|intros q Hq; apply Ey; rewrite P1; now right|exact A].
    - apply scored_loses; [now rewrite T', T|]. rewrite T. apply aged_frame with xs ys; [exact Ex|intros q Hq; apply Ey; now rewrite P1|exact A].
  Qed.
  (** A score that was changed by [g] before. *)
  Lemma scored_after : forall label g xs xs1 ys o o', scored O lc label unchanged xs1 ys o o' -> (forall j, In j (leaves_of o) -> exists w, rd xs j = Ok w /\ rd xs1 j = Ok (g w)) -> scored O lc label g xs ys o o'.
  Proof.
    intros label g xs xs1 ys o o' S F. assert (Ag : forall ls, (forall j, In j (map fst ls) -> In j (leaves_of o)) -> aged O unchanged xs1 ys ls -> aged O g xs ys ls).
    { intros ls I A j Hj. destruct (A j Hj) as [w [W1 W2]]. destruct (F j (I j Hj)) as [v [V1 V2]]. exists v. split; [exact V1|]. unfold Coarse_Fade_Spec.unchanged in W2. congruence. }
    inversion S as [|j cs Om Hj|t t' j cs cs' others w P1 P2 Om W1 W2 A|t t' j cs P1 Om W A|t t' P1 A]; subst o o'; cbn [Coarse_Fade_Spec.leaves_of] in *.
    - constructor.
    - now constructor.
    - destruct (F j ltac:(rewrite P1; now left)) as [v [V1 V2]]. apply scored_learns with j cs cs' others v; auto; [unfold Coarse_Fade_Spec.unchanged in W2; congruence|]. apply Ag; [|exact A]. intros q Hq. rewrite P1. now right.
    - apply scored_splits with j cs; auto.
    - apply scored_loses; auto.
  Qed.
  Lemma calm_twins : forall s s' ts ts', length ts' = length ts -> (forall q o, nth_error ts q = Some o -> exists o', nth_error ts' q = Some o' /\ twin o o') -> (forall j, score s' j = score s j) -> calm s ts -> calm s' ts'.
  Proof.
    intros s s' ts ts' Ll T E C j v Nj Hj. rewrite E in Hj. apply (C j v); [|exact Hj]. intros X. apply Nj. apply leaf_ids_in in X. destruct X as [q [t [Hq Hj']]]. destruct (T q _ Hq) as [o' [Ho' Tw]]. destruct o' as [t'|]; [|contradiction].
    apply leaf_ids_in. exists q, t'. split; [exact Ho'|]. cbn in Tw. now rewrite Tw.
  Qed.
  Lemma alike_twins : forall ts ts' : list (option ctree), Forall2 (fun o o' => match o, o' with Some t, Some t' => alike O t t' | None, None => True | _, _ => False end) ts ts' ->
    length ts' = length ts /\ forall q o, nth_error ts q = Some o -> exists o', nth_error ts' q = Some o' /\ twin o o'.
  Proof.
    intros ts ts' F. induction F as [|o o' ts ts' H F [IH1 IH2]]; [split; [reflexivity|]; intros [|q] o X; discriminate|]. split; [cbn; congruence|]. intros [|q] o1 X; cbn in *; [|eauto]. injection X as <-. exists o'. split; [reflexivity|].
    destruct o as [t|], o' as [t'|]; try contradiction; cbn; auto. now destruct (alike_facts O _ _ H) as [_ [_ [-> _]]].
  Qed.
  Lemma recount_up_fading : forall steps s i label s', recount_up O c steps s i label = Ok s' -> fading s' = fading s.
  Proof.
    induction steps as [|steps IH]; intros s i label s' H; [discriminate|]. cbn [recount_up] in H. destruct (_ && _); [|now injection H as <-]. inv_bind H. inv_bind H. inv_bind H. inv_bind H. inv_bind H. inv_bind H. apply IH in H. rewrite H. apply change_inv in E4. destruct E4 as [n [n' [_ [_ ->]]]]. reflexivity.
  Qed.
  (** A loop over the trees. *)
  Lemma each_scored : forall (St : Type) (pj : St -> coarse) (body : Z -> St -> res St) (Q : coarse -> Prop) (Tw : option ctree -> option ctree -> Prop) (R : list (num O) -> list (num O) -> option ctree -> option ctree -> Prop),
    (forall o, Tw o o) -> (forall a b d, Tw a b -> Tw b d -> Tw a d) -> (forall a b, Tw a b -> Tw b a) -> (forall o o', Tw o o' -> leaves_of o' = leaves_of o) ->
    (forall xs ys xs1 ys1 o o' o1 o1', R xs ys o o' -> Tw o o1 -> Tw o' o1' -> (forall j, In j (leaves_of o) -> rd xs1 j = rd xs j) -> (forall j, In j (leaves_of o) \/ In j (leaves_of o') -> rd ys1 j = rd ys j) -> R xs1 ys1 o1 o1') ->
    (forall st i ts o st', inv (pj st) ts -> calm (pj st) ts -> Q (pj st) -> nth_error ts i = Some o -> body (Z.of_nat i) st = Ok st' ->
      exists ts', inv (pj st') ts' /\ calm (pj st') ts' /\ Q (pj st') /\ length ts' = length ts /\ (exists o', nth_error ts' i = Some o' /\ R (fading (pj st)) (fading (pj st')) o o') /\
        (forall q u, q <> i -> nth_error ts q = Some u -> exists u', nth_error ts' q = Some u' /\ Tw u u') /\ forall j, ~ In j (leaves_of o) -> score (pj st') j = score (pj st) j) ->
    forall st ts st', inv (pj st) ts -> calm (pj st) ts -> Q (pj st) -> forZ (Z.to_nat tc) 0 body st = Ok st' ->
      exists ts', inv (pj st') ts' /\ calm (pj st') ts' /\ Q (pj st') /\ Forall2 (R (fading (pj st)) (fading (pj st'))) ts ts'.
  Proof.
    intros St pj body Q0 Tw R Tr Tt Ts Tl Rf Hb0 st ts st' V C HQ H. pose proof V as [Ll _].
    set (P := fun (i : Z) (st1 : St) => exists ti, inv (pj st1) ti /\ calm (pj st1) ti /\ Q0 (pj st1) /\ length ti = length ts /\ forall q o, nth_error ts q = Some o -> exists o', nth_error ti q = Some o' /\
      if Z.of_nat q <? i then R (fading (pj st)) (fading (pj st1)) o o' else Tw o o' /\ forall j, In j (leaves_of o) -> score (pj st1) j = score (pj st) j).
    assert (X : P (0 + Z.of_nat (Z.to_nat tc)) st').
    { refine (forZ_inv_post _ P body _ 0 st st' _ _ H).
      - exists ts. split; [exact V|]. split; [exact C|]. split; [exact HQ|]. split; [reflexivity|]. intros q o Hq. exists o. split; [exact Hq|]. rewrite (proj2 (Z.ltb_ge (Z.of_nat q) 0)) by lia. auto.
      - clear st' H. intros i s1 s2 Hi [ti [Vi [Ci [Qi [Li Q]]]]] Hb. assert (Hn : exists n, i = Z.of_nat n) by (exists (Z.to_nat i); lia). destruct Hn as [n ->].
        destruct (nth_error ts n) as [o|] eqn:Ho; [|apply nth_error_None in Ho; lia]. destruct (Q n o Ho) as [oi [Hoi Hc]]. rewrite (proj2 (Z.ltb_ge (Z.of_nat n) (Z.of_nat n))) in Hc by lia. destruct Hc as [Tw0 Es].
        destruct (Hb0 s1 n ti oi s2 Vi Ci Qi Hoi Hb) as [ti' [V' [C' [Q' [L' [[o' [Ho' Sc]] [Ot K]]]]]]]. exists ti'. split; [exact V'|]. split; [exact C'|]. split; [exact Q'|]. split; [congruence|].
        assert (Dis : forall q u j, q <> n -> nth_error ti q = Some u -> In j (leaves_of u) -> ~ In j (leaves_of oi)).
        { intros q u j Nq Hq Hj Hj'. destruct u as [u|]; [|contradiction]. destruct oi as [ui|]; [|contradiction]. apply Nq. destruct (tree_ids O c (pj s1) ti n ui Vi Hoi) as [_ [_ [_ Only]]]. apply (Only j q u); auto using leaf_in. }
        assert (Dis0 : forall q u j, q <> n -> nth_error ts q = Some u -> In j (leaves_of u) -> ~ In j (leaves_of oi)).
        { intros q u j Nq Hq Hj Hj'. rewrite (Tl _ _ Tw0) in Hj'. destruct u as [u|]; [|contradiction]. destruct o as [u0|]; [|contradiction]. apply Nq. destruct (tree_ids O c (pj st) ts n u0 V Ho) as [_ [_ [_ Only]]]. apply (Only j q u); auto using leaf_in. }
        intros q u Hq. destruct (Nat.eq_dec q n) as [->|Nq].
        + exists o'. split; [exact Ho'|]. rewrite (proj2 (Z.ltb_lt (Z.of_nat n) (Z.of_nat n + 1))) by lia. rewrite Ho in Hq. injection Hq as <-. apply Rf with (fading (pj s1)) (fading (pj s2)) oi o'; auto.
          intros j Hj. rewrite (Tl _ _ Tw0) in Hj. symmetry. now apply Es.
        + destruct (Q q u Hq) as [ui [Hui Hu]]. destruct (Ot q ui Nq Hui) as [u' [Hu' Tu]]. exists u'. split; [exact Hu'|]. destruct (Z.ltb_spec (Z.of_nat q) (Z.of_nat n)) as [Lt|Ge].
          * rewrite (proj2 (Z.ltb_lt (Z.of_nat q) (Z.of_nat n + 1))) by lia. apply Rf with (fading (pj st)) (fading (pj s1)) u ui; auto. intros j [Hj|Hj]; apply K; [eapply Dis0; eauto|eapply Dis; eauto].
          * rewrite (proj2 (Z.ltb_ge (Z.of_nat q) (Z.of_nat n + 1))) by lia. destruct Hu as [Tq Eq]. split; [eapply Tt; eauto|]. intros j Hj. rewrite <- (Eq j Hj). apply K. apply (Dis q ui); auto. now rewrite (Tl _ _ Tq). }
    destruct X as [ts' [V' [C' [Q' [L' Q]]]]]. exists ts'. split; [exact V'|]. split; [exact C'|]. split; [exact Q'|].
    assert (Y : forall q o o', nth_error ts q = Some o -> nth_error ts' q = Some o' -> R (fading (pj st)) (fading (pj st')) o o').
    { intros q o o' Hq Hq'. destruct (Q q o Hq) as [u [Hu Hs]]. rewrite Hq' in Hu. injection Hu as <-. rewrite (proj2 (Z.ltb_lt (Z.of_nat q) _)) in Hs; [exact Hs|]. assert (q < length ts)%nat by (apply nth_error_Some; congruence). lia. }
    clear -L' Y. revert ts' L' Y. induction ts as [|o ts IH]; intros [|o' ts'] L' Y; try discriminate; constructor; [apply (Y 0%nat); reflexivity|]. apply IH; [now injection L'|]. intros q. apply (Y (Datatypes.S q)).
  Qed.
  Lemma twin_sym : forall a b, twin a b -> twin b a.
  Proof. intros [a|] [b|]; cbn; auto. Qed.
  Section Loop.
    Variable x : list (num O).
    Variable label : Z.
    Hypothesis Hx : Z.of_nat (length x) = fc.
    Hypothesis Hl : 0 <= label < lc.
    Hypothesis Hbary : kind <> EXTEND_BARYCENTER.
    Hypothesis Hghost : kind <> EXTEND_GHOST.
    Hypothesis Hupd : kind <> EXTEND_COUNTER_NO_UPDATE.
    Let body := fun (i : Z) '((s, fully_trained) : coarse * bool) =>
           do (s, has_trained) <- train_tree O log_ rnd c s x label i;
           do s <- (if c_optimize O c then update_branch O c s i x label else Ok s);
           Ok (s, if negb has_trained then false else fully_trained).
    Lemma body_scores : forall s b i ts o s' b', inv s ts -> calm s ts -> nth_error ts i = Some o -> body (Z.of_nat i) (s, b) = Ok (s', b') ->
      exists ts', inv s' ts' /\ calm s' ts' /\ length ts' = length ts /\ (exists o', nth_error ts' i = Some o' /\ scored O lc label unchanged (fading s) (fading s') o o') /\
        (forall q u, q <> i -> nth_error ts q = Some u -> exists u', nth_error ts' q = Some u' /\ twin u u') /\ forall j, ~ In j (leaves_of o) -> score s' j = score s j.
    Proof.
      intros s b i ts o s' b' V C Hi H. unfold body in H. inv_bind H. destruct v as [s1 h]. inv_bind H. injection H as -> _. destruct (train_tree_scores x label (Z.of_nat i) Hx Hl Hbary Hghost Hupd s ts i o s1 h V C Hi eq_refl E) as [o1 [V1 [C1 [S1 K1]]]].
      assert (Li : (i < length ts)%nat) by (apply nth_error_Some; congruence).
      destruct (c_optimize O c).
      - assert (F : fading s' = fading s1) by (unfold update_branch in E0; inv_bind E0; inv_bind E0; now apply recount_up_fading in E0). apply update_branch_ok in E0. destruct E0 as [R1 [R2 R3]].
        destruct (inv_recounted O c s1 s' _ V1 R1 R2 R3) as [ts' [Al V']]. apply alike_twins in Al. destruct Al as [Ll Tw]. exists ts'. split; [exact V'|]. split; [apply calm_twins with s1 (upd ts i o1); auto; intros j; unfold Coarse_Fade.score; congruence|].
        split; [rewrite Ll; apply upd_length|]. split; [|split].
        + destruct (Tw i o1 (nth_error_upd_same _ _ _ _ Li)) as [o' [Ho' T']]. exists o'. split; [exact Ho'|]. apply scored_frame with (fading s) (fading s1) o o1; auto using twin_refl. intros j _. now rewrite F.
        + intros q u Nq Hq. apply Tw. now rewrite nth_error_upd_other by congruence.
        + intros j Hj. rewrite <- (K1 j Hj). unfold Coarse_Fade.score. congruence.
      - injection E0 as <-. exists (upd ts i o1). split; [exact V1|]. split; [exact C1|]. split; [apply upd_length|]. split; [exists o1; split; [now apply nth_error_upd_same|exact S1]|]. split; [|exact K1].
        intros q u Nq Hq. exists u. split; [now rewrite nth_error_upd_other by congruence|apply twin_refl].
    Qed.
    Lemma loop_scores : forall s ts s' b b0, inv s ts -> calm s ts -> forZ (Z.to_nat tc) 0 body (s, b0) = Ok (s', b) ->
      exists ts', inv s' ts' /\ calm s' ts' /\ Forall2 (scored O lc label unchanged (fading s) (fading s')) ts ts'.
    Proof.
      intros s ts s' b b0 V C H. destruct (each_scored (coarse * bool) fst body (fun _ => True) twin (scored O lc label unchanged) twin_refl twin_trans twin_sym twin_leaves (fun xs ys xs1 ys1 o o' o1 o1' S T T' Ex Ey => scored_frame label unchanged xs ys xs1 ys1 o o' o1 o1' S T T' Ex (fun j H => Ey j (or_intror H)))) with (st := (s, b0)) (ts := ts) (st' := (s', b)) as [ts' [V' [C' [_ F]]]]; auto.
      - intros [s1 b1] i ti o [s2 b2] Vi Ci _ Hi Hb. destruct (body_scores s1 b1 i ti o s2 b2 Vi Ci Hi Hb) as [ti' [A1 [A2 [A3 A4]]]]. exists ti'. auto.
      - eauto.
    Qed.
  End Loop.
End Score.
