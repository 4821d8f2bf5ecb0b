(** * Proofs for the coarse Mondrian forest: the barycenter extension in all trees *)
From Coq Require Import ZArith List Bool Lia Permutation.
From Verif Require Import CppBase CppFacts NumOps Utils_Model Mondrian_Model Mondrian_Spec Mondrian_Proofs Coarse_Model Coarse_Spec Coarse_Heap Coarse_Walk Coarse_Train Coarse_Trim Coarse_Forest Coarse_Reach Coarse_Smallest Coarse_Center.
Import ListNotations.
Local Open Scope Z_scope.

Lemma cut_splits : forall (O : ops) j t t', cut O j t t' -> incl (csplits O t') (csplits O t).
Proof.
  intros O j t t' C. induction C as [left i d v cs cj u|i d v cs l l' r C IH|i d v cs l r r' C IH]; cbn [csplits].
  - unfold fork_side. destruct left; cbn [csplits]; rewrite ?app_nil_r; intros q Hq; right; exact Hq.
  - intros q [<-|Hq]; [now left|]. right. apply in_app_or in Hq. apply in_or_app. destruct Hq; [left; now apply IH|now right].
  - intros q [<-|Hq]; [now left|]. right. apply in_app_or in Hq. apply in_or_app. destruct Hq; [now left|right; now apply IH].
Qed.

Section Center.
  Variable O : ops.
  Variable exp_ log_ : num O -> num O.
  Variable rnd : nat -> num O.
  Variable c : config O.
  Hypothesis L : tlaws O.
  Hypothesis Hlife : nlt O (c_life O c) (nofZ O 0) = false.
  Local Notation n_ := (nofZ O).
  Local Notation coarse := (coarse O).
  Local Notation fr := (fr O).
  Local Notation nodes := (nodes O).
  Local Notation roots := (roots O).
  Local Notation get := (get O).
  Local Notation avail := (avail O).
  Local Notation fc := (c_features O c).
  Local Notation lc := (c_labels O c).
  Local Notation nc := (c_nodes O c).
  Local Notation tc := (c_trees O c).
  Local Notation kind := (c_extend O c).
  Local Notation ctree := (ctree O).
  Local Notation ctop := (ctop O).
  Local Notation cids := (cids O).
  Local Notation stored := (stored O fc lc).
  Local Notation cpool := (cpool O c).
  Local Notation all_cids := (all_cids O).
  Local Notation inv := (inv O c).
  Local Notation fewer := (fewer O).
  Local Notation lpos := (lpos O c).
  Local Notation tally := (tally O).
  Hypothesis CC : clean_cut O.
  Hypothesis Hmid : forall t0 t q, nlt O t0 (n_ 0) = false -> nlt O t (n_ 0) = false -> nlt O (nadd O t0 (nmul O (nsub O t t0) (rnd q))) (n_ 0) = false.
  Hypothesis Hkind : kind = EXTEND_BARYCENTER.
  Hypothesis Htrig : c_fe_trigger O c = SPLIT_TRIGGER_NONE.

  Definition opos (o : option ctree) : Prop := match o with Some t => lpos t | None => True end.
  Lemma each_pos : forall (St : Type) (pj : St -> coarse) (body : Z -> St -> res St) (R : coarse -> coarse -> option ctree -> option ctree -> Prop) (W : coarse -> coarse -> Prop),
    (forall s, W s s) -> (forall a b d, W a b -> W b d -> W a d) -> (forall a b d e o o', W a b -> R b d o o' -> W d e -> R a e o o') ->
    (forall st i ts o st', inv (pj st) ts -> nth_error ts i = Some o -> opos o -> body (Z.of_nat i) st = Ok st' -> exists o', R (pj st) (pj st') o o' /\ W (pj st) (pj st') /\ inv (pj st') (upd ts i o')) ->
    forall st st' ts, inv (pj st) ts -> Forall opos ts -> forZ (Z.to_nat tc) 0 body st = Ok st' -> exists ts', Forall2 (R (pj st) (pj st')) ts ts' /\ W (pj st) (pj st') /\ inv (pj st') ts'.
  Proof.
    intros St pj body R W W1 W2 RW Step st st' ts V Fp H. pose proof V as [Len _].
    pose (P := fun (i : Z) (x : St) => 0 <= i /\ exists dn, length dn = Z.to_nat i /\ Forall2 (R (pj st) (pj x)) (firstn (Z.to_nat i) ts) dn /\ W (pj st) (pj x) /\ inv (pj x) (dn ++ skipn (Z.to_nat i) ts)).
    assert (F : P (0 + Z.of_nat (Z.to_nat tc)) st').
    { refine (forZ_inv_post _ P _ _ 0 _ _ _ _ H).
      - split; [lia|]. exists []. split; [reflexivity|]. split; [constructor|]. split; [apply W1|exact V].
      - intros i x x' Hi [_ [dn [L1 [F1 [F2 F3]]]]] Hb. destruct (nth_error ts (Z.to_nat i)) as [o|] eqn:Ho; [|apply nth_error_None in Ho; lia].
        destruct (skipn_nth _ _ _ _ Ho) as [S1 S2]. rewrite S1 in F3. assert (Op : opos o) by (rewrite Forall_forall in Fp; apply Fp; now apply nth_error_In with (Z.to_nat i)).
        assert (Hn : nth_error (dn ++ o :: skipn (S (Z.to_nat i)) ts) (Z.to_nat i) = Some o) by (rewrite nth_error_app2 by lia; rewrite L1, Nat.sub_diag; reflexivity).
        destruct (Step x (Z.to_nat i) _ o x' F3 Hn Op) as [o' [R1 [R2 R3]]]; [rewrite Z2Nat.id by lia; exact Hb|]. rewrite <- L1 in R3. rewrite upd_middle in R3.
        split; [lia|]. exists (dn ++ [o']). replace (Z.to_nat (i + 1)) with (S (Z.to_nat i)) by lia. split; [rewrite app_length; cbn; lia|]. split; [|split; [now apply W2 with (pj x)|now rewrite L1 in R3]].
        rewrite S2. apply Forall2_app.
        + clear -F1 R2 RW W1. induction F1 as [|a b la lb H F IH]; constructor; auto. apply RW with (pj st) (pj x); auto.
        + constructor; [|constructor]. apply RW with (pj x) (pj x'); auto. }
    destruct F as [_ [dn [L1 [F1 [F2 F3]]]]]. replace (Z.to_nat (0 + Z.of_nat (Z.to_nat tc))) with (length ts) in * by lia. rewrite firstn_all in F1. rewrite skipn_all, app_nil_r in F3. exists dn. auto.
  Qed.

  Section Point.
    Variable x : list (num O).
    Variable label : Z.
    Hypothesis Hx : Z.of_nat (length x) = fc.
    Hypothesis Hl : 0 <= label < lc.
    Local Notation cgrown := (cgrown O c x label).
    Inductive center_step (s s' : coarse) : option ctree -> option ctree -> Prop :=
    | cs_none : avail s' = 0 -> center_step s s' None None
    | cs_first : forall i, avail s <> 0 -> center_step s s' None (Some (single O lc label i))
    | cs_grown : forall t t', cgrown t t' -> center_step s s' (Some t) (Some t').
    Definition centered (s s' : coarse) (o o' : option ctree) : Prop := exists o1, center_step s s' o o1 /\ if c_optimize O c then oalike O o1 o' else o' = o1.

    Lemma cut_leaf_ids : forall left all low a b d v i cs, Permutation (cids (cut_leaf O c label left all low a b d v i cs)) [a; b; i].
    Proof. intros. unfold cut_leaf, fork_side. destruct (halves O c all cs). destruct left; cbn [Coarse_Spec.cids app]; apply perm_skip; [apply perm_swap|apply Permutation_refl]. Qed.
    Lemma cgrown_size : forall t t', cgrown t t' -> (length (cids t) <= length (cids t'))%nat.
    Proof.
      intros t t' G. induction G; cbn [Coarse_Spec.cids length] in *; rewrite ?app_length in *; try lia.
      - rewrite (Permutation_length (cut_leaf_ids left all (negb (nlt O v xd)) a b d v i cs)). cbn. lia.
      - unfold fork_side. destruct left; cbn [Coarse_Spec.cids length]; rewrite ?app_length; cbn; lia.
    Qed.
    Lemma bumped_pos : forall cs, (forall l, 0 <= l < lc -> 0 <= at_label l cs) -> length cs = Z.to_nat lc -> forall l, 0 <= l < lc -> 0 <= at_label l (bumped label cs).
    Proof. intros cs H Lc l Hl'. rewrite at_label_bumped by lia. specialize (H l Hl'). destruct (l =? label); lia. Qed.
    Lemma cgrown_pos : forall t t', cgrown t t' -> forall f p, stored f p t -> lpos t -> lpos t'.
    Proof.
      intros t t' G. assert (Z0 : forall l, 0 <= l < lc -> 0 <= at_label l (repeat 0 (Z.to_nat lc))) by (intros; rewrite at_label_zeros; lia). assert (Lz : length (repeat 0 (Z.to_nat lc)) = Z.to_nat lc) by apply repeat_length.
      induction G; intros f p St Hp; cbn [Coarse_Center.lpos] in *.
      - apply bumped_pos; [exact Hp|]. destruct St as [n [_ [_ [E [Ln _]]]]]. cbn [top_counters] in E. congruence.
      - unfold cut_leaf, halves, fork_side. destruct all, left; cbn [Coarse_Center.lpos]; destruct (negb (nlt O v xd)); cbn [Bool.eqb]; split; auto; apply bumped_pos; auto.
      - destruct Hp as [Hp1 Hp2]. destruct St as [n [_ [_ [_ [_ [_ [_ [_ [_ [_ [_ [Sl Sr]]]]]]]]]]]]. split; [eapply IHG; eauto|exact Hp2].
      - destruct Hp as [Hp1 Hp2]. destruct St as [n [_ [_ [_ [_ [_ [_ [_ [_ [_ [_ [Sl Sr]]]]]]]]]]]]. split; [exact Hp1|eapply IHG; eauto].
      - exact Hp.
      - unfold fork_side, single. destruct left; cbn [Coarse_Center.lpos]; split; auto; apply bumped_pos; auto.
    Qed.
    (** The counters of the leaves. *)
    Lemma cut_tally : forall left all low a b d v i cs l, length cs = Z.to_nat lc -> 0 <= l -> tally l (cut_leaf O c label left all low a b d v i cs) = at_label l cs + (if l =? label then 1 else 0).
    Proof.
      intros left all low a b d v i cs l Lc Hl0. assert (Lz : length (repeat 0 (Z.to_nat lc)) = Z.to_nat lc) by apply repeat_length.
      unfold cut_leaf, halves, fork_side. destruct all, left, low; cbn [Bool.eqb]; rewrite tally_fork, !tally_leaf, ?at_label_bumped, ?at_label_zeros by lia; lia.
    Qed.
    Lemma cgrown_tally : (forall a b, nle O a b = false -> nlt O b a = true) -> forall t t', cgrown t t' -> forall f p, stored f p t -> forall l, 0 <= l -> tally l t' = tally l t + (if l =? label then 1 else 0).
    Proof.
      intros Tot t t' G. induction G; intros f p St l0 Hl0.
      - rewrite !tally_leaf. apply at_label_bumped; auto. destruct St as [n [_ [_ [E [Ln _]]]]]. cbn [top_counters] in E. rewrite <- E, Ln. lia.
      - rewrite cut_tally, tally_leaf by auto. reflexivity.
      - rewrite !tally_fork. destruct St as [n [_ [_ [_ [_ [_ [_ [_ [_ [_ [_ [Sl _]]]]]]]]]]]]. rewrite (IHG f i Sl l0 Hl0). lia.
      - rewrite !tally_fork. destruct St as [n [_ [_ [_ [_ [_ [_ [_ [_ [_ [_ [_ Sr]]]]]]]]]]]]. rewrite (IHG f i Sr l0 Hl0). lia.
      - exfalso. rewrite Tot in H1 by assumption. discriminate.
      - unfold fork_side, single. destruct left; rewrite tally_fork, tally_leaf, at_label_single by auto; lia.
    Qed.

    (** ... or the point is lost at a split value that it cannot be compared with. *)
    Lemma cgrown_lost : forall t t', cgrown t t' -> forall f p, stored f p t ->
      (forall l, 0 <= l -> tally l t' = tally l t + (if l =? label then 1 else 0)) \/
      ((forall l, tally l t' = tally l t) /\ exists d v xd, In (d, v) (csplits O t) /\ rd x d = Ok xd /\ nle O xd v = false /\ nlt O v xd = false).
    Proof.
      intros t t' G. induction G; intros f p St.
      - left. intros l0 Hl0. rewrite !tally_leaf. apply at_label_bumped; auto. destruct St as [n [_ [_ [E [Ln _]]]]]. cbn [top_counters] in E. rewrite <- E, Ln. lia.
      - left. intros l0 Hl0. rewrite cut_tally, tally_leaf by auto. reflexivity.
      - destruct St as [n [_ [_ [_ [_ [_ [_ [_ [_ [_ [_ [Sl _]]]]]]]]]]]]. destruct (IHG f i Sl) as [Q|[Q [d1 [v1 [x1 [I1 X]]]]]].
        + left. intros l0 Hl0. rewrite !tally_fork, Q by exact Hl0. lia.
        + right. split; [intros l0; rewrite !tally_fork, Q; reflexivity|]. exists d1, v1, x1. split; [cbn [csplits]; right; apply in_or_app; now left|exact X].
      - destruct St as [n [_ [_ [_ [_ [_ [_ [_ [_ [_ [_ [_ Sr]]]]]]]]]]]]. destruct (IHG f i Sr) as [Q|[Q [d1 [v1 [x1 [I1 X]]]]]].
        + left. intros l0 Hl0. rewrite !tally_fork, Q by exact Hl0. lia.
        + right. split; [intros l0; rewrite !tally_fork, Q; reflexivity|]. exists d1, v1, x1. split; [cbn [csplits]; right; apply in_or_app; now right|exact X].
      - right. split; [reflexivity|]. exists d, v, xd. split; [now left|auto].
      - left. intros l0 Hl0. unfold fork_side, single. destruct left; rewrite tally_fork, tally_leaf, at_label_single by auto; lia.
    Qed.

    (** The same forest with another extension. *)
    Definition plain : config O := {| c_trees := tc; c_features := fc; c_labels := lc; c_nodes := nc; c_life := c_life O c; c_base := c_base O c; c_discount := c_discount O c;
      c_manage := c_manage O c; c_size_limit := c_size_limit O c; c_fe_dist := c_fe_dist O c; c_fe_trigger := c_fe_trigger O c; c_fe_param := c_fe_param O c; c_fading := c_fading O c;
      c_helper := c_helper O c; c_extend := EXTEND_NONE; c_trim := c_trim O c; c_max_trim := c_max_trim O c; c_optimize := c_optimize O c |}.
    Lemma train_first : forall s i ts s' b, inv s ts -> nth_error ts i = Some None -> train_tree O log_ rnd c s x label (Z.of_nat i) = Ok (s', b) ->
      exists o', center_step s s' None o' /\ fewer s s' /\ inv s' (upd ts i o').
    Proof.
      intros s i ts s' b V Hi H. assert (H' : train_tree O log_ rnd plain s x label (Z.of_nat i) = Ok (s', b)).
      { unfold train_tree in *. destruct V as [_ [V _]]. destruct (V i None Hi) as [Hr _]. rewrite Hr in *. cbn [bind rid] in *. change (-1 =? -1) with true in *. cbv iota in *. exact H. }
      destruct (train_tree_ok O exp_ log_ rnd plain L Hlife x label Hx ltac:(discriminate) s i ts None s' b V Hi H') as [o' [T [F V']]]. exists o'. split; [|split; [exact F|exact V']]. inversion T; subst; [now apply cs_none|now apply cs_first].
    Qed.
    Lemma center_tree_ok : forall s i ts o s' b, inv s ts -> nth_error ts i = Some o -> opos o -> train_tree O log_ rnd c s x label (Z.of_nat i) = Ok (s', b) ->
      exists o', center_step s s' o o' /\ fewer s s' /\ inv s' (upd ts i o').
    Proof.
      intros s i ts o s' b V Hi Op H. destruct o as [t|]; [|now apply train_first with b]. pose proof V as [H1 [H2 [H3 [H4 H5]]]]. destruct (H2 i _ Hi) as [Hr Hs]. unfold train_tree in H. rewrite Hr in H. cbn [bind rid] in H.
      pose proof H3 as [P1 [P2 [P3 _]]]. assert (Bt : 0 <= ctop t < nc) by (apply P3; apply all_cids_in with i (Some t); auto; apply ctop_in). rewrite (proj2 (Z.eqb_neq (ctop t) (-1))) in H by lia. inv_bind H. clear E.
      rewrite Hkind in H. cbn [EXTEND_BARYCENTER EXTEND_ORIGINAL EXTEND_PARTIAL_UPDATE EXTEND_GHOST EXTEND_COUNTER_NO_UPDATE EXTEND_NONE Z.eqb Pos.eqb orb andb] in H. inv_bind H. injection H as <- <-.
      pose proof (inv_before O c s ts i t V Hi) as Bf.
      destruct (extend4_ok O log_ rnd c L Hlife _ _ x label Hx ltac:(lia) CC Hmid Hkind Htrig _ _ _ _ _ _ _ _ Bf Op E) as [t' [G A]].
      pose proof (inv_after O exp_ log_ rnd c _ _ _ _ _ _ V Hi A) as V'. exists (Some t'). split; [now apply cs_grown|]. split; [|exact V'].
      intros Z0. destruct V' as [_ [_ [C' _]]]. apply cpool_avail in C', H3. pose proof (all_cids_length O x _ _ _ _ Hi (cgrown_size _ _ G)). lia. all: exact x.
    Qed.
    Lemma center_body : forall s1 b1 i ts1 o s2 b2, inv s1 ts1 -> nth_error ts1 i = Some o -> opos o ->
      (do (s, has_trained) <- train_tree O log_ rnd c s1 x label (Z.of_nat i);
       do s <- (if c_optimize O c then update_branch O c s (Z.of_nat i) x label else Ok s);
       Ok (s, if negb has_trained then false else b1)) = Ok (s2, b2) ->
      exists o', centered s1 s2 o o' /\ fewer s1 s2 /\ inv s2 (upd ts1 i o').
    Proof.
      intros s1 b1 i ts1 o s2 b2 V1 Hi Op Hb. inv_bind Hb. destruct v as [s3 b3]. inv_bind Hb. injection Hb as <- _. rename v into s4.
      destruct (center_tree_ok s1 i ts1 o s3 b3 V1 Hi Op E) as [o1 [T [F V2]]]. unfold centered. destruct (c_optimize O c).
      + pose proof E0 as EU. apply update_branch_ok in E0. destruct E0 as [R1 [R2 R3]].
        assert (Li : (i < length ts1)%nat) by (apply nth_error_Some; congruence).
        pose proof V2 as [A1 [A2 [A3 [A4 A5]]]]. destruct (A2 i o1 (nth_error_upd_same _ _ _ _ Li)) as [Hr Hs]. destruct o1 as [t|].
        2: { exfalso. unfold update_branch, get_leaf in EU. cbn [rid] in Hr. rewrite Hr in EU. cbn in EU. discriminate. }
        cbn [rid] in Hr. pose proof (update_branch_inside O c _ _ _ _ _ _ (stored_shape O c _ _ _ Hs) Hr EU) as Fr. destruct (recounted_stored O c t _ _ _ R1 Hs) as [t' [Al St]]. destruct (alike_facts O _ _ Al) as [T1 [T2 _]].
        assert (T' : center_step s1 s4 o (Some t)) by (inversion T; subst; [apply cs_first|apply cs_grown]; auto).
        exists (Some t'). split; [exists (Some t); split; [exact T'|exact Al]|]. split; [unfold Coarse_Forest.fewer in *; intros X; rewrite R2; auto|]. pose proof A3 as [P1 [P2 [P3 _]]].
        assert (Pm : all_cids (upd ts1 i (Some t')) = all_cids (upd ts1 i (Some t))).
        { clear -T2 Li. revert i Li. induction ts1 as [|o ts IH]; intros i Li; [reflexivity|]. destruct i as [|i]; cbn [upd]; rewrite !all_cids_cons; [cbn [oids]; now rewrite T2|]. rewrite IH; [reflexivity|]. cbn in Li. lia. }
        split; [now rewrite upd_length in *|]. split; [|split; [rewrite Pm; now apply recounted_cpool with s3|split; [apply arrays_same with s3; auto; now destruct R1 as [_ [X _]]|now rewrite (limit_same O _ _ R3)]]].
        intros j o0 Hj. destruct R1 as [R1 _]. rewrite R1. destruct (Nat.eq_dec j i) as [->|N].
        * rewrite nth_error_upd_same in Hj by exact Li. injection Hj as <-. split; [cbn [rid]; now rewrite T1|exact St].
        * rewrite nth_error_upd_other in Hj by congruence. destruct (A2 j o0) as [B1 B2]; [now rewrite nth_error_upd_other by congruence|]. split; [exact B1|]. destruct o0 as [u|]; [|exact I].
          apply stored_frame with (fr s3); [|exact B2]. intros q Hq. apply (Fr q). intros X.
          assert (Y : NoDup (all_cids (upd ts1 i None) ++ cids t)) by (eapply Permutation_NoDup; [|exact P2]; apply (all_cids_upd O ts1 i (Some t) Li)). apply nodup_app in Y. destruct Y as [_ [_ Y]]. apply (Y q); [|exact X].
          apply all_cids_in with j (Some u); [now rewrite nth_error_upd_other by congruence|exact Hq].
      + injection E0 as <-. exists o1. split; [exists o1; auto|]. auto.
    Qed.
    Lemma center_loop : forall s ts s' b b0, inv s ts -> Forall opos ts ->
      forZ (Z.to_nat tc) 0
        (fun i '(s, fully_trained) =>
           do (s, has_trained) <- train_tree O log_ rnd c s x label i;
           do s <- (if c_optimize O c then update_branch O c s i x label else Ok s);
           Ok (s, if negb has_trained then false else fully_trained)) (s, b0) = Ok (s', b) ->
      exists ts', Forall2 (centered s s') ts ts' /\ fewer s s' /\ inv s' ts'.
    Proof.
      intros s ts s' b b0 V Fp H.
      refine (each_pos (coarse * bool) fst _ centered fewer _ _ _ _ (s, b0) (s', b) ts V Fp H); unfold Coarse_Forest.fewer; auto.
      - intros a1 b1 d1 e1 o o' Hab [o1 [T Ho]] Hde. exists o1. split; [|exact Ho]. inversion T; subst; [apply cs_none|apply cs_first|apply cs_grown]; auto.
      - intros [s1 b1] i ts1 o [s2 b2] V1 Hi Op Hb. now apply center_body with b1 b2.
    Qed.
  End Point.

  Lemma alike_pos : forall t t', alike O t t' -> lpos t -> lpos t'.
  Proof. intros t t' A. induction A; cbn [Coarse_Center.lpos]; tauto. Qed.
  Lemma oalike_pos : forall o o', oalike O o o' -> opos o -> opos o'.
  Proof. intros [t|] [t'|] A; cbn in *; try tauto. now apply alike_pos. Qed.
  Lemma cut_pos : forall j t t', cut O j t t' -> lpos t -> lpos t'.
  Proof. intros j t t' A. induction A; cbn [Coarse_Center.lpos]; try tauto. unfold fork_side. destruct left; cbn [Coarse_Center.lpos]; tauto. Qed.
  Lemma trimmed_pos : forall o o', trimmed O o o' -> opos o -> opos o'.
  Proof. intros o o' [-> |[j [t [t' [-> [-> A]]]]]]; [auto|]. now apply cut_pos with j. Qed.
  Lemma forall_pos : forall (R : option ctree -> option ctree -> Prop) ts ts', (forall o o', R o o' -> opos o -> opos o') -> Forall2 R ts ts' -> Forall opos ts -> Forall opos ts'.
  Proof. intros R ts ts' Hr F. induction F as [|o o' ts ts' H F IH]; intros P; [constructor|]. inversion P; subst. constructor; eauto. Qed.

  Lemma center_train_ok : forall s ts x label s' b, trim_safe O rnd c -> Z.of_nat (length x) = fc -> 0 <= label < lc -> inv s ts -> Forall opos ts -> train O log_ rnd c s x label = Ok (s', b) ->
    exists s1 ts1 ts', ((ts1 = ts /\ avail s1 = avail s) \/ (c_trim O c <> TRIM_NONE /\ avail s <= 1 /\ Forall2 (trimmed O) ts ts1)) /\ inv s1 ts1 /\
      Forall2 (centered x label s1 s') ts1 ts' /\ fewer s1 s' /\ inv s' ts' /\ Forall opos ts'.
  Proof.
    intros s ts x label s' b Sf Hx Hl V Fp H. unfold train in H. inv_bind H. destruct v as [sums u]. clear E. apply inv_counts with (x := sums) (p := nadd O (nmul O (count_points O s) (c_fading O c)) (n_ 1)) in V.
    set (s0 := with_sums O s sums _) in *. assert (Ea : avail s0 = avail s) by reflexivity. clearbody s0. inv_bind H. rename v into s1.
    assert (D1 : drawn_only O s0 s1) by (destruct (_ =? TRIM_FADING); [now apply fade_ok with c|injection E as <-; apply drawn_only_refl]). clear E. pose proof (inv_same O c _ _ _ D1 V) as V1. pose proof D1 as [_ [_ [Ea1 _]]].
    inv_bind H. rename v into s2. assert (X : exists ts2, ((ts2 = ts /\ avail s2 = avail s1) \/ (c_trim O c <> TRIM_NONE /\ avail s1 <= 1 /\ Forall2 (trimmed O) ts ts2)) /\ inv s2 ts2 /\ Forall opos ts2).
    { destruct (negb (c_trim O c =? TRIM_NONE) && (avail s1 <=? 1) && (total O s1 mod 100 =? 0)) eqn:B.
      - apply andb_prop in B. destruct B as [B _]. apply andb_prop in B. destruct B as [B1 B2]. apply negb_true_iff, Z.eqb_neq in B1. apply Z.leb_le in B2. destruct (tree_trim_ok O exp_ log_ rnd c L Hlife _ _ _ Sf B1 V1 E) as [ts2 [F V2]]. exists ts2. split; [right; auto|]. split; [exact V2|].
        eapply forall_pos; [apply trimmed_pos|exact F|exact Fp].
      - injection E as <-. exists ts. split; [left; auto|]. split; [exact V1|exact Fp]. }
    destruct X as [ts2 [X [V2 Fp2]]]. clear E. inv_bind H. destruct v as [s3 b3]. apply (center_loop x label Hx) with (ts := ts2) in E; auto. destruct E as [ts3 [F3 [W3 V3]]].
    inv_bind H. rename v into s4. injection H as <- _.
    assert (Y : exists q, s4 = s3 \/ s4 = with_full O s3 q). { destruct (avail s3 <=? 1); [inv_bind E; injection E as <-; eauto|injection E as <-; exists 0; auto]. } destruct Y as [q Y].
    exists s2, ts2, ts3. split; [rewrite <- Ea, <- Ea1; exact X|]. split; [exact V2|].
    assert (Av : avail (with_total O s4 (u32 (total O s4 + 1))) = avail s3) by (destruct Y as [-> | ->]; reflexivity).
    split; [|split; [|split]].
    - clear -F3 Av. induction F3 as [|o o' l l' H F IH]; constructor; auto. destruct H as [o1 [T Ho]]. exists o1. split; [|exact Ho]. inversion T; subst; [apply cs_none|apply cs_first|apply cs_grown]; auto. congruence.
    - unfold Coarse_Forest.fewer. now rewrite Av.
    - apply inv_totals with s3; auto; destruct Y as [-> | ->]; reflexivity.
    - destruct V2 as [_ [V2 _]]. rewrite Forall_forall in Fp2 |- *. intros o' Ho'. apply In_nth_error in Ho'. destruct Ho' as [i Hi]. destruct (Forall2_nth _ _ _ _ _ F3 i o' Hi) as [o [Ho [o1 [T A]]]]. destruct (V2 i o Ho) as [_ St]. assert (Po : opos o) by (apply Fp2; now apply nth_error_In with i).
      assert (P1 : opos o1). { inversion T; subst; cbn [opos]; [exact I| |eapply cgrown_pos; eauto]. unfold single. cbn [Coarse_Center.lpos]. apply bumped_pos; auto; [intros; rewrite at_label_zeros; lia|apply repeat_length]. }
      destruct (c_optimize O c); [now apply oalike_pos with o1|now subst].
  Qed.

  (** ** Any use *)
  Variable l0 : Z.
  Hypothesis Hs : csizes O c l0.
  Hypothesis Hsafe : trim_safe O rnd c.
  Definition counts_all (h : list (point O)) (s : coarse) (o : option ctree) : Prop :=
    match o with Some t => forall l, 0 <= l -> tally l t = Mondrian_Spec.count O l h | None => h = [] \/ avail s = 0 end.
  Lemma center_reach : forall s h, creached O exp_ log_ rnd c l0 s h -> exists ts, inv s ts /\ Forall opos ts /\
    (c_trim O c = TRIM_NONE -> (forall a b, nle O a b = false -> nlt O b a = true) -> Forall (counts_all h s) ts).
  Proof.
    intros s h H. destruct Hs as [S1 [S2 [S3 [S4 [S5 S6]]]]]. induction H as [|s h x label s' b R IH Hx Hl T|s h x sc k s' b sc' R IH Hx T].
    - exists (repeat None (Z.to_nat (c_trees O c))). split; [apply inv_init; auto; lia|]. split; [apply Forall_forall; intros o Ho; apply repeat_spec in Ho; now subst|]. intros _ _. apply Forall_forall. intros o Ho. apply repeat_spec in Ho. subst. now left.
    - destruct IH as [ts [V [Fp F]]]. pose proof V as [_ [V2 _]]. destruct (center_train_ok s ts x label s' b Hsafe Hx Hl V Fp T) as [s1 [ts1 [ts' [Tr [V1 [F1 [W [V' Fp']]]]]]]].
      exists ts'. split; [exact V'|]. split; [exact Fp'|]. intros Tn Tot. specialize (F Tn Tot). destruct Tr as [[-> Ea]|[X _]]; [|contradiction].
      apply Forall_forall. intros o' Ho'. apply In_nth_error in Ho'. destruct Ho' as [i Hi]. destruct (Forall2_nth _ _ _ _ _ F1 i o' Hi) as [o [Ho [o1 [Ts Al]]]].
      rewrite Forall_forall in F. specialize (F o (nth_error_In _ _ Ho)). destruct V1 as [_ [V1 _]]. destruct (V1 i o Ho) as [_ St].
      assert (Q : match o1 with Some t => forall l, 0 <= l -> tally l t = Mondrian_Spec.count O l ((x, label) :: h) | None => avail s' = 0 end).
      { inversion Ts; subst; cbn [counts_all] in F.
        - assumption.
        - intros l Hl0. rewrite count_cons. unfold single. rewrite tally_leaf, at_label_single by auto. destruct F as [-> |F]; [cbn; lia|congruence].
        - intros l Hl0. rewrite count_cons. rewrite (cgrown_tally _ _ Hl Tot _ _ H _ _ St l Hl0). now rewrite F. }
      destruct (c_optimize O c).
      + destruct o1 as [t2|], o' as [t'|]; try contradiction; [|now right]. intros l Hl0. rewrite <- Q by exact Hl0. unfold Coarse_Spec.tally. now destruct (alike_facts O _ _ Al) as [_ [_ [-> _]]].
      + subst o'. destruct o1; [exact Q|now right].
    - destruct IH as [ts [V [Fp F]]]. destruct (predict_ok O exp_ c s ts x sc k s' b sc' V T) as [Ea [ts' [V' X]]]. exists ts'. split; [exact V'|].
      destruct (negb (c_optimize O c) && negb (kind =? EXTEND_GHOST)).
      + split; [eapply forall_pos; [apply oalike_pos|exact X|exact Fp]|]. intros Tn Tot. specialize (F Tn Tot). apply Forall_forall. intros o' Ho'. apply In_nth_error in Ho'. destruct Ho' as [i Hi]. destruct (Forall2_nth _ _ _ _ _ X i o' Hi) as [o [Ho Al]].
        rewrite Forall_forall in F. specialize (F o (nth_error_In _ _ Ho)). destruct o as [t|], o' as [t'|]; try contradiction; cbn [counts_all] in *; [|now rewrite Ea].
        intros l Hl0. rewrite <- F by exact Hl0. unfold Coarse_Spec.tally. now destruct (alike_facts O _ _ Al) as [_ [_ [-> _]]].
      + destruct X as [-> ->]. auto.
  Qed.
  Local Notation counts_point := (counts_point O c).
  Lemma alike_tally : forall t t' l, alike O t t' -> tally l t' = tally l t.
  Proof. intros t t' l A. unfold Coarse_Spec.tally. now destruct (alike_facts O _ _ A) as [_ [_ [-> _]]]. Qed.
  Lemma zsum_perm : forall l l', Permutation l l' -> zsum l = zsum l'.
  Proof. intros l l' P. induction P; cbn [zsum fold_right] in *; unfold zsum in *; cbn [fold_right] in *; lia. Qed.
  Lemma center_counted : forall s h x label s' b, creached O exp_ log_ rnd c l0 s h -> Z.of_nat (length x) = fc -> 0 <= label < lc -> train O log_ rnd c s x label = Ok (s', b) ->
    forall ts, inv s ts -> Forall opos ts -> exists ts', inv s' ts' /\ Forall2 (counts_point s s' x label) ts ts'.
  Proof.
    intros s h x label s' b R Hx Hl T ts V Fp. destruct (center_train_ok s ts x label s' b Hsafe Hx Hl V Fp T) as [s1 [ts1 [ts' [Tr [V1 [F1 [W [V' Fp']]]]]]]].
    exists ts'. split; [exact V'|].
    assert (G : forall i o, nth_error ts i = Some o -> exists o1, nth_error ts1 i = Some o1 /\ ((o1 = o) \/ (c_trim O c <> TRIM_NONE /\ avail s <= 1 /\ trimmed O o o1))).
    { intros i o Ho. destruct Tr as [[-> _]|[Tn [Ta F]]]; [eauto|]. clear -F Ho Tn Ta. revert i Ho. induction F as [|a a' l l' H F IH]; intros i Ho; [now destruct i|]. destruct i as [|i]; [injection Ho as <-; exists a'; split; [reflexivity|right; auto]|exact (IH i Ho)]. }
    assert (Len : length ts = length ts'). { destruct V as [V _], V' as [V' _]. lia. }
    assert (Q : forall i o o', nth_error ts i = Some o -> nth_error ts' i = Some o' -> counts_point s s' x label o o').
    { intros i o o' Ho Ho'. destruct (G i o Ho) as [o1 [Ho1 Tr1]]. destruct (Forall2_nth _ _ _ _ _ F1 i o' Ho') as [oo [Ho2 [o2 [Ts Al]]]]. assert (oo = o1) by congruence. subst oo.
      destruct V1 as [_ [V1 _]]. destruct (V1 i o1 Ho1) as [_ St].
      assert (E2 : match o2, o' with Some t2, Some t' => forall l, tally l t' = tally l t2 | None, None => True | _, _ => False end).
      { destruct (c_optimize O c); [|subst o'; destruct o2; auto]. destruct o2, o'; try contradiction; auto. intros l. now apply alike_tally. }
      assert (Tm : match o, o1 with Some t, Some t1 => incl (csplits O t1) (csplits O t) /\ exists gone : Z -> Z, ((forall l, gone l = 0) \/ (c_trim O c <> TRIM_NONE /\ avail s <= 1 /\ exists j cs, In (j, cs) (cleaves O t) /\ forall l, gone l = at_label l cs)) /\ forall l, tally l t1 = tally l t - gone l
        | None, None => True | _, _ => False end).
      { assert (Same : forall t : ctree, incl (csplits O t) (csplits O t) /\ exists gone : Z -> Z, ((forall l, gone l = 0) \/ (c_trim O c <> TRIM_NONE /\ avail s <= 1 /\ exists j cs, In (j, cs) (cleaves O t) /\ forall l, gone l = at_label l cs)) /\ forall l, tally l t = tally l t - gone l).
        { intros t. split; [apply incl_refl|]. exists (fun _ => 0). split; [left; reflexivity|intros; lia]. }
        destruct Tr1 as [-> |[Tn [Ta [-> |[j [t [t' [-> [-> Ct]]]]]]]]]; [destruct o; auto|destruct o; auto|]. split; [now apply cut_splits with j|]. destruct (cut_leaves O j t t' Ct) as [cs Pm].
        exists (fun l => at_label l cs). split; [right; split; [exact Tn|split; [exact Ta|]]; exists j, cs; split; [|reflexivity]; eapply Permutation_in; [apply Permutation_sym; exact Pm|now left]|].
        intros l. unfold Coarse_Spec.tally. rewrite (zsum_perm _ _ (Permutation_map _ Pm)). cbn [map snd]. unfold zsum. cbn [fold_right]. lia. }
      inversion Ts; subst; destruct o as [t0|]; try contradiction; destruct o' as [tt|]; try contradiction; cbn [Coarse_Spec.counts_point].
      - assumption.
      - intros l Hl0. rewrite E2. unfold single. now rewrite tally_leaf, at_label_single by auto.
      - destruct Tm as [Inc [gone [Gn Tm]]]. exists gone. split; [exact Gn|]. destruct (cgrown_lost _ _ Hl _ _ H _ _ St) as [Q|[Q [d [v [xd [I X]]]]]].
        + left. intros l Hl0. rewrite E2, Q, Tm by exact Hl0. reflexivity.
        + right. split; [intros l; rewrite E2, Q, Tm; reflexivity|]. exists d, v, xd. split; [now apply Inc|exact X]. }
    clear -Q Len. revert ts' Len Q. induction ts as [|o ts IH]; intros [|o' ts'] Len Q; cbn in Len; try lia; constructor; [apply (Q 0%nat); reflexivity|]. apply IH; [lia|]. intros i a a' H1 H2. apply (Q (S i)); assumption.
  Qed.
  (** Each leaf has the counts of a leaf of the tree before, or none, and the new point. *)
  Lemma cgrown_whole : forall x label, 0 <= label < lc -> forall t t', cgrown O c x label t t' -> forall f p, stored f p t -> forall j cs', In (j, cs') (cleaves O t') ->
    exists cs, (cs = repeat 0 (Z.to_nat lc) \/ exists j0, In (j0, cs) (cleaves O t)) /\ length cs = Z.to_nat lc /\ (cs' = cs \/ cs' = bumped label cs).
  Proof.
    intros x label Hl t t' G. set (zs := repeat 0 (Z.to_nat lc)). assert (Lz : length zs = Z.to_nat lc) by apply repeat_length.
    assert (Leaves : forall t f p, stored f p t -> forall j cs, In (j, cs) (cleaves O t) -> length cs = Z.to_nat lc).
    { induction t0 as [i cs|i d v cs l IHl r IHr]; intros f p St j cs0 I; cbn [cleaves] in I.
      - destruct I as [E|[]]. injection E as <- <-. destruct St as [n [_ [_ [E [Ln _]]]]]. cbn [top_counters] in E. congruence.
      - destruct St as [n [_ [_ [_ [_ [_ [_ [_ [_ [_ [_ [Sl Sr]]]]]]]]]]]]. apply in_app_or in I. destruct I; eauto. }
    induction G; intros f p St j cs' I.
    - destruct I as [E|[]]. injection E as <- <-. exists cs. split; [right; exists i; now left|]. split; [eapply Leaves; [exact St|now left]|now right].
    - unfold cut_leaf, halves, fork_side in I. fold zs in I. destruct all, left, (negb (nlt O v xd)); cbn [Bool.eqb cleaves app] in I; destruct I as [E|[E|[]]]; injection E as <- <-;
        first [exists cs; split; [right; exists i; now left|split; [assumption|now (left + right)]]|exists zs; split; [now left|split; [exact Lz|now (left + right)]]].
    - destruct St as [n [_ [_ [_ [_ [_ [_ [_ [_ [_ [_ [Sl Sr]]]]]]]]]]]]. cbn [cleaves] in I |- *. apply in_app_or in I. destruct I as [I|I].
      + destruct (IHG f i Sl j cs' I) as [cs0 [[-> |[j0 J]] [L0 Q]]]; [exists zs; split; [now left|split; [exact Lz|exact Q]]|]. exists cs0. split; [right; exists j0; apply in_or_app; now left|split; [exact L0|exact Q]].
      + exists cs'. split; [right; exists j; apply in_or_app; now right|]. split; [exact (Leaves r f i Sr j cs' I)|now left].
    - destruct St as [n [_ [_ [_ [_ [_ [_ [_ [_ [_ [_ [Sl Sr]]]]]]]]]]]]. cbn [cleaves] in I |- *. apply in_app_or in I. destruct I as [I|I].
      + exists cs'. split; [right; exists j; apply in_or_app; now left|]. split; [exact (Leaves l f i Sl j cs' I)|now left].
      + destruct (IHG f i Sr j cs' I) as [cs0 [[-> |[j0 J]] [L0 Q]]]; [exists zs; split; [now left|split; [exact Lz|exact Q]]|]. exists cs0. split; [right; exists j0; apply in_or_app; now right|split; [exact L0|exact Q]].
    - exists cs'. split; [right; eauto|]. split; [eapply Leaves; eauto|now left].
    - assert (J : In (j, cs') (cleaves O t) \/ cs' = bumped label zs).
      { unfold fork_side, single in I. destruct left; cbn [cleaves] in I; apply in_app_or in I; destruct I as [I|I]; auto; destruct I as [E|[]]; injection E as <- <-; now right. }
      destruct J as [J| ->]; [exists cs'; split; [right; eauto|split; [eapply Leaves; eauto|now left]]|exists zs; split; [now left|split; [exact Lz|now right]]].
  Qed.
  Definition from_leaf (label : Z) (o o' : option ctree) : Prop :=
    forall t' j cs', o' = Some t' -> In (j, cs') (cleaves O t') ->
    exists cs, (cs = repeat 0 (Z.to_nat lc) \/ exists t j0, o = Some t /\ In (j0, cs) (cleaves O t)) /\ length cs = Z.to_nat lc /\ (cs' = cs \/ cs' = bumped label cs).
  Lemma center_whole : forall s x label s' b, Z.of_nat (length x) = fc -> 0 <= label < lc -> train O log_ rnd c s x label = Ok (s', b) ->
    forall ts, inv s ts -> Forall opos ts -> exists ts', inv s' ts' /\ Forall2 (from_leaf label) ts ts'.
  Proof.
    intros s x label s' b Hx Hl T ts V Fp. destruct (center_train_ok s ts x label s' b Hsafe Hx Hl V Fp T) as [s1 [ts1 [ts' [Tr [V1 [F1 [W [V' Fp']]]]]]]].
    exists ts'. split; [exact V'|].
    assert (G : forall i o, nth_error ts i = Some o -> exists o1, nth_error ts1 i = Some o1 /\ trimmed O o o1).
    { intros i o Ho. destruct Tr as [[-> _]|[Tn [Ta F]]]; [exists o; split; [exact Ho|now left]|]. clear -F Ho. revert i Ho. induction F as [|a a' l l' H F IH]; intros i Ho; [now destruct i|]. destruct i as [|i]; [injection Ho as <-; exists a'; auto|exact (IH i Ho)]. }
    assert (Len : length ts = length ts'). { destruct V as [V _], V' as [V' _]. lia. }
    assert (Q : forall i o o', nth_error ts i = Some o -> nth_error ts' i = Some o' -> from_leaf label o o').
    { intros i o o' Ho Ho'. destruct (G i o Ho) as [o1 [Ho1 Tr1]]. destruct (Forall2_nth _ _ _ _ _ F1 i o' Ho') as [oo [Ho2 [o2 [Ts Al]]]]. assert (oo = o1) by congruence. subst oo.
      destruct V1 as [_ [V1 _]]. destruct (V1 i o1 Ho1) as [_ St]. intros t' j cs' -> I.
      assert (I2 : exists t2, o2 = Some t2 /\ In (j, cs') (cleaves O t2)).
      { destruct (c_optimize O c); [|subst o2; eauto]. destruct o2 as [t2|]; [|contradiction]. exists t2. split; [reflexivity|]. destruct (alike_facts O _ _ Al) as [_ [_ [E _]]]. now rewrite E in I. }
      destruct I2 as [t2 [-> I2]].
      assert (Sub : forall t1 j0 cs, o1 = Some t1 -> In (j0, cs) (cleaves O t1) -> exists t, o = Some t /\ In (j0, cs) (cleaves O t)).
      { intros t1 j0 cs -> J. destruct Tr1 as [<-|[k [t [t1' [-> [E Ct]]]]]]; [eauto|]. injection E as <-. exists t. split; [reflexivity|]. destruct (cut_leaves O k t t1 Ct) as [ck Pm]. eapply Permutation_in; [apply Permutation_sym; exact Pm|now right]. }
      inversion Ts as [|i0 N0|t t0 H]; subst.
      - unfold single in I2. destruct I2 as [E|[]]. injection E as <- <-. exists (repeat 0 (Z.to_nat lc)). split; [now left|]. split; [apply repeat_length|now right].
      - destruct (cgrown_whole x label Hl _ _ H _ _ St j cs' I2) as [cs [[-> |[j0 J]] X]]; [exists (repeat 0 (Z.to_nat lc)); auto|]. destruct (Sub t j0 cs eq_refl J) as [t3 [-> J3]]. exists cs. split; [right; eauto|exact X]. }
    clear -Q Len. revert ts' Len Q. induction ts as [|o ts IH]; intros [|o' ts'] Len Q; cbn in Len; try lia; constructor; [apply (Q 0%nat); reflexivity|]. apply IH; [lia|]. intros i a a' H1 H2. apply (Q (S i)); assumption.
  Qed.
End Center.
