(** * Proofs for the coarse Mondrian forest: what holds of the trees after any use *)
From Coq Require Import ZArith List Bool Lia Permutation.
From Verif Require NumFacts.
From Verif Require Import CppBase CppFacts NumOps Utils_Model Mondrian_Model Mondrian_Spec Mondrian_Proofs Coarse_Model Coarse_Spec Coarse_Heap Coarse_Walk Coarse_Train Coarse_Trim Coarse_Forest.
Import ListNotations.
Local Open Scope Z_scope.

Lemma at_label_bumped : forall label l cs, 0 <= label < Z.of_nat (length cs) -> 0 <= l -> at_label l (bumped label cs) = at_label l cs + (if l =? label then 1 else 0).
Proof.
  intros label l cs H Hl. unfold bumped, at_label. set (k := nth (Z.to_nat label) cs 0 + 1). destruct (Z.eqb_spec l label) as [-> |N].
  - erewrite nth_error_nth; [|apply nth_error_upd_same; lia]. reflexivity.
  - rewrite Z.add_0_r. destruct (Nat.lt_ge_cases (Z.to_nat l) (length cs)) as [X|X].
    + erewrite nth_error_nth; [reflexivity|]. rewrite nth_error_upd_other by lia. now apply nth_error_nth'.
    + rewrite !nth_overflow; auto. now rewrite upd_length.
Qed.
Lemma at_label_zeros : forall l n, at_label l (repeat 0 n) = 0.
Proof. intros. unfold at_label. destruct (nth_in_or_default (Z.to_nat l) (repeat 0 n) 0) as [X|X]; [now apply repeat_spec in X|exact X]. Qed.
Lemma zsum_cat : forall a b, zsum (a ++ b) = zsum a + zsum b.
Proof. induction a as [|x a IH]; intros b; cbn; [reflexivity|]. unfold zsum in *. rewrite IH. lia. Qed.

Section Reach.
  Variable O : ops.
  Variable exp_ log_ : num O -> num O.
  Variable rnd : nat -> num O.
  Variable c : config O.
  Variable l0 : Z.
  Hypothesis L : tlaws O.
  Hypothesis Hs : csizes O c l0.
  Local Notation coarse := (coarse O).
  Local Notation fr := (fr O).
  Local Notation avail := (avail O).
  Local Notation fc := (c_features O c).
  Local Notation lc := (c_labels O c).
  Local Notation kind := (c_extend O c).
  Local Notation ctree := (ctree O).
  Local Notation cleaves := (cleaves O).
  Local Notation height := (height O).
  Local Notation tally := (tally O).
  Local Notation top_counters := (top_counters O).
  Local Notation stored := (stored O fc lc).
  Local Notation creached := (creached O exp_ log_ rnd c l0).
  Local Notation inv := (inv O c).
  Local Notation trained := (trained O c).
  Local Notation broom := (broom O c).
  Local Notation trim_safe := (trim_safe O rnd c).
  Hypothesis Hkind : kind <> EXTEND_BARYCENTER.
  Hypothesis Hsafe : trim_safe.

  Definition oalike (o o' : option ctree) : Prop := match o, o' with Some t, Some t' => alike O t t' | None, None => True | _, _ => False end.
  Lemma reach_inv : forall P : list (point O) -> coarse -> option ctree -> Prop,
    P [] (forest_init O c true l0) None ->
    (forall h s s1 s' x label o o1 o', creached s h -> 0 <= label < lc ->
       (forall t, o = Some t -> stored (fr s) (-1) t) -> (forall t, o1 = Some t -> stored (fr s1) (-1) t) ->
       (o1 = o /\ avail s1 = avail s) \/ (c_trim O c <> TRIM_NONE /\ avail s <= 1 /\ trimmed O o o1) ->
       trained x label s1 s' o1 o' -> fewer O s1 s' -> P h s o -> P ((x, label) :: h) s' o') ->
    (forall h s s' o o', avail s' = avail s -> (oalike o o' /\ c_optimize O c = false /\ kind <> EXTEND_GHOST) \/ o' = o -> P h s o -> P h s' o') ->
    forall s h, creached s h -> exists ts, inv s ts /\ Forall (P h s) ts.
  Proof.
    intros P Hn Ht Hp s h H. destruct Hs as [S1 [S2 [S3 [S4 [S5 S6]]]]]. apply (tl_used O L) in S6. induction H as [|s h x label s' b R IH Hx Hl T|s h x sc k s' b sc' R IH Hx T].
    - exists (repeat None (Z.to_nat (c_trees O c))). split; [apply inv_init; auto; lia|]. apply Forall_forall. intros o Ho. apply repeat_spec in Ho. now subst.
    - destruct IH as [ts [V F]]. pose proof V as [_ [V2 _]]. destruct (train_ok O exp_ log_ rnd c L S6 s ts x label s' b Hkind Hsafe Hx V T) as [s1 [ts1 [ts' [Tr [V1 [F1 [W V']]]]]]].
      exists ts'. split; [exact V'|]. apply Forall_forall. intros o' Ho'. apply In_nth_error in Ho'. destruct Ho' as [i Hi]. destruct (Forall2_nth _ _ _ _ _ F1 i o' Hi) as [o1 [Ho1 Tr1]].
      pose proof V1 as [_ [V12 _]].
      assert (X : exists o, nth_error ts i = Some o /\ ((o1 = o /\ avail s1 = avail s) \/ (c_trim O c <> TRIM_NONE /\ avail s <= 1 /\ trimmed O o o1))).
      { destruct Tr as [[-> Ea]|[Nn [Ea F2]]]; [exists o1; auto|]. destruct (Forall2_nth _ _ _ _ _ F2 i o1 Ho1) as [o [Ho To]]. exists o. split; auto. }
      destruct X as [o [Ho X]]. apply (Ht h s s1 s' x label o o1 o'); auto.
      + intros t ->. apply (V2 i (Some t) Ho).
      + intros t ->. apply (V12 i (Some t) Ho1).
      + rewrite Forall_forall in F. apply F. now apply nth_error_In with i.
    - destruct IH as [ts [V F]]. destruct (predict_ok O exp_ c s ts x sc k s' b sc' V T) as [Ea [ts' [V' X]]]. exists ts'. split; [exact V'|].
      destruct (negb (c_optimize O c) && negb (kind =? EXTEND_GHOST)) eqn:B.
      + apply andb_prop in B. destruct B as [B1 B2]. apply negb_true_iff in B1, B2. apply Z.eqb_neq in B2. apply Forall_forall. intros o' Ho'. apply In_nth_error in Ho'. destruct Ho' as [i Hi]. destruct (Forall2_nth _ _ _ _ _ X i o' Hi) as [o [Ho Al]].
        apply (Hp h s s' o o' Ea); [left; auto|]. rewrite Forall_forall in F. apply F. now apply nth_error_In with i.
      + destruct X as [-> ->]. exact F.
  Qed.

  Lemma reached_ok : forall s h, creached s h -> exists ts, ctrees O c s ts /\ avail s = free_count O s.
  Proof.
    intros s h H. destruct (reach_inv (fun _ _ _ => True) I ltac:(auto) ltac:(auto) s h H) as [ts [V _]]. exists ts. split; [now apply inv_ctrees|].
    symmetry. destruct V as [_ [_ [C _]]]. destruct Hs as [_ [_ [_ [X _]]]]. apply (pool_free O c s _ ltac:(lia) C).
  Qed.

  (** ** Height *)
  Lemma grown_height : forall label x D b t t', cobble O c = true -> grown O kind lc label x broom D b t t' -> D + height t' <= Z.max (D + height t) (first_limit O c).
  Proof.
    intros label x D b t t' Cb G. induction G; cbn [Coarse_Spec.height] in *; try (pose proof (height_pos O l)); try (pose proof (height_pos O r)); try lia.
    - pose proof (H0 Cb). pose proof (height_pos O t). unfold fork_side, single. destruct left; cbn [Coarse_Spec.height]; lia.
    - pose proof (H0 Cb). pose proof (height_pos O t). pose proof (height_pos O t'). unfold fork_side, single. destruct left; cbn [Coarse_Spec.height]; lia.
    - unfold bump_top. destruct t; cbn [Coarse_Spec.height]; lia.
  Qed.
  Definition low (o : option ctree) : Prop := match o with Some t => height t <= Z.max 1 (first_limit O c) | None => True end.
  Lemma low_trimmed : forall o o', trimmed O o o' -> low o -> low o'.
  Proof. intros o o' [-> |[j [t [t' [-> [-> C]]]]]] H; [exact H|]. cbn in *. destruct (cut_facts O j t t' C) as [X _]. lia. Qed.
  Lemma low_alike : forall o o', oalike o o' -> low o -> low o'.
  Proof. intros [t|] [t'|] A H; cbn in *; try tauto. destruct (alike_facts O t t' A) as [_ [_ [_ ->]]]. exact H. Qed.
  Lemma low_trained : forall x label s s' o o', cobble O c = true -> trained x label s s' o o' -> low o -> low o'.
  Proof.
    intros x label s s' o o' Cb [o1 [T Ho]] H. assert (L1 : low o1). { inversion T; subst; cbn in *; auto; [lia|]. pose proof (grown_height _ _ _ _ _ _ Cb H1). lia. }
    destruct (c_optimize O c); [now apply low_alike with o1|now subst].
  Qed.
  Lemma reached_low : cobble O c = true -> forall s h, creached s h -> exists ts, inv s ts /\ Forall low ts.
  Proof.
    intros Cb. apply reach_inv; [exact I| |].
    - intros h s s1 s' x label o o1 o' _ _ _ _ [[-> _]|[_ [_ T]]] Tr _ Lo; eapply low_trained; eauto. eapply low_trimmed; eauto.
    - intros h s s' o o' _ [[Al _]| ->]; [now apply low_alike|auto].
  Qed.

  (** ** Counters *)
  Lemma count_cons : forall l (x : list (num O)) label h, Mondrian_Spec.count O l ((x, label) :: h) = Mondrian_Spec.count O l h + (if l =? label then 1 else 0).
  Proof. intros. unfold Mondrian_Spec.count, with_label. cbn [filter snd]. rewrite Z.eqb_sym. destruct (l =? label); cbn [length]; lia. Qed.
  Definition lonely (label : Z) (cs : list Z) : Prop := cs = bumped label (repeat 0 (Z.to_nat lc)).
  Lemma at_label_single : forall l label, 0 <= label < lc -> 0 <= l -> at_label l (bumped label (repeat 0 (Z.to_nat lc))) = if l =? label then 1 else 0.
  Proof. intros l label Hl H0. rewrite at_label_bumped; [|rewrite repeat_length; lia|lia]. now rewrite at_label_zeros. Qed.
  Lemma stored_wide : forall t f p, stored f p t -> length (top_counters t) = Z.to_nat lc.
  Proof. intros t f p H. destruct t; cbn [Coarse_Spec.stored] in H; destruct H as [n [_ [_ [H1 [H2 _]]]]]; congruence. Qed.
  Lemma tally_fork : forall l i d v cs a b, tally l (CFork i d v cs a b) = tally l a + tally l b.
  Proof. intros. unfold Coarse_Spec.tally. cbn [Coarse_Spec.cleaves]. now rewrite map_app, zsum_cat. Qed.
  Lemma tally_leaf : forall l i cs, tally l (CLeaf i cs) = at_label l cs.
  Proof. intros. unfold Coarse_Spec.tally. cbn [Coarse_Spec.cleaves map zsum fold_right snd]. lia. Qed.
  (** The splits of [t] compare with the features of the point. *)
  Fixpoint settled (x : list (num O)) (t : ctree) : Prop :=
    match t with
    | CLeaf _ _ => True
    | CFork _ d v _ l r => (forall xd, rd x d = Ok xd -> nle O xd v = false -> nlt O v xd = true) /\ settled x l /\ settled x r
    end.
  Lemma grown_tally : kind = EXTEND_ORIGINAL -> forall label x room D b t t', 0 <= label < lc -> grown O kind lc label x room D b t t' ->
    forall f p, stored f p t -> settled x t -> forall l, 0 <= l -> tally l t' = tally l t + (if l =? label then 1 else 0).
  Proof.
    intros Ek label x room D b t t' Hl G. induction G; intros f p St Se l0' Hl0.
    - now apply (IHG f p).
    - rewrite !tally_leaf. apply at_label_bumped; auto. apply stored_wide in St. cbn in St. lia.
    - rewrite !tally_fork. destruct St as [n [_ [_ [_ [_ [_ [_ [_ [_ [_ [_ [Sl _]]]]]]]]]]]]. destruct Se as [_ [Se _]]. rewrite (IHG f i Sl Se l0' Hl0). lia.
    - rewrite !tally_fork. destruct St as [n [_ [_ [_ [_ [_ [_ [_ [_ [_ [_ [_ Sr]]]]]]]]]]]]. destruct Se as [_ [_ Se]]. rewrite (IHG f i Sr Se l0' Hl0). lia.
    - exfalso. destruct Se as [Se _]. specialize (Se xd H H0). congruence.
    - unfold fork_side, single. destruct left; rewrite tally_fork, tally_leaf, at_label_single by auto; lia.
    - rewrite Ek in H. discriminate.
    - rewrite Ek in H. discriminate.
    - congruence.
  Qed.
  Lemma reached_tally : kind = EXTEND_ORIGINAL -> c_trim O c = TRIM_NONE ->
    forall ok : list (num O) -> Prop, (forall s h t x, creached s h -> Forall (fun p => ok (fst p)) h -> ok x -> stored (fr s) (-1) t -> settled x t) ->
    forall s h, creached s h -> Forall (fun p => ok (fst p)) h -> exists ts, inv s ts /\
      Forall (fun o => match o with Some t => forall l, 0 <= l -> tally l t = Mondrian_Spec.count O l h | None => h = [] \/ avail s = 0 end) ts.
  Proof.
    intros Ek Et ok Se s h H Hok.
    destruct (reach_inv (fun h s o => Forall (fun p => ok (fst p)) h -> match o with Some t => forall l, 0 <= l -> tally l t = Mondrian_Spec.count O l h | None => h = [] \/ avail s = 0 end)) with (s := s) (h := h) as [ts [V F]]; auto.
    - clear s h H Hok. intros h s s1 s' x label o o1 o' R Hl So So1 [[-> Ea]|[X _]] [o2 [T Ho]] W P Hok; [|contradiction]. inversion Hok as [|q qs Okx Okh]; subst. cbn [fst] in Okx. specialize (P Okh).
      assert (Q : match o2 with Some t => forall l, 0 <= l -> tally l t = Mondrian_Spec.count O l ((x, label) :: h) | None => avail s' = 0 end).
      { inversion T; subst.
        - assumption.
        - intros l Hl0. rewrite count_cons. unfold single. rewrite tally_leaf, at_label_single by auto. destruct P as [-> |P]; [cbn; lia|congruence].
        - intros l Hl0. rewrite count_cons. rewrite (grown_tally Ek _ _ _ _ _ _ _ Hl H0 (fr s) (-1) (So t eq_refl)); [now rewrite P|eapply Se; eauto|exact Hl0].
        - exfalso. unfold extending in H. rewrite Ek in H. discriminate. }
      destruct (c_optimize O c).
      + destruct o2 as [t2|], o' as [t'|]; try contradiction; [|now right]. intros l Hl0. rewrite <- Q by exact Hl0. unfold Coarse_Spec.tally. now destruct (alike_facts O _ _ Ho) as [_ [_ [-> _]]].
      + subst o'. destruct o2; [exact Q|now right].
    - clear s h H Hok. intros h s s' o o' Ea [[Al _]| ->] P Hok; specialize (P Hok).
      + destruct o as [t|], o' as [t'|]; try contradiction; [|now rewrite Ea]. intros l Hl0. rewrite <- P by exact Hl0. unfold Coarse_Spec.tally. now destruct (alike_facts O _ _ Al) as [_ [_ [-> _]]].
      + destruct o; [exact P|now rewrite Ea].
    - exists ts. split; [exact V|]. eapply Forall_impl; [|exact F]. intros o X. apply X. exact Hok.
  Qed.

  (** In ghost mode the root counts all points. *)
  Lemma grown_ghost : kind = EXTEND_GHOST -> forall label x room D b t t', grown O kind lc label x room D b t t' -> top_counters t' = bumped label (top_counters t).
  Proof.
    intros Ek label x room D b t t' G. induction G; cbn [Coarse_Spec.top_counters]; unfold passed, inherited; rewrite ?Ek; try reflexivity; auto.
    - unfold fork_side. destruct left; reflexivity.
    - rewrite Ek in H. discriminate.
    - now destruct t.
    - contradiction.
  Qed.
  Lemma reached_ghost : kind = EXTEND_GHOST -> c_trim O c = TRIM_NONE -> c_optimize O c = false ->
    forall s h, creached s h -> exists ts, inv s ts /\
      Forall (fun o => match o with Some t => forall l, 0 <= l -> at_label l (top_counters t) = Mondrian_Spec.count O l h | None => h = [] \/ avail s = 0 end) ts.
  Proof.
    intros Ek Et Eo. apply (reach_inv (fun h s o => match o with Some t => forall l, 0 <= l -> at_label l (top_counters t) = Mondrian_Spec.count O l h | None => h = [] \/ avail s = 0 end)); auto.
    - intros h s s1 s' x label o o1 o' R Hl So So1 [[-> Ea]|[X _]] [o2 [T Ho]] W P; [|contradiction]. rewrite Eo in Ho. subst o'. inversion T; subst.
      + now right.
      + intros l Hl0. rewrite count_cons. unfold single. cbn [Coarse_Spec.top_counters]. rewrite at_label_single by auto. destruct P as [-> |P]; [cbn; lia|congruence].
      + intros l Hl0. rewrite count_cons, (grown_ghost Ek _ _ _ _ _ _ _ H0), at_label_bumped; [now rewrite P| |exact Hl0]. rewrite (stored_wide _ _ _ (So t eq_refl)). lia.
      + exfalso. unfold extending in H. rewrite Ek in H. discriminate.
    - intros h s s' o o' Ea [[_ [_ X]]| ->] P; [contradiction|]. destruct o; [exact P|now rewrite Ea].
  Qed.

  (** ** All trees are created by the first point *)
  Lemma inv_none : forall s ts i o, inv s ts -> nth_error ts i = Some o -> (o = None <-> rd (roots O (fr s)) (Z.of_nat i) = Ok (-1)).
  Proof.
    intros s ts i o V Hi. pose proof V as [_ [V2 [[_ [_ [P3 _]]] _]]]. destruct (V2 i o Hi) as [Hr _]. rewrite Hr. split; [intros ->; reflexivity|]. destruct o as [t|]; [|auto]. cbn [rid]. intros X. injection X as X.
    pose proof (all_cids_in O ts i (Some t) (ctop O t) Hi (ctop_in O t)) as Y. apply P3 in Y. lia.
  Qed.
  Lemma one_each : forall ts : list (option ctree), Forall (fun o => (length (oids O o) <= 1)%nat) ts -> In None ts -> (S (length (all_cids O ts)) <= length ts)%nat.
  Proof.
    intros ts F H. assert (G : forall ts : list (option ctree), Forall (fun o => (length (oids O o) <= 1)%nat) ts -> (length (all_cids O ts) <= length ts)%nat).
    { clear. induction ts as [|o ts IH]; intros F; [reflexivity|]. inversion F; subst. rewrite all_cids_cons, app_length. cbn [length]. specialize (IH H2). lia. }
    induction ts as [|o ts IH]; [contradiction|]. inversion F; subst. rewrite all_cids_cons, app_length. cbn [length]. destruct H as [-> |H]; [specialize (G ts H3); cbn [oids length]; lia|]. specialize (IH H3 H). lia.
  Qed.
  Lemma trimmed_some : forall o o', trimmed O o o' -> (o = None <-> o' = None).
  Proof. intros o o' [-> |[j [t [t' [-> [-> _]]]]]]; [tauto|]. split; discriminate. Qed.
  Lemma created : c_trees O c <= c_nodes O c -> forall s h, creached s h -> exists ts, inv s ts /\ (h = [] -> Forall (fun o => o = None) ts) /\ (h <> [] -> ~ In None ts).
  Proof.
    intros Htn s h H. destruct Hs as [S1 [S2 [S3 [S4 [S5 S6]]]]]. apply (tl_used O L) in S6. induction H as [|s h x label s' b R IH Hx Hl T|s h x sc k s' b sc' R IH Hx T].
    - exists (repeat None (Z.to_nat (c_trees O c))). split; [apply inv_init; auto; lia|]. split; [|congruence]. intros _. apply Forall_forall. intros o Ho. now apply repeat_spec in Ho.
    - destruct IH as [ts [V [F1 F2]]]. destruct (train_ok O exp_ log_ rnd c L S6 s ts x label s' b Hkind Hsafe Hx V T) as [s1 [ts1 [ts' [Tr [V1 [G1 [W V']]]]]]].
      assert (K : Forall2 (fun o o1 => o = None <-> o1 = None) ts ts1).
      { destruct Tr as [[-> _]|[_ [_ F]]]; [|clear -F; induction F; constructor; auto; now apply trimmed_some]. clear. induction ts; constructor; auto. tauto. }
      exists ts'. split; [exact V'|]. split; [discriminate|]. intros _ Hn. apply In_nth_error in Hn. destruct Hn as [i Hi]. destruct (Forall2_nth _ _ _ _ _ G1 i None Hi) as [o1 [Ho1 [o2 [T2 Ho2]]]]. destruct (Forall2_nth _ _ _ _ _ K i o1 Ho1) as [o [Ho K1]].
      assert (o2 = None) by (destruct (c_optimize O c); [destruct o2; [contradiction|reflexivity]|congruence]). subst o2. inversion T2; subst. destruct K1 as [_ K1]. specialize (K1 eq_refl). subst o.
      destruct h as [|p h]; [|elim F2; [discriminate|now apply nth_error_In with i]]. specialize (F1 eq_refl).
      assert (Sz : Forall (fun o => (length (oids O o) <= 1)%nat) ts').
      { apply Forall_forall. intros o' Ho'. apply In_nth_error in Ho'. destruct Ho' as [j Hj]. destruct (Forall2_nth _ _ _ _ _ G1 j o' Hj) as [q1 [Hq1 [q2 [Tq Hq2]]]]. destruct (Forall2_nth _ _ _ _ _ K j q1 Hq1) as [q [Hq [K2 _]]].
        rewrite Forall_forall in F1. rewrite (F1 q (nth_error_In _ _ Hq)) in K2. specialize (K2 eq_refl). subst q1. destruct (c_optimize O c); inversion Tq; subst; cbn; auto; destruct o' as [t'|]; cbn; auto; try contradiction.
        destruct (alike_facts O _ _ Hq2) as [_ [-> _]]. cbn. auto. }
      pose proof (one_each ts' Sz (nth_error_In _ _ Hi)) as Len. destruct V' as [Lt [_ [Cp _]]]. pose proof Cp as Av. apply cpool_avail in Av; [|exact x]. destruct Av as [_ Av]. lia.
    - destruct IH as [ts [V [F1 F2]]]. destruct (predict_ok O exp_ c s ts x sc k s' b sc' V T) as [Ea [ts' [V' X]]]. exists ts'. split; [exact V'|]. destruct (_ && _) in X; [|destruct X as [-> _]; auto].
      split; intros Hh; [specialize (F1 Hh)|specialize (F2 Hh)].
      + clear -X F1. induction X as [|o o' l l' A F IH]; constructor; inversion F1; subst; auto. now destruct o'.
      + intros Y. apply F2. apply In_nth_error in Y. destruct Y as [i Hi]. destruct (Forall2_nth _ _ _ _ _ X i None Hi) as [o [Ho Al]]. destruct o; [contradiction|]. now apply nth_error_In with i.
  Qed.
  Lemma some_tree : c_trees O c <= c_nodes O c -> forall s h ts, creached s h -> h <> [] -> inv s ts -> ~ In None ts.
  Proof.
    intros Htn s h ts R Hh V Hn. destruct (created Htn s h R) as [ts' [V' [_ F]]]. apply (F Hh). apply In_nth_error in Hn. destruct Hn as [i Hi]. pose proof (proj1 (inv_none s ts i None V Hi) eq_refl) as Hr.
    pose proof V as [Lt _]. pose proof V' as [Lt' _]. assert (Li : (i < length ts)%nat) by (apply nth_error_Some; congruence). destruct (nth_error ts' i) as [o|] eqn:Ho; [|apply nth_error_None in Ho; lia].
    apply (inv_none s ts' i o V' Ho) in Hr. subst o. now apply nth_error_In with i.
  Qed.

  (** ** Without extension nothing changes *)
  Definition is_single (o : option ctree) : Prop := match o with Some (CLeaf _ _) | None => True | Some _ => False end.
  Lemma single_alike : forall o o', oalike o o' -> is_single o -> is_single o'.
  Proof. intros [t|] [t'|] A H; cbn in *; try tauto. inversion A; subst; [exact I|exact H]. Qed.
  Lemma reached_single : kind = EXTEND_NONE -> c_trim O c = TRIM_NONE -> forall s h, creached s h -> exists ts, inv s ts /\ Forall is_single ts.
  Proof.
    intros Ek Et. apply (reach_inv (fun _ _ => is_single)); [exact I| |].
    - intros h s s1 s' x label o o1 o' _ _ _ _ [[-> _]|[X _]] [o2 [T Ho]] _ P; [|contradiction].
      assert (Q : is_single o2) by (inversion T; subst; cbn; auto; unfold extending in *; rewrite Ek in *; discriminate).
      destruct (c_optimize O c); [now apply single_alike with o2|now subst].
    - intros h s s' o o' _ [[Al _]| ->]; [now apply single_alike|auto].
  Qed.
  Lemma none_step : kind = EXTEND_NONE -> c_trim O c = TRIM_NONE -> forall s ts x label s' b, inv s ts -> Forall is_single ts -> ~ In None ts -> train O log_ rnd c s x label = Ok (s', b) -> fr s' = fr s.
  Proof.
    intros Ek Et s ts x label s' b V F Nn H. unfold train in H. rewrite Et in H. change (TRIM_NONE =? TRIM_FADING) with false in H. change (negb (TRIM_NONE =? TRIM_NONE)) with false in H. inv_bind H. destruct v as [sums u]. cbn [andb bind] in H. inv_bind H. destruct v as [s1 b1].
    inv_bind H. injection H as <- _. assert (T1 : fr s1 = fr s).
    { change s1 with (fst (s1, b1)). refine (forZ_inv_post _ (fun i (q : coarse * bool) => fr (fst q) = fr s) _ _ 0 _ _ _ _ E0); [reflexivity|].
      intros i [q bq] q' Hi Eq H. inv_bind H. destruct v0 as [q1 b2]. inv_bind H. injection H as <-. cbn [fst] in *. rewrite <- Eq. clear E1 E0 E.
      pose proof V as [V1 [V2 [[_ [_ [P3 _]]] _]]]. destruct (nth_error ts (Z.to_nat i)) as [o|] eqn:Ho; [|apply nth_error_None in Ho; lia]. destruct (V2 _ _ Ho) as [Hr Hst]. rewrite Z2Nat.id in Hr by lia.
      rewrite Forall_forall in F. pose proof (F o (nth_error_In _ _ Ho)) as Sg. destruct o as [[j cs|]|]; try contradiction; [|elim Nn; now apply nth_error_In with (Z.to_nat i)]. cbn [rid Coarse_Spec.ctop] in *.
      pose proof (P3 j (all_cids_in O ts _ _ j Ho (or_introl eq_refl))) as Bj.
      assert (Q1 : q1 = q).
      { unfold train_tree in E2. rewrite Eq, Hr in E2. cbn [bind] in E2. rewrite (proj2 (Z.eqb_neq j (-1))) in E2 by lia. inv_bind E2. rewrite Ek in E2. cbn in E2. destruct (_ <=? 2) in E2; now injection E2 as <- _. }
      subst q1. destruct (c_optimize O c); [|now injection E3 as <-]. destruct Hst as [n [N1 [N2 [N3 [N4 [N5 [N6 _]]]]]]]. cbn [Coarse_Spec.ctop] in N1.
      unfold update_branch, get_leaf in E3. rewrite Eq, Hr in E3. cbn [bind] in E3. rewrite (proj2 (Z.ltb_ge j 0)) in E3 by lia. unfold fuel in E3. cbn [follow] in E3.
      unfold Coarse_Model.get in E3. rewrite ?Eq, N1 in E3. cbn [bind] in E3. unfold is_leaf in E3. rewrite N6, Z.eqb_refl in E3. cbn [bind] in E3. rewrite ?Eq, N1 in E3. cbn [bind recount_up] in E3. rewrite N2 in E3. change (0 <? -1) with false in E3. now injection E3 as <-. }
    destruct (_ <=? 1) in E1; [inv_bind E1; injection E1 as <-; exact T1|injection E1 as <-; exact T1].
  Qed.
  Lemma predict_fr : forall s s' x sc k, fr s' = fr s -> (do (r, _) <- predict O exp_ c s' x sc k; Ok (snd r)) = (do (r, _) <- predict O exp_ c s x sc k; Ok (snd r)).
  Proof.
    assert (Hf : forall steps s s' i x d dl sep m sm, fr s' = fr s -> predict_from O exp_ c steps s' i x d dl sep m sm = predict_from O exp_ c steps s i x d dl sep m sm).
    { induction steps as [|steps IH]; intros s s' i x d dl sep m sm E; [reflexivity|]. cbn [predict_from]. unfold Coarse_Model.get. rewrite E. destruct (_ && _); [|reflexivity].
      destruct (rd _ _) as [n| | |]; cbn [bind]; try reflexivity. destruct (compute_eta _ _ _ _); cbn [bind]; try reflexivity. destruct (smooth _ _ _ _ _ _ _ _ _ _ _); cbn [bind]; try reflexivity. destruct (compute_posterior_mean _ _ _ _ _ _ _); cbn [bind]; try reflexivity.
      destruct (_ || _); [reflexivity|]. destruct (rd _ _); cbn [bind]; try reflexivity. destruct (split_value O n); cbn [bind]; auto. }
    assert (Hp : forall q q' x i d, fr q' = fr q -> predict_tree O exp_ c q' x i d = predict_tree O exp_ c q x i d).
    { intros q q' x i d E. unfold predict_tree. rewrite E. destruct (rd _ _) as [r| | |]; cbn [bind]; try reflexivity. destruct (r =? -1); [reflexivity|now apply Hf]. }
    intros s s' x sc k E. unfold predict. assert (X : forall q q', fr q' = fr q -> forall u, forest_means O exp_ c q' x u = forest_means O exp_ c q x u).
    { intros q q' Eq u. unfold forest_means. f_equal. generalize (repeat (nofZ O 0) (Z.to_nat lc)). generalize 0 at 1 3. induction (Z.to_nat u) as [|m IH]; intros z a; [reflexivity|]. cbn [forZ]. rewrite (Hp q q' x z (-1) Eq).
      destruct (predict_tree O exp_ c q x z (-1)) as [p| | |]; cbn [bind]; try reflexivity. match goal with |- bind ?m _ = bind ?m _ => destruct m end; cbn [bind]; auto. }
    destruct (_ && _).
    - unfold update_all. rewrite E. destruct (forZ _ _ _ (fr s)); cbn [bind]; try reflexivity. rewrite X with (q := with_fr O s a) by reflexivity. destruct (forest_means _ _ _ _ _ _); cbn [bind]; try reflexivity. destruct (index_max _ _ _); reflexivity.
    - cbn [bind]. rewrite X with (q := s) by exact E. destruct (forest_means _ _ _ _ _ _); cbn [bind]; try reflexivity. destruct (index_max _ _ _); reflexivity.
  Qed.

  (** ** The number of points of a tree *)
  Definition all_counts (t : ctree) : list Z := concat (map snd (cleaves t)).
  Lemma zsum_bumped : forall label cs, 0 <= label < Z.of_nat (length cs) -> zsum (bumped label cs) = zsum cs + 1.
  Proof.
    intros label cs H. unfold bumped, at_label. assert (Hn : (Z.to_nat label < length cs)%nat) by lia. clear H. revert Hn. generalize (Z.to_nat label). induction cs as [|a cs IH]; intros n Hn; [cbn in Hn; lia|].
    destruct n as [|n]; cbn [upd nth zsum fold_right]; [lia|]. cbn in Hn. change (a + zsum (upd cs n (nth n cs 0 + 1)) = a + zsum cs + 1). rewrite IH by lia. lia.
  Qed.
  Lemma zsum_zeros : forall n, zsum (repeat 0 n) = 0.
  Proof. induction n; [reflexivity|]. exact IHn. Qed.
  Lemma bumped_nonneg : forall label cs, Forall (fun k => 0 <= k) cs -> Forall (fun k => 0 <= k) (bumped label cs).
  Proof.
    intros label cs H. unfold bumped, at_label. assert (K : 0 <= nth (Z.to_nat label) cs 0 + 1). { destruct (nth_in_or_default (Z.to_nat label) cs 0) as [X|X]; [rewrite Forall_forall in H; apply H in X; lia|lia]. }
    revert K. generalize (nth (Z.to_nat label) cs 0 + 1). generalize (Z.to_nat label). induction H as [|a cs Ha H IH]; intros n k K; destruct n; cbn [upd]; constructor; auto.
  Qed.
  Lemma counts_fork : forall i d v cs a b, all_counts (CFork i d v cs a b) = all_counts a ++ all_counts b.
  Proof. intros. unfold all_counts. cbn [Coarse_Spec.cleaves]. now rewrite map_app, concat_app. Qed.
  Lemma counts_leaf : forall i cs, all_counts (CLeaf i cs) = cs.
  Proof. intros. unfold all_counts. cbn [Coarse_Spec.cleaves map snd concat]. apply app_nil_r. Qed.
  Definition tallied (n : Z) (t : ctree) : Prop := Forall (fun k => 0 <= k) (all_counts t) /\ zsum (all_counts t) = n.
  Lemma grown_total : kind = EXTEND_ORIGINAL -> forall label x room D b t t', 0 <= label < lc -> grown O kind lc label x room D b t t' ->
    forall f p, stored f p t -> settled x t -> Forall (fun k => 0 <= k) (all_counts t) -> Forall (fun k => 0 <= k) (all_counts t') /\ zsum (all_counts t') = zsum (all_counts t) + 1.
  Proof.
    intros Ek label x room D b t t' Hl G. induction G; intros f p St Se Ps.
    - now apply (IHG f p).
    - rewrite !counts_leaf in *. split; [now apply bumped_nonneg|]. apply zsum_bumped. apply stored_wide in St. cbn in St. lia.
    - rewrite !counts_fork in *. apply Forall_app in Ps. destruct Ps as [P1 P2]. destruct St as [n [_ [_ [_ [_ [_ [_ [_ [_ [_ [_ [Sl _]]]]]]]]]]]]. destruct Se as [_ [Se _]]. destruct (IHG f i Sl Se P1) as [Q1 Q2]. rewrite !zsum_cat. split; [now apply Forall_app|lia].
    - rewrite !counts_fork in *. apply Forall_app in Ps. destruct Ps as [P1 P2]. destruct St as [n [_ [_ [_ [_ [_ [_ [_ [_ [_ [_ [_ Sr]]]]]]]]]]]]. destruct Se as [_ [_ Se]]. destruct (IHG f i Sr Se P2) as [Q1 Q2]. rewrite !zsum_cat. split; [now apply Forall_app|lia].
    - exfalso. destruct Se as [Se _]. specialize (Se xd H H0). congruence.
    - assert (B : Forall (fun k => 0 <= k) (bumped label (repeat 0 (Z.to_nat lc)))) by (apply bumped_nonneg; apply Forall_forall; intros q Hq; apply repeat_spec in Hq; lia).
      assert (Z1 : zsum (bumped label (repeat 0 (Z.to_nat lc))) = 1) by (rewrite zsum_bumped by (rewrite repeat_length; lia); now rewrite zsum_zeros).
      unfold fork_side, single. destruct left; rewrite counts_fork, counts_leaf, zsum_cat; (split; [now apply Forall_app|lia]).
    - rewrite Ek in H. discriminate.
    - rewrite Ek in H. discriminate.
    - congruence.
  Qed.
  Lemma reached_total : kind = EXTEND_ORIGINAL -> c_trim O c = TRIM_NONE ->
    forall ok : list (num O) -> Prop, (forall s h t x, creached s h -> Forall (fun p => ok (fst p)) h -> ok x -> stored (fr s) (-1) t -> settled x t) ->
    forall s h, creached s h -> Forall (fun p => ok (fst p)) h -> exists ts, inv s ts /\
      Forall (fun o => match o with Some t => tallied (Z.of_nat (length h)) t | None => h = [] \/ avail s = 0 end) ts.
  Proof.
    intros Ek Et ok Se s h H Hok.
    destruct (reach_inv (fun h s o => Forall (fun p => ok (fst p)) h -> match o with Some t => tallied (Z.of_nat (length h)) t | None => h = [] \/ avail s = 0 end)) with (s := s) (h := h) as [ts [V F]]; auto.
    - clear s h H Hok. intros h s s1 s' x label o o1 o' R Hl So So1 [[-> Ea]|[X _]] [o2 [T Ho]] W P Hok; [|contradiction]. inversion Hok as [|q qs Okx Okh]; subst. cbn [fst] in Okx. specialize (P Okh).
      assert (Q : match o2 with Some t => tallied (Z.of_nat (length ((x, label) :: h))) t | None => avail s' = 0 end).
      { inversion T; subst.
        - assumption.
        - unfold tallied, single. rewrite counts_leaf. split; [apply bumped_nonneg; apply Forall_forall; intros q Hq; apply repeat_spec in Hq; lia|]. rewrite zsum_bumped by (rewrite repeat_length; destruct Hs as [? [? [? ?]]]; lia). rewrite zsum_zeros. destruct P as [-> |P]; [reflexivity|congruence].
        - destruct P as [P1 P2]. destruct (grown_total Ek _ _ _ _ _ _ _ Hl H0 (fr s) (-1) (So t eq_refl)) as [Q1 Q2]; [eapply Se; eauto|exact P1|]. split; [exact Q1|]. rewrite Q2, P2. cbn [length]. now rewrite Nat2Z.inj_succ.
        - exfalso. unfold extending in H. rewrite Ek in H. discriminate. }
      destruct (c_optimize O c).
      + destruct o2 as [t2|], o' as [t'|]; try contradiction; [|now right]. unfold tallied, all_counts in *. now destruct (alike_facts O _ _ Ho) as [_ [_ [-> _]]].
      + subst o'. destruct o2; [exact Q|now right].
    - clear s h H Hok. intros h s s' o o' Ea [[Al _]| ->] P Hok; specialize (P Hok).
      + destruct o as [t|], o' as [t'|]; try contradiction; [|now rewrite Ea]. unfold tallied, all_counts in *. now destruct (alike_facts O _ _ Al) as [_ [_ [-> _]]].
      + destruct o; [exact P|now rewrite Ea].
    - exists ts. split; [exact V|]. eapply Forall_impl; [|exact F]. intros o X. apply X. exact Hok.
  Qed.
  Lemma counter_loop : forall B, NumFacts.exactZ O B -> forall cs (a : Z), 0 <= a -> Forall (fun k => 0 <= k) cs -> a + zsum cs <= B -> forall pre,
    forZ (length cs) (Z.of_nat (length pre)) (fun i sum => do q <- rd (pre ++ cs) i; Ok (nadd O sum (nofZ O q))) (nofZ O a) = Ok (nofZ O (a + zsum cs)).
  Proof.
    intros B [EA _] cs. induction cs as [|k cs IH]; intros a Ha F Hb pre; [cbn; do 2 f_equal; lia|]. inversion F; subst. cbn [length forZ].
    assert (R : rd (pre ++ k :: cs) (Z.of_nat (length pre)) = Ok k) by (apply rd_ok_iff; rewrite Nat2Z.id; split; [lia|]; rewrite nth_error_app2, Nat.sub_diag by lia; reflexivity).
    assert (Zc : 0 <= zsum cs) by (clear -H2; induction H2; cbn; [lia|]; unfold zsum in *; lia).
    rewrite R. cbn [bind]. change (zsum (k :: cs)) with (k + zsum cs) in *. rewrite EA by lia. specialize (IH (a + k) ltac:(lia) H2 ltac:(lia) (pre ++ [k])). rewrite <- app_assoc in IH. cbn [app] in IH. rewrite app_length in IH. cbn [length] in IH.
    replace (Z.of_nat (length pre) + 1) with (Z.of_nat (length pre + 1)) by lia. rewrite IH. do 2 f_equal. lia.
  Qed.
  Lemma points_fold : forall B, NumFacts.exactZ O B -> forall t s p a s' a', stored (fr s) p t -> 0 <= a -> Forall (fun k => 0 <= k) (all_counts t) -> a + zsum (all_counts t) <= B ->
    vfold O _ (point_visit O c) (rleaves O t) s (nofZ O a) = Ok (s', a') -> s' = s /\ a' = nofZ O (a + zsum (all_counts t)).
  Proof.
    intros B EB t. induction t as [i cs|i d v cs l IHl r IHr]; intros s p a s' a' St Ha F Hb H.
    - rewrite counts_leaf in *. cbn [rleaves vfold] in H. inv_bind H. destruct v as [s1 a1]. injection H as <- <-. unfold point_visit in E. inv_bind E. inv_bind E. injection E as <- <-. split; [reflexivity|].
      destruct St as [n [N1 [_ [N2 [N3 _]]]]]. cbn [Coarse_Spec.ctop Coarse_Spec.top_counters] in *. assert (v = n) by (unfold Coarse_Model.get in E0; congruence). subst v. rewrite N2 in *.
      pose proof (counter_loop B EB cs a Ha F Hb []) as X. cbn [app length] in X. rewrite N3 in X. change (Z.of_nat 0) with 0 in X. congruence.
    - destruct St as [n [_ [_ [_ [_ [_ [_ [_ [_ [_ [_ [Sl Sr]]]]]]]]]]]]. rewrite counts_fork in *. apply Forall_app in F. destruct F as [F1 F2]. rewrite zsum_cat in *. cbn [rleaves] in H. rewrite vfold_app in H. inv_bind H. destruct v0 as [s1 a1].
      assert (Z1 : 0 <= zsum (all_counts l)) by (clear -F1; induction F1; cbn; [lia|]; unfold zsum in *; lia).
      assert (Z2 : 0 <= zsum (all_counts r)) by (clear -F2; induction F2; cbn; [lia|]; unfold zsum in *; lia).
      destruct (IHr s i a s1 a1 Sr Ha F2 ltac:(lia) E) as [-> ->]. destruct (IHl s i (a + zsum (all_counts r)) s' a' Sl ltac:(lia) F1 ltac:(lia) H) as [-> ->]. split; [reflexivity|]. f_equal. lia.
  Qed.
End Reach.
