(** * Proofs for the coarse Mondrian forest: counting again along a branch is defined *)
From Coq Require Import ZArith List Bool Lia Permutation.
From Verif Require Import CppBase CppFacts NumOps Utils_Model Mondrian_Model Mondrian_Spec Mondrian_Proofs Coarse_Model Coarse_Spec Coarse_Heap Coarse_Walk Coarse_Train Coarse_Trim Coarse_Forest Coarse_Reach Coarse_Tidy.
From Verif Require Unbound_Model.
From Verif Require Import Coarse_Total Coarse_Defined.
Import ListNotations.
Local Open Scope Z_scope.

Section Branch.
  Variable O : ops.
  Variable log_ : num O -> num O.
  Variable rnd : nat -> num O.
  Variable c : config O.
  Local Notation n_ := (nofZ O).
  Local Notation node := (node O).
  Local Notation coarse := (coarse O).
  Local Notation fr := (fr O).
  Local Notation nodes := (nodes O).
  Local Notation roots := (roots O).
  Local Notation get := (get O).
  Local Notation put := (put O).
  Local Notation avail := (avail O).
  Local Notation forced := (forced O).
  Local Notation counters := (counters O).
  Local Notation fc := (c_features O c).
  Local Notation lc := (c_labels O c).
  Local Notation nc := (c_nodes O c).
  Local Notation tc := (c_trees O c).
  Local Notation kind := (c_extend O c).
  Local Notation ctree := (ctree O).
  Local Notation ctop := (ctop O).
  Local Notation cids := (cids O).
  Local Notation height := (height O).
  Local Notation stored := (stored O fc lc).
  Local Notation shape := (shape O).
  Local Notation cap := (cap O c).

  (** ** Nothing but the barycenter extension counts forced extensions *)
  Lemma change_forced : forall s i g s', change O s i g = Ok s' -> forced s' = forced s.
  Proof. intros s i g s' H. apply change_inv in H. destruct H as [n [n' [_ [_ ->]]]]. reflexivity. Qed.
  Lemma available_forced : forall s i s', available_node O c s = Ok (i, s') -> forced s' = forced s.
  Proof. intros s i s' H. apply available_node_inv in H. destruct H as [[_ ->]|[n [_ [_ ->]]]]; reflexivity. Qed.
  Lemma leaf_forced : forall s i l s', add_leaf O s i l = Ok s' -> forced s' = forced s.
  Proof. intros s i l s' H. unfold add_leaf, add_label in H. inv_bind H. unfold add_fading in H. inv_bind H. inv_bind H. injection H as <-. cbn. now apply change_forced in E. Qed.
  Section Point.
    Variable x : list (num O).
    Variable label : Z.
    Lemma split_forced : forall s n i k probs sum time s', split_above O rnd c s n i k x probs sum time label = Ok s' -> forced s' = forced s.
    Proof.
      intros s n i k probs sum time s' H. unfold split_above in H. inv_bind H. destruct v as [f [d [up sp]]]. inv_bind H. destruct v as [a s1]. inv_bind H. inv_bind H. destruct v0 as [b s3]. inv_bind H. inv_bind H. injection H as <-. cbn [Coarse_Model.forced with_fr].
      apply available_forced in E0, E2. apply change_forced in E1. cbn in E0. transitivity (forced s3); [|congruence].
      unfold parent_counters in E3. destruct (_ =? EXTEND_ORIGINAL) in E3; [now apply change_forced in E3|]. destruct (_ =? EXTEND_GHOST) in E3; [|now injection E3 as <-]. inv_bind E3. apply change_forced in E3, E5. cbn in *. congruence.
    Qed.
    Lemma extend_forced : forall steps s i k s', extend_block O log_ rnd c steps s i k x label = Ok s' -> forced s' = forced s.
    Proof.
      induction steps as [|steps IH]; intros s i k s' H; [discriminate|]. rewrite extend_S in H.
      assert (Ds : forall s s', descend O log_ rnd c k x label steps s i = Ok s' -> forced s' = forced s).
      { clear s s' H. intros s s' H. unfold descend in H. inv_bind H. destruct (is_leaf O v); [now apply leaf_forced in H|]. inv_bind H. inv_bind H. inv_bind H.
        assert (W1 : forced v2 = forced s) by (destruct (nle O _ _) in E2; [now apply IH in E2|]; destruct (nlt O _ _) in E2; [now apply IH in E2|now injection E2 as <-]).
        destruct (_ =? _) in H; [apply change_forced in H; congruence|injection H as <-; exact W1]. }
      inv_bind H. inv_bind H. inv_bind H. destruct v1 as [probs sum].
      assert (SD : exists e s0, draw_time O log_ rnd s sum = (e, s0) /\ forced s0 = forced s).
      { unfold draw_time, Coarse_Model.uniform, Mondrian_Model.uniform. destruct (neq O sum (n_ 0)); eexists; eexists; (split; [reflexivity|]); repeat split. }
      destruct SD as [e [s0 [E2 N0]]]. rewrite E2 in H. inv_bind H. rewrite <- N0. clear s E E0 E1 E2 N0.
      destruct (_ && _ && _ && _) in H.
      - inv_bind H. apply split_forced in E. destruct (_ =? _) in H; [apply Ds in H; congruence|injection H as <-; exact E].
      - destruct (_ || _ || _) in H.
        + inv_bind H. apply change_forced in E. apply Ds in H. congruence.
        + destruct (_ =? EXTEND_GHOST) in H; [now apply leaf_forced in H|]. destruct (_ =? _) in H; [now apply Ds in H|now injection H as <-].
    Qed.
    Lemma tree_forced : forall s i s' b, kind <> EXTEND_BARYCENTER -> train_tree O log_ rnd c s x label i = Ok (s', b) -> forced s' = forced s.
    Proof.
      intros s i s' b Hk H. unfold train_tree in H. inv_bind H. destruct (v =? -1).
      - inv_bind H. destruct v0 as [a s1]. apply available_forced in E0. destruct (0 <=? a); [|injection H as <- <-; exact E0]. inv_bind H. unfold set_root in E1. inv_bind E1. injection E1 as <-. inv_bind H.
        apply change_forced in E1. inv_bind H. injection H as <- <-. cbn in *. congruence.
      - inv_bind H. destruct (_ || _ || _ || _) in H; [inv_bind H; injection H as <- <-; now apply extend_forced in E1|]. destruct (_ && _) in H; [injection H as <- <-; reflexivity|].
        rewrite (proj2 (Z.eqb_neq kind EXTEND_BARYCENTER)) in H by exact Hk. injection H as <- <-. reflexivity.
    Qed.
    Lemma recount_forced : forall steps s i s', recount_up O c steps s i label = Ok s' -> forced s' = forced s /\ last O s' = last O s.
    Proof.
      induction steps as [|steps IH]; intros s i s' H; cbn [recount_up] in H; [discriminate|]. destruct (_ && _); [|injection H as <-; auto].
      inv_bind H. inv_bind H. inv_bind H. inv_bind H. inv_bind H. inv_bind H. apply IH in H. apply change_inv in E4. destruct E4 as [n [n' [_ [_ ->]]]]. exact H.
    Qed.
    Lemma branch_forced : forall s k s', update_branch O c s k x label = Ok s' -> forced s' = forced s /\ last O s' = last O s.
    Proof. intros s k s' H. unfold update_branch in H. inv_bind H. inv_bind H. now apply recount_forced in H. Qed.
    Lemma branch_length : forall s k s', update_branch O c s k x label = Ok s' -> length (nodes (fr s')) = length (nodes (fr s)).
    Proof. intros s k s' H. apply update_branch_ok in H. destruct H as [[_ [X _]] _]. exact X. Qed.

    (** ** Down to a leaf *)
    Hypothesis Hx : Z.of_nat (length x) = fc.
    Hypothesis Hlab : 0 <= label < lc.
    Lemma follow_def : forall A (visit : Z -> A -> res A) (P : A -> Prop), forall t s p steps a, (forall i a, In i (cids t) -> P a -> exists a', visit i a = Ok a' /\ P a') -> P a -> stored (fr s) p t -> (Z.to_nat (height t) <= steps)%nat ->
      exists j a', follow O visit steps s (ctop t) x a = Ok (j, a') /\ P a' /\ In j (map fst (cleaves O t)).
    Proof.
      intros A visit P. induction t as [i cs|i d v cs l IHl r IHr]; intros s p steps a Hv Pa T St; pose proof T as [n [H1 [H2 [H3 [H4 [H5 H6]]]]]]; cbn [Coarse_Spec.ctop Coarse_Spec.height] in *;
        destruct (Hv i a) as [a1 [E1 P1]]; auto; try (left; reflexivity); (destruct steps as [|steps]; [exfalso; (pose proof (height_pos O l); pose proof (height_pos O r); lia) || (cbn in St; lia)|]); cbn [follow]; change (rd (nodes (fr s)) i) with (get s i) in H1; rewrite H1; cbn [bind]; rewrite E1; cbn [bind].
      - destruct H6 as [H6 _]. assert (Lf : is_leaf O n = true) by (unfold is_leaf; now rewrite H6). rewrite Lf. exists i, a1. split; [reflexivity|]. split; [exact P1|]. now left.
      - destruct H6 as [A1 [A2 [A3 [A4 [A5 [A6 A7]]]]]]. assert (Lf : is_leaf O n = false) by (unfold is_leaf; apply Z.eqb_neq; lia). rewrite Lf, A1. destruct (rd_in_bounds _ x d) as [xd Ex]; [lia|]. rewrite Ex, A3. cbn [bind]. rewrite A4, A5. pose proof (height_pos O l). pose proof (height_pos O r).
        cbn [Coarse_Spec.cleaves]. rewrite map_app.
        destruct (nlt O v xd).
        + destruct (IHr s i steps a1) as [j [a' [E [Pa' Ij]]]]; auto; [intros q a0 Hq; apply Hv; right; apply in_or_app; now right|lia|]. exists j, a'. split; [exact E|]. split; [exact Pa'|]. apply in_or_app. now right.
        + destruct (IHl s i steps a1) as [j [a' [E [Pa' Ij]]]]; auto; [intros q a0 Hq; apply Hv; right; apply in_or_app; now left|lia|]. exists j, a'. split; [exact E|]. split; [exact Pa'|]. apply in_or_app. now left.
    Qed.

    (** ** Up to the root *)
    Definition climbs (s : coarse) (K : nat) (q : Z) : Prop := forall s', recounted O (fr s) (fr s') -> exists r, recount_up O c K s' q label = Ok r.
    Lemma climb_step : forall s K i d v cs l r p, stored (fr s) p (CFork i d v cs l r) -> climbs s K p -> climbs s (Datatypes.S K) i.
    Proof.
      intros s K i d v cs l r p [n [H1 [H2 [H3 [H4 [H5 [A1 [A2 [A3 [A4 [A5 [A6 A7]]]]]]]]]]]] Cl s' Rc. cbn [recount_up]. destruct ((0 <? i) && (i <? nc)); [|eauto]. pose proof Rc as [_ [_ R]].
      destruct (R _ _ H1) as [cn [G1 [L1 _]]]. cbn [Coarse_Spec.ctop] in G1. change (rd (nodes (fr s')) i) with (get s' i) in G1. rewrite G1. cbn [bind child_left child_right set_counters]. rewrite A4, A5.
      assert (Kid : forall u, stored (fr s) i u -> exists m k, get s' (ctop u) = Ok m /\ rd (counters m) label = Ok k).
      { intros u Su. assert (X : exists m, rd (nodes (fr s)) (ctop u) = Ok m /\ length (counters m) = Z.to_nat lc) by (destruct u; destruct Su as [m [M1 [M2 [M3 [M4 _]]]]]; eauto).
        destruct X as [m [M1 M4]]. destruct (R _ _ M1) as [cm [G2 [L2 _]]]. exists (set_counters O m cm). cbn [Mondrian_Model.counters set_counters]. destruct (rd_in_bounds _ cm label) as [k Ek]; [lia|]. eauto. }
      destruct (Kid l A6) as [ml [cl [Gl Cl']]]. destruct (Kid r A7) as [mr [cr [Gr Cr']]]. rewrite Gl. cbn [bind]. rewrite Cl'. cbn [bind]. rewrite Gr. cbn [bind]. rewrite Cr'. cbn [bind].
      unfold change. erewrite with_node_ok; [|exact G1|cbn [Mondrian_Model.counters set_counters]; rewrite wr_ok by lia; cbn [bind]; reflexivity]. cbn [bind]. cbn [parent set_counters]. rewrite H2. apply Cl. cbn [Coarse_Model.fr with_fr].
      eapply recounted_trans; [exact Rc|]. apply (recount_one O (fr s') i (set_counters O n cn)); [exact G1|cbn; now rewrite upd_length|]. cbn. rewrite A4. intros E. destruct (Kid l A6) as [m9 [k9 [G9 _]]]. unfold Coarse_Model.get in G9. rewrite E, rd_oob in G9 by lia. discriminate.
    Qed.
    Lemma climb_leaf : forall t s p K, stored (fr s) p t -> climbs s K p -> forall j n, In j (map fst (cleaves O t)) -> NoDup (cids t) -> get s j = Ok n -> exists d, (d <= Z.to_nat (height t))%nat /\ climbs s (d + K) (parent O n).
    Proof.
      induction t as [i cs|i d v cs l IHl r IHr]; intros s p K T Cl j n Ij ND G.
      - destruct Ij as [<-|[]]. destruct T as [m [H1 [H2 _]]]. cbn in *. assert (m = n) by (unfold Coarse_Model.get in G; congruence). subst m. exists 0%nat. split; [lia|]. rewrite H2. exact Cl.
      - pose proof (climb_step _ _ _ _ _ _ _ _ _ T Cl) as C1. destruct T as [m [H1 [H2 [H3 [H4 [H5 [A1 [A2 [A3 [A4 [A5 [A6 A7]]]]]]]]]]]]. cbn [Coarse_Spec.cids] in ND. apply NoDup_cons_iff in ND. destruct ND as [_ ND]. apply nodup_app in ND. destruct ND as [Nl [Nr _]].
        cbn [Coarse_Spec.cleaves Coarse_Spec.height] in *. pose proof (height_pos O l). pose proof (height_pos O r). rewrite map_app in Ij. apply in_app_or in Ij. destruct Ij as [Ij|Ij].
        + destruct (IHl s i _ A6 C1 j n Ij Nl G) as [e [E1 E2]]. exists (Datatypes.S e). split; [lia|]. now replace (Datatypes.S e + K)%nat with (e + Datatypes.S K)%nat by lia.
        + destruct (IHr s i _ A7 C1 j n Ij Nr G) as [e [E1 E2]]. exists (Datatypes.S e). split; [lia|]. now replace (Datatypes.S e + K)%nat with (e + Datatypes.S K)%nat by lia.
    Qed.
    Lemma recount_more : forall K s q r e, recount_up O c K s q label = Ok r -> recount_up O c (K + e) s q label = Ok r.
    Proof.
      induction K as [|K IH]; intros s q r e H; [discriminate|]. cbn [plus recount_up] in *. destruct (_ && _); [|exact H].
      inv_bind H. rewrite ?E. cbn [bind]. inv_bind H. rewrite ?E0. cbn [bind]. inv_bind H. rewrite ?E1. cbn [bind]. inv_bind H. rewrite ?E2. cbn [bind]. inv_bind H. rewrite ?E3. cbn [bind]. inv_bind H. rewrite ?E4. cbn [bind]. now apply IH.
    Qed.
    Lemma leaf_node : forall t s p j, stored (fr s) p t -> In j (map fst (cleaves O t)) -> exists n, get s j = Ok n.
    Proof.
      induction t as [i cs|i d v cs l IHl r IHr]; intros s p j T Ij; destruct T as [m [H1 [H2 [H3 [H4 [H5 H6]]]]]]; [destruct Ij as [<-|[]]; eauto|].
      destruct H6 as [_ [_ [_ [_ [_ [A6 A7]]]]]]. cbn [Coarse_Spec.cleaves] in Ij. rewrite map_app in Ij. apply in_app_or in Ij. destruct Ij; eauto.
    Qed.
    Lemma branch_def : forall s t k, stored (fr s) (-1) t -> rd (roots (fr s)) k = Ok (ctop t) -> NoDup (cids t) -> 0 <= ctop t -> height t <= nc -> exists s', update_branch O c s k x label = Ok s'.
    Proof.
      intros s t k T Hr ND Pos Hh. unfold update_branch, get_leaf. rewrite Hr. cbn [bind]. rewrite (proj2 (Z.ltb_ge (ctop t) 0)) by lia.
      destruct (follow_def unit (fun _ k => Ok k) (fun _ => True) t s (-1) (fuel O c) tt) as [j [a [E [_ Ij]]]]; eauto; [unfold fuel; pose proof (height_pos O t); lia|]. rewrite E. cbn [bind].
      assert (G : exists n, get s j = Ok n) by (eapply leaf_node; eauto).
      destruct G as [n G]. rewrite G. cbn [bind].
      destruct (climb_leaf t s (-1) 1%nat T) with (j := j) (n := n) as [d [D1 D2]]; auto.
      { intros s' _. cbn [recount_up]. change (0 <? -1) with false. cbn [andb]. eauto. }
      destruct (D2 s (recounted_refl O _)) as [r R]. exists r. replace (fuel O c) with (d + 1 + (fuel O c - d - 1))%nat by (unfold fuel; lia). now apply recount_more.
    Qed.

    Lemma stored_unique : forall t t' f p, stored f p t -> stored f p t' -> ctop t = ctop t' -> t = t'.
    Proof.
      induction t as [i cs|i d v cs l IHl r IHr]; intros [i' cs'|i' d' v' cs' l' r'] f p [m [H1 [H2 [H3 [H4 [H5 H6]]]]]] [m' [H1' [H2' [H3' [H4' [H5' H6']]]]]] E; cbn [Coarse_Spec.ctop Coarse_Spec.top_counters] in *; subst i';
        assert (m' = m) by congruence; subst m'; [congruence|lia|lia|]. destruct H6 as [A1 [A2 [A3 [A4 [A5 [A6 A7]]]]]], H6' as [B1 [B2 [B3 [B4 [B5 [B6 B7]]]]]].
      assert (l = l') by (apply (IHl l' f i); auto; congruence). assert (r = r') by (apply (IHr r' f i); auto; congruence). congruence.
    Qed.

    (** ** The new counters are small *)
    Lemma childless : forall t f p j n, stored f p t -> In j (cids t) -> rd (nodes f) j = Ok n -> is_leaf O n = true -> NoDup (cids t) -> child_left O n = -1.
    Proof.
      induction t as [i cs|i d v cs l IHl r IHr]; intros f p j n T Ij G Lf ND; destruct T as [m [H1 [H2 [H3 [H4 [H5 H6]]]]]]; cbn [Coarse_Spec.ctop] in *.
      - destruct Ij as [<-|[]]. assert (m = n) by congruence. subst m. tauto.
      - destruct H6 as [A1 [A2 [A3 [A4 [A5 [A6 A7]]]]]]. cbn [Coarse_Spec.cids] in ND. apply NoDup_cons_iff in ND. destruct ND as [_ ND]. apply nodup_app in ND. destruct ND as [Nl [Nr _]].
        cbn [Coarse_Spec.cids] in Ij. destruct Ij as [<-|Ij]; [assert (m = n) by congruence; subst m; unfold is_leaf in Lf; apply Z.eqb_eq in Lf; lia|]. apply in_app_or in Ij. destruct Ij; eauto.
    Qed.
    Definition small (N : Z) (t : ctree) (s : coarse) : Prop := forall j n, In j (cids t) -> get s j = Ok n -> capped N (counters n).
    Lemma recount_small : forall N steps s q s' t t1, 2 <= N -> NoDup (cids t) -> alike O t t1 -> stored (fr s) (-1) t1 -> (q = -1 \/ In q (cids t)) -> small N t s -> recount_up O c steps s q label = Ok s' -> small N t s'.
    Proof.
      intros N. induction steps as [|steps IH]; intros s q s' t t1 HN ND Al St Hq Sm H; [discriminate|]. cbn [recount_up] in H. destruct ((0 <? q) && (q <? nc)) eqn:B; [|now injection H as <-].
      apply andb_prop in B. destruct B as [B _]. apply Z.ltb_lt in B. destruct Hq as [->|Hq]; [lia|]. destruct (alike_facts O _ _ Al) as [_ [Ei _]].
      inv_bind H. rename v into n, E into Hn. inv_bind H. rename v into ml. inv_bind H. rename v into cl. inv_bind H. rename v into mr. inv_bind H. rename v into cr. inv_bind H. apply change_inv in E3. destruct E3 as [m [m' [A1 [A2 ->]]]]. assert (m = n) by congruence. subst m.
      inv_bind A2. rename v into cs'. injection A2 as <-. pose proof E3 as Ew. apply wr_length in E3. assert (Nl : child_left O n <> -1) by (intros X; unfold Coarse_Model.get in E; rewrite X, rd_oob in E by lia; discriminate).
      pose proof (recount_one O (fr s) q n _ Hn E3 Nl) as Rc.
      assert (Sh : shape (fr s) (-1) t1) by now apply stored_shape with c. rewrite <- Ei in Hq, ND. destruct (shape_inside _ _ _ _ _ _ Sh Hq Hn) as [Pp Kids].
      assert (Nf : is_leaf O n = false) by (destruct (is_leaf O n) eqn:F; [exfalso; apply Nl; eapply childless; eauto|reflexivity]). destruct (Kids Nf) as [K1 K2]. rewrite Ei in K1, K2, Pp, ND.
      destruct (recounted_stored O c t1 _ _ _ Rc St) as [t2 [Al2 St2]].
      eapply (IH (with_fr O s (put (fr s) q (set_counters O n cs'))) (parent O n) s' t t2); [exact HN|exact ND|eapply alike_trans; eauto|exact St2|exact Pp| |exact H].
      - intros j n' Hj G. rewrite (get_put O s q n _ j A1) in G. destruct (Z.eqb_spec q j) as [->|Nj]; [|now apply (Sm j)]. injection G as <-. cbn [Mondrian_Model.counters set_counters].
        apply wr_inv in Ew. destruct Ew as [_ ->]. pose proof (Sm _ _ Hj Hn) as C0. pose proof (Sm _ _ K1 E) as Cl. pose proof (Sm _ _ K2 E1) as Cr. unfold capped in *. apply Forall_upd; [exact C0|].
        pose proof (rd_Forall _ _ _ _ _ Cl E0) as X1. pose proof (rd_Forall _ _ _ _ _ Cr E2) as X2. cbn in X1, X2. lia.
    Qed.
    Lemma cap_small : forall N t s p, kind = EXTEND_GHOST -> NoDup (cids t) -> stored (fr s) p t -> cap N t -> small N t s.
    Proof.
      intros N t s p K. revert p. induction t as [i cs|i d v cs l IHl r IHr]; intros p ND [m [H1 [H2 [H3 [H4 [H5 H6]]]]]] Cp j n Ij G; cbn [Coarse_Spec.ctop Coarse_Spec.top_counters Coarse_Defined.cap] in *.
      - destruct Ij as [<-|[]]. assert (m = n) by (unfold Coarse_Model.get in G; congruence). subst m. now rewrite H3.
      - destruct H6 as [A1 [A2 [A3 [A4 [A5 [A6 A7]]]]]]. cbn [Coarse_Spec.cids] in ND. apply NoDup_cons_iff in ND. destruct ND as [_ ND]. apply nodup_app in ND. destruct ND as [Nl [Nr _]]. destruct Cp as [C1 [C2 C3]].
        cbn [Coarse_Spec.cids] in Ij. destruct Ij as [<-|Ij]; [assert (m = n) by (unfold Coarse_Model.get in G; congruence); subst m; rewrite H3; now apply C1|]. apply in_app_or in Ij. destruct Ij as [Ij|Ij].
        + exact (IHl i Nl A6 C2 j n Ij G).
        + exact (IHr i Nr A7 C3 j n Ij G).
    Qed.
    Lemma small_cap : forall N t s p, stored (fr s) p t -> small N t s -> cap N t.
    Proof.
      intros N. induction t as [i cs|i d v cs l IHl r IHr]; intros s p [m [H1 [H2 [H3 [H4 [H5 H6]]]]]] Sm; cbn [Coarse_Spec.ctop Coarse_Spec.top_counters Coarse_Defined.cap] in *.
      - rewrite <- H3. apply (Sm i m); [now left|exact H1].
      - destruct H6 as [A1 [A2 [A3 [A4 [A5 [A6 A7]]]]]]. split; [intros _; rewrite <- H3; apply (Sm i m); [now left|exact H1]|].
        split; [apply (IHl s i A6)|apply (IHr s i A7)]; intros j n Ij; apply Sm; right; apply in_or_app; auto.
    Qed.
    Lemma cap_alike_other : forall N t t', kind <> EXTEND_GHOST -> alike O t t' -> cap N t -> cap N t'.
    Proof. intros N t t' K A. induction A; cbn [Coarse_Defined.cap]; [auto|]. intros [_ [B C]]. split; [contradiction|auto]. Qed.
    Lemma branch_cap : forall N s t t' k s', (2 <= N \/ exists i cs, t = CLeaf i cs) -> NoDup (cids t) -> stored (fr s) (-1) t -> rd (roots (fr s)) k = Ok (ctop t) -> cap N t -> alike O t t' -> stored (fr s') (-1) t' ->
      update_branch O c s k x label = Ok s' -> cap N t'.
    Proof.
      intros N s t t' k s' HN ND St Hr Cp Al St' H. destruct HN as [HN|[i [cs ->]]]; [|inversion Al; subst; exact Cp]. destruct (Z.eq_dec kind EXTEND_GHOST) as [K|K]; [|now apply cap_alike_other with t].
      destruct (alike_facts O _ _ Al) as [_ [Ei _]]. apply small_cap with s' (-1); [exact St'|]. intros j n Hj. rewrite Ei in Hj. revert j n Hj. change (small N t s').
      unfold update_branch, get_leaf in H. rewrite Hr in H. cbn [bind] in H. inv_bind H. rename v into leaf. inv_bind H. rename v into n. assert (Sh : shape (fr s) (-1) t) by now apply stored_shape with c.
      assert (Il : In leaf (cids t)).
      { destruct (ctop t <? 0); [injection E as <-; unfold Coarse_Model.get in E0; rewrite rd_oob in E0 by lia; discriminate|]. inv_bind E. destruct v as [q u]. injection E as <-. eapply follow_inside; [exact Sh|apply ctop_in|exact E1]. }
      destruct (shape_inside _ _ _ _ _ _ Sh Il E0) as [Pp _]. eapply recount_small; [exact HN|exact ND|apply alike_refl|exact St|exact Pp| |exact H]. now apply cap_small with (-1).
    Qed.
  End Point.
End Branch.
