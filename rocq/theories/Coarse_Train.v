(** * Proofs for the coarse Mondrian forest: training one tree *)
From Coq Require Import ZArith List Bool Lia Permutation.
From Verif Require Import CppBase CppFacts NumOps Utils_Model Mondrian_Model Mondrian_Spec Mondrian_Proofs Coarse_Model Coarse_Spec Coarse_Heap Coarse_Walk.
From Verif Require Unbound_Model.
Import ListNotations.
Local Open Scope Z_scope.

Definition bumped (label : Z) (cs : list Z) : list Z := upd cs (Z.to_nat label) (at_label label cs + 1).

Section Grow.
  Variable O : ops.
  Variable kind lc label : Z.
  Variable x : list (num O).
  Variable room : Z -> ctree O -> Prop.
  Local Notation ctree := (ctree O).
  Definition bump_top (t : ctree) : ctree :=
    match t with CLeaf i cs => CLeaf i (bumped label cs) | CFork i d v cs l r => CFork i d v (bumped label cs) l r end.
  (** The counters of an internal node that a point went through. *)
  Definition passed (cs : list Z) : list Z := if kind =? EXTEND_GHOST then bumped label cs else cs.
  (** The counters of a new parent. *)
  Definition inherited (t : ctree) : list Z :=
    if kind =? EXTEND_ORIGINAL then map (Z.min 1) (top_counters O t)
    else if kind =? EXTEND_GHOST then bumped label (top_counters O t) else repeat 0 (Z.to_nat lc).
  Definition fork_side (left : bool) (a d : Z) (v : num O) (cs : list Z) (t u : ctree) : ctree := if left then CFork a d v cs t u else CFork a d v cs u t.
  Definition single (b : Z) : ctree := CLeaf b (bumped label (repeat 0 (Z.to_nat lc))).
  (** [grown d inside t t']: what a training point may make of a tree [t] whose root has [d] nodes above it; [inside]: the root of [t] stays
      where it is. *)
  Inductive grown : Z -> bool -> ctree -> ctree -> Prop :=
  | g_enter : forall D t t', grown D true t t' -> grown D false t t'
  | g_leaf : forall D i cs, grown D true (CLeaf i cs) (CLeaf i (bumped label cs))
  | g_left : forall D i d v cs l l' r xd, rd x d = Ok xd -> nle O xd v = true -> grown (D + 1) false l l' ->
      grown D true (CFork i d v cs l r) (CFork i d v (passed cs) l' r)
  | g_right : forall D i d v cs l r r' xd, rd x d = Ok xd -> nle O xd v = false -> nlt O v xd = true -> grown (D + 1) false r r' ->
      grown D true (CFork i d v cs l r) (CFork i d v (passed cs) l r')
  | g_neither : forall D i d v cs l r xd, rd x d = Ok xd -> nle O xd v = false -> nlt O v xd = false ->
      grown D true (CFork i d v cs l r) (CFork i d v (passed cs) l r)
  | g_above : forall D a b d v t left, kind <> EXTEND_COUNTER_NO_UPDATE -> room D t -> grown D false t (fork_side left a d v (inherited t) t (single b))
  | g_above_twice : forall D a b d v t t' left, kind = EXTEND_COUNTER_NO_UPDATE -> room D t -> grown (D + 1) true t t' ->
      grown D false t (fork_side left a d v (inherited t) t' (single b))
  | g_ghost : forall D t, kind = EXTEND_GHOST -> grown D false t (bump_top t)
  | g_lost : forall D t, kind <> EXTEND_ORIGINAL -> kind <> EXTEND_GHOST -> kind <> EXTEND_COUNTER_NO_UPDATE -> grown D false t t.
  Lemma grown_top : forall D t t', grown D true t t' -> ctop O t' = ctop O t.
  Proof. intros D t t' G. inversion G; reflexivity. Qed.
End Grow.

Section Train.
  Variable O : ops.
  Variable log_ : num O -> num O.
  Variable rnd : nat -> num O.
  Variable c : config O.
  Hypothesis L : tlaws O.
  Hypothesis Hlife : nlt O (c_life O c) (nofZ O 0) = false.
  Local Notation n_ := (nofZ O).
  Local Notation node := (node O).
  Local Notation forest := (forest O).
  Local Notation coarse := (coarse O).
  Local Notation fr := (fr O).
  Local Notation nodes := (nodes O).
  Local Notation roots := (roots O).
  Local Notation get := (get O).
  Local Notation put := (put O).
  Local Notation avail := (avail O).
  Local Notation tau := (tau O).
  Local Notation available := (available O).
  Local Notation counters := (counters O).
  Local Notation fc := (c_features O c).
  Local Notation lc := (c_labels O c).
  Local Notation nc := (c_nodes O c).
  Local Notation life := (c_life O c).
  Local Notation kind := (c_extend O c).
  Local Notation ctree := (ctree O).
  Local Notation ctop := (ctop O).
  Local Notation cids := (cids O).
  Local Notation height := (height O).
  Local Notation stored := (stored O fc lc).
  Local Notation relink := (relink O).
  Local Notation blank_node := (blank_node O c).
  Local Notation cpool := (cpool O c).
  Local Notation same := (same O).
  Local Notation above := (above O).

  Variable k : Z.
  Variable lim : res Z.
  Variable x : list (num O).
  Variable label : Z.
  Hypothesis Hx : Z.of_nat (length x) = fc.
  Definition cobble : bool := (c_manage O c =? COBBLE_MANAGEMENT) || (c_manage O c =? OPTIMISTIC_COBBLE_MANAGEMENT).
  Definition room (D : Z) (t : ctree) : Prop := cobble = true -> forall l, lim = Ok l -> height t + D + 1 <= l.
  Local Notation grown := (grown O kind lc label x room).
  Local Notation inherited := (inherited O kind lc label).
  Local Notation single := (single O lc label).

  Definition after (s s' : coarse) (p : Z) (t t' : ctree) (rest : list Z) : Prop :=
    stored (fr s') p t' /\ cpool s' (rest ++ cids t') /\
    (forall j, In j rest -> get s' j = if j =? p then do m <- get s j; Ok (relink (ctop t) (ctop t') m) else get s j) /\
    roots (fr s') = (if p =? -1 then upd (roots (fr s)) (Z.to_nat k) (ctop t') else roots (fr s)) /\ same s s'.
  Definition before (s : coarse) (p : Z) (t : ctree) (rest : list Z) (D : Z) : Prop :=
    stored (fr s) p t /\ cpool s (rest ++ cids t) /\ above (fr s) rest p D /\
    ((p = -1 /\ rd (roots (fr s)) k = Ok (ctop t)) \/ (p <> -1 /\ In p rest)) /\ rd (limit O s) k = lim.

  Lemma relink_fields : forall a b n, tau (relink a b n) = tau n /\ parent O (relink a b n) = parent O n /\ counters (relink a b n) = counters n /\
    split_dimension O (relink a b n) = split_dimension O n /\ split_value O (relink a b n) = split_value O n.
  Proof. intros a b n. unfold Mondrian_Proofs.relink. destruct (a =? b); [auto|]. destruct (child_left O n =? a); auto. Qed.
  Lemma relink_same : forall a n, relink a a n = n.
  Proof. intros. unfold Mondrian_Proofs.relink. now rewrite Z.eqb_refl. Qed.

  Lemma same_fr : forall s f, same s (with_fr O s f).
  Proof. repeat split. Qed.
  (** A step that changes no node and no root. *)
  Lemma before_same : forall s s' p t rest D, nodes (fr s') = nodes (fr s) -> roots (fr s') = roots (fr s) -> avail s' = avail s -> limit O s' = limit O s ->
    before s p t rest D -> before s' p t rest D.
  Proof.
    intros s s' p t rest D En Er Ea El [H1 [H2 [H3 [H4 H5]]]]. split; [apply stored_frame with (fr s); [intros; now rewrite En|exact H1]|].
    split; [now apply cpool_same with s|]. split.
    - clear -H3 En. induction H3; [constructor|]. econstructor; eauto. now rewrite En.
    - rewrite Er, El. auto.
  Qed.
  Lemma after_same : forall s s0 s' p t t' rest, nodes (fr s0) = nodes (fr s) -> roots (fr s0) = roots (fr s) -> same s s0 -> after s0 s' p t t' rest -> after s s' p t t' rest.
  Proof.
    intros s s0 s' p t t' rest En Er Es [H1 [H2 [H3 [H4 H5]]]]. split; [exact H1|]. split; [exact H2|]. split; [|split; [now rewrite Er in H4|eapply same_trans; eauto]].
    intros j Hj. rewrite (H3 j Hj). unfold Coarse_Model.get. now rewrite En.
  Qed.

  (** Changing the box and the counters of the root of a subtree. *)
  Lemma change_box : forall s p t rest D n lo hi, before s p t rest D -> get s (ctop t) = Ok n ->
    let s' := with_fr O s (put (fr s) (ctop t) (set_box O n lo hi)) in before s' p t rest D /\
    (forall j, In j rest -> get s' j = get s j) /\ roots (fr s') = roots (fr s) /\ same s s'.
  Proof.
    intros s p t rest D n lo hi [H1 [H2 [H3 [H4 H5]]]] Hn s'.
    assert (G : forall j, get s' j = if ctop t =? j then Ok (set_box O n lo hi) else get s j) by (intros; now apply get_put with n).
    pose proof H2 as [P1 [P2 [P3 [P4 [P5 P6]]]]]. pose proof (nodup_app _ _ _ P2) as [Nr [Nt Nrt]].
    assert (Gr : forall j, In j rest -> get s' j = get s j).
    { intros j Hj. rewrite G. rewrite (proj2 (Z.eqb_neq (ctop t) j)); [reflexivity|]. intros <-. apply (Nrt (ctop t)); auto. apply ctop_in. }
    assert (A : available n = false) by (apply (P4 (ctop t) n Hn), in_or_app; right; apply ctop_in).
    split; [|split; [exact Gr|split; [reflexivity|apply same_fr]]]. split; [|split; [|split; [|split]]].
    - assert (Fr : forall j, In j (cids t) -> j <> ctop t -> rd (nodes (fr s')) j = rd (nodes (fr s)) j).
      { intros j _ Nj. specialize (G j). unfold Coarse_Model.get in G. rewrite G. now rewrite (proj2 (Z.eqb_neq (ctop t) j)) by congruence. }
      assert (Gt : rd (nodes (fr s')) (ctop t) = Ok (set_box O n lo hi)) by (specialize (G (ctop t)); unfold Coarse_Model.get in G; now rewrite G, Z.eqb_refl).
      destruct t as [i cs|i d v cs l r]; destruct H1 as [m [M1 [M2 [M3 [M4 [M5 M6]]]]]]; assert (m = n) by (unfold Coarse_Model.get in Hn; congruence); subst m;
        exists (set_box O n lo hi); (split; [exact Gt|]); repeat (split; [assumption|]); [exact M6|].
      destruct M6 as [B1 [B2 [B3 [B4 [B5 [B6 B7]]]]]]. cbn [Coarse_Spec.cids] in Nt. apply NoDup_cons_iff in Nt. destruct Nt as [Ni N']. repeat (split; [assumption|]). split.
      + apply stored_frame with (fr s); auto. intros j Hj. apply Fr; [right; apply in_or_app; now left|]. cbn. intros ->. apply Ni, in_or_app. now left.
      + apply stored_frame with (fr s); auto. intros j Hj. apply Fr; [right; apply in_or_app; now right|]. cbn. intros ->. apply Ni, in_or_app. now right.
    - apply cpool_put with n; auto.
    - assert (Fr : forall j, In j rest -> rd (nodes (fr s')) j = rd (nodes (fr s)) j) by exact Gr. clear -H3 Fr. induction H3; [constructor|]. econstructor; eauto. now rewrite Fr.
    - exact H4.
    - exact H5.
  Qed.

  (** The point goes on below the root of [t]. *)
  Definition descend (steps : nat) (s : coarse) (node_id : Z) : res coarse :=
    do n <- get s node_id;
    if is_leaf O n then add_leaf O s node_id label
    else
      do xd <- rd x (split_dimension O n);
      do v <- match split_value O n with Some v => Ok v | None => Undef Uninitialised end;
      do s <-
        (if nle O xd v then extend_block O log_ rnd c steps s (child_left O n) k x label
         else if nlt O v xd then extend_block O log_ rnd c steps s (child_right O n) k x label
         else Ok s);
      if kind =? EXTEND_GHOST then add_label O s node_id label else Ok s.
  Lemma extend_S : forall steps s i, extend_block O log_ rnd c (S steps) s i k x label =
    do n <- get s i;
    do parent_tau <- parent_time O (fr s) n;
    do (probs, sum) <- distances O fc n x;
    let (e, s) := draw_time O log_ rnd s sum in
    do paused <- pause O c s i k;
    if nle O (n_ 0) e && nlt O (nadd O parent_tau e) (tau n) && (2 <=? avail s) && negb paused then
      do s <- split_above O rnd c s n i k x probs sum (nadd O parent_tau e) label;
      if kind =? EXTEND_COUNTER_NO_UPDATE then descend steps s i else Ok s
    else if (kind =? EXTEND_ORIGINAL) || nlt O e (n_ 0) || nlt O (tau n) (nadd O parent_tau e) then
      do s <- change O s i (fun n => update_box O fc n x);
      descend steps s i
    else if kind =? EXTEND_GHOST then add_leaf O s i label
    else if kind =? EXTEND_COUNTER_NO_UPDATE then descend steps s i
    else Ok s.
  Proof. reflexivity. Qed.

  (** One label is added to the counters of the root of [t]. *)
  Lemma add_label_top : forall s p t rest D s', before s p t rest D -> add_label O s (ctop t) label = Ok s' ->
    after s s' p t (bump_top O label t) rest /\ 0 <= label < lc.
  Proof.
    intros s p t rest D s' [H1 [H2 [H3 [H4 H5]]]] H. apply add_label_inv in H. destruct H as [n [Hn [Bl ->]]].
    set (n' := set_counters O n _). set (s' := with_fr O s (put (fr s) (ctop t) n')).
    assert (G : forall j, get s' j = if ctop t =? j then Ok n' else get s j) by (intros; now apply get_put with n).
    pose proof H2 as [P1 [P2 [P3 [P4 [P5 P6]]]]]. pose proof (nodup_app _ _ _ P2) as [Nr [Nt Nrt]].
    assert (A : available n = false) by (apply (P4 (ctop t) n Hn), in_or_app; right; apply ctop_in).
    destruct (stored_node O c t (fr s) p H1) as [m [M1 [M2 [M3 [M4 [M5 M6]]]]]]. assert (m = n) by (unfold Coarse_Model.get in Hn; congruence). subst m.
    assert (Tb : ctop (bump_top O label t) = ctop t) by (destruct t; reflexivity). assert (Ib : cids (bump_top O label t) = cids t) by (destruct t; reflexivity).
    split; [|lia]. split; [|split; [|split; [|split]]].
    - assert (Fr : forall j, In j (cids t) -> j <> ctop t -> rd (nodes (fr s')) j = rd (nodes (fr s)) j).
      { intros j _ Nj. specialize (G j). unfold Coarse_Model.get in G. rewrite G. now rewrite (proj2 (Z.eqb_neq (ctop t) j)) by congruence. }
      assert (Gt : rd (nodes (fr s')) (ctop t) = Ok n') by (specialize (G (ctop t)); unfold Coarse_Model.get in G; now rewrite G, Z.eqb_refl).
      assert (Cn : counters n' = bumped label (top_counters O t)) by (unfold n', bumped; cbn [Mondrian_Model.counters set_counters]; now rewrite M3).
      assert (Ln : length (counters n') = Z.to_nat lc) by (unfold n'; cbn [Mondrian_Model.counters set_counters]; now rewrite upd_length).
      destruct t as [i cs|i d v cs l r]; destruct H1 as [q [Q1 [Q2 [Q3 [Q4 [Q5 Q6]]]]]]; assert (q = n) by congruence; subst q;
        exists n'; (split; [exact Gt|]); (split; [exact Q2|]); (split; [exact Cn|]); (split; [exact Ln|]); (split; [exact Q5|]); [exact Q6|].
      destruct Q6 as [B1 [B2 [B3 [B4 [B5 [B6 B7]]]]]]. cbn [Coarse_Spec.cids] in Nt. apply NoDup_cons_iff in Nt. destruct Nt as [Ni N']. repeat (split; [assumption|]). split.
      + apply stored_frame with (fr s); auto. intros j Hj. apply Fr; [right; apply in_or_app; now left|]. cbn. intros ->. apply Ni, in_or_app. now left.
      + apply stored_frame with (fr s); auto. intros j Hj. apply Fr; [right; apply in_or_app; now right|]. cbn. intros ->. apply Ni, in_or_app. now right.
    - rewrite Ib. apply cpool_put with n; auto.
    - intros j Hj. rewrite Tb, G. rewrite (proj2 (Z.eqb_neq (ctop t) j)) by (intros <-; apply (Nrt (ctop t)); auto; apply ctop_in).
      destruct (j =? p); [|reflexivity]. destruct (get s j); cbn [bind]; try reflexivity. now rewrite relink_same.
    - rewrite Tb. destruct H4 as [[-> Hr]|[Np _]].
      + rewrite Z.eqb_refl. apply rd_ok_iff in Hr. symmetry. apply upd_same_id. tauto.
      + now rewrite (proj2 (Z.eqb_neq p (-1))).
    - apply same_fr.
  Qed.
  Lemma add_leaf_top : forall s p t rest D s', before s p t rest D -> add_leaf O s (ctop t) label = Ok s' -> after s s' p t (bump_top O label t) rest /\ 0 <= label < lc.
  Proof.
    intros s p t rest D s' B H. unfold add_leaf in H. inv_bind H. apply add_fading_inv in H. destruct H as [xs [Lx ->]]. destruct (add_label_top _ _ _ _ _ _ B E) as [[H1 [H2 [H3 [H4 H5]]]] Bl].
    split; [|exact Bl]. split; [exact H1|]. split; [now apply cpool_same with v|]. split; [exact H3|]. split; [exact H4|].
    eapply same_trans; [exact H5|]. repeat split. exact Lx.
  Qed.

  Lemma after_refl : forall s p t rest D, before s p t rest D -> after s s p t t rest.
  Proof.
    intros s p t rest D [H1 [H2 [H3 [H4 H5]]]]. split; [exact H1|]. split; [exact H2|]. split; [|split; [|apply same_refl]].
    - intros j _. destruct (j =? p); [|reflexivity]. destruct (get s j); cbn [bind]; try reflexivity. now rewrite relink_same.
    - destruct H4 as [[-> Hr]|[Np _]].
      + rewrite Z.eqb_refl. apply rd_ok_iff in Hr. symmetry. apply upd_same_id. tauto.
      + now rewrite (proj2 (Z.eqb_neq p (-1))).
  Qed.

  Definition extends (steps : nat) : Prop := forall s p t rest D s', before s p t rest D -> extend_block O log_ rnd c steps s (ctop t) k x label = Ok s' ->
    exists t', grown D false t t' /\ after s s' p t t' rest.
  Definition descends (steps : nat) : Prop := forall s p t rest D s', before s p t rest D -> descend steps s (ctop t) = Ok s' ->
    exists t', grown D true t t' /\ after s s' p t t' rest.

  Lemma limit_same : forall s s', same s s' -> limit O s' = limit O s.
  Proof. intros s s' [H _]. exact H. Qed.

  (** A child takes the place of another one. *)
  Lemma child_left_after : forall s s' p i d v cs l r l' rest D n, before s p (CFork i d v cs l r) rest D -> get s i = Ok n ->
    after s s' i l l' (rest ++ i :: cids r) -> after s s' p (CFork i d v cs l r) (CFork i d v cs l' r) rest.
  Proof.
    intros s s' p i d v cs l r l' rest D n [H1 [H2 [H3 [H4 H5]]]] Hn [A1 [A2 [A3 [A4 A5]]]].
    pose proof H2 as [P1 [P2 [P3 _]]]. pose proof (nodup_app _ _ _ P2) as [Nr [Nt Nrt]]. cbn [Coarse_Spec.cids] in Nt. apply NoDup_cons_iff in Nt. destruct Nt as [Ni N']. apply nodup_app in N'. destruct N' as [Nl [Nr' Nlr]].
    assert (Bi : 0 <= i < nc) by (apply P3, in_or_app; right; now left).
    destruct H1 as [m [M1 [M2 [M3 [M4 [M5 [B1 [B2 [B3 [B4 [B5 [B6 B7]]]]]]]]]]]]. assert (m = n) by (unfold Coarse_Model.get in Hn; cbn in M1; congruence). subst m.
    destruct (relink_fields (ctop l) (ctop l') n) as [F1 [F2 [F3 [F4 F5]]]].
    assert (Gi : get s' i = Ok (relink (ctop l) (ctop l') n)).
    { rewrite A3 by (apply in_or_app; right; now left). rewrite Z.eqb_refl, Hn. reflexivity. }
    assert (Cl : child_left O (relink (ctop l) (ctop l') n) = ctop l' /\ child_right O (relink (ctop l) (ctop l') n) = ctop r).
    { unfold Mondrian_Proofs.relink. destruct (Z.eqb_spec (ctop l) (ctop l')) as [E|N]; [rewrite <- E; auto|]. rewrite B4, Z.eqb_refl. cbn. auto. }
    split; [|split; [|split; [|split]]].
    - exists (relink (ctop l) (ctop l') n). split; [exact Gi|]. split; [congruence|]. split; [cbn in *; congruence|]. split; [congruence|]. split; [congruence|].
      split; [congruence|]. split; [exact B2|]. split; [congruence|]. split; [tauto|]. split; [tauto|]. split; [exact A1|].
      apply stored_frame with (fr s); [|exact B7]. intros j Hj. assert (Nj : j <> i) by (intros ->; apply Ni, in_or_app; now right).
      specialize (A3 j ltac:(apply in_or_app; right; now right)). rewrite (proj2 (Z.eqb_neq j i)) in A3 by exact Nj. exact A3.
    - eapply cpool_perm; [|exact A2]. rewrite <- app_assoc. apply Permutation_app_head. cbn [app Coarse_Spec.cids]. apply perm_skip, Permutation_app_comm.
    - intros j Hj. rewrite A3 by (apply in_or_app; now left). assert (Nj : j <> i) by (intros ->; apply (Nrt i); [exact Hj|now left]). rewrite (proj2 (Z.eqb_neq j i)) by exact Nj. cbn [Coarse_Spec.ctop].
      destruct (j =? p); [|reflexivity]. destruct (get s j); cbn [bind]; try reflexivity. now rewrite relink_same.
    - rewrite A4. rewrite (proj2 (Z.eqb_neq i (-1))) by lia. cbn [Coarse_Spec.ctop]. destruct H4 as [[-> Hr]|[Np _]].
      + rewrite Z.eqb_refl. cbn [Coarse_Spec.ctop] in Hr. apply rd_ok_iff in Hr. symmetry. apply upd_same_id. tauto.
      + now rewrite (proj2 (Z.eqb_neq p (-1))).
    - exact A5.
  Qed.
  Lemma child_right_after : forall s s' p i d v cs l r r' rest D n, before s p (CFork i d v cs l r) rest D -> get s i = Ok n ->
    after s s' i r r' (rest ++ i :: cids l) -> after s s' p (CFork i d v cs l r) (CFork i d v cs l r') rest.
  Proof.
    intros s s' p i d v cs l r r' rest D n [H1 [H2 [H3 [H4 H5]]]] Hn [A1 [A2 [A3 [A4 A5]]]].
    pose proof H2 as [P1 [P2 [P3 _]]]. pose proof (nodup_app _ _ _ P2) as [Nr [Nt Nrt]]. cbn [Coarse_Spec.cids] in Nt. apply NoDup_cons_iff in Nt. destruct Nt as [Ni N']. apply nodup_app in N'. destruct N' as [Nl [Nr' Nlr]].
    assert (Bi : 0 <= i < nc) by (apply P3, in_or_app; right; now left).
    destruct H1 as [m [M1 [M2 [M3 [M4 [M5 [B1 [B2 [B3 [B4 [B5 [B6 B7]]]]]]]]]]]]. assert (m = n) by (unfold Coarse_Model.get in Hn; cbn in M1; congruence). subst m.
    destruct (relink_fields (ctop r) (ctop r') n) as [F1 [F2 [F3 [F4 F5]]]].
    assert (Gi : get s' i = Ok (relink (ctop r) (ctop r') n)).
    { rewrite A3 by (apply in_or_app; right; now left). rewrite Z.eqb_refl, Hn. reflexivity. }
    assert (Nlt : ctop l <> ctop r) by (intros E; apply (Nlr (ctop l)); [apply ctop_in|rewrite E; apply ctop_in]).
    assert (Cl : child_left O (relink (ctop r) (ctop r') n) = ctop l /\ child_right O (relink (ctop r) (ctop r') n) = ctop r').
    { unfold Mondrian_Proofs.relink. destruct (Z.eqb_spec (ctop r) (ctop r')) as [E|N]; [rewrite <- E; auto|]. rewrite B4, (proj2 (Z.eqb_neq _ _) Nlt). cbn. auto. }
    split; [|split; [|split; [|split]]].
    - exists (relink (ctop r) (ctop r') n). split; [exact Gi|]. split; [congruence|]. split; [cbn in *; congruence|]. split; [congruence|]. split; [congruence|].
      split; [congruence|]. split; [exact B2|]. split; [congruence|]. split; [tauto|]. split; [tauto|]. split; [|exact A1].
      apply stored_frame with (fr s); [|exact B6]. intros j Hj. assert (Nj : j <> i) by (intros ->; apply Ni, in_or_app; now left).
      specialize (A3 j ltac:(apply in_or_app; right; now right)). rewrite (proj2 (Z.eqb_neq j i)) in A3 by exact Nj. exact A3.
    - eapply cpool_perm; [|exact A2]. rewrite <- app_assoc. apply Permutation_app_head. cbn [app Coarse_Spec.cids]. apply Permutation_refl.
    - intros j Hj. rewrite A3 by (apply in_or_app; now left). assert (Nj : j <> i) by (intros ->; apply (Nrt i); [exact Hj|now left]). rewrite (proj2 (Z.eqb_neq j i)) by exact Nj. cbn [Coarse_Spec.ctop].
      destruct (j =? p); [|reflexivity]. destruct (get s j); cbn [bind]; try reflexivity. now rewrite relink_same.
    - rewrite A4. rewrite (proj2 (Z.eqb_neq i (-1))) by lia. cbn [Coarse_Spec.ctop]. destruct H4 as [[-> Hr]|[Np _]].
      + rewrite Z.eqb_refl. cbn [Coarse_Spec.ctop] in Hr. apply rd_ok_iff in Hr. symmetry. apply upd_same_id. tauto.
      + now rewrite (proj2 (Z.eqb_neq p (-1))).
    - exact A5.
  Qed.
  Lemma above_more : forall f rest more p D, above f rest p D -> above f (rest ++ more) p D.
  Proof. intros f rest more p D H. induction H; [constructor|]. econstructor; eauto. apply in_or_app. now left. Qed.
  Lemma before_after : forall s s' p t t' rest D, before s p t rest D -> after s s' p t t' rest -> (p <> -1 -> above (fr s') rest p D) -> before s' p t' rest D.
  Proof.
    intros s s' p t t' rest D [H1 [H2 [H3 [H4 H5]]]] [A1 [A2 [A3 [A4 A5]]]] Ab. split; [exact A1|]. split; [exact A2|]. split; [|split].
    - destruct H4 as [[-> _]|[Np _]]; [|now apply Ab]. inversion H3 as [|? ? ? Ip Hp]; subst; [constructor|]. apply rd_bounds in Hp. lia.
    - destruct H4 as [[-> Hr]|[Np Ip]]; [left|right; auto]. split; [reflexivity|]. rewrite A4, Z.eqb_refl. pose proof (rd_bounds _ _ _ _ Hr) as B. rewrite rd_upd, Z.eqb_refl by lia. reflexivity.
    - now rewrite (limit_same _ _ A5).
  Qed.
  (** Nodes above are only relinked. *)
  Lemma above_kept : forall s s' rest p D (g : Z -> node -> node), (forall j n, get s j = Ok n -> In j rest -> get s' j = Ok (g j n)) ->
    (forall j n, parent O (g j n) = parent O n /\ tau (g j n) = tau n) -> above (fr s) rest p D -> above (fr s') rest p D.
  Proof.
    intros s s' rest p D g H G A. induction A as [|p n D I Hn Ht A IH]; [constructor|]. pose proof (H p n Hn I) as E. destruct (G p n) as [G1 G2].
    apply above_up with (g p n); auto; [now rewrite G2|now rewrite G1].
  Qed.
  Lemma above_after : forall s s' p t t' rest D q E, after s s' p t t' rest -> above (fr s) rest q E -> cpool s (rest ++ cids t) -> before s p t rest D -> above (fr s') rest q E.
  Proof.
    intros s s' p t t' rest D q E [_ [_ [A3 _]]] Ab _ _. apply above_kept with s (fun j n => if j =? p then relink (ctop t) (ctop t') n else n); [| |exact Ab].
    - intros j n Hn Hj. rewrite (A3 j Hj), Hn. cbn [bind]. now destruct (j =? p).
    - intros j n. destruct (j =? p); [|auto]. destruct (relink_fields (ctop t) (ctop t') n) as [F1 [F2 _]]. auto.
  Qed.
  Lemma after_trans : forall s s1 s2 p t t1 t2 rest, after s s1 p t t1 rest -> after s1 s2 p t1 t2 rest -> ctop t1 = ctop t -> ctop t2 = ctop t -> after s s2 p t t2 rest.
  Proof.
    intros s s1 s2 p t t1 t2 rest [A1 [A2 [A3 [A4 A5]]]] [B1 [B2 [B3 [B4 B5]]]] E1 E2. split; [exact B1|]. split; [exact B2|]. split; [|split; [|eapply same_trans; eauto]].
    - intros j Hj. rewrite (B3 j Hj), (A3 j Hj), E1, E2. destruct (j =? p); [|reflexivity]. destruct (get s j); cbn [bind]; try reflexivity. now rewrite !relink_same.
    - rewrite B4, A4, E1, E2. destruct (p =? -1); [apply upd_upd|reflexivity].
  Qed.

  Lemma descend_step : forall steps, extends steps -> descends steps.
  Proof.
    intros steps IH s p t rest D s' Bf H. pose proof Bf as [H1 [H2 [H3 [H4 H5]]]]. unfold descend in H.
    destruct (stored_node O c t (fr s) p H1) as [n [M1 [M2 [M3 [M4 [M5 M6]]]]]]. assert (Hn : get s (ctop t) = Ok n) by exact M1. rewrite Hn in H. cbn [bind] in H. rewrite M6 in H.
    destruct t as [i cs|i d v cs l r].
    - destruct (add_leaf_top _ _ _ _ _ _ Bf H) as [A _]. exists (CLeaf i (bumped label cs)). split; [constructor|exact A].
    - destruct H1 as [m [Q1 [Q2 [Q3 [Q4 [Q5 [B1 [B2 [B3 [B4 [B5 [B6 B7]]]]]]]]]]]]. assert (m = n) by (cbn in *; congruence). subst m.
      rewrite B1, B3, B4, B5 in H. inv_bind H. rename v0 into xd, E into Ex. cbn [bind] in H. inv_bind H. rename v0 into s1, E into E1.
      assert (Bi : 0 <= i < nc) by (destruct H2 as [_ [_ [P _]]]; apply P, in_or_app; right; now left).
      assert (S1 : exists t1, after s s1 p (CFork i d v cs l r) t1 rest /\ ctop t1 = i /\
        (forall cs', cs' = passed kind label cs -> grown D true (CFork i d v cs l r) (match t1 with CFork i d v _ l r => CFork i d v cs' l r | _ => t1 end)) /\
        match t1 with CFork _ _ _ cs1 _ _ => cs1 = cs | _ => False end).
      { assert (Up : forall rest', (forall j, In j rest -> In j rest') -> In i rest' -> above (fr s) rest' i (D + 1)).
        { intros rest' Sub Ii. apply above_up with n; auto. rewrite M2. clear -H3 Sub. induction H3; [constructor|]. econstructor; eauto. }
        destruct (nle O xd v) eqn:Le; [|destruct (nlt O v xd) eqn:Lt].
        - destruct (IH s i l (rest ++ i :: cids r) (D + 1) s1) as [l' [G A]]; [|exact E1|].
          + split; [exact B6|]. split; [|split; [|split; [|exact H5]]].
            * eapply cpool_perm; [|exact H2]. rewrite <- app_assoc. apply Permutation_app_head. cbn [app Coarse_Spec.cids]. apply perm_skip, Permutation_app_comm.
            * apply Up; [intros; apply in_or_app; now left|apply in_or_app; right; now left].
            * right. split; [lia|]. apply in_or_app. right. now left.
          + exists (CFork i d v cs l' r). split; [eapply child_left_after; eauto|]. split; [reflexivity|]. split; [|reflexivity]. intros cs' ->. eapply g_left; eauto.
        - destruct (IH s i r (rest ++ i :: cids l) (D + 1) s1) as [r' [G A]]; [|exact E1|].
          + split; [exact B7|]. split; [|split; [|split; [|exact H5]]].
            * eapply cpool_perm; [|exact H2]. rewrite <- app_assoc. apply Permutation_app_head. apply Permutation_refl.
            * apply Up; [intros; apply in_or_app; now left|apply in_or_app; right; now left].
            * right. split; [lia|]. apply in_or_app. right. now left.
          + exists (CFork i d v cs l r'). split; [eapply child_right_after; eauto|]. split; [reflexivity|]. split; [|reflexivity]. intros cs' ->. eapply g_right; eauto.
        - injection E1 as <-. exists (CFork i d v cs l r). split; [eapply after_refl; eauto|]. split; [reflexivity|]. split; [|reflexivity]. intros cs' ->. eapply g_neither; eauto. }
      destruct S1 as [t1 [A [Et [G Ec]]]]. destruct t1 as [|i1 d1 v1 cs1 l1 r1]; [contradiction|]. subst cs1. cbn in Et. subst i1. cbn [Coarse_Spec.ctop] in H.
      specialize (G _ eq_refl). unfold passed in G. destruct (kind =? EXTEND_GHOST).
      + assert (Bf1 : before s1 p (CFork i d1 v1 cs l1 r1) rest D) by (eapply before_after; [exact Bf|exact A|]; intros _; eapply above_after; eauto).
        destruct (add_label_top s1 p (CFork i d1 v1 cs l1 r1) rest D s' Bf1) as [A2 _]; [exact H|].
        exists (CFork i d1 v1 (bumped label cs) l1 r1). split; [exact G|]. eapply after_trans; eauto.
      + injection H as <-. eexists. split; [exact G|exact A].
  Qed.

  Lemma parent_time_ok : forall s rest p D n t0, above (fr s) rest p D -> (forall j, In j rest -> 0 <= j) -> parent O n = p -> parent_time O (fr s) n = Ok t0 -> nlt O t0 (n_ 0) = false.
  Proof.
    intros s rest p D n t0 A B Hp H. unfold parent_time in H. rewrite Hp in H. destruct A as [|p m D I Hm Ht A].
    - cbn in H. injection H as <-. exact (tl_0 O L).
    - rewrite (proj2 (Z.leb_le 0 p)), Hm in H by auto. cbn [bind] in H. injection H as <-. exact Ht.
  Qed.
  Lemma pause_room : forall s p t rest D, before s p t rest D -> pause O c s (ctop t) k = Ok false -> room D t.
  Proof.
    intros s p t rest D [H1 [H2 [H3 [H4 H5]]]] H Cb l Hl. unfold pause in H. unfold cobble in Cb. rewrite Cb in H. inv_bind H. destruct v as [h m]. inv_bind H. rename v into d. inv_bind H. rename v into l'.
    injection H as H. assert (l' = l) by congruence. subst l'. apply Z.ltb_ge in H. destruct H2 as [P1 [P2 [P3 _]]].
    assert (Sz : csize O t <= nc).
    { pose proof (nodup_app _ _ _ P2) as [_ [Nt _]]. unfold csize. pose proof (NoDup_incl_length Nt (l' := zrange nc)) as X. rewrite zrange_length in X.
      assert (Y : incl (cids t) (zrange nc)). { intros j Hj. specialize (P3 j ltac:(apply in_or_app; now right)). unfold zrange. apply in_map_iff. exists (Z.to_nat j). split; [lia|]. apply in_seq. lia. }
      specialize (X Y). pose proof (csize_pos O t). unfold csize in *. lia. }
    destruct (node_depth_inv O c t s p h m) as [-> _]; [now apply stored_shape with c|exact Sz|exact E|].
    destruct (stored_node O c t (fr s) p H1) as [n [M1 [M2 _]]]. unfold unravel in E0. destruct (nc <=? ctop t) eqn:X.
    - apply Z.leb_le in X. specialize (P3 (ctop t) ltac:(apply in_or_app; right; apply ctop_in)). lia.
    - apply (climb_above O s rest p D H3 (ctop t) n) in E0; auto. lia.
  Qed.

  (** Taking two free nodes. *)
  Lemma cpool_two : forall s s' u a b, cpool s u -> a <> b -> (exists n, get s a = Ok n /\ available n = true) -> (exists n, get s b = Ok n /\ available n = true) ->
    (exists n, get s' a = Ok n /\ available n = false) -> (exists n, get s' b = Ok n /\ available n = false) ->
    (forall j n', j <> a -> j <> b -> get s' j = Ok n' -> exists n, get s j = Ok n /\ available n' = available n /\ (available n = true -> n' = n)) ->
    length (nodes (fr s')) = length (nodes (fr s)) -> avail s' = avail s - 2 -> cpool s' (a :: b :: u).
  Proof.
    intros s s' u a b [P1 [P2 [P3 [P4 [P5 P6]]]]] Nab [na [Ha Aa]] [nb [Hb Ab]] [na' [Ha' Aa']] [nb' [Hb' Ab']] Ho Ln Av.
    assert (Na : ~ In a u) by (intros I; apply (P4 a na Ha) in I; congruence). assert (Nb : ~ In b u) by (intros I; apply (P4 b nb Hb) in I; congruence).
    split; [lia|]. split; [constructor; [intros [E|I]; [congruence|contradiction]|now constructor]|].
    split. { intros j [<-|[<-|I]]; auto; [apply rd_bounds in Ha|apply rd_bounds in Hb]; lia. }
    split; [|split; [cbn [length]; lia|]].
    - intros j n' Hj. destruct (Z.eq_dec j a) as [->|Nja]; [assert (n' = na') by congruence; subst; cbn [In]; tauto|].
      destruct (Z.eq_dec j b) as [->|Njb]; [assert (n' = nb') by congruence; subst; cbn [In]; tauto|]. destruct (Ho j n' Nja Njb Hj) as [n [Hn [A _]]]. rewrite A, <- (P4 j n Hn). cbn [In]. intuition congruence.
    - intros j n' Hj A. destruct (Z.eq_dec j a) as [->|Nja]; [congruence|]. destruct (Z.eq_dec j b) as [->|Njb]; [congruence|]. destruct (Ho j n' Nja Njb Hj) as [n [Hn [A' E]]].
      rewrite E by congruence. apply (P6 j n Hn). congruence.
  Qed.

  Lemma choose_split_inv : forall s n probs sum f d up v, Unbound_Model.choose_split O rnd fc (fr s) n x probs sum = Ok (f, (d, (up, v))) ->
    nodes f = nodes (fr s) /\ roots f = roots (fr s) /\ 0 <= d < fc.
  Proof.
    intros s n probs sum f d up v H. unfold Unbound_Model.choose_split, Mondrian_Model.uniform in H. inv_bind H. inv_bind H. inv_bind H. inv_bind H. inv_bind H. inv_bind H. destruct v5 as [a b].
    injection H as <- <- <- <-. apply rd_bounds in E1. cbn. rewrite Hx in E1. auto.
  Qed.
  Lemma insert_sibling : forall f i d up a b f' l, insert_above O fc lc life f i k x l d up a b = Ok f' -> exists nb, rd (nodes f) b = Ok nb.
  Proof.
    intros f i d up a b f' l H. unfold insert_above in H. inv_bind H. inv_bind H. destruct v0 as [bl bu]. inv_bind H. inv_bind H. apply with_node_inv in E1, E2. destruct E1 as [m [m' [A1 [_ ->]]]]. destruct E2 as [q [q' [B1 _]]].
    rewrite rd_put with (m := m) in B1 by exact A1. destruct (Z.eqb_spec a b) as [->|N]; eauto.
  Qed.

  Lemma split_above_ok : forall s p t rest D n probs sum time s', before s p t rest D -> get s (ctop t) = Ok n -> nlt O time (n_ 0) = false ->
    split_above O rnd c s n (ctop t) k x probs sum time label = Ok s' ->
    exists a b d v left t', t' = fork_side O left a d v (inherited t) t (single b) /\ after s s' p t t' rest /\
      stored (fr s') a t /\ above (fr s') (rest ++ [a; b]) a (D + 1) /\ In a (cids t') /\ 0 <= a.
  Proof.
    intros s p t rest D n probs sum time s' Bf Hn Ht H. pose proof Bf as [H1 [H2 [H3 [H4 H5]]]]. unfold split_above in H. inv_bind H. destruct v as [f0 [d [up v]]]. rename E into EC.
    apply choose_split_inv in EC. destruct EC as [Nf [Rf Bd]]. inv_bind H. destruct v0 as [a s1]. apply available_node_inv in E.
    destruct E as [[-> ->]|[na [Ha [Aa ->]]]].
    { inv_bind H. apply change_inv in E. destruct E as [m [m' [A1 _]]]. unfold Coarse_Model.get in A1. rewrite rd_oob in A1 by lia. discriminate. }
    assert (Ha0 : get s a = Ok na) by (unfold Coarse_Model.get in *; cbn [Coarse_Model.fr with_fr] in Ha; now rewrite Nf in Ha).
    pose proof H2 as [P1 [P2 [P3 [P4 [P5 P6]]]]]. pose proof (P6 a na Ha0 Aa) as ->.
    inv_bind H. rename v0 into s2. apply change_inv in E. destruct E as [m [m' [A1 [A2 E2]]]].
    assert (m = blank_node) by (unfold Coarse_Model.get in *; cbn [Coarse_Model.fr with_fr with_last] in A1; rewrite Nf in A1; congruence). subst m. injection A2 as <-.
    assert (G2 : forall j, get s2 j = if a =? j then Ok (set_split O blank_node d v time) else get s j).
    { intros j. subst s2. rewrite (get_put O _ a blank_node _ j A1). destruct (a =? j); [reflexivity|]. unfold Coarse_Model.get. cbn [Coarse_Model.fr with_fr with_last]. now rewrite Nf. }
    assert (L2 : length (nodes (fr s2)) = length (nodes (fr s))) by (subst s2; cbn [Coarse_Model.fr with_fr with_last]; now rewrite put_length, Nf).
    assert (R2 : roots (fr s2) = roots (fr s)) by (subst s2; exact Rf).
    assert (S2 : same s s2) by (subst s2; repeat split). assert (V2 : avail s2 = avail s) by (subst s2; reflexivity). clear E2 A1.
    inv_bind H. destruct v0 as [b s3]. apply available_node_inv in E. inv_bind H. rename v0 into s5, E0 into EP. inv_bind H. rename v0 into f6, E0 into EI. injection H as <-.
    assert (X3 : nodes (fr s3) = nodes (fr s2) /\ roots (fr s3) = roots (fr s2) /\ same s2 s3 /\ avail s3 = avail s2) by (destruct E as [[_ ->]|[nb [_ [_ ->]]]]; repeat split).
    destruct X3 as [N3 [R3 [S3 V3]]].
    (* the counters of the new parent *)
    destruct (stored_node O c t (fr s) p H1) as [n0 [M1 [M2 [M3 [M4 [M5 M6]]]]]]. assert (n0 = n) by (unfold Coarse_Model.get in Hn; congruence). subst n0.
    set (na5 := set_counters O (set_split O blank_node d v time) (inherited t)).
    assert (Ga3 : get s3 a = Ok (set_split O blank_node d v time)) by (unfold Coarse_Model.get; rewrite N3; specialize (G2 a); rewrite Z.eqb_refl in G2; exact G2).
    assert (S5 : (forall j, get s5 j = if a =? j then Ok na5 else get s j) /\ roots (fr s5) = roots (fr s) /\ same s s5 /\ avail s5 = avail s - 2 /\ length (nodes (fr s5)) = length (nodes (fr s))).
    { assert (G3 : forall j, get s3 j = if a =? j then Ok (set_split O blank_node d v time) else get s j) by (intros j; unfold Coarse_Model.get at 1; rewrite N3; apply G2).
      assert (Z : same s s3) by (eapply same_trans; eauto). unfold parent_counters in EP. unfold na5, Coarse_Train.inherited.
      destruct (kind =? EXTEND_ORIGINAL).
      - apply change_inv in EP. destruct EP as [m [m' [A1 [A2 ->]]]]. injection A2 as <-. assert (m = set_split O blank_node d v time) by (change (get s3 a = Ok m) in A1; congruence). subst m.
        split; [|split; [cbn; congruence|split; [eapply same_trans; [exact Z|]; repeat split|split; [cbn; lia|cbn [Coarse_Model.fr with_fr with_avail]; rewrite put_length, N3; exact L2]]]].
        intros j. rewrite (get_put O _ a _ _ j A1). rewrite <- M3. destruct (Z.eqb_spec a j) as [->|Nj]; [reflexivity|]. change (get s3 j = get s j). rewrite G3. now rewrite (proj2 (Z.eqb_neq a j)) by congruence.
      - destruct (kind =? EXTEND_GHOST).
        + inv_bind EP. apply change_inv in E0. destruct E0 as [m [m' [A1 [A2 ->]]]]. injection A2 as <-. assert (m = set_split O blank_node d v time) by (change (get s3 a = Ok m) in A1; congruence). subst m.
          apply add_label_inv in EP. destruct EP as [m [B1 [B2 ->]]]. rewrite (get_put O _ a _ _ a A1), Z.eqb_refl in B1. injection B1 as <-. cbn [Mondrian_Model.counters set_counters] in *.
          split; [|split; [cbn; congruence|split; [eapply same_trans; [exact Z|]; repeat split|split; [cbn; lia|cbn [Coarse_Model.fr with_fr with_avail]; rewrite !put_length, N3; exact L2]]]].
          intros j. rewrite (get_put O _ a (set_counters O (set_split O blank_node d v time) (counters n)) _ j) by (rewrite (get_put O _ a _ _ a A1); now rewrite Z.eqb_refl).
          unfold bumped. rewrite <- M3. destruct (Z.eqb_spec a j) as [->|Nj]; [reflexivity|]. rewrite (get_put O _ a _ _ j A1), (proj2 (Z.eqb_neq a j)) by congruence. change (get s3 j = get s j). rewrite G3. now rewrite (proj2 (Z.eqb_neq a j)) by congruence.
        + injection EP as <-. split; [|split; [cbn; congruence|split; [eapply same_trans; [exact Z|]; repeat split|split; [cbn; lia|cbn [Coarse_Model.fr with_avail]; rewrite N3; exact L2]]]].
          intros j. change (get (with_avail O s3 (avail s3 - 2)) j) with (get s3 j). rewrite G3. reflexivity. }
    destruct S5 as [G5 [R5 [S5 [V5 L5]]]].
    (* the new sibling *)
    destruct (insert_sibling _ _ _ _ _ _ _ _ EI) as [nb Hb5]. change (get s5 b = Ok nb) in Hb5.
    assert (Ab : a <> b /\ get s b = Ok blank_node).
    { destruct E as [[-> _]|[nb2 [Hb2 [Ab2 _]]]]; [unfold Coarse_Model.get in Hb5; rewrite rd_oob in Hb5 by lia; discriminate|]. rewrite G2 in Hb2. destruct (Z.eqb_spec a b) as [->|Nab].
      - injection Hb2 as <-. exfalso. assert (X : available (set_split O blank_node d v time) = false) by (apply used; auto). congruence.
      - split; [exact Nab|]. rewrite Hb2. f_equal. now apply (P6 b). }
    destruct Ab as [Nab Hb]. rewrite G5, (proj2 (Z.eqb_neq a b)), Hb in Hb5 by exact Nab. injection Hb5 as <-.
    assert (Free : forall j, In j (rest ++ cids t) -> j <> a /\ j <> b).
    { intros j Hj. split; intros ->; [apply (P4 a _ Ha0) in Hj|apply (P4 b _ Hb) in Hj]; rewrite blank_free in Hj; auto; discriminate. }
    assert (It : In (ctop t) (rest ++ cids t)) by (apply in_or_app; right; apply ctop_in). pose proof (Free _ It) as [Nta Ntb].
    pose proof (nodup_app _ _ _ P2) as [Nr [Nt Nrt]].
    assert (PP : (p = -1 /\ rd (roots (fr s5)) k = Ok (ctop t)) \/ (p <> -1 /\ p <> ctop t /\ p <> a /\ p <> b)).
    { destruct H4 as [[-> Hr]|[Np Ip]]; [left; rewrite R5; auto|right]. split; [exact Np|]. split; [intros ->; apply (Nrt (ctop t)); auto; apply ctop_in|]. apply Free, in_or_app. now left. }
    assert (Gi5 : rd (nodes (fr s5)) (ctop t) = Ok n). { specialize (G5 (ctop t)). rewrite (proj2 (Z.eqb_neq a (ctop t))) in G5 by congruence. unfold Coarse_Model.get in G5, Hn. congruence. }
    assert (Ga5 : rd (nodes (fr s5)) a = Ok na5). { specialize (G5 a). rewrite Z.eqb_refl in G5. exact G5. }
    assert (Gb5 : rd (nodes (fr s5)) b = Ok blank_node). { specialize (G5 b). rewrite (proj2 (Z.eqb_neq a b)) in G5 by exact Nab. unfold Coarse_Model.get in G5, Hb. congruence. }
    destruct (insert_inv O c (fr s5) (ctop t) k x label d up a b f6 n na5 blank_node p EI Gi5 Ga5 Gb5) as [na' [nb' [xd [D6 [R6 [W6 [L6 [Ex [I1 [I2 [I3 [I4 [I5 [I6 [I7 [I8 [I9 [I10 [I11 [I12 I13]]]]]]]]]]]]]]]]]]]]; auto.
    pose proof (rd_bounds _ _ _ _ Ha0) as Ba.
    set (s6 := with_fr O s5 f6).
    assert (G6 : forall j, get s6 j = if j =? b then Ok nb' else if j =? a then Ok na' else if j =? ctop t then Ok (set_parent O n a) else if j =? p then do m <- get s j; Ok (relink (ctop t) a m) else get s j).
    { intros j. unfold Coarse_Model.get at 1. cbn [Coarse_Model.fr with_fr s6]. rewrite D6. destruct (j =? b); [reflexivity|]. destruct (Z.eqb_spec j a) as [->|Nj]; [reflexivity|].
      specialize (G5 j). rewrite (proj2 (Z.eqb_neq a j)) in G5 by congruence. unfold Coarse_Model.get in G5. rewrite G5. reflexivity. }
    set (left := neq O xd up) in *. set (t' := fork_side O left a d v (inherited t) t (single b)).
    assert (Tt : ctop t' = a) by (unfold t', fork_side; destruct left; reflexivity).
    assert (Pt : Permutation (cids t') (a :: b :: cids t)).
    { unfold t', fork_side. destruct left; cbn [Coarse_Spec.cids Coarse_Train.single]; apply perm_skip; [symmetry; apply Permutation_cons_append|apply Permutation_refl]. }
    assert (Npos : forall j, In j (rest ++ cids t) -> j <> -1) by (intros j Hj; specialize (P3 j Hj); lia).
    assert (Tp : forall j, In j (cids t) -> j <> p). { intros j Hj ->. destruct H4 as [[-> _]|[_ Ip]]; [|now apply (Nrt p)]. apply (Npos (-1)); auto. apply in_or_app. now right. }
    assert (St : stored (fr s6) a t).
    { apply stored_reparent with (fr s) p n; auto.
      - change (get s6 (ctop t) = Ok (set_parent O n a)). rewrite G6, (proj2 (Z.eqb_neq (ctop t) b)), (proj2 (Z.eqb_neq (ctop t) a)), Z.eqb_refl by congruence. reflexivity.
      - intros j Hj Nj. change (get s6 j = get s j). destruct (Free j) as [Nja Njb]; [apply in_or_app; now right|]. rewrite G6. rewrite (proj2 (Z.eqb_neq j b)), (proj2 (Z.eqb_neq j a)), (proj2 (Z.eqb_neq j (ctop t))), (proj2 (Z.eqb_neq j p)) by auto. reflexivity. }
    assert (Sb : stored (fr s6) a (single b)).
    { exists nb'. split; [change (get s6 b = Ok nb'); rewrite G6, Z.eqb_refl; reflexivity|]. split; [exact I7|]. split.
      - rewrite I8. cbn [top_counters Coarse_Train.single]. unfold bumped, at_label. rewrite nth_repeat. reflexivity.
      - split; [rewrite I8, upd_length; apply repeat_length|]. split; [now rewrite I9|]. rewrite I10, I11, I12. auto. }
    assert (Na' : get s6 a = Ok na') by (rewrite G6, (proj2 (Z.eqb_neq a b)), Z.eqb_refl by exact Nab; reflexivity).
    assert (Lna : length (counters na') = Z.to_nat lc).
    { rewrite I2. unfold na5. cbn [Mondrian_Model.counters set_counters]. unfold Coarse_Train.inherited, bumped. destruct (kind =? EXTEND_ORIGINAL); [rewrite map_length; congruence|]. destruct (kind =? EXTEND_GHOST); [rewrite upd_length; congruence|apply repeat_length]. }
    assert (Ta : nlt O (tau na') (n_ 0) = false) by (rewrite I3; exact Ht).
    assert (St' : stored (fr s6) p t').
    { unfold t', fork_side. destruct left; exists na'; (split; [exact Na'|]); (split; [exact I1|]); (split; [exact I2|]); (split; [exact Lna|]); (split; [exact Ta|]);
        (split; [exact I4|]); (split; [exact Bd|]); (split; [exact I5|]); (split; [tauto|]); (split; [tauto|]); auto. }
    assert (Gr : forall j, In j rest -> get s6 j = if j =? p then do m <- get s j; Ok (relink (ctop t) (ctop t') m) else get s j).
    { intros j Hj. destruct (Free j) as [Nja Njb]; [apply in_or_app; now left|]. rewrite G6, Tt, (proj2 (Z.eqb_neq j b)), (proj2 (Z.eqb_neq j a)) by congruence.
      rewrite (proj2 (Z.eqb_neq j (ctop t))); [reflexivity|]. intros ->. apply (Nrt (ctop t)); auto. apply ctop_in. }
    exists a, b, d, v, left, t'. split; [reflexivity|]. split; [|split; [exact St|split; [|split; [rewrite <- Tt; apply ctop_in|lia]]]].
    - split; [exact St'|]. split; [|split; [exact Gr|split]].
      + apply cpool_perm with (a :: b :: rest ++ cids t).
        { rewrite Pt. transitivity (a :: rest ++ b :: cids t); [apply perm_skip, Permutation_middle|apply Permutation_middle]. }
        apply cpool_two with s; auto.
        * exists blank_node. split; [exact Ha0|now apply blank_free].
        * exists blank_node. split; [exact Hb|now apply blank_free].
        * exists na'. split; [exact Na'|apply used; auto].
        * exists nb'. split; [rewrite G6, Z.eqb_refl; reflexivity|apply used; auto; now rewrite I9].
        * intros j n' Nja Njb. rewrite G6, (proj2 (Z.eqb_neq j b)), (proj2 (Z.eqb_neq j a)) by congruence. destruct (Z.eqb_spec j (ctop t)) as [->|Njt].
          { intros X. injection X as <-. exists n. split; [exact Hn|]. split; [reflexivity|]. intros X. assert (Y : available n = false) by (apply used; auto). congruence. }
          destruct (Z.eqb_spec j p) as [->|Njp].
          { destruct H4 as [[-> _]|[Np Ip]]; [unfold Coarse_Model.get; rewrite rd_oob by lia; discriminate|]. destruct (get s p) as [m| | |] eqn:Gm; cbn [bind]; try discriminate.
            intros X. injection X as <-. exists m. destruct (relink_fields (ctop t) a m) as [F1 _]. split; [reflexivity|]. split; [unfold Mondrian_Model.available; now rewrite F1|].
            intros X. assert (Y : available m = false) by (apply (P4 p m Gm), in_or_app; now left). congruence. }
          intros X. exists n'. auto.
        * unfold s6. cbn [Coarse_Model.fr with_fr]. rewrite L6. exact L5.
      + unfold s6. cbn [Coarse_Model.fr with_fr]. rewrite R6, Tt, R5. reflexivity.
      + eapply same_trans; [exact S5|]. apply same_fr.
    - apply above_up with na'; [apply in_or_app; right; now left|exact Na'|exact Ta|]. rewrite I1. apply above_more.
      apply above_kept with s (fun j m => if j =? p then relink (ctop t) (ctop t') m else m); [| |exact H3].
      + intros j m Hm Hj. rewrite (Gr j Hj), Hm. cbn [bind]. now destruct (j =? p).
      + intros j m. destruct (j =? p); [|auto]. destruct (relink_fields (ctop t) (ctop t') m) as [F1 [F2 _]]. auto.
  Qed.

  Lemma update_box_inv : forall n n', update_box O fc n x = Ok n' -> exists lo hi, n' = set_box O n lo hi.
  Proof. intros n n' H. unfold update_box in H. inv_bind H. destruct v as [lo hi]. injection H as <-. eauto. Qed.

  Lemma extend_ok : forall steps, extends steps.
  Proof.
    induction steps as [|steps IH]; intros s p t rest D s' Bf H; [discriminate|]. rewrite extend_S in H. pose proof (descend_step steps IH) as Ds.
    pose proof Bf as [H1 [H2 [H3 [H4 H5]]]]. inv_bind H. rename v into n, E into Hn. inv_bind H. rename v into t0, E into Et. inv_bind H. destruct v as [probs sum]. rename E into Ed.
    assert (SD : exists e s0, draw_time O log_ rnd s sum = (e, s0) /\ nodes (fr s0) = nodes (fr s) /\ roots (fr s0) = roots (fr s) /\ avail s0 = avail s /\ same s s0).
    { unfold draw_time, Coarse_Model.uniform, Mondrian_Model.uniform. destruct (neq O sum (n_ 0)); eexists; eexists; (split; [reflexivity|]); repeat split. }
    destruct SD as [e [s0 [E0 [N0 [R0 [V0 S0]]]]]]. rewrite E0 in H. inv_bind H. rename v into paused, E into Ep.
    assert (Bf0 : before s0 p t rest D) by (apply before_same with s; auto; apply limit_same; auto).
    assert (Hn0 : get s0 (ctop t) = Ok n) by (unfold Coarse_Model.get in *; congruence).
    assert (Pos : forall j, In j rest -> 0 <= j) by (intros j Hj; destruct H2 as [_ [_ [P _]]]; apply P, in_or_app; now left).
    destruct (stored_node O c t (fr s) p H1) as [n0 [M1 [M2 [M3 [M4 [M5 M6]]]]]]. assert (n0 = n) by (unfold Coarse_Model.get in Hn; congruence). subst n0.
    pose proof (parent_time_ok s rest p D n t0 H3 Pos M2 Et) as Pt0.
    destruct (nle O (n_ 0) e && nlt O (nadd O t0 e) (tau n) && (2 <=? avail s0) && negb paused) eqn:Sp.
    - apply andb_prop in Sp. destruct Sp as [Sp Np]. apply andb_prop in Sp. destruct Sp as [Sp _]. apply andb_prop in Sp. destruct Sp as [Sp1 Sp2]. destruct paused; [discriminate|].
      inv_bind H. rename v into s1, E into E1. pose proof (pause_room _ _ _ _ _ Bf0 Ep) as Rm.
      apply split_above_ok with (p := p) (rest := rest) (D := D) in E1; auto; [|eapply (tl_add O L); eauto].
      destruct E1 as [a [b [d [v [left [t1 [Et1 [A1 [St [Ab [Ia Pa]]]]]]]]]]]. pose proof A1 as [B1 [B2 [B3 [B4 B5]]]].
      destruct (Z.eqb_spec kind EXTEND_COUNTER_NO_UPDATE) as [K|K].
      + assert (Pt : Permutation (cids t1) (a :: b :: cids t)).
        { rewrite Et1. unfold fork_side. destruct left; cbn [Coarse_Spec.cids Coarse_Train.single]; apply perm_skip; [symmetry; apply Permutation_cons_append|apply Permutation_refl]. }
        assert (Pp : Permutation ((rest ++ [a; b]) ++ cids t) (rest ++ cids t1)) by (rewrite <- app_assoc; apply Permutation_app_head; symmetry; exact Pt).
        assert (T1 : ctop t1 = a) by (rewrite Et1; unfold fork_side; destruct left; reflexivity).
        assert (Bf1 : before s1 a t (rest ++ [a; b]) (D + 1)).
        { split; [exact St|]. split; [eapply cpool_perm; [symmetry; exact Pp|exact B2]|]. split; [exact Ab|]. split; [right; split; [lia|apply in_or_app; right; now left]|]. rewrite (limit_same _ _ B5). now destruct Bf0 as [_ [_ [_ [_ X]]]]. }
        destruct (Ds s1 a t (rest ++ [a; b]) (D + 1) s' Bf1 H) as [t2 [G2 [C1 [C2 [C3 [C4 C5]]]]]]. pose proof (grown_top _ _ _ _ _ _ _ _ _ G2) as T2.
        exists (fork_side O left a d v (inherited t) t2 (single b)). split; [apply g_above_twice; auto|]. apply after_same with s0; auto.
        assert (Ga : forall j, In j (rest ++ [a; b]) -> get s' j = get s1 j).
        { intros j Hj. rewrite (C3 j Hj), T2. destruct (j =? a); [|reflexivity]. destruct (get s1 j); cbn [bind]; try reflexivity. now rewrite relink_same. }
        assert (Tf : ctop (fork_side O left a d v (inherited t) t2 (single b)) = a) by (unfold fork_side; destruct left; reflexivity).
        split; [|split; [|split; [|split]]].
        * assert (Sb : stored (fr s') a (single b)).
          { apply stored_frame with (fr s1). { intros j [<-|[]]. apply (Ga b). apply in_or_app. right. right. now left. }
            rewrite Et1 in B1. unfold fork_side in B1. destruct left; destruct B1 as [m [_ [_ [_ [_ [_ [_ [_ [_ [_ [_ [X Y]]]]]]]]]]]]; assumption. }
          pose proof (Ga a ltac:(apply in_or_app; right; now left)) as Gaa. unfold Coarse_Model.get in Gaa.
          rewrite Et1 in B1. unfold fork_side in *. destruct left; destruct B1 as [m [X1 [X2 [X3 [X4 [X5 [X6 [X7 [X8 [X9 [X10 [X11 X12]]]]]]]]]]]]; exists m; cbn [Coarse_Spec.ctop] in *;
            rewrite Gaa; repeat (split; [first [assumption|congruence]|]); auto.
        * eapply cpool_perm; [|exact C2]. rewrite <- app_assoc. apply Permutation_app_head. unfold fork_side. destruct left; cbn [Coarse_Spec.cids Coarse_Train.single app]; apply perm_skip; [apply Permutation_cons_append|apply Permutation_refl].
        * intros j Hj. rewrite (Ga j) by (apply in_or_app; now left). rewrite (B3 j Hj), Tf, T1. reflexivity.
        * rewrite C4, B4, Tf, T1. now rewrite (proj2 (Z.eqb_neq a (-1))) by lia.
        * eapply same_trans; eauto.
      + injection H as <-. exists t1. split; [rewrite Et1; apply g_above; auto|]. now apply after_same with s0.
    - clear Sp. destruct ((kind =? EXTEND_ORIGINAL) || nlt O e (n_ 0) || nlt O (tau n) (nadd O t0 e)) eqn:Up.
      + inv_bind H. rename v into s1, E into E1. apply change_inv in E1. destruct E1 as [m [m' [Q1 [Q2 ->]]]]. assert (m = n) by congruence. subst m. apply update_box_inv in Q2. destruct Q2 as [lo [hi ->]].
        destruct (change_box s0 p t rest D n lo hi Bf0 Hn0) as [Bf1 [Gr [R1 S1]]]. destruct (Ds _ p t rest D s' Bf1 H) as [t' [G A]]. exists t'. split; [now apply g_enter|].
        destruct A as [B1 [B2 [B3 [B4 B5]]]]. apply after_same with s0; auto. split; [exact B1|]. split; [exact B2|]. split; [|split; [exact B4|eapply same_trans; [exact S1|exact B5]]].
        intros j Hj. rewrite (B3 j Hj), (Gr j Hj). reflexivity.
      + apply orb_false_elim in Up. destruct Up as [Up _]. apply orb_false_elim in Up. destruct Up as [Ko _]. apply Z.eqb_neq in Ko.
        destruct (Z.eqb_spec kind EXTEND_GHOST) as [K|K].
        * destruct (add_leaf_top _ _ _ _ _ _ Bf0 H) as [A _]. exists (bump_top O label t). split; [now apply g_ghost|now apply after_same with s0].
        * destruct (Z.eqb_spec kind EXTEND_COUNTER_NO_UPDATE) as [K'|K'].
          { destruct (Ds s0 p t rest D s' Bf0 H) as [t' [G A]]. exists t'. split; [now apply g_enter|now apply after_same with s0]. }
          injection H as <-. exists t. split; [now apply g_lost|]. apply after_same with s0; auto. eapply after_refl; eauto.
  Qed.
End Train.
