(** * Proofs for the coarse Mondrian forest: the walks around a subtree *)
From Coq Require Import ZArith List Bool Lia Permutation.
From Verif Require Import CppBase CppFacts NumOps Mondrian_Model Mondrian_Spec Mondrian_Proofs Coarse_Model Coarse_Spec Coarse_Heap.
Import ListNotations.
Local Open Scope Z_scope.

Section Walk.
  Variable O : ops.
  Variable c : config O.
  Hypothesis L : tlaws O.
  Local Notation n_ := (nofZ O).
  Local Notation node := (node O).
  Local Notation forest := (forest O).
  Local Notation coarse := (coarse O).
  Local Notation fr := (fr O).
  Local Notation nodes := (nodes O).
  Local Notation roots := (roots O).
  Local Notation get := (get O).
  Local Notation put := (put O).
  Local Notation avail := (avail O).
  Local Notation tau := (tau O).
  Local Notation available := (available O).
  Local Notation counters := (counters O).
  Local Notation fc := (c_features O c).
  Local Notation lc := (c_labels O c).
  Local Notation nc := (c_nodes O c).
  Local Notation ctree := (ctree O).
  Local Notation ctop := (ctop O).
  Local Notation cids := (cids O).
  Local Notation height := (height O).
  Local Notation stored := (stored O fc lc).
  Local Notation blank_node := (blank_node O c).

  Definition csize (t : ctree) : Z := Z.of_nat (length (cids t)).
  Lemma csize_fork : forall i d v cs l r, csize (CFork i d v cs l r) = 1 + csize l + csize r.
  Proof. intros. unfold csize. cbn [Coarse_Spec.cids length]. rewrite app_length. lia. Qed.
  Lemma csize_pos : forall t, 1 <= csize t.
  Proof. intros [i cs|i d v cs l r]; unfold csize; cbn [Coarse_Spec.cids length]; lia. Qed.
  Lemma height_pos : forall t, 1 <= height t.
  Proof. induction t; cbn [Coarse_Spec.height]; lia. Qed.

  (** Only the links between the nodes. *)
  Fixpoint shape (f : forest) (p : Z) (t : ctree) : Prop :=
    exists n, rd (nodes f) (ctop t) = Ok n /\ parent O n = p /\
      match t with
      | CLeaf _ _ => is_leaf O n = true
      | CFork i _ _ _ l r => is_leaf O n = false /\ child_left O n = ctop l /\ child_right O n = ctop r /\ shape f i l /\ shape f i r
      end.
  Lemma stored_shape : forall t f p, stored f p t -> shape f p t.
  Proof.
    induction t as [i cs|i d v cs l IHl r IHr]; intros f p [n [H1 [H2 [H3 [H4 [H5 H6]]]]]]; exists n; (split; [exact H1|]); (split; [exact H2|]); unfold is_leaf.
    - apply Z.eqb_eq. tauto.
    - destruct H6 as [A1 [A2 [A3 [A4 [A5 [A6 A7]]]]]]. split; [apply Z.eqb_neq; lia|]. auto.
  Qed.
  Definition linked (f f' : forest) : Prop :=
    forall j n, rd (nodes f) j = Ok n -> exists n', rd (nodes f') j = Ok n' /\ split_dimension O n' = split_dimension O n /\ parent O n' = parent O n /\
      child_left O n' = child_left O n /\ child_right O n' = child_right O n.
  Lemma linked_refl : forall f, linked f f.
  Proof. intros f j n H. eauto 8. Qed.
  Lemma linked_trans : forall a b d, linked a b -> linked b d -> linked a d.
  Proof.
    intros a b d H1 H2 j n H. destruct (H1 j n H) as [m [M1 [M2 [M3 [M4 M5]]]]]. destruct (H2 j m M1) as [k [K1 [K2 [K3 [K4 K5]]]]].
    exists k. repeat split; congruence.
  Qed.
  Lemma shape_linked : forall t f f' p, linked f f' -> shape f p t -> shape f' p t.
  Proof.
    induction t as [i cs|i d v cs l IHl r IHr]; intros f f' p K [n [H1 [H2 H3]]]; destruct (K _ _ H1) as [m [M1 [M2 [M3 [M4 M5]]]]]; exists m; (split; [exact M1|]); (split; [congruence|]);
      unfold is_leaf in *; rewrite M2; [exact H3|].
    destruct H3 as [A1 [A2 [A3 [A4 A5]]]]. split; [exact A1|]. split; [congruence|]. split; [congruence|]. split; [now apply IHl with f|now apply IHr with f].
  Qed.

  (** ** Depth *)
  Definition clear (stack : list Z) (d : Z) : Prop := forall q v, d <= q -> rd stack q = Ok v -> v = -1.
  Lemma clear_upd : forall stack d v, 0 <= d < Z.of_nat (length stack) -> clear stack (d + 1) -> clear (upd stack (Z.to_nat d) v) (d + 1).
  Proof. intros stack d v B C q w Hq. rewrite rd_upd by lia. rewrite (proj2 (Z.eqb_neq d q)) by lia. apply C. lia. Qed.
  Lemma clear_next : forall stack d, clear stack d -> clear stack (d + 1).
  Proof. intros stack d C q w Hq. apply C. lia. Qed.
  Lemma upd_back : forall (stack : list Z) d a b w, rd stack d = Ok w -> upd (upd (upd stack (Z.to_nat d) a) (Z.to_nat d) b) (Z.to_nat d) w = stack.
  Proof. intros. rewrite !upd_upd. apply upd_same_id. apply rd_ok_iff in H. tauto. Qed.
  Lemma clear_repeat : forall n d, clear (repeat (-1) n) d.
  Proof. intros n d q v _ H. apply rd_ok_iff in H. destruct H as [_ H]. apply nth_error_In, repeat_spec in H. exact H. Qed.
  Lemma rd_stack : forall (stack : list Z) d v, 0 <= d < Z.of_nat (length stack) -> rd (upd stack (Z.to_nat d) v) d = Ok v.
  Proof. intros. rewrite rd_upd by lia. now rewrite Z.eqb_refl. Qed.

  Lemma depth_partial : forall t s p depth maxd i stack steps r, shape (fr s) p t -> 0 <= depth -> clear stack depth -> i + csize t <= nc ->
    depth_walk O c steps s (ctop t) depth maxd i stack = Ok r ->
    exists steps', depth_walk O c steps' s p (depth - 1) (Z.max maxd (depth + height t - 1)) (i + csize t) stack = Ok r.
  Proof.
    induction t as [j cs|j d v cs l IHl r IHr]; intros s p depth maxd i stack steps R [n [H1 [H2 H3]]] Hd C Hi H; (destruct steps as [|steps]; [discriminate|]); cbn [depth_walk] in H;
      pose proof (csize_pos (CLeaf j cs)) as S0.
    - unfold csize in Hi. cbn [Coarse_Spec.cids length] in Hi. rewrite (proj2 (Z.ltb_lt i nc)), (proj2 (Z.leb_le 0 depth)) in H by lia. cbn [andb] in H.
      unfold Coarse_Model.get in H. cbn [Coarse_Spec.ctop] in *. rewrite H1 in H. cbn [bind] in H. rewrite H3, H2 in H. exists steps.
      unfold csize. cbn [Coarse_Spec.cids length Coarse_Spec.height]. replace (Z.max maxd (depth + 1 - 1)) with (if maxd <? depth then depth else maxd); [exact H|].
      destruct (Z.ltb_spec maxd depth); lia.
    - rewrite csize_fork in Hi |- *. pose proof (csize_pos l) as Sl. pose proof (csize_pos r) as Sr. destruct H3 as [A1 [A2 [A3 [A4 A5]]]]. cbn [Coarse_Spec.ctop] in *.
      assert (G : get s j = Ok n) by exact H1.
      rewrite (proj2 (Z.ltb_lt i nc)), (proj2 (Z.leb_le 0 depth)), G in H by lia. cbn [andb bind] in H. rewrite A1 in H. inv_bind H. pose proof E as E0. apply C in E0; [|lia]. subst v0. cbn [Z.eqb] in H.
      pose proof (rd_bounds _ _ _ _ E) as Bd. rewrite wr_ok in H by exact Bd. cbn [bind] in H. rewrite A3 in H.
      apply IHr with (p := j) in H; [|exact A5|lia|apply clear_upd; [lia|now apply clear_next]|lia]. destruct H as [st1 H]. replace (depth + 1 - 1) with depth in H by lia.
      destruct st1 as [|st1]; [discriminate|]. cbn [depth_walk] in H. rewrite (proj2 (Z.ltb_lt (i + csize r) nc)), (proj2 (Z.leb_le 0 depth)), G in H by lia. cbn [andb bind] in H. rewrite A1 in H.
      rewrite rd_stack in H by lia. cbn [bind] in H. change (0 =? -1) with false in H. change (0 =? 0) with true in H. cbn match in H.
      rewrite wr_ok in H by (rewrite upd_length; lia). cbn [bind] in H. rewrite A2 in H.
      apply IHl with (p := j) in H; [|exact A4|lia| |lia].
      2:{ apply clear_upd; [rewrite upd_length; lia|]. apply clear_upd; [lia|]. now apply clear_next. }
      destruct H as [st2 H]. replace (depth + 1 - 1) with depth in H by lia.
      destruct st2 as [|st2]; [discriminate|]. cbn [depth_walk] in H. rewrite (proj2 (Z.ltb_lt _ nc)), (proj2 (Z.leb_le 0 depth)), G in H by lia. cbn [andb bind] in H. rewrite A1 in H.
      rewrite rd_stack in H by (rewrite upd_length; lia). cbn [bind] in H. change (1 =? -1) with false in H. change (1 =? 0) with false in H. change (1 =? 1) with true in H. cbn match in H.
      rewrite wr_ok in H by (rewrite !upd_length; lia). cbn [bind] in H. rewrite H2, (upd_back stack depth 0 1 (-1) E) in H. exists st2.
      cbn [Coarse_Spec.height]. replace (Z.max maxd _) with (Z.max (Z.max maxd (depth + 1 + height r - 1)) (depth + 1 + height l - 1)) by (pose proof (height_pos l); pose proof (height_pos r); lia).
      replace (i + (1 + csize l + csize r)) with (i + csize r + csize l + 1) by lia. exact H.
  Qed.
  Lemma node_depth_inv : forall t s p h k, shape (fr s) p t -> csize t <= nc -> node_depth O c s (ctop t) = Ok (h, k) -> h = height t /\ k = csize t.
  Proof.
    intros t s p h k T Sz H. unfold node_depth in H. apply depth_partial with (p := p) in H; [|exact T|lia|apply clear_repeat|lia].
    destruct H as [st H]. destruct st as [|st]; [discriminate|]. cbn [depth_walk] in H. change (0 <=? 0 - 1) with false in H. rewrite andb_false_r in H.
    injection H as <- <-. pose proof (height_pos t). split; lia.
  Qed.

  (** The nodes from [p] up to the root, [d] of them, all in [rest]. *)
  Inductive above (f : forest) (rest : list Z) : Z -> Z -> Prop :=
  | above_root : above f rest (-1) 0
  | above_up : forall p n d, In p rest -> rd (nodes f) p = Ok n -> nlt O (tau n) (n_ 0) = false -> above f rest (parent O n) d -> above f rest p (d + 1).
  Lemma above_nonneg : forall f rest p d, above f rest p d -> 0 <= d.
  Proof. intros f rest p d H. induction H; lia. Qed.
  Lemma climb_above : forall s rest p d, above (fr s) rest p d -> forall i n steps count r, get s i = Ok n -> parent O n = p ->
    climb O steps s i count = Ok r -> r = count + d.
  Proof.
    intros s rest p d H. induction H as [|p m d I Hm Ht Ha IH]; intros i n steps count r Hi Hp E; (destruct steps as [|steps]; [discriminate|]); cbn [climb] in E;
      rewrite Hi in E; cbn [bind] in E; rewrite Hp in E.
    - cbn in E. injection E as <-. lia.
    - pose proof (rd_bounds _ _ _ _ Hm) as B. rewrite (proj2 (Z.eqb_neq p (-1))) in E by lia. apply (IH p m) in E; auto. lia.
  Qed.

  (** ** The shared walk *)
  Section Visit.
    Variable A : Type.
    Variable visit : coarse -> Z -> A -> res (coarse * A).
    Hypothesis keeps : forall s i a s' a', visit s i a = Ok (s', a') -> linked (fr s) (fr s').
    (** Leaves from right to left. *)
    Fixpoint rleaves (t : ctree) : list Z := match t with CLeaf i _ => [i] | CFork _ _ _ _ l r => rleaves r ++ rleaves l end.
    Fixpoint vfold (js : list Z) (s : coarse) (a : A) : res (coarse * A) :=
      match js with [] => Ok (s, a) | j :: js => do (s, a) <- visit s j a; vfold js s a end.
    Lemma vfold_app : forall a b s x, vfold (a ++ b) s x = do (s, x) <- vfold a s x; vfold b s x.
    Proof. induction a as [|j a IH]; intros b s x; cbn [vfold app]; [reflexivity|]. destruct (visit s j x) as [[s1 x1]| | |]; cbn [bind]; auto. Qed.
    Lemma vfold_linked : forall js s a s' a', vfold js s a = Ok (s', a') -> linked (fr s) (fr s').
    Proof.
      induction js as [|j js IH]; intros s a s' a' H; cbn [vfold] in H; [injection H as <- <-; apply linked_refl|]. inv_bind H. destruct v as [s1 a1].
      apply linked_trans with (fr s1); [eapply keeps; eauto|eapply IH; eauto].
    Qed.
    Lemma walk_partial : forall t s p start depth i stack a steps r, shape (fr s) p t -> 0 <= depth -> clear stack depth -> 0 <= i -> i + csize t <= nc ->
      (forall j, In j (cids t) -> 0 <= j) -> (forall b, start = Some b -> ~ In b (cids t)) ->
      walk O c visit start steps s (ctop t) depth i stack a = Ok r ->
      100 <= fst r \/ exists steps' s' a', vfold (rleaves t) s a = Ok (s', a') /\ walk O c visit start steps' s' p (depth - 1) (i + csize t) stack a' = Ok r.
    Proof.
      induction t as [j cs|j d v cs l IHl r IHr]; intros s p start depth i stack a steps R T Hd C Hi0 Hi B St H; pose proof T as [n [H1 [H2 H3]]]; (destruct steps as [|steps]; [discriminate|]); cbn [walk] in H;
        pose proof (B _ (ctop_in O _)) as B0; cbn [Coarse_Spec.ctop] in *.
      - unfold csize in Hi. cbn [Coarse_Spec.cids length] in Hi. assert (G : get s j = Ok n) by exact H1.
        rewrite (proj2 (Z.ltb_lt i nc)), (proj2 (Z.leb_le 0 j)), G in H by lia. cbn [andb bind] in H. rewrite H3 in H. inv_bind H. apply wr_inv in E. destruct E as [Bd ->].
        assert (Sk : upd stack (Z.to_nat depth) (-1) = stack).
        { destruct (rd_in_bounds _ stack depth Bd) as [w Hw]. pose proof (C _ _ (Z.le_refl depth) Hw) as ->. apply rd_ok_iff in Hw. apply upd_same_id. tauto. }
        rewrite Sk in H. inv_bind H. destruct v as [s1 a1].
        assert (Ns : match start with Some b => j =? b | None => false end = false).
        { destruct start as [b|]; [|reflexivity]. apply Z.eqb_neq. intros ->. apply (St b eq_refl). now left. }
        rewrite Ns in H. destruct (Z.leb_spec max_stack_size (depth - 1)) as [X|X].
        + injection H as <-. left. unfold max_stack_size in X. cbn [fst]. lia.
        + right. exists steps, s1, a1. cbn [rleaves vfold]. rewrite E. cbn [bind]. split; [reflexivity|]. rewrite H2 in H. unfold csize. cbn [Coarse_Spec.cids length]. exact H.
      - rewrite csize_fork in Hi |- *. pose proof (csize_pos l) as Sl. pose proof (csize_pos r) as Sr. destruct H3 as [A1 [A2 [A3 [A4 A5]]]]. cbn [Coarse_Spec.ctop] in *.
        assert (G : get s j = Ok n) by exact H1.
        assert (Bl : forall k, In k (cids l) -> 0 <= k) by (intros k Hk; apply B; right; apply in_or_app; now left).
        assert (Br : forall k, In k (cids r) -> 0 <= k) by (intros k Hk; apply B; right; apply in_or_app; now right).
        assert (Sl' : forall b, start = Some b -> ~ In b (cids l)) by (intros b Hb I; apply (St b Hb); right; apply in_or_app; now left).
        assert (Sr' : forall b, start = Some b -> ~ In b (cids r)) by (intros b Hb I; apply (St b Hb); right; apply in_or_app; now right).
        rewrite (proj2 (Z.ltb_lt i nc)), (proj2 (Z.leb_le 0 j)), G in H by lia. cbn [andb bind] in H. rewrite A1 in H. inv_bind H. pose proof E as E0. apply C in E0; [|lia]. subst v0. cbn [Z.eqb] in H.
        pose proof (rd_bounds _ _ _ _ E) as Bd. rewrite wr_ok in H by exact Bd. cbn [bind] in H. rewrite A3 in H.
        destruct (Z.leb_spec max_stack_size (depth + 1)) as [X|X]; [injection H as <-; left; unfold max_stack_size in X; cbn [fst]; lia|].
        apply IHr with (p := j) in H; auto; [|lia|apply clear_upd; [lia|now apply clear_next]|lia]. destruct H as [H|[st1 [s1 [a1 [V1 H]]]]]; [now left|].
        replace (depth + 1 - 1) with depth in H by lia. pose proof (vfold_linked _ _ _ _ _ V1) as K1.
        destruct (K1 j n H1) as [n1 [N1 [N2 [N3 [N4 N5]]]]]. assert (G1 : get s1 j = Ok n1) by exact N1. assert (F1 : is_leaf O n1 = false) by (unfold is_leaf in *; now rewrite N2).
        destruct st1 as [|st1]; [discriminate|]. cbn [walk] in H. rewrite (proj2 (Z.ltb_lt (i + csize r) nc)), (proj2 (Z.leb_le 0 j)), G1 in H by lia. cbn [andb bind] in H. rewrite F1 in H.
        rewrite rd_stack in H by lia. cbn [bind] in H. change (0 =? -1) with false in H. change (0 =? 0) with true in H. cbn match in H.
        rewrite wr_ok in H by (rewrite upd_length; lia). cbn [bind] in H. rewrite N4, A2 in H.
        destruct (Z.leb_spec max_stack_size (depth + 1)) as [X'|_]; [lia|].
        apply IHl with (p := j) in H; auto; [|now apply shape_linked with (fr s)|lia| |lia|lia].
        2:{ apply clear_upd; [rewrite upd_length; lia|]. apply clear_upd; [lia|]. now apply clear_next. }
        destruct H as [H|[st2 [s2 [a2 [V2 H]]]]]; [now left|]. replace (depth + 1 - 1) with depth in H by lia. pose proof (vfold_linked _ _ _ _ _ V2) as K2.
        destruct (K2 j n1 N1) as [n2 [M1 [M2 [M3 [M4 M5]]]]]. assert (G2 : get s2 j = Ok n2) by exact M1. assert (F2 : is_leaf O n2 = false) by (unfold is_leaf in *; now rewrite M2).
        destruct st2 as [|st2]; [discriminate|]. cbn [walk] in H. rewrite (proj2 (Z.ltb_lt _ nc)), (proj2 (Z.leb_le 0 j)), G2 in H by lia. cbn [andb bind] in H. rewrite F2 in H.
        rewrite rd_stack in H by (rewrite upd_length; lia). cbn [bind] in H. change (1 =? -1) with false in H. change (1 =? 0) with false in H. change (1 =? 1) with true in H. cbn match in H.
        rewrite wr_ok in H by (rewrite !upd_length; lia). cbn [bind] in H. rewrite M3, N3, H2, (upd_back stack depth 0 1 (-1) E) in H.
        assert (Ns : match start with Some b => j =? b | None => false end = false).
        { destruct start as [b|]; [|reflexivity]. apply Z.eqb_neq. intros ->. apply (St b eq_refl). now left. }
        rewrite Ns in H. right. exists st2, s2, a2. cbn [rleaves]. rewrite vfold_app, V1. cbn [bind]. split; [exact V2|].
        replace (i + (1 + csize l + csize r)) with (i + csize r + csize l + 1) by lia. exact H.
    Qed.
    (** The walk around a whole tree. *)
    Lemma walk_root : forall t s a r, shape (fr s) (-1) t -> csize t <= nc -> (forall j, In j (cids t) -> 0 <= j) ->
      walk_from O c visit None s (ctop t) a = Ok r -> 100 <= fst r \/ (fst r = -1 /\ vfold (rleaves t) s a = Ok (snd r)).
    Proof.
      intros t s a r T Sz B H. unfold walk_from in H. apply walk_partial with (p := -1) in H; auto; [|lia|apply clear_repeat|lia|discriminate].
      destruct H as [H|[st [s' [a' [V H]]]]]; [now left|]. right. destruct st as [|st]; [discriminate|]. cbn [walk] in H. change (0 <=? -1) with false in H. rewrite andb_false_r in H.
      injection H as <-. auto.
    Qed.
    (** The walk that stops at its first node. *)
    Lemma walk_start : forall t s p a r, shape (fr s) p t -> csize t <= nc -> (forall j, In j (cids t) -> 0 <= j) -> NoDup (cids t) ->
      walk_from O c visit (Some (ctop t)) s (ctop t) a = Ok r -> 100 <= fst r \/ (fst r = -1 /\ vfold (rleaves t) s a = Ok (snd r)).
    Proof.
      intros t s p a r T Sz B ND H. unfold walk_from in H. unfold fuel in H.
      pose proof (clear_repeat (Z.to_nat max_stack_size) 0) as C. set (stack := repeat (-1) (Z.to_nat max_stack_size)) in *.
      pose proof (B _ (ctop_in O _)) as B0. destruct t as [j cs|j d v cs l r']; destruct T as [n [H1 [H2 H3]]]; cbn [walk] in H; cbn [Coarse_Spec.ctop] in *.
      - unfold csize in Sz. cbn [Coarse_Spec.cids length] in Sz. assert (G : get s j = Ok n) by exact H1.
        rewrite (proj2 (Z.ltb_lt 0 nc)), (proj2 (Z.leb_le 0 j)), G in H by lia. cbn [andb bind] in H. rewrite H3 in H. inv_bind H. inv_bind H. destruct v0 as [s1 a1].
        rewrite Z.eqb_refl in H. injection H as <-. right. split; [reflexivity|]. cbn [rleaves vfold snd]. rewrite E0. reflexivity.
      - rewrite csize_fork in Sz. pose proof (csize_pos l) as Sl. pose proof (csize_pos r') as Sr. destruct H3 as [A1 [A2 [A3 [A4 A5]]]].
        assert (G : get s j = Ok n) by exact H1. cbn [Coarse_Spec.cids] in ND. inversion ND as [|? ? Nj ND']; subst.
        assert (Bl : forall k, In k (cids l) -> 0 <= k) by (intros k Hk; apply B; right; apply in_or_app; now left).
        assert (Br : forall k, In k (cids r') -> 0 <= k) by (intros k Hk; apply B; right; apply in_or_app; now right).
        assert (Sl' : forall b, Some j = Some b -> ~ In b (cids l)) by (intros b Hb I; injection Hb as <-; apply Nj, in_or_app; now left).
        assert (Sr' : forall b, Some j = Some b -> ~ In b (cids r')) by (intros b Hb I; injection Hb as <-; apply Nj, in_or_app; now right).
        rewrite (proj2 (Z.ltb_lt 0 nc)), (proj2 (Z.leb_le 0 j)), G in H by lia. cbn [andb bind] in H. rewrite A1 in H. inv_bind H. pose proof E as E0. apply C in E0; [|lia]. subst v0. cbn [Z.eqb] in H.
        pose proof (rd_bounds _ _ _ _ E) as Bd. rewrite wr_ok in H by exact Bd. cbn [bind] in H. rewrite A3 in H.
        destruct (Z.leb_spec max_stack_size (0 + 1)) as [X|X]; [unfold max_stack_size in X; lia|].
        apply walk_partial with (p := j) in H; auto; [|lia|apply clear_upd; [lia|now apply clear_next]|lia|lia]. destruct H as [H|[st1 [s1 [a1 [V1 H]]]]]; [now left|].
        replace (0 + 1 - 1) with 0 in H by lia. pose proof (vfold_linked _ _ _ _ _ V1) as K1.
        destruct (K1 j n H1) as [n1 [N1 [N2 [N3 [N4 N5]]]]]. assert (G1 : get s1 j = Ok n1) by exact N1. assert (F1 : is_leaf O n1 = false) by (unfold is_leaf in *; now rewrite N2).
        destruct st1 as [|st1]; [discriminate|]. cbn [walk] in H. rewrite (proj2 (Z.ltb_lt (0 + csize r') nc)), (proj2 (Z.leb_le 0 j)), G1 in H by lia. cbn [andb bind] in H. rewrite F1 in H.
        rewrite rd_stack in H by lia. cbn [bind] in H. change (0 =? -1) with false in H. change (0 =? 0) with true in H. cbn match in H.
        rewrite wr_ok in H by (rewrite upd_length; lia). cbn [bind] in H. rewrite N4, A2 in H.
        destruct (Z.leb_spec max_stack_size (0 + 1)) as [X'|_]; [lia|].
        apply walk_partial with (p := j) in H; auto; [|now apply shape_linked with (fr s)|lia| |lia|lia].
        2:{ apply clear_upd; [rewrite upd_length; lia|]. apply clear_upd; [lia|]. now apply clear_next. }
        destruct H as [H|[st2 [s2 [a2 [V2 H]]]]]; [now left|]. replace (0 + 1 - 1) with 0 in H by lia. pose proof (vfold_linked _ _ _ _ _ V2) as K2.
        destruct (K2 j n1 N1) as [n2 [M1 [M2 [M3 [M4 M5]]]]]. assert (G2 : get s2 j = Ok n2) by exact M1. assert (F2 : is_leaf O n2 = false) by (unfold is_leaf in *; now rewrite M2).
        destruct st2 as [|st2]; [discriminate|]. cbn [walk] in H. rewrite (proj2 (Z.ltb_lt _ nc)), (proj2 (Z.leb_le 0 j)), G2 in H by lia. cbn [andb bind] in H. rewrite F2 in H.
        rewrite rd_stack in H by (rewrite upd_length; lia). cbn [bind] in H. change (1 =? -1) with false in H. change (1 =? 0) with false in H. change (1 =? 1) with true in H. cbn match in H.
        rewrite wr_ok in H by (rewrite !upd_length; lia). cbn [bind] in H. rewrite Z.eqb_refl in H. injection H as <-. right. split; [reflexivity|].
        cbn [rleaves]. rewrite vfold_app, V1. exact V2.
    Qed.
    (** What every visit keeps, the walk keeps. *)
    Lemma walk_keeps : forall (Q : coarse -> coarse -> Prop), (forall s, Q s s) -> (forall a b d, Q a b -> Q b d -> Q a d) ->
      (forall s i a s' a', visit s i a = Ok (s', a') -> Q s s') ->
      forall start steps s i d k stack a r, walk O c visit start steps s i d k stack a = Ok r -> Q s (fst (snd r)).
    Proof.
      intros Q Q1 Q2 Q3 start. induction steps as [|steps IH]; intros s i d k stack a r H; cbn [walk] in H; [discriminate|].
      destruct (_ && _); [|injection H as <-; apply Q1]. inv_bind H. destruct (is_leaf O v).
      - inv_bind H. inv_bind H. destruct v1 as [s1 a1]. apply Q3 in E1. destruct (match start with Some b => _ | None => _ end); [injection H as <-; exact E1|].
        destruct (_ <=? _); [injection H as <-; exact E1|]. apply IH in H. eapply Q2; eauto.
      - inv_bind H. destruct (v0 =? -1); [|destruct (v0 =? 0); [|destruct (v0 =? 1)]].
        + inv_bind H. destruct (_ <=? _); [injection H as <-; apply Q1|now apply IH in H].
        + inv_bind H. destruct (_ <=? _); [injection H as <-; apply Q1|now apply IH in H].
        + inv_bind H. destruct (match start with Some b => _ | None => _ end); [injection H as <-; apply Q1|now apply IH in H].
        + now apply IH in H.
    Qed.
  End Visit.
  Lemma rleaves_leaves : forall t, rleaves t = rev (map fst (cleaves O t)).
  Proof. induction t as [i cs|i d v cs l IHl r IHr]; cbn [rleaves cleaves map rev app]; [reflexivity|]. now rewrite map_app, rev_app_distr, IHl, IHr. Qed.

  (** ** Freeing a subtree *)
  Definition freed (s s' : coarse) (u : list Z) : Prop :=
    avail s' = avail s + Z.of_nat (length u) /\ (forall j, In j u -> get s' j = Ok blank_node) /\ (forall j, ~ In j u -> get s' j = get s j) /\
    length (nodes (fr s')) = length (nodes (fr s)) /\ roots (fr s') = roots (fr s) /\ drawn O (fr s') = drawn O (fr s) /\ last O s' = last O s /\ same O s s'.
  Lemma freed_trans : forall a b d u w, freed a b u -> freed b d w -> freed a d (u ++ w).
  Proof.
    intros a b d u w [H1 [H2 [H3 [H4 [H5 [H6 [H7 H8]]]]]]] [G1 [G2 [G3 [G4 [G5 [G6 [G7 G8]]]]]]]. split; [rewrite app_length; lia|].
    split. { intros j Hj. apply in_app_or in Hj. destruct (in_dec Z.eq_dec j w) as [I|I]; [now apply G2|]. rewrite G3 by exact I. apply H2. tauto. }
    split. { intros j Hj. rewrite G3, H3; auto; intros I; apply Hj, in_or_app; tauto. }
    repeat (split; [congruence|]). eapply same_trans; eauto.
  Qed.
  Lemma freed_perm : forall a b u w, Permutation u w -> freed a b u -> freed a b w.
  Proof.
    intros a b u w P [H1 [H2 [H3 H4]]]. pose proof (Permutation_sym P) as Q. split; [now rewrite <- (Permutation_length P)|]. split; [|split; [|exact H4]].
    - intros j Hj. apply H2. now apply Permutation_in with w.
    - intros j Hj. apply H3. intros I. apply Hj. now apply Permutation_in with u.
  Qed.
  (** The three arrays of the nodes have the same length. *)
  Definition arrays (s : coarse) : Prop := Z.of_nat (length (nodes (fr s))) = nc /\ Z.of_nat (length (forced O s)) = nc /\ Z.of_nat (length (fading O s)) = nc.
  Lemma arrays_freed : forall s s' u, freed s s' u -> arrays s -> arrays s'.
  Proof. intros s s' u [_ [_ [_ [H1 [_ [_ [_ H2]]]]]]] [A1 [A2 A3]]. unfold same in H2. unfold arrays. repeat split; intuition congruence. Qed.
  Lemma reset_one : forall s i n, arrays s -> get s i = Ok n -> exists s', reset_node O c (with_avail O s (avail s + 1)) i = Ok s' /\ freed s s' [i].
  Proof.
    intros s i n [A1 [A2 A3]] G. pose proof (rd_bounds _ _ _ _ G) as B. unfold reset_node, change. cbn [Coarse_Model.fr with_avail].
    erewrite with_node_ok; [|exact G|reflexivity]. cbn [bind Coarse_Model.forced Coarse_Model.fading with_fr with_avail]. rewrite !wr_ok by lia. cbn [bind].
    eexists. split; [reflexivity|]. split; [cbn; lia|]. split; [|split; [|split; [|split; [|split; [|split]]]]].
    - intros j [<-|[]]. unfold Coarse_Model.get. cbn [Coarse_Model.fr with_fading with_forced with_fr]. rewrite rd_put with (m := n) by exact G. now rewrite Z.eqb_refl.
    - intros j Hj. unfold Coarse_Model.get. cbn [Coarse_Model.fr with_fading with_forced with_fr]. rewrite rd_put with (m := n) by exact G.
      rewrite (proj2 (Z.eqb_neq i j)); [reflexivity|]. intros ->. apply Hj. now left.
    - cbn. now rewrite upd_length.
    - reflexivity.
    - reflexivity.
    - reflexivity.
    - repeat split; cbn; now rewrite upd_length.
  Qed.
  Fixpoint cost (t : ctree) : nat := match t with CLeaf _ _ => 1%nat | CFork _ _ _ _ l r => (3 + cost r + cost l)%nat end.
  Lemma cost_size : forall t, Z.of_nat (cost t) <= 3 * csize t - 2.
  Proof. induction t as [i cs|i d v cs l IHl r IHr]; cbn [cost]; [unfold csize; cbn; lia|]. rewrite csize_fork. lia. Qed.
  Lemma reset_inner : forall t s p root depth i stack, shape (fr s) p t -> arrays s -> NoDup (cids t) -> 0 <= depth -> depth + height t <= 100 -> length stack = 100%nat -> clear stack depth ->
    0 <= i -> i + csize t <= nc -> ~ In root (cids t) ->
    exists s', freed s s' (cids t) /\ forall k, reset_walk O c root (cost t + k) s (ctop t) depth i stack = reset_walk O c root k s' p (depth - 1) (i + csize t) stack.
  Proof.
    induction t as [j cs|j d v cs l IHl r IHr]; intros s p root depth i stack T Ar ND Hd Hh Ls C Hi0 Hi Nr; pose proof T as [n [H1 [H2 H3]]]; cbn [Coarse_Spec.ctop Coarse_Spec.height] in *; assert (G : get s j = Ok n) by exact H1; pose proof (rd_bounds _ _ _ _ H1) as B.
    - unfold csize in Hi |- *. cbn [Coarse_Spec.cids length] in *. destruct (reset_one s j n Ar G) as [s' [E F]]. exists s'. split; [exact F|]. intros k. cbn [cost plus reset_walk].
      rewrite (proj2 (Z.ltb_lt i nc)), (proj2 (Z.leb_le 0 j)), G by lia. cbn [andb bind]. rewrite H3, E. cbn [bind].
      rewrite (proj2 (Z.eqb_neq j root)) by (intros ->; apply Nr; now left). unfold max_stack_size. rewrite (proj2 (Z.leb_gt 100 (depth - 1))) by lia. now rewrite H2.
    - rewrite csize_fork in Hi |- *. pose proof (csize_pos l) as Sl. pose proof (csize_pos r) as Sr. pose proof (height_pos l) as Pl. pose proof (height_pos r) as Pr. destruct H3 as [A1 [A2 [A3 [A4 A5]]]].
      cbn [Coarse_Spec.cids] in ND. inversion ND as [|? ? Nj ND']; subst. apply nodup_app in ND'. destruct ND' as [NDl [NDr Nlr]].
      assert (E : rd stack depth = Ok (-1)). { destruct (rd_in_bounds _ stack depth) as [w Hw]; [lia|]. rewrite Hw. f_equal. apply (C depth w); [lia|exact Hw]. }
      destruct (IHr s j root (depth + 1) i (upd stack (Z.to_nat depth) 0)) as [s1 [F1 W1]]; auto; try lia.
      { now rewrite upd_length. } { apply clear_upd; [lia|now apply clear_next]. } { intros I. apply Nr. right. apply in_or_app. now right. }
      pose proof F1 as [_ [_ [F1o [_ [_ _]]]]].
      assert (Gj1 : get s1 j = Ok n). { rewrite F1o; [exact G|]. intros I. apply Nj, in_or_app. now right. }
      assert (Tl : shape (fr s1) j l).
      { clear -A4 F1o Nlr. revert A4. assert (Fl : forall k, In k (cids l) -> rd (nodes (fr s1)) k = rd (nodes (fr s)) k) by (intros k Hk; apply F1o; intros I; now apply (Nlr k)).
        clear -Fl. generalize j. induction l as [i cs|i d v cs a IHa b IHb]; intros p [m [M1 [M2 M3]]]; exists m; rewrite Fl by (apply ctop_in); (split; [exact M1|]); (split; [exact M2|]); [exact M3|].
        destruct M3 as [B1 [B2 [B3 [B4 B5]]]]. repeat (split; [assumption|]). split; [apply IHa; [|exact B4]|apply IHb; [|exact B5]]; intros k Hk; apply Fl; right; apply in_or_app; tauto. }
      destruct (IHl s1 j root (depth + 1) (i + csize r) (upd (upd stack (Z.to_nat depth) 0) (Z.to_nat depth) 1)) as [s2 [F2 W2]]; auto; try lia.
      { now apply arrays_freed with s (cids r). } { now rewrite !upd_length. } { apply clear_upd; [rewrite upd_length; lia|]. apply clear_upd; [lia|now apply clear_next]. } { intros I. apply Nr. right. apply in_or_app. now left. }
      pose proof F2 as [_ [_ [F2o [_ [_ _]]]]].
      assert (Gj2 : get s2 j = Ok n). { rewrite F2o; [exact Gj1|]. intros I. apply Nj, in_or_app. now left. }
      destruct (reset_one s2 j n (arrays_freed _ _ _ F2 (arrays_freed _ _ _ F1 Ar)) Gj2) as [s3 [E3 F3]]. exists s3. split.
      { apply freed_perm with ((cids r ++ cids l) ++ [j]); [|eapply freed_trans; [eapply freed_trans; eauto|exact F3]].
        rewrite <- Permutation_cons_append. apply perm_skip, Permutation_app_comm. }
      intros k. replace (cost (CFork j d v cs l r) + k)%nat with (Datatypes.S (cost r + Datatypes.S (cost l + Datatypes.S k)))%nat by (cbn [cost]; lia).
      cbn [reset_walk]. rewrite (proj2 (Z.ltb_lt i nc)), (proj2 (Z.leb_le 0 j)), G by lia. cbn [andb bind]. rewrite A1, E. cbn [bind Z.eqb].
      rewrite wr_ok by lia. cbn [bind]. unfold max_stack_size at 1. rewrite (proj2 (Z.leb_gt 100 (depth + 1))) by lia. rewrite A3, W1. replace (depth + 1 - 1) with depth by lia.
      cbn [reset_walk]. rewrite (proj2 (Z.ltb_lt (i + csize r) nc)), (proj2 (Z.leb_le 0 j)), Gj1 by lia. cbn [andb bind]. rewrite A1, rd_stack by lia. cbn [bind].
      change (0 =? -1) with false. change (0 =? 0) with true. cbn match. rewrite wr_ok by (rewrite upd_length; lia). cbn [bind]. unfold max_stack_size at 1. rewrite (proj2 (Z.leb_gt 100 (depth + 1))) by lia.
      rewrite A2, W2. replace (depth + 1 - 1) with depth by lia.
      cbn [reset_walk]. rewrite (proj2 (Z.ltb_lt (i + csize r + csize l) nc)), (proj2 (Z.leb_le 0 j)), Gj2 by lia. cbn [andb bind]. rewrite A1, rd_stack by (rewrite upd_length; lia). cbn [bind].
      change (1 =? -1) with false. change (1 =? 0) with false. change (1 =? 1) with true. cbn match. rewrite E3. cbn [bind].
      rewrite (proj2 (Z.eqb_neq j root)) by (intros ->; apply Nr; now left). rewrite wr_ok by (rewrite !upd_length; lia). cbn [bind]. rewrite (upd_back stack depth 0 1 (-1) E).
      replace (i + (1 + csize l + csize r)) with (i + csize r + csize l + 1) by lia. reflexivity.
  Qed.
  Lemma node_reset_ok : forall t s p, shape (fr s) p t -> arrays s -> NoDup (cids t) -> csize t <= nc -> height t <= 100 ->
    exists s', node_reset O c s (ctop t) = Ok (s', false) /\ freed s s' (cids t).
  Proof.
    intros t s p T Ar ND Sz Hh. unfold node_reset. pose proof (clear_repeat (Z.to_nat max_stack_size) 0) as C. set (stack := repeat (-1) (Z.to_nat max_stack_size)) in *.
    assert (Ls : length stack = 100%nat) by (unfold stack; now rewrite repeat_length).
    pose proof (cost_size t) as Ct. destruct t as [j cs|j d v cs l r]; pose proof T as [n [H1 [H2 H3]]]; cbn [Coarse_Spec.ctop Coarse_Spec.height] in *;
      assert (G : get s j = Ok n) by exact H1; pose proof (rd_bounds _ _ _ _ H1) as B.
    - destruct (reset_one s j n Ar G) as [s' [E F]]. exists s'. split; [|exact F]. unfold fuel. cbn [reset_walk]. unfold csize in Sz. cbn in Sz.
      rewrite (proj2 (Z.ltb_lt 0 nc)), (proj2 (Z.leb_le 0 j)), G by lia. cbn [andb bind]. rewrite H3, E. cbn [bind]. rewrite Z.eqb_refl. reflexivity.
    - rewrite csize_fork in Sz, Ct. pose proof (csize_pos l) as Sl. pose proof (csize_pos r) as Sr. pose proof (height_pos l) as Pl. pose proof (height_pos r) as Pr. destruct H3 as [A1 [A2 [A3 [A4 A5]]]].
      cbn [Coarse_Spec.cids] in ND. inversion ND as [|? ? Nj ND']; subst. apply nodup_app in ND'. destruct ND' as [NDl [NDr Nlr]].
      assert (E : rd stack 0 = Ok (-1)) by reflexivity.
      destruct (reset_inner r s j j 1 0 (upd stack 0 0)) as [s1 [F1 W1]]; auto; try lia.
      { apply (clear_upd stack 0); [lia|now apply clear_next]. } { intros I. apply Nj, in_or_app. now right. }
      pose proof F1 as [_ [_ [F1o [_ [_ _]]]]].
      assert (Gj1 : get s1 j = Ok n). { rewrite F1o; [exact G|]. intros I. apply Nj, in_or_app. now right. }
      assert (Tl : shape (fr s1) j l).
      { clear -A4 F1o Nlr. revert A4. assert (Fl : forall k, In k (cids l) -> rd (nodes (fr s1)) k = rd (nodes (fr s)) k) by (intros k Hk; apply F1o; intros I; now apply (Nlr k)).
        clear -Fl. generalize j. induction l as [i cs|i d v cs a IHa b IHb]; intros p [m [M1 [M2 M3]]]; exists m; rewrite Fl by (apply ctop_in); (split; [exact M1|]); (split; [exact M2|]); [exact M3|].
        destruct M3 as [B1 [B2 [B3 [B4 B5]]]]. repeat (split; [assumption|]). split; [apply IHa; [|exact B4]|apply IHb; [|exact B5]]; intros k Hk; apply Fl; right; apply in_or_app; tauto. }
      destruct (reset_inner l s1 j j 1 (csize r) (upd (upd stack 0 0) 0 1)) as [s2 [F2 W2]]; auto; try lia.
      { now apply arrays_freed with s (cids r). }
      { apply (clear_upd (upd stack 0 0) 0); [rewrite upd_length; lia|]. apply (clear_upd stack 0); [lia|now apply clear_next]. } { intros I. apply Nj, in_or_app. now left. }
      pose proof F2 as [_ [_ [F2o [_ [_ _]]]]].
      assert (Gj2 : get s2 j = Ok n). { rewrite F2o; [exact Gj1|]. intros I. apply Nj, in_or_app. now left. }
      destruct (reset_one s2 j n (arrays_freed _ _ _ F2 (arrays_freed _ _ _ F1 Ar)) Gj2) as [s3 [E3 F3]]. exists s3. split.
      2:{ apply freed_perm with ((cids r ++ cids l) ++ [j]); [|eapply freed_trans; [eapply freed_trans; eauto|exact F3]].
          rewrite <- Permutation_cons_append. apply perm_skip, Permutation_app_comm. }
      assert (K : exists k, fuel O c = Datatypes.S (cost r + Datatypes.S (cost l + Datatypes.S k))).
      { exists (fuel O c - 3 - cost r - cost l)%nat. unfold fuel. cbn [cost] in Ct. lia. }
      destruct K as [k ->].
      cbn [reset_walk]. rewrite (proj2 (Z.ltb_lt 0 nc)), (proj2 (Z.leb_le 0 j)), G by lia. cbn [andb bind]. rewrite A1, E. cbn [bind Z.eqb].
      rewrite (wr_ok _ stack) by lia. cbn [bind]. change (max_stack_size <=? 0 + 1) with false. cbn match. change (Z.to_nat 0) with 0%nat. change (0 + 1) with 1. rewrite A3, W1. change (1 - 1) with 0. rewrite Z.add_0_l.
      cbn [reset_walk]. rewrite (proj2 (Z.ltb_lt (csize r) nc)), (proj2 (Z.leb_le 0 j)), Gj1 by lia. cbn [andb bind]. rewrite A1. change (rd (upd stack 0 0) 0) with (@Ok Z 0). cbn [bind].
      change (0 =? -1) with false. change (0 =? 0) with true. cbn match. rewrite wr_ok by (rewrite upd_length; lia). cbn [bind]. change (max_stack_size <=? 0 + 1) with false. cbn match.
      change (Z.to_nat 0) with 0%nat. change (0 + 1) with 1. rewrite A2, W2. change (1 - 1) with 0.
      cbn [reset_walk]. rewrite (proj2 (Z.ltb_lt (csize r + csize l) nc)), (proj2 (Z.leb_le 0 j)), Gj2 by lia. cbn [andb bind]. rewrite A1. change (rd (upd (upd stack 0 0) 0 1) 0) with (@Ok Z 1). cbn [bind].
      change (1 =? -1) with false. change (1 =? 0) with false. change (1 =? 1) with true. cbn match. rewrite E3. cbn [bind]. rewrite Z.eqb_refl. reflexivity.
  Qed.
End Walk.
