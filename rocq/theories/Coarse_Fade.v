(** * Proofs for the coarse Mondrian forest: the fading scores *)
From Coq Require Import ZArith List Bool Lia Permutation.
From Verif Require Import CppBase CppFacts NumOps Utils_Model Mondrian_Model Mondrian_Spec Mondrian_Proofs Coarse_Model Coarse_Spec Coarse_Heap Coarse_Walk Coarse_Train Coarse_Trim Coarse_Forest Coarse_Reach.
From Verif Require Import Coarse_Smallest Coarse_Fade_Spec.
From Verif Require Unbound_Model.
Import ListNotations.
Local Open Scope Z_scope.

Lemma nodup_join : forall A (a b : list A), NoDup a -> NoDup b -> (forall j, In j a -> In j b -> False) -> NoDup (a ++ b).
Proof.
  induction a as [|x a IH]; intros b Na Nb D; [exact Nb|]. apply NoDup_cons_iff in Na. destruct Na as [Nx Na]. cbn. constructor.
  - intros X. apply in_app_or in X. destruct X as [X|X]; [contradiction|]. apply (D x); [now left|exact X].
  - apply IH; auto. intros j Ha Hb. apply (D j); [now right|exact Hb].
Qed.
Lemma forZ_snoc : forall A body n i (s : A), forZ (S n) i body s = bind (forZ n i body s) (body (i + Z.of_nat n)).
Proof. intros A body n i s. replace (S n) with (n + 1)%nat by lia. rewrite forZ_app. destruct (forZ n i body s); [|reflexivity..]. cbn. now destruct (body _ _). Qed.

Section Fade.
  Variable O : ops.
  Variable c : config O.
  Local Notation n_ := (nofZ O).
  Local Notation node := (node O).
  Local Notation coarse := (coarse O).
  Local Notation fr := (fr O).
  Local Notation nodes := (nodes O).
  Local Notation get := (get O).
  Local Notation fc := (c_features O c).
  Local Notation lc := (c_labels O c).
  Local Notation nc := (c_nodes O c).
  Local Notation tc := (c_trees O c).
  Local Notation kind := (c_extend O c).
  Local Notation ctree := (ctree O).
  Local Notation ctop := (ctop O).
  Local Notation cids := (cids O).
  Local Notation cleaves := (cleaves O).
  Local Notation csize := (csize O).
  Local Notation cost := (cost O).
  Local Notation height := (height O).
  Local Notation shape := (shape O).
  Local Notation stored := (stored O fc lc).
  Local Notation inv := (inv O c).
  Definition score (s : coarse) (j : Z) : res (num O) := rd (fading O s) j.
  Local Notation faded := (faded O).
  Local Notation leaf_ids := (leaf_ids O).
  Local Notation leaves_of := (leaves_of O).

  (** ** A walk around a tree that is not too high visits all leaves *)
  Section Visit.
    Variable A : Type.
    Variable visit : coarse -> Z -> A -> res (coarse * A).
    Hypothesis keeps : forall s i a s' a', visit s i a = Ok (s', a') -> linked O (fr s) (fr s').
    Lemma walk_exact : forall t s p depth i stack a s' a', shape (fr s) p t -> 0 <= depth -> depth + height t <= 100 -> length stack = 100%nat -> clear stack depth -> 0 <= i -> i + csize t <= nc ->
      (forall j, In j (cids t) -> 0 <= j) -> vfold O A visit (rleaves O t) s a = Ok (s', a') ->
      forall k, walk O c visit None (cost t + k) s (ctop t) depth i stack a = walk O c visit None k s' p (depth - 1) (i + csize t) stack a'.
    Proof.
      induction t as [j cs|j d v cs l IHl r IHr]; intros s p depth i stack a s' a' T Hd Hh Ls C Hi0 Hi B V k; pose proof T as [n [H1 [H2 H3]]]; cbn [Coarse_Spec.ctop Coarse_Spec.height] in *; assert (G : get s j = Ok n) by exact H1;
        pose proof (B _ (ctop_in O _)) as B0; cbn [Coarse_Spec.ctop] in B0.
      - unfold Coarse_Walk.csize in Hi |- *. cbn [Coarse_Spec.cids length] in *. cbn [rleaves vfold] in V. inv_bind V. destruct v as [s1 a1]. injection V as <- <-. cbn [Coarse_Walk.cost plus walk].
        rewrite (proj2 (Z.ltb_lt i nc)), (proj2 (Z.leb_le 0 j)), G by lia. cbn [andb bind]. rewrite H3, wr_ok by lia. cbn [bind]. rewrite E. cbn [bind]. unfold max_stack_size. rewrite (proj2 (Z.leb_gt 100 (depth - 1))) by lia. rewrite H2.
        assert (Sk : upd stack (Z.to_nat depth) (-1) = stack).
        { destruct (rd_in_bounds _ stack depth) as [w Hw]; [lia|]. pose proof (C _ _ (Z.le_refl depth) Hw) as ->. apply rd_ok_iff in Hw. apply upd_same_id. tauto. }
        rewrite Sk. reflexivity.
      - rewrite csize_fork in Hi |- *. pose proof (csize_pos O l) as Sl. pose proof (csize_pos O r) as Sr. pose proof (height_pos O l) as Pl. pose proof (height_pos O r) as Pr. destruct H3 as [A1 [A2 [A3 [A4 A5]]]].
        cbn [rleaves] in V. rewrite vfold_app in V. inv_bind V. destruct v0 as [s1 a1]. rename E into V1, V into V2.
        pose proof (vfold_linked O A visit keeps _ _ _ _ _ V1) as K1. pose proof (vfold_linked O A visit keeps _ _ _ _ _ V2) as K2.
        destruct (K1 j n H1) as [n1 [N1 [N2 [N3 [N4 N5]]]]]. assert (G1 : get s1 j = Ok n1) by exact N1. assert (F1 : is_leaf O n1 = false) by (unfold is_leaf in *; now rewrite N2).
        destruct (K2 j n1 N1) as [n2 [M1 [M2 [M3 [M4 M5]]]]]. assert (G2 : get s' j = Ok n2) by exact M1. assert (F2 : is_leaf O n2 = false) by (unfold is_leaf in *; now rewrite M2).
        assert (Bl : forall k, In k (cids l) -> 0 <= k) by (intros q Hq; apply B; right; apply in_or_app; now left).
        assert (Br : forall k, In k (cids r) -> 0 <= k) by (intros q Hq; apply B; right; apply in_or_app; now right).
        assert (E : rd stack depth = Ok (-1)). { destruct (rd_in_bounds _ stack depth) as [w Hw]; [lia|]. rewrite Hw. f_equal. apply (C depth w); [lia|exact Hw]. }
        replace (cost (CFork j d v cs l r) + k)%nat with (Datatypes.S (cost r + Datatypes.S (cost l + Datatypes.S k)))%nat by (cbn [Coarse_Walk.cost]; lia).
        cbn [walk]. rewrite (proj2 (Z.ltb_lt i nc)), (proj2 (Z.leb_le 0 j)), G by lia. cbn [andb bind]. rewrite A1, E. cbn [bind Z.eqb].
        rewrite wr_ok by lia. cbn [bind]. unfold max_stack_size at 1. rewrite (proj2 (Z.leb_gt 100 (depth + 1))) by lia. rewrite A3.
        rewrite (IHr s j (depth + 1) i _ a s1 a1); [|exact A5|lia|lia|now rewrite upd_length|apply clear_upd; [lia|now apply clear_next]|lia|lia|exact Br|exact V1]. replace (depth + 1 - 1) with depth by lia.
        cbn [walk]. rewrite (proj2 (Z.ltb_lt (i + csize r) nc)), (proj2 (Z.leb_le 0 j)), G1 by lia. cbn [andb bind]. rewrite F1, rd_stack by lia. cbn [bind].
        change (0 =? -1) with false. change (0 =? 0) with true. cbn match. rewrite wr_ok by (rewrite upd_length; lia). cbn [bind]. unfold max_stack_size at 1. rewrite (proj2 (Z.leb_gt 100 (depth + 1))) by lia. rewrite N4, A2.
        rewrite (IHl s1 j (depth + 1) _ _ a1 s' a'); [|now apply shape_linked with (fr s)|lia|lia|now rewrite !upd_length| |lia|lia|exact Bl|exact V2].
        2:{ apply clear_upd; [rewrite upd_length; lia|]. apply clear_upd; [lia|]. now apply clear_next. }
        replace (depth + 1 - 1) with depth by lia.
        cbn [walk]. rewrite (proj2 (Z.ltb_lt (i + csize r + csize l) nc)), (proj2 (Z.leb_le 0 j)), G2 by lia. cbn [andb bind]. rewrite F2, rd_stack by (rewrite upd_length; lia). cbn [bind].
        change (1 =? -1) with false. change (1 =? 0) with false. change (1 =? 1) with true. cbn match. rewrite wr_ok by (rewrite !upd_length; lia). cbn [bind]. rewrite M3, N3, H2, (upd_back stack depth 0 1 (-1) E).
        replace (i + (1 + csize l + csize r)) with (i + csize r + csize l + 1) by lia. reflexivity.
    Qed.
    Lemma walk_whole : forall t s a s' a', shape (fr s) (-1) t -> height t <= 100 -> csize t <= nc -> (forall j, In j (cids t) -> 0 <= j) ->
      vfold O A visit (rleaves O t) s a = Ok (s', a') -> walk_from O c visit None s (ctop t) a = Ok (-1, (s', a')).
    Proof.
      intros t s a s' a' T Hh Sz B V. unfold walk_from. pose proof (cost_size O t) as Ct. assert (K : exists k, fuel O c = (cost t + Datatypes.S k)%nat) by (exists (fuel O c - cost t - 1)%nat; unfold fuel; lia).
      destruct K as [k ->]. rewrite (walk_exact t s (-1) 0 0 _ a s' a') by (try exact T; try exact V; try apply clear_repeat; auto; lia). cbn [walk]. change (0 <=? -1) with false. rewrite andb_false_r. reflexivity.
    Qed.
  End Visit.

  (** ** Trees and ids *)
  Lemma tree_ids : forall s ts i t, inv s ts -> nth_error ts i = Some (Some t) -> NoDup (cids t) /\ (forall q, In q (cids t) -> 0 <= q < nc) /\ csize t <= nc /\
    forall q k u, In q (cids t) -> nth_error ts k = Some (Some u) -> In q (cids u) -> k = i.
  Proof.
    intros s ts i t [_ [_ [[P1 [P2 [P3 _]]] _]]] Hi. assert (It : forall q, In q (cids t) -> 0 <= q < nc) by (intros q Hq; apply P3; now apply all_cids_in with i (Some t)).
    assert (Y : NoDup (all_cids O (upd ts i None) ++ cids t)). { eapply Permutation_NoDup; [|exact P2]. rewrite <- (upd_same_id _ ts i (Some t) Hi) at 1. apply (all_cids_upd O ts i (Some t)). apply nth_error_Some. congruence. }
    apply nodup_app in Y. destruct Y as [_ [ND Nd]]. split; [exact ND|]. split; [exact It|]. split.
    - unfold Coarse_Walk.csize. pose proof (NoDup_incl_length ND (l' := zrange nc)) as X. rewrite zrange_length in X. assert (I' : incl (cids t) (zrange nc)) by (intros q Hq; apply zrange_in; auto). specialize (X I').
      pose proof (csize_pos O t) as Y. unfold Coarse_Walk.csize in Y. lia.
    - intros q k u Hq Hk Hu. destruct (Nat.eq_dec k i) as [->|N]; [reflexivity|]. exfalso. apply (Nd q); [|exact Hq]. apply all_cids_in with k (Some u); [now rewrite nth_error_upd_other by congruence|exact Hu].
  Qed.
  Lemma leaf_in : forall t j, In j (map fst (cleaves t)) -> In j (cids t).
  Proof. induction t as [q cq|q dq vq cq a IHa b IHb]; intros j; cbn; [auto|]. rewrite map_app. intros X. right. apply in_app_or in X. apply in_or_app. destruct X; eauto. Qed.
  Lemma leaves_nodup : forall t, NoDup (cids t) -> NoDup (map fst (cleaves t)).
  Proof.
    induction t as [q cq|q dq vq cq a IHa b IHb]; intros N; cbn in *; [exact N|]. apply NoDup_cons_iff in N. destruct N as [_ N]. apply nodup_app in N. destruct N as [Na [Nb Nab]]. rewrite map_app.
    apply nodup_join; auto. intros j Ha Hb. apply (Nab j); now apply leaf_in.
  Qed.
  Lemma leaf_ids_in : forall ts j, In j (leaf_ids ts) <-> exists i t, nth_error ts i = Some (Some t) /\ In j (map fst (cleaves t)).
  Proof.
    intros ts j. unfold Coarse_Fade_Spec.leaf_ids. rewrite in_concat. split.
    - intros [l [Hl Hj]]. apply in_map_iff in Hl. destruct Hl as [o [<- Ho]]. apply In_nth_error in Ho. destruct Ho as [i Hi]. destruct o as [t|]; [|contradiction]. eauto.
    - intros [i [t [Hi Hj]]]. exists (map fst (cleaves t)). split; [|exact Hj]. apply in_map_iff. exists (Some t). split; [reflexivity|]. now apply nth_error_In with i.
  Qed.

  (** ** Fading *)
  Lemma with_fading_again : forall s xs ys, with_fading O (with_fading O s xs) ys = with_fading O s ys.
  Proof. reflexivity. Qed.
  Lemma with_fading_id : forall s, with_fading O s (fading O s) = s.
  Proof. now intros []. Qed.
  Lemma vfold_fade : forall js s, NoDup js -> (forall j, In j js -> 0 <= j < Z.of_nat (length (fading O s))) ->
    exists xs, vfold O unit (fade_visit O) js s tt = Ok (with_fading O s xs, tt) /\ length xs = length (fading O s) /\
      (forall j, ~ In j js -> rd xs j = score s j) /\ forall j, In j js -> exists w, score s j = Ok w /\ rd xs j = Ok (faded w).
  Proof.
    unfold score. induction js as [|j js IH]; intros s N B.
    - exists (fading O s). rewrite with_fading_id. split; [reflexivity|]. split; [reflexivity|]. split; [reflexivity|]. intros j [].
    - apply NoDup_cons_iff in N. destruct N as [Nj N]. pose proof (B j (or_introl eq_refl)) as Bj. destruct (rd_in_bounds _ (fading O s) j Bj) as [w Hw].
      set (ys := upd (fading O s) (Z.to_nat j) (faded w)). assert (Ly : length ys = length (fading O s)) by apply upd_length.
      destruct (IH (with_fading O s ys) N) as [xs [X1 [X2 [X3 X4]]]]; [intros q Hq; cbn [fading with_fading]; rewrite Ly; apply B; now right|]. cbn [fading with_fading] in *.
      assert (Ry : forall q, q <> j -> rd ys q = rd (fading O s) q).
      { intros q Nq. unfold ys. destruct (Z_lt_ge_dec q 0) as [Lt|Ge]; [rewrite !rd_oob by lia; reflexivity|]. rewrite rd_upd by lia. now rewrite (proj2 (Z.eqb_neq j q)) by congruence. }
      exists xs. split.
      { cbn [vfold]. unfold fade_visit at 1. rewrite Hw. cbn [bind]. rewrite wr_ok by exact Bj. cbn [bind]. fold (faded w). fold ys. rewrite X1. now rewrite with_fading_again. }
      split; [congruence|]. split.
      + intros q Hq. rewrite X3 by (intros X; apply Hq; now right). apply Ry. intros ->. apply Hq. now left.
      + intros q [<-|Hq].
        * exists w. split; [exact Hw|]. rewrite X3 by exact Nj. unfold ys. rewrite rd_upd by lia. now rewrite Z.eqb_refl.
        * destruct (X4 q Hq) as [w' [W1 W2]]. exists w'. split; [|exact W2]. rewrite <- Ry; [exact W1|]. intros ->. contradiction.
  Qed.
  Lemma fade_linked : forall s i a s' a', fade_visit O s i a = Ok (s', a') -> linked O (fr s) (fr s').
  Proof. intros s i a s' a' H. unfold fade_visit in H. inv_bind H. inv_bind H. injection H as <- _. apply linked_refl. Qed.
  Definition low (m : Z) (ts : list (option ctree)) : Prop := forall i t, nth_error ts i = Some (Some t) -> height t <= m.
  Lemma fade_all : forall s ts, inv s ts -> low 100 ts -> exists xs, tree_fade_counts O c s = Ok (with_fading O s xs) /\ length xs = length (fading O s) /\
    (forall j, ~ In j (leaf_ids ts) -> rd xs j = score s j) /\ forall j, In j (leaf_ids ts) -> exists w, score s j = Ok w /\ rd xs j = Ok (faded w).
  Proof.
    intros s ts V Hlow. pose proof V as [V1 [V2 [V3 [[Ar1 [Ar2 Ar3]] V5]]]]. unfold tree_fade_counts.
    set (body := fun i s => _).
    assert (X : forall n, (n <= length ts)%nat -> exists xs, forZ n 0 body s = Ok (with_fading O s xs) /\ length xs = length (fading O s) /\
      (forall j, ~ In j (leaf_ids (firstn n ts)) -> rd xs j = score s j) /\ forall j, In j (leaf_ids (firstn n ts)) -> exists w, score s j = Ok w /\ rd xs j = Ok (faded w)).
    { induction n as [|n IH]; intros Hn.
      - exists (fading O s). cbn [forZ]. rewrite with_fading_id. split; [reflexivity|]. split; [reflexivity|]. split; [reflexivity|]. intros j [].
      - destruct (IH ltac:(lia)) as [xs [X1 [X2 [X3 X4]]]]. rewrite forZ_snoc, X1. cbn [bind]. destruct (nth_error ts n) as [o|] eqn:Ho; [|apply nth_error_None in Ho; lia].
        destruct (skipn_nth _ _ _ _ Ho) as [_ Fs]. rewrite Fs.
        assert (Ids : forall j, In j (leaf_ids (firstn n ts ++ [o])) <-> In j (leaf_ids (firstn n ts)) \/ In j (leaves_of o)).
        { intros j. unfold Coarse_Fade_Spec.leaf_ids. rewrite map_app, concat_app, in_app_iff. cbn [map concat]. now rewrite app_nil_r. }
        destruct (V2 n o Ho) as [Hr Hst]. unfold body. replace (0 + Z.of_nat n) with (Z.of_nat n) by lia. cbn [Coarse_Model.fr with_fading]. rewrite Hr. cbn [bind]. destruct o as [t|]; cbn [rid].
        + destruct (tree_ids s ts n t V Ho) as [ND [Bq [Sz Only]]].
          assert (Rl : forall j, In j (rleaves O t) <-> In j (map fst (cleaves t))) by (intros j; rewrite rleaves_leaves; symmetry; apply in_rev).
          assert (NR : NoDup (rleaves O t)) by (rewrite rleaves_leaves; apply NoDup_rev; now apply leaves_nodup).
          destruct (vfold_fade (rleaves O t) (with_fading O s xs) NR) as [ys [Y1 [Y2 [Y3 Y4]]]].
          { intros j Hj. apply Rl, leaf_in, Bq in Hj. cbn [fading with_fading]. rewrite X2. lia. }
          assert (W : walk_from O c (fade_visit O) None (with_fading O s xs) (ctop t) tt = Ok (-1, (with_fading O (with_fading O s xs) ys, tt))).
          { apply (walk_whole unit (fade_visit O) fade_linked); [cbn [Coarse_Model.fr with_fading]; eapply stored_shape; exact Hst|now apply (Hlow n)|exact Sz|intros q Hq; now apply Bq|exact Y1]. }
          rewrite W. clear W.
          cbn [bind]. rewrite with_fading_again. exists ys. split; [reflexivity|]. cbn [fading with_fading] in *. split; [congruence|].
            assert (Dis : forall j, In j (map fst (cleaves t)) -> ~ In j (leaf_ids (firstn n ts))).
            { intros j Hj Hj'. apply leaf_ids_in in Hj'. destruct Hj' as [k [u [Hk Hu]]]. assert (Lk : (k < n)%nat) by (assert (Z0 : (k < length (firstn n ts))%nat) by (apply nth_error_Some; congruence); rewrite firstn_length in Z0; lia).
              assert (Hk' : nth_error ts k = Some (Some u)) by (rewrite <- (firstn_skipn n ts); rewrite nth_error_app1; [exact Hk|apply nth_error_Some; congruence]).
              assert (k = n) by (apply (Only j k u); auto using leaf_in). lia. }
            unfold score in *. cbn [fading with_fading] in *. split.
            -- intros j Hj. rewrite Ids in Hj. rewrite Y3 by (rewrite Rl; cbn [Coarse_Fade_Spec.leaves_of] in Hj; tauto). apply X3. tauto.
            -- intros j Hj. rewrite Ids in Hj. cbn [Coarse_Fade_Spec.leaves_of] in Hj. destruct (in_dec Z.eq_dec j (map fst (cleaves t))) as [I|I].
               ++ destruct (Y4 j ltac:(now apply Rl)) as [w [W1 W2]]. exists w. rewrite X3 in W1 by now apply Dis. auto.
               ++ destruct Hj as [Hj|Hj]; [|contradiction]. destruct (X4 j Hj) as [w [W1 W2]]. exists w. split; [exact W1|]. rewrite Y3 by (rewrite Rl; exact I). exact W2.
        + unfold walk_from, fuel. cbn [walk]. change (0 <=? -1) with false. rewrite andb_false_r. cbn [bind]. exists xs. split; [reflexivity|]. split; [exact X2|]. split.
          * intros j Hj. rewrite Ids in Hj. apply X3. tauto.
          * intros j Hj. rewrite Ids in Hj. destruct Hj as [Hj|[]]. now apply X4. }
    replace (Z.to_nat tc) with (length ts) by lia. destruct (X (length ts) (le_n _)) as [xs X']. rewrite firstn_all in X'. exists xs. exact X'.
  Qed.
End Fade.
