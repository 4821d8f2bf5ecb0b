(** * Proofs for the coarse Mondrian forest: fading and trimming are defined *)
From Coq Require Import ZArith List Bool Lia Reals Permutation.
From Verif Require Import CppBase CppFacts NumOps Utils_Model Mondrian_Model Mondrian_Spec Mondrian_Proofs Coarse_Model Coarse_Spec Coarse_Heap Coarse_Walk Coarse_Train Coarse_Trim Coarse_Forest Coarse_Reach Coarse_Tidy.
From Verif Require Mondrian_Train Unbound_Train.
From Verif Require Import Coarse_Total Coarse_Defined Coarse_Fade.
Import ListNotations.
Local Open Scope Z_scope.

Lemma Forall2_from_nth : forall A B (P : A -> B -> Prop) l m, length l = length m -> (forall i a b, nth_error l i = Some a -> nth_error m i = Some b -> P a b) -> Forall2 P l m.
Proof.
  intros A B P. induction l as [|a l IH]; intros [|b m] Len H; try discriminate; constructor; [now apply (H 0%nat)|]. apply IH; [now injection Len|]. intros i. apply (H (S i)).
Qed.

Section TrimTotal.
  Variable O : ops.
  Variable log_ : num O -> num O.
  Variable rnd : nat -> num O.
  Variable c : config O.
  Hypothesis L : tlaws O.
  Hypothesis Hlife : nlt O (c_life O c) (nofZ O 0) = false.
  Local Notation n_ := (nofZ O).
  Local Notation node := (node O).
  Local Notation coarse := (coarse O).
  Local Notation fr := (fr O).
  Local Notation nodes := (nodes O).
  Local Notation roots := (roots O).
  Local Notation get := (get O).
  Local Notation avail := (avail O).
  Local Notation counters := (counters O).
  Local Notation fc := (c_features O c).
  Local Notation lc := (c_labels O c).
  Local Notation nc := (c_nodes O c).
  Local Notation tc := (c_trees O c).
  Local Notation ctree := (ctree O).
  Local Notation ctop := (ctop O).
  Local Notation cids := (cids O).
  Local Notation cleaves := (cleaves O).
  Local Notation csize := (csize O).
  Local Notation cost := (cost O).
  Local Notation stored := (stored O fc lc).
  Local Notation inv := (inv O c).
  Local Notation arrays := (arrays O c).

  (** ** Walks *)
  Definition quiet (s s' : coarse) : Prop := drawn_only O s s' /\ last O s' = last O s /\ forced O s' = forced O s.
  Lemma quiet_refl : forall s, quiet s s.
  Proof. intros s. split; [apply drawn_only_refl|split; reflexivity]. Qed.
  Lemma quiet_trans : forall a b d, quiet a b -> quiet b d -> quiet a d.
  Proof. intros a b d [A1 [A2 A3]] [B1 [B2 B3]]. split; [eapply drawn_only_trans; eauto|split; congruence]. Qed.
  Lemma quiet_stored : forall s s' p t, quiet s s' -> stored (fr s) p t -> stored (fr s') p t.
  Proof. intros s s' p t [[E _] _] T. apply stored_frame with (fr s); auto. intros j _. now rewrite E. Qed.
  Lemma quiet_arrays : forall s s', quiet s s' -> arrays s -> arrays s'.
  Proof. intros s s' [[E [_ [_ S]]] _] A. apply arrays_same with s; auto. now rewrite E. Qed.
  Section Visit.
    Variable A : Type.
    Variable visit : coarse -> Z -> A -> res (coarse * A).
    Hypothesis keeps : forall s i a s' a', visit s i a = Ok (s', a') -> quiet s s'.
    Hypothesis works : forall s i n a, arrays s -> get s i = Ok n -> length (counters n) = Z.to_nat lc -> exists r, visit s i a = Ok r.
    Lemma walk_total : forall t s p depth i stack a, stored (fr s) p t -> arrays s -> 0 <= depth < 100 -> length stack = 100%nat -> clear stack depth -> 0 <= i -> i + csize t <= nc ->
      (forall j, In j (cids t) -> 0 <= j) -> forall k, (exists r, walk O c visit None (cost t + k) s (ctop t) depth i stack a = Ok r) \/
      exists s' a', quiet s s' /\ walk O c visit None (cost t + k) s (ctop t) depth i stack a = walk O c visit None k s' p (depth - 1) (i + csize t) stack a'.
    Proof.
      induction t as [j cs|j d v cs l IHl r IHr]; intros s p depth i stack a T Ar Hd Ls C Hi0 Hi B k; pose proof T as [n [H1 [H2 [H3 [H4 [H5 H6]]]]]]; cbn [Coarse_Spec.ctop] in *; assert (G : get s j = Ok n) by exact H1;
        pose proof (B _ (ctop_in O _)) as B0; cbn [Coarse_Spec.ctop] in B0.
      - destruct H6 as [H6 H7]. assert (Lf : is_leaf O n = true) by (unfold is_leaf; now rewrite H6). right. unfold Coarse_Walk.csize in Hi |- *. cbn [Coarse_Spec.cids length] in *.
        destruct (works s j n a Ar G) as [[s' a'] Ev]; [congruence|]. exists s', a'. split; [eapply keeps; eauto|]. cbn [Coarse_Walk.cost plus walk].
        rewrite (proj2 (Z.ltb_lt i nc)), (proj2 (Z.leb_le 0 j)), G by lia. cbn [andb bind]. rewrite Lf, wr_ok by lia. cbn [bind]. rewrite Ev. cbn [bind]. unfold max_stack_size. rewrite (proj2 (Z.leb_gt 100 (depth - 1))) by lia. rewrite H2.
        assert (Sk : upd stack (Z.to_nat depth) (-1) = stack).
        { destruct (rd_in_bounds _ stack depth) as [w Hw]; [lia|]. pose proof (C _ _ (Z.le_refl depth) Hw) as ->. apply rd_ok_iff in Hw. apply upd_same_id. tauto. }
        rewrite Sk. reflexivity.
      - rewrite csize_fork in Hi |- *. pose proof (csize_pos O l) as Sl. pose proof (csize_pos O r) as Sr. destruct H6 as [A1 [A2 [A3 [A4 [A5 [A6 A7]]]]]].
        assert (F0 : is_leaf O n = false) by (unfold is_leaf; apply Z.eqb_neq; lia).
        assert (Bl : forall k, In k (cids l) -> 0 <= k) by (intros q Hq; apply B; right; apply in_or_app; now left).
        assert (Br : forall k, In k (cids r) -> 0 <= k) by (intros q Hq; apply B; right; apply in_or_app; now right).
        assert (E : rd stack depth = Ok (-1)). { destruct (rd_in_bounds _ stack depth) as [w Hw]; [lia|]. rewrite Hw. f_equal. apply (C depth w); [lia|exact Hw]. }
        replace (cost (CFork j d v cs l r) + k)%nat with (Datatypes.S (cost r + Datatypes.S (cost l + Datatypes.S k)))%nat by (cbn [Coarse_Walk.cost]; lia).
        cbn [walk]. rewrite (proj2 (Z.ltb_lt i nc)), (proj2 (Z.leb_le 0 j)), G by lia. cbn [andb bind]. rewrite F0, E. cbn [bind]. change (-1 =? -1) with true. cbv iota.
        rewrite wr_ok by lia. cbn [bind]. unfold max_stack_size. destruct (Z.leb_spec 100 (depth + 1)) as [Deep|Shal]; [left; eauto|]. rewrite A5.
        destruct (IHr s j (depth + 1) i (upd stack (Z.to_nat depth) 0) a A7 Ar ltac:(lia) ltac:(now rewrite upd_length) ltac:(apply clear_upd; [lia|now apply clear_next]) Hi0 ltac:(lia) Br (Datatypes.S (cost l + Datatypes.S k))) as [[w W]|[s1 [a1 [Q1 W]]]]; [left; eauto|].
        rewrite W. clear W. replace (depth + 1 - 1) with depth by lia. pose proof Q1 as [[N1 _] _]. assert (G1 : get s1 j = Ok n) by (unfold Coarse_Model.get in *; now rewrite N1).
        cbn [walk]. rewrite (proj2 (Z.ltb_lt (i + csize r) nc)), (proj2 (Z.leb_le 0 j)), G1 by lia. cbn [andb bind]. rewrite F0, rd_stack by lia. cbn [bind].
        change (0 =? -1) with false. change (0 =? 0) with true. cbn match. rewrite wr_ok by (rewrite upd_length; lia). cbn [bind]. unfold max_stack_size. rewrite (proj2 (Z.leb_gt 100 (depth + 1))) by lia. rewrite A4.
        destruct (IHl s1 j (depth + 1) (i + csize r) (upd (upd stack (Z.to_nat depth) 0) (Z.to_nat depth) 1) a1 (quiet_stored _ _ _ _ Q1 A6) (quiet_arrays _ _ Q1 Ar) ltac:(lia) ltac:(now rewrite !upd_length)
          ltac:(apply clear_upd; [rewrite upd_length; lia|]; apply clear_upd; [lia|]; now apply clear_next) ltac:(lia) ltac:(lia) Bl (Datatypes.S k)) as [[w W]|[s2 [a2 [Q2 W]]]]; [left; eauto|].
        rewrite W. clear W. replace (depth + 1 - 1) with depth by lia. pose proof Q2 as [[N2 _] _]. assert (G2 : get s2 j = Ok n) by (unfold Coarse_Model.get in *; now rewrite N2). right. exists s2, a2. split; [eapply quiet_trans; eauto|].
        cbn [walk]. rewrite (proj2 (Z.ltb_lt (i + csize r + csize l) nc)), (proj2 (Z.leb_le 0 j)), G2 by lia. cbn [andb bind]. rewrite F0, rd_stack by (rewrite upd_length; lia). cbn [bind].
        change (1 =? -1) with false. change (1 =? 0) with false. change (1 =? 1) with true. cbn match. rewrite wr_ok by (rewrite !upd_length; lia). cbn [bind]. rewrite H2, (upd_back stack depth 0 1 (-1) E).
        replace (i + (1 + csize l + csize r)) with (i + csize r + csize l + 1) by lia. reflexivity.
    Qed.
    Lemma walk_some : forall s ts i o a, inv s ts -> nth_error ts i = Some o -> exists r, walk_from O c visit None s (rid O o) a = Ok r.
    Proof.
      intros s ts i o a V Hi. destruct o as [t|]; cbn [rid].
      2: { unfold walk_from, fuel. cbn [walk]. change (0 <=? -1) with false. rewrite andb_false_r. eauto. }
      pose proof V as [H1 [H2 [H3 [H4 H5]]]]. destruct (H2 i _ Hi) as [Hr Ht]. pose proof H3 as [P1 [P2 [P3 _]]].
      assert (It : forall q, In q (cids t) -> 0 <= q < nc) by (intros q Hq; apply P3; now apply all_cids_in with i (Some t)).
      assert (ND : NoDup (cids t)).
      { assert (Y : NoDup (all_cids O (upd ts i None) ++ cids t)). { eapply Permutation_NoDup; [|exact P2]. rewrite <- (upd_same_id _ ts i (Some t) Hi) at 1. apply (all_cids_upd O ts i (Some t)). apply nth_error_Some. congruence. } apply nodup_app in Y. tauto. }
      assert (Sz : csize t <= nc).
      { unfold Coarse_Walk.csize. pose proof (NoDup_incl_length ND (l' := zrange nc)) as X. rewrite zrange_length in X. assert (I' : incl (cids t) (zrange nc)) by (intros q Hq; apply zrange_in; auto). specialize (X I').
        pose proof (csize_pos O t) as Y. unfold Coarse_Walk.csize in Y. lia. }
      pose proof (cost_size O t) as Ct. assert (K : exists k, fuel O c = (cost t + Datatypes.S k)%nat) by (exists (fuel O c - cost t - 1)%nat; unfold fuel; lia). destruct K as [k K]. unfold walk_from. rewrite K.
      destruct (walk_total t s (-1) 0 0 (repeat (-1) (Z.to_nat max_stack_size)) a Ht H4 ltac:(lia) ltac:(reflexivity) ltac:(apply clear_repeat) ltac:(lia) ltac:(lia) ltac:(intros j Hj; now apply It) (Datatypes.S k)) as [X|[s' [a' [_ X]]]]; [exact X|].
      rewrite X. cbn [walk]. change (0 <=? -1) with false. rewrite andb_false_r. eauto.
    Qed.
  End Visit.
  Lemma fade_visit_keeps : forall s i a s' a', fade_visit O s i a = Ok (s', a') -> quiet s s'.
  Proof. intros s i a s' a' X. unfold fade_visit in X. inv_bind X. inv_bind X. injection X as <- <-. apply wr_length in E0. repeat split. exact E0. Qed.
  Lemma fade_visit_works : forall s i n a, arrays s -> get s i = Ok n -> length (counters n) = Z.to_nat lc -> exists r, fade_visit O s i a = Ok r.
  Proof.
    intros s i n a [A1 [A2 A3]] G _. apply rd_bounds in G. unfold fade_visit. destruct (rd_in_bounds _ (fading O s) i) as [w W]; [lia|]. rewrite W. cbn [bind]. rewrite wr_ok by lia. cbn [bind]. eauto.
  Qed.
  Lemma trim_visit_keeps : forall s i a s' a', trim_visit O rnd c s i a = Ok (s', a') -> quiet s s'.
  Proof.
    intros s i a s' a' X. split; [apply trim_visit_ok in X; [tauto|exact L]|]. unfold trim_visit in X. inv_bind X. unfold Coarse_Model.uniform, Mondrian_Model.uniform in X.
    repeat match type of X with
    | (if ?b then _ else _) = _ => destruct b
    | bind _ _ = _ => inv_bind X
    | (let (_, _) := if ?b then _ else _ in _) = _ => destruct b
    | Ok _ = Ok _ => injection X as <- _
    end; split; reflexivity.
  Qed.
  Lemma trim_visit_works : forall s i n a, arrays s -> get s i = Ok n -> length (counters n) = Z.to_nat lc -> exists r, trim_visit O rnd c s i a = Ok r.
  Proof.
    intros s i n a [A1 [A2 A3]] G Ln. unfold trim_visit. rewrite G. cbn [bind]. pose proof (rd_bounds _ _ _ _ G) as B.
    assert (F : exists v, forZ (Z.to_nat lc) 0 (fun j count => do x <- rd (counters n) j; Ok (nadd O count (n_ x))) (n_ 0) = Ok v).
    { destruct (forZ_inv _ (fun _ _ => True) (fun j count => do x <- rd (counters n) j; Ok (nadd O count (n_ x))) (Z.to_nat lc) 0 (n_ 0) I) as [v [E _]]; [|eauto].
      intros j q Hj _. destruct (rd_in_bounds _ (counters n) j) as [w W]; [lia|]. rewrite W. cbn [bind]. eauto. }
    destruct F as [v Fv]. rewrite Fv. cbn [bind]. destruct (rd_in_bounds _ (fading O s) i) as [w W]; [lia|]. rewrite W. cbn [bind]. unfold Coarse_Model.uniform, Mondrian_Model.uniform. cbv beta iota zeta.
    repeat (match goal with |- context [if ?b then _ else _] => destruct b end; cbv beta iota zeta); eauto.
  Qed.
  Lemma fade_def : forall s ts, inv s ts -> exists s', tree_fade_counts O c s = Ok s'.
  Proof.
    intros s ts V. unfold tree_fade_counts.
    match goal with |- exists s', forZ ?n ?i ?b s = _ => destruct (forZ_inv _ (fun _ s => inv s ts) b n i s V) as [s' [E _]]; [|eauto] end.
    intros j s1 Hj V1. pose proof V1 as [H1 [H2 _]]. destruct (nth_error ts (Z.to_nat j)) as [o|] eqn:Ho; [|apply nth_error_None in Ho; lia]. destruct (H2 _ _ Ho) as [Hr _]. replace (Z.of_nat (Z.to_nat j)) with j in Hr by lia. rewrite Hr. cbn [bind].
    destruct (walk_some _ _ fade_visit_keeps fade_visit_works s1 ts _ o tt V1 Ho) as [[d [s2 u]] E]. rewrite E. cbn [bind]. exists s2. split; [reflexivity|].
    apply inv_same with s1; [|exact V1]. change s2 with (fst (snd (d, (s2, u)))). refine (proj1 (walk_keeps O c _ _ quiet quiet_refl quiet_trans fade_visit_keeps _ _ _ _ _ _ _ _ _ E)).
  Qed.
  Lemma fade_quiet : forall s s', tree_fade_counts O c s = Ok s' -> quiet s s'.
  Proof.
    intros s s' H. unfold tree_fade_counts in H. refine (forZ_inv_post _ (fun _ s1 => quiet s s1) _ _ 0 _ _ _ _ H); [apply quiet_refl|].
    intros i s1 s2 _ H1 H2. inv_bind H2. inv_bind H2. destruct v0 as [d [s3 u]]. injection H2 as <-. eapply quiet_trans; [exact H1|].
    change s3 with (fst (snd (d, (s3, u)))). eapply walk_keeps; [apply quiet_refl|apply quiet_trans|exact fade_visit_keeps|exact E0].
  Qed.

  (** ** Cutting a leaf *)
  Lemma reset_node_def : forall s i, arrays s -> 0 <= i < nc -> exists s', reset_node O c s i = Ok s'.
  Proof.
    intros s i [A1 [A2 A3]] Hi. unfold reset_node, change, with_node. destruct (rd_in_bounds _ (nodes (fr s)) i) as [n G]; [lia|]. rewrite G. cbn [bind]. rewrite wr_ok by lia. cbn [bind Coarse_Model.fr with_fr forced fading]. rewrite wr_ok by lia. cbn [bind]. rewrite wr_ok by lia. cbn [bind]. eauto.
  Qed.
  Lemma change_def : forall s i (g : node -> node), Z.of_nat (length (nodes (fr s))) = nc -> 0 <= i < nc -> exists s', change O s i (fun n => Ok (g n)) = Ok s'.
  Proof. intros s i g A1 Hi. unfold change, with_node. destruct (rd_in_bounds _ (nodes (fr s)) i) as [n G]; [lia|]. rewrite G. cbn [bind]. rewrite wr_ok by lia. cbn [bind]. eauto. Qed.
  (** The parent of a leaf, and the parent of that. *)
  Lemma leaf_parent : forall t s p j, stored (fr s) p t -> In j (map fst (cleaves t)) -> j <> ctop t -> NoDup (cids t) ->
    exists n q m, get s j = Ok n /\ is_leaf O n = true /\ parent O n = q /\ q <> j /\ In q (cids t) /\ get s q = Ok m /\ (child_left O m = j \/ child_right O m = j) /\
      In (child_left O m) (cids t) /\ In (child_right O m) (cids t) /\ child_left O m <> child_right O m /\ child_left O m <> q /\ child_right O m <> q /\
      (parent O m = p \/ (In (parent O m) (cids t) /\ parent O m <> j)).
  Proof.
    assert (Lf : forall t j, In j (map fst (cleaves t)) -> In j (cids t)).
    { induction t as [q cq|q dq vq cq a IHa b IHb]; intros j; cbn; [auto|]. rewrite map_app. intros X. right. apply in_app_or in X. apply in_or_app. destruct X; eauto. }
    assert (Tl : forall t j, NoDup (cids t) -> In j (map fst (cleaves t)) -> j = ctop t -> exists cs, t = CLeaf j cs).
    { intros [q cq|q dq vq cq a b] j N I E; cbn in *; [exists cq; now rewrite E|]. subst j. apply NoDup_cons_iff in N. destruct N as [N _]. exfalso. apply N. rewrite map_app in I. apply in_app_or in I. apply in_or_app. destruct I; eauto. }
    induction t as [i cs|i d v cs l IHl r IHr]; intros s p j T I Nj ND; [destruct I as [X|[]]; cbn in *; congruence|].
    pose proof T as [n [M1 [M2 [M3 [M4 [M5 [B1 [B2 [B3 [B4 [B5 [B6 B7]]]]]]]]]]]]. cbn [Coarse_Spec.ctop] in *. cbn [Coarse_Spec.cids] in ND. apply NoDup_cons_iff in ND. destruct ND as [Ni ND]. pose proof (nodup_app _ _ _ ND) as [Nl [Nr Nlr]].
    cbn [Coarse_Spec.cleaves] in I. rewrite map_app in I.
    assert (Fork : get s i = Ok n /\ In (child_left O n) (cids (CFork i d v cs l r)) /\ In (child_right O n) (cids (CFork i d v cs l r)) /\ child_left O n <> child_right O n /\ child_left O n <> i /\ child_right O n <> i).
    { rewrite B4, B5. pose proof (ctop_in O l) as Il. pose proof (ctop_in O r) as Ir. split; [exact M1|]. split; [right; apply in_or_app; now left|]. split; [right; apply in_or_app; now right|].
      split; [intros E; apply (Nlr (ctop l)); [exact Il|rewrite E; exact Ir]|]. split; intros E; apply Ni; rewrite <- E; apply in_or_app; auto. }
    destruct Fork as [F1 [F2 [F3 [F4 [F5 F6]]]]].
    assert (Ch : forall u, (u = l \/ u = r) -> stored (fr s) i u -> NoDup (cids u) -> In j (map fst (cleaves u)) -> 
      (forall s p j, stored (fr s) p u -> In j (map fst (cleaves u)) -> j <> ctop u -> NoDup (cids u) -> exists n q m, get s j = Ok n /\ is_leaf O n = true /\ parent O n = q /\ q <> j /\ In q (cids u) /\ get s q = Ok m /\ (child_left O m = j \/ child_right O m = j) /\
        In (child_left O m) (cids u) /\ In (child_right O m) (cids u) /\ child_left O m <> child_right O m /\ child_left O m <> q /\ child_right O m <> q /\ (parent O m = p \/ (In (parent O m) (cids u) /\ parent O m <> j))) ->
      exists n q m, get s j = Ok n /\ is_leaf O n = true /\ parent O n = q /\ q <> j /\ In q (cids (CFork i d v cs l r)) /\ get s q = Ok m /\ (child_left O m = j \/ child_right O m = j) /\
        In (child_left O m) (cids (CFork i d v cs l r)) /\ In (child_right O m) (cids (CFork i d v cs l r)) /\ child_left O m <> child_right O m /\ child_left O m <> q /\ child_right O m <> q /\
        (parent O m = p \/ (In (parent O m) (cids (CFork i d v cs l r)) /\ parent O m <> j))).
    { intros u Hu Su Nu Iu IH. assert (Up : forall q, In q (cids u) -> In q (cids (CFork i d v cs l r))) by (intros q Hq; right; apply in_or_app; destruct Hu as [->| ->]; auto).
      destruct (Z.eq_dec j (ctop u)) as [E|Ne].
      - destruct (Tl u j Nu Iu E) as [cj Eu]. subst u. destruct Su as [nj [Q1 [Q2 [Q3 [Q4 [Q5 [Q6 Q7]]]]]]]. cbn [Coarse_Spec.ctop] in *. exists nj, i, n. split; [exact Q1|]. split; [unfold is_leaf; now rewrite Q6|]. split; [exact Q2|]. split; [congruence|].
        split; [now left|]. split; [exact F1|]. split; [destruct Hu as [<-|<-]; cbn [Coarse_Spec.ctop] in *; auto|]. repeat (split; [assumption|]). now left.
      - destruct (IH s i j Su Iu Ne Nu) as [nj [q [m [Q1 [Q2 [Q3 [Q4 [Q5 [Q6 [Q7 [Q8 [Q9 [Q10 [Q11 [Q12 Q13]]]]]]]]]]]]]]].
        exists nj, q, m. repeat (split; [solve [auto]|]). right. destruct Q13 as [->|[Q13 Q14]]; [split; [now left|congruence]|auto]. }
    apply in_app_or in I. destruct I as [I|I]; [apply (Ch l); auto|apply (Ch r); auto].
  Qed.
  Lemma get_in : forall s i, Z.of_nat (length (nodes (fr s))) = nc -> 0 <= i < nc -> exists n, get s i = Ok n.
  Proof. intros s i A1 Hi. apply rd_in_bounds. lia. Qed.
  Lemma leaf_reset_def : forall s j n, arrays s -> get s j = Ok n -> is_leaf O n = true -> exists s' b, node_reset O c s j = Ok (s', b).
  Proof.
    intros s j n Ar G Lf. pose proof (rd_bounds _ _ _ _ G) as B. pose proof Ar as [A1 _]. unfold node_reset, fuel. cbn [reset_walk]. rewrite (proj2 (Z.ltb_lt 0 nc)), (proj2 (Z.leb_le 0 j)) by lia. cbn [andb]. rewrite G. cbn [bind]. rewrite Lf.
    destruct (reset_node_def (with_avail O s (avail s + 1)) j Ar) as [s' E]; [lia|]. rewrite E. cbn [bind]. rewrite Z.eqb_refl. eauto.
  Qed.
  Lemma reset_arrays : forall s i s', reset_node O c s i = Ok s' -> arrays s -> arrays s'.
  Proof.
    intros s i s' H [A1 [A2 A3]]. unfold reset_node in H. inv_bind H. inv_bind H. inv_bind H. injection H as <-. apply change_inv in E. destruct E as [m [m' [_ [_ ->]]]]. apply wr_length in E0, E1. cbn in *.
    repeat split; cbn; [rewrite upd_length; exact A1|lia|lia].
  Qed.
  Lemma reset_get : forall s i s' j, reset_node O c s i = Ok s' -> j <> i -> get s' j = get s j.
  Proof.
    intros s i s' j H N. unfold reset_node in H. inv_bind H. inv_bind H. inv_bind H. injection H as <-. apply change_inv in E. destruct E as [m [m' [G [_ ->]]]]. change (get (with_fr O s (put O (fr s) i m')) j = get s j).
    rewrite (get_put O s i m m' j G). now rewrite (proj2 (Z.eqb_neq i j)) by congruence.
  Qed.
  Lemma change_get : forall s i g s' j, change O s i g = Ok s' -> j <> i -> get s' j = get s j.
  Proof. intros s i g s' j H N. apply change_inv in H. destruct H as [m [m' [G [_ ->]]]]. rewrite (get_put O s i m m' j G). now rewrite (proj2 (Z.eqb_neq i j)) by congruence. Qed.
  Lemma change_arrays : forall s i g s', change O s i g = Ok s' -> arrays s -> arrays s'.
  Proof. intros s i g s' H [A1 [A2 A3]]. apply change_inv in H. destruct H as [m [m' [_ [_ ->]]]]. repeat split; cbn; [rewrite upd_length; exact A1|exact A2|exact A3]. Qed.
  Lemma cut_def : forall t s j k, stored (fr s) (-1) t -> arrays s -> NoDup (cids t) -> (forall q, In q (cids t) -> 0 <= q < nc) -> 0 <= k < Z.of_nat (length (roots (fr s))) ->
    In j (map fst (cleaves t)) -> j <> ctop t -> exists s', cut_block O c s j k = Ok s'.
  Proof.
    intros t s j k T Ar ND B Bk I Nj. destruct (leaf_parent t s (-1) j T I Nj ND) as [n [q [m [G1 [Lf [Pn [Nq [Iq [G2 [Ch [I1 [I2 [N1 [N2 [N3 Pm]]]]]]]]]]]]]]].
    unfold cut_block. rewrite G1. cbn [bind]. rewrite Pn, G2. cbn [bind].
    set (sib := if child_right O m =? j then child_left O m else child_right O m).
    assert (Bs : 0 <= sib < nc) by (unfold sib; destruct (_ =? _); auto).
    assert (Ns : sib <> j /\ sib <> q). { unfold sib. destruct (Z.eqb_spec (child_right O m) j) as [E|E]; [split; [congruence|exact N2]|split; [exact E|exact N3]]. }
    destruct (Z.eqb_spec (parent O m) (-1)) as [Ep|Ep].
    - destruct (reset_node_def s q Ar ltac:(auto)) as [s1 E1]. rewrite E1. cbn [bind]. pose proof (reset_arrays _ _ _ E1 Ar) as Ar1. pose proof (reset_get _ _ _ j E1 ltac:(congruence)) as G3.
      destruct (leaf_reset_def (with_avail O s1 (avail s1 + 1)) j n Ar1) as [s2 [b E2]]; [change (get s1 j = Ok n); congruence|exact Lf|]. rewrite E2. cbn [bind].
      assert (R2 : roots (fr s2) = roots (fr s) /\ length (nodes (fr s2)) = length (nodes (fr s))).
      { unfold node_reset, fuel in E2. cbn [reset_walk] in E2. pose proof (rd_bounds _ _ _ _ G1) as Bj. destruct Ar as [A1 _]. rewrite (proj2 (Z.ltb_lt 0 nc)), (proj2 (Z.leb_le 0 j)) in E2 by lia. cbn [andb] in E2. 
        change (get (with_avail O s1 (avail s1 + 1)) j) with (get s1 j) in E2. rewrite G3, G1 in E2. cbn [bind] in E2. rewrite Lf in E2. inv_bind E2. rewrite Z.eqb_refl in E2. injection E2 as <- _.
        apply reset_inv in E, E1. destruct E1 as [m1 [fo [fa [_ [_ [_ ->]]]]]]. destruct E as [m2 [fo2 [fa2 [_ [_ [_ ->]]]]]]. cbn. rewrite !upd_length. auto. }
      destruct R2 as [R2 R3]. unfold set_root. rewrite wr_ok by (rewrite R2; lia). cbn [bind]. apply change_def; [cbn; rewrite R3; apply Ar|exact Bs].
    - destruct Pm as [Pm|[Pm Np]]; [contradiction|]. destruct (change_def s (parent O m) (fun g => if child_right O g =? q then set_children O g (child_left O g) sib else set_children O g sib (child_right O g)) (proj1 Ar) ltac:(auto)) as [s1 E1].
      rewrite E1. cbn [bind]. pose proof (change_arrays _ _ _ _ E1 Ar) as Ar1. destruct (change_def s1 sib (fun b => set_parent O b (parent O m)) (proj1 Ar1) Bs) as [s2 E2]. rewrite E2. cbn [bind]. pose proof (change_arrays _ _ _ _ E2 Ar1) as Ar2.
      destruct (reset_node_def (with_avail O s2 (avail s2 + 1)) q Ar2 ltac:(auto)) as [s3 E3]. rewrite E3. cbn [bind]. pose proof (reset_arrays _ _ _ E3 Ar2) as Ar3.
      destruct (leaf_reset_def s3 j n Ar3) as [s4 [b E4]]; [|exact Lf|rewrite E4; cbn [bind]; eauto].
      rewrite (reset_get _ _ _ j E3) by congruence. change (get s2 j = Ok n). destruct Ns as [Ns _]. rewrite (change_get _ _ _ _ j E2), (change_get _ _ _ _ j E1) by congruence. exact G1.
  Qed.
  Lemma pick_leaf : forall s ts i o s2 id, trim_safe O rnd c -> c_trim O c <> TRIM_NONE -> inv s ts -> nth_error ts i = Some o -> pick_trim O rnd c s (Z.of_nat i) = Ok (s2, id) ->
    quiet s s2 /\ (rid O o <> id -> 0 <= id -> exists t, o = Some t /\ In id (map fst (cleaves t))).
  Proof.
    intros s ts i o s2 id Sf Nn V Hi H. unfold pick_trim in H. pose proof V as [H1 [H2 [H3 [H4 H5]]]]. destruct (H2 i o Hi) as [Hr Hs]. rewrite Hr in H. cbn [bind] in H.
    inv_bind H. destruct v as [depth [s3 a]]. injection H as <- Hid.
    assert (Qu : quiet s s3).
    { change s3 with (fst (snd (depth, (s3, a)))). eapply walk_keeps; [apply quiet_refl|apply quiet_trans|exact trim_visit_keeps|exact E]. }
    split; [exact Qu|]. intros N0 N1.
    destruct o as [t|]; cbn [rid] in *.
    2: { unfold walk_from, fuel in E. cbn [walk] in E. change (0 <=? -1) with false in E. rewrite andb_false_r in E. injection E as <- <- <-. cbn in Hid. lia. }
    exists t. split; [reflexivity|]. destruct (tree_ids O c s ts i t V Hi) as [ND [It [Sz _]]].
    apply walk_root in E; [|intros q j a0 q' a' X; apply trim_visit_ok in X; [|exact L]; destruct X as [[X _] _]; intros z m Hm; exists m; rewrite X; auto|now apply stored_shape with c|exact Sz|intros q Hq; now apply It].
    cbn [fst snd] in E. destruct E as [E0|[Ed Ev]].
    - rewrite (proj2 (Z.leb_le max_stack_size depth)) in Hid by (unfold max_stack_size; lia). lia.
    - subst depth. change (max_stack_size <=? -1) with false in Hid. change (negb (-1 =? -1)) with false in Hid. destruct (nlt O (n_ 0) (leaf_sum O a) && nlt O (c_max_trim O c) (ndiv O (smallest O a) (leaf_sum O a))); [lia|].
      apply vfold_id in Ev; [|exact L]. destruct Ev as [_ [_ Ev]].
      assert (Hl : rleaves O t <> []) by (clear; induction t as [q cq|q dq vq cq l IHl r IHr]; cbn; [discriminate|]; intros X; apply app_eq_nil in X; tauto).
      specialize (Ev Sf Nn Hl eq_refl). rewrite Hid in Ev. rewrite rleaves_leaves in Ev. now apply in_rev in Ev.
  Qed.
  Lemma trim_step : forall s ts i o, trim_safe O rnd c -> c_trim O c <> TRIM_NONE -> inv s ts -> nth_error ts i = Some o ->
    exists s' o', (do (s, id) <- pick_trim O rnd c s (Z.of_nat i);
      do root <- rd (roots (fr s)) (Z.of_nat i);
      if negb (root =? id) && (0 <=? id) && (id <? nc) then cut_block O c s id (Z.of_nat i) else Ok s) = Ok s' /\ trimmed O o o' /\ inv s' (upd ts i o') /\ same O s s' /\
      exists s2, quiet s s2 /\ (s' = s2 \/ exists id, cut_block O c s2 id (Z.of_nat i) = Ok s').
  Proof.
    intros s ts i o Sf Nn V Hi. pose proof V as [H1 [H2 [H3 [H4 H5]]]]. destruct (H2 i o Hi) as [Hr Hs].
    assert (X : exists s2 id, pick_trim O rnd c s (Z.of_nat i) = Ok (s2, id)).
    { unfold pick_trim. rewrite Hr. cbn [bind]. destruct (walk_some _ _ trim_visit_keeps trim_visit_works s ts i o (mkTrim O (n_ 0) (n_ 0) (n_ (-1)) 0) V Hi) as [[d [s2 a]] E]. rewrite E. cbn [bind]. eauto. }
    destruct X as [s2 [id E]]. destruct (pick_leaf _ _ _ _ _ _ Sf Nn V Hi E) as [Qu Lf]. rewrite E. cbn [bind]. pose proof Qu as [[_ [Er _]] _]. rewrite Er, Hr. cbn [bind]. pose proof (inv_same O c _ _ _ (proj1 Qu) V) as V2.
    destruct (negb (rid O o =? id) && (0 <=? id) && (id <? nc)) eqn:B.
    2: { exists s2, o. split; [reflexivity|]. split; [now left|]. split; [now rewrite upd_same_id|]. split; [apply Qu|]. eauto. }
    apply andb_prop in B. destruct B as [B _]. apply andb_prop in B. destruct B as [B1 B2]. apply negb_true_iff, Z.eqb_neq in B1. apply Z.leb_le in B2. destruct (Lf B1 B2) as [t [-> Il]]. cbn [rid] in *.
    destruct (tree_ids O c s2 ts i t V2 Hi) as [ND [It [Sz _]]]. pose proof V2 as [_ [H2' [_ [H4' _]]]]. destruct (H2' i _ Hi) as [Hr' Hs'].
    destruct (cut_def t s2 id (Z.of_nat i) Hs' H4' ND It) as [s' Ec]; [now apply rd_bounds in Hr'|exact Il|congruence|]. rewrite Ec.
    destruct (cut_ok O log_ c L Hlife (Z.of_nat i) _ t s2 (-1) _ 0 id s' (inv_before _ _ _ _ _ _ V2 Hi)) as [t' [C A]]; auto; [now left|].
    exists s', (Some t'). split; [reflexivity|]. split; [right; exists id, t, t'; auto|]. split; [eapply inv_after; eauto|]. split; [eapply same_trans; [apply Qu|apply A]|]. exists s2. split; [exact Qu|]. right. eauto.
  Qed.
  Lemma trim_def : forall (W : coarse -> Prop) s ts, (forall a b, quiet a b -> W a -> W b) -> (forall a id k b, cut_block O c a id k = Ok b -> W a -> W b) -> trim_safe O rnd c -> c_trim O c <> TRIM_NONE -> inv s ts -> W s ->
    exists s' ts', tree_trim O rnd c s = Ok s' /\ Forall2 (trimmed O) ts ts' /\ inv s' ts' /\ same O s s' /\ W s'.
  Proof.
    intros W s ts W1 W2 Sf Nn V Hw. pose proof V as [Ln _]. unfold tree_trim.
    match goal with |- exists s' ts', forZ ?n ?i ?b s = _ /\ _ => destruct (forZ_inv _ (fun j s1 => exists ts1, inv s1 ts1 /\ same O s s1 /\ W s1 /\
      forall k o1, nth_error ts1 k = Some o1 -> if Z.of_nat k <? j then exists o, nth_error ts k = Some o /\ trimmed O o o1 else nth_error ts k = Some o1) b n i s) as [s' [E [ts' [V' [Sm [W' F]]]]]] end.
    - exists ts. split; [exact V|]. split; [apply same_refl|]. split; [exact Hw|]. intros k o1 Hk. rewrite (proj2 (Z.ltb_ge (Z.of_nat k) 0)) by lia. exact Hk.
    - intros j s1 Hj [ts1 [V1 [S1 [Hw1 F]]]]. pose proof V1 as [Ln1 _]. destruct (nth_error ts1 (Z.to_nat j)) as [o|] eqn:Ho; [|apply nth_error_None in Ho; lia].
      destruct (trim_step s1 ts1 _ o Sf Nn V1 Ho) as [s2 [o' [E [Tr [V2 [S2 [q [Qu C]]]]]]]]. rewrite Z2Nat.id in E by lia. exists s2. split; [exact E|]. exists (upd ts1 (Z.to_nat j) o'). split; [exact V2|]. split; [eapply same_trans; eauto|].
      split; [destruct C as [->|[id C]]; [|eapply W2; [exact C|]]; eapply W1; eauto|].
      intros k o1 Hk. destruct (Nat.eq_dec k (Z.to_nat j)) as [->|Nk].
      + rewrite (proj2 (Z.ltb_lt (Z.of_nat (Z.to_nat j)) (j + 1))) by lia. rewrite nth_error_upd_same in Hk by (apply nth_error_Some; congruence). injection Hk as <-. specialize (F _ _ Ho). rewrite (proj2 (Z.ltb_ge (Z.of_nat (Z.to_nat j)) j)) in F by lia. eauto.
      + rewrite nth_error_upd_other in Hk by congruence. specialize (F _ _ Hk). destruct (Z.ltb_spec (Z.of_nat k) j) as [X|X]; [rewrite (proj2 (Z.ltb_lt (Z.of_nat k) (j + 1))) by lia|rewrite (proj2 (Z.ltb_ge (Z.of_nat k) (j + 1))) by lia]; exact F.
    - exists s', ts'. split; [exact E|]. split; [|split; [exact V'|split; [exact Sm|exact W']]]. pose proof V' as [Ln' _].
      apply Forall2_from_nth; [lia|]. intros k o o1 Hk Hk1. specialize (F k o1 Hk1). destruct (_ <? _); [destruct F as [o2 [A B]]; congruence|]. left. congruence.
  Qed.
End TrimTotal.
