(** * Proofs for the coarse Mondrian forest: what a prediction recounts *)
From Coq Require Import ZArith List Bool Lia.
From Verif Require Import CppBase CppFacts NumOps Utils_Model Mondrian_Model Mondrian_Spec Mondrian_Proofs Coarse_Model Coarse_Spec Coarse_Heap Coarse_Walk Coarse_Train Coarse_Trim Coarse_Forest Coarse_Reach Coarse_Tidy Coarse_Total.
From Verif Require MCNN_Proofs.
Import ListNotations.
Local Open Scope Z_scope.

Section Recount.
  Variable O : ops.
  Variable c : config O.
  Variable l0 : Z.
  Hypothesis Hs : csizes O c l0.
  Local Notation node := (node O).
  Local Notation forest := (forest O).
  Local Notation coarse := (coarse O).
  Local Notation fr := (fr O).
  Local Notation nodes := (nodes O).
  Local Notation roots := (roots O).
  Local Notation put := (put O).
  Local Notation counters := (counters O).
  Local Notation fc := (c_features O c).
  Local Notation lc := (c_labels O c).
  Local Notation nc := (c_nodes O c).
  Local Notation tc := (c_trees O c).
  Local Notation ctree := (ctree O).
  Local Notation ctop := (ctop O).
  Local Notation cids := (cids O).
  Local Notation csize := (csize O).
  Local Notation stored := (stored O fc lc).
  Local Notation inv := (inv O c).
  Local Notation recapped := (recapped O lc).
  Let Hlc : 1 <= lc := proj1 (proj2 (proj2 Hs)).

  Definition cnt (f : forest) (i k : Z) : Z := match rd (nodes f) i with Ok n => at_label k (counters n) | _ => 0 end.
  Fixpoint told (f : forest) (t : ctree) : Prop :=
    match t with
    | CLeaf _ _ => True
    | CFork i _ _ _ l r => (forall k, 0 <= k < lc -> cnt f i k = Z.min 1 (cnt f (ctop l) k) + Z.min 1 (cnt f (ctop r) k)) /\ told f l /\ told f r
    end.
  Lemma cnt_frame : forall f f' i k, rd (nodes f') i = rd (nodes f) i -> cnt f' i k = cnt f i k.
  Proof. intros f f' i k H. unfold cnt. now rewrite H. Qed.
  Lemma told_frame : forall t f f', (forall j, In j (cids t) -> rd (nodes f') j = rd (nodes f) j) -> told f t -> told f' t.
  Proof.
    induction t as [i cs|i d v cs l IHl r IHr]; intros f f' H T; [exact I|]. destruct T as [T1 [T2 T3]]. cbn [Coarse_Spec.cids] in H. split; [|split].
    - intros k Hk. rewrite !(cnt_frame f f'); [now apply T1| | |]; apply H; [right; apply in_or_app; right; apply ctop_in|right; apply in_or_app; left; apply ctop_in|now left].
    - apply IHl with f; auto. intros j Hj. apply H. right. apply in_or_app. auto.
    - apply IHr with f; auto. intros j Hj. apply H. right. apply in_or_app. auto.
  Qed.
  Lemma told_recapped : forall t t' f p, alike O t t' -> stored f p t' -> told f t -> recapped t'.
  Proof.
    assert (A : forall (t : ctree) f p k, stored f p t -> cnt f (ctop t) k = at_label k (top_counters O t)). { intros t f p k H. apply stored_node in H. destruct H as [n [H1 [_ [H2 _]]]]. unfold cnt. now rewrite H1, H2. }
    intros t t' f p H. revert p. induction H as [|i d v cs cs' l l' r r' Hl IHl Hr IHr]; intros p St T; [exact I|]. destruct T as [T1 [T2 T3]]. pose proof St as St'.
    destruct St as [n [_ [_ [_ [_ [_ [_ [_ [_ [_ [_ [Sl Sr]]]]]]]]]]]]. destruct (alike_facts O _ _ Hl) as [El _]. destruct (alike_facts O _ _ Hr) as [Er _].
    cbn [Coarse_Spec.recapped]. split; [|split; eauto]. intros k Hk. pose proof (A _ _ _ k St') as X. cbn [Coarse_Spec.ctop Coarse_Spec.top_counters] in X. rewrite <- X, T1 by exact Hk. rewrite <- El, <- Er. now rewrite (A _ _ _ k Sl), (A _ _ _ k Sr).
  Qed.
  Lemma at_upd : forall k j cs v, 0 <= k < Z.of_nat (length cs) -> 0 <= j -> at_label j (upd cs (Z.to_nat k) v) = if k =? j then v else at_label j cs.
  Proof.
    intros k j cs v Hk Hj. unfold at_label. rewrite MCNN_Proofs.nth_upd by lia. destruct (Z.eqb_spec k j) as [->|N]; [now rewrite Nat.eqb_refl|]. destruct (Nat.eqb_spec (Z.to_nat k) (Z.to_nat j)); [lia|reflexivity].
  Qed.
  Lemma rd_at : forall cs k v, rd cs k = Ok v -> at_label k cs = v.
  Proof. intros cs k v H. apply rd_ok_iff in H. destruct H as [_ H]. unfold at_label. now apply nth_error_nth with (d := 0) in H. Qed.
  Lemma posterior_told : forall t f0 f p steps f', stored f0 p t -> recounted O f0 f -> NoDup (cids t) -> update_posterior_count O lc steps f (ctop t) = Ok f' ->
    told f' t /\ forall j, ~ In j (cids t) -> rd (nodes f') j = rd (nodes f) j.
  Proof.
    induction t as [i cs|i d v cs l IHl r IHr]; intros f0 f p steps f' T Rc Nd E.
    - destruct T as [n [A [_ [_ [B [_ [D _]]]]]]]. cbn [Coarse_Spec.ctop] in *. destruct steps as [|steps]; [discriminate|]. cbn [update_posterior_count] in E. destruct Rc as [_ [_ Rc]]. destruct (Rc _ _ A) as [ci [Ei _]]. rewrite Ei in E. cbn [bind] in E.
      unfold is_leaf in E. cbn [split_dimension set_counters] in E. rewrite D in E. change (-1 =? -1) with true in E. injection E as <-. split; [exact I|auto].
    - destruct T as [n [A [_ [_ [B [_ [D [D1 [_ [Cl [Cr [Tl' Tr]]]]]]]]]]]]. cbn [Coarse_Spec.ctop] in *. destruct steps as [|steps]; [discriminate|]. cbn [update_posterior_count] in E. pose proof Rc as [_ [_ Rn]]. destruct (Rn _ _ A) as [ci [Ei [Li _]]]. rewrite Ei in E. cbn [bind] in E.
      unfold is_leaf in E. cbn [split_dimension child_left child_right set_counters] in E. rewrite D, (proj2 (Z.eqb_neq d (-1))) in E by lia. rewrite Cl, Cr in E.
      cbn [Coarse_Spec.cids] in Nd. apply NoDup_cons_iff in Nd. destruct Nd as [Ni Nd]. apply nodup_app in Nd. destruct Nd as [Nl [Nr Nx]].
      inv_bind E. inv_bind E. rename v0 into f1, v1 into f2. destruct (IHl _ _ _ _ _ Tl' Rc Nl E0) as [L1 L2]. apply posterior_ok in E0. assert (R1 : recounted O f0 f1) by (eapply recounted_trans; eauto).
      destruct (IHr _ _ _ _ _ Tr R1 Nr E1) as [M1 M2]. assert (L3 : told f2 l). { apply told_frame with f1; auto. intros j Hj. apply M2. intros X. exact (Nx j Hj X). }
      assert (Ei2 : rd (nodes f2) i = Ok (set_counters O n ci)). { rewrite M2 by (intros X; apply Ni, in_or_app; auto). rewrite L2 by (intros X; apply Ni, in_or_app; auto). exact Ei. }
      set (P := fun (k : Z) (g : forest) => 0 <= k /\ (forall j, j <> i -> rd (nodes g) j = rd (nodes f2) j) /\ exists cs', rd (nodes g) i = Ok (set_counters O n cs') /\ length cs' = Z.to_nat lc /\
        forall q, 0 <= q < k -> at_label q cs' = Z.min 1 (cnt f2 (ctop l) q) + Z.min 1 (cnt f2 (ctop r) q)).
      assert (PF : P (0 + Z.of_nat (Z.to_nat lc)) f').
      { refine (forZ_inv_post _ P _ _ 0 _ _ _ _ E).
        - split; [lia|]. split; [auto|]. exists ci. split; [exact Ei2|]. split; [congruence|]. intros; lia.
        - intros k g g' Hk [_ [Fr [cs' [Eg [Lg Ag]]]]] H. rewrite Z.add_0_l in Hk. rewrite Eg in H. cbn [bind child_left child_right set_counters] in H. rewrite Cl, Cr in H.
          inv_bind H. inv_bind H. inv_bind H. inv_bind H. assert (X1 : ctop l <> i) by (intros X; apply Ni, in_or_app; left; rewrite <- X; apply ctop_in). assert (X2 : ctop r <> i) by (intros X; apply Ni, in_or_app; right; rewrite <- X; apply ctop_in).
          apply with_node_inv in H. destruct H as [n1 [n2 [H1 [H2 ->]]]]. rewrite Eg in H1. injection H1 as <-. inv_bind H2. injection H2 as <-. cbn [Mondrian_Model.counters set_counters] in *. apply wr_inv in E6. destruct E6 as [_ ->].
          split; [lia|]. split; [intros j Hj; rewrite (rd_put O _ _ _ _ _ Eg); destruct (Z.eqb_spec i j); [congruence|auto]|]. eexists. split; [rewrite (rd_put O _ _ _ _ _ Eg), Z.eqb_refl; reflexivity|]. split; [now rewrite upd_length|].
          intros q Hq. rewrite at_upd by lia. destruct (Z.eqb_spec k q) as [<-|Nq]; [|apply Ag; lia]. rewrite Fr in E2, E4 by assumption. unfold cnt. rewrite E2, E4. now rewrite (rd_at _ _ _ E3), (rd_at _ _ _ E5). }
      destruct PF as [_ [Fr [cs' [Eg [Lg Ag]]]]]. assert (X1 : ctop l <> i) by (intros X; apply Ni, in_or_app; left; rewrite <- X; apply ctop_in). assert (X2 : ctop r <> i) by (intros X; apply Ni, in_or_app; right; rewrite <- X; apply ctop_in). split.
      + cbn [told]. split; [|split; [apply told_frame with f2; auto; intros j Hj; apply Fr; intros ->; apply Ni, in_or_app; auto|apply told_frame with f2; auto; intros j Hj; apply Fr; intros ->; apply Ni, in_or_app; auto]].
        intros k Hk. rewrite !(cnt_frame f2 f' (ctop _)) by auto. unfold cnt at 1. rewrite Eg. cbn [Mondrian_Model.counters set_counters]. apply Ag. lia.
      + intros j Hj. cbn [Coarse_Spec.cids] in Hj. rewrite Fr by (intros ->; apply Hj; now left). rewrite M2 by (intros X; apply Hj; right; apply in_or_app; auto). apply L2. intros X; apply Hj; right; apply in_or_app; auto.
  Qed.
  Lemma put_same : forall f i n, rd (nodes f) i = Ok n -> put f i n = f.
  Proof. intros [ns rs k] i n H. apply rd_ok_iff in H. destruct H as [_ H]. unfold Mondrian_Proofs.put. cbn [Mondrian_Model.nodes Mondrian_Model.roots drawn] in *. now rewrite upd_same_id. Qed.
  Lemma posterior_again : forall t f p steps, stored f p t -> told f t -> csize t <= Z.of_nat steps -> update_posterior_count O lc steps f (ctop t) = Ok f.
  Proof.
    induction t as [i cs|i d v cs l IHl r IHr]; intros f p steps T To Hz.
    - destruct T as [n [A [_ [_ [B [_ [D _]]]]]]]. cbn [Coarse_Spec.ctop] in *. destruct steps as [|steps]; [unfold Coarse_Walk.csize in Hz; cbn in Hz; lia|]. cbn [update_posterior_count]. rewrite A. cbn [bind]. unfold is_leaf. now rewrite D.
    - destruct T as [n [A [_ [_ [B [_ [D [D1 [_ [Cl [Cr [Tl' Tr]]]]]]]]]]]]. cbn [Coarse_Spec.ctop] in *. rewrite csize_fork in Hz. pose proof (csize_pos O l). pose proof (csize_pos O r). destruct steps as [|steps]; [lia|]. cbn [update_posterior_count].
      rewrite A. cbn [bind]. unfold is_leaf. rewrite D, (proj2 (Z.eqb_neq d (-1))) by lia. rewrite Cl, Cr. destruct To as [T1 [T2 T3]]. rewrite (IHl f i steps Tl' T2) by lia. cbn [bind]. rewrite (IHr f i steps Tr T3) by lia. cbn [bind].
      apply stored_node in Tl'. destruct Tl' as [nl [Al [_ [_ [Bl _]]]]]. apply stored_node in Tr. destruct Tr as [nr [Ar [_ [_ [Br _]]]]].
      assert (G : forall m k, 0 <= k -> k + Z.of_nat m <= lc -> forZ m k (fun i0 f1 => do n0 <- rd (nodes f1) i; do l1 <- rd (nodes f1) (child_left O n0); do cl <- rd (counters l1) i0; do r0 <- rd (nodes f1) (child_right O n0); do cr <- rd (counters r0) i0;
        with_node O f1 i (fun n1 => do cs0 <- wr (counters n1) i0 (Z.min 1 cl + Z.min 1 cr); Ok (set_counters O n1 cs0))) f = Ok f); [|apply G; lia].
      induction m as [|m IH]; intros k Hk Hm; [reflexivity|]. cbn [forZ]. rewrite A. cbn [bind]. rewrite Cl, Cr, Al. cbn [bind]. destruct (rd_in_bounds _ (counters nl) k) as [a Ha]; [lia|]. rewrite Ha. cbn [bind]. rewrite Ar. cbn [bind].
      destruct (rd_in_bounds _ (counters nr) k) as [b Hb]; [lia|]. rewrite Hb. cbn [bind]. unfold with_node at 1. rewrite A. cbn [bind]. rewrite wr_ok by lia. cbn [bind]. apply rd_ok_iff in A as Ai. destruct Ai as [Ai Aj].
      assert (Li : Z.of_nat (Z.to_nat i) < Z.of_nat (length (nodes f))) by (apply Nat2Z.inj_lt, nth_error_Some; congruence). rewrite wr_ok by lia. cbn [bind].
      assert (X : upd (counters n) (Z.to_nat k) (Z.min 1 a + Z.min 1 b) = counters n).
      { apply upd_same_id. specialize (T1 k ltac:(lia)). unfold cnt in T1. rewrite A, Al, Ar, (rd_at _ _ _ Ha), (rd_at _ _ _ Hb) in T1. rewrite <- T1. unfold at_label. apply nth_error_nth'. lia. }
      rewrite X, set_counters_same. pose proof (put_same _ _ _ A) as PS. unfold Mondrian_Proofs.put in PS. rewrite PS. clear PS. apply IH; lia.
  Qed.

  Lemma update_all_told : forall s s' ts, inv s ts -> update_all O c s = Ok s' -> forall i t, nth_error ts i = Some (Some t) -> told (fr s') t.
  Proof.
    intros s s' ts V E i t Hi. unfold update_all in E. inv_bind E. injection E as <-. cbn [Coarse_Model.fr with_fr]. rename v into f'. pose proof V as [Ln [Tr [Po _]]]. pose proof Po as [_ [P2 [P3 _]]].
    set (P := fun (k : Z) (g : forest) => 0 <= k /\ recounted O (fr s) g /\ forall i t, nth_error ts i = Some (Some t) -> Z.of_nat i < k -> told g t).
    assert (PF : P (0 + Z.of_nat (Z.to_nat tc)) f').
    { refine (forZ_inv_post _ P _ _ 0 _ _ _ _ E0); [split; [lia|]; split; [apply recounted_refl|intros; lia]|]. intros k g g' Hk [_ [Rc To]] H. rewrite Z.add_0_l in Hk.
      destruct (nth_error ts (Z.to_nat k)) as [o|] eqn:Ho; [|apply nth_error_None in Ho; lia]. destruct (Tr _ _ Ho) as [Er St]. rewrite Z2Nat.id in Er by lia. pose proof Rc as [Rr _]. rewrite Rr, Er in H. cbn [bind] in H. destruct o as [u|]; cbn [rid] in H.
      - assert (U : forall j, In j (cids u) -> 0 <= j < nc) by (intros j Hj; apply P3; eapply all_cids_in; eauto). assert (Hu : 0 <= ctop u) by apply U, ctop_in. rewrite (proj2 (Z.eqb_neq (ctop u) (-1))) in H by lia.
        assert (Nd : NoDup (cids u) /\ forall i' t', nth_error ts i' = Some (Some t') -> i' <> Z.to_nat k -> forall j, In j (cids t') -> ~ In j (cids u)).
        { assert (Lk : (Z.to_nat k < length ts)%nat) by (apply nth_error_Some; congruence). assert (Y : NoDup (all_cids O (upd ts (Z.to_nat k) None) ++ cids u)) by (eapply Permutation.Permutation_NoDup; [|exact P2]; rewrite <- (upd_same_id _ ts _ (Some u) Ho) at 1; apply (all_cids_upd O ts _ (Some u) Lk)).
          apply nodup_app in Y. destruct Y as [_ [Y1 Y2]]. split; [exact Y1|]. intros i' t' Hi' N j Hj X. apply (Y2 j); [|exact X]. apply (all_cids_in O (upd ts (Z.to_nat k) None) i' (Some t') j); [|exact Hj]. rewrite nth_error_upd. destruct (Nat.eqb_spec (Z.to_nat k) i'); [congruence|exact Hi']. }
        destruct Nd as [Nd Nx]. destruct (posterior_told _ _ _ _ _ _ St Rc Nd H) as [T1 T2]. split; [lia|]. split; [apply posterior_ok in H; eapply recounted_trans; eauto|].
        intros i' t' Hi' L. destruct (Nat.eq_dec i' (Z.to_nat k)) as [->|N]; [replace t' with u by congruence; exact T1|]. apply told_frame with g; [|apply (To i'); auto; lia]. intros j Hj. apply T2. eapply Nx; eauto.
      - change (-1 =? -1) with true in H. injection H as <-. split; [lia|]. split; [exact Rc|]. intros i' t' Hi' L. apply (To i'); auto. destruct (Nat.eq_dec i' (Z.to_nat k)) as [->|N]; [congruence|lia]. }
    destruct PF as [_ [_ PF]]. apply (PF i t Hi). assert (i < length ts)%nat by (apply nth_error_Some; congruence). lia.
  Qed.
  Lemma with_same : forall s : coarse, with_fr O s (fr s) = s.
  Proof. now intros []. Qed.
  Lemma told_again : forall s ts, inv s ts -> (forall i t, nth_error ts i = Some (Some t) -> told (fr s) t) -> update_all O c s = Ok s.
  Proof.
    intros s ts V To. pose proof V as [Ln [Tr [Po _]]]. pose proof Po as [_ [P2 [P3 _]]]. unfold update_all. assert (0 <= nc) by (pose proof Hs as HH; unfold csizes in HH; lia).
    match goal with |- bind ?m _ = _ => assert (G : m = Ok (fr s)) end; [|rewrite G; cbn [bind]; now rewrite with_same].
    assert (G : forall m k, 0 <= k -> k + Z.of_nat m <= tc -> forZ m k (fun i f => do root <- rd (roots f) i; if root =? -1 then Ok f else update_posterior_count O lc (Datatypes.S (Z.to_nat nc)) f root) (fr s) = Ok (fr s)); [|apply G; lia].
    induction m as [|m IH]; intros k Hk Hm; [reflexivity|]. cbn [forZ]. destruct (nth_error ts (Z.to_nat k)) as [o|] eqn:Ho; [|apply nth_error_None in Ho; lia]. destruct (Tr _ _ Ho) as [Er St]. rewrite Z2Nat.id in Er by lia. rewrite Er. cbn [bind].
    destruct o as [u|]; cbn [rid]; [|change (-1 =? -1) with true; cbn iota; cbn [bind]; apply IH; lia].
    assert (U : forall j, In j (cids u) -> 0 <= j < nc) by (intros j Hj; apply P3; eapply all_cids_in; eauto). assert (Hu : 0 <= ctop u) by apply U, ctop_in. rewrite (proj2 (Z.eqb_neq (ctop u) (-1))) by lia.
    assert (Nd : NoDup (cids u)). { pose proof Ho as Ht. apply nth_error_split in Ht. destruct Ht as [a [b [-> _]]]. rewrite all_cids_app, all_cids_cons in P2. apply nodup_app in P2. destruct P2 as [_ [P2 _]]. apply nodup_app in P2. apply P2. }
    assert (X : (length (cids u) <= length (zrange nc))%nat) by (apply NoDup_incl_length; [exact Nd|]; intros j Hj; apply zrange_in; auto). rewrite zrange_length in X.
    rewrite (posterior_again u (fr s) (-1)); [cbn [bind]; apply IH; lia|exact St|now apply (To _ _ Ho)|unfold Coarse_Walk.csize; lia].
  Qed.
  Lemma update_all_again : forall s s' ts, inv s ts -> update_all O c s = Ok s' -> exists ts', Forall2 (fun o o' => match o, o' with Some t, Some t' => alike O t t' /\ recapped t' | None, None => True | _, _ => False end) ts ts' /\ inv s' ts' /\ update_all O c s' = Ok s'.
  Proof.
    intros s s' ts V E. pose proof (update_all_told _ _ _ V E) as To. apply update_all_ok in E. destruct E as [R1 [R2 R3]]. destruct (inv_recounted _ _ _ _ _ V R1 R2 R3) as [ts' [F V']]. exists ts'.
    assert (X : forall i t', nth_error ts' i = Some (Some t') -> exists t, nth_error ts i = Some (Some t) /\ alike O t t').
    { clear - F. induction F as [|o o' ts ts' H F IH]; intros [|i] t' Ht; try discriminate; [|now apply IH]. cbn in Ht. injection Ht as ->. destruct o as [t|]; [|contradiction]. exists t. auto. }
    assert (A : forall t t' f, alike O t t' -> told f t -> told f t').
    { intros t t' f H. induction H as [|i d v cs cs' l l' r r' Hl IHl Hr IHr]; intros T; [exact I|]. destruct T as [T1 [T2 T3]]. destruct (alike_facts O _ _ Hl) as [El _]. destruct (alike_facts O _ _ Hr) as [Er _]. cbn [told]. rewrite El, Er. auto. }
    split; [|split; [exact V'|]].
    - assert (Y : forall i t t', nth_error ts i = Some (Some t) -> nth_error ts' i = Some (Some t') -> alike O t t' -> recapped t').
      { intros i t t' H1 H2 H3. destruct V' as [_ [Tr _]]. destruct (Tr _ _ H2) as [_ St]. apply told_recapped with t (fr s') (-1); auto. now apply (To i). }
      clear - F Y. induction F as [|o o' ts ts' H F IH]; constructor; [|apply IH; intros i t t' H1 H2; now apply (Y (Datatypes.S i))]. destruct o as [t|], o' as [t'|]; try contradiction; auto. split; [exact H|]. now apply (Y 0%nat t t').
    - apply told_again with ts'; [exact V'|]. intros i t' Ht. destruct (X _ _ Ht) as [t [H1 H2]]. apply A with t; auto. now apply (To i).
  Qed.
End Recount.
