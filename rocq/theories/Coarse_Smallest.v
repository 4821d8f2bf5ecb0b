(** * Proofs for the coarse Mondrian forest: the leaf that is trimmed *)
From Coq Require Import ZArith List Bool Lia Permutation.
From Verif Require NumFacts.
From Verif Require Import CppBase CppFacts NumOps Utils_Model Mondrian_Model Mondrian_Spec Mondrian_Proofs Coarse_Model Coarse_Spec Coarse_Heap Coarse_Walk Coarse_Train Coarse_Trim Coarse_Forest Coarse_Reach.
Import ListNotations.
Local Open Scope Z_scope.

Section Smallest.
  Variable O : ops.
  Variable exp_ log_ : num O -> num O.
  Variable rnd : nat -> num O.
  Variable c : config O.
  Variable l0 B : Z.
  Hypothesis L : tlaws O.
  Hypothesis Hs : csizes O c l0.
  Local Notation coarse := (coarse O).
  Local Notation fr := (fr O).
  Local Notation n_ := (nofZ O).
  Local Notation fc := (c_features O c).
  Local Notation lc := (c_labels O c).
  Local Notation kind := (c_extend O c).
  Local Notation ctree := (ctree O).
  Local Notation cleaves := (cleaves O).
  Local Notation all_counts := (all_counts O).
  Local Notation stored := (stored O fc lc).
  Local Notation creached := (creached O exp_ log_ rnd c l0).
  Local Notation inv := (inv O c).
  Hypothesis Hkind : kind <> EXTEND_BARYCENTER.
  Hypothesis Honce : kind <> EXTEND_COUNTER_NO_UPDATE.

  (** ** The leaves never count more points than were trained *)
  Definition bounded (n : Z) (t : ctree) : Prop := Forall (fun k => 0 <= k) (all_counts t) /\ zsum (all_counts t) <= n.
  Lemma zsum_nonneg : forall l, Forall (fun k => 0 <= k) l -> 0 <= zsum l.
  Proof. intros l F. induction F; cbn; [lia|]. unfold zsum in *. lia. Qed.
  Lemma single_counts : forall label i, 0 <= label < lc -> bounded 1 (single O lc label i).
  Proof.
    intros label i Hl. unfold bounded, single. rewrite counts_leaf. split; [apply bumped_nonneg; apply Forall_forall; intros q Hq; apply repeat_spec in Hq; lia|].
    rewrite zsum_bumped by (rewrite repeat_length; lia). now rewrite zsum_zeros.
  Qed.
  Lemma grown_bounded : forall label x room D b t t', 0 <= label < lc -> grown O kind lc label x room D b t t' ->
    forall f p, stored f p t -> forall n, bounded n t -> bounded (n + 1) t'.
  Proof.
    intros label x room D b t t' Hl G. induction G; intros f p St m [P1 P2].
    - apply (IHG f p St m). now split.
    - unfold bounded in *. rewrite !counts_leaf in *. split; [now apply bumped_nonneg|]. rewrite zsum_bumped; [lia|]. apply stored_wide in St. cbn in St. lia.
    - unfold bounded in *. rewrite !counts_fork in *. apply Forall_app in P1. destruct P1 as [P1 P3]. rewrite !zsum_cat in *. destruct St as [q [_ [_ [_ [_ [_ [_ [_ [_ [_ [_ [Sl _]]]]]]]]]]]].
      destruct (IHG f i Sl (m - zsum (all_counts r))) as [Q1 Q2]; [split; [exact P1|lia]|]. split; [now apply Forall_app|lia].
    - unfold bounded in *. rewrite !counts_fork in *. apply Forall_app in P1. destruct P1 as [P1 P3]. rewrite !zsum_cat in *. destruct St as [q [_ [_ [_ [_ [_ [_ [_ [_ [_ [_ [_ Sr]]]]]]]]]]]].
      destruct (IHG f i Sr (m - zsum (all_counts l))) as [Q1 Q2]; [split; [exact P3|lia]|]. split; [now apply Forall_app|lia].
    - unfold bounded in *. rewrite !counts_fork in *. split; [exact P1|lia].
    - destruct (single_counts label b Hl) as [Q1 Q2]. unfold bounded, fork_side in *. destruct left; rewrite counts_fork, zsum_cat; (split; [now apply Forall_app|lia]).
    - contradiction.
    - destruct t as [i cs|i d v cs l r]; cbn [bump_top]; unfold bounded in *; [|rewrite !counts_fork in *; split; [exact P1|lia]].
      rewrite !counts_leaf in *. split; [now apply bumped_nonneg|]. rewrite zsum_bumped; [lia|]. apply stored_wide in St. cbn in St. lia.
    - split; [exact P1|lia].
  Qed.
  Lemma cut_bounded : forall j t t' n, cut O j t t' -> bounded n t -> bounded n t'.
  Proof.
    intros j t t' n H. revert n. induction H as [left i d v cs cj u|i d v cs l l' r H IH|i d v cs l r r' H IH]; intros n [P1 P2]; unfold bounded, fork_side in *.
    - destruct left; rewrite counts_fork, zsum_cat in *; apply Forall_app in P1; destruct P1 as [A1 A2]; apply zsum_nonneg in A1 as Z1; apply zsum_nonneg in A2 as Z2; (split; [assumption|lia]).
    - rewrite counts_fork, zsum_cat in *. apply Forall_app in P1. destruct P1 as [A1 A2]. destruct (IH (n - zsum (all_counts r))) as [Q1 Q2]; [split; [exact A1|lia]|]. split; [now apply Forall_app|lia].
    - rewrite counts_fork, zsum_cat in *. apply Forall_app in P1. destruct P1 as [A1 A2]. destruct (IH (n - zsum (all_counts l))) as [Q1 Q2]; [split; [exact A2|lia]|]. split; [now apply Forall_app|lia].
  Qed.
  Definition obounded (h : list (point O)) (o : option ctree) : Prop := match o with Some t => bounded (Z.of_nat (length h)) t | None => True end.
  Lemma alike_bounded : forall n t t', alike O t t' -> bounded n t -> bounded n t'.
  Proof. intros n t t' A. unfold bounded, Coarse_Reach.all_counts. now destruct (alike_facts O t t' A) as [_ [_ [-> _]]]. Qed.
  Lemma reached_bounded : trim_safe O rnd c -> forall s h, creached s h -> exists ts, inv s ts /\ Forall (obounded h) ts.
  Proof.
    intros Sf. apply (reach_inv O exp_ log_ rnd c l0 L Hs Hkind Sf (fun h _ o => obounded h o)); [exact I| |].
    - intros h s s1 s' x label o o1 o' _ Hl _ So1 X [o2 [T Ho]] _ P.
      assert (P1 : obounded h o1).
      { destruct X as [[-> _]|[_ [_ [-> |[j [t [t' [-> [-> Ct]]]]]]]]]; auto. cbn in *. eapply cut_bounded; eauto. }
      assert (P2 : obounded ((x, label) :: h) o2).
      { inversion T; subst; cbn [obounded] in *; auto.
        - cbn [length]. destruct (single_counts label i Hl). split; [assumption|lia].
        - cbn [length]. rewrite Nat2Z.inj_succ. eapply grown_bounded; eauto.
        - destruct P1. split; [assumption|]. cbn [length]. lia. }
      destruct (c_optimize O c); [|now subst]. destruct o2 as [t2|], o' as [t'|]; try contradiction; cbn in *; auto. eapply alike_bounded; eauto.
    - intros h s s' o o' _ [[Al _]| ->] P; [|exact P]. destruct o as [t|], o' as [t'|]; try contradiction; cbn in *; auto. eapply alike_bounded; eauto.
  Qed.

  (** ** The walk of [pick_trim] *)
  Hypothesis EB : NumFacts.exactZ O B.
  Hypothesis LB : forall a b, -1 <= a <= B -> 0 <= b <= B -> nlt O (n_ a) (n_ b) = (a <? b).
  Hypothesis QB : forall a b, 0 <= a <= B -> 0 <= b <= B -> neq O (n_ a) (n_ b) = true -> a = b.
  Hypothesis Ht : c_trim O c = TRIM_COUNT.
  (** What the walk knows after visiting the leaves [ls]. *)
  Definition seen (ls : list (Z * list Z)) (a : trim_state O) : Prop :=
    match ls with
    | [] => leaf_sum O a = n_ 0 /\ smallest O a = n_ (-1)
    | _ => leaf_sum O a = n_ (zsum (concat (map snd ls))) /\ exists cs, smallest O a = n_ (zsum cs) /\ In (smallest_id O a, cs) ls /\ forall j cs', In (j, cs') ls -> zsum cs <= zsum cs'
    end.
  Lemma zsum_le : forall l1 l2, Forall (fun k => 0 <= k) (l1 ++ l2) -> zsum l1 <= zsum (l1 ++ l2) /\ zsum l2 <= zsum (l1 ++ l2).
  Proof. intros l1 l2 F. apply Forall_app in F. destruct F as [F1 F2]. rewrite zsum_cat. apply zsum_nonneg in F1, F2. lia. Qed.
  Lemma part_le : forall (ls : list (Z * list Z)) j cs, Forall (fun k => 0 <= k) (concat (map snd ls)) -> In (j, cs) ls -> Forall (fun k => 0 <= k) cs /\ 0 <= zsum cs <= zsum (concat (map snd ls)).
  Proof.
    induction ls as [|[q cq] ls IH]; intros j cs F H; [contradiction|]. cbn [map snd concat] in *. pose proof (zsum_le _ _ F) as [A1 A2]. apply Forall_app in F. destruct F as [F1 F2].
    destruct H as [H|H]; [injection H as -> ->; split; [exact F1|]; apply zsum_nonneg in F1; lia|]. destruct (IH j cs F2 H). split; [assumption|lia].
  Qed.
  Lemma trim_visit_seen : forall ls s j cs n a s' a', get O s j = Ok n -> counters O n = cs -> length cs = Z.to_nat lc ->
    Forall (fun k => 0 <= k) (concat (map snd ls) ++ cs) -> zsum (concat (map snd ls) ++ cs) <= B ->
    seen ls a -> trim_visit O rnd c s j a = Ok (s', a') -> seen (ls ++ [(j, cs)]) a'.
  Proof.
    intros ls s j cs n a s' a' G Hc Hlen F Hb S H. pose proof (zsum_le _ _ F) as [Z1 Z2]. pose proof F as F0. apply Forall_app in F. destruct F as [F1 F2]. pose proof (zsum_nonneg _ F1) as N1. pose proof (zsum_nonneg _ F2) as N2.
    unfold trim_visit in H. rewrite G in H. cbn [bind] in H. rewrite Ht in H. cbn [Z.eqb TRIM_COUNT] in H. change (TRIM_COUNT =? TRIM_COUNT) with true in H. cbn match in H.
    pose proof (counter_loop O B EB cs 0 ltac:(lia) F2 ltac:(lia) []) as X. cbn [app length] in X. change (Z.of_nat 0) with 0 in X. rewrite Hlen, <- Hc in X. rewrite X in H. clear X. rewrite Hc in H. cbn [bind] in H. rewrite Z.add_0_l in H.
    assert (Ls : leaf_sum O a = n_ (zsum (concat (map snd ls)))) by (destruct ls; [exact (proj1 S)|exact (proj1 S)]).
    assert (Ls' : nadd O (leaf_sum O a) (n_ (zsum cs)) = n_ (zsum (concat (map snd (ls ++ [(j, cs)]))))).
    { rewrite Ls. destruct EB as [EA _]. rewrite map_app, concat_app, zsum_cat. cbn [map snd concat]. rewrite app_nil_r. rewrite zsum_cat in Hb. apply EA; lia. }
    rewrite Ls' in H.
    assert (Fin : forall (P : Prop), (match ls ++ [(j, cs)] with [] => P | _ => leaf_sum O a' = n_ (zsum (concat (map snd (ls ++ [(j, cs)])))) /\ exists cs0, smallest O a' = n_ (zsum cs0) /\ In (smallest_id O a', cs0) (ls ++ [(j, cs)]) /\ forall j0 cs', In (j0, cs') (ls ++ [(j, cs)]) -> zsum cs0 <= zsum cs' end) <->
      leaf_sum O a' = n_ (zsum (concat (map snd (ls ++ [(j, cs)])))) /\ exists cs0, smallest O a' = n_ (zsum cs0) /\ In (smallest_id O a', cs0) (ls ++ [(j, cs)]) /\ forall j0 cs', In (j0, cs') (ls ++ [(j, cs)]) -> zsum cs0 <= zsum cs').
    { intros P. destruct ls; cbn [app]; tauto. }
    unfold seen. apply Fin. clear Fin. unfold Coarse_Model.uniform, Mondrian_Model.uniform in H.
    assert (New : forall sm, (forall j0 cs', In (j0, cs') ls -> zsum cs <= zsum cs') -> a' = mkTrim O sm (n_ (zsum (concat (map snd (ls ++ [(j, cs)]))))) (n_ (zsum cs)) j ->
      leaf_sum O a' = n_ (zsum (concat (map snd (ls ++ [(j, cs)])))) /\ exists cs0, smallest O a' = n_ (zsum cs0) /\ In (smallest_id O a', cs0) (ls ++ [(j, cs)]) /\ forall j0 cs', In (j0, cs') (ls ++ [(j, cs)]) -> zsum cs0 <= zsum cs').
    { intros sm M ->. split; [reflexivity|]. exists cs. split; [reflexivity|]. split; [apply in_or_app; right; now left|]. intros j0 cs' I. apply in_app_or in I. destruct I as [I|[I|[]]]; [eauto|]. injection I as _ <-. lia. }
    destruct ls as [|l1 ls].
    - destruct S as [S1 S2]. rewrite S2 in H. rewrite LB in H by (try lia; destruct B; lia). change (-1 <? 0) with true in H. cbn [orb] in H. injection H as _ <-. eapply New; [|reflexivity]. intros j0 cs' [].
    - destruct S as [S1 [cm [S2 [S3 S4]]]]. destruct (part_le (l1 :: ls) _ _ F1 S3) as [P1 P2]. rewrite S2 in H. rewrite !LB in H by lia. rewrite (proj2 (Z.ltb_ge (zsum cm) 0)) in H by lia. cbn [orb] in H.
      assert (Old : forall sm, zsum cm <= zsum cs -> a' = mkTrim O sm (n_ (zsum (concat (map snd ((l1 :: ls) ++ [(j, cs)]))))) (n_ (zsum cm)) (smallest_id O a) ->
        leaf_sum O a' = n_ (zsum (concat (map snd ((l1 :: ls) ++ [(j, cs)])))) /\ exists cs0, smallest O a' = n_ (zsum cs0) /\ In (smallest_id O a', cs0) ((l1 :: ls) ++ [(j, cs)]) /\ forall j0 cs', In (j0, cs') ((l1 :: ls) ++ [(j, cs)]) -> zsum cs0 <= zsum cs').
      { intros sm M ->. split; [reflexivity|]. exists cm. split; [reflexivity|]. split; [apply in_or_app; now left|]. intros j0 cs' I. apply in_app_or in I. destruct I as [I|[I|[]]]; [eauto|]. injection I as _ <-. lia. }
      destruct (Z.ltb_spec (zsum cs) (zsum cm)) as [C|C].
      + injection H as _ <-. eapply New; [|reflexivity]. intros j0 cs' I. specialize (S4 j0 cs' I). lia.
      + destruct (neq O (n_ (zsum cs)) (n_ (zsum cm))) eqn:Q.
        * apply QB in Q; [|lia|lia]. match type of H with context [if nlt O ?a ?b then _ else _] => destruct (nlt O a b) end; injection H as _ <-; [eapply New; [|reflexivity]; intros j0 cs' I; specialize (S4 j0 cs' I); lia|eapply Old; [lia|reflexivity]].
        * injection H as _ <-. eapply Old; [lia|reflexivity].
  Qed.
  Fixpoint rpairs (t : ctree) : list (Z * list Z) := match t with CLeaf i cs => [(i, cs)] | CFork _ _ _ _ l r => rpairs r ++ rpairs l end.
  Lemma rpairs_in : forall t e, In e (rpairs t) <-> In e (cleaves t).
  Proof. induction t as [i cs|i d v cs l IHl r IHr]; intros e; cbn [rpairs Coarse_Spec.cleaves]; [reflexivity|]. rewrite !in_app_iff, IHl, IHr. tauto. Qed.
  Lemma rpairs_counts : forall t, Permutation (concat (map snd (rpairs t))) (all_counts t).
  Proof. induction t as [i cs|i d v cs l IHl r IHr]; cbn [rpairs]; [rewrite counts_leaf; cbn; now rewrite app_nil_r|]. rewrite map_app, concat_app, counts_fork, IHl, IHr. apply Permutation_app_comm. Qed.
  Lemma zsum_perm : forall a b, Permutation a b -> zsum a = zsum b.
  Proof. intros a b P. induction P; cbn [zsum fold_right] in *; unfold zsum in *; lia. Qed.
  Lemma vfold_seen : forall t s0 s p a s' a' ls, drawn_only O s0 s -> stored (fr s0) p t -> Forall (fun k => 0 <= k) (concat (map snd (ls ++ rpairs t))) -> zsum (concat (map snd (ls ++ rpairs t))) <= B ->
    seen ls a -> vfold O _ (trim_visit O rnd c) (rleaves O t) s a = Ok (s', a') -> drawn_only O s0 s' /\ seen (ls ++ rpairs t) a'.
  Proof.
    induction t as [i cs|i d v cs l IHl r IHr]; intros s0 s p a s' a' ls Dr St F Hb Sn H; cbn [rleaves vfold rpairs] in *.
    - inv_bind H. destruct v as [s1 a1]. injection H as <- <-. destruct St as [n [N1 [_ [N2 [N3 _]]]]]. cbn [Coarse_Spec.ctop Coarse_Spec.top_counters] in *. pose proof E as E'. apply trim_visit_ok in E'; [|exact L]. destruct E' as [E' _].
      split; [eapply drawn_only_trans; eauto|]. rewrite map_app, concat_app in F, Hb. cbn [map snd concat] in F, Hb. rewrite app_nil_r in F, Hb.
      apply trim_visit_seen with (s := s) (n := n) (a := a) (s' := s1); auto; [|congruence]. destruct Dr as [D _]. unfold Coarse_Model.get. now rewrite D.
    - destruct St as [n [_ [_ [_ [_ [_ [_ [_ [_ [_ [_ [Sl Sr]]]]]]]]]]]]. rewrite vfold_app in H. inv_bind H. destruct v0 as [s1 a1]. rewrite app_assoc in F, Hb |- *.
      assert (F' : Forall (fun k => 0 <= k) (concat (map snd (ls ++ rpairs r)))) by (rewrite map_app, concat_app in F; apply Forall_app in F; tauto).
      rewrite map_app, concat_app in Hb. rewrite map_app, concat_app in F. pose proof (zsum_le _ _ F) as [Z1 _].
      destruct (IHr s0 s i a s1 a1 ls Dr Sr F' ltac:(lia) Sn E) as [D1 S1]. rewrite <- concat_app, <- map_app in F, Hb. exact (IHl s0 s1 i a1 s' a' (ls ++ rpairs r) D1 Sl F Hb S1 H).
  Qed.
  Lemma pick_trim_seen : forall s ts i t s' id, inv s ts -> nth_error ts i = Some (Some t) -> bounded B t -> pick_trim O rnd c s (Z.of_nat i) = Ok (s', id) -> 0 <= id ->
    exists cs, In (id, cs) (cleaves t) /\ (forall j cs', In (j, cs') (cleaves t) -> zsum cs <= zsum cs') /\
      (0 < zsum (all_counts t) -> nlt O (c_max_trim O c) (ndiv O (n_ (zsum cs)) (n_ (zsum (all_counts t)))) = false).
  Proof.
    intros s ts i t s' id V Hi [Bd1 Bd2] H Hid. pose proof V as [_ [V2 [[P1 [P2 [P3 _]]] _]]]. destruct (V2 _ _ Hi) as [Hr St]. unfold pick_trim in H. rewrite Hr in H. cbn [bind rid] in H. inv_bind H. destruct v as [depth [s2 a]]. injection H as <- H.
    assert (It : forall q, In q (cids O t) -> 0 <= q < c_nodes O c) by (intros q Hq; apply P3; now apply all_cids_in with i (Some t)).
    assert (ND : NoDup (cids O t)).
    { assert (Y : NoDup (all_cids O (upd ts i None) ++ cids O t)). { eapply Permutation_NoDup; [|exact P2]. rewrite <- (upd_same_id _ ts i (Some t) Hi) at 1. apply (all_cids_upd O ts i (Some t)). apply nth_error_Some. congruence. } apply nodup_app in Y. tauto. }
    assert (Sz : csize O t <= c_nodes O c).
    { unfold csize. pose proof (NoDup_incl_length ND (l' := zrange (c_nodes O c))) as X. rewrite zrange_length in X. assert (I' : incl (cids O t) (zrange (c_nodes O c))) by (intros q Hq; apply zrange_in; auto). specialize (X I').
      pose proof (csize_pos O t) as Y. unfold csize in Y. lia. }
    apply walk_root in E; [|intros q j a0 q' a' X; apply trim_visit_ok in X; [|exact L]; destruct X as [[X _] _]; intros z m Hm; exists m; rewrite X; auto|now apply stored_shape with c|exact Sz|intros q Hq; now apply It].
    cbn [fst snd] in E. destruct E as [E|[Ed Ev]]; [rewrite (proj2 (Z.leb_le max_stack_size depth)) in H by (unfold max_stack_size; lia); lia|].
    subst depth. change (max_stack_size <=? -1) with false in H. change (negb (-1 =? -1)) with false in H. cbn match in H.
    pose proof (rpairs_counts t) as Pm. destruct (fun F Z0 S0 => vfold_seen t s s (-1) (mkTrim O (n_ 0) (n_ 0) (n_ (-1)) 0) s2 a [] (drawn_only_refl _ _) St F Z0 S0 Ev) as [_ Sn].
    - cbn [app]. apply Forall_forall. intros q Hq. rewrite Forall_forall in Bd1. apply Bd1. eapply Permutation_in; eauto.
    - cbn [app]. rewrite (zsum_perm _ _ Pm). exact Bd2.
    - split; reflexivity.
    - cbn [app] in Sn. unfold seen in Sn. destruct (rpairs t) as [|e ls] eqn:Er; [destruct t; cbn in Er; [discriminate|]; exfalso|].
      + apply app_eq_nil in Er. destruct Er as [Er _]. clear -Er. induction t2 as [q cq|q dq vq cq l IHl r IHr]; cbn in Er; [discriminate|]. apply app_eq_nil in Er. tauto.
      + rewrite <- Er in *. clear e ls Er. destruct Sn as [Sn1 [cs [Sn2 [Sn3 Sn4]]]]. rewrite Sn1, Sn2, (zsum_perm _ _ Pm) in H.
        assert (Z0 : 0 <= zsum (all_counts t)) by now apply zsum_nonneg. rewrite LB in H by lia.
        destruct (Z.ltb_spec 0 (zsum (all_counts t))) as [C|C]; cbn [andb] in H.
        * destruct (nlt O (c_max_trim O c) _) eqn:Q; [lia|]. subst id. exists cs. split; [now apply rpairs_in|]. split; [|auto]. intros j cs' I. apply (Sn4 j). now apply rpairs_in.
        * subst id. exists cs. split; [now apply rpairs_in|]. split; [|lia]. intros j cs' I. apply (Sn4 j). now apply rpairs_in.
  Qed.
  (** ** Trimming all trees *)
  Definition cut_smallest (o o' : option ctree) : Prop :=
    o' = o \/ exists t t' j cs, o = Some t /\ o' = Some t' /\ Permutation (cleaves t) ((j, cs) :: cleaves t') /\ (forall k ks, In (k, ks) (cleaves t) -> zsum cs <= zsum ks) /\
      (0 < zsum (all_counts t) -> nlt O (c_max_trim O c) (ndiv O (n_ (zsum cs)) (n_ (zsum (all_counts t)))) = false).
  Lemma cut_leaves : forall j t t', cut O j t t' -> exists cs, Permutation (cleaves t) ((j, cs) :: cleaves t').
  Proof.
    intros j t t' H. induction H as [left i d v cs cj u|i d v cs l l' r H [q IH]|i d v cs l r r' H [q IH]].
    - exists cj. unfold fork_side. destruct left; cbn [Coarse_Spec.cleaves app]; [symmetry; apply Permutation_cons_append|reflexivity].
    - exists q. cbn [Coarse_Spec.cleaves]. now rewrite IH.
    - exists q. cbn [Coarse_Spec.cleaves]. rewrite IH. symmetry. apply Permutation_middle.
  Qed.
  Lemma leaf_once : forall t j cs cs', NoDup (cids O t) -> In (j, cs) (cleaves t) -> In (j, cs') (cleaves t) -> cs = cs'.
  Proof.
    assert (Sub : forall t j cs, In (j, cs) (cleaves t) -> In j (cids O t)).
    { induction t as [i ci|i d v ci l IHl r IHr]; intros j cs H; cbn [Coarse_Spec.cleaves Coarse_Spec.cids] in *; [destruct H as [H|[]]; injection H as -> _; now left|]. right. apply in_app_or in H. apply in_or_app. destruct H; eauto. }
    induction t as [i ci|i d v ci l IHl r IHr]; intros j cs cs' N H H'; cbn [Coarse_Spec.cleaves Coarse_Spec.cids] in *.
    - destruct H as [H|[]], H' as [H'|[]]. congruence.
    - apply NoDup_cons_iff in N. destruct N as [_ N]. apply nodup_app in N. destruct N as [N1 [N2 N3]]. apply in_app_or in H, H'. destruct H as [H|H], H' as [H'|H'].
      + eauto.
      + exfalso. eauto.
      + exfalso. eauto.
      + eauto.
  Qed.
  Lemma tree_trim_smallest : forall s ts s', inv s ts -> Forall (fun o => match o with Some t => bounded B t | None => True end) ts -> tree_trim O rnd c s = Ok s' ->
    exists ts', Forall2 cut_smallest ts ts' /\ inv s' ts'.
  Proof.
    intros s ts s' V Fb H. unfold tree_trim in H.
    assert (X : exists ts', Forall2 ((fun _ _ o o' => match o with Some t => bounded B t | None => True end -> cut_smallest o o') s s') ts ts' /\ (fun _ _ : coarse => True) s s' /\ inv s' ts').
    { refine (each_tree O c coarse (fun s => s) _ (fun _ _ o o' => match o with Some t => bounded B t | None => True end -> cut_smallest o o') (fun _ _ => True) _ _ _ _ s s' ts V H); auto.
      clear s s' ts V Fb H. intros s i ts o s' V Hi H. inv_bind H. destruct v as [s1 id]. pose proof V as [H1 [H2 [H3 [H4 H5]]]]. destruct (H2 i o Hi) as [Hr Hst].
      assert (Dr : drawn_only O s s1).
      { pose proof E as E1. unfold pick_trim in E1. rewrite Hr in E1. cbn [bind] in E1. inv_bind E1. destruct v as [depth [s2 a]]. injection E1 as <- _.
        change s2 with (fst (snd (depth, (s2, a)))). eapply walk_keeps; [apply drawn_only_refl|apply drawn_only_trans| |exact E0]. intros q j a0 q' a' X. apply trim_visit_ok in X; [tauto|exact L]. }
      pose proof (inv_same O c _ _ _ Dr V) as V2.
      assert (Keep : s' = s1 -> exists o', (match o with Some t => bounded B t | None => True end -> cut_smallest o o') /\ True /\ inv s' (upd ts i o')).
      { intros ->. exists o. split; [intros _; now left|]. split; [exact I|]. now rewrite upd_same_id. }
      inv_bind H. rename v into root, E0 into Er. pose proof Dr as [D1 [D2 [D3 D4]]]. rewrite D2, Hr in Er. injection Er as <-.
      destruct (negb (rid O o =? id) && (0 <=? id) && (id <? c_nodes O c)) eqn:Q; [|injection H as <-; now apply Keep].
      apply andb_prop in Q. destruct Q as [Q _]. apply andb_prop in Q. destruct Q as [Q1 Q2]. apply negb_true_iff, Z.eqb_neq in Q1. apply Z.leb_le in Q2.
      destruct o as [t|]; cbn [rid] in *.
      2: { exfalso. unfold pick_trim in E. rewrite Hr in E. cbn [bind] in E. unfold walk_from, fuel in E. cbn [walk] in E. change (0 <=? -1) with false in E. rewrite andb_false_r in E. cbn [bind] in E. injection E as _ E. cbn in E. lia. }
      assert (Il : In id (map fst (cleaves t))).
      { clear Keep. unfold pick_trim in E. rewrite Hr in E. cbn [bind] in E. inv_bind E. destruct v as [depth [s2 a]]. injection E as <- E.
        pose proof H3 as [P1 [P2 [P3 _]]]. assert (It : forall q, In q (cids O t) -> 0 <= q < c_nodes O c) by (intros q Hq; apply P3; now apply all_cids_in with i (Some t)).
        assert (ND : NoDup (cids O t)).
        { assert (Y : NoDup (all_cids O (upd ts i None) ++ cids O t)). { eapply Permutation_NoDup; [|exact P2]. rewrite <- (upd_same_id _ ts i (Some t) Hi) at 1. apply (all_cids_upd O ts i (Some t)). apply nth_error_Some. congruence. } apply nodup_app in Y. tauto. }
        assert (Sz : csize O t <= c_nodes O c).
        { unfold csize. pose proof (NoDup_incl_length ND (l' := zrange (c_nodes O c))) as X. rewrite zrange_length in X. assert (I' : incl (cids O t) (zrange (c_nodes O c))) by (intros q Hq; apply zrange_in; auto). specialize (X I').
          pose proof (csize_pos O t) as Y. unfold csize in Y. lia. }
        apply walk_root in E0; [|intros q j a0 q' a' X; apply trim_visit_ok in X; [|exact L]; destruct X as [[X _] _]; intros z m Hm; exists m; rewrite X; auto|now apply stored_shape with c|exact Sz|intros q Hq; now apply It].
        cbn [fst snd] in E0. destruct E0 as [E0|[Ed Ev]]; [rewrite (proj2 (Z.leb_le max_stack_size depth)) in E by (unfold max_stack_size; lia); lia|].
        subst depth. change (max_stack_size <=? -1) with false in E. change (negb (-1 =? -1)) with false in E. destruct (nlt O (n_ 0) (leaf_sum O a) && nlt O (c_max_trim O c) (ndiv O (smallest O a) (leaf_sum O a))); [lia|].
        apply vfold_id in Ev; [|exact L]. destruct Ev as [_ [_ Ev]].
        assert (Hl : rleaves O t <> []) by (clear; induction t as [q cq|q dq vq cq l IHl r IHr]; cbn; [discriminate|]; intros X; apply app_eq_nil in X; tauto).
        assert (Sf : trim_safe O rnd c) by (right; now left). assert (Nn : c_trim O c <> TRIM_NONE) by (rewrite Ht; discriminate).
        specialize (Ev Sf Nn Hl eq_refl). rewrite E in Ev. rewrite rleaves_leaves in Ev. now apply in_rev in Ev. }
      destruct Hs as [_ [_ [_ [_ [_ Hlife]]]]]. apply (tl_used O L) in Hlife.
      destruct (cut_ok O log_ c L Hlife (Z.of_nat i) _ t s1 (-1) _ 0 id s' (inv_before O c _ _ _ _ V2 Hi)) as [t' [C A]]; auto; [now left|now destruct V2 as [_ [_ [_ [X _]]]]|].
      exists (Some t'). split.
      - intros Bt. right. destruct (pick_trim_seen s ts i t s1 id V Hi Bt E Q2) as [cs [S1 [S2 S3]]]. destruct (cut_leaves id t t' C) as [cs' Pm]. exists t, t', id, cs.
        assert (cs' = cs); [|subst cs'; auto 10].
        assert (ND : NoDup (cids O t)).
        { pose proof H3 as [_ [P2 _]]. assert (Y : NoDup (all_cids O (upd ts i None) ++ cids O t)). { eapply Permutation_NoDup; [|exact P2]. rewrite <- (upd_same_id _ ts i (Some t) Hi) at 1. apply (all_cids_upd O ts i (Some t)). apply nth_error_Some. congruence. } apply nodup_app in Y. tauto. }
        apply (leaf_once t id); auto. eapply Permutation_in; [symmetry; exact Pm|]. now left.
      - split; [exact I|]. eapply inv_after; eauto. }
    destruct X as [ts' [F [_ V']]]. exists ts'. split; [|exact V']. clear -F Fb. induction F; constructor; inversion Fb; subst; auto.
  Qed.
End Smallest.
