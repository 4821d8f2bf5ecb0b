(** * The coarse and the unbounded Mondrian forest compared (src/mondrian_coarse.hpp, src/mondrian_unbound.hpp) *)
From Coq Require Import ZArith List Bool Lia Reals Permutation.
From Flocq Require Import Core BinarySingleNaN.
From Verif Require Import CppBase CppFacts Dbl DblFacts NumOps Utils_Model Utils_Spec Utils_Proofs MCNN_Num.
From Verif Require Import Mondrian_Model Mondrian_Spec Mondrian_Proofs Mondrian_Train Mondrian_Num Mondrian_Runs Mondrian_Reach Mondrian_Forest Mondrian_Predict Mondrian_Props.
From Verif Require Unbound_Model.
From Verif Require Import Unbound_Spec Unbound_Props Coarse_Model Coarse_Spec Coarse_Heap Coarse_Walk Coarse_Forest Coarse_Reach Coarse_Props.
From Verif Require Import Forest_Spec Forest_Same Forest_Train Forest_Predict Forest_Props Forest_Coarse Forest_Shared.
Import ListNotations.
Local Open Scope Z_scope.

(** A prediction of the coarse forest is the prediction of the forest in it. *)
Lemma coarse_from : forall O exp_ (c : config O) steps S x t p pt depth sep means sm, tree_at O (c_features O c) (c_labels O c) (c_life O c) (fr O S) p pt t -> Z.of_nat (length (nodes O (fr O S))) = c_nodes O c ->
  predict_from O exp_ c steps S (top O t) x depth (-1) sep means sm = Mondrian_Model.predict_from O exp_ (c_features O c) (c_labels O c) (c_discount O c) steps (fr O S) (top O t) x sep means sm.
Proof.
  intros O exp_ c. induction steps as [|steps IH]; intros S x t p pt depth sep means sm T Ln; [reflexivity|]. cbn [predict_from Mondrian_Model.predict_from].
  assert (B : 0 <= top O t < Z.of_nat (length (nodes O (fr O S)))) by (destruct t; destruct T as [n [T _]]; now apply rd_bounds in T).
  rewrite (proj2 (Z.leb_le 0 _)), (proj2 (Z.ltb_lt _ _)), (proj2 (Z.eqb_neq _ (-1))) by lia. cbn [andb]. unfold get. destruct (rd (nodes O (fr O S)) (top O t)) as [n| | |] eqn:Hn; try reflexivity. cbn [bind].
  apply bind_same. intros eta. apply bind_same. intros sm1. apply bind_same. intros ms1. rewrite andb_false_r. cbn [orb]. destruct (is_leaf O n) eqn:Lf; [reflexivity|].
  apply bind_same. intros y. apply bind_same. intros v.
  destruct t as [i pts|i d w a b]; destruct T as [n' [T1 [_ [_ [_ [_ [_ [T2 T3]]]]]]]]; rewrite Hn in T1; injection T1 as <-; [unfold is_leaf in Lf; rewrite T2 in Lf; discriminate|].
  destruct T3 as [_ [_ [_ [-> [-> [Ta Tb]]]]]]. destruct (nle O y v); eapply IH; eauto.
Qed.

Lemma pick : forall A B C (P : nat -> A -> B -> C -> Prop) (xs : list A) (us : list B), length xs = length us -> (forall i a u, nth_error xs i = Some a -> nth_error us i = Some u -> exists z, P i a u z) ->
  exists zs, length zs = length xs /\ forall i a u z, nth_error xs i = Some a -> nth_error us i = Some u -> nth_error zs i = Some z -> P i a u z.
Proof.
  intros A B C P xs. revert P. induction xs as [|a xs IH]; intros P us Len H.
  - exists []. split; [reflexivity|]. intros i x u z Hx. destruct i; discriminate.
  - destruct us as [|u us]; [discriminate|]. destruct (H 0%nat a u eq_refl eq_refl) as [z Hz]. destruct (IH (fun i => P (S i)) us) as [zs [Lz Z]]; [now injection Len|intros i; apply (H (S i))|].
    exists (z :: zs). split; [cbn; congruence|]. intros [|i] x w y Hx Hw Hy; cbn in *; [congruence|]. eauto.
Qed.
Lemma nth_error_ext : forall A (l m : list A), length l = length m -> (forall i a, nth_error l i = Some a -> nth_error m i = Some a) -> l = m.
Proof.
  intros A. induction l as [|a l IH]; intros [|b m] Len H; try discriminate; [reflexivity|]. pose proof (H 0%nat a eq_refl) as X. cbn in X. injection X as ->. f_equal. apply IH; [now injection Len|]. intros i. apply (H (S i)).
Qed.

Lemma Forall2_intro : forall A B (P : A -> B -> Prop) l m, length l = length m -> (forall i a b, nth_error l i = Some a -> nth_error m i = Some b -> P a b) -> Forall2 P l m.
Proof.
  intros A B P. induction l as [|a l IH]; intros [|b m] Len H; try discriminate; constructor; [now apply (H 0%nat)|]. apply IH; [now injection Len|]. intros i. apply (H (S i)).
Qed.

Section Binary64.
  Variable exp_ log_ : dbl -> dbl.
  Variable rnd : nat -> dbl.
  Variable c : config dops.
  Variable l0 : Z.
  Local Notation tc := (c_trees dops c).
  Local Notation fc := (c_features dops c).
  Local Notation lc := (c_labels dops c).
  Local Notation nc := (c_nodes dops c).
  Local Notation lifetime := (c_life dops c).
  Hypothesis Sz : csizes dops c l0.
  Hypothesis Hfc : fc <= 2147483647.
  Hypothesis Hdraw : forall k, ddraw (rnd k).
  Hypothesis Hext : c_extend dops c = EXTEND_ORIGINAL.
  Hypothesis Hman : c_manage dops c = PHOENIX_MANAGEMENT.
  Hypothesis Htrim : c_trim dops c = TRIM_NONE.
  Hypothesis Hopt : c_optimize dops c = false.
  Local Notation creached := (creached dops exp_ log_ rnd c l0).
  Local Notation ureached := (ureached dops log_ rnd tc fc lc lifetime dfine).
  Local Notation utrees := (utrees dops tc fc lc lifetime).
  Local Notation predict := (predict dops exp_ c).
  Local Notation upredict := (Unbound_Model.predict dops exp_ tc fc lc (c_base dops c) (c_discount dops c)).
  Local Notation means := (forest_means dops exp_ c).
  Local Notation umeans := (Unbound_Model.forest_means dops exp_ tc fc lc (c_base dops c) (c_discount dops c)).
  Local Notation blank := (blank_node dops c).
  Local Notation together := (together dops c not_nan dfine).
  Local Notation planted := (planted dops tc fc lc nc lifetime).

  Let L : laws dops dkey not_nan dfine ddraw fc.
  Proof. apply laws_dops. destruct Sz as [_ [X _]]. lia. Qed.
  Let Usz : usizes tc fc lc.
  Proof. destruct Sz as [S1 [S2 [S3 _]]]. repeat split; lia. Qed.
  Let Hlife : dle dzero lifetime = true.
  Proof. now destruct Sz as [_ [_ [_ [_ [_ X]]]]]. Qed.

  Lemma train_together : forall S g x label S' b g' r, together S g -> input dops fc dfine x -> 0 <= label < lc -> train dops log_ rnd c S x label = Ok (S', b) ->
    Unbound_Model.train dops log_ rnd tc fc lc lifetime g x label = Ok (g', r) -> together S' g' /\ (Z.of_nat (length (nodes dops g')) <= nc -> b = true).
  Proof.
    intros S g x label S' b g' r T Hx Hl Hf Hg. destruct Sz as [S1 [S2 [S3 [S4 _]]]].
    exact (train_same dops rnd log_ c dkey not_nan dfine ddraw L Hdraw Hlife ltac:(lia) ltac:(lia) Hext Hman Htrim Hopt x label (input_values _ _ _ _ Hx) (input_len _ _ _ _ Hx) Hl S g S' g' b r T Hf Hg).
  Qed.
  Lemma coarse_together : forall s h, creached s h -> forall g, ureached g h -> together s g.
  Proof.
    intros s h R. induction R as [|s h x label s' b R IH Hx Hl Ht|s h x sc k s' b sc' R IH Hx Hp]; intros g U.
    - inversion U; subst. intros _. exists []. destruct Sz as [S1 [S2 [S3 [S4 [S5 S6]]]]].
      split; [|split; [cbn; lia|exact S5]].
      split; [constructor|]. split; [constructor|]. split; [intros i j []|]. split; [reflexivity|]. split; [cbn; rewrite repeat_length; lia|].
      split; [intros i n Hn _; cbn in Hn; apply rd_ok_iff in Hn; destruct Hn as [_ Hn]; apply nth_error_In, repeat_spec in Hn; exact Hn|].
      split; [|reflexivity]. cbn. clear. induction (Z.to_nat tc); cbn; constructor; [left; auto|assumption].
    - inversion U as [|g0 h0 x0 l1 g1 r1 U0 Hx0 Hl0 Ht0]; subst. exact (proj1 (train_together s g0 x label s' b g r1 (IH g0 U0) Hx0 Hl Ht Ht0)).
    - intros Cap. destruct (IH g U Cap) as [q [Rq Rest]]. exists q. unfold Coarse_Model.predict in Hp. rewrite Hopt, Hext in Hp. change (EXTEND_ORIGINAL =? EXTEND_GHOST) with false in Hp. cbn [negb andb] in Hp.
      apply bind_inv in Hp. destruct Hp as [s1 [E1 Hp]]. apply bind_inv in Hp. destruct Hp as [m [_ Hp]]. apply bind_inv in Hp. destruct Hp as [w [_ Hp]]. injection Hp as <- _ _.
      unfold update_all in E1. apply bind_inv in E1. destruct E1 as [f1 [E1 X]]. injection X as <-. split; [|exact Rest].
      apply (rel_update dops nc not_nan dfine blank eq_refl q (fr dops s) g f1 Rq). eapply update_all_inv. exact E1.
  Qed.
  Lemma coarse_inv : forall s h, creached s h -> exists ts, ctrees dops c s ts.
  Proof.
    intros s h R. destruct (coarse_pool exp_ log_ rnd c l0 Sz ltac:(rewrite Hext; discriminate) ltac:(left; exact Htrim) s h R) as [ts [T _]]. eauto.
  Qed.
  (** The trees of both forests, node by node. *)
  Lemma coarse_planted : forall s g h, creached s h -> ureached g h -> h <> [] -> Z.of_nat (length h) <= 9223372036854775807 -> Z.of_nat (length (nodes dops g)) <= nc ->
    exists ts us bs, ctrees dops c s (map Some ts) /\ utrees g h us /\ Forall2 (same_splits dops lc) ts us /\ planted (fr dops s) bs /\ length bs = length us.
  Proof.
    intros s g h R U Nh Hn Cap. destruct (coarse_inv s h R) as [os C]. destruct (unbound_trees log_ rnd tc fc lc lifetime Usz Hlife Hdraw g h U Nh Hn) as [us V].
    destruct (coarse_together s h R g U Cap) as [q [Rq _]]. pose proof C as [C1 [C2 [C3 [C4 _]]]]. pose proof V as [V1 [V2 _]].
    destruct (pick _ _ _ (fun i o u z => o = Some (fst z) /\ same_splits dops lc (fst z) u /\ rd (roots dops (fr dops s)) (Z.of_nat i) = Ok (top dops (snd z)) /\
      tree_at dops fc lc lifetime (fr dops s) (-1) (nofZ dops 0) (snd z) /\ ids dops (snd z) = cids dops (fst z)) os us ltac:(lia)) as [zs [Lz ZZ]].
    { intros i o u Ho Hu. destruct (V2 i u Hu) as [A1 [A2 _]]. pose proof (C2 i o Ho) as B. pose proof (top_bounds _ _ _ _ _ _ _ _ A2) as Bu.
      pose proof Rq as [_ [_ [R3 [_ [_ [_ [R7 _]]]]]]]. destruct o as [t|].
      - destruct B as [B1 B2]. destruct (Forall2_rd _ _ _ _ _ _ _ R7 B1) as [w [W1 W2]]. rewrite A1 in W1. injection W1 as <-. destruct W2 as [[_ X]|W2]; [lia|].
        destruct (transport dops fc lc nc lifetime not_nan dfine blank q (fr dops s) g Rq t u (-1) (-1) (nofZ dops 0) W2 B2 A2) as [T1 [b [T2 [T3 [T4 _]]]]].
        exists (t, b). cbn [fst snd]. rewrite T3. auto 6.
      - exfalso. destruct (Forall2_rd _ _ _ _ _ _ _ R7 B) as [w [W1 W2]]. rewrite A1 in W1. injection W1 as <-. destruct W2 as [[_ X]|W2]; [lia|]. destruct (R3 _ _ W2) as [n [m [X _]]]. apply rd_bounds in X. lia. }
    assert (E : os = map Some (map fst zs)).
    { apply nth_error_ext; [now rewrite !map_length|]. intros i o Ho. destruct (nth_error us i) as [u|] eqn:Hu; [|apply nth_error_None in Hu; assert (nth_error os i <> None) by congruence; apply nth_error_Some in H; lia].
      destruct (nth_error zs i) as [z|] eqn:Hz; [|apply nth_error_None in Hz; assert (nth_error os i <> None) by congruence; apply nth_error_Some in H; lia].
      destruct (ZZ i o u z Ho Hu Hz) as [-> _]. now rewrite !nth_error_map, Hz. }
    assert (K : forall i z, nth_error zs i = Some z -> exists u, nth_error us i = Some u /\ same_splits dops lc (fst z) u /\ rd (roots dops (fr dops s)) (Z.of_nat i) = Ok (top dops (snd z)) /\
      tree_at dops fc lc lifetime (fr dops s) (-1) (nofZ dops 0) (snd z) /\ ids dops (snd z) = cids dops (fst z)).
    { intros i z Hz. assert (Bi : (i < length zs)%nat) by (apply nth_error_Some; congruence). destruct (nth_error us i) as [u|] eqn:Hu; [|apply nth_error_None in Hu; lia].
      exists u. split; [reflexivity|]. apply (ZZ i (Some (fst z)) u z); auto. rewrite E, !nth_error_map, Hz. reflexivity. }
    exists (map fst zs), us, (map snd zs). split; [now rewrite <- E|]. split; [exact V|]. split.
    { apply Forall2_intro; [rewrite map_length; lia|]. intros i t u Ht Hu. rewrite nth_error_map in Ht. destruct (nth_error zs i) as [z|] eqn:Hz; [|discriminate]. injection Ht as <-.
      destruct (K i z Hz) as [u' [X [Y _]]]. rewrite Hu in X. injection X as <-. exact Y. }
    split; [|rewrite map_length; lia]. split.
    { intros i b Hb. rewrite nth_error_map in Hb. destruct (nth_error zs i) as [z|] eqn:Hz; [|discriminate]. injection Hb as <-. destruct (K i z Hz) as [u [_ [_ [X [Y _]]]]]. auto. }
    rewrite map_length. split; [intros; lia|]. split; [lia|]. split; [exact C3|].
    replace (Mondrian_Forest.all_ids dops (map snd zs)) with (all_cids dops os); [exact C4|]. unfold all_cids, Mondrian_Forest.all_ids. rewrite E, !map_map. f_equal. apply map_ext_in. intros z Iz.
    apply In_nth_error in Iz. destruct Iz as [i Hz]. destruct (K i z Hz) as [u [_ [_ [_ [_ X]]]]]. now rewrite X.
  Qed.
  (** *** C103: while the memory suffices, the coarse forest with the original extension holds the trees of the unbounded one *)
  Theorem coarse_same_trees : forall s g h, creached s h -> ureached g h -> h <> [] -> Z.of_nat (length h) <= 9223372036854775807 -> Z.of_nat (length (nodes dops g)) <= nc ->
    exists ts us, ctrees dops c s (map Some ts) /\ utrees g h us /\ Forall2 (same_splits dops lc) ts us.
  Proof. intros s g h R U Nh Hn Cap. destruct (coarse_planted s g h R U Nh Hn Cap) as [ts [us [bs [X [Y [Z _]]]]]]. eauto. Qed.
  (** *** C103: ... and its training reports that it learned the point *)
  Theorem coarse_same_report : forall s g h x label s' b, creached s h -> train dops log_ rnd c s x label = Ok (s', b) -> ureached g ((x, label) :: h) -> Z.of_nat (length (nodes dops g)) <= nc -> b = true.
  Proof.
    intros s g h x label s' b R T U Cap. inversion U as [|g0 h0 x0 l1 g1 r1 U0 Hx0 Hl0 Ht0]; subst. now apply (train_together s g0 x label s' b g r1 (coarse_together s h R g0 U0) Hx0 Hl0 T Ht0).
  Qed.
  (** *** C103: ... and it predicts the same *)
  Theorem coarse_same_predictions : forall s g h x sc k, creached s h -> ureached g h -> Z.of_nat (length h) <= 9223372036854775807 -> Z.of_nat (length (nodes dops g)) <= nc ->
    Z.of_nat (length x) = fc -> k < 0 ->
    exists s' b m, predict s x sc k = Ok (s', b, sc) /\ upredict g x sc = Ok (b, sc) /\ means s' x tc = Ok m /\ umeans g x = Ok m.
  Proof.
    intros s g h x sc k R U Hn Cap Hx Hk. pose proof Sz as [S1 [S2 [S3 _]]]. assert (Lx : length x = Z.to_nat fc) by lia.
    destruct (unbound_predict_total exp_ log_ rnd tc fc lc lifetime (c_base dops c) (c_discount dops c) Usz Hlife Hdraw g h x sc U Hn Hx) as [b [E' _]].
    assert (K : exists bs us, planted (fr dops s) bs /\ length bs = length us /\ Forest_Shared.planted dops tc fc lc (Z.of_nat (length (nodes dops g))) lifetime g us /\ Forall (counted dops lc g) us).
    { destruct h as [|p h].
      - exists [], []. inversion U; subst. destruct (coarse_inv s [] R) as [os [C1 [C2 [C3 _]]]]. split; [|split; [reflexivity|split; [|constructor]]].
        + split; [intros [|i] t; discriminate|]. split; [|split; [cbn; lia|]; split; [exact C3|constructor]]. intros i Hi. cbn in Hi.
          destruct (coarse_together s [] R _ U Cap) as [q [[_ [_ [R3 [_ [_ [_ [R7 _]]]]]]] _]]. assert (Lr : length (roots dops (fr dops s)) = Z.to_nat tc) by (rewrite (Forall2_len _ _ _ _ _ R7); cbn; apply repeat_length).
          destruct (rd_in_bounds _ (roots dops (fr dops s)) i ltac:(lia)) as [r Hr]. destruct (Forall2_rd _ _ _ _ _ _ _ R7 Hr) as [r' [_ Q]]. destruct Q as [[-> _]|Q]; [exact Hr|].
          destruct (R3 _ _ Q) as [n [z [_ [Y _]]]]. cbn in Y. destruct (Z.to_nat r'); rewrite rd_oob in Y by (cbn; lia); discriminate.
        + split; [intros [|i] t; discriminate|]. split; [|split; [cbn; lia|]; split; [reflexivity|constructor]]. intros i Hi. cbn in *. apply rd_repeat. lia.
      - destruct (coarse_planted s g (p :: h) R U ltac:(discriminate) Hn Cap) as [ts [us [bs [_ [[V1 [V2 V3]] [_ [P Lb]]]]]]]. exists bs, us. split; [exact P|]. split; [exact Lb|]. split.
        + split; [intros i t Ht; destruct (V2 i t Ht) as [A1 [A2 _]]; auto|]. split; [intros; lia|]. split; [lia|]. split; [reflexivity|]. unfold Mondrian_Forest.all_ids. apply (Permutation_NoDup (Permutation_sym V3)). apply FinFun.Injective_map_NoDup; [intros a d; lia|apply seq_NoDup].
        + apply Forall_forall. intros t Ht. apply In_nth_error in Ht. destruct Ht as [i Hi]. now destruct (V2 i t Hi) as [_ [_ [_ X]]]. }
    destruct K as [bs [us [P [Lb [Pu Cu]]]]]. destruct (update_planted dops tc fc lc nc lifetime (fr dops s) bs P) as [f' [Ef [P' Cf]]].
    destruct (coarse_together s h R g U Cap) as [q [Rq _]]. pose proof (rel_update dops nc not_nan dfine blank eq_refl q (fr dops s) g f' Rq (update_all_inv _ _ _ _ _ _ Ef)) as Rq'.
    set (s' := with_fr dops s f').
    assert (T : forall i, 0 <= i < tc -> exists m, predict_tree dops exp_ c s' x i (-1) = Ok m /\
      Mondrian_Model.predict_tree dops exp_ fc lc (Z.of_nat (length (nodes dops g))) (c_base dops c) (c_discount dops c) g x i = Ok m).
    { intros i Hi. unfold predict_tree, Mondrian_Model.predict_tree. cbn [fr with_fr s']. destruct (nth_error bs (Z.to_nat i)) as [t|] eqn:Et.
      - destruct (nth_error us (Z.to_nat i)) as [u|] eqn:Eu; [|apply nth_error_None in Eu; assert (nth_error bs (Z.to_nat i) <> None) by congruence; apply nth_error_Some in H; lia].
        pose proof P' as [Pa _]. destruct (Pa _ _ Et) as [A1 A2]. pose proof Pu as [Pb _]. destruct (Pb _ _ Eu) as [B1 B2]. rewrite Z2Nat.id in A1, B1 by lia. rewrite A1, B1. cbn [bind].
        pose proof (top_bounds _ _ _ _ _ _ _ _ A2) as Bt. rewrite (proj2 (Z.eqb_neq _ (-1))) by lia.
        rewrite (coarse_from dops exp_ c _ s' x t (-1) (nofZ dops 0)) by (try exact A2; apply P').
        destruct (planted_tree dops exp_ tc fc lc nc lifetime (c_base dops c) (c_discount dops c) S3 ltac:(lia) x Lx f' bs _ t P' Et) as [m [M1 _]].
        destruct (planted_tree dops exp_ tc fc lc _ lifetime (c_base dops c) (c_discount dops c) S3 ltac:(lia) x Lx g us _ u Pu Eu) as [m' [M2 _]].
        exists m. split; [exact M1|]. rewrite M2. f_equal. symmetry. refine (from_same dops exp_ fc lc nc lifetime (c_discount dops c) not_nan dfine blank x q f' g Rq' t u (-1) (nofZ dops 0) (-1) (nofZ dops 0) _ _ _ _ _ m m' _ A2 B2 _ _ M1 M2).
        + apply (root_pair dops nc not_nan dfine blank q f' g i); auto.
        + rewrite Forall_forall in Cf. apply Cf. now apply nth_error_In in Et.
        + rewrite Forall_forall in Cu. apply Cu. now apply nth_error_In in Eu.
      - apply nth_error_None in Et. pose proof P' as [_ [Pa _]]. rewrite Pa by lia. pose proof Pu as [_ [Pb _]]. rewrite Pb by lia. cbn [bind Z.eqb Pos.eqb Mondrian_Model.predict_from]. eauto. }
    pose proof E' as F1. unfold Unbound_Model.predict in F1. apply bind_inv in F1. destruct F1 as [m [F1 F2]]. apply bind_inv in F2. destruct F2 as [w [F2 F3]]. injection F3 as ->.
    assert (M : means s' x tc = Ok m).
    { rewrite <- F1. unfold forest_means, Unbound_Model.forest_means, Mondrian_Model.forest_means. apply bind_same2; [|reflexivity]. apply forZ_ext_in. intros i sums Hi. destruct (T i ltac:(lia)) as [mi [T1 T2]]. rewrite T1, T2. reflexivity. }
    exists s', b, m. split; [|auto]. unfold Coarse_Model.predict. rewrite Hopt, Hext. change (EXTEND_ORIGINAL =? EXTEND_GHOST) with false. cbn [negb andb].
    rewrite (proj2 (Z.ltb_lt k 0) Hk). unfold update_all. unfold Mondrian_Model.update_all in Ef. rewrite Ef. cbn [bind]. fold s'. rewrite M. cbn [bind]. rewrite F2. reflexivity.
  Qed.
  (** *** C103: room for [2 n - 1] nodes per tree suffices for [n] points *)
  Theorem coarse_same_enough : forall s g h x sc k, creached s h -> ureached g h -> h <> [] -> Z.of_nat (length h) <= 9223372036854775807 -> tc * (2 * Z.of_nat (length h) - 1) <= nc ->
    Z.of_nat (length x) = fc -> k < 0 -> exists s' b, predict s x sc k = Ok (s', b, sc) /\ upredict g x sc = Ok (b, sc).
  Proof.
    intros s g h x sc k R U Nh Hn Cap Hx Hk. destruct (unbound_memory log_ rnd tc fc lc lifetime Usz Hlife Hdraw g h U Nh Hn) as [us [_ [_ B]]].
    destruct (coarse_same_predictions s g h x sc k R U Hn ltac:(lia) Hx Hk) as [s' [b [m [E1 [E2 _]]]]]. eauto.
  Qed.
End Binary64.
Print Assumptions coarse_same_trees.
Print Assumptions coarse_same_report.
Print Assumptions coarse_same_predictions.
Print Assumptions coarse_same_enough.

(** *** Concrete forests: four points need 14 nodes, and 14 nodes suffice *)
Definition conf_14 : config dops := conf 14 PHOENIX_MANAGEMENT (-1) EXTEND_ORIGINAL TRIM_NONE.
Local Notation reached_14 := (creached dops exp_h log_c (cycle draws_c) conf_14 0).
Local Notation ureached_c := (ureached dops log_c (cycle draws_c) 2 2 2 (dofZ 10) dfine).
Local Notation upredict_c := (Unbound_Model.predict dops exp_h 2 2 2 dhalf dhalf).
Lemma run_14 : ccheck conf_14 points_c (fun s => avail dops s =? 0) = true.
Proof. vm_compute. reflexivity. Qed.
Lemma urun_14 : uruns_to log_c (cycle draws_c) 2 2 2 (dofZ 10) points_c (fun g => Nat.eqb (length (nodes dops g)) 14) = true.
Proof. vm_compute. reflexivity. Qed.
Example coarse_same_example : exists s g, reached_14 s (rev points_c) /\ avail dops s = 0 /\ ureached_c g (rev points_c) /\
  (exists ts us, ctrees dops conf_14 s (map Some ts) /\ utrees dops 2 2 2 (dofZ 10) g (rev points_c) us /\ Forall2 (same_splits dops 2) ts us) /\
  exists s' b, predict dops exp_h conf_14 s (sixteenths 3 3) None (-1) = Ok (s', b, None) /\ upredict_c g (sixteenths 3 3) None = Ok (b, None).
Proof.
  destruct (ccheck_reached _ _ _ run_14) as [s [R A]]. apply Z.eqb_eq in A. destruct (uruns_to_reached _ _ _ _ _ _ _ _ urun_14) as [g [Rg Og]]. apply Nat.eqb_eq in Og. exists s, g. split; [exact R|]. split; [exact A|]. split; [exact Rg|].
  pose proof (csizes_c 14 PHOENIX_MANAGEMENT (-1) EXTEND_ORIGINAL TRIM_NONE ltac:(lia)) as Sz. split.
  - apply (coarse_same_trees exp_h log_c (cycle draws_c) conf_14 0 Sz ltac:(cbn; lia) draws_c_ok eq_refl eq_refl eq_refl eq_refl s g (rev points_c) R Rg ltac:(discriminate) ltac:(cbn; lia)). rewrite Og. cbn; lia.
  - apply (coarse_same_enough exp_h log_c (cycle draws_c) conf_14 0 Sz ltac:(cbn; lia) draws_c_ok eq_refl eq_refl eq_refl eq_refl s g (rev points_c) (sixteenths 3 3) None (-1) R Rg ltac:(discriminate) ltac:(cbn; lia)); [cbn; lia|reflexivity|lia].
Qed.
