(** * Proofs for the Mondrian forest: training all trees *)
From Coq Require Import ZArith List Bool Lia Reals Lra Permutation.
From Verif Require Import CppBase CppFacts NumOps Utils_Model Utils_Proofs Mondrian_Model Mondrian_Spec Mondrian_Proofs Mondrian_Train.
Import ListNotations.
Local Open Scope Z_scope.

Lemma forZ_or : forall S (P : Z -> S -> Prop) (Bad : Prop) body n i s, P i s ->
  (forall j s, i <= j < i + Z.of_nat n -> P j s -> (body j s = Undef Uninitialised /\ Bad) \/ exists s', body j s = Ok s' /\ P (j + 1) s') ->
  (forZ n i body s = Undef Uninitialised /\ Bad) \/ exists s', forZ n i body s = Ok s' /\ P (i + Z.of_nat n) s'.
Proof.
  intros S P Bad body. induction n as [|n IH]; intros i s H0 Hs.
  - right. exists s. split; [reflexivity|]. now replace (i + Z.of_nat 0) with i by lia.
  - cbn [forZ]. destruct (Hs i s) as [[-> B]|[s' [-> H1]]]; [lia|exact H0|left; auto|]. cbn [bind].
    replace (i + Z.of_nat (Datatypes.S n)) with (i + 1 + Z.of_nat n) by lia. apply IH; [exact H1|]. intros j s0 Hj. apply Hs. lia.
Qed.

Section Forest.
  Variable O : ops.
  Variable log_ : num O -> num O.
  Variable rnd : nat -> num O.
  Variable tc fc lc mn : Z.
  Variable lifetime : num O.
  Variable key : num O -> R.
  Variable cmp fine draw : num O -> Prop.
  Hypothesis L : laws O key cmp fine draw fc.
  Hypothesis Hdraw : forall k, draw (rnd k).
  Hypothesis Hfc : 1 <= fc.
  Hypothesis Hlc : 0 <= lc.
  Hypothesis Htc : 0 <= tc.
  Hypothesis Hmn : 0 <= mn.
  Hypothesis Hlife : nle O (nofZ O 0) lifetime = true.
  Local Notation forest := (forest O).
  Local Notation node := (node O).
  Local Notation point := (point O).
  Local Notation mtree := (mtree O).
  Local Notation tree_at := (tree_at O fc lc lifetime).
  Local Notation pool := (pool O mn).
  Local Notation is_free := (is_free O).
  Local Notation points := (points O).
  Local Notation ids := (ids O).
  Local Notation top := (top O).
  Local Notation blank f := (blank O fc lc f).
  Local Notation put := (put O).
  Local Notation n_ := (nofZ O).
  Local Notation nodes := (nodes O).
  Local Notation roots := (roots O).
  Local Notation empty := (empty_node O fc lc).
  Local Notation fine_pt := (fine_pt O fc fine).

  Definition all_ids (ts : list mtree) : list Z := concat (map ids ts).
  Definition holds (f : forest) (ts : list mtree) (lost : list Z) : Prop :=
    Z.of_nat (length (roots f)) = tc /\ Z.of_nat (length ts) <= tc /\
    (forall i t, nth_error ts i = Some t -> rd (roots f) (Z.of_nat i) = Ok (top t) /\ tree_at f (-1) (n_ 0) t) /\
    (forall i, Z.of_nat (length ts) <= i < tc -> rd (roots f) i = Ok (-1)) /\
    pool f (all_ids ts) lost /\ lost_ok O f lost /\ blank f.

  Lemma le00 : nle O (n_ 0) (n_ 0) = true.
  Proof. eapply le_refl; [exact L|]. apply L. Qed.
  Lemma life_cmp : cmp lifetime.
  Proof. apply (l_le _ _ _ _ _ _ L) in Hlife. tauto. Qed.
  Lemma holds_init : holds (forest_init O tc fc lc mn) [] [].
  Proof.
    unfold holds, forest_init. cbn [Mondrian_Model.nodes Mondrian_Model.roots]. rewrite repeat_length. cbn [length].
    split; [lia|]. split; [lia|]. split; [intros [|i] t H; discriminate|]. split; [intros i Hi; apply rd_repeat; lia|]. split; [|split].
    - split; [cbn; rewrite repeat_length; lia|]. split; [constructor|]. split; [intros i []|]. intros i Hi. split; [intros _ []|].
      intros _. exists empty. split; [cbn; apply rd_repeat; lia|]. eapply empty_free; exact L.
    - split; [cbn; lia|]. congruence.
    - intros i n Hn _. cbn in Hn. pose proof (rd_bounds _ _ _ _ Hn) as B. rewrite repeat_length in B. rewrite rd_repeat in Hn by lia. congruence.
  Qed.
  Lemma pool_len : forall f u lost, pool f u lost -> (length u <= Z.to_nat mn)%nat.
  Proof.
    intros f u lost [_ [N [B _]]]. destruct (nodup_app _ _ _ N) as [N1 _].
    rewrite <- (zrange_length mn). apply NoDup_incl_length; [exact N1|]. intros j Hj.
    assert (0 <= j < mn) by (apply B, in_or_app; now left). unfold zrange. apply in_map_iff. exists (Z.to_nat j). split; [lia|]. apply in_seq. lia.
  Qed.
  Lemma pool_room : forall f u, pool f u [] -> (length u < Z.to_nat mn)%nat -> exists i, is_free f i.
  Proof.
    intros f u [_ [N [B H]]] Lu. rewrite app_nil_r in *.
    destruct (forallb (fun j => existsb (Z.eqb j) u) (zrange mn)) eqn:E.
    - exfalso. rewrite forallb_forall in E.
      assert (I : incl (zrange mn) u). { intros j Hj. specialize (E j Hj). apply existsb_exists in E. destruct E as [y [Y1 Y2]]. apply Z.eqb_eq in Y2. now subst. }
      apply NoDup_incl_length in I; [rewrite zrange_length in I; lia|]. unfold zrange. apply FinFun.Injective_map_NoDup; [intros a b; lia|apply seq_NoDup].
    - assert (X : exists j, In j (zrange mn) /\ existsb (Z.eqb j) u = false).
      { clear - E. induction (zrange mn) as [|y l IH]; [discriminate|]. cbn in E. destruct (existsb (Z.eqb y) u) eqn:Ey; [|exists y; split; [now left|exact Ey]].
        destruct (IH E) as [j [J1 J2]]. exists j. split; [now right|exact J2]. }
      destruct X as [j [J1 J2]]. unfold zrange in J1. apply in_map_iff in J1. destruct J1 as [m [<- M]]. apply in_seq in M.
      exists (Z.of_nat m). apply H; [lia|]. intros I. assert (existsb (Z.eqb (Z.of_nat m)) u = true); [|congruence]. apply existsb_exists. exists (Z.of_nat m). split; [exact I|]. apply Z.eqb_refl.
  Qed.

  Variable x : list (num O).
  Variable label : Z.
  Hypothesis Hx : length x = Z.to_nat fc.
  Hypothesis Hlab : 0 <= label < lc.
  Local Notation pt := (x, label).
  Hypothesis Hfine : fine_pt pt.
  Local Notation train_tree f i := (train_tree O log_ rnd fc lc mn lifetime f x label i).
  Local Notation grows := (grows O fine draw pt).

  Lemma create_ok : forall f ts, holds f ts [] -> Z.of_nat (length ts) < tc -> (length (all_ids ts) < Z.to_nat mn)%nat ->
    exists f' a, train_tree f (Z.of_nat (length ts)) = Ok f' /\ holds f' (ts ++ [Leaf a [pt]]) [].
  Proof.
    intros f ts [H1 [H2 [H3 [H4 [H5 [H6 H7]]]]]] Hl Hr. unfold Mondrian_Model.train_tree. rewrite H4 by lia. cbn [bind Z.eqb].
    assert (Ln : Z.of_nat (length (nodes f)) = mn) by apply H5.
    destruct (available_node_ok O mn f Ln) as [a [-> [[-> NF]|[Ba Fa]]]]; cbn [bind].
    { exfalso. destruct (pool_room f _ H5 Hr) as [i Hi]. apply (NF i Hi). }
    pose proof Fa as [na [Ha Av]]. pose proof (H7 _ _ Ha Av) as ->.
    rewrite wr_ok by lia. cbn [bind]. set (f1 := mkForest O (nodes f) (upd (roots f) (Z.to_nat (Z.of_nat (length ts))) a) (drawn O f)).
    assert (Ha1 : rd (nodes f1) a = Ok empty) by exact Ha.
    erewrite with_node_ok; [|exact Ha1|reflexivity]. cbn [bind]. set (n1 := set_tau O _ _). set (f2 := put f1 a n1).
    assert (E2 : rd (nodes f2) a = Ok n1) by (unfold f2; rewrite (rd_put O f1 a empty n1 a Ha1); now rewrite Z.eqb_refl).
    erewrite sample_block_ok; [|exact Hfc|exact Hx|exact Hlab|exact E2|cbn; now rewrite repeat_length|cbn; apply rd_repeat; lia|lia].
    set (n2 := set_tau O _ _). set (f3 := put f2 a n2). exists f3, a. split; [reflexivity|].
    assert (D : forall j, rd (nodes f3) j = if a =? j then Ok n2 else rd (nodes f) j).
    { intros j. unfold f3. rewrite (rd_put O f2 a n1 n2 j E2). unfold f2. rewrite (rd_put O f1 a empty n1 j Ha1). now destruct (a =? j). }
    assert (Nu : forall j, In j (all_ids ts) -> j <> a). { intros j Hj ->. apply (pool_used O mn f _ _ _ H5 Hj Fa). }
    assert (Un : available O n2 = false) by (eapply used; [exact L|exact Hlife]).
    assert (Fr : forall j, is_free f3 j <-> is_free f j /\ j <> a).
    { intros j. unfold Mondrian_Spec.is_free. rewrite D. destruct (Z.eqb_spec a j) as [->|N].
      - split; [intros [m [M1 M2]]; injection M1 as <-; congruence|tauto].
      - split; [intros H; split; [exact H|congruence]|tauto]. }
    assert (Ts : tree_at f3 (-1) (n_ 0) (Leaf a [pt])).
    { exists n2. split; [cbn; rewrite D; now rewrite Z.eqb_refl|]. split; [reflexivity|]. split; [eapply bounding_pbox; eauto|].
      split; [cbn; unfold bump; now rewrite upd_length, repeat_length|]. split; [exact Hlife|]. split; [cbn; eapply le_refl; [exact L|apply life_cmp]|].
      repeat split. intros l Hl0. cbn [counters n2 set_tau set_counters set_box n1 set_children set_parent]. change [pt] with ([] ++ [pt]). match goal with |- rd (bump _ _ _) _ = _ => idtac end. change (rd (bump label (repeat 0 (Z.to_nat lc)) (count O label [])) l = Ok (count O l ([] ++ [pt]))).
      eapply bump_count; eauto; [apply repeat_length|]. intros l1 Hl1. apply rd_repeat. lia. }
    unfold holds. cbn [Mondrian_Model.roots]. change (roots f3) with (upd (roots f) (Z.to_nat (Z.of_nat (length ts))) a). rewrite upd_length, app_length. cbn [length].
    split; [exact H1|]. split; [lia|]. split; [|split; [|split; [|split]]].
    - intros i t Ht. rewrite rd_upd by lia. destruct (Z.eqb_spec (Z.of_nat (length ts)) (Z.of_nat i)) as [E|N].
      + apply Nat2Z.inj in E. subst i. rewrite nth_error_app2, Nat.sub_diag in Ht by lia. cbn in Ht. injection Ht as <-. auto.
      + assert (Hi : (i < length ts)%nat). { assert (nth_error (ts ++ [Leaf a [pt]]) i <> None) by congruence. apply nth_error_Some in H. rewrite app_length in H. cbn in H. lia. }
        rewrite nth_error_app1 in Ht by lia. destruct (H3 _ _ Ht) as [A B]. split; [exact A|]. apply tree_frame with f; [|exact B].
        intros j Hj. rewrite D. rewrite (proj2 (Z.eqb_neq a j)); [reflexivity|]. intros ->. apply (Nu j); [|reflexivity].
        unfold all_ids. apply in_concat. exists (ids t). split; [|exact Hj]. apply in_map. now apply nth_error_In with i.
    - intros i Hi. rewrite rd_upd by lia. rewrite (proj2 (Z.eqb_neq (Z.of_nat (length ts)) i)) by lia. apply H4. lia.
    - unfold all_ids in *. rewrite map_app, concat_app. cbn. destruct H5 as [P1 [P2 [P3 P4]]]. rewrite app_nil_r in P2, P3, P4.
      split; [unfold f3, f2; rewrite !put_length; exact P1|]. rewrite app_nil_r. split; [|split].
      + apply Permutation_NoDup with (a :: concat (map ids ts)); [apply Permutation_cons_append|]. constructor; [|exact P2]. intros I. now apply (Nu a).
      + intros i Hi. apply in_app_or in Hi. destruct Hi as [Hi|[<-|[]]]; auto.
      + intros i Hi. rewrite Fr, (P4 i Hi), in_app_iff. cbn. split; [intros [A B] [C|[C|[]]]; congruence || auto|intros A; split; [tauto|intros ->; tauto]].
    - split; [cbn; lia|]. congruence.
    - intros j m Hm Avm. rewrite D in Hm. destruct (Z.eqb_spec a j) as [->|N]; [injection Hm as <-; congruence|]. now apply (H7 j).
  Qed.

  Definition fit (t : mtree) : Prop := Forall fine_pt (points t) /\ Z.of_nat (length (points t)) < 2147483647.
  Lemma step_ok : forall f ts lost i t, holds f ts lost -> nth_error ts i = Some t -> fit t ->
    (train_tree f (Z.of_nat i) = Undef Uninitialised /\ (sure_pick O draw fc -> False)) \/
    exists f' t' lost', train_tree f (Z.of_nat i) = Ok f' /\ grows t t' /\ holds f' (upd ts i t') lost'.
  Proof.
    intros f ts lost i t [H1 [H2 [H3 [H4 [H5 [H6 H7]]]]]] Ht [F1 F2]. destruct (H3 _ _ Ht) as [Hr Tt].
    destruct (nth_error_split _ _ Ht) as [ta [tb [Ets Lta]]].
    set (rest := all_ids ta ++ all_ids tb).
    assert (PM : forall t', Permutation (all_ids (ta ++ t' :: tb)) (rest ++ ids t')).
    { intros t'. unfold all_ids, rest, all_ids. rewrite map_app, concat_app. cbn. rewrite <- app_assoc. apply Permutation_app_head. apply Permutation_app_comm. }
    assert (It : In (top t) (all_ids ts)) by (unfold all_ids; apply in_concat; exists (ids t); split; [apply in_map; now apply nth_error_In with i|apply top_in]).
    assert (Btop : 0 <= top t < mn) by (eapply pool_in; eauto).
    unfold Mondrian_Model.train_tree. rewrite Hr. cbn [bind]. rewrite (proj2 (Z.eqb_neq (top t) (-1))) by lia.
    assert (P : pool f (rest ++ ids t) lost) by (apply pool_perm with (all_ids ts); [rewrite Ets; apply PM|exact H5]).
    pose proof (pool_len _ _ _ P) as PL. rewrite app_length in PL.
    destruct (extend_ok O log_ rnd fc lc mn lifetime key cmp fine draw L Hdraw Hfc Hlife x label Hx Hlab Hfine (Z.of_nat i) t f (-1) (n_ 0) rest lost (S (Z.to_nat mn)))
      as [Bad|[f' [t' [lost' [E [G1 [G2 [G3 [G4 [G5 [G6 [G7 G8]]]]]]]]]]]].
    - lia.
    - split; [exact Tt|]. split; [exact P|]. do 3 (split; [assumption|]). split; [left; auto|]. split; [apply le00|exact F2].
    - left. exact Bad.
    - right. exists f', t', lost'. split; [exact E|]. split; [exact G1|]. rewrite Z.eqb_refl, Nat2Z.id in G7.
      assert (Li : (i < length ts)%nat) by (apply nth_error_Some; congruence).
      unfold holds. rewrite G7, !upd_length. split; [exact H1|]. split; [exact H2|]. split; [|split; [|split; [|split; [exact G4|exact G5]]]].
      + intros j s Hs. replace i with (Z.to_nat (Z.of_nat i)) at 1 by lia. rewrite rd_upd by lia. rewrite nth_error_upd in Hs. destruct (Nat.eqb_spec i j) as [->|N].
        * rewrite Z.eqb_refl. destruct (Nat.ltb_spec j (length ts)) as [_|]; [|lia]. injection Hs as <-. auto.
        * rewrite (proj2 (Z.eqb_neq (Z.of_nat i) (Z.of_nat j))) by lia. destruct (H3 _ _ Hs) as [A B]. split; [exact A|]. apply tree_frame with f; [|exact B].
          intros y Hy.
          assert (Iy : In y rest).
          { assert (Is : In s (ta ++ tb)).
            { rewrite Ets in Hs. destruct (Nat.lt_ge_cases j (length ta)) as [C|C].
              - rewrite nth_error_app1 in Hs by lia. apply in_or_app. left. now apply nth_error_In with j.
              - rewrite nth_error_app2 in Hs by lia. destruct (j - length ta)%nat as [|m] eqn:M; [lia|]. cbn in Hs. apply in_or_app. right. now apply nth_error_In with m. }
            unfold rest, all_ids. rewrite <- concat_app, <- map_app. apply in_concat. exists (ids s). split; [now apply in_map|exact Hy]. }
          rewrite G6 by exact Iy. assert (0 <= y < mn) by (eapply pool_in; [exact P|]; apply in_or_app; now left).
          rewrite (proj2 (Z.eqb_neq y (-1))) by lia. reflexivity.
      + intros j Hj. replace i with (Z.to_nat (Z.of_nat i)) at 1 by lia. rewrite rd_upd by lia. rewrite (proj2 (Z.eqb_neq (Z.of_nat i) j)) by lia. now apply H4.
      + rewrite Ets, <- Lta, upd_split. apply pool_perm with (rest ++ ids t'); [apply Permutation_sym, PM|exact G3].
  Qed.

  Local Notation train f := (train O log_ rnd tc fc lc mn lifetime f x label).
  Lemma first_train : forall f, holds f [] [] -> tc <= mn ->
    exists f' ts, train f = Ok (f', None) /\ holds f' ts [] /\ Z.of_nat (length ts) = tc /\ Forall (fun t => exists a, t = Leaf a [pt]) ts.
  Proof.
    intros f H Hm. unfold Mondrian_Model.train.
    destruct (forZ_inv _ (fun i '(f, r) => r = None /\ exists ts, holds f ts [] /\ Z.of_nat (length ts) = i /\ length (all_ids ts) = length ts /\
        Forall (fun t => exists a, t = Leaf a [pt]) ts)
      (fun i '(f, fully_trained) => do f <- train_tree f i; let has_trained := true in Ok (f, if negb has_trained then Some false else fully_trained))
      (Z.to_nat tc) 0 (f, None)) as [[f' r] [E [-> [ts [A1 [A2 [A3 A4]]]]]]].
    - split; [reflexivity|]. exists []. split; [exact H|]. split; [reflexivity|]. split; [reflexivity|constructor].
    - intros i [g r] Hi [-> [ts [A1 [<- [A3 A4]]]]]. destruct (create_ok g ts A1) as [g' [a [E A]]]; [lia|lia|]. rewrite E. cbn [bind negb].
      eexists. split; [reflexivity|]. split; [reflexivity|]. exists (ts ++ [Leaf a [pt]]). split; [exact A|]. split; [rewrite app_length; cbn; lia|].
      split; [unfold all_ids in *; rewrite map_app, concat_app, !app_length; cbn; lia|]. apply Forall_app. split; [exact A4|]. constructor; [now exists a|constructor].
    - exists f', ts. split; [exact E|]. split; [exact A1|]. split; [lia|exact A4].
  Qed.
  Lemma next_train : forall f ts lost, holds f ts lost -> Z.of_nat (length ts) = tc -> Forall fit ts ->
    (train f = Undef Uninitialised /\ (sure_pick O draw fc -> False)) \/
    exists f' ts' lost', train f = Ok (f', None) /\ holds f' ts' lost' /\ Forall2 grows ts ts'.
  Proof.
    intros f ts lost H Lt F. unfold Mondrian_Model.train.
    destruct (forZ_or _ (fun i '(f, r) => r = None /\ exists ts' lost', holds f ts' lost' /\ length ts' = length ts /\
        (forall j t t', Z.of_nat j < i -> nth_error ts j = Some t -> nth_error ts' j = Some t' -> grows t t') /\
        (forall j, i <= Z.of_nat j -> nth_error ts' j = nth_error ts j)) (sure_pick O draw fc -> False)
      (fun i '(f, fully_trained) => do f <- train_tree f i; let has_trained := true in Ok (f, if negb has_trained then Some false else fully_trained))
      (Z.to_nat tc) 0 (f, None)) as [Bad|[[f' r] [E [-> [ts' [lost' [A1 [A2 [A3 _]]]]]]]]].
    - split; [reflexivity|]. exists ts, lost. split; [exact H|]. split; [reflexivity|]. split; [intros; lia|auto].
    - intros i [g r] Hi [-> [ts' [lost' [A1 [A2 [A3 A4]]]]]].
      destruct (nth_error ts (Z.to_nat i)) as [t|] eqn:Et; [|apply nth_error_None in Et; lia].
      assert (Et' : nth_error ts' (Z.to_nat i) = Some t) by (rewrite A4 by lia; exact Et).
      rewrite Forall_forall in F. pose proof (F t (nth_error_In _ _ Et)) as Ft.
      destruct (step_ok g ts' lost' (Z.to_nat i) t A1 Et' Ft) as [[E B]|[g' [t' [lost'' [E [G A]]]]]]; rewrite Z2Nat.id in E by lia; rewrite E; cbn [bind negb].
      + left. auto.
      + right. eexists. split; [reflexivity|]. split; [reflexivity|]. exists (upd ts' (Z.to_nat i) t'), lost''. split; [exact A|]. rewrite upd_length. split; [exact A2|]. split.
        * intros j s s' Hj Hs Hs'. rewrite nth_error_upd in Hs'. destruct (Nat.eqb_spec (Z.to_nat i) j) as [<-|N].
          -- destruct (Nat.ltb_spec (Z.to_nat i) (length ts')) as [_|]; [|lia]. injection Hs' as <-. rewrite Et in Hs. injection Hs as <-. exact G.
          -- apply (A3 j); auto. lia.
        * intros j Hj. rewrite nth_error_upd_other by lia. apply A4. lia.
    - left. exact Bad.
    - right. exists f', ts', lost'. split; [exact E|]. split; [exact A1|].
      assert (X : forall j t t', nth_error ts j = Some t -> nth_error ts' j = Some t' -> grows t t').
      { intros j t t' Ht. apply A3; auto. assert (nth_error ts j <> None) by congruence. apply nth_error_Some in H0. lia. }
      clear - A2 X. revert ts' A2 X. induction ts as [|t ts IH]; intros [|t' ts'] A2 X; try discriminate; constructor.
      + apply (X 0%nat); reflexivity.
      + apply IH; [cbn in A2; lia|]. intros j s s' Hs Hs'. apply (X (S j)); assumption.
  Qed.
End Forest.
