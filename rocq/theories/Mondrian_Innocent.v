(** * Proofs for the Mondrian forest: what was asked does not matter for what is learned *)
From Coq Require Import ZArith List Bool Lia Reals Permutation.
From Verif Require Import CppBase CppFacts NumOps Utils_Model Coarse_Heap Mondrian_Model Mondrian_Spec Mondrian_Proofs Mondrian_Train Mondrian_Forest Mondrian_Predict Mondrian_Reach Forest_Sim.
Import ListNotations.
Local Open Scope Z_scope.

Lemma simr_steps : forall S S' (P : Z -> S -> S' -> Prop) n i b b' s s', P i s s' -> (forall j s s', i <= j < i + Z.of_nat n -> P j s s' -> simr (P (j + 1)) (b j s) (b' j s')) ->
  simr (P (i + Z.of_nat n)) (forZ n i b s) (forZ n i b' s').
Proof.
  intros S S' P n. induction n as [|n IH]; intros i b b' s s' H K; [cbn [forZ]; apply simr_ok; now rewrite Z.add_0_r|]. cbn [forZ]. apply simr_bind with (P (i + 1)); [apply K; [lia|exact H]|]. intros a a' _ _ Ha.
  replace (i + Z.of_nat (Datatypes.S n)) with (i + 1 + Z.of_nat n) by lia. apply IH; [exact Ha|]. intros j t t' Hj. apply K. lia.
Qed.

Section Innocent.
  Variable O : ops.
  Variable exp_ log_ : num O -> num O.
  Variable rnd : nat -> num O.
  Variable tc fc lc mn : Z.
  Variable lifetime base_measure discount_factor : num O.
  Local Notation node := (node O).
  Local Notation forest := (forest O).
  Local Notation nodes := (nodes O).
  Local Notation roots := (roots O).
  Local Notation counters := (counters O).
  Local Notation fsim := (fsim O (-1)).
  Local Notation tree_at := (tree_at O fc lc lifetime).
  Local Notation mtree := (mtree O).

  Lemma available_same : forall f g, fsim f g -> available_node O mn g = available_node O mn f.
  Proof.
    intros f g S. unfold available_node. f_equal. apply findZ_sim. intros j. pose proof (free_sim O (-1) f g j _ (fun a => Ok (if a then Some j else None)) S) as X. exact X.
  Qed.
  Lemma choose_sim : forall f g n cs x probs sum, fsim f g ->
    simr (fun p q => fsim (fst p) (fst q) /\ snd p = snd q /\ 0 <= fst (snd p)) (choose_split O rnd fc f n x probs sum) (choose_split O rnd fc g (set_counters O n cs) x probs sum).
  Proof.
    intros f g n cs x probs sum S. unfold choose_split. apply simr_same. intros ps _. destruct (uniform_sim O rnd (-1) f g S) as [A B].
    destruct (uniform O rnd f) as [u f1], (uniform O rnd g) as [u' g1]. cbn [fst snd] in A, B. subst u'. apply simr_same. intros d0 _.
    apply simr_bind with (fun p q : forest * Z => fsim (fst p) (fst q) /\ snd p = snd q).
    { destruct (_ || _); [|apply simr_ok; auto]. destruct (uniform_sim O rnd (-1) f1 g1 B) as [A1 B1]. destruct (uniform O rnd f1) as [u1 f2], (uniform O rnd g1) as [u1' g2]. cbn [fst snd] in A1, B1. subst u1'.
      apply simr_same. intros d _. apply simr_ok. auto. }
    intros [f2 d] [g2 d'] _ _ [B2 Ed]. cbn [fst snd] in B2, Ed. subst d'. cbn [bound_upper bound_lower set_counters]. apply simr_same. intros y Hy.
    apply simr_same. intros hi _. apply simr_same. intros lo _. apply simr_same. intros [lv uv] _. destruct (uniform_sim O rnd (-1) f2 g2 B2) as [A1 B1].
    destruct (uniform O rnd f2) as [u1 f3], (uniform O rnd g2) as [u1' g3]. cbn [fst snd] in A1, B1. subst u1'. apply simr_ok. cbn [fst snd]. split; [exact B1|]. split; [reflexivity|]. apply rd_ok_iff in Hy as [Hy _]. lia.
  Qed.
  Lemma box_sim : forall f g i x, fsim f g -> simr fsim (with_node O f i (fun n => update_box O fc n x)) (with_node O g i (fun n => update_box O fc n x)).
  Proof.
    intros f g i x S. apply with_sim; [exact S|]. intros n m _ [cs [-> [Lc Hc]]]. unfold update_box. cbn [bound_lower bound_upper set_counters]. apply simr_same. intros [l u] _. apply simr_ok. exists cs. split; [reflexivity|]. auto.
  Qed.
  Lemma extend_sim : forall steps f g i k x label, fsim f g -> simr fsim (extend_block O log_ rnd fc lc mn lifetime steps f i k x label) (extend_block O log_ rnd fc lc mn lifetime steps g i k x label).
  Proof.
    induction steps as [|steps IH]; intros f g i k x label H; [exact I|]. cbn [extend_block]. eapply simr_bind; [apply node_sim; exact H|]. intros n m En _ [cs [-> [Lc _]]].
    rewrite (parent_sim O (-1) f g n cs H). apply simr_same. intros pt _. change (distances O fc (set_counters O n cs) x) with (distances O fc n x). apply simr_same. intros [probs sum] _.
    assert (X : fst (if neq O sum (nofZ O 0) then (nofZ O (-1), g) else let (u, g) := uniform O rnd g in (rand_exponential O log_ u sum, g)) = fst (if neq O sum (nofZ O 0) then (nofZ O (-1), f) else let (u, f) := uniform O rnd f in (rand_exponential O log_ u sum, f)) /\
      fsim (snd (if neq O sum (nofZ O 0) then (nofZ O (-1), f) else let (u, f) := uniform O rnd f in (rand_exponential O log_ u sum, f))) (snd (if neq O sum (nofZ O 0) then (nofZ O (-1), g) else let (u, g) := uniform O rnd g in (rand_exponential O log_ u sum, g)))).
    { destruct (neq O sum (nofZ O 0)); [auto|]. destruct (uniform_sim O rnd (-1) f g H) as [A1 B1]. destruct (uniform O rnd f) as [u1 f2], (uniform O rnd g) as [u1' g2]. cbn [fst snd] in *. now subst u1'. }
    destruct (if neq O sum (nofZ O 0) then (nofZ O (-1), f) else _) as [e f1], (if neq O sum (nofZ O 0) then (nofZ O (-1), g) else _) as [e' g1]. cbn [fst snd] in X. destruct X as [-> S1]. cbn [tau set_counters].
    apply simr_bind with (fun p q : bool * forest => fst p = fst q /\ fsim (snd p) (snd q)).
    - destruct (_ && _); [|apply simr_ok; auto]. eapply simr_bind; [apply choose_sim; exact S1|]. intros [f2 [d [uv sp]]] [g2 [d' [uv' sp']]] _ _ [S2 [Eq Hd]]. cbn [fst snd] in S2, Eq, Hd. injection Eq as <- <- <-.
      rewrite (available_same _ _ S2). apply simr_same. intros np _. destruct (0 <=? np); [|apply simr_ok; auto].
      eapply simr_bind; [apply (with_plain O (-1) f2 g2 np (fun p => set_split O p d sp (nadd O pt e))); auto|].
      { intros q _ Lq. unfold is_leaf in Lq. cbn [split_dimension set_split] in Lq. lia. }
      intros f3 g3 _ _ S3. rewrite (available_same _ _ S3). apply simr_same. intros ns _. destruct (0 <=? ns); [|apply simr_ok; auto].
      eapply simr_bind; [apply insert_sim; exact S3|]. intros f4 g4 _ _ S4. apply simr_ok. auto.
    - intros [dn f2] [dn' g2] _ _ [Ed S2]. cbn [fst snd] in Ed, S2. subst dn'. destruct dn; [now apply simr_ok|].
      eapply simr_bind; [apply box_sim; exact S2|]. intros f3 g3 _ _ S3. eapply simr_bind; [apply node_sim; exact S3|]. intros n3 m3 E3 _ [cs3 [-> _]]. change (is_leaf O (set_counters O n3 cs3)) with (is_leaf O n3).
      destruct (is_leaf O n3) eqn:Lf.
      + apply with_sim; [exact S3|]. intros n4 m4 E4 N4. assert (n4 = n3) by congruence. subst n4. assert (m4 = n3) by (destruct N4 as [c4 [-> [_ Hc]]]; rewrite Hc, set_same; auto). subst m4. apply simr_refl. apply nsim_refl.
      + cbn [split_dimension split_value child_left child_right set_counters]. apply simr_same. intros y _. apply simr_same. intros v _. destruct (nle O y v); [now apply IH|]. destruct (nlt O v y); [now apply IH|now apply simr_ok].
  Qed.
  Definition free_leaves (f : forest) : Prop := forall i n, rd (nodes f) i = Ok n -> available O n = true -> is_leaf O n = true.
  Lemma findZ_some : forall R (b : Z -> res (option R)) n i r, findZ n i b = Ok (Some r) -> exists j, i <= j < i + Z.of_nat n /\ b j = Ok (Some r).
  Proof.
    intros R b n. induction n as [|n IH]; intros i r H; cbn [findZ] in H; [discriminate|]. inv_bind H. destruct v as [r'|]; [injection H as ->; exists i; split; [lia|exact E]|]. destruct (IH _ _ H) as [j [J1 J2]]. exists j. split; [lia|exact J2].
  Qed.
  Lemma available_free : forall f i n, available_node O mn f = Ok i -> rd (nodes f) i = Ok n -> available O n = true.
  Proof.
    intros f i n H Hn. unfold available_node in H. inv_bind H. injection H as H. destruct v as [j|]; subst i; [|apply rd_ok_iff in Hn as [Hn _]; lia].
    apply findZ_some in E. destruct E as [k [_ E]]. inv_bind E. destruct (available O v) eqn:A; [|discriminate]. injection E as <-. congruence.
  Qed.
  Lemma tree_sim : forall f g x label i, fsim f g -> free_leaves f -> simr fsim (train_tree O log_ rnd fc lc mn lifetime f x label i) (train_tree O log_ rnd fc lc mn lifetime g x label i).
  Proof.
    intros f g x label i S F. unfold train_tree. pose proof S as [Rt [Dr _]]. rewrite Rt at 1. apply simr_same. intros root _. destruct (root =? -1); [|now apply extend_sim].
    rewrite (available_same _ _ S). apply simr_same. intros r Hr. rewrite Rt, Dr. apply simr_same. intros rs _.
    assert (S1 : fsim (mkForest O (nodes f) rs (drawn O f)) (mkForest O (nodes g) rs (drawn O f))) by (destruct S as [_ [_ [L D]]]; repeat split; auto).
    eapply simr_bind; [apply (with_plain O (-1) _ _ r (fun n => set_tau O (set_children O (set_parent O n (-1)) (-1) (-1)) (nofZ O 0)) S1); auto|].
    intros f2 g2 E2 _ S2. apply sample_sim; [exact S2|]. right. intros n Hn. apply with_node_inv in E2. destruct E2 as [n0 [n1 [A1 [A2 ->]]]]. injection A2 as <-.
    rewrite (rd_put O _ _ _ _ _ A1), Z.eqb_refl in Hn. injection Hn as <-. change (is_leaf O n0 = true). apply (F r n0 A1). now apply available_free with f r.
  Qed.

  (** *** The same trees *)
  Lemma fsim_free : forall f g i, fsim f g -> (is_free O g i <-> is_free O f i).
  Proof.
    assert (X : forall f g i, fsim f g -> is_free O f i -> is_free O g i).
    { intros f g i S [n [H1 H2]]. apply fsim_get in S. destruct S as [_ [_ [_ D]]]. destruct (D i n H1) as [m [E [cs [-> _]]]]. exists (set_counters O n cs). split; [exact E|exact H2]. }
    intros f g i S. split; [apply X; now apply fsim_sym|now apply X].
  Qed.
  Lemma tree_same : forall t f g p pt, fsim f g -> tree_at f p pt t -> tree_at g p pt t.
  Proof.
    induction t as [i pts|i d v l IHl r IHr]; intros f g p pt S T; pose proof S as S0; apply fsim_get in S0; destruct S0 as [_ [_ [_ D]]].
    - destruct T as [n [T1 [T2 [T3 [T4 [T5 [T6 [T7 T8]]]]]]]]. destruct (D _ _ T1) as [m [E [cs [-> [_ Hc]]]]]. assert (Lf : is_leaf O n = true) by (unfold is_leaf; rewrite T7; reflexivity). rewrite Hc, set_same in E by auto.
      exists n. split; [exact E|]. auto 10.
    - destruct T as [n [T1 [T2 [T3 [T4 [T5 [T6 [T7 [T8 [T9 [T10 [T11 [T12 [T13 T14]]]]]]]]]]]]]]. destruct (D _ _ T1) as [m [E [cs [-> [Lc _]]]]]. exists (set_counters O n cs). split; [exact E|].
      cbn [Mondrian_Model.counters set_counters parent bound_lower bound_upper tau split_dimension split_value child_left child_right].
      split; [exact T2|]. split; [exact T3|]. split; [congruence|]. split; [exact T5|]. split; [exact T6|]. split; [exact T7|]. split; [exact T8|]. split; [exact T9|]. split; [exact T10|]. split; [exact T11|]. split; [exact T12|].
      split; [now apply IHl with f|now apply IHr with f].
  Qed.
  Local Notation holds := (holds O tc fc lc mn lifetime).
  Lemma holds_sim : forall f g ts lost, fsim f g -> holds f ts lost -> holds g ts lost.
  Proof.
    intros f g ts lost S [H1 [H2 [H3 [H4 [H5 [H6 H7]]]]]]. pose proof S as S0. apply fsim_get in S0. destruct S0 as [A [_ [C _]]]. unfold Mondrian_Forest.holds. rewrite A. split; [exact H1|]. split; [exact H2|]. split; [|split; [exact H4|split; [|split]]].
    - intros i t Ht. destruct (H3 i t Ht) as [B1 B2]. split; [exact B1|]. now apply tree_same with f.
    - apply pool_same with f; auto. intros i. now apply fsim_free.
    - apply lost_same with f; auto. intros i. now apply fsim_free.
    - intros i n Hn Av. apply fsim_sym in S. apply fsim_get in S. destruct S as [_ [_ [_ D]]]. destruct (D i n Hn) as [m [E [cs [-> [_ Hc]]]]]. pose proof (H7 _ _ E Av) as X.
      assert (Lf : is_leaf O n = true) by (apply (f_equal (fun q => is_leaf O q)) in X; exact X). rewrite Hc, set_same in X by auto. exact X.
  Qed.
  Lemma holds_leaves : forall f ts lost, holds f ts lost -> free_leaves f.
  Proof. intros f ts lost [_ [_ [_ [_ [_ [_ H7]]]]]] i n Hn Av. now rewrite (H7 i n Hn Av). Qed.

  Lemma posteriors_sim : forall f f', update_all O tc lc mn f = Ok f' -> fsim f f'.
  Proof.
    intros f f' E. unfold update_all in E.
    assert (X : fsim f f' /\ True); [|apply X]. refine (forZ_inv_post _ (fun _ g => fsim f g /\ True) _ _ 0 _ _ _ _ E); [split; [apply fsim_refl|exact I]|]. intros j g g' _ [Hg _] H1. split; [|exact I].
    inv_bind H1. destruct (_ =? _); [injection H1 as <-; exact Hg|]. apply posterior_sim in H1. eapply fsim_trans; eauto.
  Qed.
  Lemma predict_sim : forall f x sc f' b sc', predict O exp_ tc fc lc mn base_measure discount_factor f x sc = Ok (f', b, sc') -> fsim f f' /\ update_all O tc lc mn f = Ok f'.
  Proof. intros f x sc f' b sc' H. unfold predict in H. inv_bind H. inv_bind H. inv_bind H. injection H as <- _ _. split; [now apply posteriors_sim|exact E]. Qed.

  (** *** The same predictions *)
  Local Notation counted := (counted O lc).
  Local Notation ids := (ids O).
  Hypothesis Hlc : 1 <= lc.
  Hypothesis Htc : 0 <= tc.
  Hypothesis Hfc : 0 <= fc.
  Lemma counted_same : forall t f g p pt, fsim f g -> tree_at f p pt t -> counted f t -> counted g t -> forall j, In j (ids t) -> rd (nodes g) j = rd (nodes f) j.
  Proof.
    induction t as [i pts|i d v l IHl r IHr]; intros f g p pt S T C C' j Hj; pose proof S as S0; apply fsim_get in S0; destruct S0 as [_ [_ [_ D]]].
    - destruct T as [n [T1 [_ [_ [_ [_ [_ [T7 _]]]]]]]]. destruct Hj as [<-|[]]. destruct (D _ _ T1) as [m [E [cs [-> [_ Hc]]]]]. cbn [top] in T1, E. assert (Lf : is_leaf O n = true) by (unfold is_leaf; rewrite T7; reflexivity). rewrite Hc, set_same in E by auto. congruence.
    - destruct T as [n [T1 [_ [_ [T4 [_ [_ [_ [_ [_ [_ [_ [_ [T13 T14]]]]]]]]]]]]]]. destruct C as [[n1 [C1 C2]] [C3 C4]], C' as [[n2 [C1' C2']] [C3' C4']]. cbn [top] in T1. rewrite T1 in C1. injection C1 as <-.
      destruct Hj as [<-|Hj]; [|apply in_app_or in Hj; destruct Hj as [Hj|Hj]; [now apply (IHl f g i (tau O n))|now apply (IHr f g i (tau O n))]].
      destruct (D _ _ T1) as [m [E [cs [-> [Lc _]]]]]. rewrite E in C1'. injection C1' as <-. cbn [Mondrian_Model.counters set_counters] in C2'. rewrite E, T1. f_equal.
      assert (X : cs = counters n); [|rewrite X; apply set_same]. apply nth_ext with 0 0; [exact Lc|]. intros k Hk. assert (Hk' : 0 <= Z.of_nat k < lc) by lia.
      pose proof (C2 _ Hk') as A. pose proof (C2' _ Hk') as B. apply rd_ok_iff in A, B. destruct A as [_ A], B as [_ B]. rewrite Nat2Z.id in A, B.
      now rewrite (nth_error_nth _ _ 0 A), (nth_error_nth _ _ 0 B).
  Qed.
  Lemma mean_same : forall f g n m, fsim f g -> compute_posterior_mean O exp_ lc discount_factor g n m = compute_posterior_mean O exp_ lc discount_factor f n m.
  Proof. intros f g n m S. unfold compute_posterior_mean. rewrite <- (parent_sim O (-1) f g n (counters n) S). now rewrite set_same. Qed.
  Lemma from_same : forall t f g p pt steps x sep means smoothed, fsim f g -> tree_at f p pt t -> (forall j, In j (ids t) -> rd (nodes g) j = rd (nodes f) j) ->
    predict_from O exp_ fc lc discount_factor steps g (top O t) x sep means smoothed = predict_from O exp_ fc lc discount_factor steps f (top O t) x sep means smoothed.
  Proof.
    induction t as [i pts|i d v l IHl r IHr]; intros f g p pt steps x sep means smoothed S T E; (destruct steps as [|steps]; [reflexivity|]); cbn [predict_from top];
      (destruct (i =? -1); [reflexivity|]); (rewrite E by now left).
    - destruct T as [n [T1 [_ [_ [_ [_ [_ [T7 _]]]]]]]]. cbn [top] in T1. rewrite T1. cbn [bind]. unfold is_leaf. rewrite T7. cbn [Z.eqb Pos.eqb]. destruct (compute_eta O fc n x) as [eta|u| |]; cbn [bind]; try reflexivity.
      match goal with |- bind ?m _ = _ => destruct m as [sm|u| |] end; cbn [bind]; try reflexivity. now rewrite (mean_same f g n means S).
    - destruct T as [n [T1 [_ [_ [_ [_ [_ [T7 [_ [_ [_ [T11 [T12 [T13 T14]]]]]]]]]]]]]]. cbn [top] in T1. rewrite T1. cbn [bind]. destruct (compute_eta O fc n x) as [eta|u| |]; cbn [bind]; try reflexivity.
      match goal with |- bind ?m _ = _ => destruct m as [sm|u| |] end; cbn [bind]; try reflexivity. rewrite (mean_same f g n means S). destruct (compute_posterior_mean O exp_ lc discount_factor f n means) as [ms|u| |]; cbn [bind]; try reflexivity.
      destruct (is_leaf O n); [reflexivity|]. destruct (rd x (split_dimension O n)) as [y|u| |]; cbn [bind]; try reflexivity. destruct (match split_value O n with Some v => Ok v | None => Undef Uninitialised end) as [w|u| |]; cbn [bind]; try reflexivity.
      rewrite T11, T12. destruct (nle O y w); [apply (IHl f g i (tau O n))|apply (IHr f g i (tau O n))]; auto; intros j Hj; apply E; right; apply in_or_app; auto.
  Qed.
  Lemma forZ_ext : forall S (b b' : Z -> S -> res S) n i s, (forall j s, i <= j < i + Z.of_nat n -> b' j s = b j s) -> forZ n i b' s = forZ n i b s.
  Proof.
    intros S b b' n. induction n as [|n IH]; intros i s H; [reflexivity|]. cbn [forZ]. rewrite H by lia. destruct (b i s) as [s1|u| |]; cbn [bind]; try reflexivity. apply IH. intros j s2 Hj. apply H. lia.
  Qed.
  Lemma means_same : forall f g ts lost x, fsim f g -> holds f ts lost -> (forall t, In t ts -> forall j, In j (ids t) -> rd (nodes g) j = rd (nodes f) j) ->
    forest_means O exp_ tc fc lc mn base_measure discount_factor g x = forest_means O exp_ tc fc lc mn base_measure discount_factor f x.
  Proof.
    intros f g ts lost x S [H1 [H2 [H3 [H4 _]]]] E. unfold forest_means. pose proof S as [Rt _]. match goal with |- bind ?a _ = bind ?b _ => assert (X : a = b); [|now rewrite X] end.
    apply forZ_ext. intros j sums Hj. assert (X : predict_tree O exp_ fc lc mn base_measure discount_factor g x j = predict_tree O exp_ fc lc mn base_measure discount_factor f x j); [|now rewrite X].
    unfold predict_tree. rewrite Rt. destruct (nth_error ts (Z.to_nat j)) as [t|] eqn:Et.
    - destruct (H3 _ _ Et) as [A1 A2]. rewrite Z2Nat.id in A1 by lia. rewrite A1. cbn [bind]. apply from_same with (-1) (nofZ O 0); auto. apply E. now apply nth_error_In with (Z.to_nat j).
    - apply nth_error_None in Et. rewrite H4 by lia. reflexivity.
  Qed.
  Lemma predict_same : forall f g ts lost x sc, Z.of_nat (length x) = fc -> fsim f g -> holds f ts lost ->
    exists f' g' b, predict O exp_ tc fc lc mn base_measure discount_factor f x sc = Ok (f', b, sc) /\ predict O exp_ tc fc lc mn base_measure discount_factor g x sc = Ok (g', b, sc).
  Proof.
    intros f g ts lost x sc Hx S H. assert (Lx : length x = Z.to_nat fc) by lia. pose proof (holds_sim _ _ _ _ S H) as H'.
    destruct (predict_ok O exp_ tc fc lc mn lifetime base_measure discount_factor Hlc Htc Hfc x Lx f ts lost sc H) as [f' [m [b [E1 [E2 [E3 [_ [E5 [E6 [_ [E8 _]]]]]]]]]]].
    destruct (predict_ok O exp_ tc fc lc mn lifetime base_measure discount_factor Hlc Htc Hfc x Lx g ts lost sc H') as [g' [m' [b' [G1 [G2 [G3 [_ [G5 [G6 [_ [G8 _]]]]]]]]]]].
    assert (S' : fsim f' g') by (apply fsim_trans with f; [apply fsim_sym; now apply posteriors_sim|]; apply fsim_trans with g; [exact S|now apply posteriors_sim]).
    assert (M : m' = m).
    { rewrite (means_same f' g' ts lost x S' E3) in G6; [congruence|]. intros t It j Hj. pose proof E3 as [_ [_ [A _]]]. apply In_nth_error in It as It'. destruct It' as [k Hk]. destruct (A k t Hk) as [_ T].
      rewrite Forall_forall in E5, G5. apply (counted_same t f' g' (-1) (nofZ O 0)); auto. }
    subst m'. assert (b' = b) by congruence. subst b'. eauto 6.
  Qed.

  (** *** The same training *)
  Variable key : num O -> R.
  Variable cmp fine draw : num O -> Prop.
  Hypothesis L : laws O key cmp fine draw fc.
  Hypothesis Hdraw : forall k, draw (rnd k).
  Hypothesis Sz : sizes tc fc lc mn.
  Hypothesis Hlife : nle O (nofZ O 0) lifetime = true.
  Local Notation train := (train O log_ rnd tc fc lc mn lifetime).
  Local Notation input := (input O fc fine).
  Lemma train_sim : forall f g ts lost x label, fsim f g -> holds f ts lost -> Z.of_nat (length ts) = tc -> Forall (fit O fc fine) ts -> input x -> 0 <= label < lc ->
    simr (fun p q => fsim (fst p) (fst q) /\ snd p = snd q) (train f x label) (train g x label).
  Proof.
    intros f g ts lost x label S H Lt Ft Hx Hl. destruct Sz as [Z1 [Z2 Z3]]. unfold Mondrian_Model.train.
    apply (simr_impl _ _ (fun p q => (fsim (fst p) (fst q) /\ snd p = snd q) /\ exists ts' lost', holds (fst p) ts' lost' /\ length ts' = length ts /\ forall j, 0 + Z.of_nat (Z.to_nat tc) <= Z.of_nat j -> nth_error ts' j = nth_error ts j)); [tauto|].
    apply (simr_steps _ _ (fun i p q => (fsim (fst p) (fst q) /\ snd p = snd q) /\ exists ts' lost', holds (fst p) ts' lost' /\ length ts' = length ts /\ forall j, i <= Z.of_nat j -> nth_error ts' j = nth_error ts j)).
    - cbn [fst snd]. split; [auto|]. exists ts, lost. auto.
    - intros i [a r] [b r'] Hi [[Sa Er] [ts' [lost' [A1 [A2 A3]]]]]. cbn [fst snd] in Sa, Er, A1. subst r'. destruct (nth_error ts (Z.to_nat i)) as [t|] eqn:Et; [|apply nth_error_None in Et; lia].
      assert (Et' : nth_error ts' (Z.to_nat i) = Some t) by (rewrite A3 by lia; exact Et). rewrite Forall_forall in Ft. pose proof (Ft t (nth_error_In _ _ Et)) as F1.
      apply simr_bind with (fun p q => fsim p q); [apply tree_sim; [exact Sa|now apply holds_leaves with ts' lost']|]. intros a1 b1 Ea _ S1. apply simr_ok. cbn [fst snd negb]. split; [auto|].
      assert (Lx : length x = Z.to_nat fc) by (destruct Hx; lia).
      destruct (step_ok O log_ rnd tc fc lc mn lifetime key cmp fine draw L Hdraw ltac:(lia) Hlife x label Lx Hl (input_fine O fc fine x label Hx) a ts' lost' (Z.to_nat i) t A1 Et' F1) as [[E B]|[g' [t' [lost'' [E [G A]]]]]]; rewrite Z2Nat.id in E by lia; [congruence|].
      assert (g' = a1) by congruence. subst g'. exists (upd ts' (Z.to_nat i) t'), lost''. split; [exact A|]. rewrite upd_length. split; [exact A2|]. intros j Hj. rewrite nth_error_upd_other by lia. apply A3. lia.
  Qed.

  Local Notation reached := (reached O exp_ log_ rnd tc fc lc mn lifetime base_measure discount_factor fine).
  Fixpoint learned (h : list (point O)) : res forest :=
    match h with [] => Ok (forest_init O tc fc lc mn) | (x, l) :: h => do f <- learned h; do (f, _) <- train f x l; Ok f end.
  Lemma reached_nil : forall f h, reached f h -> h = [] -> f = forest_init O tc fc lc mn.
  Proof.
    intros f h R. induction R as [|f h x label f' r R IH Hx Hl E|f h x s f' b s' R IH Hx E]; intros Hh; [reflexivity|discriminate|]. specialize (IH Hh). subst f. apply predict_sim in E. destruct E as [_ E]. unfold update_all in E.
    assert (X : forall n i, 0 <= i -> i + Z.of_nat n <= tc -> forZ n i (fun i f => do root <- rd (roots f) i; if root =? -1 then Ok f else update_posterior_count O lc (S (Z.to_nat mn)) f root) (forest_init O tc fc lc mn) = Ok (forest_init O tc fc lc mn)).
    { induction n as [|n IHn]; intros i Hi Hn; [reflexivity|]. cbn [forZ]. unfold forest_init at 1. cbn [Mondrian_Model.roots]. assert (Y : rd (repeat (-1) (Z.to_nat tc)) i = Ok (-1)).
      { apply rd_ok_iff. split; [exact Hi|]. apply nth_error_repeat. lia. }
      rewrite Y. cbn [bind Z.eqb Pos.eqb]. apply IHn; lia. }
    rewrite X in E by lia. congruence.
  Qed.
  Local Notation state := (state O tc fc lc mn lifetime (fun _ => True)).
  Lemma reached_here : forall f h, reached f h -> Z.of_nat (length h) <= 2147483647 -> exists ts lost, state f h ts lost /\ (h <> [] -> Z.of_nat (length ts) = tc).
  Proof.
    intros f h R Hn. apply (reached_state O exp_ log_ rnd tc fc lc mn lifetime base_measure discount_factor key cmp fine draw L Hdraw Sz Hlife (fun _ => True) (fun _ _ => I) (fun _ _ _ _ _ => I) f h R Hn).
  Qed.
  Lemma learn_sim : forall f g h x label, reached f h -> reached g h -> fsim f g -> Z.of_nat (length h) < 2147483647 -> input x -> 0 <= label < lc ->
    simr (fun p q => fsim (fst p) (fst q) /\ snd p = snd q) (train f x label) (train g x label).
  Proof.
    intros f g h x label R R' S Hn Hx Hl. destruct h as [|q h].
    - rewrite (reached_nil f [] R eq_refl), (reached_nil g [] R' eq_refl). apply simr_refl. intros a. split; [apply fsim_refl|reflexivity].
    - destruct (reached_here f _ R ltac:(lia)) as [ts [lost [[H1 [_ H3]] H4]]]. apply train_sim with ts lost; auto; [apply H4; discriminate|].
      apply (fits O fc fine (fun _ => True)) with (q :: h); auto. now apply (reached_fine O exp_ log_ rnd tc fc lc mn lifetime base_measure discount_factor fine) with f.
  Qed.
  Lemma reached_learned : forall f h, reached f h -> Z.of_nat (length h) <= 2147483647 -> exists f0, learned h = Ok f0 /\ reached f0 h /\ fsim f0 f.
  Proof.
    intros f h R. induction R as [|f h x label f' r R IH Hx Hl E|f h x s f' b s' R IH Hx E]; intros Hn.
    - eexists. split; [reflexivity|]. split; [constructor|apply fsim_refl].
    - cbn [length] in Hn. destruct IH as [f0 [A1 [A2 A3]]]; [lia|]. pose proof (learn_sim f0 f h x label A2 R A3 ltac:(lia) Hx Hl) as T. destruct (simr_inv _ _ _ _ _ _ T E) as [[f1 r1] [E1 [S1 _]]]. exists f1.
      cbn [learned]. rewrite A1. cbn [bind]. rewrite E1. split; [reflexivity|]. split; [econstructor; eauto|exact S1].
    - destruct IH as [f0 [A1 [A2 A3]]]; [exact Hn|]. exists f0. split; [exact A1|]. split; [exact A2|]. apply fsim_trans with f; [exact A3|]. now apply predict_sim in E.
  Qed.
  Lemma reached_sim : forall f g h, reached f h -> reached g h -> Z.of_nat (length h) <= 2147483647 -> fsim f g.
  Proof.
    intros f g h R R' Hn. destruct (reached_learned f h R Hn) as [a [A1 [_ A3]]]. destruct (reached_learned g h R' Hn) as [b [B1 [_ B3]]]. assert (b = a) by congruence. subst b. apply fsim_trans with a; [now apply fsim_sym|exact B3].
  Qed.
End Innocent.
