(** * Proofs relating the Mondrian forests: the same trees predict the same *)
From Coq Require Import ZArith List Bool Lia.
From Verif Require Import CppBase CppFacts NumOps Utils_Model Mondrian_Model Mondrian_Spec Mondrian_Proofs.
From Verif Require Unbound_Model.
From Verif Require Import Forest_Spec Forest_Same Forest_Train.
Import ListNotations.
Local Open Scope Z_scope.

Lemma forZ_ext_in : forall S (b b' : Z -> S -> res S) n i s, (forall j s, i <= j < i + Z.of_nat n -> b j s = b' j s) -> forZ n i b s = forZ n i b' s.
Proof.
  induction n as [|n IH]; intros i s H; cbn [forZ]; [reflexivity|]. rewrite H by lia. destruct (b' i s); cbn; auto. apply IH. intros j z Hj. apply H. lia.
Qed.
Lemma bind_same : forall A B (m : res A) (k k' : A -> res B), (forall a, k a = k' a) -> bind m k = bind m k'.
Proof. intros A B m k k' H. destruct m; cbn; auto. Qed.
Lemma bind_same2 : forall A B (m m' : res A) (k k' : A -> res B), m = m' -> (forall a, k a = k' a) -> bind m k = bind m' k'.
Proof. intros A B m m' k k' -> H. destruct m'; cbn; auto. Qed.

Section PredictSame.
  Variable O : ops.
  Variable exp_ : num O -> num O.
  Variable tc fc lc mn : Z.
  Variable lifetime base_measure discount_factor : num O.
  Variable cmp fine : num O -> Prop.
  Local Notation forest := (forest O).
  Local Notation node := (node O).
  Local Notation nodes := (nodes O).
  Local Notation roots := (roots O).
  Local Notation put := (put O).
  Local Notation n_ := (nofZ O).
  Local Notation alike := (alike O).
  Local Notation recounted := (recounted O).
  Variable e : node.
  Hypothesis Hedim : split_dimension O e = -1.
  Local Notation rel := (rel O mn cmp fine e).
  Local Notation tree_at := (tree_at O fc lc lifetime).
  Local Notation counted := (counted O lc).
  Local Notation same := (same_tree O lc).

  (** Updating the counters. *)
  Lemma put_recounted : forall f i n cs, rd (nodes f) i = Ok n -> is_leaf O n = false -> recounted f (put f i (set_counters O n cs)).
  Proof.
    intros f i n cs Hn Lf. pose proof (rd_bounds _ _ _ _ Hn) as Bi. split; [reflexivity|]. split; [reflexivity|]. split; [apply put_length|]. intros c q Hq. rewrite put_rd by lia.
    destruct (Z.eqb_spec i c) as [->|D].
    - rewrite Hn in Hq. injection Hq as <-. eexists. split; [reflexivity|]. congruence.
    - exists (counters O q). split; [rewrite Hq; now destruct q|auto].
  Qed.
  Lemma posterior_inv : forall steps f i f', update_posterior_count O lc steps f i = Ok f' -> recounted f f'.
  Proof.
    induction steps as [|steps IH]; intros f i f' H; [discriminate|]. cbn [update_posterior_count] in H. apply bind_inv in H. destruct H as [n [Hn H]].
    destruct (is_leaf O n) eqn:Lf; [injection H as <-; apply recounted_refl|]. apply bind_inv in H. destruct H as [f1 [E1 H]]. apply bind_inv in H. destruct H as [f2 [E2 H]].
    pose proof (recounted_trans _ _ _ _ (IH _ _ _ E1) (IH _ _ _ E2)) as A.
    apply (forZ_inv_post _ (fun _ h => recounted f h)) in H; [exact H|exact A|]. intros l h h' _ B E.
    do 5 (apply bind_inv in E; destruct E as [? [_ E]]). apply with_inv in E. destruct E as [q [q' [Q1 [Q2 ->]]]]. apply bind_inv in Q2. destruct Q2 as [cs [_ Q2]]. injection Q2 as <-.
    eapply recounted_trans; [exact B|]. apply put_recounted; [exact Q1|]. destruct B as [_ [_ [_ B]]]. destruct (B i n Hn) as [c [C1 _]]. rewrite Q1 in C1. injection C1 as ->. exact Lf.
  Qed.
  Lemma update_all_inv : forall f f', update_all O tc lc mn f = Ok f' -> recounted f f'.
  Proof.
    intros f f' H. unfold update_all in H. apply (forZ_inv_post _ (fun _ h => recounted f h)) in H; [exact H|apply recounted_refl|]. intros i h h' _ B E.
    apply bind_inv in E. destruct E as [r [_ E]]. destruct (r =? -1); [now injection E as <-|]. eapply recounted_trans; [exact B|]. eapply posterior_inv. exact E.
  Qed.
  Lemma rel_update : forall s f g f', rel s f g -> recounted f f' -> rel s f' g.
  Proof.
    intros s f g f' R A. apply rel_recounted_l with f; [exact R|exact A|]. intros i n Hn Ni. destruct R as [_ [_ [_ [_ [_ [R6 _]]]]]]. pose proof (R6 i n Hn Ni) as ->.
    destruct A as [_ [_ [_ A]]]. destruct (A i e Hn) as [cs [C1 C2]]. rewrite C1, C2 by (unfold is_leaf; rewrite Hedim; reflexivity). now destruct e.
  Qed.

  (** The trees are the same. *)
  Lemma top_bounds : forall f p pt t, tree_at f p pt t -> 0 <= top O t.
  Proof. intros f p pt t H. destruct t; destruct H as [n [H _]]; apply rd_bounds in H; cbn [top] in *; lia. Qed.
  Lemma tree_same : forall s f g, rel s f g -> forall tb tu p pt p' pt', In (top O tb, top O tu) s -> tree_at f p pt tb -> tree_at g p' pt' tu -> same tb tu.
  Proof.
    intros s f g R. induction tb as [i pts|i d v a IHa b IHb]; intros tu p pt p' pt' I T U.
    - destruct T as [n [T1 [_ [_ [_ [_ [_ [T2 [_ [_ [_ T3]]]]]]]]]]]. destruct (rel_rd _ _ _ _ _ _ _ _ _ _ R I) as [n' [m [Q1 [Q2 [Q3 _]]]]]. rewrite T1 in Q1. injection Q1 as <-.
      destruct tu as [j qts|j d v a b].
      + destruct U as [m' [U1 [_ [_ [_ [_ [_ [U2 [_ [_ [_ U3]]]]]]]]]]]. rewrite U1 in Q2. injection Q2 as <-. intros l Hl. specialize (T3 l Hl). specialize (U3 l Hl).
        destruct Q3 as [_ [_ [_ [_ [_ [_ [_ [_ Q]]]]]]]]. rewrite Q in T3 by (unfold is_leaf; now rewrite T2). congruence.
      + destruct U as [m' [U1 [_ [_ [_ [_ [_ [U2 [U3 _]]]]]]]]]. rewrite U1 in Q2. injection Q2 as <-. destruct Q3 as [Q _]. lia.
    - pose proof T as [n [T1 [_ [_ [_ [_ [_ [T2 [T3 [T4 [_ [T5 [T6 [Ta Tb]]]]]]]]]]]]]]. destruct (rel_rd _ _ _ _ _ _ _ _ _ _ R I) as [n' [m [Q1 [Q2 [Q3 _]]]]]. rewrite T1 in Q1. injection Q1 as <-.
      destruct tu as [j qts|j d' v' a' b'].
      + destruct U as [m' [U1 [_ [_ [_ [_ [_ [U2 _]]]]]]]]. rewrite U1 in Q2. injection Q2 as <-. destruct Q3 as [Q _]. lia.
      + destruct U as [m' [U1 [_ [_ [_ [_ [_ [U2 [U3 [U4 [_ [U5 [U6 [Ua Ub]]]]]]]]]]]]]]. rewrite U1 in Q2. injection Q2 as <-. destruct Q3 as [A1 [A2 [_ [_ [A5 [A6 _]]]]]]. cbn [same_tree].
        split; [congruence|]. split; [rewrite A2 in T4; [congruence|unfold is_leaf; apply Z.eqb_neq; rewrite T2; lia]|]. rewrite T5, U5 in A5. rewrite T6, U6 in A6.
        pose proof (top_bounds _ _ _ _ Ta). pose proof (top_bounds _ _ _ _ Tb).
        split; [destruct A5 as [[X _]|A5]; [lia|]; eapply IHa; eauto|destruct A6 as [[X _]|A6]; [lia|]; eapply IHb; eauto].
  Qed.
  Lemma count_app : forall l a b, count O l (a ++ b) = count O l a + count O l b.
  Proof. intros l a b. unfold count, with_label. rewrite filter_app, app_length. apply Nat2Z.inj_add. Qed.
  Lemma same_count : forall tb tu, same tb tu -> forall l, 0 <= l < lc -> count O l (points O tb) = count O l (points O tu).
  Proof.
    induction tb as [i pts|i d v a IHa b IHb]; intros [j qts|j d' v' a' b'] S l Hl; cbn in S; try contradiction; cbn [points].
    - now apply S.
    - destruct S as [_ [_ [Sa Sb]]]. rewrite !count_app. rewrite (IHa a' Sa l Hl), (IHb b' Sb l Hl). reflexivity.
  Qed.
  Lemma top_same : forall s f g tb tu p pt p' pt', rel s f g -> In (top O tb, top O tu) s -> tree_at f p pt tb -> tree_at g p' pt' tu -> counted f tb -> counted g tu ->
    exists n m, rd (nodes f) (top O tb) = Ok n /\ rd (nodes g) (top O tu) = Ok m /\ alike s n m /\ forall l, 0 <= l < lc -> rd (counters O n) l = rd (counters O m) l.
  Proof.
    intros s f g tb tu p pt p' pt' R I T U Ct Cu. pose proof (tree_same _ _ _ R _ _ _ _ _ _ I T U) as S.
    destruct (rel_rd _ _ _ _ _ _ _ _ _ _ R I) as [n [m [Q1 [Q2 [Q3 _]]]]]. exists n, m. split; [exact Q1|]. split; [exact Q2|]. split; [exact Q3|]. intros l Hl.
    destruct tb as [i pts|i d v a b], tu as [j qts|j d' v' a' b']; cbn in S; try contradiction.
    - destruct T as [n' [T1 [_ [_ [_ [_ [_ [T2 _]]]]]]]]. rewrite Q1 in T1. injection T1 as <-. destruct Q3 as [_ [_ [_ [_ [_ [_ [_ [_ Q]]]]]]]]. rewrite Q; [reflexivity|]. unfold is_leaf. now rewrite T2.
    - destruct S as [_ [_ [Sa Sb]]]. cbn [top] in Q1, Q2. destruct Ct as [[n' [C1 C2]] _]. rewrite Q1 in C1. injection C1 as <-. destruct Cu as [[m' [D1 D2]] _]. rewrite Q2 in D1. injection D1 as <-.
      rewrite C2, D2 by exact Hl. unfold present. now rewrite (same_count _ _ Sa l Hl), (same_count _ _ Sb l Hl).
  Qed.

  (** Predictions. *)
  Variable y : list (num O).
  Lemma eta_same : forall s n m, alike s n m -> compute_eta O fc n y = compute_eta O fc m y.
  Proof. intros s n m [_ [_ [A [B _]]]]. unfold compute_eta. now rewrite A, B. Qed.
  Lemma smooth_same : forall n m eta dt sep br means sm, (forall l, 0 <= l < lc -> rd (counters O n) l = rd (counters O m) l) ->
    smooth O exp_ lc discount_factor n eta dt sep br means sm = smooth O exp_ lc discount_factor m eta dt sep br means sm.
  Proof.
    intros n m eta dt sep br means sm H. unfold smooth. destruct (nlt O (n_ 0) br); [|reflexivity]. f_equal. apply forZ_ext_in. intros l [c cs] Hl. rewrite H by lia. reflexivity.
  Qed.
  Lemma mean_same : forall s f g n m means, rel s f g -> alike s n m -> (forall l, 0 <= l < lc -> rd (counters O n) l = rd (counters O m) l) ->
    compute_posterior_mean O exp_ lc discount_factor f n means = compute_posterior_mean O exp_ lc discount_factor g m means.
  Proof.
    intros s f g n m means R A H. unfold compute_posterior_mean. rewrite (time_same _ _ _ _ _ _ _ _ _ _ R A (or_intror Logic.I)). apply bind_same. intros pt.
    destruct A as [_ [_ [_ [_ [_ [_ [_ [A _]]]]]]]]. rewrite A.
    apply bind_same2; [apply forZ_ext_in; intros l [tab [a b]] Hl; rewrite H by lia; reflexivity|].
    intros [tab [a b]]. apply forZ_ext_in. intros l ms Hl. rewrite H by lia. reflexivity.
  Qed.
  Local Notation from := (predict_from O exp_ fc lc discount_factor).
  Lemma from_same : forall s f g, rel s f g -> forall tb tu p pt p' pt' k k' sep means sm r r', In (top O tb, top O tu) s -> tree_at f p pt tb -> tree_at g p' pt' tu ->
    counted f tb -> counted g tu -> from k f (top O tb) y sep means sm = Ok r -> from k' g (top O tu) y sep means sm = Ok r' -> r = r'.
  Proof.
    intros s f g R. induction tb as [i pts|i d v a IHa b IHb]; intros tu p pt p' pt' k k' sep means sm r r' I T U Ct Cu Hr Hr'.
    all: destruct (top_same _ _ _ _ _ _ _ _ _ R I T U Ct Cu) as [n [m [Q1 [Q2 [Q3 Q4]]]]]; pose proof (tree_same _ _ _ R _ _ _ _ _ _ I T U) as S.
    all: pose proof (top_bounds _ _ _ _ T) as Bt; pose proof (top_bounds _ _ _ _ U) as Bu.
    all: destruct k as [|k]; [discriminate|]; destruct k' as [|k']; [discriminate|]; cbn [predict_from] in Hr, Hr'.
    all: rewrite (proj2 (Z.eqb_neq _ (-1))) in Hr by lia; rewrite (proj2 (Z.eqb_neq _ (-1))) in Hr' by lia; rewrite Q1 in Hr; rewrite Q2 in Hr'; cbn [bind] in Hr, Hr'.
    all: rewrite <- (eta_same _ _ _ Q3) in Hr'; destruct (compute_eta O fc n y) as [eta| | |]; try discriminate; cbn [bind] in Hr, Hr'.
    all: pose proof Q3 as [A1 [A2 [A3 [A4 [A5 [A6 [A7 [A8 A9]]]]]]]]; rewrite <- A8 in Hr'.
    all: rewrite <- (smooth_same n m _ _ _ _ _ _ Q4) in Hr'; destruct (smooth O exp_ lc discount_factor n _ _ _ _ _ _) as [sm1| | |]; try discriminate; cbn [bind] in Hr, Hr'.
    all: rewrite <- (mean_same s f g n m _ R Q3 Q4) in Hr'; destruct (compute_posterior_mean O exp_ lc discount_factor f n _) as [ms1| | |]; try discriminate; cbn [bind] in Hr, Hr'.
    all: rewrite <- (leaf_alike _ _ _ _ Q3) in Hr'.
    - destruct T as [n' [T1 [_ [_ [_ [_ [_ [T2 _]]]]]]]]. rewrite Q1 in T1. injection T1 as <-. unfold is_leaf in Hr, Hr'. rewrite T2 in Hr, Hr'. cbn [Z.eqb Pos.eqb] in Hr, Hr'. congruence.
    - destruct T as [n' [T1 [_ [_ [_ [_ [_ [T2 [T3 [T4 [_ [T5 [T6 [Ta Tb]]]]]]]]]]]]]]. rewrite Q1 in T1. injection T1 as <-.
      assert (Lf : is_leaf O n = false) by (unfold is_leaf; apply Z.eqb_neq; lia). rewrite Lf in Hr, Hr'. rewrite <- A1, <- (A2 Lf), T2, T4 in Hr'. rewrite T2, T4 in Hr.
      destruct (rd y d) as [z| | |]; try discriminate. cbn [bind] in Hr, Hr'.
      destruct tu as [j qts|j d' v' a' b']; cbn in S; [contradiction|]. destruct U as [m' [U1 [_ [_ [_ [_ [_ [U2 [U3 [U4 [_ [U5 [U6 [Ua Ub]]]]]]]]]]]]]]. rewrite Q2 in U1. injection U1 as <-.
      pose proof (top_bounds _ _ _ _ Ta). pose proof (top_bounds _ _ _ _ Tb). rewrite T5, U5 in A5. rewrite T6, U6 in A6. rewrite T5, T6 in Hr. rewrite U5, U6 in Hr'. destruct Ct as [_ [Ca Cb]]. destruct Cu as [_ [Da Db]].
      destruct (nle O z v).
      + destruct A5 as [[X _]|A5]; [lia|]. eapply (IHa a'); eauto.
      + destruct A6 as [[X _]|A6]; [lia|]. eapply (IHb b'); eauto.
  Qed.

  (** [paired f g k]: tree [k] is missing in both forests, or it is known. *)
  Definition paired (f g : forest) (k : Z) : Prop :=
    (rd (roots f) k = Ok (-1) /\ rd (roots g) k = Ok (-1)) \/
    exists tb tu, rd (roots f) k = Ok (top O tb) /\ rd (roots g) k = Ok (top O tu) /\ tree_at f (-1) (n_ 0) tb /\ tree_at g (-1) (n_ 0) tu /\ counted f tb /\ counted g tu.
  Lemma root_pair : forall s f g k r r', rel s f g -> rd (roots f) k = Ok r -> rd (roots g) k = Ok r' -> 0 <= r -> In (r, r') s.
  Proof.
    intros s f g k r r' R Hr Hr' B. destruct R as [_ [_ [_ [_ [_ [_ [R7 _]]]]]]]. destruct (Forall2_rd _ _ _ _ _ _ _ R7 Hr) as [w [W1 W2]]. rewrite Hr' in W1. injection W1 as <-. destruct W2 as [[X _]|W2]; [lia|exact W2].
  Qed.
  Lemma means_same : forall s f g mf mg M1 M2, rel s f g -> (forall k, 0 <= k < tc -> paired f g k) ->
    forest_means O exp_ tc fc lc mf base_measure discount_factor f y = Ok M1 -> forest_means O exp_ tc fc lc mg base_measure discount_factor g y = Ok M2 -> M1 = M2.
  Proof.
    intros s f g mf mg M1 M2 R P H1 H2. unfold forest_means in H1, H2. apply bind_inv in H1. destruct H1 as [s1 [H1 E1]]. apply bind_inv in H2. destruct H2 as [s2 [H2 E2]].
    assert (E : s1 = s2).
    { refine (forZ_two _ _ (fun _ a b => a = b) _ _ (Z.to_nat tc) 0 _ _ s1 s2 eq_refl _ H1 H2). intros k a b a' b' Hk -> Ha Hb. apply bind_inv in Ha. destruct Ha as [p [Pa Ha]]. apply bind_inv in Hb. destruct Hb as [q [Pb Hb]].
      assert (Ep : p = q); [|subst q; congruence]. unfold predict_tree in Pa, Pb. destruct (P k ltac:(lia)) as [[P1 P2]|[tb [tu [P1 [P2 [P3 [P4 [P5 P6]]]]]]]]; rewrite P1 in Pa; rewrite P2 in Pb; cbn [bind] in Pa, Pb.
      - cbn [predict_from Z.eqb Pos.eqb] in Pa, Pb. congruence.
      - eapply (from_same s f g R tb tu); eauto. apply (root_pair s f g k); auto. eapply top_bounds; eauto. }
    subst s2. congruence.
  Qed.
End PredictSame.
