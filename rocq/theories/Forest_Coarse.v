(** * Proofs relating the Mondrian forests: the coarse forest with enough memory *)
From Coq Require Import ZArith List Bool Lia.
From Verif Require Import CppBase CppFacts NumOps Utils_Model Mondrian_Model Mondrian_Spec Mondrian_Proofs Mondrian_Train.
From Verif Require Unbound_Model Unbound_Train.
From Verif Require Import Coarse_Model Coarse_Spec Coarse_Heap.
From Verif Require Import Forest_Same Forest_Steps Forest_Train.
Import ListNotations.
Local Open Scope Z_scope.

Section CoarseSame.
  Variable O : ops.
  Variable rnd : nat -> num O.
  Variable log_ : num O -> num O.
  Variable c : config O.
  Variable key : num O -> Rdefinitions.R.
  Variable cmp fine draw : num O -> Prop.
  Local Notation tc := (c_trees O c).
  Local Notation fc := (c_features O c).
  Local Notation lc := (c_labels O c).
  Local Notation nc := (c_nodes O c).
  Local Notation lifetime := (c_life O c).
  Hypothesis L : laws O key cmp fine draw fc.
  Hypothesis Hdraw : forall k, draw (rnd k).
  Hypothesis Hlife : nle O (nofZ O 0) lifetime = true.
  Hypothesis Hfc : 1 <= fc.
  Hypothesis Hnc : nc <= 1000000000.
  Hypothesis Hext : c_extend O c = EXTEND_ORIGINAL.
  Hypothesis Hman : c_manage O c = PHOENIX_MANAGEMENT.
  Hypothesis Htrim : c_trim O c = TRIM_NONE.
  Hypothesis Hopt : c_optimize O c = false.
  Local Notation coarse := (coarse O).
  Local Notation forest := (forest O).
  Local Notation node := (node O).
  Local Notation nodes := (nodes O).
  Local Notation roots := (roots O).
  Local Notation put := (put O).
  Local Notation n_ := (nofZ O).
  Local Notation fr := (fr O).
  Local Notation get := (get O).
  Local Notation e := (blank_node O c).
  Local Notation rel := (rel O nc cmp fine e).
  Local Notation uextend := (Unbound_Model.extend_block O log_ rnd fc lc lifetime).
  Local Notation cextend := (extend_block O log_ rnd c).
  Variable x : list (num O).
  Variable label : Z.
  Hypothesis Hx : Forall fine x.
  Hypothesis Lx : length x = Z.to_nat fc.
  Hypothesis Hlab : 0 <= label < lc.

  Definition crel (s : list (Z * Z)) (S : coarse) (g : forest) : Prop :=
    rel s (fr S) g /\ avail O S = nc - Z.of_nat (length (nodes g)) /\ 0 <= last O S <= 1000000000.
  Lemma blank_av : available O e = true.
  Proof. apply (blank_free O c). eapply laws_tlaws. exact L. Qed.
  Local Notation rel_free := (rel_free O fc nc key cmp fine draw L e blank_av).
  Local Notation rel_draw := (rel_draw O log_ nc lifetime cmp fine e).

  Lemma found : forall s S g a S', rel s (fr S) g -> available_node O c S = Ok (a, S') -> 0 <= a -> 0 <= a < nc /\ ~ In a (map fst s) /\ get S a = Ok e /\ S' = with_last O S a.
  Proof.
    intros s S g a S' R H Ba. apply available_node_inv in H. destruct H as [[-> _]|[n [Hn [Av ->]]]]; [lia|]. unfold Coarse_Model.get in *. pose proof (rd_bounds _ _ _ _ Hn) as Bn.
    pose proof R as [_ [_ [_ [_ [R5 [R6 _]]]]]]. split; [lia|]. pose proof (proj1 (rel_free _ _ _ _ _ R Hn) Av) as Na. split; [exact Na|]. split; [|reflexivity]. rewrite Hn. f_equal. now apply R6 with a.
  Qed.
  Lemma change_some : forall (S : coarse) i f S', change O S i f = Ok S' -> 0 <= i.
  Proof. intros S i f S' H. apply change_inv in H. destruct H as [n [_ [H _]]]. unfold Coarse_Model.get in H. apply rd_bounds in H. lia. Qed.

  Lemma split_same : forall s S g i j n m k q d up v g2 t S' a' b' g3 g' probs sum,
    crel s S g -> In (i, j) s -> rd (nodes (fr S)) i = Ok n -> rd (nodes g) j = Ok m -> rd (roots (fr S)) k = Ok q -> nle O (n_ 0) t = true -> cmp v -> (exists xd, rd x d = Ok xd) ->
    Unbound_Model.choose_split O rnd fc (fr S) n x probs sum = Ok (mkForest O (nodes (fr S)) (roots (fr S)) (Datatypes.S (Datatypes.S (drawn O (fr S)))), (d, (up, v))) ->
    split_above O rnd c S n i k x probs sum t label = Ok S' ->
    Unbound_Model.insert_above O fc lc (mkForest O (nodes g) (roots g) (Datatypes.S (Datatypes.S (drawn O g)))) j k x d up v t = Ok (g2, (a', b')) -> Unbound_Model.sample_block O fc lifetime g2 b' x label = Ok g3 ->
    Unbound_Model.update_labels O lc g3 a' = Ok g' ->
    exists s', crel s' S' g'.
  Proof.
    intros s S g i j n m k q d up v g2 t S' a' b' g3 g' probs sum [R [Av Bl]] I Hn Hm Hq Ht Hv Hd Hc H HG HS HU.
    unfold split_above in H. rewrite Hc in H. cbn [bind] in H. set (f2 := mkForest O (nodes (fr S)) _ _) in *. set (gg := mkForest O (nodes g) _ _) in *.
    assert (R2 : rel s f2 gg) by exact (rel_draw s _ _ (rel_draw s (fr S) g R)). pose proof R2 as [N1 [N2 [R3 [R4 [R5 [R6 [R7 R8]]]]]]]. change (nodes gg) with (nodes g) in R4. change (nodes f2) with (nodes (fr S)) in R5.
    apply bind_inv in H. destruct H as [[a S1] [Ea H]]. apply bind_inv in H. destruct H as [S2 [E2 H]]. pose proof (change_some _ _ _ _ E2) as Ba0.
    destruct (found s (with_fr O S f2) gg a S1 R2 Ea Ba0) as [Ba [Na [Ga ->]]]. apply change_inv in E2. destruct E2 as [w [w' [W1 [W2 ->]]]]. change (get (with_fr O S f2) a = Ok w) in W1. rewrite Ga in W1. injection W1 as <-. injection W2 as <-.
    cbn [Coarse_Model.fr with_last with_fr] in H. set (f3 := put f2 a (set_split O e d v t)) in *. apply bind_inv in H. destruct H as [[b S3] [Eb H]].
    apply bind_inv in H. destruct H as [S4 [E4 H]]. apply bind_inv in H. destruct H as [f5 [HF H]]. injection H as <-.
    unfold parent_counters in E4. rewrite Hext in E4. cbn [Z.eqb EXTEND_ORIGINAL Pos.eqb] in E4. apply change_inv in E4. destruct E4 as [w [w' [W1 [W2 ->]]]]. injection W2 as <-.
    assert (Bb0 : 0 <= b).
    { unfold insert_above in HF. inv HF. apply bind_inv in HF. destruct HF as [[l u] [_ HF]]. inv HF. inv HF. apply with_inv in E1. destruct E1 as [nb [_ [E1 _]]]. apply rd_bounds in E1. lia. }
    assert (D3 : forall z, rd (nodes f3) z = if a =? z then Ok (set_split O e d v t) else rd (nodes f2) z) by (intros z; apply put_rd; change (nodes f2) with (nodes (fr S)); lia).
    apply available_node_inv in Eb. destruct Eb as [[-> _]|[nb [Hb [Ab ->]]]]; [lia|]. unfold Coarse_Model.get in Hb. cbn [Coarse_Model.fr with_last with_fr] in Hb. rewrite D3 in Hb.
    assert (Bb : a <> b /\ 0 <= b < nc /\ ~ In b (map fst s)).
    { destruct (Z.eqb_spec a b) as [->|Nab].
      - injection Hb as <-. exfalso. unfold available in Ab. cbn [tau set_split] in Ab. rewrite (not_free O fc key cmp fine draw L _ Ht) in Ab. discriminate.
      - split; [exact Nab|]. split; [apply rd_bounds in Hb; change (nodes f2) with (nodes (fr S)) in Hb; lia|]. now apply (rel_free s f2 gg b nb R2 Hb). }
    destruct Bb as [Nab [Bb Nb]]. unfold Coarse_Model.get in W1. cbn [Coarse_Model.fr with_avail with_last with_fr] in W1, HF. rewrite D3, Z.eqb_refl in W1. injection W1 as <-.
    unfold f3 in HF. rewrite put_twice in HF.
    destruct (ins_same O log_ fc lc nc lifetime cmp fine Hlife Hfc e eq_refl eq_refl eq_refl x label Hx Lx Hlab s f2 gg i j n m k a b d up v t _ _ f5 g2 a' b' g3 g' q R2 I Hn Hm Ba Bb Na Nb Nab Ht Hv Hd Hq eq_refl HF HG HS HU) as [s' [Rs Ls]].
    exists s'. split; [exact Rs|]. cbn [avail last with_fr with_avail with_last]. rewrite Ls. change (nodes gg) with (nodes g). lia.
  Qed.

  Lemma no_pause : forall (S : coarse) i k, pause O c S i k = Ok false.
  Proof. intros S i k. unfold pause, is_paused. rewrite Hman. reflexivity. Qed.
  Lemma draw_same : forall s S g sum, crel s S g -> exists ex S1 g1, crel s S1 g1 /\ nodes (fr S1) = nodes (fr S) /\ nodes g1 = nodes g /\ roots (fr S1) = roots (fr S) /\
    draw_time O log_ rnd S sum = (ex, S1) /\ (if neq O sum (n_ 0) then (n_ (-1), g) else let (u, g) := Mondrian_Model.uniform O rnd g in (rand_exponential O log_ u sum, g)) = (ex, g1).
  Proof.
    intros s S g sum [R [Av Bl]]. unfold draw_time. pose proof R as [_ [_ [_ [_ [_ [_ [_ Dr]]]]]]]. destruct (neq O sum (n_ 0)).
    - exists (n_ (-1)), S, g. split; [split; auto|]. auto 10.
    - exists (rand_exponential O log_ (rnd (drawn O (fr S))) sum), (with_fr O S (snd (Mondrian_Model.uniform O rnd (fr S)))), (snd (Mondrian_Model.uniform O rnd g)).
      split; [split; [exact (rel_draw s _ _ R)|split; [exact Av|exact Bl]]|]. repeat split. cbn. now rewrite Dr.
  Qed.
  Lemma extend_same : forall steps steps' s S g i j k q S' g', crel s S g -> In (i, j) s -> rd (roots (fr S)) k = Ok q ->
    cextend steps' S i k x label = Ok S' -> uextend steps g j k x label = Ok g' -> Z.of_nat (length (nodes g')) <= nc -> exists s', crel s' S' g'.
  Proof.
    induction steps as [|steps IH]; intros steps' s S g i j k q S' g' C I Hq Hf Hg Cap; [discriminate|]. destruct steps' as [|steps']; [discriminate|].
    cbn [extend_block] in Hf. cbn [Unbound_Model.extend_block] in Hg. pose proof C as [R [Av Bl]].
    destruct (rel_rd _ _ _ _ _ _ _ _ _ _ R I) as [n [m [Hn [Hm [A [G _]]]]]]. change (Coarse_Model.get O S i) with (rd (nodes (fr S)) i) in Hf. rewrite Hn in Hf. rewrite Hm in Hg. cbn [bind] in Hf, Hg.
    rewrite <- (time_same _ _ _ _ _ _ _ _ _ _ R A (or_intror Logic.I)) in Hg. destruct (parent_time O (fr S) n) as [pt| | |] eqn:Ept; try discriminate. cbn [bind] in Hf, Hg.
    rewrite <- (distances_same _ _ _ _ _ _ A) in Hg. destruct (distances O fc n x) as [[probs sum]| | |]; try discriminate. cbn [bind] in Hf, Hg.
    pose proof (time_ok _ _ _ _ _ _ _ L _ _ _ _ _ _ _ _ R I Hn Ept) as Tpt.
    destruct (draw_same s S g sum C) as [ex [S1 [g1 [C1 [Nf [Ng [Rf [Ef Eg]]]]]]]]. rewrite Ef in Hf. rewrite Eg in Hg. clear Ef Eg. rewrite <- Nf in Hn. rewrite <- Ng in Hm. rewrite <- Rf in Hq.
    rewrite no_pause in Hf. cbn [bind negb] in Hf. rewrite andb_true_r in Hf.
    pose proof A as [A1 [A2 [A3 [A4 [A5 [A6 [A7 [A8 A9]]]]]]]]. rewrite <- A8 in Hg. destruct G as [E1 [E2 [E3 [E4 [E5 E6]]]]].
    pose proof C1 as [R1 [Av1 Bl1]]. rewrite Hext in Hf. change (EXTEND_ORIGINAL =? EXTEND_GHOST) with false in Hf. change (EXTEND_ORIGINAL =? EXTEND_COUNTER_NO_UPDATE) with false in Hf. change (EXTEND_ORIGINAL =? EXTEND_ORIGINAL) with true in Hf. cbn [orb] in Hf.
    destruct (nle O (n_ 0) ex && nlt O (nadd O pt ex) (tau O n)) eqn:Gd.
    - apply andb_prop in Gd. destruct Gd as [Gd1 Gd2]. pose proof (nle0_trans O fc key cmp fine draw L _ _ Tpt (l_add _ _ _ _ _ _ L _ _ _ Gd1 Gd2)) as Tt.
      apply bind_inv in Hg. destruct Hg as [[g2 [d [up v]]] [Hs Hg]]. rewrite A3 in E2. rewrite A4 in E3.
      destruct (split_inv O rnd fc key cmp fine draw L Hdraw x Hx _ _ _ _ _ _ _ _ Hs E2 E3) as [-> [Hd [Hv Hs']]].
      pose proof R1 as [N1 [N2 [R3 [R4 [R5 [R6 [R7 R8]]]]]]].
      destruct (Hs' (fr S1) n Lx R8 A3 A4) as [_ Hs1].
      apply bind_inv in Hg. destruct Hg as [[g3 [a' b']] [HG Hg]]. apply bind_inv in Hg. destruct Hg as [g4 [HS Hg]].
      assert (LG : Z.of_nat (length (nodes g1)) + 2 <= nc).
      { destruct (insert_length O fc lc Hfc x Lx _ _ _ _ _ _ _ _ _ _ HG) as [X _]. apply sample_length in HS. apply labels_length in Hg. cbn [Mondrian_Model.nodes] in X. lia. }
      rewrite (proj2 (Z.leb_le 2 (avail O S1))) in Hf by lia. cbn [andb] in Hf. apply bind_inv in Hf. destruct Hf as [S2 [HF Hf]]. injection Hf as <-.
      apply (split_same s S1 g1 i j n m k q d up v g3 (nadd O pt ex) S2 a' b' g4 g' probs sum C1 I Hn Hm Hq Tt Hv Hd Hs1 HF HG HS Hg).
    - cbn [andb] in Hf. apply bind_inv in Hf. destruct Hf as [S2 [HF Hf]]. apply bind_inv in Hg. destruct Hg as [g2 [HG Hg]].
      assert (C2 : crel s S2 g2 /\ roots (fr S2) = roots (fr S1)).
      { unfold change in HF. apply bind_inv in HF. destruct HF as [f2 [HF X]]. injection X as <-. destruct (box_same O fc nc cmp fine e x Hx s (fr S1) g1 i j _ _ R1 I HF HG) as [R2 [Rr Lg]].
        split; [|exact Rr]. split; [exact R2|]. cbn [avail last with_fr]. rewrite Lg. auto. }
      destruct C2 as [C2 Rr]. rewrite <- Rr in Hq. pose proof C2 as [R2 [Av2 Bl2]]. change (Coarse_Model.get O S2 i) with (rd (nodes (fr S2)) i) in Hf.
      destruct (rel_rd _ _ _ _ _ _ _ _ _ _ R2 I) as [n2 [m2 [Q1 [Q2 [Q3 [Q4 _]]]]]]. rewrite Q1 in Hf. rewrite Q2 in Hg. cbn [bind] in Hf, Hg.
      rewrite <- (leaf_alike _ _ _ _ Q3) in Hg. destruct (is_leaf O n2) eqn:Lf.
      + unfold add_leaf in Hf. apply bind_inv in Hf. destruct Hf as [S3 [HF3 Hf]]. apply add_fading_inv in Hf. destruct Hf as [xs [_ ->]].
        unfold add_label, change in HF3. apply bind_inv in HF3. destruct HF3 as [f3 [HF3 X]]. injection X as <-.
        destruct (leaf_same O fc nc lifetime cmp fine Hlife Hfc e blank_av x label Lx s (fr S2) g2 i j n2 f3 g' R2 I Q1 Lf HF3 Hg) as [R3 Lg].
        exists s. split; [exact R3|]. cbn [avail last with_fr with_fading]. rewrite Lg. auto.
      + pose proof Q3 as [B1 [B2 _]]. rewrite <- B1 in Hg. destruct (rd x (split_dimension O n2)) as [y| | |] eqn:Ey; try discriminate. cbn [bind] in Hf, Hg.
        rewrite <- (B2 Lf) in Hg. destruct (split_value O n2) as [w|] eqn:Ew; try discriminate. cbn [bind] in Hf, Hg.
        destruct (down_same O fc nc key cmp fine draw L e x Hx s (fr S2) g2 i j n2 m2 y w R2 I Q1 Q2 Lf Ey Ew) as [Dn Up].
        apply bind_inv in Hf. destruct Hf as [S3 [Hf X]]. injection X as <-.
        assert (Hf' : cextend steps' S2 (if nle O y w then child_left O n2 else child_right O n2) k x label = Ok S3).
        { destruct (nle O y w); [exact Hf|]. rewrite (Up eq_refl) in Hf. exact Hf. }
        destruct Dn as [Dn|Dn]; [|now apply (IH steps' s S2 g2 _ _ k q S3 g' C2 Dn Hq Hf' Hg Cap)].
        exfalso. rewrite Dn in Hg. destruct steps; [discriminate|]. cbn [Unbound_Model.extend_block] in Hg. rewrite rd_oob in Hg by lia. discriminate.
  Qed.
  Local Notation utrain_tree := (Unbound_Model.train_tree O log_ rnd fc lc lifetime).
  Lemma tree_same : forall s S g k S' g' b, crel s S g -> train_tree O log_ rnd c S x label k = Ok (S', b) -> utrain_tree g x label k = Ok g' -> Z.of_nat (length (nodes g')) <= nc ->
    (exists s', crel s' S' g') /\ b = true.
  Proof.
    intros s S g k S' g' b C Hf Hg Cap. unfold train_tree in Hf. unfold Unbound_Model.train_tree in Hg. apply bind_inv in Hf. destruct Hf as [r [Hr Hf]]. pose proof C as [R [Av Bl]].
    pose proof R as [N1 [N2 [R3 [R4 [R5 [R6 [R7 R8]]]]]]]. destruct (Forall2_rd _ _ _ _ _ _ _ R7 Hr) as [r' [Hr' Pr]]. rewrite Hr' in Hg. cbn [bind] in Hg.
    rewrite <- (ptr_eqb O nc cmp fine e s (fr S) g r r' (-1) (-1) R Pr ltac:(left; auto)) in Hg. destruct (Z.eqb_spec r (-1)) as [->|Nr].
    - unfold Unbound_Model.alloc in Hg. cbn [Mondrian_Model.nodes Mondrian_Model.roots drawn] in Hg. apply bind_inv in Hg. destruct Hg as [rg [Wg Hg]]. apply wr_inv in Wg. destruct Wg as [_ ->].
      assert (LG : length (nodes g') = (length (nodes g) + 1)%nat).
      { apply sample_length in Hg. cbn [Mondrian_Model.nodes] in Hg. rewrite app_length in Hg. exact Hg. }
      destruct (avail_new O log_ fc lc nc lifetime cmp fine Hfc e x label Lx Hlab s (fr S) g [] R ltac:(cbn [length]; lia)) as [z [Bz [Nz _]]]. destruct (rd_in_bounds _ (nodes (fr S)) z) as [w W1]; [lia|].
      pose proof (proj2 (rel_free s (fr S) g z w R W1) Nz) as W2.
      destruct (available_node_found O c S z w W1 W2 ltac:(lia) R5 Bl Hnc) as [a [na [Ea [Ga [Aa Ba]]]]]. rewrite Ea in Hf. cbn [bind] in Hf. destruct (found s S g a _ R Ea ltac:(lia)) as [_ [Na [Ga' _]]].
      rewrite (proj2 (Z.leb_le 0 a)) in Hf by lia. unfold set_root in Hf. cbn [Coarse_Model.fr with_last] in Hf. apply bind_inv in Hf. destruct Hf as [S1 [X Hf]]. apply bind_inv in X. destruct X as [rf [Wf X]]. injection X as <-. apply wr_inv in Wf. destruct Wf as [_ ->].
      apply bind_inv in Hf. destruct Hf as [S2 [X Hf]]. apply change_inv in X. destruct X as [q [q' [Q1 [Q2 ->]]]]. unfold Coarse_Model.get in Q1, Ga'. cbn [Coarse_Model.fr with_fr with_last Mondrian_Model.nodes] in Q1. rewrite Ga' in Q1. injection Q1 as <-. injection Q2 as <-.
      cbn [Coarse_Model.fr with_fr with_last with_avail avail] in Hf. apply bind_inv in Hf. destruct Hf as [f3 [HF Hf]]. injection Hf as <- <-. split; [|reflexivity].
      destruct (alloc_same O log_ fc lc nc lifetime cmp fine Hlife Hfc e eq_refl eq_refl x label Hx Lx Hlab s (fr S) g a (Z.to_nat k) _ _ f3 g' R Ba Na eq_refl eq_refl HF Hg) as [s' Rs].
      exists s'. split; [exact Rs|]. cbn [avail last with_fr with_avail with_last]. lia.
    - destruct Pr as [[X _]|I]; [contradiction|]. apply bind_inv in Hf. destruct Hf as [summy [_ Hf]]. rewrite Hext in Hf. cbn [Z.eqb Pos.eqb EXTEND_ORIGINAL orb] in Hf. apply bind_inv in Hf. destruct Hf as [S1 [Hf X]]. injection X as <- <-.
      split; [|reflexivity]. now apply (extend_same (Datatypes.S (length (nodes g))) (Datatypes.S (Z.to_nat nc)) s S g r r' k r S1 g').
  Qed.
  (** Training with a point. *)
  Definition together (S : coarse) (g : forest) : Prop := Z.of_nat (length (nodes g)) <= nc -> exists s, crel s S g.
  Lemma train_same : forall S g S' g' b r', together S g -> train O log_ rnd c S x label = Ok (S', b) -> Unbound_Model.train O log_ rnd tc fc lc lifetime g x label = Ok (g', r') ->
    together S' g' /\ (Z.of_nat (length (nodes g')) <= nc -> b = true).
  Proof.
    intros S g S' g' b r' T Hf Hg. unfold train in Hf. unfold Unbound_Model.train in Hg. apply bind_inv in Hf. destruct Hf as [[sums u] [_ Hf]]. rewrite Htrim, Hopt in Hf. change (TRIM_NONE =? TRIM_FADING) with false in Hf. change (TRIM_NONE =? TRIM_NONE) with true in Hf. cbn [negb andb bind] in Hf.
    set (S0 := with_sums O S sums _) in Hf. assert (T0 : together S0 g) by exact T. clearbody S0. apply bind_inv in Hf. destruct Hf as [[S1 b1] [Hf X]].
    assert (K : together S1 g' /\ (Z.of_nat (length (nodes g')) <= nc -> b1 = true)).
    { refine (forZ_two _ _ (fun _ a d => together (fst a) (fst d) /\ (Z.of_nat (length (nodes (fst d))) <= nc -> snd a = true)) _ _ (Z.to_nat tc) 0 (S0, true) (g, None) (S1, b1) (g', r') (conj T0 (fun _ => eq_refl)) _ Hf Hg).
      intros j [a ra] [d rb] [a' ra'] [d' rb'] _ [Tab Bab] Ha Hd. cbn [fst snd] in *. apply bind_inv in Ha. destruct Ha as [[a1 t1] [Ha Y]]. injection Y as <- <-. apply bind_inv in Hd. destruct Hd as [b2 [Hd Y]]. injection Y as <- _.
      pose proof (tree_length O rnd log_ fc lc lifetime Hfc x label Lx _ _ _ Hd) as Ln. split.
      - intros Cap. destruct Tab as [s R]; [lia|]. now apply (tree_same s a d j a1 b2 t1 R Ha Hd).
      - intros Cap. destruct Tab as [s R]; [lia|]. destruct (tree_same s a d j a1 b2 t1 R Ha Hd Cap) as [_ ->]. apply Bab. lia. }
    destruct K as [K1 K2]. apply bind_inv in X. destruct X as [S2 [X Y]]. injection Y as <- <-. split; [|exact K2].
    intros Cap. destruct (K1 Cap) as [s Rs]. exists s. destruct (avail O S1 <=? 1); [apply bind_inv in X; destruct X as [z [_ X]]|]; injection X as <-; exact Rs.
  Qed.
End CoarseSame.
