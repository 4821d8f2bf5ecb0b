(** * Proofs relating the Mondrian forests: the steps of the training *)
From Coq Require Import ZArith List Bool Lia.
From Verif Require Import CppBase CppFacts NumOps Utils_Model Mondrian_Model Mondrian_Spec Mondrian_Proofs Mondrian_Train.
From Verif Require Unbound_Model.
From Verif Require Import Unbound_Spec Unbound_Count Unbound_Train Unbound_Forest.
From Verif Require Import Forest_Same.
Import ListNotations.
Local Open Scope Z_scope.

Section Steps.
  Variable O : ops.
  Variable fc lc : Z.
  Variable lifetime : num O.
  Hypothesis Hfc : 1 <= fc.
  Local Notation forest := (forest O).
  Local Notation node := (node O).
  Local Notation nodes := (nodes O).
  Local Notation roots := (roots O).
  Local Notation put := (put O).
  Local Notation n_ := (nofZ O).
  Local Notation inserted := (inserted O).
  Local Notation recounted := (recounted O).
  Variable x : list (num O).
  Variable label k : Z.
  Hypothesis Hx : length x = Z.to_nat fc.
  Hypothesis Hlab : 0 <= label < lc.
  Local Notation pb := (pbox O fc x label).
  Local Notation zeros := (repeat 0 (Z.to_nat lc)).
  Local Notation one := (bump label zeros 0).

  Ltac eqz := repeat match goal with
    | |- context [?a =? ?a] => rewrite (Z.eqb_refl a)
    | |- context [?a =? ?b] => rewrite (proj2 (Z.eqb_neq a b)) by (congruence || lia)
    end.
  Ltac wn H := erewrite with_node_ok; [|exact H|reflexivity].
  Ltac rp := rewrite ?put_rd by (rewrite ?put_length; lia).

  (** The node was the root of the tree, or below another one. *)
  Definition linked (f : forest) (i p : Z) : Prop :=
    (p = -1 /\ rd (roots f) k = Ok i) \/ (p <> -1 /\ p <> i /\ (exists np, rd (nodes f) p = Ok np) /\ exists q, rd (roots f) k = Ok q).
  Definition made_parent (na : node) (i b p : Z) (xd up : num O) l u : node :=
    (if neq O xd up then set_children O (set_parent O (set_box O na l u) p) i b else set_children O (set_parent O (set_box O na l u) p) b i).
  Definition made_leaf (nb : node) (a : Z) : node :=
    set_tau O (set_counters O (set_box O (set_parent O (set_counters O nb zeros) a) pb pb) one) lifetime.

  Lemma insert_root : forall f i n d up a b f', rd (nodes f) i = Ok n -> parent O n = -1 -> i <> a -> i <> b ->
    insert_above O fc lc lifetime f i k x label d up a b = Ok f' -> rd (roots f) k = Ok i.
  Proof.
    intros f i n d up a b f' Hi Hp Nia Nib H. unfold insert_above in H. rewrite Hi in H. cbn [bind] in H. apply bind_inv in H. destruct H as [[l u] [_ H]].
    inv H. apply with_inv in E. destruct E as [na [na' [Ea [_ ->]]]]. inv H. apply with_inv in E. destruct E as [nb [nb' [Eb [_ ->]]]].
    pose proof (rd_bounds _ _ _ _ Ea) as Ba. pose proof (rd_bounds _ _ _ _ Eb) as Bb. rewrite put_length in Bb.
    assert (Hi2 : rd (nodes (put (put f a na') b nb')) i = Ok n) by (rp; eqz; exact Hi).
    rewrite Hi2 in H. cbn [bind] in H. inv H. apply with_inv in E. destruct E as [nc [nc' [Ec [_ ->]]]].
    assert (Hi3 : rd (nodes (put (put (put f a na') b nb') a nc')) i = Ok n) by (rp; eqz; exact Hi).
    rewrite Hi3 in H. cbn [bind] in H. inv H. change (rd (roots f) k = Ok v) in E. rewrite E. f_equal. rewrite Hp in H. inv H. destruct (Z.eqb_spec i v) as [->|D]; [reflexivity|].
    cbn [andb Z.eqb Pos.eqb] in E0. exfalso. apply with_inv in E0. destruct E0 as [q [_ [E0 _]]]. rewrite rd_oob in E0 by lia. discriminate.
  Qed.
  Lemma insert_made : forall f i n a b p d up na nb l u xd,
    rd (nodes f) i = Ok n -> rd (nodes f) a = Ok na -> rd (nodes f) b = Ok nb -> parent O n = p ->
    i <> a -> i <> b -> a <> b -> p <> a -> p <> b -> joined_box O fc n x = Ok (l, u) -> rd x d = Ok xd -> linked f i p ->
    exists f', insert_above O fc lc lifetime f i k x label d up a b = Ok f' /\
      inserted f f' i a b p n (made_parent na i b p xd up l u) (made_leaf nb a) /\
      roots f' = (if p =? -1 then upd (roots f) (Z.to_nat k) a else roots f) /\ length (nodes f') = length (nodes f) /\ drawn O f' = drawn O f.
  Proof.
    intros f i n a b p d up na nb l u xd Hi Ha Hb Hp Nia Nib Nab Npa Npb EJ Hd HP.
    pose proof (rd_bounds _ _ _ _ Hi) as Bi. pose proof (rd_bounds _ _ _ _ Ha) as Ba. pose proof (rd_bounds _ _ _ _ Hb) as Bb.
    unfold insert_above. rewrite Hi. cbn [bind]. rewrite EJ. cbn [bind].
    wn Ha. cbn [bind]. set (f1 := put f a _).
    assert (L1 : length (nodes f1) = length (nodes f)) by apply put_length.
    assert (Eb1 : rd (nodes f1) b = Ok nb) by (unfold f1; rp; eqz; exact Hb).
    wn Eb1. cbn [bind]. set (f2 := put f1 b _).
    assert (L2 : length (nodes f2) = length (nodes f)) by (unfold f2; rewrite put_length; exact L1).
    assert (Ei2 : rd (nodes f2) i = Ok n) by (unfold f2, f1; rp; eqz; exact Hi).
    rewrite Ei2. cbn [bind].
    assert (Ea2 : rd (nodes f2) a = Ok (set_box O na l u)) by (unfold f2, f1; rp; eqz; reflexivity).
    wn Ea2. cbn [bind]. set (f3 := put f2 a _).
    assert (L3 : length (nodes f3) = length (nodes f)) by (unfold f3; rewrite put_length; exact L2).
    assert (Ei3 : rd (nodes f3) i = Ok n) by (unfold f3; rp; eqz; exact Ei2).
    rewrite Ei3. cbn [bind].
    assert (R3 : roots f3 = roots f) by reflexivity.
    assert (Hq : exists q, rd (roots f) k = Ok q /\ (p = -1 -> q = i)).
    { destruct HP as [[-> Hr]|[Np [_ [_ [q Hq]]]]]; [exists i; auto|exists q; split; [exact Hq|contradiction]]. }
    destruct Hq as [q [Hq Hqi]]. rewrite R3, Hq. cbn [bind].
    assert (S4 : exists f4,
      (if (parent O n =? -1) && (i =? q) then do rs <- wr (roots f) k a; Ok (mkForest O (nodes f3) rs (drawn O f3))
        else with_node O f3 (parent O n) (fun p0 => Ok (if child_left O p0 =? i then set_children O p0 a (child_right O p0) else set_children O p0 (child_left O p0) a)))
      = Ok f4 /\ length (nodes f4) = length (nodes f) /\ roots f4 = (if p =? -1 then upd (roots f) (Z.to_nat k) a else roots f) /\ drawn O f4 = drawn O f /\
      forall j, rd (nodes f4) j = if j =? p then do np <- rd (nodes f) j; Ok (relink O i a np) else rd (nodes f3) j).
    { rewrite Hp. destruct HP as [[-> Hr]|[Np [Npi [[np Hnp] _]]]].
      - rewrite (Hqi eq_refl). rewrite !Z.eqb_refl. cbn [andb]. pose proof (rd_bounds _ _ _ _ Hr) as Bk. rewrite wr_ok by lia. cbn [bind].
        eexists. split; [reflexivity|]. cbn [Mondrian_Model.nodes Mondrian_Model.roots drawn]. split; [exact L3|]. split; [reflexivity|]. split; [reflexivity|].
        intros j. destruct (Z.eqb_spec j (-1)) as [->|N]; [|reflexivity]. rewrite !rd_oob by lia. reflexivity.
      - rewrite (proj2 (Z.eqb_neq p (-1))) by lia. cbn [andb].
        assert (Ep3 : rd (nodes f3) p = Ok np) by (unfold f3, f2, f1; rp; eqz; exact Hnp).
        wn Ep3. eexists. split; [reflexivity|]. rewrite put_length. split; [exact L3|]. split; [exact R3|]. split; [reflexivity|].
        intros j. rewrite rd_put with (m := np) by exact Ep3. rewrite (Z.eqb_sym p j). destruct (Z.eqb_spec j p) as [->|N]; [|reflexivity].
        rewrite Hnp. cbn [bind]. unfold relink. rewrite (proj2 (Z.eqb_neq i a)) by congruence. reflexivity. }
    destruct S4 as [f4 [E4 [L4 [R4 [Dr4 D4]]]]]. rewrite E4. cbn [bind].
    assert (Npi : p <> i) by (destruct HP as [[-> _]|HP]; [lia|tauto]).
    assert (Ei4 : rd (nodes f4) i = Ok n) by (rewrite D4; eqz; exact Ei3).
    wn Ei4. cbn [bind]. set (f5 := put f4 i _).
    assert (L5 : length (nodes f5) = length (nodes f)) by (unfold f5; rewrite put_length; exact L4).
    assert (Eb5 : rd (nodes f5) b = Ok (set_counters O nb zeros)).
    { unfold f5. rp. eqz. rewrite D4. eqz. unfold f3, f2. rp. eqz. reflexivity. }
    wn Eb5. cbn [bind]. set (f6 := put f5 b _).
    assert (L6 : length (nodes f6) = length (nodes f)) by (unfold f6; rewrite put_length; exact L5).
    rewrite Hd. cbn [bind].
    assert (Ea6 : rd (nodes f6) a = Ok (set_parent O (set_box O na l u) p)).
    { unfold f6, f5. rp. eqz. rewrite D4. eqz. unfold f3. rp. eqz. now rewrite Hp. }
    wn Ea6. cbn [bind]. set (f7 := put f6 a _).
    assert (L7 : length (nodes f7) = length (nodes f)) by (unfold f7; rewrite put_length; exact L6).
    assert (Eb7 : rd (nodes f7) b = Ok (set_parent O (set_counters O nb zeros) a)).
    { unfold f7, f6. rp. eqz. reflexivity. }
    rewrite (sample_block_ok O fc lc lifetime Hfc x label Hx Hlab f7 b _ 0 Eb7); [|cbn; now rewrite repeat_length|cbn; apply rd_repeat; lia|lia].
    eexists. split; [reflexivity|]. split; [|split; [exact R4|split; [rewrite put_length; exact L7|exact Dr4]]].
    intros j. rp. rewrite (Z.eqb_sym b j). destruct (Z.eqb_spec j b) as [->|Njb]; [reflexivity|].
    unfold f7. rp. rewrite (Z.eqb_sym a j). destruct (Z.eqb_spec j a) as [->|Nja]; [reflexivity|].
    unfold f6, f5. rp. rewrite (proj2 (Z.eqb_neq b j)) by congruence. rewrite (Z.eqb_sym i j).
    destruct (Z.eqb_spec j i) as [->|Nji]; [reflexivity|]. rewrite D4. destruct (Z.eqb_spec j p) as [->|Njp]; [reflexivity|].
    unfold f3, f2, f1. rp. eqz. reflexivity.
  Qed.

  (** The unbounded forest. *)
  Local Notation new_leaf := (Unbound_Model.new_leaf O fc lc).
  Local Notation new_internal := (Unbound_Model.new_internal O fc lc).
  Lemma insert_madeU : forall f i n p d up v t l u xd,
    rd (nodes f) i = Ok n -> parent O n = p -> joined_box O fc n x = Ok (l, u) -> rd x d = Ok xd -> linked f i p ->
    let a := Z.of_nat (length (nodes f)) in let b := a + 1 in
    exists g, Unbound_Model.insert_above O fc lc f i k x d up v t = Ok (g, (a, b)) /\
      inserted f g i a b p n (made_parent (set_split O new_internal d v t) i b p xd up l u) (set_parent O new_leaf a) /\
      roots g = (if p =? -1 then upd (roots f) (Z.to_nat k) a else roots f) /\ length (nodes g) = (length (nodes f) + 2)%nat /\ drawn O g = drawn O f.
  Proof.
    intros f i n p d up v t l u xd Hi Hp EJ Hd HP a b.
    pose proof (rd_bounds _ _ _ _ Hi) as Bi. unfold Unbound_Model.insert_above, Unbound_Model.alloc.
    cbn [Mondrian_Model.nodes Mondrian_Model.roots drawn]. fold a.
    assert (Eb : Z.of_nat (length (nodes f ++ [new_internal])) = b) by (rewrite app_length; cbn [length]; lia). rewrite Eb.
    set (f0 := mkForest O ((nodes f ++ [new_internal]) ++ [new_leaf]) (roots f) (drawn O f)).
    assert (L0 : length (nodes f0) = (length (nodes f) + 2)%nat) by (cbn; rewrite !app_length; cbn; lia).
    assert (D0 : forall j, rd (nodes f0) j = if j =? b then Ok new_leaf else if j =? a then Ok new_internal else rd (nodes f) j).
    { intros j. cbn [f0 Mondrian_Model.nodes]. destruct (Z.eqb_spec j b) as [->|Nb]; [rewrite <- Eb; apply rd_last|].
      destruct (Z.eqb_spec j a) as [->|Na]; [rewrite rd_app by (rewrite app_length; cbn; lia); apply rd_last|].
      destruct (Z.ltb_spec j a) as [Lt|Ge]; [rewrite !rd_app by (rewrite ?app_length; cbn; lia); reflexivity|].
      rewrite !rd_oob by (rewrite ?app_length; cbn; lia). reflexivity. }
    assert (Ha0 : rd (nodes f0) a = Ok new_internal) by (rewrite D0; eqz; reflexivity).
    assert (Hb0 : rd (nodes f0) b = Ok new_leaf) by (rewrite D0; eqz; reflexivity).
    assert (Hi0 : rd (nodes f0) i = Ok n) by (rewrite D0; eqz; exact Hi).
    wn Ha0. cbn [bind]. set (f1 := put f0 a _).
    assert (L1 : length (nodes f1) = length (nodes f0)) by apply put_length.
    assert (Ei1 : rd (nodes f1) i = Ok n) by (unfold f1; rp; eqz; exact Hi0).
    rewrite Ei1. cbn [bind]. rewrite EJ. cbn [bind].
    assert (Ea1 : rd (nodes f1) a = Ok (set_split O new_internal d v t)) by (unfold f1; rp; eqz; reflexivity).
    wn Ea1. cbn [bind]. set (f2 := put f1 a _).
    assert (L2 : length (nodes f2) = length (nodes f0)) by (unfold f2; rewrite put_length; exact L1).
    assert (Ei2 : rd (nodes f2) i = Ok n) by (unfold f2; rp; eqz; exact Ei1).
    rewrite Ei2. cbn [bind].
    assert (Ea2 : rd (nodes f2) a = Ok (set_box O (set_split O new_internal d v t) l u)) by (unfold f2; rp; eqz; reflexivity).
    wn Ea2. cbn [bind]. set (f3 := put f2 a _).
    assert (L3 : length (nodes f3) = length (nodes f0)) by (unfold f3; rewrite put_length; exact L2).
    assert (Ei3 : rd (nodes f3) i = Ok n) by (unfold f3; rp; eqz; exact Ei2).
    rewrite Ei3. cbn [bind].
    assert (R3 : roots f3 = roots f) by reflexivity.
    assert (D3 : forall j, j <> a -> rd (nodes f3) j = rd (nodes f0) j).
    { intros j Nj. unfold f3, f2, f1. rp. eqz. reflexivity. }
    assert (Hq : exists q, rd (roots f) k = Ok q /\ (p = -1 -> q = i)).
    { destruct HP as [[-> Hr]|[Np [_ [_ [q Hq]]]]]; [exists i; auto|exists q; split; [exact Hq|contradiction]]. }
    destruct Hq as [q [Hq Hqi]]. rewrite R3, Hq. cbn [bind].
    assert (S4 : exists f4,
      (if (parent O n =? -1) && (i =? q) then do rs <- wr (roots f) k a; Ok (mkForest O (nodes f3) rs (drawn O f3))
        else with_node O f3 (parent O n) (fun p0 => Ok (if child_left O p0 =? i then set_children O p0 a (child_right O p0) else set_children O p0 (child_left O p0) a)))
      = Ok f4 /\ length (nodes f4) = length (nodes f0) /\ roots f4 = (if p =? -1 then upd (roots f) (Z.to_nat k) a else roots f) /\ drawn O f4 = drawn O f /\
      forall j, rd (nodes f4) j = if j =? p then do np <- rd (nodes f) j; Ok (relink O i a np) else rd (nodes f3) j).
    { rewrite Hp. destruct HP as [[-> Hr]|[Np [Npi [[np Hnp] _]]]].
      - rewrite (Hqi eq_refl). rewrite !Z.eqb_refl. cbn [andb]. pose proof (rd_bounds _ _ _ _ Hr) as Bk. rewrite wr_ok by lia. cbn [bind].
        eexists. split; [reflexivity|]. cbn [Mondrian_Model.nodes Mondrian_Model.roots drawn]. split; [exact L3|]. split; [reflexivity|]. split; [reflexivity|].
        intros j. destruct (Z.eqb_spec j (-1)) as [->|N]; [|reflexivity]. rewrite !rd_oob by lia. reflexivity.
      - rewrite (proj2 (Z.eqb_neq p (-1))) by lia. cbn [andb]. pose proof (rd_bounds _ _ _ _ Hnp) as Bp.
        assert (Ep3 : rd (nodes f3) p = Ok np) by (rewrite D3 by lia; rewrite D0; eqz; exact Hnp).
        wn Ep3. eexists. split; [reflexivity|]. rewrite put_length. split; [exact L3|]. split; [exact R3|]. split; [reflexivity|].
        intros j. rewrite rd_put with (m := np) by exact Ep3. rewrite (Z.eqb_sym p j). destruct (Z.eqb_spec j p) as [->|N]; [|reflexivity].
        rewrite Hnp. cbn [bind]. unfold relink. rewrite (proj2 (Z.eqb_neq i a)) by lia. reflexivity. }
    destruct S4 as [f4 [E4 [L4 [R4 [Dr4 D4]]]]]. rewrite E4. cbn [bind].
    assert (Bp : p < a /\ p <> i).
    { destruct HP as [[-> _]|[_ [N [[np Hnp] _]]]]; [lia|]. apply rd_bounds in Hnp. lia. }
    assert (Ei4 : rd (nodes f4) i = Ok n) by (rewrite D4; eqz; exact Ei3).
    wn Ei4. cbn [bind]. set (f5 := put f4 i _).
    assert (L5 : length (nodes f5) = length (nodes f0)) by (unfold f5; rewrite put_length; exact L4).
    assert (Eb5 : rd (nodes f5) b = Ok new_leaf).
    { unfold f5. rp. eqz. rewrite D4. eqz. rewrite D3 by lia. exact Hb0. }
    wn Eb5. cbn [bind]. set (f6 := put f5 b _).
    assert (L6 : length (nodes f6) = length (nodes f0)) by (unfold f6; rewrite put_length; exact L5).
    rewrite Hd. cbn [bind].
    assert (Ea6 : rd (nodes f6) a = Ok (set_parent O (set_box O (set_split O new_internal d v t) l u) p)).
    { unfold f6, f5. rp. eqz. rewrite D4. eqz. unfold f3. rp. eqz. now rewrite Hp. }
    wn Ea6. cbn [bind]. set (f7 := put f6 a _).
    assert (L7 : length (nodes f7) = length (nodes f0)) by (unfold f7; rewrite put_length; exact L6).
    exists f7. split; [reflexivity|]. split; [|split; [exact R4|split; [now rewrite L7, L0|exact Dr4]]].
    intros j. unfold f7. rp. rewrite (Z.eqb_sym a j). destruct (Z.eqb_spec j b) as [->|Njb].
    { eqz. unfold f6. rp. eqz. reflexivity. }
    destruct (Z.eqb_spec j a) as [->|Nja]; [reflexivity|].
    unfold f6, f5. rp. rewrite (proj2 (Z.eqb_neq b j)) by congruence. rewrite (Z.eqb_sym i j).
    destruct (Z.eqb_spec j i) as [->|Nji]; [reflexivity|]. rewrite D4. destruct (Z.eqb_spec j p) as [->|Njp]; [reflexivity|].
    rewrite D3 by exact Nja. rewrite D0. eqz. reflexivity.
  Qed.

  (** Walks up change only the counters of internal nodes. *)
  Lemma recount_inv : forall g j m l g', rd (nodes g) j = Ok m -> is_leaf O m = false -> Unbound_Model.recount O g j l = Ok g' -> recounted g g'.
  Proof.
    intros g j m l g' Hm Lf H. unfold Unbound_Model.recount in H. inv H. inv H. inv H. inv H. inv H. apply with_inv in H. destruct H as [n [n' [H1 [H2 ->]]]]. rewrite Hm in H1. injection H1 as <-.
    inv H2. injection H2 as <-. pose proof (rd_bounds _ _ _ _ Hm) as Bj. split; [reflexivity|]. split; [reflexivity|]. split; [apply put_length|]. intros c q Hq. rewrite put_rd by lia.
    destruct (Z.eqb_spec j c) as [->|D].
    - rewrite Hm in Hq. injection Hq as <-. eexists. split; [reflexivity|]. congruence.
    - exists (counters O q). split; [rewrite Hq; now destruct q|auto].
  Qed.
  Lemma recount_all_inv : forall g j m g', rd (nodes g) j = Ok m -> is_leaf O m = false ->
    forZ (Z.to_nat lc) 0 (fun l g => Unbound_Model.recount O g j l) g = Ok g' -> recounted g g'.
  Proof.
    intros g j m g' Hm Lf H.
    apply (forZ_inv_post _ (fun _ h => recounted g h)) in H; [exact H|apply recounted_refl|]. intros l h h' _ A E.
    eapply recounted_trans; [exact A|]. destruct A as [_ [_ [_ A]]]. destruct (A j m Hm) as [cs [C1 _]]. eapply recount_inv; [exact C1|exact Lf|exact E].
  Qed.
  (** A set of internal nodes closed under taking the parent. *)
  Definition closed (P : Z -> Prop) (g : forest) : Prop :=
    forall j m, P j -> rd (nodes g) j = Ok m -> is_leaf O m = false /\ (parent O m = -1 \/ P (parent O m)).
  Lemma closed_recounted : forall P g g', closed P g -> recounted g g' -> closed P g'.
  Proof.
    intros P g g' C [_ [_ [A3 A4]]] j m Hj Hm. destruct (rd_in_bounds _ (nodes g) j) as [q Hq]; [apply rd_bounds in Hm; lia|]. destruct (A4 j q Hq) as [cs [C1 _]]. rewrite Hm in C1. injection C1 as ->.
    exact (C j q Hj Hq).
  Qed.
  Lemma climb_inv : forall visit P, (forall g j m g', rd (nodes g) j = Ok m -> is_leaf O m = false -> visit g j m = Ok g' -> recounted g g') ->
    forall steps g j g', closed P g -> P j -> Unbound_Model.climb O visit steps g j = Ok g' -> recounted g g'.
  Proof.
    intros visit P V. induction steps as [|steps IH]; intros g j g' C Pj H; cbn [Unbound_Model.climb] in H; [discriminate|].
    inv H. inv H. destruct (C j v Pj E) as [Lf Pp]. pose proof (V _ _ _ _ E Lf E0) as A. destruct (Z.eqb_spec (parent O v) (-1)) as [Ep|Ep]; [injection H as <-; exact A|].
    destruct Pp as [|Pp]; [contradiction|]. eapply recounted_trans; [exact A|]. eapply IH; [|exact Pp|exact H]. now apply closed_recounted with g.
  Qed.
  Lemma visit_label : forall g j m g', rd (nodes g) j = Ok m -> is_leaf O m = false ->
    (if is_leaf O m then Unbound_Model.add_count O g j label 1 else Unbound_Model.recount O g j label) = Ok g' -> recounted g g'.
  Proof. intros g j m g' Hm Lf H. rewrite Lf in H. eapply recount_inv; eauto. Qed.
  Lemma visit_labels : forall g j m g', rd (nodes g) j = Ok m -> is_leaf O m = false ->
    (if is_leaf O m then Ok g else forZ (Z.to_nat lc) 0 (fun l g => Unbound_Model.recount O g j l) g) = Ok g' -> recounted g g'.
  Proof. intros g j m g' Hm Lf H. rewrite Lf in H. eapply recount_all_inv; eauto. Qed.
  (** Counting a point in a leaf. *)
  Lemma label_inv : forall P g j m g', closed P g -> rd (nodes g) j = Ok m -> is_leaf O m = true -> (parent O m = -1 \/ P (parent O m)) -> ~ P j ->
    Unbound_Model.update_label O g j label 1 = Ok g' ->
    exists c, rd (counters O m) label = Ok c /\ recounted (put g j (set_counters O m (upd (counters O m) (Z.to_nat label) (c + 1)))) g'.
  Proof.
    intros P g j m g' C Hm Lf Pp Nj H. unfold Unbound_Model.update_label in H. cbn [Unbound_Model.climb] in H. rewrite Hm in H. cbn [bind] in H. rewrite Lf in H. inv H.
    unfold Unbound_Model.add_count in E. apply with_inv in E. destruct E as [q [q' [E1 [E2 ->]]]]. rewrite Hm in E1. injection E1 as <-. inv E2. inv E2. inv E2. injection E2 as <-.
    unfold Unbound_Model.slong in E0. destruct ((-9223372036854775808 <=? v + 1) && (v + 1 <=? 9223372036854775807)); [|discriminate]. injection E0 as <-. apply wr_inv in E1. destruct E1 as [_ ->].
    exists v. split; [exact E|]. destruct (Z.eqb_spec (parent O m) (-1)) as [Ep|Ep]; [injection H as <-; apply recounted_refl|].
    destruct Pp as [|Pp]; [contradiction|]. eapply (climb_inv _ P visit_label); [|exact Pp|exact H].
    intros c q Hc Hq. rewrite put_rd in Hq by (apply rd_bounds in Hm; lia). destruct (Z.eqb_spec j c) as [->|D]; [contradiction|]. now apply C with c.
  Qed.
  Lemma recounted_put : forall g g' j m m', recounted g g' -> rd (nodes g) j = Ok m -> recounted (put g j m') (put g' j m').
  Proof.
    intros g g' j m m' [A1 [A2 [A3 A4]]] Hm. pose proof (rd_bounds _ _ _ _ Hm) as Bj. split; [exact A1|]. split; [exact A2|]. split; [now rewrite !put_length|]. intros c q Hq.
    rewrite !put_rd in * by lia. destruct (Z.eqb_spec j c) as [->|D]; [|now apply A4]. injection Hq as <-. exists (counters O m'). split; [now destruct m'|auto].
  Qed.
  Lemma leaf_read : forall g g' j m, recounted g g' -> rd (nodes g) j = Ok m -> is_leaf O m = true -> rd (nodes g') j = Ok m.
  Proof. intros g g' j m [_ [_ [_ A]]] Hm Lf. destruct (A j m Hm) as [cs [C1 C2]]. rewrite C1, C2 by exact Lf. now destruct m. Qed.
  Lemma put_twice : forall g j a b, put (put g j a) j b = put g j b.
  Proof. intros g j a b. unfold Mondrian_Proofs.put. cbn. now rewrite upd_upd. Qed.
  Lemma sample_inv : forall P g b m g', closed P g -> rd (nodes g) b = Ok m -> is_leaf O m = true -> (parent O m = -1 \/ P (parent O m)) -> ~ P b -> counters O m = zeros ->
    Unbound_Model.sample_block O fc lifetime g b x label = Ok g' ->
    recounted (put g b (set_tau O (set_counters O (set_box O m pb pb) one) lifetime)) g'.
  Proof.
    intros P g b m g' C Hm Lf Pp Nb Cm H. unfold Unbound_Model.sample_block in H. rewrite (box_loop O fc Hfc x label Hx) in H. cbn [bind] in H. pose proof (rd_bounds _ _ _ _ Hm) as Bb.
    inv H. apply with_inv in E. destruct E as [q [q' [E1 [E2 ->]]]]. rewrite Hm in E1. injection E1 as <-. injection E2 as <-. inv H.
    assert (Hb1 : rd (nodes (put g b (set_box O m pb pb))) b = Ok (set_box O m pb pb)) by (rp; eqz; reflexivity).
    assert (C1 : closed P (put g b (set_box O m pb pb))).
    { intros c q Hc Hq. rewrite put_rd in Hq by lia. destruct (Z.eqb_spec b c) as [->|D]; [contradiction|now apply C with c]. }
    destruct (label_inv P _ b (set_box O m pb pb) _ C1 Hb1 Lf Pp Nb E) as [c [Ec A]].
    cbn [counters set_box] in Ec. rewrite Cm in Ec. rewrite rd_repeat in Ec by lia. injection Ec as <-. cbn [counters set_box] in A. rewrite Cm in A. rewrite put_twice in A.
    apply with_inv in H. destruct H as [q [q' [H1 [H2 ->]]]]. injection H2 as <-.
    set (mm := set_counters O (set_box O m pb pb) (upd zeros (Z.to_nat label) (0 + 1))) in *.
    assert (Hmm : rd (nodes (put g b mm)) b = Ok mm) by (rp; eqz; reflexivity).
    rewrite (leaf_read _ _ _ _ A Hmm Lf) in H1. injection H1 as <-.
    pose proof (recounted_put _ _ b mm (set_tau O mm lifetime) A Hmm) as B. rewrite put_twice in B. exact B.
  Qed.
End Steps.
