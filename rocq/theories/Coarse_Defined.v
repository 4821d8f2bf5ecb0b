(** * Proofs for the coarse Mondrian forest: training one tree is defined *)
From Coq Require Import ZArith List Bool Lia Reals Lra Permutation.
From Verif Require Import CppBase CppFacts NumOps Utils_Model Mondrian_Model Mondrian_Spec Mondrian_Proofs Coarse_Model Coarse_Spec Coarse_Heap Coarse_Walk Coarse_Train Coarse_Trim Coarse_Forest Coarse_Reach Coarse_Tidy.
From Verif Require Unbound_Model Mondrian_Train Unbound_Train.
From Verif Require Import Coarse_Total.
Import ListNotations.
Local Open Scope Z_scope.

Section Defined.
  Variable O : ops.
  Variable exp_ log_ : num O -> num O.
  Variable rnd : nat -> num O.
  Variable c : config O.
  Variable l0 : Z.
  Variable key : num O -> R.
  Variable cmp fine draw : num O -> Prop.
  Hypothesis L : laws O key cmp fine draw (c_features O c).
  Hypothesis F0 : fine (nofZ O 0).
  Hypothesis Hdraw : forall k, draw (rnd k).
  Hypothesis Hs : csizes O c l0.
  Local Notation n_ := (nofZ O).
  Local Notation node := (node O).
  Local Notation forest := (forest O).
  Local Notation coarse := (coarse O).
  Local Notation fr := (fr O).
  Local Notation nodes := (nodes O).
  Local Notation roots := (roots O).
  Local Notation get := (get O).
  Local Notation put := (put O).
  Local Notation avail := (avail O).
  Local Notation available := (available O).
  Local Notation counters := (counters O).
  Local Notation fc := (c_features O c).
  Local Notation lc := (c_labels O c).
  Local Notation nc := (c_nodes O c).
  Local Notation tc := (c_trees O c).
  Local Notation life := (c_life O c).
  Local Notation kind := (c_extend O c).
  Local Notation ctree := (ctree O).
  Local Notation ctop := (ctop O).
  Local Notation cids := (cids O).
  Local Notation csize := (csize O).
  Local Notation cost := (cost O).
  Local Notation height := (height O).
  Local Notation shape := (shape O).
  Local Notation stored := (stored O fc lc).
  Local Notation cpool := (cpool O c).
  Local Notation creached := (creached O exp_ log_ rnd c l0).
  Local Notation bounding := (bounding O fc).
  Local Notation fine_pt := (Mondrian_Train.fine_pt O fc fine).
  Local Notation able := (Unbound_Train.able_pick O draw fc).
  Local Notation def := (defined able).
  Let Tl : tlaws O := laws_tlaws O key cmp fine draw fc L.
  Let Hfc : 1 <= fc := proj1 (proj2 Hs).
  Let Hlife : nlt O life (nofZ O 0) = false := tl_used O Tl _ (proj2 (proj2 (proj2 (proj2 (proj2 Hs))))).

  Local Notation boxed := (boxed O c fine).
  Local Notation sound := (sound O c fine).

  Lemma spare_node : forall s u, cpool s u -> 0 < avail s -> exists j n, get s j = Ok n /\ available n = true.
  Proof.
    intros s u [P1 [P2 [P3 [P4 [P5 P6]]]]] Av. destruct (existsb (fun j => negb (existsb (Z.eqb j) u)) (zrange nc)) eqn:E.
    - apply existsb_exists in E. destruct E as [j [Hj Nj]]. apply zrange_in in Hj. destruct (rd_in_bounds _ (nodes (fr s)) j) as [n Hn]; [lia|]. exists j, n. split; [exact Hn|].
      destruct (available n) eqn:A; [reflexivity|]. apply (P4 j n Hn) in A. apply negb_true_iff in Nj. assert (X : existsb (Z.eqb j) u = true) by (apply existsb_exists; exists j; split; [exact A|apply Z.eqb_refl]). congruence.
    - exfalso. assert (I : incl (zrange nc) u).
      { intros j Hj. destruct (existsb (Z.eqb j) u) eqn:X; [apply existsb_exists in X; destruct X as [q [Hq Q]]; apply Z.eqb_eq in Q; now subst q|].
        assert (Y : existsb (fun j => negb (existsb (Z.eqb j) u)) (zrange nc) = true) by (apply existsb_exists; exists j; split; [exact Hj|now rewrite X]). congruence. }
      pose proof (NoDup_incl_length (zrange_nodup nc) I) as X. rewrite zrange_length in X. lia.
  Qed.

  Section Point.
    Variable x : list (num O).
    Variable label : Z.
    Hypothesis Hx : Z.of_nat (length x) = fc.
    Hypothesis Hlab : 0 <= label < lc.
    Hypothesis Fx : fine_pt (x, label).
    Let Hx' : length x = Z.to_nat fc.
    Proof. lia. Qed.

    Lemma insert_def : forall f i k d up a b n na nb p, rd (nodes f) i = Ok n -> boxed n -> rd (nodes f) a = Ok na -> rd (nodes f) b = Ok nb -> i <> a -> i <> b -> a <> b -> parent O n = p -> 0 <= d < fc ->
      ((p = -1 /\ rd (roots f) k = Ok i) \/ (0 <= p < Z.of_nat (length (nodes f)) /\ p <> i /\ p <> a /\ p <> b /\ exists q, rd (roots f) k = Ok q)) ->
      exists f', insert_above O fc lc life f i k x label d up a b = Ok f'.
    Proof.
      intros f i k d up a b n na nb p Hi [pts [Bn Fn]] Ha Hb Nia Nib Nab Hp Hd HP.
      pose proof (rd_bounds _ _ _ _ Hi) as Bi. pose proof (rd_bounds _ _ _ _ Ha) as Ba. pose proof (rd_bounds _ _ _ _ Hb) as Bb.
      unfold insert_above. rewrite Hi. cbn [bind]. destruct (Mondrian_Train.joined_box_ok O fc key cmp fine draw L Hfc x label Hx' Fx pts n Bn Fn) as [lo [hi [E _]]]. rewrite E. cbn [bind].
      erewrite with_node_ok; [|exact Ha|reflexivity]. cbn [bind]. set (f1 := Mondrian_Proofs.put O f a _). assert (L1 : length (nodes f1) = length (nodes f)) by apply put_length.
      assert (Hb1 : rd (nodes f1) b = Ok nb) by (unfold f1; rewrite rd_put' by lia; neqz; exact Hb).
      erewrite with_node_ok; [|exact Hb1|reflexivity]. cbn [bind]. set (f2 := Mondrian_Proofs.put O f1 b _). assert (L2 : length (nodes f2) = length (nodes f)) by (unfold f2; now rewrite put_length).
      assert (Hi2 : rd (nodes f2) i = Ok n) by (unfold f2, f1; rewrite !rd_put' by (rewrite ?put_length; lia); repeat neqz; exact Hi). rewrite Hi2. cbn [bind].
      assert (Ha2 : exists na2, rd (nodes f2) a = Ok na2) by (apply rd_in_bounds; lia). destruct Ha2 as [na2 Ha2].
      erewrite with_node_ok; [|exact Ha2|reflexivity]. cbn [bind]. set (f3 := Mondrian_Proofs.put O f2 a _). assert (L3 : length (nodes f3) = length (nodes f)) by (unfold f3; now rewrite put_length).
      assert (Hi3 : rd (nodes f3) i = Ok n) by (unfold f3; rewrite rd_put' by lia; neqz; exact Hi2). rewrite Hi3. cbn [bind].
      assert (Hb3 : rd (nodes f3) b = Ok (set_counters O nb (repeat 0 (Z.to_nat lc)))) by (unfold f3, f2; rewrite !rd_put' by (rewrite ?put_length; lia); rewrite Z.eqb_refl; neqz; reflexivity).
      change (roots f3) with (roots f).
      assert (S4 : exists q f4, rd (roots f) k = Ok q /\
        (if (parent O n =? -1) && (i =? q) then do rs <- wr (roots f) k a; Ok (mkForest O (nodes f3) rs (drawn O f3)) else with_node O f3 (parent O n) (fun p0 => Ok (if child_left O p0 =? i then set_children O p0 a (child_right O p0) else set_children O p0 (child_left O p0) a))) = Ok f4 /\
        length (nodes f4) = length (nodes f) /\ rd (nodes f4) b = rd (nodes f3) b).
      { destruct HP as [[Ep Hr]|[Bp [Npi [Npa [Npb [q Hr]]]]]]; rewrite Hp.
        - pose proof (rd_bounds _ _ _ _ Hr) as Br. exists i. rewrite Ep, !Z.eqb_refl. cbn [andb]. rewrite wr_ok by lia. cbn [bind]. eexists. split; [exact Hr|]. split; [reflexivity|]. split; [exact L3|reflexivity].
        - exists q. rewrite (proj2 (Z.eqb_neq p (-1))) by lia. cbn [andb]. destruct (rd_in_bounds _ (nodes f3) p) as [np Hnp]; [lia|].
          erewrite with_node_ok; [|exact Hnp|reflexivity]. eexists. split; [exact Hr|]. split; [reflexivity|]. split; [rewrite put_length; exact L3|]. rewrite rd_put' by lia. neqz. reflexivity. }
      destruct S4 as [q [f4 [Hq [E4 [L4 Hb4]]]]]. rewrite Hq. cbn [bind]. rewrite E4. cbn [bind].
      destruct (rd_in_bounds _ (nodes f4) i) as [ni Hi4]; [lia|]. erewrite with_node_ok; [|exact Hi4|reflexivity]. cbn [bind]. set (f5 := Mondrian_Proofs.put O f4 i _). assert (L5 : length (nodes f5) = length (nodes f)) by (unfold f5; now rewrite put_length).
      assert (Hb5 : rd (nodes f5) b = Ok (set_counters O nb (repeat 0 (Z.to_nat lc)))) by (unfold f5; rewrite rd_put' by lia; neqz; now rewrite Hb4).
      erewrite with_node_ok; [|exact Hb5|reflexivity]. cbn [bind]. set (f6 := Mondrian_Proofs.put O f5 b _). assert (L6 : length (nodes f6) = length (nodes f)) by (unfold f6; now rewrite put_length).
      rewrite (Mondrian_Train.rd_x O fc Hfc x label Hx' d Hd). cbn [bind].
      destruct (rd_in_bounds _ (nodes f6) a) as [na6 Ha6]; [lia|]. erewrite with_node_ok; [|exact Ha6|reflexivity]. cbn [bind]. set (f7 := Mondrian_Proofs.put O f6 a _).
      assert (Hb7 : exists nb7, rd (nodes f7) b = Ok nb7 /\ counters nb7 = repeat 0 (Z.to_nat lc)).
      { eexists. split; [unfold f7, f6; rewrite !rd_put' by (rewrite ?put_length; lia); rewrite Z.eqb_refl; neqz; reflexivity|reflexivity]. }
      destruct Hb7 as [nb7 [Hb7 Cb]]. rewrite (sample_eq O c l0 Hs x label Hx). eexists. apply with_node_ok with nb7; [exact Hb7|]. rewrite Cb, rd_repeat by lia. cbn [bind]. change (sint (0 + 1)) with (Ok 1). cbn [bind].
      rewrite wr_ok by (rewrite repeat_length; lia). reflexivity.
    Qed.
    Variable k : Z.
    Variable lim : res Z.
    Local Notation before := (before O c k lim).
    Local Notation ds := (Mondrian_Train.ds O fc x label).
    Local Notation mass n := (fold_left (nadd O) (ds n) (n_ 0)).
    Lemma parent_def : forall s n a, 0 <= a < Z.of_nat (length (nodes (fr s))) -> length (counters n) = Z.to_nat lc -> (kind = EXTEND_GHOST -> 0 <= at_label label (counters n) < 2147483647) ->
      exists s', parent_counters O c s n a label = Ok s' /\ roots (fr s') = roots (fr s) /\ length (nodes (fr s')) = length (nodes (fr s)) /\ forall j, j <> a -> rd (nodes (fr s')) j = rd (nodes (fr s)) j.
    Proof.
      intros s n a Ba Lc Cg. destruct (rd_in_bounds _ (nodes (fr s)) a Ba) as [na Ha]. unfold parent_counters, add_label, change. destruct (Z.eqb_spec kind EXTEND_ORIGINAL) as [_|No].
      - erewrite with_node_ok; [|exact Ha|reflexivity]. cbn [bind]. eexists. split; [reflexivity|]. cbn [Coarse_Model.fr with_fr]. split; [reflexivity|]. split; [apply put_length|]. intros j Nj. rewrite rd_put' by exact Ba. neqz. reflexivity.
      - destruct (Z.eqb_spec kind EXTEND_GHOST) as [Eg|_]; [|eexists; split; [reflexivity|auto]]. specialize (Cg Eg).
        erewrite with_node_ok; [|exact Ha|reflexivity]. cbn [bind Coarse_Model.fr with_fr]. set (f1 := Mondrian_Proofs.put O (fr s) a _). assert (L1 : length (nodes f1) = length (nodes (fr s))) by apply put_length.
        assert (Ha1 : rd (nodes f1) a = Ok (set_counters O na (counters n))) by (unfold f1; rewrite rd_put', Z.eqb_refl by exact Ba; reflexivity).
        erewrite with_node_ok; [|exact Ha1|].
        2:{ cbn [Mondrian_Model.counters set_counters]. assert (R : rd (counters n) label = Ok (at_label label (counters n))) by (unfold at_label; destruct (rd_in_bounds _ (counters n) label) as [w Hw]; [lia|]; rewrite Hw; apply rd_ok_iff in Hw; destruct Hw as [_ Hw]; f_equal; symmetry; now apply nth_error_nth).
            rewrite R. cbn [bind]. rewrite sint_ok by lia. cbn [bind]. rewrite wr_ok by lia. reflexivity. }
        cbn [bind Coarse_Model.fr with_fr]. eexists. split; [reflexivity|]. cbn [Coarse_Model.fr with_fr]. split; [reflexivity|]. split; [rewrite put_length; exact L1|]. intros j Nj. rewrite rd_put' by (rewrite L1; exact Ba). neqz. unfold f1. rewrite rd_put' by exact Ba. neqz. reflexivity.
    Qed.
    Lemma split_def : forall s p t rest D n time, before s p t rest D -> get s (ctop t) = Ok n -> sound s -> 2 <= avail s -> neq O (mass n) (n_ 0) = false -> nlt O time (n_ 0) = false ->
      (exists q, rd (roots (fr s)) k = Ok q) -> (kind = EXTEND_GHOST -> 0 <= at_label label (counters n) < 2147483647) ->
      def (split_above O rnd c s n (ctop t) k x (ds n) (mass n) time label).
    Proof.
      intros s p t rest D n time [B1 [B2 [B3 [B4 B5]]]] Hn [Bx Bl] Av Ns Ht Hr Cg. pose proof Hs as [_ [_ [_ [Bnc _]]]].
      pose proof (rd_Forall _ _ _ _ _ Bx Hn) as Bn. pose proof Bn as [pts [Bd Fd]]. unfold split_above.
      destruct (Unbound_Train.choose_split_ok O rnd fc fine draw Hdraw Hfc x label Hx' (fr s) n pts Bd Fd Ns) as [[[e E] N]|[f' [d [up [v [u [E [En [Er [Hd _]]]]]]]]]]; rewrite E; cbn [bind]; [right; eauto|]. left.
      set (s0 := with_fr O s f'). set (us := rest ++ cids t) in *. assert (C0 : cpool s0 us) by (apply cpool_same with s; auto). destruct (spare_node s0 us C0) as [j [nj [Hj Aj]]]; [cbn; lia|]. pose proof C0 as [P1 [P2 [P3 [P4 [P5 P6]]]]].
      destruct (available_node_found O c s0 j nj Hj Aj) as [a [ma [Ea [Ga [Aa Ba]]]]]; [cbn; lia|exact P1|exact Bl|lia|]. rewrite Ea. cbn [bind]. set (s1 := with_last O s0 a).
      unfold change at 1. erewrite with_node_ok; [|exact Ga|reflexivity]. cbn [bind]. set (ma' := set_split O ma d v time). set (s2 := with_fr O s1 _).
      assert (Ta : available ma' = false) by (apply (used O Tl); exact Ht).
      assert (C1 : cpool s1 us) by (apply cpool_same with s0; auto).
      pose proof (cpool_take O c s1 us a ma ma' C1 Ga Aa Ta) as C2. change (Mondrian_Proofs.put O (fr s1) a ma') with (Mondrian_Proofs.put O (fr s0) a ma') in C2.
      destruct (spare_node _ _ C2) as [j2 [nj2 [Hj2 Aj2]]]; [cbn; lia|]. pose proof C2 as [Q1 [Q2 [Q3 [Q4 _]]]].
      assert (L2 : Z.of_nat (length (nodes (fr s2))) = nc) by exact Q1.
      destruct (available_node_found O c s2 j2 nj2 Hj2 Aj2) as [b [mb [Eb [Gb [Ab Bb]]]]]; [cbn; lia|exact L2|cbn; lia|lia|]. rewrite Eb. cbn [bind]. set (s3 := with_avail O (with_last O s2 b) _).
      assert (Nu : ~ In a us) by (intros I; apply (P4 a ma Ga) in I; congruence).
      assert (Nb : ~ In b (a :: us)) by (intros I; apply (Q4 b mb Gb) in I; congruence).
      assert (Nab : a <> b) by (intros ->; apply Nb; now left).
      assert (Ii : In (ctop t) us) by (apply in_or_app; right; apply ctop_in).
      assert (Nia : ctop t <> a) by (intros X; rewrite X in Ii; contradiction). assert (Nib : ctop t <> b) by (intros X; apply Nb; right; now rewrite <- X).
      destruct (stored_node O c t (fr s) p B1) as [n' [M1 [M2 [M3 [M4 [M5 M6]]]]]]. assert (n' = n) by (unfold Coarse_Model.get in Hn; congruence). subst n'.
      destruct (parent_def s3 n a) as [s4 [E4 [R4 [L4 G4]]]]; [cbn [Coarse_Model.fr with_avail with_last s3]; rewrite L2; exact Ba|exact M4|exact Cg|]. rewrite E4. cbn [bind].
      assert (G2 : forall j, j <> a -> rd (nodes (fr s4)) j = rd (nodes (fr s)) j).
      { intros q Nq. rewrite (G4 q Nq). change (rd (nodes (Mondrian_Proofs.put O (fr s0) a ma')) q = rd (nodes (fr s)) q). rewrite rd_put' by (rewrite P1; exact Ba). neqz. cbn [s0 Coarse_Model.fr with_fr]. now rewrite En. }
      assert (LL : Z.of_nat (length (nodes (fr s4))) = nc) by (rewrite L4; exact L2).
      assert (Rt : roots (fr s4) = roots (fr s)) by (rewrite R4; exact Er).
      destruct (rd_in_bounds _ (nodes (fr s4)) a) as [na Ha]; [lia|]. destruct (rd_in_bounds _ (nodes (fr s4)) b) as [nb Hb]; [lia|].
      assert (Hi : rd (nodes (fr s4)) (ctop t) = Ok n) by (rewrite G2 by exact Nia; exact Hn).
      destruct (insert_def (fr s4) (ctop t) k d up a b n na nb p Hi Bn Ha Hb Nia Nib Nab M2 Hd) as [f5 E5].
      { rewrite Rt. destruct B4 as [[-> X]|[Np Ip]]; [left; auto|right]. assert (Iu : In p us) by (apply in_or_app; now left). rewrite LL. split; [now apply P3|].
        split; [intros ->; apply nodup_app in P2; destruct P2 as [_ [_ P2]]; apply (P2 (ctop t)); [exact Ip|apply ctop_in]|].
        split; [intros ->; contradiction|]. split; [intros ->; apply Nb; now right|exact Hr]. }
      rewrite E5. cbn [bind]. eauto.
    Qed.
    Definition capped (N : Z) (cs : list Z) : Prop := Forall (fun v => 0 <= v <= N) cs.
    (** The counters that a point may bump are at most [N]. *)
    Fixpoint cap (N : Z) (t : ctree) : Prop := match t with CLeaf _ cs => capped N cs | CFork _ _ _ cs l r => (kind = EXTEND_GHOST -> capped N cs) /\ cap N l /\ cap N r end.
    Lemma capped_at : forall N cs, 0 <= N -> capped N cs -> 0 <= at_label label cs <= N.
    Proof.
      intros N cs HN H. unfold at_label. destruct (nth_in_or_default (Z.to_nat label) cs 0) as [I|E]; [|rewrite E; lia]. unfold capped in H. rewrite Forall_forall in H. now apply H.
    Qed.
    Lemma add_label_def : forall s i n, get s i = Ok n -> length (counters n) = Z.to_nat lc -> 0 <= at_label label (counters n) < 2147483647 -> exists s', add_label O s i label = Ok s'.
    Proof.
      intros s i n Hn Lc Ca. unfold add_label, change. erewrite with_node_ok; [|exact Hn|]; [cbn [bind]; eauto|].
      assert (R : rd (counters n) label = Ok (at_label label (counters n))) by (unfold at_label; destruct (rd_in_bounds _ (counters n) label) as [w Hw]; [lia|]; rewrite Hw; apply rd_ok_iff in Hw; destruct Hw as [_ Hw]; f_equal; symmetry; now apply nth_error_nth).
      rewrite R. cbn [bind]. rewrite sint_ok by lia. cbn [bind]. rewrite wr_ok by lia. reflexivity.
    Qed.
    Lemma add_leaf_def : forall s i n, get s i = Ok n -> length (counters n) = Z.to_nat lc -> 0 <= at_label label (counters n) < 2147483647 -> 0 <= i < Z.of_nat (length (fading O s)) -> exists s', add_leaf O s i label = Ok s'.
    Proof.
      intros s i n Hn Lc Ca Bi. destruct (add_label_def s i n Hn Lc Ca) as [s1 E]. unfold add_leaf. rewrite E. cbn [bind]. apply add_label_inv in E. destruct E as [m [_ [_ ->]]]. unfold add_fading. cbn [Coarse_Model.fading with_fr].
      destruct (rd_in_bounds _ (fading O s) i Bi) as [w Hw]. rewrite Hw. cbn [bind]. rewrite wr_ok by exact Bi. cbn [bind]. eauto.
    Qed.
    Record ready (N : Z) (s : coarse) (p : Z) (t : ctree) (rest : list Z) (D : Z) : Prop := {
      rd_before : before s p t rest D;
      rd_sound : sound s;
      rd_fading : Z.of_nat (length (fading O s)) = nc;
      rd_size : exists z, rdi (size O s) k = Ok z;
      rd_roots : exists q, rd (roots (fr s)) k = Ok q;
      rd_depth : D <= Z.of_nat (length rest);
      rd_height : cobble O c = true -> height t <= 101;
      rd_cap : cap N t }.
    Variable N : Z.
    Hypothesis HN : 0 <= N < 2147483647.
    Hypothesis Hlim : exists l, lim = Ok l.

    Lemma before_sizes : forall s p t rest D, before s p t rest D -> Z.of_nat (length rest) + csize t <= nc.
    Proof.
      intros s p t rest D [_ [[P1 [P2 [P3 _]]] _]]. pose proof (NoDup_incl_length P2 (l' := zrange nc)) as X. rewrite zrange_length, app_length in X. unfold Coarse_Walk.csize.
      assert (Y : incl (rest ++ cids t) (zrange nc)) by (intros j Hj; apply zrange_in; now apply P3). specialize (X Y). pose proof Hs as [_ [_ [_ [B _]]]]. lia.
    Qed.
    Lemma top_capped : forall s p t rest D n, ready N s p t rest D -> get s (ctop t) = Ok n -> (kind = EXTEND_GHOST \/ match t with CLeaf _ _ => True | _ => False end) ->
      length (counters n) = Z.to_nat lc /\ 0 <= at_label label (counters n) < 2147483647 /\ 0 <= ctop t < Z.of_nat (length (fading O s)).
    Proof.
      intros s p t rest D n R Hn K. destruct R as [[B1 [B2 _]] _ Rf _ _ _ _ Rc]. destruct (stored_node O c t (fr s) p B1) as [m [M1 [M2 [M3 [M4 _]]]]]. assert (m = n) by (unfold Coarse_Model.get in Hn; congruence). subst m.
      split; [exact M4|]. destruct B2 as [_ [_ [P3 _]]]. split; [|rewrite Rf; apply P3, in_or_app; right; apply ctop_in]. rewrite M3. enough (0 <= at_label label (top_counters O t) <= N) by lia. apply capped_at; [lia|].
      destruct t as [i cs|i d v cs l r]; cbn [cap top_counters] in *; [exact Rc|]. apply Rc. tauto.
    Qed.
    Lemma pause_def : forall s p t rest D, ready N s p t rest D -> exists b, pause O c s (ctop t) k = Ok b.
    Proof.
      intros s p t rest D [Bf _ _ [z Rz] _ Rd Rh _]. pose proof (before_sizes _ _ _ _ _ Bf) as Sz. destruct Bf as [B1 [B2 [B3 [B4 B5]]]]. destruct Hlim as [l El]. unfold pause. change ((c_manage O c =? COBBLE_MANAGEMENT) || (c_manage O c =? OPTIMISTIC_COBBLE_MANAGEMENT)) with (cobble O c). destruct (cobble O c).
      - destruct (node_depth_total O c t s p) as [[h q] E]; [now apply stored_shape with c|lia|now apply Rh|]. rewrite E. cbn [bind]. destruct (stored_node O c t (fr s) p B1) as [n [M1 [M2 _]]].
        pose proof (rd_bounds _ _ _ _ M1) as Bi. destruct B2 as [P1 _]. unfold unravel. rewrite (proj2 (Z.leb_gt nc (ctop t))) by lia.
        destruct (climb_total O s rest p D B3 (ctop t) n (fuel O c) 0 M1 M2) as [w E2]; [pose proof (csize_pos O t); unfold fuel; lia|]. rewrite E2. cbn [bind]. rewrite B5, El. cbn [bind]. eauto.
      - unfold is_paused. destruct ((c_manage O c =? ROBUR_MANAGEMENT) || (c_manage O c =? PAUSING_PHOENIX_MANAGEMENT)); [|eauto]. rewrite Rz. cbn [bind]. rewrite B5, El. cbn [bind]. eauto.
    Qed.
    Lemma parent_time_def : forall s rest p D n, above O (fr s) rest p D -> parent O n = p -> exists t0, parent_time O (fr s) n = Ok t0.
    Proof.
      intros s rest p D n A Hp. unfold parent_time. rewrite Hp. destruct A as [|p m D I Hm Ht A]; [cbn; eauto|]. pose proof (rd_bounds _ _ _ _ Hm) as B. rewrite (proj2 (Z.leb_le 0 p)), Hm by lia. cbn [bind]. eauto.
    Qed.

    Definition extends_def (steps : nat) : Prop := forall s p t rest D, ready N s p t rest D -> csize t <= Z.of_nat steps -> def (extend_block O log_ rnd c steps s (ctop t) k x label).
    Lemma ready_left : forall s p i d v cs l r rest D, ready N s p (CFork i d v cs l r) rest D -> ready N s i l (rest ++ i :: cids r) (D + 1) /\ ready N s i r (rest ++ i :: cids l) (D + 1).
    Proof.
      intros s p i d v cs l r rest D [[H1 [H2 [H3 [H4 H5]]]] R2 R3 R4 R5 R6 R7 [_ [C1 C2]]]. destruct H1 as [n [Q1 [Q2 [Q3 [Q4 [Q5 [B1 [B2 [B3 [B4 [B5 [B6 B7]]]]]]]]]]]]. cbn [Coarse_Spec.ctop Coarse_Spec.height] in *.
      assert (Bi : 0 <= i < nc) by (destruct H2 as [_ [_ [P _]]]; apply P, in_or_app; right; now left).
      assert (Up : forall rest', (forall j, In j rest -> In j rest') -> In i rest' -> above O (fr s) rest' i (D + 1)).
      { intros rest' Sub Ii. apply above_up with n; auto. rewrite Q2. clear -H3 Sub. induction H3; [constructor|]. econstructor; eauto. }
      split; (split; [split; [assumption|split; [|split; [apply Up; [intros; apply in_or_app; now left|apply in_or_app; right; now left]|split; [right; split; [lia|apply in_or_app; right; now left]|exact H5]]]]|assumption|assumption|assumption|assumption|rewrite app_length; cbn [length]; lia|intros X; specialize (R7 X); lia|assumption]).
      - eapply cpool_perm; [|exact H2]. rewrite <- app_assoc. apply Permutation_app_head. cbn [app Coarse_Spec.cids]. apply perm_skip, Permutation_app_comm.
      - eapply cpool_perm; [|exact H2]. rewrite <- app_assoc. apply Permutation_app_head. apply Permutation_refl.
    Qed.
    Lemma descend_def : forall steps, extends_def steps -> forall s p t rest D, ready N s p t rest D -> csize t <= Z.of_nat steps + 1 -> def (descend O log_ rnd c k x label steps s (ctop t)).
    Proof.
      intros steps IH s p t rest D R Sz. pose proof (rd_before _ _ _ _ _ _ R) as [H1 [H2 [H3 [H4 H5]]]]. destruct (stored_node O c t (fr s) p H1) as [n [M1 [M2 [M3 [M4 [M5 M6]]]]]].
      assert (Hn : get s (ctop t) = Ok n) by exact M1. unfold descend. rewrite Hn. cbn [bind]. rewrite M6. destruct t as [i cs|i d v cs l r].
      - destruct (top_capped _ _ _ _ _ _ R Hn) as [T1 [T2 T3]]; [now right|]. left. now apply add_leaf_def with n.
      - destruct H1 as [m [Q1 [Q2 [Q3 [Q4 [Q5 [B1 [B2 [B3 [B4 [B5 [B6 B7]]]]]]]]]]]]. assert (m = n) by (cbn in *; congruence). subst m. destruct (ready_left _ _ _ _ _ _ _ _ _ _ R) as [Rl Rr]. rewrite csize_fork in Sz. pose proof (csize_pos O l) as Pl. pose proof (csize_pos O r) as Pr.
        assert (Bi : 0 <= i < nc) by (destruct H2 as [_ [_ [P _]]]; apply P, in_or_app; right; now left).
        rewrite B1, B3, B4, B5, (Mondrian_Train.rd_x O fc Hfc x label Hx' d B2). cbn [bind]. set (xd := coord O (x, label) d). cbn [Coarse_Spec.ctop] in *.
        apply defined_bind; [destruct (nle O xd v); [|destruct (nlt O v xd); [|apply defined_ok]]; eapply IH; try eassumption; lia|].
        intros s1 E. destruct (Z.eqb_spec kind EXTEND_GHOST) as [K|_]; [|apply defined_ok]. left.
        assert (G : exists n1, get s1 i = Ok n1 /\ counters n1 = counters n).
        { assert (X : forall u u' rest', after O c k s s1 i u u' rest' -> In i rest' -> exists n1, get s1 i = Ok n1 /\ counters n1 = counters n).
          { intros u u' rest' [_ [_ [A3 _]]] Ii. rewrite (A3 i Ii), Z.eqb_refl, Hn. cbn [bind]. eexists. split; [reflexivity|]. apply relink_fields. }
          destruct (nle O xd v); [|destruct (nlt O v xd); [|injection E as <-; eauto]].
          - destruct (extend_ok O log_ rnd c Tl Hlife k lim x label Hx steps s i l _ _ s1 (rd_before _ _ _ _ _ _ Rl) E) as [l' [_ A]]. eapply X; [exact A|]. apply in_or_app. right. now left.
          - destruct (extend_ok O log_ rnd c Tl Hlife k lim x label Hx steps s i r _ _ s1 (rd_before _ _ _ _ _ _ Rr) E) as [r' [_ A]]. eapply X; [exact A|]. apply in_or_app. right. now left. }
        destruct G as [n1 [G1 G2]]. destruct (top_capped _ _ _ _ _ _ R Hn) as [T1 [T2 T3]]; [now left|]. apply add_label_def with n1; [exact G1|now rewrite G2|now rewrite G2].
    Qed.
    Lemma extend_def : forall steps, extends_def steps.
    Proof.
      induction steps as [|steps IH]; intros s p t rest D R Sz; [pose proof (csize_pos O t); lia|]. pose proof (descend_def steps IH) as Ds. rewrite extend_S. pose proof (rd_before _ _ _ _ _ _ R) as Bf. pose proof Bf as [H1 [H2 [H3 [H4 H5]]]].
      destruct (stored_node O c t (fr s) p H1) as [n [M1 [M2 [M3 [M4 [M5 M6]]]]]]. assert (Hn : get s (ctop t) = Ok n) by exact M1. rewrite Hn. cbn [bind].
      destruct (parent_time_def s rest p D n H3 M2) as [t0 Et]. rewrite Et. cbn [bind]. pose proof (rd_sound _ _ _ _ _ _ R) as So. pose proof (rd_Forall _ _ _ _ _ (proj1 So) Hn) as [pts [Bd Fd]].
      rewrite (Mondrian_Train.distances_ok O fc Hfc x label Hx' pts n Bd). cbn [bind].
      assert (Pos : forall j, In j rest -> 0 <= j) by (intros j Hj; destruct H2 as [_ [_ [P _]]]; apply P, in_or_app; now left).
      pose proof (parent_time_ok O Tl s rest p D n t0 H3 Pos M2 Et) as Pt0.
      assert (SD : exists e s0, draw_time O log_ rnd s (mass n) = (e, s0) /\ nodes (fr s0) = nodes (fr s) /\ roots (fr s0) = roots (fr s) /\ avail s0 = avail s /\ same O s s0 /\ last O s0 = last O s /\ fading O s0 = fading O s /\ (nle O (n_ 0) e = true -> neq O (mass n) (n_ 0) = false)).
      { unfold draw_time, Coarse_Model.uniform, Mondrian_Model.uniform. destruct (neq O (mass n) (n_ 0)); eexists; eexists; (split; [reflexivity|]); repeat split.
        intros X. apply (tl_used O Tl) in X. rewrite (tl_m1 O Tl) in X. discriminate. }
      destruct SD as [e [s0 [E0 [N0 [R0 [V0 [S0 [La0 [Fa0 Ns]]]]]]]]]. rewrite E0.
      assert (Bf0 : before s0 p t rest D) by (apply before_same with s; auto; apply limit_same; auto).
      assert (Hn0 : get s0 (ctop t) = Ok n) by (unfold Coarse_Model.get in *; congruence).
      assert (Rd0 : ready N s0 p t rest D).
      { destruct R as [Q1 Q2 Q3 Q4 Q5 Q6 Q7 Q8]. destruct S0 as [S1 [S2 S3]]. split; auto; [destruct Q2 as [X Y]; split; [now rewrite N0|now rewrite La0]|now rewrite Fa0|now rewrite S2|now rewrite R0]. }
      destruct (pause_def _ _ _ _ _ Rd0) as [paused Ep]. rewrite Ep. cbn [bind]. rewrite Nat2Z.inj_succ in Sz.
      destruct (nle O (n_ 0) e && nlt O (nadd O t0 e) (tau O n) && (2 <=? avail s0) && negb paused) eqn:Sp.
      - apply andb_prop in Sp. destruct Sp as [Sp Np]. apply andb_prop in Sp. destruct Sp as [Sp Av]. apply Z.leb_le in Av. apply andb_prop in Sp. destruct Sp as [Sp1 Sp2]. destruct paused; [discriminate|].
        assert (Ht : nlt O (nadd O t0 e) (n_ 0) = false) by (eapply (tl_add O Tl); eauto).
        apply defined_bind.
        { apply split_def with p rest D; auto; [exact (rd_sound _ _ _ _ _ _ Rd0)|exact (rd_roots _ _ _ _ _ _ Rd0)|]. intros K. destruct (top_capped _ _ _ _ _ _ Rd0 Hn0) as [_ [X _]]; auto. }
        intros s1 E1. destruct (Z.eqb_spec kind EXTEND_COUNTER_NO_UPDATE) as [K|K]; [|apply defined_ok].
        assert (So1 : sound s1) by (eapply (sound_split O rnd c l0 key cmp fine draw L Hs x label Hx Fx); [|exact (rd_sound _ _ _ _ _ _ Rd0)|exact E1]; destruct Bf0 as [_ [[X _] _]]; exact X).
        pose proof (split_above_ok O log_ rnd c Tl Hlife k lim x label Hx s0 p t rest D n _ _ _ s1 Bf0 Hn0 Ht E1) as X.
        destruct X as [a [b [d [v [left [t1 [Et1 [A1 [St [Ab [Ia Pa]]]]]]]]]]]. pose proof A1 as [B1 [B2 [B3 [B4 B5]]]].
        assert (Pt : Permutation (cids t1) (a :: b :: cids t)).
        { rewrite Et1. unfold fork_side. destruct left; cbn [Coarse_Spec.cids Coarse_Train.single]; apply perm_skip; [symmetry; apply Permutation_cons_append|apply Permutation_refl]. }
        assert (Pp : Permutation ((rest ++ [a; b]) ++ cids t) (rest ++ cids t1)) by (rewrite <- app_assoc; apply Permutation_app_head; symmetry; exact Pt).
        assert (Bf1 : before s1 a t (rest ++ [a; b]) (D + 1)).
        { split; [exact St|]. split; [eapply cpool_perm; [symmetry; exact Pp|exact B2]|]. split; [exact Ab|]. split; [right; split; [lia|apply in_or_app; right; now left]|]. rewrite (limit_same O _ _ B5). now destruct Bf0 as [_ [_ [_ [_ X]]]]. }
        apply (Ds s1 a t (rest ++ [a; b]) (D + 1)); [|lia]. destruct Rd0 as [Q1 Q2 Q3 Q4 Q5 Q6 Q7 Q8]. destruct B5 as [_ [Z2 [_ [_ [_ [_ [_ Z8]]]]]]]. split; auto; [now rewrite Z8|now rewrite Z2| |rewrite app_length; cbn [length]; lia].
        rewrite B4. destruct Q5 as [q Hq]. destruct (p =? -1); [|eauto]. pose proof (rd_bounds _ _ _ _ Hq) as Bq. rewrite rd_upd by lia. destruct (_ =? _); eauto.
      - clear Sp. destruct ((kind =? EXTEND_ORIGINAL) || nlt O e (n_ 0) || nlt O (tau O n) (nadd O t0 e)) eqn:Up.
        + destruct (Mondrian_Train.update_box_ok O fc key cmp fine draw L Hfc x label Hx' Fx pts n Bd Fd) as [lo [hi [E B']]]. unfold change. erewrite with_node_ok; [|exact Hn0|exact E]. cbn [bind].
          destruct (change_box O c k lim s0 p t rest D n lo hi Bf0 Hn0) as [Bf1 [Gr [R1 S1]]]. apply (Ds _ p t rest D); [|lia]. destruct Rd0 as [Q1 Q2 Q3 Q4 Q5 Q6 Q7 Q8]. split; auto.
          destruct Q2 as [X Y]. split; [|exact Y]. cbn. apply Forall_upd; [exact X|]. exists ((x, label) :: pts). split; [exact B'|constructor; [exact Fx|exact Fd]].
        + destruct (Z.eqb_spec kind EXTEND_GHOST) as [K|K].
          * destruct (top_capped _ _ _ _ _ _ Rd0 Hn0) as [T1 [T2 T3]]; [now left|]. left. now apply add_leaf_def with n.
          * destruct (Z.eqb_spec kind EXTEND_COUNTER_NO_UPDATE) as [K'|K']; [|apply defined_ok]. apply (Ds s0 p t rest D); [exact Rd0|lia].
    Qed.
  End Point.
End Defined.
