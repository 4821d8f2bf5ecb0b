(** * Proofs for the coarse Mondrian forest: the boxes after the split of a leaf *)
From Coq Require Import ZArith List Bool Lia Permutation.
From Verif Require Import CppBase CppFacts NumOps Utils_Model Mondrian_Model Mondrian_Spec Mondrian_Proofs Coarse_Model Coarse_Spec Coarse_Heap Coarse_Walk Coarse_Train Coarse_Trim Coarse_Forest Coarse_Center.
Import ListNotations.
Local Open Scope Z_scope.

Section Boxes.
  Variable O : ops.
  Variable log_ : num O -> num O.
  Variable rnd : nat -> num O.
  Variable c : config O.
  Hypothesis L : tlaws O.
  Hypothesis Hlife : nlt O (c_life O c) (nofZ O 0) = false.
  Local Notation n_ := (nofZ O).
  Local Notation node := (node O).
  Local Notation forest := (forest O).
  Local Notation coarse := (coarse O).
  Local Notation fr := (fr O).
  Local Notation nodes := (nodes O).
  Local Notation roots := (roots O).
  Local Notation get := (get O).
  Local Notation put := (put O).
  Local Notation avail := (avail O).
  Local Notation tau := (tau O).
  Local Notation available := (available O).
  Local Notation counters := (counters O).
  Local Notation fc := (c_features O c).
  Local Notation lc := (c_labels O c).
  Local Notation nc := (c_nodes O c).
  Local Notation life := (c_life O c).
  Local Notation ctree := (ctree O).
  Local Notation ctop := (ctop O).
  Local Notation cids := (cids O).
  Local Notation stored := (stored O fc lc).
  Local Notation relink := (relink O).
  Local Notation blank_node := (blank_node O c).
  Local Notation cpool := (cpool O c).
  Local Notation same := (same O).
  Local Notation above := (above O).
  Local Notation zeros := (repeat 0 (Z.to_nat lc)).
  Variable k : Z.
  Variable lim : res Z.
  Variable x : list (num O).
  Variable label : Z.
  Hypothesis Hn : 0 < nc.
  Local Notation before := (before O c k lim).
  Local Notation during := (during O).
  Local Notation during_a := (during_a O).
  Local Notation during_b := (during_b O).
  Local Notation during_i := (during_i O).
  Local Notation during_get := (during_get O).
  Local Notation during_same := (during_same O).
  Local Notation during_link := (during_link O).
  Lemma take_visit_box : forall d v dl s i acc s' rm, take_visit O c d v dl s i acc = Ok (s', rm) -> exists cs, change O s i (fun n => Ok (set_counters O n cs)) = Ok s'.
  Proof. intros d v dl s i acc s' rm H. unfold take_visit in H. inv_bind H. inv_bind H. inv_bind H. inv_bind H. destruct v3 as [cs tr]. inv_bind H. injection H as <- <-. eauto. Qed.
  (** The box of a node. *)
  Definition box (n : node) : list (option (num O)) * list (option (num O)) := (bound_lower O n, bound_upper O n).
  (** The two parts of the box of [n] cut at [v]; [left] is the side of the first part. *)
  Definition parts (n : node) (d : Z) (v : num O) (left : bool) (m1 m2 : list (option (num O)) * list (option (num O))) : Prop :=
    if left then fst m1 = bound_lower O n /\ wr (bound_upper O n) d (Some v) = Ok (snd m1) /\ wr (bound_lower O n) d (Some v) = Ok (fst m2) /\ snd m2 = bound_upper O n
    else snd m1 = bound_upper O n /\ wr (bound_lower O n) d (Some v) = Ok (fst m1) /\ wr (bound_upper O n) d (Some v) = Ok (snd m2) /\ fst m2 = bound_lower O n.

  Lemma split_at_boxes : forall s p i cs rest D d v time s' n, before s p (CLeaf i cs) rest D -> nlt O time (n_ 0) = false -> get s i = Ok n ->
    split_at O rnd c s i k d v time x label = Ok s' ->
    exists a b (left : bool) xd na nb ni m1 m2 l1 u1, rd x d = Ok xd /\ get s' a = Ok na /\ get s' b = Ok nb /\ get s' i = Ok ni /\ parent O ni = a /\ parent O nb = a /\ split_dimension O na = d /\ split_value O na = Some v /\
      child_left O na = (if left then i else b) /\ child_right O na = (if left then b else i) /\ is_leaf O ni = true /\ is_leaf O nb = true /\
      hull_box O c n x = Ok (box na) /\ parts n d v left m1 m2 /\ clip O d v left (set_box O n (fst m1) (snd m1)) = Ok (set_box O n l1 u1) /\
      (if Bool.eqb left (nlt O v xd) then box ni = (l1, u1) /\ hull_box O c (set_box O n (fst m2) (snd m2)) x = Ok (box nb)
       else hull_box O c (set_box O n l1 u1) x = Ok (box ni) /\ box nb = m2).
  Proof.
      intros s p i cs rest D d v time s' n' Bf Ht Gn H. pose proof Bf as [H1 [H2 [H3 [H4 H5]]]]. pose proof H2 as [P1 [P2 [P3 [P4 [P5 P6]]]]]. pose proof (nodup_app _ _ _ P2) as [Nr [Nt Nrt]].
      destruct (stored_node O c _ (fr s) p H1) as [n [M1 [M2 [M3 [M4 [M5 M6]]]]]]. cbn [Coarse_Spec.ctop top_counters] in M1, M3. destruct H1 as [n0 [Q1 [_ [_ [_ [_ [Q2 [Q3 Q4]]]]]]]]. cbn [Coarse_Spec.ctop] in Q1. assert (n0 = n) by congruence. subst n0. clear Q1. assert (n' = n) by (change (get s i = Ok n) in M1; congruence). subst n'.
      unfold split_at in H. inv_bind H. destruct v0 as [a s1]. rename E into E1. inv_bind H. rename v0 into s2, E into E2. inv_bind H. destruct v0 as [b s3]. rename E into E3. inv_bind H. rename v0 into s4, E into E4.
      apply available_node_inv in E1. destruct E1 as [[-> ->]|[na [Ha [Aa ->]]]].
      { apply change_inv in E2. destruct E2 as [m [m' [A1 _]]]. unfold Coarse_Model.get in A1. rewrite rd_oob in A1 by lia. discriminate. }
      pose proof (P6 a na Ha Aa) as ->. apply change_inv in E2. destruct E2 as [m [m' [A1 [A2 X2]]]]. assert (m = blank_node) by (change (get s a = Ok m) in A1; congruence). subst m. injection A2 as <-.
      assert (G2 : forall j, get s2 j = if a =? j then Ok (set_tau O blank_node time) else get s j) by (intros j; subst s2; rewrite (get_put O _ a _ _ j A1); reflexivity).
      assert (F2 : roots (fr s2) = roots (fr s) /\ length (nodes (fr s2)) = length (nodes (fr s)) /\ same s s2 /\ avail s2 = avail s) by (subst s2; split; [reflexivity|split; [apply put_length|split; [repeat split|reflexivity]]]). clear X2.
      apply available_node_inv in E3. destruct E3 as [[-> ->]|[nb [Hb2 [Ab ->]]]].
      { apply change_inv in E4. destruct E4 as [m [m' [B1 _]]]. unfold Coarse_Model.get in B1. rewrite rd_oob in B1 by lia. discriminate. }
      assert (Hab : a <> b /\ get s b = Ok blank_node).
      { rewrite G2 in Hb2. destruct (Z.eqb_spec a b) as [->|Nab].
        - injection Hb2 as <-. exfalso. assert (X : available (set_tau O blank_node time) = false) by (eapply used; eauto). congruence.
        - split; [exact Nab|]. rewrite Hb2. f_equal. now apply (P6 b). }
      destruct Hab as [Nab Hb].
      assert (Free : forall j, In j (rest ++ [i]) -> j <> a /\ j <> b).
      { intros j Hj. split; intros ->; [apply (P4 a _ Ha) in Hj|apply (P4 b _ Hb) in Hj]; rewrite blank_free in Hj; auto; discriminate. }
      destruct (Free i) as [Nia Nib]; [apply in_or_app; right; now left|].
      assert (Np : p <> a /\ p <> b /\ p <> i).
      { pose proof (rd_bounds _ _ _ _ Ha) as Ba. pose proof (rd_bounds _ _ _ _ Hb) as Bb. pose proof (rd_bounds _ _ _ _ M1) as Bi. destruct H4 as [[-> _]|[Np Ip]]; [lia|]. destruct (Free p) as [F F']; [apply in_or_app; now left|]. split; [exact F|]. split; [exact F'|]. intros ->. apply (Nrt i); [exact Ip|now left]. }
      destruct Np as [Npa [Npb Npi]].
      assert (D3 : during s a b i p k (with_last O s2 b) (set_tau O blank_node time) blank_node n false).
      { destruct F2 as [F21 [F22 [F23 F24]]]. split; [|split; [exact F21|split; [exact F22|eapply same_trans; [exact F23|repeat split]]]]. intros j. change (get (with_last O s2 b) j) with (get s2 j). rewrite G2, (Z.eqb_sym a j). cbn [andb].
        destruct (Z.eqb_spec j b) as [->|Njb]; [rewrite (proj2 (Z.eqb_neq b a)) by congruence; exact Hb|]. destruct (j =? a); [reflexivity|]. destruct (Z.eqb_spec j i) as [->|Nji]; [exact M1|reflexivity]. }
      assert (V3 : avail (with_last O s2 b) = avail s) by (apply F2). clear G2 F2 A1 Hb2 Ab Aa. set (s3 := with_last O s2 b) in *. clearbody s3. clear s2.
      assert (Nai : a <> i) by congruence. assert (Nbi : b <> i) by congruence.
      destruct (during_b s a b i p k s3 _ _ _ _ _ _ D3 E4) as [nb4 [T4 [D4 V4]]]. injection T4 as <-.
      set (s4' := with_avail O s4 (avail s4 - 2)) in H. assert (D4' : during s a b i p k s4' (set_tau O blank_node time) (set_tau O blank_node life) n false) by (apply (during_same s a b i p k s4); [exact D4|reflexivity|reflexivity|repeat split]).
      assert (V4' : avail s4' = avail s - 2) by (unfold s4'; cbn; lia). clearbody s4'. clear D4 V4 D3 V3 E4.
      destruct (during_get s a b i p k Nab Nai Nbi _ _ _ _ _ D4') as [_ [_ Gi]]. rewrite Gi in H. cbn [bind] in H. inv_bind H. destruct v0 as [lo0 hi0]. rename E into Eh. inv_bind H. rename v0 into s5, E into E5. inv_bind H. rename v0 into s6, E into E6.
      destruct (during_a s a b i p k Nab _ _ _ _ _ _ _ D4' E5) as [na5 [T5 [D5 V5]]]. injection T5 as <-.
      destruct (during_b s a b i p k s5 _ _ _ _ _ _ D5 E6) as [nb6 [T6 [D6 V6]]]. injection T6 as <-. clear D4' D5 E5 E6.
      inv_bind H. rename v0 into root, E into Er. inv_bind H. rename v0 into s7, E into E7.
      destruct (during_link s a b i p k Nai Npa Npb Npi s6 _ _ _ root s7 D6) as [D7 V7]; [destruct H4 as [H4|[H4 _]]; auto|exact Er|exact M2|exact E7|]. clear D6 Er E7.
      inv_bind H. destruct v0 as [s8 [cl cr]]. rename E into E8. apply count_sides_drawn in E8. destruct E8 as [X1 [X2 [X3 X4]]]. pose proof (during_same s a b i p k _ _ _ _ _ _ D7 X1 X2 X4) as D8. clear D7 X1 X2 X4.
      set (left := cr <? cl) in *. inv_bind H. rename v0 into s9, E into E9. destruct (during_a s a b i p k Nab _ _ _ _ _ _ _ D8 E9) as [na9 [T9 [D9 V9]]]. injection T9 as <-. clear D8 E9.
      inv_bind H. rename v0 into s10, E into E10. destruct (during_i s a b i p k Nai Nbi _ _ _ _ _ _ _ D9 E10) as [ni10 [T10 [D10 V10]]]. clear D9 E10.
      inv_bind H. rename v0 into s11, E into E11. destruct (during_b s a b i p k _ _ _ _ _ _ _ D10 E11) as [nb11 [T11 [D11 V11]]]. clear D10 E11.
      assert (B10 : exists m1, ni10 = set_box O n (fst m1) (snd m1) /\ if left then fst m1 = bound_lower O n /\ wr (bound_upper O n) d (Some v) = Ok (snd m1) else snd m1 = bound_upper O n /\ wr (bound_lower O n) d (Some v) = Ok (fst m1)).
      { clear -T10. destruct left; inv_bind T10; injection T10 as <-; [exists (bound_lower O n, v0)|exists (v0, bound_upper O n)]; (split; [reflexivity|]); auto. }
      destruct B10 as [m1 [-> Cut]].
      assert (B11 : exists m2, nb11 = set_box O (set_counters O (set_box O (set_tau O blank_node life) (bound_lower O n) (bound_upper O n)) zeros) (fst m2) (snd m2) /\ if left then wr (bound_lower O n) d (Some v) = Ok (fst m2) /\ snd m2 = bound_upper O n else wr (bound_upper O n) d (Some v) = Ok (snd m2) /\ fst m2 = bound_lower O n).
      { clear -T11. cbn [bound_lower bound_upper set_counters set_box] in T11. destruct left; inv_bind T11; injection T11 as <-; [exists (v0, bound_upper O n)|exists (bound_lower O n, v0)]; (split; [reflexivity|]); auto. }
      destruct B11 as [m2 [-> Cut2]]. clear T10 T11.
      destruct (during_get s a b i p k Nab Nai Nbi _ _ _ _ _ D11) as [_ [_ Gi11]]. rewrite Gi11 in H. cbn [bind] in H.
      inv_bind H. rename v0 into s12, E into E12. destruct (during_a s a b i p k Nab _ _ _ _ _ _ _ D11 E12) as [na12 [T12 [D12 V12]]]. injection T12 as <-. clear D11 E12 Gi11.
      inv_bind H. rename v0 into s13, E into E13. destruct (during_i s a b i p k Nai Nbi _ _ _ _ _ _ _ D12 E13) as [ni13 [T13 [D13 V13]]]. injection T13 as <-. clear D12 E13.
      inv_bind H. rename v0 into s14, E into E14. destruct (during_b s a b i p k _ _ _ _ _ _ _ D13 E14) as [nb14 [T14 [D14 V14]]]. injection T14 as <-. clear D13 E14.
      inv_bind H. clear E. inv_bind H. clear E. inv_bind H. destruct v2 as [fa fb]. clear E. inv_bind H. rename v2 into fo1, E into EF1. inv_bind H. rename v2 into fo2, E into EF2. inv_bind H. rename v2 into fo3, E into EF3.
      assert (LF : length fo3 = length (forced O s14)) by (apply wr_length in EF1, EF2, EF3; congruence). clear EF1 EF2 EF3. set (s15 := with_forced O s14 fo3) in H.
      assert (V15 : avail s15 = avail s - 2) by (unfold s15; cbn [Coarse_Model.avail with_forced]; lia).
      pose proof (during_same s a b i p k s14 _ _ _ _ s15 D14 eq_refl eq_refl ltac:(repeat split; exact LF)) as D15. clearbody s15. clear D14 LF.
      clear V14 V13 V12 V11 V10 V9 X3 V7 V6 V5 V4' s14 s13 s12 s11 s10 s9 s8 s7 s6 s5 s4 s3 fo1 fo2 fo3 fa fb.
      (* the counters *)
      inv_bind H. destruct v2 as [s16 rm]. rename E into E16. inv_bind H. rename v2 into s17, E into E17. inv_bind H. rename v2 into s18, E into E18. inv_bind H. rename v2 into xd, E into Ex. inv_bind H. rename v2 into pa, E into Epa.
      destruct (during_get s a b i p k Nab Nai Nbi _ _ _ _ _ D15) as [_ [_ Gi15]].
      assert (Lf15 : is_leaf O (set_parent O (set_box O n (fst m1) (snd m1)) a) = true) by exact M6.
      unfold adjust_counters in E16. inv_bind E16. destruct v2 as [z r]. injection E16 as ->. rename E into E16. apply walk_leaf with (n := set_parent O (set_box O n (fst m1) (snd m1)) a) in E16; auto. cbn [snd] in E16.
      apply take_visit_box in E16. destruct E16 as [cs1 C16].
      destruct (during_i s a b i p k Nai Nbi _ _ _ _ _ _ _ D15 C16) as [ni16 [T16 [D16 V16]]]. injection T16 as <-. clear D15 C16.
      destruct (during_b s a b i p k _ _ _ _ _ _ _ D16 E17) as [nb17 [T17 [D17 V17]]]. inv_bind T17. rename v2 into cs2. injection T17 as <-. clear D16 E17 E.
      destruct (during_get s a b i p k Nab Nai Nbi _ _ _ _ _ D17) as [_ [_ Gi17]]. apply boxes_leaf with (n := set_counters O (set_parent O (set_box O n (fst m1) (snd m1)) a) cs1) in E18; [|exact Hn|exact Gi17|exact M6].
      destruct (during_i s a b i p k Nai Nbi _ _ _ _ _ _ _ D17 E18) as [ni18 [T18 [D18 V18]]].
      assert (T18' : exists l1 u1, ni18 = set_box O (set_counters O (set_parent O (set_box O n (fst m1) (snd m1)) a) cs1) l1 u1 /\ clip O d v left (set_box O n (fst m1) (snd m1)) = Ok (set_box O n l1 u1)).
      { clear -T18. unfold clip in T18 |- *. cbn [bound_lower bound_upper set_counters set_parent set_box] in T18 |- *. inv_bind T18. rewrite E. cbn [bind]. inv_bind T18. rewrite E0. cbn [bind]. inv_bind T18. rewrite E1. cbn [bind]. inv_bind T18. rewrite E2. cbn [bind]. injection T18 as <-. exists v3, v1. split; reflexivity. }
      destruct T18' as [l1 [u1 [-> Ecl]]]. clear D17 E18 Gi17 T18.
      destruct (during_get s a b i p k Nab Nai Nbi _ _ _ _ _ D18) as [Ga18 [Gb18 _]]. rewrite Ga18 in Epa. injection Epa as <-.
      set (na' := set_parent O _ _) in Ga18. fold na' in H, D18. set (ni0 := set_box O _ l1 u1) in D18. set (nb0 := set_counters O _ cs2) in D18.
      assert (Ech : (if nlt O v xd then child_right O na' else child_left O na') = if Bool.eqb left (nlt O v xd) then b else i).
      { unfold na'. destruct (nlt O v xd), left; reflexivity. }
      rewrite Ech in H. clear Ech.
      assert (Pa : split_dimension O na' = d /\ split_value O na' = Some v /\ child_left O na' = (if left then i else b) /\ child_right O na' = (if left then b else i) /\ box na' = (lo0, hi0)) by (unfold na'; destruct left; repeat split).
      assert (Pp : parts n d v left m1 m2) by (unfold parts; destruct left, Cut, Cut2; auto).
      destruct Pa as [Pa1 [Pa2 [Pa3 [Pa4 Pa5]]]]. clearbody na'.
      unfold fuel in H. cbn [pass_data_point_down] in H. inv_bind H. rename v2 into s19, E into E19. exists a, b, left, xd, na'. destruct (Bool.eqb left (nlt O v xd)).
      - destruct (during_b s a b i p k _ _ _ _ _ _ _ D18 E19) as [nb19 [T19 [D19 V19]]]. inv_bind T19. destruct v2 as [l2 u2]. injection T19 as <-. destruct (during_get s a b i p k Nab Nai Nbi _ _ _ _ _ D19) as [_ [Gb19 _]]. rewrite Gb19 in H. cbn [bind] in H.
        change (is_leaf O (set_box O nb0 l2 u2)) with true in H. cbv iota in H. apply (add_leaf_inv O x label) in H. destruct H as [m [G20 [B20 [s20 [C20 [Y1 [Y2 [Y3 Y4]]]]]]]]. assert (m = set_box O nb0 l2 u2) by congruence. subst m.
        destruct (during_b s a b i p k _ _ _ _ _ _ _ D19 C20) as [nb20 [T20 [D20 V20]]]. injection T20 as <-. pose proof (during_same s a b i p k _ _ _ _ _ _ D20 Y1 Y2 Y3) as Df.
        destruct (during_get s a b i p k Nab Nai Nbi _ _ _ _ _ Df) as [Gaf [Gbf Gif]]. eexists. eexists. exists m1, m2, l1, u1.
        split; [exact Ex|]. split; [exact Gaf|]. split; [exact Gbf|]. split; [exact Gif|]. split; [reflexivity|]. split; [reflexivity|]. do 4 (split; [assumption|]). split; [exact M6|]. split; [reflexivity|].
        split; [rewrite Pa5; exact Eh|]. split; [exact Pp|]. split; [exact Ecl|]. split; [reflexivity|]. exact E.
      - destruct (during_i s a b i p k Nai Nbi _ _ _ _ _ _ _ D18 E19) as [ni19 [T19 [D19 V19]]]. inv_bind T19. destruct v2 as [l2 u2]. injection T19 as <-. destruct (during_get s a b i p k Nab Nai Nbi _ _ _ _ _ D19) as [_ [_ Gi19]]. rewrite Gi19 in H. cbn [bind] in H.
        change (is_leaf O (set_box O ni0 l2 u2)) with (is_leaf O n) in H. rewrite M6 in H. apply (add_leaf_inv O x label) in H. destruct H as [m [G20 [B20 [s20 [C20 [Y1 [Y2 [Y3 Y4]]]]]]]]. assert (m = set_box O ni0 l2 u2) by congruence. subst m.
        destruct (during_i s a b i p k Nai Nbi _ _ _ _ _ _ _ D19 C20) as [ni20 [T20 [D20 V20]]]. injection T20 as <-. pose proof (during_same s a b i p k _ _ _ _ _ _ D20 Y1 Y2 Y3) as Df.
        destruct (during_get s a b i p k Nab Nai Nbi _ _ _ _ _ Df) as [Gaf [Gbf Gif]]. eexists. eexists. exists m1, m2, l1, u1.
        split; [exact Ex|]. split; [exact Gaf|]. split; [exact Gbf|]. split; [exact Gif|]. split; [reflexivity|]. split; [reflexivity|]. do 4 (split; [assumption|]). split; [exact M6|]. split; [reflexivity|].
        split; [rewrite Pa5; exact Eh|]. split; [exact Pp|]. split; [exact Ecl|]. split; [exact E|]. now destruct m2.
  Qed.
End Boxes.
