(** * Proofs for the coarse Mondrian forest: cutting a leaf, and updating the counters *)
From Coq Require Import ZArith List Bool Lia Permutation.
From Verif Require Import CppBase CppFacts NumOps Utils_Model Mondrian_Model Mondrian_Spec Mondrian_Proofs Coarse_Model Coarse_Spec Coarse_Heap Coarse_Walk Coarse_Train.
Import ListNotations.
Local Open Scope Z_scope.

(** [cut j t t']: the leaf [j] and its parent are gone from [t']. *)
Inductive cut (O : ops) (j : Z) : ctree O -> ctree O -> Prop :=
| cut_here : forall left i d v cs cj u, cut O j (fork_side O left i d v cs u (CLeaf j cj)) u
| cut_left : forall i d v cs l l' r, cut O j l l' -> cut O j (CFork i d v cs l r) (CFork i d v cs l' r)
| cut_right : forall i d v cs l r r', cut O j r r' -> cut O j (CFork i d v cs l r) (CFork i d v cs l r').
(** Only the counters of internal nodes differ. *)
Inductive alike (O : ops) : ctree O -> ctree O -> Prop :=
| alike_leaf : forall i cs, alike O (CLeaf i cs) (CLeaf i cs)
| alike_fork : forall i d v cs cs' l l' r r', alike O l l' -> alike O r r' -> alike O (CFork i d v cs l r) (CFork i d v cs' l' r').

Section Trim.
  Variable O : ops.
  Variable log_ : num O -> num O.
  Variable rnd : nat -> num O.
  Variable c : config O.
  Hypothesis L : tlaws O.
  Hypothesis Hlife : nlt O (c_life O c) (nofZ O 0) = false.
  Local Notation n_ := (nofZ O).
  Local Notation node := (node O).
  Local Notation forest := (forest O).
  Local Notation coarse := (coarse O).
  Local Notation fr := (fr O).
  Local Notation nodes := (nodes O).
  Local Notation roots := (roots O).
  Local Notation get := (get O).
  Local Notation put := (put O).
  Local Notation avail := (avail O).
  Local Notation tau := (tau O).
  Local Notation available := (available O).
  Local Notation counters := (counters O).
  Local Notation fc := (c_features O c).
  Local Notation lc := (c_labels O c).
  Local Notation nc := (c_nodes O c).
  Local Notation ctree := (ctree O).
  Local Notation ctop := (ctop O).
  Local Notation cids := (cids O).
  Local Notation cleaves := (cleaves O).
  Local Notation height := (height O).
  Local Notation stored := (stored O fc lc).
  Local Notation relink := (relink O).
  Local Notation blank_node := (blank_node O c).
  Local Notation cpool := (cpool O c).
  Local Notation arrays := (arrays O c).
  Local Notation same := (same O).

  Lemma alike_refl : forall t, alike O t t.
  Proof. induction t; constructor; auto. Qed.
  Lemma alike_trans : forall a b d, alike O a b -> alike O b d -> alike O a d.
  Proof. intros a b d H. revert d. induction H; intros e H2; inversion H2; subst; constructor; auto. Qed.
  Lemma alike_facts : forall t t', alike O t t' -> ctop t' = ctop t /\ cids t' = cids t /\ cleaves t' = cleaves t /\ height t' = height t.
  Proof.
    intros t t' H. induction H as [|i d v cs cs' l l' r r' Hl [L1 [L2 [L3 L4]]] Hr [R1 [R2 [R3 R4]]]]; [auto|]. cbn. rewrite L2, L3, L4, R2, R3, R4. auto.
  Qed.
  Lemma cut_facts : forall j t t', cut O j t t' -> height t' <= height t /\ exists i, Permutation (cids t) (i :: j :: cids t').
  Proof.
    intros j t t' H. induction H as [left i d v cs cj u|i d v cs l l' r H [H1 [q H2]]|i d v cs l r r' H [H1 [q H2]]].
    - pose proof (height_pos O u). split; [unfold fork_side; destruct left; cbn [Coarse_Spec.height]; lia|]. exists i. unfold fork_side. destruct left; cbn [Coarse_Spec.cids]; apply perm_skip; [symmetry; apply Permutation_cons_append|apply Permutation_refl].
    - cbn [Coarse_Spec.height Coarse_Spec.cids]. split; [lia|]. exists q. rewrite H2. cbn [app]. apply Permutation_trans with (q :: i :: j :: cids l' ++ cids r); [apply perm_swap|apply perm_skip, perm_swap].
    - cbn [Coarse_Spec.height Coarse_Spec.cids]. split; [lia|]. exists q. rewrite H2. apply Permutation_trans with (i :: q :: j :: cids l ++ cids r').
      + apply perm_skip. change (Permutation (cids l ++ [q; j] ++ cids r') ([q; j] ++ cids l ++ cids r')). rewrite !app_assoc. apply Permutation_app_tail, Permutation_app_comm.
      + apply Permutation_trans with (q :: i :: j :: cids l ++ cids r'); [apply perm_swap|apply perm_skip, perm_swap].
  Qed.
  Lemma cut_leaf : forall j t t', cut O j t t' -> exists cj, In (j, cj) (cleaves t).
  Proof.
    intros j t t' H. induction H as [left i d v cs cj u|i d v cs l l' r H [cj I]|i d v cs l r r' H [cj I]]; exists cj; [|apply in_or_app; auto ..].
    unfold fork_side. destruct left; cbn; [apply in_or_app; right; now left|now left].
  Qed.

  Lemma cpool_untwo : forall s s' u a b, cpool s (a :: b :: u) -> get s' a = Ok blank_node -> get s' b = Ok blank_node ->
    (forall j n', j <> a -> j <> b -> get s' j = Ok n' -> exists n, get s j = Ok n /\ available n' = available n /\ (available n = true -> n' = n)) ->
    length (nodes (fr s')) = length (nodes (fr s)) -> avail s' = avail s + 2 -> cpool s' u.
  Proof.
    intros s s' u a b [P1 [P2 [P3 [P4 [P5 P6]]]]] Ha Hb Ho Ln Av. apply NoDup_cons_iff in P2. destruct P2 as [Na P2]. apply NoDup_cons_iff in P2. destruct P2 as [Nb Nu].
    split; [lia|]. split; [exact Nu|]. split; [intros j Hj; apply P3; now right; right|]. split; [|split; [cbn [length] in P5; lia|]].
    - intros j n' Hj. destruct (Z.eq_dec j a) as [->|Nja].
      { assert (n' = blank_node) by congruence. subst. rewrite blank_free by exact L. split; [intros I; elim Na; now right|discriminate]. }
      destruct (Z.eq_dec j b) as [->|Njb]. { assert (n' = blank_node) by congruence. subst. rewrite blank_free by exact L. split; [contradiction|discriminate]. }
      destruct (Ho j n' Nja Njb Hj) as [n [Hn [A _]]]. rewrite A, <- (P4 j n Hn). cbn [In]. intuition congruence.
    - intros j n' Hj A. destruct (Z.eq_dec j a) as [->|Nja]; [congruence|]. destruct (Z.eq_dec j b) as [->|Njb]; [congruence|]. destruct (Ho j n' Nja Njb Hj) as [n [Hn [A' E]]].
      rewrite E by congruence. apply (P6 j n Hn). congruence.
  Qed.

  Section Cut.
    Variable k : Z.
    Variable lim : res Z.
    Local Notation before := (before O c k lim).
    Local Notation after := (after O c k).
    Definition grandparent (s : coarse) (p i : Z) : Prop := p = -1 \/ exists g, get s p = Ok g /\ child_left O g <> child_right O g /\ (child_left O g = i \/ child_right O g = i).
    Lemma cut_top : forall left i d v cs cj j u s p rest D s', let t := fork_side O left i d v cs u (CLeaf j cj) in
      before s p t rest D -> grandparent s p i -> arrays s -> cut_block O c s j k = Ok s' -> after s s' p t u rest.
    Proof.
      intros left i d v cs cj j u s p rest D s' t [H1 [H2 [H3 [H4 H5]]]] Gp Ar H.
      assert (Pt : Permutation (cids t) (i :: j :: cids u)). { unfold t, fork_side. destruct left; cbn [Coarse_Spec.cids]; apply perm_skip; [symmetry; apply Permutation_cons_append|apply Permutation_refl]. }
      assert (Tt : ctop t = i) by (unfold t, fork_side; destruct left; reflexivity).
      pose proof H2 as [P1 [P2 [P3 [P4 [P5 P6]]]]]. pose proof (nodup_app _ _ _ P2) as [Nr [Nt Nrt]].
      assert (Nt' : NoDup (i :: j :: cids u)) by (eapply Permutation_NoDup; eauto). apply NoDup_cons_iff in Nt'. destruct Nt' as [Ni Nt']. apply NoDup_cons_iff in Nt'. destruct Nt' as [Nj Nu].
      assert (Nij : i <> j) by (intros ->; apply Ni; now left).
      assert (Iu : forall q, In q (cids u) -> q <> i /\ q <> j) by (intros q Hq; split; intros ->; [apply Ni; now right|now apply Nj]). pose proof (Iu _ (ctop_in O u)) as [Nui Nuj].
      assert (Ir : forall q, In q rest -> q <> i /\ q <> j /\ ~ In q (cids u)).
      { intros q Hq. assert (Nq : ~ In q (cids t)) by (intros I; now apply (Nrt q)). repeat split; [intros ->|intros ->|intros I]; apply Nq; apply Permutation_in with (i :: j :: cids u); try (symmetry; exact Pt); cbn [In]; auto. }
      assert (Pos : forall q, In q (rest ++ cids t) -> 0 <= q < nc) by exact P3.
      assert (Up : exists np nj, get s i = Ok np /\ parent O np = p /\ get s j = Ok nj /\ parent O nj = i /\ is_leaf O nj = true /\ stored (fr s) i u /\
        (if child_right O np =? j then child_left O np else child_right O np) = ctop u).
      { unfold t, fork_side in H1. destruct left; destruct H1 as [np [M1 [M2 [M3 [M4 [M5 [M6 [M7 [M8 [M9 [M10 [M11 M12]]]]]]]]]]]].
        - destruct M12 as [nj [Q1 [Q2 [Q3 [Q4 [Q5 [Q6 Q7]]]]]]]. exists np, nj. repeat (split; [assumption|]). split; [unfold is_leaf; now rewrite Q6|]. split; [exact M11|].
          cbn [Coarse_Spec.ctop] in M10. now rewrite M10, Z.eqb_refl.
        - destruct M11 as [nj [Q1 [Q2 [Q3 [Q4 [Q5 [Q6 Q7]]]]]]]. exists np, nj. repeat (split; [assumption|]). split; [unfold is_leaf; now rewrite Q6|]. split; [exact M12|].
          rewrite M10, (proj2 (Z.eqb_neq (ctop u) j)) by exact Nuj. reflexivity. }
      destruct Up as [np [nj [Gi [Pp [Gj [Pj [Lj [Su Sib]]]]]]]]. unfold cut_block in H. rewrite Gj in H. cbn [bind] in H. rewrite Pj, Gi in H. cbn [bind] in H. rewrite Sib, Pp in H. clear Sib.
      destruct (stored_node O c u (fr s) i Su) as [nu [Gu [Pu _]]]. change (get s (ctop u) = Ok nu) in Gu.
      (* it is enough to say what the nodes are *)
      assert (Fin : roots (fr s') = (if p =? -1 then upd (roots (fr s)) (Z.to_nat k) (ctop u) else roots (fr s)) -> same s s' -> length (nodes (fr s')) = length (nodes (fr s)) -> avail s' = avail s + 2 ->
        (forall q, get s' q = if q =? i then Ok blank_node else if q =? j then Ok blank_node else if q =? ctop u then Ok (set_parent O nu p) else if q =? p then do m <- get s q; Ok (relink i (ctop u) m) else get s q) ->
        after s s' p t u rest).
      { intros R S Ln Av G. assert (Up' : forall q, In q (cids u) -> q <> p).
        { intros q Hq ->. destruct H4 as [[-> _]|[_ Ip]]; [|destruct (Ir p Ip) as [_ [_ X]]; contradiction]. assert (X : In (-1) (rest ++ cids t)) by (apply in_or_app; right; apply Permutation_in with (i :: j :: cids u); [now symmetry|cbn; auto]). apply Pos in X. lia. }
        split; [|split; [|split; [|split; [exact R|exact S]]]].
        - apply stored_reparent with (fr s) i nu; auto.
          + change (get s' (ctop u) = Ok (set_parent O nu p)). rewrite G, (proj2 (Z.eqb_neq (ctop u) i)), (proj2 (Z.eqb_neq (ctop u) j)), Z.eqb_refl by auto. reflexivity.
          + intros q Hq Nq. change (get s' q = get s q). destruct (Iu q Hq) as [A B]. rewrite G, (proj2 (Z.eqb_neq q i)), (proj2 (Z.eqb_neq q j)), (proj2 (Z.eqb_neq q (ctop u))), (proj2 (Z.eqb_neq q p)) by auto. reflexivity.
        - apply cpool_untwo with s i j; auto.
          + eapply cpool_perm; [|exact H2]. rewrite Pt. change (i :: j :: rest ++ cids u) with ([i; j] ++ rest ++ cids u). change (i :: j :: cids u) with ([i; j] ++ cids u). rewrite !app_assoc. apply Permutation_app_tail, Permutation_app_comm.
          + now rewrite G, Z.eqb_refl.
          + now rewrite G, (proj2 (Z.eqb_neq j i)), Z.eqb_refl by congruence.
          + intros q n' N1 N2. rewrite G, (proj2 (Z.eqb_neq q i)), (proj2 (Z.eqb_neq q j)) by auto. destruct (Z.eqb_spec q (ctop u)) as [->|N3].
            { intros X. injection X as <-. exists nu. split; [exact Gu|]. split; [reflexivity|]. intros X. assert (Y : available nu = false).
              { apply (P4 (ctop u) nu Gu), in_or_app. right. apply Permutation_in with (i :: j :: cids u); [now symmetry|right; right; apply ctop_in]. } congruence. }
            destruct (Z.eqb_spec q p) as [->|N4].
            { destruct H4 as [[-> _]|[Np Ip]]; [unfold Coarse_Model.get; rewrite rd_oob by lia; discriminate|]. destruct (get s p) as [m| | |] eqn:Gm; cbn [bind]; try discriminate.
              intros X. injection X as <-. exists m. destruct (relink_fields O i (ctop u) m) as [F1 _]. split; [reflexivity|]. split; [unfold Mondrian_Model.available; now rewrite F1|].
              intros X. assert (Y : available m = false) by (apply (P4 p m Gm), in_or_app; now left). congruence. }
            intros X. exists n'. auto.
        - intros q Hq. destruct (Ir q Hq) as [A [B C]]. rewrite G, Tt, (proj2 (Z.eqb_neq q i)), (proj2 (Z.eqb_neq q j)) by auto. rewrite (proj2 (Z.eqb_neq q (ctop u))) by (intros ->; apply C, ctop_in). reflexivity. }
      assert (Sz : csize O (CLeaf j cj) <= nc). { unfold csize. cbn. specialize (Pos j). assert (X : In j (rest ++ cids t)) by (apply in_or_app; right; apply Permutation_in with (i :: j :: cids u); [now symmetry|cbn; auto]). apply Pos in X. lia. }
      assert (One : NoDup (cids (CLeaf j cj))) by (repeat constructor; intros []). pose proof (height_pos O (CLeaf j cj)) as Hh.
      destruct (Z.eqb_spec p (-1)) as [->|Np].
      - inv_bind H. rename v0 into s1, E into E1. inv_bind H. destruct v0 as [s2 b]. rename E into E2. inv_bind H. rename v0 into s3, E into E3.
        apply reset_inv in E1. destruct E1 as [m [fo [fa [A1 [A2 [A3 ->]]]]]]. set (s1 := with_avail O _ _) in E2.
        assert (G1 : forall q, get s1 q = if i =? q then Ok blank_node else get s q) by (intros; now apply get_put with m).
        assert (S1 : same s s1) by (repeat split; [exact A2|exact A3]).
        assert (Ar1 : arrays s1) by (destruct Ar as [Q1 [Q2 Q3]]; repeat split; [unfold s1; cbn [Coarse_Model.fr with_avail with_fading with_forced with_fr]; now rewrite put_length|unfold s1; cbn; now rewrite A2|unfold s1; cbn; now rewrite A3]).
        assert (Sh : shape O (fr s1) i (CLeaf j cj)) by (exists nj; split; [change (get s1 j = Ok nj); rewrite G1, (proj2 (Z.eqb_neq i j)) by congruence; exact Gj|auto]).
        destruct (node_reset_ok O c (CLeaf j cj) s1 i Sh Ar1 One Sz ltac:(cbn; lia)) as [s2' [E2' [F1 [F2 [F3 [F4 [F5 [F6 [F7 F8]]]]]]]]]. cbn [Coarse_Spec.ctop Coarse_Spec.cids] in *.
        assert (s2' = s2) by congruence. subst s2'. clear E2 E2'.
        unfold set_root in E3. inv_bind E3. injection E3 as <-. apply wr_inv in E. destruct E as [B0 ->].
        apply change_inv in H. destruct H as [m2 [m3 [C1 [C2 ->]]]]. injection C2 as <-.
        assert (Eu : get s2 (ctop u) = Ok nu). { rewrite F3 by (intros [X|[]]; congruence). rewrite G1, (proj2 (Z.eqb_neq i (ctop u))) by congruence. exact Gu. }
        assert (m2 = nu) by (change (get s2 (ctop u) = Ok m2) in C1; congruence). subst m2. apply Fin.
        + cbn [Coarse_Model.fr with_fr Mondrian_Model.roots Mondrian_Proofs.put]. rewrite F5. reflexivity.
        + eapply same_trans; [exact S1|]. eapply same_trans; [exact F8|]. repeat split.
        + cbn [Coarse_Model.fr with_fr]. rewrite put_length. cbn [Mondrian_Model.nodes]. rewrite F4. unfold s1. cbn [Coarse_Model.fr with_avail with_fading with_forced with_fr]. now rewrite put_length.
        + cbn [Coarse_Model.avail with_fr]. rewrite F1. cbn. lia.
        + intros q. rewrite (get_put O _ (ctop u) nu _ q C1). change (get (with_fr O s2 _) q) with (get s2 q).
          destruct (Z.eqb_spec q i) as [->|N1]. { rewrite (proj2 (Z.eqb_neq (ctop u) i)) by auto. rewrite F3 by (intros [X|[]]; congruence). now rewrite G1, Z.eqb_refl. }
          destruct (Z.eqb_spec q j) as [->|N2]. { rewrite (proj2 (Z.eqb_neq (ctop u) j)) by auto. apply F2. now left. }
          destruct (Z.eqb_spec q (ctop u)) as [->|N3]; [now rewrite Z.eqb_refl|]. rewrite (proj2 (Z.eqb_neq (ctop u) q)) by congruence.
          rewrite F3 by (intros [X|[]]; congruence). rewrite G1, (proj2 (Z.eqb_neq i q)) by congruence. destruct (Z.eqb_spec q (-1)) as [->|N4]; [|reflexivity]. unfold Coarse_Model.get. rewrite rd_oob by lia. reflexivity.
      - destruct H4 as [[X _]|[_ Ip]]; [contradiction|]. destruct (Ir p Ip) as [Npi [Npj Npu]]. assert (Nup : ctop u <> p) by (intros <-; apply Npu, ctop_in).
        inv_bind H. rename v0 into s1, E into E1. inv_bind H. rename v0 into s2, E into E2. inv_bind H. rename v0 into s3, E into E3. inv_bind H. destruct v0 as [s4 b]. rename E into E4. injection H as <-.
        apply change_inv in E1. destruct E1 as [g [g' [A1 [A2 ->]]]]. injection A2 as <-. set (s1 := with_fr O s _) in *. set (g' := if _ =? _ then _ else _) in *.
        assert (G1 : forall q, get s1 q = if p =? q then Ok g' else get s q) by (intros; now apply get_put with g).
        assert (Eg : g' = relink i (ctop u) g).
        { destruct Gp as [X|[g0 [X1 [X2 X3]]]]; [contradiction|]. assert (g0 = g) by congruence. subst g0. unfold g', Mondrian_Proofs.relink. rewrite (proj2 (Z.eqb_neq i (ctop u))) by congruence.
          destruct (Z.eqb_spec (child_right O g) i) as [E|N].
          - rewrite (proj2 (Z.eqb_neq (child_left O g) i)) by congruence. reflexivity.
          - destruct X3 as [X3|X3]; [|contradiction]. now rewrite X3, Z.eqb_refl. }
        apply change_inv in E2. destruct E2 as [m2 [m3 [B1 [B2 ->]]]]. injection B2 as <-.
        assert (m2 = nu) by (rewrite G1, (proj2 (Z.eqb_neq p (ctop u))) in B1 by congruence; congruence). subst m2. set (s2 := with_fr O s1 _) in *.
        assert (G2 : forall q, get s2 q = if ctop u =? q then Ok (set_parent O nu p) else get s1 q) by (intros; now apply get_put with nu).
        apply reset_inv in E3. destruct E3 as [m [fo [fa [C1 [C2 [C3 ->]]]]]]. set (s3 := with_fading O _ _) in *.
        assert (G3 : forall q, get s3 q = if i =? q then Ok blank_node else get s2 q) by (intros; now apply (get_put O (with_avail O s2 (avail s2 + 1)) i m)).
        assert (S3 : same s s3) by (repeat split; [exact C2|exact C3]).
        assert (L3 : length (nodes (fr s3)) = length (nodes (fr s))) by (unfold s3, s2, s1; cbn [Coarse_Model.fr with_avail with_fading with_forced with_fr]; now rewrite !put_length).
        assert (Ar3 : arrays s3) by (destruct Ar as [Q1 [Q2 Q3]]; repeat split; [now rewrite L3|unfold s3; cbn; cbn in C2; now rewrite C2|unfold s3; cbn; cbn in C3; now rewrite C3]).
        assert (Gj3 : get s3 j = Ok nj). { rewrite G3, (proj2 (Z.eqb_neq i j)), G2, (proj2 (Z.eqb_neq (ctop u) j)), G1, (proj2 (Z.eqb_neq p j)) by congruence. exact Gj. }
        assert (Sh : shape O (fr s3) i (CLeaf j cj)) by (exists nj; split; [exact Gj3|auto]).
        destruct (node_reset_ok O c (CLeaf j cj) s3 i Sh Ar3 One Sz ltac:(cbn; lia)) as [s4' [E4' [F1 [F2 [F3 [F4 [F5 [F6 [F7 F8]]]]]]]]]. cbn [Coarse_Spec.ctop Coarse_Spec.cids] in *.
        assert (s4' = s4) by congruence. subst s4'. clear E4 E4'. apply Fin.
        + rewrite F5. reflexivity.
        + eapply same_trans; [exact S3|exact F8].
        + congruence.
        + rewrite F1. cbn. lia.
        + intros q. destruct (Z.eqb_spec q i) as [->|N1]. { rewrite F3 by (intros [X|[]]; congruence). now rewrite G3, Z.eqb_refl. }
          destruct (Z.eqb_spec q j) as [->|N2]. { apply F2. now left. }
          rewrite F3 by (intros [X|[]]; congruence). rewrite G3, (proj2 (Z.eqb_neq i q)), G2 by congruence. destruct (Z.eqb_spec q (ctop u)) as [->|N3]; [now rewrite Z.eqb_refl|]. rewrite (proj2 (Z.eqb_neq (ctop u) q)) by congruence.
          rewrite G1. destruct (Z.eqb_spec q p) as [->|N4]; [|now rewrite (proj2 (Z.eqb_neq p q)) by congruence]. rewrite Z.eqb_refl, A1. cbn [bind]. now rewrite Eg.
    Qed.

    Lemma cut_ok : forall t s p rest D j s', before s p t rest D -> grandparent s p (ctop t) -> arrays s -> In j (map fst (cleaves t)) -> j <> ctop t ->
      cut_block O c s j k = Ok s' -> exists t', cut O j t t' /\ after s s' p t t' rest.
    Proof.
      induction t as [i cs|i d v cs l IHl r IHr]; intros s p rest D j s' Bf Gp Ar Ij Nj H; [destruct Ij as [X|[]]; cbn in *; congruence|].
      pose proof Bf as [H1 [H2 [H3 [H4 H5]]]]. pose proof H2 as [P1 [P2 [P3 _]]]. pose proof (nodup_app _ _ _ P2) as [Nr [Nt Nrt]]. cbn [Coarse_Spec.cids] in Nt. apply NoDup_cons_iff in Nt. destruct Nt as [Ni N'].
      pose proof (nodup_app _ _ _ N') as [Nl [Nr' Nlr]]. pose proof H1 as [n [M1 [M2 [M3 [M4 [M5 [B1 [B2 [B3 [B4 [B5 [B6 B7]]]]]]]]]]]]. cbn [Coarse_Spec.ctop] in *.
      assert (Gn : get s i = Ok n) by exact M1. assert (Bi : 0 <= i < nc) by (apply P3, in_or_app; right; now left).
      assert (Nlt : ctop l <> ctop r) by (intros E; apply (Nlr (ctop l)); [apply ctop_in|rewrite E; apply ctop_in]).
      assert (Gp' : forall q, q = ctop l \/ q = ctop r -> grandparent s i q). { intros q Hq. right. exists n. split; [exact Gn|]. rewrite B4, B5. split; [exact Nlt|]. destruct Hq as [->| ->]; auto. }
      assert (Inl : forall u, In j (map fst (cleaves u)) -> In j (cids u)).
      { induction u as [q cq|q dq vq cq a IHa b IHb]; cbn; [auto|]. rewrite map_app. intros X. right. apply in_app_or in X. apply in_or_app. tauto. }
      cbn [Coarse_Spec.cleaves] in Ij. rewrite map_app in Ij. apply in_app_or in Ij. destruct Ij as [Ij|Ij].
      - destruct l as [q cq|q dq vq cq a b].
        + destruct Ij as [E|[]]. cbn in E. subst q. exists r. split; [exact (cut_here O j false i d v cs cq r)|]. exact (cut_top false i d v cs cq j r s p rest D s' Bf Gp Ar H).
        + destruct (IHl s i (rest ++ i :: cids r) (D + 1) j s') as [l' [C A]]; auto.
          * split; [exact B6|]. split; [|split; [|split; [|exact H5]]].
            -- eapply cpool_perm; [|exact H2]. rewrite <- app_assoc. apply Permutation_app_head. cbn [app Coarse_Spec.cids]. apply perm_skip, (Permutation_app_comm (cids (CFork q dq vq cq a b))).
            -- apply above_up with n; auto; [apply in_or_app; right; now left|]. rewrite M2. now apply above_more.
            -- right. split; [lia|]. apply in_or_app. right. now left.
          * intros ->. cbn [Coarse_Spec.cids] in Nl. apply NoDup_cons_iff in Nl. destruct Nl as [X _]. apply X. cbn [Coarse_Spec.cleaves Coarse_Spec.ctop] in Ij. rewrite map_app in Ij. apply in_app_or in Ij. apply in_or_app.
            destruct Ij as [Ij|Ij]; [left|right].
            -- clear -Ij. cbn in Ij. induction a as [q0 cq0|q0 dq0 vq0 cq0 a1 IHa b1 IHb]; cbn in *; [auto|]. rewrite map_app in Ij. right. apply in_app_or in Ij. apply in_or_app. tauto.
            -- clear -Ij. cbn in Ij. induction b as [q0 cq0|q0 dq0 vq0 cq0 a1 IHa b1 IHb]; cbn in *; [auto|]. rewrite map_app in Ij. right. apply in_app_or in Ij. apply in_or_app. tauto.
          * eexists. split; [apply cut_left; exact C|]. eapply child_left_after; eauto. exact [].
      - destruct r as [q cq|q dq vq cq a b].
        + destruct Ij as [E|[]]. cbn in E. subst q. exists l. split; [exact (cut_here O j true i d v cs cq l)|]. exact (cut_top true i d v cs cq j l s p rest D s' Bf Gp Ar H).
        + destruct (IHr s i (rest ++ i :: cids l) (D + 1) j s') as [r' [C A]]; auto.
          * split; [exact B7|]. split; [|split; [|split; [|exact H5]]].
            -- eapply cpool_perm; [|exact H2]. rewrite <- app_assoc. apply Permutation_app_head. apply Permutation_refl.
            -- apply above_up with n; auto; [apply in_or_app; right; now left|]. rewrite M2. now apply above_more.
            -- right. split; [lia|]. apply in_or_app. right. now left.
          * intros ->. cbn [Coarse_Spec.cids] in Nr'. apply NoDup_cons_iff in Nr'. destruct Nr' as [X _]. apply X. cbn [Coarse_Spec.cleaves Coarse_Spec.ctop] in Ij. rewrite map_app in Ij. apply in_app_or in Ij. apply in_or_app.
            destruct Ij as [Ij|Ij]; [left|right].
            -- clear -Ij. cbn in Ij. induction a as [q0 cq0|q0 dq0 vq0 cq0 a1 IHa b1 IHb]; cbn in *; [auto|]. rewrite map_app in Ij. right. apply in_app_or in Ij. apply in_or_app. tauto.
            -- clear -Ij. cbn in Ij. induction b as [q0 cq0|q0 dq0 vq0 cq0 a1 IHa b1 IHb]; cbn in *; [auto|]. rewrite map_app in Ij. right. apply in_app_or in Ij. apply in_or_app. tauto.
          * eexists. split; [apply cut_right; exact C|]. eapply child_right_after; eauto. exact [].
    Qed.
  End Cut.

  (** ** Recounting *)
  Definition recounted (f f' : forest) : Prop :=
    roots f' = roots f /\ length (nodes f') = length (nodes f) /\
    forall j n, rd (nodes f) j = Ok n -> exists cs, rd (nodes f') j = Ok (set_counters O n cs) /\ length cs = length (counters n) /\ (child_left O n = -1 -> cs = counters n).
  Lemma set_counters_same : forall n : node, set_counters O n (counters n) = n.
  Proof. now intros []. Qed.
  Lemma recounted_refl : forall f, recounted f f.
  Proof. intros f. split; [reflexivity|]. split; [reflexivity|]. intros j n H. exists (counters n). rewrite set_counters_same. auto. Qed.
  Lemma recounted_trans : forall a b d, recounted a b -> recounted b d -> recounted a d.
  Proof.
    intros a b d [A1 [A2 A3]] [B1 [B2 B3]]. split; [congruence|]. split; [congruence|]. intros j n H. destruct (A3 j n H) as [cs [H1 [H2 H3]]]. destruct (B3 j _ H1) as [cs' [K1 [K2 K3]]].
    exists cs'. split; [exact K1|]. cbn in K2, K3. split; [congruence|]. intros E. rewrite K3 by exact E. auto.
  Qed.
  Lemma recount_one : forall f i n cs, rd (nodes f) i = Ok n -> length cs = length (counters n) -> child_left O n <> -1 -> recounted f (put f i (set_counters O n cs)).
  Proof.
    intros f i n cs H Lc Nl. split; [reflexivity|]. split; [apply put_length|]. intros j m Hm. rewrite rd_put with (m := n) by exact H. destruct (Z.eqb_spec i j) as [<-|N].
    - assert (m = n) by congruence. subst m. exists cs. repeat split; auto. contradiction.
    - exists (counters m). rewrite set_counters_same. auto.
  Qed.
  Lemma recounted_stored : forall t f f' p, recounted f f' -> stored f p t -> exists t', alike O t t' /\ stored f' p t'.
  Proof.
    induction t as [i cs|i d v cs l IHl r IHr]; intros f f' p Rc [n [M1 [M2 [M3 [M4 [M5 M6]]]]]]; pose proof Rc as [R1 [R2 R3]]; destruct (R3 _ _ M1) as [cs' [K1 [K2 K3]]].
    - exists (CLeaf i cs). split; [constructor|]. exists n. rewrite K3, set_counters_same in K1 by tauto. auto 10.
    - destruct M6 as [B1 [B2 [B3 [B4 [B5 [B6 B7]]]]]]. destruct (IHl f f' i Rc B6) as [l' [Al Sl]]. destruct (IHr f f' i Rc B7) as [r' [Ar Sr]]. destruct (alike_facts _ _ Al) as [El _]. destruct (alike_facts _ _ Ar) as [Er _].
      exists (CFork i d v cs' l' r'). split; [now constructor|]. exists (set_counters O n cs'). split; [exact K1|]. split; [exact M2|]. split; [reflexivity|]. split; [cbn; congruence|]. split; [exact M5|].
      cbn [split_dimension child_left child_right split_value set_counters]. repeat (split; [first [assumption|congruence]|]). exact Sr.
  Qed.
  Lemma recounted_cpool : forall s s' u, recounted (fr s) (fr s') -> avail s' = avail s -> cpool s u -> cpool s' u.
  Proof.
    intros s s' u [R1 [R2 R3]] Av [P1 [P2 [P3 [P4 [P5 P6]]]]].
    assert (Back : forall j n', get s' j = Ok n' -> exists n cs, get s j = Ok n /\ n' = set_counters O n cs /\ (child_left O n = -1 -> cs = counters n)).
    { intros j n' H. pose proof (rd_bounds _ _ _ _ H) as B. destruct (rd_in_bounds _ (nodes (fr s)) j) as [n Hn]; [lia|]. destruct (R3 j n Hn) as [cs [K1 [K2 K3]]].
      exists n, cs. split; [exact Hn|]. split; [unfold Coarse_Model.get in H; congruence|exact K3]. }
    split; [lia|]. split; [exact P2|]. split; [exact P3|]. split; [|split; [lia|]].
    - intros j n' H. destruct (Back j n' H) as [n [cs [Hn [-> _]]]]. apply (P4 j n Hn).
    - intros j n' H A. destruct (Back j n' H) as [n [cs [Hn [-> E]]]]. assert (n = blank_node) by (apply (P6 j n Hn A)). subst n. rewrite E by reflexivity. apply set_counters_same.
  Qed.
  Lemma recount_up_ok : forall steps s i label s', recount_up O c steps s i label = Ok s' -> recounted (fr s) (fr s') /\ avail s' = avail s /\ same s s'.
  Proof.
    induction steps as [|steps IH]; intros s i label s' H; cbn [recount_up] in H; [discriminate|]. destruct (_ && _).
    - inv_bind H. rename v into n, E into Hn. inv_bind H. rename v into nl, E into Hl. inv_bind H. rename v into cl. inv_bind H. rename v into nr, E0 into Hr. inv_bind H. rename v into cr. inv_bind H. rename v into s1, E1 into E1'.
      apply change_inv in E1'. destruct E1' as [m [m' [A1 [A2 ->]]]]. assert (m = n) by congruence. subst m. inv_bind A2. injection A2 as <-. apply wr_length in E1.
      apply IH in H. destruct H as [H1 [H2 H3]]. split; [|split; [exact H2|eapply same_trans; [|exact H3]; repeat split]].
      eapply recounted_trans; [|exact H1]. apply recount_one; auto. intros X. unfold Coarse_Model.get in Hl. rewrite X, rd_oob in Hl by lia. discriminate.
    - injection H as <-. split; [apply recounted_refl|]. split; [reflexivity|apply same_refl].
  Qed.
  Lemma update_branch_ok : forall s k x label s', update_branch O c s k x label = Ok s' -> recounted (fr s) (fr s') /\ avail s' = avail s /\ same s s'.
  Proof. intros s k x label s' H. unfold update_branch in H. inv_bind H. inv_bind H. now apply recount_up_ok in H. Qed.
  Lemma posterior_ok : forall steps f i f', update_posterior_count O lc steps f i = Ok f' -> recounted f f'.
  Proof.
    induction steps as [|steps IH]; intros f i f' H; cbn [update_posterior_count] in H; [discriminate|]. inv_bind H. destruct (is_leaf O v); [injection H as <-; apply recounted_refl|].
    inv_bind H. inv_bind H. apply IH in E0, E1. eapply recounted_trans; [exact E0|]. eapply recounted_trans; [exact E1|].
    refine (forZ_inv_post _ (fun _ g => recounted v1 g) _ _ 0 _ _ _ _ H); [apply recounted_refl|]. intros j g g' _ Hg H1. eapply recounted_trans; [exact Hg|]. clear Hg H.
    inv_bind H1. rename v2 into n, E2 into Hn. inv_bind H1. rename v2 into nl, E2 into Hl. inv_bind H1. inv_bind H1. inv_bind H1. apply with_node_inv in H1. destruct H1 as [m [m' [A1 [A2 ->]]]]. assert (m = n) by congruence. subst m.
    inv_bind A2. injection A2 as <-. apply wr_length in E5. apply recount_one; auto. intros X. rewrite X, rd_oob in Hl by lia. discriminate.
  Qed.
  Lemma update_all_ok : forall s s', update_all O c s = Ok s' -> recounted (fr s) (fr s') /\ avail s' = avail s /\ same s s'.
  Proof.
    intros s s' H. unfold update_all in H. inv_bind H. injection H as <-. split; [|split; [reflexivity|apply same_fr]]. cbn [Coarse_Model.fr with_fr].
    refine (forZ_inv_post _ (fun _ g => recounted (fr s) g) _ _ 0 _ _ _ _ E); [apply recounted_refl|]. intros j g g' _ Hg H1. inv_bind H1. destruct (_ =? _); [injection H1 as <-; exact Hg|].
    apply posterior_ok in H1. eapply recounted_trans; eauto.
  Qed.

  (** ** Choosing the leaf to cut *)
  Definition drawn_only (s s' : coarse) : Prop := nodes (fr s') = nodes (fr s) /\ roots (fr s') = roots (fr s) /\ avail s' = avail s /\ same s s'.
  Lemma drawn_only_refl : forall s, drawn_only s s.
  Proof. intros s. repeat split. Qed.
  Lemma drawn_only_trans : forall a b d, drawn_only a b -> drawn_only b d -> drawn_only a d.
  Proof. intros a b d [A1 [A2 [A3 A4]]] [B1 [B2 [B3 B4]]]. repeat (split; [congruence|]). eapply same_trans; eauto. Qed.
  Lemma trim_visit_ok : forall s i a s' a', trim_visit O rnd c s i a = Ok (s', a') ->
    drawn_only s s' /\ (smallest_id O a' = i \/ smallest_id O a' = smallest_id O a) /\
    (c_trim O c = TRIM_COUNT \/ c_trim O c = TRIM_FADING \/ (c_trim O c = TRIM_RANDOM /\ forall q, nlt O (rnd q) (ndiv O (n_ 1) (nadd O (n_ 0) (n_ 1))) = true) ->
      a = mkTrim O (n_ 0) (n_ 0) (n_ (-1)) 0 -> smallest_id O a' = i).
  Proof.
    intros s i a s' a' H. unfold trim_visit in H. inv_bind H.
    assert (K : forall count s1 a1, (let total := nadd O (leaf_sum O a) count in
      let (better, s0) :=
        if nlt O (smallest O a) (n_ 0) || nlt O count (smallest O a) then (true, s)
        else if neq O count (smallest O a) then let (u, s0) := Coarse_Model.uniform O rnd s in (nlt O u (ndiv O (n_ 1) (n_ 2)), s0)
        else (false, s) in
      Ok (s0, if better then mkTrim O (nadd O (leaf_count O a) (n_ 1)) total count i else mkTrim O (nadd O (leaf_count O a) (n_ 1)) total (smallest O a) (smallest_id O a))) = Ok (s1, a1) ->
      drawn_only s s1 /\ (smallest_id O a1 = i \/ smallest_id O a1 = smallest_id O a) /\ (a = mkTrim O (n_ 0) (n_ 0) (n_ (-1)) 0 -> smallest_id O a1 = i)).
    { intros count s1 a1 X. cbv zeta in X. unfold Coarse_Model.uniform, Mondrian_Model.uniform in X.
      destruct (nlt O (smallest O a) (n_ 0) || nlt O count (smallest O a)) eqn:B.
      - injection X as <- <-. split; [apply drawn_only_refl|]. split; [left; reflexivity|reflexivity].
      - assert (Y : a <> mkTrim O (n_ 0) (n_ 0) (n_ (-1)) 0) by (intros ->; cbn in B; rewrite (tl_m1 O L) in B; discriminate).
        destruct (neq O count (smallest O a)).
        + destruct (nlt O (rnd (drawn O (fr s))) (ndiv O (n_ 1) (n_ 2))); injection X as <- <-; (split; [repeat split|]); (split; [cbn; auto|intros Ea; elim (Y Ea)]).
        + injection X as <- <-. split; [repeat split|]. split; [cbn; auto|intros Ea; elim (Y Ea)]. }
    destruct (Z.eqb_spec (c_trim O c) TRIM_COUNT) as [T1|T1].
    - inv_bind H. apply K in H. destruct H as [H1 [H2 H3]]. auto.
    - destruct (Z.eqb_spec (c_trim O c) TRIM_FADING) as [T2|T2].
      + inv_bind H. apply K in H. destruct H as [H1 [H2 H3]]. auto.
      + clear K. destruct (Z.eqb_spec (c_trim O c) TRIM_RANDOM) as [T|T].
        * unfold Coarse_Model.uniform, Mondrian_Model.uniform in H. injection H as <- <-. split; [repeat split|]. split; [match goal with |- context [if nlt O ?a ?b then _ else _] => destruct (nlt O a b) end; auto|].
          intros [X|[X|[_ X]]] ->; [contradiction ..|]. cbn [leaf_count]. now rewrite X.
        * injection H as <- <-. split; [repeat split|]. split; [auto|]. intros [X|[X|[X _]]]; contradiction.
  Qed.
End Trim.
