(** * Proofs for the coarse Mondrian forest: reading and changing the nodes *)
From Coq Require Import ZArith List Bool Lia Reals Lra Permutation.
From Verif Require Import CppBase CppFacts NumOps Mondrian_Model Mondrian_Spec Mondrian_Proofs Mondrian_Num Coarse_Model Coarse_Spec.
From Verif Require Unbound_Model.
Import ListNotations.
Local Open Scope Z_scope.

(** What is needed of the times. *)
Record tlaws (O : ops) : Prop := {
  tl_used : forall t, nle O (nofZ O 0) t = true -> nlt O t (nofZ O 0) = false;
  tl_add : forall p e t, nlt O p (nofZ O 0) = false -> nle O (nofZ O 0) e = true -> nlt O (nadd O p e) t = true -> nlt O (nadd O p e) (nofZ O 0) = false;
  tl_0 : nlt O (nofZ O 0) (nofZ O 0) = false;
  tl_m1 : nlt O (nofZ O (-1)) (nofZ O 0) = true }.
Lemma laws_tlaws : forall O key cmp fine draw fc, laws O key cmp fine draw fc -> tlaws O.
Proof.
  intros O key cmp fine draw fc L. pose proof (l_0 _ _ _ _ _ _ L) as [A B]. pose proof (l_m1 _ _ _ _ _ _ L) as [A1 B1]. constructor.
  - intros t H. destruct (nlt O t (nofZ O 0)) eqn:E; [|reflexivity]. apply (l_le _ _ _ _ _ _ L) in H. apply (l_lt _ _ _ _ _ _ L) in E.
    destruct H as [_ [_ H]], E as [_ [_ E]]. lra.
  - intros p e t Hp He Ht. pose proof (l_add _ _ _ _ _ _ L p e t He Ht) as H. apply (l_le _ _ _ _ _ _ L) in H. destruct H as [H1 [H2 H3]].
    destruct (nlt O (nadd O p e) (nofZ O 0)) eqn:E; [|reflexivity]. apply (l_lt _ _ _ _ _ _ L) in E. destruct E as [_ [_ E]].
    assert (X : nlt O p (nofZ O 0) = true) by (apply (l_lt _ _ _ _ _ _ L); repeat split; auto; lra). congruence.
  - destruct (nlt O (nofZ O 0) (nofZ O 0)) eqn:E; [|reflexivity]. apply (l_lt _ _ _ _ _ _ L) in E. destruct E as [_ [_ E]]. lra.
  - apply (l_lt _ _ _ _ _ _ L). rewrite B, B1. repeat split; auto. lra.
Qed.
Lemma tlaws_dops : tlaws dops.
Proof. apply (laws_tlaws _ _ _ _ _ _ (laws_dops 1 ltac:(lia))). Qed.
Lemma tlaws_rops : tlaws rops.
Proof. apply (laws_tlaws _ _ _ _ _ _ (laws_rops 1 ltac:(lia))). Qed.

Ltac inv_bind H := let a := fresh "v" in let E := fresh "E" in apply bind_inv in H; destruct H as [a [E H]].
Ltac neqz := match goal with
  | |- context [?a =? ?b] => rewrite (proj2 (Z.eqb_neq a b)) by congruence
  end.

Section Heap.
  Variable O : ops.
  Variable rnd : nat -> num O.
  Variable c : config O.
  Hypothesis L : tlaws O.
  Local Notation n_ := (nofZ O).
  Local Notation node := (node O).
  Local Notation forest := (forest O).
  Local Notation coarse := (coarse O).
  Local Notation fr := (fr O).
  Local Notation nodes := (nodes O).
  Local Notation roots := (roots O).
  Local Notation get := (get O).
  Local Notation put := (put O).
  Local Notation avail := (avail O).
  Local Notation tau := (tau O).
  Local Notation available := (available O).
  Local Notation counters := (counters O).
  Local Notation fc := (c_features O c).
  Local Notation lc := (c_labels O c).
  Local Notation nc := (c_nodes O c).
  Local Notation life := (c_life O c).
  Local Notation ctree := (ctree O).
  Local Notation ctop := (ctop O).
  Local Notation cids := (cids O).
  Local Notation stored := (stored O fc lc).
  Local Notation relink := (relink O).
  Local Notation blank_node := (blank_node O c).

  Lemma used : forall n, nlt O (tau n) (n_ 0) = false -> available n = false.
  Proof using L. intros n H. exact H. Qed.
  Lemma blank_free : available blank_node = true.
  Proof. exact (tl_m1 O L). Qed.
  Lemma rd_put' : forall f i n j, 0 <= i < Z.of_nat (length (nodes f)) -> rd (nodes (put f i n)) j = if i =? j then Ok n else rd (nodes f) j.
  Proof. intros f i n j H. destruct (rd_in_bounds _ (nodes f) i H) as [m Hm]. now apply rd_put with m. Qed.
  Lemma with_node_inv : forall f i g f', with_node O f i g = Ok f' -> exists n n', rd (nodes f) i = Ok n /\ g n = Ok n' /\ f' = put f i n'.
  Proof.
    intros f i g f' H. unfold with_node in H. inv_bind H. inv_bind H. inv_bind H. apply wr_inv in E1. destruct E1 as [_ ->]. injection H as <-.
    exists v, v0. repeat split; auto.
  Qed.
  Lemma change_inv : forall s i g s', change O s i g = Ok s' -> exists n n', get s i = Ok n /\ g n = Ok n' /\ s' = with_fr O s (put (fr s) i n').
  Proof.
    intros s i g s' H. unfold change in H. inv_bind H. injection H as <-. apply with_node_inv in E. destruct E as [n [n' [A [B ->]]]].
    exists n, n'. auto.
  Qed.
  Lemma get_put : forall s i m n j, get s i = Ok m -> get (with_fr O s (put (fr s) i n)) j = if i =? j then Ok n else get s j.
  Proof. intros s i m n j H. unfold Coarse_Model.get in *. cbn [Coarse_Model.fr with_fr]. now apply rd_put with m. Qed.

  (** The fields that training a tree does not change. *)
  Definition same (s s' : coarse) : Prop :=
    limit O s' = limit O s /\ size O s' = size O s /\ sum_features O s' = sum_features O s /\ count_points O s' = count_points O s /\
    full O s' = full O s /\ total O s' = total O s /\ length (forced O s') = length (forced O s) /\ length (fading O s') = length (fading O s).
  Lemma same_refl : forall s, same s s.
  Proof. repeat split. Qed.
  Lemma same_trans : forall a b d, same a b -> same b d -> same a d.
  Proof. unfold same. intros a b d H1 H2. intuition congruence. Qed.

  Lemma add_label_inv : forall s i label s', add_label O s i label = Ok s' ->
    exists n, get s i = Ok n /\ 0 <= label < Z.of_nat (length (counters n)) /\
      s' = with_fr O s (put (fr s) i (set_counters O n (upd (counters n) (Z.to_nat label) (at_label label (counters n) + 1)))).
  Proof.
    intros s i label s' H. apply change_inv in H. destruct H as [n [n' [A [B ->]]]]. inv_bind B. inv_bind B. inv_bind B. injection B as <-.
    exists n. split; [exact A|]. pose proof (rd_bounds _ _ _ _ E) as Bd. split; [lia|]. apply wr_inv in E1. destruct E1 as [_ ->].
    unfold sint in E0. destruct (_ && _) in E0; [injection E0 as <-|discriminate].
    unfold at_label. apply rd_ok_iff in E. destruct E as [_ E]. rewrite (nth_error_nth _ _ 0 E). reflexivity.
  Qed.
  Lemma add_fading_inv : forall s i s', add_fading O s i = Ok s' -> exists xs, length xs = length (fading O s) /\ s' = with_fading O s xs.
  Proof. intros s i s' H. unfold add_fading in H. inv_bind H. inv_bind H. injection H as <-. apply wr_length in E0. eauto. Qed.

  Lemma available_node_inv : forall s i s', available_node O c s = Ok (i, s') ->
    (i = -1 /\ s' = s) \/ (exists n, get s i = Ok n /\ available n = true /\ s' = with_last O s i).
  Proof.
    intros s i s' H. unfold available_node in H. destruct (_ =? 0); [injection H as <- <-; auto|]. inv_bind H.
    destruct v as [j|]; injection H as <- <-; [|auto]. right. clear -E. revert E. generalize 0 at 1. generalize (Z.to_nat nc).
    induction n as [|m IH]; intros z E; cbn [findZ] in E; [discriminate|]. inv_bind E. inv_bind E0. inv_bind E0. destruct (available v1) eqn:A.
    - injection E0 as <-. injection E as <-. exists v1. auto.
    - injection E0 as <-. now apply IH in E.
  Qed.
  (** With a free node and small numbers, a free node is found. *)
  Lemma available_node_found : forall s j n, get s j = Ok n -> available n = true -> avail s <> 0 -> Z.of_nat (length (nodes (fr s))) = nc ->
    0 <= last O s <= 1000000000 -> nc <= 1000000000 ->
    exists i m, available_node O c s = Ok (i, with_last O s i) /\ get s i = Ok m /\ available m = true /\ 0 <= i < nc.
  Proof.
    intros s j n Hj Aj Na Ln Bl Bn. unfold available_node. rewrite (proj2 (Z.eqb_neq (avail s) 0)) by exact Na.
    pose proof (rd_bounds _ _ _ _ Hj) as Bj. rewrite Ln in Bj.
    set (body := fun i => do k <- sint (i + last O s); let node_id := Z.rem k nc in do n <- get s node_id; Ok (if available n then Some node_id else None)).
    assert (Step : forall i, 0 <= i < nc -> exists m, get s ((i + last O s) mod nc) = Ok m /\ body i = Ok (if available m then Some ((i + last O s) mod nc) else None)).
    { intros i Hi. unfold body. unfold sint. rewrite (proj2 (Z.leb_le _ (i + last O s))), (proj2 (Z.leb_le (i + last O s) _)) by lia. cbn [andb bind].
      rewrite Z.rem_mod_nonneg by lia. pose proof (Z.mod_pos_bound (i + last O s) nc ltac:(lia)) as Bm.
      destruct (rd_in_bounds _ (nodes (fr s)) ((i + last O s) mod nc)) as [m Hm]; [lia|]. exists m. split; [exact Hm|].
      unfold Coarse_Model.get. rewrite Hm. reflexivity. }
    destruct (findZ_total _ body (Z.to_nat nc) 0) as [[E H]|[k [r [Hk [Hb [_ E]]]]]].
    - intros i Hi. destruct (Step i ltac:(lia)) as [m [_ Hm]]. eauto.
    - exfalso. set (i := (j - last O s) mod nc). pose proof (Z.mod_pos_bound (j - last O s) nc ltac:(lia)) as Bi. fold i in Bi.
      specialize (H i ltac:(lia)). destruct (Step i Bi) as [m [Hm Hb]]. rewrite H in Hb.
      assert (Ei : (i + last O s) mod nc = j).
      { unfold i. rewrite Zplus_mod_idemp_l. replace (j - last O s + last O s) with j by lia. apply Z.mod_small. lia. }
      rewrite Ei in Hm, Hb. assert (m = n) by congruence. subst m. rewrite Aj in Hb. discriminate.
    - rewrite E. cbn [bind]. destruct (Step k ltac:(lia)) as [m [Hm Hb']]. rewrite Hb in Hb'. destruct (available m) eqn:A; [|discriminate]. injection Hb' as ->.
      exists ((k + last O s) mod nc), m. pose proof (Z.mod_pos_bound (k + last O s) nc ltac:(lia)). auto.
  Qed.

  (** The nodes of [u] are those in use. *)
  Definition cpool (s : coarse) (u : list Z) : Prop :=
    Z.of_nat (length (nodes (fr s))) = nc /\ NoDup u /\ (forall j, In j u -> 0 <= j < nc) /\
    (forall j n, get s j = Ok n -> (In j u <-> available n = false)) /\ avail s = nc - Z.of_nat (length u) /\
    (forall j n, get s j = Ok n -> available n = true -> n = blank_node).
  Lemma cpool_perm : forall s a b, Permutation a b -> cpool s a -> cpool s b.
  Proof.
    intros s a b P [H1 [H2 [H3 [H4 [H5 H6]]]]]. pose proof (Permutation_sym P) as Q. split; [exact H1|]. split; [eapply Permutation_NoDup; eauto|]. split.
    - intros j Hj. apply H3. now apply Permutation_in with b.
    - split; [|split; [now rewrite <- (Permutation_length P)|exact H6]]. intros j n Hn. rewrite <- (H4 j n Hn). split; intros I; [now apply Permutation_in with b|now apply Permutation_in with a].
  Qed.
  (** Changing a node in use to another node in use. *)
  Lemma cpool_put : forall s u i n n', cpool s u -> get s i = Ok n -> available n = false -> available n' = false -> cpool (with_fr O s (put (fr s) i n')) u.
  Proof.
    intros s u i n n' [H1 [H2 [H3 [H4 [H5 H6]]]]] Hn A A'. split; [cbn [Coarse_Model.fr with_fr]; now rewrite put_length|]. split; [exact H2|]. split; [exact H3|].
    split; [|split; [exact H5|]].
    - intros j m. rewrite (get_put s i n n' j Hn). destruct (Z.eqb_spec i j) as [->|N]; [|apply H4]. intros E. injection E as <-. rewrite A'. pose proof (H4 j n Hn) as X. rewrite A in X. exact X.
    - intros j m. rewrite (get_put s i n n' j Hn). destruct (Z.eqb_spec i j) as [->|N]; [|apply H6]. intros E. injection E as <-. congruence.
  Qed.
  (** Only the nodes and their number matter. *)
  Lemma cpool_same : forall s s' u, nodes (fr s') = nodes (fr s) -> avail s' = avail s -> cpool s u -> cpool s' u.
  Proof. intros s s' u E A. unfold cpool, Coarse_Model.get. now rewrite E, A. Qed.
  (** Taking a free node. *)
  Lemma cpool_take : forall s u i n n', cpool s u -> get s i = Ok n -> available n = true -> available n' = false ->
    cpool (with_avail O (with_fr O s (put (fr s) i n')) (avail s - 1)) (i :: u).
  Proof.
    intros s u i n n' [H1 [H2 [H3 [H4 [H5 H6]]]]] Hn A A'.
    assert (G : forall j, get (with_avail O (with_fr O s (put (fr s) i n')) (avail s - 1)) j = if i =? j then Ok n' else get s j) by (intros; now apply get_put with n).
    assert (Ni : ~ In i u) by (intros I; apply (H4 i n Hn) in I; congruence).
    split; [cbn [Coarse_Model.fr with_fr with_avail]; now rewrite put_length|]. split; [now constructor|].
    split. { intros j [<-|Hj]; auto. apply rd_bounds in Hn. lia. }
    split; [|split].
    - intros j m. rewrite G. destruct (Z.eqb_spec i j) as [->|N]; [intros E; injection E as <-; cbn [In]; tauto|].
      intros Hm. rewrite <- (H4 j m Hm). cbn [In]. intuition congruence.
    - cbn [Coarse_Model.avail with_avail]. cbn [length]. lia.
    - intros j m. rewrite G. destruct (Z.eqb_spec i j) as [->|N]; [intros E; injection E as <-; congruence|apply H6].
  Qed.
  Lemma reset_inv : forall s i s', reset_node O c s i = Ok s' -> exists n fo fa, get s i = Ok n /\ length fo = length (forced O s) /\ length fa = length (fading O s) /\ s' = with_fading O (with_forced O (with_fr O s (put (fr s) i blank_node)) fo) fa.
  Proof.
    intros s i s' H. unfold reset_node in H. inv_bind H. inv_bind H. inv_bind H. injection H as <-. apply change_inv in E. destruct E as [n [n' [A [B ->]]]].
    injection B as <-. apply wr_length in E0, E1. exists n, v0, v1. auto.
  Qed.
  (** Freeing a node. *)
  Lemma cpool_free : forall s u i n s', cpool s (i :: u) -> get s i = Ok n -> avail s' = avail s + 1 -> nodes (fr s') = nodes (put (fr s) i blank_node) -> cpool s' u.
  Proof.
    intros s u i n s' [H1 [H2 [H3 [H4 [H5 H6]]]]] Hn Ea En.
    assert (G : forall j, get s' j = if i =? j then Ok blank_node else get s j).
    { intros j. unfold Coarse_Model.get. rewrite En. now apply rd_put with n. }
    inversion H2 as [|? ? Ni Nu]; subst. split; [rewrite En, put_length; exact H1|]. split; [exact Nu|]. split; [intros j Hj; apply H3; now right|].
    split; [|split].
    - intros j m. rewrite G. destruct (Z.eqb_spec i j) as [->|N].
      + intros E. injection E as <-. rewrite blank_free. split; [contradiction|discriminate].
      + intros Hm. rewrite <- (H4 j m Hm). cbn [In]. intuition congruence.
    - rewrite Ea, H5. cbn [length]. lia.
    - intros j m. rewrite G. destruct (Z.eqb_spec i j) as [->|N]; [intros E; now injection E as <-|apply H6].
  Qed.

  (** Stored trees. *)
  Lemma ctop_in : forall t : ctree, In (ctop t) (cids t).
  Proof. intros [i cs|i d v cs l r]; cbn; auto. Qed.
  Lemma stored_node : forall t f p, stored f p t -> exists n, rd (nodes f) (ctop t) = Ok n /\ parent O n = p /\ counters n = top_counters O t /\
    length (counters n) = Z.to_nat lc /\ nlt O (tau n) (n_ 0) = false /\ is_leaf O n = match t with CLeaf _ _ => true | _ => false end.
  Proof.
    intros [i cs|i d v cs l r] f p [n [H1 [H2 [H3 [H4 [H5 H6]]]]]]; exists n; repeat (split; auto); unfold is_leaf.
    - apply Z.eqb_eq. tauto.
    - apply Z.eqb_neq. destruct H6 as [A [B _]]. lia.
  Qed.
  Lemma stored_frame : forall t f f' p, (forall j, In j (cids t) -> rd (nodes f') j = rd (nodes f) j) -> stored f p t -> stored f' p t.
  Proof.
    induction t as [i cs|i d v cs l IHl r IHr]; intros f f' p E [n [H1 [H2 [H3 [H4 [H5 H6]]]]]]; exists n.
    - rewrite E by apply ctop_in. repeat (split; auto).
    - rewrite E by apply ctop_in. destruct H6 as [A1 [A2 [A3 [A4 [A5 [A6 A7]]]]]]. repeat (split; [auto; fail|]). split.
      + apply IHl with f; auto. intros j Hj. apply E. right. apply in_or_app. now left.
      + apply IHr with f; auto. intros j Hj. apply E. right. apply in_or_app. now right.
  Qed.
  Lemma stored_reparent : forall t f f' p a n, NoDup (cids t) -> stored f p t -> rd (nodes f) (ctop t) = Ok n -> rd (nodes f') (ctop t) = Ok (set_parent O n a) ->
    (forall j, In j (cids t) -> j <> ctop t -> rd (nodes f') j = rd (nodes f) j) -> stored f' a t.
  Proof.
    intros t f f' p a n N St Hn Hn' E. destruct t as [i cs|i d v cs l r]; destruct St as [m [H1 [H2 [H3 [H4 [H5 H6]]]]]]; assert (m = n) by congruence; subst m;
      exists (set_parent O n a); (split; [exact Hn'|]); (split; [reflexivity|]); (split; [exact H3|]); (split; [exact H4|]); (split; [exact H5|]); [exact H6|].
    destruct H6 as [A1 [A2 [A3 [A4 [A5 [A6 A7]]]]]]. cbn [cids] in N. inversion N as [|? ? Ni N']; subst. repeat (split; [auto; fail|]). split.
    - apply stored_frame with f; auto. intros j Hj. apply E; [right; apply in_or_app; now left|]. cbn. intros ->. apply Ni, in_or_app. now left.
    - apply stored_frame with f; auto. intros j Hj. apply E; [right; apply in_or_app; now right|]. cbn. intros ->. apply Ni, in_or_app. now right.
  Qed.

  (** ** Linking two new nodes *)
  Lemma sample_block_inv : forall f i x label f', sample_block O fc life f i x label = Ok f' ->
    exists n bx, rd (nodes f) i = Ok n /\ 0 <= label < Z.of_nat (length (counters n)) /\
      f' = put f i (set_tau O (set_counters O (set_box O n bx bx) (upd (counters n) (Z.to_nat label) (at_label label (counters n) + 1))) life).
  Proof.
    intros f i x label f' H. unfold sample_block in H. inv_bind H. destruct v as [lo hi].
    assert (lo = hi) as ->.
    { enough (P : fst (lo, hi) = snd (lo, hi)) by exact P.
      refine (forZ_inv_post _ (fun (_ : Z) (s : list (option (num O)) * list (option (num O))) => fst s = snd s) _ _ 0 _ _ _ _ E); [reflexivity|].
      intros j [a b] s' _ P H1. cbn in P. subst b. inv_bind H1. injection H1 as <-. reflexivity. }
    apply with_node_inv in H. destruct H as [n [n' [A [B ->]]]]. inv_bind B. inv_bind B. inv_bind B. injection B as <-.
    exists n, hi. split; [exact A|]. pose proof (rd_bounds _ _ _ _ E0) as Bd. split; [lia|]. apply wr_inv in E2. destruct E2 as [_ ->].
    unfold sint in E1. destruct (_ && _) in E1; [injection E1 as <-|discriminate].
    unfold at_label. apply rd_ok_iff in E0. destruct E0 as [_ E0]. rewrite (nth_error_nth _ _ 0 E0). reflexivity.
  Qed.

  Lemma insert_inv : forall f i k x label d up a b f' n na nb p,
    insert_above O fc lc life f i k x label d up a b = Ok f' ->
    rd (nodes f) i = Ok n -> rd (nodes f) a = Ok na -> rd (nodes f) b = Ok nb -> i <> a -> i <> b -> a <> b -> parent O n = p ->
    ((p = -1 /\ rd (roots f) k = Ok i) \/ (p <> -1 /\ p <> i /\ p <> a /\ p <> b)) ->
    exists na' nb' xd,
      (forall j, rd (nodes f') j = if j =? b then Ok nb' else if j =? a then Ok na' else if j =? i then Ok (set_parent O n a)
         else if j =? p then do np <- rd (nodes f) j; Ok (relink i a np) else rd (nodes f) j) /\
      roots f' = (if p =? -1 then upd (roots f) (Z.to_nat k) a else roots f) /\ drawn O f' = drawn O f /\ length (nodes f') = length (nodes f) /\
      rd x d = Ok xd /\
      parent O na' = p /\ counters na' = counters na /\ tau na' = tau na /\ split_dimension O na' = split_dimension O na /\ split_value O na' = split_value O na /\
      (if neq O xd up then child_left O na' = i /\ child_right O na' = b else child_left O na' = b /\ child_right O na' = i) /\
      parent O nb' = a /\ counters nb' = upd (repeat 0 (Z.to_nat lc)) (Z.to_nat label) 1 /\ tau nb' = life /\ split_dimension O nb' = split_dimension O nb /\ child_left O nb' = child_left O nb /\ child_right O nb' = child_right O nb /\
      0 <= label < lc.
  Proof.
    intros f i k x label d up a b f' n na nb p H Hi Ha Hb Nia Nib Nab Hp HP.
    pose proof (rd_bounds _ _ _ _ Hi) as Bi. pose proof (rd_bounds _ _ _ _ Ha) as Ba. pose proof (rd_bounds _ _ _ _ Hb) as Bb.
    unfold insert_above in H. rewrite Hi in H. cbn [bind] in H. inv_bind H. destruct v as [bl bu].
    inv_bind H. apply with_node_inv in E0. destruct E0 as [m [m' [A1 [A2 ->]]]]. rewrite Ha in A1. injection A1 as <-. injection A2 as <-.
    set (f1 := put f a _) in H. assert (L1 : length (nodes f1) = length (nodes f)) by apply put_length.
    inv_bind H. apply with_node_inv in E0. destruct E0 as [m [m' [A1 [A2 ->]]]].
    unfold f1 in A1. rewrite rd_put' in A1 by lia. rewrite (proj2 (Z.eqb_neq a b)) in A1 by congruence. rewrite Hb in A1. injection A1 as <-. injection A2 as <-.
    set (f2 := put f1 b _) in H. assert (L2 : length (nodes f2) = length (nodes f)) by (unfold f2; now rewrite put_length).
    assert (Ei2 : rd (nodes f2) i = Ok n) by (unfold f2, f1; rewrite !rd_put' by (rewrite ?put_length; lia); repeat neqz; exact Hi).
    rewrite Ei2 in H. cbn [bind] in H. inv_bind H. apply with_node_inv in E0. destruct E0 as [m [m' [A1 [A2 ->]]]].
    unfold f2, f1 in A1. rewrite !rd_put' in A1 by (rewrite ?put_length; lia). rewrite (proj2 (Z.eqb_neq b a)), Z.eqb_refl in A1 by congruence. injection A1 as <-. injection A2 as <-.
    set (f3 := put f2 a _) in H. assert (L3 : length (nodes f3) = length (nodes f)) by (unfold f3; now rewrite put_length).
    assert (Ei3 : rd (nodes f3) i = Ok n) by (unfold f3; rewrite rd_put' by lia; neqz; exact Ei2).
    rewrite Ei3 in H. cbn [bind] in H. inv_bind H. rename v into q, E0 into Hq. inv_bind H. rename v into f4, E0 into E4.
    assert (D4 : length (nodes f4) = length (nodes f) /\ roots f4 = (if p =? -1 then upd (roots f) (Z.to_nat k) a else roots f) /\ drawn O f4 = drawn O f /\
      (forall j, rd (nodes f4) j = if j =? p then do np <- rd (nodes f) j; Ok (relink i a np) else rd (nodes f3) j)).
    { rewrite Hp in E4. destruct HP as [[-> Hr]|[Np [Npi [Npa Npb]]]].
      - change (roots f3) with (roots f) in Hq, E4. assert (q = i) by congruence. subst q. rewrite !Z.eqb_refl in E4. cbn [andb] in E4. inv_bind E4. injection E4 as <-.
        apply wr_inv in E0. destruct E0 as [_ ->]. cbn [Mondrian_Model.nodes Mondrian_Model.roots]. repeat split; [exact L3|].
        intros j. destruct (Z.eqb_spec j (-1)) as [->|N]; [|reflexivity]. rewrite !rd_oob by lia. reflexivity.
      - rewrite (proj2 (Z.eqb_neq p (-1))) in E4 |- * by lia. cbn [andb] in E4. apply with_node_inv in E4. destruct E4 as [np [np' [A1 [A2 ->]]]]. injection A2 as <-.
        rewrite put_length. repeat split; [exact L3|]. intros j. rewrite rd_put with (m := np) by exact A1. rewrite (Z.eqb_sym p j). destruct (Z.eqb_spec j p) as [->|N]; [|reflexivity].
        unfold f3, f2, f1 in A1. rewrite !rd_put' in A1 by (rewrite ?put_length; lia). rewrite !(proj2 (Z.eqb_neq a p)), !(proj2 (Z.eqb_neq b p)) in A1 by congruence.
        rewrite A1. cbn [bind]. unfold Mondrian_Proofs.relink. rewrite (proj2 (Z.eqb_neq i a)) by congruence. reflexivity. }
    destruct D4 as [L4 [R4 [W4 D4]]].
    assert (Npi : p <> i) by (destruct HP as [[-> _]|HP]; [lia|tauto]).
    assert (Npa : p <> a) by (destruct HP as [[-> _]|HP]; [lia|tauto]).
    assert (Npb : p <> b) by (destruct HP as [[-> _]|HP]; [lia|tauto]).
    inv_bind H. apply with_node_inv in E0. destruct E0 as [m [m' [A1 [A2 ->]]]]. rewrite D4, (proj2 (Z.eqb_neq i p)), Ei3 in A1 by congruence. injection A1 as <-. injection A2 as <-.
    set (f5 := put f4 i _) in H. assert (L5 : length (nodes f5) = length (nodes f)) by (unfold f5; now rewrite put_length).
    inv_bind H. apply with_node_inv in E0. destruct E0 as [m [m' [A1 [A2 ->]]]].
    unfold f5 in A1. rewrite rd_put' in A1 by lia. rewrite (proj2 (Z.eqb_neq i b)), D4, (proj2 (Z.eqb_neq b p)) in A1 by congruence.
    unfold f3, f2 in A1. rewrite !rd_put' in A1 by (rewrite ?put_length; lia). rewrite (proj2 (Z.eqb_neq a b)), Z.eqb_refl in A1 by congruence. injection A1 as <-. injection A2 as <-.
    set (f6 := put f5 b _) in H. assert (L6 : length (nodes f6) = length (nodes f)) by (unfold f6; now rewrite put_length).
    inv_bind H. rename v into xd, E0 into Ex. inv_bind H. apply with_node_inv in E0. destruct E0 as [m [m' [A1 [A2 ->]]]].
    unfold f6, f5 in A1. rewrite !rd_put' in A1 by (rewrite ?put_length; lia). rewrite (proj2 (Z.eqb_neq b a)), (proj2 (Z.eqb_neq i a)), D4, (proj2 (Z.eqb_neq a p)) in A1 by congruence.
    unfold f3 in A1. rewrite rd_put', Z.eqb_refl in A1 by lia. injection A1 as <-. injection A2 as <-.
    set (f7 := put f6 a _) in H. assert (L7 : length (nodes f7) = length (nodes f)) by (unfold f7; now rewrite put_length).
    apply sample_block_inv in H. destruct H as [m [bx [A1 [Bl ->]]]].
    unfold f7, f6 in A1. rewrite !rd_put' in A1 by (rewrite ?put_length; lia). rewrite (proj2 (Z.eqb_neq a b)), Z.eqb_refl in A1 by congruence. injection A1 as <-.
    cbn [Mondrian_Model.counters set_parent set_counters] in Bl |- *. rewrite repeat_length in Bl.
    assert (Z0 : at_label label (repeat 0 (Z.to_nat lc)) = 0) by apply nth_repeat. rewrite Z0.
    eexists. eexists. exists xd. split; [|split; [|split; [|split; [|split]]]].
    - intros j. rewrite rd_put' by lia. rewrite (Z.eqb_sym b j). destruct (Z.eqb_spec j b) as [->|Njb]; [reflexivity|].
      unfold f7. rewrite rd_put' by lia. rewrite (Z.eqb_sym a j). destruct (Z.eqb_spec j a) as [->|Nja]; [reflexivity|].
      unfold f6, f5. rewrite !rd_put' by (rewrite ?put_length; lia). rewrite (proj2 (Z.eqb_neq b j)) by congruence. rewrite (Z.eqb_sym i j).
      destruct (Z.eqb_spec j i) as [->|Nji]; [reflexivity|]. rewrite D4. destruct (Z.eqb_spec j p) as [->|Njp]; [reflexivity|].
      unfold f3, f2, f1. rewrite !rd_put' by (rewrite ?put_length; lia). rewrite !(proj2 (Z.eqb_neq a j)), !(proj2 (Z.eqb_neq b j)) by congruence. reflexivity.
    - exact R4.
    - exact W4.
    - rewrite put_length. exact L7.
    - exact Ex.
    - destruct (neq O xd up); repeat split; auto; lia.
  Qed.
End Heap.
