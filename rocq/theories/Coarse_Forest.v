(** * Proofs for the coarse Mondrian forest: all trees *)
From Coq Require Import ZArith List Bool Lia Permutation.
From Verif Require Import CppBase CppFacts NumOps Utils_Model Mondrian_Model Mondrian_Spec Mondrian_Proofs Coarse_Model Coarse_Spec Coarse_Heap Coarse_Walk Coarse_Train Coarse_Trim.
Import ListNotations.
Local Open Scope Z_scope.

Lemma Forall2_choice : forall A B (R : A -> B -> Prop) xs, (forall x, In x xs -> exists y, R x y) -> exists ys, Forall2 R xs ys.
Proof.
  induction xs as [|x xs IH]; intros H; [exists []; constructor|]. destruct (H x (or_introl eq_refl)) as [y Hy]. destruct IH as [ys Hs]; [intros z Hz; apply H; now right|].
  exists (y :: ys). now constructor.
Qed.
Lemma Forall2_nth : forall A B (R : A -> B -> Prop) xs ys, Forall2 R xs ys -> forall i y, nth_error ys i = Some y -> exists x, nth_error xs i = Some x /\ R x y.
Proof. intros A B R xs ys H. induction H as [|x y xs ys Hxy H IH]; intros [|i] z Hz; cbn in *; try discriminate; [injection Hz as <-; eauto|auto]. Qed.
Lemma Forall2_len : forall A B (R : A -> B -> Prop) xs ys, Forall2 R xs ys -> length xs = length ys.
Proof. intros A B R xs ys H. induction H; cbn; auto. Qed.
Lemma skipn_nth : forall A (xs : list A) i x, nth_error xs i = Some x -> skipn i xs = x :: skipn (S i) xs /\ firstn (S i) xs = firstn i xs ++ [x].
Proof.
  induction xs as [|y xs IH]; intros [|i] x H; cbn in H; try discriminate; [injection H as ->; auto|]. destruct (IH i x H) as [A1 A2]. cbn [skipn firstn app]. split; [exact A1|]. change (y :: firstn (S i) xs = y :: firstn i xs ++ [x]). now rewrite A2.
Qed.
Lemma upd_middle : forall A (a b : list A) x y, upd (a ++ x :: b) (length a) y = (a ++ [y]) ++ b.
Proof. induction a as [|z a IH]; intros b x y; cbn; [reflexivity|]. now rewrite IH. Qed.

Lemma zrange_in : forall n j, In j (zrange n) <-> 0 <= j < n.
Proof. intros n j. unfold zrange. rewrite in_map_iff. split; [intros [q [<- H]]; apply in_seq in H; lia|]. intros H. exists (Z.to_nat j). split; [lia|]. apply in_seq. lia. Qed.
Lemma zrange_nodup : forall n, NoDup (zrange n).
Proof. intros n. unfold zrange. apply FinFun.Injective_map_NoDup; [intros a b; lia|apply seq_NoDup]. Qed.

Section Forest.
  Variable O : ops.
  Variable exp_ log_ : num O -> num O.
  Variable rnd : nat -> num O.
  Variable c : config O.
  Hypothesis L : tlaws O.
  Hypothesis Hlife : nlt O (c_life O c) (nofZ O 0) = false.
  Local Notation n_ := (nofZ O).
  Local Notation node := (node O).
  Local Notation forest := (forest O).
  Local Notation coarse := (coarse O).
  Local Notation fr := (fr O).
  Local Notation nodes := (nodes O).
  Local Notation roots := (roots O).
  Local Notation get := (get O).
  Local Notation put := (put O).
  Local Notation avail := (avail O).
  Local Notation tau := (tau O).
  Local Notation available := (available O).
  Local Notation counters := (counters O).
  Local Notation fc := (c_features O c).
  Local Notation lc := (c_labels O c).
  Local Notation nc := (c_nodes O c).
  Local Notation tc := (c_trees O c).
  Local Notation kind := (c_extend O c).
  Local Notation ctree := (ctree O).
  Local Notation ctop := (ctop O).
  Local Notation cids := (cids O).
  Local Notation cleaves := (cleaves O).
  Local Notation height := (height O).
  Local Notation stored := (stored O fc lc).
  Local Notation blank_node := (blank_node O c).
  Local Notation cpool := (cpool O c).
  Local Notation arrays := (arrays O c).
  Local Notation same := (same O).
  Local Notation all_cids := (all_cids O).

  Definition oids (o : option ctree) : list Z := match o with Some t => cids t | None => [] end.
  Definition rid (o : option ctree) : Z := match o with Some t => ctop t | None => -1 end.
  Definition inv (s : coarse) (ts : list (option ctree)) : Prop :=
    Z.of_nat (length ts) = tc /\
    (forall i o, nth_error ts i = Some o -> rd (roots (fr s)) (Z.of_nat i) = Ok (rid o) /\ match o with Some t => stored (fr s) (-1) t | None => True end) /\
    cpool s (all_cids ts) /\ arrays s /\ limit O s = repeat (first_limit O c) (Z.to_nat tc).

  Lemma all_cids_app : forall a b, all_cids (a ++ b) = all_cids a ++ all_cids b.
  Proof. intros. unfold Coarse_Spec.all_cids. now rewrite map_app, concat_app. Qed.
  Lemma all_cids_cons : forall o b, all_cids (o :: b) = oids o ++ all_cids b.
  Proof. reflexivity. Qed.
  Lemma all_cids_upd : forall ts i o', (i < length ts)%nat -> Permutation (all_cids (upd ts i o')) (all_cids (upd ts i None) ++ oids o').
  Proof.
    induction ts as [|o ts IH]; intros i o' Hi; [cbn in Hi; lia|]. destruct i as [|i].
    - cbn [upd]. rewrite !all_cids_cons. cbn [oids app]. apply Permutation_app_comm.
    - cbn [upd]. rewrite !all_cids_cons. rewrite <- app_assoc. apply Permutation_app_head. apply IH. cbn in Hi. lia.
  Qed.
  Lemma all_cids_in : forall ts i o j, nth_error ts i = Some o -> In j (oids o) -> In j (all_cids ts).
  Proof. intros ts i o j H Hj. unfold Coarse_Spec.all_cids. apply in_concat. exists (oids o). split; [|exact Hj]. apply in_map_iff. exists o. split; [reflexivity|]. now apply nth_error_In with i. Qed.
  Lemma all_cids_alike : forall ts ts', Forall2 (fun o o' => oids o' = oids o) ts ts' -> all_cids ts' = all_cids ts.
  Proof. intros ts ts' H. induction H as [|o o' ts ts' E H IH]; [reflexivity|]. rewrite !all_cids_cons. now rewrite IH, E. Qed.

  Lemma arrays_same : forall s s', length (nodes (fr s')) = length (nodes (fr s)) -> same s s' -> arrays s -> arrays s'.
  Proof. unfold Coarse_Heap.same, Coarse_Walk.arrays. intros. intuition congruence. Qed.
  Lemma inv_same : forall s s' ts, drawn_only O s s' -> inv s ts -> inv s' ts.
  Proof.
    intros s s' ts [En [Er [Ea Es]]] [H1 [H2 [H3 [H4 H5]]]]. split; [exact H1|]. split; [|split; [now apply cpool_same with s|split; [apply arrays_same with s; auto; now rewrite En|now rewrite (limit_same O _ _ Es)]]].
    intros i o Hi. destruct (H2 i o Hi) as [A B]. rewrite Er. split; [exact A|]. destruct o as [t|]; [|exact I]. apply stored_frame with (fr s); auto. intros j _. now rewrite En.
  Qed.
  Lemma inv_before : forall s ts i t, inv s ts -> nth_error ts i = Some (Some t) -> before O c (Z.of_nat i) (rd (limit O s) (Z.of_nat i)) s (-1) t (all_cids (upd ts i None)) 0.
  Proof.
    intros s ts i t [H1 [H2 [H3 [H4 H5]]]] Hi. destruct (H2 i _ Hi) as [A B]. split; [exact B|]. split; [|split; [constructor|split; [left; auto|reflexivity]]].
    eapply cpool_perm; [|exact H3]. rewrite <- (upd_same_id _ ts i (Some t) Hi) at 1. apply all_cids_upd. apply nth_error_Some. congruence.
  Qed.
  Lemma inv_after : forall s s' ts i t t', inv s ts -> nth_error ts i = Some (Some t) -> after O c (Z.of_nat i) s s' (-1) t t' (all_cids (upd ts i None)) -> inv s' (upd ts i (Some t')).
  Proof.
    intros s s' ts i t t' V Hi [A1 [A2 [A3 [A4 A5]]]]. pose proof V as [H1 [H2 [H3 [H4 H5]]]]. assert (Li : (i < length ts)%nat) by (apply nth_error_Some; congruence).
    pose proof H3 as [P1 [P2 [P3 _]]]. destruct (H2 i _ Hi) as [Hr _]. pose proof (rd_bounds _ _ _ _ Hr) as Br. change (-1 =? -1) with true in A4. cbv iota in A4. rewrite Nat2Z.id in A4.
    split; [now rewrite upd_length|]. split; [|split; [|split]].
    - intros j o Hj. destruct (Nat.eq_dec j i) as [->|N].
      + rewrite nth_error_upd_same in Hj by exact Li. injection Hj as <-. split; [|exact A1]. rewrite A4. apply rd_ok_iff. rewrite Nat2Z.id. split; [lia|]. apply nth_error_upd_same. lia.
      + rewrite nth_error_upd_other in Hj by congruence. destruct (H2 j o Hj) as [B1 B2]. split.
        * rewrite A4. apply rd_ok_iff in B1. apply rd_ok_iff. split; [lia|]. rewrite Nat2Z.id in *. rewrite nth_error_upd_other by congruence. tauto.
        * destruct o as [u|]; [|exact I]. apply stored_frame with (fr s); [|exact B2]. intros q Hq.
          assert (Iq : In q (all_cids (upd ts i None))) by (apply all_cids_in with j (Some u); [now rewrite nth_error_upd_other by congruence|exact Hq]).
          assert (Bq : 0 <= q < nc) by (apply P3; apply all_cids_in with j (Some u); auto). specialize (A3 q Iq). rewrite (proj2 (Z.eqb_neq q (-1))) in A3 by lia. exact A3.
    - eapply cpool_perm; [|exact A2]. symmetry. apply (all_cids_upd ts i (Some t') Li).
    - apply arrays_same with s; auto. destruct A2 as [Q _]. lia.
    - now rewrite (limit_same O _ _ A5).
  Qed.
  Lemma inv_recounted : forall s s' ts, inv s ts -> recounted O (fr s) (fr s') -> avail s' = avail s -> same s s' ->
    exists ts', Forall2 (fun o o' => match o, o' with Some t, Some t' => alike O t t' | None, None => True | _, _ => False end) ts ts' /\ inv s' ts'.
  Proof.
    intros s s' ts [H1 [H2 [H3 [H4 H5]]]] Rc Ea Es.
    destruct (Forall2_choice _ _ (fun o o' => match o, o' with Some t, Some t' => alike O t t' /\ stored (fr s') (-1) t' | None, None => True | _, _ => False end) ts) as [ts' F].
    { intros o Ho. apply In_nth_error in Ho. destruct Ho as [i Hi]. destruct (H2 i o Hi) as [_ B]. destruct o as [t|]; [|now exists None]. destruct (recounted_stored O c t (fr s) (fr s') (-1) Rc B) as [t' [A1 A2]]. exists (Some t'). auto. }
    exists ts'. split. { clear -F. induction F as [|o o' ts ts' E F IH]; constructor; auto. destruct o, o'; tauto. }
    pose proof Rc as [R1 [R2 R3]]. split; [now rewrite <- (Forall2_len _ _ _ _ _ F)|]. split; [|split; [|split; [now apply arrays_same with s|now rewrite (limit_same O _ _ Es)]]].
    - intros i o' Hi. destruct (Forall2_nth _ _ _ _ _ F i o' Hi) as [o [Ho X]]. destruct (H2 i o Ho) as [A _]. rewrite R1, A. destruct o as [t|], o' as [t'|]; try contradiction; [|auto].
      destruct X as [X1 X2]. split; [|exact X2]. cbn [rid]. now rewrite (proj1 (alike_facts O _ _ X1)).
    - rewrite (all_cids_alike ts ts'); [now apply recounted_cpool with s|]. clear -F. induction F as [|o o' ts ts' E F IH]; constructor; auto. destruct o as [t|], o' as [t'|]; try contradiction; [|reflexivity].
      cbn [oids]. destruct E as [E _]. now destruct (alike_facts O _ _ E) as [_ [X _]].
  Qed.

  (** A loop over the trees. *)
  Lemma each_tree : forall (St : Type) (pj : St -> coarse) (body : Z -> St -> res St) (R : coarse -> coarse -> option ctree -> option ctree -> Prop) (W : coarse -> coarse -> Prop),
    (forall s, W s s) -> (forall a b d, W a b -> W b d -> W a d) -> (forall a b d e o o', W a b -> R b d o o' -> W d e -> R a e o o') ->
    (forall st i ts o st', inv (pj st) ts -> nth_error ts i = Some o -> body (Z.of_nat i) st = Ok st' -> exists o', R (pj st) (pj st') o o' /\ W (pj st) (pj st') /\ inv (pj st') (upd ts i o')) ->
    forall st st' ts, inv (pj st) ts -> forZ (Z.to_nat tc) 0 body st = Ok st' -> exists ts', Forall2 (R (pj st) (pj st')) ts ts' /\ W (pj st) (pj st') /\ inv (pj st') ts'.
  Proof.
    intros St pj body R W W1 W2 RW Step st st' ts V H. pose proof V as [Len _].
    pose (P := fun (i : Z) (x : St) => 0 <= i /\ exists dn, length dn = Z.to_nat i /\ Forall2 (R (pj st) (pj x)) (firstn (Z.to_nat i) ts) dn /\ W (pj st) (pj x) /\ inv (pj x) (dn ++ skipn (Z.to_nat i) ts)).
    assert (F : P (0 + Z.of_nat (Z.to_nat tc)) st').
    { refine (forZ_inv_post _ P _ _ 0 _ _ _ _ H).
      - split; [lia|]. exists []. split; [reflexivity|]. split; [constructor|]. split; [apply W1|exact V].
      - intros i x x' Hi [_ [dn [L1 [F1 [F2 F3]]]]] Hb. destruct (nth_error ts (Z.to_nat i)) as [o|] eqn:Ho; [|apply nth_error_None in Ho; lia].
        destruct (skipn_nth _ _ _ _ Ho) as [S1 S2]. rewrite S1 in F3.
        assert (Hn : nth_error (dn ++ o :: skipn (S (Z.to_nat i)) ts) (Z.to_nat i) = Some o) by (rewrite nth_error_app2 by lia; rewrite L1, Nat.sub_diag; reflexivity).
        destruct (Step x (Z.to_nat i) _ o x' F3 Hn) as [o' [R1 [R2 R3]]]; [rewrite Z2Nat.id by lia; exact Hb|]. rewrite <- L1 in R3. rewrite upd_middle in R3.
        split; [lia|]. exists (dn ++ [o']). replace (Z.to_nat (i + 1)) with (S (Z.to_nat i)) by lia. split; [rewrite app_length; cbn; lia|]. split; [|split; [now apply W2 with (pj x)|now rewrite L1 in R3]].
        rewrite S2. apply Forall2_app.
        + clear -F1 R2 RW W1. induction F1 as [|a b la lb H F IH]; constructor; auto. apply RW with (pj st) (pj x); auto.
        + constructor; [|constructor]. apply RW with (pj x) (pj x'); auto. }
    destruct F as [_ [dn [L1 [F1 [F2 F3]]]]]. replace (Z.to_nat (0 + Z.of_nat (Z.to_nat tc))) with (length ts) in * by lia. rewrite firstn_all in F1. rewrite skipn_all, app_nil_r in F3. exists dn. auto.
  Qed.

  (** No free node is found only if there is none. *)
  Lemma findZ_none : forall A (body : Z -> res (option A)) n i, findZ n i body = Ok None -> forall j, i <= j < i + Z.of_nat n -> body j = Ok None.
  Proof.
    induction n as [|n IH]; intros i H j Hj; [lia|]. cbn [findZ] in H. destruct (body i) as [[a|]| | |] eqn:E; cbn [bind] in H; try discriminate. destruct (Z.eq_dec j i) as [->|N]; [exact E|]. apply IH with (i + 1); [exact H|lia].
  Qed.
  Lemma available_none : forall s u s', cpool s u -> available_node O c s = Ok (-1, s') -> avail s = 0.
  Proof.
    intros s u s' [P1 [P2 [P3 [P4 [P5 P6]]]]] H. unfold available_node in H. destruct (Z.eqb_spec (avail s) 0) as [E|N]; [exact E|]. inv_bind H.
    assert (B : (length u <= Z.to_nat nc)%nat).
    { pose proof (NoDup_incl_length P2 (l' := zrange nc)) as X. rewrite zrange_length in X. apply X. intros j Hj. apply P3 in Hj. unfold zrange. apply in_map_iff. exists (Z.to_nat j). split; [lia|]. apply in_seq. lia. }
    destruct v as [j|].
    - exfalso. injection H as -> <-. assert (Y : forall m z, findZ m z (fun i => do k <- sint (i + last O s); do n <- get s (Z.rem k nc); Ok (if available n then Some (Z.rem k nc) else None)) = Ok (Some (-1)) -> False).
      { induction m as [|m IH]; intros z X; cbn [findZ] in X; [discriminate|]. inv_bind X. inv_bind E0. inv_bind E0. apply rd_bounds in E2. destruct (available v1); injection E0 as <-; [injection X as X; lia|]. now apply IH in X. }
      apply Y in E. exact E.
    - assert (Used : forall j, 0 <= j < nc -> In j u).
      { intros j Hj. pose proof (findZ_none _ _ _ _ E) as X. set (q := (j - last O s) mod nc). pose proof (Z.mod_pos_bound (j - last O s) nc ltac:(lia)) as Bq. fold q in Bq. specialize (X q ltac:(lia)). cbv beta in X.
        unfold sint in X. destruct (_ && _) in X; [|discriminate]. cbn [bind] in X. inv_bind X. pose proof (rd_bounds _ _ _ _ E0) as Br.
        assert (Ej : Z.rem (q + last O s) nc = j).
        { assert (M : (Z.rem (q + last O s) nc) mod nc = j mod nc). { pose proof (Z.quot_rem' (q + last O s) nc) as D. replace (Z.rem (q + last O s) nc) with (q + last O s + (- Z.quot (q + last O s) nc) * nc) by lia. rewrite Z_mod_plus_full. unfold q. rewrite Zplus_mod_idemp_l. f_equal. lia. }
          rewrite !Z.mod_small in M by lia. exact M. }
        rewrite Ej in *. apply (P4 j v E0). destruct (available v); [discriminate|reflexivity]. }
      assert (B2 : (Z.to_nat nc <= length u)%nat). { rewrite <- (zrange_length nc). apply NoDup_incl_length; [apply zrange_nodup|]. intros j Hj. apply Used. now apply zrange_in in Hj. }
      lia.
  Qed.

  (** The links lead from nodes of a tree to nodes of the same tree. *)
  Lemma shape_inside : forall t f p j n, shape O f p t -> In j (cids t) -> rd (nodes f) j = Ok n ->
    (parent O n = p \/ In (parent O n) (cids t)) /\ (is_leaf O n = false -> In (child_left O n) (cids t) /\ In (child_right O n) (cids t)).
  Proof.
    induction t as [i cs|i d v cs l IHl r IHr]; intros f p j n [m [M1 [M2 M3]]] Hj Hn; cbn [Coarse_Spec.ctop Coarse_Spec.cids] in *.
    - destruct Hj as [<-|[]]. assert (m = n) by congruence. subst m. split; [auto|]. congruence.
    - destruct M3 as [A1 [A2 [A3 [A4 A5]]]]. destruct Hj as [<-|Hj].
      + assert (m = n) by congruence. subst m. split; [auto|]. intros _. rewrite A2, A3. split; right; apply in_or_app; [left|right]; apply ctop_in.
      + apply in_app_or in Hj. destruct Hj as [Hj|Hj].
        * destruct (IHl f i j n A4 Hj Hn) as [B1 B2]. split; [right; destruct B1 as [->|B1]; [now left|right; apply in_or_app; now left]|]. intros X. destruct (B2 X). split; right; apply in_or_app; now left.
        * destruct (IHr f i j n A5 Hj Hn) as [B1 B2]. split; [right; destruct B1 as [->|B1]; [now left|right; apply in_or_app; now right]|]. intros X. destruct (B2 X). split; right; apply in_or_app; now right.
  Qed.
  Lemma recounted_linked : forall f f', recounted O f f' -> linked O f f'.
  Proof. intros f f' [_ [_ R]] j n H. destruct (R j n H) as [cs [K1 _]]. exists (set_counters O n cs). auto. Qed.
  Lemma recount_inside : forall steps s q label s' t, shape O (fr s) (-1) t -> (q = -1 \/ In q (cids t)) -> recount_up O c steps s q label = Ok s' -> forall j, ~ In j (cids t) -> get s' j = get s j.
  Proof.
    induction steps as [|steps IH]; intros s q label s' t Sh Hq H j Nj; [discriminate|]. pose proof H as Whole. cbn [recount_up] in H. destruct ((0 <? q) && (q <? nc)) eqn:B; [|now injection H as <-].
    apply andb_prop in B. destruct B as [B _]. apply Z.ltb_lt in B. destruct Hq as [->|Hq]; [lia|].
    inv_bind H. rename v into n, E into Hn. inv_bind H. inv_bind H. inv_bind H. inv_bind H. inv_bind H. apply change_inv in E3. destruct E3 as [m [m' [A1 [A2 ->]]]]. assert (m = n) by congruence. subst m.
    inv_bind A2. injection A2 as <-. apply wr_length in E3. assert (Nl : child_left O n <> -1) by (intros X; unfold Coarse_Model.get in E; rewrite X, rd_oob in E by lia; discriminate).
    pose proof (recount_one O (fr s) q n _ Hn E3 Nl) as Rc. destruct (shape_inside _ _ _ _ _ Sh Hq Hn) as [Pp _].
    transitivity (get (with_fr O s (put (fr s) q (set_counters O n v3))) j); [apply (IH _ (parent O n) label s' t); auto|].
    - apply shape_linked with (fr s); [|exact Sh]. apply recounted_linked. exact Rc.
    - rewrite (get_put O s q n _ j A1). rewrite (proj2 (Z.eqb_neq q j)); [reflexivity|]. intros ->. contradiction.
  Qed.
  Lemma follow_inside : forall A (visit : Z -> A -> res A) steps s q x a t leaf a', shape O (fr s) (-1) t -> In q (cids t) -> follow O visit steps s q x a = Ok (leaf, a') -> In leaf (cids t).
  Proof.
    induction steps as [|steps IH]; intros s q x a t leaf a' Sh Hq H; [discriminate|]. cbn [follow] in H. inv_bind H. rename v into n, E into Hn. inv_bind H. destruct (is_leaf O n) eqn:Lf; [now injection H as <- <-|].
    inv_bind H. inv_bind H. destruct (shape_inside _ _ _ _ _ Sh Hq Hn) as [_ X]. destruct (X Lf). eapply IH; [exact Sh| |exact H]. match goal with |- context [if nlt O ?a ?b then _ else _] => destruct (nlt O a b) end; assumption.
  Qed.
  Lemma update_branch_inside : forall s i x label s' t, shape O (fr s) (-1) t -> rd (roots (fr s)) i = Ok (ctop t) -> update_branch O c s i x label = Ok s' -> forall j, ~ In j (cids t) -> get s' j = get s j.
  Proof.
    intros s i x label s' t Sh Hr H j Nj. unfold update_branch, get_leaf in H. rewrite Hr in H. cbn [bind] in H. inv_bind H. rename v into leaf. inv_bind H. rename v into n.
    assert (Il : In leaf (cids t)).
    { destruct (ctop t <? 0); [injection E as <-; unfold Coarse_Model.get in E0; rewrite rd_oob in E0 by lia; discriminate|]. inv_bind E. destruct v as [q u]. injection E as <-. eapply follow_inside; [exact Sh|apply ctop_in|exact E1]. }
    destruct (shape_inside _ _ _ _ _ Sh Il E0) as [Pp _]. eapply recount_inside; eauto.
  Qed.

  (** What training does to one tree. *)
  Section Point.
    Variable x : list (num O).
    Variable label : Z.
    Hypothesis Hx : Z.of_nat (length x) = fc.
    Definition extending : bool := (kind =? EXTEND_ORIGINAL) || (kind =? EXTEND_PARTIAL_UPDATE) || (kind =? EXTEND_GHOST) || (kind =? EXTEND_COUNTER_NO_UPDATE).
    Definition broom (D : Z) (t : ctree) : Prop := cobble O c = true -> height t + D + 1 <= first_limit O c.
    Local Notation grown := (grown O kind lc label x broom).
    Inductive tree_step (s s' : coarse) : option ctree -> option ctree -> Prop :=
    | ts_none : avail s' = 0 -> tree_step s s' None None
    | ts_first : forall i, avail s <> 0 -> tree_step s s' None (Some (single O lc label i))
    | ts_grown : forall t t', extending = true -> grown 0 false t t' -> tree_step s s' (Some t) (Some t')
    | ts_kept : forall t, extending = false -> tree_step s s' (Some t) (Some t).
    Definition trained (s s' : coarse) (o o' : option ctree) : Prop :=
      exists o1, tree_step s s' o o1 /\
        if c_optimize O c then match o1, o' with Some t, Some t' => alike O t t' | None, None => True | _, _ => False end else o' = o1.
    Definition fewer (s s' : coarse) : Prop := avail s = 0 -> avail s' = 0.

    Lemma grown_size : forall room D b t t', Coarse_Train.grown O kind lc label x room D b t t' -> (length (cids t) <= length (cids t'))%nat.
    Proof.
      intros room D b t t' G. induction G; cbn [Coarse_Spec.cids length] in *; rewrite ?app_length in *; try lia.
      - unfold fork_side. destruct left; cbn [Coarse_Spec.cids length]; rewrite ?app_length; cbn; lia.
      - unfold fork_side. destruct left; cbn [Coarse_Spec.cids length]; rewrite ?app_length; cbn; lia.
      - destruct t; cbn; lia.
    Qed.
    Lemma grown_room : forall (room room' : Z -> ctree -> Prop) D b t t', (forall D t, room D t -> room' D t) -> Coarse_Train.grown O kind lc label x room D b t t' -> Coarse_Train.grown O kind lc label x room' D b t t'.
    Proof. intros room room' D b t t' W G. induction G; [apply g_enter|apply g_leaf|eapply g_left|eapply g_right|eapply g_neither|apply g_above|apply g_above_twice|apply g_ghost|apply g_lost]; eauto. Qed.
    Lemma all_cids_length : forall ts i t t', nth_error ts i = Some (Some t) -> (length (cids t) <= length (cids t'))%nat -> (length (all_cids ts) <= length (all_cids (upd ts i (Some t'))))%nat.
    Proof.
      intros ts i t t' Hi H. assert (Li : (i < length ts)%nat) by (apply nth_error_Some; congruence). rewrite (Permutation_length (all_cids_upd ts i (Some t') Li)).
      rewrite <- (upd_same_id _ ts i (Some t) Hi) at 1. rewrite (Permutation_length (all_cids_upd ts i (Some t) Li)). rewrite !app_length. cbn [oids]. lia.
    Qed.
    Lemma cpool_avail : forall s u, cpool s u -> 0 <= avail s /\ avail s = nc - Z.of_nat (length u).
    Proof.
      intros s u [P1 [P2 [P3 [P4 [P5 P6]]]]]. split; [|exact P5]. pose proof (NoDup_incl_length P2 (l' := zrange nc)) as X. rewrite zrange_length in X.
      assert (I : incl u (zrange nc)) by (intros j Hj; apply zrange_in; auto). specialize (X I). lia.
    Qed.

    Hypothesis Hkind : kind <> EXTEND_BARYCENTER.
    Lemma train_tree_ok : forall s i ts o s' b, inv s ts -> nth_error ts i = Some o -> train_tree O log_ rnd c s x label (Z.of_nat i) = Ok (s', b) ->
      exists o', tree_step s s' o o' /\ fewer s s' /\ inv s' (upd ts i o').
    Proof.
      intros s i ts o s' b V Hi H. pose proof V as [H1 [H2 [H3 [H4 H5]]]]. destruct (H2 i o Hi) as [Hr Hs]. unfold train_tree in H. rewrite Hr in H. cbn [bind] in H.
      assert (Li : (i < length ts)%nat) by (apply nth_error_Some; congruence). pose proof H3 as [P1 [P2 [P3 [P4 [P5 P6]]]]].
      destruct o as [t|]; cbn [rid] in H.
      - assert (Bt : 0 <= ctop t < nc) by (apply P3; apply all_cids_in with i (Some t); auto; apply ctop_in). rewrite (proj2 (Z.eqb_neq (ctop t) (-1))) in H by lia. inv_bind H. clear E.
        change ((kind =? EXTEND_ORIGINAL) || (kind =? EXTEND_PARTIAL_UPDATE) || (kind =? EXTEND_GHOST) || (kind =? EXTEND_COUNTER_NO_UPDATE)) with extending in H.
        destruct extending eqn:Ex.
        + inv_bind H. injection H as <- <-. pose proof (inv_before s ts i t V Hi) as Bf. destruct (extend_ok O log_ rnd c L Hlife _ _ x label Hx _ _ _ _ _ _ _ Bf E) as [t' [G A]].
          pose proof (inv_after _ _ _ _ _ _ V Hi A) as V'. exists (Some t'). split; [|split; [|exact V']].
          * apply ts_grown; auto. eapply grown_room; [|exact G]. intros D u Rm Cb. apply Rm; auto. rewrite H5. apply rd_repeat. lia.
          * intros Z0. destruct V' as [_ [_ [C' _]]]. apply cpool_avail in C', H3. pose proof (all_cids_length _ _ _ _ Hi (grown_size _ _ _ _ _ G)). lia.
        + assert (Es : s' = s).
          { destruct ((kind =? EXTEND_NONE) && (avail s <=? 2)); [now injection H as <- <-|]. rewrite (proj2 (Z.eqb_neq kind EXTEND_BARYCENTER)) in H by exact Hkind. now injection H as <- <-. }
          subst s'. exists (Some t). split; [now apply ts_kept|]. split; [intros X; exact X|]. now rewrite upd_same_id.
      - change (-1 =? -1) with true in H. cbv iota in H. inv_bind H. destruct v as [a s1]. pose proof E as E0. apply available_node_inv in E. destruct E as [[-> ->]|[n [Ga [Aa ->]]]].
        + apply available_none with (u := all_cids ts) in E0; [|exact H3]. cbn in H. injection H as <- <-. exists None. split; [now apply ts_none|]. split; [intros X; exact X|]. now rewrite upd_same_id.
        + assert (Na : avail s <> 0). { unfold available_node in E0. destruct (Z.eqb_spec (avail s) 0) as [X|X]; [|exact X]. injection E0 as <- _. unfold Coarse_Model.get in Ga. rewrite rd_oob in Ga by lia. discriminate. }
          pose proof (rd_bounds _ _ _ _ Ga) as Ba. rewrite (proj2 (Z.leb_le 0 a)) in H by lia. assert (n = blank_node) by (apply (P6 a n); auto). subst n.
          inv_bind H. unfold set_root in E. inv_bind E. injection E as <-. apply wr_inv in E1. destruct E1 as [Br ->]. inv_bind H. apply change_inv in E. destruct E as [m [m' [A1 [A2 ->]]]]. injection A2 as <-.
          assert (m = blank_node) by (change (get s a = Ok m) in A1; congruence). subst m. inv_bind H. injection H as <- <-. apply sample_block_inv in E. destruct E as [n [bx [B1 [B2 ->]]]].
          cbn [Coarse_Model.fr with_avail with_fr with_last] in B1. rewrite rd_put with (m := blank_node) in B1 by exact A1. rewrite Z.eqb_refl in B1. injection B1 as <-.
          cbn [Mondrian_Model.counters set_tau set_children set_parent Coarse_Model.blank_node] in B2. rewrite repeat_length in B2.
          set (na := set_tau O (set_counters O _ _) _). set (s2 := with_fr O _ _).
          assert (G : forall j, get s2 j = if a =? j then Ok na else get s j).
          { intros j. unfold s2. rewrite (get_put O _ a (set_tau O (set_children O (set_parent O blank_node (-1)) (-1) (-1)) (n_ 0)) na j).
            - destruct (Z.eqb_spec a j) as [X|X]; [reflexivity|]. unfold Coarse_Model.get. cbn [Coarse_Model.fr with_avail with_fr with_last]. rewrite rd_put with (m := blank_node) by exact A1. now rewrite (proj2 (Z.eqb_neq a j)) by exact X.
            - unfold Coarse_Model.get. cbn [Coarse_Model.fr with_avail with_fr with_last]. rewrite rd_put with (m := blank_node) by exact A1. now rewrite Z.eqb_refl. }
          assert (Rt : roots (fr s2) = upd (roots (fr s)) i a) by (unfold s2; cbn; now rewrite Nat2Z.id).
          assert (Un : ~ In a (all_cids ts)) by (intros X; apply (P4 a _ Ga) in X; congruence).
          assert (Se : same s s2) by (repeat split).
          exists (Some (single O lc label a)). split; [now apply ts_first|]. split; [intros X; contradiction|].
          assert (Ua : available na = false) by (apply used; [exact L|exact Hlife]).
          split; [now rewrite upd_length|]. split; [|split; [|split]].
          * intros j o Hj. destruct (Nat.eq_dec j i) as [->|N].
            -- rewrite nth_error_upd_same in Hj by exact Li. injection Hj as <-. split.
               ++ rewrite Rt. apply rd_ok_iff. rewrite Nat2Z.id. cbn in Br. split; [lia|]. apply nth_error_upd_same. cbn in Br. lia.
               ++ exists na. split; [change (get s2 a = Ok na); rewrite G; now rewrite Z.eqb_refl|]. split; [reflexivity|]. split.
                  { cbn [top_counters Coarse_Train.single]. unfold na, bumped, at_label. cbn [Mondrian_Model.counters set_tau set_counters set_box set_children set_parent Coarse_Model.blank_node]. reflexivity. }
                  split; [unfold na; cbn [Mondrian_Model.counters set_tau set_counters set_box set_children set_parent Coarse_Model.blank_node]; rewrite upd_length; apply repeat_length|]. split; [exact Hlife|]. auto.
            -- rewrite nth_error_upd_other in Hj by congruence. destruct (H2 j o Hj) as [C1 C2]. split.
               ++ rewrite Rt. apply rd_ok_iff in C1. apply rd_ok_iff. rewrite Nat2Z.id in *. rewrite nth_error_upd_other by congruence. tauto.
               ++ destruct o as [u|]; [|exact I]. apply stored_frame with (fr s); [|exact C2]. intros q Hq. change (get s2 q = get s q). rewrite G. rewrite (proj2 (Z.eqb_neq a q)); [reflexivity|].
                  intros <-. apply Un. now apply all_cids_in with j (Some u).
          * apply cpool_perm with (a :: all_cids ts).
            { rewrite (all_cids_upd ts i (Some (single O lc label a)) Li). rewrite <- (upd_same_id _ ts i None Hi) at 1. cbn [oids Coarse_Train.single Coarse_Spec.cids]. apply Permutation_cons_append. }
            split; [unfold s2; cbn [Coarse_Model.fr with_avail with_fr with_last]; rewrite !put_length; exact P1|]. split; [now constructor|]. split; [intros j [<-|Hj]; [lia|auto]|]. split; [|split].
            -- intros j n. rewrite G. destruct (Z.eqb_spec a j) as [->|N]; [intros X; injection X as <-; cbn [In]; tauto|]. intros X. rewrite <- (P4 j n X). cbn [In]. intuition congruence.
            -- cbn [length]. unfold s2. cbn. lia.
            -- intros j n. rewrite G. destruct (Z.eqb_spec a j) as [->|N]; [intros X; injection X as <-; congruence|apply P6].
          * apply arrays_same with s; auto. unfold s2. cbn [Coarse_Model.fr with_avail with_fr with_last]. now rewrite !put_length.
          * exact H5.
    Qed.

    Lemma train_body : forall s1 b1 i ts1 o s2 b2, inv s1 ts1 -> nth_error ts1 i = Some o ->
      (do (s, has_trained) <- train_tree O log_ rnd c s1 x label (Z.of_nat i);
       do s <- (if c_optimize O c then update_branch O c s (Z.of_nat i) x label else Ok s);
       Ok (s, if negb has_trained then false else b1)) = Ok (s2, b2) ->
      exists o', trained s1 s2 o o' /\ fewer s1 s2 /\ inv s2 (upd ts1 i o').
    Proof.
      intros s1 b1 i ts1 o s2 b2 V1 Hi Hb. inv_bind Hb. destruct v as [s3 b3]. inv_bind Hb. injection Hb as <- _. rename v into s4.
      destruct (train_tree_ok s1 i ts1 o s3 b3 V1 Hi E) as [o1 [T [F V2]]]. unfold trained. destruct (c_optimize O c).
      + pose proof E0 as EU. apply update_branch_ok in E0. destruct E0 as [R1 [R2 R3]].
        (* only this tree may have changed *)
        assert (Li : (i < length ts1)%nat) by (apply nth_error_Some; congruence).
        pose proof V2 as [A1 [A2 [A3 [A4 A5]]]]. destruct (A2 i o1 (nth_error_upd_same _ _ _ _ Li)) as [Hr Hs]. destruct o1 as [t|].
        2: { exfalso. unfold update_branch, get_leaf in EU. cbn [rid] in Hr. rewrite Hr in EU. cbn in EU. discriminate. }
        cbn [rid] in Hr. pose proof (update_branch_inside _ _ _ _ _ _ (stored_shape O c _ _ _ Hs) Hr EU) as Fr. destruct (recounted_stored O c t _ _ _ R1 Hs) as [t' [Al St]]. destruct (alike_facts O _ _ Al) as [T1 [T2 _]].
        assert (T' : tree_step s1 s4 o (Some t)) by (inversion T; subst; [apply ts_first|apply ts_grown|apply ts_kept]; auto).
        exists (Some t'). split; [exists (Some t); split; [exact T'|exact Al]|]. split; [unfold fewer in *; intros X; rewrite R2; auto|]. pose proof A3 as [P1 [P2 [P3 _]]].
        assert (Pm : all_cids (upd ts1 i (Some t')) = all_cids (upd ts1 i (Some t))).
        { clear -T2 Li. revert i Li. induction ts1 as [|o ts IH]; intros i Li; [reflexivity|]. destruct i as [|i]; cbn [upd]; rewrite !all_cids_cons; [cbn [oids]; now rewrite T2|]. rewrite IH; [reflexivity|]. cbn in Li. lia. }
        split; [now rewrite upd_length in *|]. split; [|split; [rewrite Pm; now apply recounted_cpool with s3|split; [apply arrays_same with s3; auto; now destruct R1 as [_ [X _]]|now rewrite (limit_same O _ _ R3)]]].
        intros j o0 Hj. destruct R1 as [R1 _]. rewrite R1. destruct (Nat.eq_dec j i) as [->|N].
        * rewrite nth_error_upd_same in Hj by exact Li. injection Hj as <-. split; [cbn [rid]; now rewrite T1|exact St].
        * rewrite nth_error_upd_other in Hj by congruence. destruct (A2 j o0) as [B1 B2]; [now rewrite nth_error_upd_other by congruence|]. split; [exact B1|]. destruct o0 as [u|]; [|exact I].
          apply stored_frame with (fr s3); [|exact B2]. intros q Hq. apply (Fr q). intros X.
          assert (Y : NoDup (all_cids (upd ts1 i None) ++ cids t)) by (eapply Permutation_NoDup; [|exact P2]; apply (all_cids_upd ts1 i (Some t) Li)). apply nodup_app in Y. destruct Y as [_ [_ Y]]. apply (Y q); [|exact X].
          apply all_cids_in with j (Some u); [now rewrite nth_error_upd_other by congruence|exact Hq].
      + injection E0 as <-. exists o1. split; [exists o1; auto|]. auto.
    Qed.
    Lemma train_loop : forall s ts s' b b0, inv s ts ->
      forZ (Z.to_nat tc) 0
        (fun i '(s, fully_trained) =>
           do (s, has_trained) <- train_tree O log_ rnd c s x label i;
           do s <- (if c_optimize O c then update_branch O c s i x label else Ok s);
           Ok (s, if negb has_trained then false else fully_trained)) (s, b0) = Ok (s', b) ->
      exists ts', Forall2 (trained s s') ts ts' /\ fewer s s' /\ inv s' ts'.
    Proof.
      intros s ts s' b b0 V H.
      refine (each_tree (coarse * bool) fst _ trained fewer _ _ _ _ (s, b0) (s', b) ts V H); unfold fewer; auto.
      - intros a1 b1 d1 e1 o o' Hab [o1 [T Ho]] Hde. exists o1. split; [|exact Ho]. inversion T; subst; [apply ts_none|apply ts_first|apply ts_grown|apply ts_kept]; auto.
      - intros [s1 b1] i ts1 o [s2 b2] V1 Hi Hb. now apply train_body with b1 b2.
    Qed.
  End Point.

  (** ** Fading and trimming *)
  Lemma fade_ok : forall s s', tree_fade_counts O c s = Ok s' -> drawn_only O s s'.
  Proof.
    intros s s' H. unfold tree_fade_counts in H. refine (forZ_inv_post _ (fun _ s1 => drawn_only O s s1) _ _ 0 _ _ _ _ H); [apply drawn_only_refl|].
    intros i s1 s2 _ H1 H2. inv_bind H2. inv_bind H2. destruct v0 as [d [s3 u]]. injection H2 as <-. eapply drawn_only_trans; [exact H1|].
    change s3 with (fst (snd (d, (s3, u)))). eapply walk_keeps; [apply drawn_only_refl|apply drawn_only_trans| |exact E0].
    intros q i0 a q' a' X. unfold fade_visit in X. inv_bind X. inv_bind X. injection X as <- <-. apply wr_length in E2. repeat split. exact E2.
  Qed.
  Definition trimmed (o o' : option ctree) : Prop := o' = o \/ exists j t t', o = Some t /\ o' = Some t' /\ cut O j t t'.
  Definition trim_safe : Prop := c_trim O c = TRIM_NONE \/ c_trim O c = TRIM_COUNT \/ c_trim O c = TRIM_FADING \/
    (c_trim O c = TRIM_RANDOM /\ forall q, nlt O (rnd q) (ndiv O (n_ 1) (nadd O (n_ 0) (n_ 1))) = true).
  Lemma vfold_id : forall js s a s' a', vfold O _ (trim_visit O rnd c) js s a = Ok (s', a') ->
    drawn_only O s s' /\ (In (smallest_id O a') js \/ smallest_id O a' = smallest_id O a) /\
    (trim_safe -> c_trim O c <> TRIM_NONE -> js <> [] -> a = mkTrim O (n_ 0) (n_ 0) (n_ (-1)) 0 -> In (smallest_id O a') js).
  Proof.
    induction js as [|j js IH]; intros s a s' a' H; cbn [vfold] in H.
    - injection H as <- <-. split; [apply drawn_only_refl|]. split; [auto|]. intros _ _ X. now elim X.
    - inv_bind H. destruct v as [s1 a1]. apply IH in H. destruct H as [H1 [H2 _]]. apply trim_visit_ok in E; [|exact L]. destruct E as [E1 [E2 E3]].
      split; [eapply drawn_only_trans; eauto|]. split; [cbn [In]; intuition congruence|]. intros Sf Nn _ Ea. cbn [In]. destruct H2 as [H2|H2]; [auto|]. left. rewrite H2. symmetry. apply E3; [|exact Ea].
      unfold trim_safe in Sf. tauto.
  Qed.
  Lemma tree_trim_ok : forall s ts s', trim_safe -> c_trim O c <> TRIM_NONE -> inv s ts -> tree_trim O rnd c s = Ok s' -> exists ts', Forall2 trimmed ts ts' /\ inv s' ts'.
  Proof.
    intros s ts s' Sf Nn V H. unfold tree_trim in H.
    assert (X : exists ts', Forall2 ((fun _ _ => trimmed) s s') ts ts' /\ (fun _ _ : coarse => True) s s' /\ inv s' ts').
    { refine (each_tree coarse (fun s => s) _ (fun _ _ => trimmed) (fun _ _ => True) _ _ _ _ s s' ts V H); auto.
    clear s s' ts V H. intros s i ts o s' V Hi H. inv_bind H. destruct v as [s1 id]. unfold pick_trim in E. pose proof V as [H1 [H2 [H3 [H4 H5]]]]. destruct (H2 i o Hi) as [Hr Hs]. rewrite Hr in E. cbn [bind] in E.
    inv_bind E. destruct v as [depth [s2 a]]. injection E as <- Hid.
    assert (Dr : drawn_only O s s2).
    { change s2 with (fst (snd (depth, (s2, a)))). eapply walk_keeps; [apply drawn_only_refl|apply drawn_only_trans| |exact E0]. intros q j a0 q' a' X. apply trim_visit_ok in X; [tauto|exact L]. }
    pose proof (inv_same _ _ _ Dr V) as V2. assert (Keep : s' = s2 -> exists o', trimmed o o' /\ True /\ inv s' (upd ts i o')).
    { intros ->. exists o. split; [now left|]. split; [exact I|]. now rewrite upd_same_id. }
    inv_bind H. rename v into root, E into Er. pose proof Dr as [D1 [D2 [D3 D4]]]. rewrite D2, Hr in Er. injection Er as <-.
    destruct o as [t|]; cbn [rid] in *.
    2: { apply Keep. unfold walk_from, fuel in E0. cbn [walk] in E0. change (0 <=? -1) with false in E0. rewrite andb_false_r in E0. injection E0 as <- <- <-. subst id. cbn in H. now injection H as <-. }
    destruct (negb (ctop t =? id) && (0 <=? id) && (id <? nc)) eqn:B; [|injection H as <-; now apply Keep].
    apply andb_prop in B. destruct B as [B _]. apply andb_prop in B. destruct B as [B1 B2]. apply negb_true_iff, Z.eqb_neq in B1. apply Z.leb_le in B2.
    pose proof H3 as [P1 [P2 [P3 _]]]. assert (It : forall q, In q (cids t) -> 0 <= q < nc) by (intros q Hq; apply P3; now apply all_cids_in with i (Some t)).
    assert (ND : NoDup (cids t)).
    { assert (Y : NoDup (all_cids (upd ts i None) ++ cids t)). { eapply Permutation_NoDup; [|exact P2]. rewrite <- (upd_same_id _ ts i (Some t) Hi) at 1. apply (all_cids_upd ts i (Some t)). apply nth_error_Some. congruence. } apply nodup_app in Y. tauto. }
    assert (Sz : csize O t <= nc).
    { unfold csize. pose proof (NoDup_incl_length ND (l' := zrange nc)) as X. rewrite zrange_length in X. assert (I' : incl (cids t) (zrange nc)) by (intros q Hq; apply zrange_in; auto). specialize (X I').
      pose proof (csize_pos O t) as Y. unfold csize in Y. lia. }
    apply walk_root in E0; [|intros q j a0 q' a' X; apply trim_visit_ok in X; [|exact L]; destruct X as [[X _] _]; intros z m Hm; exists m; rewrite X; auto|now apply stored_shape with c|exact Sz|intros q Hq; now apply It].
    cbn [fst snd] in E0. destruct E0 as [E0|[Ed Ev]].
    - rewrite (proj2 (Z.leb_le max_stack_size depth)) in Hid by (unfold max_stack_size; lia). lia.
    - subst depth. change (max_stack_size <=? -1) with false in Hid. change (negb (-1 =? -1)) with false in Hid. destruct (nlt O (n_ 0) (leaf_sum O a) && nlt O (c_max_trim O c) (ndiv O (smallest O a) (leaf_sum O a))); [lia|].
      apply vfold_id in Ev. destruct Ev as [_ [_ Ev]].
      assert (Hl : rleaves O t <> []) by (clear; induction t as [q cq|q dq vq cq l IHl r IHr]; cbn; [discriminate|]; intros X; apply app_eq_nil in X; tauto).
      specialize (Ev Sf Nn Hl eq_refl). rewrite Hid in Ev. rewrite rleaves_leaves in Ev. apply in_rev in Ev.
      destruct (cut_ok O log_ c L Hlife (Z.of_nat i) _ t s2 (-1) _ 0 id s' (inv_before _ _ _ _ V2 Hi)) as [t' [C A]]; auto; [now left|now destruct V2 as [_ [_ [_ [X _]]]]|].
      exists (Some t'). split; [right; exists id, t, t'; auto|]. split; [exact I|]. eapply inv_after; eauto. }
    destruct X as [ts' [F [_ V']]]. eauto.
  Qed.

  (** ** Training and predicting *)
  Lemma inv_counts : forall s ts x p, inv s ts -> inv (with_sums O s x p) ts.
  Proof. intros s ts x p [H1 [H2 [H3 [H4 H5]]]]. split; [exact H1|]. split; [exact H2|]. split; [now apply cpool_same with s|]. split; [exact H4|exact H5]. Qed.
  Lemma inv_totals : forall s s' ts, inv s ts -> fr s' = fr s -> avail s' = avail s -> forced O s' = forced O s -> fading O s' = fading O s -> limit O s' = limit O s -> inv s' ts.
  Proof.
    intros s s' ts [H1 [H2 [H3 [H4 H5]]]] E1 E2 E3 E4 E5. split; [exact H1|]. split; [now rewrite E1|]. split; [apply cpool_same with s; congruence|].
    split; [destruct H4 as [A1 [A2 A3]]; unfold Coarse_Walk.arrays; rewrite E1, E3, E4; auto|congruence].
  Qed.
  Lemma train_ok : forall s ts x label s' b, kind <> EXTEND_BARYCENTER -> trim_safe -> Z.of_nat (length x) = fc -> inv s ts -> train O log_ rnd c s x label = Ok (s', b) ->
    exists s1 ts1 ts', ((ts1 = ts /\ avail s1 = avail s) \/ (c_trim O c <> TRIM_NONE /\ avail s <= 1 /\ Forall2 trimmed ts ts1)) /\ inv s1 ts1 /\
      Forall2 (trained x label s1 s') ts1 ts' /\ fewer s1 s' /\ inv s' ts'.
  Proof.
    intros s ts x label s' b Hk Sf Hx V H. unfold train in H. inv_bind H. destruct v as [sums u]. clear E. apply inv_counts with (x := sums) (p := nadd O (nmul O (count_points O s) (c_fading O c)) (n_ 1)) in V.
    set (s0 := with_sums O s sums _) in *. assert (Ea : avail s0 = avail s) by reflexivity. clearbody s0. inv_bind H. rename v into s1.
    assert (D1 : drawn_only O s0 s1) by (destruct (_ =? TRIM_FADING); [now apply fade_ok|injection E as <-; apply drawn_only_refl]). clear E. pose proof (inv_same _ _ _ D1 V) as V1. pose proof D1 as [_ [_ [Ea1 _]]].
    inv_bind H. rename v into s2. assert (X : exists ts2, ((ts2 = ts /\ avail s2 = avail s1) \/ (c_trim O c <> TRIM_NONE /\ avail s1 <= 1 /\ Forall2 trimmed ts ts2)) /\ inv s2 ts2).
    { destruct (negb (c_trim O c =? TRIM_NONE) && (avail s1 <=? 1) && (total O s1 mod 100 =? 0)) eqn:B.
      - apply andb_prop in B. destruct B as [B _]. apply andb_prop in B. destruct B as [B1 B2]. apply negb_true_iff, Z.eqb_neq in B1. apply Z.leb_le in B2. destruct (tree_trim_ok _ _ _ Sf B1 V1 E) as [ts2 [F V2]]. exists ts2. split; [right; auto|exact V2].
      - injection E as <-. exists ts. split; [left; auto|exact V1]. }
    destruct X as [ts2 [X V2]]. clear E. inv_bind H. destruct v as [s3 b3]. apply (train_loop x label Hx Hk) with (ts := ts2) in E; [|exact V2]. destruct E as [ts3 [F3 [W3 V3]]].
    inv_bind H. rename v into s4. injection H as <- _.
    assert (Y : exists q, s4 = s3 \/ s4 = with_full O s3 q). { destruct (avail s3 <=? 1); [inv_bind E; injection E as <-; eauto|injection E as <-; exists 0; auto]. } destruct Y as [q Y].
    exists s2, ts2, ts3. split; [rewrite <- Ea, <- Ea1; exact X|]. split; [exact V2|].
    assert (Av : avail (with_total O s4 (u32 (total O s4 + 1))) = avail s3) by (destruct Y as [-> | ->]; reflexivity).
    split; [|split].
    - clear -F3 Av. induction F3 as [|o o' l l' H F IH]; constructor; auto. destruct H as [o1 [T Ho]]. exists o1. split; [|exact Ho]. inversion T; subst; [apply ts_none|apply ts_first|apply ts_grown|apply ts_kept]; auto. congruence.
    - unfold fewer. now rewrite Av.
    - apply inv_totals with s3; auto; destruct Y as [-> | ->]; reflexivity.
  Qed.
  Lemma predict_ok : forall s ts x sc n s' b sc', inv s ts -> predict O exp_ c s x sc n = Ok (s', b, sc') ->
    avail s' = avail s /\ exists ts', inv s' ts' /\
      if negb (c_optimize O c) && negb (kind =? EXTEND_GHOST)
      then Forall2 (fun o o' => match o, o' with Some t, Some t' => alike O t t' | None, None => True | _, _ => False end) ts ts' else ts' = ts /\ s' = s.
  Proof.
    intros s ts x sc n s' b sc' V H. unfold predict in H. inv_bind H. rename v into s1. inv_bind H. inv_bind H. injection H as <- <- <-. destruct (_ && _).
    - apply update_all_ok in E. destruct E as [R1 [R2 R3]]. split; [exact R2|]. destruct (inv_recounted _ _ _ V R1 R2 R3) as [ts' [F V']]. eauto.
    - injection E as <-. split; [reflexivity|]. exists ts. auto.
  Qed.
  Lemma all_cids_none : forall n, all_cids (repeat None n) = [].
  Proof. induction n; [reflexivity|]. cbn [repeat]. rewrite all_cids_cons. exact IHn. Qed.
  Lemma inv_init : forall z l0, 0 <= tc -> 0 <= nc -> inv (forest_init O c z l0) (repeat None (Z.to_nat tc)).
  Proof.
    intros z l0 Ht Hn. split; [rewrite repeat_length; lia|]. split; [|split; [|split; [|reflexivity]]].
    - intros i o Hi. assert (Li : (i < Z.to_nat tc)%nat) by (rewrite <- (repeat_length (@None ctree) (Z.to_nat tc)); apply nth_error_Some; congruence). apply nth_error_In, repeat_spec in Hi. subst o. split; [|exact I]. cbn. apply rd_repeat. lia.
    - rewrite all_cids_none. split; [cbn; rewrite repeat_length; lia|]. split; [constructor|]. split; [intros j []|]. split; [|split; [cbn; lia|]].
      + intros j n H. unfold Coarse_Model.get in H. cbn [Coarse_Model.fr forest_init Mondrian_Model.nodes] in H. apply rd_ok_iff in H. destruct H as [_ H]. apply nth_error_In, repeat_spec in H. subst n. rewrite blank_free by exact L. split; [intros []|discriminate].
      + intros j n H _. unfold Coarse_Model.get in H. cbn [Coarse_Model.fr forest_init Mondrian_Model.nodes] in H. apply rd_ok_iff in H. destruct H as [_ H]. now apply nth_error_In, repeat_spec in H.
    - unfold Coarse_Walk.arrays. cbn. rewrite !repeat_length. lia.
  Qed.
  Lemma inv_ctrees : forall s ts, inv s ts -> ctrees O c s ts.
  Proof.
    intros s ts [H1 [H2 [[P1 [P2 [P3 [P4 [P5 P6]]]]] [H4 H5]]]]. split; [exact H1|]. split; [|split; [exact P1|split; [exact P2|exact P4]]].
    intros i o Hi. destruct (H2 i o Hi) as [A B]. destruct o; auto.
  Qed.
  Lemma pool_free : forall s u, 0 <= nc -> cpool s u -> free_count O s = avail s.
  Proof.
    intros s u Hn [P1 [P2 [P3 [P4 [P5 P6]]]]]. unfold free_count. rewrite P5. set (ns := nodes (fr s)) in *.
    set (p := fun j => match rd ns j with Ok n => available n | _ => false end).
    assert (E1 : forall k, (k <= length ns)%nat -> length (filter available (firstn k ns)) = length (filter p (zrange (Z.of_nat k)))).
    { induction k as [|k IH]; intros Hk; [reflexivity|]. destruct (nth_error ns k) as [n|] eqn:Hnk; [|apply nth_error_None in Hnk; lia]. destruct (skipn_nth _ _ _ _ Hnk) as [_ ->].
      replace (Z.of_nat (S k)) with (Z.of_nat k + 1) by lia. rewrite zrange_snoc by lia. rewrite !filter_app, !app_length, IH by lia. f_equal. cbn [filter]. unfold p.
      rewrite (proj2 (rd_ok_iff _ ns (Z.of_nat k) n)) by (rewrite Nat2Z.id; split; [lia|exact Hnk]). now destruct (available n). }
    specialize (E1 (length ns) (le_n _)). rewrite firstn_all, P1 in E1. rewrite E1.
    assert (Pm : Permutation (filter (fun j => negb (p j)) (zrange nc)) u).
    { apply NoDup_Permutation; [apply NoDup_filter, zrange_nodup|exact P2|]. intros j. rewrite filter_In, zrange_in. split.
      - intros [Bj Nj]. destruct (rd_in_bounds _ ns j) as [n Hj]; [lia|]. apply (P4 j n Hj). unfold p in Nj. rewrite Hj in Nj. now apply negb_true_iff.
      - intros Hj. pose proof (P3 j Hj) as Bj. split; [exact Bj|]. destruct (rd_in_bounds _ ns j) as [n Hn']; [lia|]. unfold p. rewrite Hn'. apply negb_true_iff. now apply (P4 j n Hn'). }
    apply Permutation_length in Pm. assert (Sum : (length (filter p (zrange nc)) + length (filter (fun j => negb (p j)) (zrange nc)) = Z.to_nat nc)%nat).
    { rewrite <- (zrange_length nc). clear. clearbody p. induction (zrange nc) as [|j l IH]; [reflexivity|]. cbn [filter]. destruct (p j); cbn [length negb]; lia. }
    lia.
  Qed.
End Forest.
