(** * Proofs for the Mondrian forest: one training step of a tree *)
From Coq Require Import ZArith List Bool Lia Reals Lra Permutation.
From Verif Require Import CppBase CppFacts NumOps Utils_Model Utils_Proofs Mondrian_Model Mondrian_Spec Mondrian_Proofs.
Import ListNotations.
Local Open Scope Z_scope.

Section Train.
  Variable O : ops.
  Variable log_ : num O -> num O.
  Variable rnd : nat -> num O.
  Variable fc lc mn : Z.
  Variable lifetime : num O.
  Variable key : num O -> R.
  Variable cmp fine draw : num O -> Prop.
  Hypothesis L : laws O key cmp fine draw fc.
  Hypothesis Hdraw : forall k, draw (rnd k).
  Hypothesis Hfc : 1 <= fc.
  Hypothesis Hlc : 0 <= lc.
  Hypothesis Hlife : nle O (nofZ O 0) lifetime = true.
  Local Notation forest := (forest O).
  Local Notation node := (node O).
  Local Notation point := (point O).
  Local Notation mtree := (mtree O).
  Local Notation tree_at := (tree_at O fc lc lifetime).
  Local Notation bounding := (bounding O fc).
  Local Notation pool := (pool O mn).
  Local Notation is_free := (is_free O).
  Local Notation coord := (coord O).
  Local Notation points := (points O).
  Local Notation ids := (ids O).
  Local Notation top := (top O).
  Local Notation count := (count O).
  Local Notation blank f := (blank O fc lc f).
  Local Notation put := (put O).
  Local Notation relink := (relink O).
  Local Notation n_ := (nofZ O).
  Local Notation nodes := (nodes O).
  Local Notation roots := (roots O).
  Local Notation empty := (empty_node O fc lc).

  (** Order. *)
  Lemma lt_le : forall a b, nlt O a b = true -> nle O a b = true.
  Proof. intros a b. rewrite (l_lt _ _ _ _ _ _ L), (l_le _ _ _ _ _ _ L). intros [A [B C]]. repeat split; auto. lra. Qed.
  Lemma le_trans : forall a b c, nle O a b = true -> nle O b c = true -> nle O a c = true.
  Proof. intros a b c. rewrite !(l_le _ _ _ _ _ _ L). intros [A [B C]] [D [E F]]. repeat split; auto. lra. Qed.
  Lemma le_refl : forall a, cmp a -> nle O a a = true.
  Proof. intros a H. rewrite (l_le _ _ _ _ _ _ L). repeat split; auto. lra. Qed.
  Lemma not_lt_le : forall a b, cmp a -> cmp b -> nlt O a b = false -> nle O b a = true.
  Proof.
    intros a b A B H. rewrite (l_le _ _ _ _ _ _ L). repeat split; auto.
    destruct (Rle_lt_dec (key b) (key a)) as [X|X]; [exact X|]. exfalso.
    assert (T : nlt O a b = true) by (apply (l_lt _ _ _ _ _ _ L); auto). rewrite T in H. discriminate.
  Qed.
  Lemma not_le_lt : forall a b, cmp a -> cmp b -> nle O a b = false -> nlt O b a = true.
  Proof.
    intros a b A B H. rewrite (l_lt _ _ _ _ _ _ L). repeat split; auto.
    destruct (Rle_lt_dec (key a) (key b)) as [X|X]; [|exact X]. exfalso.
    assert (T : nle O a b = true) by (apply (l_le _ _ _ _ _ _ L); auto). rewrite T in H. discriminate.
  Qed.
  Lemma le_not_lt : forall a b, nle O a b = true -> nlt O b a = false.
  Proof.
    intros a b H. destruct (nlt O b a) eqn:E; [|reflexivity]. exfalso. revert H E.
    rewrite (l_le _ _ _ _ _ _ L), (l_lt _ _ _ _ _ _ L). intros [A [B C]] [D [F G]]. lra.
  Qed.
  Lemma empty_free : available O empty = true.
  Proof.
    unfold available. cbn. apply (l_lt _ _ _ _ _ _ L). destruct (l_0 _ _ _ _ _ _ L) as [A B], (l_m1 _ _ _ _ _ _ L) as [C D].
    rewrite B, D. repeat split; auto. lra.
  Qed.
  Lemma used : forall n, nle O (n_ 0) (tau O n) = true -> available O n = false.
  Proof. intros n H. unfold available. now apply le_not_lt. Qed.

  Lemma rd_put' : forall f i n j, 0 <= i < Z.of_nat (length (nodes f)) -> rd (nodes (put f i n)) j = if i =? j then Ok n else rd (nodes f) j.
  Proof. intros f i n j H. destruct (rd_in_bounds _ (nodes f) i H) as [m Hm]. now apply rd_put with m. Qed.

  (** Boxes. *)
  Definition val (l : list (option (num O))) (d : Z) : num O := match rd l d with Ok (Some a) => a | _ => n_ 0 end.
  Lemma bounding_val : forall pts lo hi d, bounding pts lo hi -> 0 <= d < fc ->
    rd lo d = Ok (Some (val lo d)) /\ rd hi d = Ok (Some (val hi d)) /\
    (exists p, In p pts /\ val lo d = coord p d) /\ (exists q, In q pts /\ val hi d = coord q d) /\
    forall s, In s pts -> nle O (val lo d) (coord s d) = true /\ nle O (coord s d) (val hi d) = true.
  Proof.
    intros pts lo hi d [_ [_ H]] Hd. destruct (H d Hd) as [p [q [P [Q [A [B C]]]]]]. unfold val. rewrite A, B.
    repeat split; eauto; apply C; auto.
  Qed.
  Lemma bounding_ext : forall a b lo hi, (forall p, In p a <-> In p b) -> bounding a lo hi -> bounding b lo hi.
  Proof.
    intros a b lo hi E [H1 [H2 H]]. split; [exact H1|]. split; [exact H2|]. intros d Hd. destruct (H d Hd) as [p [q [P [Q [A [B C]]]]]].
    exists p, q. split; [now apply E|]. split; [now apply E|]. split; [exact A|]. split; [exact B|]. intros s Hs. apply C, E, Hs.
  Qed.

  Variable x : list (num O).
  Variable label : Z.
  Hypothesis Hx : length x = Z.to_nat fc.
  Hypothesis Hlab : 0 <= label < lc.
  Local Notation pt := (x, label).
  Definition fine_pt (p : point) : Prop := forall d, 0 <= d < fc -> fine (coord p d).
  Hypothesis Hfine : fine_pt pt.
  Lemma rd_x : forall d, 0 <= d < fc -> rd x d = Ok (coord pt d).
  Proof.
    intros d Hd. apply rd_ok_iff. split; [lia|]. unfold Mondrian_Spec.coord. cbn [fst]. apply nth_error_nth'. lia.
  Qed.
  Lemma cmp_x : forall d, 0 <= d < fc -> cmp (coord pt d).
  Proof. intros d Hd. apply (l_fine _ _ _ _ _ _ L). now apply Hfine. Qed.
  Lemma fine_lo : forall pts lo hi d, bounding pts lo hi -> Forall fine_pt pts -> 0 <= d < fc -> fine (val lo d) /\ fine (val hi d).
  Proof.
    intros pts lo hi d B F Hd. destruct (bounding_val _ _ _ _ B Hd) as [_ [_ [[p [P ->]] [[q [Q ->]] _]]]].
    rewrite Forall_forall in F. split; apply F; auto.
  Qed.

  Definition low (lo : list (option (num O))) d := if nlt O (coord pt d) (val lo d) then coord pt d else val lo d.
  Definition high (hi : list (option (num O))) d := if nlt O (val hi d) (coord pt d) then coord pt d else val hi d.
  Lemma bounding_add : forall pts lo hi l u, bounding pts lo hi -> Forall fine_pt pts ->
    length l = Z.to_nat fc -> length u = Z.to_nat fc ->
    (forall d, 0 <= d < fc -> rd l d = Ok (Some (low lo d)) /\ rd u d = Ok (Some (high hi d))) -> bounding (pt :: pts) l u.
  Proof.
    intros pts lo hi l u B F Ll Lu H. split; [exact Ll|]. split; [exact Lu|]. intros d Hd. destruct (H d Hd) as [H1 H2].
    destruct (bounding_val _ _ _ _ B Hd) as [_ [_ [[p [P P2]] [[q [Q Q2]] C]]]].
    destruct (fine_lo _ _ _ _ B F Hd) as [F1 F2]. apply (l_fine _ _ _ _ _ _ L) in F1, F2. pose proof (cmp_x d Hd) as Cx.
    unfold low in H1. unfold high in H2.
    exists (if nlt O (coord pt d) (val lo d) then pt else p), (if nlt O (val hi d) (coord pt d) then pt else q).
    split; [destruct (nlt O (coord pt d) (val lo d)); [now left|now right]|].
    split; [destruct (nlt O (val hi d) (coord pt d)); [now left|now right]|].
    split; [rewrite H1; destruct (nlt O (coord pt d) (val lo d)); congruence|].
    split; [rewrite H2; destruct (nlt O (val hi d) (coord pt d)); congruence|].
    intros s [<-|Hs].
    - split.
      + destruct (nlt O (coord pt d) (val lo d)) eqn:E; [now apply le_refl|]. rewrite <- P2. now apply not_lt_le.
      + destruct (nlt O (val hi d) (coord pt d)) eqn:E; [now apply le_refl|]. rewrite <- Q2. now apply not_lt_le.
    - destruct (C s Hs) as [C1 C2]. split.
      + destruct (nlt O (coord pt d) (val lo d)) eqn:E; [|now rewrite <- P2]. apply le_trans with (val lo d); [now apply lt_le|exact C1].
      + destruct (nlt O (val hi d) (coord pt d)) eqn:E; [|now rewrite <- Q2]. apply le_trans with (val hi d); [exact C2|now apply lt_le].
  Qed.

  Lemma rdi_box : forall pts lo hi d, bounding pts lo hi -> 0 <= d < fc -> rdi lo d = Ok (val lo d) /\ rdi hi d = Ok (val hi d).
  Proof. intros pts lo hi d B Hd. destruct (bounding_val _ _ _ _ B Hd) as [A [C _]]. unfold rdi. rewrite A, C. auto. Qed.

  Definition ds (n : node) : list (num O) :=
    map (fun d => dist O (val (bound_lower O n) d) (val (bound_upper O n) d) (coord pt d)) (zrange fc).
  Lemma distances_ok : forall pts n, bounding pts (bound_lower O n) (bound_upper O n) ->
    distances O fc n x = Ok (ds n, fold_left (nadd O) (ds n) (n_ 0)).
  Proof.
    intros pts n B. unfold distances. apply build_sum; [|lia]. intros i l s Hi.
    destruct (rdi_box _ _ _ i B) as [A C]; [lia|]. rewrite A, C. cbn [bind]. rewrite rd_x by lia. reflexivity.
  Qed.
  Lemma joined_box_ok : forall pts n, bounding pts (bound_lower O n) (bound_upper O n) -> Forall fine_pt pts ->
    exists l u, joined_box O fc n x = Ok (l, u) /\ bounding (pt :: pts) l u.
  Proof.
    intros pts n B F. unfold joined_box. erewrite build2 with (g := fun d => Some (low (bound_lower O n) d)) (h := fun d => Some (high (bound_upper O n) d)).
    2: { intros i l u Hi. rewrite rd_x by lia. cbn [bind]. destruct (rdi_box _ _ _ i B) as [A C]; [lia|]. rewrite A, C. reflexivity. }
    2: lia.
    eexists. eexists. split; [reflexivity|]. apply bounding_add with (bound_lower O n) (bound_upper O n); auto.
    - now rewrite map_length, zrange_length.
    - now rewrite map_length, zrange_length.
    - intros d Hd. rewrite !rd_zrange by lia. auto.
  Qed.
  Lemma update_box_ok : forall pts n, bounding pts (bound_lower O n) (bound_upper O n) -> Forall fine_pt pts ->
    exists l u, update_box O fc n x = Ok (set_box O n l u) /\ bounding (pt :: pts) l u.
  Proof.
    intros pts n B F. unfold update_box.
    destruct (fill2 _ fc (fun i '(l, u) =>
         do x0 <- rd x i; do lo <- rdi l i; do l0 <- wr l i (Some (if nlt O x0 lo then x0 else lo));
         do hi <- rdi u i; do u0 <- wr u i (Some (if nlt O hi x0 then x0 else hi)); Ok (l0, u0))
       (fun d => Some (low (bound_lower O n) d)) (fun d => Some (high (bound_upper O n) d)) (bound_lower O n) (bound_upper O n))
      as [l [u [E [Ll [Lu H]]]]].
    - apply B.
    - apply B.
    - intros i l u Hi Ll Lu El Eu. rewrite rd_x by lia. cbn [bind]. destruct (rdi_box _ _ _ i B) as [A C]; [lia|]. unfold rdi in *.
      rewrite El. destruct (rd (bound_lower O n) i) as [[a|]| | |]; try discriminate. cbn [bind] in A |- *. injection A as ->.
      rewrite wr_ok by lia. cbn [bind]. rewrite Eu. destruct (rd (bound_upper O n) i) as [[b|]| | |]; try discriminate. cbn [bind] in C |- *. injection C as ->.
      rewrite wr_ok by lia. reflexivity.
    - lia.
    - rewrite E. cbn [bind]. exists l, u. split; [reflexivity|]. now apply bounding_add with (bound_lower O n) (bound_upper O n).
  Qed.

  (** Points with a label. *)
  Lemma count_app : forall l a b, count l (a ++ b) = count l a + count l b.
  Proof. intros. unfold Mondrian_Spec.count, with_label. rewrite filter_app, app_length. apply Nat2Z.inj_add. Qed.
  Lemma count_le : forall l (a : list point), 0 <= count l a <= Z.of_nat (length a).
  Proof. intros. unfold Mondrian_Spec.count, with_label. split; [lia|]. apply Nat2Z.inj_le.
    induction a as [|p a IH]; cbn [filter length]; [lia|]. destruct (snd p =? l); cbn [length]; lia. Qed.
  Lemma count_one : forall l, count l [pt] = if label =? l then 1 else 0.
  Proof. intros l. unfold Mondrian_Spec.count, with_label. cbn [filter snd]. now destruct (label =? l). Qed.

  Definition bump (cs : list Z) (c : Z) : list Z := upd cs (Z.to_nat label) (c + 1).
  Lemma bump_count : forall cs pts, length cs = Z.to_nat lc -> (forall l, 0 <= l < lc -> rd cs l = Ok (count l pts)) ->
    forall l, 0 <= l < lc -> rd (bump cs (count label pts)) l = Ok (count l (pts ++ [pt])).
  Proof.
    intros cs pts Lc H l Hl. unfold bump. rewrite rd_upd by lia. rewrite count_app, count_one. destruct (Z.eqb_spec label l) as [->|N]; [reflexivity|].
    rewrite H by lia. f_equal. lia.
  Qed.

  Definition pbox : list (option (num O)) := map (fun d => Some (coord pt d)) (zrange fc).
  Lemma bounding_pbox : bounding [pt] pbox pbox.
  Proof.
    unfold Mondrian_Spec.bounding, pbox. rewrite map_length, zrange_length. repeat split. intros d Hd. exists pt, pt.
    rewrite rd_zrange by lia. repeat split; auto; try now left.
    all: destruct H as [<-|[]]; now apply le_refl, cmp_x.
  Qed.
  Lemma sample_block_ok : forall f i n c, rd (nodes f) i = Ok n -> length (counters O n) = Z.to_nat lc -> rd (counters O n) label = Ok c ->
    0 <= c < 2147483647 ->
    sample_block O fc lifetime f i x label =
      Ok (put f i (set_tau O (set_counters O (set_box O n pbox pbox) (bump (counters O n) c)) lifetime)).
  Proof.
    intros f i n c Hn Lc Hc Bc. unfold sample_block.
    rewrite (build2 _ _ fc _ (fun d => Some (coord pt d)) (fun d => Some (coord pt d))).
    2: { intros j l u Hj. rewrite rd_x by lia. reflexivity. }
    2: lia.
    cbn [bind]. apply with_node_ok with n; [exact Hn|]. rewrite Hc. cbn [bind]. rewrite sint_ok by lia. cbn [bind].
    rewrite wr_ok by lia. reflexivity.
  Qed.

  (** Trees under changes elsewhere. *)
  Lemma tree_frame : forall t f f' p t0, (forall j, In j (ids t) -> rd (nodes f') j = rd (nodes f) j) -> tree_at f p t0 t -> tree_at f' p t0 t.
  Proof.
    induction t as [i pts|i d v l IHl r IHr]; intros f f' p t0 H T.
    - destruct T as [n [T1 T]]. exists n. split; [|exact T]. rewrite H; [exact T1|now left].
    - destruct T as [n [T1 [T2 [T3 [T4 [T5 [T6 [T7 [T8 [T9 [T10 [T11 [T12 [T13 T14]]]]]]]]]]]]]]. exists n.
      split; [rewrite H; [exact T1|now left]|]. do 11 (split; [assumption|]). split.
      + apply IHl with f; [|exact T13]. intros j Hj. apply H. right. apply in_or_app. now left.
      + apply IHr with f; [|exact T14]. intros j Hj. apply H. right. apply in_or_app. now right.
  Qed.
  Lemma tree_node : forall t f p t0, tree_at f p t0 t -> exists n, rd (nodes f) (top t) = Ok n /\ parent O n = p /\
    bounding (points t) (bound_lower O n) (bound_upper O n) /\ nle O t0 (tau O n) = true /\ nle O (tau O n) lifetime = true.
  Proof. intros [i pts|i d v l r] f p t0 [n T]; exists n; tauto. Qed.
  Lemma top_in : forall t : mtree, In (top t) (ids t).
  Proof. intros [i pts|i d v l r]; cbn; auto. Qed.
  Lemma tree_reparent : forall t f f' p t0 a t1 n, NoDup (ids t) -> tree_at f p t0 t -> rd (nodes f) (top t) = Ok n ->
    rd (nodes f') (top t) = Ok (set_parent O n a) -> (forall j, In j (ids t) -> j <> top t -> rd (nodes f') j = rd (nodes f) j) ->
    nle O t1 (tau O n) = true -> tree_at f' a t1 t.
  Proof.
    intros t f f' p t0 a t1 n ND T Hn Hn' H Ht. destruct t as [i pts|i d v l r].
    - destruct T as [m [T1 [T2 [T3 [T4 [T5 [T6 T7]]]]]]]. rewrite T1 in Hn. injection Hn as <-.
      exists (set_parent O m a). split; [exact Hn'|]. cbn. tauto.
    - destruct T as [m [T1 [T2 [T3 [T4 [T5 [T6 [T7 [T8 [T9 [T10 [T11 [T12 [T13 T14]]]]]]]]]]]]]]. rewrite T1 in Hn. injection Hn as <-.
      exists (set_parent O m a). split; [exact Hn'|]. split; [reflexivity|]. do 2 (split; [assumption|]). split; [exact Ht|].
      do 7 (split; [assumption|]). cbn in ND, H. apply NoDup_cons_iff in ND. destruct ND as [ND1 ND2]. split.
      + apply tree_frame with f; [|exact T13]. intros j Hj. apply H; [right; apply in_or_app; now left|]. intros ->. apply ND1, in_or_app. now left.
      + apply tree_frame with f; [|exact T14]. intros j Hj. apply H; [right; apply in_or_app; now right|]. intros ->. apply ND1, in_or_app. now right.
  Qed.

  (** The pool. *)
  Definition lost_ok (f : forest) (lost : list Z) : Prop := (length lost <= 1)%nat /\ (lost <> [] -> forall i, ~ is_free f i).
  Lemma pool_perm : forall f a b lost, Permutation a b -> pool f a lost -> pool f b lost.
  Proof.
    intros f a b lost P [H1 [H2 [H3 H4]]]. assert (Q : Permutation (a ++ lost) (b ++ lost)) by now apply Permutation_app_tail.
    split; [exact H1|]. split; [eapply Permutation_NoDup; eauto|]. split.
    - intros i Hi. apply H3. eapply Permutation_in; [apply Permutation_sym|]; eauto.
    - intros i Hi. rewrite (H4 i Hi). split; intros A B; apply A; [apply Permutation_in with (b ++ lost); [now apply Permutation_sym|exact B]|now apply Permutation_in with (a ++ lost)].
  Qed.
  Lemma is_free_iff : forall f i n, rd (nodes f) i = Ok n -> (is_free f i <-> available O n = true).
  Proof. intros f i n H. unfold Mondrian_Spec.is_free. split; [intros [m [A B]]; congruence|eauto]. Qed.
  (** Changes that keep free nodes free and used nodes used. *)
  Lemma pool_same : forall f f' u lost, length (nodes f') = length (nodes f) -> (forall i, is_free f' i <-> is_free f i) -> pool f u lost -> pool f' u lost.
  Proof.
    intros f f' u lost E H [H1 [H2 [H3 H4]]]. split; [now rewrite E|]. split; [exact H2|]. split; [exact H3|]. intros i Hi. rewrite H. auto.
  Qed.
  Lemma free_put : forall f i n n', rd (nodes f) i = Ok n -> available O n' = available O n -> forall j, is_free (put f i n') j <-> is_free f j.
  Proof.
    intros f i n n' Hn E j. unfold Mondrian_Spec.is_free. setoid_rewrite (rd_put O f i n n' j Hn). destruct (Z.eqb_spec i j) as [->|N]; [|reflexivity].
    split; intros [m [A B]].
    - injection A as <-. exists n. split; [exact Hn|congruence].
    - exists n'. split; [reflexivity|]. congruence.
  Qed.
  Lemma lost_same : forall f f' lost, (forall i, is_free f' i <-> is_free f i) -> lost_ok f lost -> lost_ok f' lost.
  Proof. intros f f' lost H [A B]. split; [exact A|]. intros N i Hi. apply (B N i). now apply H. Qed.
  Lemma blank_put : forall f i n, blank f -> available O n = false -> 0 <= i < Z.of_nat (length (nodes f)) -> blank (put f i n).
  Proof.
    intros f i n B A Hi j m. rewrite rd_put' by lia. destruct (Z.eqb_spec i j) as [->|N]; [|apply B].
    intros E. injection E as <-. congruence.
  Qed.
  Lemma pool_in : forall f u lost j, pool f u lost -> In j u -> 0 <= j < mn.
  Proof. intros f u lost j [_ [_ [H _]]] Hj. apply H, in_or_app. now left. Qed.
  Lemma pool_used : forall f u lost j, pool f u lost -> In j u -> ~ is_free f j.
  Proof. intros f u lost j P Hj F. pose proof (pool_in _ _ _ _ P Hj) as B. destruct P as [_ [_ [_ H]]]. apply (H j B); auto. apply in_or_app. now left. Qed.

  Variable k : Z.
  (** Outcome of a training step on the tree [t] below [p]; [rest] are the nodes of other trees, and of the same tree
      outside of [t]. *)
  Definition grown (f : forest) (p : Z) (t0 : num O) (t : mtree) (rest : list Z) (f' : forest) (t' : mtree) (lost' : list Z) : Prop :=
    grows O fine draw pt t t' /\ tree_at f' p t0 t' /\ pool f' (rest ++ ids t') lost' /\ lost_ok f' lost' /\ blank f' /\
    (forall j, In j rest -> rd (nodes f') j = if j =? p then do n <- rd (nodes f) j; Ok (relink (top t) (top t') n) else rd (nodes f) j) /\
    roots f' = (if p =? -1 then upd (roots f) (Z.to_nat k) (top t') else roots f) /\ length (nodes f') = length (nodes f).

  (** Linking the two new nodes. *)
  Definition new_parent_node (i a b p d : Z) (v t up : num O) l u : node :=
    mkNode O d (Some v) l u (if neq O (coord pt d) up then i else b) (if neq O (coord pt d) up then b else i) p t (repeat 0 (Z.to_nat lc)).
  Definition new_leaf_node (a : Z) : node :=
    mkNode O (-1) None pbox pbox (-1) (-1) a lifetime (bump (repeat 0 (Z.to_nat lc)) 0).
  Ltac eqz := repeat match goal with
    | |- context [?a =? ?a] => rewrite (Z.eqb_refl a)
    | |- context [?a =? ?b] => rewrite (proj2 (Z.eqb_neq a b)) by congruence
    end.
  Ltac wn H := erewrite with_node_ok; [|exact H|reflexivity].
  Lemma insert_above_ok : forall f i n a b p d v t up pts,
    rd (nodes f) i = Ok n -> rd (nodes f) a = Ok (set_split O empty d v t) -> rd (nodes f) b = Ok empty -> parent O n = p ->
    i <> a -> i <> b -> a <> b -> 0 <= d < fc -> bounding pts (bound_lower O n) (bound_upper O n) -> Forall fine_pt pts ->
    ((p = -1 /\ rd (roots f) k = Ok i) \/ (p <> -1 /\ p <> i /\ p <> a /\ p <> b /\ (exists np, rd (nodes f) p = Ok np) /\ (exists q, rd (roots f) k = Ok q))) ->
    exists f' l u, insert_above O fc lc lifetime f i k x label d up a b = Ok f' /\ bounding (pt :: pts) l u /\
      (forall j, rd (nodes f') j = if j =? b then Ok (new_leaf_node a) else if j =? a then Ok (new_parent_node i a b p d v t up l u)
         else if j =? i then Ok (set_parent O n a) else if j =? p then do np <- rd (nodes f) j; Ok (relink i a np) else rd (nodes f) j) /\
      roots f' = (if p =? -1 then upd (roots f) (Z.to_nat k) a else roots f) /\ length (nodes f') = length (nodes f).
  Proof.
    intros f i n a b p d v t up pts Hi Ha Hb Hp Nia Nib Nab Hd B F HP.
    pose proof (rd_bounds _ _ _ _ Hi) as Bi. pose proof (rd_bounds _ _ _ _ Ha) as Ba. pose proof (rd_bounds _ _ _ _ Hb) as Bb.
    destruct (joined_box_ok pts n B F) as [l [u [EJ BJ]]]. unfold insert_above. rewrite Hi. cbn [bind]. rewrite EJ. cbn [bind].
    wn Ha. cbn [bind]. set (f1 := put f a _).
    assert (L1 : length (nodes f1) = length (nodes f)) by apply put_length.
    assert (Eb1 : rd (nodes f1) b = Ok empty) by (unfold f1; rewrite rd_put' by lia; eqz; exact Hb).
    wn Eb1. cbn [bind]. set (f2 := put f1 b _).
    assert (L2 : length (nodes f2) = length (nodes f)) by (unfold f2; rewrite put_length; exact L1).
    assert (Ei2 : rd (nodes f2) i = Ok n) by (unfold f2, f1; rewrite !rd_put' by (rewrite ?put_length; lia); eqz; exact Hi).
    rewrite Ei2. cbn [bind].
    assert (Ea2 : rd (nodes f2) a = Ok (set_box O (set_split O empty d v t) l u)) by (unfold f2, f1; rewrite !rd_put' by (rewrite ?put_length; lia); eqz; reflexivity).
    wn Ea2. cbn [bind]. set (f3 := put f2 a _).
    assert (L3 : length (nodes f3) = length (nodes f)) by (unfold f3; rewrite put_length; exact L2).
    assert (Ei3 : rd (nodes f3) i = Ok n) by (unfold f3; rewrite rd_put' by lia; eqz; exact Ei2).
    rewrite Ei3. cbn [bind].
    assert (R3 : roots f3 = roots f) by reflexivity.
    assert (Hq : exists q, rd (roots f) k = Ok q /\ (p = -1 -> q = i)).
    { destruct HP as [[-> Hr]|[Np [_ [_ [_ [_ [q Hq]]]]]]]; [exists i; auto|exists q; split; [exact Hq|contradiction]]. }
    destruct Hq as [q [Hq Hqi]]. rewrite R3, Hq. cbn [bind].
    assert (S4 : exists f4,
      (if (parent O n =? -1) && (i =? q) then do rs <- wr (roots f) k a; Ok (mkForest O (nodes f3) rs (drawn O f3))
        else with_node O f3 (parent O n) (fun p0 => Ok (if child_left O p0 =? i then set_children O p0 a (child_right O p0) else set_children O p0 (child_left O p0) a)))
      = Ok f4 /\ length (nodes f4) = length (nodes f) /\ roots f4 = (if p =? -1 then upd (roots f) (Z.to_nat k) a else roots f) /\
      forall j, rd (nodes f4) j = if j =? p then do np <- rd (nodes f) j; Ok (relink i a np) else rd (nodes f3) j).
    { rewrite Hp. destruct HP as [[-> Hr]|[Np [Npi [Npa [Npb [[np Hnp] _]]]]]].
      - rewrite (Hqi eq_refl). rewrite !Z.eqb_refl. cbn [andb]. pose proof (rd_bounds _ _ _ _ Hr) as Bk. rewrite wr_ok by lia. cbn [bind].
        eexists. split; [reflexivity|]. cbn [Mondrian_Model.nodes Mondrian_Model.roots]. split; [exact L3|]. split; [reflexivity|].
        intros j. destruct (Z.eqb_spec j (-1)) as [->|N]; [|reflexivity]. rewrite !rd_oob by lia. reflexivity.
      - rewrite (proj2 (Z.eqb_neq p (-1))) by lia. cbn [andb].
        assert (Ep3 : rd (nodes f3) p = Ok np) by (unfold f3, f2, f1; rewrite !rd_put' by (rewrite ?put_length; lia); eqz; exact Hnp).
        wn Ep3. eexists. split; [reflexivity|]. rewrite put_length. split; [exact L3|]. split; [exact R3|].
        intros j. rewrite rd_put with (m := np) by exact Ep3. rewrite (Z.eqb_sym p j). destruct (Z.eqb_spec j p) as [->|N]; [|reflexivity].
        rewrite Hnp. cbn [bind]. unfold Mondrian_Proofs.relink. rewrite (proj2 (Z.eqb_neq i a)) by congruence. reflexivity. }
    destruct S4 as [f4 [E4 [L4 [R4 D4]]]]. rewrite E4. cbn [bind].
    assert (Npi : p <> i) by (destruct HP as [[-> _]|HP]; [lia|tauto]).
    assert (Npa : p <> a) by (destruct HP as [[-> _]|HP]; [lia|tauto]).
    assert (Npb : p <> b) by (destruct HP as [[-> _]|HP]; [lia|tauto]).
    assert (Ei4 : rd (nodes f4) i = Ok n) by (rewrite D4; eqz; exact Ei3).
    wn Ei4. cbn [bind]. set (f5 := put f4 i _).
    assert (L5 : length (nodes f5) = length (nodes f)) by (unfold f5; rewrite put_length; exact L4).
    assert (Eb5 : rd (nodes f5) b = Ok (set_counters O empty (repeat 0 (Z.to_nat lc)))).
    { unfold f5. rewrite rd_put' by lia. eqz. rewrite D4. eqz. unfold f3, f2. rewrite !rd_put' by (rewrite ?put_length; lia). eqz. reflexivity. }
    wn Eb5. cbn [bind]. set (f6 := put f5 b _).
    assert (L6 : length (nodes f6) = length (nodes f)) by (unfold f6; rewrite put_length; exact L5).
    rewrite rd_x by lia. cbn [bind].
    assert (Ea6 : rd (nodes f6) a = Ok (set_parent O (set_box O (set_split O empty d v t) l u) p)).
    { unfold f6, f5. rewrite !rd_put' by (rewrite ?put_length; lia). eqz. rewrite D4. eqz. unfold f3. rewrite rd_put' by lia. eqz. now rewrite Hp. }
    wn Ea6. cbn [bind]. set (f7 := put f6 a _).
    assert (L7 : length (nodes f7) = length (nodes f)) by (unfold f7; rewrite put_length; exact L6).
    assert (Eb7 : rd (nodes f7) b = Ok (set_parent O (set_counters O empty (repeat 0 (Z.to_nat lc))) a)).
    { unfold f7, f6. rewrite !rd_put' by (rewrite ?put_length; lia). eqz. reflexivity. }
    rewrite (sample_block_ok f7 b _ 0 Eb7); [|cbn; now rewrite repeat_length|cbn; apply rd_repeat; lia|lia].
    eexists. exists l, u. split; [reflexivity|]. split; [exact BJ|]. split; [|split].
    - intros j. rewrite rd_put' by lia. rewrite (Z.eqb_sym b j). destruct (Z.eqb_spec j b) as [->|Njb]; [reflexivity|].
      unfold f7. rewrite rd_put' by lia. rewrite (Z.eqb_sym a j). destruct (Z.eqb_spec j a) as [->|Nja].
      { unfold new_parent_node. destruct (neq O (coord pt d) up); reflexivity. }
      unfold f6, f5. rewrite !rd_put' by (rewrite ?put_length; lia). rewrite (proj2 (Z.eqb_neq b j)) by congruence. rewrite (Z.eqb_sym i j).
      destruct (Z.eqb_spec j i) as [->|Nji]; [reflexivity|]. rewrite D4. destruct (Z.eqb_spec j p) as [->|Njp]; [reflexivity|].
      unfold f3, f2, f1. rewrite !rd_put' by (rewrite ?put_length; lia). eqz. reflexivity.
    - exact R4.
    - rewrite put_length. exact L7.
  Qed.

  (** Choosing the split. *)
  Lemma turn_any : forall (w : list (num O)) s, w <> [] ->
    exists p, turn_array_into_probability O w (Z.of_nat (length w)) s = Ok p /\ length p = length w.
  Proof.
    intros w s Hw. unfold turn_array_into_probability. rewrite Nat2Z.id.
    assert (E : exists s', (if nlt O s (n_ 0) then forZ (length w) 0 (fun i s => do v <- rd w i; Ok (nadd O s v)) (n_ 0) else Ok s) = Ok s').
    { destruct (nlt O s (n_ 0)); [|eauto]. rewrite sum_fold. eauto. }
    destruct E as [s' ->]. cbn [bind]. destruct (turn_loop O w s' Hw) as [p [H1 [H2 _]]]. eauto.
  Qed.
  Lemma ds_length : forall n, length (ds n) = Z.to_nat fc.
  Proof. intros. unfold ds. now rewrite map_length, zrange_length. Qed.
  Local Notation dsum n := (fold_left (nadd O) (ds n) (n_ 0)).
  Lemma choose_split_ok : forall f n pts, bounding pts (bound_lower O n) (bound_upper O n) -> Forall fine_pt pts ->
    neq O (dsum n) (n_ 0) = false ->
    (choose_split O rnd fc f n x (ds n) (dsum n) = Undef Uninitialised /\ (sure_pick O draw fc -> False)) \/
    exists f' d up v u, choose_split O rnd fc f n x (ds n) (dsum n) = Ok (f', (d, (up, v))) /\ nodes f' = nodes f /\ roots f' = roots f /\
      0 <= d < fc /\ draw u /\
      ((nlt O (val (bound_upper O n) d) (coord pt d) = true /\ up = coord pt d /\
        v = nadd O (nmul O u (nsub O (coord pt d) (val (bound_upper O n) d))) (val (bound_upper O n) d)) \/
       (nlt O (coord pt d) (val (bound_lower O n) d) = true /\ up = val (bound_lower O n) d /\
        v = nadd O (nmul O u (nsub O (val (bound_lower O n) d) (coord pt d))) (coord pt d))).
  Proof.
    intros f n pts B F Hs. remember (choose_split O rnd fc f n x (ds n) (dsum n)) as cs eqn:EC. unfold choose_split in EC.
    destruct (turn_any (ds n) (dsum n)) as [p [HT LT]]. { intros E. pose proof (ds_length n) as Y. rewrite E in Y. cbn in Y. lia. }
    rewrite ds_length in HT, LT. rewrite Z2Nat.id in HT by lia. rewrite HT in EC. cbn [bind] in EC. unfold uniform at 1 in EC.
    destruct (pick_ok O (rnd (drawn O f)) p fc) as [i [HP [Bi _]]]; [lia|]. rewrite HP in EC. cbn [bind] in EC.
    set (f1 := mkForest O (nodes f) (roots f) (S (drawn O f))) in EC.
    assert (S1 : exists f2 d, (if (fc <=? i) || (i <? 0)
       then let (u, f) := uniform O rnd f1 in do d <- n2int O (nmul O u (n_ fc)); Ok (f, d) else Ok (f1, i)) = Ok (f2, d) /\
       nodes f2 = nodes f /\ roots f2 = roots f /\ 0 <= d < fc /\ (i < fc -> d = i)).
    { destruct (Z.leb_spec fc i) as [G|G]; [|destruct (Z.ltb_spec i 0); [lia|]]; cbn [orb].
      - unfold uniform. destruct (l_int _ _ _ _ _ _ L (rnd (drawn O f1)) (Hdraw _)) as [d [E Hd]]. rewrite E. cbn [bind].
        eexists. exists d. split; [reflexivity|]. repeat split; auto; lia.
      - exists f1, i. repeat split; auto; lia. }
    destruct S1 as [f2 [d [E [N2 [R2 [Hd Hid]]]]]]. rewrite E in EC. cbn [bind] in EC. clear E.
    rewrite rd_x in EC by lia. cbn [bind] in EC. destruct (rdi_box _ _ _ d B Hd) as [A C]. rewrite A, C in EC. cbn [bind] in EC.
    destruct (nlt O (val (bound_upper O n) d) (coord pt d)) eqn:E1; cbn [bind] in EC.
    { right. unfold uniform in EC. eexists. exists d, (coord pt d). eexists. exists (rnd (drawn O f2)). split; [exact EC|].
      split; [exact N2|]. split; [exact R2|]. split; [exact Hd|]. split; [apply Hdraw|]. left. auto. }
    destruct (nlt O (coord pt d) (val (bound_lower O n) d)) eqn:E2; cbn [bind] in EC.
    { right. unfold uniform in EC. eexists. exists d, (val (bound_lower O n) d). eexists. exists (rnd (drawn O f2)). split; [exact EC|].
      split; [exact N2|]. split; [exact R2|]. split; [exact Hd|]. split; [apply Hdraw|]. right. auto. }
    left. split; [exact EC|]. intros SP.
    destruct (SP (fun d => val (bound_lower O n) d) (fun d => val (bound_upper O n) d) (fun d => coord pt d) (rnd (drawn O f)) (Hdraw _) Hs)
      as [p' [i' [T1 [T2 T4]]]].
    change (turn_array_into_probability O (ds n) fc (dsum n) = Ok p') in T1. rewrite HT in T1. injection T1 as <-. rewrite HP in T2. injection T2 as <-.
    destruct (T4 d Hd) as [T5|T5]; [intros; apply Hid; lia|congruence|congruence].
  Qed.

  (** The attempt to insert a new parent. *)
  Definition attempt (f : forest) (n : node) (node_id : Z) (parent_tau : num O) (probs : list (num O)) (sum e : num O) : res (bool * forest) :=
    if nle O (n_ 0) e && nlt O (nadd O parent_tau e) (tau O n) then
      do (f, (dimension, (upper_value, split))) <- choose_split O rnd fc f n x probs sum;
      do new_parent <- available_node O mn f;
      if 0 <=? new_parent then
        do f <- with_node O f new_parent (fun p => Ok (set_split O p dimension split (nadd O parent_tau e)));
        do new_sibling <- available_node O mn f;
        if 0 <=? new_sibling then
          do f <- insert_above O fc lc lifetime f node_id k x label dimension upper_value new_parent new_sibling;
          Ok (true, f)
        else Ok (false, f)
      else Ok (false, f)
    else Ok (false, f).

  Definition parent_at (f : forest) (p : Z) (t0 : num O) (t : mtree) (rest : list Z) : Prop :=
    (p = -1 /\ t0 = n_ 0 /\ rd (roots f) k = Ok (top t)) \/
    (p <> -1 /\ In p rest /\ (exists np, rd (nodes f) p = Ok np /\ tau O np = t0) /\ exists q, rd (roots f) k = Ok q).
  Definition kept (f f' : forest) (u lost' : list Z) : Prop :=
    pool f' u lost' /\ lost_ok f' lost' /\ blank f' /\ (forall j, In j u -> rd (nodes f') j = rd (nodes f) j) /\
    roots f' = roots f /\ length (nodes f') = length (nodes f).
  Lemma relink_tau : forall a b n, tau O (relink a b n) = tau O n.
  Proof. intros. unfold Mondrian_Proofs.relink. destruct (a =? b); [reflexivity|]. now destruct (child_left O n =? a). Qed.
  Lemma kept_nodes : forall f f' u lost', nodes f' = nodes f -> roots f' = roots f -> pool f u lost' -> lost_ok f lost' -> blank f -> kept f f' u lost'.
  Proof.
    intros f f' u lost' N R P Q B. unfold kept, Mondrian_Spec.pool, lost_ok, Mondrian_Proofs.blank, Mondrian_Spec.is_free in *. rewrite N.
    split; [exact P|]. split; [exact Q|]. split; [exact B|]. auto.
  Qed.
  Lemma attempt_ok : forall t f p t0 rest lost n e,
    tree_at f p t0 t -> rd (nodes f) (top t) = Ok n -> pool f (rest ++ ids t) lost -> lost_ok f lost -> blank f -> Forall fine_pt (points t) ->
    parent_at f p t0 t rest -> nle O (n_ 0) t0 = true -> (nle O (n_ 0) e = true -> neq O (dsum n) (n_ 0) = false) ->
    (attempt f n (top t) t0 (ds n) (dsum n) e = Undef Uninitialised /\ (sure_pick O draw fc -> False)) \/
    (exists f' t', attempt f n (top t) t0 (ds n) (dsum n) e = Ok (true, f') /\ grown f p t0 t rest f' t' []) \/
    (exists f' lost', attempt f n (top t) t0 (ds n) (dsum n) e = Ok (false, f') /\ kept f f' (rest ++ ids t) lost').
  Proof.
    intros t f p t0 rest lost n e T Hn P LO BL F PA Ht0 He. unfold attempt.
    destruct (tree_node _ _ _ _ T) as [n' [Hn' [Hp [B [Hle Hlf]]]]]. rewrite Hn in Hn'. injection Hn' as <-.
    destruct (nle O (n_ 0) e && nlt O (nadd O t0 e) (tau O n)) eqn:EC.
    2: { right; right. exists f, lost. split; [reflexivity|]. now apply kept_nodes. }
    apply andb_prop in EC. destruct EC as [E1 E2]. pose proof (l_add _ _ _ _ _ _ L _ _ _ E1 E2) as E3. set (tn := nadd O t0 e) in *.
    destruct (choose_split_ok f n _ B F (He E1)) as [[-> SP]|[f1 [d [up [v [u [-> [N1 [R1 [Hd [Hu HV]]]]]]]]]]]; cbn [bind].
    { left. auto. }
    destruct (kept_nodes f f1 _ _ N1 R1 P LO BL) as [P1 [LO1 [BL1 _]]].
    destruct (available_node_ok O mn f1) as [a [-> [[-> NF]|[Ba Fa]]]]; [apply P1| |]; cbn [bind].
    { right; right. exists f1, lost. split; [reflexivity|]. now apply kept_nodes. }
    destruct (Z.leb_spec 0 a) as [_|]; [|lia].
    assert (EL : lost = []). { destruct lost as [|z lost]; [reflexivity|]. exfalso. apply (proj2 LO1 ltac:(discriminate) a Fa). }
    subst lost. destruct Fa as [na [Ha Ava]]. pose proof (BL1 _ _ Ha Ava) as ->.
    assert (Ln : Z.of_nat (length (nodes f)) = mn) by apply P. assert (Ln1 : Z.of_nat (length (nodes f1)) = mn) by apply P1.
    erewrite with_node_ok; [|exact Ha|reflexivity]. cbn [bind]. set (f2 := put f1 a (set_split O empty d v tn)).
    assert (L2 : length (nodes f2) = length (nodes f)) by (unfold f2; rewrite put_length; now rewrite N1).
    assert (Us : available O (set_split O empty d v tn) = false) by (apply used; cbn; now apply le_trans with t0).
    assert (Nu : forall j, In j (rest ++ ids t) -> j <> a). { intros j Hj ->. apply (pool_used _ _ _ _ P1 Hj). exists empty. auto. }
    assert (D2 : forall j, rd (nodes f2) j = if a =? j then Ok (set_split O empty d v tn) else rd (nodes f) j).
    { intros j. unfold f2. rewrite rd_put' by lia. now rewrite N1. }
    assert (Fr2 : forall j, is_free f2 j <-> is_free f j /\ j <> a).
    { intros j. unfold Mondrian_Spec.is_free. rewrite D2. destruct (Z.eqb_spec a j) as [->|N].
      - split; [intros [m [M1 M2]]; injection M1 as <-; congruence|tauto].
      - split; [intros H; split; [exact H|congruence]|tauto]. }
    assert (Fa : is_free f a). { exists empty. rewrite <- N1. auto. }
    assert (BL2 : blank f2) by (apply blank_put; auto; lia).
    destruct P as [P0 [PN [PR PF]]]. rewrite app_nil_r in PN, PR, PF.
    destruct (available_node_ok O mn f2) as [b [-> [[-> NF]|[Bb Fb]]]]; [lia| |]; cbn [bind].
    { right; right. exists f2, [a]. split; [reflexivity|]. split; [|split; [|split; [|split; [|split]]]].
      - split; [lia|]. split. { apply Permutation_NoDup with (a :: rest ++ ids t); [apply Permutation_cons_append|]. constructor; auto. intros H. now apply (Nu a). }
        split. { intros j Hj. apply in_app_or in Hj. destruct Hj as [Hj|[<-|[]]]; auto. }
        intros j Hj. split; [intros H; now apply NF in H|]. intros H. exfalso. apply (NF j). apply Fr2. split.
        + apply PF; auto. intros I. apply H, in_or_app. now left.
        + intros ->. apply H, in_or_app. right. now left.
      - split; [cbn; lia|]. intros _. exact NF.
      - exact BL2.
      - intros j Hj. rewrite D2. rewrite (proj2 (Z.eqb_neq a j)); [reflexivity|]. intros ->. now apply (Nu j).
      - exact R1.
      - exact L2. }
    destruct (Z.leb_spec 0 b) as [_|]; [|lia]. apply Fr2 in Fb. destruct Fb as [Fb Nba].
    assert (Nub : forall j, In j (rest ++ ids t) -> j <> b). { intros j Hj ->. apply (proj1 (PF b ltac:(auto)) Fb Hj). }
    assert (Hb : rd (nodes f) b = Ok empty). { destruct Fb as [nb [Hb Avb]]. rewrite Hb. f_equal. now apply (BL b). }
    assert (It : In (top t) (rest ++ ids t)) by (apply in_or_app; right; apply top_in).
    assert (Na : top t <> a) by now apply Nu. assert (Nb : top t <> b) by now apply Nub.
    destruct (nodup_app _ _ _ PN) as [_ [NDt Npt]].
    destruct (insert_above_ok f2 (top t) n a b p d v tn up (points t)) as [f3 [l [w [E [BX [D3 [R3 L3]]]]]]]; auto.
    { rewrite D2, (proj2 (Z.eqb_neq a (top t))) by congruence. exact Hn. }
    { rewrite D2, Z.eqb_refl. reflexivity. }
    { rewrite D2, (proj2 (Z.eqb_neq a b)) by congruence. exact Hb. }
    { destruct PA as [[-> [_ Hr]]|[Np [Ip [[np [Hnp _]] Hq]]]].
      - left. split; [reflexivity|]. change (roots f2) with (roots f1). now rewrite R1.
      - right. assert (Ip' : In p (rest ++ ids t)) by (apply in_or_app; now left). split; [exact Np|]. split.
        + intros ->. apply (Npt (top t)); auto. apply top_in.
        + split; [now apply Nu|]. split; [now apply Nub|]. split.
          * exists np. rewrite D2, (proj2 (Z.eqb_neq a p)); [exact Hnp|]. intros ->. now apply (Nu p).
          * change (roots f2) with (roots f1). now rewrite R1. }
    rewrite E. cbn [bind]. right; left. exists f3.
    (* the new tree *)
    set (leafb := Leaf b [pt] : mtree).
    assert (Tp : forall j, In j (ids t) -> j <> p).
    { intros j Hj ->. destruct PA as [[-> _]|[_ [Ip _]]]; [|now apply (Npt p)]. assert (0 <= -1 < mn) by (apply PR, in_or_app; now right). lia. }
    assert (Tt : tree_at f3 a tn t).
    { apply tree_reparent with f p t0 n; auto.
      - rewrite D3. rewrite (proj2 (Z.eqb_neq (top t) b)), (proj2 (Z.eqb_neq (top t) a)) by congruence. now rewrite Z.eqb_refl.
      - intros j Hj Nj. assert (Ij : In j (rest ++ ids t)) by (apply in_or_app; now right). rewrite D3.
        rewrite (proj2 (Z.eqb_neq j b)), (proj2 (Z.eqb_neq j a)), (proj2 (Z.eqb_neq j (top t))), (proj2 (Z.eqb_neq j p)) by auto.
        rewrite D2, (proj2 (Z.eqb_neq a j)); [reflexivity|]. intros ->. now apply (Nu j).
      - now apply lt_le. }
    assert (Tb : tree_at f3 a tn leafb).
    { exists (new_leaf_node a). split; [cbn; rewrite D3; now rewrite Z.eqb_refl|]. split; [reflexivity|]. split; [apply bounding_pbox|].
      split; [cbn; unfold bump; now rewrite upd_length, repeat_length|].
      split; [cbn; apply le_trans with (tau O n); [now apply lt_le|exact Hlf]|]. split; [cbn; apply le_refl; apply (l_le _ _ _ _ _ _ L) in Hlife; tauto|].
      repeat split. intros l0 Hl0. cbn [counters new_leaf_node]. change [pt] with ([] ++ [pt]). change 0 with (count label []) at 2.
      apply bump_count; auto; [apply repeat_length|]. intros l1 Hl1. apply rd_repeat. lia. }
    assert (Lt : nle O tn lifetime = true) by (apply le_trans with (tau O n); [now apply lt_le|exact Hlf]).
    assert (D3a : rd (nodes f3) a = Ok (new_parent_node (top t) a b p d v tn up l w)).
    { rewrite D3. rewrite (proj2 (Z.eqb_neq a b)) by congruence. now rewrite Z.eqb_refl. }
    destruct (fine_lo _ _ _ _ B F Hd) as [Flo Fhi].
    destruct (bounding_val _ _ _ _ B Hd) as [_ [_ [_ [_ Bv]]]].
    assert (V : nle O v v = true).
    { apply le_refl. destruct HV as [[V1 [V2 ->]]|[V1 [V2 ->]]]; apply (l_split _ _ _ _ _ _ L); auto. }
    assert (Cn : length (repeat 0 (Z.to_nat lc)) = Z.to_nat lc) by apply repeat_length.
    (* what does not depend on the side *)
    assert (Common : forall t', top t' = a -> Permutation (ids t') (a :: b :: ids t) ->
      pool f3 (rest ++ ids t') [] /\ lost_ok f3 [] /\ blank f3 /\
      (forall j, In j rest -> rd (nodes f3) j = if j =? p then do m <- rd (nodes f) j; Ok (relink (top t) (top t') m) else rd (nodes f) j) /\
      roots f3 = (if p =? -1 then upd (roots f) (Z.to_nat k) (top t') else roots f) /\ length (nodes f3) = length (nodes f)).
    { intros t' Ta Pt. rewrite Ta.
      assert (Fr3 : forall j, is_free f3 j <-> is_free f j /\ j <> a /\ j <> b).
      { intros j. unfold Mondrian_Spec.is_free. rewrite D3. destruct (Z.eqb_spec j b) as [->|Njb].
        { split; [|tauto]. intros [m [M1 M2]]. injection M1 as <-. rewrite used in M2; [discriminate|exact Hlife]. }
        destruct (Z.eqb_spec j a) as [->|Nja].
        { split; [|tauto]. intros [m [M1 M2]]. injection M1 as <-. rewrite used in M2; [discriminate|]. cbn. now apply le_trans with t0. }
        rewrite D2, (proj2 (Z.eqb_neq a j)) by congruence.
        destruct (Z.eqb_spec j (top t)) as [->|Njt].
        { rewrite Hn. split.
          - intros [m [M1 M2]]. injection M1 as <-. split; [|auto]. exists n. auto.
          - intros [[m [M1 M2]] _]. injection M1 as <-. eexists. split; [reflexivity|exact M2]. }
        destruct (Z.eqb_spec j p) as [->|Njp].
        { destruct (rd (nodes f) p) as [np| | |]; cbn [bind].
          - split.
            + intros [m [M1 M2]]. injection M1 as <-. split; [|auto]. exists np. split; [reflexivity|]. unfold available in *. now rewrite relink_tau in M2.
            + intros [[m [M1 M2]] _]. injection M1 as <-. eexists. split; [reflexivity|]. unfold available in *. now rewrite relink_tau.
          - split; [intros [m [M1 _]]; discriminate|intros [[m [M1 _]] _]; discriminate].
          - split; [intros [m [M1 _]]; discriminate|intros [[m [M1 _]] _]; discriminate].
          - split; [intros [m [M1 _]]; discriminate|intros [[m [M1 _]] _]; discriminate]. }
        tauto. }
      assert (PP : Permutation (rest ++ ids t') (a :: b :: rest ++ ids t)).
      { rewrite Pt. transitivity (a :: rest ++ b :: ids t); [apply Permutation_sym, Permutation_middle|]. apply perm_skip, Permutation_sym, Permutation_middle. }
      split; [|split; [|split; [|split; [|split]]]].
      - apply pool_perm with (a :: b :: rest ++ ids t); [now apply Permutation_sym|]. split; [rewrite L3; lia|]. rewrite app_nil_r. split.
        { constructor; [|constructor; auto].
          - intros [H|H]; [congruence|now apply (Nu a)].
          - intros H. now apply (Nub b). }
        split. { intros j [<-|[<-|Hj]]; auto. }
        intros j Hj. rewrite Fr3, (PF j Hj). cbn [In]. split.
        + intros [H1 [H2 H3]] [H|[H|H]]; congruence || auto.
        + intros H. repeat split; auto.
      - split; [cbn; lia|]. intros H. contradiction.
      - intros j m Hm Av. assert (Fj : is_free f3 j) by (exists m; auto). apply Fr3 in Fj. destruct Fj as [Fj [Nja Njb]].
        rewrite D3 in Hm. rewrite (proj2 (Z.eqb_neq j b)), (proj2 (Z.eqb_neq j a)) in Hm by congruence.
        assert (Nj : ~ In j (rest ++ ids t)). { intros H. destruct Fj as [m' [M1 M2]]. pose proof (rd_bounds _ _ _ _ M1) as BB. apply (proj1 (PF j ltac:(lia))); [exists m'; auto|exact H]. }
        rewrite (proj2 (Z.eqb_neq j (top t))) in Hm by congruence.
        assert (Njp : j <> p). { intros ->. destruct PA as [[-> _]|[_ [Ip _]]]; [|apply Nj, in_or_app; now left]. destruct Fj as [m' [M1 M2]]. apply rd_bounds in M1. lia. }
        rewrite (proj2 (Z.eqb_neq j p)) in Hm by congruence. rewrite D2, (proj2 (Z.eqb_neq a j)) in Hm by congruence. now apply (BL j).
      - intros j Hj. assert (Ij : In j (rest ++ ids t)) by (apply in_or_app; now left). rewrite D3.
        rewrite (proj2 (Z.eqb_neq j b)), (proj2 (Z.eqb_neq j a)) by auto.
        rewrite (proj2 (Z.eqb_neq j (top t))) by (intros ->; apply (Npt (top t)); auto; apply top_in).
        rewrite D2. rewrite (proj2 (Z.eqb_neq a j)); [reflexivity|]. intros ->. now apply (Nu j).
      - rewrite R3. change (roots f2) with (roots f1). now rewrite R1.
      - now rewrite L3. }
    destruct HV as [[V1 [-> ->]]|[V1 [-> ->]]].
    - exists (Fork a d (nadd O (nmul O u (nsub O (coord pt d) (val (bound_upper O n) d))) (val (bound_upper O n) d)) t leafb).
      split; [reflexivity|]. split; [|split].
      + apply grow_above_right; auto. intros q Hq. now apply Bv.
      + assert (EQ : neq O (coord pt d) (coord pt d) = true). { apply (l_eq _ _ _ _ _ _ L). pose proof (cmp_x d Hd). auto. }
        unfold new_parent_node in D3a. rewrite EQ in D3a.
        eexists. split; [exact D3a|]. split; [reflexivity|]. split.
        { cbn. apply bounding_ext with (pt :: points t); [|exact BX]. intros q. rewrite in_app_iff. cbn. tauto. }
        split; [exact Cn|]. split; [exact E3|]. split; [exact Lt|]. cbn [split_dimension split_value child_left child_right tau].
        split; [reflexivity|]. split; [exact Hd|]. split; [reflexivity|]. split; [exact V|]. auto.
      + apply Common; [reflexivity|]. cbn. apply perm_skip, Permutation_sym, Permutation_cons_append.
    - exists (Fork a d (nadd O (nmul O u (nsub O (val (bound_lower O n) d) (coord pt d))) (coord pt d)) leafb t).
      split; [reflexivity|]. split; [|split].
      + apply grow_above_left; auto. intros q Hq. now apply Bv.
      + assert (EQ : neq O (coord pt d) (val (bound_lower O n) d) = false).
        { destruct (neq O (coord pt d) (val (bound_lower O n) d)) eqn:EQ; [|reflexivity]. apply (l_eq _ _ _ _ _ _ L) in EQ. apply (l_lt _ _ _ _ _ _ L) in V1.
          destruct EQ as [_ [_ EQ]], V1 as [_ [_ V1]]. lra. }
        unfold new_parent_node in D3a. rewrite EQ in D3a.
        eexists. split; [exact D3a|]. split; [reflexivity|]. split.
        { cbn. exact BX. }
        split; [exact Cn|]. split; [exact E3|]. split; [exact Lt|]. cbn [split_dimension split_value child_left child_right tau].
        split; [reflexivity|]. split; [exact Hd|]. split; [reflexivity|]. split; [exact V|]. auto.
      + apply Common; [reflexivity|]. cbn. reflexivity.
  Qed.

  (** After the attempt. *)
  Local Notation extend steps f i := (extend_block O log_ rnd fc lc mn lifetime steps f i k x label).
  Definition descend (steps : nat) (f : forest) (node_id : Z) : res forest :=
    do f <- with_node O f node_id (fun n => update_box O fc n x);
    do n <- rd (nodes f) node_id;
    if is_leaf O n then
      with_node O f node_id
        (fun n =>
           do c <- rd (counters O n) label;
           do c <- sint (c + 1);
           do cs <- wr (counters O n) label c;
           Ok (set_counters O n cs))
    else
      do y <- rd x (split_dimension O n);
      do v <- match split_value O n with Some v => Ok v | None => Undef Uninitialised end;
      if nle O y v then extend steps f (child_left O n)
      else if nlt O v y then extend steps f (child_right O n)
      else Ok f.
  Lemma extend_S : forall steps f i, extend (S steps) f i =
    do n <- rd (nodes f) i;
    do parent_tau <- parent_time O f n;
    do (probs, sum) <- distances O fc n x;
    let (e, f) :=
      if neq O sum (n_ 0) then (n_ (-1), f)
      else let (u, f) := uniform O rnd f in (rand_exponential O log_ u sum, f) in
    do (done, f) <- attempt f n i parent_tau probs sum e;
    if (done : bool) then Ok f else descend steps f i.
  Proof. reflexivity. Qed.

  Definition pre (f : forest) (p : Z) (t0 : num O) (t : mtree) (rest lost : list Z) : Prop :=
    tree_at f p t0 t /\ pool f (rest ++ ids t) lost /\ lost_ok f lost /\ blank f /\ Forall fine_pt (points t) /\
    parent_at f p t0 t rest /\ nle O (n_ 0) t0 = true /\ Z.of_nat (length (points t)) < 2147483647.
  Definition outcome (m : res forest) (f : forest) (p : Z) (t0 : num O) (t : mtree) (rest : list Z) : Prop :=
    (m = Undef Uninitialised /\ (sure_pick O draw fc -> False)) \/ exists f' t' lost', m = Ok f' /\ grown f p t0 t rest f' t' lost'.
  Lemma pre_kept : forall f f' p t0 t rest lost lost', pre f p t0 t rest lost -> kept f f' (rest ++ ids t) lost' -> pre f' p t0 t rest lost'.
  Proof.
    intros f f' p t0 t rest lost lost' [T [P [LO [BL [F [PA [H0 HL]]]]]]] [P' [LO' [BL' [D [R LN]]]]].
    split. { apply tree_frame with f; [|exact T]. intros j Hj. apply D, in_or_app. now right. }
    do 4 (split; [assumption|]). split; [|auto]. destruct PA as [[A1 [A2 A3]]|[A1 [A2 [[np [A3 A4]] [q A5]]]]].
    - left. rewrite R. auto.
    - right. split; [exact A1|]. split; [exact A2|]. split; [exists np; split; [|exact A4]; rewrite D; [exact A3|apply in_or_app; now left]|].
      exists q. now rewrite R.
  Qed.
  Lemma kept_grown : forall f f1 p t0 t rest lost1 f' t' lost', kept f f1 (rest ++ ids t) lost1 -> grown f1 p t0 t rest f' t' lost' -> grown f p t0 t rest f' t' lost'.
  Proof.
    intros f f1 p t0 t rest lost1 f' t' lost' [_ [_ [_ [D [R LN]]]]] [G1 [G2 [G3 [G4 [G5 [G6 [G7 G8]]]]]]].
    do 5 (split; [assumption|]). split; [|split].
    - intros j Hj. rewrite G6 by auto. rewrite D; [reflexivity|]. apply in_or_app. now left.
    - now rewrite G7, R.
    - congruence.
  Qed.
  Lemma relink_same : forall a n, relink a a n = n.
  Proof. intros. unfold Mondrian_Proofs.relink. now rewrite Z.eqb_refl. Qed.
  Lemma rd_relink_same : forall a (m : res node), (do n <- m; Ok (relink a a n)) = m.
  Proof. intros a [n| | |]; cbn; auto. now rewrite relink_same. Qed.
  Lemma roots_same : forall f p t0 t rest, parent_at f p t0 t rest -> roots f = if p =? -1 then upd (roots f) (Z.to_nat k) (top t) else roots f.
  Proof.
    intros f p t0 t rest [[-> [_ H]]|[H _]].
    - cbn. symmetry. apply upd_same_id. now apply rd_ok_iff in H.
    - now rewrite (proj2 (Z.eqb_neq p (-1))) by exact H.
  Qed.

  Lemma descend_leaf : forall i pts f p t0 rest lost steps, pre f p t0 (Leaf i pts) rest lost -> outcome (descend steps f i) f p t0 (Leaf i pts) rest.
  Proof.
    intros i pts f p t0 rest lost steps [T [P [LO [BL [F [PA [H0 HL]]]]]]].
    destruct T as [n [T1 [T2 [T3 [T4 [T5 [T6 [T7 [T8 [T9 [T10 T11]]]]]]]]]]]. cbn [Mondrian_Spec.top Mondrian_Spec.points] in *.
    pose proof (rd_bounds _ _ _ _ T1) as Bi. unfold descend.
    destruct (update_box_ok pts n T3 F) as [l [u [E B]]]. erewrite with_node_ok; [|exact T1|exact E]. cbn [bind].
    set (n1 := set_box O n l u). assert (E1 : rd (nodes (put f i n1)) i = Ok n1) by (rewrite rd_put' by lia; now rewrite Z.eqb_refl).
    rewrite E1. cbn [bind]. unfold is_leaf. cbn [n1 set_box split_dimension]. rewrite T7. cbn [Z.eqb]. pose proof (T11 label Hlab) as Hc.
    pose proof (count_le label pts) as Cl.
    erewrite with_node_ok; [|exact E1|cbn [n1 set_box counters]; rewrite Hc; cbn [bind]; rewrite sint_ok by lia; cbn [bind]; rewrite wr_ok by lia; reflexivity].
    set (n2 := set_counters O n1 _). right. set (f' := put (put f i n1) i n2).
    assert (D : forall j, rd (nodes f') j = if i =? j then Ok n2 else rd (nodes f) j).
    { intros j. unfold f'. rewrite !rd_put' by (rewrite ?put_length; lia). destruct (i =? j); reflexivity. }
    assert (Fr : forall j, is_free f' j <-> is_free f j).
    { intros j. unfold f'. rewrite (free_put (put f i n1) i n1); [|exact E1|reflexivity]. apply (free_put f i n); [exact T1|reflexivity]. }
    exists f', (Leaf i (pts ++ [pt])), lost. split; [reflexivity|]. split; [apply grow_leaf|]. split; [|split; [|split; [|split; [|split; [|split]]]]].
    - exists n2. split; [cbn; rewrite D; now rewrite Z.eqb_refl|]. split; [exact T2|]. split.
      { cbn. apply bounding_ext with (pt :: pts); [|exact B]. intros q. rewrite in_app_iff. cbn. tauto. }
      split; [cbn; now rewrite upd_length|]. split; [exact T5|]. split; [exact T6|]. split; [exact T7|]. split; [exact T8|]. split; [exact T9|]. split; [exact T10|].
      cbn [n2 counters set_counters]. now apply bump_count.
    - cbn [Mondrian_Spec.ids] in *. apply pool_same with f; auto. unfold f'. now rewrite !put_length.
    - apply lost_same with f; auto.
    - assert (Av : available O n = false) by (apply used; now apply le_trans with t0).
      unfold f'. apply blank_put; [apply blank_put|exact Av|rewrite put_length; lia]; auto.
    - intros j Hj. cbn [Mondrian_Spec.top]. rewrite rd_relink_same. rewrite D.
      destruct (nodup_app _ _ _ (proj1 (nodup_app _ _ _ (proj1 (proj2 P))))) as [_ [_ N]].
      destruct (Z.eqb_spec i j) as [->|Nj]; [exfalso; apply (N j Hj); now left|]. now destruct (j =? p).
    - apply (roots_same f p t0 (Leaf i pts) rest PA).
    - unfold f'. now rewrite !put_length.
  Qed.

  Lemma descend_fork : forall i d v l r f p t0 rest lost steps,
    (forall f p t0 rest lost, pre f p t0 l rest lost -> outcome (extend steps f (top l)) f p t0 l rest) ->
    (forall f p t0 rest lost, pre f p t0 r rest lost -> outcome (extend steps f (top r)) f p t0 r rest) ->
    pre f p t0 (Fork i d v l r) rest lost -> outcome (descend steps f i) f p t0 (Fork i d v l r) rest.
  Proof.
    intros i d v l r f p t0 rest lost steps IHl IHr [T [P [LO [BL [F [PA [H0 HL]]]]]]].
    destruct T as [n [T1 [T2 [T3 [T4 [T5 [T6 [T7 [T8 [T9 [T10 [T11 [T12 [T13 T14]]]]]]]]]]]]]]. cbn [Mondrian_Spec.top Mondrian_Spec.points Mondrian_Spec.ids] in *.
    pose proof (rd_bounds _ _ _ _ T1) as Bi. unfold descend.
    destruct (update_box_ok _ n T3 F) as [bl [bu [E B]]]. erewrite with_node_ok; [|exact T1|exact E]. cbn [bind].
    set (n1 := set_box O n bl bu). set (f1 := put f i n1). assert (E1 : rd (nodes f1) i = Ok n1) by (unfold f1; rewrite rd_put' by lia; now rewrite Z.eqb_refl).
    rewrite E1. cbn [bind]. unfold is_leaf. cbn [n1 set_box split_dimension split_value child_left child_right]. rewrite T7, T9, T11, T12.
    rewrite (proj2 (Z.eqb_neq d (-1))) by lia. rewrite rd_x by lia. cbn [bind].
    assert (ND : NoDup (rest ++ i :: ids l ++ ids r)) by apply (nodup_app _ _ _ (proj1 (proj2 P))).
    destruct (nodup_app _ _ _ ND) as [_ [ND2 NDr]]. apply NoDup_cons_iff in ND2. destruct ND2 as [NDi ND2]. destruct (nodup_app _ _ _ ND2) as [_ [_ NDlr]].
    assert (Nil : forall j, In j (ids l) -> j <> i) by (intros j Hj ->; apply NDi, in_or_app; now left).
    assert (Nir : forall j, In j (ids r) -> j <> i) by (intros j Hj ->; apply NDi, in_or_app; now right).
    assert (Nri : forall j, In j rest -> j <> i) by (intros j Hj ->; apply (NDr i Hj); now left).
    assert (D1 : forall j, j <> i -> rd (nodes f1) j = rd (nodes f) j).
    { intros j Hj. unfold f1. rewrite rd_put' by lia. now rewrite (proj2 (Z.eqb_neq i j)) by congruence. }
    assert (Av : available O n1 = false) by (apply used; now apply le_trans with t0).
    assert (Fr : forall j, is_free f1 j <-> is_free f j) by (intros j; apply (free_put f i n n1); [exact T1|reflexivity]).
    assert (P1 : pool f1 (rest ++ i :: ids l ++ ids r) lost) by (apply pool_same with f; auto; apply put_length).
    assert (LO1 : lost_ok f1 lost) by (apply lost_same with f; auto).
    assert (BL1 : blank f1) by (apply blank_put; auto).
    assert (Ni1 : i <> -1) by lia.
    apply Forall_app in F. destruct F as [Fl Fr']. rewrite app_length in HL.
    assert (Hq : exists q, rd (roots f1) k = Ok q). { destruct PA as [[_ [_ H]]|[_ [_ [_ H]]]]; [eauto|exact H]. }
    assert (Ht1 : nle O (n_ 0) (tau O n) = true) by now apply le_trans with t0.
    assert (Cv : cmp v) by (apply (l_le _ _ _ _ _ _ L) in T10; tauto).
    pose proof (roots_same f p t0 (Fork i d v l r) rest PA) as RS. cbn [Mondrian_Spec.top] in RS.
    assert (Bp : forall j, rd (nodes f) j = (if j =? p then do m <- rd (nodes f) j; Ok (relink i i m) else rd (nodes f) j)).
    { intros j. rewrite rd_relink_same. now destruct (j =? p). }
    destruct (nle O (coord pt d) v) eqn:EL.
    - assert (Pl : Permutation (rest ++ i :: ids l ++ ids r) ((i :: ids r ++ rest) ++ ids l)).
      { transitivity (i :: rest ++ ids l ++ ids r); [apply Permutation_sym, Permutation_middle|]. cbn. apply perm_skip.
        transitivity ((ids l ++ ids r) ++ rest); [apply Permutation_app_comm|]. rewrite <- !app_assoc. apply Permutation_app_comm with (l := ids l) (l' := ids r ++ rest) || (rewrite (Permutation_app_comm (ids l)); rewrite <- app_assoc; reflexivity). }
      destruct (IHl f1 i (tau O n) (i :: ids r ++ rest) lost) as [Bad|[f' [l' [lost' [-> [G1 [G2 [G3 [G4 [G5 [G6 [G7 G8]]]]]]]]]]]].
      { split; [apply tree_frame with f; [|exact T13]; intros j Hj; apply D1; auto|]. split; [now apply pool_perm with (rest ++ i :: ids l ++ ids r)|].
        do 3 (split; [assumption|]). split; [|split; [exact Ht1|lia]]. right. split; [exact Ni1|]. split; [now left|]. split; [|exact Hq].
        exists n1. split; [exact E1|reflexivity]. }
      { left. exact Bad. }
      right. exists f', (Fork i d v l' r), lost'. split; [reflexivity|]. split; [now apply grow_left|].
      pose proof (grows_points _ _ _ _ _ _ G1) as PP.
      assert (Er : forall j, In j (ids r) \/ In j rest -> rd (nodes f') j = rd (nodes f) j).
      { intros j Hj. assert (Nj : j <> i) by (destruct Hj; auto). rewrite G6 by (right; apply in_or_app; exact Hj).
        rewrite (proj2 (Z.eqb_neq j i)) by exact Nj. now apply D1. }
      split; [|split; [|split; [|split; [|split; [|split]]]]].
      + exists (relink (top l) (top l') n1). split.
        { cbn [Mondrian_Spec.top]. rewrite G6 by now left. rewrite Z.eqb_refl, E1. reflexivity. }
        assert (X : relink (top l) (top l') n1 = set_children O n1 (top l') (top r)).
        { unfold Mondrian_Proofs.relink. destruct (Z.eqb_spec (top l) (top l')) as [EE|NN].
          - rewrite <- EE, <- T11, <- T12. reflexivity.
          - cbn [n1 set_box child_left child_right]. rewrite T11, T12, Z.eqb_refl. reflexivity. }
        rewrite X. split; [exact T2|]. split.
        { cbn. apply bounding_ext with (pt :: points l ++ points r); [|exact B]. intros q. cbn [In]. rewrite !in_app_iff.
          split; intros H; [|apply or_assoc].
          - destruct H as [H|[H|H]]; [left; apply Permutation_in with (pt :: points l); [now apply Permutation_sym|now left]| |now right].
            left. apply Permutation_in with (pt :: points l); [now apply Permutation_sym|now right].
          - destruct H as [H|H]; [|now right]. left. apply Permutation_in with (l' := pt :: points l) in H; [|exact PP]. exact H. }
        split; [exact T4|]. split; [exact T5|]. split; [exact T6|]. cbn [split_dimension split_value child_left child_right tau set_children n1 set_box].
        split; [exact T7|]. split; [exact T8|]. split; [exact T9|]. split; [exact T10|]. split; [reflexivity|]. split; [reflexivity|].
        split; [exact G2|]. apply tree_frame with f; [|exact T14]. intros j Hj. apply Er. now left.
      + cbn [Mondrian_Spec.ids]. apply pool_perm with ((i :: ids r ++ rest) ++ ids l'); [|exact G3].
        apply Permutation_sym. transitivity (i :: rest ++ ids l' ++ ids r); [apply Permutation_sym, Permutation_middle|]. cbn. apply perm_skip.
        transitivity ((ids l' ++ ids r) ++ rest); [apply Permutation_app_comm|]. rewrite <- !app_assoc. apply Permutation_app_comm with (l := ids l') (l' := ids r ++ rest) || (rewrite (Permutation_app_comm (ids l')); rewrite <- app_assoc; reflexivity).
      + exact G4.
      + exact G5.
      + intros j Hj. cbn [Mondrian_Spec.top]. rewrite <- Bp. apply Er. now right.
      + rewrite G7, (proj2 (Z.eqb_neq i (-1))) by exact Ni1. exact RS.
      + rewrite G8. apply put_length.
    - assert (EG : nlt O v (coord pt d) = true) by (apply not_le_lt; auto; now apply cmp_x). rewrite EG.
      assert (Pr : forall z, Permutation (rest ++ i :: ids l ++ z) ((i :: ids l ++ rest) ++ z)).
      { intros z. transitivity (i :: rest ++ ids l ++ z); [apply Permutation_sym, Permutation_middle|]. cbn. apply perm_skip.
        rewrite !app_assoc. apply Permutation_app_tail. apply Permutation_app_comm. }
      destruct (IHr f1 i (tau O n) (i :: ids l ++ rest) lost) as [Bad|[f' [r' [lost' [-> [G1 [G2 [G3 [G4 [G5 [G6 [G7 G8]]]]]]]]]]]].
      { split; [apply tree_frame with f; [|exact T14]; intros j Hj; apply D1; auto|]. split; [now apply pool_perm with (rest ++ i :: ids l ++ ids r)|].
        do 3 (split; [assumption|]). split; [|split; [exact Ht1|lia]]. right. split; [exact Ni1|]. split; [now left|]. split; [|exact Hq].
        exists n1. split; [exact E1|reflexivity]. }
      { left. exact Bad. }
      right. exists f', (Fork i d v l r'), lost'. split; [reflexivity|]. split; [now apply grow_right|].
      pose proof (grows_points _ _ _ _ _ _ G1) as PP.
      assert (Er : forall j, In j (ids l) \/ In j rest -> rd (nodes f') j = rd (nodes f) j).
      { intros j Hj. assert (Nj : j <> i) by (destruct Hj; auto). rewrite G6 by (right; apply in_or_app; exact Hj).
        rewrite (proj2 (Z.eqb_neq j i)) by exact Nj. now apply D1. }
      split; [|split; [|split; [|split; [|split; [|split]]]]].
      + exists (relink (top r) (top r') n1). split.
        { cbn [Mondrian_Spec.top]. rewrite G6 by now left. rewrite Z.eqb_refl, E1. reflexivity. }
        assert (X : relink (top r) (top r') n1 = set_children O n1 (top l) (top r')).
        { unfold Mondrian_Proofs.relink. destruct (Z.eqb_spec (top r) (top r')) as [EE|NN].
          - rewrite <- EE, <- T11, <- T12. reflexivity.
          - cbn [n1 set_box child_left child_right]. rewrite T11. destruct (Z.eqb_spec (top l) (top r)) as [EE|_]; [|reflexivity].
            exfalso. apply (NDlr (top l)); [apply top_in|]. rewrite EE. apply top_in. }
        rewrite X. split; [exact T2|]. split.
        { cbn. apply bounding_ext with (pt :: points l ++ points r); [|exact B]. intros q. cbn [In]. rewrite !in_app_iff.
          split; intros H.
          - destruct H as [H|[H|H]]; [right; apply Permutation_in with (pt :: points r); [now apply Permutation_sym|now left]|now left|].
            right. apply Permutation_in with (pt :: points r); [now apply Permutation_sym|now right].
          - destruct H as [H|H]; [right; now left|]. apply Permutation_in with (l' := pt :: points r) in H; [|exact PP]. destruct H as [H|H]; [now left|right; now right]. }
        split; [exact T4|]. split; [exact T5|]. split; [exact T6|]. cbn [split_dimension split_value child_left child_right tau set_children n1 set_box].
        split; [exact T7|]. split; [exact T8|]. split; [exact T9|]. split; [exact T10|]. split; [reflexivity|]. split; [reflexivity|].
        split; [|exact G2]. apply tree_frame with f; [|exact T13]. intros j Hj. apply Er. now left.
      + cbn [Mondrian_Spec.ids]. apply pool_perm with ((i :: ids l ++ rest) ++ ids r'); [|exact G3]. apply Permutation_sym, Pr.
      + exact G4.
      + exact G5.
      + intros j Hj. cbn [Mondrian_Spec.top]. rewrite <- Bp. apply Er. now right.
      + rewrite G7, (proj2 (Z.eqb_neq i (-1))) by exact Ni1. exact RS.
      + rewrite G8. apply put_length.
  Qed.

  Lemma tail_ok : forall steps t f p t0 rest lost n e,
    (forall f p t0 rest lost, pre f p t0 t rest lost -> outcome (descend steps f (top t)) f p t0 t rest) ->
    pre f p t0 t rest lost -> rd (nodes f) (top t) = Ok n -> (nle O (n_ 0) e = true -> neq O (dsum n) (n_ 0) = false) ->
    outcome (do (done, f) <- attempt f n (top t) t0 (ds n) (dsum n) e; if (done : bool) then Ok f else descend steps f (top t)) f p t0 t rest.
  Proof.
    intros steps t f p t0 rest lost n e IH Pre Hn He. pose proof Pre as [T [P [LO [BL [F [PA [H0 HL]]]]]]].
    destruct (attempt_ok t f p t0 rest lost n e T Hn P LO BL F PA H0 He) as [[-> SP]|[[f' [t' [-> G]]]|[f1 [lost1 [-> K]]]]]; cbn [bind].
    - left. auto.
    - right. exists f', t', []. auto.
    - destruct (IH f1 p t0 rest lost1 (pre_kept _ _ _ _ _ _ _ _ Pre K)) as [Bad|[f' [t' [lost' [E G]]]]]; [now left|].
      right. exists f', t', lost'. split; [exact E|]. now apply kept_grown with f1 lost1.
  Qed.
  Theorem extend_ok : forall t f p t0 rest lost steps, (length (ids t) <= steps)%nat ->
    pre f p t0 t rest lost -> outcome (extend steps f (top t)) f p t0 t rest.
  Proof.
    induction t as [i pts|i d v l IHl r IHr]; intros f p t0 rest lost steps Hs Pre;
      (destruct steps as [|steps]; [cbn in Hs; lia|]); rewrite extend_S;
      pose proof Pre as [T [P [LO [BL [F [PA [H0 HL]]]]]]]; destruct (tree_node _ _ _ _ T) as [n [Hn [Hp [B [_ _]]]]];
      rewrite Hn; cbn [bind];
      (assert (PT : parent_time O f n = Ok t0) by
        (unfold parent_time; rewrite Hp; destruct PA as [[-> [-> _]]|[_ [_ [[np [Hnp <-]] _]]]];
         [reflexivity|pose proof (rd_bounds _ _ _ _ Hnp); rewrite (proj2 (Z.leb_le 0 p)) by lia; rewrite Hnp; reflexivity]));
      rewrite PT; cbn [bind]; rewrite (distances_ok _ _ B); cbn [bind];
      (assert (M1 : nle O (n_ 0) (n_ (-1)) = false) by
        (destruct (nle O (n_ 0) (n_ (-1))) eqn:E; [|reflexivity]; apply (l_le _ _ _ _ _ _ L) in E; destruct E as [_ [_ E]];
         rewrite (proj2 (l_0 _ _ _ _ _ _ L)), (proj2 (l_m1 _ _ _ _ _ _ L)) in E; lra)).
    - destruct (neq O (dsum n) (n_ 0)) eqn:ES.
      + apply tail_ok with lost; auto; [|congruence]. intros. now apply descend_leaf with lost0.
      + unfold uniform.
        change (outcome (do (done, f) <- attempt (mkForest O (nodes f) (roots f) (S (drawn O f))) n (top (Leaf i pts)) t0 (ds n) (dsum n) (rand_exponential O log_ (rnd (drawn O f)) (dsum n)); if (done : bool) then Ok f else descend steps f (top (Leaf i pts))) (mkForest O (nodes f) (roots f) (S (drawn O f))) p t0 (Leaf i pts) rest).
        apply tail_ok with lost; auto. { intros. now apply descend_leaf with lost0. }
    - cbn in Hs. rewrite app_length in Hs.
      destruct (neq O (dsum n) (n_ 0)) eqn:ES.
      + apply tail_ok with lost; auto; [|congruence]. intros. apply descend_fork with lost0; auto; intros; [apply IHl with lost1|apply IHr with lost1]; auto; lia.
      + unfold uniform.
        change (outcome (do (done, f) <- attempt (mkForest O (nodes f) (roots f) (S (drawn O f))) n (top (Fork i d v l r)) t0 (ds n) (dsum n) (rand_exponential O log_ (rnd (drawn O f)) (dsum n)); if (done : bool) then Ok f else descend steps f (top (Fork i d v l r))) (mkForest O (nodes f) (roots f) (S (drawn O f))) p t0 (Fork i d v l r) rest).
        apply tail_ok with lost; auto. { intros. apply descend_fork with lost0; auto; intros; [apply IHl with lost1|apply IHr with lost1]; auto; lia. }
        apply pre_kept with f lost; auto. apply kept_nodes; auto.
  Qed.
End Train.
