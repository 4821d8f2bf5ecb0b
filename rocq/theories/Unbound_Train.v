(** * Proofs for the unbounded Mondrian forest: one training step of a tree *)
From Coq Require Import ZArith List Bool Lia Reals Lra Permutation.
From Verif Require Import CppBase CppFacts NumOps Utils_Model Utils_Proofs Mondrian_Model Mondrian_Spec Mondrian_Proofs Mondrian_Train Mondrian_Forest Mondrian_Predict.
From Verif Require Import Unbound_Model Unbound_Spec Unbound_Count.
Import ListNotations.
Local Open Scope Z_scope.

(** The dimension picked is always one in which the point is outside of the box. *)
Definition able_pick O (draw : num O -> Prop) (fc : Z) : Prop :=
  forall (lo hi x : Z -> num O) u, draw u ->
    let w := map (fun d => dist O (lo d) (hi d) (x d)) (zrange fc) in
    let sum := fold_left (nadd O) w (nofZ O 0) in
    neq O sum (nofZ O 0) = false ->
    exists p i, turn_array_into_probability O w fc sum = Ok p /\ pick_from_distribution O u p fc = Ok i /\ 0 <= i < fc /\
      (nlt O (hi i) (x i) = true \/ nlt O (x i) (lo i) = true).
Lemma slong_ok : forall x, 0 <= x <= 9223372036854775807 -> slong x = Ok x.
Proof. intros x H. unfold slong. rewrite (proj2 (Z.leb_le _ _)), (proj2 (Z.leb_le _ _)) by lia. reflexivity. Qed.
Lemma rd_app : forall A (l m : list A) j, j < Z.of_nat (length l) -> rd (l ++ m) j = rd l j.
Proof.
  intros A l m j H. destruct (Z.ltb_spec j 0) as [N|N]; [now rewrite !rd_oob by lia|]. unfold rd. rewrite (proj2 (Z.ltb_ge j 0)) by lia.
  now rewrite nth_error_app1 by lia.
Qed.
Lemma rd_last : forall A (l m : list A) y, rd (l ++ y :: m) (Z.of_nat (length l)) = Ok y.
Proof. intros. apply rd_ok_iff. split; [lia|]. now rewrite Nat2Z.id, nth_error_app2, Nat.sub_diag by lia. Qed.

Section Heap.
  Variable O : ops.
  Local Notation forest := (forest O).
  Local Notation nodes := (nodes O).
  Local Notation addresses := (addresses O).
  (** The heap. *)
  Definition heap (f : forest) (u : list Z) : Prop := Permutation u (addresses f).
  Lemma in_addresses : forall f j, In j (addresses f) <-> 0 <= j < Z.of_nat (length (nodes f)).
  Proof.
    intros f j. unfold Unbound_Spec.addresses. rewrite in_map_iff. split.
    - intros [k [<- H]]. apply in_seq in H. lia.
    - intros H. exists (Z.to_nat j). split; [lia|]. apply in_seq. lia.
  Qed.
  Lemma heap_in : forall f u j, heap f u -> In j u -> 0 <= j < Z.of_nat (length (nodes f)).
  Proof. intros f u j H I. apply in_addresses. now apply (Permutation_in _ H). Qed.
  Lemma heap_nodup : forall f u, heap f u -> NoDup u.
  Proof.
    intros f u H. apply Permutation_NoDup with (addresses f); [now apply Permutation_sym|]. unfold Unbound_Spec.addresses.
    apply FinFun.Injective_map_NoDup; [intros a b; lia|apply seq_NoDup].
  Qed.
  Lemma heap_same : forall f g u, length (nodes g) = length (nodes f) -> heap f u -> heap g u.
  Proof. intros f g u E H. unfold heap, Unbound_Spec.addresses in *. now rewrite E. Qed.
  Lemma heap_len : forall f u, heap f u -> length u = length (nodes f).
  Proof. intros f u H. apply Permutation_length in H. rewrite H. unfold Unbound_Spec.addresses. now rewrite map_length, seq_length. Qed.
End Heap.

Section Train.
  Variable O : ops.
  Variable log_ : num O -> num O.
  Variable rnd : nat -> num O.
  Variable fc lc : Z.
  Variable lifetime : num O.
  Variable key : num O -> R.
  Variable cmp fine draw : num O -> Prop.
  Hypothesis L : laws O key cmp fine draw fc.
  Hypothesis Hdraw : forall k, draw (rnd k).
  Hypothesis Hfc : 1 <= fc.
  Hypothesis Hlife : nle O (nofZ O 0) lifetime = true.
  Local Notation forest := (forest O).
  Local Notation node := (node O).
  Local Notation point := (point O).
  Local Notation mtree := (mtree O).
  Local Notation tree_at := (tree_at O fc lc lifetime).
  Local Notation bounding := (bounding O fc).
  Local Notation coord := (coord O).
  Local Notation points := (points O).
  Local Notation ids := (ids O).
  Local Notation fork_ids := (fork_ids O).
  Local Notation top := (top O).
  Local Notation count := (count O).
  Local Notation counted := (counted O lc).
  Local Notation put := (put O).
  Local Notation relink := (relink O).
  Local Notation n_ := (nofZ O).
  Local Notation nodes := (nodes O).
  Local Notation roots := (roots O).
  Local Notation val := (val O).
  Local Notation fine_pt := (fine_pt O fc fine).
  Local Notation addresses := (addresses O).
  Local Notation plug := (plug O).
  Local Notation LLe := (l_le _ _ _ _ _ _ L).
  Local Notation LLt := (l_lt _ _ _ _ _ _ L).
  Local Notation LT_le := (lt_le O fc key cmp fine draw L).
  Local Notation LE_trans := (le_trans O fc key cmp fine draw L).
  Local Notation LE_refl := (le_refl O fc key cmp fine draw L).

  Variable x : list (num O).
  Variable label : Z.
  Hypothesis Hx : length x = Z.to_nat fc.
  Hypothesis Hlab : 0 <= label < lc.
  Local Notation pt := (x, label).
  Hypothesis Hfine : fine_pt pt.
  Local Notation RD_x := (rd_x O fc Hfc x label Hx).
  Local Notation CMP_x := (cmp_x O fc key cmp fine draw L x label Hfine).
  Local Notation ds := (ds O fc x label).
  Local Notation pbox := (pbox O fc x label).
  Local Notation bump := (bump label).
  Local Notation dsum n := (fold_left (nadd O) (ds n) (n_ 0)).

  Local Notation heap := (heap O).
  Variable k : Z.
  (** Linking the two new nodes. *)
  Definition parent_node (i b p d : Z) (v t up : num O) l u : node :=
    mkNode O d (Some v) l u (if neq O (coord pt d) up then i else b) (if neq O (coord pt d) up then b else i) p t (repeat 0 (Z.to_nat lc)).
  Definition blank_leaf (a : Z) : node := set_parent O (new_leaf O fc lc) a.
  Definition leaf_node (a : Z) : node :=
    set_tau O (set_counters O (set_box O (blank_leaf a) pbox pbox) (bump (repeat 0 (Z.to_nat lc)) 0)) lifetime.
  Ltac eqz := repeat match goal with
    | |- context [?a =? ?a] => rewrite (Z.eqb_refl a)
    | |- context [?a =? ?b] => rewrite (proj2 (Z.eqb_neq a b)) by (congruence || lia)
    end.
  Ltac wn H := erewrite with_node_ok; [|exact H|reflexivity].
  Ltac rp := rewrite ?rd_put' by (rewrite ?put_length; lia).
  Lemma insert_above_ok : forall f i n p d v t up pts,
    rd (nodes f) i = Ok n -> parent O n = p -> 0 <= d < fc -> bounding pts (bound_lower O n) (bound_upper O n) -> Forall fine_pt pts ->
    ((p = -1 /\ rd (roots f) k = Ok i) \/ (p <> -1 /\ p <> i /\ (exists np, rd (nodes f) p = Ok np) /\ (exists q, rd (roots f) k = Ok q))) ->
    let a := Z.of_nat (length (nodes f)) in let b := a + 1 in
    exists g l u, insert_above O fc lc f i k x d up v t = Ok (g, (a, b)) /\ bounding (pt :: pts) l u /\
      (forall j, rd (nodes g) j = if j =? b then Ok (blank_leaf a) else if j =? a then Ok (parent_node i b p d v t up l u)
         else if j =? i then Ok (set_parent O n a) else if j =? p then do np <- rd (nodes f) j; Ok (relink i a np) else rd (nodes f) j) /\
      roots g = (if p =? -1 then upd (roots f) (Z.to_nat k) a else roots f) /\ length (nodes g) = (length (nodes f) + 2)%nat.
  Proof.
    intros f i n p d v t up pts Hi Hp Hd B F HP a b.
    pose proof (rd_bounds _ _ _ _ Hi) as Bi.
    destruct (joined_box_ok O fc key cmp fine draw L Hfc x label Hx Hfine pts n B F) as [l [u [EJ BJ]]]. unfold insert_above, alloc.
    cbn [Mondrian_Model.nodes Mondrian_Model.roots drawn]. fold a.
    assert (Eb : Z.of_nat (length (nodes f ++ [new_internal O fc lc])) = b) by (rewrite app_length; cbn [length]; lia). rewrite Eb.
    set (f0 := mkForest O ((nodes f ++ [new_internal O fc lc]) ++ [new_leaf O fc lc]) (roots f) (drawn O f)).
    assert (L0 : length (nodes f0) = (length (nodes f) + 2)%nat) by (cbn; rewrite !app_length; cbn; lia).
    assert (D0 : forall j, rd (nodes f0) j = if j =? b then Ok (new_leaf O fc lc) else if j =? a then Ok (new_internal O fc lc) else rd (nodes f) j).
    { intros j. cbn [f0 Mondrian_Model.nodes]. destruct (Z.eqb_spec j b) as [->|Nb]; [rewrite <- Eb; apply rd_last|].
      destruct (Z.eqb_spec j a) as [->|Na]; [rewrite rd_app by (rewrite app_length; cbn; lia); apply rd_last|].
      destruct (Z.ltb_spec j a) as [Lt|Ge]; [rewrite !rd_app by (rewrite ?app_length; cbn; lia); reflexivity|].
      rewrite !rd_oob by (rewrite ?app_length; cbn; lia). reflexivity. }
    assert (Ha0 : rd (nodes f0) a = Ok (new_internal O fc lc)) by (rewrite D0; eqz; reflexivity).
    assert (Hb0 : rd (nodes f0) b = Ok (new_leaf O fc lc)) by (rewrite D0; eqz; reflexivity).
    assert (Hi0 : rd (nodes f0) i = Ok n) by (rewrite D0; eqz; exact Hi).
    wn Ha0. cbn [bind]. set (f1 := put f0 a _).
    assert (L1 : length (nodes f1) = length (nodes f0)) by apply put_length.
    assert (Ei1 : rd (nodes f1) i = Ok n) by (unfold f1; rp; eqz; exact Hi0).
    rewrite Ei1. cbn [bind]. rewrite EJ. cbn [bind].
    assert (Ea1 : rd (nodes f1) a = Ok (set_split O (new_internal O fc lc) d v t)) by (unfold f1; rp; eqz; reflexivity).
    wn Ea1. cbn [bind]. set (f2 := put f1 a _).
    assert (L2 : length (nodes f2) = length (nodes f0)) by (unfold f2; rewrite put_length; exact L1).
    assert (Ei2 : rd (nodes f2) i = Ok n) by (unfold f2; rp; eqz; exact Ei1).
    rewrite Ei2. cbn [bind].
    assert (Ea2 : rd (nodes f2) a = Ok (set_box O (set_split O (new_internal O fc lc) d v t) l u)) by (unfold f2; rp; eqz; reflexivity).
    wn Ea2. cbn [bind]. set (f3 := put f2 a _).
    assert (L3 : length (nodes f3) = length (nodes f0)) by (unfold f3; rewrite put_length; exact L2).
    assert (Ei3 : rd (nodes f3) i = Ok n) by (unfold f3; rp; eqz; exact Ei2).
    rewrite Ei3. cbn [bind].
    assert (R3 : roots f3 = roots f) by reflexivity.
    assert (D3 : forall j, j <> a -> rd (nodes f3) j = rd (nodes f0) j).
    { intros j Nj. unfold f3, f2, f1. rp. eqz. reflexivity. }
    assert (Hq : exists q, rd (roots f) k = Ok q /\ (p = -1 -> q = i)).
    { destruct HP as [[-> Hr]|[Np [_ [_ [q Hq]]]]]; [exists i; auto|exists q; split; [exact Hq|contradiction]]. }
    destruct Hq as [q [Hq Hqi]]. rewrite R3, Hq. cbn [bind].
    assert (S4 : exists f4,
      (if (parent O n =? -1) && (i =? q) then do rs <- wr (roots f) k a; Ok (mkForest O (nodes f3) rs (drawn O f3))
        else with_node O f3 (parent O n) (fun p0 => Ok (if child_left O p0 =? i then set_children O p0 a (child_right O p0) else set_children O p0 (child_left O p0) a)))
      = Ok f4 /\ length (nodes f4) = length (nodes f0) /\ roots f4 = (if p =? -1 then upd (roots f) (Z.to_nat k) a else roots f) /\
      forall j, rd (nodes f4) j = if j =? p then do np <- rd (nodes f) j; Ok (relink i a np) else rd (nodes f3) j).
    { rewrite Hp. destruct HP as [[-> Hr]|[Np [Npi [[np Hnp] _]]]].
      - rewrite (Hqi eq_refl). rewrite !Z.eqb_refl. cbn [andb]. pose proof (rd_bounds _ _ _ _ Hr) as Bk. rewrite wr_ok by lia. cbn [bind].
        eexists. split; [reflexivity|]. cbn [Mondrian_Model.nodes Mondrian_Model.roots]. split; [exact L3|]. split; [reflexivity|].
        intros j. destruct (Z.eqb_spec j (-1)) as [->|N]; [|reflexivity]. rewrite !rd_oob by lia. reflexivity.
      - rewrite (proj2 (Z.eqb_neq p (-1))) by lia. cbn [andb]. pose proof (rd_bounds _ _ _ _ Hnp) as Bp.
        assert (Ep3 : rd (nodes f3) p = Ok np) by (rewrite D3 by lia; rewrite D0; eqz; exact Hnp).
        wn Ep3. eexists. split; [reflexivity|]. rewrite put_length. split; [exact L3|]. split; [exact R3|].
        intros j. rewrite rd_put with (m := np) by exact Ep3. rewrite (Z.eqb_sym p j). destruct (Z.eqb_spec j p) as [->|N]; [|reflexivity].
        rewrite Hnp. cbn [bind]. unfold Mondrian_Proofs.relink. rewrite (proj2 (Z.eqb_neq i a)) by lia. reflexivity. }
    destruct S4 as [f4 [E4 [L4 [R4 D4]]]]. rewrite E4. cbn [bind].
    assert (Bp : p < a /\ p <> i).
    { destruct HP as [[-> _]|[_ [N [[np Hnp] _]]]]; [lia|]. apply rd_bounds in Hnp. lia. }
    assert (Ei4 : rd (nodes f4) i = Ok n) by (rewrite D4; eqz; exact Ei3).
    wn Ei4. cbn [bind]. set (f5 := put f4 i _).
    assert (L5 : length (nodes f5) = length (nodes f0)) by (unfold f5; rewrite put_length; exact L4).
    assert (Eb5 : rd (nodes f5) b = Ok (new_leaf O fc lc)).
    { unfold f5. rp. eqz. rewrite D4. eqz. rewrite D3 by lia. exact Hb0. }
    wn Eb5. cbn [bind]. set (f6 := put f5 b _).
    assert (L6 : length (nodes f6) = length (nodes f0)) by (unfold f6; rewrite put_length; exact L5).
    rewrite RD_x by lia. cbn [bind].
    assert (Ea6 : rd (nodes f6) a = Ok (set_parent O (set_box O (set_split O (new_internal O fc lc) d v t) l u) p)).
    { unfold f6, f5. rp. eqz. rewrite D4. eqz. unfold f3. rp. eqz. now rewrite Hp. }
    wn Ea6. cbn [bind]. set (f7 := put f6 a _).
    assert (L7 : length (nodes f7) = length (nodes f0)) by (unfold f7; rewrite put_length; exact L6).
    exists f7, l, u. split; [reflexivity|]. split; [exact BJ|]. split; [|split].
    - intros j. unfold f7. rp. rewrite (Z.eqb_sym a j). destruct (Z.eqb_spec j b) as [->|Njb].
      { eqz. unfold f6. rp. eqz. reflexivity. }
      destruct (Z.eqb_spec j a) as [->|Nja].
      { unfold parent_node. destruct (neq O (coord pt d) up); reflexivity. }
      unfold f6, f5. rp. rewrite (proj2 (Z.eqb_neq b j)) by congruence. rewrite (Z.eqb_sym i j).
      destruct (Z.eqb_spec j i) as [->|Nji]; [reflexivity|]. rewrite D4. destruct (Z.eqb_spec j p) as [->|Njp]; [reflexivity|].
      rewrite D3 by exact Nja. rewrite D0. eqz. reflexivity.
    - exact R4.
    - now rewrite L7, L0.
  Qed.

  (** Choosing the split. *)
  Lemma choose_split_ok : forall f n pts, bounding pts (bound_lower O n) (bound_upper O n) -> Forall fine_pt pts ->
    neq O (dsum n) (n_ 0) = false ->
    ((exists e, choose_split O rnd fc f n x (ds n) (dsum n) = Undef e) /\ (able_pick O draw fc -> False)) \/
    exists f' d up v u, choose_split O rnd fc f n x (ds n) (dsum n) = Ok (f', (d, (up, v))) /\ nodes f' = nodes f /\ roots f' = roots f /\
      0 <= d < fc /\ draw u /\
      ((nlt O (val (bound_upper O n) d) (coord pt d) = true /\ up = coord pt d /\
        v = nadd O (nmul O u (nsub O (coord pt d) (val (bound_upper O n) d))) (val (bound_upper O n) d)) \/
       (nlt O (coord pt d) (val (bound_lower O n) d) = true /\ up = val (bound_lower O n) d /\
        v = nadd O (nmul O u (nsub O (val (bound_lower O n) d) (coord pt d))) (coord pt d))).
  Proof.
    intros f n pts B F Hs. remember (choose_split O rnd fc f n x (ds n) (dsum n)) as cs eqn:EC. unfold choose_split in EC.
    destruct (turn_any O (ds n) (dsum n)) as [p [HT LT]]. { intros E. pose proof (ds_length O fc x label n) as Y. rewrite E in Y. cbn in Y. lia. }
    rewrite ds_length in HT, LT. rewrite Z2Nat.id in HT by lia. rewrite HT in EC. cbn [bind] in EC. unfold uniform at 1 in EC.
    destruct (pick_ok O (rnd (drawn O f)) p fc) as [d [HP [Bi _]]]; [lia|]. rewrite HP in EC. cbn [bind] in EC.
    set (f1 := mkForest O (nodes f) (roots f) (S (drawn O f))) in EC.
    assert (SP : able_pick O draw fc -> 0 <= d < fc /\ (nlt O (val (bound_upper O n) d) (coord pt d) = true \/ nlt O (coord pt d) (val (bound_lower O n) d) = true)).
    { intros SP. destruct (SP (fun d => val (bound_lower O n) d) (fun d => val (bound_upper O n) d) (fun d => coord pt d) (rnd (drawn O f)) (Hdraw _) Hs)
        as [p' [i' [T1 [T2 T4]]]].
      change (turn_array_into_probability O (ds n) fc (dsum n) = Ok p') in T1. rewrite HT in T1. injection T1 as <-. rewrite HP in T2. injection T2 as <-. exact T4. }
    destruct (Z.ltb_spec d fc) as [Hd|Hd].
    2: { left. split; [|intros A; apply SP in A; lia]. rewrite rd_oob in EC by lia. eauto. }
    rewrite RD_x in EC by lia. cbn [bind] in EC. assert (Hd0 : 0 <= d < fc) by lia. destruct (rdi_box _ _ _ _ _ d B Hd0) as [A C]. rewrite A, C in EC. cbn [bind] in EC.
    destruct (nlt O (val (bound_upper O n) d) (coord pt d)) eqn:E1; cbn [bind] in EC.
    { right. unfold uniform in EC. eexists. exists d, (coord pt d). eexists. exists (rnd (drawn O f1)). split; [exact EC|].
      split; [reflexivity|]. split; [reflexivity|]. split; [exact Hd0|]. split; [apply Hdraw|]. left. auto. }
    destruct (nlt O (coord pt d) (val (bound_lower O n) d)) eqn:E2; cbn [bind] in EC.
    { right. unfold uniform in EC. eexists. exists d, (val (bound_lower O n) d). eexists. exists (rnd (drawn O f1)). split; [exact EC|].
      split; [reflexivity|]. split; [reflexivity|]. split; [exact Hd0|]. split; [apply Hdraw|]. right. auto. }
    left. split; [eauto|]. intros SA. apply SP in SA. destruct SA as [_ [X|X]]; congruence.
  Qed.

  (** Outcome of the descent for the tree [t] below [p], up to the update of the counters; [rest] are the nodes of other trees, and of the same tree
      outside of [t]. The subtree [s0] of [t] becomes [s]. *)
  Definition grown (f : forest) (p : Z) (t0 : num O) (t : mtree) (rest : list Z) (f' : forest) (t' : mtree) (c : list (frame O)) (s0 s : mtree) : Prop :=
    grows O fine draw pt t t' /\ tree_at f' p t0 t' /\ heap f' (rest ++ ids t') /\
    (forall j, In j rest -> rd (nodes f') j = if j =? p then do n <- rd (nodes f) j; Ok (relink (top t) (top t') n) else rd (nodes f) j) /\
    roots f' = (if p =? -1 then upd (roots f) (Z.to_nat k) (top t') else roots f) /\
    t = plug c s0 /\ t' = plug c s /\
    (forall j n, In j (fork_ids t) -> rd (nodes f) j = Ok n -> exists m, rd (nodes f') j = Ok m /\ counters O m = counters O n).
  Local Notation count_label := (fun f i n => if is_leaf O n then add_count O f i label 1 else recount O f i label).
  (** What is left to do. *)
  Definition ending (m : res forest) (f' : forest) (s0 s : mtree) : Prop :=
    (exists i pts, s0 = Leaf i pts /\ s = Leaf i (pts ++ [pt]) /\
       m = do n <- rd (nodes f') i; if parent O n =? -1 then Ok f' else climb O count_label (length (nodes f')) f' (parent O n)) \/
    (exists a b d v g, (s = Fork a d v s0 (Leaf b [pt]) \/ s = Fork a d v (Leaf b [pt]) s0) /\
       rd (nodes g) b = Ok (blank_leaf a) /\ f' = put g b (leaf_node a) /\
       m = do f <- sample_block O fc lifetime g b x label; update_labels O lc f a).

  Definition attempt (f : forest) (n : node) (node_id : Z) (parent_tau : num O) (probs : list (num O)) (sum e : num O) : res forest :=
    do (f, (dimension, (upper_value, split))) <- choose_split O rnd fc f n x probs sum;
    do (f, (new_parent, new_sibling)) <- insert_above O fc lc f node_id k x dimension upper_value split (nadd O parent_tau e);
    do f <- sample_block O fc lifetime f new_sibling x label;
    update_labels O lc f new_parent.
  Definition parent_at (f : forest) (p : Z) (t0 : num O) (t : mtree) (rest : list Z) : Prop :=
    (p = -1 /\ t0 = n_ 0 /\ rd (roots f) k = Ok (top t)) \/
    (p <> -1 /\ In p rest /\ (exists np, rd (nodes f) p = Ok np /\ tau O np = t0) /\ exists q, rd (roots f) k = Ok q).
  Definition pre (f : forest) (p : Z) (t0 : num O) (t : mtree) (rest : list Z) : Prop :=
    tree_at f p t0 t /\ heap f (rest ++ ids t) /\ Forall fine_pt (points t) /\
    parent_at f p t0 t rest /\ nle O (n_ 0) t0 = true /\ Z.of_nat (length (points t)) < 9223372036854775807.
  Definition outcome (m : res forest) (f : forest) (p : Z) (t0 : num O) (t : mtree) (rest : list Z) : Prop :=
    ((exists e, m = Undef e) /\ (able_pick O draw fc -> False)) \/
    exists f' t' c s0 s, grown f p t0 t rest f' t' c s0 s /\ ending m f' s0 s.
  Lemma tree_top : forall t f p t0, tree_at f p t0 t -> exists n, rd (nodes f) (top t) = Ok n /\ parent O n = p /\
    bounding (points t) (bound_lower O n) (bound_upper O n) /\ nle O t0 (tau O n) = true /\ nle O (tau O n) lifetime = true.
  Proof. intros [i pts|i d v l r] f p t0 [n T]; exists n; tauto. Qed.
  Lemma attempt_ok : forall t f p t0 rest n e,
    pre f p t0 t rest -> rd (nodes f) (top t) = Ok n -> nle O (n_ 0) e = true -> nlt O (nadd O t0 e) (tau O n) = true -> neq O (dsum n) (n_ 0) = false ->
    outcome (attempt f n (top t) t0 (ds n) (dsum n) e) f p t0 t rest.
  Proof.
    intros t f p t0 rest n e [T [H [F [PA [Ht0 _]]]]] Hn E1 E2 He. unfold attempt.
    destruct (tree_top _ _ _ _ T) as [n' [Hn' [Hp [B [Hle Hlf]]]]]. rewrite Hn in Hn'. injection Hn' as <-.
    pose proof (l_add _ _ _ _ _ _ L _ _ _ E1 E2) as E3. set (tn := nadd O t0 e) in *.
    destruct (choose_split_ok f n _ B F He) as [[[er ->] SP]|[f1 [d [up [v [u [-> [N1 [R1 [Hd [Hu HV]]]]]]]]]]]; cbn [bind].
    { left. split; [eauto|exact SP]. }
    pose proof (heap_nodup O _ _ H) as ND. destruct (nodup_app _ _ _ ND) as [_ [NDt Npt]].
    assert (In_ : forall j, In j (rest ++ ids t) -> 0 <= j < Z.of_nat (length (nodes f))) by (intros j; now apply (heap_in O)).
    assert (It : In (top t) (rest ++ ids t)) by (apply in_or_app; right; apply top_in).
    assert (Hn1 : rd (nodes f1) (top t) = Ok n) by (rewrite N1; exact Hn).
    destruct (insert_above_ok f1 (top t) n p d v tn up (points t) Hn1 Hp Hd B F) as [g [l [w [E [BX [D [R2 L2]]]]]]].
    { rewrite N1, R1. destruct PA as [[-> [_ Hr]]|[Np [Ip [[np [Hnp _]] Hq]]]]; [left; auto|]. right. split; [exact Np|]. split; [|eauto].
      intros ->. apply (Npt (top t)); [exact Ip|apply top_in]. }
    rewrite N1 in D, E, L2, R2. rewrite R1 in R2. set (a := Z.of_nat (length (nodes f))) in *. set (b := a + 1) in *. rewrite E. cbn [bind].
    right. set (f3 := put g b (leaf_node a)).
    assert (Hb : rd (nodes g) b = Ok (blank_leaf a)) by (rewrite D, Z.eqb_refl; reflexivity).
    assert (D3 : forall j, rd (nodes f3) j = if j =? b then Ok (leaf_node a) else rd (nodes g) j).
    { intros j. unfold f3. rewrite (rd_put O g b _ _ j Hb). now rewrite (Z.eqb_sym b j). }
    assert (Nu : forall j, In j (rest ++ ids t) -> j <> a /\ j <> b) by (intros j Hj; apply In_ in Hj; lia).
    assert (Tp : forall j, In j (ids t) -> j <> p).
    { intros j Hj ->. destruct PA as [[-> _]|[_ [Ip _]]]; [|now apply (Npt p)]. assert (0 <= -1 < a) by (apply In_, in_or_app; now right). lia. }
    assert (Rt : rd (nodes f3) (top t) = Ok (set_parent O n a)).
    { destruct (Nu _ It) as [Na Nb]. rewrite D3, D. rewrite (proj2 (Z.eqb_neq (top t) b)), (proj2 (Z.eqb_neq (top t) a)) by assumption. now rewrite Z.eqb_refl. }
    assert (Dt : forall j, In j (ids t) -> j <> top t -> rd (nodes f3) j = rd (nodes f) j).
    { intros j Hj Nj. assert (Ij : In j (rest ++ ids t)) by (apply in_or_app; now right). destruct (Nu j Ij) as [Na Nb]. rewrite D3, D.
      rewrite (proj2 (Z.eqb_neq j b)), (proj2 (Z.eqb_neq j a)), (proj2 (Z.eqb_neq j (top t))), (proj2 (Z.eqb_neq j p)) by auto. reflexivity. }
    set (leafb := Leaf b [pt] : mtree).
    assert (Tt : tree_at f3 a tn t).
    { apply (tree_reparent O log_ fc lc lifetime label Hlab) with f p t0 n; auto. now apply LT_le. }
    assert (Lt : nle O tn lifetime = true) by (apply LE_trans with (tau O n); [now apply LT_le|exact Hlf]).
    assert (Tb : tree_at f3 a tn leafb).
    { exists (leaf_node a). split; [cbn; rewrite D3; now rewrite Z.eqb_refl|]. split; [reflexivity|].
      split; [apply (bounding_pbox O fc key cmp fine draw L x label Hx Hfine)|].
      split; [cbn; unfold Mondrian_Train.bump; now rewrite upd_length, repeat_length|].
      split; [exact Lt|]. split; [cbn; apply LE_refl; apply LLe in Hlife; tauto|].
      repeat split. intros l0 Hl0. cbn [counters leaf_node set_tau set_counters]. change [pt] with ([] ++ [pt]). change 0 with (count label []) at 2.
      apply (bump_count O fc lc fine Hfc x label Hx Hlab Hfine); auto; [apply repeat_length|]. intros l1 Hl1. apply rd_repeat. lia. }
    assert (D3a : rd (nodes f3) a = Ok (parent_node (top t) b p d v tn up l w)).
    { rewrite D3, D. rewrite (proj2 (Z.eqb_neq a b)) by lia. now rewrite Z.eqb_refl. }
    destruct (fine_lo _ _ _ _ _ _ _ B F Hd) as [Flo Fhi].
    destruct (bounding_val _ _ _ _ _ _ B Hd) as [_ [_ [_ [_ Bv]]]].
    assert (V : nle O v v = true).
    { apply LE_refl. destruct HV as [[V1 [V2 ->]]|[V1 [V2 ->]]]; apply (l_split _ _ _ _ _ _ L); auto. }
    assert (Cn : length (repeat 0 (Z.to_nat lc)) = Z.to_nat lc) by apply repeat_length.
    assert (L3 : length (nodes f3) = (length (nodes f) + 2)%nat) by (unfold f3; rewrite put_length; exact L2).
    assert (Ad : Permutation (addresses f3) (a :: b :: addresses f)).
    { unfold Unbound_Spec.addresses. rewrite L3. rewrite seq_app, map_app. cbn [seq map Nat.add].
      replace (Z.of_nat (S (length (nodes f)))) with b by lia. change (Z.of_nat (length (nodes f))) with a.
      rewrite Permutation_app_comm. reflexivity. }
    assert (Common : forall t', top t' = a -> Permutation (ids t') (a :: b :: ids t) ->
      heap f3 (rest ++ ids t') /\
      (forall j, In j rest -> rd (nodes f3) j = if j =? p then do m <- rd (nodes f) j; Ok (relink (top t) (top t') m) else rd (nodes f) j) /\
      roots f3 = (if p =? -1 then upd (roots f) (Z.to_nat k) (top t') else roots f)).
    { intros t' Ta Pt. rewrite Ta. split; [|split].
      - unfold Unbound_Train.heap. rewrite Ad, Pt. transitivity (a :: rest ++ b :: ids t); [apply Permutation_sym, Permutation_middle|]. apply perm_skip.
        transitivity (b :: rest ++ ids t); [apply Permutation_sym, Permutation_middle|]. apply perm_skip. exact H.
      - intros j Hj. assert (Ij : In j (rest ++ ids t)) by (apply in_or_app; now left). destruct (Nu j Ij) as [Na Nb]. rewrite D3, D.
        rewrite (proj2 (Z.eqb_neq j b)), (proj2 (Z.eqb_neq j a)) by auto.
        rewrite (proj2 (Z.eqb_neq j (top t))) by (intros ->; apply (Npt (top t)); auto; apply top_in). reflexivity.
      - exact R2. }
    assert (Cs : forall j m, In j (fork_ids t) -> rd (nodes f) j = Ok m -> exists m', rd (nodes f3) j = Ok m' /\ counters O m' = counters O m).
    { intros j m Hj Hm. apply fork_ids_in in Hj. destruct (Z.eq_dec j (top t)) as [->|N].
      - rewrite Hn in Hm. injection Hm as <-. exists (set_parent O n a). auto.
      - exists m. rewrite Dt by assumption. auto. }
    destruct HV as [[V1 [-> ->]]|[V1 [-> ->]]].
    - set (v := nadd O (nmul O u (nsub O (coord pt d) (val (bound_upper O n) d))) (val (bound_upper O n) d)) in *.
      exists f3, (Fork a d v t leafb), [], t, (Fork a d v t leafb). split.
      + split; [apply grow_above_right; auto; intros q Hq; now apply Bv|]. split.
        { assert (EQ : neq O (coord pt d) (coord pt d) = true). { apply (l_eq _ _ _ _ _ _ L). pose proof (CMP_x d Hd). auto. }
          unfold parent_node in D3a. rewrite EQ in D3a.
          eexists. split; [exact D3a|]. split; [reflexivity|]. split.
          { cbn. apply bounding_ext with (pt :: points t); [|exact BX]. intros q. rewrite in_app_iff. cbn. tauto. }
          split; [exact Cn|]. split; [exact E3|]. split; [exact Lt|]. cbn [split_dimension split_value child_left child_right tau].
          split; [reflexivity|]. split; [exact Hd|]. split; [reflexivity|]. split; [exact V|]. auto. }
        destruct (Common (Fork a d v t leafb)) as [C1 [C2 C3]]; [reflexivity|cbn; apply perm_skip, Permutation_sym, Permutation_cons_append|]. auto 10.
      + right. exists a, b, d, v, g. split; [now left|]. auto.
    - set (v := nadd O (nmul O u (nsub O (val (bound_lower O n) d) (coord pt d))) (coord pt d)) in *.
      exists f3, (Fork a d v leafb t), [], t, (Fork a d v leafb t). split.
      + split; [apply grow_above_left; auto; intros q Hq; now apply Bv|]. split.
        { assert (EQ : neq O (coord pt d) (val (bound_lower O n) d) = false).
          { destruct (neq O (coord pt d) (val (bound_lower O n) d)) eqn:EQ; [|reflexivity]. apply (l_eq _ _ _ _ _ _ L) in EQ. apply LLt in V1.
            destruct EQ as [_ [_ EQ]], V1 as [_ [_ V1]]. lra. }
          unfold parent_node in D3a. rewrite EQ in D3a.
          eexists. split; [exact D3a|]. split; [reflexivity|]. split.
          { cbn. exact BX. }
          split; [exact Cn|]. split; [exact E3|]. split; [exact Lt|]. cbn [split_dimension split_value child_left child_right tau].
          split; [reflexivity|]. split; [exact Hd|]. split; [reflexivity|]. split; [exact V|]. auto. }
        destruct (Common (Fork a d v leafb t)) as [C1 [C2 C3]]; [reflexivity|cbn; reflexivity|]. auto 10.
      + right. exists a, b, d, v, g. split; [now right|]. auto.
  Qed.

  (** Without a new parent. *)
  Local Notation extend steps f i := (extend_block O log_ rnd fc lc lifetime steps f i k x label).
  Definition descend (steps : nat) (f : forest) (node_id : Z) : res forest :=
    do f <- with_node O f node_id (fun n => update_box O fc n x);
    do n <- rd (nodes f) node_id;
    if is_leaf O n then update_label O f node_id label 1
    else
      do y <- rd x (split_dimension O n);
      do v <- match split_value O n with Some v => Ok v | None => Undef Uninitialised end;
      extend steps f (if nle O y v then child_left O n else child_right O n).
  Lemma extend_S : forall steps f i, extend (S steps) f i =
    do n <- rd (nodes f) i;
    do parent_tau <- parent_time O f n;
    do (probs, sum) <- distances O fc n x;
    let (e, f) :=
      if neq O sum (n_ 0) then (n_ (-1), f)
      else let (u, f) := uniform O rnd f in (rand_exponential O log_ u sum, f) in
    if nle O (n_ 0) e && nlt O (nadd O parent_tau e) (tau O n) then attempt f n i parent_tau probs sum e else descend steps f i.
  Proof. reflexivity. Qed.
  Lemma roots_same : forall f p t0 t rest, parent_at f p t0 t rest -> roots f = if p =? -1 then upd (roots f) (Z.to_nat k) (top t) else roots f.
  Proof.
    intros f p t0 t rest [[-> [_ H]]|[H _]].
    - cbn. symmetry. apply upd_same_id. now apply rd_ok_iff in H.
    - now rewrite (proj2 (Z.eqb_neq p (-1))) by exact H.
  Qed.

  Lemma descend_leaf : forall i pts f p t0 rest steps, pre f p t0 (Leaf i pts) rest -> outcome (descend steps f i) f p t0 (Leaf i pts) rest.
  Proof.
    intros i pts f p t0 rest steps [T [H [F [PA [H0 HL]]]]].
    destruct T as [n [T1 [T2 [T3 [T4 [T5 [T6 [T7 [T8 [T9 [T10 T11]]]]]]]]]]]. cbn [Mondrian_Spec.top Mondrian_Spec.points] in *.
    pose proof (rd_bounds _ _ _ _ T1) as Bi. unfold descend.
    destruct (update_box_ok O fc key cmp fine draw L Hfc x label Hx Hfine pts n T3 F) as [l [u [E B]]]. erewrite with_node_ok; [|exact T1|exact E]. cbn [bind].
    set (n1 := set_box O n l u). assert (E1 : rd (nodes (put f i n1)) i = Ok n1) by (rewrite rd_put' by lia; now rewrite Z.eqb_refl).
    rewrite E1. cbn [bind]. unfold is_leaf. cbn [n1 set_box split_dimension]. rewrite T7. change (-1 =? -1) with true. cbv iota. pose proof (T11 label Hlab) as Hc.
    pose proof (count_le O fc x Hx label pts) as Cl. unfold update_label. cbn [climb]. rewrite E1. cbn [bind]. unfold is_leaf at 1. cbn [n1 set_box split_dimension]. rewrite T7.
    change (-1 =? -1) with true. cbv iota. unfold add_count at 1.
    erewrite with_node_ok; [|exact E1|cbn [n1 set_box counters]; rewrite Hc; cbn [bind]; rewrite slong_ok by lia; cbn [bind]; rewrite wr_ok by lia; reflexivity].
    cbn [bind]. set (n2 := set_counters O n1 _). right. set (f' := put (put f i n1) i n2).
    assert (D : forall j, rd (nodes f') j = if i =? j then Ok n2 else rd (nodes f) j).
    { intros j. unfold f'. rewrite !rd_put' by (rewrite ?put_length; lia). destruct (i =? j); reflexivity. }
    exists f', (Leaf i (pts ++ [pt])), [], (Leaf i pts), (Leaf i (pts ++ [pt])). split.
    - split; [apply grow_leaf|]. split; [|split; [|split; [|split; [|split; [reflexivity|split; [reflexivity|]]]]]].
      + exists n2. split; [cbn; rewrite D; now rewrite Z.eqb_refl|]. split; [exact T2|]. split.
        { cbn. apply bounding_ext with (pt :: pts); [|exact B]. intros q. rewrite in_app_iff. cbn. tauto. }
        split; [cbn; now rewrite upd_length|]. split; [exact T5|]. split; [exact T6|]. split; [exact T7|]. split; [exact T8|]. split; [exact T9|]. split; [exact T10|].
        cbn [n2 counters set_counters]. now apply (bump_count O fc lc fine Hfc x label Hx Hlab Hfine).
      + cbn [Mondrian_Spec.ids] in *. apply heap_same with f; auto. unfold f'. now rewrite !put_length.
      + intros j Hj. cbn [Mondrian_Spec.top]. rewrite rd_relink_same. rewrite D.
        destruct (nodup_app _ _ _ (heap_nodup O _ _ H)) as [_ [_ N]].
        destruct (Z.eqb_spec i j) as [->|Nj]; [exfalso; apply (N j Hj); now left|]. now destruct (j =? p).
      + apply (roots_same f p t0 (Leaf i pts) rest PA).
      + intros j m [].
    - left. exists i, pts. split; [reflexivity|]. split; [reflexivity|]. rewrite D, Z.eqb_refl. cbn [bind n2 set_counters n1 set_box parent].
      unfold f'. rewrite !put_length. reflexivity.
  Qed.

  Lemma descend_fork : forall i d v l r f p t0 rest steps,
    (forall f p t0 rest, pre f p t0 l rest -> outcome (extend steps f (top l)) f p t0 l rest) ->
    (forall f p t0 rest, pre f p t0 r rest -> outcome (extend steps f (top r)) f p t0 r rest) ->
    pre f p t0 (Fork i d v l r) rest -> outcome (descend steps f i) f p t0 (Fork i d v l r) rest.
  Proof.
    intros i d v l r f p t0 rest steps IHl IHr [T [H [F [PA [H0 HL]]]]].
    destruct T as [n [T1 [T2 [T3 [T4 [T5 [T6 [T7 [T8 [T9 [T10 [T11 [T12 [T13 T14]]]]]]]]]]]]]]. cbn [Mondrian_Spec.top Mondrian_Spec.points Mondrian_Spec.ids] in *.
    pose proof (rd_bounds _ _ _ _ T1) as Bi. unfold descend.
    destruct (update_box_ok O fc key cmp fine draw L Hfc x label Hx Hfine _ n T3 F) as [bl [bu [E B]]]. erewrite with_node_ok; [|exact T1|exact E]. cbn [bind].
    set (n1 := set_box O n bl bu). set (f1 := put f i n1). assert (E1 : rd (nodes f1) i = Ok n1) by (unfold f1; rewrite rd_put' by lia; now rewrite Z.eqb_refl).
    rewrite E1. cbn [bind]. unfold is_leaf. cbn [n1 set_box split_dimension split_value child_left child_right]. rewrite T7, T9, T11, T12.
    rewrite (proj2 (Z.eqb_neq d (-1))) by lia. rewrite RD_x by lia. cbn [bind].
    pose proof (heap_nodup O _ _ H) as ND.
    destruct (nodup_app _ _ _ ND) as [_ [ND2 NDr]]. apply NoDup_cons_iff in ND2. destruct ND2 as [NDi ND2]. destruct (nodup_app _ _ _ ND2) as [_ [_ NDlr]].
    assert (Nil : forall j, In j (ids l) -> j <> i) by (intros j Hj ->; apply NDi, in_or_app; now left).
    assert (Nir : forall j, In j (ids r) -> j <> i) by (intros j Hj ->; apply NDi, in_or_app; now right).
    assert (Nri : forall j, In j rest -> j <> i) by (intros j Hj ->; apply (NDr i Hj); now left).
    assert (D1 : forall j, j <> i -> rd (nodes f1) j = rd (nodes f) j).
    { intros j Hj. unfold f1. rewrite rd_put' by lia. now rewrite (proj2 (Z.eqb_neq i j)) by congruence. }
    assert (H1 : heap f1 (rest ++ i :: ids l ++ ids r)) by (apply heap_same with f; [apply put_length|exact H]).
    assert (Ni1 : i <> -1) by lia.
    apply Forall_app in F. destruct F as [Fl Fr']. rewrite app_length in HL.
    assert (Hq : exists q, rd (roots f1) k = Ok q). { destruct PA as [[_ [_ X]]|[_ [_ [_ X]]]]; [eauto|exact X]. }
    assert (Ht1 : nle O (n_ 0) (tau O n) = true) by now apply LE_trans with t0.
    assert (Cv : cmp v) by (apply LLe in T10; tauto).
    pose proof (roots_same f p t0 (Fork i d v l r) rest PA) as RS. cbn [Mondrian_Spec.top] in RS.
    assert (Bp : forall j, rd (nodes f) j = (if j =? p then do m <- rd (nodes f) j; Ok (relink i i m) else rd (nodes f) j)).
    { intros j. rewrite rd_relink_same. now destruct (j =? p). }
    destruct (nle O (coord pt d) v) eqn:EL.
    - assert (Pl : forall z, Permutation (rest ++ i :: z ++ ids r) ((i :: ids r ++ rest) ++ z)).
      { intros z. transitivity (i :: rest ++ z ++ ids r); [apply Permutation_sym, Permutation_middle|]. cbn. apply perm_skip.
        transitivity ((z ++ ids r) ++ rest); [apply Permutation_app_comm|]. rewrite <- !app_assoc. rewrite (Permutation_app_comm z). rewrite <- app_assoc. reflexivity. }
      destruct (IHl f1 i (tau O n) (i :: ids r ++ rest)) as [Bad|[f' [l' [c [s0 [s [[G1 [G2 [G3 [G6 [G7 [G8 [G9 G10]]]]]]] En]]]]]]].
      { split; [apply tree_frame with f; [|exact T13]; intros j Hj; apply D1; auto|]. split; [unfold Unbound_Train.heap in *; now rewrite <- Pl|].
        split; [assumption|]. split; [|split; [exact Ht1|lia]]. right. split; [exact Ni1|]. split; [now left|]. split; [|exact Hq].
        exists n1. split; [exact E1|reflexivity]. }
      { left. exact Bad. }
      right. exists f', (Fork i d v l' r), (c ++ [InLeft O i d v r]), s0, s. split; [|exact En]. split; [now apply grow_left|].
      pose proof (grows_points _ _ _ _ _ _ G1) as PP.
      assert (Er : forall j, In j (ids r) \/ In j rest -> rd (nodes f') j = rd (nodes f) j).
      { intros j Hj. assert (Nj : j <> i) by (destruct Hj; auto). rewrite G6 by (right; apply in_or_app; exact Hj).
        rewrite (proj2 (Z.eqb_neq j i)) by exact Nj. now apply D1. }
      assert (Ri : rd (nodes f') i = Ok (relink (top l) (top l') n1)) by (rewrite G6 by (now left); rewrite Z.eqb_refl, E1; reflexivity).
      assert (X : relink (top l) (top l') n1 = set_children O n1 (top l') (top r)).
      { unfold Mondrian_Proofs.relink. destruct (Z.eqb_spec (top l) (top l')) as [EE|NN].
        - rewrite <- EE, <- T11, <- T12. reflexivity.
        - cbn [n1 set_box child_left child_right]. rewrite T11, T12, Z.eqb_refl. reflexivity. }
      split; [|split; [|split; [|split; [|split; [|split]]]]].
      + exists (relink (top l) (top l') n1). split; [exact Ri|].
        rewrite X. split; [exact T2|]. split.
        { cbn. apply bounding_ext with (pt :: points l ++ points r); [|exact B]. intros q. cbn [In]. rewrite !in_app_iff.
          split; intros Y; [|apply or_assoc].
          - destruct Y as [Y|[Y|Y]]; [left; apply Permutation_in with (pt :: points l); [now apply Permutation_sym|now left]| |now right].
            left. apply Permutation_in with (pt :: points l); [now apply Permutation_sym|now right].
          - destruct Y as [Y|Y]; [|now right]. left. apply Permutation_in with (l' := pt :: points l) in Y; [|exact PP]. exact Y. }
        split; [exact T4|]. split; [exact T5|]. split; [exact T6|]. cbn [split_dimension split_value child_left child_right tau set_children n1 set_box].
        split; [exact T7|]. split; [exact T8|]. split; [exact T9|]. split; [exact T10|]. split; [reflexivity|]. split; [reflexivity|].
        split; [exact G2|]. apply tree_frame with f; [|exact T14]. intros j Hj. apply Er. now left.
      + cbn [Mondrian_Spec.ids]. unfold Unbound_Train.heap. rewrite Pl. exact G3.
      + intros j Hj. cbn [Mondrian_Spec.top]. rewrite <- Bp. apply Er. now right.
      + rewrite G7, (proj2 (Z.eqb_neq i (-1))) by exact Ni1. exact RS.
      + rewrite plug_snoc. cbn [fill]. now rewrite <- G8.
      + rewrite plug_snoc. cbn [fill]. now rewrite <- G9.
      + intros j m Hj Hm. cbn [Mondrian_Predict.fork_ids] in Hj. destruct Hj as [<-|Hj].
        * rewrite T1 in Hm. injection Hm as <-. eexists. split; [exact Ri|]. now rewrite X.
        * apply in_app_or in Hj. destruct Hj as [Hj|Hj].
          -- apply (G10 j m Hj). rewrite D1; [exact Hm|]. apply Nil. now apply fork_ids_in.
          -- exists m. split; [|reflexivity]. rewrite Er; [exact Hm|]. left. now apply fork_ids_in.
    - assert (EG : nlt O v (coord pt d) = true) by (apply (not_le_lt O fc key cmp fine draw L); auto; now apply CMP_x).
      assert (Pr : forall z, Permutation (rest ++ i :: ids l ++ z) ((i :: ids l ++ rest) ++ z)).
      { intros z. transitivity (i :: rest ++ ids l ++ z); [apply Permutation_sym, Permutation_middle|]. cbn. apply perm_skip.
        rewrite !app_assoc. apply Permutation_app_tail. apply Permutation_app_comm. }
      destruct (IHr f1 i (tau O n) (i :: ids l ++ rest)) as [Bad|[f' [r' [c [s0 [s [[G1 [G2 [G3 [G6 [G7 [G8 [G9 G10]]]]]]] En]]]]]]].
      { split; [apply tree_frame with f; [|exact T14]; intros j Hj; apply D1; auto|]. split; [unfold Unbound_Train.heap in *; now rewrite <- Pr|].
        split; [assumption|]. split; [|split; [exact Ht1|lia]]. right. split; [exact Ni1|]. split; [now left|]. split; [|exact Hq].
        exists n1. split; [exact E1|reflexivity]. }
      { left. exact Bad. }
      right. exists f', (Fork i d v l r'), (c ++ [InRight O i d v l]), s0, s. split; [|exact En]. split; [now apply grow_right|].
      pose proof (grows_points _ _ _ _ _ _ G1) as PP.
      assert (Er : forall j, In j (ids l) \/ In j rest -> rd (nodes f') j = rd (nodes f) j).
      { intros j Hj. assert (Nj : j <> i) by (destruct Hj; auto). rewrite G6 by (right; apply in_or_app; exact Hj).
        rewrite (proj2 (Z.eqb_neq j i)) by exact Nj. now apply D1. }
      assert (Ri : rd (nodes f') i = Ok (relink (top r) (top r') n1)) by (rewrite G6 by (now left); rewrite Z.eqb_refl, E1; reflexivity).
      assert (X : relink (top r) (top r') n1 = set_children O n1 (top l) (top r')).
      { unfold Mondrian_Proofs.relink. destruct (Z.eqb_spec (top r) (top r')) as [EE|NN].
        - rewrite <- EE, <- T11, <- T12. reflexivity.
        - cbn [n1 set_box child_left child_right]. rewrite T11. destruct (Z.eqb_spec (top l) (top r)) as [EE|_]; [|reflexivity].
          exfalso. apply (NDlr (top l)); [apply top_in|]. rewrite EE. apply top_in. }
      split; [|split; [|split; [|split; [|split; [|split]]]]].
      + exists (relink (top r) (top r') n1). split; [exact Ri|].
        rewrite X. split; [exact T2|]. split.
        { cbn. apply bounding_ext with (pt :: points l ++ points r); [|exact B]. intros q. cbn [In]. rewrite !in_app_iff.
          split; intros Y.
          - destruct Y as [Y|[Y|Y]]; [right; apply Permutation_in with (pt :: points r); [now apply Permutation_sym|now left]|now left|].
            right. apply Permutation_in with (pt :: points r); [now apply Permutation_sym|now right].
          - destruct Y as [Y|Y]; [right; now left|]. apply Permutation_in with (l' := pt :: points r) in Y; [|exact PP]. destruct Y as [Y|Y]; [now left|right; now right]. }
        split; [exact T4|]. split; [exact T5|]. split; [exact T6|]. cbn [split_dimension split_value child_left child_right tau set_children n1 set_box].
        split; [exact T7|]. split; [exact T8|]. split; [exact T9|]. split; [exact T10|]. split; [reflexivity|]. split; [reflexivity|].
        split; [|exact G2]. apply tree_frame with f; [|exact T13]. intros j Hj. apply Er. now left.
      + cbn [Mondrian_Spec.ids]. unfold Unbound_Train.heap. rewrite Pr. exact G3.
      + intros j Hj. cbn [Mondrian_Spec.top]. rewrite <- Bp. apply Er. now right.
      + rewrite G7, (proj2 (Z.eqb_neq i (-1))) by exact Ni1. exact RS.
      + rewrite plug_snoc. cbn [fill]. now rewrite <- G8.
      + rewrite plug_snoc. cbn [fill]. now rewrite <- G9.
      + intros j m Hj Hm. cbn [Mondrian_Predict.fork_ids] in Hj. destruct Hj as [<-|Hj].
        * rewrite T1 in Hm. injection Hm as <-. eexists. split; [exact Ri|]. now rewrite X.
        * apply in_app_or in Hj. destruct Hj as [Hj|Hj].
          -- exists m. split; [|reflexivity]. rewrite Er; [exact Hm|]. left. now apply fork_ids_in.
          -- apply (G10 j m Hj). rewrite D1; [exact Hm|]. apply Nir. now apply fork_ids_in.
  Qed.

  Theorem extend_ok : forall t f p t0 rest steps, (length (ids t) <= steps)%nat ->
    pre f p t0 t rest -> outcome (extend steps f (top t)) f p t0 t rest.
  Proof.
    induction t as [i pts|i d v l IHl r IHr]; intros f p t0 rest steps Hs Pre;
      (destruct steps as [|steps]; [cbn in Hs; lia|]); rewrite extend_S;
      pose proof Pre as [T [H [F [PA [H0 HL]]]]]; destruct (tree_top _ _ _ _ T) as [n [Hn [Hp [B [_ _]]]]];
      rewrite Hn; cbn [bind];
      (assert (PT : parent_time O f n = Ok t0) by
        (unfold parent_time; rewrite Hp; destruct PA as [[-> [-> _]]|[_ [_ [[np [Hnp <-]] _]]]];
         [reflexivity|pose proof (rd_bounds _ _ _ _ Hnp); rewrite (proj2 (Z.leb_le 0 p)) by lia; rewrite Hnp; reflexivity]));
      rewrite PT; cbn [bind]; rewrite (distances_ok O fc Hfc x label Hx _ _ B); cbn [bind];
      (assert (M1 : nle O (n_ 0) (n_ (-1)) = false) by
        (destruct (nle O (n_ 0) (n_ (-1))) eqn:E; [|reflexivity]; apply LLe in E; destruct E as [_ [_ E]];
         rewrite (proj2 (l_0 _ _ _ _ _ _ L)), (proj2 (l_m1 _ _ _ _ _ _ L)) in E; lra)).
    - destruct (neq O (dsum n) (n_ 0)) eqn:ES.
      + rewrite M1. cbn [andb]. now apply descend_leaf.
      + unfold uniform. set (f1 := mkForest O (nodes f) (roots f) (S (drawn O f))). assert (Pre1 : pre f1 p t0 (Leaf i pts) rest) by exact Pre.
        change (outcome (if nle O (n_ 0) (rand_exponential O log_ (rnd (drawn O f)) (dsum n)) && nlt O (nadd O t0 (rand_exponential O log_ (rnd (drawn O f)) (dsum n))) (tau O n)
          then attempt f1 n (top (Leaf i pts)) t0 (ds n) (dsum n) (rand_exponential O log_ (rnd (drawn O f)) (dsum n)) else descend steps f1 (top (Leaf i pts))) f1 p t0 (Leaf i pts) rest).
        destruct (nle O (n_ 0) _ && _) eqn:EC; [apply andb_prop in EC; destruct EC; now apply attempt_ok|now apply descend_leaf].
    - cbn in Hs. rewrite app_length in Hs.
      destruct (neq O (dsum n) (n_ 0)) eqn:ES.
      + rewrite M1. cbn [andb]. apply descend_fork; auto; intros; [apply IHl|apply IHr]; auto; lia.
      + unfold uniform. set (f1 := mkForest O (nodes f) (roots f) (S (drawn O f))). assert (Pre1 : pre f1 p t0 (Fork i d v l r) rest).
        { split; [apply tree_frame with f; [reflexivity|exact T]|]. split; [exact H|]. split; [exact F|]. split; [exact PA|]. split; [exact H0|exact HL]. }
        change (outcome (if nle O (n_ 0) (rand_exponential O log_ (rnd (drawn O f)) (dsum n)) && nlt O (nadd O t0 (rand_exponential O log_ (rnd (drawn O f)) (dsum n))) (tau O n)
          then attempt f1 n (top (Fork i d v l r)) t0 (ds n) (dsum n) (rand_exponential O log_ (rnd (drawn O f)) (dsum n)) else descend steps f1 (top (Fork i d v l r))) f1 p t0 (Fork i d v l r) rest).
        destruct (nle O (n_ 0) _ && _) eqn:EC; [apply andb_prop in EC; destruct EC; now apply attempt_ok|].
        apply descend_fork; auto; intros; [apply IHl|apply IHr]; auto; lia.
  Qed.
End Train.
