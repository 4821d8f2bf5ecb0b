(** * Proofs for the coarse Mondrian forest: splitting a leaf at the barycenter *)
From Coq Require Import ZArith List Bool Lia Permutation.
From Verif Require Import CppBase CppFacts NumOps Utils_Model Mondrian_Model Mondrian_Spec Mondrian_Proofs Coarse_Model Coarse_Spec Coarse_Heap Coarse_Walk Coarse_Train Coarse_Trim Coarse_Forest.
Import ListNotations.
Local Open Scope Z_scope.

Section Center.
  Variable O : ops.
  Variable log_ : num O -> num O.
  Variable rnd : nat -> num O.
  Variable c : config O.
  Hypothesis L : tlaws O.
  Hypothesis Hlife : nlt O (c_life O c) (nofZ O 0) = false.
  Local Notation n_ := (nofZ O).
  Local Notation node := (node O).
  Local Notation forest := (forest O).
  Local Notation coarse := (coarse O).
  Local Notation fr := (fr O).
  Local Notation nodes := (nodes O).
  Local Notation roots := (roots O).
  Local Notation get := (get O).
  Local Notation put := (put O).
  Local Notation avail := (avail O).
  Local Notation tau := (tau O).
  Local Notation available := (available O).
  Local Notation counters := (counters O).
  Local Notation fc := (c_features O c).
  Local Notation lc := (c_labels O c).
  Local Notation nc := (c_nodes O c).
  Local Notation life := (c_life O c).
  Local Notation ctree := (ctree O).
  Local Notation ctop := (ctop O).
  Local Notation cids := (cids O).
  Local Notation stored := (stored O fc lc).
  Local Notation relink := (relink O).
  Local Notation blank_node := (blank_node O c).
  Local Notation cpool := (cpool O c).
  Local Notation same := (same O).
  Local Notation above := (above O).
  Local Notation half := (ndiv O (n_ 1) (n_ 2)).
  Local Notation zeros := (repeat 0 (Z.to_nat lc)).

  (** ** The states while a leaf is split *)
  Section Steps.
    Variable s : coarse.
    Variable a b i p k : Z.
    Hypothesis Nab : a <> b.
    Hypothesis Nai : a <> i.
    Hypothesis Nbi : b <> i.
    Hypothesis Npa : p <> a.
    Hypothesis Npb : p <> b.
    Hypothesis Npi : p <> i.
    (** [na], [nb] and [ni] are the nodes [a], [b] and [i]; if [linked], [a] has taken the place of [i] above. *)
    Definition during (q : coarse) (na nb ni : node) (linked : bool) : Prop :=
      (forall j, get q j = if j =? b then Ok nb else if j =? a then Ok na else if j =? i then Ok ni
         else if linked && (j =? p) then do m <- get s j; Ok (relink i a m) else get s j) /\
      roots (fr q) = (if linked && (p =? -1) then upd (roots (fr s)) (Z.to_nat k) a else roots (fr s)) /\
      length (nodes (fr q)) = length (nodes (fr s)) /\ same s q.
    Lemma during_put : forall q na nb ni l j m n q', during q na nb ni l -> get q j = Ok m -> q' = with_fr O q (put (fr q) j n) ->
      (forall z, get q' z = if j =? z then Ok n else get q z) /\ roots (fr q') = roots (fr q) /\ length (nodes (fr q')) = length (nodes (fr q)) /\ same q q' /\ avail q' = avail q.
    Proof.
      intros q na nb ni l j m n q' D G ->. split; [intros z; now apply get_put with m|]. split; [reflexivity|]. split; [cbn [Coarse_Model.fr with_fr]; apply put_length|]. split; [repeat split|reflexivity].
    Qed.
    Lemma during_a : forall q na nb ni l g q', during q na nb ni l -> change O q a g = Ok q' -> exists na', g na = Ok na' /\ during q' na' nb ni l /\ avail q' = avail q.
    Proof.
      intros q na nb ni l g q' D H. apply change_inv in H. destruct H as [m [m' [A1 [A2 E]]]]. destruct (during_put _ _ _ _ _ _ _ _ _ D A1 E) as [G [R [Ln [S V]]]]. destruct D as [D1 [D2 [D3 D4]]].
      rewrite D1, (proj2 (Z.eqb_neq a b)), Z.eqb_refl in A1 by exact Nab. injection A1 as <-. exists m'. split; [exact A2|]. split; [|exact V]. split; [|split; [congruence|split; [congruence|eapply same_trans; eauto]]].
      intros j. rewrite G, D1, (Z.eqb_sym a j). destruct (Z.eqb_spec j a) as [->|N]; [|reflexivity]. now rewrite (proj2 (Z.eqb_neq a b)) by exact Nab.
    Qed.
    Lemma during_b : forall q na nb ni l g q', during q na nb ni l -> change O q b g = Ok q' -> exists nb', g nb = Ok nb' /\ during q' na nb' ni l /\ avail q' = avail q.
    Proof.
      intros q na nb ni l g q' D H. apply change_inv in H. destruct H as [m [m' [A1 [A2 E]]]]. destruct (during_put _ _ _ _ _ _ _ _ _ D A1 E) as [G [R [Ln [S V]]]]. destruct D as [D1 [D2 [D3 D4]]].
      rewrite D1, Z.eqb_refl in A1. injection A1 as <-. exists m'. split; [exact A2|]. split; [|exact V]. split; [|split; [congruence|split; [congruence|eapply same_trans; eauto]]].
      intros j. rewrite G, D1, (Z.eqb_sym b j). destruct (Z.eqb_spec j b) as [->|N]; reflexivity.
    Qed.
    Lemma during_i : forall q na nb ni l g q', during q na nb ni l -> change O q i g = Ok q' -> exists ni', g ni = Ok ni' /\ during q' na nb ni' l /\ avail q' = avail q.
    Proof.
      intros q na nb ni l g q' D H. apply change_inv in H. destruct H as [m [m' [A1 [A2 E]]]]. destruct (during_put _ _ _ _ _ _ _ _ _ D A1 E) as [G [R [Ln [S V]]]]. destruct D as [D1 [D2 [D3 D4]]].
      rewrite D1, (proj2 (Z.eqb_neq i b)), (proj2 (Z.eqb_neq i a)), Z.eqb_refl in A1 by congruence. injection A1 as <-. exists m'. split; [exact A2|]. split; [|exact V]. split; [|split; [congruence|split; [congruence|eapply same_trans; eauto]]].
      intros j. rewrite G, D1, (Z.eqb_sym i j). destruct (Z.eqb_spec j i) as [->|N]; [|reflexivity]. now rewrite (proj2 (Z.eqb_neq i b)), (proj2 (Z.eqb_neq i a)) by congruence.
    Qed.
    Lemma during_get : forall q na nb ni l, during q na nb ni l -> get q a = Ok na /\ get q b = Ok nb /\ get q i = Ok ni.
    Proof.
      intros q na nb ni l [D1 _]. rewrite !D1, !Z.eqb_refl, (proj2 (Z.eqb_neq a b)), (proj2 (Z.eqb_neq i b)), (proj2 (Z.eqb_neq i a)) by congruence. auto.
    Qed.
    Lemma during_same : forall q na nb ni l q', during q na nb ni l -> nodes (fr q') = nodes (fr q) -> roots (fr q') = roots (fr q) -> same q q' -> during q' na nb ni l.
    Proof.
      intros q na nb ni l q' [D1 [D2 [D3 D4]]] E1 E2 S. split; [intros j; rewrite <- D1; unfold Coarse_Model.get; now rewrite E1|]. split; [congruence|]. split; [congruence|eapply same_trans; eauto].
    Qed.
    (** [a] takes the place of [i]. *)
    Lemma during_link : forall q na nb ni root q', during q na nb ni false -> ((p = -1 /\ rd (roots (fr s)) k = Ok i) \/ p <> -1) -> rd (roots (fr q)) k = Ok root -> parent O ni = p ->
      (if (parent O ni =? -1) && (i =? root) then set_root O q k a
       else change O q (parent O ni) (fun z => Ok (if child_left O z =? i then set_children O z a (child_right O z) else set_children O z (child_left O z) a))) = Ok q' ->
      during q' na nb ni true /\ avail q' = avail q.
    Proof.
      intros q na nb ni root q' D HP Hr Ep H. rewrite Ep in H. pose proof D as [D1 [D2 [D3 D4]]]. cbn [andb] in D1, D2. rewrite D2 in Hr. destruct HP as [[P1 Hp]|Np].
      - rewrite P1 in H. assert (root = i) by congruence. subst root. rewrite !Z.eqb_refl in H. cbn [andb] in H. unfold set_root in H. inv_bind H. injection H as <-. apply wr_inv in E. destruct E as [_ ->].
        split; [|reflexivity]. split; [|split; [rewrite P1, <- D2; reflexivity|split; [exact D3|eapply same_trans; [exact D4|repeat split]]]].
        intros j. change (get (with_fr O q (mkForest O (nodes (fr q)) (upd (roots (fr q)) (Z.to_nat k) a) (drawn O (fr q)))) j) with (get q j). rewrite D1. destruct (j =? b); [reflexivity|]. destruct (j =? a); [reflexivity|]. destruct (j =? i); [reflexivity|].
        rewrite P1. cbn [andb]. destruct (Z.eqb_spec j (-1)) as [->|N]; [|reflexivity]. unfold Coarse_Model.get. rewrite !rd_oob by lia. reflexivity.
      - rewrite (proj2 (Z.eqb_neq p (-1))) in H by exact Np. cbn [andb] in H. apply change_inv in H. destruct H as [m [m' [A1 [A2 E]]]]. injection A2 as <-.
        destruct (during_put _ _ _ _ _ _ _ _ _ D A1 E) as [G [R [Ln [S V]]]]. split; [|exact V]. split; [|split; [cbn [andb]; rewrite (proj2 (Z.eqb_neq p (-1))) by exact Np; congruence|split; [congruence|eapply same_trans; eauto]]].
        rewrite D1, (proj2 (Z.eqb_neq p b)), (proj2 (Z.eqb_neq p a)), (proj2 (Z.eqb_neq p i)) in A1 by congruence. cbn [andb] in A1 |- *.
        intros j. rewrite G, D1, (Z.eqb_sym p j). destruct (Z.eqb_spec j p) as [->|N]; [|reflexivity]. rewrite (proj2 (Z.eqb_neq p b)), (proj2 (Z.eqb_neq p a)), (proj2 (Z.eqb_neq p i)) by congruence.
        rewrite A1. cbn [bind]. unfold Mondrian_Proofs.relink. now rewrite (proj2 (Z.eqb_neq i a)) by congruence.
    Qed.
  End Steps.

  (** ** Walks around a leaf *)
  Lemma walk_leaf : forall A (visit : coarse -> Z -> A -> res (coarse * A)) s i n acc r, 0 < nc -> get s i = Ok n -> is_leaf O n = true ->
    walk_from O c visit (Some i) s i acc = Ok r -> visit s i acc = Ok (snd r).
  Proof.
    intros A visit s i n acc r Hn G Lf H. unfold walk_from, fuel in H. cbn [walk] in H. pose proof (rd_bounds _ _ _ _ G) as B. rewrite (proj2 (Z.ltb_lt 0 nc)), (proj2 (Z.leb_le 0 i)), G in H by lia. cbn [andb bind] in H. rewrite Lf in H.
    inv_bind H. inv_bind H. destruct v0 as [s1 a1]. rewrite Z.eqb_refl in H. injection H as <-. exact E0.
  Qed.
  Lemma boxes_leaf : forall s i n d v left k s', 0 < nc -> get s i = Ok n -> is_leaf O n = true -> adjust_boxes O c s i d v left k = Ok s' -> change O s i (clip O d v left) = Ok s'.
  Proof.
    intros s i n d v left k s' Hn G Lf H. unfold adjust_boxes, fuel in H. cbn [boxes_walk] in H. pose proof (rd_bounds _ _ _ _ G) as B. rewrite (proj2 (Z.ltb_lt 0 nc)), (proj2 (Z.leb_le 0 i)), G in H by lia. cbn [andb bind] in H. rewrite Lf in H.
    inv_bind H. inv_bind H. rewrite Z.eqb_refl in H. injection H as <-. exact E0.
  Qed.
  Lemma clip_box : forall d v left n n', clip O d v left n = Ok n' -> exists lo hi, n' = set_box O n lo hi.
  Proof. intros d v left n n' H. unfold clip in H. inv_bind H. inv_bind H. inv_bind H. inv_bind H. injection H as <-. eauto. Qed.
  Lemma side_visit_drawn : forall d v s i acc s' acc', side_visit O rnd c d v s i acc = Ok (s', acc') -> drawn_only O s s'.
  Proof.
    intros d v s i [cl cr] s' acc' H. unfold side_visit in H. inv_bind H. inv_bind H. inv_bind H. inv_bind H. destruct (nlt O v2 v && nlt O v v3).
    - inv_bind H. inv_bind H. destruct (_ =? 0).
      + inv_bind H. inv_bind H. injection H as <- <-. apply drawn_only_refl.
      + unfold Coarse_Model.uniform, Mondrian_Model.uniform in H. inv_bind H. inv_bind H. injection H as <- <-. repeat split.
    - destruct (nle O v v2); [inv_bind H; injection H as <- <-; apply drawn_only_refl|]. destruct (nle O v3 v); [inv_bind H; injection H as <- <-; apply drawn_only_refl|]. injection H as <- <-. apply drawn_only_refl.
  Qed.
  Lemma count_sides_drawn : forall s i d v s' acc, count_sides O rnd c s i d v = Ok (s', acc) -> drawn_only O s s'.
  Proof.
    intros s i d v s' acc H. unfold count_sides in H. inv_bind H. destruct v0 as [z r]. injection H as ->. change s' with (fst (snd (z, (s', acc)))).
    eapply walk_keeps; [apply drawn_only_refl|apply drawn_only_trans| |exact E]. intros. eapply side_visit_drawn; eauto.
  Qed.

  (** ** The counters that move *)
  Definition pct (lower upper split : num O) (discharge_left : bool) : num O :=
    let p := ndiv O (nsub O split lower) (nsub O upper lower) in
    let p := if nlt O (n_ 0) p then p else n_ 0 in
    let p := if nlt O p (n_ 1) then p else n_ 1 in
    if discharge_left then p else nsub O (n_ 1) p.
  (** All or none of the points of a leaf that ends at the split move. *)
  Record clean_cut : Prop := {
    cut_left : forall lower split, exists all : bool, forall q x y, 0 <= q -> round O half (nmul O (n_ q) (pct lower split split false)) = Ok x ->
      round O half (nmul O (n_ q) (nsub O (n_ 1) (pct lower split split false))) = Ok y -> x = (if all then q else 0) /\ y = (if all then 0 else q);
    cut_right : forall upper split, exists all : bool, forall q x y, 0 <= q -> round O half (nmul O (n_ q) (pct split upper split true)) = Ok x ->
      round O half (nmul O (n_ q) (nsub O (n_ 1) (pct split upper split true))) = Ok y -> x = (if all then q else 0) /\ y = (if all then 0 else q) }.
  Lemma nth_at : forall (cs : list Z) l v, rd cs l = Ok v -> at_label l cs = v.
  Proof. intros cs l v H. apply rd_ok_iff in H. destruct H as [_ H]. unfold at_label. now apply nth_error_nth. Qed.
  Lemma at_ext : forall cs ds, length cs = length ds -> (forall l, 0 <= l < Z.of_nat (length cs) -> at_label l cs = at_label l ds) -> cs = ds.
  Proof. intros cs ds E H. apply nth_ext with (d := 0) (d' := 0); [exact E|]. intros q Hq. specialize (H (Z.of_nat q) ltac:(lia)). unfold at_label in H. now rewrite Nat2Z.id in H. Qed.
  Lemma at_upd : forall (cs : list Z) q v l, 0 <= q < Z.of_nat (length cs) -> 0 <= l -> at_label l (upd cs (Z.to_nat q) v) = if l =? q then v else at_label l cs.
  Proof.
    intros cs q v l Hq Hl. unfold at_label. destruct (Z.eqb_spec l q) as [->|N].
    - erewrite nth_error_nth; [reflexivity|]. apply nth_error_upd_same. lia.
    - destruct (Nat.lt_ge_cases (Z.to_nat l) (length cs)) as [X|X].
      + erewrite nth_error_nth; [reflexivity|]. rewrite nth_error_upd_other by lia. now apply nth_error_nth'.
      + rewrite !nth_overflow; auto. now rewrite upd_length.
  Qed.
  Lemma sint_id : forall x y, sint x = Ok y -> y = x.
  Proof. intros x y H. unfold sint in H. destruct (_ && _); [now injection H as <-|discriminate]. Qed.
  Lemma take_visit_inv : forall d v dl s i n s' rm, take_visit O c d v dl s i zeros = Ok (s', rm) -> get s i = Ok n -> length (counters n) = Z.to_nat lc ->
    exists lower upper cs, rdi (bound_lower O n) d = Ok lower /\ rdi (bound_upper O n) d = Ok upper /\ change O s i (fun n => Ok (set_counters O n cs)) = Ok s' /\
      length cs = Z.to_nat lc /\ length rm = Z.to_nat lc /\
      forall l, 0 <= l < lc -> round O half (nmul O (n_ (at_label l (counters n))) (pct lower upper v dl)) = Ok (at_label l rm) /\
        round O half (nmul O (n_ (at_label l (counters n))) (nsub O (n_ 1) (pct lower upper v dl))) = Ok (at_label l cs).
  Proof.
    intros d v dl s i n s' rm H G Ln. unfold take_visit in H. rewrite G in H. cbn [bind] in H. inv_bind H. rename v0 into lower. inv_bind H. rename v0 into upper. inv_bind H. destruct v0 as [cs rm']. inv_bind H. injection H as <- <-.
    exists lower, upper, cs. do 2 (split; [assumption|]). split; [exact E2|]. clear E2. change (if dl then _ else _) with (pct lower upper v dl) in E1. set (pc := pct lower upper v dl) in *. clearbody pc.
    pose (P := fun (q : Z) (st : list Z * list Z) => 0 <= q /\ length (fst st) = Z.to_nat lc /\ length (snd st) = Z.to_nat lc /\
      (forall l, 0 <= l < q -> round O half (nmul O (n_ (at_label l (counters n))) pc) = Ok (at_label l (snd st)) /\ round O half (nmul O (n_ (at_label l (counters n))) (nsub O (n_ 1) pc)) = Ok (at_label l (fst st))) /\
      (forall l, q <= l -> at_label l (snd st) = 0 /\ at_label l (fst st) = at_label l (counters n))).
    assert (F : P (0 + Z.of_nat (Z.to_nat lc)) (cs, rm')).
    { refine (forZ_inv_post _ P _ _ 0 _ _ _ _ E1).
      - split; [lia|]. split; [exact Ln|]. split; [apply repeat_length|]. split; [intros; lia|]. intros l Hl. split; [|reflexivity]. cbn [snd]. unfold at_label. destruct (nth_in_or_default (Z.to_nat l) zeros 0) as [X|X]; [now apply repeat_spec in X|exact X].
      - intros q [c1 r1] st' Hq [_ [L1 [L2 [P1 P2]]]] Hb. cbn [fst snd] in *. inv_bind Hb. rename v0 into k0, E2 into X1. inv_bind Hb. rename v0 into o0, E2 into X2. inv_bind Hb. rename v0 into i0, E2 into X3. inv_bind Hb. rename v0 into r0, E2 into X4. inv_bind Hb. rename v0 into r2, E2 into X5. inv_bind Hb. rename v0 into rm2, E2 into X6. inv_bind Hb. rename v0 into cs2, E2 into X7. injection Hb as <-.
        apply nth_at in X1, X4. destruct (P2 q ltac:(lia)) as [Q1 Q2]. apply sint_id in X5. apply wr_inv in X6, X7. destruct X6 as [_ ->]. destruct X7 as [_ ->].
        assert (X8 : r2 = o0) by lia. clear X5. rewrite X8. clear r2 X8. split; [lia|]. cbn [fst snd]. rewrite !upd_length. split; [exact L1|]. split; [exact L2|]. split.
        + intros l Hl. rewrite !at_upd by lia. destruct (Z.eqb_spec l q) as [->|N]; [|apply P1; lia]. rewrite <- Q2, X1. auto.
        + intros l Hl. rewrite !at_upd by lia. rewrite (proj2 (Z.eqb_neq l q)) by lia. apply P2. lia. }
    destruct F as [_ [F1 [F2 [F3 _]]]]. cbn [fst snd] in *. split; [exact F1|]. split; [exact F2|]. intros l Hl. apply F3. lia.
  Qed.
  Lemma give_inv : forall cs rm cs', length cs = Z.to_nat lc ->
    forZ (Z.to_nat lc) 0 (fun i cs => do k <- rd cs i; do r <- rd rm i; do k <- sint (k + r); wr cs i k) cs = Ok cs' ->
    length cs' = Z.to_nat lc /\ forall l, 0 <= l < lc -> at_label l cs' = at_label l cs + at_label l rm.
  Proof.
    intros cs rm cs' Ln H.
    pose (P := fun (q : Z) (st : list Z) => 0 <= q /\ length st = Z.to_nat lc /\ (forall l, 0 <= l < q -> at_label l st = at_label l cs + at_label l rm) /\ (forall l, q <= l -> at_label l st = at_label l cs)).
    assert (F : P (0 + Z.of_nat (Z.to_nat lc)) cs').
    { refine (forZ_inv_post _ P _ _ 0 _ _ _ _ H).
      - split; [lia|]. split; [exact Ln|]. split; [intros; lia|auto].
      - intros q st st' Hq [_ [L1 [P1 P2]]] Hb. inv_bind Hb. inv_bind Hb. inv_bind Hb. apply nth_at in E, E0. apply sint_id in E1. apply wr_inv in Hb. destruct Hb as [_ ->]. split; [lia|]. rewrite upd_length. split; [exact L1|]. split.
        + intros l Hl. rewrite at_upd by lia. destruct (Z.eqb_spec l q) as [->|N]; [|apply P1; lia]. rewrite E1, <- E, <- E0. now rewrite P2 by lia.
        + intros l Hl. rewrite at_upd by lia. rewrite (proj2 (Z.eqb_neq l q)) by lia. apply P2. lia. }
    destruct F as [_ [F1 [F2 _]]]. split; [exact F1|]. intros l Hl. apply F2. lia.
  Qed.

  (** ** The split *)
  Section Split.
    Variable k : Z.
    Variable lim : res Z.
    Variable x : list (num O).
    Variable label : Z.
    Hypothesis Hx : Z.of_nat (length x) = fc.
    Hypothesis Hn : 0 < nc.
    Hypothesis CC : clean_cut.
    Local Notation before := (before O c k lim).
    Local Notation after := (after O c k).
    Definition halves (all : bool) (cs : list Z) : list Z * list Z := if all then (zeros, cs) else (cs, zeros).
    (** The leaf [i] cut in two: [left] is the side of [i], [all] tells that the points moved to [b], [low] the side of the new point. *)
    Definition cut_leaf (left all low : bool) (a b d : Z) (v : num O) (i : Z) (cs : list Z) : ctree :=
      let (c1, c2) := halves all cs in
      fork_side O left a d v zeros (CLeaf i (if Bool.eqb left low then bumped label c1 else c1)) (CLeaf b (if Bool.eqb left low then c2 else bumped label c2)).

    Lemma add_leaf_inv : forall s i s', add_leaf O s i label = Ok s' -> exists n, get s i = Ok n /\ 0 <= label < Z.of_nat (length (counters n)) /\
      exists s1, change O s i (fun m => Ok (set_counters O m (bumped label (counters n)))) = Ok s1 /\ nodes (fr s') = nodes (fr s1) /\ roots (fr s') = roots (fr s1) /\ same s1 s' /\ avail s' = avail s1.
    Proof.
      intros s i s' H. unfold add_leaf in H. inv_bind H. apply add_label_inv in E. destruct E as [n [G [B ->]]]. apply add_fading_inv in H. destruct H as [xs [Lx ->]].
      exists n. split; [exact G|]. split; [exact B|]. eexists. split; [unfold change, with_node; pose proof (rd_bounds _ _ _ _ G); rewrite (G : rd _ _ = _); cbn [bind]; rewrite wr_ok by lia; cbn [bind]; reflexivity|]. repeat split. exact Lx.
    Qed.

    Lemma split_at_ok : forall s p i cs rest D d v time s', before s p (CLeaf i cs) rest D -> nlt O time (n_ 0) = false -> (forall l, 0 <= l < lc -> 0 <= at_label l cs) ->
      split_at O rnd c s i k d v time x label = Ok s' ->
      exists a b left all xd, rd x d = Ok xd /\ 0 <= label < lc /\ after s s' p (CLeaf i cs) (cut_leaf left all (negb (nlt O v xd)) a b d v i cs) rest /\
        exists na, get s' a = Ok na /\ tau na = time.
    Proof.
      intros s p i cs rest D d v time s' Bf Ht Hcs H. pose proof Bf as [H1 [H2 [H3 [H4 H5]]]]. pose proof H2 as [P1 [P2 [P3 [P4 [P5 P6]]]]]. pose proof (nodup_app _ _ _ P2) as [Nr [Nt Nrt]].
      destruct (stored_node O c _ (fr s) p H1) as [n [M1 [M2 [M3 [M4 [M5 M6]]]]]]. cbn [Coarse_Spec.ctop top_counters] in M1, M3. destruct H1 as [n0 [Q1 [_ [_ [_ [_ [Q2 [Q3 Q4]]]]]]]]. cbn [Coarse_Spec.ctop] in Q1. assert (n0 = n) by congruence. subst n0. clear Q1.
      unfold split_at in H. inv_bind H. destruct v0 as [a s1]. rename E into E1. inv_bind H. rename v0 into s2, E into E2. inv_bind H. destruct v0 as [b s3]. rename E into E3. inv_bind H. rename v0 into s4, E into E4.
      apply available_node_inv in E1. destruct E1 as [[-> ->]|[na [Ha [Aa ->]]]].
      { apply change_inv in E2. destruct E2 as [m [m' [A1 _]]]. unfold Coarse_Model.get in A1. rewrite rd_oob in A1 by lia. discriminate. }
      pose proof (P6 a na Ha Aa) as ->. apply change_inv in E2. destruct E2 as [m [m' [A1 [A2 X2]]]]. assert (m = blank_node) by (change (get s a = Ok m) in A1; congruence). subst m. injection A2 as <-.
      assert (G2 : forall j, get s2 j = if a =? j then Ok (set_tau O blank_node time) else get s j) by (intros j; subst s2; rewrite (get_put O _ a _ _ j A1); reflexivity).
      assert (F2 : roots (fr s2) = roots (fr s) /\ length (nodes (fr s2)) = length (nodes (fr s)) /\ same s s2 /\ avail s2 = avail s) by (subst s2; split; [reflexivity|split; [apply put_length|split; [repeat split|reflexivity]]]). clear X2.
      apply available_node_inv in E3. destruct E3 as [[-> ->]|[nb [Hb2 [Ab ->]]]].
      { apply change_inv in E4. destruct E4 as [m [m' [B1 _]]]. unfold Coarse_Model.get in B1. rewrite rd_oob in B1 by lia. discriminate. }
      assert (Hab : a <> b /\ get s b = Ok blank_node).
      { rewrite G2 in Hb2. destruct (Z.eqb_spec a b) as [->|Nab].
        - injection Hb2 as <-. exfalso. assert (X : available (set_tau O blank_node time) = false) by (eapply used; eauto). congruence.
        - split; [exact Nab|]. rewrite Hb2. f_equal. now apply (P6 b). }
      destruct Hab as [Nab Hb].
      assert (Free : forall j, In j (rest ++ [i]) -> j <> a /\ j <> b).
      { intros j Hj. split; intros ->; [apply (P4 a _ Ha) in Hj|apply (P4 b _ Hb) in Hj]; rewrite blank_free in Hj; auto; discriminate. }
      destruct (Free i) as [Nia Nib]; [apply in_or_app; right; now left|].
      assert (Np : p <> a /\ p <> b /\ p <> i).
      { pose proof (rd_bounds _ _ _ _ Ha) as Ba. pose proof (rd_bounds _ _ _ _ Hb) as Bb. pose proof (rd_bounds _ _ _ _ M1) as Bi. destruct H4 as [[-> _]|[Np Ip]]; [lia|]. destruct (Free p) as [F F']; [apply in_or_app; now left|]. split; [exact F|]. split; [exact F'|]. intros ->. apply (Nrt i); [exact Ip|now left]. }
      destruct Np as [Npa [Npb Npi]].
      assert (D3 : during s a b i p k (with_last O s2 b) (set_tau O blank_node time) blank_node n false).
      { destruct F2 as [F21 [F22 [F23 F24]]]. split; [|split; [exact F21|split; [exact F22|eapply same_trans; [exact F23|repeat split]]]]. intros j. change (get (with_last O s2 b) j) with (get s2 j). rewrite G2, (Z.eqb_sym a j). cbn [andb].
        destruct (Z.eqb_spec j b) as [->|Njb]; [rewrite (proj2 (Z.eqb_neq b a)) by congruence; exact Hb|]. destruct (j =? a); [reflexivity|]. destruct (Z.eqb_spec j i) as [->|Nji]; [exact M1|reflexivity]. }
      assert (V3 : avail (with_last O s2 b) = avail s) by (apply F2). clear G2 F2 A1 Hb2 Ab Aa. set (s3 := with_last O s2 b) in *. clearbody s3. clear s2.
      assert (Nai : a <> i) by congruence. assert (Nbi : b <> i) by congruence.
      destruct (during_b s a b i p k s3 _ _ _ _ _ _ D3 E4) as [nb4 [T4 [D4 V4]]]. injection T4 as <-.
      set (s4' := with_avail O s4 (avail s4 - 2)) in H. assert (D4' : during s a b i p k s4' (set_tau O blank_node time) (set_tau O blank_node life) n false) by (apply (during_same s a b i p k s4); [exact D4|reflexivity|reflexivity|repeat split]).
      assert (V4' : avail s4' = avail s - 2) by (unfold s4'; cbn; lia). clearbody s4'. clear D4 V4 D3 V3 E4.
      destruct (during_get s a b i p k Nab Nai Nbi _ _ _ _ _ D4') as [_ [_ Gi]]. rewrite Gi in H. cbn [bind] in H. inv_bind H. destruct v0 as [lo hi]. clear E. rename lo into lo0, hi into hi0. inv_bind H. rename v0 into s5, E into E5. inv_bind H. rename v0 into s6, E into E6.
      destruct (during_a s a b i p k Nab _ _ _ _ _ _ _ D4' E5) as [na5 [T5 [D5 V5]]]. injection T5 as <-.
      destruct (during_b s a b i p k s5 _ _ _ _ _ _ D5 E6) as [nb6 [T6 [D6 V6]]]. injection T6 as <-. clear D4' D5 E5 E6.
      inv_bind H. rename v0 into root, E into Er. inv_bind H. rename v0 into s7, E into E7.
      destruct (during_link s a b i p k Nai Npa Npb Npi s6 _ _ _ root s7 D6) as [D7 V7]; [destruct H4 as [H4|[H4 _]]; auto|exact Er|exact M2|exact E7|]. clear D6 Er E7.
      inv_bind H. destruct v0 as [s8 [cl cr]]. rename E into E8. apply count_sides_drawn in E8. destruct E8 as [X1 [X2 [X3 X4]]]. pose proof (during_same s a b i p k _ _ _ _ _ _ D7 X1 X2 X4) as D8. clear D7 X1 X2 X4.
      set (left := cr <? cl) in *. inv_bind H. rename v0 into s9, E into E9. destruct (during_a s a b i p k Nab _ _ _ _ _ _ _ D8 E9) as [na9 [T9 [D9 V9]]]. injection T9 as <-. clear D8 E9.
      inv_bind H. rename v0 into s10, E into E10. destruct (during_i s a b i p k Nai Nbi _ _ _ _ _ _ _ D9 E10) as [ni10 [T10 [D10 V10]]]. clear D9 E10.
      inv_bind H. rename v0 into s11, E into E11. destruct (during_b s a b i p k _ _ _ _ _ _ _ D10 E11) as [nb11 [T11 [D11 V11]]]. clear D10 E11.
      assert (B10 : exists lo hi, ni10 = set_box O n lo hi /\ if left then lo = bound_lower O n /\ rdi hi d = Ok v else hi = bound_upper O n /\ rdi lo d = Ok v).
      { clear -T10. destruct left; inv_bind T10; injection T10 as <-; eexists; eexists; (split; [reflexivity|]); (split; [reflexivity|]); apply wr_inv in E; destruct E as [B ->]; unfold rdi; rewrite rd_upd, Z.eqb_refl by lia; reflexivity. }
      destruct B10 as [lo [hi [-> Cut]]].
      assert (B11 : exists lo' hi', nb11 = set_box O (set_counters O (set_box O (set_tau O blank_node life) (bound_lower O n) (bound_upper O n)) zeros) lo' hi').
      { clear -T11. destruct left; inv_bind T11; injection T11 as <-; eexists; eexists; reflexivity. }
      destruct B11 as [lo' [hi' ->]]. clear T10 T11.
      destruct (during_get s a b i p k Nab Nai Nbi _ _ _ _ _ D11) as [_ [_ Gi11]]. rewrite Gi11 in H. cbn [bind] in H.
      inv_bind H. rename v0 into s12, E into E12. destruct (during_a s a b i p k Nab _ _ _ _ _ _ _ D11 E12) as [na12 [T12 [D12 V12]]]. injection T12 as <-. clear D11 E12 Gi11.
      inv_bind H. rename v0 into s13, E into E13. destruct (during_i s a b i p k Nai Nbi _ _ _ _ _ _ _ D12 E13) as [ni13 [T13 [D13 V13]]]. injection T13 as <-. clear D12 E13.
      inv_bind H. rename v0 into s14, E into E14. destruct (during_b s a b i p k _ _ _ _ _ _ _ D13 E14) as [nb14 [T14 [D14 V14]]]. injection T14 as <-. clear D13 E14.
      inv_bind H. clear E. inv_bind H. clear E. inv_bind H. destruct v2 as [fa fb]. clear E. inv_bind H. rename v2 into fo1, E into EF1. inv_bind H. rename v2 into fo2, E into EF2. inv_bind H. rename v2 into fo3, E into EF3.
      assert (LF : length fo3 = length (forced O s14)) by (apply wr_length in EF1, EF2, EF3; congruence). clear EF1 EF2 EF3. set (s15 := with_forced O s14 fo3) in H.
      assert (V15 : avail s15 = avail s - 2) by (unfold s15; cbn [Coarse_Model.avail with_forced]; lia).
      pose proof (during_same s a b i p k s14 _ _ _ _ s15 D14 eq_refl eq_refl ltac:(repeat split; exact LF)) as D15. clearbody s15. clear D14 LF.
      clear V14 V13 V12 V11 V10 V9 X3 V7 V6 V5 V4' s14 s13 s12 s11 s10 s9 s8 s7 s6 s5 s4 s3 fo1 fo2 fo3 fa fb.
      (* the counters *)
      inv_bind H. destruct v2 as [s16 rm]. rename E into E16. inv_bind H. rename v2 into s17, E into E17. inv_bind H. rename v2 into s18, E into E18. inv_bind H. rename v2 into xd, E into Ex. inv_bind H. rename v2 into pa, E into Epa.
      destruct (during_get s a b i p k Nab Nai Nbi _ _ _ _ _ D15) as [_ [_ Gi15]].
      assert (Lf15 : is_leaf O (set_parent O (set_box O n lo hi) a) = true) by exact M6.
      unfold adjust_counters in E16. inv_bind E16. destruct v2 as [z r]. injection E16 as ->. rename E into E16. apply walk_leaf with (n := set_parent O (set_box O n lo hi) a) in E16; auto. cbn [snd] in E16.
      destruct (take_visit_inv _ _ _ _ _ _ _ _ E16 Gi15) as [lower [upper [cs1 [Bl [Bu [C16 [L16 [Lr R16]]]]]]]]; [exact M4|]. cbn [bound_lower bound_upper set_parent set_box Mondrian_Model.counters] in Bl, Bu, R16. rewrite M3 in R16.
      destruct (during_i s a b i p k Nai Nbi _ _ _ _ _ _ _ D15 C16) as [ni16 [T16 [D16 V16]]]. injection T16 as <-. clear D15 E16 C16.
      destruct (during_b s a b i p k _ _ _ _ _ _ _ D16 E17) as [nb17 [T17 [D17 V17]]]. inv_bind T17. rename v2 into cs2, E into Eg. injection T17 as <-. cbn [Mondrian_Model.counters set_parent set_box set_counters] in Eg. apply give_inv in Eg; [|apply repeat_length]. destruct Eg as [Lg Rg]. clear D16 E17.
      assert (Lcs : length cs = Z.to_nat lc) by congruence.
      assert (Zz : forall l, at_label l zeros = 0). { intros l. unfold at_label. destruct (nth_in_or_default (Z.to_nat l) zeros 0) as [X|X]; [now apply repeat_spec in X|exact X]. }
      assert (Hal : exists all, (cs1, cs2) = halves all cs).
      { assert (Pc : exists all : bool, forall l, 0 <= l < lc -> at_label l rm = (if all then at_label l cs else 0) /\ at_label l cs1 = (if all then 0 else at_label l cs)).
        { destruct left eqn:El; destruct Cut as [Cu1 Cu2]; cbn [negb] in R16.
          - assert (upper = v) by congruence. subst upper. destruct (cut_left CC lower v) as [all Ha']. exists all. intros l Hl. destruct (R16 l Hl) as [Y1 Y2]. apply (Ha' _ _ _ (Hcs l Hl) Y1 Y2).
          - assert (lower = v) by congruence. subst lower. destruct (cut_right CC upper v) as [all Ha']. exists all. intros l Hl. destruct (R16 l Hl) as [Y1 Y2]. apply (Ha' _ _ _ (Hcs l Hl) Y1 Y2). }
        destruct Pc as [all Pc]. exists all. assert (Y : cs1 = fst (halves all cs) /\ cs2 = snd (halves all cs)).
        { split; apply at_ext; try (destruct all; cbn [halves fst snd]; rewrite ?repeat_length; congruence); intros l Hl; rewrite ?L16, ?Lg in Hl; assert (Hl' : 0 <= l < lc) by lia; destruct (Pc l Hl') as [Y1 Y2].
          - rewrite Y2. destruct all; cbn [halves fst]; [now rewrite Zz|reflexivity].
          - rewrite Rg, Zz, Y1 by exact Hl'. destruct all; cbn [halves snd]; [lia|now rewrite Zz]. }
        destruct Y as [-> ->]. now destruct (halves all cs). }
      destruct Hal as [all Hal]. clear R16 Rg Cut Bl Bu Lr.
      (* the boxes *)
      destruct (during_get s a b i p k Nab Nai Nbi _ _ _ _ _ D17) as [_ [_ Gi17]]. apply boxes_leaf with (n := set_counters O (set_parent O (set_box O n lo hi) a) cs1) in E18; [|exact Hn|exact Gi17|exact M6].
      destruct (during_i s a b i p k Nai Nbi _ _ _ _ _ _ _ D17 E18) as [ni18 [T18 [D18 V18]]]. apply clip_box in T18. destruct T18 as [lo2 [hi2 ->]]. clear D17 E18 Gi17.
      destruct (during_get s a b i p k Nab Nai Nbi _ _ _ _ _ D18) as [Ga18 [Gb18 _]]. rewrite Ga18 in Epa. injection Epa as <-.
      (* the point *)
      set (na' := set_parent O _ _) in Ga18. fold na' in H, D18. set (ni0 := set_box O _ lo2 hi2) in D18. set (nb0 := set_counters O _ cs2) in D18.
      set (low := negb (nlt O v xd)). assert (Ech : (if nlt O v xd then child_right O na' else child_left O na') = if Bool.eqb left low then i else b).
      { unfold low, na'. destruct (nlt O v xd), left; reflexivity. }
      rewrite Ech in H. clear Ech.
      assert (Fin : exists ni' nb', during s a b i p k s' na' nb' ni' true /\ avail s' = avail s18 /\ 0 <= label < lc /\
        (exists l u, ni' = set_counters O (set_box O ni0 l u) (if Bool.eqb left low then bumped label cs1 else cs1)) /\ (exists l u, nb' = set_counters O (set_box O nb0 l u) (if Bool.eqb left low then cs2 else bumped label cs2))).
      { unfold fuel in H. cbn [pass_data_point_down] in H. inv_bind H. rename v2 into s19, E into E19. destruct (Bool.eqb left low).
        - destruct (during_i s a b i p k Nai Nbi _ _ _ _ _ _ _ D18 E19) as [ni19 [T19 [D19 V19]]]. inv_bind T19. destruct v2 as [l1 u1]. injection T19 as <-. destruct (during_get s a b i p k Nab Nai Nbi _ _ _ _ _ D19) as [_ [_ Gi19]]. rewrite Gi19 in H. cbn [bind] in H.
          change (is_leaf O (set_box O ni0 l1 u1)) with (is_leaf O n) in H. rewrite M6 in H. apply add_leaf_inv in H. destruct H as [m [G20 [B20 [s20 [C20 [Y1 [Y2 [Y3 Y4]]]]]]]]. assert (m = set_box O ni0 l1 u1) by congruence. subst m.
          destruct (during_i s a b i p k Nai Nbi _ _ _ _ _ _ _ D19 C20) as [ni20 [T20 [D20 V20]]]. injection T20 as <-. eexists. eexists. split; [eapply during_same; eauto|]. split; [congruence|]. split; [|split; [exists l1, u1; reflexivity|exists (bound_lower O nb0), (bound_upper O nb0); reflexivity]].
          change (counters (set_box O ni0 l1 u1)) with cs1 in B20. rewrite L16 in B20. lia.
        - destruct (during_b s a b i p k _ _ _ _ _ _ _ D18 E19) as [nb19 [T19 [D19 V19]]]. inv_bind T19. destruct v2 as [l1 u1]. injection T19 as <-. destruct (during_get s a b i p k Nab Nai Nbi _ _ _ _ _ D19) as [_ [Gb19 _]]. rewrite Gb19 in H. cbn [bind] in H.
          change (is_leaf O (set_box O nb0 l1 u1)) with true in H. cbv iota in H. apply add_leaf_inv in H. destruct H as [m [G20 [B20 [s20 [C20 [Y1 [Y2 [Y3 Y4]]]]]]]]. assert (m = set_box O nb0 l1 u1) by congruence. subst m.
          destruct (during_b s a b i p k _ _ _ _ _ _ _ D19 C20) as [nb20 [T20 [D20 V20]]]. injection T20 as <-. eexists. eexists. split; [eapply during_same; eauto|]. split; [congruence|]. split; [|split; [exists (bound_lower O ni0), (bound_upper O ni0); reflexivity|exists l1, u1; reflexivity]].
          change (counters (set_box O nb0 l1 u1)) with cs2 in B20. rewrite Lg in B20. lia. }
      destruct Fin as [ni' [nb' [Df [Vf [Hl [[l1 [u1 Ei]] [l2 [u2 Eb]]]]]]]].
      exists a, b, left, all, xd. split; [exact Ex|]. split; [exact Hl|]. unfold cut_leaf. rewrite <- Hal. fold low.
      set (c1 := if Bool.eqb left low then bumped label cs1 else cs1) in *. set (c2 := if Bool.eqb left low then cs2 else bumped label cs2) in *.
      assert (Lc1 : length c1 = Z.to_nat lc) by (unfold c1, bumped; destruct (Bool.eqb left low); rewrite ?upd_length; auto). assert (Lc2 : length c2 = Z.to_nat lc) by (unfold c2, bumped; destruct (Bool.eqb left low); rewrite ?upd_length; auto).
      destruct (during_get s a b i p k Nab Nai Nbi _ _ _ _ _ Df) as [Gaf [Gbf Gif]]. pose proof (rd_bounds _ _ _ _ Ex) as Bd. rewrite Hx in Bd.
      set (t' := fork_side O left a d v zeros (CLeaf i c1) (CLeaf b c2)).
      assert (Tt : ctop t' = a) by (unfold t', fork_side; destruct left; reflexivity).
      assert (Pt : Permutation (cids t') (a :: b :: [i])) by (unfold t', fork_side; destruct left; cbn [Coarse_Spec.cids app]; apply perm_skip; [apply perm_swap|apply Permutation_refl]).
      assert (Si : stored (fr s') a (CLeaf i c1)). { exists ni'. split; [exact Gif|]. subst ni'. split; [reflexivity|]. split; [reflexivity|]. split; [exact Lc1|]. split; [exact M5|]. auto. }
      assert (Sb : stored (fr s') a (CLeaf b c2)). { exists nb'. split; [exact Gbf|]. subst nb'. split; [reflexivity|]. split; [reflexivity|]. split; [exact Lc2|]. split; [exact Hlife|]. auto. }
      pose proof Df as [Df1 [Df2 [Df3 Df4]]]. cbn [andb] in Df1, Df2.
      split; [|exists na'; split; [exact Gaf|unfold na'; destruct left; reflexivity]]. split; [|split; [|split; [|split]]].
      - unfold t', fork_side. destruct left; exists na'; (split; [exact Gaf|]); (split; [exact M2|]); (split; [reflexivity|]); (split; [apply repeat_length|]); (split; [exact Ht|]);
          (split; [reflexivity|]); (split; [exact Bd|]); (split; [reflexivity|]); (split; [reflexivity|]); (split; [reflexivity|]); auto.
      - apply cpool_perm with (a :: b :: rest ++ [i]).
        { rewrite Pt. transitivity (a :: rest ++ b :: [i]); [apply perm_skip, Permutation_middle|apply Permutation_middle]. }
        apply cpool_two with s; auto.
        + exists blank_node. split; [exact Ha|now apply blank_free].
        + exists blank_node. split; [exact Hb|now apply blank_free].
        + exists na'. split; [exact Gaf|apply (used O L); unfold na'; destruct left; exact Ht].
        + exists nb'. split; [exact Gbf|]. apply (used O L). subst nb'. exact Hlife.
        + intros j n' Nja Njb. rewrite Df1, (proj2 (Z.eqb_neq j b)), (proj2 (Z.eqb_neq j a)) by congruence. assert (An : available n = false) by (eapply used; eauto). destruct (Z.eqb_spec j i) as [->|Nji].
          { intros X. injection X as <-. exists n. split; [exact M1|]. subst ni'. split; [reflexivity|]. intros X. congruence. }
          destruct (Z.eqb_spec j p) as [->|Njp].
          { destruct H4 as [[-> _]|[Np Ip]]; [unfold Coarse_Model.get; rewrite rd_oob by lia; discriminate|]. destruct (get s p) as [m| | |] eqn:Gm; cbn [bind]; try discriminate.
            intros X. injection X as <-. exists m. destruct (relink_fields O i a m) as [F1 _]. split; [reflexivity|]. split; [unfold Mondrian_Model.available; now rewrite F1|].
            intros X. assert (Y : available m = false) by (apply (P4 p m Gm), in_or_app; now left). congruence. }
          intros X. exists n'. auto.
        + lia.
      - intros j Hj. destruct (Free j) as [Nja Njb]; [apply in_or_app; now left|]. rewrite Df1, Tt, (proj2 (Z.eqb_neq j b)), (proj2 (Z.eqb_neq j a)) by congruence. rewrite (proj2 (Z.eqb_neq j i)); [reflexivity|]. intros ->. apply (Nrt i); [exact Hj|now left].
      - rewrite Df2, Tt. reflexivity.
      - exact Df4.
    Qed.

    (** ** One point *)
    Hypothesis Hmid : forall t0 t q, nlt O t0 (n_ 0) = false -> nlt O t (n_ 0) = false -> nlt O (nadd O t0 (nmul O (nsub O t t0) (rnd q))) (n_ 0) = false.
    Hypothesis Hkind : c_extend O c = EXTEND_BARYCENTER.
    Hypothesis Htrig : c_fe_trigger O c = SPLIT_TRIGGER_NONE.
    (** What a training point may make of a tree. *)
    Inductive cgrown : ctree -> ctree -> Prop :=
    | cg_leaf : forall i cs, cgrown (CLeaf i cs) (CLeaf i (bumped label cs))
    | cg_cut : forall i cs left all a b d v xd, rd x d = Ok xd -> 0 <= label < lc -> length cs = Z.to_nat lc -> cgrown (CLeaf i cs) (cut_leaf left all (negb (nlt O v xd)) a b d v i cs)
    | cg_left : forall i d v cs l l' r xd, rd x d = Ok xd -> nle O xd v = true -> cgrown l l' -> cgrown (CFork i d v cs l r) (CFork i d v cs l' r)
    | cg_right : forall i d v cs l r r' xd, rd x d = Ok xd -> nle O xd v = false -> nlt O v xd = true -> cgrown r r' -> cgrown (CFork i d v cs l r) (CFork i d v cs l r')
    | cg_neither : forall i d v cs l r xd, rd x d = Ok xd -> nle O xd v = false -> nlt O v xd = false -> cgrown (CFork i d v cs l r) (CFork i d v cs l r)
    | cg_above : forall a b d v t left, cgrown t (fork_side O left a d v zeros t (single O lc label b)).
    (** No leaf counts a negative number of points. *)
    Fixpoint lpos (t : ctree) : Prop :=
      match t with CLeaf _ cs => forall l, 0 <= l < lc -> 0 <= at_label l cs | CFork _ _ _ _ l r => lpos l /\ lpos r end.

    Lemma draw_time_only : forall s sum e s0, draw_time O log_ rnd s sum = (e, s0) -> drawn_only O s s0.
    Proof. intros s sum e s0 H. unfold draw_time, Coarse_Model.uniform, Mondrian_Model.uniform in H. destruct (neq O sum (n_ 0)); injection H as <- <-; repeat split. Qed.
    Lemma before_drawn : forall s s' p t rest D, drawn_only O s s' -> before s p t rest D -> before s' p t rest D.
    Proof. intros s s' p t rest D [A1 [A2 [A3 A4]]] B. eapply before_same; eauto. now apply limit_same. Qed.
    Lemma after_drawn : forall s s0 s' p t t' rest, drawn_only O s s0 -> after s0 s' p t t' rest -> after s s' p t t' rest.
    Proof. intros s s0 s' p t t' rest [A1 [A2 [A3 A4]]] B. eapply after_same; eauto. Qed.
    Lemma barycenter_ok : forall s p i cs rest D t0 s' done, before s p (CLeaf i cs) rest D -> nlt O t0 (n_ 0) = false -> (forall l, 0 <= l < lc -> 0 <= at_label l cs) ->
      split_barycenter O log_ rnd c s i k x label t0 = Ok (s', done) ->
      if done then exists t', cgrown (CLeaf i cs) t' /\ after s s' p (CLeaf i cs) t' rest else drawn_only O s s'.
    Proof.
      intros s p i cs rest D t0 s' done Bf Ht Hcs H. unfold split_barycenter in H. inv_bind H. rename v into n, E into Gn. destruct (c_helper O c =? SPLIT_HELPER_NONE); [injection H as <- <-; apply drawn_only_refl|].
      inv_bind H. rename v into bary. clear E. inv_bind H. destruct v as [probs sum]. clear E. destruct (draw_time O log_ rnd s sum) as [e s0] eqn:Ed. apply draw_time_only in Ed.
      destruct (neq O sum (n_ 0)); [injection H as <- <-; exact Ed|]. inv_bind H. clear E. destruct (Coarse_Model.uniform O rnd s0) as [u s1] eqn:Eu. inv_bind H. rename v0 into d. clear E. inv_bind H. rename v0 into bv. clear E. inv_bind H. rename v0 into xv. clear E.
      destruct (Coarse_Model.uniform O rnd s1) as [u2 s2] eqn:Eu2. inv_bind H. rename v0 into s3, E into Es. injection H as <- <-.
      unfold Coarse_Model.uniform, Mondrian_Model.uniform in Eu, Eu2. injection Eu as Eu <-. injection Eu2 as Eu2 <-.
      assert (Dr : drawn_only O s (with_fr O (with_fr O s0 (mkForest O (nodes (fr s0)) (roots (fr s0)) (S (drawn O (fr s0))))) (mkForest O (nodes (fr s0)) (roots (fr s0)) (S (S (drawn O (fr s0))))))) by (eapply drawn_only_trans; [exact Ed|repeat split]).
      pose proof Bf as [H1 [H2 _]]. destruct (stored_node O c _ (fr s) p H1) as [m [M1 [M2 [M3 [M4 [M5 M6]]]]]]. cbn [Coarse_Spec.ctop] in M1. assert (m = n) by (unfold Coarse_Model.get in Gn; congruence). subst m.
      apply (split_at_ok _ p i cs rest D) in Es; [|eapply before_drawn; [exact Dr|exact Bf]|rewrite <- Eu2; apply Hmid; auto|exact Hcs].
      destruct Es as [a [b [left [all [xd [Ex [Hl [A _]]]]]]]]. eexists. split; [|eapply after_drawn; [exact Dr|exact A]]. apply cg_cut; auto. cbn [top_counters] in M3. congruence.
    Qed.

    Lemma stretch_inv : forall n n', stretch_box O c n x = Ok n' -> exists lo hi, n' = set_box O n lo hi.
    Proof. intros n n' H. unfold stretch_box in H. inv_bind H. destruct v as [lo hi]. injection H as <-. eauto. Qed.
    Lemma add_forced_inv : forall s i s', add_forced O s i = Ok s' -> drawn_only O s s'.
    Proof. intros s i s' H. unfold add_forced in H. inv_bind H. inv_bind H. inv_bind H. injection H as <-. apply wr_length in E1. repeat split. exact E1. Qed.

    Lemma extend4_ok : forall fes steps s p t rest D s', before s p t rest D -> lpos t -> extend_block4 O log_ rnd c steps s (ctop t) k x label fes = Ok s' ->
      exists t', cgrown t t' /\ after s s' p t t' rest.
    Proof.
      intros fes. induction steps as [|steps IH]; intros s p t rest D s' Bf Hp H; [discriminate|]. cbn [extend_block4] in H.
      pose proof Bf as [H1 [H2 [H3 [H4 H5]]]]. inv_bind H. rename v into n, E into Gn. inv_bind H. rename v into t0, E into Et. inv_bind H. destruct v as [probs sum]. clear E.
      destruct (draw_time O log_ rnd s sum) as [e s0] eqn:Ed. apply draw_time_only in Ed. inv_bind H. rename v into paused. clear E.
      pose proof (before_drawn _ _ _ _ _ _ Ed Bf) as Bf0. destruct (stored_node O c t (fr s) p H1) as [m [M1 [M2 [M3 [M4 [M5 M6]]]]]]. assert (m = n) by (unfold Coarse_Model.get in Gn; congruence). subst m.
      assert (Pos : forall j, In j rest -> 0 <= j) by (intros j Hj; destruct H2 as [_ [_ [P _]]]; apply P, in_or_app; now left).
      pose proof (parent_time_ok O L s rest p D n t0 H3 Pos M2 Et) as Pt0. assert (Gn0 : get s0 (ctop t) = Ok n) by (destruct Ed as [Ed _]; unfold Coarse_Model.get; rewrite Ed; exact Gn).
      destruct (nle O (n_ 0) e && nlt O (nadd O t0 e) (tau n) && (2 <=? avail s0) && negb paused) eqn:Sp.
      - apply andb_prop in Sp. destruct Sp as [Sp _]. apply andb_prop in Sp. destruct Sp as [Sp _]. apply andb_prop in Sp. destruct Sp as [Sp1 Sp2].
        inv_bind H. rename v into fe. clear E. destruct (if 0 <? fes then _ else _) as [si s1] eqn:Es.
        assert (Dr : drawn_only O s0 s1) by (destruct (0 <? fes); [|injection Es as <- <-; apply drawn_only_refl]; unfold Coarse_Model.uniform, Mondrian_Model.uniform in Es; injection Es as <- <-; repeat split).
        rewrite Htrig in H. cbn [andb orb SPLIT_TRIGGER_NONE SPLIT_TRIGGER_POSITIVE SPLIT_TRIGGER_TOTAL SPLIT_TRIGGER_SFE Z.eqb] in H.
        assert (Gn1 : get s1 (ctop t) = Ok n) by (destruct Dr as [Dr _]; unfold Coarse_Model.get; rewrite Dr; exact Gn0).
        apply (split_above_ok O log_ rnd c L Hlife k lim x label Hx s1 p t rest D) in H; [|eapply before_drawn; eauto|exact Gn1|eapply (tl_add O L); eauto].
        destruct H as [a [b [d [v [left [t' [Et' [A _]]]]]]]]. exists t'. split; [|eapply after_drawn; [exact Ed|eapply after_drawn; [exact Dr|exact A]]].
        rewrite Et'. unfold inherited. rewrite Hkind. apply cg_above.
      - clear Sp. inv_bind H. rename v into s1, E into E1. apply change_inv in E1. destruct E1 as [m [m' [Q1 [Q2 E1]]]]. assert (m = n) by congruence. subst m. apply stretch_inv in Q2. destruct Q2 as [lo [hi ->]].
        destruct (change_box O c k lim s0 p t rest D n lo hi Bf0 Gn0) as [Bf1 [Gr [R1 S1]]]. rewrite <- E1 in Bf1, Gr, R1, S1.
        assert (Gn1 : get s1 (ctop t) = Ok (set_box O n lo hi)) by (rewrite E1; rewrite (get_put O _ _ _ _ _ Q1), Z.eqb_refl; reflexivity). clear E1.
        inv_bind H. rename v into s2, E into E2. assert (Dr : drawn_only O s1 s2) by (destruct (_ && _); [now apply add_forced_inv in E2|injection E2 as <-; apply drawn_only_refl]). clear E2.
        pose proof (before_drawn _ _ _ _ _ _ Dr Bf1) as Bf2. assert (Gn2 : get s2 (ctop t) = Ok (set_box O n lo hi)) by (destruct Dr as [Dr _]; unfold Coarse_Model.get; rewrite Dr; exact Gn1). rewrite Gn2 in H. cbn [bind] in H.
        assert (Fin : exists t', cgrown t t' /\ after s2 s' p t t' rest).
        { change (is_leaf O (set_box O n lo hi)) with (is_leaf O n) in H. rewrite M6 in H. destruct t as [i cs|i d v cs l r].
          - cbn [Coarse_Spec.ctop] in *. inv_bind H. destruct v as [s3 done].
            assert (B3 : if done then exists t', cgrown (CLeaf i cs) t' /\ after s2 s3 p (CLeaf i cs) t' rest else drawn_only O s2 s3).
            { destruct (_ && _ && _); [eapply barycenter_ok; eauto|injection E as <- <-; apply drawn_only_refl]. }
            destruct done; [injection H as <-; exact B3|]. pose proof (before_drawn _ _ _ _ _ _ B3 Bf2) as Bf3. destruct (add_leaf_top O c k lim x label s3 p (CLeaf i cs) rest D s' Bf3 H) as [A _].
            exists (CLeaf i (bumped label cs)). split; [constructor|]. eapply after_drawn; [exact B3|exact A].
          - pose proof Bf2 as [K1 [K2 [K3 [K4 K5]]]]. destruct K1 as [m [U1 [U2 [U3 [U4 [U5 [B1 [B2 [B3 [B4 [B5 [B6 B7]]]]]]]]]]]]. assert (m = set_box O n lo hi) by (cbn [Coarse_Spec.ctop] in *; unfold Coarse_Model.get in Gn2; congruence). subst m.
            cbn [Coarse_Spec.ctop] in *. rewrite B1, B3, B4, B5 in H. inv_bind H. rename v0 into xd, E into Ex. cbn [bind] in H. destruct Hp as [Hpl Hpr].
            assert (Bi : 0 <= i < nc) by (destruct K2 as [_ [_ [P _]]]; apply P, in_or_app; right; now left).
            assert (Up : forall rest', (forall j, In j rest -> In j rest') -> In i rest' -> above (fr s2) rest' i (D + 1)).
            { intros rest' Sub Ii. apply above_up with (set_box O n lo hi); auto. rewrite U2. clear -K3 Sub. induction K3; [constructor|]. econstructor; eauto. }
            destruct (nle O xd v) eqn:Le; [|destruct (nlt O v xd) eqn:Lt].
            + destruct (IH s2 i l (rest ++ i :: cids r) (D + 1) s') as [l' [G A]]; [|exact Hpl|exact H|].
              * split; [exact B6|]. split; [|split; [|split; [|exact K5]]].
                -- eapply cpool_perm; [|exact K2]. rewrite <- app_assoc. apply Permutation_app_head. cbn [app Coarse_Spec.cids]. apply perm_skip, Permutation_app_comm.
                -- apply Up; [intros; apply in_or_app; now left|apply in_or_app; right; now left].
                -- right. split; [lia|]. apply in_or_app. right. now left.
              * exists (CFork i d v cs l' r). split; [eapply cg_left; eauto|eapply child_left_after; eauto].
            + destruct (IH s2 i r (rest ++ i :: cids l) (D + 1) s') as [r' [G A]]; [|exact Hpr|exact H|].
              * split; [exact B7|]. split; [|split; [|split; [|exact K5]]].
                -- eapply cpool_perm; [|exact K2]. rewrite <- app_assoc. apply Permutation_app_head. apply Permutation_refl.
                -- apply Up; [intros; apply in_or_app; now left|apply in_or_app; right; now left].
                -- right. split; [lia|]. apply in_or_app. right. now left.
              * exists (CFork i d v cs l r'). split; [eapply cg_right; eauto|eapply child_right_after; eauto].
            + injection H as <-. exists (CFork i d v cs l r). split; [eapply cg_neither; eauto|eapply after_refl; eauto]. }
        destruct Fin as [t' [G A]]. exists t'. split; [exact G|]. eapply after_drawn; [exact Ed|]. eapply after_drawn in A; [|exact Dr]. destruct A as [C1 [C2 [C3 [C4 C5]]]].
        split; [exact C1|]. split; [exact C2|]. split; [|split; [rewrite C4, R1; reflexivity|eapply same_trans; eauto]]. intros j Hj. rewrite (C3 j Hj), (Gr j Hj). reflexivity.
    Qed.
  End Split.
End Center.
