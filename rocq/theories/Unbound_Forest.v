(** * Proofs for the unbounded Mondrian forest: counters after a training step, training all trees *)
From Coq Require Import ZArith List Bool Lia Reals Lra Permutation.
From Verif Require Import CppBase CppFacts NumOps Utils_Model Utils_Proofs Mondrian_Model Mondrian_Spec Mondrian_Proofs Mondrian_Train Mondrian_Forest Mondrian_Predict Mondrian_Reach.
From Verif Require Import Unbound_Model Unbound_Spec Unbound_Count Unbound_Train.
Import ListNotations.
Local Open Scope Z_scope.

Lemma forZ_undef : forall S (P : Z -> S -> Prop) (Bad : Prop) body n i s, P i s ->
  (forall j s, i <= j < i + Z.of_nat n -> P j s -> ((exists e, body j s = Undef e) /\ Bad) \/ exists s', body j s = Ok s' /\ P (j + 1) s') ->
  ((exists e, forZ n i body s = Undef e) /\ Bad) \/ exists s', forZ n i body s = Ok s' /\ P (i + Z.of_nat n) s'.
Proof.
  intros S P Bad body. induction n as [|n IH]; intros i s H0 Hs.
  - right. exists s. split; [reflexivity|]. now replace (i + Z.of_nat 0) with i by lia.
  - cbn [forZ]. destruct (Hs i s) as [[[e ->] B]|[s' [-> H1]]]; [lia|exact H0|left; split; [exists e; reflexivity|exact B]|]. cbn [bind].
    replace (i + Z.of_nat (Datatypes.S n)) with (i + 1 + Z.of_nat n) by lia. apply IH; [exact H1|]. intros j s0 Hj. apply Hs. lia.
Qed.

Section More.
  Variable O : ops.
  Variable lc : Z.
  Local Notation ids := (ids O).
  Local Notation plug := (plug O).
  Local Notation counted := (counted O lc).
  Lemma plug_apart : forall c s j, NoDup (ids (plug c s)) -> In j (ids s) -> ~ In j (path O c).
  Proof.
    induction c as [|fr c IH]; intros s j N Hj; [intros []|]. cbn [Unbound_Count.plug] in N. intros [<-|H].
    - apply plug_nodup in N. apply fill_nodup in N. tauto.
    - apply (IH (fill O fr s) j N); [|exact H]. apply fill_ids. tauto.
  Qed.
  Lemma beside_apart : forall c s fr j, NoDup (ids (plug c s)) -> In fr c -> In j (ids (beside O fr)) -> ~ In j (path O c).
  Proof.
    induction c as [|fr c IH]; intros s fr' j N Hf Hj; [destruct Hf|]. cbn [Unbound_Count.plug] in N. pose proof (fill_nodup _ _ _ (plug_nodup _ _ _ N)) as [_ [_ [_ [X _]]]].
    destruct Hf as [->|Hf].
    - intros [<-|H]; [tauto|]. apply (plug_apart c (fill O fr' s) j N); [|exact H]. apply fill_ids. tauto.
    - intros [<-|H].
      + assert (Hp : In (frame_id O fr) (ids (fill O fr s))) by (apply fill_ids; tauto).
        revert N Hf Hj Hp. generalize (fill O fr s) as s1. generalize (frame_id O fr) as j. clear. intros j s1 N Hf Hj Hp.
        revert s1 N Hp. induction c as [|g c IH]; intros s1 N Hp; [destruct Hf|]. cbn [Unbound_Count.plug] in N.
        pose proof (fill_nodup _ _ _ (plug_nodup _ _ _ N)) as [_ [_ [_ [_ X]]]]. destruct Hf as [->|Hf]; [now apply (X j)|].
        apply (IH Hf (fill O g s1) N). apply fill_ids. tauto.
      + now apply (IH _ _ _ N Hf Hj).
  Qed.
  Lemma beside_forks : forall c s fr j, In fr c -> In j (fork_ids O (beside O fr)) -> In j (fork_ids O (plug c s)).
  Proof.
    induction c as [|fr c IH]; intros s fr' j Hf Hj; [destruct Hf|]. cbn [Unbound_Count.plug]. destruct Hf as [->|Hf]; [|now apply IH with fr'].
    apply plug_forks_in. destruct fr'; cbn in Hj |- *; rewrite in_app_iff; auto.
  Qed.
  Lemma sides_all : forall c f g s0 s,
    (forall fr j n, In fr c -> In j (fork_ids O (beside O fr)) -> rd (nodes O f) j = Ok n -> exists m, rd (nodes O g) j = Ok m /\ counters O m = counters O n) ->
    (forall j, In j (path O c) -> exists n, rd (nodes O g) j = Ok n) -> counted f (plug c s0) -> sides O lc (fun _ => true) g c s.
  Proof.
    induction c as [|fr c IH]; intros f g s0 s H E C; [exact I|]. cbn [Unbound_Count.plug sides] in *.
    pose proof (counted_plug O 0 lc (fun _ => true) _ _ _ C) as Cf. split; [|split].
    - apply counted_alike with f; [|destruct fr; cbn in Cf |- *; tauto]. intros j n Hj. apply (H fr); [now left|exact Hj].
    - destruct (E (frame_id O fr)) as [n Hn]; [now left|]. destruct fr as [i d v r|i d v l]; cbn [fill half_counted frame_id] in *; exists n; (split; [exact Hn|]); discriminate.
    - apply IH with f (fill O fr s0); auto.
      + intros fr' j n Hf. apply H. now right.
      + intros j Hj. apply E. now right.
  Qed.
End More.

Section Forest.
  Variable O : ops.
  Variable log_ : num O -> num O.
  Variable rnd : nat -> num O.
  Variable tc fc lc : Z.
  Variable lifetime : num O.
  Variable key : num O -> R.
  Variable cmp fine draw : num O -> Prop.
  Hypothesis L : laws O key cmp fine draw fc.
  Hypothesis Hdraw : forall k, draw (rnd k).
  Hypothesis Hfc : 1 <= fc.
  Hypothesis Hlc : 0 <= lc.
  Hypothesis Htc : 0 <= tc.
  Hypothesis Hlife : nle O (nofZ O 0) lifetime = true.
  Local Notation forest := (forest O).
  Local Notation node := (node O).
  Local Notation point := (point O).
  Local Notation mtree := (mtree O).
  Local Notation tree_at := (tree_at O fc lc lifetime).
  Local Notation counted := (counted O lc).
  Local Notation points := (points O).
  Local Notation ids := (ids O).
  Local Notation fork_ids := (fork_ids O).
  Local Notation top := (top O).
  Local Notation put := (put O).
  Local Notation plug := (plug O).
  Local Notation n_ := (nofZ O).
  Local Notation nodes := (nodes O).
  Local Notation roots := (roots O).
  Local Notation heap := (heap O).
  Local Notation same_but := (same_but O).
  Local Notation fine_pt := (fine_pt O fc fine).
  Local Notation all_ids := (all_ids O).

  Variable x : list (num O).
  Variable label : Z.
  Hypothesis Hx : length x = Z.to_nat fc.
  Hypothesis Hlab : 0 <= label < lc.
  Local Notation pt := (x, label).
  Hypothesis Hfine : fine_pt pt.
  Local Notation pbox := (pbox O fc x label).
  Local Notation bump := (bump label).
  Local Notation grown := (grown O fc lc lifetime fine draw x label).
  Local Notation ending := (ending O fc lc lifetime x label).
  Local Notation count_label := (fun f i n => if is_leaf O n then add_count O f i label 1 else recount O f i label).

  Lemma box_loop : forZ (Z.to_nat fc) 0 (fun i '(l, u) => do x <- rd x i; Ok (l ++ [Some x], u ++ [Some x])) ([], []) = Ok (pbox, pbox).
  Proof.
    rewrite (build2 _ _ fc _ (fun d => Some (coord O pt d)) (fun d => Some (coord O pt d))).
    2: { intros j l u Hj. rewrite (rd_x O fc Hfc x label Hx) by lia. reflexivity. }
    2: lia. reflexivity.
  Qed.
  Lemma present_other : forall l pts, l <> label -> present O l (pts ++ [pt]) = present O l pts.
  Proof.
    intros l pts N. unfold present. rewrite count_app. unfold count at 2, with_label. cbn [filter snd]. rewrite (proj2 (Z.eqb_neq label l)) by congruence. cbn [length].
    now rewrite Z.add_0_r.
  Qed.

  Lemma finish_leaf : forall k f t rest f3 t' c i pts, grown k f (-1) (n_ 0) t rest f3 t' c (Leaf i pts) (Leaf i (pts ++ [pt])) -> counted f t ->
    exists f', (do n <- rd (nodes f3) i; if parent O n =? -1 then Ok f3 else climb O count_label (length (nodes f3)) f3 (parent O n)) = Ok f' /\
      same_but f3 f' (fork_ids t') /\ counted f' t'.
  Proof.
    intros k f t rest f3 t' c i pts [G1 [G2 [G3 [G6 [G7 [G8 [G9 G10]]]]]]] C. subst t t'.
    pose proof (heap_nodup O _ _ G3) as ND. destruct (nodup_app _ _ _ ND) as [_ [NDt _]].
    destruct (sub_at _ _ _ _ _ _ _ _ _ G2) as [q [t1 [T E]]]. pose proof T as [n [T1 [T2 _]]]. cbn [Mondrian_Spec.top] in T1. rewrite T1. cbn [bind]. rewrite T2.
    destruct c as [|fr c].
    - rewrite E. change (-1 =? -1) with true. cbv iota. exists f3. split; [reflexivity|]. split; [apply same_refl|exact I].
    - assert (Pos : forall j, In j (ids (plug (fr :: c) (Leaf i (pts ++ [pt])))) -> 0 <= j < Z.of_nat (length (nodes f3))).
      { intros j Hj. apply (heap_in O _ _ j G3). apply in_or_app. now right. }
      assert (Iq : 0 <= frame_id O fr). { apply Pos. cbn [Unbound_Count.plug]. apply plug_in, fill_ids. now left. }
      rewrite E. rewrite (proj2 (Z.eqb_neq (frame_id O fr) (-1))) by lia.
      destruct (climb_ok O fc lc lifetime (fun l => l =? label) count_label (visits_label O lc label 1 Hlab) c fr (Leaf i (pts ++ [pt])) f3 (n_ 0) (length (nodes f3)))
        as [f' [E1 [E2 E3]]]; auto.
      + pose proof (path_length O (fr :: c) (Leaf i (pts ++ [pt]))) as PL. pose proof (heap_len _ _ _ G3) as HL. rewrite app_length in HL. cbn [length] in PL. lia.
      + intros j Hj. now apply Pos.
      + exact I.
      + apply sides_from with f (Leaf i pts); auto. intros l Hl Nl. cbn [Mondrian_Spec.points]. apply present_other. now apply Z.eqb_neq.
      + exists f'. split; [exact E1|]. split; [|exact E3]. apply same_incl with (path O (fr :: c)); [apply path_forks|exact E2].
  Qed.

  Lemma finish_above : forall k f t rest f3 t' c s0 fr b g, grown k f (-1) (n_ 0) t rest f3 t' c s0 (fill O fr s0) -> counted f t ->
    beside O fr = Leaf b [pt] -> rd (nodes g) b = Ok (blank_leaf O fc lc (frame_id O fr)) -> f3 = put g b (leaf_node O fc lc lifetime x label (frame_id O fr)) ->
    exists f', (do f <- sample_block O fc lifetime g b x label; update_labels O lc f (frame_id O fr)) = Ok f' /\
      same_but f3 f' (fork_ids t') /\ counted f' t'.
  Proof.
    intros k f t rest f3 t' c s0 fr b g [G1 [G2 [G3 [G6 [G7 [G8 [G9 G10]]]]]]] C Hbes Hb Hf3. subst t t'. set (a := frame_id O fr) in *.
    change (plug c (fill O fr s0)) with (plug (fr :: c) s0) in *.
    pose proof (heap_nodup O _ _ G3) as ND. destruct (nodup_app _ _ _ ND) as [_ [NDt _]].
    assert (Pos : forall j, In j (ids (plug (fr :: c) s0)) -> 0 <= j < Z.of_nat (length (nodes f3))).
    { intros j Hj. apply (heap_in O _ _ j G3). apply in_or_app. now right. }
    assert (Ia : 0 <= a). { apply Pos. cbn [Unbound_Count.plug]. apply plug_in, fill_ids. now left. }
    assert (Ib : In b (ids (plug (fr :: c) s0))). { cbn [Unbound_Count.plug]. apply plug_in, fill_ids. rewrite Hbes. right. right. now left. }
    assert (Nb : ~ In b (path O (fr :: c))).
    { apply (beside_apart O (fr :: c) s0 fr b NDt); [now left|]. rewrite Hbes. now left. }
    assert (L3 : length (nodes f3) = length (nodes g)) by (rewrite Hf3; apply put_length).
    pose proof (path_length O (fr :: c) s0) as PL. pose proof (heap_len _ _ _ G3) as HL. rewrite app_length in HL. cbn [length] in PL.
    pose proof (Pos b Ib) as Bb.
    (* first walk *)
    unfold sample_block. rewrite box_loop. cbn [bind]. erewrite with_node_ok; [|exact Hb|reflexivity]. cbn [bind].
    set (n1 := set_box O (blank_leaf O fc lc a) pbox pbox). set (g1 := put g b n1).
    assert (E1 : rd (nodes g1) b = Ok n1) by (unfold g1; rewrite rd_put' by lia; now rewrite Z.eqb_refl).
    unfold update_label. cbn [climb]. rewrite E1. cbn [bind]. change (is_leaf O n1) with true. cbv iota. unfold add_count at 1.
    assert (R0 : rd (repeat 0 (Z.to_nat lc)) label = Ok 0) by (apply rd_repeat; lia).
    erewrite with_node_ok; [|exact E1|cbn [n1 set_box counters blank_leaf set_parent new_leaf new_node]; rewrite R0; cbn [bind]; rewrite slong_ok by lia; cbn [bind];
      rewrite wr_ok by (rewrite repeat_length; lia); reflexivity].
    cbn [bind]. set (n2 := set_counters O n1 _). set (g2 := put g1 b n2).
    change (parent O n1) with a. rewrite (proj2 (Z.eqb_neq a (-1))) by lia.
    assert (D2 : forall j, rd (nodes g2) j = if b =? j then Ok n2 else rd (nodes g) j).
    { intros j. unfold g2, g1. rewrite !rd_put' by (rewrite ?put_length; lia). now destruct (b =? j). }
    assert (D3 : forall j, rd (nodes f3) j = if b =? j then Ok (leaf_node O fc lc lifetime x label a) else rd (nodes g) j).
    { intros j. rewrite Hf3. rewrite rd_put' by lia. reflexivity. }
    assert (N3 : leaf_node O fc lc lifetime x label a = set_tau O n2 lifetime) by reflexivity.
    assert (A32 : alike O f3 g2).
    { intros j n Hn. rewrite D3 in Hn. rewrite D2. destruct (b =? j); [|exists n; auto 10].
      injection Hn as <-. exists n2. rewrite N3. auto 10. }
    destruct (sub_at _ _ _ _ _ _ _ _ _ G2) as [q [t1 [T Eq]]].
    assert (Ch : chain O lc f3 a (a :: path O c)).
    { rewrite Eq in T. apply (chain_plug O fc lc lifetime (fr :: c) f3 (n_ 0) s0 _ t1 G2 NDt); [|exact T|reflexivity]. intros j Hj. now apply Pos. }
    destruct (climb_blind O lc count_label _ (visits_label O lc label 1 Hlab) (path O c) a (length (nodes g1)) g2) as [g3 [E3 S3]].
    { unfold path. rewrite map_length. unfold g1. rewrite put_length. lia. }
    { now apply chain_alike with f3. }
    rewrite E3. cbn [bind].
    assert (Eb3 : rd (nodes g3) b = Ok n2). { apply (same_rd O g2 g3 _ b n2 S3 Nb). rewrite D2, Z.eqb_refl. reflexivity. }
    erewrite with_node_ok; [|exact Eb3|reflexivity]. cbn [bind]. set (g4 := put g3 b (set_tau O n2 lifetime)).
    assert (L4 : length (nodes g4) = length (nodes f3)).
    { unfold g4. rewrite put_length. destruct S3 as [_ [_ [X _]]]. rewrite X. unfold g2, g1. rewrite !put_length. congruence. }
    assert (S4 : same_but f3 g4 (path O (fr :: c))).
    { destruct S3 as [X1 [X2 [X3 X4]]]. split; [rewrite Hf3; exact X1|]. split; [rewrite Hf3; exact X2|]. split; [exact L4|].
      intros j n Hn. unfold g4. rewrite (rd_put O g3 b n2 _ j Eb3). destruct (Z.eqb_spec b j) as [<-|N].
      - rewrite D3, Z.eqb_refl in Hn. injection Hn as <-. exists (counters O n2). split; [reflexivity|]. auto.
      - apply (X4 j n). rewrite D2, (proj2 (Z.eqb_neq b j) N). rewrite D3, (proj2 (Z.eqb_neq b j) N) in Hn. exact Hn. }
    clearbody g4. clear S3 E3 Eb3 g3 E1 D2 A32 g2 n2 N3 g1 n1 R0 D3.
    (* second walk *)
    assert (T4 : tree_at g4 (-1) (n_ 0) (plug (fr :: c) s0)).
    { apply same_tree with f3 (path O (fr :: c)); auto. intros j Hj _. now apply path_forks. }
    assert (Keep : forall j n, In j (fork_ids (plug c s0)) -> ~ In j (path O (fr :: c)) -> rd (nodes f) j = Ok n ->
      exists m, rd (nodes g4) j = Ok m /\ counters O m = counters O n).
    { intros j n Hj Nj Hn. destruct (G10 j n Hj Hn) as [m [M1 M2]]. exists m. split; [|exact M2]. now apply (same_rd O f3 g4 (path O (fr :: c))). }
    assert (Sd : sides O lc (fun _ => true) g4 (fr :: c) s0).
    { cbn [sides]. rewrite Hbes. split; [exact I|].
      assert (Rd : forall j, In j (path O (fr :: c)) -> exists n, rd (nodes g4) j = Ok n).
      { intros j Hj. apply rd_in_bounds. rewrite L4. apply Pos. apply fork_ids_in. now apply path_forks. }
      split.
      - destruct (Rd a) as [n Hn]; [now left|]. unfold a in Hn. destruct fr as [i d v r|i d v l]; cbn [fill half_counted frame_id] in *; exists n; (split; [exact Hn|]); discriminate.
      - apply sides_all with f s0; [|intros j Hj; apply Rd; now right|exact C]. intros fr' j n Hf Hj. apply Keep.
        + now apply beside_forks with fr'.
        + apply (beside_apart O (fr :: c) s0 fr' j NDt); [now right|]. now apply fork_ids_in. }
    destruct (climb_ok O fc lc lifetime (fun _ => true) _ (visits_labels O lc) c fr s0 g4 (n_ 0) (S (length (nodes g4)))) as [f' [E4 [S5 C5]]]; auto.
    - lia.
    - intros j Hj. now apply Pos.
    - apply counted_alike with f; [|now apply (counted_plug O fc lc (fun _ => true) c)]. intros j n Hj. apply Keep; [now apply plug_forks_in|].
      apply (plug_apart O (fr :: c) s0 j NDt). now apply fork_ids_in.
    - exists f'. split; [exact E4|]. split; [|exact C5]. apply same_incl with (path O (fr :: c) ++ path O (fr :: c)); [|now apply same_trans with g4].
      intros j Hj. apply path_forks. apply in_app_or in Hj. tauto.
  Qed.

  Lemma finish : forall k m f t rest f' t' c s0 s, grown k f (-1) (n_ 0) t rest f' t' c s0 s -> ending m f' s0 s -> counted f t ->
    exists g, m = Ok g /\ same_but f' g (fork_ids t') /\ counted g t'.
  Proof.
    intros k m f t rest f' t' c s0 s G [[i [pts [-> [-> ->]]]]|[a [b [d [v [g [E [Hb [Hf ->]]]]]]]]] C.
    - now apply finish_leaf with k f t rest c pts.
    - destruct E as [-> | ->].
      + now apply (finish_above k f t rest f' t' c s0 (InLeft O a d v (Leaf b [pt])) b g).
      + now apply (finish_above k f t rest f' t' c s0 (InRight O a d v (Leaf b [pt])) b g).
  Qed.

  (** ** All trees *)
  Definition holdsU (f : forest) (ts : list mtree) : Prop :=
    Z.of_nat (length (roots f)) = tc /\ Z.of_nat (length ts) <= tc /\
    (forall i t, nth_error ts i = Some t -> rd (roots f) (Z.of_nat i) = Ok (top t) /\ tree_at f (-1) (n_ 0) t /\ counted f t) /\
    (forall i, Z.of_nat (length ts) <= i < tc -> rd (roots f) i = Ok (-1)) /\
    heap f (all_ids ts).
  Lemma holdsU_init : holdsU (forest_init O tc) [].
  Proof.
    unfold holdsU, forest_init. cbn [Mondrian_Model.nodes Mondrian_Model.roots]. rewrite repeat_length. cbn [length].
    split; [lia|]. split; [lia|]. split; [intros [|i] t H; discriminate|]. split; [intros i Hi; apply rd_repeat; lia|]. unfold Unbound_Train.heap. cbn. reflexivity.
  Qed.
  Local Notation train_tree f i := (train_tree O log_ rnd fc lc lifetime f x label i).
  Local Notation grows := (grows O fine draw pt).

  Lemma counted_frame' : forall t f g, (forall j, In j (ids t) -> rd (nodes g) j = rd (nodes f) j) -> counted f t -> counted g t.
  Proof. intros t f g H. apply counted_alike. intros j n Hj Hn. exists n. split; [|reflexivity]. rewrite H; [exact Hn|now apply fork_ids_in]. Qed.
  Lemma create_okU : forall f ts, holdsU f ts -> Z.of_nat (length ts) < tc ->
    exists f' a, train_tree f (Z.of_nat (length ts)) = Ok f' /\ holdsU f' (ts ++ [Leaf a [pt]]).
  Proof.
    intros f ts [H1 [H2 [H3 [H4 H5]]]] Hl. unfold Unbound_Model.train_tree. rewrite H4 by lia. cbn [bind Z.eqb]. unfold alloc. cbn [Mondrian_Model.nodes Mondrian_Model.roots drawn].
    rewrite wr_ok by lia. cbn [bind]. set (a := Z.of_nat (length (nodes f))).
    set (f1 := mkForest O (nodes f ++ [new_leaf O fc lc]) (upd (roots f) (Z.to_nat (Z.of_nat (length ts))) a) (drawn O f)).
    assert (L1 : length (nodes f1) = S (length (nodes f))) by (cbn; rewrite app_length; cbn; lia).
    assert (Ha1 : rd (nodes f1) a = Ok (new_leaf O fc lc)) by apply rd_last.
    unfold sample_block. rewrite box_loop. cbn [bind]. erewrite with_node_ok; [|exact Ha1|reflexivity]. cbn [bind]. set (n1 := set_box O _ _ _). set (f2 := put f1 a n1).
    assert (E2 : rd (nodes f2) a = Ok n1) by (unfold f2; rewrite (rd_put O f1 a _ n1 a Ha1); now rewrite Z.eqb_refl).
    unfold update_label. cbn [climb]. rewrite E2. cbn [bind]. change (is_leaf O n1) with true. cbv iota. unfold add_count at 1.
    assert (R0 : rd (repeat 0 (Z.to_nat lc)) label = Ok 0) by (apply rd_repeat; lia).
    erewrite with_node_ok; [|exact E2|cbn [n1 set_box counters new_leaf new_node]; rewrite R0; cbn [bind]; rewrite slong_ok by lia; cbn [bind];
      rewrite wr_ok by (rewrite repeat_length; lia); reflexivity].
    cbn [bind]. set (n2 := set_counters O n1 _). set (f3 := put f2 a n2). change (parent O n1 =? -1) with true. cbv iota. cbn [bind].
    assert (E3 : rd (nodes f3) a = Ok n2) by (unfold f3; rewrite (rd_put O f2 a _ n2 a E2); now rewrite Z.eqb_refl).
    erewrite with_node_ok; [|exact E3|reflexivity]. set (n3 := set_tau O n2 lifetime). set (f4 := put f3 a n3). exists f4, a. split; [reflexivity|].
    assert (D : forall j, rd (nodes f4) j = if a =? j then Ok n3 else rd (nodes f) j).
    { intros j. unfold f4. rewrite (rd_put O f3 a n2 n3 j E3). unfold f3. rewrite (rd_put O f2 a n1 n2 j E2). unfold f2. rewrite (rd_put O f1 a _ n1 j Ha1).
      destruct (Z.eqb_spec a j) as [|N]; [reflexivity|]. cbn [f1 Mondrian_Model.nodes]. destruct (Z.ltb_spec j a) as [Lt|Ge]; [apply rd_app; exact Lt|].
      rewrite !rd_oob by (rewrite ?app_length; cbn; lia). reflexivity. }
    assert (Nu : forall j, In j (all_ids ts) -> j <> a) by (intros j Hj; apply (heap_in O _ _ _ H5) in Hj; lia).
    assert (L4 : length (nodes f4) = S (length (nodes f))) by (unfold f4, f3, f2; rewrite !put_length; exact L1).
    assert (Ts : tree_at f4 (-1) (n_ 0) (Leaf a [pt])).
    { exists n3. split; [cbn; rewrite D; now rewrite Z.eqb_refl|]. split; [reflexivity|]. split; [eapply bounding_pbox; eauto|].
      split; [cbn; now rewrite upd_length, repeat_length|]. split; [exact Hlife|]. split; [cbn; eapply le_refl; [exact L|apply (l_le _ _ _ _ _ _ L) in Hlife; tauto]|].
      repeat split. intros l Hl0. change (rd (bump (repeat 0 (Z.to_nat lc)) (count O label [])) l = Ok (count O l ([] ++ [pt]))).
      eapply bump_count; eauto; [apply repeat_length|]. intros l1 Hl1. apply rd_repeat. lia. }
    unfold holdsU. change (roots f4) with (upd (roots f) (Z.to_nat (Z.of_nat (length ts))) a). rewrite upd_length, app_length. cbn [length].
    split; [exact H1|]. split; [lia|]. split; [|split].
    - intros i t Ht. rewrite rd_upd by lia. destruct (Z.eqb_spec (Z.of_nat (length ts)) (Z.of_nat i)) as [E|N].
      + apply Nat2Z.inj in E. subst i. rewrite nth_error_app2, Nat.sub_diag in Ht by lia. cbn in Ht. injection Ht as <-. split; [reflexivity|]. split; [exact Ts|exact I].
      + assert (Hi : (i < length ts)%nat). { assert (nth_error (ts ++ [Leaf a [pt]]) i <> None) by congruence. apply nth_error_Some in H. rewrite app_length in H. cbn in H. lia. }
        rewrite nth_error_app1 in Ht by lia. destruct (H3 _ _ Ht) as [A [B Cc]]. split; [exact A|].
        assert (Fr : forall j, In j (ids t) -> rd (nodes f4) j = rd (nodes f) j).
        { intros j Hj. rewrite D. rewrite (proj2 (Z.eqb_neq a j)); [reflexivity|]. intros ->. apply (Nu j); [|reflexivity].
          unfold Mondrian_Forest.all_ids. apply in_concat. exists (ids t). split; [|exact Hj]. apply in_map. now apply nth_error_In with i. }
        split; [now apply tree_frame with f|now apply counted_frame' with f].
    - intros i Hi. rewrite rd_upd by lia. rewrite (proj2 (Z.eqb_neq (Z.of_nat (length ts)) i)) by lia. apply H4. lia.
    - unfold Mondrian_Forest.all_ids. rewrite map_app, concat_app. cbn. unfold Unbound_Train.heap, addresses. rewrite L4. rewrite seq_S, map_app. cbn. apply Permutation_app_tail. exact H5.
  Qed.

  Definition fitU (t : mtree) : Prop := Forall fine_pt (points t) /\ Z.of_nat (length (points t)) < 9223372036854775807.
  Lemma step_okU : forall f ts i t, holdsU f ts -> nth_error ts i = Some t -> fitU t ->
    ((exists e, train_tree f (Z.of_nat i) = Undef e) /\ (able_pick O draw fc -> False)) \/
    exists f' t', train_tree f (Z.of_nat i) = Ok f' /\ grows t t' /\ holdsU f' (upd ts i t').
  Proof.
    intros f ts i t [H1 [H2 [H3 [H4 H5]]]] Ht [F1 F2]. destruct (H3 _ _ Ht) as [Hr [Tt Ct]].
    destruct (nth_error_split _ _ Ht) as [ta [tb [Ets Lta]]].
    set (rest := all_ids ta ++ all_ids tb).
    assert (PM : forall t', Permutation (all_ids (ta ++ t' :: tb)) (rest ++ ids t')).
    { intros t'. unfold rest, Mondrian_Forest.all_ids. rewrite map_app, concat_app. cbn. rewrite <- app_assoc. apply Permutation_app_head. apply Permutation_app_comm. }
    assert (P : heap f (rest ++ ids t)). { unfold Unbound_Train.heap. rewrite <- PM, <- Ets. exact H5. }
    assert (Btop : 0 <= top t). { apply (heap_in O f _ (top t) P). apply in_or_app. right. apply top_in. }
    unfold Unbound_Model.train_tree. rewrite Hr. cbn [bind]. rewrite (proj2 (Z.eqb_neq (top t) (-1))) by lia.
    pose proof (heap_len _ _ _ P) as PL. rewrite app_length in PL.
    destruct (extend_ok O log_ rnd fc lc lifetime key cmp fine draw L Hdraw Hfc Hlife x label Hx Hlab Hfine (Z.of_nat i) t f (-1) (n_ 0) rest (S (length (nodes f))))
      as [Bad|[f3 [t' [c [s0 [s [G En]]]]]]].
    - lia.
    - split; [exact Tt|]. split; [exact P|]. split; [assumption|]. split; [left; auto|]. split; [|exact F2].
      eapply le_refl; [exact L|]. apply L.
    - left. exact Bad.
    - right. destruct (finish _ _ _ _ _ _ _ _ _ _ G En Ct) as [f' [E [Sb C']]]. exists f', t'. split; [exact E|]. pose proof G as [G1 [G2 [G3 [G6 [G7 _]]]]]. split; [exact G1|].
      rewrite Z.eqb_refl, Nat2Z.id in G7. pose proof Sb as [S1 [S2 [S3 S4]]].
      assert (Li : (i < length ts)%nat) by (apply nth_error_Some; congruence).
      pose proof (heap_nodup O _ _ G3) as ND. destruct (nodup_app _ _ _ ND) as [_ [NDt NDr]].
      unfold holdsU. rewrite S1, G7, !upd_length. split; [exact H1|]. split; [exact H2|]. split; [|split].
      + intros j y Hy. replace i with (Z.to_nat (Z.of_nat i)) at 1 by lia. rewrite rd_upd by lia. rewrite nth_error_upd in Hy. destruct (Nat.eqb_spec i j) as [->|N].
        * rewrite Z.eqb_refl. destruct (Nat.ltb_spec j (length ts)) as [_|]; [|lia]. injection Hy as <-. split; [reflexivity|]. split; [|exact C'].
          apply same_tree with f3 (fork_ids t'); auto.
        * rewrite (proj2 (Z.eqb_neq (Z.of_nat i) (Z.of_nat j))) by lia. destruct (H3 _ _ Hy) as [A [B Cy]]. split; [exact A|].
          assert (Fr : forall z, In z (ids y) -> rd (nodes f') z = rd (nodes f) z).
          { intros z Hz.
            assert (Iz : In z rest).
            { assert (Is : In y (ta ++ tb)).
              { rewrite Ets in Hy. destruct (Nat.lt_ge_cases j (length ta)) as [Cc|Cc].
                - rewrite nth_error_app1 in Hy by lia. apply in_or_app. left. now apply nth_error_In with j.
                - rewrite nth_error_app2 in Hy by lia. destruct (j - length ta)%nat as [|m] eqn:M; [lia|]. cbn in Hy. apply in_or_app. right. now apply nth_error_In with m. }
              unfold rest, Mondrian_Forest.all_ids. rewrite <- concat_app, <- map_app. apply in_concat. exists (ids y). split; [now apply in_map|exact Hz]. }
            assert (Bz : 0 <= z < Z.of_nat (length (nodes f))) by (apply (heap_in O f _ z P); apply in_or_app; now left).
            pose proof (G6 z Iz) as Ez. rewrite (proj2 (Z.eqb_neq z (-1))) in Ez by lia. destruct (rd_in_bounds _ _ _ Bz) as [n Hn]. rewrite Hn in *.
            apply (same_rd O f3 f' (fork_ids t') z n Sb); [|exact Ez]. intros X. apply fork_ids_in in X. now apply (NDr z). }
          split; [now apply tree_frame with f|now apply counted_frame' with f].
      + intros j Hj. replace i with (Z.to_nat (Z.of_nat i)) at 1 by lia. rewrite rd_upd by lia. rewrite (proj2 (Z.eqb_neq (Z.of_nat i) j)) by lia. now apply H4.
      + rewrite Ets, <- Lta, upd_split. apply heap_same with f3; [exact S3|]. unfold Unbound_Train.heap. rewrite PM. exact G3.
  Qed.

  Local Notation train f := (train O log_ rnd tc fc lc lifetime f x label).
  Lemma first_trainU : forall f, holdsU f [] ->
    exists f' ts, train f = Ok (f', None) /\ holdsU f' ts /\ Z.of_nat (length ts) = tc /\ Forall (fun t => exists a, t = Leaf a [pt]) ts.
  Proof.
    intros f H. unfold Unbound_Model.train.
    destruct (forZ_inv _ (fun i '(f, r) => r = None /\ exists ts, holdsU f ts /\ Z.of_nat (length ts) = i /\
        Forall (fun t => exists a, t = Leaf a [pt]) ts)
      (fun i '(f, fully_trained) => do f <- train_tree f i; let has_trained := true in Ok (f, if negb has_trained then Some false else fully_trained))
      (Z.to_nat tc) 0 (f, None)) as [[f' r] [E [-> [ts [A1 [A2 A4]]]]]].
    - split; [reflexivity|]. exists []. split; [exact H|]. split; [reflexivity|constructor].
    - intros i [g r] Hi [-> [ts [A1 [<- A4]]]]. destruct (create_okU g ts A1) as [g' [a [E A]]]; [lia|]. rewrite E. cbn [bind negb].
      eexists. split; [reflexivity|]. split; [reflexivity|]. exists (ts ++ [Leaf a [pt]]). split; [exact A|]. split; [rewrite app_length; cbn; lia|].
      apply Forall_app. split; [exact A4|]. constructor; [now exists a|constructor].
    - exists f', ts. split; [exact E|]. split; [exact A1|]. split; [lia|exact A4].
  Qed.
  Lemma next_trainU : forall f ts, holdsU f ts -> Z.of_nat (length ts) = tc -> Forall fitU ts ->
    ((exists e, train f = Undef e) /\ (able_pick O draw fc -> False)) \/
    exists f' ts', train f = Ok (f', None) /\ holdsU f' ts' /\ Forall2 grows ts ts'.
  Proof.
    intros f ts H Lt F. unfold Unbound_Model.train.
    destruct (forZ_undef _ (fun i '(f, r) => r = None /\ exists ts', holdsU f ts' /\ length ts' = length ts /\
        (forall j t t', Z.of_nat j < i -> nth_error ts j = Some t -> nth_error ts' j = Some t' -> grows t t') /\
        (forall j, i <= Z.of_nat j -> nth_error ts' j = nth_error ts j)) (able_pick O draw fc -> False)
      (fun i '(f, fully_trained) => do f <- train_tree f i; let has_trained := true in Ok (f, if negb has_trained then Some false else fully_trained))
      (Z.to_nat tc) 0 (f, None)) as [Bad|[[f' r] [E [-> [ts' [A1 [A2 [A3 _]]]]]]]].
    - split; [reflexivity|]. exists ts. split; [exact H|]. split; [reflexivity|]. split; [intros; lia|auto].
    - intros i [g r] Hi [-> [ts' [A1 [A2 [A3 A4]]]]].
      destruct (nth_error ts (Z.to_nat i)) as [t|] eqn:Et; [|apply nth_error_None in Et; lia].
      assert (Et' : nth_error ts' (Z.to_nat i) = Some t) by (rewrite A4 by lia; exact Et).
      rewrite Forall_forall in F. pose proof (F t (nth_error_In _ _ Et)) as Ft.
      destruct (step_okU g ts' (Z.to_nat i) t A1 Et' Ft) as [[[e E] B]|[g' [t' [E [G A]]]]]; rewrite Z2Nat.id in E by lia; rewrite E; cbn [bind negb].
      + left. split; [exists e; reflexivity|exact B].
      + right. eexists. split; [reflexivity|]. split; [reflexivity|]. exists (upd ts' (Z.to_nat i) t'). split; [exact A|]. rewrite upd_length. split; [exact A2|]. split.
        * intros j s s' Hj Hs Hs'. rewrite nth_error_upd in Hs'. destruct (Nat.eqb_spec (Z.to_nat i) j) as [<-|N].
          -- destruct (Nat.ltb_spec (Z.to_nat i) (length ts')) as [_|]; [|lia]. injection Hs' as <-. rewrite Et in Hs. injection Hs as <-. exact G.
          -- apply (A3 j); auto. lia.
        * intros j Hj. rewrite nth_error_upd_other by lia. apply A4. lia.
    - left. exact Bad.
    - right. exists f', ts'. split; [exact E|]. split; [exact A1|].
      assert (X : forall j t t', nth_error ts j = Some t -> nth_error ts' j = Some t' -> grows t t').
      { intros j t t' Ht. apply A3; auto. assert (nth_error ts j <> None) by congruence. apply nth_error_Some in H0. lia. }
      clear - A2 X. revert ts' A2 X. induction ts as [|t ts IH]; intros [|t' ts'] A2 X; try discriminate; constructor.
      + apply (X 0%nat); reflexivity.
      + apply IH; [cbn in A2; lia|]. intros j s s' Hs Hs'. apply (X (S j)); assumption.
  Qed.
End Forest.
