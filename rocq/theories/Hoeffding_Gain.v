(** * The information gains are the textbook ones *)
From Coq Require Import ZArith List Bool Reals Lia Lra.
From Flocq Require Import Core.
From Verif Require Import CppBase CppFacts NumOps NumFacts MCNN_Proofs Hoeffding_Model Hoeffding_Spec Hoeffding_Proofs Hoeffding_Num.
Import ListNotations.
Local Open Scope Z_scope.

Section Gain.
  Variable log_ : R -> R.
  Variable infinity : R.
  Variable sz : list nat.
  Variable lc : nat.
  Variable max_size node_size : Z.
  Local Notation fcn := (length sz).
  Local Notation lz := (Z.of_nat lc).
  Local Notation size := (size sz).
  Local Notation start := (start sz).
  Local Notation point := (point rops).
  Local Notation cands := (cut sz fcn).
  Local Notation tree := (tree rops).
  Hypothesis Hf : (1 <= fcn)%nat.
  Hypothesis Hl : (1 <= lc)%nat.
  Hypothesis Pos : forall f, (f < fcn)%nat -> (1 <= size f)%nat.
  Hypothesis Two : (2 <= cands)%nat.
  Hypothesis Hns : 0 < node_size.
  Local Notation holds := (holds rops sz lc).
  Local Notation gain := (gain rops log2 sz lc).
  Local Notation remembers := (remembers rops sz lc max_size node_size).
  Local Notation reached := (reached rops sz log_ log2 infinity lz max_size node_size).
  Local Notation train := (train rops log_ log2 infinity (Z.of_nat fcn) lz max_size node_size).

  Lemma rsum_n_ext : forall g h n, (forall k, (k < n)%nat -> g k = h k) -> rsum_n g n = rsum_n h n.
  Proof. clear. induction n as [|n IH]; intros H; cbn [rsum_n]; [reflexivity|]. rewrite IH, H; auto. Qed.
  Lemma isnan_R : forall x, isnan rops x = false.
  Proof. clear. intros x. unfold isnan. cbn [neq rops]. now rewrite Req_bool_true. Qed.
  Lemma fix_R : forall x, fix_nan rops x = x.
  Proof. clear. intros x. unfold fix_nan. now rewrite isnan_R. Qed.
  Lemma entropy_R : forall (g : nat -> R) s n, (forall k, (k < n)%nat -> (0 <= g k / s)%R) ->
    entropy_sum rops log2 g s n = rsum_n (fun l => g l / s * log2 (g l / s))%R n.
  Proof.
    clear. intros g s. induction n as [|n IH]; intros H; [reflexivity|]. rewrite entropy_S, IH by auto. cbn [rsum_n]. unfold entropy_term. rewrite isnan_R.
    cbn [nlt ndiv nadd nmul rops nofZ num]. rewrite andb_true_r. destruct (Rlt_bool_spec 0 (g n / s)) as [L|L]; [reflexivity|].
    pose proof (H n ltac:(lia)). assert (Z0 : (g n / s = 0)%R) by lra. rewrite Z0. ring.
  Qed.
  Lemma part_nonneg : forall A (p h : list A), (0 <= IZR (size_of p) / IZR (size_of h))%R.
  Proof.
    clear. intros A p h. pose proof (size_of_nonneg A p) as P. pose proof (size_of_nonneg A h) as H. apply IZR_le in P. apply IZR_le in H.
    destruct (Req_dec (IZR (size_of h)) 0) as [E|N].
    - destruct h as [|a h].
      + unfold size_of at 2. cbn [length Z.of_nat]. unfold Rdiv. rewrite Rinv_0. lra.
      + rewrite size_of_cons in E. pose proof (size_of_nonneg A h). assert (1 + size_of h = 0) by (now apply eq_IZR). lia.
    - apply Rmult_le_pos; [exact P|]. apply Rlt_le, Rinv_0_lt_compat. lra.
  Qed.

  Lemma entropy_labels : forall (h : list point), (forall p, In p h -> 0 <= label rops p < lz) ->
    entropy_sum rops log2 (fun l => IZR (size_of (labelled rops h (Z.of_nat l)))) (IZR (size_of h)) lc = (- entropy lc h)%R.
  Proof.
    clear. intros h P. rewrite entropy_R by (intros; unfold labelled; apply part_nonneg). unfold entropy, part. rewrite Ropp_involutive. reflexivity.
  Qed.
  Lemma sum_labels : forall (h : list point), (forall p, In p h -> 0 <= label rops p < lz) ->
    nsumf rops (fun l => IZR (size_of (labelled rops h (Z.of_nat l)))) lc = IZR (size_of h).
  Proof.
    clear. intros h P. pose proof (total_labelled rops lc h P) as T.
    pose proof (nsumf_exact rops (size_of h) (rops_exact _) (fun l => size_of (labelled rops h (Z.of_nat l))) lc) as E. cbn [nofZ rops] in E. rewrite E, T; [reflexivity| |lia].
    intros; apply size_of_nonneg.
  Qed.

  Lemma split_sizes : forall A (g : A -> bool) l, size_of l = size_of (filter g l) + size_of (filter (fun a => negb (g a)) l).
  Proof. clear. induction l as [|a l IH]; [reflexivity|]. rewrite !size_filter_cons, size_of_cons, IH. destruct (g a); cbn [negb]; lia. Qed.

  Lemma gain_textbook : forall b (h : list point) f v, holds b h -> (f < fcn)%nat -> (v < size f - 1)%nat ->
    gain (IZR (size_of h)) (counters rops b) (f, v) = information_gain sz lc h (f, v).
  Proof.
    intros b h f v Hb Hff Hv. unfold Hoeffding_Proofs.gain, information_gain. cbn [fst snd].
    assert (P : forall p, In p h -> 0 <= label rops p < lz) by (intros p Hp; now apply Hb).
    assert (Lo : forall l, (l < lc)%nat -> low sz (counters rops b) f v l = size_of (labelled rops (below sz h f v) (Z.of_nat l))).
    { intros l Hll. unfold low. rewrite (side_holds rops sz lc b h) by (auto; lia). unfold labelled, below. now rewrite filter_comm. }
    assert (Hi : forall l, (l < lc)%nat -> high sz (counters rops b) f v l = size_of (labelled rops (above sz h f v) (Z.of_nat l))).
    { intros l Hll. pose proof (Lo l Hll) as L. unfold high, low in *. rewrite L, (side_all rops sz lc Pos b h f l Hb Hll Hff). unfold labelled, below, above.
      rewrite (filter_comm _ (fun p => label rops p =? Z.of_nat l) (fun p => Nat.leb (bin_of rops sz f p) v)).
      rewrite (filter_comm _ (fun p => label rops p =? Z.of_nat l) (fun p => negb (Nat.leb (bin_of rops sz f p) v))).
      rewrite (split_sizes _ (fun p => Nat.leb (bin_of rops sz f p) v) (filter (fun p => label rops p =? Z.of_nat l) h)). lia. }
    assert (Pl : forall p, In p (below sz h f v) -> 0 <= label rops p < lz) by (intros p Hp; apply filter_In in Hp; apply P, Hp).
    assert (Ph : forall p, In p (above sz h f v) -> 0 <= label rops p < lz) by (intros p Hp; apply filter_In in Hp; apply P, Hp).
    unfold weigh. cbn [nadd nsub nmul ndiv nofZ rops num].
    assert (S0 : nsumf rops (fun l => IZR (low sz (counters rops b) f v l)) lc = IZR (size_of (below sz h f v))).
    { rewrite <- (sum_labels _ Pl). apply nsumf_ext. intros k Hk. now rewrite Lo. }
    assert (S1 : nsumf rops (fun l => IZR (high sz (counters rops b) f v l)) lc = IZR (size_of (above sz h f v))).
    { rewrite <- (sum_labels _ Ph). apply nsumf_ext. intros k Hk. now rewrite Hi. }
    assert (Ee : forall (g g' : nat -> R) s n, (forall k, (k < n)%nat -> g k = g' k) -> entropy_sum rops log2 g s n = entropy_sum rops log2 g' s n).
    { clear. intros g g' s n H. induction n as [|n IH]; [reflexivity|]. rewrite !entropy_S, IH by auto. unfold entropy_term. now rewrite H by lia. }
    rewrite S0, S1, !fix_R.
    rewrite (Ee (fun l => IZR (low sz (counters rops b) f v l)) (fun l => IZR (size_of (labelled rops (below sz h f v) (Z.of_nat l))))) by (intros; now rewrite Lo).
    rewrite (Ee (fun l => IZR (high sz (counters rops b) f v l)) (fun l => IZR (size_of (labelled rops (above sz h f v) (Z.of_nat l))))) by (intros; now rewrite Hi).
    rewrite (Ee (first_counts rops sz (counters rops b)) (fun l => IZR (size_of (labelled rops h (Z.of_nat l)))))
      by (intros k Hk; apply (first_counts_exact rops sz lc Hf Pos (size_of h) (rops_exact _) b h k Hb Hk); lia).
    rewrite !entropy_labels by assumption.
    assert (Sh : (IZR (size_of (below sz h f v)) + IZR (size_of (above sz h f v)) = IZR (size_of h))%R).
    { rewrite <- plus_IZR. f_equal. unfold below, above. now rewrite <- split_sizes. }
    rewrite Sh. unfold part. ring.
  Qed.

  (** ** The sums of gains *)
  Definition summed (b : block rops) (h : list point) : Prop :=
    forall k, (k < cands)%nat -> nth k (info_sum rops b) 0%R = rsum_n (fun j => information_gain sz lc (firstn (S j) h) (candidate sz k)) (length h).
  Definition tracks (dl : R) (t : tree) (h : list point) : Prop :=
    remembers dl t h /\ exists b rest, blocks rops t = b :: rest /\ summed b h.

  Lemma summed_added : forall b (h : list point) x l cs, holds b h -> summed b h -> (l < lc)%nat -> added rops sz lc b x l cs ->
    let h' := h ++ [mkPoint rops x (Z.of_nat l) (limits rops b)] in
    (forall k, (k < cands)%nat -> sums' rops log2 sz lc b cs k = rsum_n (fun j => information_gain sz lc (firstn (S j) h') (candidate sz k)) (length h')) /\
    summed (next_block rops log2 sz lc b cs) h'.
  Proof.
    intros b h x l cs Hb Sm Hll Ad h'.
    assert (A : forall k, (k < cands)%nat -> sums' rops log2 sz lc b cs k = rsum_n (fun j => information_gain sz lc (firstn (S j) h') (candidate sz k)) (length h')).
    { intros k Hk. unfold sums'. cbn [nadd nofZ rops num]. change (IZR 0) with 0%R.
      pose proof (Sm k Hk) as E. cbn [num rops] in *. transitivity (rsum_n (fun j => information_gain sz lc (firstn (S j) h) (candidate sz k)) (length h) + gains rops log2 sz lc (IZR (count rops b + 1)) cs k)%R; [now f_equal|].
      unfold h'. rewrite app_length. cbn [length]. rewrite Nat.add_1_r. cbn [rsum_n]. f_equal.
      - apply rsum_n_ext. intros j Hj. rewrite firstn_app. replace (S j - length h)%nat with 0%nat by lia. cbn [firstn]. now rewrite app_nil_r.
      - pose proof (holds_added rops log2 sz lc b h x l cs Hb Hll Ad) as H'. unfold gains. pose proof (candidate_spec sz k Hk) as S. destruct (candidate sz k) as [f v]. destruct S as [S1 [S2 _]].
        replace (count rops b + 1) with (size_of (h ++ [mkPoint rops x (Z.of_nat l) (limits rops b)])) by (pose proof (proj1 (proj2 Hb)); unfold size_of in *; rewrite app_length; cbn; lia).

        pose proof (gain_textbook _ _ f v H' S1 S2) as G. cbn [counters next_block] in G. rewrite firstn_all2 by (rewrite app_length; cbn; lia). first [exact G | reflexivity]. }
    split; [exact A|]. intros k Hk. rewrite <- (A k Hk). cbn [info_sum next_block]. apply nth_error_nth. now rewrite nth_error_map_seq.
  Qed.

  Lemma summed_empty : forall n f v, summed (split_block rops sz lc n f v) [].
  Proof. intros n f v k Hk. cbn [info_sum split_block empty_block zero_block length rsum_n]. apply nth_repeat. Qed.

  Lemma tracks_train : forall dl t h x l t' r, tracks dl t h -> length x = fcn -> (l < lc)%nat -> train t x (Z.of_nat l) = Ok (t', r) ->
    (length (nodes rops t') = length (nodes rops t) /\ tracks dl t' (h ++ [mkPoint rops x (Z.of_nat l) (limits_of rops t')])) \/
    (length (nodes rops t') = (2 + length (nodes rops t))%nat /\ tracks dl t' [mkPoint rops x (Z.of_nat l) (limits_of rops t')]).
  Proof.
    intros dl t h x l t' r [R [b0 [rest0 [Eb0 Sm]]]] Lx Hll E.
    pose proof (train_remembers rops log_ log2 infinity sz lc max_size node_size Hf Hl Pos Two Hns dl t h x l t' r R Lx Hll E) as TR.
    pose proof (train_ok rops log_ log2 infinity sz lc max_size node_size Hf Hl Pos Two Hns dl t h x l R Lx Hll) as T.
    destruct (size_of h <? 2147483647); [|congruence].
    destruct T as [i [n [b [rest [cs [Es [En [Lf [Eb [Hb [Ad T]]]]]]]]]]]. rewrite Eb in Eb0. injection Eb0 as <- <-.
    unfold train_result in T. destruct (decision rops log_ log2 sz lc (delta rops t) b cs) as [[fz v]|].
    - set (f := recovered sz (fst (winners rops sz (mean rops log2 sz lc b cs)))) in *.
      destruct (room sz lc max_size node_size (2 + length (nodes rops t))); [|congruence]. destruct T as [cs' [Ad' T]]. cbv zeta in T. rewrite E in T.
      set (m := grown rops sz n x) in *. set (left := nle rops (nth f x (nofZ rops 0)) v) in *.
      assert (Et' : t' = with_nodes rops t (upd (upd (nodes rops t) i (inner rops m f v (length (nodes rops t))) ++ [right_of rops m f v; left_of rops m f v])
          (if left then S (length (nodes rops t)) else length (nodes rops t)) (grown rops sz (if left then left_of rops m f v else right_of rops m f v) x))
          (next_block rops log2 sz lc (split_block rops sz lc m f v) cs' :: rest)) by congruence. clear T.
      destruct TR as [[Q _]|[Q TR]]; [rewrite Et' in Q; cbn [nodes with_nodes] in Q; rewrite upd_length, app_length, upd_length in Q; cbn in Q; lia|].
      right. split; [exact Q|]. split; [exact TR|]. eexists _, rest. split; [rewrite Et'; reflexivity|].
      destruct (summed_added (split_block rops sz lc m f v) [] x l cs' (split_block_holds rops sz lc Hf Hl Pos Two m f v) (summed_empty m f v) Hll Ad') as [_ S].
      rewrite Et'. exact S.
    - assert (Et' : t' = with_nodes rops t (upd (nodes rops t) i (grown rops sz n x)) (next_block rops log2 sz lc b cs :: rest)) by congruence.
      destruct TR as [[Q TR]|[Q _]]; [|exfalso; rewrite Et' in Q; cbn [nodes with_nodes] in Q; rewrite upd_length in Q; lia].
      left. split; [exact Q|]. split; [exact TR|]. eexists _, rest. split; [rewrite Et'; reflexivity|].
      destruct (summed_added b h x l cs Hb Sm Hll Ad) as [_ S]. rewrite Et'. exact S.
  Qed.
  Lemma reached_tracks : forall dl t h, reached dl t h -> tracks dl t h.
  Proof.
    intros dl t h R. induction R as [t E|t h new t' R IH Ln E|t h x l t' r R IH Lx Hll E Eq|t h x l t' r R IH Lx Hll E Ne].
    - split; [now apply (init_remembers rops infinity sz lc max_size node_size Hf Hl Pos Two Hns)|].
      rewrite (init_ok rops infinity sz lc max_size node_size Hf Hl Pos Two Hns) in E. destruct (room _ _ _ _ _); [|discriminate].
      eexists _, _. split; [|]. { assert (t = mkTree rops [fresh rops infinity sz] (empty_block rops sz lc :: repeat (empty_block rops sz lc) (Nat.pred (Z.to_nat (max_size / total_size_counters (Z.of_nat fcn) lz (Z.of_nat (start fcn)))))) max_size dl (map Z.of_nat sz) (Z.of_nat (start fcn))) as -> by congruence. reflexivity. }
      intros k Hk. cbn [info_sum empty_block zero_block length rsum_n]. apply nth_repeat.
    - assert (Ln' : length new = cands). { rewrite Ln. destruct IH as [[[[_ Sz] _] _] _]. rewrite Sz, (bins_cands sz lc Hf Hl Pos Two). apply Nat2Z.id. }
      destruct IH as [Rm [b [rest [Eb Sm]]]]. destruct (set_limits_remembers rops sz lc max_size node_size Hf Hl Pos Two dl t h new t' Rm Ln' E) as [R' Nn].
      split; [exact R'|]. destruct (set_limits_ok rops sz lc max_size node_size Hf Hl Pos Two dl t h new Rm Ln') as [n' [b' [rest' [En' [Eb' [_ Q]]]]]]. rewrite Eb in Eb'. injection Eb' as <- <-.
      destruct (is_leaf rops n'); [|congruence]. assert (t' = with_nodes rops t (nodes rops t) (mkBlock rops (count rops b) new (info_sum rops b) (counters rops b) :: rest)) as -> by congruence.
      eexists _, rest. split; [reflexivity|exact Sm].
    - replace l with (Z.of_nat (Z.to_nat l)) in * by lia. destruct (tracks_train dl t h x (Z.to_nat l) t' r IH Lx ltac:(lia) E) as [[_ H]|[H _]]; [exact H|lia].
    - replace l with (Z.of_nat (Z.to_nat l)) in * by lia. destruct (tracks_train dl t h x (Z.to_nat l) t' r IH Lx ltac:(lia) E) as [[H _]|[_ H]]; [lia|exact H].
  Qed.

  (** ** The decision *)
  Lemma best_two_R : forall (g : nat -> R) n, best_pair g (2 + n) (fst (best_two rops g n)) (snd (best_two rops g n)).
  Proof.
    clear. intros g n. induction n as [|n IH].
    - cbn [best_two nlt rops]. destruct (Rlt_bool_spec (g 0%nat) (g 1%nat)) as [H|H]; cbn [fst snd]; (split; [lia|]; split; [lia|]; split; [lia|]; split; intros k Hk; [|intros Nk]);
        destruct k as [|[|k]]; try lia; try lra.
    - cbn [best_two]. destruct (best_two rops g n) as [b0 b1]. cbn [fst snd] in IH. destruct IH as [A [B [C [D E]]]].
      cbn [nlt rops]. destruct (Rlt_bool_spec (g b0) (g (2 + n)%nat)) as [H|H]; [|destruct (Rlt_bool_spec (g b1) (g (2 + n)%nat)) as [H'|H']]; cbn [fst snd];
        (split; [lia|]; split; [lia|]; split; [lia|]; split; intros k Hk; [|intros Nk]);
        (destruct (Nat.eq_dec k (2 + n)) as [->|Nn]; [try lra; try lia|]);
        try (specialize (D k ltac:(lia))); try (specialize (E k ltac:(lia))); try lra.
      + destruct (Nat.eq_dec k b0) as [->|]; [lia|]. specialize (E ltac:(lia)). lra.
      + apply E. exact Nk.
  Qed.
  Lemma best_pair_values : forall (g : nat -> R) n a b a' b', best_pair g n a b -> best_pair g n a' b' -> g a = g a' /\ g b = g b'.
  Proof.
    clear. intros g n a b a' b' [A1 [A2 [A3 [A4 A5]]]] [B1 [B2 [B3 [B4 B5]]]]. assert (E : g a = g a') by (apply Rle_antisym; auto). split; [exact E|].
    apply Rle_antisym.
    - destruct (Nat.eq_dec b a') as [->|N]; [|now apply B5]. apply Rle_trans with (g a); [now apply A4|]. apply B5; auto.
    - destruct (Nat.eq_dec b' a) as [->|N]; [|now apply A5]. apply Rle_trans with (g a'); [now apply B4|]. apply A5; auto.
  Qed.
  Lemma decision_due : forall dl b (h : list point) x l cs, holds b h -> summed b h -> (l < lc)%nat -> added rops sz lc b x l cs ->
    let h' := h ++ [mkPoint rops x (Z.of_nat l) (limits rops b)] in
    (splits rops log_ log2 sz lc dl b cs = true <-> split_due sz lc log_ dl h') /\
    (forall k, (k < cands)%nat -> mean rops log2 sz lc b cs k = gain_at sz lc h' k).
  Proof.
    intros dl b h x l cs Hb Sm Hll Ad h'. destruct (summed_added b h x l cs Hb Sm Hll Ad) as [A _]. fold h' in A.
    assert (C : count rops b + 1 = size_of h') by (unfold h'; pose proof (proj1 (proj2 Hb)); unfold size_of in *; rewrite app_length; cbn; lia).
    assert (M : forall k, (k < cands)%nat -> mean rops log2 sz lc b cs k = gain_at sz lc h' k).
    { intros k Hk. unfold mean, gain_at, average_gain. rewrite (A k Hk), C. reflexivity. }
    split; [|exact M].
    unfold splits, epsilon. rewrite C. set (g := mean rops log2 sz lc b cs) in *.
    pose proof (winners_range rops sz Two g) as [W0 [W1 W2]].
    assert (BP : best_pair (gain_at sz lc h') (length (candidates sz)) (fst (winners rops sz g)) (snd (winners rops sz g))).
    { pose proof (best_two_R g (cands - 2)) as [X1 [X2 [X3 [X4 X5]]]]. replace (2 + (cands - 2))%nat with cands in * by lia.
      rewrite candidates_length. change (best_two rops g (cands - 2)) with (winners rops sz g) in *.
      split; [exact W0|]. split; [exact W1|]. split; [exact W2|]. split; intros k Hk; [|intros Nk]; rewrite <- !M by assumption; auto. }
    cbn [nlt nmul nsub ndiv nofZ rops num]. rewrite !M by assumption.
    set (k1 := fst (winners rops sz g)) in *. set (k2 := snd (winners rops sz g)) in *. set (e := (4 * log_ (1 / dl) / (2 * IZR (size_of h')))%R).
    split.
    - intros H. apply andb_true_iff in H. destruct H as [H1 H2]. destruct (Rlt_bool_spec e ((gain_at sz lc h' k1 - gain_at sz lc h' k2) * (gain_at sz lc h' k1 - gain_at sz lc h' k2))) as [H3|H3]; [|discriminate].
      destruct (Rlt_bool_spec 0 (gain_at sz lc h' k1)) as [H4|H4]; [|discriminate].
      exists k1, k2. split; [exact BP|]. split; [fold e; cbn [pow]; rewrite Rmult_1_r; exact H3|exact H4].
    - intros [j1 [j2 [BJ [H3 H4]]]]. destruct (best_pair_values _ _ _ _ _ _ BP BJ) as [E1 E2]. rewrite E1, E2. fold e in H3. cbn [pow] in H3. rewrite Rmult_1_r in H3.
      now rewrite !Rlt_bool_true by assumption.
  Qed.
End Gain.
