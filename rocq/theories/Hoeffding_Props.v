(** * Properties of the Hoeffding tree (src/hoeffding_tree.hpp) *)
From Coq Require Import ZArith List Bool Lia Reals Lra.
From Flocq Require Import Core BinarySingleNaN.
From Verif Require Import CppBase CppFacts Dbl DblFacts NumOps NumFacts MCNN_Proofs.
From Verif Require Import Hoeffding_Model Hoeffding_Spec Hoeffding_Proofs Hoeffding_Num Hoeffding_Once Hoeffding_Gain Hoeffding_Route.
Import ListNotations.
Local Open Scope Z_scope.

Lemma nth_firstn_lt : forall A (d : A) n k l, (k < n)%nat -> nth k (firstn n l) d = nth k l d.
Proof. intros A d. induction n as [|n IH]; intros [|k] [|a l] H; try lia; try reflexivity. cbn. apply IH. lia. Qed.
Lemma nth_skipn_add : forall A (d : A) n k l, nth k (skipn n l) d = nth (n + k) l d.
Proof. intros A d. induction n as [|n IH]; intros k [|a l]; try reflexivity; [now destruct k|]. cbn. apply IH. Qed.

Section Any.
  Variable O : ops.
  Variable log_ log2_ : num O -> num O.
  Variable infinity : num O.
  Variable sz : list nat.
  Variable lc : nat.
  Variable max_size node_size : Z.
  Local Notation fcn := (length sz).
  Local Notation fc := (Z.of_nat (length sz)).
  Local Notation lz := (Z.of_nat lc).
  Hypothesis Hf : (1 <= fcn)%nat.
  Hypothesis Hl : (1 <= lc)%nat.
  Hypothesis Pos : forall f, (f < fcn)%nat -> (1 <= size sz f)%nat.
  Hypothesis Two : (2 <= cut sz fcn)%nat.
  Hypothesis Hns : 0 < node_size.
  Local Notation reached := (reached O sz log_ log2_ infinity lz max_size node_size).
  Local Notation train := (train O log_ log2_ infinity fc lz max_size node_size).
  Local Notation predict := (predict O lz max_size node_size).
  Local Notation set_limits := (set_limits O fc).
  Local Notation tree_init := (tree_init O infinity fc lz max_size node_size).
  Local Notation fits := (fits sz lc max_size node_size).

  Lemma reached_good : forall dl t h, reached dl t h -> remembers O sz lc max_size node_size dl t h.
  Proof. exact (reached_remembers O log_ log2_ infinity sz lc max_size node_size Hf Hl Pos Two Hns). Qed.
  Lemma room_fits : forall n, room sz lc max_size node_size n = true <-> fits n.
  Proof.
    intros n. rewrite room_spec. unfold Hoeffding_Spec.fits, leaf_bytes, total_size_counters. rewrite candidates_length, (bins_cands sz lc Hf Hl Pos Two). lia.
  Qed.
  Lemma reached_size : forall dl t h, reached dl t h -> size_of h < 2 ^ 31.
  Proof.
    intros dl t h R. induction R as [t E|t h new t' R IH Ln E|t h x l t' r R IH Lx Hll E Eq|t h x l t' r R IH Lx Hll E Ne]; [reflexivity|exact IH| |reflexivity].
    pose proof (train_ok O log_ log2_ infinity sz lc max_size node_size Hf Hl Pos Two Hns dl t h x (Z.to_nat l) (reached_good _ _ _ R) Lx ltac:(lia)) as T.
    rewrite Z2Nat.id in T by lia. destruct (Z.ltb_spec (size_of h) 2147483647) as [L|L]; [|congruence].
    unfold size_of in *. rewrite app_length. cbn [length]. change (2 ^ 31) with 2147483648. lia.
  Qed.

  (** ** C46: the leaves share one block of counters, so every point gets the same prediction *)
  Theorem hoeffding_predict_same : forall dl t h x y, reached dl t h -> length x = fcn -> length y = fcn ->
    exists r, predict t x = Ok r /\ predict t y = Ok r.
  Proof.
    intros dl t h x y R Lx Ly. apply reached_good in R.
    destruct (predict_ok O sz lc max_size node_size Hf Hl Pos Two Hns dl t h x R Lx) as [b [rest [Eb [_ Ex]]]].
    destruct (predict_ok O sz lc max_size node_size Hf Hl Pos Two Hns dl t h y R Ly) as [b' [rest' [Eb' [_ Ey]]]].
    rewrite Eb in Eb'. injection Eb' as <- <-. eauto.
  Qed.

  (** ** C79: the leaf of a point *)
  Theorem hoeffding_routing : forall dl t h x, reached dl t h -> length x = fcn ->
    exists j, sort_in_leaf O max_size node_size t x = Ok (Z.of_nat j) /\ route O t x 0 j.
  Proof. intros dl t h x R Lx. apply reached_good in R. exact (sort_route O sz lc max_size node_size Hf Hl Pos Two Hns t x (proj1 R) Lx). Qed.

  (** ** C72: the counters are the histogram of the points since the last split *)
  Theorem hoeffding_histogram : forall dl t h, reached dl t h ->
    exists b rest, blocks O t = b :: rest /\ count O b = size_of h /\
      forall l f k, (l < lc)%nat -> (f < fcn)%nat -> (k < size sz f)%nat ->
        nth (start sz f + k) (nth l (counters O b) []) 0 = size_of (binned O sz (labelled O h (Z.of_nat l)) f k).
  Proof.
    intros dl t h R. apply reached_good in R. destruct R as [_ [_ [b [rest [Eb [_ [C [_ H]]]]]]]]. exists b, rest. auto.
  Qed.

  (** ** C47: the feature recovered for a candidate *)
  Lemma recovered_feature : forall k f v, (k < length (candidates sz))%nat -> nth k (candidates sz) (0, 0)%nat = (f, v) -> (recovered sz k = f <-> (f <= v)%nat).
  Proof.
    intros k f v Hk E. rewrite candidates_length in Hk. pose proof (candidate_spec sz k Hk) as C. unfold candidate in C. rewrite E in C. destruct C as [Cf [Cv ->]].
    unfold recovered. destruct (recover_spec sz (fcn - 1) 0 (cut sz f + v)) as [A [B C]]. set (g := recover sz (fcn - 1) 0 (cut sz f + v)) in *.
    pose proof (start_cut sz Pos f ltac:(lia)) as S0. pose proof (start_cut sz Pos (S f) ltac:(lia)) as S1. cbn [cut] in S1. split.
    - intros Eg. destruct f as [|f']; [lia|]. specialize (C f' ltac:(lia)). lia.
    - intros L. destruct (Nat.lt_trichotomy g f) as [G|[G|G]]; [|exact G|].
      + exfalso. pose proof (start_mono sz (S g) f ltac:(lia)). lia.
      + exfalso. specialize (C f ltac:(lia)). lia.
  Qed.
  (** A split uses the limit of some candidate [k]; its feature is right exactly when the number of the limit
      is at least the number of the feature. *)
  Theorem hoeffding_split_feature : forall dl t h x l t' r, reached dl t h -> length x = fcn -> 0 <= l < lz ->
    train t x l = Ok (t', r) -> length (nodes O t') <> length (nodes O t) ->
    exists i n k f v g, nth_error (nodes O t') i = Some n /\ (i < length (nodes O t))%nat /\
      nth_error (candidates sz) k = Some (f, v) /\
      split_value O n = Some (nth v (feature_limits O sz (limits_of O t) f) (nofZ O 0)) /\
      split_feature O n = Z.of_nat g /\ (g < fcn)%nat /\ (g = f <-> (f <= v)%nat).
  Proof.
    intros dl t h x l t' r R Lx Hll E Ne. apply reached_good in R.
    pose proof (train_ok O log_ log2_ infinity sz lc max_size node_size Hf Hl Pos Two Hns dl t h x (Z.to_nat l) R Lx ltac:(lia)) as T.
    rewrite Z2Nat.id in T by lia. destruct (size_of h <? 2147483647); [|congruence].
    destruct T as [i [n [b [rest [cs [Es [En [Lf [Eb [Hb [Ad T]]]]]]]]]]]. unfold train_result in T. unfold decision in T.
    set (k := fst (winners O sz (mean O log2_ sz lc b cs))) in *.
    destruct (splits O log_ log2_ sz lc (delta O t) b cs).
    2:{ exfalso. apply Ne. assert (t' = with_nodes O t (upd (nodes O t) i (grown O sz n x)) (next_block O log2_ sz lc b cs :: rest)) as -> by congruence.
        cbn [nodes with_nodes]. apply upd_length. }
    destruct (room sz lc max_size node_size (2 + length (nodes O t))); [|congruence]. destruct T as [cs' [Ad' T]]. cbv zeta in T.
    set (V := nth k (limits O b) (nofZ O 0)) in *. set (g := recovered sz k) in *. rewrite E in T.
    assert (Hk : (k < cut sz fcn)%nat) by (apply (winners_range O sz Two)).
    destruct (nth_error (candidates sz) k) as [[f v]|] eqn:Ek; [|apply nth_error_None in Ek; rewrite candidates_length in Ek; lia].
    exists i. assert (Hi : (i < length (nodes O t))%nat) by (apply nth_error_Some; congruence).
    exists (inner O (grown O sz n x) g V (length (nodes O t))), k, f, v, g.
    assert (Et' : nodes O t' = upd (upd (nodes O t) i (inner O (grown O sz n x) g V (length (nodes O t))) ++ [right_of O (grown O sz n x) g V; left_of O (grown O sz n x) g V])
          (if nle O (nth g x (nofZ O 0)) V then S (length (nodes O t)) else length (nodes O t))
          (grown O sz (if nle O (nth g x (nofZ O 0)) V then left_of O (grown O sz n x) g V else right_of O (grown O sz n x) g V) x)).
    { match type of T with _ = Ok (?a, _) => assert (t' = a) as -> by congruence end. reflexivity. }
    split. { rewrite Et'. rewrite nth_error_upd_other by (destruct (nle _ _ _); lia). rewrite nth_error_app1 by (rewrite upd_length; lia). now apply nth_error_upd_same. }
    split; [exact Hi|]. split; [exact Ek|]. 
    pose proof (nth_error_nth _ _ (0, 0)%nat Ek) as En0. pose proof (candidate_spec sz k Hk) as C. unfold candidate in C. rewrite En0 in C. destruct C as [Cf [Cv Ck]].
    split.
    - cbn [split_value inner]. f_equal. unfold V, limits_of, feature_limits. rewrite Eb, Ck. symmetry.
      rewrite nth_firstn_lt by lia. rewrite nth_skipn_add. reflexivity.
    - split; [reflexivity|]. split; [apply recovered_range; exact Hf|]. apply recovered_feature; [rewrite candidates_length; exact Hk|exact En0].
  Qed.

  (** ** C49: the outcomes of train *)
  Theorem hoeffding_train_outcomes : forall dl t h x l, reached dl t h -> length x = fcn -> 0 <= l < lz ->
    let n := length (nodes O t) in
    (size_of h = 2147483647 /\ train t x l = Undef SignedOverflow) \/
    size_of h < 2147483647 /\
    ((exists t', train t x l = Ok (t', true) /\ length (nodes O t') = n) \/
     (exists t', train t x l = Ok (t', true) /\ length (nodes O t') = (n + 2)%nat /\ fits (n + 2)) \/
     (train t x l = Undef NullDeref /\ ~ fits (n + 2))).
  Proof.
    intros dl t h x l R Lx Hll n0. pose proof (reached_size _ _ _ R) as Sz. apply reached_good in R.
    pose proof (train_ok O log_ log2_ infinity sz lc max_size node_size Hf Hl Pos Two Hns dl t h x (Z.to_nat l) R Lx ltac:(lia)) as T.
    rewrite Z2Nat.id in T by lia. destruct (Z.ltb_spec (size_of h) 2147483647) as [L|L].
    2:{ left. split; [change (2 ^ 31) with 2147483648 in Sz; lia|exact T]. }
    right. split; [exact L|]. destruct T as [i [n [b [rest [cs [Es [En [Lf [Eb [Hb [Ad T]]]]]]]]]]]. unfold train_result in T.
    destruct (decision O log_ log2_ sz lc (delta O t) b cs) as [[fz v]|].
    - right. fold n0 in T. replace (n0 + 2)%nat with (2 + n0)%nat by lia. pose proof (room_fits (2 + n0)) as RF. destruct (room sz lc max_size node_size (2 + n0)).
      + left. destruct T as [cs' [_ T]]. cbv zeta in T. eexists. split; [exact T|]. split; [|now apply RF]. cbn [nodes with_nodes]. rewrite upd_length, app_length, upd_length. cbn [length]. fold n0. lia.
      + right. split; [exact T|]. intros F. apply RF in F. discriminate.
    - left. eexists. split; [exact T|]. cbn [nodes with_nodes]. apply upd_length.
  Qed.

  (** ** C73: set_limits works until the first split *)
  Theorem hoeffding_set_limits : forall dl t h new, reached dl t h -> length new = length (candidates sz) ->
    exists root, nth_error (nodes O t) 0 = Some root /\
      if is_leaf O root then exists t', set_limits t new = Ok t' /\ limits_of O t' = new /\ nodes O t' = nodes O t
      else set_limits t new = Undef OutOfBounds.
  Proof.
    intros dl t h new R Ln. rewrite candidates_length in Ln. apply reached_good in R.
    destruct (set_limits_ok O sz lc max_size node_size Hf Hl Pos Two dl t h new R Ln) as [n [b [rest [En [Eb [_ Q]]]]]]. exists n. split; [exact En|].
    destruct (is_leaf O n); [|exact Q]. eexists. split; [exact Q|]. split; reflexivity.
  Qed.
  Theorem hoeffding_new : forall dl, (fits 1 -> exists t, tree_init dl (map Z.of_nat sz) = Ok t /\ length (nodes O t) = 1%nat) /\
    (~ fits 1 -> tree_init dl (map Z.of_nat sz) = Undef NullDeref).
  Proof.
    intros dl. rewrite (init_ok O infinity sz lc max_size node_size Hf Hl Pos Two Hns). pose proof (room_fits 1) as RF. destruct (room sz lc max_size node_size 1).
    - split; [|intros N; exfalso; apply N, RF; reflexivity]. intros _. eexists. split; reflexivity.
    - split; [intros F; apply RF in F; discriminate|reflexivity].
  Qed.
End Any.

Section Double.
  Variable log_ log2_ : dbl -> dbl.
  Variable sz : list nat.
  Variable lc : nat.
  Variable max_size node_size : Z.
  Local Notation fcn := (length sz).
  Local Notation fc := (Z.of_nat (length sz)).
  Local Notation lz := (Z.of_nat lc).
  Hypothesis Hf : (1 <= fcn)%nat.
  Hypothesis Hl : (1 <= lc)%nat.
  Hypothesis Pos : forall f, (f < fcn)%nat -> (1 <= size sz f)%nat.
  Hypothesis Two : (2 <= cut sz fcn)%nat.
  Hypothesis Hns : 0 < node_size.
  Local Notation reached := (reached dops sz log_ log2_ dinf lz max_size node_size).
  Local Notation train := (train dops log_ log2_ dinf fc lz max_size node_size).
  Local Notation predict := (predict dops lz max_size node_size).
  Local Notation fits := (fits sz lc max_size node_size).
  Local Notation good := (reached_good dops log_ log2_ dinf sz lc max_size node_size Hf Hl Pos Two Hns).

  (** ** C74: the scores are the frequencies of the labels since the last split *)
  Theorem hoeffding_predict_frequencies : forall dl t h x, reached dl t h -> length x = fcn ->
    let freq l := size_of (labelled dops h (Z.of_nat l)) in
    exists l, predict t x = Ok (Z.of_nat l, map (fun l => ddiv (dofZ (freq l)) (dofZ (size_of h))) (seq 0 lc)) /\
      (l < lc)%nat /\ (forall j, (j < lc)%nat -> freq j <= freq l) /\ (forall j, (j < l)%nat -> freq j < freq l).
  Proof.
    intros dl t h x R Lx freq. pose proof (reached_size dops log_ log2_ dinf sz lc max_size node_size Hf Hl Pos Two Hns dl t h R) as Sz. apply good in R.
    destruct (predict_ok dops sz lc max_size node_size Hf Hl Pos Two Hns dl t h x R Lx) as [b [rest [Eb [Hb Ex]]]].
    assert (Ez : exactZ dops (2 ^ 31)) by (apply exactZ_le with (2 ^ 53); [lia|apply dops_exact]).
    rewrite (scores_exact dops sz lc Hf Pos (2 ^ 31) Ez b h Hb ltac:(lia)) in Ex.
    set (p := map (fun l => ndiv dops (nofZ dops (size_of (labelled dops h (Z.of_nat l)))) (nofZ dops (size_of h))) (seq 0 lc)) in *.
    exists (arg_max dops p (lc - 1)). split; [exact Ex|].
    assert (At : forall i, (i < lc)%nat -> nth i p (nofZ dops 0) = ndiv dops (nofZ dops (freq i)) (nofZ dops (size_of h))).
    { intros i Hi. apply nth_error_nth. unfold p. now rewrite nth_error_map_seq. }
    assert (Lt : forall i j, (i <= lc - 1)%nat -> (j <= lc - 1)%nat -> nlt dops (nth i p (nofZ dops 0)) (nth j p (nofZ dops 0)) = (freq i <? freq j)).
    { intros i j Hi Hj. rewrite !At by lia. destruct h as [|q h].
      - unfold freq, labelled. cbn [filter]. reflexivity.
      - apply shares_dops; [| |unfold size_of in *; cbn [length] in *; lia]; unfold freq, labelled; (split; [apply size_of_nonneg|apply size_filter_le]). }
    destruct (arg_max_first dops freq p (lc - 1) Lt (lc - 1) ltac:(lia)) as [A C]. pose proof (arg_max_le dops p (lc - 1)).
    split; [lia|]. split; [|exact C]. intros j Hj. apply A. lia.
  Qed.

  Section Bounded.
  Hypothesis Hms : max_size < 2 ^ 31.
  Local Notation once := (reached_once log_ log2_ sz lc max_size node_size Hf Hl Pos Two Hns Hms).

  (** ** C75: the tree is split at most once *)
  Theorem hoeffding_one_split : forall dl t h, reached dl t h -> length (nodes dops t) = 1%nat \/ length (nodes dops t) = 3%nat.
  Proof. intros dl t h R. destruct (once dl t h R) as [_ [[n [-> _]]|[-> _]]]; auto. Qed.

  (** ** C48: the boxes stay infinite and the limits of new leaves are not numbers *)
  Theorem hoeffding_boxes : forall dl t h, reached dl t h ->
    exists root, nth_error (nodes dops t) 0 = Some root /\
      l_box dops root = repeat dninf fcn /\ u_box dops root = repeat dinf fcn /\
      (is_leaf dops root = false -> length (nodes dops t) = 3%nat /\ Forall (fun v => v = dnan) (limits_of dops t)).
  Proof.
    intros dl t h R. destruct (once dl t h R) as [_ [[n [E [[B1 B2] L]]]|[E3 [[n [E [[B1 B2] L]]] [b [rest [Eb [Bl _]]]]]]]].
    - exists n. rewrite E. split; [reflexivity|]. split; [exact B1|]. split; [exact B2|]. unfold is_leaf. rewrite L. discriminate.
    - exists n. split; [exact E|]. split; [exact B1|]. split; [exact B2|]. intros _. split; [exact E3|]. unfold limits_of. rewrite Eb. exact Bl.
  Qed.

  (** The boxes of the two leaves are the half spaces of the split. *)
  Theorem hoeffding_half_spaces : forall dl t h, reached dl t h -> length (nodes dops t) = 3%nat ->
    exists root right left g v, nodes dops t = [root; right; left] /\
      split_feature dops root = Z.of_nat g /\ (g < fcn)%nat /\ split_value dops root = Some v /\
      child_left dops root = 2 /\ child_right dops root = 1 /\ is_leaf dops left = true /\ is_leaf dops right = true /\
      l_box dops left = repeat dninf fcn /\ u_box dops left = upd (repeat dinf fcn) g v /\
      l_box dops right = upd (repeat dninf fcn) g v /\ u_box dops right = repeat dinf fcn.
  Proof.
    intros dl t h R L3. destruct (reached_halves log_ log2_ sz lc max_size node_size Hf Hl Pos Two Hns Hms dl t h R) as [L|[root [nl [nr [g [v [A [B [C [D [E [F [[G1 [G2 G3]] [H1 [H2 H3]]]]]]]]]]]]]]]; [lia|].
    exists root, nr, nl, g, v. unfold is_leaf. rewrite G1, H1. repeat (split; [assumption || reflexivity|]). exact H3.
  Qed.

  (** ** C49: with room for three nodes nothing goes wrong *)
  Theorem hoeffding_train_safe : forall dl t h x l, reached dl t h -> length x = fcn -> 0 <= l < lz -> size_of h < 2147483647 -> fits 3 ->
    exists t', train t x l = Ok (t', true).
  Proof.
    intros dl t h x l R Lx Hll Sz F. pose proof (once dl t h R) as On.
    destruct (hoeffding_train_outcomes dops log_ log2_ dinf sz lc max_size node_size Hf Hl Pos Two Hns dl t h x l R Lx Hll) as [[A _]|[_ [[t' [A _]]|[[t' [A _]]|[A N]]]]]; [lia|eauto|eauto|].
    exfalso. destruct On as [Rm [[n [E _]]|[E3 [_ [b [rest [Eb [Bl [Nu Bp]]]]]]]]].
    - apply N. rewrite E. exact F.
    - pose proof (train_ok dops log_ log2_ dinf sz lc max_size node_size Hf Hl Pos Two Hns dl t h x (Z.to_nat l) Rm Lx ltac:(lia)) as T.
      rewrite Z2Nat.id in T by lia. rewrite (proj2 (Z.ltb_lt _ _) Sz) in T. destruct T as [i [n [b' [rest' [cs [Es [En [Lf [Eb' [Hb [Ad T]]]]]]]]]]]. rewrite Eb in Eb'. injection Eb' as <- <-.
      unfold train_result in T. rewrite (settled_waits log_ log2_ sz lc Hf Hl Pos Two (delta dops t) b h x (Z.to_nat l) cs) in T; auto; try lia; try congruence.
      unfold size_of in *. lia.
  Qed.
  End Bounded.
End Double.

Section Real.
  (** Exact arithmetic, with the true base 2 logarithm; [log_] is any function and [infinity] any number. *)
  Variable log_ : R -> R.
  Variable infinity : R.
  Variable sz : list nat.
  Variable lc : nat.
  Variable max_size node_size : Z.
  Local Notation fcn := (length sz).
  Local Notation fc := (Z.of_nat (length sz)).
  Local Notation lz := (Z.of_nat lc).
  Hypothesis Hf : (1 <= fcn)%nat.
  Hypothesis Hl : (1 <= lc)%nat.
  Hypothesis Pos : forall f, (f < fcn)%nat -> (1 <= size sz f)%nat.
  Hypothesis Two : (2 <= cut sz fcn)%nat.
  Hypothesis Hns : 0 < node_size.
  Local Notation reached := (reached rops sz log_ log2 infinity lz max_size node_size).
  Local Notation train := (train rops log_ log2 infinity fc lz max_size node_size).
  Local Notation fits := (fits sz lc max_size node_size).

  (** ** C76: the sums of information gains *)
  Theorem hoeffding_gain_sums : forall dl t h, reached dl t h ->
    exists b rest, blocks rops t = b :: rest /\
      forall k fv, nth_error (candidates sz) k = Some fv ->
        nth k (info_sum rops b) 0%R = rsum_n (fun j => information_gain sz lc (firstn (S j) h) fv) (length h).
  Proof.
    intros dl t h R. apply (reached_tracks log_ infinity sz lc max_size node_size Hf Hl Pos Two Hns) in R. destruct R as [_ [b [rest [Eb S]]]]. exists b, rest. split; [exact Eb|].
    intros k fv Ek. assert (Hk : (k < length (candidates sz))%nat) by (apply nth_error_Some; congruence). rewrite candidates_length in Hk.
    rewrite (S k Hk). unfold candidate. now rewrite (nth_error_nth _ _ _ Ek).
  Qed.

  (** ** C77: when a leaf is split *)
  Theorem hoeffding_split_rule : forall dl t h x l, reached dl t h -> length x = fcn -> 0 <= l < lz -> size_of h < 2147483647 ->
    let h' := h ++ [mkPoint rops x l (limits_of rops t)] in
    let n := length (nodes rops t) in
    (~ split_due sz lc log_ dl h' -> exists t', train t x l = Ok (t', true) /\ length (nodes rops t') = n) /\
    (split_due sz lc log_ dl h' -> fits (n + 2) -> exists t' i m k, train t x l = Ok (t', true) /\ length (nodes rops t') = (n + 2)%nat /\
       nth_error (nodes rops t') i = Some m /\ split_value rops m = Some (nth k (limits_of rops t) 0%R) /\
       (k < length (candidates sz))%nat /\ forall j, (j < length (candidates sz))%nat -> (gain_at sz lc h' j <= gain_at sz lc h' k)%R) /\
    (split_due sz lc log_ dl h' -> ~ fits (n + 2) -> train t x l = Undef NullDeref).
  Proof.
    intros dl t h x l R Lx Hll Sz h' n0. pose proof (reached_tracks log_ infinity sz lc max_size node_size Hf Hl Pos Two Hns dl t h R) as [Rm [b0 [rest0 [Eb0 Sm]]]].
    pose proof (train_ok rops log_ log2 infinity sz lc max_size node_size Hf Hl Pos Two Hns dl t h x (Z.to_nat l) Rm Lx ltac:(lia)) as T.
    rewrite Z2Nat.id in T by lia. rewrite (proj2 (Z.ltb_lt _ _) Sz) in T. destruct T as [i [n [b [rest [cs [Es [En [Lf [Eb [Hb [Ad T]]]]]]]]]]].
    rewrite Eb in Eb0. injection Eb0 as <- <-.
    destruct (decision_due log_ sz lc Hf Hl Pos Two dl b h x (Z.to_nat l) cs Hb Sm ltac:(lia) Ad) as [Du Mn]. rewrite Z2Nat.id in Du, Mn by lia.
    assert (Eh : h ++ [mkPoint rops x l (limits rops b)] = h') by (unfold h', limits_of; now rewrite Eb). rewrite Eh in *.
    assert (Dl : delta rops t = dl) by apply Rm.
    unfold train_result, decision in T. rewrite Dl in T. set (k := fst (winners rops sz (mean rops log2 sz lc b cs))) in *. fold n0 in T.
    replace (n0 + 2)%nat with (2 + n0)%nat by lia. pose proof (room_fits sz lc max_size node_size Hf Hl Pos Two (2 + n0)) as RF.
    destruct (splits rops log_ log2 sz lc dl b cs).
    - split; [intros N; exfalso; apply N, Du; reflexivity|]. destruct (room sz lc max_size node_size (2 + n0)).
      + split; [|intros _ N; exfalso; apply N, RF; reflexivity]. intros _ _. destruct T as [cs' [_ T]]. cbv zeta in T.
        set (g := recovered sz k) in *. set (V := nth k (limits rops b) (nofZ rops 0)) in *.
        eexists. exists i, (inner rops (grown rops sz n x) g V n0), k. split; [exact T|].
        assert (Hi : (i < n0)%nat) by (apply nth_error_Some; congruence).
        assert (Hk : (k < cut sz fcn)%nat) by (apply (winners_range rops sz Two)).
        split; [cbn [nodes with_nodes]; rewrite upd_length, app_length, upd_length; cbn [length]; fold n0; lia|].
        split. { cbn [nodes with_nodes]. rewrite nth_error_upd_other by (destruct (nle _ _ _); lia). rewrite nth_error_app1 by (rewrite upd_length; exact Hi). now apply nth_error_upd_same. }
        split; [unfold limits_of; rewrite Eb; reflexivity|]. rewrite candidates_length. split; [exact Hk|].
        intros j Hj. rewrite <- (Mn j Hj), <- (Mn k Hk). pose proof (best_two_R (mean rops log2 sz lc b cs) (cut sz fcn - 2)) as BT.
        replace (2 + (cut sz fcn - 2))%nat with (cut sz fcn) in BT by lia. destruct BT as [_ [_ [_ [BT _]]]]. apply BT. exact Hj.
      + split; [intros _ F; apply RF in F; discriminate|]. intros _ _. exact T.
    - split; [|split; intros S; exfalso; apply Du in S; discriminate]. intros _. eexists. split; [exact T|]. cbn [nodes with_nodes]. apply upd_length.
  Qed.
End Real.

(** ** Concrete trees: two features with one limit each, two labels *)
Section Runs.
  Variable log_ log2_ : dbl -> dbl.
  Variable sz : list nat.
  Variable lc max_size node_size : Z.
  Inductive call : Type := Limits (new : list dbl) | Train (x : list dbl) (l : Z).
  Definition start_tree (dl : dbl) : res (tree dops * list (point dops)) :=
    do t <- tree_init dops dinf (Z.of_nat (length sz)) lc max_size node_size dl (map Z.of_nat sz); Ok (t, []).
  Definition step (s : tree dops * list (point dops)) (c : call) : res (tree dops * list (point dops)) :=
    let (t, h) := s in
    match c with
    | Limits new => do t' <- set_limits dops (Z.of_nat (length sz)) t new; Ok (t', h)
    | Train x l =>
        do (t', _) <- train dops log_ log2_ dinf (Z.of_nat (length sz)) lc max_size node_size t x l;
        let p := mkPoint dops x l (limits_of dops t') in
        Ok (t', if Nat.eqb (length (nodes dops t')) (length (nodes dops t)) then h ++ [p] else [p])
    end.
  Fixpoint run (s : tree dops * list (point dops)) (cs : list call) : res (tree dops * list (point dops)) :=
    match cs with [] => Ok s | c :: cs => do s <- step s c; run s cs end.
  Definition proper (t : tree dops) (c : call) : bool :=
    match c with
    | Limits new => Nat.eqb (length new) (Z.to_nat (sum_feature_size dops t - Z.of_nat (length sz)))
    | Train x l => Nat.eqb (length x) (length sz) && (0 <=? l) && (l <? lc)
    end.
  Fixpoint all_proper (s : tree dops * list (point dops)) (cs : list call) : bool :=
    match cs with [] => true | c :: cs => proper (fst s) c && match step s c with Ok s => all_proper s cs | _ => true end end.
  Local Notation reached := (reached dops sz log_ log2_ dinf lc max_size node_size).
  Lemma run_reached : forall dl cs t h t' h', reached dl t h -> all_proper (t, h) cs = true -> run (t, h) cs = Ok (t', h') -> reached dl t' h'.
  Proof.
    intros dl. induction cs as [|c cs IH]; intros t h t' h' R P E; cbn [run all_proper] in *; [congruence|].
    apply andb_true_iff in P. destruct P as [P1 P2]. destruct (bind_inv _ _ _ _ _ E) as [[t1 h1] [E1 E2]]. rewrite E1 in P2.
    apply (IH t1 h1 t' h'); [|exact P2|exact E2]. clear IH E E2 P2. cbn [step fst] in *. destruct c as [new|x l]; cbn [proper] in P1.
    - apply Nat.eqb_eq in P1. destruct (bind_inv _ _ _ _ _ E1) as [t2 [E3 E4]]. assert (t2 = t1 /\ h = h1) as [-> ->] by (split; congruence). now apply (reached_limits dops sz log_ log2_ dinf lc max_size node_size dl t h1 new).
    - apply andb_true_iff in P1. destruct P1 as [P1 P3]. apply andb_true_iff in P1. destruct P1 as [P1 P2]. apply Nat.eqb_eq in P1. apply Z.leb_le in P2. apply Z.ltb_lt in P3.
      destruct (bind_inv _ _ _ _ _ E1) as [[t2 b] [E3 E4]]. cbv zeta beta iota in E4.
      assert (t2 = t1) as -> by congruence. destruct (Nat.eqb_spec (length (nodes dops t1)) (length (nodes dops t))) as [Q|Q];
        match type of E4 with Ok (_, ?a) = _ => assert (h1 = a) as -> by congruence end.
      + exact (reached_train dops sz log_ log2_ dinf lc max_size node_size dl t h x l t1 b R P1 (conj P2 P3) E3 Q).
      + exact (reached_split dops sz log_ log2_ dinf lc max_size node_size dl t h x l t1 b R P1 (conj P2 P3) E3 Q).
  Qed.
  Lemma start_reached : forall dl t h, start_tree dl = Ok (t, h) -> reached dl t h.
  Proof.
    intros dl t h E. unfold start_tree in E. destruct (bind_inv _ _ _ _ _ E) as [t1 [E1 E2]]. assert (t1 = t /\ h = []) as [-> ->] by (split; congruence). now apply reached_new.
  Qed.
  (** A run from a new tree that ends in a tree satisfying a check. *)
  Definition runs_to (dl : dbl) (cs : list call) (ok : tree dops -> list (point dops) -> bool) : bool :=
    match start_tree dl with
    | Ok s => all_proper s cs && match run s cs with Ok (t, h) => ok t h | _ => false end
    | _ => false
    end.
  Lemma runs_to_reached : forall dl cs ok, runs_to dl cs ok = true -> exists t h, reached dl t h /\ ok t h = true.
  Proof.
    intros dl cs ok H. unfold runs_to in H. destruct (start_tree dl) as [[t0 h0]|u| |] eqn:E0; try discriminate. apply andb_true_iff in H. destruct H as [P H].
    destruct (run (t0, h0) cs) as [[t h]|u| |] eqn:E; try discriminate. exists t, h. split; [|exact H]. apply (run_reached dl cs t0 h0); auto. now apply start_reached.
  Qed.
End Runs.

(** Base 2 logarithm on 1 and 1/2, the only values it is applied to in the refutations, and logarithm on 1. *)
Definition log2_w (x : dbl) : dbl := if deq x done then dzero else if deq x dhalf then dopp done else dnan.
Definition log_w (x : dbl) : dbl := if deq x done then dzero else dnan.
Definition sz_w : list nat := [2; 2]%nat.
Local Notation z := dofZ.
Definition limits_w : call := Limits [z 10; z 0].
Definition first_w : call := Train [z 1; z (-1)] 0.
Definition second_w : call := Train [z 1; z 1] 1.
Local Notation train_w := (train dops log_w log2_w dinf 2 2 1000 100).
Local Notation reached_w := (reached dops sz_w log_w log2_w dinf 2 1000 100 done).
Local Notation predict_w := (predict dops 2 1000 100).
Local Notation runs_w := (runs_to log_w log2_w sz_w 2 1000 100 done).

Definition leaf_of (t : tree dops) (x : list dbl) : Z := match sort_in_leaf dops 1000 100 t x with Ok i => i | _ => -1 end.
Definition label_of (t : tree dops) (x : list dbl) : Z := match predict_w t x with Ok (l, _) => l | _ => -1 end.

(** Two points fall in different leaves; training one changes the prediction of the other. *)
Theorem hoeffding_leaves_separate_refuted : exists t h t' x y,
  reached_w t h /\ train_w t x 0 = Ok (t', true) /\
  leaf_of t x <> leaf_of t y /\ leaf_of t' x = leaf_of t x /\ leaf_of t' y = leaf_of t y /\
  label_of t y = 1 /\ label_of t' y = 0.
Proof.
  set (ck := fun t (_ : list (point dops)) => match train_w t [z 20; z 0] 0 with
    | Ok (t', r) => r && negb (leaf_of t [z 20; z 0] =? leaf_of t [z (-20); z 0]) && (leaf_of t' [z 20; z 0] =? leaf_of t [z 20; z 0])
        && (leaf_of t' [z (-20); z 0] =? leaf_of t [z (-20); z 0]) && (label_of t [z (-20); z 0] =? 1) && (label_of t' [z (-20); z 0] =? 0)
    | _ => false end).
  assert (G : runs_w [limits_w; first_w; second_w] ck = true) by (vm_compute; reflexivity).
  apply runs_to_reached in G. destruct G as [t [h [R G]]]. unfold ck in G. clear ck. destruct (train_w t [z 20; z 0] 0) as [[t' r]|u| |] eqn:E; try discriminate.
  repeat (apply andb_true_iff in G; destruct G as [G ?]). subst r.
  repeat match goal with X : (_ =? _) = true |- _ => apply Z.eqb_eq in X end. match goal with X : negb _ = true |- _ => apply negb_true_iff, Z.eqb_neq in X end.
  exists t, h, t', [z 20; z 0], [z (-20); z 0]. repeat split; assumption.
Qed.

(** The limit 0 is a limit of feature 1 and the only limit of feature 0 is 10; the split is on feature 0 at 0. *)
Theorem hoeffding_split_feature_refuted : exists t h t' x l root v,
  reached_w t h /\ train_w t x l = Ok (t', true) /\ nth_error (nodes dops t') 0 = Some root /\
  split_feature dops root = 0 /\ split_value dops root = Some v /\
  existsb (deq v) (feature_limits dops sz_w (limits_of dops t) 0) = false /\
  existsb (deq v) (feature_limits dops sz_w (limits_of dops t) 1) = true.
Proof.
  set (ck := fun t (_ : list (point dops)) => match train_w t [z 1; z 1] 1 with
    | Ok (t', r) => r && match nth_error (nodes dops t') 0 with
        | Some n => (split_feature dops n =? 0) && match split_value dops n with
           | Some v => negb (existsb (deq v) (feature_limits dops sz_w (limits_of dops t) 0)) && existsb (deq v) (feature_limits dops sz_w (limits_of dops t) 1)
           | None => false end
        | None => false end
    | _ => false end).
  assert (G : runs_w [limits_w; first_w] ck = true) by (vm_compute; reflexivity).
  apply runs_to_reached in G. destruct G as [t [h [R G]]]. unfold ck in G. clear ck. destruct (train_w t [z 1; z 1] 1) as [[t' r]|u| |] eqn:E; try discriminate.
  apply andb_true_iff in G. destruct G as [-> G]. destruct (nth_error (nodes dops t') 0) as [n|] eqn:En; [|discriminate].
  apply andb_true_iff in G. destruct G as [G1 G]. destruct (split_value dops n) as [v|] eqn:Ev; [|discriminate]. apply andb_true_iff in G. destruct G as [G2 G3].
  exists t, h, t', [z 1; z 1], 1, n, v. apply Z.eqb_eq in G1. apply negb_true_iff in G2. repeat split; assumption.
Qed.

(** The only trained points have feature 0 equal to 1, the box of the leaf is unbounded, and after the split no limit is finite. *)
Theorem hoeffding_boxes_refuted : exists t h root b,
  reached_w t h /\ nodes dops t = [root] /\ (exists p, h = [p] /\ features dops p = [z 1; z (-1)]) /\
  nth_error (u_box dops root) 0 = Some b /\ is_finite b = false /\
  exists t' h', reached_w t' h' /\ forallb (fun v => negb (is_finite v)) (limits_of dops t') = true /\ length (limits_of dops t') = 2%nat.
Proof.
  assert (G : runs_w [limits_w; first_w] (fun t h => match nodes dops t, h with [root], [p] =>
      match features dops p with [a; b] => true | _ => false end && match nth_error (u_box dops root) 0 with Some b => negb (is_finite b) | None => false end | _, _ => false end) = true) by (vm_compute; reflexivity).
  assert (G2 : runs_w [limits_w; first_w; second_w] (fun t h => forallb (fun v => negb (is_finite v)) (limits_of dops t) && Nat.eqb (length (limits_of dops t)) 2) = true) by (vm_compute; reflexivity).
  apply runs_to_reached in G2. destruct G2 as [t' [h' [R2 G2]]].
  revert G. unfold runs_to. destruct (start_tree sz_w 2 1000 100 done) as [[t0 h0]|u| |] eqn:E0; try discriminate. intros G. apply andb_true_iff in G. destruct G as [P G].
  destruct (run log_w log2_w sz_w 2 1000 100 (t0, h0) [limits_w; first_w]) as [[t h]|u| |] eqn:E; try discriminate.
  assert (R : reached_w t h) by (apply (run_reached _ _ _ _ _ _ _ [limits_w; first_w] t0 h0); auto; now apply start_reached).
  assert (Hh : h = [mkPoint dops [z 1; z (-1)] 0 (limits_of dops t)]).
  { cbn [run] in E. destruct (bind_inv _ _ _ _ _ E) as [[t1 h1] [E1 E2]]. destruct (bind_inv _ _ _ _ _ E2) as [[t2 h2] [E3 E4]]. clear E E2.
    assert (h0 = []) by (unfold start_tree in E0; destruct (bind_inv _ _ _ _ _ E0) as [? [? ?]]; congruence). subst h0.
    cbn [step limits_w] in E1. destruct (bind_inv _ _ _ _ _ E1) as [t3 [E5 E6]]. assert (h1 = []) by congruence. subst h1.
    cbn [step first_w] in E3. destruct (bind_inv _ _ _ _ _ E3) as [[t4 r] [E7 E8]]. cbv zeta in E8. assert (t4 = t2) by congruence. subst t4.
    assert (t2 = t) by congruence. subst t2. assert (h2 = h) by congruence. subst h2.
    destruct (Nat.eqb (length (nodes dops t)) (length (nodes dops t1))); cbn [app] in E8; congruence. }
  destruct (nodes dops t) as [|root [|? ?]] eqn:En; try discriminate. rewrite Hh in G. cbn [features] in G. cbn [andb] in G.
  destruct (nth_error (u_box dops root) 0) as [b|] eqn:Eb; [|discriminate]. apply negb_true_iff in G.
  exists t, h, root, b. split; [exact R|]. split; [exact En|]. split; [eexists; split; [exact Hh|reflexivity]|]. split; [exact Eb|]. split; [exact G|].
  exists t', h'. apply andb_true_iff in G2. destruct G2 as [G2 G3]. apply Nat.eqb_eq in G3. auto.
Qed.

(** A buffer with room for one node: the split writes through a null pointer. *)
Theorem hoeffding_full_buffer_refuted : exists t h x l,
  reached dops sz_w log_w log2_w dinf 2 200 100 done t h /\ length x = 2%nat /\ 0 <= l < 2 /\
  train dops log_w log2_w dinf 2 2 200 100 t x l = Undef NullDeref.
Proof.
  assert (G : runs_to log_w log2_w sz_w 2 200 100 done [limits_w; first_w] (fun t _ => match train dops log_w log2_w dinf 2 2 200 100 t [z 1; z 1] 1 with Undef NullDeref => true | _ => false end) = true) by (vm_compute; reflexivity).
  apply runs_to_reached in G. destruct G as [t [h [R G]]]. destruct (train dops log_w log2_w dinf 2 2 200 100 t [z 1; z 1] 1) as [[t' r]|[]| |] eqn:E; try discriminate.
  exists t, h, [z 1; z 1], 1. repeat split; try assumption; lia.
Qed.

(** ** C78: with a single candidate, train reads past the gains *)
Theorem hoeffding_single_candidate_refuted : exists t h x l,
  reached dops [2]%nat log_w log2_w dinf 2 1000 100 done t h /\ length x = 1%nat /\ 0 <= l < 2 /\
  train dops log_w log2_w dinf 1 2 1000 100 t x l = Undef OutOfBounds.
Proof.
  assert (G : runs_to log_w log2_w [2]%nat 2 1000 100 done [] (fun t _ => match train dops log_w log2_w dinf 1 2 1000 100 t [z 1] 1 with Undef OutOfBounds => true | _ => false end) = true) by (vm_compute; reflexivity).
  apply runs_to_reached in G. destruct G as [t [h [R G]]]. destruct (train dops log_w log2_w dinf 1 2 1000 100 t [z 1] 1) as [[t' r]|[]| |] eqn:E; try discriminate.
  exists t, h, [z 1], 1. repeat split; try assumption; lia.
Qed.

(** ** Examples *)

(** A split: three nodes, only the last point is counted, and set_limits is now out of bounds. *)
Example hoeffding_split_example : runs_w [limits_w; first_w; second_w] (fun t h =>
  Nat.eqb (length (nodes dops t)) 3 && Nat.eqb (length h) 1 && (label_of t [z 0; z 0] =? 1) && (label_of t [z 50; z 3] =? 1) &&
  match blocks dops t with b :: _ => (count dops b =? 1) && (nth 1 (nth 1 (counters dops b) []) 0 =? 1) && (nth 3 (nth 1 (counters dops b) []) 0 =? 1) | [] => false end &&
  match set_limits dops 2 t [z 1; z 2] with Undef OutOfBounds => true | _ => false end) = true.
Proof. vm_compute. reflexivity. Qed.
(** The split is on feature 0 at 0: the value 0 goes left (node 2), 1/2 goes right (node 1). *)
Example hoeffding_routing_example : runs_w [limits_w; first_w; second_w] (fun t h =>
  (leaf_of t [z 0; z 7] =? 2) && (leaf_of t [dhalf; z (-7)] =? 1) &&
  match nodes dops t with [root; r; l] => deq (nth 0 (u_box dops l) dnan) dzero && deq (nth 0 (l_box dops r) dnan) dzero && deq (nth 1 (u_box dops l) dnan) dinf | _ => false end) = true.
Proof. vm_compute. reflexivity. Qed.
(** Before it: the counters of two bins, and the most frequent label with its frequency. *)
Example hoeffding_counts_example : runs_w [limits_w; first_w; Train [z 11; z 5] 0] (fun t h =>
  Nat.eqb (length (nodes dops t)) 1 && Nat.eqb (length h) 2 &&
  match blocks dops t with b :: _ => (count dops b =? 2) && forallb (fun k => nth k (nth 0 (counters dops b) []) 0 =? 1) (seq 0 4) | [] => false end &&
  match predict_w t [z 0; z 0] with Ok (0, [a; b]) => deq a done && deq b dzero | _ => false end &&
  match set_limits dops 2 t [z 1; z 2] with Ok t => forallb (fun v => is_finite v) (limits_of dops t) | _ => false end) = true.
Proof. vm_compute. reflexivity. Qed.
(** Further points of other labels cause no second split. *)
Example hoeffding_no_second_split_example : runs_w [limits_w; first_w; second_w; first_w; second_w; first_w] (fun t h =>
  Nat.eqb (length (nodes dops t)) 3 && Nat.eqb (length h) 4 && forallb (fun v => negb (deq v v)) (limits_of dops t)) = true.
Proof. vm_compute. reflexivity. Qed.
(** Sizes 3, 2 with candidates (0,0) (0,1) (1,0): the last one is at place 2 and taken for feature 0. *)
Example hoeffding_candidates_example : candidates [3; 2]%nat = [(0, 0); (0, 1); (1, 0)]%nat /\ recovered [3; 2]%nat 2 = 0%nat /\ recovered [3; 4]%nat 3 = 1%nat /\ nth 3 (candidates [3; 4]%nat) (9, 9)%nat = (1, 1)%nat.
Proof. repeat split. Qed.
Example hoeffding_fits_example : fits sz_w 2 1000 100 3 /\ ~ fits sz_w 2 200 100 3 /\ fits sz_w 2 200 100 1 /\ ~ fits sz_w 2 167 100 1.
Proof. unfold fits. repeat split; vm_compute; congruence. Qed.

(** Over the reals: two points that limit 0 of feature 1 separates by label, and limit 10 of feature 0 does not. *)
Definition real_w : list (point rops) := [mkPoint rops [1; -1]%R 0 [10; 0]%R; mkPoint rops [1; 1]%R 1 [10; 0]%R].
Example hoeffding_gain_example : information_gain sz_w 2 real_w (1, 0)%nat = 1%R /\ information_gain sz_w 2 real_w (0, 0)%nat = 0%R.
Proof.
  assert (L1 : log2 1 = 0%R) by (unfold log2; rewrite ln_1; lra).
  assert (Lh : log2 (1 / 2) = (-1)%R) by (unfold log2; unfold Rdiv at 2; rewrite Rmult_1_l, ln_Rinv by lra; field; pose proof ln_lt_2; lra).
  assert (B : bin_of rops sz_w 1 (mkPoint rops [1; -1]%R 0 [10; 0]%R) = 0%nat /\ bin_of rops sz_w 1 (mkPoint rops [1; 1]%R 1 [10; 0]%R) = 1%nat /\
    bin_of rops sz_w 0 (mkPoint rops [1; -1]%R 0 [10; 0]%R) = 0%nat /\ bin_of rops sz_w 0 (mkPoint rops [1; 1]%R 1 [10; 0]%R) = 0%nat).
  { repeat split; unfold bin_of; cbn [features at_limits nth feature_limits sz_w size cut firstn skipn Nat.add Nat.sub bin nlt rops];
      first [rewrite Rlt_bool_true by lra; reflexivity|rewrite Rlt_bool_false by lra; reflexivity]. }
  destruct B as [B1 [B2 [B3 B4]]].
  assert (P1 : part (A := point rops) [] [] = 0%R) by (unfold part, size_of; cbn; lra).
  unfold information_gain, below, above, real_w. cbn [fst snd filter]. rewrite B1, B2, B3, B4. cbn [Nat.leb negb].
  unfold entropy, labelled, part, size_of. cbn [rsum_n filter label length Z.of_nat Z.eqb Pos.eqb Pos.of_succ_nat Pos.succ].
  change (0 =? 0) with true. cbn iota. cbn [length Z.of_nat Pos.of_succ_nat Pos.succ].
  replace (1 / 1)%R with 1%R by lra. replace (2 / 2)%R with 1%R by lra. rewrite ?L1, ?Lh. split; lra.
Qed.

Print Assumptions hoeffding_predict_same.
Print Assumptions hoeffding_routing.
Print Assumptions hoeffding_half_spaces.
Print Assumptions hoeffding_histogram.
Print Assumptions hoeffding_split_feature.
Print Assumptions hoeffding_train_outcomes.
Print Assumptions hoeffding_set_limits.
Print Assumptions hoeffding_new.
Print Assumptions hoeffding_predict_frequencies.
Print Assumptions hoeffding_one_split.
Print Assumptions hoeffding_boxes.
Print Assumptions hoeffding_train_safe.
Print Assumptions hoeffding_gain_sums.
Print Assumptions hoeffding_split_rule.
Print Assumptions hoeffding_leaves_separate_refuted.
Print Assumptions hoeffding_split_feature_refuted.
Print Assumptions hoeffding_boxes_refuted.
Print Assumptions hoeffding_full_buffer_refuted.
Print Assumptions hoeffding_single_candidate_refuted.
