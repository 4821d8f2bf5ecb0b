(** * Properties of the unbounded Mondrian forest (src/mondrian_unbound.hpp) *)
From Coq Require Import ZArith List Bool Lia Reals Lra Permutation.
From Flocq Require Import Core BinarySingleNaN.
From Verif Require Import CppBase CppFacts Dbl DblFacts NumOps Utils_Model Utils_Spec Utils_Proofs MCNN_Num.
From Verif Require Import Mondrian_Model Mondrian_Spec Mondrian_Smooth_Spec Mondrian_Proofs Mondrian_Train Mondrian_Forest Mondrian_Num Mondrian_Predict Mondrian_Smooth_Proofs
  Mondrian_Reach Mondrian_Runs Mondrian_Props.
From Verif Require Import Unbound_Model Unbound_Spec Unbound_Count Unbound_Train Unbound_Forest Unbound_Reach.
Import ListNotations.
Local Open Scope Z_scope.

Lemma count_perm : forall O l (a b : list (point O)), Permutation a b -> count O l a = count O l b.
Proof.
  intros O l a b P. unfold count, with_label. f_equal. apply Permutation_length. induction P as [|p a b P IH|p q a|a b c P1 IH1 P2 IH2]; cbn [filter].
  - constructor.
  - destruct (snd p =? l); [now constructor|exact IH].
  - destruct (snd p =? l), (snd q =? l); try reflexivity. apply perm_swap.
  - now transitivity (filter (fun p => snd p =? l) b).
Qed.
Lemma nodes_bound : forall A (f : A -> list Z) (l : list A) n, (forall a, In a l -> (length (f a) <= n)%nat) -> (length (concat (map f l)) <= length l * n)%nat.
Proof.
  induction l as [|a l IH]; intros n H; cbn; [lia|]. rewrite app_length. specialize (IH n (fun b Hb => H b (or_intror Hb))). pose proof (H a (or_introl eq_refl)). lia.
Qed.

Lemma index_max_some : forall T (gt : T -> T -> bool) (a : list T) n, 1 <= n -> length a = Z.to_nat n -> exists b, index_max gt a n = Ok b /\ 0 <= b < n.
Proof.
  intros T gt a n Hn La. unfold index_max.
  match goal with |- exists b, forZ _ _ ?body _ = _ /\ _ => destruct (forZ_inv _ (fun _ b => 0 <= b < n) body (Z.to_nat n - 1) 1 0) as [b [E1 E2]] end; [lia| |eauto].
  intros i b Hi Hb. destruct (rd_in_bounds _ a i ltac:(lia)) as [v ->]. cbn [bind]. destruct (rd_in_bounds _ a b ltac:(lia)) as [w ->]. cbn [bind].
  eexists. split; [reflexivity|]. destruct (gt v w); lia.
Qed.

(** ** Binary64 *)
Section Binary64.
  Variable exp_ log_ : dbl -> dbl.
  Variable rnd : nat -> dbl.
  Variable tc fc lc : Z.
  Variable lifetime base_measure discount_factor : dbl.
  Hypothesis Sz : usizes tc fc lc.
  Hypothesis Hlife : dle dzero lifetime = true.
  Hypothesis Hdraw : forall k, ddraw (rnd k).
  Local Notation ureached := (ureached dops log_ rnd tc fc lc lifetime dfine).
  Local Notation utrees := (utrees dops tc fc lc lifetime).
  Local Notation input := (input dops fc dfine).
  Local Notation train := (train dops log_ rnd tc fc lc lifetime).
  Local Notation predict := (predict dops exp_ tc fc lc base_measure discount_factor).

  Let L : laws dops dkey not_nan dfine ddraw fc.
  Proof. apply laws_dops. apply Sz. Qed.
  Let reach := ureached_state dops log_ rnd tc fc lc lifetime dkey not_nan dfine ddraw L Hdraw Sz Hlife
    (fun _ => True) (proj1 (no_property dops dfine ddraw)) (proj2 (no_property dops dfine ddraw)).
  Let step := train_stateU dops log_ rnd tc fc lc lifetime dkey not_nan dfine ddraw L Hdraw Sz Hlife
    (fun _ => True) (proj1 (no_property dops dfine ddraw)) (proj2 (no_property dops dfine ddraw)).

  (** *** C55: the trees hold the points, the counters of internal nodes are up to date, each node has one owner *)
  Theorem unbound_trees : forall f h, ureached f h -> h <> [] -> Z.of_nat (length h) <= 9223372036854775807 -> exists ts, utrees f h ts.
  Proof.
    intros f h R Nh Hn. destruct (reach f h R Hn) as [ts [S Lt]]. exists ts. now apply (stateU_utrees dops tc fc lc lifetime (fun _ => True)); auto.
  Qed.
  (** *** C55: the leaves of each tree count every training point once *)
  Theorem unbound_counts : forall f h l, ureached f h -> h <> [] -> Z.of_nat (length h) <= 9223372036854775807 -> 0 <= l < lc ->
    exists ts, utrees f h ts /\ forall t, In t ts -> zsum (map (counter dops f l) (leaf_ids dops t)) = count dops l h.
  Proof.
    intros f h l R Nh Hn Hl. destruct (unbound_trees f h R Nh Hn) as [ts T]. exists ts. split; [exact T|]. intros t It.
    apply In_nth_error in It. destruct It as [i Hi]. destruct T as [_ [T _]]. destruct (T i t Hi) as [_ [T1 [T2 _]]].
    rewrite (tree_counts dops fc lc lifetime t f (-1) (nofZ dops 0) l T1 Hl). now apply count_perm.
  Qed.
  (** *** C89: the memory used *)
  Theorem unbound_memory : forall f h, ureached f h -> h <> [] -> Z.of_nat (length h) <= 9223372036854775807 ->
    exists ts, utrees f h ts /\
      (forall t, In t ts -> (1 <= length (leaf_ids dops t) <= length h)%nat /\ length (ids dops t) = (2 * length (leaf_ids dops t) - 1)%nat) /\
      tc <= Z.of_nat (length (nodes dops f)) <= tc * (2 * Z.of_nat (length h) - 1).
  Proof.
    intros f h R Nh Hn. destruct (unbound_trees f h R Nh Hn) as [ts T]. exists ts. split; [exact T|].
    assert (A : forall t, In t ts -> (1 <= length (leaf_ids dops t) <= length h)%nat /\ length (ids dops t) = (2 * length (leaf_ids dops t) - 1)%nat).
    { intros t It. apply In_nth_error in It. destruct It as [i Hi]. destruct T as [_ [T _]]. destruct (T i t Hi) as [_ [T1 [T2 _]]].
      destruct (tree_size dops t) as [A B]. pose proof (tree_leaves dops fc lc lifetime t f (-1) (nofZ dops 0) ltac:(apply Sz) T1) as C.
      rewrite (Permutation_length T2) in C. auto. }
    split; [exact A|]. destruct T as [Lt [_ P]]. apply Permutation_length in P. unfold addresses in P. rewrite map_length, seq_length in P.
    assert (B : (length (concat (map (ids dops) ts)) <= length ts * (2 * length h - 1))%nat) by (apply nodes_bound; intros t It; destruct (A t It); lia).
    assert (C : (length ts <= length (concat (map (ids dops) ts)))%nat).
    { clear - A. induction ts as [|t ts IH]; cbn; [lia|]. rewrite app_length. destruct (A t (or_introl eq_refl)).
      assert (length ts <= length (concat (map (ids dops) ts)))%nat by (apply IH; intros s Hs; apply A; now right). lia. }
    rewrite P in B, C. destruct h; [congruence|]. cbn [length] in *. nia.
  Qed.
  (** *** C86: the first point is always trained; the failures of later ones are those of the choice of the dimension (refuted below) *)
  Theorem unbound_train_outcome : forall f h x label, ureached f h -> Z.of_nat (length h) < 9223372036854775807 -> input x -> 0 <= label < lc ->
    (exists f', train f x label = Ok (f', None)) \/ (h <> [] /\ exists e, train f x label = Undef e).
  Proof.
    intros f h x label R Hn Hx Hl. destruct (reach f h R ltac:(lia)) as [ts [S Lt]].
    destruct (step f h ts x label S (ureached_fine dops log_ rnd tc fc lc lifetime dfine f h R) Hn Hx Hl) as [[E [N _]]|[f' [ts' [E _]]]]; eauto.
  Qed.
  (** *** C88: predictions never fail and leave the scores untouched *)
  Theorem unbound_predict_total : forall f h x sc, ureached f h -> Z.of_nat (length h) <= 9223372036854775807 -> Z.of_nat (length x) = fc ->
    exists b, predict f x sc = Ok (b, sc) /\ 0 <= b < lc.
  Proof.
    intros f h x sc R Hn Hx. destruct (reach f h R Hn) as [ts [S Lt]]. destruct S as [H1 _]. pose proof Sz as [S1 [S2 S3]].
    apply (holds_of dops tc fc lc lifetime dkey not_nan dfine ddraw L) in H1.
    unfold Unbound_Model.predict, Unbound_Model.forest_means.
    rewrite (means_ok dops exp_ tc fc lc _ lifetime base_measure discount_factor ltac:(lia) ltac:(lia) ltac:(lia) x ltac:(rewrite <- Hx; symmetry; apply Nat2Z.id) f ts [] H1).
    cbn [bind]. match goal with |- context [index_max _ ?m _] => set (ms := m) end.
    assert (Lm : length ms = Z.to_nat lc) by (unfold ms; now rewrite map_length, zrange_length).
    destruct (index_max_some _ (fun a b => nlt dops b a) ms lc) as [b [E Hb]]; [exact S3|exact Lm|]. rewrite E. cbn [bind]. eauto.
  Qed.
End Binary64.
Print Assumptions unbound_trees.
Print Assumptions unbound_counts.
Print Assumptions unbound_memory.
Print Assumptions unbound_train_outcome.
Print Assumptions unbound_predict_total.

(** ** Exact arithmetic *)
Section Exact.
  Variable log_ : R -> R.
  Variable rnd : nat -> R.
  Variable tc fc lc : Z.
  Variable lifetime base_measure discount_factor : R.
  Hypothesis Sz : usizes tc fc lc.
  Hypothesis Hlife : (0 <= lifetime)%R.
  Hypothesis Hdraw : forall k, rdraw (rnd k).
  Local Notation ureached := (ureached rops log_ rnd tc fc lc lifetime rfine).
  Local Notation utrees := (utrees rops tc fc lc lifetime).
  Local Notation input := (input rops fc rfine).
  Local Notation train := (train rops log_ rnd tc fc lc lifetime).
  Local Notation predict := (predict rops exp tc fc lc base_measure discount_factor).
  Local Notation start := (repeat base_measure (Z.to_nat lc)).

  Let L : laws rops (fun x => x) (fun _ => True) rfine rdraw fc.
  Proof. apply laws_rops. apply Sz. Qed.
  Let Hlife' : nle rops (nofZ rops 0) lifetime = true.
  Proof. now apply Rle_iff. Qed.
  Let leaf_sep : forall a pt, separated rops (Leaf a [pt]).
  Proof. intros. exact I. Qed.
  Let reach := ureached_state rops log_ rnd tc fc lc lifetime (fun x => x) (fun _ => True) rfine rdraw L Hdraw Sz Hlife'
    (separated rops) leaf_sep grows_separated.
  Let step := train_stateU rops log_ rnd tc fc lc lifetime (fun x => x) (fun _ => True) rfine rdraw L Hdraw Sz Hlife'
    (separated rops) leaf_sep grows_separated.

  (** *** C55, C87: as in binary64, and the splits separate the points *)
  Theorem unbound_trees_exact : forall f h, ureached f h -> h <> [] -> Z.of_nat (length h) <= 9223372036854775807 ->
    exists ts, utrees f h ts /\ Forall (separated rops) ts.
  Proof.
    intros f h Rc Nh Hn. destruct (reach f h Rc Hn) as [ts [S Lt]]. exists ts. split; [now apply (stateU_utrees rops tc fc lc lifetime (separated rops)); auto|].
    destruct S as [_ [_ F]]. eapply Forall_impl; [|exact F]. intros t [_ H]. exact H.
  Qed.
  (** *** C87: the splits lead a trained point to a leaf that counted it and whose box contains it *)
  Theorem unbound_routing : forall f h p, ureached f h -> In p h -> Z.of_nat (length h) <= 9223372036854775807 -> 0 <= snd p < lc ->
    exists ts, utrees f h ts /\ forall t, In t ts -> exists n c lo hi,
      In (routed rops (fst p) t) (leaf_ids rops t) /\ rd (nodes rops f) (routed rops (fst p) t) = Ok n /\ rd (counters rops n) (snd p) = Ok c /\ 0 < c /\
      bound_lower rops n = map Some lo /\ bound_upper rops n = map Some hi /\
      forall d, 0 <= d < fc -> (nth (Z.to_nat d) lo 0 <= coord rops p d <= nth (Z.to_nat d) hi 0)%R.
  Proof.
    intros f h p Rc Ip Hn Hl. assert (Nh : h <> []) by (intros ->; destruct Ip). destruct (unbound_trees_exact f h Rc Nh Hn) as [ts [T S]].
    exists ts. split; [exact T|]. intros t It. rewrite Forall_forall in S. specialize (S t It).
    apply In_nth_error in It. destruct It as [i Hi]. destruct T as [_ [T _]]. destruct (T i t Hi) as [_ [T1 [T2 _]]].
    assert (Ipt : In p (points rops t)) by (eapply Permutation_in; [apply Permutation_sym, T2|exact Ip]).
    destruct (routed_leaf rops t p) as [pts [A B]]; auto.
    { intros v y Hv. cbn [nlt nle rops] in *. apply Rlt_iff in Hv. now apply Rle_bool_false. }
    destruct (Mondrian_Reach.leaf_node rops fc lc lifetime t f (-1) (nofZ rops 0) _ _ T1 A) as [n [N1 [_ [N3 N4]]]].
    exists n, (count rops (snd p) pts), (map (val rops (bound_lower rops n)) (zrange fc)), (map (val rops (bound_upper rops n)) (zrange fc)).
    split; [rewrite <- leaf_ids_map; change (routed rops (fst p) t) with (fst (routed rops (fst p) t, pts)); now apply in_map|].
    split; [exact N1|]. split; [now apply N4|]. split; [now apply count_in|].
    assert (Q : forall l : list (option R), length l = Z.to_nat fc -> (forall d, 0 <= d < fc -> rd l d = Ok (Some (val rops l d))) -> l = map Some (map (val rops l) (zrange fc))).
    { intros l Ll Hv. apply nth_error_ext. intros j. rewrite map_map. destruct (Nat.lt_ge_cases j (Z.to_nat fc)) as [C|C].
      - pose proof (Hv (Z.of_nat j) ltac:(lia)) as V. pose proof (rd_zrange _ (fun d => Some (val rops l d)) fc (Z.of_nat j) ltac:(lia)) as W.
        apply rd_ok_iff in V, W. rewrite Nat2Z.id in V, W. destruct V as [_ V]. destruct W as [_ W]. etransitivity; [exact V|symmetry; exact W].
      - rewrite !(proj2 (nth_error_None _ _)); [reflexivity|rewrite map_length, zrange_length; lia|lia]. }
    destruct N3 as [B1 [B2 B3]].
    split; [apply Q; [exact B1|]; intros d Hd; now apply (bounding_val rops fc pts _ _ d (conj B1 (conj B2 B3)))|].
    split; [apply Q; [exact B2|]; intros d Hd; now apply (bounding_val rops fc pts _ _ d (conj B1 (conj B2 B3)))|].
    intros d Hd. assert (A' : forall g : Z -> R, nth (Z.to_nat d) (map g (zrange fc)) 0%R = g d).
    { intros g. pose proof (rd_zrange _ g fc d Hd) as W. apply rd_ok_iff in W. destruct W as [_ W]. now apply nth_error_nth with (d := 0%R) in W. }
    rewrite !A'. destruct (bounding_val rops fc pts _ _ d (conj B1 (conj B2 B3)) Hd) as [_ [_ [_ [_ V]]]]. destruct (V p B) as [V1 V2]. apply Rle_iff in V1, V2. auto.
  Qed.
  (** *** C86: no failure in exact arithmetic with draws between 0 and 1 *)
  Theorem unbound_train_total_exact : forall f h x label, ureached f h -> Z.of_nat (length h) < 9223372036854775807 -> input x -> 0 <= label < lc ->
    exists f', train f x label = Ok (f', None).
  Proof.
    intros f h x label Rc Hn Hx Hl. destruct (reach f h Rc ltac:(lia)) as [ts [S Lt]].
    destruct (step f h ts x label S (ureached_fine rops log_ rnd tc fc lc lifetime rfine f h Rc) Hn Hx Hl) as [[_ [_ B]]|[f' [ts' [E _]]]]; [|eauto].
    exfalso. apply B, able_rops. apply Sz.
  Qed.

  (** The label is the first one with the greatest average of means [w] of the trees. *)
  Lemma best_of : forall f h ts x sc (w : mtree rops -> list R), holds rops tc fc lc (Z.of_nat (length (nodes rops f))) lifetime f ts [] -> utrees f h ts ->
    length x = Z.to_nat fc ->
    (forall k t, nth_error ts k = Some t -> forall l, 0 <= l < lc ->
      at_ rops (tree_means rops exp fc lc (Z.of_nat (length (nodes rops f))) base_measure discount_factor x f (Z.of_nat k)) l = nth (Z.to_nat l) (w t) 0%R) ->
    exists b, predict f x sc = Ok (b, sc) /\ 0 <= b < lc /\
      (forall l, 0 <= l < lc -> (average (map w ts) l <= average (map w ts) b)%R) /\ (forall l, 0 <= l < b -> (average (map w ts) l < average (map w ts) b)%R).
  Proof.
    intros f h ts x sc w H [Lt _] Lx Tm. pose proof Sz as [S1 [S2 S3]]. set (mn := Z.of_nat (length (nodes rops f))) in *. set (ms := map w ts).
    pose proof (means_ok rops exp tc fc lc mn lifetime base_measure discount_factor ltac:(lia) ltac:(lia) ltac:(lia) x Lx f ts [] H) as M.
    set (m := map _ (zrange lc)) in M.
    assert (Lm : length m = Z.to_nat lc) by (unfold m; now rewrite map_length, zrange_length).
    destruct (index_max_some _ (fun a b => nlt rops b a) m lc S3 Lm) as [b [Em Hb]].
    exists b. split; [unfold Unbound_Model.predict, Unbound_Model.forest_means; fold mn; rewrite M; cbn [bind]; rewrite Em; reflexivity|]. split; [exact Hb|].
    assert (Av : forall l, 0 <= l < lc -> nth_error m (Z.to_nat l) = Some (average ms l)).
    { intros l Hl. unfold m.
      pose proof (rd_zrange _ (fun l => ndiv rops (fold_left (nadd rops) (map (fun k => at_ rops (tree_means rops exp fc lc mn base_measure discount_factor x f k) l) (zrange tc)) (nofZ rops 0)) (nofZ rops tc)) lc l Hl) as W.
      apply rd_ok_iff in W. destruct W as [_ W]. etransitivity; [exact W|]. apply f_equal. unfold average. cbn [ndiv nadd nofZ rops num].
      assert (Ls : length ms = length ts) by (unfold ms; apply map_length). rewrite Ls, Lt. f_equal.
      pose proof (fold_rsum (map (fun k => at_ rops (tree_means rops exp fc lc mn base_measure discount_factor x f k) l) (zrange tc)) 0) as F.
      change (num rops) with R in *. rewrite F, Rplus_0_l. f_equal. unfold ms. rewrite map_map.
      apply nth_error_ext. intros k. rewrite !nth_error_map. destruct (Nat.lt_ge_cases k (length ts)) as [Ck|Ck].
      - destruct (nth_error ts k) as [t|] eqn:Hk; [|apply nth_error_None in Hk; lia].
        pose proof (rd_zrange _ (fun k => k) tc (Z.of_nat k) ltac:(lia)) as W'. rewrite map_id in W'. apply rd_ok_iff in W'. destruct W' as [_ W']. rewrite Nat2Z.id in W'.
        rewrite W'. cbn [option_map]. rewrite (Tm k t Hk l Hl). reflexivity.
      - rewrite !(proj2 (nth_error_None _ _)); [reflexivity|lia|rewrite zrange_length; lia]. }
    clearbody m.
    destruct (index_max_ok R (fun a b => Rlt_bool b a) (fun y => y) m) as [b' [v [B1 [B2 [B3 B4]]]]].
    { intros y z _ _. apply Rlt_iff. }
    { intros ->. cbn in Lm. lia. }
    assert (Eb : b = Z.of_nat b').
    { change (num rops) with R in *. rewrite Lm, Z2Nat.id in B1 by lia. change (index_max (fun a b => nlt rops b a) m lc) with (index_max (fun a b => Rlt_bool b a) m lc) in Em. congruence. }
    pose proof (Av b Hb) as Vb. rewrite Eb, Nat2Z.id in Vb. rewrite <- Eb in Vb. assert (Ev : v = average ms b) by (assert (X : Some v = Some (average ms b)) by (etransitivity; [symmetry; exact B2|exact Vb]); now injection X). subst v.
    split; intros l Hl.
    - apply (B3 (Z.to_nat l)). apply Av. lia.
    - apply (B4 (Z.to_nat l)); [lia|]. apply Av. lia.
  Qed.
  Lemma small_tree : forall f ts k t, holds rops tc fc lc (Z.of_nat (length (nodes rops f))) lifetime f ts [] -> nth_error ts k = Some t ->
    (length (ids rops t) <= length (nodes rops f))%nat /\ forall j, In j (ids rops t) -> 0 <= j.
  Proof.
    intros f ts k t [_ [_ [_ [_ [G5 _]]]]] Hk. assert (Sub : forall j, In j (ids rops t) -> In j (all_ids rops ts)).
    { intros j Hj. apply in_concat. exists (ids rops t). split; [apply in_map; now apply nth_error_In with k|exact Hj]. }
    assert (ND : NoDup (all_ids rops ts)) by (destruct G5 as [_ [N _]]; now apply nodup_app in N). split.
    - apply Nat.le_trans with (length (all_ids rops ts)).
      + apply NoDup_incl_length; [now apply tree_nodup with ts k|exact Sub].
      + pose proof (pool_len _ _ _ _ _ G5) as P. now rewrite Nat2Z.id in P.
    - intros j Hj. pose proof (pool_in _ _ _ _ _ _ G5 (Sub j Hj)). lia.
  Qed.

  (** *** C88: the prediction for any point is the first label with the greatest mean *)
  Theorem unbound_predict_exact : forall f h x sc, ureached f h -> h <> [] -> Z.of_nat (length h) <= 9223372036854775807 -> Z.of_nat (length x) = fc ->
    exists b ts, predict f x sc = Ok (b, sc) /\ utrees f h ts /\ 0 <= b < lc /\
      let ms := map (fun t => smoothed_mean fc lc discount_factor f 0 start t x) ts in
      (forall l, 0 <= l < lc -> (average ms l <= average ms b)%R) /\ (forall l, 0 <= l < b -> (average ms l < average ms b)%R).
  Proof.
    intros f h x sc Rc Nh Hn Hx. destruct (reach f h Rc Hn) as [ts [S Lt]]. specialize (Lt Nh).
    pose proof (stateU_utrees rops tc fc lc lifetime (separated rops) f h ts S Lt) as T. pose proof S as [H1 _]. pose proof Sz as [S1 [S2 S3]].
    apply (holds_of rops tc fc lc lifetime (fun x => x) (fun _ => True) rfine rdraw L) in H1.
    assert (Lx : length x = Z.to_nat fc) by (rewrite <- Hx; symmetry; apply Nat2Z.id).
    destruct (best_of f h ts x sc (fun t => smoothed_mean fc lc discount_factor f 0 start t x) H1 T Lx) as [b [P B]]; [|exists b, ts; tauto].
    intros k t Hk l Hl. destruct (small_tree f ts k t H1 Hk) as [Lt' Pos]. destruct T as [_ [T _]]. destruct (T k t Hk) as [G6 [G7 [_ G8]]].
    pose proof (walk_smooth fc lc lifetime discount_factor ltac:(lia) ltac:(lia) x Lx t f (-1) 0%R (Datatypes.S (Datatypes.S (Z.to_nat (Z.of_nat (length (nodes rops f)))))) 1%R start (repeat 0%R (Z.to_nat lc))) as W.
    unfold tree_means, predict_tree. rewrite G6. cbn [bind]. change (nofZ rops 1) with 1%R. change (nofZ rops 0) with 0%R. change (num rops) with R in *. rewrite W; clear W.
    - unfold at_. change (nofZ rops 0) with 0%R. pose proof (at_map lc (fun l => (nth (Z.to_nat l) (repeat 0%R (Z.to_nat lc)) 0 + 1 * nth (Z.to_nat l) (smoothed_mean fc lc discount_factor f 0 start t x) 0)%R) l Hl) as A.
      etransitivity; [exact A|]. rewrite nth_repeat, Rplus_0_l, Rmult_1_l. reflexivity.
    - lia.
    - exact Pos.
    - exact G7.
    - lra.
    - left. auto.
    - exact G8.
    - now rewrite repeat_length.
    - now rewrite repeat_length.
  Qed.
  (** *** C88: for a trained point the means are passed down to its leaf *)
  Theorem unbound_predict_trained : forall f h p sc, ureached f h -> In p h -> Z.of_nat (length h) <= 9223372036854775807 -> Z.of_nat (length (fst p)) = fc ->
    exists b ts, predict f (fst p) sc = Ok (b, sc) /\ utrees f h ts /\ 0 <= b < lc /\
      let ms := map (fun t => path_mean lc discount_factor (time f) 0 start t (fst p)) ts in
      (forall l, 0 <= l < lc -> (average ms l <= average ms b)%R) /\ (forall l, 0 <= l < b -> (average ms l < average ms b)%R).
  Proof.
    intros f h p sc Rc Ip Hn Hx. assert (Nh : h <> []) by (intros ->; destruct Ip). destruct (reach f h Rc Hn) as [ts [S Lt]]. specialize (Lt Nh).
    pose proof (stateU_utrees rops tc fc lc lifetime (separated rops) f h ts S Lt) as T. pose proof S as [H1 [_ H3]]. pose proof Sz as [S1 [S2 S3]].
    apply (holds_of rops tc fc lc lifetime (fun x => x) (fun _ => True) rfine rdraw L) in H1.
    assert (Lx : length (fst p) = Z.to_nat fc) by (rewrite <- Hx; symmetry; apply Nat2Z.id).
    destruct (best_of f h ts (fst p) sc (fun t => path_mean lc discount_factor (time f) 0 start t (fst p)) H1 T Lx) as [b [P B]]; [|exists b, ts; tauto].
    intros k t Hk l Hl. destruct (small_tree f ts k t H1 Hk) as [Lt' Pos]. destruct T as [_ [T _]]. destruct (T k t Hk) as [G6 [G7 [G9 G8]]].
    rewrite Forall_forall in H3. destruct (H3 t (nth_error_In _ _ Hk)) as [_ Sep].
    pose proof (walk_path fc lc lifetime discount_factor ltac:(lia) ltac:(lia) p Lx t f (-1) 0%R (Datatypes.S (Datatypes.S (Z.to_nat (Z.of_nat (length (nodes rops f)))))) start) as W.
    assert (E1 : predict_tree rops exp fc lc (Z.of_nat (length (nodes rops f))) base_measure discount_factor f (fst p) (Z.of_nat k) =
      Ok (path_mean lc discount_factor (time f) 0 start t (fst p))).
    { unfold predict_tree. rewrite G6. cbn [bind]. apply W; clear W.
      - lia.
      - exact Pos.
      - exact G7.
      - left. auto.
      - exact G8.
      - exact Sep.
      - eapply Permutation_in; [apply Permutation_sym, G9|exact Ip].
      - now rewrite repeat_length. }
    unfold tree_means. rewrite E1. reflexivity.
  Qed.
End Exact.
Print Assumptions unbound_trees_exact.
Print Assumptions unbound_routing.
Print Assumptions unbound_train_total_exact.
Print Assumptions unbound_predict_exact.
Print Assumptions unbound_predict_trained.

(** ** Concrete forests *)
Definition uruns_to (log_ : dbl -> dbl) (rnd : nat -> dbl) (tc fc lc : Z) (lifetime : dbl) (cs : list (point dops)) (ok : forest dops -> bool) : bool :=
  forallb (valid_d fc lc) cs &&
  match urun dops log_ rnd tc fc lc lifetime (forest_init dops tc) cs with Ok f => ok f | _ => false end.
Lemma uruns_to_reached : forall log_ rnd tc fc lc lifetime cs ok, uruns_to log_ rnd tc fc lc lifetime cs ok = true ->
  exists f, ureached dops log_ rnd tc fc lc lifetime dfine f (rev cs) /\ ok f = true.
Proof.
  intros log_ rnd tc fc lc lifetime cs ok H. unfold uruns_to in H. apply andb_true_iff in H. destruct H as [V H].
  destruct (urun _ _ _ _ _ _ _ _ cs) as [f|u| |] eqn:E; try discriminate. exists f. split; [|exact H]. rewrite <- (app_nil_r (rev cs)).
  apply urun_reached with (forest_init dops tc); [now apply valid_d_ok|constructor|exact E].
Qed.
Local Notation ureached_c := (ureached dops log_c (cycle draws_c) 2 2 2 (dofZ 10) dfine).
Local Notation utrain_c := (train dops log_c (cycle draws_c) 2 2 2 (dofZ 10)).
Lemma usizes_c : usizes 2 2 2.
Proof. unfold usizes. lia. Qed.
(** Two trees with four leaves each; the counters of the leaves and those of the internal nodes. *)
Example unbound_trees_example : exists f, ureached_c f (rev points_c) /\ roots dops f = [2; 4] /\ length (nodes dops f) = 14%nat /\
  map (counter dops f 0) [0; 7; 11; 3] = [1; 0; 1; 0] /\ map (counter dops f 1) [0; 7; 11; 3] = [0; 1; 0; 1] /\
  map (counter dops f 0) [6; 10; 2] = [1; 2; 1] /\ map (counter dops f 1) [6; 10; 2] = [1; 1; 2] /\
  (exists ts, utrees dops 2 2 2 (dofZ 10) f (rev points_c) ts) /\
  (exists ts, utrees dops 2 2 2 (dofZ 10) f (rev points_c) ts /\ forall t, In t ts -> zsum (map (counter dops f 0) (leaf_ids dops t)) = 2) /\
  exists ts, utrees dops 2 2 2 (dofZ 10) f (rev points_c) ts /\
    (forall t, In t ts -> (1 <= length (leaf_ids dops t) <= 4)%nat /\ length (ids dops t) = (2 * length (leaf_ids dops t) - 1)%nat) /\
    2 <= Z.of_nat (length (nodes dops f)) <= 14.
Proof.
  assert (G : uruns_to log_c (cycle draws_c) 2 2 2 (dofZ 10) points_c (fun f => same_zs
    [roots dops f; [Z.of_nat (length (nodes dops f))]; map (counter dops f 0) [0; 7; 11; 3]; map (counter dops f 1) [0; 7; 11; 3]; map (counter dops f 0) [6; 10; 2]; map (counter dops f 1) [6; 10; 2]]
    [[2; 4]; [14]; [1; 0; 1; 0]; [0; 1; 0; 1]; [1; 2; 1]; [1; 1; 2]]) = true) by (vm_compute; reflexivity).
  apply uruns_to_reached in G. destruct G as [f [R0 G]]. apply same_zs_ok in G. destruct G as [G1 [G2 [G3 [G4 [G5 [G6 _]]]]]]. exists f. split; [exact R0|].
  split; [assumption|]. split; [injection G2 as G2; lia|]. do 4 (split; [assumption|]).
  split; [exact (unbound_trees log_c (cycle draws_c) 2 2 2 (dofZ 10) usizes_c eq_refl (cycle_draw draws_c eq_refl) f (rev points_c) R0 ltac:(discriminate) ltac:(cbn; lia))|].
  split; [exact (unbound_counts log_c (cycle draws_c) 2 2 2 (dofZ 10) usizes_c eq_refl (cycle_draw draws_c eq_refl) f (rev points_c) 0 R0 ltac:(discriminate) ltac:(cbn; lia) ltac:(lia))|].
  exact (unbound_memory log_c (cycle draws_c) 2 2 2 (dofZ 10) usizes_c eq_refl (cycle_draw draws_c eq_refl) f (rev points_c) R0 ltac:(discriminate) ltac:(cbn; lia)).
Qed.
Example unbound_train_example : exists f f', ureached_c f (rev (firstn 3 points_c)) /\ utrain_c f (sixteenths 2 9) 0 = Ok (f', None) /\ ureached_c f' (rev points_c).
Proof.
  assert (G : uruns_to log_c (cycle draws_c) 2 2 2 (dofZ 10) (firstn 3 points_c) (fun f => match utrain_c f (sixteenths 2 9) 0 with Ok (_, None) => true | _ => false end) = true) by (vm_compute; reflexivity).
  apply uruns_to_reached in G. destruct G as [f [R0 G]]. destruct (utrain_c f (sixteenths 2 9) 0) as [[f' [|]]|u| |] eqn:E; try discriminate.
  exists f, f'. split; [exact R0|]. split; [exact E|]. change (rev points_c) with ((sixteenths 2 9, 0) :: rev (firstn 3 points_c)).
  apply ureached_train with f None; [exact R0| |lia|exact E]. apply (valid_input dops 2 2 dfine (sixteenths 2 9, 0)). pose proof (valid_d_ok 2 2 [(sixteenths 2 9, 0)] eq_refl) as V. now apply Forall_inv in V.
Qed.
Example unbound_predict_total_example : exists f b, ureached_c f (rev points_c) /\ predict dops exp_c 2 2 2 dhalf dhalf f (sixteenths 3 3) None = Ok (b, None) /\ 0 <= b < 2.
Proof.
  assert (G : uruns_to log_c (cycle draws_c) 2 2 2 (dofZ 10) points_c (fun _ => true) = true) by (vm_compute; reflexivity).
  apply uruns_to_reached in G. destruct G as [f [R0 _]]. exists f.
  destruct (unbound_predict_total exp_c log_c (cycle draws_c) 2 2 2 (dofZ 10) dhalf dhalf usizes_c eq_refl (cycle_draw draws_c eq_refl) f _ (sixteenths 3 3) None R0 ltac:(cbn; lia) eq_refl) as [b [E Hb]]. eauto.
Qed.

(** Exact arithmetic: three points, two trees. *)
Local Notation ureached_e := (ureached rops ln (fun _ => / 2)%R 2 2 2 1%R rfine).
Local Notation utrees_e := (utrees rops 2 2 2 1%R).
Lemma upoints_reached : forall h, Forall (valid rops 2 2 rfine) h -> (length h <= 10)%nat -> exists f, ureached_e f h.
Proof.
  intros h V Lh. apply any_ureached; [|exact V|lia].
  intros f h' x label. exact (unbound_train_total_exact ln (fun _ => / 2)%R 2 2 2 1%R usizes_c life_e half_draw f h' x label).
Qed.
Example unbound_exact_example : exists f, ureached_e f points_e /\
  (exists ts, utrees_e f points_e ts /\ Forall (separated rops) ts) /\
  (exists ts, utrees_e f points_e ts /\ forall t, In t ts -> exists n c,
     rd (nodes rops f) (routed rops [3%R; 2%R] t) = Ok n /\ rd (counters rops n) 1 = Ok c /\ 0 < c) /\
  (exists f', train rops ln (fun _ => / 2)%R 2 2 2 1%R f [5%R; 0%R] 1 = Ok (f', None)) /\
  (exists b ts, predict rops exp 2 2 2 (/ 2)%R (-1)%R f [3%R; 2%R] None = Ok (b, None) /\ utrees_e f points_e ts /\
     forall l, 0 <= l < 2 -> let ms := map (fun t => path_mean 2 (-1) (time f) 0 [/ 2; / 2]%R t [3%R; 2%R]) ts in (average ms l <= average ms b)%R) /\
  (exists b ts, predict rops exp 2 2 2 (/ 2)%R (-1)%R f [5%R; 0%R] None = Ok (b, None) /\ utrees_e f points_e ts /\
     forall l, 0 <= l < 2 -> let ms := map (fun t => smoothed_mean 2 2 (-1) f 0 [/ 2; / 2]%R t [5%R; 0%R]) ts in (average ms l <= average ms b)%R).
Proof.
  destruct (upoints_reached points_e) as [f R0]; [repeat constructor; unfold valid, rfine; cbn; lia|cbn; lia|]. exists f. split; [exact R0|].
  split; [apply (unbound_trees_exact ln (fun _ => / 2)%R 2 2 2 1%R usizes_c life_e half_draw f _ R0); [discriminate|cbn; lia]|].
  split; [|split; [|split]].
  - destruct (unbound_routing ln (fun _ => / 2)%R 2 2 2 1%R usizes_c life_e half_draw f _ ([3%R; 2%R], 1) R0) as [ts [T H]]; [cbn; auto|cbn; lia|cbn; lia|].
    exists ts. split; [exact T|]. intros t It. destruct (H t It) as [n [c [lo [hi [_ [A [B [C _]]]]]]]]. eauto.
  - apply (unbound_train_total_exact ln (fun _ => / 2)%R 2 2 2 1%R usizes_c life_e half_draw f _ _ _ R0); [cbn; lia| |lia].
    split; [reflexivity|]. intros d Hd. exact I.
  - destruct (unbound_predict_trained ln (fun _ => / 2)%R 2 2 2 1%R (/ 2)%R (-1)%R usizes_c life_e half_draw f _ ([3%R; 2%R], 1) None R0) as [b [ts [E [T [Hb [M _]]]]]]; [cbn; auto|cbn; lia|reflexivity|].
    exists b, ts. split; [exact E|]. split; [exact T|]. intros l Hl. now apply M.
  - destruct (unbound_predict_exact ln (fun _ => / 2)%R 2 2 2 1%R (/ 2)%R (-1)%R usizes_c life_e half_draw f _ [5%R; 0%R] None R0) as [b [ts [E [T [Hb [M _]]]]]]; [discriminate|cbn; lia|reflexivity|].
    exists b, ts. split; [exact E|]. split; [exact T|]. intros l Hl. now apply M.
Qed.

(** ** Refutations *)

(** *** C90: the result of [train] is never written, and [predict] never writes the scores *)
Theorem unbound_results_refuted : exists f f', ureached_c f (rev points_c) /\ utrain_c f (sixteenths 7 7) 1 = Ok (f', None) /\
  forall scores, exists b, predict dops exp_c 2 2 2 dhalf dhalf f (sixteenths 3 3) (Some scores) = Ok (b, Some scores).
Proof.
  assert (G : uruns_to log_c (cycle draws_c) 2 2 2 (dofZ 10) points_c (fun f => match utrain_c f (sixteenths 7 7) 1 with Ok (_, None) => true | _ => false end) = true) by (vm_compute; reflexivity).
  apply uruns_to_reached in G. destruct G as [f [R0 G]]. destruct (utrain_c f (sixteenths 7 7) 1) as [[f' [|]]|u| |] eqn:E; try discriminate.
  exists f, f'. split; [exact R0|]. split; [exact E|]. intros scores.
  destruct (unbound_predict_total exp_c log_c (cycle draws_c) 2 2 2 (dofZ 10) dhalf dhalf usizes_c eq_refl (cycle_draw draws_c eq_refl) f _ (sixteenths 3 3) (Some scores) R0 ltac:(cbn; lia) eq_refl) as [b [P _]]. eauto.
Qed.
Print Assumptions unbound_results_refuted.

(** *** C86: undefined behaviour in binary64 *)
Definition fails_with (e : ub) (r : res (forest dops * option bool)) : bool :=
  match r, e with Undef OutOfBounds, OutOfBounds => true | Undef Uninitialised, Uninitialised => true | _, _ => false end.
Lemma fails_with_ok : forall e r, fails_with e r = true -> r = Undef e.
Proof. intros e [a|[]| |]; destruct e; cbn; intros; try discriminate; reflexivity. Qed.
(** All draws are the largest double below 1: the probabilities of seven dimensions sum to less, and the dimension chosen is one past the last feature. *)
Theorem unbound_rounding_refuted : ddraw below_one /\ exists h x, forall log_, log_ (dlit 1 (-53)) = log_53 ->
  exists f, ureached dops log_ (fun _ => below_one) 1 7 2 (dofZ 100) dfine f h /\ input dops 7 dfine x /\
    train dops log_ (fun _ => below_one) 1 7 2 (dofZ 100) f x 0 = Undef OutOfBounds.
Proof.
  split; [now apply ddraw_check|]. set (a := repeat dzero 7). set (b := repeat done 7).
  exists [(a, 0)], b. intros log_ Hlog.
  assert (Same : forall k : nat, log_ (nsub dops (nofZ dops 1) ((fun _ => below_one) k)) = (fun _ => log_53) (nsub dops (nofZ dops 1) ((fun _ => below_one) k))).
  { intros _. exact (eq_trans (f_equal log_ one_minus_below) Hlog). }
  assert (G : uruns_to (fun _ => log_53) (fun _ => below_one) 1 7 2 (dofZ 100) [(a, 0)] (fun f => fails_with OutOfBounds (train dops (fun _ => log_53) (fun _ => below_one) 1 7 2 (dofZ 100) f b 0)) = true) by (vm_compute; reflexivity).
  unfold uruns_to in G. rewrite <- (urun_log dops (fun _ => log_53) log_ (fun _ => below_one) 1 7 2 (dofZ 100) Same) in G.
  apply (uruns_to_reached log_ (fun _ => below_one) 1 7 2 (dofZ 100) [(a, 0)]) in G. destruct G as [f [R0 G]].
  rewrite <- (utrain_log dops (fun _ => log_53) log_ (fun _ => below_one) 1 7 2 (dofZ 100) Same) in G.
  exists f. split; [exact R0|]. split; [|now apply fails_with_ok].
  split; [reflexivity|]. intros d Hd. assert (F : Forall dfine b) by (unfold b; repeat constructor). rewrite Forall_forall in F. apply F, nth_In. cbn. lia.
Qed.
Print Assumptions unbound_rounding_refuted.
(** The draws are 0, so the split is made in dimension 0, where the point is inside the box. *)
Theorem unbound_zero_draw_refuted : exists h x, forall log_, log_ done = dzero ->
  exists f, ureached dops log_ (fun _ => dzero) 1 2 2 done dfine f h /\ input dops 2 dfine x /\
    train dops log_ (fun _ => dzero) 1 2 2 done f x 0 = Undef Uninitialised.
Proof.
  exists [([done; done], 0)], [done; dofZ 2]. intros log_ Hlog.
  assert (Same : forall k : nat, log_ (nsub dops (nofZ dops 1) ((fun _ => dzero) k)) = (fun _ => dzero) (nsub dops (nofZ dops 1) ((fun _ => dzero) k))).
  { intros _. exact (eq_trans (f_equal log_ one_minus_zero) Hlog). }
  assert (G : uruns_to (fun _ => dzero) (fun _ => dzero) 1 2 2 done [([done; done], 0)] (fun f => fails_with Uninitialised (train dops (fun _ => dzero) (fun _ => dzero) 1 2 2 done f [done; dofZ 2] 0)) = true) by (vm_compute; reflexivity).
  unfold uruns_to in G. rewrite <- (urun_log dops (fun _ => dzero) log_ (fun _ => dzero) 1 2 2 done Same) in G.
  apply (uruns_to_reached log_ (fun _ => dzero) 1 2 2 done [([done; done], 0)]) in G. destruct G as [f [R0 G]].
  rewrite <- (utrain_log dops (fun _ => dzero) log_ (fun _ => dzero) 1 2 2 done Same) in G.
  exists f. split; [exact R0|]. split; [|now apply fails_with_ok].
  split; [reflexivity|]. intros d Hd. destruct (Z.eq_dec d 0) as [->|]; [reflexivity|]. assert (d = 1) as -> by lia. reflexivity.
Qed.
Print Assumptions unbound_zero_draw_refuted.
(** One feature: the distance of the second point overflows, and infinity over infinity is not a number. *)
Definition log_half : dbl := dlit (-6243314768165359) (-53).
Lemma one_minus_half : dsub (dofZ 1) dhalf = dhalf.
Proof. apply B2SF_inj. vm_compute. reflexivity. Qed.
Theorem unbound_overflow_refuted : ddraw dhalf /\ exists h x, forall log_, log_ dhalf = log_half ->
  exists f, ureached dops log_ (fun _ => dhalf) 1 1 2 done dfine f h /\ input dops 1 dfine x /\
    train dops log_ (fun _ => dhalf) 1 1 2 done f x 1 = Undef OutOfBounds.
Proof.
  split; [now apply ddraw_check|]. exists [([dlit 1 1023], 0)], [dlit (-1) 1023]. intros log_ Hlog.
  assert (Same : forall k : nat, log_ (nsub dops (nofZ dops 1) ((fun _ => dhalf) k)) = (fun _ => log_half) (nsub dops (nofZ dops 1) ((fun _ => dhalf) k))).
  { intros _. exact (eq_trans (f_equal log_ one_minus_half) Hlog). }
  assert (G : uruns_to (fun _ => log_half) (fun _ => dhalf) 1 1 2 done [([dlit 1 1023], 0)] (fun f => fails_with OutOfBounds (train dops (fun _ => log_half) (fun _ => dhalf) 1 1 2 done f [dlit (-1) 1023] 1)) = true) by (vm_compute; reflexivity).
  unfold uruns_to in G. rewrite <- (urun_log dops (fun _ => log_half) log_ (fun _ => dhalf) 1 1 2 done Same) in G.
  apply (uruns_to_reached log_ (fun _ => dhalf) 1 1 2 done [([dlit 1 1023], 0)]) in G. destruct G as [f [R0 G]].
  rewrite <- (utrain_log dops (fun _ => log_half) log_ (fun _ => dhalf) 1 1 2 done Same) in G.
  exists f. split; [exact R0|]. split; [|now apply fails_with_ok].
  split; [reflexivity|]. intros d Hd. assert (d = 0) as -> by lia. vm_compute. reflexivity.
Qed.
Print Assumptions unbound_overflow_refuted.

(** *** C87 in binary64: the split between 1 and the next double is rounded to that double, so a trained point is sent to the leaf of the other one *)
Theorem unbound_routing_ieee_refuted : exists f h p, ureached dops (fun _ => dzero) (cycle draws_r) 1 1 2 done dfine f h /\ In p h /\
  forall ts, utrees dops 1 1 2 done f h ts -> exists t, ts = [t] /\ counter dops f (snd p) (routed dops (fst p) t) = 0.
Proof.
  set (cs := [([done], 0); ([next_one], 1)] : list (point dops)).
  assert (G : uruns_to (fun _ => dzero) (cycle draws_r) 1 1 2 done cs (fun f => same_zs [roots dops f; [counter dops f 1 0]] [[1]; [0]] &&
    match nodes dops f with [a; b; c] => is_leaf dops a && same_zs [[split_dimension dops b; child_left dops b]] [[0; 0]] && match split_value dops b with Some v => dle next_one v | None => false end | _ => false end) = true) by (vm_compute; reflexivity).
  apply uruns_to_reached in G. destruct G as [f [R0 G]]. exists f, (rev cs), ([next_one], 1). split; [exact R0|].
  split; [now left|]. apply andb_true_iff in G. destruct G as [G G2]. apply same_zs_ok in G. destruct G as [G1 [G0 _]]. destruct (nodes dops f) as [|a [|b [|c [|? ?]]]] eqn:En; try discriminate.
  apply andb_true_iff in G2. destruct G2 as [G2 G3]. apply andb_true_iff in G2. destruct G2 as [G2 G4]. apply Z.eqb_eq in G2. apply same_zs_ok in G4. destruct G4 as [G4 _].
  destruct (split_value dops b) as [v|] eqn:Ev; [|discriminate].
  intros ts [T1 [T2 _]]. destruct ts as [|t [|? ?]]; [cbn in T1; lia| |cbn in T1; lia]. exists t. split; [reflexivity|].
  destruct (T2 0%nat t eq_refl) as [Tr [Tt _]]. rewrite G1 in Tr. cbn in Tr. assert (E0 : top dops t = 1) by congruence. clear Tr.
  destruct t as [i pts|i d w l r]; cbn [top] in E0; subst i.
  - destruct Tt as [n [N1 [_ [_ [_ [_ [_ [N2 _]]]]]]]]. rewrite En in N1. cbn in N1. injection N1 as <-. injection G4 as G4 _. lia.
  - destruct Tt as [n [N1 [_ [_ [_ [_ [_ [N2 [_ [N3 [_ [N4 [_ [Tl _]]]]]]]]]]]]]]. rewrite En in N1. cbn in N1. injection N1 as <-. rewrite Ev in N3. injection N3 as <-.
    injection G4 as G4 G5. rewrite G4 in N2. subst d. cbn [routed fst snd]. match goal with |- context [if ?c then _ else _] => assert (Hc : c = true) by exact G3; rewrite Hc end.
    destruct l as [i pts|i d w l1 l2]; cbn [routed].
    + cbn [top] in N4. assert (i = 0) as -> by congruence. injection G0 as G0. exact G0.
    + exfalso. destruct Tl as [n [N1 [_ [_ [_ [_ [_ [N2 [N5 _]]]]]]]]]. cbn [top] in *. rewrite <- N4, G5, En in N1. cbn in N1. injection N1 as <-. lia.
Qed.
Print Assumptions unbound_routing_ieee_refuted.
