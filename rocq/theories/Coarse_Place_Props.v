(** * Properties of the coarse Mondrian forest: where a leaf is split at the barycenter *)
From Coq Require Import ZArith List Bool Lia Reals Lra Permutation.
From Flocq Require Import Core BinarySingleNaN.
From Verif Require Import CppBase CppFacts Dbl DblFacts NumOps Utils_Model Utils_Proofs MCNN_Num.
From Verif Require Import Mondrian_Model Mondrian_Spec Mondrian_Proofs Mondrian_Num Mondrian_Runs Mondrian_Props.
From Verif Require Import Coarse_Model Coarse_Spec Coarse_Heap Coarse_Walk Coarse_Train Coarse_Forest Coarse_Props Coarse_Trim_Props Coarse_Center Coarse_Center_Laws Coarse_Place.
Import ListNotations.
Local Open Scope Z_scope.

Lemma stored_in : forall (O : ops) fc lc t f p j, stored O fc lc f p t -> In j (cids O t) -> exists n, rd (nodes O f) j = Ok n.
Proof.
  intros O fc lc t. induction t as [i cs|i d v cs l IHl r IHr]; intros f p j St I.
  - destruct St as [n [G _]]. destruct I as [<-|[]]. eauto.
  - destruct St as [n [G [_ [_ [_ [_ [_ [_ [_ [_ [_ [Sl Sr]]]]]]]]]]]]. cbn [cids] in I. destruct I as [<-|I]; [eauto|]. apply in_app_or in I. destruct I; eauto.
Qed.
Lemma trees_before : forall (O : ops) (c : config O) s ts k t, 0 <= c_nodes O c -> ctrees O c s ts -> avail O s = free_count O s ->
  (forall j n, get O s j = Ok n -> available O n = true -> n = blank_node O c) -> nth_error ts k = Some (Some t) ->
  exists lim rest, before O c (Z.of_nat k) lim s (-1) t rest 0.
Proof.
  intros O c s ts k t Hn [T1 [T2 [T3 [T4 T5]]]] Ha Hb Hk. exists (rd (limit O s) (Z.of_nat k)), (all_cids O (upd ts k None)).
  assert (B : forall j, In j (all_cids O ts) -> 0 <= j < c_nodes O c).
  { intros j I. apply in_concat in I. destruct I as [l [Il I]]. apply in_map_iff in Il. destruct Il as [o [<- Io]]. destruct o as [u|]; [|destruct I]. apply In_nth_error in Io. destruct Io as [q Hq]. destruct (T2 q _ Hq) as [_ St].
    destruct (stored_in O _ _ u _ _ j St I) as [n G]. apply rd_bounds in G. lia. }
  set (s0 := with_avail O s (c_nodes O c - Z.of_nat (length (all_cids O ts)))).
  assert (P0 : cpool O c s0 (all_cids O ts)) by (split; [exact T3|]; split; [exact T4|]; split; [exact B|]; split; [exact T5|]; split; [reflexivity|exact Hb]).
  pose proof (pool_free O c s0 _ Hn P0) as Fc. change (free_count O s0) with (free_count O s) in Fc. cbn [avail with_avail s0] in Fc.
  assert (P : cpool O c s (all_cids O ts)) by (destruct P0 as [Q1 [Q2 [Q3 [Q4 [_ Q6]]]]]; split; [exact Q1|]; split; [exact Q2|]; split; [exact Q3|]; split; [exact Q4|]; split; [lia|exact Q6]).
  destruct (T2 k _ Hk) as [Hr St]. split; [exact St|]. split; [|split; [constructor|split; [left; auto|reflexivity]]].
  eapply cpool_perm; [|exact P]. rewrite <- (upd_same_id _ ts k (Some t) Hk) at 1. apply all_cids_upd. apply nth_error_Some. congruence.
Qed.

(** *** C121: a split at the barycenter separates the point from the barycenter inside the box of the leaf *)
Theorem coarse_barycenter_place : forall log_ rnd (c : config dops) s ts k t i cs n t0 x label s', (forall q, ddraw (rnd q)) -> dlt (c_life dops c) (dofZ 0) = false -> 0 < c_nodes dops c ->
  ctrees dops c s ts -> avail dops s = free_count dops s -> (forall j m, get dops s j = Ok m -> available dops m = true -> m = blank_node dops c) ->
  nth_error ts k = Some (Some t) -> In (i, cs) (cleaves dops t) -> (forall l, 0 <= l < c_labels dops c -> 0 <= at_label l cs) ->
  Z.of_nat (length x) = c_features dops c -> get dops s i = Ok n -> parent_time dops (fr dops s) n = Ok t0 ->
  split_barycenter dops log_ rnd c s i (Z.of_nat k) x label t0 = Ok (s', true) ->
  exists d b lo hi xd a na ni v, 0 <= d < c_features dops c /\ center_at dops c s (Z.of_nat k) d b /\ rdi (bound_lower dops n) d = Ok lo /\ rdi (bound_upper dops n) d = Ok hi /\ rd x d = Ok xd /\
    (* the barycenter is inside the box *)
    dlt lo b = true /\ dlt b hi = true /\ is_finite b = true /\
    (* the leaf is below a new node that splits in this dimension *)
    get dops s' i = Ok ni /\ parent dops ni = a /\ get dops s' a = Ok na /\ split_dimension dops na = d /\ split_value dops na = Some v /\
    (* between the barycenter and the point *)
    (is_finite xd = true -> B2R b <> B2R xd) /\
    (is_finite xd = true -> is_finite (dsub b xd) = true -> is_finite (dsub xd b) = true -> (Rmin (B2R b) (B2R xd) <= B2R v <= Rmax (B2R b) (B2R xd))%R) /\
    (* at a time between those of the parent and of the leaf *)
    (is_finite t0 = true -> is_finite (tau dops n) = true -> (B2R t0 <= B2R (tau dops n))%R -> (B2R t0 <= B2R (tau dops na) <= B2R (tau dops n))%R).
Proof.
  intros log_ rnd c s ts k t i cs n t0 x label s' Hd Hlife Hn T Ha Hb Hk Hi Hcs Hx Gn Et H.
  destruct (trees_before dops c s ts k t ltac:(lia) T Ha Hb Hk) as [lim [rest Bf]]. destruct (leaf_before dops c _ _ t s (-1) rest 0 i cs Bf Hi) as [p [rest' [D Bl]]].
  assert (Ht : dlt t0 (dofZ 0) = false).
  { pose proof Bl as [St [[_ [_ [P _]]] [Ab _]]]. destruct St as [m [G [Pm _]]]. cbn [ctop] in G. assert (m = n) by (unfold get in Gn; congruence). subst m.
    apply (parent_time_ok dops tlaws_dops s rest' p D n t0 Ab); auto. intros j Hj. apply P, in_or_app. now left. }
  destruct (split_place log_ rnd c Hd Hlife Hn _ _ s p i cs rest' D t0 n x label s' Bl Ht Hcs Hx Gn H) as [d [b [lo [hi [xd [q [a [na [ni [Q1 [Q2 [Q3 [Q4 [Q5 [Q6 [Q7 [Q8 [Q9 [Q10 [Q11 [Q12 [Q13 Q14]]]]]]]]]]]]]]]]]]]]]].
  eexists d, b, lo, hi, xd, a, na, ni, _. split; [exact Q1|]. split; [exact Q2|]. split; [exact Q3|]. split; [exact Q4|]. split; [exact Q5|]. split; [exact Q6|]. split; [exact Q7|].
  assert (Fb : is_finite b = true) by (eapply inside_finite; eauto). split; [exact Fb|]. split; [exact Q10|]. split; [exact Q11|]. split; [exact Q9|]. split; [exact Q12|]. split; [exact Q13|]. split; [exact Q8|]. destruct (Hd q) as [Fu Hu]. split.
  - intros Fx F1 F2. specialize (Q8 Fx).
    destruct (dlt b xd) eqn:L1; [apply dlt_true in L1; auto; rewrite Rmin_left, Rmax_right by lra|].
    + destruct (dlt xd b) eqn:L2; [apply dlt_true in L2; auto; lra|]. apply way; auto. lra.
    + assert (L2 : (B2R xd < B2R b)%R). { destruct (Rlt_le_dec (B2R xd) (B2R b)) as [G|G]; [exact G|exfalso]. assert (X : dlt b xd = true) by (apply dlt_true; auto; lra). congruence. }
      rewrite Rmin_right, Rmax_left by lra. replace (dlt xd b) with true by (symmetry; apply dlt_true; auto). apply way; auto. lra.
  - intros F0 Fn Le. rewrite Q14. apply way; auto. assert (P0 : (0 <= B2R t0)%R). { destruct (Rle_lt_dec 0 (B2R t0)) as [G|G]; [exact G|exfalso]. assert (X : dlt t0 (dofZ 0) = true) by (apply dlt_true; auto). congruence. }
    pose proof (abs_lt (tau dops n)) as A1. apply Rabs_lt_inv in A1.
    pose proof (Bminus_correct 53 1024 Hprec64 Hmax64 mode_NE (tau dops n) t0 Fn F0) as C. change (Bminus mode_NE (tau dops n) t0) with (dsub (tau dops n) t0) in C. change (round_mode mode_NE) with ZnearestE in C.
    assert (B : (0 <= rnd64 (B2R (tau dops n) - B2R t0) <= B2R (tau dops n))%R) by (apply rnd_between; [apply NumFacts.rnd_0|apply rnd_dbl|lra]).
    rewrite Rlt_bool_true in C by (apply Rabs_def1; lra). apply C.
Qed.
Print Assumptions coarse_barycenter_place.

(** ** A leaf with the box from 0 to 16 and five points is split for a point at 12 *)
Definition conf_p (h : Z) : config dops :=
  Build_config dops 1 1 2 3 (dofZ 10) dhalf dhalf PHOENIX_MANAGEMENT (-1) FE_DISTRIBUTION_ZERO SPLIT_TRIGGER_NONE dhalf dhalf h EXTEND_BARYCENTER TRIM_COUNT done false.
Definition leaf_p : node dops := mkNode dops (-1) (Some (dofZ 0)) [Some (dofZ 0)] [Some (dofZ 16)] (-1) (-1) (-1) (dofZ 10) [2; 3].
Definition state_p (h : Z) : coarse dops :=
  mkCoarse dops (mkForest dops [leaf_p; blank_node dops (conf_p h); blank_node dops (conf_p h)] [0] 0) [0; 0; 0] [dofZ 0; dofZ 0; dofZ 0] [3] [Some 1] [Some (dofZ 50)] (dofZ 5) 2 0 0 5.
Definition tree_p : ctree dops := CLeaf 0 [2; 3].
Lemma trees_p : forall h, ctrees dops (conf_p h) (state_p h) [Some tree_p] /\ avail dops (state_p h) = free_count dops (state_p h) /\ (forall j m, get dops (state_p h) j = Ok m -> available dops m = true -> m = blank_node dops (conf_p h)).
Proof.
  intros h. assert (K : forall j m, rd [leaf_p; blank_node dops (conf_p h); blank_node dops (conf_p h)] j = Ok m -> (j = 0 /\ m = leaf_p) \/ (j <> 0 /\ m = blank_node dops (conf_p h))).
  { intros j m H. pose proof (rd_bounds _ _ _ _ H) as B. change (Z.of_nat _) with 3 in B. assert (C : j = 0 \/ j = 1 \/ j = 2) by lia. destruct C as [-> |[-> | ->]]; injection H as <-; [left|right|right]; split; auto; lia. }
  split; [|split; [reflexivity|]].
  - split; [reflexivity|]. split.
    + intros i o H. destruct i as [|i]; [|destruct i; discriminate]. injection H as <-. split; [reflexivity|]. exists leaf_p. repeat split.
    + split; [reflexivity|]. split; [repeat constructor; cbn; intuition|]. intros j m H. apply K in H. destruct H as [[-> ->]|[N ->]].
      * split; [reflexivity|]. intros _. now left.
      * split; [intros [E|[]]; congruence|]. intros X. vm_compute in X. discriminate.
  - intros j m H A. apply K in H. destruct H as [[_ ->]|[_ ->]]; [vm_compute in A; discriminate|reflexivity].
Qed.
Lemma split_p_ok : forall c s p time w, match split_barycenter dops log_c (cycle draws_b) c s 0 0 p 1 (dofZ 0) with
  | Ok (s', true) => match get dops s' 0 with Ok ni => match get dops s' (parent dops ni) with Ok na => match split_value dops na with Some v => dlt (fst w) v && dlt v (snd w) && dlt (dofZ 0) (tau dops na) && dlt (tau dops na) time | None => false end | _ => false end | _ => false end
  | _ => false end = true ->
  exists s' ni na v, split_barycenter dops log_c (cycle draws_b) c s 0 0 p 1 (dofZ 0) = Ok (s', true) /\ get dops s' 0 = Ok ni /\ get dops s' (parent dops ni) = Ok na /\ split_value dops na = Some v /\
    dlt (fst w) v = true /\ dlt v (snd w) = true /\ dlt (dofZ 0) (tau dops na) = true /\ dlt (tau dops na) time = true.
Proof.
  intros c s p time w H. destruct (split_barycenter _ _ _ _ _ _ _ _ _ _) as [[s' [|]]|u| |]; try discriminate. destruct (get dops s' 0) as [ni|u| |] eqn:E1; try discriminate.
  destruct (get dops s' (parent dops ni)) as [na|u| |] eqn:E2; try discriminate. destruct (split_value dops na) as [v|] eqn:E3; try discriminate.
  apply andb_true_iff in H. destruct H as [H X1]. apply andb_true_iff in H. destruct H as [H X2]. apply andb_true_iff in H. destruct H as [X3 X4]. exists s', ni, na, v. auto 10.
Qed.
(** The average of the points is 10, the middle of the box is 8; the leaf ends at 10. The hypotheses of the theorem hold, and the split lies strictly between the barycenter and the point, before the end of the leaf. *)
Example coarse_barycenter_place_example : (forall h, ctrees dops (conf_p h) (state_p h) [Some tree_p] /\ avail dops (state_p h) = free_count dops (state_p h)) /\ (forall q, ddraw (cycle draws_b q)) /\
  parent_time dops (fr dops (state_p SPLIT_HELPER_AVG)) leaf_p = Ok (dofZ 0) /\
  (exists s' ni na v, split_barycenter dops log_c (cycle draws_b) (conf_p SPLIT_HELPER_AVG) (state_p SPLIT_HELPER_AVG) 0 0 [dofZ 12] 1 (dofZ 0) = Ok (s', true) /\ get dops s' 0 = Ok ni /\ get dops s' (parent dops ni) = Ok na /\
    split_value dops na = Some v /\ dlt (dofZ 10) v = true /\ dlt v (dofZ 12) = true /\ dlt (dofZ 0) (tau dops na) = true /\ dlt (tau dops na) (dofZ 10) = true) /\
  (exists s' ni na v, split_barycenter dops log_c (cycle draws_b) (conf_p SPLIT_HELPER_WEIGHTED) (state_p SPLIT_HELPER_WEIGHTED) 0 0 [dofZ 12] 1 (dofZ 0) = Ok (s', true) /\ get dops s' 0 = Ok ni /\ get dops s' (parent dops ni) = Ok na /\
    split_value dops na = Some v /\ dlt (dofZ 8) v = true /\ dlt v (dofZ 12) = true /\ dlt (dofZ 0) (tau dops na) = true /\ dlt (tau dops na) (dofZ 10) = true).
Proof.
  split; [intros h; destruct (trees_p h) as [A [B _]]; auto|]. split; [exact draws_b_ok|]. split; [reflexivity|]. split.
  - apply (split_p_ok (conf_p SPLIT_HELPER_AVG) (state_p SPLIT_HELPER_AVG) [dofZ 12] (dofZ 10) (dofZ 10, dofZ 12)). vm_compute. reflexivity.
  - apply (split_p_ok (conf_p SPLIT_HELPER_WEIGHTED) (state_p SPLIT_HELPER_WEIGHTED) [dofZ 12] (dofZ 10) (dofZ 8, dofZ 12)). vm_compute. reflexivity.
Qed.
