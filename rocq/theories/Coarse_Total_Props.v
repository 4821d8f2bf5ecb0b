(** * Properties of the coarse Mondrian forest: training is defined *)
From Coq Require Import ZArith List Bool Lia Reals Lra.
From Flocq Require Import Core BinarySingleNaN.
From Verif Require Import CppBase CppFacts Dbl DblFacts NumOps NumFacts Utils_Model Utils_Spec Utils_Proofs MCNN_Num.
From Verif Require Import Mondrian_Model Mondrian_Spec Mondrian_Proofs Mondrian_Num Mondrian_Runs Mondrian_Props.
From Verif Require Import Coarse_Model Coarse_Spec Coarse_Heap Coarse_Walk Coarse_Train Coarse_Trim Coarse_Forest Coarse_Reach Coarse_Tidy Coarse_Props.
From Verif Require Unbound_Model Mondrian_Train Unbound_Train Unbound_Reach.
From Verif Require Import Coarse_Total Coarse_Defined Coarse_Steady.
Import ListNotations.
Local Open Scope Z_scope.

(** Configurations for which training is claimed to be defined: trees that are not the ones of the barycenter extension, draws below 1 if leaves are trimmed at random,
    a node for every tree if the counters are brought up to date after every point ([UNBOUND_OPTIMIZE]), and a size limit for which the search for the height of a subtree
    (a stack of 100 entries) does not overflow. *)
Definition plain (O : ops) (rnd : nat -> num O) (c : config O) : Prop :=
  c_extend O c <> EXTEND_BARYCENTER /\ ctrims O rnd c /\ (c_optimize O c = true -> c_trees O c <= c_nodes O c) /\
  (c_manage O c = COBBLE_MANAGEMENT \/ c_manage O c = OPTIMISTIC_COBBLE_MANAGEMENT -> c_size_limit O c <= 101).

Lemma ctrims_safe_r : forall rnd c, ctrims rops rnd c -> trim_safe rops rnd c.
Proof. intros rnd c H. unfold ctrims, trim_safe in *. replace (ndiv rops (nofZ rops 1) (nadd rops (nofZ rops 0) (nofZ rops 1))) with (nofZ rops 1); [exact H|]. cbn. field. Qed.
Lemma all_fine : forall O fc (ok_value : num O -> Prop) (x : list (num O)) l, Z.of_nat (length x) = fc -> Forall ok_value x -> Mondrian_Train.fine_pt O fc ok_value (x, l).
Proof. intros O fc ok_value x l H1 H2 d Hd. unfold coord. cbn [fst]. rewrite Forall_forall in H2. apply H2, nth_In. lia. Qed.
Lemma creached_labels : forall O exp_ log_ rnd c l0 s h, creached O exp_ log_ rnd c l0 s h -> Forall (fun p => 0 <= snd p < c_labels O c) h.
Proof. intros O exp_ log_ rnd c l0 s h H. induction H; auto. Qed.
Lemma creached_fine : forall O exp_ log_ rnd c l0 (ok_value : num O -> Prop) s h, creached O exp_ log_ rnd c l0 s h -> Forall (fun p => Forall ok_value (fst p)) h -> Forall (Mondrian_Train.fine_pt O (c_features O c) ok_value) h.
Proof. intros O exp_ log_ rnd c l0 ok_value s h H. induction H; intros F; auto. inversion F; subst. constructor; auto. now apply all_fine. Qed.
Lemma plain_low : forall O rnd c, plain O rnd c -> cobble O c = true -> c_size_limit O c <= 101.
Proof. intros O rnd c [_ [_ [_ H]]] Cb. apply H. unfold cobble in Cb. apply orb_true_iff in Cb. destruct Cb as [X|X]; apply Z.eqb_eq in X; auto. Qed.

(** *** C104: training ends, either well or in undefined behaviour (binary64) *)
Theorem coarse_train_outcome : forall exp_ log_ rnd (c : config dops) l0, csizes dops c l0 -> plain dops rnd c -> c_features dops c <= 2147483647 -> (forall k, ddraw (rnd k)) ->
  forall s h x label, creached dops exp_ log_ rnd c l0 s h -> Forall (fun p => Forall dfine (fst p)) h -> Z.of_nat (length h) < 2147483647 ->
  Z.of_nat (length x) = c_features dops c -> Forall dfine x -> 0 <= label < c_labels dops c ->
  (exists s' b, train dops log_ rnd c s x label = Ok (s', b)) \/ (exists u, train dops log_ rnd c s x label = Undef u).
Proof.
  intros exp_ log_ rnd c l0 Hs Hp Hf Hd s h x label R Vh Hn V1 V2 V3. pose proof Hp as [P1 [P2 [P3 _]]].
  assert (L : laws dops dkey not_nan dfine ddraw (c_features dops c)) by (apply laws_dops; destruct Hs as [? [? ?]]; lia).
  destruct (reached_def dops exp_ log_ rnd c l0 dkey not_nan dfine ddraw L fine_zero Hd Hs P1 (ctrims_safe _ _ P2) (plain_low _ _ _ Hp) P3 s h x label R) as [[[s' b] E]|[E _]]; eauto using all_fine, creached_fine, creached_labels.
Qed.
Print Assumptions coarse_train_outcome.
(** *** C104: ... and well in exact arithmetic *)
Theorem coarse_train_total_exact : forall exp_ log_ rnd (c : config rops) l0, csizes rops c l0 -> plain rops rnd c -> c_features rops c <= 2147483647 -> (forall k, rdraw (rnd k)) ->
  forall s h x label, creached rops exp_ log_ rnd c l0 s h -> Z.of_nat (length h) < 2147483647 ->
  Z.of_nat (length x) = c_features rops c -> 0 <= label < c_labels rops c ->
  exists s' b, train rops log_ rnd c s x label = Ok (s', b).
Proof.
  intros exp_ log_ rnd c l0 Hs Hp Hf Hd s h x label R Hn V1 V3. pose proof Hp as [P1 [P2 [P3 _]]]. assert (F1 : 1 <= c_features rops c) by (destruct Hs as [? [? ?]]; lia).
  pose proof (laws_rops (c_features rops c) (conj F1 Hf)) as L.
  destruct (reached_def rops exp_ log_ rnd c l0 _ _ _ _ L I Hd Hs P1 (ctrims_safe_r _ _ P2) (plain_low _ _ _ Hp) P3 s h x label R) as [[[s' b] E]|[_ N]]; try (now apply creached_labels with (1 := R)); eauto; try (intros d _; exact I).
  { apply Forall_forall. intros p _ d _. exact I. }
  exfalso. apply N. now apply Unbound_Reach.able_rops.
Qed.
Print Assumptions coarse_train_total_exact.

(** *** C114: with the counters brought up to date after every point and fewer nodes than trees, the first training is undefined *)
Theorem coarse_few_nodes : forall exp_ log_ rnd (c : config dops) l0, csizes dops c l0 -> c_extend dops c <> EXTEND_BARYCENTER -> ctrims dops rnd c ->
  (c_manage dops c = COBBLE_MANAGEMENT \/ c_manage dops c = OPTIMISTIC_COBBLE_MANAGEMENT -> c_size_limit dops c <= 101) -> c_features dops c <= 2147483647 -> (forall k, ddraw (rnd k)) ->
  c_optimize dops c = true -> c_nodes dops c < c_trees dops c ->
  forall s h x label, creached dops exp_ log_ rnd c l0 s h -> Forall (fun p => Forall dfine (fst p)) h -> Z.of_nat (length x) = c_features dops c -> Forall dfine x -> 0 <= label < c_labels dops c ->
  h = [] /\ exists u, train dops log_ rnd c s x label = Undef u.
Proof.
  intros exp_ log_ rnd c l0 Hs Hk Ht Hl Hf Hd Op Few s h x label R Vh V1 V2 V3.
  assert (L : laws dops dkey not_nan dfine ddraw (c_features dops c)) by (apply laws_dops; destruct Hs as [? [? ?]]; lia).
  assert (Low : cobble dops c = true -> c_size_limit dops c <= 101) by (intros Cb; apply Hl; unfold cobble in Cb; apply orb_true_iff in Cb; destruct Cb as [X|X]; apply Z.eqb_eq in X; auto).
  eapply (starved_undef dops exp_ log_ rnd c l0 dkey not_nan dfine ddraw L fine_zero Hd Hs Hk (ctrims_safe _ _ Ht) Low Op Few s h x label R); eauto using all_fine, creached_fine.
Qed.
Print Assumptions coarse_few_nodes.
(** *** C114: ... and with a node for every tree, training is defined (exact arithmetic) *)
Theorem coarse_enough_nodes : forall exp_ log_ rnd (c : config rops) l0, csizes rops c l0 -> c_extend rops c <> EXTEND_BARYCENTER -> ctrims rops rnd c ->
  (c_manage rops c = COBBLE_MANAGEMENT \/ c_manage rops c = OPTIMISTIC_COBBLE_MANAGEMENT -> c_size_limit rops c <= 101) -> c_features rops c <= 2147483647 -> (forall k, rdraw (rnd k)) ->
  c_optimize rops c = true ->
  (c_trees rops c <= c_nodes rops c <-> forall s h x label, creached rops exp_ log_ rnd c l0 s h -> Z.of_nat (length h) < 2147483647 -> Z.of_nat (length x) = c_features rops c -> 0 <= label < c_labels rops c ->
     exists s' b, train rops log_ rnd c s x label = Ok (s', b)).
Proof.
  intros exp_ log_ rnd c l0 Hs Hk Ht Hl Hf Hd Op. split.
  - intros Few s h x label R Hn V1 V2. eapply (coarse_train_total_exact exp_ log_ rnd c l0 Hs); eauto. split; [exact Hk|]. split; [exact Ht|]. split; [auto|exact Hl].
  - intros H. destruct (Z_le_gt_dec (c_trees rops c) (c_nodes rops c)) as [X|X]; [exact X|exfalso]. pose proof Hs as [_ [F1 [L1 _]]].
    pose proof (laws_rops (c_features rops c) (conj F1 Hf)) as L. set (x := repeat 0%R (Z.to_nat (c_features rops c))). assert (Lx : Z.of_nat (length x) = c_features rops c) by (unfold x; rewrite repeat_length; lia).
    assert (Low : cobble rops c = true -> c_size_limit rops c <= 101) by (intros Cb; apply Hl; unfold cobble in Cb; apply orb_true_iff in Cb; destruct Cb as [Y|Y]; apply Z.eqb_eq in Y; auto).
    destruct (starved_undef rops exp_ log_ rnd c l0 _ _ _ _ L I Hd Hs Hk (ctrims_safe_r _ _ Ht) Low Op ltac:(lia) _ [] x 0 (creached_new _ _ _ _ _ _) ltac:(constructor) Lx ltac:(lia) ltac:(intros d _; exact I)) as [_ [u E]].
    destruct (H _ [] x 0 (creached_new _ _ _ _ _ _) ltac:(cbn; lia) Lx ltac:(lia)) as [s' [b E']]. congruence.
Qed.
Print Assumptions coarse_enough_nodes.
(** *** C104: with a greater size limit, training a tree of height 102 writes past the stack *)
(** One tree, one feature, one label, 300 nodes, size limit 200. *)
Definition conf_deep : config dops :=
  Build_config dops 1 1 1 300 (dofZ 10) dhalf dhalf COBBLE_MANAGEMENT 200 FE_DISTRIBUTION_ZERO SPLIT_TRIGGER_NONE dhalf dhalf SPLIT_HELPER_NONE EXTEND_ORIGINAL TRIM_NONE done false.
(** The points 0, 1, 4, 9, ...: each of them is far from the ones before it, so that the tree grows at the root. *)
Definition squares (n : nat) : list (point dops) := map (fun k => ([dofZ (Z.of_nat k * Z.of_nat k)], 0)) (seq 0 n).
Definition check_deep (c : config dops) (rnd : nat -> dbl) (ps : list (point dops)) (p : point dops) (ok : res (coarse dops * bool) -> bool) : bool :=
  forallb (valid_d (c_features dops c) (c_labels dops c)) (p :: ps) &&
  match crun c log_c rnd (forest_init dops c true 0) ps with Ok s => ok (train dops log_c rnd c s (fst p) (snd p)) | _ => false end.
Lemma check_deep_ok : forall c rnd ps p ok, check_deep c rnd ps p ok = true ->
  exists s, creached dops exp_h log_c rnd c 0 s (rev ps) /\ Forall (fun p => Forall dfine (fst p)) (rev ps) /\ valid dops (c_features dops c) (c_labels dops c) dfine p /\ ok (train dops log_c rnd c s (fst p) (snd p)) = true.
Proof.
  intros c rnd ps p ok H. unfold check_deep in H. apply andb_true_iff in H. destruct H as [V H]. apply valid_d_ok in V. inversion V as [|? ? Vp Vs]; subst. destruct (crun c log_c rnd _ ps) as [s|u| |] eqn:E; try discriminate.
  exists s. split; [|split; [|auto]].
  - rewrite <- (app_nil_r (rev ps)). apply crun_reached with (forest_init dops c true 0); [exact Vs|constructor|exact E].
  - apply Forall_rev. eapply Forall_impl; [|exact Vs]. intros q [_ [X _]]. exact X.
Qed.
Definition out_of_bounds (r : res (coarse dops * bool)) : bool := match r with Undef OutOfBounds => true | _ => false end.
Definition goes_well (r : res (coarse dops * bool)) : bool := match r with Ok _ => true | _ => false end.
Lemma run_deep : check_deep conf_deep (cycle [dhalf]) (squares 102) ([dzero], 0) out_of_bounds = true.
Proof. vm_compute. reflexivity. Qed.
Lemma draws_half : forall k, ddraw (cycle [dhalf] k).
Proof. apply cycle_draw. vm_compute. reflexivity. Qed.
Lemma csizes_deep : csizes dops conf_deep 0.
Proof. unfold csizes, conf_deep. cbn [c_trees c_features c_labels c_nodes c_life]. repeat split; try lia. Qed.
Theorem coarse_deep_refuted : exists (c : config dops) rnd s h x label, csizes dops c 0 /\ c_extend dops c = EXTEND_ORIGINAL /\ c_trim dops c = TRIM_NONE /\ (forall k, ddraw (rnd k)) /\
  creached dops exp_h log_c rnd c 0 s h /\ length h = 102%nat /\ valid dops (c_features dops c) (c_labels dops c) dfine (x, label) /\ train dops log_c rnd c s x label = Undef OutOfBounds.
Proof.
  destruct (check_deep_ok _ _ _ _ _ run_deep) as [s [R [_ [V H]]]]. exists conf_deep, (cycle [dhalf]), s, (rev (squares 102)), [dzero], 0.
  split; [exact csizes_deep|]. split; [reflexivity|]. split; [reflexivity|]. split; [exact draws_half|]. split; [exact R|]. split; [reflexivity|]. split; [exact V|].
  cbn [fst snd] in H. unfold out_of_bounds in H. destruct (train _ _ _ _ _ _ _) as [?|[]| |]; try discriminate. reflexivity.
Qed.
Print Assumptions coarse_deep_refuted.

(** The same points with the limit 101 are learned. *)
Definition conf_101 : config dops :=
  Build_config dops 1 1 1 300 (dofZ 10) dhalf dhalf COBBLE_MANAGEMENT 101 FE_DISTRIBUTION_ZERO SPLIT_TRIGGER_NONE dhalf dhalf SPLIT_HELPER_NONE EXTEND_ORIGINAL TRIM_NONE done false.
Lemma run_101 : check_deep conf_101 (cycle [dhalf]) (squares 102) ([dzero], 0) goes_well = true.
Proof. vm_compute. reflexivity. Qed.
Example coarse_train_example : exists s, creached dops exp_h log_c (cycle [dhalf]) conf_101 0 s (rev (squares 102)) /\ csizes dops conf_101 0 /\ plain dops (cycle [dhalf]) conf_101 /\
  (exists s' b, train dops log_c (cycle [dhalf]) conf_101 s [dzero] 0 = Ok (s', b)) /\
  ((exists s' b, train dops log_c (cycle [dhalf]) conf_101 s [done] 0 = Ok (s', b)) \/ (exists u, train dops log_c (cycle [dhalf]) conf_101 s [done] 0 = Undef u)).
Proof.
  destruct (check_deep_ok _ _ _ _ _ run_101) as [s [R [F [V H]]]]. exists s. assert (Sz : csizes dops conf_101 0) by (unfold csizes, conf_101; cbn [c_trees c_features c_labels c_nodes c_life]; repeat split; try lia).
  assert (P : plain dops (cycle [dhalf]) conf_101) by (split; [discriminate|]; split; [left; reflexivity|]; split; [discriminate|]; intros _; cbn; lia).
  split; [exact R|]. split; [exact Sz|]. split; [exact P|]. split.
  - cbn [fst snd] in H. unfold goes_well in H. destruct (train _ _ _ _ _ _ _) as [[s' b]|?| |]; try discriminate. eauto.
  - apply (coarse_train_outcome exp_h log_c (cycle [dhalf]) conf_101 0 Sz P ltac:(cbn; lia) draws_half s (rev (squares 102)) [done] 0 R F); [rewrite rev_length; unfold squares; rewrite map_length, seq_length; lia|reflexivity|repeat constructor|cbn; lia].
Qed.

(** Three points in exact arithmetic, one after the other. *)
Definition conf_r : config rops :=
  Build_config rops 1 1 1 20 10%R (/ 2)%R (/ 2)%R PHOENIX_MANAGEMENT (-1) FE_DISTRIBUTION_ZERO SPLIT_TRIGGER_NONE (/ 2)%R (/ 2)%R SPLIT_HELPER_NONE EXTEND_GHOST TRIM_NONE 1%R false.
Example coarse_train_exact_example : exists s s' b, creached rops exp ln (fun _ => / 2)%R conf_r 0 s [([1%R], 0); ([0%R], 0)] /\ train rops ln (fun _ => / 2)%R conf_r s [5%R] 0 = Ok (s', b).
Proof.
  assert (Sz : csizes rops conf_r 0) by (unfold csizes, conf_r; cbn [c_trees c_features c_labels c_nodes c_life]; repeat split; try lia; apply Rle_iff; cbn; lra).
  assert (P : plain rops (fun _ => / 2)%R conf_r) by (split; [discriminate|]; split; [left; reflexivity|]; split; [discriminate|]; intros [X|X]; discriminate).
  assert (T : forall s h x, creached rops exp ln (fun _ => / 2)%R conf_r 0 s h -> Z.of_nat (length h) < 2147483647 -> exists s' b, train rops ln (fun _ => / 2)%R conf_r s [x] 0 = Ok (s', b)).
  { intros s h x R Hn. apply (coarse_train_total_exact exp ln (fun _ => / 2)%R conf_r 0 Sz P ltac:(cbn; lia) ltac:(intros; unfold rdraw; lra) s h [x] 0 R Hn); [reflexivity|cbn; lia]. }
  destruct (T _ _ 0%R (creached_new _ _ _ _ _ _) ltac:(cbn; lia)) as [s1 [b1 E1]]. assert (R1 : creached rops exp ln (fun _ => / 2)%R conf_r 0 s1 [([0%R], 0)]) by (eapply creached_train; [apply creached_new|reflexivity|cbn; lia|exact E1]).
  destruct (T _ _ 1%R R1 ltac:(cbn; lia)) as [s2 [b2 E2]]. assert (R2 : creached rops exp ln (fun _ => / 2)%R conf_r 0 s2 [([1%R], 0); ([0%R], 0)]) by (eapply creached_train; [exact R1|reflexivity|cbn; lia|exact E2]).
  destruct (T _ _ 5%R R2 ltac:(cbn; lia)) as [s3 [b3 E3]]. eauto.
Qed.

(** A training call that fades, trims a leaf and brings the counters up to date. *)
Definition conf_busy : config dops :=
  Build_config dops 1 2 2 5 (dofZ 10) dhalf dhalf PHOENIX_MANAGEMENT (-1) FE_DISTRIBUTION_ZERO SPLIT_TRIGGER_SFE dhalf dhalf SPLIT_HELPER_NONE EXTEND_ORIGINAL TRIM_FADING done true.
Definition points_busy : list (point dops) := [([dhalf; done], 0); ([dhalf; done], 0)] ++ repeat ([dofZ 4; dofZ 2], 0) 197 ++ [([dofZ 9; dofZ 9], 1)].
Lemma run_busy : check_deep conf_busy (cycle draws_c) points_busy ([dofZ 4; dofZ 2], 0) (fun r => match r with Ok (s, b) => b && (2 <=? avail dops s) | _ => false end) = true.
Proof. vm_compute. reflexivity. Qed.
Lemma run_busy_full : check_deep conf_busy (cycle draws_c) (firstn 199 points_busy) ([dofZ 9; dofZ 9], 1) (fun r => match r with Ok (s, b) => b && (avail dops s =? 0) | _ => false end) = true.
Proof. vm_compute. reflexivity. Qed.
Example coarse_busy_example : exists s s' s'', plain dops (cycle draws_c) conf_busy /\ creached dops exp_h log_c (cycle draws_c) conf_busy 0 s (rev points_busy) /\
  train dops log_c (cycle draws_c) conf_busy s [dofZ 4; dofZ 2] 0 = Ok (s', true) /\ 2 <= avail dops s' /\
  creached dops exp_h log_c (cycle draws_c) conf_busy 0 s'' (rev points_busy) /\ avail dops s'' = 0 /\
  ((exists r b, train dops log_c (cycle draws_c) conf_busy s' [dofZ 1; dofZ 7] 1 = Ok (r, b)) \/ (exists u, train dops log_c (cycle draws_c) conf_busy s' [dofZ 1; dofZ 7] 1 = Undef u)).
Proof.
  assert (P : plain dops (cycle draws_c) conf_busy) by (split; [discriminate|]; split; [right; right; left; reflexivity|]; split; [intros _; cbn; lia|]; intros [X|X]; discriminate).
  assert (Sz : csizes dops conf_busy 0) by (unfold csizes, conf_busy; cbn [c_trees c_features c_labels c_nodes c_life]; repeat split; try lia).
  destruct (check_deep_ok _ _ _ _ _ run_busy) as [s [R [F [V H]]]]. cbn [fst snd] in H. destruct (train _ _ _ _ s _ _) as [[s' b]|?| |] eqn:T; try discriminate. apply andb_true_iff in H. destruct H as [-> H]. apply Z.leb_le in H.
  destruct (check_deep_ok _ _ _ _ _ run_busy_full) as [s0 [R0 [_ [V0 H0]]]]. cbn [fst snd] in H0. destruct (train _ _ _ _ s0 _ _) as [[s'' b0]|?| |] eqn:T0; try discriminate. apply andb_true_iff in H0. destruct H0 as [-> H0]. apply Z.eqb_eq in H0.
  exists s, s', s''. split; [exact P|]. split; [exact R|]. split; [exact T|]. split; [exact H|]. split.
  - change (rev points_busy) with (([dofZ 9; dofZ 9], 1) :: rev (firstn 199 points_busy)). eapply creached_train; [exact R0|reflexivity|cbn; lia|exact T0].
  - split; [exact H0|]. assert (R' : creached dops exp_h log_c (cycle draws_c) conf_busy 0 s' (([dofZ 4; dofZ 2], 0) :: rev points_busy)) by (eapply creached_train; [exact R|reflexivity|cbn; lia|exact T]).
    apply (coarse_train_outcome exp_h log_c (cycle draws_c) conf_busy 0 Sz P ltac:(cbn; lia) draws_c_ok s' _ [dofZ 1; dofZ 7] 1 R'); [constructor; [repeat constructor|exact F]|cbn [length]; rewrite rev_length; change (length points_busy) with 200%nat; lia|reflexivity|repeat constructor|cbn; lia].
Qed.
(** Three trees: the first training is undefined with two nodes, and defined with three. *)
Definition conf_three (nodes : Z) : config dops :=
  Build_config dops 3 1 1 nodes (dofZ 10) dhalf dhalf PHOENIX_MANAGEMENT (-1) FE_DISTRIBUTION_ZERO SPLIT_TRIGGER_NONE dhalf dhalf SPLIT_HELPER_NONE EXTEND_ORIGINAL TRIM_NONE done true.
Lemma run_three : check_deep (conf_three 3) (cycle [dhalf]) [] ([done], 0) goes_well = true.
Proof. vm_compute. reflexivity. Qed.
Example coarse_few_nodes_example : (exists u, train dops log_c (cycle [dhalf]) (conf_three 2) (forest_init dops (conf_three 2) true 0) [done] 0 = Undef u) /\
  exists s s' b, creached dops exp_h log_c (cycle [dhalf]) (conf_three 3) 0 s [] /\ train dops log_c (cycle [dhalf]) (conf_three 3) s [done] 0 = Ok (s', b).
Proof.
  split.
  - apply (coarse_few_nodes exp_h log_c (cycle [dhalf]) (conf_three 2) 0) with (h := []); try discriminate; try reflexivity; try (cbn; lia); [unfold csizes, conf_three; cbn [c_trees c_features c_labels c_nodes c_life]; repeat split; lia|left; reflexivity|exact draws_half|constructor|constructor|repeat constructor].
  - destruct (check_deep_ok _ _ _ _ _ run_three) as [s [R [_ [_ H]]]]. cbn [fst snd] in H. unfold goes_well in H. destruct (train _ _ _ _ s _ _) as [[s' b]|?| |] eqn:T; try discriminate. eauto.
Qed.
(** The same configuration in exact arithmetic. *)
Definition conf_three_r (nodes : Z) : config rops :=
  Build_config rops 3 1 1 nodes 10%R (/ 2)%R (/ 2)%R PHOENIX_MANAGEMENT (-1) FE_DISTRIBUTION_ZERO SPLIT_TRIGGER_NONE (/ 2)%R (/ 2)%R SPLIT_HELPER_NONE EXTEND_ORIGINAL TRIM_COUNT 1%R true.
Example coarse_enough_nodes_example : exists s b, train rops ln (fun _ => / 2)%R (conf_three_r 3) (forest_init rops (conf_three_r 3) true 0) [5%R] 0 = Ok (s, b).
Proof.
  apply (coarse_enough_nodes exp ln (fun _ => / 2)%R (conf_three_r 3) 0) with (h := []); try discriminate; try reflexivity; try (cbn; lia); [|right; left; reflexivity|intros; unfold rdraw; lra|constructor].
  unfold csizes, conf_three_r. cbn [c_trees c_features c_labels c_nodes c_life]. repeat split; try lia; apply Rle_iff; cbn; lra.
Qed.
