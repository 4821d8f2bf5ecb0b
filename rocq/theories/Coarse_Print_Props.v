(** * Properties of the coarse Mondrian forest: the self-check and the printing *)
From Coq Require Import ZArith List Bool Lia Reals Lra Permutation.
From Flocq Require Import Core BinarySingleNaN.
From Verif Require Import CppBase CppFacts Dbl DblFacts NumOps NumFacts Utils_Model Utils_Spec Utils_Proofs MCNN_Num.
From Verif Require Import Mondrian_Model Mondrian_Spec Mondrian_Proofs Mondrian_Num Mondrian_Runs Mondrian_Props.
From Verif Require Import Coarse_Model Coarse_Spec Coarse_Heap Coarse_Walk Coarse_Train Coarse_Trim Coarse_Forest Coarse_Reach Coarse_Tidy Coarse_Props.
From Verif Require Import Coarse_Total Coarse_Total_Props Coarse_Predict Coarse_Predict_Props Coarse_Innocent Coarse_Innocent_Props Coarse_Print_Model Coarse_Print_Spec Coarse_Print.
Import ListNotations.
Local Open Scope Z_scope.

Section Binary64.
  Variable exp_ log_ : dbl -> dbl.
  Variable rnd : nat -> dbl.
  Variable c : config dops.
  Variable l0 : Z.
  Hypothesis Hs : csizes dops c l0.
  Hypothesis Hkind : c_extend dops c <> EXTEND_BARYCENTER.
  Hypothesis Htrim : ctrims dops rnd c.
  Local Notation creached := (creached dops exp_ log_ rnd c l0).
  Local Notation preached := (preached dops exp_ log_ rnd c l0).
  Local Notation predict := (predict dops exp_ c).
  Local Notation train := (train dops log_ rnd c).

  (** *** C110: the self-check accepts every tree that is stored properly and is not higher than 101 nodes *)
  Theorem coarse_check_accepts : forall s ts i, ctrees dops c s ts -> (forall t, In (Some t) ts -> height dops t <= 101) -> 0 <= i < c_trees dops c -> tree_checker dops c s i = Ok true.
  Proof. intros s ts i T Lo Hi. exact (forest_checked dops c s ts i T Lo Hi). Qed.
  (** *** C110: the debug build trains like the other one *)
  Theorem coarse_debug_train : shallow dops c -> forall s h x label s' b, creached s h -> Z.of_nat (length x) = c_features dops c -> 0 <= label < c_labels dops c ->
    train s x label = Ok (s', b) -> train_debug dops log_ rnd c s x label = Ok (s', b).
  Proof. intros Sh s h x label s' b. apply (debug_train dops exp_ log_ rnd c l0 tlaws_dops Hs Hkind (ctrims_safe _ _ Htrim) Sh). Qed.

  (** *** C111: after a training, each node of each tree is printed once, below its parent, with its depth and its present contents *)
  Theorem coarse_print_lists : shallow dops c -> c_trees dops c <= c_nodes dops c -> forall s h, creached s h -> h <> [] ->
    exists ts lines, ctrees dops c s ts /\ printy dops c s = Ok lines /\ map (columns dops) lines = listings dops 0 ts /\ Forall (true_line dops s) lines /\
      Permutation (map nv_node lines) (all_cids dops ts).
  Proof.
    intros Sh Hn s h R Hh. destruct (reached_shallow dops exp_ log_ rnd c l0 tlaws_dops Hs Hkind (ctrims_safe _ _ Htrim) Sh s h R) as [ts [V Lo]].
    pose proof (some_tree dops exp_ log_ rnd c l0 tlaws_dops Hs Hkind (ctrims_safe _ _ Htrim) Hn s h ts R Hh V) as Nn. apply inv_ctrees in V.
    destruct (printy_ok dops c s ts V Lo Nn) as [lines [E [M F]]]. exists ts, lines. split; [exact V|]. split; [exact E|]. split; [exact M|]. split; [exact F|].
    rewrite <- (listings_ids dops ts 0), <- M, map_map. reflexivity.
  Qed.
  (** *** C111: a tree that could not be created is printed from in front of the nodes *)
  Theorem coarse_print_missing : forall s ts, ctrees dops c s ts -> (forall t, In (Some t) ts -> height dops t <= 101) -> In None ts -> 1 <= c_nodes dops c -> printy dops c s = Undef OutOfBounds.
  Proof. intros s ts T Lo Nn Hn. exact (printy_missing dops c s ts T Lo Nn Hn). Qed.

  (** *** C112: training with printing answers what training without it answers *)
  Theorem coarse_print_train : c_optimize dops c = false -> c_extend dops c <> EXTEND_GHOST -> shallow dops c -> 1 <= c_trees dops c <= c_nodes dops c ->
    forall s h x label s' b, creached s h -> Z.of_nat (length x) = c_features dops c -> 0 <= label < c_labels dops c -> train s x label = Ok (s', b) ->
    exists s1 out, train_print dops exp_ log_ rnd c s x label = Ok (s1, b, out).
  Proof. intros Ho Hg Sh Ht s h x label s' b. apply (print_train dops exp_ log_ rnd c l0 tlaws_dops Hs Hkind (ctrims_safe _ _ Htrim) Ho Hg Sh Ht). Qed.
  (** *** C112: and a forest that prints predicts and holds what one that does not print does *)
  Theorem coarse_print_innocent : c_optimize dops c = false -> c_extend dops c <> EXTEND_GHOST -> forall s s' h, creached s h -> preached s' h ->
    (forall x sc k, predict s' x sc k = predict s x sc k) /\
    exists ts ts', ctrees dops c s ts /\ ctrees dops c s' ts' /\ map (option_map bare) ts' = map (option_map bare) ts.
  Proof.
    intros Ho Hg s s' h R P. apply (preached_creached dops exp_ log_ rnd c l0 Hs Ho Hg) in P. split; [intros; now apply (coarse_predict_unasked exp_ log_ rnd c l0 Hs Hkind Htrim s s' h)|].
    destruct (coarse_trees_unasked exp_ log_ rnd c l0 Hs Hkind Htrim s s' h R P) as [ts [ts' [A [B [C _]]]]]. eauto.
  Qed.
  (** *** C112: what is printed before a training: one line for each tree, and one for the forest that repeats the last tree *)
  Theorem coarse_scores_lines : 1 <= c_trees dops c -> forall s h x label, creached s h -> Z.of_nat (length x) = c_features dops c ->
    exists s1 lines line, scory dops exp_ c s x label = Ok (s1, lines ++ [line]) /\ length lines = Z.to_nat (c_trees dops c) /\ lt_tree line = -1 /\
      exists e, List.last (map Some lines) None = Some e /\ lt_prediction line = lt_prediction e /\ lt_scores line = lt_scores e.
  Proof. intros Ht s h x label. apply (scory_total dops exp_ log_ rnd c l0 tlaws_dops Hs Hkind (ctrims_safe _ _ Htrim) Ht). Qed.
End Binary64.
Print Assumptions coarse_check_accepts.
Print Assumptions coarse_debug_train.
Print Assumptions coarse_print_lists.
Print Assumptions coarse_print_missing.
Print Assumptions coarse_print_train.
Print Assumptions coarse_print_innocent.
Print Assumptions coarse_scores_lines.

Local Notation reached_c c := (creached dops exp_h log_c (cycle draws_c) c 0).
Lemma trims_c : forall nc m l e rnd, ctrims dops rnd (conf nc m l e TRIM_NONE).
Proof. intros. left. reflexivity. Qed.

(** *** C110: without a size limit, the self-check of a tree of height 102 reads outside of its stack *)
Definition conf_tall : config dops :=
  Build_config dops 1 1 1 300 (dofZ 10) dhalf dhalf PHOENIX_MANAGEMENT (-1) FE_DISTRIBUTION_ZERO SPLIT_TRIGGER_NONE dhalf dhalf SPLIT_HELPER_NONE EXTEND_ORIGINAL TRIM_NONE done false.
Definition outside {A} (r : res A) : bool := match r with Undef OutOfBounds => true | _ => false end.
Lemma outside_ok : forall A (r : res A), outside r = true -> r = Undef OutOfBounds.
Proof. intros A [|[]| |]; try discriminate. reflexivity. Qed.
Lemma run_tall : check_deep conf_tall (cycle [dhalf]) (squares 102) ([dzero], 0) (fun r => match r with Ok (s, _) => outside (tree_checker dops conf_tall s 0) && outside (printy dops conf_tall s) | _ => false end) = true.
Proof. vm_compute. reflexivity. Qed.
Theorem coarse_debug_deep_refuted : exists (c : config dops) rnd s h x label s' b, csizes dops c 0 /\ c_extend dops c = EXTEND_ORIGINAL /\ c_trim dops c = TRIM_NONE /\ (forall k, ddraw (rnd k)) /\
  creached dops exp_h log_c rnd c 0 s h /\ valid dops (c_features dops c) (c_labels dops c) dfine (x, label) /\
  train dops log_c rnd c s x label = Ok (s', b) /\ train_debug dops log_c rnd c s x label = Undef OutOfBounds /\ printy dops c s' = Undef OutOfBounds.
Proof.
  destruct (check_deep_ok _ _ _ _ _ run_tall) as [s [R [_ [V H]]]]. cbn [fst snd] in H. destruct (train dops log_c (cycle [dhalf]) conf_tall s [dzero] 0) as [[s' b]|?| |] eqn:E; try discriminate.
  apply andb_true_iff in H. destruct H as [H1 H2]. apply outside_ok in H1, H2. exists conf_tall, (cycle [dhalf]), s, (rev (squares 102)), [dzero], 0, s', b.
  split; [unfold csizes, conf_tall; cbn [c_trees c_features c_labels c_nodes c_life]; repeat split; try lia|]. split; [reflexivity|]. split; [reflexivity|]. split; [exact draws_half|]. split; [exact R|]. split; [exact V|]. split; [exact E|]. split; [|exact H2].
  unfold train_debug. rewrite E. cbn [bind]. change (Z.to_nat (c_trees dops conf_tall)) with 1%nat. cbn [forZ]. rewrite H1. reflexivity.
Qed.
Print Assumptions coarse_debug_deep_refuted.

(** Four points in 20 nodes: both trees pass; a tree with a wrong link does not. *)
Definition cut_link (s : coarse dops) (i : Z) : res (coarse dops) := change dops s i (fun n => Ok (mkNode dops (split_dimension dops n) (split_value dops n) (bound_lower dops n) (bound_upper dops n) i (child_left dops n) (child_right dops n) (tau dops n) (counters dops n))).
Definition kids (s : coarse dops) : Z := match rd (roots dops (fr dops s)) 0 with Ok r => match get dops s r with Ok n => child_left dops n | _ => -1 end | _ => -1 end.
Lemma run_cut : ccheck conf_c points_c (fun s => match cut_link s (kids s) with Ok s' => match tree_checker dops conf_c s' 0 with Ok false => true | _ => false end | _ => false end &&
  match train_debug dops log_c (cycle draws_c) conf_c s (sixteenths 1 1) 0 with Ok (s', _) => total dops s' =? 5 | _ => false end) = true.
Proof. vm_compute. reflexivity. Qed.
Example coarse_check_example : exists s s' s1 b, reached_c conf_c s (rev points_c) /\ tree_checker dops conf_c s 0 = Ok true /\ tree_checker dops conf_c s 1 = Ok true /\
  cut_link s (kids s) = Ok s' /\ tree_checker dops conf_c s' 0 = Ok false /\ train_debug dops log_c (cycle draws_c) conf_c s (sixteenths 1 1) 0 = Ok (s1, b) /\ total dops s1 = 5.
Proof.
  pose proof run_cut as H. apply ccheck_reached in H. destruct H as [s [R H]]. apply andb_true_iff in H. destruct H as [H1 H2]. destruct (cut_link s (kids s)) as [s'|?| |] eqn:E; try discriminate.
  destruct (tree_checker dops conf_c s' 0) as [[|]|?| |] eqn:E1; try discriminate. destruct (train_debug dops log_c (cycle draws_c) conf_c s (sixteenths 1 1) 0) as [[s1 b]|?| |] eqn:E2; try discriminate. apply Z.eqb_eq in H2.
  destruct (reached_shallow dops exp_h log_c (cycle draws_c) conf_c 0 tlaws_dops (csizes_c 20 _ _ _ _ ltac:(lia)) ltac:(discriminate) (ctrims_safe _ _ (trims_c _ _ _ _ _)) ltac:(right; cbn; lia) s _ R) as [ts [V Lo]]. apply inv_ctrees in V.
  exists s, s', s1, b. split; [exact R|]. split; [apply (coarse_check_accepts conf_c s ts 0 V Lo); cbn; lia|]. split; [apply (coarse_check_accepts conf_c s ts 1 V Lo); cbn; lia|]. auto.
Qed.

(** What is printed of four points in two trees. *)
Fixpoint flat (l : list (Z * (Z * Z * Z))) : list Z := match l with [] => [] | (a, (b, d, e)) :: l => a :: b :: d :: e :: flat l end.
Definition lines_c : list (Z * (Z * Z * Z)) :=
  [(0, (2, 0, 0)); (0, (3, 1, 1)); (0, (10, 1, 0)); (0, (11, 2, 1)); (0, (6, 2, 0)); (0, (7, 3, 1)); (0, (0, 3, 1));
   (1, (4, 0, 0)); (1, (5, 1, 1)); (1, (12, 1, 0)); (1, (13, 2, 1)); (1, (8, 2, 0)); (1, (9, 3, 1)); (1, (1, 3, 1))].
Lemma run_lines : ccheck conf_c points_c (fun s => match printy dops conf_c s with Ok lines => if list_eq_dec Z.eq_dec (flat (map (columns dops) lines)) (flat lines_c) then true else false | _ => false end) = true.
Proof. vm_compute. reflexivity. Qed.
Example coarse_print_example : exists s ts lines, reached_c conf_c s (rev points_c) /\ ctrees dops conf_c s ts /\ printy dops conf_c s = Ok lines /\ map (columns dops) lines = listings dops 0 ts /\
  flat (map (columns dops) lines) = flat lines_c /\ Permutation (map nv_node lines) (all_cids dops ts).
Proof.
  pose proof run_lines as H. apply ccheck_reached in H. destruct H as [s [R H]].
  destruct (coarse_print_lists exp_h log_c (cycle draws_c) conf_c 0 (csizes_c 20 _ _ _ _ ltac:(lia)) ltac:(discriminate) (trims_c _ _ _ _ _) ltac:(right; cbn; lia) ltac:(cbn; lia) s _ R ltac:(discriminate)) as [ts [lines [T [E [M [_ P]]]]]].
  rewrite E in H. destruct (list_eq_dec Z.eq_dec _ _) as [X|]; [|discriminate]. exists s, ts, lines. auto 8.
Qed.
(** Two trees, one node: the second tree is never created. Training works, printing reads outside of the nodes. *)
Definition conf_one : config dops := conf 1 PHOENIX_MANAGEMENT (-1) EXTEND_ORIGINAL TRIM_NONE.
Lemma run_one : ccheck conf_one (firstn 1 points_c) (fun s => trains (train dops log_c (cycle draws_c) conf_one s (sixteenths 1 1) 0) && outside (train_print dops exp_h log_c (cycle draws_c) conf_one s (sixteenths 1 1) 0)) = true.
Proof. vm_compute. reflexivity. Qed.
Theorem coarse_print_one_refuted : exists (c : config dops) rnd s h x label s' b, csizes dops c 0 /\ shallow dops c /\ c_trim dops c = TRIM_NONE /\ c_extend dops c = EXTEND_ORIGINAL /\ c_optimize dops c = false /\
  creached dops exp_h log_c rnd c 0 s h /\ train dops log_c rnd c s x label = Ok (s', b) /\ train_print dops exp_h log_c rnd c s x label = Undef OutOfBounds.
Proof.
  pose proof run_one as H. apply ccheck_reached in H. destruct H as [s [R H]]. apply andb_true_iff in H. destruct H as [H1 H2]. apply outside_ok in H2. unfold trains in H1.
  destruct (train dops log_c (cycle draws_c) conf_one s (sixteenths 1 1) 0) as [[s' b]|?| |] eqn:E; try discriminate. exists conf_one, (cycle draws_c), s, (rev (firstn 1 points_c)), (sixteenths 1 1), 0, s', b.
  split; [apply (csizes_c 1); lia|]. split; [right; cbn; lia|]. auto 8.
Qed.
Print Assumptions coarse_print_one_refuted.
Lemma run_rootless : ccheck conf_one (firstn 1 points_c) (fun s => is_ok_z (rd (roots dops (fr dops s)) 1) (-1)) = true.
Proof. vm_compute. reflexivity. Qed.
Example coarse_missing_example : exists s ts, reached_c conf_one s (rev (firstn 1 points_c)) /\ ctrees dops conf_one s ts /\ In None ts /\ printy dops conf_one s = Undef OutOfBounds.
Proof.
  pose proof run_rootless as H. checked H.
  destruct (reached_shallow dops exp_h log_c (cycle draws_c) conf_one 0 tlaws_dops (csizes_c 1 _ _ _ _ ltac:(lia)) ltac:(discriminate) (ctrims_safe _ _ (trims_c _ _ _ _ _)) ltac:(right; cbn; lia) s _ R) as [ts [V Lo]].
  assert (Nn : In None ts). { pose proof V as [Ln _]. cbn in Ln. destruct (nth_error ts 1) as [o|] eqn:Ho; [|apply nth_error_None in Ho; lia]. apply (inv_none _ _ _ _ _ _ V Ho) in H. subst o. now apply nth_error_In in Ho. }
  apply inv_ctrees in V. exists s, ts. split; [exact R|]. split; [exact V|]. split; [exact Nn|]. apply (coarse_print_missing conf_one s ts V Lo Nn). cbn. lia.
Qed.

(** *** C112: with ghosts, printing changes the predictions, because the counters of the internal nodes are recounted *)
Fixpoint prun (c : config dops) (s : coarse dops) (ps : list (point dops)) : res (coarse dops) :=
  match ps with [] => Ok s | (x, l) :: ps => do (r, _) <- train_print dops exp_h log_c (cycle draws_c) c s x l; prun c (fst r) ps end.
Lemma prun_reached : forall c l0 ps s h s', Forall (valid dops (c_features dops c) (c_labels dops c) dfine) ps -> preached dops exp_h log_c (cycle draws_c) c l0 s h ->
  prun c s ps = Ok s' -> preached dops exp_h log_c (cycle draws_c) c l0 s' (rev ps ++ h).
Proof.
  intros c l0 ps. induction ps as [|[x l] ps IH]; intros s h s' V R E; [injection E as <-; exact R|]. inversion V as [|? ? [V1 [_ V2]] Vs]; subst. cbn [prun] in E. inv_bind E. destruct v as [[s1 b] out]. cbn [fst snd] in *.
  cbn [rev]. rewrite <- app_assoc. apply IH with s1; auto. eapply preached_train; eauto.
Qed.
Definition answer (c : config dops) (s : coarse dops) (x : list dbl) (k : Z) : bool := match predict dops exp_h c s x None (-1) with Ok (_, b, None) => b =? k | _ => false end.
Lemma answer_ok : forall c s x k, answer c s x k = true -> exists s', predict dops exp_h c s x None (-1) = Ok (s', k, None).
Proof. intros c s x k H. unfold answer in H. destruct (predict dops exp_h c s x None (-1)) as [[[s' b] [sc|]]|?| |]; try discriminate. apply Z.eqb_eq in H. subst b. eauto. Qed.
Definition pcheck (c : config dops) (ps : list (point dops)) (ok : coarse dops -> bool) : bool := match prun c (forest_init dops c true 0) ps with Ok s => ok s | _ => false end.
Lemma pcheck_reached : forall c ps ok, Forall (valid dops (c_features dops c) (c_labels dops c) dfine) ps -> pcheck c ps ok = true -> exists s, preached dops exp_h log_c (cycle draws_c) c 0 s (rev ps) /\ ok s = true.
Proof.
  intros c ps ok V H. unfold pcheck in H. destruct (prun c _ ps) as [s|?| |] eqn:E; try discriminate. exists s. split; [|exact H]. rewrite <- (app_nil_r (rev ps)). apply prun_reached with (forest_init dops c true 0); [exact V|constructor|exact E].
Qed.
Lemma around_valid : forallb (valid_d 2 2) (around 5) = true.
Proof. vm_compute. reflexivity. Qed.
Lemma run_quiet : ccheck conf_ghost (around 5) (fun s => answer conf_ghost s (sixteenths 16 16) 0) = true.
Proof. vm_compute. reflexivity. Qed.
Lemma run_loud : pcheck conf_ghost (around 5) (fun s => answer conf_ghost s (sixteenths 16 16) 1) = true.
Proof. vm_compute. reflexivity. Qed.
Theorem coarse_print_ghost_refuted : exists (c : config dops) s s' h x, csizes dops c 0 /\ c_extend dops c = EXTEND_GHOST /\ c_optimize dops c = false /\ c_trim dops c = TRIM_NONE /\
  reached_c c s h /\ preached dops exp_h log_c (cycle draws_c) c 0 s' h /\ (exists s1, predict dops exp_h c s x None (-1) = Ok (s1, 0, None)) /\ (exists s1, predict dops exp_h c s' x None (-1) = Ok (s1, 1, None)).
Proof.
  pose proof run_quiet as H. apply ccheck_reached in H. destruct H as [s [R H]]. apply answer_ok in H. pose proof run_loud as P. apply pcheck_reached in P; [|apply valid_d_ok; exact around_valid]. destruct P as [s' [R' P]]. apply answer_ok in P.
  exists conf_ghost, s, s', (rev (around 5)), (sixteenths 16 16). split; [apply (csizes_c 12); lia|]. auto 8.
Qed.
Print Assumptions coarse_print_ghost_refuted.

(** *** C112: the line printed for the forest is not the prediction of the forest *)
Definition forest_line (c : config dops) (s : coarse dops) (x : list dbl) (k : Z) : bool :=
  match scory dops exp_h c s x 0 with Ok (_, lines) => match List.last (map Some lines) None with Some e => (lt_tree e =? -1) && (lt_prediction e =? k) | None => false end | _ => false end.
Lemma run_forest_line : ccheck conf_c points_c (fun s => answer conf_c s (sixteenths 6 4) 1 && forest_line conf_c s (sixteenths 6 4) 0) = true.
Proof. vm_compute. reflexivity. Qed.
Theorem coarse_scores_forest_refuted : exists (c : config dops) s h x s1 lines e, csizes dops c 0 /\ c_extend dops c = EXTEND_ORIGINAL /\ c_optimize dops c = false /\ reached_c c s h /\
  scory dops exp_h c s x 0 = Ok (s1, lines ++ [e]) /\ lt_tree e = -1 /\ lt_prediction e = 0 /\ (exists s2, predict dops exp_h c s x None (-1) = Ok (s2, 1, None)).
Proof.
  pose proof run_forest_line as H. apply ccheck_reached in H. destruct H as [s [R H]]. apply andb_true_iff in H. destruct H as [H1 H2]. apply answer_ok in H1. unfold forest_line in H2.
  destruct (coarse_scores_lines exp_h log_c (cycle draws_c) conf_c 0 (csizes_c 20 _ _ _ _ ltac:(lia)) ltac:(discriminate) (trims_c _ _ _ _ _) ltac:(cbn; lia) s _ (sixteenths 6 4) 0 R eq_refl) as [s1 [lines [line [E [_ [T _]]]]]].
  rewrite E in H2. rewrite map_app in H2. cbn [map] in H2. rewrite last_last in H2. apply andb_true_iff in H2. destruct H2 as [_ H2]. apply Z.eqb_eq in H2.
  exists conf_c, s, (rev points_c), (sixteenths 6 4), s1, lines, line. split; [apply (csizes_c 20); lia|]. auto 8.
Qed.
Print Assumptions coarse_scores_forest_refuted.
(** *** C112: without trees, the line for the forest is made of memory that was never written *)
Theorem coarse_scores_empty_refuted : forall exp_ (c : config dops) s x label, c_trees dops c = 0 -> scory dops exp_ c s x label = Undef Uninitialised.
Proof. intros exp_ c s x label H. unfold scory, update_all. rewrite H. reflexivity. Qed.
Print Assumptions coarse_scores_empty_refuted.

(** Four points with and without printing. *)
Lemma points_valid : forallb (valid_d 2 2) points_c = true.
Proof. vm_compute. reflexivity. Qed.
Lemma run_quiet_c : ccheck conf_c points_c (fun s => (inner_sum s =? 6) && trains (train dops log_c (cycle draws_c) conf_c s (sixteenths 1 1) 0)) = true.
Proof. vm_compute. reflexivity. Qed.
Lemma run_loud_c : pcheck conf_c points_c (fun s => (inner_sum s =? 14) && answer conf_c s (sixteenths 6 4) 1) = true.
Proof. vm_compute. reflexivity. Qed.
Example coarse_print_innocent_example : exists s s' s1 b out, reached_c conf_c s (rev points_c) /\ preached dops exp_h log_c (cycle draws_c) conf_c 0 s' (rev points_c) /\ inner_sum s = 6 /\ inner_sum s' = 14 /\
  (forall x sc k, predict dops exp_h conf_c s' x sc k = predict dops exp_h conf_c s x sc k) /\ (exists s2, predict dops exp_h conf_c s (sixteenths 6 4) None (-1) = Ok (s2, 1, None)) /\
  train_print dops exp_h log_c (cycle draws_c) conf_c s (sixteenths 1 1) 0 = Ok (s1, b, out).
Proof.
  pose proof run_quiet_c as H. checked H. pose proof run_loud_c as P. apply pcheck_reached in P; [|apply valid_d_ok; exact points_valid]. destruct P as [s' [R' P]]. apply andb_true_iff in P. destruct P as [P1 P2]. apply Z.eqb_eq in P1. apply answer_ok in P2.
  assert (Sz : csizes dops conf_c 0) by (apply (csizes_c 20); lia).
  destruct (coarse_print_innocent exp_h log_c (cycle draws_c) conf_c 0 Sz ltac:(discriminate) (trims_c _ _ _ _ _) eq_refl ltac:(discriminate) s s' _ R R') as [Q _].
  assert (X : exists s2 b, train dops log_c (cycle draws_c) conf_c s (sixteenths 1 1) 0 = Ok (s2, b)) by (unfold trains in H0; destruct (train _ _ _ _ s _ _) as [[s2 b]|?| |]; [eauto|discriminate..]).
  destruct X as [s2 [b X]]. destruct (coarse_print_train exp_h log_c (cycle draws_c) conf_c 0 Sz ltac:(discriminate) (trims_c _ _ _ _ _) eq_refl ltac:(discriminate) ltac:(right; cbn; lia) ltac:(cbn; lia) s _ (sixteenths 1 1) 0 s2 b R eq_refl ltac:(cbn; lia) X) as [s1 [out E]].
  exists s, s', s1, b, out. split; [exact R|]. split; [exact R'|]. split; [assumption|]. split; [assumption|]. split; [exact Q|]. split; [|exact E]. destruct P2 as [s3 P2]. exists s3. rewrite <- Q. exact P2.
Qed.
