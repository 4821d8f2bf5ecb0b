(** * Properties of the coarse Mondrian forest (src/mondrian_coarse.hpp) *)
From Coq Require Import ZArith List Bool Lia Reals Lra Permutation.
From Flocq Require Import Core BinarySingleNaN.
From Verif Require Import CppBase CppFacts Dbl DblFacts NumOps NumFacts Utils_Model Utils_Spec Utils_Proofs MCNN_Num.
From Verif Require Import Mondrian_Model Mondrian_Spec Mondrian_Proofs Mondrian_Num Mondrian_Runs Mondrian_Props.
From Verif Require Import Coarse_Model Coarse_Spec Coarse_Heap Coarse_Walk Coarse_Train Coarse_Trim Coarse_Forest Coarse_Reach Coarse_Tidy.
Import ListNotations.
Local Open Scope Z_scope.

Lemma fine_zero : dfine (nofZ dops 0).
Proof. reflexivity. Qed.
Lemma first_share : ndiv dops (nofZ dops 1) (nadd dops (nofZ dops 0) (nofZ dops 1)) = nofZ dops 1.
Proof. apply B2SF_inj. vm_compute. reflexivity. Qed.
Lemma ctrims_safe : forall rnd c, ctrims dops rnd c -> trim_safe dops rnd c.
Proof. intros rnd c H. unfold ctrims, trim_safe in *. rewrite first_share. exact H. Qed.
Lemma csub_stored : forall O c (u t : ctree O) f p, csub u t -> stored O (c_features O c) (c_labels O c) f p t ->
  (exists q, stored O (c_features O c) (c_labels O c) f q u) /\ incl (cids O u) (cids O t) /\ (NoDup (cids O t) -> NoDup (cids O u)).
Proof.
  intros O c u t. induction t as [i cs|i d v cs l IHl r IHr]; intros f p H S; (destruct H as [->|H]; [split; [eauto|]; split; [apply incl_refl|auto]|]); [contradiction|].
  destruct S as [n [_ [_ [_ [_ [_ [_ [_ [_ [_ [_ [Sl Sr]]]]]]]]]]]]. cbn [cids]. destruct H as [H|H].
  - destruct (IHl f i H Sl) as [A [B C]]. split; [exact A|]. split; [intros j Hj; right; apply in_or_app; left; now apply B|]. intros N. apply NoDup_cons_iff in N. destruct N as [_ N]. apply nodup_app in N. tauto.
  - destruct (IHr f i H Sr) as [A [B C]]. split; [exact A|]. split; [intros j Hj; right; apply in_or_app; right; now apply B|]. intros N. apply NoDup_cons_iff in N. destruct N as [_ N]. apply nodup_app in N. tauto.
Qed.
Lemma all_cids_part : forall O (ts : list (option (ctree O))) t, In (Some t) ts -> NoDup (all_cids O ts) -> NoDup (cids O t) /\ incl (cids O t) (all_cids O ts).
Proof.
  intros O ts t. induction ts as [|o ts IH]; intros H N; [contradiction|]. cbn [all_cids map concat] in N |- *. unfold all_cids in *. destruct H as [->|H].
  - split; [apply nodup_app in N; tauto|]. intros j Hj. apply in_or_app. now left.
  - destruct (IH H) as [A B]; [apply nodup_app in N; tauto|]. split; [exact A|]. intros j Hj. apply in_or_app. right. now apply B.
Qed.
Lemma point_keeps : forall c (s : coarse dops) i a s' a', point_visit dops c s i a = Ok (s', a') -> linked dops (fr dops s) (fr dops s').
Proof. intros c s i a s' a' H. unfold point_visit in H. inv_bind H. inv_bind H. injection H as <- <-. apply linked_refl. Qed.

(** ** Binary64 *)
Section Binary64.
  Variable exp_ log_ : dbl -> dbl.
  Variable rnd : nat -> dbl.
  Variable c : config dops.
  Variable l0 : Z.
  Hypothesis Hs : csizes dops c l0.
  Hypothesis Hkind : c_extend dops c <> EXTEND_BARYCENTER.
  Local Notation creached := (creached dops exp_ log_ rnd c l0).
  Local Notation ctrees := (ctrees dops c).
  Local Notation train := (train dops log_ rnd c).
  Local Notation predicted := (predicted dops exp_ c).

  (** *** C57: the nodes in use are those of the trees, and the number of available nodes is right *)
  Theorem coarse_pool : ctrims dops rnd c -> forall s h, creached s h -> exists ts, ctrees s ts /\ avail dops s = free_count dops s.
  Proof. intros Ht. apply reached_ok; auto using tlaws_dops, ctrims_safe. Qed.

  (** *** C58: resetting a subtree frees its nodes only, and reports a failure *)
  Theorem coarse_reset : ctrims dops rnd c -> forall s h, creached s h ->
    exists ts, ctrees s ts /\ forall t u, In (Some t) ts -> csub u t -> height dops u <= 100 ->
      exists s', node_reset dops c s (ctop dops u) = Ok (s', false) /\
        (forall j, In j (cids dops u) -> exists n, get dops s' j = Ok n /\ available dops n = true) /\
        (forall j, ~ In j (cids dops u) -> get dops s' j = get dops s j) /\
        avail dops s' = avail dops s + Z.of_nat (length (cids dops u)) /\ roots dops (fr dops s') = roots dops (fr dops s).
  Proof.
    intros Ht s h R. destruct (reach_inv dops exp_ log_ rnd c l0 tlaws_dops Hs Hkind (ctrims_safe _ _ Ht) (fun _ _ _ => True)) with (s := s) (h := h) as [ts [V _]]; auto.
    exists ts. split; [now apply inv_ctrees|]. intros t u It Hu Hh. pose proof V as [V1 [V2 [[P1 [P2 [P3 [P4 [P5 P6]]]]] [V4 V5]]]].
    destruct (all_cids_part _ _ _ It P2) as [Nt It']. apply In_nth_error in It. destruct It as [i Hi]. destruct (V2 i _ Hi) as [_ St]. destruct (csub_stored _ _ _ _ _ _ Hu St) as [[q Su] [Iu Nu]].
    destruct (node_reset_ok dops c u s q) as [s' [E [F1 [F2 [F3 [F4 [F5 F6]]]]]]]; auto.
    - now apply stored_shape with c.
    - unfold csize. assert (X : incl (cids dops u) (zrange (c_nodes dops c))) by (intros j Hj; apply zrange_in, P3, It', Iu, Hj). apply NoDup_incl_length in X; auto. rewrite zrange_length in X. destruct Hs as [? [? [? [? ?]]]]. lia.
    - exists s'. split; [exact E|]. split; [intros j Hj; exists (blank_node dops c); split; [now apply F2|reflexivity]|]. auto.
  Qed.

  (** *** C91: the size limit bounds the height of the trees *)
  Theorem coarse_height : ctrims dops rnd c -> c_manage dops c = COBBLE_MANAGEMENT \/ c_manage dops c = OPTIMISTIC_COBBLE_MANAGEMENT ->
    forall s h, creached s h -> exists ts, ctrees s ts /\ forall t, In (Some t) ts -> height dops t <= Z.max 1 (c_size_limit dops c).
  Proof.
    intros Ht Hm s h R. destruct (reached_low dops exp_ log_ rnd c l0 tlaws_dops Hs Hkind (ctrims_safe _ _ Ht)) with (s := s) (h := h) as [ts [V F]]; auto; [unfold cobble; destruct Hm as [-> | ->]; reflexivity|].
    exists ts. split; [now apply inv_ctrees|]. intros t It. rewrite Forall_forall in F. specialize (F _ It). unfold low in F. replace (first_limit dops c) with (c_size_limit dops c) in F; [exact F|].
    unfold first_limit. destruct Hm as [-> | ->]; reflexivity.
  Qed.
  (** *** C92: with the default management and limit no tree is ever split *)
  Theorem coarse_default_limit : ctrims dops rnd c -> c_manage dops c = COBBLE_MANAGEMENT -> c_size_limit dops c <= 1 ->
    forall s h, creached s h -> exists ts, ctrees s ts /\ forall t, In (Some t) ts -> exists i cs, t = CLeaf i cs.
  Proof.
    intros Ht Hm Hl s h R. destruct (coarse_height Ht (or_introl Hm) s h R) as [ts [T F]]. exists ts. split; [exact T|]. intros t It. specialize (F t It). rewrite Z.max_l in F by lia.
    destruct t as [i cs|i d v cs l r]; [eauto|]. cbn [height] in F. pose proof (height_pos dops l). lia.
  Qed.

  (** *** C56: with the default extend type only the first point is used *)
  Theorem coarse_no_extend : c_extend dops c = EXTEND_NONE -> c_trim dops c = TRIM_NONE -> c_trees dops c <= c_nodes dops c ->
    forall s h x label s' b, creached s h -> h <> [] -> train s x label = Ok (s', b) ->
    fr dops s' = fr dops s /\ forall y k, predicted s' y k = predicted s y k.
  Proof.
    intros Ek Et Htn s h x label s' b R Hh T. assert (Sf : trim_safe dops rnd c) by now left.
    destruct (reached_single dops exp_ log_ rnd c l0 tlaws_dops Hs Hkind Sf Ek Et s h R) as [ts [V F]].
    pose proof (some_tree dops exp_ log_ rnd c l0 tlaws_dops Hs Hkind Sf Htn s h ts R Hh V) as N.
    assert (E : fr dops s' = fr dops s) by now apply (none_step dops log_ rnd c Ek Et s ts x label s' b).
    split; [exact E|]. intros y k. unfold Coarse_Spec.predicted. now apply predict_fr.
  Qed.

  (** *** C93: the leaves of each tree count every training point once *)
  Let fine_input (h : list (point dops)) : Prop := Forall (fun p => Forall dfine (fst p)) h.
  Lemma all_settled : (forall k, ddraw (rnd k)) -> c_features dops c <= 2147483647 -> c_trim dops c = TRIM_NONE ->
    forall s h t x, creached s h -> fine_input h -> Forall dfine x -> stored dops (c_features dops c) (c_labels dops c) (fr dops s) (-1) t -> settled dops x t.
  Proof.
    intros Hd Hf Et s h t x R Fh Fx St. assert (L : laws dops dkey not_nan dfine ddraw (c_features dops c)) by (apply laws_dops; destruct Hs as [? [? ?]]; lia).
    eapply tidy_settled; eauto. eapply tidy_reached; eauto. exact fine_zero.
  Qed.
  Theorem coarse_counts : c_extend dops c = EXTEND_ORIGINAL -> c_trim dops c = TRIM_NONE -> c_trees dops c <= c_nodes dops c -> c_features dops c <= 2147483647 -> (forall k, ddraw (rnd k)) ->
    forall s h, creached s h -> h <> [] -> Forall (fun p => Forall dfine (fst p)) h ->
    exists ts, ctrees s ts /\ forall o, In o ts -> exists t, o = Some t /\ forall l, 0 <= l -> tally dops l t = count dops l h.
  Proof.
    intros Ek Et Htn Hf Hd s h R Hh Fh. assert (Sf : trim_safe dops rnd c) by now left.
    destruct (reached_tally dops exp_ log_ rnd c l0 tlaws_dops Hs Hkind Sf Ek Et (Forall dfine) (all_settled Hd Hf Et) s h R Fh) as [ts [V F]].
    pose proof (some_tree dops exp_ log_ rnd c l0 tlaws_dops Hs Hkind Sf Htn s h ts R Hh V) as N. exists ts. split; [now apply inv_ctrees|]. intros o Io. destruct o as [t|]; [|contradiction]. exists t. split; [reflexivity|]. rewrite Forall_forall in F. exact (F _ Io).
  Qed.
  (** *** C93: the number of points that a tree reports is the number of points trained, or -1 *)
  Theorem coarse_data_points : c_extend dops c = EXTEND_ORIGINAL -> c_trim dops c = TRIM_NONE -> c_trees dops c <= c_nodes dops c -> c_features dops c <= 2147483647 -> (forall k, ddraw (rnd k)) ->
    forall s h i k, creached s h -> h <> [] -> Forall (fun p => Forall dfine (fst p)) h -> Z.of_nat (length h) <= 2147483647 -> 0 <= i < c_trees dops c ->
    count_data_point_tree dops c s i = Ok k -> k = Z.of_nat (length h) \/ k = -1.
  Proof.
    intros Ek Et Htn Hf Hd s h i k R Hh Fh Hl Hi H. assert (Sf : trim_safe dops rnd c) by now left.
    destruct (reached_total dops exp_ log_ rnd c l0 tlaws_dops Hs Hkind Sf Ek Et (Forall dfine) (all_settled Hd Hf Et) s h R Fh) as [ts [V F]].
    pose proof (some_tree dops exp_ log_ rnd c l0 tlaws_dops Hs Hkind Sf Htn s h ts R Hh V) as N. pose proof V as [V1 [V2 [[P1 [P2 [P3 _]]] _]]].
    destruct (nth_error ts (Z.to_nat i)) as [o|] eqn:Ho; [|apply nth_error_None in Ho; lia]. pose proof (nth_error_In _ _ Ho) as Io. destruct o as [t|]; [|contradiction]. destruct (V2 _ _ Ho) as [Hr St]. rewrite Z2Nat.id in Hr by lia.
    rewrite Forall_forall in F. destruct (F _ Io) as [F1 F2]. destruct (all_cids_part _ _ _ Io P2) as [Nt It].
    unfold count_data_point_tree in H. rewrite Hr in H. cbn [bind rid] in H. assert (B : 0 <= ctop dops t < c_nodes dops c) by (apply P3, It, ctop_in). rewrite (proj2 (Z.ltb_ge _ 0)) in H by lia.
    inv_bind H. destruct v as [depth [s' sum]]. apply walk_start with (p := -1) in E; auto.
    - cbn [fst snd] in E. destruct E as [E|[E1 E2]]; [right; rewrite (proj2 (Z.eqb_neq depth (-1))) in H by lia; congruence|]. left. subst depth. cbn [Z.eqb] in H.
      destruct (points_fold dops c (2^53) dops_exact t s (-1) 0 s' sum St) as [_ ->]; auto; try lia. cbn [n2int dops] in H. rewrite F2, Z.add_0_l in H.
      destruct (dofZ_exact (Z.of_nat (length h)) ltac:(lia)) as [Fn Vn]. change (d2int (dofZ (Z.of_nat (length h))) = Ok k) in H. rewrite d2int_ok in H; [|try exact Fn; try exact Vn|]; rewrite ?Fn, ?Vn, Ztrunc_IZR in *; [congruence|lia].
    - apply point_keeps.
    - now apply stored_shape with c.
    - unfold csize. assert (X : incl (cids dops t) (zrange (c_nodes dops c))) by (intros j Hj; apply zrange_in, P3, It, Hj). apply NoDup_incl_length in X; auto. rewrite zrange_length in X. destruct Hs as [? [? [? [? ?]]]]. lia.
    - intros j Hj. apply It, P3 in Hj. lia.
  Qed.

  (** *** C95: with ghost extension the root counts the points *)
  Theorem coarse_ghost_root : c_extend dops c = EXTEND_GHOST -> c_trim dops c = TRIM_NONE -> c_optimize dops c = false -> c_trees dops c <= c_nodes dops c ->
    forall s h, creached s h -> h <> [] ->
    exists ts, ctrees s ts /\ forall o, In o ts -> exists t, o = Some t /\ forall l, 0 <= l -> at_label l (top_counters dops t) = count dops l h.
  Proof.
    intros Ek Et Eo Htn s h R Hh. assert (Sf : trim_safe dops rnd c) by now left.
    destruct (reached_ghost dops exp_ log_ rnd c l0 tlaws_dops Hs Hkind Sf Ek Et Eo s h R) as [ts [V F]].
    pose proof (some_tree dops exp_ log_ rnd c l0 tlaws_dops Hs Hkind Sf Htn s h ts R Hh V) as N. exists ts. split; [now apply inv_ctrees|]. intros o Io. destruct o as [t|]; [|contradiction]. exists t. split; [reflexivity|]. rewrite Forall_forall in F. exact (F _ Io).
  Qed.
End Binary64.
Print Assumptions coarse_pool.
Print Assumptions coarse_reset.
Print Assumptions coarse_height.
Print Assumptions coarse_default_limit.
Print Assumptions coarse_no_extend.
Print Assumptions coarse_counts.
Print Assumptions coarse_data_points.
Print Assumptions coarse_ghost_root.

(** *** Concrete forests: 2 trees, 2 features, 2 labels *)
(** A crude exponential. *)
Definition exp_h (x : dbl) : dbl := if dlt x dzero then dhalf else done.
Definition conf (nc manage lim extend trim : Z) : config dops :=
  Build_config dops 2 2 2 nc (dofZ 10) dhalf dhalf manage lim FE_DISTRIBUTION_ZERO SPLIT_TRIGGER_NONE dhalf dhalf SPLIT_HELPER_NONE extend trim done false.
Definition conf_trim : config dops := conf 12 PHOENIX_MANAGEMENT (-1) EXTEND_ORIGINAL TRIM_COUNT.
Definition conf_c : config dops := conf 20 PHOENIX_MANAGEMENT (-1) EXTEND_ORIGINAL TRIM_NONE.
Definition conf_low : config dops := conf 12 COBBLE_MANAGEMENT 2 EXTEND_ORIGINAL TRIM_NONE.
Definition conf_robur : config dops := conf 20 ROBUR_MANAGEMENT 3 EXTEND_ORIGINAL TRIM_NONE.
Definition conf_default : config dops := conf 12 COBBLE_MANAGEMENT (-1) EXTEND_ORIGINAL TRIM_NONE.
Definition conf_none : config dops := conf 12 PHOENIX_MANAGEMENT (-1) EXTEND_NONE TRIM_NONE.
Definition conf_partial : config dops := conf 12 PHOENIX_MANAGEMENT (-1) EXTEND_PARTIAL_UPDATE TRIM_NONE.
Definition conf_counter : config dops := conf 12 PHOENIX_MANAGEMENT (-1) EXTEND_COUNTER_NO_UPDATE TRIM_NONE.
Definition conf_ghost : config dops := conf 12 PHOENIX_MANAGEMENT (-1) EXTEND_GHOST TRIM_NONE.
Definition conf_full : config dops := conf 12 PHOENIX_MANAGEMENT (-1) EXTEND_ORIGINAL TRIM_NONE.
Fixpoint crun (c : config dops) (log_ : dbl -> dbl) (rnd : nat -> dbl) (s : coarse dops) (ps : list (point dops)) : res (coarse dops) :=
  match ps with [] => Ok s | (x, l) :: ps => do (s, _) <- train dops log_ rnd c s x l; crun c log_ rnd s ps end.
Lemma crun_reached : forall exp_ log_ rnd c l0 ps s h s', Forall (valid dops (c_features dops c) (c_labels dops c) dfine) ps -> creached dops exp_ log_ rnd c l0 s h ->
  crun c log_ rnd s ps = Ok s' -> creached dops exp_ log_ rnd c l0 s' (rev ps ++ h).
Proof.
  intros exp_ log_ rnd c l0 ps. induction ps as [|[x l] ps IH]; intros s h s' V R H; cbn [crun] in H; [injection H as <-; exact R|]. inversion V as [|? ? [V1 [V2 V3]] Vs]; subst. inv_bind H. destruct v as [s1 b1].
  cbn [rev]. rewrite <- app_assoc. apply (IH s1); auto. econstructor; eauto.
Qed.
Definition ccheck (c : config dops) (ps : list (point dops)) (ok : coarse dops -> bool) : bool :=
  forallb (valid_d (c_features dops c) (c_labels dops c)) ps && match crun c log_c (cycle draws_c) (forest_init dops c true 0) ps with Ok s => ok s | _ => false end.
Local Notation reached_c c := (creached dops exp_h log_c (cycle draws_c) c 0).
Lemma ccheck_reached : forall c ps ok, ccheck c ps ok = true -> exists s, reached_c c s (rev ps) /\ ok s = true.
Proof.
  intros c ps ok H. unfold ccheck in H. apply andb_true_iff in H. destruct H as [V H]. destruct (crun c log_c _ _ ps) as [s|u| |] eqn:E; try discriminate. exists s. split; [|exact H].
  rewrite <- (app_nil_r (rev ps)). apply crun_reached with (forest_init dops c true 0); [now apply valid_d_ok|constructor|exact E].
Qed.
Lemma csizes_c : forall nc manage lim extend trim, 0 <= nc <= 1000 -> csizes dops (conf nc manage lim extend trim) 0.
Proof. intros. unfold csizes, conf. cbn [c_trees c_features c_labels c_nodes c_life]. repeat split; try lia. Qed.
Lemma points_c_fine : Forall (fun p : point dops => Forall dfine (fst p)) (rev points_c).
Proof. repeat constructor. Qed.
Lemma draws_c_ok : forall k, ddraw (cycle draws_c k).
Proof. apply cycle_draw. vm_compute. reflexivity. Qed.
Lemma same_z : forall a b : Z, (a =? b) = true -> a = b.
Proof. intros a b H. now apply Z.eqb_eq. Qed.
Definition is_ok_z (r : res Z) (k : Z) : bool := match r with Ok j => j =? k | _ => false end.
Lemma is_ok_z_ok : forall r k, is_ok_z r k = true -> r = Ok k.
Proof. intros [j|u| |] k H; try discriminate. apply Z.eqb_eq in H. now subst. Qed.
Ltac checked H := apply ccheck_reached in H; destruct H as [s [R H]]; repeat (apply andb_true_iff in H; destruct H as [H ?]); repeat match goal with X : (_ =? _) = true |- _ => apply Z.eqb_eq in X end; repeat match goal with X : is_ok_z _ _ = true |- _ => apply is_ok_z_ok in X end.
Definition around (n : nat) : list (point dops) := firstn n (concat (repeat points_c 26)).

(** 101 points in 12 nodes, with trimming: four nodes are free again. *)
Lemma run_trim : ccheck conf_trim (around 101) (fun s => (avail dops s =? 4) && (free_count dops s =? 4)) = true.
Proof. vm_compute. reflexivity. Qed.
Example coarse_pool_example : exists s, reached_c conf_trim s (rev (around 101)) /\ avail dops s = 4 /\ free_count dops s = 4.
Proof. pose proof run_trim as H. checked H. eauto. Qed.
Example coarse_pool_used : exists s ts, reached_c conf_trim s (rev (around 101)) /\ ctrees dops conf_trim s ts.
Proof.
  destruct coarse_pool_example as [s [R _]]. destruct (coarse_pool exp_h log_c (cycle draws_c) conf_trim 0 (csizes_c 12 _ _ _ _ ltac:(lia)) ltac:(discriminate) ltac:(unfold ctrims; cbn; auto) s _ R) as [ts [T _]]. eauto.
Qed.

(** A subtree of three nodes in the middle of a tree. *)
Definition reset_free (c : config dops) (s : coarse dops) (i : Z) : res Z := do (s', b) <- node_reset dops c s i; Ok (if b then -1 else free_count dops s').
Lemma run_reset : ccheck conf_c points_c
  (fun s => (avail dops s =? 6) && (free_count dops s =? 6) && is_ok_z (reset_free conf_c s 6) 9) = true.
Proof. vm_compute. reflexivity. Qed.
(** *** C58: the report is always a failure *)
Theorem coarse_reset_report_refuted : exists (c : config dops) s h i s', csizes dops c 0 /\ reached_c c s h /\ node_reset dops c s i = Ok (s', false) /\
  avail dops s = 6 /\ free_count dops s' = 9.
Proof.
  pose proof run_reset as H. checked H. unfold reset_free in H0. inv_bind H0. destruct v as [s' b]. exists conf_c, s, (rev points_c), 6, s'. destruct b; [discriminate|]. injection H0 as H0.
  split; [apply csizes_c; lia|]. auto 10.
Qed.

(** Trees of two levels, as the limit says; the points are not lost. *)
Definition depth_of (c : config dops) (s : coarse dops) (i : Z) : res Z := do root <- rd (roots dops (fr dops s)) i; do (h, _) <- node_depth dops c s root; Ok h.
Lemma run_height : ccheck conf_low points_c
  (fun s => (avail dops s =? 6) && is_ok_z (depth_of conf_low s 0) 2 && is_ok_z (depth_of conf_low s 1) 2) = true.
Proof. vm_compute. reflexivity. Qed.
Example coarse_height_example : exists s, reached_c conf_low s (rev points_c) /\ avail dops s = 6 /\
  depth_of conf_low s 0 = Ok 2.
Proof. pose proof run_height as H. checked H. eauto. Qed.
(** *** C91: under the other managements the limit is not enforced *)
Lemma run_robur : ccheck conf_robur points_c
  (fun s => is_ok_z (do root <- rd (roots dops (fr dops s)) 0; do (_, k) <- node_depth dops conf_robur s root; Ok k) 7) = true.
Proof. vm_compute. reflexivity. Qed.
Theorem coarse_robur_limit_refuted : exists c s h root depth, csizes dops c 0 /\ c_manage dops c = ROBUR_MANAGEMENT /\ c_size_limit dops c = 3 /\ reached_c c s h /\
  rd (roots dops (fr dops s)) 0 = Ok root /\ node_depth dops c s root = Ok (depth, 7).
Proof.
  pose proof run_robur as H. checked H. inv_bind H. inv_bind H. destruct v0 as [d k]. injection H as ->. exists conf_robur, s, (rev points_c), v, d.
  split; [apply csizes_c; lia|]. auto.
Qed.
(** *** C92: the default limit *)
Lemma run_default : ccheck conf_default points_c (fun s => (avail dops s =? 10) && is_ok_z (count_data_point_tree dops conf_default s 0) 4) = true.
Proof. vm_compute. reflexivity. Qed.
Theorem coarse_default_limit_refuted : exists c s h, csizes dops c 0 /\ c_size_limit dops c = -1 /\ c_manage dops c = COBBLE_MANAGEMENT /\ reached_c c s h /\ h = rev points_c /\
  avail dops s = 10 /\ c_nodes dops c = 12 /\ count_data_point_tree dops c s 0 = Ok 4.
Proof. pose proof run_default as H. checked H. exists conf_default, s, (rev points_c). split; [apply csizes_c; lia|]. auto 10. Qed.

(** *** C56 *)
Lemma run_none : ccheck conf_none points_c
  (fun s => is_ok_z (count_data_point_tree dops conf_none s 0) 1 && is_ok_z (count_data_point_tree dops conf_none s 1) 1 &&
     is_ok_z (predicted dops exp_h conf_none s (sixteenths 8 4) (-1)) 0) = true.
Proof. vm_compute. reflexivity. Qed.
(** Four points with two labels; each tree has one, and the label of the first point is predicted for a point of the other label that was trained. *)
Theorem coarse_default_learns_refuted : exists c s h, csizes dops c 0 /\ c_extend dops c = EXTEND_NONE /\ reached_c c s h /\ h = rev points_c /\
  count_data_point_tree dops c s 0 = Ok 1 /\ In (sixteenths 8 4, 1) h /\ predicted dops exp_h c s (sixteenths 8 4) (-1) = Ok 0.
Proof.
  pose proof run_none as H. checked H. exists conf_none, s, (rev points_c). split; [apply csizes_c; lia|]. repeat split; auto. cbn [rev points_c app]. cbn. auto.
Qed.

(** *** C93 *)
Lemma run_points : ccheck conf_c points_c
  (fun s => (avail dops s =? 6) && is_ok_z (count_data_point_tree dops conf_c s 1) 4) = true.
Proof. vm_compute. reflexivity. Qed.
Example coarse_data_points_example : exists s, reached_c conf_c s (rev points_c) /\ avail dops s = 6 /\
  count_data_point_tree dops conf_c s 1 = Ok 4.
Proof. pose proof run_points as H. checked H. eauto. Qed.
Example coarse_counts_example : exists s ts, reached_c conf_c s (rev points_c) /\ ctrees dops conf_c s ts /\
  forall o, In o ts -> exists t, o = Some t /\ tally dops 0 t = 2 /\ tally dops 1 t = 2.
Proof.
  destruct coarse_data_points_example as [s [R _]].
  destruct (coarse_counts exp_h log_c (cycle draws_c) conf_c 0 (csizes_c 20 _ _ _ _ ltac:(lia)) ltac:(discriminate) eq_refl eq_refl ltac:(cbn; lia) ltac:(cbn; lia) draws_c_ok s _ R ltac:(discriminate) points_c_fine) as [ts [T F]].
  exists s, ts. split; [exact R|]. split; [exact T|]. intros o Io. destruct (F o Io) as [t [-> Ht]]. exists t. split; [reflexivity|]. rewrite !Ht by lia. split; reflexivity.
Qed.
(** *** C94: two other extend types lose points or count them twice *)
Lemma run_partial : ccheck conf_partial points_c
  (fun s => is_ok_z (count_data_point_tree dops conf_partial s 1) 3) = true.
Proof. vm_compute. reflexivity. Qed.
Theorem coarse_partial_update_refuted : exists c s h, csizes dops c 0 /\ c_extend dops c = EXTEND_PARTIAL_UPDATE /\ c_trim dops c = TRIM_NONE /\ reached_c c s h /\ length h = 4%nat /\
  count_data_point_tree dops c s 1 = Ok 3.
Proof. pose proof run_partial as H. checked H. exists conf_partial, s, (rev points_c). split; [apply csizes_c; lia|]. auto 10. Qed.
Lemma run_counter : ccheck conf_counter points_c
  (fun s => is_ok_z (count_data_point_tree dops conf_counter s 0) 7) = true.
Proof. vm_compute. reflexivity. Qed.
Theorem coarse_counter_no_update_refuted : exists c s h, csizes dops c 0 /\ c_extend dops c = EXTEND_COUNTER_NO_UPDATE /\ c_trim dops c = TRIM_NONE /\ reached_c c s h /\ length h = 4%nat /\
  count_data_point_tree dops c s 0 = Ok 7.
Proof. pose proof run_counter as H. checked H. exists conf_counter, s, (rev points_c). split; [apply csizes_c; lia|]. auto 10. Qed.
(** *** C95 *)
Lemma run_ghost : ccheck conf_ghost points_c
  (fun s => is_ok_z (count_data_point_tree dops conf_ghost s 1) 3) = true.
Proof. vm_compute. reflexivity. Qed.
Example coarse_ghost_example : exists s ts, reached_c conf_ghost s (rev points_c) /\ ctrees dops conf_ghost s ts /\
  count_data_point_tree dops conf_ghost s 1 = Ok 3 /\
  forall o, In o ts -> exists t, o = Some t /\ at_label 0 (top_counters dops t) = 2 /\ at_label 1 (top_counters dops t) = 2.
Proof.
  pose proof run_ghost as H. checked H.
  destruct (coarse_ghost_root exp_h log_c (cycle draws_c) conf_ghost 0 (csizes_c 12 _ _ _ _ ltac:(lia)) ltac:(discriminate) eq_refl eq_refl eq_refl ltac:(cbn; lia) s _ R ltac:(discriminate)) as [ts [T F]].
  exists s, ts. split; [exact R|]. split; [exact T|]. split; [exact H|]. intros o Io. destruct (F o Io) as [t [-> Ht]]. exists t. split; [reflexivity|]. rewrite !Ht by lia. split; reflexivity.
Qed.

Definition trains (r : res (coarse dops * bool)) : bool := match r with Ok _ => true | _ => false end.
Lemma trains_ok : forall r, trains r = true -> exists s b, r = Ok (s, b).
Proof. intros [[s b]|u| |] H; try discriminate. eauto. Qed.
(** *** C96: a forest without static storage *)
Theorem coarse_automatic_undefined : forall log_ rnd (c : config dops) l0 x label, 1 <= c_features dops c -> train dops log_ rnd c (forest_init dops c false l0) x label = Undef Uninitialised.
Proof.
  intros log_ rnd c l0 x label H. unfold train. destruct (Z.to_nat (c_features dops c)) as [|n] eqn:E; [lia|]. cbn [forZ forest_init sum_features]. rewrite E. reflexivity.
Qed.
Theorem coarse_automatic_refuted : exists (c : config dops) x label, csizes dops c 0 /\ Z.of_nat (length x) = c_features dops c /\ 0 <= label < c_labels dops c /\
  train dops log_c (cycle draws_c) c (forest_init dops c false 0) x label = Undef Uninitialised /\ exists s b, train dops log_c (cycle draws_c) c (forest_init dops c true 0) x label = Ok (s, b).
Proof.
  exists conf_full, (sixteenths 1 2), 0. split; [apply csizes_c; lia|]. split; [reflexivity|]. split; [cbn; lia|]. split; [apply coarse_automatic_undefined; cbn; lia|].
  apply trains_ok. vm_compute. reflexivity.
Qed.

Print Assumptions coarse_reset_report_refuted.
Print Assumptions coarse_robur_limit_refuted.
Print Assumptions coarse_default_limit_refuted.
Print Assumptions coarse_default_learns_refuted.
Print Assumptions coarse_partial_update_refuted.
Print Assumptions coarse_counter_no_update_refuted.
Print Assumptions coarse_automatic_undefined.
Print Assumptions coarse_automatic_refuted.

(** *** C97: the margin of a label *)
Lemma eval_inv : forall (score : list (num dops)) label, Forall not_nan score -> 0 < label < Z.of_nat (length score) ->
  exists j b, forZ (length score - 1) 1 (fun i idx_max => if i =? label then Ok idx_max else do x <- rd score i; do y <- rd score idx_max; Ok (if nlt dops y x then i else idx_max)) 0 = Ok j /\
    rd score j = Ok b /\ j <> label /\ forall k y, k <> label -> rd score k = Ok y -> (dkey y <= dkey b)%R.
Proof.
  intros score label F Hl.
  destruct (forZ_inv _ (fun i j => 0 <= j < i /\ j <> label /\ exists b, rd score j = Ok b /\ forall k y, 0 <= k < i -> k <> label -> rd score k = Ok y -> (dkey y <= dkey b)%R)
    (fun i idx_max => if i =? label then Ok idx_max else do x <- rd score i; do y <- rd score idx_max; Ok (if nlt dops y x then i else idx_max)) (length score - 1) 1 0) as [j [E [J1 [J2 [b [J3 J4]]]]]].
  - split; [lia|]. split; [lia|]. destruct (rd_in_bounds _ score 0 ltac:(lia)) as [b Hb]. exists b. split; [exact Hb|]. intros k y Hk _ Hy. assert (k = 0) by lia. subst k. assert (y = b) by congruence. subst y. lra.
  - intros i j Hi [J1 [J2 [b [J3 J4]]]]. destruct (i =? label) eqn:X.
    + apply Z.eqb_eq in X. subst i. exists j. split; [reflexivity|]. split; [lia|]. split; [exact J2|]. exists b. split; [exact J3|]. intros k y Hk Nk Hy. apply (J4 k); auto. lia.
    + apply Z.eqb_neq in X. destruct (rd_in_bounds _ score i ltac:(lia)) as [x Hx]. rewrite Hx, J3. cbn [bind]. eexists. split; [reflexivity|].
      assert (Nb : not_nan b /\ not_nan x). { rewrite Forall_forall in F. split; apply F; [apply rd_ok_iff in J3; destruct J3 as [_ J3]; now apply nth_error_In in J3|apply rd_ok_iff in Hx; destruct Hx as [_ Hx]; now apply nth_error_In in Hx]. } destruct Nb as [Nb Nx].
      destruct (nlt dops b x) eqn:Y; cbn [nlt dops] in Y.
      * apply dlt_iff in Y. destruct Y as [_ [_ Y]]. split; [lia|]. split; [exact X|]. exists x. split; [exact Hx|]. intros k y Hk Nk Hy. destruct (Z.eq_dec k i) as [-> |Q]; [assert (y = x) by congruence; subst y; lra|]. pose proof (J4 k y ltac:(lia) Nk Hy). lra.
      * assert (dkey x <= dkey b)%R. { destruct (Rle_or_lt (dkey x) (dkey b)) as [Q|Q]; [exact Q|]. assert (dlt b x = true) by (apply dlt_iff; auto). congruence. }
        split; [lia|]. split; [exact J2|]. exists b. split; [exact J3|]. intros k y Hk Nk Hy. destruct (Z.eq_dec k i) as [-> |Q]; [assert (y = x) by congruence; now subst y|]. apply (J4 k); auto. lia.
  - exists j, b. split; [exact E|]. split; [exact J3|]. split; [exact J2|]. intros k y Nk Hy. apply (J4 k y); auto. pose proof (rd_bounds _ _ _ _ Hy). lia.
Qed.
Lemma best_label : forall (score : list (num dops)), Forall not_nan score -> score <> [] ->
  exists j b, index_max (fun a b => nlt dops b a) score (Z.of_nat (length score)) = Ok j /\ rd score j = Ok b /\ (forall k y, rd score k = Ok y -> (dkey y <= dkey b)%R) /\ (forall k y, k < j -> rd score k = Ok y -> (dkey y < dkey b)%R).
Proof.
  intros score F Ne. rewrite Forall_forall in F. destruct (index_max_ok dbl (fun a b => nlt dops b a) dkey score) as [j [b [E [J1 [J2 J3]]]]]; auto.
  - intros x y Hx Hy. cbn [nlt dops]. rewrite dlt_iff. split; [tauto|]. auto.
  - exists (Z.of_nat j), b. split; [exact E|]. split; [apply rd_ok_iff; rewrite Nat2Z.id; split; [lia|exact J1]|]. split; intros k y; [|intros Hk]; intros Hy; apply rd_ok_iff in Hy; destruct Hy as [? Hy]; [now apply (J2 (Z.to_nat k))|apply (J3 (Z.to_nat k)); auto; lia].
Qed.
(** The difference between the score of the label and the best score of the other labels, unless the label is 0 and has the best score. *)
Theorem coarse_eval_margin : forall (c : config dops) (score : list (num dops)) label a, c_labels dops c = Z.of_nat (length score) -> 2 <= Z.of_nat (length score) -> Forall not_nan score -> rd score label = Ok a ->
  (label <> 0 \/ exists k y, rd score k = Ok y /\ (dkey a < dkey y)%R) ->
  exists j b, j <> label /\ rd score j = Ok b /\ (forall k y, k <> label -> rd score k = Ok y -> (dkey y <= dkey b)%R) /\ eval_scores dops c score label = Ok (dsub a b).
Proof.
  intros c score label a Hc Hl F Ha Hp. unfold eval_scores. rewrite Hc. destruct (best_label score F) as [j [b [E [J1 [J2 J3]]]]]; [intros ->; cbn in Hl; lia|]. rewrite E. cbn [bind]. destruct (j =? label) eqn:X.
  - apply Z.eqb_eq in X. subst j. assert (a = b) by congruence. subst b. assert (Nl : label <> 0) by (destruct Hp as [Hp|[k [y [Hy Hk]]]]; [exact Hp|]; pose proof (J2 k y Hy); lra).
    pose proof (rd_bounds _ _ _ _ Ha) as B. destruct (eval_inv score label F ltac:(lia)) as [j [b [E2 [G1 [G2 G3]]]]]. exists j, b. split; [exact G2|]. split; [exact G1|]. split; [exact G3|]. rewrite Nat2Z.id. match goal with |- context [forZ ?n ?i ?f ?s] => replace (forZ n i f s) with (@Ok Z j) by (symmetry; exact E2) end. cbn [bind]. rewrite Ha, G1. reflexivity.
  - apply Z.eqb_neq in X. cbn [bind]. exists j, b. split; [exact X|]. split; [exact J1|]. split; [intros k y _; apply J2|]. rewrite Ha, J1. reflexivity.
Qed.
(** When label 0 has the best score the result is the difference of this score with itself. *)
Theorem coarse_eval_first : forall (c : config dops) (score : list (num dops)) a, c_labels dops c = Z.of_nat (length score) -> Forall not_nan score -> rd score 0 = Ok a -> (forall k y, rd score k = Ok y -> (dkey y <= dkey a)%R) ->
  eval_scores dops c score 0 = Ok (dsub a a).
Proof.
  intros c score a Hc F Ha Hb. pose proof (rd_bounds _ _ _ _ Ha) as B. unfold eval_scores. rewrite Hc. destruct (best_label score F) as [j [b [E [J1 [J2 J3]]]]]; [intros ->; cbn in B; lia|]. rewrite E. cbn [bind].
  pose proof (rd_bounds _ _ _ _ J1) as Bj. assert (j = 0). { destruct (Z.eq_dec j 0) as [Q|Q]; [exact Q|]. pose proof (J3 0 a ltac:(lia) Ha). pose proof (Hb j b J1). lra. } subst j. change (0 =? 0) with true. cbn iota.
  destruct (forZ_inv _ (fun _ j => j = 0) (fun i idx_max => if i =? 0 then Ok idx_max else do x <- rd score i; do y <- rd score idx_max; Ok (if nlt dops y x then i else idx_max)) (length score - 1) 1 0 eq_refl) as [j [E2 ->]].
  - intros i j Hi ->. rewrite (proj2 (Z.eqb_neq i 0)) by lia. destruct (rd_in_bounds _ score i ltac:(lia)) as [x Hx]. rewrite Hx, Ha. cbn [bind]. exists 0. split; [|reflexivity]. destruct (nlt dops a x) eqn:Y; [|reflexivity]. cbn [nlt dops] in Y. apply dlt_iff in Y. pose proof (Hb i x Hx). lra.
  - rewrite Nat2Z.id. match goal with |- context [forZ ?n ?i ?f ?s] => replace (forZ n i f s) with (@Ok Z 0) by (symmetry; exact E2) end. cbn [bind]. rewrite Ha. reflexivity.
Qed.
Definition scores_c : list dbl := [dlit 3 (-2); dlit 1 (-3); dlit 1 (-3)].
Definition conf_eval : config dops := Build_config dops 1 2 3 12 (dofZ 10) dhalf dhalf PHOENIX_MANAGEMENT (-1) FE_DISTRIBUTION_ZERO SPLIT_TRIGGER_NONE dhalf dhalf SPLIT_HELPER_NONE EXTEND_ORIGINAL TRIM_NONE done false.
Definition is_ok_d (r : res dbl) (x : dbl) : bool := match r with Ok y => deq y x | _ => false end.
(** Label 0 leads by 5/8 and gets 0; label 1 is 5/8 behind. *)
Theorem coarse_eval_margin_refuted : is_ok_d (eval_scores dops conf_eval scores_c 0) dzero = true /\ is_ok_d (rd scores_c 0) (dlit 3 (-2)) = true /\ forallb (fun k => is_ok_d (rd scores_c k) (dlit 1 (-3))) [1; 2] = true.
Proof. vm_compute. auto. Qed.
Example coarse_eval_example : is_ok_d (eval_scores dops conf_eval scores_c 1) (dlit (-5) (-3)) = true /\ is_ok_d (eval_scores dops conf_eval [dlit 1 (-3); dlit 1 (-4); dlit 3 (-2)] 2) (dlit 5 (-3)) = true.
Proof. vm_compute. auto. Qed.

(** *** C98: the number of trees asked and the scores *)
Definition is_oob {A : Type} (r : res A) : bool := match r with Undef OutOfBounds => true | _ => false end.
Lemma is_oob_ok : forall A (r : res A), is_oob r = true -> r = Undef OutOfBounds.
Proof. intros A [a|[]| |] H; try discriminate. reflexivity. Qed.
Definition scores_after (c : config dops) (s : coarse dops) (x sc : list dbl) : option (list dbl) := match predict dops exp_h c s x (Some sc) (-1) with Ok (_, _, sc') => sc' | _ => None end.
Definition same_scores (a : option (list dbl)) (b : list dbl) : bool := match a with Some [u; v] => match b with [u'; v'] => deq u u' && deq v v' | _ => false end | _ => false end.
Lemma run_predict : ccheck conf_c points_c (fun s => is_ok_z (predicted dops exp_h conf_c s (sixteenths 8 4) 2) 1 && is_ok_z (predicted dops exp_h conf_c s (sixteenths 8 4) 0) 0 && is_oob (predicted dops exp_h conf_c s (sixteenths 8 4) 3) &&
  same_scores (scores_after conf_c s (sixteenths 8 4) [dofZ 7; dofZ 8]) [dofZ 7; dofZ 8]) = true.
Proof. vm_compute. reflexivity. Qed.
(** With both trees the answer is 1, with none it is 0, with three the roots are read out of bounds; the array of scores is left as it was. *)
Theorem coarse_tree_to_use_refuted : exists c s h x, csizes dops c 0 /\ reached_c c s h /\ c_trees dops c = 2 /\ predicted dops exp_h c s x 2 = Ok 1 /\ predicted dops exp_h c s x 0 = Ok 0 /\
  predicted dops exp_h c s x 3 = Undef OutOfBounds.
Proof.
  pose proof run_predict as H. checked H. apply is_oob_ok in H1. exists conf_c, s, (rev points_c), (sixteenths 8 4). split; [apply csizes_c; lia|]. auto 10.
Qed.
Theorem coarse_scores_refuted : exists c s h x, csizes dops c 0 /\ reached_c c s h /\ predicted dops exp_h c s x (-1) = Ok 1 /\ same_scores (scores_after c s x [dofZ 7; dofZ 8]) [dofZ 7; dofZ 8] = true.
Proof.
  pose proof run_predict as H. checked H. exists conf_c, s, (rev points_c), (sixteenths 8 4). split; [apply csizes_c; lia|]. auto 10.
Qed.
Print Assumptions coarse_eval_margin.
Print Assumptions coarse_eval_first.
Print Assumptions coarse_eval_margin_refuted.
Print Assumptions coarse_tree_to_use_refuted.
Print Assumptions coarse_scores_refuted.
