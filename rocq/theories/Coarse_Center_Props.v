(** * Properties of the coarse Mondrian forest: the barycenter extension without the split trigger *)
From Coq Require Import ZArith List Bool Lia Reals Lra.
From Verif Require Import CppBase CppFacts Dbl DblFacts NumOps Utils_Model Utils_Proofs MCNN_Num.
From Verif Require Import Mondrian_Model Mondrian_Spec Mondrian_Proofs Mondrian_Num Mondrian_Runs Mondrian_Props.
From Verif Require Import Coarse_Model Coarse_Spec Coarse_Heap Coarse_Forest Coarse_Reach Coarse_Props Coarse_Trim_Props Coarse_Center Coarse_Center_Forest Coarse_Center_Laws.
Import ListNotations.
Local Open Scope Z_scope.

Section Binary64.
  Variable exp_ log_ : dbl -> dbl.
  Variable rnd : nat -> dbl.
  Variable c : config dops.
  Variable l0 : Z.
  Hypothesis Hs : csizes dops c l0.
  Hypothesis Hkind : c_extend dops c = EXTEND_BARYCENTER.
  Hypothesis Htrig : c_fe_trigger dops c = SPLIT_TRIGGER_NONE.
  Hypothesis Htrim : ctrims dops rnd c.
  Hypothesis Hd : forall k, ddraw (rnd k).
  Let Hlife : nlt dops (c_life dops c) (nofZ dops 0) = false.
  Proof. apply (tl_used dops tlaws_dops). destruct Hs as [_ [_ [_ [_ [_ X]]]]]. exact X. Qed.
  Let Hmid : forall t0 t q, nlt dops t0 (nofZ dops 0) = false -> nlt dops t (nofZ dops 0) = false -> nlt dops (nadd dops t0 (nmul dops (nsub dops t t0) (rnd q))) (nofZ dops 0) = false.
  Proof. intros t0 t q H0 H. exact (mid_dops t0 t (rnd q) H0 H (Hd q)). Qed.

  (** *** C115: without the split trigger, the barycenter extension keeps the trees *)
  Theorem coarse_center_pool : forall s h, creached dops exp_ log_ rnd c l0 s h -> exists ts, ctrees dops c s ts /\ avail dops s = free_count dops s /\
    forall t j cs l, In (Some t) ts -> In (j, cs) (cleaves dops t) -> 0 <= l < c_labels dops c -> 0 <= at_label l cs.
  Proof.
    intros s h R. destruct (center_reach dops exp_ log_ rnd c tlaws_dops Hlife clean_dops Hmid Hkind Htrig l0 Hs (ctrims_safe _ _ Htrim) s h R) as [ts [V [Fp _]]].
    exists ts. split; [now apply inv_ctrees|]. split.
    - symmetry. destruct V as [_ [_ [C _]]]. destruct Hs as [_ [_ [_ [X _]]]]. apply (pool_free dops c s _ ltac:(lia) C).
    - intros t j cs l It. rewrite Forall_forall in Fp. specialize (Fp _ It). clear It. cbn [opos] in Fp. induction t as [i cs'|i d v cs' t1 IH1 t2 IH2]; cbn [cleaves lpos] in *.
      + intros [E|[]] Hl. injection E as <- <-. auto.
      + destruct Fp as [P1 P2]. intros I. apply in_app_or in I. destruct I; auto.
  Qed.
  (** *** C116: ... and every training point is counted once by each tree *)
  Theorem coarse_center_counts : forall s h, creached dops exp_ log_ rnd c l0 s h -> exists ts, ctrees dops c s ts /\
    forall x label s' b, Z.of_nat (length x) = c_features dops c -> 0 <= label < c_labels dops c -> train dops log_ rnd c s x label = Ok (s', b) ->
    exists ts', ctrees dops c s' ts' /\ Forall2 (counts_point dops c s s' x label) ts ts'.
  Proof.
    intros s h R. destruct (center_reach dops exp_ log_ rnd c tlaws_dops Hlife clean_dops Hmid Hkind Htrig l0 Hs (ctrims_safe _ _ Htrim) s h R) as [ts [V [Fp _]]].
    exists ts. split; [now apply inv_ctrees|]. intros x label s' b Hx Hl T.
    destruct (center_counted dops exp_ log_ rnd c tlaws_dops Hlife clean_dops Hmid Hkind Htrig l0 (ctrims_safe _ _ Htrim) s h x label s' b R Hx Hl T ts V Fp) as [ts' [V' F]].
    exists ts'. split; [now apply inv_ctrees|exact F].
  Qed.
  (** *** C117: a split never divides the points of a leaf *)
  Theorem coarse_center_whole : forall s h, creached dops exp_ log_ rnd c l0 s h -> exists ts, ctrees dops c s ts /\
    forall x label s' b, Z.of_nat (length x) = c_features dops c -> 0 <= label < c_labels dops c -> train dops log_ rnd c s x label = Ok (s', b) ->
    exists ts', ctrees dops c s' ts' /\ Forall2 (fun o o' => forall t' j' cs', o' = Some t' -> In (j', cs') (cleaves dops t') ->
      exists before : Z -> Z, ((forall l, before l = 0) \/ exists t j cs, o = Some t /\ In (j, cs) (cleaves dops t) /\ forall l, before l = at_label l cs) /\
        ((forall l, 0 <= l -> at_label l cs' = before l) \/ (forall l, 0 <= l -> at_label l cs' = before l + if l =? label then 1 else 0))) ts ts'.
  Proof.
    intros s h R. destruct (center_reach dops exp_ log_ rnd c tlaws_dops Hlife clean_dops Hmid Hkind Htrig l0 Hs (ctrims_safe _ _ Htrim) s h R) as [ts [V [Fp _]]].
    exists ts. split; [now apply inv_ctrees|]. intros x label s' b Hx Hl T.
    destruct (center_whole dops exp_ log_ rnd c tlaws_dops Hlife clean_dops Hmid Hkind Htrig (ctrims_safe _ _ Htrim) s x label s' b Hx Hl T ts V Fp) as [ts' [V' F]].
    exists ts'. split; [now apply inv_ctrees|]. clear -F Hl. induction F as [|o o' ts ts' H F IH]; constructor; auto. intros t' j' cs' -> I. destruct (H t' j' cs' eq_refl I) as [cs [B [Lc Q]]]. exists (fun l => at_label l cs). split.
    - destruct B as [-> |[t [j [-> J]]]]; [left; intros l; apply at_label_zeros|]. right. exists t, j, cs. auto.
    - destruct Q as [-> | ->]; [now left|right]. intros l Hl0. apply at_label_bumped; [lia|lia].
  Qed.
End Binary64.
Print Assumptions coarse_center_pool.
Print Assumptions coarse_center_counts.
Print Assumptions coarse_center_whole.

(** ** A run that splits a leaf at the barycenter *)
(** One tree, one feature, two labels, three nodes. The two leaves are used up by the first two points. Before the 101st point, the leaf with the fewest points is trimmed;
    then the leaf that is left is split at the barycenter, with the helper [h]. *)
Definition conf_m (h : Z) : config dops :=
  Build_config dops 1 1 2 3 (dofZ 10) dhalf dhalf PHOENIX_MANAGEMENT (-1) FE_DISTRIBUTION_ZERO SPLIT_TRIGGER_NONE dhalf dhalf h EXTEND_BARYCENTER TRIM_COUNT done false.
Definition points_m : list (point dops) := ([dofZ 0], 0) :: ([dofZ 16], 1) :: concat (repeat [([dofZ 11], 0); ([dofZ 15], 1); ([dofZ 13], 1)] 40).
Definition counts (s : coarse dops) (i : Z) (cs : list Z) : bool := match get dops s i with Ok n => if list_eq_dec Z.eq_dec (counters dops n) cs then true else false | _ => false end.
Lemma counts_ok : forall s i cs, counts s i cs = true -> exists n, get dops s i = Ok n /\ counters dops n = cs.
Proof. intros s i cs H. unfold counts in H. destruct (get dops s i) as [n|u| |]; try discriminate. destruct (list_eq_dec Z.eq_dec (counters dops n) cs); try discriminate. eauto. Qed.
Definition point_m : point dops := ([dofZ 13], 1).
Definition check_m (c c' : config dops) (rnd : nat -> dbl) (ps : list (point dops)) (p : point dops) : bool :=
  forallb (valid_d (c_features dops c) (c_labels dops c)) ps &&
  match crun c log_c rnd (forest_init dops c true 0) ps with
  | Ok s =>
      (avail dops s =? 0) && counts s 0 [1; 0] && counts s 2 [33; 66] &&
      match train dops log_c rnd c s (fst p) (snd p), train dops log_c rnd c' s (fst p) (snd p) with
      | Ok (s1, _), Ok (s2, _) => (avail dops s1 =? 0) && counts s1 1 [0; 1] && counts s1 2 [33; 66] && (avail dops s2 =? 2) && counts s2 2 [33; 67]
      | _, _ => false
      end
  | _ => false
  end.
Definition split_run (c c' : config dops) (rnd : nat -> dbl) (ps : list (point dops)) (p : point dops) : Prop := exists s s1 b1 s2 b2,
  creached dops exp_h log_c rnd c 0 s (rev ps) /\ avail dops s = 0 /\ counts s 0 [1; 0] = true /\ counts s 2 [33; 66] = true /\
  train dops log_c rnd c s (fst p) (snd p) = Ok (s1, b1) /\ avail dops s1 = 0 /\ counts s1 1 [0; 1] = true /\ counts s1 2 [33; 66] = true /\
  train dops log_c rnd c' s (fst p) (snd p) = Ok (s2, b2) /\ avail dops s2 = 2 /\ counts s2 2 [33; 67] = true.
Lemma check_m_ok : forall c c' rnd ps p, check_m c c' rnd ps p = true -> split_run c c' rnd ps p.
Proof.
  intros c c' rnd ps p H. unfold check_m in H. apply andb_true_iff in H. destruct H as [V H]. apply valid_d_ok in V.
  destruct (crun c log_c rnd _ ps) as [s|u| |] eqn:E; try discriminate. apply andb_true_iff in H. destruct H as [H T]. apply andb_true_iff in H. destruct H as [H C2]. apply andb_true_iff in H. destruct H as [A C0]. apply Z.eqb_eq in A.
  destruct (train dops log_c rnd c s _ _) as [[s1 b1]|u| |] eqn:T1; try discriminate. destruct (train dops log_c rnd c' s _ _) as [[s2 b2]|u| |] eqn:T2; try discriminate.
  apply andb_true_iff in T. destruct T as [T X1]. apply andb_true_iff in T. destruct T as [T X2]. apply andb_true_iff in T. destruct T as [T X3]. apply andb_true_iff in T. destruct T as [T X4]. apply Z.eqb_eq in T, X2.
  assert (R := crun_reached exp_h log_c rnd c 0 _ _ _ _ V (creached_new _ _ _ _ _ _) E). rewrite app_nil_r in R. exists s, s1, b1, s2, b2. auto 15.
Qed.
Lemma run_avg : check_m (conf_m SPLIT_HELPER_AVG) (conf_m SPLIT_HELPER_NONE) (cycle draws_b) (firstn 100 points_m) point_m = true.
Proof. vm_compute. reflexivity. Qed.
Lemma run_weighted : check_m (conf_m SPLIT_HELPER_WEIGHTED) (conf_m SPLIT_HELPER_NONE) (cycle draws_b) (firstn 100 points_m) point_m = true.
Proof. vm_compute. reflexivity. Qed.
Lemma csizes_m : forall h, csizes dops (conf_m h) 0.
Proof. intros h. unfold csizes, conf_m. cbn [c_trees c_features c_labels c_nodes c_life]. repeat split; try lia. Qed.
(** The 101st point takes the first leaf away, with its one point, and splits the other leaf at the barycenter; without a helper, the leaf is not split.
    The leaf that is split keeps its 99 points, the other half has the new point only. *)
Example coarse_center_example : (forall h, csizes dops (conf_m h) 0 /\ ctrims dops (cycle draws_b) (conf_m h)) /\ (forall k, ddraw (cycle draws_b k)) /\
  split_run (conf_m SPLIT_HELPER_AVG) (conf_m SPLIT_HELPER_NONE) (cycle draws_b) (firstn 100 points_m) point_m /\
  split_run (conf_m SPLIT_HELPER_WEIGHTED) (conf_m SPLIT_HELPER_NONE) (cycle draws_b) (firstn 100 points_m) point_m.
Proof.
  split; [intros h; split; [apply csizes_m|right; left; reflexivity]|]. split; [exact draws_b_ok|]. split; [exact (check_m_ok _ _ _ _ _ run_avg)|exact (check_m_ok _ _ _ _ _ run_weighted)].
Qed.
