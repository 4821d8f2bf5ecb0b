(** * Properties of the coarse Mondrian forest: predictions with the barycenter extension, without the split trigger *)
From Coq Require Import ZArith List Bool Lia.
From Verif Require Import CppBase CppFacts Dbl DblFacts NumOps Utils_Model Utils_Proofs MCNN_Num.
From Verif Require Import Mondrian_Model Mondrian_Spec Mondrian_Proofs Mondrian_Num Mondrian_Runs Mondrian_Props.
From Verif Require Import Coarse_Model Coarse_Spec Coarse_Heap Coarse_Forest Coarse_Reach Coarse_Props Coarse_Trim_Props Coarse_Center Coarse_Center_Forest Coarse_Center_Laws Coarse_Center_Props.
From Verif Require Import Coarse_Walk Coarse_Train Coarse_Trim Coarse_Tidy Coarse_Total Coarse_Predict Coarse_Recount Coarse_Predict_Props Coarse_Center_Predict.
Import ListNotations.
Local Open Scope Z_scope.

Section Binary64.
  Variable exp_ log_ : dbl -> dbl.
  Variable rnd : nat -> dbl.
  Variable c : config dops.
  Variable l0 : Z.
  Hypothesis Hs : csizes dops c l0.
  Hypothesis Hkind : c_extend dops c = EXTEND_BARYCENTER.
  Hypothesis Htrig : c_fe_trigger dops c = SPLIT_TRIGGER_NONE.
  Hypothesis Htrim : ctrims dops rnd c.
  Hypothesis Hd : forall k, ddraw (rnd k).
  Local Notation creached := (creached dops exp_ log_ rnd c l0).
  Local Notation predict := (predict dops exp_ c).
  Let Hlife : nlt dops (c_life dops c) (nofZ dops 0) = false.
  Proof. apply (tl_used dops tlaws_dops). destruct Hs as [_ [_ [_ [_ [_ X]]]]]. exact X. Qed.
  Let Hmid : forall t0 t q, nlt dops t0 (nofZ dops 0) = false -> nlt dops t (nofZ dops 0) = false -> nlt dops (nadd dops t0 (nmul dops (nsub dops t t0) (rnd q))) (nofZ dops 0) = false.
  Proof. intros t0 t q H0 H. exact (mid_dops t0 t (rnd q) H0 H (Hd q)). Qed.
  Let Hinv : forall s h, creached s h -> exists ts, inv dops c s ts.
  Proof. intros s h R. destruct (center_reach dops exp_ log_ rnd c tlaws_dops Hlife clean_dops Hmid Hkind Htrig l0 Hs (ctrims_safe _ _ Htrim) s h R) as [ts [V _]]. eauto. Qed.

  (** *** C122: a prediction is defined, in every state, for every point and any number of trees up to all of them *)
  Theorem coarse_center_predict_defined : forall s h x sc k, creached s h -> Z.of_nat (length x) = c_features dops c -> k <= c_trees dops c ->
    exists s' b, predict s x sc k = Ok (s', b, sc) /\ 0 <= b < c_labels dops c.
  Proof.
    intros s h x sc k R Hx Hk. destruct (Hinv s h R) as [ts V]. apply (predict_any dops exp_ c l0 Hs x s ts sc k Hx V); [|exact Hk]. eapply (full_any dops exp_ log_ rnd c l0 tlaws_dops Hs); eauto.
  Qed.
  (** *** C122: predictions do not disturb each other *)
  Theorem coarse_center_predict_again : forall s h x sc k s' b sc', creached s h -> predict s x sc k = Ok (s', b, sc') ->
    forall y sc2 k2, predict s' y sc2 k2 = predict s y sc2 k2.
  Proof.
    intros s h x sc k s' b sc' R H y sc2 k2. apply predict_state in H. unfold Coarse_Model.predict at 2. rewrite H. unfold Coarse_Model.predict. destruct (_ && _) eqn:B; [|reflexivity].
    destruct (Hinv s h R) as [ts V]. destruct (update_all_again dops c l0 Hs _ _ _ V H) as [ts' [_ [_ E]]]. now rewrite E.
  Qed.
  (** *** C122: a prediction keeps the nodes and the leaves of every tree with the points they count; after it, an internal node tells in how many of its subtrees a label occurs *)
  Theorem coarse_center_predict_effect : forall s h x sc k s' b sc', creached s h -> predict s x sc k = Ok (s', b, sc') ->
    (c_optimize dops c = true -> s' = s) /\
    (c_optimize dops c = false -> exists ts ts', ctrees dops c s ts /\ ctrees dops c s' ts' /\
       Forall2 (fun o o' => match o, o' with Some t, Some t' => cids dops t' = cids dops t /\ cleaves dops t' = cleaves dops t /\ recapped dops (c_labels dops c) t' | None, None => True | _, _ => False end) ts ts').
  Proof.
    intros s h x sc k s' b sc' R H. apply predict_state in H. rewrite Hkind in H. destruct (c_optimize dops c); (split; [|]); try discriminate; intros _.
    - cbn in H. congruence.
    - cbn -[update_all] in H. destruct (Hinv s h R) as [ts V]. destruct (update_all_again dops c l0 Hs _ _ _ V H) as [ts' [F [V' _]]]. exists ts, ts'. split; [now apply inv_ctrees|]. split; [now apply inv_ctrees|]. clear - F. induction F as [|o o' ts ts' X F IH]; constructor; auto.
      destruct o as [t|], o' as [t'|]; auto. destruct X as [X1 X2]. destruct (alike_facts dops _ _ X1) as [_ [Y1 [Y2 _]]]. auto.
  Qed.
End Binary64.
Print Assumptions coarse_center_predict_defined.
Print Assumptions coarse_center_predict_again.
Print Assumptions coarse_center_predict_effect.

(** ** After the run of C115 *)
Definition asked (c : config dops) (s : coarse dops) (x : list dbl) (ok : coarse dops -> Z -> bool) : bool :=
  match predict dops exp_h c s x None (-1), predict dops exp_h c s x None 2 with Ok (s', b, None), Undef OutOfBounds => ok s' b | _, _ => false end.
Lemma asked_ok : forall c s x ok, asked c s x ok = true -> exists s' b, predict dops exp_h c s x None (-1) = Ok (s', b, None) /\ predict dops exp_h c s x None 2 = Undef OutOfBounds /\ ok s' b = true.
Proof.
  intros c s x ok H. unfold asked in H. destruct (predict dops exp_h c s x None (-1)) as [[[s' b] [sc|]]|u| |]; try discriminate. destruct (predict dops exp_h c s x None 2) as [?|u| |]; try discriminate.
  destruct u; try discriminate. eauto.
Qed.
Definition check_q (c : config dops) (rnd : nat -> dbl) (ps : list (point dops)) (x : list dbl) : bool :=
  forallb (valid_d (c_features dops c) (c_labels dops c)) ps &&
  match crun c log_c rnd (forest_init dops c true 0) ps with
  | Ok s => asked c s x (fun s' b => (b =? 1) && counts s 0 [0; 0] && counts s' 0 [1; 2])
  | _ => false
  end.
Definition asked_run (c : config dops) (rnd : nat -> dbl) (ps : list (point dops)) (x : list dbl) : Prop := exists s s',
  creached dops exp_h log_c rnd c 0 s (rev ps) /\ predict dops exp_h c s x None (-1) = Ok (s', 1, None) /\ counts s 0 [0; 0] = true /\ counts s' 0 [1; 2] = true /\ predict dops exp_h c s x None 2 = Undef OutOfBounds.
Lemma check_q_ok : forall c rnd ps x, check_q c rnd ps x = true -> asked_run c rnd ps x.
Proof.
  intros c rnd ps x H. unfold check_q in H. apply andb_true_iff in H. destruct H as [V H]. apply valid_d_ok in V. destruct (crun c log_c rnd _ ps) as [s|u| |] eqn:E; try discriminate.
  apply asked_ok in H. destruct H as [s' [b [P1 [P2 H]]]]. apply andb_true_iff in H. destruct H as [H C2]. apply andb_true_iff in H. destruct H as [A C0]. apply Z.eqb_eq in A. subst b.
  assert (R := crun_reached exp_h log_c rnd c 0 _ _ _ _ V (creached_new _ _ _ _ _ _) E). rewrite app_nil_r in R. exists s, s'. auto.
Qed.
Lemma run_asked : check_q (conf_m SPLIT_HELPER_AVG) (cycle draws_b) (firstn 101 points_m) [dofZ 13] = true.
Proof. vm_compute. reflexivity. Qed.
(** The 101st point splits the leaf at the barycenter; the internal node above the two leaves is recounted by the prediction. *)
Example coarse_center_predict_example : exists c, csizes dops c 0 /\ c_extend dops c = EXTEND_BARYCENTER /\ c_fe_trigger dops c = SPLIT_TRIGGER_NONE /\ ctrims dops (cycle draws_b) c /\ (forall k, ddraw (cycle draws_b k)) /\
  asked_run c (cycle draws_b) (firstn 101 points_m) [dofZ 13].
Proof. exists (conf_m SPLIT_HELPER_AVG). split; [apply csizes_m|]. split; [reflexivity|]. split; [reflexivity|]. split; [right; left; reflexivity|]. split; [exact draws_b_ok|exact (check_q_ok _ _ _ _ run_asked)]. Qed.

(** *** C122: the number of trees asked is not limited to the trees of the forest: asking two trees of a forest with one reads behind the array of the roots *)
Theorem coarse_predict_beyond_refuted : exists c s h x k, csizes dops c 0 /\ creached dops exp_h log_c (cycle draws_b) c 0 s h /\ Z.of_nat (length x) = c_features dops c /\ c_trees dops c < k /\
  predict dops exp_h c s x None k = Undef OutOfBounds.
Proof.
  destruct (check_q_ok _ _ _ _ run_asked) as [s [s' [R [_ [_ [_ H]]]]]]. exists (conf_m SPLIT_HELPER_AVG), s, (rev (firstn 101 points_m)), [dofZ 13], 2.
  split; [apply csizes_m|]. split; [exact R|]. split; [reflexivity|]. split; [reflexivity|exact H].
Qed.
Print Assumptions coarse_predict_beyond_refuted.
