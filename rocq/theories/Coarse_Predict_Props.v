(** * Properties of the coarse Mondrian forest: predictions *)
From Coq Require Import ZArith List Bool Lia Reals Lra.
From Flocq Require Import Core BinarySingleNaN.
From Verif Require Import CppBase CppFacts Dbl DblFacts NumOps NumFacts Utils_Model Utils_Spec Utils_Proofs MCNN_Num.
From Verif Require Import Mondrian_Model Mondrian_Spec Mondrian_Proofs Mondrian_Num Mondrian_Runs Mondrian_Props.
From Verif Require Import Coarse_Model Coarse_Spec Coarse_Heap Coarse_Walk Coarse_Train Coarse_Trim Coarse_Forest Coarse_Reach Coarse_Tidy Coarse_Props.
From Verif Require Import Coarse_Total Coarse_Predict Coarse_Recount.
Import ListNotations.
Local Open Scope Z_scope.

Section Binary64.
  Variable exp_ log_ : dbl -> dbl.
  Variable rnd : nat -> dbl.
  Variable c : config dops.
  Variable l0 : Z.
  Hypothesis Hs : csizes dops c l0.
  Hypothesis Hkind : c_extend dops c <> EXTEND_BARYCENTER.
  Hypothesis Htrim : ctrims dops rnd c.
  Local Notation creached := (creached dops exp_ log_ rnd c l0).
  Local Notation predict := (predict dops exp_ c).
  Local Notation recounts := (c_optimize dops c = false /\ c_extend dops c <> EXTEND_GHOST).

  (** *** C106: a prediction is defined, in every state, for every point and any number of trees up to all of them *)
  Theorem coarse_predict_defined : forall s h x sc k, creached s h -> Z.of_nat (length x) = c_features dops c -> k <= c_trees dops c ->
    exists s' b, predict s x sc k = Ok (s', b, sc) /\ 0 <= b < c_labels dops c.
  Proof. intros s h x sc k R Hx Hk. apply (predict_total dops exp_ log_ rnd c l0 tlaws_dops Hs x Hx Hkind (ctrims_safe _ _ Htrim) s h sc k R Hk). Qed.

  Lemma recount_cond : negb (c_optimize dops c) && negb (c_extend dops c =? EXTEND_GHOST) = true <-> recounts.
  Proof. rewrite andb_true_iff, !negb_true_iff, Z.eqb_neq. tauto. Qed.
  Lemma predict_state : forall s x sc k s' b sc', predict s x sc k = Ok (s', b, sc') -> (if negb (c_optimize dops c) && negb (c_extend dops c =? EXTEND_GHOST) then update_all dops c s else Ok s) = Ok s'.
  Proof. intros s x sc k s' b sc' H. unfold Coarse_Model.predict in H. inv_bind H. inv_bind H. inv_bind H. injection H as <- <- <-. exact E. Qed.

  (** *** C107: predictions do not disturb each other *)
  Theorem coarse_predict_again : forall s h x sc k s' b sc', creached s h -> predict s x sc k = Ok (s', b, sc') ->
    forall y sc2 k2, predict s' y sc2 k2 = predict s y sc2 k2.
  Proof.
    intros s h x sc k s' b sc' R H y sc2 k2. apply predict_state in H. unfold Coarse_Model.predict at 2. rewrite H. unfold Coarse_Model.predict. destruct (_ && _) eqn:B; [|reflexivity].
    destruct (reach_inv dops exp_ log_ rnd c l0 tlaws_dops Hs Hkind (ctrims_safe _ _ Htrim) (fun _ _ _ => True) I ltac:(auto) ltac:(auto) s h R) as [ts [V _]].
    destruct (update_all_again dops c l0 Hs _ _ _ V H) as [ts' [_ [_ E]]]. now rewrite E.
  Qed.
  (** *** C107: what a prediction changes: the counters of the internal nodes, which then tell in how many subtrees a label occurs *)
  Theorem coarse_predict_effect : forall s h x sc k s' b sc', creached s h -> predict s x sc k = Ok (s', b, sc') ->
    (~ recounts -> s' = s) /\
    (recounts -> exists ts ts', ctrees dops c s ts /\ ctrees dops c s' ts' /\
       Forall2 (fun o o' => match o, o' with Some t, Some t' => cids dops t' = cids dops t /\ cleaves dops t' = cleaves dops t /\ recapped dops (c_labels dops c) t' | None, None => True | _, _ => False end) ts ts').
  Proof.
    intros s h x sc k s' b sc' R H. apply predict_state in H. rewrite <- recount_cond. destruct (_ && _) eqn:B; (split; [|]); try congruence; intros _.
    destruct (reach_inv dops exp_ log_ rnd c l0 tlaws_dops Hs Hkind (ctrims_safe _ _ Htrim) (fun _ _ _ => True) I ltac:(auto) ltac:(auto) s h R) as [ts [V _]].
    destruct (update_all_again dops c l0 Hs _ _ _ V H) as [ts' [F [V' _]]]. exists ts, ts'. split; [now apply inv_ctrees|]. split; [now apply inv_ctrees|]. clear - F. induction F as [|o o' ts ts' X F IH]; constructor; auto.
    destruct o as [t|], o' as [t'|]; auto. destruct X as [X1 X2]. destruct (alike_facts dops _ _ X1) as [_ [Y1 [Y2 _]]]. auto.
  Qed.
End Binary64.
Print Assumptions coarse_predict_defined.
Print Assumptions coarse_predict_again.
Print Assumptions coarse_predict_effect.

Local Notation reached_c c := (creached dops exp_h log_c (cycle draws_c) c 0).
(** Four points in 20 nodes: the prediction recounts the internal nodes of both trees, and a second one finds them recounted. *)
Definition inner_sum (s : coarse dops) : Z := zsum (map (fun n => if is_leaf dops n then 0 else zsum (counters dops n)) (nodes dops (fr dops s))).
Definition after_predict (s : coarse dops) (x : list dbl) (ok : coarse dops -> Z -> bool) : bool := match predict dops exp_h conf_c s x None (-1) with Ok (s', b, None) => ok s' b | _ => false end.
Lemma run_recount : ccheck conf_c points_c (fun s => (inner_sum s =? 6) && after_predict s (sixteenths 8 4) (fun s' b => (inner_sum s' =? 16) && (b =? 1))) = true.
Proof. vm_compute. reflexivity. Qed.
Example coarse_predict_example : exists s s', reached_c conf_c s (rev points_c) /\ predict dops exp_h conf_c s (sixteenths 8 4) None (-1) = Ok (s', 1, None) /\ inner_sum s = 6 /\ inner_sum s' = 16 /\
  (forall y sc k, predict dops exp_h conf_c s' y sc k = predict dops exp_h conf_c s y sc k) /\
  exists s2 b2, predict dops exp_h conf_c s (sixteenths 1 1) None 1 = Ok (s2, b2, None) /\ 0 <= b2 < 2.
Proof.
  pose proof run_recount as H. checked H. unfold after_predict in H0. destruct (predict dops exp_h conf_c s (sixteenths 8 4) None (-1)) as [[[s' b] [sc|]]|?| |] eqn:E; try discriminate.
  apply andb_true_iff in H0. destruct H0 as [H1 H2]. apply Z.eqb_eq in H1, H2. subst b. exists s, s'.
  assert (Ht : ctrims dops (cycle draws_c) conf_c) by (unfold ctrims; cbn; auto). assert (Sz : csizes dops conf_c 0) by (apply csizes_c; lia).
  split; [exact R|]. split; [exact E|]. split; [assumption|]. split; [assumption|]. split.
  - intros y sc k. apply (coarse_predict_again exp_h log_c (cycle draws_c) conf_c 0 Sz ltac:(discriminate) Ht s _ _ _ _ _ _ _ R E).
  - apply (coarse_predict_defined exp_h log_c (cycle draws_c) conf_c 0 Sz ltac:(discriminate) Ht s _ (sixteenths 1 1) None 1 R); [reflexivity|cbn; lia].
Qed.
