(** * Properties of the coarse Mondrian forest: asking for predictions does not change what is learned *)
From Coq Require Import ZArith List Bool Lia Reals Lra.
From Flocq Require Import Core BinarySingleNaN.
From Verif Require Import CppBase CppFacts Dbl DblFacts NumOps NumFacts Utils_Model Utils_Spec Utils_Proofs MCNN_Num.
From Verif Require Import Mondrian_Model Mondrian_Spec Mondrian_Proofs Mondrian_Num Mondrian_Runs Mondrian_Props.
From Verif Require Import Coarse_Model Coarse_Spec Coarse_Heap Coarse_Walk Coarse_Train Coarse_Trim Coarse_Forest Coarse_Reach Coarse_Tidy Coarse_Props.
From Verif Require Import Coarse_Total Coarse_Predict Coarse_Recount Coarse_Predict_Props Forest_Sim Coarse_Sim Coarse_Innocent.
Import ListNotations.
Local Open Scope Z_scope.

(** A tree without the counters of its internal nodes: node numbers, splits and leaf counters remain. *)
Fixpoint bare (t : ctree dops) : ctree dops :=
  match t with
  | CLeaf i cs => CLeaf i cs
  | CFork i d v _ l r => CFork i d v [] (bare l) (bare r)
  end.

Section Binary64.
  Variable exp_ log_ : dbl -> dbl.
  Variable rnd : nat -> dbl.
  Variable c : config dops.
  Variable l0 : Z.
  Hypothesis Hs : csizes dops c l0.
  Hypothesis Hkind : c_extend dops c <> EXTEND_BARYCENTER.
  Hypothesis Htrim : ctrims dops rnd c.
  Local Notation creached := (creached dops exp_ log_ rnd c l0).
  Local Notation predict := (predict dops exp_ c).
  Local Notation train := (train dops log_ rnd c).

  (** *** C108: two forests trained with the same points predict the same, whatever was asked of them in between *)
  Theorem coarse_predict_unasked : forall s s' h x sc k, creached s h -> creached s' h -> predict s' x sc k = predict s x sc k.
  Proof. intros s s' h x sc k R R'. apply (predict_same dops exp_ log_ rnd c l0 tlaws_dops Hs Hkind (ctrims_safe _ _ Htrim) s s' h x sc k R R'). Qed.
  (** *** C108: the next point is accepted by both or by none, with the same answer *)
  Theorem coarse_train_unasked : forall s s' h x label, Z.of_nat (length x) = c_features dops c -> creached s h -> creached s' h ->
    (exists s1 s1' b, train s x label = Ok (s1, b) /\ train s' x label = Ok (s1', b)) \/
    ((forall s1 b, train s x label <> Ok (s1, b)) /\ train s' x label = train s x label).
  Proof.
    intros s s' h x label Hx R R'. pose proof (train_same dops exp_ log_ rnd c l0 tlaws_dops Hs Hkind (ctrims_safe _ _ Htrim) s s' h x label Hx R R') as H.
    destruct (train s x label) as [[s1 b]|u| |], (train s' x label) as [[s1' b']|u'| |]; cbn in H; try contradiction.
    - destruct H as [_ ->]. left. eauto.
    - right. subst. split; [discriminate|reflexivity].
    - right. split; [discriminate|reflexivity].
    - right. split; [discriminate|reflexivity].
  Qed.
  (** *** C108: they hold the same trees: same nodes, same splits, same leaves *)
  Theorem coarse_trees_unasked : forall s s' h, creached s h -> creached s' h ->
    exists ts ts', ctrees dops c s ts /\ ctrees dops c s' ts' /\ map (option_map bare) ts' = map (option_map bare) ts /\
      avail dops s' = avail dops s /\ drawn dops (fr dops s') = drawn dops (fr dops s).
  Proof.
    intros s s' h R R'. destruct (trees_same dops exp_ log_ rnd c l0 tlaws_dops Hs Hkind (ctrims_safe _ _ Htrim) s s' h R R') as [ts [ts' [V [V' F]]]].
    exists ts, ts'. split; [now apply inv_ctrees|]. split; [now apply inv_ctrees|]. split.
    - clear - F. induction F as [|o o' ts ts' X F IH]; [reflexivity|]. cbn [map]. rewrite IH. f_equal. destruct o as [t|], o' as [t'|]; try contradiction; [|reflexivity].
      cbn [option_map]. f_equal. induction X as [i cs|i d v cs cs' l l' r r' Hl IHl Hr IHr]; [reflexivity|]. cbn [bare]. now rewrite IHl, IHr.
    - assert (C : csim dops s s').
      { destruct (recount_cases dops c) as [[_ [Kg Ko]]|K].
        - now apply (reached_csim dops exp_ log_ rnd c l0 tlaws_dops Hs Hkind (ctrims_safe _ _ Htrim) Kg Ko s s' h).
        - rewrite (reached_det dops exp_ log_ rnd c l0 K s s' h R R'). apply csim_refl. }
      destruct C as [g [-> [_ [D _]]]]. split; [reflexivity|exact D].
  Qed.
End Binary64.
Print Assumptions coarse_predict_unasked.
Print Assumptions coarse_train_unasked.
Print Assumptions coarse_trees_unasked.

Local Notation reached_c c := (creached dops exp_h log_c (cycle draws_c) c 0).
(** Four points in 20 nodes, with and without a prediction after the third: the internal counters differ, the next prediction and the next training do not. *)
Definition ccheck_asked (ps qs : list (point dops)) (x : list dbl) (ok : coarse dops -> bool) : bool :=
  (Z.of_nat (length x) =? 2) && forallb (valid_d 2 2) qs &&
  ccheck conf_c ps (fun s => match predict dops exp_h conf_c s x None (-1) with Ok (s, _, _) => match crun conf_c log_c (cycle draws_c) s qs with Ok s => ok s | _ => false end | _ => false end).
Lemma ccheck_asked_reached : forall ps qs x ok, ccheck_asked ps qs x ok = true -> exists s, reached_c conf_c s (rev qs ++ rev ps) /\ ok s = true.
Proof.
  intros ps qs x ok H. unfold ccheck_asked in H. apply andb_true_iff in H. destruct H as [H1 H]. apply andb_true_iff in H1. destruct H1 as [Hx Hq]. apply Z.eqb_eq in Hx. apply ccheck_reached in H. destruct H as [s [R H]].
  destruct (predict dops exp_h conf_c s x None (-1)) as [[[s1 b] sc]|?| |] eqn:E; try discriminate. destruct (crun conf_c log_c (cycle draws_c) s1 qs) as [s2|?| |] eqn:E2; try discriminate.
  exists s2. split; [|exact H]. apply crun_reached with s1; [now apply valid_d_ok| |exact E2]. eapply creached_predict; [exact R|exact Hx|exact E].
Qed.
Lemma run_asked : ccheck_asked (firstn 3 points_c) (skipn 3 points_c) (sixteenths 1 1) (fun s => inner_sum s =? 14) = true.
Proof. vm_compute. reflexivity. Qed.
Example coarse_unasked_example : exists s s', reached_c conf_c s (rev points_c) /\ reached_c conf_c s' (rev points_c) /\ inner_sum s = 6 /\ inner_sum s' = 14 /\
  (forall y sc k, predict dops exp_h conf_c s' y sc k = predict dops exp_h conf_c s y sc k) /\
  (exists s1, predict dops exp_h conf_c s' (sixteenths 8 4) None (-1) = Ok (s1, 1, None)) /\
  exists ts ts', ctrees dops conf_c s ts /\ ctrees dops conf_c s' ts' /\ map (option_map bare) ts' = map (option_map bare) ts.
Proof.
  pose proof run_recount as H. checked H. pose proof run_asked as A. apply ccheck_asked_reached in A. destruct A as [s' [R' A]]. apply Z.eqb_eq in A.
  change (rev (skipn 3 points_c) ++ rev (firstn 3 points_c)) with (rev points_c) in R'. exists s, s'.
  assert (Ht : ctrims dops (cycle draws_c) conf_c) by (unfold ctrims; cbn; auto). assert (Sz : csizes dops conf_c 0) by (apply csizes_c; lia).
  pose proof (fun y sc k => coarse_predict_unasked exp_h log_c (cycle draws_c) conf_c 0 Sz ltac:(discriminate) Ht s s' _ y sc k R R') as P.
  split; [exact R|]. split; [exact R'|]. split; [assumption|]. split; [exact A|]. split; [exact P|]. split.
  - unfold after_predict in H0. rewrite P. destruct (predict dops exp_h conf_c s (sixteenths 8 4) None (-1)) as [[[s1 b] [sc|]]|?| |]; try discriminate. apply andb_true_iff in H0. destruct H0 as [_ H1]. apply Z.eqb_eq in H1. subst b. eauto.
  - destruct (coarse_trees_unasked exp_h log_c (cycle draws_c) conf_c 0 Sz ltac:(discriminate) Ht s s' _ R R') as [ts [ts' [T [T' [E _]]]]]. eauto.
Qed.
