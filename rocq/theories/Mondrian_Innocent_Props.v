(** * Properties of the Mondrian forest: asking for predictions does not change what is learned *)
From Coq Require Import ZArith List Bool Lia Reals Lra Permutation.
From Flocq Require Import Core BinarySingleNaN.
From Verif Require Import CppBase CppFacts Dbl DblFacts NumOps Utils_Model Utils_Spec Utils_Proofs MCNN_Num Mondrian_Model Mondrian_Spec Mondrian_Proofs Mondrian_Num Mondrian_Forest Mondrian_Predict Mondrian_Reach Mondrian_Runs Mondrian_Props.
From Verif Require Import Forest_Sim Mondrian_Innocent.
Import ListNotations.
Local Open Scope Z_scope.

Section Binary64.
  Variable exp_ log_ : dbl -> dbl.
  Variable rnd : nat -> dbl.
  Variable tc fc lc mn : Z.
  Variable lifetime base_measure discount_factor : dbl.
  Hypothesis Sz : sizes tc fc lc mn.
  Hypothesis Hlife : dle dzero lifetime = true.
  Hypothesis Hdraw : forall k, ddraw (rnd k).
  Local Notation reached := (reached dops exp_ log_ rnd tc fc lc mn lifetime base_measure discount_factor dfine).
  Local Notation trees := (trees dops tc fc lc mn lifetime).
  Local Notation train := (train dops log_ rnd tc fc lc mn lifetime).
  Local Notation predict := (predict dops exp_ tc fc lc mn base_measure discount_factor).
  Let L : laws dops dkey not_nan dfine ddraw fc.
  Proof. apply laws_dops. apply Sz. Qed.
  Let sim : forall f g h, reached f h -> reached g h -> Z.of_nat (length h) <= 2147483647 -> fsim dops (-1) f g.
  Proof. destruct Sz as [S1 [S2 S3]]. apply (reached_sim dops exp_ log_ rnd tc fc lc mn lifetime base_measure discount_factor ltac:(lia) dkey not_nan dfine ddraw L Hdraw Sz Hlife). Qed.
  Let here : forall f h, reached f h -> Z.of_nat (length h) <= 2147483647 -> exists ts lost, state dops tc fc lc mn lifetime (fun _ => True) f h ts lost /\ (h <> [] -> Z.of_nat (length ts) = tc).
  Proof. apply (reached_here dops exp_ log_ rnd tc fc lc mn lifetime base_measure discount_factor dkey not_nan dfine ddraw L Hdraw Sz Hlife). Qed.

  (** *** C109: two forests trained with the same points give the same answers, whatever was asked of them in between *)
  Theorem mondrian_predict_unasked : forall f g h x sc, reached f h -> reached g h -> Z.of_nat (length h) <= 2147483647 -> Z.of_nat (length x) = fc ->
    exists f' g' b, predict f x sc = Ok (f', b, sc) /\ predict g x sc = Ok (g', b, sc).
  Proof.
    intros f g h x sc R R' Hn Hx. destruct Sz as [S1 [S2 S3]]. destruct (here f h R Hn) as [ts [lost [[H _] _]]].
    apply (predict_same dops exp_ tc fc lc mn lifetime base_measure discount_factor ltac:(lia) ltac:(lia) ltac:(lia) f g ts lost x sc Hx (sim f g h R R' Hn) H).
  Qed.
  (** *** C109: the next training has the same outcome in both *)
  Theorem mondrian_train_unasked : forall f g h x label, reached f h -> reached g h -> Z.of_nat (length h) < 2147483647 -> input dops fc dfine x -> 0 <= label < lc ->
    (exists f' g' r, train f x label = Ok (f', r) /\ train g x label = Ok (g', r)) \/ ((forall f' r, train f x label <> Ok (f', r)) /\ train g x label = train f x label).
  Proof.
    intros f g h x label R R' Hn Hx Hl. destruct Sz as [S1 [S2 S3]].
    pose proof (learn_sim dops exp_ log_ rnd tc fc lc mn lifetime base_measure discount_factor ltac:(lia) dkey not_nan dfine ddraw L Hdraw Sz Hlife f g h x label R R' (sim f g h R R' ltac:(lia)) Hn Hx Hl) as H.
    destruct (train f x label) as [[f' r]|u| |], (train g x label) as [[g' r']|u'| |]; cbn in H; try contradiction.
    - destruct H as [_ ->]. left. eauto.
    - right. subst. split; [discriminate|reflexivity].
    - right. split; [discriminate|reflexivity].
    - right. split; [discriminate|reflexivity].
  Qed.
  (** *** C109: the same trees, with the same points in every leaf and the same nodes lost *)
  Theorem mondrian_trees_unasked : forall f g h, reached f h -> reached g h -> h <> [] -> Z.of_nat (length h) <= 2147483647 ->
    drawn dops g = drawn dops f /\ exists ts lost, trees f h ts lost /\ trees g h ts lost.
  Proof.
    intros f g h R R' Nh Hn. pose proof (sim f g h R R' Hn) as S. split; [apply S|]. destruct (here f h R Hn) as [ts [lost [[H1 [H2 H3]] H4]]]. exists ts, lost.
    split; apply (state_trees dops tc fc lc mn lifetime (fun _ => True)); auto; (split; [|auto]); [exact H1|]. now apply holds_sim with f.
  Qed.
End Binary64.
Print Assumptions mondrian_predict_unasked.
Print Assumptions mondrian_train_unasked.
Print Assumptions mondrian_trees_unasked.

Local Notation reached_c mn := (reached dops exp_c log_c (cycle draws_c) 2 2 2 mn (dofZ 10) dhalf dhalf dfine).
Definition asked (mn : Z) (ps qs : list (point dops)) (x : list dbl) (ok : forest dops -> bool) : bool :=
  (Z.of_nat (length x) =? 2) && forallb (valid_d 2 2) qs &&
  runs_to log_c (cycle draws_c) 2 2 2 mn (dofZ 10) ps (fun f => match predict dops exp_c 2 2 2 mn dhalf dhalf f x None with
    | Ok (f, _, _) => match run dops log_c (cycle draws_c) 2 2 2 mn (dofZ 10) f qs with Ok f => ok f | _ => false end | _ => false end).
Lemma asked_reached : forall mn ps qs x ok, asked mn ps qs x ok = true -> exists f, reached_c mn f (rev qs ++ rev ps) /\ ok f = true.
Proof.
  intros mn ps qs x ok H. unfold asked in H. apply andb_true_iff in H. destruct H as [H1 H]. apply andb_true_iff in H1. destruct H1 as [Hx Hq]. apply Z.eqb_eq in Hx.
  apply (runs_to_reached exp_c log_c (cycle draws_c) 2 2 2 mn (dofZ 10) dhalf dhalf) in H. destruct H as [f [R H]].
  destruct (predict dops exp_c 2 2 2 mn dhalf dhalf f x None) as [[[f1 b] sc]|?| |] eqn:E; try discriminate. destruct (run _ _ _ _ _ _ _ _ f1 qs) as [f2|?| |] eqn:E2; try discriminate.
  exists f2. split; [|exact H]. apply run_reached with f1; [now apply valid_d_ok| |exact E2]. eapply reached_predict; [exact R|exact Hx|exact E].
Qed.
(** Four points in 12 nodes, with and without a prediction after the third: the root of the first tree (node 2) has other counters, but the answers and the trees are the same. *)
Lemma run_asked : asked 12 (firstn 3 points_c) (skipn 3 points_c) (sixteenths 3 3) (fun f => same_zs [roots dops f; map (fun l => counter dops f l 2) [0; 1]] [[2; 4]; [1; 2]]) = true.
Proof. vm_compute. reflexivity. Qed.
Lemma run_silent : runs_to log_c (cycle draws_c) 2 2 2 12 (dofZ 10) points_c (fun f => same_zs [roots dops f; map (fun l => counter dops f l 2) [0; 1]] [[2; 4]; [0; 0]]) = true.
Proof. vm_compute. reflexivity. Qed.
Example mondrian_unasked_example : exists f g, reached_c 12 f (rev points_c) /\ reached_c 12 g (rev points_c) /\
  map (fun l => counter dops f l 2) [0; 1] = [0; 0] /\ map (fun l => counter dops g l 2) [0; 1] = [1; 2] /\
  (exists f' g' b, predict dops exp_c 2 2 2 12 dhalf dhalf f (sixteenths 7 7) None = Ok (f', b, None) /\ predict dops exp_c 2 2 2 12 dhalf dhalf g (sixteenths 7 7) None = Ok (g', b, None)) /\
  exists ts lost, trees dops 2 2 2 12 (dofZ 10) f (rev points_c) ts lost /\ trees dops 2 2 2 12 (dofZ 10) g (rev points_c) ts lost.
Proof.
  pose proof run_silent as F. apply (runs_to_reached exp_c log_c (cycle draws_c) 2 2 2 12 (dofZ 10) dhalf dhalf) in F. destruct F as [f [R F]]. apply same_zs_ok in F. destruct F as [_ [F _]].
  pose proof run_asked as G. apply asked_reached in G. destruct G as [g [R' G]]. apply same_zs_ok in G. destruct G as [_ [G _]]. change (rev (skipn 3 points_c) ++ rev (firstn 3 points_c)) with (rev points_c) in R'.
  exists f, g. split; [exact R|]. split; [exact R'|]. split; [exact F|]. split; [exact G|]. split.
  - exact (mondrian_predict_unasked exp_c log_c (cycle draws_c) 2 2 2 12 (dofZ 10) dhalf dhalf (sizes_c 12 ltac:(lia)) eq_refl (cycle_draw draws_c eq_refl) f g _ (sixteenths 7 7) None R R' ltac:(cbn; lia) eq_refl).
  - exact (proj2 (mondrian_trees_unasked exp_c log_c (cycle draws_c) 2 2 2 12 (dofZ 10) dhalf dhalf (sizes_c 12 ltac:(lia)) eq_refl (cycle_draw draws_c eq_refl) f g _ R R' ltac:(discriminate) ltac:(cbn; lia))).
Qed.
