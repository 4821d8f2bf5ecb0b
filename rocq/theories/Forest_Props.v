(** * The bounded and the unbounded Mondrian forest compared (src/mondrian.hpp, src/mondrian_unbound.hpp) *)
From Coq Require Import ZArith List Bool Lia Reals Permutation.
From Flocq Require Import Core BinarySingleNaN.
From Verif Require Import CppBase CppFacts Dbl DblFacts NumOps Utils_Model Utils_Spec Utils_Proofs MCNN_Num.
From Verif Require Import Mondrian_Model Mondrian_Spec Mondrian_Proofs Mondrian_Train Mondrian_Num Mondrian_Runs Mondrian_Reach Mondrian_Props.
From Verif Require Unbound_Model.
From Verif Require Import Unbound_Spec Unbound_Props.
From Verif Require Import Forest_Spec Forest_Same Forest_Train Forest_Predict.
Import ListNotations.
Local Open Scope Z_scope.

Lemma input_values : forall O fc ok x, input O fc ok x -> Forall ok x.
Proof.
  intros O fc ok x [Lx H]. apply Forall_forall. intros v Iv. destruct (In_nth x v (nofZ O 0) Iv) as [k [Hk <-]]. specialize (H (Z.of_nat k)). rewrite Nat2Z.id in H. apply H. lia.
Qed.
Lemma Forall2_len : forall A B (P : A -> B -> Prop) l m, Forall2 P l m -> length l = length m.
Proof. intros A B P l m F. induction F; cbn; congruence. Qed.

Section Binary64.
  Variable exp_ log_ : dbl -> dbl.
  Variable rnd : nat -> dbl.
  Variable tc fc lc mn : Z.
  Variable lifetime base_measure discount_factor : dbl.
  Hypothesis Sz : sizes tc fc lc mn.
  Hypothesis Hlife : dle dzero lifetime = true.
  Hypothesis Hdraw : forall k, ddraw (rnd k).
  Local Notation reached := (reached dops exp_ log_ rnd tc fc lc mn lifetime base_measure discount_factor dfine).
  Local Notation ureached := (ureached dops log_ rnd tc fc lc lifetime dfine).
  Local Notation trees := (trees dops tc fc lc mn lifetime).
  Local Notation utrees := (utrees dops tc fc lc lifetime).
  Local Notation predict := (predict dops exp_ tc fc lc mn base_measure discount_factor).
  Local Notation upredict := (Unbound_Model.predict dops exp_ tc fc lc base_measure discount_factor).
  Local Notation means := (forest_means dops exp_ tc fc lc mn base_measure discount_factor).
  Local Notation umeans := (Unbound_Model.forest_means dops exp_ tc fc lc base_measure discount_factor).
  Local Notation empty := (empty_node dops fc lc).

  Let L : laws dops dkey not_nan dfine ddraw fc.
  Proof. apply laws_dops. apply Sz. Qed.
  Let Usz : usizes tc fc lc.
  Proof. destruct Sz as [S1 [S2 S3]]. repeat split; lia. Qed.
  Let free : available dops empty = true.
  Proof. reflexivity. Qed.

  Lemma runs_together : forall f h, reached f h -> forall g, ureached g h -> together dops mn not_nan dfine empty f g.
  Proof.
    intros f h R. induction R as [|f h x label f' r R IH Hx Hl Ht|f h x s f' b s' R IH Hx Hp]; intros g U.
    - inversion U; subst. intros _. exists []. destruct Sz as [S1 _].
      split; [constructor|]. split; [constructor|]. split; [intros i j []|]. split; [reflexivity|]. split; [cbn; rewrite repeat_length; lia|].
      split; [intros i n Hn _; cbn in Hn; apply rd_ok_iff in Hn; destruct Hn as [_ Hn]; apply nth_error_In, repeat_spec in Hn; exact Hn|].
      split; [|reflexivity]. cbn. clear. induction (Z.to_nat tc); cbn; constructor; [left; auto|assumption].
    - inversion U as [|g0 h0 x0 l0 g1 r1 U0 Hx0 Hl0 Ht0]; subst. destruct Sz as [S1 [S2 S3]].
      apply (train_same dops rnd log_ tc fc lc mn lifetime dkey not_nan dfine ddraw L Hdraw Hlife ltac:(lia) empty eq_refl eq_refl eq_refl free eq_refl x label (input_values _ _ _ _ Hx) (input_len _ _ _ _ Hx) Hl f g0 f' g r r1 (IH g0 U0) Ht Ht0).
    - intros Cap. destruct (IH g U Cap) as [q Rq]. exists q. unfold Mondrian_Model.predict in Hp. apply bind_inv in Hp. destruct Hp as [f1 [E1 Hp]]. apply bind_inv in Hp. destruct Hp as [m [_ Hp]]. apply bind_inv in Hp. destruct Hp as [w [_ Hp]].
      injection Hp as <- _ _. apply (rel_update dops mn not_nan dfine empty eq_refl q f g f1 Rq). eapply update_all_inv. exact E1.
  Qed.

  (** *** C102: while the memory suffices, the bounded forest holds the trees of the unbounded one *)
  Theorem forest_same_trees : forall f g h, reached f h -> ureached g h -> h <> [] -> Z.of_nat (length h) <= 2147483647 -> Z.of_nat (length (nodes dops g)) <= mn ->
    exists ts lost us, trees f h ts lost /\ utrees g h us /\ Forall2 (same_tree dops lc) ts us.
  Proof.
    intros f g h R U Nh Hn Cap. destruct (mondrian_trees exp_ log_ rnd tc fc lc mn lifetime base_measure discount_factor Sz Hlife Hdraw f h R Nh Hn) as [ts [lost [T _]]].
    destruct (unbound_trees log_ rnd tc fc lc lifetime Usz Hlife Hdraw g h U Nh ltac:(lia)) as [us V]. exists ts, lost, us. split; [exact T|]. split; [exact V|].
    destruct (runs_together f h R g U Cap) as [s Rs]. destruct T as [T1 [T2 _]]. destruct V as [V1 [V2 _]].
    assert (K : forall k t u, nth_error ts k = Some t -> nth_error us k = Some u -> same_tree dops lc t u).
    { intros k t u Ht Hu. destruct (T2 k t Ht) as [A1 [A2 _]]. destruct (V2 k u Hu) as [B1 [B2 _]].
      apply (tree_same dops fc lc mn lifetime not_nan dfine empty s f g Rs t u (-1) (nofZ dops 0) (-1) (nofZ dops 0)); auto.
      apply (root_pair dops mn not_nan dfine empty s f g (Z.of_nat k)); auto. eapply top_bounds; eauto. }
    assert (Len : length ts = length us) by lia. clear - K Len. revert us K Len. induction ts as [|t ts IH]; intros [|u us] K Len; try discriminate; constructor.
    - now apply (K 0%nat).
    - apply IH; [intros k a b Ha Hb; now apply (K (S k))|]. now injection Len.
  Qed.
  (** *** C102: ... and predicts the same *)
  Theorem forest_same_predictions : forall f g h x sc, reached f h -> ureached g h -> Z.of_nat (length h) <= 2147483647 -> Z.of_nat (length (nodes dops g)) <= mn ->
    Z.of_nat (length x) = fc ->
    exists f' b m, predict f x sc = Ok (f', b, sc) /\ upredict g x sc = Ok (b, sc) /\ means f' x = Ok m /\ umeans g x = Ok m.
  Proof.
    intros f g h x sc R U Hn Cap Hx.
    destruct (mondrian_predict_total exp_ log_ rnd tc fc lc mn lifetime base_measure discount_factor Sz Hlife Hdraw f h x sc R Hn Hx) as [f' [b [E [_ [Rf [_ [_ C]]]]]]].
    destruct (unbound_predict_total exp_ log_ rnd tc fc lc lifetime base_measure discount_factor Usz Hlife Hdraw g h x sc U ltac:(lia) Hx) as [b' [E' _]].
    destruct (runs_together f' h (reached_predict _ _ _ _ _ _ _ _ _ _ _ _ f h x sc f' b sc R Hx E) g U Cap) as [s Rs].
    pose proof E as E1. unfold Mondrian_Model.predict in E1. apply bind_inv in E1. destruct E1 as [f1 [E1 E2]]. apply bind_inv in E2. destruct E2 as [m [E2 E3]]. apply bind_inv in E3. destruct E3 as [w [E3 E4]]. injection E4 as -> ->.
    pose proof E' as F1. unfold Unbound_Model.predict in F1. apply bind_inv in F1. destruct F1 as [m' [F1 F2]]. apply bind_inv in F2. destruct F2 as [w' [F2 F3]]. injection F3 as ->.
    assert (M : m = m').
    { unfold Unbound_Model.forest_means in F1. refine (means_same dops exp_ tc fc lc mn lifetime base_measure discount_factor not_nan dfine empty x s f' g _ _ m m' Rs _ E2 F1). intros k Hk. destruct h as [|p h].
      - left. inversion U; subst. cbn [roots Unbound_Model.forest_init] in *. assert (Hg : rd (repeat (-1) (Z.to_nat tc)) k = Ok (-1)) by (apply rd_repeat; lia). split; [|exact Hg].
        destruct Rs as [_ [_ [R3 [_ [_ [_ [R7 _]]]]]]]. assert (Lr : length (roots dops f') = Z.to_nat tc) by (rewrite (Forall2_len _ _ _ _ _ R7); cbn; apply repeat_length).
        destruct (rd_in_bounds _ (roots dops f') k ltac:(lia)) as [r Hr]. destruct (Forall2_rd _ _ _ _ _ _ _ R7 Hr) as [r' [_ P]]. destruct P as [[-> _]|P]; [exact Hr|].
        destruct (R3 _ _ P) as [n [q [_ [Q _]]]]. cbn in Q. destruct (Z.to_nat r'); rewrite rd_oob in Q by (cbn; lia); discriminate.
      - right. destruct (C ltac:(discriminate)) as [ts [lost [_ [T C']]]]. destruct (unbound_trees log_ rnd tc fc lc lifetime Usz Hlife Hdraw g (p :: h) U ltac:(discriminate) ltac:(lia)) as [us V].
        destruct T as [T1 [T2 _]]. destruct V as [V1 [V2 _]]. destruct (nth_error ts (Z.to_nat k)) as [t|] eqn:Ht; [|apply nth_error_None in Ht; lia]. destruct (nth_error us (Z.to_nat k)) as [u|] eqn:Hu; [|apply nth_error_None in Hu; lia].
        destruct (T2 _ _ Ht) as [A1 [A2 _]]. destruct (V2 _ _ Hu) as [B1 [B2 [_ B3]]]. rewrite Z2Nat.id in A1, B1 by lia. exists t, u. do 4 (split; [assumption|]). split; [|exact B3].
        rewrite Forall_forall in C'. apply C'. now apply nth_error_In in Ht. }
    subst m'. assert (b = b') by congruence. subst b'. exists f', b, m. auto.
  Qed.
  (** *** C102: room for [2 n - 1] nodes per tree suffices for [n] points *)
  Theorem forest_same_enough : forall f g h x sc, reached f h -> ureached g h -> h <> [] -> tc * (2 * Z.of_nat (length h) - 1) <= mn -> Z.of_nat (length h) <= 2147483647 ->
    Z.of_nat (length x) = fc -> exists f' b, predict f x sc = Ok (f', b, sc) /\ upredict g x sc = Ok (b, sc).
  Proof.
    intros f g h x sc R U Nh Cap Hn Hx. destruct (unbound_memory log_ rnd tc fc lc lifetime Usz Hlife Hdraw g h U Nh ltac:(lia)) as [us [_ [_ B]]].
    destruct (forest_same_predictions f g h x sc R U Hn ltac:(lia) Hx) as [f' [b [m [E1 [E2 _]]]]]. eauto.
  Qed.
End Binary64.
Print Assumptions forest_same_trees.
Print Assumptions forest_same_predictions.
Print Assumptions forest_same_enough.

(** *** Concrete forests: four points need 14 nodes, and 14 nodes suffice *)
Local Notation reached_c mn := (reached dops exp_c log_c (cycle draws_c) 2 2 2 mn (dofZ 10) dhalf dhalf dfine).
Local Notation ureached_c := (ureached dops log_c (cycle draws_c) 2 2 2 (dofZ 10) dfine).
Local Notation predict_c mn := (predict dops exp_c 2 2 2 mn dhalf dhalf).
Local Notation upredict_c := (Unbound_Model.predict dops exp_c 2 2 2 dhalf dhalf).
Example forest_same_example : exists f g f' b, reached_c 14 f (rev points_c) /\ ureached_c g (rev points_c) /\ length (nodes dops g) = 14%nat /\ (forall i, ~ is_free dops f i) /\
  predict_c 14 f (sixteenths 3 3) None = Ok (f', b, None) /\ upredict_c g (sixteenths 3 3) None = Ok (b, None) /\
  (exists ts lost us, trees dops 2 2 2 14 (dofZ 10) f (rev points_c) ts lost /\ utrees dops 2 2 2 (dofZ 10) g (rev points_c) us /\ Forall2 (same_tree dops 2) ts us) /\
  exists f' b, predict_c 14 f (sixteenths 7 7) None = Ok (f', b, None) /\ upredict_c g (sixteenths 7 7) None = Ok (b, None).
Proof.
  assert (G : runs_to log_c (cycle draws_c) 2 2 2 14 (dofZ 10) points_c (fun f => forallb (fun n => negb (available dops n)) (nodes dops f)) = true) by (vm_compute; reflexivity).
  assert (H : uruns_to log_c (cycle draws_c) 2 2 2 (dofZ 10) points_c (fun g => Nat.eqb (length (nodes dops g)) 14) = true) by (vm_compute; reflexivity).
  destruct (runs_to_reached exp_c log_c (cycle draws_c) 2 2 2 14 (dofZ 10) dhalf dhalf points_c _ G) as [f [Rf Of]]. destruct (uruns_to_reached _ _ _ _ _ _ _ _ H) as [g [Rg Og]]. apply Nat.eqb_eq in Og.
  destruct (forest_same_predictions exp_c log_c (cycle draws_c) 2 2 2 14 (dofZ 10) dhalf dhalf (sizes_c 14 ltac:(lia)) eq_refl (cycle_draw draws_c eq_refl) f g _ (sixteenths 3 3) None Rf Rg ltac:(cbn; lia) ltac:(rewrite Og; cbn; lia) eq_refl) as [f' [b [m [E1 [E2 _]]]]].
  exists f, g, f', b. split; [exact Rf|]. split; [exact Rg|]. split; [exact Og|]. split.
  { intros i [n [Hn A]]. apply rd_ok_iff in Hn. destruct Hn as [_ Hn]. apply nth_error_In in Hn. rewrite forallb_forall in Of. specialize (Of n Hn). rewrite A in Of. discriminate. }
  split; [exact E1|]. split; [exact E2|]. split.
  - exact (forest_same_trees exp_c log_c (cycle draws_c) 2 2 2 14 (dofZ 10) dhalf dhalf (sizes_c 14 ltac:(lia)) eq_refl (cycle_draw draws_c eq_refl) f g _ Rf Rg ltac:(discriminate) ltac:(cbn; lia) ltac:(rewrite Og; cbn; lia)).
  - exact (forest_same_enough exp_c log_c (cycle draws_c) 2 2 2 14 (dofZ 10) dhalf dhalf (sizes_c 14 ltac:(lia)) eq_refl (cycle_draw draws_c eq_refl) f g _ (sixteenths 7 7) None Rf Rg ltac:(discriminate) ltac:(cbn; lia) ltac:(cbn; lia) eq_refl).
Qed.
