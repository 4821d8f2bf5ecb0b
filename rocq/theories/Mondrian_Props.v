(** * Properties of the Mondrian forest (src/mondrian.hpp) *)
From Coq Require Import ZArith List Bool Lia Reals Lra Permutation.
From Flocq Require Import Core BinarySingleNaN.
From Verif Require Import CppBase CppFacts Dbl DblFacts NumOps Utils_Model Utils_Spec Utils_Proofs MCNN_Num.
From Verif Require Import Mondrian_Model Mondrian_Spec Mondrian_Proofs Mondrian_Train Mondrian_Forest Mondrian_Num Mondrian_Predict Mondrian_Reach Mondrian_Runs.
Import ListNotations.
Local Open Scope Z_scope.

Lemma no_property : forall O fine draw, (forall a (pt : point O), (fun _ : mtree O => True) (Leaf a [pt])) /\
  forall pt t t', grows O fine draw pt t t' -> (fun _ : mtree O => True) t -> (fun _ : mtree O => True) t'.
Proof. intros. split; auto. Qed.

(** ** Binary64 *)
Section Binary64.
  Variable exp_ log_ : dbl -> dbl.
  Variable rnd : nat -> dbl.
  Variable tc fc lc mn : Z.
  Variable lifetime base_measure discount_factor : dbl.
  Hypothesis Sz : sizes tc fc lc mn.
  Hypothesis Hlife : dle dzero lifetime = true.
  Hypothesis Hdraw : forall k, ddraw (rnd k).
  Local Notation reached := (reached dops exp_ log_ rnd tc fc lc mn lifetime base_measure discount_factor dfine).
  Local Notation trees := (trees dops tc fc lc mn lifetime).
  Local Notation input := (input dops fc dfine).
  Local Notation train := (train dops log_ rnd tc fc lc mn lifetime).
  Local Notation predict := (predict dops exp_ tc fc lc mn base_measure discount_factor).

  Let L : laws dops dkey not_nan dfine ddraw fc.
  Proof. apply laws_dops. apply Sz. Qed.
  Let reach := reached_state dops exp_ log_ rnd tc fc lc mn lifetime base_measure discount_factor dkey not_nan dfine ddraw L Hdraw Sz Hlife
    (fun _ => True) (proj1 (no_property dops dfine ddraw)) (proj2 (no_property dops dfine ddraw)).
  Let step := train_state dops log_ rnd tc fc lc mn lifetime dkey not_nan dfine ddraw L Hdraw Sz Hlife
    (fun _ => True) (proj1 (no_property dops dfine ddraw)) (proj2 (no_property dops dfine ddraw)).

  (** *** C50, C51: the trees hold the points; at most one node is lost, and only when the pool is exhausted *)
  Theorem mondrian_trees : forall f h, reached f h -> h <> [] -> Z.of_nat (length h) <= 2147483647 ->
    exists ts lost, trees f h ts lost /\ (length lost <= 1)%nat /\ (lost <> [] -> forall i, ~ is_free dops f i).
  Proof.
    intros f h R Nh Hn. destruct (reach f h R Hn) as [ts [lost [S Lt]]]. exists ts, lost. split; [now apply (state_trees dops tc fc lc mn lifetime (fun _ => True)); auto|].
    destruct S as [[_ [_ [_ [_ [_ [H _]]]]]] _]. exact H.
  Qed.

  (** *** C50: the leaves of each tree count every training point once *)
  Theorem mondrian_counts : forall f h l, reached f h -> h <> [] -> Z.of_nat (length h) <= 2147483647 -> 0 <= l < lc ->
    exists ts lost, trees f h ts lost /\ forall t, In t ts -> zsum (map (counter dops f l) (leaf_ids dops t)) = count dops l h.
  Proof.
    intros f h l R Nh Hn Hl. destruct (mondrian_trees f h R Nh Hn) as [ts [lost [T _]]]. exists ts, lost. split; [exact T|]. intros t It.
    apply In_nth_error in It. destruct It as [i Hi]. destruct T as [_ [T _]]. destruct (T i t Hi) as [_ [T1 T2]].
    rewrite (tree_counts dops fc lc lifetime t f (-1) (nofZ dops 0) l T1 Hl). unfold count, with_label. f_equal. apply Permutation_length.
    clear - T2. induction T2 as [|p a b P IH|p q a|a b c P1 IH1 P2 IH2]; cbn [filter].
    - constructor.
    - destruct (snd p =? l); [now constructor|exact IH].
    - destruct (snd p =? l), (snd q =? l); try reflexivity. apply perm_swap.
    - now transitivity (filter (fun p => snd p =? l) b).
  Qed.

  (** *** C83: a tree has at most one leaf per training point, and one internal node less than leaves *)
  Theorem mondrian_node_use : forall f h, reached f h -> h <> [] -> Z.of_nat (length h) <= 2147483647 ->
    exists ts lost, trees f h ts lost /\ forall t, In t ts ->
      (1 <= length (leaf_ids dops t) <= length h)%nat /\ length (ids dops t) = (2 * length (leaf_ids dops t) - 1)%nat.
  Proof.
    intros f h R Nh Hn. destruct (mondrian_trees f h R Nh Hn) as [ts [lost [T _]]]. exists ts, lost. split; [exact T|]. intros t It.
    apply In_nth_error in It. destruct It as [i Hi]. destruct T as [_ [T _]]. destruct (T i t Hi) as [_ [T1 T2]].
    destruct (tree_size dops t) as [A B]. pose proof (tree_leaves dops fc lc lifetime t f (-1) (nofZ dops 0) ltac:(apply Sz) T1) as C.
    rewrite (Permutation_length T2) in C. auto.
  Qed.

  (** *** C54: the only failure is that of an unfortunate choice of the dimension, which needs two features *)
  Theorem mondrian_train_total : forall f h x label, reached f h -> Z.of_nat (length h) < 2147483647 -> input x -> 0 <= label < lc ->
    (exists f', train f x label = Ok (f', None)) \/ (1 < fc /\ h <> [] /\ train f x label = Undef Uninitialised).
  Proof.
    intros f h x label R Hn Hx Hl. destruct (reach f h R ltac:(lia)) as [ts [lost [S Lt]]].
    pose proof (reached_fine dops exp_ log_ rnd tc fc lc mn lifetime base_measure discount_factor dfine f h R) as F.
    destruct h as [|p h].
    - left. assert (ts = [] /\ lost = [] \/ tc = 0).
      { destruct S as [H1 [[[_ [-> ->]]|H2] H3]]; [now left|]. destruct ts as [|t ts]; [right; cbn in H2; lia|].
        apply Forall_cons_iff in H3. destruct H3 as [[P _] _]. apply Permutation_sym, Permutation_nil in P.
        destruct H1 as [_ [_ [H1 _]]]. destruct (H1 0%nat t eq_refl) as [_ T]. pose proof (tree_leaves dops fc lc lifetime t f (-1) (nofZ dops 0) ltac:(apply Sz) T) as C.
        rewrite P in C. cbn in C. pose proof (tree_size dops t). lia. }
      destruct H as [[-> ->]|Z0].
      + destruct S as [H1 _]. destruct Sz as [S1 [S2 S3]].
        destruct (first_train dops log_ rnd tc fc lc mn lifetime dkey not_nan dfine ddraw L ltac:(lia) ltac:(lia) Hlife x label (input_len dops fc dfine x Hx) Hl (input_fine dops fc dfine x label Hx) f H1 ltac:(lia)) as [f' [_ [E _]]]. eauto.
      + unfold Mondrian_Model.train. rewrite Z0. cbn. eauto.
    - destruct (step f (p :: h) ts lost x label S F Hn Hx Hl) as [[E B]|[f' [ts' [lost' [E _]]]]]; [|left; eauto].
      right. split; [|split; [discriminate|exact E]]. destruct (Z.eq_dec fc 1) as [->|N]; [exfalso; apply B, sure_one|]. destruct Sz. lia.
  Qed.

  (** *** C80: a prediction only recomputes the counters of internal nodes, which then say in how many subtrees a label occurs *)
  Theorem mondrian_predict_total : forall f h x sc, reached f h -> Z.of_nat (length h) <= 2147483647 -> Z.of_nat (length x) = fc ->
    exists f' b, predict f x sc = Ok (f', b, sc) /\ 0 <= b < lc /\ roots dops f' = roots dops f /\ drawn dops f' = drawn dops f /\
      (forall i n, rd (nodes dops f) i = Ok n -> exists cs, rd (nodes dops f') i = Ok (set_counters dops n cs) /\ (is_leaf dops n = true -> cs = counters dops n)) /\
      (h <> [] -> exists ts lost, trees f h ts lost /\ trees f' h ts lost /\ Forall (counted dops lc f') ts).
  Proof.
    intros f h x sc R Hn Hx. destruct (reach f h R Hn) as [ts [lost [S Lt]]]. pose proof S as [H1 [H2 H3]]. pose proof Sz as [S1 [S2 S3]].
    destruct (predict_ok dops exp_ tc fc lc mn lifetime base_measure discount_factor ltac:(lia) ltac:(lia) ltac:(lia) x ltac:(rewrite <- Hx; symmetry; apply Nat2Z.id) f ts lost sc H1)
      as [f' [m [b [E [_ [H1' [[A1 [A2 [A3 A4]]] [C [_ [_ [_ Hb]]]]]]]]]]].
    exists f', b. split; [exact E|]. split; [exact Hb|]. split; [exact A1|]. split; [exact A2|]. split.
    - intros i n Hi. destruct (A4 i n Hi) as [cs [B1 [B2 B3]]]. exists cs. split; [exact B1|]. intros Lf. apply B3. intros I.
      apply in_concat in I. destruct I as [u [I1 I2]]. apply in_map_iff in I1. destruct I1 as [t [<- It]].
      apply In_nth_error in It. destruct It as [k Hk]. destruct H1 as [_ [_ [H1 _]]]. destruct (H1 k t Hk) as [_ T]. clear - T I2 Hi Lf.
      revert T I2. generalize (-1) (nofZ dops 0). induction t as [j pts|j d v a IHa b' IHb]; intros p pt T I; [destruct I|].
      destruct T as [n' [T1 [_ [_ [_ [_ [_ [T7 [T8 [_ [_ [_ [_ [Ta Tb]]]]]]]]]]]]]]. destruct I as [<-|I].
      + cbn [top] in T1. rewrite Hi in T1. injection T1 as <-. unfold is_leaf in Lf. apply Z.eqb_eq in Lf. lia.
      + apply in_app_or in I. destruct I as [I|I]; [now apply (IHa j (tau dops n'))|now apply (IHb j (tau dops n'))].
    - intros Nh. exists ts, lost. split; [now apply (state_trees dops tc fc lc mn lifetime (fun _ => True)); auto|]. split; [|exact C].
      apply (state_trees dops tc fc lc mn lifetime (fun _ => True)); auto. split; [exact H1'|auto].
  Qed.
End Binary64.
Print Assumptions mondrian_trees.
Print Assumptions mondrian_counts.
Print Assumptions mondrian_node_use.
Print Assumptions mondrian_train_total.
Print Assumptions mondrian_predict_total.

(** *** Concrete forests: 2 trees, 2 features, 2 labels *)
Lemma ddraw_check : forall u, is_finite u && dlt dzero u && dlt u done = true -> ddraw u.
Proof.
  intros u H. apply andb_true_iff in H. destruct H as [H H3]. apply andb_true_iff in H. destruct H as [H1 H2].
  apply dlt_iff in H2, H3. destruct (finite_key u H1) as [_ K]. rewrite K in H2, H3.
  assert (K0 : dkey dzero = 0%R) by reflexivity.
  assert (K1 : dkey done = 1%R) by (destruct (finite_key done eq_refl) as [_ ->]; apply dofZ_exact; cbn; lia).
  rewrite K0 in H2. rewrite K1 in H3. split; [exact H1|]. tauto.
Qed.
Definition cycle (us : list dbl) (k : nat) : dbl := nth (Nat.modulo k (length us)) us dhalf.
Lemma cycle_draw : forall us, forallb (fun u => is_finite u && dlt dzero u && dlt u done) us = true -> forall k, ddraw (cycle us k).
Proof.
  intros us H k. unfold cycle. destruct (nth_in_or_default (Nat.modulo k (length us)) us dhalf) as [I|E].
  - rewrite forallb_forall in H. now apply ddraw_check, H.
  - refine (eq_ind_r ddraw _ E). now apply ddraw_check.
Qed.
(** A crude logarithm and exponential. *)
Definition log_c (x : dbl) : dbl := dsub x done.
Definition exp_c (x : dbl) : dbl := dadd done x.
Definition draws_c : list dbl := [dlit 1 (-2); dhalf; dlit 3 (-2)].
Definition sixteenths (a b : Z) : list dbl := [dlit a (-4); dlit b (-4)].
Definition points_c : list (point dops) := [(sixteenths 1 2, 0); (sixteenths 8 4, 1); (sixteenths 5 1, 1); (sixteenths 2 9, 0)].
Definition valid_d (fc lc : Z) (p : point dops) : bool :=
  (Z.of_nat (length (fst p)) =? fc) && forallb is_finite (fst p) && (0 <=? snd p) && (snd p <? lc).
Lemma valid_d_ok : forall fc lc cs, forallb (valid_d fc lc) cs = true -> Forall (valid dops fc lc dfine) cs.
Proof.
  intros fc lc cs H. apply Forall_forall. intros p Hp. rewrite forallb_forall in H. specialize (H p Hp). unfold valid_d in H.
  repeat (apply andb_true_iff in H; destruct H as [H ?]). split; [now apply Z.eqb_eq|]. split; [|lia].
  apply Forall_forall. intros y Hy. rewrite forallb_forall in *. unfold dfine. auto.
Qed.
(** A run from a new forest that ends in a forest satisfying a check. *)
Definition runs_to (log_ : dbl -> dbl) (rnd : nat -> dbl) (tc fc lc mn : Z) (lifetime : dbl) (cs : list (point dops)) (ok : forest dops -> bool) : bool :=
  forallb (valid_d fc lc) cs &&
  match run dops log_ rnd tc fc lc mn lifetime (forest_init dops tc fc lc mn) cs with Ok f => ok f | _ => false end.
Lemma runs_to_reached : forall exp_ log_ rnd tc fc lc mn lifetime base disc cs ok, runs_to log_ rnd tc fc lc mn lifetime cs ok = true ->
  exists f, reached dops exp_ log_ rnd tc fc lc mn lifetime base disc dfine f (rev cs) /\ ok f = true.
Proof.
  intros exp_ log_ rnd tc fc lc mn lifetime base disc cs ok H. unfold runs_to in H. apply andb_true_iff in H. destruct H as [V H].
  destruct (run _ _ _ _ _ _ _ _ _ cs) as [f|u| |] eqn:E; try discriminate. exists f. split; [|exact H]. rewrite <- (app_nil_r (rev cs)).
  apply run_reached with (forest_init dops tc fc lc mn); [now apply valid_d_ok|constructor|exact E].
Qed.
Definition same_zs (a b : list (list Z)) : bool := if list_eq_dec (list_eq_dec Z.eq_dec) a b then true else false.
Fixpoint pairwise (a b : list (list Z)) : Prop := match a, b with x :: a, y :: b => x = y /\ pairwise a b | _, _ => True end.
Lemma same_zs_ok : forall a b, same_zs a b = true -> pairwise a b.
Proof.
  intros a b. unfold same_zs. destruct (list_eq_dec _ a b) as [->|]; [|discriminate]. intros _. induction b as [|x b IH]; cbn [pairwise]; auto.
Qed.
Local Notation reached_c mn := (reached dops exp_c log_c (cycle draws_c) 2 2 2 mn (dofZ 10) dhalf dhalf dfine).
Lemma sizes_c : forall mn, 2 <= mn -> sizes 2 2 2 mn.
Proof. intros mn H. unfold sizes. lia. Qed.

(** With 12 nodes the trees get four leaves and three leaves, and the pool is full. *)
Example mondrian_trees_example : exists f, reached_c 12 f (rev points_c) /\ roots dops f = [2; 4] /\
  map (counter dops f 0) [0; 3; 7; 11] = [1; 0; 0; 1] /\ map (counter dops f 1) [0; 3; 7; 11] = [0; 1; 1; 0] /\
  map (counter dops f 0) [1; 5; 9] = [2; 0; 0] /\ map (counter dops f 1) [1; 5; 9] = [0; 1; 1] /\
  exists ts lost, trees dops 2 2 2 12 (dofZ 10) f (rev points_c) ts lost /\
    forall t, In t ts -> (1 <= length (leaf_ids dops t) <= 4)%nat /\ length (ids dops t) = (2 * length (leaf_ids dops t) - 1)%nat.
Proof.
  assert (G : runs_to log_c (cycle draws_c) 2 2 2 12 (dofZ 10) points_c (fun f => same_zs
    [roots dops f; map (counter dops f 0) [0; 3; 7; 11]; map (counter dops f 1) [0; 3; 7; 11]; map (counter dops f 0) [1; 5; 9]; map (counter dops f 1) [1; 5; 9]]
    [[2; 4]; [1; 0; 0; 1]; [0; 1; 1; 0]; [2; 0; 0]; [0; 1; 1]]) = true) by (vm_compute; reflexivity).
  apply (runs_to_reached exp_c log_c (cycle draws_c) 2 2 2 12 (dofZ 10) dhalf dhalf) in G. destruct G as [f [R G]].
  apply same_zs_ok in G. destruct G as [G1 [G2 [G3 [G4 [G5 _]]]]]. exists f. split; [exact R|]. do 5 (split; [assumption|]).
  exact (mondrian_node_use exp_c log_c (cycle draws_c) 2 2 2 12 (dofZ 10) dhalf dhalf (sizes_c 12 ltac:(lia)) eq_refl (cycle_draw draws_c eq_refl) f (rev points_c) R ltac:(discriminate) ltac:(cbn; lia)).
Qed.
(** With 6 nodes the last points go to leaves that could not be split. *)
Example mondrian_counts_example : exists f, reached_c 6 f (rev points_c) /\ roots dops f = [2; 4] /\
  map (counter dops f 0) [0; 3] = [2; 0] /\ map (counter dops f 1) [0; 3] = [1; 1] /\ count dops 0 (rev points_c) = 2 /\
  exists ts lost, trees dops 2 2 2 6 (dofZ 10) f (rev points_c) ts lost /\ forall t, In t ts -> zsum (map (counter dops f 0) (leaf_ids dops t)) = 2.
Proof.
  assert (G : runs_to log_c (cycle draws_c) 2 2 2 6 (dofZ 10) points_c (fun f => same_zs
    [roots dops f; map (counter dops f 0) [0; 3]; map (counter dops f 1) [0; 3]] [[2; 4]; [2; 0]; [1; 1]]) = true) by (vm_compute; reflexivity).
  apply (runs_to_reached exp_c log_c (cycle draws_c) 2 2 2 6 (dofZ 10) dhalf dhalf) in G. destruct G as [f [R G]].
  apply same_zs_ok in G. destruct G as [G1 [G2 [G3 _]]]. exists f. split; [exact R|]. do 3 (split; [assumption|]). split; [reflexivity|].
  exact (mondrian_counts exp_c log_c (cycle draws_c) 2 2 2 6 (dofZ 10) dhalf dhalf (sizes_c 6 ltac:(lia)) eq_refl (cycle_draw draws_c eq_refl) f (rev points_c) 0 R ltac:(discriminate) ltac:(cbn; lia) ltac:(lia)).
Qed.
(** One feature: no failure. Two features: the fourth point above is trained as well. *)
Example mondrian_train_total_example : exists f f' g g',
  reached dops exp_c log_c (cycle draws_c) 2 1 2 7 (dofZ 10) dhalf dhalf dfine f [([dlit 7 (-4)], 1); ([dlit 3 (-4)], 0)] /\
  train dops log_c (cycle draws_c) 2 1 2 7 (dofZ 10) f [dlit 5 (-4)] 1 = Ok (f', None) /\
  reached_c 12 g (rev (firstn 3 points_c)) /\ train dops log_c (cycle draws_c) 2 2 2 12 (dofZ 10) g (sixteenths 2 9) 0 = Ok (g', None).
Proof.
  assert (G : runs_to log_c (cycle draws_c) 2 1 2 7 (dofZ 10) [([dlit 3 (-4)], 0); ([dlit 7 (-4)], 1)] (fun f => true) = true) by (vm_compute; reflexivity).
  apply (runs_to_reached exp_c log_c (cycle draws_c) 2 1 2 7 (dofZ 10) dhalf dhalf) in G. destruct G as [f [R _]].
  assert (G : runs_to log_c (cycle draws_c) 2 2 2 12 (dofZ 10) (firstn 3 points_c) (fun f => match train dops log_c (cycle draws_c) 2 2 2 12 (dofZ 10) f (sixteenths 2 9) 0 with
    | Ok (_, None) => true | _ => false end) = true) by (vm_compute; reflexivity).
  apply (runs_to_reached exp_c log_c (cycle draws_c) 2 2 2 12 (dofZ 10) dhalf dhalf) in G. destruct G as [g [R2 G2]].
  destruct (train dops log_c (cycle draws_c) 2 2 2 12 (dofZ 10) g (sixteenths 2 9) 0) as [[g' [|]]|u| |] eqn:E2; try discriminate.
  destruct (mondrian_train_total exp_c log_c (cycle draws_c) 2 1 2 7 (dofZ 10) dhalf dhalf ltac:(unfold sizes; lia) eq_refl (cycle_draw draws_c eq_refl) f _ [dlit 5 (-4)] 1 R ltac:(cbn; lia)) as [[f' E]|[X _]]; [| lia | |lia].
  - split; [reflexivity|]. intros d Hd. assert (d = 0) as -> by lia. reflexivity.
  - exists f, f', g, g'. auto.
Qed.
(** The counters of the root of the first tree before and after a prediction. *)
Example mondrian_predict_total_example : exists f f' b, reached_c 12 f (rev points_c) /\
  predict dops exp_c 2 2 2 12 dhalf dhalf f (sixteenths 3 3) None = Ok (f', b, None) /\ 0 <= b < 2 /\
  map (fun l => counter dops f l 2) [0; 1] = [0; 0] /\ map (fun l => counter dops f' l 2) [0; 1] = [1; 2].
Proof.
  assert (G : runs_to log_c (cycle draws_c) 2 2 2 12 (dofZ 10) points_c (fun f =>
    match predict dops exp_c 2 2 2 12 dhalf dhalf f (sixteenths 3 3) None with
    | Ok (f', b, None) => same_zs [map (fun l => counter dops f l 2) [0; 1]; map (fun l => counter dops f' l 2) [0; 1]] [[0; 0]; [1; 2]] && (0 <=? b) && (b <? 2)
    | _ => false end) = true) by (vm_compute; reflexivity).
  apply (runs_to_reached exp_c log_c (cycle draws_c) 2 2 2 12 (dofZ 10) dhalf dhalf) in G. destruct G as [f [R G]].
  destruct (predict _ _ _ _ _ _ _ _ f _ None) as [[[f' b] [sc|]]|u| |] eqn:E; try discriminate. apply andb_true_iff in G. destruct G as [G Hb2]. apply andb_true_iff in G. destruct G as [G Hb1].
  apply same_zs_ok in G. destruct G as [G1 [G2 _]]. exists f, f', b. split; [exact R|]. split; [exact E|]. split; [lia|]. auto.
Qed.

(** ** Exact arithmetic *)
Lemma nth_const : forall A (a d : A) n k, (k < n)%nat -> nth k (repeat a n) d = a.
Proof. induction n as [|n IH]; intros k H; [lia|]. destruct k; cbn; [reflexivity|]. apply IH. lia. Qed.
Lemma fold_rsum : forall l a, fold_left Rplus l a = (a + fold_right Rplus 0 l)%R.
Proof. induction l as [|y l IH]; intros a; cbn; [lra|]. rewrite IH. lra. Qed.

Section Exact.
  Variable log_ : R -> R.
  Variable rnd : nat -> R.
  Variable tc fc lc mn : Z.
  Variable lifetime base_measure discount_factor : R.
  Hypothesis Sz : sizes tc fc lc mn.
  Hypothesis Hlife : (0 <= lifetime)%R.
  Hypothesis Hdraw : forall k, rdraw (rnd k).
  Local Notation reached := (reached rops exp log_ rnd tc fc lc mn lifetime base_measure discount_factor rfine).
  Local Notation trees := (trees rops tc fc lc mn lifetime).
  Local Notation input := (input rops fc rfine).
  Local Notation train := (train rops log_ rnd tc fc lc mn lifetime).
  Local Notation predict := (predict rops exp tc fc lc mn base_measure discount_factor).

  Let L : laws rops (fun x => x) (fun _ => True) rfine rdraw fc.
  Proof. apply laws_rops. apply Sz. Qed.
  Let Hlife' : nle rops (nofZ rops 0) lifetime = true.
  Proof. now apply Rle_iff. Qed.
  Let leaf_sep : forall a pt, separated rops (Leaf a [pt]).
  Proof. intros. exact I. Qed.
  Let reach := reached_state rops exp log_ rnd tc fc lc mn lifetime base_measure discount_factor (fun x => x) (fun _ => True) rfine rdraw L Hdraw Sz Hlife'
    (separated rops) leaf_sep grows_separated.
  Let step := train_state rops log_ rnd tc fc lc mn lifetime (fun x => x) (fun _ => True) rfine rdraw L Hdraw Sz Hlife'
    (separated rops) leaf_sep grows_separated.

  (** *** C50, C51, C52: as in binary64, and the splits separate the points *)
  Theorem mondrian_trees_exact : forall f h, reached f h -> h <> [] -> Z.of_nat (length h) <= 2147483647 ->
    exists ts lost, trees f h ts lost /\ Forall (separated rops) ts.
  Proof.
    intros f h Rc Nh Hn. destruct (reach f h Rc Hn) as [ts [lost [S Lt]]]. exists ts, lost. split; [now apply (state_trees rops tc fc lc mn lifetime (separated rops)); auto|].
    destruct S as [_ [_ F]]. eapply Forall_impl; [|exact F]. intros t [_ H]. exact H.
  Qed.

  (** *** C52: the splits lead a trained point to a leaf that counted it *)
  Theorem mondrian_routing : forall f h p, reached f h -> In p h -> Z.of_nat (length h) <= 2147483647 -> 0 <= snd p < lc ->
    exists ts lost, trees f h ts lost /\ forall t, In t ts -> exists n c lo hi,
      In (routed rops (fst p) t) (leaf_ids rops t) /\ rd (nodes rops f) (routed rops (fst p) t) = Ok n /\ rd (counters rops n) (snd p) = Ok c /\ 0 < c /\
      bound_lower rops n = map Some lo /\ bound_upper rops n = map Some hi /\
      forall d, 0 <= d < fc -> (nth (Z.to_nat d) lo 0 <= coord rops p d <= nth (Z.to_nat d) hi 0)%R.
  Proof.
    intros f h p Rc Ip Hn Hl. assert (Nh : h <> []) by (intros ->; destruct Ip). destruct (mondrian_trees_exact f h Rc Nh Hn) as [ts [lost [T S]]].
    exists ts, lost. split; [exact T|]. intros t It. rewrite Forall_forall in S. specialize (S t It).
    apply In_nth_error in It. destruct It as [i Hi]. destruct T as [_ [T _]]. destruct (T i t Hi) as [_ [T1 T2]].
    assert (Ipt : In p (points rops t)) by (eapply Permutation_in; [apply Permutation_sym, T2|exact Ip]).
    destruct (routed_leaf rops t p) as [pts [A B]]; auto.
    { intros v y Hv. cbn [nlt nle rops] in *. apply Rlt_iff in Hv. now apply Rle_bool_false. }
    destruct (leaf_node rops fc lc lifetime t f (-1) (nofZ rops 0) _ _ T1 A) as [n [N1 [_ [N3 N4]]]].
    exists n, (count rops (snd p) pts), (map (val rops (bound_lower rops n)) (zrange fc)), (map (val rops (bound_upper rops n)) (zrange fc)).
    split; [rewrite <- leaf_ids_map; change (routed rops (fst p) t) with (fst (routed rops (fst p) t, pts)); now apply in_map|].
    split; [exact N1|]. split; [now apply N4|]. split; [now apply count_in|].
    assert (Q : forall l : list (option R), length l = Z.to_nat fc -> (forall d, 0 <= d < fc -> rd l d = Ok (Some (val rops l d))) -> l = map Some (map (val rops l) (zrange fc))).
    { intros l Ll Hv. apply nth_error_ext. intros j. rewrite map_map. destruct (Nat.lt_ge_cases j (Z.to_nat fc)) as [C|C].
      - pose proof (Hv (Z.of_nat j) ltac:(lia)) as V. pose proof (rd_zrange _ (fun d => Some (val rops l d)) fc (Z.of_nat j) ltac:(lia)) as W.
        apply rd_ok_iff in V, W. rewrite Nat2Z.id in V, W. destruct V as [_ V]. destruct W as [_ W]. etransitivity; [exact V|symmetry; exact W].
      - rewrite !(proj2 (nth_error_None _ _)); [reflexivity|rewrite map_length, zrange_length; lia|lia]. }
    destruct N3 as [B1 [B2 B3]].
    split; [apply Q; [exact B1|]; intros d Hd; now apply (bounding_val rops fc pts _ _ d (conj B1 (conj B2 B3)))|].
    split; [apply Q; [exact B2|]; intros d Hd; now apply (bounding_val rops fc pts _ _ d (conj B1 (conj B2 B3)))|].
    intros d Hd. assert (A' : forall g : Z -> R, nth (Z.to_nat d) (map g (zrange fc)) 0%R = g d).
    { intros g. pose proof (rd_zrange _ g fc d Hd) as W. apply rd_ok_iff in W. destruct W as [_ W]. now apply nth_error_nth with (d := 0%R) in W. }
    rewrite !A'. destruct (bounding_val rops fc pts _ _ d (conj B1 (conj B2 B3)) Hd) as [_ [_ [_ [_ V]]]]. destruct (V p B) as [V1 V2]. apply Rle_iff in V1, V2. auto.
  Qed.

  (** *** C54: no failure in exact arithmetic with draws between 0 and 1 *)
  Theorem mondrian_train_total_exact : forall f h x label, reached f h -> Z.of_nat (length h) < 2147483647 -> input x -> 0 <= label < lc ->
    exists f', train f x label = Ok (f', None).
  Proof.
    intros f h x label Rc Hn Hx Hl. destruct (reach f h Rc ltac:(lia)) as [ts [lost [S Lt]]].
    destruct (step f h ts lost x label S (reached_fine rops exp log_ rnd tc fc lc mn lifetime base_measure discount_factor rfine f h Rc) Hn Hx Hl) as [[_ B]|[f' [ts' [lost' [E _]]]]]; [|eauto].
    exfalso. apply B, sure_rops. apply Sz.
  Qed.

  (** *** C81: the prediction for a trained point *)
  Theorem mondrian_predict_trained : forall f h p sc, reached f h -> In p h -> Z.of_nat (length h) <= 2147483647 -> Z.of_nat (length (fst p)) = fc ->
    exists f' b ts lost, predict f (fst p) sc = Ok (f', b, sc) /\ trees f' h ts lost /\ 0 <= b < lc /\
      let ms := map (fun t => path_mean lc discount_factor (time f') 0 (repeat base_measure (Z.to_nat lc)) t (fst p)) ts in
      (forall l, 0 <= l < lc -> (average ms l <= average ms b)%R) /\ (forall l, 0 <= l < b -> (average ms l < average ms b)%R).
  Proof.
    intros f h p sc Rc Ip Hn Hx. assert (Nh : h <> []) by (intros ->; destruct Ip). destruct (reach f h Rc Hn) as [ts [lost [S Lt]]]. specialize (Lt Nh).
    pose proof S as [H1 [H2 H3]]. pose proof Sz as [S1 [S2 S3]].
    assert (Lx : length (fst p) = Z.to_nat fc) by (rewrite <- Hx; symmetry; apply Nat2Z.id).
    destruct (predict_ok rops exp tc fc lc mn lifetime base_measure discount_factor ltac:(lia) ltac:(lia) ltac:(lia) (fst p) Lx f ts lost sc H1)
      as [f' [m [b [E [_ [H1' [_ [C [M [Lm [Em Hb]]]]]]]]]]].
    exists f', b, ts, lost. split; [exact E|]. split; [apply (state_trees rops tc fc lc mn lifetime (separated rops)); auto; split; auto|]. split; [exact Hb|].
    intros ms.
    rewrite (means_ok rops exp tc fc lc mn lifetime base_measure discount_factor ltac:(lia) ltac:(lia) ltac:(lia) (fst p) Lx f' ts lost H1') in M. injection M as M.
    assert (Tm : forall k t, nth_error ts k = Some t -> tree_means rops exp fc lc mn base_measure discount_factor (fst p) f' (Z.of_nat k) =
      path_mean lc discount_factor (time f') 0 (repeat base_measure (Z.to_nat lc)) t (fst p)).
    { intros k t Hk. pose proof H1' as [_ [_ [G3 [_ [G5 _]]]]]. destruct (G3 k t Hk) as [G6 G7]. 
      assert (Sub : forall j, In j (ids rops t) -> In j (all_ids rops ts)).
      { intros j Hj. apply in_concat. exists (ids rops t). split; [apply in_map; now apply nth_error_In with k|exact Hj]. }
      assert (ND : NoDup (all_ids rops ts)) by (destruct G5 as [_ [N _]]; now apply nodup_app in N).
      assert (Lt' : (length (ids rops t) <= Z.to_nat mn)%nat).
      { apply Nat.le_trans with (length (all_ids rops ts)); [|now apply (pool_len _ _ _ _ _ G5)].
        apply NoDup_incl_length; [now apply tree_nodup with ts k|exact Sub]. }
      rewrite Forall_forall in H3, C. destruct (H3 t (nth_error_In _ _ Hk)) as [P Sep].
      pose proof (walk_path fc lc lifetime discount_factor ltac:(lia) ltac:(lia) p Lx t f' (-1) 0%R (Datatypes.S (Datatypes.S (Z.to_nat mn))) (repeat base_measure (Z.to_nat lc))) as W.
      assert (E1 : predict_tree rops exp fc lc mn base_measure discount_factor f' (fst p) (Z.of_nat k) =
        Ok (path_mean lc discount_factor (time f') 0 (repeat base_measure (Z.to_nat lc)) t (fst p))).
      { unfold predict_tree. rewrite G6. cbn [bind]. apply W; clear W.
        - lia.
        - intros j Hj. pose proof (pool_in _ _ _ _ _ _ G5 (Sub j Hj)). lia.
        - exact G7.
        - left. auto.
        - apply C. now apply nth_error_In with k.
        - exact Sep.
        - eapply Permutation_in; [apply Permutation_sym, P|exact Ip].
        - now rewrite repeat_length. }
      unfold tree_means. now rewrite E1. }
    assert (Av : forall l, 0 <= l < lc -> nth_error m (Z.to_nat l) = Some (average ms l)).
    { intros l Hl. rewrite <- M.
      pose proof (rd_zrange _ (fun l => ndiv rops (fold_left (nadd rops) (map (fun k => at_ rops (tree_means rops exp fc lc mn base_measure discount_factor (fst p) f' k) l) (zrange tc)) (nofZ rops 0)) (nofZ rops tc)) lc l Hl) as W.
      apply rd_ok_iff in W. destruct W as [_ W]. etransitivity; [exact W|]. apply f_equal. unfold average. cbn [ndiv nadd nofZ rops num].
      assert (Ls : length ms = length ts) by (unfold ms; apply map_length). rewrite Ls, Lt. f_equal.
      pose proof (fold_rsum (map (fun k => at_ rops (tree_means rops exp fc lc mn base_measure discount_factor (fst p) f' k) l) (zrange tc)) 0) as F.
      change (num rops) with R in *. rewrite F, Rplus_0_l. f_equal. unfold ms. rewrite map_map.
      apply nth_error_ext. intros k. rewrite !nth_error_map. destruct (Nat.lt_ge_cases k (length ts)) as [Ck|Ck].
      - destruct (nth_error ts k) as [t|] eqn:Hk; [|apply nth_error_None in Hk; lia].
        pose proof (rd_zrange _ (fun k => k) tc (Z.of_nat k) ltac:(lia)) as W'. rewrite map_id in W'. apply rd_ok_iff in W'. destruct W' as [_ W']. rewrite Nat2Z.id in W'.
        rewrite W'. cbn [option_map]. rewrite (Tm k t Hk). reflexivity.
      - rewrite !(proj2 (nth_error_None _ _)); [reflexivity|lia|rewrite zrange_length; lia]. }
    destruct (index_max_ok R (fun a b => Rlt_bool b a) (fun y => y) m) as [b' [v [B1 [B2 [B3 B4]]]]].
    { intros y z _ _. apply Rlt_iff. }
    { intros ->. cbn in Lm. lia. }
    assert (Eb : b = Z.of_nat b').
    { change (num rops) with R in *. rewrite Lm, Z2Nat.id in B1 by lia. change (index_max (fun a b => nlt rops b a) m lc) with (index_max (fun a b => Rlt_bool b a) m lc) in Em. congruence. }
    pose proof (Av b Hb) as Vb. rewrite Eb, Nat2Z.id in Vb. rewrite <- Eb in Vb. assert (Ev : v = average ms b) by (assert (X : Some v = Some (average ms b)) by (etransitivity; [symmetry; exact B2|exact Vb]); now injection X). subst v.
    split; intros l Hl.
    - apply (B3 (Z.to_nat l)). apply Av. lia.
    - apply (B4 (Z.to_nat l)); [lia|]. apply Av. lia.
  Qed.

  (** *** C82: a forest that has seen one point predicts its label only if the discount is negative *)
  Theorem mondrian_single_point : forall f x label sc, reached f [(x, label)] -> 1 <= tc -> 2 <= lc -> 0 <= label < lc -> Z.of_nat (length x) = fc ->
    (base_measure < 1)%R ->
    exists f' b, predict f x sc = Ok (f', b, sc) /\ 0 <= b < lc /\
      ((0 < discount_factor * lifetime)%R -> b <> label) /\
      ((discount_factor * lifetime < 0)%R -> b = label) /\
      ((discount_factor * lifetime = 0)%R -> b = 0).
  Proof.
    intros f x label sc Rc Ht Hlc Hl Hx Hb.
    destruct (mondrian_predict_trained f [(x, label)] (x, label) sc Rc (or_introl eq_refl) ltac:(cbn; lia) Hx) as [f' [b [ts [lost [E [T [Bb [M1 M2]]]]]]]].
    cbn [fst] in *. exists f', b. split; [exact E|]. split; [exact Bb|]. set (D := exp (discount_factor * lifetime)).
    set (ms := map _ ts) in M1, M2.
    set (g := fun l => if l =? label then (1 - D + D * base_measure)%R else base_measure).
    assert (Av : forall l, 0 <= l < lc -> average ms l = g l).
    { intros l Hll. destruct T as [Lt [T _]].
      assert (A : map (fun m => nth (Z.to_nat l) m 0%R) ms = map (fun _ => g l) ts).
      { unfold ms. rewrite map_map. apply map_ext_in. intros t It. apply In_nth_error in It. destruct It as [k Hk]. destruct (T k t Hk) as [_ [T1 T2]].
        destruct t as [i pts|i d v a a'].
        - destruct T1 as [n [T1 [_ [_ [_ [_ [_ [_ [_ [_ [T7 _]]]]]]]]]]]. cbn [top points] in *. apply Permutation_sym, Permutation_length_1_inv in T2. subst pts.
          cbn [path_mean]. unfold time. rewrite T1, T7.
          assert (Nl : forall y : Z -> R, nth (Z.to_nat l) (map y (labels lc)) 0%R = y l).
          { intros y. pose proof (rd_zrange _ y lc l Hll) as W. apply rd_ok_iff in W. destruct W as [_ W]. now apply nth_error_nth with (d := 0%R) in W. }
          rewrite Nl. unfold mean. rewrite Rminus_0_r. fold D.
          assert (Cn : forall l', count rops l' [(x, label)] = if l' =? label then 1 else 0).
          { intros l'. unfold count, with_label. cbn [filter snd]. rewrite Z.eqb_sym. now destruct (l' =? label). }
          assert (Zs : forall h : Z -> Z, (forall l', h l' = if l' =? label then 1 else 0) -> zsum (map h (labels lc)) = 1).
          { intros h Hh. rewrite (map_ext _ _ Hh). unfold labels. rewrite map_map. clear - Hl. unfold zsum.
            assert (G : forall n s, fold_right Z.add 0 (map (fun j => if Z.of_nat j =? label then 1 else 0) (seq s n)) = if (Z.of_nat s <=? label) && (label <? Z.of_nat (s + n)) then 1 else 0).
            { induction n as [|n IH]; intros s; cbn [seq map fold_right].
              - destruct (Z.leb_spec (Z.of_nat s) label), (Z.ltb_spec label (Z.of_nat (s + 0))); cbn [andb]; lia.
              - rewrite IH. destruct (Z.eqb_spec (Z.of_nat s) label), (Z.leb_spec (Z.of_nat (Datatypes.S s)) label), (Z.leb_spec (Z.of_nat s) label), (Z.ltb_spec label (Z.of_nat (Datatypes.S s + n))), (Z.ltb_spec label (Z.of_nat (s + Datatypes.S n))); cbn [andb]; lia. }
            rewrite G. destruct (Z.leb_spec (Z.of_nat 0) label), (Z.ltb_spec label (Z.of_nat (0 + Z.to_nat lc))); cbn [andb]; lia. }
          rewrite (Zs (fun l' => count rops l' [(x, label)]) Cn), (Zs (fun l' => if 0 <? count rops l' [(x, label)] then 1 else 0)) by (intros l'; rewrite Cn; now destruct (l' =? label)).
          rewrite Cn. unfold g. rewrite !nth_const by lia. destruct (Z.eqb_spec l label) as [->|N]; cbn [Z.ltb Z.compare]; [field|reflexivity].
        - exfalso. pose proof Sz as [_ [Sf _]].
          pose proof (tree_leaves rops fc lc lifetime _ _ _ _ ltac:(lia) T1) as C. rewrite (Permutation_length T2) in C. cbn [leaf_ids length] in C. rewrite app_length in C.
          pose proof (tree_size rops a). pose proof (tree_size rops a'). lia. }
      unfold average. rewrite A. assert (Ls : length ms = length ts) by (unfold ms; apply map_length). rewrite Ls, Lt.
      assert (Sm : forall (s : list (mtree rops)), fold_right Rplus 0%R (map (fun _ => g l) s) = (IZR (Z.of_nat (length s)) * g l)%R).
      { induction s as [|t s IH]; [cbn; lra|]. cbn [map fold_right length]. rewrite IH, Nat2Z.inj_succ, succ_IZR. ring. }
      rewrite Sm, Lt. field. apply not_0_IZR. lia. }
    assert (G : forall l, g l = if l =? label then (1 - D + D * base_measure)%R else base_measure) by reflexivity.
    assert (Other : exists o, 0 <= o < lc /\ o <> label) by (destruct (Z.eq_dec label 0); [exists 1|exists 0]; lia).
    destruct Other as [o [Ho No]].
    assert (D0 : forall y, (0 < y -> 1 < exp y)%R) by (intros y Hy; rewrite <- exp_0; now apply exp_increasing).
    assert (D1 : forall y, (y < 0 -> exp y < 1)%R) by (intros y Hy; rewrite <- exp_0; now apply exp_increasing).
    split; [|split]; intros Hd.
    - specialize (D0 _ Hd). fold D in D0. intros ->. specialize (M1 o Ho). rewrite !Av, !G in M1 by lia. rewrite Z.eqb_refl, (proj2 (Z.eqb_neq o label) No) in M1. nra.
    - specialize (D1 _ Hd). fold D in D1. destruct (Z.eq_dec b label) as [|N]; [assumption|exfalso]. specialize (M1 label Hl). rewrite !Av, !G in M1 by lia.
      rewrite Z.eqb_refl, (proj2 (Z.eqb_neq b label) N) in M1. nra.
    - assert (Ed : D = 1%R) by (unfold D; rewrite Hd; apply exp_0). destruct (Z.eq_dec b 0) as [|N]; [assumption|exfalso]. specialize (M2 0 ltac:(lia)).
      rewrite !Av, !G, Ed in M2 by lia. destruct (0 =? label), (b =? label); lra.
  Qed.
End Exact.
Print Assumptions mondrian_trees_exact.
Print Assumptions mondrian_routing.
Print Assumptions mondrian_train_total_exact.
Print Assumptions mondrian_predict_trained.
Print Assumptions mondrian_single_point.

(** Three points, two trees. *)
Definition points_e : list (point rops) := [([2%R; 1%R], 0); ([3%R; 2%R], 1); ([1%R; 1%R], 0)].
Local Notation reached_e disc := (reached rops exp ln (fun _ => / 2)%R 2 2 2 9 1%R (/ 2)%R disc rfine).
Lemma half_draw : forall k : nat, rdraw ((fun _ => / 2)%R k).
Proof. intros k. unfold rdraw. lra. Qed.
Lemma sizes_e : sizes 2 2 2 9.
Proof. unfold sizes. lia. Qed.
Lemma life_e : (0 <= 1)%R. Proof. lra. Qed.
Lemma points_e_reached : forall disc, exists f, reached_e disc f points_e.
Proof.
  intros disc. apply any_reached; [|repeat constructor; unfold valid, rfine; cbn; lia|cbn; lia].
  intros f h x label. exact (mondrian_train_total_exact ln (fun _ => / 2)%R 2 2 2 9 1%R (/ 2)%R disc sizes_e life_e half_draw f h x label).
Qed.
Example mondrian_exact_example : exists f, reached_e (-1)%R f points_e /\
  (exists ts lost, trees rops 2 2 2 9 1%R f points_e ts lost /\ Forall (separated rops) ts) /\
  (exists ts lost, trees rops 2 2 2 9 1%R f points_e ts lost /\ forall t, In t ts -> exists n c,
     rd (nodes rops f) (routed rops [3%R; 2%R] t) = Ok n /\ rd (counters rops n) 1 = Ok c /\ 0 < c) /\
  (exists f' b ts lost, predict rops exp 2 2 2 9 (/ 2)%R (-1)%R f [3%R; 2%R] None = Ok (f', b, None) /\ trees rops 2 2 2 9 1%R f' points_e ts lost /\
     forall l, 0 <= l < 2 -> let ms := map (fun t => path_mean 2 (-1) (time f') 0 [/ 2; / 2]%R t [3%R; 2%R]) ts in (average ms l <= average ms b)%R) /\
  exists f', train rops ln (fun _ => / 2)%R 2 2 2 9 1%R f [5%R; 0%R] 1 = Ok (f', None).
Proof.
  destruct (points_e_reached (-1)%R) as [f R0]. exists f. split; [exact R0|].
  split; [apply (mondrian_trees_exact ln (fun _ => / 2)%R 2 2 2 9 1%R (/ 2)%R (-1)%R sizes_e life_e half_draw f _ R0); [discriminate|cbn; lia]|].
  split; [|split].
  - destruct (mondrian_routing ln (fun _ => / 2)%R 2 2 2 9 1%R (/ 2)%R (-1)%R sizes_e life_e half_draw f _ ([3%R; 2%R], 1) R0) as [ts [lost [T H]]]; [cbn; auto|cbn; lia|cbn; lia|].
    exists ts, lost. split; [exact T|]. intros t It. destruct (H t It) as [n [c [lo [hi [_ [A [B [C _]]]]]]]]. eauto.
  - destruct (mondrian_predict_trained ln (fun _ => / 2)%R 2 2 2 9 1%R (/ 2)%R (-1)%R sizes_e life_e half_draw f _ ([3%R; 2%R], 1) None R0) as [f' [b [ts [lost [E [T [Hb [M _]]]]]]]]; [cbn; auto|cbn; lia|reflexivity|].
    exists f', b, ts, lost. split; [exact E|]. split; [exact T|]. intros l Hl. now apply M.
  - apply (mondrian_train_total_exact ln (fun _ => / 2)%R 2 2 2 9 1%R (/ 2)%R (-1)%R sizes_e life_e half_draw f _ _ _ R0); [cbn; lia| |lia].
    split; [reflexivity|]. intros d Hd. exact I.
Qed.
Lemma one_reached : forall disc l, 0 <= l < 2 -> exists f, reached_e disc f [([2%R; 1%R], l)].
Proof.
  intros disc l Hl. apply any_reached; [|repeat constructor; unfold valid, rfine; cbn; lia|cbn; lia].
  intros f h x label. exact (mondrian_train_total_exact ln (fun _ => / 2)%R 2 2 2 9 1%R (/ 2)%R disc sizes_e life_e half_draw f h x label).
Qed.
(** *** C82: trained with one point of label 0, the forest predicts label 1 for it *)
Theorem mondrian_single_point_refuted : exists f f', reached_e 1%R f [([2%R; 1%R], 0)] /\
  predict rops exp 2 2 2 9 (/ 2)%R 1%R f [2%R; 1%R] None = Ok (f', 1, None).
Proof.
  destruct (one_reached 1%R 0 ltac:(lia)) as [f R0]. exists f.
  destruct (mondrian_single_point ln (fun _ => / 2)%R 2 2 2 9 1%R (/ 2)%R 1%R sizes_e life_e half_draw f [2%R; 1%R] 0 None R0 ltac:(lia) ltac:(lia) ltac:(lia) eq_refl ltac:(lra)) as [f' [b [E [Hb [H _]]]]].
  specialize (H ltac:(lra)). assert (b = 1) as -> by lia. exists f'. auto.
Qed.
Print Assumptions mondrian_single_point_refuted.
(** With a negative discount factor the label is found again. *)
Example mondrian_single_point_example : exists f f', reached_e (-1)%R f [([2%R; 1%R], 1)] /\
  predict rops exp 2 2 2 9 (/ 2)%R (-1)%R f [2%R; 1%R] None = Ok (f', 1, None).
Proof.
  destruct (one_reached (-1)%R 1 ltac:(lia)) as [f R0]. exists f.
  destruct (mondrian_single_point ln (fun _ => / 2)%R 2 2 2 9 1%R (/ 2)%R (-1)%R sizes_e life_e half_draw f [2%R; 1%R] 1 None R0 ltac:(lia) ltac:(lia) ltac:(lia) eq_refl ltac:(lra)) as [f' [b [E [Hb [_ [H _]]]]]].
  rewrite (H ltac:(lra)) in E. eauto.
Qed.

(** ** Refutations *)

(** *** C53: the result of [train] is never written, and [predict] never writes the scores *)
Theorem mondrian_results_refuted : exists f f', reached_c 12 f (rev points_c) /\
  train dops log_c (cycle draws_c) 2 2 2 12 (dofZ 10) f (sixteenths 7 7) 1 = Ok (f', None) /\
  forall scores, exists g b, predict dops exp_c 2 2 2 12 dhalf dhalf f (sixteenths 3 3) (Some scores) = Ok (g, b, Some scores).
Proof.
  assert (G : runs_to log_c (cycle draws_c) 2 2 2 12 (dofZ 10) points_c (fun f => match train dops log_c (cycle draws_c) 2 2 2 12 (dofZ 10) f (sixteenths 7 7) 1 with
    | Ok (_, None) => true | _ => false end) = true) by (vm_compute; reflexivity).
  apply (runs_to_reached exp_c log_c (cycle draws_c) 2 2 2 12 (dofZ 10) dhalf dhalf) in G. destruct G as [f [R0 G]].
  destruct (train dops log_c (cycle draws_c) 2 2 2 12 (dofZ 10) f (sixteenths 7 7) 1) as [[f' [|]]|u| |] eqn:E; try discriminate.
  exists f, f'. split; [exact R0|]. split; [exact E|]. intros scores.
  destruct (mondrian_predict_total exp_c log_c (cycle draws_c) 2 2 2 12 (dofZ 10) dhalf dhalf (sizes_c 12 ltac:(lia)) eq_refl (cycle_draw draws_c eq_refl) f _ (sixteenths 3 3) (Some scores) R0 ltac:(cbn; lia) eq_refl) as [g [b [P _]]]. eauto.
Qed.
Print Assumptions mondrian_results_refuted.

(** *** C54: undefined behaviour *)
Lemma one_minus_zero : dsub (dofZ 1) dzero = done.
Proof. apply B2SF_inj. vm_compute. reflexivity. Qed.
(** The draws are 0, so the split is made in dimension 0, where the point is inside the box. *)
Theorem mondrian_zero_draw_refuted : exists h x, forall exp_ log_ base disc, log_ done = dzero ->
  exists f, reached dops exp_ log_ (fun _ => dzero) 1 2 2 3 done base disc dfine f h /\ input dops 2 dfine x /\
    train dops log_ (fun _ => dzero) 1 2 2 3 done f x 0 = Undef Uninitialised.
Proof.
  exists [([done; done], 0)], [done; dofZ 2]. intros exp_ log_ base disc Hlog.
  assert (Same : forall k : nat, log_ (nsub dops (nofZ dops 1) ((fun _ => dzero) k)) = (fun _ => dzero) (nsub dops (nofZ dops 1) ((fun _ => dzero) k))).
  { intros _. exact (eq_trans (f_equal log_ one_minus_zero) Hlog). }
  assert (G : runs_to (fun _ => dzero) (fun _ => dzero) 1 2 2 3 done [([done; done], 0)] (fun f => match train dops (fun _ => dzero) (fun _ => dzero) 1 2 2 3 done f [done; dofZ 2] 0 with
    | Undef Uninitialised => true | _ => false end) = true) by (vm_compute; reflexivity).
  unfold runs_to in G. rewrite <- (run_log dops (fun _ => dzero) log_ (fun _ => dzero) 1 2 2 3 done Same) in G.
  apply (runs_to_reached exp_ log_ (fun _ => dzero) 1 2 2 3 done base disc [([done; done], 0)]) in G. destruct G as [f [R0 G]].
  rewrite <- (train_log dops (fun _ => dzero) log_ (fun _ => dzero) 1 2 2 3 done Same) in G.
  exists f. split; [exact R0|]. split.
  - split; [reflexivity|]. intros d Hd. destruct (Z.eq_dec d 0) as [->|]; [reflexivity|]. assert (d = 1) as -> by lia. reflexivity.
  - destruct (train _ _ _ _ _ _ _ _ f _ 0) as [[f' r]|[]| |]; try discriminate. reflexivity.
Qed.
Print Assumptions mondrian_zero_draw_refuted.

(** All draws are the largest double below 1: the probabilities 1/7 of seven dimensions sum to less, and the eighth dimension is
    taken, where the point is inside the box. The value of the logarithm is the double nearest to -53 log 2. *)
Definition below_one : dbl := dlit 9007199254740991 (-53).
Definition log_53 : dbl := dlit (-5170245042386938) (-47).
Lemma one_minus_below : dsub (dofZ 1) below_one = dlit 1 (-53).
Proof. apply B2SF_inj. vm_compute. reflexivity. Qed.
Theorem mondrian_rounding_refuted : ddraw below_one /\ exists h x, forall exp_ log_ base disc, log_ (dlit 1 (-53)) = log_53 ->
  exists f, reached dops exp_ log_ (fun _ => below_one) 1 8 2 3 (dofZ 100) base disc dfine f h /\ input dops 8 dfine x /\
    train dops log_ (fun _ => below_one) 1 8 2 3 (dofZ 100) f x 0 = Undef Uninitialised.
Proof.
  split; [now apply ddraw_check|]. set (a := repeat dzero 8). set (b := repeat done 7 ++ [dzero]).
  exists [(a, 0)], b. intros exp_ log_ base disc Hlog.
  assert (Same : forall k : nat, log_ (nsub dops (nofZ dops 1) ((fun _ => below_one) k)) = (fun _ => log_53) (nsub dops (nofZ dops 1) ((fun _ => below_one) k))).
  { intros _. exact (eq_trans (f_equal log_ one_minus_below) Hlog). }
  assert (G : runs_to (fun _ => log_53) (fun _ => below_one) 1 8 2 3 (dofZ 100) [(a, 0)] (fun f => match train dops (fun _ => log_53) (fun _ => below_one) 1 8 2 3 (dofZ 100) f b 0 with
    | Undef Uninitialised => true | _ => false end) = true) by (vm_compute; reflexivity).
  unfold runs_to in G. rewrite <- (run_log dops (fun _ => log_53) log_ (fun _ => below_one) 1 8 2 3 (dofZ 100) Same) in G.
  apply (runs_to_reached exp_ log_ (fun _ => below_one) 1 8 2 3 (dofZ 100) base disc [(a, 0)]) in G. destruct G as [f [R0 G]].
  rewrite <- (train_log dops (fun _ => log_53) log_ (fun _ => below_one) 1 8 2 3 (dofZ 100) Same) in G.
  exists f. split; [exact R0|]. split.
  - split; [reflexivity|]. intros d Hd. assert (F : Forall dfine b) by (unfold b; repeat constructor). rewrite Forall_forall in F. apply F, nth_In. cbn. lia.
  - destruct (train _ _ _ _ _ _ _ _ f _ 0) as [[f' r]|[]| |]; try discriminate. reflexivity.
Qed.
Print Assumptions mondrian_rounding_refuted.

(** Fewer nodes than trees: the root of the second tree is node -1. *)
Theorem mondrian_small_pool_refuted : exists x, input dops 1 dfine x /\ forall log_ rnd,
  train dops log_ rnd 2 1 2 1 done (forest_init dops 2 1 2 1) x 0 = Undef OutOfBounds.
Proof.
  exists [dhalf]. split; [split; [reflexivity|]; intros d Hd; assert (d = 0) as -> by lia; reflexivity|]. intros log_ rnd.
  assert (G : match train dops log_ rnd 2 1 2 1 done (forest_init dops 2 1 2 1) [dhalf] 0 with Undef OutOfBounds => true | _ => false end = true) by (vm_compute; reflexivity).
  destruct (train _ _ _ _ _ _ _ _ _ _ _) as [|[]| |]; try discriminate. reflexivity.
Qed.
Print Assumptions mondrian_small_pool_refuted.

(** Two nodes, one tree: the node taken for the new parent is lost, as there is none for the sibling. *)
Theorem mondrian_leak_refuted : exists f h, reached dops exp_c log_c (cycle draws_c) 1 2 2 2 (dofZ 10) dhalf dhalf dfine f h /\
  forall ts lost, trees dops 1 2 2 2 (dofZ 10) f h ts lost -> lost = [1].
Proof.
  assert (G : runs_to log_c (cycle draws_c) 1 2 2 2 (dofZ 10) (firstn 2 points_c) (fun f => same_zs [roots dops f] [[0]] &&
    match nodes dops f with [a; b] => is_leaf dops a && negb (available dops b) | _ => false end) = true) by (vm_compute; reflexivity).
  apply (runs_to_reached exp_c log_c (cycle draws_c) 1 2 2 2 (dofZ 10) dhalf dhalf) in G. destruct G as [f [R0 G]]. exists f. eexists. split; [exact R0|].
  apply andb_true_iff in G. destruct G as [G G2]. apply same_zs_ok in G. destruct G as [G _]. destruct (nodes dops f) as [|a [|b [|? ?]]] eqn:En; try discriminate.
  apply andb_true_iff in G2. destruct G2 as [G2 G3]. apply Z.eqb_eq in G2. apply negb_true_iff in G3.
  intros ts lost [T1 [T2 [P1 [P2 [P3 P4]]]]]. destruct ts as [|t [|? ?]]; [cbn in T1; lia| |cbn in T1; lia].
  destruct (T2 0%nat t eq_refl) as [Tr [Tt _]]. rewrite G in Tr. cbn in Tr. assert (E0 : top dops t = 0) by congruence.
  destruct t as [i pts|i d v l r]; cbn [top] in E0; subst i.
  2: { destruct Tt as [n [N1 [_ [_ [_ [_ [_ [N2 [N3 _]]]]]]]]]. rewrite En in N1. cbn [top] in N1. cbn in N1. injection N1 as <-. lia. }
  cbn [map concat ids app] in *. assert (I1 : In 1 (0 :: lost)).
  { destruct (in_dec Z.eq_dec 1 (0 :: lost)) as [|N]; [assumption|exfalso]. apply (proj2 (P4 1 ltac:(lia))) in N. destruct N as [n [N1 N2]]. rewrite En in N1. cbn in N1. injection N1 as <-. congruence. }
  destruct I1 as [|I1]; [lia|]. apply NoDup_cons_iff in P2. destruct P2 as [P0 P2].
  assert (A : forall j, In j lost -> j = 1). { intros j Hj. pose proof (P3 j (or_intror Hj)). destruct (Z.eq_dec j 0) as [->|]; [contradiction|lia]. }
  destruct lost as [|j lost]; [destruct I1|]. rewrite (A j (or_introl eq_refl)) in *. destruct lost as [|k lost]; [reflexivity|exfalso].
  rewrite (A k (or_intror (or_introl eq_refl))) in P2. apply NoDup_cons_iff in P2. destruct P2 as [P2 _]. apply P2. now left.
Qed.
Print Assumptions mondrian_leak_refuted.

(** A negative lifetime: the nodes of the first tree stay free, so both trees get the same root, which counts the point twice. *)
Theorem mondrian_negative_lifetime_refuted : exists f p, reached dops exp_c log_c (cycle draws_c) 2 2 2 9 (dofZ (-1)) dhalf dhalf dfine f [p] /\
  roots dops f = [0; 0] /\ counter dops f (snd p) 0 = 2.
Proof.
  assert (G : runs_to log_c (cycle draws_c) 2 2 2 9 (dofZ (-1)) (firstn 1 points_c) (fun f => same_zs [roots dops f; [counter dops f 0 0]] [[0; 0]; [2]]) = true) by (vm_compute; reflexivity).
  apply (runs_to_reached exp_c log_c (cycle draws_c) 2 2 2 9 (dofZ (-1)) dhalf dhalf) in G. destruct G as [f [R0 G]].
  apply same_zs_ok in G. destruct G as [G1 [G2 _]]. exists f, (sixteenths 1 2, 0). split; [exact R0|]. split; [exact G1|]. cbn [snd]. congruence.
Qed.
Print Assumptions mondrian_negative_lifetime_refuted.

(** *** C50: a feature that is not a number reaches no leaf *)
Definition points_n : list (point dops) := [([dlit 1 (-4)], 0); ([dlit 3 (-4)], 1); ([dnan], 1)].
Definition ends (r : res (forest dops)) (ok : forest dops -> bool) : bool := match r with Ok f => ok f | _ => false end.
Lemma ends_ok : forall r ok, ends r ok = true -> exists f, r = Ok f /\ ok f = true.
Proof. intros [f|u| |] ok H; try discriminate. exists f. auto. Qed.
Theorem mondrian_nan_refuted : exists f h, reached dops exp_c log_c (cycle draws_c) 1 1 2 4 (dofZ 10) dhalf dhalf (fun _ => True) f h /\
  length h = 3%nat /\ zsum (map (fun i => counter dops f 0 i + counter dops f 1 i) [0; 1; 2; 3]) = 2 /\ length (nodes dops f) = 4%nat.
Proof.
  assert (G : ends (run dops log_c (cycle draws_c) 1 1 2 4 (dofZ 10) (forest_init dops 1 1 2 4) points_n)
    (fun f => (zsum (map (fun i => counter dops f 0 i + counter dops f 1 i) [0; 1; 2; 3]) =? 2) && Nat.eqb (length (nodes dops f)) 4) = true) by (vm_compute; reflexivity).
  apply ends_ok in G. destruct G as [f [E G]]. apply andb_true_iff in G. destruct G as [G1 G2].
  exists f, (rev points_n). split; [rewrite <- (app_nil_r (rev points_n)); apply run_reached with (forest_init dops 1 1 2 4); [|constructor|exact E]|].
  - unfold points_n. repeat apply Forall_cons; try apply Forall_nil; (split; [reflexivity|]); (split; [repeat constructor|]); cbn [snd]; lia.
  - split; [reflexivity|]. split; [now apply Z.eqb_eq|now apply Nat.eqb_eq].
Qed.
Print Assumptions mondrian_nan_refuted.

(** *** C52 in binary64: the split between 1 and the next double is rounded to that double, so a trained point is sent to the
    leaf of the other one *)
Definition next_one : dbl := dlit 4503599627370497 (-52).
Definition draws_r : list dbl := [dlit 1 (-60); dhalf; dlit 3 (-2)].
Theorem mondrian_routing_ieee_refuted : exists f h p, reached dops exp_c (fun _ => dzero) (cycle draws_r) 1 1 2 3 done dhalf dhalf dfine f h /\ In p h /\
  forall ts lost, trees dops 1 1 2 3 done f h ts lost -> exists t, ts = [t] /\ counter dops f (snd p) (routed dops (fst p) t) = 0.
Proof.
  set (cs := [([done], 0); ([next_one], 1)] : list (point dops)).
  assert (G : runs_to (fun _ => dzero) (cycle draws_r) 1 1 2 3 done cs (fun f => same_zs [roots dops f; [counter dops f 1 0]] [[1]; [0]] &&
    match nodes dops f with [a; b; c] => is_leaf dops a && same_zs [[split_dimension dops b; child_left dops b]] [[0; 0]] && match split_value dops b with Some v => dle next_one v | None => false end | _ => false end) = true) by (vm_compute; reflexivity).
  apply (runs_to_reached exp_c (fun _ => dzero) (cycle draws_r) 1 1 2 3 done dhalf dhalf) in G. destruct G as [f [R0 G]]. exists f, (rev cs), ([next_one], 1). split; [exact R0|].
  split; [now left|]. apply andb_true_iff in G. destruct G as [G G2]. apply same_zs_ok in G. destruct G as [G1 [G0 _]]. destruct (nodes dops f) as [|a [|b [|c [|? ?]]]] eqn:En; try discriminate.
  apply andb_true_iff in G2. destruct G2 as [G2 G3]. apply andb_true_iff in G2. destruct G2 as [G2 G4]. apply Z.eqb_eq in G2. apply same_zs_ok in G4. destruct G4 as [G4 _].
  destruct (split_value dops b) as [v|] eqn:Ev; [|discriminate].
  intros ts lost [T1 [T2 _]]. destruct ts as [|t [|? ?]]; [cbn in T1; lia| |cbn in T1; lia]. exists t. split; [reflexivity|].
  destruct (T2 0%nat t eq_refl) as [Tr [Tt _]]. rewrite G1 in Tr. cbn in Tr. assert (E0 : top dops t = 1) by congruence. clear Tr.
  destruct t as [i pts|i d w l r]; cbn [top] in E0; subst i.
  - destruct Tt as [n [N1 [_ [_ [_ [_ [_ [N2 _]]]]]]]]. rewrite En in N1. cbn in N1. injection N1 as <-. injection G4 as G4 _. lia.
  - destruct Tt as [n [N1 [_ [_ [_ [_ [_ [N2 [_ [N3 [_ [N4 [_ [Tl _]]]]]]]]]]]]]]. rewrite En in N1. cbn in N1. injection N1 as <-. rewrite Ev in N3. injection N3 as <-.
    injection G4 as G4 G5. rewrite G4 in N2. subst d. cbn [routed fst snd]. match goal with |- context [if ?c then _ else _] => assert (Hc : c = true) by exact G3; rewrite Hc end.
    destruct l as [i pts|i d w l1 l2]; cbn [routed].
    + cbn [top] in N4. assert (i = 0) as -> by congruence. injection G0 as G0. exact G0.
    + exfalso. destruct Tl as [n [N1 [_ [_ [_ [_ [_ [N2 [N5 _]]]]]]]]]. cbn [top] in *. rewrite <- N4, G5, En in N1. cbn in N1. injection N1 as <-. lia.
Qed.
Print Assumptions mondrian_routing_ieee_refuted.
