(** * Properties of the coarse Mondrian forest: the fading scores of the leaves *)
From Coq Require Import ZArith List Bool Lia Reals Lra Permutation.
From Flocq Require Import Core BinarySingleNaN.
From Verif Require Import CppBase CppFacts Dbl DblFacts NumOps NumFacts Utils_Model Utils_Spec Utils_Proofs MCNN_Num.
From Verif Require Import Mondrian_Model Mondrian_Spec Mondrian_Proofs Mondrian_Num Mondrian_Runs Mondrian_Props.
From Verif Require Import Coarse_Model Coarse_Spec Coarse_Heap Coarse_Walk Coarse_Train Coarse_Trim Coarse_Forest Coarse_Reach Coarse_Props.
From Verif Require Import Coarse_Smallest Coarse_Trim_Props Coarse_Fade_Spec Coarse_Fade Coarse_Score Coarse_Lowest Coarse_Fade_Reach.
Import ListNotations.
Local Open Scope Z_scope.

(** A score: a number that is not negative, or infinity. *)
Definition above (v : dbl) : Prop := not_nan v /\ Bsign v = false.
Lemma sign_pos : forall v : dbl, Bsign v = false -> (0 <= B2R v)%R.
Proof. intros v S. destruct v as [s|s| |s m e B]; cbn in *; subst; try lra. unfold F2R. cbn. apply Rmult_le_pos; [apply IZR_le; lia|apply bpow_ge_0]. Qed.
Lemma above_key : forall v, above v -> not_nan v /\ (0 <= dkey v)%R.
Proof.
  intros v [N S]. split; [exact N|]. destruct v as [s|[|]| |s m e B]; try discriminate; [|apply bpow_ge_0| |]; unfold dkey; now apply sign_pos.
Qed.
Lemma above_add : forall v, above v -> above (dadd v (dofZ 1)).
Proof.
  intros v [N S]. destruct (dofZ_exact 1 ltac:(lia)) as [F1 V1]. destruct (is_finite v) eqn:Fv.
  - pose proof (Bplus_correct 53 1024 _ _ mode_NE v (dofZ 1) Fv V1) as H. fold (dadd v (dofZ 1)) in H. assert (S1 : Bsign (dofZ 1) = false) by reflexivity. rewrite S, S1 in H. destruct (Rlt_bool _ _).
    + destruct H as [H1 [H2 H3]]. split; [intros E; now rewrite E in H2|]. rewrite H3. destruct (Rcompare_spec (B2R v + B2R (dofZ 1)) 0) as [X|X|X]; [exfalso|reflexivity|reflexivity]. rewrite F1 in X. pose proof (sign_pos v S). lra.
    + destruct H as [H _]. destruct (dadd v (dofZ 1)); cbn in H; try discriminate. injection H as ->. split; [discriminate|reflexivity].
  - destruct v as [s|s| |s m e B]; try discriminate; cbn in S; subst; [|now destruct N]. split; [discriminate|reflexivity].
Qed.
Lemma above_mul : forall v r, above v -> is_finite_strict r = true -> Bsign r = false -> above (dmul v r).
Proof.
  intros v r [N S] Fr Sr. destruct (is_finite v) eqn:Fv.
  - pose proof (Bmult_correct 53 1024 _ _ mode_NE v r) as H. fold (dmul v r) in H. rewrite S, Sr in H. destruct (Rlt_bool _ _).
    + destruct H as [H1 [H2 H3]]. assert (X : is_finite (dmul v r) = true) by (rewrite H2, Fv; destruct r; try discriminate; reflexivity). assert (Y : is_nan (dmul v r) = false) by (destruct (dmul v r); try discriminate; reflexivity). split; [intros E; now rewrite E in Y|]. now rewrite (H3 Y).
    + destruct (dmul v r); cbn in H; try discriminate. injection H as ->. split; [discriminate|reflexivity].
  - destruct v as [s|s| |s m e B]; try discriminate; cbn in S; subst; [|now destruct N]. destruct r as [s|s| |s m e B]; try discriminate. cbn in Sr. subst. split; [discriminate|reflexivity].
Qed.
Lemma flaws_dops : flaws dops above.
Proof.
  split; cbn [nofZ nadd nlt neq num dops].
  - split; [discriminate|reflexivity].
  - exact above_add.
  - intros v H. unfold faded. cbn [nmul ndiv nofZ dops]. apply above_mul; [exact H|vm_compute; reflexivity|vm_compute; reflexivity].
  - vm_compute. reflexivity.
  - vm_compute. reflexivity.
  - intros v H. apply above_key in H. destruct H as [H1 H2]. apply dlt_not. intros [_ [_ H3]]. destruct (dofZ_exact 0 ltac:(lia)) as [V F]. assert (X : dkey (dofZ 0) = 0%R) by (unfold dofZ; cbn; reflexivity). rewrite X in H3. lra.
  - intros v H. apply dlt_not. intros [_ [_ X]]. lra.
  - intros a b A B H. apply dlt_iff in H. apply dlt_not. intros [_ [_ X]]. lra.
  - intros a b d A B D H1 H2. apply above_key in A, B, D. rewrite dlt_not in H1, H2. apply dlt_not. intros [_ [_ X]]. assert (~ (dkey a < dkey b)%R) by tauto. assert (~ (dkey b < dkey d)%R) by tauto. lra.
  - intros a b A B H. apply deq_iff in H. destruct H as [_ [_ H]]. split; apply dlt_not; intros [_ [_ X]]; lra.
Qed.

Section Use.
  Variable exp_ log_ : dbl -> dbl.
  Variable rnd : nat -> dbl.
  Variable c : config dops.
  Variable l0 : Z.
  Local Notation reached := (creached dops exp_ log_ rnd c l0).
  Local Notation trees := (ctrees dops c).
  Local Notation low ts := (forall t, In (Some t) ts -> height dops t <= 100).
  Hypothesis Hs : csizes dops c l0.
  Hypothesis Ht : c_trim dops c = TRIM_FADING.
  Hypothesis Hbary : c_extend dops c <> EXTEND_BARYCENTER.
  Hypothesis Hghost : c_extend dops c <> EXTEND_GHOST.
  Hypothesis Hupd : c_extend dops c <> EXTEND_COUNTER_NO_UPDATE.
  Let Hlife : nlt dops (c_life dops c) (nofZ dops 0) = false.
  Proof. apply (tl_used dops tlaws_dops). destruct Hs as [_ [_ [_ [_ [_ X]]]]]. exact X. Qed.
  Lemma low_ok : forall ts, low ts -> Coarse_Fade.low dops 100 ts.
  Proof. intros ts H i t Hi. apply H. now apply nth_error_In with i. Qed.
  Lemma leaf_ids_of : forall (ts : list (option (ctree dops))) o j, In o ts -> In j (leaves_of dops o) -> In j (leaf_ids dops ts).
  Proof. intros ts o j Ho Hj. unfold leaf_ids. apply in_concat. exists (leaves_of dops o). split; [now apply in_map|exact Hj]. Qed.
  Lemma Forall2_in : forall A B (P Q : A -> B -> Prop) l l', Forall2 P l l' -> (forall a b, In a l -> P a b -> Q a b) -> Forall2 Q l l'.
  Proof. intros A B P Q l l' H. induction H; intros X; constructor; [apply X; [now left|assumption]|apply IHForall2; intros; apply X; [now right|assumption]]. Qed.

  (** *** C113: the fading scores of the leaves *)
  (** Only leaves have a score, and no score is negative. *)
  Theorem coarse_scores_clean : forall s h, reached s h -> exists ts, trees s ts /\
    forall j v, rd (fading dops s) j = Ok v -> dle (dofZ 0) v = true /\ (In j (leaf_ids dops ts) \/ v = dofZ 0).
  Proof.
    intros s h R. destruct (reached_scores dops exp_ log_ rnd c above tlaws_dops flaws_dops Hlife Ht Hbary Hghost Hupd l0 Hs s h R) as [ts [V [C F]]].
    exists ts. split; [now apply inv_ctrees|]. intros j v Hj. split.
    - destruct (above_key v (F j v Hj)) as [N K]. apply dle_iff. split; [discriminate|]. split; [exact N|]. assert (X : dkey (dofZ 0) = 0%R) by (unfold dofZ; cbn; reflexivity). now rewrite X.
    - destruct (in_dec Z.eq_dec j (leaf_ids dops ts)) as [I|I]; [now left|right]. now apply (C j).
  Qed.
  (** Fading multiplies the score of every leaf once, and changes nothing else. *)
  Theorem coarse_fade_leaves : forall s h, reached s h -> exists ts, trees s ts /\ (low ts -> exists xs, tree_fade_counts dops c s = Ok (with_fading dops s xs) /\ length xs = length (fading dops s) /\
    (forall j, ~ In j (leaf_ids dops ts) -> rd xs j = rd (fading dops s) j) /\ forall j, In j (leaf_ids dops ts) -> exists w, rd (fading dops s) j = Ok w /\ rd xs j = Ok (faded dops w)).
  Proof.
    intros s h R. destruct (reached_scores dops exp_ log_ rnd c above tlaws_dops flaws_dops Hlife Ht Hbary Hghost Hupd l0 Hs s h R) as [ts [V [C F]]].
    exists ts. split; [now apply inv_ctrees|]. intros Lo. destruct (fade_all dops c s ts V (low_ok ts Lo)) as [xs X]. exists xs. exact X.
  Qed.
  (** Training, when nothing is trimmed. *)
  Theorem coarse_train_scores : forall s h x label s' b, reached s h -> Z.of_nat (length x) = c_features dops c -> 0 <= label < c_labels dops c ->
    1 < avail dops s \/ total dops s mod 100 <> 0 -> train dops log_ rnd c s x label = Ok (s', b) ->
    exists ts ts', trees s ts /\ trees s' ts' /\ (low ts -> Forall2 (scored dops (c_labels dops c) label (faded dops) (fading dops s) (fading dops s')) ts ts').
  Proof.
    intros s h x label s' b R Hx Hl Nt T. destruct (reached_scores dops exp_ log_ rnd c above tlaws_dops flaws_dops Hlife Ht Hbary Hghost Hupd l0 Hs s h R) as [ts [V [C F]]].
    destruct (train_scores dops exp_ log_ rnd c above tlaws_dops flaws_dops Hlife Ht Hbary Hghost Hupd s ts x label s' b Hx Hl V C F T) as [xs [ys [tm [ts' [X1 [X2 [X3 [V' _]]]]]]]].
    assert (E : trims dops s = false) by (unfold trims; destruct Nt as [N|N]; [now rewrite (proj2 (Z.leb_gt _ _) N)|rewrite (proj2 (Z.eqb_neq _ _) N); apply andb_false_r]). rewrite E in X2. destruct X2 as [-> ->].
    exists ts, ts'. split; [now apply inv_ctrees|]. split; [now apply inv_ctrees|]. intros Lo. apply Forall2_in with (1 := X3). intros o o' Ho S. apply scored_after with (xs1 := xs); [exact S|].
    intros j Hj. apply (X1 (low_ok ts Lo)). now apply leaf_ids_of with o.
  Qed.
  (** Training, when something is trimmed: every tree loses its leaf with the lowest score, or none. *)
  Theorem coarse_train_trims_lowest : forall s h x label s' b, reached s h -> Z.of_nat (length x) = c_features dops c -> 0 <= label < c_labels dops c ->
    avail dops s <= 1 -> total dops s mod 100 = 0 -> train dops log_ rnd c s x label = Ok (s', b) ->
    exists ts ys tm ts', trees s ts /\ trees s' ts' /\
      (low ts -> Forall2 (cut_lowest dops (c_max_trim dops c) (faded dops) (fading dops s) ys) ts tm) /\
      Forall2 (scored dops (c_labels dops c) label (unchanged dops) ys (fading dops s')) tm ts'.
  Proof.
    intros s h x label s' b R Hx Hl N1 N2 T. destruct (reached_scores dops exp_ log_ rnd c above tlaws_dops flaws_dops Hlife Ht Hbary Hghost Hupd l0 Hs s h R) as [ts [V [C F]]].
    destruct (train_scores dops exp_ log_ rnd c above tlaws_dops flaws_dops Hlife Ht Hbary Hghost Hupd s ts x label s' b Hx Hl V C F T) as [xs [ys [tm [ts' [X1 [X2 [X3 [V' _]]]]]]]].
    assert (E : trims dops s = true) by (unfold trims; rewrite (proj2 (Z.leb_le _ _) N1), (proj2 (Z.eqb_eq _ _) N2); reflexivity). rewrite E in X2.
    exists ts, ys, tm, ts'. split; [now apply inv_ctrees|]. split; [now apply inv_ctrees|]. split; [|exact X3]. intros Lo. apply Forall2_in with (1 := X2). intros o o' Ho [S _]. apply cut_after with (xs1 := xs).
    - apply S. intros t ->. now apply Lo.
    - intros j Hj. apply (X1 (low_ok ts Lo)). now apply leaf_ids_of with o.
  Qed.
End Use.
Print Assumptions coarse_scores_clean.
Print Assumptions coarse_fade_leaves.
Print Assumptions coarse_train_scores.
Print Assumptions coarse_train_trims_lowest.

Lemma sizes_fade : csizes dops conf_fade 0.
Proof. unfold csizes, conf_fade; cbn [c_trees c_features c_labels c_nodes c_life]; repeat split; lia. Qed.
(** The score of node [j] is [z]. *)
Definition scores_at (s : coarse dops) (j : Z) (z : dbl) : bool := match rd (fading dops s) j with Ok w => deq w z | _ => false end.
(** Two points in leaf 0 and three in leaf 2: the second point of leaf 0 and the last two of leaf 2 are scored. *)
Definition weight (k : Z) : dbl := fold_left (fun w _ => faded dops w) (zrange k) (dofZ 1).
Definition grows (s : coarse dops) : bool :=
  scores_at s 0 (weight 3) && scores_at s 1 (dofZ 0) && scores_at s 2 (dadd (faded dops (dofZ 1)) (dofZ 1)) &&
  match train dops log_c (cycle draws_c) conf_fade s (sixteenths 8 4) 0 with
  | Ok (s', b) => b && scores_at s' 0 (weight 4) && scores_at s' 1 (dofZ 0) && scores_at s' 2 (dadd (faded dops (dadd (faded dops (dofZ 1)) (dofZ 1))) (dofZ 1))
  | _ => false
  end.
Definition points_w : list (point dops) := [(sixteenths 1 2, 0); (sixteenths 1 2, 0); (sixteenths 8 4, 0); (sixteenths 8 4, 0); (sixteenths 8 4, 0)].
Lemma run_grows : ccheck conf_fade points_w grows = true.
Proof. vm_compute. reflexivity. Qed.
Example coarse_train_scores_example : exists s s', creached dops exp_h log_c (cycle draws_c) conf_fade 0 s (rev points_w) /\ train dops log_c (cycle draws_c) conf_fade s (sixteenths 8 4) 0 = Ok (s', true) /\
  scores_at s 0 (weight 3) = true /\ scores_at s' 0 (weight 4) = true /\ scores_at s 1 (dofZ 0) = true /\ scores_at s' 1 (dofZ 0) = true /\
  scores_at s 2 (dadd (faded dops (dofZ 1)) (dofZ 1)) = true /\ scores_at s' 2 (dadd (faded dops (dadd (faded dops (dofZ 1)) (dofZ 1))) (dofZ 1)) = true.
Proof.
  pose proof run_grows as H. apply ccheck_reached in H. destruct H as [s [R H]]. unfold grows in H. destruct (train dops log_c (cycle draws_c) conf_fade s (sixteenths 8 4) 0) as [[s' b]|u| |] eqn:T; try (now rewrite andb_false_r in H).
  repeat (apply andb_true_iff in H; destruct H as [H ?]). repeat match goal with X : _ && _ = true |- _ => apply andb_true_iff in X; destruct X end. subst b. exists s, s'. auto 12.
Qed.
(** The state of C101: leaf 4, with score 0, goes. *)
Definition cuts (s : coarse dops) : bool :=
  scores_at s 0 (weight 198) && scores_at s 4 (dofZ 0) && (avail dops s <=? 1) && (total dops s mod 100 =? 0) &&
  match train dops log_c (cycle draws_c) conf_fade s (sixteenths 8 4) 0 with
  | Ok (s', b) => b && scores_at s' 0 (weight 199) && scores_at s' 4 (dofZ 0) && match get dops s' 4 with Ok n => available dops n | _ => false end
  | _ => false
  end.
Lemma run_cuts : ccheck conf_fade points_f cuts = true.
Proof. vm_compute. reflexivity. Qed.
Example coarse_train_trims_lowest_example : exists s s' n, creached dops exp_h log_c (cycle draws_c) conf_fade 0 s (rev points_f) /\ train dops log_c (cycle draws_c) conf_fade s (sixteenths 8 4) 0 = Ok (s', true) /\
  avail dops s <= 1 /\ total dops s mod 100 = 0 /\ scores_at s 0 (weight 198) = true /\ scores_at s 4 (dofZ 0) = true /\ scores_at s' 0 (weight 199) = true /\ get dops s' 4 = Ok n /\ available dops n = true.
Proof.
  pose proof run_cuts as H. apply ccheck_reached in H. destruct H as [s [R H]]. unfold cuts in H. destruct (train dops log_c (cycle draws_c) conf_fade s (sixteenths 8 4) 0) as [[s' b]|u| |] eqn:T; try (now rewrite andb_false_r in H).
  destruct (get dops s' 4) as [n|u| |] eqn:G; try (now rewrite !andb_false_r in H). repeat (apply andb_true_iff in H; destruct H as [H ?]). repeat match goal with X : _ && _ = true |- _ => apply andb_true_iff in X; destruct X end.
  subst b. exists s, s', n. repeat match goal with X : (_ <=? _) = true |- _ => apply Z.leb_le in X | X : (_ =? _) = true |- _ => apply Z.eqb_eq in X end. auto 12.
Qed.
(** Fading alone. *)
Definition fades_once (s : coarse dops) : bool :=
  match tree_fade_counts dops conf_fade s with Ok s' => scores_at s 0 (weight 3) && scores_at s' 0 (weight 4) && scores_at s' 1 (dofZ 0) && scores_at s' 2 (faded dops (dadd (faded dops (dofZ 1)) (dofZ 1))) | _ => false end.
Lemma run_fades_once : ccheck conf_fade points_w fades_once = true.
Proof. vm_compute. reflexivity. Qed.
Example coarse_fade_leaves_example : exists s s', creached dops exp_h log_c (cycle draws_c) conf_fade 0 s (rev points_w) /\ tree_fade_counts dops conf_fade s = Ok s' /\
  scores_at s 0 (weight 3) = true /\ scores_at s' 0 (weight 4) = true /\ scores_at s' 1 (dofZ 0) = true /\ scores_at s' 2 (faded dops (dadd (faded dops (dofZ 1)) (dofZ 1))) = true.
Proof.
  pose proof run_fades_once as H. apply ccheck_reached in H. destruct H as [s [R H]]. unfold fades_once in H. destruct (tree_fade_counts dops conf_fade s) as [s'|u| |] eqn:T; try discriminate.
  repeat (apply andb_true_iff in H; destruct H as [H ?]). exists s, s'. auto 8.
Qed.
