(** * Proofs for the coarse Mondrian forest: the scores of the leaves after any use *)
From Coq Require Import ZArith List Bool Lia Permutation.
From Verif Require Import CppBase CppFacts NumOps Utils_Model Mondrian_Model Mondrian_Spec Mondrian_Proofs Coarse_Model Coarse_Spec Coarse_Heap Coarse_Walk Coarse_Train Coarse_Trim Coarse_Forest Coarse_Reach.
From Verif Require Import Coarse_Smallest Coarse_Fade_Spec Coarse_Fade Coarse_Score Coarse_Lowest.
Import ListNotations.
Local Open Scope Z_scope.

Section FadeReach.
  Variable O : ops.
  Variable exp_ log_ : num O -> num O.
  Variable rnd : nat -> num O.
  Variable c : config O.
  Variable fine : num O -> Prop.
  Hypothesis L : tlaws O.
  Hypothesis FL : flaws O fine.
  Hypothesis Hlife : nlt O (c_life O c) (nofZ O 0) = false.
  Hypothesis Ht : c_trim O c = TRIM_FADING.
  Local Notation n_ := (nofZ O).
  Local Notation node := (node O).
  Local Notation coarse := (coarse O).
  Local Notation fr := (fr O).
  Local Notation nodes := (nodes O).
  Local Notation get := (get O).
  Local Notation avail := (avail O).
  Local Notation fading := (fading O).
  Local Notation fc := (c_features O c).
  Local Notation lc := (c_labels O c).
  Local Notation nc := (c_nodes O c).
  Local Notation tc := (c_trees O c).
  Local Notation ctree := (ctree O).
  Local Notation ctop := (ctop O).
  Local Notation cids := (cids O).
  Local Notation cleaves := (cleaves O).
  Local Notation csize := (csize O).
  Local Notation height := (height O).
  Local Notation shape := (shape O).
  Local Notation stored := (stored O fc lc).
  Local Notation inv := (inv O c).
  Local Notation score := (score O).
  Local Notation unchanged := (unchanged O).
  Local Notation leaf_ids := (leaf_ids O).
  Local Notation leaves_of := (leaves_of O).
  Local Notation put := (put O).
  Local Notation calm := (calm O).
  Local Notation available := (available O).
  Local Notation limit := (c_max_trim O c).

  Local Notation faded := (faded O).
  Local Notation lowered := (lowered O c).
  Local Notation fine_scores := (fine_scores O fine).
  Local Notation kind := (c_extend O c).
  Hypothesis Hbary : kind <> EXTEND_BARYCENTER.
  Hypothesis Hghost : kind <> EXTEND_GHOST.
  Hypothesis Hupd : kind <> EXTEND_COUNTER_NO_UPDATE.

  (** ** Fading, for trees of any height *)
  Definition fading_some (s s' : coarse) : Prop := (fine_scores s -> fine_scores s') /\ forall j v', score s' j = Ok v' -> exists v, score s j = Ok v /\ (v = n_ 0 -> v' = n_ 0).
  Definition same_total (s s' : coarse) : Prop := total O s' = total O s.
  Lemma fade_total : forall s s', tree_fade_counts O c s = Ok s' -> same_total s s'.
  Proof.
    intros s s' H. unfold tree_fade_counts in H. refine (forZ_inv_post _ (fun _ s1 => same_total s s1) _ _ 0 _ _ _ _ H); [reflexivity|].
    intros i s1 s2 _ H1 H2. inv_bind H2. inv_bind H2. destruct v0 as [d [s3 u]]. injection H2 as <-. unfold same_total in *. rewrite <- H1.
    unfold walk_from in E0. apply (walk_keeps O c unit (fade_visit O) same_total) in E0; [exact E0|reflexivity|unfold same_total; congruence|]. intros q i0 a q' a' X. unfold fade_visit in X. inv_bind X. inv_bind X. injection X as <- _. reflexivity.
  Qed.
  Lemma fading_some_refl : forall s, fading_some s s.
  Proof. intros s. split; [auto|]. intros j v H. exists v. auto. Qed.
  Lemma fading_some_trans : forall a b d, fading_some a b -> fading_some b d -> fading_some a d.
  Proof. intros a b d [A1 A2] [B1 B2]. split; [auto|]. intros j v H. destruct (B2 j v H) as [w [W1 W2]]. destruct (A2 j w W1) as [u [U1 U2]]. exists u. auto. Qed.
  Lemma fading_some_visit : forall s i a s' a', fade_visit O s i a = Ok (s', a') -> fading_some s s'.
  Proof.
    intros s i a s' a' H. unfold fade_visit in H. inv_bind H. inv_bind H. injection H as <- <-. apply wr_inv in E0. destruct E0 as [B ->]. pose proof (rd_bounds _ _ _ _ E) as B0.
    assert (X : forall j v', rd (upd (fading s) (Z.to_nat i) (faded v)) j = Ok v' -> (j = i /\ v' = faded v) \/ rd (fading s) j = Ok v').
    { intros j v' Hj. pose proof (rd_bounds _ _ _ _ Hj) as Bj. rewrite rd_upd in Hj by lia. destruct (Z.eqb_spec i j) as [<-|N]; [injection Hj as <-; auto|auto]. }
    split.
    - intros Fs j v' Hj. destruct (X j v' Hj) as [[-> ->]|Hj']; [|now apply (Fs j)]. apply (fl_fade O fine FL). now apply (Fs i).
    - intros j v' Hj. destruct (X j v' Hj) as [[-> ->]|Hj']; [|exists v'; auto]. exists v. split; [exact E|]. intros ->. apply (fl_fade0 O fine FL).
  Qed.
  Lemma fading_some_all : forall s s', tree_fade_counts O c s = Ok s' -> fading_some s s'.
  Proof.
    intros s s' H. unfold tree_fade_counts in H. refine (forZ_inv_post _ (fun _ s1 => fading_some s s1) _ _ 0 _ _ _ _ H); [apply fading_some_refl|].
    intros i s1 s2 _ H1 H2. inv_bind H2. inv_bind H2. destruct v0 as [d [s3 u]]. injection H2 as <-. eapply fading_some_trans; [exact H1|].
    unfold walk_from in E0. apply (walk_keeps O c unit (fade_visit O) fading_some fading_some_refl fading_some_trans fading_some_visit) in E0. exact E0.
  Qed.
  Lemma calm_fading : forall s s' ts, fading_some s s' -> calm s ts -> calm s' ts.
  Proof. intros s s' ts [_ F] C j v Nj Hj. destruct (F j v Hj) as [w [W1 W2]]. apply W2. now apply (C j). Qed.

  (** ** Scores faded before *)
  Lemma cut_after : forall g xs xs1 ys o o', cut_lowest O limit unchanged xs1 ys o o' -> (forall j, In j (leaves_of o) -> exists w, rd xs j = Ok w /\ rd xs1 j = Ok (g w)) -> cut_lowest O limit g xs ys o o'.
  Proof.
    intros g xs xs1 ys o o' C F.
    assert (Ag : forall ls, (forall j, In j (map fst ls) -> In j (leaves_of o)) -> aged O unchanged xs1 ys ls -> aged O g xs ys ls).
    { intros ls I A j Hj. destruct (A j Hj) as [w [W1 W2]]. destruct (F j (I j Hj)) as [v [V1 V2]]. exists v. split; [exact V1|]. unfold Coarse_Fade_Spec.unchanged in W2. congruence. }
    assert (Lo : forall t j w1, o = Some t -> lowest O unchanged xs1 t j w1 -> exists w, w1 = g w /\ lowest O g xs t j w).
    { intros t j w1 -> [L1 [L2 L3]]. destruct (F j L2) as [w [W1 W2]]. exists w. split; [congruence|]. split; [exact W1|]. split; [exact L2|]. intros k v Hk Hv. destruct (F k Hk) as [v0 [V1 V2]]. assert (v0 = v) by congruence. subst v0. replace (g w) with w1 by congruence. apply (L3 k (g v) Hk V2). }
    assert (To : forall t, o = Some t -> total_score O unchanged xs1 t = total_score O g xs t).
    { intros t ->. unfold total_score. assert (X : forall (l : list (Z * list Z)) a, (forall e, In e l -> In (fst e) (map fst (cleaves t))) -> fold_left (fun a e => nadd O a (score_of O unchanged xs1 (fst e))) l a = fold_left (fun a e => nadd O a (score_of O g xs (fst e))) l a).
      { induction l as [|e l IH]; intros a I; [reflexivity|]. cbn [fold_left]. destruct (F (fst e)) as [w [W1 W2]]; [apply I; now left|]. unfold score_of at 2 4. rewrite W1, W2. apply IH. intros e' He'. apply I. now right. }
      apply X. intros e He. apply in_map. now apply in_rev. }
    inversion C as [|j cs A0|t j w L0 T0 A0|t t' j cs w P0 L0 T0 Z0 A0]; subst o o'.
    - constructor.
    - constructor. apply Ag; auto.
    - destruct (Lo t j w eq_refl L0) as [w' [-> L']]. apply cut_limit with j w'; [exact L'| |apply Ag; auto]. unfold too_much in *. now rewrite (To t eq_refl) in T0.
    - destruct (Lo t j w eq_refl L0) as [w' [-> L']]. apply cut_leaf with j cs w'; [exact P0|exact L'| |exact Z0|apply Ag; [|exact A0]]; [|intros q Hq; cbn; rewrite P0; now right]. unfold too_much in *. now rewrite (To t eq_refl) in T0.
  Qed.

  (** ** One training point *)
  Lemma scored_fine : forall label xs ys o o', (forall j v, rd xs j = Ok v -> fine v) -> scored O lc label unchanged xs ys o o' -> forall j v, In j (leaves_of o') -> rd ys j = Ok v -> fine v.
  Proof.
    intros label xs ys o o' Fx S j v Hj Hv.
    assert (Ag : forall ls, aged O unchanged xs ys ls -> In j (map fst ls) -> fine v) by (intros ls A I; destruct (A j I) as [w [W1 W2]]; unfold Coarse_Fade_Spec.unchanged in W2; assert (v = w) as -> by congruence; now apply (Fx j)).
    inversion S as [|k cs Om Hk|t t' k cs cs' others w P1 P2 Om W1 W2 A|t t' k cs P1 Om W A|t t' P1 A]; subst o o'; cbn [Coarse_Fade_Spec.leaves_of] in Hj.
    - contradiction.
    - destruct Hj as [<-|[]]. cbn [fst] in Hv. rewrite Hk in Hv. injection Hv as <-. apply (fl_0 O fine FL).
    - rewrite P2 in Hj. destruct Hj as [<-|Hj]; [|now apply (Ag others)]. cbn [fst] in Hv. rewrite W2 in Hv. injection Hv as <-. apply (fl_1 O fine FL). now apply (Fx k).
    - rewrite P1 in Hj. destruct Hj as [<-|Hj]; [|now apply (Ag (cleaves t))]. cbn [fst] in Hv. rewrite W in Hv. injection Hv as <-. apply (fl_0 O fine FL).
    - rewrite P1 in Hj. now apply (Ag (cleaves t)).
  Qed.
  Definition trims (s : coarse) : bool := (avail s <=? 1) && (total O s mod 100 =? 0).
  Lemma train_scores : forall s ts x label s' b, Z.of_nat (length x) = fc -> 0 <= label < lc -> inv s ts -> calm s ts -> fine_scores s -> train O log_ rnd c s x label = Ok (s', b) ->
    exists xs ys tm ts', (low O 100 ts -> forall j, In j (leaf_ids ts) -> exists w, score s j = Ok w /\ rd xs j = Ok (faded w)) /\
      (if trims s then Forall2 (lowered xs ys) ts tm else tm = ts /\ ys = xs) /\
      Forall2 (scored O lc label unchanged ys (fading s')) tm ts' /\ inv s' ts' /\ calm s' ts' /\ fine_scores s'.
  Proof.
    intros s ts x label s' b Hx Hl V C Fs H. unfold train in H. inv_bind H. destruct v as [sums u]. clear E. apply inv_counts with (x := sums) (p := nadd O (nmul O (count_points O s) (c_fading O c)) (n_ 1)) in V.
    change (calm (with_sums O s sums (nadd O (nmul O (count_points O s) (c_fading O c)) (n_ 1))) ts) in C. change (fine_scores (with_sums O s sums (nadd O (nmul O (count_points O s) (c_fading O c)) (n_ 1)))) in Fs.
    set (s0 := with_sums O s sums _) in *. assert (E0 : trims s0 = trims s) by reflexivity. assert (S0 : forall j, score s0 j = score s j) by reflexivity. clearbody s0. inv_bind H. rename v into s1. rewrite Ht in E. change (TRIM_FADING =? TRIM_FADING) with true in E. cbv iota in E.
    pose proof (fade_ok O c _ _ E) as D1. pose proof (inv_same O c _ _ _ D1 V) as V1. pose proof (fading_some_all _ _ E) as [Fs1 Fd]. pose proof (calm_fading _ _ _ (conj Fs1 Fd) C) as C1. specialize (Fs1 Fs).
    assert (Tr : trims s1 = trims s) by (rewrite <- E0; destruct D1 as [_ [_ [X _]]]; unfold trims; now rewrite X, (fade_total _ _ E)).
    exists (fading s1). inv_bind H. rename v into s2.
    assert (X : exists tm, (if trims s then Forall2 (lowered (fading s1) (fading s2)) ts tm else tm = ts /\ fading s2 = fading s1) /\ inv s2 tm /\ calm s2 tm /\ fine_scores s2).
    { rewrite Ht in E1. change (negb (TRIM_FADING =? TRIM_NONE)) with true in E1. cbn [andb] in E1. fold (trims s1) in E1. rewrite Tr in E1. destruct (trims s).
      - destruct (trim_scores O log_ rnd c fine L FL Hlife Ht s1 ts s2 V1 C1 Fs1 E1) as [tm [X1 [X2 [X3 X4]]]]. exists tm. auto.
      - injection E1 as <-. exists ts. auto. }
    destruct X as [tm [X [V2 [C2 F2]]]]. exists (fading s2), tm. inv_bind H. destruct v as [s3 b3].
    destruct (loop_scores O exp_ log_ rnd c L Hlife x label Hx Hl Hbary Hghost Hupd s2 tm s3 b3 true V2 C2 E2) as [ts' [V3 [C3 S3]]].
    inv_bind H. rename v into s4. injection H as <- _.
    assert (Y : exists q, s4 = s3 \/ s4 = with_full O s3 q). { destruct (avail s3 <=? 1); [inv_bind E3; injection E3 as <-; eauto|injection E3 as <-; exists 0; auto]. } destruct Y as [q Y].
    set (s5 := with_total O s4 _). assert (Ef : fading s5 = fading s3) by (destruct Y as [-> | ->]; reflexivity).
    exists ts'. split; [|split; [exact X|split; [now rewrite Ef|split; [|split]]]].
    - intros Lw j Hj. destruct (fade_all O c s0 ts V Lw) as [xs [T1 [T2 [T3 T4]]]]. rewrite T1 in E. injection E as <-. rewrite <- S0. now apply T4.
    - apply inv_totals with s3; auto; destruct Y as [-> | ->]; reflexivity.
    - intros j v. unfold Coarse_Fade.score. rewrite Ef. apply C3.
    - intros j v. unfold Coarse_Fade.score. rewrite Ef. intros Hv. destruct (in_dec Z.eq_dec j (leaf_ids ts')) as [I|I].
      + apply leaf_ids_in in I. destruct I as [i [t [Hi Hj]]]. destruct (Forall2_nth _ _ _ _ _ S3 i (Some t) Hi) as [o [_ S]]. apply (scored_fine label _ _ _ _ F2 S j v Hj Hv).
      + rewrite (C3 j v I Hv). apply (fl_0 O fine FL).
  Qed.

  (** ** Any use *)
  Variable l0 : Z.
  Hypothesis Hs : csizes O c l0.
  Lemma reached_scores : forall s h, creached O exp_ log_ rnd c l0 s h -> exists ts, inv s ts /\ calm s ts /\ fine_scores s.
  Proof.
    intros s h R. destruct Hs as [S1 [S2 [S3 [S4 [S5 S6]]]]]. induction R as [|s h x label s' b R IH Hx Hl T|s h x sc k s' b sc' R IH Hx T].
    - exists (repeat None (Z.to_nat tc)). split; [apply inv_init; auto; lia|]. assert (X : forall j v, score (forest_init O c true l0) j = Ok v -> v = n_ 0).
      { intros j v H. unfold Coarse_Fade.score, forest_init in H. cbn [Coarse_Model.fading] in H. pose proof (rd_bounds _ _ _ _ H) as B. unfold rd in H. destruct (j <? 0); [discriminate|]. destruct (nth_error (repeat (n_ 0) (Z.to_nat nc)) (Z.to_nat j)) eqn:E; [|discriminate]. injection H as <-. apply nth_error_In, repeat_spec in E. exact E. }
      split; [intros j v _ H; now apply (X j)|]. intros j v H. rewrite (X j v H). apply (fl_0 O fine FL).
    - destruct IH as [ts [V [C Fs]]]. destruct (train_scores s ts x label s' b Hx Hl V C Fs T) as [xs [ys [tm [ts' [_ [_ [_ [V' [C' F']]]]]]]]]. exists ts'. auto.
    - destruct IH as [ts [V [C Fs]]]. destruct (predict_ok O exp_ c s ts x sc k s' b sc' V T) as [_ [ts' [V' X]]].
      assert (Ef : forall j, score s' j = score s j).
      { intros j. unfold predict in T. inv_bind T. rename v into s1. inv_bind T. inv_bind T. injection T as <- _ _. destruct (_ && _); [unfold update_all in E; inv_bind E; injection E as <-; reflexivity|injection E as <-; reflexivity]. }
      exists ts'. split; [exact V'|]. split; [|intros j v; rewrite Ef; apply Fs].
      destruct (_ && _).
      + destruct (alike_twins O ts ts' X) as [Ll Tw]. now apply (calm_twins O s s' ts ts').
      + destruct X as [-> ->]. exact C.
  Qed.
End FadeReach.
