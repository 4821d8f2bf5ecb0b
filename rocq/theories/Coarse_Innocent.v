(** * Proofs for the coarse Mondrian forest: what was asked does not matter for what is learned *)
From Coq Require Import ZArith List Bool Lia.
From Verif Require Import CppBase CppFacts NumOps Utils_Model Mondrian_Model Mondrian_Spec Mondrian_Proofs Coarse_Model Coarse_Spec Coarse_Heap Coarse_Walk Coarse_Train Coarse_Trim Coarse_Forest Coarse_Reach Coarse_Tidy Coarse_Total Coarse_Predict Coarse_Recount.
From Verif Require Import Forest_Sim Coarse_Sim.
Import ListNotations.
Local Open Scope Z_scope.

Section Innocent.
  Variable O : ops.
  Variable exp_ log_ : num O -> num O.
  Variable rnd : nat -> num O.
  Variable c : config O.
  Variable l0 : Z.
  Hypothesis Tl : tlaws O.
  Hypothesis Hs : csizes O c l0.
  Hypothesis Hkind : c_extend O c <> EXTEND_BARYCENTER.
  Hypothesis Hsafe : trim_safe O rnd c.
  Local Notation node := (node O).
  Local Notation forest := (forest O).
  Local Notation coarse := (coarse O).
  Local Notation fr := (fr O).
  Local Notation nodes := (nodes O).
  Local Notation roots := (roots O).
  Local Notation counters := (counters O).
  Local Notation get := (get O).
  Local Notation fc := (c_features O c).
  Local Notation lc := (c_labels O c).
  Local Notation nc := (c_nodes O c).
  Local Notation tc := (c_trees O c).
  Local Notation ctree := (ctree O).
  Local Notation ctop := (ctop O).
  Local Notation cids := (cids O).
  Local Notation stored := (stored O fc lc).
  Local Notation inv := (inv O c).
  Local Notation told := (told O c).
  Local Notation fsim := (fsim O (-1)).
  Local Notation csim := (csim O).
  Local Notation creached := (creached O exp_ log_ rnd c l0).
  Let Hlife : nlt O (c_life O c) (nofZ O 0) = false := tl_used O Tl _ (proj2 (proj2 (proj2 (proj2 (proj2 Hs))))).

  Lemma csim_trans : forall a b d, csim a b -> csim b d -> csim a d.
  Proof. intros a b d [f [-> F]] [g [-> G]]. exists g. split; [reflexivity|]. now apply fsim_trans with f. Qed.
  Lemma csim_sym : forall a b, csim a b -> csim b a.
  Proof. intros a b [f [-> F]]. exists (fr a). split; [now destruct a|]. now apply fsim_sym. Qed.

  Lemma update_sim : forall s s', update_all O c s = Ok s' -> csim s s'.
  Proof.
    intros s s' H. unfold update_all in H. inv_bind H. injection H as <-. exists v. split; [reflexivity|].
    assert (X : fsim (fr s) v /\ True); [|apply X]. refine (forZ_inv_post _ (fun _ g => fsim (fr s) g /\ True) _ _ 0 _ _ _ _ E); [split; [apply fsim_refl|exact I]|]. intros j g g' _ [Hg _] H1. split; [|exact I].
    inv_bind H1. destruct (_ =? _); [injection H1 as <-; exact Hg|]. apply posterior_sim in H1. eapply fsim_trans; eauto.
  Qed.
  Lemma predict_sim : forall s x sc k s' b sc', predict O exp_ c s x sc k = Ok (s', b, sc') -> csim s s'.
  Proof. intros s x sc k s' b sc' H. unfold predict in H. inv_bind H. inv_bind H. inv_bind H. injection H as <- _ _. destruct (_ && _) in E; [now apply update_sim|injection E as <-; apply csim_refl]. Qed.

  Lemma free_inv : forall s ts, inv s ts -> free_leaves O s.
  Proof. intros s ts [_ [_ [[_ [_ [_ [_ [_ P]]]]] _]]] i n Hn A. rewrite (P i n Hn A). reflexivity. Qed.
  Lemma total_eq : forall s s', csim s s' -> total O s' = total O s /\ Coarse_Model.full O s' = Coarse_Model.full O s.
  Proof. intros s s' [g [-> _]]. auto. Qed.
  Lemma train_sim : c_extend O c <> EXTEND_GHOST -> c_optimize O c = false -> forall s s' ts x label, Z.of_nat (length x) = fc -> inv s ts -> csim s s' ->
    simr (qsim O) (train O log_ rnd c s x label) (train O log_ rnd c s' x label).
  Proof.
    intros Kg Ko s s' ts x label Hx V H. unfold train. replace (sum_features O s') with (sum_features O s) by (destruct H as [g [-> _]]; reflexivity). replace (count_points O s') with (count_points O s) by (destruct H as [g [-> _]]; reflexivity).
    apply simr_same. intros [sums u] _. set (p := nadd O _ (nofZ O 1)). assert (H0 : csim (with_sums O s sums p) (with_sums O s' sums p)) by (destruct H as [g [-> S]]; exists g; auto).
    apply inv_counts with (x := sums) (p := p) in V. set (a := with_sums O s sums p) in *. set (a' := with_sums O s' sums p) in *. clearbody a a' p. clear H s s' u.
    eapply simr_bind with (R := csim); [destruct (_ =? TRIM_FADING); [now apply fade_sim|now apply simr_ok]|]. intros s1 s1' E1 _ H1.
    assert (V1 : inv s1 ts). { destruct (_ =? TRIM_FADING) in E1; [apply fade_ok in E1; now apply inv_same with a|injection E1 as <-; exact V]. } clear E1.
    rewrite (avail_eq _ _ _ H1). destruct (total_eq _ _ H1) as [Et _]. rewrite Et.
    eapply simr_bind with (R := csim); [match goal with |- simr _ (if ?b then _ else _) _ => destruct b end; [now apply trim_sim|now apply simr_ok]|]. intros s2 s2' E2 _ H2.
    assert (V2 : exists ts2, inv s2 ts2). { destruct (negb (c_trim O c =? TRIM_NONE) && (avail O s1 <=? 1) && (total O s1 mod 100 =? 0)) eqn:B.
      - apply andb_prop in B. destruct B as [B _]. apply andb_prop in B. destruct B as [B1 B2]. apply negb_true_iff, Z.eqb_neq in B1. destruct (tree_trim_ok O exp_ log_ rnd c Tl Hlife _ _ _ Hsafe B1 V1 E2) as [ts2 [F V2]]. eauto.
      - injection E2 as <-. eauto. }
    clear E2. rewrite Ko.
    eapply simr_bind with (R := fun p q => qsim O p q /\ exists ts, inv (fst p) ts).
    - apply simr_range; [split; [split; [exact H2|reflexivity]|exact V2]|]. intros j [b f] [b' f'] Hj [[Hb Ef] [ts3 V3]]. cbn [fst snd] in Hb, Ef, V3. subst f'.
      eapply simr_bind with (R := fun p q => qsim O p q /\ exists ts, inv (fst p) ts).
      + apply simr_left; [apply tree_sim; [exact Kg|exact Hkind|exact Hb|now apply free_inv with ts3]|]. intros [b1 r1] E. cbn [fst]. rewrite <- (Z2Nat.id j) in E by lia.
        pose proof V3 as [Ln _]. destruct (nth_error ts3 (Z.to_nat j)) as [o|] eqn:Ho; [|apply nth_error_None in Ho; lia].
        destruct (train_tree_ok O exp_ log_ rnd c Tl Hlife x label Hx Hkind _ _ _ _ _ _ V3 Ho E) as [o' [_ [_ V4]]]. eauto.
      + intros [b1 r1] [b1' r1'] _ _ [[Hb1 Er] V4]. cbn [fst snd] in *. subst r1'. cbn [bind]. apply simr_ok. split; [split; auto|auto].
    - intros [b1 r1] [b1' r1'] _ _ [[Hb1 Er] _]. cbn [fst snd] in Hb1, Er. subst r1'. rewrite (avail_eq _ _ _ Hb1). destruct (total_eq _ _ Hb1) as [_ Ef]. rewrite Ef.
      eapply simr_bind with (R := csim); [destruct (_ <=? 1); [|now apply simr_ok]; apply simr_same; intros k _; apply simr_ok; destruct Hb1 as [g [-> S]]; exists g; auto|].
      intros b2 b2' _ _ Hb2. apply simr_ok. split; [|reflexivity]. cbn [fst]. destruct (total_eq _ _ Hb2) as [Et2 _]. rewrite Et2. destruct Hb2 as [g [-> S]]. exists g. auto.
  Qed.

  (** The state after the points of a history, without predictions. *)
  Fixpoint learned (h : list (point O)) : res coarse :=
    match h with
    | [] => Ok (forest_init O c true l0)
    | (x, label) :: h => do s <- learned h; do (s', _) <- train O log_ rnd c s x label; Ok s'
    end.
  Lemma reached_inv : forall s h, creached s h -> exists ts, inv s ts.
  Proof. intros s h R. destruct (reach_inv O exp_ log_ rnd c l0 Tl Hs Hkind Hsafe (fun _ _ _ => True) I ltac:(auto) ltac:(auto) s h R) as [ts [V _]]. eauto. Qed.
  Lemma reached_learned : c_extend O c <> EXTEND_GHOST -> c_optimize O c = false -> forall s h, creached s h -> exists s0, learned h = Ok s0 /\ creached s0 h /\ csim s0 s.
  Proof.
    intros Kg Ko s h R. induction R as [|s h x label s' b R [s0 [E0 [R0 C0]]] Hx Hl T|s h x sc k s' b sc' R [s0 [E0 [R0 C0]]] Hx T].
    - exists (forest_init O c true l0). split; [reflexivity|]. split; [constructor|apply csim_refl].
    - destruct (reached_inv s0 h R0) as [ts V]. pose proof (train_sim Kg Ko s0 s ts x label Hx V C0) as S. destruct (simr_inv _ _ _ _ _ _ S T) as [[s1 b1] [E1 [C1 _]]].
      exists s1. cbn [learned]. rewrite E0. cbn [bind]. rewrite E1. split; [reflexivity|]. split; [eapply creached_train; eauto|exact C1].
    - exists s0. split; [exact E0|]. split; [exact R0|]. apply csim_trans with s; [exact C0|]. eapply predict_sim; eauto.
  Qed.
  Lemma reached_csim : c_extend O c <> EXTEND_GHOST -> c_optimize O c = false -> forall s s' h, creached s h -> creached s' h -> csim s s'.
  Proof.
    intros Kg Ko s s' h R R'. destruct (reached_learned Kg Ko s h R) as [s0 [E0 [_ C0]]]. destruct (reached_learned Kg Ko s' h R') as [s0' [E0' [_ C0']]]. rewrite E0 in E0'. injection E0' as <-.
    apply csim_trans with s0; [now apply csim_sym|exact C0'].
  Qed.
  (** The other case: predictions change nothing. *)
  Lemma reached_det : c_extend O c = EXTEND_GHOST \/ c_optimize O c = true -> forall s s' h, creached s h -> creached s' h -> s = s'.
  Proof.
    intros K. assert (A : forall s h, creached s h -> learned h = Ok s).
    { intros s h R. induction R as [|s h x label s' b R IH Hx Hl T|s h x sc k s' b sc' R IH Hx T]; [reflexivity|cbn [learned]; rewrite IH; cbn [bind]; rewrite T; reflexivity|].
      unfold predict in T. inv_bind T. inv_bind T. inv_bind T. injection T as <- _ _. assert (B : negb (c_optimize O c) && negb (c_extend O c =? EXTEND_GHOST) = false) by (destruct K as [-> | ->]; [apply andb_false_r|reflexivity]). rewrite B in E. injection E as <-. exact IH. }
    intros s s' h R R'. apply A in R, R'. congruence.
  Qed.

  (** ** Recounted forests that differ in the counters of internal nodes do not differ at all *)
  Lemma told_alike : forall t t' f, alike O t t' -> told f t' -> told f t.
  Proof.
    intros t t' f H. induction H as [|i d v cs cs' l l' r r' Hl IHl Hr IHr]; intros T; [exact I|]. destruct T as [T1 [T2 T3]]. destruct (alike_facts O _ _ Hl) as [El _]. destruct (alike_facts O _ _ Hr) as [Er _].
    split; [|split; auto]. intros k Hk. rewrite <- El, <- Er. auto.
  Qed.
  Lemma told_same : forall t f g p, fsim f g -> stored f p t -> told f t -> told g t -> forall j, In j (cids t) -> rd (nodes g) j = rd (nodes f) j.
  Proof.
    induction t as [i cs|i d v cs l IHl r IHr]; intros f g p S St Tf Tg j Hj.
    - destruct Hj as [<-|[]]. destruct St as [n [M1 [_ [_ [_ [_ [M _]]]]]]]. cbn [Coarse_Spec.ctop] in M1. rewrite fsim_get in S. destruct S as [_ [_ [_ S]]]. destruct (S _ _ M1) as [m [-> [ds [-> [_ D]]]]]. rewrite M1, D, set_same; [reflexivity|]. left. unfold is_leaf. now rewrite M.
    - destruct St as [n [M1 [_ [M3 [M4 [_ [_ [_ [_ [_ [_ [Sl Sr]]]]]]]]]]]]. destruct Tf as [F1 [F2 F3]], Tg as [G1 [G2 G3]]. cbn [Coarse_Spec.ctop] in M1.
      pose proof (IHl f g i S Sl F2 G2) as Il. pose proof (IHr f g i S Sr F3 G3) as Ir. destruct Hj as [<-|Hj]; [|apply in_app_or in Hj as [Hj|Hj]; auto].
      rewrite fsim_get in S. destruct S as [_ [_ [_ S]]]. destruct (S _ _ M1) as [m [Em [ds [-> [Ld _]]]]]. rewrite Em, M1. f_equal. replace ds with (counters n); [now destruct n|]. symmetry.
      apply nth_ext with 0 0; [exact Ld|]. intros k Hk. specialize (F1 (Z.of_nat k)). specialize (G1 (Z.of_nat k)). rewrite Ld, M4 in Hk. pose proof (proj1 (proj2 (proj2 Hs))).
      unfold cnt in F1, G1. rewrite (Il (ctop l) (ctop_in _ _)) in G1. rewrite (Ir (ctop r) (ctop_in _ _)) in G1. rewrite Em in G1. rewrite M1 in F1. unfold at_label in F1 at 1. unfold at_label in G1 at 1. rewrite Nat2Z.id in F1, G1. cbn [Mondrian_Model.counters set_counters] in G1.
      rewrite F1, G1 by lia. reflexivity.
  Qed.
  Lemma sim_recounted : forall s s' ts, inv s ts -> csim s s' -> recounted O (fr s) (fr s').
  Proof.
    intros s s' ts V [g [-> S]]. cbn [Coarse_Model.fr with_fr]. rewrite fsim_get in S. destruct S as [A [B [C D]]]. split; [exact A|]. split; [exact C|]. intros j n Hn. destruct (D j n Hn) as [m [Em [cs [-> [Lc Hc]]]]].
    exists cs. split; [exact Em|]. split; [exact Lc|]. intros Hl. apply Hc. left. destruct V as [_ [Tr [[_ [_ [_ [P4 [_ P6]]]]] _]]]. destruct (available O n) eqn:Av; [rewrite (P6 j n Hn Av); reflexivity|].
    apply (P4 j n Hn) in Av. unfold Coarse_Spec.all_cids in Av. apply in_concat in Av. destruct Av as [l [Hl1 Hl2]]. apply in_map_iff in Hl1. destruct Hl1 as [o [<- Ho]]. destruct o as [t|]; [|contradiction].
    apply In_nth_error in Ho. destruct Ho as [q Ho]. destruct (Tr q _ Ho) as [_ St]. clear - St Hl2 Hn Hl. revert St. generalize (-1) at 1. induction t as [i cs|i d v cs l IHl r IHr]; intros p St.
    - destruct Hl2 as [<-|[]]. destruct St as [n' [M1 [_ [_ [_ [_ [M _]]]]]]]. cbn [Coarse_Spec.ctop] in M1. rewrite Hn in M1. injection M1 as <-. unfold is_leaf. now rewrite M.
    - destruct St as [n' [M1 [_ [M3 [M4 [_ [_ [_ [_ [Cl [_ [Sl Sr]]]]]]]]]]]]. destruct Hl2 as [<-|Hj]; [|apply in_app_or in Hj as [Hj|Hj]; eauto]. cbn [Coarse_Spec.ctop] in M1. rewrite Hn in M1. injection M1 as <-.
      apply stored_node in Sl. destruct Sl as [m [X _]]. apply rd_ok_iff in X as [X _]. lia.
  Qed.
  Lemma told_pointwise : forall s s' ts, inv s ts -> csim s s' -> (forall i t, nth_error ts i = Some (Some t) -> told (fr s) t /\ told (fr s') t) -> s' = s.
  Proof.
    intros s s' ts V C To. pose proof C as [g [-> S]]. cbn [Coarse_Model.fr with_fr] in To. pose proof S as S'. rewrite fsim_get in S. destruct S as [A [B [D E]]].
    assert (X : nodes g = nodes (fr s)); [|destruct s as [f]; destruct f, g; cbn in *; unfold with_fr; cbn; congruence].
    apply nth_error_ext. intros q. destruct (Nat.lt_ge_cases q (length (nodes (fr s)))) as [Hq|Hq]; [|rewrite !(proj2 (nth_error_None _ _)); [reflexivity|lia|lia]].
    assert (R : rd (nodes g) (Z.of_nat q) = rd (nodes (fr s)) (Z.of_nat q)).
    { destruct (rd_in_bounds _ (nodes (fr s)) (Z.of_nat q)) as [n Hn]; [lia|]. pose proof V as [_ [Tr [[_ [_ [_ [P4 [_ P6]]]]] _]]]. destruct (available O n) eqn:Av.
      - destruct (E _ _ Hn) as [m [-> [cs [-> [_ Hc]]]]]. rewrite Hn, Hc, set_same; [reflexivity|]. left. rewrite (P6 _ n Hn Av). reflexivity.
      - apply (P4 _ n Hn) in Av. unfold Coarse_Spec.all_cids in Av. apply in_concat in Av. destruct Av as [l [Hl1 Hl2]]. apply in_map_iff in Hl1. destruct Hl1 as [o [<- Ho]]. destruct o as [t|]; [|contradiction].
        apply In_nth_error in Ho. destruct Ho as [r Ho]. destruct (Tr r _ Ho) as [_ St]. destruct (To r t Ho) as [T1 T2]. eapply told_same; eauto. }
    unfold rd in R. rewrite (proj2 (Z.ltb_ge (Z.of_nat q) 0)), Nat2Z.id in R by lia. destruct (nth_error (nodes g) q), (nth_error (nodes (fr s)) q); congruence.
  Qed.
  Lemma update_same : forall s s' ts, inv s ts -> csim s s' -> update_all O c s' = update_all O c s.
  Proof.
    intros s s' ts V C. pose proof (sim_recounted _ _ _ V C) as Rc. assert (Av : avail O s' = avail O s) by now apply avail_eq. assert (Sm : same O s s') by (destruct C as [g [-> _]]; apply same_fr).
    destruct (inv_recounted _ _ _ _ _ V Rc Av Sm) as [ts' [F V']]. destruct (def_ok _ _ (update_all_total O c l0 Hs s ts V)) as [s1 E1]. destruct (def_ok _ _ (update_all_total O c l0 Hs s' ts' V')) as [s1' E1'].
    rewrite E1, E1'. f_equal. pose proof (update_all_told O c l0 Hs _ _ _ V E1) as T1. pose proof (update_all_told O c l0 Hs _ _ _ V' E1') as T1'.
    assert (C1 : csim s1 s1') by (apply csim_trans with s'; [apply csim_trans with s; [apply csim_sym; now apply update_sim|exact C]|now apply update_sim]).
    apply update_all_ok in E1. destruct E1 as [R1 [R2 R3]]. destruct (inv_recounted _ _ _ _ _ V R1 R2 R3) as [ts1 [F1 V1]].
    assert (Al : forall (a b : list (option ctree)), Forall2 (fun o o' => match o, o' with Some t, Some t' => alike O t t' | None, None => True | _, _ => False end) a b -> forall i t, nth_error a i = Some (Some t) -> exists t', nth_error b i = Some (Some t') /\ alike O t t').
    { intros a b Fa. induction Fa as [|o o' a b X Fa IH]; intros [|i] t Ht; try discriminate; [|now apply IH]. cbn in Ht. injection Ht as ->. destruct o' as [t'|]; [|contradiction]. exists t'. auto. }
    assert (Al' : forall (a b : list (option ctree)), Forall2 (fun o o' => match o, o' with Some t, Some t' => alike O t t' | None, None => True | _, _ => False end) a b -> forall i t', nth_error b i = Some (Some t') -> exists t, nth_error a i = Some (Some t) /\ alike O t t').
    { intros a b Fa. induction Fa as [|o o' a b X Fa IH]; intros [|i] t Ht; try discriminate; [|now apply IH]. cbn in Ht. injection Ht as ->. destruct o as [t'|]; [|contradiction]. exists t'. auto. }
    assert (sy : forall t t' : ctree, alike O t t' -> alike O t' t) by (intros t t' X; induction X; constructor; auto).
    apply told_pointwise with ts1; [exact V1|exact C1|]. intros i t1 H1. destruct (Al' _ _ F1 _ _ H1) as [t [Ht A1]]. destruct (Al _ _ F _ _ Ht) as [t' [Ht' A2]]. split.
    - apply told_alike with t; [now apply sy|eauto].
    - apply told_alike with t; [now apply sy|]. apply told_alike with t'; [exact A2|eauto].
  Qed.
  Lemma recount_cases : (negb (c_optimize O c) && negb (c_extend O c =? EXTEND_GHOST) = true /\ c_extend O c <> EXTEND_GHOST /\ c_optimize O c = false) \/ (c_extend O c = EXTEND_GHOST \/ c_optimize O c = true).
  Proof. destruct (c_optimize O c); [right; right; reflexivity|]. destruct (Z.eqb_spec (c_extend O c) EXTEND_GHOST); [right; left; assumption|left; auto]. Qed.
  Theorem predict_same : forall s s' h x sc k, creached s h -> creached s' h -> predict O exp_ c s' x sc k = predict O exp_ c s x sc k.
  Proof.
    intros s s' h x sc k R R'. destruct recount_cases as [[B [Kg Ko]]|K]; [|now rewrite (reached_det K _ _ _ R R')]. destruct (reached_inv s h R) as [ts V]. pose proof (reached_csim Kg Ko _ _ _ R R') as C.
    unfold predict. rewrite B. now rewrite (update_same _ _ _ V C).
  Qed.
  Theorem train_same : forall s s' h x label, Z.of_nat (length x) = fc -> creached s h -> creached s' h -> simr (fun p q => csim (fst p) (fst q) /\ snd p = snd q) (train O log_ rnd c s x label) (train O log_ rnd c s' x label).
  Proof.
    intros s s' h x label Hx R R'. destruct recount_cases as [[B [Kg Ko]]|K]; [|rewrite (reached_det K _ _ _ R R'); apply simr_refl; intros a; split; [apply csim_refl|reflexivity]]. destruct (reached_inv s h R) as [ts V].
    now apply train_sim with ts; [..|apply reached_csim with h].
  Qed.
  Theorem trees_same : forall s s' h, creached s h -> creached s' h -> exists ts ts', inv s ts /\ inv s' ts' /\ Forall2 (fun o o' => match o, o' with Some t, Some t' => alike O t t' | None, None => True | _, _ => False end) ts ts'.
  Proof.
    intros s s' h R R'. destruct (reached_inv s h R) as [ts V]. exists ts. assert (C : csim s s') by (destruct recount_cases as [[B [Kg Ko]]|K]; [now apply reached_csim with h|rewrite (reached_det K _ _ _ R R'); apply csim_refl]).
    pose proof (sim_recounted _ _ _ V C) as Rc. assert (Av : avail O s' = avail O s) by now apply avail_eq. assert (Sm : same O s s') by (destruct C as [g [-> _]]; apply same_fr).
    destruct (inv_recounted _ _ _ _ _ V Rc Av Sm) as [ts' [F V']]. eauto.
  Qed.
End Innocent.
