(** * Proofs for the coarse Mondrian forest: training does not depend on the counters of internal nodes *)
From Coq Require Import ZArith List Bool Lia.
From Verif Require Import CppBase CppFacts NumOps Utils_Model Mondrian_Model Mondrian_Spec Mondrian_Proofs Coarse_Model Coarse_Spec Coarse_Heap Coarse_Walk Coarse_Train Coarse_Trim Coarse_Forest Coarse_Reach.
From Verif Require Import Forest_Sim.
From Verif Require Unbound_Model.
Import ListNotations.
Local Open Scope Z_scope.

Section Sim.
  Variable O : ops.
  Variable log_ : num O -> num O.
  Variable rnd : nat -> num O.
  Variable c : config O.
  Local Notation node := (node O).
  Local Notation forest := (forest O).
  Local Notation coarse := (coarse O).
  Local Notation fr := (fr O).
  Local Notation nodes := (nodes O).
  Local Notation roots := (roots O).
  Local Notation counters := (counters O).
  Local Notation get := (get O).
  Local Notation fc := (c_features O c).
  Local Notation lc := (c_labels O c).
  Local Notation nc := (c_nodes O c).
  Local Notation tc := (c_trees O c).
  Local Notation fsim := (fsim O (-1)).
  Local Notation nsim := (nsim O false).

  Definition csim (s s' : coarse) : Prop := exists g, s' = with_fr O s g /\ fsim (fr s) g.
  Lemma csim_mk : forall s f g, fsim f g -> csim (with_fr O s f) (with_fr O s g).
  Proof. intros s f g H. exists g. split; [reflexivity|exact H]. Qed.
  Lemma csim_refl : forall s, csim s s.
  Proof. intros s. exists (fr s). split; [now destruct s|apply fsim_refl]. Qed.
  Ltac sim := match goal with H : csim _ _ |- _ => let g := fresh "g" in let S := fresh "S" in destruct H as [g [-> S]] end.
  Ltac fields := cbn [Coarse_Model.fr with_fr forced fading limit size sum_features count_points avail last full total] in *.
  Lemma nsim_any : forall b (n m : node), Forest_Sim.nsim O b n m -> nsim n m.
  Proof. intros b n m H. now apply nsim_weak in H. Qed.
  Lemma get_sim : forall s s' i, csim s s' -> simr nsim (get s i) (get s' i).
  Proof. intros s s' i H. sim. unfold Coarse_Model.get. fields. apply (simr_impl _ _ (Forest_Sim.nsim O (i =? -1))); [apply nsim_any|]. now apply node_sim. Qed.
  Lemma change_sim : forall s s' i h h', csim s s' -> (forall n m, get s i = Ok n -> nsim n m -> simr nsim (h n) (h' m)) -> simr csim (change O s i h) (change O s' i h').
  Proof.
    intros s s' i h h' H K. sim. unfold change. fields. eapply simr_bind; [apply with_sim; [exact S|]|].
    - intros n m En Nm. assert (Hi : i =? -1 = false) by (apply rd_ok_iff in En as [Hi _]; lia). rewrite Hi in *. now apply K.
    - intros f' g' _ _ S'. apply simr_ok. exists g'. split; [reflexivity|exact S'].
  Qed.
  Lemma change_plain : forall s s' i (h : node -> node), csim s s' -> (forall n cs, h (set_counters O n cs) = set_counters O (h n) cs) -> (forall n, counters (h n) = counters n) ->
    (forall n, is_leaf O (h n) = true -> is_leaf O n = true) -> simr csim (change O s i (fun n => Ok (h n))) (change O s' i (fun n => Ok (h n))).
  Proof.
    intros s s' i h H H1 H2 H3. apply change_sim; [exact H|]. intros n m _ [cs [-> [Lc Hc]]]. apply simr_ok. exists cs. rewrite H1, H2. split; [reflexivity|]. split; [exact Lc|]. intros [X|X]; apply Hc; auto.
  Qed.
  Lemma root_sim : forall s s' k i, csim s s' -> simr csim (set_root O s k i) (set_root O s' k i).
  Proof.
    intros s s' k i H. sim. unfold set_root. fields. pose proof S as [A [B [C D]]]. rewrite A, B. apply simr_same. intros rs _. apply simr_ok. exists (mkForest O (nodes g) rs (drawn O (fr s))). split; [reflexivity|]. repeat split; auto.
  Qed.
  Lemma uniform_csim : forall s s', csim s s' -> fst (uniform O rnd s') = fst (uniform O rnd s) /\ csim (snd (uniform O rnd s)) (snd (uniform O rnd s')).
  Proof.
    intros s s' H. sim. unfold uniform. fields. destruct (uniform_sim O rnd (-1) _ _ S) as [A B]. destruct (Mondrian_Model.uniform O rnd (fr s)) as [u f], (Mondrian_Model.uniform O rnd g) as [u' g']. cbn [fst snd] in *. split; [exact A|]. exists g'. split; [reflexivity|exact B].
  Qed.
  Lemma reset_sim : forall s s' i, csim s s' -> simr csim (reset_node O c s i) (reset_node O c s' i).
  Proof.
    intros s s' i H. unfold reset_node. eapply simr_bind; [apply change_sim; [exact H|]; intros; apply simr_ok, nsim_refl|]. intros s1 s1' _ _ H1. sim. fields. apply simr_same. intros fo _. apply simr_same. intros fa _. apply simr_ok. exists g. auto.
  Qed.
  Lemma avail_sim : forall s s' x, csim s s' -> csim (with_avail O s x) (with_avail O s' x).
  Proof. intros s s' x H. sim. exists g. auto. Qed.
  Lemma avail_eq : forall s s', csim s s' -> avail O s' = avail O s.
  Proof. intros s s' H. now sim. Qed.
  Lemma roots_eq : forall s s', csim s s' -> roots (fr s') = roots (fr s).
  Proof. intros s s' H. sim. apply S. Qed.
  Definition psim {A : Type} (p q : A * coarse) : Prop := fst p = fst q /\ csim (snd p) (snd q).
  Definition qsim {A : Type} (p q : coarse * A) : Prop := csim (fst p) (fst q) /\ snd p = snd q.
  Lemma fresh_sim : forall s s', csim s s' -> simr psim (available_node O c s) (available_node O c s').
  Proof.
    intros s s' H. unfold available_node. rewrite (avail_eq _ _ H). destruct (_ =? 0); [apply simr_ok; split; auto|]. pose proof H as H'. destruct H as [g [-> S]]. fields.
    match goal with |- simr _ (bind ?a _) (bind ?b _) => replace b with a end.
    - apply simr_same. intros [i|] _; apply simr_ok; (split; [reflexivity|]); [exists g; auto|exact H'].
    - symmetry. apply findZ_sim. intros j. destruct (sint (j + last O s)) as [k| | |]; [|reflexivity..]. cbn [bind]. unfold Coarse_Model.get. fields.
      apply (free_sim O (-1) (fr s) g (Z.rem k nc) _ (fun b : bool => Ok (if b then Some (Z.rem k nc) else None)) S).
  Qed.
  Lemma depth_sim : forall steps s s' i d m k st, csim s s' -> depth_walk O c steps s' i d m k st = depth_walk O c steps s i d m k st.
  Proof.
    induction steps as [|steps IH]; intros s s' i d m k st H; [reflexivity|]. cbn [depth_walk]. destruct (_ && _); [|reflexivity].
    pose proof (get_sim s s' i H) as X. destruct (get s i) as [n| | |], (get s' i) as [n'| | |]; cbn in X; try contradiction; cbn [bind]; try congruence. destruct X as [cs [-> _]].
    cbn [parent child_left child_right set_counters]. change (is_leaf O (set_counters O n cs)) with (is_leaf O n). destruct (is_leaf O n); [now apply IH|].
    destruct (rd st d) as [v| | |]; cbn [bind]; try reflexivity. destruct (v =? -1); [destruct (wr st d 0); cbn [bind]; auto|]. destruct (v =? 0); [destruct (wr st d 1); cbn [bind]; auto|].
    destruct (v =? 1); [destruct (wr st d (-1)); cbn [bind]; auto|]. auto.
  Qed.
  Lemma climb_sim : forall steps s s' i k, csim s s' -> climb O steps s' i k = climb O steps s i k.
  Proof.
    induction steps as [|steps IH]; intros s s' i k H; [reflexivity|]. cbn [climb].
    pose proof (get_sim s s' i H) as X. destruct (get s i) as [n| | |], (get s' i) as [n'| | |]; cbn in X; try contradiction; cbn [bind]; try congruence. destruct X as [cs [-> _]].
    cbn [parent set_counters]. destruct (_ =? -1); auto.
  Qed.
  Lemma pause_sim : forall s s' i k, csim s s' -> pause O c s' i k = pause O c s i k.
  Proof.
    intros s s' i k H. unfold pause, node_depth, unravel, is_paused. rewrite (depth_sim _ s s') by auto. rewrite (climb_sim _ s s') by auto. now sim.
  Qed.
  Lemma count_at_sim : forall s s' i label, csim s s' -> (forall n, get s i = Ok n -> is_leaf O n = true) -> simr csim (add_label O s i label) (add_label O s' i label).
  Proof.
    intros s s' i label H L. unfold add_label. apply change_sim; [exact H|]. intros n m En [cs [-> [_ Hc]]]. rewrite Hc, set_same by (left; auto). apply simr_refl. apply nsim_refl.
  Qed.
  Lemma score_sim : forall s s' i, csim s s' -> simr csim (add_fading O s i) (add_fading O s' i).
  Proof. intros s s' i H. sim. unfold add_fading. fields. apply simr_same. intros x _. apply simr_same. intros xs _. apply simr_ok. exists g. auto. Qed.
  Lemma leaf_sim : forall s s' i label, csim s s' -> (forall n, get s i = Ok n -> is_leaf O n = true) -> simr csim (add_leaf O s i label) (add_leaf O s' i label).
  Proof. intros s s' i label H L. unfold add_leaf. eapply simr_bind; [apply count_at_sim; auto|]. intros s1 s1' _ _ H1. now apply score_sim. Qed.
  Lemma choose_sim : forall f g n cs x probs sum, fsim f g ->
    simr (fun p q => fsim (fst p) (fst q) /\ snd p = snd q /\ 0 <= fst (snd p)) (Unbound_Model.choose_split O rnd fc f n x probs sum) (Unbound_Model.choose_split O rnd fc g (set_counters O n cs) x probs sum).
  Proof.
    intros f g n cs x probs sum S. unfold Unbound_Model.choose_split. apply simr_same. intros ps _. destruct (uniform_sim O rnd (-1) f g S) as [A B].
    destruct (Mondrian_Model.uniform O rnd f) as [u f1], (Mondrian_Model.uniform O rnd g) as [u' g1]. cbn [fst snd] in A, B. subst u'. apply simr_same. intros d _. cbn [bound_upper bound_lower set_counters]. apply simr_same. intros y Hy.
    apply simr_same. intros hi _. apply simr_same. intros lo _. apply simr_same. intros [lv uv] _. destruct (uniform_sim O rnd (-1) f1 g1 B) as [A1 B1].
    destruct (Mondrian_Model.uniform O rnd f1) as [u1 f2], (Mondrian_Model.uniform O rnd g1) as [u1' g2]. cbn [fst snd] in A1, B1. subst u1'. apply simr_ok. cbn [fst snd]. split; [exact B1|]. split; [reflexivity|]. apply rd_ok_iff in Hy as [Hy _]. lia.
  Qed.
  Lemma parents_sim : forall s s' n cs p label, csim s s' -> c_extend O c <> EXTEND_GHOST -> length cs = length (counters n) -> (forall m, get s p = Ok m -> is_leaf O m = false) ->
    simr csim (parent_counters O c s n p label) (parent_counters O c s' (set_counters O n cs) p label).
  Proof.
    intros s s' n cs p label H K L N. unfold parent_counters. destruct (_ =? EXTEND_ORIGINAL).
    - apply change_sim; [exact H|]. intros q q' Eq [cq [-> [_ _]]]. apply simr_ok. exists (map (Z.min 1) cs). cbn [Mondrian_Model.counters set_counters].
      split; [reflexivity|]. split; [now rewrite !map_length|]. intros [X|X]; [|discriminate]. change (is_leaf O (set_counters O q (map (Z.min 1) (counters n)))) with (is_leaf O q) in X. rewrite (N q Eq) in X. discriminate.
    - destruct (Z.eqb_spec (c_extend O c) EXTEND_GHOST); [now destruct K|now apply simr_ok].
  Qed.
  Lemma fresh_same : forall s i s', available_node O c s = Ok (i, s') -> fr s' = fr s.
  Proof. intros s i s' H. unfold available_node in H. destruct (_ =? 0); [now injection H as _ <-|]. inv_bind H. destruct v; now injection H as _ <-. Qed.
  Lemma above_sim : forall s s' n cs i k x probs sum time label, csim s s' -> c_extend O c <> EXTEND_GHOST -> length cs = length (counters n) ->
    simr csim (split_above O rnd c s n i k x probs sum time label) (split_above O rnd c s' (set_counters O n cs) i k x probs sum time label).
  Proof.
    intros s s' n cs i k x probs sum time label H K L. unfold split_above. sim. fields. eapply simr_bind; [apply choose_sim; exact S|].
    intros [f [d [uv sp]]] [f' [d' [uv' sp']]] _ _ [S1 [Eq Hd]]. cbn [fst snd] in S1, Eq, Hd. injection Eq as <- <- <-. change (with_fr O (with_fr O s g) f') with (with_fr O s f').
    eapply simr_bind; [apply fresh_sim; apply csim_mk; exact S1|]. intros [p s1] [p' s1'] _ _ [Ep H1]. cbn [fst snd] in Ep, H1. subst p'.
    eapply simr_bind; [apply (change_plain s1 s1' p (fun q => set_split O q d sp time)); auto; intros q; unfold is_leaf; cbn [split_dimension set_split]; intros X; apply Z.eqb_eq in X; lia|].
    intros s2 s2' E2 _ H2. eapply simr_bind; [apply fresh_sim; exact H2|]. intros [q s3] [q' s3'] E3 _ [Eq H3]. cbn [fst snd] in Eq, H3. subst q'. rewrite (avail_eq _ _ H3). apply avail_sim with (x := avail O s3 - 2) in H3.
    eapply simr_bind; [apply parents_sim; [exact H3|exact K|exact L|]|].
    { intros m Em. unfold Coarse_Model.get in Em. fields. change (fr (with_avail O s3 (avail O s3 - 2))) with (fr s3) in Em. rewrite (fresh_same _ _ _ E3) in Em.
      unfold change in E2. inv_bind E2. injection E2 as <-. fields. destruct (with_node_inv _ _ _ _ _ E) as [m0 [m1 [M0 [M1 M2]]]]. injection M1 as <-. rewrite M2 in Em. rewrite (rd_put _ _ _ _ _ _ M0), Z.eqb_refl in Em. injection Em as <-. unfold is_leaf. cbn [split_dimension set_split]. apply Z.eqb_neq. lia. }
    intros s4 s4' _ _ H4. destruct H4 as [g4 [-> S4]]. fields. eapply simr_bind; [apply insert_sim; exact S4|]. intros f5 g5 _ _ S5. apply simr_ok. exists g5. split; [reflexivity|exact S5].
  Qed.
  Lemma draw_sim : forall s s' sum, csim s s' -> fst (draw_time O log_ rnd s' sum) = fst (draw_time O log_ rnd s sum) /\ csim (snd (draw_time O log_ rnd s sum)) (snd (draw_time O log_ rnd s' sum)).
  Proof.
    intros s s' sum H. unfold draw_time. destruct (neq O _ _); [auto|]. destruct (uniform_csim s s' H) as [A B]. destruct (uniform O rnd s), (uniform O rnd s'). cbn [fst snd] in *. subst. auto.
  Qed.
  Lemma box_sim : forall s s' i x, csim s s' -> simr csim (change O s i (fun n => update_box O fc n x)) (change O s' i (fun n => update_box O fc n x)).
  Proof.
    intros s s' i x H. apply change_sim; [exact H|]. intros n m _ [cs [-> [Lc Hc]]]. unfold update_box. cbn [bound_lower bound_upper set_counters]. apply simr_same. intros [l u] _. apply simr_ok. exists cs. auto.
  Qed.
  Lemma extend_sim : c_extend O c <> EXTEND_GHOST -> forall steps s s' i k x label, csim s s' -> simr csim (extend_block O log_ rnd c steps s i k x label) (extend_block O log_ rnd c steps s' i k x label).
  Proof.
    intros K. induction steps as [|steps IH]; intros s s' i k x label H; [exact I|].
    pose (descend := fun s : coarse =>
      do n <- get s i;
      if is_leaf O n then add_leaf O s i label
      else
        do y <- rd x (split_dimension O n);
        do v <- match split_value O n with Some v => Ok v | None => Undef Uninitialised end;
        do s <-
          (if nle O y v then extend_block O log_ rnd c steps s (child_left O n) k x label
           else if nlt O v y then extend_block O log_ rnd c steps s (child_right O n) k x label
           else Ok s);
        if c_extend O c =? EXTEND_GHOST then add_label O s i label else Ok s).
    assert (D : forall a a', csim a a' -> simr csim (descend a) (descend a')).
    { intros a a' Ha. unfold descend. eapply simr_bind; [apply get_sim; exact Ha|]. intros n m En _ [cs [-> _]]. change (is_leaf O (set_counters O n cs)) with (is_leaf O n).
      destruct (is_leaf O n) eqn:Lf; [apply leaf_sim; [exact Ha|]; intros n' E'; rewrite En in E'; injection E' as <-; exact Lf|]. cbn [split_dimension split_value child_left child_right set_counters].
      apply simr_same. intros y _. apply simr_same. intros v _. apply simr_bind with csim; [destruct (nle O y v); [now apply IH|]; destruct (nlt O v y); [now apply IH|now apply simr_ok]|].
      intros b b' _ _ Hb. destruct (Z.eqb_spec (c_extend O c) EXTEND_GHOST); [now destruct K|now apply simr_ok]. }
    cbn [extend_block]. eapply simr_bind; [apply get_sim; exact H|]. intros n m En _ [cs [-> [Lc _]]].
    assert (Ep : parent_time O (fr s') (set_counters O n cs) = parent_time O (fr s) n) by (destruct H as [g [-> S]]; now apply parent_sim with (-1)). rewrite Ep. apply simr_same. intros pt _.
    change (distances O fc (set_counters O n cs) x) with (distances O fc n x). apply simr_same. intros [probs sum] _. destruct (draw_sim s s' sum H) as [A B].
    destruct (draw_time O log_ rnd s sum) as [e s1], (draw_time O log_ rnd s' sum) as [e' s1']. cbn [fst snd] in A, B. subst e'. rewrite (pause_sim _ _ _ _ B). apply simr_same. intros paused _. rewrite (avail_eq _ _ B). cbn [tau set_counters].
    match goal with |- simr _ (if ?b then _ else _) _ => destruct b end.
    - eapply simr_bind; [apply above_sim; [exact B|exact K|exact Lc]|]. intros s2 s2' _ _ H2. destruct (_ =? EXTEND_COUNTER_NO_UPDATE); [exact (D _ _ H2)|now apply simr_ok].
    - match goal with |- simr _ (if ?b then _ else _) _ => destruct b end; [eapply simr_bind; [apply box_sim; exact B|]; intros s2 s2' _ _ H2; exact (D _ _ H2)|].
      destruct (Z.eqb_spec (c_extend O c) EXTEND_GHOST); [now destruct K|]. destruct (_ =? EXTEND_COUNTER_NO_UPDATE); [exact (D _ _ B)|now apply simr_ok].
  Qed.

  Definition wsim {A : Type} (p q : Z * (coarse * A)) : Prop := fst p = fst q /\ qsim (snd p) (snd q).
  Lemma walk_sim : forall (A : Type) (visit : coarse -> Z -> A -> res (coarse * A)) start,
    (forall s s' i a, csim s s' -> (forall n, get s i = Ok n -> is_leaf O n = true) -> simr qsim (visit s i a) (visit s' i a)) ->
    forall steps s s' i d k st a, csim s s' -> simr wsim (walk O c visit start steps s i d k st a) (walk O c visit start steps s' i d k st a).
  Proof.
    intros A visit start V. induction steps as [|steps IH]; intros s s' i d k st a H; [exact I|]. cbn [walk]. destruct (_ && _); [|apply simr_ok; repeat split; auto].
    eapply simr_bind; [apply get_sim; exact H|]. intros n m En _ [cs [-> _]]. change (is_leaf O (set_counters O n cs)) with (is_leaf O n). cbn [parent child_left child_right set_counters].
    destruct (is_leaf O n) eqn:Lf.
    - apply simr_same. intros st1 _. eapply simr_bind; [apply V; [exact H|]; intros n' E'; rewrite En in E'; injection E' as <-; exact Lf|]. intros [s1 a1] [s1' a1'] _ _ [H1 Ea]. cbn [fst snd] in H1, Ea. subst a1'.
      destruct (match start with Some b => i =? b | None => false end); [apply simr_ok; repeat split; auto|]. destruct (_ <=? _); [apply simr_ok; repeat split; auto|]. now apply IH.
    - apply simr_same. intros v _. destruct (v =? -1); [apply simr_same; intros st1 _; destruct (_ <=? _); [apply simr_ok; repeat split; auto|now apply IH]|].
      destruct (v =? 0); [apply simr_same; intros st1 _; destruct (_ <=? _); [apply simr_ok; repeat split; auto|now apply IH]|].
      destruct (v =? 1); [apply simr_same; intros st1 _; destruct (match start with Some b => i =? b | None => false end); [apply simr_ok; repeat split; auto|now apply IH]|now apply IH].
  Qed.
  Lemma unnode_sim : forall root steps s s' i d k st, csim s s' -> simr qsim (reset_walk O c root steps s i d k st) (reset_walk O c root steps s' i d k st).
  Proof.
    intros root. induction steps as [|steps IH]; intros s s' i d k st H; [exact I|]. cbn [reset_walk]. destruct (_ && _); [|apply simr_ok; repeat split; auto].
    eapply simr_bind; [apply get_sim; exact H|]. intros n m En _ [cs [-> _]]. change (is_leaf O (set_counters O n cs)) with (is_leaf O n). cbn [parent child_left child_right set_counters].
    rewrite (avail_eq _ _ H). pose proof (avail_sim s s' (avail O s + 1) H) as H'. destruct (is_leaf O n).
    - eapply simr_bind; [apply reset_sim; exact H'|]. intros s1 s1' _ _ H1. destruct (i =? root); [apply simr_ok; repeat split; auto|]. destruct (_ <=? _); [apply simr_ok; repeat split; auto|]. now apply IH.
    - apply simr_same. intros v _. destruct (v =? -1); [apply simr_same; intros st1 _; destruct (_ <=? _); [apply simr_ok; repeat split; auto|now apply IH]|].
      destruct (v =? 0); [apply simr_same; intros st1 _; destruct (_ <=? _); [apply simr_ok; repeat split; auto|now apply IH]|].
      destruct (v =? 1); [|now apply IH]. eapply simr_bind; [apply reset_sim; exact H'|]. intros s1 s1' _ _ H1. destruct (i =? root); [apply simr_ok; repeat split; auto|]. apply simr_same. intros st1 _. now apply IH.
  Qed.
  Lemma unroot_sim : forall s s' i, csim s s' -> simr qsim (node_reset O c s i) (node_reset O c s' i).
  Proof. intros s s' i H. now apply unnode_sim. Qed.
  Lemma cut_sim : forall s s' i k, csim s s' -> simr csim (cut_block O c s i k) (cut_block O c s' i k).
  Proof.
    intros s s' i k H. unfold cut_block. eapply simr_bind; [apply get_sim; exact H|]. intros n m _ _ [cs [-> _]]. cbn [parent set_counters]. eapply simr_bind; [apply get_sim; exact H|]. intros p m _ _ [cs' [-> _]].
    cbn [parent child_left child_right set_counters]. destruct (_ =? -1).
    - eapply simr_bind; [apply reset_sim; exact H|]. intros s1 s1' _ _ H1. rewrite (avail_eq _ _ H1). apply avail_sim with (x := avail O s1 + 1) in H1.
      eapply simr_bind; [apply unroot_sim; exact H1|]. intros [s2 b2] [s2' b2'] _ _ [H2 _]. cbn [fst] in H2. eapply simr_bind; [apply root_sim; exact H2|]. intros s3 s3' _ _ H3.
      match goal with |- simr _ (change _ _ ?j _) _ => apply (change_plain s3 s3' j (fun b => set_parent O b (-1))); auto end.
    - eapply simr_bind.
      { match goal with |- simr _ (change _ _ ?j (fun g => Ok (if child_right O g =? ?a then set_children O g (child_left O g) ?b else _))) _ =>
          apply (change_plain s s' j (fun g => if child_right O g =? a then set_children O g (child_left O g) b else set_children O g b (child_right O g))); [exact H| | |] end.
        - intros g cg. cbn [child_left child_right set_counters]. now destruct (_ =? _).
        - intros g. now destruct (_ =? _).
        - intros g. now destruct (_ =? _). }
      intros s1 s1' _ _ H1. eapply simr_bind; [match goal with |- simr _ (change _ _ ?j _) _ => apply (change_plain s1 s1' j (fun b => set_parent O b (parent O p))); auto end|].
      intros s2 s2' _ _ H2. rewrite (avail_eq _ _ H2). apply avail_sim with (x := avail O s2 + 1) in H2. eapply simr_bind; [apply reset_sim; exact H2|]. intros s3 s3' _ _ H3.
      eapply simr_bind; [apply unroot_sim; exact H3|]. intros [s4 b4] [s4' b4'] _ _ [H4 _]. now apply simr_ok.
  Qed.
  Lemma trim_visit_sim : forall s s' i t, csim s s' -> (forall n, get s i = Ok n -> is_leaf O n = true) -> simr qsim (trim_visit O rnd c s i t) (trim_visit O rnd c s' i t).
  Proof.
    intros s s' i t H Lf. unfold trim_visit. eapply simr_bind; [apply get_sim; exact H|]. intros n m En _ [cs [-> [_ Hc]]]. rewrite Hc, set_same by (left; auto).
    assert (Keep : forall count, simr qsim
      (let (better, s1) := if nlt O (smallest O t) (nofZ O 0) || nlt O count (smallest O t) then (true, s) else if neq O count (smallest O t) then let (u, s1) := uniform O rnd s in (nlt O u (ndiv O (nofZ O 1) (nofZ O 2)), s1) else (false, s) in
       Ok (s1, if better : bool then mkTrim O (nadd O (leaf_count O t) (nofZ O 1)) (nadd O (leaf_sum O t) count) count i else mkTrim O (nadd O (leaf_count O t) (nofZ O 1)) (nadd O (leaf_sum O t) count) (smallest O t) (smallest_id O t)))
      (let (better, s1) := if nlt O (smallest O t) (nofZ O 0) || nlt O count (smallest O t) then (true, s') else if neq O count (smallest O t) then let (u, s1) := uniform O rnd s' in (nlt O u (ndiv O (nofZ O 1) (nofZ O 2)), s1) else (false, s') in
       Ok (s1, if better : bool then mkTrim O (nadd O (leaf_count O t) (nofZ O 1)) (nadd O (leaf_sum O t) count) count i else mkTrim O (nadd O (leaf_count O t) (nofZ O 1)) (nadd O (leaf_sum O t) count) (smallest O t) (smallest_id O t)))).
    { intros count. destruct (_ || _); [apply simr_ok; split; auto|]. destruct (neq O _ _); [|apply simr_ok; split; auto]. destruct (uniform_csim s s' H) as [A B]. destruct (uniform O rnd s) as [u s1], (uniform O rnd s') as [u' s1'].
      cbn [fst snd] in A, B. subst u'. apply simr_ok. split; auto. }
    cbv zeta. destruct (_ =? TRIM_COUNT); [apply simr_same; intros k _; apply Keep|]. destruct (_ =? TRIM_FADING).
    - replace (fading O s') with (fading O s) by (destruct H as [g [-> _]]; reflexivity). apply simr_same. intros k _. apply Keep.
    - destruct (_ =? TRIM_RANDOM); [|apply simr_ok; split; auto]. destruct (uniform_csim s s' H) as [A B]. destruct (uniform O rnd s) as [u s1], (uniform O rnd s') as [u' s1'].
      cbn [fst snd] in A, B. subst u'. apply simr_ok. split; auto.
  Qed.
  Lemma pick_sim : forall s s' i, csim s s' -> simr qsim (pick_trim O rnd c s i) (pick_trim O rnd c s' i).
  Proof.
    intros s s' i H. unfold pick_trim. rewrite (roots_eq _ _ H). apply simr_same. intros root _. unfold walk_from. eapply simr_bind; [apply walk_sim; [apply trim_visit_sim|exact H]|].
    intros [d [s1 t]] [d' [s1' t']] _ _ [Ed [H1 Et]]. cbn [fst snd] in *. subst. apply simr_ok. split; auto.
  Qed.
  Lemma trim_sim : forall s s', csim s s' -> simr csim (tree_trim O rnd c s) (tree_trim O rnd c s').
  Proof.
    intros s s' H. unfold tree_trim. apply simr_forZ; [exact H|]. clear s s' H. intros i s s' H. eapply simr_bind; [apply pick_sim; exact H|]. intros [s1 j] [s1' j'] _ _ [H1 Ej]. cbn [fst snd] in *. subst j'.
    rewrite (roots_eq _ _ H1). apply simr_same. intros root _. destruct (_ && _); [now apply cut_sim|now apply simr_ok].
  Qed.
  Lemma fade_sim : forall s s', csim s s' -> simr csim (tree_fade_counts O c s) (tree_fade_counts O c s').
  Proof.
    intros s s' H. unfold tree_fade_counts. apply simr_forZ; [exact H|]. clear s s' H. intros i s s' H. rewrite (roots_eq _ _ H). apply simr_same. intros root _. unfold walk_from.
    eapply simr_bind; [apply walk_sim; [|exact H]|].
    - clear. intros s s' i a H _. unfold fade_visit. sim. fields. apply simr_same. intros y _. apply simr_same. intros ys _. apply simr_ok. split; [|reflexivity]. exists g. auto.
    - intros [d [s1 t]] [d' [s1' t']] _ _ [Ed [H1 Et]]. now apply simr_ok.
  Qed.
  Lemma follow_sim : forall (A : Type) (visit : Z -> A -> res A) steps s s' i x a, csim s s' -> follow O visit steps s' i x a = follow O visit steps s i x a.
  Proof.
    intros A visit. induction steps as [|steps IH]; intros s s' i x a H; [reflexivity|]. cbn [follow].
    pose proof (get_sim s s' i H) as X. destruct (get s i) as [n| | |], (get s' i) as [n'| | |]; cbn in X; try contradiction; cbn [bind]; try congruence. destruct X as [cs [-> _]].
    cbn [split_dimension split_value child_left child_right set_counters]. change (is_leaf O (set_counters O n cs)) with (is_leaf O n). destruct (visit i a); cbn [bind]; try reflexivity. destruct (is_leaf O n); [reflexivity|].
    destruct (rd x _); cbn [bind]; try reflexivity. destruct (split_value O n); cbn [bind]; try reflexivity. auto.
  Qed.
  (** The free nodes are leaves. *)
  Definition free_leaves (s : coarse) : Prop := forall i n, get s i = Ok n -> available O n = true -> is_leaf O n = true.
  Lemma fresh_free : forall s i s', available_node O c s = Ok (i, s') -> 0 <= i -> exists n, get s i = Ok n /\ available O n = true.
  Proof.
    intros s i s' H Hi. unfold available_node in H. destruct (_ =? 0); [injection H as <- <-; lia|]. inv_bind H. destruct v as [j|]; [|injection H as <- <-; lia]. injection H as <- <-.
    revert E. generalize (Z.to_nat nc) at 1. intros m. generalize 0 at 1. induction m as [|m IH]; intros k E; [discriminate|]. cbn [findZ] in E. inv_bind E. destruct v as [r|]; [|eauto]. injection E as ->.
    inv_bind E0. inv_bind E0. destruct (available O v0) eqn:Av; [|discriminate]. injection E0 as <-. eauto.
  Qed.
  Lemma tree_sim : c_extend O c <> EXTEND_GHOST -> c_extend O c <> EXTEND_BARYCENTER -> forall s s' x label i, csim s s' -> free_leaves s ->
    simr qsim (train_tree O log_ rnd c s x label i) (train_tree O log_ rnd c s' x label i).
  Proof.
    intros K1 K2 s s' x label i H Fl. unfold train_tree. rewrite (roots_eq _ _ H). apply simr_same. intros root _. destruct (root =? -1).
    - eapply simr_bind; [apply fresh_sim; exact H|]. intros [r s1] [r' s1'] E1 _ [Er H1]. cbn [fst snd] in *. subst r'. destruct (Z.leb_spec 0 r) as [Hr|Hr]; [|apply simr_ok; split; auto].
      destruct (fresh_free _ _ _ E1 Hr) as [nf [F1 F2]]. specialize (Fl _ _ F1 F2). pose proof (fresh_same _ _ _ E1) as Es. eapply simr_bind; [apply root_sim; exact H1|]. intros s2 s2' E2 _ H2.
      eapply simr_bind; [apply (change_plain s2 s2' r (fun n => set_tau O (set_children O (set_parent O n (-1)) (-1) (-1)) (nofZ O 0))); auto|]. intros s3 s3' E3 _ H3. rewrite (avail_eq _ _ H3).
      pose proof H3 as [g3 [-> S3]]. fields. eapply simr_bind; [apply sample_sim; [exact S3|right]|].
      + intros n Hn. change (get s3 r = Ok n) in Hn. unfold set_root in E2. inv_bind E2. injection E2 as <-. destruct (change_inv _ _ _ _ _ E3) as [n0 [n1 [N1 [N2 N3]]]]. injection N2 as <-. subst s3. rewrite (get_put _ _ _ _ _ _ N1), Z.eqb_refl in Hn. injection Hn as <-.
        unfold Coarse_Model.get in N1, F1. fields. cbn [Mondrian_Model.nodes] in N1. rewrite Es in N1. rewrite F1 in N1. injection N1 as <-. exact Fl.
      + intros f f' _ _ S4. apply simr_ok. split; [|reflexivity]. cbn [fst]. exists f'. split; [reflexivity|exact S4].
    - replace (total O s') with (total O s) by (destruct H as [g [-> _]]; reflexivity). assert (Ec : count_fe_down O c s' root x = count_fe_down O c s root x).
      { unfold count_fe_down. destruct H as [g [-> S]]. fields. rewrite (follow_sim _ _ _ s (with_fr O s g)); [reflexivity|]. exists g. auto. }
      rewrite Ec. apply simr_same. intros summy _. rewrite (avail_eq _ _ H). match goal with |- simr _ (if ?b then _ else _) _ => destruct b end.
      + eapply simr_bind; [apply extend_sim; [exact K1|exact H]|]. intros s1 s1' _ _ H1. apply simr_ok. split; auto.
      + destruct (_ && _); [apply simr_ok; split; auto|]. destruct (Z.eqb_spec (c_extend O c) EXTEND_BARYCENTER); [now destruct K2|]. apply simr_ok. split; auto.
  Qed.
End Sim.
