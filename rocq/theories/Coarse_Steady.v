(** * Proofs for the coarse Mondrian forest: training all trees is defined *)
From Coq Require Import ZArith List Bool Lia Reals Lra Permutation.
From Verif Require Import CppBase CppFacts NumOps Utils_Model Mondrian_Model Mondrian_Spec Mondrian_Proofs Coarse_Model Coarse_Spec Coarse_Heap Coarse_Walk Coarse_Train Coarse_Trim Coarse_Forest Coarse_Reach Coarse_Tidy.
From Verif Require Unbound_Model Mondrian_Train Unbound_Train.
From Verif Require Import Coarse_Total Coarse_Defined Coarse_Fade Coarse_Trim_Total Coarse_Branch.
Import ListNotations.
Local Open Scope Z_scope.

Section Steady.
  Variable O : ops.
  Variable exp_ log_ : num O -> num O.
  Variable rnd : nat -> num O.
  Variable c : config O.
  Variable l0 : Z.
  Variable key : num O -> R.
  Variable cmp fine draw : num O -> Prop.
  Hypothesis L : laws O key cmp fine draw (c_features O c).
  Hypothesis F0 : fine (nofZ O 0).
  Hypothesis Hdraw : forall k, draw (rnd k).
  Hypothesis Hs : csizes O c l0.
  Local Notation n_ := (nofZ O).
  Local Notation node := (node O).
  Local Notation forest := (forest O).
  Local Notation coarse := (coarse O).
  Local Notation fr := (fr O).
  Local Notation nodes := (nodes O).
  Local Notation roots := (roots O).
  Local Notation get := (get O).
  Local Notation put := (put O).
  Local Notation avail := (avail O).
  Local Notation available := (available O).
  Local Notation counters := (counters O).
  Local Notation fc := (c_features O c).
  Local Notation lc := (c_labels O c).
  Local Notation nc := (c_nodes O c).
  Local Notation tc := (c_trees O c).
  Local Notation life := (c_life O c).
  Local Notation kind := (c_extend O c).
  Local Notation ctree := (ctree O).
  Local Notation ctop := (ctop O).
  Local Notation cids := (cids O).
  Local Notation csize := (csize O).
  Local Notation cost := (cost O).
  Local Notation height := (height O).
  Local Notation shape := (shape O).
  Local Notation stored := (stored O fc lc).
  Local Notation cpool := (cpool O c).
  Local Notation creached := (creached O exp_ log_ rnd c l0).
  Local Notation bounding := (bounding O fc).
  Local Notation fine_pt := (Mondrian_Train.fine_pt O fc fine).
  Local Notation able := (Unbound_Train.able_pick O draw fc).
  Local Notation def := (defined able).
  Let Tl : tlaws O := laws_tlaws O key cmp fine draw fc L.
  Let Hfc : 1 <= fc := proj1 (proj2 Hs).
  Let Hlife : nlt O life (nofZ O 0) = false := tl_used O Tl _ (proj2 (proj2 (proj2 (proj2 (proj2 Hs))))).

  Local Notation boxed := (boxed O c fine).
  Local Notation sound := (sound O c fine).
  Local Notation inv := (inv O c).
  Local Notation all_cids := (all_cids O).
  Local Notation cap := (cap O c).
  Local Notation capped := (capped).
  Local Notation first_limit := (first_limit O c).
  Hypothesis Hkind : kind <> EXTEND_BARYCENTER.
  Hypothesis Hsafe : trim_safe O rnd c.
  Hypothesis Hlow : cobble O c = true -> c_size_limit O c <= 101.

  (** ** Boxes are kept *)
  Definition wide (s : coarse) : Prop := sound s /\ Z.of_nat (length (nodes (fr s))) = nc.
  (** No extension was forced. *)
  Definition idle (s : coarse) : Prop := Forall (eq 0) (forced O s).
  Definition kept (s : coarse) : Prop := wide s /\ idle s.
  Lemma kept_quiet : forall s s', quiet O s s' -> kept s -> kept s'.
  Proof. intros s s' [[E _] [El Ef]] [[[A B] Ln] Id]. split; [split; [split|]; rewrite ?E, ?El; auto|]. unfold idle. now rewrite Ef. Qed.
  Lemma kept_change : forall s i g s', kept s -> (forall n n', boxed n -> g n = Ok n' -> boxed n') -> change O s i g = Ok s' -> kept s'.
  Proof. intros s i g s' [[A B] Id] G H. split; [split; [eapply sound_change; eauto|apply change_length in H; lia]|]. apply change_forced in H. unfold idle. now rewrite H. Qed.
  Lemma kept_reset : forall s i s', kept s -> reset_node O c s i = Ok s' -> kept s'.
  Proof.
    intros s i s' W H. unfold reset_node in H. inv_bind H. inv_bind H. inv_bind H. injection H as <-. eapply kept_change in E; [destruct E as [E Id]; split; [exact E|]|exact W|].
    - apply wr_inv in E0. destruct E0 as [_ ->]. unfold idle. cbn. apply Forall_upd; [exact Id|reflexivity].
    - intros n n' _ X. injection X as <-. eapply boxed_blank; eauto.
  Qed.
  Lemma kept_reset_walk : forall root steps s j depth i stack s' b, kept s -> reset_walk O c root steps s j depth i stack = Ok (s', b) -> kept s'.
  Proof.
    intros root. induction steps as [|steps IH]; intros s j depth i stack s' b W H; [discriminate|]. cbn [reset_walk] in H. destruct (_ && _) in H; [|injection H as <- <-; exact W].
    inv_bind H. destruct (is_leaf O v) in H.
    - inv_bind H. assert (W1 : kept v0) by (eapply kept_reset; [|exact E0]; exact W). destruct (_ =? _) in H; [injection H as <- _; exact W1|]. destruct (_ <=? _) in H; [injection H as <- _; exact W1|]. eapply IH; eauto.
    - inv_bind H. destruct (_ =? -1) in H; [inv_bind H; destruct (_ <=? _) in H; [injection H as <- _; exact W|eapply IH; eauto]|].
      destruct (_ =? 0) in H; [inv_bind H; destruct (_ <=? _) in H; [injection H as <- _; exact W|eapply IH; eauto]|].
      destruct (_ =? 1) in H.
      + inv_bind H. assert (W1 : kept v1) by (eapply kept_reset; [|exact E1]; exact W). repeat (inv_bind H || destruct (_ =? _) in H || destruct (_ <=? _) in H); try discriminate; try (injection H as <- _; exact W1); eapply IH; eauto.
      + repeat (inv_bind H || destruct (_ =? _) in H || destruct (_ <=? _) in H); try discriminate; try (injection H as <- _; exact W); eapply IH; eauto.
  Qed.
  Lemma kept_cut : forall s j k s', cut_block O c s j k = Ok s' -> kept s -> kept s'.
  Proof.
    intros s j k s' H W. unfold cut_block in H. inv_bind H. inv_bind H. destruct (_ =? -1) in H.
    - inv_bind H. assert (W1 : kept v1) by (eapply kept_reset; eauto). inv_bind H. destruct v2 as [s2 b]. assert (W2 : kept s2) by (eapply kept_reset_walk; [|exact E2]; exact W1). inv_bind H.
      eapply kept_change; [| |exact H]; [|intros n n' G X; injection X as <-; exact G]. unfold set_root in E3. inv_bind E3. injection E3 as <-. exact W2.
    - inv_bind H. assert (W1 : kept v1). { eapply kept_change; [exact W| |exact E1]. intros n n' G X. injection X as <-. destruct (child_right O n =? _); exact G. }
      inv_bind H. assert (W2 : kept v2). { eapply kept_change; [exact W1| |exact E2]. intros n n' G X. injection X as <-. exact G. }
      inv_bind H. assert (W3 : kept v3) by (eapply kept_reset; [|exact E3]; exact W2). inv_bind H. destruct v4 as [s4 b]. injection H as <-. eapply kept_reset_walk; eauto.
  Qed.
  (** ** Fading and trimming *)
  Lemma height_size : forall t, height t <= csize t.
  Proof. induction t as [i cs|i d v cs l IHl r IHr]; [unfold Coarse_Walk.csize; cbn; lia|]. rewrite csize_fork. cbn [Coarse_Spec.height]. pose proof (csize_pos O l). pose proof (csize_pos O r). lia. Qed.
  Definition calm (N : Z) (o : option ctree) : Prop :=
    (cobble O c = true -> Coarse_Reach.low O c o) /\ match o with Some t => cap N t /\ 1 <= N /\ (2 <= N \/ exists i cs, t = CLeaf i cs) | None => True end.
  Lemma cap_cut : forall N j t t', cut O j t t' -> cap N t -> cap N t'.
  Proof. intros N j t t' H. induction H as [left i d v cs cj u| |]; cbn [Coarse_Defined.cap]; [|tauto|tauto]. unfold fork_side. destruct left; cbn [Coarse_Defined.cap]; tauto. Qed.
  Lemma calm_trimmed : forall N o o', trimmed O o o' -> calm N o -> calm N o'.
  Proof.
    intros N o o' T [A B]. split; [intros Cb; eapply low_trimmed; eauto|]. destruct T as [->|[j [t [t' [-> [-> C]]]]]]; [exact B|]. destruct B as [B1 [B2 B3]]. split; [eapply cap_cut; eauto|]. split; [exact B2|].
    destruct B3 as [B3|[i [cs ->]]]; [auto|inversion C]. unfold fork_side in *. destruct left; discriminate.
  Qed.
  (** The trees that are counted again after every point exist after the first one. *)
  Definition planted (ts : list (option ctree)) : Prop := c_optimize O c = true -> Forall (eq None) ts \/ Forall (fun o => o <> None) ts.
  Lemma planted_same : forall ts ts', Forall2 (fun o o' => o = None <-> o' = None) ts ts' -> planted ts -> planted ts'.
  Proof.
    intros ts ts' F P E. destruct (P E) as [X|X]; [left|right]; clear P; induction F as [|o o' ts ts' H F IH]; constructor; inversion X; subst; auto; [symmetry; apply H; auto|tauto].
  Qed.
  Lemma prepared : forall s ts, inv s ts -> kept s -> exists s1 s2 ts2, (if c_trim O c =? TRIM_FADING then tree_fade_counts O c s else Ok s) = Ok s1 /\
    (if negb (c_trim O c =? TRIM_NONE) && (avail s1 <=? 1) && (total O s1 mod 100 =? 0) then tree_trim O rnd c s1 else Ok s1) = Ok s2 /\
    Forall2 (trimmed O) ts ts2 /\ inv s2 ts2 /\ kept s2 /\ same O s s2.
  Proof.
    intros s ts V W. assert (X : exists s1, (if c_trim O c =? TRIM_FADING then tree_fade_counts O c s else Ok s) = Ok s1 /\ quiet O s s1).
    { destruct (_ =? _); [|exists s; split; [reflexivity|apply quiet_refl]]. destruct (fade_def O log_ rnd c s ts V) as [s1 E]. exists s1. split; [exact E|]. now apply fade_quiet in E. }
    destruct X as [s1 [E1 Q1]]. pose proof (inv_same O c _ _ _ (proj1 Q1) V) as V1. pose proof (kept_quiet _ _ Q1 W) as W1. exists s1.
    destruct (negb (c_trim O c =? TRIM_NONE) && (avail s1 <=? 1) && (total O s1 mod 100 =? 0)) eqn:B.
    - apply andb_prop in B. destruct B as [B _]. apply andb_prop in B. destruct B as [B _]. apply negb_true_iff, Z.eqb_neq in B.
      destruct (trim_def O log_ rnd c Tl Hlife kept s1 ts kept_quiet kept_cut Hsafe B V1 W1) as [s2 [ts2 [E2 [F [V2 [S2 W2]]]]]]. exists s2, ts2. repeat (split; [assumption|]). eapply same_trans; [apply Q1|exact S2].
    - exists s1, ts. repeat (split; [solve [auto]|]). split; [clear; induction ts; constructor; auto; now left|]. split; [exact V1|]. split; [exact W1|apply Q1].
  Qed.
  Lemma trimmed_planted : forall ts ts', Forall2 (trimmed O) ts ts' -> planted ts -> planted ts'.
  Proof. intros ts ts' F. apply planted_same. induction F as [|o o' ts ts' T F IH]; constructor; auto. destruct T as [->|[j [t [t' [-> [-> _]]]]]]; [tauto|split; discriminate]. Qed.

  (** ** Counters *)
  Lemma capped_bumped : forall N label cs, 0 <= N -> capped N cs -> capped (N + 1) (bumped label cs).
  Proof.
    intros N label cs HN H. assert (K : 0 <= at_label label cs <= N) by (unfold at_label; destruct (nth_in_or_default (Z.to_nat label) cs 0) as [I|E]; [unfold capped in H; rewrite Forall_forall in H; now apply H|rewrite E; lia]). unfold capped, bumped. apply Forall_upd; [|lia]. eapply Forall_impl; [|exact H]. cbn. intros; lia.
  Qed.
  Lemma capped_more : forall N cs, capped N cs -> capped (N + 1) cs.
  Proof. intros N cs H. eapply Forall_impl; [|exact H]. cbn. intros; lia. Qed.
  Lemma cap_more : forall N t, cap N t -> cap (N + 1) t.
  Proof. intros N t. induction t as [i cs|i d v cs l IHl r IHr]; cbn [Coarse_Defined.cap]; [apply capped_more|]. intros [A [B C]]. split; [intros K; apply capped_more; auto|auto]. Qed.
  Lemma cap_single : forall N label b, 0 <= N -> cap (N + 1) (single O lc label b).
  Proof. intros N label b HN. apply capped_bumped; [exact HN|]. apply Forall_forall. intros v Hv. apply repeat_spec in Hv. lia. Qed.
  Lemma cap_grown : forall N label x room D b t t', 0 <= N -> grown O kind lc label x room D b t t' -> cap N t -> cap (N + 1) t'.
  Proof.
    intros N label x room D b t t' HN G. induction G; cbn [Coarse_Defined.cap]; auto.
    - now apply capped_bumped.
    - intros [A [B C]]. split; [intros K; unfold passed; rewrite K, Z.eqb_refl; apply capped_bumped; auto|]. split; [auto|now apply cap_more].
    - intros [A [B C]]. split; [intros K; unfold passed; rewrite K, Z.eqb_refl; apply capped_bumped; auto|]. split; [now apply cap_more|auto].
    - intros [A [B C]]. split; [intros K; unfold passed; rewrite K, Z.eqb_refl; apply capped_bumped; auto|]. split; now apply cap_more.
    - intros C. assert (I : kind = EXTEND_GHOST -> capped (N + 1) (inherited O kind lc label t)).
      { intros K. unfold inherited. rewrite K. change (EXTEND_GHOST =? EXTEND_ORIGINAL) with false. rewrite Z.eqb_refl. apply capped_bumped; [exact HN|]. destruct t; [exact C|]. destruct C as [C _]. now apply C. }
      unfold fork_side. destruct left; cbn [Coarse_Defined.cap]; (split; [exact I|]); split; (now apply cap_more) || (now apply cap_single).
    - intros C. assert (I : kind = EXTEND_GHOST -> capped (N + 1) (inherited O kind lc label t)) by (intros K; rewrite K in H; discriminate).
      unfold fork_side. destruct left; cbn [Coarse_Defined.cap]; (split; [exact I|]); split; (now apply IHG) || (now apply cap_single).
    - intros C. destruct t; cbn [bump_top Coarse_Defined.cap] in *; [now apply capped_bumped|]. destruct C as [A [B C]]. split; [intros K; apply capped_bumped; auto|]. split; now apply cap_more.
    - apply cap_more.
  Qed.
  Lemma calm_step : forall N x label s s' o o', 0 <= N -> tree_step O c x label s s' o o' -> calm N o -> calm (N + 1) o'.
  Proof.
    intros N x label s s' o o' HN T [A B]. split.
    - intros Cb. specialize (A Cb). inversion T; subst; cbn in *; auto; [lia|]. match goal with G : grown _ _ _ _ _ _ _ _ _ _ |- _ => pose proof (grown_height O c label x _ _ _ _ Cb G) end. lia.
    - inversion T; subst; auto.
      + split; [apply cap_single; exact HN|]. split; [lia|]. right. unfold single. eauto.
      + destruct B as [B1 [B2 B3]]. split; [eapply cap_grown; eauto|]. split; [lia|]. left. lia.
      + destruct B as [B1 [B2 B3]]. split; [now apply cap_more|]. split; [lia|]. left. lia.
  Qed.
  Lemma calm_alike : forall N o o', kind <> EXTEND_GHOST -> oalike O o o' -> calm N o -> calm N o'.
  Proof.
    intros N o o' K Al [A B]. split; [intros Cb; eapply low_alike; eauto|]. destruct o as [t|], o' as [t'|]; try contradiction; [|exact I]. destruct B as [B1 [B2 B3]]. split; [eapply cap_alike_other; eauto|]. split; [exact B2|].
    destruct B3 as [B3|[i [cs ->]]]; [auto|]. right. inversion Al; subst. eauto.
  Qed.
  Section Point.
    Variable x : list (num O).
    Variable label : Z.
    Hypothesis Hx : Z.of_nat (length x) = fc.
    Hypothesis Hlab : 0 <= label < lc.
    Hypothesis Fx : fine_pt (x, label).
    Let Hx' : length x = Z.to_nat fc.
    Proof. lia. Qed.
    Lemma wide_leaf : forall s i s', wide s -> add_leaf O s i label = Ok s' -> wide s'.
    Proof.
      intros s i s' [W1 W2] H. split; [eapply sound_leaf; eauto|]. unfold add_leaf in H. inv_bind H. apply change_length in E. unfold add_fading in H. inv_bind H. inv_bind H. injection H as <-. cbn. lia.
    Qed.
    Lemma wide_split : forall s n i k probs sum time s', wide s -> split_above O rnd c s n i k x probs sum time label = Ok s' -> wide s'.
    Proof.
      intros s n i k probs sum time s' [W1 W2] H. split; [eapply (sound_split O rnd c l0 key cmp fine draw L Hs x label Hx Fx); eauto|]. unfold split_above in H. inv_bind H. destruct v as [f [d [up sp]]]. destruct (choose_split_inv O rnd c x Hx _ _ _ _ _ _ _ _ E) as [Nf _].
      inv_bind H. destruct v as [a s1]. pose proof (available_length _ _ _ _ _ E0) as L1. cbn in L1. rewrite Nf in L1. inv_bind H. rename v into s2. pose proof (change_length _ _ _ _ _ E1) as L2.
      inv_bind H. destruct v as [b s3]. pose proof (available_length _ _ _ _ _ E2) as L3. inv_bind H. rename v into s4.
      assert (L4 : length (nodes (fr s4)) = length (nodes (fr s3))).
      { unfold parent_counters in E3. destruct (_ =? EXTEND_ORIGINAL); [apply change_length in E3; exact E3|]. destruct (_ =? EXTEND_GHOST); [|injection E3 as <-; reflexivity]. inv_bind E3. apply change_length in E3, E4. cbn in *. lia. }
      inv_bind H. injection H as <-. cbn. rename v into f5. enough (length (nodes f5) = length (nodes (fr s4))) by lia. clear -E4.
      unfold insert_above in E4. repeat (inv_bind E4; match goal with E : joined_box _ _ _ _ = Ok ?v |- _ => destruct v; clear E | _ => idtac end).
      assert (W : forall f i g f', with_node O f i g = Ok f' -> length (nodes f') = length (nodes f)) by (intros f9 i9 g9 f8 X; apply with_node_inv in X; destruct X as [m8 [m9 [_ [_ ->]]]]; apply put_length).
      repeat match goal with E : with_node _ _ _ _ = Ok _ |- _ => apply W in E end.
      assert (W4 : length (nodes v6) = length (nodes v3)). { destruct (_ && _) in E7; [|now apply W in E7]. inv_bind E7. injection E7 as <-. reflexivity. }
      destruct v11 as [bl bu]. apply W in E4. congruence.
    Qed.
    Lemma wide_extend : forall steps s i k s', wide s -> extend_block O log_ rnd c steps s i k x label = Ok s' -> wide s'.
    Proof.
      induction steps as [|steps IH]; intros s i k s' W H; [discriminate|]. rewrite extend_S in H.
      assert (Ds : forall s s', wide s -> descend O log_ rnd c k x label steps s i = Ok s' -> wide s').
      { clear s s' W H. intros s s' W H. unfold descend in H. inv_bind H. destruct (is_leaf O v); [eapply wide_leaf; eauto|]. inv_bind H. inv_bind H. inv_bind H.
        assert (W1 : wide v2) by (destruct (nle O _ _) in E2; [eapply IH; eauto|]; destruct (nlt O _ _) in E2; [eapply IH; eauto|injection E2 as <-; exact W]).
        destruct (_ =? _) in H; [|injection H as <-; exact W1]. destruct W1 as [A B]. split; [eapply sound_label; eauto|]. apply change_length in H. lia. }
      inv_bind H. inv_bind H. inv_bind H. destruct v1 as [probs sum].
      assert (SD : exists e s0, draw_time O log_ rnd s sum = (e, s0) /\ nodes (fr s0) = nodes (fr s) /\ last O s0 = last O s).
      { unfold draw_time, Coarse_Model.uniform, Mondrian_Model.uniform. destruct (neq O sum (n_ 0)); eexists; eexists; (split; [reflexivity|]); repeat split. }
      destruct SD as [e [s0 [E2 [N0 La0]]]]. rewrite E2 in H. assert (W0 : wide s0) by (destruct W as [[A B] D]; split; [split|]; rewrite ?N0, ?La0; auto). clear W. inv_bind H.
      destruct (_ && _ && _ && _) in H.
      - inv_bind H. assert (W1 : wide v2) by (eapply wide_split; eauto). destruct (_ =? _) in H; [eapply Ds; eauto|injection H as <-; exact W1].
      - destruct (_ || _ || _) in H.
        + inv_bind H. apply (Ds v2); [|exact H]. destruct W0 as [A B]. split; [eapply sound_change; [exact A| |exact E4]; intros m m' Hm Hm'; eapply (boxed_update O c l0 key cmp fine draw L Hs x label Hx Fx); eauto|]. apply change_length in E4. lia.
        + destruct (_ =? EXTEND_GHOST) in H; [eapply wide_leaf; eauto|]. destruct (_ =? _) in H; [eapply Ds; eauto|injection H as <-; exact W0].
    Qed.
    Lemma wide_tree : forall s i s' b, wide s -> train_tree O log_ rnd c s x label i = Ok (s', b) -> wide s'.
    Proof.
      intros s i s' b W H. unfold train_tree in H. inv_bind H. destruct (v =? -1).
      - inv_bind H. destruct v0 as [a s1]. assert (W1 : wide s1). { destruct W as [A B]. split; [eapply sound_available; [exact Hs| |exact E0|exact A]; exact B|]. apply available_length in E0. lia. }
        destruct (0 <=? a); [|injection H as <- <-; exact W1]. inv_bind H. unfold set_root in E1. inv_bind E1. injection E1 as <-. inv_bind H.
        assert (W2 : wide v0). { destruct W1 as [[A A'] B]. split; [eapply sound_change; [| |exact E1]; [split; [exact A|exact A']|]; intros m m' Hm Hm'; injection Hm' as <-; exact Hm|]. apply change_length in E1. cbn in E1. lia. }
        inv_bind H. injection H as <- <-. destruct W2 as [[A A'] B]. split; [split; [|exact A']|]; cbn.
        + eapply (boxed_sample O c l0 key cmp fine draw L Hs x label Hx Fx); [|exact E3]. exact A.
        + apply sample_block_inv in E3. destruct E3 as [q [bx [_ [_ ->]]]]. rewrite put_length. exact B.
      - inv_bind H. destruct (_ || _ || _ || _) in H; [inv_bind H; injection H as <- <-; eapply wide_extend; eauto|]. destruct (_ && _) in H; [injection H as <- <-; exact W|].
        rewrite (proj2 (Z.eqb_neq kind EXTEND_BARYCENTER)) in H by exact Hkind. injection H as <- <-. exact W.
    Qed.

    (** ** One tree *)
    Lemma limit_cobble : cobble O c = true -> first_limit = c_size_limit O c.
    Proof.
      intros Cb. unfold Coarse_Model.first_limit. unfold cobble in Cb. rewrite Cb. destruct (Z.eqb_spec (c_manage O c) ROBUR_MANAGEMENT) as [X|X]; [rewrite X in Cb; discriminate|reflexivity].
    Qed.
    Lemma tree_def : forall N s ts i o, 0 <= N < 2147483647 -> inv s ts -> nth_error ts i = Some o -> kept s -> (exists z, rdi (size O s) (Z.of_nat i) = Ok z) -> calm N o -> def (train_tree O log_ rnd c s x label (Z.of_nat i)).
    Proof.
      intros N s ts i o HN V Hi [[So Ln] Id] Hz [Lo Cm]. pose proof V as [H1 [H2 [H3 [H4 H5]]]]. destruct (H2 i o Hi) as [Hr St]. assert (Li : (i < length ts)%nat) by (apply nth_error_Some; congruence). unfold train_tree. rewrite Hr. cbn [bind]. pose proof Hs as [_ [_ [_ [Bn _]]]]. pose proof H3 as [P1 [P2 [P3 [P4 [P5 P6]]]]].
      destruct o as [t|]; cbn [rid].
      - assert (Bt : 0 <= ctop t < nc) by (apply P3; apply all_cids_in with i (Some t); auto; apply ctop_in). rewrite (proj2 (Z.eqb_neq (ctop t) (-1))) by lia.
        assert (X : exists w, (if c_fe_trigger O c =? SPLIT_TRIGGER_TOTAL then Ok (to_int (total O s)) else if c_fe_trigger O c =? SPLIT_TRIGGER_SFE then count_fe_down O c s (ctop t) x else Ok 0) = Ok w).
        { destruct (_ =? SPLIT_TRIGGER_TOTAL); [eauto|]. destruct (_ =? SPLIT_TRIGGER_SFE); [|eauto]. unfold count_fe_down. destruct (tree_ids O c s ts i t V Hi) as [_ [It [Sz _]]]. cbn [rid] in *.
          destruct (follow_def O c x label Hx Hlab Z (fun i k => do fe <- rd (forced O s) i; sint (k + fe)) (eq 0) t s (-1) (fuel O c) 0) as [j [a [E _]]]; auto.
          - intros q a Hq <-. destruct H4 as [_ [A2 _]]. destruct (rd_in_bounds _ (forced O s) q) as [w W]; [rewrite A2; now apply It|]. rewrite W. cbn [bind]. pose proof (rd_Forall _ _ _ _ _ Id W) as <-. exists 0. auto.
          - pose proof (height_size t). unfold fuel. lia.
          - rewrite E. cbn [bind]. eauto. }
        destruct X as [w ->]. cbn [bind]. destruct (_ || _ || _ || _).
        + apply defined_bind; [|intros; apply defined_ok]. destruct Cm as [C2 [C3 C4]]. assert (C1 : cobble O c = true -> height t <= 101) by (intros Cb; specialize (Lo Cb); cbn in Lo; specialize (Hlow Cb); pose proof (limit_cobble Cb); lia). pose proof (inv_before _ _ _ _ _ _ V Hi) as Bf.
          apply (extend_def O exp_ log_ rnd c l0 key cmp fine draw L Hdraw Hs x label Hx Hlab Fx (Z.of_nat i) (rd (limit O s) (Z.of_nat i)) N HN) with (p := -1) (rest := all_cids (upd ts i None)) (D := 0).
          * rewrite H5. rewrite rd_repeat by lia. eauto.
          * split; auto; [destruct H4 as [_ [_ X]]; exact X|eauto|lia].
          * pose proof (before_sizes O c l0 Hs x Hx _ _ _ _ _ _ _ Bf) as Y. lia.
        + destruct (_ && _); [apply defined_ok|]. rewrite (proj2 (Z.eqb_neq kind EXTEND_BARYCENTER)) by exact Hkind. apply defined_ok.
      - change (-1 =? -1) with true. cbv iota. destruct (Z.eq_dec (avail s) 0) as [Z0|Nz].
        + unfold available_node. rewrite Z0. cbn. apply defined_ok.
        + pose proof (cpool_avail O c [] s _ H3) as [Av _]. destruct (spare_node O c s _ H3) as [j [nj [Hj Aj]]]; [lia|]. destruct (available_node_found O c s j nj Hj Aj Nz P1 (proj2 So)) as [a [ma [Ea [Ga [Aa Ba]]]]]; [lia|]. rewrite Ea. cbn [bind].
          rewrite (proj2 (Z.leb_le 0 a)) by lia. unfold set_root. pose proof (rd_bounds _ _ _ _ Hr) as Br. cbn [Coarse_Model.fr with_last]. rewrite wr_ok by lia. cbn [bind].
          set (s1 := with_fr O (with_last O s a) _). assert (Ga1 : rd (nodes (fr s1)) a = Ok ma) by exact Ga. unfold change. erewrite with_node_ok; [|exact Ga1|reflexivity]. cbn [bind Coarse_Model.fr with_fr with_avail].
          rewrite (sample_eq O c l0 Hs x label Hx). pose proof (P6 a ma Ga Aa) as ->. erewrite with_node_ok; [cbn [bind]; apply defined_ok|rewrite rd_put with (m := blank_node O c) by exact Ga1; rewrite Z.eqb_refl; reflexivity|].
          cbn [Mondrian_Model.counters set_tau set_children set_parent blank_node]. rewrite rd_repeat by lia. cbn [bind]. change (sint (0 + 1)) with (Ok 1). cbn [bind]. rewrite wr_ok by (rewrite repeat_length; lia). reflexivity.
    Qed.
    Lemma tree_same : forall s ts i o s' b, inv s ts -> nth_error ts i = Some o -> train_tree O log_ rnd c s x label (Z.of_nat i) = Ok (s', b) -> same O s s'.
    Proof.
      intros s ts i o s' b V Hi H. pose proof V as [H1 [H2 [H3 [H4 H5]]]]. destruct (H2 i o Hi) as [Hr St]. unfold train_tree in H. rewrite Hr in H. cbn [bind] in H. pose proof H3 as [P1 [P2 [P3 [P4 [P5 P6]]]]].
      destruct o as [t|]; cbn [rid] in H.
      - assert (Bt : 0 <= ctop t < nc) by (apply P3; apply all_cids_in with i (Some t); auto; apply ctop_in). rewrite (proj2 (Z.eqb_neq (ctop t) (-1))) in H by lia. inv_bind H. clear E.
        destruct (_ || _ || _ || _) in H.
        + inv_bind H. injection H as <- <-. pose proof (inv_before _ _ _ _ _ _ V Hi) as Bf. destruct (extend_ok O log_ rnd c Tl Hlife _ _ x label Hx _ _ _ _ _ _ _ Bf E) as [t' [G A]]. apply A.
        + destruct (_ && _) in H; [injection H as <- <-; apply same_refl|]. rewrite (proj2 (Z.eqb_neq kind EXTEND_BARYCENTER)) in H by exact Hkind. injection H as <- <-. apply same_refl.
      - change (-1 =? -1) with true in H. cbv iota in H. inv_bind H. destruct v as [a s1]. apply available_node_inv in E. destruct E as [[-> ->]|[n [Ga [Aa ->]]]]; [injection H as <- <-; apply same_refl|].
        destruct (0 <=? a); [|injection H as <- <-; repeat split]. inv_bind H. unfold set_root in E. inv_bind E. injection E as <-. inv_bind H. apply change_inv in E. destruct E as [m [m' [_ [_ ->]]]]. inv_bind H. injection H as <- <-. repeat split.
    Qed.

    (** ** All trees *)
    Local Notation body := (fun i '(s, fully_trained) =>
       do (s, has_trained) <- train_tree O log_ rnd c s x label i;
       do s <- (if c_optimize O c then update_branch O c s i x label else Ok s);
       Ok (s, if negb has_trained then false else fully_trained)).
    Lemma body_step : forall N s ts i o b, 0 <= N < 2147483647 -> inv s ts -> nth_error ts i = Some o -> kept s -> (exists z, rdi (size O s) (Z.of_nat i) = Ok z) -> calm N o -> (c_optimize O c = true -> o = None -> avail s <> 0) ->
      def (body (Z.of_nat i) (s, b)) /\ forall s' b', body (Z.of_nat i) (s, b) = Ok (s', b') ->
        exists o', inv s' (upd ts i o') /\ kept s' /\ same O s s' /\ calm (N + 1) o' /\ (c_optimize O c = true -> o' <> None /\ (o = None -> length (oids O o') = 1%nat)).
    Proof.
      intros N s ts i o b HN V Hi [W Id] Hz Cm Av. assert (Li : (i < length ts)%nat) by (apply nth_error_Some; congruence).
      assert (Tr : forall s1 b1, train_tree O log_ rnd c s x label (Z.of_nat i) = Ok (s1, b1) -> exists o1, inv s1 (upd ts i o1) /\ kept s1 /\ same O s s1 /\ calm (N + 1) o1 /\ (c_optimize O c = true -> o1 <> None /\ (o = None -> length (oids O o1) = 1%nat))).
      { intros s1 b1 E. destruct (train_tree_ok O exp_ log_ rnd c Tl Hlife x label Hx Hkind _ _ _ _ _ _ V Hi E) as [o1 [T [_ V1]]]. exists o1. split; [exact V1|]. split; [split; [eapply wide_tree; eauto|unfold idle; rewrite (tree_forced O log_ rnd c x label _ _ _ _ Hkind E); exact Id]|].
        split; [eapply tree_same; eauto|]. split; [eapply calm_step; eauto; lia|]. intros Op. specialize (Av Op). inversion T; subst; [|split; [discriminate|reflexivity]|split; discriminate|split; discriminate].
        exfalso. specialize (Av eq_refl). rewrite upd_same_id in V1 by exact Hi. pose proof V as [_ [_ [C1 _]]]. destruct V1 as [_ [_ [C2 _]]]. apply (cpool_avail O c x) in C1, C2. lia. }
      destruct (c_optimize O c) eqn:Op.
      - split.
        + apply defined_bind; [eapply tree_def; eauto; split; auto|]. intros [s1 b1] E. apply defined_bind; [|intros; apply defined_ok]. destruct (Tr s1 b1 E) as [o1 [V1 [_ [_ [_ X]]]]]. destruct (X eq_refl) as [X1 _]. destruct o1 as [t|]; [|congruence].
          assert (Hi1 : nth_error (upd ts i (Some t)) i = Some (Some t)) by now apply nth_error_upd_same. destruct (tree_ids O c s1 _ i t V1 Hi1) as [ND [It [Sz _]]]. pose proof V1 as [_ [H2 _]]. destruct (H2 i _ Hi1) as [Hr St].
          left. apply (branch_def O c x label Hx Hlab s1 t); auto; [apply It, ctop_in|]. pose proof (height_size t). lia.
        + intros s' b' H. assert (H0 := H). inv_bind H. destruct v as [s1 b1]. inv_bind H. injection H as -> _. destruct (Tr s1 b1 E) as [o1 [V1 [[W1 Id1] [S1 [C1 X]]]]]. destruct (X eq_refl) as [X1 X2]. destruct o1 as [t|]; [|congruence].
          assert (Hi1 : nth_error (upd ts i (Some t)) i = Some (Some t)) by now apply nth_error_upd_same. destruct (tree_ids O c s1 _ i t V1 Hi1) as [ND [It [Sz _]]]. pose proof V1 as [_ [H2 _]]. destruct (H2 i _ Hi1) as [Hr St].
          destruct (train_body O exp_ log_ rnd c Tl Hlife x label Hx Hkind s b i ts o s' b' V Hi) as [o' [_ [_ V']]]; [rewrite Op; exact H0|].
          pose proof (update_branch_ok O c _ _ _ _ _ E0) as [R1 [R2 R3]]. destruct (recounted_stored O c t _ _ _ R1 St) as [t2 [Al St2]]. destruct (alike_facts O _ _ Al) as [T1 [T2 _]].
          assert (Hi2 : nth_error (upd ts i o') i = Some o') by now apply nth_error_upd_same. pose proof V' as [_ [H2' _]]. destruct (H2' i _ Hi2) as [Hr' St']. destruct R1 as [Rr Rn]. rewrite Rr, Hr in Hr'. cbn [rid] in Hr'. injection Hr' as Hr'.
          assert (o' = Some t2).
          { destruct o' as [t'|]; cbn [rid] in Hr'; [f_equal; apply (stored_unique O c x t' t2 (fr s') (-1)); auto; congruence|]. pose proof (It _ (ctop_in O t)). lia. }
          subst o'. exists (Some t2). split; [exact V'|]. split.
          * destruct (branch_forced O c x label _ _ _ E0) as [F1 F2]. split; [|unfold idle; now rewrite F1]. destruct W1 as [So Ln]. split; [|rewrite (branch_length O c x label _ _ _ E0); exact Ln]. eapply sound_recounted; [split; [exact Rr|exact Rn]|exact F2|exact So].
          * split; [eapply same_trans; eauto|]. split.
            { destruct C1 as [L1 [K1 [K2 K3]]]. split; [intros Cb; eapply low_alike; [|exact (L1 Cb)]; exact Al|]. split; [eapply (branch_cap O c x label Hlab (N + 1) s1 t t2); eauto|]. split; [exact K2|]. destruct K3 as [K3|[q [cs ->]]]; [auto|]. right. inversion Al; subst. eauto. }
            { intros _. split; [discriminate|]. intros Eo. cbn [oids]. rewrite T2. exact (X2 Eo). }
      - split.
        + apply defined_bind; [eapply tree_def; eauto; split; auto|]. intros [s1 b1] E. apply defined_bind; [apply defined_ok|intros; apply defined_ok].
        + intros s' b' H. inv_bind H. destruct v as [s1 b1]. cbn [bind] in H. injection H as -> _. destruct (Tr s' b1 E) as [o1 X]. exists o1. exact X.
    Qed.
    Definition going (N : Z) (s : coarse) (ts : list (option ctree)) (j : Z) (st : coarse * bool) : Prop :=
      0 <= j /\ exists ts', inv (fst st) ts' /\ kept (fst st) /\ same O s (fst st) /\ (forall i, j <= Z.of_nat i -> nth_error ts' i = nth_error ts i) /\
        (forall i o, Z.of_nat i < j -> nth_error ts' i = Some o -> calm (N + 1) o /\ (c_optimize O c = true -> o <> None)) /\ (c_optimize O c = true -> Forall (eq None) ts -> Z.of_nat (length (all_cids ts')) = j).
    Lemma going_step : forall N s ts j st, 0 <= N < 2147483647 -> Z.of_nat (length ts) = tc -> Forall (calm N) ts -> planted ts -> (forall k, 0 <= k < tc -> exists z, rdi (size O s) k = Ok z) -> 0 <= j < tc -> (c_optimize O c = true -> Forall (eq None) ts -> j < nc) -> going N s ts j st ->
      def (body j st) /\ forall st', body j st = Ok st' -> going N s ts (j + 1) st'.
    Proof.
      intros N s ts j [s1 b1] HN Ln Cm Pl Hz Hj Room [_ [ts' [V [K [Sm [Nx [Dn Fr]]]]]]]. cbn [fst] in *.
      destruct (nth_error ts (Z.to_nat j)) as [o|] eqn:Ho; [|apply nth_error_None in Ho; lia]. pose proof (Nx (Z.to_nat j) ltac:(lia)) as Ho'. rewrite Ho in Ho'.
      assert (Fre : c_optimize O c = true -> o = None -> Forall (eq None) ts). { intros Op ->. destruct (Pl Op) as [X|X]; [exact X|]. rewrite Forall_forall in X. exfalso. apply (X None); [now apply nth_error_In with (Z.to_nat j)|reflexivity]. }
      destruct (body_step N s1 ts' (Z.to_nat j) o b1 HN V Ho' K) as [D St]; [| | |rewrite Z2Nat.id in D, St by lia; split; [exact D|]].
      - destruct Sm as [_ [-> _]]. apply Hz. lia.
      - rewrite Forall_forall in Cm. apply Cm. now apply nth_error_In with (Z.to_nat j).
      - intros Op Eo. specialize (Fr Op (Fre Op Eo)). pose proof V as [_ [_ [C1 _]]]. apply (cpool_avail O c x) in C1. specialize (Room Op (Fre Op Eo)). lia.
      - intros [s2 b2] H. destruct (St s2 b2 H) as [o' [V' [K' [S' [C' X']]]]]. assert (Li : (Z.to_nat j < length ts')%nat) by (apply nth_error_Some; congruence).
        split; [lia|]. cbn [fst]. exists (upd ts' (Z.to_nat j) o'). split; [exact V'|]. split; [exact K'|]. split; [eapply same_trans; eauto|]. split; [intros i Hi; rewrite nth_error_upd_other by lia; apply Nx; lia|]. split.
        + intros i u Hi Hu. destruct (Nat.eq_dec i (Z.to_nat j)) as [->|Nj]; [rewrite nth_error_upd_same in Hu by exact Li; injection Hu as <-; split; [exact C'|intros Op; apply X'; exact Op]|]. rewrite nth_error_upd_other in Hu by congruence. apply (Dn i u); [lia|exact Hu].
        + intros Op Fe. destruct (X' Op) as [_ X2]. assert (o = None) by (rewrite Forall_forall in Fe; symmetry; apply Fe; now apply nth_error_In with (Z.to_nat j)). subst o. specialize (X2 eq_refl). specialize (Fr Op Fe).
          rewrite (Permutation_length (all_cids_upd O ts' _ o' Li)), app_length, X2, upd_same_id by exact Ho'. lia.
    Qed.
    Lemma going_start : forall N s ts b, inv s ts -> kept s -> going N s ts 0 (s, b).
    Proof.
      intros N s ts b V K. split; [lia|]. exists ts. split; [exact V|]. split; [exact K|]. split; [apply same_refl|]. split; [auto|]. split; [intros; lia|]. intros _ Fe. enough (all_cids ts = []) as -> by reflexivity. clear -Fe. induction Fe as [|o ts E F IH]; [reflexivity|]. subst o. exact IH.
    Qed.
    Definition steady (n : Z) (s : coarse) : Prop :=
      kept s /\ (forall k, 0 <= k < tc -> exists z, rdi (size O s) k = Ok z) /\ (exists xs, sum_features O s = map Some xs /\ length xs = Z.to_nat fc) /\ 0 <= full O s <= n.
    Lemma sums_def : forall s, (exists xs, sum_features O s = map Some xs /\ length xs = Z.to_nat fc) ->
      exists sums u, forZ (Z.to_nat fc) 0 (fun i '(sums, _) => do a <- rdi (sum_features O s) i; do x <- rd x i; Ok (sums ++ [Some (nadd O (nmul O a (c_fading O c)) x)], tt)) ([], tt) = Ok (sums, u) /\ exists xs, sums = map Some xs /\ length xs = Z.to_nat fc.
    Proof.
      intros s [ys [Sf Ly]].
      match goal with |- exists sums u, forZ ?n ?i ?b ?a = _ /\ _ => destruct (forZ_inv _ (fun j st => 0 <= j /\ exists xs, fst st = map Some xs /\ length xs = Z.to_nat j) b n i a) as [[sums u] [E [_ [xs [Ex Lx]]]]] end.
        - split; [lia|]. exists []. auto.
        - intros j [l w] Hj [_ [xs [Ex Lx]]]. cbn [fst] in *. unfold rdi. rewrite Sf. destruct (rd_in_bounds _ (map Some ys) j) as [o Ho]; [rewrite map_length; lia|]. rewrite Ho. cbn [bind].
          apply rd_ok_iff in Ho. destruct Ho as [_ Ho]. apply nth_error_In, in_map_iff in Ho. destruct Ho as [y [<- _]]. cbn [bind]. rewrite (Mondrian_Train.rd_x O fc Hfc x label Hx' j) by lia. cbn [bind]. eexists. split; [reflexivity|]. cbn [fst]. split; [lia|].
          subst l. eexists (xs ++ [_]). rewrite map_app. split; [reflexivity|]. rewrite app_length. cbn [length]. lia.
        - exists sums, u. split; [exact E|]. exists xs. cbn [fst] in *. split; [exact Ex|lia].
    Qed.
    Lemma train_step : forall N s ts, (c_optimize O c = true -> tc <= nc) -> 0 <= N < 2147483647 -> inv s ts -> steady N s -> Forall (calm N) ts -> planted ts ->
      def (train O log_ rnd c s x label) /\ forall s' b, train O log_ rnd c s x label = Ok (s', b) -> exists ts', inv s' ts' /\ steady (N + 1) s' /\ Forall (calm (N + 1)) ts' /\ planted ts'.
    Proof.
      intros N s ts Hopt HN V [K [Sz [Sf Fu]]] Cm Pl. unfold train. destruct (sums_def s Sf) as [sums [u [E [xs [-> Lx]]]]]. rewrite E. cbn [bind]. clear E.
      apply inv_counts with (x := map Some xs) (p := nadd O (nmul O (count_points O s) (c_fading O c)) (n_ 1)) in V. set (s0 := with_sums O s _ _) in *.
      destruct (prepared s0 ts V K) as [s1 [s2 [ts2 [E1 [E2 [F2 [V2 [K2 S2]]]]]]]]. rewrite E1. cbn [bind]. rewrite E2. cbn [bind]. clear E1 E2.
      assert (Cm2 : Forall (calm N) ts2). { apply Forall_forall. intros o' Ho'. apply In_nth_error in Ho'. destruct Ho' as [i Hi]. destruct (Forall2_nth _ _ _ _ _ F2 i o' Hi) as [o [Ho Tr]]. eapply calm_trimmed; [exact Tr|]. rewrite Forall_forall in Cm. apply Cm. now apply nth_error_In with i. }
      pose proof (trimmed_planted _ _ F2 Pl) as Pl2. assert (Sz2 : forall k, 0 <= k < tc -> exists z, rdi (size O s2) k = Ok z) by (intros k Hk; destruct S2 as [_ [-> _]]; now apply Sz). pose proof V2 as [Ln2 _].
      assert (Fin : forall s3 b3, forZ (Z.to_nat tc) 0 body (s2, true) = Ok (s3, b3) -> going N s2 ts2 tc (s3, b3)).
      { intros s3 b3 E3. assert (G : going N s2 ts2 (0 + Z.of_nat (Z.to_nat tc)) (s3, b3)).
        { refine (forZ_inv_post _ (going N s2 ts2) _ _ 0 _ _ _ _ E3); [now apply going_start|]. intros j st st' Hj G Hb. eapply (proj2 (going_step N s2 ts2 j st HN Ln2 Cm2 Pl2 Sz2 ltac:(lia) ltac:(intros Op _; specialize (Hopt Op); lia) G)); eauto. }
        replace (0 + Z.of_nat (Z.to_nat tc)) with tc in G by lia. exact G. }
      assert (Full : forall s3 b3, going N s2 ts2 tc (s3, b3) -> full O s3 = full O s /\ sint (full O s3 + 1) = Ok (full O s3 + 1)).
      { intros s3 b3 [_ [ts' [_ [_ [Sm _]]]]]. cbn [fst] in *. apply (same_trans O _ _ _ S2) in Sm. destruct Sm as [_ [_ [_ [_ [S5 _]]]]]. cbn in S5. split; [exact S5|]. apply sint_ok. lia. }
      split.
      - apply defined_bind; [|intros [s3 b3] E3; destruct (Full _ _ (Fin _ _ E3)) as [_ Es]; rewrite Es; destruct (avail s3 <=? 1); cbn [bind]; apply defined_ok].
        apply defined_forZ with (P := going N s2 ts2); [|now apply going_start]. intros j st Hj G. destruct (going_step N s2 ts2 j st HN Ln2 Cm2 Pl2 Sz2 ltac:(lia) ltac:(intros Op _; specialize (Hopt Op); lia) G) as [D St]. split; [exact D|exact St].
      - intros s' b H. inv_bind H. destruct v as [s3 b3]. pose proof (Fin _ _ E) as G. destruct (Full _ _ G) as [Ef Es]. rewrite Es in H. cbn [bind] in H. destruct G as [_ [ts' [V' [K' [Sm [_ [Dn _]]]]]]]. cbn [fst] in *. apply (same_trans O _ _ _ S2) in Sm. clear S2. destruct Sm as [S1 [S2 [S3 [S4 [S5 _]]]]].
        assert (Ln' : Z.of_nat (length ts') = tc) by apply V'. assert (All : forall o, In o ts' -> calm (N + 1) o /\ (c_optimize O c = true -> o <> None)).
        { intros o Io. apply In_nth_error in Io. destruct Io as [i Hi]. apply (Dn i o); [|exact Hi]. assert ((i < length ts')%nat) by (apply nth_error_Some; congruence). lia. }
        assert (X : s' = with_total O s3 (u32 (total O s3 + 1)) \/ s' = with_total O (with_full O s3 (full O s3 + 1)) (u32 (total O s3 + 1))) by (destruct (avail s3 <=? 1); cbn [bind] in H; injection H as <- _; auto).
        exists ts'. split; [destruct X as [->| ->]; exact V'|]. split; [|split; [apply Forall_forall; intros o Io; now apply All|intros Op; right; apply Forall_forall; intros o Io; now apply All]].
        assert (St : kept s' /\ size O s' = size O s3 /\ sum_features O s' = sum_features O s3 /\ 0 <= full O s' <= N + 1) by (destruct X as [->| ->]; cbn; rewrite ?Ef; repeat split; try apply K'; lia).
        destruct St as [St1 [St2 [St3 St4]]]. split; [exact St1|]. split; [rewrite St2, S2; exact Sz|]. split; [exists xs; rewrite St3, S3; split; [reflexivity|exact Lx]|exact St4].
    Qed.
    (** With fewer nodes than trees, the tree that gets no node is counted again all the same. *)
    Lemma starved : forall N s ts, 0 <= N < 2147483647 -> c_optimize O c = true -> nc < tc -> inv s ts -> steady N s -> Forall (eq None) ts -> exists u, train O log_ rnd c s x label = Undef u.
    Proof.
      intros N s ts HN Op Few V [K [Sz [Sf Fu]]] Fe. unfold train. destruct (sums_def s Sf) as [sums [u [E [xs [-> Lx]]]]]. rewrite E. cbn [bind]. clear E.
      apply inv_counts with (x := map Some xs) (p := nadd O (nmul O (count_points O s) (c_fading O c)) (n_ 1)) in V. set (s0 := with_sums O s _ _) in *.
      destruct (prepared s0 ts V K) as [s1 [s2 [ts2 [E1 [E2 [F2 [V2 [K2 S2]]]]]]]]. rewrite E1. cbn [bind]. rewrite E2. cbn [bind]. clear E1 E2.
      assert (Fe2 : Forall (eq None) ts2) by (clear -F2 Fe; induction F2 as [|o o' ts ts' T F IH]; constructor; inversion Fe; subst; auto; destruct T as [->|[j [t [t' [X _]]]]]; congruence).
      assert (Cm2 : Forall (calm N) ts2) by (eapply Forall_impl; [|exact Fe2]; intros o <-; split; intros; exact I).
      assert (Sz2 : forall k, 0 <= k < tc -> exists z, rdi (size O s2) k = Ok z) by (intros k Hk; destruct S2 as [_ [-> _]]; now apply Sz). pose proof V2 as [Ln2 _]. pose proof Hs as [_ [_ [_ [Hn _]]]].
      replace (Z.to_nat tc) with (Z.to_nat nc + S (Z.to_nat (tc - nc - 1)))%nat by lia. rewrite forZ_app.
      assert (Step : forall j st, 0 <= j < nc -> going N s2 ts2 j st -> def (body j st) /\ forall st', body j st = Ok st' -> going N s2 ts2 (j + 1) st') by (intros j st Hj; apply going_step; auto; [intros _; auto|lia|lia]).
      match goal with |- context [bind (forZ ?n ?i ?b ?a) _] => assert (D : def (forZ n i b a)) by (apply defined_forZ with (P := going N s2 ts2); [intros j st Hj; apply Step; lia|now apply going_start]);
        assert (G : forall st, forZ n i b a = Ok st -> going N s2 ts2 nc st) end.
      { intros st E. assert (G : going N s2 ts2 (0 + Z.of_nat (Z.to_nat nc)) st).
        { refine (forZ_inv_post _ (going N s2 ts2) _ _ 0 _ _ _ _ E); [now apply going_start|]. intros j st1 st' Hj G Hb. eapply (proj2 (Step j st1 ltac:(lia) G)); eauto. }
        replace (0 + Z.of_nat (Z.to_nat nc)) with nc in G by lia. exact G. }
      destruct D as [[st E]|[[e E] _]]; rewrite E; cbn [bind]; [|eauto]. specialize (G st E). clear E Step. destruct st as [s3 b3]. destruct G as [_ [ts3 [V3 [K3 [S3 [Nx [_ Cnt]]]]]]]. cbn [fst] in *. specialize (Cnt Op Fe2). specialize (Nx (Z.to_nat nc) ltac:(lia)).
      assert (No : nth_error ts3 (Z.to_nat nc) = Some None). { rewrite Nx. destruct (nth_error ts2 (Z.to_nat nc)) as [o|] eqn:Eo; [|apply nth_error_None in Eo; lia]. rewrite Forall_forall in Fe2. f_equal. symmetry. apply Fe2. now apply nth_error_In with (Z.to_nat nc). }
      assert (D : def (train_tree O log_ rnd c s3 x label nc)).
      { rewrite <- (Z2Nat.id nc) by lia. apply (tree_def N s3 ts3 (Z.to_nat nc) None HN V3 No K3); [|split; intros; exact I]. rewrite Z2Nat.id by lia. destruct S3 as [_ [-> _]]. apply Sz2. lia. }
      replace (0 + Z.of_nat (Z.to_nat nc)) with nc by lia. cbn [forZ]. destruct D as [[[s4 b4] E]|[[e E] _]]; rewrite E; cbn [bind]; [|eauto]. rewrite Op.
      assert (R : rd (roots (fr s4)) nc = Ok (-1)).
      { rewrite <- (Z2Nat.id nc) in E by lia. destruct (train_tree_ok O exp_ log_ rnd c Tl Hlife x label Hx Hkind _ _ _ _ _ _ V3 No E) as [o1 [T [_ V4]]].
        assert (Li : (Z.to_nat nc < length ts3)%nat) by (apply nth_error_Some; congruence). pose proof V4 as [_ [H2 [C4 _]]]. apply (cpool_avail O c x) in C4. rewrite (Permutation_length (all_cids_upd O ts3 _ o1 Li)), app_length, upd_same_id in C4 by exact No.
        specialize (H2 (Z.to_nat nc) o1 (nth_error_upd_same _ _ _ _ Li)). rewrite Z2Nat.id in H2 by lia. inversion T; subst; [exact (proj1 H2)|]. cbn [oids] in C4. unfold single in C4. cbn in C4. lia. }
      unfold update_branch, get_leaf. rewrite R. cbn [bind]. change (-1 <? 0) with true. cbv iota. cbn [bind]. unfold Coarse_Model.get. rewrite (rd_oob _ _ (-1)) by lia. cbn [bind]. exists OutOfBounds. reflexivity.
    Qed.
  End Point.

  (** ** After any use *)
  Lemma steady_init : steady 0 (forest_init O c true l0).
  Proof.
    pose proof Hs as [S1 [S2 [S3 [S4 [S5 S6]]]]]. split; [split; [split; [split|]|]|split; [|split]]; cbn.
    - apply Forall_forall. intros n Hn. apply repeat_spec in Hn. subst n. eapply boxed_blank; eauto.
    - exact S5.
    - rewrite repeat_length. lia.
    - apply Forall_forall. intros n Hn. now apply repeat_spec in Hn.
    - intros k Hk. unfold rdi. rewrite rd_repeat by lia. cbn [bind]. eauto.
    - exists (repeat (n_ 0) (Z.to_nat fc)). rewrite repeat_length. split; [|reflexivity]. clear. induction (Z.to_nat fc) as [|m IH]; [reflexivity|]. cbn. now rewrite IH.
    - lia.
  Qed.
  Lemma steady_predict : forall n s x sc k s' b sc', steady n s -> predict O exp_ c s x sc k = Ok (s', b, sc') -> steady n s'.
  Proof.
    intros n s x sc k s' b sc' [[[So Ln] Id] [Sz [Sf Fu]]] H. unfold predict in H. inv_bind H. inv_bind H. inv_bind H. injection H as <- <- <-. destruct (_ && _) in E; [|injection E as <-; split; [split; [split|]|split]; auto].
    pose proof E as E2. unfold update_all in E2. inv_bind E2. injection E2 as <-. apply update_all_ok in E. destruct E as [R1 [R2 R3]].
    split; [split; [split|exact Id]|split; [|split]]; auto.
    - eapply sound_recounted; [exact R1|reflexivity|exact So].
    - destruct R1 as [_ [X _]]. lia.
  Qed.
  Lemma reached_steady : (c_optimize O c = true -> tc <= nc) -> forall s h, creached s h -> Forall fine_pt h -> Forall (fun p => 0 <= snd p < lc) h -> Z.of_nat (length h) <= 2147483647 ->
    exists ts, inv s ts /\ steady (Z.of_nat (length h)) s /\ Forall (calm (Z.of_nat (length h))) ts /\ planted ts.
  Proof.
    intros Hopt s h R. induction R as [|s h x label s' b R IH Hx Hl T|s h x sc k s' b sc' R IH Hx T]; intros F1 F2 Hn.
    - pose proof Hs as [S1 [S2 [S3 [S4 [S5 S6]]]]]. exists (repeat None (Z.to_nat tc)). split; [apply inv_init; auto; lia|]. split; [exact steady_init|].
      split; [|intros _; left]; apply Forall_forall; intros o Ho; apply repeat_spec in Ho; subst; [split; [intros; exact I|exact I]|reflexivity].
    - inversion F1; inversion F2; subst. cbn [length] in Hn |- *. rewrite Nat2Z.inj_succ in *. destruct IH as [ts [V [St [Cm Pl]]]]; auto; [lia|].
      eapply (proj2 (train_step x label Hx Hl ltac:(auto) (Z.of_nat (length h)) s ts Hopt ltac:(lia) V St Cm Pl)); eauto.
    - destruct IH as [ts [V [St [Cm Pl]]]]; auto. pose proof (steady_predict _ _ _ _ _ _ _ _ St T) as St'. destruct (predict_ok O exp_ c s ts x sc k s' b sc' V T) as [_ [ts' [V' X]]]. exists ts'. split; [exact V'|]. split; [exact St'|].
      destruct (negb (c_optimize O c) && negb (kind =? EXTEND_GHOST)) eqn:B; [|destruct X as [-> ->]; auto].
      apply andb_prop in B. destruct B as [B1 B2]. apply negb_true_iff in B1, B2. apply Z.eqb_neq in B2. split; [|intros Op; congruence].
      apply Forall_forall. intros o' Ho'. apply In_nth_error in Ho'. destruct Ho' as [i Hi]. destruct (Forall2_nth _ _ _ _ _ X i o' Hi) as [o [Ho Al]]. apply (calm_alike _ o o' B2 Al). rewrite Forall_forall in Cm. apply Cm. now apply nth_error_In with i.
  Qed.
  Lemma reached_def : (c_optimize O c = true -> tc <= nc) -> forall s h x label, creached s h -> Forall fine_pt h -> Forall (fun p => 0 <= snd p < lc) h -> Z.of_nat (length h) < 2147483647 ->
    Z.of_nat (length x) = fc -> 0 <= label < lc -> fine_pt (x, label) -> def (train O log_ rnd c s x label).
  Proof.
    intros Hopt s h x label R F1 F2 Hn Hx Hl Fx. destruct (reached_steady Hopt s h R F1 F2 ltac:(lia)) as [ts [V [St [Cm Pl]]]]. apply (proj1 (train_step x label Hx Hl Fx (Z.of_nat (length h)) s ts Hopt ltac:(lia) V St Cm Pl)).
  Qed.
  Lemma reached_starved : c_optimize O c = true -> nc < tc -> forall s h, creached s h -> Forall fine_pt h -> h = [] /\ exists ts, inv s ts /\ steady 0 s /\ Forall (eq None) ts.
  Proof.
    intros Op Few s h R. induction R as [|s h x label s' b R IH Hx Hl T|s h x sc k s' b sc' R IH Hx T]; intros F1.
    - pose proof Hs as [S1 [S2 [S3 [S4 [S5 S6]]]]]. split; [reflexivity|]. exists (repeat None (Z.to_nat tc)). split; [apply inv_init; auto; lia|]. split; [exact steady_init|]. apply Forall_forall; intros o Ho; now apply repeat_spec in Ho.
    - inversion F1; subst. destruct IH as [_ [ts [V [St Fe]]]]; auto. destruct (starved x label Hx Hl ltac:(auto) 0 s ts ltac:(lia) Op Few V St Fe) as [u E]. congruence.
    - destruct IH as [-> [ts [V [St Fe]]]]; auto. split; [reflexivity|]. destruct (predict_ok O exp_ c s ts x sc k s' b sc' V T) as [_ [ts' [V' X]]]. rewrite Op in X. cbn [negb andb] in X. destruct X as [-> ->]. eauto.
  Qed.
  Lemma starved_undef : c_optimize O c = true -> nc < tc -> forall s h x label, creached s h -> Forall fine_pt h -> Z.of_nat (length x) = fc -> 0 <= label < lc -> fine_pt (x, label) -> h = [] /\ exists u, train O log_ rnd c s x label = Undef u.
  Proof. intros Op Few s h x label R F Hx Hl Fx. destruct (reached_starved Op Few s h R F) as [-> [ts [V [St Fe]]]]. split; [reflexivity|]. now apply (starved x label Hx Hl Fx 0 s ts ltac:(lia) Op Few V St Fe). Qed.
End Steady.
