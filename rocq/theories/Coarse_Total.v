(** * Proofs for the coarse Mondrian forest: training is defined *)
From Coq Require Import ZArith List Bool Lia Reals Lra Permutation.
From Verif Require Import CppBase CppFacts NumOps Utils_Model Mondrian_Model Mondrian_Spec Mondrian_Proofs Coarse_Model Coarse_Spec Coarse_Heap Coarse_Walk Coarse_Train Coarse_Trim Coarse_Forest Coarse_Reach Coarse_Tidy.
From Verif Require Unbound_Model Mondrian_Train Unbound_Train.
Import ListNotations.
Local Open Scope Z_scope.

(** A result, or undefined behaviour that [able] rules out. *)
Section Defined.
  Variable able : Prop.
  Definition defined {A : Type} (m : res A) : Prop := (exists v, m = Ok v) \/ ((exists e, m = Undef e) /\ (able -> False)).
  Lemma defined_ok : forall A (v : A), defined (Ok v).
  Proof. intros. left. eauto. Qed.
  Lemma defined_bind : forall A B (m : res A) (k : A -> res B), defined m -> (forall v, m = Ok v -> defined (k v)) -> defined (bind m k).
  Proof. intros A B m k [[v ->]|[[e ->] N]] H; cbn [bind]; [now apply H|]. right. eauto. Qed.
  Lemma defined_forZ : forall S (P : Z -> S -> Prop) (body : Z -> S -> res S) n i s,
    (forall j s, i <= j < i + Z.of_nat n -> P j s -> defined (body j s) /\ forall s', body j s = Ok s' -> P (j + 1) s') -> P i s -> defined (forZ n i body s).
  Proof.
    intros S P body n. induction n as [|n IH]; intros i s H Hp; cbn [forZ]; [apply defined_ok|]. destruct (H i s ltac:(lia) Hp) as [D N].
    apply defined_bind; [exact D|]. intros s' E. apply IH; [|now apply N]. intros j s1 Hj. apply H. lia.
  Qed.
  Lemma defined_rd : forall A (xs : list A) i, 0 <= i < Z.of_nat (length xs) -> defined (rd xs i).
  Proof. intros A xs i H. destruct (rd_in_bounds _ xs i H) as [v E]. left. eauto. Qed.
  Lemma defined_wr : forall A (xs : list A) i v, 0 <= i < Z.of_nat (length xs) -> defined (wr xs i v).
  Proof. intros A xs i v H. rewrite wr_ok by exact H. apply defined_ok. Qed.
  Lemma defined_node : forall O (f : forest O) i g, 0 <= i < Z.of_nat (length (nodes O f)) -> (forall n, rd (nodes O f) i = Ok n -> defined (g n)) -> defined (with_node O f i g).
  Proof.
    intros O f i g H G. unfold with_node. apply defined_bind; [now apply defined_rd|]. intros n Hn. apply defined_bind; [now apply G|]. intros n' _.
    apply defined_bind; [now apply defined_wr|]. intros. apply defined_ok.
  Qed.
End Defined.
Arguments defined able {A} m.

Section Total.
  Variable O : ops.
  Variable exp_ log_ : num O -> num O.
  Variable rnd : nat -> num O.
  Variable c : config O.
  Variable l0 : Z.
  Variable key : num O -> R.
  Variable cmp fine draw : num O -> Prop.
  Hypothesis L : laws O key cmp fine draw (c_features O c).
  Hypothesis F0 : fine (nofZ O 0).
  Hypothesis Hdraw : forall k, draw (rnd k).
  Hypothesis Hs : csizes O c l0.
  Local Notation n_ := (nofZ O).
  Local Notation node := (node O).
  Local Notation forest := (forest O).
  Local Notation coarse := (coarse O).
  Local Notation fr := (fr O).
  Local Notation nodes := (nodes O).
  Local Notation roots := (roots O).
  Local Notation get := (get O).
  Local Notation put := (put O).
  Local Notation avail := (avail O).
  Local Notation available := (available O).
  Local Notation counters := (counters O).
  Local Notation fc := (c_features O c).
  Local Notation lc := (c_labels O c).
  Local Notation nc := (c_nodes O c).
  Local Notation tc := (c_trees O c).
  Local Notation life := (c_life O c).
  Local Notation kind := (c_extend O c).
  Local Notation ctree := (ctree O).
  Local Notation ctop := (ctop O).
  Local Notation cids := (cids O).
  Local Notation csize := (csize O).
  Local Notation cost := (cost O).
  Local Notation height := (height O).
  Local Notation shape := (shape O).
  Local Notation stored := (stored O fc lc).
  Local Notation cpool := (cpool O c).
  Local Notation creached := (creached O exp_ log_ rnd c l0).
  Local Notation bounding := (bounding O fc).
  Local Notation fine_pt := (Mondrian_Train.fine_pt O fc fine).
  Local Notation able := (Unbound_Train.able_pick O draw fc).
  Local Notation def := (defined able).
  Let Tl : tlaws O := laws_tlaws O key cmp fine draw fc L.
  Let Hfc : 1 <= fc := proj1 (proj2 Hs).
  Let Hlife : nlt O life (nofZ O 0) = false := tl_used O Tl _ (proj2 (proj2 (proj2 (proj2 (proj2 Hs))))).

  (** ** The height of a subtree and the way up *)
  Lemma depth_inner : forall t s p depth maxd i stack, shape (fr s) p t -> 0 <= depth -> depth + height t <= 101 -> length stack = 100%nat -> clear stack depth ->
    i + csize t <= nc -> forall k, depth_walk O c (cost t + k) s (ctop t) depth maxd i stack = depth_walk O c k s p (depth - 1) (Z.max maxd (depth + height t - 1)) (i + csize t) stack.
  Proof.
    induction t as [j cs|j d v cs l IHl r IHr]; intros s p depth maxd i stack [n [H1 [H2 H3]]] Hd Hh Ls C Hi k; cbn [Coarse_Spec.ctop Coarse_Spec.height] in *; assert (G : get s j = Ok n) by exact H1.
    - unfold Coarse_Walk.csize in Hi |- *. cbn [Coarse_Spec.cids length] in *. cbn [Coarse_Walk.cost plus depth_walk].
      rewrite (proj2 (Z.ltb_lt i nc)), (proj2 (Z.leb_le 0 depth)), G by lia. cbn [andb bind]. rewrite H3, H2.
      replace (Z.max maxd (depth + 1 - 1)) with (if maxd <? depth then depth else maxd) by (destruct (Z.ltb_spec maxd depth); lia). reflexivity.
    - rewrite csize_fork in Hi |- *. pose proof (csize_pos O l) as Sl. pose proof (csize_pos O r) as Sr. pose proof (height_pos O l) as Pl. pose proof (height_pos O r) as Pr. destruct H3 as [A1 [A2 [A3 [A4 A5]]]].
      assert (E : rd stack depth = Ok (-1)). { destruct (rd_in_bounds _ stack depth) as [w Hw]; [lia|]. rewrite Hw. f_equal. apply (C depth w); [lia|exact Hw]. }
      replace (cost (CFork j d v cs l r) + k)%nat with (Datatypes.S (cost r + Datatypes.S (cost l + Datatypes.S k)))%nat by (cbn [Coarse_Walk.cost]; lia).
      cbn [depth_walk]. rewrite (proj2 (Z.ltb_lt i nc)), (proj2 (Z.leb_le 0 depth)), G by lia. cbn [andb bind]. rewrite A1, E. cbn [bind Z.eqb].
      rewrite wr_ok by lia. cbn [bind]. rewrite A3.
      rewrite (IHr s j (depth + 1)); [|exact A5|lia|lia|now rewrite upd_length|apply clear_upd; [lia|now apply clear_next]|lia]. replace (depth + 1 - 1) with depth by lia.
      cbn [depth_walk]. rewrite (proj2 (Z.ltb_lt (i + csize r) nc)), (proj2 (Z.leb_le 0 depth)), G by lia. cbn [andb bind]. rewrite A1, rd_stack by lia. cbn [bind].
      change (0 =? -1) with false. change (0 =? 0) with true. cbn match. rewrite wr_ok by (rewrite upd_length; lia). cbn [bind]. rewrite A2.
      rewrite (IHl s j (depth + 1)); [|exact A4|lia|lia|now rewrite !upd_length| |lia].
      2:{ apply clear_upd; [rewrite upd_length; lia|]. apply clear_upd; [lia|]. now apply clear_next. }
      replace (depth + 1 - 1) with depth by lia.
      cbn [depth_walk]. rewrite (proj2 (Z.ltb_lt (i + csize r + csize l) nc)), (proj2 (Z.leb_le 0 depth)), G by lia. cbn [andb bind]. rewrite A1, rd_stack by (rewrite upd_length; lia). cbn [bind].
      change (1 =? -1) with false. change (1 =? 0) with false. change (1 =? 1) with true. cbn match. rewrite wr_ok by (rewrite !upd_length; lia). cbn [bind]. rewrite H2, (upd_back stack depth 0 1 (-1) E).
      replace (Z.max maxd (depth + (1 + Z.max (height l) (height r)) - 1)) with (Z.max (Z.max maxd (depth + 1 + height r - 1)) (depth + 1 + height l - 1)) by lia.
      replace (i + (1 + csize l + csize r)) with (i + csize r + csize l + 1) by lia. reflexivity.
  Qed.
  Lemma node_depth_total : forall t s p, shape (fr s) p t -> csize t <= nc -> height t <= 101 -> exists r, node_depth O c s (ctop t) = Ok r.
  Proof.
    intros t s p T Sz Hh. unfold node_depth. pose proof (cost_size O t) as Ct. assert (K : exists k, fuel O c = (cost t + Datatypes.S k)%nat) by (exists (fuel O c - cost t - 1)%nat; unfold fuel; lia).
    destruct K as [k ->]. rewrite (depth_inner t s p) by (try exact T; try lia; try apply clear_repeat; reflexivity). cbn [depth_walk]. change (0 <=? 0 - 1) with false. rewrite andb_false_r. eauto.
  Qed.
  Lemma climb_total : forall s rest p D, above O (fr s) rest p D -> forall i n steps count, get s i = Ok n -> parent O n = p -> D < Z.of_nat steps -> exists r, climb O steps s i count = Ok r.
  Proof.
    intros s rest p D H. induction H as [|p m D I Hm Ht Ha IH]; intros i n steps count Hi Hp Hst; (destruct steps as [|steps]; [try (apply above_nonneg in Ha); lia|]); cbn [climb]; rewrite Hi; cbn [bind]; rewrite Hp.
    - cbn. eauto.
    - pose proof (rd_bounds _ _ _ _ Hm) as B. rewrite (proj2 (Z.eqb_neq p (-1))) by lia. apply (IH p m); auto. lia.
  Qed.

  (** ** Boxes *)
  Definition boxed (n : node) : Prop := exists pts, bounding pts (bound_lower O n) (bound_upper O n) /\ Forall fine_pt pts.
  (** What is needed of the pool apart from the trees. *)
  Definition sound (s : coarse) : Prop := Forall boxed (nodes (fr s)) /\ 0 <= last O s <= 1000000000.
  Lemma boxed_node : forall f i g f', Forall boxed (nodes f) -> (forall n n', boxed n -> g n = Ok n' -> boxed n') -> with_node O f i g = Ok f' -> Forall boxed (nodes f').
  Proof.
    intros f i g f' T H E. apply with_node_inv in E. destruct E as [n [n' [A [B ->]]]]. cbn. apply Forall_upd; [exact T|]. apply (H n); [|exact B]. now apply (rd_Forall _ _ _ _ _ T A).
  Qed.
  Lemma sound_change : forall s i g s', sound s -> (forall n n', boxed n -> g n = Ok n' -> boxed n') -> change O s i g = Ok s' -> sound s'.
  Proof. intros s i g s' [T Bl] H E. unfold change in E. inv_bind E. injection E as <-. split; [cbn; now apply boxed_node with (fr s) i g|exact Bl]. Qed.
  Lemma sound_available : forall s i s', Z.of_nat (length (nodes (fr s))) = nc -> available_node O c s = Ok (i, s') -> sound s -> sound s'.
  Proof.
    intros s i s' Ln H [T Bl]. apply available_node_inv in H. destruct H as [[_ ->]|[n [Hn [_ ->]]]]; [split; auto|]. split; [exact T|]. cbn. apply rd_bounds in Hn. pose proof Hs as [_ [_ [_ [X _]]]]. lia.
  Qed.
  Lemma boxed_blank : boxed (blank_node O c).
  Proof.
    exists [(repeat (n_ 0) (Z.to_nat fc), 0)]. cbn [bound_lower bound_upper blank_node].
    assert (C : forall d, 0 <= d < fc -> coord O (repeat (n_ 0) (Z.to_nat fc), 0) d = n_ 0).
    { intros d Hd. unfold coord. cbn [fst]. apply nth_repeat. }
    assert (Z0 : nle O (n_ 0) (n_ 0) = true) by (apply (l_le _ _ _ _ _ _ L); destruct (l_0 _ _ _ _ _ _ L); repeat split; auto; lra).
    split; [|constructor; [|constructor]].
    - split; [apply repeat_length|]. split; [apply repeat_length|]. intros d Hd. exists (repeat (n_ 0) (Z.to_nat fc), 0), (repeat (n_ 0) (Z.to_nat fc), 0). split; [now left|]. split; [now left|].
      rewrite (C d Hd). rewrite rd_repeat by lia. split; [reflexivity|]. split; [reflexivity|]. intros q [<-|[]]. rewrite (C d Hd). auto.
    - intros d Hd. rewrite (C d Hd). exact F0.
  Qed.
  Lemma sound_recounted : forall s s', recounted O (fr s) (fr s') -> last O s' = last O s -> sound s -> sound s'.
  Proof.
    intros s s' [_ [Ln H]] El [T Bl]. split; [|now rewrite El]. apply Forall_forall. intros n' Hn'. apply In_nth_error in Hn'. destruct Hn' as [k Hk]. assert (Lk : (k < length (nodes (fr s')))%nat) by (apply nth_error_Some; congruence).
    destruct (rd_in_bounds _ (nodes (fr s)) (Z.of_nat k)) as [n Hn]; [lia|]. destruct (H _ _ Hn) as [cs [H1 _]]. apply rd_ok_iff in H1. rewrite Nat2Z.id in H1. destruct H1 as [_ H1]. assert (n' = set_counters O n cs) by congruence. subst n'.
    exact (rd_Forall _ _ _ _ _ T Hn).
  Qed.

  Section Point.
    Variable x : list (num O).
    Variable label : Z.
    Hypothesis Hx : Z.of_nat (length x) = fc.
    Hypothesis Hlab : 0 <= label < lc.
    Hypothesis Fx : fine_pt (x, label).
    Let Hx' : length x = Z.to_nat fc.
    Proof. lia. Qed.
    Local Notation pbox := (Mondrian_Train.pbox O fc x label).
    Lemma boxed_point : forall n, bound_lower O n = pbox -> bound_upper O n = pbox -> boxed n.
    Proof. intros n E1 E2. unfold boxed. rewrite E1, E2. exists [(x, label)]. split; [exact (Mondrian_Train.bounding_pbox O fc key cmp fine draw L x label Hx' Fx)|constructor; [exact Fx|constructor]]. Qed.
    Lemma sample_eq : forall f i, sample_block O fc life f i x label =
      with_node O f i (fun n => do k <- rd (counters n) label; do k <- sint (k + 1); do cs <- wr (counters n) label k; Ok (set_tau O (set_counters O (set_box O n pbox pbox) cs) life)).
    Proof.
      intros f i. unfold sample_block. rewrite (build2 _ _ fc _ (fun d => Some (coord O (x, label) d)) (fun d => Some (coord O (x, label) d))); [reflexivity| |lia].
      intros j l u Hj. rewrite (Mondrian_Train.rd_x O fc Hfc x label Hx') by lia. reflexivity.
    Qed.
    Lemma boxed_sample : forall f i f', Forall boxed (nodes f) -> sample_block O fc life f i x label = Ok f' -> Forall boxed (nodes f').
    Proof.
      intros f i f' T H. rewrite sample_eq in H. eapply boxed_node; [exact T| |exact H]. intros n n' _ X. inv_bind X. inv_bind X. inv_bind X. injection X as <-. now apply boxed_point.
    Qed.
    Lemma boxed_update : forall n n', boxed n -> update_box O fc n x = Ok n' -> boxed n'.
    Proof.
      intros n n' [pts [B F]] H. destruct (Mondrian_Train.update_box_ok O fc key cmp fine draw L Hfc x label Hx' Fx pts n B F) as [l [u [E B']]]. rewrite E in H. injection H as <-.
      exists ((x, label) :: pts). split; [exact B'|constructor; [exact Fx|exact F]].
    Qed.
    Lemma boxed_joined : forall n lo hi m, boxed n -> joined_box O fc n x = Ok (lo, hi) -> bound_lower O m = lo -> bound_upper O m = hi -> boxed m.
    Proof.
      intros n lo hi m [pts [B F]] H <- <-. destruct (Mondrian_Train.joined_box_ok O fc key cmp fine draw L Hfc x label Hx' Fx pts n B F) as [l [u [E B']]]. rewrite E in H. injection H as -> ->.
      exists ((x, label) :: pts). split; [exact B'|constructor; [exact Fx|exact F]].
    Qed.
    Lemma boxed_insert : forall f i k d up a b f', Forall boxed (nodes f) -> insert_above O fc lc life f i k x label d up a b = Ok f' -> Forall boxed (nodes f').
    Proof.
      intros f i k d up a b f' T H. unfold insert_above in H. inv_bind H. inv_bind H. destruct v0 as [lo hi]. pose proof (rd_Forall _ _ _ _ _ T E) as Bn.
      inv_bind H. assert (T1 : Forall boxed (nodes v0)) by (eapply boxed_node; [exact T| |exact E1]; intros n n' _ X; injection X as <-; now apply (boxed_joined v lo hi)).
      inv_bind H. assert (T2 : Forall boxed (nodes v1)) by (eapply boxed_node; [exact T1| |exact E2]; intros n n' G X; injection X as <-; exact G).
      inv_bind H. inv_bind H. assert (T3 : Forall boxed (nodes v3)) by (eapply boxed_node; [exact T2| |exact E4]; intros n n' G X; injection X as <-; exact G).
      inv_bind H. inv_bind H. inv_bind H. assert (T4 : Forall boxed (nodes v6)).
      { destruct (_ && _) in E7; [inv_bind E7; injection E7 as <-; exact T3|]. eapply boxed_node; [exact T3| |exact E7]. intros n n' G X. injection X as <-. destruct (_ =? _); exact G. }
      inv_bind H. assert (T5 : Forall boxed (nodes v7)) by (eapply boxed_node; [exact T4| |exact E8]; intros n n' G X; injection X as <-; exact G).
      inv_bind H. assert (T6 : Forall boxed (nodes v8)) by (eapply boxed_node; [exact T5| |exact E9]; intros n n' G X; injection X as <-; exact G).
      inv_bind H. inv_bind H. assert (T7 : Forall boxed (nodes v10)) by (eapply boxed_node; [exact T6| |exact E11]; intros n n' G X; injection X as <-; destruct (neq O _ _); exact G).
      eapply boxed_sample; eauto.
    Qed.
    Lemma sound_label : forall s i l s', sound s -> add_label O s i l = Ok s' -> sound s'.
    Proof. intros s i l s' T H. eapply sound_change; [exact T| |exact H]. intros n n' G X. inv_bind X. inv_bind X. inv_bind X. injection X as <-. exact G. Qed.
    Lemma sound_leaf : forall s i l s', sound s -> add_leaf O s i l = Ok s' -> sound s'.
    Proof. intros s i l s' T H. unfold add_leaf in H. inv_bind H. unfold add_fading in H. inv_bind H. inv_bind H. injection H as <-. exact (sound_label _ _ _ _ T E). Qed.
    Lemma change_length : forall s i g s', change O s i g = Ok s' -> length (nodes (fr s')) = length (nodes (fr s)).
    Proof. intros s i g s' H. apply change_inv in H. destruct H as [n [n' [_ [_ ->]]]]. cbn [Coarse_Model.fr with_fr]. apply put_length. Qed.
    Lemma available_length : forall s i s', available_node O c s = Ok (i, s') -> length (nodes (fr s')) = length (nodes (fr s)).
    Proof. intros s i s' H. apply available_node_inv in H. destruct H as [[_ ->]|[n [_ [_ ->]]]]; reflexivity. Qed.
    Lemma sound_split : forall s n i k probs sum time s', Z.of_nat (length (nodes (fr s))) = nc -> sound s -> split_above O rnd c s n i k x probs sum time label = Ok s' -> sound s'.
    Proof.
      intros s n i k probs sum time s' Ln T H. unfold split_above in H. inv_bind H. destruct v as [f [d [up sp]]]. destruct (choose_split_inv O rnd c x Hx _ _ _ _ _ _ _ _ E) as [Nf _].
      assert (T0 : sound (with_fr O s f)) by (destruct T; split; [cbn; now rewrite Nf|assumption]).
      inv_bind H. destruct v as [a s1]. assert (T1 : sound s1) by (eapply sound_available; [|exact E0|exact T0]; cbn; now rewrite Nf). pose proof (available_length _ _ _ E0) as L1. inv_bind H. rename v into s2.
      assert (T2 : sound s2) by (eapply sound_change; [exact T1| |exact E1]; intros m m' G X; injection X as <-; exact G). pose proof (change_length _ _ _ _ E1) as L2.
      inv_bind H. destruct v as [b s3]. assert (T3 : sound s3) by (eapply sound_available; [|exact E2|exact T2]; cbn in L1; rewrite Nf in L1; lia). inv_bind H. rename v into s4.
      assert (T4 : sound s4).
      { unfold parent_counters in E3. destruct (_ =? EXTEND_ORIGINAL); [refine (sound_change _ _ _ _ _ _ E3); [exact T3|intros m m' Gm X; injection X as <-; exact Gm]|].
        destruct (_ =? EXTEND_GHOST); [|injection E3 as <-; exact T3]. inv_bind E3. eapply sound_label; [|exact E3]. refine (sound_change _ _ _ _ _ _ E4); [exact T3|intros m m' Gm X; injection X as <-; exact Gm]. }
      inv_bind H. injection H as <-. split; [cbn; eapply boxed_insert; [exact (proj1 T4)|exact E4]|exact (proj2 T4)].
    Qed.
  End Point.
End Total.
