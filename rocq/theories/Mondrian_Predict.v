(** * Proofs for the Mondrian forest: prediction *)
From Coq Require Import ZArith List Bool Lia Reals Lra Permutation.
From Flocq Require Import Core.
From Verif Require Import CppBase CppFacts NumOps Utils_Model Utils_Proofs MCNN_Num Mondrian_Model Mondrian_Spec Mondrian_Proofs Mondrian_Train Mondrian_Forest Mondrian_Num.
Import ListNotations.
Local Open Scope Z_scope.

Lemma zsum_range : forall A (cs : list A) d n, length cs = Z.to_nat n -> cs = map (fun l => nth (Z.to_nat l) cs d) (zrange n).
Proof.
  intros A cs d n H. apply nth_error_ext. intros i. unfold zrange. rewrite map_map, nth_error_map.
  destruct (Nat.lt_ge_cases i (length cs)) as [C|C].
  - rewrite (nth_error_nth' _ 0%nat) by (rewrite seq_length; lia). cbn. rewrite seq_nth by lia. cbn. rewrite Nat2Z.id. now apply nth_error_nth'.
  - rewrite !(proj2 (nth_error_None _ _)); [reflexivity|rewrite seq_length; lia|lia].
Qed.
Lemma fill1 : forall A n (body : Z -> list A -> res (list A)) g l,
  length l = Z.to_nat n ->
  (forall i l', 0 <= i < n -> length l' = Z.to_nat n -> rd l' i = rd l i ->
     exists l'', body i l' = Ok l'' /\ length l'' = Z.to_nat n /\ rd l'' i = Ok (g i) /\ forall j, j <> i -> rd l'' j = rd l' j) -> 0 <= n ->
  forZ (Z.to_nat n) 0 body l = Ok (map g (zrange n)).
Proof.
  intros A n body g l Ll Hb Hn.
  destruct (forZ_inv _ (fun i s => length s = Z.to_nat n /\ (forall d, 0 <= d < i -> rd s d = Ok (g d)) /\ (forall d, i <= d -> rd s d = rd l d)) body (Z.to_nat n) 0 l)
    as [l' [E [E1 [E2 _]]]].
  - split; [exact Ll|]. split; [lia|auto].
  - intros j s Hj [H1 [H2 H3]]. destruct (Hb j s) as [s' [B1 [B2 [B3 B4]]]]; [lia|exact H1|apply H3; lia|].
    exists s'. split; [exact B1|]. split; [exact B2|]. split; intros d Hd.
    + destruct (Z.eq_dec d j) as [->|N]; [exact B3|]. rewrite B4 by exact N. apply H2. lia.
    + rewrite B4 by lia. apply H3. lia.
  - rewrite E. f_equal. apply nth_error_ext. intros i. destruct (Nat.lt_ge_cases i (length l')) as [C|C].
    + specialize (E2 (Z.of_nat i) ltac:(lia)). apply rd_ok_iff in E2. destruct E2 as [_ E2]. rewrite Nat2Z.id in E2. rewrite E2.
      pose proof (rd_zrange A g n (Z.of_nat i) ltac:(lia)) as R. apply rd_ok_iff in R. rewrite Nat2Z.id in R. symmetry. apply R.
    + rewrite !(proj2 (nth_error_None _ _)); [reflexivity|rewrite map_length, zrange_length; lia|lia].
Qed.

Lemma rd_nthZ : forall A (l : list A) i y, 0 <= i < Z.of_nat (length l) -> rd l i = Ok (nth (Z.to_nat i) l y).
Proof. intros. apply rd_ok_iff. split; [lia|]. apply nth_error_nth'. lia. Qed.

Lemma map_same : forall A B (l : list A) (y : B), map (fun _ => y) l = repeat y (length l).
Proof. induction l as [|a l IH]; intros y; cbn; [reflexivity|now rewrite IH]. Qed.

Section Counts.
  Variable O : ops.
  Variable tc fc lc mn : Z.
  Variable lifetime : num O.
  Hypothesis Hlc : 0 <= lc.
  Hypothesis Htc : 0 <= tc.
  Local Notation forest := (forest O).
  Local Notation mtree := (mtree O).
  Local Notation tree_at := (tree_at O fc lc lifetime).
  Local Notation counted := (counted O lc).
  Local Notation present := (present O).
  Local Notation points := (points O).
  Local Notation ids := (ids O).
  Local Notation top := (top O).
  Local Notation count := (count O).
  Local Notation nodes := (nodes O).
  Local Notation roots := (roots O).
  Local Notation is_free := (is_free O).
  Local Notation update := (update_posterior_count O lc).

  Lemma count_pos : forall l (a : list (point O)), 0 <= count l a.
  Proof. intros. apply Zle_0_nat. Qed.
  Lemma present_app : forall l a b, present l (a ++ b) = Z.min 1 (present l a + present l b).
  Proof.
    intros. unfold Mondrian_Spec.present. rewrite count_app. pose proof (count_pos l a). pose proof (count_pos l b).
    destruct (Z.ltb_spec 0 (count l a + count l b)), (Z.ltb_spec 0 (count l a)), (Z.ltb_spec 0 (count l b)); lia.
  Qed.
  Lemma counted_frame : forall t f f', (forall j, In j (ids t) -> rd (nodes f') j = rd (nodes f) j) -> counted f t -> counted f' t.
  Proof.
    induction t as [i pts|i d v l IHl r IHr]; intros f f' H C; [exact I|]. destruct C as [[n [C1 C2]] [C3 C4]]. split; [|split].
    - exists n. split; [|exact C2]. rewrite H; [exact C1|now left].
    - apply IHl with f; [|exact C3]. intros j Hj. apply H. right. apply in_or_app. now left.
    - apply IHr with f; [|exact C4]. intros j Hj. apply H. right. apply in_or_app. now right.
  Qed.
  Lemma top_counter : forall t f p t0 l, tree_at f p t0 t -> counted f t -> 0 <= l < lc ->
    exists n c, rd (nodes f) (top t) = Ok n /\ rd (counters O n) l = Ok c /\ Z.min 1 c = present l (points t).
  Proof.
    intros [i pts|i d v a b] f p t0 l T C Hl.
    - destruct T as [n [T1 T]]. exists n, (count l pts). split; [exact T1|]. split; [apply T, Hl|]. cbn [Mondrian_Spec.points]. unfold Mondrian_Spec.present.
      pose proof (count_pos l pts). destruct (Z.ltb_spec 0 (count l pts)); lia.
    - destruct C as [[n [C1 C2]] _]. exists n. eexists. split; [exact C1|]. split; [apply C2, Hl|]. cbn [Mondrian_Spec.points]. now rewrite present_app.
  Qed.

  (** Only counters differ. *)
  Definition same_but (f f' : forest) (u : list Z) : Prop :=
    roots f' = roots f /\ drawn O f' = drawn O f /\ length (nodes f') = length (nodes f) /\
    forall j n, rd (nodes f) j = Ok n -> exists cs, rd (nodes f') j = Ok (set_counters O n cs) /\ length cs = length (counters O n) /\ (~ In j u -> cs = counters O n).
  Lemma same_refl : forall f u, same_but f f u.
  Proof. intros f u. split; [reflexivity|]. split; [reflexivity|]. split; [reflexivity|]. intros j n H. exists (counters O n). split; [|auto]. rewrite H. now destruct n. Qed.
  Lemma same_trans : forall f g h u v, same_but f g u -> same_but g h v -> same_but f h (u ++ v).
  Proof.
    intros f g h u v [A1 [A2 [A3 A4]]] [B1 [B2 [B3 B4]]]. split; [congruence|]. split; [congruence|]. split; [congruence|]. intros j n H.
    destruct (A4 j n H) as [cs [C1 [C2 C3]]]. destruct (B4 _ _ C1) as [ds [D1 [D2 D3]]]. exists ds. split; [exact D1|]. cbn in D2, D3. split; [congruence|].
    intros N. rewrite D3, C3; auto; intros I; apply N, in_or_app; auto.
  Qed.
  Lemma same_incl : forall f g u v, incl u v -> same_but f g u -> same_but f g v.
  Proof.
    intros f g u v H [A1 [A2 [A3 A4]]]. do 3 (split; [assumption|]). intros j n Hn. destruct (A4 j n Hn) as [cs [C1 [C2 C3]]]. exists cs. split; [exact C1|]. split; [exact C2|]. auto.
  Qed.
  Lemma same_rd : forall f g u j n, same_but f g u -> ~ In j u -> rd (nodes f) j = Ok n -> rd (nodes g) j = Ok n.
  Proof. intros f g u j n [_ [_ [_ A]]] N H. destruct (A j n H) as [cs [C1 [_ C2]]]. rewrite C1, C2 by exact N. now destruct n. Qed.
  Lemma same_free : forall f g u j, same_but f g u -> (is_free g j <-> is_free f j).
  Proof.
    intros f g u j [_ [_ [E A]]]. unfold Mondrian_Spec.is_free. split; intros [n [H1 H2]].
    - pose proof (rd_bounds _ _ _ _ H1) as B. rewrite E in B. destruct (rd_in_bounds _ (nodes f) j B) as [m Hm]. exists m. split; [exact Hm|].
      destruct (A j m Hm) as [cs [C1 _]]. rewrite C1 in H1. injection H1 as <-. exact H2.
    - destruct (A j n H1) as [cs [C1 _]]. eexists. split; [exact C1|exact H2].
  Qed.
  Fixpoint fork_ids (t : mtree) : list Z := match t with Leaf _ _ => [] | Fork i _ _ l r => i :: fork_ids l ++ fork_ids r end.
  Lemma fork_ids_in : forall t, incl (fork_ids t) (ids t).
  Proof.
    induction t as [i pts|i d v l IHl r IHr]; intros j Hj; [destruct Hj|]. destruct Hj as [<-|Hj]; [now left|]. right. apply in_or_app.
    apply in_app_or in Hj. destruct Hj as [Hj|Hj]; [left; now apply IHl|right; now apply IHr].
  Qed.
  (** Changing counters of internal nodes keeps the tree. *)
  Lemma same_tree : forall t f g p t0 u, same_but f g u -> (forall i, In i u -> In i (ids t) -> In i (fork_ids t)) -> NoDup (ids t) -> tree_at f p t0 t -> tree_at g p t0 t.
  Proof.
    induction t as [i pts|i d v l IHl r IHr]; intros f g p t0 u S H ND T.
    - destruct T as [n [T1 [T2 [T3 [T4 [T5 [T6 T7]]]]]]]. exists n. split; [|tauto]. apply (same_rd f g u); auto. intros I. apply (H i I). now left.
    - destruct T as [n [T1 [T2 [T3 [T4 [T5 [T6 [T7 [T8 [T9 [T10 [T11 [T12 [T13 T14]]]]]]]]]]]]]].
      cbn in ND. apply NoDup_cons_iff in ND. destruct ND as [N1 N2]. destruct (nodup_app _ _ _ N2) as [Nl [Nr Nd]].
      destruct (proj2 (proj2 (proj2 S)) _ _ T1) as [cs [C1 [C2 _]]]. exists (set_counters O n cs). split; [exact C1|]. split; [exact T2|]. split; [exact T3|].
      split; [cbn; congruence|]. do 8 (split; [assumption|]). split.
      + apply IHl with f u; auto. intros j Hu Hj. assert (I1 : In j (ids (Fork i d v l r))) by (right; apply in_or_app; now left).
        destruct (H j Hu I1) as [<-|E]; [exfalso; apply N1, in_or_app; now left|]. apply in_app_or in E. destruct E as [E|E]; [exact E|].
        exfalso. apply (Nd j Hj). now apply fork_ids_in.
      + apply IHr with f u; auto. intros j Hu Hj. assert (I1 : In j (ids (Fork i d v l r))) by (right; apply in_or_app; now right).
        destruct (H j Hu I1) as [<-|E]; [exfalso; apply N1, in_or_app; now right|]. apply in_app_or in E. destruct E as [E|E]; [|exact E].
        exfalso. apply (Nd j); [now apply fork_ids_in|exact Hj].
  Qed.

  Lemma update_ok : forall t f p t0 steps, (length (ids t) <= steps)%nat -> NoDup (ids t) -> tree_at f p t0 t ->
    exists f', update steps f (top t) = Ok f' /\ same_but f f' (fork_ids t) /\ counted f' t.
  Proof.
    induction t as [i pts|i d v l IHl r IHr]; intros f p t0 steps Hs ND T; (destruct steps as [|steps]; [cbn in Hs; lia|]).
    - destruct T as [n [T1 [_ [_ [_ [_ [_ [T7 _]]]]]]]]. cbn [Mondrian_Spec.top] in *. cbn [update_posterior_count]. rewrite T1. cbn [bind]. unfold is_leaf. rewrite T7.
      exists f. split; [reflexivity|]. split; [apply same_refl|exact I].
    - pose proof T as [n [T1 [T2 [T3 [T4 [T5 [T6 [T7 [T8 [T9 [T10 [T11 [T12 [T13 T14]]]]]]]]]]]]]].
      cbn in ND. apply NoDup_cons_iff in ND. destruct ND as [N1 N2]. destruct (nodup_app _ _ _ N2) as [Nl [Nr Nd]]. cbn in Hs. rewrite app_length in Hs.
      cbn [Mondrian_Spec.top] in *. cbn [update_posterior_count]. rewrite T1. cbn [bind]. unfold is_leaf. rewrite T7, T11, T12. rewrite (proj2 (Z.eqb_neq d (-1))) by lia.
      destruct (IHl f i (tau O n) steps) as [f1 [E1 [S1 C1]]]; [lia|exact Nl|exact T13|]. rewrite E1. cbn [bind].
      assert (Tr : tree_at f1 i (tau O n) r).
      { apply same_tree with f (fork_ids l); auto. intros j H1 H2. exfalso. apply (Nd j); [now apply fork_ids_in|exact H2]. }
      destruct (IHr f1 i (tau O n) steps) as [f2 [E2 [S2 C2]]]; [lia|exact Nr|exact Tr|]. rewrite E2. cbn [bind].
      assert (S12 : same_but f f2 (fork_ids l ++ fork_ids r)) by now apply same_trans with f1.
      assert (Nil : ~ In i (ids l)) by (intros H; apply N1, in_or_app; now left). assert (Nir : ~ In i (ids r)) by (intros H; apply N1, in_or_app; now right).
      assert (Ti : rd (nodes f2) i = Ok n).
      { apply (same_rd f f2 _ i n S12); auto. intros H. apply in_app_or in H. destruct H as [H|H]; apply fork_ids_in in H; auto. }
      assert (Tl2 : tree_at f2 i (tau O n) l).
      { apply same_tree with f (fork_ids l ++ fork_ids r); auto. intros j H1 H2. apply in_app_or in H1. destruct H1 as [H1|H1]; [exact H1|]. exfalso. apply (Nd j H2). now apply fork_ids_in. }
      assert (Tr2 : tree_at f2 i (tau O n) r).
      { apply same_tree with f (fork_ids l ++ fork_ids r); auto. intros j H1 H2. apply in_app_or in H1. destruct H1 as [H1|H1]; [|exact H1]. exfalso. apply (Nd j); [|exact H2]. now apply fork_ids_in. }
      assert (Cl2 : counted f2 l).
      { apply counted_frame with f1; [|exact C1]. intros j Hj. destruct S1 as [_ [_ [Ln _]]]. destruct S2 as [Q1 [Q2 [Q3 Q4]]].
        destruct (rd (nodes f1) j) as [m| | |] eqn:Em.
        - apply (same_rd f1 f2 (fork_ids r) j m); [split; auto|intros H; apply (Nd j Hj); now apply fork_ids_in|exact Em].
        - exfalso. destruct (rd_in_bounds _ (nodes f1) j) as [m Hm]; [|congruence]. rewrite Ln.
          clear - T13 Hj. revert i T13. generalize (tau O n). induction l as [a pts|a d' v' l1 IH1 l2 IH2]; intros t1 i' T.
          + destruct T as [m [M _]]. destruct Hj as [<-|[]]. now apply rd_bounds in M.
          + destruct T as [m [M [_ [_ [_ [_ [_ [_ [_ [_ [_ [_ [_ [Ta Tb]]]]]]]]]]]]]]. destruct Hj as [<-|Hj]; [now apply rd_bounds in M|].
            apply in_app_or in Hj. destruct Hj as [Hj|Hj]; [now apply (IH1 Hj (tau O m) a)|now apply (IH2 Hj (tau O m) a)].
        - exfalso. unfold rd in Em. destruct (j <? 0); [discriminate|]. destruct (nth_error _ _); discriminate.
        - exfalso. unfold rd in Em. destruct (j <? 0); [discriminate|]. destruct (nth_error _ _); discriminate. }
      set (g := fun y => present y (points l) + present y (points r)).
      set (body := fun (i0 : Z) (f0 : forest) => do n0 <- rd (nodes f0) i;
               do l0 <- rd (nodes f0) (child_left O n0); do cl <- rd (counters O l0) i0;
               do r0 <- rd (nodes f0) (child_right O n0); do cr <- rd (counters O r0) i0;
               with_node O f0 i (fun n1 => do cs <- wr (counters O n1) i0 (Z.min 1 cl + Z.min 1 cr); Ok (set_counters O n1 cs))).
      destruct (forZ_inv _ (fun y f0 => exists cs, f0 = put O f2 i (set_counters O n cs) /\ length cs = Z.to_nat lc /\ forall z, 0 <= z < y -> rd cs z = Ok (g z)) body (Z.to_nat lc) 0 f2)
        as [f3 [E3 [cs [-> [L3 G3]]]]].
      + exists (counters O n). split; [|split; [exact T4|lia]]. destruct f2 as [ns rs dr]. unfold put. cbn in *. f_equal. symmetry. apply upd_same_id. apply rd_ok_iff in Ti. destruct n. apply Ti.
      + intros y f0 Hy [cs [-> [Lc Gc]]]. set (fc' := put O f2 i (set_counters O n cs)).
        assert (D : forall j, rd (nodes fc') j = if i =? j then Ok (set_counters O n cs) else rd (nodes f2) j) by (intros j; unfold fc'; now apply rd_put with n).
        destruct (top_counter l f2 i (tau O n) y Tl2 Cl2) as [nl [cl [A1 [A2 A3]]]]; [lia|].
        destruct (top_counter r f2 i (tau O n) y Tr2 C2) as [nr [cr [B1 [B2 B3]]]]; [lia|].
        assert (Itl : i <> top l) by (intros ->; apply Nil, top_in). assert (Itr : i <> top r) by (intros ->; apply Nir, top_in).
        unfold body. rewrite D, Z.eqb_refl. cbn [bind set_counters child_left child_right]. rewrite T11, T12, !D.
        rewrite (proj2 (Z.eqb_neq i (top l))), (proj2 (Z.eqb_neq i (top r))) by assumption. rewrite A1. cbn [bind]. rewrite A2. cbn [bind]. rewrite B1. cbn [bind]. rewrite B2. cbn [bind].
        erewrite with_node_ok; [|rewrite D, Z.eqb_refl; reflexivity|cbn [set_counters counters]; rewrite wr_ok by lia; reflexivity].
        eexists. split; [reflexivity|]. eexists. split.
        { unfold fc', put. cbn [Mondrian_Model.nodes Mondrian_Model.roots drawn]. rewrite upd_upd. reflexivity. }
        rewrite upd_length. split; [exact Lc|]. intros z Hz. rewrite rd_upd by lia. destruct (Z.eqb_spec y z) as [->|N]; [unfold g; congruence|]. apply Gc. lia.
      + change (forZ (Z.to_nat lc) 0 body f2 = Ok (put O f2 i (set_counters O n cs))) in E3. exists (put O f2 i (set_counters O n cs)). split; [exact E3|].
        assert (D : forall j, rd (nodes (put O f2 i (set_counters O n cs))) j = if i =? j then Ok (set_counters O n cs) else rd (nodes f2) j) by (intros j; now apply rd_put with n).
        assert (S3 : same_but f2 (put O f2 i (set_counters O n cs)) [i]).
        { split; [reflexivity|]. split; [reflexivity|]. split; [apply put_length|]. intros j m Hm. rewrite D. destruct (Z.eqb_spec i j) as [<-|N].
          - rewrite Ti in Hm. injection Hm as <-. exists cs. split; [reflexivity|]. split; [congruence|]. intros H. exfalso. apply H. now left.
          - exists (counters O m). split; [rewrite Hm; now destruct m|]. auto. }
        split; [|split; [|split]].
        * apply same_incl with ((fork_ids l ++ fork_ids r) ++ [i]); [|now apply same_trans with f2]. intros j Hj. apply in_app_or in Hj. destruct Hj as [Hj|[<-|[]]]; [now right|now left].
        * exists (set_counters O n cs). split; [rewrite D; now rewrite Z.eqb_refl|]. intros z Hz. cbn [counters set_counters]. apply G3. lia.
        * apply counted_frame with f2; [|exact Cl2]. intros j Hj. rewrite D. rewrite (proj2 (Z.eqb_neq i j)); [reflexivity|]. intros ->. contradiction.
        * apply counted_frame with f2; [|exact C2]. intros j Hj. rewrite D. rewrite (proj2 (Z.eqb_neq i j)); [reflexivity|]. intros ->. contradiction.
  Qed.

  (** ** All trees *)
  Local Notation holds := (holds O tc fc lc mn lifetime).
  Local Notation n_ := (nofZ O).
  Lemma trees_apart : forall (ts : list mtree) a b t s j, NoDup (all_ids O ts) -> nth_error ts a = Some t -> nth_error ts b = Some s ->
    In j (ids t) -> In j (ids s) -> a = b.
  Proof.
    intros ts. induction ts as [|r ts IH]; intros a b t s j ND Ha Hb It Is; [destruct a; discriminate|].
    unfold all_ids in ND. cbn [map concat] in ND. destruct (nodup_app _ _ _ ND) as [_ [N2 N3]].
    assert (X : forall a t, nth_error ts a = Some t -> In j (ids t) -> In j (concat (map ids ts))).
    { intros a0 t0 H I0. apply in_concat. exists (ids t0). split; [apply in_map; now apply nth_error_In with a0|exact I0]. }
    destruct a as [|a], b as [|b]; cbn in Ha, Hb.
    - reflexivity.
    - injection Ha as ->. exfalso. apply (N3 j It). now apply X with b s.
    - injection Hb as ->. exfalso. apply (N3 j Is). now apply X with a t.
    - f_equal. now apply IH with t s j.
  Qed.
  Lemma tree_nodup : forall (ts : list mtree) a t, NoDup (all_ids O ts) -> nth_error ts a = Some t -> NoDup (ids t).
  Proof.
    intros ts. induction ts as [|r ts IH]; intros a t ND H; [destruct a; discriminate|].
    unfold all_ids in ND. cbn [map concat] in ND. destruct (nodup_app _ _ _ ND) as [N1 [N2 _]]. destruct a as [|a]; cbn in H; [now injection H as <-|now apply IH with a].
  Qed.
  Definition all_forks (ts : list mtree) : list Z := concat (map fork_ids ts).
  Lemma all_forks_in : forall ts j, In j (all_forks ts) -> In j (all_ids O ts).
  Proof.
    intros ts j H. apply in_concat in H. destruct H as [u [H1 H2]]. apply in_map_iff in H1. destruct H1 as [t [<- H1]].
    apply in_concat. exists (ids t). split; [now apply in_map|now apply fork_ids_in].
  Qed.
  Lemma same_trees : forall ts f g a t p t0, NoDup (all_ids O ts) -> same_but f g (all_forks ts) -> nth_error ts a = Some t -> tree_at f p t0 t -> tree_at g p t0 t.
  Proof.
    intros ts f g a t p t0 ND S Ht T. apply same_tree with f (all_forks ts); auto; [|now apply tree_nodup with ts a].
    intros i H1 H2. apply in_concat in H1. destruct H1 as [u [H3 H4]]. apply in_map_iff in H3. destruct H3 as [s [<- H3]].
    apply In_nth_error in H3. destruct H3 as [b Hb]. assert (a = b) by (apply trees_apart with ts t s i; auto; now apply fork_ids_in). subst b. congruence.
  Qed.
  Lemma update_all_ok : forall f ts lost, holds f ts lost ->
    exists f', update_all O tc lc mn f = Ok f' /\ holds f' ts lost /\ same_but f f' (all_forks ts) /\ Forall (counted f') ts.
  Proof.
    intros f ts lost [H1 [H2 [H3 [H4 [H5 [H6 H7]]]]]].
    assert (ND : NoDup (all_ids O ts)) by (destruct H5 as [_ [N _]]; now apply nodup_app in N).
    unfold update_all.
    destruct (forZ_inv _ (fun i g => same_but f g (all_forks ts) /\ forall a t, Z.of_nat a < i -> nth_error ts a = Some t -> counted g t)
      (fun i f => do root <- rd (roots f) i; if root =? -1 then Ok f else update_posterior_count O lc (S (Z.to_nat mn)) f root) (Z.to_nat tc) 0 f) as [f' [E [S C]]].
    - split; [apply same_refl|lia].
    - intros i g Hi [S C]. pose proof S as [R [D [Ln Q]]]. rewrite R.
      destruct (nth_error ts (Z.to_nat i)) as [t|] eqn:Et.
      + destruct (H3 _ _ Et) as [Hr Tt]. rewrite Z2Nat.id in Hr by lia. rewrite Hr. cbn [bind].
        assert (Sub : forall j, In j (ids t) -> In j (all_ids O ts)).
        { intros j Hj. apply in_concat. exists (ids t). split; [apply in_map; now apply nth_error_In with (Z.to_nat i)|exact Hj]. }
        assert (Bt : 0 <= top t < mn) by (eapply pool_in; [exact H5|apply Sub, top_in]).
        rewrite (proj2 (Z.eqb_neq (top t) (-1))) by lia.
        assert (Lt : (length (ids t) <= Z.to_nat mn)%nat).
        { apply Nat.le_trans with (length (all_ids O ts)); [|now apply (pool_len _ _ _ _ _ H5)].
          apply NoDup_incl_length; [now apply tree_nodup with ts (Z.to_nat i)|exact Sub]. }
        destruct (update_ok t g (-1) (n_ 0) (Datatypes.S (Z.to_nat mn))) as [g' [E1 [S1 C1]]]; [lia|now apply tree_nodup with ts (Z.to_nat i)|now apply same_trees with ts f (Z.to_nat i)|].
        exists g'. split; [exact E1|].
        assert (Fin : incl (fork_ids t) (all_forks ts)).
        { intros j Hj. apply in_concat. exists (fork_ids t). split; [apply in_map; now apply nth_error_In with (Z.to_nat i)|exact Hj]. }
        split.
        * apply same_incl with (all_forks ts ++ fork_ids t); [|now apply same_trans with g]. intros j Hj. apply in_app_or in Hj. destruct Hj; auto.
        * intros a s Ha Hs. destruct (Nat.eq_dec a (Z.to_nat i)) as [->|N]; [rewrite Et in Hs; now injection Hs as <-|].
          apply counted_frame with g; [|apply (C a); auto; lia]. intros j Hj.
          assert (Nj : ~ In j (fork_ids t)) by (intros I; apply N; apply trees_apart with ts s t j; auto; now apply fork_ids_in).
          assert (Bj : 0 <= j < Z.of_nat (length (nodes g))).
          { rewrite Ln. destruct H5 as [P1 [_ [P3 _]]]. rewrite P1. apply P3. apply in_or_app. left. apply in_concat. exists (ids s). split; [apply in_map; now apply nth_error_In with a|exact Hj]. }
          destruct (rd_in_bounds _ _ _ Bj) as [m Hm]. rewrite Hm. now apply (same_rd g g' (fork_ids t)).
      + apply nth_error_None in Et. rewrite H4 by lia. cbn [bind]. rewrite Z.eqb_refl. exists g. split; [reflexivity|]. split; [exact S|].
        intros a t _ Ha. apply (C a); auto. assert (nth_error ts a <> None) by congruence. apply nth_error_Some in H. lia.
    - exists f'. split; [exact E|]. split; [|split; [exact S|]].
      + pose proof S as [R [D [Ln Q]]]. split; [congruence|]. split; [exact H2|]. rewrite R. split; [|split; [exact H4|split; [|split]]].
        * intros i t Ht. destruct (H3 i t Ht) as [A B]. split; [exact A|]. now apply same_trees with ts f i.
        * apply pool_same with f; auto. intros i. now apply same_free with (all_forks ts).
        * apply lost_same with f; auto. intros i. now apply same_free with (all_forks ts).
        * intros i n Hn Av. assert (Bi : 0 <= i < Z.of_nat (length (nodes f))) by (rewrite <- Ln; now apply rd_bounds in Hn).
          destruct (rd_in_bounds _ _ _ Bi) as [m Hm]. assert (F : is_free f i) by (apply (same_free f f' (all_forks ts)); auto; exists n; auto).
          assert (N : ~ In i (all_forks ts)) by (intros I; eapply (pool_used _ _ _ _ _ _ H5); [now apply all_forks_in; exact I|exact F]).
          pose proof (same_rd f f' _ i m S N Hm) as E2. rewrite E2 in Hn. injection Hn as <-. now apply (H7 i).
      + apply Forall_forall. intros t It. apply In_nth_error in It. destruct It as [a Ha]. apply (C a); auto.
        assert (nth_error ts a <> None) by congruence. apply nth_error_Some in H. lia.
  Qed.
End Counts.

(** ** Posterior means *)
Section Means.
  Variable O : ops.
  Variable exp_ : num O -> num O.
  Variable tc fc lc mn : Z.
  Variable lifetime base_measure discount_factor : num O.
  Hypothesis Hlc : 1 <= lc.
  Hypothesis Htc : 0 <= tc.
  Hypothesis Hfc : 0 <= fc.
  Local Notation forest := (forest O).
  Local Notation mtree := (mtree O).
  Local Notation tree_at := (tree_at O fc lc lifetime).
  Local Notation points := (points O).
  Local Notation ids := (ids O).
  Local Notation top := (top O).
  Local Notation nodes := (nodes O).
  Local Notation roots := (roots O).
  Local Notation n_ := (nofZ O).
  Local Notation holds := (holds O tc fc lc mn lifetime).

  Definition at_ (l : list (num O)) (i : Z) : num O := nth (Z.to_nat i) l (n_ 0).
  Definition cnt (n : node O) (i : Z) : Z := nth (Z.to_nat i) (counters O n) 0.
  Lemma rd_at : forall l i, 0 <= i < Z.of_nat (length l) -> rd l i = Ok (at_ l i).
  Proof. intros. now apply rd_nthZ. Qed.
  Lemma rd_cnt : forall n i, length (counters O n) = Z.to_nat lc -> 0 <= i < lc -> rd (counters O n) i = Ok (cnt n i).
  Proof. intros. apply rd_nthZ. lia. Qed.

  Definition new_mean (D : num O) (n : node O) (means : list (num O)) (i : Z) : num O :=
    let c := cnt n i in
    let sum := fold_left (nadd O) (map (fun i => n_ (cnt n i)) (zrange lc)) (n_ 0) in
    let tab := fold_left (nadd O) (map (fun i => n_ (Z.min (cnt n i) 1)) (zrange lc)) (n_ 0) in
    if 0 <? c then nadd O (ndiv O (nsub O (n_ c) (nmul O D (n_ (Z.min c 1)))) sum) (ndiv O (nmul O (nmul O D tab) (at_ means i)) sum)
    else at_ means i.
  Lemma posterior_ok : forall f n means pt, length (counters O n) = Z.to_nat lc -> length means = Z.to_nat lc -> parent_time O f n = Ok pt ->
    compute_posterior_mean O exp_ lc discount_factor f n means =
    Ok (map (new_mean (exp_ (nmul O discount_factor (nsub O (tau O n) pt))) n means) (zrange lc)).
  Proof.
    intros f n means pt Lc Lm P. unfold compute_posterior_mean. rewrite P. cbn [bind].
    set (D := exp_ _).
    assert (B : forall k, 0 <= k <= lc -> forZ (Z.to_nat k) 0
      (fun i '(tab, (sum_counters, sum_tab)) => do c <- rd (counters O n) i; let t := n_ (Z.min c 1) in Ok (tab ++ [t], (nadd O sum_counters (n_ c), nadd O sum_tab t))) ([], (n_ 0, n_ 0)) =
      Ok (map (fun i => n_ (Z.min (cnt n i) 1)) (zrange k), (fold_left (nadd O) (map (fun i => n_ (cnt n i)) (zrange k)) (n_ 0), fold_left (nadd O) (map (fun i => n_ (Z.min (cnt n i) 1)) (zrange k)) (n_ 0)))).
    { intros k Hk. destruct (forZ_inv _ (fun i s => s = (map (fun i => n_ (Z.min (cnt n i) 1)) (zrange i), (fold_left (nadd O) (map (fun i => n_ (cnt n i)) (zrange i)) (n_ 0), fold_left (nadd O) (map (fun i => n_ (Z.min (cnt n i) 1)) (zrange i)) (n_ 0))))
        (fun i '(tab, (sum_counters, sum_tab)) => do c <- rd (counters O n) i; let t := n_ (Z.min c 1) in Ok (tab ++ [t], (nadd O sum_counters (n_ c), nadd O sum_tab t))) (Z.to_nat k) 0 ([], (n_ 0, n_ 0))) as [s [E1 E2]].
      - reflexivity.
      - intros i s Hi ->. rewrite rd_cnt by (auto; lia). cbn [bind]. eexists. split; [reflexivity|]. rewrite zrange_snoc by lia. now rewrite !map_app, !fold_left_app.
      - rewrite E1, E2. now rewrite Z.add_0_l, Z2Nat.id by lia. }
    rewrite B by lia. cbn [bind].
    apply fill1; [exact Lm| |lia]. intros i m Hi Lm' E. rewrite rd_cnt by (auto; lia). cbn [bind]. unfold new_mean.
    destruct (Z.ltb_spec 0 (cnt n i)) as [C|C].
    - rewrite rd_zrange by lia. cbn [bind]. rewrite E. rewrite rd_at by lia. cbn [bind]. rewrite wr_ok by lia. eexists. split; [reflexivity|].
      rewrite upd_length. split; [exact Lm'|]. split; [rewrite rd_upd by lia; now rewrite Z.eqb_refl|]. intros j Hj.
      destruct (Z.ltb_spec j 0); [now rewrite !rd_oob by lia|]. rewrite rd_upd by lia. now rewrite (proj2 (Z.eqb_neq i j)) by lia.
    - exists m. split; [reflexivity|]. split; [exact Lm'|]. split; [|auto]. rewrite E. apply rd_at. lia.
  Qed.

  Lemma smooth_ok : forall n eta dt sep br means smoothed, length (counters O n) = Z.to_nat lc -> length means = Z.to_nat lc -> length smoothed = Z.to_nat lc ->
    exists s, smooth O exp_ lc discount_factor n eta dt sep br means smoothed = Ok s /\ length s = Z.to_nat lc /\ (nlt O (n_ 0) br = false -> s = smoothed).
  Proof.
    intros n eta dt sep br means smoothed Lc Lm Ls. unfold smooth. destruct (nlt O (n_ 0) br) eqn:B; [|exists smoothed; auto].
    rewrite build_sum with (add := nadd O) (g := fun l => n_ (Z.min (cnt n l) 1)); [|intros i l s Hi; rewrite rd_cnt by (auto; lia); reflexivity|lia]. cbn [bind].
    match goal with |- exists s, forZ _ _ ?body _ = _ /\ _ => destruct (forZ_inv _ (fun _ s => length s = Z.to_nat lc) body (Z.to_nat lc) 0 smoothed) as [s [E1 E2]] end.
    - exact Ls.
    - intros i s Hi Hs. rewrite rd_zrange by lia. cbn [bind]. rewrite rd_at by lia. cbn [bind]. rewrite rd_at by lia. cbn [bind]. rewrite wr_ok by lia.
      eexists. split; [reflexivity|]. now rewrite upd_length.
    - rewrite E1. exists s. split; [reflexivity|]. split; [exact E2|discriminate].
  Qed.
  Definition under (f : forest) (p : Z) (pt : num O) : Prop := (p = -1 /\ pt = n_ 0) \/ (0 <= p /\ exists m, rd (nodes f) p = Ok m /\ tau O m = pt).
  Lemma under_time : forall f n pt, under f (parent O n) pt -> parent_time O f n = Ok pt.
  Proof.
    intros f n pt [[H1 H2]|[H1 [m [H2 H3]]]]; unfold parent_time.
    - rewrite H1. cbn. now rewrite H2.
    - rewrite (proj2 (Z.leb_le 0 _)) by lia. rewrite H2. cbn. now rewrite H3.
  Qed.
  Lemma final_ok : forall s m k, length s = Z.to_nat lc -> length m = Z.to_nat lc ->
    forZ (Z.to_nat lc) 0 (fun l means => do s0 <- rd s l; do m0 <- rd means l; wr means l (nadd O s0 (nmul O k m0))) m =
    Ok (map (fun i => nadd O (at_ s i) (nmul O k (at_ m i))) (zrange lc)).
  Proof.
    intros s m k Ls Lm. apply fill1; [exact Lm| |lia]. intros i l Hi Ll E. rewrite rd_at by lia. cbn [bind]. rewrite E, rd_at by lia. cbn [bind].
    rewrite wr_ok by lia. eexists. split; [reflexivity|]. rewrite upd_length. split; [exact Ll|]. split; [rewrite rd_upd by lia; now rewrite Z.eqb_refl|]. intros j Hj.
    destruct (Z.ltb_spec j 0); [now rewrite !rd_oob by lia|]. rewrite rd_upd by lia. now rewrite (proj2 (Z.eqb_neq i j)) by lia.
  Qed.
  Variable x : list (num O).
  Hypothesis Hx : length x = Z.to_nat fc.
  Definition eta_of (n : node O) (d : Z) : num O := nadd O (max0 O (nsub O (at_ x d) (val O (bound_upper O n) d))) (max0 O (nsub O (val O (bound_lower O n) d) (at_ x d))).
  Lemma eta_ok : forall n pts, bounding O fc pts (bound_lower O n) (bound_upper O n) ->
    compute_eta O fc n x = Ok (fold_left (nadd O) (map (eta_of n) (zrange fc)) (n_ 0)).
  Proof.
    intros n pts B. unfold compute_eta.
    match goal with |- forZ _ _ ?body _ = _ => destruct (forZ_inv _ (fun i s => s = fold_left (nadd O) (map (eta_of n) (zrange i)) (n_ 0)) body (Z.to_nat fc) 0 (n_ 0)) as [s [E1 E2]] end.
    - reflexivity.
    - intros i s Hi ->. destruct (rdi_box _ _ _ _ _ i B) as [R1 R2]; [lia|]. rewrite rd_at by lia. cbn [bind]. rewrite R2. cbn [bind]. rewrite R1. cbn [bind].
      eexists. split; [reflexivity|]. rewrite zrange_snoc by lia. now rewrite map_app, fold_left_app.
    - rewrite E1, E2. now rewrite Z.add_0_l, Z2Nat.id by lia.
  Qed.

  Local Notation walk := (predict_from O exp_ fc lc discount_factor).
  Lemma walk_ok : forall t f p pt steps sep means smoothed, (length (ids t) <= steps)%nat -> (forall j, In j (ids t) -> 0 <= j) ->
    tree_at f p pt t -> under f p pt -> length means = Z.to_nat lc -> length smoothed = Z.to_nat lc ->
    exists m, walk steps f (top t) x sep means smoothed = Ok m /\ length m = Z.to_nat lc.
  Proof.
    induction t as [i pts|i d v l IHl r IHr]; intros f p pt steps sep means smoothed Hs Hi T U Lm Ls; (destruct steps as [|steps]; [cbn in Hs; lia|]);
      cbn [Mondrian_Spec.top] in *; cbn [predict_from]; (rewrite (proj2 (Z.eqb_neq i (-1))) by (specialize (Hi i (or_introl eq_refl)); lia)).
    - destruct T as [n [T1 [T2 [T3 [T4 [T5 [T6 [T7 _]]]]]]]]. cbn [Mondrian_Spec.top] in T1. rewrite T1. cbn [bind]. rewrite (eta_ok _ _ T3). cbn [bind].
      match goal with |- context [smooth O exp_ lc discount_factor n ?a ?b ?c ?d ?e ?g] => destruct (smooth_ok n a b c d e g T4 Lm Ls) as [s [E1 [E2 _]]]; rewrite E1 end. cbn [bind].
      erewrite posterior_ok by (eauto; apply under_time; rewrite T2; exact U). cbn [bind]. unfold is_leaf. rewrite T7. cbn [Z.eqb].
      rewrite final_ok by (auto; rewrite map_length, zrange_length; reflexivity). eexists. split; [reflexivity|]. now rewrite map_length, zrange_length.
    - destruct T as [n [T1 [T2 [T3 [T4 [T5 [T6 [T7 [T8 [T9 [T10 [T11 [T12 [T13 T14]]]]]]]]]]]]]]. cbn [Mondrian_Spec.top] in T1. rewrite T1. cbn [bind]. rewrite (eta_ok _ _ T3). cbn [bind].
      match goal with |- context [smooth O exp_ lc discount_factor n ?a ?b ?c ?d ?e ?g] => destruct (smooth_ok n a b c d e g T4 Lm Ls) as [s [E1 [E2 _]]]; rewrite E1 end. cbn [bind].
      erewrite posterior_ok by (eauto; apply under_time; rewrite T2; exact U). cbn [bind]. unfold is_leaf. rewrite T7. rewrite (proj2 (Z.eqb_neq d (-1))) by lia.
      rewrite rd_at by lia. cbn [bind]. rewrite T9. cbn [bind]. rewrite T11, T12. cbn in Hs. rewrite app_length in Hs.
      assert (U' : under f i (tau O n)) by (right; split; [apply Hi; now left|]; eauto).
      destruct (nle O (at_ x d) v); [apply IHl with i (tau O n)|apply IHr with i (tau O n)]; auto; try lia;
        try (intros j Hj; apply Hi; right; apply in_or_app; auto); now rewrite map_length, zrange_length.
  Qed.

  Local Notation means := (forest_means O exp_ tc fc lc mn base_measure discount_factor).
  Lemma predict_tree_ok : forall f ts lost k, holds f ts lost -> 0 <= k < tc ->
    exists m, predict_tree O exp_ fc lc mn base_measure discount_factor f x k = Ok m /\ length m = Z.to_nat lc.
  Proof.
    intros f ts lost k [H1 [H2 [H3 [H4 [H5 _]]]]] Hk. unfold predict_tree.
    assert (ND : NoDup (all_ids O ts)) by (destruct H5 as [_ [N _]]; now apply nodup_app in N).
    destruct (nth_error ts (Z.to_nat k)) as [t|] eqn:Et.
    - destruct (H3 _ _ Et) as [Hr Tt]. rewrite Z2Nat.id in Hr by lia. rewrite Hr. cbn [bind].
      assert (Sub : forall j, In j (ids t) -> In j (all_ids O ts)).
      { intros j Hj. apply in_concat. exists (ids t). split; [apply in_map; now apply nth_error_In with (Z.to_nat k)|exact Hj]. }
      assert (Lt : (length (ids t) <= Z.to_nat mn)%nat).
      { apply Nat.le_trans with (length (all_ids O ts)); [|now apply (pool_len _ _ _ _ _ H5)].
        apply NoDup_incl_length; [now apply tree_nodup with ts (Z.to_nat k)|exact Sub]. }
      apply walk_ok with (-1) (n_ 0); rewrite ?repeat_length; auto.
      + intros j Hj. eapply pool_in in H5; [|apply Sub, Hj]. lia.
      + left. auto.
    - apply nth_error_None in Et. rewrite H4 by lia. cbn [bind predict_from]. rewrite Z.eqb_refl. eexists. split; [reflexivity|]. now rewrite repeat_length.
  Qed.
  Definition tree_means (f : forest) (k : Z) : list (num O) := match predict_tree O exp_ fc lc mn base_measure discount_factor f x k with Ok m => m | _ => [] end.
  Lemma means_ok : forall f ts lost, holds f ts lost ->
    means f x = Ok (map (fun l => ndiv O (fold_left (nadd O) (map (fun k => at_ (tree_means f k) l) (zrange tc)) (n_ 0)) (n_ tc)) (zrange lc)).
  Proof.
    intros f ts lost H. unfold forest_means.
    set (sums := fun i => map (fun l => fold_left (nadd O) (map (fun k => at_ (tree_means f k) l) (zrange i)) (n_ 0)) (zrange lc)).
    match goal with |- bind (forZ _ _ ?body _) _ = _ => destruct (forZ_inv _ (fun i s => s = sums i) body (Z.to_nat tc) 0 (repeat (n_ 0) (Z.to_nat lc))) as [s [E1 E2]] end.
    - unfold sums. cbn. symmetry. rewrite map_same, zrange_length. reflexivity.
    - intros k s Hk ->. destruct (predict_tree_ok f ts lost k H) as [m [Em Lm]]; [lia|]. rewrite Em. cbn [bind].
      exists (sums (k + 1)). split; [|reflexivity]. unfold sums at 2.
      apply fill1; [unfold sums; now rewrite map_length, zrange_length| |lia]. intros i l Hi Ll E. rewrite E. unfold sums at 1. rewrite rd_zrange by lia. cbn [bind].
      rewrite rd_at by lia. cbn [bind]. rewrite wr_ok by lia. eexists. split; [reflexivity|]. rewrite upd_length. split; [exact Ll|]. split.
      + rewrite rd_upd by lia. rewrite Z.eqb_refl. rewrite zrange_snoc by lia. rewrite map_app, fold_left_app. cbn. unfold tree_means at 3. now rewrite Em.
      + intros j Hj. destruct (Z.ltb_spec j 0); [now rewrite !rd_oob by lia|]. rewrite rd_upd by lia. now rewrite (proj2 (Z.eqb_neq i j)) by lia.
    - rewrite E1, E2. cbn [bind]. rewrite Z.add_0_l, Z2Nat.id by lia. unfold sums. now rewrite map_map.
  Qed.
  (** A prediction changes nothing but counters of internal nodes, and its label is one of the forest. *)
  Lemma predict_ok : forall f ts lost sc, holds f ts lost ->
    exists f' m b, predict O exp_ tc fc lc mn base_measure discount_factor f x sc = Ok (f', b, sc) /\ update_all O tc lc mn f = Ok f' /\ holds f' ts lost /\
      same_but O f f' (all_forks O ts) /\ Forall (counted O lc f') ts /\
      means f' x = Ok m /\ length m = Z.to_nat lc /\ index_max (fun a b => nlt O b a) m lc = Ok b /\ 0 <= b < lc.
  Proof.
    intros f ts lost sc H. destruct (update_all_ok O tc fc lc mn lifetime f ts lost H) as [f' [E [H' [S C]]]].
    pose proof (means_ok f' ts lost H') as M. set (m := map _ _) in M.
    assert (Lm : length m = Z.to_nat lc) by (unfold m; now rewrite map_length, zrange_length).
    assert (X : exists b, index_max (fun a b => nlt O b a) m lc = Ok b /\ 0 <= b < lc).
    { unfold index_max.
      match goal with |- exists b, forZ _ _ ?body _ = _ /\ _ => destruct (forZ_inv _ (fun _ b => 0 <= b < lc) body (Z.to_nat lc - 1) 1 0) as [b [E1 E2]] end; [lia| |eauto].
      intros i b Hi Hb. rewrite rd_at by lia. cbn [bind]. rewrite rd_at by lia. cbn [bind]. eexists. split; [reflexivity|]. destruct (nlt _ _ _); lia. }
    destruct X as [b [X1 X2]]. exists f', m, b. unfold predict. rewrite E. cbn [bind]. rewrite M. cbn [bind]. rewrite X1. cbn [bind].
    repeat (split; [first [reflexivity|assumption]|]). assumption.
  Qed.
End Means.

(** ** Exact means of trained points *)
Section Path.
  Variable tc fc lc mn : Z.
  Variable lifetime base_measure discount_factor : R.
  Hypothesis Hlc : 1 <= lc.
  Hypothesis Htc : 0 <= tc.
  Hypothesis Hfc : 0 <= fc.
  Local Notation forest := (forest rops).
  Local Notation mtree := (mtree rops).
  Local Notation tree_at := (tree_at rops fc lc lifetime).
  Local Notation points := (points rops).
  Local Notation ids := (ids rops).
  Local Notation top := (top rops).
  Variable p : point rops.
  Let x : list R := fst p.
  Hypothesis Hx : length x = Z.to_nat fc.

  Lemma labels_range : labels lc = zrange lc. Proof. reflexivity. Qed.
  Lemma fold_IZR : forall (g : Z -> Z) l a, fold_left Rplus (map (fun i => IZR (g i)) l) (IZR a) = IZR (a + zsum (map g l)).
  Proof.
    intros g. unfold zsum. induction l as [|i l IH]; intros a; cbn [map fold_left fold_right]; [f_equal; lia|].
    rewrite <- plus_IZR. rewrite IH. f_equal. lia.
  Qed.
  Lemma new_mean_real : forall D n m cs l, (forall i, 0 <= i < lc -> cnt rops n i = cs i) -> (forall i, 0 <= i < lc -> 0 <= cs i) -> 0 <= l < lc ->
    @eq R (new_mean rops lc D n m l) (mean lc cs D m l).
  Proof.
    intros D n m cs l E P Hl. unfold new_mean, mean. rewrite (E l Hl). rewrite labels_range.
    assert (E1 : map (cnt rops n) (zrange lc) = map cs (zrange lc)).
    { apply map_ext_in. intros i Hi. apply E. unfold zrange in Hi. apply in_map_iff in Hi. destruct Hi as [j [<- Hj]]. apply in_seq in Hj. lia. }
    assert (E2 : map (fun i => Z.min (cnt rops n i) 1) (zrange lc) = map (fun l => if 0 <? cs l then 1 else 0) (zrange lc)).
    { apply map_ext_in. intros i Hi. unfold zrange in Hi. apply in_map_iff in Hi. destruct Hi as [j [<- Hj]]. apply in_seq in Hj. rewrite E by lia.
      specialize (P (Z.of_nat j) ltac:(lia)). destruct (Z.ltb_spec 0 (cs (Z.of_nat j))); lia. }
    cbn [nadd ndiv nsub nmul nofZ rops num].
    pose proof (fold_IZR (cnt rops n) (zrange lc) 0) as F1. pose proof (fold_IZR (fun i => Z.min (cnt rops n i) 1) (zrange lc) 0) as F2.
    change (num rops) with R in *. rewrite F1, F2, E1, E2, !Z.add_0_l. destruct (Z.ltb_spec 0 (cs l)) as [C|C]; [|reflexivity].
    replace (Z.min (cs l) 1) with 1 by lia. unfold at_. cbn [nofZ rops]. unfold Rdiv. change (num rops) with R. ring.
  Qed.

  Local Notation walk := (predict_from rops exp fc lc discount_factor).
  Lemma inside_eta : forall n pts, bounding rops fc pts (bound_lower rops n) (bound_upper rops n) -> In p pts ->
    compute_eta rops fc n x = Ok 0%R.
  Proof.
    intros n pts B I. rewrite (eta_ok rops fc Hfc x Hx n pts B). f_equal.
    assert (G : forall l, (forall d, In d l -> 0 <= d < fc) -> fold_left Rplus (map (eta_of rops x n) l) 0%R = 0%R).
    { induction l as [|d l IH]; intros H; [reflexivity|]. cbn [map fold_left].
      assert (Hd : 0 <= d < fc) by (apply H; now left). destruct (bounding_val _ _ _ _ _ d B Hd) as [_ [_ [_ [_ V]]]].
      destruct (V p I) as [V1 V2]. cbn [nle rops] in V1, V2. rewrite Rle_iff in V1, V2.
      assert (E : @eq R (eta_of rops x n d) 0%R).
      { unfold eta_of, max0. cbn [nadd nlt nsub nofZ rops num]. change (at_ rops x d) with (coord rops p d). change (num rops) with R in *.
        destruct (Rlt_bool_spec 0 (coord rops p d - val rops (bound_upper rops n) d)), (Rlt_bool_spec 0 (val rops (bound_lower rops n) d - coord rops p d)); lra. }
      rewrite E, Rplus_0_r. apply IH. intros e He. apply H. now right. }
    apply G. intros d Hd. unfold zrange in Hd. apply in_map_iff in Hd. destruct Hd as [j [<- Hj]]. apply in_seq in Hj. lia.
  Qed.
  Lemma walk_path : forall t f q pt steps m, (length (ids t) <= steps)%nat -> (forall j, In j (ids t) -> 0 <= j) ->
    tree_at f q pt t -> under rops f q pt -> counted rops lc f t -> separated rops t -> In p (points t) -> length m = Z.to_nat lc ->
    walk steps f (top t) x 1%R m (repeat 0%R (Z.to_nat lc)) = Ok (path_mean lc discount_factor (time f) pt m t x).
  Proof.
    induction t as [i pts|i d v l IHl r IHr]; intros f q pt steps m Hs Hi T U C S I Lm; (destruct steps as [|steps]; [cbn in Hs; lia|]);
      cbn [Mondrian_Spec.top] in *; cbn [predict_from path_mean]; (rewrite (proj2 (Z.eqb_neq i (-1))) by (specialize (Hi i (or_introl eq_refl)); lia)).
    - destruct T as [n [T1 [T2 [T3 [T4 [T5 [T6 [T7 [_ [_ [_ T11]]]]]]]]]]]. cbn [Mondrian_Spec.top] in T1. rewrite T1. cbn [bind].
      rewrite (inside_eta _ _ T3 I). cbn [bind].
      assert (Br : nsub rops (nofZ rops 1) (exp (nmul rops (nopp rops (nsub rops (tau rops n) (nofZ rops 0))) 0%R)) = 0%R).
      { cbn [nsub nmul nopp nofZ rops num]. rewrite Rmult_0_r, exp_0. lra. }
      rewrite Br.
      match goal with |- context [smooth rops exp lc discount_factor n ?a ?b ?c ?d ?e ?g] => destruct (smooth_ok rops exp lc discount_factor Hlc n a b c d e g T4 Lm) as [s [E1 [E2 E3]]]; [now rewrite repeat_length|rewrite E1] end. cbn [bind].
      rewrite E3 by (cbn [nlt nofZ rops]; apply Rlt_not; lra).
      erewrite posterior_ok by (eauto; apply under_time; rewrite T2; exact U). cbn [bind]. unfold is_leaf. rewrite T7. cbn [Z.eqb].
      rewrite (final_ok rops lc Hlc); [|now rewrite repeat_length|rewrite map_length, zrange_length; reflexivity].
      cbn [Pos.eqb]. f_equal. rewrite labels_range. apply map_ext_in. intros a Ha. unfold zrange in Ha. apply in_map_iff in Ha. destruct Ha as [j [<- Hj]]. apply in_seq in Hj.
      assert (A : forall g : Z -> R, at_ rops (map g (zrange lc)) (Z.of_nat j) = g (Z.of_nat j)).
      { intros g. pose proof (rd_zrange _ g lc (Z.of_nat j) ltac:(lia)) as R. apply rd_ok_iff in R. destruct R as [_ R]. now apply nth_error_nth with (d := 0%R) in R. }
      change (num rops) with R in *. rewrite A. unfold at_. rewrite nth_repeat. cbn [nadd nmul nsub nofZ rops num].
      unfold time. rewrite T1. 
      rewrite (new_mean_real _ n m (fun l => count rops l pts));
        [|intros a Ha; specialize (T11 a Ha); rewrite (rd_cnt rops lc Hlc n a T4 Ha) in T11; now injection T11|intros a Ha; apply count_pos|lia].
      change (num rops) with R. rewrite Rminus_0_r, !Rmult_1_l, Rplus_0_l. reflexivity.
    - destruct T as [n [T1 [T2 [T3 [T4 [T5 [T6 [T7 [T8 [T9 [T10 [T11 [T12 [T13 T14]]]]]]]]]]]]]]. cbn [Mondrian_Spec.top] in T1. rewrite T1. cbn [bind].
      rewrite (inside_eta _ _ T3 I). cbn [bind].
      assert (Br : nsub rops (nofZ rops 1) (exp (nmul rops (nopp rops (nsub rops (tau rops n) (nofZ rops 0))) 0%R)) = 0%R).
      { cbn [nsub nmul nopp nofZ rops num]. rewrite Rmult_0_r, exp_0. lra. }
      rewrite Br.
      match goal with |- context [smooth rops exp lc discount_factor n ?a ?b ?c ?d ?e ?g] => destruct (smooth_ok rops exp lc discount_factor Hlc n a b c d e g T4 Lm) as [s [E1 [E2 E3]]]; [now rewrite repeat_length|rewrite E1] end. cbn [bind].
      rewrite E3 by (cbn [nlt nofZ rops]; apply Rlt_not; lra).
      erewrite posterior_ok by (eauto; apply under_time; rewrite T2; exact U). cbn [bind]. unfold is_leaf. rewrite T7. rewrite (proj2 (Z.eqb_neq d (-1))) by lia.
      rewrite (rd_at rops x d) by (change (num rops) with R; lia). cbn [bind]. rewrite T9. cbn [bind]. rewrite T11, T12. cbn in Hs. rewrite app_length in Hs.
      assert (U' : under rops f i (tau rops n)) by (right; split; [apply Hi; now left|]; eauto).
      destruct C as [[n' [C1 C2]] [C3 C4]]. rewrite T1 in C1. injection C1 as <-. destruct S as [S1 [S2 [S3 S4]]].
      assert (Em : map (new_mean rops lc (exp (nmul rops discount_factor (nsub rops (tau rops n) pt))) n m) (zrange lc) =
        map (mean lc (fun l0 => present rops l0 (points l) + present rops l0 (points r)) (exp (discount_factor * (time f i - pt))) m) (labels lc)).
      { rewrite labels_range. apply map_ext_in. intros a Ha. unfold zrange in Ha. apply in_map_iff in Ha. destruct Ha as [j [<- Hj]]. apply in_seq in Hj.
        unfold time. rewrite T1. apply new_mean_real; try lia; intros a Ha.
        - specialize (C2 a Ha). rewrite (rd_cnt rops lc Hlc n a T4 Ha) in C2. now injection C2.
        - unfold present. destruct (0 <? _), (0 <? _); lia. }
      rewrite Em. replace (nmul rops 1%R (nsub rops (nofZ rops 1) 0%R)) with 1%R by (cbn [nmul nsub nofZ rops num]; lra).
      replace (time f i) with (tau rops n) by (unfold time; now rewrite T1).
      change (nth (Z.to_nat d) x 0%R) with (coord rops p d). change (at_ rops x d) with (coord rops p d).
      cbn [nle rops]. cbn [Mondrian_Spec.points] in I. destruct (Rle_dec (coord rops p d) v) as [Le|Le].
      + rewrite (Rle_bool_true _ _ Le). apply IHl with i; auto; try lia; [intros j Hj; apply Hi; right; apply in_or_app; auto| |now rewrite map_length, labels_range, zrange_length].
        apply in_app_or in I. destruct I as [I|I]; [exact I|]. specialize (S2 p I). cbn [nlt rops] in S2. apply Rlt_iff in S2. lra.
      + rewrite Rle_bool_false by (apply Rnot_le_lt; exact Le). apply IHr with i; auto; try lia; [intros j Hj; apply Hi; right; apply in_or_app; auto| |now rewrite map_length, labels_range, zrange_length].
        apply in_app_or in I. destruct I as [I|I]; [|exact I]. specialize (S1 p I). cbn [nle rops] in S1. apply Rle_iff in S1. lra.
  Qed.
End Path.
