(** * Proofs relating the Mondrian forests: training keeps the trees the same *)
From Coq Require Import ZArith List Bool Lia.
From Verif Require Import CppBase CppFacts NumOps Utils_Model Mondrian_Model Mondrian_Spec Mondrian_Proofs Mondrian_Train.
From Verif Require Unbound_Model Unbound_Train.
From Verif Require Import Forest_Same Forest_Steps.
Import ListNotations.
Local Open Scope Z_scope.

Section TrainSame.
  Variable O : ops.
  Variable rnd : nat -> num O.
  Variable log_ : num O -> num O.
  Variable tc fc lc mn : Z.
  Variable lifetime : num O.
  Variable key : num O -> Rdefinitions.R.
  Variable cmp fine draw : num O -> Prop.
  Hypothesis L : laws O key cmp fine draw fc.
  Hypothesis Hdraw : forall k, draw (rnd k).
  Hypothesis Hlife : nle O (nofZ O 0) lifetime = true.
  Hypothesis Hfc : 1 <= fc.
  Local Notation forest := (forest O).
  Local Notation node := (node O).
  Local Notation nodes := (nodes O).
  Local Notation roots := (roots O).
  Local Notation put := (put O).
  Local Notation n_ := (nofZ O).
  Local Notation alike := (alike O).
  Local Notation recounted := (recounted O).
  Local Notation inserted := (inserted O).
  Variable e : node.
  Hypothesis Hedim : split_dimension O e = -1.
  Hypothesis Hel : child_left O e = -1.
  Hypothesis Her : child_right O e = -1.
  Hypothesis Heav : available O e = true.
  Hypothesis Hecs : counters O e = repeat 0 (Z.to_nat lc).
  Local Notation rel := (rel O mn cmp fine e).
  Local Notation good := (good O cmp fine).
  Local Notation fine_box := (fine_box O fine).
  Variable x : list (num O).
  Variable label : Z.
  Hypothesis Hx : Forall fine x.
  Hypothesis Lx : length x = Z.to_nat fc.
  Hypothesis Hlab : 0 <= label < lc.
  Local Notation pb := (pbox O fc x label).
  Local Notation one := (bump label (repeat 0 (Z.to_nat lc)) 0).
  Local Notation mtrain_tree := (train_tree O log_ rnd fc lc mn lifetime).
  Local Notation mextend := (extend_block O log_ rnd fc lc mn lifetime).
  Local Notation uextend := (Unbound_Model.extend_block O log_ rnd fc lc lifetime).
  Ltac rp := rewrite ?put_rd by (rewrite ?put_length; lia).
  Ltac eqz := repeat match goal with
    | |- context [?a =? ?a] => rewrite (Z.eqb_refl a)
    | |- context [?a =? ?b] => rewrite (proj2 (Z.eqb_neq a b)) by (congruence || lia)
    end.

  Lemma spare : forall (l : list Z) (f : forest), (length l < length (nodes f))%nat -> exists i, 0 <= i < Z.of_nat (length (nodes f)) /\ ~ In i l.
  Proof.
    intros l f H. destruct (existsb (fun i => if in_dec Z.eq_dec i l then false else true) (map Z.of_nat (seq 0 (length (nodes f))))) eqn:E.
    - apply existsb_exists in E. destruct E as [i [I1 I2]]. destruct (in_dec Z.eq_dec i l) as [|N]; [discriminate|]. apply in_map_iff in I1. destruct I1 as [k [<- I1]]. apply in_seq in I1.
      exists (Z.of_nat k). split; [lia|exact N].
    - exfalso. assert (I : incl (map Z.of_nat (seq 0 (length (nodes f)))) l).
      { intros i Hi. destruct (in_dec Z.eq_dec i l) as [|N]; [assumption|]. exfalso. apply not_true_iff_false in E. apply E. apply existsb_exists. exists i. split; [exact Hi|].
        destruct (in_dec Z.eq_dec i l); [contradiction|reflexivity]. }
      assert (ND : NoDup (map Z.of_nat (seq 0 (length (nodes f))))) by (apply FinFun.Injective_map_NoDup; [intros a b; apply Nat2Z.inj|apply seq_NoDup]).
      pose proof (NoDup_incl_length ND I) as LE. rewrite map_length, seq_length in LE. lia.
  Qed.
  Lemma pbox_fine : fine_box pb.
  Proof.
    unfold pbox. apply Forall_forall. intros o Ho. apply in_map_iff in Ho. destruct Ho as [d [<- Hd]]. unfold zrange in Hd. apply in_map_iff in Hd. destruct Hd as [z [<- Hd]]. apply in_seq in Hd. eexists. split; [reflexivity|].
    unfold coord. cbn [fst]. rewrite Forall_forall in Hx. apply Hx, nth_In. lia.
  Qed.
  Lemma nle0_trans : forall a b, nle O (n_ 0) a = true -> nle O a b = true -> nle O (n_ 0) b = true.
  Proof.
    intros a b A B. apply (l_le _ _ _ _ _ _ L) in A, B. apply (l_le _ _ _ _ _ _ L). destruct A as [A1 [A2 A3]], B as [B1 [B2 B3]]. repeat split; auto. eapply RIneq.Rle_trans; eauto.
  Qed.

  (** The internal nodes of the second pool. *)
  Definition inner (s : list (Z * Z)) (g : forest) (c : Z) : Prop := In c (map snd s) /\ exists m, rd (nodes g) c = Ok m /\ is_leaf O m = false.
  Lemma inner_closed : forall s f g, rel s f g -> closed O (inner s g) g.
  Proof.
    intros s f g R c m [Ic [m' [Hm' Lf]]] Hm. rewrite Hm in Hm'. injection Hm' as <-. split; [exact Lf|].
    apply in_map_iff in Ic. destruct Ic as [[a c'] [Ec Ic]]. cbn in Ec. subst c'. destruct R as [N1 [N2 [R3 _]]]. destruct (R3 a c Ic) as [n [m0 [Q1 [Q2 [Q3 Q4]]]]]. rewrite Hm in Q2. injection Q2 as <-.
    destruct Q3 as [_ [_ [_ [_ [_ [_ [P _]]]]]]]. destruct P as [[_ P]|P]; [now left|right]. split; [now apply pair_snd with (parent O n)|].
    destruct (R3 _ _ P) as [np [mp [P1 [P2 [P3 P4]]]]]. exists mp. split; [exact P2|]. rewrite <- (leaf_alike _ _ _ _ P3).
    destruct Q4 as [_ [_ [_ [_ [_ [G|[q [_ [G2 G3]]]]]]]]]; [rewrite G, rd_oob in P1 by lia; discriminate|congruence].
  Qed.

  (** A split. *)
  Lemma ins_same : forall s f g i j n m k a b d up v t na0 cs f' g2 a' b' g3 g' q,
    rel s f g -> In (i, j) s -> rd (nodes f) i = Ok n -> rd (nodes g) j = Ok m ->
    0 <= a < mn -> 0 <= b < mn -> ~ In a (map fst s) -> ~ In b (map fst s) -> a <> b -> nle O (n_ 0) t = true -> cmp v -> (exists xd, rd x d = Ok xd) -> rd (roots f) k = Ok q ->
    na0 = set_counters O (set_split O e d v t) cs -> insert_above O fc lc lifetime (put f a na0) i k x label d up a b = Ok f' ->
    Unbound_Model.insert_above O fc lc g j k x d up v t = Ok (g2, (a', b')) -> Unbound_Model.sample_block O fc lifetime g2 b' x label = Ok g3 ->
    Unbound_Model.update_labels O lc g3 a' = Ok g' ->
    exists s', rel s' f' g' /\ length (nodes g') = (length (nodes g) + 2)%nat.
  Proof.
    intros s f g i j n m k a b d up v t na0 cs f' g2 a' b' g3 g' q R I Hn Hm Ba Bb Na Nb Nab Ht Hv HD Hq N0 HF HG HS HU.
    pose proof R as [N1 [N2 [R3 [R4 [R5 [R6 [R7 R8]]]]]]]. destruct (R3 i j I) as [n0 [m0 [X1 [X2 [A Gd]]]]]. rewrite Hn in X1. injection X1 as <-. rewrite Hm in X2. injection X2 as <-.
    assert (Nia : i <> a) by (intros ->; apply Na; now apply pair_fst with j). assert (Nib : i <> b) by (intros ->; apply Nb; now apply pair_fst with j).
    pose proof (rd_bounds _ _ _ _ Hn) as Bi. set (f2 := put f a na0) in *.
    assert (Hi2 : rd (nodes f2) i = Ok n) by (unfold f2; rp; eqz; exact Hn).
    assert (Ha2 : rd (nodes f2) a = Ok na0) by (unfold f2; rp; eqz; reflexivity).
    assert (Hb2 : rd (nodes f2) b = Ok e).
    { unfold f2. rp. eqz. destruct (rd_in_bounds _ (nodes f) b) as [w Hw]; [lia|]. rewrite Hw. f_equal. now apply R6 with b. }
    destruct Gd as [G1 [G2 [G3 [G4 [G5 G6]]]]]. pose proof A as [A1 [A2 [A3 [A4 [A5 [A6 [A7 [A8 A9]]]]]]]].
    assert (LK : linked O k f2 i (parent O n)).
    { destruct (Z.eq_dec (parent O n) (-1)) as [Ep|Ep].
      - left. split; [exact Ep|]. exact (insert_root O fc lc lifetime x label k Lx f2 i n d up a b f' Hi2 Ep Nia Nib HF).
      - right. split; [exact Ep|]. split; [exact G5|]. split; [|exists q; exact Hq]. destruct G6 as [G6|[np [_ [G6 _]]]]; [contradiction|]. unfold f2. rp. destruct (a =? parent O n); eauto. }
    assert (LK' : linked O k g j (parent O m)).
    { destruct LK as [[Ep Hr]|[Ep _]].
      - left. assert (Er : parent O m = -1) by (destruct A7 as [[_ A7]|A7]; [exact A7|]; destruct (rel_rd _ _ _ _ _ _ _ _ _ _ R A7) as [? [? [_ [_ [_ [_ [? _]]]]]]]; lia). split; [exact Er|].
        destruct (Forall2_rd _ _ _ _ _ _ _ R7 Hr) as [w [W1 W2]]. destruct W2 as [[W2 _]|W2]; [lia|]. rewrite W1. f_equal. now apply bij_l with s i.
      - right. destruct A7 as [[A7 _]|A7]; [contradiction|]. destruct (R3 _ _ A7) as [np [mp [P1 [P2 _]]]]. split; [apply rd_bounds in P2; lia|]. split; [|split; [eauto|]].
        + intros Ej. rewrite Ej in A7. apply G5. now apply bij_r with s j.
        + destruct (Forall2_rd _ _ _ _ _ _ _ R7 Hq) as [w [W1 _]]. eauto. }
    assert (EJ : exists l u, joined_box O fc n x = Ok (l, u)).
    { unfold insert_above in HF. rewrite Hi2 in HF. cbn [bind] in HF. apply bind_inv in HF. destruct HF as [[l u] [E _]]. eauto. }
    destruct EJ as [l [u EJ]]. destruct (joined_fine _ _ _ _ Hx n l u G2 G3 EJ) as [Fl Fu].
    destruct HD as [xd HD]. pose proof (rd_bounds _ _ _ _ HD) as Bd.
    assert (Ppa : parent O n <> a /\ parent O n <> b).
    { destruct A7 as [[-> _]|A7]; [lia|]. split; intros E; [apply Na|apply Nb]; rewrite <- E; now apply pair_fst with (parent O m). }
    destruct (insert_made O fc lc lifetime Hfc x label k Lx Hlab f2 i n a b (parent O n) d up _ _ l u xd Hi2 Ha2 Hb2 eq_refl Nia Nib Nab (proj1 Ppa) (proj2 Ppa) EJ HD LK) as [F [EF [IF [RF [LF DF]]]]].
    rewrite HF in EF. injection EF as <-.
    destruct (insert_madeU O fc lc Hfc x k Lx g j m (parent O m) d up v t l u xd Hm eq_refl ltac:(rewrite <- (joined_same _ _ _ _ _ _ A); exact EJ) HD LK') as [G [EG [IG [RG [LG DG]]]]].
    rewrite HG in EG. injection EG as <- -> ->. set (a' := Z.of_nat (length (nodes g))) in *. set (b' := a' + 1) in *.
    set (na := made_parent _ _ _ _ _ _ _ _ _) in IF. set (nb := made_leaf _ _ _ _ _ _ _ _) in IF. set (ma := made_parent _ _ _ _ _ _ _ _ _) in IG.
    set (mb0 := set_parent O (Unbound_Model.new_leaf O fc lc) a') in IG. set (mb := set_tau O (set_counters O (set_box O mb0 pb pb) one) lifetime).
    set (s' := (a, a') :: (b, b') :: s).
    assert (Bb' : 0 <= b' < Z.of_nat (length (nodes g2))) by (unfold b', a' in *; lia).
    assert (R' : rel s' f' (put g2 b' mb)).
    { apply (rel_insert O log_ mn lifetime cmp fine e s f g i j n m a b na nb ma mb f' (put g2 b' mb) R I Hn Hm); try lia; auto.
      - intros c. rewrite IF. destruct (Z.eqb_spec c b); [reflexivity|]. destruct (Z.eqb_spec c a) as [|Nc]; [reflexivity|]. unfold f2. rewrite !put_rd by lia. rewrite (proj2 (Z.eqb_neq a c)) by congruence. reflexivity.
      - intros c. rewrite put_rd by exact Bb'. fold a' b'. rewrite (Z.eqb_sym b' c). rewrite IG. destruct (Z.eqb_spec c b'); reflexivity.
      - rewrite put_length. exact LG.
      - rewrite LF. unfold f2. apply put_length.
      - fold a' b' s'. unfold na, ma, made_parent. rewrite N0. destruct (neq O xd up).
        all: repeat split; cbn; auto; try (right; cbn; tauto); try (destruct A7 as [A7|A7]; [left; exact A7|right; right; right; exact A7]).
        all: unfold is_leaf; cbn; rewrite (proj2 (Z.eqb_neq d (-1))) by lia; discriminate.
      - fold a' b' s'. unfold nb, mb, made_leaf, mb0. repeat split; cbn; auto; try (left; auto; fail).
        + unfold is_leaf. cbn. rewrite Hedim. discriminate.
        + right. left. reflexivity.
      - unfold na, made_parent. rewrite N0. destruct (neq O xd up); (repeat split; cbn; auto; intros _; eauto).
      - unfold nb, made_leaf. split; [exact Hlife|]. split; [apply pbox_fine|]. split; [apply pbox_fine|]. unfold is_leaf. cbn. rewrite Hedim. discriminate.
      - unfold na, made_parent. destruct (neq O xd up); reflexivity.
      - unfold na, made_parent. rewrite N0. destruct (neq O xd up); unfold is_leaf; cbn; apply Z.eqb_neq; lia.
      - fold a' b' s'. rewrite RF. change (roots (put g2 b' mb)) with (roots g2). rewrite RG. change (roots f2) with (roots f).
        assert (F2 : Forall2 (ptr s') (roots f) (roots g)) by (apply Forall2_imp with (ptr s); [|exact R7]; intros c c' Hc; apply ptr_more with s; [|exact Hc]; intros z Hz; right; right; exact Hz).
        assert (EP : (parent O n =? -1) = (parent O m =? -1)) by (apply (ptr_eqb O mn cmp fine e s f g); [exact R|exact A7|left; auto]). rewrite EP.
        destruct (parent O m =? -1); [|exact F2]. apply Forall2_upd; [exact F2|]. right. left. reflexivity.
      - rewrite DF. change (drawn O (put g2 b' mb)) with (drawn O g2). rewrite DG. exact R8. }
    pose proof (inner_closed _ _ _ R') as C'.
    assert (Hb' : rd (nodes g2) b' = Ok mb0) by (rewrite IG, Z.eqb_refl; reflexivity).
    assert (Ha' : rd (nodes (put g2 b' mb)) a' = Ok ma) by (rp; rewrite IG; rewrite (proj2 (Z.eqb_neq a' b')), (proj2 (Z.eqb_neq b' a')) by (unfold b'; lia); rewrite Z.eqb_refl; reflexivity).
    assert (La' : is_leaf O ma = false) by (unfold ma, made_parent; destruct (neq O xd up); unfold is_leaf; cbn; apply Z.eqb_neq; lia).
    assert (Nb' : ~ inner s' (put g2 b' mb) b').
    { intros [_ [w [W1 W2]]]. rewrite put_rd in W1 by lia. rewrite Z.eqb_refl in W1. injection W1 as <-. discriminate. }
    assert (Ia' : inner s' (put g2 b' mb) a') by (split; [left; reflexivity|]; eauto).
    assert (C2 : closed O (inner s' (put g2 b' mb)) g2).
    { intros c w Ic Hw. apply C' with c; [exact Ic|]. rewrite put_rd by lia. destruct (Z.eqb_spec b' c) as [<-|D]; [contradiction|exact Hw]. }
    pose proof (sample_inv O fc lc lifetime Hfc x label Lx Hlab _ g2 b' mb0 g3 C2 Hb' eq_refl ltac:(right; exact Ia') Nb' eq_refl HS) as S3. fold mb in S3.
    pose proof (climb_inv O fc Hfc x Lx _ _ (visit_labels O fc lc x Lx) _ _ _ _ (closed_recounted O fc Hfc x Lx _ _ _ C' S3) Ia' HU) as S4.
    pose proof (recounted_trans _ _ _ _ S3 S4) as S5. exists s'. split; [now apply rel_recounted_r with (put g2 b' mb)|].
    destruct S5 as [_ [_ [S5 _]]]. rewrite S5, put_length. exact LG.
  Qed.

  (** No split. *)
  Lemma box_same : forall s f g i j f' g', rel s f g -> In (i, j) s ->
    with_node O f i (fun n => update_box O fc n x) = Ok f' -> with_node O g j (fun n => update_box O fc n x) = Ok g' ->
    rel s f' g' /\ roots f' = roots f /\ length (nodes g') = length (nodes g).
  Proof.
    intros s f g i j f' g' R I Hf Hg. apply with_inv in Hf, Hg. destruct Hf as [n [n' [F1 [F2 ->]]]]. destruct Hg as [m [m' [G1 [G2 ->]]]].
    split; [|split; [reflexivity|apply put_length]].
    destruct (rel_rd _ _ _ _ _ _ _ _ _ _ R I) as [n0 [m0 [Q1 [Q2 [Q3 [Q4 _]]]]]]. rewrite F1 in Q1. injection Q1 as <-. rewrite G1 in Q2. injection Q2 as <-.
    destruct Q3 as [A1 [A2 [A3 [A4 [A5 [A6 [A7 [A8 A9]]]]]]]]. destruct Q4 as [E1 [E2 [E3 [E4 [E5 E6]]]]].
    destruct (update_inv O fc fine x Hx n n' E2 E3 F2) as [l [u [-> [Fl [Fu U]]]]]. rewrite (U m) in G2 by auto. injection G2 as <-.
    apply rel_put with n m; auto; repeat split; auto.
  Qed.
  Lemma leaf_same : forall s f g i j n f' g', rel s f g -> In (i, j) s -> rd (nodes f) i = Ok n -> is_leaf O n = true ->
    with_node O f i (fun n => do c <- rd (counters O n) label; do c <- sint (c + 1); do cs <- wr (counters O n) label c; Ok (set_counters O n cs)) = Ok f' ->
    Unbound_Model.update_label O g j label 1 = Ok g' ->
    rel s f' g' /\ length (nodes g') = length (nodes g).
  Proof.
    intros s f g i j n f' g' R I Hn Lf Hf Hg. destruct (rel_rd _ _ _ _ _ _ _ _ _ _ R I) as [n0 [m [Q1 [Q2 [Q3 [Q4 _]]]]]]. rewrite Hn in Q1. injection Q1 as <-.
    apply with_inv in Hf. destruct Hf as [n1 [n' [F1 [F2 ->]]]]. rewrite Hn in F1. injection F1 as <-. inv F2. inv F2. inv F2. injection F2 as <-. unfold sint in E0.
    destruct (_ && _) in E0; [|discriminate]. injection E0 as <-. apply wr_inv in E1. destruct E1 as [_ ->].
    pose proof (leaf_alike _ _ _ _ Q3) as LL. pose proof (inner_closed _ _ _ R) as C.
    assert (Nj : ~ inner s g j) by (intros [_ [w [W1 W2]]]; congruence).
    assert (Pp : parent O m = -1 \/ inner s g (parent O m)).
    { pose proof Q3 as [_ [_ [_ [_ [_ [_ [P _]]]]]]]. destruct P as [[_ P]|P]; [now left|right]. split; [now apply pair_snd with (parent O n)|].
      destruct (rel_rd _ _ _ _ _ _ _ _ _ _ R P) as [np [mp [P1 [P2 [P3 _]]]]]. exists mp. split; [exact P2|]. rewrite <- (leaf_alike _ _ _ _ P3).
      destruct Q4 as [_ [_ [_ [_ [_ [G|[q [_ [G2 G3]]]]]]]]]; [rewrite G, rd_oob in P1 by lia; discriminate|congruence]. }
    destruct (label_inv O fc Hfc x label Lx _ g j m g' C Q2 ltac:(congruence) Pp Nj Hg) as [c [C1 C2]].
    destruct Q3 as [A1 [A2 [A3 [A4 [A5 [A6 [A7 [A8 A9]]]]]]]]. destruct Q4 as [E1 [E2 [E3 [E4 [E5 E6]]]]]. rewrite A9 in E by exact Lf. assert (c = v) by congruence. subst c.
    split.
    - eapply rel_recounted_r; [|exact C2]. apply rel_put with n m; auto; repeat split; auto. intros _. cbn. rewrite A9 by exact Lf. reflexivity.
    - destruct C2 as [_ [_ [C2 _]]]. rewrite C2. apply put_length.
  Qed.
  Lemma down_same : forall s f g i j n m y v, rel s f g -> In (i, j) s -> rd (nodes f) i = Ok n -> rd (nodes g) j = Ok m -> is_leaf O n = false ->
    rd x (split_dimension O n) = Ok y -> split_value O n = Some v ->
    ((if nle O y v then child_left O m else child_right O m) = -1 \/
     In (if nle O y v then child_left O n else child_right O n, if nle O y v then child_left O m else child_right O m) s) /\
    (nle O y v = false -> nlt O v y = true).
  Proof.
    intros s f g i j n m y v R I Hn Hm Lf Hy Hv. destruct (rel_rd _ _ _ _ _ _ _ _ _ _ R I) as [n0 [m0 [Q1 [Q2 [Q3 [Q4 _]]]]]]. rewrite Hn in Q1. injection Q1 as <-. rewrite Hm in Q2. injection Q2 as <-.
    destruct Q3 as [A1 [A2 [A3 [A4 [A5 [A6 [A7 [A8 A9]]]]]]]]. destruct Q4 as [_ [_ [_ [E4 _]]]]. split.
    - destruct (nle O y v); [destruct A5 as [[_ A5]|A5]|destruct A6 as [[_ A6]|A6]]; auto.
    - intros N. apply (l_lt _ _ _ _ _ _ L). destruct (E4 Lf) as [w [W1 W2]]. rewrite Hv in W1. injection W1 as <-. split; [exact W2|].
      assert (Fy : cmp y) by (apply (l_fine _ _ _ _ _ _ L); now apply rd_fine with x (split_dimension O n)). split; [exact Fy|].
      destruct (RIneq.Rle_lt_dec (key y) (key v)) as [Le|Lt]; [|exact Lt]. exfalso.
      assert (T : nle O y v = true) by (apply (l_le _ _ _ _ _ _ L); auto). congruence.
  Qed.

  (** The heap grows. *)
  Lemma with_length : forall f i h f', with_node O f i h = Ok f' -> length (nodes f') = length (nodes f).
  Proof. intros f i h f' H. apply with_inv in H. destruct H as [n [n' [_ [_ ->]]]]. apply put_length. Qed.
  Lemma recount_length : forall f i l f', Unbound_Model.recount O f i l = Ok f' -> length (nodes f') = length (nodes f).
  Proof. intros f i l f' H. unfold Unbound_Model.recount in H. do 5 inv H. now apply with_length in H. Qed.
  Lemma climb_length : forall visit, (forall f i n f', visit f i n = Ok f' -> length (nodes f') = length (nodes f)) ->
    forall steps f i f', Unbound_Model.climb O visit steps f i = Ok f' -> length (nodes f') = length (nodes f).
  Proof.
    intros visit V. induction steps as [|steps IH]; intros f i f' H; cbn [Unbound_Model.climb] in H; [discriminate|]. inv H. inv H. apply V in E0.
    destruct (parent O v =? -1); [now injection H as <-|]. apply IH in H. congruence.
  Qed.
  Lemma label_length : forall f i l c f', Unbound_Model.update_label O f i l c = Ok f' -> length (nodes f') = length (nodes f).
  Proof.
    intros f i l c f' H. unfold Unbound_Model.update_label in H. revert H. apply climb_length. intros h j n h' H. destruct (is_leaf O n); [now apply with_length in H|now apply recount_length in H].
  Qed.
  Lemma labels_length : forall f i f', Unbound_Model.update_labels O lc f i = Ok f' -> length (nodes f') = length (nodes f).
  Proof.
    intros f i f' H. unfold Unbound_Model.update_labels in H. revert H. apply climb_length. intros h j n h' H. destruct (is_leaf O n); [now injection H as <-|].
    apply (forZ_inv_post _ (fun _ z => length (nodes z) = length (nodes h))) in H; auto. intros l z z' _ E H'. apply recount_length in H'. congruence.
  Qed.
  Lemma sample_length : forall f i f', Unbound_Model.sample_block O fc lifetime f i x label = Ok f' -> length (nodes f') = length (nodes f).
  Proof.
    intros f i f' H. unfold Unbound_Model.sample_block in H. apply bind_inv in H. destruct H as [[l u] [_ H]]. inv H. inv H. apply with_length in E, H. apply label_length in E0. congruence.
  Qed.
  Lemma insert_length : forall f i k d up v t f' a b, Unbound_Model.insert_above O fc lc f i k x d up v t = Ok (f', (a, b)) ->
    length (nodes f') = (length (nodes f) + 2)%nat /\ a = Z.of_nat (length (nodes f)) /\ b = a + 1.
  Proof.
    intros f i k d up v t f' a b H. unfold Unbound_Model.insert_above, Unbound_Model.alloc in H.
    apply bind_inv in H. destruct H as [f1 [E1 H]]. apply with_length in E1. cbn [Mondrian_Model.nodes] in E1. rewrite !app_length in E1. cbn [length] in E1.
    apply bind_inv in H. destruct H as [n1 [_ H]]. apply bind_inv in H. destruct H as [[l u] [_ H]]. apply bind_inv in H. destruct H as [f2 [E2 H]]. apply with_length in E2.
    apply bind_inv in H. destruct H as [n2 [_ H]]. apply bind_inv in H. destruct H as [f3 [E3 H]]. apply with_length in E3.
    apply bind_inv in H. destruct H as [n3 [_ H]]. apply bind_inv in H. destruct H as [r [_ H]]. apply bind_inv in H. destruct H as [f4 [E4 H]].
    assert (E4' : length (nodes f4) = length (nodes f3)).
    { destruct (_ && _) in E4; [apply bind_inv in E4; destruct E4 as [rs [_ E4]]; now injection E4 as <-|now apply with_length in E4]. }
    apply bind_inv in H. destruct H as [f5 [E5 H]]. apply with_length in E5. apply bind_inv in H. destruct H as [f6 [E6 H]]. apply with_length in E6.
    apply bind_inv in H. destruct H as [y [_ H]]. apply bind_inv in H. destruct H as [f7 [E7 H]]. apply with_length in E7.
    injection H as <- <- <-. cbn [Mondrian_Model.nodes]. rewrite app_length. cbn [length]. lia.
  Qed.
  Lemma extend_length : forall steps f i k f', uextend steps f i k x label = Ok f' -> (length (nodes f) <= length (nodes f'))%nat.
  Proof.
    induction steps as [|steps IH]; intros f i k f' H; [discriminate|]. cbn [Unbound_Model.extend_block] in H. inv H. inv H. apply bind_inv in H. destruct H as [[probs sum] [_ H]].
    assert (D : exists ex f1, nodes f1 = nodes f /\ (if neq O sum (n_ 0) then (n_ (-1), f) else let (u, f) := uniform O rnd f in (rand_exponential O log_ u sum, f)) = (ex, f1)).
    { destruct (neq O sum (n_ 0)); [eauto|]. unfold uniform. eexists _, _. split; [|reflexivity]. reflexivity. }
    destruct D as [ex [f1 [N1 E1]]]. rewrite E1 in H. clear E1. rewrite <- N1. destruct (_ && _) in H.
    - apply bind_inv in H. destruct H as [[f2 [d [up w]]] [E1 H]]. assert (N2 : nodes f2 = nodes f1).
      { unfold Unbound_Model.choose_split in E1. inv E1. unfold uniform at 1 in E1. inv E1. inv E1. inv E1. inv E1. apply bind_inv in E1. destruct E1 as [[lo hi] [_ E1]]. unfold uniform in E1. now injection E1 as <- _ _ _. }
      apply bind_inv in H. destruct H as [[f3 [a b]] [E2 H]]. apply insert_length in E2. inv H. apply sample_length in E3. apply labels_length in H. rewrite N2 in E2. lia.
    - inv H. apply with_length in E1. inv H. destruct (is_leaf O v2); [apply label_length in H; lia|]. inv H. inv H. apply IH in H. lia.
  Qed.
  Lemma avail_new : forall s f g l, rel s f g -> (length s + length l < length (nodes f))%nat -> exists a, 0 <= a < mn /\ ~ In a (map fst s) /\ ~ In a l.
  Proof.
    intros s f g l R H. destruct (spare (map fst s ++ l) f) as [i [B N]]; [rewrite app_length, map_length; exact H|]. exists i. destruct R as [_ [_ [_ [_ [R5 _]]]]]. split; [lia|]. rewrite in_app_iff in N. tauto.
  Qed.

  (** The descent of a point. *)
  Lemma extend_same : forall steps steps' s f g i j k q f' g', rel s f g -> In (i, j) s -> rd (roots f) k = Ok q ->
    mextend steps' f i k x label = Ok f' -> uextend steps g j k x label = Ok g' -> Z.of_nat (length (nodes g')) <= mn ->
    exists s', rel s' f' g'.
  Proof.
    induction steps as [|steps IH]; intros steps' s f g i j k q f' g' R I Hq Hf Hg Cap; [discriminate|]. destruct steps' as [|steps']; [discriminate|].
    cbn [extend_block] in Hf. cbn [Unbound_Model.extend_block] in Hg.
    destruct (rel_rd _ _ _ _ _ _ _ _ _ _ R I) as [n [m [Hn [Hm [A [G _]]]]]]. rewrite Hn in Hf. rewrite Hm in Hg. cbn [bind] in Hf, Hg.
    rewrite <- (time_same _ _ _ _ _ _ _ _ _ _ R A (or_intror Logic.I)) in Hg. destruct (parent_time O f n) as [pt| | |] eqn:Ept; try discriminate. cbn [bind] in Hf, Hg.
    rewrite <- (distances_same _ _ _ _ _ _ A) in Hg. destruct (distances O fc n x) as [[probs sum]| | |]; try discriminate. cbn [bind] in Hf, Hg.
    pose proof (time_ok _ _ _ _ _ _ _ L _ _ _ _ _ _ _ _ R I Hn Ept) as Tpt.
    assert (D : exists ex f1 g1, rel s f1 g1 /\ nodes f1 = nodes f /\ nodes g1 = nodes g /\ roots f1 = roots f /\
      (if neq O sum (n_ 0) then (n_ (-1), f) else let (u, f) := uniform O rnd f in (rand_exponential O log_ u sum, f)) = (ex, f1) /\
      (if neq O sum (n_ 0) then (n_ (-1), g) else let (u, g) := uniform O rnd g in (rand_exponential O log_ u sum, g)) = (ex, g1)).
    { pose proof R as [_ [_ [_ [_ [_ [_ [_ Dr]]]]]]]. destruct (neq O sum (n_ 0)).
      - exists (n_ (-1)), f, g. auto 10.
      - unfold uniform. rewrite <- Dr. eexists _, _, _. split; [apply (rel_draw O log_ mn lifetime cmp fine e _ _ _ R)|]. rewrite <- Dr. auto 10. }
    destruct D as [ex [f1 [g1 [R1 [Nf [Ng [Rf [Ef Eg]]]]]]]]. rewrite Ef in Hf. rewrite Eg in Hg. clear Ef Eg. rewrite <- Nf in Hn. rewrite <- Ng in Hm. rewrite <- Rf in Hq.
    pose proof A as [A1 [A2 [A3 [A4 [A5 [A6 [A7 [A8 A9]]]]]]]]. rewrite <- A8 in Hg. destruct G as [E1 [E2 [E3 [E4 [E5 E6]]]]].
    destruct (nle O (n_ 0) ex && nlt O (nadd O pt ex) (tau O n)) eqn:Gd.
    - apply andb_prop in Gd. destruct Gd as [Gd1 Gd2]. pose proof (nle0_trans _ _ Tpt (l_add _ _ _ _ _ _ L _ _ _ Gd1 Gd2)) as Tt.
      apply bind_inv in Hg. destruct Hg as [[g2 [d [up v]]] [Hs Hg]]. rewrite A3 in E2. rewrite A4 in E3.
      destruct (split_inv O rnd fc key cmp fine draw L Hdraw x Hx _ _ _ _ _ _ _ _ Hs E2 E3) as [-> [Hd [Hv Hs']]].
      pose proof R1 as [N1 [N2 [R3 [R4 [R5 [R6 [R7 R8]]]]]]].
      destruct (Hs' f1 n Lx R8 A3 A4) as [Hs1 _]. rewrite Hs1 in Hf. cbn [bind] in Hf.
      set (f2 := mkForest O (nodes f1) (roots f1) (S (S (drawn O f1)))) in *. set (g2 := mkForest O (nodes g1) (roots g1) (S (S (drawn O g1)))) in *.
      assert (R2 : rel s f2 g2) by (apply (rel_draw O log_ mn lifetime cmp fine e s _ _ (rel_draw O log_ mn lifetime cmp fine e s f1 g1 R1))).
      apply bind_inv in Hg. destruct Hg as [[g3 [a' b']] [HG Hg]]. inv Hg.
      assert (LG : (length s + 2 <= length (nodes f2))%nat).
      { destruct (insert_length _ _ _ _ _ _ _ _ _ _ HG) as [X _]. apply sample_length in E. apply labels_length in Hg. change (nodes g2) with (nodes g1) in X. change (nodes f2) with (nodes f1). lia. }
      destruct (available_node_ok O mn f2 R5) as [a [Ea Ha]]. rewrite Ea in Hf. cbn [bind] in Hf.
      assert (Ha' : 0 <= a < mn /\ ~ In a (map fst s) /\ rd (nodes f2) a = Ok e).
      { destruct Ha as [[-> Ha]|[Ba [w [W1 W2]]]].
        - exfalso. destruct (avail_new s f2 g2 [] R2 ltac:(cbn [length]; lia)) as [z [B [N _]]]. destruct (rd_in_bounds _ (nodes f2) z) as [w W1]; [change (nodes f2) with (nodes f1); lia|].
          apply (Ha z). exists w. split; [exact W1|]. now apply (rel_free O fc mn key cmp fine draw L e Heav s f2 g2 z w R2 W1).
        - pose proof (proj1 (rel_free O fc mn key cmp fine draw L e Heav s f2 g2 a w R2 W1) W2) as Na. split; [exact Ba|]. split; [exact Na|]. rewrite W1. f_equal. now apply R6 with a. }
      destruct Ha' as [Ba [Na Ha']]. rewrite (proj2 (Z.leb_le 0 a)) in Hf by lia.
      erewrite with_node_ok in Hf; [|exact Ha'|reflexivity]. cbn [bind] in Hf. fold (put f2 a (set_split O e d v (nadd O pt ex))) in Hf. set (f3 := put f2 a (set_split O e d v (nadd O pt ex))) in *.
      assert (L3 : Z.of_nat (length (nodes f3)) = mn) by (unfold f3; rewrite put_length; exact R5).
      assert (D3 : forall z, rd (nodes f3) z = if a =? z then Ok (set_split O e d v (nadd O pt ex)) else rd (nodes f2) z) by (intros z; apply put_rd; change (nodes f2) with (nodes f1); lia).
      destruct (available_node_ok O mn f3 L3) as [b [Eb Hb]]. rewrite Eb in Hf. cbn [bind] in Hf.
      assert (Hb' : 0 <= b < mn /\ ~ In b (map fst s) /\ a <> b).
      { destruct Hb as [[-> Hb]|[Bb [w [W1 W2]]]].
        - exfalso. destruct (avail_new s f2 g2 [a] R2 ltac:(cbn [length]; lia)) as [z [B [N N']]]. destruct (rd_in_bounds _ (nodes f2) z) as [w W1]; [change (nodes f2) with (nodes f1); lia|].
          apply (Hb z). exists w. rewrite D3. rewrite (proj2 (Z.eqb_neq a z)) by (intros ->; apply N'; now left). split; [exact W1|]. now apply (rel_free O fc mn key cmp fine draw L e Heav s f2 g2 z w R2 W1).
        - rewrite D3 in W1. destruct (Z.eqb_spec a b) as [->|Nab].
          + injection W1 as <-. exfalso. unfold available in W2. cbn [tau set_split] in W2. rewrite (not_free O fc key cmp fine draw L _ Tt) in W2. discriminate.
          + split; [exact Bb|]. split; [|exact Nab]. now apply (rel_free O fc mn key cmp fine draw L e Heav s f2 g2 b w R2 W1). }
      destruct Hb' as [Bb [Nb Nab]]. rewrite (proj2 (Z.leb_le 0 b)) in Hf by lia.
      apply bind_inv in Hf. destruct Hf as [[dn f4] [Hf Hf2]]. apply bind_inv in Hf. destruct Hf as [f5 [HF Hf]]. injection Hf as <- <-. injection Hf2 as <-.
      destruct (ins_same s f2 g2 i j n m k a b d up v (nadd O pt ex) (set_split O e d v (nadd O pt ex)) (counters O e) f5 g3 a' b' v0 g' q R2 I Hn Hm Ba Bb Na Nb Nab Tt Hv Hd Hq ltac:(now destruct e) HF HG E Hg) as [s' [Rs _]]. eauto.
    - cbn [bind] in Hf. inv Hf. inv Hg.
      destruct (box_same s f1 g1 i j _ _ R1 I E E0) as [R2 [Rr _]]. rewrite <- Rr in Hq.
      destruct (rel_rd _ _ _ _ _ _ _ _ _ _ R2 I) as [n2 [m2 [Q1 [Q2 [Q3 [Q4 _]]]]]]. rewrite Q1 in Hf. rewrite Q2 in Hg. cbn [bind] in Hf, Hg.
      rewrite <- (leaf_alike _ _ _ _ Q3) in Hg. destruct (is_leaf O n2) eqn:Lf.
      + exists s. now apply (leaf_same s v v0 i j n2 f' g').
      + pose proof Q3 as [B1 [B2 _]]. rewrite <- B1 in Hg. destruct (rd x (split_dimension O n2)) as [y| | |] eqn:Ey; try discriminate. cbn [bind] in Hf, Hg.
        rewrite <- (B2 Lf) in Hg. destruct (split_value O n2) as [w|] eqn:Ew; try discriminate. cbn [bind] in Hf, Hg.
        destruct (down_same s v v0 i j n2 m2 y w R2 I Q1 Q2 Lf Ey Ew) as [Dn Up].
        assert (Hf' : mextend steps' v (if nle O y w then child_left O n2 else child_right O n2) k x label = Ok f').
        { destruct (nle O y w); [exact Hf|]. rewrite (Up eq_refl) in Hf. exact Hf. }
        destruct Dn as [Dn|Dn]; [|now apply (IH steps' s v v0 _ _ k q f' g' R2 Dn Hq Hf' Hg Cap)].
        exfalso. rewrite Dn in Hg. destruct steps; [discriminate|]. cbn [Unbound_Model.extend_block] in Hg. rewrite rd_oob in Hg by lia. discriminate.
  Qed.

  (** A new tree. *)
  Lemma rel_grow : forall s f g a nb mb f' g' k, rel s f g -> 0 <= a < mn -> ~ In a (map fst s) ->
    let a' := Z.of_nat (length (nodes g)) in let s' := (a, a') :: s in
    (forall c, rd (nodes f') c = if c =? a then Ok nb else rd (nodes f) c) -> (forall c, rd (nodes g') c = if c =? a' then Ok mb else rd (nodes g) c) ->
    length (nodes f') = length (nodes f) -> length (nodes g') = (length (nodes g) + 1)%nat -> alike s' nb mb -> sound O cmp fine nb -> parent O nb = -1 ->
    roots f' = upd (roots f) k a -> roots g' = upd (roots g) k a' -> drawn O f' = drawn O g' -> rel s' f' g'.
  Proof.
    intros s f g a nb mb f' g' k R Ba Na a' s' Df Dg Lf Lg Al So Pa Rf Rg Dr. pose proof R as [N1 [N2 [R3 [R4 [R5 [R6 [R7 R8]]]]]]].
    assert (Inc : incl s s') by (intros c Hc; right; exact Hc).
    assert (Bs : forall c c', In (c, c') s -> c <> a /\ c' <> a').
    { intros c c' Hc. destruct (R3 c c' Hc) as [q [r [Q1 [Q2 _]]]]. apply rd_bounds in Q1, Q2. split; [intros ->; apply Na; now apply pair_fst with c'|]. unfold a'. lia. }
    split; [cbn; now constructor|]. split; [|split; [|split; [|split; [|split; [|split]]]]].
    - cbn. constructor; [|exact N2]. intros X. apply in_map_iff in X. destruct X as [[c c'] [Ec X]]. cbn in Ec. subst c'. now apply Bs in X.
    - intros c c' [Hc|Hc].
      + injection Hc as <- <-. exists nb, mb. rewrite Df, Dg, !Z.eqb_refl. split; [reflexivity|]. split; [reflexivity|]. split; [exact Al|]. destruct So as [S1 [S2 [S3 S4]]]. repeat split; auto. lia.
      + destruct (R3 c c' Hc) as [q [r [Q1 [Q2 [Q3 Q4]]]]]. destruct (Bs _ _ Hc) as [B1 B2]. exists q, r. rewrite Df, Dg, (proj2 (Z.eqb_neq c a)), (proj2 (Z.eqb_neq c' a')) by assumption.
        split; [exact Q1|]. split; [exact Q2|]. split; [now apply alike_more with s|]. destruct Q4 as [E1 [E2 [E3 [E4 [E5 E6]]]]]. repeat split; auto.
        destruct E6 as [E6|[np [P1 [P2 P3]]]]; [now left|right]. exists np. split; [now right|]. split; [|exact P3]. rewrite Df. rewrite (proj2 (Z.eqb_neq (parent O q) a)); [exact P2|]. intros X. apply Na. now rewrite <- X.
    - cbn. rewrite Lg, R4. lia.
    - now rewrite Lf.
    - intros c q Hq Nc. cbn in Nc. rewrite Df in Hq. destruct (Z.eqb_spec c a) as [->|D]; [exfalso; apply Nc; auto|]. apply R6 with c; [exact Hq|tauto].
    - rewrite Rf, Rg. apply Forall2_upd; [|right; left; reflexivity]. apply Forall2_imp with (ptr s); [|exact R7]. intros c c' Hc. now apply ptr_more with s.
    - exact Dr.
  Qed.
  Lemma alloc_same : forall s f g a k n' m' f' g', rel s f g -> 0 <= a < mn -> ~ In a (map fst s) ->
    n' = set_tau O (set_children O (set_parent O e (-1)) (-1) (-1)) (n_ 0) -> m' = Unbound_Model.new_leaf O fc lc ->
    sample_block O fc lifetime (put (mkForest O (nodes f) (upd (roots f) k a) (drawn O f)) a n') a x label = Ok f' ->
    Unbound_Model.sample_block O fc lifetime (mkForest O (nodes g ++ [m']) (upd (roots g) k (Z.of_nat (length (nodes g)))) (drawn O g)) (Z.of_nat (length (nodes g))) x label = Ok g' ->
    exists s', rel s' f' g'.
  Proof.
    intros s f g a k n' m' f' g' R Ba Na En Em Hf Hg. set (f1 := mkForest O (nodes f) (upd (roots f) k a) (drawn O f)) in *. set (g1 := mkForest O (nodes g ++ [m']) _ _) in Hg. set (a' := Z.of_nat (length (nodes g))) in *.
    pose proof R as [N1 [N2 [R3 [R4 [R5 [R6 [R7 R8]]]]]]].
    assert (Ha : rd (nodes (put f1 a n')) a = Ok n') by (rewrite put_rd by (change (nodes f1) with (nodes f); lia); now rewrite Z.eqb_refl).
    rewrite (sample_block_ok O fc lc lifetime Hfc x label Lx Hlab (put f1 a n') a n' 0 Ha) in Hf;
      [|rewrite En; cbn; rewrite Hecs; apply repeat_length|rewrite En; cbn; rewrite Hecs; apply rd_repeat; lia|lia]. injection Hf as <-.
    assert (Hm : rd (nodes g1) a' = Ok m') by apply Unbound_Train.rd_last.
    assert (C : closed O (fun _ => False) g1) by (intros c q []).
    pose proof (sample_inv O fc lc lifetime Hfc x label Lx Hlab (fun _ => False) g1 a' m' g' C Hm ltac:(rewrite Em; reflexivity) ltac:(left; rewrite Em; reflexivity) ltac:(tauto) ltac:(rewrite Em; reflexivity) Hg) as S.
    set (mb := set_tau O (set_counters O (set_box O m' pb pb) one) lifetime) in S. set (nb := set_tau O _ lifetime).
    exists ((a, a') :: s). eapply rel_recounted_r; [|exact S].
    apply (rel_grow s f g a nb mb _ _ k R Ba Na).
    - intros c. rewrite !put_rd by (rewrite ?put_length; change (nodes f1) with (nodes f); lia). rewrite (Z.eqb_sym a c). destruct (c =? a); reflexivity.
    - fold a'. intros c. rewrite put_rd by (cbn; rewrite app_length; cbn; lia). rewrite (Z.eqb_sym a' c). destruct (Z.eqb_spec c a') as [->|D]; [reflexivity|]. cbn [g1 Mondrian_Model.nodes].
      destruct (Z.ltb_spec c a') as [Lt|Ge]; [now apply Unbound_Train.rd_app|]. rewrite !rd_oob by (rewrite ?app_length; cbn; lia). reflexivity.
    - now rewrite !put_length.
    - rewrite put_length. cbn. now rewrite app_length.
    - unfold nb, mb. rewrite En, Em. repeat split; cbn; auto; try (left; auto; fail). unfold is_leaf. cbn. rewrite Hedim. discriminate. intros _. now rewrite Hecs.
    - unfold nb. rewrite En. split; [exact Hlife|]. split; [apply pbox_fine|]. split; [apply pbox_fine|]. unfold is_leaf. cbn. rewrite Hedim. discriminate.
    - unfold nb. rewrite En. reflexivity.
    - reflexivity.
    - reflexivity.
    - exact R8.
  Qed.
  Local Notation utrain_tree := (Unbound_Model.train_tree O log_ rnd fc lc lifetime).
  Lemma tree_same : forall s f g k f' g', rel s f g -> mtrain_tree f x label k = Ok f' -> utrain_tree g x label k = Ok g' -> Z.of_nat (length (nodes g')) <= mn ->
    exists s', rel s' f' g'.
  Proof.
    intros s f g k f' g' R Hf Hg Cap. unfold train_tree in Hf. unfold Unbound_Model.train_tree in Hg. apply bind_inv in Hf. destruct Hf as [r [Hr Hf]].
    pose proof R as [N1 [N2 [R3 [R4 [R5 [R6 [R7 R8]]]]]]]. destruct (Forall2_rd _ _ _ _ _ _ _ R7 Hr) as [r' [Hr' Pr]]. rewrite Hr' in Hg. cbn [bind] in Hg.
    rewrite <- (ptr_eqb O mn cmp fine e s f g r r' (-1) (-1) R Pr ltac:(left; auto)) in Hg. destruct (Z.eqb_spec r (-1)) as [->|Nr].
    - unfold Unbound_Model.alloc in Hg. cbn [Mondrian_Model.nodes Mondrian_Model.roots drawn] in Hg. apply bind_inv in Hg. destruct Hg as [rg [Wg Hg]]. apply wr_inv in Wg. destruct Wg as [_ ->].
      assert (LG : (length s + 1 <= length (nodes f))%nat).
      { apply sample_length in Hg. cbn [Mondrian_Model.nodes] in Hg. rewrite app_length in Hg. cbn [length] in Hg. lia. }
      destruct (available_node_ok O mn f R5) as [a [Ea Ha]]. rewrite Ea in Hf. cbn [bind] in Hf.
      assert (Ha' : 0 <= a < mn /\ ~ In a (map fst s) /\ rd (nodes f) a = Ok e).
      { destruct Ha as [[-> Ha]|[Ba [w [W1 W2]]]].
        - exfalso. destruct (avail_new s f g [] R ltac:(cbn [length]; lia)) as [z [B [N _]]]. destruct (rd_in_bounds _ (nodes f) z) as [w W1]; [lia|].
          apply (Ha z). exists w. split; [exact W1|]. now apply (rel_free O fc mn key cmp fine draw L e Heav s f g z w R W1).
        - pose proof (proj1 (rel_free O fc mn key cmp fine draw L e Heav s f g a w R W1) W2) as Na. split; [exact Ba|]. split; [exact Na|]. rewrite W1. f_equal. now apply R6 with a. }
      destruct Ha' as [Ba [Na Ha']]. apply bind_inv in Hf. destruct Hf as [rf [Wf Hf]]. apply wr_inv in Wf. destruct Wf as [_ ->].
      erewrite with_node_ok in Hf; [|exact Ha'|reflexivity]. cbn [bind] in Hf.
      eapply (alloc_same s f g a (Z.to_nat k)); [exact R|exact Ba|exact Na|reflexivity|reflexivity|exact Hf|exact Hg].
    - destruct Pr as [[X _]|I]; [contradiction|]. now apply (extend_same (S (length (nodes g))) (S (Z.to_nat mn)) s f g r r' k r f' g').
  Qed.
  Lemma tree_length : forall g k g', utrain_tree g x label k = Ok g' -> (length (nodes g) <= length (nodes g'))%nat.
  Proof.
    intros g k g' H. unfold Unbound_Model.train_tree in H. apply bind_inv in H. destruct H as [r [_ H]]. destruct (r =? -1); [|now apply extend_length in H].
    unfold Unbound_Model.alloc in H. apply bind_inv in H. destruct H as [rs [_ H]]. apply sample_length in H. cbn [Mondrian_Model.nodes] in H. rewrite app_length in H. cbn [length] in H. lia.
  Qed.
  (** Training with a point. *)
  Definition together (f g : forest) : Prop := Z.of_nat (length (nodes g)) <= mn -> exists s, rel s f g.
  Lemma train_same : forall f g f' g' r r', together f g -> train O log_ rnd tc fc lc mn lifetime f x label = Ok (f', r) -> Unbound_Model.train O log_ rnd tc fc lc lifetime g x label = Ok (g', r') ->
    together f' g'.
  Proof.
    intros f g f' g' r r' T Hf Hg. unfold train in Hf. unfold Unbound_Model.train in Hg.
    refine (forZ_two _ _ (fun _ a b => together (fst a) (fst b)) _ _ (Z.to_nat tc) 0 (f, None) (g, None) (f', r) (g', r') T _ Hf Hg).
    intros j [a ra] [b rb] [a' ra'] [b' rb'] _ Tab Ha Hb Cap. cbn [fst] in *. apply bind_inv in Ha. destruct Ha as [a1 [Ha X]]. injection X as <- _. apply bind_inv in Hb. destruct Hb as [b1 [Hb X]]. injection X as <- _.
    pose proof (tree_length _ _ _ Hb). destruct Tab as [s R]; [lia|]. now apply (tree_same s a b j).
  Qed.
End TrainSame.
