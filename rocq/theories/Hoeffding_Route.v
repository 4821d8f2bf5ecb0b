(** * The way to the leaf, and the boxes of the two leaves *)
From Coq Require Import ZArith List Bool Lia Reals Lra.
From Flocq Require Import Core BinarySingleNaN.
From Verif Require Import CppBase CppFacts Dbl DblFacts NumOps NumFacts Utils_Proofs Perceptron_Proofs MCNN_Proofs MCNN_Num.
From Verif Require Import Hoeffding_Model Hoeffding_Spec Hoeffding_Proofs Hoeffding_Num Hoeffding_Once.
Import ListNotations.
Local Open Scope Z_scope.

Section Route.
  Variable O : ops.
  Variable sz : list nat.
  Variable lc : nat.
  Variable max_size node_size : Z.
  Local Notation fcn := (length sz).
  Hypothesis Hf : (1 <= fcn)%nat.
  Hypothesis Hl : (1 <= lc)%nat.
  Hypothesis Pos : forall f, (f < fcn)%nat -> (1 <= size sz f)%nat.
  Hypothesis Two : (2 <= cut sz fcn)%nat.
  Hypothesis Hns : 0 < node_size.
  Local Notation wf := (wf O sz lc max_size node_size).

  Lemma descend_route : forall t x, wf t -> length x = fcn -> forall steps i n, nth_error (nodes O t) i = Some n -> (length (nodes O t) <= i + steps)%nat ->
    exists j, descend O t steps (Z.of_nat i) x = Ok (Z.of_nat j) /\ route O t x i j.
  Proof.
    clear - Hns. intros t x W Lx. induction steps as [|steps IH]; intros i n En H.
    - assert (i < length (nodes O t))%nat by (apply nth_error_Some; congruence). lia.
    - cbn [descend]. rewrite (rdN _ _ _ n) by exact En. cbn [bind]. destruct W as [_ [_ [_ [_ W]]]].
      destruct (W i n En) as [_ [_ [E|[f [cl [cr [v [A [B [C [D [F [G J]]]]]]]]]]]]].
      + assert (L : is_leaf O n = true) by (unfold is_leaf; now rewrite E). rewrite L. exists i. split; [reflexivity|]. now apply route_leaf with n.
      + unfold is_leaf. rewrite B. destruct (Z.ltb_spec (Z.of_nat f) 0); [lia|].
        rewrite (rdN_nth _ _ _ (nofZ O 0)) by lia. cbn [bind]. rewrite C, D, F. cbn [bind].
        destruct (nth_error (nodes O t) cl) as [nl|] eqn:El; [|apply nth_error_None in El; lia].
        destruct (nth_error (nodes O t) cr) as [nr|] eqn:Er; [|apply nth_error_None in Er; lia].
        destruct (nle O (nth f x (nofZ O 0)) v) eqn:Ev; [destruct (IH cl nl El) as [j [E1 E2]]|destruct (IH cr nr Er) as [j [E1 E2]]]; try lia; exists j; (split; [exact E1|]).
        * apply route_node with n f v cl; auto. now rewrite Ev, D.
        * apply route_node with n f v cr; auto. now rewrite Ev, F.
  Qed.
  Lemma sort_route : forall t x, wf t -> length x = fcn -> exists j, sort_in_leaf O max_size node_size t x = Ok (Z.of_nat j) /\ route O t x 0 j.
  Proof.
    intros t x W Lx. unfold sort_in_leaf. pose proof W as [_ [_ [L1 [Rm _]]]].
    destruct (nth_error (nodes O t) 0) as [n|] eqn:E; [|apply nth_error_None in E; lia].
    apply (descend_route t x W Lx _ 0%nat n E). pose proof (bytes_pos sz lc Hf Hl Pos Two) as B.
    assert (Z.of_nat (length (nodes O t)) <= max_size / node_size) by (apply Z.div_le_lower_bound; [lia|]; lia). lia.
  Qed.
End Route.

Section Halves.
  Variable log_ log2_ : dbl -> dbl.
  Variable sz : list nat.
  Variable lc : nat.
  Variable max_size node_size : Z.
  Local Notation fcn := (length sz).
  Local Notation lz := (Z.of_nat lc).
  Local Notation tree := (tree dops).
  Hypothesis Hf : (1 <= fcn)%nat.
  Hypothesis Hl : (1 <= lc)%nat.
  Hypothesis Pos : forall f, (f < fcn)%nat -> (1 <= size sz f)%nat.
  Hypothesis Two : (2 <= cut sz fcn)%nat.
  Hypothesis Hns : 0 < node_size.
  Hypothesis Hms : max_size < 2 ^ 31.
  Local Notation reached := (reached dops sz log_ log2_ dinf lz max_size node_size).

  Definition below_all : list dbl := repeat dninf fcn.
  Definition above_all : list dbl := repeat dinf fcn.
  Definition left_half (n : node dops) (g : nat) (v : dbl) : Prop :=
    split_feature dops n = -1 /\ l_box dops n = below_all /\ u_box dops n = upd above_all g v.
  Definition right_half (n : node dops) (g : nat) (v : dbl) : Prop :=
    split_feature dops n = -1 /\ l_box dops n = upd below_all g v /\ u_box dops n = above_all.
  Definition halves (t : tree) : Prop :=
    length (nodes dops t) = 1%nat \/
    exists root nl nr g v, nodes dops t = [root; nr; nl] /\ (g < fcn)%nat /\ split_feature dops root = Z.of_nat g /\ split_value dops root = Some v /\
      child_left dops root = 2 /\ child_right dops root = 1 /\ left_half nl g v /\ right_half nr g v.

  Lemma le_not_lt : forall x v, dle x v = true -> dlt v x = false.
  Proof. clear. intros x v H. apply dle_iff in H. apply dlt_not. intros [_ [_ L]]. lra. Qed.
  Lemma not_le_not_lt : forall x v, dle x v = false -> dlt x v = false.
  Proof.
    clear. intros x v H. apply dlt_not. intros [A [B L]]. assert (dle x v = true) by (apply dle_iff; repeat split; auto; lra). congruence.
  Qed.
  Lemma grow_high_inf : forall x, grown_high dops sz x above_all = above_all.
  Proof.
    intros x. unfold grown_high, above_all. transitivity (map (fun _ => dinf) (seq 0 fcn)); [|apply map_seq_const]. apply map_seq_ext. intros k Hk. rewrite nth_repeat_lt by exact Hk.
    cbn [nlt dops]. replace (dlt dinf (nth k x (nofZ dops 0))) with false by (destruct (nth k x (nofZ dops 0)) as [[]|[]| |[] ? ? ?]; reflexivity). reflexivity.
  Qed.
  Lemma grow_low_inf : forall x, grown_low dops sz x below_all = below_all.
  Proof.
    intros x. unfold grown_low, below_all. transitivity (map (fun _ => dninf) (seq 0 fcn)); [|apply map_seq_const]. apply map_seq_ext. intros k Hk. rewrite nth_repeat_lt by exact Hk.
    cbn [nlt dops]. replace (dlt (nth k x (nofZ dops 0)) dninf) with false by (destruct (nth k x (nofZ dops 0)) as [[]|[]| |[] ? ? ?]; reflexivity). reflexivity.
  Qed.
  Lemma nth_upd_rep : forall (a v : dbl) n g k d, (g < n)%nat -> (k < n)%nat -> nth k (upd (repeat a n) g v) d = if Nat.eqb g k then v else a.
  Proof.
    clear. intros a v n g k d Hg Hk. apply nth_error_nth. destruct (Nat.eqb_spec g k) as [<-|N].
    - apply nth_error_upd_same. now rewrite repeat_length.
    - rewrite nth_error_upd_other by exact N. apply nth_error_repeat. exact Hk.
  Qed.
  Lemma rep_as_map : forall (a v : dbl) n g, (g < n)%nat -> upd (repeat a n) g v = map (fun k => if Nat.eqb g k then v else a) (seq 0 n).
  Proof.
    clear. intros a v n g Hg. apply (nth_ext _ _ a a); [now rewrite upd_length, repeat_length, map_length, seq_length|].
    intros k Hk. rewrite upd_length, repeat_length in Hk. rewrite nth_upd_rep by assumption. symmetry. apply nth_error_nth. now rewrite nth_error_map_seq.
  Qed.
  Lemma grow_high_half : forall x g v, (g < fcn)%nat -> dle (nth g x (nofZ dops 0)) v = true -> grown_high dops sz x (upd above_all g v) = upd above_all g v.
  Proof.
    intros x g v Hg H. unfold grown_high, above_all. rewrite rep_as_map by exact Hg. apply map_seq_ext. intros k Hk. rewrite <- rep_as_map by exact Hg. rewrite nth_upd_rep by assumption.
    destruct (Nat.eqb_spec g k) as [<-|N]; cbn [nlt dops].
    - now rewrite le_not_lt by exact H.
    - replace (dlt dinf (nth k x (nofZ dops 0))) with false by (destruct (nth k x (nofZ dops 0)) as [[]|[]| |[] ? ? ?]; reflexivity). reflexivity.
  Qed.
  Lemma grow_low_half : forall x g v, (g < fcn)%nat -> dle (nth g x (nofZ dops 0)) v = false -> grown_low dops sz x (upd below_all g v) = upd below_all g v.
  Proof.
    intros x g v Hg H. unfold grown_low, below_all. rewrite rep_as_map by exact Hg. apply map_seq_ext. intros k Hk. rewrite <- rep_as_map by exact Hg. rewrite nth_upd_rep by assumption.
    destruct (Nat.eqb_spec g k) as [<-|N]; cbn [nlt dops].
    - now rewrite not_le_not_lt by exact H.
    - replace (dlt (nth k x (nofZ dops 0)) dninf) with false by (destruct (nth k x (nofZ dops 0)) as [[]|[]| |[] ? ? ?]; reflexivity). reflexivity.
  Qed.
  Lemma left_grown : forall n g v x, (g < fcn)%nat -> left_half n g v -> nle dops (nth g x (nofZ dops 0)) v = true -> left_half (grown dops sz n x) g v.
  Proof. intros n g v x Hg [A [B C]] H. split; [exact A|]. cbn [l_box u_box grown]. rewrite B, C. split; [apply grow_low_inf|now apply grow_high_half]. Qed.
  Lemma right_grown : forall n g v x, (g < fcn)%nat -> right_half n g v -> nle dops (nth g x (nofZ dops 0)) v = false -> right_half (grown dops sz n x) g v.
  Proof. intros n g v x Hg [A [B C]] H. split; [exact A|]. cbn [l_box u_box grown]. rewrite B, C. split; [now apply grow_low_half|apply grow_high_inf]. Qed.

  Lemma halves_train : forall dl t h x l t' r, reached dl t h -> halves t -> length x = fcn -> 0 <= l < lz ->
    train dops log_ log2_ dinf (Z.of_nat fcn) lz max_size node_size t x l = Ok (t', r) -> halves t'.
  Proof.
    intros dl t h x l t' r R Hh Lx Hll E. pose proof (reached_once log_ log2_ sz lc max_size node_size Hf Hl Pos Two Hns Hms dl t h R) as [Rm On].
    pose proof (train_ok dops log_ log2_ dinf sz lc max_size node_size Hf Hl Pos Two Hns dl t h x (Z.to_nat l) Rm Lx ltac:(lia)) as T. rewrite Z2Nat.id in T by lia.
    destruct (Z.ltb_spec (size_of h) 2147483647) as [Hn|Hn]; [|congruence].
    destruct T as [i [n [b [rest [cs [Es [En [Lf [Eb [Hb [Ad T]]]]]]]]]]]. unfold train_result in T.
    destruct On as [[n0 [Nn [Bn Ln]]]|[L3 [_ [b0 [rest0 [Eb0 [Bl [Ns Bp]]]]]]]].
    - assert (i = 0%nat /\ n = n0) as [-> ->]. { rewrite Nn in En. destruct i as [|[|i]]; cbn in En; try discriminate. split; congruence. }
      destruct (decision dops log_ log2_ sz lc (delta dops t) b cs) as [[fz v]|].
      + set (f := recovered sz (fst (winners dops sz (mean dops log2_ sz lc b cs)))) in *. rewrite Nn in T. cbn [length] in T.
        destruct (room sz lc max_size node_size (2 + 1)) eqn:R3; [|congruence]. destruct T as [cs' [Ad' T]]. cbv zeta in T. rewrite E in T.
        set (m := grown dops sz n0 x) in *. pose proof (boundless_grown sz n0 x Bn) as [M1 M2]. fold m in M1, M2.
        assert (Hff : (f < fcn)%nat) by (now apply recovered_range).
        assert (Hle : left_half (left_of dops m f v) f v) by (split; [reflexivity|]; cbn [l_box u_box left_of]; rewrite M1, M2; split; reflexivity).
        assert (Hri : right_half (right_of dops m f v) f v) by (split; [reflexivity|]; cbn [l_box u_box right_of]; rewrite M1, M2; split; reflexivity).
        right. destruct (nle dops (nth f x (nofZ dops 0)) v) eqn:Ev.
        * exists (inner dops m f v 1), (grown dops sz (left_of dops m f v) x), (right_of dops m f v), f, v.
          split; [match type of T with _ = Ok (?a, _) => assert (t' = a) as -> by congruence end; reflexivity|].
          split; [exact Hff|]. repeat (split; [reflexivity|]). split; [now apply left_grown|exact Hri].
        * exists (inner dops m f v 1), (left_of dops m f v), (grown dops sz (right_of dops m f v) x), f, v.
          split; [match type of T with _ = Ok (?a, _) => assert (t' = a) as -> by congruence end; reflexivity|].
          split; [exact Hff|]. repeat (split; [reflexivity|]). split; [exact Hle|now apply right_grown].
      + left. assert (t' = with_nodes dops t (upd (nodes dops t) 0 (grown dops sz n0 x)) (next_block dops log2_ sz lc b cs :: rest)) as -> by congruence.
        cbn [nodes with_nodes]. rewrite Nn. reflexivity.
    - rewrite Eb in Eb0. injection Eb0 as <- <-. pose proof (size_of_nonneg _ h) as H0.
      rewrite (settled_waits log_ log2_ sz lc Hf Hl Pos Two (delta dops t) b h x (Z.to_nat l) cs) in T by (auto; lia).
      assert (t' = with_nodes dops t (upd (nodes dops t) i (grown dops sz n x)) (next_block dops log2_ sz lc b cs :: rest)) as -> by congruence.
      destruct Hh as [L1|[root [nl [nr [g [v [Nn [Hg [Sf [Sv [Cl [Cr [Ll Rr]]]]]]]]]]]]]; [lia|].
      destruct (sort_route dops sz lc max_size node_size Hf Hl Pos Two Hns t x (proj1 Rm) Lx) as [j [Ej Rj]]. rewrite Es in Ej. assert (i = j) by (apply Nat2Z.inj; congruence). subst j.
      assert (St : i = if nle dops (nth g x (nofZ dops 0)) v then 2%nat else 1%nat).
      { rewrite Nn in En. inversion Rj as [i' n' E1 E2 E3|i' n' f' v' c j E1 E2 E3 E4 E5]; subst.
        - rewrite Nn in E1. cbn in E1. assert (n' = root) by congruence. subst n'. unfold is_leaf in E2. rewrite Sf in E2. apply Z.ltb_lt in E2. lia.
        - rewrite Nn in E1. cbn in E1. assert (n' = root) by congruence. subst n'. rewrite Sf in E2. apply Nat2Z.inj in E2. subst f'. rewrite Sv in E3. assert (v' = v) by congruence. subst v'.
          rewrite Cl, Cr in E4. assert (Ec : c = if nle dops (nth g x (nofZ dops 0)) v then 2%nat else 1%nat) by (destruct (nle dops (nth g x (nofZ dops 0)) v); lia).
          rewrite <- Ec. inversion E5 as [i' n' F1 F2 F3|i' n' f' v' c' j F1 F2 F3 F4 F5]; subst; [reflexivity|]. exfalso.
          rewrite Nn in F1. destruct (nle dops (nth g x (nofZ dops 0)) v); cbn in F1; [destruct Ll as [Q _]|destruct Rr as [Q _]]; injection F1 as <-; rewrite Q in F2; lia. }
      right. rewrite Nn in En. destruct (nle dops (nth g x (nofZ dops 0)) v) eqn:Ev; subst i; cbn in En.
      + exists root, (grown dops sz n x), nr, g, v. cbn [nodes with_nodes]. rewrite Nn. split; [reflexivity|]. repeat (split; [assumption|]). split; [|exact Rr]. assert (nl = n) by congruence. subst n. now apply left_grown.
      + exists root, nl, (grown dops sz n x), g, v. cbn [nodes with_nodes]. rewrite Nn. split; [reflexivity|]. repeat (split; [assumption|]). assert (nr = n) by congruence. subst n. now apply right_grown.
  Qed.
  Lemma reached_halves : forall dl t h, reached dl t h -> halves t.
  Proof.
    intros dl t h R. induction R as [t E|t h new t' R IH Ln E|t h x l t' r R IH Lx Hll E Eq|t h x l t' r R IH Lx Hll E Ne].
    - left. rewrite (init_ok dops dinf sz lc max_size node_size Hf Hl Pos Two Hns) in E. destruct (room _ _ _ _ _); [|discriminate]. injection E as <-. reflexivity.
    - pose proof (reached_remembers dops log_ log2_ dinf sz lc max_size node_size Hf Hl Pos Two Hns dl t h R) as Rm.
      assert (Ln' : length new = cut sz fcn). { rewrite Ln. destruct Rm as [[[_ Sz] _] _]. rewrite Sz, (bins_cands sz lc Hf Hl Pos Two). apply Nat2Z.id. }
      destruct (set_limits_remembers dops sz lc max_size node_size Hf Hl Pos Two dl t h new t' Rm Ln' E) as [_ Nn]. unfold halves. rewrite Nn. exact IH.
    - now apply (halves_train dl t h x l t' r).
    - now apply (halves_train dl t h x l t' r).
  Qed.
End Halves.
