(** * set_weights, and what happens to a network that does not fit *)
From Coq Require Import ZArith List Bool Lia.
From Verif Require Import CppBase CppFacts NumOps Perceptron_Model Perceptron_Spec Perceptron_Proofs.
Import ListNotations.
Local Open Scope Z_scope.

Lemma nth_error_skipn_ : forall A n (l : list A) i, nth_error (skipn n l) i = nth_error l (n + i).
Proof. induction n as [|n IH]; intros [|a l] i; try reflexivity; [now destruct i|]. cbn. apply IH. Qed.

(** The states a successful loop goes through. *)
Lemma forN_mid : forall S (P : nat -> S -> Prop) body n i s s',
  P 0%nat s ->
  (forall k s s', (k < n)%nat -> P k s -> body (i + Z.of_nat k) s = Ok s' -> P (Datatypes.S k) s') ->
  forZ n i body s = Ok s' ->
  P n s' /\ forall k, (k < n)%nat -> exists a b, P k a /\ body (i + Z.of_nat k) a = Ok b.
Proof.
  intros S P body. induction n as [|n IH]; intros i s s' H0 Hs E.
  - cbn in E. injection E as <-. split; [exact H0|]. lia.
  - replace (Datatypes.S n) with (n + 1)%nat in E by lia. rewrite forZ_app in E.
    apply bind_inv in E. destruct E as [s1 [E1 E2]].
    destruct (IH i s s1 H0) as [A B]; [intros; eapply Hs; eauto| exact E1|].
    cbn [forZ] in E2. apply bind_inv in E2. destruct E2 as [s2 [E2 E3]]. injection E3 as <-.
    split; [eapply Hs; [| exact A|exact E2]; lia|].
    intros k Hk. destruct (Nat.eq_dec k n) as [->|Nk]; [eauto|]. apply B. lia.
Qed.

Section Net.
  Variable O : ops.
  Variable sz : list nat.
  Hypothesis Ne : sz <> [].
  Local Notation lc := (Z.of_nat (length sz)).
  Local Notation size := (size sz).
  Local Notation last := (length sz - 1)%nat.
  Local Notation nb := (neurons_before size).
  Local Notation wb := (weights_before size).
  Local Notation place := (place size).
  Local Notation coord := (coord size).
  Local Notation mlp := (mlp O).
  Local Notation zero := (nofZ O 0).
  Local Notation shaped := (shaped O sz).
  Local Notation fits := (fits sz).

  Lemma copy_ok : forall n base from new ws, (from + n <= length new)%nat -> (base + n <= length ws)%nat ->
    exists ws', copy_weights O (Z.of_nat n) (Z.of_nat base) (Z.of_nat from) new ws = Ok ws' /\ length ws' = length ws /\
      (forall i, (i < n)%nat -> nth_error ws' (base + i) = nth_error new (from + i)) /\
      (forall k, (k < base \/ base + n <= k)%nat -> nth_error ws' k = nth_error ws k).
  Proof.
    intros n base from new ws H1 H2. unfold copy_weights. rewrite Nat2Z.id.
    match goal with |- context [forZ _ _ ?f _] =>
      destruct (forN _ (fun k ws' => length ws' = length ws /\
        (forall i, (i < k)%nat -> nth_error ws' (base + i) = nth_error new (from + i)) /\
        (forall j, (j < base \/ base + k <= j)%nat -> nth_error ws' j = nth_error ws j)) f n 0 ws) as [ws' [E [A [B C]]]] end.
    - split; [reflexivity|]. split; [lia|reflexivity].
    - intros k ws1 Hk [A [B C]]. rewrite Z.add_0_l, <- !Nat2Z.inj_add.
      rewrite (rdN_nth _ _ _ zero) by lia. cbn [bind]. rewrite wrN by lia. eexists. split; [reflexivity|].
      rewrite upd_length. split; [exact A|]. split.
      + intros i Hi. destruct (Nat.eq_dec i k) as [->|Nk].
        * rewrite nth_error_upd_same by lia. symmetry. apply nth_error_nth'. lia.
        * rewrite nth_error_upd_other by lia. apply B. lia.
      + intros j Hj. rewrite nth_error_upd_other by lia. apply C. lia.
    - exists ws'. auto.
  Qed.

  Lemma nth_error_same : forall (a b : list (num O)) i j, nth_error a i = nth_error b j -> nth i a zero = nth j b zero.
  Proof.
    intros a b i j H. destruct (nth_error b j) as [v|] eqn:E.
    - rewrite (nth_error_nth _ _ _ E). now apply nth_error_nth.
    - apply nth_error_None in E, H. now rewrite !nth_overflow.
  Qed.

  Variable t : nat.
  Variable m : mlp.
  Hypothesis Sh : shaped t m.

  Lemma set_neuron_ok : forall l i new, fits t -> (1 <= l < length sz)%nat -> (i < size l)%nat -> length new = (size (pred l) + 1)%nat ->
    exists m', set_weights_neuron O m (Z.of_nat l) (Z.of_nat i) new = Ok m' /\
      learning_rate O m' = learning_rate O m /\ layer_size O m' = layer_size O m /\ neuron_output O m' = neuron_output O m /\
      length (weights O m') = t /\
      (forall j, (j <= size (pred l))%nat -> weight_at O sz (weights O m') l i j = nth j new zero) /\
      (forall k, (k < place l i 0 \/ place l i 0 + size (pred l) < k)%nat -> nth_error (weights O m') k = nth_error (weights O m) k).
  Proof.
    intros l i new Fit Hl Hi Hn. unfold set_weights_neuron.
    rewrite (weight_base_ok O sz t m l Sh) by lia. cbn [bind].
    replace (Z.of_nat l - 1) with (Z.of_nat (pred l)) by lia. rewrite (rd_size O sz m t (pred l) Sh) by lia. cbn [bind].
    replace (Z.of_nat (wb l) + (Z.of_nat (size (pred l)) + 1) * Z.of_nat i) with (Z.of_nat (place l i 0))
      by (unfold Perceptron_Spec.place; lia).
    replace (Z.of_nat (size (pred l)) + 1) with (Z.of_nat (size (pred l) + 1)) by lia.
    assert (C : coord l i (size (pred l))) by (split; [lia|split; [exact Hi|lia]]).
    pose proof (ws_range sz t Fit l i (size (pred l)) ltac:(lia) C) as Rw.
    assert (Pp : (place l i (size (pred l)) = place l i 0 + size (pred l))%nat) by (unfold Perceptron_Spec.place; lia).
    destruct Sh as [S1 [S2 S3]].
    change 0 with (Z.of_nat 0) at 1.
    destruct (copy_ok (size (pred l) + 1) (place l i 0) 0 new (weights O m)) as [ws' [E [A [B D]]]]; [lia|lia|].
    rewrite E. cbn [bind]. eexists. split; [reflexivity|]. cbn [with_weights learning_rate layer_size neuron_output weights].
    split; [reflexivity|]. split; [reflexivity|]. split; [reflexivity|]. split; [lia|]. split.
    - intros j Hj. unfold weight_at. replace (place l i j) with (place l i 0 + j)%nat by (unfold Perceptron_Spec.place; lia).
      apply nth_error_same. apply B. lia.
    - intros k Hk. apply D. lia.
  Qed.

  Lemma set_layer_ok : forall l new, fits t -> (1 <= l < length sz)%nat -> length new = ((size (pred l) + 1) * size l)%nat ->
    exists m', set_weights_layer O m (Z.of_nat l) new = Ok m' /\
      learning_rate O m' = learning_rate O m /\ layer_size O m' = layer_size O m /\ neuron_output O m' = neuron_output O m /\
      length (weights O m') = t /\
      (forall i j, (i < size l)%nat -> (j <= size (pred l))%nat ->
         weight_at O sz (weights O m') l i j = nth (i * (size (pred l) + 1) + j) new zero) /\
      (forall k, (k < wb l \/ wb (S l) <= k)%nat -> nth_error (weights O m') k = nth_error (weights O m) k).
  Proof.
    intros l new Fit Hl Hn. unfold set_weights_layer.
    rewrite (weight_base_ok O sz t m l Sh) by lia. cbn [bind].
    replace (Z.of_nat l - 1) with (Z.of_nat (pred l)) by lia. rewrite (rd_size O sz m t (pred l) Sh), (rd_size O sz m t l Sh) by lia. cbn [bind].
    replace ((Z.of_nat (size (pred l)) + 1) * Z.of_nat (size l)) with (Z.of_nat ((size (pred l) + 1) * size l)) by lia.
    assert (Ws : (wb (S l) = wb l + (size (pred l) + 1) * size l)%nat) by (rewrite wb_S by lia; lia).
    assert (Wt : (wb (S l) <= t)%nat).
    { pose proof (wb_mono size (S l) (length sz) ltac:(lia)). destruct Fit. lia. }
    destruct Sh as [S1 [S2 S3]].
    change 0 with (Z.of_nat 0) at 1.
    destruct (copy_ok ((size (pred l) + 1) * size l) (wb l) 0 new (weights O m)) as [ws' [E [A [B D]]]]; [lia|lia|].
    rewrite E. cbn [bind]. eexists. split; [reflexivity|]. cbn [with_weights learning_rate layer_size neuron_output weights].
    split; [reflexivity|]. split; [reflexivity|]. split; [reflexivity|]. split; [lia|]. split.
    - intros i j Hi Hj. unfold weight_at, Perceptron_Spec.place. apply nth_error_same.
      rewrite <- (Nat.add_0_l (i * (size (pred l) + 1) + j)), <- B by nia. f_equal. lia.
    - intros k Hk. apply D. lia.
  Qed.

  Lemma set_all_ok : forall new, fits t -> length new = wb (length sz) ->
    exists m', set_weights_all O lc m new = Ok m' /\
      learning_rate O m' = learning_rate O m /\ layer_size O m' = layer_size O m /\ neuron_output O m' = neuron_output O m /\
      weights O m' = new ++ skipn (wb (length sz)) (weights O m).
  Proof.
    intros new Fit Hn. unfold set_weights_all. pose proof (len_pos sz Ne) as Lp.
    destruct Sh as [S1 [S2 S3]]. destruct Fit as [F1 F2].
    match goal with |- context [forZ _ _ ?f _] =>
      destruct (forN _ (fun k (st : list (num O) * Z) => exists ws, st = (ws, Z.of_nat (wb (S k))) /\ length ws = t /\
        (forall i, (i < wb (S k))%nat -> nth_error ws i = nth_error new i) /\
        (forall i, (wb (S k) <= i)%nat -> nth_error ws i = nth_error (weights O m) i)) f last 1 (weights O m, 0)) as [st [E [ws [-> [A [B C]]]]]] end.
    - exists (weights O m). split; [reflexivity|]. split; [exact S2|]. split; [cbn; lia|reflexivity].
    - intros k st Hk [ws [-> [A [B C]]]]. replace (1 + Z.of_nat k) with (Z.of_nat (S k)) by lia.
      replace (Z.of_nat (S k) - 1) with (Z.of_nat k) by lia. rewrite (rd_size O sz m t k Sh), (rd_size O sz m t (S k) Sh) by lia.
      cbn [bind]. replace ((Z.of_nat (size k) + 1) * Z.of_nat (size (S k))) with (Z.of_nat ((size k + 1) * size (S k))) by lia.
      assert (Ws : (wb (S (S k)) = wb (S k) + (size k + 1) * size (S k))%nat) by (rewrite wb_S by lia; cbn [pred]; lia).
      pose proof (wb_mono size (S (S k)) (length sz) ltac:(lia)) as Wm.
      destruct (copy_ok ((size k + 1) * size (S k)) (wb (S k)) (wb (S k)) new ws) as [ws' [E [A' [B' C']]]]; [lia|lia|].
      rewrite E. cbn [bind]. eexists. split; [reflexivity|]. exists ws'. split; [f_equal; lia|]. split; [lia|]. split.
      + intros i Hi. destruct (Nat.lt_ge_cases i (wb (S k))) as [L|G].
        * rewrite C' by lia. now apply B.
        * replace i with (wb (S k) + (i - wb (S k)))%nat by lia. apply B'. lia.
      + intros i Hi. rewrite C' by lia. apply C. lia.
    - replace (Z.to_nat (lc - 1)) with last by lia. rewrite E. cbn [bind]. eexists. split; [reflexivity|].
      cbn [with_weights learning_rate layer_size neuron_output weights].
      split; [reflexivity|]. split; [reflexivity|]. split; [reflexivity|].
      replace (S last) with (length sz) in * by lia. apply nth_error_ext. intros i.
      destruct (Nat.lt_ge_cases i (wb (length sz))) as [L|G].
      + rewrite B by exact L. symmetry. apply nth_error_app1. lia.
      + rewrite C by exact G. rewrite nth_error_app2 by lia. rewrite nth_error_skipn_. f_equal. lia.
  Qed.

  (** A successful [feed_forward] means that the network fits. *)
  Variable act : num O -> num O.
  Lemma forward_length : forall prev cur ob wbv no no', forward_layer O act m prev cur ob wbv no = Ok no' -> length no' = length no.
  Proof.
    intros prev cur ob wbv no no' E. unfold forward_layer in E.
    refine (proj1 (forN_mid _ (fun _ (n : list (option (num O))) => length n = length no) _ _ _ _ _ eq_refl _ E)).
    intros k a b _ <- H. inv_bind H. inv_bind H. apply wr_inv in H. destruct H as [_ ->]. apply upd_length.
  Qed.

  Lemma feed_needs_fit : forall x o r, (2 <= length sz)%nat -> (1 <= size last)%nat ->
    feed_forward O lc act m x o = Ok r -> fits t.
  Proof.
    intros x o r H2 H1 E. unfold feed_forward in E. pose proof (len_pos sz Ne) as Lp.
    change 0 with (Z.of_nat 0) in E at 1. rewrite (rd_size O sz m t 0 Sh Lp) in E. cbn [bind] in E.
    apply bind_inv in E. destruct E as [no0 [E0 E]].
    assert (L0 : length no0 = t).
    { refine (proj1 (forN_mid _ (fun _ (n : list (option (num O))) => length n = t) _ _ _ _ _ _ _ E0)).
      - apply Sh.
      - intros k a b _ <- H. inv_bind H. apply wr_inv in H. destruct H as [_ ->]. apply upd_length. }
    apply bind_inv in E. destruct E as [st [E1 _]].
    replace (Z.to_nat (lc - 1)) with last in E1 by lia.
    apply (forN_mid _ (fun k (st : list (option (num O)) * Z * Z) =>
      exists no, st = (no, Z.of_nat (nb k), Z.of_nat (wb (S k))) /\ length no = t)) in E1.
    - destruct E1 as [_ E1]. destruct (E1 (last - 1)%nat ltac:(lia)) as [a [b [[no [-> Ln]] E2]]].
      replace (1 + Z.of_nat (last - 1)) with (Z.of_nat last) in E2 by lia.
      rewrite (rd_size O sz m t last Sh) in E2 by lia. cbn [bind] in E2.
      replace (Z.of_nat last - 1) with (Z.of_nat (last - 1)) in E2 by lia.
      rewrite (rd_size O sz m t (last - 1) Sh) in E2 by lia. cbn [bind] in E2.
      apply bind_inv in E2. destruct E2 as [no' [E2 _]]. unfold forward_layer in E2.
      apply (forN_mid _ (fun _ (n : list (option (num O))) => length n = t)) in E2.
      + destruct E2 as [_ E2]. rewrite Nat2Z.id in E2. destruct (E2 (size last - 1)%nat ltac:(lia)) as [a [b' [La E3]]].
        rewrite Z.add_0_l in E3. inv_bind E3. inv_bind E3.
        apply wr_inv in E3. destruct E3 as [E3 _]. apply rd_ok_iff in E4. destruct E4 as [_ E4].
        assert (E5 : (Z.to_nat (Z.of_nat (wb (S (last - 1))) + Z.of_nat (size last - 1) * (Z.of_nat (size (last - 1)) + 1) + Z.of_nat (size (last - 1))) < t)%nat).
        { destruct Sh as [_ [<- _]]. apply nth_error_Some. congruence. }
        replace (S (last - 1)) with last in E5 by lia. split.
        * replace (length sz) with (S (S (last - 1))) by lia. cbn [neurons_before].
          replace (S (last - 1)) with last by lia. lia.
        * replace (length sz) with (S last) by lia. rewrite wb_S by lia. replace (pred last) with (last - 1)%nat by lia.
          clear - E5 H1. generalize dependent (size last). intros q Hq E5. generalize dependent (size (last - 1)). intros p E5.
          destruct q as [|q]; [lia|]. replace (S q - 1)%nat with q in E5 by lia.
          replace (Z.of_nat (wb last) + Z.of_nat q * (Z.of_nat p + 1) + Z.of_nat p) with (Z.of_nat (wb last + q * (p + 1) + p)) in E5 by lia.
          rewrite Nat2Z.id in E5. lia.
      + exact Ln.
      + intros k a b' _ <- H. inv_bind H. inv_bind H. apply wr_inv in H. destruct H as [_ ->]. apply upd_length.
    - exists no0. split; [reflexivity|exact L0].
    - intros k a b Hk [no [-> Ln]] H.
      replace (1 + Z.of_nat k) with (Z.of_nat (S k)) in H by lia.
      rewrite (rd_size O sz m t (S k) Sh) in H by lia. cbn [bind] in H.
      replace (Z.of_nat (S k) - 1) with (Z.of_nat k) in H by lia.
      rewrite (rd_size O sz m t k Sh) in H by lia. cbn [bind] in H.
      inv_bind H. match type of H with Ok ?a = Ok ?b => assert (b = a) as -> by congruence end. clear H. exists v. apply forward_length in E. split; [|lia].
      rewrite (wb_S size (S k)) by lia. cbn [neurons_before pred]. f_equal; [f_equal|]; lia.
  Qed.
End Net.
